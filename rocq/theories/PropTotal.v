(** * PropTotal: C145, a file that parses is formatted *)
From Coq Require Import Permutation.
From Verif Require Import Base Regex Lex LexProofs LexClass PropLex TextOps TextProofs Tree Parse ParseProofs PropParse
  CmdSpec StdSpecs StdDb StdWf PropStd Layout LayoutProofs ParseShape StdShape NamesShape Pieces Writing PropLayout
  Markup MarkupProofs Pipeline PropPass TidyShape PropFile ParseSame.

(** ** The shape of statements and blocks *)
(** statement and body in turn *)
Fixpoint turns (stmt : bool) (cs : list box) : bool :=
  match cs with
  | nil => true
  | b :: cs' => (if stmt then is_statement_k (bkind b) else is_body_k (bkind b)) && turns (negb stmt) cs'
  end.
Definition firm_k (k : kind) (cs : list box) : bool :=
  match k with
  | KStatement _ =>
      match cs with
      | fn :: lp :: ag :: rp :: tl =>
          is_funname_k (bkind fn) && is_lparen_k (bkind lp) && is_arggroup_k (bkind ag)
          && is_rparen_k (bkind rp) && tail_ok tl
      | _ => false
      end
  | KAtStmt => match cs with aw :: tl => is_atword_k (bkind aw) && tail_ok tl | nil => false end
  | KFlow => match cs with _ :: _ :: _ => turns true cs | _ => false end
  | _ => true
  end.
Fixpoint firm (b : box) : bool :=
  match b with B k _ cs => firm_k k cs && forallb firm cs end.
(** every block ends with its closing command *)
Definition shut (cs : list box) : bool :=
  match last_box cs with Some b => is_statement_k (bkind b) | None => false end.
Fixpoint closed_b (b : box) : bool :=
  match b with
  | B k _ cs => (match k with KFlow => shut cs | _ => true end) && forallb closed_b cs
  end.
(** the comments of a tree *)
Fixpoint remarks (b : box) : list (bool * list pnode) :=
  match b with
  | B k p cs => (match k with KComment x => [(x, p)] | _ => nil end) ++ flat_map remarks cs
  end.
(** the comment formatter has an answer, at least one line, at every width *)
Definition wraps (e : env) (q : bool * list pnode) : Prop :=
  is_bracket (snd q) = true \/ forall w, exists l ls, cmt e (fst q) (snd q) w = Ok (l :: ls).

(** ** Configuration *)
Definition dangle_ok (c : fcfg) : bool :=
  smem (f_dangle_align c) [$"prefix"; $"prefix-indent"; $"child"].
(** every list of passes begins with pass 0 and has no negative pass *)
Definition passes_ok (c : fcfg) : Prop := forall k,
  match node_passes c k with
  | (p, _) :: _ => p = 0 /\ Forall (fun q => 0 <= fst q) (node_passes c k)
  | nil => False
  end.
Lemma default_passes_ok c : f_passes c = nil -> passes_ok c.
Proof.
  intros H k. unfold node_passes. rewrite H. cbn [passes_lookup].
  destruct k; cbn; (split; [reflexivity|repeat constructor; cbn; lia]).
Qed.

(** ** Layout *)
Definition tot (f : rfn) : Prop := forall path term cur pass, 0 <= pass -> exists l o, f path term cur pass = Ok (l, o).
Definition totc (ch : chd) : Prop := tot (snd ch).

Ltac useC H path term cur pass :=
  let l := fresh "l" in let o := fresh "o" in let E := fresh "E" in
  destruct (H path term cur pass) as (l & o & E); [assumption|]; rewrite E; cbn [bindr].

Section Run.
  Variable e : env.
  Hypothesis Hd : dangle_ok (cfg e) = true.

  Lemma dangle_total start r cc : exists q, dangle_cursor (cfg e) start r cc = Ok q.
  Proof.
    unfold dangle_ok in Hd. cbn [smem existsb] in Hd. unfold dangle_cursor.
    destruct (seqb _ $"prefix"); [eauto|]. destruct (seqb _ $"prefix-indent"); [eauto|].
    destruct (seqb _ $"child"); [eauto|discriminate].
  Qed.

  Lemma body_total path pass : 0 <= pass -> forall cs, Forall totc cs -> forall colc cur v x,
    exists q, body_children path pass cs colc cur v x = Ok q.
  Proof.
    intros Hp. induction 1 as [|ch cs H _ IH]; intros colc cur v x; cbn [body_children]; [eauto|].
    useC H path false colc pass.
    destruct (IH (Cur (row o + 1) (colm colc)) o (v && lvalid l) (Z.max x (lext l))) as ([[[ls c'] v'] x'] & E2).
    rewrite E2. cbn [bindr]. eauto.
  Qed.
  Lemma flow_total path pass tab : 0 <= pass -> forall cs, Forall totc cs -> forall want colc cur v x,
    turns want (map fst cs) = true -> (cs = nil -> want = false) -> (cs <> nil -> shut (map fst cs) = true) ->
    exists q, flow_children tab path pass cs want colc cur v x = Ok q.
  Proof.
    intros Hp. induction 1 as [|ch cs H Hc IH]; intros want colc cur v x Ht Hn Hs; cbn [flow_children].
    { rewrite Hn by reflexivity. eauto. }
    cbn [map turns] in Ht. apply andb_prop in Ht as [Hk Ht].
    assert (Hl : cs = nil -> want = true).
    { intros ->. specialize (Hs ltac:(discriminate)). unfold shut, last_box in Hs. cbn in Hs.
      destruct want; [reflexivity|]. destruct (bkind (fst ch)); discriminate. }
    assert (Hs2 : cs <> nil -> shut (map fst cs) = true).
    { intros Hne. specialize (Hs ltac:(discriminate)). destruct cs as [|c2 cs]; [congruence|].
      unfold shut, last_box in *. cbn [map rev] in *. rewrite <- app_assoc in Hs. cbn [app] in Hs.
      destruct (rev (map fst cs)); cbn [app] in *; exact Hs. }
    destruct want; unfold Layout.ckind; rewrite Hk; cbn [negb].
    - useC H path false colc pass.
      destruct (IH false (Cur (row o + 1) (colm colc)) o (v && lvalid l) (Z.max x (lext l))) as ([[[ls c'] v'] x'] & E2); auto.
      rewrite E2. cbn [bindr]. eauto.
    - useC H path false (shift colc tab) pass.
      destruct (IH true (Cur (row o + 1) (colm colc)) o (v && lvalid l) (Z.max x (lext l))) as ([[[ls c'] v'] x'] & E2); auto.
      { intros E0. specialize (Hl E0). discriminate. }
      rewrite E2. cbn [bindr]. eauto.
  Qed.
  Lemma parg_total lw path pass term wrap : 0 <= pass -> forall cs, Forall totc cs -> forall prev colc cur v x rows,
    exists q, parg_children lw path pass term wrap cs prev colc cur v x rows = Ok q.
  Proof.
    intros Hp. induction 1 as [|ch cs H Hc IH]; intros prev colc cur v x rows; cbn [parg_children]; [eauto|].
    destruct (match prev with None => _ | Some p => _ end) as [[[colc1 cur1] at_col] rows1].
    destruct (H path (term && match cs with nil => true | _ => false end) cur1 pass) as (l1 & c1 & E1); auto.
    rewrite E1. cbn [bindr].
    match goal with |- context [if ?c then _ else _] => destruct c end.
    - destruct (H path (term && match cs with nil => true | _ => false end) (Cur (row cur1 + 1) (colm colc1)) pass) as (l2 & c2 & E2); auto.
      rewrite E2. cbn [bindr].
      edestruct IH as ([[[[ls c'] v'] x'] rows'] & E3). rewrite E3. cbn [bindr]. eauto.
    - cbn [bindr]. edestruct IH as ([[[[ls c'] v'] x'] rows'] & E3). rewrite E3. cbn [bindr]. eauto.
  Qed.
  Lemma arg_total lw path pass term wrap : 0 <= pass -> forall cs, Forall totc cs -> forall prev colc cur v x,
    exists q, arg_children lw path pass term wrap cs prev colc cur v x = Ok q.
  Proof.
    intros Hp. induction 1 as [|ch cs H Hc IH]; intros prev colc cur v x; cbn [arg_children]; [eauto|].
    destruct (match prev with None => _ | Some p => _ end) as [[colc1 cur1] first].
    destruct (H path (term && match cs with nil => true | _ => false end) cur1 pass) as (l1 & c1 & E1); auto.
    rewrite E1. cbn [bindr].
    match goal with |- context [if ?c then _ else _] => destruct c end.
    - destruct (H path (term && match cs with nil => true | _ => false end) (Cur (row colc1 + 1) (colm colc1)) pass) as (l2 & c2 & E2); auto.
      rewrite E2. cbn [bindr]. edestruct IH as ([[[ls c'] v'] x'] & E3). rewrite E3. cbn [bindr]. eauto.
    - cbn [bindr]. edestruct IH as ([[[ls c'] v'] x'] & E3). rewrite E3. cbn [bindr]. eauto.
  Qed.
  Lemma pgroup_total lw path pass term wrap : 0 <= pass -> forall cs, Forall totc cs -> forall prev colc cur v x,
    exists q, pgroup_children lw path pass term wrap cs prev colc cur v x = Ok q.
  Proof.
    intros Hp. induction 1 as [|ch cs H Hc IH]; intros prev colc cur v x; cbn [pgroup_children]; [eauto|].
    set (cur1 := match prev with None => _ | Some p => _ end).
    destruct (H path (term && match cs with nil => true | _ => false end) cur1 pass) as (l1 & c1 & E1); auto.
    rewrite E1. cbn [bindr].
    match goal with |- context [if ?c then _ else _] => destruct c end.
    - destruct (H path (term && match cs with nil => true | _ => false end) (Cur (row colc + 1) (colm colc)) pass) as (l2 & c2 & E2); auto.
      rewrite E2. cbn [bindr]. edestruct IH as ([[[ls c'] v'] x'] & E3). rewrite E3. cbn [bindr]. eauto.
    - cbn [bindr]. edestruct IH as ([[[ls c'] v'] x'] & E3). rewrite E3. cbn [bindr]. eauto.
  Qed.
  Lemma count_total cs : forallb in_arg (map fst cs) = true -> exists n, count_subgroups cs = Ok n.
  Proof.
    induction cs as [|ch cs IH]; cbn [count_subgroups map forallb]; [eauto|]. intros H. apply andb_prop in H as [H1 H2].
    destruct (IH H2) as (n & ->). cbn [bindr]. unfold in_arg in H1. unfold Layout.ckind.
    destruct (bkind (fst ch)); try discriminate; eauto.
  Qed.
  Lemma close_total path pass start rp cs4 dangle initial dcur : 0 <= pass -> totc rp -> Forall totc cs4 ->
    tail_ok (map fst cs4) = true ->
    exists q, stmt_close (cfg e) path pass start rp cs4 dangle initial dcur = Ok q.
  Proof.
    intros Hp Hr Hc Ht. unfold stmt_close. useC Hr path false initial pass.
    destruct cs4 as [|cm [|? ?]]; [eauto| |discriminate]. cbn [map tail_ok] in Ht. unfold Layout.ckind. rewrite Ht. cbn [negb].
    apply Forall_inv in Hc. useC Hc path false (shift o 1) pass.
    destruct (_ && _).
    - useC Hr path false dcur pass. useC Hc path false o1 pass.
      destruct (lext l2 >? _); [|cbn [bindr]; eauto].
      cbn [bindr]. useC Hc path false (Cur (row o1 + 1) (colm start)) pass. eauto.
    - cbn [bindr]. destruct (lext l0 >? _); [|cbn [bindr]; eauto].
      cbn [bindr]. useC Hc path false (Cur (row (shift o 1) + 1) (colm start)) pass. eauto.
  Qed.

  Lemma once_total k p cs path term cur pass wrap : 0 <= pass -> Forall totc cs ->
    wfb (B k p (map fst cs)) = true -> firm (B k p (map fst cs)) = true -> closed_b (B k p (map fst cs)) = true ->
    (forall x, k = KComment x -> wraps e (x, p)) ->
    exists a, reflow_once e (B k p (map fst cs)) cs path term cur pass wrap = Ok a.
  Proof.
    intros Hp Hc Hw Hf Hcl Hm. unfold reflow_once. cbn [bkind bpcs].
    cbn [wfb] in Hw. apply andb_prop in Hw as [_ Hw]. cbn [firm] in Hf. apply andb_prop in Hf as [Hf _].
    cbn [closed_b] in Hcl. apply andb_prop in Hcl as [Hcl _].
    assert (Hsc : has_tok p = true -> tail_ok (map fst cs) = true -> exists a, reflow_scalar p cs path cur pass wrap = Ok a).
    { intros Ht Ho. destruct p as [|[t|] p]; try discriminate. unfold reflow_scalar.
      destruct (flow_text cur (spelling t)) as [c1 e1]. destruct cs as [|ch [|? ?]]; [eauto| |discriminate].
      cbn [map tail_ok] in Ho. unfold Layout.ckind. rewrite Ho. cbn [negb]. apply Forall_inv in Hc.
      useC Hc path false (shift c1 1) pass. eauto. }
    destruct k.
    - (* body *) unfold reflow_body. destruct (body_total path pass Hp cs Hc cur cur true 0) as ([[[ls c] v] x] & ->). cbn [bindr]. eauto.
    - (* whitespace *) unfold reflow_white. eauto.
    - (* comment *) unfold reflow_comment. destruct (Hm _ eq_refl) as [Hb|Hb]; cbn [fst snd] in Hb.
      + rewrite Hb. destruct (flow_text _ _). eauto.
      + destruct (is_bracket p); [destruct (flow_text _ _); eauto|].
        destruct (Hb (f_linewidth (cfg e) - colm cur)) as (l & ls & ->). cbn [bindr]. eauto.
    - (* statement *) cbn [firm_k] in Hf. unfold reflow_statement.
      destruct cs as [|fn [|lp [|ag [|rp tl]]]]; try discriminate. cbn [map] in Hf.
      apply andb_prop in Hf as [Hf H5]. apply andb_prop in Hf as [Hf H4]. apply andb_prop in Hf as [Hf H3]. apply andb_prop in Hf as [H1 H2].
      apply Forall_cons_iff in Hc as [C1 Hc]. apply Forall_cons_iff in Hc as [C2 Hc]. apply Forall_cons_iff in Hc as [C3 Hc]. apply Forall_cons_iff in Hc as [C4 Hc].
      unfold Layout.ckind. rewrite H1, H2, H3, H4. cbn [negb].
      useC C1 path false cur pass.
      set (c1 := if need_paren_space _ _ then _ else _).
      useC C2 path false c1 pass.
      set (wr := if _ <=? _ then _ else _). set (colc := if wr then _ else _).
      useC C3 path true colc pass.
      match goal with |- context [let '(_, _) := ?z in _] => destruct z as [dangle v0] end.
      destruct (dangle_total cur (row o1 + 1) (colm colc)) as (dcur & ->). cbn [bindr].
      destruct (close_total path pass cur rp tl dangle (if dangle then dcur else o1) dcur Hp C4 Hc H5) as ([[[ls c4] v1] x1] & ->).
      cbn [bindr]. eauto.
    - (* block *) cbn [firm_k] in Hf. unfold reflow_flow.
      destruct cs as [|a [|b cs]]; try discriminate.
      destruct (flow_total path pass (f_tab (cfg e)) Hp _ Hc true cur cur true 0 Hf) as ([[[ls c] v] x] & ->); try discriminate; auto.
      cbn [bindr]. eauto.
    - (* command name *) apply andb_prop in Hw as [Hw Hn]. apply andb_prop in Hw as [Hw _]. apply Hsc; auto. destruct (map fst cs); [reflexivity|discriminate].
    - (* arguments *) unfold reflow_arg. destruct (count_total cs Hw) as (n & ->). cbn [bindr].
      destruct (arg_total (f_linewidth (cfg e)) path pass term wrap Hp cs Hc None cur cur true (colm cur)) as ([[[ls c] v] x] & ->). cbn [bindr]. eauto.
    - (* keyword group *) unfold reflow_kwarg.
      destruct cs as [|kw cs]; [discriminate|]. apply Forall_cons_iff in Hc as [C1 Hc].
      cbn [map] in Hw. destruct (fst kw) as [k1 p1 c1] eqn:Ek.
      assert (H1 : is_keyword_k k1 = true /\ match cs with nil | [_] => True | _ => False end).
      { destruct k1; try discriminate; destruct cs as [|? [|? ?]]; try discriminate; auto. }
      destruct H1 as [H1 H2]. unfold Layout.ckind. rewrite Ek. cbn [bkind bpcs]. rewrite H1. cbn [negb].
      replace (zlen (kw :: cs) >? 2) with false by (destruct cs as [|? [|? ?]]; [reflexivity|reflexivity|destruct H2]).
      useC C1 path false cur pass. destruct cs as [|ch cs]; [eauto|]. apply Forall_inv in Hc.
      match goal with |- context [snd ch path term ?c pass] => useC Hc path term c pass end. eauto.
    - (* positional group *) unfold reflow_parg.
      match goal with |- context [parg_children ?lw path pass term ?w cs None ?a ?b ?v ?x ?r] =>
        destruct (parg_total lw path pass term w Hp cs Hc None a b v x r) as ([[[[ls c] v1] x1] rows] & ->) end.
      cbn [bindr]. eauto.
    - (* parentheses *) unfold reflow_pgroup.
      destruct cs as [|a [|b [|c tl]]]; try discriminate. cbn [map] in Hw. apply andb_prop in Hw as [_ Hw].
      replace (_ || _) with true.
      2:{ destruct tl as [|? [|? ?]]; [reflexivity|reflexivity|discriminate]. }
      cbn [negb].
      destruct (pgroup_total (f_linewidth (cfg e)) path pass term wrap Hp _ Hc None cur cur true (colm cur)) as ([[[ls c'] v] x] & ->). cbn [bindr]. eauto.
    - apply andb_prop in Hw as [Hw Hn]. now apply Hsc.
    - apply andb_prop in Hw as [Hw Hn]. apply andb_prop in Hw as [Hw _]. apply Hsc; auto. destruct (map fst cs); [reflexivity|discriminate].
    - apply andb_prop in Hw as [Hw Hn]. apply andb_prop in Hw as [Hw _]. now apply Hsc.
    - (* switch *) apply andb_prop in Hw as [Hw _]. unfold reflow_onoff. destruct p as [|[t|] [|? ?]]; try discriminate.
      cbn [onoff_ok] in Hw. destruct (onoff_text t); [eauto|discriminate].
    - (* at-statement *) cbn [firm_k] in Hf. unfold reflow_atstmt.
      destruct cs as [|aw cs]; [discriminate|]. cbn [map] in Hf. apply andb_prop in Hf as [H1 H2].
      apply Forall_cons_iff in Hc as [C1 Hc]. unfold Layout.ckind. rewrite H1. cbn [negb].
      useC C1 path false cur pass. destruct cs as [|cm [|? ?]]; [eauto| |discriminate].
      cbn [map tail_ok] in H2. rewrite H2. cbn [negb]. apply Forall_inv in Hc.
      useC Hc path false (shift o 1) pass. destruct (lext l0 >? _); [|cbn [bindr]; eauto].
      useC Hc path false (Cur (row (shift o 1) + 1) (colm cur)) pass. eauto.
    - apply andb_prop in Hw as [Hw Hn]. apply andb_prop in Hw as [Hw _]. apply Hsc; auto. destruct (map fst cs); [reflexivity|discriminate].
    - unfold reflow_paren. eauto.
    - unfold reflow_paren. eauto.
  Qed.

  Lemma try_total f limit ps : (forall p w, 0 <= p -> exists x, f p w = Ok x) -> Forall (fun q : Z * bool => 0 <= fst q) ps ->
    forall last, last <> None \/ (exists w ps', ps = (0, w) :: ps' /\ 0 <= limit) ->
    exists x, try_passes f limit ps last = Ok x.
  Proof.
    intros Hf. induction 1 as [|[p w] ps Hp _ IH]; intros last Hl; cbn [try_passes].
    - destruct Hl as [Hl|(w & ps' & E & _)]; [destruct last; [eauto|congruence]|discriminate].
    - cbn [fst] in Hp. destruct (p >? limit) eqn:El.
      + destruct Hl as [Hl|(w' & ps' & E & Hz)]; [destruct last; [eauto|congruence]|]. injection E as -> _ _. lia.
      + destruct (Hf p w Hp) as (x & ->). cbn [bindr]. destruct (lvalid (fst x)); [eauto|]. apply IH. left. discriminate.
  Qed.

  Hypothesis Hps : passes_ok (cfg e).
  Theorem reflow_total b : wfb b = true -> firm b = true -> closed_b b = true -> Forall (wraps e) (remarks b) ->
    forall sib, tot (reflow e b sib).
  Proof.
    induction b as [k p cs IH] using box_ind'. intros Hw Hf Hc Hm sib path term cur passno Hp.
    rewrite reflow_eq.
    assert (Hch : forall n, Forall totc (children_of e cs n)).
    { cbn [wfb] in Hw. apply andb_prop in Hw as [Hw _]. cbn [firm] in Hf. apply andb_prop in Hf as [_ Hf].
      cbn [closed_b] in Hc. apply andb_prop in Hc as [_ Hc]. cbn [remarks] in Hm. apply Forall_app in Hm as [_ Hm].
      clear Hp. induction IH as [|b cs Hb _ IHc]; intros n; [constructor|].
      cbn [forallb flat_map] in *. apply andb_prop in Hw as [W1 W2]. apply andb_prop in Hf as [F1 F2]. apply andb_prop in Hc as [C1 C2].
      apply Forall_app in Hm as [M1 M2]. cbn [children_of]. constructor; [exact (Hb W1 F1 C1 M1 n)|]. apply IHc; auto. }
    specialize (Hch 0%nat). specialize (Hps k).
    destruct (try_total (try_pass e (B k p cs) (children_of e cs 0) (push_path path (B k p cs) sib) term cur)
      (pass_limit k passno) (node_passes (cfg e) k)) with (last := @None (lay * cursor)) as ([l o] & E).
    - intros q w Hq. unfold try_pass.
      destruct (once_total k p (children_of e cs 0) (push_path path (B k p cs) sib) term cur q w Hq Hch) as (a & Ea);
        rewrite ?children_of_fst; auto.
      { intros x ->. cbn [remarks] in Hm. now apply Forall_app in Hm as [Hm%Forall_inv _]. }
      rewrite children_of_fst in Ea. rewrite Ea. cbn [bindr]. eauto.
    - destruct (node_passes (cfg e) k) as [|[p0 w0] ps]; [constructor|]. apply Hps.
    - right. destruct (node_passes (cfg e) k) as [|[p0 w0] ps]; [destruct Hps|]. destruct Hps as [-> _].
      exists w0, ps. split; [reflexivity|]. destruct k; cbn [pass_limit]; lia.
    - eauto.
  Qed.

  (** *** The order of the arguments does not matter *)
  Lemma lock_firm a b : firm (lock a b) = firm b.
  Proof.
    induction b as [k p cs IH] using box_ind'.
    destruct (lock_children a (B k p cs)) as [H Hm]. cbn [bcs bkind] in H, Hm.
    destruct (lock a (B k p cs)) as [k' p' cs'] eqn:E.
    assert (k' = k /\ p' = p) as [-> ->].
    { pose proof (lock_kind a (B k p cs)) as A. pose proof (lock_pcs a (B k p cs)) as B'. rewrite E in A, B'. split; assumption. }
    cbn [bcs] in H, Hm. cbn [firm]. f_equal.
    2:{ rewrite (forallb_perm _ _ _ H), forallb_map. apply forallb_ext_in. rewrite Forall_forall in IH. auto. }
    destruct (is_parg_k k) eqn:Ep; [destruct k; try discriminate; reflexivity|]. rewrite (Hm eq_refl).
    assert (Ht : forall l s, turns s (map (lock a) l) = turns s l).
    { induction l as [|x l IHl]; intros s; [reflexivity|]. cbn [map turns]. now rewrite lock_kind, IHl. }
    destruct k; try reflexivity; cbn [firm_k].
    - destruct cs as [|x1 [|x2 [|x3 [|x4 tl]]]]; try reflexivity. cbn [map]. now rewrite !lock_kind, lock_tail.
    - destruct cs as [|x1 [|x2 tl]]; try reflexivity. exact (Ht (x1 :: x2 :: tl) true).
    - destruct cs as [|x1 tl]; try reflexivity. cbn [map]. now rewrite !lock_kind, lock_tail.
  Qed.
  Lemma lock_closed a b : closed_b (lock a b) = closed_b b.
  Proof.
    induction b as [k p cs IH] using box_ind'.
    destruct (lock_children a (B k p cs)) as [H Hm]. cbn [bcs bkind] in H, Hm.
    destruct (lock a (B k p cs)) as [k' p' cs'] eqn:E.
    assert (k' = k /\ p' = p) as [-> ->].
    { pose proof (lock_kind a (B k p cs)) as A. pose proof (lock_pcs a (B k p cs)) as B'. rewrite E in A, B'. split; assumption. }
    cbn [bcs] in H, Hm. cbn [closed_b]. f_equal.
    2:{ rewrite (forallb_perm _ _ _ H), forallb_map. apply forallb_ext_in. rewrite Forall_forall in IH. auto. }
    destruct k; try reflexivity. rewrite (Hm eq_refl). unfold shut, last_box. rewrite <- map_rev.
    destruct (rev cs); [reflexivity|]. cbn [map]. now rewrite lock_kind.
  Qed.
  Lemma lock_remarks (Q : bool * list pnode -> Prop) a b : Forall Q (remarks b) -> Forall Q (remarks (lock a b)).
  Proof.
    induction b as [k p cs IH] using box_ind'.
    destruct (lock_children a (B k p cs)) as [H _]. cbn [bcs bkind] in H.
    destruct (lock a (B k p cs)) as [k' p' cs'] eqn:E.
    assert (k' = k /\ p' = p) as [-> ->].
    { pose proof (lock_kind a (B k p cs)) as A. pose proof (lock_pcs a (B k p cs)) as B'. rewrite E in A, B'. split; assumption. }
    cbn [bcs] in H. cbn [remarks]. intros F. apply Forall_app in F as [F1 F2]. apply Forall_app. split; [exact F1|].
    rewrite Forall_flat_map in *. eapply Permutation_Forall; [apply Permutation_sym, H|].
    apply Forall_map. rewrite Forall_forall in *. auto.
  Qed.
  Theorem layout_total root : wfb (create_box root) = true -> firm (create_box root) = true -> closed_b (create_box root) = true ->
    Forall (wraps e) (remarks (create_box root)) -> exists l, layout_tree e root = Ok l.
  Proof.
    intros Hw Hf Hc Hm. unfold layout_tree.
    destruct (reflow_total (lock (f_autosort (cfg e)) (create_box root))) with (sib := 0%nat) (path := @nil str) (term := false) (cur := Cur 0 0) (pass := 0)
      as (l & o & E); rewrite ?lock_wfb, ?lock_firm, ?lock_closed; auto; try lia; [now apply lock_remarks|].
    rewrite E. cbn [bindr]. eauto.
  Qed.
End Run.

(** ** Parsing: the arguments of a command end at its closing parenthesis *)
(** the parsers used for whole commands *)
Inductive topk : parser -> Prop :=
| tk_std cs kw : topk (PStd cs kw)
| tk_shell : topk PShell
| tk_cond : topk PCond
| tk_raise er : topk (PRaise er)
| tk_disp f : (forall toks, topk (f toks)) -> topk (PDisp f)
| tk_loop items g : topk (PSeq items (Some g))
| tk_rest items sp must : (forall n, pargs_are_full (ps_nargs sp) n = Ok false) -> is_exact (ps_nargs sp) = false ->
    topk (PSeq (items ++ [SPos sp nil must]) None)
| tk_inst : topk PInstallTargets
| tk_exe s : topk (PAddExe s)
| tk_lib s : topk (PAddLib s).
Definition topctx (ctx : pctx) : Prop := forall name p, db ctx name = Some p -> topk p.
Lemma command_top ctx name : topctx ctx -> topk (command_parser ctx name).
Proof.
  intros H. unfold command_parser. destruct (db ctx name) eqn:E; [eauto|].
  destruct (db ctx $"_default") eqn:E2; [eauto|]. constructor.
Qed.
Lemma resolve_top p : topk p -> forall toks, topk (resolve p toks).
Proof. induction 1; intros toks; cbn [resolve]; try (constructor; auto; fail). auto. Qed.

(** nothing is left but the closing parenthesis *)
Definition at_close (r : list token) : Prop := match r with t :: _ => is_tt RIGHT_PAREN t = true | nil => True end.
Lemma break_close t : should_break t [BParen] = true -> is_tt RIGHT_PAREN t = true.
Proof. cbn. now rewrite orb_false_r. Qed.

Section Stop.
  Variable ctx : pctx.
  Lemma std_close dflt kw kbs : forall n pargs acc toks a r,
    std_loop n ctx dflt kw [BParen] kbs false pargs acc toks = Ok (a, r) -> at_close r.
  Proof.
    induction n as [|n IH]; intros pargs acc toks a r H; [discriminate|]. cbn [std_loop] in H.
    destruct toks as [|t toks]; [injection H as <- <-; exact Logic.I|].
    destruct (is_ws t); [eauto|]. destruct (is_comment t).
    { unfold belongs_up in H. destruct (nth_semantic (t :: toks) 0); cbn [andb] in H; rewrite ?andb_false_r in H; cbn [andb] in H;
        apply bindr_ok in H as ([c r1] & _ & H); eauto. }
    destruct (is_onoff t); [eauto|].
    match type of H with (if ?c then _ else _) = _ => destruct c eqn:Eb end.
    { injection H as <- <-. apply andb_prop in Eb as [Eb _]. now apply break_close. }
    match type of H with match ?c with _ => _ end = _ => destruct c as [[w p]|] end;
      apply bindr_ok in H as ([c r1] & _ & H); (destruct (_ <=? _)%nat; [discriminate|]); eauto.
  Qed.
  Lemma cond_close : forall n acc toks a r, cond_loop n ctx [BParen] acc toks = Ok (a, r) -> at_close r.
  Proof.
    induction n as [|n IH]; intros acc toks a r H; [discriminate|]. cbn [cond_loop] in H.
    destruct toks as [|t toks]; [injection H as <- <-; exact Logic.I|].
    destruct (should_break t [BParen]) eqn:E; [injection H as <- <-; now apply break_close|].
    destruct (is_ws t); [eauto|]. destruct (is_comment t); [eauto|]. destruct (is_onoff t); [eauto|].
    destruct (is_tt LEFT_PAREN t); [apply bindr_ok in H as ([s r1] & _ & H); eauto|].
    destruct (kwarg_in t cond_words); apply bindr_ok in H as ([s r1] & _ & H); [destruct (_ <=? _)%nat; [discriminate|]|]; eauto.
  Qed.
  Lemma gloop_close keep step : forall n acc toks a r, gloop n ctx keep step [BParen] false acc toks = Ok (a, r) -> at_close r.
  Proof.
    induction n as [|n IH]; intros acc toks a r H; [discriminate|]. cbn [gloop] in H.
    destruct toks as [|t toks]; [injection H as <- <-; exact Logic.I|].
    destruct (should_break t [BParen]) eqn:E; [injection H as <- <-; now apply break_close|].
    destruct (is_ws t); [eauto|]. destruct (_ && _); [eauto|].
    apply bindr_ok in H as ([s r1] & _ & H). destruct (_ <=? _)%nat; [discriminate|]. eauto.
  Qed.
  Lemma pos_close sp : (forall n, pargs_are_full (ps_nargs sp) n = Ok false) -> is_exact (ps_nargs sp) = false ->
    forall n nc acc toks a r, pos_loop n ctx sp [BParen] false nc acc toks = Ok (a, r) -> at_close r.
  Proof.
    intros Hf He. induction n as [|n IH]; intros nc acc toks a r H; [discriminate|]. cbn [pos_loop] in H.
    destruct toks as [|t toks]; [injection H as <- <-; exact Logic.I|].
    rewrite Hf in H. cbn [bindr] in H.
    destruct (should_break t [BParen] && _) eqn:E.
    { injection H as <- <-. apply andb_prop in E as [E _]. now apply break_close. }
    destruct (is_tt LEFT_PAREN t); [apply bindr_ok in H as ([s r1] & _ & H); eauto|].
    destruct (is_ws t); [eauto|]. destruct (is_comment t).
    { unfold belongs_up in H. destruct (nth_semantic (t :: toks) 0); cbn [andb] in H; rewrite ?andb_false_r in H; cbn [andb] in H;
        apply bindr_ok in H as ([c r1] & _ & H); eauto. }
    destruct (is_onoff t); [eauto|]. destruct (consume_trailing ctx toks) as [tr r1]. eauto.
  Qed.
  Lemma posg_close sp : (forall n, pargs_are_full (ps_nargs sp) n = Ok false) -> is_exact (ps_nargs sp) = false ->
    forall n toks a r, pos_group n ctx sp [BParen] false toks = Ok (a, r) -> at_close r.
  Proof.
    intros Hf He [|n] toks a r H; [discriminate|]. cbn [pos_group] in H. destruct (take_ws toks) as [ws r0].
    apply bindr_ok in H as ([c r1] & E & H). injection H as <- <-. eapply pos_close; eauto.
  Qed.
  Lemma seq_close lp : forall n items acc toks a r, seq_items n ctx items lp [BParen] false acc toks = Ok (a, r) ->
    match lp with
    | Some _ => True
    | None => exists its sp must, items = its ++ [SPos sp nil must]
        /\ (forall n, pargs_are_full (ps_nargs sp) n = Ok false) /\ is_exact (ps_nargs sp) = false
    end -> at_close r.
  Proof.
    induction n as [|n IH]; intros items acc toks a r H Hl; [discriminate|]. cbn [seq_items] in H.
    destruct items as [|it items].
    { destruct lp as [[keep step]|]; [eapply gloop_close; eauto|].
      destruct Hl as (its & sp & must & E & _). now destruct its. }
    assert (Hl2 : items <> nil -> match lp with
    | Some _ => True
    | None => exists its sp must, items = its ++ [SPos sp nil must]
        /\ (forall n, pargs_are_full (ps_nargs sp) n = Ok false) /\ is_exact (ps_nargs sp) = false
    end).
    { intros Hn. destruct lp; [exact Logic.I|]. destruct Hl as (its & sp & must & E & Hr).
      destruct its as [|i0 its]; [injection E as _ ->; congruence|]. injection E as _ ->. eauto. }
    assert (Hl3 : forall i0, it = i0 -> lp = None -> items = nil -> exists sp must, i0 = SPos sp nil must
        /\ (forall n, pargs_are_full (ps_nargs sp) n = Ok false) /\ is_exact (ps_nargs sp) = false).
    { intros i0 <- -> ->. destruct Hl as (its & sp & must & E & Hr).
      destruct its as [|i0 its]; [injection E as ->; eauto|]. injection E as _ E. now destruct its. }
    assert (Hg : forall acc' toks', seq_items n ctx items lp [BParen] false acc' toks' = Ok (a, r) ->
      (lp = None -> items = nil -> at_close toks') -> at_close r).
    { intros acc' toks' H' Hz. destruct items as [|i1 items]; [|eapply IH; [exact H'|apply Hl2; discriminate]].
      destruct lp as [g|]; [eapply IH; [exact H'|exact Logic.I]|].
      destruct n; [discriminate|]. cbn [seq_items] in H'. injection H' as <- <-. auto. }
    destruct it as [| |sp extra must].
    - destruct (take_ws toks) as [ws r0]. eapply Hg; [exact H|]. intros E1 E2.
      destruct (Hl3 _ eq_refl E1 E2) as (? & ? & ? & _). discriminate.
    - apply bindr_ok in H as ([ws r0] & _ & H). eapply Hg; [exact H|]. intros E1 E2.
      destruct (Hl3 _ eq_refl E1 E2) as (? & ? & ? & _). discriminate.
    - apply bindr_ok in H as ([ws r0] & Ep & H). destruct (must && _); [discriminate|].
      eapply Hg; [exact H|]. intros E1 E2.
      destruct (Hl3 _ eq_refl E1 E2) as (sp' & must' & E & Hf & He). injection E as -> -> ->.
      cbn [map app] in Ep. eapply posg_close; eauto.
  Qed.
  Lemma add_close islib : forall n m toks a r, add_loop n ctx islib [BParen] m toks = Ok (a, r) -> at_close r.
  Proof.
    induction n as [|n IH]; intros m toks a r H; [discriminate|]. cbn [add_loop] in H.
    destruct toks as [|t toks]; [injection H as <- <-; exact Logic.I|].
    destruct (is_tt RIGHT_PAREN t) eqn:Ep; [injection H as <- <-; exact Ep|].
    destruct (is_ws t); [eauto|]. destruct (is_comment t); [eauto|].
    destruct (consume_trailing ctx toks) as [tr r1].
    repeat match type of H with (if ?c then _ else _) = _ => destruct c end; eauto.
  Qed.
  Lemma call_close n p toks x r : topk p -> call n ctx p [BParen] false toks = Ok (x, r) ->
    at_close r /\ match x with N (KArgGroup _) _ => True | _ => False end.
  Proof.
    intros Hp H. destruct n as [|n]; [discriminate|]. cbn [call] in H.
    pose proof (resolve_top _ Hp toks) as Hr. revert Hr H. generalize (resolve p toks). intros q Hr. destruct Hr as [cs kw| | |er|f Hdf|items g|items sp must Hfu Hex| |s|s]; intros H.
    - destruct (take_ws toks) as [ws r0]. destruct (split_default _) as [d ps].
      apply bindr_ok in H as ([a r1] & E & H). injection H as <- <-. split; [eapply std_close; eauto|exact Logic.I].
    - destruct (take_ws toks) as [ws r0]. destruct (split_default _) as [d ps].
      apply bindr_ok in H as ([a r1] & E & H). injection H as <- <-. split; [eapply std_close; eauto|exact Logic.I].
    - destruct (take_ws toks) as [ws r0].
      apply bindr_ok in H as ([a r1] & E & H). injection H as <- <-. split; [eapply cond_close; eauto|exact Logic.I].
    - discriminate.
    - discriminate.
    - apply bindr_ok in H as ([a r1] & E & H). injection H as <- <-. split; [eapply seq_close; [exact E|exact Logic.I]|exact Logic.I].
    - apply bindr_ok in H as ([a r1] & E & H). injection H as <- <-. split; [eapply seq_close; [exact E|exists items, sp, must; auto]|exact Logic.I].
    - apply bindr_ok in H as ([a r1] & E & H). injection H as <- <-. split; [eapply seq_close; [exact E|exact Logic.I]|exact Logic.I].
    - destruct (take_ws toks) as [ws r0].
      apply bindr_ok in H as ([a r1] & E & H). injection H as <- <-. split; [eapply add_close; eauto|exact Logic.I].
    - destruct (take_ws toks) as [ws r0].
      apply bindr_ok in H as ([a r1] & E & H). injection H as <- <-. split; [eapply add_close; eauto|exact Logic.I].
  Qed.
End Stop.

Fixpoint arg_firm (b : box) : wfb b = true -> argk (bkind b) = true -> firm b = true.
Proof.
  destruct b as [k p cs]. intros H Ha. cbn [bkind] in Ha. cbn [firm].
  pose proof (arg_kids _ _ _ H Ha) as Hk. apply andb_true_intro. split; [destruct k; try discriminate; reflexivity|].
  cbn [wfb] in H. apply andb_prop in H as [H _]. clear Ha.
  induction cs as [|x cs IH]; auto. cbn [forallb] in *.
  apply andb_prop in H as [H1 H2]. apply andb_prop in Hk as [K1 K2].
  rewrite (arg_firm x H1 K1). now apply IH.
Qed.

Section Firm.
  Variable ctx : pctx.
  Hypothesis Hctx : wfkctx ctx.
  Hypothesis Htop : topctx ctx.
  Definition Fm (n : pnode) : Prop := match n with T _ => True | N _ _ => firm (create_box n) = true end.
  Lemma kids_firm cs : Forall Fm cs -> forallb firm (kids cs) = true.
  Proof. intros H. apply kids_forall. eapply Forall_impl; [|exact H]. intros [t|k x]; auto. Qed.
  Lemma arg_Fm n : W n -> match n with T _ => True | N k _ => argk k = true end -> Fm n.
  Proof. destruct n as [t|k cs]; [intros; exact Logic.I|]. intros Hw Ha. now apply arg_firm. Qed.
  Lemma inC_Fm n : inC n -> Fm n.
  Proof. intros H. apply arg_Fm; [now apply inC_W|]. destruct n as [|k x]; [easy|]. destruct k; try easy. Qed.
  Lemma trailing_firm tr : trailing tr -> tail_ok (kids tr) = true /\ forallb firm (kids tr) = true.
  Proof.
    intros H. destruct (tail_kids _ H) as [A B]. split; [exact A|].
    destruct (kids tr) as [|b [|? ?]]; [reflexivity| |discriminate]. cbn [forallb tail_ok] in *.
    rewrite andb_true_r in *. apply arg_firm; auto. destruct (bkind b); try discriminate; reflexivity.
  Qed.

  Lemma statement_Fm n toks x r : Forall tgood toks -> wword toks -> statement n ctx toks = Ok (x, r) ->
    exists s cs, x = N (KStatement s) cs /\ firm (create_box x) = true.
  Proof.
    intros Hg Hw H. unfold statement in H. destruct toks as [|fn r0]; [discriminate|].
    destruct (take_ws r0) as [ws r1] eqn:Ew. apply take_ws_sh in Ew as [Hws Er].
    specialize (Er (Forall_inv_tail Hg)).
    destruct r1 as [|lp r1]; [discriminate|].
    destruct (negb _); [discriminate|].
    destruct (take_ws r1) as [ws2 r2] eqn:Ew2. apply take_ws_sh in Ew2 as [Hws2 Er2].
    specialize (Er2 (Forall_inv_tail Er)).
    apply bindr_ok in H as ([args r3] & E & H).
    destruct (call_close _ _ _ _ _ _ (command_top _ _ Htop) E) as [Hcl Hag].
    apply (sh_call ctx _ (all_Sh ctx n)) in E as [A B]; auto; [|now apply command_wk].
    apply bindr_ok in H as ([tl r4] & Et & H).
    destruct r3 as [|rp0 r3]; [discriminate|]. cbn [at_close] in Hcl. cbn [List.length stmt_tail] in Et. rewrite Hcl in Et.
    injection Et as <- <-.
    destruct (consume_trailing ctx r3) as [tr r6] eqn:Etr.
    destruct (consume_trailing_sh _ _ _ _ Etr (Forall_inv_tail B)) as [F G].
    injection H as <- <-. eexists _, _. split; [reflexivity|].
    rewrite create_eq. change (N KFunname [T fn] :: ?l) with ([N KFunname [T fn]] ++ l).
    change (N KLParen [T lp] :: ?l) with ([N KLParen [T lp]] ++ l). change (args :: ?l) with ([args] ++ l).
    change (N KRParen [T rp0] :: ?l) with ([N KRParen [T rp0]] ++ l).
    destruct args as [|k cs]; [easy|]. destruct k; try easy. destruct A as [_ A].
    rewrite !kids_app, (kids_isT _ Hws), (kids_isT _ Hws2), !kids_one by reflexivity. cbn [app].
    destruct (trailing_firm _ F) as [F1 F2].
    cbn [firm firm_k forallb]. rewrite !create_eq. cbn [bkind is_funname_k is_lparen_k is_arggroup_k is_rparen_k andb].
    rewrite F1, F2. cbn [firm firm_k kids flat_map forallb andb]. rewrite !andb_true_r.
    pose proof (arg_firm (create_box (N (KArgGroup cmdspec) cs)) A eq_refl) as Hx. exact Hx.
  Qed.
  Lemma atword_Fm toks x r : Forall tgood toks -> atword_statement ctx toks = Ok (x, r) -> Fm x.
  Proof.
    intros Hg H. unfold atword_statement in H. destruct toks as [|t toks]; [discriminate|].
    destruct (consume_trailing ctx toks) as [tr r6] eqn:Etr.
    destruct (consume_trailing_sh _ _ _ _ Etr (Forall_inv_tail Hg)) as [F G].
    injection H as <- <-. cbn [Fm]. rewrite create_eq.
    change (N KAtWord [T t] :: tr) with ([N KAtWord [T t]] ++ tr). rewrite kids_app, kids_one by reflexivity. cbn [app].
    destruct (trailing_firm _ F) as [F1 F2]. cbn [firm firm_k forallb]. rewrite !create_eq. cbn [bkind is_atword_k andb]. rewrite F1, F2. reflexivity.
  Qed.

  Lemma turns_app a : forall s b, turns s (a ++ b) = turns s a && turns (if Nat.even (List.length a) then s else negb s) b.
  Proof.
    induction a as [|x a IH]; intros s b; [reflexivity|]. cbn [app turns List.length]. rewrite IH, Nat.even_succ, <- Nat.negb_even.
    rewrite andb_assoc. f_equal. destruct (Nat.even _); cbn [negb]; now rewrite ?negb_involutive.
  Qed.
  (** statements and bodies in turn, a body last *)
  Definition duos (l : list pnode) : Prop := turns true (kids l) = true /\ Nat.even (List.length (kids l)) = true.
  Lemma duos_add l s x y : duos l -> duos (l ++ [N (KStatement s) x; N KBody y]).
  Proof.
    intros [A B]. change [?a; ?b] with ([a] ++ [b]). unfold duos. rewrite !kids_app, !kids_one by reflexivity.
    split; [rewrite turns_app, A, B; reflexivity|]. rewrite app_length. cbn [List.length app]. now rewrite Nat.even_add, B.
  Qed.

  Lemma body_Fm n :
    (forall bset acc toks a r, Forall Fm acc -> Forall tgood toks ->
       body_loop n ctx bset acc toks = Ok (a, r) -> Forall Fm a)
    /\ (forall toks x r, Forall tgood toks -> wword toks -> flow n ctx toks = Ok (x, r) -> Fm x)
    /\ (forall acc toks a r, Forall Fm acc -> duos acc -> Forall tgood toks -> wword toks ->
       if_loop n ctx acc toks = Ok (a, r) ->
       Forall Fm a /\ turns true (kids a) = true /\ (List.length (kids acc) <= List.length (kids a))%nat
       /\ match toks with
          | t :: _ => seqb (upper (spelling t)) $"ENDIF" = false -> (2 + List.length (kids acc) <= List.length (kids a))%nat
          | nil => True
          end).
  Proof.
    induction n as [|m (IHb & IHf & IHi)]; [split; [|split]; intros; discriminate|].
    destruct (body_sh ctx Hctx m) as (Sb & Sf & Si).
    assert (Hbody : forall bd, Forall Fm bd -> Fm (N KBody bd)).
    { intros bd Hb. cbn [Fm]. rewrite create_eq. cbn [firm firm_k andb]. now apply kids_firm. }
    split; [|split].
    - intros bset acc toks a r Ha Hg H. cbn [body_loop] in H.
      destruct toks as [|t toks]; [injection H as <- <-; simpl; auto|].
      pose proof (Forall_inv_tail Hg) as Hg1. pose proof (Forall_inv Hg) as Ht.
      destruct (is_ws t).
      { destruct (take_ws (t :: toks)) as [ws r0] eqn:Ew. apply take_ws_sh in Ew as [Hws Er].
        eapply IHb; [| |exact H]; auto. apply snoc; auto. cbn [Fm]. rewrite create_eq, (kids_isT _ Hws). reflexivity. }
      destruct (is_tt COMMENT t).
      { apply bindr_ok in H as ([x r1] & E & H). destruct (consume_comment_sh _ _ _ E Hg) as [A B].
        apply Forall_inv in A. eapply IHb; [| |exact H]; auto. apply snoc; auto. now apply inC_Fm. }
      destruct (is_onoff t) eqn:Eo.
      { eapply IHb; [| |exact H]; auto. apply snoc; auto. reflexivity. }
      destruct (is_tt BRACKET_COMMENT t).
      { apply bindr_ok in H as ([x r1] & E & H). destruct (consume_comment_sh _ _ _ E Hg) as [A B].
        apply Forall_inv in A. eapply IHb; [| |exact H]; auto. apply snoc; auto. now apply inC_Fm. }
      destruct (is_tt WORD t) eqn:Ewd.
      { assert (Hww : wword (t :: toks)) by now apply word_wword.
        destruct (smem _ bset); [injection H as <- <-; auto|].
        destruct (smem _ flow_names).
        - apply bindr_ok in H as ([sub r1] & E & H). pose proof (IHf _ _ _ Hg Hww E).
          apply Sf in E as [A B]; auto. eapply IHb; [| |exact H]; auto. apply snoc; auto.
        - apply bindr_ok in H as ([sub r1] & E & H). destruct (statement_Fm _ _ _ _ Hg Hww E) as (s & x & -> & Hx).
          apply statement_sh in E as (A & _ & B); auto.
          eapply IHb; [| |exact H]; auto. apply snoc; auto. }
      destruct (is_tt ATWORD t) eqn:Eat.
      { apply bindr_ok in H as ([sub r1] & E & H). pose proof (atword_Fm _ _ _ Hg E).
        apply atword_sh in E as (A & B); auto.
        - eapply IHb; [| |exact H]; auto. apply snoc; auto.
        - simpl. apply Ht. auto. }
      destruct (is_tt BYTEORDER_MARK t) eqn:Eb; [|discriminate].
      eapply IHb; [| |exact H]; auto.
    - intros toks x r Hg Hw H. cbn [flow] in H.
      destruct toks as [|t toks]; [discriminate|].
      destruct (seqb (upper (spelling t)) $"IF") eqn:Eif.
      + apply bindr_ok in H as ([a r1] & E & H). injection H as <- <-.
        assert (Hd0 : duos nil) by (split; reflexivity).
        destruct (IHi nil (t :: toks) a r1 (Forall_nil _) Hd0 Hg Hw E) as (A & B & _ & D).
        apply seqb_eq in Eif. rewrite Eif in D. specialize (D eq_refl).
        cbn [Fm]. rewrite create_eq. cbn [firm firm_k]. rewrite (kids_firm _ A), B.
        destruct (kids a) as [|b1 [|b2 bs]]; cbn [List.length kids flat_map] in D; first [reflexivity|exfalso; lia].
      + apply bindr_ok in H as ([op r1] & E & H). destruct (statement_Fm _ _ _ _ Hg Hw E) as (s & y & -> & Hy).
        apply statement_sh in E as (_ & A & B); auto.
        apply bindr_ok in H as ([bd r2] & E2 & H).
        assert (Hbd : Forall Fm bd) by (eapply IHb; [| |exact E2]; auto).
        apply Sb in E2 as (A2 & B2 & W2); auto.
        apply bindr_ok in H as ([cl r3] & E3 & H). destruct (statement_Fm _ _ _ _ B2 W2 E3) as (s' & z & -> & Hz).
        injection H as <- <-. cbn [Fm]. rewrite create_eq.
        change [?p; ?q; ?w] with ([p] ++ [q] ++ [w]). rewrite !kids_app, !kids_one by reflexivity. cbn [app].
        specialize (Hbody bd Hbd). cbn [Fm] in Hbody. cbn [firm firm_k turns forallb andb]. rewrite Hy, Hz, Hbody. reflexivity.
    - intros acc toks a r Ha Hdu Hg Hw H. cbn [if_loop] in H.
      destruct toks as [|t toks]; [injection H as <- <-; destruct Hdu; auto|].
      destruct (seqb (upper (spelling t)) $"ENDIF") eqn:Ee.
      + apply bindr_ok in H as ([cl r1] & E & H). injection H as <- <-.
        destruct (statement_Fm _ _ _ _ Hg Hw E) as (s & y & -> & Hy). split; [now apply snoc|].
        destruct Hdu as [D1 D2]. rewrite kids_app, kids_one by reflexivity. split; [rewrite turns_app, D1, D2; reflexivity|].
        rewrite app_length. split; [lia|discriminate].
      + apply bindr_ok in H as ([op r1] & E & H). destruct (statement_Fm _ _ _ _ Hg Hw E) as (s & y & -> & Hy).
        apply statement_sh in E as (_ & A & B); auto.
        apply bindr_ok in H as ([bd r2] & E2 & H).
        assert (Hbd : Forall Fm bd) by (eapply IHb; [| |exact E2]; auto).
        apply Sb in E2 as (A2 & B2 & W2); auto.
        apply IHi in H as (I1 & I2 & I3 & _); auto.
        * assert (Hln : List.length (kids (acc ++ [N (KStatement s) y; N KBody bd])) = (2 + List.length (kids acc))%nat).
          { change [?p; ?q] with ([p] ++ [q]). rewrite !kids_app, !kids_one by reflexivity. rewrite app_length. cbn [app List.length]. lia. }
          rewrite Hln in I3. split; [exact I1|]. split; [exact I2|]. split; [lia|intros _; exact I3].
        * apply Forall_app. split; [exact Ha|]. constructor; [exact Hy|]. constructor; [exact (Hbody bd Hbd)|constructor].
        * now apply duos_add.
  Qed.
  Theorem parse_firm toks tree : Forall tgood toks -> parse ctx toks = Ok tree -> firm (create_box tree) = true.
  Proof.
    intros Hg H. unfold parse in H. apply bindr_ok in H as ([a r] & E & H). injection H as <-.
    destruct (body_Fm (parse_fuel toks)) as [Hb _].
    assert (A : Forall Fm a) by (eapply Hb; [| |exact E]; auto). rewrite create_eq. cbn [firm firm_k andb]. now apply kids_firm.
  Qed.
End Firm.

(** *** The shipped tables and the user's *)
Lemma funtree_top kw : Forall (fun kp => topk (snd kp)) (get_funtree kw).
Proof.
  unfold get_funtree. apply Forall_map, Forall_forall. intros [k [c x]] _. cbn [snd fun_parser].
  destruct (smem _ _); [constructor|]. destruct (seqb _ _); constructor.
Qed.
Lemma user_top specs tbl : user_table specs = Ok tbl -> Forall (fun kp => topk (snd kp)) tbl.
Proof. unfold user_table. intros H. apply bindr_ok in H as (kw & _ & H). injection H as <-. apply funtree_top. Qed.
Lemma spec_top : Forall (fun kp => topk (snd kp)) spec_table.
Proof. unfold spec_table. destruct (user_table _) eqn:E; [eapply user_top; eauto|constructor|constructor]. Qed.
Lemma lookup_top k m p : Forall (fun kp => topk (snd kp)) m -> kw_lookup k m = Some p -> topk p.
Proof. intros H E. apply lookup_In in E. rewrite Forall_forall in H. apply (H _ E). Qed.
Lemma disp_first_top m : Forall (fun kp => topk (snd kp)) m -> topk (disp_first m).
Proof.
  intros H. constructor. intros toks.
  assert (topk sat_any) by constructor.
  destruct (first_sem toks); auto. destruct (is_tt RIGHT_PAREN t); auto. destruct (is_tt DEREF t); auto.
  destruct (kw_lookup _ m) eqn:E; auto. eapply lookup_top; eauto.
Qed.
Ltac topauto :=
  repeat (cbn [snd fst]; match goal with
  | |- topk (PDisp _) => apply tk_disp; intros ?toks; cbv beta
  | |- topk (need_tok ?t _) => unfold need_tok; destruct t
  | |- topk (disp_first _) => apply disp_first_top
  | |- topk parse_foreach_standard => apply (tk_rest [SWs; SPos (psp (NInt 1) nil) nil true]); reflexivity
  | |- topk parse_file_write => apply (tk_rest [SWsComments; SPos (psp (NInt 2) [$"WRITE"; $"APPEND"]) nil false; SWsComments]); reflexivity
  | |- topk (if ?c then _ else _) => destruct c
  | |- topk (match kw_lookup ?k ?m with _ => _ end) => let E := fresh in destruct (kw_lookup k m) eqn:E; [eapply lookup_top; [|exact E]|]
  | |- topk (match ?c with _ => _ end) => destruct c
  | |- topk ?p => first [solve [constructor; auto] | unfold p]
  | |- Forall _ (_ :: _) => apply Forall_cons
  | |- Forall _ nil => apply Forall_nil
  | |- Forall _ (_ ++ _) => apply Forall_app; split
  | |- Forall _ (map _ _) => apply Forall_map, Forall_forall; intros ? ?
  | |- Forall _ ?m => unfold m
  end).
Lemma flow_top : Forall (fun kp => topk (snd kp)) flow_table.
Proof. unfold flow_table; topauto. Qed.
Lemma hand_top vt : Forall (fun kp => topk (snd kp)) (hand_table vt).
Proof. unfold hand_table; topauto. Qed.
Lemma std_topctx ex vt specs tbl : user_table specs = Ok tbl -> topctx (std_ctx ex vt tbl).
Proof.
  intros Hu name p. cbn [std_ctx db]. unfold with_user. destruct (kw_lookup name tbl) as [q|] eqn:E.
  - intros H. injection H as <-. eapply lookup_top; [eapply user_top; eauto|exact E].
  - unfold std_table. intros H. eapply lookup_top; [|exact H]. rewrite !Forall_app.
    split; [apply spec_top|]. split; [apply flow_top|apply hand_top].
Qed.
Theorem file_firm c specs tbl src toks tree : run_cfg c specs tbl -> tokenize src = Ok toks -> parse (p_ctx c) toks = Ok tree ->
  firm (create_box tree) = true.
Proof.
  intros ((ex & vt & Hctx) & Hu & Hk & _) Ht Hp. rewrite Hctx in Hp.
  eapply parse_firm; [apply std_wkctx; exact Hk|eapply std_topctx; eauto|eapply lexed_good; eauto|exact Hp].
Qed.

(** ** The converse: what is formatted has closed blocks *)
Definition ran (ch : chd) : Prop := exists path term cur pass x, snd ch path term cur pass = Ok x.
(** the comment formatter has an answer at some width *)
Definition formed (e : env) (q : bool * list pnode) : Prop :=
  is_bracket (snd q) = true \/ exists w l ls, cmt e (fst q) (snd q) w = Ok (l :: ls).
Lemma ran_i ch path term cur pass x : snd ch path term cur pass = Ok x -> ran ch.
Proof. unfold ran. eauto 6. Qed.
Local Hint Resolve ran_i : core.

Section Back.
  Variable e : env.
  Lemma body_ran path pass cs : forall colc cur v x q, body_children path pass cs colc cur v x = Ok q -> Forall ran cs.
  Proof.
    induction cs as [|ch cs IH]; intros colc cur v x q H; [constructor|]. cbn [body_children] in H.
    apply bindr_ok in H as ([l c] & E & H). apply bindr_ok in H as ([[[ls c'] v'] x'] & E2 & H). constructor; eauto.
  Qed.
  Lemma flow_ran tab path pass cs : forall want colc cur v x q, flow_children tab path pass cs want colc cur v x = Ok q ->
    Forall ran cs /\ match cs with nil => want = false | _ => shut (map fst cs) = true end.
  Proof.
    induction cs as [|ch cs IH]; intros want colc cur v x q H; cbn [flow_children] in H.
    { split; [constructor|]. destruct want; [discriminate|reflexivity]. }
    assert (G : forall b, (cs = nil -> b = false -> is_statement_k (Layout.ckind ch) = true) ->
      match cs with nil => b = false | _ => shut (map fst cs) = true end -> shut (map fst (ch :: cs)) = true).
    { intros b Hb Hs. destruct cs as [|c2 cs]; [unfold shut, last_box; cbn; apply Hb; auto|].
      unfold shut, last_box in *. cbn [map rev] in *. rewrite <- app_assoc. cbn [app].
      destruct (rev (map fst cs)); cbn [app] in *; exact Hs. }
    destruct want.
    - destruct (is_statement_k (Layout.ckind ch)) eqn:Ek; [|discriminate]. cbn [negb] in H.
      apply bindr_ok in H as ([l c] & E & H). apply bindr_ok in H as ([[[ls c'] v'] x'] & E2 & H). apply IH in E2 as [A B].
      split; [constructor; eauto|]. eapply G; eauto.
    - destruct (is_body_k (Layout.ckind ch)) eqn:Ek; [|discriminate]. cbn [negb] in H.
      apply bindr_ok in H as ([l c] & E & H). apply bindr_ok in H as ([[[ls c'] v'] x'] & E2 & H). apply IH in E2 as [A B].
      split; [constructor; eauto|]. eapply G; [|exact B]. intros _ E0; discriminate E0.
  Qed.
  Lemma parg_ran lw path pass term wrap cs : forall prev colc cur v x rows q,
    parg_children lw path pass term wrap cs prev colc cur v x rows = Ok q -> Forall ran cs.
  Proof.
    induction cs as [|ch cs IH]; intros prev colc cur v x rows q H; [constructor|]. cbn [parg_children] in H.
    destruct (match prev with None => _ | Some p => _ end) as [[[colc1 cur1] at_col] rows1].
    apply bindr_ok in H as ([l c] & E & H). apply bindr_ok in H as ([[[l2 c2] colc2] rows2] & _ & H).
    apply bindr_ok in H as ([[[[ls c'] v'] x'] rows'] & E2 & H). constructor; eauto.
  Qed.
  Lemma arg_ran lw path pass term wrap cs : forall prev colc cur v x q,
    arg_children lw path pass term wrap cs prev colc cur v x = Ok q -> Forall ran cs.
  Proof.
    induction cs as [|ch cs IH]; intros prev colc cur v x q H; [constructor|]. cbn [arg_children] in H.
    destruct (match prev with None => _ | Some p => _ end) as [[colc1 cur1] first].
    apply bindr_ok in H as ([l c] & E & H). apply bindr_ok in H as ([l2 c2] & _ & H).
    apply bindr_ok in H as ([[[ls c'] v'] x'] & E2 & H). constructor; eauto.
  Qed.
  Lemma pgroup_ran lw path pass term wrap cs : forall prev colc cur v x q,
    pgroup_children lw path pass term wrap cs prev colc cur v x = Ok q -> Forall ran cs.
  Proof.
    induction cs as [|ch cs IH]; intros prev colc cur v x q H; [constructor|]. cbn [pgroup_children] in H.
    apply bindr_ok in H as ([l c] & E & H). apply bindr_ok in H as ([l2 c2] & _ & H).
    apply bindr_ok in H as ([[[ls c'] v'] x'] & E2 & H). constructor; eauto.
  Qed.
  Lemma once_ran k p cs path term cur pass wrap a : wfb (B k p (map fst cs)) = true ->
    reflow_once e (B k p (map fst cs)) cs path term cur pass wrap = Ok a ->
    Forall ran cs /\ (k = KFlow -> shut (map fst cs) = true) /\ (forall x, k = KComment x -> formed e (x, p)).
  Proof.
    intros Hw H. cbn [wfb] in Hw. apply andb_prop in Hw as [_ Hw]. unfold reflow_once in H. cbn [bkind bpcs] in H.
    assert (Hnil : match map fst cs with nil => true | _ => false end = true -> Forall ran cs).
    { destruct cs; [constructor|discriminate]. }
    assert (Hsc : reflow_scalar p cs path cur pass wrap = Ok a -> Forall ran cs).
    { intros E. unfold reflow_scalar in E. destruct p as [|[t|] p]; try discriminate. destruct (flow_text _ _) as [c1 e1].
      destruct cs as [|ch [|? ?]]; [constructor| |discriminate]. destruct (negb _); [discriminate|].
      apply bindr_ok in E as ([l c2] & E1 & _). constructor; eauto. }
    destruct k; try (split; [|split; [discriminate|intros x0 E0; discriminate E0]]); auto.
    - unfold reflow_body in H. apply bindr_ok in H as ([[[ls c] v] x] & E & _). eapply body_ran; eauto.
    - apply andb_prop in Hw as [_ Hw]. split; [auto|]. split; [discriminate|]. intros x E0. injection E0 as <-.
      unfold reflow_comment in H. unfold formed. cbn [fst snd]. destruct (is_bracket p); [now left|]. right.
      apply bindr_ok in H as (ls & E & H). destruct ls as [|l ls]; [discriminate|]. eauto.
    - unfold reflow_statement in H. destruct cs as [|fn cs]; [discriminate|]. destruct (negb _); [discriminate|].
      apply bindr_ok in H as ([lf c0] & E0 & H). destruct cs as [|lp cs]; [discriminate|]. destruct (negb _); [discriminate|].
      apply bindr_ok in H as ([ll c2] & E1 & H). destruct cs as [|ag cs]; [discriminate|]. destruct (negb _); [discriminate|].
      apply bindr_ok in H as ([la c3] & E2 & H). destruct cs as [|rp cs]; [discriminate|]. destruct (negb _); [discriminate|].
      match type of H with context [let '(_, _) := ?z in _] => destruct z as [dangle v0] end.
      apply bindr_ok in H as (dcur & _ & H). apply bindr_ok in H as ([[[ls c4] v1] x1] & E3 & _).
      unfold stmt_close in E3. apply bindr_ok in E3 as ([lr c5] & E4 & E3).
      do 4 (constructor; [eauto|]). destruct cs as [|cm [|? ?]]; [constructor| |discriminate].
      destruct (negb _); [discriminate|]. apply bindr_ok in E3 as ([lc c6] & E5 & _). constructor; eauto.
    - unfold reflow_flow in H. split; [|split; [intros _|intros x0 E0; discriminate E0]];
        (destruct cs as [|c1 [|c2 cs]];
          [discriminate || (apply bindr_ok in H as ([[[ls c] v] x] & E & _); apply flow_ran in E as [A B]; discriminate B)
          |apply bindr_ok in H as (? & _ & H); discriminate
          |apply bindr_ok in H as ([[[ls c] v] x] & E & _); apply flow_ran in E as [A B]; auto]).
    - unfold reflow_arg in H. apply bindr_ok in H as (n & _ & H). apply bindr_ok in H as ([[[ls c] v] x] & E & _). eapply arg_ran; eauto.
    - unfold reflow_kwarg in H. destruct cs as [|kw cs]; [discriminate|].
      match type of H with context [if ?z then Err AssertionErr else if _ then _ else _] => destruct z eqn:Ez end; [discriminate|]. destruct (negb _); [discriminate|].
      apply bindr_ok in H as ([lk c1] & E & H). constructor; [eauto|]. destruct cs as [|ch cs]; [constructor|].
      apply bindr_ok in H as ([l c2] & E2 & H). constructor; [eauto|]. destruct cs as [|? cs]; [constructor|].
      exfalso. unfold zlen in Ez. cbn [List.length] in Ez. rewrite Z.gtb_ltb in Ez. apply Z.ltb_ge in Ez. lia.
    - unfold reflow_parg in H. apply bindr_ok in H as ([[[[ls c] v] x] rows] & E & _). eapply parg_ran; eauto.
    - unfold reflow_pgroup in H. destruct (negb _); [discriminate|]. apply bindr_ok in H as ([[[ls c] v] x] & E & _). eapply pgroup_ran; eauto.
    - apply andb_prop in Hw as [_ Hw]. auto.
    - unfold reflow_atstmt in H. destruct cs as [|aw cs]; [discriminate|]. destruct (negb _); [discriminate|].
      apply bindr_ok in H as ([la c1] & E & H). constructor; [eauto|]. destruct cs as [|cm [|? ?]]; [constructor| |discriminate].
      destruct (negb _); [discriminate|]. apply bindr_ok in H as ([lc c2] & E2 & _). constructor; eauto.
  Qed.
  Lemma try_ran f limit ps : forall last x, try_passes f limit ps last = Ok x -> last = Some x \/ exists p w, f p w = Ok x.
  Proof.
    induction ps as [|[p w] ps IH]; intros last x H; cbn [try_passes] in H.
    - left. destruct last; [|discriminate]. congruence.
    - destruct (p >? limit); [left; destruct last; [|discriminate]; congruence|].
      apply bindr_ok in H as (y & E & H). destruct (lvalid (fst y)); [injection H as <-; eauto|].
      apply IH in H as [H|H]; [injection H as <-; eauto|auto].
  Qed.
  Theorem reflow_back b : wfb b = true -> forall sib path term cur passno x, reflow e b sib path term cur passno = Ok x ->
    closed_b b = true /\ Forall (formed e) (remarks b).
  Proof.
    induction b as [k p cs IH] using box_ind'. intros Hw sib path term cur passno x H. rewrite reflow_eq in H.
    apply try_ran in H as [H|(q & w & H)]; [discriminate|]. unfold try_pass in H. apply bindr_ok in H as (a & H & _).
    pose proof (children_of_fst e cs 0) as Ef. rewrite <- Ef in H at 1.
    apply once_ran in H as (A & B & C); [|now rewrite Ef]. rewrite Ef in B.
    cbn [wfb] in Hw. apply andb_prop in Hw as [Hw _].
    assert (G : forall n, Forall ran (children_of e cs n) -> forallb closed_b cs = true /\ Forall (formed e) (flat_map remarks cs)).
    { clear A B C Ef. induction IH as [|b cs Hb _ IHc]; intros n A; [split; [reflexivity|constructor]|].
      cbn [forallb flat_map children_of] in *. apply andb_prop in Hw as [W1 W2]. apply Forall_cons_iff in A as [A1 A2].
      destruct A1 as (path1 & term1 & cur1 & pass1 & x1 & E). cbn [snd] in E.
      destruct (Hb W1 _ _ _ _ _ _ E) as [C1 M1]. destruct (IHc W2 _ A2) as [C2 M2].
      rewrite C1, C2. split; [reflexivity|]. apply Forall_app. auto. }
    destruct (G _ A) as [G1 G2]. cbn [closed_b remarks]. rewrite G1. split.
    - destruct k; auto. now rewrite B.
    - apply Forall_app. split; [|exact G2]. destruct k; try constructor; auto.
  Qed.
End Back.

(** ** C145 *)
(** every if, foreach, while, function and macro has its closing command *)
Definition blocks_closed (tree : pnode) : bool := closed_b (create_box tree).
Definition notes (tree : pnode) : list (bool * list pnode) := remarks (create_box tree).

(** A file that parses, with closed blocks and comments that can be wrapped, is
    formatted; a format-off region that cuts a character is the one exception. *)
Theorem C145_formats_partial c specs tbl src toks tree :
  run_cfg c specs tbl -> p_usetabs c = false -> dangle_ok (p_fmt c) = true -> passes_ok (p_fmt c) ->
  tokenize src = Ok toks -> parse (p_ctx c) toks = Ok tree ->
  blocks_closed tree = true -> Forall (wraps (pipe_env c src toks)) (notes tree) ->
  (exists text v, process_file c src = Ok (text, v))
  \/ (process_file c src = Err UnicodeErr /\ no_switch toks = false).
Proof.
  intros R Ht Hd Hps Hl Hp Hc Hm.
  destruct (run_ready _ _ _ _ _ _ R Hl Hp) as (A & B & C).
  pose proof (file_firm _ _ _ _ _ _ R Hl Hp) as Hf.
  assert (Hd' : dangle_ok (cfg (pipe_env c src toks)) = true).
  { cbn [pipe_env cfg]. unfold effective. destruct (p_auto c); exact Hd. }
  assert (Hps' : passes_ok (cfg (pipe_env c src toks))).
  { cbn [pipe_env cfg]. unfold effective. destruct (p_auto c); exact Hps. }
  assert (Hw : wfb (create_box tree) = true) by apply B.
  destruct (layout_total _ Hd' Hps' _ Hw Hf Hc Hm) as (l & E3).
  unfold process_file. rewrite Hl. cbn [bindr]. rewrite Hp. cbn [bindr]. rewrite E3. cbn [bindr].
  assert (Hfin : forall o, exists text v, (let? o' := replace_with_tabs (p_usetabs c) (f_tab (p_fmt c)) (p_tabpol c)
               (if p_bom c then cBOM :: o else o) in Ok (o', lvalid l)) = Ok (text, v)).
  { intros o. unfold replace_with_tabs. rewrite Ht. cbn [negb bindr]. eauto. }
  destruct (C33_writer_never_asserts _ _ _ src B E3) as [[o Eo]|Eo]; cbn [pipe_env cfg] in Eo.
  - rewrite Eo. cbn [bindr]. left. apply Hfin.
  - destruct (no_switch toks) eqn:Hno; [|right; rewrite Eo; auto]. exfalso.
    assert (Hbt : btoks (create_box tree) = filter nonws (flat tree)).
    { pose proof (box_tokens false tree A) as Hb. destruct tree as [t|k cs]; [|exact Hb].
      unfold parse in Hp. apply bindr_ok in Hp as ([a r] & _ & Hp). discriminate. }
    assert (Hsub : forall t, In t (flat tree) -> In t toks).
    { assert (Ho : PropParse.no_onoff toks).
      { unfold no_switch in Hno. rewrite forallb_forall in Hno. apply Forall_forall. intros t Hin. apply Hno in Hin. now apply negb_true_iff. }
      destruct R as ((ex & vt & Hctx) & Hut & _). rewrite Hctx in Hp.
      destruct (C05_file_tuples_partial ex vt specs tbl Hut _ _ _ Hl Ho Hp) as [HP _].
      intros t Hin. apply Permutation_sym in HP. apply (Permutation_in _ HP) in Hin.
      destruct toks as [|u r]; [destruct Hin|]. unfold strip_bom_tok in Hin. destruct (is_tt _ u); [now right|exact Hin]. }
    assert (Hoff : no_off (create_box tree) = true).
    { apply box_no_off. rewrite Hbt. apply filter_forallb. unfold no_switch in Hno. rewrite forallb_forall in Hno |- *. auto. }
    assert (He : is_endl (f_endl (effective c src))) by (apply eff_endl, R).
    destruct (page_theorem false _ _ _ src B ltac:(discriminate) He Hoff E3) as (gs & _ & G2). cbn [pipe_env cfg] in G2.
    rewrite Eo in G2. discriminate.
Qed.

(** Conversely, a file that is formatted has closed blocks, and the comment
    formatter has an answer for each of its comments. *)
Theorem C145_formatted_back c specs tbl src toks tree text v :
  run_cfg c specs tbl -> tokenize src = Ok toks -> parse (p_ctx c) toks = Ok tree ->
  process_file c src = Ok (text, v) ->
  blocks_closed tree = true /\ Forall (formed (pipe_env c src toks)) (notes tree).
Proof.
  intros R Hl Hp H. destruct (run_ready _ _ _ _ _ _ R Hl Hp) as (A & B & C).
  assert (Hw : wfb (create_box tree) = true) by apply B.
  unfold process_file in H. rewrite Hl in H. cbn [bindr] in H. rewrite Hp in H. cbn [bindr] in H.
  apply bindr_ok in H as (l & E & _). unfold layout_tree in E. apply bindr_ok in E as ([l0 o] & E & _).
  set (au := f_autosort _) in E.
  apply reflow_back in E as [E1 E2]; [|now rewrite lock_wfb]. rewrite lock_closed in E1. split; [exact E1|].
  unfold notes. revert E2. generalize (formed (pipe_env c src toks)). intros Q. 
  generalize (create_box tree). clear. intros b. induction b as [k p cs IH] using box_ind'.
  destruct (lock_children au (B k p cs)) as [H _]. cbn [bcs bkind] in H.
  destruct (lock au (B k p cs)) as [k' p' cs'] eqn:E.
  assert (k' = k /\ p' = p) as [-> ->].
  { pose proof (lock_kind au (B k p cs)) as A. pose proof (lock_pcs au (B k p cs)) as B'. rewrite E in A, B'. split; assumption. }
  cbn [bcs] in H. cbn [remarks]. intros F. apply Forall_app in F as [F1 F2]. apply Forall_app. split; [exact F1|].
  rewrite Forall_flat_map in *. apply (Permutation_Forall H) in F2. rewrite Forall_map in F2.
  rewrite Forall_forall in *. auto.
Qed.

(** ** With comment markup switched off the conditions are exact *)
(** one bracket comment, or at least one line comment *)
Definition legible (q : bool * list pnode) : bool := is_bracket (snd q) || existsb (tok_is COMMENT) (snd q).

Lemma notes_tidy strict tree : tidy strict tree = true ->
  Forall (fun q => forallb noteT (snd q) = true /\ (strict = true -> pure (snd q) = true)) (notes tree).
Proof.
  unfold notes. induction tree as [t|k cs IH] using pnode_ind'; intros H; [constructor|].
  cbn [tidy] in H. apply andb_prop in H as [A B]. cbn [create_box remarks]. apply Forall_app. split.
  - destruct k; try constructor; [|constructor]. cbn [tidy_k snd] in *. apply andb_prop in A as [A C]. apply andb_prop in A as [A _].
    split; [exact A|]. intros ->. exact C.
  - clear A. induction IH as [|n cs Hn _ IHc]; [constructor|]. cbn [forallb flat_map] in *. apply andb_prop in B as [B1 B2].
    rewrite flat_map_app. apply Forall_app. split; [|auto]. specialize (Hn B1). destruct n as [t|k2 c2]; [constructor|].
    destruct k2; try (cbn [flat_map]; rewrite app_nil_r; exact Hn).
    destruct (_ <? 2); [constructor|]. cbn [flat_map]; rewrite app_nil_r; exact Hn.
Qed.
Lemma inlines_of c x p : forallb noteT p = true ->
  exists ls, comment_inlines c x p = Ok ls /\ (ls = nil <-> existsb (tok_is COMMENT) p = false).
Proof.
  induction p as [|[t|] p IH]; intros H; [exists nil; cbn; tauto| |discriminate H].
  cbn [forallb] in H. apply andb_prop in H as [_ H]. destruct (IH H) as (ls & E & Q). cbn [comment_inlines existsb tok_is]. rewrite E.
  cbn [bindr]. destruct (is_tt COMMENT t); cbn [orb]; eexists; (split; [reflexivity|]); [split; discriminate|exact Q].
Qed.
Lemma literal_wraps c src toks q : mk_enable (p_markup c) = false -> forallb noteT (snd q) = true ->
  (legible q = true -> wraps (pipe_env c src toks) q) /\ (formed (pipe_env c src toks) q -> legible q = true).
Proof.
  intros Hm Hq. destruct q as [x p]. unfold legible, wraps, formed. cbn [fst snd pipe_env cmt] in *.
  destruct (is_bracket p); [tauto|]. cbn [orb]. unfold format_comment. rewrite Hm. cbn [negb].
  destruct (inlines_of (p_markup c) x p Hq) as (ls & E & Q). split.
  - intros He. right. intros w. rewrite E. cbn [bindr]. destruct ls as [|l ls]; [|cbn [map]; eauto].
    rewrite (proj1 Q eq_refl) in He. discriminate.
  - intros [H|(w & l & l2 & H)]; [discriminate|]. rewrite E in H. cbn [bindr] in H.
    destruct (existsb _ p) eqn:Ee; [reflexivity|]. rewrite (proj2 Q eq_refl) in H. discriminate.
Qed.

(** Without comment markup, whether a file that parses is formatted depends on two
    things only: its blocks are closed, and every run of comments is a bracket
    comment alone or holds a line comment. *)
Theorem C145_literal_exact_partial c specs tbl src toks tree :
  run_cfg c specs tbl -> p_usetabs c = false -> dangle_ok (p_fmt c) = true -> passes_ok (p_fmt c) ->
  mk_enable (p_markup c) = false ->
  tokenize src = Ok toks -> parse (p_ctx c) toks = Ok tree -> no_switch toks = true ->
  (exists text v, process_file c src = Ok (text, v))
  <-> blocks_closed tree = true /\ forallb legible (notes tree) = true.
Proof.
  intros R Ht Hd Hps Hm Hl Hp Hno.
  destruct (run_ready _ _ _ _ _ _ R Hl Hp) as (A & _ & _).
  pose proof (notes_tidy _ _ A) as Hn. split.
  - intros (text & v & H). destruct (C145_formatted_back _ _ _ _ _ _ _ _ R Hl Hp H) as [Hc Hf]. split; [exact Hc|].
    apply forallb_forall. rewrite Forall_forall in *. intros q Hin. apply (proj2 (literal_wraps c src toks q Hm (proj1 (Hn _ Hin)))). auto.
  - intros [Hc Hg]. rewrite forallb_forall in Hg. destruct (C145_formats_partial _ _ _ _ _ _ R Ht Hd Hps Hl Hp Hc) as [H|[_ H]];
      [|exact H|congruence].
    rewrite Forall_forall in *. intros q Hin. apply (proj1 (literal_wraps c src toks q Hm (proj1 (Hn _ Hin)))). auto.
Qed.

(** In terms of the tokens: when bracket comments stand on lines of their own
    ([comments_clean]), the closing commands decide. *)
Theorem C145_clean_partial c specs tbl src toks tree :
  run_cfg c specs tbl -> p_usetabs c = false -> dangle_ok (p_fmt c) = true -> passes_ok (p_fmt c) ->
  mk_enable (p_markup c) = false ->
  tokenize src = Ok toks -> parse (p_ctx c) toks = Ok tree -> no_switch toks = true -> comments_clean toks = true ->
  (exists text v, process_file c src = Ok (text, v)) <-> blocks_closed tree = true.
Proof.
  intros R Ht Hd Hps Hm Hl Hp Hno Hcl. rewrite (C145_literal_exact_partial _ _ _ _ _ _ R Ht Hd Hps Hm Hl Hp Hno).
  split; [tauto|]. intros H. split; [exact H|]. apply forallb_forall.
  pose proof (notes_tidy _ _ (run_tidy true _ _ _ _ _ _ R Hl Hp (fun _ => Hcl))) as Hn. rewrite Forall_forall in Hn.
  intros [x p] Hin. destruct (Hn _ Hin) as [_ B]. specialize (B eq_refl). unfold legible. cbn [snd] in *.
  unfold pure in B. destruct (is_bracket p); [reflexivity|]. cbn [orb] in *.
  apply andb_prop in B as [B _]. apply andb_prop in B as [B _]. unfold begins_line in B. destruct p as [|[t|] p]; try discriminate B.
  cbn [existsb]. unfold is_line_tok in B. now rewrite B.
Qed.

(** ** Refuted: a file that parses may still stop the formatter *)
Definition parses (c : pcfg) (src : str) : Prop :=
  exists toks tree, tokenize src = Ok toks /\ parse (p_ctx c) toks = Ok tree.
Lemma parses_i c src : (match tokenize src with Ok toks => match parse (p_ctx c) toks with Ok _ => true | _ => false end | _ => false end) = true ->
  parses c src.
Proof.
  unfold parses. destruct (tokenize src) as [toks| |]; [|discriminate|discriminate].
  destruct (parse (p_ctx c) toks) as [tree| |] eqn:E; [|discriminate|discriminate]. eauto.
Qed.

(** a block without its closing command *)
Definition src_open : str := nl [$"if(A)"; $"  message(hello)"].
(** two bracket comments, one below the other, behind a command *)
Definition src_stack : str := nl [$"foo(x) #[[a]]"; $"       #[[b]]"].
(** an ordinary file under the documented value off of dangle_align *)
Definition off_pcfg : pcfg :=
  PCfg (FCfg 80 2 2 6 2 2 4 10 false false false $"off" false $"unchanged"
       (fun _ => $"canonical") lower nil nil [cNL]) default_mcfg the_ctx false false false UseSpace.
Definition src_plain : str := nl [$"foo(x)"].

Theorem C145_refuted :
  ~ (forall c specs tbl src, run_cfg c specs tbl -> parses c src -> exists text v, process_file c src = Ok (text, v)).
Proof.
  intros H. destruct (H default_pcfg nil nil src_open default_run) as (text & v & E).
  - apply parses_i. vm_compute. reflexivity.
  - vm_compute in E. discriminate.
Qed.
Theorem C145_stacked_refuted : parses default_pcfg src_stack /\ process_file default_pcfg src_stack = Err ValueErr.
Proof. split; [apply parses_i|]; vm_compute; reflexivity. Qed.
Theorem C145_dangle_off_refuted : run_cfg off_pcfg nil nil /\ parses off_pcfg src_plain /\ process_file off_pcfg src_plain = Err ValueErr
  /\ process_file default_pcfg src_plain = Ok (src_plain, true).
Proof. split; [exact default_run|]. split; [apply parses_i; vm_compute; reflexivity|]. split; vm_compute; reflexivity. Qed.

(** ** Example: the hypotheses are met *)
Definition calm_pcfg : pcfg :=
  PCfg default_fcfg (MCfg $"*" $"." false None fence_match ruler_match ruler_match $"#<" 10 true false) the_ctx false false false UseSpace.
Definition src_total : str := nl [$"# about"; $"foo()"; $"#[[ block ]]"; $"if(A AND (B OR C)) # why"; $"  foreach(x ${xs})";
  $"    set(y ${x} # one"; $"          two)"; $"  endforeach()"; $"else()"; $"  @ONLY@"; $"endif()"].
Example C145_ex : run_cfg calm_pcfg nil nil /\ p_usetabs calm_pcfg = false /\ dangle_ok (p_fmt calm_pcfg) = true
  /\ passes_ok (p_fmt calm_pcfg) /\ mk_enable (p_markup calm_pcfg) = false
  /\ exists toks tree, tokenize src_total = Ok toks /\ parse (p_ctx calm_pcfg) toks = Ok tree
     /\ no_switch toks = true /\ comments_clean toks = true /\ blocks_closed tree = true
     /\ List.length (notes tree) = 4%nat.
Proof.
  split; [exact default_run|]. split; [reflexivity|]. split; [reflexivity|].
  split; [apply default_passes_ok; reflexivity|]. split; [reflexivity|].
  destruct (tokenize src_total) as [toks| |] eqn:E; [|vm_compute in E; discriminate|vm_compute in E; discriminate].
  destruct (parse (p_ctx calm_pcfg) toks) as [tree| |] eqn:E2;
    vm_compute in E; injection E as <-; vm_compute in E2; [|discriminate E2|discriminate E2]. injection E2 as <-.
  do 2 eexists. split; [reflexivity|]. split; [vm_compute; reflexivity|].
  repeat (split; [vm_compute; reflexivity|]). vm_compute. reflexivity.
Qed.
(** an unclosed block is caught by the same condition *)
Example C145_open_ex : exists toks tree, tokenize src_open = Ok toks /\ parse (p_ctx calm_pcfg) toks = Ok tree
  /\ no_switch toks = true /\ comments_clean toks = true /\ blocks_closed tree = false.
Proof.
  destruct (tokenize src_open) as [toks| |] eqn:E; [|vm_compute in E; discriminate|vm_compute in E; discriminate].
  destruct (parse (p_ctx calm_pcfg) toks) as [tree| |] eqn:E2;
    vm_compute in E; injection E as <-; vm_compute in E2; [|discriminate E2|discriminate E2]. injection E2 as <-.
  do 2 eexists. split; [reflexivity|]. split; [vm_compute; reflexivity|].
  repeat (split; [vm_compute; reflexivity|]). vm_compute. reflexivity.
Qed.
