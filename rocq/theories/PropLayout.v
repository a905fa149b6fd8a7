(** * PropLayout: C33 - C38, properties of every laid-out file *)
From Verif Require Import Base Regex Lex LexProofs TextOps TextProofs Tree Layout LayoutProofs Pieces LayoutCols
  SortProofs PropSort Writing.
From Coq Require Import Permutation.

(** ** Locking keeps what the layout relies on *)
Lemma forallb_perm {A} (f : A -> bool) l m : Permutation l m -> forallb f l = forallb f m.
Proof.
  induction 1; simpl; auto; [now rewrite IHPermutation| |congruence].
  rewrite !andb_assoc. f_equal. apply andb_comm.
Qed.
Lemma lock_kind a b : bkind (lock a b) = bkind b. Proof. destruct b; reflexivity. Qed.
Lemma lock_pcs a b : bpcs (lock a b) = bpcs b. Proof. destruct b; reflexivity. Qed.
Lemma lock_children a b : Permutation (bcs (lock a b)) (map (lock a) (bcs b))
  /\ (is_parg_k (bkind b) = false -> bcs (lock a b) = map (lock a) (bcs b)).
Proof.
  destruct b as [k p cs]. cbn [lock bcs bkind].
  destruct k; try (split; reflexivity). destruct sortable; [|split; reflexivity].
  destruct a; [|split; reflexivity]. split; [symmetry; apply C31_sort_permutes|discriminate].
Qed.
Lemma forallb_map {A B} (f : A -> B) (p : B -> bool) l : forallb p (map f l) = forallb (fun x => p (f x)) l.
Proof. induction l; simpl; congruence. Qed.
Lemma forallb_ext_in {A} (p q : A -> bool) l : (forall x, In x l -> p x = q x) -> forallb p l = forallb q l.
Proof.
  induction l; simpl; intros H; [reflexivity|]. rewrite H by (now left). rewrite IHl; auto.
Qed.

Lemma lock_names a c b : forall parent, names_ok c parent (lock a b) = names_ok c parent b.
Proof.
  induction b as [k p cs IH] using box_ind'. intros parent.
  destruct (lock_children a (B k p cs)) as [H _]. cbn [bcs] in H.
  destruct (lock a (B k p cs)) as [k' p' cs'] eqn:E.
  assert (k' = k /\ p' = p) as [-> ->].
  { pose proof (lock_kind a (B k p cs)) as A. pose proof (lock_pcs a (B k p cs)) as B'.
    rewrite E in A, B'. split; assumption. }
  cbn [bcs] in H. cbn [names_ok]. f_equal. rewrite (forallb_perm _ _ _ H), forallb_map.
  apply forallb_ext_in. rewrite Forall_forall in IH. auto.
Qed.
Lemma lock_no_off a b : no_off (lock a b) = no_off b.
Proof.
  induction b as [k p cs IH] using box_ind'.
  destruct (lock_children a (B k p cs)) as [H _]. cbn [bcs] in H.
  destruct (lock a (B k p cs)) as [k' p' cs'] eqn:E.
  assert (k' = k /\ p' = p) as [-> ->].
  { pose proof (lock_kind a (B k p cs)) as A. pose proof (lock_pcs a (B k p cs)) as B'.
    rewrite E in A, B'. split; assumption. }
  cbn [bcs] in H. cbn [no_off]. f_equal. rewrite (forallb_perm _ _ _ H), forallb_map.
  apply forallb_ext_in. rewrite Forall_forall in IH. auto.
Qed.
Lemma lock_cm_first a b : cm_first (lock a b) = cm_first b.
Proof. unfold cm_first, first_is_comment. now rewrite lock_kind, lock_pcs. Qed.
Lemma lock_cm_last a b : cm_last (lock a b) = cm_last b.
Proof.
  unfold cm_last. rewrite lock_kind, lock_pcs. f_equal. f_equal. destruct b as [k p cs]. destruct k; reflexivity.
Qed.
Lemma lock_tail a l : tail_ok (map (lock a) l) = tail_ok l.
Proof. destruct l as [|x [|]]; simpl; auto. now rewrite lock_kind. Qed.
Lemma lock_in_parg a b : in_parg (lock a b) = in_parg b.
Proof. unfold in_parg. now rewrite lock_kind. Qed.
Lemma lock_in_arg a b : in_arg (lock a b) = in_arg b.
Proof. unfold in_arg. now rewrite lock_kind. Qed.
Lemma lock_in_body a b : in_body (lock a b) = in_body b.
Proof. unfold in_body. rewrite lock_kind. reflexivity. Qed.

Lemma lock_wfb a b : wfb (lock a b) = wfb b.
Proof.
  induction b as [k p cs IH] using box_ind'.
  destruct (lock_children a (B k p cs)) as [H Hm]. cbn [bcs bkind] in H, Hm.
  destruct (lock a (B k p cs)) as [k' p' cs'] eqn:E.
  assert (k' = k /\ p' = p) as [-> ->].
  { pose proof (lock_kind a (B k p cs)) as A. pose proof (lock_pcs a (B k p cs)) as B'.
    rewrite E in A, B'. split; assumption. }
  cbn [bcs] in H, Hm. cbn [wfb]. f_equal.
  { rewrite (forallb_perm _ _ _ H), forallb_map. apply forallb_ext_in. rewrite Forall_forall in IH. auto. }
  clear E. destruct (is_parg_k k) eqn:Ep.
  - destruct k; try discriminate. rewrite (forallb_perm _ _ _ H), forallb_map.
    apply forallb_ext_in. intros; apply lock_in_parg.
  - rewrite (Hm eq_refl). clear H Hm IH.
    assert (Hnil : match map (lock a) cs with nil => true | _ => false end = match cs with nil => true | _ => false end)
      by (destruct cs; reflexivity).
    destruct k; try discriminate; try exact Hnil; try (now rewrite Hnil); try (now rewrite lock_tail);
      try (rewrite forallb_map; apply forallb_ext_in; intros; rewrite ?lock_kind; auto using lock_in_body, lock_in_arg; reflexivity).
    + destruct cs as [|[k1 p1 c1] cs]; [reflexivity|]. cbn [map lock]. destruct k1; reflexivity.
    + destruct cs as [|[k1 p1 c1] [|y [|z cs]]]; [reflexivity| | |]; cbn [map lock]; destruct k1; try reflexivity.
      all: now rewrite lock_kind.
    + destruct cs as [|x [|y [|z cs]]]; try reflexivity. cbn [map]. now rewrite !lock_kind, lock_tail.
    + destruct cs as [|[k1 p1 c1] cs]; [reflexivity|]. cbn [map lock]. destruct k1; reflexivity.
Qed.

Lemma lock_cmok a b : cmok (lock a b) = cmok b.
Proof.
  induction b as [k p cs IH] using box_ind'.
  destruct (lock_children a (B k p cs)) as [H _]. cbn [bcs] in H.
  destruct (lock a (B k p cs)) as [k' p' cs'] eqn:E.
  assert (k' = k /\ p' = p) as [-> ->].
  { pose proof (lock_kind a (B k p cs)) as A. pose proof (lock_pcs a (B k p cs)) as B'.
    rewrite E in A, B'. split; assumption. }
  cbn [bcs] in H. cbn [cmok]. f_equal.
  { rewrite (forallb_perm _ _ _ H), forallb_map. apply forallb_ext_in. rewrite Forall_forall in IH. auto. }
  destruct k; auto; rewrite (forallb_perm _ _ _ H), forallb_map; apply forallb_ext_in; intros x _;
    now rewrite lock_kind, ?lock_cm_first, ?lock_cm_last.
Qed.

(** ** Hypotheses shared by the theorems below
    - the tree has the shape the parser produces (see [ParseShape]);
    - the configured spellings keep the length of the names;
    - the comment formatter returns lines. *)
Definition ready (e : env) (root : pnode) : Prop :=
  cmt_ok e /\ 0 <= f_tab (cfg e) /\ wfb (create_box root) = true
  /\ names_ok (cfg e) KBody (create_box root) = true.

Lemma layout_lok e root l : ready e root -> layout_tree e root = Ok l ->
  exists o, lok e (lock (f_autosort (cfg e)) (create_box root)) l o /\ lpos l = Cur 0 0 /\ cols l.
Proof.
  intros (_ & Ht & Hw & _) H. unfold layout_tree in H. bk H. destruct x as [l' o]. inv H.
  pose proof Hx as Hx'. apply reflow_cols in Hx' as [Hc _]; [|exact Ht|simpl; lia].
  apply reflow_lok in Hx as [A B]; [|exact Ht|now rewrite lock_wfb]. eauto.
Qed.

(** ** C33 *)
(** every text starts at or behind the end of the previous one *)
Fixpoint in_order (c : cursor) (ps : list piece) : Prop :=
  match ps with nil => True | p :: ps' => cle c (p_at p) /\ cle (p_at p) (p_end p) /\ in_order (p_end p) ps' end.
Lemma placed_in_order closed ps : forall s, placed closed s ps -> in_order (fst s) ps.
Proof.
  induction ps as [|p ps IH]; intros s H; [exact I|]. destruct H as [(A & _) H].
  split; [exact A|]. split; [apply text_end_ge|]. apply (IH _ H).
Qed.

Lemma layout_placed closed e root l : ready e root -> (closed = true -> cmok (create_box root) = true) ->
  layout_tree e root = Ok l ->
  placed closed (Cur 0 0, None) (pieces (cfg e) KBody l).
Proof.
  intros R Hm H. destruct (layout_lok e root l R H) as (o & Hl & Hp & _). destruct R as (Hc & Ht & Hw & Hn).
  apply (proj1 (lok_placed closed e Hc) _ _ _ Hl).
  - now rewrite lock_wfb.
  - now rewrite lock_cmok.
  - now rewrite lock_names.
  - rewrite Hp. split; [apply cle_refl|]. split; [discriminate|now right].
Qed.
Theorem C33_positions_advance e root l : ready e root -> layout_tree e root = Ok l ->
  in_order (Cur 0 0) (pieces (cfg e) KBody l).
Proof. intros R H. apply (placed_in_order false _ _ (layout_placed false e root l R ltac:(discriminate) H)). Qed.

(** the writer's assertion never fires, with or without format-off regions; the
    only failure left is a region boundary inside a multi-byte character *)
Theorem C33_writer_never_asserts e root l infile : ready e root -> layout_tree e root = Ok l ->
  (exists text, write_tree (cfg e) infile l = Ok text)
  \/ write_tree (cfg e) infile l = Err UnicodeErr.
Proof.
  intros R H. destruct (layout_lok e root l R H) as (o & Hl & Hp & _). destruct R as (Hc & Ht & Hw & Hn).
  pose proof (proj1 (write_safe e infile Hc) _ _ _ Hl KBody (WS None cf_init)) as A.
  rewrite lock_wfb, lock_names, Hp in A. specialize (A Hw Hn (cle_refl _)).
  unfold write_tree. destruct (write _ _ _ _ _) as [s|err|]; simpl in A |- *; [eauto| |tauto].
  destruct err; try tauto; now right.
Qed.

(** ** The page: output text from the placed texts *)
Definition gap := (nat * nat)%type. (* line endings, then blanks *)
Definition gap_text (endl : str) (g : gap) : str := repeat_s (fst g) endl ++ spaces (Z.of_nat (snd g)).
Fixpoint page (endl : str) (gs : list gap) (ps : list piece) : str :=
  match gs, ps with
  | g :: gs', p :: ps' => gap_text endl g ++ with_endl endl (p_text p) ++ page endl gs' ps'
  | _, _ => nil
  end.
(** gaps wide enough: a line ending behind a text that swallows its line, and
    something between two texts which may not touch; the first is asked for only
    if [closed] *)
Fixpoint gaps_ok (closed : bool) (pv : option pk) (gs : list gap) (ps : list piece) : Prop :=
  match gs, ps with
  | g :: gs', p :: ps' =>
      (match pv with
       | Some k => (closed = true -> line_k k = true -> (0 < fst g)%nat)
                   /\ (touch (Some k) (p_kind p) = false -> (0 < fst g)%nat \/ (0 < snd g)%nat)
       | None => True
       end) /\ gaps_ok closed (Some (p_kind p)) gs' ps'
  | nil, nil => True
  | _, _ => False
  end.

Lemma write_at_gap endl f r c text f' : is_endl endl -> cursor_ok f -> 0 <= c ->
  cle (Cur (crow f) (ccol f)) (Cur r c) ->
  write_at endl f r c text = Ok f' ->
  cursor_ok f' /\ exists g, out f' = out f ++ gap_text endl g ++ with_endl endl text
    /\ (crow f < r -> (0 < fst g)%nat)
    /\ (clt (Cur (crow f) (ccol f)) (Cur r c) -> (0 < fst g)%nat \/ (0 < snd g)%nat).
Proof.
  intros He Hok Hc Hle H. apply write_at_spec in H as [A (k & n & H)]; auto. cbn zeta in H.
  destruct H as (H1 & H2 & H3). split; [exact A|].
  assert (Hrow : crow f + Z.of_nat k = r).
  { destruct Hok as [Hr _]. rewrite Hr, <- H2, !count_chr_app, count_nl_repeat, count_nl_spaces by auto. lia. }
  exists (k, Z.to_nat n). cbn [fst snd]. split.
  - rewrite H1. unfold gap_text. cbn [fst snd]. unfold spaces. rewrite Nat2Z.id. reflexivity.
  - split; [lia|]. intros Hlt. destruct k as [|k]; [|left; lia]. right.
    cbn [repeat_s] in H3. unfold clt in Hlt. cbn in Hlt.
    destruct Hok as [_ Hcol]. simpl in H3. rewrite col_of_app_out in H3 by apply spaces_no_nl.
    destruct (Z_le_dec n 0) as [Hn|Hn]; [|lia]. exfalso.
    assert (spaces n = nil) as E by (unfold spaces; destruct n; try lia; reflexivity).
    rewrite E in H3. change (zlen nil) with 0 in H3. lia.
Qed.

Lemma put_all_page closed c ps : is_endl (f_endl c) -> forall s k s',
  cursor_ok (w_f s) -> Forall (fun p => 0 <= colm (p_at p)) ps ->
  placed closed (wcur s, k) ps -> put_all c ps s = Ok s' ->
  cursor_ok (w_f s') /\ exists gs, gaps_ok closed k gs ps
    /\ out (w_f s') = out (w_f s) ++ page (f_endl c) gs ps.
Proof.
  intros He. induction ps as [|p ps IH]; intros s k s' Hok Hcol Hpl H.
  - inv H. split; [exact Hok|]. exists nil. split; [exact I|]. simpl. now rewrite app_nil_r.
  - cbn [put_all] in H. bk H. rename x into s1. destruct Hpl as [(F1 & F2 & F3) Hpl].
    inversion Hcol as [|? ? Hc1 Hc2]; subst.
    assert (Hput := Hx). unfold put in Hput. bk Hput. inv Hput. rename x into f1.
    destruct p as [[r cl] text kd]. cbn [p_at p_text p_kind row colm fst snd] in *.
    destruct (write_at_gap _ _ _ _ _ _ He Hok Hc1 F1 Hx0) as (Hok1 & g & Hout & Hg1 & Hg2).
    assert (Hcur : wcur (WS (w_off s) f1) = p_end (Pc (Cur r cl) text kd)).
    { destruct (put_ok c s (Cur r cl) text F1) as (s2 & E1 & E2 & _). rewrite Hx in E1. inv E1. exact E2. }
    unfold step in Hpl. cbn [p_kind] in Hpl. rewrite <- Hcur in Hpl.
    destruct (IH (WS (w_off s) f1) _ _ Hok1 Hc2 Hpl H) as (A & gs & B & C). split; [exact A|].
    exists (g :: gs). split.
    + cbn [gaps_ok p_kind]. split; [|exact B]. destruct k as [k|]; [|exact I]. split.
      * intros E0 E. apply Hg1. apply F2. unfold line_st. cbn [snd]. now rewrite E, E0.
      * intros E1. apply Hg2. apply F3. exact E1.
    + rewrite C. cbn [page p_text w_f]. rewrite Hout. now rewrite <- !app_assoc.
Qed.

Lemma line_pieces_col ls : forall p, 0 <= colm p -> Forall (fun q => 0 <= colm (p_at q)) (line_pieces p ls).
Proof. induction ls; intros p H; simpl; constructor; auto. Qed.
Lemma own_pieces_col c parent k p pos lines : 0 <= colm pos ->
  Forall (fun q => 0 <= colm (p_at q)) (own_pieces c parent k p pos lines).
Proof.
  intros H. unfold own_pieces.
  destruct k; repeat match goal with
    | |- Forall _ (match ?x with _ => _ end) => destruct x
    | |- Forall _ (if ?x then _ else _) => destruct x
    end; try (constructor; [exact H|constructor]); try constructor. now apply line_pieces_col.
Qed.
Section LayInd.
  Variable P : lay -> Prop.
  Hypothesis H : forall k p c a w v x ls cs, Forall P cs -> P (Lay k p c a w v x ls cs).
  Fixpoint lay_ind' (l : lay) : P l :=
    match l with
    | Lay k p c a w v x ls cs => H k p c a w v x ls cs ((fix go l : Forall P l :=
        match l with
        | nil => Forall_nil _
        | y :: l' => Forall_cons _ (lay_ind' y) (go l')
        end) cs)
    end.
End LayInd.
Lemma pieces_col c l : forall parent, cols l -> Forall (fun q => 0 <= colm (p_at q)) (pieces c parent l).
Proof.
  induction l as [k p pos a w v x ls cs IH] using lay_ind'. intros parent H. rewrite cols_eq in H.
  destruct H as [H1 H2]. cbn [pieces]. apply Forall_app. split; [now apply own_pieces_col|].
  revert H2. induction IH as [|l cs Hl _ IHl]; cbn [colss flat_map]; [constructor|]. intros [A B].
  apply Forall_app. auto.
Qed.

(** The text of a file without format-off regions: the placed texts in order,
    separated by line endings and blanks only, with wide enough gaps. *)
Theorem page_theorem closed e root l infile :
  ready e root -> (closed = true -> cmok (create_box root) = true) -> is_endl (f_endl (cfg e)) -> no_off (create_box root) = true ->
  layout_tree e root = Ok l ->
  exists gs, gaps_ok closed None gs (pieces (cfg e) KBody l)
    /\ write_tree (cfg e) infile l
       = Ok (page (f_endl (cfg e)) gs (pieces (cfg e) KBody l) ++ f_endl (cfg e)).
Proof.
  intros R Hm He Hno H. pose proof (layout_placed closed e root l R Hm H) as Hpl.
  destruct (layout_lok e root l R H) as (o & Hl & Hp & Hcols). destruct R as (Hc & Ht & Hw & Hn).
  unfold write_tree.
  rewrite (proj1 (write_pieces e infile) _ _ _ Hl KBody (WS None cf_init)).
  2: now rewrite lock_wfb.
  2: now rewrite lock_names.
  2: now rewrite lock_no_off.
  2: reflexivity.
  change (Cur 0 0) with (wcur (WS None cf_init)) in Hpl.
  destruct (put_all_ok closed (cfg e) _ _ _ Hpl) as (s' & E & _). rewrite E. cbn [bindr].
  assert (Hok0 : cursor_ok (w_f (WS None cf_init))) by (split; reflexivity).
  destruct (put_all_page closed (cfg e) _ He _ _ _ Hok0 (pieces_col _ _ KBody Hcols) Hpl E)
    as (_ & gs & G1 & G2).
  exists gs. split; [exact G1|]. unfold getvalue. rewrite G2. reflexivity.
Qed.

(** ** C34: nothing but the texts of the tree, in order *)

(** What the tree says should be written: the texts of its nodes from left to
    right, a comment standing for whatever the comment formatter makes of it. *)
Inductive item := IText (k : pk) (s : str) | IComment (explicit : bool) (p : list pnode).
Definition own_items (c : fcfg) (parent k : kind) (p : list pnode) : list item :=
  match k with
  | KLParen => [IText (PkParen true) $"("]
  | KRParen => [IText (PkParen false) $")"]
  | KFunname | KArgument | KKeyword | KFlag | KAtWord =>
      match p with
      | T t :: _ => match scalar_text c parent k t with Ok s => [IText (PkWord (is_funname_k k)) s] | _ => nil end
      | _ => nil
      end
  | KOnOff => match first_tok p with
              | Some t => match onoff_text t with Some s => [IText PkSwitch s] | None => nil end
              | None => nil
              end
  | KComment x => if is_bracket p then [IText PkBracket (normalize (first_spelling p))]
                  else [IComment x p]
  | _ => nil
  end.
Fixpoint items (c : fcfg) (parent : kind) (b : box) : list item :=
  match b with B k p cs => own_items c parent k p ++ flat_map (items c k) cs end.

(** the placed texts realize the items *)
Inductive realizes (e : env) : list item -> list piece -> Prop :=
| rz_nil : realizes e nil nil
| rz_text k s is p ps : p_text p = s -> p_kind p = k -> realizes e is ps ->
    realizes e (IText k s :: is) (p :: ps)
| rz_comment x q w ls cps is ps : cmt e x q w = Ok ls -> ls <> nil ->
    map p_text cps = ls -> Forall (fun p => p_kind p = PkLine) cps -> realizes e is ps ->
    realizes e (IComment x q :: is) (cps ++ ps).
Lemma realizes_app e a b : realizes e a b -> forall c d, realizes e c d -> realizes e (a ++ c) (b ++ d).
Proof.
  induction 1; intros c d Hc; simpl; auto.
  - constructor; auto.
  - rewrite <- app_assoc. econstructor; eauto.
Qed.
Lemma line_pieces_text ls : forall p, map p_text (line_pieces p ls) = ls
  /\ Forall (fun q => p_kind q = PkLine) (line_pieces p ls).
Proof.
  induction ls as [|s ls IH]; intros p; simpl; [split; constructor|].
  destruct (IH (Cur (row p + 1) (colm p))) as [A B]. split; [now rewrite A|now constructor].
Qed.

Lemma lok_realizes e :
  (forall b l o, lok e b l o -> forall parent, wfb b = true ->
     realizes e (items (cfg e) parent b) (pieces (cfg e) parent l))
  /\ (forall k pv c bs ls o, loks e k pv c bs ls o -> forallb wfb bs = true ->
     realizes e (flat_map (items (cfg e) k) bs) (flat_map (pieces (cfg e) k) ls)).
Proof.
  apply lok_loks_ind.
  - intros k p cs pos pass w v x lines ls o l Hle Hln Hk Hx Hv Hls IH parent Hw.
    unfold l. cbn [items pieces]. simpl in Hw. apply andb_prop in Hw as [Hws Hwk].
    apply realizes_app.
    + clear IH Hls. unfold lines_ok in Hln. cbn in Hln.
      destruct k; cbn [own_items own_pieces];
        try (repeat match goal with
             | |- context [match ?z with _ => _ end] => lazymatch z with context [is_bracket] => fail | _ => destruct z end
             end; repeat constructor; fail).
      destruct (is_bracket p); [repeat constructor|]. destruct Hln as [A B].
      destruct (line_pieces_text lines pos) as [C D].
      rewrite <- (app_nil_r (line_pieces pos lines)). econstructor; eauto. constructor.
    + destruct (leaf_k k) eqn:El; [|auto].
      assert (cs = nil) as ->.
      { destruct k; try discriminate; destruct cs; try reflexivity; try discriminate;
          rewrite andb_false_r in Hwk; discriminate. }
      inversion Hls; subst. constructor.
  - intros. constructor.
  - intros k pv c b bs l ls o1 o Hs Hl IHl Hls IHls Hw. simpl in Hw. apply andb_prop in Hw as [Hw1 Hw2].
    cbn [flat_map]. apply realizes_app; auto.
Qed.

(** sorting only permutes; without it the order is the one of the tree *)
Lemma lock_items a c b : forall parent,
  Permutation (items c parent b) (items c parent (lock a b)).
Proof.
  induction b as [k p cs IH] using box_ind'. intros parent.
  destruct (lock_children a (B k p cs)) as [H _]. cbn [bcs] in H.
  destruct (lock a (B k p cs)) as [k' p' cs'] eqn:E.
  assert (k' = k /\ p' = p) as [-> ->].
  { pose proof (lock_kind a (B k p cs)) as A. pose proof (lock_pcs a (B k p cs)) as B'.
    rewrite E in A, B'. split; assumption. }
  cbn [bcs] in H. cbn [items]. apply Permutation_app_head.
  rewrite (Permutation_flat_map (items c k) H). clear E H.
  induction IH as [|x cs Hx _ IHl]; simpl; [reflexivity|]. apply Permutation_app; auto.
Qed.
Lemma lock_off b : lock false b = b.
Proof.
  induction b as [k p cs IH] using box_ind'. cbn [lock].
  assert (map (lock false) cs = cs) as ->.
  { induction IH; simpl; congruence. }
  destruct k; try reflexivity. now destruct sortable.
Qed.

Theorem C34_texts_in_order e root l :
  ready e root -> layout_tree e root = Ok l ->
  exists b, realizes e (items (cfg e) KBody b) (pieces (cfg e) KBody l)
    /\ b = lock (f_autosort (cfg e)) (create_box root)
    /\ Permutation (items (cfg e) KBody (create_box root)) (items (cfg e) KBody b)
    /\ (f_autosort (cfg e) = false -> b = create_box root).
Proof.
  intros R H. destruct (layout_lok e root l R H) as (o & Hl & Hp & _). destruct R as (Hc & Ht & Hw & Hn).
  eexists. split; [|split; [reflexivity|split; [apply lock_items|]]].
  - apply (proj1 (lok_realizes e) _ _ _ Hl). now rewrite lock_wfb.
  - intros ->. apply lock_off.
Qed.
(** ... and these texts, separated by line endings and blanks only, are the whole
    output *)
Theorem C34_output_is_the_texts e root l infile :
  ready e root -> is_endl (f_endl (cfg e)) -> no_off (create_box root) = true ->
  layout_tree e root = Ok l ->
  exists gs ps, write_tree (cfg e) infile l = Ok (page (f_endl (cfg e)) gs ps ++ f_endl (cfg e))
    /\ List.length gs = List.length ps
    /\ realizes e (items (cfg e) KBody (lock (f_autosort (cfg e)) (create_box root))) ps.
Proof.
  intros R He Hno H. destruct (page_theorem false e root l infile R ltac:(discriminate) He Hno H) as (gs & G1 & G2).
  destruct (C34_texts_in_order e root l R H) as (b & B1 & -> & _).
  exists gs, (pieces (cfg e) KBody l). split; [exact G2|]. split; [|exact B1].
  revert G1. generalize (@None pk) as k. generalize (pieces (cfg e) KBody l) as ps. clear.
  induction gs as [|g gs IH]; intros [|p ps] k H; simpl in H; try tauto; try reflexivity.
  destruct H as [_ H]. simpl. f_equal. eauto.
Qed.

(** ** C35: a line comment swallows nothing *)
(** For trees in which every comment node is homogeneous: behind every text that
    reaches to the end of its line comes a line ending (or the end of the file,
    which [write_tree] closes with one). *)
Fixpoint lines_closed (gs : list gap) (ps : list piece) : Prop :=
  match gs, ps with
  | _ :: ((g :: _) as gs'), p :: ((_ :: _) as ps') =>
      (line_k (p_kind p) = true -> (0 < fst g)%nat) /\ lines_closed gs' ps'
  | _, _ => True
  end.
Theorem C35_nothing_behind_a_comment e root l infile :
  ready e root -> cmok (create_box root) = true -> is_endl (f_endl (cfg e)) -> no_off (create_box root) = true ->
  layout_tree e root = Ok l ->
  exists gs, lines_closed gs (pieces (cfg e) KBody l)
    /\ write_tree (cfg e) infile l
       = Ok (page (f_endl (cfg e)) gs (pieces (cfg e) KBody l) ++ f_endl (cfg e)).
Proof.
  intros R Hm He Hno H. destruct (page_theorem true e root l infile R (fun _ => Hm) He Hno H) as (gs & G1 & G2).
  exists gs. split; [|exact G2]. revert G1. generalize (@None pk) as k.
  generalize (pieces (cfg e) KBody l) as ps. clear.
  induction gs as [|g gs IH]; intros [|p ps] k H; simpl in H; try tauto.
  destruct H as [_ H]. destruct gs as [|g' gs]; destruct ps as [|p' ps]; try exact I.
  split; [simpl in H; tauto|]. eapply IH; eauto.
Qed.

(** ** C36 *)
Lemma flow_lines_edge ls : forall c x y, x <= y -> snd (flow_lines c x ls) <= snd (flow_lines c y ls).
Proof. induction ls as [|l ls IH]; simpl; intros; [assumption|]. apply IH. lia. Qed.
Lemma lok_edges e : cmt_ok e ->
  (forall b l o, lok e b l o -> forall parent, wfb b = true -> names_ok (cfg e) parent b = true ->
     Forall (fun p => p_edge p <= lext l) (pieces (cfg e) parent l))
  /\ (forall k pv c bs ls o, loks e k pv c bs ls o -> forallb wfb bs = true ->
     forallb (names_ok (cfg e) k) bs = true -> forall x, Forall (fun l => lext l <= x) ls ->
     Forall (fun p => p_edge p <= x) (flat_map (pieces (cfg e) k) ls)).
Proof.
  intros Hc. apply lok_loks_ind.
  - intros k p cs pos pass w v x lines ls o l Hle Hln Hk Hx Hv Hls IH parent Hw Hn.
    unfold l. cbn [pieces lext]. simpl in Hw. apply andb_prop in Hw as [Hws Hwk].
    simpl in Hn. apply andb_prop in Hn as [Hnk Hns].
    apply Forall_app. split.
    + clear IH. unfold own_le in Hle. unfold lines_ok in Hln. cbn in Hle, Hln.
      assert (Hsc : is_scalar_k k = true -> snd (flow_text pos (first_spelling p)) <= x ->
        Forall (fun q => p_edge q <= x)
          match p with T t :: _ => match scalar_text (cfg e) parent k t with
                    | Ok s => [Pc pos s (PkWord (is_funname_k k))] | _ => nil end | _ => nil end).
      { intros Hs E. rewrite Hs in Hnk. destruct p as [|[t|] p]; try discriminate.
        destruct (scalar_piece _ _ _ _ _ Hs Hnk) as (txt & -> & Hf). constructor; [|constructor].
        unfold p_edge. cbn [p_at p_text]. rewrite Hf. exact E. }
      destruct k; try (apply Hsc; [reflexivity|exact Hle]); cbn [own_pieces]; try constructor; try constructor.
      * destruct (is_bracket p).
        -- constructor; [|constructor]. exact Hle.
        -- destruct Hln as [A B]. apply andb_prop in Hwk as [Hwk _]. apply (Hc _ _ _ _ Hwk) in A.
           assert (Hcol : forall q, colm q = colm pos -> Forall (fun r => p_edge r <= x) (line_pieces q lines)).
           { clear B Hls. induction lines as [|s lines IH]; intros q Hq; simpl; [constructor|].
             inversion Hle; subst. inversion A; subst. constructor; [|apply IH; auto].
             unfold p_edge, text_flow. cbn [p_at p_text].
             assert (split_on cNL s = [s]) as ->.
             { match goal with H : ~ In cNL s |- _ => clear -H; rename H into Ha end.
               induction s as [|c s IH]; simpl; auto.
               rewrite IH by (intros A; apply Ha; now right).
               destruct (N.eqb c cNL) eqn:E; auto. apply N.eqb_eq in E. subst. exfalso. apply Ha. now left. }
             simpl. lia. }
           now apply Hcol.
      * destruct (first_tok p) as [t|]; [|constructor]. destruct (onoff_text t) as [s|] eqn:Eo; [|constructor].
        constructor; [|constructor]. unfold p_edge. cbn [p_at p_text].
        rewrite text_flow_one; [exact Hle|]. apply one_line_noeol.
        unfold onoff_text in Eo. destruct (tt t); inversion Eo; reflexivity.
      * exact Hle.
      * exact Hle.
    + destruct (leaf_k k) eqn:El; [inversion Hls; subst; constructor|]. apply IH; auto.
  - intros. constructor.
  - intros k pv c b bs l ls o1 o Hs Hl IHl Hls IHls Hw Hn x Hx.
    simpl in Hw, Hn. apply andb_prop in Hw as [Hw1 Hw2]. apply andb_prop in Hn as [Hn1 Hn2].
    inversion Hx; subst. cbn [flat_map]. apply Forall_app. split; [|auto].
    eapply Forall_impl; [|apply (IHl k Hw1 Hn1)]. simpl. intros. lia.
Qed.
(** an accepted layout puts no text past the configured width *)
Theorem C36_valid_fits e root l :
  ready e root -> layout_tree e root = Ok l -> lvalid l = true ->
  Forall (fun p => p_edge p <= f_linewidth (cfg e)) (pieces (cfg e) KBody l).
Proof.
  intros R H Hv. destruct (layout_lok e root l R H) as (o & Hl & Hp & _). destruct R as (Hc & Ht & Hw & Hn).
  pose proof (proj1 (lok_edges e Hc) _ _ _ Hl KBody) as A. rewrite lock_wfb, lock_names in A.
  specialize (A Hw Hn). assert (lext l <= f_linewidth (cfg e)) as Hle.
  { inversion Hl; subst. cbn [lvalid lext] in *. match goal with H : v = true -> _ |- _ => destruct (H Hv) end. assumption. }
  eapply Forall_impl; [|exact A]. simpl. intros. lia.
Qed.
