(** * OneLine: a statement that fits into the line is laid out on one line *)
From Coq Require Import Permutation.
From Verif Require Import Base Regex Lex TextOps TextProofs Tree Parse Layout LayoutProofs Pieces Writing
  PropLayout NamesShape PropIndent.

(** ** The text of a statement on one line *)
(** blanks between two texts: none behind an opening and before a closing
    parenthesis, [nb] between the name and its parenthesis, else one *)
Definition joins (nb : Z) (pv : option pk) (k : pk) : Z :=
  match pv with
  | None => 0
  | Some (PkParen true) => 0
  | Some (PkWord true) => match k with PkParen true => nb | PkParen false => 0 | _ => 1 end
  | Some _ => match k with PkParen false => 0 | _ => 1 end
  end.
Fixpoint itext (nb : Z) (pv : option pk) (l : list item) : str :=
  match l with
  | nil => nil
  | IText k s :: r => spaces (joins nb pv k) ++ s ++ itext nb (Some k) r
  | IComment _ _ :: r => itext nb pv r
  end.
Fixpoint lastk (pv : option pk) (l : list item) : option pk :=
  match l with nil => pv | IText k _ :: r => lastk (Some k) r | IComment _ _ :: r => lastk pv r end.
Fixpoint place (nb : Z) (cur : cursor) (pv : option pk) (l : list item) : list piece :=
  match l with
  | nil => nil
  | IText k s :: r => let c' := shift cur (joins nb pv k) in Pc c' s k :: place nb (shift c' (zlen s)) (Some k) r
  | IComment _ _ :: r => place nb cur pv r
  end.

(** ** Statements to which this applies *)
Definition is_nil {A} (l : list A) : bool := match l with nil => true | _ => false end.
Definition opener (k : kind) : bool :=
  match k with KArgument | KKeyword | KFlag | KParenGroup => true | _ => false end.
Definition subgroup (k : kind) : bool :=
  match k with KKwargGroup | KPargGroup _ _ _ | KParenGroup => true | _ => false end.
Definition most_pargs (c : fcfg) (spec : option pspec) : Z :=
  match spec with
  | Some sp => match ps_max_pargs sp with Some z => z | None => f_max_pargs c end
  | None => f_max_pargs c
  end.
Definition most_subgroups (c : fcfg) (spec : option cspec) : Z :=
  match spec with
  | Some sp => match cs_max_subgroups sp with Some z => z | None => f_max_subgroups c end
  | None => f_max_subgroups c
  end.
(** no comments or format switches inside, every argument on one line, no empty
    group, and not more arguments or subgroups in a group than the limits of the
    configuration *)
Fixpoint flatb (c : fcfg) (b : box) : bool :=
  match b with
  | B k p cs =>
      match k with
      | KFunname | KArgument | KKeyword | KFlag => is_nil cs && one_line (first_spelling p)
      | KLParen | KRParen => is_nil cs
      | KPargGroup _ tags spec =>
          negb (is_nil cs) && forallb (fun x => flatb c x && opener (bkind x)) cs
          && (if smem $"cmdline" tags then 1 <=? f_max_rows_cmdline c else zlen cs <=? most_pargs c spec)
      | KArgGroup spec =>
          forallb (fun x => flatb c x && subgroup (bkind x)) cs && (zlen cs <=? most_subgroups c spec)
      | KKwargGroup =>
          match cs with
          | [kw] => is_keyword_k (bkind kw) && flatb c kw
          | [kw; g] => is_keyword_k (bkind kw) && flatb c kw && flatb c g
                       && (is_arggroup_k (bkind g) || is_parg_k (bkind g)) && negb (is_nil (bcs g))
          | _ => false
          end
      | KParenGroup =>
          match cs with
          | [lp; ag; rp] => is_lparen_k (bkind lp) && flatb c lp && is_arggroup_k (bkind ag) && flatb c ag
                            && is_rparen_k (bkind rp) && flatb c rp
          | _ => false
          end
      | KStatement _ =>
          match cs with
          | [fn; lp; ag; rp] => is_funname_k (bkind fn) && flatb c fn && is_lparen_k (bkind lp) && flatb c lp
                            && is_arggroup_k (bkind ag) && flatb c ag && is_rparen_k (bkind rp) && flatb c rp
          | _ => false
          end
      | _ => false
      end
  end.

(** ** Texts and places *)
Lemma shift_shift cur a b : shift (shift cur a) b = shift cur (a + b).
Proof. unfold shift. cbn. f_equal. lia. Qed.
Lemma shift_0 cur : shift cur 0 = cur.
Proof. unfold shift. destruct cur. cbn. f_equal. lia. Qed.
Lemma lastk_app a b : forall pv, lastk pv (a ++ b) = lastk (lastk pv a) b.
Proof. induction a as [|[k s|x p] a IH]; intros pv; cbn [app lastk]; auto. Qed.
Lemma itext_app nb a b : forall pv, itext nb pv (a ++ b) = itext nb pv a ++ itext nb (lastk pv a) b.
Proof. induction a as [|[k s|x p] a IH]; intros pv; cbn [app lastk itext]; auto. rewrite IH. now rewrite <- !app_assoc. Qed.
Lemma spaces_zlen n : 0 <= n -> zlen (spaces n) = n.
Proof. intros H. unfold spaces, zlen. rewrite repeat_length. lia. Qed.
Lemma joins_pos nb pv k : 0 <= nb -> 0 <= joins nb pv k.
Proof. intros H. unfold joins. destruct pv as [[[]|[]| | |]|], k as [[]|[]| | |]; lia. Qed.
Lemma place_app nb a b : 0 <= nb -> forall cur pv,
  place nb cur pv (a ++ b) = place nb cur pv a ++ place nb (shift cur (zlen (itext nb pv a))) (lastk pv a) b.
Proof.
  intros Hnb. induction a as [|[k s|x p] a IH]; intros cur pv; cbn [app lastk itext place]; auto.
  - change (zlen []) with 0. now rewrite shift_0.
  - rewrite IH. do 3 f_equal. rewrite !zlen_app, spaces_zlen by now apply joins_pos. rewrite !shift_shift. try (f_equal; lia).
Qed.
(** items that begin and end like a word *)
Definition begins (k : pk) : Prop := k = PkWord false \/ k = PkParen true.
Definition closes (k : pk) : Prop := k = PkWord false \/ k = PkParen false.
Definition solid (l : list item) : Prop :=
  exists k s r k', l = IText k s :: r /\ begins k /\ lastk None l = Some k' /\ closes k'.
Lemma solid_lastk l pv : solid l -> lastk pv l = lastk None l.
Proof. intros (k & s & r & k' & -> & _). reflexivity. Qed.
Lemma solid_closes l : solid l -> exists k, lastk None l = Some k /\ closes k.
Proof. intros (k & s & r & k' & _ & _ & H). eauto. Qed.
Lemma solid_app a b : solid a -> solid b -> solid (a ++ b).
Proof.
  intros (k & s & r & k' & -> & B & L & C) Hb. destruct (solid_closes _ Hb) as (k2 & L2 & C2).
  exists k, s, (r ++ b), k2. split; [reflexivity|]. split; [exact B|]. split; [|exact C2].
  rewrite lastk_app, (solid_lastk b) by exact Hb. exact L2.
Qed.
Lemma joins_one nb k k' : closes k -> begins k' -> joins nb (Some k) k' = 1.
Proof. intros [-> | ->] [-> | ->]; reflexivity. Qed.
Lemma solid_after nb k l : 0 <= nb -> closes k -> solid l ->
  zlen (itext nb (Some k) l) = 1 + zlen (itext nb None l)
  /\ itext nb (Some k) l = spaces 1 ++ itext nb None l
  /\ forall cur, place nb cur (Some k) l = place nb (shift cur 1) None l.
Proof.
  intros Hnb Hc (k1 & s & r & k' & -> & B & _). cbn [itext place]. rewrite joins_one by assumption. change (joins nb None k1) with 0.
  split; [|split; [reflexivity|intros cur; now rewrite shift_0]].
  rewrite zlen_app. rewrite spaces_zlen by lia. reflexivity.
Qed.
Lemma solid_all (f : box -> list item) cs : cs <> nil -> Forall (fun x => solid (f x)) cs -> solid (flat_map f cs).
Proof.
  intros Hne H. induction H as [|x cs Hx Hcs IH]; [now elim Hne|]. cbn [flat_map]. destruct cs as [|y cs]; [cbn; now rewrite app_nil_r|].
  apply solid_app; [exact Hx|]. apply IH. discriminate.
Qed.

Lemma after_open nb l : itext nb (Some (PkParen true)) l = itext nb None l
  /\ forall cur, place nb cur (Some (PkParen true)) l = place nb cur None l.
Proof. induction l as [|[k s|x p] l [IH1 IH2]]; [split; reflexivity| |]; cbn [itext place]; [split; reflexivity|]. split; auto. Qed.
Lemma joins_close nb pv : joins nb pv (PkParen false) = 0.
Proof. destruct pv as [[[]|[]| | |]|]; reflexivity. Qed.

Section OneLine.
  Variable e : env.
  Local Notation c := (cfg e).
  Local Notation lw := (f_linewidth (cfg e)).
  Variable nb : Z.
  Hypothesis Hnb : 0 <= nb.
  Hypothesis Hpass : f_passes c = nil.
  Hypothesis Hwrap : f_always_wrap c = nil.
  Hypothesis Hlines : 0 <= f_max_lines c.

  Lemma opener_facts b : opener (bkind b) = true \/ subgroup (bkind b) = true -> is_comment_k (bkind b) = false.
  Proof. destruct b as [[] p cs]; cbn; intuition discriminate. Qed.
  Lemma flat_solid b : forall parent, flatb c b = true -> named c parent b = true ->
    (opener (bkind b) = true \/ subgroup (bkind b) = true \/ (is_arggroup_k (bkind b) = true /\ bcs b <> nil)) ->
    solid (items c parent b).
  Proof.
    induction b as [k p cs IH] using box_ind'. intros parent Hf Hn Hk. cbn [bkind bcs] in Hk.
    assert (Hscal : is_scalar_k k = true -> k <> KFunname -> k <> KAtWord -> solid (items c parent (B k p cs))).
    { intros Hs Hnf Hna. cbn [named] in Hn. rewrite Hs in Hn. apply andb_prop in Hn as [Hn _]. unfold text_ok in Hn. apply andb_prop in Hn as [Hn _].
      assert (Hcs : cs = nil) by (destruct k; try discriminate; try congruence; cbn [flatb] in Hf; apply andb_prop in Hf as [Hf _]; now destruct cs).
      destruct p as [|[t|] p]; try discriminate. destruct (scalar_piece c parent k p t Hs Hn) as (s & E & _).
      cbn [items]. rewrite Hcs. cbn [flat_map]. rewrite app_nil_r.
      replace (own_items c parent k (T t :: p)) with [IText (PkWord false) s].
      - exists (PkWord false), s, nil, (PkWord false). split; [reflexivity|]. split; [now left|]. split; [reflexivity|now left].
      - destruct k; try discriminate; try congruence; cbn [own_items]; rewrite E; reflexivity. }
    assert (Hns : is_scalar_k k = false -> Forall (fun x => named c k x = true) cs).
    { intros Hs. cbn [named] in Hn. apply andb_prop in Hn as [_ Hn]. now rewrite forallb_forall, <- Forall_forall in Hn. }
    destruct k; cbn [opener subgroup is_arggroup_k] in Hk; try (now (exfalso; intuition discriminate));
      try (apply Hscal; [reflexivity|discriminate|discriminate]).
    - (* KArgGroup *)
      destruct Hk as [Hk|[Hk|[_ Hne]]]; try discriminate. cbn [flatb] in Hf. apply andb_prop in Hf as [Hf _].
      cbn [items own_items app]. apply solid_all; [exact Hne|]. specialize (Hns eq_refl). rewrite forallb_forall in Hf.
      rewrite Forall_forall in *. intros x Hin. specialize (Hf x Hin). apply andb_prop in Hf as [F1 F2]. apply IH; auto.
    - (* KKwargGroup *)
      cbn [flatb] in Hf. specialize (Hns eq_refl). cbn [items own_items app].
      destruct cs as [|kw [|g [|]]]; try discriminate.
      + apply andb_prop in Hf as [F1 F2]. inversion IH as [|? ? I1 _]; subst. inversion Hns as [|? ? N1 _]; subst.
        cbn [flat_map]. rewrite app_nil_r. apply I1; auto. left. destruct (bkind kw); try discriminate; reflexivity.
      + rewrite !andb_true_iff in Hf. destruct Hf as [[[[F1 F2] F3] F4] F5].
        inversion IH as [|? ? I1 I2]; subst. inversion I2 as [|? ? I3 _]; subst. inversion Hns as [|? ? N1 N2]; subst. inversion N2 as [|? ? N3 _]; subst.
        cbn [flat_map]. rewrite app_nil_r. apply solid_app.
        * apply I1; auto. left. destruct (bkind kw); try discriminate; reflexivity.
        * apply I3; auto. destruct (bkind g) eqn:Eg; try discriminate; right.
          -- right. split; [reflexivity|]. destruct (bcs g); [discriminate F5|discriminate].
          -- left. reflexivity.
    - (* KPargGroup *)
      cbn [flatb] in Hf. rewrite !andb_true_iff in Hf. destruct Hf as [[F1 F2] _].
      cbn [items own_items app]. apply solid_all; [destruct cs; discriminate|]. specialize (Hns eq_refl). rewrite forallb_forall in F2.
      rewrite Forall_forall in *. intros x Hin. specialize (F2 x Hin). apply andb_prop in F2 as [F3 F4]. apply IH; auto.
    - (* KParenGroup *)
      cbn [flatb] in Hf. cbn [items own_items app].
      destruct cs as [|lp [|ag [|rp [|]]]]; try discriminate. rewrite !andb_true_iff in Hf. destruct Hf as [[[[[F1 F2] F3] F4] F5] F6].
      destruct lp as [k1 p1 c1], rp as [k3 p3 c3]. cbn [bkind] in *. destruct k1; try discriminate. destruct k3; try discriminate.
      cbn [flatb] in F2, F6. destruct c1; [|discriminate]. destruct c3; [|discriminate].
      cbn [flat_map items own_items app].
      exists (PkParen true), $"(", (items c KParenGroup ag ++ [IText (PkParen false) $")"]), (PkParen false).
      split; [reflexivity|]. split; [now right|]. split; [|now right]. cbn [lastk]. now rewrite lastk_app.
  Qed.
  Lemma flat_ends b : flatb c b = true -> ends_line b = false.
  Proof.
    unfold ends_line. induction b as [k p cs IH] using box_ind'. intros Hf.
    assert (Hc : is_line_comment (B k p cs) = false) by (destruct k; try reflexivity; discriminate). rewrite Hc. cbn [orb].
    assert (Hl : Forall (fun x => flatb c x = true) cs -> (fix go l := match l with
                                  | nil => false
                                  | [c] => is_comment_k (bkind c) || has_terminal c
                                  | _ :: l' => go l'
                                  end) cs = false).
    { intros HF. clear Hc Hf. induction IH as [|x cs Hx _ IHl]; [reflexivity|]. inversion HF; subst.
      destruct cs as [|y cs]; [|now apply IHl].
      assert (is_comment_k (bkind x) = false) as -> by (destruct x as [[] ? ?]; try reflexivity; discriminate).
      match goal with Hfx : flatb c x = true |- _ => specialize (Hx Hfx) end. apply orb_false_elim in Hx as [_ Hx]. exact Hx. }
    destruct k; try discriminate; try reflexivity; cbn [flatb] in Hf; cbn [has_terminal].
    - apply andb_prop in Hf as [Hf _]. destruct cs; [reflexivity|discriminate].
    - apply Hl. apply andb_prop in Hf as [Hf _]. rewrite forallb_forall in Hf. apply Forall_forall. intros x Hin.
      specialize (Hf x Hin). now apply andb_prop in Hf.
    - apply Hl. destruct cs as [|kw [|g [|]]]; try discriminate; rewrite !andb_true_iff in Hf; repeat constructor; tauto.
    - apply Hl. rewrite !andb_true_iff in Hf. destruct Hf as [[_ Hf] _]. rewrite forallb_forall in Hf. apply Forall_forall. intros x Hin.
      specialize (Hf x Hin). now apply andb_prop in Hf.
    - destruct cs as [|lp [|ag [|rp [|]]]]; try discriminate. rewrite !andb_true_iff in Hf. destruct Hf as [[[[[F1 F2] F3] F4] F5] F6].
      cbn [after_rparen]. destruct (bkind lp); try discriminate. destruct (bkind ag); try discriminate. cbn [is_rparen_k]. now rewrite F5.
    - apply andb_prop in Hf as [Hf _]. destruct cs; [reflexivity|discriminate].
    - apply andb_prop in Hf as [Hf _]. destruct cs; [reflexivity|discriminate].
    - apply andb_prop in Hf as [Hf _]. destruct cs; [reflexivity|discriminate].
  Qed.

  (** ** A box of width [W] *)
  Definition W (parent : kind) (b : box) : Z := zlen (itext nb None (items c parent b)).
  Definition flatc (parent : kind) (ch : chd) : Prop :=
    forall path (term : bool) cur pass, 0 <= pass -> colm cur + W parent (fst ch) + (if term then 1 else 0) <= lw ->
    exists l, snd ch path term cur pass = Ok (l, shift cur (W parent (fst ch))) /\ lvalid l = true /\ lext l <= lw
      /\ pieces c parent l = place nb cur None (items c parent (fst ch)).
  Lemma W_pos parent b : 0 <= W parent b. Proof. unfold W, zlen. lia. Qed.

  Lemma one_pass k p cs sib path term cur pass a : 0 <= pass ->
    reflow_once e (B k p cs) (children_of e cs 0) (push_path path (B k p cs) sib) term cur 0 false = Ok a ->
    a_valid a = true -> a_wrap a = false -> a_ext a <= lw -> row (a_out a) = row cur ->
    reflow e (B k p cs) sib path term cur pass = Ok (Lay k p cur 0 false true (a_ext a) (a_lines a) (a_cs a), a_out a).
  Proof.
    intros Hp H Hv Hw Hx Hr. rewrite reflow_eq. unfold node_passes. rewrite Hpass. cbn [passes_lookup].
    assert (Hlim : (0 >? pass_limit k pass) = false) by (destruct k; cbn; try reflexivity; lia).
    assert (Hval : validate c (B k p cs) (push_path path (B k p cs) sib) false cur (row (a_out a)) (a_ext a) = true).
    { unfold validate. replace (a_ext a >? lw) with false by (symmetry; lia). rewrite Hr, Z.sub_diag.
      cbn [bkind]. rewrite Hwrap. cbn [smem]. replace (0 >? f_max_lines c) with false by (symmetry; lia).
      destruct k; reflexivity. }
    assert (Ht : try_pass e (B k p cs) (children_of e cs 0) (push_path path (B k p cs) sib) term cur 0 false
       = Ok (Lay k p cur 0 false true (a_ext a) (a_lines a) (a_cs a), a_out a)).
    { unfold try_pass. rewrite H. cbn [bindr]. rewrite Hw, Hv, Hval. reflexivity. }
    assert (Hd : exists r, default_passes k = (0, false) :: r) by (destruct k; eexists; reflexivity). destruct Hd as (r & Hd). rewrite Hd.
    cbn [try_passes]. rewrite Hlim, Ht. reflexivity.
  Qed.

  Definition kid (parent : kind) (ch : chd) : Prop :=
    flatc parent ch /\ solid (items c parent (fst ch)) /\ ends_line (fst ch) = false /\ is_comment_k (bkind (fst ch)) = false.
  Definition its (parent : kind) (cs : list chd) : list item := flat_map (items c parent) (map fst cs).
  (** the children behind a first one *)
  Lemma parg_flat parent path pass (term : bool) : 0 <= pass -> forall cs prev kp colc cur v x rows,
    Forall (kid parent) cs -> closes kp -> ends_line prev = false ->
    colm cur + zlen (itext nb (Some kp) (its parent cs)) + (if term then 1 else 0) <= lw -> x <= lw ->
    exists ls x', parg_children lw path pass term false cs (Some prev) colc cur v x rows
        = Ok (ls, shift cur (zlen (itext nb (Some kp) (its parent cs))), v, x', rows)
      /\ x' <= lw /\ flat_map (pieces c parent) ls = place nb cur (Some kp) (its parent cs).
  Proof.
    intros Hp. induction cs as [|ch cs IH]; intros prev kp colc cur v x rows Hk Hkp He Hfit Hx.
    - exists nil, x. unfold its. cbn [map flat_map itext place parg_children]. change (zlen (@nil chr)) with 0. rewrite shift_0. auto.
    - inversion Hk as [|? ? (K1 & K2 & K3 & K4) Hk']; subst.
      change (its parent (ch :: cs)) with (items c parent (fst ch) ++ its parent cs) in *.
      destruct (solid_closes _ K2) as (k2 & L2 & C2). destruct (solid_after nb kp _ Hnb Hkp K2) as (S1 & S2 & S3).
      rewrite itext_app, (solid_lastk _ _ K2), L2, zlen_app, S1 in Hfit |- *. fold (W parent (fst ch)) in *.
      rewrite place_app by exact Hnb. rewrite (solid_lastk _ _ K2), L2, S1, S3. fold (W parent (fst ch)) in *.
      set (R := zlen (itext nb (Some k2) (its parent cs))) in *.
      assert (HR : 0 <= R) by (unfold R, zlen; lia). pose proof (W_pos parent (fst ch)) as HW.
      cbn [parg_children]. rewrite He. cbn [orb].
      destruct (K1 path (term && match cs with nil => true | _ => false end) (shift cur 1) pass Hp) as (l & E & V & X & P).
      { unfold shift; cbn [colm]. destruct term; cbn [andb]; [destruct cs|]; lia. }
      rewrite E. cbn [bindr]. unfold Layout.ckind. rewrite K4, (andb_false_r (is_scalar_k (bkind prev))). cbn [negb andb].
      replace (lext l >? lw) with false by (symmetry; lia).
      assert (Ht : term && (colm (shift (shift cur 1) (W parent (fst ch))) + 1 >? lw) = false).
      { destruct term; [|reflexivity]. unfold shift; cbn [colm andb]. lia. }
      rewrite Ht. cbn [orb andb bindr]. rewrite V, andb_true_r.
      destruct (IH (fst ch) k2 colc (shift (shift cur 1) (W parent (fst ch))) v (Z.max x (lext l)) rows Hk' C2 K3) as (ls & x' & E' & X' & P').
      { unfold shift; cbn [colm]. fold R. lia. }
      { lia. }
      rewrite E'. cbn [bindr]. exists (l :: ls), x'. split.
      { do 5 f_equal. rewrite !shift_shift. f_equal. fold R. lia. }
      split; [exact X'|]. cbn [flat_map]. rewrite P, P'. f_equal. rewrite shift_shift. reflexivity.
  Qed.
  Lemma arg_flat parent path pass (term : bool) : 0 <= pass -> forall cs prev kp colc cur v x,
    Forall (kid parent) cs -> closes kp -> ends_line prev = false ->
    colm cur + zlen (itext nb (Some kp) (its parent cs)) + (if term then 1 else 0) <= lw -> x <= lw ->
    exists ls x', arg_children lw path pass term false cs (Some prev) colc cur v x
        = Ok (ls, shift cur (zlen (itext nb (Some kp) (its parent cs))), v, x')
      /\ x' <= lw /\ flat_map (pieces c parent) ls = place nb cur (Some kp) (its parent cs).
  Proof.
    intros Hp. induction cs as [|ch cs IH]; intros prev kp colc cur v x Hk Hkp He Hfit Hx.
    - exists nil, x. unfold its. cbn [map flat_map itext place arg_children]. change (zlen (@nil chr)) with 0. rewrite shift_0. auto.
    - inversion Hk as [|? ? (K1 & K2 & K3 & K4) Hk']; subst.
      change (its parent (ch :: cs)) with (items c parent (fst ch) ++ its parent cs) in *.
      destruct (solid_closes _ K2) as (k2 & L2 & C2). destruct (solid_after nb kp _ Hnb Hkp K2) as (S1 & S2 & S3).
      rewrite itext_app, (solid_lastk _ _ K2), L2, zlen_app, S1 in Hfit |- *. fold (W parent (fst ch)) in *.
      rewrite place_app by exact Hnb. rewrite (solid_lastk _ _ K2), L2, S1, S3. fold (W parent (fst ch)) in *.
      set (R := zlen (itext nb (Some k2) (its parent cs))) in *.
      assert (HR : 0 <= R) by (unfold R, zlen; lia). pose proof (W_pos parent (fst ch)) as HW.
      cbn [arg_children]. rewrite He. cbn [orb].
      set (t1 := term && match cs with nil => true | _ => false end).
      assert (Ht1 : (if t1 then 1 else 0) <= (if term then 1 else 0)) by (unfold t1; destruct term, cs; cbn; lia).
      destruct (K1 path t1 (shift cur 1) pass Hp) as (l & E & V & X & P).
      { unfold shift; cbn [colm]. lia. }
      rewrite E. cbn [bindr negb andb].
      replace (lext l >? lw) with false by (symmetry; lia).
      assert (Ht : t1 && (colm (shift (shift cur 1) (W parent (fst ch))) + 1 >? lw) = false).
      { destruct t1; [|reflexivity]. unfold shift; cbn [colm andb]. lia. }
      rewrite Ht. unfold shift at 1 2 3. cbn [row]. rewrite Z.sub_diag. cbn [orb Z.gtb Z.compare bindr]. rewrite V, andb_true_r.
      destruct (IH (fst ch) k2 (Cur (row (shift (shift cur 1) (W parent (fst ch)))) (colm colc)) (shift (shift cur 1) (W parent (fst ch))) v (Z.max x (lext l)) Hk' C2 K3) as (ls & x' & E' & X' & P').
      { unfold shift; cbn [colm]. fold R. lia. }
      { lia. }
      cbn [row] in E'. rewrite E'. cbn [bindr]. exists (l :: ls), x'. split.
      { do 4 f_equal. rewrite !shift_shift. f_equal. fold R. lia. }
      split; [exact X'|]. cbn [flat_map]. rewrite P, P'. f_equal. rewrite shift_shift. reflexivity.
  Qed.

  Lemma parg_first parent path pass (term : bool) ch cs cur : 0 <= pass -> Forall (kid parent) (ch :: cs) ->
    colm cur + zlen (itext nb None (its parent (ch :: cs))) + (if term then 1 else 0) <= lw ->
    exists ls x', parg_children lw path pass term false (ch :: cs) None cur cur true (colm cur) 0
        = Ok (ls, shift cur (zlen (itext nb None (its parent (ch :: cs)))), true, x', 1)
      /\ x' <= lw /\ flat_map (pieces c parent) ls = place nb cur None (its parent (ch :: cs)).
  Proof.
    intros Hp Hk Hfit. inversion Hk as [|? ? (K1 & K2 & K3 & K4) Hk']; subst.
    change (its parent (ch :: cs)) with (items c parent (fst ch) ++ its parent cs) in *.
    destruct (solid_closes _ K2) as (k2 & L2 & C2).
    rewrite itext_app, L2, zlen_app in Hfit |- *. rewrite place_app, L2 by exact Hnb. fold (W parent (fst ch)) in *.
    set (R := zlen (itext nb (Some k2) (its parent cs))) in *.
    assert (HR : 0 <= R) by (unfold R, zlen; lia). pose proof (W_pos parent (fst ch)) as HW.
    cbn [parg_children]. set (t1 := term && match cs with nil => true | _ => false end).
    assert (Ht1 : (if t1 then 1 else 0) <= (if term then 1 else 0)) by (unfold t1; destruct term, cs; cbn; lia).
    destruct (K1 path t1 cur pass Hp) as (l & E & V & X & P); [lia|].
    rewrite E. cbn [bindr negb andb]. rewrite V. cbn [andb].
    destruct (parg_flat parent path pass term Hp cs (fst ch) k2 cur (shift cur (W parent (fst ch))) true (Z.max (colm cur) (lext l)) 1 Hk' C2 K3) as (ls & x' & E' & X' & P').
    { unfold shift; cbn [colm]. fold R. lia. }
    { destruct term; lia. }
    rewrite E'. cbn [bindr]. exists (l :: ls), x'. split; [do 5 f_equal; rewrite !shift_shift; f_equal; fold R; lia|].
    split; [exact X'|]. cbn [flat_map]. now rewrite P, P'.
  Qed.
  Lemma arg_first parent path pass (term : bool) cs cur : 0 <= pass -> Forall (kid parent) cs ->
    colm cur + zlen (itext nb None (its parent cs)) + (if term then 1 else 0) <= lw ->
    exists ls x', arg_children lw path pass term false cs None cur cur true (colm cur)
        = Ok (ls, shift cur (zlen (itext nb None (its parent cs))), true, x')
      /\ x' <= lw /\ flat_map (pieces c parent) ls = place nb cur None (its parent cs).
  Proof.
    intros Hp Hk Hfit. destruct cs as [|ch cs].
    { exists nil, (colm cur). unfold its in *. cbn [map flat_map itext place arg_children] in *. change (zlen (@nil chr)) with 0 in *. rewrite shift_0.
      split; [reflexivity|]. split; [destruct term; lia|reflexivity]. }
    inversion Hk as [|? ? (K1 & K2 & K3 & K4) Hk']; subst.
    change (its parent (ch :: cs)) with (items c parent (fst ch) ++ its parent cs) in *.
    destruct (solid_closes _ K2) as (k2 & L2 & C2).
    rewrite itext_app, L2, zlen_app in Hfit |- *. rewrite place_app, L2 by exact Hnb. fold (W parent (fst ch)) in *.
    set (R := zlen (itext nb (Some k2) (its parent cs))) in *.
    assert (HR : 0 <= R) by (unfold R, zlen; lia). pose proof (W_pos parent (fst ch)) as HW.
    cbn [arg_children]. set (t1 := term && match cs with nil => true | _ => false end).
    assert (Ht1 : (if t1 then 1 else 0) <= (if term then 1 else 0)) by (unfold t1; destruct term, cs; cbn; lia).
    destruct (K1 path t1 cur pass Hp) as (l & E & V & X & P); [lia|].
    rewrite E. cbn [bindr negb andb]. rewrite V. cbn [andb].
    destruct (arg_flat parent path pass term Hp cs (fst ch) k2 (Cur (row (shift cur (W parent (fst ch)))) (colm cur)) (shift cur (W parent (fst ch))) true (Z.max (colm cur) (lext l)) Hk' C2 K3) as (ls & x' & E' & X' & P').
    { unfold shift; cbn [colm]. fold R. lia. }
    { destruct term; lia. }
    rewrite E'. cbn [bindr]. exists (l :: ls), x'. split; [do 4 f_equal; rewrite !shift_shift; f_equal; fold R; lia|].
    split; [exact X'|]. cbn [flat_map]. now rewrite P, P'.
  Qed.
  Lemma its_children parent cs n : its parent (children_of e cs n) = flat_map (items c parent) cs.
  Proof. unfold its. now rewrite children_of_fst. Qed.
  Lemma count_args cs : Forall (fun ch => is_comment_k (bkind (fst ch)) = false) cs -> count_arguments cs = zlen cs.
  Proof.
    unfold count_arguments. induction 1 as [|ch cs H _ IH]; [reflexivity|]. cbn [filter]. unfold Layout.ckind. rewrite H. cbn [negb].
    rewrite !zlen_cons. f_equal. exact IH.
  Qed.
  Lemma count_subs cs : Forall (fun ch => subgroup (bkind (fst ch)) = true) cs -> count_subgroups cs = Ok (zlen cs).
  Proof.
    induction 1 as [|ch cs H _ IH]; [reflexivity|]. cbn [count_subgroups]. rewrite IH. cbn [bindr]. unfold Layout.ckind.
    rewrite zlen_cons. destruct (bkind (fst ch)); try discriminate; f_equal; lia.
  Qed.
  Lemma children_len cs : forall n, zlen (children_of e cs n) = zlen cs.
  Proof. intros n. rewrite <- (children_of_fst e cs n) at 2. unfold zlen. now rewrite map_length. Qed.

  Definition flatk (k : kind) : bool :=
    match k with
    | KFunname | KArgument | KKeyword | KFlag | KLParen | KRParen | KPargGroup _ _ _ | KArgGroup _ | KKwargGroup | KParenGroup => true
    | _ => false
    end.
  Theorem reflow_flat b : forall parent sib, flatb c b = true -> named c parent b = true -> flatk (bkind b) = true ->
    flatc parent (b, reflow e b sib).
  Proof.
    induction b as [k p cs IH] using box_ind'. intros parent sib Hf Hn Hk path term cur pass Hp Hfit. cbn [fst snd bkind] in *.
    set (b := B k p cs) in *.
    assert (Hns : is_scalar_k k = false -> Forall (fun x => named c k x = true) cs).
    { intros Hs. unfold b in Hn. cbn [named] in Hn. apply andb_prop in Hn as [_ Hn]. now rewrite forallb_forall, <- Forall_forall in Hn. }
    assert (Hkids : (forall x, In x cs -> flatb c x = true /\ (opener (bkind x) = true \/ subgroup (bkind x) = true)) ->
              is_scalar_k k = false -> forall n, Forall (kid k) (children_of e cs n)).
    { intros Hc Hs. specialize (Hns Hs). rewrite Forall_forall in IH, Hns.
      assert (G : forall l n, (forall x, In x l -> In x cs) -> Forall (kid k) (children_of e l n)).
      { induction l as [|x l IHl]; intros n Hl; cbn [children_of]; constructor; [|apply IHl; intros y Hy; apply Hl; now right].
        assert (Hx : In x cs) by (apply Hl; now left). destruct (Hc x Hx) as [C1 C2]. cbn [fst].
        split; [apply IH; auto; destruct C2 as [C2|C2]; destruct (bkind x); try discriminate; reflexivity|]. cbn [fst].
        split; [apply flat_solid; auto; tauto|]. split; [now apply flat_ends|]. now apply opener_facts. }
      intros n. apply G. auto. }
    assert (Hdone : forall a, reflow_once e b (children_of e cs 0) (push_path path b sib) term cur 0 false = Ok a ->
      a_valid a = true -> a_wrap a = false -> a_ext a <= lw -> a_out a = shift cur (W parent b) ->
      own_pieces c parent k p cur (a_lines a) ++ flat_map (pieces c k) (a_cs a) = place nb cur None (items c parent b) ->
      exists l, reflow e b sib path term cur pass = Ok (l, shift cur (W parent b)) /\ lvalid l = true /\ lext l <= lw
        /\ pieces c parent l = place nb cur None (items c parent b)).
    { intros a E V Wr X O P. eexists. split; [unfold b; rewrite (one_pass k p cs sib path term cur pass a Hp E V Wr X); [now rewrite O|now rewrite O]|].
      split; [reflexivity|]. split; [exact X|]. cbn [pieces]. exact P. }
    assert (Hscal : is_scalar_k k = true -> cs = nil -> one_line (first_spelling p) = true ->
      exists l, reflow e b sib path term cur pass = Ok (l, shift cur (W parent b)) /\ lvalid l = true /\ lext l <= lw
        /\ pieces c parent l = place nb cur None (items c parent b)).
    { intros Hs Hcs H1. unfold b in Hn. cbn [named] in Hn. rewrite Hs in Hn. apply andb_prop in Hn as [Hn _]. unfold text_ok in Hn. apply andb_prop in Hn as [Hn _].
      destruct p as [|[t|] p]; try discriminate. destruct (scalar_piece c parent k p t Hs Hn) as (s & E & Ef). cbn [first_spelling] in H1.
      assert (Hit : items c parent b = [IText (PkWord (is_funname_k k)) s]).
      { unfold b. rewrite Hcs. cbn [items flat_map]. rewrite app_nil_r. destruct k; try discriminate; cbn [own_items]; rewrite E; reflexivity. }
      assert (Hlen : fst (text_flow cur s) = shift cur (zlen s) /\ zlen s = zlen (spelling t)).
      { pose proof (Ef cur) as Ef0. rewrite flow_text_one in Ef0 by exact H1.
        cbn [text_fits] in Hn. rewrite E in Hn. apply orb_prop in Hn as [Hn|Hn].
        - apply seqb_eq in Hn. rewrite normalize_one_line in Hn by exact H1. subst s. rewrite Ef0. auto.
        - rewrite !andb_true_iff in Hn. destruct Hn as [_ Hn]. apply Z.eqb_eq in Hn. rewrite Ef0. now rewrite Hn. }
      destruct Hlen as [Hl1 Hl2].
      assert (HWs : W parent b = zlen s).
      { unfold W. rewrite Hit. cbn [itext joins]. rewrite app_nil_r. reflexivity. }
      apply (Hdone (Att false true (colm cur + zlen (spelling t)) nil nil (shift cur (zlen (spelling t))))).
      - unfold reflow_once, b. rewrite Hcs. cbn [bkind bpcs children_of].
        replace (reflow_scalar (T t :: p) [] (push_path path (B k (T t :: p) []) sib) cur 0 false)
          with (Ok (Att false true (colm cur + zlen (spelling t)) nil nil (shift cur (zlen (spelling t))))).
        + destruct k; try discriminate; reflexivity.
        + cbn [reflow_scalar]. now rewrite flow_text_one.
      - reflexivity.
      - reflexivity.
      - cbn [a_ext]. destruct term; lia.
      - cbn [a_out]. now rewrite HWs, Hl2.
      - cbn [a_cs a_lines flat_map]. rewrite app_nil_r, Hit. cbn [place]. change (joins nb None (PkWord (is_funname_k k))) with 0. rewrite shift_0.
        destruct k; try discriminate; cbn [own_pieces]; rewrite E; reflexivity. }
    destruct k; try discriminate; unfold b in Hf; cbn [flatb] in Hf.
    - apply andb_prop in Hf as [F1 F2]. apply Hscal; [reflexivity|now destruct cs|exact F2].
    - (* KArgGroup *)
      apply andb_prop in Hf as [F1 F2]. rewrite forallb_forall in F1.
      assert (HK : Forall (kid (KArgGroup cmdspec)) (children_of e cs 0)).
      { apply Hkids; [|reflexivity]. intros x Hin. specialize (F1 x Hin). apply andb_prop in F1 as [? ?]. auto. }
      destruct (arg_first (KArgGroup cmdspec) (push_path path b sib) 0 term (children_of e cs 0) cur ltac:(lia) HK) as (ls & x & E & X & P).
      { rewrite its_children. exact Hfit. }
      rewrite its_children in E, P.
      eapply Hdone.
      + unfold reflow_once, b. cbn [bkind]. unfold reflow_arg. rewrite count_subs.
        2:{ rewrite Forall_forall. intros [y f] Hin. assert (Hy : In y cs) by (rewrite <- (children_of_fst e cs 0); apply in_map_iff; exists (y, f); auto).
            specialize (F1 y Hy). now apply andb_prop in F1. }
        cbn [bindr]. fold b. rewrite E. cbn [bindr]. reflexivity.
      + cbn [a_valid]. rewrite children_len. fold (most_subgroups c cmdspec). replace (zlen cs >? most_subgroups c cmdspec) with false by (symmetry; lia). reflexivity.
      + reflexivity.
      + exact X.
      + reflexivity.
      + cbn [own_pieces a_cs app]. exact P.
    - (* KKwargGroup *)
      specialize (Hns eq_refl). destruct cs as [|kw [|g [|]]]; try discriminate.
      + apply andb_prop in Hf as [F1 F2]. inversion IH as [|? ? I1 _]; subst. inversion Hns as [|? ? N1 _]; subst.
        destruct (I1 KKwargGroup 0%nat F2 N1 ltac:(destruct (bkind kw); try discriminate; reflexivity) (push_path path b sib) false cur 0 ltac:(lia)) as (l & E & V & X & P).
        { unfold W in *. unfold b in Hfit. cbn [items own_items flat_map app] in Hfit. rewrite app_nil_r in Hfit. cbn [fst]. destruct term; lia. }
        cbn [fst snd] in *.
        eapply Hdone.
        * unfold reflow_once, b. cbn [bkind children_of]. unfold reflow_kwarg. unfold Layout.ckind. cbn [fst snd]. rewrite F1. fold b. rewrite E.
          cbn [negb bindr]. change (zlen [(kw, reflow e kw 0)] >? 2) with false. reflexivity.
        * exact V.
        * cbn [a_wrap]. now destruct (_ <=? _).
        * exact X.
        * cbn [a_out]. unfold W, b. cbn [items own_items flat_map app]. now rewrite app_nil_r.
        * cbn [own_pieces a_cs app flat_map]. rewrite P. unfold b. cbn [items own_items flat_map app]. now rewrite !app_nil_r.
      + rewrite !andb_true_iff in Hf. destruct Hf as [[[[F1 F2] F3] F4] F5].
        inversion IH as [|? ? I1 I2]; subst. inversion I2 as [|? ? I3 _]; subst. inversion Hns as [|? ? N1 N2]; subst. inversion N2 as [|? ? N3 _]; subst.
        assert (S1 : solid (items c KKwargGroup kw)) by (apply flat_solid; auto; left; destruct (bkind kw); try discriminate; reflexivity).
        assert (S2 : solid (items c KKwargGroup g)).
        { apply flat_solid; auto. destruct (bkind g) eqn:Eg; try discriminate; right; [right|left; reflexivity].
          split; [reflexivity|]. destruct (bcs g); [discriminate F5|discriminate]. }
        destruct (solid_closes _ S1) as (k1 & L1 & C1). destruct (solid_after nb k1 _ Hnb C1 S2) as (A1 & A2 & A3).
        assert (Hib : items c parent b = items c KKwargGroup kw ++ items c KKwargGroup g).
        { unfold b. cbn [items own_items flat_map app]. now rewrite app_nil_r. }
        assert (HWb : W parent b = W KKwargGroup kw + 1 + W KKwargGroup g).
        { unfold W. rewrite Hib, itext_app, L1, zlen_app, A1. lia. }
        pose proof (W_pos KKwargGroup kw) as Q1. pose proof (W_pos KKwargGroup g) as Q2.
        destruct (I1 KKwargGroup 0%nat F2 N1 ltac:(destruct (bkind kw); try discriminate; reflexivity) (push_path path b sib) false cur 0 ltac:(lia)) as (l & E & V & X & P).
        { cbn [fst]. destruct term; lia. }
        destruct (I3 KKwargGroup (if is_parg_k (bkind kw) then 1%nat else 0%nat) F3 N3 ltac:(destruct (bkind g); try discriminate; reflexivity) (push_path path b sib) term (shift (shift cur (W KKwargGroup kw)) 1) 0 ltac:(lia)) as (l' & E' & V' & X' & P').
        { cbn [fst]. rewrite shift_shift. unfold shift. cbn [colm]. lia. }
        cbn [fst snd] in *.
        eapply Hdone.
        * unfold reflow_once, b. cbn [bkind children_of]. unfold reflow_kwarg. unfold Layout.ckind. cbn [fst snd]. rewrite F1. fold b. rewrite E.
          cbn [negb bindr]. 
          match goal with |- context[zlen (?x :: ?y :: nil)] => change (zlen [x; y] >? 2) with false end. cbv iota.
          replace (if zlen (first_spelling (bpcs kw)) <=? f_min_prefix c then false else false) with false by (now destruct (_ <=? _)).
          rewrite E'. cbn [bindr]. reflexivity.
        * cbn [a_valid]. now rewrite V, V'.
        * reflexivity.
        * cbn [a_ext]. lia.
        * cbn [a_out]. rewrite !shift_shift, HWb. f_equal. lia.
        * cbn [own_pieces a_cs app flat_map]. rewrite P, P', Hib, place_app, L1, A3 by exact Hnb. now rewrite app_nil_r.
    - (* KPargGroup *)
      rewrite !andb_true_iff in Hf. destruct Hf as [[F0 F1] F2]. rewrite forallb_forall in F1.
      assert (HK : Forall (kid (KPargGroup sortable tags spec)) (children_of e cs 0)).
      { apply Hkids; [|reflexivity]. intros x Hin. specialize (F1 x Hin). apply andb_prop in F1 as [? ?]. auto. }
      assert (Hch : exists ch chs, children_of e cs 0 = ch :: chs) by (destruct cs; [discriminate|cbn [children_of]; eauto]).
      destruct Hch as (ch & chs & Hch).
      destruct (parg_first (KPargGroup sortable tags spec) (push_path path b sib) 0 term ch chs cur ltac:(lia)) as (ls & x & E & X & P).
      { now rewrite <- Hch. }
      { rewrite <- Hch, its_children. exact Hfit. }
      rewrite <- Hch, its_children in E, P.
      eapply Hdone.
      + unfold reflow_once, b. cbn [bkind]. unfold reflow_parg. replace (if smem $"cmdline" tags then false else false) with false by (now destruct (smem _ tags)).
        fold b. rewrite E. cbn [bindr]. reflexivity.
      + cbn [a_valid]. destruct (smem $"cmdline" tags); [exact F2|]. rewrite count_args.
        2:{ rewrite Forall_forall in HK |- *. intros y Hin. apply HK in Hin. apply Hin. }
        rewrite children_len. fold (most_pargs c spec). replace (zlen cs >? most_pargs c spec) with false by (symmetry; lia). reflexivity.
      + reflexivity.
      + exact X.
      + reflexivity.
      + cbn [own_pieces a_cs app]. exact P.
    - (* KParenGroup *)
      specialize (Hns eq_refl). destruct cs as [|lp [|ag [|rp [|]]]]; try discriminate. rewrite !andb_true_iff in Hf. destruct Hf as [[[[[F1 F2] F3] F4] F5] F6].
      inversion IH as [|? ? I1 I2]; subst. inversion I2 as [|? ? I3 I4]; subst. inversion I4 as [|? ? I5 _]; subst.
      inversion Hns as [|? ? N1 N2]; subst. inversion N2 as [|? ? N3 N4]; subst. inversion N4 as [|? ? N5 _]; subst.
      assert (H1 : items c KParenGroup lp = [IText (PkParen true) $"("]) by (destruct lp as [[] ? [|]]; try discriminate; reflexivity).
      assert (H3 : items c KParenGroup rp = [IText (PkParen false) $")"]) by (destruct rp as [[] ? [|]]; try discriminate; reflexivity).
      assert (Hib : items c parent b = [IText (PkParen true) $"("] ++ items c KParenGroup ag ++ [IText (PkParen false) $")"]).
      { unfold b. cbn [items own_items flat_map app]. rewrite H1, H3. reflexivity. }
      assert (W1 : W KParenGroup lp = 1) by (unfold W; rewrite H1; reflexivity).
      assert (W3 : W KParenGroup rp = 1) by (unfold W; rewrite H3; reflexivity).
      destruct (after_open nb (items c KParenGroup ag)) as [A1 A2].
      assert (HWb : W parent b = 1 + W KParenGroup ag + 1).
      { unfold W. rewrite Hib. rewrite !itext_app, !zlen_app. cbn [lastk]. rewrite A1. cbn [itext]. rewrite joins_close.
        change (joins nb None (PkParen true)) with 0. change (zlen (spaces 0 ++ $"(" ++ [])) with 1. change (zlen (spaces 0 ++ $")" ++ [])) with 1. lia. }
      pose proof (W_pos KParenGroup ag) as Q1.
      destruct (I1 KParenGroup 0%nat F2 N1 ltac:(destruct (bkind lp); try discriminate; reflexivity) (push_path path b sib) false cur 0 ltac:(lia)) as (l1 & E1 & V1 & X1 & P1).
      { cbn [fst]. destruct term; lia. }
      destruct (I3 KParenGroup (if is_parg_k (bkind lp) then 1%nat else 0%nat) F4 N3 ltac:(destruct (bkind ag); try discriminate; reflexivity) (push_path path b sib) false (shift cur 1) 0 ltac:(lia)) as (l2 & E2 & V2 & X2 & P2).
      { cbn [fst]. unfold shift. cbn [colm]. destruct term; lia. }
      destruct (I5 KParenGroup (if is_parg_k (bkind ag) then S (if is_parg_k (bkind lp) then 1%nat else 0%nat) else (if is_parg_k (bkind lp) then 1%nat else 0%nat)) F6 N5 ltac:(destruct (bkind rp); try discriminate; reflexivity) (push_path path b sib) term (shift cur (1 + W KParenGroup ag)) 0 ltac:(lia)) as (l3 & E3 & V3 & X3 & P3).
      { cbn [fst]. unfold shift. cbn [colm]. destruct term; lia. }
      cbn [fst snd] in *. rewrite W1 in E1. rewrite W3 in E3. rewrite shift_shift in E2, E3.
      assert (T : (term && (colm (shift cur (1 + W KParenGroup ag + 1)) + 1 >? lw)) = false).
      { destruct term; [|reflexivity]. unfold shift. cbn [colm andb]. lia. }
      assert (G1 : (lext l1 >? lw) = false) by lia. assert (G2 : (lext l2 >? lw) = false) by lia. assert (G3 : (lext l3 >? lw) = false) by lia.
      pose proof (flat_ends _ F4) as Hea.
      assert (Hla : is_lparen_k (bkind ag) = false) by (destruct (bkind ag); try discriminate; reflexivity).
      eapply Hdone.
      + unfold reflow_once, b. cbn [bkind children_of]. unfold reflow_pgroup.
        match goal with |- context[zlen (?x :: ?y :: ?z :: nil)] => change (zlen [x; y; z]) with 3 end. change (negb ((3 =? 3) || (3 =? 4))) with false. cbv iota.
        cbn [pgroup_children]. unfold Layout.ckind. cbn [fst snd]. fold b. rewrite andb_false_r, E1. cbn [bindr andb orb negb].
        rewrite V1, G1. cbn [bindr andb orb negb]. rewrite F1, E2. cbn [bindr andb orb negb]. rewrite V2, G2. cbn [bindr andb orb negb].
        rewrite Hla, Hea, F5. cbn [orb]. rewrite andb_true_r, E3. cbn [bindr andb orb negb]. rewrite V3, G3, T. cbn [bindr andb orb negb]. reflexivity.
      + cbn [a_valid]. now rewrite V1, V2, V3.
      + reflexivity.
      + cbn [a_ext]. destruct term; lia.
      + cbn [a_out]. now rewrite HWb.
      + cbn [own_pieces a_cs app flat_map]. rewrite P1, P2, P3, Hib, H1, H3, app_nil_r. rewrite !place_app by exact Hnb. cbn [lastk itext].
        rewrite A1, A2. f_equal. change (zlen (spaces (joins nb None (PkParen true)) ++ $"(" ++ [])) with 1. f_equal.
        rewrite shift_shift. cbn [place]. rewrite !joins_close. change (joins nb None (PkParen false)) with 0. reflexivity.
    - apply andb_prop in Hf as [F1 F2]. apply Hscal; [reflexivity|now destruct cs|exact F2].
    - apply andb_prop in Hf as [F1 F2]. apply Hscal; [reflexivity|now destruct cs|exact F2].
    - apply andb_prop in Hf as [F1 F2]. apply Hscal; [reflexivity|now destruct cs|exact F2].
    - (* KLParen *) destruct cs; [|discriminate]. eapply Hdone; [reflexivity|reflexivity|reflexivity| |reflexivity|].
      + cbn [a_ext]. change (W parent b) with 1 in Hfit. destruct term; lia.
      + cbn [a_cs own_pieces flat_map app b items own_items place]. change (joins nb None (PkParen true)) with 0. now rewrite shift_0.
    - (* KRParen *) destruct cs; [|discriminate]. eapply Hdone; [reflexivity|reflexivity|reflexivity| |reflexivity|].
      + cbn [a_ext]. change (W parent b) with 1 in Hfit. destruct term; lia.
      + cbn [a_cs own_pieces flat_map app b items own_items place]. change (joins nb None (PkParen false)) with 0. now rewrite shift_0.
  Qed.

  (** ** Statements *)
  Lemma name_flat parent fn : is_funname_k (bkind fn) = true -> flatb c fn = true -> named c parent fn = true ->
    exists s, items c parent fn = [IText (PkWord true) s].
  Proof.
    destruct fn as [k p cs]. intros Hk Hf Hn. destruct k; try discriminate. cbn [flatb] in Hf. apply andb_prop in Hf as [F1 _].
    destruct cs; [|discriminate]. cbn [named is_scalar_k forallb] in Hn. rewrite andb_true_r in Hn. unfold text_ok in Hn. apply andb_prop in Hn as [Hn _].
    destruct p as [|[t|] p]; try discriminate. destruct (scalar_piece c parent KFunname p t eq_refl Hn) as (s & E & _).
    exists s. cbn [items flat_map own_items]. rewrite E. reflexivity.
  Qed.
  Theorem stmt_flat sp p cs parent sib path term cur pass l o :
    flatb c (B (KStatement sp) p cs) = true -> named c parent (B (KStatement sp) p cs) = true -> 0 <= pass_limit (KStatement sp) pass ->
    nb = Z.of_nat (blanks_before_paren c (match cs with fn :: _ => first_spelling (bpcs fn) | nil => nil end)) ->
    reflow e (B (KStatement sp) p cs) sib path term cur pass = Ok (l, o) ->
    colm cur + W parent (B (KStatement sp) p cs) <= lw ->
    pieces c parent l = place nb cur None (items c parent (B (KStatement sp) p cs)).
  Proof.
    set (b := B (KStatement sp) p cs). intros Hf Hn Hlim Hnbv Hr Hfit.
    assert (Hp : 0 <= 0) by lia.
    assert (Hns : Forall (fun x => named c (KStatement sp) x = true) cs).
    { unfold b in Hn. cbn [named] in Hn. apply andb_prop in Hn as [_ Hn]. now rewrite forallb_forall, <- Forall_forall in Hn. }
    unfold b in Hf. cbn [flatb] in Hf. destruct cs as [|fn [|lp [|ag [|rp [|]]]]]; try discriminate.
    rewrite !andb_true_iff in Hf. destruct Hf as [[[[[[[F1 F2] F3] F4] F5] F6] F7] F8].
    inversion Hns as [|? ? N1 Ns1]; subst. inversion Ns1 as [|? ? N2 Ns2]; subst. inversion Ns2 as [|? ? N3 Ns3]; subst. inversion Ns3 as [|? ? N4 _]; subst.
    destruct (name_flat (KStatement sp) fn F1 F2 N1) as (s & H0).
    assert (H1 : items c (KStatement sp) lp = [IText (PkParen true) $"("]) by (destruct lp as [[] ? [|]]; try discriminate; reflexivity).
    assert (H3 : items c (KStatement sp) rp = [IText (PkParen false) $")"]) by (destruct rp as [[] ? [|]]; try discriminate; reflexivity).
    set (A := items c (KStatement sp) ag) in *.
    assert (Hib : items c parent b = [IText (PkWord true) s] ++ [IText (PkParen true) $"("] ++ A ++ [IText (PkParen false) $")"]).
    { unfold b. cbn [items own_items flat_map app]. rewrite H0, H1, H3. reflexivity. }
    assert (W0 : W (KStatement sp) fn = zlen s) by (unfold W; rewrite H0; cbn [itext]; rewrite app_nil_r; reflexivity).
    assert (W1 : W (KStatement sp) lp = 1) by (unfold W; rewrite H1; reflexivity).
    assert (W3 : W (KStatement sp) rp = 1) by (unfold W; rewrite H3; reflexivity).
    destruct (after_open nb A) as [A1 A2]. set (wa := zlen (itext nb None A)) in *.
    assert (W2 : W (KStatement sp) ag = wa) by reflexivity.
    set (w0 := zlen s) in *.
    assert (HWb : W parent b = w0 + nb + 1 + wa + 1).
    { unfold W. rewrite Hib. rewrite !itext_app, !zlen_app. cbn [lastk]. rewrite A1. cbn [itext]. rewrite joins_close.
      change (joins nb None (PkWord true)) with 0. change (joins nb (Some (PkWord true)) (PkParen true)) with nb.
      rewrite !zlen_app, (spaces_zlen nb) by exact Hnb. change (zlen (spaces 0)) with 0. change (zlen (@nil chr)) with 0. change (zlen $"(") with 1. change (zlen $")") with 1.
      fold wa w0. lia. }
    assert (Q0 : 0 <= w0) by (unfold w0, zlen; lia). assert (Qa : 0 <= wa) by (unfold wa, zlen; lia).
    set (path' := push_path path b sib) in *.
    assert (K0 : flatc (KStatement sp) (fn, reflow e fn 0)).
    { apply reflow_flat; auto. destruct (bkind fn); try discriminate; reflexivity. }
    assert (K1 : forall n, flatc (KStatement sp) (lp, reflow e lp n)).
    { intros n. apply reflow_flat; auto. destruct (bkind lp); try discriminate; reflexivity. }
    assert (K2 : forall n, flatc (KStatement sp) (ag, reflow e ag n)).
    { intros n. apply reflow_flat; auto. destruct (bkind ag); try discriminate; reflexivity. }
    assert (K3 : forall n, flatc (KStatement sp) (rp, reflow e rp n)).
    { intros n. apply reflow_flat; auto. destruct (bkind rp); try discriminate; reflexivity. }
    unfold flatc in K0, K1, K2, K3. cbn [fst snd] in K0, K1, K2, K3.
    destruct (K0 path' false cur 0 Hp) as (l0 & E0 & V0 & X0 & P0); [lia|]. rewrite W0 in E0.
    assert (Hsp : (if need_paren_space c (lower (first_spelling (bpcs fn))) then shift (shift cur w0) 1 else shift cur w0) = shift cur (w0 + nb)).
    { rewrite space_spec. unfold blanks_before_paren in *. destruct (if smem _ _ then _ else _); cbv iota in *.
      - change (0 <? Z.of_nat 1) with true. cbv iota. rewrite shift_shift. now rewrite Hnbv.
      - change (0 <? Z.of_nat 0) with false. cbv iota. f_equal. lia. }
    assert (Hnb1 : nb <= 1) by (rewrite Hnbv; unfold blanks_before_paren; destruct (if smem _ _ then _ else _); cbn; lia).
    pose proof (flat_ends _ F6) as Hea. unfold ends_line in Hea. apply orb_false_elim in Hea as [_ Hea].
    unfold b in Hr. rewrite reflow_eq in Hr. unfold node_passes in Hr. rewrite Hpass in Hr. cbn [passes_lookup] in Hr.
    assert (Hd : exists r, default_passes (KStatement sp) = (0, false) :: r) by (eexists; reflexivity). destruct Hd as (r & Hd). fold b in Hr. fold path' in Hr. rewrite Hd in Hr.
    cbn [try_passes] in Hr. replace (0 >? pass_limit (KStatement sp) pass) with false in Hr by (symmetry; lia).
    apply bindr_ok in Hr as ([l1 o1] & Ht & Hr). unfold try_pass in Ht. apply bindr_ok in Ht as (a & Ha & Ht).
    unfold reflow_once, b in Ha. cbn [bkind children_of] in Ha. fold b in Ha.
    unfold reflow_statement in Ha. unfold Layout.ckind in Ha. cbn [fst snd] in Ha.
    rewrite F1, F3, F5, F7, E0 in Ha. cbn [negb bindr] in Ha. rewrite Hsp in Ha.
    replace (if prefix_width c (lower (first_spelling (bpcs fn))) <=? f_min_prefix c then false else false) with false in Ha by (now destruct (_ <=? _)).
    match type of Ha with context[reflow e lp ?n] => destruct (K1 n path' false (shift cur (w0 + nb)) 0 Hp) as (l2 & E1 & V1 & X1 & P1) end.
    { unfold shift. cbn [colm]. lia. }
    rewrite E1, W1 in Ha. cbn [bindr] in Ha. rewrite shift_shift in Ha.
    match type of Ha with context[reflow e ag ?n] => destruct (K2 n path' true (shift cur (w0 + nb + 1)) 0 Hp) as (l3 & E2 & V2 & X2 & P2) end.
    { unfold shift. cbn [colm]. lia. }
    rewrite E2, W2 in Ha. cbn [bindr] in Ha. rewrite shift_shift in Ha.
    match type of Ha with context[reflow e rp ?n] => destruct (K3 n path' false (shift cur (w0 + nb + 1 + wa)) 0 Hp) as (l4 & E3 & V3 & X3 & P3) end.
    { unfold shift. cbn [colm]. lia. }
    replace (row (shift cur (w0 + nb + 1 + wa)) >? row cur) with false in Ha by (unfold shift; cbn [row]; symmetry; lia).
    replace (colm (shift cur (w0 + nb + 1 + wa)) >=? lw) with false in Ha by (unfold shift; cbn [colm]; symmetry; lia).
    rewrite andb_false_r, Hea in Ha. apply bindr_ok in Ha as (dc & _ & Ha). unfold stmt_close in Ha. cbn [snd] in Ha. rewrite E3, W3 in Ha. cbn [bindr andb] in Ha.
    rewrite V0, V1, V2, V3, shift_shift in Ha. cbn [andb] in Ha. injection Ha as <-.
    cbn [a_ext a_out a_wrap a_valid a_lines a_cs andb] in Ht.
    match type of Ht with context[validate c b path' false cur ?ro ?x] => assert (Hval : validate c b path' false cur ro x = true) end.
    { unfold validate. match goal with |- context[?x >? lw] => replace (x >? lw) with false by (symmetry; lia) end.
      unfold shift. cbn [row]. rewrite Z.sub_diag. unfold b. cbn [bkind]. reflexivity. }
    rewrite Hval in Ht. injection Ht as <- <-. cbn [fst lvalid] in Hr. injection Hr as <- <-.
    rewrite Hib. cbn [pieces own_pieces app flat_map bkind bpcs b]. rewrite P0, P1, P2, P3, H0, H1, H3, app_nil_r.
    fold A. cbn [place app]. change (joins nb None (PkWord true)) with 0. change (joins nb (Some (PkWord true)) (PkParen true)) with nb.
    change (joins nb None (PkParen true)) with 0. change (zlen $"(") with 1. rewrite place_app, A1, A2 by exact Hnb. cbn [place]. rewrite !joins_close.
    rewrite !shift_shift. fold w0 wa. rewrite !Z.add_0_r, !Z.add_0_l. replace (w0 + (nb + 1)) with (w0 + nb + 1) by lia. reflexivity.
  Qed.
End OneLine.
