(** * NamesShape: the spellings written for names, keywords and flags keep their
    length, for every tree the parser builds *)
From Verif Require Import Base Regex Lex TextOps TextProofs Tree Parse ParseProofs CmdSpec StdSpecs StdDb
  Layout LayoutProofs Pieces ParseShape StdShape.

(** ** The text written for a word is the word up to letter case *)
Definition text_same (c : fcfg) (parent k : kind) (p : list pnode) : bool :=
  match p with
  | T t :: _ =>
      match scalar_text c parent k t with
      | Ok s => seqb (lower s) (lower (normalize (spelling t)))
      | _ => false
      end
  | _ => false
  end.
Definition text_ok (c : fcfg) (parent k : kind) (p : list pnode) : bool :=
  text_fits c parent k p && text_same c parent k p.
Fixpoint named (c : fcfg) (parent : kind) (b : box) : bool :=
  match b with
  | B k p cs => (if is_scalar_k k then text_ok c parent k p else true)
                && forallb (named c k) cs
  end.
Fixpoint named_names c (b : box) : forall parent, named c parent b = true -> names_ok c parent b = true.
Proof.
  destruct b as [k p cs]. intros parent H. cbn [named names_ok] in *. apply andb_prop in H as [H1 H2].
  apply andb_true_intro. split.
  - destruct (is_scalar_k k); auto. now apply andb_prop in H1.
  - induction cs as [|x cs IH]; auto. cbn [forallb] in *. apply andb_prop in H2 as [A B].
    rewrite (named_names c x k A). now apply IH.
Qed.
Lemma lower_lower s : lower (lower s) = lower s.
Proof.
  unfold lower. rewrite map_map. apply map_ext. intros a. unfold loc.
  destruct ((65 <=? a) && (a <=? 90))%N eqn:E; [|now rewrite E].
  destruct ((65 <=? a + 32) && (a + 32 <=? 90))%N eqn:E2; [|reflexivity]. exfalso.
  rewrite !andb_true_iff, !N.leb_le in *. lia.
Qed.
Lemma lower_upper s : lower (upper s) = lower s.
Proof.
  unfold lower, upper. rewrite map_map. apply map_ext. intros a. unfold loc, upc.
  destruct ((97 <=? a) && (a <=? 122))%N eqn:E; [|reflexivity].
  rewrite andb_true_iff, !N.leb_le in E.
  replace ((65 <=? a - 32) && (a - 32 <=? 90))%N with true
    by (symmetry; rewrite andb_true_iff, !N.leb_le; lia).
  replace ((65 <=? a) && (a <=? 90))%N with false
    by (symmetry; rewrite andb_false_iff, !N.leb_gt; lia). lia.
Qed.
Lemma seqb_refl' s : seqb s s = true.
Proof. now apply seqb_eq. Qed.

(** ** Inside an argument list there is no command name *)
Definition argk (k : kind) : bool :=
  match k with KFunname | KStatement _ | KAtStmt | KFlow | KBody => false | _ => true end.

Lemma zlen_map {A B} (f : A -> B) l : zlen (map f l) = zlen l.
Proof. unfold zlen. now rewrite map_length. Qed.
Lemma lower_fits t : one_line (spelling t) = true ->
  one_line (lower (spelling t)) && one_line (spelling t) && (zlen (lower (spelling t)) =? zlen (spelling t)) = true.
Proof. intros H. rewrite one_line_lower, H. unfold lower. now rewrite zlen_map, Z.eqb_refl. Qed.
Lemma upper_fits t : one_line (spelling t) = true ->
  one_line (upper (spelling t)) && one_line (spelling t) && (zlen (upper (spelling t)) =? zlen (spelling t)) = true.
Proof. intros H. rewrite one_line_upper, H. unfold upper. now rewrite zlen_map, Z.eqb_refl. Qed.

Lemma scalar_fits c parent k p : is_scalar_k k = true -> argk k = true -> has_tok p = true ->
  (k = KKeyword \/ k = KFlag -> one_line (first_spelling p) = true) -> text_ok c parent k p = true.
Proof.
  intros Hs Ha Hp H. destruct p as [|[t|? ?] p]; try discriminate.
  unfold text_ok. cbn [text_fits text_same first_spelling] in *.
  assert (Hn : forall s, s = normalize (spelling t) ->
    (seqb s (normalize (spelling t)) || one_line s && one_line (spelling t) && (zlen s =? zlen (spelling t)))
    && seqb (lower s) (lower (normalize (spelling t))) = true).
  { intros s ->. now rewrite !seqb_refl'. }
  destruct k; try discriminate; cbn [scalar_text]; try (now apply Hn);
    (destruct (seqb (f_keyword_case c) $"lower");
       [rewrite lower_fits, lower_lower, normalize_one_line, seqb_refl', orb_true_r by auto; reflexivity|];
     destruct (seqb (f_keyword_case c) $"upper");
       [rewrite upper_fits, lower_upper, normalize_one_line, seqb_refl', orb_true_r by auto; reflexivity|];
     now apply Hn).
Qed.

Lemma tail_argk cs : tail_ok cs = true -> forallb (fun b => argk (bkind b)) cs = true.
Proof.
  destruct cs as [|[k p x] [|]]; try discriminate; auto. simpl.
  destruct k; try discriminate; auto.
Qed.
Lemma arg_kids k p cs : wfb (B k p cs) = true -> argk k = true ->
  forallb (fun b => argk (bkind b)) cs = true.
Proof.
  intros H Ha. cbn [wfb] in H. apply andb_prop in H as [_ H].
  destruct k; try discriminate; repeat match goal with
    | H : _ && _ = true |- _ => apply andb_prop in H as [? ?] end;
    try (now apply tail_argk); try (destruct cs; [reflexivity|discriminate]).
  all: try (apply forallb_forall; intros [kb pb cb] Hb; rewrite forallb_forall in H; specialize (H _ Hb);
            unfold in_arg, in_parg in H; cbn [bkind] in *; destruct kb; try discriminate; reflexivity).
  - destruct cs as [|[k1 p1 c1] [|[k2 p2 c2] [|]]]; try discriminate; destruct k1; try discriminate; auto.
    simpl in *. destruct k2; try discriminate; reflexivity.
  - destruct cs as [|[k1 p1 c1] [|[k2 p2 c2] [|[k3 p3 c3] cs]]]; try discriminate.
    repeat match goal with | H : _ && _ = true |- _ => apply andb_prop in H as [? ?] end.
    simpl in *. destruct k1; try discriminate. destruct k2; try discriminate. destruct k3; try discriminate.
    simpl. now apply tail_argk.
Qed.

Fixpoint arg_names c (b : box) : forall parent, wfb b = true -> argk (bkind b) = true ->
  named c parent b = true.
Proof.
  destruct b as [k p cs]. intros parent H Ha. cbn [bkind] in Ha. cbn [named].
  pose proof (arg_kids _ _ _ H Ha) as Hk. apply andb_true_intro. split.
  - destruct (is_scalar_k k) eqn:Es; auto. cbn [wfb] in H. apply andb_prop in H as [_ H].
    apply scalar_fits; auto; destruct k; try discriminate;
      repeat match goal with | H : _ && _ = true |- _ => apply andb_prop in H as [? ?] end; auto;
      intros [E|E]; discriminate.
  - cbn [wfb] in H. apply andb_prop in H as [H _]. clear Ha.
    induction cs as [|x cs IH]; auto. cbn [forallb] in *.
    apply andb_prop in H as [H1 H2]. apply andb_prop in Hk as [K1 K2].
    rewrite (arg_names c x k H1 K1). now apply IH.
Qed.

(** ** Whole trees *)
Section Names.
  Variable ctx : pctx.
  Variable c : fcfg.
  Hypothesis Hctx : wfkctx ctx.
  (** the text written for a command name has the length of the name *)
  Hypothesis Hname : forall t, one_line (spelling t) = true ->
    text_ok c (KStatement (stmt_cmdspec (command_parser ctx (lower (spelling t))))) KFunname [T t] = true.

  Definition Nm (n : pnode) : Prop :=
    match n with
    | T _ => True
    | N _ _ => forall parent, named c parent (create_box n) = true
    end.
  Lemma kids_names parent cs : Forall Nm cs ->
    forallb (named c parent) (kids cs) = true.
  Proof.
    intros H. apply kids_forall. rewrite Forall_forall in *. intros [t|k x] Hin; auto.
    apply (H _ Hin).
  Qed.
  Lemma node_names k cs : is_scalar_k k = false -> Forall Nm cs -> Nm (N k cs).
  Proof.
    intros Hk H parent. rewrite create_eq. cbn [named]. rewrite Hk.
    now apply kids_names.
  Qed.
  Lemma arg_Nm n : W n -> match n with T _ => True | N k _ => argk k = true end -> Nm n.
  Proof. destruct n as [t|k cs]; [intros; exact I|]. intros Hw Ha parent. apply arg_names; auto. Qed.
  Lemma inA_Nm n : inA n -> Nm n.
  Proof.
    destruct n as [t|k cs]; [easy|]. intros [Hk Hw]. apply arg_Nm; auto. destruct k; try discriminate; reflexivity.
  Qed.
  Lemma inC_Nm n : inC n -> Nm n.
  Proof. intros H. apply inA_Nm, inC_in; auto. Qed.
  Lemma inG_Nm n : inG n -> Nm n.
  Proof.
    destruct n as [t|k cs]; [easy|]. intros [Hk Hw]. apply arg_Nm; auto. destruct k; try discriminate; reflexivity.
  Qed.
  Lemma isT_Nm ws : Forall isT ws -> Forall Nm ws.
  Proof. apply Forall_impl. intros [t|k x]; [easy|intros []]. Qed.

  Lemma trailing_Nm tr : trailing tr -> Forall Nm tr.
  Proof.
    intros (ws & Hw & [-> | (x & Hx & ->)]); [now apply isT_Nm|].
    apply Forall_app. split; [now apply isT_Nm|]. constructor; auto. now apply inC_Nm.
  Qed.
  Lemma leaf_Nm k t : is_scalar_k k = false -> Nm (N k [T t]).
  Proof. intros H. apply node_names; auto. constructor; [exact I|constructor]. Qed.

  Lemma statement_Nm n toks x r : Forall tgood toks -> wword toks -> statement n ctx toks = Ok (x, r) -> Nm x.
  Proof.
    intros Hg Hw H. unfold statement in H. destruct toks as [|fn r0]; [discriminate|].
    destruct (take_ws r0) as [ws r1] eqn:Ew. apply take_ws_sh in Ew as [Hws Er].
    specialize (Er (Forall_inv_tail Hg)).
    destruct r1 as [|lp r1]; [discriminate|].
    destruct (negb _); [discriminate|].
    destruct (take_ws r1) as [ws2 r2] eqn:Ew2. apply take_ws_sh in Ew2 as [Hws2 Er2].
    specialize (Er2 (Forall_inv_tail Er)).
    apply bindr_ok in H as ([args r3] & E & H).
    apply (sh_call ctx _ (all_Sh ctx n)) in E as [A B]; auto; [|now apply command_wk].
    apply bindr_ok in H as ([tl r4] & Et & H). destruct (stmt_tail_sh _ _ _ _ Et B) as [C D].
    destruct r4 as [|rp r5]; [discriminate|].
    destruct (consume_trailing ctx r5) as [tr r6] eqn:Etr.
    destruct (consume_trailing_sh _ _ _ _ Etr (Forall_inv_tail D)) as [F G].
    injection H as <- <-. intros parent. rewrite create_eq. cbn [named is_scalar_k andb].
    set (k := KStatement _) in *.
    change (N KFunname [T fn] :: ?l) with ([N KFunname [T fn]] ++ l).
    rewrite kids_app, kids_one by reflexivity. cbn [app forallb].
    rewrite kids_names; auto.
    - rewrite create_eq. cbn [named is_scalar_k kids flat_map forallb]. rewrite !andb_true_r.
      apply Hname. exact Hw.
    - apply Forall_app. split; [now apply isT_Nm|]. apply Forall_cons; [now apply leaf_Nm|].
      apply Forall_app. split; [now apply isT_Nm|]. apply Forall_cons; [now apply inG_Nm|].
      apply Forall_app. split; [eapply Forall_impl; [|exact C]; apply inA_Nm|].
      apply Forall_cons; [now apply leaf_Nm|]. now apply trailing_Nm.
  Qed.
  Lemma atword_Nm toks x r : Forall tgood toks -> atword_statement ctx toks = Ok (x, r) -> Nm x.
  Proof.
    intros Hg H. unfold atword_statement in H. destruct toks as [|t toks]; [discriminate|].
    destruct (consume_trailing ctx toks) as [tr r6] eqn:Etr.
    destruct (consume_trailing_sh _ _ _ _ Etr (Forall_inv_tail Hg)) as [F G].
    injection H as <- <-. apply node_names; auto. constructor; [|now apply trailing_Nm].
    intros parent. rewrite create_eq. cbn [named is_scalar_k kids flat_map forallb].
    rewrite andb_true_r. apply scalar_fits; auto; intros [E|E]; discriminate.
  Qed.

  Lemma body_Nm n :
    (forall bset acc toks a r, Forall Nm acc -> Forall tgood toks ->
       body_loop n ctx bset acc toks = Ok (a, r) -> Forall Nm a)
    /\ (forall toks x r, Forall tgood toks -> wword toks -> flow n ctx toks = Ok (x, r) -> Nm x)
    /\ (forall acc toks a r, Forall Nm acc -> Forall tgood toks -> wword toks ->
       if_loop n ctx acc toks = Ok (a, r) -> Forall Nm a).
  Proof.
    induction n as [|m (IHb & IHf & IHi)]; [split; [|split]; intros; discriminate|].
    destruct (body_sh ctx Hctx m) as (Sb & Sf & Si).
    split; [|split].
    - intros bset acc toks a r Ha Hg H. cbn [body_loop] in H.
      destruct toks as [|t toks]; [injection H as <- <-; simpl; auto|].
      pose proof (Forall_inv_tail Hg) as Hg1. pose proof (Forall_inv Hg) as Ht.
      destruct (is_ws t).
      { destruct (take_ws (t :: toks)) as [ws r0] eqn:Ew. apply take_ws_sh in Ew as [Hws Er].
        eapply IHb; [| |exact H]; auto. apply snoc; auto. apply node_names; auto. now apply isT_Nm. }
      destruct (is_tt COMMENT t).
      { apply bindr_ok in H as ([x r1] & E & H). destruct (consume_comment_sh _ _ _ E Hg) as [A B].
        apply Forall_inv in A. eapply IHb; [| |exact H]; auto. apply snoc; auto. now apply inC_Nm. }
      destruct (is_onoff t) eqn:Eo.
      { eapply IHb; [| |exact H]; auto. apply snoc; auto. now apply leaf_Nm. }
      destruct (is_tt BRACKET_COMMENT t).
      { apply bindr_ok in H as ([x r1] & E & H). destruct (consume_comment_sh _ _ _ E Hg) as [A B].
        apply Forall_inv in A. eapply IHb; [| |exact H]; auto. apply snoc; auto. now apply inC_Nm. }
      destruct (is_tt WORD t) eqn:Ewd.
      { assert (Hww : wword (t :: toks)) by now apply word_wword.
        destruct (smem _ bset); [injection H as <- <-; auto|].
        destruct (smem _ flow_names).
        - apply bindr_ok in H as ([sub r1] & E & H). pose proof (IHf _ _ _ Hg Hww E).
          apply Sf in E as [A B]; auto. eapply IHb; [| |exact H]; auto. apply snoc; auto.
        - apply bindr_ok in H as ([sub r1] & E & H). pose proof (statement_Nm _ _ _ _ Hg Hww E).
          apply statement_sh in E as (A & _ & B); auto.
          eapply IHb; [| |exact H]; auto. apply snoc; auto. }
      destruct (is_tt ATWORD t) eqn:Eat.
      { apply bindr_ok in H as ([sub r1] & E & H). pose proof (atword_Nm _ _ _ Hg E).
        apply atword_sh in E as (A & B); auto.
        - eapply IHb; [| |exact H]; auto. apply snoc; auto.
        - simpl. apply Ht. auto. }
      destruct (is_tt BYTEORDER_MARK t) eqn:Eb; [|discriminate].
      eapply IHb; [| |exact H]; auto.
    - intros toks x r Hg Hw H. cbn [flow] in H.
      destruct toks as [|t toks]; [discriminate|].
      destruct (seqb _ _).
      + apply bindr_ok in H as ([a r1] & E & H). injection H as <- <-.
        apply node_names; auto. eapply IHi; [| | |exact E]; auto.
      + apply bindr_ok in H as ([op r1] & E & H). pose proof (statement_Nm _ _ _ _ Hg Hw E).
        apply statement_sh in E as (_ & A & B); auto.
        apply bindr_ok in H as ([bd r2] & E2 & H).
        assert (Forall Nm bd) by (eapply IHb; [| |exact E2]; auto).
        apply Sb in E2 as (A2 & B2 & W2); auto.
        apply bindr_ok in H as ([cl r3] & E3 & H). pose proof (statement_Nm _ _ _ _ B2 W2 E3).
        injection H as <- <-. apply node_names; auto.
        repeat (apply Forall_cons; auto). now apply node_names.
    - intros acc toks a r Ha Hg Hw H. cbn [if_loop] in H.
      destruct toks as [|t toks]; [injection H as <- <-; auto|].
      destruct (seqb _ _).
      + apply bindr_ok in H as ([cl r1] & E & H). injection H as <- <-.
        apply snoc; auto. eapply statement_Nm; [| |exact E]; auto.
      + apply bindr_ok in H as ([op r1] & E & H). pose proof (statement_Nm _ _ _ _ Hg Hw E).
        apply statement_sh in E as (_ & A & B); auto.
        apply bindr_ok in H as ([bd r2] & E2 & H).
        assert (Forall Nm bd) by (eapply IHb; [| |exact E2]; auto).
        apply Sb in E2 as (A2 & B2 & W2); auto.
        eapply IHi; [| | |exact H]; auto. apply Forall_app. split; auto.
        repeat (apply Forall_cons; auto). now apply node_names.
  Qed.

  Theorem parse_names toks tree : Forall tgood toks -> parse ctx toks = Ok tree ->
    forall parent, named c parent (create_box tree) = true.
  Proof.
    intros Hg H. unfold parse in H. apply bindr_ok in H as ([a r] & E & H). injection H as <-.
    destruct (body_Nm (parse_fuel toks)) as [Hb _]. apply Hb in E; auto. now apply node_names.
  Qed.
End Names.

(** ** The shipped table *)
Definition spelled (kp : str * parser) : bool :=
  match stmt_cmdspec (snd kp) with
  | Some cs => seqb (lower (cs_spelling cs)) (fst kp)
  | None => true
  end.
Lemma spec_table_spelled : forallb spelled spec_table = true.
Proof. vm_compute. reflexivity. Qed.
Lemma flow_table_spelled : forallb spelled flow_table = true.
Proof. vm_compute. reflexivity. Qed.
Lemma hand_table_spelled vt : forallb spelled (hand_table vt) = true.
Proof. vm_compute. reflexivity. Qed.
Lemma no_default vt : kw_lookup $"_default" (std_table vt) = None.
Proof. vm_compute. reflexivity. Qed.

(** a configuration that changes at most the case of names *)
Definition case_cfg (c : fcfg) : Prop :=
  (forall s, In (f_command_case c s) [$"lower"; $"upper"; $"canonical"; $"unchanged"])
  /\ (forall s, lower (f_spelling c s) = lower s).
Lemma lower_len a b : lower a = lower b -> zlen a = zlen b.
Proof. intros H. rewrite <- (zlen_map loc a), <- (zlen_map loc b). unfold lower in H. now rewrite H. Qed.
Lemma lower_one_line a b : lower a = lower b -> one_line a = one_line b.
Proof. intros H. now rewrite <- (one_line_lower a), <- (one_line_lower b), H. Qed.

Lemma std_name ex vt tbl c t : case_cfg c -> forallb spelled tbl = true -> kw_lookup $"_default" tbl = None ->
  one_line (spelling t) = true ->
  text_ok c (KStatement (stmt_cmdspec (command_parser (std_ctx ex vt tbl) (lower (spelling t))))) KFunname [T t] = true.
Proof.
  intros [Hc Hs] Ht Hd H1. unfold text_ok. cbn [text_fits text_same]. set (p := command_parser _ _).
  assert (Hp : match stmt_cmdspec p with
               | Some cs => lower (cs_spelling cs) = lower (spelling t)
               | None => True
               end).
  { assert (Hq : stmt_cmdspec p = None \/ In (lower (spelling t), p) (tbl ++ std_table vt)).
    { unfold p, command_parser. simpl db. unfold with_user.
      destruct (kw_lookup (lower (spelling t)) tbl) as [q|] eqn:E.
      - right. apply in_or_app. left. now apply lookup_In in E.
      - destruct (kw_lookup (lower (spelling t)) (std_table vt)) as [q|] eqn:E2.
        + right. apply in_or_app. right. now apply lookup_In in E2.
        + left. rewrite Hd, no_default. reflexivity. }
    destruct Hq as [->|Hq]; auto.
    assert (F : forallb spelled (tbl ++ std_table vt) = true).
    { unfold std_table. now rewrite !forallb_app, Ht, spec_table_spelled, flow_table_spelled, hand_table_spelled. }
    rewrite forallb_forall in F. specialize (F _ Hq). unfold spelled in F. cbn [fst snd] in F.
    destruct (stmt_cmdspec p); auto. now apply seqb_eq in F. }
  assert (Hsame : forall s, lower s = lower (spelling t) ->
    (seqb s (normalize (spelling t)) || one_line s && one_line (spelling t) && (zlen s =? zlen (spelling t)))
    && seqb (lower s) (lower (normalize (spelling t))) = true).
  { intros s E. rewrite (normalize_one_line _ H1), E, seqb_refl', (lower_one_line _ _ E), H1,
      (lower_len _ _ E), Z.eqb_refl. now rewrite orb_true_r. }
  cbn [scalar_text]. specialize (Hc (spelling t)). simpl in Hc.
  destruct Hc as [<-|[<-|[<-|[<-|[]]]]].
  - change (seqb $"lower" $"lower") with true. cbn iota. apply Hsame, lower_lower.
  - change (seqb $"upper" $"lower") with false. change (seqb $"upper" $"upper") with true. cbn iota.
    apply Hsame, lower_upper.
  - change (seqb $"canonical" $"lower") with false. change (seqb $"canonical" $"upper") with false.
    change (seqb $"canonical" $"canonical") with true. cbn iota.
    destruct (stmt_cmdspec p) as [cs|]; apply Hsame; auto.
  - change (seqb $"unchanged" $"lower") with false. change (seqb $"unchanged" $"upper") with false.
    change (seqb $"unchanged" $"canonical") with false. change (seqb $"unchanged" $"unchanged") with true.
    cbn iota. apply Hsame. now rewrite (normalize_one_line _ H1).
Qed.

Theorem file_names ex vt tbl c src toks tree parent :
  table_keys tbl = true -> forallb spelled tbl = true -> kw_lookup $"_default" tbl = None -> case_cfg c ->
  tokenize src = Ok toks -> parse (std_ctx ex vt tbl) toks = Ok tree ->
  named c parent (create_box tree) = true.
Proof.
  intros Hk Hs Hd Hc Ht Hp. eapply parse_names; [apply std_wkctx; exact Hk| |eapply lexed_good; eauto|exact Hp].
  intros t H. now apply std_name.
Qed.
