(** * WordShape: the names of commands are words, for every tree the parser builds *)
From Verif Require Import Base Regex Lex TextOps TextProofs Tree Parse ParseProofs CmdSpec StdSpecs StdDb
  Layout LayoutProofs Pieces ParseShape StdShape NamesShape.

(** every command name of a layout tree is one WORD token *)
Definition word1 (p : list pnode) : bool := match p with [T t] => is_tt WORD t | _ => false end.
Fixpoint fnb (b : box) : bool :=
  match b with B k p cs => (if is_funname_k k then word1 p else true) && forallb fnb cs end.
Fixpoint arg_fnb (b : box) : wfb b = true -> argk (bkind b) = true -> fnb b = true.
Proof.
  destruct b as [k p cs]. intros H Ha. cbn [bkind] in Ha. cbn [fnb].
  pose proof (arg_kids _ _ _ H Ha) as Hk. apply andb_true_intro. split.
  - destruct k; try discriminate Ha; reflexivity.
  - cbn [wfb] in H. apply andb_prop in H as [H _]. clear Ha.
    induction cs as [|x cs IH]; auto. cbn [forallb] in *.
    apply andb_prop in H as [H1 H2]. apply andb_prop in Hk as [K1 K2].
    rewrite (arg_fnb x H1 K1). now apply IH.
Qed.
(** what a statement is parsed from begins with a word *)
Definition whead (toks : list token) : Prop := match toks with nil => True | t :: _ => is_tt WORD t = true end.
Lemma body_whead ctx n : forall bset acc toks a r, body_loop n ctx bset acc toks = Ok (a, r) -> whead r.
Proof.
  induction n as [|n IH]; intros bset acc toks a r H; [discriminate|]. cbn [body_loop] in H.
  destruct toks as [|t toks]; [injection H as <- <-; exact I|].
  destruct (is_ws t). { destruct (take_ws (t :: toks)) as [ws r0]. eapply IH; exact H. }
  destruct (is_tt COMMENT t). { apply bindr_ok in H as ([x r1] & E & H). eapply IH; exact H. }
  destruct (is_onoff t). { eapply IH; exact H. }
  destruct (is_tt BRACKET_COMMENT t). { apply bindr_ok in H as ([x r1] & E & H). eapply IH; exact H. }
  destruct (is_tt WORD t) eqn:Ewd.
  { destruct (smem _ bset); [injection H as <- <-; exact Ewd|].
    destruct (smem _ flow_names); apply bindr_ok in H as ([x r1] & E & H); eapply IH; exact H. }
  destruct (is_tt ATWORD t). { apply bindr_ok in H as ([x r1] & E & H). eapply IH; exact H. }
  destruct (is_tt BYTEORDER_MARK t); [|discriminate]. eapply IH; exact H.
Qed.

(** ** Whole trees *)
Section Words.
  Variable ctx : pctx.
  Hypothesis Hctx : wfkctx ctx.
  Definition Fn (n : pnode) : Prop :=
    match n with
    | T _ => True
    | N _ _ => fnb (create_box n) = true
    end.
  Lemma kids_fnb cs : Forall Fn cs ->
    forallb fnb (kids cs) = true.
  Proof.
    intros H. apply kids_forall. rewrite Forall_forall in *. intros [t|k x] Hin; auto.
    apply (H _ Hin).
  Qed.
  Lemma node_fnb k cs : is_funname_k k = false -> Forall Fn cs -> Fn (N k cs).
  Proof.
    intros Hk H. unfold Fn. rewrite create_eq. cbn [fnb]. rewrite Hk.
    now apply kids_fnb.
  Qed.
  Lemma arg_Fn n : W n -> match n with T _ => True | N k _ => argk k = true end -> Fn n.
  Proof. destruct n as [t|k cs]; [intros; exact I|]. intros Hw Ha. apply arg_fnb; auto. Qed.
  Lemma inA_Fn n : inA n -> Fn n.
  Proof.
    destruct n as [t|k cs]; [easy|]. intros [Hk Hw]. apply arg_Fn; auto. destruct k; try discriminate; reflexivity.
  Qed.
  Lemma inC_Fn n : inC n -> Fn n.
  Proof. intros H. apply inA_Fn, inC_in; auto. Qed.
  Lemma inG_Fn n : inG n -> Fn n.
  Proof.
    destruct n as [t|k cs]; [easy|]. intros [Hk Hw]. apply arg_Fn; auto. destruct k; try discriminate; reflexivity.
  Qed.
  Lemma isT_Fn ws : Forall isT ws -> Forall Fn ws.
  Proof. apply Forall_impl. intros [t|k x]; [easy|intros []]. Qed.

  Lemma trailing_Fn tr : trailing tr -> Forall Fn tr.
  Proof.
    intros (ws & Hw & [-> | (x & Hx & ->)]); [now apply isT_Fn|].
    apply Forall_app. split; [now apply isT_Fn|]. constructor; auto. now apply inC_Fn.
  Qed.
  Lemma leaf_Fn k t : is_funname_k k = false -> Fn (N k [T t]).
  Proof. intros H. apply node_fnb; auto. constructor; [exact I|constructor]. Qed.

  Lemma statement_Fn n toks x r : Forall tgood toks -> whead toks -> statement n ctx toks = Ok (x, r) -> Fn x.
  Proof.
    intros Hg Hw H. unfold statement in H. destruct toks as [|fn r0]; [discriminate|].
    destruct (take_ws r0) as [ws r1] eqn:Ew. apply take_ws_sh in Ew as [Hws Er].
    specialize (Er (Forall_inv_tail Hg)).
    destruct r1 as [|lp r1]; [discriminate|].
    destruct (negb _); [discriminate|].
    destruct (take_ws r1) as [ws2 r2] eqn:Ew2. apply take_ws_sh in Ew2 as [Hws2 Er2].
    specialize (Er2 (Forall_inv_tail Er)).
    apply bindr_ok in H as ([args r3] & E & H).
    apply (sh_call ctx _ (all_Sh ctx n)) in E as [A B]; auto; [|now apply command_wk].
    apply bindr_ok in H as ([tl r4] & Et & H). destruct (stmt_tail_sh _ _ _ _ Et B) as [C D].
    destruct r4 as [|rp r5]; [discriminate|].
    destruct (consume_trailing ctx r5) as [tr r6] eqn:Etr.
    destruct (consume_trailing_sh _ _ _ _ Etr (Forall_inv_tail D)) as [F G].
    injection H as <- <-. unfold Fn. rewrite create_eq. cbn [fnb is_funname_k andb].
    change (N KFunname [T fn] :: ?l) with ([N KFunname [T fn]] ++ l).
    rewrite kids_app, kids_one by reflexivity. cbn [app forallb].
    rewrite kids_fnb; auto.
    - rewrite create_eq. cbn [fnb is_funname_k word1 kids flat_map forallb]. rewrite !andb_true_r. exact Hw.
    - apply Forall_app. split; [now apply isT_Fn|]. apply Forall_cons; [now apply leaf_Fn|].
      apply Forall_app. split; [now apply isT_Fn|]. apply Forall_cons; [now apply inG_Fn|].
      apply Forall_app. split; [eapply Forall_impl; [|exact C]; apply inA_Fn|].
      apply Forall_cons; [now apply leaf_Fn|]. now apply trailing_Fn.
  Qed.
  Lemma whead_wword toks : Forall tgood toks -> whead toks -> toks <> nil -> wword toks.
  Proof. destruct toks as [|t toks]; [congruence|]. intros Hg Hw _. apply word_wword; [now apply Forall_inv in Hg|exact Hw]. Qed.
  Lemma atword_Fn toks x r : Forall tgood toks -> atword_statement ctx toks = Ok (x, r) -> Fn x.
  Proof.
    intros Hg H. unfold atword_statement in H. destruct toks as [|t toks]; [discriminate|].
    destruct (consume_trailing ctx toks) as [tr r6] eqn:Etr.
    destruct (consume_trailing_sh _ _ _ _ Etr (Forall_inv_tail Hg)) as [F G].
    injection H as <- <-. apply node_fnb; auto. constructor; [|now apply trailing_Fn].
    reflexivity.
  Qed.

  Lemma body_Fn n :
    (forall bset acc toks a r, Forall Fn acc -> Forall tgood toks ->
       body_loop n ctx bset acc toks = Ok (a, r) -> Forall Fn a)
    /\ (forall toks x r, Forall tgood toks -> whead toks -> flow n ctx toks = Ok (x, r) -> Fn x)
    /\ (forall acc toks a r, Forall Fn acc -> Forall tgood toks -> whead toks ->
       if_loop n ctx acc toks = Ok (a, r) -> Forall Fn a).
  Proof.
    induction n as [|m (IHb & IHf & IHi)]; [split; [|split]; intros; discriminate|].
    destruct (body_sh ctx Hctx m) as (Sb & Sf & Si).
    split; [|split].
    - intros bset acc toks a r Ha Hg H. cbn [body_loop] in H.
      destruct toks as [|t toks]; [injection H as <- <-; simpl; auto|].
      pose proof (Forall_inv_tail Hg) as Hg1. pose proof (Forall_inv Hg) as Ht.
      destruct (is_ws t).
      { destruct (take_ws (t :: toks)) as [ws r0] eqn:Ew. apply take_ws_sh in Ew as [Hws Er].
        eapply IHb; [| |exact H]; auto. apply snoc; auto. apply node_fnb; auto. now apply isT_Fn. }
      destruct (is_tt COMMENT t).
      { apply bindr_ok in H as ([x r1] & E & H). destruct (consume_comment_sh _ _ _ E Hg) as [A B].
        apply Forall_inv in A. eapply IHb; [| |exact H]; auto. apply snoc; auto. now apply inC_Fn. }
      destruct (is_onoff t) eqn:Eo.
      { eapply IHb; [| |exact H]; auto. apply snoc; auto. now apply leaf_Fn. }
      destruct (is_tt BRACKET_COMMENT t).
      { apply bindr_ok in H as ([x r1] & E & H). destruct (consume_comment_sh _ _ _ E Hg) as [A B].
        apply Forall_inv in A. eapply IHb; [| |exact H]; auto. apply snoc; auto. now apply inC_Fn. }
      destruct (is_tt WORD t) eqn:Ewd.
      { assert (Hww : wword (t :: toks)) by now apply word_wword.
        destruct (smem _ bset); [injection H as <- <-; auto|].
        destruct (smem _ flow_names).
        - apply bindr_ok in H as ([sub r1] & E & H). pose proof (IHf _ _ _ Hg Ewd E).
          apply Sf in E as [A B]; auto. eapply IHb; [| |exact H]; auto. apply snoc; auto.
        - apply bindr_ok in H as ([sub r1] & E & H). pose proof (statement_Fn _ _ _ _ Hg Ewd E).
          apply statement_sh in E as (A & _ & B); auto.
          eapply IHb; [| |exact H]; auto. apply snoc; auto. }
      destruct (is_tt ATWORD t) eqn:Eat.
      { apply bindr_ok in H as ([sub r1] & E & H). pose proof (atword_Fn _ _ _ Hg E).
        apply atword_sh in E as (A & B); auto.
        - eapply IHb; [| |exact H]; auto. apply snoc; auto.
        - simpl. apply Ht. auto. }
      destruct (is_tt BYTEORDER_MARK t) eqn:Eb; [|discriminate].
      eapply IHb; [| |exact H]; auto.
    - intros toks x r Hg Hw H. cbn [flow] in H.
      destruct toks as [|t toks]; [discriminate|]. pose proof (whead_wword _ Hg Hw ltac:(discriminate)) as Hww.
      destruct (seqb _ _).
      + apply bindr_ok in H as ([a r1] & E & H). injection H as <- <-.
        apply node_fnb; auto. eapply IHi; [| | |exact E]; auto.
      + apply bindr_ok in H as ([op r1] & E & H). pose proof (statement_Fn _ _ _ _ Hg Hw E).
        apply statement_sh in E as (_ & A & B); auto.
        apply bindr_ok in H as ([bd r2] & E2 & H).
        assert (Forall Fn bd) by (eapply IHb; [| |exact E2]; auto).
        pose proof (body_whead _ _ _ _ _ _ _ E2) as W2. apply Sb in E2 as (A2 & B2 & _); auto.
        apply bindr_ok in H as ([cl r3] & E3 & H). pose proof (statement_Fn _ _ _ _ B2 W2 E3).
        injection H as <- <-. apply node_fnb; auto.
        repeat (apply Forall_cons; auto). now apply node_fnb.
    - intros acc toks a r Ha Hg Hw H. cbn [if_loop] in H.
      destruct toks as [|t toks]; [injection H as <- <-; auto|]. pose proof (whead_wword _ Hg Hw ltac:(discriminate)) as Hww.
      destruct (seqb _ _).
      + apply bindr_ok in H as ([cl r1] & E & H). injection H as <- <-.
        apply snoc; auto. eapply statement_Fn; [| |exact E]; auto.
      + apply bindr_ok in H as ([op r1] & E & H). pose proof (statement_Fn _ _ _ _ Hg Hw E).
        apply statement_sh in E as (_ & A & B); auto.
        apply bindr_ok in H as ([bd r2] & E2 & H).
        assert (Forall Fn bd) by (eapply IHb; [| |exact E2]; auto).
        pose proof (body_whead _ _ _ _ _ _ _ E2) as W2. apply Sb in E2 as (A2 & B2 & _); auto.
        eapply IHi; [| | |exact H]; auto. apply Forall_app. split; auto.
        repeat (apply Forall_cons; auto). now apply node_fnb.
  Qed.

  Theorem parse_words toks tree : Forall tgood toks -> parse ctx toks = Ok tree ->
    fnb (create_box tree) = true.
  Proof.
    intros Hg H. unfold parse in H. apply bindr_ok in H as ([a r] & E & H). injection H as <-.
    destruct (body_Fn (parse_fuel toks)) as [Hb _]. apply Hb in E; auto. now apply node_fnb.
  Qed.
End Words.

