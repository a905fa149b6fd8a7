(** * ArgShape: statements contain no bodies, blocks or statements *)
From Verif Require Import Base Regex Lex TextOps Tree Parse ParseProofs PropBlocks.

Definition blockk (k : kind) : bool :=
  match k with KBody | KFlow | KStatement _ => true | _ => false end.
(** no body, block or statement anywhere in the tree *)
Fixpoint inner (n : pnode) : bool :=
  match n with T _ => true | N k cs => negb (blockk k) && forallb inner cs end.
Definition Q (n : pnode) : Prop := inner n = true.
Lemma Q_N k cs : blockk k = false -> Forall Q cs -> Q (N k cs).
Proof.
  intros Hk H. unfold Q. cbn [inner]. rewrite Hk. cbn [negb andb]. apply forallb_forall. now apply Forall_forall.
Qed.
Lemma Q_T t : Q (T t). Proof. reflexivity. Qed.
Lemma snocQ acc x : Forall Q acc -> Q x -> Forall Q (acc ++ [x]).
Proof. intros. apply Forall_app. auto. Qed.
Lemma appQ a b : Forall Q a -> Forall Q b -> Forall Q (a ++ b).
Proof. intros. apply Forall_app. auto. Qed.
Lemma consQ a b : Q a -> Forall Q b -> Forall Q (a :: b).
Proof. auto. Qed.
Lemma nilQ : Forall Q nil. Proof. auto. Qed.
Lemma argQ (b : bool) cs : Forall Q cs -> Q (N (if b then KFlag else KArgument) cs).
Proof. intros. destruct b; apply Q_N; auto. Qed.
Create HintDb qdb.
#[local] Hint Resolve snocQ appQ consQ nilQ Q_T argQ : qdb.
#[local] Hint Extern 2 (Q (N _ _)) => apply Q_N; [reflexivity|] : qdb.
Ltac qq := auto 12 with qdb.

Lemma take_ws_Q toks : forall a r, take_ws toks = (a, r) -> Forall Q a.
Proof.
  induction toks as [|t toks IH]; simpl; intros a r H; [injection H as <- <-; qq|].
  destruct (is_ws t); [|injection H as <- <-; qq].
  destruct (take_ws toks) as [a0 r0]. injection H as <- <-. specialize (IH _ _ eq_refl). qq.
Qed.
(** bodies, blocks and statements occur only in each other in the regular way *)
Fixpoint leveled (n : pnode) : bool :=
  match n with
  | T _ => false
  | N KBody cs | N KFlow cs => forallb leveled cs
  | N (KStatement _) cs =>
      forallb inner cs && match cs with N KFunname [T t] :: _ => is_tt WORD t | _ => false end
  | N k cs => inner (N k cs)
  end.
Lemma inner_leveled k cs : Q (N k cs) -> leveled (N k cs) = true.
Proof. unfold Q. intros H. destruct k; try exact H; discriminate H. Qed.

Section Args.
  Variable ctx : pctx.

  Lemma cloop_Q p : forall k toks, (List.length toks <= k)%nat ->
    forall al a r, cloop p al toks = (a, r) -> Forall Q a.
  Proof.
    induction k as [|k IH]; intros toks Hk al a r H.
    - destruct toks; [|simpl in Hk; lia]. injection H as <- <-. qq.
    - destruct toks as [|t toks]; [injection H as <- <-; qq|]. simpl in Hk. cbn [cloop] in H.
      destruct al as [col0|]; [destruct (is_tt NEWLINE t); [destruct toks as [|t2 toks]|]|];
      repeat match type of H with
      | (match ?x with _ => _ end) = _ => destruct x eqn:?
      | (let (_, _) := ?x in _) = _ => destruct x eqn:?
      end; try (injection H as <- <-); qq;
      repeat match goal with E : cloop _ _ _ = _ |- _ => apply IH in E; [|simpl in *; lia] end; qq.
  Qed.
  Lemma consume_comment_Q toks c r : consume_comment toks = Ok (c, r) -> Q c.
  Proof.
    unfold consume_comment. destruct toks as [|t toks]; [discriminate|]. intros H.
    destruct (tmem _ _).
    - injection H as <- <-. qq.
    - destruct (cloop _ _ _) as [[|n a0] r0] eqn:E; [discriminate|]. injection H as <- <-.
      pose proof (cloop_Q _ _ _ (le_n _) _ _ _ E). qq.
  Qed.
  Lemma exloop_Q toks : forall a r, exloop ctx toks = (a, r) -> Forall Q a.
  Proof.
    induction toks as [|t toks IH]; intros a r H.
    - simpl in H. injection H as <- <-. qq.
    - cbn [exloop] in H. destruct (next_is_explicit ctx (t :: toks)).
      + destruct (exloop ctx toks) as [a0 r0]. injection H as <- <-. specialize (IH _ _ eq_refl). qq.
      + injection H as <- <-. qq.
  Qed.
  Lemma consume_trailing_Q toks a r : consume_trailing ctx toks = (a, r) -> Forall Q a.
  Proof.
    intros H. unfold consume_trailing in H. destruct (negb _).
    { injection H as <- <-. qq. }
    destruct (next_is_explicit ctx toks).
    - destruct (take_ws toks) as [ws r0] eqn:E. apply take_ws_Q in E.
      destruct (exloop ctx r0) as [a0 r1] eqn:E2. apply exloop_Q in E2. injection H as <- <-. qq.
    - assert (exists ws r2, match toks with
        | t :: r0 => if is_tt WHITESPACE t then ([T t], r0) else (nil, toks)
        | nil => (nil, nil) end = (ws, r2) /\ Forall Q ws) as (ws & r2 & E & Hw).
      { destruct toks as [|t0 r0]; [|destruct (is_tt WHITESPACE t0)]; eexists; eexists; split; try reflexivity; qq. }
      rewrite E in H. destruct (cloop is_valid_trailing None r2) as [a0 r1] eqn:E2.
      apply (cloop_Q _ _ _ (le_n _)) in E2. injection H as <- <-. qq.
  Qed.
  Lemma take_wsc_Q fuel : forall toks a r, take_wsc fuel toks = Ok (a, r) -> Forall Q a.
  Proof.
    induction fuel as [|f IH]; simpl; intros toks a r H; [discriminate|].
    destruct toks as [|t toks]; [injection H as <- <-; qq|].
    destruct (is_ws t).
    { apply bindr_ok in H as ([a0 r0] & E & H). injection H as <- <-. apply IH in E. qq. }
    destruct (is_comment t).
    { apply bindr_ok in H as ([c r0] & E & H). apply bindr_ok in H as ([a1 r1] & E1 & H).
      injection H as <- <-. apply consume_comment_Q in E. apply IH in E1. qq. }
    destruct (is_onoff t).
    { apply bindr_ok in H as ([a0 r0] & E & H). injection H as <- <-. apply IH in E. qq. }
    injection H as <- <-. qq.
  Qed.
  Lemma flag_loop_Q fuel flags bs : forall acc toks a r, Forall Q acc ->
    flag_loop fuel ctx flags bs acc toks = Ok (a, r) -> Forall Q a.
  Proof.
    induction fuel as [|f IH]; simpl; intros acc toks a r Ha H; [discriminate|].
    destruct toks as [|t toks]; [injection H as <- <-; qq|].
    destruct (should_break t bs); [injection H as <- <-; qq|].
    destruct (is_ws t); [eapply IH; [|exact H]; qq|].
    destruct (negb _); [injection H as <- <-; qq|].
    destruct (consume_trailing ctx toks) as [tr r0] eqn:E. apply consume_trailing_Q in E.
    eapply IH; [|exact H]. qq.
  Qed.
  Lemma close_sub_Q flags acc sub late :
    Forall Q acc -> (forall cs, sub = Some cs -> Forall Q cs) -> Forall Q late ->
    Forall Q (close_sub flags acc sub late).
  Proof.
    intros Ha Hs Hl. unfold close_sub. destruct sub as [cs|]; [|qq]. specialize (Hs _ eq_refl). qq.
  Qed.
  Lemma tuple_loop_Q fuel npargs ntup flags bs : forall np nt acc sub late toks a r,
    Forall Q acc -> (forall cs, sub = Some cs -> Forall Q cs) -> Forall Q late ->
    tuple_loop fuel ctx npargs ntup flags bs np nt acc sub late toks = Ok (a, r) -> Forall Q a.
  Proof.
    induction fuel as [|f IH]; intros np nt acc sub late toks a r Ha Hs Hl H; [discriminate|].
    cbn [tuple_loop] in H.
    assert (Hd : Ok (close_sub flags acc sub late, toks) = Ok (a, r) -> Forall Q a).
    { intros H'. injection H' as <- <-. now apply close_sub_Q. }
    destruct toks as [|t toks]; [auto|].
    apply bindr_ok in H as (full & _ & H).
    destruct full; [auto|]. destruct (should_break t bs); [auto|].
    destruct (is_ws t).
    { eapply IH; [| | |exact H]; qq. }
    destruct (is_comment t).
    { eapply IH; [| | |exact H]; qq. }
    destruct toks as [|t' toks]; [discriminate|].
    destruct (is_onoff t').
    { eapply IH; [| | |exact H]; qq. }
    assert (H1 : exists acc1 sub1 late1 nt1, Forall Q acc1 /\ Forall Q sub1 /\ Forall Q late1 /\
      match sub with Some cs => (acc, cs, late, nt) | None => (acc ++ late, nil, nil, 0) end
      = (acc1, sub1, late1, nt1)).
    { destruct sub as [cs|].
      - exists acc, cs, late, nt. auto.
      - exists (acc ++ late), nil, nil, 0. qq. }
    destruct H1 as (acc1 & sub1 & late1 & nt1 & A1 & S1 & L1 & E1). rewrite E1 in H.
    destruct (consume_trailing ctx (t' :: toks)) as [tr r0] eqn:E. apply consume_trailing_Q in E.
    assert (S2 : Forall Q (sub1 ++ [N (if kwarg_in t flags then KFlag else KArgument) (T t :: tr)])) by qq.
    destruct (_ >=? _).
    - eapply IH; [| | |exact H]; auto; [|discriminate].
      apply close_sub_Q; auto. intros cs' E'. injection E' as <-. exact S2.
    - eapply IH; [| | |exact H]; auto. intros cs' E'. injection E' as <-. exact S2.
  Qed.

  Definition aQ (m : amach) : Prop :=
    Forall Q (a_tree m) /\ Forall Q (a_g1 m)
    /\ (forall s cs, a_g2 m = Some (s, cs) -> Forall Q cs) /\ Forall Q (a_tail m).
  Lemma a_done_Q m : aQ m -> Forall Q (a_done m).
  Proof.
    intros (A & B & C & E). unfold a_done. apply appQ; auto. apply appQ.
    { destruct (_ =? _); qq. }
    apply appQ; auto. destruct (a_g2 m) as [[s cs]|]; qq.
    apply consQ; qq. unfold srcgroup. apply Q_N; eauto.
  Qed.
  Lemma a_append_Q m n : Q n -> aQ m -> aQ (a_append m n).
  Proof.
    intros HA (A & B & C & E). unfold a_append. destruct m as [st so tr g1 g2 tl at_]; simpl in *.
    destruct at_; [|destruct g2 as [[s cs]|]; [|destruct (_ =? _)]]; unfold aQ; simpl;
      (split; [|split; [|split]]); auto using snocQ; try discriminate.
    intros s' cs' E'. injection E' as <- <-. apply snocQ; eauto.
  Qed.
  Ltac aok := unfold aQ; simpl; (split; [|split; [|split]]); auto; try discriminate.
  Lemma add_loop_Q islib bs fuel : forall m toks a r,
    aQ m -> add_loop fuel ctx islib bs m toks = Ok (a, r) -> Forall Q a.
  Proof.
    induction fuel as [|f IH]; intros m toks a r W0 H; [discriminate|].
    cbn [add_loop] in H.
    destruct toks as [|t toks]; [injection H as <- <-; auto using a_done_Q|].
    destruct (is_tt RIGHT_PAREN t); [injection H as <- <-; auto using a_done_Q|].
    destruct (is_ws t).
    { eapply IH; [|exact H]; eauto. apply a_append_Q; qq. }
    destruct (is_comment t).
    { match type of H with context [AMach _ ?s _ _ _ _ _] => set (so := s) in H end.
      set (m0 := a_append m (N (KComment false) [T t])) in H.
      assert (aQ m0). { apply a_append_Q; qq. }
      eapply IH; [|exact H]; eauto. }
    destruct (consume_trailing ctx toks) as [tr' r0] eqn:E. apply consume_trailing_Q in E.
    destruct m as [st so tr g1 g2 tl at_]. cbn [a_st a_sort a_tree a_g1 a_g2 a_tail a_at_tree] in H.
    destruct W0 as (W1 & W2 & W3 & W4). simpl in W1, W2, W3, W4.
    assert (Harg : Q (N KArgument (T t :: tr'))) by qq.
    assert (Hflag : Q (N KFlag (T t :: tr'))) by qq.
    assert (Hnil : forall s cs, Some (so, @nil pnode) = Some (s, cs) -> Forall Q cs).
    { intros s cs E'. injection E' as <- <-. auto. }
    destruct (st =? 1).
    { eapply IH; [|exact H]; auto. aok. }
    destruct (st =? 2).
    { destruct islib.
      - destruct (kwarg_in t lib_types); (eapply IH; [|exact H]; auto; aok; auto using snocQ).
      - destruct (kwarg_in t exe_flags); (eapply IH; [|exact H]; auto; aok; auto using snocQ). }
    destruct (st =? 3).
    { destruct (kwarg_in t _); (eapply IH; [|exact H]; auto; aok; auto using snocQ). }
    eapply IH; [|exact H]; auto. aok.
    intros s cs E'. destruct g2 as [[s2 cs2]|]; injection E' as <- <-; auto.
    apply snocQ; eauto.
  Qed.

  Lemma add_tag_Q tag n : Q n -> Q (add_tag tag n).
  Proof. destruct n as [t|k cs]; [auto|]. destruct k; auto. Qed.
  Lemma add_tags_Q tags : forall n, Q n -> Q (add_tags tags n).
  Proof. unfold add_tags. induction tags as [|t tags IH]; simpl; auto using add_tag_Q. Qed.

  Record Tq (n : nat) : Prop := {
    tq_call : forall p bs nested toks x r, call n ctx p bs nested toks = Ok (x, r) -> Q x;
    tq_std : forall dflt kw bs kbs nested pargs acc toks a r, Forall Q acc ->
      std_loop n ctx dflt kw bs kbs nested pargs acc toks = Ok (a, r) -> Forall Q a;
    tq_posg : forall sp bs nested toks x r, pos_group n ctx sp bs nested toks = Ok (x, r) -> Q x;
    tq_pos : forall sp bs nested nc acc toks a r, Forall Q acc ->
      pos_loop n ctx sp bs nested nc acc toks = Ok (a, r) -> Forall Q a;
    tq_cond : forall bs acc toks a r, Forall Q acc -> cond_loop n ctx bs acc toks = Ok (a, r) -> Forall Q a;
    tq_kw : forall w p bs toks x r, kwgroup n ctx w p bs toks = Ok (x, r) -> Q x;
    tq_paren : forall toks x r, paren n ctx toks = Ok (x, r) -> Q x;
    tq_seq : forall items lp bs nested acc toks a r, Forall Q acc ->
      seq_items n ctx items lp bs nested acc toks = Ok (a, r) -> Forall Q a;
    tq_gl : forall keep step bs nested acc toks a r, Forall Q acc ->
      gloop n ctx keep step bs nested acc toks = Ok (a, r) -> Forall Q a }.

  Ltac fin H := injection H as <- <-; qq.
  Lemma all_Tq n : Tq n.
  Proof.
    induction n as [|m IH]; [constructor; intros; discriminate|].
    constructor.
    - (* call *)
      intros p bs nested toks x r H. cbn [call] in H.
      destruct (resolve p toks) as [cs kw|sp|np nt fl| | | |e|f|items lp| |so|so].
      + destruct (take_ws toks) as [ws r0] eqn:Ew. apply take_ws_Q in Ew.
        destruct (split_default (cs_pargs cs)) as [dflt pargs].
        apply bindr_ok in H as ([a r1] & E & H). injection H as <- <-.
        apply tq_std in E; qq.
      + now apply tq_posg in H.
      + apply bindr_ok in H as ([a r1] & E & H). injection H as <- <-.
        apply tuple_loop_Q in E; qq. discriminate.
      + destruct (take_ws toks) as [ws r0] eqn:Ew. apply take_ws_Q in Ew.
        cbn [split_default cs_pargs legacy_cspec ps_legacy ps_nargs is_exact negb andb] in H.
        apply bindr_ok in H as ([a r1] & E & H). injection H as <- <-.
        apply tq_std in E; qq. apply Q_N; auto.
        rewrite Forall_map. eapply Forall_impl; [|exact E]. intros; now apply add_tag_Q.
      + destruct (take_ws toks) as [ws r0] eqn:Ew. apply take_ws_Q in Ew.
        apply bindr_ok in H as ([a r1] & E & H). injection H as <- <-.
        apply tq_cond in E; qq.
      + injection H as <- <-. qq.
      + discriminate.
      + discriminate.
      + apply bindr_ok in H as ([a r1] & E & H). injection H as <- <-. apply tq_seq in E; qq.
      + apply bindr_ok in H as ([a r1] & E & H). injection H as <- <-. apply tq_seq in E; qq.
      + destruct (take_ws toks) as [ws r0] eqn:Ew. apply take_ws_Q in Ew.
        apply bindr_ok in H as ([a r1] & E & H). injection H as <- <-.
        apply add_loop_Q in E; [qq|aok].
      + destruct (take_ws toks) as [ws r0] eqn:Ew. apply take_ws_Q in Ew.
        apply bindr_ok in H as ([a r1] & E & H). injection H as <- <-.
        apply add_loop_Q in E; [qq|aok].
    - (* std_loop *)
      intros dflt kw bs kbs nested pargs acc toks a r Ha H. cbn [std_loop] in H.
      destruct toks as [|t toks]; [fin H|].
      destruct (is_ws t). { eapply tq_std; [exact IH| |exact H]; qq. }
      destruct (is_comment t).
      { destruct (belongs_up _ _ _ _); [fin H|].
        apply bindr_ok in H as ([c r1] & E & H). apply consume_comment_Q in E.
        eapply tq_std; [exact IH| |exact H]; qq. }
      destruct (is_onoff t).
      { eapply tq_std; [exact IH| |exact H]; qq. }
      destruct (should_break t bs && _); [fin H|].
      destruct (match normalized_kwarg t with Some _ => _ | None => _ end) as [[w p]|].
      + apply bindr_ok in H as ([sub r1] & E & H). apply tq_kw in E; auto.
        destruct (_ <=? _)%nat; [discriminate|].
        eapply tq_std; [exact IH| |exact H]; qq.
      + apply bindr_ok in H as ([sub r1] & E & H). apply tq_posg in E; auto.
        destruct (_ <=? _)%nat; [discriminate|].
        eapply tq_std; [exact IH| |exact H]; qq.
    - (* pos_group *)
      intros sp bs nested toks x r H. cbn [pos_group] in H.
      destruct (take_ws toks) as [ws r0] eqn:Ew. apply take_ws_Q in Ew.
      apply bindr_ok in H as ([a r1] & E & H). injection H as <- <-.
      apply tq_pos in E; qq.
    - (* pos_loop *)
      intros sp bs nested nc acc toks a r Ha H. cbn [pos_loop] in H.
      destruct toks as [|t toks]; [fin H|].
      apply bindr_ok in H as (full & _ & H).
      destruct full; [fin H|].
      destruct (should_break t bs && _); [fin H|].
      destruct (is_tt LEFT_PAREN t).
      { apply bindr_ok in H as ([sub r1] & E & H). apply tq_paren in E; auto.
        eapply tq_pos; [exact IH| |exact H]; qq. }
      destruct (is_ws t).
      { eapply tq_pos; [exact IH| |exact H]; qq. }
      destruct (is_comment t).
      { destruct (belongs_up _ _ _ _); [fin H|].
        apply bindr_ok in H as ([c r1] & E & H). apply consume_comment_Q in E.
        eapply tq_pos; [exact IH| |exact H]; qq. }
      destruct (is_onoff t).
      { eapply tq_pos; [exact IH| |exact H]; qq. }
      destruct (consume_trailing ctx toks) as [tr r1] eqn:E. apply consume_trailing_Q in E.
      eapply tq_pos; [exact IH| |exact H]; qq.
    - (* cond_loop *)
      intros bs acc toks a r Ha H. cbn [cond_loop] in H.
      destruct toks as [|t toks]; [fin H|].
      destruct (should_break t bs); [fin H|].
      destruct (is_ws t). { eapply tq_cond; [exact IH| |exact H]; qq. }
      destruct (is_comment t). { eapply tq_cond; [exact IH| |exact H]; qq. }
      destruct (is_onoff t). { eapply tq_cond; [exact IH| |exact H]; qq. }
      destruct (is_tt LEFT_PAREN t).
      { apply bindr_ok in H as ([sub r1] & E & H). apply tq_paren in E; auto.
        eapply tq_cond; [exact IH| |exact H]; qq. }
      destruct (kwarg_in t cond_words).
      + apply bindr_ok in H as ([sub r1] & E & H). apply tq_kw in E; auto.
        destruct (_ <=? _)%nat; [discriminate|].
        eapply tq_cond; [exact IH| |exact H]; qq.
      + apply bindr_ok in H as ([sub r1] & E & H). apply tq_posg in E; auto.
        eapply tq_cond; [exact IH| |exact H]; qq.
    - (* kwgroup *)
      intros w p bs toks x r H. cbn [kwgroup] in H.
      destruct toks as [|t toks]; [discriminate|].
      destruct (negb _); [discriminate|].
      destruct (take_ws toks) as [ws r0] eqn:Ew. apply take_ws_Q in Ew.
      apply bindr_ok in H as ([sub r1] & E & H). apply (tq_call _ IH) in E.
      injection H as <- <-. apply Q_N; auto. apply consQ; qq. apply appQ; auto. destruct (_ <? _)%nat; qq.
    - (* paren *)
      intros toks x r H. cbn [paren] in H.
      destruct toks as [|t toks]; [discriminate|].
      destruct (negb _); [discriminate|].
      apply bindr_ok in H as ([sub r1] & E & H). apply (tq_call _ IH) in E.
      destruct r1 as [|t2 r1]; [discriminate|].
      destruct (negb _); [discriminate|].
      destruct (consume_trailing ctx r1) as [tr r2] eqn:Et. apply consume_trailing_Q in Et.
      injection H as <- <-. qq.
    - (* seq_items *)
      intros items lp bs nested acc toks a r Ha H. cbn [seq_items] in H.
      destruct items as [|it items].
      { destruct lp as [[keep step]|]; [|fin H]. eapply tq_gl; eauto. }
      destruct it as [| |sp extra must].
      + destruct (take_ws toks) as [ws r0] eqn:Ew. apply take_ws_Q in Ew.
        eapply tq_seq; [exact IH| |exact H]; qq.
      + apply bindr_ok in H as ([ws r0] & Ew & H). apply take_wsc_Q in Ew.
        eapply tq_seq; [exact IH| |exact H]; qq.
      + apply bindr_ok in H as ([sub r1] & E & H). apply tq_posg in E; auto.
        destruct (must && _); [discriminate|].
        eapply tq_seq; [exact IH| |exact H]; qq.
    - (* gloop *)
      intros keep step bs nested acc toks a r Ha H. cbn [gloop] in H.
      destruct toks as [|t toks]; [fin H|].
      destruct (should_break t bs); [fin H|].
      destruct (is_ws t). { eapply tq_gl; [exact IH| |exact H]; qq. }
      destruct (is_comment t && negb (keep t)). { eapply tq_gl; [exact IH| |exact H]; qq. }
      apply bindr_ok in H as ([sub r1] & E & H).
      destruct (_ <=? _)%nat; [discriminate|].
      assert (HQ : Q sub).
      { destruct (step acc (t :: toks)) as [w p extra chk|sp extra push tags|flags extra].
        - apply bindr_ok in E as ([sub0 r0] & E & E2). apply tq_kw in E; auto.
          destruct (chk sub0 r0); [discriminate|]. injection E2 as <- <-. auto.
        - apply bindr_ok in E as ([sub0 r0] & E & E2). apply tq_posg in E; auto.
          injection E2 as <- <-. auto using add_tags_Q.
        - apply bindr_ok in E as ([a0 r0] & E & E2). injection E2 as <- <-.
          apply flag_loop_Q in E; qq. }
      eapply tq_gl; [exact IH| |exact H]; qq.
  Qed.

  Lemma stmt_tail_Q fuel : forall toks a r, stmt_tail fuel toks = Ok (a, r) -> Forall Q a.
  Proof.
    induction fuel as [|f IH]; simpl; intros toks a r H; [discriminate|].
    destruct toks as [|t toks]; [discriminate|].
    destruct (is_tt RIGHT_PAREN t); [fin H|].
    destruct (is_ws t).
    { apply bindr_ok in H as ([a0 r0] & E & H). injection H as <- <-. apply IH in E. qq. }
    destruct (is_tt COMMENT t); [|discriminate].
    apply bindr_ok in H as ([c r0] & E & H). apply bindr_ok in H as ([a1 r1] & E1 & H).
    injection H as <- <-. apply consume_comment_Q in E. apply IH in E1. qq.
  Qed.

  (** ** Statements and bodies *)
  Definition wordy (toks : list token) : Prop := match toks with nil => True | t :: _ => is_tt WORD t = true end.
  Lemma statement_Q n toks x r : statement n ctx toks = Ok (x, r) -> wordy toks -> leveled x = true.
  Proof.
    intros H HW. unfold statement in H. destruct toks as [|fn r0]; [discriminate|].
    destruct (take_ws r0) as [ws r1] eqn:Ew. apply take_ws_Q in Ew.
    destruct r1 as [|lp r1]; [discriminate|].
    destruct (negb _); [discriminate|].
    destruct (take_ws r1) as [ws2 r2] eqn:Ew2. apply take_ws_Q in Ew2.
    apply bindr_ok in H as ([args r3] & E & H). apply (tq_call _ (all_Tq n)) in E.
    apply bindr_ok in H as ([tl r4] & Et & H). apply stmt_tail_Q in Et.
    destruct r4 as [|rp r5]; [discriminate|].
    destruct (consume_trailing ctx r5) as [tr r6] eqn:Etr. apply consume_trailing_Q in Etr.
    injection H as <- <-. cbn [leveled app]. apply andb_true_intro. split; [|exact HW].
    apply forallb_forall, Forall_forall. qq.
  Qed.
  Lemma atword_Q toks x r : atword_statement ctx toks = Ok (x, r) -> Q x.
  Proof.
    intros H. unfold atword_statement in H. destruct toks as [|t toks]; [discriminate|].
    destruct (consume_trailing ctx toks) as [tr r6] eqn:Etr. apply consume_trailing_Q in Etr.
    injection H as <- <-. qq.
  Qed.

  Lemma comment_N toks c r : consume_comment toks = Ok (c, r) -> exists b cs, c = N (KComment b) cs.
  Proof.
    unfold consume_comment. destruct toks as [|t toks]; [discriminate|]. intros H.
    destruct (tmem _ _); [injection H as <- <-; eauto|].
    destruct (cloop _ _ _) as [[|n a0] r0]; [discriminate|]. injection H as <- <-. eauto.
  Qed.
  Definition L (n : pnode) : Prop := leveled n = true.
  Lemma snocL acc x : Forall L acc -> L x -> Forall L (acc ++ [x]).
  Proof. intros. apply Forall_app. auto. Qed.
  Lemma bodyL k cs : k = KBody \/ k = KFlow -> Forall L cs -> L (N k cs).
  Proof. intros [-> | ->] H; unfold L; cbn [leveled]; now apply forallb_forall, Forall_forall. Qed.
  Lemma body_L n :
    (forall bset acc toks a r, Forall L acc -> body_loop n ctx bset acc toks = Ok (a, r) -> Forall L a /\ wordy r)
    /\ (forall toks x r, flow n ctx toks = Ok (x, r) -> wordy toks -> L x)
    /\ (forall acc toks a r, Forall L acc -> wordy toks -> if_loop n ctx acc toks = Ok (a, r) -> Forall L a).
  Proof.
    induction n as [|m (IHb & IHf & IHi)]; [split; [|split]; intros; discriminate|].
    split; [|split].
    - intros bset acc toks a r Ha H. cbn [body_loop] in H.
      destruct toks as [|t toks]; [injection H as <- <-; split; [auto|exact I]|].
      destruct (is_ws t).
      { destruct (take_ws (t :: toks)) as [ws r0] eqn:E. apply take_ws_Q in E.
        eapply IHb; [|exact H]. apply snocL; auto. apply inner_leveled, Q_N; auto. }
      destruct (is_tt COMMENT t).
      { apply bindr_ok in H as ([c r1] & E & H). destruct (comment_N _ _ _ E) as (b & cs & ->).
        apply consume_comment_Q in E. eapply IHb; [|exact H]. apply snocL; auto. }
      destruct (is_onoff t).
      { eapply IHb; [|exact H]. apply snocL; auto. reflexivity. }
      destruct (is_tt BRACKET_COMMENT t).
      { apply bindr_ok in H as ([c r1] & E & H). destruct (comment_N _ _ _ E) as (b & cs & ->).
        apply consume_comment_Q in E. eapply IHb; [|exact H]. apply snocL; auto. }
      destruct (is_tt WORD t) eqn:Ew.
      { destruct (smem _ bset); [injection H as <- <-; auto|].
        destruct (smem _ flow_names).
        - apply bindr_ok in H as ([sub r1] & E & H). apply IHf in E; [|exact Ew].
          eapply IHb; [|exact H]. apply snocL; auto.
        - apply bindr_ok in H as ([sub r1] & E & H). apply statement_Q in E; [|exact Ew].
          eapply IHb; [|exact H]. apply snocL; auto. }
      destruct (is_tt ATWORD t).
      { apply bindr_ok in H as ([sub r1] & E & H). pose proof (atword_Q _ _ _ E) as EQ.
        unfold atword_statement in E. destruct (consume_trailing ctx toks). injection E as <- <-.
        eapply IHb; [|exact H]. apply snocL; auto. }
      destruct (is_tt BYTEORDER_MARK t); [|discriminate].
      eapply IHb; [|exact H]; auto.
    - intros toks x r H HW. cbn [flow] in H.
      destruct toks as [|t toks]; [discriminate|].
      destruct (seqb _ _).
      + apply bindr_ok in H as ([a r1] & E & H). injection H as <- <-.
        apply IHi in E; auto. apply bodyL; auto.
      + apply bindr_ok in H as ([op r1] & E & H). apply statement_Q in E; [|exact HW].
        apply bindr_ok in H as ([bd r2] & E2 & H). apply IHb in E2 as [E2 HW2]; auto.
        apply bindr_ok in H as ([cl r3] & E3 & H). apply statement_Q in E3; [|exact HW2].
        injection H as <- <-. apply bodyL; auto. repeat (apply Forall_cons; auto). apply bodyL; auto.
    - intros acc toks a r Ha HW H. cbn [if_loop] in H.
      destruct toks as [|t toks]; [injection H as <- <-; auto|].
      destruct (seqb _ _).
      + apply bindr_ok in H as ([cl r1] & E & H). injection H as <- <-.
        apply statement_Q in E; [|exact HW]. now apply snocL.
      + apply bindr_ok in H as ([op r1] & E & H). apply statement_Q in E; [|exact HW].
        apply bindr_ok in H as ([bd r2] & E2 & H). apply IHb in E2 as [E2 HW2]; auto.
        eapply IHi; [|exact HW2|exact H]. apply Forall_app. split; auto.
        repeat (apply Forall_cons; auto). apply bodyL; auto.
  Qed.
  Theorem parse_leveled toks tree : parse ctx toks = Ok tree -> leveled tree = true.
  Proof.
    intros H. unfold parse in H. apply bindr_ok in H as ([a r] & E & H). injection H as <-.
    destruct (body_L (parse_fuel toks)) as [Hb _]. apply Hb in E as [E _]; auto.
    apply (bodyL KBody); auto.
  Qed.
End Args.
