(** * OffSpan: the statements of a file and the tokens they were parsed from *)
From Verif Require Import Base Regex Lex LexProofs PropLex TextOps Tree Parse ParseProofs PropParse.

(** ** The items of a file: statements, comments, blanks and format switches, in
    order, with the nesting of bodies and blocks removed *)
Fixpoint tops (n : pnode) : list pnode :=
  match n with
  | N KBody cs | N KFlow cs => flat_map tops cs
  | _ => [n]
  end.
Definition switched (l : list token) : bool := existsb is_onoff l.
Definition is_switch_node (n : pnode) : bool :=
  match n with N KOnOff [T t] => is_onoff t | _ => false end.
Definition item_k (k : kind) : bool :=
  match k with KWhitespace | KComment _ | KStatement _ | KAtStmt => true | _ => false end.

(** one item and its tokens *)
Inductive chunk : list token -> pnode -> Prop :=
| ch_switch t : is_onoff t = true -> chunk [t] (N KOnOff [T t])
| ch_item u k cs : item_k k = true -> switched u = switched (flats cs) -> chunk u (N k cs).
Inductive span : list token -> list pnode -> Prop :=
| sp_nil : span nil nil
| sp_item u n us ns : chunk u n -> span us ns -> span (u ++ us) (n :: ns)
| sp_bom t us ns : tt t = BYTEORDER_MARK -> span us ns -> span (t :: us) ns.
Lemma span_app a m : span a m -> forall b n, span b n -> span (a ++ b) (m ++ n).
Proof.
  induction 1; intros b m' H'; auto.
  - rewrite <- app_assoc. cbn. constructor; auto.
  - cbn. apply sp_bom; auto.
Qed.
Lemma span_one u n : chunk u n -> span u [n].
Proof. intros H. rewrite <- (app_nil_r u). constructor; auto. constructor. Qed.

(** ** Whether a node holds a switch is known from its tokens *)
Definition R_sw (a b : list token) : Prop := switched a = switched b.
Lemma R_sw_refl l : R_sw l l. Proof. reflexivity. Qed.
Lemma R_sw_app a b c d : R_sw a b -> R_sw c d -> R_sw (a ++ c) (b ++ d).
Proof. unfold R_sw, switched. rewrite !existsb_app. now intros -> ->. Qed.
Definition any_toks (l : list token) : Prop := True.

Lemma tuple_sw ctx fuel : forall np ntup flags bs c nt acc sub late toks a r,
  tuple_loop fuel ctx np ntup flags bs c nt acc sub late toks = Ok (a, r) ->
  exists used, toks = used ++ r
    /\ switched (flats a) = switched (flats (close_sub flags acc sub late)) || switched used.
Proof.
  unfold switched.
  induction fuel as [|f IH]; intros np ntup flags bs c nt acc sub late toks a r H; [discriminate|].
  cbn [tuple_loop] in H.
  assert (D : forall r0, Ok (close_sub flags acc sub late, r0) = Ok (a, r) ->
    exists used, r0 = used ++ r
    /\ existsb is_onoff (flats a) = existsb is_onoff (flats (close_sub flags acc sub late)) || existsb is_onoff used).
  { intros r0 E. injection E as <- <-. exists nil. split; auto. now rewrite orb_false_r. }
  destruct toks as [|t toks]; [now apply D|].
  apply bindr_ok in H as (full & _ & H).
  destruct full; [now apply D|].
  destruct (should_break t bs); [now apply D|]. clear D.
  assert (Hs : forall x l, existsb is_onoff (flats (close_sub flags acc sub (late ++ [x]))) || existsb is_onoff l
     = existsb is_onoff (flats (close_sub flags acc sub late)) || existsb is_onoff (flat x ++ l)).
  { intros x l. rewrite !close_sub_flats, flats_app, !existsb_app. unfold flats at 4. cbn [flat_map].
    rewrite app_nil_r. repeat match goal with |- context [existsb is_onoff ?x] => generalize (existsb is_onoff x); intros [|] end; reflexivity. }
  destruct (is_ws t).
  { apply IH in H as (u & -> & ->). exists (t :: u). split; auto. now rewrite Hs. }
  destruct (is_comment t).
  { apply IH in H as (u & -> & ->). exists (t :: u). split; auto. now rewrite Hs. }
  destruct toks as [|t' toks']; [discriminate|].
  destruct (is_onoff t') eqn:Eo.
  { apply IH in H as (u & -> & ->). exists (t :: t' :: u). split; auto. rewrite Hs. cbn [flat flat_map app existsb]. rewrite Eo.
    now rewrite !orb_true_r. }
  clear Hs.
  destruct (match sub with Some cs => (acc, cs, late, nt) | None => _ end) as [[[acc1 sub1] late1] nt1] eqn:Es.
  assert (E0 : existsb is_onoff (flats (close_sub flags acc sub late))
     = existsb is_onoff (flats acc1) || existsb is_onoff (flats sub1) || existsb is_onoff (flats late1)).
  { rewrite close_sub_flats. destruct sub as [cs|]; injection Es as <- <- <- <-;
      rewrite ?flats_app, !existsb_app; cbn; rewrite ?orb_assoc, ?orb_false_r; reflexivity. }
  destruct (consume_trailing ctx (t' :: toks')) as [tr r1] eqn:E.
  apply (consume_trailing_Q R_sw R_sw_refl R_sw_app) in E as (u & Eu & Ru).
  unfold R_sw, switched in Ru.
  assert (E1 : forall k v, existsb is_onoff (flats (close_sub flags acc1 (Some (sub1 ++ [N k (T t :: tr)])) late1))
     || existsb is_onoff v
     = existsb is_onoff (flats (close_sub flags acc sub late)) || existsb is_onoff (t :: u ++ v)).
  { intros k v. rewrite E0, close_sub_flats, flats_app, flats1. change (flats (T t :: tr)) with (t :: flats tr).
    rewrite !existsb_app. cbn [existsb]. rewrite existsb_app, <- Ru.
    repeat match goal with |- context [existsb is_onoff ?x] => generalize (existsb is_onoff x); intros [|] end;
      destruct (is_onoff t); reflexivity. }
  rewrite Eu. destruct (_ >=? _); apply IH in H as (v & -> & ->); exists (t :: u ++ v); (split; [cbn; now rewrite app_assoc|]).
  - rewrite close_sub_flats at 1. cbn [flats flat_map app]. rewrite !app_nil_r. apply E1.
  - apply E1.
Qed.

Section Span.
  Variable ctx : pctx.
  Hypothesis Hctx : wfctx true ctx.
  Lemma tuple_R : true = true -> forall fuel np nt fl bs toks a r, any_toks toks ->
    tuple_loop fuel ctx np nt fl bs 0 0 nil None nil toks = Ok (a, r) -> Q R_sw toks r a.
  Proof.
    intros _ fuel np nt fl bs toks a r _ H. apply tuple_sw in H as (u & -> & H). exists u. split; [reflexivity|].
    unfold R_sw. now rewrite H.
  Qed.
  Lemma stmt_Q n toks x r : statement n ctx toks = Ok (x, r) -> Q R_sw toks r [x].
  Proof.
    intros H. refine (statement_Q R_sw R_sw_refl R_sw_app any_toks _ true ctx tuple_R _ n toks x r I H).
    - easy.
    - intros t r' _. now apply command_parser_wf.
  Qed.
  Lemma stmt_chunk n toks x r : statement n ctx toks = Ok (x, r) ->
    exists u, toks = u ++ r /\ chunk u x /\ tops x = [x].
  Proof.
    intros H. pose proof (stmt_Q _ _ _ _ H) as (u & E & HR). exists u. split; auto.
    assert (exists s cs, x = N (KStatement s) cs) as (s & cs & ->).
    { unfold statement in H. destruct toks as [|fn r0]; [discriminate|]. destruct (take_ws r0) as [ws r1].
      destruct r1 as [|lp r1]; [discriminate|]. destruct (negb _); [discriminate|].
      destruct (take_ws r1) as [ws2 r2]. apply bindr_ok in H as ([args r3] & _ & H).
      apply bindr_ok in H as ([tl r4] & _ & H). destruct r4 as [|rp r5]; [discriminate|].
      destruct (consume_trailing ctx r5) as [tr r6]. injection H as <- <-. eauto. }
    split; auto. apply ch_item; auto. rewrite flats1 in HR. exact HR.
  Qed.
  Lemma comment_chunk toks x r : consume_comment toks = Ok (x, r) ->
    exists u, toks = u ++ r /\ chunk u x /\ tops x = [x].
  Proof.
    intros H. pose proof (consume_comment_Q R_sw R_sw_refl R_sw_app _ _ _ H) as (u & E & HR).
    exists u. split; auto.
    assert (exists cs, x = N (KComment false) cs) as (cs & ->).
    { unfold consume_comment in H. destruct toks as [|t toks]; [discriminate|].
      destruct (tmem _ _); [injection H as <- <-; eauto|].
      destruct (cloop _ _ _) as [[|a l] r0]; [discriminate|]. injection H as <- <-. eauto. }
    split; auto. apply ch_item; auto. rewrite flats1 in HR. exact HR.
  Qed.

  Definition spans (acc : list pnode) (toks : list token) (a : list pnode) (r : list token) : Prop :=
    exists new u, a = acc ++ new /\ toks = u ++ r /\ span u (flat_map tops new).
  Lemma spans_done acc toks : spans acc toks acc toks.
  Proof. exists nil, nil. rewrite app_nil_r. repeat split; auto. constructor. Qed.
  Lemma spans_step acc toks x u r a r' :
    toks = u ++ r -> span u (flat_map tops x) -> spans (acc ++ x) r a r' -> spans acc toks a r'.
  Proof.
    intros -> H (new & v & -> & -> & S). exists (x ++ new), (u ++ v). rewrite !app_assoc. repeat split; auto.
    rewrite flat_map_app. now apply span_app.
  Qed.
  Lemma spans_item acc toks x u r a r' :
    toks = u ++ r -> chunk u x -> tops x = [x] -> spans (acc ++ [x]) r a r' -> spans acc toks a r'.
  Proof.
    intros E C T H. eapply spans_step; eauto. cbn. rewrite T. now apply span_one.
  Qed.

  Lemma body_span n :
    (forall bset acc toks a r, body_loop n ctx bset acc toks = Ok (a, r) -> spans acc toks a r)
    /\ (forall toks x r, flow n ctx toks = Ok (x, r) -> exists u, toks = u ++ r /\ span u (tops x))
    /\ (forall acc toks a r, if_loop n ctx acc toks = Ok (a, r) -> spans acc toks a r).
  Proof.
    induction n as [|m (IHb & IHf & IHi)]; [split; [|split]; intros; discriminate|].
    split; [|split].
    - intros bset acc toks a r H. cbn [body_loop] in H.
      destruct toks as [|t toks]; [injection H as <- <-; apply spans_done|].
      destruct (is_ws t).
      { destruct (take_ws (t :: toks)) as [ws r0] eqn:Ew.
        apply (take_ws_Q R_sw R_sw_refl R_sw_app) in Ew as (u & Eu & Ru).
        eapply (spans_item _ _ (N KWhitespace ws)); [exact Eu|apply ch_item; [reflexivity|exact Ru]|reflexivity|eauto]. }
      destruct (is_tt COMMENT t).
      { apply bindr_ok in H as ([c r1] & E & H). apply comment_chunk in E as (u & Eu & Cu & Tu).
        eapply spans_item; eauto. }
      destruct (is_onoff t) eqn:Eo.
      { eapply (spans_item _ _ (N KOnOff [T t]) [t]); [reflexivity|now apply ch_switch|reflexivity|eauto]. }
      destruct (is_tt BRACKET_COMMENT t).
      { apply bindr_ok in H as ([c r1] & E & H). apply comment_chunk in E as (u & Eu & Cu & Tu).
        eapply spans_item; eauto. }
      destruct (is_tt WORD t).
      { destruct (smem _ bset); [injection H as <- <-; apply spans_done|].
        destruct (smem _ flow_names).
        - apply bindr_ok in H as ([sub r1] & E & H). apply IHf in E as (u & Eu & Su).
          eapply spans_step; eauto. cbn. now rewrite app_nil_r.
        - apply bindr_ok in H as ([sub r1] & E & H). apply stmt_chunk in E as (u & Eu & Cu & Tu).
          eapply spans_item; eauto. }
      destruct (is_tt ATWORD t).
      { apply bindr_ok in H as ([sub r1] & E & H). unfold atword_statement in E.
        destruct (consume_trailing ctx toks) as [tr r2] eqn:Et.
        apply (consume_trailing_Q R_sw R_sw_refl R_sw_app) in Et as (u & Eu & Ru).
        injection E as <- <-. subst toks.
        eapply (spans_item _ _ (N KAtStmt (N KAtWord [T t] :: tr)) (t :: u)); [reflexivity| |reflexivity|eauto].
        apply ch_item; auto. unfold switched in *. cbn. f_equal. exact Ru. }
      destruct (is_tt BYTEORDER_MARK t) eqn:Eb; [|discriminate].
      apply IHb in H. eapply (spans_step _ _ nil [t]); [reflexivity| |now rewrite app_nil_r].
      cbn. apply sp_bom; [|constructor]. unfold is_tt in Eb. destruct (tt t); try discriminate; auto.
    - intros toks x r H. cbn [flow] in H.
      destruct toks as [|t toks]; [discriminate|].
      destruct (seqb _ _).
      + apply bindr_ok in H as ([a r1] & E & H). injection H as <- <-.
        apply IHi in E as (new & u & -> & -> & S). exists u. auto.
      + apply bindr_ok in H as ([op r1] & E & H). apply stmt_chunk in E as (u1 & E1 & C1 & T1).
        apply bindr_ok in H as ([bd r2] & E2 & H). apply IHb in E2 as (new & u2 & -> & -> & S2).
        apply bindr_ok in H as ([cl r3] & E3 & H). apply stmt_chunk in E3 as (u3 & -> & C3 & T3).
        injection H as <- <-. exists (u1 ++ u2 ++ u3). split; [now rewrite E1, !app_assoc|].
        cbn. rewrite T1, T3. constructor; auto. apply span_app; auto. now apply span_one.
    - intros acc toks a r H. cbn [if_loop] in H.
      destruct toks as [|t toks]; [injection H as <- <-; apply spans_done|].
      destruct (seqb _ _).
      + apply bindr_ok in H as ([cl r1] & E & H). injection H as <- <-.
        apply stmt_chunk in E as (u & Eu & Cu & Tu). eapply spans_item; eauto. apply spans_done.
      + apply bindr_ok in H as ([op r1] & E & H). apply stmt_chunk in E as (u1 & E1 & C1 & T1).
        apply bindr_ok in H as ([bd r2] & E2 & H). apply IHb in E2 as (new & u2 & -> & -> & S2).
        apply IHi in H. eapply (spans_step _ _ [op; N KBody new] (u1 ++ u2)); [|  |exact H].
        * rewrite E1. now rewrite app_assoc.
        * cbn. rewrite T1, app_nil_r. constructor; auto.
  Qed.

  Theorem parse_span toks tree : parse ctx toks = Ok tree -> span toks (tops tree).
  Proof.
    unfold parse. intros H. apply bindr_ok in H as ([a r] & E & H). injection H as <-.
    pose proof (body_all _ _ _ _ _ _ E) as ->.
    apply body_span in E as (new & u & -> & -> & S). rewrite app_nil_r. exact S.
  Qed.
End Span.
