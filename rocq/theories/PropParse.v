(** * PropParse: theorems about parsing (properties C05, C06) *)
From Coq Require Import Permutation.
From Verif Require Import Base Regex Lex LexProofs LexClass Tree Parse ParseProofs.

(** ** Instances of the accounting *)

Definition R_any (a b : list token) : Prop := True.
(** same tokens, and the arguments (semantic tokens) in the same order *)
Definition R_sem (a b : list token) : Prop := Permutation a b /\ semantics a = semantics b.

Lemma R_sem_refl l : R_sem l l. Proof. split; auto. Qed.
Lemma R_sem_app a b c d : R_sem a b -> R_sem c d -> R_sem (a ++ c) (b ++ d).
Proof.
  intros [P1 S1] [P2 S2]. split; [now apply Permutation_app|].
  unfold semantics in *. rewrite !filter_app. congruence.
Qed.

Definition no_bom (l : list token) : Prop := Forall (fun t => tt t <> BYTEORDER_MARK) l.
Definition no_onoff (l : list token) : Prop := Forall (fun t => is_onoff t = false) l.
Definition clean (l : list token) : Prop := no_bom l /\ no_onoff l.
Lemma no_bom_suffix a b : no_bom (a ++ b) -> no_bom b.
Proof. intros H. apply Forall_app in H. tauto. Qed.
Lemma clean_suffix a b : clean (a ++ b) -> clean b.
Proof. intros [H1 H2]. apply Forall_app in H1, H2. split; tauto. Qed.

(** *** Trailing comments hold no argument *)
Lemma nonsem_ws t : is_ws t = true -> is_semantic t = false.
Proof. unfold is_ws, is_semantic, tmem. destruct (tt t); simpl; auto; discriminate. Qed.
Lemma nonsem_comment t : is_comment t = true -> is_semantic t = false.
Proof. unfold is_comment, is_semantic, tmem. destruct (tt t); simpl; auto; discriminate. Qed.
Lemma nonsem_tt k t : is_tt k t = true -> tmem k [WHITESPACE; NEWLINE; COMMENT; BRACKET_COMMENT] = true ->
  is_semantic t = false.
Proof. unfold is_tt, is_semantic, tmem. destruct (tt t), k; simpl; auto; discriminate. Qed.

Definition nonsem (l : list pnode) : Prop := semantics (flats l) = nil.
Lemma nonsem_app a b : nonsem a -> nonsem b -> nonsem (a ++ b).
Proof. unfold nonsem, semantics. rewrite flats_app, filter_app. intros -> ->. reflexivity. Qed.
Lemma nonsem_tok t : is_semantic t = false -> nonsem [T t].
Proof. unfold nonsem, semantics, flats. simpl. now intros ->. Qed.
Lemma nonsem_cons t l : is_semantic t = false -> nonsem l -> nonsem (T t :: l).
Proof. intros. apply (nonsem_app [T t]); auto. now apply nonsem_tok. Qed.
Lemma nonsem_wrap k l : nonsem l -> nonsem [N k l].
Proof. unfold nonsem, flats at 1. simpl. now rewrite app_nil_r. Qed.

Lemma take_ws_nonsem toks : forall a r, take_ws toks = (a, r) -> nonsem a.
Proof.
  induction toks as [|t toks IH]; simpl; intros a r H; [now injection H as <- <-|].
  destruct (is_ws t) eqn:E; [|now injection H as <- <-].
  destruct (take_ws toks) as [a0 r0]. injection H as <- <-.
  apply nonsem_cons; eauto using nonsem_ws.
Qed.
Lemma cloop_nonsem p : (forall t, p t = true -> is_semantic t = false) ->
  forall k toks, (List.length toks <= k)%nat -> forall last a r, cloop p last toks = (a, r) -> nonsem a.
Proof.
  intros Hp. induction k as [|k IH]; intros toks Hk last a r H.
  - destruct toks; simpl in Hk; [|lia]. simpl in H. now injection H as <- <-.
  - destruct toks as [|t toks]; [simpl in H; now injection H as <- <-|].
    cbn [cloop] in H. simpl in Hk.
    destruct (p t && _) eqn:Ept; [|now injection H as <- <-].
    apply andb_prop in Ept as [Ept _]. apply Hp in Ept.
    destruct toks as [|n r1]; [injection H as <- <-; now apply nonsem_tok|].
    assert (Hdef : forall a r, (let '(a, r) := cloop p (Some t) (n :: r1) in (T t :: a, r)) = (a, r) ->
              nonsem a).
    { intros a' r' H'. destruct (cloop p (Some t) (n :: r1)) as [a0 r0] eqn:E.
      injection H' as <- <-. apply nonsem_cons; auto. apply (IH (n :: r1)) in E; auto. simpl in *; lia. }
    destruct r1 as [|c r2]; [eapply Hdef; eauto|].
    destruct (is_tt NEWLINE n && p c) eqn:E1.
    + apply andb_prop in E1 as [En _]. apply nonsem_tt in En; auto.
      destruct (cloop p (Some t) (c :: r2)) as [a0 r0] eqn:E. injection H as <- <-.
      apply nonsem_cons, nonsem_cons; auto. apply (IH (c :: r2)) in E; auto. simpl in *; lia.
    + destruct r2 as [|c2 r3]; [eapply Hdef; eauto|].
      destruct (is_tt NEWLINE n && is_tt WHITESPACE c && p c2) eqn:E2; [|eapply Hdef; eauto].
      apply andb_prop in E2 as [E2 _]. apply andb_prop in E2 as [En Ec].
      apply nonsem_tt in En; auto. apply nonsem_tt in Ec; auto.
      destruct (cloop p (Some t) (c2 :: r3)) as [a0 r0] eqn:E. injection H as <- <-.
      apply nonsem_cons, nonsem_cons, nonsem_cons; auto.
      apply (IH (c2 :: r3)) in E; auto. simpl in *; lia.
Qed.
Lemma exloop_nonsem ctx toks : forall a r, exloop ctx toks = (a, r) -> nonsem a.
Proof.
  induction toks as [|t toks IH]; intros a r H; [now injection H as <- <-|].
  cbn [exloop] in H. destruct (next_is_explicit ctx (t :: toks)) eqn:E; [|now injection H as <- <-].
  destruct (exloop ctx toks) as [a0 r0]. injection H as <- <-.
  apply nonsem_cons; eauto. cbn [next_is_explicit] in E.
  destruct (is_ws t) eqn:Ew; [now apply nonsem_ws|].
  apply andb_prop in E as [E _]. eapply nonsem_tt; eauto.
Qed.
Lemma valid_trailing_nonsem t : is_valid_trailing t = true -> is_semantic t = false.
Proof. intros H. apply andb_prop in H as [H _]. now apply nonsem_comment. Qed.
Lemma consume_trailing_nonsem ctx toks a r : consume_trailing ctx toks = (a, r) -> nonsem a.
Proof.
  unfold consume_trailing. destruct (negb _); [now intros H; injection H as <- <-|].
  destruct (next_is_explicit ctx toks).
  - destruct (take_ws toks) as [ws r0] eqn:E. apply take_ws_nonsem in E.
    destruct (exloop ctx r0) as [a0 r1] eqn:E2. apply exloop_nonsem in E2.
    intros H; injection H as <- <-. apply nonsem_app; auto. now apply nonsem_wrap.
  - assert (Hh : forall ws r0, match toks with
        | t :: r => if is_tt WHITESPACE t then ([T t], r) else (nil, toks)
        | nil => (nil, nil) end = (ws, r0) -> nonsem ws).
    { intros ws r0. destruct toks as [|t toks]; [|destruct (is_tt WHITESPACE t) eqn:Ew];
        intros H; injection H as <- <-; try reflexivity.
      apply nonsem_tok. eapply nonsem_tt; eauto. }
    destruct (match toks with nil => _ | _ => _ end) as [ws r0]. specialize (Hh _ _ eq_refl).
    destruct (cloop is_valid_trailing None r0) as [a0 r1] eqn:E2.
    apply (cloop_nonsem _ valid_trailing_nonsem _ _ (le_n _)) in E2.
    intros H; injection H as <- <-. apply nonsem_app; auto. now apply nonsem_wrap.
Qed.

(** *** Tuple groups *)
Lemma close_sub_flats flags acc sub late :
  flats (close_sub flags acc sub late)
  = flats acc ++ match sub with Some cs => flats cs | None => nil end ++ flats late.
Proof.
  unfold close_sub. rewrite !flats_app. f_equal. f_equal. destruct sub; auto. apply flats1.
Qed.

Lemma tuple_suffix ctx fuel : forall np ntup flags bs c nt acc sub late toks a r,
  tuple_loop fuel ctx np ntup flags bs c nt acc sub late toks = Ok (a, r) ->
  exists used, toks = used ++ r.
Proof.
  induction fuel as [|f IH]; intros np ntup flags bs c nt acc sub late toks a r H; [discriminate|].
  cbn [tuple_loop] in H. destruct toks as [|t toks]; [injection H as <- <-; now exists nil|].
  apply bindr_ok in H as (full & _ & H).
  destruct full; [injection H as <- <-; now exists nil|].
  destruct (should_break t bs); [injection H as <- <-; now exists nil|].
  destruct (is_ws t); [apply IH in H as (u & ->); now exists (t :: u)|].
  destruct (is_comment t); [apply IH in H as (u & ->); now exists (t :: u)|].
  destruct toks as [|t' toks']; [discriminate|].
  destruct (is_onoff t'); [apply IH in H as (u & ->); now exists (t :: t' :: u)|].
  destruct (match sub with Some cs => _ | None => _ end) as [[[acc1 sub1] late1] nt1].
  destruct (consume_trailing ctx (t' :: toks')) as [tr r1] eqn:E.
  apply (consume_trailing_Q R_any (fun _ => I) (fun _ _ _ _ _ _ => I)) in E as (u & Eu & _).
  rewrite Eu. destruct (_ >=? _); apply IH in H as (v & ->); exists (t :: u ++ v); simpl; now rewrite app_assoc.
Qed.

Lemma tuple_sem ctx fuel : forall np ntup flags bs c nt acc sub late toks a r,
  no_onoff toks -> nonsem late ->
  tuple_loop fuel ctx np ntup flags bs c nt acc sub late toks = Ok (a, r) ->
  exists used, toks = used ++ r
    /\ R_sem (flats (close_sub flags acc sub late) ++ used) (flats a).
Proof.
  induction fuel as [|f IH]; intros np ntup flags bs c nt acc sub late toks a r Hon Hl H; [discriminate|].
  cbn [tuple_loop] in H.
  assert (Hdone : forall u, exists used, u = used ++ u
     /\ R_sem (flats (close_sub flags acc sub late) ++ used) (flats (close_sub flags acc sub late))).
  { intros u. exists nil. rewrite app_nil_r. split; auto. apply R_sem_refl. }
  destruct toks as [|t toks]; [injection H as <- <-; apply Hdone|].
  apply bindr_ok in H as (full & _ & H).
  destruct full; [injection H as <- <-; apply Hdone|].
  destruct (should_break t bs); [injection H as <- <-; apply Hdone|].
  inversion_clear Hon as [|? ? Ht Hon'].
  destruct (is_ws t) eqn:Ew.
  { apply IH in H as (u & -> & HR); auto; [|apply nonsem_app; auto; apply nonsem_tok; now apply nonsem_ws].
    exists (t :: u). split; auto. rewrite close_sub_flats, flats_app in *. 
    unfold flats at 4 in HR. simpl in HR. rewrite <- !app_assoc in *. exact HR. }
  destruct (is_comment t) eqn:Ec.
  { apply IH in H as (u & -> & HR); auto;
      [|apply nonsem_app; auto; apply nonsem_wrap, nonsem_tok; now apply nonsem_comment].
    exists (t :: u). split; auto. rewrite close_sub_flats, flats_app in *.
    unfold flats at 4 in HR. simpl in HR. rewrite <- !app_assoc in *. exact HR. }
  destruct toks as [|t' toks']; [discriminate|].
  inversion_clear Hon' as [|? ? Ht' Hon]. rewrite Ht' in H.
  assert (Hon2 : no_onoff (t' :: toks')) by (constructor; auto).
  destruct (consume_trailing ctx (t' :: toks')) as [tr r1] eqn:E.
  pose proof (consume_trailing_nonsem _ _ _ _ E) as Hns.
  apply (consume_trailing_Q eq (@eq_refl _)) in E as (u & Eu & Hu);
    [|intros; congruence]. subst u.
  rewrite Eu in *. apply Forall_app in Hon2 as [_ Hon2].
  set (k := if kwarg_in t flags then KFlag else KArgument) in *.
  destruct (match sub with Some cs => _ | None => _ end) as [[[acc1 sub1] late1] nt1] eqn:Es.
  assert (Hl1 : nonsem late1).
  { destruct sub; injection Es as <- <- <- <-; auto. reflexivity. }
  assert (Hstep : R_sem (flats (close_sub flags acc sub late) ++ t :: flats tr)
                        (flats acc1 ++ (flats sub1 ++ t :: flats tr) ++ flats late1)).
  { rewrite close_sub_flats. destruct sub as [cs|]; injection Es as <- <- <- <-.
    - rewrite <- !app_assoc. apply R_sem_app; [apply R_sem_refl|]. apply R_sem_app; [apply R_sem_refl|].
      split; [apply Permutation_app_comm|].
      unfold semantics. rewrite !filter_app. unfold nonsem, semantics in Hl. rewrite Hl.
      now rewrite app_nil_r.
    - rewrite flats_app. change (flats nil) with (@nil token). cbn [app].
      rewrite app_nil_r, <- !app_assoc. apply R_sem_refl. }
  assert (Hfin : forall v, R_sem (flats (close_sub flags acc1 (Some (sub1 ++ [N k (T t :: tr)])) late1) ++ v) (flats a) ->
     R_sem (flats (close_sub flags acc sub late) ++ (t :: flats tr) ++ v) (flats a)).
  { intros v [P S]. rewrite close_sub_flats, flats_app, flats1 in P, S.
    change (flats (T t :: tr)) with (t :: flats tr) in P, S.
    rewrite app_assoc. destruct (R_sem_app _ _ _ _ Hstep (R_sem_refl v)) as [P2 S2].
    split; [eapply Permutation_trans; eauto|congruence]. }
  destruct (_ >=? _).
  - apply IH in H as (v & -> & HR); auto; [|reflexivity].
    exists (t :: flats tr ++ v). split; [simpl; now rewrite app_assoc|].
    apply (Hfin v). rewrite close_sub_flats in HR. simpl in HR. now rewrite app_nil_r in HR.
  - apply IH in H as (v & -> & HR); auto.
    exists (t :: flats tr ++ v). split; [simpl; now rewrite app_assoc|]. now apply (Hfin v).
Qed.

(** ** What is left after the top-level body: nothing *)
Lemma body_all ctx n : forall acc toks a r, body_loop n ctx nil acc toks = Ok (a, r) -> r = nil.
Proof.
  induction n as [|m IH]; intros acc toks a r H; [discriminate|].
  cbn [body_loop] in H. destruct toks as [|t toks]; [now injection H as <- <-|].
  destruct (is_ws t); [destruct (take_ws (t :: toks)); eauto|].
  destruct (is_tt COMMENT t); [apply bindr_ok in H as ([c r1] & _ & H); eauto|].
  destruct (is_onoff t); [eauto|].
  destruct (is_tt BRACKET_COMMENT t); [apply bindr_ok in H as ([c r1] & _ & H); eauto|].
  destruct (is_tt WORD t).
  { change (smem (upper (spelling t)) nil) with false in H. destruct (smem _ flow_names);
      apply bindr_ok in H as ([c r1] & _ & H); eauto. }
  destruct (is_tt ATWORD t); [apply bindr_ok in H as ([c r1] & _ & H); eauto|].
  destruct (is_tt BYTEORDER_MARK t); [eauto|discriminate].
Qed.

(** ** C05 *)

Definition strip_bom_tok (toks : list token) : list token :=
  match toks with
  | t :: r => if is_tt BYTEORDER_MARK t then r else toks
  | nil => nil
  end.

(** Every token whose spelling could be a command name maps to a parser of the
    table from which no tuple parser is reachable. *)
Definition calls_wf (allow : bool) (ctx : pctx) (toks : list token) : Prop :=
  Forall (fun t => wfp allow true (command_parser ctx (lower (spelling t)))) toks.
Lemma wfctx_calls allow ctx toks : wfctx allow ctx -> calls_wf allow ctx toks.
Proof. intros H. apply Forall_forall. intros t _. now apply command_parser_wf. Qed.

(** For every table, every token list with no byte-order mark that calls no
    command with a tuple parser, and every fuel of the model: the leaves of the
    tree are exactly the tokens. *)
Lemma body_lossless ctx n toks a r : calls_wf false ctx toks -> no_bom toks ->
  body_loop n ctx nil nil toks = Ok (a, r) -> flats a = toks.
Proof.
  intros Hc Hb H. pose proof (body_all _ _ _ _ _ _ H) as ->.
  apply (body_Q eq (@eq_refl _)) with (good := fun l => no_bom l /\ calls_wf false ctx l) (allow := false) in H; auto.
  - apply L_nil in H. destruct H as (u & -> & Hu). now rewrite app_nil_r.
  - intros; congruence.
  - intros x y [H1 H2]. apply Forall_app in H1, H2. tauto.
  - discriminate.
  - intros t r [Hg _] Ht. inversion Hg; subst. contradiction.
  - intros t r [_ Hg]. now inversion Hg.
Qed.

Lemma parse_fuel_S t toks : parse_fuel (t :: toks) = S (16 * List.length toks + 31).
Proof. unfold parse_fuel. simpl List.length. lia. Qed.
Lemma body_bom n ctx t toks : is_tt BYTEORDER_MARK t = true ->
  body_loop (S n) ctx nil nil (t :: toks) = body_loop n ctx nil nil toks.
Proof.
  intros Et. assert (Htt : tt t = BYTEORDER_MARK).
  { unfold is_tt in Et. destruct (tt t); try discriminate; auto. }
  cbn [body_loop]. unfold is_ws, is_onoff, is_tt. rewrite Htt. reflexivity.
Qed.

Theorem C05_parse_lossless : forall ctx toks tree,
  calls_wf false ctx (strip_bom_tok toks) -> no_bom (tl toks) -> parse ctx toks = Ok tree ->
  flat tree = strip_bom_tok toks.
Proof.
  intros ctx toks tree Hc Hb H. unfold parse in H.
  apply bindr_ok in H as ([a r] & E & H). injection H as <-.
  change (flats a = strip_bom_tok toks).
  destruct toks as [|t toks]; [now apply body_lossless in E|].
  simpl in Hb, Hc |- *. destruct (is_tt BYTEORDER_MARK t) eqn:Et.
  - rewrite parse_fuel_S, body_bom in E by auto. now apply body_lossless in E.
  - apply body_lossless in E; auto. constructor; auto.
    intros Htt. unfold is_tt in Et. rewrite Htt in Et. discriminate.
Qed.

(** With tuple parsers: the leaves are a permutation of the tokens and the
    arguments keep their order, provided there is no format sentinel. *)
Lemma body_tuples ctx n toks a r : wfctx true ctx -> no_bom toks -> no_onoff toks ->
  body_loop n ctx nil nil toks = Ok (a, r) -> R_sem toks (flats a).
Proof.
  intros Hc Hb Ho E. pose proof (body_all _ _ _ _ _ _ E) as ->.
  apply (body_Q R_sem R_sem_refl R_sem_app clean) with (allow := true) in E; auto.
  - apply L_nil in E. destruct E as (u & -> & Hu). now rewrite app_nil_r.
  - apply clean_suffix.
  - intros _ fuel np nt fl bs toks0 a0 r0 [Hg1 Hg2] Ht.
    apply tuple_sem in Ht as (u & -> & HR); auto; [|reflexivity].
    exists u. split; auto.
  - intros t r [Hg _] Ht. inversion Hg; subst. contradiction.
  - intros t r _. now apply command_parser_wf.
  - split; auto.
Qed.
Theorem C05_parse_tuples_partial : forall ctx toks tree,
  wfctx true ctx -> no_bom (tl toks) -> no_onoff toks -> parse ctx toks = Ok tree ->
  Permutation (strip_bom_tok toks) (flat tree) /\ semantics (strip_bom_tok toks) = semantics (flat tree).
Proof.
  intros ctx toks tree Hc Hb Ho H. unfold parse in H.
  apply bindr_ok in H as ([a r] & E & H). injection H as <-.
  change (R_sem (strip_bom_tok toks) (flats a)).
  destruct toks as [|t toks]; [eapply body_tuples; eauto; constructor|].
  simpl in Hb |- *. destruct (is_tt BYTEORDER_MARK t) eqn:Et.
  - rewrite parse_fuel_S, body_bom in E by auto. eapply body_tuples; eauto. now inversion Ho.
  - eapply body_tuples; eauto. constructor; auto.
    intros Htt. unfold is_tt in Et. rewrite Htt in Et. discriminate.
Qed.
