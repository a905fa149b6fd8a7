(** * ParseTerm: the fuel of the parser model is always enough *)
From Verif Require Import Base Regex Lex Tree Parse ParseProofs PropParse.

Definition len (l : list token) : nat := List.length l.

(** AND and OR in any letter case are word tokens.  (The lexer can produce other
    tokens with that spelling: see C07_parse_terminates_refuted.) *)
Definition condok (toks : list token) : Prop :=
  Forall (fun t => smem (upper (spelling t)) cond_words = true -> tt t = WORD) toks.
Lemma condok_suffix a b : condok (a ++ b) -> condok b.
Proof. intros H. apply Forall_app in H. tauto. Qed.

Lemma bindr_nf {A B} (x : res A) (f : A -> res B) :
  x <> OutOfFuel -> (forall a, x = Ok a -> f a <> OutOfFuel) -> bindr x f <> OutOfFuel.
Proof. destruct x; simpl; intros H1 H2; auto; discriminate. Qed.

Section Term.
  Variable ctx : pctx.

  (** suffix facts: the accounting with the trivial relation *)
  Local Notation QA := (Q R_any).
  Lemma any_refl l : R_any l l. Proof. exact I. Qed.
  Lemma any_app a b c d : R_any a b -> R_any c d -> R_any (a ++ c) (b ++ d). Proof. intros; exact I. Qed.
  Definition anyg (l : list token) : Prop := True.
  Lemma any_tuple : true = true -> forall fuel np nt fl bs toks a r, anyg toks ->
    tuple_loop fuel ctx np nt fl bs 0 0 nil None nil toks = Ok (a, r) -> QA toks r a.
  Proof. intros _ fuel np nt fl bs toks a r _ H. apply tuple_suffix in H as (u & ->). exists u. split; auto. exact I. Qed.
  Lemma SP n : Sp R_any anyg true ctx n.
  Proof. apply all_Sp; try (intros; exact I). exact any_tuple. Qed.

  Lemma QA_cond a b x : QA a b x -> condok a -> condok b.
  Proof. intros (u & -> & _). apply condok_suffix. Qed.
  Lemma QA_le a b x : QA a b x -> (len b <= len a)%nat.
  Proof. intros (u & -> & _). unfold len. rewrite app_length. lia. Qed.

  Lemma take_ws_QA toks a r : take_ws toks = (a, r) -> QA toks r a.
  Proof. apply take_ws_Q; [exact any_refl|exact any_app]. Qed.
  Lemma comment_QA toks c r : consume_comment toks = Ok (c, r) -> QA toks r [c].
  Proof. apply consume_comment_Q; [exact any_refl|exact any_app]. Qed.
  Lemma trailing_QA toks a r : consume_trailing ctx toks = (a, r) -> QA toks r a.
  Proof. apply consume_trailing_Q; [exact any_refl|exact any_app]. Qed.

  (** comments always consume *)
  Lemma cloop_head p last toks x a r : cloop p last toks = (x :: a, r) -> exists t, x = T t.
  Proof.
    destruct toks as [|t toks]; [discriminate|]. cbn [cloop].
    destruct (p t && _); [|discriminate].
    destruct toks as [|n r1]; [intros H; injection H as <- <- <-; eauto|].
    destruct r1 as [|c r2].
    { destruct (cloop p (Some t) [n]). intros H; injection H as <- <- <-; eauto. }
    destruct (is_tt NEWLINE n && p c).
    { destruct (cloop p (Some t) (c :: r2)). intros H; injection H as <- <- <-; eauto. }
    destruct r2 as [|c2 r3].
    { destruct (cloop p (Some t) [n; c]). intros H; injection H as <- <- <-; eauto. }
    destruct (is_tt NEWLINE n && is_tt WHITESPACE c && p c2).
    - destruct (cloop p (Some t) (c2 :: r3)). intros H; injection H as <- <- <-; eauto.
    - destruct (cloop p (Some t) (n :: c :: c2 :: r3)). intros H; injection H as <- <- <-; eauto.
  Qed.
  Lemma comment_lt t toks c r : consume_comment (t :: toks) = Ok (c, r) -> (len r <= len toks)%nat.
  Proof.
    unfold consume_comment. destruct (tmem _ _).
    - intros H. injection H as <- <-. lia.
    - destruct (cloop (is_tt COMMENT) None (t :: toks)) as [a r0] eqn:E.
      destruct a as [|x a]; [discriminate|]. intros H. injection H as <- <-.
      destruct (cloop_head _ _ _ _ _ _ E) as (y & ->).
      apply (cloop_Q eq (@eq_refl _)) with (k := S (List.length toks)) in E; [|intros; congruence|simpl; lia].
      destruct E as (u & E & Hu). subst u. cbn [flats flat_map flat app] in E.
      injection E as -> ->. unfold len. rewrite app_length. lia.
  Qed.
  Lemma comment_nf toks : consume_comment toks <> OutOfFuel.
  Proof.
    unfold consume_comment. destruct toks; [discriminate|]. destruct (tmem _ _); [discriminate|].
    destruct (cloop _ _ _) as [[|? ?] ?]; discriminate.
  Qed.

  (** *** leaf loops *)
  Lemma full_nf n k : pargs_are_full n k <> OutOfFuel.
  Proof.
    unfold pargs_are_full. destruct n; [discriminate|]. destruct (seqb _ _); [discriminate|].
    destruct (smem _ _); [discriminate|]. destruct (endswith _ _); [|discriminate].
    destruct (py_int _); discriminate.
  Qed.
  Lemma take_wsc_nf fuel : forall toks, (len toks < fuel)%nat -> take_wsc fuel toks <> OutOfFuel.
  Proof.
    induction fuel as [|f IH]; intros toks H; [lia|]. simpl.
    destruct toks as [|t toks]; [discriminate|]. unfold len in *. simpl in H.
    destruct (is_ws t); [apply bindr_nf; [apply IH; lia|intros [] _; discriminate]|].
    destruct (is_comment t).
    { apply bindr_nf; [apply comment_nf|]. intros [c r] E. apply comment_lt in E. unfold len in E.
      apply bindr_nf; [apply IH; lia|intros [] _; discriminate]. }
    destruct (is_onoff t); [|discriminate].
    apply bindr_nf; [apply IH; lia|intros [] _; discriminate].
  Qed.
  Lemma flag_nf flags bs fuel : forall acc toks, (len toks < fuel)%nat ->
    flag_loop fuel ctx flags bs acc toks <> OutOfFuel.
  Proof.
    induction fuel as [|f IH]; intros acc toks H; [lia|]. simpl.
    destruct toks as [|t toks]; [discriminate|]. unfold len in *. simpl in H.
    destruct (should_break t bs); [discriminate|].
    destruct (is_ws t); [apply IH; lia|]. destruct (negb _); [discriminate|].
    destruct (consume_trailing ctx toks) as [tr r] eqn:E. apply trailing_QA, QA_le in E. unfold len in E.
    apply IH. lia.
  Qed.
  Lemma tuple_nf np ntup flags bs fuel : forall c nt acc sub late toks, (len toks < fuel)%nat ->
    tuple_loop fuel ctx np ntup flags bs c nt acc sub late toks <> OutOfFuel.
  Proof.
    induction fuel as [|f IH]; intros c nt acc sub late toks H; [lia|]. cbn [tuple_loop].
    destruct toks as [|t toks]; [discriminate|]. unfold len in *. simpl in H.
    apply bindr_nf; [apply full_nf|]. intros full _. destruct full; [discriminate|].
    destruct (should_break t bs); [discriminate|].
    destruct (is_ws t); [apply IH; lia|]. destruct (is_comment t); [apply IH; lia|].
    destruct toks as [|t' toks']; [discriminate|]. simpl in H.
    destruct (is_onoff t'); [apply IH; lia|].
    destruct (match sub with Some cs => _ | None => _ end) as [[[acc1 sub1] late1] nt1].
    destruct (consume_trailing ctx (t' :: toks')) as [tr r] eqn:E. apply trailing_QA, QA_le in E.
    unfold len in E. simpl in E. destruct (_ >=? _); apply IH; lia.
  Qed.
  Lemma a_append_st m n : a_st (a_append m n) = a_st m.
  Proof.
    unfold a_append. destruct (a_at_tree m); auto. destruct (a_g2 m) as [[s cs]|]; auto.
    now destruct (a_st m =? 1).
  Qed.
  Definition st_cost (st : Z) : nat := if st =? 1 then 3 else if st =? 2 then 2 else if st =? 3 then 1 else 0.
  Lemma add_nf islib bs fuel : forall m toks, (len toks + len toks + st_cost (a_st m) < fuel)%nat ->
    add_loop fuel ctx islib bs m toks <> OutOfFuel.
  Proof.
    induction fuel as [|f IH]; intros m toks H; [lia|]. cbn [add_loop].
    destruct toks as [|t toks]; [discriminate|]. unfold len in *. simpl List.length in H.
    destruct (is_tt RIGHT_PAREN t); [discriminate|].
    assert (Ht : forall tr r, consume_trailing ctx toks = (tr, r) -> (List.length r <= List.length toks)%nat).
    { intros tr r E. now apply trailing_QA, QA_le in E. }
    assert (Hst : forall m', (a_st m' = a_st m) -> (st_cost (a_st m') = st_cost (a_st m))%nat) by (intros m' ->; auto).
    destruct (is_ws t); [apply IH; rewrite a_append_st; lia|].
    destruct (is_comment t); [apply IH; cbn [a_st]; rewrite a_append_st; lia|].
    destruct (a_st m =? 1) eqn:E1.
    { apply Z.eqb_eq in E1.
      destruct (consume_trailing ctx toks) as [tr r] eqn:E. specialize (Ht _ _ eq_refl).
      apply IH. simpl a_st. change (st_cost 2) with 2%nat. 
      rewrite E1 in H. change (st_cost 1) with 3%nat in H. lia. }
    destruct (a_st m =? 2) eqn:E2.
    { apply Z.eqb_eq in E2. rewrite E2 in H. change (st_cost 2) with 2%nat in H.
      destruct islib.
      - destruct (kwarg_in t lib_types).
        + destruct (consume_trailing ctx toks) as [tr r] eqn:E. specialize (Ht _ _ eq_refl).
          apply IH. simpl a_st. change (st_cost 3) with 1%nat. lia.
        + apply IH. simpl List.length. simpl a_st. change (st_cost 3) with 1%nat. lia.
      - destruct (kwarg_in t exe_flags).
        + destruct (consume_trailing ctx toks) as [tr r] eqn:E. specialize (Ht _ _ eq_refl).
          apply IH. simpl a_st. change (st_cost 2) with 2%nat. lia.
        + apply IH. simpl List.length. simpl a_st. change (st_cost 4) with 0%nat. lia. }
    destruct (a_st m =? 3) eqn:E3.
    { apply Z.eqb_eq in E3. rewrite E3 in H. change (st_cost 3) with 1%nat in H.
      destruct (kwarg_in t _).
      + destruct (consume_trailing ctx toks) as [tr r] eqn:E. specialize (Ht _ _ eq_refl).
        apply IH. simpl a_st. change (st_cost 4) with 0%nat. lia.
      + apply IH. simpl List.length. simpl a_st. change (st_cost 4) with 0%nat. lia. }
    destruct (consume_trailing ctx toks) as [tr r] eqn:E. specialize (Ht _ _ eq_refl).
    apply IH. simpl a_st. lia.
  Qed.

  (** *** strict progress *)
  Lemma kwgroup_lt n w p bs toks x r : wfp true false p -> kwgroup n ctx w p bs toks = Ok (x, r) ->
    (len r < len toks)%nat.
  Proof.
    intros Hp H. destruct n as [|m]; [discriminate|]. cbn [kwgroup] in H.
    destruct toks as [|t toks]; [discriminate|]. destruct (negb _); [discriminate|].
    destruct (take_ws toks) as [ws r0] eqn:Ew. apply take_ws_QA, QA_le in Ew.
    apply bindr_ok in H as ([sub r1] & E & H). injection H as <- <-.
    apply (sp_call _ _ _ _ _ (SP m) false) in E; auto; [|discriminate|exact I].
    apply QA_le in E. unfold len in *. simpl. lia.
  Qed.
  Lemma paren_lt n toks x r : paren n ctx toks = Ok (x, r) -> (len r < len toks)%nat.
  Proof.
    intros H. destruct n as [|m]; [discriminate|]. cbn [paren] in H.
    destruct toks as [|t toks]; [discriminate|]. destruct (negb _); [discriminate|].
    apply bindr_ok in H as ([sub r1] & E & H).
    apply (sp_call _ _ _ _ _ (SP m) true) in E; auto; [|constructor|exact I].
    apply QA_le in E. destruct r1 as [|t2 r1]; [discriminate|]. destruct (negb _); [discriminate|].
    destruct (consume_trailing ctx r1) as [tr r2] eqn:Et. apply trailing_QA, QA_le in Et.
    injection H as <- <-. unfold len in *. simpl in *. lia.
  Qed.
  Lemma existsb_snoc {A} (f : A -> bool) l x : existsb f (l ++ [x]) = existsb f l || f x.
  Proof. rewrite existsb_app. simpl. now rewrite orb_false_r. Qed.
  Lemma cond_pos_lt n bs nested t toks x r :
    condok (t :: toks) -> should_break t bs = false -> is_ws t = false -> is_comment t = false ->
    is_onoff t = false -> is_tt LEFT_PAREN t = false -> kwarg_in t cond_words = false ->
    pos_group n ctx cond_pspec (bs ++ [kwbreaker cond_words]) nested (t :: toks) = Ok (x, r) ->
    (len r < len (t :: toks))%nat.
  Proof.
    intros Hc Hb Hw Hcm Ho Hl Hk H. destruct n as [|n]; [discriminate|].
    cbn [pos_group take_ws] in H. rewrite Hw in H.
    apply bindr_ok in H as ([a r1] & E & H). injection H as <- <-.
    destruct n as [|n]; [discriminate|]. cbn [pos_loop] in E.
    apply bindr_ok in E as (full & Ef & E). injection Ef as <-.
    assert (Hsb : should_break t (bs ++ [kwbreaker cond_words]) = false).
    { unfold should_break in *. rewrite existsb_snoc, Hb. simpl orb.
      change (smem (upper (spelling t)) cond_words = false).
      destruct (smem (upper (spelling t)) cond_words) eqn:Es; auto.
      inversion_clear Hc as [|? ? Ht _]. specialize (Ht Es).
      unfold kwarg_in, normalized_kwarg, is_tt in Hk. rewrite Ht in Hk.
      change (smem (upper (spelling t)) cond_words = false) in Hk. congruence. }
    rewrite Hsb, Hl, Hw, Hcm, Ho in E. cbn [andb] in E.
    destruct (consume_trailing ctx toks) as [tr r0] eqn:Et. apply trailing_QA, QA_le in Et.
    apply (sp_pos _ _ _ _ _ (SP n)) in E; [|exact I].
    destruct E as (new & _ & E). apply QA_le in E. unfold len in *. simpl. lia.
  Qed.

  (** *** the recursive parsers *)
  Record Tm (n : nat) : Prop := {
    tm_call : forall top p bs nested toks, wfp true top p -> (top = true -> bs = [BParen]) ->
      condok toks -> (16 * len toks + 15 <= n)%nat -> call n ctx p bs nested toks <> OutOfFuel;
    tm_std : forall dflt kw bs kbs nested pargs acc toks,
      (forall k p, In (k, p) kw -> wfp true false p) -> condok toks -> (16 * len toks + 4 <= n)%nat ->
      std_loop n ctx dflt kw bs kbs nested pargs acc toks <> OutOfFuel;
    tm_posg : forall sp bs nested toks, condok toks -> (16 * len toks + 3 <= n)%nat ->
      pos_group n ctx sp bs nested toks <> OutOfFuel;
    tm_pos : forall sp bs nested nc acc toks, condok toks -> (16 * len toks + 2 <= n)%nat ->
      pos_loop n ctx sp bs nested nc acc toks <> OutOfFuel;
    tm_cond : forall bs acc toks, condok toks -> (16 * len toks + 4 <= n)%nat ->
      cond_loop n ctx bs acc toks <> OutOfFuel;
    tm_kw : forall w p bs toks, wfp true false p -> condok toks -> (16 * len toks + 1 <= n)%nat ->
      kwgroup n ctx w p bs toks <> OutOfFuel;
    tm_paren : forall toks, condok toks -> (16 * len toks + 1 <= n)%nat -> paren n ctx toks <> OutOfFuel;
    tm_seq : forall items lp bs nested acc toks, wfo true lp -> condok toks ->
      (16 * len toks + 6 + List.length items <= n)%nat ->
      seq_items n ctx items lp bs nested acc toks <> OutOfFuel;
    tm_gl : forall keep step bs nested acc toks, wfo true (Some (GSpec keep step)) -> condok toks ->
      (16 * len toks + 4 <= n)%nat -> gloop n ctx keep step bs nested acc toks <> OutOfFuel }.

  Lemma condok_tl t toks : condok (t :: toks) -> condok toks.
  Proof. apply (condok_suffix [t]). Qed.

  Ltac ln := unfold len in *; simpl List.length in *; lia.
  Ltac fin := let x := fresh in let y := fresh in intros [x y] _; discriminate.

  Lemma all_Tm n : Tm n.
  Proof.
    induction n as [|m IH]; [constructor; intros; lia|].
    constructor.
    - (* call *)
      intros top p bs nested toks Hp Hbs Hc Hn. cbn [call].
      apply resolve_wf with (toks := toks) in Hp.
      destruct (resolve p toks) as [cs kw|sp|np nt fl| | | |e|f|items lp| |so|so]; try discriminate.
      + destruct (take_ws toks) as [ws r0] eqn:Ew. apply take_ws_QA in Ew.
        destruct (split_default (cs_pargs cs)) as [dflt pargs].
        apply bindr_nf; [|fin]. inversion Hp; subst. pose proof (QA_le _ _ _ Ew).
        eapply tm_std; eauto using QA_cond. lia.
      + apply tm_posg; auto. lia.
      + apply bindr_nf; [|fin]. apply tuple_nf. unfold len. lia.
      + destruct (take_ws toks) as [ws r0] eqn:Ew. apply take_ws_QA in Ew.
        destruct (split_default _) as [dflt pargs].
        apply bindr_nf; [|fin]. pose proof (QA_le _ _ _ Ew).
        eapply tm_std; eauto using QA_cond; [intros k q []|lia].
      + destruct (take_ws toks) as [ws r0] eqn:Ew. apply take_ws_QA in Ew.
        apply bindr_nf; [|fin]. pose proof (QA_le _ _ _ Ew). eapply tm_cond; eauto using QA_cond. lia.
      + apply bindr_nf; [|fin]. inversion Hp; subst. eapply tm_seq; eauto. lia.
      + apply bindr_nf; [|fin]. eapply tm_seq; eauto using install_wf. simpl. lia.
      + destruct (take_ws toks) as [ws r0] eqn:Ew. apply take_ws_QA, QA_le in Ew.
        apply bindr_nf; [|fin]. apply add_nf. simpl a_st. change (st_cost 1) with 3%nat. unfold len in *. lia.
      + destruct (take_ws toks) as [ws r0] eqn:Ew. apply take_ws_QA, QA_le in Ew.
        apply bindr_nf; [|fin]. apply add_nf. simpl a_st. change (st_cost 1) with 3%nat. unfold len in *. lia.
    - (* std_loop *)
      intros dflt kw bs kbs nested pargs acc toks Hkw Hc Hn. cbn [std_loop].
      destruct toks as [|t toks]; [discriminate|]. pose proof (condok_tl _ _ Hc) as Hc'.
      destruct (is_ws t); [eapply tm_std; eauto; ln|].
      destruct (is_comment t).
      { destruct (belongs_up _ _ _ _); [discriminate|].
        apply bindr_nf; [apply comment_nf|]. intros [c r] E.
        pose proof (comment_lt _ _ _ _ E). apply comment_QA in E.
        eapply tm_std; eauto using QA_cond. ln. }
      destruct (is_onoff t); [eapply tm_std; eauto; ln|].
      destruct (should_break t bs && _); [discriminate|].
      destruct (match normalized_kwarg t with Some _ => _ | None => _ end) as [[w p]|] eqn:Ek.
      + assert (Hp : wfp true false p).
        { destruct (normalized_kwarg t); [|discriminate]. destruct (kw_lookup s kw) eqn:El; [|discriminate].
          injection Ek as _ <-. apply kw_lookup_In in El as (k' & El). eauto. }
        apply bindr_nf; [eapply tm_kw; eauto; ln|]. intros [sub r] E.
        destruct (Nat.leb_spec (List.length (t :: toks)) (List.length r)); [discriminate|].
        apply (sp_kw _ _ _ _ _ (SP m)) in E; auto; [|exact I].
        eapply tm_std; eauto using QA_cond. ln.
      + apply bindr_nf; [eapply tm_posg; eauto; ln|]. intros [sub r] E.
        destruct (Nat.leb_spec (List.length (t :: toks)) (List.length r)); [discriminate|].
        apply (sp_posg _ _ _ _ _ (SP m)) in E; [|exact I].
        eapply tm_std; eauto using QA_cond. ln.
    - (* pos_group *)
      intros sp bs nested toks Hc Hn. cbn [pos_group].
      destruct (take_ws toks) as [ws r0] eqn:Ew. apply take_ws_QA in Ew.
      apply bindr_nf; [|fin]. pose proof (QA_le _ _ _ Ew). eapply tm_pos; eauto using QA_cond. lia.
    - (* pos_loop *)
      intros sp bs nested nc acc toks Hc Hn. cbn [pos_loop].
      destruct toks as [|t toks]; [discriminate|]. pose proof (condok_tl _ _ Hc) as Hc'.
      apply bindr_nf; [apply full_nf|]. intros full _. destruct full; [discriminate|].
      destruct (should_break t bs && _); [discriminate|].
      destruct (is_tt LEFT_PAREN t).
      { apply bindr_nf; [eapply tm_paren; eauto; ln|]. intros [sub r] E.
        pose proof (paren_lt _ _ _ _ E). apply (sp_paren _ _ _ _ _ (SP m)) in E; [|exact I].
        eapply tm_pos; eauto using QA_cond. ln. }
      destruct (is_ws t); [eapply tm_pos; eauto; ln|].
      destruct (is_comment t).
      { destruct (belongs_up _ _ _ _); [discriminate|].
        apply bindr_nf; [apply comment_nf|]. intros [c r] E.
        pose proof (comment_lt _ _ _ _ E). apply comment_QA in E.
        eapply tm_pos; eauto using QA_cond. ln. }
      destruct (is_onoff t); [eapply tm_pos; eauto; ln|].
      destruct (consume_trailing ctx toks) as [tr r] eqn:E. apply trailing_QA in E.
      pose proof (QA_le _ _ _ E). eapply tm_pos; eauto using QA_cond. ln.
    - (* cond_loop *)
      intros bs acc toks Hc Hn. cbn [cond_loop].
      destruct toks as [|t toks]; [discriminate|]. pose proof (condok_tl _ _ Hc) as Hc'.
      destruct (should_break t bs) eqn:Esb; [discriminate|].
      destruct (is_ws t) eqn:Ews; [eapply tm_cond; eauto; ln|].
      destruct (is_comment t) eqn:Ecm; [eapply tm_cond; eauto; ln|].
      destruct (is_onoff t) eqn:Eon; [eapply tm_cond; eauto; ln|].
      destruct (is_tt LEFT_PAREN t) eqn:Elp.
      { apply bindr_nf; [eapply tm_paren; eauto; ln|]. intros [sub r] E.
        pose proof (paren_lt _ _ _ _ E). apply (sp_paren _ _ _ _ _ (SP m)) in E; [|exact I].
        eapply tm_cond; eauto using QA_cond. ln. }
      destruct (kwarg_in t cond_words) eqn:Ekw.
      + apply bindr_nf; [eapply tm_kw; eauto; [constructor|ln]|]. intros [sub r] E.
        destruct (Nat.leb_spec (List.length (t :: toks)) (List.length r)); [discriminate|].
        apply (sp_kw _ _ _ _ _ (SP m)) in E; [|constructor|exact I].
        eapply tm_cond; eauto using QA_cond. ln.
      + apply bindr_nf; [eapply tm_posg; eauto; ln|]. intros [sub r] E.
        pose proof (cond_pos_lt _ _ _ _ _ _ _ Hc Esb Ews Ecm Eon Elp Ekw E).
        apply (sp_posg _ _ _ _ _ (SP m)) in E; [|exact I].
        eapply tm_cond; eauto using QA_cond. ln.
    - (* kwgroup *)
      intros w p bs toks Hp Hc Hn. cbn [kwgroup].
      destruct toks as [|t toks]; [discriminate|]. pose proof (condok_tl _ _ Hc) as Hc'.
      destruct (negb _); [discriminate|].
      destruct (take_ws toks) as [ws r0] eqn:Ew. apply take_ws_QA in Ew.
      apply bindr_nf; [|fin]. pose proof (QA_le _ _ _ Ew).
      apply (tm_call _ IH false); eauto using QA_cond; [discriminate|ln].
    - (* paren *)
      intros toks Hc Hn. cbn [paren].
      destruct toks as [|t toks]; [discriminate|]. pose proof (condok_tl _ _ Hc) as Hc'.
      destruct (negb _); [discriminate|].
      apply bindr_nf; [apply (tm_call _ IH true); auto; [constructor|ln]|]. intros [sub r] E.
      destruct r as [|t2 r]; [discriminate|]. destruct (negb _); [discriminate|].
      destruct (consume_trailing ctx r); discriminate.
    - (* seq_items *)
      intros items lp bs nested acc toks Hlp Hc Hn. cbn [seq_items].
      destruct items as [|it items].
      { destruct lp as [[keep step]|]; [|discriminate]. simpl in Hn. eapply tm_gl; eauto. lia. }
      simpl in Hn. destruct it as [| |sp extra must].
      + destruct (take_ws toks) as [ws r0] eqn:Ew. apply take_ws_QA in Ew.
        pose proof (QA_le _ _ _ Ew). eapply tm_seq; eauto using QA_cond. lia.
      + apply bindr_nf; [apply take_wsc_nf; unfold len; lia|]. intros [ws r0] Ew.
        apply (take_wsc_Q R_any any_refl any_app) in Ew.
        pose proof (QA_le _ _ _ Ew). eapply tm_seq; eauto using QA_cond. lia.
      + apply bindr_nf; [eapply tm_posg; eauto; lia|]. intros [sub r] E.
        destruct (must && _); [discriminate|].
        apply (sp_posg _ _ _ _ _ (SP m)) in E; [|exact I].
        pose proof (QA_le _ _ _ E). eapply tm_seq; eauto using QA_cond. lia.
    - (* gloop *)
      intros keep step bs nested acc toks Hlp Hc Hn. cbn [gloop].
      destruct toks as [|t toks]; [discriminate|]. pose proof (condok_tl _ _ Hc) as Hc'.
      destruct (should_break t bs); [discriminate|].
      destruct (is_ws t); [eapply tm_gl; eauto; ln|].
      destruct (is_comment t && negb (keep t)); [eapply tm_gl; eauto; ln|].
      apply bindr_nf.
      { destruct (step acc (t :: toks)) as [w p extra chk|sp extra push tags|flags extra] eqn:Es.
        - apply bindr_nf; [|intros [sub0 r0] _; destruct (chk sub0 r0); discriminate].
          eapply tm_kw; eauto; [inversion Hlp; subst; eauto|ln].
        - apply bindr_nf; [|fin]. eapply tm_posg; eauto. ln.
        - apply bindr_nf; [|fin]. apply flag_nf. unfold len. lia. }
      intros [sub r] E.
      destruct (Nat.leb_spec (List.length (t :: toks)) (List.length r)); [discriminate|].
      assert (HQ : exists x, QA (t :: toks) r x).
      { destruct (step acc (t :: toks)) as [w p extra chk|sp extra push tags|flags extra] eqn:Es.
        - apply bindr_ok in E as ([sub0 r0] & E & E2). apply (sp_kw _ _ _ _ _ (SP m)) in E.
          + destruct (chk sub0 r0); [discriminate|]. injection E2 as <- <-. eauto.
          + inversion Hlp; subst. eauto.
          + exact I.
        - apply bindr_ok in E as ([sub0 r0] & E & E2). apply (sp_posg _ _ _ _ _ (SP m)) in E; [|exact I].
          injection E2 as <- <-. eauto.
        - apply bindr_ok in E as ([a0 r0] & E & E2). injection E2 as <- <-.
          apply (flag_loop_L R_any any_refl any_app) in E. destruct E as (new & _ & E). eauto. }
      destruct HQ as (x & HQ). eapply tm_gl; eauto using QA_cond. ln.
  Qed.

  Hypothesis Hctx : wfctx true ctx.
  Lemma Hcmd t r : anyg (t :: r) -> wfp true true (command_parser ctx (lower (spelling t))).
  Proof. intros _. now apply command_parser_wf. Qed.

  Lemma stmt_tail_nf fuel : forall toks, (len toks < fuel)%nat -> stmt_tail fuel toks <> OutOfFuel.
  Proof.
    induction fuel as [|f IH]; intros toks H; [lia|]. simpl.
    destruct toks as [|t toks]; [discriminate|].
    destruct (is_tt RIGHT_PAREN t); [discriminate|].
    destruct (is_ws t); [apply bindr_nf; [apply IH; ln|fin]|].
    destruct (is_tt COMMENT t); [|discriminate].
    apply bindr_nf; [apply comment_nf|]. intros [c r] E. apply comment_lt in E.
    apply bindr_nf; [apply IH; ln|fin].
  Qed.

  Lemma statement_QA n toks x r : statement n ctx toks = Ok (x, r) -> QA toks r [x].
  Proof.
    intros H. eapply (statement_Q R_any any_refl any_app anyg) with (allow := true); eauto;
      try (intros; exact I). 1: exact any_tuple. exact Hcmd.
  Qed.
  Lemma statement_lt n toks x r : statement n ctx toks = Ok (x, r) -> (len r < len toks)%nat.
  Proof.
    intros H. unfold statement in H. destruct toks as [|fn r0]; [discriminate|].
    destruct (take_ws r0) as [ws r1] eqn:Ew. apply take_ws_QA, QA_le in Ew.
    destruct r1 as [|lp r1]; [discriminate|]. destruct (negb _); [discriminate|].
    destruct (take_ws r1) as [ws2 r2] eqn:Ew2. apply take_ws_QA, QA_le in Ew2.
    apply bindr_ok in H as ([args r3] & E & H).
    apply (sp_call _ _ _ _ _ (SP n) true) in E; auto; [|now apply command_parser_wf|exact I].
    apply QA_le in E.
    apply bindr_ok in H as ([tl r4] & Et & H).
    apply (stmt_tail_Q R_any any_refl any_app), QA_le in Et.
    destruct r4 as [|rp r5]; [discriminate|].
    destruct (consume_trailing ctx r5) as [tr r6] eqn:Er. apply trailing_QA, QA_le in Er.
    injection H as <- <-. ln.
  Qed.
  Lemma statement_nf n toks : condok toks -> (16 * len toks <= n)%nat -> statement n ctx toks <> OutOfFuel.
  Proof.
    intros Hc Hn. unfold statement. destruct toks as [|fn r0]; [discriminate|].
    apply condok_tl in Hc.
    destruct (take_ws r0) as [ws r1] eqn:Ew. apply take_ws_QA in Ew.
    pose proof (QA_le _ _ _ Ew). pose proof (QA_cond _ _ _ Ew Hc) as Hc1.
    destruct r1 as [|lp r1]; [discriminate|]. destruct (negb _); [discriminate|].
    apply condok_tl in Hc1.
    destruct (take_ws r1) as [ws2 r2] eqn:Ew2. apply take_ws_QA in Ew2.
    pose proof (QA_le _ _ _ Ew2). pose proof (QA_cond _ _ _ Ew2 Hc1) as Hc2.
    apply bindr_nf.
    { apply (tm_call _ (all_Tm n) true); auto; [now apply command_parser_wf|ln]. }
    intros [args r3] _. apply bindr_nf; [apply stmt_tail_nf; unfold len; lia|].
    intros [tl r4] _. destruct r4 as [|rp r5]; [discriminate|].
    destruct (consume_trailing ctx r5); discriminate.
  Qed.

  Lemma take_ws_lt t toks a r : is_ws t = true -> take_ws (t :: toks) = (a, r) -> (len r <= len toks)%nat.
  Proof.
    intros Ht. cbn [take_ws]. rewrite Ht. destruct (take_ws toks) as [a0 r0] eqn:E.
    intros H. injection H as <- <-. now apply take_ws_QA, QA_le in E.
  Qed.

  Lemma flow_facts n : (forall bset acc toks a r, body_loop n ctx bset acc toks = Ok (a, r) -> exists x, QA toks r x)
    /\ (forall toks x r, flow n ctx toks = Ok (x, r) -> QA toks r [x]).
  Proof.
    destruct (body_Q R_any any_refl any_app anyg (fun _ _ _ => I) true ctx any_tuple
                (fun _ _ _ _ => I) Hcmd n) as (Hb & Hf & _).
    split; intros.
    - destruct (Hb _ _ _ _ _ I H) as (new & _ & HQ). eauto.
    - apply Hf; auto. exact I.
  Qed.
  Lemma flow_lt n toks x r : flow n ctx toks = Ok (x, r) -> (len r < len toks)%nat.
  Proof.
    intros H. destruct n as [|m]; [discriminate|]. cbn [flow] in H.
    destruct toks as [|t toks]; [discriminate|]. destruct (seqb _ _) eqn:Es.
    - apply bindr_ok in H as ([a r1] & E & H). injection H as <- <-.
      destruct m as [|m]; [discriminate|]. cbn [if_loop] in E.
      apply seqb_eq in Es. rewrite Es in E. change (seqb $"IF" $"ENDIF") with false in E. cbv iota in E.
      apply bindr_ok in E as ([op r2] & E2 & E). apply statement_lt in E2.
      apply bindr_ok in E as ([bd r3] & E3 & E). apply flow_facts in E3 as (x3 & E3). apply QA_le in E3.
      destruct (body_Q R_any any_refl any_app anyg (fun _ _ _ => I) true ctx any_tuple
                (fun _ _ _ _ => I) Hcmd m) as (_ & _ & Hi).
      apply Hi in E; [|exact I]. destruct E as (new & _ & E). apply QA_le in E. lia.
    - apply bindr_ok in H as ([op r1] & E & H). apply statement_lt in E.
      apply bindr_ok in H as ([bd r2] & E2 & H). apply flow_facts in E2 as (x2 & E2). apply QA_le in E2.
      apply bindr_ok in H as ([cl r3] & E3 & H). apply statement_lt in E3. injection H as <- <-. lia.
  Qed.

  Lemma body_Tm n :
    (forall bset acc toks, condok toks -> (16 * len toks + 3 <= n)%nat ->
       body_loop n ctx bset acc toks <> OutOfFuel)
    /\ (forall toks, condok toks -> (16 * len toks + 2 <= n)%nat -> flow n ctx toks <> OutOfFuel)
    /\ (forall acc toks, condok toks -> (16 * len toks + 1 <= n)%nat ->
       if_loop n ctx acc toks <> OutOfFuel).
  Proof.
    induction n as [|m (IHb & IHf & IHi)]; [split; [|split]; intros; lia|].
    split; [|split].
    - intros bset acc toks Hc Hn. cbn [body_loop].
      destruct toks as [|t toks]; [discriminate|]. pose proof (condok_tl _ _ Hc) as Hc'.
      destruct (is_ws t) eqn:Ews.
      { destruct (take_ws (t :: toks)) as [ws r0] eqn:Ew. pose proof (take_ws_lt _ _ _ _ Ews Ew).
        apply take_ws_QA in Ew. apply IHb; eauto using QA_cond. ln. }
      assert (Hcom : forall c r, consume_comment (t :: toks) = Ok (c, r) ->
                body_loop m ctx bset (acc ++ [c]) r <> OutOfFuel).
      { intros c r E. pose proof (comment_lt _ _ _ _ E). apply comment_QA in E.
        apply IHb; eauto using QA_cond. ln. }
      destruct (is_tt COMMENT t); [apply bindr_nf; [apply comment_nf|intros [c r] E; auto]|].
      destruct (is_onoff t); [apply IHb; auto; ln|].
      destruct (is_tt BRACKET_COMMENT t); [apply bindr_nf; [apply comment_nf|intros [c r] E; auto]|].
      destruct (is_tt WORD t).
      { destruct (smem _ bset); [discriminate|]. destruct (smem _ flow_names).
        - apply bindr_nf; [apply IHf; auto; ln|]. intros [sub r] E. pose proof (flow_lt _ _ _ _ E).
          apply flow_facts in E. apply IHb; eauto using QA_cond. ln.
        - apply bindr_nf; [apply statement_nf; auto; ln|]. intros [sub r] E.
          pose proof (statement_lt _ _ _ _ E). apply statement_QA in E.
          apply IHb; eauto using QA_cond. ln. }
      destruct (is_tt ATWORD t).
      { unfold atword_statement. destruct (consume_trailing ctx toks) as [tr r] eqn:E. apply trailing_QA in E.
        pose proof (QA_le _ _ _ E). cbn [bindr]. apply IHb; eauto using QA_cond. ln. }
      destruct (is_tt BYTEORDER_MARK t); [apply IHb; auto; ln|discriminate].
    - intros toks Hc Hn. cbn [flow]. destruct toks as [|t toks]; [discriminate|].
      destruct (seqb _ _).
      + apply bindr_nf; [apply IHi; auto; ln|fin].
      + apply bindr_nf; [apply statement_nf; auto; ln|]. intros [op r1] E.
        pose proof (statement_lt _ _ _ _ E). apply statement_QA in E. pose proof (QA_cond _ _ _ E Hc) as Hc1.
        apply bindr_nf; [apply IHb; auto; ln|]. intros [bd r2] E2. apply flow_facts in E2 as (x2 & E2).
        pose proof (QA_le _ _ _ E2). pose proof (QA_cond _ _ _ E2 Hc1) as Hc2.
        apply bindr_nf; [apply statement_nf; auto; ln|fin].
    - intros acc toks Hc Hn. cbn [if_loop]. destruct toks as [|t toks]; [discriminate|].
      destruct (seqb _ _).
      + apply bindr_nf; [apply statement_nf; auto; ln|fin].
      + apply bindr_nf; [apply statement_nf; auto; ln|]. intros [op r1] E.
        pose proof (statement_lt _ _ _ _ E). apply statement_QA in E. pose proof (QA_cond _ _ _ E Hc) as Hc1.
        apply bindr_nf; [apply IHb; auto; ln|]. intros [bd r2] E2. apply flow_facts in E2 as (x2 & E2).
        pose proof (QA_le _ _ _ E2). pose proof (QA_cond _ _ _ E2 Hc1) as Hc2.
        apply IHi; auto. ln.
  Qed.
End Term.
