(** * PropAutosort: which argument lists are sorted (C131, C132)

    lock, /repo/cmakelang/format/formatter.py 1222-1236, sorts the groups the parser
    marked as sortable when format.autosort is set.  The marks are made in
    /repo/cmakelang/parse/argument_nodes.py 347-364 and in parse/funs/add_executable.py
    and add_library.py. *)
From Verif Require Import Base Regex Lex LexProofs LexClass TextOps TextProofs Tree Parse ParseProofs PropParse CmdSpec
  StdSpecs StdDb StdWf PropStd PropBlocks Layout LayoutProofs Markup Pipeline PropLayout ParseShape ArgShape Lint LintTree PropLintChecks PropLintDefs
  PropLintCrash LintShape PropPlaces.

(** ** Trees without sortable groups *)
Definition srt (k : kind) : bool := match k with KPargGroup true _ _ => true | _ => false end.
Fixpoint nosort (n : pnode) : bool :=
  match n with T _ => true | N k cs => negb (srt k) && forallb nosort cs end.
Definition V (n : pnode) : Prop := nosort n = true.
Lemma V_N k cs : srt k = false -> Forall V cs -> V (N k cs).
Proof. intros Hk H. unfold V. cbn [nosort]. rewrite Hk. cbn [negb andb]. apply forallb_forall. now apply Forall_forall. Qed.
(** no note asking for sorting *)
Definition U (t : token) : Prop := tag_in t [$"sortable"; $"sort"] = false.
Lemma U_suf a b : Forall U (a ++ b) -> Forall U b.
Proof. now intros H%Forall_app. Qed.
Lemma V_T t : V (T t). Proof. reflexivity. Qed.
Lemma snocV acc x : Forall V acc -> V x -> Forall V (acc ++ [x]).
Proof. intros. apply Forall_app. auto. Qed.
Lemma appV a b : Forall V a -> Forall V b -> Forall V (a ++ b).
Proof. intros. apply Forall_app. auto. Qed.
Lemma consV a b : V a -> Forall V b -> Forall V (a :: b).
Proof. auto. Qed.
Lemma nilV : Forall V nil. Proof. auto. Qed.
Lemma argV (b : bool) cs : Forall V cs -> V (N (if b then KFlag else KArgument) cs).
Proof. intros. destruct b; apply V_N; auto. Qed.
Create HintDb vdb.
#[local] Hint Resolve snocV appV consV nilV V_T argV : vdb.
#[local] Hint Extern 2 (V (N _ _)) => apply V_N; [reflexivity|] : vdb.
Ltac qq := auto 12 with vdb.

Lemma take_ws_v toks : forall a r, take_ws toks = (a, r) -> Forall V a.
Proof.
  induction toks as [|t toks IH]; simpl; intros a r H; [injection H as <- <-; qq|].
  destruct (is_ws t); [|injection H as <- <-; qq].
  destruct (take_ws toks) as [a0 r0]. injection H as <- <-. specialize (IH _ _ eq_refl). qq.
Qed.
Lemma V_ws ws : Forall V ws -> Forall V ws. Proof. auto. Qed.
Lemma V_leaf k t : srt k = false -> V (N k [T t]).
Proof. intros H. apply V_N; qq. Qed.
Lemma V_parg tg sp cs : Forall V cs -> V (N (KPargGroup false tg sp) cs).
Proof. now apply V_N. Qed.
Lemma V_word (b : bool) t tr : Forall V tr -> V (N (if b then KFlag else KArgument) (T t :: tr)).
Proof. intros H. destruct b; apply V_N; qq. Qed.
Lemma V_cm1 b t : V (N (KComment b) [T t]).
Proof. reflexivity. Qed.

(** ** The conditions on a parser *)
(** a specification that is not declared sortable *)
Definition un (sp : pspec) : bool := negb (ps_sortable sp).
Definition item_un (i : seqitem) : Prop := match i with SPos sp _ _ => un sp = true | _ => True end.
Definition g_un (g : gaction) : Prop := match g with GPos sp _ _ _ => un sp = true | _ => True end.
Inductive wfu : parser -> Prop :=
| wu_std cs kw : Forall (fun sp => un sp = true) (cs_pargs cs) -> (forall k p, In (k, p) kw -> wfu p) -> wfu (PStd cs kw)
| wu_pos sp : un sp = true -> wfu (PPos sp)
| wu_tuple np nt fl : wfu (PTuple np nt fl)
| wu_shell : wfu PShell
| wu_cond : wfu PCond
| wu_null : wfu PNull
| wu_raise e : wfu (PRaise e)
| wu_disp f : (forall toks, wfu (f toks)) -> wfu (PDisp f)
| wu_seq items lp : Forall item_un items -> wfuo lp -> wfu (PSeq items lp)
| wu_inst : wfu PInstallTargets
with wfuo : option gspec -> Prop :=
| wuo_none : wfuo None
| wuo_some keep step :
    (forall acc toks w p extra chk, step acc toks = GKw w p extra chk -> wfu p) ->
    (forall acc toks, g_un (step acc toks)) -> wfuo (Some (GSpec keep step)).
(** the two commands whose sources are sorted without being asked *)
Definition adds (name : str) : bool := smem name [$"add_library"; $"add_executable"].
Definition wfuctx (ctx : pctx) : Prop := forall name p, db ctx name = Some p -> adds name = false -> wfu p.
Lemma resolve_wu p : wfu p -> forall toks, wfu (resolve p toks).
Proof. induction 1; intros; simpl; try (constructor; auto; fail). auto. Qed.
Lemma install_wu : wfuo (Some (GSpec (fun _ => false) install_step)).
Proof.
  constructor.
  - intros acc toks w p extra chk. unfold install_step.
    destruct toks as [|t toks]; [discriminate|].
    destruct (normalized_kwarg t) as [w'|]; [|discriminate].
    destruct (smem w' designated) eqn:Es.
    + intros H. injection H as <- <- <- <-. constructor.
    + destruct (kw_lookup w' install_kwargs) as [q|] eqn:E; [|discriminate].
      intros H. injection H as <- <- <- <-.
      apply lookup_In in E. simpl in E.
      repeat (destruct E as [E|E]; [injection E as <- <-; constructor; reflexivity|]). destruct E.
  - intros acc toks. unfold install_step. destruct toks as [|t toks]; [reflexivity|].
    destruct (normalized_kwarg t) as [w'|]; [|reflexivity].
    destruct (smem w' designated); [exact I|]. destruct (kw_lookup w' install_kwargs); [exact I|reflexivity].
Qed.
Lemma command_wu ctx name : wfuctx ctx -> adds name = false -> wfu (command_parser ctx name).
Proof.
  intros H Hn. unfold command_parser. destruct (db ctx name) eqn:E; [eapply H; eauto|].
  destruct (db ctx $"_default") eqn:E2; [eapply H; eauto|]. constructor; [repeat constructor|]. intros k p [].
Qed.
Lemma add_tag_V tag n : V n -> V (add_tag tag n).
Proof. destruct n as [t|k cs]; [auto|]. destruct k; auto. Qed.
Lemma add_tags_V tags : forall n, V n -> V (add_tags tags n).
Proof. unfold add_tags. induction tags as [|t tags IH]; simpl; auto using add_tag_V. Qed.
Lemma split_default_un l : Forall (fun sp => un sp = true) l ->
  un (fst (split_default l)) = true /\ Forall (fun sp => un sp = true) (snd (split_default l)).
Proof.
  intros H. unfold split_default. destruct l as [|p [|q l]]; [split; [reflexivity|constructor]| |split; [reflexivity|exact H]].
  pose proof (Forall_inv H). destruct (_ && _); simpl; split; auto; reflexivity.
Qed.


Section Sort.
  Variable ctx : pctx.
  Lemma cloop_v p : forall k toks, (List.length toks <= k)%nat ->
    forall al a r, cloop p al toks = (a, r) -> Forall V a.
  Proof.
    induction k as [|k IH]; intros toks Hk al a r H.
    - destruct toks; [|simpl in Hk; lia]. injection H as <- <-. qq.
    - destruct toks as [|t toks]; [injection H as <- <-; qq|]. simpl in Hk. cbn [cloop] in H.
      destruct al as [col0|]; [destruct (is_tt NEWLINE t); [destruct toks as [|t2 toks]|]|];
      repeat match type of H with
      | (match ?x with _ => _ end) = _ => destruct x eqn:?
      | (let (_, _) := ?x in _) = _ => destruct x eqn:?
      end; try (injection H as <- <-); qq;
      repeat match goal with E : cloop _ _ _ = _ |- _ => apply IH in E; [|simpl in *; lia] end; qq.
  Qed.
  Lemma consume_comment_v toks c r : consume_comment toks = Ok (c, r) -> V c.
  Proof.
    unfold consume_comment. destruct toks as [|t toks]; [discriminate|]. intros H.
    destruct (tmem _ _).
    - injection H as <- <-. qq.
    - destruct (cloop _ _ _) as [[|n a0] r0] eqn:E; [discriminate|]. injection H as <- <-.
      pose proof (cloop_v _ _ _ (le_n _) _ _ _ E). qq.
  Qed.
  Lemma exloop_v toks : forall a r, exloop ctx toks = (a, r) -> Forall V a.
  Proof.
    induction toks as [|t toks IH]; intros a r H.
    - simpl in H. injection H as <- <-. qq.
    - cbn [exloop] in H. destruct (next_is_explicit ctx (t :: toks)).
      + destruct (exloop ctx toks) as [a0 r0]. injection H as <- <-. specialize (IH _ _ eq_refl). qq.
      + injection H as <- <-. qq.
  Qed.
  Lemma consume_trailing_v toks a r : consume_trailing ctx toks = (a, r) -> Forall V a.
  Proof.
    intros H. unfold consume_trailing in H. destruct (negb _).
    { injection H as <- <-. qq. }
    destruct (next_is_explicit ctx toks).
    - destruct (take_ws toks) as [ws r0] eqn:E. apply take_ws_v in E.
      destruct (exloop ctx r0) as [a0 r1] eqn:E2. apply exloop_v in E2. injection H as <- <-. qq.
    - assert (exists ws r2, match toks with
        | t :: r0 => if is_tt WHITESPACE t then ([T t], r0) else (nil, toks)
        | nil => (nil, nil) end = (ws, r2) /\ Forall V ws) as (ws & r2 & E & Hw).
      { destruct toks as [|t0 r0]; [|destruct (is_tt WHITESPACE t0)]; eexists; eexists; split; try reflexivity; qq. }
      rewrite E in H. destruct (cloop is_valid_trailing None r2) as [a0 r1] eqn:E2.
      apply (cloop_v _ _ _ (le_n _)) in E2. injection H as <- <-. qq.
  Qed.
  Lemma take_ws_U toks ws r : take_ws toks = (ws, r) -> Forall V ws /\ (Forall U toks -> Forall U r).
  Proof. intros H. split; [eapply take_ws_v; eauto|]. apply (ParseProofs.take_ws_Q (fun _ _ => True)) in H as (u & -> & _); auto. apply U_suf. Qed.
  Lemma consume_comment_U toks c r : consume_comment toks = Ok (c, r) -> Forall U toks -> V c /\ Forall U r.
  Proof. intros H F. split; [eapply consume_comment_v; eauto|]. apply (ParseProofs.consume_comment_Q (fun _ _ => True)) in H as (u & -> & _); auto. now apply U_suf in F. Qed.
  Lemma consume_trailing_U toks a r : consume_trailing ctx toks = (a, r) -> Forall U toks -> Forall V a /\ Forall U r.
  Proof. intros H F. split; [eapply consume_trailing_v; eauto|]. apply (ParseProofs.consume_trailing_Q (fun _ _ => True)) in H as (u & -> & _); auto. now apply U_suf in F. Qed.
  Lemma take_wsc_V fuel : forall toks a r, take_wsc fuel toks = Ok (a, r) -> (Forall U toks -> Forall V a /\ Forall U r).
  Proof.
    induction fuel as [|f IH]; simpl; intros toks a r H Hg; [discriminate|].
    destruct toks as [|t toks]; [injection H as <- <-; auto|].
    pose proof (Forall_inv_tail Hg) as Hg1.
    destruct (is_ws t).
    { apply bindr_ok in H as ([a0 r0] & E & H). injection H as <- <-.
      destruct (IH _ _ _ E Hg1) as [A B]. split; auto. constructor; auto. apply V_T. }
    destruct (is_comment t).
    { apply bindr_ok in H as ([c r0] & E & H). apply bindr_ok in H as ([a1 r1] & E1 & H).
      injection H as <- <-. destruct (consume_comment_U _ _ _ E Hg) as [A B].
      destruct (IH _ _ _ E1 B) as [A1 B1]. split; auto. }
    destruct (is_onoff t) eqn:Eo.
    { apply bindr_ok in H as ([a0 r0] & E & H). injection H as <- <-.
      destruct (IH _ _ _ E Hg1) as [A B]. split; auto. constructor; auto. now apply V_leaf. }
    injection H as <- <-. auto.
  Qed.
  Lemma flag_loop_V fuel flags bs : forall acc toks a r, Forall V acc -> Forall U toks ->
    flag_loop fuel ctx flags bs acc toks = Ok (a, r) -> Forall V a /\ Forall U r.
  Proof.
    induction fuel as [|f IH]; simpl; intros acc toks a r Ha Hg H; [discriminate|].
    destruct toks as [|t toks]; [injection H as <- <-; auto|].
    pose proof (Forall_inv_tail Hg) as Hg1.
    destruct (should_break t bs); [injection H as <- <-; auto|].
    destruct (is_ws t); [eapply IH; [| |exact H]; auto; apply snoc; auto; apply V_T|].
    destruct (negb _) eqn:En; [injection H as <- <-; auto|].
    destruct (consume_trailing ctx toks) as [tr r0] eqn:E.
    destruct (consume_trailing_U _ _ _ E Hg1) as [A B].
    eapply IH; [| |exact H]; auto. apply snoc; auto. apply (V_word true); auto.
  Qed.
  Lemma close_sub_V flags acc sub late : Forall V acc -> (forall cs, sub = Some cs -> Forall V cs) -> Forall V late ->
    Forall V (close_sub flags acc sub late).
  Proof.
    intros Ha Hs Hl. unfold close_sub. apply Forall_app. split; auto. apply Forall_app. split; auto.
    destruct sub as [cs|]; auto. constructor; auto. apply V_parg; auto.
  Qed.
  Lemma tuple_loop_V fuel npargs ntup flags bs : forall np nt acc sub late toks a r,
    Forall V acc -> (forall cs, sub = Some cs -> Forall V cs) -> Forall V late -> Forall U toks ->
    tuple_loop fuel ctx npargs ntup flags bs np nt acc sub late toks = Ok (a, r) ->
    Forall V a /\ Forall U r.
  Proof.
    induction fuel as [|f IH]; intros np nt acc sub late toks a r Ha Hs Hl Hg H; [discriminate|].
    cbn [tuple_loop] in H.
    assert (Hd : Ok (close_sub flags acc sub late, toks) = Ok (a, r) -> Forall V a /\ Forall U r).
    { intros H'. injection H' as <- <-. split; auto. now apply close_sub_V. }
    destruct toks as [|t toks]; [auto|].
    pose proof (Forall_inv_tail Hg) as Hg1.
    apply bindr_ok in H as (full & _ & H).
    destruct full; [auto|]. destruct (should_break t bs); [auto|].
    destruct (is_ws t).
    { eapply IH; [| | | |exact H]; auto. apply snoc; auto. apply V_T. }
    destruct (is_comment t).
    { eapply IH; [| | | |exact H]; auto. apply snoc; auto. apply V_cm1. }
    destruct toks as [|t' toks]; [discriminate|].
    destruct (is_onoff t') eqn:Eo.
    { eapply IH; [| | | |exact H]; auto; [|exact (Forall_inv_tail Hg1)]. apply snoc; auto. now apply V_leaf. }
    assert (H1 : exists acc1 sub1 late1 nt1, Forall V acc1 /\ Forall V sub1 /\ Forall V late1 /\
      match sub with Some cs => (acc, cs, late, nt) | None => (acc ++ late, nil, nil, 0) end
      = (acc1, sub1, late1, nt1)).
    { destruct sub as [cs|].
      - exists acc, cs, late, nt. auto.
      - exists (acc ++ late), nil, nil, 0. split; [apply Forall_app; auto|auto]. }
    destruct H1 as (acc1 & sub1 & late1 & nt1 & A1 & S1 & L1 & E1). rewrite E1 in H.
    destruct (consume_trailing ctx (t' :: toks)) as [tr r0] eqn:E.
    destruct (consume_trailing_U _ _ _ E Hg1) as [A B].
    assert (S2 : Forall V (sub1 ++ [N (if kwarg_in t flags then KFlag else KArgument) (T t :: tr)])).
    { apply snoc; auto. now apply V_word. }
    destruct (_ >=? _).
    - eapply IH; [| | | |exact H]; auto; [|discriminate].
      apply close_sub_V; auto. intros cs' E'. injection E' as <-. exact S2.
    - eapply IH; [| | | |exact H]; auto. intros cs' E'. injection E' as <-. exact S2.
  Qed.

  Record Vs (n : nat) : Prop := {
    v_call : forall p bs nested toks x r, wfu p -> Forall U toks ->
      call n ctx p bs nested toks = Ok (x, r) -> V x /\ Forall U r;
    v_std : forall dflt kw bs kbs nested pargs acc toks a r, un dflt = true -> Forall (fun sp => un sp = true) pargs ->
      (forall k p, In (k, p) kw -> wfu p) -> Forall V acc -> Forall U toks ->
      std_loop n ctx dflt kw bs kbs nested pargs acc toks = Ok (a, r) -> Forall V a /\ Forall U r;
    v_posg : forall sp bs nested toks x r, un sp = true -> Forall U toks ->
      pos_group n ctx sp bs nested toks = Ok (x, r) -> V x /\ Forall U r;
    v_pos : forall sp bs nested nc acc toks a r, un sp = true -> Forall V acc -> Forall U toks ->
      pos_loop n ctx sp bs nested nc acc toks = Ok (a, r) -> Forall V a /\ Forall U r;
    v_cond : forall bs acc toks a r, Forall V acc -> Forall U toks ->
      cond_loop n ctx bs acc toks = Ok (a, r) -> Forall V a /\ Forall U r;
    v_kw : forall w p bs toks x r, wfu p -> Forall U toks ->
      kwgroup n ctx w p bs toks = Ok (x, r) -> V x /\ Forall U r;
    v_paren : forall toks x r, Forall U toks -> paren n ctx toks = Ok (x, r) -> V x /\ Forall U r;
    v_seq : forall items lp bs nested acc toks a r, Forall item_un items -> wfuo lp -> Forall V acc -> Forall U toks ->
      seq_items n ctx items lp bs nested acc toks = Ok (a, r) -> Forall V a /\ Forall U r;
    v_gl : forall keep step bs nested acc toks a r, wfuo (Some (GSpec keep step)) ->
      Forall V acc -> Forall U toks ->
      gloop n ctx keep step bs nested acc toks = Ok (a, r) -> Forall V a /\ Forall U r }.

  Ltac fin H := injection H as <- <-; auto.
  Lemma V_arg s cs : Forall V cs -> V (N (KArgGroup s) cs).
  Proof. now apply V_N. Qed.

  Lemma all_Vs n : Vs n.
  Proof.
    induction n as [|m IH]; [constructor; intros; discriminate|].
    constructor.
    - (* call *)
      intros p bs nested toks x r Hp Hg H. cbn [call] in H.
      apply resolve_wu with (toks := toks) in Hp.
      destruct (resolve p toks) as [cs kw|sp|np nt fl| | | |e|f|items lp| |so|so].
      + destruct (take_ws toks) as [ws r0] eqn:Ew. apply take_ws_U in Ew as [Hw Er].
        inversion Hp as [? ? Hpf Hkw| | | | | | | | |]; subst.
        destruct (split_default_un (cs_pargs cs) Hpf) as [Hd1 Hd2].
        destruct (split_default (cs_pargs cs)) as [dflt pargs]. cbn [fst snd] in Hd1, Hd2.
        apply bindr_ok in H as ([a r1] & E & H). injection H as <- <-.
        apply v_std in E as [A B]; auto using V_ws. split; auto. now apply V_arg.
      + inversion Hp; subst. apply v_posg in H as (A & B); auto.
      + apply bindr_ok in H as ([a r1] & E & H). injection H as <- <-.
        apply tuple_loop_V in E as [A B]; auto; [|discriminate]. split; auto. now apply V_arg.
      + destruct (take_ws toks) as [ws r0] eqn:Ew. apply take_ws_U in Ew as [Hw Er].
        cbn [split_default cs_pargs legacy_cspec ps_legacy ps_nargs is_exact negb andb] in H.
        apply bindr_ok in H as ([a r1] & E & H). injection H as <- <-.
        apply v_std in E as [A B]; auto using V_ws; [|intros k q []]. split; auto. apply V_arg.
        rewrite Forall_map. eapply Forall_impl; [|exact A]. intros; now apply add_tag_V.
      + destruct (take_ws toks) as [ws r0] eqn:Ew. apply take_ws_U in Ew as [Hw Er].
        apply bindr_ok in H as ([a r1] & E & H). injection H as <- <-.
        apply v_cond in E as [A B]; auto using V_ws. split; auto. now apply V_arg.
      + injection H as <- <-. split; auto. now apply V_arg.
      + discriminate.
      + discriminate.
      + apply bindr_ok in H as ([a r1] & E & H). injection H as <- <-. inversion Hp; subst.
        apply v_seq in E as [A B]; auto. split; auto. now apply V_arg.
      + apply bindr_ok in H as ([a r1] & E & H). injection H as <- <-.
        apply v_seq in E as [A B]; auto; [|repeat constructor|apply install_wu]. split; auto. now apply V_arg.
      + inversion Hp.
      + inversion Hp.
    - (* std_loop *)
      intros dflt kw bs kbs nested pargs acc toks a r Hd Hpa Hkw Ha Hg H. cbn [std_loop] in H.
      destruct toks as [|t toks]; [fin H|]. pose proof (Forall_inv_tail Hg) as Hg1.
      destruct (is_ws t). { eapply v_std; [exact IH| | |exact Hkw| | |exact H]; auto. apply snoc; auto. apply V_T. }
      destruct (is_comment t).
      { destruct (belongs_up _ _ _ _); [fin H|].
        apply bindr_ok in H as ([c r1] & E & H). destruct (consume_comment_U _ _ _ E Hg) as [A B].
        eapply v_std; [exact IH| | |exact Hkw| | |exact H]; auto. apply snoc; auto. }
      destruct (is_onoff t) eqn:Eo.
      { eapply v_std; [exact IH| | |exact Hkw| | |exact H]; auto. apply snoc; auto. now apply V_leaf. }
      destruct (should_break t bs && _); [fin H|].
      destruct (match normalized_kwarg t with Some _ => _ | None => _ end) as [[w p]|] eqn:Ek.
      + apply bindr_ok in H as ([sub r1] & E & H).
        assert (Hp : wfu p).
        { destruct (normalized_kwarg t); [|discriminate]. destruct (kw_lookup s kw) eqn:El; [|discriminate].
          injection Ek as <- <-. apply lookup_In in El. eauto. }
        apply v_kw in E as [A B]; auto.
        destruct (_ <=? _)%nat; [discriminate|].
        eapply v_std; [exact IH| | |exact Hkw| | |exact H]; auto. now apply snoc.
      + assert (Hps : un (match pargs with p :: _ => p | nil => dflt end) = true /\ Forall (fun sp => un sp = true) (tl pargs)).
        { destruct Hpa; simpl; auto. }
        destruct Hps as [Hps Htl].
        apply bindr_ok in H as ([sub r1] & E & H). apply v_posg in E as (A & B); auto.
        destruct (_ <=? _)%nat; [discriminate|].
        eapply v_std; [exact IH| | |exact Hkw| | |exact H]; auto. now apply snoc.
    - (* pos_group *)
      intros sp bs nested toks x r Hsp Hg H. cbn [pos_group] in H.
      destruct (take_ws toks) as [ws r0] eqn:Ew. apply take_ws_U in Ew as [Hw Er].
      apply bindr_ok in H as ([a r1] & E & H). injection H as <- <-.
      specialize (Er Hg). apply v_pos in E as [A B]; auto using V_ws. split; auto.
      apply V_N; [|exact A]. unfold un in Hsp. apply negb_true_iff in Hsp.
      destruct r0 as [|t r0]; [cbn [srt]; now rewrite Hsp|]. apply Forall_inv in Er. unfold U in Er. rewrite Er.
      cbn [srt]. destruct (tag_in t [$"unsortable"; $"unsort"]); [reflexivity|]. now rewrite Hsp.
    - (* pos_loop *)
      intros sp bs nested nc acc toks a r Hsp Ha Hg H. cbn [pos_loop] in H.
      destruct toks as [|t toks]; [fin H|]. pose proof (Forall_inv_tail Hg) as Hg1.
      apply bindr_ok in H as (full & _ & H).
      destruct full; [fin H|].
      destruct (should_break t bs && _); [fin H|].
      destruct (is_tt LEFT_PAREN t).
      { apply bindr_ok in H as ([sub r1] & E & H). apply v_paren in E as (A & B); auto.
        eapply v_pos; [exact IH| | | |exact H]; auto. now apply snoc. }
      destruct (is_ws t).
      { eapply v_pos; [exact IH| | | |exact H]; auto. apply snoc; auto. apply V_T. }
      destruct (is_comment t).
      { destruct (belongs_up _ _ _ _); [fin H|].
        apply bindr_ok in H as ([c r1] & E & H). destruct (consume_comment_U _ _ _ E Hg) as [A B].
        eapply v_pos; [exact IH| | | |exact H]; auto. apply snoc; auto. }
      destruct (is_onoff t) eqn:Eo.
      { eapply v_pos; [exact IH| | | |exact H]; auto. apply snoc; auto. now apply V_leaf. }
      destruct (consume_trailing ctx toks) as [tr r1] eqn:E.
      destruct (consume_trailing_U _ _ _ E Hg1) as [A B].
      eapply v_pos; [exact IH| | | |exact H]; auto. apply snoc; auto. now apply V_word.
    - (* cond_loop *)
      intros bs acc toks a r Ha Hg H. cbn [cond_loop] in H.
      destruct toks as [|t toks]; [fin H|]. pose proof (Forall_inv_tail Hg) as Hg1.
      destruct (should_break t bs); [fin H|].
      destruct (is_ws t). { eapply v_cond; [exact IH| | |exact H]; auto. apply snoc; auto. apply V_T. }
      destruct (is_comment t).
      { eapply v_cond; [exact IH| | |exact H]; auto. apply snoc; auto. apply V_cm1. }
      destruct (is_onoff t) eqn:Eo.
      { eapply v_cond; [exact IH| | |exact H]; auto. apply snoc; auto. now apply V_leaf. }
      destruct (is_tt LEFT_PAREN t).
      { apply bindr_ok in H as ([sub r1] & E & H). apply v_paren in E as (A & B); auto.
        eapply v_cond; [exact IH| | |exact H]; auto. now apply snoc. }
      destruct (kwarg_in t cond_words) eqn:Ekw.
      + apply bindr_ok in H as ([sub r1] & E & H).
        apply v_kw in E as [A B]; auto; [|constructor].
        destruct (_ <=? _)%nat; [discriminate|].
        eapply v_cond; [exact IH| | |exact H]; auto. now apply snoc.
      + apply bindr_ok in H as ([sub r1] & E & H). apply v_posg in E as (A & B); auto.
        eapply v_cond; [exact IH| | |exact H]; auto. now apply snoc.
    - (* kwgroup *)
      intros w p bs toks x r Hp Hg H. cbn [kwgroup] in H.
      destruct toks as [|t toks]; [discriminate|]. pose proof (Forall_inv_tail Hg) as Hg1.
      destruct (negb _) eqn:Eu; [discriminate|].
      destruct (take_ws toks) as [ws r0] eqn:Ew. apply take_ws_U in Ew as [Hws Er].
      apply bindr_ok in H as ([sub r1] & E & H). apply (v_call _ IH) in E as [A B]; auto.
      injection H as <- <-. split; auto. apply V_N; [reflexivity|]. constructor; [now apply V_leaf|]. apply Forall_app. split; [now apply V_ws|].
      destruct (_ <? _)%nat; auto.
    - (* paren *)
      intros toks x r Hg H. cbn [paren] in H.
      destruct toks as [|t toks]; [discriminate|]. pose proof (Forall_inv_tail Hg) as Hg1.
      destruct (negb _); [discriminate|].
      apply bindr_ok in H as ([sub r1] & E & H).
      apply (v_call _ IH) in E as [A B]; auto; [|constructor].
      destruct r1 as [|t2 r1]; [discriminate|].
      destruct (negb _); [discriminate|].
      destruct (consume_trailing ctx r1) as [tr r2] eqn:Et. injection H as <- <-.
      destruct (consume_trailing_U _ _ _ Et (Forall_inv_tail B)) as [C D].
      split; auto. apply V_N; [reflexivity|].
      constructor; [now apply V_leaf|]. constructor; [exact A|]. constructor; [now apply V_leaf|exact C].
    - (* seq_items *)
      intros items lp bs nested acc toks a r Hit Hlp Ha Hg H. cbn [seq_items] in H.
      destruct items as [|it items].
      { destruct lp as [[keep step]|]; [|fin H]. eapply v_gl; eauto. }
      pose proof (Forall_inv Hit) as Hi. pose proof (Forall_inv_tail Hit) as Hits.
      destruct it as [| |sp extra must].
      + destruct (take_ws toks) as [ws r0] eqn:Ew. apply take_ws_U in Ew as [Hws Er].
        eapply v_seq; [exact IH|exact Hits|exact Hlp| | |exact H]; auto. apply Forall_app; auto using V_ws.
      + apply bindr_ok in H as ([ws r0] & Ew & H). destruct (take_wsc_V _ _ _ _ Ew Hg) as [A B].
        eapply v_seq; [exact IH|exact Hits|exact Hlp| | |exact H]; auto. apply Forall_app; auto.
      + apply bindr_ok in H as ([sub r1] & E & H). apply v_posg in E as (A & B); auto.
        destruct (must && _); [discriminate|].
        eapply v_seq; [exact IH|exact Hits|exact Hlp| | |exact H]; auto. now apply snoc.
    - (* gloop *)
      intros keep step bs nested acc toks a r Hlp Ha Hg H. cbn [gloop] in H.
      destruct toks as [|t toks]; [fin H|]. pose proof (Forall_inv_tail Hg) as Hg1.
      destruct (should_break t bs); [fin H|].
      destruct (is_ws t). { eapply v_gl; [exact IH|exact Hlp| | |exact H]; auto. apply snoc; auto. apply V_T. }
      destruct (is_comment t && negb (keep t)).
      { eapply v_gl; [exact IH|exact Hlp| | |exact H]; auto. apply snoc; auto. apply V_cm1. }
      apply bindr_ok in H as ([sub r1] & E & H).
      destruct (_ <=? _)%nat; [discriminate|].
      assert (HQ : V sub /\ Forall U r1).
      { assert (Hst : g_un (step acc (t :: toks))) by (inversion Hlp; subst; auto).
        destruct (step acc (t :: toks)) as [w p extra chk|sp extra push tags|flags extra] eqn:Es.
        - apply bindr_ok in E as ([sub0 r0] & E & E2).
          assert (Hp : wfu p) by (inversion Hlp; subst; eauto).
          apply v_kw in E as [A B]; auto.
          destruct (chk sub0 r0); [discriminate|]. injection E2 as <- <-. auto.
        - apply bindr_ok in E as ([sub0 r0] & E & E2). apply v_posg in E as (A & B); auto.
          injection E2 as <- <-. auto using add_tags_V.
        - apply bindr_ok in E as ([a0 r0] & E & E2). injection E2 as <- <-.
          apply flag_loop_V in E as [A B]; auto. auto using V_parg. }
      destruct HQ as [A B]. eapply v_gl; [exact IH|exact Hlp| | |exact H]; auto. now apply snoc.
  Qed.

End Sort.
(** ** The shipped tables *)
Definition uns (l : list pspec) : bool := forallb un l.
(** no argument list in a table of the user is declared sortable *)
Fixpoint punsorted (p : parser) : bool :=
  match p with
  | PStd cs kw => uns (cs_pargs cs) && forallb (fun kp => punsorted (snd kp)) kw
  | PShell | PCond | PNull | PRaise _ => true
  | _ => false
  end.
Fixpoint punsorted_wu (p : parser) : punsorted p = true -> wfu p.
Proof.
  destruct p as [cs kw| | | | | | | | | | |]; intros H; try discriminate H; try (constructor; fail).
  simpl in H. apply andb_prop in H as [Hf H]. constructor.
  - unfold uns in Hf. rewrite forallb_forall in Hf. apply Forall_forall. exact Hf.
  - induction kw as [|[k0 p0] kw IH]; intros k p; [intros []|].
    simpl in H. apply andb_prop in H as [H1 H2].
    intros [E|Hin]; [injection E as <- <-; apply punsorted_wu, H1|]. now apply (IH H2 k).
Defined.
Definition table_unsorted (l : list (str * parser)) : bool := forallb (fun kp => punsorted (snd kp)) l.
Lemma table_wu l k p : table_unsorted l = true -> In (k, p) l -> wfu p.
Proof. unfold table_unsorted. rewrite forallb_forall. intros H Hin. apply punsorted_wu, (H _ Hin). Qed.
Lemma spec_table_unsorted : table_unsorted spec_table = true.
Proof. vm_compute. reflexivity. Qed.
Lemma flow_table_unsorted : table_unsorted flow_table = true.
Proof. vm_compute. reflexivity. Qed.
Definition kwwu (m : list (str * parser)) : Prop := Forall (fun kp => wfu (snd kp)) m.
Lemma std_wu cs kw : Forall (fun sp => un sp = true) (cs_pargs cs) -> kwwu kw -> wfu (PStd cs kw).
Proof. intros Hf H. constructor; auto. intros k p Hin. unfold kwwu in H. rewrite Forall_forall in H. apply (H _ Hin). Qed.
Lemma sat_wu n kw flags : un (PSpec n false nil flags true None) = true -> kwwu kw -> wfu (sat n kw flags).
Proof. intros Hf H. apply std_wu; [|exact H]. constructor; [exact Hf|constructor]. Qed.
Lemma lookup_wu k m p : Forall (fun kp => wfu (snd kp)) m -> kw_lookup k m = Some p -> wfu p.
Proof. intros H E. apply lookup_In in E. rewrite Forall_forall in H. apply (H _ E). Qed.
Lemma disp_first_wu m : Forall (fun kp => wfu (snd kp)) m -> wfu (disp_first m).
Proof.
  intros H. constructor. intros toks.
  assert (wfu sat_any) by (apply sat_wu; [reflexivity|constructor]).
  destruct (first_sem toks); auto. destruct (is_tt RIGHT_PAREN t); auto. destruct (is_tt DEREF t); auto.
  destruct (kw_lookup _ m) eqn:E; auto. eapply lookup_wu; eauto.
Qed.
Lemma set_wu vt : wfu (parse_set vt).
Proof.
  apply wu_seq; [repeat constructor|]. constructor.
  - intros acc toks w p extra chk. unfold set_step. destruct toks as [|t toks]; [intros H; discriminate H|].
    destruct (kwarg_in t [$"CACHE"]) eqn:E.
    + intros H; injection H as <- <- _ _. constructor; reflexivity.
    + destruct (kwarg_in t [$"PARENT_SCOPE"]); intros H; discriminate H.
  - intros acc toks. unfold set_step. destruct toks as [|t toks]; [reflexivity|].
    destruct (kwarg_in t [$"CACHE"]); [exact I|]. destruct (kwarg_in t _); reflexivity.
Qed.
Lemma foreach_in_wu : wfu parse_foreach_in.
Proof.
  apply wu_seq; [repeat constructor|]. constructor.
  - intros acc toks w p extra chk. unfold foreach_in_step. destruct toks as [|t toks]; [intros H; discriminate H|].
    destruct (kwarg_in t _) eqn:E; [intros H; injection H as <- <- _ _; constructor; reflexivity|].
    destruct (kwarg_in t [$"ITEMS"]) eqn:E2; [intros H; injection H as <- <- _ _; constructor; reflexivity|]. intros H; discriminate H.
  - intros acc toks. unfold foreach_in_step. destruct toks as [|t toks]; [reflexivity|].
    destruct (kwarg_in t _); [exact I|]. destruct (kwarg_in t _); [exact I|reflexivity].
Qed.
Lemma act_wu : wfu parse_add_custom_target.
Proof.
  apply wu_seq; [repeat constructor|]. constructor.
  - intros acc toks w p extra chk. unfold act_step.
    destruct toks as [|t toks]; [intros H; discriminate H|]. destruct (negb _); [intros H; discriminate H|].
    destruct (normalized_kwarg t) as [u|]; [|intros H; discriminate H]. destruct (smem u _); [intros H; discriminate H|].
    destruct (kw_lookup u act_kw) as [q|] eqn:E; [|intros H; discriminate H].
    intros H; injection H as <- <- _ _. apply lookup_In in E. simpl in E.
    repeat (destruct E as [E|E]; [injection E as <- <-; constructor; reflexivity|]). destruct E.
  - intros acc toks. unfold act_step. destruct toks as [|t toks]; [reflexivity|]. destruct (negb _); [reflexivity|].
    destruct (normalized_kwarg t) as [u|]; [|reflexivity]. destruct (smem u _); [exact I|].
    destruct (kw_lookup u act_kw); [exact I|reflexivity].
Qed.
Lemma gpos_wu items keep sp extra push tags : Forall item_un items -> un sp = true ->
  wfu (PSeq items (Some (GSpec keep (fun _ _ => GPos sp extra push tags)))).
Proof. intros Hi Hs. apply wu_seq; auto. constructor; [discriminate|intros; exact Hs]. Qed.

Ltac wuauto :=
  repeat (cbn [snd fst]; match goal with
  | |- _ /\ _ => split
  | |- un _ = true => vm_compute; reflexivity
  | |- item_un _ => first [exact I|vm_compute; reflexivity]
  | |- wfu (PStd _ _) => apply std_wu
  | |- wfu (sat _ _ _) => apply sat_wu
  | |- wfu (pos _ _) => apply wu_pos
  | |- wfu (PDisp _) => apply wu_disp; intros ?toks; cbv beta
  | |- wfu (need_tok ?t _) => unfold need_tok; destruct t
  | |- wfu (parse_set _) => apply set_wu
  | |- wfu parse_foreach_in => apply foreach_in_wu
  | |- wfu parse_add_custom_target => apply act_wu
  | |- wfu (disp_first _) => apply disp_first_wu
  | |- wfu (PSeq _ (Some (GSpec _ (fun _ _ => GPos _ _ _ _)))) => apply gpos_wu
  | |- wfu (PSeq _ None) => apply wu_seq; [|constructor]
  | |- wfu (if ?c then _ else _) => destruct c
  | |- wfu (match kw_lookup ?k ?m with _ => _ end) => let E := fresh in destruct (kw_lookup k m) eqn:E; [eapply lookup_wu; [|exact E]|]
  | |- wfu (match ?c with _ => _ end) => destruct c
  | |- wfu ?p => first [solve [constructor; auto] | unfold p]
  | |- kwwu ?m => unfold kwwu
  | |- Forall _ (_ :: _) => apply Forall_cons
  | |- Forall _ nil => apply Forall_nil
  | |- Forall _ (_ ++ _) => apply Forall_app; split
  | |- Forall _ (map _ _) => apply Forall_map, Forall_forall; intros ? ?
  | |- Forall _ ?m => unfold m
  end).
Lemma hand_wu vt : Forall (fun kp => adds (fst kp) = true \/ wfu (snd kp)) (hand_table vt).
Proof. unfold hand_table. repeat (apply Forall_cons; [first [left; reflexivity|right; wuauto; fail]|]). apply Forall_nil. Qed.
Lemma std_wuctx ex vt tbl : table_unsorted tbl = true -> wfuctx (std_ctx ex vt tbl).
Proof.
  intros Ht name p. simpl. unfold with_user. destruct (kw_lookup name tbl) as [q|] eqn:E.
  - intros H _. injection H as <-. apply lookup_In in E. eapply table_wu; eauto.
  - unfold std_table. intros H Hn. apply lookup_In in H. rewrite !in_app_iff in H. destruct H as [H|[H|H]].
    + eapply table_wu; [apply spec_table_unsorted|eauto].
    + eapply table_wu; [apply flow_table_unsorted|eauto].
    + pose proof (hand_wu vt) as F. rewrite Forall_forall in F. destruct (F _ H) as [E'|E']; [|exact E'].
      cbn [fst] in E'. congruence.
Qed.

(** ** Statements and bodies *)
(** the name of a statement *)
Definition head_adds (cs : list pnode) : bool :=
  match cs with N KFunname [T t] :: _ => adds (lower (spelling t)) | _ => false end.
Fixpoint calm (n : pnode) : bool :=
  match n with
  | T _ => true
  | N k cs =>
      match k with
      | KStatement _ => head_adds cs || forallb nosort cs
      | _ => negb (srt k) && forallb calm cs
      end
  end.
Definition C (n : pnode) : Prop := calm n = true.
Lemma V_C n : V n -> C n.
Proof.
  induction n as [t|k cs IH] using pnode_ind'; [reflexivity|]. unfold V, C. cbn [nosort calm]. intros H.
  apply andb_prop in H as [A B].
  assert (G : forallb calm cs = true).
  { rewrite forallb_forall in B |- *. intros x Hx. rewrite Forall_forall in IH. exact (IH x Hx (B x Hx)). }
  destruct k; try (rewrite A, G; reflexivity). rewrite B. apply orb_true_r.
Qed.
Lemma C_N k cs : srt k = false -> Forall C cs -> match k with KStatement _ => False | _ => True end -> C (N k cs).
Proof.
  intros Hk H Hs. unfold C. cbn [calm]. assert (G : forallb calm cs = true) by (now apply forallb_forall, Forall_forall).
  rewrite G. destruct k; try destruct Hs; rewrite Hk; reflexivity.
Qed.
Lemma Vs_C cs : Forall V cs -> Forall C cs.
Proof. apply Forall_impl. exact V_C. Qed.

Section Bodies.
  Variable ctx : pctx.
  Hypothesis Hctx : wfuctx ctx.
  Hypothesis Hwf : wfctx true ctx.
  Lemma stmt_tail_v fuel : forall toks a r, stmt_tail fuel toks = Ok (a, r) -> Forall V a.
  Proof.
    induction fuel as [|f IH]; simpl; intros toks a r H; [discriminate|].
    destruct toks as [|t toks]; [discriminate|].
    destruct (is_tt RIGHT_PAREN t); [injection H as <- <-; constructor|].
    destruct (is_ws t).
    { apply bindr_ok in H as ([a0 r0] & E & H). injection H as <- <-. apply IH in E. qq. }
    destruct (is_tt COMMENT t); [|discriminate].
    apply bindr_ok in H as ([c r0] & E & H). apply bindr_ok in H as ([a1 r1] & E1 & H).
    injection H as <- <-. apply consume_comment_v in E. apply IH in E1. qq.
  Qed.
  Lemma statement_C n toks x r : Forall U toks -> statement n ctx toks = Ok (x, r) -> C x /\ Forall U r.
  Proof.
    intros Hg H. split; [|destruct (statement_suffix ctx Hwf _ _ _ _ H) as (u & ->); now apply U_suf in Hg].
    unfold statement in H. destruct toks as [|fn r0]; [discriminate|].
    destruct (take_ws r0) as [ws r1] eqn:Ew. apply take_ws_U in Ew as [Hws Er].
    specialize (Er (Forall_inv_tail Hg)).
    destruct r1 as [|lp r1]; [discriminate|].
    destruct (negb _); [discriminate|].
    destruct (take_ws r1) as [ws2 r2] eqn:Ew2. apply take_ws_U in Ew2 as [Hws2 Er2].
    specialize (Er2 (Forall_inv_tail Er)).
    apply bindr_ok in H as ([args r3] & E & H).
    apply bindr_ok in H as ([tl r4] & Et & H). apply stmt_tail_v in Et.
    destruct r4 as [|rp r5]; [discriminate|].
    destruct (consume_trailing ctx r5) as [tr r6] eqn:Etr. apply consume_trailing_v in Etr.
    injection H as <- <-. unfold C. cbn [calm head_adds].
    destruct (adds (lower (spelling fn))) eqn:Ea; [reflexivity|]. cbn [orb].
    apply (v_call _ _ (all_Vs ctx n)) in E as [A B]; auto; [|now apply command_wu].
    apply forallb_forall, Forall_forall. change (Forall V (N KFunname [T fn] :: ws ++ [N KLParen [T lp]] ++ ws2 ++ [args] ++ tl ++ [N KRParen [T rp]] ++ tr)).
    qq.
  Qed.
  Lemma suf_U toks r : (exists u, toks = u ++ r) -> Forall U toks -> Forall U r.
  Proof. intros (u & ->). apply U_suf. Qed.
  Lemma body_C n :
    (forall bset acc toks a r, Forall C acc -> Forall U toks -> Parse.body_loop n ctx bset acc toks = Ok (a, r) -> Forall C a)
    /\ (forall toks x r, Forall U toks -> flow n ctx toks = Ok (x, r) -> C x)
    /\ (forall acc toks a r, Forall C acc -> Forall U toks -> if_loop n ctx acc toks = Ok (a, r) -> Forall C a).
  Proof.
    induction n as [|m (IHb & IHf & IHi)]; [split; [|split]; intros; discriminate|].
    split; [|split].
    - intros bset acc toks a r Ha Hg H. cbn [Parse.body_loop] in H.
      destruct toks as [|t toks]; [injection H as <- <-; auto|].
      pose proof (Forall_inv_tail Hg) as Hg1.
      destruct (is_ws t).
      { destruct (take_ws (t :: toks)) as [ws r0] eqn:Ew. apply take_ws_U in Ew as [Hws Er].
        eapply IHb; [| |exact H]; auto. apply snoc; auto. apply V_C, V_N; auto. }
      destruct (is_tt COMMENT t).
      { apply bindr_ok in H as ([c r1] & E & H). destruct (consume_comment_U _ _ _ E Hg) as [A B].
        eapply IHb; [| |exact H]; auto. apply snoc; auto. now apply V_C. }
      destruct (is_onoff t) eqn:Eo.
      { eapply IHb; [| |exact H]; auto. apply snoc; auto. reflexivity. }
      destruct (is_tt BRACKET_COMMENT t).
      { apply bindr_ok in H as ([c r1] & E & H). destruct (consume_comment_U _ _ _ E Hg) as [A B].
        eapply IHb; [| |exact H]; auto. apply snoc; auto. now apply V_C. }
      destruct (is_tt WORD t) eqn:Ewd.
      { destruct (smem _ bset); [injection H as <- <-; auto|].
        destruct (smem _ flow_names).
        - apply bindr_ok in H as ([sub r1] & E & H). pose proof (suf_U _ _ (flow_suffix ctx Hwf _ _ _ _ E) Hg). apply IHf in E; auto.
          eapply IHb; [| |exact H]; auto. apply snoc; auto.
        - apply bindr_ok in H as ([sub r1] & E & H). apply statement_C in E as (A & B); auto.
          eapply IHb; [| |exact H]; auto. apply snoc; auto. }
      destruct (is_tt ATWORD t) eqn:Eat.
      { apply bindr_ok in H as ([sub r1] & E & H). pose proof (suf_U _ _ (atword_suffix ctx _ _ _ E) Hg).
        unfold atword_statement in E. destruct (consume_trailing ctx toks) as [tr r6] eqn:Etr. apply consume_trailing_v in Etr. injection E as <- <-.
        eapply IHb; [| |exact H]; auto. apply snoc; auto. apply V_C. qq. }
      destruct (is_tt BYTEORDER_MARK t) eqn:Eb; [|discriminate].
      eapply IHb; [| |exact H]; auto.
    - intros toks x r Hg H. cbn [flow] in H.
      destruct toks as [|t toks]; [discriminate|].
      destruct (seqb _ _).
      + apply bindr_ok in H as ([a r1] & E & H). injection H as <- <-.
        apply IHi in E; auto. now apply C_N.
      + apply bindr_ok in H as ([op r1] & E & H). apply statement_C in E as (A & B); auto.
        apply bindr_ok in H as ([bd r2] & E2 & H).
        pose proof (suf_U _ _ (proj1 (body_suffix ctx Hwf _ _ _ _ _ _ E2)) B) as B2.
        apply IHb in E2; auto.
        apply bindr_ok in H as ([cl r3] & E3 & H).
        apply statement_C in E3 as (A3 & B3); auto.
        injection H as <- <-. apply C_N; auto. repeat constructor; auto. now apply C_N.
    - intros acc toks a r Ha Hg H. cbn [if_loop] in H.
      destruct toks as [|t toks]; [injection H as <- <-; auto|].
      destruct (seqb _ _).
      + apply bindr_ok in H as ([cl r1] & E & H). injection H as <- <-.
        apply statement_C in E as (A & B); auto. apply snoc; auto.
      + apply bindr_ok in H as ([op r1] & E & H). apply statement_C in E as (A & B); auto.
        apply bindr_ok in H as ([bd r2] & E2 & H).
        pose proof (suf_U _ _ (proj1 (body_suffix ctx Hwf _ _ _ _ _ _ E2)) B) as B2.
        apply IHb in E2; auto.
        eapply IHi; [| |exact H]; auto.
        apply Forall_app. split; auto. repeat constructor; auto. now apply C_N.
  Qed.
  Lemma parse_C toks tree : Forall U toks -> parse ctx toks = Ok tree -> C tree.
  Proof.
    intros Hg H. unfold parse in H. apply bindr_ok in H as ([a r] & E & H). injection H as <-.
    destruct (body_C (parse_fuel toks)) as [Hb _]. apply Hb in E; auto. now apply C_N.
  Qed.
End Bodies.

Lemma C_stmt n : leveled n = true -> C n -> forall m, In m (subtrees n) -> is_stmt m = true -> C m.
Proof.
  induction n as [t|k cs IH] using pnode_ind'; intros Hl Hc m Hm Hs; [discriminate Hl|].
  destruct Hm as [<-|Hm]; [exact Hc|]. apply in_flat_map in Hm as (x & Hx & Hm). rewrite Forall_forall in IH.
  assert (Hi : forall j, ArgShape.Q (N j cs) -> False).
  { intros j Hq. unfold ArgShape.Q in Hq. cbn [inner] in Hq. apply andb_prop in Hq as [_ Hq]. rewrite forallb_forall in Hq.
    rewrite (inner_none x (Hq x Hx) m Hm) in Hs. discriminate. }
  destruct k; try (exfalso; apply (Hi _ Hl); fail).
  - unfold C in Hc. cbn [calm srt negb andb] in Hc. cbn [leveled] in Hl. rewrite forallb_forall in Hc, Hl.
    exact (IH x Hx (Hl x Hx) (Hc x Hx) m Hm Hs).
  - exfalso. cbn [leveled] in Hl. apply andb_prop in Hl as [Hl _]. rewrite forallb_forall in Hl.
    rewrite (inner_none x (Hl x Hx) m Hm) in Hs. discriminate.
  - unfold C in Hc. cbn [calm srt negb andb] in Hc. cbn [leveled] in Hl. rewrite forallb_forall in Hc, Hl.
    exact (IH x Hx (Hl x Hx) (Hc x Hx) m Hm Hs).
Qed.
Lemma C_V n : C n -> (forall m, In m (subtrees n) -> is_stmt m = true -> head_adds (Lint.kids m) = false) -> V n.
Proof.
  induction n as [t|k cs IH] using pnode_ind'; intros Hc Ha; [reflexivity|]. rewrite Forall_forall in IH.
  assert (G : srt k = false -> forallb calm cs = true -> V (N k cs)).
  { intros B D. apply V_N; [exact B|]. rewrite forallb_forall in D. apply Forall_forall. intros x Hx.
    apply (IH x Hx (D x Hx)). intros m Hm. apply Ha. right. apply in_flat_map. eauto. }
  unfold C in Hc. cbn [calm] in Hc.
  destruct k; try (apply andb_prop in Hc as [B D]; apply negb_true_iff in B; auto; fail).
  specialize (Ha _ (or_introl eq_refl) eq_refl). cbn [Lint.kids] in Ha. rewrite Ha in Hc. exact Hc.
Qed.
Lemma V_lock n : V n -> lock true (create_box n) = create_box n.
Proof.
  induction n as [t|k cs IH] using pnode_ind'; intros H; [reflexivity|].
  unfold V in H. cbn [nosort] in H. apply andb_prop in H as [A B]. apply negb_true_iff in A.
  cbn [create_box lock].
  match goal with |- context [map (lock true) ?l] => assert (E : map (lock true) l = l) end.
  { rewrite Forall_forall in IH. rewrite forallb_forall in B. induction cs as [|x cs IHc]; [reflexivity|]. cbn [flat_map]. rewrite map_app. f_equal.
    - assert (Hx : lock true (create_box x) = create_box x) by (apply IH; [now left|apply B; now left]).
      destruct x as [t|kx cx]; [reflexivity|].
      destruct kx; try (cbn [map]; now rewrite Hx). destruct (_ <? _); [reflexivity|]. cbn [map]. now rewrite Hx.
    - apply IHc; intros y Hy; [apply IH|apply B]; now right. }
  rewrite E. destruct k; try reflexivity. destruct sortable; [discriminate A|reflexivity].
Qed.

(** ** The setting *)
Definition set_sort (b : bool) (c : fcfg) : fcfg :=
  FCfg (f_linewidth c) (f_tab c) (f_max_subgroups c) (f_max_pargs c) (f_max_rows_cmdline c)
       (f_max_lines c) (f_min_prefix c) (f_max_prefix c) (f_sep_ctrl c) (f_sep_fn c) (f_dangle c)
       (f_dangle_align c) b (f_keyword_case c) (f_command_case c) (f_spelling c)
       (f_always_wrap c) (f_passes c) (f_endl c).
(** format.autosort set to [b] *)
Definition autosort (b : bool) (c : pcfg) : pcfg :=
  PCfg (set_sort b (p_fmt c)) (p_markup c) (p_ctx c) (p_auto c) (p_bom c) (p_usetabs c) (p_tabpol c).
Lemma eff_set b c src : effective (autosort b c) src = set_sort b (effective c src).
Proof. unfold effective, autosort. cbn [p_auto p_fmt]. destruct (p_auto c); reflexivity. Qed.
Lemma reflow_set c cm b b' : reflow (Env (set_sort b c) cm) = reflow (Env (set_sort b' c) cm).
Proof. reflexivity. Qed.
Lemma lines_set c b b' : forall ls p s, write_lines (set_sort b c) p ls s = write_lines (set_sort b' c) p ls s.
Proof.
  induction ls as [|l ls IH]; intros p s; [reflexivity|]. cbn [write_lines].
  change (put (set_sort b c) s p l) with (put (set_sort b' c) s p l). destruct (put (set_sort b' c) s p l); cbn [bindr]; auto.
Qed.
Lemma write_set c infile b b' : forall l parent s, write (set_sort b c) infile parent l s = write (set_sort b' c) infile parent l s.
Proof.
  induction l as [k p pos pass w v x lines cs IH] using lay_ind'. intros parent s.
  assert (G : forall s, (fix go (l : list lay) (s : wst) : res wst :=
                           match l with nil => Ok s | a :: l' => let? s' := write (set_sort b c) infile k a s in go l' s' end) cs s
                      = (fix go (l : list lay) (s : wst) : res wst :=
                           match l with nil => Ok s | a :: l' => let? s' := write (set_sort b' c) infile k a s in go l' s' end) cs s).
  { clear s. induction IH as [|a cs Ha _ IHc]; intros s; [reflexivity|]. rewrite Ha.
    destruct (write (set_sort b' c) infile k a s); cbn [bindr]; auto. }
  cbn [write]. destruct k; try reflexivity; try (apply G);
    try (destruct (negb (active s)); [reflexivity|]; try apply G; try apply lines_set).
  all: try (destruct (is_bracket p); [reflexivity|apply lines_set]).
  all: destruct p as [|[t|kk cc] p]; try reflexivity;
    change (scalar_text (set_sort b c)) with (scalar_text (set_sort b' c)); change (put (set_sort b c)) with (put (set_sort b' c));
    match goal with |- context [bindr ?x _] => destruct x end; try reflexivity; cbn [bindr];
    match goal with |- context [bindr ?x _] => destruct x end; try reflexivity; cbn [bindr];
    (destruct cs as [|ch [|ch2 cs]]; [reflexivity| |reflexivity]);
    (destruct (is_comment_k _); [apply G|reflexivity]).
Qed.

(** ** The theorems *)
(** a note asking for sorting: a comment with one of the two tags *)
Definition asks (t : token) : Prop := get_tag t = Some $"sort" \/ get_tag t = Some $"sortable".
Lemma asks_U t : ~ asks t -> U t.
Proof.
  intros H. unfold U, tag_in. destruct (get_tag t) as [g|] eqn:E; [|reflexivity].
  destruct (smem g _) eqn:Es; [|reflexivity]. exfalso. apply H. unfold asks. rewrite E.
  apply smem_In in Es as [<-|[<-|[]]]; auto.
Qed.
(** The file calls none of the two commands whose sources are sorted unasked. *)
Definition no_adds (toks : list token) : Prop :=
  forall pre fn ws lp post, toks = pre ++ fn :: ws ++ lp :: post ->
  tt fn = WORD -> tt lp = LEFT_PAREN -> Forall (fun t => tt t = WHITESPACE \/ tt t = NEWLINE) ws ->
  lower (spelling fn) <> $"add_library" /\ lower (spelling fn) <> $"add_executable".

(** The boxes of a statement are in the order of the file, whatever the setting,
    when nothing in the file asks for sorting and the command is not one of the two. *)
Theorem C131_statements : forall ex vt specs tbl src toks tree m b,
  user_table specs = Ok tbl -> table_unsorted tbl = true ->
  tokenize src = Ok toks -> Forall (fun t => ~ asks t) toks -> parse (std_ctx ex vt tbl) toks = Ok tree ->
  In m (subtrees tree) -> is_stmt m = true -> funname m <> $"add_library" -> funname m <> $"add_executable" ->
  lock b (create_box m) = create_box m.
Proof.
  intros ex vt specs tbl src toks tree m b Hu Hs Ht Ha Hp Hm Hk H1 H2.
  destruct b; [|apply lock_off]. apply V_lock.
  pose proof (std_wfctx ex vt _ _ Hu) as Hwf.
  assert (Hc : C tree).
  { eapply parse_C; [apply std_wuctx; exact Hs|exact Hwf| |exact Hp]. eapply Forall_impl; [|exact Ha]. exact asks_U. }
  pose proof (C_stmt tree (parse_leveled _ _ _ Hp) Hc m Hm Hk) as Hcm.
  destruct m as [t|k cs]; [discriminate|]. destruct k; try discriminate. unfold C in Hcm. cbn [calm] in Hcm.
  destruct (head_adds cs) eqn:Eh; [|exact Hcm]. exfalso.
  destruct cs as [|[t|k [|[t|? ?] [|? ?]]] cs]; try discriminate Eh; destruct k; try discriminate Eh.
  cbn [head_adds] in Eh. unfold adds in Eh. unfold funname in H1, H2. cbn [Lint.kids flat flat_map app] in H1, H2.
  apply smem_In in Eh as [E|[E|[]]]; congruence.
Qed.

(** ... so format.autosort makes no difference to such a file. *)
Theorem C131_file : forall c ex vt specs tbl src toks,
  p_ctx c = std_ctx ex vt tbl -> user_table specs = Ok tbl -> table_unsorted tbl = true ->
  tokenize src = Ok toks -> Forall (fun t => ~ asks t) toks -> no_adds toks ->
  process_file (autosort true c) src = process_file (autosort false c) src.
Proof.
  intros c ex vt specs tbl src toks Hx Hu Hs Ht Ha Hn. unfold process_file. rewrite Ht. cbn [bindr].
  change (p_ctx (autosort true c)) with (p_ctx c). change (p_ctx (autosort false c)) with (p_ctx c).
  destruct (parse (p_ctx c) toks) as [tree| |] eqn:Ep; try reflexivity. cbn [bindr].
  rewrite Hx in Ep. pose proof (std_wfctx ex vt _ _ Hu) as Hwf.
  assert (Hc : C tree).
  { eapply parse_C; [apply std_wuctx; exact Hs|exact Hwf| |exact Ep]. eapply Forall_impl; [|exact Ha]. exact asks_U. }
  assert (Hv : V tree).
  { apply C_V; [exact Hc|]. intros m Hm Hk. pose proof (parse_stands _ _ _ _ Hwf Ep Hm Hk) as (pre & fn & ws & lp & ws2 & args & E & (A1 & A2 & A3 & more & A4) & _).
    rewrite A4. cbn [head_adds]. apply Forall_app in A3 as [A3 _].
    destruct (Hn pre fn ws lp (ws2 ++ args) E A1 A2 A3) as [N1 N2]. unfold adds.
    destruct (smem _ _) eqn:Em; [|reflexivity]. apply smem_In in Em as [X|[X|[]]]; congruence. }
  unfold layout_tree, pipe_env. cbn [cfg]. rewrite !eff_set.
  change (f_autosort (set_sort true (effective c src))) with true. change (f_autosort (set_sort false (effective c src))) with false.
  rewrite (V_lock tree Hv), lock_off.
  change (p_markup (autosort true c)) with (p_markup c). change (p_markup (autosort false c)) with (p_markup c).
  rewrite (reflow_set _ _ true false).
  match goal with |- bindr ?x _ = _ => destruct x as [l| |] end; try reflexivity. cbn [bindr].
  unfold write_tree. rewrite (write_set _ _ true false). reflexivity.
Qed.
(** What the hypotheses allow, and that each is needed: a source list of [set] stays
    as it is; the sources of the two commands and of an annotated list do not. *)
Definition sort_demo (l : list str) : res str :=
  let? (o, _) := process_file (autosort true default_pcfg) (nl l) in Ok o.
Example C131_ex :
  sort_demo [$"set(x foo.cc bar.cc)"] = Ok (nl [$"set(x foo.cc bar.cc)"])
  /\ sort_demo [$"add_library(x STATIC foo.cc bar.cc)"] = Ok (nl [$"add_library(x STATIC bar.cc foo.cc)"])
  /\ sort_demo [$"add_executable(x foo.cc bar.cc)"] = Ok (nl [$"add_executable(x bar.cc foo.cc)"])
  /\ sort_demo [$"set(x # cmf: sort"; $"foo.cc bar.cc)"] = Ok (nl [$"set(x # cmf: sort"; $"      bar.cc foo.cc)"])
  /\ (exists toks, tokenize (nl [$"set(x foo.cc bar.cc)"]) = Ok toks /\ Forall (fun t => ~ asks t) toks /\ no_adds toks).
Proof.
  do 4 (split; [vm_compute; reflexivity|]). eexists. split; [vm_compute; reflexivity|]. split.
  - repeat (apply Forall_cons; [intros [H|H]; discriminate H|]). apply Forall_nil.
  - intros pre fn ws lp post E Hf _ _.
    assert (In fn (pre ++ fn :: ws ++ lp :: post)) as Hi by (apply in_or_app; right; now left).
    rewrite <- E in Hi. cbn [In] in Hi.
    repeat (destruct Hi as [<-|Hi]; [split; intros H; discriminate H|]). destruct Hi.
Qed.

(** C132.  format.enable_sort ("the argument lists which are known to be sortable will
    be sorted", on by default) is read nowhere: with the default settings a list
    annotated as sortable keeps its order.  With format.autosort the same note is
    followed in [set] and in [add_library] but not in [add_executable], where the test for
    the tag is the one for its opposite (add_executable.py 98-101). *)
Theorem C132_annotated_sorted_refuted :
  (exists o, process_file default_pcfg (nl [$"set(SOURCES"; $"    # cmake-format: sortable"; $"    foo.cc"; $"    bar.cc)"]) = Ok (o, true)
     /\ o = nl [$"set(SOURCES # cmake-format: sortable"; $"            foo.cc bar.cc)"])
  /\ sort_demo [$"set(SOURCES"; $"    # cmake-format: sortable"; $"    foo.cc"; $"    bar.cc)"]
     = Ok (nl [$"set(SOURCES # cmake-format: sortable"; $"            bar.cc foo.cc)"])
  /\ sort_demo [$"add_library(app STATIC"; $"    # cmake-format: sortable"; $"    ${x} foo.cc bar.cc)"]
     = Ok (nl [$"add_library(app STATIC # cmake-format: sortable"; $"            ${x} bar.cc foo.cc)"])
  /\ sort_demo [$"add_executable(app"; $"    # cmake-format: sortable"; $"    ${x} foo.cc bar.cc)"]
     = Ok (nl [$"add_executable(app # cmake-format: sortable"; $"               ${x} foo.cc bar.cc)"]).
Proof. split; [eexists; split; vm_compute; reflexivity|]. repeat split; vm_compute; reflexivity. Qed.
