(** * LintShape: what the lint checks rely on holds of every tree the parser builds

    For /repo/cmakelang/lint/basic_checker.py: a keyword group begins with its keyword,
    a positional group carries a specification whose count can be read, a statement has
    a name and two parentheses, and the children of a comment node are tokens. *)
From Verif Require Import Base Regex Lex LexProofs LexClass PropLex TextOps TextProofs Tree Parse ParseProofs
  CmdSpec StdSpecs StdDb StdWf PropParse PropStd Layout LayoutProofs Pieces ParseShape StdShape NamesShape WordShape Markup Pipeline LintDb Lint PropLint PropLintText LintTree
  PropLintChecks PropLintDefs PropLintCrash.

(** ** The conditions on a node *)
(** the count of a positional group can be read (get_min_npargs, parse/util.py 214-242) *)
Definition rd (sp : pspec) : bool := match get_min_npargs (ps_nargs sp) with Ok _ => true | _ => false end.
Definition has_name (s : pnode) : Prop := (3 <= List.length (sem s))%nat.
Definition head_named (cs : list pnode) : Prop := match cs with s :: _ => has_name s | nil => True end.
(** a body has a token *)
Definition full (n : pnode) : Prop := match n with N KBody cs => flats cs <> nil | _ => True end.
Definition loc0 (n : pnode) : Prop :=
  match n with
  | T _ => True
  | N k cs =>
      match k with
      | KFlow => head_named cs /\ (closed cs -> Forall full cs)
      | KKwargGroup => exists t r, cs = N KKeyword [T t] :: r /\ is_semantic t = true
      | KPargGroup _ _ sp => exists p, sp = Some p /\ rd p = true
      | KComment _ => Forall isT cs
      | _ => True
      end
  end.
(** a body occurs at the top and in blocks only *)
Definition notbody (n : pnode) : Prop := match n with N KBody _ => False | _ => True end.
Definition locn (n : pnode) : Prop :=
  loc0 n /\ match n with T _ => True | N k cs => k = KFlow \/ Forall notbody cs end.
Definition Vb (n : pnode) : Prop := forall m, In m (subtrees n) -> locn m.
Definition V (n : pnode) : Prop := notbody n /\ Vb n.
Lemma V_b n : V n -> Vb n. Proof. now intros [_ H]. Qed.
Lemma Vb_node k cs : loc0 (N k cs) -> (k = KFlow \/ Forall notbody cs) -> Forall Vb cs -> Vb (N k cs).
Proof.
  intros H G F m [<-|Hm]; [now split|]. apply in_flat_map in Hm as (x & Hx & Hm). rewrite Forall_forall in F. now apply (F x).
Qed.
Definition inner (k : kind) : Prop := match k with KBody | KFlow => False | _ => True end.
Lemma Vs_b cs : Forall V cs -> Forall notbody cs /\ Forall Vb cs.
Proof. intros F. split; (eapply Forall_impl; [|exact F]); now intros a [A B]. Qed.
Lemma V_node k cs : inner k -> loc0 (N k cs) -> Forall V cs -> V (N k cs).
Proof. intros Hk H F. apply Vs_b in F as [A B]. split; [destruct k; easy|]. apply Vb_node; auto. Qed.
Lemma V_body cs : Forall V cs -> Vb (N KBody cs).
Proof. intros F. apply Vs_b in F as [A B]. apply Vb_node; [exact I|auto|exact B]. Qed.
Lemma V_flow cs : head_named cs -> (closed cs -> Forall full cs) -> Forall Vb cs -> V (N KFlow cs).
Proof. intros A B C. split; [exact I|]. apply Vb_node; auto. now split. Qed.
Lemma V_T t : V (T t). Proof. split; [exact I|]. intros m [<-|[]]. split; exact I. Qed.
Lemma V_ws ws : Forall isT ws -> Forall V ws.
Proof. apply Forall_impl. intros [t|k cs] H; [apply V_T|destruct H]. Qed.
Lemma V_cm c : inC c -> V c.
Proof.
  destruct c as [t|k cs]; [intros []|]. destruct k; intros H; try easy. cbn [inC] in H.
  assert (Forall isT cs) by (eapply Forall_impl; [|exact H]; intros [t|]; easy). apply V_node; [exact I|exact H0|now apply V_ws].
Qed.
Lemma V_tr tr : trailing tr -> Forall V tr.
Proof.
  intros (ws & Hws & [->|(c & Hc & ->)]); [now apply V_ws|]. apply Forall_app. split; [now apply V_ws|]. constructor; auto using V_cm.
Qed.
Lemma V_leaf k t : match k with KBody | KFlow | KKwargGroup | KPargGroup _ _ _ | KComment _ => False | _ => True end -> V (N k [T t]).
Proof. intros H. apply V_node; [destruct k; easy|destruct k; try exact I; destruct H|]. constructor; [apply V_T|constructor]. Qed.
Lemma V_parg s tg sp cs : rd sp = true -> Forall V cs -> V (N (KPargGroup s tg (Some sp)) cs).
Proof. intros H. apply V_node; [exact I|]. exists sp. auto. Qed.
Lemma V_word (b : bool) t tr : trailing tr -> V (N (if b then KFlag else KArgument) (T t :: tr)).
Proof. intros H. destruct b; (apply V_node; [exact I|exact I|]); (constructor; [apply V_T|now apply V_tr]). Qed.
Lemma V_cm1 b t : tgood t -> V (N (KComment b) [T t]).
Proof. intros H. apply V_cm. simpl. auto. Qed.

(** ** The conditions on a parser *)
Definition item_rd (i : seqitem) : Prop := match i with SPos sp _ _ => rd sp = true | _ => True end.
Definition g_rd (g : gaction) : Prop := match g with GPos sp _ _ _ => rd sp = true | _ => True end.
Inductive wfn : parser -> Prop :=
| wn_std cs kw : Forall (fun sp => rd sp = true) (cs_pargs cs) -> (forall k p, In (k, p) kw -> wfn p) -> wfn (PStd cs kw)
| wn_pos sp : rd sp = true -> wfn (PPos sp)
| wn_tuple np nt fl : wfn (PTuple np nt fl)
| wn_shell : wfn PShell
| wn_cond : wfn PCond
| wn_null : wfn PNull
| wn_raise e : wfn (PRaise e)
| wn_disp f : (forall toks, wfn (f toks)) -> wfn (PDisp f)
| wn_seq items lp : Forall item_rd items -> wfno lp -> wfn (PSeq items lp)
| wn_inst : wfn PInstallTargets
| wn_exe s : wfn (PAddExe s)
| wn_lib s : wfn (PAddLib s)
with wfno : option gspec -> Prop :=
| wno_none : wfno None
| wno_some keep step :
    (forall acc toks w p extra chk, step acc toks = GKw w p extra chk -> kw_head toks /\ wfn p) ->
    (forall acc toks, g_rd (step acc toks)) -> wfno (Some (GSpec keep step)).
Definition wfnctx (ctx : pctx) : Prop := forall name p, db ctx name = Some p -> wfn p.
Lemma resolve_wn p : wfn p -> forall toks, wfn (resolve p toks).
Proof. induction 1; intros; simpl; try (constructor; auto; fail). auto. Qed.
Lemma install_wn : wfno (Some (GSpec (fun _ => false) install_step)).
Proof.
  constructor.
  - intros acc toks w p extra chk. unfold install_step, kw_head.
    destruct toks as [|t toks]; [discriminate|].
    destruct (normalized_kwarg t) as [w'|]; [|discriminate].
    destruct (smem w' designated) eqn:Es.
    + intros H. injection H as <- <- <- <-. split; [discriminate|constructor].
    + destruct (kw_lookup w' install_kwargs) as [q|] eqn:E; [|discriminate].
      intros H. injection H as <- <- <- <-. split; [discriminate|].
      apply lookup_In in E. simpl in E.
      repeat (destruct E as [E|E]; [injection E as <- <-; constructor; reflexivity|]). destruct E.
  - intros acc toks. unfold install_step. destruct toks as [|t toks]; [reflexivity|].
    destruct (normalized_kwarg t) as [w'|]; [|reflexivity].
    destruct (smem w' designated); [exact I|]. destruct (kw_lookup w' install_kwargs); [exact I|reflexivity].
Qed.
Lemma command_wn ctx name : wfnctx ctx -> wfn (command_parser ctx name).
Proof.
  intros H. unfold command_parser. destruct (db ctx name) eqn:E; [eapply H; eauto|].
  destruct (db ctx $"_default") eqn:E2; [eapply H; eauto|]. constructor; [repeat constructor|]. intros k p [].
Qed.
Lemma kw_semantic t : normalized_kwarg t <> None -> is_semantic t = true.
Proof.
  unfold normalized_kwarg, is_semantic, is_tt. destruct (tt t); try easy; cbn [ttype_eqb andb]; intros H; now contradiction H.
Qed.
Lemma V_kw t r : normalized_kwarg t <> None -> Forall V r -> V (N KKwargGroup (N KKeyword [T t] :: r)).
Proof.
  intros H F. apply V_node; [exact I|exists t, r; split; [reflexivity|now apply kw_semantic]|]. constructor; [now apply V_leaf|exact F].
Qed.
Lemma add_tag_V tag n : V n -> V (add_tag tag n).
Proof.
  destruct n as [t|k cs]; [auto|]. destruct k; auto. intros [H0 H]. split; [exact I|]. intros m [<-|Hm].
  - destruct (H _ (or_introl eq_refl)) as [A B]. split; [exact A|]. destruct B as [B|B]; [discriminate B|now right].
  - apply H. now right.
Qed.
Lemma add_tags_V tags : forall n, V n -> V (add_tags tags n).
Proof. unfold add_tags. induction tags as [|t tags IH]; simpl; auto using add_tag_V. Qed.
Lemma split_default_rd l : Forall (fun sp => rd sp = true) l ->
  rd (fst (split_default l)) = true /\ Forall (fun sp => rd sp = true) (snd (split_default l)).
Proof.
  intros H. unfold split_default. destruct l as [|p [|q l]]; [split; [reflexivity|constructor]| |split; [reflexivity|exact H]].
  pose proof (Forall_inv H). destruct (_ && _); simpl; split; auto; reflexivity.
Qed.

Section LintShape.
  Variable ctx : pctx.

  Lemma take_wsc_V fuel : forall toks a r, take_wsc fuel toks = Ok (a, r) -> sh V toks a r.
  Proof.
    induction fuel as [|f IH]; simpl; intros toks a r H Hg; [discriminate|].
    destruct toks as [|t toks]; [injection H as <- <-; auto|].
    pose proof (Forall_inv_tail Hg) as Hg1.
    destruct (is_ws t).
    { apply bindr_ok in H as ([a0 r0] & E & H). injection H as <- <-.
      destruct (IH _ _ _ E Hg1) as [A B]. split; auto. constructor; auto. apply V_T. }
    destruct (is_comment t).
    { apply bindr_ok in H as ([c r0] & E & H). apply bindr_ok in H as ([a1 r1] & E1 & H).
      injection H as <- <-. destruct (consume_comment_sh _ _ _ E Hg) as [A B].
      destruct (IH _ _ _ E1 B) as [A1 B1]. split; auto. constructor; auto. apply V_cm. exact (Forall_inv A). }
    destruct (is_onoff t) eqn:Eo.
    { apply bindr_ok in H as ([a0 r0] & E & H). injection H as <- <-.
      destruct (IH _ _ _ E Hg1) as [A B]. split; auto. constructor; auto. now apply V_leaf. }
    injection H as <- <-. auto.
  Qed.
  Lemma flag_loop_V fuel flags bs : forall acc toks a r, Forall V acc -> Forall tgood toks ->
    flag_loop fuel ctx flags bs acc toks = Ok (a, r) -> Forall V a /\ Forall tgood r.
  Proof.
    induction fuel as [|f IH]; simpl; intros acc toks a r Ha Hg H; [discriminate|].
    destruct toks as [|t toks]; [injection H as <- <-; auto|].
    pose proof (Forall_inv_tail Hg) as Hg1.
    destruct (should_break t bs); [injection H as <- <-; auto|].
    destruct (is_ws t); [eapply IH; [| |exact H]; auto; apply snoc; auto; apply V_T|].
    destruct (negb _) eqn:En; [injection H as <- <-; auto|].
    destruct (consume_trailing ctx toks) as [tr r0] eqn:E.
    destruct (consume_trailing_sh _ _ _ _ E Hg1) as [A B].
    eapply IH; [| |exact H]; auto. apply snoc; auto. apply (V_word true); auto.
  Qed.
  Lemma close_sub_V flags acc sub late : Forall V acc -> (forall cs, sub = Some cs -> Forall V cs) -> Forall V late ->
    Forall V (close_sub flags acc sub late).
  Proof.
    intros Ha Hs Hl. unfold close_sub. apply Forall_app. split; auto. apply Forall_app. split; auto.
    destruct sub as [cs|]; auto. constructor; auto. apply V_parg; auto.
  Qed.
  Lemma tuple_loop_V fuel npargs ntup flags bs : forall np nt acc sub late toks a r,
    Forall V acc -> (forall cs, sub = Some cs -> Forall V cs) -> Forall V late -> Forall tgood toks ->
    tuple_loop fuel ctx npargs ntup flags bs np nt acc sub late toks = Ok (a, r) ->
    Forall V a /\ Forall tgood r.
  Proof.
    induction fuel as [|f IH]; intros np nt acc sub late toks a r Ha Hs Hl Hg H; [discriminate|].
    cbn [tuple_loop] in H.
    assert (Hd : Ok (close_sub flags acc sub late, toks) = Ok (a, r) -> Forall V a /\ Forall tgood r).
    { intros H'. injection H' as <- <-. split; auto. now apply close_sub_V. }
    destruct toks as [|t toks]; [auto|].
    pose proof (Forall_inv_tail Hg) as Hg1.
    apply bindr_ok in H as (full & _ & H).
    destruct full; [auto|]. destruct (should_break t bs); [auto|].
    destruct (is_ws t).
    { eapply IH; [| | | |exact H]; auto. apply snoc; auto. apply V_T. }
    destruct (is_comment t).
    { eapply IH; [| | | |exact H]; auto. apply snoc; auto. apply V_cm1, (Forall_inv Hg). }
    destruct toks as [|t' toks]; [discriminate|].
    destruct (is_onoff t') eqn:Eo.
    { eapply IH; [| | | |exact H]; auto; [|exact (Forall_inv_tail Hg1)]. apply snoc; auto. now apply V_leaf. }
    assert (H1 : exists acc1 sub1 late1 nt1, Forall V acc1 /\ Forall V sub1 /\ Forall V late1 /\
      match sub with Some cs => (acc, cs, late, nt) | None => (acc ++ late, nil, nil, 0) end
      = (acc1, sub1, late1, nt1)).
    { destruct sub as [cs|].
      - exists acc, cs, late, nt. auto.
      - exists (acc ++ late), nil, nil, 0. split; [apply Forall_app; auto|auto]. }
    destruct H1 as (acc1 & sub1 & late1 & nt1 & A1 & S1 & L1 & E1). rewrite E1 in H.
    destruct (consume_trailing ctx (t' :: toks)) as [tr r0] eqn:E.
    destruct (consume_trailing_sh _ _ _ _ E Hg1) as [A B].
    assert (S2 : Forall V (sub1 ++ [N (if kwarg_in t flags then KFlag else KArgument) (T t :: tr)])).
    { apply snoc; auto. now apply V_word. }
    destruct (_ >=? _).
    - eapply IH; [| | | |exact H]; auto; [|discriminate].
      apply close_sub_V; auto. intros cs' E'. injection E' as <-. exact S2.
    - eapply IH; [| | | |exact H]; auto. intros cs' E'. injection E' as <-. exact S2.
  Qed.

  Definition a_v (m : amach) : Prop :=
    Forall V (a_tree m) /\ Forall V (a_g1 m)
    /\ (forall s cs, a_g2 m = Some (s, cs) -> Forall V cs) /\ Forall V (a_tail m).
  Lemma a_done_V m : a_v m -> Forall V (a_done m).
  Proof.
    intros (A & B & C & D). unfold a_done. apply Forall_app. split; auto. apply Forall_app. split.
    { destruct (_ =? _); auto. constructor; auto. now apply V_parg. }
    apply Forall_app. split; auto. destruct (a_g2 m) as [[s cs]|]; auto.
    constructor; auto. unfold srcgroup. apply V_parg; eauto.
  Qed.
  Lemma a_append_V m n : V n -> a_v m -> a_v (a_append m n).
  Proof.
    intros HA (A & B & C & D). unfold a_append. destruct m as [st so tr g1 g2 tl at_]; simpl in *.
    destruct at_; [|destruct g2 as [[s cs]|]; [|destruct (_ =? _)]]; unfold a_v; simpl;
      (split; [|split; [|split]]); auto using snoc; try discriminate.
    intros s' cs' E. injection E as <- <-. apply snoc; eauto.
  Qed.
  Ltac aok := unfold a_v; simpl; (split; [|split; [|split]]); auto; try discriminate.
  Lemma add_loop_V islib bs fuel : forall m toks a r,
    a_v m -> Forall tgood toks -> add_loop fuel ctx islib bs m toks = Ok (a, r) ->
    Forall V a /\ Forall tgood r.
  Proof.
    induction fuel as [|f IH]; intros m toks a r W0 Hg H; [discriminate|].
    cbn [add_loop] in H.
    destruct toks as [|t toks]; [injection H as <- <-; auto using a_done_V|].
    pose proof (Forall_inv_tail Hg) as Hg1. pose proof (Forall_inv Hg) as Ht.
    destruct (is_tt RIGHT_PAREN t); [injection H as <- <-; auto using a_done_V|].
    destruct (is_ws t).
    { eapply IH; [| |exact H]; auto. apply a_append_V; auto; apply V_T. }
    destruct (is_comment t).
    { match type of H with context [AMach _ ?s _ _ _ _ _] => set (so := s) in H end.
      set (m0 := a_append m (N (KComment false) [T t])) in H.
      assert (a_v m0) by (apply a_append_V; auto; now apply V_cm1).
      eapply IH; [| |exact H]; auto. }
    destruct (consume_trailing ctx toks) as [tr' r0] eqn:E.
    destruct (consume_trailing_sh _ _ _ _ E Hg1) as [A B].
    destruct m as [st so tr g1 g2 tl at_]. cbn [a_st a_sort a_tree a_g1 a_g2 a_tail a_at_tree] in H.
    destruct W0 as (W1 & W2 & W3 & W4). simpl in W1, W2, W3, W4.
    assert (Harg : V (N KArgument (T t :: tr'))) by (apply (V_word false); auto).
    assert (Hflag : V (N KFlag (T t :: tr'))) by (apply (V_word true); auto).
    assert (Hnil : forall s cs, Some (so, @nil pnode) = Some (s, cs) -> Forall V cs).
    { intros s cs E'. injection E' as <- <-. auto. }
    destruct (st =? 1).
    { eapply IH; [| |exact H]; auto. aok. }
    destruct (st =? 2).
    { destruct islib.
      - destruct (kwarg_in t lib_types); (eapply IH; [| |exact H]; auto; aok; auto using snoc).
      - destruct (kwarg_in t exe_flags); (eapply IH; [| |exact H]; auto; aok; auto using snoc). }
    destruct (st =? 3).
    { destruct (kwarg_in t _); (eapply IH; [| |exact H]; auto; aok; auto using snoc). }
    eapply IH; [| |exact H]; auto. aok.
    intros s cs E'. destruct g2 as [[s2 cs2]|]; injection E' as <- <-; auto.
    apply snoc; eauto.
  Qed.

  Record Vs (n : nat) : Prop := {
    v_call : forall p bs nested toks x r, wfn p -> Forall tgood toks ->
      call n ctx p bs nested toks = Ok (x, r) -> V x /\ Forall tgood r;
    v_std : forall dflt kw bs kbs nested pargs acc toks a r, rd dflt = true -> Forall (fun sp => rd sp = true) pargs ->
      (forall k p, In (k, p) kw -> wfn p) -> Forall V acc -> Forall tgood toks ->
      std_loop n ctx dflt kw bs kbs nested pargs acc toks = Ok (a, r) -> Forall V a /\ Forall tgood r;
    v_posg : forall sp bs nested toks x r, rd sp = true -> Forall tgood toks ->
      pos_group n ctx sp bs nested toks = Ok (x, r) -> V x /\ Forall tgood r;
    v_pos : forall sp bs nested nc acc toks a r, rd sp = true -> Forall V acc -> Forall tgood toks ->
      pos_loop n ctx sp bs nested nc acc toks = Ok (a, r) -> Forall V a /\ Forall tgood r;
    v_cond : forall bs acc toks a r, Forall V acc -> Forall tgood toks ->
      cond_loop n ctx bs acc toks = Ok (a, r) -> Forall V a /\ Forall tgood r;
    v_kw : forall w p bs toks x r, kw_head toks -> wfn p -> Forall tgood toks ->
      kwgroup n ctx w p bs toks = Ok (x, r) -> V x /\ Forall tgood r;
    v_paren : forall toks x r, Forall tgood toks -> paren n ctx toks = Ok (x, r) -> V x /\ Forall tgood r;
    v_seq : forall items lp bs nested acc toks a r, Forall item_rd items -> wfno lp -> Forall V acc -> Forall tgood toks ->
      seq_items n ctx items lp bs nested acc toks = Ok (a, r) -> Forall V a /\ Forall tgood r;
    v_gl : forall keep step bs nested acc toks a r, wfno (Some (GSpec keep step)) ->
      Forall V acc -> Forall tgood toks ->
      gloop n ctx keep step bs nested acc toks = Ok (a, r) -> Forall V a /\ Forall tgood r }.

  Ltac fin H := injection H as <- <-; auto.
  Lemma V_arg s cs : Forall V cs -> V (N (KArgGroup s) cs).
  Proof. now apply V_node. Qed.

  Lemma all_V n : Vs n.
  Proof.
    induction n as [|m IH]; [constructor; intros; discriminate|].
    constructor.
    - (* call *)
      intros p bs nested toks x r Hp Hg H. cbn [call] in H.
      apply resolve_wn with (toks := toks) in Hp.
      destruct (resolve p toks) as [cs kw|sp|np nt fl| | | |e|f|items lp| |so|so].
      + destruct (take_ws toks) as [ws r0] eqn:Ew. apply take_ws_sh in Ew as [Hw Er].
        inversion Hp as [? ? Hpf Hkw| | | | | | | | | | |]; subst.
        destruct (split_default_rd (cs_pargs cs) Hpf) as [Hd1 Hd2].
        destruct (split_default (cs_pargs cs)) as [dflt pargs]. cbn [fst snd] in Hd1, Hd2.
        apply bindr_ok in H as ([a r1] & E & H). injection H as <- <-.
        apply v_std in E as [A B]; auto using V_ws. split; auto. now apply V_arg.
      + inversion Hp; subst. apply v_posg in H as (A & B); auto.
      + apply bindr_ok in H as ([a r1] & E & H). injection H as <- <-.
        apply tuple_loop_V in E as [A B]; auto; [|discriminate]. split; auto. now apply V_arg.
      + destruct (take_ws toks) as [ws r0] eqn:Ew. apply take_ws_sh in Ew as [Hw Er].
        cbn [split_default cs_pargs legacy_cspec ps_legacy ps_nargs is_exact negb andb] in H.
        apply bindr_ok in H as ([a r1] & E & H). injection H as <- <-.
        apply v_std in E as [A B]; auto using V_ws; [|intros k q []]. split; auto. apply V_arg.
        rewrite Forall_map. eapply Forall_impl; [|exact A]. intros; now apply add_tag_V.
      + destruct (take_ws toks) as [ws r0] eqn:Ew. apply take_ws_sh in Ew as [Hw Er].
        apply bindr_ok in H as ([a r1] & E & H). injection H as <- <-.
        apply v_cond in E as [A B]; auto using V_ws. split; auto. now apply V_arg.
      + injection H as <- <-. split; auto. now apply V_arg.
      + discriminate.
      + discriminate.
      + apply bindr_ok in H as ([a r1] & E & H). injection H as <- <-. inversion Hp; subst.
        apply v_seq in E as [A B]; auto. split; auto. now apply V_arg.
      + apply bindr_ok in H as ([a r1] & E & H). injection H as <- <-.
        apply v_seq in E as [A B]; auto; [|repeat constructor|apply install_wn]. split; auto. now apply V_arg.
      + destruct (take_ws toks) as [ws r0] eqn:Ew. apply take_ws_sh in Ew as [Hw Er].
        apply bindr_ok in H as ([a r1] & E & H). injection H as <- <-.
        apply add_loop_V in E as [A B]; [|aok; now apply V_ws|auto]. split; auto. now apply V_arg.
      + destruct (take_ws toks) as [ws r0] eqn:Ew. apply take_ws_sh in Ew as [Hw Er].
        apply bindr_ok in H as ([a r1] & E & H). injection H as <- <-.
        apply add_loop_V in E as [A B]; [|aok; now apply V_ws|auto]. split; auto. now apply V_arg.
    - (* std_loop *)
      intros dflt kw bs kbs nested pargs acc toks a r Hd Hpa Hkw Ha Hg H. cbn [std_loop] in H.
      destruct toks as [|t toks]; [fin H|]. pose proof (Forall_inv_tail Hg) as Hg1.
      destruct (is_ws t). { eapply v_std; [exact IH| | |exact Hkw| | |exact H]; auto. apply snoc; auto. apply V_T. }
      destruct (is_comment t).
      { destruct (belongs_up _ _ _ _); [fin H|].
        apply bindr_ok in H as ([c r1] & E & H). destruct (consume_comment_sh _ _ _ E Hg) as [A B].
        apply Forall_inv in A. eapply v_std; [exact IH| | |exact Hkw| | |exact H]; auto. apply snoc; auto. now apply V_cm. }
      destruct (is_onoff t) eqn:Eo.
      { eapply v_std; [exact IH| | |exact Hkw| | |exact H]; auto. apply snoc; auto. now apply V_leaf. }
      destruct (should_break t bs && _); [fin H|].
      destruct (match normalized_kwarg t with Some _ => _ | None => _ end) as [[w p]|] eqn:Ek.
      + apply bindr_ok in H as ([sub r1] & E & H).
        assert (Hp : kw_head (t :: toks) /\ wfn p).
        { unfold kw_head. destruct (normalized_kwarg t); [|discriminate]. split; [discriminate|]. destruct (kw_lookup s kw) eqn:El; [|discriminate].
          injection Ek as <- <-. apply lookup_In in El. eauto. }
        destruct Hp as [Hw Hp]. apply v_kw in E as [A B]; auto.
        destruct (_ <=? _)%nat; [discriminate|].
        eapply v_std; [exact IH| | |exact Hkw| | |exact H]; auto. now apply snoc.
      + assert (Hps : rd (match pargs with p :: _ => p | nil => dflt end) = true /\ Forall (fun sp => rd sp = true) (tl pargs)).
        { destruct Hpa; simpl; auto. }
        destruct Hps as [Hps Htl].
        apply bindr_ok in H as ([sub r1] & E & H). apply v_posg in E as (A & B); auto.
        destruct (_ <=? _)%nat; [discriminate|].
        eapply v_std; [exact IH| | |exact Hkw| | |exact H]; auto. now apply snoc.
    - (* pos_group *)
      intros sp bs nested toks x r Hsp Hg H. cbn [pos_group] in H.
      destruct (take_ws toks) as [ws r0] eqn:Ew. apply take_ws_sh in Ew as [Hw Er].
      apply bindr_ok in H as ([a r1] & E & H). injection H as <- <-.
      apply v_pos in E as [A B]; auto using V_ws. split; auto. now apply V_parg.
    - (* pos_loop *)
      intros sp bs nested nc acc toks a r Hsp Ha Hg H. cbn [pos_loop] in H.
      destruct toks as [|t toks]; [fin H|]. pose proof (Forall_inv_tail Hg) as Hg1.
      apply bindr_ok in H as (full & _ & H).
      destruct full; [fin H|].
      destruct (should_break t bs && _); [fin H|].
      destruct (is_tt LEFT_PAREN t).
      { apply bindr_ok in H as ([sub r1] & E & H). apply v_paren in E as (A & B); auto.
        eapply v_pos; [exact IH| | | |exact H]; auto. now apply snoc. }
      destruct (is_ws t).
      { eapply v_pos; [exact IH| | | |exact H]; auto. apply snoc; auto. apply V_T. }
      destruct (is_comment t).
      { destruct (belongs_up _ _ _ _); [fin H|].
        apply bindr_ok in H as ([c r1] & E & H). destruct (consume_comment_sh _ _ _ E Hg) as [A B].
        apply Forall_inv in A. eapply v_pos; [exact IH| | | |exact H]; auto. apply snoc; auto. now apply V_cm. }
      destruct (is_onoff t) eqn:Eo.
      { eapply v_pos; [exact IH| | | |exact H]; auto. apply snoc; auto. now apply V_leaf. }
      destruct (consume_trailing ctx toks) as [tr r1] eqn:E.
      destruct (consume_trailing_sh _ _ _ _ E Hg1) as [A B].
      eapply v_pos; [exact IH| | | |exact H]; auto. apply snoc; auto. now apply V_word.
    - (* cond_loop *)
      intros bs acc toks a r Ha Hg H. cbn [cond_loop] in H.
      destruct toks as [|t toks]; [fin H|]. pose proof (Forall_inv_tail Hg) as Hg1.
      destruct (should_break t bs); [fin H|].
      destruct (is_ws t). { eapply v_cond; [exact IH| | |exact H]; auto. apply snoc; auto. apply V_T. }
      destruct (is_comment t).
      { eapply v_cond; [exact IH| | |exact H]; auto. apply snoc; auto. apply V_cm1, (Forall_inv Hg). }
      destruct (is_onoff t) eqn:Eo.
      { eapply v_cond; [exact IH| | |exact H]; auto. apply snoc; auto. now apply V_leaf. }
      destruct (is_tt LEFT_PAREN t).
      { apply bindr_ok in H as ([sub r1] & E & H). apply v_paren in E as (A & B); auto.
        eapply v_cond; [exact IH| | |exact H]; auto. now apply snoc. }
      destruct (kwarg_in t cond_words) eqn:Ekw.
      + apply bindr_ok in H as ([sub r1] & E & H).
        apply v_kw in E as [A B]; auto; [|exact (kwarg_in_head _ _ Ekw)|constructor].
        destruct (_ <=? _)%nat; [discriminate|].
        eapply v_cond; [exact IH| | |exact H]; auto. now apply snoc.
      + apply bindr_ok in H as ([sub r1] & E & H). apply v_posg in E as (A & B); auto.
        eapply v_cond; [exact IH| | |exact H]; auto. now apply snoc.
    - (* kwgroup *)
      intros w p bs toks x r Hw Hp Hg H. cbn [kwgroup] in H.
      destruct toks as [|t toks]; [discriminate|]. pose proof (Forall_inv_tail Hg) as Hg1.
      destruct (negb _) eqn:Eu; [discriminate|].
      destruct (take_ws toks) as [ws r0] eqn:Ew. apply take_ws_sh in Ew as [Hws Er].
      apply bindr_ok in H as ([sub r1] & E & H). apply (v_call _ IH) in E as [A B]; auto.
      injection H as <- <-. split; auto. apply V_kw; [exact Hw|]. apply Forall_app. split; [now apply V_ws|].
      destruct (_ <? _)%nat; auto.
    - (* paren *)
      intros toks x r Hg H. cbn [paren] in H.
      destruct toks as [|t toks]; [discriminate|]. pose proof (Forall_inv_tail Hg) as Hg1.
      destruct (negb _); [discriminate|].
      apply bindr_ok in H as ([sub r1] & E & H).
      apply (v_call _ IH) in E as [A B]; auto; [|constructor].
      destruct r1 as [|t2 r1]; [discriminate|].
      destruct (negb _); [discriminate|].
      destruct (consume_trailing ctx r1) as [tr r2] eqn:Et. injection H as <- <-.
      destruct (consume_trailing_sh _ _ _ _ Et (Forall_inv_tail B)) as [C D].
      split; auto. apply V_node; [exact I|exact I|].
      constructor; [now apply V_leaf|]. constructor; [exact A|]. constructor; [now apply V_leaf|now apply V_tr].
    - (* seq_items *)
      intros items lp bs nested acc toks a r Hit Hlp Ha Hg H. cbn [seq_items] in H.
      destruct items as [|it items].
      { destruct lp as [[keep step]|]; [|fin H]. eapply v_gl; eauto. }
      pose proof (Forall_inv Hit) as Hi. pose proof (Forall_inv_tail Hit) as Hits.
      destruct it as [| |sp extra must].
      + destruct (take_ws toks) as [ws r0] eqn:Ew. apply take_ws_sh in Ew as [Hws Er].
        eapply v_seq; [exact IH|exact Hits|exact Hlp| | |exact H]; auto. apply Forall_app; auto using V_ws.
      + apply bindr_ok in H as ([ws r0] & Ew & H). destruct (take_wsc_V _ _ _ _ Ew Hg) as [A B].
        eapply v_seq; [exact IH|exact Hits|exact Hlp| | |exact H]; auto. apply Forall_app; auto.
      + apply bindr_ok in H as ([sub r1] & E & H). apply v_posg in E as (A & B); auto.
        destruct (must && _); [discriminate|].
        eapply v_seq; [exact IH|exact Hits|exact Hlp| | |exact H]; auto. now apply snoc.
    - (* gloop *)
      intros keep step bs nested acc toks a r Hlp Ha Hg H. cbn [gloop] in H.
      destruct toks as [|t toks]; [fin H|]. pose proof (Forall_inv_tail Hg) as Hg1.
      destruct (should_break t bs); [fin H|].
      destruct (is_ws t). { eapply v_gl; [exact IH|exact Hlp| | |exact H]; auto. apply snoc; auto. apply V_T. }
      destruct (is_comment t && negb (keep t)).
      { eapply v_gl; [exact IH|exact Hlp| | |exact H]; auto. apply snoc; auto. apply V_cm1, (Forall_inv Hg). }
      apply bindr_ok in H as ([sub r1] & E & H).
      destruct (_ <=? _)%nat; [discriminate|].
      assert (HQ : V sub /\ Forall tgood r1).
      { assert (Hst : g_rd (step acc (t :: toks))) by (inversion Hlp; subst; auto).
        destruct (step acc (t :: toks)) as [w p extra chk|sp extra push tags|flags extra] eqn:Es.
        - apply bindr_ok in E as ([sub0 r0] & E & E2).
          assert (Hq : kw_head (t :: toks) /\ wfn p) by (inversion Hlp; subst; eauto). destruct Hq as [Hw Hp].
          apply v_kw in E as [A B]; auto.
          destruct (chk sub0 r0); [discriminate|]. injection E2 as <- <-. auto.
        - apply bindr_ok in E as ([sub0 r0] & E & E2). apply v_posg in E as (A & B); auto.
          injection E2 as <- <-. auto using add_tags_V.
        - apply bindr_ok in E as ([a0 r0] & E & E2). injection E2 as <- <-.
          apply flag_loop_V in E as [A B]; auto. auto using V_parg. }
      destruct HQ as [A B]. eapply v_gl; [exact IH|exact Hlp| | |exact H]; auto. now apply snoc.
  Qed.

  (** *** Statements and bodies *)
  Hypothesis Hctx : wfnctx ctx.

  Lemma stmt_tail_V fuel : forall toks a r, stmt_tail fuel toks = Ok (a, r) ->
    sh V toks a r /\ match r with t :: _ => is_tt RIGHT_PAREN t = true | nil => True end.
  Proof.
    induction fuel as [|f IH]; simpl; intros toks a r H; [discriminate|].
    destruct toks as [|t toks]; [discriminate|].
    destruct (is_tt RIGHT_PAREN t) eqn:Er; [injection H as <- <-; split; [intros Hg; auto|exact Er]|].
    destruct (is_ws t).
    { apply bindr_ok in H as ([a0 r0] & E & H). injection H as <- <-.
      destruct (IH _ _ _ E) as [A B]. split; auto. intros Hg. destruct (A (Forall_inv_tail Hg)). split; auto. constructor; auto. apply V_T. }
    destruct (is_tt COMMENT t); [|discriminate].
    apply bindr_ok in H as ([c r0] & E & H). apply bindr_ok in H as ([a1 r1] & E1 & H).
    injection H as <- <-. destruct (IH _ _ _ E1) as [A1 B1]. split; auto. intros Hg.
    destruct (consume_comment_sh _ _ _ E Hg) as [A B]. destruct (A1 B) as [A2 B2].
    split; auto. constructor; auto. apply V_cm. exact (Forall_inv A).
  Qed.

  Lemma statement_V n toks x r : Forall tgood toks -> whead toks -> statement n ctx toks = Ok (x, r) ->
    V x /\ has_name x /\ Forall tgood r.
  Proof.
    intros Hg Hw H. unfold statement in H. destruct toks as [|fn r0]; [discriminate|].
    destruct (take_ws r0) as [ws r1] eqn:Ew. apply take_ws_sh in Ew as [Hws Er].
    specialize (Er (Forall_inv_tail Hg)).
    destruct r1 as [|lp r1]; [discriminate|].
    destruct (negb _) eqn:El; [discriminate|]. apply negb_false_iff in El.
    destruct (take_ws r1) as [ws2 r2] eqn:Ew2. apply take_ws_sh in Ew2 as [Hws2 Er2].
    specialize (Er2 (Forall_inv_tail Er)).
    apply bindr_ok in H as ([args r3] & E & H).
    apply (v_call _ (all_V n)) in E as [A B]; auto; [|now apply command_wn].
    apply bindr_ok in H as ([tl r4] & Et & H). destruct (stmt_tail_V _ _ _ _ Et) as [C0 Hrp]. destruct (C0 B) as [C D].
    destruct r4 as [|rp r5]; [discriminate|].
    destruct (consume_trailing ctx r5) as [tr r6] eqn:Etr.
    destruct (consume_trailing_sh _ _ _ _ Etr (Forall_inv_tail D)) as [F G].
    injection H as <- <-. split; [|split; [|exact G]].
    - apply V_node; [exact I|exact I|]. constructor; [now apply V_leaf|]. apply Forall_app. split; [now apply V_ws|].
      constructor; [now apply V_leaf|]. apply Forall_app. split; [now apply V_ws|]. constructor; [exact A|].
      apply Forall_app. split; [exact C|]. constructor; [now apply V_leaf|now apply V_tr].
    - assert (Hsm : forall a b, is_tt a b = true -> match a with WORD | LEFT_PAREN | RIGHT_PAREN => True | _ => False end -> is_semantic b = true).
      { intros a b Ha Hk. unfold is_tt in Ha. apply ttype_eqb_eq in Ha. unfold is_semantic. rewrite Ha. destruct a; try destruct Hk; reflexivity. }
      pose proof (Hsm _ _ Hw I) as S1. pose proof (Hsm _ _ El I) as S2. pose proof (Hsm _ _ Hrp I) as S3.
      pose (ct := fun l => List.length (filter is_semantic (flat_map flat l))).
      assert (Ca : forall a b, ct (a ++ b) = (ct a + ct b)%nat).
      { intros a b. unfold ct. now rewrite flat_map_app, filter_app, app_length. }
      assert (Cc : forall k t l, is_semantic t = true -> ct (N k [T t] :: l) = S (ct l)).
      { intros k t l Ht. change (N k [T t] :: l) with ([N k [T t]] ++ l). rewrite Ca. unfold ct at 1. cbn. now rewrite Ht. }
      assert (Cd : forall a l, (ct l <= ct (a :: l))%nat).
      { intros a l. change (a :: l) with ([a] ++ l). rewrite Ca. lia. }
      unfold has_name, sem. match goal with |- (3 <= List.length (filter is_semantic (flat (N _ ?l))))%nat => change (3 <= ct l)%nat end.
      rewrite Cc, Ca, Cc, Ca by assumption. specialize (Cd args (tl ++ N KRParen [T rp] :: tr)). rewrite Ca, Cc in Cd by assumption. lia.
  Qed.
  Lemma atword_V toks x r : Forall tgood toks -> atword_statement ctx toks = Ok (x, r) -> V x /\ Forall tgood r.
  Proof.
    intros Hg H. unfold atword_statement in H. destruct toks as [|t toks]; [discriminate|].
    destruct (consume_trailing ctx toks) as [tr r6] eqn:Etr.
    destruct (consume_trailing_sh _ _ _ _ Etr (Forall_inv_tail Hg)) as [F G].
    injection H as <- <-. split; auto. apply V_node; [exact I|exact I|]. constructor; [now apply V_leaf|now apply V_tr].
  Qed.

  (** *** What follows a statement *)
  Hypothesis Hwf : wfctx true ctx.
  (** no name directly behind a closing parenthesis or a comment, and byte-order
      marks at the start only *)
  Definition adj (toks : list token) : Prop := forall pre a t post, toks = pre ++ a :: t :: post ->
    (is_tt RIGHT_PAREN a || is_comment a = true -> is_tt WORD t = false) /\ is_tt BYTEORDER_MARK t = false.
  Lemma adj_suffix a b : adj (a ++ b) -> adj b.
  Proof. intros H pre x t post ->. apply (H (a ++ pre) x t post). now rewrite <- app_assoc. Qed.
  Lemma adj_tl t r : adj (t :: r) -> adj r. Proof. apply (adj_suffix [t]). Qed.
  (** the next token is no name *)
  Definition nohead (toks : list token) : Prop :=
    match toks with t :: _ => is_tt WORD t = false /\ is_tt BYTEORDER_MARK t = false | nil => True end.
  Lemma adj_nohead a r : adj (a :: r) -> is_tt RIGHT_PAREN a || is_comment a = true -> nohead r.
  Proof. destruct r as [|t r]; [easy|]. intros H Ha. destruct (H nil a t r eq_refl) as [A B]. split; auto. Qed.
  Lemma statement_suffix n toks x r : statement n ctx toks = Ok (x, r) -> exists u, toks = u ++ r.
  Proof.
    intros H. assert (Q (fun _ _ => True) toks r [x]) as (u & Hu & _).
    { eapply (statement_Q (fun _ _ => True)) with (good := fun _ => True) (allow := true); try exact H; auto.
      - intros _ fuel np nt fl bs tk a r0 _ E. apply tuple_suffix in E as (u & ->). now exists u.
      - intros t r0 _. now apply command_parser_wf. }
    eauto.
  Qed.
  Lemma account n : (forall bset acc toks a r, Parse.body_loop n ctx bset acc toks = Ok (a, r) -> L (fun _ _ => True) acc toks a r)
    /\ (forall toks x r, flow n ctx toks = Ok (x, r) -> Q (fun _ _ => True) toks r [x]).
  Proof.
    destruct (body_Q (fun _ _ => True)) with (good := fun _ : list token => True) (allow := true) (ctx := ctx) (n := n) as (A & B & _); auto.
    - intros _ fuel np nt fl bs tk a0 r0 _ E. apply tuple_suffix in E as (u & ->). now exists u.
    - intros t r0 _. now apply command_parser_wf.
    - split; eauto.
  Qed.
  Lemma body_suffix n bset acc toks a r : Parse.body_loop n ctx bset acc toks = Ok (a, r) ->
    (exists u, toks = u ++ r) /\ exists new, a = acc ++ new.
  Proof. intros H. apply (proj1 (account n)) in H as (new & -> & u & Hu & _). eauto. Qed.
  Lemma comment_nohead c r : is_comment c = true -> nohead (c :: r).
  Proof. unfold nohead, is_tt, is_comment. destruct (tt c); intros; try discriminate; now split. Qed.
  Lemma cloop_next p : (forall t, p t = true -> is_comment t = true) -> forall k toks, (List.length toks <= k)%nat ->
    forall last a r, adj toks -> cloop p last toks = (a, r) -> (a = nil /\ r = toks) \/ nohead r.
  Proof.
    intros Hp. induction k as [|k IH]; intros toks Hk last a r Hg H.
    - destruct toks; simpl in Hk; [|lia]. simpl in H. injection H as <- <-. auto.
    - destruct toks as [|t toks]; [simpl in H; injection H as <- <-; auto|].
      cbn [cloop] in H. simpl in Hk.
      destruct (p t && _) eqn:Et; [|injection H as <- <-; auto].
      apply andb_prop in Et as [Et _]. apply Hp in Et.
      assert (Hn : nohead toks) by (eapply adj_nohead; [exact Hg|rewrite Et; apply orb_true_r]).
      apply adj_tl in Hg.
      assert (G : forall a0 r0, cloop p (Some t) toks = (a0, r0) -> nohead r0).
      { intros a0 r0 E. apply IH in E as [[_ ->]|E]; auto. lia. }
      destruct toks as [|n r1]; [injection H as <- <-; auto|].
      destruct r1 as [|c r2].
      { destruct (cloop p (Some t) [n]) as [a0 r0] eqn:E. injection H as <- <-. right. eapply G. reflexivity. }
      destruct (is_tt NEWLINE n && p c) eqn:E1.
      { destruct (cloop p (Some t) (c :: r2)) as [a0 r0] eqn:E. injection H as <- <-.
        right. destruct (IH (c :: r2)) with (3 := E) as [[_ ->]|E']; auto; [simpl in *; lia|now apply adj_tl in Hg|].
        apply andb_prop in E1 as [_ E1]. now apply comment_nohead, Hp. }
      destruct r2 as [|c2 r3].
      { destruct (cloop p (Some t) [n; c]) as [a0 r0] eqn:E. injection H as <- <-. right. eapply G. reflexivity. }
      destruct (is_tt NEWLINE n && is_tt WHITESPACE c && p c2) eqn:E2.
      { destruct (cloop p (Some t) (c2 :: r3)) as [a0 r0] eqn:E. injection H as <- <-.
        right. destruct (IH (c2 :: r3)) with (3 := E) as [[_ ->]|E']; auto; [simpl in *; lia|now apply adj_tl, adj_tl in Hg|].
        apply andb_prop in E2 as [_ E2]. now apply comment_nohead, Hp. }
      destruct (cloop p (Some t) (n :: c :: c2 :: r3)) as [a0 r0] eqn:E. injection H as <- <-. right. eapply G. reflexivity.
  Qed.
  Lemma exloop_next toks : forall a r, adj toks -> exloop ctx toks = (a, r) -> (next_is_explicit ctx toks = false /\ r = toks) \/ nohead r.
  Proof.
    induction toks as [|t toks IH]; intros a r Hg H; [injection H as <- <-; auto|].
    cbn [exloop] in H. destruct (next_is_explicit ctx (t :: toks)) eqn:E; [|injection H as <- <-; auto].
    destruct (exloop ctx toks) as [a0 r0] eqn:Ex. injection H as <- <-. right.
    destruct (IH _ _ (adj_tl _ _ Hg) eq_refl) as [[En ->]|Hn]; [|exact Hn].
    cbn [next_is_explicit] in E. destruct (is_ws t); [congruence|]. apply andb_prop in E as [E _].
    eapply adj_nohead; [exact Hg|]. unfold is_tt, is_comment in *. destruct (tt t); easy.
  Qed.
  Lemma take_ws_explicit toks : forall ws r, take_ws toks = (ws, r) -> next_is_explicit ctx r = next_is_explicit ctx toks.
  Proof.
    induction toks as [|t toks IH]; cbn [take_ws]; intros ws r H; [now injection H as <- <-|].
    destruct (is_ws t) eqn:E; [|now injection H as <- <-]. destruct (take_ws toks) as [a0 r0]. injection H as <- <-.
    cbn [next_is_explicit]. rewrite E. eauto.
  Qed.
  Lemma take_ws_suffix toks : forall ws r, take_ws toks = (ws, r) -> exists u, toks = u ++ r.
  Proof.
    induction toks as [|t toks IH]; cbn [take_ws]; intros ws r H; [injection H as <- <-; now exists nil|].
    destruct (is_ws t); [|injection H as <- <-; now exists nil]. destruct (take_ws toks) as [a0 r0]. injection H as <- <-.
    destruct (IH _ _ eq_refl) as (u & ->). now exists (t :: u).
  Qed.
  Lemma trailing_next rp toks tr r : adj (rp :: toks) -> is_tt RIGHT_PAREN rp = true ->
    consume_trailing ctx toks = (tr, r) -> nohead r.
  Proof.
    intros Hg Hr H. assert (H0 : nohead toks) by (eapply adj_nohead; [exact Hg|now rewrite Hr]). apply adj_tl in Hg.
    assert (Hp : forall t, is_valid_trailing t = true -> is_comment t = true).
    { unfold is_valid_trailing. intros t Ht. now apply andb_prop in Ht as [Ht _]. }
    unfold consume_trailing in H. destruct (negb _) eqn:En; [injection H as <- <-; exact H0|]. apply negb_false_iff in En.
    destruct (next_is_explicit ctx toks) eqn:Ee.
    - destruct (take_ws toks) as [ws r1] eqn:Ew. destruct (exloop ctx r1) as [a r2] eqn:Ex. injection H as <- <-.
      destruct (take_ws_suffix _ _ _ Ew) as (u & ->). apply take_ws_explicit in Ew.
      apply exloop_next in Ex as [[E _]|Ex]; [congruence|exact Ex|]. now apply adj_suffix in Hg.
    - assert (Hv : exists t0 r0, toks = t0 :: r0 /\ (is_valid_trailing t0 = true \/
          is_tt WHITESPACE t0 = true /\ match r0 with t1 :: _ => is_valid_trailing t1 = true | nil => False end)).
      { unfold next_is_trailing in En. destruct toks as [|t0 r0]; [discriminate|]. exists t0, r0. split; [reflexivity|].
        rewrite Ee in En. cbn [orb] in En. apply orb_prop in En as [En|En]; [auto|].
        destruct r0; [discriminate|]. apply andb_prop in En as [A B]. auto. }
      destruct Hv as (t0 & r0 & -> & Hv).
      assert (Hc : forall t l a b, is_valid_trailing t = true -> cloop is_valid_trailing None (t :: l) = (a, b) -> adj (t :: l) -> nohead b).
      { intros t l a b Ht E Ha. pose proof (cloop_next _ Hp _ _ (le_n _) _ _ _ Ha E) as [[-> _]|Hn]; [|exact Hn].
        exfalso. cbn [cloop] in E. rewrite Ht in E. cbn [andb] in E. destruct l as [|n [|c [|c2 l]]]; try discriminate.
        - destruct (cloop _ _ _). discriminate.
        - destruct (_ && _); destruct (cloop _ _ _); discriminate.
        - destruct (_ && _); [destruct (cloop _ _ _); discriminate|]. destruct (_ && _); destruct (cloop _ _ _); discriminate. }
      destruct (is_tt WHITESPACE t0) eqn:Ew.
      + destruct Hv as [Hv|[_ Hv]].
        { apply Hp in Hv. unfold is_tt, is_comment in *. destruct (tt t0); discriminate. }
        destruct r0 as [|t1 r0]; [destruct Hv|]. destruct (cloop _ None (t1 :: r0)) as [a b] eqn:E. injection H as <- <-.
        eapply Hc; eauto. now apply adj_tl in Hg.
      + destruct Hv as [Hv|[Hv _]]; [|discriminate]. destruct (cloop _ None (t0 :: r0)) as [a b] eqn:E. injection H as <- <-. eauto.
  Qed.
  Lemma statement_next n toks x r : adj toks -> statement n ctx toks = Ok (x, r) -> adj r /\ nohead r.
  Proof.
    intros Hg H. split. { destruct (statement_suffix _ _ _ _ H) as (u & ->). now apply adj_suffix in Hg. }
    unfold statement in H. destruct toks as [|fn r0]; [discriminate|].
    destruct (take_ws r0) as [ws r1] eqn:Ew. destruct (take_ws_suffix _ _ _ Ew) as (u0 & ->). apply adj_tl, adj_suffix in Hg.
    destruct r1 as [|lp r1]; [discriminate|].
    destruct (negb _) eqn:El; [discriminate|].
    destruct (take_ws r1) as [ws2 r2] eqn:Ew2. destruct (take_ws_suffix _ _ _ Ew2) as (u2 & ->). apply adj_tl, adj_suffix in Hg.
    apply bindr_ok in H as ([args r3] & E & H).
    assert (Hg3 : adj r3).
    { assert (Q (fun _ _ => True) r2 r3 [args]) as (u & Hu & _); [|rewrite Hu in Hg; now apply adj_suffix in Hg].
      eapply (sp_call (fun _ _ => True) (fun _ => True) true ctx n) with (top := true); try exact E; auto.
      - eapply (all_Sp (fun _ _ => True)); auto.
        intros _ fuel np nt fl bs tk a0 r0 _ E0. apply tuple_suffix in E0 as (u & ->). now exists u.
      - now apply command_parser_wf. }
    apply bindr_ok in H as ([tl r4] & Et & H). pose proof (proj2 (stmt_tail_V _ _ _ _ Et)) as Hrp.
    apply (stmt_tail_Q (fun _ _ => True)) in Et as (u4 & -> & _); auto. apply adj_suffix in Hg3.
    destruct r4 as [|rp r5]; [discriminate|].
    destruct (consume_trailing ctx r5) as [tr r6] eqn:Etr. injection H as <- <-. eapply trailing_next; eauto.
  Qed.
  (** a body that is entered at some other token than a name has a token *)
  Lemma body_full n bset toks a r : nohead toks -> toks <> nil -> Parse.body_loop n ctx bset nil toks = Ok (a, r) -> flats a <> nil.
  Proof.
    intros Hn Hne H. destruct n as [|n]; [discriminate|]. cbn [Parse.body_loop] in H.
    destruct toks as [|t toks]; [congruence|]. destruct Hn as [Hw Hb].
    assert (G : forall acc tk, Parse.body_loop n ctx bset acc tk = Ok (a, r) -> flats acc <> nil -> flats a <> nil).
    { intros acc tk E Ha. apply body_suffix in E as (_ & new & ->). rewrite flats_app. now destruct (flats acc). }
    assert (Gc : forall c r0, consume_comment (t :: toks) = Ok (c, r0) -> flats [c] <> nil).
    { intros c r0 E. unfold consume_comment in E. destruct (tmem _ _); [injection E as <- <-; discriminate|].
      destruct (cloop _ _ _) as [cs r1] eqn:Ec. destruct cs as [|m cs]; [discriminate|]. injection E as <- <-.
      cbn [cloop] in Ec. destruct (_ && _); [|discriminate].
      assert (exists l, m :: cs = T t :: l) as (l & ->); [|discriminate].
      destruct toks as [|n0 [|c0 [|c2 l]]]; [injection Ec as <- <- <-; eauto| | |].
      - destruct (cloop _ _ _). injection Ec as <- <- <-. eauto.
      - destruct (_ && _); destruct (cloop _ _ _); injection Ec as <- <- <-; eauto.
      - destruct (_ && _); [destruct (cloop _ _ _); injection Ec as <- <- <-; eauto|].
        destruct (_ && _); destruct (cloop _ _ _); injection Ec as <- <- <-; eauto. }
    destruct (is_ws t) eqn:Ews.
    { cbn [take_ws] in H. rewrite Ews in H. destruct (take_ws toks) as [ws r0]. eapply G; [exact H|]. discriminate. }
    destruct (is_tt COMMENT t).
    { apply bindr_ok in H as ([c r1] & E & H). eapply G; [exact H|]. cbn [app]. eauto. }
    destruct (is_onoff t). { eapply G; [exact H|]. discriminate. }
    destruct (is_tt BRACKET_COMMENT t).
    { apply bindr_ok in H as ([c r1] & E & H). eapply G; [exact H|]. cbn [app]. eauto. }
    rewrite Hw in H. destruct (is_tt ATWORD t).
    { apply bindr_ok in H as ([sub r1] & E & H). unfold atword_statement in E.
      destruct (consume_trailing ctx toks). injection E as <- <-. eapply G; [exact H|]. discriminate. }
    rewrite Hb in H. discriminate.
  Qed.
  Lemma body_nil n bset acc a r : Parse.body_loop n ctx bset acc nil = Ok (a, r) -> r = nil.
  Proof. destruct n; [discriminate|]. cbn [Parse.body_loop]. now intros H; injection H as <- <-. Qed.

  Lemma flow_suffix n toks x r : flow n ctx toks = Ok (x, r) -> exists u, toks = u ++ r.
  Proof. intros H. apply (proj2 (account n)) in H as (u & Hu & _). eauto. Qed.
  Lemma comment_suffix toks c r : consume_comment toks = Ok (c, r) -> exists u, toks = u ++ r.
  Proof. intros H. apply (consume_comment_Q (fun _ _ => True)) in H as (u & -> & _); eauto. Qed.
  Lemma atword_suffix toks c r : atword_statement ctx toks = Ok (c, r) -> exists u, toks = u ++ r.
  Proof.
    intros H. unfold atword_statement in H. destruct toks as [|t toks]; [discriminate|].
    destruct (consume_trailing ctx toks) as [tr r2] eqn:Et. apply (consume_trailing_Q (fun _ _ => True)) in Et as (u & -> & _); auto.
    injection H as <- <-. now exists (t :: u).
  Qed.
  Lemma suf_adj toks r : (exists u, toks = u ++ r) -> adj toks -> adj r.
  Proof. intros (u & ->). apply adj_suffix. Qed.

  Lemma body_V n :
    (forall bset acc toks a r, Forall V acc -> Forall tgood toks -> adj toks ->
       Parse.body_loop n ctx bset acc toks = Ok (a, r) -> Forall V a /\ Forall tgood r)
    /\ (forall toks x r, Forall tgood toks -> adj toks -> whead toks -> flow n ctx toks = Ok (x, r) -> V x /\ Forall tgood r)
    /\ (forall acc toks a r, Forall Vb acc -> head_named acc -> Nat.even (List.length acc) = true ->
       (toks <> nil -> Forall full acc) -> Forall tgood toks -> adj toks -> whead toks ->
       if_loop n ctx acc toks = Ok (a, r) -> Forall Vb a /\ head_named a /\ (closed a -> Forall full a) /\ Forall tgood r).
  Proof.
    induction n as [|m (IHb & IHf & IHi)]; [split; [|split]; intros; discriminate|].
    split; [|split].
    - intros bset acc toks a r Ha Hg Hj H. cbn [Parse.body_loop] in H.
      destruct toks as [|t toks]; [injection H as <- <-; simpl; auto|].
      pose proof (Forall_inv_tail Hg) as Hg1. pose proof (Forall_inv Hg) as Ht. pose proof (adj_tl _ _ Hj) as Hj1.
      destruct (is_ws t).
      { destruct (take_ws (t :: toks)) as [ws r0] eqn:Ew. pose proof (suf_adj _ _ (take_ws_suffix _ _ _ Ew) Hj).
        apply take_ws_sh in Ew as [Hws Er].
        eapply IHb; [| | |exact H]; auto. apply snoc; auto. apply V_node; [exact I|exact I|now apply V_ws]. }
      destruct (is_tt COMMENT t).
      { apply bindr_ok in H as ([c r1] & E & H). pose proof (suf_adj _ _ (comment_suffix _ _ _ E) Hj).
        destruct (consume_comment_sh _ _ _ E Hg) as [A B].
        apply Forall_inv in A. eapply IHb; [| | |exact H]; auto. apply snoc; auto. now apply V_cm. }
      destruct (is_onoff t) eqn:Eo.
      { eapply IHb; [| | |exact H]; auto. apply snoc; auto. now apply V_leaf. }
      destruct (is_tt BRACKET_COMMENT t).
      { apply bindr_ok in H as ([c r1] & E & H). pose proof (suf_adj _ _ (comment_suffix _ _ _ E) Hj).
        destruct (consume_comment_sh _ _ _ E Hg) as [A B].
        apply Forall_inv in A. eapply IHb; [| | |exact H]; auto. apply snoc; auto. now apply V_cm. }
      destruct (is_tt WORD t) eqn:Ewd.
      { destruct (smem _ bset); [injection H as <- <-; auto|].
        destruct (smem _ flow_names).
        - apply bindr_ok in H as ([sub r1] & E & H). pose proof (suf_adj _ _ (flow_suffix _ _ _ _ E) Hj). apply IHf in E as [A B]; auto.
          eapply IHb; [| | |exact H]; auto. apply snoc; auto.
        - apply bindr_ok in H as ([sub r1] & E & H). pose proof (suf_adj _ _ (statement_suffix _ _ _ _ E) Hj). apply statement_V in E as (A & _ & B); auto.
          eapply IHb; [| | |exact H]; auto. apply snoc; auto. }
      destruct (is_tt ATWORD t) eqn:Eat.
      { apply bindr_ok in H as ([sub r1] & E & H). pose proof (suf_adj _ _ (atword_suffix _ _ _ E) Hj). apply atword_V in E as (A & B); auto.
        eapply IHb; [| | |exact H]; auto. apply snoc; auto. }
      destruct (is_tt BYTEORDER_MARK t) eqn:Eb; [|discriminate].
      eapply IHb; [| | |exact H]; auto.
    - intros toks x r Hg Hj Hw H. cbn [flow] in H.
      destruct toks as [|t toks]; [discriminate|].
      destruct (seqb _ _).
      + apply bindr_ok in H as ([a r1] & E & H). injection H as <- <-.
        apply IHi in E as (A & A1 & A2 & B); auto; [|exact I]. split; auto. now apply V_flow.
      + apply bindr_ok in H as ([op r1] & E & H). destruct (statement_next _ _ _ _ Hj E) as [Hj1 Hn1].
        apply statement_V in E as (A & Hn & B); auto.
        apply bindr_ok in H as ([bd r2] & E2 & H). pose proof (body_whead _ _ _ _ _ _ _ E2) as W2.
        pose proof (suf_adj _ _ (proj1 (body_suffix _ _ _ _ _ _ E2)) Hj1) as Hj2.
        assert (F2 : r2 <> nil -> flats bd <> nil).
        { intros Hr. eapply body_full; [exact Hn1| |exact E2]. intros ->. now apply body_nil in E2. }
        apply IHb in E2 as (A2 & B2); auto.
        apply bindr_ok in H as ([cl r3] & E3 & H).
        assert (F3 : flats bd <> nil) by (apply F2; intros ->; discriminate E3).
        apply statement_V in E3 as (A3 & _ & B3); auto.
        injection H as <- <-. split; auto. apply V_flow.
        * exact Hn.
        * intros _. destruct op as [|ko co], cl as [|kc cc]; destruct A as [A _], A3 as [A3 _];
            (constructor; [try (destruct ko; try exact I; destruct A); try exact I|
             constructor; [exact F3|constructor; [try (destruct kc; try exact I; destruct A3); try exact I|constructor]]]).
        * constructor; [now apply V_b|]. constructor; [now apply V_body|]. constructor; [now apply V_b|constructor].
    - intros acc toks a r Ha Hh Hev Hfl Hg Hj Hw H. cbn [if_loop] in H.
      assert (Hsn : forall l, has_name (hd (N KWhitespace nil) l) -> l <> nil -> head_named (acc ++ l)).
      { intros l H1 H2. destruct acc; [destruct l; [congruence|exact H1]|exact Hh]. }
      assert (Hvf : forall x, V x -> full x) by (intros [|k cs] [Hx _]; [exact I|]; destruct k; try exact I; destruct Hx).
      destruct toks as [|t toks].
      { injection H as <- <-. repeat split; auto. intros [_ Ho]. unfold Nat.odd in Ho. rewrite Hev in Ho. discriminate. }
      specialize (Hfl ltac:(discriminate)).
      destruct (seqb _ _).
      + apply bindr_ok in H as ([cl r1] & E & H). injection H as <- <-.
        apply statement_V in E as (A & Hn & B); auto. split; [apply snoc; auto; now apply V_b|]. split; [|split; [|exact B]].
        * apply Hsn; [exact Hn|discriminate].
        * intros _. apply snoc; auto.
      + apply bindr_ok in H as ([op r1] & E & H). destruct (statement_next _ _ _ _ Hj E) as [Hj1 Hn1].
        apply statement_V in E as (A & Hn & B); auto.
        apply bindr_ok in H as ([bd r2] & E2 & H). pose proof (body_whead _ _ _ _ _ _ _ E2) as W2.
        pose proof (suf_adj _ _ (proj1 (body_suffix _ _ _ _ _ _ E2)) Hj1) as Hj2.
        assert (F2 : r2 <> nil -> flats bd <> nil).
        { intros Hr. eapply body_full; [exact Hn1| |exact E2]. intros ->. now apply body_nil in E2. }
        apply IHb in E2 as (A2 & B2); auto.
        eapply IHi; [| | | | | | |exact H]; auto.
        * apply Forall_app. split; auto. constructor; [now apply V_b|]. constructor; [now apply V_body|constructor].
        * apply Hsn; [exact Hn|discriminate].
        * rewrite app_length. cbn [List.length]. rewrite Nat.even_add, Hev. reflexivity.
        * intros Hr. apply Forall_app. split; auto. constructor; [auto|]. constructor; [exact (F2 Hr)|constructor].
  Qed.
  Theorem parse_V toks tree : Forall tgood toks -> adj toks -> parse ctx toks = Ok tree -> Vb tree.
  Proof.
    intros Hg Hj H. unfold parse in H. apply bindr_ok in H as ([a r] & E & H). injection H as <-.
    destruct (body_V (parse_fuel toks)) as [Hb _]. apply Hb in E as (A & _); auto. now apply V_body.
  Qed.
End LintShape.

(** ** The shipped tables *)
Definition rds (l : list pspec) : bool := forallb rd l.
(** every count in a table of the user can be read *)
Fixpoint pcounts (p : parser) : bool :=
  match p with
  | PStd cs kw => rds (cs_pargs cs) && forallb (fun kp => pcounts (snd kp)) kw
  | PShell | PCond | PNull | PRaise _ => true
  | _ => false
  end.
Fixpoint pcounts_wn (p : parser) : pcounts p = true -> wfn p.
Proof.
  destruct p as [cs kw| | | | | | | | | | |]; intros H; try discriminate H; try (constructor; fail).
  simpl in H. apply andb_prop in H as [Hf H]. constructor.
  - unfold rds in Hf. rewrite forallb_forall in Hf. apply Forall_forall. exact Hf.
  - induction kw as [|[k0 p0] kw IH]; intros k p; [intros []|].
    simpl in H. apply andb_prop in H as [H1 H2].
    intros [E|Hin]; [injection E as <- <-; apply pcounts_wn, H1|]. now apply (IH H2 k).
Defined.
Definition table_counts (l : list (str * parser)) : bool := forallb (fun kp => pcounts (snd kp)) l.
Lemma table_wn l k p : table_counts l = true -> In (k, p) l -> wfn p.
Proof. unfold table_counts. rewrite forallb_forall. intros H Hin. apply pcounts_wn, (H _ Hin). Qed.
Lemma spec_table_counts : table_counts spec_table = true.
Proof. vm_compute. reflexivity. Qed.
Lemma flow_table_counts : table_counts flow_table = true.
Proof. vm_compute. reflexivity. Qed.
Definition kwwn (m : list (str * parser)) : Prop := Forall (fun kp => wfn (snd kp)) m.
Lemma std_wn cs kw : Forall (fun sp => rd sp = true) (cs_pargs cs) -> kwwn kw -> wfn (PStd cs kw).
Proof. intros Hf H. constructor; auto. intros k p Hin. unfold kwwn in H. rewrite Forall_forall in H. apply (H _ Hin). Qed.
Lemma sat_wn n kw flags : rd (PSpec n false nil flags true None) = true -> kwwn kw -> wfn (sat n kw flags).
Proof. intros Hf H. apply std_wn; [|exact H]. constructor; [exact Hf|constructor]. Qed.
Lemma lookup_wn k m p : Forall (fun kp => wfn (snd kp)) m -> kw_lookup k m = Some p -> wfn p.
Proof. intros H E. apply lookup_In in E. rewrite Forall_forall in H. apply (H _ E). Qed.
Lemma disp_first_wn m : Forall (fun kp => wfn (snd kp)) m -> wfn (disp_first m).
Proof.
  intros H. constructor. intros toks.
  assert (wfn sat_any) by (apply sat_wn; [reflexivity|constructor]).
  destruct (first_sem toks); auto. destruct (is_tt RIGHT_PAREN t); auto. destruct (is_tt DEREF t); auto.
  destruct (kw_lookup _ m) eqn:E; auto. eapply lookup_wn; eauto.
Qed.
Lemma set_wn vt : wfn (parse_set vt).
Proof.
  apply wn_seq; [repeat constructor|]. constructor.
  - intros acc toks w p extra chk. unfold set_step, kw_head. destruct toks as [|t toks]; [intros H; discriminate H|].
    destruct (kwarg_in t [$"CACHE"]) eqn:E.
    + intros H; injection H as <- <- _ _. split; [exact (kwarg_in_head _ _ E)|constructor; reflexivity].
    + destruct (kwarg_in t [$"PARENT_SCOPE"]); intros H; discriminate H.
  - intros acc toks. unfold set_step. destruct toks as [|t toks]; [reflexivity|].
    destruct (kwarg_in t [$"CACHE"]); [exact I|]. destruct (kwarg_in t _); reflexivity.
Qed.
Lemma foreach_in_wn : wfn parse_foreach_in.
Proof.
  apply wn_seq; [repeat constructor|]. constructor.
  - intros acc toks w p extra chk. unfold foreach_in_step, kw_head. destruct toks as [|t toks]; [intros H; discriminate H|].
    destruct (kwarg_in t _) eqn:E; [intros H; injection H as <- <- _ _; split; [eapply kwarg_in_head; eauto|constructor; reflexivity]|].
    destruct (kwarg_in t [$"ITEMS"]) eqn:E2; [intros H; injection H as <- <- _ _; split; [eapply kwarg_in_head; eauto|constructor; reflexivity]|]. intros H; discriminate H.
  - intros acc toks. unfold foreach_in_step. destruct toks as [|t toks]; [reflexivity|].
    destruct (kwarg_in t _); [exact I|]. destruct (kwarg_in t _); [exact I|reflexivity].
Qed.
Lemma act_wn : wfn parse_add_custom_target.
Proof.
  apply wn_seq; [repeat constructor|]. constructor.
  - intros acc toks w p extra chk. unfold act_step, kw_head.
    destruct toks as [|t toks]; [intros H; discriminate H|]. destruct (negb _); [intros H; discriminate H|].
    destruct (normalized_kwarg t) as [u|]; [|intros H; discriminate H]. destruct (smem u _); [intros H; discriminate H|].
    destruct (kw_lookup u act_kw) as [q|] eqn:E; [|intros H; discriminate H].
    intros H; injection H as <- <- _ _. split; [discriminate|]. apply lookup_In in E. simpl in E.
    repeat (destruct E as [E|E]; [injection E as <- <-; constructor; reflexivity|]). destruct E.
  - intros acc toks. unfold act_step. destruct toks as [|t toks]; [reflexivity|]. destruct (negb _); [reflexivity|].
    destruct (normalized_kwarg t) as [u|]; [|reflexivity]. destruct (smem u _); [exact I|].
    destruct (kw_lookup u act_kw); [exact I|reflexivity].
Qed.
Lemma gpos_wn items keep sp extra push tags : Forall item_rd items -> rd sp = true ->
  wfn (PSeq items (Some (GSpec keep (fun _ _ => GPos sp extra push tags)))).
Proof. intros Hi Hs. apply wn_seq; auto. constructor; [discriminate|intros; exact Hs]. Qed.

Ltac wnauto :=
  repeat (cbn [snd fst]; match goal with
  | |- _ /\ _ => split
  | |- rd _ = true => vm_compute; reflexivity
  | |- item_rd _ => first [exact I|vm_compute; reflexivity]
  | |- wfn (PStd _ _) => apply std_wn
  | |- wfn (sat _ _ _) => apply sat_wn
  | |- wfn (pos _ _) => apply wn_pos
  | |- wfn (PDisp _) => apply wn_disp; intros ?toks; cbv beta
  | |- wfn (need_tok ?t _) => unfold need_tok; destruct t
  | |- wfn (parse_set _) => apply set_wn
  | |- wfn parse_foreach_in => apply foreach_in_wn
  | |- wfn parse_add_custom_target => apply act_wn
  | |- wfn (disp_first _) => apply disp_first_wn
  | |- wfn (PSeq _ (Some (GSpec _ (fun _ _ => GPos _ _ _ _)))) => apply gpos_wn
  | |- wfn (PSeq _ None) => apply wn_seq; [|constructor]
  | |- wfn (if ?c then _ else _) => destruct c
  | |- wfn (match kw_lookup ?k ?m with _ => _ end) => let E := fresh in destruct (kw_lookup k m) eqn:E; [eapply lookup_wn; [|exact E]|]
  | |- wfn (match ?c with _ => _ end) => destruct c
  | |- wfn ?p => first [solve [constructor; auto] | unfold p]
  | |- kwwn ?m => unfold kwwn
  | |- Forall _ (_ :: _) => apply Forall_cons
  | |- Forall _ nil => apply Forall_nil
  | |- Forall _ (_ ++ _) => apply Forall_app; split
  | |- Forall _ (map _ _) => apply Forall_map, Forall_forall; intros ? ?
  | |- Forall _ ?m => unfold m
  end).
Lemma hand_wn vt : Forall (fun kp => wfn (snd kp)) (hand_table vt).
Proof. unfold hand_table; wnauto. Qed.
Lemma std_wnctx ex vt tbl : table_counts tbl = true -> wfnctx (std_ctx ex vt tbl).
Proof.
  intros Ht name p. simpl. unfold with_user. destruct (kw_lookup name tbl) as [q|] eqn:E.
  - intros H. injection H as <-. apply lookup_In in E. eapply table_wn; eauto.
  - unfold std_table. intros H. apply lookup_In in H. rewrite !in_app_iff in H. destruct H as [H|[H|H]].
    + eapply table_wn; [apply spec_table_counts|eauto].
    + eapply table_wn; [apply flow_table_counts|eauto].
    + pose proof (hand_wn vt) as F. rewrite Forall_forall in F. apply (F _ H).
Qed.

(** ** Lexed files *)
Lemma last_stripped x c : N.eqb c cBOM = false -> last_or None (strip_bom (x ++ [c])) = Some c.
Proof.
  intros Hc. assert (G : forall y, last_or None (y ++ [c]) = Some c) by (intros y; unfold last_or; now rewrite fold_left_app).
  destruct x as [|a x]; cbn [app strip_bom]; [rewrite Hc; reflexivity|]. destruct (N.eqb a cBOM); [apply G|apply (G (a :: x))].
Qed.
Lemma lexed_adj src toks : tokenize src = Ok toks -> adj toks.
Proof.
  intros H pre a t post E. split.
  - intros Ha. destruct (is_tt WORD t) eqn:Ew; [exfalso|reflexivity]. unfold is_tt in Ew. apply ttype_eqb_eq in Ew.
    assert (E2 : toks = (pre ++ [a]) ++ t :: post) by (rewrite <- app_assoc; exact E).
    destruct (C04_token_classes _ _ _ _ _ H E2) as (A & B & _); [congruence|]. rewrite Ew in *.
    specialize (B eq_refl) as [_ D]. rewrite map_app, concat_app in D. cbn [map List.concat] in D. rewrite app_nil_r in D.
    assert (Hs : forall y c, spelling a = y ++ [c] -> N.eqb c cBOM = false -> is_aspace c = true \/ c = cLP).
    { intros y c Ey Hc. rewrite Ey, app_assoc, last_stripped in D by exact Hc. exact D. }
    destruct (C04_token_classes _ _ _ _ _ H E) as (A1 & _).
    { intros Hb. unfold is_tt, is_comment in Ha. rewrite Hb in Ha. discriminate. }
    apply orb_prop in Ha as [Ha|Ha].
    + unfold is_tt in Ha. apply ttype_eqb_eq in Ha. rewrite Ha in A1. cbn in A1.
      destruct (Hs nil cRP A1 eq_refl) as [X|X]; discriminate X.
    + unfold is_comment in Ha. destruct (tt a) eqn:Et; try discriminate Ha.
      * destruct (C04_comment_to_eol _ _ _ _ _ H E Et) as [_ [X|(rest & X)]]; [discriminate X|].
        destruct A as (c & w & Hw & Hc & _). cbn [map List.concat] in X. rewrite Hw in X. injection X as -> _.
        unfold name_first, cNL in Hc. lia.
      * destruct A1 as (n & body & A1). unfold bracket_text in A1.
        destruct (Hs (cHASH :: [cLB] ++ repeat cEQ n ++ [cLB] ++ body ++ [cRB] ++ repeat cEQ n) cRB) as [X|X];
          [|reflexivity|discriminate X|discriminate X].
        rewrite A1. cbn [app]. rewrite <- !app_assoc. cbn [app]. rewrite <- !app_assoc. cbn [app]. rewrite <- ?app_assoc. reflexivity.
  - destruct (tokenize_strip _ _ H) as (Hb & _). subst toks. unfold no_bom in Hb. rewrite Forall_forall in Hb.
    specialize (Hb t). destruct (is_tt BYTEORDER_MARK t) eqn:Et; [|reflexivity]. unfold is_tt in Et. apply ttype_eqb_eq in Et.
    exfalso. apply Hb; [|exact Et]. destruct pre; cbn [app tl]; [now left|]. apply in_or_app. right. right. now left.
Qed.

Theorem file_V ex vt specs tbl src toks tree : user_table specs = Ok tbl -> table_counts tbl = true ->
  tokenize src = Ok toks -> parse (std_ctx ex vt tbl) toks = Ok tree -> Vb tree.
Proof.
  intros Hu Hk Ht Hp. eapply parse_V; [apply std_wnctx; exact Hk|eapply std_wfctx; eauto|eapply lexed_good; eauto|eapply lexed_adj; eauto|exact Hp].
Qed.
