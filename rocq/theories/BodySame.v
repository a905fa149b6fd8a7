(** * BodySame: statements and whole files that differ in blanks only are parsed alike *)
From Verif Require Import Base Regex Lex TextOps TextProofs Tree Parse ParseProofs ParseTerm PropParse
  CmdSpec StdSpecs StdDb NamesShape PropLintChecks ParseShape WordShape ParseBlank ParseSame.

(** ** The one exception

    [foreach(i )] is accepted because the parser takes the blank for the list of
    values, [foreach(i)] is not: no foreach may have an empty group of values. *)
Definition full_group (n : pnode) : bool :=
  match n with N (KPargGroup _ _ _) cs => existsb nonws (flats cs) | _ => true end.
Definition loop_args (n : pnode) : bool :=
  match n with N (KArgGroup _) gs => forallb full_group gs | _ => true end.
Definition named_foreach (cs : list pnode) : bool :=
  match cs with N KFunname [T t] :: _ => seqb (lower (spelling t)) $"foreach" | _ => false end.
Fixpoint loops_full (n : pnode) : bool :=
  match n with
  | T _ => true
  | N k cs => match k with
              | KStatement _ => implb (named_foreach cs) (forallb loop_args cs)
              | _ => forallb loops_full cs
              end
  end.

Section Args.
  Variable ctx : pctx.
  Variables R1 R2 : list token.
  Local Notation tsim := (tsim ctx).
  Local Notation sim := (sim ctx R1 R2).
  Local Notation live := (live R1).
  Local Notation lsim := (lsim ctx).
  Local Notation nsim := (nsim ctx).
  Local Notation rsim := (rsim ctx R1 R2).
  Local Notation nres := (nres ctx R1 R2).
  Local Notation bpp := (bpp ctx R1 R2).

  Definition tpp (p : parser) : Prop :=
    (forall l1 l2, sim l1 l2 -> live l1 -> resolve p l1 = resolve p l2)
    /\ forall l1 l2, sim l1 l2 -> live l1 -> bpp (resolve p l1) \/ resolve p l1 = parse_foreach_standard.
  Definition bctx0 : Prop :=
    (forall name p, db ctx name = Some p -> name <> $"foreach" -> bpp p)
    /\ (forall p, db ctx $"foreach" = Some p -> tpp p).
  Hypothesis Hctx : bctx0.
  Hypothesis Hwf : wfctx true ctx.

  Lemma posg_eq n sp bs nested l x r : pos_group n ctx sp bs nested l = Ok (x, r) -> Q eq l r [x].
  Proof.
    intros H. eapply (sp_posg eq anyg false ctx n); [|exact I|exact H].
    apply all_Sp; try discriminate; auto; try (intros; subst; reflexivity).
  Qed.
  Lemma resolve_idem p : forall l, resolve (resolve p l) l = resolve p l.
  Proof. induction p; intros; cbn [resolve]; auto. Qed.
  Lemma call_resolve n p bs nested l : call n ctx p bs nested l = call n ctx (resolve p l) bs nested l.
  Proof. destruct n as [|n]; [reflexivity|]. cbn [call]. now rewrite resolve_idem. Qed.

  Definition loops_of (x : pnode) : bool := loop_args x.
  Lemma foreach_sim n1 l1 x r1 : call n1 ctx parse_foreach_standard [BParen] false l1 = Ok (x, r1) -> live r1 ->
    loop_args x = true -> forall n2 l2, sim l1 l2 -> nres (call n2 ctx parse_foreach_standard [BParen] false l2) x r1.
  Proof.
    intros H Hr Hf n2 l2 Hs.
    assert (Hlv : live l1) by (eapply live_suf; [eapply (s_call ctx _ true); [|reflexivity|exact H]|exact Hr]; repeat constructor).
    destruct n1 as [|n1]; [discriminate|]. destruct n2 as [|n2]; [apply nres_fuel|].
    unfold parse_foreach_standard in *. cbn [call resolve] in H |- *.
    apply bindr_ok in H as ([a r] & E & H). injection H as <- <-.
    destruct n1 as [|n1]; [discriminate|]. destruct n2 as [|n2]; [apply nres_fuel|]. cbn [seq_items] in E |- *.
    destruct (take_ws l1) as [w1 r0] eqn:E1. destruct (take_ws l2) as [w2 r2] eqn:E2.
    destruct (take_ws_sim _ _ _ _ _ _ _ _ _ Hs Hlv E1 E2) as (Hw & Hs0 & Hl0).
    destruct n1 as [|n1]; [discriminate|]. destruct n2 as [|n2]; [apply nres_fuel|]. cbn [seq_items] in E |- *.
    apply bindr_ok in E as ([g1 m1] & Eg1 & E). cbn [andb] in E |- *. destruct (_ <=? _)%nat eqn:El1 in E; [discriminate|].
    destruct n1 as [|n1]; [discriminate|]. cbn [seq_items] in E.
    apply bindr_ok in E as ([g2 k1] & Eg2 & E). cbn [andb] in E. destruct (_ <=? _)%nat eqn:El2 in E; [discriminate|].
    destruct n1 as [|n1]; [discriminate|]. cbn [seq_items] in E. injection E as <- <-.
    assert (Hnm : live m1) by (eapply live_suf; [eapply s_posg; exact Eg2|exact Hr]).
    assert (Hb : bsok ([BParen] ++ map kwbreaker nil)) by (apply bsok_app; [apply bsok_paren|apply bsok_nil]).
    eapply bind_rn with (x1 := (nil ++ w1) ++ [g1] ++ [g2]) (m1 := k1).
    2:{ intros y m2 _ Hy Hm. apply nres_ok; auto. apply nsim_wrap. rewrite <- app_assoc. exact Hy. }
    eapply bind_nr; [eapply (b_posg _ _ _ _ (all_BP ctx R1 R2 _)); [exact Hb|exact Eg1|exact Hnm|exact Hs0]|].
    intros x2 m2 Ex2 Hx Hm.
    apply take_ws_split in E1 as (? & _ & _ & _ & Hh1). apply take_ws_split in E2 as (? & _ & _ & _ & Hh2).
    pose proof (s_posg _ _ _ _ _ _ _ _ Eg1) as S1. pose proof (s_posg _ _ _ _ _ _ _ _ Ex2) as S2.
    pose proof (sim_nil _ _ _ _ _ Hs0 Hl0) as Hn2.
    destruct r0 as [|t0 r0]; [destruct (live_nil _ Hl0)|]. destruct r2 as [|u0 r2]; [now destruct Hn2|].
    rewrite <- (sim_consumed ctx R1 R2 t0 r0 m1 u0 r2 m2 Hh1 Hh2 Hs0 Hl0 Hm S1 S2), El1.
    destruct n2 as [|n2]; [apply rsim_fuel|]. cbn [seq_items].
    eapply bind_nr; [eapply (b_posg _ _ _ _ (all_BP ctx R1 R2 _)); [exact Hb|exact Eg2|exact Hr|exact Hm]|].
    intros y2 k2 Ey2 Hy Hk. cbn [andb].
    assert (El : (List.length m2 <=? List.length k2)%nat = false).
    { apply Nat.leb_gt. pose proof (s_posg _ _ _ _ _ _ _ _ Ey2) as (v & ->).
      destruct (posg_eq _ _ _ _ _ _ _ Eg2) as (u & -> & Eu).
      assert (Hne : nows u <> nil).
      { cbn [loop_args] in Hf. rewrite !forallb_app in Hf. apply andb_prop in Hf as [_ Hf]. cbn [forallb] in Hf. rewrite andb_true_r in Hf.
        cbn [pos_group] in Eg2. destruct (take_ws (u ++ k1)) as [wa wr] eqn:Et.
        apply bindr_ok in Eg2 as ([ga gr] & _ & Eg2). injection Eg2 as <- <-. rewrite Eu. cbn [full_group flats flat_map flat app] in Hf |- *. rewrite app_nil_r.
        apply existsb_exists in Hf as (z & Hz & Hz2). intros En. assert (Hin : In z (nows (flats ga))) by (apply filter_In; auto).
        unfold flats in Hin. rewrite En in Hin. destruct Hin. }
      destruct Hm as (q1 & q2 & Em1 & Em2 & Fm & _). destruct Hk as (h1 & h2 & -> & -> & Fk & _).
      rewrite app_assoc in Em1, Em2. apply app_inv_tail in Em1, Em2. subst q1 q2.
      pose proof (f2_len _ _ _ Fm) as H1. pose proof (f2_len _ _ _ Fk) as H2. rewrite !nows_app, !app_length in H1. rewrite (app_length v).
      destruct (nows u) as [|z zs]; [contradiction|]. cbn [List.length] in H1.
      destruct v as [|v0 v]; [cbn [nows filter List.length] in H1; lia|cbn [List.length]; lia]. }
    rewrite El. destruct n2 as [|n2]; [apply rsim_fuel|]. cbn [seq_items]. apply rsim_ok; auto.
    rewrite app_assoc. apply lsim_node; auto. apply lsim_node; auto.
  Qed.
  Lemma top_sim p n1 l1 x r1 : tpp p -> wfp true true p -> call n1 ctx p [BParen] false l1 = Ok (x, r1) -> live r1 ->
    loop_args x = true -> forall n2 l2, sim l1 l2 -> nres (call n2 ctx p [BParen] false l2) x r1.
  Proof.
    intros [Ht1 Ht2] Hw H Hr Hf n2 l2 Hs.
    assert (Hn : live l1) by (eapply live_suf; [eapply (s_call ctx _ true); [exact Hw|reflexivity|exact H]|exact Hr]).
    rewrite call_resolve in H. rewrite call_resolve, <- (Ht1 _ _ Hs Hn).
    pose proof (resolve_wf _ _ _ Hw l1) as Hw'.
    destruct (Ht2 l1 l2 Hs Hn) as [Hb|E].
    - eapply (b_call _ _ _ _ (all_BP ctx R1 R2 n1)); [exact Hb|exact Hw'|reflexivity|apply bsok_paren|exact H|exact Hr|exact Hs].
    - rewrite E in *. eapply foreach_sim; eauto.
  Qed.
  Lemma Hcmd name : wfp true true (command_parser ctx name).
  Proof. now apply command_parser_wf. Qed.
  Lemma default_bp : bpp default_parser.
  Proof. constructor; [reflexivity|reflexivity|intros k p []]. Qed.
  Lemma cmd_sim name n1 l1 x r1 : call n1 ctx (command_parser ctx name) [BParen] false l1 = Ok (x, r1) -> live r1 ->
    implb (seqb name $"foreach") (loop_args x) = true ->
    forall n2 l2, sim l1 l2 -> nres (call n2 ctx (command_parser ctx name) [BParen] false l2) x r1.
  Proof.
    intros H Hr Hf n2 l2 Hs. destruct Hctx as [Hc1 Hc2].
    assert (bpp (command_parser ctx name) \/ (tpp (command_parser ctx name) /\ name = $"foreach")) as [Hb|[Ht ->]].
    { unfold command_parser. destruct (db ctx name) as [p|] eqn:E.
      - destruct (seqb name $"foreach") eqn:En; [apply seqb_eq in En; subst; auto|].
        left. eapply Hc1; eauto. intros ->. discriminate En.
      - left. destruct (db ctx $"_default") eqn:E2; [eapply Hc1; eauto; discriminate|apply default_bp]. }
    - eapply (b_call _ _ _ _ (all_BP ctx R1 R2 n1)); [exact Hb|apply Hcmd|reflexivity|apply bsok_paren|exact H|exact Hr|exact Hs].
    - eapply top_sim; eauto. apply Hcmd.
  Qed.

End Args.

(** the table holds only parsers that do not look at blanks, whatever follows *)
Definition bctx (ctx : pctx) : Prop := forall R1 R2, bctx0 ctx R1 R2.

(** ** Comments between statements *)
Definition wsc (t : token) : bool := is_ws t || is_comment t.
(** the children of a statement up to the closing parenthesis *)
Fixpoint upto_rp (cs : list pnode) : list pnode :=
  match cs with
  | nil => nil
  | N KRParen _ :: _ => nil
  | x :: r => x :: upto_rp r
  end.
Definition quiet_node (x : pnode) : bool := forallb (fun t => negb (is_comment t)) (flat x).
(** no statement has a comment before its closing parenthesis *)
Fixpoint outside (n : pnode) : bool :=
  match n with
  | T _ => true
  | N k cs => match k with
              | KStatement _ => forallb quiet_node (upto_rp cs)
              | _ => forallb outside cs
              end
  end.

Section Body.
  Variable ctx : pctx.
  Hypothesis Hctx : bctx ctx.
  Hypothesis Hwf : wfctx true ctx.
  Local Notation tsim := (tsim ctx).
  Local Notation lsim := (lsim ctx).

  (** token lists that differ in blanks, and in comments where the first has some *)
  Inductive tcs : list token -> list token -> Prop :=
  | tc_nil : tcs nil nil
  | tc_l w a b : is_ws w = true -> calmt w = true -> tcs a b -> tcs (w :: a) b
  | tc_r w a b : is_ws w = true -> calmt w = true -> tcs a b -> tcs a (w :: b)
  | tc_t t u a b : is_ws t = false -> calmt t = true -> calmt u = true -> tsim t u -> tcs a b -> tcs (t :: a) (u :: b)
  | tc_cl c a b : is_comment c = true -> tcs a b -> tcs (c :: a) b
  | tc_cr c d a b : is_comment c = true -> is_comment d = true -> tcs (c :: a) b -> tcs (c :: a) (d :: b).

  Lemma comment_ws c : is_comment c = true -> is_ws c = false.
  Proof. unfold is_comment, is_ws. destruct (tt c); try discriminate; reflexivity. Qed.
  Lemma calm_comment c : is_comment c = true -> calmt c = false.
  Proof. intros H. unfold calmt. now rewrite H. Qed.
  Lemma ws_comment w : is_ws w = true -> is_comment w = false.
  Proof. unfold is_comment, is_ws. destruct (tt w); try discriminate; reflexivity. Qed.
  Lemma tsim_ws t u : tsim t u -> is_ws t = is_ws u.
  Proof. intros (H & _). unfold is_ws. now rewrite H. Qed.
  Lemma nows_t t l : is_ws t = false -> nows (t :: l) = t :: nows l.
  Proof. intros H. cbn [nows filter]. unfold nonws. now rewrite H. Qed.
  Lemma nows_w t l : is_ws t = true -> nows (t :: l) = nows l.
  Proof. intros H. cbn [nows filter]. unfold nonws. now rewrite H. Qed.

  Lemma tcs_dropl w a b : is_ws w = true -> tcs (w :: a) b -> tcs a b.
  Proof.
    intros Hw H. remember (w :: a) as l eqn:E. induction H as [|w' a' b' W C H IH|w' a' b' W C H IH|t u a' b' W C C' Ht H IH|c a' b' Hc H IH|c d a' b' Hc Hd H IH]; try discriminate.
    - now injection E as -> ->.
    - apply tc_r; auto.
    - injection E as -> ->. congruence.
    - injection E as -> ->. rewrite (comment_ws _ Hc) in Hw. discriminate.
    - injection E as -> ->. rewrite (comment_ws _ Hc) in Hw. discriminate.
  Qed.
  Lemma tcs_dropr w a b : is_ws w = true -> tcs a (w :: b) -> tcs a b.
  Proof.
    intros Hw H. remember (w :: b) as l eqn:E. induction H as [|w' a' b' W C H IH|w' a' b' W C H IH|t u a' b' W C C' Ht H IH|c a' b' Hc H IH|c d a' b' Hc Hd H IH]; try discriminate.
    - apply tc_l; auto.
    - now injection E as -> ->.
    - injection E as -> ->. rewrite <- (tsim_ws _ _ Ht) in Hw. congruence.
    - apply tc_cl; auto.
    - injection E as -> ->. rewrite (comment_ws _ Hd) in Hw. discriminate.
  Qed.
  Lemma tcs_dropls ws : forall a b, forallb is_ws ws = true -> tcs (ws ++ a) b -> tcs a b.
  Proof. induction ws as [|w ws IH]; auto. cbn [forallb app]. intros a b H Hs. apply andb_prop in H as [H1 H2]. apply IH; auto. eapply tcs_dropl; eauto. Qed.
  Lemma tcs_droprs ws : forall a b, forallb is_ws ws = true -> tcs a (ws ++ b) -> tcs a b.
  Proof. induction ws as [|w ws IH]; auto. cbn [forallb app]. intros a b H Hs. apply andb_prop in H as [H1 H2]. apply IH; auto. eapply tcs_dropr; eauto. Qed.
  Lemma tcs_addr ws a b : forallb is_ws ws = true -> calm ws = true -> tcs a b -> tcs a (ws ++ b).
  Proof.
    intros Hw Hc H. induction ws as [|w ws IH]; auto. cbn [forallb calm app] in *. apply andb_prop in Hw as [H1 H2]. apply andb_prop in Hc as [C1 C2].
    apply tc_r; auto.
  Qed.
  (** the next token of both lists *)
  Lemma tcs_tok t a b : wsc t = false -> tcs (t :: a) b ->
    exists ws u b', b = ws ++ u :: b' /\ forallb is_ws ws = true /\ tsim t u /\ tcs a b' /\ calmt t = true /\ calmt u = true.
  Proof.
    intros Hw H. remember (t :: a) as l eqn:E. unfold wsc in Hw. apply orb_false_elim in Hw as [Hw Hcm].
    induction H as [|w' a' b' W C H IH|w' a' b' W C H IH|t' u a' b' W C C' Ht H IH|c a' b' Hc H IH|c d a' b' Hc Hd H IH]; try discriminate.
    - injection E as -> ->. congruence.
    - destruct (IH E) as (ws & u & b0 & -> & Hws & H1). exists (w' :: ws), u, b0. split; [reflexivity|]. split; [cbn [forallb]; now rewrite W|exact H1].
    - injection E as -> ->. exists nil, u, b'. auto 8.
    - injection E as -> ->. congruence.
    - injection E as -> ->. congruence.
  Qed.
  Lemma tcs_tokr a u b : wsc u = false -> tcs a (u :: b) ->
    exists ws t a', a = ws ++ t :: a' /\ forallb wsc ws = true /\ tsim t u /\ tcs a' b /\ calmt t = true.
  Proof.
    intros Hw H. remember (u :: b) as l eqn:E. unfold wsc in Hw. apply orb_false_elim in Hw as [Hw Hcm].
    induction H as [|w' a' b' W C H IH|w' a' b' W C H IH|t' u' a' b' W C C' Ht H IH|c a' b' Hc H IH|c d a' b' Hc Hd H IH]; try discriminate.
    - destruct (IH E) as (ws & t & a0 & -> & Hws & H1). exists (w' :: ws), t, a0. split; [reflexivity|]. split; [cbn [forallb]; unfold wsc at 1; now rewrite W|exact H1].
    - injection E as -> ->. congruence.
    - injection E as -> ->. exists nil, t', a'. auto.
    - destruct (IH E) as (ws & t & a0 & -> & Hws & H1). exists (c :: ws), t, a0. split; [reflexivity|]. split; [cbn [forallb]; unfold wsc at 1; now rewrite Hc, orb_true_r|exact H1].
    - injection E as -> ->. congruence.
  Qed.
  (** a stretch without comments *)
  Lemma tcs_split p1 R1 b : forallb (fun t => negb (is_comment t)) p1 = true -> tcs (p1 ++ R1) b ->
    exists p2 R2, b = p2 ++ R2 /\ Forall2 tsim (nows p1) (nows p2) /\ calm p1 = true /\ calm p2 = true /\ tcs R1 R2.
  Proof.
    intros Hc H. remember (p1 ++ R1) as l eqn:E. revert p1 Hc E.
    induction H as [|w' a' b' W C H IH|w' a' b' W C H IH|t' u a' b' W C C' Ht H IH|c a' b' Hc H IH|c d a' b' Hc Hd H IH]; intros p1 Hcf E.
    - symmetry in E. apply app_eq_nil in E as [-> ->]. exists nil, nil. repeat split; auto; constructor.
    - destruct p1 as [|t p1].
      { cbn [app] in E. exists nil, b'. repeat split; auto; [constructor|]. rewrite <- E. now apply tc_l. }
      cbn [app] in E. injection E as <- E. cbn [forallb] in Hcf. apply andb_prop in Hcf as [_ Hcf].
      destruct (IH _ Hcf E) as (p2 & R2 & -> & F & C1 & C2 & HR). exists p2, R2. repeat split; auto; [now rewrite nows_w|]. cbn [calm forallb]. now rewrite C.
    - destruct (IH _ Hcf E) as (p2 & R2 & -> & F & C1 & C2 & HR). exists (w' :: p2), R2. repeat split; auto; [now rewrite (nows_w w')|]. cbn [calm forallb]. now rewrite C.
    - destruct p1 as [|t p1].
      { cbn [app] in E. exists nil, (u :: b'). repeat split; auto; [constructor|]. rewrite <- E. now apply tc_t. }
      cbn [app] in E. injection E as <- E. cbn [forallb] in Hcf. apply andb_prop in Hcf as [_ Hcf].
      destruct (IH _ Hcf E) as (p2 & R2 & -> & F & C1 & C2 & HR). exists (u :: p2), R2. repeat split; auto.
      + rewrite !nows_t; auto. now rewrite <- (tsim_ws _ _ Ht).
      + cbn [calm forallb]. now rewrite C.
      + cbn [calm forallb]. now rewrite C'.
    - destruct p1 as [|t p1].
      { cbn [app] in E. exists nil, b'. repeat split; auto; [constructor|]. rewrite <- E. now apply tc_cl. }
      cbn [app] in E. injection E as <- E. cbn [forallb] in Hcf. rewrite Hc in Hcf. discriminate.
    - destruct p1 as [|t p1].
      { cbn [app] in E. exists nil, (d :: b'). repeat split; auto; [constructor|]. rewrite <- E. now apply tc_cr. }
      cbn [app] in E. injection E as <- E. cbn [forallb] in Hcf. rewrite Hc in Hcf. discriminate.
  Qed.
  Lemma tcs_sem a b : tcs a b -> Forall2 tsim (semantics a) (semantics b).
  Proof.
    assert (Gw : forall w, is_ws w = true -> is_semantic w = false) by (intros w; unfold is_ws, is_semantic; destruct (tt w); try discriminate; reflexivity).
    assert (Gc : forall w, is_comment w = true -> is_semantic w = false) by (intros w; unfold is_comment, is_semantic; destruct (tt w); try discriminate; reflexivity).
    induction 1 as [|w' a' b' W C H IH|w' a' b' W C H IH|t' u a' b' W C C' Ht H IH|c a' b' Hc H IH|c d a' b' Hc Hd H IH]; cbn [semantics filter] in *.
    - constructor.
    - now rewrite (Gw _ W).
    - now rewrite (Gw _ W).
    - replace (is_semantic u) with (is_semantic t') by (destruct Ht as (E & _); unfold is_semantic; now rewrite E).
      destruct (is_semantic t'); auto.
    - now rewrite (Gc _ Hc).
    - now rewrite (Gc _ Hd).
  Qed.
  Lemma tcs_onoff a b : tcs a b -> no_onoff a.
  Proof.
    assert (Gw : forall w, calmt w = true -> is_onoff w = false).
    { intros w H. unfold calmt in H. apply andb_prop in H as [H _]. apply negb_true_iff in H. apply orb_false_elim in H as [H _]. now apply orb_false_elim in H. }
    assert (Gc : forall w, is_comment w = true -> is_onoff w = false) by (intros w; unfold is_comment, is_onoff; destruct (tt w); try discriminate; reflexivity).
    induction 1; auto; constructor; auto.
  Qed.

  (** between statements the comments of both sides are passed over *)
  Definition lcs (a b : list token) : Prop := exists c d, forallb wsc c = true /\ forallb wsc d = true /\ tcs (c ++ a) (d ++ b).
  Lemma tcs_lcs a b : tcs a b -> lcs a b.
  Proof. intros H. exists nil, nil. auto. Qed.
  Lemma lcs_dropl u a b : forallb wsc u = true -> lcs (u ++ a) b -> lcs a b.
  Proof. intros Hu (c & d & Hc & Hd & H). exists (c ++ u), d. rewrite forallb_app, Hc, Hu, <- app_assoc. auto. Qed.
  Lemma lcs_dropr u a b : forallb wsc u = true -> lcs a (u ++ b) -> lcs a b.
  Proof. intros Hu (c & d & Hc & Hd & H). exists c, (d ++ u). rewrite forallb_app, Hd, Hu, <- app_assoc. auto. Qed.
  Lemma tcs_wsc_tok c : forall t a b, forallb wsc c = true -> wsc t = false -> tcs (c ++ t :: a) b ->
    exists ws u b', b = ws ++ u :: b' /\ forallb wsc ws = true /\ tsim t u /\ tcs a b' /\ calmt t = true /\ calmt u = true.
  Proof.
    assert (Gw : forall ws, forallb is_ws ws = true -> forallb wsc ws = true).
    { induction ws as [|w ws IH]; auto. cbn [forallb]. intros H. apply andb_prop in H as [H1 H2]. unfold wsc at 1. rewrite H1. auto. }
    intros t a b Hc Ht H. remember (c ++ t :: a) as l eqn:E. revert c Hc E.
    induction H as [|w' a' b' W C H IH|w' a' b' W C H IH|t' u a' b' W C C' Htu H IH|k a' b' Hk H IH|k d a' b' Hk Hd H IH]; intros c Hc E.
    - destruct c; discriminate.
    - destruct c as [|x c]; cbn [app] in E; injection E as -> E; [unfold wsc in Ht; rewrite W in Ht; discriminate|].
      cbn [forallb] in Hc. apply andb_prop in Hc as [_ Hc]. eauto.
    - destruct (IH c Hc E) as (ws & u & b0 & -> & Hws & H1). exists (w' :: ws), u, b0. split; [reflexivity|]. split; [cbn [forallb]; unfold wsc at 1; now rewrite W|exact H1].
    - destruct c as [|x c]; cbn [app] in E; injection E as -> E.
      + subst a'. exists nil, u, b'. auto 8.
      + cbn [forallb] in Hc. apply andb_prop in Hc as [Hx Hc]. unfold wsc in Hx. rewrite W in Hx. cbn [orb] in Hx. rewrite (calm_comment _ Hx) in C. discriminate.
    - destruct c as [|x c]; cbn [app] in E; injection E as -> E; [unfold wsc in Ht; rewrite Hk, orb_true_r in Ht; discriminate|].
      cbn [forallb] in Hc. apply andb_prop in Hc as [_ Hc]. eauto.
    - destruct (IH c Hc E) as (ws & u & b0 & -> & Hws & H1). exists (d :: ws), u, b0. split; [reflexivity|]. split; [cbn [forallb]; unfold wsc at 1; now rewrite Hd, orb_true_r|exact H1].
  Qed.
  Lemma wsc_prefix c : forall d u r, forallb wsc c = true -> wsc u = false -> c ++ d = d ++ nil \/ True -> forall ws, c ++ d = ws ++ u :: r -> exists ws', ws = c ++ ws' /\ d = ws' ++ u :: r.
  Proof.
    induction c as [|x c IH]; intros d u r Hc Hu _ ws E; [exists ws; auto|].
    cbn [forallb] in Hc. apply andb_prop in Hc as [Hx Hc]. destruct ws as [|w ws]; cbn [app] in E; injection E as -> E; [congruence|].
    destruct (IH d u r Hc Hu (or_intror I) ws E) as (ws' & -> & ->). exists ws'. auto.
  Qed.
  Lemma lcs_tok t a b : wsc t = false -> lcs (t :: a) b ->
    exists ws u b', b = ws ++ u :: b' /\ forallb wsc ws = true /\ tsim t u /\ tcs a b' /\ calmt t = true /\ calmt u = true.
  Proof.
    intros Ht (c & d & Hc & Hd & H). destruct (tcs_wsc_tok _ _ _ _ Hc Ht H) as (ws & u & b' & E & Hws & Htu & Hs & C1 & C2).
    assert (Hu : wsc u = false) by (unfold wsc, is_ws, is_comment in *; destruct Htu as (<- & _); exact Ht).
    destruct (wsc_prefix d b u b' Hd Hu (or_intror I) ws E) as (ws' & -> & ->). exists ws', u, b'. rewrite forallb_app in Hws. apply andb_prop in Hws as [_ Hws]. auto 8.
  Qed.
  Lemma lcs_nil b : lcs nil b -> forallb wsc b = true.
  Proof.
    intros (c & d & Hc & Hd & H). rewrite app_nil_r in H.
    assert (G : forall a b, tcs a b -> forallb wsc a = true -> forallb wsc b = true).
    { clear. induction 1 as [|w' a' b' W C H IH|w' a' b' W C H IH|t' u a' b' W C C' Htu H IH|k a' b' Hk H IH|k d a' b' Hk Hd H IH]; cbn [forallb] in *; auto; intros Ha.
      - apply IH. now apply andb_prop in Ha.
      - unfold wsc at 1. rewrite W. auto.
      - apply andb_prop in Ha as [Ha _]. unfold wsc in Ha. rewrite W in Ha. cbn [orb] in Ha. rewrite (calm_comment _ Ha) in C. discriminate.
      - apply IH. now apply andb_prop in Ha.
      - unfold wsc at 1. rewrite Hd, orb_true_r. auto. }
    apply G in H; auto. rewrite forallb_app in H. now apply andb_prop in H.
  Qed.

  (** ** Trees that differ in blanks and comments only *)
  Definition cblank (n : pnode) : Prop :=
    blankn n \/ exists k cs, n = N (KComment k) cs /\ forallb wsc (flats cs) = true /\ existsb is_comment (flats cs) = true.
  Inductive csim : list pnode -> list pnode -> Prop :=
  | cs_nil : csim nil nil
  | cs_l x a b : cblank x -> csim a b -> csim (x :: a) b
  | cs_r y a b : cblank y -> csim a b -> csim a (y :: b)
  | cs_t t u a b : tsim t u -> csim a b -> csim (T t :: a) (T u :: b)
  | cs_n k cs ds a b : csim cs ds -> csim a b -> csim (N k cs :: a) (N k ds :: b).
  Definition ncsim (x y : pnode) : Prop := exists k cs ds, x = N k cs /\ y = N k ds /\ csim cs ds.
  Lemma lsim_csim a b : lsim a b -> csim a b.
  Proof. induction 1; [apply cs_nil|apply cs_l|apply cs_r|apply cs_t|apply cs_n]; auto; now left. Qed.
  Lemma csim_app a b : csim a b -> forall c d, csim c d -> csim (a ++ c) (b ++ d).
  Proof. induction 1; intros c' d' Hd; cbn [app]; auto; [apply cs_l|apply cs_r|apply cs_t|apply cs_n]; auto. Qed.
  Lemma csim_node a b x y : csim a b -> ncsim x y -> csim (a ++ [x]) (b ++ [y]).
  Proof. intros H (k & cs & ds & -> & -> & Hc). apply csim_app; auto. apply cs_n; auto. apply cs_nil. Qed.
  Lemma csim_ls a b l : csim a b -> Forall cblank l -> csim (a ++ l) b.
  Proof.
    intros H Hl. rewrite <- (app_nil_r b). apply csim_app; auto. induction Hl; [apply cs_nil|]. apply cs_l; auto.
  Qed.
  Lemma csim_rs a b l : csim a b -> Forall cblank l -> csim a (b ++ l).
  Proof.
    intros H Hl. rewrite <- (app_nil_r a). apply csim_app; auto. induction Hl; [apply cs_nil|]. apply cs_r; auto.
  Qed.
  Lemma ncsim_wrap k a b : csim a b -> ncsim (N k a) (N k b).
  Proof. intros. exists k, a, b. auto. Qed.

  (** ** What comments are read as *)
  Lemma cloop_wsc p : (forall t, p t = true -> is_comment t = true) -> forall n last toks, (List.length toks <= n)%nat -> forall a r, cloop p last toks = (a, r) -> forallb wsc (flats a) = true.
  Proof.
    intros Hp. induction n as [|n IH]; intros last toks Hn a r H.
    - destruct toks; [|cbn [List.length] in Hn; lia]. now injection H as <- <-.
    - destruct toks as [|t toks]; [now injection H as <- <-|]. cbn [List.length] in Hn. cbn [cloop] in H.
      destruct (p t && _) eqn:Ep; [|now injection H as <- <-]. apply andb_prop in Ep as [Ep _]. apply Hp in Ep.
      assert (Ht : wsc t = true) by (unfold wsc; now rewrite Ep, orb_true_r).
      destruct toks as [|m toks]; [injection H as <- <-; cbn [flats flat_map flat app forallb]; now rewrite Ht|].
      assert (Hdef : forall a r, (let '(a, r) := cloop p (Some t) (m :: toks) in (T t :: a, r)) = (a, r) -> forallb wsc (flats a) = true).
      { intros a' r' H'. destruct (cloop p (Some t) (m :: toks)) as [a0 r0] eqn:E. injection H' as <- <-. unfold flats in *. cbn [flat_map flat app forallb]. rewrite Ht.
        eapply IH; [|exact E]. cbn [List.length] in *. lia. }
      destruct toks as [|c toks]; [eauto|].
      destruct (is_tt NEWLINE m && p c) eqn:E1.
      + apply andb_prop in E1 as [Em _]. assert (Hm : wsc m = true) by (unfold is_tt in Em; unfold wsc, is_ws; destruct (tt m); try discriminate Em; reflexivity).
        destruct (cloop p (Some t) (c :: toks)) as [a0 r0] eqn:E. injection H as <- <-. unfold flats in *. cbn [flat_map flat app forallb]. rewrite Ht, Hm.
        eapply IH; [|exact E]. cbn [List.length] in *. lia.
      + destruct toks as [|c2 toks]; [eauto|]. destruct (is_tt NEWLINE m && is_tt WHITESPACE c && p c2) eqn:E2; [|eauto].
        apply andb_prop in E2 as [E2 _]. apply andb_prop in E2 as [Em Ec].
        assert (Hm : wsc m = true) by (unfold is_tt in Em; unfold wsc, is_ws; destruct (tt m); try discriminate Em; reflexivity).
        assert (Hc : wsc c = true) by (unfold is_tt in Ec; unfold wsc, is_ws; destruct (tt c); try discriminate Ec; reflexivity).
        destruct (cloop p (Some t) (c2 :: toks)) as [a0 r0] eqn:E. injection H as <- <-. unfold flats in *. cbn [flat_map flat app forallb]. rewrite Ht, Hm, Hc.
        eapply IH; [|exact E]. cbn [List.length] in *. lia.
  Qed.
  Lemma cloop_first p t toks a r : p t = true -> cloop p None (t :: toks) = (a, r) -> exists a', a = T t :: a'.
  Proof.
    intros Hp H. cbn [cloop] in H. rewrite Hp in H. cbn [andb] in H.
    repeat match type of H with
    | match ?l with nil => _ | _ :: _ => _ end = _ => destruct l
    | (if ?b then _ else _) = _ => destruct b
    | (let '(_, _) := ?x in _) = _ => destruct x
    end; injection H as <- <-; eauto.
  Qed.
  Lemma comment_cblank t toks c r : is_comment t = true -> consume_comment (t :: toks) = Ok (c, r) ->
    cblank c /\ exists u, t :: toks = u ++ r /\ u <> nil /\ forallb wsc u = true.
  Proof.
    intros Hc H. pose proof H as H0. apply (consume_comment_Q eq (@eq_refl _) ltac:(intros; congruence)) in H0 as (u & Eu & Hu).
    assert (G : exists cs, c = N (KComment false) cs /\ forallb wsc (flats cs) = true /\ exists cs', cs = T t :: cs').
    { unfold consume_comment in H. destruct (tmem (tt t) [BRACKET_COMMENT; FORMAT_OFF; FORMAT_ON]).
      - injection H as <- <-. eexists. split; [reflexivity|]. split; [|eauto]. cbn [flats flat_map flat app forallb]. unfold wsc. now rewrite Hc, orb_true_r.
      - destruct (cloop (is_tt COMMENT) None (t :: toks)) as [[|x a] r0] eqn:E; [discriminate|]. injection H as <- <-. eexists. split; [reflexivity|].
        assert (Ht : is_tt COMMENT t = true).
        { cbn [cloop] in E. destruct (is_tt COMMENT t); [reflexivity|]. cbn [andb] in E. discriminate. }
        split; [|apply (cloop_first _ _ _ _ _ Ht) in E; exact E].
        eapply cloop_wsc; [|apply le_n|exact E]. intros z. unfold is_tt, is_comment. destruct (tt z); try discriminate; reflexivity. }
    destruct G as (cs & -> & G1 & cs' & ->). split.
    - right. eexists _, _. split; [reflexivity|]. split; auto. unfold flats. cbn [flat_map flat app existsb]. now rewrite Hc.
    - exists u. split; auto. subst u. rewrite flats1. change (flat (N (KComment false) (T t :: cs'))) with (flats (T t :: cs')). split; auto. discriminate.
  Qed.
  Lemma trailing_cblank toks a r : consume_trailing ctx toks = (a, r) -> Forall cblank a /\ exists u, toks = u ++ r /\ forallb wsc u = true.
  Proof.
    intros H. pose proof H as H0. apply (consume_trailing_Q eq (@eq_refl _) ltac:(intros; congruence)) in H0 as (u & Eu & Hu).
    assert (G : Forall cblank a).
    { unfold consume_trailing in H. destruct (next_is_trailing ctx toks) eqn:En; cbn [negb] in H; [|injection H as <- <-; constructor].
      destruct (next_is_explicit ctx toks) eqn:Ex.
      - destruct (take_ws toks) as [ws r0] eqn:E. destruct (exloop ctx r0) as [a0 r1] eqn:E2. injection H as <- <-.
        apply take_ws_split in E as (w & -> & -> & Hw & Hh). apply Forall_app. split.
        { clear -Hw. induction w as [|t w IH]; constructor; cbn [forallb] in Hw; apply andb_prop in Hw as [H1 H2]; auto. left. exact H1. }
        constructor; [|constructor]. right. eexists _, _. split; [reflexivity|].
        assert (Hx : next_is_explicit ctx r0 = true).
        { clear -Ex Hw. induction w as [|t w IH]; auto. cbn [forallb app next_is_explicit] in *. apply andb_prop in Hw as [H1 H2]. rewrite H1 in Ex. auto. }
        split.
        + clear -E2. revert a0 r1 E2. induction r0 as [|t r0 IH]; intros a r H; [now injection H as <- <-|]. cbn [exloop] in H.
          destruct (next_is_explicit ctx (t :: r0)) eqn:E; [|now injection H as <- <-]. destruct (exloop ctx r0) as [a0 r1]. injection H as <- <-.
          unfold flats in *. cbn [flat_map flat app forallb]. rewrite (IH _ _ eq_refl), andb_true_r. cbn [next_is_explicit] in E. unfold wsc. destruct (is_ws t); auto.
          apply andb_prop in E as [E _]. unfold is_tt in E. unfold is_comment. destruct (tt t); try discriminate E; reflexivity.
        + destruct r0 as [|t r0]; [discriminate|]. cbn [exloop] in E2. rewrite Hx in E2. destruct (exloop ctx r0) as [a1 r2]. injection E2 as <- <-.
          unfold flats. cbn [flat_map flat app existsb]. cbn [next_is_explicit] in Hx. rewrite Hh in Hx. apply andb_prop in Hx as [Hx _].
          replace (is_comment t) with true; [reflexivity|]. unfold is_tt in Hx. unfold is_comment. destruct (tt t); try discriminate Hx; reflexivity.
      - assert (V : forall t, is_valid_trailing t = true -> is_comment t = true) by (intros t Ht; now apply andb_prop in Ht).
        unfold next_is_trailing in En. destruct toks as [|t0 toks]; [discriminate|]. rewrite Ex in En. cbn [orb] in En.
        assert (K : forall t l a0 r1, is_valid_trailing t = true -> cloop is_valid_trailing None (t :: l) = (a0, r1) -> cblank (N (KComment false) a0)).
        { intros t l a0 r1 Ht E. right. eexists _, _. split; [reflexivity|]. split; [eapply cloop_wsc; [exact V|apply le_n|exact E]|].
          apply (cloop_first _ _ _ _ _ Ht) in E as (a' & ->). unfold flats. cbn [flat_map flat app existsb]. now rewrite (V _ Ht). }
        destruct (is_tt WHITESPACE t0) eqn:Ew.
        + assert (Hv : is_valid_trailing t0 = false).
          { destruct (is_valid_trailing t0) eqn:Ev; auto. apply V in Ev. unfold is_tt in Ew. unfold is_comment in Ev. destruct (tt t0); discriminate. }
          rewrite Hv in En. cbn [orb] in En. destruct toks as [|t1 toks]; [discriminate|]. cbn [andb] in En.
          destruct (cloop is_valid_trailing None (t1 :: toks)) as [a0 r1] eqn:E. injection H as <- <-. cbn [app]. constructor; [|constructor; [|constructor]].
          * left. cbn [blankn]. unfold is_tt in Ew. unfold is_ws. destruct (tt t0); try discriminate Ew; reflexivity.
          * eapply K; eauto.
        + assert (Hv : is_valid_trailing t0 = true) by (destruct (is_valid_trailing t0); auto; destruct toks; discriminate).
          destruct (cloop is_valid_trailing None (t0 :: toks)) as [a0 r1] eqn:E. injection H as <- <-. constructor; [eapply K; eauto|constructor]. }
    split; auto. exists u. split; auto. subst u. clear -G. induction G as [|x a Hx G IH]; [reflexivity|]. unfold flats in *. cbn [flat_map]. rewrite forallb_app, IH, andb_true_r.
    destruct Hx as [Hx|(k & cs & -> & Hx & _)]; [|exact Hx].
    assert (Gw : forall ws, forallb is_ws ws = true -> forallb wsc ws = true).
    { induction ws as [|w ws IHw]; auto. cbn [forallb]. intros H. apply andb_prop in H as [H1 H2]. unfold wsc at 1. rewrite H1. auto. }
    destruct x as [t|k cs]; cbn [blankn flat forallb] in *; [unfold wsc; now rewrite Hx|]. destruct k; try contradiction. now apply Gw.
  Qed.

  (** ** Results *)
  Definition cres {A} (P : A -> A -> Prop) (X : res (A * list token)) (x1 : A) (r1 : list token) : Prop :=
    X = OutOfFuel \/ exists x2 r2, X = Ok (x2, r2) /\ P x1 x2 /\ lcs r1 r2.
  Lemma cres_fuel {A} (P : A -> A -> Prop) a r : cres P OutOfFuel a r. Proof. now left. Qed.
  Lemma cres_ok {A} (P : A -> A -> Prop) a1 r1 a2 r2 : P a1 a2 -> lcs r1 r2 -> cres P (Ok (a2, r2)) a1 r1.
  Proof. right. eauto. Qed.
  Lemma bind_cc {A B} (P : A -> A -> Prop) (P' : B -> B -> Prop) X x1 m1 f a r : cres P X x1 m1 ->
    (forall x2 m2, X = Ok (x2, m2) -> P x1 x2 -> lcs m1 m2 -> cres P' (f (x2, m2)) a r) -> cres P' (bindr X f) a r.
  Proof. intros [->|(x2 & m2 & -> & Hx & Hm)] K; [now left|]. cbn [bindr]. auto. Qed.

  (** ** Statements *)
  Lemma tail_split f : forall l a r, forallb quiet_node a = true -> stmt_tail f l = Ok (a, r) ->
    exists ws rp r', r = rp :: r' /\ is_tt RIGHT_PAREN rp = true /\ l = ws ++ r /\ a = map T ws /\ forallb is_ws ws = true.
  Proof.
    induction f as [|f IH]; intros l a r Hq H; [discriminate|]. cbn [stmt_tail] in H. destruct l as [|t l]; [discriminate|].
    destruct (is_tt RIGHT_PAREN t) eqn:Ep; [injection H as <- <-; exists nil, t, l; auto|].
    destruct (is_ws t) eqn:Ew.
    - apply bindr_ok in H as ([a' r'] & E & H). injection H as <- <-. cbn [forallb] in Hq. apply andb_prop in Hq as [_ Hq].
      destruct (IH _ _ _ Hq E) as (ws & rp & r2 & -> & Hp & -> & -> & Hw). exists (t :: ws), rp, r2. cbn [forallb map]. rewrite Ew. auto.
    - destruct (is_tt COMMENT t) eqn:Ec; [|discriminate]. exfalso. apply bindr_ok in H as ([c r1] & E & H). apply bindr_ok in H as ([a' r'] & E2 & H). injection H as <- <-.
      assert (Hc : is_comment t = true) by (unfold is_tt in Ec; unfold is_comment; destruct (tt t); try discriminate Ec; reflexivity).
      destruct (comment_cblank _ _ _ _ Hc E) as [[Hb|(k & cs & -> & _ & Hx)] _].
      + unfold consume_comment in E. destruct (tmem _ _); [injection E as <- <-; exact Hb|]. destruct (cloop _ _ _) as [[|x y] z]; [discriminate|]. injection E as <- <-. exact Hb.
      + cbn [forallb] in Hq. apply andb_prop in Hq as [Hq _]. unfold quiet_node in Hq. change (flat (N (KComment k) cs)) with (flats cs) in Hq.
        apply existsb_exists in Hx as (z & Hz & Hz2). rewrite forallb_forall in Hq. specialize (Hq _ Hz). rewrite Hz2 in Hq. discriminate.
  Qed.
  Lemma tail_run ws : forall f rp r, forallb is_ws ws = true -> is_tt RIGHT_PAREN rp = true ->
    stmt_tail f (ws ++ rp :: r) = OutOfFuel \/ stmt_tail f (ws ++ rp :: r) = Ok (map T ws, rp :: r).
  Proof.
    induction ws as [|w ws IH]; intros f rp r Hw Hp; (destruct f as [|f]; [now left|]); cbn [app stmt_tail].
    - rewrite Hp. now right.
    - cbn [forallb] in Hw. apply andb_prop in Hw as [Hw1 Hw2]. rewrite (ws_not RIGHT_PAREN w Hw1), Hw1 by discriminate.
      destruct (IH f rp r Hw2 Hp) as [E|E]; rewrite E; auto.
  Qed.
  Lemma rp_nonws rp : is_tt RIGHT_PAREN rp = true -> is_ws rp = false /\ is_comment rp = false.
  Proof. unfold is_tt, is_ws, is_comment. destruct (tt rp); try discriminate; auto. Qed.
  Lemma call_used n name l x r : no_onoff l -> call n ctx (command_parser ctx name) [BParen] false l = Ok (x, r) ->
    exists u, l = u ++ r /\ R_sem u (flat x).
  Proof.
    intros Ho H.
    assert (S : Sp R_sem no_onoff true ctx n).
    { apply all_Sp; [exact R_sem_refl|exact R_sem_app| |].
      - intros a b Hab. unfold no_onoff in *. apply Forall_app in Hab. tauto.
      - intros _ fuel np nt fl bs toks a0 r0 Hg Ht. apply tuple_sem in Ht as (u & -> & HR); auto; [|reflexivity]. exists u. split; auto. }
    assert (Hq : Q R_sem l r [x]) by (eapply (sp_call _ _ _ _ _ S); [apply (Hcmd ctx Hwf name)|reflexivity|exact Ho|exact H]).
    destruct Hq as (u & -> & HR). exists u. unfold flats in HR. cbn [flat_map] in HR. rewrite app_nil_r in HR. auto.
  Qed.
  Lemma upto_app a b : Forall (fun x => match x with N KRParen _ => False | _ => True end) a -> upto_rp (a ++ b) = a ++ upto_rp b.
  Proof. induction 1 as [|x a Hx H IH]; [reflexivity|]. cbn [app upto_rp]. rewrite IH. destruct x as [t|k cs]; [reflexivity|]. destruct k; try reflexivity; contradiction. Qed.
  Lemma quiet_Ts l : Forall (fun x => match x with N KRParen _ => False | _ => True end) (map T l).
  Proof. induction l; constructor; auto. Qed.

  Lemma statement_sim n1 t l1 x r1 : statement n1 ctx (t :: l1) = Ok (x, r1) -> loops_full x = true -> outside x = true ->
    forall n2 u l2, tsim t u -> tcs l1 l2 -> cres ncsim (statement n2 ctx (u :: l2)) x r1.
  Proof.
    intros H Hl Hout n2 u l2 Htu Hs. unfold statement in *.
    destruct (take_ws l1) as [w1 r0] eqn:E1. destruct (take_ws l2) as [w2 r2] eqn:E2.
    apply take_ws_split in E1 as (ws1 & -> & -> & W1 & Hh1). apply take_ws_split in E2 as (ws2 & -> & -> & W2 & Hh2).
    apply tcs_dropls in Hs; auto. apply tcs_droprs in Hs; auto.
    destruct r0 as [|lp r0]; [discriminate|]. destruct (is_tt LEFT_PAREN lp) eqn:Elp; [|discriminate]. cbn [negb] in H.
    assert (Wlp : wsc lp = false) by (unfold is_tt in Elp; unfold wsc, is_ws, is_comment; destruct (tt lp); try discriminate Elp; reflexivity).
    destruct (tcs_tok _ _ _ Wlp Hs) as (ws & lp2 & r2' & -> & W & Hlp & Hs1 & _ & _).
    assert (ws = nil) by (destruct ws as [|z ws]; auto; exfalso; cbn [app] in Hh2; cbn [forallb] in W; apply andb_prop in W as [W _]; congruence).
    subst ws. cbn [app]. rewrite <- (tsim_tt _ _ _ _ Hlp), Elp. cbn [negb].
    destruct (take_ws r0) as [v1 q1] eqn:F1. destruct (take_ws r2') as [v2 q2] eqn:F2.
    apply take_ws_split in F1 as (vs1 & -> & -> & V1 & _). apply take_ws_split in F2 as (vs2 & -> & -> & V2 & _).
    apply tcs_dropls in Hs1; auto. apply tcs_droprs in Hs1; auto.
    apply bindr_ok in H as ([args r3] & E & H). apply bindr_ok in H as ([tl r4] & Et & H).
    destruct Htu as (Ht1 & Ht2 & Ht3). rewrite <- Ht2.
    destruct r4 as [|rp r5]; [discriminate|]. destruct (consume_trailing ctx r5) as [tr r6] eqn:Etr. injection H as <- <-.
    destruct (call_used _ _ _ _ _ (tcs_onoff _ _ Hs1) E) as (used & Eq1 & HP & _).
    (* no comment up to the parenthesis *)
    assert (Hq : quiet_node args = true /\ forallb quiet_node tl = true).
    { assert (Hk : match args with N KRParen _ => False | _ => True end).
      { destruct n1 as [|n1]; [discriminate|]. cbn [call] in E. clear -E.
        repeat match type of E with
        | match ?p with PStd _ _ => _ | _ => _ end = _ => destruct p
        | (let '(_, _) := ?x in _) = _ => destruct x
        | bindr _ _ = _ => apply bindr_ok in E as ([? ?] & _ & E)
        | Ok _ = Ok _ => injection E as <- <-; exact I
        | Err _ = _ => discriminate
        end.
        destruct n1 as [|n1]; [discriminate|]. cbn [pos_group] in E. destruct (take_ws q1). apply bindr_ok in E as ([? ?] & _ & E). injection E as <- <-. exact I. }
      cbn [outside upto_rp] in Hout. cbn [forallb] in Hout. apply andb_prop in Hout as [_ Hout].
      rewrite (upto_app (map T ws1)), forallb_app in Hout by apply quiet_Ts. apply andb_prop in Hout as [_ Hout]. cbn [app upto_rp forallb] in Hout. apply andb_prop in Hout as [_ Hout].
      rewrite (upto_app (map T vs1)), forallb_app in Hout by apply quiet_Ts. apply andb_prop in Hout as [_ Hout]. cbn [app] in Hout.
      assert (Hx : quiet_node args && forallb quiet_node (upto_rp (tl ++ N KRParen [T rp] :: tr)) = true).
      { cbn [upto_rp] in Hout. destruct args as [z|k cs]; [exact Hout|]. destruct k; try exact Hout. contradiction. }
      apply andb_prop in Hx as [Hx1 Hx2]. split; auto. rewrite upto_app, forallb_app in Hx2; [now apply andb_prop in Hx2|].
      clear -Et. revert Et. generalize (S (List.length r3)). intros f. revert r3 tl rp r5. induction f as [|f IH]; intros l a rp r H; [discriminate|]. cbn [stmt_tail] in H. destruct l as [|t l]; [discriminate|].
      destruct (is_tt RIGHT_PAREN t); [injection H as <- <- <-; constructor|]. destruct (is_ws t); [apply bindr_ok in H as ([a' r'] & E & H); injection H as <- ->; constructor; eauto; exact I|].
      destruct (is_tt COMMENT t); [|discriminate]. apply bindr_ok in H as ([c r1] & Ec & H). apply bindr_ok in H as ([a' r'] & E & H). injection H as <- ->. constructor; eauto.
      unfold consume_comment in Ec. destruct (tmem _ _); [injection Ec as <- <-; exact I|]. destruct (cloop _ _ _) as [[|x y] z]; [discriminate|]. injection Ec as <- <-. exact I. }
    destruct Hq as [Hqa Hqt].
    destruct (tail_split _ _ _ _ Hqt Et) as (ws & rp' & r5' & Er4 & Hrp & -> & -> & Wt). injection Er4 as <- <-.
    assert (Hu : forallb (fun t => negb (is_comment t)) used = true).
    { unfold quiet_node in Hqa. rewrite forallb_forall in *. intros z Hz. apply Hqa. eapply Permutation.Permutation_in; eauto. }
    assert (Hws : forallb (fun t => negb (is_comment t)) ws = true).
    { clear -Wt. induction ws as [|w ws IH]; auto. cbn [forallb] in *. apply andb_prop in Wt as [H1 H2]. rewrite (ws_comment _ H1). auto. }
    destruct (rp_nonws _ Hrp) as [Wrp Crp].
    assert (Eq1' : q1 = (used ++ ws ++ [rp]) ++ r5) by (rewrite Eq1, <- !app_assoc; reflexivity).
    rewrite Eq1' in Hs1. apply tcs_split in Hs1 as (p2 & R2 & -> & F & C1 & C2 & HR).
    2:{ rewrite !forallb_app, Hu, Hws. cbn [forallb]. now rewrite Crp. }
    assert (Hsim : sim ctx r5 R2 q1 (p2 ++ R2)).
    { exists (used ++ ws ++ [rp]), p2. repeat split; auto. now apply tcs_sem. }
    assert (Hlive : live r5 (ws ++ rp :: r5)).
    { exists (ws ++ [rp]). split; [now rewrite <- app_assoc|]. rewrite nows_app. intros En. apply app_eq_nil in En as [_ En]. rewrite nows_t in En; auto. discriminate. }
    assert (Hc : nres ctx r5 R2 (call n2 ctx (command_parser ctx (lower (spelling t))) [BParen] false (p2 ++ R2)) args (ws ++ rp :: r5)).
    { eapply cmd_sim; [apply Hctx|exact Hwf|exact E|exact Hlive| |exact Hsim].
      cbn [loops_full named_foreach] in Hl. destruct (seqb (lower (spelling t)) $"foreach"); [|reflexivity]. cbn [implb] in Hl |- *.
      rewrite forallb_forall in Hl. apply Hl. right. apply in_or_app. right. right. cbn [app]. apply in_or_app. right. now left. }
    destruct Hc as [Ec|(args2 & r3' & Ec & Hargs & Hr3)]; rewrite Ec; [apply cres_fuel|]. cbn [bindr].
    assert (Hlrp : live r5 (rp :: r5)).
    { exists [rp]. split; auto. rewrite nows_t; auto. discriminate. }
    assert (Hr3' : sim ctx r5 R2 (rp :: r5) r3') by (eapply sim_drop1; [exact Wt|exact Hr3|exact Hlive]).
    destruct (sim_tok _ _ _ _ _ _ Wrp Hr3' Hlrp) as (ws' & rp' & r5' & -> & W' & _ & Hu' & Hrp' & Hs5 & _).
    assert (Ep' : is_tt RIGHT_PAREN rp' = true) by now rewrite <- (tsim_tt _ _ _ _ Hrp').
    destruct (tail_run ws' (S (List.length (ws' ++ rp' :: r5'))) rp' r5' W' Ep') as [E'|E']; rewrite E'; [apply cres_fuel|]. cbn [bindr].
    assert (Hrest : tcs r5 r5').
    { destruct Hs5 as (a & b & Ea & -> & Fab & _ & Cb & _). assert (a = nil) by (apply (app_inv_tail r5); now rewrite <- Ea). subst a.
      inversion Fab as [En|]. apply tcs_addr; auto. clear -H. symmetry in H. induction b as [|z b IH]; [reflexivity|]. cbn [forallb]. destruct (is_ws z) eqn:Ez; [rewrite nows_w in H by auto; auto|].
      rewrite nows_t in H by auto. discriminate. }
    destruct (consume_trailing ctx r5') as [tr' r6'] eqn:Etr'.
    destruct (trailing_cblank _ _ _ Etr) as (Hb1 & c1 & -> & Hc1). destruct (trailing_cblank _ _ _ Etr') as (Hb2 & c2 & -> & Hc2).
    apply cres_ok; [|exists c1, c2; auto]. apply ncsim_wrap.
    destruct Hargs as (k & cs & ds & -> & -> & Hcd).
    assert (Hw : forall a b, forallb is_ws a = true -> forallb is_ws b = true -> csim (map T a) (map T b)) by (intros; apply lsim_csim; now apply lsim_wss).
    apply cs_n; [apply cs_t; [repeat split; auto|apply cs_nil]|]. apply csim_app; [now apply Hw|].
    apply cs_n; [apply cs_t; [auto|apply cs_nil]|]. apply csim_app; [now apply Hw|].
    apply cs_n; [now apply lsim_csim|]. apply csim_app; [now apply Hw|].
    apply cs_n; [apply cs_t; [auto|apply cs_nil]|].
    apply (csim_rs tr nil tr'); auto. apply (csim_ls nil nil tr); auto. apply cs_nil.
  Qed.

  (** ** Bodies *)
  Lemma L_acc acc l a r : L R_any acc l a r -> exists new, a = acc ++ new.
  Proof. intros (new & -> & _). eauto. Qed.
  Lemma body_acc n : (forall bset acc l a r, body_loop n ctx bset acc l = Ok (a, r) -> exists new, a = acc ++ new)
    /\ (forall acc l a r, if_loop n ctx acc l = Ok (a, r) -> exists new, a = acc ++ new).
  Proof.
    destruct (body_Q R_any any_refl any_app anyg (fun _ _ _ => I) true ctx (any_tuple ctx) (fun _ _ _ _ => I)
      (fun t _ _ => Hcmd ctx Hwf (lower (spelling t))) n) as (Hb & _ & Hi).
    split; intros; [eapply L_acc, Hb; [exact I|eauto]|eapply L_acc, Hi; [exact I|eauto]].
  Qed.
  Lemma blankn_node ws : forallb is_ws ws = true -> blankn (N KWhitespace (map T ws)).
  Proof. intros H. cbn [blankn]. now rewrite flats_T. Qed.
  Definition stop (l : list token) : Prop := match l with t :: _ => wsc t = false | nil => True end.
  Lemma wsc_pre v : forall u r l, forallb wsc v = true -> stop l -> u ++ l = v ++ r -> exists u', u = v ++ u' /\ r = u' ++ l.
  Proof.
    induction v as [|x v IH]; intros u r l Hv Hl E; [exists u; auto|].
    cbn [forallb] in Hv. apply andb_prop in Hv as [Hx Hv]. destruct u as [|y u]; cbn [app] in E.
    - subst l. cbn [stop] in Hl. congruence.
    - injection E as -> E. destruct (IH u r l Hv Hl E) as (u' & -> & ->). exists u'. auto.
  Qed.
  Lemma ws_wsc ws : forallb is_ws ws = true -> forallb wsc ws = true.
  Proof. induction ws as [|w ws IH]; auto. cbn [forallb]. intros H. apply andb_prop in H as [H1 H2]. unfold wsc at 1. rewrite H1. auto. Qed.
  Lemma comment_ok t l : is_comment t = true -> exists c r, consume_comment (t :: l) = Ok (c, r).
  Proof.
    intros Hc. unfold consume_comment. destruct (tmem (tt t) _) eqn:E; [eauto|].
    assert (Ht : is_tt COMMENT t = true) by (unfold is_comment in Hc; unfold is_tt; destruct (tt t); try discriminate; reflexivity).
    destruct (cloop (is_tt COMMENT) None (t :: l)) as [a r] eqn:E2. destruct (cloop_first _ _ _ _ _ Ht E2) as (a' & ->). eauto.
  Qed.
  Lemma body_cskip n : forall u bset acc l, forallb wsc u = true -> stop l ->
    body_loop n ctx bset acc (u ++ l) = OutOfFuel
    \/ exists n' acc', body_loop n ctx bset acc (u ++ l) = body_loop n' ctx bset acc' l /\ forall a, csim a acc -> csim a acc'.
  Proof.
    induction n as [|n IH]; intros u bset acc l Hu Hl; [now left|].
    destruct u as [|t u]; [right; exists (S n), acc; auto|].
    assert (Hgo : forall x v r, cblank x -> forallb wsc v = true -> (t :: u) ++ l = v ++ r ->
      body_loop (S n) ctx bset acc ((t :: u) ++ l) = body_loop n ctx bset (acc ++ [x]) r ->
      body_loop (S n) ctx bset acc ((t :: u) ++ l) = OutOfFuel
      \/ exists n' acc', body_loop (S n) ctx bset acc ((t :: u) ++ l) = body_loop n' ctx bset acc' l /\ forall a, csim a acc -> csim a acc').
    { intros x v r Hx Hv E Eb. rewrite Eb. destruct (wsc_pre v _ r l Hv Hl E) as (u' & Eu & ->).
      assert (Hu' : forallb wsc u' = true) by (rewrite Eu, forallb_app in Hu; now apply andb_prop in Hu).
      destruct (IH u' bset (acc ++ [x]) l Hu' Hl) as [E2|(n' & acc' & E2 & Ha)]; [now left|]. right. exists n', acc'. split; auto.
      intros a Hs. apply Ha. apply csim_rs; auto. }
    cbn [app]. pose proof Hu as Hu0. cbn [forallb] in Hu0. apply andb_prop in Hu0 as [Ht _].
    destruct (is_ws t) eqn:Ew.
    - destruct (take_ws (t :: u ++ l)) as [w1 r0] eqn:E1. pose proof E1 as E0. apply take_ws_split in E1 as (ws & E & -> & W & _).
      apply (Hgo (N KWhitespace (map T ws)) ws r0); [left; now apply blankn_node|apply ws_wsc; exact W|exact E|]. cbn [app body_loop]. now rewrite Ew, E0.
    - unfold wsc in Ht. rewrite Ew in Ht. cbn [orb] in Ht. destruct (comment_ok t (u ++ l) Ht) as (c & r & Ec).
      destruct (comment_cblank _ _ _ _ Ht Ec) as (Hc & v & Ev & _ & Hv).
      eapply Hgo; [exact Hc|exact Hv|exact Ev|]. cbn [app body_loop]. rewrite Ew.
      assert (Ho : is_onoff t = false) by (unfold is_comment in Ht; unfold is_onoff; destruct (tt t); try discriminate; reflexivity).
      destruct (is_tt COMMENT t) eqn:E1; [now rewrite Ec|]. rewrite Ho.
      assert (E2 : is_tt BRACKET_COMMENT t = true) by (unfold is_comment in Ht; unfold is_tt in *; destruct (tt t); try discriminate; reflexivity).
      now rewrite E2, Ec.
  Qed.
  Lemma word_stop t : is_tt WORD t = true -> wsc t = false.
  Proof. unfold is_tt, wsc, is_ws, is_comment. destruct (tt t); try discriminate; reflexivity. Qed.
  Lemma tsim_stop t u : tsim t u -> wsc t = wsc u.
  Proof. intros (E & _). unfold wsc, is_ws, is_comment. now rewrite E. Qed.
  Definition good (x : pnode) : bool := loops_full x && outside x.
  Lemma good_body a : good (N KBody a) = forallb good a.
  Proof.
    unfold good. cbn [loops_full outside]. induction a as [|x a IH]; [reflexivity|]. cbn [forallb]. rewrite <- IH.
    destruct (loops_full x), (outside x), (forallb loops_full a); reflexivity.
  Qed.
  Lemma good_flow a : good (N KFlow a) = forallb good a.
  Proof. exact (good_body a). Qed.

  Lemma body_sim n1 :
    (forall bset acc1 l1 a1 r1, body_loop n1 ctx bset acc1 l1 = Ok (a1, r1) -> forallb good a1 = true ->
       forall n2 acc2 l2, lcs l1 l2 -> csim acc1 acc2 -> cres csim (body_loop n2 ctx bset acc2 l2) a1 r1)
    /\ (forall t l1 x r1, flow n1 ctx (t :: l1) = Ok (x, r1) -> good x = true -> is_tt WORD t = true ->
       forall n2 u l2, tsim t u -> tcs l1 l2 -> cres ncsim (flow n2 ctx (u :: l2)) x r1)
    /\ (forall acc1 l1 a1 r1, if_loop n1 ctx acc1 l1 = Ok (a1, r1) -> forallb good a1 = true -> whead l1 ->
       forall n2 acc2 l2, lcs l1 l2 -> whead l2 -> csim acc1 acc2 -> cres csim (if_loop n2 ctx acc2 l2) a1 r1).
  Proof.
    assert (Hhd : forall t l1 l2, is_tt WORD t = true -> lcs (t :: l1) l2 -> whead l2 -> exists u l2', l2 = u :: l2' /\ tsim t u /\ tcs l1 l2').
    { intros t l1 l2 Ht Hs Hw. destruct (lcs_tok _ _ _ (word_stop _ Ht) Hs) as (ws & u & l2' & -> & W & Htu & Hs' & _).
      destruct ws as [|w ws]; [exists u, l2'; auto|]. cbn [app whead] in Hw. cbn [forallb] in W. rewrite (word_stop _ Hw) in W. discriminate. }
    assert (Hst : forall n1 t l1 x r1, statement n1 ctx (t :: l1) = Ok (x, r1) -> good x = true ->
      forall n2 u l2, tsim t u -> tcs l1 l2 -> cres ncsim (statement n2 ctx (u :: l2)) x r1).
    { intros n0 t l1 x r1 H Hg n2 u l2 Htu Hs. apply andb_prop in Hg as [Hg1 Hg2]. eapply statement_sim; eauto. }
    induction n1 as [|m (IHb & IHf & IHi)]; [split; [|split]; intros; discriminate|].
    split; [|split].
    - intros bset acc1 l1 a1 r1 H Hl n2 acc2 l2 Hs Ha.
      destruct l1 as [|t l1].
      { cbn [body_loop] in H. injection H as <- <-. pose proof (lcs_nil _ Hs) as Hw.
        destruct (body_cskip n2 l2 bset acc2 nil Hw I) as [E|(n' & acc' & E & Ha')]; rewrite app_nil_r in E; rewrite E; [apply cres_fuel|].
        destruct n' as [|n']; [apply cres_fuel|]. cbn [body_loop]. apply cres_ok; auto. rewrite <- (app_nil_r l2) in Hs. eapply lcs_dropr; eauto. }
      destruct (wsc t) eqn:Ew.
      { assert (Hgo : exists x v r, cblank x /\ forallb wsc v = true /\ t :: l1 = v ++ r /\ body_loop m ctx bset (acc1 ++ [x]) r = Ok (a1, r1)).
        { cbn [body_loop] in H. destruct (is_ws t) eqn:Ews.
          - destruct (take_ws (t :: l1)) as [w1 r0] eqn:E1. apply take_ws_split in E1 as (ws & E & -> & W & _).
            exists (N KWhitespace (map T ws)), ws, r0. split; [left; now apply blankn_node|]. split; [now apply ws_wsc|]. auto.
          - unfold wsc in Ew. rewrite Ews in Ew. cbn [orb] in Ew.
            assert (Ho : is_onoff t = false) by (unfold is_comment in Ew; unfold is_onoff; destruct (tt t); try discriminate; reflexivity).
            assert (Hc : bindr (consume_comment (t :: l1)) (fun '(c, r) => body_loop m ctx bset (acc1 ++ [c]) r) = Ok (a1, r1)).
            { destruct (is_tt COMMENT t) eqn:E1; [exact H|]. rewrite Ho in H.
              replace (is_tt BRACKET_COMMENT t) with true in H; [exact H|]. unfold is_comment in Ew; unfold is_tt in *; destruct (tt t); try discriminate; reflexivity. }
            apply bindr_ok in Hc as ([c r] & Ec & Hb). destruct (comment_cblank _ _ _ _ Ew Ec) as (Hc & v & Ev & _ & Hv).
            exists c, v, r. auto. }
        destruct Hgo as (x & v & r & Hx & Hv & Ev & Hb). rewrite Ev in Hs. apply lcs_dropl in Hs; auto.
        eapply IHb; [exact Hb|exact Hl|exact Hs|]. apply csim_ls; auto. }
      destruct (lcs_tok _ _ _ Ew Hs) as (ws & u & l2' & -> & W & Htu & Hs' & C1 & C2).
      assert (Hst2 : stop (u :: l2')) by (cbn [stop]; now rewrite <- (tsim_stop _ _ Htu)).
      destruct (body_cskip n2 ws bset acc2 (u :: l2') W Hst2) as [E|(n' & acc' & E & Ha')]; rewrite E; [apply cres_fuel|].
      specialize (Ha' _ Ha). clear E Ha acc2. rename acc' into acc2. rename Ha' into Ha.
      destruct n' as [|n']; [apply cres_fuel|]. cbn [body_loop] in H |- *.
      pose proof (calm_flags t l1) as K1. pose proof (calm_flags u l2') as K2.
      apply orb_false_elim in Ew as [Ews Ecm].
      assert (Hf : is_onoff t = false /\ is_tt BYTEORDER_MARK t = false).
      { clear -C1. unfold calmt in C1. apply andb_prop in C1 as [C1 _]. apply negb_true_iff in C1. apply orb_false_elim in C1 as [C1 Hb]. apply orb_false_elim in C1. tauto. }
      destruct Hf as [Hoo Hbom].
      assert (Hoo2 : is_onoff u = false) by (destruct Htu as (Ett & _); unfold is_onoff in *; now rewrite <- Ett).
      assert (Hc : is_tt COMMENT t = false /\ is_tt BRACKET_COMMENT t = false) by (unfold is_comment in Ecm; unfold is_tt; destruct (tt t); try discriminate Ecm; auto).
      destruct Hc as [Hc1 Hc2]. rewrite <- (tsim_ws _ _ Htu), Ews, Hoo2, <- !(tsim_tt _ _ _ _ Htu), Hc1, Hc2, Hbom, <- (tsim_upper _ _ _ Htu). rewrite Ews, Hoo, Hbom, Hc1, Hc2 in H.
      assert (Hg : forall sub r, body_loop m ctx bset (acc1 ++ [sub]) r = Ok (a1, r1) -> good sub = true).
      { intros sub r Hb. apply (proj1 (body_acc _)) in Hb as (new & ->). rewrite !forallb_app in Hl. cbn [forallb] in Hl. rewrite !andb_true_iff in Hl. tauto. }
      destruct (is_tt WORD t) eqn:Ewd.
      + destruct (smem _ bset).
        { injection H as <- <-. apply cres_ok; auto. rewrite app_assoc in Hs || idtac. eapply lcs_dropr; [exact W|exact Hs]. }
        destruct (smem _ flow_names).
        * apply bindr_ok in H as ([sub r] & E & H).
          eapply bind_cc; [eapply IHf; [exact E|exact (Hg _ _ H)|exact Ewd|exact Htu|exact Hs']|].
          intros x2 m2 _ Hx Hm. eapply IHb; [exact H|exact Hl|exact Hm|now apply csim_node].
        * apply bindr_ok in H as ([sub r] & E & H).
          eapply bind_cc; [eapply Hst; [exact E|exact (Hg _ _ H)|exact Htu|exact Hs']|].
          intros x2 m2 _ Hx Hm. eapply IHb; [exact H|exact Hl|exact Hm|now apply csim_node].
      + destruct (is_tt ATWORD t); [|discriminate].
        cbn [atword_statement] in H |- *. destruct (consume_trailing ctx l1) as [tr q1] eqn:T1. destruct (consume_trailing ctx l2') as [tr2 q2] eqn:T2.
        destruct (trailing_cblank _ _ _ T1) as (B1 & c1 & -> & D1). destruct (trailing_cblank _ _ _ T2) as (B2 & c2 & -> & D2).
        cbn [bindr] in H |- *. eapply IHb; [exact H|exact Hl|exists c1, c2; auto|]. apply csim_node; auto. apply ncsim_wrap.
        apply cs_n; [apply cs_t; [auto|apply cs_nil]|]. apply (csim_rs tr nil tr2); auto. apply (csim_ls nil nil tr); auto. apply cs_nil.
    - intros t l1 x r1 H Hl Ewd n2 u l2 Htu Hs. destruct n2 as [|n2]; [apply cres_fuel|]. cbn [flow] in H |- *.
      rewrite <- (tsim_upper _ _ _ Htu).
      assert (Hw0 : forall z, is_tt WORD z = true -> is_ws z = false /\ calmt z = true).
      { intros z Hz. unfold calmt, is_comment, is_onoff, is_ws, is_tt in *. destruct (tt z); try discriminate Hz; auto. }
      assert (Ewu : is_tt WORD u = true) by now rewrite <- (tsim_tt _ _ _ _ Htu).
      assert (Hs2 : lcs (t :: l1) (u :: l2)).
      { apply tcs_lcs. apply tc_t; auto; try (apply Hw0; auto). }
      destruct (seqb _ $"IF").
      + apply bindr_ok in H as ([a r] & E & H). injection H as <- <-. rewrite good_flow in Hl.
        eapply bind_cc; [eapply IHi; [exact E|exact Hl|exact Ewd|exact Hs2|exact Ewu|apply cs_nil]|].
        intros x2 m2 _ Hx Hm. apply cres_ok; auto. now apply ncsim_wrap.
      + apply bindr_ok in H as ([op q1] & E1 & H). apply bindr_ok in H as ([bd q2] & E2 & H). apply bindr_ok in H as ([cl q3] & E3 & H).
        injection H as <- <-. rewrite good_flow in Hl. cbn [forallb] in Hl. rewrite good_body, !andb_true_iff in Hl. destruct Hl as (Hl1 & Hl2 & Hl3 & _).
        eapply bind_cc; [eapply Hst; [exact E1|exact Hl1|exact Htu|exact Hs]|].
        intros x2 m2 _ Hx Hm.
        eapply bind_cc; [eapply IHb; [exact E2|exact Hl2|exact Hm|apply cs_nil]|].
        intros b2 m3 Eb Hb Hm3.
        pose proof (body_whead _ _ _ _ _ _ _ E2) as Hw2. pose proof (body_whead _ _ _ _ _ _ _ Eb) as Hw3.
        destruct q2 as [|t2 q2]; [discriminate E3|].
        destruct (Hhd _ _ _ Hw2 Hm3 Hw3) as (u2 & m3' & -> & Htu2 & Hsm).
        eapply bind_cc; [eapply Hst; [exact E3|exact Hl3|exact Htu2|exact Hsm]|].
        intros c2 m4 _ Hcl Hm4. apply cres_ok; auto. apply ncsim_wrap.
        change [op; N KBody bd; cl] with (((nil ++ [op]) ++ [N KBody bd]) ++ [cl]). change [x2; N KBody b2; c2] with (((nil ++ [x2]) ++ [N KBody b2]) ++ [c2]).
        repeat apply csim_node; auto; [apply cs_nil|now apply ncsim_wrap].
    - intros acc1 l1 a1 r1 H Hl Hw n2 acc2 l2 Hs Hw2 Ha. destruct n2 as [|n2]; [apply cres_fuel|]. cbn [if_loop] in H |- *.
      destruct l1 as [|t l1].
      { injection H as <- <-. pose proof (lcs_nil _ Hs) as Hb. destruct l2 as [|u l2]; [now apply cres_ok|].
        cbn [forallb] in Hb. cbn [whead] in Hw2. rewrite (word_stop _ Hw2) in Hb. discriminate. }
      destruct (Hhd _ _ _ Hw Hs Hw2) as (u & l2' & -> & Htu & Hs'). rewrite <- (tsim_upper _ _ _ Htu).
      destruct (seqb _ $"ENDIF").
      + apply bindr_ok in H as ([cl q3] & E3 & H). injection H as <- <-.
        assert (Hl3 : good cl = true) by (rewrite forallb_app in Hl; cbn [forallb] in Hl; rewrite !andb_true_iff in Hl; tauto).
        eapply bind_cc; [eapply Hst; [exact E3|exact Hl3|exact Htu|exact Hs']|].
        intros c2 m4 _ Hcl Hm4. apply cres_ok; auto. now apply csim_node.
      + apply bindr_ok in H as ([op q1] & E1 & H). apply bindr_ok in H as ([bd q2] & E2 & H).
        assert (Hls : good op = true /\ forallb good bd = true).
        { apply (proj2 (body_acc _)) in H as (new & ->). rewrite !forallb_app in Hl. cbn [forallb] in Hl. rewrite good_body, !andb_true_iff in Hl. tauto. }
        destruct Hls as [Hl1 Hl2].
        eapply bind_cc; [eapply Hst; [exact E1|exact Hl1|exact Htu|exact Hs']|].
        intros x2 m2 _ Hx Hm.
        eapply bind_cc; [eapply IHb; [exact E2|exact Hl2|exact Hm|apply cs_nil]|].
        intros b2 m3 Eb Hb Hm3.
        eapply IHi; [exact H|exact Hl|exact (body_whead _ _ _ _ _ _ _ E2)|exact Hm3|exact (body_whead _ _ _ _ _ _ _ Eb)|].
        change [op; N KBody bd] with ((nil ++ [op]) ++ [N KBody bd]). change [x2; N KBody b2] with ((nil ++ [x2]) ++ [N KBody b2]).
        apply csim_app; auto. repeat apply csim_node; auto; [apply cs_nil|now apply ncsim_wrap].
  Qed.

  (** files that differ in blanks, and in comments outside statements *)
  Theorem parse_csim l1 l2 tree1 : parse ctx l1 = Ok tree1 -> loops_full tree1 = true -> outside tree1 = true -> lcs l1 l2 ->
    parse ctx l2 = OutOfFuel \/ exists tree2, parse ctx l2 = Ok tree2 /\ ncsim tree1 tree2.
  Proof.
    unfold parse. intros H Hl Ho Hs. apply bindr_ok in H as ([a r] & E & H). injection H as <-.
    assert (Hg : forallb good a = true) by (rewrite <- good_body; unfold good; now rewrite Hl, Ho).
    destruct (proj1 (body_sim _) _ _ _ _ _ E Hg (parse_fuel l2) nil l2 Hs cs_nil) as [E2|(a2 & r2 & E2 & Ha & _)]; rewrite E2; cbn [bindr]; [now left|].
    right. eexists. split; [reflexivity|]. now apply ncsim_wrap.
  Qed.
End Body.
