(** * StdSame: no parser of the shipped table looks at blanks *)
From Verif Require Import Base Regex Lex LexProofs LexClass PropLex TextOps TextProofs Tree Parse ParseProofs ParseTerm PropParse
  CmdSpec StdSpecs StdDb StdWf PropStd NamesShape PropLintChecks ParseShape WordShape ParseBlank ParseSame BodySame.

(** the dereference test of add_library and add_executable *)
Lemma loc_ne c k : (k < 97)%N \/ (122 < k)%N -> (k < 65)%N \/ (90 < k)%N -> N.eqb k (loc c) = N.eqb k c.
Proof.
  intros H1 H2. unfold loc. destruct ((65 <=? c) && (c <=? 90))%N eqn:E; [|reflexivity].
  apply andb_prop in E as [A B]. apply N.leb_le in A. apply N.leb_le in B.
  rewrite !(proj2 (N.eqb_neq k _)) by lia. reflexivity.
Qed.
Lemma infix_deref s : infix $"${" (lower s) = infix $"${" s.
Proof.
  induction s as [|c s IH]; [reflexivity|]. unfold lower in *. cbn [map infix]. rewrite IH. f_equal.
  cbn [startswith s2l N_of_ascii N_of_digits]. change (startswith $"${" (loc c :: map loc s) = startswith $"${" (c :: s)).
  unfold s2l. cbn [list_ascii_of_string map]. cbn [startswith].
  rewrite loc_ne; [|left; reflexivity|left; reflexivity]. f_equal.
  destruct s as [|d s]; [reflexivity|]. cbn [map startswith]. rewrite loc_ne; [reflexivity|right; reflexivity|right; reflexivity].
Qed.

Section Std.
  Variable ctx : pctx.
  Variables R1 R2 : list token.
  Local Notation tsim := (tsim ctx).
  Local Notation sim := (sim ctx R1 R2).
  Local Notation live := (live R1).
  Local Notation lsim := (lsim ctx).
  Local Notation bpp := (bpp ctx R1 R2).

  Lemma sem_nows l : calm l = true -> semantics l = nows l.
  Proof.
    induction l as [|t l IH]; [reflexivity|]. intros H. pose proof (calm_flags _ _ H) as (H1 & H2 & _).
    cbn [semantics nows filter]. fold (semantics l) (nows l). rewrite (IH (calm_tl _ _ H)).
    replace (nonws t) with (is_semantic t); [reflexivity|].
    unfold is_semantic, nonws, is_ws. unfold is_comment in H1. unfold is_onoff in H2. destruct (tt t); try discriminate; reflexivity.
  Qed.
  Lemma sem_sim l1 l2 : sim l1 l2 -> Forall2 tsim (semantics l1) (semantics l2).
  Proof.
    intros (p1 & p2 & -> & -> & F & C1 & C2 & HR). unfold semantics in *. rewrite !filter_app. apply Forall2_app; auto.
    fold (semantics p1) (semantics p2). now rewrite !sem_nows.
  Qed.
  Definition otsim (a b : option token) : Prop := match a, b with Some t, Some u => tsim t u | None, None => True | _, _ => False end.
  Lemma Forall2_nth (l1 l2 : list token) : Forall2 tsim l1 l2 -> forall n, otsim (nth_error l1 n) (nth_error l2 n).
  Proof. induction 1; intros [|n]; cbn [nth_error otsim]; auto; exact I. Qed.
  Lemma nth_sim l1 l2 n : sim l1 l2 -> otsim (nth_semantic l1 n) (nth_semantic l2 n).
  Proof. intros H. apply Forall2_nth, sem_sim, H. Qed.
  Lemma sem_upper_sim l1 l2 n : sim l1 l2 -> sem_upper l1 n = sem_upper l2 n.
  Proof.
    intros H. apply nth_sim with (n := n) in H. unfold sem_upper. destruct (nth_semantic l1 n), (nth_semantic l2 n); cbn [otsim] in H; try contradiction; auto.
    cbn [option_map]. now rewrite (tsim_upper _ _ _ H).
  Qed.
  Lemma sem_is_sim l1 l2 n w : sim l1 l2 -> sem_is l1 n w = sem_is l2 n w.
  Proof. intros H. unfold sem_is. now rewrite (sem_upper_sim _ _ n H). Qed.
  Lemma need_sim l1 l2 p : sim l1 l2 -> live l1 -> need_tok l1 p = need_tok l2 p.
  Proof.
    intros H Hn. pose proof (sim_nil _ _ _ _ _ H Hn) as Hn2. destruct l1 as [|t l1]; [destruct (live_nil _ Hn)|]. destruct l2 as [|u l2]; [now destruct Hn2|]. reflexivity.
  Qed.
  Lemma deref_sim t u : tsim t u -> has_deref t = has_deref u.
  Proof. intros (_ & H & _). unfold has_deref. now rewrite <- infix_deref, H, infix_deref. Qed.
  Lemma tt_sem t u : tsim t u -> is_semantic t = is_semantic u.
  Proof. intros (H & _). unfold is_semantic. now rewrite H. Qed.

  (** the semantic tokens of two node lists *)
  Lemma blank_sem x : blankn x -> semantics (flat x) = nil.
  Proof.
    assert (G : forall l, forallb is_ws l = true -> semantics l = nil).
    { induction l as [|t l IH]; [reflexivity|]. cbn [forallb semantics filter]. intros H. apply andb_prop in H as [H1 H2].
      replace (is_semantic t) with false; [now apply IH|]. unfold is_ws in H1. unfold is_semantic. destruct (tt t); try discriminate H1; reflexivity. }
    destruct x as [t|k cs]; cbn [blankn flat].
    - intros H. apply (G [t]). cbn [forallb]. now rewrite H.
    - destruct k; try contradiction. apply G.
  Qed.
  Lemma sem_app a b : semantics (a ++ b) = semantics a ++ semantics b. Proof. apply filter_app. Qed.
  Lemma lsim_sem a b : lsim a b -> Forall2 tsim (semantics (flats a)) (semantics (flats b)).
  Proof.
    induction 1 as [|x a b Hx H IH|y a b Hy H IH|t u a b Ht H IH|k cs ds a b Hc IHc H IH]; unfold flats in *; cbn [flat_map] in *;
      rewrite ?sem_app.
    - constructor.
    - now rewrite (blank_sem _ Hx).
    - now rewrite (blank_sem _ Hy).
    - apply Forall2_app; auto. cbn [flat semantics filter]. rewrite <- (tt_sem _ _ Ht). destruct (is_semantic t); repeat constructor; apply Ht.
    - apply Forall2_app; auto.
  Qed.
  Lemma varname_sim a b : lsim a b -> otsim (set_varname a) (set_varname b).
  Proof.
    induction 1 as [|x a b Hx H IH|y a b Hy H IH|t u a b Ht H IH|k cs ds a b Hc IHc H IH]; cbn [set_varname]; auto.
    - exact I.
    - destruct x as [t|k cs]; auto. destruct k; try contradiction; auto.
    - destruct y as [t|k cs]; auto. destruct k; try contradiction; auto.
    - apply lsim_sem in Hc. destruct k; auto. destruct Hc; cbn [hd_error otsim]; auto; exact I.
  Qed.
  Lemma set_tags_sim a b : lsim a b -> set_tags (vartags ctx) a = set_tags (vartags ctx) b.
  Proof.
    intros H. apply varname_sim in H. unfold set_tags. destruct (set_varname a), (set_varname b); cbn [otsim] in H; try contradiction; auto.
    destruct H as (_ & _ & H). clear - H. induction (vartags ctx) as [|m vt IH]; [reflexivity|]. cbn [flat_map]. rewrite (H m) by now left. rewrite IH; [reflexivity|].
    intros m' Hm. apply H. now right.
  Qed.
  Lemma parg_sim a b : lsim a b -> has_parg_group a = has_parg_group b.
  Proof.
    unfold has_parg_group. induction 1 as [|x a b Hx H IH|y a b Hy H IH|t u a b Ht H IH|k cs ds a b Hc IHc H IH]; cbn [existsb]; auto.
    - destruct x as [t|k cs]; auto. destruct k; try contradiction; auto.
    - destruct y as [t|k cs]; auto. destruct k; try contradiction; auto.
    - now rewrite IH.
  Qed.

  (** ** Tables of plain specifications *)
  Fixpoint pnb (p : parser) : bool :=
    match p with
    | PStd cs kw => forallb flok (cs_pargs cs) && forallb (fun kp => kwok (fst kp) && pnb (snd kp)) kw
    | PShell | PCond | PNull | PRaise _ | PPos _ | PTuple _ _ _ => true
    | _ => false
    end.
  Fixpoint pnb_bp (p : parser) : pnb p = true -> bpp p.
  Proof.
    destruct p as [cs kw| | | | | | | | | | |]; intros H; try discriminate H; try (constructor; fail).
    simpl in H. apply andb_prop in H as [Hf H]. constructor; auto.
    - clear - H. induction kw as [|[k0 p0] kw IH]; [reflexivity|]. simpl in H |- *. apply andb_prop in H as [H1 H2]. apply andb_prop in H1 as [Ha _]. now rewrite Ha, IH.
    - induction kw as [|[k0 p0] kw IH]; intros k p; [intros []|].
      simpl in H. apply andb_prop in H as [H1 H2]. apply andb_prop in H1 as [Ha Hb].
      intros [E|Hin]; [injection E as <- <-; apply pnb_bp, Hb|]. eapply IH; eauto.
  Defined.

  Definition kwbp (m : list (str * parser)) : Prop := Forall (fun kp => bpp (snd kp)) m.
  Lemma std_bp cs kw : forallb kwok (map fst kw) = true -> forallb flok (cs_pargs cs) = true -> kwbp kw -> bpp (PStd cs kw).
  Proof. intros Hk Hf H. constructor; auto. intros k p Hin. unfold kwbp in H. rewrite Forall_forall in H. apply (H _ Hin). Qed.
  Lemma sat_bp n kw flags : forallb kwok (map fst kw) = true -> forallb kwok flags = true -> kwbp kw -> bpp (sat n kw flags).
  Proof. intros Hk Hf H. apply std_bp; auto. cbn. unfold flok. cbn [ps_flags]. now rewrite Hf. Qed.
  Lemma lookup_bp k m p : kwbp m -> kw_lookup k m = Some p -> bpp p.
  Proof. intros H E. apply lookup_In in E. unfold kwbp in H. rewrite Forall_forall in H. apply (H _ E). Qed.
  Lemma sat_any_bp : bpp sat_any. Proof. apply sat_bp; auto. constructor. Qed.
  Lemma disp_first_bp m : kwbp m -> bpp (disp_first m).
  Proof.
    intros H. constructor.
    - intros toks. pose proof sat_any_bp. destruct (first_sem toks); auto. destruct (is_tt RIGHT_PAREN t); auto. destruct (is_tt DEREF t); auto.
      destruct (kw_lookup _ m) eqn:E; auto. eapply lookup_bp; eauto.
    - intros l1 l2 Hs Hn. apply nth_sim with (n := 0%nat) in Hs. unfold first_sem.
      destruct (nth_semantic l1 0), (nth_semantic l2 0); cbn [otsim] in Hs; try contradiction; auto.
      now rewrite !(tsim_tt _ _ _ _ Hs), (tsim_upper _ _ _ Hs).
  Qed.
  Lemma set_chk : chk_ok ctx R1 R2 set_cache_chk.
  Proof.
    intros x y r s _ Hs Hn. pose proof (sim_nil _ _ _ _ _ Hs Hn) as Hn2. destruct r as [|t r]; [destruct (live_nil _ Hn)|]. destruct s as [|u s]; [now destruct Hn2|]. reflexivity.
  Qed.
  Lemma set_bp : bpp (parse_set (vartags ctx)).
  Proof.
    apply bp_seq; [vm_compute; reflexivity|]. constructor.
    - intros acc toks w p extra chk. unfold set_step.
      destruct toks as [|t toks]; [discriminate|].
      destruct (kwarg_in t [$"CACHE"]); [intros H; injection H as <- <- _ _; constructor|].
      destruct (kwarg_in t _); discriminate.
    - intros acc toks. unfold set_step. destruct toks as [|t toks]; [vm_compute; reflexivity|].
      destruct (kwarg_in t [$"CACHE"]); [split; [vm_compute; reflexivity|apply set_chk]|]. destruct (kwarg_in t _); vm_compute; reflexivity.
    - intros acc1 acc2 t u l1 l2 Ha _ _ _ Ht _ _. unfold set_step. now rewrite !(tsim_kwarg_in _ _ _ _ Ht), (set_tags_sim _ _ Ha).
  Qed.
  Lemma foreach_in_bp : bpp parse_foreach_in.
  Proof.
    apply bp_seq; [vm_compute; reflexivity|]. constructor.
    - intros acc toks w p extra chk. unfold foreach_in_step.
      destruct toks as [|t toks]; [discriminate|].
      destruct (kwarg_in t _); [intros H; injection H as <- <- _ _; constructor|].
      destruct (kwarg_in t _); [intros H; injection H as <- <- _ _; constructor|]. discriminate.
    - intros acc toks. unfold foreach_in_step. destruct toks as [|t toks]; [vm_compute; reflexivity|].
      destruct (kwarg_in t _); [split; [vm_compute; reflexivity|apply no_chk_ok]|]. destruct (kwarg_in t _); [split; [vm_compute; reflexivity|apply no_chk_ok]|vm_compute; reflexivity].
    - intros acc1 acc2 t u l1 l2 Ha _ _ _ Ht _ _. unfold foreach_in_step. now rewrite !(tsim_kwarg_in _ _ _ _ Ht).
  Qed.
  Lemma act_bp : bpp parse_add_custom_target.
  Proof.
    apply bp_seq; [reflexivity|]. constructor.
    - intros acc toks w p extra chk. unfold act_step.
      destruct toks as [|t toks]; [discriminate|]. destruct (negb _); [discriminate|].
      destruct (normalized_kwarg t) as [u|]; [|discriminate]. destruct (smem u _); [discriminate|].
      destruct (kw_lookup u act_kw) as [q|] eqn:E; [|discriminate].
      intros H; injection H as <- <- _ _. apply lookup_In in E. simpl in E.
      repeat (destruct E as [E|E]; [injection E as <- <-; constructor|]). destruct E.
    - intros acc toks. unfold act_step. destruct toks as [|t toks]; [vm_compute; reflexivity|]. destruct (negb _); [vm_compute; reflexivity|].
      destruct (normalized_kwarg t) as [u|]; [|vm_compute; reflexivity]. destruct (smem u _); [vm_compute; reflexivity|].
      destruct (kw_lookup u act_kw); [split; [vm_compute; reflexivity|apply no_chk_ok]|vm_compute; reflexivity].
    - intros acc1 acc2 t u l1 l2 Ha _ _ _ Ht Hs _. unfold act_step. rewrite (tsim_kwarg _ _ _ Ht), (parg_sim _ _ Ha).
      replace (match first_sem l1 with Some t2 => kwarg_in t2 [$"ALL"] | None => false end)
         with (match first_sem l2 with Some t2 => kwarg_in t2 [$"ALL"] | None => false end); [reflexivity|].
      apply nth_sim with (n := 0%nat) in Hs. unfold first_sem. destruct (nth_semantic l1 0), (nth_semantic l2 0); cbn [otsim] in Hs; try contradiction; auto.
      now rewrite (tsim_kwarg_in _ _ _ _ Hs).
  Qed.
  Lemma gpos_bp items keep sp extra push tags : items_ok false items = true -> exok extra = true ->
    bpp (PSeq items (Some (GSpec keep (fun _ _ => GPos sp extra push tags)))).
  Proof. intros Hi Hs. apply bp_seq; auto. constructor; [discriminate|intros; exact Hs|reflexivity]. Qed.

  (** a dispatcher that only looks at semantic tokens *)
  Ltac bpdisp :=
    let l1 := fresh "l" in let l2 := fresh "l'" in let Hs := fresh "Hs" in let Hn := fresh "Hn" in
    intros l1 l2 Hs Hn; cbv beta; unfold first_sem;
    repeat match goal with
    | |- context [sem_is l1 ?n ?w] => rewrite (sem_is_sim l1 l2 n w Hs)
    | |- context [sem_upper l1 ?n] => rewrite (sem_upper_sim l1 l2 n Hs)
    | |- context [need_tok l1 ?p] => rewrite (need_sim l1 l2 p Hs Hn)
    end;
    repeat match goal with
    | |- context [nth_semantic l1 ?n] =>
        let H := fresh "Hc" in pose proof (nth_sim l1 l2 n Hs) as H;
        let t := fresh "t" in let u := fresh "u" in
        destruct (nth_semantic l1 n) as [t|], (nth_semantic l2 n) as [u|]; cbn [otsim] in H; try contradiction; try reflexivity;
        try rewrite (deref_sim t u H); rewrite ?(tsim_tt _ _ _ _ H), ?(tsim_upper _ _ _ H), ?(tsim_kwarg_in _ _ _ _ H)
    end; try reflexivity.

  Ltac bpauto :=
  repeat (cbn [snd fst]; match goal with
  | |- _ /\ _ => split
  | |- forallb kwok _ = true => vm_compute; reflexivity
  | |- forallb flok _ = true => vm_compute; reflexivity
  | |- items_ok _ _ = true => vm_compute; reflexivity
  | |- exok _ = true => vm_compute; reflexivity
  | |- bpp ?p => apply pnb_bp; vm_compute; reflexivity
  | |- bpp (PStd _ _) => apply std_bp
  | |- bpp (sat _ _ _) => apply sat_bp
  | |- bpp (PDisp _) => apply bp_disp; [intros ?toks; cbv beta|bpdisp]
  | |- bpp (need_tok ?t _) => unfold need_tok; destruct t
  | |- bpp (parse_set _) => apply set_bp
  | |- bpp parse_foreach_in => apply foreach_in_bp
  | |- bpp parse_add_custom_target => apply act_bp
  | |- bpp (disp_first _) => apply disp_first_bp
  | |- bpp (PSeq _ (Some (GSpec _ (fun _ _ => GPos _ _ _ _)))) => apply gpos_bp
  | |- bpp (PSeq _ None) => apply bp_seq; [|constructor]
  | |- bpp (if ?c then _ else _) => destruct c
  | |- bpp (match kw_lookup ?k ?m with _ => _ end) => let E := fresh in destruct (kw_lookup k m) eqn:E; [eapply lookup_bp; [|exact E]|]
  | |- bpp (match ?c with _ => _ end) => destruct c
  | |- bpp ?p => first [solve [constructor; auto] | unfold p]
  | |- kwbp ?m => unfold kwbp
  | |- Forall _ (_ :: _) => apply Forall_cons
  | |- Forall _ nil => apply Forall_nil
  | |- Forall _ (_ ++ _) => apply Forall_app; split
  | |- Forall _ (map _ _) => apply Forall_map, Forall_forall; intros ? ?
  | |- Forall _ ?m => unfold m
  end).

  Lemma sleep_bp : bpp parse_ctest_sleep.
  Proof.
    apply bp_disp.
    - intros toks. destruct (semantics toks) as [|a [|b q]]; apply pnb_bp; vm_compute; reflexivity.
    - intros l1 l2 Hs _. apply sem_sim in Hs. destruct Hs as [|a b u v H Hs]; [reflexivity|]. destruct Hs; reflexivity.
  Qed.
  Lemma hand_bp : Forall (fun kp => fst kp <> $"foreach" -> bpp (snd kp)) (hand_table (vartags ctx)).
  Proof.
    unfold hand_table.
    repeat (apply Forall_cons || apply Forall_nil); intros Hne; try (exfalso; apply Hne; reflexivity);
      first [exact sleep_bp|bpauto].
  Qed.
End Std.

Definition table_nb (l : list (str * parser)) : bool := forallb (fun kp => pnb (snd kp)) l.
Lemma table_bp ctx R1 R2 l k p : table_nb l = true -> In (k, p) l -> bpp ctx R1 R2 p.
Proof. unfold table_nb. rewrite forallb_forall. intros H Hin. apply pnb_bp, (H _ Hin). Qed.
Lemma spec_table_nb : table_nb spec_table = true.
Proof. vm_compute. reflexivity. Qed.
Lemma flow_table_nb : table_nb flow_table = true.
Proof. vm_compute. reflexivity. Qed.

Lemma bp_tpp ctx R1 R2 p : bpp ctx R1 R2 p -> tpp ctx R1 R2 p.
Proof.
  intros H. split; intros l1 l2 Hs Hn; [apply (resolve_bp _ _ _ _ H _ _ Hs Hn)|]. left. apply (resolve_bp _ _ _ _ H _ _ Hs Hn).
Qed.
Lemma foreach_tpp ctx R1 R2 : tpp ctx R1 R2 parse_foreach.
Proof.
  assert (R : forall l, resolve parse_foreach l = match nth_semantic l 1 with
     | None => need_tok l sat_any
     | Some _ => if sem_is l 1 $"RANGE" then parse_foreach_range else if sem_is l 1 $"IN" then parse_foreach_in else parse_foreach_standard end).
  { intros l. unfold parse_foreach. cbn [resolve]. destruct (nth_semantic l 1); [|destruct l; reflexivity].
    destruct (sem_is l 1 $"RANGE"); [reflexivity|]. destruct (sem_is l 1 $"IN"); reflexivity. }
  split; intros l1 l2 Hs Hn; rewrite !R.
  - rewrite (need_sim _ _ _ _ _ _ Hs Hn), (sem_is_sim _ _ _ _ _ _ $"RANGE" Hs), (sem_is_sim _ _ _ _ _ _ $"IN" Hs).
    pose proof (nth_sim _ _ _ _ _ 1 Hs) as H. destruct (nth_semantic l1 1), (nth_semantic l2 1); cbn [otsim] in H; try contradiction; reflexivity.
  - destruct (nth_semantic l1 1).
    + destruct (sem_is l1 1 $"RANGE"); [left; apply pnb_bp; vm_compute; reflexivity|].
      destruct (sem_is l1 1 $"IN"); [left; apply foreach_in_bp|]. now right.
    + left. destruct l1; [destruct (live_nil _ Hn)|]. apply sat_any_bp.
Qed.
(** the shipped parse table, updated with the user's commands *)
Theorem std_bctx ex vt tbl : table_nb tbl = true -> bctx (std_ctx ex vt tbl).
Proof.
  intros Ht R1 R2.
  assert (G : forall name p, db (std_ctx ex vt tbl) name = Some p ->
     (bpp (std_ctx ex vt tbl) R1 R2 p) \/ (name = $"foreach" /\ p = parse_foreach)).
  { intros name p. cbn [db std_ctx]. unfold with_user. destruct (kw_lookup name tbl) as [q|] eqn:E.
    - intros H. injection H as <-. apply lookup_In in E. left. eapply table_bp; eauto.
    - unfold std_table. intros H. apply lookup_In in H. rewrite !in_app_iff in H. destruct H as [H|[H|H]].
      + left. eapply table_bp; [apply spec_table_nb|eauto].
      + left. eapply table_bp; [apply flow_table_nb|eauto].
      + destruct (list_eq_dec N.eq_dec name $"foreach") as [->|Hne].
        * right. split; auto. unfold hand_table in H. clear - H.
          repeat (destruct H as [H|H]; [first [discriminate H|injection H as <-; reflexivity]|]). destruct H.
        * left. pose proof (hand_bp (std_ctx ex vt tbl) R1 R2) as F. rewrite Forall_forall in F. apply (F _ H). exact Hne. }
  split.
  - intros name p H Hne. destruct (G _ _ H) as [H1|[H1 _]]; [exact H1|contradiction].
  - intros p H. destruct (G _ _ H) as [H1|[_ ->]]; [now apply bp_tpp|apply foreach_tpp].
Qed.
Print Assumptions std_bctx.
