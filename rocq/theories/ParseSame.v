(** * ParseSame: the argument parsers on token lists that differ in blanks only *)
From Verif Require Import Base Regex Lex TextOps TextProofs Tree Parse ParseProofs ParseTerm PropParse
  CmdSpec StdSpecs StdDb NamesShape PropLintChecks ParseShape ParseBlank.

Section Same.
  Variable ctx : pctx.
  Variables R1 R2 : list token.
  Local Notation tsim := (tsim ctx).
  Local Notation sim := (sim ctx R1 R2).
  Local Notation live := (live R1).
  Local Notation lsim := (lsim ctx).
  Local Notation nsim := (nsim ctx).
  Local Notation rsim := (rsim ctx R1 R2).
  Local Notation nres := (nres ctx R1 R2).

  (** ** The tuple parser *)
  Definition wsnodes (l : list pnode) : Prop := exists ws, l = map T ws /\ forallb is_ws ws = true.
  Lemma wsnodes_snoc l t : wsnodes l -> is_ws t = true -> wsnodes (l ++ [T t]).
  Proof. intros (ws & -> & H) Ht. exists (ws ++ [t]). rewrite map_app, forallb_app. cbn [forallb]. rewrite H, Ht. auto. Qed.
  Lemma wsnodes_app l ws : wsnodes l -> forallb is_ws ws = true -> wsnodes (l ++ map T ws).
  Proof. intros (w & -> & H) Ht. exists (w ++ ws). rewrite map_app, forallb_app, H, Ht. auto. Qed.
  Lemma wsnodes_lsim a b : wsnodes a -> wsnodes b -> lsim a b.
  Proof. intros (x & -> & Hx) (y & -> & Hy). now apply lsim_wss. Qed.

  Definition osim (a b : option (list pnode)) : Prop :=
    match a, b with Some x, Some y => lsim x y | None, None => True | _, _ => False end.

  Lemma tuple_skip np0 ntup fl bs np nt acc sub : bsok bs -> pargs_are_full np0 np = Ok false ->
    forall ws n late toks, forallb is_ws ws = true -> calm ws = true ->
    tuple_loop n ctx np0 ntup fl bs np nt acc sub late (ws ++ toks) = OutOfFuel
    \/ exists n', tuple_loop n ctx np0 ntup fl bs np nt acc sub late (ws ++ toks)
         = tuple_loop n' ctx np0 ntup fl bs np nt acc sub (late ++ map T ws) toks.
  Proof.
    intros Hbs Hf. induction ws as [|w ws IH]; intros n late toks Hw Hc.
    - right. exists n. cbn [app map]. now rewrite app_nil_r.
    - destruct n as [|n]; [now left|]. cbn [forallb] in Hw. apply andb_prop in Hw as [Hw1 Hw2].
      pose proof (calm_flags _ _ Hc) as (_ & _ & _ & Hs). cbn [app tuple_loop]. rewrite Hf. cbn [bindr].
      rewrite (Hbs w Hw1 (Hs Hw1)), Hw1.
      destruct (IH n (late ++ [T w]) toks Hw2 (calm_tl _ _ Hc)) as [E|(n' & E)]; [left; exact E|].
      right. exists n'. rewrite E. cbn [map]. now rewrite <- app_assoc.
  Qed.

  Lemma close_sim fl acc1 acc2 sub1 sub2 late1 late2 : lsim acc1 acc2 -> osim sub1 sub2 -> lsim late1 late2 ->
    lsim (close_sub fl acc1 sub1 late1) (close_sub fl acc2 sub2 late2).
  Proof.
    intros Ha Hs Hl. unfold close_sub. apply lsim_app; auto. apply lsim_app; auto.
    destruct sub1, sub2; cbn [osim] in Hs; try contradiction; [apply ls_n; auto|]; constructor.
  Qed.
  Lemma tuple_sim np0 ntup fl bs : bsok bs ->
    forall n1 np nt acc1 sub1 late1 l1 a1 r1,
    tuple_loop n1 ctx np0 ntup fl bs np nt acc1 sub1 late1 l1 = Ok (a1, r1) -> live r1 ->
    forall n2 acc2 sub2 late2 l2, sim l1 l2 -> lsim acc1 acc2 -> osim sub1 sub2 -> wsnodes late1 -> wsnodes late2 ->
    rsim (tuple_loop n2 ctx np0 ntup fl bs np nt acc2 sub2 late2 l2) a1 r1.
  Proof.
    intros Hbs. induction n1 as [|n1 IH]; intros np nt acc1 sub1 late1 l1 a1 r1 H Hr n2 acc2 sub2 late2 l2 Hs Ha Ho Hl1 Hl2; [discriminate|].
    assert (Hlv : live l1) by (eapply live_suf; [eapply tuple_suffix; exact H|exact Hr]).
    cbn [tuple_loop] in H. destruct l1 as [|t l1].
    { injection H as <- <-. destruct (live_nil _ Hr). }
    apply bindr_ok in H as (full & Ef & H). destruct full.
    { injection H as <- <-. destruct n2 as [|n2]; [apply rsim_fuel|]. cbn [tuple_loop].
      destruct l2 as [|u l2]; [exfalso; eapply sim_nil; eauto|]. rewrite Ef. cbn [bindr].
      apply rsim_ok; auto. apply close_sim; auto. now apply wsnodes_lsim. }
    pose proof (sim_flags1 _ _ _ _ _ _ Hs Hlv) as (Hcm & Hoo & _ & Hsp).
    destruct (is_ws t) eqn:Ew.
    { rewrite (Hbs t Ew (Hsp eq_refl)) in H. eapply IH; eauto; [eapply sim_ws1; eauto|now apply wsnodes_snoc]. }
    destruct (sim_tok _ _ _ _ _ _ Ew Hs Hlv) as (ws & u & l2' & -> & W & Wc & Hu & Htu & Hs' & Hs2).
    destruct (tuple_skip np0 ntup fl bs np nt acc2 sub2 Hbs Ef ws n2 late2 (u :: l2') W Wc) as [E|(n' & E)]; rewrite E; [apply rsim_fuel|].
    assert (Hl2' : wsnodes (late2 ++ map T ws)) by now apply wsnodes_app.
    revert Hl2'. generalize (late2 ++ map T ws). clear E Hl2. intros lt2 Hl2.
    destruct n' as [|n']; [apply rsim_fuel|]. cbn [tuple_loop]. rewrite Ef. cbn [bindr].
    rewrite <- (tsim_break _ _ _ _ Htu). destruct (should_break t bs).
    { injection H as <- <-. apply rsim_ok; auto. apply close_sim; auto. now apply wsnodes_lsim. }
    rewrite Hu. pose proof (sim_flags2 _ _ _ _ _ _ Hs2 Hlv) as (Hcm2 & _). rewrite Hcm in H. rewrite Hcm2.
    destruct l1 as [|t' l1]; [discriminate|].
    assert (Hlt : live (t' :: l1)).
    { destruct (is_onoff t'); [eapply live_suf; [|exact Hr]; apply suf_cons; eapply tuple_suffix; exact H|]. destruct (consume_trailing ctx (t' :: l1)) as [tr r] eqn:Etr. apply (live_trail _ _ _ _ _ Etr).
      revert H. destruct (match sub1 with Some cs => _ | None => _ end) as [[[p1 p2] p3] p4].
      destruct (p4 + 1 >=? ntup); intros H; apply tuple_suffix in H; eapply live_suf; eauto. }
    pose proof (sim_flags1 _ _ _ _ _ _ Hs' Hlt) as (_ & Hoo' & _). rewrite Hoo' in H.
    rewrite (sim_trail1 _ _ _ _ _ Hs' Hlt) in H.
    pose proof (sim_nil _ _ _ _ _ Hs' Hlt) as Hne.
    destruct l2' as [|u' l2']; [contradiction|].
    pose proof (sim_flags2 _ _ _ _ _ _ Hs' Hlt) as (_ & Hoo2 & _). rewrite Hoo2.
    rewrite (sim_trail2 _ _ _ _ _ Hs' Hlt). rewrite <- (tsim_kwarg_in _ _ _ fl Htu).
    assert (Hargs : forall s1 s2, lsim s1 s2 ->
      lsim (s1 ++ [N (if kwarg_in t fl then KFlag else KArgument) [T t]]) (s2 ++ [N (if kwarg_in t fl then KFlag else KArgument) [T u]])).
    { intros s1 s2 Hss. apply lsim_node; auto. apply nsim_arg; auto. constructor. }
    destruct sub1 as [cs1|], sub2 as [cs2|]; cbn [osim] in Ho; try contradiction.
    - destruct (nt + 1 >=? ntup).
      + eapply IH; [exact H|exact Hr|exact Hs'|apply close_sim; auto; [now apply Hargs|now apply wsnodes_lsim]|exact I|exists nil; auto|exists nil; auto].
      + eapply IH; [exact H|exact Hr|exact Hs'|exact Ha|now apply Hargs|exact Hl1|exact Hl2].
    - assert (Hal : lsim (acc1 ++ late1) (acc2 ++ lt2)) by (apply lsim_app; auto; now apply wsnodes_lsim).
      pose proof (Hargs nil nil (ls_nil _)) as Hn.
      destruct (0 + 1 >=? ntup).
      + eapply IH; [exact H|exact Hr|exact Hs'|apply close_sim; auto; apply ls_nil|exact I|exists nil; auto|exists nil; auto].
      + eapply IH; [exact H|exact Hr|exact Hs'|exact Hal|exact Hn|exists nil; auto|exists nil; auto].
  Qed.

  (** ** Flag groups *)
  Lemma flag_suf n fl bs : forall acc l a r, flag_loop n ctx fl bs acc l = Ok (a, r) -> suf r l.
  Proof.
    induction n as [|n IH]; intros acc l a r H; [discriminate|]. cbn [flag_loop] in H.
    destruct l as [|t l]; [injection H as <- <-; apply suf_refl|].
    destruct (should_break t bs); [injection H as <- <-; apply suf_refl|].
    destruct (is_ws t); [apply suf_cons; eauto|]. destruct (negb _); [injection H as <- <-; apply suf_refl|].
    destruct (consume_trailing ctx l) as [tr r1] eqn:E. apply trailing_QA, suf_Q in E. apply suf_cons. eapply suf_trans; eauto.
  Qed.
  Lemma flag_skip fl bs : bsok bs -> forall ws n acc toks, forallb is_ws ws = true -> calm ws = true ->
    flag_loop n ctx fl bs acc (ws ++ toks) = OutOfFuel
    \/ exists n', flag_loop n ctx fl bs acc (ws ++ toks) = flag_loop n' ctx fl bs (acc ++ map T ws) toks.
  Proof.
    intros Hbs. induction ws as [|w ws IH]; intros n acc toks Hw Hc.
    - right. exists n. cbn [app map]. now rewrite app_nil_r.
    - destruct n as [|n]; [now left|]. cbn [forallb] in Hw. apply andb_prop in Hw as [Hw1 Hw2].
      pose proof (calm_flags _ _ Hc) as (_ & _ & _ & Hs). cbn [app flag_loop].
      rewrite (Hbs w Hw1 (Hs Hw1)), Hw1.
      destruct (IH n (acc ++ [T w]) toks Hw2 (calm_tl _ _ Hc)) as [E|(n' & E)]; [left; exact E|].
      right. exists n'. rewrite E. cbn [map]. now rewrite <- app_assoc.
  Qed.
  Lemma flag_sim fl bs : bsok bs -> forall n1 acc1 l1 a1 r1,
    flag_loop n1 ctx fl bs acc1 l1 = Ok (a1, r1) -> live r1 ->
    forall n2 acc2 l2, sim l1 l2 -> lsim acc1 acc2 ->
    rsim (flag_loop n2 ctx fl bs acc2 l2) a1 r1.
  Proof.
    intros Hbs. induction n1 as [|n1 IH]; intros acc1 l1 a1 r1 H Hr n2 acc2 l2 Hs Ha; [discriminate|].
    assert (Hlv : live l1) by (eapply live_suf; [eapply flag_suf; exact H|exact Hr]).
    cbn [flag_loop] in H. destruct l1 as [|t l1]; [injection H as <- <-; destruct (live_nil _ Hr)|].
    pose proof (sim_flags1 _ _ _ _ _ _ Hs Hlv) as (Hcm & Hoo & _ & Hsp).
    destruct (is_ws t) eqn:Ew.
    { rewrite (Hbs t Ew (Hsp eq_refl)) in H. eapply IH; [exact H|exact Hr|eapply sim_ws1; eauto|now apply lsim_l]. }
    destruct (sim_tok _ _ _ _ _ _ Ew Hs Hlv) as (ws & u & l2' & -> & W & Wc & Hu & Htu & Hs' & Hs2).
    destruct (flag_skip fl bs Hbs ws n2 acc2 (u :: l2') W Wc) as [E|(n' & E)]; rewrite E; [apply rsim_fuel|].
    assert (Ha2 : lsim acc1 (acc2 ++ map T ws)) by now apply lsim_r. revert Ha2. generalize (acc2 ++ map T ws). clear E Ha acc2. intros acc2 Ha.
    destruct n' as [|n']; [apply rsim_fuel|]. cbn [flag_loop]. rewrite <- (tsim_break _ _ _ _ Htu), Hu, <- (tsim_upper _ _ _ Htu).
    destruct (should_break t bs); [injection H as <- <-; now apply rsim_ok|].
    destruct (negb _); [injection H as <- <-; now apply rsim_ok|].
    assert (Hlt : live l1).
    { destruct (consume_trailing ctx l1) as [tr r] eqn:Etr. apply (live_trail _ _ _ _ _ Etr). eapply live_suf; [eapply flag_suf; exact H|exact Hr]. }
    rewrite (sim_trail1 _ _ _ _ _ Hs' Hlt) in H. rewrite (sim_trail2 _ _ _ _ _ Hs' Hlt).
    eapply IH; [exact H|exact Hr|exact Hs'|]. apply lsim_node; auto. apply nsim_arg; auto. apply ls_nil.
  Qed.

  (** ** The add_library and add_executable machine *)
  Definition msim (m1 m2 : amach) : Prop :=
    a_st m1 = a_st m2 /\ a_sort m1 = a_sort m2 /\ lsim (a_tree m1) (a_tree m2) /\ lsim (a_g1 m1) (a_g1 m2)
    /\ match a_g2 m1, a_g2 m2 with
       | Some (s, x), Some (s', y) => s = s' /\ lsim x y | None, None => True | _, _ => False end
    /\ lsim (a_tail m1) (a_tail m2) /\ a_at_tree m1 = a_at_tree m2.
  Lemma msim_l m1 m2 t : msim m1 m2 -> is_ws t = true -> msim (a_append m1 (T t)) m2.
  Proof.
    intros (H1 & H2 & H3 & H4 & H5 & H6 & H7) Hw. unfold a_append.
    destruct (a_at_tree m1) eqn:E1; [repeat split; cbn; auto; now apply lsim_l|].
    destruct (a_g2 m1) as [[s cs]|] eqn:E2.
    { destruct (a_g2 m2) as [[s' cs']|] eqn:E3; [|contradiction]. destruct H5 as [-> H5].
      repeat split; cbn; rewrite ?E3; auto. split; auto. now apply lsim_l. }
    destruct (a_g2 m2) as [[s' cs']|] eqn:E3; [contradiction|].
    destruct (a_st m1 =? 1) eqn:E4; repeat split; cbn; rewrite ?E3; auto; now apply lsim_l.
  Qed.
  Lemma msim_r m1 m2 t : msim m1 m2 -> is_ws t = true -> msim m1 (a_append m2 (T t)).
  Proof.
    assert (G : forall a b, lsim a b -> is_ws t = true -> lsim a (b ++ [T t])).
    { intros a b H Hw. rewrite <- (app_nil_r a). apply lsim_app; auto. apply ls_r; auto. apply ls_nil. }
    intros (H1 & H2 & H3 & H4 & H5 & H6 & H7) Hw. unfold a_append.
    destruct (a_at_tree m2) eqn:E1; [repeat split; cbn; auto|].
    destruct (a_g2 m2) as [[s cs]|] eqn:E2.
    { destruct (a_g2 m1) as [[s' cs']|] eqn:E3; [|contradiction]. destruct H5 as [-> H5].
      repeat split; cbn; rewrite ?E3; auto. }
    destruct (a_g2 m1) as [[s' cs']|] eqn:E3; [contradiction|].
    destruct (a_st m2 =? 1) eqn:E4; repeat split; cbn; rewrite ?E3; auto.
  Qed.
  Lemma add_skip islib bs : forall ws n m1 m2 toks, forallb is_ws ws = true -> msim m1 m2 ->
    add_loop n ctx islib bs m2 (ws ++ toks) = OutOfFuel
    \/ exists n' m2', msim m1 m2' /\ add_loop n ctx islib bs m2 (ws ++ toks) = add_loop n' ctx islib bs m2' toks.
  Proof.
    induction ws as [|w ws IH]; intros n m1 m2 toks Hw Hm.
    - right. exists n, m2. auto.
    - destruct n as [|n]; [now left|]. cbn [forallb] in Hw. apply andb_prop in Hw as [Hw1 Hw2].
      cbn [app add_loop]. assert (Ep : is_tt RIGHT_PAREN w = false) by (unfold is_ws in Hw1; unfold is_tt; destruct (tt w); try discriminate Hw1; reflexivity).
      rewrite Ep, Hw1. apply IH; auto. now apply msim_r.
  Qed.
  Lemma only_cw_sim bs r1 : forall r2, sim r1 r2 -> live r1 -> bsok bs -> only_cw_remain r1 bs = only_cw_remain r2 bs.
  Proof.
    assert (G : forall ws l, forallb is_ws ws = true -> only_cw_remain (ws ++ l) bs = only_cw_remain l bs).
    { induction ws as [|w ws IH]; auto. intros l. cbn [forallb app only_cw_remain]. intros H. apply andb_prop in H as [-> H]. cbn [orb]. auto. }
    induction r1 as [|t r1 IH]; intros r2 Hs Hlv Hb; [destruct (live_nil _ Hlv)|].
    cbn [only_cw_remain]. destruct (is_ws t) eqn:E.
    { cbn [orb]. apply IH; auto; [eapply sim_ws1; eauto|]. apply (live_drop _ [t]); auto. cbn [forallb]. now rewrite E. }
    pose proof (sim_flags1 _ _ _ _ _ _ Hs Hlv) as (Hcm & _).
    destruct (sim_tok _ _ _ _ _ _ E Hs Hlv) as (ws & u & l2' & -> & W & Wc & Hu & Htu & Hs' & Hs2). rewrite Hcm. cbn [orb]. rewrite G by auto. cbn [only_cw_remain].
    pose proof (sim_flags2 _ _ _ _ _ _ Hs2 Hlv) as (Hcm2 & _). rewrite Hu, Hcm2. cbn [orb]. now apply tsim_break with (ctx := ctx).
  Qed.
  Lemma done_sim m1 m2 : msim m1 m2 -> lsim (a_done m1) (a_done m2).
  Proof.
    intros (H1 & H2 & H3 & H4 & H5 & H6 & H7). unfold a_done. rewrite <- H1. apply lsim_app; auto. apply lsim_app.
    { destruct (a_st m1 =? 1); [apply ls_nil|]. apply ls_n; auto. apply ls_nil. }
    apply lsim_app; auto. destruct (a_g2 m1) as [[s x]|], (a_g2 m2) as [[s' y]|]; try contradiction; [|apply ls_nil].
    destruct H5 as [-> H5]. apply ls_n; auto. apply ls_nil.
  Qed.
  Lemma add_stops islib bs n : forall m l a r, add_loop n ctx islib bs m l = Ok (a, r) ->
    suf r l /\ match r with t :: _ => is_tt RIGHT_PAREN t = true | nil => True end.
  Proof.
    induction n as [|n IH]; intros m l a r H; [discriminate|]. cbn [add_loop] in H.
    destruct l as [|t l]; [injection H as <- <-; split; [apply suf_refl|exact I]|].
    destruct (is_tt RIGHT_PAREN t) eqn:Ep; [injection H as <- <-; split; [apply suf_refl|exact Ep]|].
    assert (G : forall m', add_loop n ctx islib bs m' l = Ok (a, r) ->
      suf r (t :: l) /\ match r with t :: _ => is_tt RIGHT_PAREN t = true | nil => True end).
    { intros m' E. apply IH in E as [E1 E2]. split; auto. now apply suf_cons. }
    destruct (is_ws t); [eauto|]. destruct (is_comment t); [eauto|].
    destruct (consume_trailing ctx l) as [tr r1] eqn:E. apply trailing_QA, suf_Q in E.
    repeat match type of H with (if ?c then _ else _) = _ => destruct c end;
      apply IH in H as [H1 H2]; split; auto; apply suf_cons; eapply suf_trans; eauto.
  Qed.
  Lemma suf_neq r t l : suf r (t :: l) -> r <> t :: l -> suf r l.
  Proof. intros ([|x u] & E) H; [now destruct H|]. cbn [app] in E. injection E as <- ->. now exists u. Qed.
  Lemma add_sim islib bs : bsok bs -> forall n1 m1 l1 a1 r1, add_loop n1 ctx islib bs m1 l1 = Ok (a1, r1) -> live r1 ->
    forall n2 m2 l2, sim l1 l2 -> msim m1 m2 -> rsim (add_loop n2 ctx islib bs m2 l2) a1 r1.
  Proof.
    intros Hbs. induction n1 as [|n1 IH]; intros m1 l1 a1 r1 H Hr n2 m2 l2 Hs Hm; [discriminate|].
    assert (Hlv : live l1) by (eapply live_suf; [eapply add_stops; exact H|exact Hr]).
    pose proof (proj1 (add_stops _ _ _ _ _ _ _ H)) as Hsuf. pose proof (proj2 (add_stops _ _ _ _ _ _ _ H)) as Hstop.
    cbn [add_loop] in H. destruct l1 as [|t l1]; [injection H as <- <-; destruct (live_nil _ Hr)|].
    pose proof (sim_flags1 _ _ _ _ _ _ Hs Hlv) as (Hcm & Hoo & _ & Hsp).
    destruct (is_ws t) eqn:Ew.
    { assert (Ep : is_tt RIGHT_PAREN t = false) by (unfold is_ws in Ew; unfold is_tt; destruct (tt t); try discriminate Ew; reflexivity).
      rewrite Ep in H. eapply IH; [exact H|exact Hr|eapply sim_ws1; eauto|now apply msim_l]. }
    destruct (sim_tok _ _ _ _ _ _ Ew Hs Hlv) as (ws & u & l2' & -> & W & Wc & Hu & Htu & Hs' & Hs2).
    destruct (add_skip islib bs ws n2 m1 m2 (u :: l2') W Hm) as [E|(n' & m2' & Hm' & E)]; rewrite E; [apply rsim_fuel|].
    clear E Hm m2. rename m2' into m2. rename Hm' into Hm.
    destruct n' as [|n']; [apply rsim_fuel|]. cbn [add_loop]. rewrite <- (tsim_tt _ RIGHT_PAREN _ _ Htu), Hu.
    destruct (is_tt RIGHT_PAREN t) eqn:Erp; [injection H as <- <-; apply rsim_ok; auto; now apply done_sim|].
    assert (Hlt : live l1).
    { eapply live_suf; [|exact Hr]. eapply suf_neq; [exact Hsuf|]. intros ->. congruence. }
    pose proof (sim_flags2 _ _ _ _ _ _ Hs2 Hlv) as (Hcm2 & _). rewrite Hcm in H. rewrite Hcm2.
    rewrite (sim_trail1 _ _ _ _ _ Hs' Hlt) in H. rewrite (sim_trail2 _ _ _ _ _ Hs' Hlt).
    rewrite <- !(tsim_kwarg_in _ _ _ _ Htu).
    assert (Hn : forall k x y, lsim x y -> lsim (x ++ [N k [T t]]) (y ++ [N k [T u]])).
    { intros k x y Hx. apply lsim_node; auto. apply nsim_arg; auto. apply ls_nil. }
    pose proof (ls_nil ctx) as Hnil.
    destruct Hm as (H1 & H2 & H3 & H4 & H5 & H6 & H7). rewrite <- H1, <- H2, <- ?H7.
    repeat match type of H with
    | (if (a_st m1 =? 4) then _ else _) = _ => fail 1
    | (if ?c then _ else _) = _ => destruct c eqn:?
    end; (eapply IH; [exact H|exact Hr|first [exact Hs'|exact Hs2]|]);
    repeat split; cbn [a_st a_sort a_tree a_g1 a_g2 a_tail a_at_tree]; auto; try (apply Hn; auto; fail); try (apply (Hn KArgument nil nil); apply ls_nil).
    - destruct (a_g2 m1) as [[s x]|], (a_g2 m2) as [[s' y]|]; try contradiction; [destruct H5 as [-> H5]|]; split; auto. apply (Hn KArgument nil nil), ls_nil.
    - now rewrite (only_cw_sim bs _ _ Hs' Hlt Hbs).
  Qed.

  (** ** Parsers that do not look at blanks *)
  Definition flok (sp : pspec) : bool := forallb kwok (ps_flags sp).
  Definition exok (extra : list (list str)) : bool := forallb (forallb kwok) extra.
  (** a check that something was consumed only after the blanks were skipped *)
  Fixpoint items_ok (after_ws : bool) (items : list seqitem) : bool :=
    match items with
    | nil => true
    | SWs :: is' | SWsComments :: is' => items_ok true is'
    | SPos _ extra must :: is' => exok extra && (negb must || after_ws) && items_ok false is'
    end.
  Definition chk_ok (chk : pnode -> list token -> option err) : Prop :=
    forall x y r s, nsim x y -> sim r s -> live r -> chk x r = chk y s.
  Definition gkw_ok (g : gaction) : Prop :=
    match g with
    | GKw _ _ extra chk => exok extra = true /\ chk_ok chk
    | GPos _ extra _ _ => exok extra = true
    | GFlags _ extra => exok extra = true
    end.
  Inductive bpp : parser -> Prop :=
  | bp_std cs kw : forallb kwok (map fst kw) = true -> forallb flok (cs_pargs cs) = true ->
      (forall k p, In (k, p) kw -> bpp p) -> bpp (PStd cs kw)
  | bp_pos sp : bpp (PPos sp)
  | bp_tuple np nt fl : bpp (PTuple np nt fl)
  | bp_shell : bpp PShell
  | bp_cond : bpp PCond
  | bp_null : bpp PNull
  | bp_raise e : bpp (PRaise e)
  | bp_disp f : (forall toks, bpp (f toks)) ->
      (forall l1 l2, sim l1 l2 -> live l1 -> f l1 = f l2) -> bpp (PDisp f)
  | bp_seq items lp : items_ok false items = true -> bpo lp -> bpp (PSeq items lp)
  | bp_inst : bpp PInstallTargets
  | bp_exe s : bpp (PAddExe s)
  | bp_lib s : bpp (PAddLib s)
  with bpo : option gspec -> Prop :=
  | bpo_none : bpo None
  | bpo_some keep step :
      (forall acc toks w p extra chk, step acc toks = GKw w p extra chk -> bpp p) ->
      (forall acc toks, gkw_ok (step acc toks)) ->
      (forall acc1 acc2 t u l1 l2, lsim acc1 acc2 -> is_ws t = false -> is_ws u = false ->
         sim (t :: l1) (u :: l2) -> tsim t u -> sim l1 l2 -> live l1 -> step acc1 (t :: l1) = step acc2 (u :: l2)) ->
      bpo (Some (GSpec keep step)).

  Lemma resolve_bp p : bpp p -> forall l1 l2, sim l1 l2 -> live l1 -> resolve p l1 = resolve p l2 /\ bpp (resolve p l1).
  Proof.
    induction 1; intros l1 l2 Hs Hn; cbn [resolve]; try (split; [reflexivity|constructor; auto; fail]).
    rewrite <- (H1 _ _ Hs Hn). auto.
  Qed.
  Lemma no_chk_ok : chk_ok no_check. Proof. intros x y r s _ _ _. reflexivity. Qed.
  Lemma install_bp : bpo (Some (GSpec (fun _ => false) install_step)).
  Proof.
    constructor.
    - intros acc toks w p extra chk. unfold install_step.
      destruct toks as [|t toks]; [discriminate|].
      destruct (normalized_kwarg t) as [w'|]; [|discriminate].
      destruct (smem w' designated).
      + intros H. injection H as <- <- <- <-. constructor.
      + destruct (kw_lookup w' install_kwargs) as [q|] eqn:E; [|discriminate].
        intros H. injection H as <- <- <- <-.
        apply kw_lookup_In in E as (k' & E). simpl in E.
        repeat (destruct E as [E|E]; [injection E as _ <-; constructor|]). destruct E.
    - intros acc toks. unfold install_step. destruct toks as [|t toks]; [vm_compute; reflexivity|].
      destruct (normalized_kwarg t) as [w'|]; [|vm_compute; reflexivity].
      destruct (smem w' designated); [split; [vm_compute; reflexivity|apply no_chk_ok]|].
      destruct (kw_lookup w' install_kwargs); [split; [vm_compute; reflexivity|apply no_chk_ok]|vm_compute; reflexivity].
    - intros acc1 acc2 t u l1 l2 _ _ _ _ Ht _ _. unfold install_step. now rewrite (tsim_kwarg _ _ _ Ht).
  Qed.

  (** ** All argument parsers *)
  Record BP (n : nat) : Prop := {
    b_call : forall top p bs nested l1 x r1, bpp p -> wfp true top p -> (top = true -> bs = [BParen]) -> bsok bs ->
      call n ctx p bs nested l1 = Ok (x, r1) -> live r1 ->
      forall n2 l2, sim l1 l2 -> nres (call n2 ctx p bs nested l2) x r1;
    b_std : forall dflt kw bs kbs nested pargs acc1 l1 a1 r1,
      (forall k p, In (k, p) kw -> bpp p /\ wfp true false p) -> bsok bs -> bsok kbs -> forallb kwok (map fst kw) = true ->
      forallb flok pargs = true ->
      std_loop n ctx dflt kw bs kbs nested pargs acc1 l1 = Ok (a1, r1) -> live r1 ->
      forall n2 acc2 l2, sim l1 l2 -> lsim acc1 acc2 -> rsim (std_loop n2 ctx dflt kw bs kbs nested pargs acc2 l2) a1 r1;
    b_posg : forall sp bs nested l1 x r1, bsok bs -> pos_group n ctx sp bs nested l1 = Ok (x, r1) -> live r1 ->
      forall n2 l2, sim l1 l2 -> nres (pos_group n2 ctx sp bs nested l2) x r1;
    b_pos : forall sp bs nested nc acc1 l1 a1 r1, bsok bs -> pos_loop n ctx sp bs nested nc acc1 l1 = Ok (a1, r1) -> live r1 ->
      forall n2 acc2 l2, sim l1 l2 -> lsim acc1 acc2 -> rsim (pos_loop n2 ctx sp bs nested nc acc2 l2) a1 r1;
    b_cond : forall bs acc1 l1 a1 r1, bsok bs -> cond_loop n ctx bs acc1 l1 = Ok (a1, r1) -> live r1 ->
      forall n2 acc2 l2, sim l1 l2 -> lsim acc1 acc2 -> rsim (cond_loop n2 ctx bs acc2 l2) a1 r1;
    b_kw : forall w p bs t l1 x r1, bpp p -> wfp true false p -> bsok bs -> is_ws t = false ->
      kwgroup n ctx w p bs (t :: l1) = Ok (x, r1) -> live r1 ->
      forall n2 u l2, is_ws u = false -> tsim t u -> sim l1 l2 -> nres (kwgroup n2 ctx w p bs (u :: l2)) x r1;
    b_paren : forall t l1 x r1, is_ws t = false -> paren n ctx (t :: l1) = Ok (x, r1) -> live r1 ->
      forall n2 u l2, is_ws u = false -> tsim t u -> sim l1 l2 -> nres (paren n2 ctx (u :: l2)) x r1;
    b_seq : forall aw items lp bs nested acc1 l1 a1 r1, items_ok aw items = true -> bpo lp -> wfo true lp -> bsok bs ->
      seq_items n ctx items lp bs nested acc1 l1 = Ok (a1, r1) -> live r1 ->
      forall n2 acc2 l2, sim l1 l2 -> lsim acc1 acc2 ->
      (aw = true -> match l1 with t :: _ => is_ws t = false | nil => True end /\ match l2 with t :: _ => is_ws t = false | nil => True end) ->
      rsim (seq_items n2 ctx items lp bs nested acc2 l2) a1 r1;
    b_gl : forall keep step bs nested acc1 l1 a1 r1, bpo (Some (GSpec keep step)) -> wfo true (Some (GSpec keep step)) -> bsok bs ->
      gloop n ctx keep step bs nested acc1 l1 = Ok (a1, r1) -> live r1 ->
      forall n2 acc2 l2, sim l1 l2 -> lsim acc1 acc2 -> rsim (gloop n2 ctx keep step bs nested acc2 l2) a1 r1 }.

  (** skipping blanks *)
  Lemma std_skip dflt kw bs kbs nested pargs : forall ws n acc toks, forallb is_ws ws = true ->
    std_loop n ctx dflt kw bs kbs nested pargs acc (ws ++ toks) = OutOfFuel
    \/ exists n', std_loop n ctx dflt kw bs kbs nested pargs acc (ws ++ toks) = std_loop n' ctx dflt kw bs kbs nested pargs (acc ++ map T ws) toks.
  Proof.
    induction ws as [|w ws IH]; intros n acc toks Hw.
    - right. exists n. cbn [app map]. now rewrite app_nil_r.
    - destruct n as [|n]; [now left|]. cbn [forallb] in Hw. apply andb_prop in Hw as [Hw1 Hw2].
      cbn [app std_loop]. rewrite Hw1.
      destruct (IH n (acc ++ [T w]) toks Hw2) as [E|(n' & E)]; [left; exact E|].
      right. exists n'. rewrite E. cbn [map]. now rewrite <- app_assoc.
  Qed.
  Lemma ws_not k w : is_ws w = true -> k <> WHITESPACE -> k <> NEWLINE -> is_tt k w = false.
  Proof. intros H H1 H2. unfold is_ws in H. unfold is_tt. destruct (tt w); try discriminate H; destruct k; try reflexivity; congruence. Qed.
  Lemma pos_skip sp bs nested nc : bsok bs -> pargs_are_full (ps_nargs sp) nc = Ok false -> forall ws n acc toks, forallb is_ws ws = true -> calm ws = true ->
    pos_loop n ctx sp bs nested nc acc (ws ++ toks) = OutOfFuel
    \/ exists n', pos_loop n ctx sp bs nested nc acc (ws ++ toks) = pos_loop n' ctx sp bs nested nc (acc ++ map T ws) toks.
  Proof.
    intros Hbs Hf. induction ws as [|w ws IH]; intros n acc toks Hw Hc.
    - right. exists n. cbn [app map]. now rewrite app_nil_r.
    - destruct n as [|n]; [now left|]. cbn [forallb] in Hw. apply andb_prop in Hw as [Hw1 Hw2].
      pose proof (calm_flags _ _ Hc) as (_ & _ & _ & Hs). cbn [app pos_loop]. rewrite Hf. cbn [bindr].
      rewrite (Hbs w Hw1 (Hs Hw1)), Hw1, (ws_not LEFT_PAREN w Hw1) by discriminate. cbn [andb].
      destruct (IH n (acc ++ [T w]) toks Hw2 (calm_tl _ _ Hc)) as [E|(n' & E)]; [left; exact E|].
      right. exists n'. rewrite E. cbn [map]. now rewrite <- app_assoc.
  Qed.
  Lemma cond_skip bs : bsok bs -> forall ws n acc toks, forallb is_ws ws = true -> calm ws = true ->
    cond_loop n ctx bs acc (ws ++ toks) = OutOfFuel
    \/ exists n', cond_loop n ctx bs acc (ws ++ toks) = cond_loop n' ctx bs (acc ++ map T ws) toks.
  Proof.
    intros Hbs. induction ws as [|w ws IH]; intros n acc toks Hw Hc.
    - right. exists n. cbn [app map]. now rewrite app_nil_r.
    - destruct n as [|n]; [now left|]. cbn [forallb] in Hw. apply andb_prop in Hw as [Hw1 Hw2].
      pose proof (calm_flags _ _ Hc) as (_ & _ & _ & Hs). cbn [app cond_loop].
      rewrite (Hbs w Hw1 (Hs Hw1)), Hw1.
      destruct (IH n (acc ++ [T w]) toks Hw2 (calm_tl _ _ Hc)) as [E|(n' & E)]; [left; exact E|].
      right. exists n'. rewrite E. cbn [map]. now rewrite <- app_assoc.
  Qed.
  Lemma gl_skip keep step bs nested : bsok bs -> forall ws n acc toks, forallb is_ws ws = true -> calm ws = true ->
    gloop n ctx keep step bs nested acc (ws ++ toks) = OutOfFuel
    \/ exists n', gloop n ctx keep step bs nested acc (ws ++ toks) = gloop n' ctx keep step bs nested (acc ++ map T ws) toks.
  Proof.
    intros Hbs. induction ws as [|w ws IH]; intros n acc toks Hw Hc.
    - right. exists n. cbn [app map]. now rewrite app_nil_r.
    - destruct n as [|n]; [now left|]. cbn [forallb] in Hw. apply andb_prop in Hw as [Hw1 Hw2].
      pose proof (calm_flags _ _ Hc) as (_ & _ & _ & Hs). cbn [app gloop].
      rewrite (Hbs w Hw1 (Hs Hw1)), Hw1.
      destruct (IH n (acc ++ [T w]) toks Hw2 (calm_tl _ _ Hc)) as [E|(n' & E)]; [left; exact E|].
      right. exists n'. rewrite E. cbn [map]. now rewrite <- app_assoc.
  Qed.
  Lemma take_wsc_calm R toks : forall fuel, calm toks = true -> nows toks <> nil -> (List.length (toks ++ R) < fuel)%nat -> take_wsc fuel (toks ++ R) = Ok (take_ws (toks ++ R)).
  Proof.
    induction toks as [|t toks IH]; intros fuel Hc Hn Hf; [now destruct Hn|]. (destruct fuel as [|fuel]; [cbn [List.length] in Hf; lia|]).
    cbn [app take_wsc take_ws]. destruct (is_ws t) eqn:Ew.
    - cbn [nows filter] in Hn. unfold nonws at 1 in Hn. rewrite Ew in Hn.
      rewrite (IH fuel); [|eapply calm_tl; eauto|exact Hn|cbn [app List.length] in Hf; lia]. cbn [bindr]. now destruct (take_ws (toks ++ R)).
    - apply calm_flags in Hc as (-> & -> & _). reflexivity.
  Qed.
  Lemma sim_wsc1 l1 l2 : sim l1 l2 -> live l1 -> take_wsc (S (List.length l1)) l1 = Ok (take_ws l1).
  Proof. intros (p1 & p2 & -> & -> & F & C1 & C2 & HR) Hl. apply take_wsc_calm; auto. now apply live_nows in Hl. Qed.
  Lemma sim_wsc2 l1 l2 : sim l1 l2 -> live l1 -> take_wsc (S (List.length l2)) l2 = Ok (take_ws l2).
  Proof.
    intros (p1 & p2 & -> & -> & F & C1 & C2 & HR) Hl. apply take_wsc_calm; auto. apply live_nows in Hl. intros E. rewrite E in F. inversion F. congruence.
  Qed.
  Lemma add_tag_sim tag x y : nsim x y -> nsim (add_tag tag x) (add_tag tag y).
  Proof. intros (k & cs & ds & -> & -> & H). destruct k; cbn [add_tag]; apply nsim_wrap; exact H. Qed.
  Lemma add_tags_sim tags : forall x y, nsim x y -> nsim (add_tags tags x) (add_tags tags y).
  Proof. unfold add_tags. induction tags as [|g tags IH]; intros x y H; cbn [fold_left]; auto. apply IH. now apply add_tag_sim. Qed.
  Lemma map_tag_sim tag a b : lsim a b -> lsim (map (add_tag tag) a) (map (add_tag tag) b).
  Proof.
    induction 1 as [|x a b Hx H IH|y a b Hy H IH|t u a b Ht H IH|k cs ds a b Hc IHc H IH]; cbn [map].
    - apply ls_nil.
    - apply ls_l; auto. destruct x as [t|k cs]; auto. now destruct k.
    - apply ls_r; auto. destruct y as [t|k cs]; auto. now destruct k.
    - apply ls_t; auto.
    - destruct k; cbn [add_tag]; apply ls_n; auto.
  Qed.
  Lemma split_flok cs dflt pargs : split_default cs = (dflt, pargs) -> forallb flok cs = true ->
    flok dflt = true /\ forallb flok pargs = true.
  Proof.
    unfold split_default. destruct cs as [|p [|q cs]].
    - intros H _. injection H as <- <-. auto.
    - destruct (_ && _); intros H Hf; injection H as <- <-; cbn [forallb] in Hf; apply andb_prop in Hf as [Hf _]; split; auto. cbn [forallb]. now rewrite Hf.
    - intros H Hf. injection H as <- <-. auto.
  Qed.
  Lemma flags_kwok l : forallb flok l = true -> forallb kwok (flat_map ps_flags l) = true.
  Proof. induction l as [|p l IH]; auto. cbn [forallb flat_map]. intros H. apply andb_prop in H as [H1 H2]. rewrite forallb_app. unfold flok in H1. now rewrite H1, IH. Qed.
  Lemma other_kwok (f : str -> bool) l : forallb flok l = true ->
    forallb kwok (flat_map (fun o => filter f (ps_flags o)) l) = true.
  Proof.
    induction l as [|p l IH]; auto. cbn [forallb flat_map]. intros H. apply andb_prop in H as [H1 H2]. rewrite forallb_app, IH by auto.
    rewrite andb_true_r. unfold flok in H1. rewrite forallb_forall in *. intros x Hx. apply filter_In in Hx as [Hx _]. auto.
  Qed.
  Lemma suf_tl t l : suf l (t :: l). Proof. now exists [t]. Qed.

  (** what remains is a suffix *)
  Lemma s_call n top p bs nested l x r : wfp true top p -> (top = true -> bs = [BParen]) -> call n ctx p bs nested l = Ok (x, r) -> suf r l.
  Proof. intros. eapply suf_Q. eapply (sp_call _ _ _ _ _ (SP ctx n)); eauto. exact I. Qed.
  Lemma s_std n dflt kw bs kbs nested pargs acc l a r : (forall k p, In (k, p) kw -> wfp true false p) ->
    std_loop n ctx dflt kw bs kbs nested pargs acc l = Ok (a, r) -> suf r l.
  Proof. intros. eapply suf_L. eapply (sp_std _ _ _ _ _ (SP ctx n)); eauto. exact I. Qed.
  Lemma s_posg n sp bs nested l x r : pos_group n ctx sp bs nested l = Ok (x, r) -> suf r l.
  Proof. intros. eapply suf_Q. eapply (sp_posg _ _ _ _ _ (SP ctx n)); eauto. exact I. Qed.
  Lemma s_pos n sp bs nested nc acc l a r : pos_loop n ctx sp bs nested nc acc l = Ok (a, r) -> suf r l.
  Proof. intros. eapply suf_L. eapply (sp_pos _ _ _ _ _ (SP ctx n)); eauto. exact I. Qed.
  Lemma s_cond n bs acc l a r : cond_loop n ctx bs acc l = Ok (a, r) -> suf r l.
  Proof. intros. eapply suf_L. eapply (sp_cond _ _ _ _ _ (SP ctx n)); eauto. exact I. Qed.
  Lemma s_kw n w p bs l x r : wfp true false p -> kwgroup n ctx w p bs l = Ok (x, r) -> suf r l.
  Proof. intros. eapply suf_Q. eapply (sp_kw _ _ _ _ _ (SP ctx n)); eauto. exact I. Qed.
  Lemma s_paren n l x r : paren n ctx l = Ok (x, r) -> suf r l.
  Proof. intros. eapply suf_Q. eapply (sp_paren _ _ _ _ _ (SP ctx n)); eauto. exact I. Qed.
  Lemma s_seq n items lp bs nested acc l a r : wfo true lp -> seq_items n ctx items lp bs nested acc l = Ok (a, r) -> suf r l.
  Proof. intros. eapply suf_L. eapply (sp_seq _ _ _ _ _ (SP ctx n)); eauto. exact I. Qed.
  Lemma s_gl n keep step bs nested acc l a r : wfo true (Some (GSpec keep step)) -> gloop n ctx keep step bs nested acc l = Ok (a, r) -> suf r l.
  Proof. intros. eapply suf_L. eapply (sp_gl _ _ _ _ _ (SP ctx n)); eauto. exact I. Qed.
  Lemma take_ws_suf l a r : take_ws l = (a, r) -> suf r l.
  Proof. intros H. apply take_ws_split in H as (ws & -> & _). now exists ws. Qed.

  (** a conditional group ends where the arguments end *)
  Definition stops (bs : list breaker) (r : list token) : Prop := match r with t :: _ => should_break t bs = true | nil => True end.
  Lemma condl_stops n bs : forall acc l a r, cond_loop n ctx bs acc l = Ok (a, r) -> stops bs r.
  Proof.
    induction n as [|n IH]; intros acc l a r H; [discriminate|]. cbn [cond_loop] in H.
    destruct l as [|t l]; [injection H as <- <-; exact I|].
    destruct (should_break t bs) eqn:E; [injection H as <- <-; exact E|].
    destruct (is_ws t); [eauto|]. destruct (is_comment t); [eauto|]. destruct (is_onoff t); [eauto|].
    destruct (is_tt LEFT_PAREN t); [apply bindr_ok in H as ([s r1] & _ & H); eauto|].
    destruct (kwarg_in t cond_words); apply bindr_ok in H as ([s r1] & _ & H); [destruct (_ <=? _)%nat; [discriminate|]|]; eauto.
  Qed.
  Lemma cond_stops n bs nested l x r : call n ctx PCond bs nested l = Ok (x, r) -> stops bs r.
  Proof.
    destruct n as [|n]; [discriminate|]. cbn [call resolve]. destruct (take_ws l) as [w r0]. intros H.
    apply bindr_ok in H as ([a r1] & E & H). injection H as <- <-. eapply condl_stops; eauto.
  Qed.

  Lemma all_BP n : BP n.
  Proof.
    induction n as [|m IH]; [constructor; intros; discriminate|].
    constructor.
    - (* call *)
      intros top p bs nested l1 x r1 Hp Hwf Hbs Hb H Hr n2 l2 Hs.
      destruct n2 as [|n2]; [apply nres_fuel|]. cbn [call] in H |- *.
      assert (Hlv : live l1).
      { eapply live_suf; [|exact Hr]. eapply (s_call (S m) top p bs nested); [exact Hwf|exact Hbs|]. cbn [call]. exact H. }
      destruct (resolve_bp p Hp _ _ Hs Hlv) as [Er Hp']. rewrite <- Er.
      pose proof (resolve_wf _ _ _ Hwf l1) as Hwf'.
      destruct (resolve p l1) as [cs kw|sp|np nt fl| | | |e|f|items lp| |so|so].
      + destruct (take_ws l1) as [w1 r0] eqn:E1. destruct (take_ws l2) as [w2 r2] eqn:E2.
        destruct (take_ws_sim _ _ _ _ _ _ _ _ _ Hs Hlv E1 E2) as (Hw & Hs0 & Hl0).
        destruct (split_default (cs_pargs cs)) as [dflt pargs] eqn:Esp.
        apply bindr_ok in H as ([a r'] & E & H). injection H as <- <-.
        inversion Hp' as [cs' kw' Hk Hf Hb' | | | | | | | | | | |]; subst. inversion Hwf'; subst.
        destruct (split_flok _ _ _ Esp Hf) as [Hfd Hfp].
        assert (Hkb : bsok (bs ++ [kwbreaker (map fst kw ++ ps_flags dflt ++ flat_map ps_flags pargs)])).
        { apply bsok_app; auto. apply bsok_kw. rewrite !forallb_app, Hk. unfold flok in Hfd. rewrite Hfd. now apply flags_kwok. }
        eapply bind_rn.
        * eapply (b_std _ IH); [|exact Hb|exact Hkb|exact Hk|exact Hfp|exact E|exact Hr|exact Hs0|exact Hw]. intros k q Hin. eauto.
        * intros x2 m2 _ Hx Hm. apply nres_ok; auto. now apply nsim_wrap.
      + eapply (b_posg _ IH); eauto.
      + apply bindr_ok in H as ([a r'] & E & H). injection H as <- <-.
        eapply bind_rn.
        * eapply tuple_sim; [exact Hb|exact E|exact Hr|exact Hs|apply ls_nil|exact I|exists nil; auto|exists nil; auto].
        * intros x2 m2 _ Hx Hm. apply nres_ok; auto. now apply nsim_wrap.
      + destruct (take_ws l1) as [w1 r0] eqn:E1. destruct (take_ws l2) as [w2 r2] eqn:E2.
        destruct (take_ws_sim _ _ _ _ _ _ _ _ _ Hs Hlv E1 E2) as (Hw & Hs0 & Hl0).
        destruct (split_default _) as [dflt pargs] eqn:Esp.
        apply bindr_ok in H as ([a r'] & E & H). injection H as <- <-.
        destruct (split_flok _ _ _ Esp eq_refl) as [Hfd Hfp].
        assert (Hkb : bsok (bs ++ [kwbreaker nil])) by (apply bsok_app; auto; now apply bsok_kw).
        eapply bind_rn.
        * eapply (b_std _ IH); [|exact Hb|exact Hkb|reflexivity|exact Hfp|exact E|exact Hr|exact Hs0|exact Hw]. intros k q [].
        * intros x2 m2 _ Hx Hm. apply nres_ok; auto. apply nsim_wrap. now apply map_tag_sim.
      + destruct (take_ws l1) as [w1 r0] eqn:E1. destruct (take_ws l2) as [w2 r2] eqn:E2.
        destruct (take_ws_sim _ _ _ _ _ _ _ _ _ Hs Hlv E1 E2) as (Hw & Hs0 & Hl0).
        apply bindr_ok in H as ([a r'] & E & H). injection H as <- <-.
        eapply bind_rn.
        * eapply (b_cond _ IH); [exact Hb|exact E|exact Hr|exact Hs0|exact Hw].
        * intros x2 m2 _ Hx Hm. apply nres_ok; auto. now apply nsim_wrap.
      + injection H as <- <-. apply nres_ok; auto. apply nsim_wrap, ls_nil.
      + discriminate.
      + discriminate.
      + apply bindr_ok in H as ([a r'] & E & H). injection H as <- <-.
        inversion Hp' as [ | | | | | | | |items' lp' Hi Ho | | |]; subst. inversion Hwf'; subst.
        eapply bind_rn.
        * eapply (b_seq _ IH); [exact Hi|exact Ho|assumption|exact Hb|exact E|exact Hr|exact Hs|apply ls_nil|discriminate].
        * intros x2 m2 _ Hx Hm. apply nres_ok; auto. now apply nsim_wrap.
      + apply bindr_ok in H as ([a r'] & E & H). injection H as <- <-.
        eapply bind_rn.
        * eapply (b_seq _ IH false); [reflexivity|apply install_bp|apply install_wf|exact Hb|exact E|exact Hr|exact Hs|apply ls_nil|discriminate].
        * intros x2 m2 _ Hx Hm. apply nres_ok; auto. now apply nsim_wrap.
      + destruct (take_ws l1) as [w1 r0] eqn:E1. destruct (take_ws l2) as [w2 r2] eqn:E2.
        destruct (take_ws_sim _ _ _ _ _ _ _ _ _ Hs Hlv E1 E2) as (Hw & Hs0 & Hl0).
        apply bindr_ok in H as ([a r'] & E & H). injection H as <- <-.
        eapply bind_rn.
        * eapply add_sim; [exact Hb|exact E|exact Hr|exact Hs0|]. repeat split; cbn; auto; apply ls_nil.
        * intros x2 m2 _ Hx Hm. apply nres_ok; auto. now apply nsim_wrap.
      + destruct (take_ws l1) as [w1 r0] eqn:E1. destruct (take_ws l2) as [w2 r2] eqn:E2.
        destruct (take_ws_sim _ _ _ _ _ _ _ _ _ Hs Hlv E1 E2) as (Hw & Hs0 & Hl0).
        apply bindr_ok in H as ([a r'] & E & H). injection H as <- <-.
        eapply bind_rn.
        * eapply add_sim; [exact Hb|exact E|exact Hr|exact Hs0|]. repeat split; cbn; auto; apply ls_nil.
        * intros x2 m2 _ Hx Hm. apply nres_ok; auto. now apply nsim_wrap.
    - (* std_loop *)
      intros dflt kw bs kbs nested pargs acc1 l1 a1 r1 Hkw Hb Hkb Hk Hf H Hr n2 acc2 l2 Hs Ha.
      assert (Hlv : live l1) by (eapply live_suf; [eapply s_std; [intros; eapply Hkw; eauto|exact H]|exact Hr]).
      cbn [std_loop] in H. destruct l1 as [|t l1]; [injection H as <- <-; destruct (live_nil _ Hr)|].
      pose proof (sim_flags1 _ _ _ _ _ _ Hs Hlv) as (Hcm & Hoo & _ & Hsp).
      destruct (is_ws t) eqn:Ew.
      { eapply (b_std _ IH); [exact Hkw|exact Hb|exact Hkb|exact Hk|exact Hf|exact H|exact Hr|eapply sim_ws1; eauto|now apply lsim_l]. }
      destruct (sim_tok _ _ _ _ _ _ Ew Hs Hlv) as (ws & u & l2' & -> & W & Wc & Hu & Htu & Hs' & Hs2).
      destruct (std_skip dflt kw bs kbs nested pargs ws n2 acc2 (u :: l2') W) as [E|(n' & E)]; rewrite E; [apply rsim_fuel|].
      assert (Ha2 : lsim acc1 (acc2 ++ map T ws)) by now apply lsim_r. revert Ha2. generalize (acc2 ++ map T ws). clear E Ha acc2. intros acc2 Ha.
      destruct n' as [|n']; [apply rsim_fuel|]. cbn [std_loop].
      pose proof (sim_flags2 _ _ _ _ _ _ Hs2 Hlv) as (Hcm2 & Hoo2 & _ & _).
      rewrite Hu, Hcm2, Hoo2. rewrite Hcm, Hoo in H. rewrite <- (tsim_break _ _ _ _ Htu), <- (tsim_kwarg _ _ _ Htu).
      destruct (should_break t bs && _); [injection H as <- <-; now apply rsim_ok|].
      destruct (match normalized_kwarg t with Some w => _ | None => None end) as [[w p]|] eqn:Ek.
      + assert (Hp : bpp p /\ wfp true false p).
        { destruct (normalized_kwarg t) as [w'|]; [|discriminate]. destruct (kw_lookup w' kw) as [q|] eqn:El; [|discriminate].
          injection Ek as <- <-. apply kw_lookup_In in El as (k' & El). eauto. }
        destruct Hp as [Hp Hwp].
        apply bindr_ok in H as ([sub r] & E & H).
        destruct (_ <=? _)%nat eqn:El; [discriminate|].
        assert (Hnr : live r) by (eapply live_suf; [|exact Hr]; eapply s_std; [|exact H]; intros; eapply Hkw; eauto).
        eapply bind_nr; [eapply (b_kw _ IH); [exact Hp|exact Hwp|exact Hkb|exact Ew|exact E|exact Hnr|exact Hu|exact Htu|exact Hs']|].
        intros x2 m2 E2 Hx Hm. rewrite <- (sim_consumed ctx R1 R2 t l1 r u l2' m2), El; auto; [|eapply s_kw; eauto|eapply s_kw; eauto].
        eapply (b_std _ IH); [exact Hkw|exact Hb|exact Hkb|exact Hk|exact Hf|exact H|exact Hr|exact Hm|now apply lsim_node].
      + apply bindr_ok in H as ([sub r] & E & H).
        destruct (_ <=? _)%nat eqn:El; [discriminate|].
        assert (Hnr : live r) by (eapply live_suf; [|exact Hr]; eapply s_std; [|exact H]; intros; eapply Hkw; eauto).
        assert (Hft : forallb flok (tl pargs) = true) by (destruct pargs; auto; cbn [forallb] in Hf; now apply andb_prop in Hf).
        eapply bind_nr; [eapply (b_posg _ IH); [|exact E|exact Hnr|exact Hs2]|].
        { apply bsok_app; auto. apply bsok_kw. rewrite forallb_app, Hk. now apply other_kwok. }
        intros x2 m2 E2 Hx Hm. rewrite <- (sim_consumed ctx R1 R2 t l1 r u l2' m2), El; auto; [|eapply s_posg; eauto|eapply s_posg; eauto].
        eapply (b_std _ IH); [exact Hkw|exact Hb|exact Hkb|exact Hk|exact Hft|exact H|exact Hr|exact Hm|now apply lsim_node].
    - (* pos_group *)
      intros sp bs nested l1 x r1 Hb H Hr n2 l2 Hs.
      assert (Hlv : live l1) by (eapply live_suf; [eapply s_posg; exact H|exact Hr]). destruct n2 as [|n2]; [apply nres_fuel|]. cbn [pos_group] in H |- *.
      destruct (take_ws l1) as [w1 r0] eqn:E1. destruct (take_ws l2) as [w2 r2] eqn:E2.
      destruct (take_ws_sim _ _ _ _ _ _ _ _ _ Hs Hlv E1 E2) as (Hw & Hs0 & Hl0).
      assert (Hso : forall r, match r with t :: _ => is_comment t = false | nil => True end -> match r with
        | t :: _ => if tag_in t [$"sortable"; $"sort"] then true else if tag_in t [$"unsortable"; $"unsort"] then false else ps_sortable sp
        | nil => ps_sortable sp end = ps_sortable sp).
      { intros [|t r] Hc; [reflexivity|]. now rewrite !(calm_tag _ _ Hc). }
      rewrite (Hso r0) in H by (destruct r0 as [|z r0]; [exact I|apply (sim_flags1 _ _ _ _ _ _ Hs0 Hl0)]).
      rewrite (Hso r2) by (destruct r2 as [|z r2]; [exact I|apply (sim_flags2 _ _ _ _ _ _ Hs0 Hl0)]).
      apply bindr_ok in H as ([a r'] & E & H). injection H as <- <-.
      eapply bind_rn; [eapply (b_pos _ IH); [exact Hb|exact E|exact Hr|exact Hs0|exact Hw]|].
      intros x2 m2 _ Hx Hm. apply nres_ok; auto. now apply nsim_wrap.
    - (* pos_loop *)
      intros sp bs nested nc acc1 l1 a1 r1 Hb H Hr n2 acc2 l2 Hs Ha.
      assert (Hlv : live l1) by (eapply live_suf; [eapply s_pos; [exact H]|exact Hr]).
      cbn [pos_loop] in H. destruct l1 as [|t l1]; [injection H as <- <-; destruct (live_nil _ Hr)|].
      apply bindr_ok in H as (full & Ef & H). destruct full.
      { injection H as <- <-. destruct n2 as [|n2]; [apply rsim_fuel|]. cbn [pos_loop].
        destruct l2 as [|u l2]; [exfalso; eapply sim_nil; eauto|]. rewrite Ef. cbn [bindr]. now apply rsim_ok. }
      pose proof (sim_flags1 _ _ _ _ _ _ Hs Hlv) as (Hcm & Hoo & _ & Hsp).
      destruct (is_ws t) eqn:Ew.
      { rewrite (Hb t Ew (Hsp eq_refl)), (ws_not LEFT_PAREN t Ew) in H by discriminate. cbn [andb] in H.
        eapply (b_pos _ IH); [exact Hb|exact H|exact Hr|eapply sim_ws1; eauto|now apply lsim_l]. }
      destruct (sim_tok _ _ _ _ _ _ Ew Hs Hlv) as (ws & u & l2' & -> & W & Wc & Hu & Htu & Hs' & Hs2).
      destruct (pos_skip sp bs nested nc Hb Ef ws n2 acc2 (u :: l2') W Wc) as [E|(n' & E)]; rewrite E; [apply rsim_fuel|].
      assert (Ha2 : lsim acc1 (acc2 ++ map T ws)) by now apply lsim_r. revert Ha2. generalize (acc2 ++ map T ws). clear E Ha acc2. intros acc2 Ha.
      destruct n' as [|n']; [apply rsim_fuel|]. cbn [pos_loop]. rewrite Ef. cbn [bindr].
      pose proof (sim_flags2 _ _ _ _ _ _ Hs2 Hlv) as (Hcm2 & Hoo2 & _ & _).
      rewrite Hu, Hcm2, Hoo2. rewrite Hcm, Hoo in H. rewrite <- (tsim_break _ _ _ _ Htu), <- !(tsim_tt _ _ _ _ Htu), <- (tsim_kwarg_in _ _ _ _ Htu).
      destruct (should_break t bs && _); [injection H as <- <-; now apply rsim_ok|].
      destruct (is_tt LEFT_PAREN t).
      + apply bindr_ok in H as ([sub r] & E & H).
        assert (Hnr : live r) by (eapply live_suf; [|exact Hr]; eapply s_pos; exact H).
        eapply bind_nr; [eapply (b_paren _ IH); [exact Ew|exact E|exact Hnr|exact Hu|exact Htu|exact Hs']|].
        intros x2 m2 E2 Hx Hm. eapply (b_pos _ IH); [exact Hb|exact H|exact Hr|exact Hm|now apply lsim_node].
      + assert (Hlt : live l1).
        { destruct (consume_trailing ctx l1) as [tr r] eqn:Etr. apply (live_trail _ _ _ _ _ Etr). eapply live_suf; [eapply s_pos; exact H|exact Hr]. }
        rewrite (sim_trail1 _ _ _ _ _ Hs' Hlt) in H. rewrite (sim_trail2 _ _ _ _ _ Hs' Hlt).
        eapply (b_pos _ IH); [exact Hb|exact H|exact Hr|exact Hs'|]. apply lsim_node; auto. apply nsim_arg; auto. apply ls_nil.
    - (* cond_loop *)
      intros bs acc1 l1 a1 r1 Hb H Hr n2 acc2 l2 Hs Ha.
      assert (Hlv : live l1) by (eapply live_suf; [eapply s_cond; [exact H]|exact Hr]).
      cbn [cond_loop] in H. destruct l1 as [|t l1]; [injection H as <- <-; destruct (live_nil _ Hr)|].
      pose proof (sim_flags1 _ _ _ _ _ _ Hs Hlv) as (Hcm & Hoo & _ & Hsp).
      destruct (is_ws t) eqn:Ew.
      { rewrite (Hb t Ew (Hsp eq_refl)) in H.
        eapply (b_cond _ IH); [exact Hb|exact H|exact Hr|eapply sim_ws1; eauto|now apply lsim_l]. }
      destruct (sim_tok _ _ _ _ _ _ Ew Hs Hlv) as (ws & u & l2' & -> & W & Wc & Hu & Htu & Hs' & Hs2).
      destruct (cond_skip bs Hb ws n2 acc2 (u :: l2') W Wc) as [E|(n' & E)]; rewrite E; [apply rsim_fuel|].
      assert (Ha2 : lsim acc1 (acc2 ++ map T ws)) by now apply lsim_r. revert Ha2. generalize (acc2 ++ map T ws). clear E Ha acc2. intros acc2 Ha.
      destruct n' as [|n']; [apply rsim_fuel|]. cbn [cond_loop].
      pose proof (sim_flags2 _ _ _ _ _ _ Hs2 Hlv) as (Hcm2 & Hoo2 & _ & _).
      rewrite Hu, Hcm2, Hoo2. rewrite Hcm, Hoo in H. rewrite <- (tsim_break _ _ _ _ Htu), <- !(tsim_tt _ _ _ _ Htu), <- (tsim_kwarg_in _ _ _ _ Htu), <- (tsim_upper _ _ _ Htu).
      destruct (should_break t bs); [injection H as <- <-; now apply rsim_ok|].
      assert (Hcb : bsok (bs ++ [kwbreaker cond_words])) by (apply bsok_app; auto; now apply bsok_kw).
      destruct (is_tt LEFT_PAREN t).
      + apply bindr_ok in H as ([sub r] & E & H).
        assert (Hnr : live r) by (eapply live_suf; [|exact Hr]; eapply s_cond; exact H).
        eapply bind_nr; [eapply (b_paren _ IH); [exact Ew|exact E|exact Hnr|exact Hu|exact Htu|exact Hs']|].
        intros x2 m2 E2 Hx Hm. eapply (b_cond _ IH); [exact Hb|exact H|exact Hr|exact Hm|now apply lsim_node].
      + destruct (kwarg_in t cond_words).
        * apply bindr_ok in H as ([sub r] & E & H). destruct (_ <=? _)%nat eqn:El; [discriminate|].
          assert (Hnr : live r) by (eapply live_suf; [|exact Hr]; eapply s_cond; exact H).
          eapply bind_nr; [eapply (b_kw _ IH); [apply bp_cond|apply wf_cond|exact Hcb|exact Ew|exact E|exact Hnr|exact Hu|exact Htu|exact Hs']|].
          intros x2 m2 E2 Hx Hm. rewrite <- (sim_consumed ctx R1 R2 t l1 r u l2' m2), El; auto; [|eapply s_kw; [apply wf_cond|exact E]|eapply s_kw; [apply wf_cond|exact E2]].
          eapply (b_cond _ IH); [exact Hb|exact H|exact Hr|exact Hm|now apply lsim_node].
        * apply bindr_ok in H as ([sub r] & E & H).
          assert (Hnr : live r) by (eapply live_suf; [|exact Hr]; eapply s_cond; exact H).
          eapply bind_nr; [eapply (b_posg _ IH); [exact Hcb|exact E|exact Hnr|exact Hs2]|].
          intros x2 m2 E2 Hx Hm. eapply (b_cond _ IH); [exact Hb|exact H|exact Hr|exact Hm|now apply lsim_node].
    - (* kwgroup *)
      intros w p bs t l1 x r1 Hp Hwp Hb Ew H Hr n2 u l2 Hu Htu Hs. destruct n2 as [|n2]; [apply nres_fuel|]. cbn [kwgroup] in H |- *.
      rewrite <- (tsim_upper _ _ _ Htu). destruct (negb _); [discriminate|].
      assert (Hlv : live l1).
      { destruct (take_ws l1) as [w1 r0] eqn:E1. apply bindr_ok in H as ([sub r'] & E & H). assert (r' = r1) by (destruct (_ <? _)%nat; injection H; auto). subst r'.
        eapply live_suf; [|exact Hr]. eapply suf_trans; [eapply (s_call _ false); [exact Hwp|discriminate|exact E]|]. eapply take_ws_suf; exact E1. }
      destruct (take_ws l1) as [w1 r0] eqn:E1. destruct (take_ws l2) as [w2 r2] eqn:E2.
      destruct (take_ws_sim _ _ _ _ _ _ _ _ _ Hs Hlv E1 E2) as (Hw & Hs0 & Hl0).
      apply bindr_ok in H as ([sub r'] & E & H).
      assert (Hh1 : match r0 with t :: _ => is_ws t = false | nil => True end) by (apply take_ws_split in E1; destruct E1 as (? & _ & _ & _ & ?); auto).
      assert (Hh2 : match r2 with t :: _ => is_ws t = false | nil => True end) by (apply take_ws_split in E2; destruct E2 as (? & _ & _ & _ & ?); auto).
      assert (r' = r1) by (destruct (_ <? _)%nat; injection H; auto). subst r'.
      eapply bind_nn; [eapply (b_call _ IH false); [exact Hp|exact Hwp|discriminate|exact Hb|exact E|exact Hr|exact Hs0]|].
      intros x2 m2 Ec2 Hx Hm.
      pose proof (s_call _ _ _ _ _ _ _ _ Hwp ltac:(discriminate) E) as S1. pose proof (s_call _ _ _ _ _ _ _ _ Hwp ltac:(discriminate) Ec2) as S2.
      assert (El : (List.length r1 <? List.length r0)%nat = (List.length m2 <? List.length r2)%nat).
      { pose proof (sim_nil _ _ _ _ _ Hs0 Hl0) as Hn2.
        destruct r0 as [|t0 r0]; [destruct (live_nil _ Hl0)|]. destruct r2 as [|u0 r2]; [now destruct Hn2|].
        pose proof (sim_consumed ctx R1 R2 t0 r0 r1 u0 r2 m2 Hh1 Hh2 Hs0 Hl0 Hm S1 S2) as El.
        rewrite (Nat.ltb_antisym _ (List.length r1)), (Nat.ltb_antisym _ (List.length m2)). now rewrite El. }
      rewrite <- El. injection H as <-.
      apply nres_ok; auto. apply nsim_wrap. apply ls_n; [apply ls_t; [auto|apply ls_nil]|]. apply lsim_app; auto.
      destruct (_ <? _)%nat; [|apply ls_nil]. apply (lsim_node ctx nil nil); auto. apply ls_nil.
    - (* paren *)
      intros t l1 x r1 Ew H Hr n2 u l2 Hu Htu Hs. destruct n2 as [|n2]; [apply nres_fuel|]. cbn [paren] in H |- *.
      rewrite <- (tsim_tt _ _ _ _ Htu). destruct (negb _); [discriminate|].
      apply bindr_ok in H as ([sub r] & E & H).
      destruct r as [|t2 r]; [discriminate|]. destruct (is_tt RIGHT_PAREN t2) eqn:Ep; [|discriminate]. cbn [negb] in H.
      assert (Hw2 : is_ws t2 = false) by (unfold is_tt in Ep; unfold is_ws; destruct (tt t2); try discriminate Ep; reflexivity).
      assert (Hlr : live r).
      { destruct (consume_trailing ctx r) as [tr q] eqn:Etr. apply (live_trail _ _ _ _ _ Etr). injection H as _ <-. exact Hr. }
      assert (Hn2 : live (t2 :: r)) by (eapply live_suf; [apply suf_tl|exact Hlr]).
      eapply bind_nn; [eapply (b_call _ IH false); [apply bp_cond|apply wf_cond|discriminate|apply bsok_paren|exact E|exact Hn2|exact Hs]|].
      intros x2 m2 Ec2 Hx Hm.
      (* the conditional group stops at the parenthesis, not before blanks *)
      destruct (sim_tok _ _ _ _ _ _ Hw2 Hm Hn2) as (ws & u2 & m2' & -> & W & Wc & Hu2 & Htu2 & Hm' & Hm2).
      assert (ws = nil).
      { destruct ws as [|w ws]; auto. exfalso. cbn [forallb] in W. apply andb_prop in W as [W _].
        pose proof (calm_flags _ _ Wc) as (_ & _ & _ & Hsp).
        apply cond_stops in Ec2. unfold stops in Ec2; cbn [app] in Ec2. rewrite (bsok_paren w W (Hsp W)) in Ec2. discriminate. }
      subst ws. cbn [app]. rewrite <- (tsim_tt _ _ _ _ Htu2), Ep. cbn [negb].
      rewrite (sim_trail1 _ _ _ _ _ Hm' Hlr) in H. rewrite (sim_trail2 _ _ _ _ _ Hm' Hlr).
      injection H as <- <-. apply nres_ok; auto. apply nsim_wrap. cbn [app].
      apply ls_n; [apply ls_t; [auto|apply ls_nil]|]. destruct Hx as (k & cs & ds & -> & -> & Hx). apply ls_n; auto.
      apply ls_n; [apply ls_t; [auto|apply ls_nil]|]. apply ls_nil.
    - (* seq_items *)
      intros aw items lp bs nested acc1 l1 a1 r1 Hi Ho Hwo Hb H Hr n2 acc2 l2 Hs Ha Haw.
      assert (Hlv : live l1) by (eapply live_suf; [eapply s_seq; [exact Hwo|exact H]|exact Hr]).
      destruct n2 as [|n2]; [apply rsim_fuel|]. cbn [seq_items] in H |- *.
      destruct items as [|[| |sp extra must] items].
      + destruct lp as [[keep step]|]; [|injection H as <- <-; now apply rsim_ok]. eapply (b_gl _ IH); eauto.
      + destruct (take_ws l1) as [w1 r0] eqn:E1. destruct (take_ws l2) as [w2 r2] eqn:E2.
        destruct (take_ws_sim _ _ _ _ _ _ _ _ _ Hs Hlv E1 E2) as (Hw & Hs0 & Hl0). cbn [items_ok] in Hi.
        eapply (b_seq _ IH); [exact Hi|exact Ho|exact Hwo|exact Hb|exact H|exact Hr|exact Hs0|now apply lsim_app|].
        intros _. apply take_ws_split in E1 as (? & _ & _ & _ & ?). apply take_ws_split in E2 as (? & _ & _ & _ & ?). auto.
      + rewrite (sim_wsc1 _ _ Hs Hlv) in H. rewrite (sim_wsc2 _ _ Hs Hlv).
        cbn [bindr] in H |- *.
        destruct (take_ws l1) as [w1 r0] eqn:E1. destruct (take_ws l2) as [w2 r2] eqn:E2.
        destruct (take_ws_sim _ _ _ _ _ _ _ _ _ Hs Hlv E1 E2) as (Hw & Hs0 & Hl0). cbn [items_ok] in Hi.
        eapply (b_seq _ IH); [exact Hi|exact Ho|exact Hwo|exact Hb|exact H|exact Hr|exact Hs0|now apply lsim_app|].
        intros _. apply take_ws_split in E1 as (? & _ & _ & _ & ?). apply take_ws_split in E2 as (? & _ & _ & _ & ?). auto.
      + cbn [items_ok] in Hi. apply andb_prop in Hi as [Hi Hi3]. apply andb_prop in Hi as [Hi1 Hi2].
        apply bindr_ok in H as ([sub r] & E & H). destruct (must && _)%bool eqn:Em; [discriminate|].
        assert (Hnr : live r) by (eapply live_suf; [|exact Hr]; eapply s_seq; [exact Hwo|exact H]).
        eapply bind_nr; [eapply (b_posg _ IH); [|exact E|exact Hnr|exact Hs]|].
        { apply bsok_app; auto. now apply bsok_kws. }
        intros x2 m2 E2 Hx Hm.
        assert (Em2 : (must && (List.length l2 <=? List.length m2)%nat)%bool = false).
        { destruct must; [|reflexivity]. cbn [negb orb andb] in *. destruct (Haw Hi2) as [Hh1 Hh2].
          pose proof (s_posg _ _ _ _ _ _ _ E) as S1. pose proof (s_posg _ _ _ _ _ _ _ E2) as S2.
          pose proof (sim_nil _ _ _ _ _ Hs Hlv) as Hn2.
          destruct l1 as [|t l1]; [destruct (live_nil _ Hlv)|]. destruct l2 as [|u l2]; [now destruct Hn2|].
          now rewrite <- (sim_consumed ctx R1 R2 t l1 r u l2 m2 Hh1 Hh2 Hs Hlv Hm S1 S2). }
        rewrite Em2. eapply (b_seq _ IH); [exact Hi3|exact Ho|exact Hwo|exact Hb|exact H|exact Hr|exact Hm|now apply lsim_node|discriminate].
    - (* gloop *)
      intros keep step bs nested acc1 l1 a1 r1 Ho Hwo Hb H Hr n2 acc2 l2 Hs Ha.
      assert (Hlv : live l1) by (eapply live_suf; [eapply s_gl; [exact Hwo|exact H]|exact Hr]).
      cbn [gloop] in H. destruct l1 as [|t l1]; [injection H as <- <-; destruct (live_nil _ Hr)|].
      pose proof (sim_flags1 _ _ _ _ _ _ Hs Hlv) as (Hcm & Hoo & _ & Hsp).
      destruct (is_ws t) eqn:Ew.
      { rewrite (Hb t Ew (Hsp eq_refl)) in H.
        eapply (b_gl _ IH); [exact Ho|exact Hwo|exact Hb|exact H|exact Hr|eapply sim_ws1; eauto|now apply lsim_l]. }
      destruct (sim_tok _ _ _ _ _ _ Ew Hs Hlv) as (ws & u & l2' & -> & W & Wc & Hu & Htu & Hs' & Hs2).
      destruct (gl_skip keep step bs nested Hb ws n2 acc2 (u :: l2') W Wc) as [E|(n' & E)]; rewrite E; [apply rsim_fuel|].
      assert (Ha2 : lsim acc1 (acc2 ++ map T ws)) by now apply lsim_r. revert Ha2. generalize (acc2 ++ map T ws). clear E Ha acc2. intros acc2 Ha.
      destruct n' as [|n']; [apply rsim_fuel|]. cbn [gloop].
      pose proof (sim_flags2 _ _ _ _ _ _ Hs2 Hlv) as (Hcm2 & Hoo2 & _ & _).
      rewrite Hu, Hcm2. rewrite Hcm in H. cbn [andb] in H |- *. rewrite <- (tsim_break _ _ _ _ Htu).
      destruct (should_break t bs); [injection H as <- <-; now apply rsim_ok|].
      apply bindr_ok in H as ([sub r] & E & H). destruct (_ <=? _)%nat eqn:El; [discriminate|].
      assert (Hnr : live r) by (eapply live_suf; [|exact Hr]; eapply s_gl; [exact Hwo|exact H]).
      inversion Ho as [|keep' step' Ho1 Ho2 Ho3]; subst. inversion Hwo as [|keep' step' Hwo1]; subst.
      assert (Hlt : live l1).
      { eapply live_suf; [|exact Hnr]. eapply suf_neq; [|intros Er; rewrite Er, Nat.leb_refl in El; discriminate].
        destruct (step acc1 (t :: l1)) as [w p extra chk|sp extra push tags|fl extra] eqn:Est; apply bindr_ok in E as ([sub' r'] & E & E3).
        - specialize (Hwo1 _ _ _ _ _ _ Est). destruct (chk sub' r'); [discriminate|]. injection E3 as _ ->. eapply s_kw; eauto.
        - injection E3 as _ ->. eapply s_posg; eauto.
        - injection E3 as _ ->. eapply flag_suf; eauto. }
      rewrite <- (Ho3 acc1 acc2 t u l1 l2' Ha Ew Hu Hs2 Htu Hs' Hlt).
      specialize (Ho1 acc1 (t :: l1)). specialize (Ho2 acc1 (t :: l1)). specialize (Hwo1 acc1 (t :: l1)).
      assert (Hgo : forall x2 m2, nsim sub x2 -> sim r m2 -> suf r (t :: l1) -> suf m2 (u :: l2') ->
        rsim (if (List.length (u :: l2') <=? List.length m2)%nat then Err AssertionErr else gloop n' ctx keep step bs nested (acc2 ++ [x2]) m2) a1 r1).
      { intros x2 m2 Hx Hm S1 S2. rewrite <- (sim_consumed ctx R1 R2 t l1 r u l2' m2), El; auto.
        eapply (b_gl _ IH); [exact Ho|exact Hwo|exact Hb|exact H|exact Hr|exact Hm|now apply lsim_node]. }
      destruct (step acc1 (t :: l1)) as [w p extra chk|sp extra push tags|fl extra] eqn:Est.
      + destruct Ho2 as [Hex Hchk]. specialize (Ho1 _ _ _ _ eq_refl). specialize (Hwo1 _ _ _ _ eq_refl).
        apply bindr_ok in E as ([sub' r'] & E & E3). destruct (chk sub' r') eqn:Ec; [discriminate|]. injection E3 as -> ->.
        assert (Hnres : nres (kwgroup n' ctx w p (bs ++ map kwbreaker extra) (u :: l2')) sub r).
        { eapply (b_kw _ IH); [exact Ho1|exact Hwo1|apply bsok_app; auto; now apply bsok_kws|exact Ew|exact E|exact Hnr|exact Hu|exact Htu|exact Hs']. }
        destruct Hnres as [Ef|(x2 & m2 & Ef & Hx & Hm)]; rewrite Ef; [apply rsim_fuel|]. cbn [bindr].
        rewrite <- (Hchk sub x2 r m2 Hx Hm Hnr), Ec. cbn [bindr]. apply Hgo; auto; [eapply s_kw; [exact Hwo1|exact E]|eapply s_kw; [exact Hwo1|exact Ef]].
      + apply bindr_ok in E as ([sub' r'] & E & E3). injection E3 as <- ->.
        assert (Hnres : nres (pos_group n' ctx sp (bs ++ map kwbreaker extra) (push || nested) (u :: l2')) sub' r).
        { eapply (b_posg _ IH); [apply bsok_app; auto; now apply bsok_kws|exact E|exact Hnr|exact Hs2]. }
        destruct Hnres as [Ef|(x2 & m2 & Ef & Hx & Hm)]; rewrite Ef; [apply rsim_fuel|]. cbn [bindr].
        apply Hgo; auto; [now apply add_tags_sim|eapply s_posg; exact E|eapply s_posg; exact Ef].
      + apply bindr_ok in E as ([a r'] & E & E3). injection E3 as <- ->.
        assert (Hnres : rsim (flag_loop (S (List.length (u :: l2'))) ctx fl (bs ++ map kwbreaker extra) nil (u :: l2')) a r).
        { eapply flag_sim; [apply bsok_app; auto; now apply bsok_kws|exact E|exact Hnr|exact Hs2|apply ls_nil]. }
        destruct Hnres as [Ef|(x2 & m2 & Ef & Hx & Hm)]; rewrite Ef; [apply rsim_fuel|]. cbn [bindr].
        apply Hgo; auto; [now apply nsim_wrap|eapply flag_suf; exact E|eapply flag_suf; exact Ef].
  Qed.
End Same.
