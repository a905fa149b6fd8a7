(** * OutSame: where the comments outside statements stand *)
From Verif Require Import Base Regex Lex TextOps TextProofs Tree Parse ParseProofs ParseTerm PropParse
  CmdSpec StdSpecs StdDb NamesShape PropLintChecks ParseShape WordShape ParseBlank ParseSame BodySame.
From Coq Require Import Permutation.

Notation nows := ParseBlank.nows (only parsing).
Definition quiet (l : list token) : bool := forallb (fun t => negb (is_comment t)) l.
Lemma nows_app a b : nows (a ++ b) = nows a ++ nows b. Proof. apply filter_app. Qed.
Lemma quiet_sem l : quiet l = true -> no_onoff l -> semantics l = nows l.
Proof.
  induction l as [|t l IH]; [reflexivity|]. intros H Ho. unfold quiet in H. cbn [forallb] in H. apply andb_prop in H as [H1 H2]. inversion Ho; subst.
  cbn [semantics filter nows]. fold (semantics l) (nows l). rewrite IH by auto.
  replace (ParseBlank.nonws t) with (is_semantic t); [reflexivity|]. apply negb_true_iff in H1.
  unfold is_semantic, ParseBlank.nonws, is_ws. unfold is_comment in H1. unfold is_onoff in *. destruct (tt t); try discriminate; reflexivity.
Qed.
Lemma onoff_app a b : no_onoff (a ++ b) <-> no_onoff a /\ no_onoff b.
Proof. apply Forall_app. Qed.

(** ** The leaves of a tree are the tokens, but for blanks *)
Section Leaves.
  Variable ctx : pctx.
  Hypothesis Hwf : wfctx true ctx.
  Definition keeps (l r : list token) (x : list pnode) : Prop := exists u, l = u ++ r /\ nows (flats x) = nows u.
  Lemma keeps_trans l m r x y : keeps l m x -> keeps m r y -> keeps l r (x ++ y).
  Proof.
    intros (u & -> & Hu) (v & -> & Hv). exists (u ++ v). split; [now rewrite app_assoc|].
    unfold flats in *. now rewrite flat_map_app, !nows_app, Hu, Hv.
  Qed.
  Lemma keeps_Q l r x : Q eq l r x -> keeps l r x.
  Proof. intros (u & -> & Hu). exists u. split; auto. now rewrite Hu. Qed.
  Lemma keeps_wrap k l r x : keeps l r x -> keeps l r [N k x].
  Proof. intros (u & -> & Hu). exists u. split; auto. now rewrite flats1. Qed.
  Lemma outside_stmt s cs : outside (N (KStatement s) cs) = forallb quiet_node (upto_rp cs). Proof. reflexivity. Qed.

  Lemma statement_keeps n l x r : statement n ctx l = Ok (x, r) -> outside x = true -> no_onoff l -> keeps l r [x].
  Proof.
    unfold statement. intros H Hout Ho. destruct l as [|t l1]; [discriminate|].
    destruct (take_ws l1) as [w1 r0] eqn:E1. apply take_ws_split in E1 as (ws1 & -> & -> & W1 & Hh1).
    destruct r0 as [|lp r0]; [discriminate|]. destruct (is_tt LEFT_PAREN lp) eqn:Elp; [|discriminate]. cbn [negb] in H.
    destruct (take_ws r0) as [v1 q1] eqn:F1. apply take_ws_split in F1 as (vs1 & -> & -> & V1 & _).
    apply bindr_ok in H as ([args r3] & E & H). apply bindr_ok in H as ([tl r4] & Et & H).
    destruct r4 as [|rp r5]; [discriminate|]. destruct (consume_trailing ctx r5) as [tr r6] eqn:Etr. injection H as <- <-.
    assert (Ho1 : no_onoff q1).
    { inversion Ho as [|? ? _ H]; subst. apply onoff_app in H as [_ H]. inversion H as [|? ? _ H']; subst. now apply onoff_app in H'. }
    destruct (call_used _ Hwf _ _ _ _ _ Ho1 E) as (used & Eq1 & HP & HS).
    assert (Hq : quiet_node args = true /\ forallb quiet_node tl = true).
    { assert (Hk : match args with N KRParen _ => False | _ => True end).
      { destruct n as [|n1]; [discriminate|]. cbn [call] in E. clear -E.
        repeat match type of E with
        | match ?p with PStd _ _ => _ | _ => _ end = _ => destruct p
        | (let '(_, _) := ?x in _) = _ => destruct x
        | bindr _ _ = _ => apply bindr_ok in E as ([? ?] & _ & E)
        | Ok _ = Ok _ => injection E as <- <-; exact I
        | Err _ = _ => discriminate
        end.
        destruct n1 as [|n1]; [discriminate|]. cbn [pos_group] in E. destruct (take_ws q1). apply bindr_ok in E as ([? ?] & _ & E). injection E as <- <-. exact I. }
      rewrite outside_stmt in Hout. cbn [upto_rp forallb] in Hout. apply andb_prop in Hout as [_ Hout].
      rewrite (upto_app (map T ws1)), forallb_app in Hout by apply quiet_Ts. apply andb_prop in Hout as [_ Hout]. cbn [app upto_rp forallb] in Hout. apply andb_prop in Hout as [_ Hout].
      rewrite (upto_app (map T vs1)), forallb_app in Hout by apply quiet_Ts. apply andb_prop in Hout as [_ Hout]. cbn [app] in Hout.
      assert (Hx : quiet_node args && forallb quiet_node (upto_rp (tl ++ N KRParen [T rp] :: tr)) = true).
      { cbn [upto_rp] in Hout. destruct args as [z|k cs]; [exact Hout|]. destruct k; try exact Hout. contradiction. }
      apply andb_prop in Hx as [Hx1 Hx2]. split; auto. rewrite upto_app, forallb_app in Hx2; [now apply andb_prop in Hx2|].
      clear -Et. revert Et. generalize (S (List.length r3)). intros f. revert r3 tl rp r5. induction f as [|f IH]; intros l a rp r H; [discriminate|]. cbn [stmt_tail] in H. destruct l as [|t l]; [discriminate|].
      destruct (is_tt RIGHT_PAREN t); [injection H as <- <- <-; constructor|]. destruct (is_ws t); [apply bindr_ok in H as ([a' r'] & E & H); injection H as <- ->; constructor; eauto; exact I|].
      destruct (is_tt COMMENT t); [|discriminate]. apply bindr_ok in H as ([c r1] & Ec & H). apply bindr_ok in H as ([a' r'] & E & H). injection H as <- ->. constructor; eauto.
      unfold consume_comment in Ec. destruct (tmem _ _); [injection Ec as <- <-; exact I|]. destruct (cloop _ _ _) as [[|x y] z]; [discriminate|]. injection Ec as <- <-. exact I. }
    destruct Hq as [Hqa Hqt].
    destruct (tail_split _ _ _ _ Hqt Et) as (ws & rp' & r5' & Er4 & Hrp & -> & -> & Wt). injection Er4 as <- <-.
    apply (consume_trailing_Q eq (@eq_refl _) ltac:(intros; congruence)) in Etr as (u & -> & Hu).
    exists (t :: ws1 ++ lp :: vs1 ++ used ++ ws ++ rp :: u). split.
    - rewrite Eq1. cbn [app]. f_equal. rewrite <- app_assoc. f_equal. cbn [app]. f_equal. rewrite <- !app_assoc. reflexivity.
    - assert (Hn : nows (flat args) = nows used).
      { rewrite <- (quiet_sem (flat args)), <- (quiet_sem used); auto.
        - unfold quiet. apply forallb_forall. intros z Hz. unfold quiet_node in Hqa. rewrite forallb_forall in Hqa. apply Hqa. eapply Permutation_in; eauto.
        - rewrite Eq1 in Ho1. now apply onoff_app in Ho1.
        - rewrite Eq1 in Ho1. apply onoff_app in Ho1 as [Ho1 _]. unfold no_onoff in *. rewrite Forall_forall in *. intros z Hz. apply Ho1.
          eapply Permutation_in; [apply Permutation_sym|]; eauto. }
      rewrite flats1. unfold flats. cbn [flat_map flat app]. rewrite !flat_map_app. fold (flats (map T ws1)). rewrite flats_T. cbn [app flat_map flat].
      rewrite !flat_map_app. cbn [flat_map flat app]. fold (flats (map T vs1)). rewrite flats_T. rewrite !flat_map_app. fold (flats (map T ws)). rewrite flats_T. cbn [flat_map flat app].
      fold (flats tr). rewrite <- Hu.
      change (t :: ws1 ++ lp :: vs1 ++ flat args ++ ws ++ rp :: u) with ([t] ++ ws1 ++ [lp] ++ vs1 ++ flat args ++ ws ++ rp :: u).
      change (t :: ws1 ++ lp :: vs1 ++ used ++ ws ++ rp :: u) with ([t] ++ ws1 ++ [lp] ++ vs1 ++ used ++ ws ++ rp :: u).
      rewrite !nows_app, Hn. reflexivity.
  Qed.
  Lemma keeps_onoff l r x : keeps l r x -> no_onoff l -> no_onoff r.
  Proof. intros (u & -> & _) H. now apply onoff_app in H. Qed.
  Lemma keeps_bom l r x : keeps l r x -> no_bom l -> no_bom r.
  Proof. intros (u & -> & _) H. unfold no_bom in *. now apply Forall_app in H. Qed.
  Lemma keeps_one l x r t : l = t :: r -> flats [x] = [t] -> keeps l r [x].
  Proof. intros -> E. exists [t]. split; [reflexivity|]. now rewrite E. Qed.

  Lemma body_keeps n :
    (forall bset acc l a r, body_loop n ctx bset acc l = Ok (a, r) -> forallb outside a = true -> no_onoff l -> no_bom l ->
       exists new, a = acc ++ new /\ keeps l r new)
    /\ (forall l x r, flow n ctx l = Ok (x, r) -> outside x = true -> no_onoff l -> no_bom l -> keeps l r [x])
    /\ (forall acc l a r, if_loop n ctx acc l = Ok (a, r) -> forallb outside a = true -> no_onoff l -> no_bom l ->
       exists new, a = acc ++ new /\ keeps l r new).
  Proof.
    induction n as [|m (IHb & IHf & IHi)]; [split; [|split]; intros; discriminate|].
    split; [|split].
    - intros bset acc l a r H Hout Ho Hb. cbn [body_loop] in H.
      assert (Hgo : forall x l', keeps l l' [x] -> body_loop m ctx bset (acc ++ [x]) l' = Ok (a, r) -> exists new, a = acc ++ new /\ keeps l r new).
      { intros x l' Hk Hx. destruct (IHb _ _ _ _ _ Hx Hout (keeps_onoff _ _ _ Hk Ho) (keeps_bom _ _ _ Hk Hb)) as (new & -> & Hn).
        exists (x :: new). split; [now rewrite <- app_assoc|]. exact (keeps_trans _ _ _ [x] new Hk Hn). }
      assert (Hsub : forall x l', body_loop m ctx bset (acc ++ [x]) l' = Ok (a, r) -> outside x = true).
      { intros x l' Hx. apply (proj1 (body_acc _ Hwf _)) in Hx as (new & ->). rewrite !forallb_app in Hout. cbn [forallb] in Hout. rewrite !andb_true_iff in Hout. tauto. }
      destruct l as [|t l]; [injection H as <- <-; exists nil; rewrite app_nil_r; split; auto; exists nil; auto|].
      destruct (is_ws t) eqn:Ew.
      { destruct (take_ws (t :: l)) as [w1 r0] eqn:E1. apply take_ws_split in E1 as (ws & E & -> & W & _).
        eapply Hgo; [|exact H]. rewrite E. exists ws. split; auto. now rewrite flats1, flats_T. }
      destruct (is_tt COMMENT t).
      { apply bindr_ok in H as ([c r0] & E & H). eapply Hgo; [|exact H]. apply keeps_Q, (consume_comment_Q eq (@eq_refl _) ltac:(intros; congruence)), E. }
      destruct (is_onoff t) eqn:Eo; [inversion Ho; subst; congruence|].
      destruct (is_tt BRACKET_COMMENT t).
      { apply bindr_ok in H as ([c r0] & E & H). eapply Hgo; [|exact H]. apply keeps_Q, (consume_comment_Q eq (@eq_refl _) ltac:(intros; congruence)), E. }
      destruct (is_tt WORD t).
      + destruct (smem _ bset); [injection H as <- <-; exists nil; rewrite app_nil_r; split; auto; exists nil; auto|].
        destruct (smem _ flow_names); apply bindr_ok in H as ([sub r0] & E & H).
        * eapply Hgo; [|exact H]. apply IHf; eauto.
        * eapply Hgo; [|exact H]. eapply statement_keeps; eauto.
      + destruct (is_tt ATWORD t).
        * apply bindr_ok in H as ([sub r0] & E & H). eapply Hgo; [|exact H]. unfold atword_statement in E.
          destruct (consume_trailing ctx l) as [tr q] eqn:Et. injection E as <- <-.
          apply keeps_wrap. apply (keeps_trans _ l q [N KAtWord [T t]] tr); [eapply keeps_one; reflexivity|].
          apply keeps_Q, (consume_trailing_Q eq (@eq_refl _) ltac:(intros; congruence)) with (ctx := ctx), Et.
        * destruct (is_tt BYTEORDER_MARK t) eqn:Eb; [|discriminate]. inversion Hb as [|? ? Hn _]; subst. unfold is_tt in Eb. apply ttype_eqb_eq in Eb. contradiction.
    - intros l x r H Hout Ho Hb. cbn [flow] in H. destruct l as [|t l]; [discriminate|].
      destruct (seqb _ $"IF").
      + apply bindr_ok in H as ([a q] & E & H). injection H as <- <-. destruct (IHi _ _ _ _ E Hout Ho Hb) as (new & -> & Hk). now apply keeps_wrap.
      + apply bindr_ok in H as ([op q1] & E1 & H). apply bindr_ok in H as ([bd q2] & E2 & H). apply bindr_ok in H as ([cl q3] & E3 & H).
        injection H as <- <-. change (forallb outside [op; N KBody bd; cl] = true) in Hout. cbn [forallb] in Hout. rewrite !andb_true_iff in Hout. destruct Hout as (O1 & O2 & O3 & _).
        pose proof (statement_keeps _ _ _ _ E1 O1 Ho) as K1.
        destruct (IHb _ _ _ _ _ E2 O2 (keeps_onoff _ _ _ K1 Ho) (keeps_bom _ _ _ K1 Hb)) as (new & En & K2). cbn [app] in En. subst new.
        pose proof (statement_keeps _ _ _ _ E3 O3 (keeps_onoff _ _ _ K2 (keeps_onoff _ _ _ K1 Ho))) as K3.
        apply keeps_wrap. apply (keeps_trans _ q1 _ [op] [N KBody bd; cl] K1). apply (keeps_trans _ q2 _ [N KBody bd] [cl]); auto. now apply keeps_wrap.
    - intros acc l a r H Hout Ho Hb. cbn [if_loop] in H. destruct l as [|t l]; [injection H as <- <-; exists nil; rewrite app_nil_r; split; auto; exists nil; auto|].
      destruct (seqb _ $"ENDIF").
      + apply bindr_ok in H as ([cl q3] & E3 & H). injection H as <- <-. rewrite forallb_app in Hout. cbn [forallb] in Hout. rewrite !andb_true_iff in Hout.
        exists [cl]. split; auto. eapply statement_keeps; eauto; tauto.
      + apply bindr_ok in H as ([op q1] & E1 & H). apply bindr_ok in H as ([bd q2] & E2 & H).
        assert (Hs : outside op = true /\ forallb outside bd = true).
        { apply (proj2 (body_acc _ Hwf _)) in H as (new & ->). rewrite !forallb_app in Hout. cbn [forallb outside] in Hout. rewrite !andb_true_iff in Hout. tauto. }
        destruct Hs as [O1 O2].
        pose proof (statement_keeps _ _ _ _ E1 O1 Ho) as K1.
        destruct (IHb _ _ _ _ _ E2 O2 (keeps_onoff _ _ _ K1 Ho) (keeps_bom _ _ _ K1 Hb)) as (new & En & K2). cbn [app] in En. subst new.
        destruct (IHi _ _ _ _ H Hout (keeps_onoff _ _ _ K2 (keeps_onoff _ _ _ K1 Ho)) (keeps_bom _ _ _ K2 (keeps_bom _ _ _ K1 Hb))) as (new & -> & K3).
        exists ([op; N KBody bd] ++ new). split; [now rewrite app_assoc|]. apply (keeps_trans _ q2); auto.
        apply (keeps_trans _ q1 _ [op] [N KBody bd]); auto. now apply keeps_wrap.
  Qed.
  Theorem parse_keeps toks tree : parse ctx toks = Ok tree -> outside tree = true -> no_onoff toks -> no_bom (strip_bom_tok toks) ->
    nows (flat tree) = nows (strip_bom_tok toks).
  Proof.
    unfold parse. intros H Hout Ho Hb. apply bindr_ok in H as ([a r] & E & H). injection H as <-.
    assert (Ho' : no_onoff (strip_bom_tok toks)).
    { destruct toks as [|t l]; auto. unfold strip_bom_tok. destruct (is_tt BYTEORDER_MARK t); auto. now inversion Ho. }
    assert (E' : exists n, body_loop n ctx nil nil (strip_bom_tok toks) = Ok (a, r)).
    { destruct toks as [|t l]; [eauto|]. unfold strip_bom_tok. destruct (is_tt BYTEORDER_MARK t) eqn:Et; [|eauto]. rewrite parse_fuel_S, body_bom in E by auto. eauto. }
    destruct E' as (n & E'). pose proof (body_all _ _ _ _ _ _ E') as ->.
    destruct (proj1 (body_keeps n) _ _ _ _ _ E' Hout Ho' Hb) as (new & -> & u & Eu & Hn). rewrite app_nil_r in Eu. rewrite Eu. exact Hn.
  Qed.
End Leaves.

(** ** Trees without comments *)
Lemma quiet_out : forall x, quiet (flat x) = true -> outside x = true.
Proof.
  fix IH 1. intros [t|k cs]; [reflexivity|]. change (flat (N k cs)) with (flats cs). intros H. cbn [outside].
  assert (G : forallb outside cs = true).
  { clear k. induction cs as [|x cs IHl]; [reflexivity|]. unfold flats, quiet in H. cbn [flat_map] in H. rewrite forallb_app in H. apply andb_prop in H as [H1 H2].
    cbn [forallb]. rewrite (IH x H1). now apply IHl. }
  assert (G2 : forallb quiet_node (upto_rp cs) = true).
  { clear k G. induction cs as [|x cs IHl]; [reflexivity|]. unfold flats, quiet in H. cbn [flat_map] in H. rewrite forallb_app in H. apply andb_prop in H as [H1 H2].
    cbn [upto_rp]. destruct x as [t|k cs']; [cbn [forallb]; unfold quiet_node at 1; rewrite H1; now apply IHl|].
    destruct k; try (cbn [forallb]; unfold quiet_node at 1; rewrite H1; now apply IHl). reflexivity. }
  destruct k; auto.
Qed.
Lemma csim_lsim ctx a b : csim ctx a b -> quiet (flats a) = true -> quiet (flats b) = true -> lsim ctx a b.
Proof.
  assert (G : forall x, cblank x -> quiet (flat x) = true -> blankn x).
  { intros x [H|(k & cs & -> & _ & H)] Hq; auto. exfalso. apply existsb_exists in H as (z & Hz & Hc). change (flat (N (KComment k) cs)) with (flats cs) in Hq.
    unfold quiet in Hq. rewrite forallb_forall in Hq. specialize (Hq _ Hz). rewrite Hc in Hq. discriminate. }
  induction 1 as [|x a b Hx H IH|y a b Hy H IH|t u a b Ht H IH|k cs ds a b Hc IHc H IH]; unfold flats, quiet in *; cbn [flat_map]; rewrite ?forallb_app; intros Ha Hb.
  - apply ls_nil.
  - apply andb_prop in Ha as [A1 A2]. apply ls_l; auto.
  - apply andb_prop in Hb as [B1 B2]. apply ls_r; auto.
  - apply andb_prop in Ha as [A1 A2]. apply andb_prop in Hb as [B1 B2]. apply ls_t; auto.
  - apply andb_prop in Ha as [A1 A2]. apply andb_prop in Hb as [B1 B2]. apply ls_n; auto.
Qed.
Lemma ncsim_nsim ctx x y : ncsim ctx x y -> quiet (flat x) = true -> quiet (flat y) = true -> nsim ctx x y.
Proof. intros (k & cs & ds & -> & -> & H) Hx Hy. exists k, cs, ds. repeat split; auto. now apply csim_lsim. Qed.

(** ** Token lists *)
(** blanks do not matter *)
Lemma tcs_blanks ctx a : forall b, Forall (fun t => is_ws t = true -> calmt t = true) a -> Forall (fun t => is_ws t = true -> calmt t = true) b ->
  tcs ctx (nows a) (nows b) -> tcs ctx a b.
Proof.
  assert (Gr : forall b l, Forall (fun t => is_ws t = true -> calmt t = true) b -> tcs ctx l (nows b) -> tcs ctx l b).
  { assert (Gw : forall b, exists ws b', b = ws ++ b' /\ forallb is_ws ws = true /\ nows b = nows b' /\ match b' with t :: _ => is_ws t = false | nil => True end).
    { induction b as [|t b (ws & b' & -> & W & E & Hb)]; [exists nil, nil; auto|]. destruct (is_ws t) eqn:Et.
      - exists (t :: ws), b'. cbn [forallb app]. rewrite Et, nows_w; auto.
      - exists nil, (t :: ws ++ b'). auto. }
    intros b l Hb H. remember (nows b) as q eqn:Eq. revert b Hb Eq.
    induction H as [|w' a' b' W C H IH|w' a' b' W C H IH|t u a' b' W C C' Ht H IH|c a' b' Hc H IH|c d a' b' Hc Hd H IH]; intros b Hb Eq;
      try (now (constructor; auto)).
    - destruct (Gw b) as (ws & b' & -> & Wb & E & Hh). rewrite E in Eq. apply Forall_app in Hb as [Hb1 Hb2].
      assert (b' = nil) by (destruct b' as [|t b']; auto; rewrite nows_t in Eq; auto; discriminate). subst b'.
      apply tcs_addr; auto; [|constructor]. unfold calm. rewrite forallb_forall in *. rewrite Forall_forall in Hb1. auto.
    - exfalso. destruct (Gw b) as (ws & c & -> & Wb & E & Hh). rewrite E in Eq. destruct c as [|t c]; [discriminate|]. rewrite nows_t in Eq by auto. injection Eq as -> _. congruence.
    - destruct (Gw b) as (ws & c & -> & Wb & E & Hh). rewrite E in Eq. apply Forall_app in Hb as [Hb1 Hb2]. destruct c as [|z c]; [discriminate|]. rewrite nows_t in Eq by auto. injection Eq as -> ->.
      inversion Hb2; subst. apply tcs_addr; auto; [unfold calm; rewrite forallb_forall in *; rewrite Forall_forall in Hb1; auto|]. apply tc_t; auto.
    - destruct (Gw b) as (ws & e & -> & Wb & E & Hh). rewrite E in Eq. apply Forall_app in Hb as [Hb1 Hb2]. destruct e as [|z e]; [discriminate|]. rewrite nows_t in Eq by auto. injection Eq as -> ->.
      inversion Hb2; subst. apply tcs_addr; auto; [unfold calm; rewrite forallb_forall in *; rewrite Forall_forall in Hb1; auto|]. apply tc_cr; auto. }
  assert (Gl : forall a l, Forall (fun t => is_ws t = true -> calmt t = true) a -> tcs ctx (nows a) l -> tcs ctx a l).
  { induction a0 as [|t a0 IH]; intros l Ha H; auto. inversion Ha as [|? ? Ht Ha']; subst. destruct (is_ws t) eqn:Et.
    - rewrite nows_w in H by auto. apply tc_l; auto.
    - rewrite nows_t in H by auto. remember (t :: nows a0) as q eqn:Eq. revert Eq.
      induction H as [|w' a' b' W C H IHt|w' a' b' W C H IHt|t' u a' b' W C C' Htu H IHt|c a' b' Hc H IHt|c d a' b' Hc Hd H IHt]; intros Eq; try discriminate.
      + injection Eq as -> ->. congruence.
      + apply tc_r; auto.
      + injection Eq as -> ->. apply tc_t; auto.
      + injection Eq as -> ->. apply tc_cl; auto.
      + injection Eq as -> ->. apply tc_cr; auto. }
  intros b Ha Hb H. apply Gl; [exact Ha|]. apply Gr; [exact Hb|exact H].
Qed.
(** files that differ in blanks only *)
Lemma blank_tcs ctx a b : calm a = true -> calm b = true -> Forall2 (tsim ctx) (nows a) (nows b) -> tcs ctx a b.
Proof.
  intros Ha Hb F. apply tcs_blanks.
  - apply Forall_forall. intros t Ht _. unfold calm in Ha. rewrite forallb_forall in Ha. auto.
  - apply Forall_forall. intros t Ht _. unfold calm in Hb. rewrite forallb_forall in Hb. auto.
  - assert (Ga : Forall (fun t => is_ws t = false /\ calmt t = true) (nows a)).
    { apply Forall_forall. intros t Ht. apply filter_In in Ht as [H1 H2]. unfold calm in Ha. rewrite forallb_forall in Ha. split; auto. now apply negb_true_iff in H2. }
    assert (Gb : Forall (fun t => calmt t = true) (nows b)).
    { apply Forall_forall. intros t Ht. apply filter_In in Ht as [H1 H2]. unfold calm in Hb. rewrite forallb_forall in Hb. auto. }
    revert Ga Gb. clear -F. induction F as [|t u x y Ht F IH]; intros Ga Gb; [constructor|]. inversion Ga as [|? ? [A1 A2] A3]; subst. inversion Gb; subst. apply tc_t; auto.
Qed.
