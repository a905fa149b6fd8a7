(** * PropGen: cmake-genparsers (C82, C83, C84) *)
From Verif Require Import Base Regex Lex LexProofs LexClass TextOps Tree Parse CmdSpec StdSpecs StdDb PropStd PropSpec Layout Markup Pipeline
  NamesShape LintDb Lint PropLintText PropDemo Genparsers.

(** ** The reference pattern *)
Lemma star_words x y : rel (RStar (RChr wordc)) x y -> exists w, rest x = w ++ rest y /\ forallb wordc w = true /\ cap y = cap x.
Proof.
  intros H. remember (RStar (RChr wordc)) as r eqn:Er. induction H; try discriminate; injection Er as ->.
  - exists nil. auto.
  - destruct (IHrel2 eq_refl) as (w & A & B & C). apply rel_chr in H as (c & D & E & F). exists (c :: w). cbn [app forallb]. rewrite D, A, E, B, C, F. auto.
Qed.
Lemma ref_shape pv s y : rmatch ref_re pv s = Some y ->
  exists w, s = [cDOL; cLC] ++ w ++ cRC :: rest y /\ w <> nil /\ forallb wordc w = true /\ cap y = w.
Proof.
  intros H. apply rmatch_sound in H. unfold ref_re in H. cbn [RSeqs] in H.
  apply rel_seq in H as (x1 & H1 & H). apply rel_seq in H as (x2 & H2 & H). apply rel_seq in H as (x3 & H3 & H4).
  apply rel_C in H1 as (R1 & _ & C1). apply rel_C in H2 as (R2 & _ & C2). apply rel_C in H4 as (R4 & _ & C4). cbn [rest cap] in *.
  apply rel_grp_inv in H3 as (x4 & Hp & ->). cbn [rest cap] in *. unfold RPlus in Hp. apply rel_seq in Hp as (z & P1 & P2).
  apply rel_chr in P1 as (c & A & B & _). apply star_words in P2 as (w & A2 & B2 & _).
  exists (c :: w). rewrite R1, R2, A, A2, R4. split; [cbn [app]; reflexivity|]. split; [discriminate|]. cbn [forallb]. rewrite B, B2. split; auto.
  rewrite C4, A, A2, R4. cbn [List.length]. rewrite app_length. cbn [List.length].
  replace (S (List.length w + S (List.length (rest y))) - S (List.length (rest y)))%nat with (List.length (c :: w)) by (cbn; lia).
  change (c :: w ++ cRC :: rest y) with ((c :: w) ++ cRC :: rest y). now rewrite firstn_app, firstn_all, Nat.sub_diag, firstn_O, app_nil_r.
Qed.
Lemma rel_words w : forallb wordc w = true -> forall pv s cp, exists pv', rel (RStar (RChr wordc)) (St pv (w ++ s) cp) (St pv' s cp).
Proof.
  induction w as [|c w IH]; intros H pv s cp; [exists pv; constructor|]. cbn [forallb] in H. apply andb_prop in H as [H1 H2].
  destruct (IH H2 (Some c) s cp) as [pv' G]. exists pv'. cbn [app]. eapply rl_star1; [constructor; exact H1|cbn [rest List.length]; lia|exact G].
Qed.
Lemma words_cut a b x y : forallb wordc a = true -> forallb wordc b = true -> a ++ cRC :: x = b ++ cRC :: y -> a = b /\ x = y.
Proof.
  revert b. induction a as [|c a IH]; intros [|d b] Ha Hb H; cbn [app forallb] in *.
  - injection H as ->. auto.
  - injection H as <- _. discriminate.
  - injection H as -> _. discriminate.
  - injection H as -> H. apply andb_prop in Ha as [_ Ha]. apply andb_prop in Hb as [_ Hb]. destruct (IH _ Ha Hb H) as [-> ->]. auto.
Qed.
Lemma ref_match pv w s : w <> nil -> forallb wordc w = true ->
  exists y, rmatch ref_re pv ([cDOL; cLC] ++ w ++ cRC :: s) = Some y /\ rest y = s /\ cap y = w.
Proof.
  intros Hn Hw. destruct w as [|c w]; [contradiction|]. cbn [forallb] in Hw. pose proof Hw as Hw0. apply andb_prop in Hw as [Hc Hw].
  destruct (rel_words w Hw (Some c) (cRC :: s) nil) as [pv' G].
  assert (R : exists z, rel ref_re (St pv ([cDOL; cLC] ++ (c :: w) ++ cRC :: s) nil) z).
  { eexists. unfold ref_re. cbn [RSeqs app]. econstructor; [constructor; reflexivity|]. econstructor; [constructor; reflexivity|]. econstructor; [apply rl_grp|].
    - unfold RPlus. econstructor; [constructor; exact Hc|exact G].
    - cbn [prev rest]. constructor. reflexivity. }
  destruct R as [z R]. apply (m_complete _ _ _ Some) in R; [|discriminate]. unfold rmatch in *. destruct (m ref_re _ Some) as [y|] eqn:E; [|contradiction].
  exists y. split; auto. apply ref_shape in E as (w' & E1 & _ & E3 & E4). cbn [app] in E1. injection E1 as E1.
  change (c :: w ++ cRC :: s) with ((c :: w) ++ cRC :: s) in E1. apply words_cut in E1 as [<- <-]; auto.
Qed.
(** ** What a text stands for *)
(** Outside references a dollar sign is followed by a character that is neither an
    opening brace nor a dollar sign, as in generator expressions. *)
Definition tame (c : chr) : Prop := c <> cLC /\ c <> cDOL.
Inductive expand (v : str -> str) : str -> str -> Prop :=
| ex_nil : expand v nil nil
| ex_chr c s r : c <> cDOL -> expand v s r -> expand v (c :: s) (c :: r)
| ex_dollar c s r : tame c -> expand v (c :: s) r -> expand v (cDOL :: c :: s) (cDOL :: r)
| ex_ref w s r : w <> nil -> forallb wordc w = true -> expand v s r -> expand v ([cDOL; cLC] ++ w ++ cRC :: s) (v w ++ r).
Inductive calm : str -> Prop :=
| ca_nil : calm nil
| ca_chr c s : c <> cDOL -> calm s -> calm (c :: s)
| ca_dollar c s : tame c -> calm (c :: s) -> calm (cDOL :: c :: s).
Lemma calm_app a b : calm a -> calm b -> calm (a ++ b).
Proof. intros H Hb. induction H; cbn [app]; [exact Hb|now constructor|]. cbn [app] in IHcalm. now constructor. Qed.
Lemma calm_search s : calm s -> forall pv, rsearch ref_re pv s = None.
Proof.
  assert (K : forall pv s, (forall w r, s <> [cDOL; cLC] ++ w ++ cRC :: r) -> rmatch ref_re pv s = None).
  { intros pv s0 H. destruct (rmatch ref_re pv s0) as [y|] eqn:E; auto. apply ref_shape in E as (w & E & _). exfalso. eapply H. exact E. }
  intros H. induction H as [|c s Hc H IH|c s [Hc Hd] H IH]; intros pv.
  - cbn [rsearch]. rewrite K; auto. intros w r E. discriminate.
  - cbn [rsearch]. rewrite K; auto. intros w r E. cbn [app] in E. injection E as -> _. contradiction.
  - cbn [rsearch]. rewrite K; [apply (IH (Some cDOL))|]. intros w r E. cbn [app] in E. injection E as -> _. contradiction.
Qed.
Lemma expand_calm v s r : expand v s r -> (forall w, calm (v w)) -> calm r.
Proof.
  intros H Hv. induction H as [|c s r Hc H IH|c s r [Hc Hd] H IH|w s r Hn Hw H IH]; [constructor|now constructor| |apply calm_app; auto].
  inversion H; subst; try contradiction. now constructor.
Qed.
Lemma expand_sub v s r : expand v s r -> forall n pv, (List.length s <= n)%nat -> re_subf ref_re (fun y => v (cap y)) n pv s = r.
Proof.
  assert (K : forall pv s, (forall w r, s <> [cDOL; cLC] ++ w ++ cRC :: r) -> rmatch ref_re pv s = None).
  { intros pv s0 H. destruct (rmatch ref_re pv s0) as [y|] eqn:E; auto. apply ref_shape in E as (w & E & _). exfalso. eapply H. exact E. }
  intros H. induction H as [|c s r Hc H IH|c s r [Hc Hd] H IH|w s r Hn Hw H IH]; intros n pv Hl.
  - destruct n; reflexivity.
  - destruct n; cbn [List.length] in Hl; [lia|]. cbn [re_subf]. rewrite K; [f_equal; apply IH; lia|]. intros w r0 E. cbn [app] in E. injection E as -> _. contradiction.
  - destruct n; cbn [List.length] in Hl; [lia|]. cbn [re_subf]. rewrite K; [f_equal; apply IH; cbn [List.length]; lia|]. intros w r0 E. cbn [app] in E. injection E as -> _. contradiction.
  - destruct (ref_match pv w s Hn Hw) as (y & E1 & E2 & E3). rewrite app_length in Hl. destruct n; cbn [List.length] in Hl; [lia|].
    remember ([cDOL; cLC] ++ w ++ cRC :: s) as t eqn:Et. destruct t as [|c t]; [discriminate|]. cbn [re_subf]. rewrite E1, E2, E3. f_equal. apply IH.
    rewrite app_length in Hl. cbn [List.length] in Hl. lia.
Qed.
(** ** The loop of replace_varrefs *)
Lemma replace_none fuel v s : rsearch ref_re None s = None -> replace_varrefs fuel v s = Ok s.
Proof. intros H. destruct fuel; cbn [replace_varrefs]; now rewrite H. Qed.
Definition calm_vars (v : vars) : Prop := forall w, calm (var_value v w).
Lemma replace_expand fuel v s r : calm_vars v -> (1 <= fuel)%nat -> expand (var_value v) s r -> replace_varrefs fuel v s = Ok r.
Proof.
  intros Hv Hf He. destruct fuel as [|n]; [lia|]. pose proof (expand_sub _ _ _ He (List.length s) None (Nat.le_refl _)) as E.
  pose proof (calm_search _ (expand_calm _ _ _ He Hv) None) as Hr. cbn [replace_varrefs]. destruct (rsearch ref_re None s) eqn:Es.
  - unfold sub_refs. rewrite E. now apply replace_none.
  - f_equal. clear He Hr. revert r E. generalize (List.length s). revert Es. generalize (None : option chr). induction s as [|c s IH]; intros pv Es k r E; [destruct k; auto|].
    cbn [rsearch] in Es. destruct (rmatch ref_re pv (c :: s)) eqn:Em; [discriminate|]. destruct k; [auto|]. cbn [re_subf] in E. rewrite Em in E. rewrite <- E. f_equal. now apply (IH (Some c) Es k).
Qed.

(** ** C82: the loop ends when no value can be continued to a reference *)
(** the dollar signs that a longer text could make part of a reference *)
Fixpoint loose (s : str) : nat :=
  match s with
  | nil => 0%nat
  | c :: r => ((if N.eqb c cDOL then match r with nil => 1 | d :: _ => if N.eqb d cLC || N.eqb d cDOL then 1 else 0 end else 0) + loose r)%nat
  end.
Lemma loose_calm_app a b : calm a -> loose (a ++ b) = loose b.
Proof.
  intros H. induction H as [|c s Hc H IH|c s [Hc Hd] H IH]; cbn [app]; auto.
  - cbn [loose]. apply N.eqb_neq in Hc. rewrite Hc, IH. reflexivity.
  - cbn [loose app] in *. apply N.eqb_neq in Hc, Hd. rewrite Hc, Hd in *. rewrite N.eqb_refl. cbn [orb]. rewrite IH. reflexivity.
Qed.
Lemma loose_cons c a b : (loose a <= loose b)%nat -> (match a with nil => False | d :: _ => N.eqb d cLC || N.eqb d cDOL = false end \/ hd_error a = hd_error b \/ c <> cDOL \/ exists r, b = cDOL :: r) -> (loose (c :: a) <= loose (c :: b))%nat.
Proof.
  intros H G. cbn [loose]. destruct (N.eqb c cDOL) eqn:E; [|lia]. destruct G as [G|[G|[G|[r ->]]]].
  - destruct a as [|d a]; [contradiction|]. rewrite G. lia.
  - destruct a, b; try discriminate; [lia|]. injection G as ->. destruct (N.eqb c1 cLC || N.eqb c1 cDOL); lia.
  - apply N.eqb_eq in E. contradiction.
  - assert (X : (match a with nil => 1 | d :: _ => if N.eqb d cLC || N.eqb d cDOL then 1 else 0 end <= 1)%nat) by (destruct a as [|d a]; [lia|]; destruct (_ || _); lia). change (N.eqb cDOL cLC || N.eqb cDOL cDOL) with true. cbv iota. lia.
Qed.
Lemma word_loose w s : forallb wordc w = true -> loose (w ++ cRC :: s) = loose s.
Proof.
  induction w as [|c w IH]; intros H; [reflexivity|]. cbn [forallb] in H. apply andb_prop in H as [H1 H2]. cbn [app loose]. rewrite IH by auto.
  destruct (N.eqb c cDOL) eqn:E; auto. apply N.eqb_eq in E. subst. discriminate.
Qed.
Lemma sub_loose f n : (forall w, calm (f w)) -> forall pv s, (List.length s <= n)%nat ->
  (loose (re_subf ref_re (fun y => f (cap y)) n pv s) <= loose s)%nat
  /\ (rsearch ref_re pv s <> None -> (loose (re_subf ref_re (fun y => f (cap y)) n pv s) < loose s)%nat).
Proof.
  intros Hf. assert (N0 : forall pv, rsearch ref_re pv nil = None) by (intros pv; apply calm_search; constructor).
  induction n as [|n IH]; intros pv s Hl.
  - destruct s; [|cbn in Hl; lia]. split; [cbn; lia|]. intros H. rewrite N0 in H. contradiction.
  - destruct s as [|c s]; [split; [cbn; lia|]; intros H; rewrite N0 in H; contradiction|]. cbn [re_subf rsearch].
    destruct (rmatch ref_re pv (c :: s)) as [y|] eqn:E.
    + apply ref_shape in E as (w & E & _ & Hw & _). assert (L : loose (c :: s) = S (loose (rest y))).
      { rewrite E. cbn [app]. cbn [loose]. change (N.eqb cDOL cDOL) with true. change (N.eqb cLC cLC || N.eqb cLC cDOL) with true. change (N.eqb cLC cDOL) with false. cbn match. cbn. now rewrite word_loose. }
      assert (Hr : (List.length (rest y) <= n)%nat).
      { apply (f_equal (@List.length _)) in E. cbn [app List.length] in E. rewrite app_length in E. cbn [List.length] in E, Hl. lia. }
      destruct (IH (prev y) (rest y) Hr) as [A _]. rewrite loose_calm_app by apply Hf. lia.
    + assert (Hr : (List.length s <= n)%nat) by (cbn in Hl; lia). destruct (IH (Some c) s Hr) as [A B].
      assert (G : let a := re_subf ref_re (fun y => f (cap y)) n (Some c) s in hd_error a = hd_error s \/ exists r, s = cDOL :: r).
      { cbv zeta. destruct s as [|d s]; [destruct n; now left|]. destruct n; [cbn in Hr; lia|]. cbn [re_subf]. destruct (rmatch ref_re (Some c) (d :: s)) as [y|] eqn:E2; [|now left].
        right. apply ref_shape in E2 as (w & E2 & _). cbn [app] in E2. injection E2 as -> _. eauto. }
      cbv zeta in G. set (a := re_subf _ _ _ _ s) in *. assert (C : (loose (c :: a) <= loose (c :: s))%nat) by (apply loose_cons; tauto). split; [exact C|].
      intros H. specialize (B H). clear -B G. cbn [loose]. destruct (N.eqb c cDOL); [|lia]. destruct G as [G|[r ->]].
      * destruct a, s; try discriminate; cbn [loose] in *; [lia|]. injection G as ->. destruct (_ || _); lia.
      * assert (X : (match a with nil => 1 | d :: _ => if N.eqb d cLC || N.eqb d cDOL then 1 else 0 end <= 1)%nat) by (destruct a as [|d a]; [lia|]; destruct (_ || _); lia). change (N.eqb cDOL cLC || N.eqb cDOL cDOL) with true. cbv iota. lia.
Qed.
Lemma replace_ends v : calm_vars v -> forall fuel s, (loose s <= fuel)%nat -> exists r, replace_varrefs fuel v s = Ok r /\ rsearch ref_re None r = None.
Proof.
  intros Hv. assert (S1 : forall s, rsearch ref_re None s <> None -> (loose (sub_refs v s) < loose s)%nat).
  { intros s H. unfold sub_refs. now apply sub_loose. }
  induction fuel as [|n IH]; intros s H; cbn [replace_varrefs]; destruct (rsearch ref_re None s) eqn:E; eauto.
  - assert (X : rsearch ref_re None s <> None) by congruence. apply S1 in X. lia.
  - apply IH. assert (X : rsearch ref_re None s <> None) by congruence. apply S1 in X. lia.
Qed.

(** ** Statements of a tree *)
Inductive below (n : pnode) : pnode -> Prop :=
| be_self : below n n
| be_kid k cs m : In m cs -> below n m -> below n (N k cs).
Lemma number_in {A} (l : list A) : forall i p, In p (number i l) -> In (snd p) l.
Proof. induction l as [|a l IH]; intros i p H; [contradiction|]. cbn [number] in H. destruct H as [<-|H]; [now left|right; eauto]. Qed.
Lemma below_trans a b c : below a b -> below b c -> below a c.
Proof. intros H1 H2. induction H2; auto. econstructor; eauto. Qed.
Lemma sons_below e x : In x (sons e) -> below (fst x) (fst e).
Proof.
  unfold sons. intros H. apply in_map_iff in H as (p & <- & H). apply number_in in H. cbn [fst]. destruct (fst e) as [t|k cs]; [contradiction|].
  eapply be_kid; [exact H|constructor].
Qed.
Lemma glevels_below names fuel : forall l x, In x (glevels names fuel l) -> exists e, In e l /\ below (fst x) (fst e).
Proof.
  induction fuel as [|f IH]; intros l x H; [contradiction|]. cbn [glevels] in H. apply in_app_or in H as [H|H]; [exists x; split; [auto|constructor]|].
  apply IH in H as (e & H1 & H2). apply in_flat_map in H1 as (e0 & H0 & H1). exists e0. split; auto. eapply below_trans; [exact H2|].
  unfold gsons in H1. destruct (yielded names (fst e0)); [contradiction|]. apply filter_In in H1 as [H1 _]. now apply sons_below.
Qed.
Lemma find_below names n x : In x (find_statements names n) -> below (fst x) n /\ yielded names (fst x) = true.
Proof.
  unfold find_statements. intros H. apply filter_In in H as [H1 H2]. split; auto. apply glevels_below in H1 as (e & [<-|[]] & H1). exact H1.
Qed.
Lemma glevels_parent names fuel : forall l x, In x (glevels names fuel l) ->
  In x l \/ exists y par i, In y l /\ snd x = Some (par, i) /\ below par (fst y).
Proof.
  induction fuel as [|f IH]; intros l x H; [contradiction|]. cbn [glevels] in H. apply in_app_or in H as [H|H]; [now left|]. right.
  assert (S0 : forall y, In y (flat_map (gsons names) l) -> exists e, In e l /\ In y (sons e)).
  { intros y Hy. apply in_flat_map in Hy as (e & He & Hy). unfold gsons in Hy. destruct (yielded names (fst e)); [contradiction|]. apply filter_In in Hy as [Hy _]. eauto. }
  apply IH in H as [H|(y & par & i & Hy & H1 & H2)].
  - apply S0 in H as (e & He & Hy). unfold sons in Hy. apply in_map_iff in Hy as (p & <- & _). cbn [snd]. exists e, (fst e), (fst p). split; [auto|]. split; [auto|constructor].
  - apply S0 in Hy as (e & He & Hy). apply sons_below in Hy. exists e, par, i. split; [auto|]. split; [auto|]. eapply below_trans; eauto.
Qed.
Lemma find_parent names n x par i : In x (find_statements names n) -> snd x = Some (par, i) -> below par n.
Proof.
  unfold find_statements. intros H E. apply filter_In in H as [H _]. apply glevels_parent in H as [[<-|[]]|(y & par' & i' & [<-|[]] & H1 & H2)]; [discriminate|].
  rewrite H1 in E. now injection E as <- _.
Qed.
(** ** C82: the command ends *)
(** A text in which dollar signs occur in simple references or harmlessly. *)
Definition simple (s : str) : Prop := exists r, expand (fun _ => nil) s r.
Lemma simple_expand v s : simple s -> exists r, expand v s r.
Proof.
  intros [r H]. induction H as [|c s r Hc H [r' IH]|c s r Ht H [r' IH]|w s r Hn Hw H [r' IH]].
  - eexists. constructor.
  - eexists. apply ex_chr; eauto.
  - eexists. apply ex_dollar; eauto.
  - eexists. apply ex_ref; eauto.
Qed.
Lemma expand_app v a ra b rb : expand v a ra -> expand v b rb -> expand v (a ++ b) (ra ++ rb).
Proof.
  intros H Hb. induction H as [|c s r Hc H IH|c s r Ht H IH|w s r Hn Hw H IH]; cbn [app] in *; auto.
  - now constructor.
  - now constructor.
  - rewrite <- !app_assoc. cbn [app]. change (cDOL :: cLC :: w ++ cRC :: s ++ b) with ([cDOL; cLC] ++ w ++ cRC :: (s ++ b)). now constructor.
Qed.
Lemma expand_join v l rs : Forall2 (expand v) l rs -> expand v (join $";" l) (join $";" rs).
Proof.
  intros H. induction H as [|a r l rs Ha H IH]; [constructor|]. cbn [join]. destruct H as [|a2 r2 l2 rs2 Ha2 H2]; [exact Ha|].
  apply expand_app; auto. apply expand_app; auto. constructor; [discriminate|constructor].
Qed.
Lemma value_set w n x v : var_value (vset n x v) w = if seqb w n then x else var_value v w.
Proof.
  unfold var_value, vset. cbn [vget]. destruct (seqb w n) eqn:E; auto. enough (G : vget w (vdel n v) = vget w v) by now rewrite G.
  induction v as [|[k y] v IH]; auto. unfold vdel in *. cbn [filter fst]. destruct (seqb n k) eqn:E2; cbn [negb vget]; [|now rewrite IH].
  apply seqb_eq in E2. subst k. now rewrite E.
Qed.
Lemma value_del w n v : var_value (vdel n v) w = if seqb w n then nil else var_value v w.
Proof.
  unfold var_value. induction v as [|[k y] v IH]; [now destruct (seqb w n)|]. unfold vdel in *. cbn [filter fst vget]. destruct (seqb n k) eqn:E2; cbn [negb vget].
  - apply seqb_eq in E2. subst k. rewrite IH. now destruct (seqb w n).
  - destruct (seqb w k) eqn:E3; [|exact IH]. apply seqb_eq in E3. subst k. destruct (seqb w n) eqn:E4; auto. apply seqb_eq in E4. subst. rewrite seqb_refl in E2. discriminate.
Qed.
Lemma calm_set n x v : calm_vars v -> calm x -> calm_vars (vset n x v).
Proof. intros H Hx w. rewrite value_set. destruct (seqb w n); auto. Qed.
Lemma calm_del n v : calm_vars v -> calm_vars (vdel n v).
Proof. intros H w. rewrite value_del. destruct (seqb w n); [constructor|auto]. Qed.
Lemma calm_none : calm_vars nil. Proof. intros w. constructor. Qed.

Definition set_simple (s : pnode) : Prop :=
  seqb (funname s) $"set" = true -> forall g t, value_group (argtree s) = Some g -> In t (sem g) -> simple (unquote (spelling t)).
Lemma loose_len s : (loose s <= List.length s)%nat.
Proof. induction s as [|c [|d s] IH]; cbn [loose List.length] in *; [lia| |]; destruct (N.eqb c cDOL); try destruct (_ || _); lia. Qed.
Lemma lstrip_by_len p s : (List.length (lstrip_by p s) <= List.length s)%nat.
Proof. induction s as [|c s IH]; cbn [lstrip_by List.length]; [lia|]. destruct (p c); cbn [List.length]; lia. Qed.
Lemma unquote_len s : (List.length (unquote s) <= List.length s)%nat.
Proof.
  unfold unquote, strip_by, rstrip_by. rewrite rev_length. etransitivity; [apply lstrip_by_len|]. rewrite rev_length. apply lstrip_by_len.
Qed.
(** [fuel] turns suffice for the texts of a statement *)
Definition fits (fuel : nat) (s : pnode) : Prop := forall t, In t (flat (argtree s)) -> (List.length (spelling t) < fuel)%nat.
Lemma sem_flat n t : In t (sem n) -> In t (flat n).
Proof. unfold sem. intros H. now apply filter_In in H as [H _]. Qed.
Lemma kid_flat m n : In m (Lint.kids n) -> forall t, In t (flat m) -> In t (flat n).
Proof.
  destruct n as [x|k cs]; [contradiction|]. cbn [Lint.kids]. intros H t Ht. change (flat (N k cs)) with (flats cs). induction cs as [|c cs IH]; [contradiction|].
  cbn [flats]. apply in_or_app. destruct H as [->|H]; [now left|right; auto].
Qed.
Lemma process_set_ends fuel s v : set_simple s -> seqb (funname s) $"set" = true -> fits fuel s -> calm_vars v ->
  (exists v', process_set fuel (argtree s) v = Ok v' /\ calm_vars v') \/ process_set fuel (argtree s) v = Err AttrErr.
Proof.
  intros Hs Hn Hf Hv. unfold process_set. destruct (Lint.set_varname (argtree s)) as [t|] eqn:Et; [|now right]. left.
  assert (Ht : In t (flat (argtree s))).
  { unfold Lint.set_varname in Et. destruct (find _ _) as [g|] eqn:Eg; [|discriminate]. apply find_some in Eg as [Eg _]. eapply kid_flat; [exact Eg|]. apply sem_flat. destruct (sem g); [discriminate|]. injection Et as ->. now left. }
  pose proof (Hf t Ht) as Hlen. destruct (replace_ends v Hv fuel (spelling t)) as (name & E & _); [pose proof (loose_len (spelling t)); lia|]. rewrite E. cbn [bindr].
  destruct (value_group (argtree s)) as [g|] eqn:Eg; [|eauto using calm_del].
  assert (G : exists rs, Forall2 (expand (var_value v)) (map (fun t => unquote (spelling t)) (sem g)) rs).
  { specialize (Hs Hn g). assert (H : forall t, In t (sem g) -> simple (unquote (spelling t))) by (intros; now apply Hs). clear -H. induction (sem g) as [|u l IH]; [exists nil; constructor|].
    destruct IH as [rs IH]; [intros; apply H; now right|]. destruct (simple_expand (var_value v) _ (H u (or_introl eq_refl))) as [r Hr]. exists (r :: rs). now constructor. }
  destruct G as [rs G]. apply expand_join in G. rewrite (replace_expand fuel v _ _ Hv ltac:(lia) G). cbn [bindr]. eexists. split; [reflexivity|].
  apply calm_set; auto. eapply expand_calm; eauto.
Qed.
Lemma defn_body_ends fuel es : forall v n sp, (forall e, In e es -> set_simple (fst e) /\ fits fuel (fst e)) -> calm_vars v -> defn_body fuel es v n sp <> OutOfFuel.
Proof.
  induction es as [|[s p] es IH]; intros v n sp H Hv; [discriminate|]. cbn [defn_body]. destruct (H (s, p) (or_introl eq_refl)) as [Hs Hf]. cbn [fst] in *.
  assert (H' : forall e, In e es -> set_simple (fst e) /\ fits fuel (fst e)) by (intros; apply H; now right).
  destruct (seqb (funname s) $"set") eqn:E.
  { destruct (process_set_ends fuel s v Hs E Hf Hv) as [(v' & E' & Hv')| ->]; [|discriminate]. rewrite E'. cbn [bindr]. now apply IH. }
  destruct (seqb (funname s) $"list"); [now apply IH|]. destruct (sem (argtree s)) as [|p0 [|a [|b [|c ts]]]] eqn:Es; try discriminate.
  assert (G : forall t, In t (sem (argtree s)) -> exists r, replace_varrefs fuel v (unquote (spelling t)) = Ok r).
  { intros t Ht. apply sem_flat, Hf in Ht. destruct (replace_ends v Hv fuel (unquote (spelling t))) as (r & E1 & _); [|eauto].
    pose proof (loose_len (unquote (spelling t))). pose proof (unquote_len (spelling t)). lia. }
  rewrite Es in G. destruct (G a) as [ra Ea]; [cbn; auto|]. destruct (G b) as [rb Eb]; [cbn; auto|]. destruct (G c) as [rc Ec]; [cbn; auto 6|].
  rewrite Ea, Eb, Ec. discriminate.
Qed.
Lemma below_flat m n : below m n -> forall t, In t (flat m) -> In t (flat n).
Proof. intros H t. induction H as [|k cs c Hc H IH]; auto. intros Ht. apply IH in Ht. eapply (kid_flat c (N k cs)); eauto. Qed.
Lemma argtree_flat s t : In t (flat (argtree s)) -> In t (flat s).
Proof.
  unfold argtree. destruct s as [x|k cs]; [contradiction|]. cbn [Lint.kids]. intros H. change (flat (N k cs)) with (flats cs).
  assert (G : forall a, argtree_in cs = Some a -> In a cs).
  { clear. induction cs as [|c cs IH]; intros a H; [discriminate|]. cbn [argtree_in] in H. destruct c as [x|k ks]; [right; auto|].
    destruct k; try (right; now apply IH). apply find_some in H as [H _]. now right. }
  destruct (argtree_in cs) as [a|] eqn:E; [|contradiction]. eapply (kid_flat a (N k cs)); [cbn; auto|exact H].
Qed.
Theorem C82_ends_partial : forall src toks tree, tokenize src = Ok toks -> parse gen_ctx toks = Ok tree ->
  (forall s, below s tree -> is_stmt s = true -> set_simple s) ->
  exists f0, forall fuel, (f0 <= fuel)%nat -> gen_file fuel src <> OutOfFuel.
Proof.
  intros src toks tree Ht Hp Hs. exists (S (list_max (map (fun t => List.length (spelling t)) (flat tree)))). intros fuel Hf. unfold gen_file. rewrite Ht. cbn [bindr]. rewrite Hp. cbn [bindr].
  assert (F : forall s, below s tree -> fits fuel s).
  { intros s Hb t Hin. apply argtree_flat in Hin. apply (below_flat _ _ Hb) in Hin.
    pose proof (proj1 (list_max_le (map (fun t => List.length (spelling t)) (flat tree)) _) (Nat.le_refl _)) as M. rewrite Forall_forall in M.
    specialize (M _ (in_map (fun t => List.length (spelling t)) _ _ Hin)). cbn beta in M. lia. }
  unfold process_tree.
  assert (G : forall es out, (forall e, In e es -> In e (find_statements [$"function"; $"macro"] tree)) -> process_all fuel es out <> OutOfFuel).
  { induction es as [|e es IH]; intros out He; [discriminate|]. cbn [process_all]. pose proof (He e (or_introl eq_refl)) as Hin.
    assert (D : process_defn fuel e <> OutOfFuel).
    { unfold process_defn. destruct (first_group (argtree (fst e))) as [[|f args]|]; try discriminate. destruct (snd e) as [[par i]|] eqn:Ee; [|discriminate].
      pose proof (find_parent _ _ _ _ _ Hin Ee) as Hpar. destruct (nth_error (kids par) 1) as [[t|k cs]|] eqn:En; try discriminate. destruct k; try discriminate.
      apply nth_error_In in En. assert (Hb : below (N KBody cs) tree).
      { eapply below_trans; [|exact Hpar]. destruct par as [t|k ps]; [contradiction|]. eapply be_kid; [exact En|constructor]. }
      assert (B : defn_body fuel (find_statements defn_names (N KBody cs)) nil (zlen args) (if negb (seqb (lower (spelling f)) (spelling f)) && negb (seqb (upper (spelling f)) (spelling f)) then Some (spelling f) else None) <> OutOfFuel).
      { apply defn_body_ends; [|exact calm_none]. intros x Hx. apply find_below in Hx as [Hx1 Hx2]. pose proof (below_trans _ _ _ Hx1 Hb) as Hx3. split; [|now apply F].
        apply Hs; auto. unfold yielded in Hx2. now apply andb_prop in Hx2 as [Hx2 _]. }
      cbv zeta. destruct (defn_body _ _ _ _ _); [discriminate|discriminate|contradiction]. }
    destruct (process_defn fuel e) as [[name g]| |]; [|discriminate|contradiction]. cbn [bindr]. apply IH. intros x Hx. apply He. now right. }
  now apply G.
Qed.
(** The hypothesis is needed: this file keeps the command busy forever. *)
Definition q (s : str) : str := [cDQ] ++ s ++ [cDQ].
Definition src_loop : str := nl
  [$"function(f)"; $"set(bq " ++ q ($"${b${q") ++ $")"; $"set(qc " ++ q ($"q}c}") ++ $")"; $"set(z " ++ q ($"${bq}c}") ++ $")"; $"endfunction()"].
Definition loop_vars : vars := [($"qc", $"q}c}"); ($"bq", $"${b${q")].
Lemma loop_forever fuel : replace_varrefs fuel loop_vars $"${bq}c}" = OutOfFuel /\ replace_varrefs fuel loop_vars $"${b${qc}" = OutOfFuel.
Proof.
  assert (A : sub_refs loop_vars $"${bq}c}" = $"${b${qc}") by (vm_compute; reflexivity). assert (B : sub_refs loop_vars $"${b${qc}" = $"${bq}c}") by (vm_compute; reflexivity).
  assert (C : exists y, rsearch ref_re None $"${bq}c}" = Some y) by (eexists; vm_compute; reflexivity). assert (D : exists y, rsearch ref_re None $"${b${qc}" = Some y) by (eexists; vm_compute; reflexivity).
  destruct C as [y C], D as [z D]. induction fuel as [|n [IH1 IH2]]; cbn [replace_varrefs]; rewrite C, D; [auto|]. rewrite A, B. auto.
Qed.
Theorem C82_ends_refuted : exists src toks tree, tokenize src = Ok toks /\ parse gen_ctx toks = Ok tree /\ forall fuel, gen_file fuel src = OutOfFuel.
Proof.
  assert (H : exists toks, tokenize src_loop = Ok toks) by (eexists; vm_compute; reflexivity). destruct H as [toks H].
  assert (Hp : exists tree, parse gen_ctx toks = Ok tree) by (vm_compute in H; injection H as <-; eexists; vm_compute; reflexivity). destruct Hp as [tree Hp].
  exists src_loop, toks, tree. split; [exact H|]. split; [exact Hp|]. intros fuel. unfold gen_file. rewrite H. cbn [bindr]. rewrite Hp. cbn [bindr].
  assert (E : exists e r, find_statements [$"function"; $"macro"] tree = e :: r /\ exists f args par i cs s1 s2 s3 r3,
    first_group (argtree (fst e)) = Some (f :: args) /\ snd e = Some (par, i) /\ nth_error (kids par) 1 = Some (N KBody cs)
    /\ find_statements defn_names (N KBody cs) = s1 :: s2 :: s3 :: r3
    /\ (seqb (funname (fst s1)) $"set" && seqb (funname (fst s2)) $"set" && seqb (funname (fst s3)) $"set") = true
    /\ process_set 0 (argtree (fst s1)) nil = Ok [($"bq", $"${b${q")] /\ process_set 0 (argtree (fst s2)) [($"bq", $"${b${q")] = Ok loop_vars
    /\ exists t g, Lint.set_varname (argtree (fst s3)) = Some t /\ spelling t = $"z" /\ value_group (argtree (fst s3)) = Some g
       /\ join $";" (map (fun t => unquote (spelling t)) (sem g)) = $"${bq}c}").
  { vm_compute in H. injection H as <-. vm_compute in Hp. injection Hp as <-. do 2 eexists. split; [vm_compute; reflexivity|].
    do 9 eexists. split; [vm_compute; reflexivity|]. split; [cbn [snd]; reflexivity|]. split; [reflexivity|]. split; [vm_compute; reflexivity|]. split; [vm_compute; reflexivity|]. split; [vm_compute; reflexivity|]. split; [vm_compute; reflexivity|].
    do 2 eexists. split; [vm_compute; reflexivity|]. split; [reflexivity|]. split; vm_compute; reflexivity. }
  destruct E as (e & r & E & f & args & par & i & cs & [s1 p1] & [s2 p2] & [s3 p3] & r3 & E1 & E2 & E3 & E4 & E5 & E6 & E7 & t & g & E8 & E9 & E10 & E11).
  cbn [fst] in *. apply andb_prop in E5 as [E5 E5c]. apply andb_prop in E5 as [E5a E5b].
  assert (M : forall a v v' , process_set 0 a v = Ok v' -> process_set fuel a v = Ok v').
  { intros a v v'. assert (R : forall s r0, replace_varrefs 0 v s = Ok r0 -> replace_varrefs fuel v s = Ok r0).
    { intros s r0. cbn [replace_varrefs]. destruct (rsearch ref_re None s) eqn:Es; [discriminate|]. intros R. injection R as <-. now apply replace_none. }
    unfold process_set. destruct (Lint.set_varname a); [|discriminate]. intros X. apply bindr_ok in X as (nm & X1 & X). rewrite (R _ _ X1). cbn [bindr].
    destruct (value_group a); [|exact X]. apply bindr_ok in X as (x & X2 & X). now rewrite (R _ _ X2). }
  unfold process_tree. rewrite E. cbn [process_all]. unfold process_defn. rewrite E1, E2, E3. cbv zeta. rewrite E4. cbn [defn_body].
  rewrite E5a, (M _ _ _ E6). cbn [bindr]. rewrite E5b, (M _ _ _ E7). cbn [bindr]. rewrite E5c. unfold process_set. rewrite E8, E9, E10, E11.
  rewrite replace_none by (vm_compute; reflexivity). cbn [bindr]. rewrite (proj1 (loop_forever fuel)). reflexivity.
Qed.
(** An ordinary definition meets the hypothesis. *)
Fixpoint subs (n : pnode) : list pnode := n :: match n with T _ => nil | N _ cs => flat_map subs cs end.
Lemma below_subs s n : below s n -> In s (subs n).
Proof. intros H. induction H as [|k cs m Hm H IH]; [destruct s; now left|]. right. apply in_flat_map. eauto. Qed.
Fixpoint simpleb (n : nat) (s : str) : bool :=
  match n with
  | O => false
  | S n =>
      match s with
      | nil => true
      | c :: r =>
          if N.eqb c cDOL then
            match r with
            | nil => false
            | d :: r2 =>
                if N.eqb d cLC then
                  match take_while wordc r2, skipn (List.length (take_while wordc r2)) r2 with
                  | _ :: _, e :: r3 => N.eqb e cRC && simpleb n r3
                  | _, _ => false
                  end
                else negb (N.eqb d cDOL) && simpleb n r
            end
          else simpleb n r
      end
  end.
Lemma take_while_app p (s : str) : s = take_while p s ++ skipn (List.length (take_while p s)) s /\ forallb p (take_while p s) = true.
Proof. induction s as [|c s [IH1 IH2]]; [auto|]. cbn [take_while]. destruct (p c) eqn:E; [|auto]. cbn [List.length skipn app forallb]. rewrite E, <- IH1. auto. Qed.
Lemma simpleb_ok n : forall s, simpleb n s = true -> simple s.
Proof.
  induction n as [|n IH]; intros s H; [discriminate|]. cbn [simpleb] in H. destruct s as [|c r]; [eexists; constructor|].
  destruct (N.eqb c cDOL) eqn:E.
  - apply N.eqb_eq in E. subst c. destruct r as [|d r2]; [discriminate|]. destruct (N.eqb d cLC) eqn:E2.
    + apply N.eqb_eq in E2. subst d. destruct (take_while_app wordc r2) as [A B]. destruct (take_while wordc r2) as [|w0 w] eqn:Ew; [discriminate|].
      destruct (skipn _ r2) as [|e r3] eqn:Er; [discriminate|]. apply andb_prop in H as [H1 H2]. apply N.eqb_eq in H1. subst e. apply IH in H2 as [o H2].
      rewrite A. eexists. change (cDOL :: cLC :: (w0 :: w) ++ cRC :: r3) with ([cDOL; cLC] ++ (w0 :: w) ++ cRC :: r3). apply ex_ref; eauto. discriminate.
    + apply andb_prop in H as [H1 H2]. apply negb_true_iff, N.eqb_neq in H1. apply N.eqb_neq in E2. apply IH in H2 as [o H2]. eexists. apply ex_dollar; [split; auto|exact H2].
  - apply N.eqb_neq in E. apply IH in H as [o H]. eexists. apply ex_chr; eauto.
Qed.
Definition set_simpleb (s : pnode) : bool :=
  implb (is_stmt s && seqb (funname s) $"set") (match value_group (argtree s) with None => true
    | Some g => forallb (fun t => simpleb (S (List.length (spelling t))) (unquote (spelling t))) (sem g) end).
Lemma set_simpleb_ok tree : forallb set_simpleb (subs tree) = true -> forall s, below s tree -> is_stmt s = true -> set_simple s.
Proof.
  intros H s Hb Hs Hn g t Hg Ht. rewrite forallb_forall in H. specialize (H _ (below_subs _ _ Hb)). unfold set_simpleb in H. rewrite Hs, Hn in H. cbn [andb implb] in H.
  rewrite Hg in H. rewrite forallb_forall in H. eapply simpleb_ok. exact (H _ Ht).
Qed.
Definition src_def : str := nl
  [$"function(MyFun a b)"; $"  set(opts FAST SLOW)"; $"  set(all " ++ q ($"${opts};$<x>") ++ $" EXACT)"; $"  message(STATUS hi)"; $"  set(dst)";
   $"  cmake_parse_arguments(ARG " ++ q ($"${all}") ++ $" " ++ q ($"dst;SRC${dst}") ++ $" " ++ q ($"SRC;DEP") ++ $" ${ARGN})"; $"  if(FAST)"; $"  endif()"; $"endfunction()"].
Example C82_ex : exists toks tree out, tokenize src_def = Ok toks /\ parse gen_ctx toks = Ok tree
  /\ (forall s, below s tree -> is_stmt s = true -> set_simple s) /\ gen_file 5 src_def = Ok out /\ out <> nil.
Proof.
  assert (H : exists toks, tokenize src_def = Ok toks) by (eexists; vm_compute; reflexivity). destruct H as [toks H].
  assert (Hp : exists tree, parse gen_ctx toks = Ok tree) by (vm_compute in H; injection H as <-; eexists; vm_compute; reflexivity). destruct Hp as [tree Hp].
  exists toks, tree. eexists. split; [exact H|]. split; [exact Hp|]. split; [|split; [vm_compute; reflexivity|discriminate]].
  apply set_simpleb_ok. vm_compute in H. injection H as <-. vm_compute in Hp. injection Hp as <-. vm_compute. reflexivity.
Qed.

(** ** C83: the generated specification lists what the function declares *)
(** The statements set, list and cmake_parse_arguments of a body, in order, when
    none of them is hidden in a nested block. *)
Definition listing (cs l : list pnode) : Prop :=
  l = filter (yielded defn_names) cs /\ forall c, In c cs -> yielded defn_names c = false -> forall s, below s c -> yielded defn_names s = false.
Definition put (env : str -> str) (n x : str) : str -> str := fun w => if seqb w n then x else env w.
(** What cmake does with such a list of statements: the three lists of words that the
    first call of cmake_parse_arguments receives. *)
Inductive declares : (str -> str) -> list pnode -> str -> str -> str -> Prop :=
| de_call env s r p a b c ts o1 o2 o3 : funname s = $"cmake_parse_arguments" -> sem (argtree s) = p :: a :: b :: c :: ts ->
    expand env (unquote (spelling a)) o1 -> expand env (unquote (spelling b)) o2 -> expand env (unquote (spelling c)) o3 ->
    declares env (s :: r) o1 o2 o3
| de_set env s r t g n xs o1 o2 o3 : funname s = $"set" -> Lint.set_varname (argtree s) = Some t -> expand env (spelling t) n ->
    value_group (argtree s) = Some g -> Forall2 (expand env) (map (fun t => unquote (spelling t)) (sem g)) xs ->
    declares (put env n (join $";" xs)) r o1 o2 o3 -> declares env (s :: r) o1 o2 o3
| de_unset env s r t n o1 o2 o3 : funname s = $"set" -> Lint.set_varname (argtree s) = Some t -> expand env (spelling t) n ->
    value_group (argtree s) = None -> declares (put env n nil) r o1 o2 o3 -> declares env (s :: r) o1 o2 o3.
(** a word of a cmake list *)
Definition listed (s w : str) : Prop := w <> nil /\ exists item, In item (split_on 59%N s) /\ w = upper (strip item).
Lemma words_listed s w : In w (words s) <-> listed s w.
Proof.
  unfold words, listed. rewrite filter_In, in_map_iff. split.
  - intros [(i & <- & Hi) H]. split; [destruct (upper (strip i)); discriminate|eauto].
  - intros [Hn (i & Hi & ->)]. split; [eauto|]. destruct (upper (strip i)); [contradiction|reflexivity].
Qed.
Lemma expand_ext v v' s r : (forall w, v w = v' w) -> expand v s r -> expand v' s r.
Proof. intros E H. induction H; try (constructor; auto; fail). rewrite E. now constructor. Qed.
Lemma declares_run fuel sp n env l o1 o2 o3 : (1 <= fuel)%nat -> declares env l o1 o2 o3 -> forall es v, map fst es = l -> calm_vars v -> (forall w, var_value v w = env w) ->
  defn_body fuel es v n sp = Ok (GSp (NStr (if n =? 0 then $"*" else dec n ++ $"+")) (Some (words o1)) (Some (kwargs_of o2 o3)) sp).
Proof.
  intros Hf H. induction H as [env s r p a b c ts o1 o2 o3 Hn Hs H1 H2 H3|env s r t g nm xs o1 o2 o3 Hn Ht Hx Hg HF H IH|env s r t nm o1 o2 o3 Hn Ht Hx Hg H IH];
    intros [|[s0 p0] es] v E Hv He; try discriminate; cbn [map fst] in E; injection E as -> E; cbn [defn_body]; rewrite Hn.
  - change (seqb $"cmake_parse_arguments" $"set") with false. change (seqb $"cmake_parse_arguments" $"list") with false. cbv iota. rewrite Hs.
    assert (X : forall w, env w = var_value v w) by (intros; symmetry; apply He).
    rewrite (replace_expand _ _ _ _ Hv Hf (expand_ext _ _ _ _ X H1)), (replace_expand _ _ _ _ Hv Hf (expand_ext _ _ _ _ X H2)), (replace_expand _ _ _ _ Hv Hf (expand_ext _ _ _ _ X H3)). reflexivity.
  - change (seqb $"set" $"set") with true. cbv iota. assert (X : forall w, env w = var_value v w) by (intros; symmetry; apply He).
    assert (J : expand (var_value v) (join $";" (map (fun t => unquote (spelling t)) (sem g))) (join $";" xs)).
    { apply expand_join. clear -HF X. induction HF; constructor; eauto using expand_ext. }
    unfold process_set. rewrite Ht, (replace_expand _ _ _ _ Hv Hf (expand_ext _ _ _ _ X Hx)). cbn [bindr]. rewrite Hg, (replace_expand _ _ _ _ Hv Hf J). cbn [bindr].
    apply IH; auto; [apply calm_set; auto; eapply expand_calm; eauto|]. intros w. rewrite value_set. unfold put. now rewrite He.
  - change (seqb $"set" $"set") with true. cbv iota. assert (X : forall w, env w = var_value v w) by (intros; symmetry; apply He).
    unfold process_set. rewrite Ht, (replace_expand _ _ _ _ Hv Hf (expand_ext _ _ _ _ X Hx)). cbn [bindr]. rewrite Hg. cbn [bindr].
    apply IH; auto; [now apply calm_del|]. intros w. rewrite value_del. unfold put. now rewrite He.
Qed.
(** the search visits a listing in order *)
Lemma glevels_none names fuel : forall l, (forall e s, In e l -> below s (fst e) -> yielded names s = false) -> filter (fun e => yielded names (fst e)) (glevels names fuel l) = nil.
Proof.
  induction fuel as [|f IH]; intros l H; [reflexivity|]. cbn [glevels]. rewrite filter_app, IH.
  - rewrite app_nil_r. induction l as [|e l IHl]; auto. cbn [filter]. rewrite (H e (fst e)); [|now left|constructor]. apply IHl. intros; eapply H; eauto. now right.
  - intros e s He Hb. apply in_flat_map in He as (e0 & H0 & He). unfold gsons in He. destruct (yielded names (fst e0)); [contradiction|].
    apply filter_In in He as [He _]. eapply H; [exact H0|]. eapply below_trans; [exact Hb|now apply sons_below].
Qed.
Lemma glevels_head names fuel : forall l, (1 <= fuel)%nat -> (forall e, In e l -> yielded names (fst e) = false -> forall s, below s (fst e) -> yielded names s = false) ->
  filter (fun e => yielded names (fst e)) (glevels names fuel l) = filter (fun e => yielded names (fst e)) l.
Proof.
  intros l Hf H. destruct fuel as [|f]; [lia|]. cbn [glevels]. rewrite filter_app, glevels_none, app_nil_r; auto.
  intros e s He Hb. apply in_flat_map in He as (e0 & H0 & He). unfold gsons in He. destruct (yielded names (fst e0)) eqn:E; [contradiction|].
  apply filter_In in He as [He _]. eapply (H e0); auto. eapply below_trans; [exact Hb|now apply sons_below].
Qed.
Lemma number_snd {A} (l : list A) : forall i, map snd (number i l) = l.
Proof. induction l as [|a l IH]; intros i; cbn [number map]; auto. cbn [snd]. now rewrite IH. Qed.
Lemma listing_found cs l : listing cs l -> map fst (find_statements defn_names (N KBody cs)) = l.
Proof.
  intros [-> H]. unfold find_statements.
  assert (F : forall e, In e (filter (fun e => match fst e with N _ _ => true | T _ => false end) (sons (N KBody cs, None))) -> In (fst e) cs).
  { intros e He. apply filter_In in He as [He _]. apply in_map_iff in He as (p & <- & Hp). cbn [fst]. now apply number_in in Hp. }
  assert (D : exists d, depth (N KBody cs) = S d /\ (cs = nil /\ d = O \/ (1 <= d)%nat)).
  { cbn [depth]. eexists. split; [reflexivity|]. destruct cs as [|c cs]; [now left|]. right. cbn [fold_right]. destruct c; cbn [depth]; lia. }
  destruct D as (d & -> & Hd). cbn [glevels app]. change (filter (fun e => yielded defn_names (fst e)) ((N KBody cs, None) :: ?l)) with (filter (fun e : entry => yielded defn_names (fst e)) l).
  replace (flat_map (gsons defn_names) [(N KBody cs, None)]) with (filter (fun e : entry => match fst e with N _ _ => true | T _ => false end) (sons (N KBody cs, None)))
    by (cbn [flat_map]; rewrite app_nil_r; reflexivity).
  destruct Hd as [[-> ->]|Hd]; [reflexivity|].
  rewrite glevels_head; auto; [|intros e He; apply H; now apply F].
  transitivity (filter (yielded defn_names) (map snd (number 0 cs))); [|now rewrite number_snd].
  unfold sons. cbn [fst Lint.kids]. clear. generalize (N KBody cs). generalize (number 0 cs). intros ps par.
  induction ps as [|[i c] ps IH]; auto. cbn [map filter snd fst]. destruct c as [t|k ks]; [exact IH|]. cbn [filter fst]. destruct (yielded defn_names (N k ks)); [|exact IH]. cbn [map fst]. now f_equal.
Qed.

(** *** The dictionaries *)
Lemma dset_last {A} n (x : A) l : NoDup (map fst l) -> NoDup (map fst (CmdSpec.dset n x l))
  /\ (forall k, In k (map fst (CmdSpec.dset n x l)) <-> k = n \/ In k (map fst l))
  /\ forall k, assoc_last k (CmdSpec.dset n x l) = if seqb k n then Some x else assoc_last k l.
Proof.
  assert (N0 : forall k (l : list (str * A)), ~ In k (map fst l) -> assoc_last k l = None).
  { intros k l0. induction l0 as [|[a b] l0 IH]; intros H; auto. cbn [map fst In] in H. cbn [assoc_last]. rewrite IH by tauto. destruct (seqb k a) eqn:E; auto. apply seqb_eq in E. subst. tauto. }
  induction l as [|[a b] l IH]; intros H.
  { cbn. repeat split; auto using NoDup_nil, NoDup_cons; try tauto. - intros [E|[]]; auto. - intros [E|[]]; auto. }
  cbn [map fst] in H. inversion H as [|? ? H1 H2]. subst. cbn [CmdSpec.dset]. destruct (seqb n a) eqn:E.
  - apply seqb_eq in E. subst a. cbn [map fst]. split; [exact H|]. split; [intros k; cbn [In]; intuition auto|]. intros k. cbn [assoc_last].
    destruct (seqb k n) eqn:E; [apply seqb_eq in E; subst; now rewrite (N0 _ _ H1)|reflexivity].
  - destruct (IH H2) as (I1 & I2 & I3). cbn [map fst]. split; [|split].
    + constructor; auto. rewrite I2. intros [->|G]; auto. rewrite seqb_refl in E. discriminate.
    + intros k. cbn [In]. rewrite I2. tauto.
    + intros k. cbn [assoc_last]. rewrite I3. destruct (seqb k n); auto.
Qed.
Lemma dset_fold (x : nargs) ws : forall l, NoDup (map fst l) ->
  NoDup (map fst (fold_left (fun d k => CmdSpec.dset k x d) ws l))
  /\ forall k, assoc_last k (fold_left (fun d k => CmdSpec.dset k x d) ws l) = if smem k ws then Some x else assoc_last k l.
Proof.
  induction ws as [|w ws IH]; intros l H; [auto|]. cbn [fold_left]. destruct (dset_last w x l H) as (H1 & _ & H2). destruct (IH _ H1) as [H3 H4]. split; auto.
  intros k. rewrite H4, H2. cbn [smem existsb]. unfold smem. destruct (existsb (seqb k) ws); [now rewrite orb_true_r|]. rewrite orb_false_r. reflexivity.
Qed.
Lemma kwargs_last one multi k : assoc_last k (kwargs_of one multi) = if smem k (words multi) then Some (NStr $"+") else if smem k (words one) then Some (NInt 1) else None.
Proof.
  unfold kwargs_of. destruct (dset_fold (NInt 1) (words one) nil (NoDup_nil _)) as [H1 H2]. destruct (dset_fold (NStr $"+") (words multi) _ H1) as [_ H4]. rewrite H4, H2. reflexivity.
Qed.
Lemma assoc_last_map {A B} (f : A -> B) k l : assoc_last k (map (fun p => (fst p, f (snd p))) l) = option_map f (assoc_last k l).
Proof. induction l as [|[a b] l IH]; auto. cbn [map fst snd assoc_last]. rewrite IH. destruct (assoc_last k l); auto. cbn [option_map]. now destruct (seqb k a). Qed.
Lemma build_kw_none k l : forall acc kw, assoc_last k l = None -> build_kw l acc = Ok kw -> cmd_lookup k kw = cmd_lookup k acc.
Proof.
  induction l as [|[k' u] l IH]; intros acc kw Ha H; [now injection H as <-|].
  cbn [assoc_last] in Ha. destruct (assoc_last k l) eqn:El; [discriminate|]. destruct (seqb k k') eqn:Ek; [discriminate|].
  destruct u as [m|u]; cbn [build_kw parse_pspec bindr] in H; [|apply bindr_ok in H as (s & _ & H)];
    apply IH in H; auto; rewrite H, (dset_cmd (fun x => x)), Ek; reflexivity.
Qed.
Lemma build_kw_scalars l : forall acc, exists kw, build_kw (map (fun p => (fst p, UKScalar (snd p))) l) acc = Ok kw.
Proof. induction l as [|[k n] l IH]; intros acc; [eexists; reflexivity|]. cbn [map fst snd build_kw parse_pspec bindr]. apply IH. Qed.
(** what is generated is accepted as a list of commands *)
Lemma generated_accepted out : exists tbl, user_table (generated out) = Ok tbl.
Proof.
  unfold user_table. enough (G : forall l acc, exists kw, add_all (generated l) acc = Ok kw) by (destruct (G out nil) as [kw E]; rewrite E; eexists; reflexivity).
  induction l as [|[n g] l IH]; intros acc; [eexists; reflexivity|]. unfold generated. cbn [map fst snd add_all]. unfold to_uspec. rewrite mk_spec_eq. cbn [parse_pspec parse_pdecl d_npargs bindr mk_pspec orb d_unknown].
  destruct (build_kw_scalars (match g_kwargs g with Some l0 => l0 | None => nil end) nil) as [kw E]. rewrite E. cbn [bindr]. apply IH.
Qed.

(** *** The search for definitions *)
Inductive chain (names : list str) : nat -> entry -> entry -> Prop :=
| ch_here e : chain names 0 e e
| ch_son d e e' x : In e' (gsons names e) -> chain names d e' x -> chain names (S d) e x.
Lemma chain_found names fuel : forall l d e x, chain names d e x -> In e l -> (d < fuel)%nat -> In x (glevels names fuel l).
Proof.
  induction fuel as [|f IH]; intros l d e x H He Hd; [lia|]. cbn [glevels]. apply in_or_app. destruct H as [e|d e e' x H1 H2]; [now left|].
  right. eapply IH; [exact H2| |lia]. apply in_flat_map. eauto.
Qed.
Lemma son_depth e x : In x (sons e) -> (depth (fst x) < depth (fst e))%nat.
Proof.
  unfold sons. intros H. apply in_map_iff in H as (p & <- & Hp). cbn [fst]. apply number_in in Hp. destruct (fst e) as [t|k cs]; [contradiction|]. cbn [Lint.kids] in Hp. cbn [depth].
  induction cs as [|c cs IH]; [contradiction|]. cbn [fold_right]. destruct Hp as [->|Hp]; [lia|]. specialize (IH Hp). lia.
Qed.
Lemma chain_depth names d e x : chain names d e x -> (d + depth (fst x) <= depth (fst e))%nat.
Proof.
  intros H. induction H as [|d e e' x H1 H2 IH]; [lia|]. unfold gsons in H1. destruct (yielded names (fst e)); [contradiction|]. apply filter_In in H1 as [H1 _]. apply son_depth in H1. lia.
Qed.
(** [n] sits in the tree and not in a statement among [names] *)
Inductive out_of (names : list str) (n : pnode) : pnode -> Prop :=
| oo_here : out_of names n n
| oo_kid k cs c : yielded names (N k cs) = false -> In c cs -> out_of names n c -> out_of names n (N k cs).
Lemma number_mem {A} (l : list A) x : forall i, In x l -> exists j, In (j, x) (number i l).
Proof. induction l as [|a l IH]; intros i H; [contradiction|]. cbn [number]. destruct H as [->|H]; [eexists; now left|]. destruct (IH (S i) H) as [j Hj]. eexists. right. exact Hj. Qed.
Lemma out_chain names k cs tree : out_of names (N k cs) tree -> forall p, exists d q, chain names d (tree, p) (N k cs, q).
Proof.
  intros H. induction H as [|k0 cs0 c Hy Hc H IH]; intros p; [exists 0%nat, p; constructor|]. destruct (number_mem cs0 c 0 Hc) as [j Hj].
  destruct (IH (Some (N k0 cs0, j))) as (d & r & G). exists (S d), r. eapply ch_son; [|exact G]. unfold gsons. cbn [fst]. rewrite Hy. apply filter_In. split.
  - unfold sons. apply in_map_iff. exists (j, c). auto.
  - cbn [fst]. destruct c; auto. inversion H.
Qed.
Lemma chain_snoc names d e x y : chain names d e x -> In y (gsons names x) -> chain names (S d) e y.
Proof. intros H Hy. induction H; [eapply ch_son; [exact Hy|constructor]|]. eapply ch_son; eauto. Qed.
Lemma opener_found names k st ks tree : out_of names (N k (st :: ks)) tree -> yielded names (N k (st :: ks)) = false -> yielded names st = true ->
  In (st, Some (N k (st :: ks), 0%nat)) (find_statements names tree).
Proof.
  intros H Hk Hs. destruct (out_chain _ _ _ _ H None) as (d & r & G). unfold find_statements. apply filter_In. split; [|exact Hs].
  assert (G' : chain names (S d) (tree, None) (st, Some (N k (st :: ks), 0%nat))).
  { eapply chain_snoc; [exact G|]. unfold gsons. cbn [fst]. rewrite Hk. apply filter_In. split; [now left|]. cbn [fst]. now destruct st. }
  eapply chain_found; [exact G'|now left|]. apply chain_depth in G'. cbn [fst] in G'. destruct st; cbn [depth] in G'; lia.
Qed.
Lemma found_parent names fuel : forall l x, In x (glevels names fuel l) -> In x l \/ exists par i, snd x = Some (par, i) /\ In (fst x) (Lint.kids par) /\ exists e, In e l /\ below par (fst e).
Proof.
  induction fuel as [|f IH]; intros l x H; [contradiction|]. cbn [glevels] in H. apply in_app_or in H as [H|H]; [now left|]. right.
  assert (S0 : forall y, In y (flat_map (gsons names) l) -> exists e, In e l /\ In y (sons e)).
  { intros y Hy. apply in_flat_map in Hy as (e & H1 & H2). exists e. split; auto. unfold gsons in H2. destruct (yielded names (fst e)); [contradiction|]. now apply filter_In in H2 as [H2 _]. }
  destruct (IH _ _ H) as [G|(par & i & G1 & G2 & e & G3 & G4)].
  - apply S0 in G as (e & He & G). unfold sons in G. apply in_map_iff in G as (p & <- & Hp). cbn [fst snd]. apply number_in in Hp. exists (fst e), (fst p). split; auto. split; auto. exists e. split; auto. constructor.
  - exists par, i. split; auto. split; auto. apply S0 in G3 as (e0 & H0 & G3). exists e0. split; auto. eapply below_trans; [exact G4|]. now apply sons_below.
Qed.

(** *** The definitions of a file *)
Definition def_names : list str := [$"function"; $"macro"].
(** a statement that opens the definition of a command *)
Definition defines (s : pnode) (f : token) (args : list token) : Prop :=
  is_stmt s = true /\ In (funname s) def_names /\ first_group (argtree s) = Some (f :: args).
(** the block is the only place where a command of that name is defined *)
Definition defined_once (tree blk st : pnode) (name : str) : Prop :=
  forall p s f args, below p tree -> In s (Lint.kids p) -> defines s f args -> lower (spelling f) = name -> p = blk /\ s = st.
Lemma process_all_keep fuel name es : forall out out', NoDup (map fst out) -> (forall e g, In e es -> process_defn fuel e <> Ok (name, g)) -> process_all fuel es out = Ok out' ->
  NoDup (map fst out') /\ assoc_last name out' = assoc_last name out.
Proof.
  induction es as [|e es IH]; intros out out' Hn Hg H; [injection H as <-; auto|]. cbn [process_all] in H. apply bindr_ok in H as ([m g] & E & H).
  destruct (startswith $"_" m); [eapply IH; eauto; intros; apply Hg; now right|]. destruct (dset_last m g out Hn) as (D1 & _ & D2).
  apply IH in H as [H1 H2]; auto; [|intros; apply Hg; now right]. split; auto. rewrite H2, D2. destruct (seqb name m) eqn:Em; auto. apply seqb_eq in Em. subst m. exfalso. eapply Hg; [now left|exact E].
Qed.
Lemma process_all_find fuel name g es : forall out out', NoDup (map fst out) -> startswith $"_" name = false ->
  (exists e, In e es /\ process_defn fuel e = Ok (name, g)) -> (forall e g', In e es -> process_defn fuel e = Ok (name, g') -> g' = g) ->
  process_all fuel es out = Ok out' -> NoDup (map fst out') /\ assoc_last name out' = Some g.
Proof.
  induction es as [|e es IH]; intros out out' Hn Hs (e0 & Hin & E0) Hu H; [contradiction|]. cbn [process_all] in H. apply bindr_ok in H as ([m g1] & E & H).
  assert (D : NoDup (map fst (if startswith $"_" m then out else CmdSpec.dset m g1 out))) by (destruct (startswith $"_" m); auto; now apply dset_last).
  destruct (existsb (fun e => match process_defn fuel e with Ok (n, _) => seqb name n | _ => false end) es) eqn:Ex.
  - apply existsb_exists in Ex as (e2 & H2 & Ex). destruct (process_defn fuel e2) as [[n g2]| |] eqn:E2; try discriminate. apply seqb_eq in Ex. subst n.
    pose proof (Hu _ _ (or_intror H2) E2) as ->. eapply IH; [exact D|exact Hs|eauto|intros ? ? Hz; apply Hu; now right|exact H].
  - assert (K : forall e g, In e es -> process_defn fuel e <> Ok (name, g)).
    { intros e2 g2 H2 E2. enough (existsb (fun e => match process_defn fuel e with Ok (n, _) => seqb name n | _ => false end) es = true) by congruence. apply existsb_exists. exists e2. split; auto. rewrite E2. apply seqb_refl. }
    destruct Hin as [->|Hin]; [|exfalso; eapply K; eauto]. rewrite E in E0. injection E0 as -> ->. rewrite Hs in *. destruct (process_all_keep _ name _ _ _ D K H) as [H1 H2]. split; auto. rewrite H2.
    destruct (dset_last name g out Hn) as (_ & _ & D2). now rewrite D2, seqb_refl.
Qed.
Lemma process_all_lower fuel es : forall out out', (forall k, In k (map fst out) -> lower k = k) -> NoDup (map fst out) -> process_all fuel es out = Ok out' -> forall k, In k (map fst out') -> lower k = k.
Proof.
  induction es as [|e es IH]; intros out out' Hl Hn H; [now injection H as <-|]. cbn [process_all] in H. apply bindr_ok in H as ([m g] & E & H).
  destruct (startswith $"_" m); [eapply IH; eauto|]. destruct (dset_last m g out Hn) as (D1 & D2 & _). eapply IH; [| |exact H]; auto.
  intros k Hk. apply D2 in Hk as [->|Hk]; auto. unfold process_defn in E. destruct (first_group _) as [[|f args]|]; try discriminate. destruct (snd e) as [[par i]|]; try discriminate.
  destruct (nth_error _ _) as [[t|[] cs]|]; try discriminate. apply bindr_ok in E as (g0 & _ & E). injection E as <- _. apply lower_lower.
Qed.
Lemma assoc_lower {A} (out : list (str * A)) name : (forall k, In k (map fst out) -> lower k = k) ->
  assoc_last name (map (fun '(k, u) => (lower k, (k, u))) out) = option_map (fun u => (name, u)) (assoc_last name out).
Proof.
  intros H. induction out as [|[a b] out IH]; auto. cbn [map assoc_last]. rewrite IH by (intros; apply H; now right). rewrite (H a) by now left.
  destruct (assoc_last name out); auto. cbn [option_map]. destruct (seqb name a) eqn:E; auto. apply seqb_eq in E. now subst.
Qed.

(** For every file: for a command defined once, whose definition sets its variables
    and calls cmake_parse_arguments outside nested blocks, the generated list is
    accepted as additional_commands, and with it the command is read with exactly
    the flags and keywords that the call declares.
    Missing from the full claim: the other ways to write the call, see below. *)
Theorem C83_declared_partial : forall fuel src toks tree out st cs rest f args l o1 o2 o3,
  tokenize src = Ok toks -> parse gen_ctx toks = Ok tree -> gen_file fuel src = Ok out -> (1 <= fuel)%nat ->
  out_of def_names (N KFlow (st :: N KBody cs :: rest)) tree ->
  defines st f args -> defined_once tree (N KFlow (st :: N KBody cs :: rest)) st (lower (spelling f)) ->
  startswith $"_" (lower (spelling f)) = false -> special (lower (spelling f)) = false ->
  listing cs l -> declares (fun _ => nil) l o1 o2 o3 ->
  exists tbl, user_table (generated out) = Ok tbl /\ forall ex vt, exists c kw,
    command_parser (std_ctx ex vt tbl) (lower (spelling f)) = PStd c kw
    /\ (forall w, (exists p, In p (cs_pargs c) /\ In w (ps_flags p)) <-> listed o1 w)
    /\ (forall w, special w = false -> listed o3 w -> exists c', kw_lookup w kw = Some (PStd c' nil) /\ cs_pargs c' = [PSpec (NStr $"+") false nil nil true None])
    /\ (forall w, special w = false -> listed o2 w -> ~ listed o3 w -> exists c', kw_lookup w kw = Some (PStd c' nil) /\ cs_pargs c' = [PSpec (NInt 1) false nil nil true None])
    /\ (forall w, ~ listed o2 w -> ~ listed o3 w -> kw_lookup w kw = None).
Proof.
  intros fuel src toks tree out st cs rest f args l o1 o2 o3 Ht Hp Hg Hf Ho (D1 & D2 & D3) Hu Hn Hsp Hl Hd.
  unfold gen_file in Hg. rewrite Ht in Hg. cbn [bindr] in Hg. rewrite Hp in Hg. cbn [bindr] in Hg. unfold process_tree in Hg. fold def_names in Hg.
  set (blk := N KFlow (st :: N KBody cs :: rest)) in *. set (name := lower (spelling f)) in *.
  assert (Hy : yielded def_names st = true) by (unfold yielded; rewrite D1; now apply smem_In).
  pose proof (opener_found def_names KFlow st (N KBody cs :: rest) tree Ho eq_refl Hy) as Hin. fold blk in Hin.
  assert (R : forall i, exists g, process_defn fuel (st, Some (blk, i)) = Ok (name, g) /\ g_flags g = Some (words o1) /\ g_kwargs g = Some (kwargs_of o2 o3)).
  { intros i. unfold process_defn. cbn [fst snd]. rewrite D3. unfold blk. cbn [Lint.kids nth_error].
    erewrite (declares_run fuel _ (zlen args) (fun _ => nil) l o1 o2 o3 Hf Hd); [|now apply listing_found|exact calm_none|reflexivity]. cbn [bindr]. eexists. split; [reflexivity|]. auto. }
  destruct (R 0%nat) as (g & R1 & R2 & R3).
  destruct (process_all_find fuel name g _ nil out (NoDup_nil _) Hn (ex_intro _ _ (conj Hin R1))) as [N1 N2]; [|exact Hg|].
  { intros [s p] g' He E'. unfold find_statements in He. apply filter_In in He as [He Hy']. cbn [fst] in Hy'. pose proof He as He0. apply found_parent in He as [He|(par & i & P1 & P2 & e & P3 & P4)].
    - destruct He as [He|[]]. injection He as <- <-. unfold process_defn in E'. cbn [fst snd] in E'. destruct (first_group (argtree tree)) as [[|f' args']|]; discriminate.
    - cbn [fst snd] in *. subst p. destruct P3 as [<-|[]]. cbn [fst] in P4. pose proof E' as E2. unfold process_defn in E2. cbn [fst snd] in E2. destruct (first_group (argtree s)) as [[|f' args']|] eqn:Efg; try discriminate.
      destruct (nth_error (Lint.kids par) 1) as [[t|[] ks]|]; try discriminate. apply bindr_ok in E2 as (g0 & _ & E2). injection E2 as Enm _.
      destruct (Hu par s f' args' P4 P2) as [-> ->]; [|exact Enm|].
      + unfold yielded in Hy'. apply andb_prop in Hy' as [Y1 Y2]. split; auto. split; [now apply smem_In|exact Efg].
      + pose proof (R i) as (g1 & Q1 & _). assert (Q : process_defn fuel (st, Some (blk, i)) = process_defn fuel (st, Some (blk, 0%nat))) by reflexivity. congruence. }
  assert (L : forall k, In k (map fst out) -> lower k = k) by (eapply process_all_lower; [| |exact Hg]; [intros ? []|constructor]).
  destruct (generated_accepted out) as [tbl Htbl]. exists tbl. split; auto. intros ex vt.
  assert (As : assoc_last name (map (fun '(k, u) => (lower k, (k, u))) (generated out)) = Some (name, to_uspec g)).
  { rewrite assoc_lower; [unfold generated; now rewrite assoc_last_map, N2|]. intros k Hk. unfold generated in Hk. rewrite map_map in Hk. cbn [fst] in Hk. now apply L. }
  unfold user_table in Htbl. apply bindr_ok in Htbl as (kws & Ha & Htbl). injection Htbl as <-. destruct (add_all_last _ _ _ _ _ Ha As) as (s & Es & Hk). cbn [fst snd] in Es.
  unfold to_uspec in Es. rewrite mk_spec_eq in Es. rewrite R2, R3 in Es. cbn [parse_pspec parse_pdecl d_npargs bindr mk_pspec orb d_unknown oget d_sortable d_tags d_flags d_legacy d_max] in Es.
  apply bindr_ok in Es as (kw & Ek & Es). injection Es as <-. eexists. exists (map (fun '(k', s') => (k', fun_parser k' s')) kw). split; [|split; [|split; [|split]]].
  - unfold command_parser. cbn [db std_ctx]. unfold with_user, get_funtree. rewrite funtree_lookup, Hk. now apply fun_parser_plain.
  - intros w. rewrite <- words_listed. cbn [cs_pargs]. split; [intros (p & [<-|[]] & Hw); exact Hw|]. intros Hw. eexists. split; [now left|exact Hw].
  - intros w Hw Hl3. apply words_listed in Hl3. apply smem_In in Hl3. assert (A : assoc_last w (map (fun p => (fst p, UKScalar (snd p))) (kwargs_of o2 o3)) = Some (UKScalar (NStr $"+"))) by now rewrite assoc_last_map, kwargs_last, Hl3.
    apply (build_kw_scalar w _ _ _ _ A) in Ek. rewrite funtree_lookup, Ek, fun_parser_plain by auto. eexists. split; reflexivity.
  - intros w Hw Hl2 Hl3. rewrite <- words_listed in Hl2, Hl3. apply smem_In in Hl2. destruct (smem w (words o3)) eqn:E3; [apply smem_In in E3; contradiction|].
    assert (A : assoc_last w (map (fun p => (fst p, UKScalar (snd p))) (kwargs_of o2 o3)) = Some (UKScalar (NInt 1))) by now rewrite assoc_last_map, kwargs_last, E3, Hl2.
    apply (build_kw_scalar w _ _ _ _ A) in Ek. rewrite funtree_lookup, Ek, fun_parser_plain by auto. eexists. split; reflexivity.
  - intros w Hl2 Hl3. rewrite <- words_listed in Hl2, Hl3. destruct (smem w (words o3)) eqn:E3; [apply smem_In in E3; contradiction|]. destruct (smem w (words o2)) eqn:E2; [apply smem_In in E2; contradiction|].
    assert (A : assoc_last w (map (fun p => (fst p, UKScalar (snd p))) (kwargs_of o2 o3)) = None) by now rewrite assoc_last_map, kwargs_last, E3, E2.
    apply (build_kw_none w _ _ _ A) in Ek. now rewrite funtree_lookup, Ek.
Qed.
(** The definition of [src_def] meets the hypotheses. *)
Fixpoint expf (v : str -> str) (n : nat) (s : str) : option str :=
  match n with
  | O => None
  | S n =>
      match s with
      | nil => Some nil
      | c :: r =>
          if N.eqb c cDOL then
            match r with
            | nil => None
            | d :: r2 =>
                if N.eqb d cLC then
                  match take_while wordc r2, skipn (List.length (take_while wordc r2)) r2 with
                  | _ :: _, e :: r3 => if N.eqb e cRC then option_map (fun x => v (take_while wordc r2) ++ x) (expf v n r3) else None
                  | _, _ => None
                  end
                else if N.eqb d cDOL then None else option_map (cons cDOL) (expf v n r)
            end
          else option_map (cons c) (expf v n r)
      end
  end.
Lemma expf_ok v n : forall s o, expf v n s = Some o -> expand v s o.
Proof.
  induction n as [|n IH]; intros s o H; [discriminate|]. cbn [expf] in H. destruct s as [|c r]; [injection H as <-; constructor|].
  destruct (N.eqb c cDOL) eqn:E.
  - apply N.eqb_eq in E. subst c. destruct r as [|d r2]; [discriminate|]. destruct (N.eqb d cLC) eqn:E2.
    + apply N.eqb_eq in E2. subst d. destruct (take_while_app wordc r2) as [A B]. destruct (take_while wordc r2) as [|w0 w] eqn:Ew; [discriminate|].
      destruct (skipn _ r2) as [|e r3] eqn:Er; [discriminate|]. destruct (N.eqb e cRC) eqn:E1; [|discriminate]. apply N.eqb_eq in E1. subst e.
      destruct (expf v n r3) as [x|] eqn:Ex; [|discriminate]. injection H as <-. apply IH in Ex.
      rewrite A. change (cDOL :: cLC :: (w0 :: w) ++ cRC :: r3) with ([cDOL; cLC] ++ (w0 :: w) ++ cRC :: r3). change (v (w0 :: w) ++ x) with (v (w0 :: w) ++ x). apply ex_ref; auto. discriminate.
    + destruct (N.eqb d cDOL) eqn:E3; [discriminate|]. apply N.eqb_neq in E2, E3. destruct (expf v n (d :: r2)) as [x|] eqn:Ex; [|discriminate]. injection H as <-. apply IH in Ex. apply ex_dollar; [split; auto|exact Ex].
  - apply N.eqb_neq in E. destruct (expf v n r) as [x|] eqn:Ex; [|discriminate]. injection H as <-. apply IH in Ex. apply ex_chr; auto.
Qed.
Definition ex1 (v : str -> str) (s : str) : option str := expf v (S (List.length s)) s.
Fixpoint exl (v : str -> str) (l : list str) : option (list str) :=
  match l with nil => Some nil | s :: l => match ex1 v s, exl v l with Some x, Some xs => Some (x :: xs) | _, _ => None end end.
Lemma exl_ok v l : forall xs, exl v l = Some xs -> Forall2 (expand v) l xs.
Proof.
  induction l as [|s l IH]; intros xs H; cbn [exl] in H; [injection H as <-; constructor|]. destruct (ex1 v s) as [x|] eqn:E; [|discriminate]. destruct (exl v l) as [ys|]; [|discriminate]. injection H as <-.
  constructor; auto. eapply expf_ok. exact E.
Qed.
Fixpoint declf (env : str -> str) (l : list pnode) : option (str * str * str) :=
  match l with
  | nil => None
  | s :: r =>
      if seqb (funname s) $"cmake_parse_arguments" then
        match sem (argtree s) with
        | _ :: a :: b :: c :: _ => match ex1 env (unquote (spelling a)), ex1 env (unquote (spelling b)), ex1 env (unquote (spelling c)) with
                                   | Some x, Some y, Some z => Some (x, y, z)
                                   | _, _, _ => None
                                   end
        | _ => None
        end
      else if seqb (funname s) $"set" then
        match Lint.set_varname (argtree s) with
        | None => None
        | Some t => match ex1 env (spelling t), value_group (argtree s) with
                    | Some n, None => declf (put env n nil) r
                    | Some n, Some g => match exl env (map (fun t => unquote (spelling t)) (sem g)) with
                                        | Some xs => declf (put env n (join $";" xs)) r
                                        | None => None
                                        end
                    | None, _ => None
                    end
        end
      else None
  end.
Lemma declf_ok l : forall env o1 o2 o3, declf env l = Some (o1, o2, o3) -> declares env l o1 o2 o3.
Proof.
  induction l as [|s r IH]; intros env o1 o2 o3 H; [discriminate|]. cbn [declf] in H. destruct (seqb (funname s) $"cmake_parse_arguments") eqn:E.
  - apply seqb_eq in E. destruct (sem (argtree s)) as [|p [|a [|b [|c ts]]]] eqn:Es; try discriminate.
    destruct (ex1 env (unquote (spelling a))) eqn:E1; [|discriminate]. destruct (ex1 env (unquote (spelling b))) eqn:E2; [|discriminate]. destruct (ex1 env (unquote (spelling c))) eqn:E3; [|discriminate].
    injection H as <- <- <-. eapply de_call; eauto using expf_ok; eapply expf_ok; eassumption.
  - destruct (seqb (funname s) $"set") eqn:E'; [|discriminate]. apply seqb_eq in E'. destruct (Lint.set_varname (argtree s)) as [t|] eqn:Et; [|discriminate].
    destruct (ex1 env (spelling t)) as [n|] eqn:En; [|discriminate]. destruct (value_group (argtree s)) as [g|] eqn:Eg.
    + destruct (exl env _) as [xs|] eqn:Ex; [|discriminate]. eapply de_set; eauto; [eapply expf_ok; exact En|now apply exl_ok].
    + eapply de_unset; eauto. eapply expf_ok. exact En.
Qed.
Definition def_sites (tree : pnode) : list (pnode * pnode) :=
  flat_map (fun p => map (fun s => (p, s)) (filter (yielded def_names) (Lint.kids p))) (subs tree).
Lemma once_ok tree blk st name : def_sites tree = [(blk, st)] -> defined_once tree blk st name.
Proof.
  intros H p s f args Hp Hs (D1 & D2 & _) _. assert (G : In (p, s) (def_sites tree)).
  { apply in_flat_map. exists p. split; [now apply below_subs|]. apply in_map_iff. exists s. split; auto. apply filter_In. split; auto. unfold yielded. rewrite D1. now apply smem_In. }
  rewrite H in G. destruct G as [G|[]]. injection G as <- <-. auto.
Qed.
Definition hiddenb (c : pnode) : bool := yielded defn_names c || forallb (fun s => negb (yielded defn_names s)) (subs c).
Lemma listing_ok cs : forallb hiddenb cs = true -> listing cs (filter (yielded defn_names) cs).
Proof.
  intros H. split; auto. intros c Hc Hy s Hs. rewrite forallb_forall in H. specialize (H _ Hc). unfold hiddenb in H. rewrite Hy in H. cbn [orb] in H.
  rewrite forallb_forall in H. apply negb_true_iff. apply H. now apply below_subs.
Qed.
Definition read_tree (src : str) : pnode :=
  match tokenize src with Ok toks => match parse gen_ctx toks with Ok t => t | _ => N KBody nil end | _ => N KBody nil end.
Definition def_blk : pnode := nth 0 (Lint.kids (read_tree src_def)) (N KBody nil).
Definition def_st : pnode := nth 0 (Lint.kids def_blk) (N KBody nil).
Definition def_cs : list pnode := Lint.kids (nth 1 (Lint.kids def_blk) (N KBody nil)).
Definition def_rest : list pnode := skipn 2 (Lint.kids def_blk).
Example C83_ex : exists toks tree out st cs rest f args l,
  tokenize src_def = Ok toks /\ parse gen_ctx toks = Ok tree /\ gen_file 5 src_def = Ok out
  /\ out_of def_names (N KFlow (st :: N KBody cs :: rest)) tree
  /\ defines st f args /\ defined_once tree (N KFlow (st :: N KBody cs :: rest)) st (lower (spelling f))
  /\ startswith $"_" (lower (spelling f)) = false /\ special (lower (spelling f)) = false
  /\ listing cs l /\ declares (fun _ => nil) l $"FAST;SLOW;$<x>;EXACT" $"dst;SRC" $"SRC;DEP".
Proof.
  assert (H : exists toks, tokenize src_def = Ok toks) by (eexists; vm_compute; reflexivity). destruct H as [toks H].
  assert (Hp : parse gen_ctx toks = Ok (read_tree src_def)).
  { unfold read_tree. rewrite H. assert (Hp : exists tree, parse gen_ctx toks = Ok tree) by (vm_compute in H; injection H as <-; eexists; vm_compute; reflexivity). destruct Hp as [tree Hp]. now rewrite Hp. }
  assert (Hf : exists f args, first_group (argtree def_st) = Some (f :: args) /\ startswith $"_" (lower (spelling f)) = false /\ special (lower (spelling f)) = false)
    by (do 2 eexists; split; [vm_compute; reflexivity|split; vm_compute; reflexivity]).
  destruct Hf as (f & args & Hf1 & Hf2 & Hf3).
  exists toks, (read_tree src_def). eexists. exists def_st, def_cs, def_rest, f, args, (filter (yielded defn_names) def_cs).
  split; [exact H|]. split; [exact Hp|]. split; [vm_compute; reflexivity|]. split; [|split; [|split; [|split; [exact Hf2|split; [exact Hf3|split]]]]].
  - assert (E : exists ws, read_tree src_def = N KBody (N KFlow (def_st :: N KBody def_cs :: def_rest) :: ws)) by (eexists; vm_compute; reflexivity). destruct E as [ws E]. rewrite E at 1.
    eapply oo_kid; [reflexivity|now left|constructor].
  - split; [vm_compute; reflexivity|]. split; [vm_compute; auto|exact Hf1].
  - apply once_ok. vm_compute. reflexivity.
  - apply listing_ok. vm_compute. reflexivity.
  - apply declf_ok. vm_compute. reflexivity.
Qed.
(** Four ways to write the call for which the generated keywords are wrong: the
    PARSE_ARGV form (the keyword PARSE_ARGV, the number and the prefix are taken for
    the prefix and the two first lists), a variable set in a block (blocks are
    searched after the body), a list extended by list(APPEND), and a call in a
    function defined inside the body. *)
Definition src_argv : str := nl [$"function(f)"; $"  cmake_parse_arguments(PARSE_ARGV 0 ARG FAST DST " ++ q ($"SRC;DEP") ++ $")"; $"endfunction()"].
Definition src_nested : str := nl [$"function(f)"; $"  if(UNIX)"; $"    set(opts FAST)"; $"  else()"; $"    set(opts FAST)"; $"  endif()";
  $"  cmake_parse_arguments(ARG " ++ q ($"${opts}") ++ $" DST SRC ${ARGN})"; $"endfunction()"].
Definition src_append : str := nl [$"function(f)"; $"  set(opts SLOW)"; $"  list(APPEND opts FAST)";
  $"  cmake_parse_arguments(ARG " ++ q ($"${opts}") ++ $" DST SRC ${ARGN})"; $"endfunction()"].
Definition src_inner : str := nl [$"function(f)"; $"  function(g)"; $"    cmake_parse_arguments(ARG FAST DST SRC ${ARGN})"; $"  endfunction()"; $"endfunction()"].
Lemma replace_more n : forall m v s r, replace_varrefs n v s = Ok r -> (n <= m)%nat -> replace_varrefs m v s = Ok r.
Proof.
  induction n as [|n IH]; intros m v s r H Hm.
  - cbn [replace_varrefs] in H. destruct (rsearch ref_re None s) eqn:E; [discriminate|]. injection H as <-. now apply replace_none.
  - cbn [replace_varrefs] in H. destruct m as [|m]; [lia|]. cbn [replace_varrefs]. destruct (rsearch ref_re None s); [|exact H]. apply IH; auto. lia.
Qed.
Lemma defn_body_more n m es : (n <= m)%nat -> forall v k sp g, defn_body n es v k sp = Ok g -> defn_body m es v k sp = Ok g.
Proof.
  intros Hm. induction es as [|[s p] es IH]; intros v k sp g H; [exact H|]. cbn [defn_body] in *. destruct (seqb (funname s) $"set").
  - apply bindr_ok in H as (v' & E & H). unfold process_set in *. destruct (Lint.set_varname (argtree s)); [|discriminate]. apply bindr_ok in E as (nm & E1 & E).
    rewrite (replace_more _ _ _ _ _ E1 Hm). cbn [bindr]. destruct (value_group (argtree s)); [|injection E as <-; now apply IH]. apply bindr_ok in E as (x & E2 & E). injection E as <-.
    rewrite (replace_more _ _ _ _ _ E2 Hm). cbn [bindr]. now apply IH.
  - destruct (seqb (funname s) $"list"); [now apply IH|]. destruct (sem (argtree s)) as [|? [|? [|? [|? ?]]]]; try discriminate.
    apply bindr_ok in H as (x1 & E1 & H). apply bindr_ok in H as (x2 & E2 & H). apply bindr_ok in H as (x3 & E3 & H).
    now rewrite (replace_more _ _ _ _ _ E1 Hm), (replace_more _ _ _ _ _ E2 Hm), (replace_more _ _ _ _ _ E3 Hm).
Qed.
Lemma gen_file_more n m src out : gen_file n src = Ok out -> (n <= m)%nat -> gen_file m src = Ok out.
Proof.
  intros H Hm. unfold gen_file in *. apply bindr_ok in H as (toks & Ht & H). rewrite Ht. cbn [bindr]. apply bindr_ok in H as (tree & Hp & H). rewrite Hp. cbn [bindr].
  unfold process_tree in *. revert H. generalize (@nil (str * gspec)). induction (find_statements [$"function"; $"macro"] tree) as [|e es IH]; intros o H; [exact H|].
  cbn [process_all] in *. apply bindr_ok in H as ([nm g] & E & H). enough (G : process_defn m e = Ok (nm, g)) by (rewrite G; cbn [bindr]; now apply IH).
  unfold process_defn in *. destruct (first_group (argtree (fst e))) as [[|f args]|]; try discriminate. destruct (snd e) as [[par i]|]; try discriminate.
  destruct (nth_error (Lint.kids par) 1) as [[t|[] cs]|]; try discriminate. apply bindr_ok in E as (g0 & E & E'). rewrite (defn_body_more _ _ _ Hm _ _ _ _ E). exact E'.
Qed.
Theorem C83_declared_refuted : forall fuel, (3 <= fuel)%nat ->
  gen_file fuel src_argv = Ok [($"f", GSp (NStr $"*") (Some [$"0"]) (Some [($"ARG", NInt 1); ($"FAST", NStr $"+")]) None)]
  /\ gen_file fuel src_nested = Ok [($"f", GSp (NStr $"*") (Some nil) (Some [($"DST", NInt 1); ($"SRC", NStr $"+")]) None)]
  /\ gen_file fuel src_append = Ok [($"f", GSp (NStr $"*") (Some [$"SLOW"]) (Some [($"DST", NInt 1); ($"SRC", NStr $"+")]) None)]
  /\ (exists h, gen_file fuel src_inner = Ok [($"f", GSp (NStr $"*") (Some [$"FAST"]) (Some [($"DST", NInt 1); ($"SRC", NStr $"+")]) None); ($"g", h)]).
Proof.
  intros fuel Hf. split; [|split; [|split]].
  - eapply gen_file_more; [|exact Hf]. vm_compute. reflexivity.
  - eapply gen_file_more; [|exact Hf]. vm_compute. reflexivity.
  - eapply gen_file_more; [|exact Hf]. vm_compute. reflexivity.
  - eexists. eapply gen_file_more; [|exact Hf]. vm_compute. reflexivity.
Qed.

(** ** C84: files that cannot be read *)
(** Every file can be read and holds a text that can be processed: the result is the
    union of the results of the files, later definitions win, and the status is 0. *)
Fixpoint all_outs (rd : str -> lread) (ps : list str) (outs : list (list (str * gspec))) (fuel : nat) : Prop :=
  match ps, outs with
  | nil, nil => True
  | p :: ps, o :: outs => (exists s, rd p = Text s /\ gen_file fuel s = Ok o) /\ all_outs rd ps outs fuel
  | _, _ => False
  end.
Fixpoint last_of (name : str) (outs : list (list (str * gspec))) : option gspec :=
  match outs with
  | nil => None
  | o :: outs => match last_of name outs with Some g => Some g | None => assoc_last name o end
  end.
Lemma merge_last new : NoDup (map fst new) -> forall out, NoDup (map fst out) -> NoDup (map fst (merge out new))
  /\ forall k, assoc_last k (merge out new) = match assoc_last k new with Some g => Some g | None => assoc_last k out end.
Proof.
  unfold merge. induction new as [|[a g] new IH]; intros Hn out Ho; [auto|]. cbn [fold_left fst snd]. cbn [map fst] in Hn. inversion Hn as [|? ? H1 H2]. subst.
  destruct (dset_last a g out Ho) as (D1 & _ & D3). destruct (IH H2 _ D1) as [I1 I2]. split; auto. intros k. rewrite I2, D3. cbn [assoc_last]. destruct (assoc_last k new); auto. now destruct (seqb k a).
Qed.
Lemma process_all_nodup fuel es : forall out out', NoDup (map fst out) -> process_all fuel es out = Ok out' -> NoDup (map fst out').
Proof.
  induction es as [|e es IH]; intros out out' Hn H; [injection H as <-; auto|]. cbn [process_all] in H. apply bindr_ok in H as ([m g] & E & H).
  eapply IH; [|exact H]. destruct (startswith $"_" m); auto. now apply dset_last.
Qed.
Lemma gen_file_nodup fuel src out : gen_file fuel src = Ok out -> NoDup (map fst out).
Proof. intros H. unfold gen_file in H. apply bindr_ok in H as (toks & _ & H). apply bindr_ok in H as (tree & _ & H). eapply process_all_nodup; [|exact H]. constructor. Qed.
Theorem C84_union : forall fuel rd ps outs, all_outs rd ps outs fuel -> (In $"-" ps -> ps = [$"-"]) ->
  exists out, gen_main fuel rd ps = Ok (nl ps, out, 0) /\ forall name, assoc_last name out = last_of name outs.
Proof.
  intros fuel rd ps outs H Hd. unfold gen_main.
  replace (smem $"-" ps && negb (zlen ps =? 1)) with false.
  2:{ destruct (smem $"-" ps) eqn:E; auto. apply smem_In in E. now rewrite (Hd E). }
  clear Hd. enough (G : forall bound prev out, NoDup (map fst out) -> exists out', gen_loop fuel rd ps bound prev out = Ok out'
     /\ forall name, assoc_last name out' = match last_of name outs with Some g => Some g | None => assoc_last name out end).
  { destruct (G false None nil (NoDup_nil _)) as (out & E & L). exists out. rewrite E. split; auto. intros name. rewrite L. now destruct (last_of name outs). }
  revert outs H. induction ps as [|p ps IH]; intros [|o outs] H bound prev out Hn; try contradiction; [exists out; auto|].
  destruct H as [(s & H1 & H2) H]. cbn [gen_loop]. rewrite H1, H2. cbn [bindr]. destruct (merge_last o (gen_file_nodup _ _ _ H2) out Hn) as [M1 M2].
  destruct (IH outs H true (Some s) _ M1) as (out' & E & L). exists out'. split; auto. intros name. rewrite L, M2. cbn [last_of]. now destruct (last_of name outs).
Qed.
(** A file that cannot be opened, or a first file that cannot be decoded, ends the
    command with a failure. *)
Theorem C84_unreadable_partial : forall fuel rd ps, (exists p, In p ps /\ rd p = CannotOpen) \/ (exists p ps', ps = p :: ps' /\ rd p = CannotDecode) ->
  forall r, gen_main fuel rd ps <> Ok r.
Proof.
  intros fuel rd ps H r E. unfold gen_main in E. destruct (smem $"-" ps && negb (zlen ps =? 1)); [discriminate|]. apply bindr_ok in E as (out & E & _).
  destruct H as [(p & Hin & Hp)|(p & ps' & -> & Hp)]; [|cbn [gen_loop] in E; rewrite Hp in E; discriminate].
  revert E. generalize false (@None str) (@nil (str * gspec)). induction ps as [|p0 ps IH]; intros bound prev o E; [contradiction|]. cbn [gen_loop] in E.
  destruct Hin as [->|Hin]; [rewrite Hp in E; discriminate|]. destruct (rd p0) as [| |s]; [discriminate| |].
  - destruct prev; [|discriminate]. apply bindr_ok in E as (g & _ & E). eauto.
  - apply bindr_ok in E as (g & _ & E). eauto.
Qed.
(** Any other file that cannot be decoded is passed over with status 0: the previous
    file is processed again in its place. *)
Theorem C84_unreadable_refuted : forall fuel rd p1 p2 s out, rd p1 = Text s -> gen_file fuel s = Ok out -> rd p2 = CannotDecode -> p1 <> $"-" -> p2 <> $"-" ->
  exists out', gen_main fuel rd [p1; p2] = Ok (nl [p1; p2], out', 0) /\ forall name, assoc_last name out' = assoc_last name out.
Proof.
  intros fuel rd p1 p2 s out H1 H2 H3 N1 N2. unfold gen_main. replace (smem $"-" [p1; p2]) with false.
  2:{ symmetry. cbn [smem existsb]. destruct (seqb $"-" p1) eqn:E; [apply seqb_eq in E; congruence|]. destruct (seqb $"-" p2) eqn:E'; [apply seqb_eq in E'; congruence|reflexivity]. }
  cbn [andb gen_loop]. rewrite H1, H2. cbn [bindr]. rewrite H3. cbn [bindr]. eexists. split; [reflexivity|].
  pose proof (gen_file_nodup _ _ _ H2) as Hn. destruct (merge_last out Hn nil (NoDup_nil _)) as [M1 M2]. destruct (merge_last out Hn _ M1) as [M3 M4]. intros name. rewrite M4, M2. now destruct (assoc_last name out).
Qed.
Definition demo_rd (p : str) : lread := if seqb p $"a.cmake" then Text src_def else if seqb p $"c.cmake" then Text src_argv else if seqb p $"b.cmake" then CannotDecode else CannotOpen.
Example C84_ex : (exists o1 o2, all_outs demo_rd [$"a.cmake"; $"c.cmake"] [o1; o2] 5 /\ last_of $"myfun" [o1; o2] <> None /\ last_of $"f" [o1; o2] <> None)
  /\ (exists out, gen_file 5 src_def = Ok out /\ demo_rd $"a.cmake" = Text src_def) /\ demo_rd $"b.cmake" = CannotDecode /\ demo_rd $"x" = CannotOpen.
Proof.
  split; [|split; [eexists; split; vm_compute; reflexivity|split; reflexivity]].
  do 2 eexists. split; [|split].
  - cbn [all_outs]. split; [eexists; split; [vm_compute; reflexivity|vm_compute; reflexivity]|]. split; [eexists; split; [vm_compute; reflexivity|vm_compute; reflexivity]|exact I].
  - vm_compute. discriminate.
  - vm_compute. discriminate.
Qed.
