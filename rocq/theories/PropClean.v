(** * PropClean: cmake-lint has no complaints about the lines of a formatted file (C96, C97) *)
From Verif Require Import Base Regex Lex LexProofs LexClass PropLex TextOps TextProofs PropText Tree Parse ParseProofs ParseTerm PropParse PropTerm
  CmdSpec StdSpecs StdDb StdWf PropStd StdShape Layout LayoutProofs Pieces Writing PropLayout Markup MarkupProofs PropMarkup Pipeline PropCase PropFile
  ParseShape NamesShape WordShape CommentShape TidyShape Reread CommentFree PropReread Lint PropLintText.
From Coq Require Import Permutation.

(** ** Lines that do not end in a blank and are not indented with a tab *)
(** [ind]: only blanks so far in this line; [dirty]: the last character is a blank *)
Fixpoint okt (ind dirty : bool) (s : str) : bool :=
  match s with
  | nil => true
  | x :: r => if N.eqb x cNL then negb dirty && okt true false r
              else if is_uspace x then negb (ind && N.eqb x cTAB) && okt ind true r
              else okt false false r
  end.
Fixpoint est (ind dirty : bool) (s : str) : bool * bool :=
  match s with
  | nil => (ind, dirty)
  | x :: r => if N.eqb x cNL then est true false r else if is_uspace x then est ind true r else est false false r
  end.
Lemma okt_app a : forall i d b, okt i d (a ++ b) = okt i d a && okt (fst (est i d a)) (snd (est i d a)) b.
Proof.
  induction a as [|x a IH]; intros i d b; [reflexivity|]. cbn [app okt est]. destruct (N.eqb x cNL); [now rewrite IH, andb_assoc|].
  destruct (is_uspace x); [now rewrite IH, andb_assoc|apply IH].
Qed.
Lemma est_app a : forall i d b, est i d (a ++ b) = est (fst (est i d a)) (snd (est i d a)) b.
Proof.
  induction a as [|x a IH]; intros i d b; [reflexivity|]. cbn [app est]. destruct (N.eqb x cNL); [apply IH|]. destruct (is_uspace x); apply IH.
Qed.
(** ends in a character that is no blank *)
Definition stopped (s : str) : Prop := exists a x, s = a ++ [x] /\ is_uspace x = false.
Lemma uspace_nl x : is_uspace x = false -> N.eqb x cNL = false.
Proof. intros H. destruct (N.eqb_spec x cNL); [subst; discriminate|reflexivity]. Qed.
Lemma est_stopped s i d : stopped s -> est i d s = (false, false).
Proof. intros (a & x & -> & Hx). rewrite est_app. cbn [est]. now rewrite (uspace_nl _ Hx), Hx. Qed.
Definition starts (s : str) : Prop := exists x r, s = x :: r /\ is_uspace x = false.
Definition neat (s : str) : Prop := starts s /\ stopped s /\ okt false false s = true.
Lemma neat_any s i d : neat s -> okt i d s = true.
Proof. intros ((x & r & -> & Hx) & _ & H). cbn [okt] in *. rewrite (uspace_nl _ Hx), Hx in *. exact H. Qed.
Lemma stopped_app a b : stopped b -> stopped (a ++ b).
Proof. intros (u & x & -> & Hx). exists (a ++ u), x. now rewrite app_assoc. Qed.
(** a single line *)
Lemma okt_flat s : ~ In cNL s -> forall d, okt false d s = true.
Proof.
  induction s as [|x s IH]; intros H d; [reflexivity|]. cbn [okt]. destruct (N.eqb_spec x cNL) as [->|]; [exfalso; apply H; now left|].
  assert (~ In cNL s) by (intros F; apply H; now right). destruct (is_uspace x); cbn [andb negb]; auto.
Qed.
Lemma neat_line s : starts s -> stopped s -> ~ In cNL s -> neat s.
Proof. intros A B C. split; auto. split; auto. now apply okt_flat. Qed.

(** ** The page *)
Lemma okt_nls n : forall i, okt i false (repeat_s n [cNL]) = true /\ snd (est i false (repeat_s n [cNL])) = false.
Proof. induction n as [|n IH]; intros i; [auto|]. cbn [repeat_s app okt est]. rewrite N.eqb_refl. cbn [negb andb]. apply IH. Qed.
Lemma okt_spaces n : forall i d, okt i d (spaces n) = true.
Proof.
  unfold spaces. induction (Z.to_nat n) as [|m IH]; intros i d; [reflexivity|]. cbn [repeat okt]. change (N.eqb cSP cNL) with false. change (is_uspace cSP) with true.
  change (N.eqb cSP cTAB) with false. rewrite andb_false_r. cbn [negb andb]. apply IH.
Qed.
Lemma page_ok gs : forall ps i, Forall (fun p => neat (p_text p)) ps -> okt i false (page [cNL] gs ps) = true /\ snd (est i false (page [cNL] gs ps)) = false.
Proof.
  induction gs as [|[n m] gs IH]; intros [|p ps] i H; cbn [page]; auto. inversion H as [|? ? Hp Hps]; subst. rewrite with_nl.
  unfold gap_text. cbn [fst snd]. rewrite <- app_assoc. destruct (okt_nls n i) as [A B]. rewrite !okt_app, !est_app, A, B. cbn [andb]. rewrite okt_spaces. cbn [andb].
  rewrite (neat_any _ _ _ Hp). cbn [andb]. rewrite !(est_stopped (p_text p)) by apply Hp. cbn [fst snd]. apply IH; auto.
Qed.

(** ** What the line checks see *)
Definition line_ok (l : str) : Prop := (l = nil \/ stopped l) /\ has_chr cTAB (take_while is_blank_tab l) = false.
Lemma snoc_case (s : str) : s = nil \/ exists a x, s = a ++ [x].
Proof. destruct s as [|x s] using rev_ind; eauto. Qed.
Lemma flat_est l : ~ In cNL l -> forall i d, snd (est i d l) = false -> (l = nil /\ d = false) \/ stopped l.
Proof.
  intros H i d E. destruct (snoc_case l) as [->|(a & x & ->)]; [left; auto|right]. exists a, x. split; auto. rewrite est_app in E. cbn [est] in E.
  destruct (N.eqb_spec x cNL) as [->|]; [exfalso; apply H; apply in_or_app; right; now left|]. now destruct (is_uspace x).
Qed.
Lemma flat_tab l : forall d, okt true d l = true -> has_chr cTAB (take_while is_blank_tab l) = false.
Proof.
  induction l as [|x l IH]; intros d H; [reflexivity|]. cbn [okt take_while] in *. unfold is_blank_tab. destruct (N.eqb_spec x cNL) as [->|Hn]; [reflexivity|].
  destruct (N.eqb_spec x cSP) as [->|Hs]; cbn [orb].
  - change (is_uspace cSP) with true in H. apply andb_prop in H as [_ H]. unfold has_chr. cbn [existsb]. change (N.eqb cTAB cSP) with false. cbn [orb]. now apply (IH true).
  - destruct (N.eqb_spec x cTAB) as [->|Ht]; [|reflexivity]. exfalso. change (is_uspace cTAB) with true in H. cbn in H. discriminate H.
Qed.
Lemma split_cons x s : x <> cNL -> exists l ls, split_on cNL s = l :: ls /\ split_on cNL (x :: s) = (x :: l) :: ls.
Proof.
  intros H. cbn [split_on]. destruct (N.eqb_spec x cNL); [contradiction|]. destruct (split_on cNL s) as [|l ls] eqn:E; [now apply split_on_nonempty in E|]. eauto.
Qed.
Lemma okt_lines s : forall i d, okt i d s = true -> snd (est i d s) = false ->
  match split_on cNL s with
  | l :: ls => okt i d l = true /\ snd (est i d l) = false /\ Forall (fun l => okt true false l = true /\ snd (est true false l) = false) ls
  | nil => False
  end.
Proof.
  induction s as [|x s IH]; intros i d H E; [cbn; auto|]. destruct (N.eqb_spec x cNL) as [->|Hn].
  - cbn [split_on]. rewrite N.eqb_refl. cbn [okt est] in *. rewrite N.eqb_refl in *. apply andb_prop in H as [Hd H]. specialize (IH _ _ H E).
    destruct (split_on cNL s) as [|l ls]; [destruct IH|]. cbn. destruct IH as (A & B & C). apply negb_true_iff in Hd. auto.
  - destruct (split_cons x s Hn) as (l & ls & E1 & E2). rewrite E2. cbn [okt est] in *. apply N.eqb_neq in Hn. rewrite Hn in *.
    destruct (is_uspace x).
    + apply andb_prop in H as [H1 H]. rewrite H1. specialize (IH _ _ H E). rewrite E1 in IH. exact IH.
    + specialize (IH _ _ H E). rewrite E1 in IH. exact IH.
Qed.
Lemma text_lines s : okt true false s = true -> snd (est true false s) = false -> Forall line_ok (split_on cNL s).
Proof.
  intros H E. pose proof (okt_lines s true false H E) as L. destruct (split_on cNL s) as [|l ls] eqn:Es; [destruct L|].
  assert (G : forall x, In x (l :: ls) -> okt true false x = true /\ snd (est true false x) = false).
  { destruct L as (A & B & C). intros x [<-|Hx]; auto. rewrite Forall_forall in C. auto. }
  apply Forall_forall. intros x Hx. assert (Hn : ~ In cNL x) by (apply (split_on_no cNL s); now rewrite Es). destruct (G x Hx) as [A B]. split.
  - destruct (flat_est x Hn true false B) as [[-> _]|S]; auto.
  - now apply (flat_tab x false).
Qed.
Lemma stopped_not_in l (p : chr -> Prop) : stopped l -> (forall x, p x -> is_uspace x = true) -> ~ ends_in p l.
Proof. intros (a & x & -> & Hx) Hp (b & y & E & Hy). apply app_inj_tail in E as [_ <-]. apply Hp in Hy. congruence. Qed.
Lemma nil_not_in (p : chr -> Prop) : ~ ends_in p nil.
Proof. intros (a & x & E & _). destruct a; discriminate. Qed.
Lemma line_clean lc n l : line_ok l -> zlen l <= lc_width lc -> lc_ending lc = Some Unix -> lc_usetabs lc = false -> check_line lc n l = nil.
Proof.
  intros [Hs Ht] Hw He Hu. unfold check_line. rewrite Hu, He.
  assert (G : forall p : chr -> Prop, (forall x, p x -> is_uspace x = true) -> ~ ends_in p l).
  { intros p Hp. destruct Hs as [->|Hs]; [apply nil_not_in|now apply stopped_not_in]. }
  assert (E1 : zlen l >? lc_width lc = false) by (rewrite Z.gtb_ltb; apply Z.ltb_ge; lia). rewrite E1.
  assert (E2 : endswith [cCR] l = false).
  { destruct (endswith [cCR] l) eqn:E; auto. exfalso. apply endswith_1 in E. revert E. apply G. intros x <-. reflexivity. }
  rewrite E2. cbv zeta. cbn [app negb]. rewrite Ht.
  destruct (zlen (rstrip l) =? zlen l) eqn:E; [reflexivity|]. exfalso. apply rstrip_len in E. revert E. apply G. auto.
Qed.
Lemma lines_clean lc ls : lc_ending lc = Some Unix -> lc_usetabs lc = false -> Forall line_ok ls -> Forall (fun l => zlen l <= lc_width lc) ls ->
  forall n, check_lines lc n ls = nil.
Proof.
  intros He Hu. induction ls as [|l ls IH]; intros A B n; [reflexivity|]. inversion A; inversion B; subst. cbn [check_lines].
  rewrite line_clean by auto. apply IH; auto.
Qed.

(** ** The texts *)
(** every blank is one of the six ASCII ones *)
Definition plain_blanks (s : str) : Prop := Forall (fun ch => is_uspace ch = true -> is_aspace ch = true) s.
Lemma ulines_incl s : (forall l, In l (fst (ulines s)) -> incl l s) /\ incl (snd (ulines s)) s.
Proof.
  assert (G : forall n s, (List.length s <= n)%nat -> (forall l, In l (fst (ulines s)) -> incl l s) /\ incl (snd (ulines s)) s).
  { induction n as [|n IH]; intros t Hl; destruct t as [|c t]; [split; [intros l []|intros x []]|simpl in Hl; lia|split; [intros l []|intros x []]|].
    cbn [List.length] in Hl. cbn [ulines]. destruct (N.eqb c cNL).
    { specialize (IH t ltac:(lia)). destruct (ulines t) as [ls tl]. cbn [fst snd] in *. destruct IH as [A B]. split; [|now apply incl_tl].
      intros l [<-|Hin]; [intros x []|now apply incl_tl, A]. }
    destruct (N.eqb c cCR).
    { destruct t as [|d t]; [split; [intros l [<-|[]] x []|intros x []]|]. destruct (N.eqb d cNL).
      - specialize (IH t ltac:(simpl in *; lia)). destruct (ulines t) as [ls tl]. cbn [fst snd] in *. destruct IH as [A B]. split; [|now apply incl_tl, incl_tl].
        intros l [<-|Hin]; [intros x []|now apply incl_tl, incl_tl, A].
      - specialize (IH (d :: t) ltac:(simpl in *; lia)). destruct (ulines (d :: t)) as [ls tl]. cbn [fst snd] in *. destruct IH as [A B]. split; [|now apply incl_tl].
        intros l [<-|Hin]; [intros x []|now apply incl_tl, A]. }
    specialize (IH t ltac:(lia)). destruct (ulines t) as [[|l0 ls] tl]; cbn [fst snd] in *; destruct IH as [A B].
    - split; [intros l []|]. intros x [<-|Hx]; [now left|right; auto].
    - split; [|now apply incl_tl]. intros l [<-|Hin]; [|apply incl_tl, A; now right]. intros x [<-|Hx]; [now left|right]. apply (A l0); auto. now left. }
  apply (G (List.length s)). lia.
Qed.
Lemma ulines_last s : forall a x, s = a ++ [x] -> x <> cNL -> x <> cCR -> exists b, snd (ulines s) = b ++ [x].
Proof.
  assert (G : forall n s, (List.length s <= n)%nat -> forall a x, s = a ++ [x] -> x <> cNL -> x <> cCR -> exists b, snd (ulines s) = b ++ [x]).
  { induction n as [|n IH]; intros t Hl a x E Hn Hc; [destruct t; [destruct a; discriminate|simpl in Hl; lia]|].
    destruct a as [|c a]; cbn [app] in E; subst t.
    { cbn [ulines]. apply N.eqb_neq in Hn, Hc. rewrite Hn, Hc. now exists nil. }
    cbn [List.length] in Hl. cbn [ulines]. destruct (N.eqb c cNL).
    { destruct (IH (a ++ [x]) ltac:(lia) a x eq_refl Hn Hc) as (b & Hb). destruct (ulines (a ++ [x])). eauto. }
    destruct (N.eqb c cCR).
    { destruct a as [|d a]; cbn [app] in *.
      - destruct (N.eqb_spec x cNL); [contradiction|]. cbn [ulines]. apply N.eqb_neq in Hn, Hc. rewrite Hn, Hc. now exists nil.
      - destruct (N.eqb d cNL).
        + destruct (IH (a ++ [x]) ltac:(simpl in *; lia) a x eq_refl Hn Hc) as (b & Hb). destruct (ulines (a ++ [x])). eauto.
        + destruct (IH (d :: a ++ [x]) ltac:(simpl in *; lia) (d :: a) x eq_refl Hn Hc) as (b & Hb). destruct (ulines (d :: a ++ [x])). eauto. }
    destruct (IH (a ++ [x]) ltac:(lia) a x eq_refl Hn Hc) as (b & Hb). destruct (ulines (a ++ [x])) as [[|l ls] tl]; cbn [snd] in *; [|eauto].
    rewrite Hb. exists (c :: b). reflexivity. }
  intros a x. apply (G (List.length s)). lia.
Qed.
Lemma ulines_head x r : x <> cNL -> x <> cCR -> ulines (x :: r) = match ulines r with (nil, t) => (nil, x :: t) | (l :: ls, t) => ((x :: l) :: ls, t) end.
Proof. intros Hn Hc. apply N.eqb_neq in Hn, Hc. cbn [ulines]. now rewrite Hn, Hc. Qed.
Lemma okt_tabless s : ~ In cNL s -> ~ In cTAB s -> forall i d, okt i d s = true.
Proof.
  induction s as [|x s IH]; intros A B i d; [reflexivity|]. cbn [okt].
  destruct (N.eqb_spec x cNL) as [->|]; [exfalso; apply A; now left|]. assert (~ In cNL s /\ ~ In cTAB s) as [A' B'] by (split; intros F; [apply A|apply B]; now right).
  destruct (is_uspace x); [|auto]. destruct (N.eqb_spec x cTAB) as [->|]; [exfalso; apply B; now left|]. rewrite andb_false_r. cbn [negb andb]. auto.
Qed.
Lemma rstripped p l : (forall x, In x l -> is_uspace x = true -> p x = true) -> rstrip_by p l = nil \/ stopped (rstrip_by p l).
Proof.
  intros H. destruct (snoc_case (rstrip_by p l)) as [E|(a & x & E)]; [auto|right]. exists a, x. split; [exact E|].
  destruct (is_uspace x) eqn:Eu; auto. pose proof (rstrip_last _ _ _ _ E) as F. rewrite H in F; [discriminate| |exact Eu].
  apply (rstrip_incl p). rewrite E. apply in_or_app. right. now left.
Qed.
Lemma unlines_ok ls t : Forall (fun l => (l = nil \/ stopped l) /\ ~ In cNL l /\ ~ In cTAB l) ls -> ~ In cNL t -> ~ In cTAB t ->
  forall i, okt i false (unlines (ls, t)) = true.
Proof.
  unfold unlines. cbn [fst snd]. intros H A B. induction H as [|l ls (S & C & D) _ IH]; intros i; cbn [map List.concat app]; [now apply okt_tabless|].
  rewrite <- !app_assoc. rewrite okt_app, okt_tabless by assumption.
  assert (Hs : snd (est i false l) = false) by (destruct S as [->|S]; [reflexivity|now rewrite est_stopped]). cbn [andb app okt]. rewrite N.eqb_refl, Hs. apply IH.
Qed.
Lemma aspace_blank z : is_aspace z = true -> z <> cNL -> z <> cCR -> is_blank z = true.
Proof.
  unfold is_aspace. cbn [existsb]. rewrite !orb_true_iff, !N.eqb_eq. intros H A B.
  repeat (destruct H as [->|H]; [first [reflexivity|now contradiction A|now contradiction B]|]). discriminate.
Qed.
Lemma blank_uspace z : is_blank z = true -> is_uspace z = true.
Proof. unfold is_blank. cbn [existsb]. rewrite !orb_true_iff, !N.eqb_eq. intros H. repeat (destruct H as [->|H]; [reflexivity|]). discriminate. Qed.
Theorem neat_normalize s : plain_blanks s -> starts s -> stopped s -> ~ In cTAB s -> neat (normalize s).
Proof.
  intros P (x & r & -> & Hx) (a & y & E & Hy) Ht. rewrite normalize_spec. unfold norm_spec.
  assert (Hn : forall z, is_uspace z = false -> z <> cNL /\ z <> cCR) by (intros z Hz; split; intros ->; discriminate).
  destruct (ulines_incl (x :: r)) as [I1 I2]. destruct (ulines_noeol (x :: r)) as [N1 N2].
  destruct (Hn _ Hx) as [Hx1 Hx2]. destruct (Hn _ Hy) as [Hy1 Hy2]. unfold plain_blanks in P. rewrite Forall_forall in P.
  split; [|split].
  - rewrite ulines_head by assumption. destruct (ulines r) as [[|l ls] t]; unfold unlines; cbn [fst snd map List.concat app]; [exists x, t; auto|].
    unfold rstrip_blank. rewrite rstrip_cons.
    assert (is_blank x = false) as -> by (destruct (is_blank x) eqn:Eb; auto; apply blank_uspace in Eb; congruence).
    cbn [andb app]. eexists x, _. split; [reflexivity|exact Hx].
  - destruct (ulines_last _ _ _ E Hy1 Hy2) as (b & Hb). rewrite Hb. unfold unlines. cbn [snd]. apply stopped_app. exists b, y. auto.
  - apply unlines_ok.
    + apply Forall_map. apply Forall_forall. intros l Hl. rewrite Forall_forall in N1. destruct (N1 _ Hl) as [NL CR]. split; [|split].
      * apply rstripped. intros z Hz Hu. assert (is_aspace z = true) as Ha by (apply P; auto; now apply (I1 l)).
        assert (z <> cNL /\ z <> cCR) as [Z1 Z2] by (split; intros ->; contradiction). now apply aspace_blank.
      * intros F. apply rstrip_incl in F. auto.
      * intros F. apply rstrip_incl in F. apply Ht. now apply (I1 l).
    + apply N2.
    + intros F. apply Ht. now apply I2.
Qed.

(** letter case does not matter *)
Lemma lower_blank c : is_uspace (Base.loc c) = is_uspace c /\ N.eqb (Base.loc c) cNL = N.eqb c cNL /\ N.eqb (Base.loc c) cTAB = N.eqb c cTAB.
Proof.
  unfold Base.loc. destruct (_ && _) eqn:E; auto. apply andb_prop in E as [A B]. apply N.leb_le in A, B.
  assert (H : forall k, (k <= 64 \/ 128 <= k)%N -> N.eqb (c + 32) k = N.eqb c k) by (intros k Hk; destruct (N.eqb_spec (c+32) k), (N.eqb_spec c k); lia || auto).
  split; [|split; apply H; unfold cNL, cTAB; lia]. unfold is_uspace. cbn [existsb]. now rewrite !H by lia.
Qed.
Lemma okt_lower s : forall i d, okt i d (lower s) = okt i d s.
Proof.
  induction s as [|x s IH]; intros i d; [reflexivity|]. cbn [lower map okt]. destruct (lower_blank x) as (-> & -> & ->). fold (lower s). now rewrite !IH.
Qed.
Lemma stopped_lower s : stopped (lower s) -> stopped s.
Proof.
  intros (a & x & E & Hx). destruct (snoc_case s) as [->|(b & y & ->)]; [destruct a; discriminate|]. exists b, y. split; auto.
  unfold lower in E. rewrite map_app in E. apply app_inj_tail in E as [_ E]. destruct (lower_blank y) as (<- & _). cbn in E. now rewrite E.
Qed.
Lemma starts_lower s : starts (lower s) -> starts s.
Proof. intros (x & r & E & Hx). destruct s as [|y s]; [discriminate|]. injection E as E _. exists y, s. split; auto. destruct (lower_blank y) as (<- & _). now rewrite E. Qed.
Lemma lower_starts s : starts s -> starts (lower s).
Proof. intros (x & r & -> & Hx). exists (Base.loc x), (lower r). split; auto. now rewrite (proj1 (lower_blank x)). Qed.
Lemma lower_stopped s : stopped s -> stopped (lower s).
Proof. intros (a & x & -> & Hx). exists (lower a), (Base.loc x). unfold lower. rewrite map_app. split; auto. now rewrite (proj1 (lower_blank x)). Qed.
Lemma neat_cased s t : lower s = lower t -> neat t -> neat s.
Proof.
  intros E (A & B & C). split; [apply starts_lower; rewrite E; now apply lower_starts|]. split; [apply stopped_lower; rewrite E; now apply lower_stopped|].
  now rewrite <- okt_lower, E, okt_lower.
Qed.

(** ** Comment lines *)
Lemma plain_nil : plain_blanks nil.
Proof. constructor. Qed.
Lemma plain_sub a b : plain_blanks (a ++ b) -> plain_blanks a /\ plain_blanks b.
Proof. unfold plain_blanks. now rewrite Forall_app. Qed.
Lemma plain_join a b x : is_aspace x = true -> plain_blanks a -> plain_blanks b -> plain_blanks (a ++ x :: b).
Proof. intros H A B. apply Forall_app. split; [exact A|]. constructor; [auto|exact B]. Qed.
Lemma wrap_stopped width text ls : plain_blanks text -> wrap width text = Ok ls -> Forall stopped ls.
Proof.
  intros Hp. unfold wrap. destruct (width <=? 0) eqn:Ew; [discriminate|]. apply Z.leb_gt in Ew. intros H. inversion H. clear H H1.
  assert (Hm : Forall (fun c => is_uspace c = true -> c = cSP) (munge text)).
  { pose proof (P_munge plain_blanks plain_nil plain_sub plain_join text 0 nil Hp) as Hq. cbn [app] in Hq. fold (munge text) in Hq.
    pose proof (munge_chars text) as Hc. unfold plain_blanks in Hq. rewrite Forall_forall in *. auto. }
  assert (Hc : Forall (Forall (fun c => is_uspace c = true -> c = cSP)) (chunks (munge text))).
  { rewrite <- (chunks_concat (munge text)) in Hm. rewrite Forall_forall in *. intros w Hw. rewrite Forall_forall. intros c Hc. apply Hm. apply in_concat. eauto. }
  generalize (chunks_alt (munge text)). revert Hc. generalize (chunks (munge text)) as cs. intros cs. clear Hm.
  refine (wrap_loop_ind (fun _ cs out => Forall (Forall (fun c => is_uspace c = true -> c = cSP)) cs -> alt cs -> Forall stopped out) width Ew _ _
            (List.length cs) false cs (le_n _)).
  - constructor.
  - intros b cs' line rest out _ [lead line0 drop E1 E2 _ _ E3 E4 _ E5 _ _ ED _ _].
    assert (K : Forall (Forall (fun c => is_uspace c = true -> c = cSP)) cs' -> alt cs' ->
      Forall (Forall (fun c => is_uspace c = true -> c = cSP)) line0 /\ Forall (Forall (fun c => is_uspace c = true -> c = cSP)) rest /\ alt line0 /\ alt rest).
    { intros Hc Ha. rewrite E1 in Hc, Ha. rewrite !Forall_app in Hc. apply alt_app in Ha as [_ Ha]. apply alt_app in Ha as [Ha Hb]. tauto. }
    assert (L : forall w, run w -> sp w = false -> Forall (fun c => is_uspace c = true -> c = cSP) w -> stopped w).
    { intros w [Wn Wr] Ws Wc. destruct (snoc_case w) as [->|(a & x & ->)]; [congruence|]. exists a, x. split; auto.
      apply Forall_app in Wr as [_ Wr]. apply Forall_app in Wc as [_ Wc]. inversion Wr as [|? ? W1 _]; inversion Wc as [|? ? W2 _]; subst.
      rewrite Ws in W1. destruct (is_uspace x); auto. rewrite (W2 eq_refl) in W1. discriminate. }
    destruct line as [|l line]; intros IH Hc Ha; destruct (K Hc Ha) as (K1 & K2 & K3 & K4); auto. constructor; auto.
    assert (G : exists ini w, l :: line = ini ++ [w] /\ sp w = false /\ run w /\ Forall (fun c => is_uspace c = true -> c = cSP) w).
    { clear -ED K1 K3. unfold drop_last_blank in ED. destruct (rev line0) as [|w r] eqn:Er; [discriminate|].
      assert (El : line0 = rev r ++ [w]) by (rewrite <- (rev_involutive line0), Er; reflexivity). rewrite El in K1, K3.
      apply Forall_app in K1 as [K1 K1']. destruct (blank_chunk w) eqn:Eb.
      - rewrite ED. destruct r as [|w' r']; [discriminate|]. cbn [rev] in *. exists (rev r'), w'. split; auto.
        apply Forall_app in K1 as [_ K1]. inversion K1; subst. rewrite <- app_assoc in K3. apply alt_app in K3 as [_ K3]. cbn [app alt] in K3.
        destruct K3 as (R1 & D & R2 & _). split; [|auto]. destruct (sp w') eqn:Es; auto. exfalso. apply D. symmetry.
        destruct R2 as [Wn Wr]. inversion K1'; subst. destruct w as [|z w]; [congruence|]. cbn [sp]. inversion H3 as [|? ? Z1 _]; subst.
        cbn in Eb. apply andb_prop in Eb as [Eb _]. rewrite (Z1 Eb). reflexivity.
      - rewrite ED. exists (rev r), w. rewrite El. apply alt_app in K3 as [_ K3]. cbn in K3. destruct K3 as (R & _). inversion K1'; subst.
        split; auto. split; [|auto]. destruct (sp w) eqn:Es; auto. apply run_sp in Es; auto. unfold blank_chunk in Eb. congruence. }
    destruct G as (ini & w & -> & Ws & Wr & Wc). rewrite concat_app. apply stopped_app. cbn [List.concat]. rewrite app_nil_r. now apply L.
Qed.
Lemma stable_stopped width : forall n prev ls, plain_blanks prev -> stable_loop width n prev = Ok ls -> Forall stopped ls.
Proof.
  induction n as [|n IH]; intros prev ls Hp H; [discriminate|]. cbn [stable_loop] in H. bkm H. destruct (seqb _ prev).
  - injection H as <-. eapply wrap_stopped; eauto.
  - assert (Forall plain_blanks x) by (apply (P_wrap plain_blanks plain_nil plain_sub plain_join width prev); auto).
    destruct x; [discriminate|]. apply IH in H; auto. apply (P_linejoin plain_blanks); auto using plain_join. constructor.
Qed.
Definition trim (s : str) : Prop := s = nil \/ stopped s.
Lemma trim_app a s : trim a -> trim s -> trim (a ++ s).
Proof. intros A [->|S]; [now rewrite app_nil_r|right; now apply stopped_app]. Qed.
Lemma format_list_stopped width mark indent ls : Forall plain_blanks ls -> forall i out, format_list width mark indent i ls = Ok out -> Forall stopped out.
Proof.
  induction 1 as [|l ls Hl _ IH]; intros i out H; simpl in H; [injection H as <-; constructor|].
  bkm H. apply stable_stopped in Hx; [|now apply (P_strip plain_blanks plain_sub)]. destruct x as [|w0 ws]; [discriminate|]. bkm H. injection H as <-.
  inversion Hx as [|? ? A B]; subst. constructor; [now apply stopped_app|]. apply Forall_app. split; [|eauto].
  apply Forall_map. eapply Forall_impl; [|exact B]. intros a Ha. now apply stopped_app.
Qed.
Lemma repeat_trim x n : is_uspace x = false -> trim (repeat x n).
Proof. intros H. destruct n as [|n]; [now left|right]. cbn [repeat]. rewrite repeat_cons. exists (repeat x n), x. auto. Qed.
Lemma format_item_trim c width it out : kept_item plain_blanks it -> format_item c width it = Ok out ->
  Forall trim out /\ (is_list_k (i_kind it) = true -> Forall stopped out).
Proof.
  intros Hk H. unfold format_item in H. unfold kept_item in Hk. destruct (i_kind it) eqn:Ek; cbn [is_list_k].
  1,4,5: split; [|discriminate]; specialize (Hk ltac:(discriminate)); (destruct (_ && _); [injection H as <-; constructor; [now apply repeat_trim|constructor]|];
         apply stable_stopped in H; [eapply Forall_impl; [|exact H]; now right|]; apply (P_strip plain_blanks plain_sub), (P_linejoin plain_blanks); [constructor|exact plain_join|exact Hk]).
  1,2: destruct (_ >? _); [|discriminate]; apply format_list_stopped in H; [|now apply Hk]; split; auto; eapply Forall_impl; [|exact H]; now right.
  - split; [|discriminate]. injection H as <-. repeat constructor.
  - split; [|discriminate]. injection H as <-. constructor; [|constructor]. right. exists $"~~", 126%N. auto.
  - split; [|discriminate]. injection H as <-. apply Forall_map, Forall_forall. intros l _. apply rstripped. auto.
Qed.
Lemma format_items_trim c width its : Forall (kept_item plain_blanks) its -> forall h out, format_items c width h its = Ok out -> Forall trim out.
Proof.
  induction 1 as [|it its Hv Hvs IH]; intros h out H; cbn [format_items] in H; [injection H as <-; constructor|].
  destruct (is_list_k _) eqn:El; bkm H; apply format_item_trim in Hx as [A B]; auto; bkm H; injection H as <-; apply Forall_app; split; eauto.
  apply Forall_map. eapply Forall_impl; [|exact (B El)]. intros a Ha. right. now apply stopped_app.
Qed.
(** a fence does not bring in blanks; the prefix of an explicitly trailing comment
    begins and ends with a mark *)
Definition neat_markup (c : mcfg) : Prop :=
  (forall l f x, plain_blanks l -> mk_fence c l = Some (f, x) -> plain_blanks x) /\ starts (mk_trailing c) /\ stopped (mk_trailing c).
Theorem comment_lines_neat c first x p w ls : markup_ok c -> neat_markup c ->
  (forall t, In (T t) p -> is_tt COMMENT t = true -> plain_blanks (spelling t)) -> lines_only p = true ->
  format_comment c first x p w = Ok ls -> Forall neat ls.
Proof.
  intros Hm (Mf & M1 & M2) Hp Hlo H. pose proof (format_comment_noeol _ _ _ _ _ _ Hm Hlo H) as Hnn.
  unfold format_comment in H. bkm H. rename x0 into ils.
  assert (Hils : Forall plain_blanks ils) by (eapply (P_inlines c plain_blanks plain_sub); eauto).
  set (pre := if x then mk_trailing c else [cHASH]) in *.
  assert (Hpre : starts pre /\ stopped pre).
  { subst pre. destruct x; auto. split; [exists cHASH, nil|exists nil, cHASH]; auto. }
  destruct Hpre as [P1 P2].
  assert (Hlit : ls = map (fun l => pre ++ rstrip l) ils -> Forall (fun l => starts l /\ stopped l) ls).
  { intros ->. apply Forall_map, Forall_forall. intros l _. split.
    - destruct P1 as (a & r & -> & Ha). exists a, (r ++ rstrip l). auto.
    - destruct (rstripped is_uspace l (fun _ _ e => e)) as [E|S]; unfold rstrip; [now rewrite E, app_nil_r|now apply stopped_app]. }
  assert (G : Forall (fun l => starts l /\ stopped l) ls).
  { repeat match type of H with
    | (if ?b then Ok _ else _) = _ => destruct b; [injection H as <-; apply Hlit; reflexivity|]
    end.
    bkm H. injection H as <-. rename x0 into out.
    assert (Hout : Forall trim out).
    { eapply format_items_trim; [|exact Hx0]. apply (kept_markup c plain_blanks); auto using plain_join, plain_nil, plain_sub. }
    apply Forall_map. eapply Forall_impl; [|exact Hout]. intros l Hl. split.
    - destruct P1 as (a & r & -> & Ha). eexists a, _. split; [reflexivity|exact Ha].
    - destruct Hl as [->|Hl]; [now rewrite !app_nil_r|]. now apply stopped_app, stopped_app. }
  rewrite Forall_forall in *. intros l Hl. destruct (G l Hl). apply neat_line; auto.
Qed.

(** ** C96 *)
(** A token whose text is not the cause of a complaint: blanks are ASCII blanks; a
    text other than a comment line has no tab and neither begins nor ends with a
    blank. *)
Definition neat_tok (t : token) : bool :=
  is_ws t
  || forallb (fun ch => implb (is_uspace ch) (is_aspace ch)) (spelling t)
     && (is_tt COMMENT t
         || negb (has_chr cTAB (spelling t))
            && match spelling t with ch :: _ => negb (is_uspace ch) | nil => false end
            && match rev (spelling t) with ch :: _ => negb (is_uspace ch) | nil => false end).
Lemma neat_tok_plain t : neat_tok t = true -> is_ws t = false -> plain_blanks (spelling t).
Proof.
  unfold neat_tok. intros H E. rewrite E in H. cbn [orb] in H. apply andb_prop in H as [H _]. rewrite forallb_forall in H. apply Forall_forall. intros x Hx Hu.
  specialize (H x Hx). now rewrite Hu in H.
Qed.
Lemma neat_tok_text t : neat_tok t = true -> is_ws t = false -> is_tt COMMENT t = false -> neat (normalize (spelling t)).
Proof.
  intros H Hw Hc. pose proof (neat_tok_plain _ H Hw) as P. unfold neat_tok in H. rewrite Hw, Hc in H. cbn [orb] in H.
  apply andb_prop in H as [_ H]. apply andb_prop in H as [H H3]. apply andb_prop in H as [H1 H2]. apply neat_normalize; auto.
  - destruct (spelling t) as [|x r]; [discriminate|]. exists x, r. split; auto. now apply negb_true_iff.
  - destruct (rev (spelling t)) as [|x r] eqn:E; [discriminate|]. exists (rev r), x. split; [|now apply negb_true_iff].
    now rewrite <- (rev_involutive (spelling t)), E.
  - intros Hin. apply negb_true_iff in H1. unfold has_chr in H1. assert (existsb (N.eqb cTAB) (spelling t) = true); [|congruence].
    apply existsb_exists. exists cTAB. split; auto.
Qed.
Definition item_neat (e : env) (i : item) : Prop :=
  match i with IText _ s => neat s | IComment x p => forall w ls, cmt e x p w = Ok ls -> Forall neat ls end.
Lemma realizes_neat e is ps : realizes e is ps -> Forall (item_neat e) is -> Forall (fun p => neat (p_text p)) ps.
Proof.
  induction 1 as [|k s is p ps Es Ek _ IH|x q w ls cps is ps Ec Hn El Hk _ IH]; intros H; [constructor| |]; inversion H as [|? ? A B]; subst.
  - constructor; auto.
  - apply Forall_app. split; auto. specialize (A _ _ Ec). now rewrite Forall_map in A.
Qed.
Lemma in_toksT p t : In (T t) p -> In t (toksT p).
Proof. intros H. unfold toksT. apply in_flat_map. exists (T t). split; [exact H|now left]. Qed.
Lemma says_neat c first cfg pl rs is : markup_ok c -> neat_markup c -> says pl rs is ->
  (forall t, In t (map snd rs) -> neat_tok t = true /\ is_ws t = false /\ (is_tt COMMENT t = true -> ~ In cNL (spelling t))) ->
  Forall (item_neat (Env cfg (format_comment c first))) is.
Proof.
  intros Hm Hk. induction 1 as [|k t rs is K Ht _ IH|k t rs is K Ht _ IH|k t s rs is K Ht Hl _ IH|t s rs is Hs _ IH|x t rs is Ht _ IH|x ts p rs is Hn Hts Ets Hpl _ IH];
    intros H; [constructor| | | | | |].
  1-5: assert (IH' := IH (fun u Hu => H u (or_intror Hu))); destruct (H t (or_introl eq_refl)) as (H1 & H2 & H3); constructor; [|exact IH'].
  - cbn. destruct k; (split; [eexists _, _; split; [reflexivity|reflexivity]|split; [exists nil; eexists; split; reflexivity|reflexivity]]).
  - cbn. apply neat_tok_text; auto. unfold is_tt. unfold is_comment in Ht. destruct (tt t); auto; discriminate.
  - cbn. eapply neat_cased; [exact Hl|]. apply neat_tok_text; auto. unfold is_tt. unfold is_comment in Ht. destruct (tt t); auto; discriminate.
  - cbn. unfold onoff_text in Hs. destruct (tt t); try discriminate; injection Hs as <-.
    + split; [eexists _, _; split; reflexivity|]. split; [exists $"# cmake-format: of", 102%N; split; reflexivity|reflexivity].
    + split; [eexists _, _; split; reflexivity|]. split; [exists $"# cmake-format: o", 110%N; split; reflexivity|reflexivity].
  - cbn. apply neat_tok_text; auto. unfold is_tt in *. destruct (tt t); auto; discriminate.
  - assert (Hin : forall t, In (T t) p -> is_tt COMMENT t = true -> In t (map snd (map (pair (KComment x)) ts ++ rs))).
    { intros t Ht Et. rewrite map_app, map_map. cbn [snd]. rewrite map_id. apply in_or_app. left. rewrite Ets. apply filter_In. split; [now apply in_toksT|].
      unfold nonws, is_ws. unfold is_tt in Et. destruct (tt t); try discriminate; reflexivity. }
    constructor.
    + cbn [item_neat cmt]. intros w ls Hw. eapply comment_lines_neat; [exact Hm|exact Hk| | |exact Hw].
      * intros t Ht Et. destruct (H t (Hin t Ht Et)) as (A & B & _). now apply neat_tok_plain.
      * unfold lines_only. apply forallb_forall. intros [t|k q] Ht; auto. destruct (is_tt COMMENT t) eqn:Et; auto. cbn [implb].
        destruct (H t (Hin t Ht Et)) as (_ & _ & N1). specialize (N1 Et). apply negb_true_iff.
        destruct (existsb (N.eqb cNL) (spelling t)) eqn:E; auto. exfalso. apply N1. apply existsb_exists in E as (y & Hy & E). apply N.eqb_eq in E. now subst y.
    + apply IH. intros t Ht. apply H. rewrite map_app. apply in_or_app. now right.
Qed.
(** What the formatter writes within its width has no line that cmake-lint's
    checks of lines (too long, trailing blanks, line ending, tab indentation, no
    newline at the end) complain about. *)
Theorem C96_clean_lines c specs tbl src text lc :
  run_cfg c specs tbl -> p_usetabs c = false -> p_bom c = false -> f_endl (effective c src) = [cNL] -> 0 <= f_linewidth (p_fmt c) -> neat_markup (p_markup c) ->
  process_file c src = Ok (text, true) ->
  forall toks, tokenize src = Ok toks -> no_switch toks = true -> forallb neat_tok toks = true ->
  lc_width lc = f_linewidth (p_fmt c) -> lc_ending lc = Some Unix -> lc_usetabs lc = false ->
  check_basics lc text = nil.
Proof.
  intros R Ht Hb He Hw Hk H toks Hl Hno Hneat Lw Le Lt.
  destruct (C36_file_width _ _ _ _ _ R Ht Hw H toks Hl Hno) as (o & Eo & Ho).
  destruct (C34_file_pairs false _ _ _ _ _ _ R Ht H toks Hl ltac:(discriminate) Hno) as (rs & is0 & is & gs & ps & A & _ & B & C & _ & D & E & F).
  rewrite He in Ho, F. unfold bom_text in Eo, F. rewrite Hb in Eo, F. cbn [app] in Eo, F. subst o.
  assert (Hm : markup_ok (p_markup c)) by apply R.
  assert (Hrs : forall t, In t (map snd rs) -> neat_tok t = true /\ is_ws t = false /\ (is_tt COMMENT t = true -> ~ In cNL (spelling t))).
  { intros t Hin. apply (Permutation_in _ (Permutation_sym A)) in Hin. apply filter_In in Hin as [Hin Hws].
    assert (Hin' : In t toks). { unfold strip_bom_tok in Hin. destruct toks as [|u r]; [destruct Hin|]. destruct (is_tt BYTEORDER_MARK u); [now right|exact Hin]. }
    rewrite forallb_forall in Hneat. split; [auto|]. split; [unfold nonws in Hws; now apply negb_true_iff in Hws|].
    intros Et. apply in_split in Hin' as (pre & post & Es). unfold is_tt in Et. apply ttype_eqb_eq in Et.
    destruct (C04_token_classes _ _ _ _ _ Hl Es ltac:(congruence)) as (G & _). rewrite Et in G. destruct G as (b & -> & Hb'). intros [X|X]; [discriminate|auto]. }
  pose proof (says_neat (p_markup c) (first_token toks) (effective c src) false rs is0 Hm Hk B Hrs) as Hi0.
  assert (Hi : Forall (item_neat (pipe_env c src toks)) is).
  { rewrite Forall_forall in *. intros i Hin. apply Hi0. apply (Permutation_in _ (Permutation_sym C)), Hin. }
  pose proof (realizes_neat _ _ _ D Hi) as Hps. destruct (page_ok gs ps true Hps) as [K1 K2].
  assert (T1 : okt true false text = true) by (rewrite F, okt_app, K1, K2; reflexivity).
  assert (T2 : snd (est true false text) = false) by (rewrite F, est_app; reflexivity).
  unfold check_basics. rewrite lines_clean; auto.
  - rewrite F. unfold endswith. rewrite rev_app_distr. cbn. reflexivity.
  - now apply text_lines.
  - eapply Forall_impl; [|exact Ho]. intros l Hl'. cbv beta in Hl'. change (zlen [cNL]) with 1 in Hl'. lia.
Qed.
Lemma default_neat_markup : neat_markup default_mcfg.
Proof.
  split; [|split; [exists cHASH; eexists; split; reflexivity|exists [cHASH], 60%N; split; reflexivity]].
  intros l f x Hl H. cbn in H. unfold fence_match in H. destruct (span is_uspace l) as [a r] eqn:E1. apply (P_span plain_blanks plain_sub) in E1; auto.
  destruct (span is_fence_c r) as [b y] eqn:E2. apply (P_span plain_blanks plain_sub) in E2; auto. destruct (3 <=? zlen b); [|discriminate]. now injection H as <- <-.
Qed.
Definition tabs_file : str := nl
  [$"#  a list " ++ [cTAB] ++ $" of files  "; $"# * one " ++ [cTAB]; $"if(A) "; [cTAB] ++ $"set(x 1" ++ [cTAB] ++ $"2) # why  "; $"endif()  "].
(** the file itself is full of such lines ... *)
Example C96_clean_lines_ex :
  (exists toks, tokenize tabs_file = Ok toks /\ no_switch toks = true /\ forallb neat_tok toks = true)
  /\ map q_id (check_basics default_lcfg tabs_file) = [$"C0303"; $"C0303"; $"C0303"; $"C0303"; $"C0306"; $"C0303"]
  /\ process_file default_pcfg tabs_file
     = Ok (nl [$"# a list   of files * one"; $"if(A)"; $"  set(x 1 2) # why"; $"endif()"], true).
Proof. split; [eexists; split; [vm_compute; reflexivity|split; vm_compute; reflexivity]|]. split; vm_compute; reflexivity. Qed.

(** ** C97: windows line endings *)
(** The check splits the file at the newlines, and what follows the last one is
    taken for a line with unix ending. *)
Lemma last_line_in lc ls : lc_ending lc = Some Windows -> forall n, In (Req $"C0327" [n + zlen ls] [FS $"unix"]) (check_lines lc n (ls ++ [nil])).
Proof.
  intros He. induction ls as [|l ls IH]; intros n; cbn [app check_lines].
  - apply in_or_app. left. unfold check_line. change (endswith [cCR] nil) with false. rewrite He. apply in_or_app. right. left. rewrite zlen_nil. f_equal. f_equal. lia.
  - apply in_or_app. right. replace (n + zlen (l :: ls)) with (n + 1 + zlen ls) by (rewrite zlen_cons; lia). apply IH.
Qed.
Theorem C97_windows_refuted c src text v lc :
  p_usetabs c = false -> f_endl (effective c src) = [cCR; cNL] -> process_file c src = Ok (text, v) -> lc_ending lc = Some Windows ->
  In (Req $"C0327" [zlen (split_on cNL text)] [FS $"unix"]) (check_basics lc text).
Proof.
  intros Ht He H Hl. destruct (run_split _ _ _ _ H Ht) as (toks & tree & l & o & _ & _ & _ & E & -> & _).
  unfold write_tree in E. bk E. injection E as <-. unfold getvalue. rewrite He.
  assert (Hs : forall a, exists m ls, split_on cNL (a ++ [cNL]) = m :: ls ++ [nil]).
  { clear. induction a as [|x a (m & ls & IH)]; [now exists nil, nil|]. cbn [app split_on]. rewrite IH. destruct (N.eqb x cNL); [now exists nil, (m :: ls)|now exists (x :: m), ls]. }
  destruct (Hs (bom_text c ++ TextOps.out (w_f x) ++ [cCR])) as (m & ls & Es). rewrite <- !app_assoc in Es. cbn [app] in Es.
  unfold check_basics. rewrite Es. apply in_or_app. left. pose proof (last_line_in lc (m :: ls) Hl 1) as G. cbn [app] in G.
  match goal with |- In (Req _ [?z] _) _ => assert (Ez : z = 1 + zlen (m :: ls)) end.
  { unfold zlen. cbn [List.length]. rewrite app_length. cbn [List.length]. lia. }
  rewrite Ez. exact G.
Qed.
Example C97_windows_ex : exists text, process_file narrow_pcfg src_file = Ok (text, true) /\ p_usetabs narrow_pcfg = false
  /\ f_endl (effective narrow_pcfg src_file) = [cCR; cNL].
Proof. eexists. split; [vm_compute; reflexivity|]. split; reflexivity. Qed.
Print Assumptions C96_clean_lines.
Print Assumptions C97_windows_refuted.
