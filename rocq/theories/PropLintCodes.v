(** * PropLintCodes: the tab policy of cmake-lint, and the codes it never reports (C127, C128) *)
From Verif Require Import Base Regex Lex LexProofs LexClass TextOps TextProofs Tree Parse ParseProofs CmdSpec
  StdSpecs StdDb PropStd PropBlocks Layout Markup Pipeline LintDb Lint PropLint
  PropLintText LintTree PropLintChecks PropLintDefs PropLintMore PropLintCrash LintShape PropReport ParserLint PropRemarks PropLintRest PropHalf.

(** ** C127: the characters of the indentation *)
Definition all_are (c : chr) (s : str) : Prop := forall x, In x s -> x = c.
(** [k]: the first place of the line that breaks the policy; [found] stands there *)
Definition tab_fault (c : lcfg) (ln : str) (k : Z) (found want : str) : Prop :=
  (lc_usetabs c = false /\ found = $"tab" /\ want = $"space" /\ exists a b, ln = a ++ cTAB :: b /\ all_are cSP a /\ k = zlen a) \/
  (lc_usetabs c = true /\ found = $"space" /\ want = $"tab" /\
    ((lc_tabpol c = RoundUp /\ exists a b, ln = a ++ cSP :: b /\ all_are cTAB a /\ k = zlen a) \/
     (lc_tabpol c <> RoundUp /\ exists a g b, ln = a ++ cSP :: g ++ cTAB :: b /\ all_are cTAB a /\ (forall x, In x g -> x = cSP \/ x = cTAB) /\ k = zlen a))).
Definition tab_msg (found want : str) : str := $"Tab-policy violation. Found " ++ found ++ $" but should be " ++ want.

Lemma blank_tab x : is_blank_tab x = true <-> x = cSP \/ x = cTAB.
Proof. unfold is_blank_tab. rewrite orb_true_iff, !N.eqb_eq. tauto. Qed.
Lemma has_chr_in c s : has_chr c s = true <-> In c s.
Proof. unfold has_chr. rewrite existsb_exists. split; [intros (x & H & E); apply N.eqb_eq in E; now subst|]. intros H. exists c. split; [exact H|apply N.eqb_refl]. Qed.
Lemma take_split p (s : str) : exists r, s = take_while p s ++ r /\ (forall x, In x (take_while p s) -> p x = true) /\ match r with nil => True | x :: _ => p x = false end.
Proof.
  induction s as [|x s IH]; [exists nil; split; [reflexivity|split; [intros ? []|exact I]]|]. cbn [take_while]. destruct (p x) eqn:E.
  - destruct IH as (r & E1 & E2 & E3). exists r. split; [cbn [app]; now rewrite <- E1|]. split; [|exact E3]. intros y [<-|Hy]; auto.
  - exists (x :: s). split; [reflexivity|]. split; [intros ? []|exact E].
Qed.
Lemma take_app p (a : str) r : (forall x, In x a -> p x = true) -> take_while p (a ++ r) = a ++ take_while p r.
Proof. induction a as [|x a IH]; intros H; [reflexivity|]. cbn [app take_while]. rewrite H by now left. f_equal. apply IH. intros y Hy. apply H. now right. Qed.
Lemma find_first_chr c s a b : s = a ++ c :: b -> ~ In c a -> find_chr c s = zlen a.
Proof.
  intros -> Hn. induction a as [|x a IH]; cbn [app find_chr]; [now rewrite N.eqb_refl|]. destruct (N.eqb x c) eqn:E.
  - exfalso. apply Hn. left. now apply N.eqb_eq.
  - rewrite IH by (intros F; apply Hn; now right). unfold zlen. cbn [List.length]. lia.
Qed.
Lemma first_split (c : chr) s : In c s -> exists a b, s = a ++ c :: b /\ ~ In c a.
Proof.
  induction s as [|x s IH]; intros H; [destruct H|]. destruct (N.eq_dec x c) as [->|Hx]; [exists nil, s; split; [reflexivity|intros []]|].
  destruct H as [H|H]; [congruence|]. destruct (IH H) as (a & b & -> & Hn). exists (x :: a), b. split; [reflexivity|]. intros [F|F]; auto.
Qed.
(** the first [c] of the indentation, when only the other character stands before it *)
Lemma fault_first c d ln k : c <> d -> In c [cSP; cTAB] -> In d [cSP; cTAB] ->
  (has_chr c (take_while is_blank_tab ln) = true /\ k = find_chr c (take_while is_blank_tab ln)) <->
  exists a b, ln = a ++ c :: b /\ all_are d a /\ k = zlen a.
Proof.
  intros Hcd Hc Hd. assert (forall x, is_blank_tab x = true <-> x = c \/ x = d) as HB.
  { intros x. rewrite blank_tab. cbn [In] in Hc, Hd. destruct Hc as [<-|[<-|[]]]; destruct Hd as [<-|[<-|[]]]; tauto. }
  split.
  - intros [H ->]. apply has_chr_in, first_split in H as (a & b & E & Hn). destruct (take_split is_blank_tab ln) as (r & E1 & E2 & _).
    exists a, (b ++ r). split; [rewrite E1 at 1; rewrite E; now rewrite <- app_assoc|]. split; [|now apply (find_first_chr c _ a b)].
    intros x Hx. assert (is_blank_tab x = true) as Hb by (apply E2; rewrite E; apply in_app_iff; now left). apply HB in Hb as [->|]; [now exfalso|assumption].
  - intros (a & b & -> & Ha & ->). rewrite take_app by (intros x Hx; apply HB; right; now apply Ha). cbn [take_while].
    rewrite (proj2 (HB c)) by now left. split; [apply has_chr_in, in_app_iff; right; now left|]. symmetry.
    apply (find_first_chr c _ a (take_while is_blank_tab b)); [reflexivity|]. intros F. apply Ha in F. auto.
Qed.
Lemma strip_tabs a r : all_are cTAB a -> match r with nil => True | x :: _ => x <> cTAB end -> lstrip_by (N.eqb cTAB) (a ++ r) = r.
Proof.
  intros Ha Hr. induction a as [|x a IH].
  - cbn [app]. destruct r as [|x r]; [reflexivity|]. cbn [lstrip_by]. destruct (N.eqb cTAB x) eqn:E; [|reflexivity]. apply N.eqb_eq in E. congruence.
  - cbn [app lstrip_by]. rewrite (Ha x) by now left. rewrite N.eqb_refl. apply IH. intros y Hy. apply Ha. now right.
Qed.
Lemma strip_split (s : str) : exists a, s = a ++ lstrip_by (N.eqb cTAB) s /\ all_are cTAB a /\ match lstrip_by (N.eqb cTAB) s with nil => True | x :: _ => x <> cTAB end.
Proof.
  induction s as [|x s IH]; [exists nil; split; [reflexivity|split; [intros ? []|exact I]]|]. cbn [lstrip_by]. destruct (N.eqb cTAB x) eqn:E.
  - apply N.eqb_eq in E. subst x. destruct IH as (a & E1 & E2 & E3). exists (cTAB :: a). split; [cbn [app]; now rewrite <- E1|]. split; [|exact E3]. intros y [<-|Hy]; auto.
  - exists nil. split; [reflexivity|]. split; [intros ? []|]. intros ->. rewrite N.eqb_refl in E. discriminate.
Qed.
Lemma fault_mixed ln k : let ind := take_while is_blank_tab ln in
  (has_chr cTAB (lstrip_by (N.eqb cTAB) ind) = true /\ k = zlen ind - zlen (lstrip_by (N.eqb cTAB) ind)) <->
  exists a g b, ln = a ++ cSP :: g ++ cTAB :: b /\ all_are cTAB a /\ (forall x, In x g -> x = cSP \/ x = cTAB) /\ k = zlen a.
Proof.
  intros ind. split.
  - intros [H ->]. destruct (take_split is_blank_tab ln) as (r & E1 & E2 & _). fold ind in E1, E2. destruct (strip_split ind) as (a & E3 & E4 & E5).
    set (u := lstrip_by (N.eqb cTAB) ind) in *. assert (forall x, In x u -> x = cSP \/ x = cTAB) as Hu by (intros x Hx; apply blank_tab, E2; rewrite E3; apply in_app_iff; now right).
    apply has_chr_in in H. destruct u as [|x u]; [destruct H|]. destruct (Hu x) as [-> | ->]; [now left| |congruence]. destruct H as [H|H]; [discriminate|].
    apply in_split in H as (g & b & Eg). exists a, g, (b ++ r). split; [rewrite E1, E3, Eg; cbn [app]; rewrite <- !app_assoc; cbn [app]; now rewrite <- app_assoc|]. split; [exact E4|].
    split; [intros y Hy; apply Hu; right; rewrite Eg; apply in_app_iff; now left|]. rewrite E3, zlen_app. lia.
  - intros (a & g & b & -> & Ha & Hg & ->). unfold ind.
    rewrite take_app by (intros x Hx; apply blank_tab; right; now apply Ha). cbn [take_while]. change (is_blank_tab cSP) with true. cbv iota.
    rewrite take_app by (intros x Hx; now apply blank_tab, Hg). cbn [take_while]. change (is_blank_tab cTAB) with true. cbv iota.
    rewrite strip_tabs by (auto; discriminate). split; [apply has_chr_in; right; apply in_app_iff; right; now left|]. rewrite zlen_app. lia.
Qed.

(** the records of a code that only [check_basics] asks for *)
Lemma basic_code c src y i : lint_file c src ctx0 = Ok y -> parsers_ok c -> In i [$"C0301"; $"C0327"; $"C0303"; $"C0306"; $"C0304"] ->
  forall r, In r (x_lint y) /\ l_id r = i <-> ~ In i (lc_disabled c) /\ exists q, q_id q = i /\ written r q /\ In q (check_basics c src).
Proof.
  intros H HP Hi r. apply file_in in H as (toks & tree & qt & qv & Ht & Hp & Hqt & Hqv & _ & HR). rewrite HR. unfold enabled. cbn [x_lint x_sup ctx0 In]. split.
  - intros [[[]|(q & W & [E _] & K)] Er]. pose proof (proj1 W) as Eid. rewrite Er in Eid. symmetry in Eid. rewrite Eid in E. split; [exact E|]. exists q. split; [exact Eid|]. split; [exact W|].
    assert (forall l, (forall z, In z l -> ~ In z [$"C0301"; $"C0327"; $"C0303"; $"C0306"; $"C0304"]) -> In (q_id q) l -> False) as No.
    { intros l Hl Hq. apply (Hl _ Hq). now rewrite Eid. }
    assert (forall l, existsb (fun z => smem z [$"C0301"; $"C0327"; $"C0303"; $"C0306"; $"C0304"]) l = false -> In (q_id q) l -> False) as No2.
    { intros l Hl. apply No. intros z Hz F. apply not_true_iff_false in Hl. apply Hl. apply existsb_exists. exists z. split; [exact Hz|]. now apply smem_In. }
    destruct K as [K|[K|[K|[K|[K|K]]]]]; [exact K|exfalso..].
    + apply (coded_in _ _ _ (tokens_coded _ _ _ Hqt)) in K. revert K. now apply No2.
    + apply (coded_in _ _ _ (HP toks)) in K. revert K. now apply No2.
    + apply (coded_in _ _ _ (assignments_coded _ _ Hqv)) in K. revert K. now apply No2.
    + apply (coded_in _ _ _ (references_coded tree)) in K. revert K. now apply No2.
    + destruct K as [([s [t|k cs]] & Hv & K)|(pre & s & t & post & E2 & K)]; [destruct K| |].
      * pose proof (node_coded _ _ _ _ _ K) as Hc. revert Hc. apply No2. destruct k; reflexivity.
      * apply (coded_in _ _ _ (indent_coded _ _ _ _)) in K. revert K. now apply No2.
  - intros (Hd & q & Eq & W & K). split; [|rewrite <- Eq; apply W]. right. exists q. split; [exact W|]. rewrite Eq. split; [split; [exact Hd|intros []]|]. now left.
Qed.
Lemma take_cr (l : str) : take_while is_blank_tab (l ++ [cCR]) = take_while is_blank_tab l.
Proof. induction l as [|x l IH]; [reflexivity|]. cbn [app take_while]. destruct (is_blank_tab x); [now rewrite IH|reflexivity]. Qed.
Lemma take_before ln : take_while is_blank_tab (if endswith [cCR] ln then removelast ln else ln) = take_while is_blank_tab ln.
Proof.
  destruct (endswith [cCR] ln) eqn:E; [|reflexivity]. apply endswith_1 in E as (l & x & -> & <-). now rewrite removelast_last, take_cr.
Qed.
Lemma tab_req c n ln q : q_id q = $"C0306" -> (In q (check_line c n ln) <->
  exists k found want, tab_fault c ln k found want /\ q = Req $"C0306" [n; k] [FS found; FS want]).
Proof.
  intros Eid. unfold check_line. cbv zeta. rewrite !in_app_iff, take_before.
  assert (forall (b : bool) q', q_id q' <> $"C0306" -> (In q (if b then [q'] else nil) <-> False)) as N1.
  { intros b q' Hq. destruct b; cbn [In]; [|tauto]. split; [|tauto]. intros [->|[]]. auto. }
  assert (forall (b : bool) q', q_id q' <> $"C0306" -> (In q (if b then nil else [q']) <-> False)) as N2.
  { intros b q' Hq. destruct b; cbn [In]; [tauto|]. split; [|tauto]. intros [->|[]]. auto. }
  assert (In q (if endswith [cCR] ln
      then match lc_ending c with Some Unix => [Req $"C0327" [n] [FS $"windows"]] | _ => nil end
      else match lc_ending c with Some Windows => [Req $"C0327" [n] [FS $"unix"]] | _ => nil end) <-> False) as N3.
  { split; [|tauto]. destruct (endswith _ _); destruct (lc_ending c) as [[]|]; cbn [In]; try tauto; intros [<-|[]]; discriminate Eid. }
  rewrite N1, N2, N3 by discriminate. unfold tab_fault.
  assert (forall (b : bool) z fo wa, In q (if b then [Req $"C0306" [n; z] [FS fo; FS wa]] else nil) <-> exists k, (b = true /\ k = z) /\ q = Req $"C0306" [n; k] [FS fo; FS wa]) as Y.
  { intros b z fo wa. destruct b; cbn [In].
    - split; [intros [<-|[]]; exists z; auto|intros (k & (_ & ->) & ->); now left].
    - split; [intros []|intros (k & (F & _) & _); discriminate]. }
  destruct (lc_usetabs c); cbn [negb]; [destruct (lc_tabpol c)|].
  - rewrite Y. setoid_rewrite (fault_mixed ln). split.
    + intros [[]|[[]|[[]|(k & F & E)]]]. exists k, $"space", $"tab". split; [|exact E]. right. split; [reflexivity|]. split; [reflexivity|]. split; [reflexivity|]. right. split; [discriminate|exact F].
    + intros (k & fo & wa & [(F & _)|(_ & -> & -> & [(F & _)|(_ & F)])] & E); try discriminate. do 3 right. exists k. auto.
  - rewrite Y. setoid_rewrite (fault_first cSP cTAB ln); [|discriminate|cbn; auto|cbn; auto]. split.
    + intros [[]|[[]|[[]|(k & F & E)]]]. exists k, $"space", $"tab". split; [|exact E]. right. split; [reflexivity|]. split; [reflexivity|]. split; [reflexivity|]. left. split; [reflexivity|exact F].
    + intros (k & fo & wa & [(F & _)|(_ & -> & -> & [(_ & F)|(F & _)])] & E); [discriminate| |congruence]. do 3 right. exists k. auto.
  - rewrite Y. setoid_rewrite (fault_mixed ln). split.
    + intros [[]|[[]|[[]|(k & F & E)]]]. exists k, $"space", $"tab". split; [|exact E]. right. split; [reflexivity|]. split; [reflexivity|]. split; [reflexivity|]. right. split; [discriminate|exact F].
    + intros (k & fo & wa & [(F & _)|(_ & -> & -> & [(F & _)|(_ & F)])] & E); try discriminate. do 3 right. exists k. auto.
  - rewrite Y. setoid_rewrite (fault_first cTAB cSP ln); [|discriminate|cbn; auto|cbn; auto]. split.
    + intros [[]|[[]|[[]|(k & F & E)]]]. exists k, $"tab", $"space". split; [|exact E]. left. auto.
    + intros (k & fo & wa & [(_ & -> & -> & F)|(F & _)] & E); [|discriminate]. do 3 right. exists k. auto.
Qed.
(** C127: the reports about tabs and spaces in the indentation.  Without tabs, the first
    tab of the indentation is reported.  With tabs and round-up, the first space.  With
    tabs otherwise, the first space when a tab comes behind it in the indentation. *)
Theorem C127_tab_policy : forall c src y ls, lint_file c src ctx0 = Ok y -> parsers_ok c -> ~ In $"C0306" (lc_disabled c) ->
  src = join [cNL] ls -> is_line cNL ls ->
  forall r, In r (x_lint y) /\ l_id r = $"C0306" <->
    exists i ln k found want, nth_error ls i = Some ln /\ tab_fault c ln k found want /\
      r = LRec $"C0306" [1 + Z.of_nat i; k] (tab_msg found want).
Proof.
  intros c src y ls H HP Hd -> Hl r. rewrite (basic_code c _ y $"C0306" H HP) by inl_tac.
  assert (forall n k fo wa, written r (Req $"C0306" [n; k] [FS fo; FS wa]) <-> r = LRec $"C0306" [n; k] (tab_msg fo wa)) as W.
  { intros n k fo wa. replace (tab_msg fo wa) with (tab_msg fo (wa ++ nil)) by now rewrite app_nil_r. apply (written_msg $"C0306" _ _ $"Tab-policy violation. Found {:s} but should be {:s}"); reflexivity. }
  assert (forall q, q_id q = $"C0306" -> (In q (check_basics c (join [cNL] ls)) <-> exists i ln k fo wa, nth_error ls i = Some ln /\ tab_fault c ln k fo wa /\ q = Req $"C0306" [1 + Z.of_nat i; k] [FS fo; FS wa])) as B.
  { intros q Eq. unfold check_basics. rewrite in_app_iff, split_join by exact Hl. rewrite in_check_lines. split.
    - intros [(i & ln & E & K)|K].
      + apply (tab_req c _ ln q Eq) in K as (k & fo & wa & F & E2). exists i, ln, k, fo, wa. auto.
      + exfalso. destruct (endswith _ _); [destruct K|]. destruct K as [<-|[]]. discriminate Eq.
    - intros (i & ln & k & fo & wa & E & F & E2). left. exists i, ln. split; [exact E|]. apply tab_req; [exact Eq|]. exists k, fo, wa. auto. }
  split.
  - intros (_ & q & Eq & Wq & K). apply (B q Eq) in K as (i & ln & k & fo & wa & E & F & ->). apply W in Wq. exists i, ln, k, fo, wa. auto.
  - intros (i & ln & k & fo & wa & E & F & Er). split; [exact Hd|]. exists (Req $"C0306" [1 + Z.of_nat i; k] [FS fo; FS wa]). split; [reflexivity|]. split; [now apply W|]. apply B; [reflexivity|]. exists i, ln, k, fo, wa. auto.
Qed.
Definition tab_lcfg (tabs : bool) (pol : tab_policy) : lcfg :=
  LCfg 80 (Some Unix) tabs pol 2 nil 1 2 2 6 12 5 50 nil nil nil nil nil nil nil nil
       (fun _ _ => true) default_mcfg the_ctx (fun _ => true) (fun _ => false) (fun _ => nil) (fun _ => nil).
Definition tab_sample : list str := [$"  foo()"; [cTAB] ++ $"foo()"; [cSP; cSP; cTAB] ++ $"foo()"; [cTAB; cSP] ++ $"foo()"; [cTAB; cSP; cTAB] ++ $"foo()"; nil].
Definition c0306 (c : lcfg) (x : res lctx) : list (list Z * str) :=
  match x with Ok y => map (fun r => (l_loc r, l_msg r)) (filter (fun r => seqb (l_id r) $"C0306") (x_lint y)) | _ => nil end.
Example C127_ex : let src := join [cNL] tab_sample in
  is_line cNL tab_sample /\ (forall tabs pol, parsers_ok (tab_lcfg tabs pol) /\ ~ In $"C0306" (lc_disabled (tab_lcfg tabs pol))) /\
  (exists y, lint_file (tab_lcfg false UseSpace) src ctx0 = Ok y) /\
  let show tabs pol := c0306 (tab_lcfg tabs pol) (lint_file (tab_lcfg tabs pol) src ctx0) in
  show false UseSpace = [([2; 0], tab_msg $"tab" $"space"); ([3; 2], tab_msg $"tab" $"space"); ([4; 0], tab_msg $"tab" $"space"); ([5; 0], tab_msg $"tab" $"space")] /\
  show true RoundUp = [([1; 0], tab_msg $"space" $"tab"); ([3; 0], tab_msg $"space" $"tab"); ([4; 1], tab_msg $"space" $"tab"); ([5; 1], tab_msg $"space" $"tab")] /\
  show true UseSpace = [([3; 0], tab_msg $"space" $"tab"); ([5; 1], tab_msg $"space" $"tab")].
Proof.
  cbv zeta. split; [split; [discriminate|]|].
  - intros l Hl. repeat (destruct Hl as [<-|Hl]; [cbn; intros F; repeat (destruct F as [F|F]; [discriminate|]); destruct F|]). destruct Hl.
  - split; [intros tabs pol; split; [intros toks; constructor|intros []]|]. split; [eexists; vm_compute; reflexivity|]. split; [vm_compute; reflexivity|]. split; vm_compute; reflexivity.
Qed.

(** ** C128: the documented codes *)
Lemma code_known i tpl : assoc_s i lint_db = Some tpl -> In i (map fst lint_db).
Proof.
  unfold assoc_s. induction lint_db as [|[k v] l IH]; [discriminate|]. cbn [find fst map In]. destruct (seqb i k) eqn:E; [intros _; left; symmetry; now apply seqb_eq|].
  intros H. right. now apply IH.
Qed.
(** Three documented codes are never reported, whatever the file and the options. *)
Theorem C128_reported_refuted : forall c src y r, lint_file c src ctx0 = Ok y -> parsers_ok c -> In r (x_lint y) -> In (l_id r) (map fst lint_db) /\ ~ In (l_id r) [$"C0102"; $"R0914"; $"W0104"].
Proof.
  intros c src y r H HP Hr. apply file_in in H as (toks & tree & qt & qv & Ht & Hp & Hqt & Hqv & _ & HR). apply HR in Hr as [[]|(q & W & _ & K)].
  destruct W as (Eid & _ & tpl & Etpl & _). rewrite Eid. split.
  { now apply (code_known _ _ Etpl). }
  intros Hi. assert (forall l, existsb (fun z => smem z [$"C0102"; $"R0914"; $"W0104"]) l = false -> In (q_id q) l -> False) as No.
  { intros l Hl Hq. apply not_true_iff_false in Hl. apply Hl. apply existsb_exists. exists (q_id q). split; [exact Hq|]. now apply smem_In. }
  destruct K as [K|[K|[K|[K|[K|K]]]]].
  + apply (coded_in _ _ _ (basics_coded c src)) in K. revert K. now apply No.
  + apply (coded_in _ _ _ (tokens_coded _ _ _ Hqt)) in K. revert K. now apply No.
  + apply (coded_in _ _ _ (HP toks)) in K. revert K. now apply No.
  + apply (coded_in _ _ _ (assignments_coded _ _ Hqv)) in K. revert K. now apply No.
  + apply (coded_in _ _ _ (references_coded tree)) in K. revert K. now apply No.
  + destruct K as [([s [t|k cs]] & Hv & K)|(pre & s & t & post & E2 & K)]; [destruct K| |].
    * pose proof (node_coded _ _ _ _ _ K) as Hc. revert Hc. apply No. destruct k; reflexivity.
    * apply (coded_in _ _ _ (indent_coded _ _ _ _)) in K. revert K. now apply No.
Qed.
(** The rest of the claim: each of the other codes is reported for some file; the file and
    the options below give all of them. *)
Definition every_lcfg : lcfg := with_remarks nil
  (LCfg 60 (Some Unix) false UseSpace 2 nil 1 1 2 0 0 0 0
       $"[0-9a-z_]+" $"[0-9A-Z_]+" $"[A-Z][0-9A-Z_]+" $"_[A-Z][0-9A-Z_]+" $"[a-z][a-z0-9_]+"
       $"_[0-9a-z_]+" $"[A-Z][0-9A-Z_]+" $"[a-z][a-z0-9_]+"
       (fun _ _ => false) default_mcfg the_ctx (fun _ => true) cond_group (fun _ => nil) (fun _ => nil)).
Definition every_sample : str := join [cNL] [$"# cmake-lint: foo disable=Z ";
  $"file(FOO x) list(${X} y)"; $"add_custom_command(DEPENDS x)"; $"add_custom_target(t)"; $"set(x CACHE y z FORCE a b)"; $"configure_file(a)"; $"set(cmake_build_type ""$CMAKE_BUILD_TYPE"")" ++ [cCR];
  $"function(f A a A 1x)"; [cTAB] ++ $"return()"; $"  foreach(x ${ARGN})"; $"    if(x STREQUAL a)"; $"    elseif(x MATCHES b)"; $"    elseif(x MATCHES c)"; $"    elseif(x MATCHES d)"; $"    endif()"; $"  endforeach()"; $"endfunction()";
  $""; $""; $""; $"#"; $"macro(h)"; $"endmacro()"; $"   break()"; $"file( )"; $""; $""; $""; $""; $"install(TARGETS a DESTINATION b c DESTINATION e)"; $"add_library(a STATIC x PUBLIC a PUBLIC b)"; $"message(""a long message that is longer than the line may be in this file"")"].
Theorem C128_reported_partial : exists c src y, lint_file c src ctx0 = Ok y /\ lc_plint c = plint (lc_ctx c) nil /\
  forall i, In i (map fst lint_db) -> ~ In i [$"C0102"; $"R0914"; $"W0104"] -> exists r, In r (x_lint y) /\ l_id r = i.
Proof.
  exists every_lcfg, every_sample. eexists. split; [vm_compute; reflexivity|]. split; [reflexivity|].
  match goal with |- forall i, _ -> _ -> exists r, In r ?l /\ _ => set (recs := l) end.
  assert (forallb (fun i => smem i [$"C0102"; $"R0914"; $"W0104"] || smem i (map l_id recs)) (map fst lint_db) = true) as B by (vm_compute; reflexivity).
  intros i Hi Hn. pose proof (proj1 (forallb_forall _ _) B i Hi) as K. apply orb_true_iff in K as [K|K]; [apply smem_In in K; now exfalso|].
  apply smem_In, in_map_iff in K as (r & E & Hr). eauto.
Qed.
