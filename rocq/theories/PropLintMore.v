(** * PropLintMore: which names the linter takes for misspelled builtin variables
    (C61), repeated keywords (C64) and indentation (C69) *)
From Coq Require Import Permutation.
From Verif Require Import Base Regex Lex LexProofs LexClass TextOps TextProofs Tree Parse ParseProofs CmdSpec
  StdSpecs StdDb PropStd PropBlocks ArgShape Layout SortProofs Markup Pipeline NamesShape LintDb Lint PropLint
  PropLintText LintTree PropLintChecks PropLintDefs.

(** ** C61: names equal to a builtin variable up to letter case *)
(** Two texts that differ at most by letter case. *)
Definition same_letters (a b : str) : Prop := upper a = upper b.
(** The name [nm] is referred to in the text [s]. *)
Definition refers (s nm : str) : Prop :=
  exists a b, s = a ++ $"${" ++ nm ++ $"}" ++ b /\ nm <> nil /\ forall ch, In ch nm -> wordc ch = true.
(** The entry [p] of the table of builtin variables can be read at the start of
    [nm], where [eq] compares pieces of text; the gap of a template stays on a line. *)
Definition starts (eq : str -> str -> Prop) (p : vpat) (nm : str) : Prop :=
  match p with
  | VLit l => exists x r, nm = x ++ r /\ eq x l
  | VPat a z => exists x g w r, nm = x ++ g ++ w ++ r /\ eq x a /\ eq w z /\ ~ In cNL g
  end.
(** No entry reads as spelled; without regard to case some entry does, and the
    first such entry is a plain name. *)
Definition misspelt (nm : str) : Prop :=
  (forall p, In p var_patterns -> ~ starts eq p nm) /\
  exists a l b, var_patterns = a ++ VLit l :: b /\ starts same_letters (VLit l) nm /\
    forall p, In p a -> ~ starts same_letters p nm.

Lemma startswith_map (g : chr -> chr) p s : startswith (map g p) (map g s) = true <->
  exists x r, s = x ++ r /\ map g x = map g p.
Proof.
  rewrite startswith_spec. split.
  - intros (r & E). apply map_eq_app in E as (x & r' & -> & E & _). eauto.
  - intros (x & r & -> & E). exists (map g r). now rewrite map_app, E.
Qed.
Lemma has_part_spec p s : has_part p s = true <-> exists g r, s = g ++ p ++ r.
Proof.
  induction s as [|ch s IH]; cbn [has_part].
  - rewrite orb_false_r, startswith_spec. split; [intros (r & E); exists nil, r; exact E|].
    intros (g & r & E). destruct g; [|discriminate]. exists r. exact E.
  - rewrite orb_true_iff, startswith_spec, IH. split.
    + intros [(r & E)|(g & r & ->)]; [exists nil, r; exact E|exists (ch :: g), r; reflexivity].
    + intros ([|a g] & r & E); [left; exists r; exact E|]. cbn [app] in E. injection E as <- ->. right. eauto.
Qed.
Lemma until_nl s : exists r, s = take_until_nl s ++ r /\ ~ In cNL (take_until_nl s) /\ (r = nil \/ exists r', r = cNL :: r').
Proof.
  induction s as [|ch s IH]; cbn [take_until_nl]; [exists nil; cbn; auto|].
  destruct (N.eqb ch cNL) eqn:E.
  - apply N.eqb_eq in E as ->. exists (cNL :: s). cbn. split; [reflexivity|]. split; [tauto|]. right. eauto.
  - destruct IH as (r & E1 & E2 & E3). exists r. cbn [app]. split; [now f_equal|]. split; [|exact E3].
    intros [->|H]; [rewrite N.eqb_refl in E; discriminate|auto].
Qed.
Lemma until_nl_app a b : ~ In cNL a -> take_until_nl (a ++ b) = a ++ take_until_nl b.
Proof.
  induction a as [|ch a IH]; intros H; [reflexivity|]. cbn [app take_until_nl].
  destruct (N.eqb ch cNL) eqn:E; [apply N.eqb_eq in E as ->; exfalso; apply H; now left|].
  rewrite IH; [reflexivity|]. intros K. apply H. now right.
Qed.
(** no entry of the table has a line break *)
Lemma table_lines : forall a z, In (VPat a z) var_patterns -> forall ch, In ch z -> upc ch <> upc cNL.
Proof.
  assert (forallb (fun p => match p with VLit _ => true | VPat _ z => forallb (fun ch => negb (N.eqb (upc ch) (upc cNL))) z end) var_patterns = true) as H
    by (vm_compute; reflexivity).
  rewrite forallb_forall in H. intros a z Hz ch Hc E. specialize (H _ Hz). cbn in H. rewrite forallb_forall in H.
  specialize (H _ Hc). rewrite E, N.eqb_refl in H. discriminate.
Qed.
Lemma vmatch_map (g : chr -> chr) p nm : In p var_patterns -> (forall ch, upc ch <> upc cNL -> g ch <> g cNL) ->
  (vmatch (map g) nm p = true <-> starts (fun x y => map g x = map g y) p nm).
Proof.
  intros Hp Hg. destruct p as [l|a z]; cbn [vmatch starts].
  - apply startswith_map.
  - rewrite andb_true_iff, startswith_map, has_part_spec. split.
    + intros [(x & r & -> & E1) (gap & r2 & E2)].
      assert (List.length a = List.length x) as El by (apply (f_equal (@List.length _)) in E1; rewrite !map_length in E1; auto).
      rewrite El, skipn_app, skipn_all, Nat.sub_diag in E2. cbn [app skipn] in E2.
      destruct (until_nl r) as (t & E3 & E4 & _). remember (take_until_nl r) as u eqn:Eu. clear Eu.
      apply map_eq_app in E2 as (gp & u2 & -> & E5 & E6). apply map_eq_app in E6 as (w & r3 & -> & E7 & _).
      exists x, gp, w, (r3 ++ t). rewrite E3, <- !app_assoc. split; [reflexivity|]. split; [exact E1|]. split; [exact E7|].
      intros K. apply E4. rewrite in_app_iff. now left.
    + intros (x & gp & w & r & -> & E1 & E2 & Hn). split; [eauto|].
      assert (List.length a = List.length x) as El by (apply (f_equal (@List.length _)) in E1; rewrite !map_length in E1; auto).
      rewrite El, skipn_app, skipn_all, Nat.sub_diag. cbn [app skipn]. rewrite until_nl_app by exact Hn.
      rewrite until_nl_app.
      * exists (map g gp), (map g (take_until_nl r)). now rewrite !map_app, E2.
      * intros K. apply (in_map g) in K. rewrite E2 in K. apply in_map_iff in K as (ch & Ec & K).
        exact (Hg ch (table_lines a z Hp ch K) Ec).
Qed.
Lemma vmatch_upper p nm : In p var_patterns -> (vmatch upper nm p = true <-> starts same_letters p nm).
Proof. intros Hp. apply (vmatch_map upc); auto. Qed.
Lemma starts_ext (e1 e2 : str -> str -> Prop) p nm : (forall x y, e1 x y <-> e2 x y) -> starts e1 p nm <-> starts e2 p nm.
Proof.
  intros H. destruct p; cbn [starts].
  - split; intros (x & r & E & K); exists x, r; apply H in K; auto.
  - split; intros (x & g & w & r & E & K1 & K2 & K3); exists x, g, w, r; apply H in K1; apply H in K2; auto.
Qed.
Lemma vmatch_id p nm : In p var_patterns -> (vmatch (fun x => x) nm p = true <-> starts eq p nm).
Proof.
  intros Hp. replace (vmatch (fun x => x) nm p) with (vmatch (map (fun ch => ch)) nm p)
    by (destruct p; cbn [vmatch]; now rewrite !map_id).
  rewrite vmatch_map; [|exact Hp|intros ch H E; subst; auto].
  apply starts_ext. intros x y. now rewrite !map_id.
Qed.
Lemma find_split {A} (f : A -> bool) l x : find f l = Some x -> exists a b, l = a ++ x :: b /\ f x = true /\ forall z, In z a -> f z = false.
Proof.
  induction l as [|h l IH]; cbn [find]; [discriminate|]. destruct (f h) eqn:E.
  - intros H. injection H as ->. exists nil, l. split; [reflexivity|]. split; [exact E|]. intros z [].
  - intros H. destruct (IH H) as (a & b & -> & K1 & K2). exists (h :: a), b. split; [reflexivity|]. split; [exact K1|].
    intros z [<-|Hz]; auto.
Qed.
Lemma split_find {A} (f : A -> bool) a x b : f x = true -> (forall z, In z a -> f z = false) -> find f (a ++ x :: b) = Some x.
Proof.
  intros Hx H. induction a as [|h a IH]; cbn [app find]; [now rewrite Hx|].
  rewrite (H h (or_introl eq_refl)). apply IH. intros z Hz. apply H. now right.
Qed.
Lemma varname_in q nm t what : In q (check_varname nm t what) <-> misspelt nm /\ q = at_tok $"W0105" t [FS what; FS nm].
Proof.
  unfold check_varname, misspelt.
  assert (is_builtin nm = false <-> forall p, In p var_patterns -> ~ starts eq p nm) as Hb.
  { unfold is_builtin, sensitive. destruct (find _ _) as [p|] eqn:E.
    - apply find_some in E as [E1 E2]. apply (vmatch_id p nm E1) in E2. split; [discriminate|]. intros H. now apply H in E2.
    - split; [|auto]. intros _ p Hp K. apply (vmatch_id p nm Hp) in K. now rewrite (find_none _ _ E p Hp) in K. }
  assert (forall l, insensitive nm = Some (VLit l) <-> exists a b, var_patterns = a ++ VLit l :: b /\ starts same_letters (VLit l) nm /\
    forall p, In p a -> ~ starts same_letters p nm) as Hi.
  { intros l. unfold insensitive. split.
    - intros H. apply find_split in H as (a & b & E & K1 & K2). exists a, b. split; [exact E|].
      assert (forall p, In p (a ++ VLit l :: b) -> In p var_patterns) as Hin by (intros p; now rewrite E).
      split; [apply vmatch_upper; [apply Hin, in_elt|exact K1]|].
      intros p Hp K. apply vmatch_upper in K; [|apply Hin, in_app_iff; now left]. rewrite (K2 p Hp) in K. discriminate.
    - intros (a & b & E & K1 & K2).
      assert (forall p, In p (a ++ VLit l :: b) -> In p var_patterns) as Hin by (intros p; now rewrite E).
      rewrite E. apply split_find; [apply vmatch_upper; [apply Hin, in_elt|exact K1]|].
      intros p Hp. apply not_true_iff_false. intros K. apply (K2 p Hp).
      apply vmatch_upper; [apply Hin, in_app_iff; now left|exact K]. }
  destruct (insensitive nm) as [[l|a z]|] eqn:E.
  - destruct (is_builtin nm) eqn:Eb.
    + split; [intros []|]. intros [[K _] _]. apply Hb in K. discriminate.
    + split.
      * intros [<-|[]]. split; [|reflexivity]. split; [now apply Hb|].
        destruct (proj1 (Hi l) eq_refl) as (a & b & K). exists a, l, b. exact K.
      * intros [_ ->]. now left.
  - split; [intros []|]. intros [[_ (a' & l & b & K)] _].
    assert (Some (VPat a z) = Some (VLit l)) as F; [apply Hi; eauto|discriminate].
  - split; [intros []|]. intros [[_ (a' & l & b & K)] _].
    assert (@None vpat = Some (VLit l)) as F; [apply Hi; eauto|discriminate].
Qed.

(** *** References *)
Lemma star_chr p x y : rel (RStar (RChr p)) x y ->
  exists w, rest x = w ++ rest y /\ (forall ch, In ch w -> p ch = true) /\ cap y = cap x.
Proof.
  remember (RStar (RChr p)) as r eqn:Er. intros H. induction H; try discriminate.
  - exists nil. split; [reflexivity|]. split; [intros ch []|reflexivity].
  - injection Er as ->. destruct (IHrel2 eq_refl) as (w & E1 & E2 & E3). apply rel_chr in H as (ch & E4 & E5 & E6).
    exists (ch :: w). rewrite E4, E1. split; [reflexivity|]. split; [|congruence]. intros c0 [<-|K]; auto.
Qed.
Lemma ref_shape pv s y : rmatch ref_re pv s = Some y ->
  s = $"${" ++ cap y ++ $"}" ++ rest y /\ cap y <> nil /\ forall ch, In ch (cap y) -> wordc ch = true.
Proof.
  intros H. apply rmatch_sound in H. unfold ref_re in H. cbn [RSeqs] in H.
  apply rel_seq in H as (x1 & H1 & H). apply rel_seq in H as (x2 & H2 & H). apply rel_seq in H as (x3 & H3 & H4).
  apply rel_C in H1 as (R1 & _ & _). apply rel_C in H2 as (R2 & _ & _). apply rel_C in H4 as (R4 & _ & C4).
  cbn [rest] in R1. inversion H3 as [| | | | | | | | |? ? z Hz| | | |]; subst. cbn [rest cap] in *. unfold RPlus in Hz.
  apply rel_seq in Hz as (z1 & Hz1 & Hz2). apply rel_chr in Hz1 as (ch & E1 & E2 & _).
  apply star_chr in Hz2 as (w & E3 & E4 & _).
  assert (firstn (List.length (rest x2) - List.length (rest z)) (rest x2) = ch :: w) as Ef.
  { rewrite E1, E3. replace (List.length (ch :: w ++ rest z) - List.length (rest z))%nat with (List.length (ch :: w)).
    - change (ch :: w ++ rest z) with ((ch :: w) ++ rest z). rewrite firstn_app, Nat.sub_diag, firstn_all. cbn [firstn]. now rewrite app_nil_r.
    - cbn [List.length]. rewrite app_length. lia. }
  rewrite C4, Ef. split; [|split; [discriminate|]].
  - rewrite R2, E1, E3, R4. reflexivity.
  - intros c0 [<-|K]; auto.
Qed.
Lemma star_chr_intro p w : (forall ch, In ch w -> p ch = true) -> forall pv s cp,
  exists pv', rel (RStar (RChr p)) (St pv (w ++ s) cp) (St pv' s cp).
Proof.
  induction w as [|ch w IH]; intros H pv s cp; [exists pv; constructor|].
  destruct (IH (fun c0 K => H c0 (or_intror K)) (Some ch) s cp) as (pv' & K). exists pv'.
  eapply rl_star1; [apply rl_chr, H; now left| |exact K]. apply Nat.lt_succ_diag_r.
Qed.
Lemma ref_matches pv nm b : nm <> nil -> (forall ch, In ch nm -> wordc ch = true) ->
  rmatch ref_re pv ($"${" ++ nm ++ $"}" ++ b) <> None.
Proof.
  intros Hn Hw. destruct nm as [|ch w]; [congruence|]. unfold rmatch.
  destruct (star_chr_intro wordc w (fun c0 K => Hw c0 (or_intror K)) (Some ch) ($"}" ++ b) nil) as (pv' & K).
  eapply (m_complete ref_re); [|discriminate].
  eapply rl_seq; [apply rl_chr; reflexivity|]. eapply rl_seq; [apply rl_chr; reflexivity|].
  eapply rl_seq.
  - apply rl_grp with (y := St pv' ($"}" ++ b) nil). eapply rl_seq; [apply rl_chr, Hw; now left|exact K].
  - apply (rl_chr _ cRC b). reflexivity.
Qed.
(** an occurrence of a reference is determined by where it starts *)
Lemma ref_unique nm nm' b b' : $"${" ++ nm ++ $"}" ++ b = $"${" ++ nm' ++ $"}" ++ b' ->
  (forall ch, In ch nm -> wordc ch = true) -> (forall ch, In ch nm' -> wordc ch = true) -> nm = nm' /\ b = b'.
Proof.
  intros E. cbn [app s2l] in E. change ($"${" ++ nm ++ $"}" ++ b) with (cDOL :: cLC :: nm ++ cRC :: b) in E.
  change ($"${" ++ nm' ++ $"}" ++ b') with (cDOL :: cLC :: nm' ++ cRC :: b') in E. injection E as E.
  revert nm' E. induction nm as [|x nm IH]; intros [|y nm'] E Hn Hn'; cbn [app] in E.
  - injection E as ->. auto.
  - injection E as <- _. specialize (Hn' cRC (or_introl eq_refl)). discriminate.
  - injection E as -> _. specialize (Hn cRC (or_introl eq_refl)). discriminate.
  - injection E as <- E. destruct (IH nm' E) as [-> ->]; auto; intros ch Hc; [apply Hn|apply Hn']; now right.
Qed.
Lemma findall_refs fuel : forall pv s nm, (List.length s <= fuel)%nat ->
  (In nm (re_findall ref_re fuel pv s) <-> refers s nm).
Proof.
  induction fuel as [|fuel IH]; intros pv s nm Hl.
  - destruct s; [|cbn in Hl; lia]. cbn [re_findall]. split; [intros []|].
    intros (a & b & E & _). destruct a; discriminate.
  - destruct s as [|ch s]; cbn [re_findall].
    { split; [intros []|]. intros (a & b & E & _). destruct a; discriminate. }
    destruct (rmatch ref_re pv (ch :: s)) as [y|] eqn:Em.
    + apply ref_shape in Em as (E & Hn & Hw). cbn [In].
      assert (List.length (rest y) <= fuel)%nat as Hr.
      { apply (f_equal (@List.length _)) in E. rewrite !app_length in E. cbn in E, Hl. lia. }
      rewrite (IH _ _ _ Hr). split.
      * intros [<-|(a & b & E1 & K)]; [exists nil, (rest y); auto|].
        exists ($"${" ++ cap y ++ $"}" ++ a), b. rewrite E, E1, <- !app_assoc. auto.
      * intros (a & b & E1 & Hn1 & Hw1). rewrite E in E1.
        destruct a as [|a0 a].
        { left. apply ref_unique in E1 as [-> _]; auto. }
        right. exists (skipn (List.length ($"${" ++ cap y ++ $"}")) (a0 :: a)), b. split; [|auto].
        (* the dollar sign of the other occurrence is behind the closing brace *)
        assert (exists a1, a0 :: a = ($"${" ++ cap y ++ $"}") ++ a1) as (a1 & Ea).
        { clear - E1 Hw. cbn [app] in E1.
          change ($"${" ++ cap y ++ $"}" ++ rest y) with (cDOL :: cLC :: cap y ++ cRC :: rest y) in E1.
          change ($"${" ++ nm ++ $"}" ++ b) with (cDOL :: cLC :: nm ++ cRC :: b) in E1.
          injection E1 as <- E1. destruct a as [|a1 a]; [discriminate|]. cbn [app] in E1. injection E1 as <- E1.
          assert (forall u v, (forall ch, In ch u -> wordc ch = true) -> u ++ cRC :: v = a ++ cDOL :: cLC :: nm ++ cRC :: b ->
            exists a1, a = u ++ cRC :: a1) as G.
          { clear. intros u. revert a. induction u as [|x u IH]; intros a v Hu E.
            - destruct a as [|z a]; [discriminate|]. cbn [app] in E. injection E as <- _. now exists a.
            - destruct a as [|z a]; cbn [app] in E.
              + injection E as -> _. specialize (Hu cDOL (or_introl eq_refl)). discriminate.
              + injection E as <- E. destruct (IH a v (fun c0 K => Hu c0 (or_intror K)) E) as (a1 & ->). now exists a1. }
          destruct (G (cap y) (rest y) Hw E1) as (a1 & ->). exists a1. cbn. now rewrite <- app_assoc. }
        rewrite Ea in E1 |- *. rewrite skipn_app, skipn_all, Nat.sub_diag. cbn [app skipn].
        rewrite <- !app_assoc in E1. repeat (apply app_inv_head in E1). exact E1.
    + rewrite IH by (cbn in Hl; lia). split.
      * intros (a & b & -> & K). exists (ch :: a), b. auto.
      * intros ([|a0 a] & b & E & Hn & Hw).
        { cbn [app] in E. change (ch :: s = $"${" ++ nm ++ $"}" ++ b) in E. rewrite E in Em. now apply ref_matches in Em. }
        cbn [app] in E. injection E as <- ->. exists a, b. auto.
Qed.

(** *** The theorem *)
Definition is_pgroup (n : pnode) : bool := match n with N (KPargGroup _ _ _) _ => true | _ => false end.
(** the arguments of the first positional group of a statement *)
Definition first_args (n : pnode) : list token :=
  match filter is_pgroup (kids (argtree n)) with g :: _ => filter is_semantic (flat g) | nil => nil end.
(** [t] is the variable of a [set] or the second argument of a [list] statement *)
Definition assigned (tree : pnode) (t : token) : Prop :=
  exists n u, In n (stmts tree) /\ name_tok n = Some u /\
    (upper (spelling u) = $"SET" /\ nth_error (first_args n) 0 = Some t \/
     upper (spelling u) = $"LIST" /\ nth_error (first_args n) 1 = Some t).

Lemma find_filter {A} (f : A -> bool) l : find f l = hd_error (filter f l).
Proof. induction l as [|x l IH]; cbn [find filter]; [reflexivity|]. destruct (f x); [reflexivity|exact IH]. Qed.
Lemma assignments_in es : forall qs, var_assignments es = Ok qs ->
  forall q, In q qs <-> exists e t, In e es /\
    nth_error (first_args (fst e)) (if seqb (funname (fst e)) $"set" then 0 else 1) = Some t /\
    In q (check_varname (spelling t) t $"Assignment to").
Proof.
  induction es as [|[n p] es IH]; intros qs H q; cbn [var_assignments] in H.
  - injection H as <-. split; [intros []|]. intros (e & t & [] & _).
  - apply bindr_ok in H as (t & Ht & H). apply bindr_ok in H as (qs' & H' & H). injection H as <-.
    rewrite in_app_iff, (IH _ H').
    assert (nth_error (first_args n) (if seqb (funname n) $"set" then 0 else 1) = Some t) as E.
    { unfold first_args, set_varname, first_group in *. rewrite find_filter in Ht. fold is_pgroup in Ht.
      change (fun n0 : pnode => match n0 with N (KPargGroup _ _ _) _ => true | _ => false end) with is_pgroup in Ht.
      destruct (filter is_pgroup (kids (argtree n))) as [|g gs]; cbn [hd_error] in Ht.
      - destruct (seqb (funname n) $"set"); discriminate.
      - unfold sem in Ht. destruct (seqb (funname n) $"set"), (filter is_semantic (flat g)) as [|t1 [|t2 ts]];
          cbn [hd_error] in Ht; try discriminate; injection Ht as ->; reflexivity. }
    split.
    + intros [K|(e & t' & Hin & K)]; [exists (n, p), t|exists e, t']; cbn [In fst]; auto.
    + intros (e & t' & [<-|Hin] & E' & K); [left|right; eauto]. cbn [fst] in E'. rewrite E in E'. now injection E' as <-.
Qed.
Lemma in_stmts_named tree names n : (exists e, In e (stmts_named names tree) /\ fst e = n) <->
  In n (stmts tree) /\ In (funname n) names.
Proof.
  unfold stmts_named, stmts. pose proof (bfs_perm tree) as HP. rewrite filter_In. split.
  - intros (e & He & <-). apply filter_In in He as [He K]. apply andb_true_iff in K as [K1 K2]. apply smem_In in K2.
    split; [|exact K2]. split; [|exact K1]. eapply Permutation_in; [exact HP|]. now apply in_map.
  - intros [[H1 H2] H3]. apply (Permutation_in _ (Permutation_sym HP)) in H1. apply in_map_iff in H1 as (e & <- & He).
    exists e. split; [|reflexivity]. apply filter_In. split; [exact He|]. rewrite H2. now apply smem_In.
Qed.
Lemma assigned_names ctx toks tree qv : parse ctx toks = Ok tree -> var_assignments (stmts_named [$"set"; $"list"] tree) = Ok qv ->
  forall q, In q qv <-> exists t, assigned tree t /\ In q (check_varname (spelling t) t $"Assignment to").
Proof.
  intros Hp H q. rewrite (assignments_in _ _ H). split.
  - intros (e & t & He & E & K). exists t. split; [|exact K].
    destruct (proj1 (in_stmts_named tree _ (fst e)) (ex_intro _ e (conj He eq_refl))) as [H1 H2].
    destruct (stmts_named_all _ _ _ _ Hp H1) as (u & Hu). destruct (name_tok_name _ _ Hu) as (_ & _ & Ef & _).
    exists (fst e), u. split; [exact H1|]. split; [exact Hu|]. rewrite <- (upper_lower (spelling u)), <- Ef.
    destruct H2 as [H2|[H2|[]]]; rewrite <- H2 in *; [left|right]; auto.
  - intros (t & (n & u & Hn & Hu & E) & K). destruct (name_tok_name _ _ Hu) as (E1 & _ & Ef & _).
    assert (In (funname n) [$"set"; $"list"] /\ nth_error (first_args n) (if seqb (funname n) $"set" then 0 else 1) = Some t) as [Hf Hnth].
    { assert (forall w l, upper (spelling u) = w -> lower w = l -> funname n = l) as G.
      { intros w l E2 E3. rewrite Ef, <- E3, <- E2, lower_upper. reflexivity. }
      destruct E as [[E2 E3]|[E2 E3]].
      - rewrite (G _ $"set" E2 eq_refl). split; [now left|exact E3].
      - rewrite (G _ $"list" E2 eq_refl). split; [now right; left|exact E3]. }
    destruct (proj2 (in_stmts_named tree [$"set"; $"list"] n) (conj Hn Hf)) as (e & He & <-).
    exists e, t. auto.
Qed.
Lemma references_in tree q : In q (var_references tree) <-> exists t nm, In t (flat tree) /\
  In (tt t) [QUOTED_LITERAL; DEREF] /\ refers (spelling t) nm /\ In q (check_varname nm t $"Reference to").
Proof.
  unfold var_references, sem. rewrite in_flat_map. split.
  - intros (t & Ht & K). apply filter_In in Ht as [Ht _].
    destruct (tmem (tt t) [QUOTED_LITERAL; DEREF]) eqn:E; [|destruct K].
    apply in_flat_map in K as (nm & Hn & K). apply findall_refs in Hn; [|lia]. exists t, nm. split; [exact Ht|].
    split; [|auto]. destruct (tt t); try discriminate E; cbn; auto.
  - intros (t & nm & Ht & Hk & Hn & K). exists t. split.
    + apply filter_In. split; [exact Ht|]. unfold is_semantic. destruct Hk as [Hk|[Hk|[]]]; rewrite <- Hk; reflexivity.
    + replace (tmem (tt t) [QUOTED_LITERAL; DEREF]) with true
        by (destruct Hk as [Hk|[Hk|[]]]; rewrite <- Hk; reflexivity).
      apply in_flat_map. exists nm. split; [|exact K]. apply findall_refs; [lia|exact Hn].
Qed.
(** The records of a code that only the two variable checks use. *)
Lemma varname_code c src y : lint_file c src ctx0 = Ok y -> parsers_ok c ->
  exists toks tree qv, tokenize src = Ok toks /\ parse (lc_ctx c) toks = Ok tree /\
  var_assignments (stmts_named [$"set"; $"list"] tree) = Ok qv /\
  forall r, In r (x_lint y) /\ l_id r = $"W0105" <->
    ~ In $"W0105" (lc_disabled c) /\ exists q, written r q /\ (In q qv \/ In q (var_references tree)).
Proof.
  intros H HP. apply file_in in H as (toks & tree & qt & qv & Ht & Hp & Hqt & Hqv & _ & HR).
  exists toks, tree, qv. split; [exact Ht|]. split; [exact Hp|]. split; [exact Hqv|].
  intros r. rewrite HR. unfold enabled. cbn [x_lint x_sup ctx0 In]. split.
  - intros [[[]|(q & W & [E _] & K)] Er]. pose proof (proj1 W) as Eid. rewrite Er in Eid. rewrite <- Eid in E.
    split; [exact E|]. exists q. split; [exact W|].
    destruct K as [K|[K|[K|[K|[K|K]]]]]; [| | |auto|auto|]; exfalso.
    + apply (coded_in _ _ _ (basics_coded c src)) in K. rewrite <- Eid in K. revert K. names.
    + apply (coded_in _ _ _ (tokens_coded _ _ _ Hqt)) in K. rewrite <- Eid in K. revert K. names.
    + apply (coded_in _ _ _ (HP toks)) in K. rewrite <- Eid in K. revert K. names.
    + destruct K as [([s [t|k cs]] & Hv & K)|(pre & s & t & post & E2 & K)]; [destruct K| |].
      * apply node_coded in K. rewrite <- Eid in K. destruct k; revert K; names.
      * apply (coded_in _ _ _ (indent_coded _ _ _ _)) in K. rewrite <- Eid in K. revert K. names.
  - intros (E & q & W & K).
    assert (q_id q = $"W0105") as Eid.
    { destruct K as [K|K]; [apply (coded_in _ _ _ (assignments_coded _ _ Hqv)) in K|apply (coded_in _ _ _ (references_coded tree)) in K];
        destruct K as [K|[]]; auto. }
    split; [|now rewrite (proj1 W)]. right. exists q. rewrite Eid. tauto.
Qed.
(** A warning is given exactly for the assigned and the referenced names that are
    misspelt in the sense above. *)
Theorem C61_builtin_case : forall c src y,
  lint_file c src ctx0 = Ok y -> parsers_ok c -> ~ In $"W0105" (lc_disabled c) ->
  exists toks tree, tokenize src = Ok toks /\ parse (lc_ctx c) toks = Ok tree /\
  forall r, In r (x_lint y) /\ l_id r = $"W0105" <->
    exists t nm what, misspelt nm /\
      (what = $"Assignment to" /\ assigned tree t /\ nm = spelling t \/
       what = $"Reference to" /\ In t (flat tree) /\ In (tt t) [QUOTED_LITERAL; DEREF] /\ refers (spelling t) nm) /\
      r = LRec $"W0105" [line (begin t); col (begin t); offset (begin t)]
               (what ++ $" variable '" ++ nm ++ $"' which matches a built-in except for case").
Proof.
  intros c src y H HP Hd. destruct (varname_code c src y H HP) as (toks & tree & qv & Ht & Hp & Hqv & HR).
  exists toks, tree. split; [exact Ht|]. split; [exact Hp|]. intros r. rewrite HR. clear HR. split.
  - intros (_ & q & W & K).
    destruct K as [K|K]; [apply (assigned_names _ _ _ _ Hp Hqv) in K as (t & Ha & K)|apply references_in in K as (t & nm & Ht1 & Ht2 & Hn & K)];
      apply varname_in in K as [Hm ->]; unfold at_tok in W; eapply written_msg in W; try reflexivity.
    + exists t, (spelling t), $"Assignment to". auto 6.
    + exists t, nm, $"Reference to". auto 8.
  - intros (t & nm & what & Hm & K & ->). split; [exact Hd|]. exists (at_tok $"W0105" t [FS what; FS nm]). split.
    + eapply written_msg; reflexivity.
    + destruct K as [(-> & Ha & ->)|(-> & Ht1 & Ht2 & Hn)]; [left|right].
      * apply (assigned_names _ _ _ _ Hp Hqv). exists t. split; [exact Ha|]. now apply varname_in.
      * apply references_in. exists t, nm. split; [exact Ht1|]. split; [exact Ht2|]. split; [exact Hn|]. now apply varname_in.
Qed.
(** In particular every variant of a builtin name in other letter case is misspelt,
    unless the variant itself starts like a builtin or a template covers it. *)
Theorem C61_case_variant : forall nm l, In (VLit l) var_patterns -> same_letters nm l ->
  (forall p, In p var_patterns -> ~ starts eq p nm) ->
  (forall a z, In (VPat a z) var_patterns -> ~ starts same_letters (VPat a z) nm) -> misspelt nm.
Proof.
  intros nm l Hl Hs Hn Ht. split; [exact Hn|].
  assert (exists p, In p var_patterns /\ vmatch upper nm p = true) as (p0 & Hp0 & Hm0).
  { exists (VLit l). split; [exact Hl|]. apply vmatch_upper; [exact Hl|]. exists nm, nil. rewrite app_nil_r. auto. }
  destruct (find (vmatch upper nm) var_patterns) as [p|] eqn:E.
  - pose proof (find_some _ _ E) as [Hp Hm]. apply (vmatch_upper p nm Hp) in Hm.
    destruct p as [l'|a z]; [|now apply Ht in Hm]. apply find_split in E as (a & b & E & _ & Hb).
    exists a, l', b. split; [exact E|]. split; [exact Hm|]. intros p Hq K.
    apply vmatch_upper in K; [rewrite (Hb p Hq) in K; discriminate|]. rewrite E, in_app_iff. now left.
  - rewrite (find_none _ _ E p0 Hp0) in Hm0. discriminate.
Qed.
Lemma C61_ex_lemma nm l : In (VLit l) var_patterns -> same_letters nm l -> is_builtin nm = false ->
  existsb (fun p => match p with VLit _ => false | _ => vmatch upper nm p end) var_patterns = false -> misspelt nm.
Proof.
  intros Hl Hs Hb He. apply (C61_case_variant nm l Hl Hs).
  - intros p Hp K. apply (vmatch_id p nm Hp) in K. unfold is_builtin, sensitive in Hb.
    destruct (find _ _) eqn:E; [discriminate|]. now rewrite (find_none _ _ E p Hp) in K.
  - intros a z Hp K. apply vmatch_upper in K; [|exact Hp].
    assert (existsb (fun p => match p with VLit _ => false | _ => vmatch upper nm p end) var_patterns = true) as F.
    { apply existsb_exists. exists (VPat a z). auto. }
    rewrite F in He. discriminate.
Qed.
Lemma lit_in l : existsb (fun p => match p with VLit x => seqb x l | _ => false end) var_patterns = true -> In (VLit l) var_patterns.
Proof.
  intros H. apply existsb_exists in H as ([x|a z] & Hp & H); [|discriminate]. apply seqb_eq in H as ->. exact Hp.
Qed.
Example C61_ex1 : misspelt $"cmake_build_type".
Proof. apply (C61_ex_lemma _ $"CMAKE_BUILD_TYPE"); [apply lit_in; vm_compute; reflexivity|reflexivity|vm_compute; reflexivity|vm_compute; reflexivity]. Qed.
Definition sample3 : str := nl [$"set(cmake_build_type 1)"; $"foo(${Cmake_Build_Type})"; $"list(APPEND apples x)"].
Example C61_ex2 : found sample3 (LRec $"W0105" [1; 4; 4]
  $"Assignment to variable 'cmake_build_type' which matches a built-in except for case").
Proof. found. Qed.
Example C61_ex3 : found sample3 (LRec $"W0105" [2; 4; 28]
  $"Reference to variable 'Cmake_Build_Type' which matches a built-in except for case").
Proof. found. Qed.
(** The warning about [apples] is wrong: no builtin name has these letters. *)
Theorem C61_prefix_refuted : exists src y r nm, lint_file default_lcfg src ctx0 = Ok y /\ In r (x_lint y) /\
  r = LRec $"W0105" [1; 4; 4] ($"Assignment to variable '" ++ nm ++ $"' which matches a built-in except for case") /\
  forall p, In p var_patterns -> match p with
                                 | VLit l => ~ same_letters nm l
                                 | VPat a z => ~ starts same_letters (VPat a z) nm
                                 end.
Proof.
  exists ($"set(apples 1)" ++ [cNL]). eexists. eexists. exists $"apples". split; [vm_compute; reflexivity|].
  split; [|split; [reflexivity|]].
  - vm_compute. tauto.
  - assert (forallb (fun p => match p with VLit l => negb (seqb (upper $"apples") (upper l))
                                         | VPat _ _ => negb (vmatch upper $"apples" p) end) var_patterns = true) as H
      by (vm_compute; reflexivity).
    rewrite forallb_forall in H. intros p Hp. specialize (H p Hp). destruct p as [l|a z]; apply negb_true_iff in H.
    + intros K. unfold same_letters in K. rewrite K in H. apply not_true_iff_false in H. apply H. now apply seqb_eq.
    + intros K. apply vmatch_upper in K; [|exact Hp]. congruence.
Qed.
(** A variant of PROJECT_VERSION is not reported. *)
Theorem C61_template_refuted : exists src y nm l, lint_file default_lcfg src ctx0 = Ok y /\
  src = $"set(" ++ nm ++ $" 1)" ++ [cNL] /\ In (VLit l) var_patterns /\ same_letters nm l /\ nm <> l /\
  ~ In nm (map (fun p => match p with VLit x => x | VPat a z => a ++ z end) var_patterns) /\
  forall r, In r (x_lint y) -> l_id r <> $"W0105".
Proof.
  exists ($"set(project_version 1)" ++ [cNL]). eexists. exists $"project_version", $"PROJECT_VERSION".
  split; [vm_compute; reflexivity|]. split; [reflexivity|]. split; [apply lit_in; vm_compute; reflexivity|]. split; [reflexivity|].
  split; [discriminate|]. split.
  - intros K. apply smem_In in K. vm_compute in K. discriminate.
  - intros r K E. destruct r as [i l m]. cbn [l_id] in E. subst. vm_compute in K.
    repeat (destruct K as [K|K]; [discriminate|]). exact K.
Qed.

(** ** C64: repeated keywords *)
(** the first word of a keyword group *)
Definition group_word (n : pnode) : option token :=
  match n with N KKwargGroup cs => hd_error (filter is_semantic (flats cs)) | _ => None end.
(** words that may be repeated *)
Definition repeatable : list str := [$"AND"; $"OR"; $"COMMAND"; $"PATTERN"; $"REGEX"].
(** [t] starts a keyword group of an argument list, and an earlier group of the
    same list starts with the same word *)
Definition repeated (tree : pnode) (t : token) : Prop :=
  exists sp cs a g b g' t', In (N (KArgGroup sp) cs) (subtrees tree) /\ cs = a ++ g :: b /\ group_word g = Some t /\
    In g' a /\ group_word g' = Some t' /\ same_letters (spelling t) (spelling t') /\
    ~ In (upper (spelling t)) repeatable.

Lemma arggroup_in cs : forall seen qs, arggroup seen cs = Ok qs -> forall q, In q qs <->
  exists a g b t, cs = a ++ g :: b /\ group_word g = Some t /\ ~ In (upper (spelling t)) repeatable /\
    (In (upper (spelling t)) seen \/ exists g' t', In g' a /\ group_word g' = Some t' /\ same_letters (spelling t) (spelling t')) /\
    q = at_tok $"E1122" t [FS (upper (spelling t))].
Proof.
  induction cs as [|n cs IH]; intros seen qs H q.
  - cbn [arggroup] in H. injection H as <-. split; [intros []|]. intros (a & g & b & t & E & _). destruct a; discriminate.
  - assert (forall t seen' qs', group_word n = Some t -> arggroup seen' cs = Ok qs' ->
      seen' = (if smem (upper (spelling t)) repeatable then seen else upper (spelling t) :: seen) ->
      qs = (if smem (upper (spelling t)) repeatable then nil
            else if smem (upper (spelling t)) seen then [at_tok $"E1122" t [FS (upper (spelling t))]] else nil) ++ qs' ->
      (In q qs <-> exists a g b t, n :: cs = a ++ g :: b /\ group_word g = Some t /\ ~ In (upper (spelling t)) repeatable /\
        (In (upper (spelling t)) seen \/ exists g' t', In g' a /\ group_word g' = Some t' /\ same_letters (spelling t) (spelling t')) /\
        q = at_tok $"E1122" t [FS (upper (spelling t))])) as G1.
    { intros t seen' qs' Hw H' Es ->. rewrite in_app_iff, (IH _ _ H'). split.
      - intros [K|(a & g & b & u & -> & K1 & K2 & K3 & K4)].
        + destruct (smem (upper (spelling t)) repeatable) eqn:Er; [destruct K|].
          destruct (smem (upper (spelling t)) seen) eqn:E; [|destruct K]. destruct K as [<-|[]].
          exists nil, n, cs, t. split; [reflexivity|]. split; [exact Hw|].
          split; [rewrite <- smem_In; congruence|]. split; [left; now apply smem_In|reflexivity].
        + exists (n :: a), g, b, u. split; [reflexivity|]. split; [exact K1|]. split; [exact K2|]. split; [|exact K4].
          destruct K3 as [K3|(g' & t' & K3)].
          * destruct (smem (upper (spelling t)) repeatable); subst seen'; [now left|].
            destruct K3 as [K3|K3]; [|now left]. right. exists n, t. split; [now left|]. split; [exact Hw|].
            unfold same_letters. now rewrite K3.
          * right. exists g', t'. cbn [In]. tauto.
      - intros (a & g & b & u & E & K1 & K2 & K3 & K4). destruct a as [|m a]; cbn [app] in E; injection E as <- ->.
        + left. rewrite Hw in K1. injection K1 as <-.
          destruct (smem (upper (spelling t)) repeatable) eqn:Er; [now apply smem_In in Er|].
          destruct K3 as [K3|(g' & t' & [] & _)]. apply smem_In in K3. rewrite K3. left. now symmetry.
        + right. exists a, g, b, u. split; [reflexivity|]. split; [exact K1|]. split; [exact K2|]. split; [|exact K4].
          destruct K3 as [K3|(g' & t' & [<-|K3] & K5 & K6)].
          * left. subst seen'. destruct (smem _ repeatable); [exact K3|now right].
          * left. rewrite Hw in K5. injection K5 as <-. unfold same_letters in K6. subst seen'. rewrite <- K6.
            destruct (smem (upper (spelling u)) repeatable) eqn:Er; [now apply smem_In in Er|now left].
          * right. eauto. }
    assert (group_word n = None -> arggroup seen cs = Ok qs ->
      (In q qs <-> exists a g b t, n :: cs = a ++ g :: b /\ group_word g = Some t /\ ~ In (upper (spelling t)) repeatable /\
        (In (upper (spelling t)) seen \/ exists g' t', In g' a /\ group_word g' = Some t' /\ same_letters (spelling t) (spelling t')) /\
        q = at_tok $"E1122" t [FS (upper (spelling t))])) as G2.
    { intros Hw H'. rewrite (IH _ _ H'). split.
      - intros (a & g & b & u & -> & K1 & K2 & K3 & K4). exists (n :: a), g, b, u. split; [reflexivity|].
        split; [exact K1|]. split; [exact K2|]. split; [|exact K4]. destruct K3 as [K3|(g' & t' & K3)]; [now left|].
        right. exists g', t'. cbn [In]. tauto.
      - intros (a & g & b & u & E & K1 & K2 & K3 & K4). destruct a as [|m a]; cbn [app] in E; injection E as <- ->; [congruence|].
        exists a, g, b, u. split; [reflexivity|]. split; [exact K1|]. split; [exact K2|]. split; [|exact K4].
        destruct K3 as [K3|(g' & t' & [<-|K3] & K5 & K6)]; [now left|congruence|right; eauto]. }
    destruct n as [t|k ks]; [now apply G2|]. destruct k; try (now apply G2).
    cbn [arggroup] in H. cbn [group_word] in G1.
    destruct (filter is_semantic (flats ks)) as [|t ts]; [discriminate|]. cbn [hd_error] in G1. fold repeatable in H.
    destruct (smem (upper (spelling t)) repeatable) eqn:Er.
    + apply (G1 t seen qs); auto; now rewrite Er.
    + apply bindr_ok in H as (qs' & H' & H). apply Ok_inj in H. subst qs.
      apply (G1 t (upper (spelling t) :: seen) qs'); auto; now rewrite Er.
Qed.
(** A repeated keyword is reported at the second and every later occurrence.  The
    only other reports of the code come from the parsers of single commands. *)
Theorem C64_repeated_keyword : forall c src y,
  lint_file c src ctx0 = Ok y -> parsers_ok c -> ~ In $"E1122" (lc_disabled c) ->
  exists toks tree, tokenize src = Ok toks /\ parse (lc_ctx c) toks = Ok tree /\
  forall r, In r (x_lint y) /\ l_id r = $"E1122" <->
    (exists t, repeated tree t /\
       r = LRec $"E1122" [line (begin t); col (begin t); offset (begin t)]
                ($"Duplicate keyword argument " ++ upper (spelling t))) \/
    (exists q, In q (lc_plint c toks) /\ q_id q = $"E1122" /\ written r q).
Proof.
  intros c src y H HP Hd. pose proof H as H0. apply file_in in H as (toks & tree & qt & qv & Ht & Hp & Hqt & Hqv & _ & HR).
  exists toks, tree. split; [exact Ht|]. split; [exact Hp|].
  pose proof (file_ok _ _ _ _ _ _ H0 Ht Hp) as HO.
  intros r. rewrite HR. unfold enabled. cbn [x_lint x_sup ctx0 In]. clear HR. split.
  - intros [[[]|(q & W & [E _] & K)] Er]. pose proof (proj1 W) as Eid. rewrite Er in Eid.
    destruct K as [K|[K|[K|[K|[K|K]]]]]; [| |right; eauto| | |].
    1,2,3,4: exfalso.
    + apply (coded_in _ _ _ (basics_coded c src)) in K. rewrite <- Eid in K. revert K. names.
    + apply (coded_in _ _ _ (tokens_coded _ _ _ Hqt)) in K. rewrite <- Eid in K. revert K. names.
    + apply (coded_in _ _ _ (assignments_coded _ _ Hqv)) in K. rewrite <- Eid in K. revert K. names.
    + apply (coded_in _ _ _ (references_coded tree)) in K. rewrite <- Eid in K. revert K. names.
    + destruct K as [([s [t|k cs]] & Hv & K)|(pre & s & t & post & E2 & K)]; [destruct K| |exfalso].
      * pose proof (node_coded _ _ _ _ _ K) as Hc. rewrite <- Eid in Hc.
        destruct k; try (exfalso; revert Hc; names; fail).
        destruct K as (qs & K & Hq). cbn [node_checks fst snd] in K.
        apply (arggroup_in _ _ _ K) in Hq as (a & g & b & t & E3 & K1 & K2 & K3 & ->). left. exists t. split.
        -- destruct K3 as [[]|(g' & t' & K4 & K5 & K6)]. apply visit_sub in Hv.
           eexists _, cs, a, g, b, g', t'. split; [exact Hv|]. auto 8.
        -- eapply written_msg in W; [exact W|reflexivity|cbn; now rewrite app_nil_r].
      * apply (coded_in _ _ _ (indent_coded _ _ _ _)) in K. rewrite <- Eid in K. revert K. names.
  - intros [(t & (sp & cs & a & g & b & g' & t' & Hn & E & K1 & K2 & K3 & K4 & K5) & ->)|(q & Hq & Eq & W)].
    + split; [|reflexivity]. right. exists (at_tok $"E1122" t [FS (upper (spelling t))]).
      split; [eapply written_msg; [reflexivity|cbn; now rewrite app_nil_r|reflexivity]|]. split; [split; [exact Hd|intros []]|].
      do 5 right. left. destruct (sub_visit nil tree _ Hn) as (s & Hs). exists (s, N (KArgGroup sp) cs). split; [exact Hs|].
      pose proof (proj1 (Forall_forall _ _) HO _ Hs) as (qs & Hqs). exists qs. split; [exact Hqs|].
      cbn [node_checks fst snd] in Hqs. apply (arggroup_in _ _ _ Hqs). exists a, g, b, t. split; [exact E|]. split; [exact K1|].
      split; [exact K5|]. split; [right; eauto|reflexivity].
    + split; [|now rewrite (proj1 W)]. right. exists q. split; [exact W|]. rewrite Eq. split; [split; [exact Hd|intros []]|tauto].
Qed.
Example C64_ex : found ($"install(TARGETS a DESTINATION x destination y)" ++ [cNL])
  (LRec $"E1122" [1; 32; 32] $"Duplicate keyword argument DESTINATION").
Proof. found. Qed.

(** ** C69: indentation *)
(** The tokens below a node, each with the number of blocks of statements around it
    (the whole file is one) and whether it stands in an argument list. *)
Fixpoint placed (d : Z) (g : bool) (n : pnode) : list (token * Z * bool) :=
  match n with
  | T t => [(t, d, g)]
  | N k cs => flat_map (placed (match k with KBody => d + 1 | _ => d end)
                               (g || match k with KArgGroup _ => true | _ => false end)) cs
  end.
(** The columns taken by a text: a tab counts as [tab] columns. *)
Fixpoint columns (tab : Z) (s : str) : Z :=
  match s with nil => 0 | ch :: s' => (if N.eqb ch cTAB then tab else 1) + columns tab s' end.
(** blanks at the start of a line *)
Definition leading (t : token) : Prop := tt t = WHITESPACE /\ col (begin t) = 0.
(** too few columns in an argument list, the wrong number of columns elsewhere *)
Definition wrong_columns (want have : Z) (g : bool) : Prop := if g then have < want else have <> want.
(** In the tokens [l] the token [t] comes directly behind the blanks [i] at the
    start of a line, and these are wrong. *)
Definition badly_indented (tab : Z) (l : list (token * Z * bool)) (i t : token) (d : Z) : Prop :=
  exists pre di gi g post, l = pre ++ (i, di, gi) :: (t, d, g) :: post /\ leading i /\ ~ leading t /\
    wrong_columns ((d - 1) * tab) (columns tab (spelling i)) g.

Lemma placed_flat n : forall d g, map (fun p => fst (fst p)) (placed d g n) = flat n.
Proof.
  induction n as [t|k cs IH] using pnode_ind'; intros d g; [reflexivity|]. cbn [placed flat].
  induction IH as [|x l Hx _ IHl]; cbn [flat_map map]; [reflexivity|]. rewrite map_app, Hx, IHl. reflexivity.
Qed.
Lemma leaves_placed n : forall s, map (fun v => (snd v, scope_depth (fst v), in_arggroup (fst v))) (leaves (visits s n))
  = placed (scope_depth s) (in_arggroup s) n.
Proof.
  induction n as [t|k cs IH] using pnode_ind'; intros s; [reflexivity|]. rewrite visits_eq.
  change (leaves ((s, N k cs) :: ?x)) with (leaves x). cbn [placed].
  assert (forall i, scope_depth ((N k cs, i) :: s) = match k with KBody => scope_depth s + 1 | _ => scope_depth s end) as E1.
  { intros i. unfold scope_depth. cbn [filter fst]. destruct k; try reflexivity. unfold zlen. cbn [List.length]. lia. }
  assert (forall i, in_arggroup ((N k cs, i) :: s) = in_arggroup s || match k with KArgGroup _ => true | _ => false end) as E2.
  { intros i. unfold in_arggroup. cbn [existsb fst]. rewrite orb_comm. destruct k; reflexivity. }
  generalize 0%nat. remember (N k cs) as n eqn:En. clear En.
  induction IH as [|x l Hx _ IHl]; intros i; [reflexivity|]. cbn [kids_visits flat_map].
  rewrite leaves_app, map_app, Hx, E1, E2. f_equal. apply IHl.
Qed.
Lemma columns_eq tab s : columns tab s = zlen s + count_chr cTAB s * (tab - 1).
Proof.
  induction s as [|ch s IH]; [reflexivity|]. cbn [columns]. rewrite IH. unfold count_chr, zlen. cbn [List.length filter].
  rewrite Nat2Z.inj_succ, (N.eqb_sym ch). destruct (N.eqb cTAB ch); cbn [List.length]; lia.
Qed.
Lemma leading_b t : indent t = true <-> leading t.
Proof. unfold indent, leading. rewrite andb_true_iff, is_tt_eq, Z.eqb_eq. reflexivity. Qed.

Lemma indent_in c i t s q : In q (indent_reqs c i t s) <-> exists i0, i = Some i0 /\ ~ leading t /\
  wrong_columns ((scope_depth s - 1) * lc_tab c) (columns (lc_tab c) (spelling i0)) (in_arggroup s) /\
  q = at_tok $"C0307" t [FS (spelling i0); FS (spelling t); FS (spaces ((scope_depth s - 1) * lc_tab c));
                         FS (if in_arggroup s then $">" else lc_stackmsg c s)].
Proof.
  unfold indent_reqs. destruct (indent t) eqn:Et.
  - apply leading_b in Et. split; [intros []|]. intros (i0 & _ & K & _). tauto.
  - assert (~ leading t) as Hl by (rewrite <- leading_b; congruence). destruct i as [i0|].
    + unfold wrong_columns. split.
      * intros H. exists i0. rewrite columns_eq. split; [reflexivity|]. split; [exact Hl|]. destruct (in_arggroup s) eqn:Eg.
        -- destruct (_ <? _) eqn:E in H; [|destruct H]. apply Z.ltb_lt in E. split; [exact E|]. now destruct H as [<-|[]].
        -- destruct (_ =? _) eqn:E in H; [destruct H|]. apply Z.eqb_neq in E. split; [exact E|]. now destruct H as [<-|[]].
      * intros (i1 & E & _ & K & ->). injection E as <-. rewrite columns_eq in K. destruct (in_arggroup s).
        -- apply Z.ltb_lt in K. rewrite K. now left.
        -- apply Z.eqb_neq in K. rewrite K. now left.
    + split; [intros []|]. intros (i0 & E & _). discriminate.
Qed.
Lemma ind_after_last pre i0 : ind_after None pre = Some i0 <-> exists pre' s, pre = pre' ++ [(s, i0)] /\ leading i0.
Proof.
  unfold ind_after. destruct pre as [|[s t] pre _] using rev_ind.
  - cbn. split; [discriminate|]. intros (p & s & E & _). destruct p; discriminate.
  - rewrite rev_app_distr. cbn [rev app]. split.
    + destruct (indent t) eqn:E; [|discriminate]. intros H. injection H as <-. apply leading_b in E. eauto.
    + intros (p & s' & E & K). apply app_inj_tail in E as [_ E]. injection E as _ ->. apply leading_b in K. now rewrite K.
Qed.
Lemma tree_indent c tree q : leaf_asks c None (leaves (visits nil tree)) q <->
  exists pre i s t post si, leaves (visits nil tree) = pre ++ (si, i) :: (s, t) :: post /\ leading i /\ ~ leading t /\
    wrong_columns ((scope_depth s - 1) * lc_tab c) (columns (lc_tab c) (spelling i)) (in_arggroup s) /\
    q = at_tok $"C0307" t [FS (spelling i); FS (spelling t); FS (spaces ((scope_depth s - 1) * lc_tab c));
                           FS (if in_arggroup s then $">" else lc_stackmsg c s)].
Proof.
  unfold leaf_asks. split.
  - intros (pre & s & t & post & E & K). apply indent_in in K as (i & Hi & K). apply ind_after_last in Hi as (p & si & -> & Hi).
    rewrite <- app_assoc in E. exists p, i, s, t, post, si. tauto.
  - intros (p & i & s & t & post & si & E & Hi & K). exists (p ++ [(si, i)]), s, t, post. rewrite <- app_assoc. split; [exact E|].
    apply indent_in. exists i. split; [|exact K]. apply ind_after_last. eauto.
Qed.
(** Indentation is reported exactly at the tokens behind wrong blanks at the start
    of a line, with a message that shows the line and the expected column. *)
Theorem C69_indentation : forall c src y,
  lint_file c src ctx0 = Ok y -> parsers_ok c -> ~ In $"C0307" (lc_disabled c) ->
  exists toks tree, tokenize src = Ok toks /\ parse (lc_ctx c) toks = Ok tree /\
  map (fun p => fst (fst p)) (placed 0 false tree) = flat tree /\
  (forall i t d, badly_indented (lc_tab c) (placed 0 false tree) i t d -> exists m,
    In (LRec $"C0307" [line (begin t); col (begin t); offset (begin t)]
         ($"Bad indentation:" ++ [cNL] ++ spelling i ++ spelling t ++ [cNL]
          ++ spaces ((d - 1) * lc_tab c) ++ $"^----" ++ m ++ [cNL])) (x_lint y)) /\
  (forall r, In r (x_lint y) -> l_id r = $"C0307" -> exists i t d m,
    badly_indented (lc_tab c) (placed 0 false tree) i t d /\
    r = LRec $"C0307" [line (begin t); col (begin t); offset (begin t)]
         ($"Bad indentation:" ++ [cNL] ++ spelling i ++ spelling t ++ [cNL]
          ++ spaces ((d - 1) * lc_tab c) ++ $"^----" ++ m ++ [cNL])).
Proof.
  intros c src y H HP Hd. apply file_in in H as (toks & tree & qt & qv & Ht & Hp & Hqt & Hqv & _ & HR).
  exists toks, tree. split; [exact Ht|]. split; [exact Hp|]. split; [apply placed_flat|].
  pose proof (leaves_placed tree nil) as EL. change (scope_depth nil) with 0 in EL. change (in_arggroup nil) with false in EL.
  assert (forall i t d m r, written r (at_tok $"C0307" t [FS (spelling i); FS (spelling t); FS (spaces ((d - 1) * lc_tab c)); FS m]) <->
    r = LRec $"C0307" [line (begin t); col (begin t); offset (begin t)]
         ($"Bad indentation:" ++ [cNL] ++ spelling i ++ spelling t ++ [cNL]
          ++ spaces ((d - 1) * lc_tab c) ++ $"^----" ++ m ++ [cNL])) as HW.
  { intros i t d m r. unfold at_tok. eapply written_msg; reflexivity. }
  split.
  - intros i t d (pre & di & gi & g & post & E & Hi & Ht' & K). rewrite <- EL in E.
    apply map_eq_app in E as (pre' & l & E & _ & E2). destruct l as [|[si i'] l]; [discriminate|].
    cbn [map fst snd] in E2. injection E2 as -> _ _ E2. destruct l as [|[s t'] l]; [discriminate|].
    cbn [map fst snd] in E2. injection E2 as -> E3 E4 _.
    eexists. apply HR. right. eexists. split; [apply HW; reflexivity|].
    unfold enabled. cbn [at_tok q_id x_sup ctx0 In]. split; [tauto|]. do 5 right. right.
    apply tree_indent. exists pre', i, s, t, l, si. split; [exact E|]. rewrite E3, E4.
    split; [exact Hi|]. split; [exact Ht'|]. split; [exact K|]. rewrite <- E3. reflexivity.
  - intros r Hr Er. apply HR in Hr. cbn [x_lint ctx0 In] in Hr. destruct Hr as [[]|(q & W & _ & K)].
    pose proof (proj1 W) as Eid. rewrite Er in Eid.
    destruct K as [K|[K|[K|[K|[K|[K|K]]]]]].
    1,2,3,4,5,6: exfalso.
    + apply (coded_in _ _ _ (basics_coded c src)) in K. rewrite <- Eid in K. revert K. names.
    + apply (coded_in _ _ _ (tokens_coded _ _ _ Hqt)) in K. rewrite <- Eid in K. revert K. names.
    + apply (coded_in _ _ _ (HP toks)) in K. rewrite <- Eid in K. revert K. names.
    + apply (coded_in _ _ _ (assignments_coded _ _ Hqv)) in K. rewrite <- Eid in K. revert K. names.
    + apply (coded_in _ _ _ (references_coded tree)) in K. rewrite <- Eid in K. revert K. names.
    + destruct K as ([s [t|k cs]] & Hv & K); [destruct K|]. apply node_coded in K. rewrite <- Eid in K.
      destruct k; revert K; names.
    + apply tree_indent in K as (pre & i & s & t & post & si & E & Hi & Ht' & K & ->). apply HW in W.
      exists i, t, (scope_depth s). eexists. split; [|exact W].
      exists (map (fun v => (snd v, scope_depth (fst v), in_arggroup (fst v))) pre), (scope_depth si), (in_arggroup si),
        (in_arggroup s), (map (fun v => (snd v, scope_depth (fst v), in_arggroup (fst v))) post).
      split; [rewrite <- EL, E, map_app; reflexivity|]. tauto.
Qed.
Definition sample4 : str := nl [$"if(A)"; $"   set(x"; $" 1)"; $"endif()"].
Example C69_ex1 : found sample4 (LRec $"C0307" [2; 3; 9]
  ($"Bad indentation:" ++ [cNL] ++ $"   set" ++ [cNL] ++ $"  ^----" ++ [cNL])).
Proof. found. Qed.
Example C69_ex2 : found sample4 (LRec $"C0307" [3; 1; 16]
  ($"Bad indentation:" ++ [cNL] ++ $" 1" ++ [cNL] ++ $"  ^---->" ++ [cNL])).
Proof. found. Qed.
(** A line without blanks at its start is never reported: in a block, where two
    columns are wanted, a statement in the first column passes. *)
Theorem C69_first_column_refuted : exists src y t d g toks tree, lint_file default_lcfg src ctx0 = Ok y /\
  tokenize src = Ok toks /\ parse (lc_ctx default_lcfg) toks = Ok tree /\ In (t, d, g) (placed 0 false tree) /\
  spelling t = $"set" /\ col (begin t) = 0 /\ (d - 1) * lc_tab default_lcfg = 2 /\
  forall r, In r (x_lint y) -> l_id r <> $"C0307".
Proof.
  exists (nl [$"if(A)"; $"set(X 1)"; $"endif()"]). eexists. eexists. eexists. eexists. eexists. eexists.
  split; [vm_compute; reflexivity|]. split; [vm_compute; reflexivity|]. split; [vm_compute; reflexivity|].
  split; [vm_compute; do 5 right; left; reflexivity|]. split; [reflexivity|]. split; [reflexivity|]. split; [reflexivity|].
  intros r K E. destruct r as [i l m]. cbn [l_id] in E. subst. vm_compute in K.
  repeat (destruct K as [K|K]; [discriminate|]). exact K.
Qed.
