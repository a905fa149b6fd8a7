(** * PropNames: which names cmake-lint finds fault with (C119) *)
From Verif Require Import Base Regex Lex LexProofs LexClass TextOps TextProofs Tree Parse ParseProofs CmdSpec
  StdSpecs StdDb PropStd PropBlocks ArgShape Layout SortProofs Markup Pipeline NamesShape LintDb Lint PropLint
  PropLintText LintTree PropLintChecks PropLintDefs PropLintMore PropLintCrash ParserLint PropRemarks.

(** ** The scope of an assignment *)
(** the innermost open function or macro *)
Fixpoint innermost (st : list str) : option str :=
  match st with
  | nil => None
  | w :: st' => if smem w [$"FUNCTION"; $"MACRO"] then Some w else innermost st'
  end.
Definition scope_at (st : list str) : scope :=
  match innermost st with
  | None => ScDirectory
  | Some w => if seqb w $"FUNCTION" then ScLocal else ScParent
  end.
Definition scoped (s : stack) (st : list str) : Prop := forall sc, block_scope s = Ok sc -> sc = scope_at st.
Definition assigns (n : pnode) : Prop := exists w, stmt_name n = Some w /\ In w [$"SET"; $"LIST"].
Definition walks (l : list (stack * pnode)) (st st' : list str) : Prop :=
  fold_left step (map snd l) st = st' /\
  forall a s n b, l = a ++ (s, n) :: b -> assigns n -> scoped s (fold_left step (map snd a) st).
Lemma walks_nil st : walks nil st st.
Proof. split; [reflexivity|]. intros a s n b E. destruct a; discriminate. Qed.
Lemma walks_app l1 l2 st st1 st2 : walks l1 st st1 -> walks l2 st1 st2 -> walks (l1 ++ l2) st st2.
Proof.
  intros [E1 H1] [E2 H2]. split; [rewrite map_app, fold_left_app; congruence|].
  intros a s n b E. apply app_eq_app in E as (m & [[E3 E4]|[E3 E4]]).
  - destruct m as [|v m].
    + rewrite app_nil_r in E3. subst a. cbn [app] in E4. rewrite E1. apply (H2 nil s n b). now symmetry.
    + cbn [app] in E4. injection E4 as <- E4. apply (H1 a s n m E3).
  - subst a. rewrite map_app, fold_left_app, E1. apply (H2 m s n b E4).
Qed.
Lemma walks_one s n st : (assigns n -> scoped s st) -> walks [(s, n)] st (step st n).
Proof.
  intros H. split; [reflexivity|]. intros a s' n' b E. destruct a as [|v a].
  - cbn [app] in E. injection E as <- <- _. exact H.
  - cbn [app] in E. injection E as _ E. destruct a; discriminate.
Qed.
Lemma not_assigns n w : stmt_name n = Some w -> ~ In w [$"SET"; $"LIST"] -> ~ assigns n.
Proof. intros H Hw (w' & H' & K). rewrite H in H'. now injection H' as <-. Qed.
Lemma if_scope cs i s st : even_ok cs -> scoped s st -> scoped ((N KFlow cs, i) :: s) st.
Proof.
  intros He Hs sc. cbn [block_scope is_flow]. unfold block_with. cbn [kids].
  remember (if Nat.even i then (i - 2)%nat else (i - 1)%nat) as j.
  assert (Nat.even j = true) as Ej.
  { subst j. destruct (Nat.even i) eqn:E.
    - destruct i as [|[|i]]; [reflexivity|discriminate|]. cbn [Nat.sub]. rewrite Nat.sub_0_r. exact E.
    - destruct i as [|i]; [discriminate|]. cbn [Nat.sub]. rewrite Nat.sub_0_r.
      rewrite Nat.even_succ, <- Nat.negb_even in E. now destruct (Nat.even i). }
  destruct (nth_error cs j) as [op|] eqn:Eo; [|discriminate].
  destruct (nth_error cs (j + 1)); [|discriminate]. destruct (nth_error cs (j + 2)); [|discriminate].
  destruct (He j op Ej Eo) as (w & Hw & Hin). destruct (stmt_funname op w Hw) as (_ & -> & _).
  cbn [In] in Hin. destruct Hin as [<-|[<-|[<-|[<-|[]]]]]; exact (Hs sc).
Qed.
Lemma scope_if st : scope_at ($"IF" :: st) = scope_at st. Proof. reflexivity. Qed.
Lemma scopes_good :
  (forall brk o n, child_ok brk o n -> forall s st, leveled n = true -> scoped s st ->
     ends st brk -> exists st', walks (svs (visits s n)) st st' /\ (o = false -> st' = st)) /\
  (forall brk o cs, body_ok brk o cs -> forall P s st i, is_flow P = false -> forallb leveled cs = true ->
     scoped s st -> ends st brk ->
     exists st', walks (svs (kids_visits P s i cs)) st st' /\ (o = false -> st' = st)) /\
  (forall o arms, arms_ok o arms -> forall F s st, (forall i st, scoped s st -> scoped ((F, i) :: s) st) ->
     forallb leveled arms = true -> scoped s st ->
     exists st', walks (svs (kids_visits F s 0 arms)) st st' /\ (o = false -> st' = $"IF" :: st)).
Proof.
  apply blocks_min.
  - intros brk n Hn s st HL Hs He. exists st. rewrite inert_svs by auto. split; [apply walks_nil|auto].
  - intros brk n w Hn Hb Hf s st HL Hs He. exists st. rewrite (stmt_svs s n w) by auto. split; [|auto].
    replace st with (step st n) at 2; [eapply walks_one; eauto|].
    apply (step_other st n w); auto. intros top st' -> ->. now apply Hb.
  - intros brk op w bd cl Hop Hw Hb IHb Hcl s st HL Hs He. cbn [leveled forallb] in HL.
    apply andb_prop in HL as [L1 L2]. apply andb_prop in L2 as [L2 L3]. rewrite andb_true_r in L3.
    set (F := N KFlow [op; N KBody bd; cl]). exists st. split; [|auto].
    unfold F at 1. rewrite svs_flow. fold F. cbn [kids_visits]. rewrite !svs_app.
    rewrite (stmt_svs _ op w) by auto. rewrite (stmt_svs _ cl _ Hcl) by auto. rewrite svs_body.
    assert (In w flow_names) as Hwf by (cbn [loop_names flow_names In] in *; tauto).
    assert (~ In w [$"SET"; $"LIST"]) as Hnj.
    { cbn [loop_names In] in Hw. destruct Hw as [<-|[<-|[<-|[<-|[]]]]]; names. }
    assert (~ In ($"END" ++ w) flow_names /\ ~ In ($"END" ++ w) [$"SET"; $"LIST"]) as [Hef Hej].
    { cbn [loop_names In] in Hw. destruct Hw as [<-|[<-|[<-|[<-|[]]]]]; split; names. }
    assert (scoped ((F, 1%nat) :: s) (w :: st)) as Hin.
    { intros sc. assert (block_scope ((F, 1%nat) :: s) = if seqb (funname op) $"function" then Ok ScLocal
          else if seqb (funname op) $"macro" then Ok ScParent else block_scope s) as -> by reflexivity.
      destruct (stmt_funname op w Hop) as (_ & -> & _).
      cbn [loop_names In] in Hw. destruct Hw as [<-|[<-|[<-|[<-|[]]]]]; try exact (Hs sc);
        intros E; injection E as <-; reflexivity. }
    apply walks_app with (st1 := w :: st).
    { rewrite <- (step_open st op w) by auto. eapply walks_one.
      intros J. exfalso. revert J. eapply not_assigns; eauto. }
    destruct (IHb (N KBody bd) ((F, 1%nat) :: s) (w :: st) 0%nat eq_refl L2 Hin) as (st' & G & E); [now left|].
    rewrite (E eq_refl) in G. eapply walks_app; [exact G|].
    rewrite <- (step_close st cl w) at 2 by auto. rewrite app_nil_r. eapply walks_one.
    intros J. exfalso. revert J. eapply not_assigns; eauto.
  - intros brk arms cl Ha IHa Hcl s st HL Hs He. cbn [leveled] in HL. rewrite forallb_app in HL.
    apply andb_prop in HL as [L1 L2]. cbn [forallb] in L2. rewrite andb_true_r in L2.
    exists st. split; [|auto]. rewrite svs_flow, kids_visits_app, svs_app.
    destruct (arms_even _ _ Ha) as [A1 A2].
    assert (even_ok (arms ++ [cl])) as Hev.
    { apply even_ok_app; auto. intros j n Hj Hn. destruct j as [|[|j]]; cbn [nth_error] in Hn; try discriminate.
      injection Hn as <-. exists $"ENDIF". split; [exact Hcl|]. cbn [In]; auto. }
    destruct (IHa (N KFlow (arms ++ [cl])) s st (fun i st0 => if_scope _ i s st0 Hev) L1 Hs) as (st' & G & E).
    rewrite (E eq_refl) in G. eapply walks_app; [exact G|]. cbn [kids_visits]. rewrite app_nil_r.
    rewrite (stmt_svs _ cl _ Hcl) by auto.
    assert (step ($"IF" :: st) cl = st) as Es by (apply step_close; [exact Hcl|names]).
    rewrite <- Es at 2. eapply walks_one.
    intros J. exfalso. revert J. eapply not_assigns; [exact Hcl|names].
  - intros brk arms o Ha IHa s st HL Hs He. cbn [leveled] in HL. rewrite svs_flow.
    destruct (arms_even _ _ Ha) as [A1 A2].
    destruct (IHa (N KFlow arms) s st (fun i st0 => if_scope _ i s st0 A2) HL Hs) as (st' & G & E).
    exists st'. split; [exact G|discriminate].
  - intros brk P s st i HP HL Hs He. exists st. split; [apply walks_nil|auto].
  - intros brk o cs c Hcs IHcs Hc IHc P s st i HP HL Hs He. rewrite forallb_app in HL.
    apply andb_prop in HL as [L1 L2]. cbn [forallb] in L2. rewrite andb_true_r in L2.
    destruct (IHcs P s st i HP L1 Hs He) as (st1 & G1 & E1). rewrite (E1 eq_refl) in G1.
    rewrite kids_visits_app, svs_app. cbn [kids_visits]. rewrite app_nil_r.
    destruct (IHc ((P, (i + List.length cs)%nat) :: s) st L2) as (st2 & G2 & E2); auto.
    { intros sc. cbn [block_scope]. rewrite HP. exact (Hs sc). }
    exists st2. split; [|exact E2]. eapply walks_app; eauto.
  - intros op o bd Hop Hb IHb F s st HF HL Hs. cbn [forallb leveled] in HL. rewrite andb_true_r in HL.
    apply andb_prop in HL as [L1 L2]. cbn [kids_visits]. rewrite app_nil_r, svs_app, svs_body.
    rewrite (stmt_svs _ op _ Hop) by auto.
    destruct (IHb (N KBody bd) ((F, 1%nat) :: s) ($"IF" :: st) 0%nat eq_refl L2) as (st' & G & E).
    { intros sc. rewrite scope_if. apply HF. exact Hs. }
    { cbn [ends if_breakset In]. auto. }
    exists st'. split; [|exact E]. eapply walks_app; [|exact G].
    rewrite <- (step_open st op _ Hop) by (cbn [flow_names In]; auto). eapply walks_one.
    intros J. exfalso. revert J. eapply not_assigns; [exact Hop|names].
  - intros arms op w o bd Ha IHa Hop Hw Hb IHb F s st HF HL Hs. rewrite forallb_app in HL.
    apply andb_prop in HL as [L0 HL]. cbn [forallb leveled] in HL. rewrite andb_true_r in HL.
    apply andb_prop in HL as [L1 L2].
    rewrite kids_visits_app, svs_app. cbn [kids_visits]. rewrite app_nil_r, svs_app, svs_body.
    rewrite (stmt_svs _ op _ Hop) by auto.
    destruct (IHa F s st HF L0 Hs) as (st1 & G1 & E1). rewrite (E1 eq_refl) in G1.
    assert (scoped ((F, S (0 + List.length arms)) :: s) ($"IF" :: st)) as Hin.
    { intros sc. rewrite scope_if. apply HF. exact Hs. }
    destruct (IHb (N KBody bd) ((F, S (0 + List.length arms)) :: s) ($"IF" :: st) 0%nat eq_refl L2 Hin) as (st' & G & E).
    { cbn [ends if_breakset In]. auto. }
    exists st'. split; [|exact E]. eapply walks_app; [exact G1|]. eapply walks_app; [|exact G].
    assert (step ($"IF" :: st) op = $"IF" :: st) as Es.
    { apply (step_other _ _ w Hop).
      - destruct Hw as [<-|[<-|[]]]; names.
      - intros top st'' E2 E3. injection E2 as <- _. destruct Hw as [<-|[<-|[]]]; discriminate. }
    rewrite <- Es at 2. eapply walks_one.
    intros J. exfalso. revert J. eapply not_assigns; [exact Hop|]. destruct Hw as [<-|[<-|[]]]; names.
Qed.
Lemma tree_scopes ctx toks tree : parse ctx toks = Ok tree -> exists st', walks (svs (visits nil tree)) nil st'.
Proof.
  intros Hp. pose proof (parse_leveled _ _ _ Hp) as HL.
  destruct (C50_block_structure_partial _ _ _ Hp) as (cs & o & -> & Hb).
  destruct scopes_good as (_ & HB & _). cbn [leveled] in HL.
  destruct (HB nil o cs Hb (N KBody cs) nil nil 0%nat eq_refl HL) as (st' & G & _).
  - intros sc H. injection H as <-. reflexivity.
  - exact I.
  - exists st'. now rewrite svs_body.
Qed.

(** ** The names that have a pattern to match *)
(** a keyword of the call, in any letter case *)
Definition keyword (w : str) (t : token) : Prop := tt t = WORD /\ upper (spelling t) = w.
(** The words behind CACHE in the last group of a [set] call that begins with CACHE *)
Definition cache_group (g : pnode) (ts : list token) : Prop :=
  exists cs k, g = N KKwargGroup cs /\ filter is_semantic (flat g) = k :: ts /\ keyword $"CACHE" k.
Definition cached (n : pnode) (ts : list token) : Prop :=
  exists a g b, kids (argtree n) = a ++ g :: b /\ cache_group g ts /\ forall h us, In h b -> ~ cache_group h us.
(** A positional group other than the first begins with PARENT_SCOPE. *)
Definition to_parent (n : pnode) : Prop :=
  exists g gs h t ts, filter is_pgroup (kids (argtree n)) = g :: gs /\ In h gs /\ flat h = t :: ts /\ keyword $"PARENT_SCOPE" t.
(** The variable that a call of command [w] writes: the first argument of [set], the
    last word of the first group of the four forms of [list] that give a value *)
Definition target_var (w : str) (n : pnode) (v : token) : Prop :=
  (w = $"SET" /\ nth_error (first_args n) 0 = Some v) \/
  (w = $"LIST" /\ exists f ts, first_args n = f :: ts /\ In (upper (spelling f)) [$"LENGTH"; $"GET"; $"JOIN"; $"SUBLIST"] /\ v = last ts f).
(** What kind of variable it is, by the words of the call and the blocks [st] open
    around it, and the pattern for that kind *)
Definition var_rule (c : lcfg) (w : str) (n : pnode) (st : list str) (what pat : str) : Prop :=
  let parent := what = $"PARENT_SCOPE variable" /\ pat = lc_public c ++ $"|" ++ lc_private c ++ $"|" ++ lc_local c in
  (w = $"SET" /\ exists ts, cached n ts /\
     (((exists t us, ts = t :: us /\ spelling t = $"INTERNAL") /\ what = $"INTERNAL variable" /\ pat = lc_internal c) \/
      (~ (exists t us, ts = t :: us /\ spelling t = $"INTERNAL") /\ what = $"CACHE variable" /\ pat = lc_global c))) \/
  (w = $"SET" /\ (forall ts, ~ cached n ts) /\ to_parent n /\ parent) \/
  ((w = $"SET" -> (forall ts, ~ cached n ts) /\ ~ to_parent n) /\
     ((innermost st = Some $"FUNCTION" /\ what = $"local variable" /\ pat = lc_local c) \/
      (innermost st = Some $"MACRO" /\ parent) \/
      (innermost st = None /\ what = $"directory variable" /\ pat = lc_public c ++ $"|" ++ lc_private c))).

(** [must_match c tree u what nm pat]: the token [u] introduces a name of the kind
    [what], and [nm] has to match [pat].  The references in the name of a variable
    are taken out before. *)
Inductive must_match (c : lcfg) (tree : pnode) : token -> str -> str -> str -> Prop :=
| mm_def op t bd f lp u rest : defines tree op t bd -> sem op = f :: lp :: u :: rest ->
    must_match c tree u (lower (spelling f)) (spelling u)
      (if seqb (upper (spelling t)) $"FUNCTION" then lc_function c else lc_macro c)
| mm_param op t bd a u b : defines tree op t bd -> params op = a ++ u :: b ->
    ~ (exists v, In v (a ++ [u]) /\ tt v = RIGHT_PAREN) -> tt u = WORD -> ~ earlier a lower u ->
    must_match c tree u $"argument" (spelling u) (lc_argument c)
| mm_loop op r t f lp u rest : In (N KFlow (op :: r)) (subtrees tree) -> name_tok op = Some t -> upper (spelling t) = $"FOREACH" ->
    sem op = f :: lp :: u :: rest ->
    must_match c tree u $"argument" (spelling u) (lc_argument c)
| mm_var pre n post t v what nm pat : stmts tree = pre ++ n :: post -> name_tok n = Some t ->
    target_var (upper (spelling t)) n v -> var_rule c (upper (spelling t)) n (open_blocks pre) what pat ->
    mock_varrefs nil (spelling v) = Ok nm -> nm <> nil ->
    must_match c tree v what nm pat.

(** *** The parameters *)
Lemma earlier_lower a u : earlier a (fun s => s) u -> earlier a lower u.
Proof. intros (v & H1 & H2 & H3). exists v. rewrite H3. auto. Qed.
Lemma arg_misnamed c ts : forall seen uncase q, q_id q = $"C0103" -> (forall s, In s seen -> In (lower s) uncase) ->
  (In q (arg_names c seen uncase ts) <-> exists a t b, ts = a ++ t :: b /\
     ~ (exists u, In u (a ++ [t]) /\ tt u = RIGHT_PAREN) /\ tt t = WORD /\
     ~ (In (lower (spelling t)) uncase \/ earlier a lower t) /\ lc_re c (lc_argument c) (spelling t) = false /\
     q = at_tok $"C0103" t [FS $"argument"; FS (spelling t); FS (lc_argument c)]).
Proof.
  induction ts as [|t ts IH]; intros seen uncase q Hq Hsu.
  { cbn [arg_names]. split; [intros []|]. intros (a & t & b & E & _). destruct a; discriminate. }
  cbn [arg_names]. destruct (is_tt RIGHT_PAREN t) eqn:Er.
  { apply is_tt_eq in Er. split; [intros []|]. intros (a & u & b & E & Hn & _). exfalso. apply Hn. exists t.
    split; [|exact Er]. destruct a as [|x a]; cbn [app] in E; injection E as <- E; now left. }
  assert (tt t <> RIGHT_PAREN) as Hr by (intros K; apply is_tt_eq in K; congruence).
  assert (forall (f : str -> str) a u, earlier (t :: a) f u <-> (tt t = WORD /\ f (spelling t) = f (spelling u)) \/ earlier a f u) as HE.
  { intros f a u. split.
    - intros (v & [<-|Hv] & K); [now left|right; exists v; auto].
    - intros [[K1 K2]|(v & Hv & K)]; [exists t; split; [now left|auto]|exists v; split; [now right|auto]]. }
  assert (forall seen' uncase', (forall s, In s seen' -> In (lower s) uncase') ->
    (forall u, In (lower (spelling u)) uncase' <-> In (lower (spelling u)) uncase \/ (tt t = WORD /\ lower (spelling t) = lower (spelling u))) ->
    (In q (arg_names c seen' uncase' ts) <-> exists x a u b, t :: ts = (x :: a) ++ u :: b /\
     ~ (exists v, In v ((x :: a) ++ [u]) /\ tt v = RIGHT_PAREN) /\ tt u = WORD /\
     ~ (In (lower (spelling u)) uncase \/ earlier (x :: a) lower u) /\ lc_re c (lc_argument c) (spelling u) = false /\
     q = at_tok $"C0103" u [FS $"argument"; FS (spelling u); FS (lc_argument c)])) as G.
  { intros seen' uncase' Hs Hu. rewrite (IH seen' uncase' q Hq Hs). split.
    - intros (a & u & b & -> & Hn & K1 & K2 & K3 & K4). exists t, a, u, b. split; [reflexivity|]. split.
      + intros (v & Hv & Ev). cbn [app] in Hv. destruct Hv as [<-|Hv]; [now apply Hr|]. apply Hn. eauto.
      + rewrite Hu in K2. rewrite HE. tauto.
    - intros (x & a & u & b & E & Hn & K1 & K2 & K3 & K4). cbn [app] in E. injection E as <- ->. exists a, u, b. split; [reflexivity|]. split.
      + intros (v & Hv & Ev). apply Hn. exists v. split; [now right|exact Ev].
      + rewrite Hu. rewrite HE in K2. tauto. }
  assert (forall (P : list token -> token -> list token -> Prop), (exists a u b, t :: ts = a ++ u :: b /\ P a u b) <->
    P nil t ts \/ exists x a u b, t :: ts = (x :: a) ++ u :: b /\ P (x :: a) u b) as HX.
  { intros P. split.
    - intros ([|x a] & u & b & E & K); [cbn [app] in E; injection E as <- <-; now left|right; eauto 10].
    - intros [K|(x & a & u & b & E & K)]; [exists nil, t, ts; auto|eauto]. }
  assert (forall f, ~ earlier nil f t) as Hno by (intros f (v & [] & _)).
  rewrite HX. clear HX.
  assert (~ (exists u, In u (nil ++ [t]) /\ tt u = RIGHT_PAREN)) as Hn1.
  { intros (u & [<-|[]] & E). now apply Hr. }
  destruct (negb (is_tt WORD t)) eqn:Ew.
  - apply negb_true_iff in Ew. assert (tt t <> WORD) as Hw by (intros K; apply is_tt_eq in K; congruence).
    cbn [In]. rewrite (G seen uncase Hsu); [|intros u; tauto]. split; (intros [K|K]; [left|right; exact K]).
    + subst q. discriminate Hq.
    + destruct K as (_ & K & _). tauto.
  - apply negb_false_iff, is_tt_eq in Ew. rewrite in_app_iff.
    rewrite (G (spelling t :: seen) (lower (spelling t) :: uncase)); [|intros s [<-|Hs]; [now left|right; auto]|intros u; cbn [In]; tauto].
    split; (intros [K|K]; [left|right; exact K]).
    + split; [exact Hn1|]. split; [exact Ew|]. destruct (smem (spelling t) seen) eqn:E1; [destruct K as [<-|[]]; discriminate Hq|].
      destruct (smem (lower (spelling t)) uncase) eqn:E2; [destruct K as [<-|[]]; discriminate Hq|].
      destruct (lc_re _ _ _) eqn:E3; [destruct K|]. destruct K as [<-|[]]. split; [|auto].
      intros [F|F]; [apply smem_In in F; congruence|now apply Hno in F].
    + destruct K as (_ & _ & K1 & K2 & ->). destruct (smem (spelling t) seen) eqn:E1; [apply smem_In, Hsu in E1; tauto|].
      destruct (smem (lower (spelling t)) uncase) eqn:E2; [apply smem_In in E2; tauto|]. rewrite K2. now left.
Qed.

(** *** The variables *)
Lemma one_kw k t : (~ exists s, k = 45%N :: s) -> (kwarg_in t [k] = true <-> keyword k t).
Proof.
  intros Hk. rewrite (kwarg_word t [k]); [|intros w [<-|[]]; exact Hk]. unfold keyword. cbn [In]. split; [intros (H1 & [H2|[]])|intros (H1 & H2)]; auto.
Qed.
Lemma set_cache_ok n : match set_cache (argtree n) with Some ts => cached n ts | None => forall ts, ~ cached n ts end.
Proof.
  unfold set_cache, cached.
  assert (forall g ts, cache_group g ts <-> match g with N KKwargGroup cs => match filter is_semantic (flats cs) with
      t :: r => kwarg_in t [$"CACHE"] = true /\ r = ts | nil => False end | _ => False end) as HG.
  { intros g ts. unfold cache_group. split.
    - intros (cs & k & -> & H & K). change (flat (N KKwargGroup cs)) with (flats cs) in H. rewrite H. split; [|reflexivity]. apply one_kw; [intros (s & E); discriminate|exact K].
    - destruct g as [|[] cs]; try tauto. destruct (filter is_semantic (flats cs)) as [|k r] eqn:E; [tauto|]. intros (H & <-). exists cs, k. split; [reflexivity|]. split; [exact E|].
      apply one_kw in H; [exact H|intros (s & E'); discriminate]. }
  set (f := fun (acc : option (list token)) (n : pnode) => _).
  assert (forall l acc, match fold_left f l acc with
    | Some ts => (exists a g b, l = a ++ g :: b /\ cache_group g ts /\ forall h us, In h b -> ~ cache_group h us) \/ (acc = Some ts /\ forall h us, In h l -> ~ cache_group h us)
    | None => acc = None /\ forall h us, In h l -> ~ cache_group h us end) as G.
  { induction l as [|g l IH]; intros acc; cbn [fold_left].
    - destruct acc; [right|]; (split; [reflexivity|]; intros h us []).
    - specialize (IH (f acc g)).
      assert ((exists ts, cache_group g ts /\ f acc g = Some ts) \/ ((forall us, ~ cache_group g us) /\ f acc g = acc)) as [(ts & Hg & Ef)|(Hg & Ef)].
      { unfold f. destruct g as [u|k cs]; [right; split; [|reflexivity]; intros us K; now apply HG in K|].
        destruct k; try (right; split; [|reflexivity]; intros us K; now apply HG in K).
        destruct (filter is_semantic (flats cs)) as [|t r] eqn:E.
        { right. split; [|reflexivity]. intros us K. apply HG in K. rewrite E in K. exact K. }
        destruct (kwarg_in t [$"CACHE"]) eqn:Ek.
        - left. exists r. split; [|reflexivity]. apply HG. rewrite E. auto.
        - right. split; [|reflexivity]. intros us K. apply HG in K. rewrite E in K. destruct K as (K & _). congruence. }
      + rewrite Ef in IH |- *. destruct (fold_left f l (Some ts)) as [us|]; [|destruct IH; discriminate]. left. destruct IH as [(a & h & b & -> & H1 & H2)|(E & H)].
        * exists (g :: a), h, b. auto.
        * injection E as <-. exists nil, g, l. auto.
      + rewrite Ef in IH |- *. destruct (fold_left f l acc) as [us|].
        * destruct IH as [(a & h & b & -> & H1 & H2)|(E & H)]; [left; exists (g :: a), h, b; auto|right].
          split; [exact E|]. intros h vs [<-|K]; [apply Hg|now apply H].
        * destruct IH as (E & H). split; [exact E|]. intros h vs [<-|K]; [apply Hg|now apply H]. }
  specialize (G (kids (argtree n)) None). destruct (fold_left f _ None) as [ts|].
  - destruct G as [G|(G & _)]; [exact G|discriminate].
  - destruct G as (_ & G). intros ts (a & g & b & E & K & _). apply (G g ts); [|exact K]. rewrite E. apply in_elt.
Qed.
Lemma set_parent_ok n : set_parent (argtree n) = true <-> to_parent n.
Proof.
  unfold set_parent, to_parent. change (fun n0 : pnode => match n0 with N (KPargGroup _ _ _) _ => true | _ => false end) with is_pgroup.
  destruct (filter is_pgroup (kids (argtree n))) as [|g gs].
  - split; [discriminate|]. intros (g & gs & h & t & ts & E & _). discriminate.
  - rewrite existsb_exists. split.
    + intros (h & Hh & K). destruct (flat h) as [|t ts] eqn:E; [discriminate|]. exists g, gs, h, t, ts. repeat (split; [auto; fail|]).
      apply one_kw in K; [exact K|intros (s & E'); discriminate].
    + intros (g' & gs' & h & t & ts & E & Hh & K1 & K2). injection E as <- <-. exists h. split; [exact Hh|]. rewrite K1. apply one_kw; [intros (s & E'); discriminate|exact K2].
Qed.
Lemma cached_one n ts us : cached n ts -> cached n us -> ts = us.
Proof.
  intros H1 H2. pose proof (set_cache_ok n) as G.
  assert (forall a g b a' g' b' vs ws, a ++ g :: b = a' ++ g' :: b' -> cache_group g vs -> cache_group g' ws ->
    (forall h us, In h b -> ~ cache_group h us) -> (forall h us, In h b' -> ~ cache_group h us) -> g = g') as U.
  { induction a as [|x a IH]; intros g b [|y a'] g' b' vs ws E K1 K2 N1 N2; cbn [app] in E; injection E as E1 E2.
    - exact E1.
    - subst. exfalso. apply (N1 g' ws); [apply in_elt|exact K2].
    - subst. exfalso. apply (N2 g vs); [apply in_elt|exact K1].
    - eapply IH; eauto. }
  destruct H1 as (a & g & b & E & K & NK), H2 as (a' & g' & b' & E' & K' & NK'). rewrite E in E'.
  pose proof (U _ _ _ _ _ _ _ _ E' K K' NK NK') as <-.
  destruct K as (cs & k & _ & F & _), K' as (cs' & k' & _ & F' & _). rewrite F in F'. now injection F'.
Qed.
Definition rule_of (c : lcfg) (sc : scope) : str * str :=
  match sc with
  | ScCache => ($"CACHE variable", lc_global c)
  | ScInternal => ($"INTERNAL variable", lc_internal c)
  | ScParent => ($"PARENT_SCOPE variable", bars [lc_public c; lc_private c; lc_local c])
  | ScLocal => ($"local variable", lc_local c)
  | ScDirectory => ($"directory variable", bars [lc_public c; lc_private c])
  end.
Lemma innermost_two st w : innermost st = Some w -> w = $"FUNCTION" \/ w = $"MACRO".
Proof.
  induction st as [|x st IH]; [discriminate|]. cbn [innermost]. destruct (smem x _) eqn:E; [|exact IH].
  intros H. injection H as <-. apply smem_In in E. destruct E as [E|[E|[]]]; auto.
Qed.
Lemma scope_rule c w n s st sc what pat : scoped s st -> In w [$"SET"; $"LIST"] ->
  scope_of (seqb w $"SET") (argtree n) s = Ok sc -> (var_rule c w n st what pat <-> (what, pat) = rule_of c sc).
Proof.
  intros Hs Hw. unfold scope_of, var_rule. cbv zeta. pose proof (set_cache_ok n) as HC. pose proof (set_parent_ok n) as HP.
  assert (forall a b c d : str, (a, b) = (c, d) <-> a = c /\ b = d) as PE.
  { intros a b c' d. split; [intros E; injection E; auto|intros [-> ->]; reflexivity]. }
  assert (forall sc', block_scope s = Ok sc' -> ((innermost st = Some $"FUNCTION" /\ what = $"local variable" /\ pat = lc_local c) \/
      (innermost st = Some $"MACRO" /\ what = $"PARENT_SCOPE variable" /\ pat = lc_public c ++ $"|" ++ lc_private c ++ $"|" ++ lc_local c) \/
      (innermost st = None /\ what = $"directory variable" /\ pat = lc_public c ++ $"|" ++ lc_private c) <-> (what, pat) = rule_of c sc')) as HB.
  { intros sc' E. apply Hs in E. subst sc'. unfold scope_at. destruct (innermost st) as [x|] eqn:Ei.
    - destruct (innermost_two _ _ Ei) as [-> | ->].
      + change (if seqb $"FUNCTION" $"FUNCTION" then ScLocal else ScParent) with ScLocal. cbn [rule_of]. rewrite PE. split.
        * intros [(_ & K)|[(K & _)|(K & _)]]; [exact K|discriminate|discriminate].
        * intros K. left. auto.
      + change (if seqb $"MACRO" $"FUNCTION" then ScLocal else ScParent) with ScParent. cbn [rule_of]. rewrite PE. split.
        * intros [(K & _)|[(_ & K)|(K & _)]]; [discriminate|exact K|discriminate].
        * intros K. right. left. auto.
    - cbn [rule_of]. rewrite PE. split.
      + intros [(K & _)|[(K & _)|(_ & K)]]; [discriminate|discriminate|exact K].
      + intros K. right. right. auto. }
  cbn [In] in Hw. destruct Hw as [<-|[<-|[]]].
  - change (seqb $"SET" $"SET") with true. cbn [andb]. destruct (set_cache (argtree n)) as [ts|] eqn:Ec.
    + intros E. apply Ok_inj in E. subst sc.
      assert (forall us, cached n us <-> us = ts) as HU by (intros us; split; [intros K; eapply cached_one; eauto|intros ->; exact HC]).
      assert ((exists t us, ts = t :: us /\ spelling t = $"INTERNAL") <-> match ts with t :: _ => seqb (spelling t) $"INTERNAL" = true | nil => False end) as HI.
      { destruct ts as [|t us]; [split; [intros (t & us & E & _); discriminate|tauto]|]. rewrite seqb_eq. split; [intros (t' & us' & E & K); now injection E as <- <-|intros K; eauto]. }
      split.
      * intros [(_ & us & K & R)|[(_ & K & _)|(K & _)]].
        -- apply HU in K. subst us. rewrite HI in R. destruct ts as [|t us].
           ++ cbn [rule_of]. rewrite PE. tauto.
           ++ destruct (seqb (spelling t) $"INTERNAL"); cbn [rule_of]; rewrite PE; intuition discriminate.
        -- exfalso. now apply (K ts).
        -- exfalso. destruct (K eq_refl) as (K' & _). now apply (K' ts).
      * intros R. left. split; [reflexivity|]. exists ts. split; [exact HC|]. rewrite HI. destruct ts as [|t us].
        -- cbn [rule_of] in R. rewrite PE in R. tauto.
        -- destruct (seqb (spelling t) $"INTERNAL"); cbn [rule_of] in R; rewrite PE in R; [left|right]; intuition discriminate.
    + destruct (set_parent (argtree n)) eqn:Ep.
      * intros E. apply Ok_inj in E. subst sc. assert (to_parent n) as HT by now apply HP. cbn [rule_of]. rewrite PE. split.
        -- intros [(_ & us & K & _)|[(_ & _ & _ & K)|(K & _)]]; [now apply HC in K|exact K|]. exfalso. now apply K.
        -- intros K. right. left. auto.
      * intros E. assert (~ to_parent n) as HT by (intros K; apply HP in K; congruence). rewrite <- (HB sc E). split.
        -- intros [(_ & us & K & _)|[(_ & _ & K & _)|(_ & K)]]; [now apply HC in K|tauto|exact K].
        -- intros K. right. right. auto.
  - change (seqb $"LIST" $"SET") with false. cbn [andb]. intros E. rewrite <- (HB sc E). split.
    + intros [(K & _)|[(K & _)|(_ & K)]]; [discriminate|discriminate|exact K].
    + intros K. right. right. split; [intros F; discriminate|exact K].
Qed.
Lemma first_args_find n : match find (fun n0 : pnode => match n0 with N (KPargGroup _ _ _) _ => true | _ => false end) (kids (argtree n)) with
  Some g => first_args n = sem g | None => first_args n = nil end.
Proof.
  unfold first_args. rewrite find_filter. change (fun n0 : pnode => match n0 with N (KPargGroup _ _ _) _ => true | _ => false end) with is_pgroup.
  destruct (filter is_pgroup (kids (argtree n))); reflexivity.
Qed.
Lemma assignment_in c n s st w qs : scoped s st -> funname n = lower w -> In w [$"SET"; $"LIST"] -> assignment c n s = Ok qs ->
  forall q, In q qs <-> exists v what nm pat, target_var w n v /\ var_rule c w n st what pat /\ mock_varrefs nil (spelling v) = Ok nm /\ nm <> nil /\
    lc_re c pat nm = false /\ q = at_tok $"C0103" v [FS what; FS (spelling v); FS pat].
Proof.
  intros Hs Hf Hw H q. unfold assignment in H. cbv zeta in H.
  assert (seqb (funname n) $"set" = seqb w $"SET") as Ew by (rewrite Hf; cbn [In] in Hw; destruct Hw as [<-|[<-|[]]]; reflexivity).
  rewrite Ew in H. apply bindr_ok in H as (sc & Hsc & H). pose proof (fun what pat => scope_rule c w n s st sc what pat Hs Hw Hsc) as HR.
  apply bindr_ok in H as (v & Hv & H).
  assert (forall u, target_var w n u <-> v = Some u) as HT.
  { intros u. unfold target_var. pose proof (first_args_find n) as HF. unfold set_varname, first_group in Hv.
    destruct (find _ (kids (argtree n))) as [g|].
    - rewrite HF. cbn [In] in Hw. destruct Hw as [<-|[<-|[]]].
      + change (seqb $"SET" $"SET") with true in Hv. cbv iota in Hv. destruct (sem g) as [|t ts]; [discriminate|]. cbn [hd_error] in Hv. apply Ok_inj in Hv. subst v. cbn [nth_error]. split.
        * intros [(_ & K)|(K & _)]; [exact K|discriminate].
        * intros K. left. auto.
      + change (seqb $"LIST" $"SET") with false in Hv. cbv iota in Hv. destruct (sem g) as [|t ts]; [discriminate|]. apply Ok_inj in Hv. subst v. split.
        * intros [(K & _)|(_ & f & us & E & K & ->)]; [discriminate|]. injection E as <- <-. apply smem_In in K. now rewrite K.
        * intros K. right. split; [reflexivity|]. exists t, ts. split; [reflexivity|]. destruct (smem _ _) eqn:E; [|discriminate]. apply smem_In in E. injection K as <-. auto.
    - cbn [In] in Hw. destruct Hw as [<-|[<-|[]]]; [change (seqb $"SET" $"SET") with true in Hv|change (seqb $"LIST" $"SET") with false in Hv]; discriminate. }
  destruct v as [v|].
  2:{ apply Ok_inj in H. subst qs. split; [intros []|]. intros (v & what & nm & pat & K & _). apply HT in K. discriminate. }
  apply bindr_ok in H as (r & Hr & H).
  assert (forall q, (exists u what nm pat, target_var w n u /\ var_rule c w n st what pat /\ mock_varrefs nil (spelling u) = Ok nm /\ nm <> nil /\
    lc_re c pat nm = false /\ q = at_tok $"C0103" u [FS what; FS (spelling u); FS pat]) <-> r <> nil /\ lc_re c (snd (rule_of c sc)) r = false /\
    q = at_tok $"C0103" v [FS (fst (rule_of c sc)); FS (spelling v); FS (snd (rule_of c sc))]) as HX.
  { clear q. intros q. split.
    - intros (u & what & nm & pat & K1 & K2 & K3 & K4 & K5 & ->). apply HT in K1. injection K1 as <-. apply HR in K2. rewrite Hr in K3. apply Ok_inj in K3. subst nm.
      rewrite <- K2. auto.
    - intros (K1 & K2 & ->). exists v, (fst (rule_of c sc)), r, (snd (rule_of c sc)). split; [now apply HT|]. split; [apply HR; symmetry; apply surjective_pairing|]. auto. }
  rewrite HX. clear HX. destruct r as [|x r]; [apply Ok_inj in H; subst qs; split; [intros []|intros (K & _); congruence]|].
  change (match sc with
              | ScCache => ($"CACHE variable", lc_global c)
              | ScInternal => ($"INTERNAL variable", lc_internal c)
              | ScParent => ($"PARENT_SCOPE variable", bars [lc_public c; lc_private c; lc_local c])
              | ScLocal => ($"local variable", lc_local c)
              | ScDirectory => ($"directory variable", bars [lc_public c; lc_private c])
              end) with (rule_of c sc) in H.
  destruct (rule_of c sc) as [what pat]. cbn [fst snd]. apply Ok_inj in H. subst qs. destruct (lc_re c pat (x :: r)).
  - split; [intros []|]. intros (_ & K & _). discriminate.
  - split; [intros [<-|[]]; repeat split; discriminate|]. intros (_ & _ & ->). now left.
Qed.

(** *** The theorem *)
Definition name_msg (what nm pat : str) : str := $"Invalid " ++ what ++ $" name """ ++ nm ++ $""" doesn't match `" ++ pat ++ $"`".
Lemma name_written r u what pat : written r (at_tok $"C0103" u [FS what; FS (spelling u); FS pat]) <->
  r = LRec $"C0103" [line (begin u); col (begin u); offset (begin u)] (name_msg what (spelling u) pat).
Proof. unfold at_tok. apply (written_msg $"C0103" _ _ ($"Invalid {:s} name " ++ [cDQ] ++ $"{:s}" ++ [cDQ] ++ $" doesn't match `{:s}`")); reflexivity. Qed.
Theorem C119_names : forall c src y, lint_file c src ctx0 = Ok y -> parsers_ok c -> ~ In $"C0103" (lc_disabled c) ->
  exists toks tree, tokenize src = Ok toks /\ parse (lc_ctx c) toks = Ok tree /\
  forall r, In r (x_lint y) /\ l_id r = $"C0103" <->
    exists u what nm pat, must_match c tree u what nm pat /\ lc_re c pat nm = false /\
      r = LRec $"C0103" [line (begin u); col (begin u); offset (begin u)] (name_msg what (spelling u) pat).
Proof.
  intros c src y H HP Hd. destruct (tree_code c src y $"C0103" H HP) as (toks & tree & Ht & Hp & HO & HR); [names|].
  exists toks, tree. split; [exact Ht|]. split; [exact Hp|]. intros r. rewrite HR. clear HR.
  destruct (tree_scopes _ _ _ Hp) as (st' & _ & G).
  assert (forall cs, In (N KFlow cs) (subtrees tree) -> exists qs, flow_checks c cs = Ok qs) as HF.
  { intros cs Hf. destruct (sub_visit nil tree _ Hf) as (s & Hs). pose proof (proj1 (Forall_forall _ _) HO _ Hs) as K. cbn [node_ok snd fst] in K. exact K. }
  split.
  - intros (_ & q & [s n] & Eq & W & Hv & K).
    destruct n as [t|k cs]; [destruct K|]. pose proof (node_coded _ _ _ _ _ K) as Hc. rewrite Eq in Hc.
    destruct k; cbn [node_codes] in Hc; try solve [exfalso; revert Hc; names]; destruct K as (qs & K & Hq).
    + cbn [node_checks fst snd] in K. unfold statement_checks in K.
      match goal with _ : In (s, ?x) _ |- _ => set (n := x) in * end.
      destruct (smem (funname n) [$"break"; $"continue"]) eqn:Ej.
      { exfalso. apply Ok_inj in K. subst qs. destruct (in_loop s); [destruct Hq|]. destruct Hq as [<-|[]]. discriminate Eq. }
      destruct (smem (funname n) [$"set"; $"list"]) eqn:Es; [|apply Ok_inj in K; subst qs; destruct Hq].
      assert (In (s, n) (svs (visits nil tree))) as Hs by (apply filter_In; split; [exact Hv|reflexivity]).
      assert (In n (stmts tree)) as Hst by (apply filter_In; split; [now apply visit_sub in Hv|reflexivity]).
      destruct (stmts_named_all _ _ _ _ Hp Hst) as (t & Htk). destruct (name_tok_name n t Htk) as (E4 & E5 & E6 & _).
      apply (funname_in n _ _ E4) in Es; [|repeat constructor].
      apply in_split in Hs as (a & b & E). assert (scoped s (open_blocks (map snd a))) as Hsc by (apply (G a s n b E); exists (upper (spelling t)); auto).
      assert (funname n = lower (upper (spelling t))) as E7 by now rewrite lower_upper.
      apply (assignment_in c n s _ _ qs Hsc E7 Es K) in Hq as (v & what & nm & pat & K1 & K2 & K3 & K4 & K5 & ->).
      exists v, what, nm, pat. split; [|split; [exact K5|now apply name_written]].
      eapply mm_var with (n := n) (pre := map snd a) (post := map snd b); eauto. rewrite <- (stmts_svs tree nil), E, map_app. reflexivity.
    + cbn [node_checks fst snd] in K. apply visit_sub in Hv.
      destruct (defn_checks _ _ _ _ _ _ Hp Hv K) as [(op & bd & cl & w & q1 & q2 & u & us & -> & Hop & Hw & H1 & H2 & Hfl & ->)|(op & r' & w & -> & Hop & Hnd & Hcd)].
      * destruct (name_tok_ex op w Hop) as (t & Htk & Eu).
        assert (defines tree op t bd) as Hdf by (split; [exact Htk|]; rewrite Eu; split; [exact Hw|eauto]).
        rewrite !(in_app_iff q1), !(in_app_iff q2), !(in_app_iff (check_args c op)) in Hq. destruct Hq as [Hq|[Hq|[Hq|Hq]]].
        -- apply custom_coded in H1. apply (coded_in _ _ _ H1) in Hq. rewrite Eq in Hq. exfalso. revert Hq. names.
        -- unfold check_name in H2. destruct (sem op) as [|f [|lp [|v sl]]] eqn:Es; try discriminate. apply Ok_inj in H2. subst q2.
           destruct (lc_re c _ (spelling v)) eqn:Er; [destruct Hq|]. destruct Hq as [<-|[]]. apply name_written in W.
           exists v, (lower (spelling f)), (spelling v), (if seqb w $"FUNCTION" then lc_function c else lc_macro c). split; [|auto].
           rewrite <- Eu. eapply mm_def; eauto.
        -- unfold check_args in Hq. apply in_app_iff in Hq as [Hq|Hq].
           ++ apply arg_misnamed in Hq as (a & v & b & E & K1 & K2 & K3 & K4 & ->); [|exact Eq|intros z []]. apply name_written in W.
              exists v, $"argument", (spelling v), (lc_argument c). split; [|auto]. eapply mm_param; eauto.
           ++ exfalso. destruct (_ >? _); [|destruct Hq]. destruct Hq as [<-|[]]. discriminate Eq.
        -- exfalso. rewrite !in_app_iff, !over_in in Hq. destruct Hq as [[_ ->]|[[_ ->]|[_ ->]]]; discriminate Eq.
      * destruct (name_tok_ex op w Hop) as (t & Htk & Eu). unfold flow_checks in K. cbv zeta in K. rewrite <- smem_two in K.
        destruct (smem (funname op) [$"function"; $"macro"]) eqn:Es; [apply (funname_in op w _ Hop) in Es; [contradiction|repeat constructor]|].
        destruct (seqb (funname op) $"foreach") eqn:Ef; [|apply Ok_inj in K; subst qs; destruct Hq].
        unfold check_foreach in K. destruct (sem op) as [|f [|lp [|v sl]]] eqn:Eo; try discriminate. apply Ok_inj in K. subst qs.
        destruct (lc_re c _ (spelling v)) eqn:Er; [destruct Hq|]. destruct Hq as [<-|[]]. apply name_written in W.
        exists v, $"argument", (spelling v), (lc_argument c). split; [|auto]. eapply mm_loop; eauto.
        destruct (stmt_funname op w Hop) as (_ & E1 & E2). apply seqb_eq in Ef. rewrite Eu, <- E2, <- E1, Ef. reflexivity.
  - intros (u & what & nm & pat & HM & Hre & ->). split; [exact Hd|].
    assert (forall op t bd q, defines tree op t bd ->
      (forall q2, check_name c op (if seqb (upper (spelling t)) $"FUNCTION" then lc_function c else lc_macro c) = Ok q2 -> In q q2 \/ In q (check_args c op)) ->
      exists v, In v (visits nil tree) /\ node_asks c v q) as HD.
    { intros op t bd q (Htk & Hdf & cl & Hf) Hq. destruct (HF _ Hf) as (qs & Hc). destruct (sub_visit nil tree _ Hf) as (s & Hs).
      exists (s, N KFlow [op; N KBody bd; cl]). split; [exact Hs|]. exists qs. split; [exact Hc|].
      destruct (name_tok_name op t Htk) as (E1 & _).
      destruct (defn_checks _ _ _ _ _ _ Hp Hf Hc) as [(op' & bd' & cl' & w & q1 & q2 & u' & us' & E & Hop & Hw & H1 & H2 & Hfl' & ->)|(op' & r' & w & E & Hop & Hnd & _)].
      + injection E as <- <- <-. rewrite Hop in E1. injection E1 as ->. rewrite !(in_app_iff q1), !(in_app_iff q2), !(in_app_iff (check_args c op)). specialize (Hq _ H2). tauto.
      + injection E as <- <-. rewrite Hop in E1. injection E1 as ->. contradiction. }
    exists (at_tok $"C0103" u [FS what; FS (spelling u); FS pat]).
    assert (exists v, In v (visits nil tree) /\ node_asks c v (at_tok $"C0103" u [FS what; FS (spelling u); FS pat])) as (v & Hv & Ha).
    2:{ exists v. split; [reflexivity|]. split; [now apply name_written|auto]. }
    destruct HM as [op t bd f lp u rest Hdf Es|op t bd a u b Hdf Ep Hn Hw He|op r' t f lp u rest Hf Htk Ef Es|pre n post t v what nm pat E Htk Htv Hrl Hmk Hnn].
    + apply (HD op t bd _ Hdf). intros q2 K. left. unfold check_name in K. rewrite Es in K. apply Ok_inj in K. subst q2. rewrite Hre. now left.
    + apply (HD op t bd _ Hdf). intros q2 _. right. unfold check_args. cbv zeta. apply in_app_iff. left. apply arg_misnamed; [reflexivity|intros z []|].
      exists a, u, b. split; [exact Ep|]. split; [exact Hn|]. split; [exact Hw|]. split; [intros [[]|K]; contradiction|auto].
    + destruct (HF _ Hf) as (qs & Hc). destruct (sub_visit nil tree _ Hf) as (s & Hs). exists (s, N KFlow (op :: r')). split; [exact Hs|]. exists qs. split; [exact Hc|].
      destruct (name_tok_name op t Htk) as (_ & _ & E1 & _). unfold flow_checks in Hc. cbv zeta in Hc.
      assert (funname op = $"foreach") as E2 by (rewrite E1, <- (lower_upper (spelling t)), Ef; reflexivity). rewrite E2 in Hc.
      change (seqb $"foreach" $"function" || seqb $"foreach" $"macro") with false in Hc. change (seqb $"foreach" $"foreach") with true in Hc. cbv iota in Hc.
      unfold check_foreach in Hc. rewrite Es, Hre in Hc. apply Ok_inj in Hc. subst qs. now left.
    + rewrite <- (stmts_svs tree nil) in E. apply map_eq_app in E as (a & b & E & E1 & E2). destruct b as [|[s x] b]; [discriminate|]. cbn [map snd] in E2. injection E2 as -> E2. subst pre.
      destruct (name_tok_name n t Htk) as (E4 & E5 & E6 & E7).
      assert (In (upper (spelling t)) [$"SET"; $"LIST"]) as Hin by (destruct Htv as [(-> & _)|(-> & _)]; cbn; auto).
      assert (In (s, n) (svs (visits nil tree))) as Hs by (rewrite E; apply in_elt). apply filter_In in Hs as [Hs _].
      exists (s, n). split; [exact Hs|]. pose proof (proj1 (Forall_forall _ _) HO _ Hs) as K.
      destruct n as [x|k cs]; [discriminate|]. destruct k; try discriminate. cbn [node_ok snd fst] in K. cbn [node_asks snd fst]. destruct K as (qs & K). exists qs. split; [exact K|].
      cbn [node_checks] in K. unfold statement_checks in K. match type of K with context [funname ?x] => set (n := x) in * end.
      assert (scoped s (open_blocks (map snd a))) as Hsc by (apply (G a s n b E); exists (upper (spelling t)); auto).
      assert (funname n = lower (upper (spelling t))) as E8 by now rewrite lower_upper.
      assert (smem (funname n) [$"break"; $"continue"] = false /\ smem (funname n) [$"set"; $"list"] = true) as [F1 F2].
      { rewrite E8. cbn [In] in Hin. destruct Hin as [<-|[<-|[]]]; split; reflexivity. }
      rewrite F1, F2 in K. apply (assignment_in c n s _ _ qs Hsc E8 Hin K). exists v, what, nm, pat. auto 10.
Qed.

(** A name without a dollar sign is itself the name that has to match; C30 says what
    the other names are turned into. *)
Lemma mock_plain s : ~ In cDOL s -> mock_varrefs nil s = Ok s.
Proof.
  intros H. unfold mock_varrefs. apply (count_occ_not_In N.eq_dec) in H.
  destruct (rsearch varref None s) eqn:E.
  - destruct (subf_dollars nil (List.length s) eq_refl None s) as [_ K]; [lia|]. assert (rsearch varref None s <> None) as Hn by congruence.
    apply K in Hn. unfold ndol in Hn. rewrite H in Hn. lia.
  - destruct (List.length s); cbn [mock_loop]; now rewrite E.
Qed.

(** A file with a name of every kind, under a configuration none of whose patterns
    matches anything, and one whose pattern for arguments alone matches nothing *)
Definition names_lcfg (f : str -> str -> bool) : lcfg :=
  LCfg 80 (Some Unix) false UseSpace 2 nil 1 2 2 6 12 5 50 $"fn" $"ma" $"gl" $"in" $"lo" $"pr" $"pu" $"ar"
       f default_mcfg the_ctx (fun _ => true) (fun _ => false) (fun _ => nil) (fun _ => nil).
Definition names_sample : str := nl [
  $"set(A 1)"; $"set(${B} 1)"; $"set(C${B} 1)"; $"set(D 1 CACHE STRING ""d"")"; $"set(E 1 CACHE INTERNAL ""d"")";
  $"foreach(F ${B})"; $"  set(G 1)"; $"endforeach()";
  $"function(H I ""J"" I)"; $"  set(K 1)"; $"  set(L 1 PARENT_SCOPE)"; $"  list(LENGTH K M)"; $"  list(APPEND K 2)";
  $"  macro(N)"; $"    if(TRUE)"; $"      set(O 1)"; $"    endif()"; $"  endmacro()"; $"  set(P 1)"; $"endfunction()"; $"set(Q 1)"].
Example C119_names_ex : exists y z, lint_file (names_lcfg (fun _ _ => false)) names_sample ctx0 = Ok y /\ parsers_ok (names_lcfg (fun _ _ => false))
  /\ map (fun r => (firstn 1 (l_loc r), l_msg r)) (filter (fun r => seqb (l_id r) $"C0103") (x_lint y)) = [
    ([1], name_msg $"directory variable" $"A" $"pu|pr"); ([3], name_msg $"directory variable" $"C${B}" $"pu|pr");
    ([4], name_msg $"CACHE variable" $"D" $"gl"); ([5], name_msg $"INTERNAL variable" $"E" $"in");
    ([6], name_msg $"argument" $"F" $"ar"); ([7], name_msg $"directory variable" $"G" $"pu|pr");
    ([9], name_msg $"function" $"H" $"fn"); ([9], name_msg $"argument" $"I" $"ar");
    ([10], name_msg $"local variable" $"K" $"lo"); ([11], name_msg $"PARENT_SCOPE variable" $"L" $"pu|pr|lo");
    ([12], name_msg $"local variable" $"M" $"lo"); ([14], name_msg $"macro" $"N" $"ma");
    ([16], name_msg $"PARENT_SCOPE variable" $"O" $"pu|pr|lo"); ([19], name_msg $"local variable" $"P" $"lo");
    ([21], name_msg $"directory variable" $"Q" $"pu|pr")]
  /\ lint_file (names_lcfg (fun p _ => negb (seqb p $"ar"))) names_sample ctx0 = Ok z
  /\ map (fun r => firstn 1 (l_loc r)) (filter (fun r => seqb (l_id r) $"C0103") (x_lint z)) = [[6]; [9]].
Proof.
  eexists. eexists. split; [vm_compute; reflexivity|]. split; [intros l; constructor|]. split; [vm_compute; reflexivity|]. split; [vm_compute; reflexivity|]. vm_compute. reflexivity.
Qed.
Print Assumptions C119_names.
