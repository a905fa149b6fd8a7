(** * PropLintDefs: the checks of function and macro definitions (C63, C66) *)
From Coq Require Import Permutation.
From Verif Require Import Base Regex Lex LexProofs LexClass TextOps TextProofs Tree Parse ParseProofs CmdSpec
  StdSpecs StdDb PropStd PropBlocks ArgShape Layout SortProofs Markup Pipeline NamesShape LintDb Lint PropLint
  PropLintText LintTree PropLintChecks.

Definition only_flow : list str := [$"C0201"; $"E0109"; $"E0108"; $"C0202"; $"R0913"; $"R0911"; $"R0912"; $"R0915"].
Lemma flow_code c src y i : lint_file c src ctx0 = Ok y -> parsers_ok c -> In i only_flow ->
  exists toks tree, tokenize src = Ok toks /\ parse (lc_ctx c) toks = Ok tree /\
  (forall cs, In (N KFlow cs) (subtrees tree) -> exists qs, flow_checks c cs = Ok qs) /\
  forall r, In r (x_lint y) /\ l_id r = i <->
    ~ In i (lc_disabled c) /\ exists cs qs q, In (N KFlow cs) (subtrees tree) /\
      flow_checks c cs = Ok qs /\ In q qs /\ q_id q = i /\ written r q.
Proof.
  intros H HP Hi. destruct (tree_code c src y i H HP) as (toks & tree & Ht & Hp & HO & HR).
  { cbn [only_flow In] in Hi. destruct Hi as [<-|[<-|[<-|[<-|[<-|[<-|[<-|[<-|[]]]]]]]]]; names. }
  exists toks, tree. split; [exact Ht|]. split; [exact Hp|]. split.
  { intros cs Hb. destruct (sub_visit nil tree _ Hb) as (s & Hs). exact (proj1 (Forall_forall _ _) HO _ Hs). }
  intros r. rewrite HR. split; (intros [Hd K]; split; [exact Hd|]).
  - destruct K as (q & [s [t|k cs]] & Eq & W & Hv & K); [destruct K|].
    pose proof (node_coded _ _ _ _ _ K) as Hc. rewrite Eq in Hc.
    assert (k = KFlow) as ->.
    { destruct k; try reflexivity; exfalso; revert Hc; cbn [node_codes only_flow In] in *;
        destruct Hi as [<-|[<-|[<-|[<-|[<-|[<-|[<-|[<-|[]]]]]]]]]; names. }
    destruct K as (qs & K1 & K2). apply visit_sub in Hv. exists cs, qs, q. auto.
  - destruct K as (cs & qs & q & Hb & Hr & Hq & Eq & W).
    destruct (sub_visit nil tree _ Hb) as (s & Hs). exists q, (s, N KFlow cs). split; [exact Eq|]. split; [exact W|].
    split; [exact Hs|]. exists qs. auto.
Qed.

(** ** The breadth-first search meets every node once *)
Lemma number_snd {A} (l : list A) : forall i, map snd (number i l) = l.
Proof. induction l as [|a l IH]; intros i; [reflexivity|]. cbn [number map snd]. now rewrite IH. Qed.
Lemma sons_fst e : map fst (sons e) = kids (fst e).
Proof.
  unfold sons. rewrite map_map. cbn [fst]. rewrite <- (number_snd (kids (fst e)) 0) at 2. reflexivity.
Qed.
Lemma depth_pos n : (1 <= depth n)%nat.
Proof. destruct n; cbn; lia. Qed.
Lemma depth_kid n x : In x (kids n) -> (S (depth x) <= depth n)%nat.
Proof.
  destruct n as [t|k cs]; [intros []|]. cbn [kids depth]. intros H. apply le_n_S.
  induction cs as [|a cs IH]; [destruct H|]. cbn [fold_right]. destruct H as [<-|H]; [lia|]. specialize (IH H). lia.
Qed.
Lemma subtrees_kids n : subtrees n = n :: flat_map subtrees (kids n).
Proof. destruct n; reflexivity. Qed.
Definition esub (e : entry) : list pnode := subtrees (fst e).
Lemma levels_perm f : forall l : list entry, (forall e, In e l -> (depth (fst e) <= f)%nat) ->
  Permutation (map fst (levels f l)) (flat_map esub l).
Proof.
  induction f as [|f IH]; intros l H.
  - destruct l as [|e l]; [constructor|]. specialize (H e (or_introl eq_refl)). pose proof (depth_pos (fst e)). lia.
  - cbn [levels]. rewrite map_app. rewrite IH.
    + clear IH H. induction l as [|e l IHl]; [constructor|]. cbn [map flat_map]. rewrite flat_map_app.
      change (esub e) with (subtrees (fst e)). rewrite (subtrees_kids (fst e)). cbn [app]. apply perm_skip.
      assert (flat_map esub (sons e) = flat_map subtrees (kids (fst e))) as ->.
      { rewrite <- sons_fst. rewrite !flat_map_concat_map, map_map. reflexivity. }
      rewrite <- IHl. rewrite !app_assoc. apply Permutation_app_tail. apply Permutation_app_comm.
    + intros e He. apply in_flat_map in He as (p & Hp & He).
      assert (In (fst e) (kids (fst p))) as K by (rewrite <- sons_fst; now apply in_map).
      apply depth_kid in K. specialize (H p Hp). lia.
Qed.
Lemma bfs_perm n : Permutation (map fst (bfs n)) (subtrees n).
Proof.
  unfold bfs. rewrite levels_perm.
  - cbn [flat_map]. rewrite app_nil_r. reflexivity.
  - intros e [<-|[]]. cbn [fst]. lia.
Qed.
Lemma count_bfs (p : pnode -> bool) n : zlen (filter (fun e => p (fst e)) (bfs n)) = zlen (filter p (subtrees n)).
Proof.
  unfold zlen. f_equal.
  assert (forall l l' : list pnode, Permutation l l' -> List.length (filter p l) = List.length (filter p l')) as G.
  { induction 1 as [|x l l' H IH|x z l|l l' l'' H IH H' IH']; [reflexivity| | |congruence].
    - cbn [filter]. destruct (p x); cbn [List.length]; now rewrite IH.
    - cbn [filter]. destruct (p x), (p z); reflexivity. }
  rewrite <- (G _ _ (bfs_perm n)). induction (bfs n) as [|e l IH]; [reflexivity|]. cbn [filter map].
  destruct (p (fst e)); cbn [List.length]; now rewrite IH.
Qed.

(** ** What the check of a block requests *)
Definition over (id : str) (ln : list Z) (n mx : Z) : list req :=
  if n >? mx then [Req id ln [FI n; FI mx]] else nil.
Definition is_defn (w : str) : Prop := In w [$"FUNCTION"; $"MACRO"].
Lemma smem_two x a b : smem x [a; b] = seqb x a || seqb x b.
Proof. unfold smem. cbn [existsb]. now rewrite orb_false_r. Qed.
Lemma defn_checks ctx toks tree c cs qs : parse ctx toks = Ok tree -> In (N KFlow cs) (subtrees tree) ->
  flow_checks c cs = Ok qs ->
  (exists op bd cl w q1 q2 u us, cs = [op; N KBody bd; cl] /\ stmt_name op = Some w /\ is_defn w /\
     custom_parse c (N KBody bd) = Ok q1 /\
     check_name c op (if seqb w $"FUNCTION" then lc_function c else lc_macro c) = Ok q2 /\ flat op = us ++ [u] /\
     qs = q1 ++ q2 ++ check_args c op
       ++ over $"R0911" [line (begin u) + 1] (zlen (stmts_named [$"return"] (N KBody bd))) (lc_max_returns c)
       ++ over $"R0912" [line (begin u) + 1] (zlen (stmts_named [$"if"; $"elseif"; $"else"] (N KBody bd))) (lc_max_branches c)
       ++ over $"R0915" [line (begin u) + 1] (zlen (filter (fun e => is_stmt (fst e)) (bfs (N KBody bd)))) (lc_max_stmts c)) \/
  (exists op r w, cs = op :: r /\ stmt_name op = Some w /\ ~ is_defn w /\ coded [$"C0103"] qs).
Proof.
  intros Hp Hf H. destruct (tree_flows _ _ _ _ Hp Hf eq_refl) as (op & w & r & E & Hw & Hwf & Hloop).
  injection E as ->. unfold flow_checks in H. cbv zeta in H. rewrite <- smem_two in H.
  destruct (smem (funname op) [$"function"; $"macro"]) eqn:Es.
  - left. apply (funname_in op w _ Hw) in Es; [|repeat constructor]. change (is_defn w) in Es.
    destruct Hloop as (bd & cl & -> & Hcl).
    { cbn [loop_names In is_defn] in *. destruct Es as [<-|[<-|[]]]; auto. }
    unfold check_defn in H. apply bindr_ok in H as (q1 & H1 & H). apply bindr_ok in H as (q2 & H2 & H).
    destruct (rev (flat op)) as [|u us] eqn:Er; [discriminate|]. cbv zeta in H. apply Ok_inj in H.
    exists op, bd, cl, w, q1, q2, u, (rev us). split; [reflexivity|]. split; [exact Hw|]. split; [exact Es|].
    split; [exact H1|]. split.
    + replace (seqb w $"FUNCTION") with (seqb (funname op) $"function"); [exact H2|].
      pose proof (funname_in op w [$"function"] Hw) as K. apply eq_true_iff_eq. rewrite !seqb_eq.
      rewrite smem_In in K. cbn [In map] in K. destruct K as [K1 K2]; [repeat constructor|]. split.
      * intros E. destruct K1 as [K1|[]]; [left; congruence|]. now rewrite <- K1.
      * intros E. destruct K2 as [K2|[]]; [left; now rewrite E|]. congruence.
    + split; [|now subst qs]. rewrite <- (rev_involutive (flat op)), Er. reflexivity.
  - right. exists op, r, w. split; [reflexivity|]. split; [exact Hw|]. split.
    + intros K. apply not_true_iff_false in Es. apply Es. now apply (funname_in op w _ Hw); [repeat constructor|].
    + destruct (seqb _ _); [|injection H as <-; coded]. unfold check_foreach in H.
      destruct (sem op) as [|f [|g [|h sl]]]; try discriminate. injection H as <-. coded.
Qed.

(** ** C66: limits on the size of a function or macro *)
(** A definition: its opening statement with the name token, and its body. *)
Definition defines (tree op : pnode) (t : token) (bd : list pnode) : Prop :=
  name_tok op = Some t /\ In (upper (spelling t)) [$"FUNCTION"; $"MACRO"] /\
  exists cl, In (N KFlow [op; N KBody bd; cl]) (subtrees tree).
Definition named (ws : list str) (n : pnode) : bool :=
  match name_tok n with Some t => smem (upper (spelling t)) ws | None => false end.
Definition any_stmt (n : pnode) : bool := true.

Lemma over_in id ln n mx q : In q (over id ln n mx) <-> mx < n /\ q = Req id ln [FI n; FI mx].
Proof.
  unfold over. destruct (n >? mx) eqn:E; cbn [In]; split.
  - intros [<-|[]]. split; [lia|reflexivity].
  - intros [_ ->]. now left.
  - intros [].
  - intros [K _]. lia.
Qed.
Lemma over_coded id ln n mx : coded [id] (over id ln n mx).
Proof. unfold over. coded. Qed.
Lemma stmts_count ctx toks tree bd (names : list str) : parse ctx toks = Ok tree ->
  In (N KBody bd) (subtrees tree) -> Forall (fun x => lower x = x) names ->
  zlen (stmts_named names (N KBody bd)) = zlen (filter (named (map upper names)) (stmts (N KBody bd))).
Proof.
  intros Hp Hb Hn. unfold stmts_named.
  rewrite (count_bfs (fun x => is_stmt x && smem (funname x) names)). unfold stmts.
  assert (forall l, incl l (subtrees (N KBody bd)) ->
    filter (fun x => is_stmt x && smem (funname x) names) l = filter (named (map upper names)) (filter is_stmt l)) as G.
  { induction l as [|x l IH]; intros Hl; [reflexivity|]. cbn [filter].
    assert (incl l (subtrees (N KBody bd))) as Hl' by (intros z Hz; apply Hl; now right).
    destruct (is_stmt x) eqn:Ex; cbn [andb]; [|now apply IH]. cbn [filter]. rewrite IH by exact Hl'.
    destruct (stmts_named_all _ _ tree x Hp) as (t & Ht).
    { apply filter_In. split; [|exact Ex]. eapply subtrees_trans; [exact Hb|]. apply Hl. now left. }
    destruct (name_tok_name x t Ht) as (E1 & _ & E3 & _).
    assert (smem (funname x) names = named (map upper names) x) as ->; [|reflexivity].
    unfold named. rewrite Ht. apply eq_true_iff_eq. rewrite (funname_in x _ names E1 Hn). now rewrite smem_In. }
  now rewrite G by apply incl_refl.
Qed.
Lemma all_count bd : zlen (filter (fun e => is_stmt (fst e)) (bfs (N KBody bd)))
  = zlen (filter any_stmt (stmts (N KBody bd))).
Proof.
  rewrite (count_bfs is_stmt). unfold stmts. f_equal. induction (filter _ _) as [|x l IH]; [reflexivity|].
  cbn [filter any_stmt]. now rewrite <- IH.
Qed.
Lemma last_app_inj {A} (a b : list A) x y : a ++ [x] = b ++ [y] -> a = b /\ x = y.
Proof. apply app_inj_tail. Qed.

Lemma args_coded c op : coded [$"E0109"; $"E0108"; $"C0202"; $"C0103"; $"R0913"] (check_args c op).
Proof.
  assert (forall ts seen uncase, coded [$"E0109"; $"E0108"; $"C0202"; $"C0103"; $"R0913"] (arg_names c seen uncase ts)) as G.
  { induction ts as [|t ts IH]; intros seen uncase; cbn [arg_names]; [coded|].
    destruct (is_tt RIGHT_PAREN t); [coded|]. destruct (negb _).
    - apply coded_one; [inl_tac|auto].
    - apply coded_app; [|auto]. coded. }
  unfold check_args. cbv zeta. apply coded_app; [apply G|]. coded.
Qed.

(** For each of the three limits: a definition is reported exactly when its body
    holds more such statements than allowed, and the message gives both numbers. *)
Theorem C66_size_limits : forall c src y i (p : pnode -> bool) mx (txt : str),
  lint_file c src ctx0 = Ok y -> parsers_ok c -> ~ In i (lc_disabled c) ->
  In (i, p, mx, txt)
     [($"R0911", named [$"RETURN"], lc_max_returns c, $"return statements");
      ($"R0912", named [$"IF"; $"ELSEIF"; $"ELSE"], lc_max_branches c, $"branches");
      ($"R0915", any_stmt, lc_max_stmts c, $"statements")] ->
  exists toks tree, tokenize src = Ok toks /\ parse (lc_ctx c) toks = Ok tree /\
  forall r, In r (x_lint y) /\ l_id r = i <->
    exists op t bd us u n, defines tree op t bd /\ flat op = us ++ [u] /\
      n = zlen (filter p (stmts (N KBody bd))) /\ mx < n /\
      r = LRec i [line (begin u) + 1] ($"Too many " ++ txt ++ $" " ++ dec n ++ $"/" ++ dec mx).
Proof.
  intros c src y i p mx txt H HP Hd Hi.
  assert (In i [$"R0911"; $"R0912"; $"R0915"]) as Hi'.
  { cbn [In] in *. destruct Hi as [E|[E|[E|[]]]]; injection E as <- _ _ _; auto. }
  destruct (flow_code c src y i H HP) as (toks & tree & Ht & Hp & HO & HR).
  { cbn [only_flow In] in *. tauto. }
  exists toks, tree. split; [exact Ht|]. split; [exact Hp|]. intros r. rewrite HR. clear HR.
  assert (forall l n, written r (Req i l [FI n; FI mx]) <->
    r = LRec i l ($"Too many " ++ txt ++ $" " ++ dec n ++ $"/" ++ dec mx)) as HW.
  { intros l n. cbn [In] in Hi. destruct Hi as [E|[E|[E|[]]]]; injection E as <- _ <- <-;
      (eapply written_msg; [reflexivity|]);
      match goal with |- context [dec n ++ $"/" ++ ?x] => rewrite <- (app_nil_r x) end; reflexivity. }
  assert (forall op bd cl, In (N KFlow [op; N KBody bd; cl]) (subtrees tree) -> forall u q,
    q_id q = i ->
    In q (over $"R0911" [line (begin u) + 1] (zlen (stmts_named [$"return"] (N KBody bd))) (lc_max_returns c)
       ++ over $"R0912" [line (begin u) + 1] (zlen (stmts_named [$"if"; $"elseif"; $"else"] (N KBody bd))) (lc_max_branches c)
       ++ over $"R0915" [line (begin u) + 1] (zlen (filter (fun e => is_stmt (fst e)) (bfs (N KBody bd)))) (lc_max_stmts c))
    <-> let n := zlen (filter p (stmts (N KBody bd))) in mx < n /\ q = Req i [line (begin u) + 1] [FI n; FI mx]) as HC.
  { intros op bd cl Hf u q Eq.
    assert (In (N KBody bd) (subtrees tree)) as Hb.
    { eapply subtrees_trans; [exact Hf|]. cbn [subtrees flat_map]. right. rewrite !in_app_iff. right. left.
      cbn [In]. now left. }
    rewrite all_count, !(stmts_count _ _ _ _ _ Hp Hb) by repeat constructor. rewrite !in_app_iff, !over_in.
    cbv zeta. cbn [In] in Hi. destruct Hi as [E|[E|[E|[]]]]; injection E as <- <- <- <-; split;
      try (intros [[K E]|[[K E]|[K E]]]; (split; [|exact E]) || (rewrite E in Eq; discriminate Eq); exact K);
      intros K; tauto. }
  split.
  - intros (_ & cs & qs & q & Hf & Hc & Hq & Eq & W).
    destruct (defn_checks _ _ _ _ _ _ Hp Hf Hc) as [(op & bd & cl & w & q1 & q2 & u & us & -> & Hop & Hw & H1 & H2 & Hfl & ->)|(op & r' & w & -> & _ & _ & Hcd)].
    2:{ apply (coded_in _ _ _ Hcd) in Hq. rewrite Eq in Hq. exfalso. revert Hq.
        cbn [In] in Hi'. destruct Hi' as [<-|[<-|[<-|[]]]]; names. }
    rewrite !(in_app_iff q1), !(in_app_iff q2), !(in_app_iff (check_args c op)) in Hq.
    destruct Hq as [Hq|[Hq|[Hq|Hq]]].
    + apply custom_coded in H1. apply (coded_in _ _ _ H1) in Hq. rewrite Eq in Hq. exfalso. revert Hq.
      cbn [In] in Hi'. destruct Hi' as [<-|[<-|[<-|[]]]]; names.
    + assert (coded [$"C0103"] q2) as K.
      { unfold check_name in H2. destruct (sem op) as [|f [|g [|h sl]]]; try discriminate. injection H2 as <-. coded. }
      apply (coded_in _ _ _ K) in Hq. rewrite Eq in Hq. exfalso. revert Hq.
      cbn [In] in Hi'. destruct Hi' as [<-|[<-|[<-|[]]]]; names.
    + assert (coded [$"E0109"; $"E0108"; $"C0202"; $"C0103"; $"R0913"] (check_args c op)) as K.
      { apply args_coded. }
      apply (coded_in _ _ _ K) in Hq. rewrite Eq in Hq. exfalso. revert Hq.
      cbn [In] in Hi'. destruct Hi' as [<-|[<-|[<-|[]]]]; names.
    + apply (HC op bd cl Hf u q Eq) in Hq. cbv zeta in Hq. destruct Hq as [Hn ->].
      destruct (name_tok_ex op w Hop) as (t & Htk & Eu).
      exists op, t, bd, us, u, (zlen (filter p (stmts (N KBody bd)))). split; [|split; [exact Hfl|split; [reflexivity|split; [exact Hn|now apply HW]]]].
      split; [exact Htk|]. rewrite Eu. split; [exact Hw|]. eauto.
  - intros (op & t & bd & us & u & n & (Htk & Hdf & cl & Hf) & Hfl & -> & Hn & ->). split; [exact Hd|].
    destruct (HO _ Hf) as (qs & Hc). exists [op; N KBody bd; cl], qs.
    exists (Req i [line (begin u) + 1] [FI (zlen (filter p (stmts (N KBody bd)))); FI mx]).
    split; [exact Hf|]. split; [exact Hc|]. split; [|split; [reflexivity|now apply HW]].
    destruct (defn_checks _ _ _ _ _ _ Hp Hf Hc) as [(op' & bd' & cl' & w & q1 & q2 & u' & us' & E & Hop & Hw & H1 & H2 & Hfl' & ->)|(op' & r' & w & E & Hop & Hnd & _)].
    + injection E as <- <- <-. rewrite Hfl in Hfl'. apply last_app_inj in Hfl' as [<- <-].
      rewrite !(in_app_iff q1), !(in_app_iff q2), !(in_app_iff (check_args c op)). do 3 right.
      apply (HC op bd cl Hf u); [reflexivity|]. cbv zeta. auto.
    + injection E as <- <-. destruct (name_tok_name op t Htk) as (E1 & _). rewrite Hop in E1. injection E1 as ->. tauto.
Qed.

(** ** C63: the parameter names of a function or macro *)
(** the parameters: the words in the parentheses after the first one, up to a
    nested closing parenthesis *)
Definition params (op : pnode) : list token := tl (sem (argtree op)).
Definition earlier (a : list token) (f : str -> str) (t : token) : Prop :=
  exists u, In u a /\ tt u = WORD /\ f (spelling u) = f (spelling t).
Definition bad_param (i : str) (a : list token) (t : token) (msg : str) : Prop :=
  (i = $"E0109" /\ tt t <> WORD /\
     msg = $"Invalid argument name " ++ spelling t ++ $" in function/macro definition") \/
  (i = $"E0108" /\ tt t = WORD /\ earlier a (fun s => s) t /\
     msg = $"Duplicate argument name " ++ spelling t ++ $" in function/macro definition") \/
  (i = $"C0202" /\ tt t = WORD /\ earlier a lower t /\ ~ earlier a (fun s => s) t /\
     msg = $"Argument name " ++ spelling t ++ $" differs from existing argument only in case").

Lemma is_tt_eq k t : is_tt k t = true <-> tt t = k.
Proof. unfold is_tt. rewrite ttype_eqb_eq. split; auto. Qed.
Lemma arg_names_in c ts : forall seen uncase q, In (q_id q) [$"E0109"; $"E0108"; $"C0202"] ->
  (In q (arg_names c seen uncase ts) <-> exists a t b, ts = a ++ t :: b /\
     ~ (exists u, In u (a ++ [t]) /\ tt u = RIGHT_PAREN) /\
     ((tt t <> WORD /\ q = at_tok $"E0109" t [FS (spelling t)]) \/
      (tt t = WORD /\ (In (spelling t) seen \/ earlier a (fun s => s) t) /\ q = at_tok $"E0108" t [FS (spelling t)]) \/
      (tt t = WORD /\ ~ (In (spelling t) seen \/ earlier a (fun s => s) t) /\
         (In (lower (spelling t)) uncase \/ earlier a lower t) /\ q = at_tok $"C0202" t [FS (spelling t)]))).
Proof.
  induction ts as [|t ts IH]; intros seen uncase q Hq.
  { cbn [arg_names]. split; [intros []|]. intros (a & t & b & E & _). destruct a; discriminate. }
  cbn [arg_names]. destruct (is_tt RIGHT_PAREN t) eqn:Er.
  { apply is_tt_eq in Er. split; [intros []|]. intros (a & u & b & E & Hn & _). exfalso. apply Hn. exists t.
    split; [|exact Er]. destruct a as [|x a]; cbn [app] in E; injection E as <- E; now left. }
  assert (tt t <> RIGHT_PAREN) as Hr by (intros K; apply is_tt_eq in K; congruence).
  assert (forall (f : str -> str) a u, earlier (t :: a) f u <-> (tt t = WORD /\ f (spelling t) = f (spelling u)) \/ earlier a f u) as HE.
  { intros f a u. split.
    - intros (v & [<-|Hv] & K); [now left|right; exists v; auto].
    - intros [[K1 K2]|(v & Hv & K)]; [exists t; split; [now left|auto]|exists v; split; [now right|auto]]. }
  assert (forall seen' uncase', 
    (forall u, In (spelling u) seen' <-> In (spelling u) seen \/ (tt t = WORD /\ spelling t = spelling u)) ->
    (forall u, In (lower (spelling u)) uncase' <-> In (lower (spelling u)) uncase \/ (tt t = WORD /\ lower (spelling t) = lower (spelling u))) ->
    (In q (arg_names c seen' uncase' ts) <-> exists x a u b, t :: ts = (x :: a) ++ u :: b /\
     ~ (exists v, In v ((x :: a) ++ [u]) /\ tt v = RIGHT_PAREN) /\
     ((tt u <> WORD /\ q = at_tok $"E0109" u [FS (spelling u)]) \/
      (tt u = WORD /\ (In (spelling u) seen \/ earlier (x :: a) (fun s => s) u) /\ q = at_tok $"E0108" u [FS (spelling u)]) \/
      (tt u = WORD /\ ~ (In (spelling u) seen \/ earlier (x :: a) (fun s => s) u) /\
         (In (lower (spelling u)) uncase \/ earlier (x :: a) lower u) /\ q = at_tok $"C0202" u [FS (spelling u)])))) as G.
  { intros seen' uncase' Hs Hu. rewrite IH by exact Hq. split.
    - intros (a & u & b & -> & Hn & K). exists t, a, u, b. split; [reflexivity|]. split.
      + intros (v & Hv & Ev). cbn [app] in Hv. destruct Hv as [<-|Hv]; [now apply Hr|]. apply Hn. eauto.
      + rewrite Hs, Hu in K. rewrite !HE. tauto.
    - intros (x & a & u & b & E & Hn & K). cbn [app] in E. injection E as <- ->. exists a, u, b. split; [reflexivity|]. split.
      + intros (v & Hv & Ev). apply Hn. exists v. split; [now right|exact Ev].
      + rewrite Hs, Hu. rewrite !HE in K. tauto. }
  assert (forall (P : list token -> token -> list token -> Prop), (exists a u b, t :: ts = a ++ u :: b /\ P a u b) <->
    P nil t ts \/ exists x a u b, t :: ts = (x :: a) ++ u :: b /\ P (x :: a) u b) as HX.
  { intros P. split.
    - intros ([|x a] & u & b & E & K); [cbn [app] in E; injection E as <- <-; now left|right; eauto 10].
    - intros [K|(x & a & u & b & E & K)]; [exists nil, t, ts; auto|eauto]. }
  assert (forall f, ~ earlier nil f t) as Hno by (intros f (v & [] & _)).
  rewrite HX. clear HX.
  assert (~ (exists u, In u (nil ++ [t]) /\ tt u = RIGHT_PAREN)) as Hn1.
  { intros (u & [<-|[]] & E). now apply Hr. }
  destruct (negb (is_tt WORD t)) eqn:Ew.
  - apply negb_true_iff in Ew. assert (tt t <> WORD) as Hw by (intros K; apply is_tt_eq in K; congruence).
    cbn [In]. rewrite (G seen uncase); [|intros u; tauto|intros u; tauto]. split; (intros [K|K]; [left|right; exact K]).
    + subst q. tauto.
    + destruct K as (_ & [(_ & ->)|[(K & _)|(K & _)]]); tauto.
  - apply negb_false_iff, is_tt_eq in Ew. rewrite in_app_iff.
    rewrite (G (spelling t :: seen) (lower (spelling t) :: uncase)); [|intros u; cbn [In]; tauto|intros u; cbn [In]; tauto].
    split; (intros [K|K]; [left|right; exact K]).
    + split; [exact Hn1|]. right. destruct (smem (spelling t) seen) eqn:E1.
      * left. apply smem_In in E1. destruct K as [<-|[]]. tauto.
      * right. assert (~ In (spelling t) seen) as N1 by (intros F; apply smem_In in F; congruence).
        destruct (smem (lower (spelling t)) uncase) eqn:E2.
        -- apply smem_In in E2. destruct K as [<-|[]]. split; [exact Ew|]. split; [|tauto]. intros [F|F]; [tauto|now apply Hno in F].
        -- exfalso. destruct (lc_re _ _ _); [destruct K|]. destruct K as [<-|[]]. revert Hq. names.
    + destruct K as (_ & [(K & _)|[(_ & K & ->)|(_ & K1 & K2 & ->)]]); [tauto| |].
      * destruct K as [K|K]; [|now apply Hno in K]. apply smem_In in K. rewrite K. now left.
      * destruct K2 as [K2|K2]; [|now apply Hno in K2]. apply smem_In in K2.
        destruct (smem (spelling t) seen) eqn:E1; [apply smem_In in E1; tauto|]. rewrite K2. now left.
Qed.

Lemma only_args c src y i : lint_file c src ctx0 = Ok y -> parsers_ok c ->
  In i [$"E0109"; $"E0108"; $"C0202"; $"R0913"] ->
  exists toks tree, tokenize src = Ok toks /\ parse (lc_ctx c) toks = Ok tree /\
  forall r, In r (x_lint y) /\ l_id r = i <->
    ~ In i (lc_disabled c) /\ exists op t bd q, defines tree op t bd /\ In q (check_args c op) /\ q_id q = i /\ written r q.
Proof.
  intros H HP Hi. destruct (flow_code c src y i H HP) as (toks & tree & Ht & Hp & HO & HR).
  { cbn [only_flow In] in *. tauto. }
  exists toks, tree. split; [exact Ht|]. split; [exact Hp|]. intros r. rewrite HR. clear HR.
  split; (intros [Hd K]; split; [exact Hd|]).
  - destruct K as (cs & qs & q & Hf & Hc & Hq & Eq & W).
    destruct (defn_checks _ _ _ _ _ _ Hp Hf Hc) as [(op & bd & cl & w & q1 & q2 & u & us & -> & Hop & Hw & H1 & H2 & Hfl & ->)|(op & r' & w & -> & _ & _ & Hcd)].
    2:{ apply (coded_in _ _ _ Hcd) in Hq. rewrite Eq in Hq. exfalso. revert Hq.
        cbn [In] in Hi. destruct Hi as [<-|[<-|[<-|[<-|[]]]]]; names. }
    rewrite !(in_app_iff q1), !(in_app_iff q2), !(in_app_iff (check_args c op)) in Hq.
    destruct Hq as [Hq|[Hq|[Hq|Hq]]].
    + apply custom_coded in H1. apply (coded_in _ _ _ H1) in Hq. rewrite Eq in Hq. exfalso. revert Hq.
      cbn [In] in Hi. destruct Hi as [<-|[<-|[<-|[<-|[]]]]]; names.
    + assert (coded [$"C0103"] q2) as K.
      { unfold check_name in H2. destruct (sem op) as [|f [|g [|h sl]]]; try discriminate. injection H2 as <-. coded. }
      apply (coded_in _ _ _ K) in Hq. rewrite Eq in Hq. exfalso. revert Hq.
      cbn [In] in Hi. destruct Hi as [<-|[<-|[<-|[<-|[]]]]]; names.
    + destruct (name_tok_ex op w Hop) as (t & Htk & Eu). exists op, t, bd, q.
      split; [|auto]. split; [exact Htk|]. rewrite Eu. split; [exact Hw|]. eauto.
    + exfalso. rewrite !in_app_iff, !over_in in Hq.
      destruct Hq as [[_ ->]|[[_ ->]|[_ ->]]]; cbn [q_id] in Eq; subst i; revert Hi; names.
  - destruct K as (op & t & bd & q & (Htk & Hdf & cl & Hf) & Hq & Eq & W).
    destruct (HO _ Hf) as (qs & Hc). exists [op; N KBody bd; cl], qs, q. split; [exact Hf|]. split; [exact Hc|].
    split; [|auto].
    destruct (defn_checks _ _ _ _ _ _ Hp Hf Hc) as [(op' & bd' & cl' & w & q1 & q2 & u' & us' & E & Hop & Hw & H1 & H2 & Hfl' & ->)|(op' & r' & w & E & Hop & Hnd & _)].
    + injection E as <- <- <-. rewrite !(in_app_iff q1), !(in_app_iff q2), !(in_app_iff (check_args c op)). tauto.
    + injection E as <- <-. destruct (name_tok_name op t Htk) as (E1 & _). rewrite Hop in E1. injection E1 as ->. tauto.
Qed.

(** A parameter is reported exactly when it is no plain word, repeats an earlier
    one, or differs from an earlier one only in case. *)
Theorem C63_parameter_names : forall c src y i,
  lint_file c src ctx0 = Ok y -> parsers_ok c -> ~ In i (lc_disabled c) ->
  In i [$"E0109"; $"E0108"; $"C0202"] ->
  exists toks tree, tokenize src = Ok toks /\ parse (lc_ctx c) toks = Ok tree /\
  forall r, In r (x_lint y) /\ l_id r = i <->
    exists op t bd a u b msg, defines tree op t bd /\ params op = a ++ u :: b /\
      ~ (exists v, In v (a ++ [u]) /\ tt v = RIGHT_PAREN) /\ bad_param i a u msg /\
      r = LRec i [line (begin u); col (begin u); offset (begin u)] msg.
Proof.
  intros c src y i H HP Hd Hi.
  destruct (only_args c src y i H HP) as (toks & tree & Ht & Hp & HR); [cbn [In] in *; tauto|].
  exists toks, tree. split; [exact Ht|]. split; [exact Hp|]. intros r. rewrite HR. clear HR.
  assert (forall op q, q_id q = i -> (In q (check_args c op) <-> In q (arg_names c nil nil (params op)))) as HA.
  { intros op q Eq. unfold check_args, params. cbv zeta. rewrite in_app_iff. split; [|tauto]. intros [K|K]; [exact K|].
    exfalso. destruct (_ >? _); [|destruct K]. destruct K as [<-|[]]. cbn [q_id] in Eq. subst i. revert Hi. names. }
  split.
  - intros (_ & op & t & bd & q & Hdf & Hq & Eq & W). apply (HA op q Eq) in Hq.
    apply arg_names_in in Hq; [|now rewrite Eq]. destruct Hq as (a & u & b & E & Hn & K).
    destruct K as [(K1 & ->)|[(K1 & K2 & ->)|(K1 & K2 & K3 & ->)]]; cbn [q_id at_tok] in Eq; subst i;
      unfold at_tok in W; (eapply written_msg in W; [|reflexivity|reflexivity]).
    + exists op, t, bd, a, u, b, ($"Invalid argument name " ++ spelling u ++ $" in function/macro definition").
      split; [exact Hdf|]. split; [exact E|]. split; [exact Hn|]. split; [left; auto|exact W].
    + exists op, t, bd, a, u, b, ($"Duplicate argument name " ++ spelling u ++ $" in function/macro definition").
      split; [exact Hdf|]. split; [exact E|]. split; [exact Hn|]. split; [|exact W].
      right. left. cbn [In] in K2. tauto.
    + exists op, t, bd, a, u, b, ($"Argument name " ++ spelling u ++ $" differs from existing argument only in case").
      split; [exact Hdf|]. split; [exact E|]. split; [exact Hn|]. split; [|exact W].
      right. right. cbn [In] in K2, K3. tauto.
  - intros (op & t & bd & a & u & b & msg & Hdf & E & Hn & K & ->). split; [exact Hd|].
    exists op, t, bd, (at_tok i u [FS (spelling u)]). split; [exact Hdf|]. split; [|split; [reflexivity|]].
    + apply (HA op); [reflexivity|]. apply arg_names_in; [exact Hi|]. exists a, u, b. split; [exact E|]. split; [exact Hn|].
      cbn [In]. unfold bad_param in K. destruct K as [(-> & K)|[(-> & K)|(-> & K)]]; tauto.
    + unfold at_tok. destruct K as [(-> & _ & ->)|[(-> & _ & _ & ->)|(-> & _ & _ & _ & ->)]];
        eapply written_msg; reflexivity.
Qed.
(** ... and the definition when it has more parameters than allowed. *)
Theorem C66_parameter_limit : forall c src y,
  lint_file c src ctx0 = Ok y -> parsers_ok c -> ~ In $"R0913" (lc_disabled c) ->
  exists toks tree, tokenize src = Ok toks /\ parse (lc_ctx c) toks = Ok tree /\
  forall r, In r (x_lint y) /\ l_id r = $"R0913" <->
    exists op t bd, defines tree op t bd /\ lc_max_args c < zlen (params op) /\
      r = LRec $"R0913" [line (begin t); col (begin t); offset (begin t)]
               ($"Too many named arguments " ++ dec (zlen (params op)) ++ $"/" ++ dec (lc_max_args c)).
Proof.
  intros c src y H HP Hd.
  destruct (only_args c src y $"R0913" H HP) as (toks & tree & Ht & Hp & HR); [cbn [In] in *; tauto|].
  exists toks, tree. split; [exact Ht|]. split; [exact Hp|]. intros r. rewrite HR. clear HR.
  assert (forall l n mx, written r (Req $"R0913" l [FI n; FI mx]) <->
    r = LRec $"R0913" l ($"Too many named arguments " ++ dec n ++ $"/" ++ dec mx)) as HW.
  { intros l n mx. eapply written_msg; [reflexivity|].
    match goal with |- context [dec n ++ $"/" ++ ?x] => rewrite <- (app_nil_r x) end; reflexivity. }
  assert (forall op t q, name_tok op = Some t -> q_id q = $"R0913" -> (In q (check_args c op) <->
    lc_max_args c < zlen (params op) /\ q = Req $"R0913" (loc3 (begin t)) [FI (zlen (params op)); FI (lc_max_args c)])) as HA.
  { intros op t q Htk Eq. destruct (name_tok_name op t Htk) as (_ & <- & _). unfold check_args. cbv zeta. rewrite in_app_iff.
    fold (params op). change (if zlen (params op) >? lc_max_args c then [Req $"R0913" (loc3 (node_loc op)) [FI (zlen (params op)); FI (lc_max_args c)]] else nil)
      with (over $"R0913" (loc3 (node_loc op)) (zlen (params op)) (lc_max_args c)). rewrite over_in.
    split; [|tauto]. intros [K|K]; [exfalso|exact K].
    assert (coded [$"E0109"; $"E0108"; $"C0202"; $"C0103"] (arg_names c nil nil (params op))) as Q.
    { generalize (params op). assert (forall ts seen uncase, coded [$"E0109"; $"E0108"; $"C0202"; $"C0103"] (arg_names c seen uncase ts)) as G; [|intros; apply G].
      induction ts as [|u ts IH]; intros seen uncase; cbn [arg_names]; [coded|].
      destruct (is_tt RIGHT_PAREN u); [coded|]. destruct (negb _).
      - apply coded_one; [inl_tac|auto].
      - apply coded_app; [|auto]. coded. }
    apply (coded_in _ _ _ Q) in K. rewrite Eq in K. revert K. names. }
  split.
  - intros (_ & op & t & bd & q & Hdf & Hq & Eq & W). exists op, t, bd. split; [exact Hdf|].
    apply (HA op t q (proj1 Hdf) Eq) in Hq. destruct Hq as [Hn ->]. split; [exact Hn|]. now apply HW.
  - intros (op & t & bd & Hdf & Hn & ->). split; [exact Hd|].
    exists op, t, bd, (Req $"R0913" (loc3 (begin t)) [FI (zlen (params op)); FI (lc_max_args c)]).
    split; [exact Hdf|]. split; [|split; [reflexivity|now apply HW]].
    apply (HA op t); [exact (proj1 Hdf)|reflexivity|auto].
Qed.

(** ** Examples *)
Example C63_ex1 : found sample (LRec $"C0202" [11; 13; 79] $"Argument name A differs from existing argument only in case").
Proof. found. Qed.
Example C63_ex2 : found sample (LRec $"E0108" [11; 17; 83] $"Duplicate argument name a in function/macro definition").
Proof. found. Qed.
Example C63_ex3 : found sample (LRec $"E0109" [11; 19; 85] $"Invalid argument name ${x} in function/macro definition").
Proof. found. Qed.
Definition sample2 : str :=
  nl ([$"function(f a b c d e g)"; $"  if(a)"; $"    return()"; $"  endif()"] ++ repeat $"  return()" 6 ++ [$"endfunction()"]).
Example C66_ex1 : found sample2 (LRec $"R0911" [2] $"Too many return statements 7/6").
Proof. found. Qed.
Example C66_ex2 : found sample2 (LRec $"R0913" [1; 0; 0] $"Too many named arguments 6/5").
Proof. found. Qed.
