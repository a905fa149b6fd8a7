(** * LintTree: which lint requests a run makes.
    The checker is a walk over the tree that threads a state.  Here the walk is
    described without the state: the list of visited nodes with their ancestors,
    what is requested at each of them, and the result that a run adds exactly the
    records of these requests. *)
From Verif Require Import Base Regex Lex TextOps TextProofs Tree Parse CmdSpec StdSpecs StdDb PropStd
  Layout SortProofs Markup Pipeline LintDb Lint PropLint PropLintText.

(** record [r] is what a request [q] leaves in the report *)
Definition written (r : lrec) (q : req) : Prop :=
  l_id r = q_id q /\ l_loc r = q_loc q /\
  exists tpl, assoc_s (q_id q) lint_db = Some tpl /\ fmt None tpl (q_args q) = Ok (l_msg r).
Definition same (a b : list str) : Prop := forall i, In i a <-> In i b.

Lemma record_lint_in d q x y : record_lint d q x = Ok y ->
  x_sup y = x_sup x /\ x_events y = x_events x /\
  forall r, In r (x_lint y) <-> In r (x_lint x) \/
     (written r q /\ ~ In (q_id q) d /\ ~ In (q_id q) (x_sup x)).
Proof.
  unfold record_lint. intros H. destruct (smem (q_id q) d) eqn:E1.
  { injection H as <-. apply smem_In in E1. repeat split; auto. intros [H|(_ & H & _)]; tauto. }
  destruct (smem (q_id q) (x_sup x)) eqn:E2.
  { injection H as <-. apply smem_In in E2. repeat split; auto. intros [H|(_ & _ & H)]; tauto. }
  rewrite <- not_true_iff_false, smem_In in E1, E2.
  destruct (assoc_s (q_id q) lint_db) as [tpl|] eqn:Et; [|discriminate]. apply bindr_ok in H as (m & Hm & H).
  injection H as <-. split; [reflexivity|]. split; [reflexivity|]. intros r. cbn [x_lint].
  rewrite in_app_iff. split; (intros [H|H]; [now left|right]).
  - destruct H as [<-|[]]. split; [|tauto]. split; [reflexivity|]. split; [reflexivity|]. exists tpl. auto.
  - destruct H as ((H1 & H2 & tpl' & H3 & H4) & _). left. rewrite Et in H3. injection H3 as <-.
    rewrite Hm in H4. injection H4 as ->. destruct r as [i l m]. cbn [l_id l_loc l_msg] in *. now subst.
Qed.
Lemma record_all_in d qs : forall x y, record_all d qs x = Ok y ->
  x_sup y = x_sup x /\ x_events y = x_events x /\
  forall r, In r (x_lint y) <-> In r (x_lint x) \/
     exists q, In q qs /\ written r q /\ ~ In (q_id q) d /\ ~ In (q_id q) (x_sup x).
Proof.
  induction qs as [|q qs IH]; simpl; intros x y H.
  - injection H as <-. repeat split; auto. intros [H|(q & [] & _)]; auto.
  - apply bindr_ok in H as (z & Hz & H). apply record_lint_in in Hz as (S1 & V1 & H1).
    apply IH in H as (S2 & V2 & H2). split; [congruence|]. split; [congruence|].
    intros r. rewrite H2, H1, S1. split.
    + intros [[H|H]|(q' & Hq & H)]; [auto| |]; right; eauto.
    + intros [H|(q' & [<-|Hq] & H)]; eauto.
Qed.

Definition str_eq_dec : forall a b : str, {a = b} + {a <> b} := list_eq_dec N.eq_dec.

(** ** Suppression is undone *)
Lemma in_sdiscard i j l : In i (sdiscard j l) <-> In i l /\ i <> j.
Proof.
  unfold sdiscard. rewrite filter_In. split; intros [H1 H2]; (split; [exact H1|]).
  - intros ->. rewrite (proj2 (seqb_eq j j) eq_refl) in H2. discriminate.
  - destruct (seqb j i) eqn:E; [|reflexivity]. apply seqb_eq in E. congruence.
Qed.
Lemma in_discards i js : forall l, In i (fold_left (fun s j => sdiscard j s) js l) <-> In i l /\ ~ In i js.
Proof.
  induction js as [|j js IH]; intros l; cbn [fold_left In]; [tauto|].
  rewrite IH, in_sdiscard. intuition congruence.
Qed.
Lemma new_sups_in ids : forall sup n s, new_sups ids sup = (n, s) ->
  (forall i, In i n <-> In i ids /\ ~ In i sup) /\ (forall i, In i s <-> In i sup \/ In i ids).
Proof.
  induction ids as [|j ids IH]; intros sup n s H; cbn [new_sups] in H.
  - injection H as <- <-. cbn [In]. split; intros i; tauto.
  - destruct (smem j sup) eqn:E.
    + apply smem_In in E. apply IH in H as [H1 H2]. cbn [In]. split; intros i.
      * rewrite H1. split; [tauto|]. intros [[<-|H] Hn]; tauto.
      * rewrite H2. split; [tauto|]. intros [H|[<-|H]]; tauto.
    + rewrite <- not_true_iff_false, smem_In in E.
      destruct (new_sups ids (j :: sup)) as [n' s'] eqn:En. injection H as <- <-.
      apply IH in En as [H1 H2]. cbn [In] in *. split; intros i.
      * rewrite H1. split.
        -- intros [<-|[H Hn]]; tauto.
        -- intros [[H|H] Hn]; [tauto|]. destruct (str_eq_dec j i) as [->|Hne]; tauto.
      * rewrite H2. tauto.
Qed.

Section Walk.
  Variable c : lcfg.

  (** ** Bodies: the children before, the child, the children after *)
  Definition nodes (l : list pnode) : list pnode :=
    filter (fun n => match n with N _ _ => true | T _ => false end) l.
  (** the node before, and the one before that *)
  Definition before1 (pre : list pnode) : option pnode := nth_error (rev (nodes pre)) 0.
  Definition before2 (pre : list pnode) : option pnode := nth_error (rev (nodes pre)) 1.
  (** the codes switched off by pragma comments among [pre] *)
  Definition muted (pre : list pnode) : list str :=
    flat_map (fun n => match n with N (KComment _) ks => snd (pragmas ks) | _ => nil end) pre.
  Definition child_reqs (pre : list pnode) (n : pnode) (post : list pnode) : res (list req) :=
    match n with
    | T _ => Ok nil
    | N (KComment _) ks => Ok (fst (pragmas ks))
    | N _ ks =>
        let? q1 := (if is_flow n then docstring c ks (before1 pre) (before2 pre) else Ok nil) in
        Ok (q1 ++ (if is_flow n || is_stmt n then spacing c n (before1 pre) else nil)
            ++ (if is_stmt n && smem (funname n) [$"break"; $"continue"; $"return"] && existsb has_stmt post
                then [Req $"W0101" (loc3 (node_loc n)) nil] else nil))
    end.
  Definition body_asks (cs : list pnode) (q : req) : Prop :=
    exists pre n post qs, cs = pre ++ n :: post /\ child_reqs pre n post = Ok qs /\ In q qs
      /\ ~ In (q_id q) (muted pre).

  Lemma nodes_app a b : nodes (a ++ b) = nodes a ++ nodes b.
  Proof. apply filter_app. Qed.
  Lemma muted_app a b : muted (a ++ b) = muted a ++ muted b.
  Proof. apply flat_map_app. Qed.

  Definition enabled (x : lctx) (i : str) : Prop := ~ In i (lc_disabled c) /\ ~ In i (x_sup x).

  Lemma body_loop_in cs : forall pre x0 sups x sups' y,
    body_loop c cs (before1 pre) (before2 pre) sups x = Ok (sups', y) ->
    (forall i, In i (x_sup x) <-> In i (x_sup x0) \/ In i (muted pre)) ->
    (forall i, In i sups <-> In i (muted pre) /\ ~ In i (x_sup x0)) ->
    (forall i, In i (x_sup y) <-> In i (x_sup x0) \/ In i (muted (pre ++ cs))) /\
    (forall i, In i sups' <-> In i (muted (pre ++ cs)) /\ ~ In i (x_sup x0)) /\
    forall r, In r (x_lint y) <-> In r (x_lint x) \/
      exists a n b qs q, cs = a ++ n :: b /\ child_reqs (pre ++ a) n b = Ok qs /\ In q qs
        /\ ~ In (q_id q) (muted (pre ++ a)) /\ written r q /\ enabled x0 (q_id q).
  Proof.
    induction cs as [|n cs IH]; intros pre x0 sups x sups' y H HS HU.
    - cbn [body_loop] in H. injection H as <- <-. rewrite app_nil_r. split; [exact HS|]. split; [exact HU|].
      intros r. split; [auto|]. intros [H|(a & n & b & qs & q & E & _)]; [exact H|]. destruct a; discriminate.
    - assert (forall sups1 x1 qs,
        body_loop c cs (before1 (pre ++ [n])) (before2 (pre ++ [n])) sups1 x1 = Ok (sups', y) ->
        (forall i, In i (x_sup x1) <-> In i (x_sup x0) \/ In i (muted (pre ++ [n]))) ->
        (forall i, In i sups1 <-> In i (muted (pre ++ [n])) /\ ~ In i (x_sup x0)) ->
        child_reqs pre n cs = Ok qs ->
        (forall r, In r (x_lint x1) <-> In r (x_lint x) \/
            exists q, In q qs /\ written r q /\ ~ In (q_id q) (lc_disabled c) /\ ~ In (q_id q) (x_sup x)) ->
        (forall i, In i (x_sup y) <-> In i (x_sup x0) \/ In i (muted (pre ++ n :: cs))) /\
        (forall i, In i sups' <-> In i (muted (pre ++ n :: cs)) /\ ~ In i (x_sup x0)) /\
        forall r, In r (x_lint y) <-> In r (x_lint x) \/
          exists a m b qs q, n :: cs = a ++ m :: b /\ child_reqs (pre ++ a) m b = Ok qs /\ In q qs
            /\ ~ In (q_id q) (muted (pre ++ a)) /\ written r q /\ enabled x0 (q_id q)) as G.
      { intros sups1 x1 qs H1 HS1 HU1 Hq Hr. apply IH with (x0 := x0) in H1 as (A & B & D); auto.
        replace (pre ++ n :: cs) with ((pre ++ [n]) ++ cs) by now rewrite <- app_assoc.
        split; [exact A|]. split; [exact B|]. intros r. rewrite D, Hr. split.
        - intros [[Hx|(q & Hin & Hw & Hd & Hs)]|(a & m & b & qs' & q & -> & K)].
          + now left.
          + right. exists nil, n, cs, qs, q. rewrite app_nil_r. rewrite HS in Hs. unfold enabled.
            split; [reflexivity|]. split; [exact Hq|]. tauto.
          + right. exists (n :: a), m, b, qs', q. rewrite <- app_assoc in K. split; [reflexivity|exact K].
        - intros [Hx|([|n' a] & m & b & qs' & q & E & K1 & K2 & K3 & K4 & K5)].
          + now left; left.
          + left; right. cbn [app] in E. injection E as <- <-. rewrite app_nil_r in *. rewrite Hq in K1.
            injection K1 as <-. exists q. rewrite HS. unfold enabled in K5. tauto.
          + right. cbn [app] in E. injection E as <- ->. exists a, m, b, qs', q.
            replace (pre ++ n :: a) with ((pre ++ [n]) ++ a) in * by now rewrite <- app_assoc. auto 10. }
      destruct n as [t|k ks].
      + cbn [body_loop] in H. apply (G sups x nil); auto.
        * unfold before1, before2 in *. rewrite nodes_app. cbn [nodes filter]. now rewrite app_nil_r.
        * intros i. rewrite muted_app. cbn [muted flat_map]. now rewrite app_nil_r.
        * intros i. rewrite muted_app. cbn [muted flat_map]. now rewrite app_nil_r.
        * intros r. split; [auto|]. intros [Hx|(q & [] & _)]. exact Hx.
      + assert (before1 (pre ++ [N k ks]) = Some (N k ks) /\ before2 (pre ++ [N k ks]) = before1 pre) as [B1 B2].
        { unfold before1, before2. rewrite nodes_app. cbn [nodes filter]. rewrite rev_app_distr. auto. }
        rewrite B1, B2 in G.
        cbn [body_loop] in H. apply bindr_ok in H as ((sups1, x1) & H1 & H).
        apply bindr_ok in H as (q1 & Hq1 & H). apply bindr_ok in H as (x2 & H2 & H).
        assert (muted (pre ++ [N k ks]) = muted pre ++ match k with KComment _ => snd (pragmas ks) | _ => nil end) as EM.
        { rewrite muted_app. cbn [muted flat_map]. rewrite app_nil_r. now destruct k. }
        destruct (k_comment k) eqn:Ek.
        * destruct k; try discriminate Ek. cbn [is_flow is_stmt orb andb] in *. injection Hq1 as <-.
          cbn [app record record_all] in H2. unfold record in H2. cbn [record_all] in H2. injection H2 as <-.
          destruct (pragmas ks) as [qs ids] eqn:Ep. apply bindr_ok in H1 as (x3 & H3 & H1).
          apply record_all_in in H3 as (S3 & _ & R3). cbn [snd] in EM.
          assert (child_reqs pre (N (KComment explicit) ks) cs = Ok qs) as Hc.
          { cbn [child_reqs]. now rewrite Ep. }
          destruct ids as [|i0 ids].
          { injection H1 as <- <-. eapply G; [exact H| | |exact Hc|exact R3].
            - intros i. rewrite EM, app_nil_r, S3. auto.
            - intros i. rewrite EM, app_nil_r. auto. }
          apply bindr_ok in H1 as (ln & _ & H1). destruct (suppress ln (i0 :: ids) x3) as [new x4] eqn:E4.
          injection H1 as <- <-. unfold suppress in E4.
          destruct (new_sups (i0 :: ids) (x_sup x3)) as [n' s'] eqn:En. injection E4 as <- <-.
          apply new_sups_in in En as [N1 N2]. rewrite S3 in *.
          eapply G; [exact H| | |exact Hc|exact R3]; cbn [x_sup x_lint] in *.
          -- intros i. rewrite EM, in_app_iff, N2, HS. tauto.
          -- intros i. rewrite EM, !in_app_iff, N1, HU, HS. destruct (in_dec str_eq_dec i (muted pre)); tauto.
        * injection H1 as <- <-. apply record_all_in in H2 as (S2 & _ & R2).
          assert (muted (pre ++ [N k ks]) = muted pre) as EM'. { rewrite EM. destruct k; try discriminate; now rewrite app_nil_r. }
          rewrite EM' in G. eapply G; [exact H| | | |exact R2].
          -- intros i. rewrite S2. auto.
          -- exact HU.
          -- unfold child_reqs. destruct k; try discriminate Ek; now rewrite Hq1.
  Qed.
  Lemma check_body_in cs x y : check_body c cs x = Ok y ->
    same (x_sup y) (x_sup x) /\
    forall r, In r (x_lint y) <-> In r (x_lint x) \/
      exists q, body_asks cs q /\ written r q /\ enabled x (q_id q).
  Proof.
    unfold check_body. intros H. apply bindr_ok in H as ((sups, x1) & H1 & H).
    apply (body_loop_in cs nil x) in H1 as (A & B & D).
    - cbn [app] in *. destruct (rev (flats cs)) as [|t l]; [discriminate|]. injection H as <-.
      assert (forall r, In r (x_lint x1) <-> In r (x_lint x) \/
        exists q, body_asks cs q /\ written r q /\ enabled x (q_id q)) as R.
      { intros r. rewrite D. split; (intros [Hx|Hx]; [now left|right]).
        - destruct Hx as (a & n & b & qs & q & E & K1 & K2 & K3 & K4). exists q. split; [|exact K4].
          exists a, n, b, qs. auto.
        - destruct Hx as (q & (a & n & b & qs & E & K1 & K2 & K3) & K4). exists a, n, b, qs, q. tauto. }
      split; [|now destruct sups].
      intros i. destruct sups as [|s0 sups].
      + rewrite A. specialize (B i). cbn [In] in B.
        destruct (in_dec str_eq_dec i (x_sup x)); tauto.
      + cbn [unsuppress x_sup]. rewrite in_discards, A, B. split; [|tauto].
        intros [[Hx|Hx] Hn]; [exact Hx|]. destruct (in_dec str_eq_dec i (x_sup x)); tauto.
    - intros i. cbn. tauto.
    - intros i. cbn. tauto.
  Qed.

  (** ** Comments inside statements *)
  Lemma check_comment_in cs s x y : check_comment c cs s x = Ok y ->
    same (x_sup y) (x_sup x) /\
    forall r, In r (x_lint y) <-> In r (x_lint x) \/
      exists q, in_stmt s = true /\ In q (fst (pragmas cs)) /\ written r q /\ enabled x (q_id q).
  Proof.
    unfold check_comment. intros H. destruct (in_stmt s) eqn:Es; cbn [negb] in H.
    - destruct (pragmas cs) as [qs ids]. cbn [fst]. apply bindr_ok in H as (x1 & H1 & H).
      apply record_all_in in H1 as (S1 & _ & R1).
      assert (same (x_sup y) (x_sup x1) /\ x_lint y = x_lint x1) as [A B].
      { destruct ids as [|i0 ids]; [injection H as <-; split; [intros i; tauto|reflexivity]|].
        apply bindr_ok in H as (ln & _ & H). destruct (suppress ln (i0 :: ids) x1) as [new x2] eqn:E2.
        injection H as <-. unfold suppress in E2.
        destruct (new_sups (i0 :: ids) (x_sup x1)) as [n' s'] eqn:En. injection E2 as <- <-.
        apply new_sups_in in En as [N1 N2]. split; [|reflexivity]. intros i. cbn [unsuppress x_sup].
        rewrite in_discards, N2, N1. split; [|tauto].
        intros [[Hx|Hx] Hn]; [exact Hx|]. destruct (in_dec str_eq_dec i (x_sup x1)); tauto. }
      split.
      + intros i. rewrite (A i), S1. tauto.
      + intros r. rewrite B, R1. split; (intros [Hx|(q & K)]; [now left|right; exists q; unfold enabled in *; tauto]).
    - injection H as <-. split; [intros i; tauto|]. intros r. split; [auto|].
      intros [Hx|(q & Hf & _)]; [exact Hx|discriminate].
  Qed.

  (** ** Indentation: the token before the current one, if it is an indentation *)
  Definition indent (t : token) : bool := is_tt WHITESPACE t && (col (begin t) =? 0).
  Definition indent_reqs (ind : option token) (t : token) (s : stack) : list req :=
    if indent t then nil else
    match ind with
    | None => nil
    | Some i =>
        let desired := (scope_depth s - 1) * lc_tab c in
        let actual := zlen (spelling i) + count_chr cTAB (spelling i) * (lc_tab c - 1) in
        let args m := [FS (spelling i); FS (spelling t); FS (spaces desired); FS m] in
        if in_arggroup s
        then if actual <? desired then [at_tok $"C0307" t (args $">")] else nil
        else if actual =? desired then nil else [at_tok $"C0307" t (args (lc_stackmsg c s))]
    end.
  Definition ind_after (i : option token) (l : list (stack * token)) : option token :=
    match rev l with
    | nil => i
    | (_, t) :: _ => if indent t then Some t else None
    end.

  (** ** The walk *)
  Fixpoint visits (s : stack) (n : pnode) : list (stack * pnode) :=
    (s, n) :: match n with
              | T _ => nil
              | N k cs => (fix go (i : nat) (l : list pnode) : list (stack * pnode) :=
                             match l with
                             | nil => nil
                             | a :: l' => visits ((N k cs, i) :: s) a ++ go (S i) l'
                             end) 0%nat cs
              end.
  Definition leaves (l : list (stack * pnode)) : list (stack * token) :=
    flat_map (fun v => match snd v with T t => [(fst v, t)] | N _ _ => nil end) l.
  Definition kids_visits (n : pnode) (s : stack) : nat -> list pnode -> list (stack * pnode) :=
    fix go (i : nat) (l : list pnode) : list (stack * pnode) :=
      match l with
      | nil => nil
      | a :: l' => visits ((n, i) :: s) a ++ go (S i) l'
      end.
  Lemma visits_eq s k cs : visits s (N k cs) = (s, N k cs) :: kids_visits (N k cs) s 0 cs.
  Proof. reflexivity. Qed.

  (** what is requested at a visited node, apart from the indentation *)
  Definition node_asks (v : stack * pnode) (q : req) : Prop :=
    match snd v with
    | T _ => False
    | N KBody cs => body_asks cs q
    | N (KComment _) cs => lc_cnode c (fst v) = true /\ in_stmt (fst v) = true /\ In q (fst (pragmas cs))
    | N k cs => exists qs, node_checks c k cs (fst v) = Ok qs /\ In q qs
    end.
  Definition leaf_asks (i : option token) (l : list (stack * token)) (q : req) : Prop :=
    exists pre s t post, l = pre ++ (s, t) :: post /\ In q (indent_reqs (ind_after i pre) t s).
  Definition asks (i : option token) (l : list (stack * pnode)) (q : req) : Prop :=
    (exists v, In v l /\ node_asks v q) \/ leaf_asks i (leaves l) q.

  Lemma leaves_app a b : leaves (a ++ b) = leaves a ++ leaves b.
  Proof. apply flat_map_app. Qed.
  Lemma ind_after_app i a b : ind_after i (a ++ b) = ind_after (ind_after i a) b.
  Proof.
    unfold ind_after. rewrite rev_app_distr. destruct (rev b) as [|[s t] l]; [|reflexivity]. reflexivity.
  Qed.
  Lemma leaf_asks_app i a b q : leaf_asks i (a ++ b) q <-> leaf_asks i a q \/ leaf_asks (ind_after i a) b q.
  Proof.
    split.
    - intros (pre & s & t & post & E & H).
      assert (exists l, (a = pre ++ l /\ l ++ b = (s, t) :: post) \/ (pre = a ++ l /\ b = l ++ (s, t) :: post)) as (l & El).
      { clear H. revert pre E. induction a as [|v a IH]; intros pre E.
        - exists pre. right. auto.
        - destruct pre as [|w pre]; [exists (v :: a); left; auto|]. cbn [app] in E. injection E as <- E.
          destruct (IH pre E) as (l & [[-> K]|[-> K]]); exists l; [left|right]; auto. }
      destruct El as [[-> El]|[-> ->]].
      + destruct l as [|w l].
        * cbn [app] in El. subst b. right. exists nil, s, t, post. rewrite app_nil_r. split; [reflexivity|]. exact H.
        * cbn [app] in El. injection El as -> El. left. exists pre, s, t, l. auto.
      + right. exists l, s, t, post. split; [reflexivity|]. now rewrite <- ind_after_app.
    - intros [(pre & s & t & post & -> & H)|(pre & s & t & post & -> & H)].
      + exists pre, s, t, (post ++ b). rewrite <- app_assoc. auto.
      + exists (a ++ pre), s, t, post. rewrite <- app_assoc, ind_after_app. auto.
  Qed.
  Lemma asks_app i a b q : asks i (a ++ b) q <-> asks i a q \/ asks (ind_after i (leaves a)) b q.
  Proof.
    unfold asks. rewrite leaves_app, leaf_asks_app. split.
    - intros [(v & Hv & H)|[H|H]]; [|tauto|tauto]. apply in_app_iff in Hv as [Hv|Hv]; [left|right]; left; eauto.
    - intros [[(v & Hv & H)|H]|[(v & Hv & H)|H]]; try tauto; left; exists v; rewrite in_app_iff; tauto.
  Qed.

  Definition walk_ok (l : list (stack * pnode)) (x y : cst) : Prop :=
    same (x_sup (s_ctx y)) (x_sup (s_ctx x)) /\ s_ind y = ind_after (s_ind x) (leaves l) /\
    forall r, In r (x_lint (s_ctx y)) <-> In r (x_lint (s_ctx x)) \/
      exists q, asks (s_ind x) l q /\ written r q /\ enabled (s_ctx x) (q_id q).
  Lemma walk_nil x : walk_ok nil x x.
  Proof.
    split; [intros i; tauto|]. split; [reflexivity|]. intros r. split; [auto|].
    intros [H|(q & [(v & [] & _)|(pre & s & t & post & E & _)] & _)]; [exact H|]. destruct pre; discriminate.
  Qed.
  Lemma walk_app a b x y z : walk_ok a x y -> walk_ok b y z -> walk_ok (a ++ b) x z.
  Proof.
    intros (S1 & I1 & R1) (S2 & I2 & R2). split; [intros i; rewrite (S2 i); apply S1|].
    split; [rewrite leaves_app, ind_after_app; congruence|]. intros r. rewrite R2, R1, I1.
    assert (forall i, enabled (s_ctx y) i <-> enabled (s_ctx x) i) as Hen.
    { intros i. unfold enabled. specialize (S1 i). tauto. }
    split.
    - intros [[H|(q & A & K)]|(q & A & W & K)]; [now left| |]; right; exists q; rewrite asks_app; [tauto|].
      rewrite <- Hen. tauto.
    - intros [H|(q & A & K)]; [auto|]. rewrite asks_app in A. destruct A as [A|A]; [left; right; eauto|].
      right. exists q. rewrite Hen. tauto.
  Qed.

  Lemma check_token_in t s x y : check_token c t s x = Ok y -> walk_ok [(s, T t)] x y.
  Proof.
    unfold check_token. fold (indent t). intros H.
    assert (forall q, asks (s_ind x) [(s, T t)] q <-> In q (indent_reqs (s_ind x) t s)) as HA.
    { intros q. unfold asks. cbn [leaves flat_map snd fst app]. split.
      - intros [(v & [<-|[]] & [])|(pre & s' & t' & post & E & H1)].
        destruct pre as [|w pre]; [|destruct pre; discriminate]. cbn [app] in E. injection E as <- <- _. exact H1.
      - intros Hq. right. exists nil, s, t, nil. auto. }
    assert (forall y0, s_ind y0 = (if indent t then Some t else None) ->
      same (x_sup (s_ctx y0)) (x_sup (s_ctx x)) ->
      (forall r, In r (x_lint (s_ctx y0)) <-> In r (x_lint (s_ctx x)) \/
         exists q, In q (indent_reqs (s_ind x) t s) /\ written r q /\ enabled (s_ctx x) (q_id q)) ->
      walk_ok [(s, T t)] x y0) as G.
    { intros y0 Hi Hs Hr. split; [exact Hs|]. split; [exact Hi|]. intros r. rewrite Hr.
      split; (intros [K|(q & K)]; [now left|right; exists q; rewrite HA in *; exact K]). }
    unfold indent_reqs in G.
    destruct (indent t) eqn:Ei.
    - injection H as <-. apply G; [reflexivity|intros i; reflexivity|].
      intros r. split; [auto|]. intros [K|(q & [] & _)]. exact K.
    - destruct (s_ind x) as [i|] eqn:Es.
      + apply bindr_ok in H as (y' & H & E). injection E as <-. apply record_all_in in H as (S1 & _ & R1).
        apply G; [reflexivity|cbn [s_ctx]; rewrite S1; intros j; reflexivity|].
        cbn [s_ctx]. intros r. rewrite R1. unfold enabled. reflexivity.
      + injection H as <-. apply G; [exact Es|intros i; reflexivity|].
        intros r. split; [auto|]. intros [K|(q & [] & _)]. exact K.
  Qed.

  Lemma check_tree_in n : forall s x y, check_tree c s n x = Ok y -> walk_ok (visits s n) x y.
  Proof.
    induction n as [t|k cs IH] using pnode_ind'; intros s x y H.
    - now apply check_token_in.
    - rewrite visits_eq. cbn [check_tree] in H. apply bindr_ok in H as (y1 & H1 & H).
      change ((s, N k cs) :: kids_visits (N k cs) s 0 cs) with ([(s, N k cs)] ++ kids_visits (N k cs) s 0 cs).
      apply walk_app with (y := CSt y1 (s_ind x)).
      + assert (same (x_sup y1) (x_sup (s_ctx x)) /\ forall r, In r (x_lint y1) <-> In r (x_lint (s_ctx x)) \/
          exists q, node_asks (s, N k cs) q /\ written r q /\ enabled (s_ctx x) (q_id q)) as [A B].
        { destruct k;
            try (apply bindr_ok in H1 as (qs & Hqs & H1); apply record_all_in in H1 as (S1 & _ & R1);
                 split; [intros i; now rewrite S1|]; intros r; rewrite R1; cbn [node_asks fst snd];
                 split; (intros [K|K]; [now left|right]);
                 [destruct K as (q & K1 & K2); exists q; split; [exists qs; split; [exact Hqs|exact K1]|exact K2]
                 |destruct K as (q & (qs' & K1 & K2) & K3); exists q; rewrite Hqs in K1; injection K1 as <-; split; [exact K2|exact K3]]).
          - now apply check_body_in.
          - cbn [node_asks fst snd]. destruct (lc_cnode c s).
            + apply check_comment_in in H1 as [S1 R1]. split; [exact S1|]. intros r. rewrite R1.
              split; (intros [K|(q & K)]; [now left|right; exists q; tauto]).
            + injection H1 as <-. split; [intros i; reflexivity|]. intros r. split; [auto|].
              intros [K|(q & (K & _) & _)]; [exact K|discriminate]. }
        split; [exact A|]. split; [reflexivity|]. cbn [s_ctx s_ind]. intros r. rewrite B.
        assert (forall q, asks (s_ind x) [(s, N k cs)] q <-> node_asks (s, N k cs) q) as HA.
        { intros q. unfold asks. split.
          - intros [(v & [<-|[]] & K)|(pre & s' & t' & post & E & _)]; [exact K|]. destruct pre; discriminate.
          - intros K. left. exists (s, N k cs). split; [now left|exact K]. }
        split; (intros [K|(q & K)]; [now left|right; exists q; rewrite HA in *; exact K]).
      + revert H. generalize (CSt y1 (s_ind x)). generalize 0%nat.
        assert (forall l i x0, Forall (fun n => forall s x y, check_tree c s n x = Ok y -> walk_ok (visits s n) x y) l ->
          (fix go (i : nat) (l : list pnode) (x : cst) : res cst :=
             match l with
             | nil => Ok x
             | a :: l' => let? z := check_tree c ((N k cs, i) :: s) a x in go (S i) l' z
             end) i l x0 = Ok y -> walk_ok (kids_visits (N k cs) s i l) x0 y) as G.
        { induction l as [|a l IHl]; intros i x0 HF H.
          - injection H as <-. apply walk_nil.
          - apply bindr_ok in H as (z & Hz & H). inversion HF as [|? ? Ha HF']; subst.
            cbn [kids_visits]. eapply walk_app; [exact (Ha _ _ _ Hz)|]. exact (IHl _ _ HF' H). }
        intros i x0 H. now apply G.
  Qed.

  (** ** The whole file *)
  Lemma file_in src x y : lint_file c src x = Ok y -> exists toks tree qt qv,
    tokenize src = Ok toks /\ parse (lc_ctx c) toks = Ok tree /\ check_tokens None toks = Ok qt /\
    var_assignments (stmts_named [$"set"; $"list"] tree) = Ok qv /\
    same (x_sup y) (x_sup x) /\
    forall r, In r (x_lint y) <-> In r (x_lint x) \/ exists q, written r q /\ enabled x (q_id q) /\
      (In q (check_basics c src) \/ In q qt \/ In q (lc_plint c toks) \/ In q qv \/ In q (var_references tree)
       \/ asks None (visits nil tree) q).
  Proof.
    unfold lint_file. destruct (lc_ending c); [|discriminate]. intros H.
    apply bindr_ok in H as (x1 & H1 & H). apply bindr_ok in H as (toks & Ht & H).
    apply bindr_ok in H as (qt & Hqt & H). apply bindr_ok in H as (x2 & H2 & H).
    apply bindr_ok in H as (tree & Hp & H). apply bindr_ok in H as (x3 & H3 & H).
    unfold check_parse_tree in H. apply bindr_ok in H as (qv & Hqv & H).
    apply bindr_ok in H as (x4 & H4 & H). apply bindr_ok in H as (x5 & H5 & H).
    apply bindr_ok in H as (y' & H6 & H). injection H as <-.
    apply record_all_in in H1 as (S1 & _ & R1). apply record_all_in in H2 as (S2 & _ & R2).
    apply record_all_in in H3 as (S3 & _ & R3). apply record_all_in in H4 as (S4 & _ & R4).
    apply record_all_in in H5 as (S5 & _ & R5). apply check_tree_in in H6 as (S6 & _ & R6). cbn [s_ctx s_ind] in *.
    assert (x_sup x5 = x_sup x) as E5 by congruence. assert (x_sup x4 = x_sup x) as E4 by congruence.
    assert (x_sup x3 = x_sup x) as E3 by congruence. assert (x_sup x2 = x_sup x) as E2 by congruence.
    rewrite E5 in S6. rewrite E4 in R5. rewrite E3 in R4. rewrite E2 in R3. rewrite S1 in R2.
    exists toks, tree, qt, qv. repeat (split; [assumption|]).
    assert (forall i, enabled x5 i <-> enabled x i) as Hen.
    { intros i. unfold enabled. rewrite E5. tauto. }
    intros r. rewrite R6, R5, R4, R3, R2, R1. split.
    - intros H. repeat (destruct H as [H|H]); [now left|right..]; destruct H as (q & H); exists q;
        try (rewrite Hen in H); unfold enabled in *; tauto.
    - intros [H|(q & W & E & K)]; [tauto|].
      assert (enabled x5 (q_id q)) as E' by now apply Hen. unfold enabled in E. destruct E as [Ea Eb].
      destruct K as [K|[K|[K|[K|[K|K]]]]]; [| | | | |right; eauto]; left.
      + do 4 left. right. eauto.
      + do 3 left. right. eauto.
      + do 2 left. right. eauto.
      + left. right. eauto.
      + right. eauto.
  Qed.

  (** ** Every check of a run that ends has produced its requests *)
  Lemma body_loop_ok cs : forall pre sups x r, body_loop c cs (before1 pre) (before2 pre) sups x = Ok r ->
    forall a n b, cs = a ++ n :: b -> exists qs, child_reqs (pre ++ a) n b = Ok qs.
  Proof.
    induction cs as [|m cs IH]; intros pre sups x r H a n b E; [destruct a; discriminate|].
    assert (forall sups1 x1, body_loop c cs (before1 (pre ++ [m])) (before2 (pre ++ [m])) sups1 x1 = Ok r ->
      (exists qs, child_reqs pre m cs = Ok qs) -> exists qs, child_reqs (pre ++ a) n b = Ok qs) as G.
    { intros sups1 x1 H1 H2. destruct a as [|m' a]; cbn [app] in E.
      - injection E as <- <-. now rewrite app_nil_r.
      - injection E as <- E. apply IH with (a := a) (n := n) (b := b) in H1; [|exact E].
        now rewrite <- app_assoc in H1. }
    destruct m as [t|k ks].
    - cbn [body_loop] in H. apply (G sups x); [|exists nil; reflexivity].
      unfold before1, before2 in *. rewrite nodes_app. cbn [nodes filter]. now rewrite app_nil_r.
    - assert (before1 (pre ++ [N k ks]) = Some (N k ks) /\ before2 (pre ++ [N k ks]) = before1 pre) as [B1 B2].
      { unfold before1, before2. rewrite nodes_app. cbn [nodes filter]. rewrite rev_app_distr. auto. }
      rewrite B1, B2 in G. cbn [body_loop] in H. apply bindr_ok in H as ((sups1, x1) & _ & H).
      apply bindr_ok in H as (q1 & Hq1 & H). apply bindr_ok in H as (x2 & _ & H).
      apply (G _ _ H). unfold child_reqs. destruct k; try (rewrite Hq1; eexists; reflexivity).
      eexists. reflexivity.
  Qed.
  Definition node_ok (v : stack * pnode) : Prop :=
    match snd v with
    | T _ => True
    | N KBody cs => forall pre n post, cs = pre ++ n :: post -> exists qs, child_reqs pre n post = Ok qs
    | N (KComment _) _ => True
    | N k cs => exists qs, node_checks c k cs (fst v) = Ok qs
    end.
  Lemma check_tree_ok n : forall s x y, check_tree c s n x = Ok y -> Forall node_ok (visits s n).
  Proof.
    induction n as [t|k cs IH] using pnode_ind'; intros s x y H.
    - repeat constructor.
    - rewrite visits_eq. cbn [check_tree] in H. apply bindr_ok in H as (y1 & H1 & H). constructor.
      + unfold node_ok. cbn [snd fst].
        destruct k; try exact I; try (apply bindr_ok in H1 as (qs & Hqs & _); eauto; fail).
        intros pre n post E. unfold check_body in H1. apply bindr_ok in H1 as (r & H1 & _).
        exact (body_loop_ok cs nil _ _ _ H1 pre n post E).
      + revert H. generalize (CSt y1 (s_ind x)). generalize 0%nat.
        assert (forall l i x0, Forall (fun n => forall s x y, check_tree c s n x = Ok y -> Forall node_ok (visits s n)) l ->
          (fix go (i : nat) (l : list pnode) (x : cst) : res cst :=
             match l with
             | nil => Ok x
             | a :: l' => let? z := check_tree c ((N k cs, i) :: s) a x in go (S i) l' z
             end) i l x0 = Ok y -> Forall node_ok (kids_visits (N k cs) s i l)) as G.
        { induction l as [|a l IHl]; intros i x0 HF H.
          - constructor.
          - apply bindr_ok in H as (z & Hz & H). inversion HF as [|? ? Ha HF']; subst.
            cbn [kids_visits]. apply Forall_app. split; [exact (Ha _ _ _ Hz)|exact (IHl _ _ HF' H)]. }
        intros i x0 H. now apply (G cs i x0).
  Qed.
  Lemma file_ok src x y toks tree : lint_file c src x = Ok y -> tokenize src = Ok toks ->
    parse (lc_ctx c) toks = Ok tree -> Forall node_ok (visits nil tree).
  Proof.
    unfold lint_file. destruct (lc_ending c); [|discriminate]. intros H Ht Hp.
    apply bindr_ok in H as (x1 & H1 & H). apply bindr_ok in H as (toks' & Ht' & H).
    apply bindr_ok in H as (qt & Hqt & H). apply bindr_ok in H as (x2 & H2 & H).
    apply bindr_ok in H as (tree' & Hp' & H). apply bindr_ok in H as (x3 & H3 & H).
    unfold check_parse_tree in H. apply bindr_ok in H as (qv & Hqv & H).
    apply bindr_ok in H as (x4 & H4 & H). apply bindr_ok in H as (x5 & H5 & H).
    apply bindr_ok in H as (y' & H6 & H).
    rewrite Ht in Ht'. injection Ht' as <-. rewrite Hp in Hp'. injection Hp' as <-.
    now apply check_tree_ok in H6.
  Qed.
End Walk.
