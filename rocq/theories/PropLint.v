(** * PropLint: the lint report (C25, C26, C27, C28) *)
From Verif Require Import Base Regex Lex TextOps TextProofs Tree Parse CmdSpec StdSpecs StdDb PropStd
  Layout SortProofs Markup Pipeline LintDb Lint.
From Coq Require Import Permutation Sorted.

(** ** Histories: the calls a checker can make on a file context *)
Inductive action :=
| ARecord (q : req)
| ASuppress (line : Z) (ids : list str)
| AUnsuppress (line : Z) (ids : list str).
Definition act (d : list str) (a : action) (x : lctx) : res lctx :=
  match a with
  | ARecord q => record_lint d q x
  | ASuppress l ids => Ok (snd (suppress l ids x))
  | AUnsuppress l ids => Ok (unsuppress l ids x)
  end.
Fixpoint acts (d : list str) (h : list action) (x : lctx) : res lctx :=
  match h with nil => Ok x | a :: h' => let? y := act d a x in acts d h' y end.
Lemma acts_app d h1 : forall h2 x y z, acts d h1 x = Ok y -> acts d h2 y = Ok z -> acts d (h1 ++ h2) x = Ok z.
Proof.
  induction h1 as [|a h1 IH]; simpl; intros h2 x y z H1 H2; [now injection H1 as ->|].
  apply bindr_ok in H1 as (w & Hw & H1). rewrite Hw. simpl. eauto.
Qed.

(** Every run of the checker over a file is such a history. *)
Definition hist (d : list str) (x y : lctx) : Prop := exists h, acts d h x = Ok y.
Lemma hist_refl d x : hist d x x.
Proof. now exists nil. Qed.
Lemma hist_trans d x y z : hist d x y -> hist d y z -> hist d x z.
Proof. intros (h1 & H1) (h2 & H2). exists (h1 ++ h2). eauto using acts_app. Qed.
Lemma hist_record d qs : forall x y, record_all d qs x = Ok y -> hist d x y.
Proof.
  induction qs as [|q qs IH]; simpl; intros x y H; [injection H as <-; apply hist_refl|].
  apply bindr_ok in H as (w & Hw & H). apply hist_trans with w; auto.
  exists [ARecord q]. simpl. now rewrite Hw.
Qed.
Lemma hist_sup d l ids x : hist d x (snd (suppress l ids x)).
Proof. now exists [ASuppress l ids]. Qed.
Lemma hist_unsup d l ids x : hist d x (unsuppress l ids x).
Proof. now exists [AUnsuppress l ids]. Qed.

Section Hist.
  Variable c : lcfg.
  Notation d := (lc_disabled c).
  Lemma hist_body_loop cs : forall p0 p1 sups x s y, body_loop c cs p0 p1 sups x = Ok (s, y) -> hist d x y.
  Proof.
    induction cs as [|[t|k ks] cs IH]; simpl; intros p0 p1 sups x s y H.
    - injection H as _ <-. apply hist_refl.
    - eauto.
    - apply bindr_ok in H as ((s1, x1) & H1 & H). apply bindr_ok in H as (q1 & _ & H).
      apply bindr_ok in H as (x2 & H2 & H). apply IH in H. apply hist_record in H2.
      eapply hist_trans; [|eapply hist_trans; [exact H2|exact H]].
      destruct (k_comment k); [|injection H1 as _ <-; apply hist_refl].
      destruct (pragmas ks) as [qs ids]. apply bindr_ok in H1 as (x3 & H3 & H1). apply hist_record in H3.
      destruct ids as [|i ids]; [injection H1 as _ <-; exact H3|].
      apply bindr_ok in H1 as (ln & _ & H1).
      eapply hist_trans; [exact H3|].
      destruct (suppress ln (i :: ids) x3) as [new x4] eqn:E. injection H1 as _ <-.
      replace x4 with (snd (suppress ln (i :: ids) x3)) by now rewrite E. apply hist_sup.
  Qed.
  Lemma hist_check_body cs x y : check_body c cs x = Ok y -> hist d x y.
  Proof.
    unfold check_body. intros H. apply bindr_ok in H as ((s, x1) & H1 & H). apply hist_body_loop in H1.
    destruct (rev (flats cs)) as [|t r]; [discriminate|]. injection H as <-.
    destruct s; auto. eapply hist_trans; [exact H1|apply hist_unsup].
  Qed.
  Lemma hist_check_comment cs s x y : check_comment c cs s x = Ok y -> hist d x y.
  Proof.
    unfold check_comment. intros H. destruct (negb (in_stmt s)); [injection H as <-; apply hist_refl|].
    destruct (pragmas cs) as [qs ids]. apply bindr_ok in H as (x1 & H1 & H). apply hist_record in H1.
    destruct ids as [|i ids]; [injection H as <-; exact H1|].
    apply bindr_ok in H as (ln & _ & H). eapply hist_trans; [exact H1|].
    destruct (suppress ln (i :: ids) x1) as [new x2] eqn:E. injection H as <-.
    eapply hist_trans; [|apply hist_unsup].
    replace x2 with (snd (suppress ln (i :: ids) x1)) by now rewrite E. apply hist_sup.
  Qed.
  Lemma hist_check_token t s x y : check_token c t s x = Ok y -> hist d (s_ctx x) (s_ctx y).
  Proof.
    unfold check_token. intros H.
    destruct (is_tt WHITESPACE t && (col (begin t) =? 0)); [injection H as <-; apply hist_refl|].
    destruct (s_ind x); [|injection H as <-; apply hist_refl].
    apply bindr_ok in H as (z & Hz & H). injection H as <-. now apply hist_record in Hz.
  Qed.
  Lemma hist_check_tree n : forall s x y, check_tree c s n x = Ok y -> hist d (s_ctx x) (s_ctx y).
  Proof.
    induction n as [t|k cs IH] using pnode_ind'; simpl; intros s x y H; [eauto using hist_check_token|].
    apply bindr_ok in H as (x1 & H1 & H).
    apply hist_trans with x1.
    - destruct k; try (apply bindr_ok in H1 as (qs & _ & H1); now apply hist_record in H1).
      + now apply hist_check_body in H1.
      + destruct (lc_cnode c s); [now apply hist_check_comment in H1|injection H1 as <-; apply hist_refl].
    - clear H1. change x1 with (s_ctx (CSt x1 (s_ind x))). revert H.
      generalize (CSt x1 (s_ind x)) as x0. generalize 0%nat.
      generalize (N k cs) as par. clear x x1.
      induction IH as [|a l Ha _ IHl]; intros par i x0 H; [injection H as <-; apply hist_refl|].
      apply bindr_ok in H as (z & Hz & H). apply Ha in Hz. eapply hist_trans; [exact Hz|]. eauto.
  Qed.
  Lemma lint_file_hist src x y : lint_file c src x = Ok y -> hist d x y.
  Proof.
    unfold lint_file. intros H. destruct (lc_ending c); [|discriminate].
    apply bindr_ok in H as (x1 & H1 & H). apply bindr_ok in H as (ts & _ & H).
    apply bindr_ok in H as (qs & _ & H). apply bindr_ok in H as (x2 & H2 & H).
    apply bindr_ok in H as (tr & _ & H). apply bindr_ok in H as (x3 & H3 & H).
    apply hist_record in H1, H2, H3. unfold check_parse_tree in H.
    apply bindr_ok in H as (qs' & _ & H). apply bindr_ok in H as (x4 & H4 & H).
    apply bindr_ok in H as (x5 & H5 & H). apply bindr_ok in H as (z & Hz & H). injection H as <-.
    apply hist_record in H4, H5. apply hist_check_tree in Hz. simpl in Hz.
    repeat (eapply hist_trans; [eassumption|]). apply hist_refl.
  Qed.
End Hist.

(** ** C25 *)
Lemma acts_disabled d h : forall x y, acts d h x = Ok y ->
  (forall r, In r (x_lint x) -> ~ In (l_id r) d) -> forall r, In r (x_lint y) -> ~ In (l_id r) d.
Proof.
  induction h as [|a h IH]; simpl; intros x y H Hx r Hr; [injection H as ->; auto|].
  apply bindr_ok in H as (z & Hz & H). eapply IH; [exact H| |exact Hr]. clear y H r Hr. intros r Hr.
  destruct a as [q|l ids|l ids]; simpl in Hz.
  - unfold record_lint in Hz. destruct (smem (q_id q) d) eqn:Ed; [injection Hz as <-; auto|].
    destruct (smem (q_id q) (x_sup x)); [injection Hz as <-; auto|].
    destruct (assoc_s (q_id q) lint_db); [|discriminate].
    apply bindr_ok in Hz as (m & _ & Hz). injection Hz as <-. simpl in Hr.
    apply in_app_or in Hr as [Hr|[<-|[]]]; auto. simpl. intros Hin.
    apply smem_In in Hin. congruence.
  - injection Hz as <-. unfold suppress in Hr. destruct (new_sups ids (x_sup x)); auto.
  - injection Hz as <-. auto.
Qed.
Lemma sift_in rs : forall e a r, In r (sift rs e a) -> In r rs.
Proof.
  induction rs as [|q rs IH]; simpl; intros e a r H; [contradiction|].
  destruct (match l_loc q with nil => (e, a) | n :: _ => pump n e a end) as [e' a'].
  destruct (smem (l_id q) a'); [right; eauto|]. destruct H; [now left|right; eauto].
Qed.
Lemma get_lint_in x r : In r (get_lint x) -> In r (x_lint x).
Proof.
  unfold get_lint. intros H. apply sift_in in H.
  eapply Permutation_in; [symmetry; apply isort_perm|exact H].
Qed.
(** Whatever the sequence of records and suppressions, and whatever was recorded
    before with the same setting, no disabled code is reported. *)
Theorem C25_disabled d h x r : acts d h ctx0 = Ok x -> In r (get_lint x) -> ~ In (l_id r) d.
Proof.
  intros H Hr. eapply acts_disabled; [exact H| |eauto using get_lint_in]. simpl. contradiction.
Qed.
Theorem C25_file c src x r : lint_file c src ctx0 = Ok x -> In r (get_lint x) -> ~ In (l_id r) (lc_disabled c).
Proof. intros H Hr. apply lint_file_hist in H as (h & H). eauto using C25_disabled. Qed.

(** ** C26 *)
(** the order of tuples *)
Inductive lex {A} (lt : A -> A -> Prop) : list A -> list A -> Prop :=
| lex_nil y b : lex lt nil (y :: b)
| lex_lt x y a b : lt x y -> lex lt (x :: a) (y :: b)
| lex_eq x a b : lex lt a b -> lex lt (x :: a) (x :: b).
Definition before (a b : lrec) : Prop :=
  lex Z.lt (l_loc a) (l_loc b) \/
  l_loc a = l_loc b /\ (lex N.lt (l_id a) (l_id b) \/ l_id a = l_id b).
Definition same_key (a b : lrec) : bool := loc_eqb (l_loc a) (l_loc b) && seqb (l_id a) (l_id b).
(** the events that count for a record: those up to the first one on a later line *)
Definition seen (evs : list sevent) (r : lrec) : list sevent :=
  match l_loc r with nil => nil | n :: _ => take_while (fun e => ev_line e <=? n) evs end.
(** after these events the code is switched off *)
Definition silenced (evs : list sevent) (code : str) : Prop :=
  exists a e b, evs = a ++ e :: b /\ ev_mode e = SAdd /\ In code (ev_ids e) /\
    forall f, In f b -> ev_mode f = SRemove -> ~ In code (ev_ids f).

Lemma loc_eqb_eq a : forall b, loc_eqb a b = true <-> a = b.
Proof.
  induction a as [|x a IH]; destruct b as [|y b]; simpl; split; intros H; try easy.
  - apply andb_true_iff in H as [H1 H2]. apply Z.eqb_eq in H1 as ->. f_equal. now apply IH.
  - injection H as -> ->. rewrite Z.eqb_refl. simpl. now apply IH.
Qed.
Lemma loc_leb_lex a : forall b, loc_leb a b = true <-> lex Z.lt a b \/ a = b.
Proof.
  induction a as [|x a IH]; destruct b as [|y b]; simpl.
  - split; auto.
  - split; [|reflexivity]. intros _. left. constructor.
  - split; [discriminate|]. intros [H|H]; inversion H.
  - destruct (x <? y) eqn:E1.
    + apply Z.ltb_lt in E1. split; [|reflexivity]. intros _. left. now constructor.
    + apply Z.ltb_ge in E1. destruct (y <? x) eqn:E2.
      * apply Z.ltb_lt in E2. split; [discriminate|].
        intros [H|H]; [inversion H; subst; lia|injection H as -> ->; lia].
      * apply Z.ltb_ge in E2. assert (x = y) as -> by lia. rewrite IH. split.
        -- intros [H|H]; [left; now constructor|right; now f_equal].
        -- intros [H|H]; [inversion H; subst; [lia|now left]|injection H as ->; now right].
Qed.
Lemma str_leb_lex a : forall b, str_leb a b = true <-> lex N.lt a b \/ a = b.
Proof.
  induction a as [|x a IH]; destruct b as [|y b].
  - simpl. split; auto.
  - simpl. split; [|reflexivity]. intros _. left. constructor.
  - simpl. split; [discriminate|]. intros [H|H]; inversion H.
  - rewrite str_leb_cons, IH. split.
    + intros [H|[-> [H|H]]]; [left; now constructor|left; now constructor|right; now f_equal].
    + intros [H|H]; [inversion H; subst; auto|injection H as -> ->; auto].
Qed.
Lemma lex_irrefl a : ~ lex Z.lt a a.
Proof. induction a as [|x a IH]; intros H; inversion H; subst; [lia|auto]. Qed.
Lemma lex_ztrans a : forall b c, lex Z.lt a b -> lex Z.lt b c -> lex Z.lt a c.
Proof.
  induction a as [|x a IH]; intros b c H1 H2.
  - inversion H1; subst; inversion H2; subst; constructor.
  - inversion H1; subst; inversion H2; subst.
    + constructor. lia.
    + now constructor.
    + now constructor.
    + apply lex_eq. eauto.
Qed.
Lemma loc_leb_total a : forall b, loc_leb a b = true \/ loc_leb b a = true.
Proof.
  induction a as [|x a IH]; destruct b as [|y b]; simpl; auto.
  destruct (x <? y) eqn:E1, (y <? x) eqn:E2; auto.
Qed.
Lemma rec_leb_before a b : rec_leb a b = true <-> before a b.
Proof.
  unfold rec_leb, before. destruct (loc_eqb (l_loc a) (l_loc b)) eqn:E.
  - apply loc_eqb_eq in E. rewrite E, str_leb_lex. split; [auto|].
    intros [H|[_ H]]; [now apply lex_irrefl in H|exact H].
  - rewrite loc_leb_lex. assert (l_loc a <> l_loc b) as Hn.
    { intros H. apply loc_eqb_eq in H. congruence. }
    split; [intros [H|H]; [now left|contradiction]|intros [H|[H _]]; [now left|contradiction]].
Qed.
Lemma rec_leb_total a b : rec_leb a b = true \/ rec_leb b a = true.
Proof.
  unfold rec_leb. destruct (loc_eqb (l_loc a) (l_loc b)) eqn:E.
  - apply loc_eqb_eq in E. rewrite E.
    replace (loc_eqb (l_loc b) (l_loc b)) with true by (symmetry; now apply loc_eqb_eq).
    apply str_leb_total.
  - replace (loc_eqb (l_loc b) (l_loc a)) with false; [apply loc_leb_total|].
    symmetry. apply not_true_is_false. intros H. apply loc_eqb_eq in H. rewrite H in E.
    assert (loc_eqb (l_loc a) (l_loc a) = true) by now apply loc_eqb_eq. congruence.
Qed.
Lemma rec_leb_trans a b d : rec_leb a b = true -> rec_leb b d = true -> rec_leb a d = true.
Proof.
  rewrite !rec_leb_before. unfold before. intros [H1|[E1 H1]] [H2|[E2 H2]].
  - left. eauto using lex_ztrans.
  - left. now rewrite <- E2.
  - left. now rewrite E1.
  - right. split; [congruence|]. rewrite <- str_leb_lex in *. eauto using str_leb_trans.
Qed.

Lemma pump_spec n evs : forall a, pump n evs a =
  (skipn (List.length (take_while (fun e => ev_line e <=? n) evs)) evs,
   fold_left apply_ev (take_while (fun e => ev_line e <=? n) evs) a).
Proof.
  induction evs as [|e evs IH]; intros a; simpl; [reflexivity|].
  destruct (ev_line e <=? n); simpl; [apply IH|reflexivity].
Qed.
Lemma take_while_app {A} (p : A -> bool) l m : forallb p l = true -> take_while p (l ++ m) = l ++ take_while p m.
Proof.
  induction l as [|a l IH]; simpl; intros H; [reflexivity|].
  apply andb_true_iff in H as [-> H]. now rewrite IH.
Qed.
Lemma take_while_all {A} (p : A -> bool) l : forallb p (take_while p l) = true.
Proof. induction l as [|a l IH]; simpl; [reflexivity|]. destruct (p a) eqn:E; simpl; [now rewrite E|reflexivity]. Qed.
Lemma take_while_skip {A} (p : A -> bool) l : take_while p l ++ skipn (List.length (take_while p l)) l = l.
Proof. induction l as [|a l IH]; simpl; [reflexivity|]. destruct (p a); simpl; [now rewrite IH|reflexivity]. Qed.

Definition off (evs : list sevent) (r : lrec) : bool := smem (l_id r) (fold_left apply_ev (seen evs r) nil).
Lemma sift_filter rs : forall pre evs,
  StronglySorted (fun a b => rec_leb a b = true) rs ->
  (forall r, In r rs -> match l_loc r with
                        | nil => pre = nil
                        | n :: _ => forallb (fun e => ev_line e <=? n) pre = true end) ->
  sift rs evs (fold_left apply_ev pre nil) = filter (fun r => negb (off (pre ++ evs) r)) rs.
Proof.
  induction rs as [|r rs IH]; intros pre evs Hs Hp; [reflexivity|].
  inversion Hs as [|? ? Hs1 Hs2]; subst. simpl. unfold off at 1, seen.
  pose proof (Hp r (or_introl eq_refl)) as Hr. destruct (l_loc r) as [|n lr] eqn:El.
  - subst pre. simpl. destruct (smem (l_id r) nil) eqn:E; [discriminate|]. simpl. f_equal.
    apply (IH nil); auto. intros r' Hr'. apply Hp. now right.
  - rewrite pump_spec, take_while_app by assumption.
    set (tw := take_while (fun e => ev_line e <=? n) evs). rewrite <- fold_left_app.
    assert (sift rs (skipn (List.length tw) evs) (fold_left apply_ev (pre ++ tw) nil) =
            filter (fun r0 => negb (off (pre ++ evs) r0)) rs) as HI.
    { rewrite IH; auto.
      - unfold tw. now rewrite <- app_assoc, take_while_skip.
      - intros r' Hr'. rewrite Forall_forall in Hs2. apply Hs2, rec_leb_before in Hr'.
        assert (exists n' l', l_loc r' = n' :: l' /\ n <= n') as (n' & l' & -> & Hn).
        { destruct Hr' as [H|[H _]].
          - rewrite El in H. inversion H; subst; eexists _, _; split; try reflexivity; lia.
          - rewrite El in H. symmetry in H. eexists _, _; split; [exact H|lia]. }
        rewrite forallb_app. apply andb_true_iff. split.
        + rewrite forallb_forall in *. intros e He. specialize (Hr e He). simpl in Hr. lia.
        + pose proof (take_while_all (fun e => ev_line e <=? n) evs) as Ht. fold tw in Ht.
          rewrite forallb_forall in *. intros e He. specialize (Ht e He). simpl in Ht. lia. }
    destruct (smem (l_id r) (fold_left apply_ev (pre ++ tw) nil)); simpl; [exact HI|now rewrite HI].
Qed.

Lemma fold_discard code ids : forall s, In code (fold_left (fun s i => sdiscard i s) ids s) <-> In code s /\ ~ In code ids.
Proof.
  induction ids as [|i ids IH]; intros s; simpl; [tauto|]. rewrite IH. unfold sdiscard.
  rewrite filter_In, negb_true_iff. rewrite <- not_true_iff_false, seqb_eq. tauto.
Qed.
Lemma silenced_snoc evs e code : silenced (evs ++ [e]) code <->
  (ev_mode e = SAdd /\ In code (ev_ids e)) \/
  (silenced evs code /\ (ev_mode e = SRemove -> ~ In code (ev_ids e))).
Proof.
  split.
  - intros (a & f & b & E & Hm & Hi & Hb). destruct b as [|g b] using rev_ind.
    + apply app_inj_tail in E as [_ ->]. left. auto.
    + clear IHb. rewrite app_comm_cons, app_assoc in E. apply app_inj_tail in E as [-> ->]. right. split.
      * exists a, f, b. repeat split; auto. intros h Hh. apply Hb. apply in_or_app. now left.
      * intros Hr. apply Hb; auto. apply in_or_app. right. now left.
  - intros [[Hm Hi]|[(a & f & b & -> & Hm & Hi & Hb) He]].
    + exists evs, e, nil. repeat split; auto.
    + exists a, f, (b ++ [e]). repeat split; auto.
      * now rewrite <- app_assoc.
      * intros h Hh. apply in_app_or in Hh as [Hh|[<-|[]]]; auto.
Qed.
Lemma silenced_active evs code : In code (fold_left apply_ev evs nil) <-> silenced evs code.
Proof.
  induction evs as [|e evs IH] using rev_ind.
  - simpl. split; [contradiction|]. intros (a & f & b & E & _). destruct a; discriminate.
  - rewrite fold_left_app, silenced_snoc, <- IH. simpl. unfold apply_ev at 1.
    destruct (ev_mode e).
    + rewrite in_app_iff. split; [intros [H|H]; auto; right; split; [exact H|discriminate]|].
      intros [[_ H]|[H _]]; auto.
    + rewrite fold_discard. split; [intros [H1 H2]; right; auto|].
      intros [[H _]|[H1 H2]]; [discriminate|auto].
Qed.

(** The report: the recorded lint in the order location, code, time of discovery,
    without the records whose code is switched off at their line. *)
Theorem C26_report x : exists (s : list lrec) (keep : lrec -> bool),
  Permutation s (x_lint x) /\ StronglySorted before s /\
  (forall r, filter (same_key r) s = filter (same_key r) (x_lint x)) /\
  (forall r, keep r = true <-> ~ silenced (seen (x_events x) r) (l_id r)) /\
  get_lint x = filter keep s.
Proof.
  exists (isort rec_leb (x_lint x)), (fun r => negb (off (x_events x) r)).
  repeat apply conj.
  - symmetry. apply isort_perm.
  - pose proof (isort_sorted rec_leb rec_leb_total rec_leb_trans (x_lint x)) as H.
    induction H as [|a l Hl IHl Hf]; constructor; auto.
    eapply Forall_impl; [|exact Hf]. intros b. apply rec_leb_before.
  - intros r. apply isort_filter. intros a b Ha Hb. unfold same_key in *.
    apply andb_true_iff in Ha as [Ha1 Ha2], Hb as [Hb1 Hb2].
    apply loc_eqb_eq in Ha1, Hb1. apply seqb_eq in Ha2, Hb2.
    apply rec_leb_before. right. split; [congruence|right; congruence].
  - intros r. unfold off. rewrite negb_true_iff, <- not_true_iff_false, smem_In, silenced_active. reflexivity.
  - unfold get_lint. apply (sift_filter _ nil); [apply isort_sorted; [apply rec_leb_total|apply rec_leb_trans]|].
    intros r _. destruct (l_loc r); reflexivity.
Qed.
(** Five records, one of them switched off by a pragma for lines 2 to 3. *)
Definition ex_hist : list action :=
  [ARecord (Req $"C0304" [9] nil); ARecord (Req $"C0303" [2] nil); ARecord (Req $"C0303" [1] nil);
   ASuppress 2 [$"C0303"]; AUnsuppress 3 [$"C0303"]; ARecord (Req $"E1120" nil nil);
   ARecord (Req $"C0303" [3] nil); ARecord (Req $"W0101" [4] nil)].
Example C26_ex : exists x, acts [$"W0101"] ex_hist ctx0 = Ok x /\ List.length (x_lint x) = 5%nat /\
  map (fun r => (l_id r, l_loc r)) (get_lint x) =
  [($"E1120", nil); ($"C0303", [1]); ($"C0303", [3]); ($"C0304", [9])].
Proof. eexists. split; [vm_compute; reflexivity|]. split; vm_compute; reflexivity. Qed.

(** ** C27 *)
(** line [n] lies in an interval that starts with an event switching the code off
    and ends with the next one switching it on *)
Definition covered (evs : list sevent) (code : str) (n : Z) : Prop :=
  exists a e b, evs = a ++ e :: b /\ ev_mode e = SAdd /\ In code (ev_ids e) /\ ev_line e <= n /\
    forall f, In f b -> ev_mode f = SRemove -> In code (ev_ids f) -> n < ev_line f.
Definition in_line_order (evs : list sevent) : Prop :=
  StronglySorted (fun e f => ev_line e <= ev_line f) evs.

Lemma ordered_split evs n : in_line_order evs -> exists post,
  evs = take_while (fun e => ev_line e <=? n) evs ++ post /\ forall f, In f post -> n < ev_line f.
Proof.
  intros H. induction H as [|e l Hl IH Hf]; simpl; [exists nil; easy|].
  destruct (ev_line e <=? n) eqn:E.
  - destruct IH as (post & H1 & H2). exists post. split; [simpl; now f_equal|exact H2].
  - exists (e :: l). split; [reflexivity|]. intros f [<-|Hi]; [lia|].
    rewrite Forall_forall in Hf. apply Hf in Hi. lia.
Qed.
Lemma split_first {A} (a : list A) e b : forall tw post, tw ++ post = a ++ e :: b -> ~ In e post ->
  exists b', tw = a ++ e :: b' /\ b = b' ++ post.
Proof.
  induction a as [|x a IH]; intros [|t tw] post H Hn; simpl in *.
  - exfalso. apply Hn. rewrite H. now left.
  - injection H as -> <-. now exists tw.
  - exfalso. apply Hn. rewrite H. right. apply in_or_app. right. now left.
  - injection H as -> H. destruct (IH _ _ H Hn) as (b' & -> & ->). now exists b'.
Qed.
Lemma covered_silenced evs code n : in_line_order evs ->
  (silenced (take_while (fun e => ev_line e <=? n) evs) code <-> covered evs code n).
Proof.
  intros Ho. destruct (ordered_split evs n Ho) as (post & Hs & Hp).
  pose proof (take_while_all (fun e => ev_line e <=? n) evs) as Ht. rewrite forallb_forall in Ht.
  set (tw := take_while (fun e => ev_line e <=? n) evs) in *. split.
  - intros (a & e & b & E & Hm & Hi & Hb). exists a, e, (b ++ post). repeat split; auto.
    + now rewrite Hs, E, <- app_assoc.
    + assert (In e tw) as He by (rewrite E; apply in_or_app; right; now left). apply Ht in He. lia.
    + intros f Hf Hr Hc. apply in_app_or in Hf as [Hf|Hf]; [|auto]. exfalso. eapply Hb; eauto.
  - intros (a & e & b & E & Hm & Hi & Hl & Hb).
    assert (In e evs) as He by (rewrite E; apply in_or_app; right; now left).
    (* the event lies in the first part *)
    assert (exists b', tw = a ++ e :: b' /\ b = b' ++ post) as (b' & E1 & E2).
    { apply split_first; [now rewrite <- Hs|]. intros Hx. apply Hp in Hx. lia. }
    exists a, e, b'. repeat split; auto. intros f Hf Hr Hc.
    assert (In f tw) as Hft by (rewrite E1; apply in_or_app; right; now right).
    apply Ht in Hft. specialize (Hb f). rewrite E2 in Hb.
    specialize (Hb (in_or_app _ _ _ (or_introl Hf)) Hr Hc). lia.
Qed.
(** If the events were made in the order of their lines, a record is reported
    exactly if its line lies in no interval of its code.  Missing: events made in
    another order, for which the statement is false (below). *)
Theorem C27_intervals_partial x r n l :
  in_line_order (x_events x) -> In r (x_lint x) -> l_loc r = n :: l ->
  (In r (get_lint x) <-> ~ covered (x_events x) (l_id r) n).
Proof.
  intros Ho Hr Hl. destruct (C26_report x) as (s & keep & Hp & _ & _ & Hk & ->).
  rewrite filter_In, Hk. unfold seen. rewrite Hl, covered_silenced by exact Ho.
  split; [tauto|]. intros H. split; [|exact H]. eapply Permutation_in; [symmetry; exact Hp|exact Hr].
Qed.
Example C27_ex : exists x r, acts nil ex_hist ctx0 = Ok x /\ in_line_order (x_events x) /\
  In r (x_lint x) /\ l_loc r = [2] /\ covered (x_events x) (l_id r) 2.
Proof.
  eexists _, (LRec $"C0303" [2] $"Trailing whitespace"). split; [vm_compute; reflexivity|]. split.
  { repeat constructor; simpl; lia. }
  split; [vm_compute; auto|]. split; [reflexivity|].
  eexists nil, _, _. split; [reflexivity|]. simpl. repeat split; auto; try lia.
  intros f [<-|[]]; simpl. lia.
Qed.
(** In a file with pragmas in two nested blocks the events of the outer block come
    first, both of them; those of the inner block are then never looked at: the
    lint of line 4 is reported although line 4 lies in the interval 3 to 5. *)
Definition nested_pragmas : str :=
  nl [$"# cmake-lint: disable=E0011"; $"if(a)"; $"  # cmake-lint: disable=W0105";
      $"  set(apples 1)"; $"  foo()"; $"endif()"; $"foo()"].
Theorem C27_nested_refuted : exists x r, lint_file default_lcfg nested_pragmas ctx0 = Ok x /\
  l_loc r = [4; 6; 70] /\ In r (get_lint x) /\ covered (x_events x) (l_id r) 4.
Proof.
  eexists. eexists (LRec $"W0105" [4; 6; 70] _). split; [vm_compute; reflexivity|].
  split; [reflexivity|]. split; [vm_compute; left; reflexivity|].
  eexists [_; _], _, _. split; [reflexivity|]. simpl. repeat split; auto; try lia.
  intros f [<-|[]]; simpl; lia.
Qed.
(** A pragma at the top of a block does not reach the last line of the block: it is
    lifted at the line of the last token, here the line end of line 2. *)
Theorem C59_last_line_refuted : exists x r,
  lint_file default_lcfg (nl [$"# cmake-lint: disable=W0105"; $"set(apples 1)"]) ctx0 = Ok x /\
  In r (get_lint x) /\ l_id r = $"W0105" /\ hd 0 (l_loc r) = 2 /\
  x_events x = [SEv 1 SAdd [$"W0105"]; SEv 2 SRemove [$"W0105"]].
Proof.
  eexists. eexists (LRec $"W0105" _ _). split; [vm_compute; reflexivity|].
  split; [vm_compute; left; reflexivity|]. repeat split.
Qed.

(** ** C28 *)
Section Status.
  Variable rd : str -> lread.
  Variable cf : str -> res lcfg.
  Variable plain : bool.
  Definition unreadable (p : str) : Prop := forall s, rd p <> Text s.
  (** the file is read and linting it on its own reports something *)
  Definition dirty (p : str) : Prop := exists c s x,
    cf p = Ok c /\ rd p = Text s /\ lint_file c s ctx0 = Ok x /\ get_lint x <> nil.

  Lemma ctx_of_new p m : ~ In p (map fst m) -> ctx_of p m = ctx0.
  Proof.
    induction m as [|[q x] m IH]; simpl; intros H; [reflexivity|].
    destruct (seqb p q) eqn:E; [apply seqb_eq in E as ->; tauto|]. apply IH. tauto.
  Qed.
  Lemma set_ctx_keys p x m q : In q (map fst (set_ctx p x m)) -> q = p \/ In q (map fst m).
  Proof.
    induction m as [|[r y] m IH]; simpl; [intros [<-|[]]; auto|].
    destruct (seqb p r); simpl; intros [H|H]; auto. destruct (IH H); auto.
  Qed.
  Lemma lint_loop_rc ps : forall m o rc m' o' rc', NoDup ps ->
    (forall p, In p ps -> ~ In p (map fst m)) -> (rc = 0 \/ rc = 1) ->
    lint_loop rd cf plain ps m o rc = Ok (m', o', rc') ->
    (rc' = 0 \/ rc' = 1) /\ (rc' = 1 <-> rc = 1 \/ exists p, In p ps /\ (unreadable p \/ dirty p)).
  Proof.
    induction ps as [|p ps IH]; intros m o rc m' o' rc' Hnd Hm Hrc H.
    - simpl in H. injection H as _ _ <-. split; auto. split; auto. intros [H|(p & [] & _)]; auto.
    - simpl in H. apply bindr_ok in H as (c & Hc & H). inversion Hnd as [|? ? Hni Hnd']; subst.
      assert (forall z, rd p = z -> (forall s, z <> Text s) ->
              lint_loop rd cf plain ps m o 1 = Ok (m', o', rc') ->
              (rc' = 0 \/ rc' = 1) /\ (rc' = 1 <-> rc = 1 \/ exists q, In q (p :: ps) /\ (unreadable q \/ dirty q)))
        as Hun.
      { intros z Hz Hnt Hl. apply IH in Hl as [H1 H2]; auto.
        - split; auto. split; [|intros _; apply H2; now left]. intros _. right. exists p.
          split; [now left|]. left. intros s. rewrite Hz. apply Hnt.
        - intros q Hq. apply Hm. now right. }
      destruct (rd p) as [| |s] eqn:Er; [eapply Hun; [reflexivity|discriminate|exact H]
                                       |eapply Hun; [reflexivity|discriminate|exact H]|].
      clear Hun. apply bindr_ok in H as (x & Hx & H).
      rewrite ctx_of_new in Hx by (apply Hm; now left).
      match type of H with (if ?b then _ else _) = _ => destruct b; [discriminate|] end.
      match type of H with (if ?b then _ else _) = _ => destruct b; [discriminate|] end.
      apply IH in H as [H1 H2]; auto.
      + split; auto. rewrite H2. clear IH H1 H2. split.
        * intros [H|(q & Hq & H)]; [|right; exists q; split; [now right|exact H]].
          destruct (get_lint x) eqn:Eg; [now left|]. right. exists p. split; [now left|]. right.
          exists c, s, x. repeat split; auto. rewrite Eg. discriminate.
        * intros [H|(q & [<-|Hq] & H)].
          -- left. rewrite H. now destruct (get_lint x).
          -- left. destruct H as [H|(c' & s' & x' & Hc' & Hr' & Hx' & Hg)].
             ++ exfalso. eapply H. exact Er.
             ++ rewrite Hc in Hc'. injection Hc' as <-. rewrite Er in Hr'. injection Hr' as <-.
                rewrite Hx in Hx'. injection Hx' as <-. now destruct (get_lint x).
          -- right. now exists q.
      + intros q Hq Hi. apply set_ctx_keys in Hi as [->|Hi]; [contradiction|].
        eapply Hm; [right; exact Hq|exact Hi].
      + destruct (get_lint x); auto.
  Qed.
  (** When no exception escapes and no path is given twice, the status is 1 exactly
      if some path cannot be read or has lint, and 0 otherwise.  Missing: the runs
      in which an exception escapes; for them the statement is false (below). *)
  Theorem C28_status_partial ps o rc : NoDup ps ->
    inner_lint rd cf plain ps = Ok (o, rc) ->
    lint_status rd cf plain ps = rc /\ (rc = 0 \/ rc = 1) /\
    (rc = 1 <-> exists p, In p ps /\ (unreadable p \/ dirty p)).
  Proof.
    intros Hnd H. split; [unfold lint_status; now rewrite H|]. unfold inner_lint in H.
    destruct (smem _ ps && _); [discriminate|].
    apply bindr_ok in H as ([[m' o'] rc'] & Hl & H). injection H as _ <-.
    apply lint_loop_rc in Hl as [H1 H2]; auto. split; auto. rewrite H2. split; [intros [H|H]; [discriminate|exact H]|auto].
  Qed.
  (** Whatever happens the status is 0, 1 or 2, and 0 is returned only for runs
      without exception. *)
  Theorem C28_values ps : NoDup ps ->
    (exists o, inner_lint rd cf plain ps = Ok (o, 0)) /\ lint_status rd cf plain ps = 0 \/
    lint_status rd cf plain ps = 1 \/ lint_status rd cf plain ps = 2.
  Proof.
    intros Hnd. destruct (inner_lint rd cf plain ps) as [[o rc]|e|] eqn:E.
    - destruct (C28_status_partial ps o rc Hnd E) as (-> & [->| ->] & _); [left; split; eauto|auto].
    - right. unfold lint_status. rewrite E. destruct e; auto.
    - right. unfold lint_status. rewrite E. auto.
  Qed.
End Status.
Definition two_files (p : str) : lread :=
  if seqb p $"a" then Text (nl [$"foo()"]) else if seqb p $"b" then Text (nl [$"foo() "]) else CannotOpen.
Example C28_ex : exists o1 o2 o3,
  inner_lint two_files (fun _ => Ok default_lcfg) true [$"a"] = Ok (o1, 0) /\
  inner_lint two_files (fun _ => Ok default_lcfg) true [$"a"; $"b"] = Ok (o2, 1) /\
  inner_lint two_files (fun _ => Ok default_lcfg) true [$"a"; $"c"] = Ok (o3, 1) /\
  o1 = nil /\ o3 = nil /\ o2 = $"b:01: [C0303] Trailing whitespace" ++ [cNL].
Proof.
  eexists _, _, _. do 3 (split; [vm_compute; reflexivity|]). split; [reflexivity|split; reflexivity].
Qed.
(** An empty file crashes the checker (the tree has no last token): status 2. *)
Theorem C28_empty_refuted : exists rd cf, rd $"a" = Text nil /\ lint_status rd cf false [$"a"] = 2.
Proof. exists (fun _ => Text nil), (fun _ => Ok default_lcfg). split; [reflexivity|]. vm_compute. reflexivity. Qed.
(** Standard input never works with the decorations: status 2 for every text for
    which the checks succeed. *)
Theorem C28_stdin_refuted rd cf c s x : rd $"-" = Text s -> cf $"-" = Ok c ->
  lint_file c s ctx0 = Ok x -> lint_status rd cf false [$"-"] = 2.
Proof.
  intros Hr Hc Hx. unfold lint_status, inner_lint. simpl smem. simpl zlen.
  replace (zlen [$"-"] =? 1) with true by reflexivity. simpl andb. cbn [lint_loop].
  rewrite Hc. cbn [bindr]. rewrite Hr. cbn [ctx_of]. rewrite Hx. reflexivity.
Qed.
(** With line_ending 'auto' every readable file ends in status 2. *)
Theorem C28_auto_refuted rd cf c s p plain : rd p = Text s -> cf p = Ok c -> lc_ending c = None ->
  lint_status rd cf plain [p] = 2.
Proof.
  intros Hr Hc He. unfold lint_status, inner_lint.
  replace (zlen [p] =? 1) with true by reflexivity. rewrite andb_false_r. cbn [lint_loop].
  rewrite Hc. cbn [bindr]. rewrite Hr. unfold lint_file. rewrite He. reflexivity.
Qed.
Example C28_auto_ex : lc_ending (LCfg 80 None false UseSpace 2 nil 1 2 2 6 12 5 50
  nil nil nil nil nil nil nil nil (fun _ _ => true) default_mcfg the_ctx (fun _ => true) (fun _ => false)
  (fun _ => nil) (fun _ => nil)) = None.
Proof. reflexivity. Qed.
