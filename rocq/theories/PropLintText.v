(** * PropLintText: checks on the text of lines and tokens (C29, C30) *)
From Verif Require Import Base Regex Lex TextOps TextProofs Tree Parse CmdSpec StdSpecs StdDb PropStd
  Layout SortProofs Markup Pipeline LintDb Lint PropLint.

(** ** Requests that can be recorded: known code, arguments that fit the message *)
Definition well_formed (q : req) : Prop := exists tpl m,
  assoc_s (q_id q) lint_db = Some tpl /\ fmt None tpl (q_args q) = Ok m.
Definition is_fs (a : farg) : bool := match a with FS _ => true | FI _ => false end.
Fixpoint fmtb (field : option str) (tpl : str) (ks : list bool) : bool :=
  match tpl with
  | nil => match field with None => true | Some _ => false end
  | c :: t =>
      match field with
      | None => if N.eqb c cLC then fmtb (Some nil) t ks else fmtb None t ks
      | Some s => if N.eqb c cRC then
                    match ks with
                    | nil => false
                    | k :: ks' => (seqb s nil || seqb s (if k then $":s" else $":d")) && fmtb None t ks'
                    end
                  else fmtb (Some (s ++ [c])) t ks
      end
  end.
Lemma fmtb_ok tpl : forall field args, fmtb field tpl (map is_fs args) = true -> exists m, fmt field tpl args = Ok m.
Proof.
  induction tpl as [|c t IH]; intros field args H; cbn [fmtb fmt] in *.
  - destruct field; [discriminate|eauto].
  - destruct field as [s|]; destruct (N.eqb c _); auto.
    + destruct args as [|a args]; [discriminate|]. cbn [map] in H. apply andb_true_iff in H as [H1 H2].
      apply IH in H2 as (m & ->). destruct a as [z|z]; cbn [fmt_one is_fs] in *; rewrite H1; simpl; eauto.
    + apply IH in H as (m & ->). simpl. eauto.
Qed.
Definition wfb (q : req) : bool :=
  match assoc_s (q_id q) lint_db with Some tpl => fmtb None tpl (map is_fs (q_args q)) | None => false end.
Lemma wfb_ok q : wfb q = true -> well_formed q.
Proof.
  unfold wfb, well_formed. destruct (assoc_s (q_id q) lint_db) as [tpl|]; [|discriminate].
  intros H. apply fmtb_ok in H as (m & H). eauto.
Qed.
Definition has_rec (x : lctx) (id : str) (loc : list Z) : Prop :=
  exists r, In r (x_lint x) /\ l_id r = id /\ l_loc r = loc.
Lemma record_ok d q x : well_formed q -> exists y, record_lint d q x = Ok y.
Proof.
  intros (tpl & m & H1 & H2). unfold record_lint. destruct (smem _ d); [eauto|]. destruct (smem _ _); [eauto|].
  rewrite H1, H2. simpl. eauto.
Qed.
Lemma record_all_ok d qs : Forall well_formed qs -> forall x, exists y, record_all d qs x = Ok y.
Proof.
  induction 1 as [|q qs Hq Hqs IH]; intros x; simpl; [eauto|].
  destruct (record_ok d q x Hq) as (y & ->). simpl. apply IH.
Qed.
Lemma record_has d q x y id loc : record_lint d q x = Ok y ->
  x_sup y = x_sup x /\ x_events y = x_events x /\
  (has_rec y id loc <-> has_rec x id loc \/
     (q_id q = id /\ q_loc q = loc /\ ~ In id d /\ ~ In id (x_sup x))).
Proof.
  unfold record_lint. intros H. destruct (smem (q_id q) d) eqn:E1.
  { injection H as <-. apply smem_In in E1. repeat split; auto. intros [H|(<- & _ & H & _)]; tauto. }
  destruct (smem (q_id q) (x_sup x)) eqn:E2.
  { injection H as <-. apply smem_In in E2. repeat split; auto. intros [H|(<- & _ & _ & H)]; tauto. }
  rewrite <- not_true_iff_false, smem_In in E1, E2.
  destruct (assoc_s (q_id q) lint_db); [|discriminate]. apply bindr_ok in H as (m & _ & H).
  injection H as <-. repeat split; auto; unfold has_rec; simpl.
  - intros (r & Hr & H1 & H2). apply in_app_or in Hr as [Hr|[<-|[]]]; [left; eauto|]. right.
    simpl in *. subst. auto.
  - intros [(r & Hr & H)|(H1 & H2 & _)]; [exists r; rewrite in_app_iff; tauto|].
    eexists. rewrite in_app_iff. split; [right; left; reflexivity|]. auto.
Qed.
Lemma record_all_has d qs : forall x y id loc, record_all d qs x = Ok y ->
  x_sup y = x_sup x /\ x_events y = x_events x /\
  (has_rec y id loc <-> has_rec x id loc \/
     exists q, In q qs /\ q_id q = id /\ q_loc q = loc /\ ~ In id d /\ ~ In id (x_sup x)).
Proof.
  induction qs as [|q qs IH]; simpl; intros x y id loc H.
  - injection H as <-. repeat split; auto. intros [H|(q & [] & _)]; auto.
  - apply bindr_ok in H as (z & Hz & H). apply (record_has d q x z id loc) in Hz as (S1 & V1 & H1).
    apply (IH z y id loc) in H as (S2 & V2 & H2). repeat split; try congruence.
    + intros H. apply H2 in H as [H|(q' & Hq & H)].
      * apply H1 in H as [H|H]; [auto|]. right. exists q. auto.
      * rewrite S1 in H. right. exists q'. auto.
    + intros [H|(q' & [<-|Hq] & H)]; apply H2.
      * left. apply H1. auto.
      * left. apply H1. auto.
      * right. exists q'. rewrite S1. auto.
Qed.

(** ** C29 *)
Definition is_line (c : chr) (ls : list str) : Prop := ls <> nil /\ forall l, In l ls -> ~ In c l.
Lemma split_join c ls : is_line c ls -> split_on c (join [c] ls) = ls.
Proof.
  intros (Hn & H). destruct ls as [|l ls]; [congruence|]. clear Hn. revert l H.
  assert (forall l, ~ In c l -> split_on c l = [l]) as H0.
  { induction l as [|a l IHl]; simpl; intros Hl; [reflexivity|]. rewrite IHl by tauto.
    destruct (N.eqb a c) eqn:E; [apply N.eqb_eq in E; tauto|reflexivity]. }
  assert (forall l r, ~ In c l -> split_on c (l ++ c :: r) = l :: split_on c r) as H1.
  { induction l as [|a l IHl]; simpl; intros r Hl.
    - rewrite N.eqb_refl. destruct (split_on c r) eqn:E; [now apply split_on_nonempty in E|reflexivity].
    - rewrite IHl by tauto. destruct (N.eqb a c) eqn:E; [apply N.eqb_eq in E; tauto|reflexivity]. }
  induction ls as [|l2 ls IH]; intros l H.
  - simpl. apply H0. apply H. now left.
  - change (join [c] (l :: l2 :: ls)) with (l ++ [c] ++ join [c] (l2 :: ls)). simpl app at 2.
    rewrite H1 by (apply H; now left). f_equal. apply IH. intros x Hx. apply H. now right.
Qed.
Lemma in_check_lines c q ls : forall n, In q (check_lines c n ls) <->
  exists i ln, nth_error ls i = Some ln /\ In q (check_line c (n + Z.of_nat i) ln).
Proof.
  induction ls as [|l ls IH]; intros n; simpl.
  - split; [contradiction|]. intros ([|i] & ln & H & _); discriminate.
  - rewrite in_app_iff, IH. split.
    + intros [H|(i & ln & H1 & H2)].
      * exists 0%nat, l. rewrite Z.add_0_r. auto.
      * exists (S i), ln. split; [exact H1|]. now replace (n + Z.of_nat (S i)) with (n + 1 + Z.of_nat i) by lia.
    + intros ([|i] & ln & H1 & H2); simpl in H1.
      * injection H1 as ->. rewrite Z.add_0_r in H2. auto.
      * right. exists i, ln. split; [exact H1|].
        now replace (n + Z.of_nat (S i)) with (n + 1 + Z.of_nat i) in H2 by lia.
Qed.
(** the characters of a line before its line ending *)
Definition before_cr (ln : str) : str := if endswith [cCR] ln then removelast ln else ln.
Definition ends_in (p : chr -> Prop) (s : str) : Prop := exists a ch, s = a ++ [ch] /\ p ch.
Lemma endswith_1 ch s : endswith [ch] s = true <-> ends_in (eq ch) s.
Proof.
  unfold endswith, ends_in. destruct s as [|x s] using rev_ind; simpl.
  - split; [discriminate|]. intros (a & b & H & _). destruct a; discriminate.
  - clear IHs. rewrite rev_app_distr. simpl. split.
    + intros H. exists s, x. split; [reflexivity|]. destruct (N.eqb ch x) eqn:E; [now apply N.eqb_eq|discriminate].
    + intros (a & b & H & ->). apply app_inj_tail in H as [_ ->]. rewrite N.eqb_refl. now destruct (rev s).
Qed.
Lemma rstrip_len s : zlen (rstrip s) =? zlen s = false <-> ends_in (fun ch => is_uspace ch = true) s.
Proof.
  unfold rstrip, rstrip_by, ends_in. destruct s as [|x s] using rev_ind; simpl.
  - split; [discriminate|]. intros (a & b & H & _). destruct a; discriminate.
  - clear IHs. rewrite rev_app_distr. simpl. destruct (is_uspace x) eqn:E.
    + split; [intros _; eauto|]. intros _. rewrite Z.eqb_neq. unfold zlen.
      rewrite rev_length, app_length. simpl.
      assert (List.length (lstrip_by is_uspace (rev s)) <= List.length s)%nat; [|lia].
      rewrite <- (rev_length s). generalize (rev s). intros l. induction l as [|y l IH]; simpl; [lia|].
      destruct (is_uspace y); simpl; lia.
    + split.
      * intros H. rewrite Z.eqb_neq in H. exfalso. apply H. simpl. now rewrite rev_involutive.
      * intros (a & b & H & Hb). apply app_inj_tail in H as [_ ->]. congruence.
Qed.
Definition has_req (qs : list req) (id : str) (loc : list Z) : Prop :=
  exists q, In q qs /\ q_id q = id /\ q_loc q = loc.
Lemma has_req_app a b id loc : has_req (a ++ b) id loc <-> has_req a id loc \/ has_req b id loc.
Proof.
  unfold has_req. split.
  - intros (q & Hq & H). apply in_app_or in Hq as [Hq|Hq]; [left|right]; eauto.
  - intros [(q & Hq & H)|(q & Hq & H)]; exists q; rewrite in_app_iff; auto.
Qed.
Lemma has_req_nil id loc : has_req nil id loc <-> False.
Proof. split; [intros (q & [] & _)|contradiction]. Qed.
Lemma has_req_one q id loc : has_req [q] id loc <-> q_id q = id /\ q_loc q = loc.
Proof. unfold has_req. split; [intros (p & [<-|[]] & H); exact H|]. intros H. exists q. simpl. auto. Qed.
(** the C0306 part never produces another code *)
Ltac split_reqs := repeat match goal with
  | |- context[if ?b then _ else _] => destruct b eqn:?
  | |- context[match lc_ending ?c with Some _ => _ | None => _ end] => destruct (lc_ending c) as [[]|] eqn:?
  | |- context[match lc_tabpol ?c with RoundUp => _ | _ => _ end] => destruct (lc_tabpol c)
  end; cbv zeta; rewrite ?has_req_app, ?has_req_nil, ?has_req_one; cbn [q_id q_loc].
Lemma line_c0301 c n ln loc : has_req (check_line c n ln) $"C0301" loc <-> loc = [n] /\ zlen ln > lc_width c.
Proof.
  unfold check_line. split_reqs; split; intros H;
    repeat match goal with H : _ \/ _ |- _ => destruct H | H : _ /\ _ |- _ => destruct H end;
    try contradiction; try discriminate; try (subst; split; [reflexivity|lia]); try lia;
    try (left; split; [reflexivity|congruence]).
Qed.
Lemma line_c0303 c n ln loc : has_req (check_line c n ln) $"C0303" loc <->
  loc = [n] /\ ends_in (fun ch => is_uspace ch = true) (before_cr ln).
Proof.
  rewrite <- rstrip_len. unfold check_line, before_cr. split_reqs; split; intros H;
    repeat match goal with H : _ \/ _ |- _ => destruct H | H : _ /\ _ |- _ => destruct H end;
    try contradiction; try discriminate; try congruence; subst; auto 10.
Qed.
Lemma line_c0327 c n ln loc : has_req (check_line c n ln) $"C0327" loc <-> loc = [n] /\
  (lc_ending c = Some Unix /\ ends_in (eq cCR) ln \/ lc_ending c = Some Windows /\ ~ ends_in (eq cCR) ln).
Proof.
  rewrite <- endswith_1. unfold check_line. split_reqs; split; intros H;
    repeat match goal with H : _ \/ _ |- _ => destruct H | H : _ /\ _ |- _ => destruct H end;
    try contradiction; try discriminate; try congruence; subst; auto 10.
Qed.
Lemma line_c0304 c n ln loc : ~ has_req (check_line c n ln) $"C0304" loc.
Proof.
  unfold check_line. split_reqs; intros H;
    repeat match goal with H : _ \/ _ |- _ => destruct H | H : _ /\ _ |- _ => destruct H end;
    try contradiction; try discriminate.
Qed.
Lemma line_locs c n ln q : In q (check_line c n ln) -> exists col, q_loc q = n :: col.
Proof.
  unfold check_line. rewrite !in_app_iff.
  repeat match goal with
         | |- context[if ?b then _ else _] => destruct b
         | |- context[match ?b with Some _ => _ | None => _ end] => destruct b as [[]|]
         | |- context[match lc_tabpol c with RoundUp => _ | _ => _ end] => destruct (lc_tabpol c)
         end; cbv zeta; rewrite ?in_app_iff; cbn [In];
    intros Hq; repeat match goal with H : _ \/ _ |- _ => destruct H end; try contradiction;
    subst q; simpl; eauto.
Qed.
Lemma has_check_lines c id n loc ls : has_req (check_lines c n ls) id loc <->
  exists i ln, nth_error ls i = Some ln /\ has_req (check_line c (n + Z.of_nat i) ln) id loc.
Proof.
  unfold has_req. split.
  - intros (q & Hq & H). apply in_check_lines in Hq as (i & ln & H1 & H2). exists i, ln. eauto.
  - intros (i & ln & H1 & q & H2 & H). exists q. split; [|exact H]. apply in_check_lines. eauto.
Qed.
(** The four line checks, for the file made of the lines [ls]: recording them never
    fails, a record belongs to a line, and line number [i+1] gets the code exactly
    if the line has the defect and the code is not disabled. *)
Theorem C29_basics c ls : is_line cNL ls ->
  exists x, record c (check_basics c (join [cNL] ls)) ctx0 = Ok x /\
  (forall i ln, nth_error ls i = Some ln -> let n := 1 + Z.of_nat i in
     (has_rec x $"C0301" [n] <-> ~ In $"C0301" (lc_disabled c) /\ zlen ln > lc_width c) /\
     (has_rec x $"C0303" [n] <-> ~ In $"C0303" (lc_disabled c) /\
        ends_in (fun ch => is_uspace ch = true) (before_cr ln)) /\
     (has_rec x $"C0327" [n] <-> ~ In $"C0327" (lc_disabled c) /\
        (lc_ending c = Some Unix /\ ends_in (eq cCR) ln \/
         lc_ending c = Some Windows /\ ~ ends_in (eq cCR) ln))) /\
  (has_rec x $"C0304" [zlen ls] <-> ~ In $"C0304" (lc_disabled c) /\ ~ ends_in (eq cNL) (join [cNL] ls)) /\
  (forall r, In r (x_lint x) ->
     exists i col, (i < List.length ls)%nat /\ l_loc r = 1 + Z.of_nat i :: col).
Proof.
  intros Hl. unfold record.
  assert (Forall well_formed (check_basics c (join [cNL] ls))) as Hwf.
  { unfold check_basics. apply Forall_app. split.
    - apply Forall_forall. intros q Hq. apply in_check_lines in Hq as (i & ln & _ & Hq).
      apply wfb_ok. revert Hq. unfold check_line. rewrite !in_app_iff.
      repeat match goal with
             | |- context[if ?b then _ else _] => destruct b
             | |- context[match ?b with Some _ => _ | None => _ end] => destruct b as [[]|]
             | |- context[match lc_tabpol c with RoundUp => _ | _ => _ end] => destruct (lc_tabpol c)
             end; cbv zeta; rewrite ?in_app_iff; cbn [In];
        intros Hq; repeat match goal with H : _ \/ _ |- _ => destruct H end; try contradiction;
        subst q; vm_compute; reflexivity.
    - destruct (endswith _ _); constructor; [|constructor]. apply wfb_ok. vm_compute. reflexivity. }
  destruct (record_all_ok (lc_disabled c) _ Hwf ctx0) as (x & Hx). exists x. split; [exact Hx|].
  assert (forall id loc, has_rec x id loc <-> has_req (check_basics c (join [cNL] ls)) id loc /\ ~ In id (lc_disabled c)) as Hh.
  { intros id loc. destruct (record_all_has _ _ _ _ id loc Hx) as (_ & _ & H). rewrite H. split.
    - intros [(r & [] & _)|(q & Hq & H1 & H2 & H3 & _)]. split; [exists q; auto|exact H3].
    - intros [(q & Hq & H1 & H2) H3]. right. exists q. simpl. auto 10. }
  assert (forall id loc, has_req (check_basics c (join [cNL] ls)) id loc <->
            (exists i ln, nth_error ls i = Some ln /\ has_req (check_line c (1 + Z.of_nat i) ln) id loc) \/
            endswith [cNL] (join [cNL] ls) = false /\ id = $"C0304" /\ loc = [zlen ls]) as Hb.
  { intros id loc. unfold check_basics. rewrite has_req_app, split_join, has_check_lines by exact Hl.
    destruct (endswith _ _); rewrite ?has_req_nil, ?has_req_one; cbn [q_id q_loc];
      (split; [intros [H|H]|intros [H|H]]); auto; try tauto.
    - destruct H; discriminate.
    - right. destruct H as [<- <-]. auto.
    - right. destruct H as (_ & -> & ->). auto. }
  split; [|split].
  - intros i ln Hi. set (n := 1 + Z.of_nat i).
    assert (forall (P : str -> Prop) id, id <> $"C0304" ->
              (forall m l loc, has_req (check_line c m l) id loc <-> loc = [m] /\ P l) ->
              (has_rec x id [n] <-> ~ In id (lc_disabled c) /\ P ln)) as Hg.
    { intros P id Hid HP. rewrite Hh, Hb. split.
      - intros [[(j & l & Hj & H)|(_ & H & _)] Hd]; [|congruence]. apply HP in H as [H1 H2].
        assert (j = i) as -> by (injection H1; unfold n; lia). rewrite Hi in Hj. injection Hj as <-. auto.
      - intros [Hd H]. split; [|exact Hd]. left. exists i, ln. split; [exact Hi|]. apply HP. auto. }
    split; [|split].
    + apply (Hg (fun l => zlen l > lc_width c)); [discriminate|apply line_c0301].
    + apply (Hg (fun l => ends_in (fun ch => is_uspace ch = true) (before_cr l))); [discriminate|].
      intros m l loc. apply line_c0303.
    + apply (Hg (fun l => lc_ending c = Some Unix /\ ends_in (eq cCR) l \/
                          lc_ending c = Some Windows /\ ~ ends_in (eq cCR) l)); [discriminate|].
      intros m l loc. apply line_c0327.
  - rewrite Hh, Hb, <- endswith_1. split.
    + intros [[(i & l & _ & H)|(H & _)] Hd]; [now apply line_c0304 in H|]. split; [exact Hd|]. congruence.
    + intros [Hd H]. split; [|exact Hd]. right. apply not_true_iff_false in H. auto.
  - intros r Hr. assert (has_rec x (l_id r) (l_loc r)) as H by (exists r; auto).
    apply Hh in H as [H _]. apply Hb in H as [(i & ln & Hi & q & Hq & _ & <-)|(_ & _ & ->)].
    + apply line_locs in Hq as (col & ->). exists i, col. split; [|reflexivity].
      apply nth_error_Some. congruence.
    + destruct Hl as (Hn & _). exists (List.length ls - 1)%nat, nil.
      assert (List.length ls <> 0)%nat by (destruct ls; simpl; congruence). split; [lia|].
      f_equal. unfold zlen. lia.
Qed.
Example C29_ex : let ls := [$"foo() "; $"bar()" ++ [cCR]; $"1234567890"] in is_line cNL ls /\
  (exists x, record default_lcfg (check_basics default_lcfg (join [cNL] ls)) ctx0 = Ok x /\
     map (fun r => (l_id r, l_loc r)) (x_lint x) =
     [($"C0303", [1]); ($"C0327", [2]); ($"C0304", [3])]).
Proof.
  split.
  - split; [discriminate|]. intros l Hl Hi. repeat (destruct Hl as [<-|Hl]); try contradiction;
      vm_compute in Hi; repeat (destruct Hi as [Hi|Hi]; try discriminate); contradiction.
  - eexists. split; vm_compute; reflexivity.
Qed.
(** The length of a line counts the carriage return of its line ending: a file with
    windows line endings and lines of exactly the configured width is reported. *)
Theorem C29_width_refuted : exists x,
  lint_file (LCfg 5 (Some Windows) false UseSpace 2 nil 1 2 2 6 12 5 50
       nil nil nil nil nil nil nil nil (fun _ _ => true) default_mcfg the_ctx (fun _ => true) (fun _ => false)
       (fun _ => nil) (fun _ => nil)) ($"foo()" ++ [cCR; cNL]) ctx0 = Ok x /\ has_rec x $"C0301" [1].
Proof.
  eexists. split; [vm_compute; reflexivity|]. eexists. split; [left; reflexivity|]. split; reflexivity.
Qed.

(** ** C30 *)
(** what may stand between [${] and [}]: identifier characters and escapes *)
Inductive ref_text : str -> Prop :=
| rt_id c : idc c = true -> ref_text [c]
| rt_esc c : idc c = false -> ref_text [cBSL; c]
| rt_id_cons c s : idc c = true -> ref_text s -> ref_text (c :: s)
| rt_esc_cons c s : idc c = false -> ref_text s -> ref_text (cBSL :: c :: s).
(** the number of backslashes at the end *)
Definition bsls (s : str) : nat := List.length (take_while (N.eqb cBSL) (rev s)).
(** an unescaped reference occurs in the text *)
Definition has_ref (s : str) : Prop :=
  exists a body b, s = a ++ [cDOL; cLC] ++ body ++ [cRC] ++ b /\ ref_text body /\ Nat.Even (bsls a).

Notation dollars := (count_occ N.eq_dec).
Definition ndol (s : str) : nat := count_occ N.eq_dec s cDOL.
Lemma ndol_app a b : ndol (a ++ b) = (ndol a + ndol b)%nat.
Proof. apply count_occ_app. Qed.

(** what a match of the pattern looks like *)
Lemma rel_seq a b x z : rel (RSeq a b) x z -> exists y, rel a x y /\ rel b y z.
Proof. intros H. inversion H; subst. eauto. Qed.
Lemma rel_alt a b x y : rel (RAlt a b) x y -> rel a x y \/ rel b x y.
Proof. intros H. inversion H; subst; auto. Qed.
Lemma rel_chr p x y : rel (RChr p) x y -> exists c, rest x = c :: rest y /\ p c = true /\ cap y = cap x.
Proof. intros H. inversion H; subst. simpl. eauto. Qed.
Lemma rel_C ch x y : rel (C ch) x y -> rest x = ch :: rest y /\ prev y = Some ch /\ cap y = cap x.
Proof.
  intros H. inversion H as [p c s pv cp Hp| | | | | | | | | | | | |]; subst. simpl.
  apply N.eqb_eq in Hp as <-. auto.
Qed.
Lemma rel_bsl2 x y : rel bsl2 x y -> rest x = cBSL :: cBSL :: rest y.
Proof.
  intros H. apply rel_seq in H as (z & H1 & H2). apply rel_C in H1 as [-> _], H2 as [-> _]. reflexivity.
Qed.
Lemma star_grp x y : rel (RStar (RGrp bsl2)) x y ->
  (cap x = nil \/ cap x = [cBSL; cBSL]) -> (cap y = nil \/ cap y = [cBSL; cBSL]).
Proof.
  intros H. remember (RStar (RGrp bsl2)) as r eqn:Er. induction H; try discriminate; auto.
  injection Er as ->. intros _. apply IHrel2; [reflexivity|]. right.
  inversion H; subst. cbn [cap rest].
  match goal with H : rel bsl2 _ _ |- _ => apply rel_bsl2 in H; rewrite H end. cbn [List.length].
  replace (S (S (List.length (rest y0))) - List.length (rest y0))%nat with 2%nat by lia. reflexivity.
Qed.
Lemma varref_shape pv s y : rmatch varref pv s = Some y ->
  exists p q, s = p ++ cDOL :: q ++ rest y /\ ndol (cap y) = 0%nat.
Proof.
  intros H. apply rmatch_sound in H. unfold varref in H. cbn [RSeqs] in H.
  apply rel_seq in H as (x1 & H1 & H). apply rel_seq in H as (x2 & H2 & H).
  apply rel_seq in H as (x3 & H3 & H). apply rel_seq in H as (x4 & H4 & H).
  apply rel_seq in H as (x5 & H5 & H6). inversion H1; subst. clear H1.
  assert (cap x2 = nil \/ cap x2 = [cBSL; cBSL]) as Hc2 by (apply star_grp in H2; auto).
  apply rel_suffix in H2 as (w2 & H2 & _). simpl in H2.
  apply rel_C in H3 as (R3 & _ & C3). apply rel_C in H4 as (R4 & _ & C4).
  apply rel_C in H6 as (R6 & _ & C6).
  assert (cap x5 = cap x4) as C5.
  { clear - H5. unfold ref_body, RPlus in H5.
    assert (forall r x y, rel r x y -> r = RAlt (RChr idc) (RSeq (C cBSL) (RChr (fun c => negb (idc c)))) -> cap y = cap x) as H0.
    { intros r x y H ->. apply rel_alt in H as [H|H].
      - apply rel_chr in H as (_ & _ & _ & H). exact H.
      - apply rel_seq in H as (z & H1 & H2). apply rel_C in H1 as (_ & _ & <-).
        apply rel_chr in H2 as (_ & _ & _ & H2). exact H2. }
    apply rel_seq in H5 as (z & H1 & H2). apply H0 in H1; [|reflexivity]. rewrite <- H1. clear H1.
    remember (RStar _) as r eqn:Er in H2. induction H2; try discriminate; auto. injection Er as ->.
    rewrite IHrel2 by reflexivity. eapply H0; [eassumption|reflexivity]. }
  apply rel_suffix in H5 as (w5 & H5 & _).
  exists w2, ([cLC] ++ w5 ++ [cRC]). split.
  - rewrite H2, R3, R4, H5, R6. simpl. now rewrite <- app_assoc.
  - rewrite C6, C5, C4, C3. destruct Hc2 as [-> | ->]; reflexivity.
Qed.
Lemma rsearch_nil pv : rsearch varref pv nil = None.
Proof.
  cbn [rsearch]. destruct (rmatch varref pv nil) as [y|] eqn:E; [|reflexivity].
  apply varref_shape in E as ([|a p] & q & E & _); discriminate.
Qed.
(** one round of the substitution removes a dollar sign if there is a match *)
Lemma subf_dollars repl fuel : ndol repl = 0%nat -> forall pv s, (List.length s <= fuel)%nat ->
  (ndol (re_subf varref (fun y => cap y ++ repl) fuel pv s) <= ndol s)%nat /\
  (rsearch varref pv s <> None ->
   (ndol (re_subf varref (fun y => cap y ++ repl) fuel pv s) < ndol s)%nat).
Proof.
  intros Hr. induction fuel as [|n IH]; intros pv s Hl.
  - destruct s; [|simpl in Hl; lia]. split; [simpl; lia|]. intros H. exfalso. apply H. apply rsearch_nil.
  - destruct s as [|c s]; [split; [simpl; lia|]; intros H; exfalso; apply H; apply rsearch_nil|].
    cbn [re_subf rsearch]. destruct (rmatch varref pv (c :: s)) as [y|] eqn:E.
    + apply varref_shape in E as (p & q & E & Hc).
      destruct (IH (prev y) (rest y)) as [H1 _].
      { apply (f_equal (@List.length _)) in E. rewrite app_length in E. simpl in E. rewrite app_length in E.
        simpl in Hl. lia. }
      assert (ndol (c :: s) = ndol p + (1 + (ndol q + ndol (rest y))))%nat as Hd.
      { rewrite E, ndol_app. f_equal. change (cDOL :: q ++ rest y) with ([cDOL] ++ q ++ rest y).
        now rewrite !ndol_app. }
      rewrite !ndol_app, Hr, Hc, Hd. split; [lia|]. intros _. lia.
    + simpl in Hl. destruct (IH (Some c) s) as [H1 H2]; [lia|].
      change (c :: re_subf varref (fun y => cap y ++ repl) n (Some c) s)
        with ([c] ++ re_subf varref (fun y => cap y ++ repl) n (Some c) s).
      change (c :: s) with ([c] ++ s). rewrite !ndol_app. split; [lia|]. intros H. apply H2 in H. lia.
Qed.
Lemma ndol_len s : (ndol s <= List.length s)%nat.
Proof. unfold ndol. induction s as [|c s IH]; simpl; [lia|]. destruct (N.eq_dec c cDOL); lia. Qed.
Lemma mock_loop_ok repl : ndol repl = 0%nat -> forall fuel s, (ndol s <= fuel)%nat ->
  exists r, mock_loop fuel repl s = Ok r /\ rsearch varref None r = None.
Proof.
  intros Hr. induction fuel as [|n IH]; intros s Hd.
  - exists s. cbn [mock_loop]. destruct (rsearch varref None s) eqn:E; [|auto]. exfalso.
    destruct (subf_dollars repl (List.length s) Hr None s) as [_ H]; [lia|].
    assert (rsearch varref None s <> None) as Hn by congruence. apply H in Hn. lia.
  - cbn [mock_loop]. destruct (rsearch varref None s) eqn:E; [|eauto].
    destruct (subf_dollars repl (List.length s) Hr None s) as [_ H]; [lia|].
    assert (rsearch varref None s <> None) as Hn by congruence. apply H in Hn. apply IH. lia.
Qed.
Lemma rsearch_none r a : forall pv s, rsearch r pv (a ++ s) = None -> rmatch r (last_or pv a) s = None.
Proof.
  induction a as [|c a IH]; intros pv s H.
  - simpl app in H. destruct s; cbn [rsearch] in H; destruct (rmatch r pv _) eqn:E; try discriminate; exact E.
  - simpl app in H. cbn [rsearch] in H. destruct (rmatch r pv (c :: a ++ s)); [discriminate|].
    apply IH in H. exact H.
Qed.
Lemma rel_chr_intro p c pv s cp : p c = true -> rel (RChr p) (St pv (c :: s) cp) (St (Some c) s cp).
Proof. apply rl_chr. Qed.
Definition ref_item : re := RAlt (RChr idc) (RSeq (C cBSL) (RChr (fun c => negb (idc c)))).
Lemma item_id c pv s cp : idc c = true -> rel ref_item (St pv (c :: s) cp) (St (Some c) s cp).
Proof. intros H. apply rl_altl. now constructor. Qed.
Lemma item_esc c pv s cp : idc c = false -> rel ref_item (St pv (cBSL :: c :: s) cp) (St (Some c) s cp).
Proof.
  intros H. apply rl_altr. eapply rl_seq; [apply rl_chr, N.eqb_refl|]. apply rl_chr. now rewrite H.
Qed.
Lemma rel_body b : ref_text b -> forall pv s cp, exists pv', rel ref_body (St pv (b ++ s) cp) (St pv' s cp).
Proof.
  intros H. assert (forall pv s cp, exists pv1 pv' s1, rel ref_item (St pv (b ++ s) cp) (St pv1 s1 cp) /\
                     (List.length s1 < List.length (b ++ s))%nat /\
                     rel (RStar ref_item) (St pv1 s1 cp) (St pv' s cp)) as HS.
  { induction H as [c Hc|c Hc|c b Hc H IH|c b Hc H IH]; intros pv s cp.
    - exists (Some c), (Some c), s. split; [now apply item_id|]. split; [simpl; lia|constructor].
    - exists (Some c), (Some c), s. split; [now apply item_esc|]. split; [simpl; lia|constructor].
    - destruct (IH (Some c) s cp) as (pv1 & pv' & s1 & H1 & H2 & H3).
      exists (Some c), pv', (b ++ s). split; [now apply item_id|]. split; [simpl; lia|].
      eapply rl_star1; [exact H1|exact H2|exact H3].
    - destruct (IH (Some c) s cp) as (pv1 & pv' & s1 & H1 & H2 & H3).
      exists (Some c), pv', (b ++ s). split; [now apply item_esc|]. split; [simpl; lia|].
      eapply rl_star1; [exact H1|exact H2|exact H3]. }
  intros pv s cp. destruct (HS pv s cp) as (pv1 & pv' & s1 & H1 & _ & H3). exists pv'.
  eapply rl_seq; eassumption.
Qed.
Lemma rel_bsls k : forall pv s cp, exists pv' cp',
  rel (RStar (RGrp bsl2)) (St pv (repeat cBSL (k + k) ++ s) cp) (St pv' s cp').
Proof.
  induction k as [|k IH]; intros pv s cp; [exists pv, cp; constructor|].
  replace (S k + S k)%nat with (S (S (k + k))) by lia. simpl repeat. simpl app.
  destruct (IH (Some cBSL) s (firstn (List.length (cBSL :: cBSL :: repeat cBSL (k + k) ++ s) -
                                      List.length (repeat cBSL (k + k) ++ s))
                                     (cBSL :: cBSL :: repeat cBSL (k + k) ++ s))) as (pv' & cp' & H).
  exists pv', cp'. eapply rl_star1.
  - apply (rl_grp bsl2 (St pv _ cp) (St (Some cBSL) (repeat cBSL (k + k) ++ s) cp)).
    eapply rl_seq; apply rl_chr; reflexivity.
  - simpl. lia.
  - exact H.
Qed.
Lemma bsls_split a : exists a', a = a' ++ repeat cBSL (bsls a) /\ forall pv, (pv = Some cBSL -> False) ->
  last_or pv a' <> Some cBSL.
Proof.
  induction a as [|c a IH] using rev_ind.
  - exists nil. split; [reflexivity|]. intros pv H E. auto.
  - unfold bsls. rewrite rev_app_distr. cbn [rev app take_while]. destruct (N.eqb cBSL c) eqn:E.
    + apply N.eqb_eq in E as <-. cbn [List.length repeat]. destruct IH as (a' & E & Hl). exists a'. split; [|exact Hl].
      fold (bsls a). rewrite E at 1. rewrite <- app_assoc. f_equal. 
      clear. induction (bsls a) as [|n IH]; simpl; [reflexivity|]. now rewrite IH.
    + cbn [List.length repeat]. exists (a ++ [c]). split; [now rewrite app_nil_r|]. intros pv _. unfold last_or.
      rewrite fold_left_app. simpl. intros H. injection H as ->. discriminate.
Qed.
Lemma no_match_no_ref s : rsearch varref None s = None -> ~ has_ref s.
Proof.
  intros H (a & body & b & -> & Hb & He). destruct (bsls_split a) as (a' & Ea & Hl).
  destruct He as (k & Hk). replace (2 * k)%nat with (k + k)%nat in Hk by lia. rewrite Hk in Ea.
  rewrite Ea, <- app_assoc in H. apply rsearch_none in H. revert H. unfold rmatch.
  destruct (rel_bsls k (last_or None a') ([cDOL; cLC] ++ body ++ [cRC] ++ b) nil) as (pv1 & cp1 & H1).
  destruct (rel_body body Hb (Some cLC) ([cRC] ++ b) cp1) as (pv2 & H2).
  apply (m_complete varref _ (St (Some cRC) b cp1)); [|discriminate].
  eapply rl_seq; [apply rl_nlb|].
  { cbn [prev]. intros c Hc. apply not_true_is_false. intros E. apply N.eqb_eq in E as <-.
    revert Hc. apply Hl. discriminate. }
  eapply rl_seq; [exact H1|]. eapply rl_seq; [apply rl_chr; reflexivity|].
  eapply rl_seq; [apply rl_chr; reflexivity|]. eapply rl_seq; [exact H2|]. apply rl_chr. reflexivity.
Qed.
(** Replacing references by a text without dollar sign comes to an end for every
    string, and the result has no unescaped reference. *)
Theorem C30_mock repl s : ~ In cDOL repl -> exists r, mock_varrefs repl s = Ok r /\ ~ has_ref r.
Proof.
  intros H. destruct (mock_loop_ok repl) with (fuel := List.length s) (s := s) as (r & H1 & H2).
  - now apply count_occ_not_In.
  - apply ndol_len.
  - exists r. split; [exact H1|]. now apply no_match_no_ref.
Qed.
Example C30_ex : ~ In cDOL $"foo" /\ has_ref $"a${b${c}}\\${d}" /\
  mock_varrefs $"foo" $"a${b${c}}\\${d}\${e}" = Ok $"afoo\\foo\${e}".
Proof.
  split; [simpl; intuition discriminate|]. split; [|vm_compute; reflexivity].
  exists $"a${b", $"c", $"}\\${d}". split; [reflexivity|]. split; [constructor; reflexivity|].
  now exists 0%nat.
Qed.
(** The condition on the replacement is needed: a replacement that is a reference
    itself keeps the loop running. *)
Theorem C30_dollar_refuted : forall fuel, mock_loop fuel $"${x}" $"${x}" = OutOfFuel.
Proof.
  induction fuel as [|n IH]; [vm_compute; reflexivity|]. cbn [mock_loop].
  replace (re_subf _ _ _ _ _) with $"${x}" by (vm_compute; reflexivity).
  destruct (rsearch varref None $"${x}") eqn:E; [exact IH|]. vm_compute in E. discriminate.
Qed.
