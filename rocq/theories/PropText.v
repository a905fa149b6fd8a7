(** * PropText: properties C08-C13 of the text utilities *)
From Verif Require Import Base Regex Lex LexProofs LexClass TextOps TextProofs.

(** ** C08 *)
(** Exact description: split at CRLF / LF / CR, strip trailing blanks of the
    terminated lines, end each of them with one newline, keep the rest. *)
Theorem C08_normalize_exact s :
  normalize s = unlines (map (rstrip_by is_blank) (fst (ulines s)), snd (ulines s)).
Proof. apply normalize_spec. Qed.

Lemma norm_noeol s : Forall noeol (map rstrip_blank (fst (ulines s))) /\ noeol (snd (ulines s)).
Proof.
  destruct (ulines_noeol s) as [F G]. split; auto. apply Forall_forall. intros x Hx.
  apply in_map_iff in Hx as (y & <- & Hy). apply rstrip_noeol. rewrite Forall_forall in F. auto.
Qed.

(** No carriage return, and no newline-terminated line ends with a blank. *)
Theorem C08_normalize_clean s :
  ~ In cCR (normalize s) /\
  (forall a b c, normalize s = a ++ [c; cNL] ++ b -> is_blank c = false).
Proof.
  destruct (norm_noeol s) as [F G]. split.
  - rewrite normalize_spec. unfold norm_spec, unlines. cbn [fst snd]. intros H.
    apply in_app_or in H as [H|H]; [|apply G, H].
    apply in_concat in H as (l & Hl & Hc). apply in_map_iff in Hl as (l0 & <- & Hl0).
    rewrite Forall_forall in F. specialize (F _ Hl0). apply in_app_or in Hc as [Hc|Hc]; [apply F, Hc|].
    simpl in Hc. destruct Hc as [Hc|[]]. discriminate.
  - intros a b c H. rewrite normalize_spec in H. unfold norm_spec, unlines in H. cbn [fst snd] in H.
    remember (snd (ulines s)) as t. clear Heqt. remember (fst (ulines s)) as ls. clear Heqls.
    revert a H. induction ls as [|l ls IH]; intros a H.
    + simpl in H. exfalso. apply (proj1 G). rewrite H. apply in_or_app. right. right. now left.
    + simpl in H. rewrite <- !app_assoc in H. cbn [app] in H.
      inversion F as [|? ? Fl Fs]; subst.
      assert (forall l0 r, ~ In cNL l0 -> l0 ++ cNL :: r = a ++ c :: cNL :: b ->
              (l0 = a ++ [c] /\ r = b) \/ (exists a', a = l0 ++ cNL :: a' /\ r = a' ++ c :: cNL :: b) \/ (a = l0 /\ c = cNL)) as Hsp.
      { clear. induction a as [|x a IH]; intros l0 r Hn E.
        - destruct l0 as [|y l0]; cbn [app] in *.
          + injection E as E1 E2. right. right. auto.
          + injection E as E1 E2. subst y. destruct l0 as [|z l0]; cbn [app] in *.
            * injection E2 as E2. left. auto.
            * injection E2 as E2 E3. exfalso. apply Hn. right. left. auto.
        - destruct l0 as [|y l0]; cbn [app] in *.
          + injection E as E1 E2. right. left. exists a. subst. auto.
          + injection E as E1 E2. subst y. destruct (IH l0 r) as [[A B]|[(a' & A & B)|[A B]]]; auto.
            * intros X. apply Hn. now right.
            * left. subst. auto.
            * right. left. exists a'. subst. auto.
            * right. right. subst. auto. }
      destruct (Hsp _ _ (proj1 Fl) H) as [[A B]|[(a' & A & B)|[A B]]].
      * eapply rstrip_last. unfold rstrip_blank in A. exact A.
      * apply IH with (a := a'); auto.
      * subst. reflexivity.
Qed.

Example C08_ex : normalize ($"a  " ++ [cCR; cNL] ++ $" b " ++ [cTAB; cCR] ++ [cNL] ++ $"c ")
                 = $"a" ++ [cNL] ++ $" b" ++ [cNL] ++ $"c ".
Proof. reflexivity. Qed.

(** The literal claim that *no* line ends with a blank fails: the last line, when
    it is not terminated, is left alone. *)
Theorem C08_last_line_refuted :
  exists s a c, normalize s = a ++ [c] /\ is_blank c = true.
Proof. exists ($"c "), ($"c"), cSP. split; reflexivity. Qed.

(** ** C09 *)
Theorem C09_normalize_idempotent s : normalize (normalize s) = normalize s.
Proof.
  rewrite (normalize_spec (normalize s)). unfold norm_spec. rewrite (normalize_spec s).
  destruct (norm_noeol s) as [F G]. unfold norm_spec at 1 2. rewrite (ulines_unlines _ _ F G).
  cbn [fst snd]. rewrite map_map. unfold norm_spec. f_equal. f_equal. apply map_ext.
  intros l. apply rstrip_idem.
Qed.
Example C09_ex : normalize ($"a  " ++ [cCR; cNL] ++ $"b") <> $"a  " ++ [cCR; cNL] ++ $"b".
Proof. discriminate. Qed.

(** ** C10 *)
Definition is_content (c : chr) : bool := negb (is_blank c || N.eqb c cNL || N.eqb c cCR).

Lemma filter_rstrip l : filter is_content (rstrip_by is_blank l) = filter is_content l.
Proof.
  assert (forall l, forallb is_blank l = true -> filter is_content l = nil) as Hb.
  { clear. induction l as [|c l IH]; simpl; auto. intros H. apply andb_prop in H as [H1 H2].
    unfold is_content at 1. rewrite H1. simpl. auto. }
  induction l as [|c l IH]; auto. rewrite rstrip_cons.
  destruct (is_blank c && forallb is_blank l) eqn:E.
  - symmetry. apply Hb. exact E.
  - simpl. rewrite IH. reflexivity.
Qed.

Lemma filter_ulines : forall n s, (length s <= n)%nat ->
  filter is_content s = List.concat (map (filter is_content) (fst (ulines s))) ++ filter is_content (snd (ulines s)).
Proof.
  induction n as [|n IH]; intros s Hl.
  - destruct s; simpl in Hl; [reflexivity|lia].
  - destruct s as [|c s]; [reflexivity|]. simpl in Hl. cbn [ulines filter].
    destruct (N.eqb c cNL) eqn:E1.
    { assert (is_content c = false) as ->. { unfold is_content. rewrite E1. now rewrite orb_true_r. }
      rewrite (IH s) by lia. destruct (ulines s). reflexivity. }
    destruct (N.eqb c cCR) eqn:E2.
    { assert (is_content c = false) as ->. { unfold is_content. rewrite E2. now rewrite orb_true_r. }
      destruct s as [|d s]; [reflexivity|]. destruct (N.eqb d cNL) eqn:E3.
      - cbn [filter]. assert (is_content d = false) as ->. { unfold is_content. rewrite E3. now rewrite orb_true_r. }
        rewrite (IH s) by (simpl in *; lia). destruct (ulines s). reflexivity.
      - rewrite (IH (d :: s)) by (simpl in *; lia). destruct (ulines (d :: s)). reflexivity. }
    rewrite (IH s) by lia. destruct (ulines s) as [[|l ls] t]; simpl; destruct (is_content c); reflexivity.
Qed.

(** The non-blank content is unchanged, and the number of newlines written is the
    number of line terminators read. *)
Theorem C10_normalize_preserves s :
  filter is_content (normalize s) = filter is_content s /\
  count_chr cNL (normalize s) = zlen (fst (ulines s)).
Proof.
  destruct (norm_noeol s) as [F G]. rewrite normalize_spec. split.
  - rewrite (filter_ulines (length s) s) by lia.
    unfold norm_spec, unlines. cbn [fst snd]. rewrite filter_app. f_equal.
    generalize (fst (ulines s)). intros ls. induction ls as [|l ls IH]; auto.
    cbn [map List.concat]. rewrite !filter_app, IH. unfold rstrip_blank. rewrite filter_rstrip. simpl. now rewrite app_nil_r.
  - unfold norm_spec, unlines. cbn [fst snd]. rewrite count_chr_app.
    assert (count_chr cNL (snd (ulines s)) = 0) as -> by (apply count_chr_zero, G).
    induction (fst (ulines s)) as [|l ls IH]; [reflexivity|].
    inversion F as [|? ? Fl Fs]; subst. cbn [map List.concat]. rewrite !count_chr_app.
    assert (count_chr cNL (rstrip_blank l) = 0) as -> by (apply count_chr_zero, Fl).
    specialize (IH Fs). change (count_chr cNL [cNL]) with 1. rewrite zlen_cons. lia.
Qed.
Example C10_ex : fst (ulines ($"a" ++ [cCR; cNL; cCR; cNL] ++ $"b")) = [$"a"; nil].
Proof. reflexivity. Qed.

(** ** C11 *)
(** Numbers of LF preceded / not preceded by CR; [p]: the previous character is CR *)
Fixpoint crlf_count (p : bool) (s : str) : Z :=
  match s with
  | nil => 0
  | c :: s' => (if p && N.eqb c cNL then 1 else 0) + crlf_count (N.eqb c cCR) s'
  end.
Fixpoint lf_count (p : bool) (s : str) : Z :=
  match s with
  | nil => 0
  | c :: s' => (if negb p && N.eqb c cNL then 1 else 0) + lf_count (N.eqb c cCR) s'
  end.

Lemma count2_crlf : forall n s, (length s <= n)%nat -> count2 cCR cNL s = crlf_count false s.
Proof.
  induction n as [|n IH]; intros s Hl.
  - destruct s; simpl in Hl; [reflexivity|lia].
  - destruct s as [|c s]; [reflexivity|]. destruct s as [|d s].
    + simpl. destruct (N.eqb c cCR); reflexivity.
    + change (count2 cCR cNL (c :: d :: s)) with
        (if N.eqb c cCR && N.eqb d cNL then 1 + count2 cCR cNL s else count2 cCR cNL (d :: s)).
      cbn [crlf_count andb]. destruct (N.eqb c cCR) eqn:E1; cbn [andb].
      * destruct (N.eqb d cNL) eqn:E2.
        -- rewrite IH by (simpl in *; lia). assert (N.eqb d cCR = false) as ->.
           { apply N.eqb_eq in E2. subst. reflexivity. } lia.
        -- rewrite IH by (simpl in *; lia). cbn [crlf_count andb]. simpl. lia.
      * rewrite IH by (simpl in *; lia). simpl. lia.
Qed.
Lemma nl_total p s : crlf_count p s + lf_count p s = count_chr cNL s.
Proof.
  revert p. induction s as [|c s IH]; intros p; [reflexivity|]. cbn [crlf_count lf_count].
  change (count_chr cNL (c :: s)) with (count_chr cNL ([c] ++ s)). rewrite count_chr_app, <- (IH (N.eqb c cCR)).
  assert (count_chr cNL [c] = if N.eqb c cNL then 1 else 0) as ->.
  { unfold count_chr. cbn [filter]. rewrite (N.eqb_sym cNL c). destruct (N.eqb c cNL); reflexivity. }
  destruct p, (N.eqb c cNL); cbn [andb negb]; lia.
Qed.

Theorem C11_detect_majority s :
  detect_line_endings s = Windows <-> crlf_count false s > lf_count false s.
Proof.
  unfold detect_line_endings. rewrite (count2_crlf (length s) s) by lia. rewrite <- (nl_total false s).
  destruct (crlf_count false s >? crlf_count false s + lf_count false s - crlf_count false s) eqn:E.
  - rewrite Z.gtb_lt in E. split; auto. lia.
  - rewrite Z.gtb_ltb, Z.ltb_ge in E. split; [discriminate|lia].
Qed.
Example C11_ex : detect_line_endings ([cCR; cCR; cNL] ++ $"a" ++ [cNL; cCR; cNL]) = Windows.
Proof. reflexivity. Qed.

(** ** C12 *)
(** use-space: the lines, seen with tab stops every [ts] columns, are unchanged. *)
Theorem C12_tabs_use_space ts s : 0 < ts ->
  exists o, replace_with_tabs true ts UseSpace s = Ok o /\
    map (expand ts 0) (split_on cNL o) = map (expand ts 0) (split_on cNL s).
Proof.
  intros Hts. unfold replace_with_tabs. cbn [negb].
  destruct (mapr_forall2 (tab_line ts UseSpace)
    (fun l o => (~ In cNL l -> ~ In cNL o) /\ expand ts 0 o = expand ts 0 l) (split_on cNL s)) as (os & E & F).
  { intros l _. destruct (tab_line_use_space ts l Hts) as (o & Eo & Ho). exists o. repeat split; auto.
    intros Hn. unfold tab_line in Eo. destruct (ts =? 0); [discriminate|].
    assert (~ In cNL (skipn (Z.to_nat (count_indentation l)) l)) as Hs.
    { intros X. apply Hn. rewrite <- (firstn_skipn (Z.to_nat (count_indentation l)) l). apply in_or_app. auto. }
    destruct (_ =? 0) in Eo; injection Eo as <-; intros X; apply in_app_or in X as [X|X]; auto.
    - apply repeat_spec in X. discriminate.
    - apply repeat_spec in X. discriminate.
    - apply in_app_or in X as [X|X]; auto. apply repeat_spec in X. discriminate. }
  rewrite E. cbn. exists (join [cNL] os). split; auto.
  assert (Forall (fun l => ~ In cNL l) (split_on cNL s)) as Hno.
  { apply Forall_forall. intros l. apply split_on_no. }
  rewrite split_join_lines.
  - clear E Hno. induction F as [|l o ls os' [_ H] F IH]; simpl; congruence.
  - intros ->. inversion F. now apply (split_on_nonempty cNL s).
  - clear E. induction F as [|l o ls os' [H _] F IH]; constructor; inversion Hno; subst; auto.
Qed.
Example C12_ex : replace_with_tabs true 4 UseSpace ($"      a b") = Ok ([cTAB] ++ $"  a b").
Proof. reflexivity. Qed.

(** round-up: line by line, the indentation becomes ceil(n/ts) tabs. *)
Theorem C12_tabs_round_up ts s : 0 < ts ->
  exists o, replace_with_tabs true ts RoundUp s = Ok o /\
    Forall2 (fun l l' => forall n body, indented l n body ->
               l' = repeat cTAB (Z.to_nat ((Z.of_nat n + ts - 1) / ts)) ++ body)
            (split_on cNL s) (split_on cNL o).
Proof.
  intros Hts. unfold replace_with_tabs. cbn [negb].
  destruct (mapr_forall2 (tab_line ts RoundUp)
    (fun l o => (~ In cNL l -> ~ In cNL o) /\ forall n body, indented l n body ->
               o = repeat cTAB (Z.to_nat ((Z.of_nat n + ts - 1) / ts)) ++ body) (split_on cNL s)) as (os & E & F).
  { intros l _. destruct (indented_ex l) as (n & body & Hi).
    pose proof (tab_line_round_up ts l n body Hts Hi) as Ho.
    eexists. split; [exact Ho|]. split.
    - intros Hn X. apply in_app_or in X as [X|X]; [apply repeat_spec in X; discriminate|].
      apply Hn. destruct Hi as [-> _]. apply in_or_app. auto.
    - intros n' body' Hi'. pose proof (tab_line_round_up ts l n' body' Hts Hi') as Ho'. congruence. }
  rewrite E. cbn. exists (join [cNL] os). split; auto.
  assert (Forall (fun l => ~ In cNL l) (split_on cNL s)) as Hno.
  { apply Forall_forall. intros l. apply split_on_no. }
  rewrite split_join_lines.
  - clear E Hno. induction F as [|l o ls os' [_ H] F IH]; constructor; auto.
  - intros ->. inversion F. now apply (split_on_nonempty cNL s).
  - clear E. induction F as [|l o ls os' [H _] F IH]; constructor; inversion Hno; subst; auto.
Qed.
Example C12_ex2 : indented ($"     a b") 5 ($"a b") /\
  replace_with_tabs true 4 RoundUp ($"     a b") = Ok ([cTAB; cTAB] ++ $"a b").
Proof. split; [|reflexivity]. split; [reflexivity|]. right. eexists _, _. split; [reflexivity|discriminate]. Qed.

Theorem C12_tabs_off ts pol s : replace_with_tabs false ts pol s = Ok s.
Proof. reflexivity. Qed.

(** ** C13 *)
Definition no_forge (o : fop) : Prop := match o with OpForge _ _ => False | OpAt _ c _ => 0 <= c | _ => True end.

Theorem C13_cursor_tracks endl ops : is_endl endl -> Forall no_forge ops -> forall f f',
  cursor_ok f -> run_ops endl f ops = Ok f' ->
  cursor_ok f' /\ exists suffix, out f' = out f ++ suffix.
Proof.
  intros He HF. induction HF as [|o ops Ho HF IH]; intros f f' Hok H.
  - injection H as <-. split; auto. exists nil. now rewrite app_nil_r.
  - cbn [run_ops] in H. destruct (run_op endl f o) as [f1| |] eqn:E; try discriminate. cbn in H.
    assert (cursor_ok f1 /\ exists x, out f1 = out f ++ x) as [Hok1 [x Hx]].
    { destruct o; simpl in E, Ho; [| |contradiction].
      - destruct (write_at_spec _ _ _ _ _ _ He Hok Ho E) as [A (k & n & B & _)]. split; eauto.
      - injection E as <-. destruct (write_raw_ok f text Hok). split; eauto. }
    destruct (IH _ _ Hok1 H) as [A [y Hy]]. split; auto. exists (x ++ y). rewrite Hy, Hx. now rewrite app_assoc.
Qed.

(** A positioned write fails exactly when the target lies before the cursor;
    otherwise the text lands at row [r], column [c] of the output, after padding
    made of line endings and spaces only. *)
Theorem C13_write_at endl f r c text : is_endl endl -> cursor_ok f -> 0 <= c ->
  (write_at endl f r c text = Err AssertionErr <->
     (r < crow f \/ (r = crow f /\ c < ccol f))) /\
  (forall f', write_at endl f r c text = Ok f' ->
     exists k n, let pad := repeat_s k endl ++ spaces n in
       out f' = out f ++ pad ++ join endl (split_on cNL text) /\
       count_chr cNL (out f ++ pad) = r /\
       zlen (last (split_on cNL (out f ++ pad)) nil) = c).
Proof.
  intros He Hok Hc. split.
  - unfold write_at. destruct (cur_le (crow f) (ccol f) r c) eqn:E; cbn [negb].
    + split.
      * destruct (split_on cNL text); discriminate.
      * unfold cur_le in E. apply orb_prop in E as [E|E].
        -- apply Z.ltb_lt in E. lia.
        -- apply andb_prop in E as [E1 E2]. apply Z.eqb_eq in E1. apply Z.leb_le in E2. lia.
    + split; auto. intros _. unfold cur_le in E. apply orb_false_elim in E as [E1 E2]. apply Z.ltb_ge in E1.
      destruct (Z.eq_dec r (crow f)) as [->|]; [|lia]. rewrite Z.eqb_refl in E2. cbn in E2. apply Z.leb_gt in E2. lia.
  - intros f' H. destruct (write_at_spec _ _ _ _ _ _ He Hok Hc H) as [_ (k & n & A & B & D)]. exists k, n. auto.
Qed.
Example C13_ex :
  run_ops [cCR; cNL] cf_init [OpAt 0 0 ($"foo"); OpAt 1 2 ($"a" ++ [cNL] ++ $"b"); OpRaw ($"x" ++ [cNL] ++ $"yz")]
  = Ok (CF ($"foo" ++ [cCR; cNL] ++ $"  a" ++ [cCR; cNL] ++ $"bx" ++ [cNL] ++ $"yz") 3 2).
Proof. reflexivity. Qed.
