(** * TextProofs: lemmas about TextOps *)
From Verif Require Import Base Regex Lex LexProofs LexClass TextOps.

(** ** Specification of line normalization *)
(** Split at CRLF, LF or CR: the terminated lines and the unterminated rest. *)
Fixpoint ulines (s : str) : list str * str :=
  match s with
  | nil => (nil, nil)
  | c :: s' =>
      if N.eqb c cNL then let '(ls, t) := ulines s' in (nil :: ls, t)
      else if N.eqb c cCR then
        match s' with
        | d :: s'' => if N.eqb d cNL then let '(ls, t) := ulines s'' in (nil :: ls, t)
                      else let '(ls, t) := ulines s' in (nil :: ls, t)
        | nil => ([nil], nil)
        end
      else let '(ls, t) := ulines s' in
           match ls with
           | nil => (nil, c :: t)
           | l :: ls' => ((c :: l) :: ls', t)
           end
  end.
Definition unlines (p : list str * str) : str :=
  List.concat (map (fun l => l ++ [cNL]) (fst p)) ++ snd p.
Definition rstrip_blank := rstrip_by is_blank.
Definition norm_spec (s : str) : str :=
  unlines (map rstrip_blank (fst (ulines s)), snd (ulines s)).

(** ** The regex *)
Definition after_term (s : str) : option str :=
  match s with
  | c :: s' =>
      if N.eqb c cNL then Some s'
      else if N.eqb c cCR then
        match s' with
        | d :: s'' => if N.eqb d cNL then Some s'' else Some s'
        | nil => Some nil
        end
      else None
  | nil => None
  end.

Lemma star_chr_stop p k : forall n x,
  (length (rest x) <= n)%nat ->
  (forall y c s, rest y = c :: s -> p c = true -> k y = None) ->
  exists u, rest x = u ++ lstrip_by p (rest x) /\
  star_loop (m (RChr p)) k n x = k (St (last_or (prev x) u) (lstrip_by p (rest x)) (cap x)).
Proof.
  induction n as [|n IH]; intros [pv s cp] Hl Hk; cbn [rest prev cap] in *.
  - destruct s; [|simpl in Hl; lia]. exists nil. split; reflexivity.
  - destruct s as [|c s].
    + exists nil. split; reflexivity.
    + simpl lstrip_by. cbn [star_loop]. rewrite m_chr. cbn [rest cap]. destruct (p c) eqn:E.
      * assert (Nat.ltb (length s) (length (c :: s)) = true) as ->.
        { apply Nat.ltb_lt. simpl. lia. }
        destruct (IH (St (Some c) s cp)) as (u & Hu & He); auto.
        { cbn [rest]. simpl in Hl. lia. }
        cbn [rest prev cap] in *. rewrite He.
        exists (c :: u). split.
        -- simpl. now rewrite <- Hu.
        -- change (last_or pv (c :: u)) with (last_or (Some c) u).
           destruct (k _) eqn:Ek; auto.
           rewrite (Hk (St pv (c :: s) cp) c s); auto.
      * exists nil. split; reflexivity.
Qed.

Definition eol_re : re :=
  RAlt (RSeq (ROpt (C cCR)) (C cNL)) (RSeq (C cCR) (ROpt (C cNL))).

Lemma eol_re_match x :
  match after_term (rest x) with
  | Some r => exists y, m eol_re x Some = Some y /\ rest y = r
  | None => m eol_re x Some = None
  end.
Proof.
  destruct x as [pv s cp]. cbn [rest]. destruct s as [|c s]; [reflexivity|].
  cbn [after_term]. unfold eol_re, ROpt, C. cbn [m rest cap].
  rewrite (N.eqb_sym cCR c), (N.eqb_sym cNL c).
  destruct (N.eqb c cNL) eqn:E1.
  - assert (N.eqb c cCR = false) as ->. { apply N.eqb_eq in E1. subst. reflexivity. }
    eexists. split; reflexivity.
  - destruct (N.eqb c cCR) eqn:E2; [|reflexivity].
    destruct s as [|d s].
    + eexists; split; reflexivity.
    + rewrite (N.eqb_sym cNL d). destruct (N.eqb d cNL); eexists; split; reflexivity.
Qed.

Lemma is_blank_not_nl c : is_blank c = true -> N.eqb c cNL = false /\ N.eqb c cCR = false.
Proof.
  unfold is_blank. intros H. apply existsb_exists in H as (z & Hz & E). apply N.eqb_eq in E. subst.
  simpl in Hz. repeat (destruct Hz as [<-|Hz]; [split; reflexivity|]). destruct Hz.
Qed.

Lemma newline_re_match pv s :
  match after_term (lstrip_by is_blank s) with
  | Some r => exists y, rmatch newline_re pv s = Some y /\ rest y = r
  | None => rmatch newline_re pv s = None
  end.
Proof.
  unfold rmatch, newline_re. rewrite m_seq.
  change (m (RStar (RChr is_blank)) (St pv s nil) ?k) with
    (star_loop (m (RChr is_blank)) k (length s) (St pv s nil)).
  destruct (star_chr_stop is_blank (fun y => m eol_re y Some) (length s) (St pv s nil)) as (u & _ & E).
  - cbn [rest]. lia.
  - intros y c s0 Hr Hp. pose proof (eol_re_match y) as H. rewrite Hr in H. cbn [after_term] in H.
    destruct (is_blank_not_nl _ Hp) as [H1 H2]. rewrite H1, H2 in H. exact H.
  - cbn [rest prev cap] in E. unfold eol_re in E. rewrite E. fold eol_re.
    pose proof (eol_re_match (St (last_or pv u) (lstrip_by is_blank s) nil)) as H. cbn [rest] in H. exact H.
Qed.

Lemma after_term_len s r : after_term s = Some r -> (length r < length s)%nat.
Proof.
  destruct s as [|c s]; simpl; [discriminate|]. destruct (N.eqb c cNL); [intros H; injection H as ->; lia|].
  destruct (N.eqb c cCR); [|discriminate]. destruct s as [|d s]; [intros H; injection H as <-; simpl; lia|].
  destruct (N.eqb d cNL); intros H; injection H as <-; simpl; lia.
Qed.
Lemma lstrip_by_len p s : (length (lstrip_by p s) <= length s)%nat.
Proof. induction s; simpl; auto. destruct (p a); simpl; lia. Qed.
Lemma lstrip_by_split p s : exists u, s = u ++ lstrip_by p s /\ forallb p u = true.
Proof.
  induction s as [|c s (u & E & F)]; simpl.
  - exists nil. auto.
  - destruct (p c) eqn:Ec.
    + exists (c :: u). simpl. rewrite <- E, Ec, F. auto.
    + exists nil. auto.
Qed.

Lemma after_term_ulines s r : after_term s = Some r ->
  ulines s = (nil :: fst (ulines r), snd (ulines r)).
Proof.
  destruct s as [|c s]; simpl; [discriminate|].
  destruct (N.eqb c cNL).
  { intros H. injection H as ->. destruct (ulines r); reflexivity. }
  destruct (N.eqb c cCR); [|discriminate].
  destruct s as [|d s].
  { intros H. injection H as <-. reflexivity. }
  destruct (N.eqb d cNL); intros H; injection H as <-.
  - destruct (ulines s); reflexivity.
  - destruct (ulines (d :: s)); reflexivity.
Qed.

Lemma blank_term_ulines u : forall s r, forallb is_blank u = true -> after_term s = Some r ->
  ulines (u ++ s) = (u :: fst (ulines r), snd (ulines r)).
Proof.
  induction u as [|c u IH]; intros s r Hb Ha.
  - simpl. now apply after_term_ulines.
  - simpl in Hb. apply andb_prop in Hb as [Hc Hb]. destruct (is_blank_not_nl _ Hc) as [H1 H2].
    simpl. rewrite H1, H2. rewrite (IH s r Hb Ha). reflexivity.
Qed.

Lemma lstrip_all p u : forallb p u = true -> lstrip_by p u = nil.
Proof. induction u; simpl; auto. intros H. apply andb_prop in H as [-> H]. auto. Qed.
Lemma forallb_rev {A} (p : A -> bool) u : forallb p (rev u) = forallb p u.
Proof.
  induction u; simpl; auto. rewrite forallb_app. simpl. rewrite IHu, andb_true_r, andb_comm. reflexivity.
Qed.
Lemma rstrip_all p u : forallb p u = true -> rstrip_by p u = nil.
Proof. intros H. unfold rstrip_by. rewrite lstrip_all; auto. now rewrite forallb_rev. Qed.

Lemma lstrip_app p a b : lstrip_by p (a ++ b) =
  if forallb p a then lstrip_by p b else lstrip_by p a ++ b.
Proof. induction a; simpl; auto. destruct (p a); simpl; auto. Qed.

Lemma rstrip_cons p c l : rstrip_by p (c :: l) =
  if p c && forallb p l then nil else c :: rstrip_by p l.
Proof.
  unfold rstrip_by. simpl. rewrite lstrip_app, forallb_rev. simpl.
  destruct (forallb p l) eqn:E; simpl.
  - rewrite andb_true_r. destruct (p c); simpl; auto.
    rewrite lstrip_all; [reflexivity|now rewrite forallb_rev].
  - rewrite andb_false_r. rewrite rev_app_distr. reflexivity.
Qed.

(** If the first terminated line is all blanks, a terminator follows the blanks. *)
Lemma ulines_first_blank s l ls t : ulines s = (l :: ls, t) -> forallb is_blank l = true ->
  exists r, after_term (lstrip_by is_blank s) = Some r.
Proof.
  revert l ls t. induction s as [|c s IH]; intros l ls t H Hb; [discriminate|].
  simpl in H. simpl lstrip_by.
  destruct (is_blank c) eqn:Eb.
  - destruct (is_blank_not_nl _ Eb) as [H1 H2]. rewrite H1, H2 in H.
    destruct (ulines s) as [ls0 t0] eqn:E. destruct ls0 as [|l0 ls0]; [discriminate|].
    injection H as <- <- <-. simpl in Hb. apply andb_prop in Hb as [_ Hb]. eapply IH; eauto.
  - destruct (N.eqb c cNL) eqn:E1; [simpl; rewrite E1; eauto|].
    destruct (N.eqb c cCR) eqn:E2.
    + simpl. rewrite E1, E2. destruct s as [|d s]; eauto. destruct (N.eqb d cNL); eauto.
    + destruct (ulines s) as [ls0 t0]. destruct ls0 as [|l0 ls0]; [discriminate|].
      injection H as <- <- <-. simpl in Hb. rewrite Eb in Hb. discriminate.
Qed.

Lemma re_sub_norm fuel : forall pv s, (length s <= fuel)%nat ->
  re_sub newline_re [cNL] fuel pv s = norm_spec s.
Proof.
  induction fuel as [|f IH]; intros pv s Hl.
  - destruct s; simpl in Hl; [reflexivity|lia].
  - destruct s as [|c s]; [reflexivity|]. cbn [re_sub].
    pose proof (newline_re_match pv (c :: s)) as HM.
    destruct (lstrip_by_split is_blank (c :: s)) as (u & Eu & Fu).
    destruct (after_term (lstrip_by is_blank (c :: s))) as [r|] eqn:Ea.
    + destruct HM as (y & -> & Hy). rewrite Hy.
      pose proof (after_term_len _ _ Ea). pose proof (lstrip_by_len is_blank (c :: s)).
      rewrite IH by (simpl in *; lia).
      unfold norm_spec at 2. rewrite Eu at 1 2. rewrite (blank_term_ulines _ _ _ Fu Ea).
      unfold unlines. cbn [fst snd map].
      assert (rstrip_blank u = nil) as -> by (now apply rstrip_all). reflexivity.
    + rewrite HM. rewrite IH by (simpl in *; lia).
      assert (N.eqb c cNL = false /\ N.eqb c cCR = false) as [H1 H2].
      { destruct (is_blank c) eqn:Eb; [now apply is_blank_not_nl|]. simpl lstrip_by in Ea. rewrite Eb in Ea.
        cbn [after_term] in Ea. destruct (N.eqb c cNL); [discriminate|]. split; auto.
        destruct (N.eqb c cCR); auto. destruct s as [|d s]; [discriminate|]. destruct (N.eqb d cNL); discriminate. }
      unfold norm_spec. cbn [ulines]. rewrite H1, H2. destruct (ulines s) as [ls t] eqn:E.
      destruct ls as [|l ls]; [reflexivity|]. unfold unlines. cbn [fst snd map].
      assert (rstrip_blank (c :: l) = if is_blank c && forallb is_blank l then nil else c :: rstrip_blank l)
        as -> by apply rstrip_cons.
      destruct (is_blank c && forallb is_blank l) eqn:Eb; [|reflexivity].
      apply andb_prop in Eb as [Eb1 Eb2]. destruct (ulines_first_blank _ _ _ _ E Eb2) as (r & Hr).
      simpl lstrip_by in Ea. rewrite Eb1 in Ea. congruence.
Qed.

Lemma normalize_spec s : normalize s = norm_spec s.
Proof. apply re_sub_norm. lia. Qed.

(** ulines are free of terminators *)
Definition noeol (l : str) := ~ In cNL l /\ ~ In cCR l.
Lemma ulines_noeol s : Forall noeol (fst (ulines s)) /\ noeol (snd (ulines s)).
Proof.
  assert (forall n s, (length s <= n)%nat -> Forall noeol (fst (ulines s)) /\ noeol (snd (ulines s))) as G.
  { induction n as [|n IH]; intros t Hl.
    - destruct t; simpl in Hl; [|lia]. simpl. repeat split; auto.
    - destruct t as [|c t]; [simpl; repeat split; auto|]. simpl in Hl. simpl.
      assert (noeol nil) as Hnil by (split; auto).
      destruct (N.eqb c cNL) eqn:E1.
      { specialize (IH t ltac:(lia)). destruct (ulines t). simpl in *. split; [constructor|]; tauto. }
      destruct (N.eqb c cCR) eqn:E2.
      { destruct t as [|d t]; [simpl; split; auto|].
        destruct (N.eqb d cNL).
        - specialize (IH t ltac:(simpl in *; lia)). destruct (ulines t). simpl in *. split; [constructor|]; tauto.
        - specialize (IH (d :: t) ltac:(simpl in *; lia)). destruct (ulines (d :: t)). simpl in *. split; [constructor|]; tauto. }
      specialize (IH t ltac:(lia)). destruct (ulines t) as [[|l ls] tl]; simpl in *; destruct IH as [F [G1 G2]].
      + split; auto. apply N.eqb_neq in E1, E2. split; intros [H|H]; auto.
      + inversion F as [|? ? [A B] F2]; subst. apply N.eqb_neq in E1, E2. split; [|split; auto].
        constructor; auto. split; intros [H|H]; auto. }
  apply (G (length s)). lia.
Qed.

Lemma ulines_unlines ls t : Forall noeol ls -> noeol t -> ulines (unlines (ls, t)) = (ls, t).
Proof.
  unfold unlines. cbn [fst snd]. intros F Ht. induction F as [|l ls Hl F IH].
  - simpl. destruct Ht as [T1 T2]. induction t as [|c t IHt]; simpl; auto.
    assert (N.eqb c cNL = false) as ->. { apply N.eqb_neq. intros ->. apply T1. now left. }
    assert (N.eqb c cCR = false) as ->. { apply N.eqb_neq. intros ->. apply T2. now left. }
    rewrite IHt; auto; intros H; [apply T1|apply T2]; now right.
  - simpl. rewrite <- !app_assoc. cbn [app]. destruct Hl as [L1 L2]. induction l as [|c l IHl].
    + simpl. rewrite IH. reflexivity.
    + simpl. assert (N.eqb c cNL = false) as ->. { apply N.eqb_neq. intros ->. apply L1. now left. }
      assert (N.eqb c cCR = false) as ->. { apply N.eqb_neq. intros ->. apply L2. now left. }
      rewrite IHl; auto; intros H; [apply L1|apply L2]; now right.
Qed.

Lemma rstrip_incl p l c : In c (rstrip_by p l) -> In c l.
Proof.
  induction l as [|x l IH]; simpl; auto. rewrite rstrip_cons. destruct (_ && _); simpl; tauto.
Qed.
Lemma rstrip_noeol l : noeol l -> noeol (rstrip_blank l).
Proof. intros [A B]. split; intros H; apply rstrip_incl in H; auto. Qed.
Lemma rstrip_idem p l : rstrip_by p (rstrip_by p l) = rstrip_by p l.
Proof.
  induction l as [|x l IH]; auto. rewrite (rstrip_cons p x l).
  destruct (p x && forallb p l) eqn:E; [reflexivity|].
  rewrite rstrip_cons, IH. destruct (p x && forallb p (rstrip_by p l)) eqn:E2; auto.
  apply andb_prop in E2 as [E2 E3]. rewrite E2 in E. simpl in E.
  assert (forall l, forallb p (rstrip_by p l) = true -> forallb p l = true) as G.
  { clear. induction l as [|y l IH]; auto. rewrite rstrip_cons. simpl.
    destruct (p y && forallb p l) eqn:E; auto. simpl. intros H. apply andb_prop in H as [H1 H2].
    rewrite H1, (IH H2) in E. discriminate. }
  apply G in E3. congruence.
Qed.
Lemma rstrip_last p l x l' : rstrip_by p l = l' ++ [x] -> p x = false.
Proof.
  revert l'. induction l as [|y l IH]; intros l'.
  - destruct l'; discriminate.
  - rewrite rstrip_cons. destruct (p y && forallb p l) eqn:E; [destruct l'; discriminate|].
    intros H. destruct l' as [|z l'].
    + injection H as -> H. destruct (p x) eqn:Ex; auto. simpl in E.
      assert (rstrip_by p l = nil -> forallb p l = true) as G.
      { clear. induction l as [|y l IH]; auto. rewrite rstrip_cons. simpl.
        destruct (p y && forallb p l); auto. discriminate. }
      rewrite G in E; auto. 
    + injection H as -> H. eapply IH; eauto.
Qed.

Lemma split_unlines ls t : Forall noeol ls -> noeol t ->
  split_on cNL (unlines (ls, t)) = ls ++ [t].
Proof.
  unfold unlines. cbn [fst snd]. intros F Ht. induction F as [|l ls Hl F IH].
  - simpl. destruct Ht as [T1 _]. induction t as [|c t IHt]; simpl; auto.
    rewrite IHt by (intros H; apply T1; now right).
    assert (N.eqb c cNL = false) as ->; auto. apply N.eqb_neq. intros ->. apply T1. now left.
  - simpl. rewrite <- !app_assoc. cbn [app]. destruct Hl as [L1 _]. induction l as [|c l IHl].
    + simpl. rewrite IH. destruct (ls ++ [t]) eqn:E; [destruct ls; discriminate|]. reflexivity.
    + simpl. rewrite IHl by (intros H; apply L1; now right).
      assert (N.eqb c cNL = false) as ->; auto. apply N.eqb_neq. intros ->. apply L1. now left.
Qed.

(** ** CursorFile *)
Definition is_endl (e : str) := e = [cNL] \/ e = [cCR; cNL].
Definition cursor_ok (f : cfile) : Prop :=
  crow f = count_chr cNL (out f) /\ ccol f = col_of (out f).

Lemma count_nl_endl e : is_endl e -> count_chr cNL e = 1.
Proof. intros [->| ->]; reflexivity. Qed.
Lemma in_nl_endl e : is_endl e -> In cNL e.
Proof. intros [->| ->]; simpl; auto. Qed.
Lemma count_nl_repeat e n : is_endl e -> count_chr cNL (repeat_s n e) = Z.of_nat n.
Proof.
  intros He. induction n; [reflexivity|]. simpl. rewrite count_chr_app, IHn, (count_nl_endl _ He). lia.
Qed.
Lemma count_nl_spaces n : count_chr cNL (spaces n) = 0.
Proof. apply count_chr_zero. unfold spaces. intros H. apply repeat_spec in H. discriminate. Qed.
Lemma col_of_app_in a b : In cNL b -> col_of (a ++ b) = col_of b.
Proof. intros H. unfold col_of. now rewrite split_on_app_last2. Qed.
Lemma col_of_app_out a b : ~ In cNL b -> col_of (a ++ b) = col_of a + zlen b.
Proof. intros H. unfold col_of. rewrite split_on_app_last by auto. apply zlen_app. Qed.
Lemma col_of_endl e : is_endl e -> col_of e = 0.
Proof. intros [->| ->]; reflexivity. Qed.
Lemma col_of_repeat a e n : is_endl e -> (0 < n)%nat -> col_of (a ++ repeat_s n e) = 0.
Proof.
  intros He Hn. assert (repeat_s n e = repeat_s (n - 1) e ++ e) as ->.
  { destruct n; [lia|]. replace (S n - 1)%nat with n by lia. clear. induction n; simpl.
    - now rewrite app_nil_r.
    - simpl in IHn. rewrite IHn at 1. now rewrite app_assoc. }
  rewrite app_assoc, col_of_app_in by (now apply in_nl_endl). now apply col_of_endl.
Qed.
Lemma spaces_no_nl n : ~ In cNL (spaces n).
Proof. unfold spaces. intros H. apply repeat_spec in H. discriminate. Qed.
Lemma zlen_spaces n : 0 <= n -> zlen (spaces n) = n.
Proof. intros H. unfold zlen, spaces. rewrite repeat_length. lia. Qed.

(** The text [write_at] emits for a piece: newlines become the configured ending. *)
Definition with_endl (endl : str) (text : str) : str := join endl (split_on cNL text).

Lemma put_lines_spec endl ls : forall f, is_endl endl ->
  Forall (fun l => ~ In cNL l) ls -> cursor_ok f ->
  cursor_ok (put_lines endl f ls) /\
  out (put_lines endl f ls) = out f ++ List.concat (map (fun l => endl ++ l) ls).
Proof.
  induction ls as [|l ls IH]; intros f He HF Hok; cbn [put_lines].
  - split; auto. simpl. now rewrite app_nil_r.
  - inversion HF as [|? ? Hl HF2]; subst.
    assert (cursor_ok (CF (out f ++ endl ++ l) (crow f + 1) (zlen l))) as Hok1.
    { destruct Hok as [H1 H2]. split; cbn [crow ccol out].
      - rewrite !count_chr_app, (count_nl_endl _ He), H1.
        assert (count_chr cNL l = 0) as -> by (now apply count_chr_zero). lia.
      - rewrite app_assoc, col_of_app_out by auto. rewrite col_of_app_in by (now apply in_nl_endl).
        rewrite (col_of_endl _ He). lia. }
    destruct (IH _ He HF2 Hok1) as [A B]. split; auto.
    rewrite B. cbn [out]. simpl. now rewrite <- !app_assoc.
Qed.

Lemma join_cons_concat sep l ls : join sep (l :: ls) = l ++ List.concat (map (fun x => sep ++ x) ls).
Proof.
  revert l. induction ls as [|x ls IH]; intros l.
  - simpl. now rewrite app_nil_r.
  - change (join sep (l :: x :: ls)) with (l ++ sep ++ join sep (x :: ls)). rewrite IH. simpl.
    now rewrite <- app_assoc.
Qed.

Lemma write_at_spec endl f r c text f' : is_endl endl -> cursor_ok f -> 0 <= c ->
  write_at endl f r c text = Ok f' ->
  cursor_ok f' /\ exists k n,
    let pad := repeat_s k endl ++ spaces n in
    out f' = out f ++ pad ++ with_endl endl text /\
    count_chr cNL (out f ++ pad) = r /\ col_of (out f ++ pad) = c.
Proof.
  intros He Hok Hc H. unfold write_at in H.
  destruct (cur_le (crow f) (ccol f) r c) eqn:Ele; [|discriminate]. cbn [negb] in H.
  unfold cur_le in Ele.
  set (f1 := if r - crow f =? 0 then f else
     CF (out f ++ repeat_s (Z.to_nat (r - crow f)) endl) (crow f + (r - crow f)) 0) in *.
  destruct Hok as [Hr0 Hc0].
  pose proof (zlen_nonneg (last (split_on cNL (out f)) nil)) as Hnn.
  assert (exists k, cursor_ok f1 /\ out f1 = out f ++ repeat_s k endl /\ crow f1 = r /\ ccol f1 <= c) as (k & Hok1 & Ho1 & Hr1 & Hc1).
  { unfold f1. destruct (r - crow f =? 0) eqn:E.
    - apply Z.eqb_eq in E. exists O. simpl. rewrite app_nil_r. 
      assert (ccol f <= c).
      { apply orb_prop in Ele as [Ele|Ele]; [apply Z.ltb_lt in Ele; lia|]. apply andb_prop in Ele as [_ Ele]. now apply Z.leb_le. }
      repeat split; auto; lia.
    - apply Z.eqb_neq in E. assert (0 < r - crow f).
      { apply orb_prop in Ele as [Ele|Ele]; [apply Z.ltb_lt in Ele; lia|]. apply andb_prop in Ele as [Ele _].
        apply Z.eqb_eq in Ele. lia. }
      exists (Z.to_nat (r - crow f)). cbn [out crow ccol]. split; [|repeat split; lia]. split.
      + cbn [out crow]. rewrite count_chr_app, (count_nl_repeat _ _ He). lia.
      + cbn [out ccol]. rewrite col_of_repeat; auto. lia. }
  set (f2 := if c - ccol f1 =? 0 then f1 else
     CF (out f1 ++ spaces (c - ccol f1)) (crow f1) (ccol f1 + (c - ccol f1))) in *.
  assert (exists n, cursor_ok f2 /\ out f2 = out f1 ++ spaces n /\ crow f2 = r /\ ccol f2 = c) as (n & Hok2 & Ho2 & Hr2 & Hc2).
  { unfold f2. destruct (c - ccol f1 =? 0) eqn:E.
    - apply Z.eqb_eq in E. exists 0. change (spaces 0) with (@nil chr). rewrite app_nil_r.
      repeat split; try apply Hok1; auto; lia.
    - exists (c - ccol f1). cbn [out crow ccol]. destruct Hok1 as [A B]. split; [|repeat split; auto; lia]. split.
      + cbn [out crow]. rewrite count_chr_app, count_nl_spaces. lia.
      + cbn [out ccol]. rewrite col_of_app_out by apply spaces_no_nl. rewrite zlen_spaces by lia. lia. }
  destruct (split_on cNL text) as [|l ls] eqn:Es; [now apply split_on_nonempty in Es|].
  injection H as <-.
  assert (Forall (fun l => ~ In cNL l) (l :: ls)) as Hno.
  { apply Forall_forall. intros x Hx. rewrite <- Es in Hx. eapply split_on_no; eauto. }
  pose proof (Forall_inv Hno) as Hl. pose proof (Forall_inv_tail Hno) as Hls. cbn beta in Hl.
  assert (cursor_ok (CF (out f2 ++ l) (crow f2) (ccol f2 + zlen l))) as Hok3.
  { destruct Hok2 as [A B]. split; cbn [out crow ccol].
    - rewrite count_chr_app. assert (count_chr cNL l = 0) as -> by (now apply count_chr_zero). lia.
    - rewrite col_of_app_out by auto. lia. }
  destruct (put_lines_spec endl ls _ He Hls Hok3) as [A B]. split; auto.
  exists k, n. cbn zeta. rewrite B. cbn [out].
  unfold with_endl. rewrite Es, join_cons_concat.
  destruct Hok2 as [C1 C2]. repeat split.
  - rewrite Ho2, Ho1. now rewrite <- !app_assoc.
  - rewrite app_assoc, <- Ho1, <- Ho2. lia.
  - rewrite app_assoc, <- Ho1, <- Ho2. lia.
Qed.

Lemma write_raw_ok f t : cursor_ok f -> cursor_ok (write_raw f t) /\ out (write_raw f t) = out f ++ t.
Proof.
  intros [H1 H2]. unfold write_raw. destruct (count_chr cNL t =? 0) eqn:E.
  - apply Z.eqb_eq in E. split; auto. split; cbn [out crow ccol].
    + rewrite count_chr_app. lia.
    + rewrite col_of_app_out by (now apply count_chr_zero). lia.
  - apply Z.eqb_neq in E. split; auto. split; cbn [out crow ccol].
    + rewrite count_chr_app. lia.
    + rewrite col_of_app_in; [reflexivity|].
      destruct (in_dec N.eq_dec cNL t) as [|n]; auto. apply count_chr_zero in n. contradiction.
Qed.

(** ** Tabs *)
Fixpoint expand (ts col : Z) (s : str) : str :=
  match s with
  | nil => nil
  | c :: s' => if N.eqb c cTAB
               then spaces (ts - col mod ts) ++ expand ts (col + (ts - col mod ts)) s'
               else c :: expand ts (col + 1) s'
  end.

Lemma first_nonspace_spec s : forall i, 0 <= i ->
  (forallb (N.eqb cSP) s = true /\ first_nonspace i s = 0) \/
  (exists n body, s = repeat cSP n ++ body /\ (exists c b, body = c :: b /\ c <> cSP) /\
     first_nonspace i s = i + Z.of_nat n).
Proof.
  induction s as [|c s IH]; intros i Hi; cbn [first_nonspace]; auto.
  destruct (N.eqb c cSP) eqn:E.
  - destruct (IH (i + 1) ltac:(lia)) as [[F G]|(n & body & E1 & Hb & E2)].
    + left. split; auto. change ((N.eqb cSP c && forallb (N.eqb cSP) s) = true). rewrite N.eqb_sym, E. auto.
    + right. exists (S n), body. apply N.eqb_eq in E. subst. split; [reflexivity|]. split; auto. rewrite E2. lia.
  - right. exists O, (c :: s). split; auto. split; [|lia]. exists c, s. split; auto. now apply N.eqb_neq.
Qed.

Lemma expand_spaces ts col n s : expand ts col (repeat cSP n ++ s) = repeat cSP n ++ expand ts (col + Z.of_nat n) s.
Proof.
  revert col. induction n as [|n IH]; intros col; simpl.
  - f_equal. lia.
  - rewrite IH. f_equal. f_equal. f_equal. lia.
Qed.
Lemma repeat_add {A} (x : A) a b : repeat x (a + b) = repeat x a ++ repeat x b.
Proof. induction a; simpl; congruence. Qed.
Lemma expand_tabs ts k n s : 0 < ts ->
  expand ts (Z.of_nat k * ts) (repeat cTAB n ++ s) =
  repeat cSP (n * Z.to_nat ts) ++ expand ts (Z.of_nat (k + n) * ts) s.
Proof.
  intros Hts. revert k. induction n as [|n IH]; intros k.
  - cbn [repeat app Nat.mul]. f_equal. lia.
  - cbn [repeat app expand]. rewrite N.eqb_refl.
    rewrite Z_mod_mult, Z.sub_0_r.
    replace (Z.of_nat k * ts + ts) with (Z.of_nat (S k) * ts) by lia.
    rewrite IH. cbn [Nat.mul]. rewrite repeat_add, <- app_assoc. unfold spaces. f_equal. f_equal.
    f_equal. lia.
Qed.

Lemma tab_line_use_space ts l : 0 < ts ->
  exists o, tab_line ts UseSpace l = Ok o /\ expand ts 0 o = expand ts 0 l.
Proof.
  intros Hts. unfold tab_line, count_indentation.
  assert (ts =? 0 = false) as -> by (apply Z.eqb_neq; lia).
  destruct (first_nonspace_spec l 0 ltac:(lia)) as [[F ->]|(n & body & -> & Hb & ->)].
  - rewrite Z.div_0_l, Z.mod_0_l by lia. eexists. split; reflexivity.
  - rewrite Z.add_0_l, Nat2Z.id.
    assert (skipn n (repeat cSP n ++ body) = body) as ->.
    { rewrite skipn_app, repeat_length, Nat.sub_diag. rewrite skipn_all2; [reflexivity|]. now rewrite repeat_length. }
    pose proof (Z.div_mod (Z.of_nat n) ts ltac:(lia)) as HD.
    pose proof (Z.mod_pos_bound (Z.of_nat n) ts Hts) as HM.
    assert (0 <= Z.of_nat n / ts) as HQ by (apply Z.div_pos; lia).
    set (q := Z.to_nat (Z.of_nat n / ts)) in *. set (f := Z.of_nat n mod ts) in *.
    assert (Z.of_nat n = Z.of_nat q * ts + f) as HE by (unfold q; lia).
    assert ((q * Z.to_nat ts + Z.to_nat f)%nat = n) as HN by nia.
    assert (forall s, expand ts 0 (repeat cTAB q ++ s) = repeat cSP (q * Z.to_nat ts) ++ expand ts (Z.of_nat q * ts) s) as HT.
    { intros s. pose proof (expand_tabs ts 0 q s Hts) as H. rewrite Nat.add_0_l in H. exact H. }
    assert (expand ts 0 (repeat cSP n ++ body) =
      repeat cSP (q * Z.to_nat ts) ++ repeat cSP (Z.to_nat f) ++ expand ts (Z.of_nat n) body) as HR.
    { rewrite expand_spaces, Z.add_0_l. rewrite <- HN at 1. rewrite repeat_add. now rewrite <- app_assoc. }
    destruct (f =? 0) eqn:Ef.
    + apply Z.eqb_eq in Ef. eexists. split; [reflexivity|]. rewrite HR, HT, Ef. simpl. do 2 f_equal. lia.
    + eexists. split; [reflexivity|]. rewrite HR, HT, expand_spaces. do 3 f_equal. lia.
Qed.

(** Indentation and body of a line as the tab policy sees it: leading spaces, or
    nothing when the line consists of spaces only. *)
Definition indented (l : str) (n : nat) (body : str) : Prop :=
  l = repeat cSP n ++ body /\
  ((n = O /\ forallb (N.eqb cSP) l = true) \/ exists c b, body = c :: b /\ c <> cSP).

Lemma indented_ex l : exists n body, indented l n body.
Proof.
  destruct (first_nonspace_spec l 0 ltac:(lia)) as [[F _]|(n & body & E & Hb & _)].
  - exists O, l. split; auto.
  - exists n, body. split; auto.
Qed.

Lemma tab_line_round_up ts l n body : 0 < ts -> indented l n body ->
  tab_line ts RoundUp l = Ok (repeat cTAB (Z.to_nat ((Z.of_nat n + ts - 1) / ts)) ++ body).
Proof.
  intros Hts [E Hi]. unfold tab_line, count_indentation.
  assert (ts =? 0 = false) as -> by (apply Z.eqb_neq; lia).
  assert (first_nonspace 0 l = Z.of_nat n /\ skipn n l = body) as [-> Hsk].
  { destruct (first_nonspace_spec l 0 ltac:(lia)) as [[F ->]|(n' & body' & E' & (c' & b' & Eb' & Hc') & ->)].
    - destruct Hi as [[-> _]|(c & b & -> & Hc)].
      + simpl in E. subst. split; reflexivity.
      + exfalso. rewrite forallb_forall in F. apply Hc. symmetry. apply N.eqb_eq, F. rewrite E. apply in_or_app. right. now left.
    - assert (n = n' /\ body = body') as [-> ->].
      { destruct Hi as [[-> F]|(c & b & -> & Hc)].
        - exfalso. rewrite forallb_forall in F. apply Hc'. symmetry. apply N.eqb_eq, F. rewrite E', Eb'. apply in_or_app. right. now left.
        - clear -E E' Eb' Hc Hc'. subst body'. rewrite E in E'. clear E. revert n' E'. induction n as [|n IH]; intros [|n'] E; simpl in E.
          + auto.
          + injection E as E1 E2. congruence.
          + injection E as E1 E2. congruence.
          + injection E as E. apply IH in E as [-> ->]. auto. }
      split; [lia|]. rewrite E, skipn_app, repeat_length, Nat.sub_diag, skipn_all2; [reflexivity|]. now rewrite repeat_length. }
  rewrite Nat2Z.id, Hsk.
  pose proof (Z.div_mod (Z.of_nat n) ts ltac:(lia)) as HD.
  pose proof (Z.mod_pos_bound (Z.of_nat n) ts Hts) as HM.
  destruct (Z.of_nat n mod ts =? 0) eqn:Ef.
  - apply Z.eqb_eq in Ef. f_equal. f_equal. f_equal. f_equal.
    apply Z.div_unique with (r := ts - 1); lia.
  - apply Z.eqb_neq in Ef. f_equal.
    assert ((Z.of_nat n + ts - 1) / ts = Z.of_nat n / ts + 1) as ->.
    { symmetry. apply Z.div_unique with (r := Z.of_nat n mod ts - 1); lia. }
    assert (0 <= Z.of_nat n / ts) by (apply Z.div_pos; lia).
    rewrite Z2Nat.inj_add by lia. rewrite repeat_add, <- app_assoc. reflexivity.
Qed.

Lemma split_join_lines ls : ls <> nil -> Forall (fun l => ~ In cNL l) ls ->
  split_on cNL (join [cNL] ls) = ls.
Proof.
  intros Hne HF. induction HF as [|l ls Hl HF IH]; [congruence|].
  assert (forall l, ~ In cNL l -> split_on cNL l = [l]) as Hone.
  { clear. induction l as [|c l IH]; simpl; auto. intros H. rewrite IH by (intros X; apply H; now right).
    assert (N.eqb c cNL = false) as ->; auto. apply N.eqb_neq. intros ->. apply H. now left. }
  destruct ls as [|l2 ls].
  - simpl. now apply Hone.
  - change (join [cNL] (l :: l2 :: ls)) with (l ++ [cNL] ++ join [cNL] (l2 :: ls)).
    rewrite <- (IH ltac:(discriminate)) at 2. generalize (join [cNL] (l2 :: ls)) as w. intros w.
    clear -Hl. cbn [app]. induction l as [|c l IH]; simpl.
    + destruct (split_on cNL _) eqn:E; [now apply split_on_nonempty in E|reflexivity].
    + rewrite IH by (intros X; apply Hl; now right).
      assert (N.eqb c cNL = false) as ->; auto. apply N.eqb_neq. intros ->. apply Hl. now left.
Qed.

Lemma mapr_forall2 {A B} (f : A -> res B) (P : A -> B -> Prop) l :
  (forall a, In a l -> exists b, f a = Ok b /\ P a b) ->
  exists bs, mapr f l = Ok bs /\ Forall2 P l bs.
Proof.
  induction l as [|a l IH]; intros H.
  - exists nil. split; constructor.
  - destruct (H a (or_introl eq_refl)) as (b & Eb & Pb).
    destruct IH as (bs & Ebs & Pbs); [intros; apply H; now right|].
    exists (b :: bs). simpl. rewrite Eb. simpl. rewrite Ebs. simpl. split; auto.
Qed.
