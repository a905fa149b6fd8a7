(** * MarkupProofs: facts about comment wrapping *)
From Verif Require Import Base Regex Lex TextOps TextProofs Tree Layout Markup.

(** ** Specification: the words of a text *)
(** maximal runs of non-blank characters; [cur] is the word being read *)
Fixpoint wd (cur : str) (s : str) : list str :=
  match s with
  | nil => match cur with nil => nil | _ => [cur] end
  | c :: s' => if is_uspace c
               then match cur with nil => nil | _ => [cur] end ++ wd nil s'
               else wd (cur ++ [c]) s'
  end.
Definition words (s : str) : list str := wd nil s.

Lemma wd_blank cur c s : is_uspace c = true -> wd cur (c :: s) = wd cur nil ++ words s.
Proof. intros H. cbn [wd]. now rewrite H. Qed.
Lemma wd_app_blank a : forall cur c s, is_uspace c = true ->
  wd cur (a ++ c :: s) = wd cur a ++ words s.
Proof.
  induction a as [|x a IH]; intros cur c s H; simpl app.
  - now apply wd_blank.
  - cbn [wd]. destruct (is_uspace x); [|auto]. now rewrite IH, app_assoc.
Qed.
Lemma words_app_blank a c s : is_uspace c = true -> words (a ++ c :: s) = words a ++ words s.
Proof. apply wd_app_blank. Qed.
Lemma words_cons_blank c s : is_uspace c = true -> words (c :: s) = words s.
Proof. apply (words_app_blank nil). Qed.
Lemma words_blank s : forallb is_uspace s = true -> words s = nil.
Proof.
  induction s as [|c s IH]; simpl; intros H; [reflexivity|]. apply andb_prop in H as [H1 H2].
  rewrite words_cons_blank; auto.
Qed.
Lemma words_blanks_app a s : forallb is_uspace a = true -> words (a ++ s) = words s.
Proof.
  induction a as [|c a IH]; simpl; intros H; [reflexivity|]. apply andb_prop in H as [H1 H2].
  rewrite words_cons_blank; auto.
Qed.
Lemma words_app_blanks a s : forallb is_uspace a = true -> words (s ++ a) = words s.
Proof.
  destruct a as [|c a]; simpl; intros H; [now rewrite app_nil_r|]. apply andb_prop in H as [H1 H2].
  rewrite words_app_blank, (words_blank a), app_nil_r; auto.
Qed.
(** two texts with a blank at the seam *)
Definition starts_blank (s : str) : bool := match s with c :: _ => is_uspace c | nil => true end.
Definition ends_blank (s : str) : bool := match rev s with c :: _ => is_uspace c | nil => true end.
Lemma words_app_l a s : starts_blank s = true -> words (a ++ s) = words a ++ words s.
Proof.
  destruct s as [|c s]; intros H.
  - change (words nil) with (@nil str). now rewrite !app_nil_r.
  - simpl in H. now rewrite words_app_blank, words_cons_blank.
Qed.
Lemma words_app_r a s : ends_blank a = true -> words (a ++ s) = words a ++ words s.
Proof.
  unfold ends_blank. destruct (rev a) as [|c r] eqn:E.
  - intros _. assert (a = nil) as -> by (rewrite <- (rev_involutive a), E; reflexivity). reflexivity.
  - intros H. assert (a = rev r ++ [c]) as -> by (rewrite <- (rev_involutive a), E; reflexivity).
    rewrite <- app_assoc. cbn [app]. rewrite !words_app_blank by auto. now rewrite app_nil_r.
Qed.
Lemma words_join ls : words (join [cNL] ls) = flat_map words ls.
Proof.
  induction ls as [|l ls IH]; [reflexivity|]. destruct ls as [|m ls].
  - simpl. now rewrite app_nil_r.
  - change (join [cNL] (l :: m :: ls)) with (l ++ cNL :: join [cNL] (m :: ls)).
    rewrite words_app_blank by reflexivity. now rewrite IH.
Qed.

Lemma lstrip_by_app p s : exists a, s = a ++ lstrip_by p s /\ forallb p a = true.
Proof.
  induction s as [|c s IH]; simpl; [now exists nil|]. destruct (p c) eqn:E; [|now exists nil].
  destruct IH as (a & H1 & H2). exists (c :: a). simpl. rewrite <- H1, E. auto.
Qed.
Lemma rstrip_by_app p s : exists a, s = rstrip_by p s ++ a /\ forallb p a = true.
Proof.
  unfold rstrip_by. destruct (lstrip_by_app p (rev s)) as (a & H1 & H2). exists (rev a). split.
  - rewrite <- rev_app_distr, <- H1. now rewrite rev_involutive.
  - rewrite forallb_forall in *. intros x Hx. apply H2. now apply in_rev.
Qed.
Lemma words_lstrip s : words (lstrip s) = words s.
Proof.
  destruct (lstrip_by_app is_uspace s) as (a & H1 & H2). rewrite H1 at 2. unfold lstrip.
  now rewrite words_blanks_app.
Qed.
Lemma words_rstrip s : words (rstrip s) = words s.
Proof.
  destruct (rstrip_by_app is_uspace s) as (a & H1 & H2). rewrite H1 at 2. unfold rstrip.
  now rewrite words_app_blanks.
Qed.
Lemma words_strip s : words (strip s) = words s.
Proof. unfold strip, strip_by. change (words (rstrip (lstrip s)) = words s). now rewrite words_rstrip, words_lstrip. Qed.

(** ** [munge] only changes blanks *)
Lemma aspace_uspace c : is_aspace c = true -> is_uspace c = true.
Proof.
  unfold is_aspace, is_uspace. rewrite !existsb_exists. intros (x & H & E). exists x. split; [|exact E].
  simpl in *. tauto.
Qed.
Lemma blank_to_space_uspace c : is_uspace (blank_to_space c) = is_uspace c.
Proof.
  unfold blank_to_space. destruct (is_aspace c) eqn:E; [|reflexivity].
  rewrite (aspace_uspace _ E). reflexivity.
Qed.
Lemma wd_repeat_sp n s : (0 < n)%nat -> forall cur, wd cur (repeat cSP n ++ s) = wd cur nil ++ words s.
Proof.
  destruct n as [|n]; [lia|]. intros _ cur. simpl repeat. cbn [app]. rewrite wd_blank by reflexivity. f_equal.
  apply words_blanks_app. induction n; simpl; auto.
Qed.
Lemma map_repeat {A B} (f : A -> B) x n : map f (repeat x n) = repeat (f x) n.
Proof. induction n; simpl; congruence. Qed.
Lemma wd_munge s : forall cur col, wd cur (map blank_to_space (expandtabs col s)) = wd cur s.
Proof.
  induction s as [|c s IH]; intros cur col; [reflexivity|]. cbn [expandtabs].
  destruct (N.eqb c cTAB) eqn:Et.
  - apply N.eqb_eq in Et. subst c. cbv zeta. rewrite map_app. unfold spaces. rewrite map_repeat.
    change (blank_to_space cSP) with cSP.
    pose proof (Z.mod_pos_bound col 8 ltac:(lia)).
    rewrite wd_repeat_sp by lia. unfold words. rewrite IH. symmetry. now apply wd_blank.
  - assert (H : forall k, wd cur (map blank_to_space (c :: expandtabs k s)) = wd cur (c :: s)).
    { intros k. cbn [map wd]. rewrite blank_to_space_uspace. destruct (is_uspace c) eqn:Eu.
      - now rewrite IH.
      - assert (blank_to_space c = c) as ->.
        { unfold blank_to_space. destruct (is_aspace c) eqn:E; auto. apply aspace_uspace in E. congruence. }
        apply IH. }
    destruct (N.eqb c cNL || N.eqb c cCR); apply H.
Qed.
Lemma words_munge s : words (munge s) = words s.
Proof. apply wd_munge. Qed.

(** characters of a munged text: no ASCII blank but the space *)
Lemma blank_to_space_only c : is_aspace (blank_to_space c) = true -> blank_to_space c = cSP.
Proof. unfold blank_to_space. destruct (is_aspace c) eqn:E; [reflexivity|congruence]. Qed.
Lemma munge_chars s : Forall (fun c => is_aspace c = true -> c = cSP) (munge s).
Proof.
  unfold munge. apply Forall_forall. intros c H. apply in_map_iff in H as (x & <- & _). apply blank_to_space_only.
Qed.

(** ** Chunks *)
Lemma chunks_concat s : List.concat (chunks s) = s.
Proof.
  induction s as [|c s IH]; [reflexivity|]. cbn [chunks].
  destruct (chunks s) as [|w ws] eqn:E; [simpl in *; congruence|].
  destruct w as [|x w]; [simpl in *; congruence|].
  destruct (Bool.eqb _ _); simpl in *; congruence.
Qed.
(** alternating: non-empty runs, all spaces or without space, adjacent ones of
    different sort *)
Definition sp (w : str) : bool := match w with c :: _ => N.eqb c cSP | nil => false end.
Definition run (w : str) : Prop := w <> nil /\ Forall (fun c => N.eqb c cSP = sp w) w.
Fixpoint alt (cs : list str) : Prop :=
  match cs with
  | nil => True
  | w :: cs' => run w /\ match cs' with w' :: _ => sp w <> sp w' | nil => True end /\ alt cs'
  end.
Lemma alt_tl w cs : alt (w :: cs) -> alt cs. Proof. simpl. tauto. Qed.
Lemma alt_app a : forall b, alt (a ++ b) -> alt a /\ alt b.
Proof.
  induction a as [|w a IH]; intros b H; [split; [exact I|exact H]|].
  cbn [app alt] in *. destruct H as (H1 & H2 & H3). destruct (IH _ H3) as [H4 H5].
  split; [|exact H5]. split; [exact H1|]. split; [|exact H4]. destruct a; auto.
Qed.
Lemma chunks_alt s : alt (chunks s).
Proof.
  induction s as [|c s IH]; [exact I|]. cbn [chunks].
  destruct (chunks s) as [|w ws] eqn:E.
  - repeat split; [discriminate|]. repeat constructor.
  - destruct w as [|x w]; [destruct IH as [[A _] _]; congruence|].
    destruct (Bool.eqb (N.eqb c cSP) (N.eqb x cSP)) eqn:Eb.
    + apply eqb_prop in Eb. destruct IH as ([A B] & C & D).
      repeat split; [discriminate| | |exact D].
      * unfold sp in *. constructor; [reflexivity|]. now rewrite Eb.
      * unfold sp in *. rewrite Eb. exact C.
    + apply eqb_false_iff in Eb. split; [split; [discriminate|]|split; [exact Eb|exact IH]].
      constructor; [reflexivity|constructor].
Qed.

Lemma run_sp w : run w -> sp w = true -> forallb is_uspace w = true.
Proof.
  intros [_ H] E. rewrite E in H. rewrite forallb_forall. rewrite Forall_forall in H. intros c Hc.
  specialize (H c Hc). apply N.eqb_eq in H. now subst.
Qed.
(** in an alternating list the words are those of the chunks *)
Lemma words_chunks cs : alt cs -> words (List.concat cs) = flat_map words cs.
Proof.
  induction cs as [|w cs IH]; [reflexivity|]. intros (H1 & H2 & H3). cbn [List.concat flat_map].
  rewrite <- (IH H3). destruct (sp w) eqn:E.
  - rewrite words_blanks_app by now apply run_sp.
    rewrite (words_blank w) by now apply run_sp. reflexivity.
  - apply words_app_l. destruct cs as [|w' cs]; [reflexivity|].
    destruct H3 as ([A B] & _). destruct w' as [|c w']; [congruence|]. simpl.
    simpl in H2. destruct (N.eqb c cSP) eqn:Ec; [|congruence]. apply N.eqb_eq in Ec. now subst.
Qed.

(** ** One wrapping pass *)
Lemma take_line_app width cs : forall len, fst (take_line width len cs) ++ snd (take_line width len cs) = cs.
Proof.
  induction cs as [|c cs IH]; intros len; [reflexivity|]. cbn [take_line].
  destruct (_ <=? _); [|reflexivity]. specialize (IH (len + zlen c)).
  destruct (take_line width (len + zlen c) cs). simpl in *. congruence.
Qed.
Lemma take_line_len width cs : forall len, 0 <= len <= width ->
  len + zlen (List.concat (fst (take_line width len cs))) <= width.
Proof.
  induction cs as [|c cs IH]; intros len H; [simpl; rewrite zlen_nil; lia|]. cbn [take_line].
  destruct (len + zlen c <=? width) eqn:E; [|simpl; rewrite zlen_nil; lia].
  apply Z.leb_le in E. pose proof (zlen_nonneg c). specialize (IH (len + zlen c) ltac:(lia)).
  destruct (take_line width (len + zlen c) cs). simpl in *. rewrite zlen_app. lia.
Qed.
Lemma take_line_stop width cs : forall len c r, snd (take_line width len cs) = c :: r ->
  width < len + zlen (List.concat (fst (take_line width len cs))) + zlen c.
Proof.
  induction cs as [|x cs IH]; intros len c r H; [discriminate|]. cbn [take_line] in *.
  destruct (len + zlen x <=? width) eqn:E.
  - specialize (IH (len + zlen x) c r). destruct (take_line width (len + zlen x) cs). simpl in *.
    rewrite zlen_app. specialize (IH H). lia.
  - simpl in *. inversion H; subst. rewrite zlen_nil. apply Z.leb_gt in E. lia.
Qed.
Lemma drop_last_blank_app l : exists d, l = drop_last_blank l ++ d /\ Forall (fun c => blank_chunk c = true) d.
Proof.
  unfold drop_last_blank. destruct (rev l) as [|c r] eqn:E.
  - assert (l = nil) as -> by (rewrite <- (rev_involutive l), E; reflexivity). exists nil. split; [reflexivity|constructor].
  - assert (l = rev r ++ [c]) as El by (rewrite <- (rev_involutive l), E; reflexivity).
    destruct (blank_chunk c) eqn:Eb.
    + exists [c]. auto.
    + exists nil. rewrite app_nil_r. auto.
Qed.

(** One step of the loop: what it takes from the chunks. *)
Inductive wrap_step (width : Z) (started : bool) (cs line rest : list str) : Prop :=
  WStep (lead line0 drop : list str) :
    cs = lead ++ line0 ++ rest ->
    Forall (fun c => blank_chunk c = true) lead -> (started = false -> lead = nil) ->
    (List.length lead <= 1)%nat ->
    line0 = line ++ drop -> Forall (fun c => blank_chunk c = true) drop ->
    (List.length drop <= 1)%nat ->
    (zlen (List.concat line0) <= width \/ exists w, line0 = [w] /\ width < zlen w) ->
    (forall c r, rest = c :: r -> width < zlen (List.concat line0) + zlen c) ->
    (lead ++ line0 <> nil) ->
    line = drop_last_blank line0 ->
    (forall c cs', cs = c :: cs' -> blank_chunk c = true -> started = true -> lead = [c]) ->
    (line0 = nil -> rest = nil) ->
    wrap_step width started cs line rest.
Lemma wrap_loop_step width f started c cs0 : 0 < width ->
  exists line rest, wrap_step width started (c :: cs0) line rest
    /\ wrap_loop width (S f) started (c :: cs0)
       = match line with
         | nil => wrap_loop width f started rest
         | _ => List.concat line :: wrap_loop width f true rest
         end.
Proof.
  intros Hw. cbn [wrap_loop].
  remember (if blank_chunk c && started then cs0 else c :: cs0) as cs1 eqn:E1.
  pose proof (take_line_app width cs1 0) as T1.
  pose proof (take_line_len width cs1 0 ltac:(lia)) as T2.
  pose proof (take_line_stop width cs1 0) as T3.
  destruct (take_line width 0 cs1) as [line rest] eqn:ET. simpl in T1, T2, T3.
  assert (Hlead : exists lead, c :: cs0 = lead ++ cs1 /\ Forall (fun c => blank_chunk c = true) lead
                    /\ (started = false -> lead = nil) /\ (List.length lead <= 1)%nat
                    /\ (lead = nil -> cs1 = c :: cs0)
                    /\ (forall d cs', c :: cs0 = d :: cs' -> blank_chunk d = true -> started = true -> lead = [d])).
  { destruct (blank_chunk c) eqn:Eb, started; simpl in E1; subst cs1.
    - exists [c]. repeat split; auto; try discriminate. intros ? ? H; inversion H; auto.
    - exists nil. repeat split; auto; try discriminate. 
    - exists nil. repeat split; auto. intros d cs' H Hb. inversion H; subst. congruence.
    - exists nil. repeat split; auto. intros; discriminate. }
  destruct Hlead as (lead & L1 & L2 & L3 & L4 & L5 & L6).
  assert (Main : exists line2 rest2,
    match rest with
    | w :: rest' => if (zlen w >? width) && match line with nil => true | _ => false end then ([w], rest') else (line, rest)
    | nil => (line, rest)
    end = (line2, rest2) /\ cs1 = line2 ++ rest2
    /\ (zlen (List.concat line2) <= width \/ exists w, line2 = [w] /\ width < zlen w)
    /\ (forall c r, rest2 = c :: r -> width < zlen (List.concat line2) + zlen c)
    /\ (line2 = nil -> rest2 = nil)).
  { destruct rest as [|w rest'].
    - exists line, nil. repeat split; auto; try discriminate; try (left; lia).
    - destruct line as [|x line].
      + specialize (T3 w rest' eq_refl). simpl in T3. change (zlen (@nil chr)) with 0 in T3.
        assert (zlen w >? width = true) as -> by (apply Z.gtb_lt; lia).
        exists [w], rest'. simpl. repeat split; auto; try discriminate.
        * right. exists w. split; [reflexivity|lia].
        * intros d r _. rewrite app_nil_r. pose proof (zlen_nonneg d). lia.
      + rewrite andb_false_r. exists (x :: line), (w :: rest'). repeat split; auto; try discriminate; try (left; lia). }
  destruct Main as (line2 & rest2 & EM & M1 & M2 & M3 & M4). rewrite EM.
  destruct (drop_last_blank_app line2) as (drop & D1 & D2).
  exists (drop_last_blank line2), rest2. split.
  - apply (WStep width started (c :: cs0) (drop_last_blank line2) rest2 lead line2 drop); auto.
    + now rewrite <- M1.
    + clear -D1. unfold drop_last_blank in D1. destruct (rev line2) as [|x r] eqn:E.
      * assert (line2 = nil) as -> by (rewrite <- (rev_involutive line2), E; reflexivity).
        simpl in D1. subst. simpl. lia.
      * assert (El : line2 = rev r ++ [x]) by (rewrite <- (rev_involutive line2), E; reflexivity).
        destruct (blank_chunk x).
        -- rewrite El in D1. apply app_inv_head in D1. subst. simpl. lia.
        -- rewrite <- (app_nil_r line2) in D1 at 1. apply app_inv_head in D1. subst. simpl. lia.
    + intros E. apply app_eq_nil in E as [-> ->]. rewrite (M4 eq_refl) in M1. simpl in M1. subst cs1.
      specialize (L5 eq_refl). congruence.
  - destruct (drop_last_blank line2); reflexivity.
Qed.

(** induction over the loop *)
Lemma wrap_loop_ind (P : bool -> list str -> list str -> Prop) width : 0 < width ->
  (forall b, P b nil nil) ->
  (forall b cs line rest out, cs <> nil -> wrap_step width b cs line rest ->
     match line with nil => P b rest out -> P b cs out
                   | _ => P true rest out -> P b cs (List.concat line :: out) end) ->
  forall f b cs, (List.length cs <= f)%nat -> P b cs (wrap_loop width f b cs).
Proof.
  intros Hw Hnil Hstep. induction f as [|f IH]; intros b cs Hf.
  - destruct cs; [apply Hnil|simpl in Hf; lia].
  - destruct cs as [|c cs0]; [apply Hnil|].
    destruct (wrap_loop_step width f b c cs0 Hw) as (line & rest & HS & ->).
    assert (Hr : (List.length rest <= f)%nat).
    { destruct HS as [lead line0 drop E1 _ _ _ _ _ _ _ _ E2 _ _ _]. rewrite E1 in Hf.
      rewrite app_assoc, app_length in Hf. destruct (lead ++ line0); [congruence|]. simpl in Hf. lia. }
    pose proof (Hstep b (c :: cs0) line rest) as H. destruct line as [|l line].
    + apply H; auto. discriminate.
    + apply H; auto. discriminate.
Qed.

Lemma blank_words cs : Forall (fun c => blank_chunk c = true) cs -> flat_map words cs = nil.
Proof. induction 1; simpl; [reflexivity|]. rewrite words_blank by assumption. assumption. Qed.

Lemma wrap_words width text ls : wrap width text = Ok ls -> flat_map words ls = words text.
Proof.
  unfold wrap. destruct (width <=? 0) eqn:Ew; [discriminate|]. apply Z.leb_gt in Ew. intros H. inversion H. clear H H1.
  rewrite <- (words_munge text).
  assert (words (munge text) = flat_map words (chunks (munge text))) as ->.
  { rewrite <- (words_chunks _ (chunks_alt _)). now rewrite chunks_concat. }
  generalize (chunks_alt (munge text)). generalize (chunks (munge text)) as cs. intros cs.
  refine (wrap_loop_ind (fun _ cs out => alt cs -> flat_map words out = flat_map words cs) width Ew _ _
            (List.length cs) false cs (le_n _)).
  - reflexivity.
  - intros b cs' line rest out _ [lead line0 drop E1 E2 _ _ E3 E4 _ _ _ _ _ _ _].
    assert (K : (alt rest -> flat_map words out = flat_map words rest) -> alt cs' ->
                alt line /\ flat_map words line ++ flat_map words out = flat_map words cs').
    { intros IH Ha. rewrite E1 in Ha. apply alt_app in Ha as [_ Ha]. apply alt_app in Ha as [Ha1 Ha2].
      rewrite E3 in Ha1. apply alt_app in Ha1 as [Ha1 _]. split; [exact Ha1|]. rewrite (IH Ha2).
      rewrite E1, E3, !flat_map_app. rewrite (blank_words lead), (blank_words drop) by assumption. now rewrite app_nil_r. }
    destruct line as [|l line].
    + intros IH Ha. apply (K IH Ha).
    + intros IH Ha. cbn [flat_map]. destruct (K IH Ha) as [A B]. rewrite <- (words_chunks _ A) in B. exact B.
Qed.
Lemma stable_loop_last width n : forall prev ls, stable_loop width n prev = Ok ls ->
  words prev = flat_map words ls /\ exists t, wrap width t = Ok ls.
Proof.
  induction n as [|n IH]; intros prev ls H; [discriminate|]. cbn [stable_loop] in H.
  apply bindr_ok in H as (lines & E & H). pose proof (wrap_words _ _ _ E) as Hw.
  destruct (seqb _ prev) eqn:Es.
  - inversion H; subst. split; [now rewrite Hw|eauto].
  - destruct lines as [|l lines]; [discriminate|]. apply IH in H as [A B]. split; [|exact B].
    rewrite <- Hw, <- A. symmetry. apply words_join.
Qed.
Lemma stable_words width text ls : stable_wrap width text = Ok ls -> flat_map words ls = words text.
Proof. intros H. now destruct (stable_loop_last _ _ _ _ H). Qed.

(** ** Width of the wrapped lines *)
Definition one_word (s : str) : Prop := ~ In cSP s.
Lemma wrap_width width text ls : wrap width text = Ok ls ->
  Forall (fun l => zlen l <= width \/ one_word l) ls.
Proof.
  unfold wrap. destruct (width <=? 0) eqn:Ew; [discriminate|]. apply Z.leb_gt in Ew. intros H. inversion H. clear H H1.
  generalize (chunks_alt (munge text)). generalize (chunks (munge text)) as cs. intros cs.
  refine (wrap_loop_ind (fun _ cs out => alt cs -> Forall (fun l => zlen l <= width \/ one_word l) out) width Ew _ _
            (List.length cs) false cs (le_n _)).
  - constructor.
  - intros b cs' line rest out _ [lead line0 drop E1 E2 _ _ E3 E4 _ E5 _ _ ED _ _].
    assert (K : alt cs' -> alt line0 /\ alt rest).
    { intros Ha. rewrite E1 in Ha. apply alt_app in Ha as [_ Ha]. now apply alt_app in Ha. }
    destruct line as [|l line]; intros IH Ha; destruct (K Ha) as [K1 K2]; auto.
    constructor; auto. destruct E5 as [E5|(w & E5 & E6)]; [left|right; rewrite E5 in ED, K1].
    + rewrite E3, concat_app, zlen_app in E5. pose proof (zlen_nonneg (List.concat drop)). lia.
    + unfold drop_last_blank in ED. cbn [rev app] in ED. destruct (blank_chunk w) eqn:Eb. { cbn in ED. discriminate ED. }
      inversion ED; subst. simpl. rewrite app_nil_r. destruct K1 as ([Hn Hf] & _).
      destruct (sp w) eqn:Es.
      * exfalso. assert (blank_chunk w = true); [|congruence].
        apply run_sp; [split; [exact Hn|rewrite Es; exact Hf]|exact Es].
      * intros Hin. rewrite Forall_forall in Hf. specialize (Hf _ Hin). discriminate.
Qed.
Lemma stable_width width text ls : stable_wrap width text = Ok ls ->
  Forall (fun l => zlen l <= width \/ one_word l) ls.
Proof. intros H. destruct (stable_loop_last _ _ _ _ H) as [_ (t & E)]. eapply wrap_width; eauto. Qed.

(** wrapped lines contain characters of the munged text only *)
Lemma wrap_chars width text ls : wrap width text = Ok ls ->
  Forall (fun l => l <> nil /\ Forall (fun c => is_aspace c = true -> c = cSP) l) ls.
Proof.
  unfold wrap. destruct (width <=? 0) eqn:Ew; [discriminate|]. apply Z.leb_gt in Ew. intros H. inversion H. clear H H1.
  assert (Hc : Forall (Forall (fun c => is_aspace c = true -> c = cSP)) (chunks (munge text))).
  { pose proof (munge_chars text) as Hm. rewrite <- (chunks_concat (munge text)) in Hm.
    rewrite Forall_forall in *. intros w Hw. rewrite Forall_forall. intros c Hc. apply Hm.
    apply in_concat. eauto. }
  generalize (chunks_alt (munge text)). revert Hc. generalize (chunks (munge text)) as cs. intros cs.
  refine (wrap_loop_ind (fun _ cs out => Forall (Forall (fun c => is_aspace c = true -> c = cSP)) cs -> alt cs ->
      Forall (fun l => l <> nil /\ Forall (fun c => is_aspace c = true -> c = cSP) l) out) width Ew _ _
            (List.length cs) false cs (le_n _)).
  - constructor.
  - intros b cs' line rest out _ [lead line0 drop E1 E2 _ _ E3 E4 _ E5 _ _ _ _ _].
    assert (K : Forall (Forall (fun c => is_aspace c = true -> c = cSP)) cs' -> alt cs' ->
      Forall (Forall (fun c => is_aspace c = true -> c = cSP)) line /\ Forall (Forall (fun c => is_aspace c = true -> c = cSP)) rest
      /\ alt line /\ alt rest).
    { intros Hc Ha. rewrite E1, E3 in Hc, Ha. rewrite !Forall_app in Hc.
      apply alt_app in Ha as [_ Ha]. apply alt_app in Ha as [Ha Hb]. apply alt_app in Ha as [Ha _]. tauto. }
    destruct line as [|l line]; intros IH Hc Ha; destruct (K Hc Ha) as (K1 & K2 & K3 & K4); auto.
    constructor; auto. split.
    + destruct K3 as ([Hn _] & _). destruct l; [congruence|discriminate].
    + rewrite Forall_forall in *. intros c Hin. apply in_concat in Hin as (w & Hw & Hin).
      specialize (K1 w Hw). rewrite Forall_forall in K1. auto.
Qed.
Lemma stable_chars width text ls : stable_wrap width text = Ok ls ->
  Forall (fun l => l <> nil /\ Forall (fun c => is_aspace c = true -> c = cSP) l) ls.
Proof. intros H. destruct (stable_loop_last _ _ _ _ H) as [_ (t & E)]. eapply wrap_chars; eauto. Qed.
Lemma stable_noeol width text ls : stable_wrap width text = Ok ls -> Forall (fun l => ~ In cNL l) ls.
Proof.
  intros H. apply stable_chars in H. eapply Forall_impl; [|exact H]. intros l [_ Hl] Hin.
  rewrite Forall_forall in Hl. specialize (Hl _ Hin eq_refl). discriminate.
Qed.
