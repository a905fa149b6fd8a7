(** * PropProse: C134 - comments that are prose *)
From Verif Require Import Base Regex Lex LexProofs LexClass PropLex TextOps TextProofs PropText Tree Parse ParseProofs ParseTerm PropParse PropTerm
  CmdSpec StdSpecs StdDb StdWf PropStd StdShape Layout LayoutProofs Pieces Writing LayKids PropLayout Markup MarkupProofs PropMarkup Pipeline PropCase PropFile PropLintChecks
  ParseShape NamesShape WordShape CommentShape TidyShape Reread CommentFree PropReread ParseBlank ParseSame BodySame StdSame OutSame PropSame
  LaySame LayBlock Places ParseLines StmtSame IdemCore PropIdem Places2 ParseLines2 LayBlock2 IdemCore2 PropIdem2.

(** ** What prose is *)
(** A word that does not start a bullet, a numbered item or a note and is not (the
    beginning of) a ruler or a fence. *)
Definition numbered (w : str) : bool :=
  match span is_digit_c w with (_ :: _, [c]) => N.eqb c 46 || N.eqb c 58 | _ => false end.
Definition noted (w : str) : bool :=
  match span is_note_c w with (_ :: _, p :: _) => N.eqb p cLP | _ => false end.
Definition tame (w : str) : bool :=
  negb ((3 <=? zlen w) && forallb is_punct_c (firstn 3 w))
  && negb (seqb w $"*" || seqb w $"-") && negb (numbered w) && negb (noted w).
(** A line of prose: empty, or tame words set apart by spaces, tabs and the like. *)
Definition prose_line (l : str) : bool :=
  match l with
  | nil => true
  | _ => forallb (fun c => implb (is_uspace c) (is_aspace c)) l && forallb tame (words l)
         && match words l with nil => false | _ => true end
  end.
(** A comment made of such lines that is not the first line of a script. *)
Definition prose (c : mcfg) (pcs : list pnode) : bool :=
  match comment_inlines c false pcs with
  | Ok ils => forallb prose_line ils
              && match pcs with T t :: _ => negb (startswith $"#!" (spelling t)) | _ => true end
  | _ => false
  end.
(** Between the words stand single blanks. *)
Definition even_prose (c : mcfg) (pcs : list pnode) : bool :=
  prose c pcs
  && match comment_inlines c false pcs with Ok ils => forallb (fun l => single_spaced (strip l)) ils | _ => false end.

(** ** The first word of a line *)
Lemma wd_first s : forall cur, cur <> nil ->
  exists a rest ws, s = a ++ rest /\ wd cur s = (cur ++ a) :: ws /\ forallb (fun c => negb (is_uspace c)) a = true /\ starts_blank rest = true.
Proof.
  induction s as [|c s IH]; intros cur Hc.
  - exists nil, nil, nil. rewrite (app_nil_r cur). destruct cur; [congruence|]. repeat split; auto.
  - cbn [wd]. destruct (is_uspace c) eqn:E.
    + exists nil, (c :: s), (wd nil s). rewrite (app_nil_r cur). destruct cur; [congruence|]. repeat split; auto.
    + destruct (IH (cur ++ [c])) as (a & rest & ws & -> & H1 & H2 & H3); [now destruct cur|].
      exists (c :: a), rest, ws. rewrite H1, <- app_assoc. cbn [app forallb]. rewrite E, H2. repeat split; auto.
Qed.
Lemma words_first l w ws : words l = w :: ws ->
  exists lead rest, l = lead ++ w ++ rest /\ forallb is_uspace lead = true /\ starts_blank rest = true
    /\ w <> nil /\ forallb (fun c => negb (is_uspace c)) w = true.
Proof.
  induction l as [|c l IH]; [discriminate|]. intros H. destruct (is_uspace c) eqn:E.
  - rewrite words_cons_blank in H by auto. destruct (IH H) as (lead & rest & -> & H1 & H2).
    exists (c :: lead), rest. cbn [app forallb]. rewrite E, H1. tauto.
  - unfold words in H. cbn [wd app] in H. rewrite E in H.
    destruct (wd_first l [c]) as (a & rest & ws' & -> & H1 & H2 & H3); [discriminate|].
    rewrite H1 in H. injection H as <- <-. exists nil, rest. cbn [app forallb]. rewrite E, H2. repeat split; auto. discriminate.
Qed.
Lemma span_lead (p : chr -> bool) a b : forallb p a = true -> match b with c :: _ => p c = false | nil => True end -> span p (a ++ b) = (a, b).
Proof.
  intros H Hb. induction a as [|c a IH]; cbn [app span].
  - destruct b as [|c b]; [reflexivity|]. cbn [span]. now rewrite Hb.
  - cbn [forallb] in H. apply andb_prop in H as [-> H]. now rewrite IH.
Qed.
Lemma span_word (p : chr -> bool) w rest : (forall c, is_uspace c = true -> p c = false) -> starts_blank rest = true ->
  span p (w ++ rest) = (fst (span p w), snd (span p w) ++ rest).
Proof.
  intros Hp Hr. induction w as [|c w IH]; cbn [app span].
  - destruct rest as [|c rest]; [reflexivity|]. cbn [starts_blank] in Hr. cbn [span]. now rewrite (Hp _ Hr).
  - destruct (p c); [|reflexivity]. rewrite IH. now destruct (span p w).
Qed.
Lemma span_split (p : chr -> bool) w : w = fst (span p w) ++ snd (span p w) /\ forallb p (fst (span p w)) = true.
Proof.
  induction w as [|c w [IH1 IH2]]; [now split|]. cbn [span]. destruct (p c) eqn:E; [|now split].
  destruct (span p w) as [x y]. cbn [fst snd] in *. cbn [app forallb]. rewrite <- IH1, E. now split.
Qed.
Lemma line_words l w ws : words l = w :: ws ->
  exists lead rest, span is_uspace l = (lead, w ++ rest) /\ starts_blank rest = true /\ w <> nil /\ forallb (fun c => negb (is_uspace c)) w = true.
Proof.
  intros H. destruct (words_first _ _ _ H) as (lead & rest & -> & H1 & H2 & H3 & H4). exists lead, rest. split; auto.
  apply span_lead; auto. destruct w as [|c w]; [congruence|]. cbn [app forallb] in *. apply andb_prop in H4 as [H4 _]. now apply negb_true_iff.
Qed.
(** what a blank is not *)
Definition blanks : str :=
  [9;10;11;12;13;28;29;30;31;32;133;160;5760;8192;8193;8194;8195;8196;8197;
   8198;8199;8200;8201;8202;8232;8233;8239;8287;12288]%N.
Lemma uspace_not (p : chr -> bool) : forallb (fun c => negb (p c)) blanks = true -> forall c, is_uspace c = true -> p c = false.
Proof.
  intros H c Hc. unfold is_uspace in Hc. apply existsb_exists in Hc as (x & H1 & H2). apply N.eqb_eq in H2 as ->.
  rewrite forallb_forall in H. apply H in H1. now apply negb_true_iff.
Qed.
Lemma word_chars w c : forallb (fun c => negb (is_uspace c)) w = true -> In c w -> is_uspace c = false.
Proof. rewrite forallb_forall. intros H Hc. apply H in Hc. now apply negb_true_iff. Qed.

Section tame_line.
  Variables (l w rest lead : str).
  Hypothesis (Hs : span is_uspace l = (lead, w ++ rest)) (Hr : starts_blank rest = true) (Hw : w <> nil)
    (Hc : forallb (fun c => negb (is_uspace c)) w = true) (Ht : tame w = true).
  Lemma tame_bullet : bullet_match l = None.
  Proof using Hs Hr Hw Hc Ht.
    unfold bullet_match. rewrite Hs. destruct w as [|x w1] eqn:Ew; [congruence|].
    assert (H : is_bullet_c x = true -> w1 = nil -> False).
    { intros Hx ->. unfold tame in Ht. apply andb_prop in Ht as [H _]. apply andb_prop in H as [H _]. apply andb_prop in H as [_ H].
      apply negb_true_iff in H. apply orb_false_iff in H as [H1 H2]. unfold is_bullet_c in Hx. apply orb_prop in Hx as [Hx|Hx]; apply N.eqb_eq in Hx; subst; discriminate. }
    destruct w1 as [|y w1]; cbn [app].
    - destruct rest as [|b [|z r]]; auto. destruct (is_bullet_c x) eqn:E; [exfalso; auto|reflexivity].
    - destruct (w1 ++ rest); auto. replace (N.eqb y cSP) with false; [now rewrite andb_false_r|].
      destruct (N.eqb y cSP) eqn:E; auto. apply N.eqb_eq in E. subst. cbn [forallb] in Hc. rewrite andb_false_r in Hc. discriminate.
  Qed.
  Lemma tame_enum : enum_match l = None.
  Proof using Hs Hr Hw Hc Ht.
    unfold enum_match. rewrite Hs. rewrite span_word by (auto; apply uspace_not; vm_compute; reflexivity).
    destruct (span_split is_digit_c w) as [S1 S2]. destruct (span is_digit_c w) as [d v] eqn:Ed. cbn [fst snd] in *.
    destruct d as [|d0 d]; [reflexivity|].
    unfold tame in Ht. apply andb_prop in Ht as [H _]. apply andb_prop in H as [_ H]. apply negb_true_iff in H. unfold numbered in H. rewrite Ed in H.
    destruct v as [|x v]; cbn [app].
    - destruct rest as [|c [|b [|z r]]]; auto. cbn [starts_blank] in Hr.
      rewrite (uspace_not (fun c => N.eqb c 46 || N.eqb c 58) ltac:(vm_compute; reflexivity) _ Hr). reflexivity.
    - destruct v as [|y v]; cbn [app].
      + destruct rest as [|b [|z r]]; auto. now rewrite H.
      + destruct (v ++ rest); auto. replace (N.eqb y cSP) with false; [now rewrite andb_false_r|].
        destruct (N.eqb y cSP) eqn:E; auto. apply N.eqb_eq in E. subst y. exfalso.
        assert (Hin : In cSP w) by (rewrite S1, in_app_iff; right; right; now left). apply (word_chars _ _ Hc) in Hin. discriminate.
  Qed.
  Lemma tame_note : Markup.note_match l = false.
  Proof using Hs Hr Hw Hc Ht.
    unfold Markup.note_match. rewrite Hs. rewrite span_word by (auto; apply uspace_not; vm_compute; reflexivity).
    unfold tame in Ht. apply andb_prop in Ht as [_ H]. apply negb_true_iff in H. unfold noted in H.
    destruct (span is_note_c w) as [d v] eqn:Ed. cbn [fst snd] in *. destruct d as [|d0 d]; [reflexivity|].
    destruct v as [|x v]; cbn [app].
    - destruct rest as [|c r]; auto. cbn [starts_blank] in Hr.
      now rewrite (uspace_not (fun c => N.eqb c cLP) ltac:(vm_compute; reflexivity) _ Hr).
    - now rewrite H.
  Qed.
  Lemma tame_head : 3 <= zlen (w ++ rest) -> forallb is_punct_c (firstn 3 (w ++ rest)) = false.
  Proof using Hs Hr Ht.
    intros Hl. unfold tame in Ht. apply andb_prop in Ht as [H _]. apply andb_prop in H as [H _]. apply andb_prop in H as [H _]. apply negb_true_iff in H.
    destruct (3 <=? zlen w) eqn:E.
    - cbn [andb] in H. apply Z.leb_le in E. unfold zlen in E. rewrite firstn_app. replace (3 - List.length w)%nat with 0%nat by lia. cbn [firstn]. now rewrite app_nil_r.
    - apply Z.leb_gt in E. rewrite zlen_app in Hl. destruct rest as [|c r]; [unfold zlen in *; cbn in *; lia|]. cbn [starts_blank] in Hr.
      apply not_true_iff_false. intros H1. rewrite forallb_forall in H1.
      assert (Hin : In c (firstn 3 (w ++ c :: r))).
      { rewrite firstn_app. apply in_or_app. right. unfold zlen in E. destruct (3 - List.length w)%nat eqn:E3; [lia|]. now left. }
      apply H1 in Hin. unfold is_punct_c in Hin. rewrite Hr, andb_false_r in Hin. discriminate.
  Qed.
  Lemma tame_ruler : ruler_match l = false.
  Proof using Hs Hr Hw Hc Ht.
    unfold ruler_match. rewrite Hs. destruct (6 <=? zlen (w ++ rest)) eqn:E; auto. apply Z.leb_le in E. now rewrite tame_head by lia.
  Qed.
  Lemma tame_fence : fence_match l = None.
  Proof using Hs Hr Hw Hc Ht.
    unfold fence_match. rewrite Hs. destruct (span_split is_fence_c (w ++ rest)) as [S1 S2]. destruct (span is_fence_c (w ++ rest)) as [d v]. cbn [fst snd] in *.
    destruct (3 <=? zlen d) eqn:E; auto. apply Z.leb_le in E. exfalso.
    assert (H : forallb is_punct_c (firstn 3 (w ++ rest)) = true).
    { rewrite S1, firstn_app. unfold zlen in E. replace (3 - List.length d)%nat with 0%nat by lia. cbn [firstn]. rewrite app_nil_r.
      rewrite forallb_forall. intros c Hin. rewrite forallb_forall in S2. assert (Hd : In c d) by (rewrite <- (firstn_skipn 3 d); apply in_or_app; now left).
      apply S2 in Hd. unfold is_fence_c in Hd. apply orb_prop in Hd as [Hd|Hd]; apply N.eqb_eq in Hd; subst; reflexivity. }
    rewrite tame_head in H; [discriminate|]. rewrite S1, zlen_app. pose proof (zlen_nonneg v). lia.
  Qed.
End tame_line.
Lemma tame_all l w ws : words l = w :: ws -> tame w = true ->
  bullet_match l = None /\ enum_match l = None /\ Markup.note_match l = false /\ ruler_match l = false /\ fence_match l = None.
Proof.
  intros H Ht. destruct (line_words _ _ _ H) as (lead & rest & H1 & H2 & H3 & H4).
  repeat split; [eapply tame_bullet|eapply tame_enum|eapply tame_note|eapply tame_ruler|eapply tame_fence]; eauto.
Qed.

(** ** Edges of lines *)
Lemma edged x m y : is_uspace x = false -> is_uspace y = false -> strip (x :: m ++ [y]) = x :: m ++ [y].
Proof.
  intros Hx Hy. unfold strip, strip_by. cbn [lstrip_by]. rewrite Hx. unfold rstrip_by. rewrite app_comm_cons, rev_app_distr. cbn [rev app lstrip_by]. rewrite Hy.
  change (y :: rev m ++ [x]) with ([y] ++ rev (x :: m)). now rewrite rev_app_distr, rev_involutive.
Qed.
Definition firm (l : str) : Prop :=
  match l with x :: _ => is_uspace x = false | nil => False end /\ match rev l with y :: _ => is_uspace y = false | nil => False end.
Lemma firm_strip l : firm l -> strip l = l.
Proof.
  intros [H1 H2]. destruct l as [|x l]; [destruct H1|]. destruct (last_cons (x :: l)) as (a & y & E); [discriminate|].
  rewrite E, rev_app_distr in H2. cbn [rev app] in H2. destruct a as [|z a].
  - injection E as -> ->. unfold strip, strip_by, rstrip_by. cbn [lstrip_by]. rewrite H1. cbn [rev app lstrip_by]. now rewrite H1.
  - injection E as <- ->. now apply edged.
Qed.
Lemma strip_firm l : words l <> nil -> firm (strip l).
Proof.
  intros H. rewrite <- words_strip in H. unfold strip, strip_by in *. split.
  - destruct (rstrip_by is_uspace (lstrip_by is_uspace l)) as [|x r] eqn:E; [now apply H|].
    assert (Hh : forall m, match lstrip_by is_uspace m with c :: _ => is_uspace c = false | nil => True end).
    { induction m as [|c m IH]; cbn [lstrip_by]; auto. destruct (is_uspace c) eqn:Ec; auto. }
    specialize (Hh l). destruct (rstrip_by_app is_uspace (lstrip_by is_uspace l)) as (a & Ea & _). rewrite E in Ea. rewrite Ea in Hh. exact Hh.
  - destruct (rev (rstrip_by is_uspace (lstrip_by is_uspace l))) as [|y r] eqn:E.
    + apply H. rewrite <- (rev_involutive (rstrip_by _ _)), E. reflexivity.
    + eapply rstrip_last. rewrite <- (rev_involutive (rstrip_by _ _)), E. reflexivity.
Qed.
Lemma firm_words l : firm l -> words l <> nil.
Proof.
  intros [H _]. destruct l as [|x l]; [destruct H|]. unfold words. cbn [wd app]. rewrite H.
  destruct (wd_first l [x]) as (a & rest & ws & _ & -> & _); discriminate.
Qed.
Lemma firm_app a b c : firm a -> firm b -> firm (a ++ c ++ b).
Proof.
  intros [A _] [_ B]. split.
  - destruct a; [destruct A|exact A].
  - rewrite !rev_app_distr, <- app_assoc. destruct (rev b); [destruct B|exact B].
Qed.
Lemma firm_join ls : Forall firm ls -> ls <> nil -> firm (join [cNL] ls).
Proof.
  induction 1 as [|l ls H Hls IH]; [congruence|]. intros _. destruct ls as [|m ls]; [exact H|].
  change (join [cNL] (l :: m :: ls)) with (l ++ [cNL] ++ join [cNL] (m :: ls)). apply firm_app; auto. apply IH. discriminate.
Qed.

(** ** Wrapped lines *)
Definition spaced (l : str) : Prop := Forall (fun c => is_uspace c = true -> is_aspace c = true) l.
Definition clear_of (l : str) : Prop := Forall (fun c => is_uspace c = true -> c = cSP) l.
Lemma expandtabs_in s : forall col x, In x (expandtabs col s) -> x = cSP \/ In x s.
Proof.
  induction s as [|c s IH]; intros col x H; [destruct H|]. cbn [expandtabs] in H. destruct (N.eqb c cTAB).
  - apply in_app_or in H as [H|H]; [left; unfold spaces in H; now apply repeat_spec in H|]. apply IH in H as [->|H]; [now left|right; now right].
  - destruct (N.eqb c cNL || N.eqb c cCR); (destruct H as [<-|H]; [right; now left|]); apply IH in H as [->|H]; (now left) || (right; now right).
Qed.
Lemma munge_clear s : spaced s -> clear_of (munge s).
Proof.
  unfold spaced, clear_of. rewrite !Forall_forall. intros H c Hin Hu. unfold munge in Hin. apply in_map_iff in Hin as (x & <- & Hx).
  rewrite blank_to_space_uspace in Hu. apply expandtabs_in in Hx as [->|Hx]; [reflexivity|]. apply H in Hx; auto. unfold blank_to_space. now rewrite Hx.
Qed.
Lemma clear_chunk w : run w -> clear_of w -> blank_chunk w = sp w /\ (sp w = false -> firm w).
Proof.
  intros Hr Hc. assert (Hf : sp w = false -> Forall (fun c => is_uspace c = false) w).
  { destruct Hr as [_ Hr]. unfold clear_of in Hc. rewrite !Forall_forall in *. intros E c Hin. destruct (is_uspace c) eqn:Eu; auto. specialize (Hc _ Hin Eu). specialize (Hr _ Hin). rewrite E in Hr. subst. discriminate. }
  split.
  - destruct (sp w) eqn:E; [now apply run_sp|]. specialize (Hf eq_refl). destruct Hr as [Hn _]. destruct w; [congruence|]. unfold blank_chunk. cbn [forallb]. now rewrite (Forall_inv Hf).
  - intros E. specialize (Hf E). destruct Hr as [Hn _]. split.
    + destruct w; [congruence|]. apply (Forall_inv Hf).
    + apply Forall_rev in Hf. destruct (rev w) eqn:Ew; [|apply (Forall_inv Hf)]. apply Hn. rewrite <- (rev_involutive w), Ew. reflexivity.
Qed.
Lemma firm_concat a m b : firm a -> firm b -> firm (List.concat (a :: m ++ [b])).
Proof.
  intros Ha Hb. cbn [List.concat]. rewrite concat_app. cbn [List.concat]. rewrite app_nil_r. now apply firm_app.
Qed.
Lemma wrap_firm width text ls : wrap width text = Ok ls -> spaced text -> match text with x :: _ => is_uspace x = false | nil => True end ->
  Forall (fun l => firm l /\ clear_of l) ls.
Proof.
  unfold wrap. destruct (width <=? 0) eqn:Ew; [discriminate|]. apply Z.leb_gt in Ew. intros H Hs Hx. inversion H. clear H H1.
  assert (Hc : Forall clear_of (chunks (munge text))).
  { pose proof (munge_clear _ Hs) as Hm. rewrite <- (chunks_concat (munge text)) in Hm. unfold clear_of in *. rewrite Forall_forall in *. intros w Hw. rewrite Forall_forall. intros c Hc. apply Hm. apply in_concat. eauto. }
  assert (Hh : match chunks (munge text) with w :: _ => sp w = false | nil => True end).
  { destruct (chunks (munge text)) as [|w cs] eqn:E; auto. pose proof (chunks_alt (munge text)) as Ha. rewrite E in Ha. destruct Ha as ([Hn _] & _).
    pose proof (chunks_concat (munge text)) as Hm. rewrite E in Hm. destruct w as [|y w]; [congruence|]. cbn [List.concat app] in Hm.
    unfold sp. destruct (N.eqb y cSP) eqn:Ey; auto. apply N.eqb_eq in Ey. subst y. exfalso.
    destruct text as [|x t]; [discriminate|]. unfold munge in Hm. cbn [expandtabs] in Hm. destruct (N.eqb x cTAB) eqn:Et; [apply N.eqb_eq in Et; subst; discriminate|].
    assert (Hy : blank_to_space x = cSP) by (destruct (N.eqb x cNL || N.eqb x cCR); cbn [map] in Hm; congruence).
    pose proof (blank_to_space_uspace x) as Hb. rewrite Hy, Hx in Hb. discriminate. }
  revert Hc Hh. generalize (chunks_alt (munge text)). generalize (chunks (munge text)) as cs. intros cs Ha Hc Hh.
  refine (wrap_loop_ind (fun b cs out => alt cs -> Forall clear_of cs -> (b = false -> match cs with w :: _ => sp w = false | nil => True end) ->
     Forall (fun l => firm l /\ clear_of l) out) width Ew _ _ (List.length cs) false cs (le_n _) Ha Hc (fun _ => Hh)).
  - constructor.
  - clear cs Ha Hc Hh. intros b cs line rest out Hne [lead line0 drop E1 E2 E2b E2c E3 E4 E4b E5 E6 E7 E8 E9 E10].
    assert (Main : alt cs -> Forall clear_of cs -> (b = false -> match cs with w :: _ => sp w = false | nil => True end) ->
      (line0 = nil -> rest = nil) /\ (line0 <> nil -> exists w r, line0 = w :: r /\ sp w = false) /\ alt line0 /\ Forall clear_of line0 /\ alt rest /\ Forall clear_of rest).
    { intros Ha Hc Hb. pose proof Ha as Ha'. pose proof Hc as Hc'. rewrite E1 in Ha', Hc'. apply alt_app in Ha' as [_ Ha']. apply alt_app in Ha' as [A1 A2].
      rewrite !Forall_app in Hc'. destruct Hc' as (C1 & C2 & C3). split; [exact E10|]. split; [|auto].
      intros Hl. destruct line0 as [|w r]; [congruence|]. exists w, r. split; auto. destruct (sp w) eqn:Es; auto. exfalso.
      destruct lead as [|x [|]]; [| |simpl in E2c; lia].
      - cbn [app] in E1. subst cs. assert (Hbw : blank_chunk w = true) by (rewrite (proj1 (clear_chunk w (proj1 Ha) (Forall_inv Hc))); exact Es).
        destruct b; [specialize (E9 _ _ eq_refl Hbw eq_refl); discriminate|]. specialize (Hb eq_refl). cbn in Hb. congruence.
      - cbn [app] in E1. subst cs. pose proof (Forall_inv E2) as Hbx. cbn beta in Hbx. rewrite (proj1 (clear_chunk x (proj1 Ha) (Forall_inv Hc))) in Hbx.
        destruct Ha as (_ & Ha & _). congruence. }
    assert (Hlast : alt line0 -> Forall clear_of line0 -> (exists w r, line0 = w :: r /\ sp w = false) -> line <> nil /\ firm (List.concat line) /\ clear_of (List.concat line)).
    { intros Ha Hc (w & r & El & Es).
      assert (Hcl : Forall clear_of line) by (rewrite E3 in Hc; now apply Forall_app in Hc).
      assert (Hal : alt line) by (rewrite E3 in Ha; now apply alt_app in Ha).
      assert (Hn : line <> nil).
      { intros ->. cbn [app] in E3. subst drop. rewrite El in *. pose proof (Forall_inv E4) as Hb. cbn beta in Hb. rewrite (proj1 (clear_chunk w (proj1 Ha) (Forall_inv Hc))) in Hb. congruence. }
      split; [exact Hn|]. split.
      - destruct line as [|w' l']; [congruence|]. assert (w' = w) as -> by (rewrite El in E3; now injection E3).
        assert (Fw : firm w) by (apply clear_chunk; [apply Hal|apply (Forall_inv Hcl)|exact Es]).
        destruct l' as [|x0 l0]; [cbn [List.concat]; now rewrite app_nil_r|].
        destruct (last_cons (x0 :: l0)) as (m & y & Em); [discriminate|]. rewrite Em. apply firm_concat; [exact Fw|].
        rewrite Em in Hal, Hcl, E3, E8.
        assert (Hy : run y) by (change (w :: m ++ [y]) with ((w :: m) ++ [y]) in Hal; apply alt_app in Hal as [_ Hal]; apply Hal).
        assert (Hyc : clear_of y) by (change (w :: m ++ [y]) with ((w :: m) ++ [y]) in Hcl; apply Forall_app in Hcl as [_ Hcl]; apply (Forall_inv Hcl)).
        apply clear_chunk; auto. destruct drop as [|d [|]]; [| |simpl in E4b; lia].
        + rewrite app_nil_r in E3. rewrite E3 in E8. unfold drop_last_blank in E8.
          change (w :: m ++ [y]) with ((w :: m) ++ [y]) in E8. rewrite rev_app_distr in E8. cbn [rev app] in E8.
          destruct (sp y) eqn:Ey; auto. exfalso. rewrite (proj1 (clear_chunk y Hy Hyc)), Ey in E8. apply (f_equal (@List.length _)) in E8.
          rewrite rev_app_distr, rev_involutive in E8. cbn [rev app List.length] in E8. rewrite app_length in E8. cbn in E8. lia.
        + assert (Hd : run d /\ clear_of d /\ sp y <> sp d).
          { rewrite E3 in Ha, Hc. change ((w :: m ++ [y]) ++ [d]) with (w :: (m ++ [y]) ++ [d]) in *. rewrite <- app_assoc in Ha, Hc. cbn [app] in Ha, Hc.
            change (w :: m ++ [y; d]) with ((w :: m) ++ [y; d]) in Ha, Hc. apply alt_app in Ha as [_ Ha]. apply Forall_app in Hc as [_ Hc]. destruct Ha as (_ & Ha & Hb & _).
            split; [exact Hb|]. split; [exact (Forall_inv (Forall_inv_tail Hc))|exact Ha]. }
          destruct Hd as (D1 & D2 & D3). pose proof (Forall_inv E4) as Hb. cbn beta in Hb. rewrite (proj1 (clear_chunk d D1 D2)) in Hb. destruct (sp y); congruence.
      - unfold clear_of. apply Forall_concat. exact Hcl. }
    destruct line as [|l line]; intros IH Ha Hc Hb; destruct (Main Ha Hc Hb) as (M1 & M2 & M3 & M4 & M5 & M6).
    + destruct line0 as [|w r]; [rewrite (M1 eq_refl) in *; now apply IH|]. destruct (Hlast M3 M4 (M2 ltac:(discriminate))) as [H _]. congruence.
    + assert (Hl0 : line0 <> nil) by (rewrite E3; discriminate). destruct (Hlast M3 M4 (M2 Hl0)) as (_ & F1 & F2).
      constructor; [now split|]. apply IH; auto. discriminate.
Qed.
Lemma clear_spaced l : clear_of l -> spaced l.
Proof. unfold clear_of, spaced. rewrite !Forall_forall. intros H c Hc Hu. rewrite (H _ Hc Hu). reflexivity. Qed.
Lemma spaced_join ls : Forall spaced ls -> spaced (join [cNL] ls).
Proof.
  induction 1 as [|l ls H Hls IH]; [constructor|]. destruct ls as [|m ls]; [exact H|].
  change (join [cNL] (l :: m :: ls)) with (l ++ [cNL] ++ join [cNL] (m :: ls)). apply Forall_app. split; auto. apply Forall_app. split; auto.
Qed.
Lemma firm_first l : firm l -> match l with x :: _ => is_uspace x = false | nil => True end.
Proof. intros [H _]. now destruct l. Qed.
Lemma stable_firm width n : forall text ls, stable_loop width n text = Ok ls -> spaced text -> firm text ->
  Forall (fun l => firm l /\ clear_of l) ls /\ wrap width (join [cNL] ls) = Ok ls.
Proof.
  induction n as [|n IH]; intros text ls H Hs Hf; [discriminate|]. cbn [stable_loop] in H. apply bindr_ok in H as (lines & E & H).
  pose proof (wrap_firm _ _ _ E Hs (firm_first _ Hf)) as Hl. destruct (seqb (join [cNL] lines) text) eqn:Es.
  - injection H as <-. split; auto. apply seqb_eq in Es. now rewrite Es.
  - destruct lines as [|l lines]; [discriminate|]. apply IH in H; auto.
    + apply spaced_join. eapply Forall_impl; [|exact Hl]. intros x [_ Hx]. now apply clear_spaced.
    + apply firm_join; [|discriminate]. eapply Forall_impl; [|exact Hl]. now intros x [Hx _].
Qed.

(** ** Rewrapping *)
Definition good_line (l : str) : Prop := firm l /\ spaced l /\ Forall (fun w => tame w = true) (words l).
Lemma wrap_some width text ls : wrap width text = Ok ls -> words text <> nil -> ls <> nil.
Proof. intros H Hw ->. apply wrap_words in H. cbn in H. congruence. Qed.
Lemma stable_good width ls La : Forall good_line ls -> ls <> nil -> stable_wrap width (strip (join [cNL] ls)) = Ok La ->
  La <> nil /\ Forall good_line La /\ stable_wrap width (strip (join [cNL] La)) = Ok La.
Proof.
  intros Hg Hn H. assert (Hfl : Forall firm ls) by (eapply Forall_impl; [|exact Hg]; now intros l (A & _)).
  assert (Hf : firm (join [cNL] ls)) by now apply firm_join. rewrite (firm_strip _ Hf) in H.
  assert (Hs : spaced (join [cNL] ls)) by (apply spaced_join; eapply Forall_impl; [|exact Hg]; now intros l (_ & A & _)).
  pose proof (stable_words _ _ _ H) as Hw. destruct (stable_firm _ _ _ _ H Hs Hf) as [Hl Hfix].
  assert (HLa : La <> nil) by (intros ->; apply (firm_words _ Hf); now rewrite <- Hw).
  split; [exact HLa|]. split.
  - assert (Ht : Forall (fun w => tame w = true) (flat_map words La)).
    { rewrite Hw, words_join. clear -Hg. induction Hg as [|l ls (_ & _ & A) _ IH]; [constructor|]. cbn [flat_map]. apply Forall_app. now split. }
    clear -Hl Ht. induction Hl as [|l La [A B] _ IH]; [constructor|]. cbn [flat_map] in Ht. apply Forall_app in Ht as [T1 T2].
    constructor; auto. split; [exact A|]. split; [now apply clear_spaced|exact T1].
  - rewrite firm_strip by (apply firm_join; auto; eapply Forall_impl; [|exact Hl]; now intros l [A _]).
    unfold stable_wrap. cbn [stable_loop]. rewrite Hfix. cbn [bindr]. now rewrite seqb_refl.
Qed.
(** the text has single blanks: wrapping it to another width first does not matter *)
Lemma munge_wrapped width text ls : 0 < width -> single_spaced text = true -> wrap width text = Ok ls -> munge (join [cNL] ls) = munge text.
Proof.
  intros Hw Hs E1. destruct (single_tight text Hs) as (Ht & He & Hb). set (cs := chunks (munge text)) in *.
  rewrite (munge_rejoin _ _ _ E1). unfold wrap in E1. replace (width <=? 0) with false in E1 by (symmetry; apply Z.leb_gt; lia). injection E1 as <-. fold cs.
  destruct (wrap_rejoin width Hw (List.length cs) false cs (le_n _) Ht He (fun _ => Hb)) as [_ Hj]. rewrite Hj.
  unfold drop_lead. rewrite <- (chunks_concat (munge text)). fold cs. destruct cs as [|w r]; [reflexivity|]. now rewrite Hb.
Qed.
Lemma wrap_munged width t t' : munge t = munge t' -> wrap width t = wrap width t'.
Proof. intros H. unfold wrap. now rewrite H. Qed.
Lemma stable_munged width text t : 0 < width -> single_spaced text = true -> words text <> nil -> munge t = munge text ->
  stable_wrap width t = wrap width text.
Proof.
  intros Hw Hs Hn Hm. destruct (wrap width text) as [ls| |] eqn:E.
  - pose proof (munge_wrapped _ _ _ Hw Hs E) as Hj. unfold stable_wrap. cbn [stable_loop]. rewrite (wrap_munged _ _ _ Hm), E. cbn [bindr].
    destruct (seqb (join [cNL] ls) t); auto. pose proof (wrap_some _ _ _ E Hn) as Hls. destruct ls as [|l ls]; [congruence|].
    rewrite (wrap_munged _ _ _ Hj), E. cbn [bindr]. now rewrite seqb_refl.
  - unfold wrap in E. replace (width <=? 0) with false in E by (symmetry; apply Z.leb_gt; lia). discriminate.
  - unfold wrap in E. replace (width <=? 0) with false in E by (symmetry; apply Z.leb_gt; lia). discriminate.
Qed.
Lemma single_from_app a b : single_from a = true -> single_spaced b = true -> b <> nil -> single_from (a ++ cNL :: b) = true.
Proof.
  intros Ha Hb Hn. induction a as [|c a IH].
  - cbn [app single_from]. destruct b as [|d b]; [congruence|]. cbn [single_spaced] in Hb. apply andb_prop in Hb as [H1 H2]. change (is_uspace cNL) with true. cbv iota.
    now rewrite H1, H2.
  - destruct a as [|d a].
    + cbn [single_from] in Ha. apply negb_true_iff in Ha. cbn [app] in *. specialize (IH eq_refl).
      change (single_from (c :: cNL :: b)) with ((if is_uspace c then (N.eqb c cSP || N.eqb c cNL) && negb (is_uspace cNL) else true) && single_from (cNL :: b)). now rewrite Ha, IH.
    + change (single_from (c :: d :: a)) with ((if is_uspace c then (N.eqb c cSP || N.eqb c cNL) && negb (is_uspace d) else true) && single_from (d :: a)) in Ha.
      apply andb_prop in Ha as [H1 H2]. cbn [app] in *.
      change (single_from (c :: d :: a ++ cNL :: b)) with ((if is_uspace c then (N.eqb c cSP || N.eqb c cNL) && negb (is_uspace d) else true) && single_from (d :: a ++ cNL :: b)).
      rewrite H1. now apply IH.
Qed.
Lemma single_join ls : Forall (fun l => firm l /\ single_spaced l = true) ls -> single_spaced (join [cNL] ls) = true.
Proof.
  induction 1 as [|l ls [F H] Hls IH]; [reflexivity|]. destruct ls as [|m ls]; [exact H|].
  change (join [cNL] (l :: m :: ls)) with (l ++ cNL :: join [cNL] (m :: ls)).
  assert (Hn : join [cNL] (m :: ls) <> nil).
  { inversion Hls as [|? ? [Fm _] _]; subst. destruct m; [destruct Fm as [[] _]|]. destruct ls; discriminate. }
  destruct l as [|c l]; [destruct F as [[] _]|]. cbn [single_spaced] in H. apply andb_prop in H as [H1 H2].
  cbn [app single_spaced]. rewrite H1. cbn [andb]. exact (single_from_app _ _ H2 IH Hn).
Qed.
Lemma stable_even wa wb ls La : 0 < wa -> 0 < wb -> Forall good_line ls -> ls <> nil -> Forall (fun l => single_spaced l = true) ls ->
  stable_wrap wa (strip (join [cNL] ls)) = Ok La -> stable_wrap wb (strip (join [cNL] La)) = stable_wrap wb (strip (join [cNL] ls)).
Proof.
  intros Hwa Hwb Hg Hn Hs H. assert (Hfl : Forall firm ls) by (eapply Forall_impl; [|exact Hg]; now intros l (A & _)).
  assert (Hf : firm (join [cNL] ls)) by now apply firm_join.
  destruct (stable_good _ _ _ Hg Hn H) as (HLa & HgL & _).
  assert (HfL : firm (join [cNL] La)) by (apply firm_join; auto; eapply Forall_impl; [|exact HgL]; now intros l (A & _)).
  rewrite (firm_strip _ Hf) in *. rewrite (firm_strip _ HfL).
  assert (Hss : single_spaced (join [cNL] ls) = true).
  { apply single_join. clear -Hs Hfl. induction Hfl; inversion Hs; subst; constructor; auto. }
  rewrite (stable_munged _ _ _ Hwa Hss (firm_words _ Hf) eq_refl) in H.
  rewrite (stable_munged wb (join [cNL] ls) (join [cNL] La) Hwb Hss (firm_words _ Hf)) by (exact (munge_wrapped _ _ _ Hwa Hss H)).
  symmetry. apply stable_munged; auto. now apply firm_words.
Qed.

(** ** Reading prose *)
Definition usual_markup (c : mcfg) : Prop :=
  (forall l, mk_fence c l = fence_match l) /\ (forall l, mk_ruler c l = ruler_match l) /\ (forall l, mk_ruler0 c l = ruler_match l)
  /\ mk_literal c = None /\ mk_first_literal c = false /\ mk_enable c = true.
Definition ends (st : option Markup.ckind) : Prop := st = None \/ st = Some CSep \/ st = Some CPara.
(** paragraphs and blank lines in turn *)
Fixpoint in_turn (st : option Markup.ckind) (its : list citem) : Prop :=
  match its with
  | nil => True
  | CItem k i ls :: r =>
      i = 0 /\ (k = CSep /\ ls = nil /\ st <> Some CSep \/ k = CPara /\ ls <> nil /\ Forall good_line ls /\ st <> Some CPara) /\ in_turn (Some k) r
  end.
(** the state after one more line *)
Definition next_st (l : str) : option Markup.ckind := match l with nil => Some CSep | _ => Some CPara end.
Lemma read_line c o st nx l : usual_markup c -> ends st -> prose_line l = true ->
  parse_line c (PSt o st nx) l
  = PSt (match l, st with
         | nil, Some CSep => o
         | nil, _ => CItem CSep 0 nil :: o
         | _, Some CPara => add_line o (strip l)
         | _, _ => CItem CPara 0 [strip l] :: o
         end) (next_st l) nx.
Proof.
  intros (U1 & U2 & U3 & _) He Hp. unfold parse_line. rewrite U1. destruct l as [|x l].
  - change (fence_match nil) with (@None (str * str)). cbv iota. unfold parse_text. cbn [ps_state ps_objs ps_next].
    destruct He as [-> |[-> | ->]]; reflexivity.
  - unfold prose_line in Hp. apply andb_prop in Hp as [Hp Hn]. apply andb_prop in Hp as [_ Hp]. destruct (words (x :: l)) as [|w ws] eqn:Ew; [discriminate|].
    cbn [forallb] in Hp. apply andb_prop in Hp as [Hp _]. destruct (tame_all _ _ _ Ew Hp) as (T1 & T2 & T3 & T4 & T5).
    rewrite T5. unfold parse_text. cbn [ps_state ps_objs ps_next].
    destruct He as [-> |[-> | ->]]; rewrite U2, ?U3, T4, ?T1, ?T2, T3; reflexivity.
Qed.
Lemma next_ends l : ends (next_st l).
Proof. destruct l; [right; now left|right; now right]. Qed.
Lemma prose_good l : prose_line l = true -> l <> nil -> good_line (strip l).
Proof.
  intros Hp Hn. unfold prose_line in Hp. destruct l as [|x l]; [congruence|]. set (m := x :: l) in *. clearbody m. apply andb_prop in Hp as [Hp Hw]. apply andb_prop in Hp as [Hs Ht].
  assert (Hf : firm (strip m)) by (apply strip_firm; destruct (words m); [discriminate|congruence]).
  split; [exact Hf|]. split.
  - unfold spaced. rewrite Forall_forall. intros c Hc Hu. rewrite forallb_forall in Hs.
    assert (Hin : In c m).
    { unfold strip, strip_by in Hc. apply rstrip_incl in Hc. destruct (lstrip_by_app is_uspace m) as (a & Ea & _). rewrite Ea. apply in_or_app. now right. }
    apply Hs in Hin. rewrite Hu in Hin. exact Hin.
  - rewrite words_strip. rewrite forallb_forall in Ht. rewrite Forall_forall. auto.
Qed.
Lemma read_all c (Q : str -> Prop) ils : usual_markup c -> forallb prose_line ils = true -> (forall l, In l ils -> l <> nil -> Q (strip l)) ->
  (forall st o nx, st = None \/ st = Some CSep -> exists its st', in_turn st its /\ Forall (fun it => Forall Q (i_lines it)) its
     /\ fold_left (parse_line c) ils (PSt o st nx) = PSt (rev its ++ o) st' nx)
  /\ (forall ls0 o nx, exists more its st', Forall good_line more /\ Forall Q more /\ in_turn (Some CPara) its /\ Forall (fun it => Forall Q (i_lines it)) its
     /\ fold_left (parse_line c) ils (PSt (CItem CPara 0 ls0 :: o) (Some CPara) nx) = PSt (rev its ++ CItem CPara 0 (ls0 ++ more) :: o) st' nx).
Proof.
  intros U. induction ils as [|l ils IH]; intros Hp HQ.
  - split.
    + intros st o nx _. exists nil, st. repeat split. constructor.
    + intros ls0 o nx. exists nil, nil, (Some CPara). rewrite app_nil_r. repeat split; constructor.
  - cbn [forallb] in Hp. apply andb_prop in Hp as [Hl Hp]. destruct (IH Hp (fun l' H => HQ l' (or_intror H))) as [IH1 IH2]. split.
    + intros st o nx Hst. assert (Hes : ends st) by (destruct Hst as [-> | ->]; [now left|right; now left]). cbn [fold_left]. rewrite (read_line _ _ _ _ _ U) by auto. destruct l as [|x l].
      * cbn [next_st]. destruct Hst as [-> | ->].
        -- destruct (IH1 (Some CSep) (CItem CSep 0 nil :: o) nx (or_intror eq_refl)) as (its & st' & I1 & I2 & I3). exists (CItem CSep 0 nil :: its), st'. split; [|split].
           ++ cbn [in_turn]. split; auto. split; auto. left. repeat split. discriminate.
           ++ constructor; auto. constructor.
           ++ rewrite I3. cbn [rev]. now rewrite <- app_assoc.
        -- apply IH1. now right.
      * assert (Hg : good_line (strip (x :: l))) by (apply prose_good; auto; discriminate). assert (Hq : Q (strip (x :: l))) by (apply HQ; [now left|discriminate]).
        set (m := strip (x :: l)) in *. clearbody m. cbn [next_st].
        destruct (IH2 [m] o nx) as (more & its & st' & I1 & I2 & I3 & I4 & I5). exists (CItem CPara 0 (m :: more) :: its), st'. split; [|split].
        -- cbn [in_turn]. split; auto. split; auto. right. repeat split; [discriminate|now constructor|destruct Hst as [-> | ->]; discriminate].
        -- constructor; auto. now constructor.
        -- destruct Hst as [-> | ->]; rewrite I5; cbn [rev app]; now rewrite <- app_assoc.
    + intros ls0 o nx. cbn [fold_left]. rewrite (read_line _ _ _ _ _ U) by (auto; right; now right). destruct l as [|x l].
      * cbn [next_st]. destruct (IH1 (Some CSep) (CItem CSep 0 nil :: CItem CPara 0 ls0 :: o) nx (or_intror eq_refl)) as (its & st' & I1 & I2 & I3).
        exists nil, (CItem CSep 0 nil :: its), st'. rewrite app_nil_r. split; [constructor|]. split; [constructor|]. split; [|split].
        -- cbn [in_turn]. split; auto. split; auto. left. repeat split. discriminate.
        -- constructor; auto. constructor.
        -- rewrite I3. cbn [rev]. now rewrite <- app_assoc.
      * assert (Hg : good_line (strip (x :: l))) by (apply prose_good; auto; discriminate). assert (Hq : Q (strip (x :: l))) by (apply HQ; [now left|discriminate]).
        set (m := strip (x :: l)) in *. clearbody m. cbn [next_st add_line]. destruct (IH2 (ls0 ++ [m]) o nx) as (more & its & st' & I1 & I2 & I3 & I4 & I5).
        exists (m :: more), its, st'. rewrite <- app_assoc in I5. repeat split; auto.
Qed.
Definition even_items (its : list citem) : Prop := Forall (fun it => Forall (fun l => single_spaced l = true) (i_lines it)) its.
Lemma read_prose c ils : usual_markup c -> forallb prose_line ils = true ->
  in_turn None (parse_markup c ils) /\ (forallb (fun l => single_spaced (strip l)) ils = true -> even_items (parse_markup c ils)).
Proof.
  intros U Hp. unfold parse_markup. split.
  - destruct (proj1 (read_all c (fun _ => True) ils U Hp (fun _ _ _ => I)) None nil (fun _ => None) (or_introl eq_refl)) as (its & st' & H1 & _ & ->).
    cbn [ps_objs]. now rewrite app_nil_r, rev_involutive.
  - intros Hs. rewrite forallb_forall in Hs.
    destruct (proj1 (read_all c (fun l => single_spaced l = true) ils U Hp (fun l Hin _ => Hs l Hin)) None nil (fun _ => None) (or_introl eq_refl)) as (its & st' & _ & H2 & ->).
    cbn [ps_objs]. now rewrite app_nil_r, rev_involutive.
Qed.

(** ** Reading the lines written *)
Definition pad (l : str) : str := match l with nil => nil | _ => cSP :: l end.
Definition ilines (it : citem) : list str := match i_kind it with CSep => [nil] | _ => i_lines it end.
Lemma good_pad l : good_line l -> prose_line (pad l) = true /\ pad l <> nil /\ strip (pad l) = l.
Proof.
  intros (F & S & Tm). destruct l as [|x l]; [destruct F as [[] _]|]. set (m := x :: l) in *. change (pad m) with (cSP :: m). clearbody m. split; [|split]; [|discriminate|].
  - unfold prose_line. rewrite (words_cons_blank cSP m) by reflexivity. cbn [forallb]. apply andb_true_intro. split; [apply andb_true_intro; split|].
    + apply andb_true_intro. split; [reflexivity|]. rewrite forallb_forall. intros c Hc. unfold spaced in S. rewrite Forall_forall in S. specialize (S _ Hc).
      destruct (is_uspace c); [now rewrite S|reflexivity].
    + rewrite forallb_forall. rewrite Forall_forall in Tm. auto.
    + pose proof (firm_words _ F). destruct (words m); [congruence|reflexivity].
  - pose proof (firm_strip _ F) as Hf. unfold strip, strip_by in *. cbn [lstrip_by]. exact Hf.
Qed.
Lemma reread_more c ms : usual_markup c -> Forall good_line ms -> forall acc o nx,
  fold_left (parse_line c) (map pad ms) (PSt (CItem CPara 0 acc :: o) (Some CPara) nx) = PSt (CItem CPara 0 (acc ++ ms) :: o) (Some CPara) nx.
Proof.
  intros U. induction 1 as [|m ms Hm _ IH]; intros acc o nx; [now rewrite app_nil_r|]. cbn [map fold_left].
  destruct (good_pad _ Hm) as (P1 & P2 & P3). rewrite (read_line _ _ _ _ _ U) by (auto; right; now right). rewrite P3.
  destruct (pad m) as [|x p]; [congruence|]. cbn [next_st add_line]. rewrite IH. now rewrite <- app_assoc.
Qed.
Lemma reread c its : usual_markup c -> forall st o nx, ends st -> in_turn st its ->
  exists st', fold_left (parse_line c) (map pad (flat_map ilines its)) (PSt o st nx) = PSt (rev its ++ o) st' nx.
Proof.
  intros U. induction its as [|[k i ls] its IH]; intros st o nx He Hi; [exists st; reflexivity|]. cbn [in_turn] in Hi. destruct Hi as (-> & Hk & Hi).
  cbn [flat_map]. rewrite map_app, fold_left_app. destruct Hk as [(-> & -> & Hne)|(-> & Hls & Hg & Hne)].
  - change (map pad (ilines (CItem CSep 0 nil))) with [@nil chr]. cbn [fold_left]. rewrite (read_line _ _ _ _ _ U) by auto. cbn [next_st].
    destruct (IH (Some CSep) (CItem CSep 0 nil :: o) nx ltac:(right; now left) Hi) as (st' & H). exists st'.
    replace (match st with Some CSep => o | _ => CItem CSep 0 nil :: o end) with (CItem CSep 0 nil :: o) by (destruct He as [-> |[-> | ->]]; congruence).
    rewrite H. cbn [rev]. now rewrite <- app_assoc.
  - change (ilines (CItem CPara 0 ls)) with ls. destruct ls as [|m ms]; [congruence|]. inversion Hg as [|? ? Hm Hms]; subst. cbn [map fold_left].
    destruct (good_pad _ Hm) as (P1 & P2 & P3). rewrite (read_line _ _ _ _ _ U) by auto. rewrite P3. destruct (pad m) as [|x p]; [congruence|]. cbn [next_st].
    replace (match st with Some CPara => add_line o m | _ => CItem CPara 0 [m] :: o end) with (CItem CPara 0 [m] :: o) by (destruct He as [-> |[-> | ->]]; congruence).
    rewrite (reread_more _ _ U Hms). destruct (IH (Some CPara) (CItem CPara 0 (m :: ms) :: o) nx ltac:(right; now right) Hi) as (st' & H). exists st'.
    cbn [app]. rewrite H. cbn [rev]. now rewrite <- app_assoc.
Qed.

(** ** Writing prose *)
Lemma written wa ca : forall its st h La, 0 < wa -> in_turn st its -> format_items ca wa h its = Ok La ->
  exists its', in_turn st its' /\ La = flat_map ilines its'
  /\ (forall cb wb h', 0 < wb -> wb = wa \/ even_items its -> format_items cb wb h' its' = format_items cb wb h' its).
Proof.
  induction its as [|[k i ls] its IH]; intros st h La Hwa Hi H.
  - injection H as <-. exists nil. now repeat split.
  - cbn [in_turn] in Hi. destruct Hi as (-> & Hk & Hi). cbn [format_items] in H.
    destruct Hk as [(-> & -> & Hne)|(-> & Hls & Hg & Hne)]; cbn [i_kind is_list_k is_sep_k] in H; apply bindr_ok in H as (x & Hx & H); apply bindr_ok in H as (y & Hy & H); injection H as <-;
      destruct (IH _ _ _ Hwa Hi Hy) as (its' & I1 & -> & I3).
    + injection Hx as <-. exists (CItem CSep 0 nil :: its'). split; [cbn [in_turn]; split; auto; split; auto; left; repeat split; auto|]. split; [reflexivity|].
      intros cb wb h' Hwb He. cbn [format_items i_kind is_list_k is_sep_k]. rewrite I3; auto. destruct He as [He|He]; [now left|right]. now inversion He.
    + unfold format_item in Hx. cbn [i_kind is_hashruler i_lines andb] in Hx. destruct (stable_good _ _ _ Hg Hls Hx) as (G1 & G2 & G3).
      exists (CItem CPara 0 x :: its'). split; [cbn [in_turn]; split; auto; split; auto; right; repeat split; auto|]. split; [reflexivity|].
      intros cb wb h' Hwb He. cbn [format_items i_kind is_list_k is_sep_k]. unfold format_item. cbn [i_kind is_hashruler i_lines andb].
      assert (Ew : stable_wrap wb (strip (join [cNL] x)) = stable_wrap wb (strip (join [cNL] ls))).
      { destruct He as [->|He]; [congruence|]. inversion He; subst. eapply (stable_even wa wb); eauto. }
      unfold is_hashruler. cbn [i_kind andb]. rewrite Ew, I3; auto. destruct He as [He|He]; [now left|right]. now inversion He.
Qed.

(** ** Two runs *)
(** The pattern for explicit trailing comments does not match a line that begins with a
    hash and a space, nor a hash alone. *)
Definition hash_plain (x : pctx) : Prop := explicit x [cHASH] = false /\ forall l, explicit x (cHASH :: cSP :: l) = false.
Definition out_line (l : str) : str := [cHASH] ++ spaces (zlen (firstn 1 l)) ++ l.
Lemma out_pad l : out_line l = cHASH :: pad l.
Proof. destruct l; reflexivity. Qed.
Lemma out_read c l : mk_enable c = true -> l = nil \/ firm l -> Markup.comment_line c false (out_line l) = pad l.
Proof.
  intros Hm Hl. unfold Markup.comment_line. rewrite Hm. cbn [negb]. rewrite out_pad.
  assert (Es : strip (cHASH :: pad l) = cHASH :: pad l).
  { destruct Hl as [->|Hl]; [reflexivity|]. destruct l as [|x l]; [destruct Hl as [[] _]|]. apply firm_strip. split; [reflexivity|].
    cbn [pad]. change (cHASH :: cSP :: x :: l) with ([cHASH; cSP] ++ (x :: l)). rewrite rev_app_distr. destruct Hl as [_ Hl]. destruct (rev (x :: l)); [destruct Hl|exact Hl]. }
  rewrite Es. cbn [tl]. destruct (startswith _ _); [reflexivity|]. destruct l; reflexivity.
Qed.
Lemma turn_lines its : forall st l, in_turn st its -> In l (flat_map ilines its) -> l = nil \/ firm l.
Proof.
  induction its as [|[k i ls] its IH]; intros st l Hi Hin; [destruct Hin|]. cbn [in_turn] in Hi. destruct Hi as (_ & Hk & Hi). cbn [flat_map] in Hin. apply in_app_or in Hin as [Hin|Hin]; [|eauto].
  destruct Hk as [(-> & _)|(-> & _ & Hg & _)]; cbn [ilines i_kind i_lines] in Hin.
  - destruct Hin as [<-|[]]. now left.
  - rewrite Forall_forall in Hg. right. apply (Hg _ Hin).
Qed.
Lemma usual_format c first pcs w : usual_markup c -> match pcs with T t :: _ => negb (startswith $"#!" (spelling t)) = true | _ => True end ->
  format_comment c first false pcs w
  = let? ils := comment_inlines c false pcs in let? ls := format_items c (Z.max 10 (w - 2)) nil (parse_markup c ils) in Ok (map out_line ls).
Proof.
  intros (_ & _ & _ & U4 & U5 & U6) Hb. unfold format_comment. destruct (comment_inlines c false pcs) as [ils| |]; [|reflexivity..]. cbn [bindr]. rewrite U4, U5, U6. cbn [negb orb].
  destruct pcs as [|[t|k cs] pcs]; try reflexivity. apply negb_true_iff in Hb. rewrite Hb, andb_false_r. reflexivity.
Qed.
Lemma same_inlines a b pcs : mk_enable a = true -> mk_enable b = true -> mk_hash_min a = mk_hash_min b -> comment_inlines a false pcs = comment_inlines b false pcs.
Proof.
  intros Ha Hb Hh. induction pcs as [|[t|k cs] pcs IH]; auto. cbn [comment_inlines]. rewrite IH. unfold Markup.comment_line. now rewrite Ha, Hb, Hh.
Qed.
Lemma same_parse a b lines : usual_markup a -> usual_markup b -> forallb prose_line lines = true -> parse_markup a lines = parse_markup b lines.
Proof.
  intros Ua Ub H. unfold parse_markup. f_equal. f_equal. assert (He : ends None) by now left. revert H He. generalize (@nil citem) as o. generalize (@None Markup.ckind) as st. generalize (fun _ : str => @None str) as nx.
  induction lines as [|l lines IH]; intros nx st o H He; auto. cbn [forallb] in H. apply andb_prop in H as [H1 H2]. cbn [fold_left].
  rewrite (read_line _ _ _ _ _ Ua He H1), (read_line _ _ _ _ _ Ub He H1). apply IH; auto. apply next_ends.
Qed.
Lemma prose_fixed a b src text toks toks' d pcs : usual_markup (p_markup a) -> usual_markup (p_markup b) -> mk_hash_min (p_markup a) = mk_hash_min (p_markup b) -> hash_plain (p_ctx a) ->
  prose (p_markup a) pcs = true ->
  f_linewidth (effective a src) - deptha (pipe_env a src toks) d = f_linewidth (effective b src) - depth (effective b src) d \/ even_prose (p_markup a) pcs = true ->
  comment_fixed a b src text toks toks' d pcs.
Proof.
  intros Ua Ub Hh Hx Hp He La H. cbn [cmt pipe_env cfg] in *. unfold prose in Hp.
  destruct (comment_inlines (p_markup a) false pcs) as [ils| |] eqn:Ei; try discriminate. apply andb_prop in Hp as [Hp Hb].
  assert (Hb' : match pcs with T t :: _ => negb (startswith $"#!" (spelling t)) = true | _ => True end) by (destruct pcs as [|[t|] ?]; auto).
  rewrite (usual_format _ _ _ _ Ua Hb'), Ei in H. cbn [bindr] in H. apply bindr_ok in H as (Lf & HL & H). injection H as <-.
  destruct (read_prose _ _ Ua Hp) as [R1 R2].
  edestruct written as (its' & W1 & E & W3); [|exact R1|exact HL|]; [lia|]. subst Lf.
  assert (Hlines : forall s, In s (map out_line (flat_map ilines its')) -> s = [cHASH] \/ exists l, s = cHASH :: cSP :: l).
  { intros s Hs. apply in_map_iff in Hs as (l & <- & _). rewrite out_pad. destruct l; [now left|right; eexists; reflexivity]. }
  split.
  - intros s Hs. destruct Hx as [X1 X2]. destruct (Hlines _ Hs) as [->|(l & ->)]; auto.
  - intros ts _ Hc Hsp Hhd.
    pose proof Ub as (_ & _ & _ & _ & U5 & U6). pose proof Ua as (_ & _ & _ & _ & _ & U6a).
    rewrite (lines_alike _ _ _ _ _ U5 Hc Hsp Hhd) by (intros s Hs; destruct (Hlines _ Hs) as [->|(l & ->)]; reflexivity).
    rewrite (usual_format _ (first_token toks) pcs _ Ub Hb'), <- (same_inlines (p_markup a) (p_markup b)), Ei by auto. cbn [bindr].
    assert (Eo : comment_inlines (p_markup b) false (as_lines (map out_line (flat_map ilines its'))) = Ok (map pad (flat_map ilines its'))).
    { unfold as_lines. rewrite <- (map_map (fun s => Tok COMMENT s (Loc 0 0 0)) T). rewrite inlines_toks. rewrite map_map. fold (as_lines (map out_line (flat_map ilines its'))). rewrite notes_lines, map_map.
      f_equal. apply map_ext_in. intros l Hl. apply out_read; auto. eapply turn_lines; eauto. }
    assert (Hb2 : match as_lines (map out_line (flat_map ilines its')) with T t :: _ => negb (startswith $"#!" (spelling t)) = true | _ => True end).
    { destruct (flat_map ilines its') as [|l q]; [exact I|]. cbn [map as_lines spelling]. rewrite out_pad. destruct l; reflexivity. }
    rewrite (usual_format _ None _ _ Ub Hb2), Eo. cbn [bindr].
    assert (Ep : parse_markup (p_markup b) (map pad (flat_map ilines its')) = its').
    { unfold parse_markup. destruct (reread _ _ Ub None nil (fun _ => None) ltac:(now left) W1) as (st' & ->). cbn [ps_objs]. now rewrite app_nil_r, rev_involutive. }
    rewrite Ep, W3; [now rewrite (same_parse _ _ _ Ua Ub Hp)|lia|].
    destruct He as [He|He]; [left; now rewrite <- He|right]. apply R2. unfold even_prose in He. rewrite Ei in He. now apply andb_prop in He as [_ He].
Qed.
Theorem C134_restyle a b specs tbl src text v textb vb :
  run_cfg a specs tbl -> run_cfg b specs tbl -> p_ctx b = p_ctx a -> table_nb tbl = true ->
  p_usetabs a = false -> f_endl (effective a src) = [cNL] -> markup_calm (p_markup a) ->
  usual_markup (p_markup a) -> usual_markup (p_markup b) -> mk_hash_min (p_markup a) = mk_hash_min (p_markup b) -> hash_plain (p_ctx a) ->
  f_autosort (p_fmt a) = false -> f_autosort (p_fmt b) = false ->
  overrides (p_fmt a) (p_fmt b) -> plain_passes2 (p_fmt a) -> plain_passes2 (p_fmt b) ->
  effective b text = effective b src ->
  settled_source a (fun _ => even_prose (p_markup a)) src ->
  process_file a src = Ok (text, v) -> process_file b src = Ok (textb, vb) ->
  exists v', process_file b text = Ok (textb, v').
Proof.
  intros R Rb Ec Hnb Ht He Hc Ua Ub Hh Hx Ha Hab Hov Hpa Hpb Hee (toks & tree & Hl & Hp & Hap & Hno & Hst & Hse & Hlev & Hq & Hfull & Hco & Hlow) H Hbr.
  eapply (restyle_comments a b) with (chk := fun _ => even_prose (p_markup a)); eauto. intros toks' _ d pcs Hk. apply prose_fixed; auto.
  unfold even_prose in Hk. now apply andb_prop in Hk as [Hk _].
Qed.
(** Formatting the formatter's output changes nothing, whatever the blanks between the
    words are. *)
Theorem C134_idempotent c specs tbl src text v :
  run_cfg c specs tbl -> table_nb tbl = true ->
  p_usetabs c = false -> f_endl (effective c src) = [cNL] -> effective c text = effective c src -> markup_calm (p_markup c) ->
  usual_markup (p_markup c) -> hash_plain (p_ctx c) -> f_autosort (p_fmt c) = false -> case_blind (p_fmt c) -> plain_passes2 (p_fmt c) ->
  settled_source c (fun _ => prose (p_markup c)) src ->
  process_file c src = Ok (text, v) ->
  exists v', process_file c text = Ok (text, v').
Proof.
  intros R Hnb Ht He Hee Hc U Hx Ha Hcb Hpa (toks & tree & Hl & Hp & Hap & Hno & Hst & Hse & Hlev & Hq & Hfull & Hco & Hlow) H.
  eapply (restyle_comments c c) with (chk := fun _ => prose (p_markup c)); eauto using overrides_same. intros toks' _ d pcs Hk. apply prose_fixed; auto.
Qed.
(** *** A file *)
Definition src_prose : str := nl
  [$"# This   file builds the project.  It must be read"; $"#	with care (see README), and"; $"#     nothing in it is to be changed by hand"; $"#"; $"##"; $"# -j4 is given to make.";
   $"IF(NOT (A AND ""a;b""))"; $"";
   $"  myfun(x FAST SRC z.c y.c"; $"    w.c ${dir}/v.c [=["; $" text ]=])"; $"      ##  perhaps it is wise to wait until"; $"      # the end"; $"Endif() FOREACH(i RANGE 3)"; $"  # in"; $"EndForeach()"; $""; $"";
   $"set_target_properties(foo PROPERTIES A b"; $"C d) add_custom_target(x ALL COMMAND rm -f x COMMENT ""bye"")"; $"#last"].
Lemma default_usual : usual_markup default_mcfg. Proof. repeat split. Qed.
Lemma user_hash : hash_plain (p_ctx flat_pcfg). Proof. split; reflexivity. Qed.
Example C134_ex : exists text textb,
  settled_source flat_pcfg (fun _ => prose default_mcfg) src_prose
  /\ process_file flat_pcfg src_prose = Ok (text, true) /\ text <> src_prose /\ (exists v, process_file flat_pcfg text = Ok (text, v))
  /\ settled_source flat_pcfg (fun _ => even_prose default_mcfg) src_notes
  /\ exists textc, process_file flat_pcfg src_notes = Ok (textc, true) /\ process_file other_pcfg src_notes = Ok (textb, true) /\ textb <> textc
  /\ exists v, process_file other_pcfg textc = Ok (textb, v).
Proof.
  assert (Hx : exists text, process_file flat_pcfg src_prose = Ok (text, true)) by (eexists; vm_compute; reflexivity). destruct Hx as [text Hx].
  assert (Hz : exists text, process_file flat_pcfg src_notes = Ok (text, true)) by (eexists; vm_compute; reflexivity). destruct Hz as [textc Hz].
  assert (Hy : exists textb, process_file other_pcfg src_notes = Ok (textb, true)) by (eexists; vm_compute; reflexivity). destruct Hy as [textb Hy].
  destruct (notes_srced flat_pcfg _ _ (fun _ _ => prose default_mcfg) src_prose flat_run user_quiet ltac:(vm_compute; reflexivity)) as (toks & Hl & Hs).
  destruct (notes_srced flat_pcfg _ _ (fun _ _ => even_prose default_mcfg) src_notes flat_run user_quiet ltac:(vm_compute; reflexivity)) as (toks1 & Hl1 & Hs1).
  assert (Hnb : table_nb user_tbl = true) by (vm_compute; reflexivity).
  assert (Hcb : case_blind (p_fmt flat_pcfg)) by (intros s s' E; split; [reflexivity|exact E]).
  assert (Hpp : plain_passes2 flat_fcfg) by (repeat split). assert (Hpp2 : plain_passes2 other_fcfg) by (repeat split).
  exists text, textb. split; [exact Hs|]. split; [exact Hx|]. split; [clear -Hx; vm_compute in Hx; injection Hx as <-; discriminate|]. split.
  { exact (C134_idempotent flat_pcfg _ _ src_prose text _ flat_run Hnb eq_refl eq_refl eq_refl default_calm default_usual user_hash eq_refl Hcb Hpp Hs Hx). }
  split; [exact Hs1|]. exists textc. split; [exact Hz|]. split; [exact Hy|]. split; [clear -Hz Hy; vm_compute in Hz; vm_compute in Hy; injection Hz as <-; injection Hy as <-; discriminate|].
  exact (C134_restyle flat_pcfg other_pcfg _ _ src_notes textc _ _ _ flat_run other_run eq_refl Hnb eq_refl eq_refl default_calm default_usual default_usual eq_refl user_hash eq_refl eq_refl flat_over Hpp Hpp2 eq_refl Hs1 Hz Hy).
Qed.
Print Assumptions C134_restyle.
Print Assumptions C134_idempotent.
