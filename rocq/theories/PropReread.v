(** * PropReread: reading the output again *)
From Coq Require Import Permutation.
From Verif Require Import Base Regex Lex LexProofs LexClass PropLex TextOps TextProofs PropText
  Tree Parse ParseProofs PropParse CmdSpec StdSpecs StdDb StdWf PropStd Layout LayoutProofs Pieces Writing
  PropLayout Markup MarkupProofs PropMarkup Pipeline ParseShape StdShape NamesShape WordShape CommentShape CommentFree TidyShape PropFile Reread.

(** ** Scanning a page *)
Lemma scanned_step pv sp d t ts : fmx lexicon pv (sp ++ d) = Some (t, d) -> sp <> nil -> scanned pv (sp ++ d) ts ->
  exists ts', ts = (t, sp) :: ts' /\ scanned (last_or pv sp) d ts'.
Proof.
  intros Hf Hs H. remember (sp ++ d) as s eqn:E.
  destruct H as [pv|pv s t0 sp0 s' ts0 r y Hm Hin Hr Hrel E1 E2 Hne Hsc].
  - destruct sp; [congruence|discriminate].
  - rewrite fmx_eq, Hm in Hf. cbn in Hf. injection Hf as -> Hd. rewrite Hd in E2. subst s'. rewrite E in E1.
    apply app_inv_tail in E1. subst sp0. eauto.
Qed.
Definition solid (w : ttype * str) : bool := negb (tmem (fst w) [WHITESPACE; NEWLINE]).

(** what comes behind a piece *)
Definition nlb (c : chr) : bool := N.eqb c cNL || N.eqb c cSP.

Lemma repeat_nl a : repeat_s a [cNL] = repeat cNL a.
Proof. induction a; simpl; congruence. Qed.
Lemma gap_nl g : gap_text [cNL] g = repeat cNL (fst g) ++ repeat cSP (snd g).
Proof. unfold gap_text, spaces. now rewrite repeat_nl, Nat2Z.id. Qed.
Lemma with_nl s : with_endl [cNL] s = s.
Proof. unfold with_endl. apply join_split. Qed.

Definition not_blank (d : str) : Prop := match d with nil => True | c :: _ => is_blank c = false end.
Lemma scan_spaces b pv d ts : not_blank d -> scanned pv (repeat cSP b ++ d) ts ->
  exists ws ts', ts = ws ++ ts' /\ filter solid ws = nil /\ scanned (last_or pv (repeat cSP b)) d ts'.
Proof.
  intros Hd H. destruct b as [|b]; [exists nil, ts; auto|].
  assert (E : lstrip_by is_blank (repeat cSP b ++ d) = d).
  { rewrite lstrip_app by exact Hd. replace (lstrip_by is_blank (repeat cSP b)) with (@nil chr); auto.
    clear. induction b; auto. }
  assert (Hf : fmx lexicon pv (repeat cSP (S b) ++ d) = Some (WHITESPACE, d)).
  { cbn [repeat app]. rewrite fmx_blank. now rewrite E. }
  destruct (scanned_step _ _ _ _ _ Hf ltac:(discriminate) H) as (ts' & -> & H').
  exists [(WHITESPACE, repeat cSP (S b))], ts'. auto.
Qed.
Lemma scan_gap g pv d ts : not_blank d -> scanned pv (gap_text [cNL] g ++ d) ts ->
  exists ws ts', ts = ws ++ ts' /\ filter solid ws = nil /\ scanned (last_or pv (gap_text [cNL] g)) d ts'.
Proof.
  rewrite gap_nl. destruct g as [a b]. cbn [fst snd]. intros Hd. rewrite <- app_assoc. revert pv ts.
  induction a as [|a IH]; intros pv ts H; cbn [repeat app] in *; [now apply scan_spaces|].
  change (cNL :: repeat cNL a ++ repeat cSP b ++ d) with ([cNL] ++ (repeat cNL a ++ repeat cSP b ++ d)) in H.
  destruct (scanned_step pv [cNL] _ NEWLINE _ (fmx_nl _ _) ltac:(discriminate) H) as (ts' & -> & H').
  apply IH in H' as (ws & ts'' & -> & Hw & H''). exists ((NEWLINE, [cNL]) :: ws), ts''. auto.
Qed.

(** ** What a piece is read as *)
Definition tame (s : str) : bool :=
  match strip_prefix $"cmake-format:" s, strip_prefix $"cmf:" s with None, None => true | _, _ => false end.
(** a line of a comment *)
Definition calm_line (s : str) : bool :=
  match s with
  | c :: l => N.eqb c cHASH && negb (existsb (N.eqb cNL) l)
              && match bopen l with None => true | Some _ => false end
              && negb (sent_at $": off" l) && negb (sent_at $": on" l)
  | nil => false
  end.
Definition bracket_comment (s : str) : bool :=
  match s with
  | c :: b => N.eqb c cHASH && match bracket_rest (fun _ => true) b with Some nil => true | _ => false end
  | nil => false
  end.
Definition reads (p : piece) (t : ttype) : Prop :=
  match p_kind p with
  | PkParen true => p_text p = [cLP] /\ t = LEFT_PAREN
  | PkParen false => p_text p = [cRP] /\ t = RIGHT_PAREN
  | PkWord true => word_rest (p_text p) = Some nil /\ t = WORD /\ tame (p_text p) = true
  | PkWord false => class_of (p_text p) = Some t /\ tame (p_text p) = true
  | PkBracket => bracket_comment (p_text p) = true /\ t = BRACKET_COMMENT
  | PkLine => calm_line (p_text p) = true /\ t = COMMENT
  | PkSwitch => False
  end.

(** the first character of a word *)
Definition aspace_head (d : str) : bool := match d with nil => false | c :: _ => is_aspace c end.
Lemma class_head sp t : class_of sp = Some t -> sp <> nil /\ aspace_head sp = false.
Proof.
  destruct sp as [|c s]; [discriminate|]. intros H. split; [discriminate|]. cbn [aspace_head]. destruct (is_aspace c) eqn:E; auto.
  exfalso. assert (Hok : okd (c :: s) = true) by (cbn; unfold nS_rp; now rewrite E).
  assert (Hg : ftry guarded (c :: s) = None) by now apply okd_guarded.
  pose proof (class_ctx None (c :: s) nil t H eq_refl eq_refl) as Hc. rewrite app_nil_r in Hc.
  rewrite fmx_lexicon, Hg in Hc. unfold legacy_rest in Hc. rewrite okd_ustep in Hc by exact Hok.
  cbn [okb] in Hc. unfold class_of in H.
  assert (Hu : ugo (c :: s) = c :: s) by (rewrite ugo_eq, okd_ustep; auto).
  rewrite Hu in H. revert H. unfold verdicts. cbn [vtry v_quoted].
  unfold guarded in Hg. cbn [ftry quoted_rest] in Hg.
  assert (Hq : forall q, is_aspace q = false -> N.eqb q c = false) by (intros q Hq; apply N.eqb_neq; intros ->; congruence).
  rewrite !Hq by reflexivity. unfold v_bracket, bopen. rewrite Hq by reflexivity.
  unfold num_rest. rewrite Hq by reflexivity.
  assert (digit c = false) as -> by (destruct (digit c) eqn:Ed; auto; apply digit_par in Ed; unfold nS_par in Ed; rewrite E in Ed; discriminate).
  unfold word_rest. assert (wfirst c = false) as -> by (destruct (wfirst c) eqn:Ed; auto; apply wfirst_par in Ed; unfold nS_par in Ed; rewrite E in Ed; discriminate).
  unfold at_rest. rewrite Hq by reflexivity. unfold deref_rest. rewrite Hq by reflexivity.
  destruct s as [|? [|? ?]]; discriminate.
Qed.
Lemma word_head sp : word_rest sp = Some nil -> sp <> nil /\ aspace_head sp = false.
Proof.
  destruct sp as [|c s]; [discriminate|]. unfold word_rest. destruct (wfirst c) eqn:E; [|discriminate]. intros _. split; [discriminate|].
  cbn [aspace_head]. apply wfirst_par in E. unfold nS_par in E. destruct (is_aspace c); [discriminate|reflexivity].
Qed.
Lemma reads_head p t : reads p t -> p_text p <> nil /\ aspace_head (p_text p) = false.
Proof.
  unfold reads. destruct (p_kind p) as [[]|[]| | |].
  - intros [-> _]. split; [discriminate|reflexivity].
  - intros [-> _]. split; [discriminate|reflexivity].
  - intros [H _]. now apply word_head.
  - intros [H _]. now apply (class_head _ t).
  - intros [H _]. unfold bracket_comment in H. destruct (p_text p) as [|c b]; [discriminate|]. apply andb_prop in H as [H _].
    apply N.eqb_eq in H. subst c. split; [discriminate|reflexivity].
  - intros [H _]. unfold calm_line in H. destruct (p_text p) as [|c b]; [discriminate|].
    repeat (apply andb_prop in H as [H _]). apply N.eqb_eq in H. subst c. split; [discriminate|reflexivity].
  - intros [].
Qed.
Lemma aspace_blank c : is_aspace c = false -> is_blank c = false.
Proof.
  unfold is_aspace, is_blank. cbn [existsb]. rewrite !orb_false_iff, !N.eqb_neq. tauto.
Qed.

(** ** The rest of a page behind a piece *)
Definition tailp (gs : list gap) (ps : list piece) : str := page [cNL] gs ps ++ [cNL].
Lemma tail_cons g gs p ps : tailp (g :: gs) (p :: ps) = gap_text [cNL] g ++ p_text p ++ tailp gs ps.
Proof. unfold tailp. cbn [page]. rewrite with_nl. now rewrite <- !app_assoc. Qed.
Lemma gap_zero g d : (fst g = 0)%nat -> (snd g = 0)%nat -> gap_text [cNL] g ++ d = d.
Proof. intros A B. rewrite gap_nl, A, B. reflexivity. Qed.
Lemma gap_head g d : (0 < fst g)%nat \/ (0 < snd g)%nat -> exists c r, gap_text [cNL] g ++ d = c :: r /\ nlb c = true.
Proof.
  rewrite gap_nl. destruct g as [[|a] [|b]]; cbn [fst snd]; intros H; try lia; cbn; eexists _, _; split; reflexivity.
Qed.
Lemma gap_dec g : ((fst g = 0)%nat /\ (snd g = 0)%nat) \/ (0 < fst g)%nat \/ (0 < snd g)%nat.
Proof. destruct g as [[|a] [|b]]; cbn; lia. Qed.
Lemma nlb_rp c : nlb c = true -> nS_rp c = false.
Proof. unfold nlb. rewrite orb_true_iff, !N.eqb_eq. intros [->| ->]; reflexivity. Qed.
Lemma tail_okd k gs ps ts : gaps_ok true (Some k) gs ps -> Forall2 reads ps ts -> (forall b, touch (Some k) b = true -> b = PkParen false) -> okd (tailp gs ps) = true.
Proof.
  intros Hg Hr Hk. destruct gs as [|g gs], ps as [|p ps]; cbn [gaps_ok] in Hg; try (exfalso; exact Hg); [reflexivity|].
  rewrite tail_cons. destruct Hg as [[_ H1] _]. destruct (gap_dec g) as [[A B]|A].
  - rewrite gap_zero by auto. inversion Hr as [|? t ? ? Hp]; subst. unfold reads in Hp.
    destruct (touch (Some k) (p_kind p)) eqn:E; [|destruct (H1 eq_refl); lia]. apply Hk in E. rewrite E in Hp. destruct Hp as [-> _]. reflexivity.
  - destruct (gap_head g (p_text p ++ tailp gs ps) A) as (c & r & -> & Hc). cbn. now rewrite (nlb_rp _ Hc).
Qed.
Lemma tail_okp gs ps ts : gaps_ok true (Some (PkWord true)) gs ps -> Forall2 reads ps ts -> okp (tailp gs ps) = true.
Proof.
  intros Hg Hr. destruct gs as [|g gs], ps as [|p ps]; cbn [gaps_ok] in Hg; try (exfalso; exact Hg); [reflexivity|].
  rewrite tail_cons. destruct Hg as [[_ H1] _]. destruct (gap_dec g) as [[A B]|A].
  - rewrite gap_zero by auto. inversion Hr as [|? t ? ? Hp]; subst. unfold reads in Hp.
    destruct (p_kind p) as [[]| | | |]; try (destruct (H1 eq_refl); lia); destruct Hp as [-> _]; reflexivity.
  - destruct (gap_head g (p_text p ++ tailp gs ps) A) as (c & r & -> & Hc). apply nlb_rp in Hc.
    apply okd_okp. cbn. now rewrite Hc.
Qed.

(** ** Lines of comments in front of a page *)
Lemma strip_prefix_stop p s d : strip_prefix p s = None -> (match d with nil => True | c :: _ => existsb (N.eqb c) p = false end) ->
  strip_prefix p (s ++ d) = None.
Proof.
  revert s. induction p as [|a p IH]; intros s H Hd; cbn [strip_prefix] in *; [discriminate|].
  destruct s as [|e s]; cbn [app].
  - destruct d as [|e d]; auto. cbn [existsb] in Hd. apply orb_false_iff in Hd as [Hd _]. now rewrite N.eqb_sym, Hd.
  - destruct (N.eqb a e); auto. apply IH; auto. destruct d; auto. cbn [existsb] in Hd. apply orb_false_iff in Hd. tauto.
Qed.
Lemma tame_ctx s d o : tame s = true -> okp d = true ->
  strip_prefix ($"cmake-format" ++ 58%N :: o) (s ++ d) = None /\ strip_prefix ($"cmf" ++ 58%N :: o) (s ++ d) = None.
Proof.
  intros Ht Hd. unfold tame in Ht.
  change ($"cmake-format" ++ 58%N :: o) with ($"cmake-format:" ++ o). change ($"cmf" ++ 58%N :: o) with ($"cmf:" ++ o).
  rewrite !strip_prefix_app.
  destruct (strip_prefix $"cmake-format:" s) eqn:E1; [discriminate|]. destruct (strip_prefix $"cmf:" s) eqn:E2; [discriminate|].
  rewrite !strip_prefix_stop; auto; destruct d as [|c d]; auto; cbn in Hd; apply negb_true_iff, nS_par_false in Hd;
    destruct Hd as [Hd|[->| ->]]; try reflexivity;
    match goal with |- ?e = false => destruct e eqn:Ee; auto end; exfalso; apply existsb_exists in Ee as (x & Hx & Ex);
    apply N.eqb_eq in Ex; subst x; cbn in Hx; repeat (destruct Hx as [<-|Hx]; [discriminate|]); destruct Hx.
Qed.
Lemma lstrip_gap g d : lstrip_by is_aspace (gap_text [cNL] g ++ d) = lstrip_by is_aspace d.
Proof.
  rewrite gap_nl, <- app_assoc. destruct g as [a b]. cbn [fst snd].
  induction a as [|a IH]; cbn [repeat app]; [|exact IH]. induction b as [|b IH]; cbn [repeat app]; auto.
Qed.
(** no switch hides in the rest of a page *)
Lemma tail_sent o gs ps ts : Forall2 reads ps ts -> gaps_ok true (Some PkLine) gs ps ->
  sent_at (58%N :: o) (tailp gs ps) = false.
Proof.
  intros Hr Hg. unfold sent_at. destruct gs as [|g gs], ps as [|p ps]; cbn [gaps_ok] in Hg; try (exfalso; exact Hg).
  - reflexivity.
  - rewrite tail_cons, lstrip_gap. inversion Hr as [|? t ? ts' Hp Hr']; subst. destruct Hg as [_ Hg].
    destruct (reads_head _ _ Hp) as [Hn Ha].
    assert (lstrip_by is_aspace (p_text p ++ tailp gs ps) = p_text p ++ tailp gs ps) as ->.
    { destruct (p_text p) as [|c s]; [congruence|]. cbn [aspace_head] in Ha. cbn [app lstrip_by]. now rewrite Ha. }
    assert (Hh : forall c s, p_text p = c :: s -> N.eqb 99 c = false ->
      strip_prefix ($"cmake-format" ++ 58%N :: o) (p_text p ++ tailp gs ps) = None /\
      strip_prefix ($"cmf" ++ 58%N :: o) (p_text p ++ tailp gs ps) = None).
    { intros c s -> Hc. cbn [app]. split.
      - change (strip_prefix ($"cmake-format" ++ 58%N :: o) (c :: s ++ tailp gs ps)) with
          (if N.eqb 99 c then strip_prefix ($"make-format" ++ 58%N :: o) (s ++ tailp gs ps) else None). now rewrite Hc.
      - change (strip_prefix ($"cmf" ++ 58%N :: o) (c :: s ++ tailp gs ps)) with
          (if N.eqb 99 c then strip_prefix ($"mf" ++ 58%N :: o) (s ++ tailp gs ps) else None). now rewrite Hc. }
    assert (He : strip_prefix ($"cmake-format" ++ 58%N :: o) (p_text p ++ tailp gs ps) = None /\
      strip_prefix ($"cmf" ++ 58%N :: o) (p_text p ++ tailp gs ps) = None).
    { unfold reads in Hp. destruct (p_kind p) as [[]|[]| | |].
      - destruct Hp as [E _]. apply (Hh cLP nil); auto.
      - destruct Hp as [E _]. apply (Hh cRP nil); auto.
      - apply tame_ctx; [tauto|]. eapply tail_okp; eauto.
      - apply tame_ctx; [tauto|]. apply okd_okp. eapply tail_okd; eauto. intros [[]| | | |]; cbn; congruence.
      - destruct Hp as [E _]. unfold bracket_comment in E. destruct (p_text p) as [|c b] eqn:Et; [discriminate|].
        apply andb_prop in E as [E _]. apply N.eqb_eq in E. subst c. apply (Hh _ _ eq_refl). reflexivity.
      - destruct Hp as [E _]. unfold calm_line in E. destruct (p_text p) as [|c b] eqn:Et; [discriminate|].
        repeat (apply andb_prop in E as [E _]). apply N.eqb_eq in E. subst c. apply (Hh _ _ eq_refl). reflexivity.
      - destruct Hp. }
    destruct He as [-> ->]. reflexivity.
Qed.
Lemma tail_line gs ps ts : Forall2 reads ps ts -> gaps_ok true (Some PkLine) gs ps -> exists r, tailp gs ps = cNL :: r.
Proof.
  intros Hr Hg. destruct gs as [|g gs], ps as [|p ps]; cbn [gaps_ok] in Hg; try (exfalso; exact Hg).
  - exists nil. reflexivity.
  - rewrite tail_cons, gap_nl. destruct Hg as [[H _] _]. specialize (H eq_refl eq_refl). destruct (fst g); [lia|].
    cbn [repeat app]. eauto.
Qed.
Lemma lstrip_line l d : existsb (N.eqb cNL) l = false -> lstrip_by (noneof [cNL]) (l ++ cNL :: d) = cNL :: d.
Proof.
  induction l as [|c l IH]; intros H; cbn [app lstrip_by existsb] in *; [reflexivity|].
  apply orb_false_iff in H as [H1 H2]. unfold noneof at 1, oneof. cbn [existsb]. rewrite N.eqb_sym, H1. cbn. now apply IH.
Qed.
Lemma sent_line o l d : existsb (N.eqb cNL) (58%N :: o) = false -> sent_at (58%N :: o) l = false -> sent_at (58%N :: o) (cNL :: d) = false ->
  sent_at (58%N :: o) (l ++ cNL :: d) = false.
Proof.
  intros Ho Hl Hd. unfold sent_at in *.
  assert (Hs : (lstrip_by is_aspace l = nil /\ lstrip_by is_aspace (l ++ cNL :: d) = lstrip_by is_aspace (cNL :: d))
    \/ lstrip_by is_aspace (l ++ cNL :: d) = lstrip_by is_aspace l ++ cNL :: d).
  { clear. induction l as [|c l IH]; [left; auto|]. cbn [app lstrip_by]. destruct (is_aspace c); [exact IH|]. right. reflexivity. }
  destruct Hs as [[_ ->]| ->]; [exact Hd|].
  assert (Hp : forall p, existsb (N.eqb cNL) p = false -> strip_prefix p (lstrip_by is_aspace l) = None ->
     strip_prefix p (lstrip_by is_aspace l ++ cNL :: d) = None).
  { intros p Hp Hn. now apply strip_prefix_stop. }
  destruct (strip_prefix ($"cmake-format" ++ 58%N :: o) (lstrip_by is_aspace l)) eqn:E1; [discriminate|].
  destruct (strip_prefix ($"cmf" ++ 58%N :: o) (lstrip_by is_aspace l)) eqn:E2; [discriminate|].
  rewrite !Hp; auto; rewrite existsb_app, Ho; reflexivity.
Qed.

(** ** One piece, and the whole page *)
Lemma last_or_cons pv c s : last_or pv (c :: s) = last_or (Some c) s.
Proof. reflexivity. Qed.
Definition enters_at (k : option pk) (pv : option chr) : Prop :=
  match k with None => pv = None | Some (PkParen true) => pv = Some cLP | _ => True end.
Lemma piece_scan p t k g pv gs ps ts : reads p t -> Forall2 reads ps ts ->
  gaps_ok true k (g :: gs) (p :: ps) -> enters_at k pv ->
  fmx lexicon (last_or pv (gap_text [cNL] g)) (p_text p ++ tailp gs ps) = Some (t, tailp gs ps).
Proof.
  intros Hp Hr Hg Hk. cbn [gaps_ok] in Hg. destruct Hg as [H1 Hg].
  assert (Hb : forall b, p_kind p = PkWord b -> okb (last_or pv (gap_text [cNL] g)) = true).
  { intros b Eb. rewrite Eb in H1. destruct (gap_dec g) as [[A B]|A].
    - pose proof (gap_zero g nil A B) as E. rewrite app_nil_r in E. rewrite E. cbn [last_or fold_left].
      destruct k as [kk|]; cbn in Hk; [|now subst].
      destruct kk as [[]|b'| | |]; try (cbn in H1; destruct H1 as [_ H1]; destruct (H1 ltac:(first [reflexivity|destruct b'; reflexivity])); lia).
      now subst.
    - assert (exists c, nlb c = true /\ last_or pv (gap_text [cNL] g) = Some c) as (c & Hc & ->).
      { rewrite gap_nl. destruct g as [a b']. cbn [fst snd] in *. unfold last_or. rewrite fold_left_app.
        assert (Hrep : forall n (x : chr) (v : option chr), fold_left (fun _ c => Some c) (repeat x n) v = match n with O => v | S _ => Some x end).
        { clear. induction n as [|n IH]; intros x v; [reflexivity|]. cbn [repeat fold_left]. rewrite IH. now destruct n. }
        rewrite !Hrep. destruct b' as [|b']; [destruct a as [|a]; [lia|]|]; (eexists; split; [|reflexivity]; reflexivity). }
      unfold nlb in Hc. rewrite orb_true_iff, !N.eqb_eq in Hc. destruct Hc as [->| ->]; reflexivity. }
  unfold reads in Hp. destruct (p_kind p) as [[]|[]| | |] eqn:Ek.
  - destruct Hp as [-> ->]. apply fmx_lp.
  - destruct Hp as [-> ->]. apply fmx_rp.
  - destruct Hp as (Hw & -> & _). apply word_class; eauto. eapply tail_okp; eauto.
  - destruct Hp as (Hw & _). apply class_ctx; eauto. eapply tail_okd; eauto. intros [[]| | | |]; cbn; congruence.
  - destruct Hp as [Hc ->]. unfold bracket_comment in Hc. destruct (p_text p) as [|c b]; [discriminate|].
    apply andb_prop in Hc as [Hc Hf]. apply N.eqb_eq in Hc. subst c. unfold bracket_rest in Hf.
    destruct (bopen b) as [[e r]|] eqn:Eo; [|discriminate].
    assert (b = cLB :: e ++ cLB :: r) as Ebr.
    { unfold bopen in Eo. destruct b as [|a s1]; [discriminate|]. destruct (N.eqb_spec cLB a); [|discriminate]. subst a.
      pose proof (takew_split (N.eqb cEQ) s1) as Es. destruct (lstrip_by (N.eqb cEQ) s1) as [|b' r'] eqn:El; [discriminate|].
      destruct (N.eqb_spec cLB b'); [|discriminate]. subst b'. injection Eo as <- <-. now rewrite Es at 1. }
    rewrite Ebr in *. apply fmx_bcomment; auto. clear - Hf. destruct (bfind _ _ r) as [[|]|]; try discriminate Hf. reflexivity.
  - destruct Hp as [Hc ->]. unfold calm_line in Hc. destruct (p_text p) as [|c l]; [discriminate|].
    apply andb_prop in Hc as [Hc S2]. apply andb_prop in Hc as [Hc S1]. apply andb_prop in Hc as [Hc Hbo].
    apply andb_prop in Hc as [Hc Hnl]. apply N.eqb_eq in Hc. subst c. apply negb_true_iff in Hnl, S1, S2.
    destruct (bopen l) eqn:Eo; [discriminate|].
    pose proof (tail_sent $" off" gs ps ts Hr Hg) as T1. pose proof (tail_sent $" on" gs ps ts Hr Hg) as T2.
    destruct (tail_line gs ps ts Hr Hg) as (r & Er). rewrite Er in *. cbn [app].
    rewrite fmx_comment; [now rewrite lstrip_line| | |].
    + apply (sent_line $" off"); auto.
    + apply (sent_line $" on"); auto.
    + unfold bracket_rest. destruct l as [|c l]; [reflexivity|]. rewrite bopen_none; auto. discriminate.
  - destruct Hp.
Qed.
Lemma enters_next p t pv : reads p t -> enters_at (Some (p_kind p)) (last_or pv (p_text p)).
Proof.
  unfold reads, enters_at. destruct (p_kind p) as [[]| | | |]; auto. intros [-> _]. reflexivity.
Qed.
Theorem page_scan gs : forall ps tys k pv ts, gaps_ok true k gs ps -> Forall2 reads ps tys -> enters_at k pv ->
  scanned pv (tailp gs ps) ts -> filter solid ts = combine tys (map p_text ps).
Proof.
  induction gs as [|g gs IH]; intros [|p ps] tys k pv ts Hg Hr Hk H; cbn [gaps_ok] in Hg; try (exfalso; exact Hg).
  - inversion Hr; subst. unfold tailp in H. cbn [page app] in H. change [cNL] with ([cNL] ++ nil) in H.
    destruct (scanned_step pv [cNL] _ NEWLINE _ (fmx_nl _ _) ltac:(discriminate) H) as (ts' & -> & H').
    inversion H' as [|? ? ? ? ? ? ? ? ? ? ? ? E1 E2 E3 E4]; subst; [reflexivity|]. destruct sp; [congruence|discriminate].
  - inversion Hr as [|? t ? tys' Hp Hr']; subst. rewrite tail_cons in H.
    destruct (reads_head _ _ Hp) as [Hn Ha].
    apply scan_gap in H as (ws & ts' & -> & Hw & H).
    2: { destruct (p_text p) as [|c s]; [congruence|]. cbn. now apply aspace_blank. }
    pose proof (piece_scan p t k g pv gs ps tys' Hp Hr' Hg Hk) as Hf.
    destruct (scanned_step _ _ _ _ _ Hf Hn H) as (ts'' & -> & H').
    rewrite filter_app, Hw. cbn [app filter].
    assert (Hsol : solid (t, p_text p) = true).
    { unfold reads in Hp. unfold solid. cbn [fst]. destruct (p_kind p) as [[]|[]| | |].
      1-3, 5-7: try destruct Hp as [_ ->]; try reflexivity; try (destruct Hp as (_ & -> & _); reflexivity); try destruct Hp.
      destruct Hp as [Hc _]. destruct t; try reflexivity; exfalso; revert Hc; unfold class_of; destruct (p_text p); try discriminate;
        unfold verdicts; cbn [vtry];
        repeat match goal with |- context [match ?v with Yes => _ | No => _ | Maybe => _ end] => destruct v; try discriminate end;
        destruct (ugo _); discriminate. }
    etransitivity; [match goal with |- (if ?b then ?x else ?y) = _ =>
      exact (eq_trans (f_equal (fun z : bool => if z then x else y) (Hsol : b = true)) eq_refl) end|].
    cbn [combine map]. f_equal. eapply IH; [apply Hg|exact Hr'|eapply enters_next; eauto|exact H'].
Qed.

(** ** The lines of comments *)
Lemma sent_switchless o s : switchless s = true -> sent_at (58%N :: o) s = false.
Proof.
  intros H. unfold sent_at. destruct (lstrip_by_app is_aspace s) as (a & E & _). rewrite E in H. apply switchless_sub in H as [_ H].
  set (s1 := lstrip_by is_aspace s) in *. rewrite switchless_iff in H.
  change ($"cmake-format" ++ 58%N :: o) with ($"cmake-format:" ++ o). change ($"cmf" ++ 58%N :: o) with ($"cmf:" ++ o).
  rewrite !strip_prefix_app. assert (G : forall k, In k switch_words -> strip_prefix k s1 = None).
  { intros k Hk. specialize (H k Hk). rewrite occurs_eq in H. destruct (strip_prefix k s1); [discriminate|reflexivity]. }
  rewrite (G $"cmake-format:"), (G $"cmf:") by (cbn; auto). reflexivity.
Qed.
Definition no_lb (s : str) : Prop := match s with c :: _ => c <> cLB | nil => True end.
Lemma calm_hash s : ~ In cNL s -> switchless s = true -> no_lb s -> calm_line (cHASH :: s) = true.
Proof.
  intros Hn Hs Hb. unfold calm_line. change $": off" with (58%N :: $" off"). change $": on" with (58%N :: $" on").
  rewrite N.eqb_refl, !sent_switchless by exact Hs.
  assert (existsb (N.eqb cNL) s = false) as ->.
  { destruct (existsb (N.eqb cNL) s) eqn:E; auto. exfalso. apply existsb_exists in E as (x & Hx & E). apply N.eqb_eq in E. now subst x. }
  destruct s as [|c s]; [reflexivity|]. unfold bopen. cbn in Hb. destruct (N.eqb_spec cLB c); [congruence|reflexivity].
Qed.
Lemma calm_trailing a r s : ~ In cNL (a :: r ++ s) -> is_aspace a = false -> a <> cLB -> a <> 99%N -> calm_line (cHASH :: a :: r ++ s) = true.
Proof.
  intros Hn Ha Hb Hc. unfold calm_line. rewrite N.eqb_refl.
  assert (existsb (N.eqb cNL) (a :: r ++ s) = false) as ->.
  { destruct (existsb (N.eqb cNL) (a :: r ++ s)) eqn:E; auto. exfalso. apply existsb_exists in E as (x & Hx & E). apply N.eqb_eq in E. now subst x. }
  unfold bopen. destruct (N.eqb_spec cLB a); [congruence|]. unfold sent_at. cbn [lstrip_by]. rewrite Ha.
  assert (E : N.eqb 99 a = false) by (apply N.eqb_neq; congruence).
  assert (S1 : forall k, strip_prefix (99%N :: k) (a :: r ++ s) = None) by (intros k; cbn [strip_prefix]; now rewrite E).
  change ($"cmake-format" ++ $": off") with (99%N :: $"make-format: off"). change ($"cmf" ++ $": off") with (99%N :: $"mf: off").
  change ($"cmake-format" ++ $": on") with (99%N :: $"make-format: on"). change ($"cmf" ++ $": on") with (99%N :: $"mf: on").
  rewrite !S1. reflexivity.
Qed.
Lemma rstrip_head p s : match rstrip_by p s with c :: _ => exists r, s = c :: r | nil => True end.
Proof. destruct (rstrip_by_app p s) as (a & E & _). destruct (rstrip_by p s) as [|c r]; auto. exists (r ++ a). exact E. Qed.
Lemma strip_hash sp : startswith $"#" sp = true -> exists r, strip sp = cHASH :: r.
Proof.
  intros H. destruct sp as [|c sp]; [discriminate|].
  change (N.eqb 35 c && true = true) in H. rewrite andb_true_r in H. apply N.eqb_eq in H. subst c.
  unfold strip, strip_by. cbn [lstrip_by]. change (is_uspace 35%N) with false. cbn iota.
  pose proof (rstrip_head is_uspace (35%N :: sp)) as Hh. destruct (rstrip_by is_uspace (35%N :: sp)) as [|c r] eqn:E.
  - exfalso. destruct (rstrip_by_app is_uspace (35%N :: sp)) as (a & Ea & Fa). rewrite E in Ea. cbn [app] in Ea. rewrite <- Ea in Fa.
    cbn [forallb] in Fa. discriminate.
  - destruct Hh as (r0 & Er). injection Er as <- <-. eauto.
Qed.
Lemma inlines_calm c p : forall ls, comment_inlines c false p = Ok ls ->
  (forall t, In (T t) p -> is_tt COMMENT t = true -> calm_comment t = true /\ startswith $"#" (spelling t) = true) -> Forall no_lb ls.
Proof.
  induction p as [|[t|k x] p IH]; intros ls H Hp; simpl in H; [injection H as <-; constructor| |discriminate].
  bkm H. injection H as <-. apply IH in Hx; [|intros; apply Hp; auto; now right].
  destruct (is_tt COMMENT t) eqn:Et; auto. constructor; auto.
  destruct (Hp t (or_introl eq_refl) Et) as [Hc Hh]. unfold calm_comment in Hc. apply andb_prop in Hc as [_ Hc].
  destruct (strip_hash _ Hh) as (r & Er). rewrite Er in *.
  assert (A : no_lb (lstrip_by (N.eqb cHASH) (cHASH :: r))).
  { destruct (lstrip_by (N.eqb cHASH) (cHASH :: r)) as [|a s]; [exact I|]. cbn. apply negb_true_iff, N.eqb_neq in Hc. exact Hc. }
  assert (B : no_lb r).
  { cbn [lstrip_by] in A. rewrite N.eqb_refl in A. destruct r as [|a r]; [exact I|]. cbn [lstrip_by] in A. cbn.
    destruct (N.eqb_spec cHASH a); [subst a; discriminate|exact A]. }
  unfold Markup.comment_line. cbv zeta. rewrite ?Er. repeat match goal with |- context [if ?b then _ else _] => destruct b end; first [exact A|exact B].
Qed.
Theorem format_calm c first x p w ls : markup_ok c -> markup_calm c -> lines_only p = true ->
  (forall t, In (T t) p -> is_tt COMMENT t = true -> calm_comment t = true /\ startswith $"#" (spelling t) = true) ->
  format_comment c first x p w = Ok ls -> Forall (fun l => calm_line l = true) ls.
Proof.
  intros Hm (Mb & Me & Mf & (a & r & Mt & Ma & Mlb & Mc)) Hlo Hp H.
  pose proof (format_comment_noeol _ _ _ _ _ _ Hm Hlo H) as Hnn.
  unfold format_comment in H. bkm H. rename x0 into ils.
  set (P := fun s => switchless s = true).
  assert (P_sub : forall a b, P (a ++ b) -> P a /\ P b) by exact switchless_sub.
  assert (P_join : forall a b y, is_aspace y = true -> P a -> P b -> P (a ++ y :: b)) by (intros; now apply switchless_join).
  assert (Hils : Forall P ils).
  { eapply (P_inlines c P); try eassumption; try reflexivity. intros t Ht Hc. destruct (Hp t Ht Hc) as [Hcc _].
    unfold calm_comment in Hcc. now apply andb_prop in Hcc. }
  assert (Htr : forall l, nn ((if x then mk_trailing c else [cHASH]) ++ l) -> (x = false -> switchless l = true /\ no_lb l) ->
    calm_line ((if x then mk_trailing c else [cHASH]) ++ l) = true).
  { intros l Hl Hq. destruct x.
    - rewrite Mt in *. cbn [app] in *. apply calm_trailing; auto. intros Hin. apply Hl. now right.
    - cbn [app] in *. destruct (Hq eq_refl). apply calm_hash; auto. intros Hin. apply Hl. now right. }
  assert (Hlit : ls = map (fun l => (if x then mk_trailing c else [cHASH]) ++ rstrip l) ils -> Forall (fun l => calm_line l = true) ls).
  { intros ->. rewrite Forall_map in *. apply Forall_forall. intros l Hl. rewrite Forall_forall in Hnn, Hils. apply Htr; auto.
    intros ->. split; [apply (P_rstrip P); auto; now apply Hils|].
    pose proof (inlines_calm _ _ _ Hx Hp) as Hlb. rewrite Forall_forall in Hlb. specialize (Hlb _ Hl).
    pose proof (rstrip_head is_uspace l) as Hh. unfold rstrip. destruct (rstrip_by is_uspace l) as [|b s]; [exact I|].
    destruct Hh as (s' & ->). exact Hlb. }
  repeat match type of H with
  | (if ?b then Ok _ else _) = _ => destruct b; [injection H as <-; apply Hlit; reflexivity|]
  end.
  bkm H. injection H as <-. rename x0 into out.
  assert (Hout : Forall P out).
  { eapply (P_format_items c P); try eassumption; try reflexivity; try exact Mb.
    - intros d n. now apply switchless_pad.
    - intros n. rewrite <- (app_nil_r (repeat cHASH n)). now apply switchless_repeat.
    - eapply (kept_markup c P); try eassumption; reflexivity. }
  rewrite Forall_map in *. apply Forall_forall. intros l Hl. rewrite Forall_forall in Hnn, Hout. apply Htr; [now apply Hnn|].
  intros ->. split; [apply (P_spaces P); [reflexivity|exact P_join|now apply Hout]|]. destruct l as [|b l]; [exact I|]. cbn. discriminate.
Qed.

(** ** What is required of the tokens *)
Definition has_class (s : str) : bool := match class_of s with Some _ => true | None => false end.
Definition bomless (s : str) : bool := match s with c :: _ => negb (N.eqb c cBOM) | nil => true end.
(** A token that reads as one token wherever it stands between blanks and
    parentheses; the texts of keywords and flags may change their letter case, so
    they may not contain an escaped letter. *)
Definition steady (r : role) : bool :=
  let s := normalize (spelling (snd r)) in
  match fst r with
  | KArgument | KAtWord => has_class s && tame s && bomless s
  | KKeyword | KFlag => has_class s && tame (lower s) && bomless s && no_bsl s
  | KComment _ => if is_tt BRACKET_COMMENT (snd r) then bracket_comment s else calm_comment (snd r)
  | _ => true
  end.
(** how the token [t'] of the output renders a token of the file *)
Definition reread_as (r : role) (t' : token) : Prop :=
  let s := normalize (spelling (snd r)) in
  match fst r with
  | KLParen => tt (snd r) = LEFT_PAREN /\ tt t' = LEFT_PAREN /\ spelling t' = $"("
  | KRParen => tt (snd r) = RIGHT_PAREN /\ tt t' = RIGHT_PAREN /\ spelling t' = $")"
  | KArgument | KAtWord => class_of s = Some (tt t') /\ spelling t' = s
  | KKeyword | KFlag => class_of s = Some (tt t') /\ lower (spelling t') = lower s
  | KFunname => tt (snd r) = WORD /\ tt t' = WORD /\ lower (spelling t') = lower s
  | _ => False
  end.

Lemma fnb_roles b : fnb b = true -> forall t, In (KFunname, t) (roles b) -> is_tt WORD t = true.
Proof.
  induction b as [k p cs IH] using box_ind'. cbn [fnb roles]. intros H t Hin. apply andb_prop in H as [A B].
  apply in_app_or in Hin as [Hin|Hin].
  - unfold own_roles in Hin. apply in_map_iff in Hin as (u & E & Hu). injection E as -> ->. cbn [is_funname_k] in A.
    destruct p as [|[u|] [|]]; try discriminate. cbn [own_toks] in Hu. destruct Hu as [<-|[]]. exact A.
  - apply in_flat_map in Hin as (x & Hx & Hin). rewrite forallb_forall in B. rewrite Forall_forall in IH. eauto.
Qed.
Lemma name_word sp : name_text sp -> word_rest sp = Some nil /\ tame sp = true /\ bomless sp = true /\ one_line sp = true.
Proof.
  intros (c & w & -> & Hc & Hw). unfold name_first in Hc.
  assert (Hf : wfirst c = true).
  { unfold wfirst, between. assert ((65 <=? c) && (c <=? 122) = true)%N as -> by (apply andb_true_intro; rewrite !N.leb_le; lia). now rewrite orb_true_r. }
  assert (Hr : forallb wrest w = true).
  { apply forallb_forall. intros x Hx. rewrite Forall_forall in Hw. specialize (Hw _ Hx). unfold wrest, digit, between, name_rest in *.
    destruct Hw as [H|[H|[->|H]]]; [| |reflexivity|].
    - assert ((48 <=? x) && (x <=? 57) = true)%N as -> by (apply andb_true_intro; rewrite !N.leb_le; lia). now rewrite !orb_true_r.
    - assert ((65 <=? x) && (x <=? 90) = true)%N as -> by (apply andb_true_intro; rewrite !N.leb_le; lia). now rewrite !orb_true_r.
    - assert ((97 <=? x) && (x <=? 122) = true)%N as -> by (apply andb_true_intro; rewrite !N.leb_le; lia). reflexivity. }
  split; [|split; [|split]].
  - unfold word_rest. rewrite Hf. assert (lstrip_by wrest w = nil) as ->; [|reflexivity].
    clear -Hr. induction w as [|x w IH]; auto. cbn [forallb] in Hr. apply andb_prop in Hr as [A B]. cbn [lstrip_by]. rewrite A. auto.
  - unfold tame. assert (G : forall k k', forallb wrest k' = false -> strip_prefix (k :: k') (c :: w) = None).
    { intros k k' Hk. cbn [strip_prefix]. destruct (N.eqb k c); auto. clear -Hr Hk. revert w Hr.
      induction k' as [|y k' IH]; intros w Hr; [discriminate|]. destruct w as [|x w]; [reflexivity|].
      cbn [forallb strip_prefix] in *. apply andb_prop in Hr as [A B]. destruct (N.eqb_spec y x); auto. subst y. rewrite A in Hk. now apply IH. }
    change $"cmake-format:" with (99%N :: $"make-format:"). change $"cmf:" with (99%N :: $"mf:"). rewrite !G by reflexivity. reflexivity.
  - cbn. apply negb_true_iff, N.eqb_neq. unfold cBOM. lia.
  - unfold one_line. apply negb_true_iff. match goal with |- ?b = false => destruct b eqn:E; auto end. exfalso.
    apply existsb_exists in E as (x & Hx & E). rewrite orb_true_iff, !N.eqb_eq in E. unfold cNL, cCR in E.
    destruct Hx as [<-|Hx]; [lia|]. rewrite Forall_forall in Hw. specialize (Hw _ Hx). unfold name_rest in Hw. lia.
Qed.

(** ** Texts up to letter case *)
Lemma loc_bom a : loc a = loc cBOM -> a = cBOM.
Proof.
  unfold loc. change ((65 <=? cBOM) && (cBOM <=? 90))%N with false. cbn iota.
  destruct ((65 <=? a) && (a <=? 90))%N eqn:E; auto. rewrite andb_true_iff, !N.leb_le in E. unfold cBOM. lia.
Qed.
Lemma bomless_case s n : lower s = lower n -> bomless n = true -> bomless s = true.
Proof.
  destruct s as [|a s], n as [|b n]; intros H Hn; auto; try discriminate. apply lower_cons in H as [H _]. cbn in *.
  apply negb_true_iff, N.eqb_neq in Hn. apply negb_true_iff, N.eqb_neq. intros ->. apply Hn. now apply loc_bom.
Qed.
Lemma strip_prefix_lower k s r : lower k = k -> strip_prefix k s = Some r -> strip_prefix k (lower s) = Some (lower r).
Proof.
  revert s. induction k as [|x k IH]; intros s Hk H; cbn [strip_prefix] in *; [now injection H as <-|].
  destruct s as [|y s]; [discriminate|]. cbn [lower map]. injection Hk as Hx Hk.
  destruct (N.eqb_spec x y); [|discriminate]. subst y. rewrite Hx, N.eqb_refl. now apply IH.
Qed.
Lemma tame_case s n : lower s = lower n -> tame (lower n) = true -> tame s = true.
Proof.
  intros E H. rewrite <- E in H. unfold tame in *.
  destruct (strip_prefix $"cmake-format:" s) as [r|] eqn:E1; [rewrite (strip_prefix_lower _ _ _ eq_refl E1) in H; discriminate|].
  destruct (strip_prefix $"cmf:" s) as [r|] eqn:E2; auto. rewrite (strip_prefix_lower _ _ _ eq_refl E2) in H.
  destruct (strip_prefix $"cmake-format:" (lower s)); discriminate.
Qed.
Lemma word_text s : word_rest s = Some nil -> name_text s.
Proof.
  unfold word_rest. destruct s as [|c w]; [discriminate|]. destruct (wfirst c) eqn:Ef; [|discriminate]. cbn [ends].
  destruct (okp _); [|discriminate]. intros H. injection H as H. exists c, w. split; [reflexivity|]. split.
  - unfold wfirst in Ef. rewrite !orb_true_iff, N.eqb_eq in Ef. unfold name_first.
    destruct Ef as [[E|E]| ->]; [apply between_spec in E; lia|apply between_spec in E; lia|lia].
  - clear Ef. induction w as [|x w IH]; [constructor|]. cbn [lstrip_by] in H. destruct (wrest x) eqn:E; [|discriminate].
    constructor; auto. now apply wrest_spec.
Qed.

(** ** From the tokens to the pieces *)
Definition sem_item (i : item) : bool := match i with IText (PkParen _) _ | IText (PkWord _) _ => true | _ => false end.
Definition sem_piece (p : piece) : bool := match p_kind p with PkParen _ | PkWord _ => true | _ => false end.
Definition readable (k : pk) (s : str) : Prop := (exists ty, reads (Pc (Cur 0 0) s k) ty) /\ bomless s = true.
Definition item_ok (e : env) (i : item) : Prop :=
  match i with
  | IText k s => readable k s
  | IComment x q => forall w ls, cmt e x q w = Ok ls -> Forall (readable PkLine) ls
  end.
Definition renders (r : role) (i : item) : Prop :=
  match i with
  | IText k s => forall t', reads (Pc (Cur 0 0) s k) (tt t') -> spelling t' = s -> reread_as r t'
  | _ => False
  end.
Lemma has_class_some s : has_class s = true -> exists t, class_of s = Some t.
Proof. unfold has_class. destruct (class_of s); [eauto|discriminate]. Qed.
Lemma calm_readable l : calm_line l = true -> readable PkLine l.
Proof.
  intros H. split; [exists COMMENT; now split|]. unfold calm_line in H. destruct l as [|c l]; [reflexivity|].
  repeat (apply andb_prop in H as [H _]). apply N.eqb_eq in H. now subst c.
Qed.
Section Steady.
  Variables (e : env) (mc : mcfg) (first : option token).
  Hypothesis He : cmt e = format_comment mc first.
  Hypothesis Hm : markup_ok mc.
  Hypothesis Hc : markup_calm mc.
  Lemma says_ready rs is : says true rs is -> Forall (fun r => steady r = true) rs ->
    Forall (fun r => is_onoff (snd r) = false /\ (is_comment (snd r) = true -> startswith $"#" (spelling (snd r)) = true)
      /\ (is_tt COMMENT (snd r) = true -> existsb (N.eqb cNL) (spelling (snd r)) = false)
      /\ (fst r = KFunname -> name_text (spelling (snd r)))) rs ->
    Forall (item_ok e) is.
  Proof.
    induction 1 as [|k t rs is Hk Ht _ IH|k t rs is Hk Ht _ IH|k t s rs is Hk Ht Hl _ IH|t s rs is Hs _ IH|x t rs is Ht _ IH|x ts p rs is Hn Hts Ets Hpl _ IH];
      intros Hst Hrs; [constructor| | | | | |].
    1-5: inversion Hst as [|? ? S1 S2]; subst; inversion Hrs as [|? ? R1 R2]; subst; constructor; [|now apply IH].
    - destruct Hk as [->| ->]; (split; [|reflexivity]).
      + exists LEFT_PAREN. now split.
      + exists RIGHT_PAREN. now split.
    - unfold steady in S1. cbn [fst snd] in S1. destruct Hk as [->| ->]; apply andb_prop in S1 as [S1 S3]; apply andb_prop in S1 as [S1 S4];
        apply has_class_some in S1 as (ty & S1); (split; [exists ty; now split|exact S3]).
    - cbn [fst snd] in *. destruct R1 as (_ & _ & _ & R1). unfold steady in S1. cbn [fst snd] in S1.
      destruct Hk as [->|Hk].
      + specialize (R1 eq_refl). destruct (name_word _ R1) as (N1 & N2 & N3 & N4). rewrite (normalize_one_line _ N4) in Hl.
        assert (W : word_rest s = Some nil) by (eapply word_case; [exact N1|now rewrite Hl]).
        destruct (name_word _ (word_text _ W)) as (_ & M2 & M3 & _). split; [exists WORD; now split|exact M3].
      + assert (S1' : has_class (normalize (spelling t)) && tame (lower (normalize (spelling t))) && bomless (normalize (spelling t)) && no_bsl (normalize (spelling t)) = true)
          by (destruct Hk as [->| ->]; exact S1).
        clear S1. apply andb_prop in S1' as [S1 S5]. apply andb_prop in S1 as [S1 S3]. apply andb_prop in S1 as [S1 S4].
        apply has_class_some in S1 as (ty & S1). symmetry in Hl. rewrite (class_case _ _ S5 Hl) in S1. symmetry in Hl.
        assert (E : is_funname_k k = false) by (destruct Hk as [->| ->]; reflexivity). rewrite E.
        split; [exists ty; split; [exact S1|]|].
        * eapply tame_case; eauto.
        * eapply bomless_case; eauto.
    - exfalso. destruct R1 as (R1 & _). cbn [snd] in R1. unfold onoff_text in Hs. unfold is_onoff in R1. destruct (tt t); discriminate.
    - unfold steady in S1. cbn [fst snd] in S1. rewrite Ht in S1. split; [exists BRACKET_COMMENT; now split|].
      unfold bracket_comment in S1. cbn [p_text]. destruct (normalize (spelling t)) as [|a b]; [reflexivity|].
      apply andb_prop in S1 as [S1 _]. apply N.eqb_eq in S1. now subst a.
    - apply Forall_app in Hst as [S1 S2]. apply Forall_app in Hrs as [R1 R2]. constructor; [|now apply IH].
      intros w ls Hw. rewrite He in Hw. destruct (Hpl eq_refl) as [Hco Hlo].
      assert (Hin : forall t, In (T t) p -> is_tt COMMENT t = true -> In t ts).
      { intros t Ht Et. rewrite Ets. apply filter_In. split.
        - clear -Ht. induction p as [|[u|k q] p IH]; [destruct Ht| |].
          + change (toksT (T u :: p)) with (u :: toksT p). destruct Ht as [E|Ht]; [injection E as <-; now left|right; auto].
          + destruct Ht as [E|Ht]; [discriminate|]. change (toksT (N k q :: p)) with (toksT [N k q] ++ toksT p) || idtac.
            unfold toksT in *. cbn [flat_map]. apply in_or_app. right. auto.
        - unfold nonws, is_ws. unfold is_tt in Et. destruct (tt t); try discriminate; reflexivity. }
      rewrite Forall_map in S1, R1. rewrite Forall_forall in S1, R1.
      assert (Hlines : lines_only p = true).
      { unfold lines_only. apply forallb_forall. intros [t|k q] Hn'; auto. destruct (is_tt COMMENT t) eqn:Et; auto. cbn [implb].
        destruct (R1 t (Hin t Hn' Et)) as (_ & _ & R3 & _). cbn [snd] in R3. now rewrite (R3 Et). }
      eapply Forall_impl; [exact calm_readable|]. eapply format_calm; eauto.
      intros t Ht Et. specialize (S1 t (Hin t Ht Et)). specialize (R1 t (Hin t Ht Et)). destruct R1 as (_ & R1 & _). cbn [fst snd] in *.
      unfold steady in S1. cbn [fst snd] in S1.
      assert (is_tt BRACKET_COMMENT t = false /\ is_comment t = true) as [E1 E2].
      { unfold is_tt, is_comment in *. destruct (tt t); try discriminate; auto. }
      rewrite E1 in S1. auto.
  Qed.
End Steady.
Lemma comment_nonsem t : is_comment t = true -> is_semantic t = false.
Proof. unfold is_comment, is_semantic. destruct (tt t); try discriminate; reflexivity. Qed.
Definition sem_role (r : role) : bool := is_semantic (snd r).
Lemma says_renders rs is : says true rs is -> Forall (fun r => steady r = true) rs ->
  Forall (fun r => is_onoff (snd r) = false /\ nonws (snd r) = true /\ (fst r = KFunname -> tt (snd r) = WORD)) rs ->
  Forall2 renders (filter sem_role rs) (filter sem_item is).
Proof.
  induction 1 as [|k t rs is Hk Ht _ IH|k t rs is Hk Ht _ IH|k t s rs is Hk Ht Hl _ IH|t s rs is Hs _ IH|x t rs is Ht _ IH|x ts p rs is Hn Hts Ets Hpl _ IH];
    intros Hst Hrs; [constructor| | | | | |].
  1-5: inversion Hst as [|? ? S1 S2]; subst; inversion Hrs as [|? ? (R1 & R0 & R9) R2]; subst; cbn [fst snd] in R1, R0, R9; specialize (IH S2 R2); cbn [filter sem_item].
  - assert (sem_role (k, t) = true) as ->.
    { unfold sem_role, is_semantic, is_tt in *. cbn [snd]. destruct Hk as [->| ->]; destruct (tt t); try discriminate; reflexivity. }
    constructor; [|exact IH]. intros t' H E. unfold is_tt in Ht. destruct Hk as [->| ->]; destruct H as [_ H]; apply ttype_eqb_eq in Ht; repeat split; auto.
  - assert (sem_role (k, t) = true) as ->.
    { unfold sem_role, is_semantic, nonws, is_ws, is_comment, is_onoff in *. cbn [snd]. destruct (tt t); try discriminate; reflexivity. }
    constructor; [|exact IH]. intros t' H E. destruct H as [H _]. cbn [p_text] in H. destruct Hk as [->| ->]; now split.
  - assert (sem_role (k, t) = true) as ->.
    { unfold sem_role, is_semantic, nonws, is_ws, is_comment, is_onoff in *. cbn [snd]. destruct (tt t); try discriminate; reflexivity. }
    constructor; [|exact IH]. intros t' H E. destruct Hk as [->|Hk].
    + destruct H as (_ & H & _). split; [now apply R9|]. split; [exact H|]. now rewrite E.
    + assert (Ek : is_funname_k k = false) by (destruct Hk as [->| ->]; reflexivity). rewrite Ek in H. destruct H as [H _]. cbn [p_text] in H.
      unfold steady in S1. cbn [fst snd] in S1.
      assert (S5 : no_bsl (normalize (spelling t)) = true) by (destruct Hk as [->| ->]; now apply andb_prop in S1).
      unfold reread_as. cbn [fst snd]. symmetry in Hl. rewrite <- (class_case _ _ S5 Hl) in H. symmetry in Hl.
      destruct Hk as [->| ->]; (split; [exact H|now rewrite E]).
  - exfalso. unfold onoff_text in Hs. unfold is_onoff in R1. destruct (tt t); discriminate.
  - assert (sem_role (KComment x, t) = false) as ->.
    { unfold sem_role, is_semantic, is_tt in *. cbn [snd]. destruct (tt t); try discriminate; reflexivity. }
    exact IH.
  - apply Forall_app in Hst as [_ S2]. apply Forall_app in Hrs as [_ R2]. rewrite filter_app. cbn [sem_item filter].
    match goal with |- Forall2 _ (?l ++ _) _ => enough (Hn0 : l = nil) by (rewrite Hn0; exact (IH S2 R2)) end.
    clear -Hts. induction Hts as [|t ts Ht _ IH]; auto. cbn [map filter]. unfold sem_role at 1. cbn [snd].
    rewrite (comment_nonsem _ Ht). exact IH.
Qed.
Lemma realizes_ready e is ps : realizes e is ps -> Forall (item_ok e) is ->
  Forall (fun p => readable (p_kind p) (p_text p)) ps.
Proof.
  induction 1 as [|k s is p ps E1 E2 _ IH|x q w ls cps is ps E Hne Em Hk _ IH]; intros H; [constructor| |];
    inversion H as [|? ? H1 H2]; subst.
  - constructor; [exact H1|auto].
  - apply Forall_app. split; auto. specialize (H1 w _ E). rewrite Forall_map in H1. rewrite Forall_forall in *.
    intros p Hp. rewrite (Hk p Hp). now apply H1.
Qed.
Lemma realizes_sem e is ps : realizes e is ps ->
  Forall2 (fun i p => i = IText (p_kind p) (p_text p)) (filter sem_item is) (filter sem_piece ps).
Proof.
  induction 1 as [|k s is p ps E1 E2 _ IH|x q w ls cps is ps E Hne Em Hk _ IH]; [constructor| |].
  - cbn [filter sem_item]. unfold sem_piece at 1. rewrite E2. subst s k. destruct (p_kind p) eqn:Ek; auto; constructor; auto; now rewrite Ek.
  - cbn [filter sem_item]. rewrite filter_app. assert (filter sem_piece cps = nil) as ->; [|exact IH].
    clear -Hk. induction Hk as [|p ps Hp _ IH]; auto. cbn [filter]. unfold sem_piece at 1. now rewrite Hp.
Qed.
Lemma reads_at p t : reads p t <-> reads (Pc (Cur 0 0) (p_text p) (p_kind p)) t.
Proof. reflexivity. Qed.
Lemma ready_types ps : Forall (fun p => readable (p_kind p) (p_text p)) ps -> exists tys, Forall2 reads ps tys.
Proof.
  induction 1 as [|p ps [[ty H] _] _ (tys & IH)]; [exists nil; constructor|]. exists (ty :: tys). constructor; auto.
Qed.
Lemma scan_toks ps : forall tys, Forall2 reads ps tys -> forall toks, map (fun t => (tt t, spelling t)) toks = combine tys (map p_text ps) ->
  Forall2 (fun p t' => reads p (tt t') /\ spelling t' = p_text p) ps toks.
Proof.
  induction 1 as [|p ty ps tys H Hr IH]; intros [|t toks] E; try discriminate; constructor; auto.
  - cbn in E. injection E as E1 E2 E3. split; [now rewrite E1|exact E2].
  - apply IH. cbn in E. now injection E.
Qed.
Lemma reads_semantic p t' : reads p (tt t') -> is_semantic t' = sem_piece p.
Proof.
  unfold reads, sem_piece, is_semantic. destruct (p_kind p) as [[]|[]| | |].
  - intros [_ ->]. reflexivity.
  - intros [_ ->]. reflexivity.
  - intros (_ & -> & _). reflexivity.
  - intros [H _]. destruct (tt t'); try reflexivity; exfalso; revert H; unfold class_of; destruct (p_text p); try discriminate;
      unfold verdicts; cbn [vtry];
      repeat match goal with |- context [match ?v with Yes => _ | No => _ | Maybe => _ end] => destruct v; try discriminate end;
      destruct (ugo _); discriminate.
  - intros [_ ->]. reflexivity.
  - intros [_ ->]. reflexivity.
  - intros [].
Qed.
Lemma class_bom s : class_of s <> Some BYTEORDER_MARK.
Proof.
  unfold class_of. destruct s; try discriminate. unfold verdicts; cbn [vtry].
  repeat match goal with |- context [match ?v with Yes => _ | No => _ | Maybe => _ end] => destruct v; try discriminate end;
      destruct (ugo _); discriminate.
Qed.
Lemma class_onoff s t : class_of s = Some t -> t <> FORMAT_ON /\ t <> FORMAT_OFF.
Proof.
  unfold class_of. destruct s; try discriminate. unfold verdicts; cbn [vtry].
  repeat match goal with |- context [match ?v with Yes => _ | No => _ | Maybe => _ end] => destruct v; try discriminate;
    try (intros E; injection E as <-; split; discriminate) end;
      destruct (ugo _); intros E; try discriminate; injection E as <-; split; discriminate.
Qed.
Lemma reads_bom p : ~ reads p BYTEORDER_MARK.
Proof.
  unfold reads. destruct (p_kind p) as [[]|[]| | |]; try (intros [_ E]; discriminate E); auto.
  - intros (_ & E & _). discriminate.
  - intros [E _]. now apply class_bom in E.
Qed.
Lemma filter_pieces ps toks : Forall2 (fun p t' => reads p (tt t') /\ spelling t' = p_text p) ps toks ->
  Forall2 (fun p t' => reads p (tt t') /\ spelling t' = p_text p) (filter sem_piece ps) (filter is_semantic toks).
Proof.
  induction 1 as [|p t ps ts H _ IH]; [constructor|]. cbn [filter]. rewrite (reads_semantic p t) by apply H.
  destruct (sem_piece p); auto.
Qed.
Lemma Forall2_chain {A B C D} (R : A -> B -> Prop) (S : B -> C -> Prop) (U : C -> D -> Prop) (V : A -> D -> Prop) :
  (forall a b c d, R a b -> S b c -> U c d -> V a d) ->
  forall l1 l2 l3 l4, Forall2 R l1 l2 -> Forall2 S l2 l3 -> Forall2 U l3 l4 -> Forall2 V l1 l4.
Proof.
  intros H l1 l2 l3 l4 H1. revert l3 l4. induction H1; intros l3 l4 H2 H3; inversion H2; subst; inversion H3; subst; constructor; eauto.
Qed.
Lemma Permutation_filter {A} (f : A -> bool) l l' : Permutation l l' -> Permutation (filter f l) (filter f l').
Proof.
  induction 1; cbn [filter]; auto; try (destruct (f x); auto); try (destruct (f y); auto).
  - apply perm_swap.
  - eapply Permutation_trans; eauto.
Qed.

(** ** The theorem *)
(** without comments, only semantic texts are written *)
Definition comment_free (toks : list token) : bool := forallb (fun t => negb (is_comment t)) toks.
Lemma says_free pl rs is : says pl rs is -> Forall (fun r => is_comment (snd r) = false /\ is_onoff (snd r) = false) rs ->
  Forall (fun i => sem_item i = true) is.
Proof.
  induction 1 as [|k t rs is Hk Ht _ IH|k t rs is Hk Ht _ IH|k t s rs is Hk Ht Hl _ IH|t s rs is Hs _ IH|x t rs is Ht _ IH|x ts p rs is Hn Hts Ets Hpl _ IH];
    intros Hrs; [constructor| | | | | |].
  1-5: inversion Hrs as [|? ? [R1 R0] R2]; subst; cbn [snd] in R1, R0; specialize (IH R2).
  1-3: constructor; [reflexivity|exact IH].
  - exfalso. unfold onoff_text in Hs. unfold is_onoff in R0. destruct (tt t); discriminate.
  - exfalso. unfold is_comment, is_tt in *. destruct (tt t); discriminate.
  - exfalso. destruct Hts as [|t ts Ht _]; [congruence|]. inversion Hrs as [|? ? [R1 _] _]; subst. cbn [snd] in R1. congruence.
Qed.
Lemma realizes_free e is ps : realizes e is ps -> Forall (fun i => sem_item i = true) is -> Forall (fun p => sem_piece p = true) ps.
Proof.
  induction 1 as [|k s is p ps E1 E2 _ IH|x q w ls cps is ps E Hne Em Hk _ IH]; intros H; inversion H as [|? ? H1 H2]; subst; [constructor| |discriminate H1].
  constructor; auto.
Qed.

(** ** Where the comments of the output stand

    [places l l']: the semantic tokens of [l'] are as many as those of [l], and
    [l'] has comments only where [l] has some. *)
Inductive places : list token -> list token -> Prop :=
| pl_nil : places nil nil
| pl_sem t u a b : is_semantic t = true -> is_semantic u = true -> places a b -> places (t :: a) (u :: b)
| pl_old c a b : is_comment c = true -> places a b -> places (c :: a) b
| pl_new c d a b : is_comment c = true -> is_comment d = true -> places (c :: a) b -> places (c :: a) (d :: b).
Lemma places_run ts : ts <> nil -> Forall (fun t => is_comment t = true) ts -> forall ds a b,
  Forall (fun t => is_comment t = true) ds -> places a b -> places (ts ++ a) (ds ++ b).
Proof.
  intros Hn Hts ds a b Hds H.
  assert (H0 : places (ts ++ a) b) by (clear Hn; induction Hts; cbn [app]; auto; now apply pl_old).
  destruct Hts as [|t ts Ht Hts]; [congruence|]. cbn [app] in *. induction Hds as [|d ds Hd Hds IH]; [exact H0|]. cbn [app]. now apply pl_new.
Qed.
Definition rendered (p : piece) (t' : token) : Prop := reads p (tt t') /\ spelling t' = p_text p.
Lemma reads_comment p t' : (p_kind p = PkLine \/ p_kind p = PkBracket) -> reads p (tt t') -> is_comment t' = true.
Proof. unfold reads, is_comment. intros [E|E]; rewrite E; intros [_ ->]; reflexivity. Qed.
Lemma says_places rs is : says true rs is ->
  Forall (fun r => is_onoff (snd r) = false /\ nonws (snd r) = true) rs ->
  forall e ps, realizes e is ps -> forall ts, Forall2 rendered ps ts -> places (map snd rs) ts.
Proof.
  assert (Hsem : forall t, is_comment t = false -> is_onoff t = false -> nonws t = true -> is_semantic t = true).
  { intros t. unfold is_semantic, nonws, is_ws, is_comment, is_onoff. destruct (tt t); try discriminate; reflexivity. }
  induction 1 as [|k t rs is Hk Ht _ IH|k t rs is Hk Ht _ IH|k t s rs is Hk Ht Hl _ IH|t s rs is Hs _ IH|x t rs is Ht _ IH|x ts p rs is Hn Hts Ets Hpl _ IH];
    intros Hrs e ps Hr tk Hf.
  1: inversion Hr; subst; inversion Hf; subst; constructor.
  1-5: inversion Hrs as [|? ? (R1 & R0) R2]; subst; cbn [snd] in R1, R0; inversion Hr as [|? ? ? q qs E1 E2 Hr'|]; subst; inversion Hf as [|? u ? us [Hq _] Hf']; subst; cbn [map snd].
  - apply pl_sem; [|rewrite (reads_semantic _ _ Hq); unfold sem_piece; now rewrite E2|eauto].
    unfold is_semantic, is_tt in *. destruct Hk as [->| ->]; destruct (tt t); try discriminate; reflexivity.
  - apply pl_sem; [auto|rewrite (reads_semantic _ _ Hq); unfold sem_piece; now rewrite E2|eauto].
  - apply pl_sem; [auto|rewrite (reads_semantic _ _ Hq); unfold sem_piece; now rewrite E2|eauto].
  - exfalso. unfold onoff_text in Hs. unfold is_onoff in R1. destruct (tt t); discriminate.
  - assert (Hc : is_comment t = true) by (unfold is_tt in Ht; unfold is_comment; destruct (tt t); try discriminate; reflexivity).
    apply pl_new; auto; [eapply reads_comment; [|exact Hq]; now right|]. apply pl_old; eauto.
  - apply Forall_app in Hrs as [_ R2]. inversion Hr as [| |? ? w ls cps ? qs Ec Hne Em Hk Hr']; subst.
    apply Forall2_app_inv_l in Hf as (us & vs & Hu & Hv & ->). rewrite map_app.
    replace (map snd (map (pair (KComment x)) (filter nonws (toksT p)))) with (filter nonws (toksT p)) by (rewrite map_map; cbn [snd]; now rewrite map_id).
    apply places_run; eauto. clear -Hk Hu. induction Hu as [|q u qs us [Hq _] _ IH]; constructor; inversion Hk; subst; auto.
    eapply reads_comment; eauto.
Qed.

(** The tree that the tokens of the file belong to. *)
Definition steady_file (c : pcfg) (toks : list token) : Prop :=
  forall tree, parse (p_ctx c) toks = Ok tree -> forallb steady (roles (create_box tree)) = true.
Lemma file_reread c specs tbl src text v :
  run_cfg c specs tbl -> p_usetabs c = false -> f_endl (effective c src) = [cNL] -> markup_calm (p_markup c) ->
  process_file c src = Ok (text, v) ->
  forall toks, tokenize src = Ok toks -> comments_plain c toks -> no_switch toks = true -> steady_file c toks ->
  exists tree toks' ws,
    parse (p_ctx c) toks = Ok tree
    /\ tokenize text = Ok toks' /\ no_switch toks' = true
    /\ map snd (filter sem_role (roles (create_box tree))) = semantics (strip_bom_tok toks)
    /\ Permutation (filter sem_role (roles (create_box tree))) ws
    /\ (f_autosort (p_fmt c) = false -> ws = filter sem_role (roles (create_box tree)))
    /\ Forall2 reread_as ws (semantics (strip_bom_tok toks'))
    /\ (comment_free toks = true -> comment_free toks' = true)
    /\ map snd (roles (create_box tree)) = filter nonws (flat tree)
    /\ (f_autosort (p_fmt c) = false -> places (map snd (roles (create_box tree))) (filter nonws (strip_bom_tok toks'))).
Proof.
  intros R Ht Hendl Hcalm H toks Hl Hcl Hno Hst.
  destruct (C34_file_tree true _ _ _ _ _ _ R Ht H toks Hl (fun _ => Hcl) Hno) as (tree & is0 & is & gs & ps & Hp & A & B & C & D & E & F & G).
  specialize (Hst _ Hp). set (rs := roles (create_box tree)) in *.
  assert (Hst' : Forall (fun r => steady r = true) rs) by (apply Forall_forall; now apply forallb_forall).
  assert (Ho : no_onoff toks).
  { unfold no_switch in Hno. rewrite forallb_forall in Hno. apply Forall_forall. intros t Hin. apply Hno in Hin. now apply negb_true_iff. }
  pose proof R as ((ex & vt & Hctx) & Hut & Htk & _ & _ & _ & Hmk & _). pose proof Hp as Hp'. rewrite Hctx in Hp'.
  destruct (C05_file_tuples_partial ex vt specs tbl Hut _ _ _ Hl Ho Hp') as [HP HS].
  (* the tokens behind the roles *)
  assert (Hin : forall r, In r rs -> In (snd r) (strip_bom_tok toks) /\ nonws (snd r) = true).
  { intros r Hr. assert (Hi : In (snd r) (map snd rs)) by now apply in_map. rewrite A in Hi. apply filter_In in Hi as [H1 H2].
    split; auto. eapply Permutation_in; [|exact H1]. now apply Permutation_sym. }
  assert (Hin' : forall r, In r rs -> In (snd r) toks).
  { intros r Hr. destruct (Hin r Hr) as [H1 _]. clear -H1. unfold strip_bom_tok in H1. destruct toks as [|u toks]; [destruct H1|].
    destruct (is_tt BYTEORDER_MARK u); [now right|exact H1]. }
  assert (Hfn : forall t, In (KFunname, t) rs -> is_tt WORD t = true).
  { apply fnb_roles. eapply parse_words; [apply std_wkctx; exact Htk|eapply lexed_good; eauto|exact Hp']. }
  assert (Hlex : forall t, In t toks -> tt t <> BYTEORDER_MARK -> spelling_ok (tt t) (spelling t)).
  { intros t Hi Hne. apply in_split in Hi as (pre & post & Es). now destruct (C04_token_classes _ _ _ _ _ Hl Es Hne). }
  assert (Hrs : Forall (fun r => is_onoff (snd r) = false /\ (is_comment (snd r) = true -> startswith $"#" (spelling (snd r)) = true)
      /\ (is_tt COMMENT (snd r) = true -> existsb (N.eqb cNL) (spelling (snd r)) = false)
      /\ (fst r = KFunname -> name_text (spelling (snd r)))) rs).
  { apply Forall_forall. intros [k t] Hr. cbn [fst snd]. pose proof (Hin' _ Hr) as Hi. cbn [snd] in Hi.
    split; [|split; [|split]].
    - unfold no_onoff in Ho. rewrite Forall_forall in Ho. now apply Ho.
    - pose proof (lexed_hashed _ _ Hl) as Hh. rewrite Forall_forall in Hh. now apply Hh.
    - intros Et. unfold is_tt in Et. apply ttype_eqb_eq in Et. specialize (Hlex t Hi). rewrite Et in Hlex.
      destruct (Hlex ltac:(discriminate)) as (b & -> & Hb). cbn [existsb]. change (N.eqb cNL cHASH) with false. cbn [orb].
      destruct (existsb (N.eqb cNL) b) eqn:Ex; auto. exfalso. apply existsb_exists in Ex as (y & Hy & Ey). apply N.eqb_eq in Ey. now subst y.
    - intros ->. specialize (Hfn _ Hr). unfold is_tt in Hfn. apply ttype_eqb_eq in Hfn. specialize (Hlex t Hi). rewrite Hfn in Hlex.
      apply Hlex. discriminate. }
  pose proof (says_ready (pipe_env c src toks) (p_markup c) (first_token toks) eq_refl Hmk Hcalm _ _ B Hst' Hrs) as Hit0.
  assert (Hit : Forall (item_ok (pipe_env c src toks)) is).
  { rewrite Forall_forall in *. intros i Hi. apply Hit0. eapply Permutation_in; [|exact Hi]. now apply Permutation_sym. }
  pose proof (realizes_ready _ _ _ E Hit) as Hps. destruct (ready_types _ Hps) as (tys & Hty).
  assert (Hren : Forall2 renders (filter sem_role rs) (filter sem_item is0)).
  { apply says_renders; auto. rewrite Forall_forall in *. intros r Hr. split; [now apply Hrs|]. split; [now apply Hin|].
    intros Ek. destruct r as [k t]. cbn [fst snd] in *. subst k. specialize (Hfn _ Hr). unfold is_tt in Hfn. now apply ttype_eqb_eq in Hfn. }
  (* the text *)
  rewrite Hendl in G. change (text = bom_text c ++ tailp gs ps) in G.
  assert (Htb : strip_bom text = tailp gs ps).
  { rewrite G. unfold bom_text. destruct (p_bom c); [reflexivity|]. cbn [app]. unfold strip_bom.
    assert (Hb : bomless (tailp gs ps) = true).
    { destruct gs as [|g gs], ps as [|p ps]; cbn [gaps_ok] in F; try (exfalso; exact F); [reflexivity|]. rewrite tail_cons.
      destruct (gap_dec g) as [[G1 G2]|G1].
      - rewrite gap_zero by auto. inversion Hps as [|? ? [_ Hb] _]; subst. inversion Hty as [|? ? ? ? Hrd]; subst.
        destruct (reads_head _ _ Hrd) as [Hn _]. destruct (p_text p) as [|a s]; [congruence|exact Hb].
      - destruct (gap_head g (p_text p ++ tailp gs ps) G1) as (a & r & -> & Ha). cbn. apply negb_true_iff, N.eqb_neq. intros ->. discriminate. }
    destruct (tailp gs ps) as [|a r]; [reflexivity|]. cbn in Hb. apply negb_true_iff in Hb. now rewrite Hb. }
  destruct (tokenize_eq text) as (ts & E1 & E2 & _ & _). rewrite Htb in E2.
  pose proof (page_scan gs ps tys None None ts F Hty eq_refl E2) as Hsc.
  set (body := locate 1 0 0 ts) in *.
  assert (Hbody : map (fun t => (tt t, spelling t)) body = ts) by apply locate_spelling.
  assert (Hsolid : map (fun t => (tt t, spelling t)) (filter nonws body) = combine tys (map p_text ps)).
  { rewrite <- Hsc, <- Hbody. clear. induction body as [|t l IH]; auto. cbn [filter map]. unfold solid at 1. cbn [fst].
    change (tmem (tt t) [WHITESPACE; NEWLINE]) with (is_ws t). unfold nonws at 1. destruct (is_ws t); cbn [negb map]; auto. now f_equal. }
  pose proof (filter_pieces _ _ (scan_toks _ _ Hty _ Hsolid)) as Hsem.
  assert (Hss : filter is_semantic (filter nonws body) = semantics body).
  { unfold semantics. clear. induction body as [|t l IH]; auto. cbn [filter]. unfold nonws at 1. destruct (is_ws t) eqn:Ew; cbn [negb].
    - rewrite IH. now rewrite (nonsem_ws _ Ew).
    - cbn [filter]. now rewrite IH. }
  rewrite Hss in Hsem.
  assert (Hstrip : strip_bom_tok (bom_prefix text ++ body) = body).
  { assert (Hnb : strip_bom_tok body = body).
    { destruct body as [|t l] eqn:Eb; auto. unfold strip_bom_tok. destruct (is_tt BYTEORDER_MARK t) eqn:Et; auto. exfalso.
      unfold is_tt in Et. apply ttype_eqb_eq in Et. cbn [filter] in Hsolid. unfold nonws, is_ws in Hsolid. rewrite Et in Hsolid. cbn [tmem ttype_eqb negb existsb orb] in Hsolid.
      destruct tys as [|ty tys], ps as [|p ps]; try discriminate. cbn in Hsolid. injection Hsolid as E3 _. inversion Hty; subst.
      rewrite Et in *. eapply reads_bom; eauto. }
    unfold bom_prefix. destruct text as [|a r]; auto. destruct (N.eqb a cBOM); auto. }
  assert (Hren' : Forall2 (fun i r => renders r i) (filter sem_item is0) (filter sem_role rs)).
  { clear -Hren. induction Hren; constructor; auto. }
  destruct (Permutation_Forall2 (Permutation_filter sem_item _ _ C) Hren') as (ws & Pw & Fw).
  assert (Hlink : forall w0, Forall2 (fun i r => renders r i) (filter sem_item is) w0 -> Forall2 reread_as w0 (semantics body)).
  { intros w0 Hw. assert (Hw' : Forall2 renders w0 (filter sem_item is)) by (clear -Hw; induction Hw; constructor; auto).
    eapply Forall2_chain; [|exact Hw'|apply (realizes_sem _ _ _ E)|exact Hsem].
    intros r i p t' R1 -> [R2 R3]. exact (R1 t' R2 R3). }
  assert (Hroles : map snd (filter sem_role rs) = semantics (strip_bom_tok toks)).
  { rewrite HS. transitivity (filter is_semantic (map snd rs)).
    - clear. induction rs as [|r l IH]; auto. cbn [filter map]. unfold sem_role at 1. destruct (is_semantic (snd r)); cbn [map]; now rewrite IH.
    - rewrite A. unfold semantics. clear. induction (flat tree) as [|t l IH]; auto. cbn [filter]. unfold nonws at 1. destruct (is_ws t) eqn:Ew; cbn [negb].
      + rewrite IH. now rewrite (nonsem_ws _ Ew).
      + cbn [filter]. now rewrite IH. }
  assert (Hnsw : no_switch (bom_prefix text ++ body) = true).
  { unfold no_switch. rewrite forallb_app. apply andb_true_intro. split.
    - unfold bom_prefix. destruct text as [|a r]; auto. destruct (N.eqb a cBOM); auto.
    - apply forallb_forall. intros t Hi. destruct (nonws t) eqn:Ew.
      + assert (Hj : In t (filter nonws body)) by now apply filter_In.
        pose proof (scan_toks _ _ Hty _ Hsolid) as Hf. clear -Hf Hj.
        induction Hf as [|p t0 ps0 ts0 [Hr _] _ IH]; [destruct Hj|]. destruct Hj as [->|Hj]; auto.
        apply negb_true_iff. unfold is_onoff. destruct (tt t) eqn:Et; auto; exfalso; unfold reads in Hr;
          destruct (p_kind p) as [[]|[]| | |]; try (now destruct Hr as (_ & Hr & _)); try (now destruct Hr as [_ Hr]); try exact Hr;
          destruct Hr as [Hr _]; now apply class_onoff in Hr.
      + unfold nonws, is_ws, is_onoff in *. destruct (tt t); auto; discriminate. }
  assert (Hfree : comment_free toks = true -> comment_free (bom_prefix text ++ body) = true).
  { intros Hf. unfold comment_free in *. rewrite forallb_app. apply andb_true_intro. split.
    - unfold bom_prefix. destruct text as [|a r]; auto. destruct (N.eqb a cBOM); auto.
    - assert (Hi0 : Forall (fun i => sem_item i = true) is0).
      { eapply says_free; [exact B|]. rewrite Forall_forall in *. intros r Hr. split; [|now apply Hrs].
        rewrite forallb_forall in Hf. specialize (Hf _ (Hin' _ Hr)). now apply negb_true_iff. }
      assert (Hi1 : Forall (fun i => sem_item i = true) is).
      { rewrite Forall_forall in *. intros i Hi. apply Hi0. eapply Permutation_in; [|exact Hi]. now apply Permutation_sym. }
      pose proof (realizes_free _ _ _ E Hi1) as Hq. pose proof (scan_toks _ _ Hty _ Hsolid) as Hs2.
      apply forallb_forall. intros t Hi. destruct (nonws t) eqn:Ew.
      + assert (Hj : In t (filter nonws body)) by now apply filter_In. clear -Hs2 Hj Hq.
        induction Hs2 as [|p t0 ps0 ts0 [Hr _] _ IH]; [destruct Hj|]. inversion Hq as [|? ? Q1 Q2]; subst. destruct Hj as [->|Hj]; auto.
        apply reads_semantic in Hr. rewrite Q1 in Hr. unfold is_semantic, is_comment in *. destruct (tt t); auto; discriminate Hr.
      + unfold nonws, is_ws, is_comment in *. destruct (tt t); auto; discriminate. }
  exists tree, (bom_prefix text ++ body). rewrite Hstrip.
  destruct (f_autosort (p_fmt c)) eqn:Ea.
  - exists ws. repeat (split; auto); discriminate.
  - exists (filter sem_role rs). repeat (split; auto); [apply Hlink; rewrite (D eq_refl); exact Hren'|]. intros _.
    eapply says_places; [exact B| |rewrite <- (D eq_refl); exact E|exact (scan_toks _ _ Hty _ Hsolid)].
    rewrite Forall_forall in *. intros r Hr. split; [now apply Hrs|now apply Hin].
Qed.
Theorem C73_file_reread c specs tbl src text v :
  run_cfg c specs tbl -> p_usetabs c = false -> f_endl (effective c src) = [cNL] -> markup_calm (p_markup c) ->
  process_file c src = Ok (text, v) ->
  forall toks, tokenize src = Ok toks -> comments_plain c toks -> no_switch toks = true -> steady_file c toks ->
  exists tree toks' ws,
    parse (p_ctx c) toks = Ok tree
    /\ tokenize text = Ok toks' /\ no_switch toks' = true
    /\ map snd (filter sem_role (roles (create_box tree))) = semantics (strip_bom_tok toks)
    /\ Permutation (filter sem_role (roles (create_box tree))) ws
    /\ (f_autosort (p_fmt c) = false -> ws = filter sem_role (roles (create_box tree)))
    /\ Forall2 reread_as ws (semantics (strip_bom_tok toks'))
    /\ (comment_free toks = true -> comment_free toks' = true).
Proof.
  intros R Ht Hendl Hcalm H toks Hl Hcl Hno Hst.
  destruct (file_reread _ _ _ _ _ _ R Ht Hendl Hcalm H toks Hl Hcl Hno Hst) as (tree & toks' & ws & A1 & A2 & A3 & A4 & A5 & A6 & A7 & A8 & _).
  exists tree, toks', ws. auto 8.
Qed.

(** When every argument of the file is of the class that its normalized text has
    on its own, the tokens of the output are those of the file. *)
Definition settled (t : token) : bool :=
  negb (is_semantic t) || is_tt LEFT_PAREN t || is_tt RIGHT_PAREN t
  || match class_of (normalize (spelling t)) with Some ty => ttype_eqb ty (tt t) | None => false end.
Theorem C73_file_tokens c specs tbl src text v :
  run_cfg c specs tbl -> p_usetabs c = false -> f_endl (effective c src) = [cNL] -> markup_calm (p_markup c) ->
  f_autosort (p_fmt c) = false ->
  process_file c src = Ok (text, v) ->
  forall toks, tokenize src = Ok toks -> comments_plain c toks -> no_switch toks = true -> steady_file c toks ->
  forallb settled (strip_bom_tok toks) = true ->
  exists toks', tokenize text = Ok toks' /\ no_switch toks' = true /\ (comment_free toks = true -> comment_free toks' = true)
    /\ Forall2 (fun t t' => tt t' = tt t /\ lower (spelling t') = lower (normalize (spelling t)))
         (semantics (strip_bom_tok toks)) (semantics (strip_bom_tok toks')).
Proof.
  intros R Ht He Hc Ha H toks Hl Hcl Hno Hst Hse.
  destruct (C73_file_reread _ _ _ _ _ _ R Ht He Hc H toks Hl Hcl Hno Hst) as (tree & toks' & ws & Hp & Hl' & Hno' & Es & _ & Ew & F & Hfree).
  exists toks'. repeat (split; [assumption|]). specialize (Ew Ha). subst ws. rewrite <- Es in *.
  assert (Hlex : forall t, In t (strip_bom_tok toks) -> is_tt LEFT_PAREN t || is_tt RIGHT_PAREN t = true ->
      class_of (normalize (spelling t)) = None /\ normalize (spelling t) = (if is_tt LEFT_PAREN t then $"(" else $")")).
  { intros t Hi Hpar. assert (Hi' : In t toks).
    { unfold strip_bom_tok in Hi. destruct toks as [|u l]; [destruct Hi|]. destruct (is_tt BYTEORDER_MARK u); [now right|exact Hi]. }
    apply in_split in Hi' as (pre & post & E). unfold is_tt in Hpar.
    assert (Hne : tt t <> BYTEORDER_MARK) by (destruct (tt t); discriminate).
    destruct (C04_token_classes _ _ _ _ _ Hl E Hne) as [Hs _].
    unfold is_tt. destruct (tt t); try discriminate Hpar; cbn in Hs; rewrite Hs; split; reflexivity. }
  assert (Hin : forall r, In r (filter sem_role (roles (create_box tree))) -> In (snd r) (strip_bom_tok toks) /\ is_semantic (snd r) = true).
  { intros r Hr. assert (Hi : In (snd r) (semantics (strip_bom_tok toks))) by (rewrite <- Es; now apply in_map). now apply filter_In in Hi. }
  clear Es. induction F as [|r t' rs ts Hr _ IH]; [constructor|]. cbn [map]. constructor; [|apply IH; intros; apply Hin; now right].
  destruct (Hin r) as [Hi Hb]; [now left|]. rewrite forallb_forall in Hse. specialize (Hse _ Hi). specialize (Hlex _ Hi).
  assert (Hcl' : forall ty, class_of (normalize (spelling (snd r))) = Some ty -> ty = tt (snd r)).
  { intros ty Ec. unfold settled in Hse. rewrite Hb, Ec in Hse. cbn [negb orb] in Hse.
    destruct (is_tt LEFT_PAREN (snd r) || is_tt RIGHT_PAREN (snd r)) eqn:Ep; [destruct Hlex as [Hlex _]; [auto|]; congruence|].
    cbn [orb] in Hse. now apply ttype_eqb_eq. }
  unfold reread_as in Hr. destruct r as [k t]. cbn [fst snd] in *.
  destruct k; try (exfalso; exact Hr);
    try (destruct Hr as [Hr Hs]; apply Hcl' in Hr; split; [exact Hr|]; rewrite Hs; reflexivity);
    try (destruct Hr as (Hr & Hr' & Hs); split; [congruence|]; rewrite Hs; auto);
    unfold is_tt in Hlex; rewrite Hr in Hlex; destruct (Hlex eq_refl) as [_ ->]; reflexivity.
Qed.

(** ** Examples *)
Lemma default_calm : markup_calm default_mcfg.
Proof.
  split; [reflexivity|]. split; [reflexivity|]. split.
  - intros l f x Hl H. simpl in H. unfold fence_match in H.
    destruct (span is_uspace l) as [a r] eqn:E1. destruct (span is_fence_c r) as [b y] eqn:E2.
    destruct (3 <=? zlen b); [|discriminate]. injection H as <- <-.
    apply PropMarkup.span_eq in E1 as [-> _]. apply PropMarkup.span_eq in E2 as [-> _]. apply switchless_sub in Hl as [_ Hl]. now apply switchless_sub in Hl.
  - exists 60%N, nil. repeat split; discriminate.
Qed.
(** the configuration of [narrow_pcfg] with unix line endings *)
Definition unix_fcfg : fcfg :=
  FCfg 28 4 2 6 2 2 4 10 true false true $"prefix-indent" true $"lower"
       (fun _ => $"upper") lower nil nil [cNL].
Definition unix_pcfg : pcfg :=
  PCfg unix_fcfg default_mcfg (std_ctx no_explicit nil user_tbl) false true false UseSpace.
Example unix_run : run_cfg unix_pcfg user_specs user_tbl.
Proof.
  split; [exists no_explicit, nil; reflexivity|]. repeat (split; [vm_compute; reflexivity|]).
  split; [|split; [apply default_markup_ok|split; [vm_compute; discriminate|now left]]].
  split; intros s; [right; now left|apply lower_lower].
Qed.
Definition steady_src (c : pcfg) (src : str) : bool :=
  match tokenize src with
  | Ok toks => match parse (p_ctx c) toks with
               | Ok tree => forallb steady (roles (create_box tree)) && forallb settled (strip_bom_tok toks)
               | _ => false
               end
  | _ => false
  end.
Lemma steady_srced c src toks : tokenize src = Ok toks -> steady_src c src = true ->
  steady_file c toks /\ forallb settled (strip_bom_tok toks) = true.
Proof.
  intros H E. unfold steady_src in E. rewrite H in E. destruct (parse (p_ctx c) toks) as [tree| |] eqn:Ep; try discriminate.
  apply andb_prop in E as [E1 E2]. split; auto. intros tree' Hp'. rewrite Ep in Hp'. injection Hp' as <-. exact E1.
Qed.
Definition src_reread : str := cBOM :: nl
  [$"# hello"; $"# world"; $"IF(NOT (A AND ""a;b"")) # why"; $"";
   $"  myfun(x FAST SRC z.c y.c # last"; $"                           # of all"; $"    w.c ${dir}/v.c [=["; $" text ]=])"; $"Endif()#[[end]]"].
(** the hypotheses hold of this file in both configurations, with and without sorting *)
Example reread_ex : exists toks, tokenize src_reread = Ok toks /\ no_switch toks = true
  /\ comments_plain default_pcfg toks /\ steady_file default_pcfg toks
  /\ comments_plain unix_pcfg toks /\ steady_file unix_pcfg toks
  /\ forallb settled (strip_bom_tok toks) = true
  /\ f_endl (effective default_pcfg src_reread) = [cNL] /\ f_endl (effective unix_pcfg src_reread) = [cNL]
  /\ process_file unix_pcfg src_reread = Ok (cBOM :: nl
  [$"# hello world"; $"IF (not (A and ""a;b"")) # why"; $"";
   $"    MYFUN("; $"        x"; $"        FAST"; $"        src z.c"; $"            y.c # last of"; $"                # all";
   $"            w.c"; $"            ${dir}/v.c"; $"            [=["; $" text ]=]"; $"        )"; $"ENDIF () #[[end]]"], true).
Proof.
  assert (H : exists toks, tokenize src_reread = Ok toks) by (eexists; vm_compute; reflexivity). destruct H as [toks H].
  exists toks. split; [exact H|]. split; [vm_compute in H; injection H as <-; reflexivity|].
  split; [apply (plain_srced _ src_reread); auto; vm_compute; reflexivity|].
  destruct (steady_srced default_pcfg src_reread toks H ltac:(vm_compute; reflexivity)) as [A B]. split; [exact A|].
  split; [apply (plain_srced _ src_reread); auto; vm_compute; reflexivity|].
  destruct (steady_srced unix_pcfg src_reread toks H ltac:(vm_compute; reflexivity)) as [C D]. split; [exact C|].
  split; [exact B|]. repeat (split; [reflexivity|]). vm_compute. reflexivity.
Qed.

(** ** What the conditions exclude *)
(** Wrapping a comment can create a format switch: the output has a token that
    the file has not, and formatting is off below it in the next run. *)
Definition src_wrapped : str := nl
  [$"# You can turn the tool off for a while if you write into a comment the words: cmake-format: off";
   $"set( c   d )"].
Theorem C73_switch_refuted : exists toks text toks',
  tokenize src_wrapped = Ok toks /\ no_switch toks = true /\ comments_plain default_pcfg toks
  /\ process_file default_pcfg src_wrapped = Ok (text, true)
  /\ tokenize text = Ok toks' /\ no_switch toks' = false.
Proof.
  assert (H : exists toks, tokenize src_wrapped = Ok toks) by (eexists; vm_compute; reflexivity). destruct H as [toks H].
  exists toks. do 2 eexists. split; [exact H|]. split; [vm_compute in H; injection H as <-; reflexivity|].
  split; [apply (plain_srced _ src_wrapped); auto; vm_compute; reflexivity|].
  split; [vm_compute; reflexivity|]. split; [vm_compute; reflexivity|]. reflexivity.
Qed.
(** An argument that touches a parenthesis can change its class. *)
Definition src_touching : str := nl [$"foo(${x}(b))"].
Theorem C73_class_refuted : exists toks text toks',
  tokenize src_touching = Ok toks /\ process_file default_pcfg src_touching = Ok (text, true)
  /\ tokenize text = Ok toks'
  /\ map spelling (semantics toks') = map spelling (semantics toks)
  /\ map tt (semantics toks) = [WORD; LEFT_PAREN; UNQUOTED_LITERAL; LEFT_PAREN; WORD; RIGHT_PAREN; RIGHT_PAREN]
  /\ map tt (semantics toks') = [WORD; LEFT_PAREN; DEREF; LEFT_PAREN; WORD; RIGHT_PAREN; RIGHT_PAREN].
Proof.
  do 3 eexists. split; [vm_compute; reflexivity|]. split; [vm_compute; reflexivity|]. split; [vm_compute; reflexivity|].
  repeat split; reflexivity.
Qed.
