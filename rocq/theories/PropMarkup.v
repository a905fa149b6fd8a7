(** * PropMarkup: C41, C42, C43 - comment reflow *)
From Verif Require Import Base Regex Lex TextOps TextProofs Tree Layout Markup MarkupProofs.

Ltac bkm H := let x := fresh "x" in let E := fresh "Hx" in apply bindr_ok in H as (x & E & H).

(** ** C42: wrapping converges *)

(** Text whose words are separated by exactly one space or newline. *)
Fixpoint single_from (s : str) : bool :=
  match s with
  | nil => true
  | c :: s' =>
      match s' with
      | nil => negb (is_uspace c)
      | d :: _ => (if is_uspace c then (N.eqb c cSP || N.eqb c cNL) && negb (is_uspace d) else true)
                  && single_from s'
      end
  end.
Definition single_spaced (s : str) : bool :=
  match s with c :: _ => negb (is_uspace c) && single_from s | nil => true end.

Definition tight (cs : list str) : Prop :=
  alt cs /\ Forall (fun w => if sp w then w = [cSP] else blank_chunk w = false) cs.
Definition end_word (cs : list str) : Prop := match rev cs with w :: _ => sp w = false | nil => True end.
Definition drop_lead (cs : list str) : list str :=
  match cs with w :: r => if sp w then r else cs | nil => nil end.
Lemma tight_app a b : tight (a ++ b) -> tight a /\ tight b.
Proof. intros [A B]. apply alt_app in A as [A1 A2]. apply Forall_app in B as [B1 B2]. split; split; auto. Qed.
Lemma alt_join a w w' b : alt (a ++ w :: w' :: b) -> sp w <> sp w'.
Proof. intros H. apply alt_app in H as [_ H]. simpl in H. tauto. Qed.
Lemma end_word_app a b : b <> nil -> end_word (a ++ b) -> end_word b.
Proof.
  intros Hb. unfold end_word. rewrite rev_app_distr. destruct (rev b) eqn:E; [|auto].
  exfalso. apply Hb. rewrite <- (rev_involutive b), E. reflexivity.
Qed.
Lemma blank_sp cs w : tight cs -> In w cs -> blank_chunk w = true -> sp w = true /\ w = [cSP].
Proof.
  intros [_ H] Hin Hb. rewrite Forall_forall in H. specialize (H w Hin).
  destruct (sp w); [auto|congruence].
Qed.
Lemma last_cons {A} (l : list A) : l <> nil -> exists a x, l = a ++ [x].
Proof.
  intros H. destruct (rev l) as [|x r] eqn:E.
  - exfalso. apply H. rewrite <- (rev_involutive l), E. reflexivity.
  - exists (rev r), x. rewrite <- (rev_involutive l), E. reflexivity.
Qed.

Lemma wrap_rejoin width : 0 < width -> forall f b cs, (List.length cs <= f)%nat ->
  tight cs -> end_word cs -> (b = false -> match cs with w :: _ => sp w = false | nil => True end) ->
  (cs = nil -> wrap_loop width f b cs = nil)
  /\ join [cSP] (wrap_loop width f b cs) = List.concat (drop_lead cs).
Proof.
  intros Hw. refine (wrap_loop_ind (fun b cs out => tight cs -> end_word cs ->
    (b = false -> match cs with w :: _ => sp w = false | nil => True end) ->
    (cs = nil -> out = nil) /\ join [cSP] out = List.concat (drop_lead cs)) width Hw _ _).
  - intros b _ _ _. split; reflexivity.
  - intros b cs line rest out Hne [lead line0 drop E1 E2 E2b E2c E3 E4 E4b E5 E6 E7 E8 E9 E10].
    assert (Main : tight cs -> end_word cs -> (b = false -> match cs with w :: _ => sp w = false | nil => True end) ->
      drop_lead cs = line0 ++ rest /\ line0 <> nil /\ line <> nil
      /\ (drop = nil \/ drop = [[cSP]]) /\ (drop = nil -> rest = nil \/ exists r, rest = [cSP] :: r /\ r <> nil)
      /\ (drop = [[cSP]] -> exists w r, rest = w :: r /\ sp w = false)).
    { intros Ht He Hb.
      assert (Hd : drop_lead cs = line0 ++ rest).
      { destruct cs as [|c cs]; [congruence|]. cbn [drop_lead]. destruct (sp c) eqn:Es.
        - assert (b = true) as -> by (destruct b; auto; specialize (Hb eq_refl); congruence).
          assert (Hbc : blank_chunk c = true).
          { destruct Ht as [(Hr & _) _]. now apply run_sp. }
          rewrite (E9 _ _ eq_refl Hbc eq_refl) in E1. cbn [app] in E1. now inversion E1.
        - destruct lead as [|d lead]; [exact E1|]. exfalso. cbn [app] in E1. inversion E1; subst d.
          pose proof (Forall_inv E2) as Hb1. destruct (blank_sp _ c Ht (or_introl eq_refl) Hb1) as [Hs _]. congruence. }
      assert (Hl0 : line0 <> nil).
      { intros ->. rewrite (E10 eq_refl) in *. cbn [app] in *. rewrite app_nil_r in E1. subst cs.
        destruct lead as [|d [|]]; [congruence| |simpl in E2c; lia].
        pose proof (Forall_inv E2) as Hb1. destruct (blank_sp _ d Ht (or_introl eq_refl) Hb1) as [Hs _].
        unfold end_word in He. cbn in He. congruence. }
      assert (Hhd : exists w r, line0 = w :: r /\ sp w = false).
      { destruct line0 as [|w r]; [congruence|]. exists w, r. split; [reflexivity|].
        destruct (sp w) eqn:Es; [|reflexivity]. exfalso.
        destruct cs as [|c cs]; [congruence|]. cbn [drop_lead] in Hd. destruct (sp c) eqn:Ec.
        - subst cs. destruct Ht as [(_ & H & _) _]. cbn [app] in H. congruence.
        - inversion Hd; subst. congruence. }
      assert (Hline : line <> nil).
      { intros Hl. destruct Hhd as (w & r & -> & Es). rewrite Hl in E3. cbn [app] in E3. subst drop.
        pose proof (Forall_inv E4) as Hb1. cbn beta in Hb1.
        assert (Hin : In w cs) by (rewrite E1, !in_app_iff; right; left; now left).
        destruct (blank_sp _ w Ht Hin Hb1) as [Hs _]. congruence. }
      split; [exact Hd|]. split; [exact Hl0|]. split; [exact Hline|].
      assert (Hdrop : drop = nil \/ drop = [[cSP]]).
      { destruct drop as [|d [|]]; [now left| |simpl in E4b; lia]. right. pose proof (Forall_inv E4) as Hb1.
        f_equal. apply (blank_sp cs); auto. rewrite E1, E3, !in_app_iff. right. left. right. now left. }
      split; [exact Hdrop|].
      destruct Hdrop as [->| ->]; (split; [intros Hx|intros Hx]); try discriminate.
      - destruct rest as [|w r]; [now left|]. right.
        rewrite app_nil_r in E3. subst line0.
        destruct (last_cons _ Hline) as (a & x & ->).
        assert (Hx1 : sp x = false).
        { destruct (sp x) eqn:Es; [|reflexivity]. exfalso.
          unfold drop_last_blank in E8. rewrite rev_app_distr in E8. cbn [rev app] in E8.
          assert (blank_chunk x = true) as Eb.
          { apply run_sp; auto. destruct Ht as [Ha _]. rewrite E1 in Ha. apply alt_app in Ha as [_ Ha].
            apply alt_app in Ha as [Ha _]. apply alt_app in Ha as [_ Ha]. apply Ha. }
          rewrite Eb in E8. rewrite rev_involutive in E8. apply (f_equal (@List.length _)) in E8.
          rewrite app_length in E8. simpl in E8. lia. }
        assert (Hs : sp x <> sp w).
        { destruct Ht as [Ha _]. rewrite E1 in Ha. apply alt_app in Ha as [_ Ha].
          rewrite <- app_assoc in Ha. cbn [app] in Ha. eapply alt_join; eauto. }
        assert (Hw1 : sp w = true) by (destruct (sp w); congruence).
        assert (Hin : In w cs) by (rewrite E1, !in_app_iff; right; right; now left).
        exists r. destruct Ht as [Ha Hf]. rewrite Forall_forall in Hf. pose proof (Hf w Hin) as Hfw.
        rewrite Hw1 in Hfw. subst w. split; [reflexivity|]. intros ->.
        unfold end_word in He. rewrite E1, app_assoc, rev_app_distr in He. cbn in He. discriminate.
      - destruct rest as [|w r].
        + exfalso. rewrite app_nil_r in E1. unfold end_word in He.
          rewrite E1, E3, app_assoc, rev_app_distr in He. cbn in He. discriminate.
        + exists w, r. split; [reflexivity|]. destruct Ht as [Ha _]. rewrite E1, E3 in Ha.
          apply alt_app in Ha as [_ Ha]. rewrite <- app_assoc in Ha. cbn [app] in Ha. apply alt_join in Ha.
          cbn in Ha. destruct (sp w); congruence. }
    assert (Hlast : tight cs -> end_word cs -> tight rest /\ end_word rest).
    { intros Ht He. rewrite E1 in Ht, He. apply tight_app in Ht as [_ Ht]. apply tight_app in Ht as [_ Ht].
      split; [exact Ht|]. destruct rest as [|w r]; [exact I|].
      apply end_word_app in He; [|destruct line0; discriminate]. apply end_word_app in He; [exact He|discriminate]. }
    destruct line as [|l line].
    + intros _ Ht He Hb. destruct (Main Ht He Hb) as (_ & _ & H & _). congruence.
    + intros IH Ht He Hb. destruct (Main Ht He Hb) as (M1 & M2 & _ & M4 & M5 & M6).
      destruct (Hlast Ht He) as [L1 L2]. destruct (IH L1 L2 ltac:(discriminate)) as [I1 I2].
      split; [intros ->; congruence|]. rewrite M1, concat_app.
      destruct M4 as [-> | ->].
      * rewrite app_nil_r in E3. rewrite E3. destruct (M5 eq_refl) as [-> |(r & -> & Hr)].
        -- rewrite (I1 eq_refl). cbn [join]. simpl. now rewrite app_nil_r.
        -- cbn [drop_lead sp] in I2. change (N.eqb cSP cSP) with true in I2. cbv iota in I2.
           destruct out as [|o out].
           ++ exfalso. destruct r as [|w r]; [congruence|]. destruct L1 as [(_ & _ & [Hn _] & _) _].
              cbn in I2. destruct w; [congruence|discriminate].
           ++ change (join [cSP] (List.concat (l :: line) :: o :: out))
                with (List.concat (l :: line) ++ [cSP] ++ join [cSP] (o :: out)). rewrite I2. reflexivity.
      * rewrite E3, concat_app. destruct (M6 eq_refl) as (w & r & -> & Hs).
        cbn [drop_lead] in I2. rewrite Hs in I2.
        destruct out as [|o out].
        -- exfalso. destruct L1 as [([Hn _] & _) _]. cbn in I2. destruct w; [congruence|discriminate].
        -- change (join [cSP] (List.concat (l :: line) :: o :: out))
             with (List.concat (l :: line) ++ [cSP] ++ join [cSP] (o :: out)). rewrite I2.
           cbn [List.concat]. rewrite <- !app_assoc. reflexivity.
Qed.

(** [munge] on a text whose only ASCII blanks are spaces and newlines *)
Definition nl_sp (c : chr) : chr := if N.eqb c cNL then cSP else c.
Lemma munge_nl s : Forall (fun c => is_aspace c = true -> c = cSP \/ c = cNL) s -> munge s = map nl_sp s.
Proof.
  unfold munge. generalize 0. induction s as [|c s IH]; intros k H; [reflexivity|]. inversion H; subst. cbn [expandtabs].
  assert (N.eqb c cTAB = false) as ->.
  { apply N.eqb_neq. intros ->. destruct (H2 eq_refl); discriminate. }
  assert (E : blank_to_space c = nl_sp c).
  { unfold blank_to_space, nl_sp. destruct (is_aspace c) eqn:Ea.
    - destruct (H2 eq_refl) as [-> | ->]; reflexivity.
    - destruct (N.eqb c cNL) eqn:En; [|reflexivity]. apply N.eqb_eq in En. subst. discriminate. }
  destruct (N.eqb c cNL || N.eqb c cCR); cbn [map]; rewrite E, IH; auto.
Qed.
Lemma map_join (f : chr -> chr) sep ls : map f (join sep ls) = join (map f sep) (map (map f) ls).
Proof.
  induction ls as [|l ls IH]; [reflexivity|]. destruct ls as [|m ls]; [reflexivity|].
  change (join sep (l :: m :: ls)) with (l ++ sep ++ join sep (m :: ls)).
  rewrite !map_app, IH. reflexivity.
Qed.
Lemma Forall_join (P : chr -> Prop) sep ls : Forall P sep -> Forall (Forall P) ls -> Forall P (join sep ls).
Proof.
  intros Hs H. induction H as [|l ls Hl Hls IH]; [constructor|]. destruct ls as [|m ls]; [exact Hl|].
  change (join sep (l :: m :: ls)) with (l ++ sep ++ join sep (m :: ls)). rewrite !Forall_app. auto.
Qed.
Lemma munge_rejoin width text ls : wrap width text = Ok ls -> munge (join [cNL] ls) = join [cSP] ls.
Proof.
  intros H. apply wrap_chars in H.
  assert (Hf : Forall (Forall (fun c => is_aspace c = true -> c = cSP)) ls).
  { eapply Forall_impl; [|exact H]. simpl. tauto. }
  rewrite munge_nl.
  - rewrite map_join. change (map nl_sp [cNL]) with [cSP]. f_equal.
    rewrite <- (map_id ls) at 2. apply map_ext_in. intros l Hl. rewrite <- (map_id l) at 2. apply map_ext_in.
    intros c Hc. unfold nl_sp. destruct (N.eqb c cNL) eqn:E; [|reflexivity]. apply N.eqb_eq in E. subst c.
    rewrite Forall_forall in Hf. specialize (Hf _ Hl). rewrite Forall_forall in Hf. symmetry. apply (Hf _ Hc). reflexivity.
  - apply Forall_join; [constructor; [right; reflexivity|constructor]|].
    eapply Forall_impl; [|exact Hf]. intros l Hl. eapply Forall_impl; [|exact Hl]. simpl. auto.
Qed.

Lemma single_from_chars s : single_from s = true -> Forall (fun c => is_uspace c = true -> c = cSP \/ c = cNL) s.
Proof.
  induction s as [|c s IH]; intros H; [constructor|]. cbn [single_from] in H. destruct s as [|d s].
  - constructor; [|constructor]. intros E. rewrite E in H. discriminate.
  - apply andb_prop in H as [H1 H2]. constructor; [|auto]. intros E. rewrite E in H1.
    apply andb_prop in H1 as [H1 _]. apply orb_prop in H1 as [H1|H1]; apply N.eqb_eq in H1; auto.
Qed.
Lemma single_adjacent a : forall c d b, single_from (a ++ c :: d :: b) = true -> is_uspace c = true -> is_uspace d = false.
Proof.
  induction a as [|x a IH]; intros c d b H E.
  - cbn [app single_from] in H. rewrite E in H. apply andb_prop in H as [H _]. apply andb_prop in H as [_ H].
    now apply negb_true_iff in H.
  - cbn [app] in H. eapply (IH c d b); [|exact E]. destruct (a ++ c :: d :: b) eqn:Ea; [destruct a; discriminate|].
    cbn [single_from] in H. now apply andb_prop in H as [_ H].
Qed.
Lemma single_last a : forall c, single_from (a ++ [c]) = true -> is_uspace c = false.
Proof.
  induction a as [|x a IH]; intros c H.
  - cbn in H. now apply negb_true_iff in H.
  - apply IH. cbn [app] in H. destruct (a ++ [c]) eqn:Ea; [destruct a; discriminate|].
    cbn [single_from] in H. now apply andb_prop in H as [_ H].
Qed.
Lemma uspace_nl_sp c : is_uspace (nl_sp c) = is_uspace c.
Proof. unfold nl_sp. destruct (N.eqb c cNL) eqn:E; [|reflexivity]. apply N.eqb_eq in E. now subst. Qed.
Lemma single_nl_sp s : single_from s = true -> single_from (map nl_sp s) = true.
Proof.
  induction s as [|c s IH]; intros H; [reflexivity|]. destruct s as [|d s].
  - cbn [map single_from] in *. now rewrite uspace_nl_sp.
  - cbn [map single_from] in *. apply andb_prop in H as [H1 H2]. rewrite IH by exact H2.
    rewrite !uspace_nl_sp, andb_true_r. destruct (is_uspace c); [|reflexivity].
    apply andb_prop in H1 as [H1 ->]. rewrite andb_true_r. unfold nl_sp.
    destruct (N.eqb c cNL); [reflexivity|]. rewrite orb_false_r in H1. now rewrite H1.
Qed.
(** the chunks of a munged single-spaced text *)
Lemma single_tight s : single_spaced s = true ->
  let cs := chunks (munge s) in
  tight cs /\ end_word cs /\ match cs with w :: _ => sp w = false | nil => True end.
Proof.
  intros H. destruct s as [|c0 s0]; [repeat split; constructor|]. unfold single_spaced in H.
  apply andb_prop in H as [H1 H2]. apply negb_true_iff in H1. set (s := c0 :: s0) in *.
  assert (Em : munge s = map nl_sp s).
  { apply munge_nl. eapply Forall_impl; [|apply (single_from_chars s H2)]. simpl. intros c Hc Ha.
    apply Hc. now apply aspace_uspace. }
  apply single_nl_sp in H2. rewrite <- Em in H2.
  assert (Hch : Forall (fun c => is_uspace c = true -> c = cSP) (munge s)).
  { pose proof (single_from_chars _ H2) as A. pose proof (munge_chars s) as B.
    rewrite Forall_forall in *. intros c Hc E. destruct (A c Hc E) as [->| ->]; auto.  }
  cbn zeta. pose proof (chunks_concat (munge s)) as Hcc. pose proof (chunks_alt (munge s)) as Ha.
  assert (Hw : forall w, In w (chunks (munge s)) -> exists a b, munge s = a ++ w ++ b).
  { intros w Hw. apply in_split in Hw as (l1 & l2 & E). rewrite <- Hcc, E, concat_app. cbn. eauto. }
  assert (Hrun : forall w, In w (chunks (munge s)) -> run w).
  { clear -Ha. induction (chunks (munge s)); [intros w []|]. destruct Ha as (A & _ & B).
    intros w [<-|Hw]; auto. }
  split; [split; [exact Ha|]|split].
  - rewrite Forall_forall. intros w Hin. destruct (Hrun w Hin) as [Hn Hf]. destruct (Hw w Hin) as (a & b & E).
    destruct (sp w) eqn:Es.
    + destruct w as [|x [|y w]]; [congruence| |].
      * inversion Hf; subst. apply N.eqb_eq in H3. now subst.
      * exfalso. inversion Hf as [|? ? F1 F2]; subst. inversion F2 as [|? ? F3 _]; subst.
        apply N.eqb_eq in F1, F3. subst x y. rewrite E in H2. cbn [app] in H2.
        apply single_adjacent in H2; [vm_compute in H2; discriminate|reflexivity].
    + destruct w as [|x w]; [congruence|]. unfold blank_chunk. cbn [forallb].
      destruct (is_uspace x) eqn:Ex; [|reflexivity]. exfalso.
      assert (x = cSP). { rewrite Forall_forall in Hch. apply Hch; auto. rewrite E, !in_app_iff. right. left. now left. }
      subst. discriminate.
  - unfold end_word. destruct (rev (chunks (munge s))) as [|w r] eqn:Er; [exact I|].
    assert (Ec : chunks (munge s) = rev r ++ [w]) by (rewrite <- (rev_involutive (chunks _)), Er; reflexivity).
    assert (Hin : In w (chunks (munge s))) by (rewrite Ec, in_app_iff; right; now left).
    destruct (Hrun w Hin) as [Hn Hf]. destruct (sp w) eqn:Es; [|reflexivity]. exfalso.
    destruct (last_cons w Hn) as (a & x & ->). rewrite <- Hcc, Ec, concat_app in H2. cbn [List.concat] in H2.
    rewrite app_nil_r, app_assoc in H2. apply single_last in H2. apply Forall_app in Hf as [_ Hf].
    apply Forall_inv in Hf. apply N.eqb_eq in Hf. subst. vm_compute in H2. discriminate.
  - destruct (chunks (munge s)) as [|w r] eqn:Ec; [exact I|].
    destruct (Hrun w (or_introl eq_refl)) as [Hn _]. destruct w as [|x w]; [congruence|].
    rewrite Em in Hcc. cbn [List.concat app] in Hcc. unfold s in Hcc. cbn [map] in Hcc. inversion Hcc. subst x. simpl.
    destruct (N.eqb (nl_sp c0) cSP) eqn:E; [|reflexivity]. apply N.eqb_eq in E.
    rewrite <- uspace_nl_sp, E in H1. discriminate.
Qed.

(** Single-spaced text is wrapped in at most two rounds. *)
Theorem C42_single_spaced_partial width text : 0 < width -> single_spaced text = true ->
  exists ls, stable_wrap width text = Ok ls /\ flat_map words ls = words text.
Proof.
  intros Hw Hs. destruct (single_tight text Hs) as (Ht & He & Hb). set (cs := chunks (munge text)) in *.
  assert (E1 : wrap width text = Ok (wrap_loop width (List.length cs) false cs)).
  { unfold wrap. replace (width <=? 0) with false by (symmetry; apply Z.leb_gt; lia). reflexivity. }
  set (ls := wrap_loop width (List.length cs) false cs) in *.
  assert (Hm : munge (join [cNL] ls) = munge text).
  { rewrite (munge_rejoin _ _ _ E1).
    destruct (wrap_rejoin width Hw (List.length cs) false cs (le_n _) Ht He (fun _ => Hb)) as [_ Hj].
    fold ls in Hj. rewrite Hj.
    unfold drop_lead. rewrite <- (chunks_concat (munge text)). fold cs.
    destruct cs as [|w r]; [reflexivity|]. now rewrite Hb. }
  assert (E2 : wrap width (join [cNL] ls) = Ok ls).
  { unfold wrap. rewrite Hm. exact E1. }
  assert (Hr : stable_wrap width text = Ok ls).
  { unfold stable_wrap. cbn [stable_loop]. rewrite E1. cbn [bindr].
    destruct (seqb (join [cNL] ls) text) eqn:Es; [reflexivity|].
    destruct ls as [|l r] eqn:El.
    - exfalso. apply seqb_neq in Es. cbn [join] in Es.
      pose proof (wrap_words _ _ _ E1) as W. cbn in W. destruct text as [|c t]; [congruence|].
      unfold single_spaced in Hs. apply andb_prop in Hs as [Hs _]. apply negb_true_iff in Hs.
      unfold words in W. cbn [wd] in W. rewrite Hs in W. clear -W. cbn [app] in W.
      assert (forall s cur, cur <> nil -> wd cur s <> nil).
      { induction s as [|x s IH]; intros cur Hc; cbn [wd].
        - destruct cur; [congruence|discriminate].
        - destruct (is_uspace x); [destruct cur; [congruence|discriminate]|]. apply IH. destruct cur; discriminate. }
      apply (H t [c]); [discriminate|auto].
    - rewrite E2. cbn [bindr]. now rewrite seqb_refl. }
  exists ls. split; [exact Hr|]. eapply stable_words; eauto.
Qed.
Example C42_ex : single_spaced $"wrap this text please" = true
  /\ stable_wrap 10 $"wrap this text please" = Ok [$"wrap this"; $"text"; $"please"].
Proof. split; reflexivity. Qed.

(** A comment with many double blanks needs more than the eight rounds allowed. *)
Definition spread : str :=
  $"a  a      a     a  a     a a      a a  a   a     a   a     a    a   a  a a   a    a  a  a  a a    a      a a  a   a      a   a  a      a  a      a    a     a  a      a     a  a     a  a   a  a  a    a   a      a a     a      a a  a    a     a  a     a   a   a".
Theorem C42_refuted : ~ (forall first explicit pcs width,
  exists ls, format_comment default_mcfg first explicit pcs width = Ok ls).
Proof.
  intros H. destruct (H None false [T (Tok COMMENT (cHASH :: cSP :: spread) (Loc 1 0 0))] 10) as (ls & E).
  vm_compute in E. discriminate.
Qed.

(** ** C41: no word is lost *)

(** *** Formatting the items *)
(** the texts of an item, each entry with its mark *)
Definition entry_words (mark : nat -> str) (ls : list str) : list str :=
  flat_map (fun '(i, l) => words (mark i) ++ words l) (number 0 ls).
Lemma format_list_words width mark indent ls : (forall i, ends_blank (mark i) = true) ->
  forallb is_uspace indent = true ->
  forall i out, format_list width mark indent i ls = Ok out ->
  flat_map words out = flat_map (fun '(i, l) => words (mark i) ++ words l) (number i ls).
Proof.
  intros Hm Hi. induction ls as [|l ls IH]; intros i out H; [inversion H; reflexivity|].
  cbn [format_list] in H. bkm H. destruct x as [|w0 ws]; [discriminate|]. bkm H. inversion H; subst. clear H.
  cbn [number flat_map]. rewrite <- (IH _ _ Hx0). apply stable_words in Hx. rewrite words_strip in Hx.
  rewrite <- Hx. cbn [flat_map]. rewrite words_app_r by auto. rewrite flat_map_app.
  rewrite <- !app_assoc. apply f_equal. apply f_equal. apply (f_equal (fun z => z ++ flat_map words x)).
  clear -Hi. induction ws as [|w ws IHw]; [reflexivity|]. cbn [map flat_map].
  rewrite words_blanks_app by exact Hi. now rewrite IHw.
Qed.
Lemma spaces_blank n : forallb is_uspace (spaces n) = true.
Proof. unfold spaces. induction (Z.to_nat n); simpl; auto. Qed.
Lemma ends_blank_sp s : ends_blank (s ++ [cSP]) = true.
Proof. unfold ends_blank. rewrite rev_app_distr. reflexivity. Qed.

Definition enum_mark (c : mcfg) (n i : nat) : str := pad_dec (enum_digits n) (S i) ++ mk_enum c ++ [cSP].
(** what an item shows *)
Definition shown (c : mcfg) (it : citem) (out : list str) : Prop :=
  match i_kind it with
  | CPara | CNote => flat_map words out = flat_map words (i_lines it)
  | CRuler => flat_map words out = flat_map words (i_lines it)
              \/ (is_hashruler it = true /\ Forall (Forall (eq cHASH)) out)
  | CBullet => flat_map words out = entry_words (fun _ => mk_bullet c ++ [cSP]) (i_lines it)
  | CEnum => flat_map words out = entry_words (enum_mark c (List.length (i_lines it))) (i_lines it)
  | CVerb => out = map rstrip (i_lines it)
  | CFence => out = [$"~~~"]
  | CSep => out = [nil]
  end.
Lemma format_item_shown c width it out : format_item c width it = Ok out -> shown c it out.
Proof.
  unfold format_item, shown. destruct it as [k ind ls]. cbn [i_kind i_lines].
  assert (Hp : stable_wrap width (strip (join [cNL] ls)) = Ok out -> flat_map words out = flat_map words ls).
  { intros E. apply stable_words in E. now rewrite words_strip, words_join in E. }
  destruct k; intros H.
  - destruct (is_hashruler _ && _) eqn:E; [apply andb_prop in E as [E _]; discriminate|auto].
  - destruct (width >? 2); [|discriminate]. eapply format_list_words; eauto.
    + intros _. apply ends_blank_sp.
    + apply spaces_blank.
  - destruct (width >? 2); [|discriminate]. eapply format_list_words; eauto.
    + intros i. unfold enum_mark. rewrite app_assoc. apply ends_blank_sp.
    + apply spaces_blank.
  - destruct (is_hashruler _ && _) eqn:E; [apply andb_prop in E as [E _]; discriminate|auto].
  - destruct (is_hashruler _ && _) eqn:E; [|now left; auto].
    right. apply andb_prop in E as [E _]. split; [exact E|]. inversion H; subst. repeat constructor.
    rewrite Forall_forall. intros x Hx. now apply repeat_spec in Hx.
  - now inversion H.
  - now inversion H.
  - now inversion H.
Qed.
Lemma words_indent n out : flat_map words (map (app (spaces n)) out) = flat_map words out.
Proof.
  induction out as [|l out IH]; [reflexivity|]. cbn [map flat_map]. rewrite IH. f_equal.
  apply words_blanks_app, spaces_blank.
Qed.
(** every item is shown, in order, lists indented *)
Theorem C41_items_shown c width its : forall h out, format_items c width h its = Ok out ->
  exists outs, Forall2 (shown c) its outs
    /\ exists ns, Forall2 (fun it n => is_list_k (i_kind it) = true \/ n = 0) its ns
       /\ out = flat_map (fun '(n, o) => map (app (spaces n)) o) (combine ns outs).
Proof.
  induction its as [|it its IH]; intros h out H.
  - inversion H. exists nil. split; [constructor|]. exists nil. split; constructor.
  - cbn [format_items] in H. destruct (is_list_k (i_kind it)) eqn:Ek.
    + cbn zeta in H. bkm H. bkm H. inversion H; subst. clear H.
      apply IH in Hx0 as (outs & A & ns & B & C). apply format_item_shown in Hx.
      exists (x :: outs). split; [now constructor|]. eexists (_ :: ns). split; [constructor; [now left|exact B]|].
      cbn [combine flat_map]. rewrite <- C. reflexivity.
    + bkm H. bkm H. inversion H; subst. clear H.
      apply IH in Hx0 as (outs & A & ns & B & C). apply format_item_shown in Hx.
      exists (x :: outs). split; [now constructor|]. exists (0 :: ns). split; [constructor; [now right|exact B]|].
      cbn [combine flat_map]. rewrite <- C. f_equal. change (spaces 0) with (@nil chr).
      rewrite <- (map_id x) at 1. apply map_ext. reflexivity.
Qed.

(** *** Reading the items *)
(** What a line may contribute: all its words; the words behind a bullet; the
    words behind a number and one more character; for a fence, the fence and what
    the rest of the line contributes. *)
Inductive keeps0 (line : str) : list str -> Prop :=
| kp_text : keeps0 line (words line)
| kp_bullet ind p g : line = ind ++ p :: g -> forallb is_uspace ind = true -> is_bullet_c p = true ->
    starts_blank g = true -> keeps0 line (words g)
| kp_enum ind ds p g : line = ind ++ ds ++ p :: g -> forallb is_uspace ind = true -> ds <> nil ->
    forallb is_digit_c ds = true -> starts_blank g = true -> keeps0 line (words g).
Inductive keeps (c : mcfg) (line : str) : list str -> Prop :=
| kp_line ws : keeps0 line ws -> keeps c line ws
| kp_fence f x ws : mk_fence c line = Some (f, x) -> keeps0 (strip x) ws -> keeps c line (words f ++ ws).

Definition iw (it : citem) : list str := flat_map words (i_lines it).
Definition tw (o : list citem) : list str := flat_map iw (rev o).
Lemma tw_push k i ls o : tw (push k i ls o) = tw o ++ flat_map words ls.
Proof. unfold tw, push. cbn [rev]. rewrite flat_map_app. cbn. now rewrite app_nil_r. Qed.
Lemma tw_add o l : o <> nil -> tw (add_line o l) = tw o ++ words l.
Proof.
  destruct o as [|[k i ls] o]; [congruence|]. intros _. unfold tw. cbn [add_line rev]. rewrite !flat_map_app.
  cbn [flat_map iw i_lines]. unfold iw. cbn [i_lines]. rewrite flat_map_app. cbn. rewrite !app_nil_r. now rewrite app_assoc.
Qed.
Lemma removelast_app_last {A} (l : list A) d : l <> nil -> l = removelast l ++ [last l d].
Proof. apply app_removelast_last. Qed.
Lemma tw_extend o l : match o with it :: _ => i_lines it <> nil | nil => False end ->
  tw (extend_last o l) = tw o ++ words l.
Proof.
  destruct o as [|[k i ls] o]; [intros []|]. cbn [i_lines]. intros H. unfold tw. cbn [extend_last rev]. rewrite !flat_map_app.
  cbn [flat_map]. unfold iw. cbn [i_lines]. rewrite !app_nil_r, <- app_assoc. f_equal.
  rewrite flat_map_app. cbn. rewrite app_nil_r. rewrite words_app_blank by reflexivity.
  rewrite (removelast_app_last ls nil H) at 3. rewrite flat_map_app. cbn. now rewrite app_nil_r, app_assoc.
Qed.

Lemma span_app p s : fst (span p s) ++ snd (span p s) = s /\ forallb p (fst (span p s)) = true.
Proof.
  induction s as [|c s IH]; cbn [span]; [split; reflexivity|]. destruct (p c) eqn:E; [|split; reflexivity].
  destruct (span p s). cbn in *. rewrite E. destruct IH as [-> ->]. split; reflexivity.
Qed.
Lemma span_eq p s a b : span p s = (a, b) -> s = a ++ b /\ forallb p a = true.
Proof. intros H. pose proof (span_app p s) as K. rewrite H in K. cbn in K. intuition congruence. Qed.
Lemma strip_prefix_eq a : forall s r, strip_prefix a s = Some r -> s = a ++ r.
Proof.
  induction a as [|x a IH]; intros s r H; cbn in H; [now inversion H|].
  destruct s as [|y s]; [discriminate|]. destruct (N.eqb x y) eqn:E; [|discriminate].
  apply N.eqb_eq in E. subst. cbn. f_equal. auto.
Qed.

Lemma bullet_match_eq l ind p g : bullet_match l = Some (ind, p, g) ->
  l = ind ++ p :: g /\ forallb is_uspace ind = true /\ is_bullet_c p = true /\ starts_blank g = true.
Proof.
  unfold bullet_match. destruct (span is_uspace l) as [a r] eqn:E. apply span_eq in E as [-> E].
  destruct r as [|x [|b [|y r]]]; try discriminate. destruct (is_bullet_c x && N.eqb b cSP) eqn:Eb; [|discriminate].
  apply andb_prop in Eb as [E1 E2]. apply N.eqb_eq in E2. subst b. intros H. inversion H; subst. auto.
Qed.
Lemma enum_match_eq l ind p g : enum_match l = Some (ind, p, g) ->
  exists ds, l = ind ++ ds ++ p :: g /\ forallb is_uspace ind = true /\ ds <> nil
  /\ forallb is_digit_c ds = true /\ starts_blank g = true.
Proof.
  unfold enum_match. destruct (span is_uspace l) as [a r] eqn:E. apply span_eq in E as [-> E].
  destruct (span is_digit_c r) as [ds r1] eqn:E1. apply span_eq in E1 as [-> E1].
  destruct ds as [|d ds]; [discriminate|]. destruct r1 as [|x [|b [|y r]]]; try discriminate.
  destruct (_ && _) eqn:Eb; [|discriminate]. apply andb_prop in Eb as [_ E2]. apply N.eqb_eq in E2. subst b.
  intros H. inversion H; subst. exists (d :: ds). repeat split; auto. discriminate.
Qed.
Lemma next_bullet_eq ind p l g : forallb is_uspace ind = true -> is_bullet_c p = true ->
  next_bullet ind p l = Some g -> keeps0 l (words g).
Proof.
  intros Hi Hp H. unfold next_bullet in H. destruct (strip_prefix ind l) as [[|x [|b r]]|] eqn:E; try discriminate.
  apply strip_prefix_eq in E. destruct (N.eqb x p && N.eqb b cSP) eqn:Eb; [|discriminate].
  apply andb_prop in Eb as [E1 E2]. apply N.eqb_eq in E1, E2. subst x b. inversion H; subst.
  eapply kp_bullet; eauto.
Qed.
Lemma next_enum_eq ind p l g : forallb is_uspace ind = true ->
  next_enum ind p l = Some g -> keeps0 l (words g).
Proof.
  intros Hi H. unfold next_enum in H. destruct (strip_prefix ind l) as [r0|] eqn:E; [|discriminate].
  apply strip_prefix_eq in E. subst l. destruct (span is_digit_c r0) as [ds r] eqn:E1.
  apply span_eq in E1 as [-> E1]. destruct ds as [|d ds]; [discriminate|].
  assert (Hfull : forall x b r', r = x :: b :: r' -> N.eqb b cSP = true -> keeps0 (ind ++ (d :: ds) ++ r) (words (b :: r'))).
  { intros x b r' -> Eb. apply N.eqb_eq in Eb. subst b. eapply (kp_enum _ ind (d :: ds)); eauto. discriminate. }
  assert (Hrest : forall b r', r = b :: r' -> ds <> nil -> N.eqb b cSP = true -> keeps0 (ind ++ (d :: ds) ++ r) (words (b :: r'))).
  { intros b r' -> Hd Eb. apply N.eqb_eq in Eb. subst b. destruct (last_cons ds Hd) as (a & x & ->).
    eapply (kp_enum _ ind (d :: a) x); eauto.
    - cbn. now rewrite <- !app_assoc.
    - discriminate.
    - cbn [forallb] in *. rewrite forallb_app in E1. apply andb_prop in E1 as [-> E1]. apply andb_prop in E1 as [-> _]. reflexivity. }
  assert (Hr : match ds, r with
               | _ :: _, b :: r' => if N.eqb p 46 && N.eqb b cSP then Some (b :: r') else None
               | _, _ => None
               end = Some g -> keeps0 (ind ++ (d :: ds) ++ r) (words g)).
  { intros K. destruct ds as [|d' ds]; [discriminate|]. destruct r as [|b r']; [discriminate|].
    destruct (_ && _) eqn:Eb; [|discriminate]. apply andb_prop in Eb as [_ Eb]. inversion K; subst.
    eapply Hrest; eauto. discriminate. }
  destruct r as [|x [|b r']]; [exact (Hr H)|exact (Hr H)|].
  destruct ((N.eqb p 46 || N.eqb x p) && N.eqb b cSP) eqn:Eb; [|exact (Hr H)].
  inversion H; subst. apply andb_prop in Eb as [_ Eb]. eapply Hfull; eauto.
Qed.

(** the state of the reader *)
Definition next_ok (f : str -> option str) : Prop := forall l g, f l = Some g -> keeps0 l (words g).
Definition ps_inv (s : pst) : Prop :=
  match ps_state s with
  | Some CVerb | Some CPara | Some CNote => ps_objs s <> nil
  | Some CBullet | Some CEnum =>
      match ps_objs s with it :: _ => i_lines it <> nil | nil => False end /\ next_ok (ps_next s)
  | Some CFence => False
  | _ => True
  end.
Lemma add_line_nonempty o l : o <> nil -> add_line o l <> nil /\
  match add_line o l with it :: _ => i_lines it <> nil | nil => False end.
Proof. destruct o as [|[k i ls] o]; [congruence|]. intros _. split; [discriminate|]. cbn. destruct ls; discriminate. Qed.
Lemma parse_text_keeps c s line : ps_inv s ->
  ps_inv (parse_text c s line)
  /\ exists ws, keeps0 line ws /\ tw (ps_objs (parse_text c s line)) = tw (ps_objs s) ++ ws.
Proof.
  intros Hi. destruct s as [o st nx]. unfold parse_text. cbn [ps_state ps_objs ps_next].
  assert (Htext : forall k k', k' <> CFence -> k' <> CVerb -> is_list_k k' = false ->
     ps_inv (PSt (push k 0 [strip line] o) (Some k') nx)
     /\ exists ws, keeps0 line ws /\ tw (push k 0 [strip line] o) = tw o ++ ws).
  { intros k k' Hk1 Hk2 Hk3. split.
    - unfold ps_inv. cbn. destruct k'; try exact I; try congruence; try discriminate.
    - exists (words line). split; [constructor|]. rewrite tw_push. cbn. now rewrite app_nil_r, words_strip. }
  assert (Hstart : forall nx', nx' = nx -> line <> nil ->
    let r := match bullet_match line with
              | Some (ind, p, g) =>
                  PSt (push CBullet (zlen ind) [g] o) (Some CBullet) (next_bullet ind p)
              | None =>
                  match enum_match line with
                  | Some (ind, p, g) =>
                      PSt (push CEnum (zlen ind) [strip g] o) (Some CEnum) (next_enum ind p)
                  | None =>
                      if note_match line
                      then PSt (push CNote 0 [strip line] o) (Some CNote) nx'
                      else PSt (push CPara 0 [strip line] o) (Some CPara) nx'
                  end
              end in ps_inv r /\ exists ws, keeps0 line ws /\ tw (ps_objs r) = tw o ++ ws).
  { intros nx' -> Hl. cbn zeta. destruct (bullet_match line) as [[[ind p] g]|] eqn:Eb.
    - apply bullet_match_eq in Eb as (E1 & E2 & E3 & E4). split.
      + cbn. split; [discriminate|]. intros l g' E. eapply next_bullet_eq; eauto.
      + exists (words g). split; [eapply kp_bullet; eauto|]. cbn [ps_objs]. rewrite tw_push. cbn. now rewrite app_nil_r.
    - destruct (enum_match line) as [[[ind p] g]|] eqn:Ee.
      + apply enum_match_eq in Ee as (ds & E1 & E2 & E3 & E4 & E5). split.
        * cbn. split; [discriminate|]. intros l g' E. eapply next_enum_eq; eauto.
        * exists (words g). split; [eapply kp_enum; eauto|]. cbn [ps_objs]. rewrite tw_push. cbn. now rewrite app_nil_r, words_strip.
      + destruct (note_match line); apply Htext; discriminate || reflexivity. }
  assert (Hpara : o <> nil -> forall st', st' = Some CPara \/ st' = Some CNote ->
    let r := if note_match line then PSt (push CNote 0 [strip line] o) (Some CNote) nx
             else if mk_ruler0 c line then PSt (push CRuler 0 [strip line] o) (Some CRuler) nx
             else PSt (add_line o (strip line)) st' nx in
    ps_inv r /\ exists ws, keeps0 line ws /\ tw (ps_objs r) = tw o ++ ws).
  { intros Ho st' Hst. cbn zeta. destruct (note_match line); [apply Htext; discriminate || reflexivity|].
    destruct (mk_ruler0 c line); [apply Htext; discriminate || reflexivity|]. split.
    - destruct Hst as [-> | ->]; cbn; apply add_line_nonempty; assumption.
    - exists (words line). split; [constructor|]. cbn [ps_objs]. now rewrite tw_add, words_strip. }
  assert (Hlist : match o with it :: _ => i_lines it <> nil | nil => False end /\ next_ok nx ->
    forall st', st' = Some CBullet \/ st' = Some CEnum ->
    let r := match nx line with
             | Some g => PSt (add_line o (strip g)) st' nx
             | None => PSt (extend_last o (strip line)) st' nx
             end in
    ps_inv r /\ exists ws, keeps0 line ws /\ tw (ps_objs r) = tw o ++ ws).
  { intros [Ho Hn] st' Hst. cbn zeta. destruct (nx line) as [g|] eqn:Eg.
    - assert (Hne : o <> nil) by (destruct o; [destruct Ho|discriminate]). split.
      + destruct Hst as [-> | ->]; cbn; (split; [apply add_line_nonempty; assumption|assumption]).
      + exists (words g). split; [auto|]. cbn [ps_objs]. now rewrite tw_add, words_strip.
    - split.
      + destruct o as [|[k i ls] o]; [destruct Ho|].
        destruct Hst as [-> | ->]; cbn; (split; [destruct (removelast ls); discriminate|assumption]).
      + exists (words line). split; [constructor|]. cbn [ps_objs]. now rewrite tw_extend, words_strip. }
  assert (Hblank : line = nil -> forall st', ps_inv (PSt (push CSep 0 nil o) (Some CSep) st')
     /\ exists ws, keeps0 line ws /\ tw (push CSep 0 nil o) = tw o ++ ws).
  { intros -> st'. split; [exact I|]. exists nil. split; [constructor|]. rewrite tw_push. reflexivity. }
  unfold ps_inv in Hi. cbn [ps_state ps_objs ps_next] in Hi.
  destruct st as [[| | | | | | |]|]; try (destruct Hi; fail);
    try (destruct line as [|x line']; [apply (Hblank eq_refl)|];
         destruct (mk_ruler c (x :: line')); [apply Htext; discriminate || reflexivity|]).
  - apply Hpara; auto.
  - apply Hlist; auto.
  - apply Hlist; auto.
  - apply Hpara; auto.
  - apply Hstart; [reflexivity|discriminate].
  - destruct line as [|x line'].
    + split; [exact I|]. exists nil. split; [constructor|]. cbn [ps_objs]. now rewrite app_nil_r.
    + destruct (mk_ruler c (x :: line')); [apply Htext; discriminate || reflexivity|].
      apply Hstart; [reflexivity|discriminate].
  - split; [cbn; apply add_line_nonempty; assumption|]. exists (words line). split; [constructor|].
    cbn [ps_objs]. rewrite tw_add by assumption. f_equal. destruct line as [|x r]; [reflexivity|].
    destruct (N.eqb x cSP) eqn:E; [|reflexivity]. apply N.eqb_eq in E. subst. symmetry. now apply words_cons_blank.
  - apply Hstart; [reflexivity|discriminate].
Qed.
Lemma parse_line_keeps c s line : ps_inv s ->
  ps_inv (parse_line c s line)
  /\ exists ws, keeps c line ws /\ tw (ps_objs (parse_line c s line)) = tw (ps_objs s) ++ ws.
Proof.
  intros Hi. unfold parse_line. destruct (mk_fence c line) as [[f x]|] eqn:Ef.
  - cbn zeta. set (s' := match ps_state s with Some CVerb => _ | _ => _ end).
    assert (Hs : ps_inv s' /\ tw (ps_objs s') = tw (ps_objs s) ++ words f).
    { assert (K : tw (push CFence 0 [strip f] (ps_objs s)) = tw (ps_objs s) ++ words f)
        by (rewrite tw_push; cbn; now rewrite app_nil_r, words_strip).
      unfold s'. destruct (ps_state s) as [[| | | | | | |]|]; cbn [ps_objs];
        (split; [cbn; first [exact I|discriminate]|]); rewrite ?tw_push with (k := CVerb), ?K; cbn; rewrite ?app_nil_r; auto. }
    destruct Hs as [H1 H2]. destruct (strip x) as [|y r] eqn:Ex.
    + split; [exact H1|]. exists (words f ++ nil). split; [|now rewrite app_nil_r].
      eapply kp_fence; eauto. rewrite Ex. apply (kp_text nil).
    + destruct (parse_text_keeps c s' (y :: r) H1) as [A (ws & B & C)]. split; [exact A|].
      exists (words f ++ ws). split; [eapply kp_fence; eauto; now rewrite Ex|]. rewrite C, H2. now rewrite app_assoc.
  - destruct (parse_text_keeps c s line Hi) as [A (ws & B & C)]. split; [exact A|].
    exists ws. split; [now constructor|exact C].
Qed.
(** Every line is accounted for, in order: only bullets and item numbers are left
    out. *)
Theorem C41_lines_kept c lines : exists wss, Forall2 (keeps c) lines wss
  /\ flat_map iw (parse_markup c lines) = List.concat wss.
Proof.
  unfold parse_markup.
  assert (H : forall s, ps_inv s -> exists wss, Forall2 (keeps c) lines wss
     /\ tw (ps_objs (fold_left (parse_line c) lines s)) = tw (ps_objs s) ++ List.concat wss).
  { induction lines as [|l lines IH]; intros s Hs.
    - exists nil. split; [constructor|]. cbn. now rewrite app_nil_r.
    - cbn [fold_left]. destruct (parse_line_keeps c s l Hs) as [A (ws & B & C)].
      destruct (IH _ A) as (wss & D & E). exists (ws :: wss). split; [now constructor|].
      rewrite E, C. cbn. now rewrite app_assoc. }
  destruct (H (PSt nil None (fun _ => None)) I) as (wss & A & B). exists wss. split; [exact A|]. exact B.
Qed.

(** *** The whole comment *)
(** a comment without fences, lists and hash rulers keeps exactly its words *)
Definition plain_line (c : mcfg) (l : str) : Prop :=
  mk_fence c l = None /\ bullet_match l = None /\ enum_match l = None
  /\ (mk_canonical c = false \/ words l = nil \/ exists w, In w (words l) /\ forallb (N.eqb cHASH) w = false).
Definition simple_item (c : mcfg) (it : citem) : Prop :=
  (i_kind it = CSep /\ i_lines it = nil) \/ i_kind it = CPara \/ i_kind it = CNote
  \/ (i_kind it = CRuler /\ (is_hashruler it && mk_canonical c) = false).
Lemma wd_all p s : forallb p s = true -> forall cur w, forallb p cur = true -> In w (wd cur s) -> forallb p w = true.
Proof.
  induction s as [|x s IH]; intros Hs cur w Hc Hw; cbn [wd] in Hw.
  - destruct cur; [destruct Hw|]. destruct Hw as [<-|[]]. exact Hc.
  - cbn in Hs. apply andb_prop in Hs as [H1 H2]. destruct (is_uspace x).
    + apply in_app_iff in Hw as [Hw|Hw].
      * destruct cur; [destruct Hw|]. destruct Hw as [<-|[]]. exact Hc.
      * exact (IH H2 nil w eq_refl Hw).
    + refine (IH H2 _ w _ Hw). rewrite forallb_app, Hc. cbn. now rewrite H1.
Qed.
Lemma plain_ruler c l : plain_line c l -> l <> nil ->
  words l <> nil -> (is_hashruler (CItem CRuler 0 [strip l]) && mk_canonical c) = false.
Proof.
  intros (_ & _ & _ & H) _ Hw. unfold is_hashruler; cbn [i_kind i_lines]. destruct H as [-> |[H|(w & Hin & Hf)]]; [apply andb_false_r|congruence|].
  destruct (forallb (N.eqb cHASH) (strip l)) eqn:E; [|reflexivity]. exfalso.
  rewrite <- words_strip in Hin. pose proof (wd_all _ _ E nil w eq_refl Hin) as K. change (forallb (N.eqb cHASH) w = true) in K.
  rewrite Hf in K. discriminate.
Qed.
Definition plain_inv (c : mcfg) (s : pst) : Prop :=
  Forall (simple_item c) (ps_objs s)
  /\ match ps_state s with
     | None | Some CSep | Some CRuler => True
     | Some CPara => match ps_objs s with it :: _ => i_kind it = CPara | nil => False end
     | Some CNote => match ps_objs s with it :: _ => i_kind it = CNote | nil => False end
     | _ => False
     end.
Lemma parse_line_plain c s l : plain_inv c s -> plain_line c l -> (l = nil \/ words l <> nil) ->
  plain_inv c (parse_line c s l) /\ tw (ps_objs (parse_line c s l)) = tw (ps_objs s) ++ words l.
Proof.
  intros [H1 H2] Hl Hb. pose proof Hl as (Hf & Hbu & He & _). unfold parse_line. rewrite Hf.
  destruct s as [o st nx]. unfold parse_text. cbn [ps_state ps_objs ps_next] in *.
  assert (Hp : forall k st' nx', simple_item c (CItem k 0 [strip l]) ->
     match st' with Some CPara => k = CPara | Some CNote => k = CNote | Some CRuler => True | _ => False end ->
     plain_inv c (PSt (push k 0 [strip l] o) st' nx') /\ tw (push k 0 [strip l] o) = tw o ++ words l).
  { intros k st' nx' Hs Hk. split.
    - split; [constructor; assumption|]. cbn. destruct st' as [[| | | | | | |]|]; auto.
    - rewrite tw_push. cbn. now rewrite app_nil_r, words_strip. }
  assert (Hadd : forall k, k = CPara \/ k = CNote -> match o with it :: _ => i_kind it = k | nil => False end ->
     plain_inv c (PSt (add_line o (strip l)) (Some k) nx) /\ tw (add_line o (strip l)) = tw o ++ words l).
  { intros k Hk Ho. split.
    - destruct o as [|[k0 i ls] o]; [destruct Ho|]. cbn in Ho. subst k0. inversion H1; subst. split.
      + cbn. constructor; [|assumption]. destruct Hk as [-> | ->]; unfold simple_item; cbn; tauto.
      + cbn. destruct Hk as [-> | ->]; reflexivity.
    - rewrite tw_add, words_strip; [reflexivity|]. destruct o; [destruct Ho|discriminate]. }
  assert (Hrul : l <> nil -> simple_item c (CItem CRuler 0 [strip l])).
  { intros Hn. right. right. right. split; [reflexivity|]. apply plain_ruler; auto. destruct Hb; [congruence|assumption]. }
  assert (Hpar : simple_item c (CItem CPara 0 [strip l])) by (right; left; reflexivity).
  assert (Hnot : simple_item c (CItem CNote 0 [strip l])) by (right; right; left; reflexivity).
  assert (Hsep : l = nil -> plain_inv c (PSt (push CSep 0 nil o) (Some CSep) nx) /\ tw (push CSep 0 nil o) = tw o ++ words l).
  { intros ->. split; [split; [constructor; [left; split; reflexivity|assumption]|exact I]|]. rewrite tw_push. reflexivity. }
  destruct st as [[| | | | | | |]|]; try (destruct H2; fail);
    (destruct l as [|x l']; [first [apply (Hsep eq_refl) | (split; [split; assumption|]; cbn [ps_objs]; now rewrite app_nil_r)]|]);
    (destruct (mk_ruler c (x :: l')); [cbn [ps_objs]; apply Hp; [apply Hrul; discriminate|exact I]|]);
    try rewrite Hbu, He; (destruct (note_match (x :: l')); [cbn [ps_objs]; apply Hp; [exact Hnot|reflexivity]|]);
    try (destruct (mk_ruler0 c (x :: l')); [cbn [ps_objs]; apply Hp; [apply Hrul; discriminate|exact I]|]);
    cbn [ps_objs]; try (apply Hp; [exact Hpar|reflexivity]); apply Hadd; auto.
Qed.
Lemma parse_plain c lines : Forall (plain_line c) lines -> Forall (fun l => l = nil \/ words l <> nil) lines ->
  Forall (simple_item c) (parse_markup c lines) /\ flat_map iw (parse_markup c lines) = flat_map words lines.
Proof.
  intros Hp Hb. unfold parse_markup.
  assert (H : forall s, plain_inv c s -> plain_inv c (fold_left (parse_line c) lines s)
     /\ tw (ps_objs (fold_left (parse_line c) lines s)) = tw (ps_objs s) ++ flat_map words lines).
  { clear -Hp Hb. revert Hb. induction Hp as [|l lines Hl _ IH]; intros Hb s Hs.
    - split; [exact Hs|]. cbn. now rewrite app_nil_r.
    - inversion Hb; subst. destruct (parse_line_plain c s l Hs Hl H1) as [A B]. cbn [fold_left].
      destruct (IH H2 _ A) as [C D]. split; [exact C|]. rewrite D, B. cbn. now rewrite app_assoc. }
  destruct (H (PSt nil None (fun _ => None))) as [[A _] B]; [split; [constructor|exact I]|].
  split; [|exact B]. now apply Forall_rev.
Qed.
Lemma format_items_plain c width its : Forall (simple_item c) its -> forall h out,
  format_items c width h its = Ok out -> flat_map words out = flat_map iw its.
Proof.
  induction 1 as [|it its Hs _ IH]; intros h out H; [inversion H; reflexivity|].
  cbn [format_items] in H.
  assert (Hk : is_list_k (i_kind it) = false).
  { destruct Hs as [[-> _]|[-> |[-> |[-> _]]]]; reflexivity. }
  rewrite Hk in H. bkm H. bkm H. inversion H; subst. rewrite flat_map_app. cbn [flat_map].
  rewrite (IH _ _ Hx0). f_equal. unfold format_item, iw in *.
  destruct it as [k i ls]. cbn [i_kind i_lines] in *. unfold simple_item in Hs. cbn [i_kind i_lines] in Hs.
  destruct Hs as [[Ek El]|[Ek|[Ek|[Ek Hr]]]]; subst k; cbn [is_hashruler i_kind andb] in Hx.
  - subst ls. inversion Hx. reflexivity.
  - apply stable_words in Hx. now rewrite words_strip, words_join in Hx.
  - apply stable_words in Hx. now rewrite words_strip, words_join in Hx.
  - unfold is_hashruler in Hr, Hx. cbn [i_kind i_lines] in Hr, Hx. rewrite Hr in Hx.
    apply stable_words in Hx. now rewrite words_strip, words_join in Hx.
Qed.

Lemma words_out prefix ls : flat_map (fun l => words (skipn (List.length prefix) l))
   (map (fun l => prefix ++ spaces (zlen (firstn 1 l)) ++ l) ls) = flat_map words ls.
Proof.
  induction ls as [|l ls IH]; [reflexivity|]. cbn [map flat_map]. rewrite IH. f_equal.
  rewrite skipn_app, skipn_all, Nat.sub_diag. cbn. apply words_blanks_app, spaces_blank.
Qed.
(** the words behind the comment mark *)
Theorem C41_plain_comment c first explicit pcs width ils out :
  comment_inlines c explicit pcs = Ok ils ->
  Forall (plain_line c) ils -> Forall (fun l => l = nil \/ words l <> nil) ils ->
  format_comment c first explicit pcs width = Ok out ->
  let n := if explicit then List.length (mk_trailing c) else 1%nat in
  flat_map (fun l => words (skipn n l)) out = flat_map words ils.
Proof.
  intros Hi Hp Hb H. unfold format_comment in H. rewrite Hi in H. cbn [bindr] in H. cbn zeta.
  set (prefix := if explicit then mk_trailing c else [cHASH]) in *.
  assert (Hn : (if explicit then List.length (mk_trailing c) else 1%nat) = List.length prefix)
    by (unfold prefix; destruct explicit; reflexivity).
  rewrite Hn.
  assert (Hlit : flat_map (fun l => words (skipn (List.length prefix) l)) (map (fun l => prefix ++ rstrip l) ils) = flat_map words ils).
  { clear. induction ils as [|l ls IH]; [reflexivity|]. cbn [map flat_map]. rewrite IH. f_equal.
    rewrite skipn_app, skipn_all, Nat.sub_diag. cbn. apply words_rstrip. }
  destruct (negb (mk_enable c)); [inversion H; subst; exact Hlit|].
  destruct (match mk_literal c with Some f => _ | None => _ end); [inversion H; subst; exact Hlit|].
  destruct (match pcs with T t :: _ => _ | _ => false end); [inversion H; subst; exact Hlit|].
  bkm H. inversion H; subst. rewrite words_out. destruct (parse_plain c ils Hp Hb) as [A B].
  rewrite <- B. eapply format_items_plain; eauto.
Qed.
Definition cm (s : str) : pnode := T (Tok COMMENT s (Loc 1 0 0)).
Example C41_plain_ex :
  let pcs := [cm $"# Some   text that is"; cm $"# folded"] in
  comment_inlines default_mcfg false pcs = Ok [$" Some   text that is"; $" folded"]
  /\ Forall (plain_line default_mcfg) [$" Some   text that is"; $" folded"]
  /\ format_comment default_mcfg None false pcs 14 = Ok [$"# Some   text"; $"# that is"; $"# folded"].
Proof.
  cbn zeta. split; [reflexivity|]. split; [|vm_compute; reflexivity].
  assert (H : forall l w, mk_fence default_mcfg l = None -> bullet_match l = None -> enum_match l = None ->
     In w (words l) -> forallb (N.eqb cHASH) w = false -> plain_line default_mcfg l).
  { intros l w A B C D E. repeat split; auto. right. right. exists w. auto. }
  constructor; [|constructor; [|constructor]].
  - apply (H _ $"text"); vm_compute; auto.
  - apply (H _ $"folded"); vm_compute; auto.
Qed.
(** lists: the marks are renewed, the words kept *)
Example C41_list_ex :
  let ils := [$" 3. one"; $" 4. two words"] in
  Forall2 (keeps default_mcfg) ils [[$"one"]; [$"two"; $"words"]]
  /\ flat_map iw (parse_markup default_mcfg ils) = [$"one"; $"two"; $"words"].
Proof.
  cbn zeta. split; [|vm_compute; reflexivity]. constructor; [|constructor; [|constructor]]; constructor.
  - apply (kp_enum $" 3. one" $" " $"3" 46%N $" one"); try reflexivity. discriminate.
  - apply (kp_enum $" 4. two words" $" " $"4" 46%N $" two words"); try reflexivity. discriminate.
Qed.

(** The pattern of a further item lets the period match any character: a number in
    the running text is taken for the next item and lost. *)
Theorem C41_refuted : ~ (forall first pcs width ils out,
  comment_inlines default_mcfg false pcs = Ok ils ->
  format_comment default_mcfg first false pcs width = Ok out ->
  forall w, In w (flat_map words ils) -> In w (flat_map words out)).
Proof.
  intros H.
  specialize (H None [cm $"# 1. there are"; cm $"# 200 apples"] 80 [$" 1. there are"; $" 200 apples"]
                [$"# 1. there are"; $"# 2. apples"] eq_refl ltac:(vm_compute; reflexivity) $"200"
                ltac:(vm_compute; tauto)).
  vm_compute in H. repeat (destruct H as [H|H]; [discriminate|]). exact H.
Qed.

(** ** C43: width *)
(** the largest width of a list mark *)
Definition fits_width (w : Z) (l : str) : Prop := zlen l <= w \/ one_word l.
Definition body_fits (w : Z) (pre l : str) : Prop :=
  exists t, l = pre ++ t /\ (zlen t <= w \/ one_word t).
Lemma format_list_width width mark indent n ls : (forall i, (i < n)%nat -> zlen (mark i) <= zlen indent) ->
  forall i out, (i + List.length ls <= n)%nat -> format_list width mark indent i ls = Ok out ->
  Forall (fun l => exists pre t, l = pre ++ t /\ zlen pre <= zlen indent /\ (zlen t <= width \/ one_word t)) out.
Proof.
  intros Hm. induction ls as [|l ls IH]; intros i out Hi H; [inversion H; constructor|].
  cbn [format_list] in H. bkm H. destruct x as [|w0 ws]; [discriminate|]. bkm H. inversion H; subst. clear H.
  apply stable_width in Hx. inversion Hx; subst. cbn [List.length] in Hi. constructor; [|apply Forall_app; split].
  - exists (mark i), w0. repeat split; auto. apply Hm. lia.
  - rewrite Forall_map. eapply Forall_impl; [|eassumption]. intros t Ht. exists indent, t. repeat split; auto. lia.
  - eapply IH; [|exact Hx0]. lia.
Qed.
(** decimal numerals below 10^d have at most d digits *)
Lemma dec_digits_len f : forall n d, (n < 10 ^ d)%nat -> (0 < d)%nat -> (List.length (dec_digits f n) <= d)%nat.
Proof.
  induction f as [|f IH]; intros n d H Hd; cbn [dec_digits]; [simpl; lia|].
  destruct (Nat.ltb n 10) eqn:E; [simpl; lia|]. apply Nat.ltb_ge in E. rewrite app_length. cbn [List.length].
  destruct d as [|[|d]]; [lia|simpl in H; lia|].
  assert (Nat.div n 10 < 10 ^ S d)%nat.
  { apply Nat.div_lt_upper_bound; [lia|]. exact H. }
  specialize (IH _ (S d) H0 ltac:(lia)). lia.
Qed.
Lemma log10_up_le f : forall n p, 1 <= p -> n <= p * 10 ^ Z.of_nat f -> n <= p * 10 ^ Z.of_nat (log10_up f n p).
Proof.
  induction f as [|f IH]; intros n p Hp H; cbn [log10_up]; [exact H|].
  destruct (n <=? p) eqn:E; [apply Z.leb_le in E; cbn; lia|].
  rewrite Nat2Z.inj_succ, Z.pow_succ_r in * by lia. specialize (IH n (p * 10) ltac:(lia)). nia.
Qed.
Lemma pow10_ge n : Z.of_nat n <= 10 ^ Z.of_nat n.
Proof.
  induction n as [|n IH]; [cbn; lia|]. rewrite Nat2Z.inj_succ, Z.pow_succ_r by lia.
  pose proof (Z.pow_pos_nonneg 10 (Z.of_nat n)). lia.
Qed.
Lemma enum_digits_le n : (n <= 10 ^ enum_digits n)%nat.
Proof.
  unfold enum_digits. pose proof (log10_up_le n (Z.of_nat n) 1 ltac:(lia)) as H.
  pose proof (pow10_ge n). specialize (H ltac:(lia)). apply Nat2Z.inj_le.
  rewrite Nat2Z.inj_pow. change (Z.of_nat 10) with 10. lia.
Qed.
Lemma pad_dec_len d n : (n <= 10 ^ d)%nat -> (List.length (pad_dec d n) <= S d)%nat.
Proof.
  intros H. unfold pad_dec, dec. rewrite app_length, repeat_length.
  pose proof (dec_digits_len (S n) n (S d)) as L.
  assert (n < 10 ^ S d)%nat. { cbn [Nat.pow]. assert (0 < 10 ^ d)%nat by (apply Nat.neq_0_lt_0, Nat.pow_nonzero; lia). lia. }
  specialize (L H0 ltac:(lia)). lia.
Qed.

(** Everything but verbatim text stays within the width, except for a word that
    does not fit by itself; the entries of a numbered list may stick out by the
    number of digits of the largest number. *)
Theorem C43_item_width_partial c width it out :
  zlen (mk_bullet c) = 1 -> zlen (mk_enum c) = 1 -> 0 <= width ->
  i_kind it <> CVerb -> (i_kind it = CFence -> 3 <= width) ->
  format_item c width it = Ok out ->
  Forall (fun l => zlen l <= width + (if is_list_k (i_kind it) then
                     match i_kind it with CEnum => Z.of_nat (enum_digits (List.length (i_lines it))) + 1 | _ => 0 end
                   else 0)
                   \/ exists pre t, l = pre ++ t /\ one_word t
                      /\ (pre = nil \/ is_list_k (i_kind it) = true)) out.
Proof.
  intros Hb He Hw Hk Hf H. unfold format_item in H. destruct it as [k ind ls]. cbn [i_kind i_lines] in *.
  assert (Hp : stable_wrap width (strip (join [cNL] ls)) = Ok out ->
     Forall (fun l => zlen l <= width + 0 \/ exists pre t, l = pre ++ t /\ one_word t /\ (pre = nil \/ false = true)) out).
  { intros E. apply stable_width in E. eapply Forall_impl; [|exact E]. cbn beta. intros l [Hl|Hl]; [left; lia|].
    right. exists nil, l. auto. }
  destruct k; cbn [is_list_k] in *.
  - cbn in H. auto.
  - destruct (width >? 2) eqn:E; [|discriminate]. apply Z.gtb_lt in E.
    eapply (format_list_width _ _ _ (List.length ls)) in H; [|intros i _; cbn; rewrite zlen_app; change (zlen [cSP]) with 1; change (zlen (spaces 2)) with 2; lia|lia].
    eapply Forall_impl; [|exact H]. cbn beta. intros l (pre & t & -> & A & [B|B]).
    + left. rewrite zlen_app. change (zlen (spaces 2)) with 2 in A. lia.
    + right. exists pre, t. auto.
  - destruct (width >? 2) eqn:E; [|discriminate]. apply Z.gtb_lt in E.
    set (d := enum_digits (List.length ls)) in *.
    assert (Hs : zlen (spaces (Z.of_nat d + 3)) = Z.of_nat d + 3).
    { unfold zlen, spaces. rewrite repeat_length. lia. }
    assert (H2 : Forall (fun l => exists pre t, l = pre ++ t /\ zlen pre <= Z.of_nat d + 3 /\ (zlen t <= width - 2 \/ one_word t)) out).
    { clear Hp.
      assert (Hm : forall i, (i < List.length ls)%nat -> zlen (pad_dec d (S i) ++ mk_enum c ++ [cSP]) <= Z.of_nat d + 3).
      { intros i Hi. rewrite !zlen_app, He. change (zlen [cSP]) with 1. unfold zlen.
        assert (Hi2 : (S i <= 10 ^ d)%nat).
        { pose proof (enum_digits_le (List.length ls)) as Hd. fold d in Hd. lia. }
        pose proof (pad_dec_len d (S i) Hi2). lia. }
      assert (Hg : forall l' i out, (i + List.length l' <= List.length ls)%nat ->
        format_list (width - 2) (fun i => pad_dec d (S i) ++ mk_enum c ++ [cSP]) (spaces (Z.of_nat d + 2)) i l' = Ok out ->
        Forall (fun l => exists pre t, l = pre ++ t /\ zlen pre <= Z.of_nat d + 3 /\ (zlen t <= width - 2 \/ one_word t)) out).
      { clear H out. induction l' as [|l l' IH]; intros i out Hi H; [inversion H; constructor|].
        cbn [format_list] in H. bkm H. destruct x as [|w0 ws]; [discriminate|]. bkm H. inversion H; subst. clear H.
        apply stable_width in Hx. inversion Hx; subst. cbn [List.length] in Hi. constructor; [|apply Forall_app; split].
        - eexists _, w0. split; [reflexivity|]. split; [apply Hm; lia|assumption].
        - rewrite Forall_map. eapply Forall_impl; [|eassumption]. intros t Ht. eexists _, t. split; [reflexivity|].
          split; [|exact Ht]. unfold zlen, spaces. rewrite repeat_length. lia.
        - eapply IH; [|exact Hx0]. lia. }
      eapply (Hg ls 0%nat); [lia|exact H]. }
    eapply Forall_impl; [|exact H2]. cbn beta. intros l (pre & t & -> & A & [B|B]).
    + left. rewrite zlen_app. lia.
    + right. exists pre, t. auto.
  - cbn in H. auto.
  - destruct (_ && _); [|auto]. inversion H; subst. constructor; [|constructor]. left.
    unfold zlen. rewrite repeat_length. lia.
  - inversion H; subst. constructor; [|constructor]. left. rewrite zlen_nil. lia.
  - inversion H; subst. constructor; [|constructor]. left. specialize (Hf eq_refl). change (zlen $"~~~") with 3. lia.
  - congruence.
Qed.
Example C43_ex : format_item default_mcfg 12 (CItem CPara 0 [$"some text to be wrapped"])
  = Ok [$"some text to"; $"be wrapped"].
Proof. vm_compute. reflexivity. Qed.
(** The number of an item is not counted in the width of its text. *)
Theorem C43_refuted : ~ (forall width it out, 10 <= width ->
  format_item default_mcfg width it = Ok out -> i_kind it <> CVerb ->
  Forall (fun l => zlen l <= width \/ ~ In cSP (lstrip l)) out).
Proof.
  intros H. specialize (H 12 (CItem CEnum 1 [$"text which"]) [$"1. text which"] ltac:(lia)
                          ltac:(vm_compute; reflexivity) ltac:(discriminate)).
  inversion H as [|? ? [A|A] _]; subst.
  - vm_compute in A. congruence.
  - apply A. vm_compute. tauto.
Qed.
