(** * StmtSame: a statement and its formatted text are laid out alike *)
From Verif Require Import Base Regex Lex LexProofs LexClass PropLex TextOps TextProofs PropText Tree Parse ParseProofs ParseTerm PropParse PropTerm
  CmdSpec StdSpecs StdDb StdWf PropStd StdShape Layout LayoutProofs Pieces Writing LayKids PropLayout Markup MarkupProofs Pipeline PropCase PropFile
  ParseShape NamesShape WordShape CommentShape TidyShape Reread CommentFree PropReread ParseBlank ParseSame BodySame LaySame LayBlock Places ParseLines.

(** ** Nodes inside a statement *)
Definition insk (k : kind) : bool :=
  match k with KBody | KFlow | KWhitespace | KStatement _ | KAtStmt => false | _ => true end.
Definition inner_b (b : box) : bool := insk (bkind b).
Lemma tail_insk cs : tail_ok cs = true -> forallb inner_b cs = true.
Proof. destruct cs as [|[k p x] [|]]; try discriminate; auto. cbn. destruct k; try discriminate; auto. Qed.
Lemma insk_kids k p cs : wfb (B k p cs) = true -> insk k = true -> forallb inner_b cs = true.
Proof.
  intros H Ha. cbn [wfb] in H. apply andb_prop in H as [_ H].
  destruct k; try discriminate; repeat match goal with
    | H : _ && _ = true |- _ => apply andb_prop in H as [? ?] end;
    try (now apply tail_insk); try (destruct cs; [reflexivity|discriminate]).
  all: try (apply forallb_forall; intros [kb pb cb] Hb; rewrite forallb_forall in H; specialize (H _ Hb);
            unfold in_arg, in_parg in H; unfold inner_b; cbn [bkind] in *; destruct kb; try discriminate; reflexivity).
  - destruct cs as [|[k1 p1 c1] [|[k2 p2 c2] [|]]]; try discriminate; destruct k1; try discriminate; auto.
    cbn in *. destruct k2; try discriminate; reflexivity.
  - destruct cs as [|[k1 p1 c1] [|[k2 p2 c2] [|[k3 p3 c3] cs]]]; try discriminate.
    repeat match goal with | H : _ && _ = true |- _ => apply andb_prop in H as [? ?] end.
    cbn [bkind] in *. destruct k1, k2, k3; try discriminate. cbn. now apply tail_insk.
Qed.
Lemma wfb_kids k p cs : wfb (B k p cs) = true -> forallb wfb cs = true.
Proof. cbn [wfb]. intros H. now apply andb_prop in H. Qed.
Lemma inner_single b : wfb b = true -> inner_b b = true -> single b = true.
Proof.
  induction b as [k p cs IH] using box_ind'. intros Hw Hi. cbn [single]. pose proof (insk_kids _ _ _ Hw Hi) as Hk. pose proof (wfb_kids _ _ _ Hw) as Hws.
  unfold inner_b in Hi. cbn [bkind] in Hi. apply andb_true_intro. split; [destruct k; auto|].
  apply forallb_forall. intros x Hx. rewrite Forall_forall in IH. rewrite forallb_forall in Hk, Hws. auto.
Qed.
(** no comments and no switches *)
Fixpoint mute (b : box) : bool :=
  match b with B k p cs => match k with KComment _ | KOnOff => false | _ => true end && forallb mute cs end.
Lemma mute_kids k p cs : mute (B k p cs) = true -> forallb mute cs = true.
Proof. cbn [mute]. intros H. now apply andb_prop in H. Qed.
Lemma tail_mute cs : tail_ok cs = true -> forallb mute cs = true -> cs = nil.
Proof. destruct cs as [|[k p x] [|]]; try discriminate; auto. cbn. destruct k; discriminate. Qed.
Lemma mute_quiet b : wfb b = true -> mute b = true -> quiet b = true.
Proof.
  induction b as [k p cs IH] using box_ind'. intros Hw Hm. pose proof (mute_kids _ _ _ Hm) as Hk. pose proof (wfb_kids _ _ _ Hw) as Hws.
  cbn [quiet]. apply andb_true_intro. split.
  - cbn [wfb] in Hw. apply andb_prop in Hw as [_ Hw]. cbn [mute] in Hm. apply andb_prop in Hm as [Hm _].
    destruct k; auto; try discriminate; repeat match goal with H : _ && _ = true |- _ => apply andb_prop in H as [? ?] end;
      try (now rewrite (tail_mute cs)); try (destruct cs; [reflexivity|discriminate]).
    + destruct cs as [|[k1 p1 c1] cs]; auto. destruct k1; try discriminate Hw. reflexivity.
    + destruct cs as [|[k1 p1 c1] cs]; auto. destruct k1; try discriminate Hw. reflexivity.
    + destruct cs as [|[k1 p1 c1] [|[k2 p2 c2] [|[k3 p3 c3] cs]]]; try discriminate.
      repeat match goal with | H : _ && _ = true |- _ => apply andb_prop in H as [? ?] end.
      cbn [bkind] in *. destruct k1, k2, k3; try discriminate. cbn [after_rparen bkind is_rparen_k forallb] in *.
      repeat match goal with | H : _ && _ = true |- _ => apply andb_prop in H as [? ?] end. now rewrite (tail_mute cs).
  - apply forallb_forall. intros x Hx. rewrite Forall_forall in IH. rewrite forallb_forall in Hk, Hws. auto.
Qed.
Lemma calm_in l t : calm l = true -> In t l -> is_comment t = false /\ is_onoff t = false.
Proof.
  unfold calm. rewrite forallb_forall. intros H Hin. specialize (H _ Hin). assert (C : calm [t] = true) by (cbn; now rewrite H).
  apply calm_flags in C. tauto.
Qed.
Lemma calm_mute strict n : tidy strict n = true -> calm (flat n) = true -> forall k cs, n = N k cs -> mute (create_box n) = true.
Proof.
  induction n as [t|k cs IH] using pnode_ind'; intros Ht Hc k0 cs0 E; [discriminate|]. clear k0 cs0 E. rewrite create_eq. cbn [mute].
  cbn [tidy] in Ht. apply andb_prop in Ht as [Hk Ht]. cbn [flat] in Hc. apply andb_true_intro. split.
  - destruct k; auto; exfalso.
    + cbn [tidy_k] in Hk. apply andb_prop in Hk as [Hk _]. apply andb_prop in Hk as [_ Hk]. unfold starts in Hk. destruct cs as [|[t|] cs]; try discriminate.
      destruct (calm_in _ t Hc) as [E _]; [cbn; now left|congruence].
    + cbn [tidy_k] in Hk. destruct cs as [|[t|] [|]]; try discriminate. destruct (calm_in _ t Hc) as [_ E]; [cbn; now left|congruence].
  - apply forallb_forall. intros b Hb. apply kids_in in Hb as (k1 & x & Hin & ->). rewrite Forall_forall in IH. apply (IH _ Hin) with (k := k1) (cs := x); auto.
    + rewrite forallb_forall in Ht. now apply Ht.
    + unfold calm in *. rewrite forallb_forall in *. intros t Hin2. apply Hc. apply in_flat_map. eauto.
Qed.

Section Form.
  Variable ctx : pctx.
  Variable c : fcfg.
  Variable strict : bool.
  (** ** Boxes of the same form *)
  Definition tokk (k : kind) : bool := is_scalar_k k || is_lparen_k k || is_rparen_k k.
  Inductive bform : box -> box -> Prop :=
  | bf k p p' cs cs' : (tokk k = true -> exists t q t' q', p = T t :: q /\ p' = T t' :: q' /\ tsim ctx t t') ->
      Forall2 bform cs cs' -> bform (B k p cs) (B k p' cs').
  Lemma blank_kid x a : blankn x -> forallb inner_b (kids (x :: a)) = true -> kids (x :: a) = kids a.
  Proof.
    intros Hx H. destruct x as [t|k cs]; [reflexivity|]. destruct k; try contradiction. cbn [kids flat_map] in *.
    destruct (node_newlines (N KWhitespace cs) <? 2); [reflexivity|]. cbn in H. discriminate H.
  Qed.
  Lemma white_kid k cs a : k <> KWhitespace -> kids (N k cs :: a) = create_box (N k cs) :: kids a.
  Proof. intros H. destruct k; try reflexivity. now destruct H. Qed.
  Lemma tidy_head k cs : tidy_k strict k cs = true -> tokk k = true -> exists t q, cs = T t :: q /\ is_ws t = false.
  Proof.
    intros H Hk. destruct cs as [|[t|k' x] q]; [destruct k; cbn in H, Hk; discriminate| |destruct k; cbn in H, Hk; discriminate].
    exists t, q. split; auto. destruct k; try discriminate; cbn [tidy_k] in H;
      try (apply andb_prop in H as [H _]; apply negb_true_iff in H; now apply orb_false_elim in H).
    - destruct q; try discriminate. unfold is_tt in H. unfold is_ws. destruct (tt t); auto; discriminate.
    - destruct q; try discriminate. unfold is_tt in H. unfold is_ws. destruct (tt t); auto; discriminate.
  Qed.
  Lemma lsim_form a b : lsim ctx a b -> forallb (tidy strict) a = true -> forallb (tidy strict) b = true ->
    forallb wfb (kids a) = true -> forallb wfb (kids b) = true -> forallb inner_b (kids a) = true -> forallb inner_b (kids b) = true ->
    Forall2 bform (kids a) (kids b).
  Proof.
    induction 1 as [|x a b Hx _ IH|y a b Hy _ IH|t u a b Htu _ IH|k cs ds a b Hcs IHcs _ IH]; intros Ta Tb Wa Wb Ia Ib.
    - constructor.
    - pose proof (blank_kid _ _ Hx Ia) as E. rewrite E in *. cbn [forallb] in Ta. apply andb_prop in Ta as [_ Ta]. auto.
    - pose proof (blank_kid _ _ Hy Ib) as E. rewrite E in *. cbn [forallb] in Tb. apply andb_prop in Tb as [_ Tb]. auto.
    - cbn [forallb] in *. apply andb_prop in Ta as [_ Ta]. apply andb_prop in Tb as [_ Tb]. apply IH; auto.
    - assert (Hk : k = KWhitespace \/ k <> KWhitespace) by (destruct k; (now left) || (now right)). cbn [forallb] in Ta, Tb.
      apply andb_prop in Ta as [Ta1 Ta]. apply andb_prop in Tb as [Tb1 Tb]. destruct Hk as [->|Hk].
      + assert (E1 : kids (N KWhitespace cs :: a) = kids a).
        { cbn [kids flat_map] in *. destruct (node_newlines (N KWhitespace cs) <? 2); [reflexivity|discriminate Ia]. }
        assert (E2 : kids (N KWhitespace ds :: b) = kids b).
        { cbn [kids flat_map] in *. destruct (node_newlines (N KWhitespace ds) <? 2); [reflexivity|discriminate Ib]. }
        rewrite E1, E2 in *. auto.
      + rewrite (white_kid _ _ _ Hk) in *. rewrite (white_kid _ _ _ Hk) in *. cbn [forallb] in *.
        apply andb_prop in Wa as [Wa1 Wa]. apply andb_prop in Wb as [Wb1 Wb]. apply andb_prop in Ia as [Ia1 Ia]. apply andb_prop in Ib as [Ib1 Ib].
        constructor; [|now apply IH]. rewrite create_eq in *. rewrite create_eq in *. cbn [tidy] in Ta1, Tb1.
        apply andb_prop in Ta1 as [Tk1 Ta1]. apply andb_prop in Tb1 as [Tk2 Tb1]. constructor.
        * intros Hp. destruct (tidy_head _ _ Tk1 Hp) as (t & q & -> & Et). destruct (tidy_head _ _ Tk2 Hp) as (t' & q' & -> & Et').
          exists t, q, t', q'. repeat split; auto; clear -Hcs Et Et'; inversion Hcs; subst; cbn in *; try congruence; match goal with H : tsim _ _ _ |- _ => apply H end.
        * apply IHcs; auto; try (now eapply wfb_kids; eauto); eapply insk_kids; eauto.
  Qed.
  (** in step: every token of the second box is spelled as the first one is written *)
  Definition writes (i : item) (t : token) : Prop := match i with IText _ s => spelling t = s | IComment _ _ => False end.
  Lemma own_len parent k p p' : (tokk k = true -> exists t q t' q', p = T t :: q /\ p' = T t' :: q' /\ tsim ctx t t') ->
    match k with KComment _ | KOnOff => false | _ => true end = true -> (if is_scalar_k k then text_fits c parent k p else true) = true ->
    List.length (own_items c parent k p) = List.length (own_toks k p').
  Proof.
    intros Hk Hm Hn. destruct (tokk k) eqn:E.
    - destruct (Hk eq_refl) as (t & q & t' & q' & -> & -> & _). destruct k; try discriminate; cbn [own_items own_toks is_scalar_k] in *;
        try reflexivity; cbn [text_fits] in Hn; destruct (scalar_text c parent _ t); try discriminate; reflexivity.
    - destruct k; try discriminate; reflexivity.
  Qed.
  Lemma form_len b : forall parent b', bform b b' -> mute b = true -> names_ok c parent b = true ->
    List.length (items c parent b) = List.length (btoks b').
  Proof.
    induction b as [k p cs IH] using box_ind'. intros parent b' F Hm Hn. inversion F as [? ? p' ? cs' Hk Hcs]; subst.
    cbn [items btoks names_ok mute] in *. apply andb_prop in Hm as [Hm1 Hm]. apply andb_prop in Hn as [Hn1 Hn]. rewrite !app_length. f_equal; [now apply own_len|].
    clear -Hcs IH Hm Hn. induction Hcs as [|x y cs cs' Hxy Hcs IHl]; [reflexivity|]. cbn [flat_map forallb] in *. inversion IH as [|? ? Hx IH']; subst.
    apply andb_prop in Hm as [Hm1 Hm]. apply andb_prop in Hn as [Hn1 Hn]. rewrite !app_length. f_equal; auto.
  Qed.
  Lemma Forall2_split {A D} (R : A -> D -> Prop) a1 : forall b1 a2 b2, List.length a1 = List.length b1 -> Forall2 R (a1 ++ a2) (b1 ++ b2) -> Forall2 R a1 b1 /\ Forall2 R a2 b2.
  Proof.
    induction a1 as [|x a1 IH]; intros [|y b1] a2 b2 E H; try discriminate; [split; [constructor|exact H]|]. cbn in *. inversion H; subst.
    destruct (IH b1 a2 b2) as [P Q]; auto.
  Qed.
  (** the options for the names of commands do not look at letter case *)
  Definition case_blind : Prop := forall s s', lower s = lower s' -> f_command_case c s = f_command_case c s' /\ f_spelling c s = f_spelling c s'.
  (** a name or keyword written with these options is spelled like the original by
      a second run with the options [c2] *)
  Variable c2 : fcfg.
  Definition overrides : Prop := forall parent k t t' s, is_scalar_k k = true -> lower (spelling t) = lower (spelling t') ->
    scalar_text c parent k t = Ok s -> spelling t' = s -> scalar_text c2 parent k t' = scalar_text c2 parent k t.
  Hypothesis Hover : overrides.
  Lemma normalize_again s : normalize (normalize s) = normalize s.
  Proof. apply C09_normalize_idempotent. Qed.
  Lemma written_same parent k t t' s : is_scalar_k k = true -> tsim ctx t t' -> text_fits c parent k [T t] = true ->
    scalar_text c parent k t = Ok s -> spelling t' = s -> tok_same c2 parent k t t'.
  Proof.
    intros Hk (_ & Hlow & _) Hf Hs E. split; [eapply Hover; eauto|split; [now symmetry|]].
    - intros pos. rewrite E. destruct (scalar_piece _ _ _ _ _ Hk Hf) as (s' & E' & G). rewrite Hs in E'. injection E' as <-. rewrite <- G.
      cbn [text_fits] in Hf. rewrite Hs in Hf. apply orb_prop in Hf as [Hf|Hf].
      + apply seqb_eq in Hf. rewrite Hf. rewrite <- (text_flow_norm pos (normalize (spelling t))). now rewrite normalize_again.
      + rewrite !andb_true_iff in Hf. destruct Hf as [[H1 _] _]. rewrite text_flow_one by (now apply one_line_noeol). now rewrite flow_text_one.
  Qed.
  Lemma form_same b : forall parent b', bform b b' -> mute b = true -> names_ok c parent b = true ->
    Forall2 writes (items c parent b) (btoks b') -> bsame c2 parent b b'.
  Proof.
    induction b as [k p cs IH] using box_ind'. intros parent b' F Hm Hn Hw. inversion F as [? ? p' ? cs' Hk Hcs]; subst.
    cbn [items btoks names_ok mute] in *. apply andb_prop in Hm as [Hm1 Hm]. apply andb_prop in Hn as [Hn1 Hn].
    apply Forall2_split in Hw as [W1 W2]; [|now apply own_len]. apply bsame_eq. split; [reflexivity|]. split.
    - unfold own_same. destruct (is_scalar_k k) eqn:Es; [|exact I]. destruct Hk as (t & q & t' & q' & -> & -> & S); [unfold tokk; now rewrite Es|].
      destruct (scalar_piece _ _ _ _ _ Es Hn1) as (s & Ht & _). apply (written_same parent k t t' s); auto.
      assert (Ei : own_items c parent k (T t :: q) = [IText (PkWord (is_funname_k k)) s]) by (destruct k; try discriminate; cbn [own_items]; now rewrite Ht).
      assert (Eo : own_toks k (T t' :: q') = [t']) by (destruct k; try discriminate; reflexivity). rewrite Ei, Eo in W1. inversion W1; subst. assumption.
    - clear -Hcs IH Hm Hn W2. induction Hcs as [|x y cs cs' Hxy Hcs IHl]; [constructor|]. cbn [flat_map forallb] in *. inversion IH as [|? ? Hx IH']; subst.
      apply andb_prop in Hm as [Hm1 Hm]. apply andb_prop in Hn as [Hn1 Hn]. apply Forall2_split in W2 as [W1 W2]; [|now apply form_len]. constructor; auto.
  Qed.
End Form.

(** ** When a second run overrides the first *)
Lemma overrides_same c : case_blind c -> overrides c c.
Proof.
  intros Hcase parent k t t' s Hk Hlow Hs E. rewrite Hs. assert (Hup : upper (spelling t') = upper (spelling t)) by (symmetry; now apply lower_to_upper).
  destruct k; try discriminate; cbn [scalar_text] in *.
  - destruct (Hcase _ _ Hlow) as [E1 E2]. rewrite <- E1, <- E2. destruct (seqb _ _); [now rewrite <- Hlow|]. destruct (seqb _ _); [now rewrite Hup|].
    destruct (seqb _ _); [exact Hs|]. destruct (seqb _ _); [|discriminate]. injection Hs as Hs. rewrite E, <- Hs. now rewrite normalize_again.
  - injection Hs as Hs. rewrite E, <- Hs. now rewrite normalize_again.
  - destruct (seqb _ _); [now rewrite <- Hlow|]. destruct (seqb _ _); [now rewrite Hup|]. injection Hs as Hs. rewrite E, <- Hs. now rewrite normalize_again.
  - destruct (seqb _ _); [now rewrite <- Hlow|]. destruct (seqb _ _); [now rewrite Hup|]. injection Hs as Hs. rewrite E, <- Hs. now rewrite normalize_again.
  - injection Hs as Hs. rewrite E, <- Hs. now rewrite normalize_again.
Qed.
(** options that fix the letter case of names and keywords override all others *)
Definition fixes_case (c : fcfg) : Prop :=
  (forall s, f_command_case c s <> $"unchanged") /\ (f_keyword_case c = $"lower" \/ f_keyword_case c = $"upper").
Lemma overrides_fixed c c2 : case_blind c2 -> fixes_case c2 -> overrides c c2.
Proof.
  intros Hcase [Hun Hkw] parent k t t' s Hk Hlow Hs E. assert (Hup : upper (spelling t') = upper (spelling t)) by (symmetry; now apply lower_to_upper).
  assert (G : scalar_text c2 parent KKeyword t' = scalar_text c2 parent KKeyword t).
  { cbn [scalar_text]. destruct Hkw as [-> | ->]; [now rewrite <- Hlow|now rewrite Hup]. }
  destruct k; try discriminate; try exact G; cbn [scalar_text] in *.
  - destruct (Hcase _ _ Hlow) as [E1 E2]. rewrite <- E1, <- E2, <- Hlow, Hup. specialize (Hun (spelling t)).
    clear Hs. destruct (seqb (f_command_case c2 (spelling t)) $"lower"); [reflexivity|]. destruct (seqb (f_command_case c2 (spelling t)) $"upper"); [reflexivity|].
    destruct (seqb (f_command_case c2 (spelling t)) $"canonical"); [reflexivity|].
    destruct (seqb (f_command_case c2 (spelling t)) $"unchanged") eqn:Eu; [|reflexivity]. apply seqb_eq in Eu. contradiction.
  - injection Hs as Hs. rewrite E, <- Hs. now rewrite normalize_again.
  - injection Hs as Hs. rewrite E, <- Hs. now rewrite normalize_again.
Qed.
