(** * CommentShape: the lines produced for a comment contain no line feed *)
From Verif Require Import Base Regex Lex TextOps TextProofs Tree Layout LayoutProofs Pieces Markup MarkupProofs
  PropMarkup.

Notation nn s := (~ In cNL s).
Lemma nn_app a b : nn a -> nn b -> nn (a ++ b).
Proof. rewrite in_app_iff. tauto. Qed.
Lemma nn_spaces n : nn (spaces n).
Proof. intros H. apply repeat_spec in H. discriminate. Qed.
Lemma nn_sub a s b : nn (a ++ s ++ b) -> nn s.
Proof. rewrite !in_app_iff. tauto. Qed.
Lemma nn_lstrip_by p s : nn s -> nn (lstrip_by p s).
Proof. destruct (lstrip_by_app p s) as (a & E & _). rewrite E at 1. rewrite in_app_iff. tauto. Qed.
Lemma nn_rstrip_by p s : nn s -> nn (rstrip_by p s).
Proof. destruct (rstrip_by_app p s) as (a & E & _). rewrite E at 1. rewrite in_app_iff. tauto. Qed.
Lemma nn_strip s : nn s -> nn (strip s).
Proof. intros H. unfold strip. first [apply nn_lstrip_by; now apply nn_rstrip_by | apply nn_rstrip_by; now apply nn_lstrip_by]. Qed.
Lemma nn_skipn n s : nn s -> nn (skipn n s).
Proof. intros H Hin. apply H. rewrite <- (firstn_skipn n s). apply in_or_app. now right. Qed.
Lemma nn_tl s : nn s -> nn (tl s).
Proof. destruct s; simpl; tauto. Qed.

(** user texts of the configuration without line feed *)
Definition markup_ok (c : mcfg) : Prop :=
  nn (mk_bullet c) /\ nn (mk_enum c) /\ nn (mk_trailing c)
  /\ (forall l f x, nn l -> mk_fence c l = Some (f, x) -> nn x).

Definition verb_ok (it : citem) : Prop := i_kind it = CVerb -> Forall (fun l => nn l) (i_lines it).
Definition vinv (s : pst) : Prop :=
  Forall verb_ok (ps_objs s)
  /\ match ps_state s, ps_objs s with
     | Some k, it :: _ => i_kind it = k
     | Some _, nil => False
     | None, _ => True
     end.

Lemma add_line_kind o l : match o with it :: r => exists ls, add_line o l = CItem (i_kind it) (i_indent it) ls :: r | nil => True end.
Proof. destruct o as [|[k i ls] r]; simpl; eauto. Qed.
Lemma push_verb k i ls o : k <> CVerb -> Forall verb_ok o -> Forall verb_ok (push k i ls o).
Proof. intros Hk H. constructor; auto. intros E. now contradiction Hk. Qed.

Lemma parse_text_verb c s line : vinv s -> nn line -> vinv (parse_text c s line).
Proof.
  intros [Ho Hs] Hl. unfold parse_text.
  assert (Push : forall k i ls o nx, k <> CVerb -> Forall verb_ok o ->
            vinv (PSt (push k i ls o) (Some k) nx)).
  { intros. split; simpl; auto. now apply push_verb. }
  destruct (ps_state s) as [k|] eqn:Ek.
  - destruct (ps_objs s) as [|[k0 i0 ls0] r] eqn:Eo; [destruct Hs|]. simpl in Hs. subst k0.
    destruct k.
    1-7: (destruct line as [|x line];
      [try (apply Push; [discriminate|assumption]); try (split; rewrite ?Ek, ?Eo; simpl; auto; fail)|]);
      (destruct (mk_ruler c (x :: line)); [apply Push; [discriminate|assumption]|]).
    + destruct (note_match _); [apply Push; [discriminate|assumption]|].
      destruct (mk_ruler0 c _); [apply Push; [discriminate|assumption]|].
      split; simpl; auto. constructor; [|now inversion Ho]. intros E; discriminate E.
    + destruct (ps_next s _); split; simpl; auto; (constructor; [intros E; discriminate E|now inversion Ho]).
    + destruct (ps_next s _); split; simpl; auto; (constructor; [intros E; discriminate E|now inversion Ho]).
    + destruct (note_match _); [apply Push; [discriminate|assumption]|].
      destruct (mk_ruler0 c _); [apply Push; [discriminate|assumption]|].
      split; simpl; auto. constructor; [|now inversion Ho]. intros E; discriminate E.
    + destruct (bullet_match _) as [[[? ?] ?]|]; [apply Push; [discriminate|assumption]|].
      destruct (enum_match _) as [[[? ?] ?]|]; [apply Push; [discriminate|assumption]|].
      destruct (note_match _); (apply Push; [discriminate|assumption]).
    + destruct (bullet_match _) as [[[? ?] ?]|]; [apply Push; [discriminate|assumption]|].
      destruct (enum_match _) as [[[? ?] ?]|]; [apply Push; [discriminate|assumption]|].
      destruct (note_match _); (apply Push; [discriminate|assumption]).
    + split; rewrite ?Ek, ?Eo; simpl; auto.
    + split; simpl; auto. constructor; [|now inversion Ho]. intros _. simpl.
      apply Forall_app. split; [apply Forall_inv in Ho; now apply Ho|]. constructor; auto.
      destruct line as [|x line]; auto. destruct (N.eqb x cSP); auto. intros H. apply Hl. now right.
  - destruct line as [|x line]; [apply Push; [discriminate|assumption]|].
    destruct (mk_ruler c (x :: line)); [apply Push; [discriminate|assumption]|].
    destruct (bullet_match _) as [[[? ?] ?]|]; [apply Push; [discriminate|assumption]|].
    destruct (enum_match _) as [[[? ?] ?]|]; [apply Push; [discriminate|assumption]|].
    destruct (note_match _); (apply Push; [discriminate|assumption]).
Qed.
Lemma parse_line_verb c s line : markup_ok c -> vinv s -> nn line -> vinv (parse_line c s line).
Proof.
  intros (_ & _ & _ & Hf) Hv Hl. unfold parse_line. destruct (mk_fence c line) as [[f x]|] eqn:E.
  - assert (Hx : nn (strip x)) by (apply nn_strip; eauto).
    set (s' := match ps_state s with Some CVerb => _ | _ => _ end).
    assert (Hs' : vinv s').
    { destruct Hv as [Ho _]. unfold s'.
      assert (vinv (PSt (push CVerb 0 nil (push CFence 0 [strip f] (ps_objs s))) (Some CVerb) (ps_next s))).
      { split; simpl; auto. constructor; [intros _; constructor|]. apply push_verb; [discriminate|assumption]. }
      destruct (ps_state s) as [[]|]; auto.
      split; simpl; auto. apply push_verb; [discriminate|assumption]. }
    destruct (strip x) eqn:Ex; auto. now apply parse_text_verb.
  - now apply parse_text_verb.
Qed.
Lemma parse_markup_verb c lines : markup_ok c -> Forall (fun l => nn l) lines -> Forall verb_ok (parse_markup c lines).
Proof.
  intros Hc Hl. unfold parse_markup. apply Forall_rev.
  assert (H : forall s, vinv s -> vinv (fold_left (parse_line c) lines s)).
  { induction Hl as [|l ls H1 H2 IH]; intros s Hs; simpl; auto. apply IH. now apply parse_line_verb. }
  apply H. split; simpl; auto.
Qed.

Lemma digit_nn k : nn [(48 + k)%N].
Proof.
  intros [H|[]]. assert (K : (48 <= 48 + k)%N) by apply N.le_add_r. rewrite H in K. now apply K.
Qed.
Lemma dec_digits_nn f : forall n, nn (dec_digits f n).
Proof.
  induction f as [|f IH]; intros n; cbn [dec_digits]; [intros []|].
  destruct (n <? 10)%nat; [apply digit_nn|]. apply nn_app; auto. apply digit_nn.
Qed.
Lemma pad_dec_nn d n : nn (pad_dec d n).
Proof. apply nn_app; [intros H; apply repeat_spec in H; discriminate|apply dec_digits_nn]. Qed.

Lemma format_list_nn width mark indent ls : (forall i, nn (mark i)) -> nn indent -> forall i out,
  format_list width mark indent i ls = Ok out -> Forall (fun l => nn l) out.
Proof.
  intros Hm Hi. induction ls as [|l ls IH]; intros i out H; simpl in H; [injection H as <-; constructor|].
  bkm H. apply stable_noeol in Hx. destruct x as [|w0 ws]; [discriminate|]. bkm H. injection H as <-.
  constructor; [apply nn_app; auto; now inversion Hx|]. apply Forall_app. split; [|eauto].
  apply Forall_map. eapply Forall_impl; [|exact (Forall_inv_tail Hx)]. intros a Ha. now apply nn_app.
Qed.
Lemma format_item_nn c width it out : markup_ok c -> verb_ok it -> format_item c width it = Ok out ->
  Forall (fun l => nn l) out.
Proof.
  intros (Hb & He & _ & _) Hv H. unfold format_item in H.
  assert (S1 : nn [cSP]) by (intros [E|[]]; discriminate E).
  destruct (i_kind it) eqn:Ek.
  1,4,5: (destruct (_ && _); [injection H as <-; constructor; auto; intros E; apply repeat_spec in E; discriminate|
          now apply stable_noeol in H]).
  - destruct (_ >? _); [|discriminate]. eapply format_list_nn; [| |exact H]; [|apply nn_spaces].
    intros i. now apply nn_app.
  - destruct (_ >? _); [|discriminate]. eapply format_list_nn; [| |exact H]; [|apply nn_spaces].
    intros i. apply nn_app; [apply pad_dec_nn|]. now apply nn_app.
  - injection H as <-. constructor; auto.
  - injection H as <-. constructor; auto. cbv. intros E. repeat (destruct E as [E|E]; [discriminate E|]). exact E.
  - injection H as <-. apply Forall_map. eapply Forall_impl; [|exact (Hv Ek)]. intros a Ha. now apply nn_rstrip_by.
Qed.
Lemma format_items_nn c width its : markup_ok c -> Forall verb_ok its -> forall h out,
  format_items c width h its = Ok out -> Forall (fun l => nn l) out.
Proof.
  intros Hc. induction 1 as [|it its Hv Hvs IH]; intros h out H; cbn [format_items] in H; [injection H as <-; constructor|].
  destruct (is_list_k _); bkm H; apply format_item_nn in Hx; auto; bkm H; injection H as <-;
    apply Forall_app; split; eauto.
  apply Forall_map. eapply Forall_impl; [|exact Hx]. intros a Ha. apply nn_app; auto. apply nn_spaces.
Qed.

Lemma comment_inlines_nn c explicit p : forall ls, lines_only p = true -> comment_inlines c explicit p = Ok ls ->
  Forall (fun l => nn l) ls.
Proof.
  induction p as [|[t|k x] p IH]; intros ls Hp H; simpl in H; [injection H as <-; constructor| |discriminate].
  bkm H. injection H as <-. cbn [lines_only forallb] in Hp. apply andb_prop in Hp as [Ht Hp].
  specialize (IH _ Hp Hx). destruct (is_tt COMMENT t); auto. constructor; auto.
  simpl in Ht. assert (N1 : nn (spelling t)).
  { intros Hin. apply negb_true_iff in Ht. rewrite existsb_exists in Ht || idtac.
    assert (existsb (N.eqb cNL) (spelling t) = true) by (apply existsb_exists; exists cNL; split; auto).
    congruence. }
  apply nn_strip in N1. unfold comment_line. destruct explicit; [now apply nn_skipn|].
  destruct (negb (mk_enable c)); [now apply nn_tl|]. destruct (startswith _ _); [now apply nn_tl|now apply nn_lstrip_by].
Qed.

(** ** The theorem *)
Theorem format_comment_noeol c first explicit p width ls : markup_ok c -> lines_only p = true ->
  format_comment c first explicit p width = Ok ls -> Forall (fun l => nn l) ls.
Proof.
  intros Hc Hp H. unfold format_comment in H. bkm H. rename x into ils.
  apply comment_inlines_nn in Hx; auto.
  assert (Hpre : nn (if explicit then mk_trailing c else [cHASH])).
  { destruct explicit; [apply Hc|]. intros [E|[]]; discriminate E. }
  assert (Hlit : Forall (fun l => nn l) (map (fun l => (if explicit then mk_trailing c else [cHASH]) ++ rstrip l) ils)).
  { apply Forall_map. eapply Forall_impl; [|exact Hx]. intros a Ha. apply nn_app; auto. now apply nn_rstrip_by. }
  repeat match type of H with
  | (if ?b then Ok _ else _) = _ => destruct b; [injection H as <-; exact Hlit|]
  end.
  bkm H. injection H as <-. apply format_items_nn in Hx0; auto; [|now apply parse_markup_verb].
  apply Forall_map. eapply Forall_impl; [|exact Hx0]. intros a Ha. apply nn_app; auto. apply nn_app; auto. apply nn_spaces.
Qed.

Lemma span_nn p s a b : span p s = (a, b) -> nn s -> nn a /\ nn b.
Proof. intros H. apply span_eq in H as [-> _]. rewrite in_app_iff. tauto. Qed.
Lemma default_markup_ok : markup_ok default_mcfg.
Proof.
  repeat split; try (cbv; intros E; repeat (destruct E as [E|E]; [discriminate E|]); exact E).
  intros l f x Hl H. simpl in H. unfold fence_match in H.
  destruct (span is_uspace l) as [a r] eqn:E1. apply span_nn in E1 as [_ Hr]; auto.
  destruct (span is_fence_c r) as [b y] eqn:E2. apply span_nn in E2 as [_ Hy]; auto.
  destruct (3 <=? zlen b); [|discriminate]. injection H as <- <-. exact Hy.
Qed.
