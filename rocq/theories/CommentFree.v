(** * CommentFree: a text that does not occur in a comment does not occur in the
    lines written for it *)
From Verif Require Import Base Regex Lex TextOps TextProofs Tree Layout LayoutProofs Pieces Markup MarkupProofs
  PropMarkup CommentShape.

Section Kept.
  Variable c : mcfg.
  (** a property of texts that passes to their parts and to texts put together
      with a blank in between *)
  Variable P : str -> Prop.
  Hypothesis P_nil : P nil.
  Hypothesis P_sub : forall a b, P (a ++ b) -> P a /\ P b.
  Hypothesis P_join : forall a b x, is_aspace x = true -> P a -> P b -> P (a ++ x :: b).
  Hypothesis P_bullet : P (mk_bullet c).
  Hypothesis P_enum : forall d n, P (pad_dec d n ++ mk_enum c).
  Hypothesis P_fence : forall l f x, P l -> mk_fence c l = Some (f, x) -> P x.
  Hypothesis P_tilde : P $"~~~".
  Hypothesis P_hashes : forall n, P (repeat cHASH n).

  Lemma P_lstrip p s : P s -> P (lstrip_by p s).
  Proof. destruct (lstrip_by_app p s) as (a & E & _). rewrite E at 1. intros H. now apply P_sub in H. Qed.
  Lemma P_rstrip p s : P s -> P (rstrip_by p s).
  Proof. destruct (rstrip_by_app p s) as (a & E & _). rewrite E at 1. intros H. now apply P_sub in H. Qed.
  Lemma P_strip s : P s -> P (strip s).
  Proof. intros H. apply P_rstrip, P_lstrip. exact H. Qed.
  Lemma P_tl s : P s -> P (tl s).
  Proof. destruct s as [|x s]; auto. intros H. change (x :: s) with ([x] ++ s) in H. now apply P_sub in H. Qed.
  Lemma P_skipn n s : P s -> P (skipn n s).
  Proof. intros H. rewrite <- (firstn_skipn n s) in H. now apply P_sub in H. Qed.
  Lemma P_spaces n s : P s -> P (spaces n ++ s).
  Proof. intros H. unfold spaces. induction (Z.to_nat n) as [|m IH]; auto. cbn [repeat app]. now apply (P_join nil). Qed.
  Lemma P_linejoin ls : Forall P ls -> P (join [cNL] ls).
  Proof.
    induction 1 as [|l ls Hl _ IH]; auto. cbn [join]. destruct ls as [|l' ls]; [exact Hl|].
    change ([cNL] ++ ?x) with (cNL :: x). now apply P_join.
  Qed.

  (** wrapping *)
  Lemma P_munge s : forall col a, P (a ++ s) -> P (a ++ map blank_to_space (expandtabs col s)).
  Proof.
    induction s as [|x s IH]; intros col a H; cbn [expandtabs map]; auto.
    assert (Hs : P a /\ P s).
    { apply P_sub in H as [H1 H2]. split; auto. change (x :: s) with ([x] ++ s) in H2. now apply P_sub in H2. }
    assert (Hb : forall k, is_aspace x = true -> P (a ++ map blank_to_space (x :: expandtabs k s))).
    { intros k Hx. cbn [map]. unfold blank_to_space at 1. rewrite Hx. apply P_join; [reflexivity|tauto|]. apply (IH k nil). tauto. }
    destruct (N.eqb_spec x cTAB) as [->|Ht].
    - cbn zeta. set (n := 8 - col mod 8). assert (Hn : 0 < n) by (subst n; pose proof (Z.mod_pos_bound col 8); lia).
      unfold spaces. rewrite map_app. assert (exists m, Z.to_nat n = S m) as (m & ->) by (exists (pred (Z.to_nat n)); lia).
      cbn [repeat map app]. change (blank_to_space cSP) with cSP. apply P_join; [reflexivity|tauto|].
      assert (Hm : P (map blank_to_space (expandtabs (col + n) s))) by (apply (IH (col + n) nil); tauto).
      clear -P_join P_nil Hm. induction m as [|m IH]; auto. cbn [repeat map app]. change (blank_to_space cSP) with cSP. now apply (P_join nil).
    - destruct (N.eqb x cNL || N.eqb x cCR) eqn:E.
      + apply Hb. apply orb_prop in E as [E|E]; apply N.eqb_eq in E; subst x; reflexivity.
      + destruct (is_aspace x) eqn:Ex; [now apply Hb|]. cbn [map]. unfold blank_to_space at 1. rewrite Ex.
        specialize (IH (col + 1) (a ++ [x])). rewrite <- !app_assoc in IH. now apply IH.
  Qed.
  Lemma P_wrap_loop width fuel : forall started cs, P (List.concat cs) -> Forall P (wrap_loop width fuel started cs).
  Proof.
    induction fuel as [|f IH]; intros started cs H; cbn [wrap_loop]; [constructor|]. destruct cs as [|x cs0]; [constructor|]. cbv zeta.
    match goal with |- context [take_line width 0 ?e] => set (cs1 := e) end.
    assert (H1 : P (List.concat cs1)).
    { subst cs1. destruct (_ && _); auto. cbn [List.concat] in H. now apply P_sub in H. }
    destruct (take_line width 0 cs1) as [line rest] eqn:E. pose proof (take_line_app width cs1 0) as Ea. rewrite E in Ea. cbn [fst snd] in Ea.
    rewrite <- Ea, concat_app in H1. clear E Ea.
    match goal with |- context [match ?e with pair _ _ => _ end] => set (lr := e) end.
    assert (H2 : P (List.concat (fst lr) ++ List.concat (snd lr))).
    { subst lr. destruct rest as [|w rest']; auto. destruct line as [|? ?]; [|now rewrite andb_false_r]. rewrite andb_true_r.
      destruct (zlen w >? width); auto. cbn [fst snd List.concat] in *. rewrite app_nil_r. exact H1. }
    destruct lr as [line2 rest2]. cbn [fst snd] in H2. apply P_sub in H2 as [A B].
    destruct (drop_last_blank_app line2) as (d & Ed & _). rewrite Ed, concat_app in A. apply P_sub in A as [A _].
    destruct (drop_last_blank line2); [now apply IH|]. constructor; [exact A|now apply IH].
  Qed.
  Lemma P_wrap width s ls : P s -> wrap width s = Ok ls -> Forall P ls.
  Proof.
    intros Hs H. unfold wrap in H. destruct (width <=? 0); [discriminate|]. injection H as <-. apply P_wrap_loop.
    rewrite chunks_concat. exact (P_munge s 0 nil Hs).
  Qed.
  Lemma P_stable width s ls : P s -> stable_wrap width s = Ok ls -> Forall P ls.
  Proof.
    unfold stable_wrap. generalize 8%nat as n. intros n. revert s. induction n as [|n IH]; intros s Hs H; [discriminate|].
    cbn [stable_loop] in H. bkm H. apply P_wrap in Hx; auto. destruct (seqb _ _); [now injection H as <-|].
    destruct x; [discriminate|]. apply IH in H; auto. now apply P_linejoin.
  Qed.

  (** the items of a comment *)
  Lemma P_span p s a b : span p s = (a, b) -> P s -> P b.
  Proof. intros H. apply span_eq in H as [-> _]. intros H. now apply P_sub in H. Qed.
  Lemma P_cons x s : P (x :: s) -> P s.
  Proof. intros H. exact (P_tl _ H). Qed.
  Lemma P_bullet_match l i x g : P l -> bullet_match l = Some (i, x, g) -> P g.
  Proof.
    intros Hl H. unfold bullet_match in H. destruct (span is_uspace l) as [ind r] eqn:E. apply P_span in E; auto.
    destruct r as [|a [|b [|y r]]]; try discriminate. destruct (_ && _); [|discriminate]. injection H as <- <- <-. now apply P_cons in E.
  Qed.
  Lemma P_enum_match l i x g : P l -> enum_match l = Some (i, x, g) -> P g.
  Proof.
    intros Hl H. unfold enum_match in H. destruct (span is_uspace l) as [ind r] eqn:E. apply P_span in E; auto.
    destruct (span is_digit_c r) as [ds r2] eqn:E2. apply P_span in E2; auto. destruct ds as [|d ds]; [discriminate|].
    destruct r2 as [|a [|b [|y r']]]; try discriminate. destruct (_ && _); [|discriminate]. injection H as <- <- <-. now apply P_cons in E2.
  Qed.
  Lemma P_strip_prefix i l r : P l -> strip_prefix i l = Some r -> P r.
  Proof.
    revert l. induction i as [|a i IH]; intros l Hl H; cbn [strip_prefix] in H; [now injection H as <-|].
    destruct l as [|b l]; [discriminate|]. destruct (N.eqb a b); [|discriminate]. apply IH in H; auto. now apply P_cons in Hl.
  Qed.
  Lemma P_next_bullet i x l g : P l -> next_bullet i x l = Some g -> P g.
  Proof.
    intros Hl H. unfold next_bullet in H. destruct (strip_prefix i l) as [r|] eqn:E; [|discriminate]. apply P_strip_prefix in E; auto.
    destruct r as [|a [|b r]]; try discriminate. destruct (_ && _); [|discriminate]. injection H as <-. now apply P_cons in E.
  Qed.
  Lemma P_next_enum i x l g : P l -> next_enum i x l = Some g -> P g.
  Proof.
    intros Hl H. unfold next_enum in H. destruct (strip_prefix i l) as [r0|] eqn:E; [|discriminate]. apply P_strip_prefix in E; auto.
    destruct (span is_digit_c r0) as [ds r] eqn:E2. pose proof (P_span _ _ _ _ E2 E) as Hr. destruct ds as [|d ds]; [discriminate|].
    assert (Hfull : forall g', match r with y :: b :: r' => if (N.eqb x 46 || N.eqb y x) && N.eqb b cSP then Some (b :: r') else None | _ => None end = Some g' -> P g').
    { intros g' Hg. destruct r as [|y [|b r']]; try discriminate. destruct (_ && _); [|discriminate]. injection Hg as <-. now apply P_cons in Hr. }
    destruct (match r with y :: b :: r' => _ | _ => _ end) as [g'|]; [injection H as <-; now apply Hfull|].
    destruct ds as [|d' ds]; [discriminate|]. destruct r as [|b r']; [discriminate|]. destruct (_ && _); [|discriminate]. now injection H as <-.
  Qed.

  (** the line of a fence is replaced by tildes *)
  Definition kept_item (it : citem) : Prop := i_kind it <> CFence -> Forall P (i_lines it).
  Definition kept (s : pst) : Prop := Forall kept_item (ps_objs s) /\ forall l g, P l -> ps_next s l = Some g -> P g.
  Lemma kept_add o l : Forall kept_item o -> P l -> Forall kept_item (add_line o l).
  Proof.
    intros H Hl. destruct o as [|[k i ls] r]; [constructor|]. inversion H as [|? ? H1 H2]; subst. constructor; auto.
    unfold kept_item in *. cbn [i_lines i_kind] in *. intros Hk. apply Forall_app. auto.
  Qed.
  Lemma kept_extend o l : Forall kept_item o -> P l -> Forall kept_item (extend_last o l).
  Proof.
    intros H Hl. destruct o as [|[k i ls] r]; [constructor|]. inversion H as [|? ? H1 H2]; subst. constructor; auto.
    unfold kept_item in *. cbn [i_lines i_kind] in *. intros Hk. specialize (H1 Hk). apply Forall_app. split.
    - apply Forall_forall. intros z Hz. rewrite Forall_forall in H1. apply H1. clear -Hz.
      induction ls as [|a ls IH]; [destruct Hz|]. cbn [removelast] in Hz. destruct ls as [|b ls]; [destruct Hz|].
      destruct Hz as [<-|Hz]; [now left|right; auto].
    - constructor; auto. apply P_join; auto. clear -H1 P_nil. induction ls as [|a ls IH]; [exact P_nil|].
      inversion H1; subst. destruct ls as [|b ls]; [assumption|]. change (last (a :: b :: ls) nil) with (last (b :: ls) nil). auto.
  Qed.
  Lemma kept_text s line : kept s -> P line -> kept (parse_text c s line).
  Proof.
    intros [Ho Hn] Hl. unfold parse_text.
    assert (Push : forall k i l nx, P l -> (forall l g, P l -> nx l = Some g -> P g) ->
              kept (PSt (push k i [l] (ps_objs s)) (Some k) nx)).
    { intros k i l nx H1 H2. split; cbn; auto. constructor; auto. intros _. constructor; auto. }
    assert (Push0 : forall k i, kept (PSt (push k i nil (ps_objs s)) (Some k) (ps_next s))).
    { intros k i. split; cbn; auto. constructor; auto. intros _. constructor. }
    pose proof (P_strip _ Hl) as Hst.
    assert (Verb : kept (PSt (add_line (ps_objs s) (match line with x :: r => if N.eqb x cSP then r else line | nil => line end)) (ps_state s) (ps_next s))).
    { split; cbn; auto. apply kept_add; auto. destruct line as [|x r]; auto. destruct (N.eqb x cSP); auto. now apply P_cons in Hl. }
    assert (Same : kept s) by (split; auto).
    assert (Fresh : forall l0, line = l0 -> kept (match bullet_match l0 with
              | Some (ind, p, g) => PSt (push CBullet (zlen ind) [g] (ps_objs s)) (Some CBullet) (next_bullet ind p)
              | None => match enum_match l0 with
                  | Some (ind, p, g) => PSt (push CEnum (zlen ind) [strip g] (ps_objs s)) (Some CEnum) (next_enum ind p)
                  | None => if note_match l0 then PSt (push CNote 0 [strip l0] (ps_objs s)) (Some CNote) (ps_next s)
                            else PSt (push CPara 0 [strip l0] (ps_objs s)) (Some CPara) (ps_next s)
                  end end)).
    { intros l0 <-. destruct (bullet_match line) as [[[i p] g]|] eqn:Eb.
      - apply Push; [exact (P_bullet_match _ _ _ _ Hl Eb)|]. intros. eapply P_next_bullet; eauto.
      - destruct (enum_match line) as [[[i p] g]|] eqn:Ee.
        + apply Push; [apply P_strip; exact (P_enum_match _ _ _ _ Hl Ee)|]. intros. eapply P_next_enum; eauto.
        + destruct (note_match line); apply Push; auto. }
    assert (Para : forall l0, line = l0 -> kept (if note_match l0 then PSt (push CNote 0 [strip l0] (ps_objs s)) (Some CNote) (ps_next s)
              else if mk_ruler0 c l0 then PSt (push CRuler 0 [strip l0] (ps_objs s)) (Some CRuler) (ps_next s)
              else PSt (add_line (ps_objs s) (strip l0)) (ps_state s) (ps_next s))).
    { intros l0 <-. destruct (note_match line); [now apply Push|]. destruct (mk_ruler0 c line); [now apply Push|].
      split; cbn; auto. now apply kept_add. }
    assert (More : forall l0, line = l0 -> kept (match ps_next s l0 with
              | Some g => PSt (add_line (ps_objs s) (strip g)) (ps_state s) (ps_next s)
              | None => PSt (extend_last (ps_objs s) (strip l0)) (ps_state s) (ps_next s) end)).
    { intros l0 <-. destruct (ps_next s line) as [g|] eqn:E; split; cbn; auto.
      - apply kept_add; auto. apply P_strip. eauto.
      - now apply kept_extend. }
    destruct (ps_state s) as [[]|] eqn:Es; try exact Verb; (destruct line as [|x line]; [try exact Same; try apply Push0|]);
      (destruct (mk_ruler c (x :: line)); [now apply Push|]); try exact Same; try (now apply Fresh); try (now apply Para); now apply More.
  Qed.
  Lemma kept_line s line : kept s -> P line -> kept (parse_line c s line).
  Proof.
    intros Hk Hl. unfold parse_line. destruct (mk_fence c line) as [[f x]|] eqn:E; [|now apply kept_text].
    pose proof (P_strip _ (P_fence _ _ _ Hl E)) as Hx. set (s' := match ps_state s with Some CVerb => _ | _ => _ end).
    assert (Hs' : kept s').
    { destruct Hk as [Ho Hn]. subst s'.
      assert (A : Forall kept_item (push CFence 0 [strip f] (ps_objs s))) by (constructor; auto; intros E'; now destruct E').
      assert (B : kept (PSt (push CVerb 0 nil (push CFence 0 [strip f] (ps_objs s))) (Some CVerb) (ps_next s)))
        by (split; cbn; auto; constructor; auto; intros _; constructor).
      destruct (ps_state s) as [[]|]; auto. split; cbn; auto. }
    destruct (strip x); auto. now apply kept_text.
  Qed.
  Lemma kept_markup lines : Forall P lines -> Forall kept_item (parse_markup c lines).
  Proof.
    intros Hl. unfold parse_markup. apply Forall_rev.
    assert (H : forall s, kept s -> kept (fold_left (parse_line c) lines s)).
    { induction Hl as [|l ls H1 H2 IH]; intros s Hs; simpl; auto. apply IH. now apply kept_line. }
    apply H. split; cbn; [constructor|discriminate].
  Qed.
  Lemma P_format_list width mark indent ls : (forall i s, P s -> P (mark i ++ s)) -> (forall s, P s -> P (indent ++ s)) -> Forall P ls -> forall i out,
    format_list width mark indent i ls = Ok out -> Forall P out.
  Proof.
    intros Hm Hi. induction 1 as [|l ls Hl _ IH]; intros i out H; simpl in H; [injection H as <-; constructor|].
    bkm H. apply P_stable in Hx; [|now apply P_strip]. destruct x as [|w0 ws]; [discriminate|]. bkm H. injection H as <-.
    inversion Hx as [|? ? A B]; subst. constructor; [now apply Hm|]. apply Forall_app. split; [|eauto].
    apply Forall_map. eapply Forall_impl; [|exact B]. exact Hi.
  Qed.
  Lemma P_format_item width it out : kept_item it -> format_item c width it = Ok out -> Forall P out.
  Proof.
    intros Hk H. unfold format_item in H. unfold kept_item in Hk. destruct (i_kind it) eqn:Ek.
    1,4,5: specialize (Hk ltac:(discriminate)); (destruct (_ && _); [injection H as <-; constructor; auto|
            apply P_stable in H; auto; now apply P_strip, P_linejoin]).
    - destruct (_ >? _); [|discriminate]. eapply P_format_list; [| | |exact H]; [|intros; now apply P_spaces|now apply Hk].
      intros i s Hs. cbv beta. rewrite <- app_assoc. cbn [app]. now apply P_join.
    - destruct (_ >? _); [|discriminate]. eapply P_format_list; [| | |exact H]; [|intros; now apply P_spaces|now apply Hk].
      intros i s Hs. cbv beta. match goal with |- P ((?a ++ ?b ++ _) ++ _) => replace ((a ++ b ++ [cSP]) ++ s) with ((a ++ b) ++ cSP :: s) by (now rewrite <- !app_assoc) end.
      now apply P_join.
    - injection H as <-. constructor; auto.
    - injection H as <-. constructor; auto.
    - injection H as <-. apply Forall_map. eapply Forall_impl; [|apply Hk; discriminate]. intros a Ha. now apply P_rstrip.
  Qed.
  Lemma P_format_items width its : Forall kept_item its -> forall h out, format_items c width h its = Ok out -> Forall P out.
  Proof.
    induction 1 as [|it its Hv Hvs IH]; intros h out H; cbn [format_items] in H; [injection H as <-; constructor|].
    destruct (is_list_k _); bkm H; apply P_format_item in Hx; auto; bkm H; injection H as <-;
      apply Forall_app; split; eauto.
    apply Forall_map. eapply Forall_impl; [|exact Hx]. intros a Ha. now apply P_spaces.
  Qed.
  Lemma P_inlines explicit p : forall ls, (forall t, In (T t) p -> is_tt COMMENT t = true -> P (spelling t)) ->
    comment_inlines c explicit p = Ok ls -> Forall P ls.
  Proof.
    induction p as [|[t|k x] p IH]; intros ls Hp H; simpl in H; [injection H as <-; constructor| |discriminate].
    bkm H. injection H as <-. apply IH in Hx; [|intros; apply Hp; auto; now right].
    destruct (is_tt COMMENT t) eqn:Et; auto. constructor; auto.
    specialize (Hp t (or_introl eq_refl) Et). apply P_strip in Hp. unfold comment_line. destruct explicit; [now apply P_skipn|].
    destruct (negb (mk_enable c)); [now apply P_tl|]. destruct (startswith _ _); [now apply P_tl|now apply P_lstrip].
  Qed.
End Kept.

(** ** Texts that do not occur *)
Fixpoint occurs (k s : str) : bool :=
  match strip_prefix k s with
  | Some _ => true
  | None => match s with nil => false | _ :: s' => occurs k s' end
  end.
Lemma occurs_eq k s : occurs k s = match strip_prefix k s with
  | Some _ => true | None => match s with nil => false | _ :: s' => occurs k s' end end.
Proof. now destruct s. Qed.
Lemma strip_prefix_more k a b r : strip_prefix k a = Some r -> strip_prefix k (a ++ b) = Some (r ++ b).
Proof.
  revert a. induction k as [|x k IH]; intros a H; cbn [strip_prefix] in *; [now injection H as <-|].
  destruct a as [|y a]; [discriminate|]. cbn [app]. destruct (N.eqb x y); auto. discriminate.
Qed.
Lemma strip_prefix_less k a x b : existsb (N.eqb x) k = false -> strip_prefix k a = None -> strip_prefix k (a ++ x :: b) = None.
Proof.
  revert a. induction k as [|y k IH]; intros a Hx H; cbn [strip_prefix] in *; [discriminate|].
  cbn [existsb] in Hx. apply orb_false_iff in Hx as [H1 H2]. destruct a as [|z a]; cbn [app].
  - now rewrite N.eqb_sym, H1.
  - destruct (N.eqb y z); auto.
Qed.
Lemma occurs_sub k a b : occurs k (a ++ b) = false -> occurs k a = false /\ occurs k b = false.
Proof.
  revert b. induction a as [|x a IH]; intros b H.
  - split; [|exact H]. rewrite occurs_eq in *. destruct (strip_prefix k nil) eqn:E; auto.
    now rewrite (strip_prefix_more _ nil b _ E) in H.
  - cbn [app] in H. rewrite occurs_eq in H. destruct (strip_prefix k (x :: a ++ b)) eqn:E; [discriminate|].
    apply IH in H as [H1 H2]. split; auto. rewrite occurs_eq. destruct (strip_prefix k (x :: a)) eqn:E2; auto.
    apply (strip_prefix_more _ _ b) in E2. cbn [app] in E2. congruence.
Qed.
Lemma occurs_join k a b x : existsb (N.eqb x) k = false -> occurs k a = false -> occurs k b = false -> occurs k (a ++ x :: b) = false.
Proof.
  intros Hx Ha Hb. induction a as [|y a IH]; cbn [app]; rewrite occurs_eq in Ha |- *.
  - destruct (strip_prefix k nil) eqn:E; [discriminate|]. pose proof (strip_prefix_less k nil x b Hx E) as E2. cbn [app] in E2. now rewrite E2.
  - destruct (strip_prefix k (y :: a)) eqn:E; [discriminate|]. pose proof (strip_prefix_less k (y :: a) x b Hx E) as E2. cbn [app] in E2. rewrite E2. auto.
Qed.

(** the words a format switch begins with (lex/__init__.py 113-118) *)
Definition switch_words : list str := [$"cmake-format:"; $"cmf:"].
Definition switchless (s : str) : bool := forallb (fun k => negb (occurs k s)) switch_words.
Lemma switchless_iff s : switchless s = true <-> forall k, In k switch_words -> occurs k s = false.
Proof.
  unfold switchless. rewrite forallb_forall. split; intros H k Hk; specialize (H k Hk); now apply negb_true_iff.
Qed.
Lemma switchless_sub a b : switchless (a ++ b) = true -> switchless a = true /\ switchless b = true.
Proof. rewrite !switchless_iff. intros H. split; intros k Hk; now apply (occurs_sub k a b), H. Qed.
Lemma switchless_join a b x : is_aspace x = true -> switchless a = true -> switchless b = true -> switchless (a ++ x :: b) = true.
Proof.
  rewrite !switchless_iff. intros Hx Ha Hb k Hk. apply occurs_join; auto.
  unfold is_aspace in Hx. cbn [existsb] in Hx. rewrite !orb_true_iff, !N.eqb_eq in Hx.
  destruct Hk as [<-|[<-|[]]]; repeat destruct Hx as [->|Hx]; try reflexivity; discriminate.
Qed.
(** digits, blanks and numbers do not begin such a word *)
Lemma occurs_lead k x s : match k with y :: _ => N.eqb y x = false | nil => False end -> occurs k (x :: s) = occurs k s.
Proof. destruct k as [|y k]; [easy|]. intros H. cbn [occurs strip_prefix]. now rewrite H. Qed.
Lemma switchless_lead x s : N.eqb 99 x = false -> switchless (x :: s) = switchless s.
Proof. intros H. unfold switchless. cbn [forallb switch_words]. now rewrite !occurs_lead by exact H. Qed.
Lemma switchless_repeat x n s : N.eqb 99 x = false -> switchless s = true -> switchless (repeat x n ++ s) = true.
Proof. intros Hx Hs. induction n as [|n IH]; auto. cbn [repeat app]. now rewrite switchless_lead. Qed.
Lemma switchless_digits f : forall n s, switchless s = true -> switchless (dec_digits f n ++ s) = true.
Proof.
  assert (D : forall n s, (n < 10)%nat -> switchless s = true -> switchless ([(48 + N.of_nat n)%N] ++ s) = true).
  { intros n s Hn Hs. cbn [app]. rewrite switchless_lead; auto. apply N.eqb_neq. lia. }
  induction f as [|f IH]; intros n s Hs; cbn [dec_digits]; auto.
  destruct (n <? 10)%nat eqn:E; [apply D; auto; now apply Nat.ltb_lt|].
  rewrite <- app_assoc. apply IH. apply D; auto. apply Nat.mod_upper_bound. lia.
Qed.
Lemma switchless_pad d n s : switchless s = true -> switchless (pad_dec d n ++ s) = true.
Proof. intros H. unfold pad_dec. rewrite <- app_assoc. apply switchless_repeat; auto. now apply switchless_digits. Qed.

(** ** The lines written for a comment *)
(** user texts of the configuration without a format switch; the explicit trailing
    pattern is a hash and a character that begins neither a bracket nor a word *)
Definition markup_calm (c : mcfg) : Prop :=
  switchless (mk_bullet c) = true /\ switchless (mk_enum c) = true
  /\ (forall l f x, switchless l = true -> mk_fence c l = Some (f, x) -> switchless x = true)
  /\ (exists a r, mk_trailing c = cHASH :: a :: r /\ is_aspace a = false /\ a <> cLB /\ a <> 99%N).
(** a comment line that mentions no format switch and does not begin like a
    bracket comment once further hashes are removed *)
Definition calm_comment (t : token) : bool :=
  switchless (spelling t)
  && match lstrip_by (N.eqb cHASH) (strip (spelling t)) with c :: _ => negb (N.eqb c cLB) | nil => true end.
