(** * ParseBlank: the parser does not look at blanks

    Two comment-free token lists that differ only in the blank tokens, in positions
    and in letter case (where the parser ignores it) are parsed alike.  The lists may
    go on with anything: [R1] and [R2] are what follows the statement, which may hold
    comments and is looked at only for its semantic tokens. *)
From Verif Require Import Base Regex Lex TextOps TextProofs Tree Parse ParseProofs ParseTerm PropParse
  CmdSpec StdSpecs StdDb NamesShape PropLintChecks.

(** ** Tokens that the parser treats alike *)
Definition nonws (t : token) : bool := negb (is_ws t).
Definition nows (l : list token) : list token := filter nonws l.
(** no comment, switch or byte-order mark; blank tokens consist of blanks *)
Definition calmt (t : token) : bool :=
  negb (is_comment t || is_onoff t || is_tt BYTEORDER_MARK t) && implb (is_ws t) (forallb is_aspace (spelling t)).
Definition calm (l : list token) : bool := forallb calmt l.
(** a keyword that is not blank *)
Definition kwok (k : str) : bool := negb (forallb is_aspace k).


Lemma upc_aspace c : is_aspace (upc c) = is_aspace c.
Proof.
  unfold upc. destruct ((97 <=? c) && (c <=? 122))%N eqn:E; [|reflexivity].
  apply andb_prop in E as [A B]. apply N.leb_le in A. apply N.leb_le in B.
  unfold is_aspace. cbn [existsb].
  repeat match goal with |- context [N.eqb ?x ?y] => rewrite (proj2 (N.eqb_neq x y)) by lia end. reflexivity.
Qed.
Lemma upper_aspace s : forallb is_aspace (upper s) = forallb is_aspace s.
Proof. unfold upper. induction s as [|c s IH]; cbn [map forallb]; auto. now rewrite upc_aspace, IH. Qed.
Lemma lower_startswith_dash s s' : lower s = lower s' -> startswith [45%N] s = startswith [45%N] s'.
Proof.
  assert (G : forall c, N.eqb (loc c) 45 = N.eqb c 45).
  { intros c. unfold loc. destruct (_ && _) eqn:E; [|reflexivity].
    apply andb_prop in E as [A B]. apply N.leb_le in A. apply N.leb_le in B.
    rewrite !(proj2 (N.eqb_neq _ _)) by lia. reflexivity. }
  assert (G2 : forall s, startswith [45%N] s = startswith [45%N] (lower s)).
  { intros [|c r]; [reflexivity|]. unfold lower. cbn [map startswith]. now rewrite (N.eqb_sym 45 (loc c)), G, N.eqb_sym. }
  intros H. now rewrite (G2 s), (G2 s'), H.
Qed.
Lemma lower_to_upper s s' : lower s = lower s' -> upper s = upper s'.
Proof. intros H. now rewrite <- (upper_lower s), H, upper_lower. Qed.

Section Blank.
  Variable ctx : pctx.
  Variables R1 R2 : list token.

  Definition tsim (t u : token) : Prop :=
    tt t = tt u /\ lower (spelling t) = lower (spelling u)
    /\ forall m, In m (vartags ctx) -> fst m (spelling t) = fst m (spelling u).
  Definition sim (l1 l2 : list token) : Prop :=
    exists p1 p2, l1 = p1 ++ R1 /\ l2 = p2 ++ R2 /\ Forall2 tsim (nows p1) (nows p2) /\ calm p1 = true /\ calm p2 = true
      /\ Forall2 tsim (semantics R1) (semantics R2).
  (** there is still a token of the statement to read *)
  Definition live (l : list token) : Prop := exists q, l = q ++ R1 /\ nows q <> nil.

  Lemma calm_app a b : calm (a ++ b) = calm a && calm b. Proof. apply forallb_app. Qed.
  Lemma nows_app a b : nows (a ++ b) = nows a ++ nows b. Proof. apply filter_app. Qed.
  Lemma nows_ws ws : forallb is_ws ws = true -> nows ws = nil.
  Proof.
    induction ws as [|w ws IH]; [reflexivity|]. cbn [forallb]. intros H. apply andb_prop in H as [H1 H2].
    cbn [nows filter]. unfold nonws at 1. rewrite H1. cbn [negb]. now apply IH.
  Qed.
  Lemma calm_tl t l : calm (t :: l) = true -> calm l = true.
  Proof. cbn [calm forallb]. intros H. now apply andb_prop in H as [_ H]. Qed.
  Lemma live_nil : ~ live nil.
  Proof. intros (q & E & H). symmetry in E. apply app_eq_nil in E as [-> _]. now apply H. Qed.
  Lemma live_tail t q p : t :: q = p ++ R1 -> live (t :: q) -> exists p', p = t :: p' /\ q = p' ++ R1.
  Proof.
    intros E (q' & E' & H). rewrite E' in E. apply app_inv_tail in E. subst q'. destruct p as [|t' p]; [now destruct H|].
    cbn [app] in E'. injection E' as <- ->. eauto.
  Qed.
  Lemma live_nows p : live (p ++ R1) -> nows p <> nil.
  Proof. intros (q & E & H). apply app_inv_tail in E. now subst. Qed.
  Lemma sim_ws1 t l1 l2 : is_ws t = true -> sim (t :: l1) l2 -> live (t :: l1) -> sim l1 l2.
  Proof.
    intros Hw (p1 & p2 & E & -> & F & C1 & C2 & HR) Hl. destruct (live_tail _ _ _ E Hl) as (p' & -> & ->).
    cbn [nows filter] in F. unfold nonws at 1 in F. rewrite Hw in F. cbn [negb] in F.
    exists p', p2. repeat split; auto. eapply calm_tl; eauto.
  Qed.
  (** the blanks before the next token of the other list *)
  Lemma nows_split l : forall u m, nows l = u :: m -> exists ws l', l = ws ++ u :: l' /\ forallb is_ws ws = true /\ is_ws u = false /\ nows l' = m.
  Proof.
    induction l as [|t l IH]; [discriminate|]. intros u m. cbn [nows filter]. unfold nonws at 1.
    destruct (is_ws t) eqn:E; cbn [negb].
    - intros H. destruct (IH _ _ H) as (ws & l' & -> & Hw & Hu & Hm). exists (t :: ws), l'. cbn [forallb]. rewrite E. auto.
    - intros H. injection H as -> <-. exists nil, l. auto.
  Qed.
  Lemma sim_tok t l1 l2 : is_ws t = false -> sim (t :: l1) l2 -> live (t :: l1) ->
    exists ws u l2', l2 = ws ++ u :: l2' /\ forallb is_ws ws = true /\ calm ws = true /\ is_ws u = false /\ tsim t u /\ sim l1 l2'
      /\ sim (t :: l1) (u :: l2').
  Proof.
    intros Hw (p1 & p2 & E & -> & F & C1 & C2 & HR) Hl. destruct (live_tail _ _ _ E Hl) as (p' & -> & ->).
    cbn [nows filter] in F. unfold nonws at 1 in F. rewrite Hw in F. cbn [negb] in F.
    inversion F as [|? u ? m Ht Hm Ea Eb]; subst. symmetry in Eb. apply nows_split in Eb as (ws & l' & -> & W & Hu & <-).
    rewrite calm_app in C2. apply andb_prop in C2 as [Cw C2].
    assert (C1' : calm p' = true) by (eapply calm_tl; eauto).
    assert (C2' : calm l' = true) by (eapply calm_tl; eauto).
    exists ws, u, (l' ++ R2). split; [now rewrite <- app_assoc|]. split; [auto|]. split; [auto|]. split; [auto|]. split; [exact Ht|].
    split; [exists p', l'; repeat split; auto|].
    exists (t :: p'), (u :: l'). repeat split; auto.
    cbn [nows filter]. unfold nonws. rewrite Hw, Hu. cbn [negb]. constructor; assumption.
  Qed.
  Lemma sim_nil l1 l2 : sim l1 l2 -> live l1 -> l2 <> nil.
  Proof.
    intros (p1 & p2 & -> & -> & F & _) H E. apply live_nows in H. apply app_eq_nil in E as [-> _]. inversion F. congruence.
  Qed.

  (** ** What the parser reads of a token *)
  Lemma calm_flags t l : calm (t :: l) = true ->
    is_comment t = false /\ is_onoff t = false /\ is_tt BYTEORDER_MARK t = false /\ (is_ws t = true -> forallb is_aspace (spelling t) = true).
  Proof.
    cbn [calm forallb]. intros H. apply andb_prop in H as [H _]. unfold calmt in H. apply andb_prop in H as [H1 H2].
    apply negb_true_iff in H1. apply orb_false_elim in H1 as [H1 H3]. apply orb_false_elim in H1 as [H0 H1].
    repeat split; auto. intros E. rewrite E in H2. exact H2.
  Qed.
  Lemma sim_flags1 t l1 l2 : sim (t :: l1) l2 -> live (t :: l1) ->
    is_comment t = false /\ is_onoff t = false /\ is_tt BYTEORDER_MARK t = false /\ (is_ws t = true -> forallb is_aspace (spelling t) = true).
  Proof.
    intros (p1 & p2 & E & -> & F & C1 & C2 & HR) Hl. destruct (live_tail _ _ _ E Hl) as (p' & -> & ->). eapply calm_flags; eauto.
  Qed.
  Lemma sim_flags2 l1 u l2 : sim l1 (u :: l2) -> live l1 ->
    is_comment u = false /\ is_onoff u = false /\ is_tt BYTEORDER_MARK u = false /\ (is_ws u = true -> forallb is_aspace (spelling u) = true).
  Proof.
    intros (p1 & p2 & -> & E & F & C1 & C2 & HR) Hl. apply live_nows in Hl. destruct p2 as [|u' p2]; [inversion F; congruence|].
    cbn [app] in E. injection E as <- ->. eapply calm_flags; eauto.
  Qed.
  Lemma tsim_tt k t u : tsim t u -> is_tt k t = is_tt k u.
  Proof. intros (H & _). unfold is_tt. now rewrite H. Qed.
  Lemma tsim_upper t u : tsim t u -> upper (spelling t) = upper (spelling u).
  Proof. intros (_ & H & _). now apply lower_to_upper. Qed.
  Lemma tsim_break t u bs : tsim t u -> should_break t bs = should_break u bs.
  Proof.
    intros H. unfold should_break. induction bs as [|b bs IH]; [reflexivity|]. cbn [existsb]. rewrite IH. f_equal.
    destruct b as [|kws]; cbn [breaks]; [now apply tsim_tt|]. now rewrite (tsim_upper _ _ H).
  Qed.
  Lemma tsim_kwarg t u : tsim t u -> normalized_kwarg t = normalized_kwarg u.
  Proof.
    intros H. unfold normalized_kwarg. rewrite !(tsim_tt _ _ _ H), (tsim_upper _ _ H).
    destruct H as (_ & H & _). rewrite (lower_startswith_dash _ _ H), H. reflexivity.
  Qed.
  Lemma tsim_kwarg_in t u l : tsim t u -> kwarg_in t l = kwarg_in u l.
  Proof. intros H. unfold kwarg_in. now rewrite (tsim_kwarg _ _ H). Qed.
  Lemma calm_tag t g : is_comment t = false -> tag_in t g = false.
  Proof.
    intros H. unfold tag_in, get_tag. unfold is_comment in H. destruct (tt t); try discriminate H; reflexivity.
  Qed.

  (** blank tokens are skipped *)
  Definition bsok (bs : list breaker) : Prop :=
    forall t, is_ws t = true -> forallb is_aspace (spelling t) = true -> should_break t bs = false.
  Lemma bsok_nil : bsok nil. Proof. intros t _ _. reflexivity. Qed.
  Lemma bsok_paren : bsok [BParen].
  Proof. intros t Hw _. unfold should_break. cbn [existsb breaks]. unfold is_ws in Hw. unfold is_tt. destruct (tt t); try discriminate Hw; reflexivity. Qed.
  Lemma bsok_app a b : bsok a -> bsok b -> bsok (a ++ b).
  Proof. intros Ha Hb t Hw Hs. unfold should_break. rewrite existsb_app. specialize (Ha t Hw Hs). specialize (Hb t Hw Hs). unfold should_break in *. now rewrite Ha, Hb. Qed.
  Lemma bsok_kw kws : forallb kwok kws = true -> bsok [kwbreaker kws].
  Proof.
    intros H t Hw Hs. unfold should_break, kwbreaker. cbn [existsb breaks]. rewrite orb_false_r. apply Bool.not_true_is_false. intros E.
    unfold smem in E. apply existsb_exists in E as (k & Hin & E). apply seqb_eq in E. apply in_map_iff in Hin as (k' & <- & Hin).
    rewrite forallb_forall in H. specialize (H _ Hin). unfold kwok in H. rewrite <- (upper_aspace k'), <- E, upper_aspace, Hs in H. discriminate.
  Qed.
  Lemma bsok_kws extra : forallb (forallb kwok) extra = true -> bsok (map kwbreaker extra).
  Proof.
    induction extra as [|e extra IH]; [intros; apply bsok_nil|]. cbn [forallb map]. intros H. apply andb_prop in H as [H1 H2].
    change (kwbreaker e :: map kwbreaker extra) with ([kwbreaker e] ++ map kwbreaker extra). apply bsok_app; [now apply bsok_kw|auto].
  Qed.

  Lemma trailing_live p R : calm p = true -> nows p <> nil -> consume_trailing ctx (p ++ R) = (nil, p ++ R).
  Proof.
    intros H Hn. unfold consume_trailing.
    assert (E : next_is_trailing ctx (p ++ R) = false); [|now rewrite E].
    assert (G : forall l, calm l = true -> nows l <> nil -> next_is_explicit ctx (l ++ R) = false).
    { clear. induction l as [|t l IH]; intros H Hn; [now destruct Hn|]. pose proof (calm_flags _ _ H) as (A & _).
      cbn [app next_is_explicit]. destruct (is_ws t) eqn:Ew.
      - apply IH; [eapply calm_tl; eauto|]. cbn [nows filter] in Hn. unfold nonws at 1 in Hn. now rewrite Ew in Hn.
      - unfold is_comment in A. unfold is_tt. destruct (tt t); try discriminate A; reflexivity. }
    assert (V : forall t l, calm (t :: l) = true -> is_valid_trailing t = false).
    { intros t l Hc. apply calm_flags in Hc as (A & _). unfold is_valid_trailing. now rewrite A. }
    unfold next_is_trailing. destruct p as [|t0 r]; [now destruct Hn|]. rewrite (G _ H Hn). cbn [app]. rewrite (V _ _ H). cbn [orb].
    destruct r as [|t1 r].
    - cbn [app]. destruct R; [reflexivity|]. cbn [nows filter] in Hn. unfold nonws at 1 in Hn.
      replace (is_tt WHITESPACE t0) with false; [reflexivity|]. unfold is_ws in Hn. unfold is_tt. destruct (tt t0); try reflexivity; now destruct Hn.
    - cbn [app]. rewrite (V t1 r); [apply andb_false_r|]. eapply calm_tl; eauto.
  Qed.
  Lemma sim_trail1 l1 l2 : sim l1 l2 -> live l1 -> consume_trailing ctx l1 = (nil, l1).
  Proof. intros (p1 & p2 & -> & -> & F & C1 & C2 & HR) Hl. apply trailing_live; auto. now apply live_nows. Qed.
  Lemma sim_trail2 l1 l2 : sim l1 l2 -> live l1 -> consume_trailing ctx l2 = (nil, l2).
  Proof.
    intros (p1 & p2 & -> & -> & F & C1 & C2 & HR) Hl. apply trailing_live; auto. apply live_nows in Hl. intros E. rewrite E in F. inversion F. congruence.
  Qed.

  (** ** Nodes that differ in blanks only *)
  Definition blankn (n : pnode) : Prop :=
    match n with T t => is_ws t = true | N KWhitespace cs => forallb is_ws (flats cs) = true | _ => False end.
  Inductive lsim : list pnode -> list pnode -> Prop :=
  | ls_nil : lsim nil nil
  | ls_l x a b : blankn x -> lsim a b -> lsim (x :: a) b
  | ls_r y a b : blankn y -> lsim a b -> lsim a (y :: b)
  | ls_t t u a b : tsim t u -> lsim a b -> lsim (T t :: a) (T u :: b)
  | ls_n k cs ds a b : lsim cs ds -> lsim a b -> lsim (N k cs :: a) (N k ds :: b).
  Definition nsim (x y : pnode) : Prop := exists k cs ds, x = N k cs /\ y = N k ds /\ lsim cs ds.
  Lemma lsim_app a b : lsim a b -> forall c d, lsim c d -> lsim (a ++ c) (b ++ d).
  Proof. induction 1; intros c' d' Hd; cbn [app]; auto; [apply ls_l|apply ls_r|apply ls_t|apply ls_n]; auto. Qed.
  Lemma lsim_l a b x : lsim a b -> blankn x -> lsim (a ++ [x]) b.
  Proof. intros H Hx. rewrite <- (app_nil_r b). apply lsim_app; auto. apply ls_l; auto. constructor. Qed.
  Lemma lsim_node a b x y : lsim a b -> nsim x y -> lsim (a ++ [x]) (b ++ [y]).
  Proof. intros H (k & cs & ds & -> & -> & Hc). apply lsim_app; auto. apply ls_n; auto. constructor. Qed.
  Lemma lsim_ws2 ws : forallb is_ws ws = true -> lsim nil (map T ws).
  Proof. induction ws as [|w ws IH]; [intros; constructor|]. cbn [forallb map]. intros H. apply andb_prop in H as [H1 H2]. apply ls_r; auto. Qed.
  Lemma lsim_ws1 ws : forallb is_ws ws = true -> lsim (map T ws) nil.
  Proof. induction ws as [|w ws IH]; [intros; constructor|]. cbn [forallb map]. intros H. apply andb_prop in H as [H1 H2]. apply ls_l; auto. Qed.
  Lemma lsim_r a b ws : lsim a b -> forallb is_ws ws = true -> lsim a (b ++ map T ws).
  Proof. intros H Hw. rewrite <- (app_nil_r a). apply lsim_app; auto. now apply lsim_ws2. Qed.
  Lemma lsim_wss a b : forallb is_ws a = true -> forallb is_ws b = true -> lsim (map T a) (map T b).
  Proof. intros Ha Hb. change (map T b) with (nil ++ map T b). rewrite <- (app_nil_r (map T a)). apply lsim_app; [now apply lsim_ws1|now apply lsim_ws2]. Qed.
  Lemma nsim_arg k t u tr1 tr2 : tsim t u -> lsim tr1 tr2 -> nsim (N k (T t :: tr1)) (N k (T u :: tr2)).
  Proof. intros H Ht. exists k, (T t :: tr1), (T u :: tr2). repeat split; auto. apply ls_t; auto. Qed.
  Lemma nsim_wrap k a b : lsim a b -> nsim (N k a) (N k b).
  Proof. intros. exists k, a, b. auto. Qed.

  Lemma take_ws_split toks : forall a r, take_ws toks = (a, r) ->
    exists ws, toks = ws ++ r /\ a = map T ws /\ forallb is_ws ws = true /\ match r with t :: _ => is_ws t = false | nil => True end.
  Proof.
    induction toks as [|t toks IH]; intros a r.
    - intros H. injection H as <- <-. exists nil. auto.
    - cbn [take_ws]. destruct (is_ws t) eqn:E.
      + destruct (take_ws toks) as [a' r'] eqn:E2. intros H. injection H as <- <-. destruct (IH _ _ eq_refl) as (ws & -> & -> & Hw & Hr).
        exists (t :: ws). cbn [forallb]. rewrite E. auto.
      + intros H. injection H as <- <-. exists nil. auto.
  Qed.
  Lemma live_drop ws l : forallb is_ws ws = true -> live (ws ++ l) -> live l.
  Proof.
    induction ws as [|w ws IH]; auto. cbn [forallb app]. intros H Hl. apply andb_prop in H as [H1 H2]. apply IH; auto.
    destruct Hl as (q & E & Hn). destruct q as [|t q]; [now destruct Hn|]. cbn [app] in E. injection E as <- E. exists q. split; auto.
    cbn [nows filter] in Hn. unfold nonws at 1 in Hn. now rewrite H1 in Hn.
  Qed.
  Lemma sim_drop1 ws l1 l2 : forallb is_ws ws = true -> sim (ws ++ l1) l2 -> live (ws ++ l1) -> sim l1 l2.
  Proof.
    induction ws as [|w ws IH]; auto. cbn [forallb]. intros H Hs Hl. apply andb_prop in H as [H1 H2]. cbn [app] in Hs. apply IH; auto.
    - eapply sim_ws1; eauto.
    - apply (live_drop [w] (ws ++ l1)); auto. cbn [forallb]. now rewrite H1.
  Qed.
  Lemma sim_drop2 ws l1 l2 : forallb is_ws ws = true -> sim l1 (ws ++ l2) -> live l1 -> sim l1 l2.
  Proof.
    induction ws as [|w ws IH]; auto. cbn [forallb]. intros H Hs Hl. apply andb_prop in H as [H1 H2]. cbn [app] in Hs. apply IH; auto.
    destruct Hs as (p1 & p2 & -> & E & F & C1 & C2 & HR). apply live_nows in Hl. destruct p2 as [|u' p2]; [inversion F; congruence|].
    cbn [app] in E. injection E as <- E. exists p1, p2. repeat split; auto; [|eapply calm_tl; eauto].
    replace (nows (w :: p2)) with (nows p2) in F; auto. change (w :: p2) with ([w] ++ p2). rewrite nows_app, (nows_ws [w]); [reflexivity|]. cbn [forallb]. now rewrite H1.
  Qed.
  Lemma take_ws_sim l1 l2 a1 r1 a2 r2 : sim l1 l2 -> live l1 -> take_ws l1 = (a1, r1) -> take_ws l2 = (a2, r2) -> lsim a1 a2 /\ sim r1 r2 /\ live r1.
  Proof.
    intros H Hl E1 E2. apply take_ws_split in E1 as (w1 & -> & -> & W1 & _). apply take_ws_split in E2 as (w2 & -> & -> & W2 & _).
    split; [now apply lsim_wss|]. pose proof (live_drop _ _ W1 Hl). split; auto. eapply sim_drop2; [exact W2| |auto]. eapply sim_drop1; [exact W1|exact H|exact Hl].
  Qed.

  (** ** Suffixes and the tests whether something was consumed *)
  Definition suf (r l : list token) : Prop := exists u, l = u ++ r.
  Lemma suf_refl l : suf l l. Proof. now exists nil. Qed.
  Lemma suf_trans a b c : suf a b -> suf b c -> suf a c.
  Proof. intros (u & ->) (v & ->). exists (v ++ u). now rewrite app_assoc. Qed.
  Lemma suf_cons t a b : suf a b -> suf a (t :: b).
  Proof. intros (u & ->). now exists (t :: u). Qed.
  Lemma live_suf r l : suf r l -> live r -> live l.
  Proof. intros (u & ->) (q & -> & H). exists (u ++ q). split; [apply app_assoc|]. rewrite nows_app. intros E. apply app_eq_nil in E as [_ E]. contradiction. Qed.
  Lemma live_trail l tr r : consume_trailing ctx l = (tr, r) -> live r -> live l.
  Proof. intros H. apply trailing_QA in H. destruct H as (u & -> & _). apply live_suf. now exists u. Qed.
  Lemma suf_Q r l x : Q R_any l r x -> suf r l.
  Proof. intros (u & -> & _). now exists u. Qed.
  Lemma suf_L r l acc a : L R_any acc l a r -> suf r l.
  Proof. intros (new & _ & H). eapply suf_Q; eauto. Qed.
  Lemma suf_len t p q R : is_ws t = false -> suf (q ++ R) ((t :: p) ++ R) ->
    (List.length ((t :: p) ++ R) <=? List.length (q ++ R))%nat = (List.length (nows (t :: p)) <=? List.length (nows q))%nat.
  Proof.
    intros Hw (u & E). rewrite app_assoc in E. apply app_inv_tail in E. rewrite !app_length. destruct u as [|x u].
    - cbn [app] in E. subst q. now rewrite !Nat.leb_refl.
    - cbn [app] in E. injection E as <- ->.
      replace (nows (t :: u ++ q)) with (t :: nows (u ++ q)) by (cbn [nows filter]; unfold nonws; rewrite Hw; reflexivity).
      rewrite nows_app. cbn [List.length]. rewrite !app_length.
      destruct (Nat.leb_spec (S (List.length u + List.length q) + List.length R) (List.length q + List.length R)); destruct (Nat.leb_spec (S (List.length (nows u) + List.length (nows q))) (List.length (nows q))); auto; lia.
  Qed.
  Lemma f2_len (a b : list token) : Forall2 tsim a b -> List.length a = List.length b.
  Proof. intros F. induction F; cbn [List.length]; auto. Qed.
  Lemma sim_consumed t l1 r1 u l2 r2 : is_ws t = false -> is_ws u = false -> sim (t :: l1) (u :: l2) -> live (t :: l1) -> sim r1 r2 ->
    suf r1 (t :: l1) -> suf r2 (u :: l2) ->
    (List.length (t :: l1) <=? List.length r1)%nat = (List.length (u :: l2) <=? List.length r2)%nat.
  Proof.
    intros Hw Hu (p1 & p2 & E1 & E2 & F & _) Hl (q1 & q2 & -> & -> & G & _) S1 S2.
    destruct (live_tail _ _ _ E1 Hl) as (p & -> & ->). rewrite E2 in *. destruct p2 as [|u' p2].
    { exfalso. cbn [nows filter] in F. unfold nonws at 1 in F. rewrite Hw in F. inversion F. }
    cbn [app] in E2. injection E2 as <- ->. change (t :: p ++ R1) with ((t :: p) ++ R1) in *.
    rewrite !suf_len by auto. now rewrite (f2_len _ _ F), (f2_len _ _ G).
  Qed.

  (** ** Results *)
  Definition rsim (X : outs) (a1 : list pnode) (r1 : list token) : Prop :=
    X = OutOfFuel \/ exists a2 r2, X = Ok (a2, r2) /\ lsim a1 a2 /\ sim r1 r2.
  Definition nres (X : out) (x1 : pnode) (r1 : list token) : Prop :=
    X = OutOfFuel \/ exists x2 r2, X = Ok (x2, r2) /\ nsim x1 x2 /\ sim r1 r2.
  Lemma rsim_fuel a r : rsim OutOfFuel a r. Proof. now left. Qed.
  Lemma nres_fuel a r : nres OutOfFuel a r. Proof. now left. Qed.
  Lemma rsim_ok a1 r1 a2 r2 : lsim a1 a2 -> sim r1 r2 -> rsim (Ok (a2, r2)) a1 r1.
  Proof. right. eauto. Qed.
  Lemma nres_ok a1 r1 a2 r2 : nsim a1 a2 -> sim r1 r2 -> nres (Ok (a2, r2)) a1 r1.
  Proof. right. eauto. Qed.
  Lemma bind_nr X x1 m1 f a r : nres X x1 m1 -> (forall x2 m2, X = Ok (x2, m2) -> nsim x1 x2 -> sim m1 m2 -> rsim (f (x2, m2)) a r) ->
    rsim (bindr X f) a r.
  Proof. intros [->|(x2 & m2 & -> & Hx & Hm)] K; [now left|]. cbn [bindr]. auto. Qed.
  Lemma bind_nn X x1 m1 f a r : nres X x1 m1 -> (forall x2 m2, X = Ok (x2, m2) -> nsim x1 x2 -> sim m1 m2 -> nres (f (x2, m2)) a r) ->
    nres (bindr X f) a r.
  Proof. intros [->|(x2 & m2 & -> & Hx & Hm)] K; [now left|]. cbn [bindr]. auto. Qed.
  Lemma bind_rn X x1 m1 f a r : rsim X x1 m1 -> (forall x2 m2, X = Ok (x2, m2) -> lsim x1 x2 -> sim m1 m2 -> nres (f (x2, m2)) a r) ->
    nres (bindr X f) a r.
  Proof. intros [->|(x2 & m2 & -> & Hx & Hm)] K; [now left|]. cbn [bindr]. auto. Qed.
  Lemma bind_rr X x1 m1 f a r : rsim X x1 m1 -> (forall x2 m2, X = Ok (x2, m2) -> lsim x1 x2 -> sim m1 m2 -> rsim (f (x2, m2)) a r) ->
    rsim (bindr X f) a r.
  Proof. intros [->|(x2 & m2 & -> & Hx & Hm)] K; [now left|]. cbn [bindr]. auto. Qed.
End Blank.
