(** * PropSame: what the formatter writes is read again as the same program (C74) *)
From Verif Require Import Base Regex Lex LexProofs LexClass PropLex TextOps TextProofs Tree Parse ParseProofs ParseTerm PropParse PropTerm
  CmdSpec StdSpecs StdDb StdWf PropStd StdShape Layout LayoutProofs Pieces Markup MarkupProofs Pipeline PropCase PropFile
  ParseShape NamesShape WordShape CommentShape TidyShape Reread CommentFree PropReread ParseBlank ParseSame BodySame OutSame StdSame.
From Coq Require Import Permutation.

(** ** The structure of a file

    The parse tree without blanks and comments, with the tokens given by type and by text up
    to letter case. *)
Inductive shape := ST (t : ttype) (s : str) | SN (k : kind) (cs : list shape).
Definition blank_node (n : pnode) : bool :=
  match n with T t => is_ws t | N KWhitespace cs => forallb wsc (flats cs) | N (KComment _) _ => true | _ => false end.
Fixpoint skel (n : pnode) : shape :=
  match n with
  | T t => ST (tt t) (lower (spelling t))
  | N k cs => SN k ((fix go l := match l with
                                 | nil => nil
                                 | x :: l' => if blank_node x then go l' else skel x :: go l'
                                 end) cs)
  end.
Fixpoint skels (l : list pnode) : list shape :=
  match l with nil => nil | x :: l' => if blank_node x then skels l' else skel x :: skels l' end.
Lemma skel_eq k cs : skel (N k cs) = SN k (skels cs).
Proof. reflexivity. Qed.

Lemma csim_blank ctx cs ds : csim ctx cs ds -> forallb wsc (flats cs) = forallb wsc (flats ds).
Proof.
  assert (G : forall x, cblank x -> forallb wsc (flat x) = true).
  { intros x [H|(k & l & -> & H & _)]; [|exact H]. destruct x as [t|k l]; cbn [blankn flat forallb] in *; [unfold wsc; now rewrite H|]. destruct k; try contradiction. now apply ws_wsc. }
  induction 1 as [|x a b Hx H IH|y a b Hy H IH|t u a b Ht H IH|k cs ds a b Hc IHc H IH]; unfold flats in *; cbn [flat_map]; auto; rewrite ?forallb_app.
  - rewrite (G _ Hx). exact IH.
  - rewrite (G _ Hy). exact IH.
  - rewrite IH. f_equal. cbn [flat forallb]. f_equal. now apply (tsim_stop ctx).
  - rewrite IH. f_equal. exact IHc.
Qed.
Lemma csim_skels ctx a b : csim ctx a b -> skels a = skels b.
Proof.
  assert (G : forall x, cblank x -> blank_node x = true).
  { intros x [H|(k & l & -> & H & _)]; [|reflexivity]. destruct x as [t|k l]; cbn [blankn blank_node] in *; [congruence|]. destruct k; try contradiction. now apply ws_wsc. }
  induction 1 as [|x a b Hx H IH|y a b Hy H IH|t u a b Ht H IH|k cs ds a b Hc IHc H IH]; cbn [skels]; auto.
  - now rewrite (G _ Hx).
  - now rewrite (G _ Hy).
  - destruct Ht as (Ht & Hs & _). cbn [blank_node skel]. replace (is_ws u) with (is_ws t) by (unfold is_ws; now rewrite Ht). now rewrite Ht, Hs, IH.
  - rewrite !skel_eq, IHc, IH. replace (blank_node (N k ds)) with (blank_node (N k cs)); [reflexivity|].
    cbn [blank_node]. destruct k; auto. eapply csim_blank; eauto.
Qed.
Lemma ncsim_skel ctx x y : ncsim ctx x y -> skel x = skel y.
Proof. intros (k & cs & ds & -> & -> & H). rewrite !skel_eq. f_equal. eapply csim_skels; eauto. Qed.

(** ** Parsing with a byte-order mark *)
Lemma parse_bom ctx l : exists n, body_loop (parse_fuel l) ctx nil nil l = body_loop n ctx nil nil (strip_bom_tok l).
Proof.
  destruct l as [|t l]; [eexists; reflexivity|]. unfold strip_bom_tok. destruct (is_tt BYTEORDER_MARK t) eqn:E; [|eexists; reflexivity].
  exists (Nat.pred (parse_fuel (t :: l))). unfold parse_fuel.
  replace (16 * List.length (t :: l) + 16)%nat with (S (16 * List.length (t :: l) + 15)) by lia.
  unfold is_tt in E. apply ttype_eqb_eq in E. cbn [body_loop Nat.pred]. unfold is_ws, is_onoff, is_tt. rewrite E. reflexivity.
Qed.
Lemma parse_csim_bom ctx (Hctx : bctx ctx) (Hwf : wfctx true ctx) l1 l2 tree1 :
  parse ctx l1 = Ok tree1 -> loops_full tree1 = true -> outside tree1 = true -> tcs ctx (strip_bom_tok l1) (strip_bom_tok l2) ->
  parse ctx l2 = OutOfFuel \/ exists tree2, parse ctx l2 = Ok tree2 /\ ncsim ctx tree1 tree2.
Proof.
  unfold parse. intros H Hl Ho Hs. destruct (parse_bom ctx l1) as (n1 & E1). destruct (parse_bom ctx l2) as (n2 & E2). rewrite E1 in H. rewrite E2.
  apply bindr_ok in H as ([a r] & E & H). injection H as <-.
  assert (Hg : forallb good a = true) by (rewrite <- good_body; unfold good; now rewrite Hl, Ho).
  destruct (proj1 (body_sim _ Hctx Hwf _) _ _ _ _ _ E Hg n2 nil _ (tcs_lcs _ _ _ Hs) (cs_nil _)) as [E3|(a2 & r2 & E3 & Ha & _)]; rewrite E3; cbn [bindr]; [now left|].
  right. eexists. split; [reflexivity|]. now apply ncsim_wrap.
Qed.

(** ** The tokens of a comment-free file *)
Lemma lexed_calm src toks : tokenize src = Ok toks -> comment_free toks = true -> no_switch toks = true -> calm (strip_bom_tok toks) = true.
Proof.
  intros Hl Hc Hn. destruct (tokenize_strip _ _ Hl) as (_ & Hb & _). unfold calm. apply forallb_forall. intros t Hin.
  assert (Hin' : In t toks).
  { unfold strip_bom_tok in Hin. destruct toks as [|u l]; [destruct Hin|]. destruct (is_tt BYTEORDER_MARK u); [now right|exact Hin]. }
  unfold comment_free, no_switch in *. rewrite forallb_forall in Hc, Hn. specialize (Hc _ Hin'). specialize (Hn _ Hin').
  apply negb_true_iff in Hc. apply negb_true_iff in Hn. unfold no_bom in Hb. rewrite Forall_forall in Hb. specialize (Hb _ Hin).
  unfold calmt. rewrite Hc, Hn. replace (is_tt BYTEORDER_MARK t) with false by (unfold is_tt; destruct (tt t); auto; congruence).
  cbn [orb negb andb]. apply in_split in Hin' as (pre & post & E). destruct (C04_token_classes _ _ _ _ _ Hl E Hb) as [Hs _].
  unfold is_ws. destruct (tt t) eqn:Et; auto.
  - cbn in Hs |- *. destruct Hs as [_ Hs]. rewrite forallb_forall in *. intros c Hi. specialize (Hs _ Hi).
    destruct (is_aspace c) eqn:Ea; auto. apply aspace_blank in Ea. congruence.
  - cbn in Hs |- *. destruct Hs as [->|[->| ->]]; reflexivity.
Qed.
Lemma semantics_nows l : calm l = true -> semantics l = ParseBlank.nows l.
Proof. apply sem_nows. Qed.
Lemma bom_upper : upper [cBOM] = [cBOM]. Proof. reflexivity. Qed.
(** the blanks of a file *)
Lemma lexed_blanks src toks : tokenize src = Ok toks -> no_switch toks = true ->
  Forall (fun t => is_ws t = true -> calmt t = true) (strip_bom_tok toks).
Proof.
  intros Hl Hn. apply Forall_forall. intros t Hin Hw. destruct (tokenize_strip _ _ Hl) as (_ & Hb & _).
  assert (Hin' : In t toks).
  { unfold strip_bom_tok in Hin. destruct toks as [|u l]; [destruct Hin|]. destruct (is_tt BYTEORDER_MARK u); [now right|exact Hin]. }
  unfold no_bom in Hb. rewrite Forall_forall in Hb. specialize (Hb _ Hin).
  apply in_split in Hin' as (pre & post & E). destruct (C04_token_classes _ _ _ _ _ Hl E Hb) as [Hs _].
  unfold calmt, is_comment, is_onoff, is_tt. rewrite Hw. unfold is_ws in Hw. destruct (tt t) eqn:Et; try discriminate Hw.
  - cbn in Hs |- *. destruct Hs as [_ Hs]. rewrite forallb_forall in *. intros c Hi. specialize (Hs _ Hi).
    destruct (is_aspace c) eqn:Ea; auto. apply aspace_blank in Ea. congruence.
  - cbn in Hs |- *. destruct Hs as [->|[->| ->]]; reflexivity.
Qed.
(** comments stand where comments stood *)
Lemma places_tcs ctx a b : places a b -> no_bom a -> no_bom b -> Forall2 (tsim ctx) (semantics a) (semantics b) -> tcs ctx a b.
Proof.
  assert (G : forall t, is_semantic t = true -> tt t <> BYTEORDER_MARK -> is_ws t = false /\ calmt t = true).
  { intros t. unfold calmt, is_semantic, is_ws, is_comment, is_onoff, is_tt. destruct (tt t); try discriminate; auto; congruence. }
  intros H. induction H as [|t u a b Ht Hu H IH|k a b Hk H IH|k d a b Hk Hd H IH]; intros Ha Hb F; [constructor| | |].
  - inversion Ha as [|? ? A1 A2]; subst. inversion Hb as [|? ? B1 B2]; subst. cbn [semantics filter] in F. rewrite Ht, Hu in F. inversion F; subst.
    destruct (G _ Ht A1), (G _ Hu B1). apply tc_t; auto.
  - inversion Ha; subst. cbn [semantics filter] in F. rewrite (comment_nonsem _ Hk) in F. apply tc_cl; auto.
  - inversion Hb; subst. assert (F' : Forall2 (tsim ctx) (semantics (k :: a)) (semantics b)) by (cbn [semantics filter] in F |- *; now rewrite (comment_nonsem _ Hd) in F).
    apply tc_cr; auto.
Qed.
Lemma tcs_condok ctx a b : tcs ctx a b -> condok a -> Forall (fun t => is_comment t = true -> startswith $"#" (spelling t) = true) b -> condok b.
Proof.
  assert (Gw : forall w, is_ws w = true -> calmt w = true -> ~ smem (upper (spelling w)) cond_words = true).
  { intros w Hw Hc Hm. unfold calmt in Hc. rewrite Hw in Hc. cbn [implb] in Hc. apply andb_prop in Hc as [_ Hb]. rewrite <- upper_aspace in Hb.
    unfold smem in Hm. apply existsb_exists in Hm as (v & Hv & E). apply seqb_eq in E. rewrite E in Hb. cbn in Hv. destruct Hv as [<-|[<-|[]]]; discriminate Hb. }
  assert (Gc : forall d, startswith $"#" (spelling d) = true -> ~ smem (upper (spelling d)) cond_words = true).
  { intros d Hd Hm. destruct (spelling d) as [|x s]; [discriminate|]. change (N.eqb cHASH x && true = true) in Hd. apply andb_prop in Hd as [Hd _]. apply N.eqb_eq in Hd. subst x.
    unfold smem in Hm. apply existsb_exists in Hm as (v & Hv & E). apply seqb_eq in E. cbn in Hv, E. destruct Hv as [<-|[<-|[]]]; discriminate E. }
  intros H. induction H as [|w a b W C H IH|w a b W C H IH|t u a b W C C' Ht H IH|k a b Hk H IH|k d a b Hk Hd H IH]; intros Ha Hb; [constructor| | | | |].
  - inversion Ha; subst. now apply IH.
  - inversion Hb; subst. constructor; [|now apply IH]. intros Hm. destruct (Gw _ W C Hm).
  - inversion Ha as [|? ? A1 A2]; subst. inversion Hb as [|? ? B1 B2]; subst. constructor; [|now apply IH]. destruct Ht as (E1 & E2 & _). intros Hm. rewrite <- E1. apply A1. now rewrite (lower_to_upper _ _ E2).
  - inversion Ha; subst. now apply IH.
  - inversion Hb as [|? ? B1 B2]; subst. constructor; [|now apply IH]. intros Hm. destruct (Gc _ (B1 Hd) Hm).
Qed.
Lemma bom_condok src' toks' : tokenize src' = Ok toks' -> condok (strip_bom_tok toks') -> condok toks'.
Proof.
  intros Hl G. destruct toks' as [|t l]; auto. unfold strip_bom_tok in G. destruct (is_tt BYTEORDER_MARK t) eqn:E; auto. constructor; auto.
  unfold is_tt in E. apply ttype_eqb_eq in E. destruct (tokenize_strip _ _ Hl) as (_ & Hb & _ & Hx). unfold strip_bom_tok, is_tt in Hx. rewrite E in Hx. cbn [ttype_eqb] in Hx.
  destruct Hx as [Hx|Hx]; [exfalso; apply (f_equal (@List.length _)) in Hx; cbn in Hx; lia|]. injection Hx as ->. intros H. vm_compute in H. discriminate.
Qed.

(** ** C74 *)

(** A token that keeps its text: it has no line with trailing blanks and no
    carriage return or tab that the formatter would change. *)
Definition level (t : token) : bool := seqb (normalize (spelling t)) (spelling t).
(** The words whose letter case the formatter may change. *)
Definition recased (k : kind) : bool := match k with KFunname | KKeyword | KFlag => true | _ => false end.
(** None of them is a tagged variable in one casing and not in another. *)
Definition tags_quiet (ctx : pctx) (tree : pnode) : Prop :=
  forall k t m s, In (k, t) (roles (create_box tree)) -> recased k = true -> In m (vartags ctx) ->
  lower s = lower (spelling t) -> fst m s = fst m (spelling t).

Lemma free_clean toks : comment_free toks = true -> no_switch toks = true -> comments_clean toks = true.
Proof.
  assert (G : forall t, is_comment t = false -> is_onoff t = false -> odd t = false).
  { intros t. unfold odd, is_comment, is_onoff, is_tt. destruct (tt t); auto; discriminate. }
  assert (K : forall t r, comment_free (t :: r) = true -> no_switch (t :: r) = true -> odd t = false /\ is_tt COMMENT t = false /\ comment_free r = true /\ no_switch r = true).
  { intros t r. unfold comment_free, no_switch. cbn [forallb]. intros H1 H2. apply andb_prop in H1 as [A B]. apply andb_prop in H2 as [C D].
    apply negb_true_iff in A. apply negb_true_iff in C. repeat split; auto. unfold is_comment, is_tt in *. destruct (tt t); auto; discriminate. }
  induction toks as [|t r IH]; [reflexivity|]. intros H1 H2. destruct (K _ _ H1 H2) as (_ & A & B & C). cbn [comments_clean].
  rewrite A, (IH B C), !andb_true_r. apply orb_true_iff. right. destruct r as [|n r]; [reflexivity|].
  destruct (K _ _ B C) as (D & _ & E & F). cbn [no_odd_next]. rewrite D. cbn [negb andb]. destruct (is_tt WHITESPACE n); auto.
  destruct r as [|x r]; auto. destruct (K _ _ E F) as (D' & _). now rewrite D'.
Qed.
Lemma paren_case s c : (c = cLP \/ c = cRP) -> lower s = [c] -> s = [c].
Proof.
  intros Hc. destruct s as [|a [|b s]]; try discriminate. unfold lower. cbn [map]. intros H. injection H as H. f_equal.
  unfold loc in H. destruct ((65 <=? a) && (a <=? 90))%N eqn:E; auto. rewrite andb_true_iff, !N.leb_le in E. unfold cLP, cRP in *. lia.
Qed.
Lemma in_strip t toks : In t (strip_bom_tok toks) -> In t toks.
Proof. unfold strip_bom_tok. destruct toks as [|u l]; auto. destruct (is_tt BYTEORDER_MARK u); auto. now right. Qed.
Lemma switch_onoff toks : no_switch toks = true -> no_onoff toks.
Proof. intros Hno. unfold no_switch in Hno. rewrite forallb_forall in Hno. apply Forall_forall. intros t Hin. apply Hno in Hin. now apply negb_true_iff. Qed.
Lemma file_csim c specs tbl src text v :
  run_cfg c specs tbl -> p_usetabs c = false -> f_endl (effective c src) = [cNL] -> markup_calm (p_markup c) ->
  f_autosort (p_fmt c) = false ->
  process_file c src = Ok (text, v) ->
  forall toks tree, tokenize src = Ok toks -> parse (p_ctx c) toks = Ok tree ->
  comments_plain c toks -> outside tree = true -> no_switch toks = true -> steady_file c toks ->
  forallb settled (strip_bom_tok toks) = true -> forallb level (semantics (strip_bom_tok toks)) = true ->
  tags_quiet (p_ctx c) tree ->
  exists toks', tokenize text = Ok toks' /\ no_switch toks' = true /\ (comment_free toks = true -> comment_free toks' = true)
    /\ tcs (p_ctx c) (strip_bom_tok toks) (strip_bom_tok toks').
Proof.
  intros R Ht He Hc Ha H toks tree Hl Hp Hpl Hout Hno Hst Hse Hlev Hq.
  destruct (file_reread _ _ _ _ _ _ R Ht He Hc H toks Hl Hpl Hno Hst) as (tree0 & toks1 & ws & Hp0 & Hl1 & _ & Es & _ & Ew & F & _ & Hroles & Hplace).
  destruct (C73_file_tokens _ _ _ _ _ _ R Ht He Hc Ha H toks Hl Hpl Hno Hst Hse) as (toks' & Hl' & Hno' & Hf' & F2).
  rewrite Hl' in Hl1. injection Hl1 as <-. rewrite Hp in Hp0. injection Hp0 as <-. specialize (Ew Ha). subst ws. specialize (Hplace Ha).
  exists toks'. repeat (split; [assumption|]).
  assert (Fs : Forall2 (tsim (p_ctx c)) (semantics (strip_bom_tok toks)) (semantics (strip_bom_tok toks'))).
  { rewrite <- Es in *.
    assert (Hin : forall r, In r (filter sem_role (roles (create_box tree))) -> In r (roles (create_box tree))).
    { intros r Hr. now apply filter_In in Hr. }
    clear -F F2 Hlev Hin Hq. revert F2 Hlev Hin. induction F as [|r t' rs ts Hr _ IH]; intros F2 Hlev Hin; [constructor|].
    cbn [map forallb] in *. inversion F2 as [|? ? ? ? [E1 E2] F3]; subst. apply andb_prop in Hlev as [L1 L2].
    constructor; [|apply IH; auto; intros x Hx; apply Hin; now right]. unfold level in L1. apply seqb_eq in L1. rewrite L1 in E2.
    split; [now symmetry|]. split; [now symmetry|]. intros m Hm.
    destruct r as [k t]. cbn [fst snd] in *. destruct (recased k) eqn:Ek.
    - symmetry. eapply Hq; eauto. apply Hin. now left.
    - unfold reread_as in Hr. cbn [fst snd] in Hr. rewrite L1 in Hr. destruct k; try discriminate Ek; try (exfalso; exact Hr); destruct Hr as [Hr1 Hr2]; try (now rewrite Hr2).
      + assert (spelling t = $"(") as -> by (apply (paren_case _ cLP); [now left|]; rewrite <- E2; destruct Hr2 as [_ ->]; reflexivity). now destruct Hr2 as [_ ->].
      + assert (spelling t = $")") as -> by (apply (paren_case _ cRP); [now right|]; rewrite <- E2; destruct Hr2 as [_ ->]; reflexivity). now destruct Hr2 as [_ ->]. }
  pose proof R as ((ex & vt & Hctx) & Hut & _).
  assert (Hw : wfctx true (p_ctx c)) by (rewrite Hctx; eapply std_wfctx; eauto).
  destruct (tokenize_strip _ _ Hl) as (_ & Hb & _). destruct (tokenize_strip _ _ Hl') as (_ & Hb' & _).
  rewrite Hroles in Hplace. change TidyShape.nonws with ParseBlank.nonws in Hplace.
  change (filter ParseBlank.nonws (flat tree)) with (ParseBlank.nows (flat tree)) in Hplace.
  rewrite (parse_keeps _ Hw _ _ Hp Hout (switch_onoff _ Hno) Hb) in Hplace.
  apply tcs_blanks; [eapply lexed_blanks; eauto|eapply lexed_blanks; eauto|]. apply places_tcs; auto.
  - unfold no_bom in *. rewrite Forall_forall in *. intros t Hi. apply filter_In in Hi as [Hi _]. auto.
  - unfold no_bom in *. rewrite Forall_forall in *. intros t Hi. apply filter_In in Hi as [Hi _]. auto.
  - assert (Hss : forall l, semantics (filter ParseBlank.nonws l) = semantics l).
    { clear. unfold semantics. induction l as [|t l IH]; auto. cbn [filter]. unfold ParseBlank.nonws at 1. destruct (is_ws t) eqn:Ew; cbn [negb].
      - rewrite IH. now rewrite (nonsem_ws _ Ew).
      - cbn [filter]. now rewrite IH. }
    change (ParseBlank.nows (strip_bom_tok toks)) with (filter ParseBlank.nonws (strip_bom_tok toks)). rewrite !Hss. exact Fs.
Qed.
Lemma file_parsed c specs tbl src text v :
  run_cfg c specs tbl -> table_nb tbl = true ->
  p_usetabs c = false -> f_endl (effective c src) = [cNL] -> markup_calm (p_markup c) ->
  f_autosort (p_fmt c) = false ->
  process_file c src = Ok (text, v) ->
  forall toks tree, tokenize src = Ok toks -> parse (p_ctx c) toks = Ok tree ->
  comments_plain c toks -> outside tree = true -> no_switch toks = true -> steady_file c toks ->
  forallb settled (strip_bom_tok toks) = true -> forallb level (semantics (strip_bom_tok toks)) = true ->
  tags_quiet (p_ctx c) tree -> loops_full tree = true -> condok toks ->
  exists toks' tree', tokenize text = Ok toks' /\ no_switch toks' = true /\ (comment_free toks = true -> comment_free toks' = true)
    /\ parse (p_ctx c) toks' = Ok tree' /\ ncsim (p_ctx c) tree tree'.
Proof.
  intros R Hnb Ht He Hc Ha H toks tree Hl Hp Hpl Hout Hno Hst Hse Hlev Hq Hfull Hco.
  destruct (file_csim _ _ _ _ _ _ R Ht He Hc Ha H toks tree Hl Hp Hpl Hout Hno Hst Hse Hlev Hq) as (toks' & Hl' & Hn' & Hf' & Hs).
  pose proof R as ((ex & vt & Hctx) & Hut & _).
  assert (Hb : bctx (p_ctx c)) by (rewrite Hctx; now apply std_bctx).
  assert (Hw : wfctx true (p_ctx c)) by (rewrite Hctx; eapply std_wfctx; eauto).
  destruct (parse_csim_bom _ Hb Hw _ _ _ Hp Hfull Hout Hs) as [E|(tree' & E & Hn)].
  - exfalso. revert E. apply C07_parse_terminates_partial; auto. eapply bom_condok; [exact Hl'|]. eapply tcs_condok; [exact Hs| |].
    + unfold condok in *. rewrite Forall_forall in *. intros t Hin. apply Hco. now apply in_strip.
    + pose proof (lexed_hashed _ _ Hl') as Hh. rewrite Forall_forall in *. intros t Hin. apply Hh. now apply in_strip.
  - exists toks', tree'. auto.
Qed.
(** without comments *)
Lemma file_free c specs tbl src text v :
  run_cfg c specs tbl -> table_nb tbl = true ->
  p_usetabs c = false -> f_endl (effective c src) = [cNL] -> markup_calm (p_markup c) ->
  f_autosort (p_fmt c) = false ->
  process_file c src = Ok (text, v) ->
  forall toks tree, tokenize src = Ok toks -> parse (p_ctx c) toks = Ok tree ->
  comment_free toks = true -> no_switch toks = true -> steady_file c toks ->
  forallb settled (strip_bom_tok toks) = true -> forallb level (semantics (strip_bom_tok toks)) = true ->
  tags_quiet (p_ctx c) tree -> loops_full tree = true -> condok toks ->
  exists toks', tokenize text = Ok toks' /\ comment_free toks' = true /\ no_switch toks' = true
    /\ exists tree', parse (p_ctx c) toks' = Ok tree' /\ nsim (p_ctx c) tree tree'.
Proof.
  intros R Hnb Ht He Hc Ha H toks tree Hl Hp Hfree Hno Hst Hse Hlev Hq Hfull Hco.
  assert (Hpl : comments_plain c toks) by (eapply clean_plain; eauto; now apply free_clean).
  pose proof R as ((ex & vt & Hctx) & Hut & _).
  assert (Hqt : forall s tk tr, tokenize s = Ok tk -> parse (p_ctx c) tk = Ok tr -> no_switch tk = true -> comment_free tk = true -> quiet (flat tr) = true).
  { intros s tk tr El Ep En Ef. rewrite Hctx in Ep. destruct (C05_file_tuples_partial ex vt specs tbl Hut _ _ _ El (switch_onoff _ En) Ep) as [HP _].
    unfold quiet. unfold comment_free in Ef. rewrite forallb_forall in *. intros t Hin. apply Ef. apply in_strip. eapply Permutation_in; [apply Permutation_sym; exact HP|exact Hin]. }
  pose proof (Hqt _ _ _ Hl Hp Hno Hfree) as Hqu.
  destruct (file_parsed _ _ _ _ _ _ R Hnb Ht He Hc Ha H toks tree Hl Hp Hpl (quiet_out _ Hqu) Hno Hst Hse Hlev Hq Hfull Hco) as (toks' & tree' & Hl' & Hn' & Hf' & Hp' & Hnc).
  specialize (Hf' Hfree). exists toks'. repeat (split; [assumption|]). exists tree'. split; auto. apply ncsim_nsim; auto. eapply Hqt; eauto.
Qed.

(** C74, for files without format switches in which comments stand only outside
    statements - between statements, or behind the closing parenthesis of one -
    whose texts are steady (see [steady], [settled], [level]) and in which every
    foreach has values: the output is accepted by the lexer and by the parser, and
    its structure is that of the file - the same statements, blocks, argument
    groups, keyword groups and arguments. *)
Theorem C74_file_structure_partial c specs tbl src text v :
  run_cfg c specs tbl -> table_nb tbl = true ->
  p_usetabs c = false -> f_endl (effective c src) = [cNL] -> markup_calm (p_markup c) ->
  f_autosort (p_fmt c) = false ->
  process_file c src = Ok (text, v) ->
  forall toks tree, tokenize src = Ok toks -> parse (p_ctx c) toks = Ok tree ->
  comments_plain c toks -> outside tree = true -> no_switch toks = true -> steady_file c toks ->
  forallb settled (strip_bom_tok toks) = true -> forallb level (semantics (strip_bom_tok toks)) = true ->
  tags_quiet (p_ctx c) tree -> loops_full tree = true -> condok toks ->
  exists toks' tree', tokenize text = Ok toks' /\ parse (p_ctx c) toks' = Ok tree' /\ skel tree' = skel tree.
Proof.
  intros R Hnb Ht He Hc Ha H toks tree Hl Hp Hpl Hout Hno Hst Hse Hlev Hq Hfull Hco.
  destruct (file_parsed _ _ _ _ _ _ R Hnb Ht He Hc Ha H toks tree Hl Hp Hpl Hout Hno Hst Hse Hlev Hq Hfull Hco) as (toks' & tree' & Hl' & Hn' & Hf' & Hp' & Hnc).
  exists toks', tree'. repeat (split; [assumption|]). symmetry. eapply ncsim_skel; eauto.
Qed.

(** The hypotheses hold of this file. *)
Definition src_same : str := cBOM :: nl
  [$"IF(NOT (A AND ""a;b""))"; $"";
   $"  myfun(x FAST SRC z.c y.c"; $"    w.c ${dir}/v.c [=["; $" text ]=])"; $"Endif() FOREACH(i RANGE 3)"; $"EndForeach()";
   $"set_target_properties(foo PROPERTIES A b"; $"C d) add_custom_target(x ALL COMMAND rm -f x COMMENT ""bye"")"].
Definition same_src (c : pcfg) (src : str) : bool :=
  match tokenize src with
  | Ok toks => match parse (p_ctx c) toks with
               | Ok tree => comment_free toks && no_switch toks && forallb steady (roles (create_box tree))
                            && forallb settled (strip_bom_tok toks) && forallb level (semantics (strip_bom_tok toks))
                            && loops_full tree
                            && forallb (fun t => implb (smem (upper (spelling t)) cond_words) (is_tt WORD t)) toks
               | _ => false
               end
  | _ => false
  end.
Lemma same_srced c src toks tree : tokenize src = Ok toks -> parse (p_ctx c) toks = Ok tree -> same_src c src = true ->
  comment_free toks = true /\ no_switch toks = true /\ steady_file c toks /\ forallb settled (strip_bom_tok toks) = true
  /\ forallb level (semantics (strip_bom_tok toks)) = true /\ loops_full tree = true /\ condok toks.
Proof.
  intros Hl Hp H. unfold same_src in H. rewrite Hl, Hp in H. repeat (apply andb_prop in H as [H ?]). repeat split; auto.
  - intros tree' Hp'. rewrite Hp in Hp'. now injection Hp' as <-.
  - apply Forall_forall. rewrite forallb_forall in *. intros t Hin Hm. match goal with F : forall x, In x toks -> implb _ _ = true |- _ => specialize (F _ Hin); rewrite Hm in F end.
    cbn [implb] in *. unfold is_tt in *. now apply ttype_eqb_eq.
Qed.
Definition flat_fcfg : fcfg :=
  FCfg 28 4 2 6 2 2 4 10 true false true $"prefix-indent" false $"lower"
       (fun _ => $"upper") lower nil nil [cNL].
Definition flat_pcfg : pcfg :=
  PCfg flat_fcfg default_mcfg (std_ctx no_explicit nil user_tbl) false true false UseSpace.
Example flat_run : run_cfg flat_pcfg user_specs user_tbl.
Proof.
  split; [exists no_explicit, nil; reflexivity|]. repeat (split; [vm_compute; reflexivity|]).
  split; [|split; [apply default_markup_ok|split; [vm_compute; discriminate|now left]]].
  split; intros s; [right; now left|apply lower_lower].
Qed.
(** with comments outside statements *)
Definition src_near : str := cBOM :: nl
  [$"#   a file"; $""; $"#[[ in short ]]"; $"IF(NOT (A AND ""a;b""))   # perhaps it is wise to wait until"; $"";
   $"  myfun(x FAST SRC z.c y.c"; $"    w.c ${dir}/v.c [=["; $" text ]=]) # - one"; $"           # - two"; $""; $"   # the end"; $"Endif() FOREACH(i RANGE 3)"; $"EndForeach()";
   $"set_target_properties(foo PROPERTIES A b"; $"C d) add_custom_target(x ALL COMMAND rm -f x COMMENT ""bye"")"; $"#last"].
Definition near_src (c : pcfg) (src : str) : bool :=
  match tokenize src with
  | Ok toks => match parse (p_ctx c) toks with
               | Ok tree => comments_clean toks && outside tree && no_switch toks && forallb steady (roles (create_box tree))
                            && forallb settled (strip_bom_tok toks) && forallb level (semantics (strip_bom_tok toks))
                            && loops_full tree
                            && forallb (fun t => implb (smem (upper (spelling t)) cond_words) (is_tt WORD t)) toks
               | _ => false
               end
  | _ => false
  end.
Lemma near_srced c specs tbl src toks tree : run_cfg c specs tbl -> tokenize src = Ok toks -> parse (p_ctx c) toks = Ok tree -> near_src c src = true ->
  comments_plain c toks /\ outside tree = true /\ no_switch toks = true /\ steady_file c toks /\ forallb settled (strip_bom_tok toks) = true
  /\ forallb level (semantics (strip_bom_tok toks)) = true /\ loops_full tree = true /\ condok toks.
Proof.
  intros R Hl Hp H. unfold near_src in H. rewrite Hl, Hp in H. repeat (apply andb_prop in H as [H ?]). repeat split; auto.
  - eapply clean_plain; eauto.
  - intros tree' Hp'. rewrite Hp in Hp'. now injection Hp' as <-.
  - apply Forall_forall. rewrite forallb_forall in *. intros t Hin Hm. match goal with F : forall x, In x toks -> implb _ _ = true |- _ => specialize (F _ Hin); rewrite Hm in F end.
    cbn [implb] in *. unfold is_tt in *. now apply ttype_eqb_eq.
Qed.
Example C74_ex : exists toks tree text toks' tree',
  tokenize src_near = Ok toks /\ parse (p_ctx flat_pcfg) toks = Ok tree /\ table_nb user_tbl = true
  /\ comments_plain flat_pcfg toks /\ outside tree = true /\ no_switch toks = true /\ steady_file flat_pcfg toks
  /\ forallb settled (strip_bom_tok toks) = true /\ forallb level (semantics (strip_bom_tok toks)) = true
  /\ tags_quiet (p_ctx flat_pcfg) tree /\ loops_full tree = true /\ condok toks
  /\ process_file flat_pcfg src_near = Ok (text, true) /\ text <> src_near
  /\ tokenize text = Ok toks' /\ parse (p_ctx flat_pcfg) toks' = Ok tree' /\ skel tree' = skel tree /\ comment_free toks = false.
Proof.
  assert (H : exists toks, tokenize src_near = Ok toks /\ comment_free toks = false) by (eexists; split; vm_compute; reflexivity). destruct H as (toks & H & Hcf).
  assert (Hp : exists tree, parse (p_ctx flat_pcfg) toks = Ok tree) by (clear Hcf; vm_compute in H; injection H as <-; eexists; vm_compute; reflexivity). destruct Hp as [tree Hp].
  assert (Hx : exists text, process_file flat_pcfg src_near = Ok (text, true)) by (eexists; vm_compute; reflexivity). destruct Hx as [text Hx].
  destruct (near_srced _ _ _ _ _ _ flat_run H Hp ltac:(vm_compute; reflexivity)) as (A & A' & B & C & D & E & F & G).
  assert (Q : tags_quiet (p_ctx flat_pcfg) tree) by (intros k t m s _ _ []).
  assert (Hnb : table_nb user_tbl = true) by (vm_compute; reflexivity).
  destruct (C74_file_structure_partial _ _ _ _ _ _ flat_run Hnb eq_refl eq_refl default_calm eq_refl Hx _ _ H Hp A A' B C D E Q F G) as (toks' & tree' & T1 & T2 & T3).
  exists toks, tree, text, toks', tree'. repeat (split; [assumption|]). split; [|auto].
  clear -Hx. vm_compute in Hx. injection Hx as <-. discriminate.
Qed.

(** Without the hypothesis [settled] C74 fails: a variable reference that touches
    a parenthesis is not recognized as one, the formatter separates the two, and
    the next run puts the arguments of cmake_policy in one group. *)
Definition src_policy : str := nl [$"cmake_policy(${x}(b) c d)"].
Theorem C74_file_structure_refuted : exists toks tree text toks' tree',
  tokenize src_policy = Ok toks /\ parse (p_ctx default_pcfg) toks = Ok tree
  /\ process_file default_pcfg src_policy = Ok (text, true)
  /\ tokenize text = Ok toks' /\ parse (p_ctx default_pcfg) toks' = Ok tree'
  /\ comment_free toks = true /\ skel tree' <> skel tree.
Proof.
  do 5 eexists. split; [vm_compute; reflexivity|]. split; [vm_compute; reflexivity|]. split; [vm_compute; reflexivity|].
  split; [vm_compute; reflexivity|]. split; [vm_compute; reflexivity|]. split; [reflexivity|].
  intros H. vm_compute in H. discriminate H.
Qed.
(** Comments can break it as well: a wrapped comment becomes a format switch. *)
Theorem C74_switch_refuted : exists toks tree text toks' tree',
  tokenize src_wrapped = Ok toks /\ parse (p_ctx default_pcfg) toks = Ok tree
  /\ process_file default_pcfg src_wrapped = Ok (text, true)
  /\ tokenize text = Ok toks' /\ parse (p_ctx default_pcfg) toks' = Ok tree'
  /\ skel tree' <> skel tree.
Proof.
  do 5 eexists. split; [vm_compute; reflexivity|]. split; [vm_compute; reflexivity|]. split; [vm_compute; reflexivity|].
  split; [vm_compute; reflexivity|]. split; [vm_compute; reflexivity|].
  intros H. vm_compute in H. discriminate H.
Qed.

(** ** C75: formatting twice is not formatting once *)
Definition src_leading : str := nl [nil; nil; $"set(a)"].
Theorem C75_idempotent_refuted : exists text text',
  process_file default_pcfg src_leading = Ok (text, true)
  /\ process_file default_pcfg text = Ok (text', true) /\ text' <> text.
Proof. do 2 eexists. split; [vm_compute; reflexivity|]. split; [vm_compute; reflexivity|]. intros H. vm_compute in H. discriminate H. Qed.

Print Assumptions C74_file_structure_partial.
Print Assumptions C74_file_structure_refuted.
Print Assumptions C74_switch_refuted.
Print Assumptions C75_idempotent_refuted.
