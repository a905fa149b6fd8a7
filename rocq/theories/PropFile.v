(** * PropFile: what process_file writes, for whole files *)
From Coq Require Import Permutation.
From Verif Require Import Base Regex Lex LexProofs LexClass PropLex TextOps TextProofs PropText
  Tree Parse ParseProofs PropParse CmdSpec StdSpecs StdDb StdWf PropStd Layout LayoutProofs Pieces Writing
  PropLayout Markup Pipeline ParseShape StdShape NamesShape CommentShape TidyShape.

(** ** The runs covered *)
(** Every user table whose keywords are single lines and whose commands keep their
    spelling up to letter case; every command and keyword case option; every
    markup configuration whose texts are single lines. *)
Definition run_cfg (c : pcfg) (specs : list (str * uspec)) (tbl : list (str * parser)) : Prop :=
  (exists ex vt, p_ctx c = std_ctx ex vt tbl)
  /\ user_table specs = Ok tbl
  /\ table_keys tbl = true /\ forallb spelled tbl = true /\ kw_lookup $"_default" tbl = None
  /\ case_cfg (p_fmt c) /\ markup_ok (p_markup c)
  /\ 0 <= f_tab (p_fmt c) /\ is_endl (f_endl (p_fmt c)).
Definition no_switch (toks : list token) : bool := forallb (fun t => negb (is_onoff t)) toks.

Lemma eff_case c src : case_cfg (p_fmt c) -> case_cfg (effective c src).
Proof. unfold effective. now destruct (p_auto c). Qed.
Lemma eff_tab c src : f_tab (effective c src) = f_tab (p_fmt c).
Proof. unfold effective. now destruct (p_auto c). Qed.
Lemma eff_width c src : f_linewidth (effective c src) = f_linewidth (p_fmt c).
Proof. unfold effective. now destruct (p_auto c). Qed.
Lemma eff_sort c src : f_autosort (effective c src) = f_autosort (p_fmt c).
Proof. unfold effective. now destruct (p_auto c). Qed.
Lemma eff_endl c src : is_endl (f_endl (p_fmt c)) -> is_endl (f_endl (effective c src)).
Proof. unfold effective. destruct (p_auto c); auto. intros _. cbn. destruct (detect_line_endings src); [now right|now left] || (now left) || (now right). Qed.

Lemma lexed_hashed src toks : tokenize src = Ok toks -> Forall hashed toks.
Proof.
  intros H. apply Forall_forall. intros t Hin. apply in_split in Hin as (pre & post & E).
  assert (Hsp : tt t <> BYTEORDER_MARK -> spelling_ok (tt t) (spelling t)).
  { intros Hne. now destruct (C04_token_classes _ _ _ _ _ H E Hne). }
  unfold hashed, is_comment. intros Hc. destruct (tt t) eqn:Et; try discriminate Hc; clear Hc;
    destruct Hsp as (b & Hb); try discriminate.
  - destruct Hb as [-> _]. reflexivity.
  - destruct Hb as (body & ->). reflexivity.
Qed.

Lemma box_no_off b : forallb (fun t => negb (is_onoff t)) (btoks b) = true -> no_off b = true.
Proof.
  induction b as [k p cs IH] using box_ind'. cbn [btoks no_off]. rewrite forallb_app. intros H.
  apply andb_prop in H as [A B]. apply andb_true_intro. split.
  - destruct k; auto. unfold off_tok. destruct p as [|[t|] p]; auto. cbn [own_toks forallb] in A. rewrite andb_true_r in A.
    unfold is_onoff in A. unfold first_tok, is_tt. destruct (tt t); try reflexivity. discriminate A.
  - clear A. induction IH as [|x cs Hx _ IH]; auto. cbn [flat_map forallb] in *. rewrite forallb_app in B.
    apply andb_prop in B as [B1 B2]. rewrite Hx by exact B1. now apply IH.
Qed.

(** ** The comments covered *)
(** The comments of the file form plain comment nodes (TidyShape, [plain]): no
    bracket comment or format switch is taken for the continuation of a trailing
    comment, and no two comments on consecutive lines among arguments begin in
    different columns.  Otherwise see the refutations below. *)
Definition comments_plain (c : pcfg) (toks : list token) : Prop :=
  forall tree, parse (p_ctx c) toks = Ok tree -> plain tree = true.

(** The trees of all files, plain or not, are ready for the layout engine. *)
Lemma run_tidy strict c specs tbl src toks tree :
  run_cfg c specs tbl -> tokenize src = Ok toks -> parse (p_ctx c) toks = Ok tree ->
  (strict = true -> comments_clean toks = true) -> tidy strict tree = true.
Proof.
  intros ((ex & vt & Hctx) & _ & Hk & _) Hl Hp Hcl. rewrite Hctx in Hp.
  eapply parse_tidy; [apply std_wkctx; exact Hk|exact Hp|]. split; [exact Hcl|]. eapply lexed_hashed; eauto.
Qed.
(** A condition on the tokens alone. *)
Lemma clean_plain c specs tbl src toks :
  run_cfg c specs tbl -> tokenize src = Ok toks -> comments_clean toks = true -> comments_plain c toks.
Proof. intros R Hl Hcl tree Hp. apply tidy_plain. now apply (run_tidy true _ _ _ _ _ _ R Hl Hp). Qed.
Lemma run_named c specs tbl src toks tree :
  run_cfg c specs tbl -> tokenize src = Ok toks -> parse (p_ctx c) toks = Ok tree ->
  named (effective c src) KBody (create_box tree) = true.
Proof.
  intros ((ex & vt & Hctx) & _ & Hk & Hs & Hd & Hc & _) Hl Hp. rewrite Hctx in Hp.
  exact (file_names ex vt tbl (effective c src) src toks tree KBody Hk Hs Hd (eff_case c src Hc) Hl Hp).
Qed.
Lemma run_ready c specs tbl src toks tree :
  run_cfg c specs tbl -> tokenize src = Ok toks -> parse (p_ctx c) toks = Ok tree ->
  tidy false tree = true /\ ready (pipe_env c src toks) tree
  /\ named (effective c src) KBody (create_box tree) = true.
Proof.
  intros R Hl Hp.
  assert (A : tidy false tree = true) by now apply (run_tidy false _ _ _ _ _ _ R Hl Hp).
  pose proof (run_named _ _ _ _ _ _ R Hl Hp) as Hn.
  destruct R as ((ex & vt & Hctx) & _ & Hk & Hs & Hd & Hc & Hm & Ht & He). rewrite Hctx in Hp.
  split; [exact A|]. split; [|exact Hn]. split; [|split; [|split]].
  - intros x p w ls Hp1 Hp2. exact (format_comment_noeol _ _ _ _ _ _ Hm Hp1 Hp2).
  - cbn. rewrite eff_tab. exact Ht.
  - eapply file_wfb; eauto.
  - apply named_names. exact Hn.
Qed.
Lemma run_cmok c toks tree : parse (p_ctx c) toks = Ok tree -> comments_plain c toks -> cmok (create_box tree) = true.
Proof. intros Hp Hcl. eapply parse_cmok; [exact Hp|]. apply plain_comments. now apply Hcl. Qed.

(** ** What each token of the file is written as *)
(** A token together with the part it plays in the tree. *)
Definition role := (kind * token)%type.
Definition own_roles (k : kind) (p : list pnode) : list role := map (pair k) (own_toks k p).
Fixpoint roles (b : box) : list role :=
  match b with B k p cs => own_roles k p ++ flat_map roles cs end.
Lemma roles_toks b : map snd (roles b) = btoks b.
Proof.
  induction b as [k p cs IH] using box_ind'. cbn [roles btoks]. rewrite map_app. f_equal.
  - unfold own_roles. rewrite map_map. apply map_id.
  - induction IH as [|x cs Hx _ IH]; auto. cbn [flat_map]. etransitivity; [apply map_app|]. f_equal; [exact Hx|exact IH].
Qed.

(** - parentheses are written as they are;
    - an argument is written as it is, line endings inside it normalized;
    - a command name, keyword or flag is written up to letter case;
    - a bracket comment is written as it is;
    - a run of comments is handed to the comment formatter as a whole; if
      [plain], it is a run of line comments. *)
Inductive says (plain : bool) : list role -> list item -> Prop :=
| says_nil : says plain nil nil
| says_paren k t rs is : k = KLParen \/ k = KRParen -> is_tt (match k with KLParen => LEFT_PAREN | _ => RIGHT_PAREN end) t = true ->
    says plain rs is -> says plain ((k, t) :: rs) (IText (PkParen (is_lparen_k k)) (match k with KLParen => $"(" | _ => $")" end) :: is)
| says_exact k t rs is : k = KArgument \/ k = KAtWord -> is_comment t = false ->
    says plain rs is -> says plain ((k, t) :: rs) (IText (PkWord false) (normalize (spelling t)) :: is)
| says_cased k t s rs is : k = KFunname \/ k = KKeyword \/ k = KFlag -> is_comment t = false ->
    lower s = lower (normalize (spelling t)) ->
    says plain rs is -> says plain ((k, t) :: rs) (IText (PkWord (is_funname_k k)) s :: is)
| says_switch t s rs is : onoff_text t = Some s -> says plain rs is -> says plain ((KOnOff, t) :: rs) (IText PkSwitch s :: is)
| says_bracket x t rs is : is_tt BRACKET_COMMENT t = true ->
    says plain rs is -> says plain ((KComment x, t) :: rs) (IText PkBracket (normalize (spelling t)) :: is)
| says_lines x ts p rs is : ts <> nil -> Forall (fun t => is_comment t = true) ts ->
    ts = filter nonws (toksT p) ->
    (plain = true -> Forall (fun t => is_tt COMMENT t = true) ts /\ forallb line_or_ws p = true) ->
    says plain rs is -> says plain (map (pair (KComment x)) ts ++ rs) (IComment x p :: is).
Lemma says_app pl a b : says pl a b -> forall c d, says pl c d -> says pl (a ++ c) (b ++ d).
Proof.
  induction 1; intros c d Hcd; simpl; auto; try (constructor; auto; fail).
  rewrite <- app_assoc. econstructor; eauto.
Qed.

Lemma says_own pl c parent k p q : tidy_k false k p = true -> match k with KComment _ => pl = true -> plain_c q p = true | _ => True end ->
  (if is_scalar_k k then text_ok c parent k p else true) = true ->
  says pl (own_roles k p) (own_items c parent k p).
Proof.
  intros Hk Hpl Hn. unfold own_roles.
  assert (Hword : is_scalar_k k = true -> (forall t s, scalar_text c parent k t = Ok s -> is_comment t = false ->
      lower s = lower (normalize (spelling t)) -> says pl [(k, t)] [IText (PkWord (is_funname_k k)) s]) ->
    says pl (map (pair k) match p with T t :: _ => [t] | _ => nil end)
      match p with T t :: _ => match scalar_text c parent k t with Ok s => [IText (PkWord (is_funname_k k)) s] | _ => nil end | _ => nil end).
  { intros Hs Hw. rewrite Hs in Hn. destruct p as [|[t|] p]; try discriminate.
    unfold text_ok in Hn. apply andb_prop in Hn as [_ Hn]. cbn [text_same] in Hn.
    destruct (scalar_text c parent k t) as [s| |] eqn:Es; try discriminate. apply seqb_eq in Hn.
    cbn [map]. apply Hw; auto. destruct k; try discriminate Hs; cbn [tidy_k] in Hk;
      apply andb_prop in Hk as [Hk _]; apply negb_true_iff, orb_false_iff in Hk; tauto. }
  destruct k; cbn [own_toks own_items map]; try constructor;
    try (apply Hword; [reflexivity|]; intros t s Es Hc Hl; constructor; auto; try constructor; fail).
  - (* comment *)
    cbn [tidy_k] in Hk. apply andb_prop in Hk as [Hk _]. apply andb_prop in Hk as [Hnt Hst].
    unfold plain_c in Hpl. destruct (is_bracket p) eqn:Eb.
    + destruct p as [|[t|k0 q0] [|? ?]]; try discriminate Eb.
      assert (Ht : tt t = BRACKET_COMMENT) by (unfold is_bracket, tok_is, is_tt in Eb; destruct (tt t); easy).
      cbn [toksT flat_map app filter first_spelling]. unfold nonws, is_ws. rewrite Ht. cbn [map].
      constructor; [unfold is_tt; now rewrite Ht|constructor].
    + rewrite <- (app_nil_r (map _ _)). constructor; [| |reflexivity| |constructor].
      * unfold starts in Hst. destruct p as [|[t|] p]; try discriminate.
        cbn [toksT flat_map app filter]. unfold nonws at 1, is_ws. unfold is_comment in Hst. destruct (tt t); try discriminate; easy.
      * clear -Hnt. induction p as [|[t|] p IH]; cbn [forallb noteT] in Hnt; try discriminate; [constructor|].
        apply andb_prop in Hnt as [A B]. change (toksT (T t :: p)) with (t :: toksT p). cbn [filter].
        unfold nonws at 1. destruct (is_ws t) eqn:E; cbn [negb]; auto.
      * intros E. specialize (Hpl E). cbn [orb] in Hpl. apply andb_prop in Hpl as [Hpl _]. apply andb_prop in Hpl as [_ Hl].
        split; [|exact Hl]. clear -Hl. induction p as [|[t|] p IH]; cbn [forallb line_or_ws] in Hl; try discriminate; [constructor|].
        apply andb_prop in Hl as [A B]. change (toksT (T t :: p)) with (t :: toksT p). cbn [filter].
        unfold nonws at 1. destruct (is_ws t) eqn:E; cbn [negb]; auto. rewrite orb_false_r in A. constructor; auto.
  - (* argument *)
    apply Hword; [reflexivity|]. intros t s Es Hc Hl. cbn in Es. injection Es as <-. constructor; auto. constructor.
  - (* switch *)
    cbn [tidy_k] in Hk. destruct p as [|[t|] [|]]; try discriminate. cbn [first_tok map].
    destruct (onoff_text t) as [s|] eqn:E; [constructor; [exact E|constructor]|].
    unfold onoff_text in E. unfold is_onoff in Hk. destruct (tt t); try discriminate.
  - (* at-word *)
    apply Hword; [reflexivity|]. intros t s Es Hc Hl. cbn in Es. injection Es as <-. constructor; auto. constructor.
  - cbn [tidy_k] in Hk. destruct p as [|[t|] [|]]; try discriminate. cbn [map].
    apply (says_paren pl KLParen); auto. constructor.
  - cbn [tidy_k] in Hk. destruct p as [|[t|] [|]]; try discriminate. cbn [map].
    apply (says_paren pl KRParen); auto. constructor.
Qed.

Lemma box_says pl c n : tidy false n = true -> (pl = true -> plain n = true) -> forall parent q, (pl = true -> plain_in q n = true) ->
  match n with T _ => True | N _ _ => named c parent (create_box n) = true ->
    says pl (roles (create_box n)) (items c parent (create_box n)) end.
Proof.
  induction n as [t|k cs IH] using pnode_ind'; [easy|]. intros H Hpl parent q Hin.
  rewrite create_eq. cbn [roles items named]. cbn [tidy] in H. apply andb_prop in H as [Hk Hc].
  intros Hn. apply andb_prop in Hn as [Hn1 Hn2].
  apply says_app; [apply (says_own pl _ _ _ _ q); auto; destruct k; auto|]. clear Hk Hn1 Hin.
  assert (Hpi : pl = true -> forallb (plain_in k) cs = true) by (intros E; specialize (Hpl E); cbn [plain] in Hpl; now apply andb_prop in Hpl).
  assert (Hpl' : pl = true -> forallb plain cs = true) by (intros E; specialize (Hpl E); cbn [plain] in Hpl; now apply andb_prop in Hpl).
  clear Hpl. rename Hpl' into Hpl.
  induction IH as [|n cs Hnd _ IH]; [constructor|].
  cbn [forallb] in Hc, Hpi, Hpl. apply andb_prop in Hc as [Hc1 Hc2].
  assert (Hpi1 : pl = true -> plain_in k n = true) by (intros E; specialize (Hpi E); now apply andb_prop in Hpi).
  assert (Hpi2 : pl = true -> forallb (plain_in k) cs = true) by (intros E; specialize (Hpi E); now apply andb_prop in Hpi).
  assert (Hpl1 : pl = true -> plain n = true) by (intros E; specialize (Hpl E); now apply andb_prop in Hpl).
  assert (Hpl2 : pl = true -> forallb plain cs = true) by (intros E; specialize (Hpl E); now apply andb_prop in Hpl).
  change (n :: cs) with ([n] ++ cs) in Hn2 |- *. rewrite kids_app in Hn2 |- *. rewrite forallb_app in Hn2.
  apply andb_prop in Hn2 as [Hn1 Hn2]. rewrite !flat_map_app. apply says_app; [|now apply IH].
  destruct n as [t|k0 x]; [constructor|].
  assert (Hkid : kids [N k0 x] = nil \/ kids [N k0 x] = [create_box (N k0 x)]).
  { unfold kids. cbn [flat_map]. destruct k0; try (now right). destruct (_ <? 2); [now left|now right]. }
  destruct Hkid as [E|E]; rewrite E in Hn1 |- *; [constructor|].
  cbn [flat_map forallb] in *. rewrite andb_true_r in Hn1. rewrite !app_nil_r. apply (Hnd Hc1 Hpl1 k k Hpi1 Hn1).
Qed.

(** ** The theorems *)
Definition bom_text (c : pcfg) : str := if p_bom c then [cBOM] else nil.
Lemma run_split c src text v : process_file c src = Ok (text, v) -> p_usetabs c = false ->
  exists toks tree l o, tokenize src = Ok toks /\ parse (p_ctx c) toks = Ok tree
    /\ layout_tree (pipe_env c src toks) tree = Ok l /\ write_tree (effective c src) src l = Ok o
    /\ text = bom_text c ++ o /\ v = lvalid l.
Proof.
  intros H Ht. unfold process_file in H. apply bindr_ok in H as (toks & E1 & H). apply bindr_ok in H as (tree & E2 & H).
  apply bindr_ok in H as (l & E3 & H). apply bindr_ok in H as (o & E4 & H). apply bindr_ok in H as (o' & E5 & H).
  unfold replace_with_tabs in E5. rewrite Ht in E5. injection E5 as <-. injection H as <- <-.
  exists toks, tree, l, o. unfold bom_text. repeat split; auto. now destruct (p_bom c).
Qed.
Lemma filter_forallb {A} (f g : A -> bool) l : forallb f l = true -> forallb f (filter g l) = true.
Proof.
  rewrite !forallb_forall. intros H x Hx. apply filter_In in Hx. apply H. tauto.
Qed.

(** C33 for files: the writer's position assertion never fires. *)
Theorem C33_file_positions c specs tbl src toks :
  run_cfg c specs tbl -> tokenize src = Ok toks ->
  forall tree l, parse (p_ctx c) toks = Ok tree -> layout_tree (pipe_env c src toks) tree = Ok l ->
  in_order (Cur 0 0) (pieces (effective c src) KBody l)
  /\ write_tree (effective c src) src l <> Err AssertionErr.
Proof.
  intros R Hl tree l Hp Hy. destruct (run_ready _ _ _ _ _ _ R Hl Hp) as (A & B & C).
  split; [exact (C33_positions_advance _ _ _ B Hy)|].
  destruct (C33_writer_never_asserts _ _ _ src B Hy) as [[text E]|E]; cbn [pipe_env cfg] in E; rewrite E; discriminate.
Qed.

(** C34 for files, in the order of the tree.  With [pl] false the theorem speaks of
    every file; with [pl] true, of the files with plain comments, it says more
    about these comments. *)
Theorem C34_file_tree pl c specs tbl src text v :
  run_cfg c specs tbl -> p_usetabs c = false -> process_file c src = Ok (text, v) ->
  forall toks, tokenize src = Ok toks -> (pl = true -> comments_plain c toks) -> no_switch toks = true ->
  exists tree is0 is gs ps,
    parse (p_ctx c) toks = Ok tree
    /\ map snd (roles (create_box tree)) = filter nonws (flat tree)
    /\ says pl (roles (create_box tree)) is0
    /\ Permutation is0 is /\ (f_autosort (p_fmt c) = false -> is = is0)
    /\ realizes (pipe_env c src toks) is ps
    /\ gaps_ok pl None gs ps
    /\ text = bom_text c ++ page (f_endl (effective c src)) gs ps ++ f_endl (effective c src).
Proof.
  intros R Ht H toks Hl Hcl Hno. destruct (run_split _ _ _ _ H Ht) as (toks' & tree & l & o & E1 & E2 & E3 & E4 & -> & ->).
  rewrite Hl in E1. injection E1 as <-.
  destruct (run_ready _ _ _ _ _ _ R Hl E2) as (A & B & C).
  assert (Hbt : btoks (create_box tree) = filter nonws (flat tree)).
  { pose proof (box_tokens false tree A) as Hb. destruct tree as [t|k cs]; [|exact Hb].
    unfold parse in E2. apply bindr_ok in E2 as ([a r] & _ & E2). discriminate. }
  assert (Hsub : forall t, In t (flat tree) -> In t toks).
  { assert (Ho : no_onoff toks).
    { unfold no_switch in Hno. rewrite forallb_forall in Hno. apply Forall_forall. intros t Hin. apply Hno in Hin. now apply negb_true_iff. }
    destruct R as ((ex & vt & Hctx) & Hut & _). rewrite Hctx in E2.
    destruct (C05_file_tuples_partial ex vt specs tbl Hut _ _ _ Hl Ho E2) as [HP _].
    intros t Hin. apply Permutation_sym in HP. apply (Permutation_in _ HP) in Hin.
    destruct toks as [|u r]; [destruct Hin|]. unfold strip_bom_tok in Hin. destruct (is_tt _ u); [now right|exact Hin]. }
  assert (Hoff : no_off (create_box tree) = true).
  { apply box_no_off. rewrite Hbt. apply filter_forallb. unfold no_switch in Hno. rewrite forallb_forall in Hno |- *. auto. }
  assert (He : is_endl (f_endl (effective c src))) by (apply eff_endl, R).
  destruct (page_theorem pl _ _ _ src B (fun E => run_cmok _ _ _ E2 (Hcl E)) He Hoff E3) as (gs & G1 & G2). cbn [pipe_env cfg] in G1, G2.
  rewrite E4 in G2. injection G2 as ->.
  destruct (C34_texts_in_order _ _ _ B E3) as (b & B1 & -> & B2 & B3). cbn [pipe_env cfg] in B1, B2, B3.
  exists tree, (items (effective c src) KBody (create_box tree)), (items (effective c src) KBody (lock (f_autosort (effective c src)) (create_box tree))), gs, (pieces (effective c src) KBody l).
  split; [exact E2|]. split; [now rewrite roles_toks|]. split.
  { pose proof (box_says pl (effective c src) tree A (fun E => Hcl E _ E2) KBody KBody) as Hb.
    destruct tree as [t|k cs]; [|apply Hb; [|exact C]].
    2: { unfold parse in E2. apply bindr_ok in E2 as ([a r] & _ & E2). injection E2 as <- _. intros _. reflexivity. }
    unfold parse in E2. apply bindr_ok in E2 as ([a r] & _ & E2). discriminate. }
  split; [exact B2|]. split; [intros Ha; rewrite eff_sort, Ha, lock_off; reflexivity|]. auto.
Qed.

(** C34 for files that call no command with pair lists: the words of the output
    are the tokens of the file, in order. *)
Theorem C34_file_texts pl c specs tbl src text v :
  run_cfg c specs tbl -> p_usetabs c = false -> process_file c src = Ok (text, v) ->
  forall toks, tokenize src = Ok toks -> (pl = true -> comments_plain c toks) -> no_switch toks = true ->
  Forall (fun t => plain_command tbl (lower (spelling t))) toks ->
  exists rs is0 is gs ps,
    map snd rs = filter nonws (strip_bom_tok toks)
    /\ says pl rs is0
    /\ Permutation is0 is /\ (f_autosort (p_fmt c) = false -> is = is0)
    /\ realizes (pipe_env c src toks) is ps
    /\ gaps_ok pl None gs ps
    /\ text = bom_text c ++ page (f_endl (effective c src)) gs ps ++ f_endl (effective c src).
Proof.
  intros R Ht H toks Hl Hcl Hno Hpl.
  destruct (C34_file_tree pl _ _ _ _ _ _ R Ht H toks Hl Hcl Hno) as (tree & is0 & is & gs & ps & Hp & A & B & C & D & E & F & G).
  exists (roles (create_box tree)), is0, is, gs, ps.
  split; [|auto 10]. rewrite A. f_equal.
  destruct R as ((ex & vt & Hctx) & Hut & _). rewrite Hctx in Hp.
  destruct (tokenize_strip _ _ Hl) as (H1 & H2 & H3 & H4).
  apply C05_parse_lossless in Hp; auto. eapply std_calls; eauto.
  destruct H4 as [H4|H4]; [now rewrite <- H4|]. rewrite H4 in Hpl. now inversion Hpl.
Qed.
(** ... and with pair lists: the same tokens, the arguments in their order,
    comments possibly moved behind the pair they interrupt. *)
Theorem C34_file_pairs pl c specs tbl src text v :
  run_cfg c specs tbl -> p_usetabs c = false -> process_file c src = Ok (text, v) ->
  forall toks, tokenize src = Ok toks -> (pl = true -> comments_plain c toks) -> no_switch toks = true ->
  exists rs is0 is gs ps,
    Permutation (filter nonws (strip_bom_tok toks)) (map snd rs)
    /\ semantics (strip_bom_tok toks) = filter is_semantic (map snd rs)
    /\ says pl rs is0
    /\ Permutation is0 is /\ (f_autosort (p_fmt c) = false -> is = is0)
    /\ realizes (pipe_env c src toks) is ps
    /\ gaps_ok pl None gs ps
    /\ text = bom_text c ++ page (f_endl (effective c src)) gs ps ++ f_endl (effective c src).
Proof.
  intros R Ht H toks Hl Hcl Hno.
  destruct (C34_file_tree pl _ _ _ _ _ _ R Ht H toks Hl Hcl Hno) as (tree & is0 & is & gs & ps & Hp & A & B & C & D & E & F & G).
  exists (roles (create_box tree)), is0, is, gs, ps.
  assert (Ho : no_onoff toks).
  { unfold no_switch in Hno. rewrite forallb_forall in Hno. apply Forall_forall. intros t Hin. apply Hno in Hin. now apply negb_true_iff. }
  destruct R as ((ex & vt & Hctx) & Hut & _). rewrite Hctx in Hp.
  destruct (C05_file_tuples_partial ex vt specs tbl Hut _ _ _ Hl Ho Hp) as [HP HS].
  rewrite A. split.
  { clear -HP. induction HP; cbn [filter]; auto; try (destruct (nonws x); auto); try (destruct (nonws y); auto).
    - apply perm_swap.
    - eapply Permutation_trans; eauto. }
  split; [|auto 10]. rewrite HS. unfold semantics. clear.
  induction (flat tree) as [|t l IH]; auto. cbn [filter]. destruct (is_semantic t) eqn:E.
  - assert (nonws t = true) as ->.
    { unfold nonws, is_ws. unfold is_semantic in E. destruct (tt t); easy. }
    cbn [filter]. rewrite E. now f_equal.
  - destruct (nonws t); auto. cbn [filter]. rewrite E. auto.
Qed.

(** ** C35 for files *)
(** every line comment of the file is written on lines of its own ends: behind
    each of its lines comes a line ending *)
Theorem C35_file_comments c specs tbl src text v :
  run_cfg c specs tbl -> p_usetabs c = false -> process_file c src = Ok (text, v) ->
  forall toks, tokenize src = Ok toks -> comments_plain c toks -> no_switch toks = true ->
  exists rs is0 is gs ps,
    Permutation (filter nonws (strip_bom_tok toks)) (map snd rs)
    /\ says true rs is0 /\ Permutation is0 is
    /\ realizes (pipe_env c src toks) is ps
    /\ lines_closed gs ps
    /\ text = bom_text c ++ page (f_endl (effective c src)) gs ps ++ f_endl (effective c src).
Proof.
  intros R Ht H toks Hl Hcl Hno.
  destruct (C34_file_pairs true _ _ _ _ _ _ R Ht H toks Hl (fun _ => Hcl) Hno) as (rs & is0 & is & gs & ps & A & _ & B & C & _ & D & E & F).
  exists rs, is0, is, gs, ps. repeat (split; [assumption|]). split; [|assumption].
  clear -E. revert E. generalize (@None pk) as k. revert ps.
  induction gs as [|g gs IH]; intros [|p ps] k H; simpl in H; try tauto.
  destruct H as [_ H]. destruct gs as [|g' gs]; destruct ps as [|p' ps]; try exact I.
  split; [simpl in H; tauto|]. eapply IH; eauto.
Qed.

(** ** C36 for files *)
(** whatever the comments and the format switches: no text of an accepted layout
    reaches past the configured width *)
Theorem C36_file_pieces c specs tbl src toks tree l :
  run_cfg c specs tbl -> tokenize src = Ok toks -> parse (p_ctx c) toks = Ok tree ->
  layout_tree (pipe_env c src toks) tree = Ok l -> lvalid l = true ->
  Forall (fun p => p_edge p <= f_linewidth (p_fmt c)) (pieces (effective c src) KBody l).
Proof.
  intros R Hl Hp Hy Hv. destruct (run_ready _ _ _ _ _ _ R Hl Hp) as (A & B & C).
  pose proof (C36_valid_fits _ _ _ B Hy Hv) as H. cbn [pipe_env cfg] in H. now rewrite eff_width in H.
Qed.
(** ... and without switches no line of the output does *)
(** [fit w k col s]: writing [s] from column [col] ends no line past column
    [w + k]; [ecol col s] is the column reached *)
Fixpoint ecol (col : Z) (s : str) : Z :=
  match s with nil => col | c :: s' => if N.eqb c cNL then ecol 0 s' else ecol (col + 1) s' end.
Fixpoint fit (m : Z) (col : Z) (s : str) : Prop :=
  match s with nil => True | c :: s' => if N.eqb c cNL then col <= m /\ fit m 0 s' else fit m (col + 1) s' end.
Lemma ecol_app a : forall b col, ecol col (a ++ b) = ecol (ecol col a) b.
Proof. induction a as [|c a IH]; simpl; intros; auto. destruct (N.eqb c cNL); apply IH. Qed.
Lemma fit_app m a : forall b col, fit m col (a ++ b) <-> fit m col a /\ fit m (ecol col a) b.
Proof.
  induction a as [|c a IH]; simpl; intros; [tauto|]. destruct (N.eqb c cNL).
  - rewrite IH. tauto.
  - apply IH.
Qed.
Lemma fit_flat m s : ~ In cNL s -> forall col, fit m col s /\ ecol col s = col + zlen s.
Proof.
  induction s as [|c s IH]; intros H col; [split; [exact I|]; unfold zlen; simpl; lia|].
  cbn [fit ecol]. destruct (N.eqb c cNL) eqn:E.
  { apply N.eqb_eq in E. exfalso. apply H. now left. }
  destruct (IH (fun A => H (or_intror A)) (col + 1)) as [A B]. split; [exact A|]. rewrite B. unfold zlen. simpl List.length. lia.
Qed.
Lemma fit_split m s : forall col, fit m col s -> ecol col s <= m ->
  match split_on cNL s with l :: ls => col + zlen l <= m /\ Forall (fun l => zlen l <= m) ls | nil => False end.
Proof.
  induction s as [|c s IH]; intros col H1 H2; cbn [split_on fit ecol] in *.
  - split; [unfold zlen; simpl; lia|constructor].
  - destruct (N.eqb c cNL).
    + destruct H1 as [H0 H1]. specialize (IH 0 H1 H2). destruct (split_on cNL s) as [|l ls]; [easy|].
      split; [unfold zlen; simpl; lia|]. constructor; [lia|tauto].
    + specialize (IH _ H1 H2). destruct (split_on cNL s) as [|l ls]; [easy|].
      split; [unfold zlen in *; simpl List.length; lia|tauto].
Qed.

Definition wfit (endl : str) (w : Z) (f : cfile) : Prop :=
  fit (w + zlen endl - 1) 0 (TextOps.out f) /\ ecol 0 (TextOps.out f) = ccol f /\ ccol f <= w.
Lemma fit_endl endl w col : is_endl endl -> col <= w -> fit (w + zlen endl - 1) col endl /\ ecol col endl = 0.
Proof. intros [-> | ->] H; simpl; repeat split; unfold zlen; simpl; lia. Qed.
Lemma inv_endl endl w f : is_endl endl -> wfit endl w f -> 0 <= w -> forall r, wfit endl w (CF (TextOps.out f ++ endl) r 0).
Proof.
  intros He (A & B & C) Hw r. destruct (fit_endl endl w (ccol f) He C) as [E1 E2].
  split; [apply fit_app; rewrite B; auto|]. cbn [TextOps.out ccol]. rewrite ecol_app, B. auto.
Qed.
Lemma inv_endls endl w n : is_endl endl -> 0 <= w -> forall f r, wfit endl w f -> (0 < n)%nat ->
  wfit endl w (CF (TextOps.out f ++ repeat_s n endl) r 0).
Proof.
  intros He Hw. induction n as [|n IH]; intros f r H Hn; [lia|].
  cbn [repeat_s]. destruct n as [|n].
  - cbn [repeat_s]. rewrite app_nil_r. now apply inv_endl.
  - rewrite app_assoc. apply (IH (CF (TextOps.out f ++ endl) 0 0)); [now apply inv_endl|lia].
Qed.
Lemma inv_text endl w f s r : ~ In cNL s -> wfit endl w f -> ccol f + zlen s <= w ->
  wfit endl w (CF (TextOps.out f ++ s) r (ccol f + zlen s)).
Proof.
  intros Hs (A & B & C) H. destruct (fit_flat (w + zlen endl - 1) s Hs (ccol f)) as [E1 E2].
  split; [apply fit_app; rewrite B; auto|]. cbn [TextOps.out ccol]. rewrite ecol_app, B. auto.
Qed.
Lemma inv_lines endl w : is_endl endl -> 0 <= w -> forall ls f, Forall (fun l => ~ In cNL l) ls -> wfit endl w f ->
  Forall (fun l => zlen l <= w) ls -> wfit endl w (put_lines endl f ls).
Proof.
  intros He Hw. induction ls as [|l ls IH]; intros f Hn H Hl; [exact H|]. cbn [put_lines].
  inversion Hn; subst. inversion Hl; subst. apply IH; auto. rewrite app_assoc.
  pose proof (inv_endl endl w f He H Hw 0) as H0.
  apply (inv_text endl w (CF (TextOps.out f ++ endl) 0 0) l _ H2 H0). cbn [ccol]. lia.
Qed.
Lemma flow_lines_max ls : forall c x, Forall (fun l => zlen l <= snd (flow_lines c x ls)) ls /\ x <= snd (flow_lines c x ls).
Proof.
  induction ls as [|l ls IH]; intros c x; simpl; [split; [constructor|lia]|].
  destruct (IH (Cur (row c + 1) (zlen l)) (Z.max x (zlen l))) as [A B]. split; [|lia]. constructor; [lia|exact A].
Qed.
Lemma inv_write endl w f r c text f' : is_endl endl -> 0 <= w -> wfit endl w f ->
  write_at endl f r c text = Ok f' -> 0 <= c -> c <= w -> snd (text_flow (Cur r c) text) <= w -> wfit endl w f'.
Proof.
  intros He Hw Hf H H0 Hc Ht. unfold write_at in H. destruct (negb _) eqn:En; [discriminate|].
  apply negb_false_iff in En. unfold cur_le in En. apply orb_prop in En.
  set (f1 := if r - crow f =? 0 then f else _) in H.
  assert (H1 : wfit endl w f1 /\ ccol f1 <= c).
  { unfold f1. destruct (r - crow f =? 0) eqn:E.
    - split; auto. apply Z.eqb_eq in E. destruct En as [En|En]; [apply Z.ltb_lt in En; lia|].
      apply andb_prop in En as [_ En]. now apply Z.leb_le in En.
    - split; [apply inv_endls; auto|cbn; lia]. apply Z.eqb_neq in E. destruct En as [En|En].
      + apply Z.ltb_lt in En. lia.
      + apply andb_prop in En as [En _]. apply Z.eqb_eq in En. lia. }
  destruct H1 as [H1 H2].
  set (f2 := if c - ccol f1 =? 0 then f1 else _) in H.
  assert (H3 : wfit endl w f2 /\ ccol f2 = c).
  { unfold f2. destruct (c - ccol f1 =? 0) eqn:E; [apply Z.eqb_eq in E; split; auto; lia|].
    assert (Hsp : ~ In cNL (spaces (c - ccol f1))).
    { unfold spaces. intros Hin. apply repeat_spec in Hin. discriminate. }
    assert (Hz : zlen (spaces (c - ccol f1)) = c - ccol f1).
    { unfold zlen, spaces. rewrite repeat_length. lia. }
    pose proof (inv_text endl w f1 _ (crow f1) Hsp H1) as A. rewrite Hz in A. split; [apply A; lia|cbn; lia]. }
  destruct H3 as [H3 H4]. clearbody f2.
  unfold text_flow in Ht. assert (Forall (fun l => ~ In cNL l) (split_on cNL text)) as Hs.
  { apply Forall_forall. intros x Hx. eapply split_on_no; eauto. }
  destruct (split_on cNL text) as [|l ls]; [injection H as <-; exact H3|]. injection H as <-.
  cbn [shift colm row] in Ht. inversion Hs; subst.
  destruct (flow_lines_max ls (shift (Cur r (ccol f2)) (zlen l)) (ccol f2 + zlen l)) as [A B].
  apply inv_lines; auto.
  - apply inv_text; auto. lia.
  - eapply Forall_impl; [|exact A]. cbn. intros. lia.
Qed.
Lemma inv_put_all c w ps : is_endl (f_endl c) -> 0 <= w -> forall s s', wfit (f_endl c) w (w_f s) ->
  Forall (fun p => 0 <= colm (p_at p)) ps -> Forall (fun p => p_edge p <= w) ps ->
  put_all c ps s = Ok s' -> wfit (f_endl c) w (w_f s').
Proof.
  intros He Hw. induction ps as [|p ps IH]; intros s s' Hi Hc Hp H; [injection H as <-; exact Hi|].
  cbn [put_all] in H. apply bindr_ok in H as (s1 & E & H). inversion Hc; subst. inversion Hp; subst.
  apply (IH s1); auto. unfold put in E. apply bindr_ok in E as (f1 & E & E2). injection E2 as <-. cbn [w_f].
  destruct p as [[r cl] text kd]. cbn [p_at p_text row colm] in *. eapply inv_write; eauto.
  unfold p_edge in *. cbn [p_at p_text] in *. unfold text_flow in *. destruct (split_on cNL text) as [|l ls].
  - cbn in *. lia.
  - cbn [shift colm row] in *. destruct (flow_lines_max ls (shift (Cur r cl) (zlen l)) (cl + zlen l)) as [_ B].
    pose proof (Zle_0_nat (List.length l)). unfold zlen in *. lia.
Qed.

Lemma lines_fit m s : fit m 0 s -> ecol 0 s <= m -> Forall (fun l => zlen l <= m) (split_on cNL s).
Proof.
  intros A B. pose proof (fit_split m s 0 A B) as C. destruct (split_on cNL s); [constructor|].
  destruct C. constructor; [lia|assumption].
Qed.
(** When the formatter reports an accepted layout, no line of the output is
    longer than the configured width. Lines are separated by newline characters,
    so that with windows line endings the carriage return is counted extra. *)
Theorem C36_file_width c specs tbl src text :
  run_cfg c specs tbl -> p_usetabs c = false -> 0 <= f_linewidth (p_fmt c) ->
  process_file c src = Ok (text, true) ->
  forall toks, tokenize src = Ok toks -> no_switch toks = true ->
  exists o, text = bom_text c ++ o
    /\ Forall (fun line => zlen line <= f_linewidth (p_fmt c) + zlen (f_endl (effective c src)) - 1) (split_on cNL o).
Proof.
  intros R Ht Hw H toks Hl Hno. destruct (run_split _ _ _ _ H Ht) as (toks' & tree & l & o & E1 & E2 & E3 & E4 & -> & Ev).
  rewrite Hl in E1. injection E1 as <-. exists o. split; [reflexivity|]. symmetry in Ev.
  destruct (run_ready _ _ _ _ _ _ R Hl E2) as (A & B & C).
  assert (Hoff : no_off (create_box tree) = true).
  { apply box_no_off. pose proof (box_tokens false tree A) as Hb. destruct tree as [t|k cs].
    { unfold parse in E2. apply bindr_ok in E2 as ([a r] & _ & E2). discriminate. }
    rewrite Hb. apply filter_forallb. unfold no_switch in Hno. rewrite forallb_forall in Hno |- *.
    assert (Ho : no_onoff toks).
    { apply Forall_forall. intros t Hin. apply Hno in Hin. now apply negb_true_iff. }
    destruct R as ((ex & vt & Hctx) & Hut & _). rewrite Hctx in E2.
    destruct (C05_file_tuples_partial ex vt specs tbl Hut _ _ _ Hl Ho E2) as [HP _].
    intros t Hin. apply Permutation_sym in HP. apply (Permutation_in _ HP) in Hin. apply Hno.
    destruct toks as [|u r]; [destruct Hin|]. unfold strip_bom_tok in Hin. destruct (is_tt _ u); [now right|exact Hin]. }
  assert (He : is_endl (f_endl (effective c src))) by (apply eff_endl, R).
  pose proof (C36_valid_fits _ _ _ B E3 Ev) as Hed. cbn [pipe_env cfg] in Hed. rewrite eff_width in Hed.
  destruct (layout_lok _ _ _ B E3) as (oo & Hlk & _ & Hcols).
  destruct B as (Hc & Htb & Hwf & Hn). cbn [pipe_env cfg] in *.
  unfold write_tree in E4. apply bindr_ok in E4 as (s' & E4 & E5). injection E5 as <-.
  change (effective c src) with (cfg (pipe_env c src toks)) in E4.
  rewrite (proj1 (write_pieces (pipe_env c src toks) src) _ _ _ Hlk KBody (WS None cf_init)) in E4.
  2: now rewrite lock_wfb.
  2: now rewrite lock_names.
  2: now rewrite lock_no_off.
  2: reflexivity.
  cbn [pipe_env cfg] in E4.
  assert (H0 : wfit (f_endl (effective c src)) (f_linewidth (p_fmt c)) (w_f (WS None cf_init))).
  { split; [exact I|]. split; [reflexivity|exact Hw]. }
  pose proof (inv_put_all _ _ _ He Hw _ _ H0 (pieces_col _ _ KBody Hcols) Hed E4) as Hfin.
  apply (inv_endl _ _ _ He) with (r := 0) in Hfin; [|exact Hw]. destruct Hfin as (F1 & F2 & F3). cbn [TextOps.out ccol] in *.
  apply lines_fit; [exact F1|]. unfold getvalue. rewrite F2.
  destruct He as [-> | ->]; unfold zlen; simpl; lia.
Qed.

(** ** Examples: the shipped configuration and a file meet the hypotheses *)
Lemma lower_lower s : lower (lower s) = lower s.
Proof.
  unfold lower. rewrite map_map. apply map_ext. intros ch.
  unfold loc. destruct ((65 <=? ch) && (ch <=? 90))%N eqn:E; [|now rewrite E].
  apply andb_prop in E as [E1 E2]. apply N.leb_le in E1, E2.
  destruct ((65 <=? ch + 32) && (ch + 32 <=? 90))%N eqn:E; auto.
  apply andb_prop in E as [_ E]. apply N.leb_le in E. lia.
Qed.
Example default_run : run_cfg default_pcfg nil nil.
Proof.
  split; [exists no_explicit, nil; reflexivity|]. repeat (split; [reflexivity|]).
  split; [|split; [apply default_markup_ok|split; [vm_compute; discriminate|now left]]].
  split; intros s; [right; right; now left|apply lower_lower].
Qed.
(** the same for another configuration: windows line endings, narrow lines,
    upper case, sorting, a byte-order mark and a user's command *)
Definition narrow_fcfg : fcfg :=
  FCfg 28 4 2 6 2 2 4 10 true false true $"prefix-indent" true $"lower"
       (fun _ => $"upper") lower nil nil [cCR; cNL].
Definition user_specs : list (str * uspec) :=
  [($"MyFun", USpec (UScalar (NInt 1)) [$"FAST"] [($"SRC", UKScalar (NStr $"+"))] None None)].
Definition user_tbl : list (str * parser) := get_ok nil (user_table user_specs).
Definition narrow_pcfg : pcfg :=
  PCfg narrow_fcfg default_mcfg (std_ctx no_explicit nil user_tbl) false true false UseSpace.
Example narrow_run : run_cfg narrow_pcfg user_specs user_tbl.
Proof.
  split; [exists no_explicit, nil; reflexivity|]. repeat (split; [vm_compute; reflexivity|]).
  split; [|split; [apply default_markup_ok|split; [vm_compute; discriminate|now right]]].
  split; intros s; [right; now left|apply lower_lower].
Qed.
Definition src_file : str := nl
  [$"# hello"; $"# world"; $"IF(NOT (A AND B)) # why"; $"";
   $"  myfun(x FAST SRC z.c y.c # last"; $"                           # of all"; $"    w.c)"; $"Endif()"].
(** the hypotheses of the theorems C33 to C36 hold of this file ... *)
Example file_ex : exists toks, tokenize src_file = Ok toks /\ comments_clean toks = true
  /\ no_switch toks = true /\ Forall (fun t => plain_command user_tbl (lower (spelling t))) toks.
Proof.
  eexists. split; [vm_compute; reflexivity|]. split; [vm_compute; reflexivity|]. split; [vm_compute; reflexivity|].
  apply Forall_forall. intros t Ht. right. revert t Ht. apply plain_check. vm_compute. reflexivity.
Qed.
(** ... and of this one with a switch and mixed comments, which the layout takes
    apart into texts *)
Definition src_switch : str := nl
  [$"# cmake-format: off"; $"foo(  a )"; $"# cmake-format: on"; $"foo(aaa #[[one]]"; $"        # two"; $"  b)"].
Example switch_ex : exists toks tree l, tokenize src_switch = Ok toks /\ parse (p_ctx default_pcfg) toks = Ok tree
  /\ layout_tree (pipe_env default_pcfg src_switch toks) tree = Ok l /\ lvalid l = true
  /\ List.length (pieces (effective default_pcfg src_switch) KBody l) = 12%nat
  /\ no_switch toks = false /\ plain tree = false.
Proof.
  do 3 eexists. do 4 (split; [vm_compute; reflexivity|]). repeat (split; [vm_compute; reflexivity|]). vm_compute. reflexivity.
Qed.
(** ... and so they do of this one, whose comments are not aligned and which has a
    bracket comment among arguments *)
Definition plain_src (c : pcfg) (src : str) : bool :=
  match tokenize src with Ok toks => match parse (p_ctx c) toks with Ok t => plain t | _ => true end | _ => true end.
Lemma plain_srced c src toks : tokenize src = Ok toks -> plain_src c src = true -> comments_plain c toks.
Proof. intros H E tree Hp. unfold plain_src in E. now rewrite H, Hp in E. Qed.
Definition src_ragged : str := nl
  [$"set(x 1)  # one"; $"# two"; $"   # three"; $"foo(#[[four]] a # five"; $"     # six"; $"  b # seven"; $"      #[[eight]]"; $"  ) # nine"; $" # ten"].
Example ragged_ex : exists toks, tokenize src_ragged = Ok toks /\ comments_plain default_pcfg toks /\ no_switch toks = true
  /\ comments_clean toks = false
  /\ process_file default_pcfg src_ragged = Ok (nl
  [$"set(x 1) # one"; $"# two"; $"# three"; $"foo(#[[four]]"; $"    a # five"; $"    # six"; $"    b # seven"; $"    #[[eight]]"; $") # nine"; $"# ten"], true).
Proof.
  eexists. split; [vm_compute; reflexivity|]. split; [apply (plain_srced _ src_ragged); vm_compute; reflexivity|].
  repeat (split; [vm_compute; reflexivity|]). vm_compute. reflexivity.
Qed.
(** ... and this is what is written in the two configurations *)
Example file_ex_default : process_file default_pcfg src_file = Ok (nl
  [$"# hello world"; $"if(NOT (A AND B)) # why"; $"";
   $"  myfun(x FAST SRC z.c y.c # last of all"; $"        w.c)"; $"endif()"], true).
Proof. vm_compute. reflexivity. Qed.
Definition crnl (l : list str) : str := List.concat (map (fun s => s ++ [cCR; cNL]) l).
Example file_ex_narrow : process_file narrow_pcfg src_file = Ok (cBOM :: crnl
  [$"# hello world"; $"IF (not (A and B)) # why"; $"";
   $"    MYFUN("; $"        x"; $"        FAST"; $"        src z.c"; $"            y.c # last of";
   $"                # all"; $"            w.c"; $"        )"; $"ENDIF ()"], true).
Proof. vm_compute. reflexivity. Qed.

(** ** C38: arguments stay apart *)
(** two consecutive texts have a line ending or a blank between them, unless the
    first is an opening parenthesis, the second a closing one, or the name of a
    command is followed by its opening parenthesis, or a closing parenthesis by a
    comment or another parenthesis *)
Fixpoint apart (gs : list gap) (ps : list piece) : Prop :=
  match gs, ps with
  | _ :: ((g :: _) as gs'), p :: ((q :: _) as ps') =>
      (touch (Some (p_kind p)) (p_kind q) = false -> (0 < fst g + snd g)%nat) /\ apart gs' ps'
  | _, _ => True
  end.
(** Every argument is one contiguous text of the output and no two of them touch.
    Missing for the full statement: that an argument of CMake is one argument
    token, which is false, see below. *)
Theorem C38_file_apart_partial c specs tbl src text v :
  run_cfg c specs tbl -> p_usetabs c = false -> process_file c src = Ok (text, v) ->
  forall toks, tokenize src = Ok toks -> no_switch toks = true ->
  Forall (fun t => plain_command tbl (lower (spelling t))) toks ->
  exists rs is0 is gs ps,
    map snd rs = filter nonws (strip_bom_tok toks)
    /\ says false rs is0 /\ Permutation is0 is
    /\ realizes (pipe_env c src toks) is ps
    /\ apart gs ps
    /\ text = bom_text c ++ page (f_endl (effective c src)) gs ps ++ f_endl (effective c src).
Proof.
  intros R Ht H toks Hl Hno Hpl.
  destruct (C34_file_texts false _ _ _ _ _ _ R Ht H toks Hl ltac:(discriminate) Hno Hpl) as (rs & is0 & is & gs & ps & A & B & C & _ & D & E & F).
  exists rs, is0, is, gs, ps. repeat (split; [assumption|]). split; [|assumption].
  clear -E. revert E. generalize (@None pk) as k. revert ps.
  induction gs as [|g gs IH]; intros [|p ps] k H; simpl in H; try tauto.
  destruct H as [_ H]. destruct gs as [|g' gs]; destruct ps as [|q ps]; try exact I.
  split; [|eapply IH; eauto]. simpl in H. destruct H as [[_ H] _]. intros A. destruct (H A); lia.
Qed.

(** ** C44: every comment is written *)
Lemma says_comment rs is : says true rs is -> forall t, In t (map snd rs) -> is_comment t = true ->
  (is_tt BRACKET_COMMENT t = true /\ In (IText PkBracket (normalize (spelling t))) is)
  \/ (is_tt COMMENT t = true /\ exists x p, In (T t) p /\ In (IComment x p) is).
Proof.
  induction 1; intros u Hu Hc; [destruct Hu| | | | | |].
  1-5: destruct Hu as [<-|Hu]; [|destruct (IHsays _ Hu Hc) as [[A B]|[A (y & q & B & D)]];
         [left; split; [exact A|now right]|right; split; [exact A|exists y, q; split; [exact B|now right]]]].
  - destruct H as [-> | ->]; unfold is_tt in H0; cbn [snd] in Hc; unfold is_comment in Hc; destruct (tt t); cbn in H0, Hc; discriminate.
  - cbn [snd] in Hc. rewrite Hc in *. discriminate.
  - cbn [snd] in Hc. rewrite Hc in *. discriminate.
  - cbn [snd] in Hc. unfold onoff_text in H. unfold is_comment in Hc. destruct (tt t); cbn in H, Hc; discriminate.
  - left. split; [exact H|now left].
  - rewrite map_app, map_map in Hu. cbn [snd] in Hu. rewrite map_id in Hu. apply in_app_or in Hu as [Hu|Hu].
    + right. destruct (H2 eq_refl) as [Hline _]. rewrite Forall_forall in Hline. split; [auto|]. exists x, p. split; [|now left]. rewrite H1 in Hu.
      apply filter_In in Hu as [Hu _]. clear -Hu. induction p as [|[y|k z] p IH]; cbn [toksT flat_map] in Hu; [destruct Hu| |].
      * destruct Hu as [<-|Hu]; [now left|right; auto].
      * right. apply IH. exact Hu.
    + destruct (IHsays _ Hu Hc) as [[A B]|[A (y & q & B & D)]];
         [left; split; [exact A|now right]|right; split; [exact A|exists y, q; split; [exact B|now right]]].
Qed.
Lemma realizes_item e is ps : realizes e is ps -> forall i, In i is ->
  match i with
  | IText k s => exists p, In p ps /\ p_text p = s /\ p_kind p = k
  | IComment x q => exists w ls, cmt e x q w = Ok ls /\ (forall s, In s ls -> exists p, In p ps /\ p_text p = s /\ p_kind p = PkLine)
  end.
Proof.
  induction 1; intros i Hi; [destruct Hi| |].
  - destruct Hi as [<-|Hi].
    + exists p. split; [now left|auto].
    + specialize (IHrealizes _ Hi). destruct i.
      * destruct IHrealizes as (p' & A & B). exists p'. split; [now right|auto].
      * destruct IHrealizes as (w & ls & A & B). exists w, ls. split; auto. intros s' Hs. destruct (B _ Hs) as (p' & C & D).
        exists p'. split; [now right|auto].
  - destruct Hi as [<-|Hi].
    + exists w, ls. split; [exact H|]. intros s Hs. rewrite <- H1 in Hs. apply in_map_iff in Hs as (p & <- & Hp).
      exists p. split; [apply in_or_app; now left|]. split; auto. rewrite Forall_forall in H2. auto.
    + specialize (IHrealizes _ Hi). destruct i.
      * destruct IHrealizes as (p' & A & B). exists p'. split; [apply in_or_app; now right|auto].
      * destruct IHrealizes as (w' & ls' & A & B). exists w', ls'. split; auto. intros s' Hs. destruct (B _ Hs) as (p' & C & D).
        exists p'. split; [apply in_or_app; now right|auto].
Qed.
(** Every bracket comment is written as it is (up to trailing blanks of its
    lines); every line comment belongs to a block which the comment formatter
    turned into lines, and each of these lines is written. What the comment
    formatter keeps is the subject of C41. *)
Theorem C44_file_comments_partial c specs tbl src text v :
  run_cfg c specs tbl -> p_usetabs c = false -> process_file c src = Ok (text, v) ->
  forall toks, tokenize src = Ok toks -> comments_plain c toks -> no_switch toks = true ->
  exists gs ps, text = bom_text c ++ page (f_endl (effective c src)) gs ps ++ f_endl (effective c src)
    /\ List.length gs = List.length ps
    /\ forall t, In t toks -> is_comment t = true ->
       (is_tt BRACKET_COMMENT t = true /\ exists p, In p ps /\ p_text p = normalize (spelling t))
       \/ (is_tt COMMENT t = true /\ exists x block w lines,
             In (T t) block /\ cmt (pipe_env c src toks) x block w = Ok lines
             /\ forall s, In s lines -> exists p, In p ps /\ p_text p = s /\ p_kind p = PkLine).
Proof.
  intros R Ht H toks Hl Hcl Hno.
  destruct (C34_file_pairs true _ _ _ _ _ _ R Ht H toks Hl (fun _ => Hcl) Hno) as (rs & is0 & is & gs & ps & A & _ & B & C & _ & D & E & F).
  exists gs, ps. split; [exact F|]. split.
  { clear -E. revert E. generalize (@None pk) as k. revert ps.
    induction gs as [|g gs IH]; intros [|p ps] k H; simpl in H; try tauto. simpl. f_equal. eapply IH. apply H. }
  intros t Hin Hc.
  assert (Hrs : In t (map snd rs)).
  { eapply Permutation_in; [exact A|]. apply filter_In. split.
    - destruct toks as [|u r]; [destruct Hin|]. unfold strip_bom_tok. destruct (is_tt BYTEORDER_MARK u) eqn:Eu; [|exact Hin].
      destruct Hin as [<-|Hin]; [|exact Hin]. unfold is_tt in Eu. unfold is_comment in Hc. destruct (tt u); discriminate.
    - unfold nonws, is_ws. unfold is_comment in Hc. destruct (tt t); easy. }
  destruct (says_comment _ _ B _ Hrs Hc) as [[G1 G2]|[G1 (x & q & G2 & G3)]].
  - left. split; [exact G1|]. apply (Permutation_in _ C) in G2.
    destruct (realizes_item _ _ _ D _ G2) as (p & I1 & I2 & _). eauto.
  - right. split; [exact G1|]. apply (Permutation_in _ C) in G3.
    destruct (realizes_item _ _ _ D _ G3) as (w & ls & I1 & I2). exists x, q, w, ls. auto.
Qed.

(** ** Refutations *)
(** The arguments CMake reads in a text without quotes, brackets and comments:
    runs of characters other than blanks and parentheses, where a backslash takes
    the next character with it. *)
Fixpoint cmake_args (cur : str) (s : str) : list str :=
  let flush := match cur with nil => nil | _ => [rev cur] end in
  match s with
  | nil => flush
  | c :: s' =>
      if N.eqb c 92 then match s' with d :: s'' => cmake_args (d :: c :: cur) s'' | nil => flush end
      else if is_aspace c || N.eqb c 40 || N.eqb c 41 then flush ++ cmake_args nil s'
      else cmake_args (c :: cur) s'
  end.
(** one argument becomes two *)
Theorem C38_split_refuted : exists src out,
  process_file default_pcfg src = Ok (out, true)
  /\ cmake_args nil src = [$"foo"; $"a\.b"] /\ cmake_args nil out = [$"foo"; $"a"; $"\.b"].
Proof. exists (nl [$"foo(a\.b)"]). eexists. split; [vm_compute; reflexivity|]. split; vm_compute; reflexivity. Qed.

Definition count_tt (k : ttype) (toks : list token) : nat := List.length (filter (is_tt k) toks).
Definition toks_of (s : str) : list token := get_ok nil (tokenize s).
(** C35: the rest of the statement is swallowed by the comment: the output has no
    closing parenthesis outside comments, the input has one. First a bracket
    comment with a line comment below it, then a format switch among the arguments. *)
Theorem C35_bracket_refuted : exists src out,
  process_file default_pcfg src = Ok (out, true)
  /\ count_tt RIGHT_PAREN (toks_of src) = 1%nat /\ count_tt RIGHT_PAREN (toks_of out) = 0%nat
  /\ out = nl [$"foo(aaa # two b)"].
Proof.
  exists (nl [$"foo(aaa #[[one]]"; $"        # two"; $"  b)"]). eexists. split; [vm_compute; reflexivity|].
  repeat split; vm_compute; reflexivity.
Qed.
Theorem C35_switch_refuted : exists src out,
  process_file default_pcfg src = Ok (out, true)
  /\ count_tt RIGHT_PAREN (toks_of src) = 1%nat /\ count_tt RIGHT_PAREN (toks_of out) = 0%nat
  /\ out = nl [$"add_library(foo STATIC # cmake-format: off a.cc b.cc)"].
Proof.
  exists (nl [$"add_library(foo STATIC # cmake-format: off"; $"  a.cc b.cc)"]). eexists. split; [vm_compute; reflexivity|].
  repeat split; vm_compute; reflexivity.
Qed.
(** ... and two comments end up in one *)
Theorem C35_misaligned_refuted : exists src out,
  process_file default_pcfg src = Ok (out, true)
  /\ count_tt COMMENT (toks_of src) = 2%nat /\ count_tt COMMENT (toks_of out) = 1%nat
  /\ out = nl [$"foo(a"; $"    # one # two"; $"    b)"].
Proof.
  exists (nl [$"foo(a"; $"  # one"; $"    # two"; $"  b)"]). eexists. split; [vm_compute; reflexivity|].
  repeat split; vm_compute; reflexivity.
Qed.
(** C44: a bracket comment disappears *)
Theorem C44_bracket_refuted : exists src out,
  process_file default_pcfg src = Ok (out, true)
  /\ count_tt BRACKET_COMMENT (toks_of src) = 1%nat
  /\ (forall a b, out <> a ++ $"one" ++ b).
Proof.
  exists (nl [$"foo(aaa #[[one]]"; $"        # two"; $"  b)"]). eexists. split; [vm_compute; reflexivity|].
  split; [vm_compute; reflexivity|]. intros a b E.
  do 17 (destruct a as [|? a]; [discriminate|]; injection E as _ E). destruct a; discriminate.
Qed.
Print Assumptions C33_file_positions.
Print Assumptions C34_file_texts.
Print Assumptions C34_file_pairs.
Print Assumptions C35_file_comments.
Print Assumptions C36_file_width.
Print Assumptions C36_file_pieces.
Print Assumptions C38_file_apart_partial.
Print Assumptions C44_file_comments_partial.
