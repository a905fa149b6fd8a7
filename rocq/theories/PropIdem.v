(** * PropIdem: formatting the formatter's output changes nothing (C75) *)
From Verif Require Import Base Regex Lex LexProofs LexClass PropLex TextOps TextProofs PropText Tree Parse ParseProofs ParseTerm PropParse PropTerm
  CmdSpec StdSpecs StdDb StdWf PropStd StdShape Layout LayoutProofs Pieces Writing LayKids PropLayout Markup MarkupProofs Pipeline PropCase PropFile PropLintChecks
  ParseShape NamesShape WordShape CommentShape TidyShape Reread CommentFree PropReread ParseBlank ParseSame BodySame StdSame PropSame
  LaySame LayBlock Places ParseLines StmtSame IdemCore.
From Coq Require Import Permutation.

(** ** The blank tokens at the beginning of a file *)
Fixpoint lead (l : list token) : list token := match l with t :: r => if is_ws t then t :: lead r else nil | nil => nil end.
Lemma take_lead l : exists r, take_ws l = (map T (lead l), r).
Proof.
  induction l as [|t l (r & E1)]; [exists nil; auto|]. cbn [take_ws lead]. destruct (is_ws t) eqn:Ew; [|exists (t :: l); auto].
  rewrite E1. exists r. reflexivity.
Qed.
Lemma map_T_inj a : forall b, map T a = map T b -> a = b.
Proof. induction a as [|x a IH]; intros [|y b] H; try discriminate; auto. cbn [map] in H. injection H as <- H. f_equal. auto. Qed.
Section Lead.
  Variable ctx : pctx.
  Hypotheses (Hwf : wfctx true ctx) (Hwk : wfkctx ctx).
  Lemma body_lead n bset acc l a r e : body_loop n ctx bset acc l = Ok (a, r) -> lined e l ->
    exists new e1, a = acc ++ new /\ body_at true new e e1 /\ (nlcs (lead l) < 2 -> kids new = kids (dropb new)).
  Proof.
    intros H Hl. assert (Same : forall new e1, body_at false new e e1 -> body_at true new e e1 /\ (nlcs (lead l) < 2 -> kids new = kids (dropb new))).
    { intros new e1 B. split; [now apply bo_weak|]. intros _. now rewrite (drop_false _ _ _ B). }
    destruct l as [|t l]; [|destruct (is_ws t) eqn:Ew].
    - destruct (proj1 (body_lines ctx Hwf Hwk n) _ _ _ _ _ _ false H Hl I) as (new & e1 & -> & B & _). exists new, e1. split; auto.
    - destruct n as [|m]; [discriminate|]. cbn [body_loop] in H. rewrite Ew in H. destruct (take_ws (t :: l)) as [w1 r0] eqn:E1.
      pose proof (take_lead (t :: l)) as (r1 & E2). pose proof E1 as E3. apply take_ws_split in E3 as (ws & E & Ews & W & Hh). rewrite E1 in E2. assert (E4 : w1 = map T (lead (t :: l))) by congruence. assert (E5 : r1 = r0) by congruence. subst r1. clear E2.
      assert (ws = lead (t :: l)) as -> by (apply map_T_inj; congruence).
      subst w1. rewrite E in Hl. pose proof Hl as Hl'. apply lined_app in Hl.
      destruct (proj1 (body_lines ctx Hwf Hwk m) _ _ _ _ _ _ false H Hl) as (new & e1 & -> & B & L).
      { destruct r0 as [|u r0]; [exact I|]. intros Eu. rewrite Eu in Hh. discriminate Hh. }
      exists (N KWhitespace (map T (lead (t :: l))) :: new), e1. split; [now rewrite <- app_assoc|].
      assert (B' : body_at true (N KWhitespace (map T (lead (t :: l))) :: new) e e1) by now apply bo_white.
      split; [exact B'|]. intros Hlt.
      assert (Ek : dropb (N KWhitespace (map T (lead (t :: l))) :: new) = new) by (cbn [dropb blankb]; now apply (drop_false _ _ _ B)). rewrite Ek.
      change (N KWhitespace (map T (lead (t :: l))) :: new) with ([N KWhitespace (map T (lead (t :: l)))] ++ new). rewrite kids_app.
      enough (kids [N KWhitespace (map T (lead (t :: l)))] = nil) as -> by reflexivity. clear -Hlt. revert Hlt. generalize (lead (t :: l)) as ws. intros ws Hlt.
      unfold kids. cbn [flat_map]. assert (Eq : node_newlines (N KWhitespace (map T ws)) = nlcs ws).
      { rewrite newlines_text. cbn [flat]. clear. induction ws as [|t ws IH]; [reflexivity|]. cbn [map flat_map flat nlcs]. rewrite map_app, concat_app, count_chr_app.
        cbn [map concat]. rewrite app_nil_r. unfold nlc. f_equal. exact IH. }
      rewrite Eq. apply Z.ltb_lt in Hlt. now rewrite Hlt.
    - destruct (proj1 (body_lines ctx Hwf Hwk n) _ _ _ _ _ _ false H Hl) as (new & e1 & -> & B & _).
      { cbn [wfree]. congruence. }
      exists new, e1. split; auto.
  Qed.
  Lemma parse_lead l e tree : parse ctx l = Ok tree -> lined e (strip_bom_tok l) ->
    exists cs e1, tree = N KBody cs /\ body_at true cs e e1 /\ (nlcs (lead (strip_bom_tok l)) < 2 -> kids cs = kids (dropb cs)).
  Proof.
    unfold parse. intros H Hl. destruct (parse_bom ctx l) as (n & E1). rewrite E1 in H. apply bindr_ok in H as ([a r] & E & H). injection H as <-.
    destruct (body_lead _ _ _ _ _ _ _ E Hl) as (new & e1 & -> & B & K). exists new, e1. auto.
  Qed.
End Lead.

Lemma in_strip t toks : In t (strip_bom_tok toks) -> In t toks.
Proof. unfold strip_bom_tok. destruct toks as [|u l]; [auto|]. destruct (is_tt BYTEORDER_MARK u); [now right|auto]. Qed.
Lemma lexed_located src toks : tokenize src = Ok toks -> located 1 (strip_bom_tok toks).
Proof.
  intros H. destruct (tokenize_strip _ _ H) as (_ & _ & _ & Hx). destruct (tokenize_eq src) as (ts & E & Hsc & _). rewrite H in E. injection E as ->.
  pose proof (scanned_no_bom _ _ _ Hsc 1 0 0) as Hb.
  assert (Hn : strip_bom_tok (locate 1 0 0 ts) = locate 1 0 0 ts).
  { destruct (locate 1 0 0 ts) as [|t r]; auto. simpl. inversion Hb as [|? ? Ht _]; subst.
    destruct (is_tt BYTEORDER_MARK t) eqn:Et; auto. unfold is_tt in Et. now apply ttype_eqb_eq in Et. }
  pose proof (locate_located ts 1 0 0) as L. unfold bom_prefix. destruct src as [|a s]; [cbn [app]; now rewrite Hn|].
  destruct (N.eqb a cBOM); [exact L|cbn [app]; now rewrite Hn].
Qed.
Lemma lexed_ground src toks : tokenize src = Ok toks -> Forall ground (strip_bom_tok toks).
Proof.
  intros H. apply Forall_forall. intros t Hin. pose proof (lexed_good _ _ H) as G. rewrite Forall_forall in G. apply in_strip in Hin. split; [now apply G|].
  intros Hr. unfold is_tt in Hr. apply ttype_eqb_eq in Hr. apply in_split in Hin as (pre & post & E).
  destruct (C04_token_classes _ _ _ _ _ H E) as [Hs _]; [congruence|]. rewrite Hr in Hs. cbn in Hs. unfold nlc. now rewrite Hs.
Qed.

Section File.
  Variables (c : pcfg) (specs : list (str * uspec)) (tbl : list (str * parser)).
  Hypothesis R : run_cfg c specs tbl.
  (** What the earlier chapters know about the tree of a file without comments and switches. *)
  Lemma file_fit src toks tree : tokenize src = Ok toks -> parse (p_ctx c) toks = Ok tree -> comment_free toks = true -> no_switch toks = true ->
    lined 1 (strip_bom_tok toks) /\ ready (pipe_env c src toks) tree /\ no_off (create_box tree) = true
    /\ fit (pipe_env c src toks) false KBody tree /\ ParseBlank.nows (strip_bom_tok toks) = ParseBlank.nows (flat tree).
  Proof.
    intros Hl Hp Hf Hn. pose proof (lexed_calm _ _ Hl Hf Hn) as Hc.
    destruct (run_ready _ _ _ _ _ _ R Hl Hp) as (Ht & Hr & _).
    pose proof R as ((ex & vt & Hctx) & Hut & _). pose proof Hp as Hp'. rewrite Hctx in Hp'.
    assert (Ho : no_onoff toks).
    { unfold no_switch in Hn. rewrite forallb_forall in Hn. apply Forall_forall. intros t Hin. apply Hn in Hin. now apply negb_true_iff. }
    destruct (C05_file_tuples_partial ex vt specs tbl Hut _ _ _ Hl Ho Hp') as [HP HS].
    assert (Hc' : calm (flat tree) = true).
    { unfold calm in *. rewrite forallb_forall in *. intros t Hin. apply Hc. eapply Permutation_in; [|exact Hin]. now apply Permutation_sym. }
    split; [split; [exact Hc|split; [eapply lexed_ground; eauto|eapply lexed_located; eauto]]|].
    split; [exact Hr|]. split; [|split].
    - destruct tree as [u|k cs]; [reflexivity|]. apply box_no_off. apply forallb_forall. intros t Hin.
      rewrite (fit_toks (pipe_env c src toks) false KBody k cs) in Hin by (destruct Hr as (_ & _ & Hw & Hnm); repeat split; auto). apply filter_In in Hin as [Hj _].
      unfold no_onoff in Ho. rewrite Forall_forall in Ho. rewrite Ho; auto. apply in_strip. eapply Permutation_in; [|exact Hj]. now apply Permutation_sym.
    - destruct Hr as (_ & _ & Hw & Hnm). repeat split; auto.
    - now rewrite <- (semantics_nows _ Hc), <- (semantics_nows _ Hc').
  Qed.
End File.

(** ** C75 *)
(** The file begins with at most one line break. *)
Definition starts_low (toks : list token) : Prop := nlcs (lead (strip_bom_tok toks)) < 2.

(** The options of two runs, apart from the end of lines. *)
Lemma eff_names c s s' b parent : names_ok (effective c s) parent b = names_ok (effective c s') parent b.
Proof.
  revert parent. induction b as [k p cs IH] using box_ind'. intros parent. cbn [names_ok]. f_equal.
  - unfold effective. destruct (p_auto c); reflexivity.
  - induction IH as [|x cs Hx _ IHl]; [reflexivity|]. cbn [forallb]. now rewrite Hx, IHl.
Qed.
Lemma eff_overrides a b s s' : overrides (p_fmt a) (p_fmt b) -> overrides (effective a s) (effective b s').
Proof. unfold effective. destruct (p_auto a), (p_auto b); exact (fun H => H). Qed.
Lemma eff_passes c s : plain_passes (p_fmt c) -> plain_passes (effective c s).
Proof. unfold effective. destruct (p_auto c); exact (fun H => H). Qed.
Lemma run_with_tabs c src toks tree l o text : tokenize src = Ok toks -> parse (p_ctx c) toks = Ok tree ->
  layout_tree (pipe_env c src toks) tree = Ok l -> write_tree (effective c src) src l = Ok o ->
  replace_with_tabs (p_usetabs c) (f_tab (p_fmt c)) (p_tabpol c) (if p_bom c then cBOM :: o else o) = Ok text ->
  process_file c src = Ok (text, lvalid l).
Proof. intros H1 H2 H3 H4 H5. unfold process_file. rewrite H1. cbn [bindr]. rewrite H2. cbn [bindr]. rewrite H3. cbn [bindr]. rewrite H4. cbn [bindr]. now rewrite H5. Qed.

(** C76: when a file (of the kind of C74, not beginning with blank lines) is formatted
    with the options [a] and the output then with the options [b], the result is
    that of formatting the file with [b] alone. *)
Theorem C76_restyle a b specs tbl src text v textb vb :
  run_cfg a specs tbl -> run_cfg b specs tbl -> p_ctx b = p_ctx a -> table_nb tbl = true ->
  p_usetabs a = false -> f_endl (effective a src) = [cNL] -> markup_calm (p_markup a) ->
  f_autosort (p_fmt a) = false -> f_autosort (p_fmt b) = false ->
  overrides (p_fmt a) (p_fmt b) -> plain_passes (p_fmt a) -> plain_passes (p_fmt b) ->
  effective b text = effective b src ->
  process_file a src = Ok (text, v) -> process_file b src = Ok (textb, vb) ->
  forall toks tree, tokenize src = Ok toks -> parse (p_ctx a) toks = Ok tree ->
  comment_free toks = true -> no_switch toks = true -> steady_file a toks ->
  forallb settled (strip_bom_tok toks) = true -> forallb level (semantics (strip_bom_tok toks)) = true ->
  tags_quiet (p_ctx a) tree -> loops_full tree = true -> condok toks -> starts_low toks ->
  exists v', process_file b text = Ok (textb, v').
Proof.
  intros R Rb Ec Hnb Ht He Hc Ha Hab Hov Hpa Hpb Hee H Hbr toks tree Hl Hp Hfree Hno Hst Hse Hlev Hq Hfull Hco Hlow.
  destruct (file_free _ _ _ _ _ _ R Hnb Ht He Hc Ha H toks tree Hl Hp Hfree Hno Hst Hse Hlev Hq Hfull Hco) as (toks' & Hl' & Hf' & Hn' & Hx).
  pose proof R as ((ex & vt & Hctx) & Hut & Hk & _ & _ & _ & _ & Htab & _).
  assert (Hw : wfctx true (p_ctx a)) by (rewrite Hctx; eapply std_wfctx; eauto).
  assert (Hwk : wfkctx (p_ctx a)) by (rewrite Hctx; now apply std_wkctx).
  assert (Hpl : comments_plain a toks) by (eapply clean_plain; eauto; now apply free_clean).
  destruct Hx as (tree' & Hp' & k & cs1 & cs2 & E1 & E2 & Hls).
  destruct (file_places _ _ _ _ _ _ R Ht He Hc H toks Hl Hpl Hno Hst) as (tree0 & l & toks0 & Hp0 & Hlay & Hl0 & Hoff & _ & _ & Hstand).
  rewrite Hp in Hp0. injection Hp0 as <-. rewrite Hl' in Hl0. injection Hl0 as <-.
  assert (Hpb1 : parse (p_ctx b) toks = Ok tree) by now rewrite Ec. assert (Hpb2 : parse (p_ctx b) toks' = Ok tree') by now rewrite Ec.
  destruct (file_fit _ _ _ R _ _ _ Hl Hp Hfree Hno) as (L1 & _ & _ & F1 & _).
  destruct (file_fit _ _ _ R _ _ _ Hl' Hp' Hf' Hn') as (L2 & _ & _ & F2 & N2).
  destruct (file_fit _ _ _ Rb _ _ _ Hl Hpb1 Hfree Hno) as (_ & Q1 & O1 & _ & _).
  destruct (file_fit _ _ _ Rb _ _ _ Hl' Hpb2 Hf' Hn') as (_ & Q2 & O2 & _ & _).
  destruct (parse_lead _ Hw Hwk _ _ _ Hp L1) as (c1 & d1 & T1 & B1 & K1). specialize (K1 Hlow).
  destruct (parse_lead _ Hw Hwk _ _ _ Hp' L2) as (c2 & d2 & T2 & B2 & _).
  rewrite E1 in T1. injection T1 as -> <-. rewrite E2 in T2. injection T2 as <-. subst tree tree'.
  unfold ParseBlank.nows in N2. change TidyShape.nonws with ParseBlank.nonws in Hstand. rewrite N2 in Hstand.
  assert (Elock : forall c s n, f_autosort (p_fmt c) = false -> lock (f_autosort (effective c s)) n = n) by (intros c s n Hz; rewrite eff_sort, Hz; apply lock_off).
  unfold layout_tree in Hlay. cbn [cfg pipe_env] in Hlay. rewrite Elock in Hlay by exact Ha. apply bindr_ok in Hlay as ([l0 o] & Hre & Hlay). injection Hlay as ->.
  unfold process_file in Hbr. rewrite Hl in Hbr. cbn [bindr] in Hbr. rewrite Hpb1 in Hbr. cbn [bindr] in Hbr.
  apply bindr_ok in Hbr as (lb & Hlb & Hbr). apply bindr_ok in Hbr as (ob & Hob & Hbr). apply bindr_ok in Hbr as (tb & Htb & Hbr). injection Hbr as -> Hvb.
  pose proof Hlb as Hlb'. unfold layout_tree in Hlb'. cbn [cfg pipe_env] in Hlb'. rewrite Elock in Hlb' by exact Hab.
  apply bindr_ok in Hlb' as ([l1 o1] & Hreb & Hlb'). injection Hlb' as ->.
  destruct (top_core (p_ctx a) (pipe_env a src toks) false ltac:(cbn; now rewrite eff_tab) (effective b src) (eff_overrides _ _ _ _ Hov) (eff_passes _ _ Hpa))
    with (e1 := pipe_env b src toks) (e2 := pipe_env b text toks') (cs1 := cs1) (cs2 := cs2) (d := 1) (d1 := d1) (f1 := d2) (parent := KBody)
    (sib := 0%nat) (path := @nil str) (l := l) (o := o) (sib' := 0%nat) (path' := @nil str) (l1 := lb) (o1 := o1) as (l' & o' & Hre' & Hpc); auto.
  - now apply eff_passes.
  - destruct F2 as (A & B & C & D). split; [exact A|split; [exact B|split; [exact C|]]]. change (cfg (pipe_env a src toks)) with (effective a src).
    rewrite (eff_names a src text). exact D.
  - assert (Hlay2 : layout_tree (pipe_env b text toks') (N KBody cs2) = Ok l').
    { unfold layout_tree. cbn [cfg pipe_env]. rewrite Elock, Hre' by exact Hab. reflexivity. }
    pose proof (write_placed _ _ _ src Q1 O1 Hlb) as W1. pose proof (write_placed _ _ _ text Q2 O2 Hlay2) as W2.
    cbn [cfg pipe_env] in W1, W2. rewrite Hee in W2. rewrite Hpc, <- W1 in W2. rewrite Hob in W2.
    exists (lvalid l'). eapply run_with_tabs; eauto. now rewrite Hee.
Qed.

(** C75, for the files of C74 that do not begin with blank lines, when the spelling
    of command names and keywords depends on their letters only up to case and
    [layout_passes] has no entry for bodies, blocks and blank lines: formatting the
    output succeeds and gives the output again. *)
Theorem C75_idempotent_partial c specs tbl src text v :
  run_cfg c specs tbl -> table_nb tbl = true ->
  p_usetabs c = false -> f_endl (effective c src) = [cNL] -> effective c text = effective c src -> markup_calm (p_markup c) ->
  f_autosort (p_fmt c) = false -> case_blind (p_fmt c) -> plain_passes (p_fmt c) ->
  process_file c src = Ok (text, v) ->
  forall toks tree, tokenize src = Ok toks -> parse (p_ctx c) toks = Ok tree ->
  comment_free toks = true -> no_switch toks = true -> steady_file c toks ->
  forallb settled (strip_bom_tok toks) = true -> forallb level (semantics (strip_bom_tok toks)) = true ->
  tags_quiet (p_ctx c) tree -> loops_full tree = true -> condok toks -> starts_low toks ->
  exists v', process_file c text = Ok (text, v').
Proof. intros. eapply (C76_restyle c c); eauto using overrides_same. Qed.

(** The hypotheses hold of this file, which the formatter changes. *)
Example C75_ex : exists toks tree text,
  tokenize src_same = Ok toks /\ parse (p_ctx flat_pcfg) toks = Ok tree /\ table_nb user_tbl = true
  /\ effective flat_pcfg text = effective flat_pcfg src_same /\ case_blind (p_fmt flat_pcfg) /\ plain_passes (p_fmt flat_pcfg)
  /\ comment_free toks = true /\ no_switch toks = true /\ steady_file flat_pcfg toks
  /\ forallb settled (strip_bom_tok toks) = true /\ forallb level (semantics (strip_bom_tok toks)) = true
  /\ tags_quiet (p_ctx flat_pcfg) tree /\ loops_full tree = true /\ condok toks /\ starts_low toks
  /\ process_file flat_pcfg src_same = Ok (text, true) /\ text <> src_same
  /\ exists v, process_file flat_pcfg text = Ok (text, v).
Proof.
  assert (H : exists toks, tokenize src_same = Ok toks) by (eexists; vm_compute; reflexivity). destruct H as [toks H].
  assert (Hp : exists tree, parse (p_ctx flat_pcfg) toks = Ok tree) by (vm_compute in H; injection H as <-; eexists; vm_compute; reflexivity). destruct Hp as [tree Hp].
  assert (Hx : exists text, process_file flat_pcfg src_same = Ok (text, true)) by (eexists; vm_compute; reflexivity). destruct Hx as [text Hx].
  destruct (same_srced _ _ _ _ H Hp ltac:(vm_compute; reflexivity)) as (A & B & C & D & E & F & G).
  assert (Q : tags_quiet (p_ctx flat_pcfg) tree) by (intros k t m s _ _ []).
  assert (Hnb : table_nb user_tbl = true) by (vm_compute; reflexivity).
  assert (Hcb : case_blind (p_fmt flat_pcfg)) by (intros s s' Hs; split; [reflexivity|exact Hs]).
  assert (Hpp : plain_passes (p_fmt flat_pcfg)) by (repeat split).
  assert (Hlow : starts_low toks) by (clear -H; vm_compute in H; injection H as <-; vm_compute; reflexivity).
  destruct (C75_idempotent_partial _ _ _ src_same text true flat_run Hnb eq_refl eq_refl eq_refl default_calm eq_refl Hcb Hpp Hx _ _ H Hp A B C D E Q F G Hlow) as (v' & T1).
  exists toks, tree, text. repeat (split; [assumption || reflexivity|]). split; [|eauto].
  clear -Hx. vm_compute in Hx. injection Hx as <-. discriminate.
Qed.
(** Another style: wide lines, other indentation, letter case, line ends, tabs. *)
Definition other_fcfg : fcfg :=
  FCfg 60 4 2 6 2 2 4 10 false true false $"prefix" false $"upper"
       (fun _ => $"upper") lower nil nil [cCR; cNL].
Definition other_pcfg : pcfg :=
  PCfg other_fcfg default_mcfg (std_ctx no_explicit nil user_tbl) false false true UseSpace.
Example other_run : run_cfg other_pcfg user_specs user_tbl.
Proof.
  split; [exists no_explicit, nil; reflexivity|]. repeat (split; [vm_compute; reflexivity|]).
  split; [|split; [apply default_markup_ok|split; [vm_compute; discriminate|now right]]].
  split; intros s; [right; now left|apply lower_lower].
Qed.
Example C76_ex : exists toks tree text textb,
  tokenize src_same = Ok toks /\ parse (p_ctx flat_pcfg) toks = Ok tree
  /\ p_ctx other_pcfg = p_ctx flat_pcfg /\ overrides (p_fmt flat_pcfg) (p_fmt other_pcfg) /\ starts_low toks
  /\ process_file flat_pcfg src_same = Ok (text, true) /\ process_file other_pcfg src_same = Ok (textb, true) /\ text <> textb
  /\ exists v, process_file other_pcfg text = Ok (textb, v).
Proof.
  assert (H : exists toks, tokenize src_same = Ok toks) by (eexists; vm_compute; reflexivity). destruct H as [toks H].
  assert (Hp : exists tree, parse (p_ctx flat_pcfg) toks = Ok tree) by (vm_compute in H; injection H as <-; eexists; vm_compute; reflexivity). destruct Hp as [tree Hp].
  assert (Hx : exists text, process_file flat_pcfg src_same = Ok (text, true)) by (eexists; vm_compute; reflexivity). destruct Hx as [text Hx].
  assert (Hy : exists textb, process_file other_pcfg src_same = Ok (textb, true)) by (eexists; vm_compute; reflexivity). destruct Hy as [textb Hy].
  destruct (same_srced _ _ _ _ H Hp ltac:(vm_compute; reflexivity)) as (A & B & C & D & E & F & G).
  assert (Q : tags_quiet (p_ctx flat_pcfg) tree) by (intros k t m s _ _ []).
  assert (Hnb : table_nb user_tbl = true) by (vm_compute; reflexivity).
  assert (Hov : overrides (p_fmt flat_pcfg) (p_fmt other_pcfg)).
  { apply overrides_fixed; [intros s s' Hs; split; [reflexivity|exact Hs]|]. split; [discriminate|right; reflexivity]. }
  assert (Hpp : plain_passes (p_fmt flat_pcfg)) by (repeat split). assert (Hpp2 : plain_passes (p_fmt other_pcfg)) by (repeat split).
  assert (Hlow : starts_low toks) by (clear -H; vm_compute in H; injection H as <-; vm_compute; reflexivity).
  destruct (C76_restyle flat_pcfg other_pcfg _ _ src_same text true textb true flat_run other_run eq_refl Hnb eq_refl eq_refl default_calm eq_refl eq_refl Hov Hpp Hpp2 eq_refl Hx Hy
    _ _ H Hp A B C D E Q F G Hlow) as (v' & T1).
  exists toks, tree, text, textb. repeat (split; [assumption || reflexivity|]). split; [|eauto].
  clear -Hx Hy. vm_compute in Hx. vm_compute in Hy. injection Hx as <-. injection Hy as <-. discriminate.
Qed.
Print Assumptions C75_idempotent_partial.
Print Assumptions C76_restyle.
