(** * PropIdem2: formatting the formatter's output changes nothing, with comments (C101) *)
From Verif Require Import Base Regex Lex LexProofs LexClass PropLex TextOps TextProofs PropText Tree Parse ParseProofs ParseTerm PropParse PropTerm
  CmdSpec StdSpecs StdDb StdWf PropStd StdShape Layout LayoutProofs Pieces Writing LayKids PropLayout Markup MarkupProofs Pipeline PropCase PropFile PropLintChecks
  ParseShape NamesShape WordShape CommentShape TidyShape Reread CommentFree PropReread ParseBlank ParseSame BodySame StdSame OutSame PropSame
  LaySame LayBlock Places ParseLines StmtSame IdemCore PropIdem Places2 ParseLines2 LayBlock2 IdemCore2.
From Coq Require Import Permutation.

(** ** Files with comments *)
Lemma lexed_calm2 src toks : tokenize src = Ok toks -> no_switch toks = true -> calm2 (strip_bom_tok toks) = true.
Proof.
  intros Hl Hn. destruct (tokenize_strip _ _ Hl) as (_ & Hb & _). unfold calm2. apply forallb_forall. intros t Hin.
  assert (Hin' : In t toks) by now apply in_strip.
  unfold no_switch in *. rewrite forallb_forall in Hn. specialize (Hn _ Hin').
  apply negb_true_iff in Hn. unfold no_bom in Hb. rewrite Forall_forall in Hb. specialize (Hb _ Hin).
  unfold calm2t. rewrite Hn. replace (is_tt BYTEORDER_MARK t) with false by (unfold is_tt; destruct (tt t); auto; congruence).
  cbn [orb negb andb]. apply in_split in Hin' as (pre & post & E). destruct (C04_token_classes _ _ _ _ _ Hl E Hb) as [Hs _].
  unfold is_ws. destruct (tt t) eqn:Et; auto.
  - cbn in Hs |- *. destruct Hs as [_ Hs]. rewrite forallb_forall in *. intros c Hi. specialize (Hs _ Hi).
    destruct (is_aspace c) eqn:Ea; auto. apply aspace_blank in Ea. congruence.
  - cbn in Hs |- *. destruct Hs as [->|[->| ->]]; reflexivity.
Qed.
Lemma lexed_ground2 src toks : tokenize src = Ok toks -> Forall ground2 (strip_bom_tok toks).
Proof.
  intros H. pose proof (lexed_ground _ _ H) as G. rewrite Forall_forall in *. intros t Hin. destruct (G _ Hin) as [G1 G2]. split; [exact G1|]. split; [exact G2|].
  apply in_strip in Hin. apply in_split in Hin as (pre & post & E).
  split; intros Ht; unfold is_tt in Ht; apply ttype_eqb_eq in Ht; destruct (C04_token_classes _ _ _ _ _ H E) as [Hs _]; try congruence; rewrite Ht in Hs; cbn in Hs; unfold nlc.
  - destruct Hs as [->|[->| ->]]; vm_compute; discriminate.
  - destruct Hs as [_ Hs]. apply count_chr_zero. intros Hi. rewrite forallb_forall in Hs. apply Hs in Hi. discriminate Hi.
Qed.

Section Lead2.
  Variable ctx : pctx.
  Variable tg : bool.
  Hypotheses (Hwf : wfctx true ctx) (Hwk : wfkctx ctx).
  Lemma body_lead2 n acc l a r e : body_loop n ctx nil acc l = Ok (a, r) -> lined2 tg e l ->
    exists new z e1, a = acc ++ new /\ body2 ctx tg true new z e e1 None /\ nows l = z /\ (nlcs (lead l) < 2 -> kids new = kids (dropb new)).
  Proof.
    intros H Hl. pose proof (body_all _ _ _ _ _ _ H) as ->.
    assert (Same : forall m acc l, body_loop m ctx nil acc l = Ok (a, nil) -> forall e, lined2 tg e l -> wfree false l ->
      exists new z e1, a = acc ++ new /\ body2 ctx tg false new z e e1 None /\ nows l = z).
    { intros m acc0 l0 H0 e0 L0 W0. destruct (proj1 (body_lines2 ctx tg Hwf Hwk m) _ _ _ _ _ _ false H0 L0 W0) as (new & z & e1 & E & B & _ & Hz).
      exists new, z, e1. split; auto. split; auto. rewrite Hz. cbn. apply app_nil_r. }
    assert (Done : forall new z e1, a = acc ++ new -> body2 ctx tg false new z e e1 None -> nows l = z ->
      exists new z e1, a = acc ++ new /\ body2 ctx tg true new z e e1 None /\ nows l = z /\ (nlcs (lead l) < 2 -> kids new = kids (dropb new))).
    { intros new z e1 E B Hz. exists new, z, e1. split; auto. split; [now apply b2_weak|]. split; auto. intros _. now rewrite (body2_nonblank _ _ _ _ _ _ _ B). }
    destruct l as [|t l]; [|destruct (is_ws t) eqn:Ew].
    - destruct (Same _ _ _ H _ Hl I) as (new & z & e1 & E & B & Hz). eapply Done; eauto.
    - destruct n as [|m]; [discriminate|]. cbn [body_loop] in H. rewrite Ew in H. destruct (take_ws (t :: l)) as [w1 r0] eqn:E1.
      pose proof (take_lead (t :: l)) as (r1 & E2). pose proof E1 as E3. apply take_ws_split in E3 as (ws & E & Ews & W & Hh). rewrite E1 in E2.
      assert (E4 : w1 = map T (lead (t :: l))) by congruence. assert (E5 : r1 = r0) by congruence. subst r1. clear E2.
      assert (ws = lead (t :: l)) as -> by (apply map_T_inj; congruence).
      subst w1. rewrite E in Hl. pose proof Hl as Hl'. apply lined2_app in Hl.
      destruct (Same _ _ _ H _ Hl) as (new & z & e1 & -> & B & Hz).
      { destruct r0 as [|u r0]; [exact I|]. intros Eu. rewrite Eu in Hh. discriminate Hh. }
      exists (N KWhitespace (map T (lead (t :: l))) :: new), z, e1. split; [now rewrite <- app_assoc|].
      split; [now apply b2_white|]. split.
      { rewrite E, OutSame.nows_app, nows_blanks by auto. exact Hz. }
      intros Hlt.
      assert (Ek : dropb (N KWhitespace (map T (lead (t :: l))) :: new) = new) by (cbn [dropb blankb]; now apply (body2_nonblank _ _ _ _ _ _ _ B)). rewrite Ek.
      change (N KWhitespace (map T (lead (t :: l))) :: new) with ([N KWhitespace (map T (lead (t :: l)))] ++ new). rewrite kids_app.
      enough (kids [N KWhitespace (map T (lead (t :: l)))] = nil) as -> by reflexivity. clear -Hlt. revert Hlt. generalize (lead (t :: l)) as ws. intros ws Hlt.
      unfold kids. cbn [flat_map]. assert (Eq : node_newlines (N KWhitespace (map T ws)) = nlcs ws).
      { rewrite newlines_text. cbn [flat]. clear. induction ws as [|t ws IH]; [reflexivity|]. cbn [map flat_map flat nlcs]. rewrite map_app, concat_app, count_chr_app.
        cbn [map concat]. rewrite app_nil_r. unfold nlc. f_equal. exact IH. }
      rewrite Eq. apply Z.ltb_lt in Hlt. now rewrite Hlt.
    - destruct (Same _ _ _ H _ Hl) as (new & z & e1 & E & B & Hz).
      { cbn [wfree]. congruence. }
      eapply Done; eauto.
  Qed.
  Lemma parse_lead2 l e tree : parse ctx l = Ok tree -> lined2 tg e (strip_bom_tok l) ->
    exists cs e1, tree = N KBody cs /\ body2 ctx tg true cs (nows (strip_bom_tok l)) e e1 None /\ (nlcs (lead (strip_bom_tok l)) < 2 -> kids cs = kids (dropb cs)).
  Proof.
    unfold parse. intros H Hl. destruct (parse_bom ctx l) as (n & E1). rewrite E1 in H. apply bindr_ok in H as ([a r] & E & H). injection H as <-.
    destruct (body_lead2 _ _ _ _ _ _ E Hl) as (new & z & e1 & -> & B & <- & K). exists new, e1. auto.
  Qed.
End Lead2.

Section File2.
  Variables (c : pcfg) (specs : list (str * uspec)) (tbl : list (str * parser)).
  Hypothesis R : run_cfg c specs tbl.
  (** What the earlier chapters know about the tree of a file without switches. *)
  Lemma file_fit2 src toks tree : tokenize src = Ok toks -> parse (p_ctx c) toks = Ok tree -> no_switch toks = true ->
    lined2 false 1 (strip_bom_tok toks) /\ ready (pipe_env c src toks) tree /\ no_off (create_box tree) = true
    /\ fit2 (pipe_env c src toks) false KBody tree.
  Proof.
    intros Hl Hp Hn. pose proof (lexed_calm2 _ _ Hl Hn) as Hc.
    destruct (run_ready _ _ _ _ _ _ R Hl Hp) as (Ht & Hr & _).
    pose proof R as ((ex & vt & Hctx) & Hut & _). pose proof Hp as Hp'. rewrite Hctx in Hp'.
    assert (Ho : no_onoff toks).
    { unfold no_switch in Hn. rewrite forallb_forall in Hn. apply Forall_forall. intros t Hin. apply Hn in Hin. now apply negb_true_iff. }
    destruct (C05_file_tuples_partial ex vt specs tbl Hut _ _ _ Hl Ho Hp') as [HP HS].
    assert (Hc' : calm2 (flat tree) = true).
    { unfold calm2 in *. rewrite forallb_forall in *. intros t Hin. apply Hc. eapply Permutation_in; [|exact Hin]. now apply Permutation_sym. }
    split; [split; [exact Hc|split; [eapply lexed_ground2; eauto|split; [eapply lexed_located; eauto|discriminate]]]|].
    split; [exact Hr|]. split.
    - destruct tree as [u|k cs]; [reflexivity|]. apply box_no_off. apply forallb_forall. intros t Hin.
      rewrite (box_tokens false (N k cs) Ht) in Hin. apply filter_In in Hin as [Hj _].
      unfold no_onoff in Ho. rewrite Forall_forall in Ho. rewrite Ho; auto. apply in_strip. eapply Permutation_in; [|exact Hj]. now apply Permutation_sym.
    - destruct Hr as (_ & _ & Hw & Hnm). repeat split; auto.
  Qed.
End File2.

(** ** Comments on lines of their own *)
Section Apart.
  (** what is asked of each comment, [d] blocks deep *)
  Variable chk : nat -> list pnode -> bool.
  (** No comment stands inside a command or behind it, none is a bracket comment,
      and no comment directly follows another one in a different column. *)
  Fixpoint apart (d : nat) (n : pnode) : bool :=
    match n with
    | T _ => true
    | N k cs =>
      match k with
      | KStatement _ | KAtStmt => quiet_node (N k cs)
      | KComment _ => negb (is_bracket cs) && chk d cs
      | KFlow => forallb (fun x => apart (bodyd d x) x) cs
      | KBody => notwin (kids cs) && forallb (apart d) cs
      | _ => true
      end
    end.
  Section Own.
    Variables (ctx : pctx) (e : env) (ct : fcfg) (e1 e2 : env).
    Hypothesis Hchk : forall d pcs, chk d pcs = true -> still ctx e ct e1 e2 d pcs.
    Lemma apart_own n : forall d, apart d n = true -> own ctx e ct e1 e2 d n.
    Proof.
      induction n as [t|k cs IH] using pnode_ind'; [now intros|]. intros d H. destruct k; cbn [apart own] in *; auto.
      - apply andb_prop in H as [H1 H2]. split; [exact H1|]. clear H1. induction IH as [|x cs Hx _ IHl]; [exact I|]. cbn [forallb] in H2. apply andb_prop in H2 as [H2 H3].
        cbn [fold_right]. split; auto.
      - apply andb_prop in H as [H1 H2]. split; [now apply negb_true_iff|]. now apply Hchk.
      - induction IH as [|x cs Hx _ IHl]; [exact I|]. cbn [forallb] in H. apply andb_prop in H as [H2 H3]. cbn [fold_right]. split; auto.
    Qed.
  End Own.
  Lemma node_out x : quiet_node x = true -> outside x = true.
  Proof. intros H. now apply quiet_out. Qed.
  Lemma toks_out ts : forallb outside (map T ts) = true.
  Proof. induction ts as [|t ts IH]; auto. Qed.
  Lemma apart_out ctx tg :
    (forall x z a a1 nx, item2 ctx tg x z a a1 nx -> forall d, apart d x = true -> outside x = true)
    /\ (forall cs z a a1 nx, flow2 ctx tg cs z a a1 nx -> forall d, forallb (fun x => apart (bodyd d x) x) cs = true -> forallb outside cs = true)
    /\ (forall w cs z a a1 nx, body2 ctx tg w cs z a a1 nx -> forall d, forallb (apart d) cs = true -> forallb outside cs = true).
  Proof.
    apply (at2_ind ctx tg (fun x _ _ _ _ => forall d, apart d x = true -> outside x = true)
      (fun cs _ _ _ _ => forall d, forallb (fun x => apart (bodyd d x) x) cs = true -> forallb outside cs = true)
      (fun _ cs _ _ _ _ => forall d, forallb (apart d) cs = true -> forallb outside cs = true)); auto.
    - intros x z a a1 nx (_ & (s & cs & ->) & _) d H. now apply node_out.
    - intros x z a a1 nx (_ & (cs & ->) & _) d H. now apply node_out.
    - intros x z a a1 nx (_ & (s & cs & ->) & _) d H. cbn [forallb] in *. apply andb_prop in H as [H _]. now rewrite (node_out _ H).
    - intros x bd rest z1 z2 z3 a a1 a2 a3 nx (_ & (s & cs & ->) & _) _ IHb _ IHr d H. cbn [forallb] in *. apply andb_prop in H as [H1 H2]. apply andb_prop in H2 as [H2 H3].
      rewrite (node_out _ H1), (IHr _ H3). cbn [bodyd apart] in H2. apply andb_prop in H2 as [_ H2]. cbn [outside]. now rewrite (IHb _ H2).
    - intros ws cs z a a1 nx _ _ IH d H. cbn [forallb] in *. apply andb_prop in H as [_ H]. cbn [outside]. now rewrite toks_out, (IH _ H).
    - intros w x cs z1 z2 a a1 a2 nx _ IHx _ IHb d H. cbn [forallb] in *. apply andb_prop in H as [H1 H2]. now rewrite (IHx _ H1), (IHb _ H2).
    - intros w x cs z1 z2 a a1 a2 nx (t & z' & ts & _ & -> & _) _ IHb d H. cbn [forallb] in *. apply andb_prop in H as [H1 H2]. cbn [outside]. now rewrite toks_out, (IHb _ H2).
    - intros w t cs z a a1 a2 nx _ _ IHb d H. cbn [forallb] in *. apply andb_prop in H as [H1 H2]. now rewrite (IHb _ H2).
  Qed.
  (** the comments are read as the layout engine expects them *)
  Lemma quiet_plain n : tidy false n = true -> quiet_node n = true -> plain n = true.
  Proof.
    induction n as [t|k cs IH] using pnode_ind'; [reflexivity|]. intros H Hq. cbn [tidy] in H. apply andb_prop in H as [_ H].
    assert (Hin : forall x, In x cs -> quiet_node x = true).
    { intros x Hx. unfold quiet_node in *. rewrite forallb_forall in *. intros t Ht. apply Hq. cbn [flat]. apply in_flat_map. eauto. }
    cbn [plain]. rewrite forallb_forall in H. rewrite Forall_forall in IH. apply andb_true_intro. split; apply forallb_forall; intros x Hx; auto.
    specialize (H _ Hx). specialize (Hin _ Hx). destruct x as [t|q c]; auto. destruct q; auto. exfalso. cbn [tidy tidy_k] in H. apply andb_prop in H as [H _]. apply andb_prop in H as [H _]. apply andb_prop in H as [_ H].
    destruct c as [|[t|] c]; try discriminate. cbn [starts] in H. unfold quiet_node in Hin. cbn [flat flat_map app forallb] in Hin. rewrite H in Hin. discriminate.
  Qed.
  Lemma plain_note ts t z : ParseBlank.nows ts = t :: z -> is_tt COMMENT t = true -> column t z -> hd_error ts = Some t -> plain_c KBody (map T ts) = true.
  Proof.
    intros Hn Ht Hc Hh. unfold plain_c. apply orb_true_iff. right. cbn [among_k implb]. rewrite andb_true_r. apply andb_true_intro. split.
    - destruct ts as [|u ts]; [discriminate|]. injection Hh as ->. exact Ht.
    - apply forallb_forall. intros x Hx. apply in_map_iff in Hx as (u & <- & Hu). cbn [line_or_ws]. destruct (is_ws u) eqn:Eu; [apply orb_true_r|]. rewrite orb_false_r.
      pose proof (column_all _ _ Ht Hc) as F. rewrite <- Hn in F. rewrite Forall_forall in F. apply F. apply filter_In. split; auto. unfold ParseBlank.nonws. now rewrite Eu.
  Qed.
  Lemma plain_toks ts : forallb plain (map T ts) = true.
  Proof. induction ts as [|t ts IH]; auto. Qed.
  Lemma apart_plain ctx tg :
    (forall x z a a1 nx, item2 ctx tg x z a a1 nx -> forall d, apart d x = true -> tidy false x = true -> plain x = true)
    /\ (forall cs z a a1 nx, flow2 ctx tg cs z a a1 nx -> forall d, forallb (fun x => apart (bodyd d x) x) cs = true -> forallb (tidy false) cs = true -> forallb (plain_in KFlow) cs = true /\ forallb plain cs = true)
    /\ (forall w cs z a a1 nx, body2 ctx tg w cs z a a1 nx -> forall d, forallb (apart d) cs = true -> forallb (tidy false) cs = true -> forallb (plain_in KBody) cs = true /\ forallb plain cs = true).
  Proof.
    apply (at2_ind ctx tg (fun x _ _ _ _ => forall d, apart d x = true -> tidy false x = true -> plain x = true)
      (fun cs _ _ _ _ => forall d, forallb (fun x => apart (bodyd d x) x) cs = true -> forallb (tidy false) cs = true -> forallb (plain_in KFlow) cs = true /\ forallb plain cs = true)
      (fun _ cs _ _ _ _ => forall d, forallb (apart d) cs = true -> forallb (tidy false) cs = true -> forallb (plain_in KBody) cs = true /\ forallb plain cs = true)); auto.
    - intros x z a a1 nx (_ & (s & cs & ->) & _) d H Ht. now apply quiet_plain.
    - intros x z a a1 nx (_ & (cs & ->) & _) d H Ht. now apply quiet_plain.
    - intros cs z a a1 nx _ _ IH d H Ht. cbn [apart] in H. cbn [tidy] in Ht. apply andb_prop in Ht as [_ Ht]. cbn [plain]. destruct (IH _ H Ht) as [-> ->]. reflexivity.
    - intros x z a a1 nx (_ & (s & cs & ->) & _) d H Ht. cbn [forallb] in *. apply andb_prop in H as [H _]. apply andb_prop in Ht as [Ht _]. cbn [plain_in]. now rewrite (quiet_plain _ Ht H).
    - intros x bd rest z1 z2 z3 a a1 a2 a3 nx (_ & (s & cs & ->) & _) _ IHb _ IHr d H Ht. cbn [forallb] in *. apply andb_prop in H as [H1 H2]. apply andb_prop in H2 as [H2 H3].
      apply andb_prop in Ht as [T1 T2]. apply andb_prop in T2 as [T2 T3].
      destruct (IHr _ H3 T3) as [R1 R2]. cbn [bodyd apart] in H2. apply andb_prop in H2 as [_ H2]. cbn [tidy] in T2. apply andb_prop in T2 as [_ T2]. destruct (IHb _ H2 T2) as [B1 B2].
      rewrite (quiet_plain _ T1 H1), R1, R2. cbn [plain_in andb]. cbn [plain]. now rewrite B1, B2.
    - intros ws cs z a a1 nx _ _ IH d H Ht. cbn [forallb] in *. apply andb_prop in H as [_ H]. apply andb_prop in Ht as [_ Ht]. destruct (IH _ H Ht) as [R1 R2]. rewrite R1, R2. cbn [plain_in plain].
      rewrite plain_toks. replace (forallb (plain_in KWhitespace) (map T ws)) with true; auto. symmetry. clear. induction ws; auto.
    - intros w x cs z1 z2 a a1 a2 nx Hx IHx _ IHb d H Ht. cbn [forallb] in *. apply andb_prop in H as [H1 H2]. apply andb_prop in Ht as [T1 T2]. destruct (IHb _ H2 T2) as [R1 R2].
      rewrite (IHx _ H1 T1), R1, R2. apply item2_kind in Hx as (k & q & -> & Hk). destruct k; try discriminate; auto.
    - intros w x cs z1 z2 a a1 a2 nx (t & z' & ts & -> & -> & Hn & _ & Hc & _ & Hco & _ & _ & Hh) _ IHb d H Ht. cbn [forallb] in *. apply andb_prop in H as [H1 H2]. apply andb_prop in Ht as [T1 T2]. destruct (IHb _ H2 T2) as [R1 R2].
      rewrite R1, R2. cbn [plain_in]. rewrite (plain_note _ _ _ Hn Hc Hco Hh). cbn [plain]. rewrite plain_toks. replace (forallb (plain_in (KComment false)) (map T ts)) with true; auto. symmetry. clear. induction ts; auto.
    - intros w t cs z a a1 a2 nx Hb _ IHb d H. cbn [forallb] in H. apply andb_prop in H as [H _]. cbn [apart] in H. apply andb_prop in H as [H _]. exfalso. cbn [is_bracket tok_is] in H. now rewrite Hb in H.
  Qed.
End Apart.

(** ** Two runs *)
Lemma eff_passes2 c s : plain_passes2 (p_fmt c) -> plain_passes2 (effective c s).
Proof. unfold effective. destruct (p_auto c); exact (fun H => H). Qed.
(** A comment [d] blocks deep that [a] rewrites is written by [b] as if [a] had not run,
    whatever tokens [a]'s lines are read back as. *)
Definition comment_fixed (a b : pcfg) (src text : str) (toks toks' : list token) (d : nat) (pcs : list pnode) : Prop :=
  still (p_ctx a) (pipe_env a src toks) (effective b src) (pipe_env b src toks) (pipe_env b text toks') d pcs.

Lemma restyle_comments a b specs tbl src text v textb vb chk :
  run_cfg a specs tbl -> run_cfg b specs tbl -> p_ctx b = p_ctx a -> table_nb tbl = true ->
  p_usetabs a = false -> f_endl (effective a src) = [cNL] -> markup_calm (p_markup a) ->
  f_autosort (p_fmt a) = false -> f_autosort (p_fmt b) = false ->
  overrides (p_fmt a) (p_fmt b) -> plain_passes2 (p_fmt a) -> plain_passes2 (p_fmt b) ->
  effective b text = effective b src ->
  process_file a src = Ok (text, v) -> process_file b src = Ok (textb, vb) ->
  forall toks tree, tokenize src = Ok toks -> parse (p_ctx a) toks = Ok tree ->
  apart chk 0 tree = true -> (forall toks', tokenize text = Ok toks' -> forall d pcs, chk d pcs = true -> comment_fixed a b src text toks toks' d pcs) ->
  no_switch toks = true -> steady_file a toks ->
  forallb settled (strip_bom_tok toks) = true -> forallb level (semantics (strip_bom_tok toks)) = true ->
  tags_quiet (p_ctx a) tree -> loops_full tree = true -> condok toks -> starts_low toks ->
  exists v', process_file b text = Ok (textb, v').
Proof.
  intros R Rb Ec Hnb Ht He Hc Ha Hab Hov Hpa Hpb Hee H Hbr toks tree Hl Hp Hap Hchk Hno Hst Hse Hlev Hq Hfull Hco Hlow.
  pose proof R as ((ex & vt & Hctx) & Hut & Hk & _ & _ & _ & _ & Htab & _).
  assert (Hw : wfctx true (p_ctx a)) by (rewrite Hctx; eapply std_wfctx; eauto).
  assert (Hwk : wfkctx (p_ctx a)) by (rewrite Hctx; now apply std_wkctx).
  destruct (file_fit2 _ _ _ R _ _ _ Hl Hp Hno) as (L1 & _ & _ & F1).
  destruct (parse_lead2 _ _ Hw Hwk _ _ _ Hp L1) as (c1 & d1 & T1 & B1 & K1). specialize (K1 Hlow).
  assert (Hout : outside tree = true).
  { rewrite T1 in Hap |- *. cbn [apart] in Hap. apply andb_prop in Hap as [_ Hap]. cbn [outside]. eapply (proj2 (proj2 (apart_out chk _ _))); eauto. }
  assert (Hpl : comments_plain a toks).
  { intros tree0 Hp0. rewrite Hp in Hp0. injection Hp0 as <-. rewrite T1 in Hap |- *. cbn [apart] in Hap. apply andb_prop in Hap as [_ Hap].
    destruct F1 as (Htd & _). rewrite T1 in Htd. cbn [tidy] in Htd. apply andb_prop in Htd as [_ Htd]. cbn [plain].
    destruct (proj2 (proj2 (apart_plain chk _ _)) _ _ _ _ _ _ B1 _ Hap Htd) as [-> ->]. reflexivity. }
  destruct (file_parsed _ _ _ _ _ _ R Hnb Ht He Hc Ha H toks tree Hl Hp Hpl Hout Hno Hst Hse Hlev Hq Hfull Hco) as (toks' & tree' & Hl' & Hn' & _ & Hp' & Hx).
  destruct (file_stood _ _ _ _ _ _ R Ht He Hc H toks Hl Hpl Hno Hst) as (tree0 & l & toks0 & Hp0 & Hlay & Hl0 & Hoff & Hsnug & Hstand).
  rewrite Hp in Hp0. injection Hp0 as <-. rewrite Hl' in Hl0. injection Hl0 as <-.
  assert (Hpb1 : parse (p_ctx b) toks = Ok tree) by now rewrite Ec. assert (Hpb2 : parse (p_ctx b) toks' = Ok tree') by now rewrite Ec.
  destruct (file_fit2 _ _ _ R _ _ _ Hl' Hp' Hn') as (L2 & _ & _ & F2).
  destruct (file_fit2 _ _ _ Rb _ _ _ Hl Hpb1 Hno) as (_ & Q1 & O1 & _).
  destruct (file_fit2 _ _ _ Rb _ _ _ Hl' Hpb2 Hn') as (_ & Q2 & O2 & _).
  assert (L2' : lined2 true 1 (strip_bom_tok toks')) by (destruct L2 as (A & B & C & _); repeat split; auto).
  destruct (parse_lead2 _ _ Hw Hwk _ _ _ Hp' L2') as (c2 & d2 & T2 & B2 & _).
  destruct Hx as (k & cs1 & cs2 & E1 & E2 & Hls).
  rewrite E1 in T1. injection T1 as -> <-. rewrite E2 in T2. injection T2 as <-. subst tree tree'.
  change (filter TidyShape.nonws (strip_bom_tok toks')) with (ParseBlank.nows (strip_bom_tok toks')) in Hstand.
  assert (Elock : forall c s n, f_autosort (p_fmt c) = false -> lock (f_autosort (effective c s)) n = n) by (intros c s n Hz; rewrite eff_sort, Hz; apply lock_off).
  unfold layout_tree in Hlay. cbn [cfg pipe_env] in Hlay. rewrite Elock in Hlay by exact Ha. apply bindr_ok in Hlay as ([l0 o] & Hre & Hlay). injection Hlay as ->.
  unfold process_file in Hbr. rewrite Hl in Hbr. cbn [bindr] in Hbr. rewrite Hpb1 in Hbr. cbn [bindr] in Hbr.
  apply bindr_ok in Hbr as (lb & Hlb & Hbr). apply bindr_ok in Hbr as (ob & Hob & Hbr). apply bindr_ok in Hbr as (tb & Htb & Hbr). injection Hbr as -> Hvb.
  pose proof Hlb as Hlb'. unfold layout_tree in Hlb'. cbn [cfg pipe_env] in Hlb'. rewrite Elock in Hlb' by exact Hab.
  apply bindr_ok in Hlb' as ([l1 o1] & Hreb & Hlb'). injection Hlb' as ->.
  pose proof (apart_own chk _ _ _ _ _ (Hchk _ Hl') _ _ Hap) as Hown.
  destruct (top_core2 (p_ctx a) (pipe_env a src toks) false ltac:(cbn; now rewrite eff_tab) (effective b src) (eff_overrides _ _ _ _ Hov) (eff_passes2 _ _ Hpa) (pipe_env b src toks) (pipe_env b text toks'))
    with (cs1 := cs1) (cs2 := cs2) (a := 1) (a1 := d1) (f1 := d2) (nx1 := @None token) (z1 := ParseBlank.nows (strip_bom_tok toks)) (z2 := ParseBlank.nows (strip_bom_tok toks')) (parent := KBody)
    (sib := 0%nat) (path := @nil str) (l := l) (o := o) (sib' := 0%nat) (path' := @nil str) (l1 := lb) (o1 := o1) as (l' & o' & Hre' & Hpc); auto.
  - now apply eff_passes2.
  - destruct F2 as (A & B & C & D). split; [exact A|split; [exact B|split; [exact C|]]]. change (cfg (pipe_env a src toks)) with (effective a src).
    rewrite (eff_names a src text). exact D.
  - assert (Hlay2 : layout_tree (pipe_env b text toks') (N KBody cs2) = Ok l').
    { unfold layout_tree. cbn [cfg pipe_env]. rewrite Elock, Hre' by exact Hab. reflexivity. }
    pose proof (write_placed _ _ _ src Q1 O1 Hlb) as W1. pose proof (write_placed _ _ _ text Q2 O2 Hlay2) as W2.
    cbn [cfg pipe_env] in W1, W2. rewrite Hee in W2. rewrite Hpc, <- W1 in W2. rewrite Hob in W2.
    exists (lvalid l'). eapply run_with_tabs; eauto. now rewrite Hee.
Qed.

(** ** What is asked of the comments *)
(** the texts of the line comments among some nodes *)
Definition notes (pcs : list pnode) : list str :=
  flat_map (fun n => match n with T t => if is_tt COMMENT t then [spelling t] else nil | N _ _ => nil end) pcs.
Lemma inlines_notes c pcs : forall ls, comment_inlines c false pcs = Ok ls -> ls = map (Markup.comment_line c false) (notes pcs).
Proof.
  induction pcs as [|[t|k cs] pcs IH]; intros ls H; cbn [comment_inlines] in H; [now injection H as <-| |discriminate].
  apply bindr_ok in H as (l0 & E & H). injection H as <-. apply IH in E as ->. unfold notes. cbn [flat_map]. destruct (is_tt COMMENT t); reflexivity.
Qed.
Lemma format_toks c first x pcs w ls : format_comment c first x pcs w = Ok ls -> exists us, pcs = map T us.
Proof.
  unfold format_comment. intros H. apply bindr_ok in H as (ils & E & _). revert ils E. induction pcs as [|[t|k cs] pcs IH]; intros ils E; [exists nil; reflexivity| |discriminate].
  cbn [comment_inlines] in E. apply bindr_ok in E as (l0 & E & _). destruct (IH _ E) as (us & ->). now exists (t :: us).
Qed.
Lemma inlines_toks c ts : comment_inlines c false (map T ts) = Ok (map (Markup.comment_line c false) (notes (map T ts))).
Proof.
  induction ts as [|t ts IH]; auto. cbn [map comment_inlines]. rewrite IH. cbn [bindr]. unfold notes. cbn [flat_map]. destruct (is_tt COMMENT t); reflexivity.
Qed.
Lemma notes_nows ts : Forall (fun t => is_tt COMMENT t = true) (ParseBlank.nows ts) -> notes (map T ts) = map spelling (ParseBlank.nows ts).
Proof.
  induction ts as [|t ts IH]; auto. intros H. unfold notes. cbn [map flat_map]. fold (notes (map T ts)). unfold ParseBlank.nows in *. cbn [filter] in *.
  destruct (ParseBlank.nonws t) eqn:E.
  - inversion H as [|? ? H1 H2]; subst. rewrite H1. cbn [map app]. now rewrite IH.
  - rewrite IH by auto. replace (is_tt COMMENT t) with false; auto. unfold ParseBlank.nonws, is_ws in E. unfold is_tt. destruct (tt t); try discriminate; reflexivity.
Qed.

(** *** Markup off *)
(** the line written for a comment when markup is off *)
Definition kept_line (s : str) : str := cHASH :: rstrip (tl (strip s)).
Lemma kept_again s : kept_line (kept_line s) = kept_line s.
Proof.
  unfold kept_line. f_equal. set (x := tl (strip s)). unfold strip, strip_by.
  replace (lstrip_by is_uspace (cHASH :: rstrip x)) with (cHASH :: rstrip x) by reflexivity.
  rewrite rstrip_cons. cbn [andb is_uspace]. replace (is_uspace cHASH) with false by reflexivity. cbn [andb tl]. unfold rstrip. now rewrite !rstrip_idem.
Qed.
Definition kept_ok (ctx : pctx) (d : nat) (pcs : list pnode) : bool := forallb (fun s => negb (explicit ctx (kept_line s))) (notes pcs).
Lemma off_lines c first pcs w ls : mk_enable c = false -> format_comment c first false pcs w = Ok ls -> ls = map kept_line (notes pcs).
Proof.
  intros Hm H. unfold format_comment in H. apply bindr_ok in H as (ils & E & H). rewrite Hm in H. injection H as <-. apply inlines_notes in E as ->.
  rewrite map_map. apply map_ext. intros s. unfold Markup.comment_line, kept_line. now rewrite Hm.
Qed.
Lemma off_toks c first ts w : mk_enable c = false -> Forall (fun t => is_tt COMMENT t = true) (ParseBlank.nows ts) ->
  format_comment c first false (map T ts) w = Ok (map kept_line (map spelling (ParseBlank.nows ts))).
Proof.
  intros Hm H. unfold format_comment. rewrite inlines_toks. cbn [bindr]. rewrite Hm. cbn [negb]. rewrite notes_nows by auto. f_equal.
  rewrite map_map. apply map_ext. intros s. unfold Markup.comment_line, kept_line. now rewrite Hm.
Qed.
Lemma off_fixed a b src text toks toks' d pcs : mk_enable (p_markup a) = false -> mk_enable (p_markup b) = false ->
  kept_ok (p_ctx a) d pcs = true -> comment_fixed a b src text toks toks' d pcs.
Proof.
  intros Ma Mb Hk La H. cbn [cmt pipe_env] in H. pose proof H as Hp. apply format_toks in Hp as (us & ->). apply off_lines in H as ->; auto. split.
  - intros s Hs. apply in_map_iff in Hs as (s0 & <- & Hin). unfold kept_ok in Hk. rewrite forallb_forall in Hk. apply Hk in Hin. now apply negb_true_iff.
  - intros ts _ Hc Hsp _. cbn [cmt pipe_env]. rewrite (off_toks _ _ _ _ Mb Hc), Hsp.
    unfold format_comment. rewrite inlines_toks. cbn [bindr]. rewrite Mb. cbn [negb]. f_equal. rewrite !map_map. apply map_ext. intros s.
    rewrite kept_again. unfold kept_line, Markup.comment_line. now rewrite Mb.
Qed.
(** *** Markup on *)
Definition as_lines (La : list str) : list pnode := map (fun s => T (Tok COMMENT s (Loc 0 0 0))) La.
(** After [a] has rewritten the comment, [b] writes what it would have written at once. *)
Definition redone (a b : pcfg) (src : str) (toks : list token) (d : nat) (pcs : list pnode) : bool :=
  let wa := f_linewidth (effective a src) - Z.of_nat d * f_tab (effective a src) in
  let wb := f_linewidth (effective b src) - Z.of_nat d * f_tab (effective b src) in
  match format_comment (p_markup a) (first_token toks) false pcs wa with
  | Ok La =>
      forallb (fun s => negb (explicit (p_ctx a) s) && negb (startswith $"#!" s)) La
      && match format_comment (p_markup b) None false (as_lines La) wb, format_comment (p_markup b) (first_token toks) false pcs wb with
         | Ok x, Ok y => if list_eq_dec (list_eq_dec N.eq_dec) x y then true else false
         | _, _ => false
         end
  | _ => true
  end.
Lemma notes_lines La : notes (as_lines La) = La.
Proof. unfold notes, as_lines. induction La as [|s La IH]; auto. cbn [map flat_map]. cbn [is_tt tt ttype_eqb app]. now rewrite IH. Qed.
Lemma lines_alike c first ts w La : mk_first_literal c = false -> Forall (fun t => is_tt COMMENT t = true) (ParseBlank.nows ts) -> map spelling (ParseBlank.nows ts) = La ->
  hd_error ts = hd_error (ParseBlank.nows ts) -> (forall s, In s La -> startswith $"#!" s = false) ->
  format_comment c first false (map T ts) w = format_comment c None false (as_lines La) w.
Proof.
  intros Hf Hc Hsp Hhd Hb.
  assert (Ei : comment_inlines c false (as_lines La) = Ok (map (Markup.comment_line c false) La)).
  { unfold as_lines. rewrite <- (map_map (fun s => Tok COMMENT s (Loc 0 0 0)) T). rewrite inlines_toks. rewrite map_map. fold (as_lines La). now rewrite notes_lines. }
  unfold format_comment. rewrite Ei, inlines_toks. cbn [bindr]. rewrite notes_nows, Hsp by auto.
  destruct (negb (mk_enable c)); auto. destruct (match mk_literal c with Some f => _ | None => false end); auto.
  assert (E1 : match map T ts with T t :: _ => same_token t first && (mk_first_literal c || startswith $"#!" (spelling t)) | _ => false end = false).
  { destruct ts as [|t ts]; auto. cbn [map]. rewrite Hf. cbn [orb]. rewrite Hb; [apply andb_false_r|]. rewrite <- Hsp. apply in_map.
    cbn [hd_error] in Hhd. destruct (ParseBlank.nows (t :: ts)) as [|u q]; [discriminate|]. injection Hhd as ->. now left. }
  assert (E2 : match as_lines La with T t :: _ => same_token t None && (mk_first_literal c || startswith $"#!" (spelling t)) | _ => false end = false) by (destruct La; reflexivity).
  now rewrite E1, E2.
Qed.
Lemma redone_fixed a b src text toks toks' d pcs : mk_first_literal (p_markup b) = false -> redone a b src toks d pcs = true -> comment_fixed a b src text toks toks' d pcs.
Proof.
  intros Hf H La HLa. cbn [cmt pipe_env cfg] in HLa. unfold deptha in HLa. unfold redone in H. cbn [cfg pipe_env] in HLa. rewrite HLa in H. apply andb_prop in H as [H1 H2]. rewrite forallb_forall in H1. split.
  - intros s Hs. apply H1 in Hs. apply andb_prop in Hs as [Hs _]. now apply negb_true_iff.
  - intros ts _ Hc Hsp Hhd. cbn [cmt pipe_env]. rewrite (lines_alike _ _ _ _ _ Hf Hc Hsp Hhd) by (intros s Hs; apply H1 in Hs; apply andb_prop in Hs as [_ Hs]; now apply negb_true_iff).
    unfold depth. destruct (format_comment (p_markup b) None false (as_lines La) _) as [x| |]; try discriminate.
    destruct (format_comment (p_markup b) (first_token toks) false pcs _) as [y| |]; try discriminate.
    destruct (list_eq_dec (list_eq_dec N.eq_dec) x y) as [->|]; [reflexivity|discriminate].
Qed.

(** ** C101: comments that are not reformatted *)
(** The file is of the kind of C74 and does not begin with blank lines; its comments
    stand on lines of their own, outside commands, and [chk] holds of them. *)
Definition settled_source (c : pcfg) (chk : nat -> list pnode -> bool) (src : str) : Prop :=
  exists toks tree, tokenize src = Ok toks /\ parse (p_ctx c) toks = Ok tree
  /\ apart chk 0 tree = true /\ no_switch toks = true /\ steady_file c toks
  /\ forallb settled (strip_bom_tok toks) = true /\ forallb level (semantics (strip_bom_tok toks)) = true
  /\ tags_quiet (p_ctx c) tree /\ loops_full tree = true /\ condok toks /\ starts_low toks.
(** When comment reformatting ([enable_markup]) is off in both runs, formatting with [a]
    and then with [b] is formatting with [b]. *)
Theorem C101_restyle a b specs tbl src text v textb vb :
  run_cfg a specs tbl -> run_cfg b specs tbl -> p_ctx b = p_ctx a -> table_nb tbl = true ->
  p_usetabs a = false -> f_endl (effective a src) = [cNL] -> markup_calm (p_markup a) ->
  mk_enable (p_markup a) = false -> mk_enable (p_markup b) = false ->
  f_autosort (p_fmt a) = false -> f_autosort (p_fmt b) = false ->
  overrides (p_fmt a) (p_fmt b) -> plain_passes2 (p_fmt a) -> plain_passes2 (p_fmt b) ->
  effective b text = effective b src ->
  settled_source a (kept_ok (p_ctx a)) src ->
  process_file a src = Ok (text, v) -> process_file b src = Ok (textb, vb) ->
  exists v', process_file b text = Ok (textb, v').
Proof.
  intros R Rb Ec Hnb Ht He Hc Ma Mb Ha Hab Hov Hpa Hpb Hee (toks & tree & Hl & Hp & Hap & Hno & Hst & Hse & Hlev & Hq & Hfull & Hco & Hlow) H Hbr.
  eapply (restyle_comments a b) with (chk := kept_ok (p_ctx a)); eauto. intros toks' _ d pcs Hk. now apply off_fixed.
Qed.
(** Formatting the formatter's output changes nothing. *)
Theorem C101_idempotent c specs tbl src text v :
  run_cfg c specs tbl -> table_nb tbl = true ->
  p_usetabs c = false -> f_endl (effective c src) = [cNL] -> effective c text = effective c src -> markup_calm (p_markup c) ->
  mk_enable (p_markup c) = false -> f_autosort (p_fmt c) = false -> case_blind (p_fmt c) -> plain_passes2 (p_fmt c) ->
  settled_source c (kept_ok (p_ctx c)) src ->
  process_file c src = Ok (text, v) ->
  exists v', process_file c text = Ok (text, v').
Proof. intros. eapply (C101_restyle c c); eauto using overrides_same. Qed.

(** ** C102: comments that are reformatted *)
(** With comment reformatting on, the same holds of files whose comments, taken one by
    one, are written by [b] alike before and after [a] has rewritten them. *)
Theorem C102_restyle a b specs tbl src text v textb vb toks0 :
  run_cfg a specs tbl -> run_cfg b specs tbl -> p_ctx b = p_ctx a -> table_nb tbl = true ->
  p_usetabs a = false -> f_endl (effective a src) = [cNL] -> markup_calm (p_markup a) ->
  mk_first_literal (p_markup b) = false ->
  f_autosort (p_fmt a) = false -> f_autosort (p_fmt b) = false ->
  overrides (p_fmt a) (p_fmt b) -> plain_passes2 (p_fmt a) -> plain_passes2 (p_fmt b) ->
  effective b text = effective b src ->
  tokenize src = Ok toks0 -> settled_source a (redone a b src toks0) src ->
  process_file a src = Ok (text, v) -> process_file b src = Ok (textb, vb) ->
  exists v', process_file b text = Ok (textb, v').
Proof.
  intros R Rb Ec Hnb Ht He Hc Mb Ha Hab Hov Hpa Hpb Hee Hl0 (toks & tree & Hl & Hp & Hap & Hno & Hst & Hse & Hlev & Hq & Hfull & Hco & Hlow) H Hbr.
  rewrite Hl in Hl0. injection Hl0 as <-.
  eapply (restyle_comments a b) with (chk := redone a b src toks); eauto. intros toks' _ d pcs Hk. now apply redone_fixed.
Qed.
Theorem C102_idempotent c specs tbl src text v toks0 :
  run_cfg c specs tbl -> table_nb tbl = true ->
  p_usetabs c = false -> f_endl (effective c src) = [cNL] -> effective c text = effective c src -> markup_calm (p_markup c) ->
  mk_first_literal (p_markup c) = false -> f_autosort (p_fmt c) = false -> case_blind (p_fmt c) -> plain_passes2 (p_fmt c) ->
  tokenize src = Ok toks0 -> settled_source c (redone c c src toks0) src ->
  process_file c src = Ok (text, v) ->
  exists v', process_file c text = Ok (text, v').
Proof. intros. eapply (C102_restyle c c); eauto using overrides_same. Qed.

(** ** A file *)
Definition src_notes : str := cBOM :: nl
  [$"#   a file   "; $""; $"IF(NOT (A AND ""a;b""))"; $"";
   $"  myfun(x FAST SRC z.c y.c"; $"    w.c ${dir}/v.c [=["; $" text ]=])"; $"      ##  perhaps it is wise to wait until"; $"      # the end"; $"Endif() FOREACH(i RANGE 3)"; $"  # in"; $"EndForeach()"; $""; $"";
   $"set_target_properties(foo PROPERTIES A b"; $"C d) add_custom_target(x ALL COMMAND rm -f x COMMENT ""bye"")"; $"#last"].
Definition notes_src (c : pcfg) (chk : list token -> nat -> list pnode -> bool) (src : str) : bool :=
  near_src c src
  && match tokenize src with
     | Ok toks => (nlcs (lead (strip_bom_tok toks)) <? 2)
                  && match parse (p_ctx c) toks with Ok tree => apart (chk toks) 0 tree | _ => false end
     | _ => false
     end.
Lemma notes_srced c specs tbl chk src : run_cfg c specs tbl -> (forall tree, tags_quiet (p_ctx c) tree) -> notes_src c chk src = true ->
  exists toks, tokenize src = Ok toks /\ settled_source c (chk toks) src.
Proof.
  intros R Q H. unfold notes_src in H. apply andb_prop in H as [H1 H2].
  destruct (tokenize src) as [toks| |] eqn:Hl; try discriminate. exists toks. split; [reflexivity|]. apply andb_prop in H2 as [H2 H3].
  destruct (parse (p_ctx c) toks) as [tree| |] eqn:Hp; try discriminate.
  destruct (near_srced _ _ _ _ _ _ R Hl Hp H1) as (A & A' & B & C & D & E & F & G).
  exists toks, tree. repeat (split; [assumption|]). split; [apply Q|]. split; [exact F|]. split; [exact G|]. unfold starts_low. now apply Z.ltb_lt.
Qed.
(** comment reformatting off; another style for the second run *)
Definition still_mcfg : mcfg := MCfg $"*" $"." false None fence_match ruler_match ruler_match $"#<" 10 true false.
Definition still_pcfg : pcfg := PCfg flat_fcfg still_mcfg (std_ctx no_explicit nil user_tbl) false true false UseSpace.
Definition still_other : pcfg := PCfg other_fcfg still_mcfg (std_ctx no_explicit nil user_tbl) false false true UseSpace.
Lemma still_run : run_cfg still_pcfg user_specs user_tbl.
Proof.
  split; [exists no_explicit, nil; reflexivity|]. repeat (split; [vm_compute; reflexivity|]).
  split; [|split; [exact default_markup_ok|split; [vm_compute; discriminate|now left]]].
  split; intros s; [right; now left|apply lower_lower].
Qed.
Lemma still_other_run : run_cfg still_other user_specs user_tbl.
Proof.
  split; [exists no_explicit, nil; reflexivity|]. repeat (split; [vm_compute; reflexivity|]).
  split; [|split; [exact default_markup_ok|split; [vm_compute; discriminate|now right]]].
  split; intros s; [right; now left|apply lower_lower].
Qed.
Lemma flat_over : overrides flat_fcfg other_fcfg.
Proof. apply overrides_fixed; [intros s s' Hs; split; [reflexivity|exact Hs]|]. split; [discriminate|right; reflexivity]. Qed.
Lemma user_quiet tree : tags_quiet (std_ctx no_explicit nil user_tbl) tree. Proof. intros k t m s _ _ []. Qed.
Example C101_ex : exists text textb,
  settled_source still_pcfg (kept_ok (p_ctx still_pcfg)) src_notes
  /\ process_file still_pcfg src_notes = Ok (text, false) /\ text <> src_notes
  /\ process_file still_other src_notes = Ok (textb, true) /\ textb <> text
  /\ (exists v, process_file still_other text = Ok (textb, v)) /\ exists v, process_file still_pcfg text = Ok (text, v).
Proof.
  assert (Hx : exists text, process_file still_pcfg src_notes = Ok (text, false)) by (eexists; vm_compute; reflexivity). destruct Hx as [text Hx].
  assert (Hy : exists textb, process_file still_other src_notes = Ok (textb, true)) by (eexists; vm_compute; reflexivity). destruct Hy as [textb Hy].
  destruct (notes_srced still_pcfg _ _ (fun _ => kept_ok (p_ctx still_pcfg)) src_notes still_run user_quiet ltac:(vm_compute; reflexivity)) as (toks & _ & Hs).
  assert (Hnb : table_nb user_tbl = true) by (vm_compute; reflexivity).
  assert (Hcb : case_blind (p_fmt still_pcfg)) by (intros s s' E; split; [reflexivity|exact E]).
  assert (Hpp : plain_passes2 flat_fcfg) by (repeat split). assert (Hpp2 : plain_passes2 other_fcfg) by (repeat split).
  exists text, textb. split; [exact Hs|]. split; [exact Hx|]. split; [clear -Hx; vm_compute in Hx; injection Hx as <-; discriminate|].
  split; [exact Hy|]. split; [clear -Hx Hy; vm_compute in Hx; vm_compute in Hy; injection Hx as <-; injection Hy as <-; discriminate|]. split.
  - exact (C101_restyle still_pcfg still_other _ _ src_notes text _ _ _ still_run still_other_run eq_refl Hnb eq_refl eq_refl default_calm eq_refl eq_refl eq_refl eq_refl flat_over Hpp Hpp2 eq_refl Hs Hx Hy).
  - exact (C101_idempotent still_pcfg _ _ src_notes text _ still_run Hnb eq_refl eq_refl eq_refl default_calm eq_refl eq_refl Hcb Hpp Hs Hx).
Qed.
Example C102_ex : exists toks text textb,
  tokenize src_notes = Ok toks /\ settled_source flat_pcfg (redone flat_pcfg other_pcfg src_notes toks) src_notes
  /\ process_file flat_pcfg src_notes = Ok (text, true) /\ text <> src_notes
  /\ process_file other_pcfg src_notes = Ok (textb, true) /\ textb <> text
  /\ (exists v, process_file other_pcfg text = Ok (textb, v)) /\ exists v, process_file flat_pcfg text = Ok (text, v).
Proof.
  assert (Hx : exists text, process_file flat_pcfg src_notes = Ok (text, true)) by (eexists; vm_compute; reflexivity). destruct Hx as [text Hx].
  assert (Hy : exists textb, process_file other_pcfg src_notes = Ok (textb, true)) by (eexists; vm_compute; reflexivity). destruct Hy as [textb Hy].
  destruct (notes_srced flat_pcfg _ _ (redone flat_pcfg other_pcfg src_notes) src_notes flat_run user_quiet ltac:(vm_compute; reflexivity)) as (toks & Hl & Hs).
  destruct (notes_srced flat_pcfg _ _ (redone flat_pcfg flat_pcfg src_notes) src_notes flat_run user_quiet ltac:(vm_compute; reflexivity)) as (toks1 & Hl1 & Hs1).
  assert (Hnb : table_nb user_tbl = true) by (vm_compute; reflexivity).
  assert (Hcb : case_blind (p_fmt flat_pcfg)) by (intros s s' E; split; [reflexivity|exact E]).
  assert (Hpp : plain_passes2 flat_fcfg) by (repeat split). assert (Hpp2 : plain_passes2 other_fcfg) by (repeat split).
  exists toks, text, textb. split; [exact Hl|]. split; [exact Hs|]. split; [exact Hx|]. split; [clear -Hx; vm_compute in Hx; injection Hx as <-; discriminate|].
  split; [exact Hy|]. split; [clear -Hx Hy; vm_compute in Hx; vm_compute in Hy; injection Hx as <-; injection Hy as <-; discriminate|]. split.
  - exact (C102_restyle flat_pcfg other_pcfg _ _ src_notes text _ _ _ _ flat_run other_run eq_refl Hnb eq_refl eq_refl default_calm eq_refl eq_refl eq_refl flat_over Hpp Hpp2 eq_refl Hl Hs Hx Hy).
  - exact (C102_idempotent flat_pcfg _ _ src_notes text _ _ flat_run Hnb eq_refl eq_refl eq_refl default_calm eq_refl eq_refl Hcb Hpp Hl1 Hs1 Hx).
Qed.
(** Two comments one below the other in different columns are aligned by the first run
    and joined by the second, although each of them alone is stable. *)
Theorem C102_twins_refuted : exists toks cs1 cs2 text text',
  tokenize (nl [$"#a"; $"  #b"]) = Ok toks
  /\ parse (p_ctx default_pcfg) toks = Ok (N KBody (N (KComment false) cs1 :: cs2))
  /\ forallb (redone default_pcfg default_pcfg (nl [$"#a"; $"  #b"]) toks 0) (cs1 :: flat_map (fun n => match n with N (KComment _) cs => [cs] | _ => nil end) cs2) = true
  /\ process_file default_pcfg (nl [$"#a"; $"  #b"]) = Ok (text, true)
  /\ process_file default_pcfg text = Ok (text', true) /\ text' <> text.
Proof.
  do 5 eexists. split; [vm_compute; reflexivity|]. split; [vm_compute; reflexivity|]. split; [vm_compute; reflexivity|].
  split; [vm_compute; reflexivity|]. split; [vm_compute; reflexivity|]. discriminate.
Qed.
Print Assumptions C101_restyle.
Print Assumptions C101_idempotent.
Print Assumptions C102_restyle.
Print Assumptions C102_idempotent.
Print Assumptions C102_twins_refuted.
