(** * Places: the line on which a token of the output stands is the row at which the layout put it *)
From Verif Require Import Base Regex Lex LexProofs LexClass PropLex TextOps TextProofs Tree Parse ParseProofs ParseTerm PropParse PropTerm
  CmdSpec StdSpecs StdDb StdWf PropStd StdShape Layout LayoutProofs LayoutCols Pieces Writing PropLayout Markup MarkupProofs Pipeline PropCase PropFile
  ParseShape NamesShape WordShape CommentShape TidyShape Reread CommentFree PropReread.
From Coq Require Import Permutation.

(** ** Rows of the page *)
Fixpoint rows_ok (r : Z) (gs : list gap) (ps : list piece) : Prop :=
  match gs, ps with
  | g :: gs', p :: ps' => r + Z.of_nat (fst g) = row (p_at p) /\ rows_ok (row (p_end p)) gs' ps'
  | _, _ => True
  end.
Lemma flow_lines_row ls : forall c x, row (fst (flow_lines c x ls)) = row c + zlen ls.
Proof.
  induction ls as [|l ls IH]; intros c x; cbn [flow_lines]; [unfold zlen; cbn; lia|]. rewrite IH. cbn [row]. unfold zlen. cbn [List.length]. lia.
Qed.
Lemma split_count s : zlen (split_on cNL s) = count_chr cNL s + 1.
Proof.
  unfold count_chr, zlen. induction s as [|a s IH]; [reflexivity|]. cbn [split_on filter].
  destruct (split_on cNL s) as [|l ls] eqn:E; [now apply split_on_nonempty in E|]. rewrite (N.eqb_sym cNL a).
  destruct (N.eqb a cNL); cbn [List.length] in *; lia.
Qed.
Lemma p_end_row p : row (p_end p) = row (p_at p) + count_chr cNL (p_text p).
Proof.
  unfold p_end, text_flow. pose proof (split_count (p_text p)) as H. destruct (split_on cNL (p_text p)) as [|l ls] eqn:E; [now apply split_on_nonempty in E|].
  cbv zeta. rewrite flow_lines_row. cbn [shift row]. unfold zlen in *. cbn [List.length] in H. lia.
Qed.

Lemma write_at_rows endl f r c text f' : is_endl endl -> cursor_ok f -> 0 <= c ->
  cle (Cur (crow f) (ccol f)) (Cur r c) ->
  write_at endl f r c text = Ok f' ->
  cursor_ok f' /\ exists g, TextOps.out f' = TextOps.out f ++ gap_text endl g ++ with_endl endl text
    /\ (crow f < r -> (0 < fst g)%nat)
    /\ (clt (Cur (crow f) (ccol f)) (Cur r c) -> (0 < fst g)%nat \/ (0 < snd g)%nat)
    /\ crow f + Z.of_nat (fst g) = r.
Proof.
  intros He Hok Hc Hle H. apply write_at_spec in H as [A (k & n & H)]; auto. cbn zeta in H.
  destruct H as (H1 & H2 & H3). split; [exact A|].
  assert (Hrow : crow f + Z.of_nat k = r).
  { destruct Hok as [Hr _]. rewrite Hr, <- H2, !count_chr_app, count_nl_repeat, count_nl_spaces by auto. lia. }
  exists (k, Z.to_nat n). cbn [fst snd]. split.
  - rewrite H1. unfold gap_text. cbn [fst snd]. unfold spaces. rewrite Nat2Z.id. reflexivity.
  - split; [lia|]. split; [|exact Hrow]. intros Hlt. destruct k as [|k]; [|left; lia]. right.
    cbn [repeat_s] in H3. unfold clt in Hlt. cbn in Hlt.
    destruct Hok as [_ Hcol]. simpl in H3. rewrite col_of_app_out in H3 by apply spaces_no_nl.
    destruct (Z_le_dec n 0) as [Hn|Hn]; [|lia]. exfalso.
    assert (spaces n = nil) as E by (unfold spaces; destruct n; try lia; reflexivity).
    rewrite E in H3. change (zlen nil) with 0 in H3. lia.
Qed.
Lemma put_all_rows closed c ps : is_endl (f_endl c) -> forall s k s',
  cursor_ok (w_f s) -> Forall (fun p => 0 <= colm (p_at p)) ps ->
  placed closed (wcur s, k) ps -> put_all c ps s = Ok s' ->
  cursor_ok (w_f s') /\ exists gs, gaps_ok closed k gs ps /\ rows_ok (crow (w_f s)) gs ps
    /\ TextOps.out (w_f s') = TextOps.out (w_f s) ++ page (f_endl c) gs ps.
Proof.
  intros He. induction ps as [|p ps IH]; intros s k s' Hok Hcol Hpl H.
  - inv H. split; [exact Hok|]. exists nil. split; [exact I|]. split; [exact I|]. simpl. now rewrite app_nil_r.
  - cbn [put_all] in H. bk H. rename x into s1. destruct Hpl as [(F1 & F2 & F3) Hpl].
    inversion Hcol as [|? ? Hc1 Hc2]; subst.
    assert (Hput := Hx). unfold put in Hput. bk Hput. inv Hput. rename x into f1.
    destruct p as [[r cl] text kd]. cbn [p_at p_text p_kind row colm fst snd] in *.
    destruct (write_at_rows _ _ _ _ _ _ He Hok Hc1 F1 Hx0) as (Hok1 & g & Hout & Hg1 & Hg2 & Hg3).
    assert (Hcur : wcur (WS (w_off s) f1) = p_end (Pc (Cur r cl) text kd)).
    { destruct (put_ok c s (Cur r cl) text F1) as (s2 & E1 & E2 & _). rewrite Hx in E1. inv E1. exact E2. }
    unfold step in Hpl. cbn [p_kind] in Hpl. rewrite <- Hcur in Hpl.
    destruct (IH (WS (w_off s) f1) _ _ Hok1 Hc2 Hpl H) as (A & gs & B & B2 & C). split; [exact A|].
    exists (g :: gs). split; [|split].
    + cbn [gaps_ok p_kind]. split; [|exact B]. destruct k as [k|]; [|exact I]. split.
      * intros E0 E. apply Hg1. apply F2. unfold line_st. cbn [snd]. now rewrite E, E0.
      * intros E1. apply Hg2. apply F3. exact E1.
    + cbn [rows_ok p_at]. split; [exact Hg3|]. rewrite <- Hcur. exact B2.
    + rewrite C. cbn [page p_text w_f]. rewrite Hout. now rewrite <- !app_assoc.
Qed.
(** the page with the row of every text *)
Theorem page_rows closed e root l infile :
  ready e root -> (closed = true -> cmok (create_box root) = true) -> is_endl (f_endl (cfg e)) -> no_off (create_box root) = true ->
  layout_tree e root = Ok l ->
  exists gs, gaps_ok closed None gs (pieces (cfg e) KBody l) /\ rows_ok 0 gs (pieces (cfg e) KBody l)
    /\ write_tree (cfg e) infile l
       = Ok (page (f_endl (cfg e)) gs (pieces (cfg e) KBody l) ++ f_endl (cfg e)).
Proof.
  intros R Hm He Hno H. pose proof (layout_placed closed e root l R Hm H) as Hpl.
  destruct (layout_lok e root l R H) as (o & Hl & Hp & Hcols). destruct R as (Hc & Ht & Hw & Hn).
  unfold write_tree.
  rewrite (proj1 (write_pieces e infile) _ _ _ Hl KBody (WS None cf_init)).
  2: now rewrite lock_wfb.
  2: now rewrite lock_names.
  2: now rewrite lock_no_off.
  2: reflexivity.
  change (Cur 0 0) with (wcur (WS None cf_init)) in Hpl.
  destruct (put_all_ok closed (cfg e) _ _ _ Hpl) as (s' & E & _). rewrite E. cbn [bindr].
  assert (Hok0 : cursor_ok (w_f (WS None cf_init))) by (split; reflexivity).
  destruct (put_all_rows closed (cfg e) _ He _ _ _ Hok0 (pieces_col _ _ KBody Hcols) Hpl E)
    as (_ & gs & G1 & G2 & G3).
  exists gs. split; [exact G1|]. split; [exact G2|]. unfold getvalue. rewrite G3. reflexivity.
Qed.
(** the text depends on the placed texts alone *)
Theorem write_placed e root l infile :
  ready e root -> no_off (create_box root) = true -> layout_tree e root = Ok l ->
  write_tree (cfg e) infile l = bindr (put_all (cfg e) (pieces (cfg e) KBody l) (WS None cf_init)) (fun s => Ok (getvalue (f_endl (cfg e)) (w_f s))).
Proof.
  intros R Hno H. destruct (layout_lok e root l R H) as (o & Hl & Hp & Hcols). destruct R as (Hc & Ht & Hw & Hn).
  unfold write_tree. rewrite (proj1 (write_pieces e infile) _ _ _ Hl KBody (WS None cf_init)); auto.
  - now rewrite lock_wfb.
  - now rewrite lock_names.
  - now rewrite lock_no_off.
Qed.

(** ** Lines of tokens *)
Definition nlc (t : token) : Z := count_chr cNL (spelling t).
Fixpoint located (ln : Z) (l : list token) : Prop :=
  match l with nil => True | t :: r => line (begin t) = ln /\ located (ln + nlc t) r end.
Fixpoint nlcs (l : list token) : Z := match l with nil => 0 | t :: r => nlc t + nlcs r end.
Lemma locate_located ts : forall ln co off, located ln (locate ln co off ts).
Proof. induction ts as [|[t s] ts IH]; intros; cbn [locate located]; [exact I|]. cbn [begin line]. split; [reflexivity|]. apply IH. Qed.
Lemma located_app a : forall ln b, located ln (a ++ b) <-> located ln a /\ located (ln + nlcs a) b.
Proof.
  induction a as [|t a IH]; intros ln b; cbn [app located nlcs].
  - rewrite Z.add_0_r. tauto.
  - rewrite IH, Z.add_assoc. tauto.
Qed.
Lemma nlcs_app a b : nlcs (a ++ b) = nlcs a + nlcs b.
Proof. induction a as [|t a IH]; cbn [app nlcs]; lia. Qed.
Definition texts (l : list token) : str := List.concat (map spelling l).
Lemma nlcs_texts l : nlcs l = count_chr cNL (texts l).
Proof. induction l as [|t l IH]; [reflexivity|]. unfold texts in *. cbn [nlcs map List.concat]. rewrite count_chr_app, IH. reflexivity. Qed.

(** a piece and the token read for it *)
Definition stands (p : piece) (t : token) : Prop :=
  spelling t = p_text p /\ line (begin t) = row (p_at p) + 1.

Lemma blank_prefix a : forall b x y, forallb is_aspace a = true -> forallb is_aspace b = true ->
  aspace_head x = false -> x <> nil -> aspace_head y = false -> y <> nil -> a ++ x = b ++ y -> a = b.
Proof.
  induction a as [|c a IH]; intros [|d b] x y Ha Hb Hx Nx Hy Ny E; auto.
  - cbn [app] in E. subst x. cbn [aspace_head] in Hx. cbn [forallb] in Hb. rewrite Hx in Hb. discriminate.
  - cbn [app] in E. subst y. cbn [aspace_head] in Hy. cbn [forallb] in Ha. rewrite Hy in Ha. discriminate.
  - cbn [app] in E. injection E as -> E. f_equal. cbn [forallb] in *. apply andb_prop in Ha as [_ Ha]. apply andb_prop in Hb as [_ Hb].
    eapply IH; [exact Ha|exact Hb|exact Hx|exact Nx|exact Hy|exact Ny|exact E].
Qed.
Lemma gap_blank g : forallb is_aspace (gap_text [cNL] g) = true.
Proof.
  unfold gap_text. rewrite forallb_app. apply andb_true_intro. split.
  - induction (fst g); [reflexivity|]. cbn [repeat_s app forallb]. exact IHn.
  - unfold spaces. induction (Z.to_nat (Z.of_nat (snd g))); [reflexivity|]. cbn. exact IHn.
Qed.
Lemma gap_count g : count_chr cNL (gap_text [cNL] g) = Z.of_nat (fst g).
Proof. unfold gap_text. rewrite count_chr_app, count_nl_repeat, count_nl_spaces by (left; reflexivity). lia. Qed.
Lemma aspace_app x y : x <> nil -> aspace_head (x ++ y) = aspace_head x.
Proof. destruct x; [congruence|reflexivity]. Qed.

Lemma page_lines gs : forall ps tys k r body, gaps_ok true k gs ps -> rows_ok r gs ps -> Forall2 reads ps tys ->
  texts body = tailp gs ps -> Forall (fun t => is_ws t = true -> forallb is_aspace (spelling t) = true) body ->
  map (fun t => (tt t, spelling t)) (filter nonws body) = combine tys (map p_text ps) ->
  located (r + 1) body -> Forall2 stands ps (filter nonws body).
Proof.
  induction gs as [|g gs IH]; intros ps tys k r body Hg Hr Hrd Ht Hb Hm Hl.
  - destruct ps; [|contradiction]. inversion Hrd; subst. cbn in Hm. destruct (filter nonws body); [constructor|discriminate].
  - destruct ps as [|p ps]; [contradiction|]. inversion Hrd as [|? ty ? tys' Hp Hrd']; subst. cbn [map combine] in Hm.
    cbn [gaps_ok rows_ok] in Hg, Hr. destruct Hg as [_ Hg]. destruct Hr as [Hr1 Hr2].
    destruct (filter nonws body) as [|t toks] eqn:Ef; [discriminate|]. cbn [map] in Hm. injection Hm as Et Es Hm.
    assert (Hs : exists ws body', body = ws ++ t :: body' /\ forallb is_ws ws = true /\ filter nonws body' = toks).
    { clear -Ef. revert Ef. induction body as [|u body IH]; [discriminate|]. cbn [filter]. unfold nonws at 1. destruct (is_ws u) eqn:E; cbn [negb].
      - intros H. destruct (IH H) as (ws & b & -> & Hw & Hb). exists (u :: ws), b. cbn [forallb]. rewrite E. auto.
      - intros H. injection H as -> H. exists nil, body. auto. }
    destruct Hs as (ws & body' & -> & Hw & Hf). clear Ef.
    rewrite tail_cons in Ht. unfold texts in Ht. rewrite map_app, concat_app in Ht. cbn [map List.concat] in Ht. fold (texts ws) in Ht. fold (texts body') in Ht.
    destruct (reads_head _ _ Hp) as [Hn Ha].
    assert (Hwb : forallb is_aspace (texts ws) = true).
    { clear -Hw Hb. apply Forall_app in Hb as [Hb _]. induction ws as [|w ws IH]; [reflexivity|]. cbn [forallb] in Hw. apply andb_prop in Hw as [W1 W2].
      inversion Hb; subst. unfold texts. cbn [map List.concat]. rewrite forallb_app. apply andb_true_intro. split; [auto|apply IH; auto]. }
    rewrite Es in Ht.
    assert (Eg : texts ws = gap_text [cNL] g).
    { eapply blank_prefix; [exact Hwb|apply gap_blank| | | | |exact Ht].
      - now rewrite aspace_app.
      - destruct (p_text p); [congruence|discriminate].
      - now rewrite aspace_app.
      - destruct (p_text p); [congruence|discriminate]. }
    rewrite Eg in Ht. apply app_inv_head in Ht. apply app_inv_head in Ht.
    apply located_app in Hl as [_ Hl]. cbn [located] in Hl. destruct Hl as [Hl1 Hl2]. rewrite nlcs_texts, Eg, gap_count in Hl1, Hl2.
    constructor; [split; [exact Es|lia]|]. rewrite <- Hf. eapply (IH ps tys' _ (row (p_end p))); eauto.
    + apply Forall_app in Hb as [_ Hb]. now inversion Hb.
    + now rewrite Hf.
    + rewrite p_end_row. unfold nlc in Hl2. rewrite Es in Hl2. replace (row (p_at p) + count_chr cNL (p_text p) + 1) with (r + 1 + Z.of_nat (fst g) + count_chr cNL (p_text p)) by lia. exact Hl2.
Qed.

(** ** The tokens of the output stand where the layout put their texts *)
Lemma blank_class t : spelling_ok (tt t) (spelling t) -> is_ws t = true -> forallb is_aspace (spelling t) = true.
Proof.
  unfold is_ws. destruct (tt t) eqn:E; try discriminate; intros H _; cbn [spelling_ok] in H.
  - destruct H as [_ H]. rewrite forallb_forall in *. intros x Hx. apply H in Hx. unfold is_blank in Hx. apply existsb_exists in Hx as (y & Hy & Ey). apply N.eqb_eq in Ey. subst y.
    cbn [In] in Hy. destruct Hy as [<-|[<-|[<-|[<-|[]]]]]; reflexivity.
  - destruct H as [->|[->| ->]]; reflexivity.
Qed.
(** the texts placed for a steady file can be read again *)
Lemma pieces_ready c specs tbl src toks tree l :
  run_cfg c specs tbl -> markup_calm (p_markup c) -> tokenize src = Ok toks -> comments_plain c toks -> no_switch toks = true -> steady_file c toks ->
  parse (p_ctx c) toks = Ok tree -> layout_tree (pipe_env c src toks) tree = Ok l ->
  no_off (create_box tree) = true
  /\ Forall (fun p => readable (p_kind p) (p_text p)) (pieces (effective c src) KBody l).
Proof.
  intros R Hcalm Hl Hcl Hno Hst Hp Hlt. specialize (Hst _ Hp).
  destruct (run_ready _ _ _ _ _ _ R Hl Hp) as (Htd & Hrd & Hnm).
  assert (Hbt : btoks (create_box tree) = filter nonws (flat tree)).
  { pose proof (box_tokens false tree Htd) as Hb. destruct tree as [t|k cs]; [|exact Hb].
    unfold parse in Hp. apply bindr_ok in Hp as ([a r] & _ & E2). discriminate. }
  assert (Ho : no_onoff toks).
  { unfold no_switch in Hno. rewrite forallb_forall in Hno. apply Forall_forall. intros t Hin. apply Hno in Hin. now apply negb_true_iff. }
  pose proof R as ((ex & vt & Hctx) & Hut & Htk & _ & _ & _ & Hmk & _). pose proof Hp as Hp'. rewrite Hctx in Hp'.
  destruct (C05_file_tuples_partial ex vt specs tbl Hut _ _ _ Hl Ho Hp') as [HP HS].
  assert (Hsub : forall t, In t (flat tree) -> In t toks).
  { intros t Hin. apply Permutation_sym in HP. apply (Permutation_in _ HP) in Hin.
    destruct toks as [|u r]; [destruct Hin|]. unfold strip_bom_tok in Hin. destruct (is_tt _ u); [now right|exact Hin]. }
  assert (Hoff : no_off (create_box tree) = true).
  { apply box_no_off. rewrite Hbt. apply filter_forallb. unfold no_switch in Hno. rewrite forallb_forall in Hno |- *. auto. }
  split; [exact Hoff|].
  destruct (C34_texts_in_order _ _ _ Hrd Hlt) as (b & E & -> & C & _). cbn [pipe_env cfg] in E, C.
  assert (B : says true (roles (create_box tree)) (items (effective c src) KBody (create_box tree))).
  { pose proof (box_says true (effective c src) tree Htd (fun E => Hcl _ Hp) KBody KBody) as Hb.
    destruct tree as [t|k cs]; [|apply Hb; [|exact Hnm]].
    2: { unfold parse in Hp. apply bindr_ok in Hp as ([a r] & _ & E2). injection E2 as <- _. intros _. reflexivity. }
    unfold parse in Hp. apply bindr_ok in Hp as ([a r] & _ & E2). discriminate. }
  assert (A : map snd (roles (create_box tree)) = filter nonws (flat tree)) by now rewrite roles_toks.
  set (rs := roles (create_box tree)) in *.
  assert (Hst' : Forall (fun r => steady r = true) rs) by (apply Forall_forall; now apply forallb_forall).
  assert (Hin' : forall r, In r rs -> In (snd r) toks).
  { intros r Hr. assert (Hi : In (snd r) (map snd rs)) by now apply in_map. rewrite A in Hi. apply filter_In in Hi as [H1 H2]. auto. }
  assert (Hfn : forall t, In (KFunname, t) rs -> is_tt WORD t = true).
  { apply fnb_roles. eapply parse_words; [apply std_wkctx; exact Htk|eapply lexed_good; eauto|exact Hp']. }
  assert (Hlex : forall t, In t toks -> tt t <> BYTEORDER_MARK -> spelling_ok (tt t) (spelling t)).
  { intros t Hi Hne. apply in_split in Hi as (pre & post & Es). now destruct (C04_token_classes _ _ _ _ _ Hl Es Hne). }
  assert (Hrs : Forall (fun r => is_onoff (snd r) = false /\ (is_comment (snd r) = true -> startswith $"#" (spelling (snd r)) = true)
      /\ (is_tt COMMENT (snd r) = true -> existsb (N.eqb cNL) (spelling (snd r)) = false)
      /\ (fst r = KFunname -> name_text (spelling (snd r)))) rs).
  { apply Forall_forall. intros [k t] Hr. cbn [fst snd]. pose proof (Hin' _ Hr) as Hi. cbn [snd] in Hi.
    split; [|split; [|split]].
    - unfold no_onoff in Ho. rewrite Forall_forall in Ho. now apply Ho.
    - pose proof (lexed_hashed _ _ Hl) as Hh. rewrite Forall_forall in Hh. now apply Hh.
    - intros Et. unfold is_tt in Et. apply ttype_eqb_eq in Et. specialize (Hlex t Hi). rewrite Et in Hlex.
      destruct (Hlex ltac:(discriminate)) as (b & -> & Hb). cbn [existsb]. change (N.eqb cNL cHASH) with false. cbn [orb].
      destruct (existsb (N.eqb cNL) b) eqn:Ex; auto. exfalso. apply existsb_exists in Ex as (y & Hy & Ey). apply N.eqb_eq in Ey. now subst y.
    - intros ->. specialize (Hfn _ Hr). unfold is_tt in Hfn. apply ttype_eqb_eq in Hfn. specialize (Hlex t Hi). rewrite Hfn in Hlex.
      apply Hlex. discriminate. }
  pose proof (says_ready (pipe_env c src toks) (p_markup c) (first_token toks) eq_refl Hmk Hcalm _ _ B Hst' Hrs) as Hit0.
  assert (Hit : Forall (item_ok (pipe_env c src toks)) (items (effective c src) KBody (lock (f_autosort (effective c src)) (create_box tree)))).
  { rewrite Forall_forall in *. intros i Hi. apply Hit0. eapply Permutation_in; [|exact Hi]. now apply Permutation_sym. }
  exact (realizes_ready _ _ _ E Hit).
Qed.

Theorem file_places c specs tbl src text v :
  run_cfg c specs tbl -> p_usetabs c = false -> f_endl (effective c src) = [cNL] -> markup_calm (p_markup c) ->
  process_file c src = Ok (text, v) ->
  forall toks, tokenize src = Ok toks -> comments_plain c toks -> no_switch toks = true -> steady_file c toks ->
  exists tree l toks',
    parse (p_ctx c) toks = Ok tree /\ layout_tree (pipe_env c src toks) tree = Ok l
    /\ tokenize text = Ok toks' /\ no_off (create_box tree) = true
    /\ bindr (write_tree (effective c src) src l) (fun o => Ok (bom_text c ++ o, lvalid l)) = Ok (text, v)
    /\ located 1 (strip_bom_tok toks')
    /\ Forall2 stands (pieces (effective c src) KBody l) (filter nonws (strip_bom_tok toks')).
Proof.
  intros R Ht Hendl Hcalm H toks Hl Hcl Hno Hst.
  destruct (run_split _ _ _ _ H Ht) as (toks0 & tree & l & o & E1 & E2 & E3 & E4 & -> & ->).
  rewrite Hl in E1. injection E1 as <-.
  destruct (run_ready _ _ _ _ _ _ R Hl E2) as (A & B & C).
  destruct (pieces_ready _ _ _ _ _ _ _ R Hcalm Hl Hcl Hno Hst E2 E3) as [Hoff Hps].
  assert (He : is_endl (f_endl (effective c src))) by (apply eff_endl, R).
  destruct (page_rows true _ _ _ src B (fun _ => run_cmok _ _ _ E2 Hcl) He Hoff E3) as (gs & F & F2 & G). cbn [pipe_env cfg] in F, F2, G.
  rewrite E4 in G. injection G as ->. rewrite Hendl in *. fold (tailp gs (pieces (effective c src) KBody l)) in *.
  set (ps := pieces (effective c src) KBody l) in *. destruct (ready_types _ Hps) as (tys & Hty).
  assert (Htb : strip_bom (bom_text c ++ tailp gs ps) = tailp gs ps).
  { unfold bom_text. destruct (p_bom c); [reflexivity|]. cbn [app]. unfold strip_bom.
    assert (Hb : bomless (tailp gs ps) = true).
    { destruct gs as [|g gs], ps as [|p ps]; cbn [gaps_ok] in F; try (exfalso; exact F); [reflexivity|]. rewrite tail_cons.
      destruct (gap_dec g) as [[G1 G2]|G1].
      - rewrite gap_zero by auto. inversion Hps as [|? ? [_ Hb] _]; subst. inversion Hty as [|? ? ? ? Hrd]; subst.
        destruct (reads_head _ _ Hrd) as [Hn _]. destruct (p_text p) as [|a s]; [congruence|exact Hb].
      - destruct (gap_head g (p_text p ++ tailp gs ps) G1) as (a & r & -> & Ha). cbn. apply negb_true_iff, N.eqb_neq. intros ->. discriminate. }
    destruct (tailp gs ps) as [|a r]; [reflexivity|]. cbn in Hb. apply negb_true_iff in Hb. now rewrite Hb. }
  set (text := bom_text c ++ tailp gs ps) in *.
  destruct (tokenize_eq text) as (ts & E1 & E5 & E6 & _). rewrite Htb in E5, E6.
  pose proof (page_scan gs ps tys None None ts F Hty eq_refl E5) as Hsc.
  set (body := locate 1 0 0 ts) in *.
  assert (Hbody : map (fun t => (tt t, spelling t)) body = ts) by apply locate_spelling.
  assert (Hsolid : map (fun t => (tt t, spelling t)) (filter nonws body) = combine tys (map p_text ps)).
  { rewrite <- Hsc, <- Hbody. clear. induction body as [|t l IH]; auto. cbn [filter map]. unfold solid at 1. cbn [fst].
    change (tmem (tt t) [WHITESPACE; NEWLINE]) with (is_ws t). unfold nonws at 1. destruct (is_ws t); cbn [negb map]; auto. now f_equal. }
  assert (Hstrip : strip_bom_tok (bom_prefix text ++ body) = body).
  { assert (Hnb : strip_bom_tok body = body).
    { destruct body as [|t l0] eqn:Eb; auto. unfold strip_bom_tok. destruct (is_tt BYTEORDER_MARK t) eqn:Et; auto. exfalso.
      unfold is_tt in Et. apply ttype_eqb_eq in Et. cbn [filter] in Hsolid. unfold nonws, is_ws in Hsolid. rewrite Et in Hsolid. cbn [tmem ttype_eqb negb existsb orb] in Hsolid.
      destruct tys as [|ty tys], ps as [|p ps]; try discriminate. cbn in Hsolid. injection Hsolid as E7 _. inversion Hty; subst.
      rewrite Et in *. eapply reads_bom; eauto. }
    unfold bom_prefix. destruct text as [|a r]; auto. destruct (N.eqb a cBOM); auto. }
  exists tree, l, (bom_prefix text ++ body). rewrite Hstrip. split; [exact E2|]. split; [exact E3|]. split; [exact E1|]. split; [exact Hoff|].
  split; [rewrite E4; reflexivity|]. assert (Hloc : located 1 body) by apply locate_located. split; [exact Hloc|].
  eapply (page_lines gs ps tys None 0 body); eauto.
  - unfold texts. rewrite <- E6, <- Hbody, map_map. reflexivity.
  - apply Forall_forall. intros t Hi Hw. apply blank_class; [|exact Hw].
    apply in_split in Hi as (pre & post & Es). destruct (C04_token_classes text _ (bom_prefix text ++ pre) t post E1) as [Hc _]; [rewrite <- app_assoc; now f_equal| |exact Hc].
    unfold is_ws in Hw. intros Eb. rewrite Eb in Hw. discriminate.
Qed.
