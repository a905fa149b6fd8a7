(** * Places2: the columns of the tokens of the output, and the blanks between its comments *)
From Verif Require Import Base Regex Lex LexProofs LexClass PropLex TextOps TextProofs Tree Parse ParseProofs ParseTerm PropParse PropTerm
  CmdSpec StdSpecs StdDb StdWf PropStd StdShape Layout LayoutProofs LayoutCols Pieces Writing PropLayout Markup MarkupProofs Pipeline PropCase PropFile
  ParseShape NamesShape WordShape CommentShape TidyShape Reread CommentFree PropReread ParseBlank ParseSame BodySame Places ParseLines.
From Coq Require Import Permutation.

(** ** Blanks between two comments *)
Fixpoint snug (l : list token) : Prop :=
  match l with
  | nil => True
  | t :: r =>
      (is_tt COMMENT t = true -> forall ws u q, r = ws ++ u :: q -> blanks ws -> is_tt COMMENT u = true -> nlcs ws <= 1 ->
        (exists n, ws = [n] /\ is_tt NEWLINE n = true) \/ exists n w, ws = [n; w] /\ is_tt NEWLINE n = true /\ is_tt WHITESPACE w = true)
      /\ snug r
  end.
Lemma snug_app a b : snug (a ++ b) -> snug b.
Proof. induction a as [|t a IH]; auto. intros [_ H]. auto. Qed.

Lemma strip_blank s : not_blank (lstrip_by is_blank s).
Proof. induction s as [|c s IH]; [exact I|]. cbn [lstrip_by]. destruct (is_blank c) eqn:E; [exact IH|exact E]. Qed.
Lemma scanned_greedy pv s ts : scanned pv s ts -> forall pre sp post, ts = pre ++ (WHITESPACE, sp) :: post -> not_blank (List.concat (map snd post)).
Proof.
  intros H. induction H as [|pv s t sp s' ts r y HF HI HM HR Hs Hs' Hne Hsc IH]; intros pre sp0 post E.
  - destruct pre; discriminate.
  - destruct pre as [|[t1 sp1] pre].
    + cbn [app] in E. injection E as -> <- <-.
      assert (List.concat (map snd ts) = rest y) as ->.
      { rewrite <- Hs'. clear -Hsc. induction Hsc; simpl; auto. now rewrite IHHsc. }
      unfold lexicon in HI. apply in_app_or in HI as [HI|HI].
      * assert (He : ends_star is_blank r).
        { unfold lexicon1 in HI. repeat (destruct HI as [HI|HI]; [try discriminate HI; injection HI as <-; unfold RPlus; apply es_seq, es_star|]). destruct HI. }
        destruct (ends_star_max _ _ _ _ He HM) as (u & ->). apply strip_blank.
      * destruct HI as [HI|[]]. discriminate HI.
    + cbn [app] in E. injection E as -> -> E. exact (IH _ _ _ E).
Qed.
Lemma nlc_pos t : 0 <= nlc t.
Proof. unfold nlc, count_chr. apply Zle_0_nat. Qed.
Lemma nlcs_pos l : 0 <= nlcs l.
Proof. induction l as [|t l IH]; cbn [nlcs]; [lia|]. pose proof (nlc_pos t). lia. Qed.
(** the tokens behind the byte-order mark, as the lexer made them *)
Lemma lexed_body s toks : tokenize s = Ok toks -> exists ts pv, scanned pv (strip_bom s) ts /\ strip_bom_tok toks = locate 1 0 0 ts.
Proof.
  intros H. destruct (tokenize_eq s) as (ts & E & Hsc & _). rewrite H in E. injection E as ->. exists ts, None. split; [exact Hsc|].
  pose proof (scanned_no_bom _ _ _ Hsc 1 0 0) as Hb.
  assert (Hn : strip_bom_tok (locate 1 0 0 ts) = locate 1 0 0 ts).
  { destruct (locate 1 0 0 ts) as [|t r]; auto. simpl. inversion Hb as [|? ? Ht _]; subst.
    destruct (is_tt BYTEORDER_MARK t) eqn:Et; auto. unfold is_tt in Et. now apply ttype_eqb_eq in Et. }
  unfold bom_prefix. destruct s as [|a s]; [exact Hn|]. destruct (N.eqb a cBOM); [reflexivity|exact Hn].
Qed.
Definition nocr (t : token) : Prop := is_ws t = true -> ~ In cCR (spelling t).
Theorem lexed_snug s toks : tokenize s = Ok toks -> Forall nocr (strip_bom_tok toks) -> snug (strip_bom_tok toks).
Proof.
  intros H Hcr. destruct (lexed_body _ _ H) as (ts & pv & Hsc & Eb). rewrite Eb in *.
  pose proof (locate_spelling 1 0 0 ts) as L. set (body := locate 1 0 0 ts) in *. clearbody body. clear Eb H.
  assert (Hall : forall pre t post, body = pre ++ t :: post -> spelling_ok (tt t) (spelling t) /\ follow_ok (tt t) (texts post)
    /\ (tt t = WHITESPACE -> not_blank (texts post))).
  { intros pre t post E. rewrite E in L. rewrite map_app in L. cbn [map] in L. symmetry in L.
    assert (Et : texts post = List.concat (map snd (map (fun t => (tt t, spelling t)) post))) by (unfold texts; now rewrite map_map).
    destruct (scanned_ok _ _ _ Hsc _ _ _ _ L) as (A & _ & D). rewrite Et. split; [exact A|]. split; [exact D|].
    intros Ew. rewrite Ew in L. exact (scanned_greedy _ _ _ Hsc _ _ _ L). }
  clear L Hsc. assert (G : forall pre suf, body = pre ++ suf -> snug suf); [|exact (G nil body eq_refl)].
  intros pre suf. revert pre. induction suf as [|t suf IH]; intros pre E; [exact I|]. cbn [snug]. split.
  2: { apply (IH (pre ++ [t])). now rewrite <- app_assoc. }
  intros Hc ws u q -> Hw Hu Hn. unfold is_tt in Hc, Hu. apply ttype_eqb_eq in Hc. apply ttype_eqb_eq in Hu.
  destruct (Hall _ _ _ E) as (_ & F & _). rewrite Hc in F. cbn [follow_ok] in F.
  destruct ws as [|n ws].
  { exfalso. cbn [app] in *. destruct (Hall (pre ++ [t]) u q) as (A & _); [rewrite E, <- app_assoc; reflexivity|]. rewrite Hu in A.
    destruct A as (b & Es & _). unfold texts in F. cbn [map List.concat] in F. rewrite Es in F. discriminate F. }
  cbn [app] in *. destruct (Hall (pre ++ [t]) n (ws ++ u :: q)) as (A & _ & _); [rewrite E, <- app_assoc; reflexivity|].
  unfold blanks in Hw. cbn [forallb] in Hw. apply andb_prop in Hw as [Hw1 Hw].
  assert (Hcr' : Forall nocr (n :: ws ++ u :: q)) by (rewrite E in Hcr; apply Forall_app in Hcr as [_ Hcr]; now inversion Hcr).
  assert (En : tt n = NEWLINE /\ nlc n = 1).
  { unfold is_ws in Hw1. unfold texts in F. cbn [map List.concat] in F. destruct (tt n) eqn:Et; try discriminate Hw1.
    - exfalso. destruct A as [A1 A2]. destruct (spelling n) as [|c0 sp0]; [congruence|]. cbn [app] in F. cbn [forallb] in A2. apply andb_prop in A2 as [A2 _]. subst c0. discriminate A2.
    - split; auto. unfold nlc. destruct A as [->|[->|Es]]; try reflexivity. exfalso. rewrite Es in F. discriminate F. }
  destruct En as [En Z1]. cbn [nlcs] in Hn. pose proof (Forall_inv_tail Hcr') as Hcr2.
  assert (Hws : Forall (fun w => tt w = WHITESPACE) ws).
  { assert (Hz : nlcs ws <= 0) by lia. clear Hn. apply Forall_forall. intros w Hin. apply in_split in Hin as (w1 & w2 & ->).
    rewrite forallb_app in Hw. apply andb_prop in Hw as [_ Hw]. cbn [forallb] in Hw. apply andb_prop in Hw as [Hw _].
    destruct (Hall (pre ++ t :: n :: w1) w (w2 ++ u :: q)) as (B & _ & _); [rewrite E, <- !app_assoc; reflexivity|].
    unfold is_ws in Hw. destruct (tt w) eqn:Et; try discriminate Hw; auto. exfalso.
    rewrite nlcs_app in Hz. cbn [nlcs] in Hz. pose proof (nlcs_pos w1). pose proof (nlcs_pos w2).
    rewrite <- !app_assoc in Hcr2. apply Forall_app in Hcr2 as [_ Hcr2]. pose proof (Forall_inv Hcr2) as Hx. unfold nocr, is_ws in Hx. rewrite Et in Hx.
    unfold nlc in Hz. destruct B as [Es|[Es|Es]]; rewrite Es in *.
    - change (count_chr cNL [cNL]) with 1 in Hz. lia.
    - apply Hx; [reflexivity|now left].
    - apply Hx; [reflexivity|now left]. }
  assert (Tt : forall ty (w : token), tt w = ty -> is_tt ty w = true) by (intros ty w <-; unfold is_tt; apply ttype_eqb_eq; reflexivity).
  destruct ws as [|w ws]; [left; exists n; auto|]. pose proof (Forall_inv Hws) as Hw0; pose proof (Forall_inv_tail Hws) as Hws'. cbv beta in Hw0.
  destruct ws as [|w2 ws]; [right; exists n, w; auto|]. exfalso. pose proof (Forall_inv Hws') as Hw2. cbv beta in Hw2.
  cbn [app] in *. destruct (Hall (pre ++ [t; n]) w (w2 :: ws ++ u :: q)) as (_ & _ & B); [rewrite E, <- app_assoc; reflexivity|]. specialize (B Hw0).
  destruct (Hall (pre ++ [t; n; w]) w2 (ws ++ u :: q)) as (C & _ & _); [rewrite E, <- app_assoc; reflexivity|]. rewrite Hw2 in C. destruct C as [C1 C2].
  unfold texts in B. cbn [map List.concat] in B. destruct (spelling w2) as [|c0 s0]; [congruence|]. cbn [app not_blank forallb] in *. apply andb_prop in C2 as [C2 _]. congruence.
Qed.

(** ** Columns *)
(** every text stands at the place given by the text before it *)
Fixpoint stays (endl : str) (x : str) (gs : list gap) (ps : list piece) : Prop :=
  match gs, ps with
  | g :: gs', p :: ps' =>
      let y := x ++ gap_text endl g in
      row (p_at p) = count_chr cNL y /\ colm (p_at p) = col_of y /\ stays endl (y ++ with_endl endl (p_text p)) gs' ps'
  | _, _ => True
  end.
Lemma write_at_stays endl f r c text f' : is_endl endl -> cursor_ok f -> 0 <= c ->
  cle (Cur (crow f) (ccol f)) (Cur r c) ->
  write_at endl f r c text = Ok f' ->
  cursor_ok f' /\ exists g, TextOps.out f' = TextOps.out f ++ gap_text endl g ++ with_endl endl text
    /\ (crow f < r -> (0 < fst g)%nat)
    /\ (clt (Cur (crow f) (ccol f)) (Cur r c) -> (0 < fst g)%nat \/ (0 < snd g)%nat)
    /\ r = count_chr cNL (TextOps.out f ++ gap_text endl g) /\ c = col_of (TextOps.out f ++ gap_text endl g).
Proof.
  intros He Hok Hc Hle H. apply write_at_spec in H as [A (k & n & H)]; auto. cbn zeta in H.
  destruct H as (H1 & H2 & H3). split; [exact A|].
  assert (Hrow : crow f + Z.of_nat k = r).
  { destruct Hok as [Hr _]. rewrite Hr, <- H2, !count_chr_app, count_nl_repeat, count_nl_spaces by auto. lia. }
  assert (Hg : gap_text endl (k, Z.to_nat n) = repeat_s k endl ++ spaces n).
  { unfold gap_text. cbn [fst snd]. unfold spaces. rewrite Nat2Z.id. reflexivity. }
  exists (k, Z.to_nat n). rewrite Hg. cbn [fst snd]. split; [exact H1|].
  split; [lia|]. split; [|split; now symmetry]. intros Hlt. destruct k as [|k]; [|left; lia]. right.
  cbn [repeat_s] in H3. unfold clt in Hlt. cbn in Hlt.
  destruct Hok as [_ Hcol]. simpl in H3. rewrite col_of_app_out in H3 by apply spaces_no_nl.
  destruct (Z_le_dec n 0) as [Hn|Hn]; [|lia]. exfalso.
  assert (spaces n = nil) as E by (unfold spaces; destruct n; try lia; reflexivity).
  rewrite E in H3. change (zlen nil) with 0 in H3. lia.
Qed.
Lemma put_all_stays closed c ps : is_endl (f_endl c) -> forall s k s',
  cursor_ok (w_f s) -> Forall (fun p => 0 <= colm (p_at p)) ps ->
  placed closed (wcur s, k) ps -> put_all c ps s = Ok s' ->
  cursor_ok (w_f s') /\ exists gs, gaps_ok closed k gs ps /\ stays (f_endl c) (TextOps.out (w_f s)) gs ps
    /\ TextOps.out (w_f s') = TextOps.out (w_f s) ++ page (f_endl c) gs ps.
Proof.
  intros He. induction ps as [|p ps IH]; intros s k s' Hok Hcol Hpl H.
  - inv H. split; [exact Hok|]. exists nil. split; [exact I|]. split; [exact I|]. simpl. now rewrite app_nil_r.
  - cbn [put_all] in H. bk H. rename x into s1. destruct Hpl as [(F1 & F2 & F3) Hpl].
    inversion Hcol as [|? ? Hc1 Hc2]; subst.
    assert (Hput := Hx). unfold put in Hput. bk Hput. inv Hput. rename x into f1.
    destruct p as [[r cl] text kd]. cbn [p_at p_text p_kind row colm fst snd] in *.
    destruct (write_at_stays _ _ _ _ _ _ He Hok Hc1 F1 Hx0) as (Hok1 & g & Hout & Hg1 & Hg2 & Hg3 & Hg4).
    assert (Hcur : wcur (WS (w_off s) f1) = p_end (Pc (Cur r cl) text kd)).
    { destruct (put_ok c s (Cur r cl) text F1) as (s2 & E1 & E2 & _). rewrite Hx in E1. inv E1. exact E2. }
    unfold step in Hpl. cbn [p_kind] in Hpl. rewrite <- Hcur in Hpl.
    destruct (IH (WS (w_off s) f1) _ _ Hok1 Hc2 Hpl H) as (A & gs & B & B2 & C). split; [exact A|].
    exists (g :: gs). split; [|split].
    + cbn [gaps_ok p_kind]. split; [|exact B]. destruct k as [k|]; [|exact I]. split.
      * intros E0 E. apply Hg1. apply F2. unfold line_st. cbn [snd]. now rewrite E, E0.
      * intros E1. apply Hg2. apply F3. exact E1.
    + cbn [stays p_at p_text row colm]. split; [exact Hg3|]. split; [exact Hg4|]. cbn [w_f] in B2. rewrite Hout, app_assoc in B2. exact B2.
    + rewrite C. cbn [page p_text w_f]. rewrite Hout. now rewrite <- !app_assoc.
Qed.
Theorem page_stays closed e root l infile :
  ready e root -> (closed = true -> cmok (create_box root) = true) -> is_endl (f_endl (cfg e)) -> no_off (create_box root) = true ->
  layout_tree e root = Ok l ->
  exists gs, gaps_ok closed None gs (pieces (cfg e) KBody l) /\ stays (f_endl (cfg e)) nil gs (pieces (cfg e) KBody l)
    /\ write_tree (cfg e) infile l
       = Ok (page (f_endl (cfg e)) gs (pieces (cfg e) KBody l) ++ f_endl (cfg e)).
Proof.
  intros R Hm He Hno H. pose proof (layout_placed closed e root l R Hm H) as Hpl.
  destruct (layout_lok e root l R H) as (o & Hl & Hp & Hcols). destruct R as (Hc & Ht & Hw & Hn).
  unfold write_tree.
  rewrite (proj1 (write_pieces e infile) _ _ _ Hl KBody (WS None cf_init)).
  2: now rewrite lock_wfb.
  2: now rewrite lock_names.
  2: now rewrite lock_no_off.
  2: reflexivity.
  change (Cur 0 0) with (wcur (WS None cf_init)) in Hpl.
  destruct (put_all_ok closed (cfg e) _ _ _ Hpl) as (s' & E & _). rewrite E. cbn [bindr].
  assert (Hok0 : cursor_ok (w_f (WS None cf_init))) by (split; reflexivity).
  destruct (put_all_stays closed (cfg e) _ He _ _ _ Hok0 (pieces_col _ _ KBody Hcols) Hpl E)
    as (_ & gs & G1 & G2 & G3).
  exists gs. split; [exact G1|]. split; [exact G2|]. unfold getvalue. rewrite G3. reflexivity.
Qed.

(** a piece and the token read for it *)
Definition pcomment (p : piece) : bool := match p_kind p with PkLine | PkBracket => true | _ => false end.
Definition pline (p : piece) : bool := match p_kind p with PkLine => true | _ => false end.
Definition stood (p : piece) (t : token) : Prop :=
  spelling t = p_text p /\ line (begin t) = row (p_at p) + 1 /\ col (begin t) = colm (p_at p)
  /\ is_comment t = pcomment p /\ is_tt COMMENT t = pline p.
Lemma stood_stands p t : stood p t -> stands p t. Proof. intros (A & B & _). now split. Qed.

Lemma class_plain s t : class_of s = Some t -> tmem t [COMMENT; BRACKET_COMMENT; WHITESPACE; NEWLINE] = false.
Proof.
  intros Hc. destruct t; try reflexivity; exfalso; revert Hc; unfold class_of; destruct s; try discriminate;
    unfold verdicts; cbn [vtry];
    repeat match goal with |- context [match ?v with Yes => _ | No => _ | Maybe => _ end] => destruct v; try discriminate end;
    destruct (ugo _); discriminate.
Qed.
Lemma reads_comment p t : reads p (tt t) -> is_comment t = pcomment p /\ is_tt COMMENT t = pline p.
Proof.
  unfold reads, pcomment, pline, is_comment, is_tt. destruct (p_kind p) as [[]|[]| | |].
  all: try (intros [_ ->]; split; reflexivity).
  all: try (intros (_ & -> & _); split; reflexivity).
  all: try (intros []; fail).
  all: try contradiction.
  intros [Hc _]. apply class_plain in Hc. destruct (tt t); try discriminate Hc; auto.
Qed.
Definition poised (x : str) (t : token) : Prop := line (begin t) = line_of x /\ col (begin t) = col_of x.
Fixpoint poises (x : str) (l : list token) : Prop :=
  match l with nil => True | t :: r => poised x t /\ poises (x ++ spelling t) r end.
Lemma poises_app a : forall x b, poises x (a ++ b) <-> poises x a /\ poises (x ++ texts a) b.
Proof.
  induction a as [|t a IH]; intros x b; cbn [app poises].
  - unfold texts. cbn. rewrite app_nil_r. tauto.
  - rewrite IH. unfold texts. cbn [map List.concat]. rewrite app_assoc. tauto.
Qed.
Lemma locate_poises ts : poises nil (locate 1 0 0 ts).
Proof.
  pose proof (locate_spec ts nil) as H. change (line_of nil) with 1 in H. change (col_of nil) with 0 in H. change (bytelen nil) with 0 in H.
  set (l := locate 1 0 0 ts) in *. clearbody l.
  assert (G : forall pre suf, l = pre ++ suf -> poises (texts pre) suf); [|exact (G nil l eq_refl)].
  intros pre suf. revert pre. induction suf as [|t suf IH]; intros pre E; [exact I|]. cbn [poises]. split.
  - specialize (H _ _ _ E). cbn zeta in H. unfold poised. rewrite H. cbn [app line col]. auto.
  - specialize (IH (pre ++ [t])). unfold texts in *. rewrite map_app, concat_app in IH. cbn [map List.concat] in IH. rewrite app_nil_r in IH.
    apply IH. now rewrite <- app_assoc.
Qed.
Lemma gap_nocr g : ~ In cCR (gap_text [cNL] g).
Proof.
  rewrite gap_nl. intros H. apply in_app_or in H as [H|H]; apply repeat_spec in H; discriminate.
Qed.
Lemma texts_app a b : texts (a ++ b) = texts a ++ texts b.
Proof. unfold texts. now rewrite map_app, concat_app. Qed.
Lemma in_texts w ws c : In w ws -> In c (spelling w) -> In c (texts ws).
Proof. intros H1 H2. unfold texts. apply in_concat. exists (spelling w). split; auto. now apply in_map. Qed.
Lemma page_cols gs : forall ps tys k x body, gaps_ok true k gs ps -> stays [cNL] x gs ps -> Forall2 reads ps tys ->
  texts body = tailp gs ps -> Forall (fun t => is_ws t = true -> forallb is_aspace (spelling t) = true) body ->
  map (fun t => (tt t, spelling t)) (filter nonws body) = combine tys (map p_text ps) ->
  poises x body -> Forall2 stood ps (filter nonws body) /\ Forall nocr body.
Proof.
  induction gs as [|g gs IH]; intros ps tys k x body Hg Hr Hrd Ht Hb Hm Hl.
  - destruct ps; [|contradiction]. inversion Hrd; subst. cbn in Hm. destruct (filter nonws body); [|discriminate]. split; [constructor|].
    apply Forall_forall. intros t Hin _ Hc. assert (In cCR (texts body)) as Hi by (eapply in_texts; eauto). rewrite Ht in Hi. destruct Hi as [Hi|[]]. discriminate Hi.
  - destruct ps as [|p ps]; [contradiction|]. inversion Hrd as [|? ty ? tys' Hp Hrd']; subst. cbn [map combine] in Hm.
    cbn [gaps_ok stays] in Hg, Hr. destruct Hg as [_ Hg]. destruct Hr as (Hr1 & Hr2 & Hr3).
    destruct (filter nonws body) as [|t toks] eqn:Ef; [discriminate|]. cbn [map] in Hm. injection Hm as Et Es Hm.
    assert (Hs : exists ws body', body = ws ++ t :: body' /\ forallb is_ws ws = true /\ filter nonws body' = toks).
    { clear -Ef. revert Ef. induction body as [|u body IH]; [discriminate|]. cbn [filter]. unfold nonws at 1. destruct (is_ws u) eqn:E; cbn [negb].
      - intros H. destruct (IH H) as (ws & b & -> & Hw & Hb). exists (u :: ws), b. cbn [forallb]. rewrite E. auto.
      - intros H. injection H as -> H. exists nil, body. auto. }
    destruct Hs as (ws & body' & -> & Hw & Hf).
    assert (Hnt : is_ws t = false).
    { assert (Hi : In t (filter nonws (ws ++ t :: body'))) by (rewrite Ef; now left). apply filter_In in Hi as [_ Hi]. unfold nonws in Hi. now apply negb_true_iff. }
    clear Ef.
    rewrite tail_cons in Ht. rewrite texts_app in Ht. change (texts (t :: body')) with (spelling t ++ texts body') in Ht.
    destruct (reads_head _ _ Hp) as [Hn Ha].
    assert (Hwb : forallb is_aspace (texts ws) = true).
    { clear -Hw Hb. apply Forall_app in Hb as [Hb _]. induction ws as [|w ws IH]; [reflexivity|]. cbn [forallb] in Hw. apply andb_prop in Hw as [W1 W2].
      inversion Hb; subst. unfold texts. cbn [map List.concat]. rewrite forallb_app. apply andb_true_intro. split; [auto|apply IH; auto]. }
    rewrite Es in Ht.
    assert (Eg : texts ws = gap_text [cNL] g).
    { eapply blank_prefix; [exact Hwb|apply gap_blank| | | | |exact Ht].
      - now rewrite aspace_app.
      - destruct (p_text p); [congruence|discriminate].
      - now rewrite aspace_app.
      - destruct (p_text p); [congruence|discriminate]. }
    rewrite Eg in Ht. apply app_inv_head in Ht. apply app_inv_head in Ht.
    apply poises_app in Hl as [_ Hl]. cbn [poises] in Hl. destruct Hl as [[Hl1 Hl2] Hl3]. rewrite Eg in Hl1, Hl2, Hl3.
    rewrite with_nl in Hr3. rewrite Es in Hl3.
    destruct (IH ps tys' _ _ body' Hg Hr3 Hrd' Ht) as [A B]; auto.
    + apply Forall_app in Hb as [_ Hb]. now inversion Hb.
    + now rewrite Hf.
    + rewrite Hf in A. split.
      * constructor; [|exact A]. rewrite <- Et in Hp. destruct (reads_comment _ _ Hp) as [C1 C2]. unfold line_of in Hl1. repeat split; auto; lia.
      * apply Forall_app. split; [|constructor; [|exact B]].
        -- apply Forall_forall. intros w Hin _ Hc. apply (gap_nocr g). rewrite <- Eg. eapply in_texts; eauto.
        -- intros Hw0. congruence.
Qed.
Theorem file_stood c specs tbl src text v :
  run_cfg c specs tbl -> p_usetabs c = false -> f_endl (effective c src) = [cNL] -> markup_calm (p_markup c) ->
  process_file c src = Ok (text, v) ->
  forall toks, tokenize src = Ok toks -> comments_plain c toks -> no_switch toks = true -> steady_file c toks ->
  exists tree l toks',
    parse (p_ctx c) toks = Ok tree /\ layout_tree (pipe_env c src toks) tree = Ok l
    /\ tokenize text = Ok toks' /\ no_off (create_box tree) = true
    /\ snug (strip_bom_tok toks')
    /\ Forall2 stood (pieces (effective c src) KBody l) (filter nonws (strip_bom_tok toks')).
Proof.
  intros R Ht Hendl Hcalm H toks Hl Hcl Hno Hst.
  destruct (run_split _ _ _ _ H Ht) as (toks0 & tree & l & o & E1 & E2 & E3 & E4 & -> & ->).
  rewrite Hl in E1. injection E1 as <-.
  destruct (run_ready _ _ _ _ _ _ R Hl E2) as (A & B & C).
  destruct (pieces_ready _ _ _ _ _ _ _ R Hcalm Hl Hcl Hno Hst E2 E3) as [Hoff Hps].
  assert (He : is_endl (f_endl (effective c src))) by (apply eff_endl, R).
  destruct (page_stays true _ _ _ src B (fun _ => run_cmok _ _ _ E2 Hcl) He Hoff E3) as (gs & F & F2 & G). cbn [pipe_env cfg] in F, F2, G.
  rewrite E4 in G. injection G as ->. rewrite Hendl in *. fold (tailp gs (pieces (effective c src) KBody l)) in *.
  set (ps := pieces (effective c src) KBody l) in *. destruct (ready_types _ Hps) as (tys & Hty).
  assert (Htb : strip_bom (bom_text c ++ tailp gs ps) = tailp gs ps).
  { unfold bom_text. destruct (p_bom c); [reflexivity|]. cbn [app]. unfold strip_bom.
    assert (Hb : bomless (tailp gs ps) = true).
    { destruct gs as [|g gs], ps as [|p ps]; cbn [gaps_ok] in F; try (exfalso; exact F); [reflexivity|]. rewrite tail_cons.
      destruct (gap_dec g) as [[G1 G2]|G1].
      - rewrite gap_zero by auto. inversion Hps as [|? ? [_ Hb] _]; subst. inversion Hty as [|? ? ? ? Hrd]; subst.
        destruct (reads_head _ _ Hrd) as [Hn _]. destruct (p_text p) as [|a s]; [congruence|exact Hb].
      - destruct (gap_head g (p_text p ++ tailp gs ps) G1) as (a & r & -> & Ha). cbn. apply negb_true_iff, N.eqb_neq. intros ->. discriminate. }
    destruct (tailp gs ps) as [|a r]; [reflexivity|]. cbn in Hb. apply negb_true_iff in Hb. now rewrite Hb. }
  set (text := bom_text c ++ tailp gs ps) in *.
  destruct (tokenize_eq text) as (ts & E1 & E5 & E6 & _). rewrite Htb in E5, E6.
  pose proof (page_scan gs ps tys None None ts F Hty eq_refl E5) as Hsc.
  destruct (lexed_body _ _ E1) as (ts2 & pv & _ & Estrip).
  set (body := locate 1 0 0 ts) in *.
  assert (Hbody : map (fun t => (tt t, spelling t)) body = ts) by apply locate_spelling.
  assert (Hsolid : map (fun t => (tt t, spelling t)) (filter nonws body) = combine tys (map p_text ps)).
  { rewrite <- Hsc, <- Hbody. clear. induction body as [|t l IH]; auto. cbn [filter map]. unfold solid at 1. cbn [fst].
    change (tmem (tt t) [WHITESPACE; NEWLINE]) with (is_ws t). unfold nonws at 1. destruct (is_ws t); cbn [negb map]; auto. now f_equal. }
  assert (Hstrip : strip_bom_tok (bom_prefix text ++ body) = body).
  { assert (Hnb : strip_bom_tok body = body).
    { destruct body as [|t l0] eqn:Eb; auto. unfold strip_bom_tok. destruct (is_tt BYTEORDER_MARK t) eqn:Et; auto. exfalso.
      unfold is_tt in Et. apply ttype_eqb_eq in Et. cbn [filter] in Hsolid. unfold nonws, is_ws in Hsolid. rewrite Et in Hsolid. cbn [tmem ttype_eqb negb existsb orb] in Hsolid.
      destruct tys as [|ty tys], ps as [|p ps]; try discriminate. cbn in Hsolid. injection Hsolid as E7 _. inversion Hty; subst.
      rewrite Et in *. eapply reads_bom; eauto. }
    unfold bom_prefix. destruct text as [|a r]; auto. destruct (N.eqb a cBOM); auto. }
  exists tree, l, (bom_prefix text ++ body).
  assert (Hx : Forall2 stood ps (filter nonws body) /\ Forall nocr body).
  { eapply (page_cols gs ps tys None nil body); eauto.
    - unfold texts. rewrite <- E6, <- Hbody, map_map. reflexivity.
    - apply Forall_forall. intros t Hi Hw. apply blank_class; [|exact Hw].
      apply in_split in Hi as (pre & post & Es). destruct (C04_token_classes text _ (bom_prefix text ++ pre) t post E1) as [Hc _]; [rewrite <- app_assoc; now f_equal| |exact Hc].
      unfold is_ws in Hw. intros Eb. rewrite Eb in Hw. discriminate.
    - apply locate_poises. }
  destruct Hx as [Hx1 Hx2].
  split; [exact E2|]. split; [exact E3|]. split; [exact E1|]. split; [exact Hoff|]. rewrite <- Hstrip in Hx2. split; [now apply (lexed_snug _ _ E1)|].
  rewrite Hstrip. exact Hx1.
Qed.
