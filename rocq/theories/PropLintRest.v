(** * PropLintRest: the remaining findings of cmake-lint (C120 to C124) *)
From Verif Require Import Base Regex Lex LexProofs LexClass TextOps TextProofs Tree Parse ParseProofs CmdSpec
  StdSpecs StdDb PropStd PropBlocks ArgShape Layout SortProofs MarkupProofs Markup PropReread Pipeline NamesShape LintDb Lint PropLint
  PropLintText LintTree PropLintChecks PropLintDefs PropLintMore PropLintCrash LintShape PropReport ParserLint PropRemarks.
From Coq Require Import Permutation.

(** ** C120: empty docstrings *)
Definition blank_text (s : str) : Prop := forall x, In x s -> is_uspace x = true.
(** A line of a comment that says nothing: with markup on, only hash signs that are
    no ruler; with markup off, or when it begins like a ruler, nothing behind its first
    character; in an explicit trailing comment nothing behind the pattern *)
Definition says_nothing (m : mcfg) (ex : bool) (s : str) : Prop :=
  let ruler := exists r, strip s = repeat cHASH (Z.to_nat (mk_hash_min m)) ++ r in
  if ex then blank_text (skipn (List.length (mk_trailing m)) (strip s))
  else ((mk_enable m = false \/ ruler) /\ blank_text (tl (strip s))) \/
       (mk_enable m = true /\ ~ ruler /\ exists k, strip s = repeat cHASH k).
(** The last two things before a definition are a comment, every line of which says
    nothing, and at most one newline. *)
Definition emptily_documented (m : mcfg) (pre : list pnode) : Prop :=
  exists l ex cm ws,
    filter (fun n => match n with N _ _ => true | T _ => false end) pre = l ++ [N (KComment ex) cm; N KWhitespace ws]
    /\ text_newlines ws <= 1
    /\ forall t, In (T t) cm -> tt t = COMMENT -> says_nothing m ex (spelling t).

Lemma strip_nil s : strip s = nil <-> blank_text s.
Proof.
  assert (forall p l, rstrip_by p l = nil -> forallb p l = true) as R.
  { intros p l. induction l as [|a l IH]; [reflexivity|]. rewrite rstrip_cons. destruct (p a && forallb p l) eqn:E; [intros _; exact E|discriminate]. }
  unfold strip, strip_by, blank_text. split.
  - intros H. apply R in H. destruct (lstrip_by_split is_uspace s) as (u & E & Hu). rewrite forallb_forall in H, Hu.
    rewrite E. intros x Hx. apply in_app_iff in Hx as [Hx|Hx]; auto.
  - intros H. rewrite (TextProofs.lstrip_all is_uspace s); [reflexivity|]. now apply forallb_forall.
Qed.
Lemma strip_last s a x : strip s = a ++ [x] -> is_uspace x = false.
Proof. apply rstrip_last. Qed.
Lemma startswith_iff p s : startswith p s = true <-> exists r, s = p ++ r.
Proof.
  revert s. induction p as [|a p IH]; intros s; [split; [exists s; reflexivity|reflexivity]|].
  destruct s as [|b s]; cbn [startswith]; [split; [discriminate|intros (r & E); discriminate]|].
  rewrite andb_true_iff, N.eqb_eq, IH. split.
  - intros (-> & r & ->). now exists r.
  - intros (r & E). injection E as -> ->. eauto.
Qed.
Lemma all_hash s : forallb (N.eqb cHASH) s = true <-> exists k, s = repeat cHASH k.
Proof.
  induction s as [|a s IH]; [split; [exists 0%nat; reflexivity|reflexivity]|]. cbn [forallb]. rewrite andb_true_iff, N.eqb_eq, IH. split.
  - intros (<- & k & ->). now exists (S k).
  - intros ([|k] & E); [discriminate|]. injection E as -> ->. eauto.
Qed.
Lemma line_says m ex s : strip (Markup.comment_line m ex s) = nil <-> says_nothing m ex s.
Proof.
  rewrite strip_nil. unfold Markup.comment_line, says_nothing. cbv zeta. destruct ex; [reflexivity|].
  destruct (mk_enable m); cbn [negb].
  2:{ split; [intros H; left; auto|]. intros [[_ H]|(H & _)]; [exact H|discriminate]. }
  destruct (startswith _ (strip s)) eqn:E.
  - apply startswith_iff in E. split; [intros H; left; auto|]. intros [[_ H]|(_ & H & _)]; [exact H|contradiction].
  - assert (~ exists r, strip s = repeat cHASH (Z.to_nat (mk_hash_min m)) ++ r) as Hn by (intros K; apply startswith_iff in K; congruence).
    transitivity (exists k, strip s = repeat cHASH k).
    2:{ split; [intros H; right; auto|]. intros [[[H|H] _]|(_ & _ & H)]; [discriminate|contradiction|exact H]. }
    rewrite <- all_hash. split.
    + intros H. destruct (lstrip_by_split (N.eqb cHASH) (strip s)) as (u & Eu & Hu). pose proof (strip_last s) as HL.
      destruct (lstrip_by (N.eqb cHASH) (strip s)) as [|a l] using rev_ind; [rewrite Eu, app_nil_r; exact Hu|].
      exfalso. rewrite Eu, app_assoc in HL. specialize (HL _ _ eq_refl). rewrite (H a) in HL; [discriminate|]. apply in_elt.
    + intros H. rewrite (TextProofs.lstrip_all _ _ H). intros x [].
Qed.
Lemma blank_concat ls : blank_text (List.concat ls) <-> forall l, In l ls -> blank_text l.
Proof.
  unfold blank_text. split.
  - intros H l Hl x Hx. apply H. apply in_concat. eauto.
  - intros H x Hx. apply in_concat in Hx as (l & Hl & Hx). eauto.
Qed.
Lemma inlines_say m ex cs : forall ls, comment_inlines m ex cs = Ok ls ->
  (strip (List.concat ls) = nil <-> forall t, In (T t) cs -> tt t = COMMENT -> says_nothing m ex (spelling t)).
Proof.
  induction cs as [|[t|k ks] cs IH]; cbn [comment_inlines]; intros ls H; [|  |discriminate].
  { injection H as <-. split; [intros _ t []|reflexivity]. }
  apply bindr_ok in H as (l0 & H & E). injection E as <-. specialize (IH _ H). rewrite strip_nil in IH |- *. rewrite blank_concat in IH |- *.
  assert (is_tt COMMENT t = true <-> tt t = COMMENT) as Ht by (unfold is_tt; rewrite ttype_eqb_eq; split; congruence).
  destruct (is_tt COMMENT t) eqn:Et.
  - split.
    + intros K u [E|Hu] Hc.
      * injection E as <-. apply line_says, strip_nil, K. now left.
      * apply IH; auto. intros l Hl. apply K. now right.
    + intros K l [<-|Hl]; [apply strip_nil, line_says, K; [now left|tauto]|]. apply IH; auto. intros u Hu. apply K. now right.
  - rewrite IH. split; intros K u Hu; [|apply K; now right]. destruct Hu as [E|Hu]; [|now apply K]. injection E as <-. intros Hc. apply Ht in Hc. discriminate.
Qed.
Lemma emptily_before c pre : (forall k0 cs0 ex cs1, before1 pre = Some (N k0 cs0) -> before2 pre = Some (N (KComment ex) cs1) ->
    k_ws k0 && (node_newlines (N k0 cs0) <=? 1) = true -> exists ls, comment_inlines (lc_markup c) ex cs1 = Ok ls) ->
  (emptily_documented (lc_markup c) pre <-> match before1 pre, before2 pre with
                      | Some (N k0 cs0), Some (N (KComment ex) cs1) => k_ws k0 && (node_newlines (N k0 cs0) <=? 1) = true /\
                          exists ls, comment_inlines (lc_markup c) ex cs1 = Ok ls /\ strip (List.concat ls) = nil
                      | _, _ => False
                      end).
Proof.
  unfold emptily_documented, before1, before2, LintTree.nodes. set (l := filter _ pre). intros HI. split.
  - intros (a & e & cm & ws & E & H & K). rewrite E, rev_app_distr in HI |- *. cbn [rev app nth_error] in HI |- *.
    assert (k_ws KWhitespace && (node_newlines (N KWhitespace ws) <=? 1) = true) as G by (rewrite newlines_text; apply Z.leb_le; exact H).
    split; [exact G|]. destruct (HI _ _ _ _ eq_refl eq_refl G) as (ls & Hls). exists ls. split; [exact Hls|]. now apply (inlines_say _ _ _ _ Hls).
  - destruct (rev l) as [|p0 [|p1 r]] eqn:E; cbn [nth_error].
    + tauto.
    + destruct p0; tauto.
    + destruct p0 as [t|k0 cs0]; [tauto|]. destruct p1 as [t|k1 cs1]; [tauto|]. destruct k1; try tauto. intros (H & ls & Hls & Hn).
      apply andb_prop in H as [H1 H2]. destruct k0; try discriminate. exists (rev r), explicit, cs1, cs0. split.
      * rewrite <- (rev_involutive l), E. cbn [rev]. now rewrite <- app_assoc.
      * split; [rewrite newlines_text in H2; now apply Z.leb_le in H2|]. now apply (inlines_say _ _ _ _ Hls).
Qed.

Theorem C120_empty_docstring : forall c src y,
  lint_file c src ctx0 = Ok y -> parsers_ok c -> ~ In $"C0112" (lc_disabled c) ->
  exists toks tree, tokenize src = Ok toks /\ parse (lc_ctx c) toks = Ok tree /\
  forall r, In r (x_lint y) /\ l_id r = $"C0112" <->
    exists pre op rest post t, in_body tree pre (N KFlow (op :: rest)) post /\ name_tok op = Some t /\
      In (upper (spelling t)) [$"FUNCTION"; $"MACRO"] /\ emptily_documented (lc_markup c) pre /\ ~ In $"C0112" (muted pre) /\
      r = LRec $"C0112" [line (begin t); col (begin t); offset (begin t)]
               $"Empty docstring on function or macro declaration".
Proof.
  intros c src y H HP Hd.
  destruct (body_code c src y $"C0112" H HP) as (toks & tree & Ht & Hp & _ & HO & HR); [cbn; auto 10|].
  exists toks, tree. split; [exact Ht|]. split; [exact Hp|]. intros r. rewrite HR. clear HR.
  assert (forall pre ks post, in_body tree pre (N KFlow ks) post -> exists op rest t, ks = op :: rest /\
    name_tok op = Some t /\ smem (lower (spelling t)) [$"function"; $"macro"] = smem (upper (spelling t)) [$"FUNCTION"; $"MACRO"] /\
    (exists sr, sem op = t :: sr) /\ exists sr, filter is_semantic (flats ks) = t :: sr) as HS.
  { intros pre ks post Hb. apply in_body_sub in Hb.
    destruct (tree_flows _ _ _ _ Hp Hb eq_refl) as (op & w & rest & E & Hw & _). injection E as ->.
    destruct (name_tok_ex op w Hw) as (t & Htk & Eu). exists op, rest, t. split; [reflexivity|]. split; [exact Htk|].
    assert (In op (subtrees tree)) as Hsub.
    { eapply subtrees_trans; [exact Hb|]. cbn [subtrees flat_map]. right. apply in_app_iff. left. apply subtrees_self. }
    destruct (name_sem _ _ _ op t Hp Hsub Htk) as (_ & sr & Es). destruct (name_tok_name op t Htk) as (E1 & _ & E3 & _). split.
    { pose proof (funname_in op _ [$"function"; $"macro"] E1) as K. rewrite E3 in K.
      apply eq_true_iff_eq. rewrite K by repeat constructor. rewrite smem_In. reflexivity. }
    split; [eauto|]. unfold sem in Es. cbn [flats flat_map]. rewrite filter_app, Es. cbn [app]. eauto. }
  (* what the check of a definition does *)
  assert (forall pre op rest post t, in_body tree pre (N KFlow (op :: rest)) post -> name_tok op = Some t ->
    In (upper (spelling t)) [$"FUNCTION"; $"MACRO"] -> forall q1, docstring c (op :: rest) (before1 pre) (before2 pre) = Ok q1 ->
    forall q, q_id q = $"C0112" -> (In q q1 <-> emptily_documented (lc_markup c) pre /\ q = at_tok $"C0112" t nil)) as HD.
  { intros pre op rest post t Hb Htk Hin q1 Hdoc q Eq.
    destruct (HS pre _ post Hb) as (op' & rest' & t' & E & Htk' & Hsm & (sr & Es) & sr2 & Ef).
    injection E as <- <-. rewrite Htk in Htk'. injection Htk' as <-.
    unfold docstring in Hdoc. rewrite Es, Hsm, (proj2 (smem_In _ _) Hin), Ef in Hdoc.
    rewrite emptily_before.
    2:{ intros k0 cs0 ex cs1 E0 E1 E2. rewrite E0, E1, E2 in Hdoc. apply bindr_ok in Hdoc as (ls & Hls & _). eauto. }
    assert (In q [at_tok $"C0111" t nil] -> False) as HX by (intros [<-|[]]; discriminate Eq).
    destruct (before1 pre) as [[tk|k0 cs0]|]; try (injection Hdoc as <-; tauto).
    destruct (before2 pre) as [[tk|k1 cs1]|]; try (injection Hdoc as <-; tauto).
    destruct k1; try (injection Hdoc as <-; tauto).
    destruct (k_ws k0 && _).
    - apply bindr_ok in Hdoc as (ls & Hls & Hdoc). injection Hdoc as <-. destruct (strip (List.concat ls)) as [|a s] eqn:En.
      + split; [intros [<-|[]]; eauto|]. intros (_ & ->). now left.
      + split; [intros []|]. intros ((_ & ls' & Hls' & En') & _). rewrite Hls in Hls'. injection Hls' as <-. congruence.
    - injection Hdoc as <-. split; [intros K; destruct (HX K)|]. intros ((K & _) & _). discriminate. }
  split.
  - intros (_ & cs & pre & n & post & qs & q & Hb & -> & Hm & Hr & Hq & Eq & W).
    apply (child_in c pre n post qs q Hr) in Hq; [|rewrite Eq; cbn; auto 10].
    destruct Hq as [(ks & q1 & -> & Hdoc & Hq)|[[_ Hq]|(_ & _ & _ & ->)]].
    + destruct (HS pre ks post Hb) as (op & rest & t & -> & Htk & Hsm & (sr & Es) & sr2 & Ef).
      assert (In (upper (spelling t)) [$"FUNCTION"; $"MACRO"]) as Em.
      { pose proof Hdoc as Hdoc'. unfold docstring in Hdoc'. rewrite Es, Hsm in Hdoc'.
        destruct (smem (upper (spelling t)) [$"FUNCTION"; $"MACRO"]) eqn:Em; [now apply smem_In|injection Hdoc' as <-; destruct Hq]. }
      apply (HD pre op rest post t Hb Htk Em q1 Hdoc q Eq) in Hq as (He & ->).
      exists pre, op, rest, post, t. split; [exact Hb|]. split; [exact Htk|]. split; [exact Em|]. split; [exact He|].
      split; [exact Hm|]. eapply (written_msg $"C0112") in W; [exact W|reflexivity|reflexivity].
    + assert (coded [$"C0321"; $"C0305"] (spacing c n (before1 pre))) as K by (unfold spacing; cbv zeta; coded).
      apply (coded_in _ _ _ K) in Hq. rewrite Eq in Hq. exfalso. revert Hq. names.
    + discriminate Eq.
  - intros (pre & op & rest & post & t & Hb & Htk & Hin & He & Hm & ->). split; [exact Hd|].
    destruct (HO _ pre _ post Hb eq_refl) as (qs & Hr).
    exists (pre ++ N KFlow (op :: rest) :: post), pre, (N KFlow (op :: rest)), post, qs, (at_tok $"C0112" t nil).
    split; [exact Hb|]. split; [reflexivity|]. split; [exact Hm|]. split; [exact Hr|]. split.
    + apply (child_in c pre _ post qs _ Hr); [cbn; auto 10|]. left.
      cbn [child_reqs is_flow] in Hr. apply bindr_ok in Hr as (q1 & Hdoc & _).
      exists (op :: rest), q1. split; [reflexivity|]. split; [exact Hdoc|]. now apply (HD pre op rest post t Hb Htk Hin q1 Hdoc).
    + split; [reflexivity|]. eapply (written_msg $"C0112"); reflexivity.
Qed.

(** ** C121: remarks about pragmas *)
(** The column that the remarks about a word have, when [a] are the words before it:
    a word without an equals sign is passed over with one blank, other words are not. *)
Definition remark_col (start : Z) (a : list str) : Z :=
  fold_left (fun z w => if existsb (N.eqb cEQ) w then z else z + zlen w + 1) a start.
(** What is wrong with a word of a pragma: code and text of the remark *)
Inductive bad_word : str -> str -> str -> Prop :=
| bw_plain w : ~ In cEQ w -> bad_word w $"E0011" w
| bw_key k v : ~ In cEQ k -> k <> $"disable" -> bad_word (k ++ $"=" ++ v) $"E0011" k
| bw_code v i : In i (split_on 44%N v) -> ~ In i (map fst lint_db) -> bad_word ($"disable=" ++ v) $"E0012" i.
(** The comment token [t] is looked at for pragmas while [code] is switched on: it is a
    comment between commands with no pragma against [code] before it in its block, or
    it stands inside a command. *)
Definition looked_at (c : lcfg) (tree : pnode) (code : str) (t : token) : Prop :=
  tt t = COMMENT /\
  ((exists pre e cs post, in_body tree pre (N (KComment e) cs) post /\ In (T t) cs /\ ~ In code (muted pre)) \/
   (exists s e cs, In (s, N (KComment e) cs) (visits nil tree) /\ in_stmt s = true /\ lc_cnode c s = true /\ In (T t) cs)).
Definition pragma_text (code what : str) : str :=
  if seqb code $"E0011" then $"Unrecognized file option " ++ what else $"Bad option value " ++ what.

Lemma split_eq_some s : forall k v, split_eq s = Some (k, v) <-> s = k ++ cEQ :: v /\ ~ In cEQ k.
Proof.
  induction s as [|a s IH]; intros k v; cbn [split_eq]; [split; [discriminate|intros [E _]; destruct k; discriminate]|].
  destruct (N.eqb a cEQ) eqn:Ea.
  - apply N.eqb_eq in Ea as ->. split; [intros E; injection E as <- <-; split; [reflexivity|intros []]|].
    intros [E Hn]. destruct k as [|b k]; cbn [app] in E; injection E; intros; subst; [reflexivity|]. exfalso. apply Hn. now left.
  - apply N.eqb_neq in Ea. destruct (split_eq s) as [[x y]|].
    + split.
      * intros E. injection E as <- <-. destruct (proj1 (IH x y) eq_refl) as [-> Hn]. split; [reflexivity|]. intros [K|K]; auto.
      * intros [E Hn]. destruct k as [|b k]; cbn [app] in E; injection E as -> E; [congruence|].
        assert (Some (x, y) = Some (k, v)) as K by (apply IH; split; [exact E|intros K; apply Hn; now right]). now injection K as -> ->.
    + split; [discriminate|]. intros [E Hn]. destruct k as [|b k]; cbn [app] in E; injection E as -> E; [congruence|].
      assert (None = Some (k, v)) as K by (apply IH; split; [exact E|intros K; apply Hn; now right]). discriminate.
Qed.
Lemma split_eq_none s : split_eq s = None <-> ~ In cEQ s.
Proof.
  destruct (split_eq s) as [[k v]|] eqn:E.
  - apply split_eq_some in E as [-> _]. split; [discriminate|]. intros H. exfalso. apply H. apply in_elt.
  - split; [|reflexivity]. intros _ H. apply in_split in H. induction s as [|a s IH]; [destruct H as ([|] & ? & ?); discriminate|].
    cbn [split_eq] in E. destruct (N.eqb a cEQ) eqn:Ea; [discriminate|]. destruct (split_eq s) as [[x y]|]; [discriminate|]. apply IH; [reflexivity|].
    destruct H as ([|b l1] & l2 & H); cbn [app] in H; injection H; intros; subst; [rewrite N.eqb_refl in Ea; discriminate|eauto].
Qed.
Lemma has_eq w : existsb (N.eqb cEQ) w = true <-> In cEQ w.
Proof. rewrite existsb_exists. split; [intros (x & H & E); apply N.eqb_eq in E; now subst|intros H; exists cEQ; split; [exact H|apply N.eqb_refl]]. Qed.
Lemma items_in row ws : forall z q, In q (fst (pragma_items row z ws)) <->
  exists a w b code what, ws = a ++ w :: b /\ bad_word w code what /\ q = Req code [row; remark_col z a] [FS what].
Proof.
  induction ws as [|w ws IH]; intros z q; cbn [pragma_items].
  { split; [intros []|]. intros ([|] & w & b & code & what & E & _); discriminate. }
  assert (forall z', remark_col z [w] = z' -> (exists a v b code what, w :: ws = a ++ v :: b /\ bad_word v code what /\ q = Req code [row; remark_col z a] [FS what]) <->
    (exists code what, bad_word w code what /\ q = Req code [row; z] [FS what]) \/ In q (fst (pragma_items row z' ws))) as G.
  { intros z' Ez. split.
    - intros (a & v & b & code & what & E & H & ->). destruct a as [|u a]; cbn [app] in E; injection E as <- E.
      + left. exists code, what. auto.
      + right. apply IH. exists a, v, b, code, what. split; [exact E|]. split; [exact H|].
        do 2 f_equal. unfold remark_col in *. cbn [fold_left] in *. now rewrite Ez.
    - intros [(code & what & H & ->)|K].
      + exists nil, w, ws, code, what. auto.
      + apply IH in K as (a & v & b & code & what & -> & H & ->). exists (w :: a), v, b, code, what. split; [reflexivity|]. split; [exact H|].
        do 2 f_equal. unfold remark_col in *. cbn [fold_left] in *. now rewrite Ez. }
  destruct (split_eq w) as [[key value]|] eqn:Es.
  - apply split_eq_some in Es as [Ew Hk]. assert (existsb (N.eqb cEQ) w = true) as He by (apply has_eq; rewrite Ew; apply in_elt).
    rewrite (G z). 2:{ unfold remark_col. cbn [fold_left]. now rewrite He. }
    clear G. destruct (pragma_items row z ws) as [q0 s0]. cbn [fst].
    assert (forall code what, bad_word w code what <-> (key <> $"disable" /\ code = $"E0011" /\ what = key) \/
      (key = $"disable" /\ code = $"E0012" /\ In what (split_on 44%N value) /\ is_idstr what = false)) as B.
    { intros code what.
      assert (forall k v, w = k ++ cEQ :: v -> ~ In cEQ k -> k = key /\ v = value) as U.
      { intros k v E1 E2. assert (split_eq w = Some (k, v)) as A1 by now apply split_eq_some. assert (split_eq w = Some (key, value)) as A2 by now apply split_eq_some.
        rewrite A1 in A2. injection A2 as -> ->. auto. }
      assert (forall i, is_idstr i = false <-> ~ In i (map fst lint_db)) as I by (intros i; unfold is_idstr; rewrite <- smem_In; destruct (smem i _); split; congruence).
      split.
      - intros H. inversion H as [w' Hn E1 E2 E3|k v H1 H2 E1 E2 E3|v i H1 H2 E1 E2 E3]; clear H.
        + subst. exfalso. apply Hn. apply in_elt.
        + subst k. destruct (U what v (eq_sym E1) H1) as [-> ->]. left. auto.
        + destruct (U $"disable" v (eq_sym E1)) as [<- ->]; [cbn; intuition discriminate|]. right. rewrite I. subst. auto.
      - rewrite Ew. intros [(H1 & -> & ->)|(-> & -> & H1 & H2)].
        + apply (bw_key key value); assumption.
        + apply I in H2. apply (bw_code value what); assumption. }
    destruct (seqb key $"disable") eqn:Ek; cbn [fst].
    + apply seqb_eq in Ek. rewrite in_app_iff, in_map_iff. apply or_iff_compat_r. split.
      * intros (i & <- & Hi). apply filter_In in Hi as [Hi1 Hi2]. apply negb_true_iff in Hi2. exists $"E0012", i. split; [|reflexivity]. apply B. right. auto.
      * intros (code & what & H & ->). apply B in H as [(H & _)|(_ & -> & H1 & H2)]; [contradiction|]. exists what. split; [reflexivity|].
        apply filter_In. split; [exact H1|]. now rewrite H2.
    + cbn [In]. assert (key <> $"disable") as Hne by (intros ->; discriminate). apply or_iff_compat_r. split.
      * intros <-. exists $"E0011", key. split; [|reflexivity]. apply B. left. auto.
      * intros (code & what & H & ->). apply B in H as [(_ & -> & ->)|(H & _)]; [reflexivity|contradiction].
  - apply split_eq_none in Es. assert (existsb (N.eqb cEQ) w = false) as He by (destruct (existsb (N.eqb cEQ) w) eqn:E; [apply has_eq in E; contradiction|reflexivity]).
    rewrite (G (z + zlen w + 1)). 2:{ unfold remark_col. cbn [fold_left]. now rewrite He. }
    destruct (pragma_items row (z + zlen w + 1) ws) as [q0 s0]. cbn [fst In]. apply or_iff_compat_r. split.
    + intros <-. exists $"E0011", w. split; [now constructor|reflexivity].
    + intros (code & what & H & ->). inversion H; subst; [reflexivity| |]; exfalso; apply Es; rewrite ?in_app_iff; cbn; tauto.
Qed.
Lemma pragmas_in cs q : In q (fst (pragmas cs)) <-> exists t rest, In (T t) cs /\ tt t = COMMENT /\ spelling t = $"# cmake-lint: " ++ rest /\
  In q (fst (pragma_items (line (begin t)) (col (begin t) + 14) (py_split nil rest))).
Proof.
  induction cs as [|[t|k ks] cs IH]; cbn [pragmas].
  - split; [intros []|]. intros (t & rest & [] & _).
  - destruct (is_tt COMMENT t && startswith pragma_prefix (spelling t)) eqn:E.
    + apply andb_prop in E as [E1 E2]. apply startswith_iff in E2 as (rest & E2). unfold is_tt in E1. apply ttype_eqb_eq in E1.
      rewrite E2. change (skipn (List.length pragma_prefix) (pragma_prefix ++ rest)) with rest. change (zlen pragma_prefix) with 14.
      destruct (pragma_items _ _ _) as [q1 s1] eqn:E3. destruct (pragmas cs) as [q2 s2]. cbn [fst] in IH |- *. rewrite in_app_iff, IH. split.
      * intros [H|(u & r & H & K)]; [|exists u, r; split; [now right|exact K]]. exists t, rest. rewrite E3. split; [now left|]. split; [congruence|]. split; [exact E2|exact H].
      * intros (u & r & [H|H] & K1 & K2 & K3); [|right; exists u, r; auto]. injection H as <-. left. rewrite E2 in K2. apply app_inv_head in K2. subst r. rewrite E3 in K3. exact K3.
    + rewrite IH. split; intros (u & r & H & K); [exists u, r; split; [now right|exact K]|]. destruct H as [H|H]; [|eauto]. exfalso. injection H as <-.
      destruct K as (K1 & K2 & _). unfold is_tt in E. rewrite K1 in E. apply andb_false_iff in E as [E|E]; [discriminate|].
      assert (startswith pragma_prefix (spelling t) = true) by (apply startswith_iff; eauto). congruence.
  - rewrite IH. split; intros (u & r & H & K); exists u, r; (split; [|exact K]); [now right|]. destruct H as [H|H]; [discriminate|exact H].
Qed.
Lemma bad_code w code what : bad_word w code what -> In code [$"E0011"; $"E0012"].
Proof. intros []; cbn; auto. Qed.

Theorem C121_pragma_remarks : forall c src y code, lint_file c src ctx0 = Ok y -> parsers_ok c ->
  In code [$"E0011"; $"E0012"] -> ~ In code (lc_disabled c) ->
  exists toks tree, tokenize src = Ok toks /\ parse (lc_ctx c) toks = Ok tree /\
  forall r, In r (x_lint y) /\ l_id r = code <->
    exists t rest a w b what, looked_at c tree code t /\ spelling t = $"# cmake-lint: " ++ rest /\
      py_split nil rest = a ++ w :: b /\ bad_word w code what /\
      r = LRec code [line (begin t); remark_col (col (begin t) + 14) a] (pragma_text code what).
Proof.
  intros c src y code H HP Hi Hd.
  assert (forall z w r, written r (Req code z [FS w]) <-> r = LRec code z (pragma_text code w)) as W.
  { intros z w r. cbn [In] in Hi. destruct Hi as [<-|[<-|[]]].
    - unfold pragma_text. change (seqb $"E0011" $"E0011") with true. cbv iota. apply (written_msg $"E0011" z _ $"Unrecognized file option {:s}"); [reflexivity|].
      rewrite <- (app_nil_r ($"Unrecognized file option " ++ w)), <- app_assoc. reflexivity.
    - unfold pragma_text. change (seqb $"E0012" $"E0011") with false. cbv iota. apply (written_msg $"E0012" z _ $"Bad option value {:s}"); [reflexivity|].
      rewrite <- (app_nil_r ($"Bad option value " ++ w)), <- app_assoc. reflexivity. }
  destruct (tree_code c src y code H HP) as (toks & tree & Ht & Hp & _ & HR).
  { cbn [In] in Hi. destruct Hi as [<-|[<-|[]]]; names. }
  exists toks, tree. split; [exact Ht|]. split; [exact Hp|]. intros r. rewrite HR. clear HR.
  assert (forall q cs, q_id q = code -> In q (fst (pragmas cs)) -> written r q -> exists t rest a w b what, In (T t) cs /\ tt t = COMMENT /\ spelling t = $"# cmake-lint: " ++ rest /\
      py_split nil rest = a ++ w :: b /\ bad_word w code what /\
      r = LRec code [line (begin t); remark_col (col (begin t) + 14) a] (pragma_text code what)) as HX.
  { intros q cs Eq Hq Hw. apply pragmas_in in Hq as (t & rest & H1 & H2 & H3 & Hq). apply items_in in Hq as (a & w & b & code' & what & H4 & H5 & ->).
    cbn [q_id] in Eq. subst code'. apply W in Hw. exists t, rest, a, w, b, what. auto 10. }
  assert (forall t rest a w b what cs, In (T t) cs -> tt t = COMMENT -> spelling t = $"# cmake-lint: " ++ rest -> py_split nil rest = a ++ w :: b -> bad_word w code what ->
     In (Req code [line (begin t); remark_col (col (begin t) + 14) a] [FS what]) (fst (pragmas cs))) as HY.
  { intros t rest a w b what cs H1 H2 H3 H4 H5. apply pragmas_in. exists t, rest. split; [exact H1|]. split; [exact H2|]. split; [exact H3|]. apply items_in.
    exists a, w, b, code, what. auto. }
  split.
  - intros (_ & q & [s n] & Eq & Hw & Hv & K). destruct n as [t|k cs]; [destruct K|].
    pose proof (node_coded _ _ _ _ _ K) as Hc. rewrite Eq in Hc.
    destruct k; cbn [node_codes] in Hc; try solve [exfalso; revert Hc; cbn [In] in Hi; destruct Hi as [<-|[<-|[]]]; names].
    + apply visit_sub in Hv. destruct K as (pre & n & post & qs & -> & K1 & K2 & K3). rewrite Eq in K3.
      assert (exists e ks, n = N (KComment e) ks) as (e & ks & ->).
      { destruct n as [t|k ks]; [cbn [child_reqs] in K1; injection K1 as <-; destruct K2|].
        destruct (k_comment k) eqn:Ek; [destruct k; try discriminate; eauto|]. exfalso.
        assert ((let? q1 := (if is_flow (N k ks) then docstring c ks (before1 pre) (before2 pre) else Ok nil) in
          Ok (q1 ++ (if is_flow (N k ks) || is_stmt (N k ks) then spacing c (N k ks) (before1 pre) else nil)
            ++ (if is_stmt (N k ks) && smem (funname (N k ks)) [$"break"; $"continue"; $"return"] && existsb has_stmt post
                then [Req $"W0101" (loc3 (Tree.node_loc (N k ks))) nil] else nil))) = Ok qs) as G by (destruct k; try discriminate Ek; exact K1).
        apply bindr_ok in G as (q1 & G1 & G). apply Ok_inj in G. subst qs.
        assert (coded [$"C0111"; $"C0112"; $"C0321"; $"C0305"; $"W0101"] (q1 ++ (if is_flow (N k ks) || is_stmt (N k ks) then spacing c (N k ks) (before1 pre) else nil)
            ++ (if is_stmt (N k ks) && smem (funname (N k ks)) [$"break"; $"continue"; $"return"] && existsb has_stmt post
                then [Req $"W0101" (loc3 (Tree.node_loc (N k ks))) nil] else nil))) as HC.
        { repeat apply coded_app.
          - destruct (is_flow _); [|apply Ok_inj in G1; subst q1; coded]. apply docstring_coded in G1. eapply Forall_impl; [|exact G1]. intros x [<-|[<-|[]]]; inl_tac.
          - unfold spacing. cbv zeta. coded.
          - coded. }
        apply (coded_in _ _ _ HC) in K2. rewrite Eq in K2. revert K2. cbn [In] in Hi. destruct Hi as [<-|[<-|[]]]; names. }
      cbn [child_reqs] in K1. apply Ok_inj in K1. subst qs. destruct (HX q ks Eq K2 Hw) as (t & rest & a & w & b & what & H1 & H2 & H3 & H4 & H5 & ->).
      exists t, rest, a, w, b, what. split; [|auto]. split; [exact H2|]. left. exists pre, e, ks, post. auto.
    + destruct K as (K1 & K2 & K3). destruct (HX q cs Eq K3 Hw) as (t & rest & a & w & b & what & H1 & H2 & H3 & H4 & H5 & ->).
      exists t, rest, a, w, b, what. split; [|auto]. split; [exact H2|]. right. exists s, explicit, cs. auto.
  - intros (t & rest & a & w & b & what & (H2 & HL) & H3 & H4 & H5 & ->). split; [exact Hd|].
    exists (Req code [line (begin t); remark_col (col (begin t) + 14) a] [FS what]).
    destruct HL as [(pre & e & cs & post & Hb & H1 & Hm)|(s & e & cs & Hv & Hs & Hc & H1)]; specialize (HY t rest a w b what cs H1 H2 H3 H4 H5).
    + destruct (sub_visit nil tree _ Hb) as (s & Hs). exists (s, N KBody (pre ++ N (KComment e) cs :: post)). split; [reflexivity|]. split; [now apply W|]. split; [exact Hs|].
      exists pre, (N (KComment e) cs), post, (fst (pragmas cs)). split; [reflexivity|]. split; [reflexivity|]. split; [exact HY|exact Hm].
    + exists (s, N (KComment e) cs). split; [reflexivity|]. split; [now apply W|]. split; [exact Hv|]. cbn [node_asks fst snd]. auto.
Qed.
(** A file with pragmas of all kinds, between commands and inside one *)
Definition pragma_sample : str := nl [$"# cmake-lint: disable=C0111,X1 foo bar"; $"# cmake-lint: foo bar=1";
  $"set(X # cmake-lint: enable"; $"  1)"; $"# cmake-lint: disable=E0011"; $"set(Y 1)"; $"# cmake-lint: foo disable=Z"].
Example C121_ex : exists y, lint_file default_lcfg pragma_sample ctx0 = Ok y /\ parsers_ok default_lcfg /\
  filter (fun r => smem (l_id r) [$"E0011"; $"E0012"]) (x_lint y) = [
    LRec $"E0012" [1; 14] $"Bad option value X1"; LRec $"E0011" [1; 14] $"Unrecognized file option foo";
    LRec $"E0011" [1; 18] $"Unrecognized file option bar"; LRec $"E0011" [2; 14] $"Unrecognized file option foo";
    LRec $"E0011" [2; 18] $"Unrecognized file option bar"; LRec $"E0012" [7; 18] $"Bad option value Z";
    LRec $"E0011" [3; 20] $"Unrecognized file option enable"].
Proof. eexists. split; [vm_compute; reflexivity|]. split; [intros l; constructor|]. vm_compute. reflexivity. Qed.
Definition docs_sample : str := nl [$"#"; $"##   "; $"function(f)"; $"endfunction()"; $""; $"# text"; $"macro(g)"; $"endmacro()";
  $"############"; $"macro(h)"; $"endmacro()"; $"#"; $""; $"macro(i)"; $"endmacro()"; $"# cmake-lint: disable=C0112"; $""; $"#"; $"macro(j)"; $"endmacro()"].
Example C120_ex : exists y, lint_file default_lcfg docs_sample ctx0 = Ok y /\
  filter (fun r => smem (l_id r) [$"C0111"; $"C0112"]) (x_lint y) = [
    LRec $"C0112" [3; 0; 8] $"Empty docstring on function or macro declaration";
    LRec $"C0111" [14; 0; 98] $"Missing docstring on function or macro declaration"].
Proof. eexists. split; vm_compute; reflexivity. Qed.

(** ** C122: do the remarks about pragmas point at the word? *)
(** Full statement: for every remark with code E0011 or E0012 the column is that of the
    word in its line.  False: words with an equals sign are not counted. *)
Theorem C122_pragma_column_refuted : exists y r, lint_file default_lcfg (nl [$"# cmake-lint: disable=C0111 foo"]) ctx0 = Ok y /\
  In r (x_lint y) /\ r = LRec $"E0011" [1; 14] $"Unrecognized file option foo" /\
  firstn 3 (skipn 14 $"# cmake-lint: disable=C0111 foo") = $"dis" /\ firstn 3 (skipn 28 $"# cmake-lint: disable=C0111 foo") = $"foo".
Proof. eexists. eexists. split; [vm_compute; reflexivity|]. split; [left; reflexivity|]. repeat split. Qed.
Lemma remark_col_join a : forall start w b, Forall (fun u => ~ In cEQ u) a ->
  exists x z, join [cSP] (a ++ w :: b) = x ++ w ++ z /\ remark_col start a = start + zlen x.
Proof.
  induction a as [|u a IH]; intros start w b H.
  - exists nil. destruct b as [|v b]; [exists nil|exists ([cSP] ++ join [cSP] (v :: b))]; (split; [cbn [app join]; now rewrite ?app_nil_r|unfold remark_col, zlen; cbn [fold_left List.length]; lia]).
  - inversion H as [|? ? Hu Ha]; subst. destruct (IH (start + zlen u + 1) w b Ha) as (x & z & E & K). exists (u ++ [cSP] ++ x), z. split.
    + cbn [app]. destruct (a ++ w :: b) as [|v l] eqn:El; [destruct a; discriminate|]. change (join [cSP] (u :: v :: l)) with (u ++ [cSP] ++ join [cSP] (v :: l)).
      rewrite E. now rewrite <- !app_assoc.
    + unfold remark_col in *. cbn [fold_left]. assert (existsb (N.eqb cEQ) u = false) as He.
      { destruct (existsb (N.eqb cEQ) u) eqn:E2; [apply has_eq in E2; contradiction|reflexivity]. }
      rewrite He. etransitivity; [exact K|]. unfold zlen. rewrite !app_length. cbn [List.length]. lia.
Qed.
(** It holds when single blanks stand between the words and no word before has an
    equals sign. *)
Theorem C122_pragma_column_partial : forall c src y r, lint_file c src ctx0 = Ok y -> parsers_ok c ->
  In r (x_lint y) -> In (l_id r) [$"E0011"; $"E0012"] -> ~ In (l_id r) (lc_disabled c) ->
  exists toks tree t rest a w b what, tokenize src = Ok toks /\ parse (lc_ctx c) toks = Ok tree /\ looked_at c tree (l_id r) t /\
    spelling t = $"# cmake-lint: " ++ rest /\ py_split nil rest = a ++ w :: b /\ bad_word w (l_id r) what /\
    (rest = join [cSP] (a ++ w :: b) -> Forall (fun u => ~ In cEQ u) a ->
     exists x z, spelling t = x ++ w ++ z /\ l_loc r = [line (begin t); col (begin t) + zlen x]).
Proof.
  intros c src y r H HP Hr Hi Hd. destruct (C121_pragma_remarks c src y (l_id r) H HP Hi Hd) as (toks & tree & Ht & Hp & HR).
  destruct (proj1 (HR r) (conj Hr eq_refl)) as (t & rest & a & w & b & what & H1 & H2 & H3 & H4 & H5).
  exists toks, tree, t, rest, a, w, b, what. repeat (split; [assumption|]). intros E HF.
  destruct (remark_col_join a (col (begin t) + 14) w b HF) as (x & z & E1 & E2). exists ($"# cmake-lint: " ++ x), z. split.
  - rewrite H2, E. etransitivity; [exact (f_equal (app _) E1)|]. apply app_assoc.
  - rewrite H5. cbn [l_loc]. rewrite E2. unfold zlen. rewrite app_length. change (List.length $"# cmake-lint: ") with 14%nat. do 2 f_equal. lia.
Qed.
Example C122_ex : exists y, lint_file default_lcfg (nl [$"# cmake-lint: foo bar"]) ctx0 = Ok y /\
  In (LRec $"E0011" [1; 18] $"Unrecognized file option bar") (x_lint y) /\ py_split nil $"foo bar" = [$"foo"] ++ $"bar" :: nil /\
  $"foo bar" = join [cSP] ([$"foo"] ++ $"bar" :: nil) /\ Forall (fun u => ~ In cEQ u) [$"foo"].
Proof. eexists. split; [vm_compute; reflexivity|]. split; [right; left; reflexivity|]. split; [reflexivity|]. split; [reflexivity|]. repeat constructor. cbn. intuition discriminate. Qed.

(** ** C123: argument parsing by hand *)
(** The nodes of a tree, the nearer to the root the earlier, and from left to right *)
Fixpoint at_depth (d : nat) (n : pnode) : list pnode :=
  match d with O => [n] | S d' => flat_map (at_depth d') (kids n) end.
Definition by_depth (n : pnode) : list pnode := flat_map (fun d => at_depth d n) (seq 0 (depth n)).
(** a condition that compares the variable [v] with a word *)
Definition compares (c : lcfg) (v : str) (m : pnode) : bool :=
  lc_cond c m && match sem m with
                 | t :: u :: _ => seqb (spelling t) v && smem (spelling u) [$"STREQUAL"; $"MATCHES"]
                 | _ => false
                 end.
(** A loop over the arguments of a command whose body compares its first argument more
    often than allowed; [t] is the word that opens it *)
Definition parses_args (c : lcfg) (m : pnode) (t : token) : Prop :=
  exists op lb cl v vs, m = N KFlow [op; N KBody lb; cl] /\ name_tok op = Some t /\ In (upper (spelling t)) [$"FOREACH"; $"WHILE"] /\
    sem (argtree op) = v :: vs /\ (exists u, In u (v :: vs) /\ tt u = DEREF /\ spelling u = $"${ARGN}") /\
    zlen (filter (compares c (spelling v)) (subtrees (N KBody lb))) > lc_max_cond c.

Definition loop_stmt (n : pnode) : bool := is_stmt n && smem (funname n) [$"foreach"; $"while"].
Definition loop_kids (m : pnode) : list pnode := filter loop_stmt (kids m).
Definition KL1 (m : pnode) : Prop := loop_kids m = nil \/ exists op bd cl, m = N KFlow [op; N KBody bd; cl] /\ loop_stmt op = true /\ loop_kids m = [op].
Definition KL (n : pnode) : Prop := forall m, In m (subtrees n) -> KL1 m.
Lemma N_KL k cs : Forall KL cs -> KL1 (N k cs) -> KL (N k cs).
Proof.
  intros H H1 m [<-|Hm]; [exact H1|]. apply in_flat_map in Hm as (x & Hx & Hm). exact (proj1 (Forall_forall _ _) H x Hx m Hm).
Qed.
Lemma inner_not n : ArgShape.inner n = true -> loop_stmt n = false.
Proof. destruct n as [t|k cs]; [reflexivity|]. cbn [ArgShape.inner]. intros H. apply andb_prop in H as [H _]. destruct k; try reflexivity. discriminate. Qed.
Lemma inner_none cs : forallb ArgShape.inner cs = true -> filter loop_stmt cs = nil.
Proof. induction cs as [|a cs IH]; [reflexivity|]. cbn [forallb filter]. intros H. apply andb_prop in H as [H1 H2]. rewrite (inner_not a H1). auto. Qed.
Lemma inner_KL n : ArgShape.inner n = true -> KL n.
Proof.
  induction n as [t|k cs IH] using pnode_ind'; intros H.
  - intros m [<-|[]]. now left.
  - cbn [ArgShape.inner] in H. apply andb_prop in H as [_ H]. apply N_KL; [|left; now apply inner_none].
    apply Forall_forall. intros x Hx. apply (proj1 (Forall_forall _ _) IH x Hx). exact (proj1 (forallb_forall _ _) H x Hx).
Qed.
Lemma stmt_KL n w : stmt_name n = Some w -> leveled n = true -> KL n.
Proof.
  destruct n as [t|k cs]; [discriminate|]. destruct k; try discriminate. intros _ HL. cbn [leveled] in HL. apply andb_prop in HL as [HL _].
  apply N_KL; [|left; now apply inner_none]. apply Forall_forall. intros x Hx. apply inner_KL. exact (proj1 (forallb_forall _ _) HL x Hx).
Qed.
Lemma loop_named n w : stmt_name n = Some w -> loop_stmt n = smem w [$"FOREACH"; $"WHILE"].
Proof.
  intros H. unfold loop_stmt. destruct (stmt_funname n w H) as (-> & _ & _). cbn [andb]. apply eq_true_iff_eq.
  rewrite (funname_in n w [$"foreach"; $"while"] H) by repeat constructor. now rewrite smem_In.
Qed.
Lemma not_loop n w : stmt_name n = Some w -> ~ In w [$"FOREACH"; $"WHILE"] -> loop_stmt n = false.
Proof. intros H K. rewrite (loop_named n w H). destruct (smem w _) eqn:E; [apply smem_In in E; contradiction|reflexivity]. Qed.
Lemma blocks_KL :
  (forall brk o n, child_ok brk o n -> leveled n = true -> KL n /\ loop_stmt n = false) /\
  (forall brk o cs, body_ok brk o cs -> forallb leveled cs = true -> Forall KL cs /\ filter loop_stmt cs = nil) /\
  (forall o arms, arms_ok o arms -> forallb leveled arms = true -> Forall KL arms /\ filter loop_stmt arms = nil).
Proof.
  apply blocks_min.
  - intros brk n Hn HL. assert (ArgShape.inner n = true) as Hi by (destruct n as [t|k cs]; [discriminate|]; destruct k; try discriminate; exact HL).
    split; [now apply inner_KL|now apply inner_not].
  - intros brk n w Hn _ Hf HL. split; [eapply stmt_KL; eauto|]. apply (not_loop n w Hn). intros K. apply Hf. cbn [flow_names In] in *. tauto.
  - intros brk op w bd cl Hop Hw Hb IHb Hcl HL. cbn [leveled forallb] in HL.
    apply andb_prop in HL as [L1 L2]. apply andb_prop in L2 as [L2 L3]. rewrite andb_true_r in L3. destruct (IHb L2) as [HF HN]. split; [|reflexivity].
    apply N_KL.
    + constructor; [eapply stmt_KL; eauto|]. constructor; [|constructor; [eapply stmt_KL; eauto|constructor]].
      apply N_KL; [exact HF|now left].
    + assert (loop_stmt cl = false) as Ec.
      { apply (not_loop cl _ Hcl). cbn [loop_names In] in Hw. destruct Hw as [<-|[<-|[<-|[<-|[]]]]]; names. }
      unfold KL1, loop_kids. cbn [kids filter]. rewrite Ec. change (loop_stmt (N KBody bd)) with false.
      destruct (loop_stmt op) eqn:Eo; [|now left]. right. exists op, bd, cl. auto.
  - intros brk arms cl Ha IHa Hcl HL. cbn [leveled] in HL. rewrite forallb_app in HL.
    apply andb_prop in HL as [L1 L2]. cbn [forallb] in L2. rewrite andb_true_r in L2. destruct (IHa L1) as [HF HN]. split; [|reflexivity]. apply N_KL.
    + apply Forall_app. split; [exact HF|]. constructor; [eapply stmt_KL; eauto|constructor].
    + left. unfold loop_kids. cbn [kids]. rewrite filter_app, HN. cbn [filter app]. rewrite (not_loop cl _ Hcl); [reflexivity|names].
  - intros brk arms o Ha IHa HL. cbn [leveled] in HL. destruct (IHa HL) as [HF HN]. split; [|reflexivity]. apply N_KL; [exact HF|now left].
  - intros brk _. split; [constructor|reflexivity].
  - intros brk o cs x Hcs IHcs Hc IHc HL. rewrite forallb_app in HL.
    apply andb_prop in HL as [L1 L2]. cbn [forallb] in L2. rewrite andb_true_r in L2. destruct (IHcs L1) as [HF HN]. destruct (IHc L2) as [HK HX].
    split; [apply Forall_app; auto|]. rewrite filter_app, HN. cbn [filter app]. now rewrite HX.
  - intros op o bd Hop Hb IHb HL. cbn [forallb leveled] in HL. rewrite andb_true_r in HL.
    apply andb_prop in HL as [L1 L2]. destruct (IHb L2) as [HF HN]. split.
    + constructor; [eapply stmt_KL; eauto|]. constructor; [|constructor]. apply N_KL; [exact HF|now left].
    + cbn [filter]. rewrite (not_loop op _ Hop) by names. reflexivity.
  - intros arms op w o bd Ha IHa Hop Hw Hb IHb HL. rewrite forallb_app in HL.
    apply andb_prop in HL as [L0 HL]. cbn [forallb leveled] in HL. rewrite andb_true_r in HL.
    apply andb_prop in HL as [L1 L2]. destruct (IHa L0) as [HF HN]. destruct (IHb L2) as [HF' HN']. split.
    + apply Forall_app. split; [exact HF|]. constructor; [eapply stmt_KL; eauto|]. constructor; [|constructor]. apply N_KL; [exact HF'|now left].
    + rewrite filter_app, HN. cbn [filter app]. rewrite (not_loop op _ Hop); [reflexivity|]. destruct Hw as [<-|[<-|[]]]; names.
Qed.
Lemma tree_loops ctx toks tree : parse ctx toks = Ok tree -> KL tree.
Proof.
  intros Hp. pose proof (parse_leveled _ _ _ Hp) as HL.
  destruct (C50_block_structure_partial _ _ _ Hp) as (cs & o & -> & Hb). cbn [leveled] in HL.
  destruct blocks_KL as (_ & HB & _). destruct (HB nil o cs Hb HL) as [H1 H2]. apply N_KL; [exact H1|now left].
Qed.
(** *** The loops in the order of the search *)
Definition loop_flow (m : pnode) : bool := match m with N KFlow (op :: _) => loop_stmt op | _ => false end.
Definition head_entry (m : pnode) : entry := match m with N _ (op :: _) => (op, Some (m, 0%nat)) | _ => (m, None) end.
Definition is_loop (e : entry) : bool := loop_stmt (fst e).
Lemma sons_none e : loop_kids (fst e) = nil -> filter is_loop (sons e) = nil.
Proof.
  unfold loop_kids. rewrite <- (sons_fst e). induction (sons e) as [|x l IH]; [reflexivity|]. cbn [map filter]. unfold is_loop at 1. destruct (loop_stmt (fst x)); [discriminate|exact IH].
Qed.
Lemma sons_loops e : KL1 (fst e) -> filter is_loop (sons e) = map head_entry (filter loop_flow [fst e]).
Proof.
  intros [H|(op & bd & cl & E & Ho & Hk)].
  - rewrite sons_none by exact H. destruct e as [m p]. cbn [fst filter] in *. destruct (loop_flow m) eqn:El; [|reflexivity]. exfalso.
    destruct m as [t|k [|op r]]; try discriminate; destruct k; try discriminate. cbn [loop_flow] in El. unfold loop_kids in H. cbn [kids filter] in H. rewrite El in H. discriminate.
  - destruct e as [m p]. cbn [fst] in *. subst m. unfold loop_kids in Hk. cbn [kids filter] in Hk. rewrite Ho in Hk.
    change (loop_stmt (N KBody bd)) with false in Hk. unfold sons. cbn [fst kids number map filter is_loop fst snd loop_flow]. unfold is_loop. cbn [fst]. rewrite Ho.
    change (loop_stmt (N KBody bd)) with false. destruct (loop_stmt cl); [discriminate|]. reflexivity.
Qed.
Lemma all_sons_loops l : (forall e, In e l -> KL1 (fst e)) -> filter is_loop (flat_map sons l) = map head_entry (filter loop_flow (map fst l)).
Proof.
  induction l as [|e l IH]; intros H; [reflexivity|]. cbn [flat_map map]. rewrite filter_app, sons_loops by (apply H; now left). rewrite IH by (intros x Hx; apply H; now right).
  cbn [filter]. destruct (loop_flow (fst e)); reflexivity.
Qed.
Lemma levels_loops f : forall l, (forall e, In e l -> KL (fst e)) -> filter is_loop (levels (S f) l) = filter is_loop l ++ map head_entry (filter loop_flow (map fst (levels f l))).
Proof.
  induction f as [|f IH]; intros l H.
  - cbn [levels]. rewrite !app_nil_r. reflexivity.
  - change (levels (S (S f)) l) with (l ++ levels (S f) (flat_map sons l)). rewrite filter_app, IH.
    + change (levels (S f) l) with (l ++ levels f (flat_map sons l)). rewrite map_app, filter_app, map_app. f_equal. f_equal.
      apply all_sons_loops. intros e He. apply (H e He). apply subtrees_self.
    + intros x Hx. apply in_flat_map in Hx as (e & He & Hx). intros m Hm. apply (H e He m). rewrite PropLintDefs.subtrees_kids. right. apply in_flat_map. exists (fst x). split; [|exact Hm].
      rewrite <- sons_fst. now apply in_map.
Qed.
Lemma at_depth_0 l : flat_map (at_depth 0) l = l.
Proof. induction l as [|a r IHr]; [reflexivity|]. cbn [flat_map at_depth app]. f_equal. exact IHr. Qed.
Lemma at_depth_S d l : flat_map (at_depth d) (flat_map kids l) = flat_map (at_depth (S d)) l.
Proof. induction l as [|a r IHr]; [reflexivity|]. cbn [flat_map]. rewrite flat_map_app, IHr. reflexivity. Qed.
Lemma sons_kids l : map fst (flat_map sons l) = flat_map kids (map fst l).
Proof. induction l as [|e l IH]; [reflexivity|]. cbn [flat_map map]. rewrite map_app, sons_fst. f_equal. exact IH. Qed.
Lemma levels_depth f : forall l, map fst (levels f l) = flat_map (fun d => flat_map (at_depth d) (map fst l)) (seq 0 f).
Proof.
  induction f as [|f IH]; intros l; [reflexivity|]. cbn [levels seq flat_map]. rewrite map_app. f_equal.
  - symmetry. apply at_depth_0.
  - rewrite IH, <- seq_shift, !flat_map_concat_map, map_map. f_equal. apply map_ext. intros d.
    rewrite <- flat_map_concat_map. exact (eq_trans (f_equal (flat_map (at_depth d)) (sons_kids l)) (at_depth_S d _)).
Qed.
Lemma at_depth_deep d : forall n m, In m (at_depth d n) -> (depth m + d <= depth n)%nat.
Proof.
  induction d as [|d IH]; intros n m H; cbn [at_depth] in H; [destruct H as [<-|[]]; lia|].
  apply in_flat_map in H as (x & Hx & H). apply IH in H. apply depth_kid in Hx. lia.
Qed.
Lemma bfs_loops n : KL n -> loop_stmt n = false -> filter is_loop (bfs n) = map head_entry (filter loop_flow (by_depth n)).
Proof.
  intros H Hn. unfold bfs, by_depth. pose proof (depth_pos n) as Hd. destruct (depth n) as [|d] eqn:E; [lia|].
  rewrite levels_loops by (intros e [<-|[]]; exact H). cbn [filter]. change (is_loop (n, None)) with (loop_stmt n). rewrite Hn. cbn [app].
  rewrite levels_depth. cbn [map fst flat_map]. f_equal. rewrite seq_S, flat_map_app, filter_app. cbn [flat_map]. rewrite app_nil_r.
  assert (filter loop_flow (at_depth (0 + d) n) = nil) as ->.
  { pose proof (at_depth_deep d n) as K. cbn [Nat.add]. induction (at_depth d n) as [|m l IH]; [reflexivity|]. cbn [filter].
    assert (loop_flow m = false) as ->; [|apply IH; intros x Hx; apply K; now right].
    assert (depth m <= 1)%nat as Hm by (specialize (K m (or_introl eq_refl)); lia). destruct m as [t|k [|op r]]; try reflexivity; [destruct k; reflexivity|].
    cbn [depth fold_right] in Hm. pose proof (depth_pos op). lia. }
  rewrite app_nil_r. f_equal. clear. induction (seq 0 d) as [|x l IH]; [reflexivity|]. cbn [flat_map]. now rewrite app_nil_r, IH.
Qed.
Lemma count_conds_filter c v es z : count_conds c v es = Ok z -> z = zlen (filter (fun e => compares c v (fst e)) es).
Proof.
  revert z. induction es as [|[n p] es IH]; intros z H; cbn [count_conds] in H; [now injection H as <-|].
  cbn [filter fst]. unfold compares at 1. destruct (lc_cond c n); cbn [andb]; [|now apply IH].
  destruct (sem n) as [|t ts]; [now apply IH|]. destruct (seqb (spelling t) v) eqn:Ev.
  - destruct ts as [|u ts]; [discriminate|]. apply bindr_ok in H as (z0 & H0 & H). apply IH in H0. apply Ok_inj in H. cbn [andb]. subst z z0.
    destruct (smem (spelling u) _); [|reflexivity]. unfold zlen. cbn [List.length]. lia.
  - cbn [andb]. destruct ts; now apply IH.
Qed.
(** what the search through the loops does at one loop *)
Definition argn_loop (c : lcfg) (m : pnode) : bool :=
  match m with
  | N KFlow [op; N KBody lb; _] =>
      contains_argn op && match sem (argtree op) with v :: _ => zlen (filter (compares c (spelling v)) (subtrees (N KBody lb))) >? lc_max_cond c | nil => false end
  | _ => false
  end.
Lemma loops_found c ms : (forall m, In m ms -> exists op bd cl, m = N KFlow [op; N KBody bd; cl]) -> forall qs, parse_loops c (map head_entry ms) = Ok qs ->
  qs = match find (argn_loop c) ms with Some (N _ (op :: _)) => [Req $"C0201" (loc3 (Tree.node_loc op)) nil] | _ => nil end.
Proof.
  induction ms as [|m ms IH]; intros Hm qs H; [cbn in H; now injection H as <-|].
  destruct (Hm m (or_introl eq_refl)) as (op & bd & cl & ->). assert (forall m, In m ms -> exists op bd cl, m = N KFlow [op; N KBody bd; cl]) as Hm' by (intros x Hx; apply Hm; now right).
  cbn [map head_entry parse_loops] in H. cbn [find argn_loop]. destruct (contains_argn op); cbn [andb]; [|now apply IH].
  change (block_with (N KFlow [op; N KBody bd; cl]) 0) with (Some (op, N KBody bd)) in H. cbv iota beta in H.
  destruct (sem (argtree op)) as [|v vs]; [discriminate|]. apply bindr_ok in H as (z & Hz & H). apply count_conds_filter in Hz.
  rewrite (count_bfs (compares c (spelling v))) in Hz. rewrite <- Hz. destruct (z >? lc_max_cond c).
  - apply Ok_inj in H. now subst qs.
  - now apply IH.
Qed.
Lemma find_first {A} (f : A -> bool) l x : find f l = Some x <-> exists a b, l = a ++ x :: b /\ f x = true /\ forall z, In z a -> f z = false.
Proof.
  split.
  - revert x. induction l as [|y l IH]; intros x H; [discriminate|]. cbn [find] in H. destruct (f y) eqn:E.
    + injection H as <-. exists nil, l. split; [reflexivity|]. split; [exact E|intros z []].
    + destruct (IH x H) as (a & b & -> & Hx & Ha). exists (y :: a), b. split; [reflexivity|]. split; [exact Hx|]. intros z [<-|Hz]; auto.
  - intros (a & b & -> & Hx & Ha). induction a as [|y a IH]; cbn [app find]; [now rewrite Hx|]. rewrite (Ha y) by now left. apply IH. intros z Hz. apply Ha. now right.
Qed.
Lemma filter_first {A} (f g : A -> bool) l : (forall x, g x = true -> f x = true) -> find g (filter f l) = find g l.
Proof.
  intros H. induction l as [|x l IH]; [reflexivity|]. cbn [filter find]. destruct (f x) eqn:Ef.
  - cbn [find]. now rewrite IH.
  - destruct (g x) eqn:Eg; [rewrite (H x Eg) in Ef; discriminate|exact IH].
Qed.
Definition argn_flow (c : lcfg) (m : pnode) : bool := loop_flow m && argn_loop c m.
Lemma contains_argn_in n : contains_argn n = true <-> exists u, In u (sem (argtree n)) /\ tt u = DEREF /\ spelling u = $"${ARGN}".
Proof.
  unfold contains_argn. rewrite existsb_exists. split; intros (u & Hu & K); exists u; (split; [exact Hu|]).
  - apply andb_prop in K as [K1 K2]. apply is_tt_eq in K1. apply seqb_eq in K2. auto.
  - destruct K as [K1 K2]. apply andb_true_intro. split; [now apply is_tt_eq|now apply seqb_eq].
Qed.
Lemma loop_stmt_tok op t : name_tok op = Some t -> (loop_stmt op = true <-> In (upper (spelling t)) [$"FOREACH"; $"WHILE"]).
Proof. intros H. destruct (name_tok_name op t H) as (E & _). rewrite (loop_named op _ E). apply smem_In. Qed.
Lemma argn_flow_parses c m : (forall op, In op (kids m) -> loop_stmt op = true -> exists t, name_tok op = Some t) ->
  (argn_flow c m = true <-> exists t, parses_args c m t).
Proof.
  intros Hn. split.
  - intros H. apply andb_prop in H as [H1 H2]. destruct m as [t|k cs]; [discriminate|]. destruct k; try discriminate.
    destruct cs as [|op [|[?|k2 lb] [|cl [|]]]]; try discriminate; destruct k2; try discriminate.
    cbn [loop_flow] in H1. destruct (Hn op (or_introl eq_refl) H1) as (t & Ht). exists t.
    cbn [argn_loop] in H2. apply andb_prop in H2 as [H2 H3]. destruct (sem (argtree op)) as [|v vs] eqn:Es; [discriminate|].
    apply contains_argn_in in H2. rewrite Es in H2. exists op, lb, cl, v, vs. split; [reflexivity|]. split; [exact Ht|]. split; [now apply (loop_stmt_tok op t Ht)|].
    split; [exact Es|]. split; [exact H2|]. lia.
  - intros (t & op & lb & cl & v & vs & -> & Ht & Hw & Es & Hu & Hz). unfold argn_flow. cbn [loop_flow argn_loop].
    rewrite (proj2 (loop_stmt_tok op t Ht) Hw). rewrite <- Es in Hu. rewrite (proj2 (contains_argn_in op) Hu), Es. cbn [andb]. lia.
Qed.
Lemma by_depth_sub n : incl (by_depth n) (subtrees n).
Proof.
  intros m Hm. unfold by_depth in Hm. apply in_flat_map in Hm as (d & _ & Hm). revert n Hm. induction d as [|d IH]; intros n Hm; cbn [at_depth] in Hm.
  - destruct Hm as [<-|[]]. apply subtrees_self.
  - apply in_flat_map in Hm as (x & Hx & Hm). rewrite PropLintDefs.subtrees_kids. right. apply in_flat_map. exists x. auto.
Qed.
(** A definition is reported exactly when it does not use cmake_parse_arguments and has
    a loop over the arguments with too many comparisons of the loop variable; the
    finding is at the first such loop, nearest to the body first. *)
Theorem C123_custom_parser : forall c src y, lint_file c src ctx0 = Ok y -> parsers_ok c -> ~ In $"C0201" (lc_disabled c) ->
  exists toks tree, tokenize src = Ok toks /\ parse (lc_ctx c) toks = Ok tree /\
  forall r, In r (x_lint y) /\ l_id r = $"C0201" <->
    exists op0 t0 bd a lp b t, defines tree op0 t0 bd /\
      (forall n, In n (stmts (N KBody bd)) -> named [$"CMAKE_PARSE_ARGUMENTS"] n = false) /\
      by_depth (N KBody bd) = a ++ lp :: b /\ parses_args c lp t /\ (forall m u, In m a -> ~ parses_args c m u) /\
      r = LRec $"C0201" [line (begin t); col (begin t); offset (begin t)] $"Consider replacing custom parser logic with cmake_parse_arguments".
Proof.
  intros c src y H HP Hd. destruct (flow_code c src y $"C0201" H HP) as (toks & tree & Ht & Hp & HO & HR); [now left|].
  exists toks, tree. split; [exact Ht|]. split; [exact Hp|]. intros r. rewrite HR. clear HR.
  assert (forall l, written r (Req $"C0201" l nil) <-> r = LRec $"C0201" l $"Consider replacing custom parser logic with cmake_parse_arguments") as HW.
  { intros l. eapply written_msg; reflexivity. }
  assert (forall op bd cl q1, In (N KFlow [op; N KBody bd; cl]) (subtrees tree) -> custom_parse c (N KBody bd) = Ok q1 -> forall q,
    In q q1 <-> (forall n, In n (stmts (N KBody bd)) -> named [$"CMAKE_PARSE_ARGUMENTS"] n = false) /\
      exists a lp b t, by_depth (N KBody bd) = a ++ lp :: b /\ parses_args c lp t /\ (forall m u, In m a -> ~ parses_args c m u) /\ q = Req $"C0201" (loc3 (begin t)) nil) as HC.
  { intros op bd cl q1 Hf H1 q.
    assert (In (N KBody bd) (subtrees tree)) as Hb.
    { eapply subtrees_trans; [exact Hf|]. cbn [subtrees flat_map]. right. rewrite !in_app_iff. right. left. cbn [In]. now left. }
    pose proof (stmts_count _ _ _ _ [$"cmake_parse_arguments"] Hp Hb) as HN. specialize (HN (Forall_cons _ eq_refl (Forall_nil _))).
    change (map upper [$"cmake_parse_arguments"]) with [$"CMAKE_PARSE_ARGUMENTS"] in HN.
    unfold custom_parse in H1. destruct (stmts_named [$"cmake_parse_arguments"] (N KBody bd)) as [|e es] eqn:E.
    2:{ apply Ok_inj in H1. subst q1. split; [intros []|]. intros (K & _). exfalso.
        destruct (filter (named [$"CMAKE_PARSE_ARGUMENTS"]) (stmts (N KBody bd))) as [|n l] eqn:El; [unfold zlen in HN; cbn [List.length] in HN; lia|].
        assert (In n (n :: l)) as Hn by now left. rewrite <- El in Hn. apply filter_In in Hn as [Hn1 Hn2]. rewrite (K n Hn1) in Hn2. discriminate. }
    assert (forall n, In n (stmts (N KBody bd)) -> named [$"CMAKE_PARSE_ARGUMENTS"] n = false) as HNone.
    { intros n Hn. destruct (named _ n) eqn:En; [|reflexivity]. exfalso.
      assert (In n (filter (named [$"CMAKE_PARSE_ARGUMENTS"]) (stmts (N KBody bd)))) as K by (apply filter_In; auto).
      destruct (filter _ _) as [|x l]; [exact K|]. unfold zlen in HN. cbn [List.length] in HN. lia. }
    assert (KL (N KBody bd)) as HK.
    { intros m Hm. apply (tree_loops _ _ _ Hp). eapply subtrees_trans; eauto. }
    assert (forall m, In m (subtrees (N KBody bd)) -> forall x, In x (kids m) -> loop_stmt x = true -> exists t, name_tok x = Some t) as Hnm.
    { intros m Hm x Hx Hl. apply andb_prop in Hl as [Hl _]. apply (stmts_named_all _ _ tree x Hp). apply filter_In. split; [|exact Hl].
      eapply subtrees_trans; [exact Hb|]. eapply subtrees_trans; [exact Hm|]. rewrite PropLintDefs.subtrees_kids. right. apply in_flat_map. exists x. split; [exact Hx|apply subtrees_self]. }
    change (stmts_named [$"foreach"; $"while"] (N KBody bd)) with (filter is_loop (bfs (N KBody bd))) in H1.
    rewrite (bfs_loops _ HK eq_refl) in H1. apply loops_found in H1.
    2:{ intros m Hm. apply filter_In in Hm as [Hm Hl]. destruct (HK m (by_depth_sub _ _ Hm)) as [K|(o & b & cl' & -> & _)]; [|eauto].
        exfalso. destruct m as [t|k [|o rr]]; try discriminate; destruct k; try discriminate. unfold loop_kids in K. cbn [kids filter loop_flow] in *. rewrite Hl in K. discriminate. }
    assert (find (argn_loop c) (filter loop_flow (by_depth (N KBody bd))) = find (argn_flow c) (by_depth (N KBody bd))) as EF.
    { generalize (by_depth (N KBody bd)) as l. induction l as [|x l IH]; [reflexivity|]. cbn [filter find]. unfold argn_flow at 1. destruct (loop_flow x); cbn [andb find]; now rewrite ?IH. }
    rewrite EF in H1. clear EF. split.
    - intros Hq. split; [exact HNone|]. destruct (find (argn_flow c) (by_depth (N KBody bd))) as [lp|] eqn:Ef; [|subst q1; destruct Hq].
      apply find_first in Ef as (a & b & Eb & Hlp & Ha).
      assert (forall m, In m (by_depth (N KBody bd)) -> (argn_flow c m = true <-> exists t, parses_args c m t)) as HA.
      { intros m Hm. apply argn_flow_parses. apply Hnm. now apply by_depth_sub. }
      assert (In lp (by_depth (N KBody bd))) as Hlpi by (rewrite Eb; apply in_elt).
      apply (HA lp Hlpi) in Hlp as (t & Hlp). exists a, lp, b, t. split; [exact Eb|]. split; [exact Hlp|]. split.
      + intros m u Hm Hu. assert (argn_flow c m = true) as K by (apply HA; [rewrite Eb; apply in_app_iff; now left|eauto]). rewrite (Ha m Hm) in K. discriminate.
      + destruct Hlp as (o & lb & cl' & v & vs & -> & Hto & _). subst q1. destruct Hq as [<-|[]]. destruct (name_tok_name o t Hto) as (_ & -> & _). reflexivity.
    - intros (_ & a & lp & b & t & Eb & Hlp & Ha & ->).
      assert (forall m, In m (by_depth (N KBody bd)) -> (argn_flow c m = true <-> exists t, parses_args c m t)) as HA.
      { intros m Hm. apply argn_flow_parses. apply Hnm. now apply by_depth_sub. }
      assert (find (argn_flow c) (by_depth (N KBody bd)) = Some lp) as Ef.
      { apply find_first. exists a, b. split; [exact Eb|]. split; [apply HA; [rewrite Eb; apply in_elt|eauto]|]. intros m Hm.
        destruct (argn_flow c m) eqn:Em; [|reflexivity]. apply HA in Em as (u & Hu); [|rewrite Eb; apply in_app_iff; now left]. now apply Ha in Hu. }
      rewrite Ef in H1. destruct Hlp as (o & lb & cl' & v & vs & -> & Hto & _). subst q1. left. destruct (name_tok_name o t Hto) as (_ & -> & _). reflexivity. }
  split.
  - intros (_ & cs & qs & q & Hf & Hc & Hq & Eq & W).
    destruct (defn_checks _ _ _ _ _ _ Hp Hf Hc) as [(op & bd & cl & w & q1 & q2 & u & us & -> & Hop & Hw & H1 & H2 & Hfl & ->)|(op & r' & w & -> & _ & _ & Hcd)].
    2:{ apply (coded_in _ _ _ Hcd) in Hq. rewrite Eq in Hq. exfalso. revert Hq. names. }
    rewrite (in_app_iff q1), (in_app_iff q2), (in_app_iff (check_args c op)) in Hq.
    destruct Hq as [Hq|[Hq|[Hq|Hq]]].
    + apply (HC _ _ _ _ Hf H1) in Hq as (HN & a & lp & b & t & Eb & Hlp & Ha & ->). destruct (name_tok_ex op w Hop) as (t0 & Htk & Eu).
      exists op, t0, bd, a, lp, b, t. split; [|split; [exact HN|split; [exact Eb|split; [exact Hlp|split; [exact Ha|now apply HW]]]]].
      split; [exact Htk|]. rewrite Eu. split; [exact Hw|]. eauto.
    + assert (coded [$"C0103"] q2) as K.
      { unfold check_name in H2. destruct (sem op) as [|f [|g [|h sl]]]; try discriminate. injection H2 as <-. coded. }
      apply (coded_in _ _ _ K) in Hq. rewrite Eq in Hq. exfalso. revert Hq. names.
    + pose proof (args_coded c op) as K. apply (coded_in _ _ _ K) in Hq. rewrite Eq in Hq. exfalso. revert Hq. names.
    + exfalso. rewrite !in_app_iff, !over_in in Hq. destruct Hq as [[_ ->]|[[_ ->]|[_ ->]]]; discriminate Eq.
  - intros (op & t0 & bd & a & lp & b & t & (Htk & Hdf & cl & Hf) & HN & Eb & Hlp & Ha & ->). split; [exact Hd|].
    destruct (HO _ Hf) as (qs & Hc). exists [op; N KBody bd; cl], qs, (Req $"C0201" (loc3 (begin t)) nil).
    split; [exact Hf|]. split; [exact Hc|]. split; [|split; [reflexivity|now apply HW]].
    destruct (defn_checks _ _ _ _ _ _ Hp Hf Hc) as [(op' & bd' & cl' & w & q1 & q2 & u' & us' & E & Hop & Hw & H1 & H2 & Hfl' & ->)|(op' & r' & w & E & Hop & Hnd & _)].
    + injection E as <- <- <-. apply in_app_iff. left. apply (HC _ _ _ _ Hf H1). split; [exact HN|]. exists a, lp, b, t. auto.
    + injection E as <- <-. destruct (name_tok_name op t0 Htk) as (E1 & _). rewrite Hop in E1. injection E1 as ->. contradiction.
Qed.
(** For the example: an argument list with a group of arguments of a condition *)
Definition cond_group (n : pnode) : bool :=
  match n with
  | N (KArgGroup None) cs => existsb (fun k => match k with N (KPargGroup _ _ (Some s)) _ => smem $"STREQUAL" (ps_flags s) | _ => false end) cs
  | _ => false
  end.
Definition cond_lcfg : lcfg :=
  LCfg 80 (Some Unix) false UseSpace 2 nil 1 2 2 6 12 5 50
       $"[0-9a-z_]+" $"[0-9A-Z_]+" $"[A-Z][0-9A-Z_]+" $"_[A-Z][0-9A-Z_]+" $"[a-z][a-z0-9_]+"
       $"_[0-9a-z_]+" $"[A-Z][0-9A-Z_]+" $"[a-z][a-z0-9_]+"
       (fun _ _ => true) default_mcfg the_ctx (fun _ => true) cond_group (fun _ => nil) (fun _ => nil).
Definition custom_sample (call : str) : str :=
  nl [$"# doc"; $"function(f)"; call; $"  if(A)"; $"    foreach(x ${ARGN})"; $"      if(x STREQUAL a)"; $"      elseif(x MATCHES b)"; $"        while(x STREQUAL c)"; $"        endwhile()"; $"      endif()";
      $"    endforeach()"; $"  endif()"; $"  foreach(x ${ARGN})"; $"    if(x STREQUAL a)"; $"    elseif(x MATCHES b)"; $"    endif()"; $"  endforeach()"; $"endfunction()"].
Example C123_ex : exists y z, lint_file cond_lcfg (custom_sample $"  foo()") ctx0 = Ok y /\ parsers_ok cond_lcfg /\
  filter (fun r => seqb (l_id r) $"C0201") (x_lint y) = [LRec $"C0201" [5; 4; 38] $"Consider replacing custom parser logic with cmake_parse_arguments"] /\
  lint_file cond_lcfg (custom_sample $"  cmake_parse_arguments(A B C D ${ARGN})") ctx0 = Ok z /\
  filter (fun r => seqb (l_id r) $"C0201") (x_lint z) = nil.
Proof. eexists. eexists. split; [vm_compute; reflexivity|]. split; [intros n; constructor|]. split; [vm_compute; reflexivity|]. split; [vm_compute; reflexivity|]. vm_compute. reflexivity. Qed.

(** ** C124: missing positional arguments *)
(** the least number of arguments that a count in a command specification asks for *)
Inductive at_least : nargs -> Z -> Prop :=
| al_int z : at_least (NInt z) z
| al_none s : In s [$"*"; $"?"] -> at_least (NStr s) 0
| al_some : at_least (NStr $"+") 1
| al_more s z : py_int s = Some z -> at_least (NStr (s ++ $"+")) z
| al_num s z : py_int s = Some z -> at_least (NStr s) z.
Lemma digits_plus s : forall acc b, digits_val acc b (s ++ $"+") = None.
Proof.
  induction s as [|a s IH]; intros acc b; [reflexivity|]. cbn [app digits_val]. destruct (is_digit_c a); [apply IH|]. destruct (N.eqb a 95 && b); [apply IH|reflexivity].
Qed.
Lemma lstrip_snoc p s a : p a = false -> exists u, lstrip_by p (s ++ [a]) = u ++ [a].
Proof.
  intros H. induction s as [|b s IH]; cbn [app lstrip_by]; [exists nil; now rewrite H|]. destruct (p b); [exact IH|]. exists (b :: s). reflexivity.
Qed.
Lemma py_int_plus s : py_int (s ++ $"+") = None.
Proof.
  assert (exists u, strip (s ++ $"+") = u ++ $"+") as (u & E).
  { destruct (lstrip_snoc is_uspace s 43%N eq_refl) as (u & E). exists u. unfold strip, strip_by. etransitivity; [exact (f_equal (rstrip_by is_uspace) E)|].
    unfold rstrip_by. rewrite rev_unit. cbn [lstrip_by]. change (is_uspace 43%N) with false. cbv iota. cbn [rev]. now rewrite rev_involutive. }
  unfold py_int. rewrite E.
  destruct u as [|c u]; [reflexivity|]. cbn [app]. rewrite digits_plus. destruct (N.eqb c 45); [reflexivity|]. destruct (N.eqb c 43); [reflexivity|].
  change (c :: u ++ $"+") with ((c :: u) ++ $"+"). apply digits_plus.
Qed.
Lemma min_least n m : min_npargs n = Ok m <-> at_least n m.
Proof.
  destruct n as [z|s]; cbn [min_npargs].
  - split; [intros H; injection H as <-; constructor|]. intros H. inversion H; subst. reflexivity.
  - destruct (smem s [$"*"; $"?"]) eqn:E1.
    { apply smem_In in E1. split; [intros H; injection H as <-; now constructor|]. intros H. inversion H as [|? ? |E|s' z' Hi E|s' z' Hi E]; subst; try reflexivity.
      - destruct E1 as [E1|[E1|[]]]; discriminate.
      - destruct E1 as [E1|[E1|[]]]; destruct s' as [|x [|]]; try discriminate.
      - destruct E1 as [<-|[<-|[]]]; discriminate. }
    destruct (seqb s $"+") eqn:E2.
    { apply seqb_eq in E2 as ->. split; [intros H; injection H as <-; constructor|]. intros H. inversion H as [|? K|E|s' z' Hi E|s' z' Hi E]; subst; try reflexivity.
      - destruct K as [K|[K|[]]]; discriminate.
      - destruct s' as [|x [|]]; try discriminate.
      - discriminate. }
    assert (~ In s [$"*"; $"?"]) as N1 by (intros K; apply smem_In in K; congruence).
    assert (s <> $"+") as N2 by (intros K; apply seqb_eq in K; congruence).
    destruct (endswith $"+" s) eqn:E3.
    + apply endswith_1 in E3 as (a & x & -> & <-). rewrite removelast_last. change [43%N] with $"+" in *. rewrite py_int_plus. split.
      * destruct (py_int a) as [z|] eqn:Ea; [|discriminate]. intros H. injection H as <-. now constructor.
      * intros H. inversion H as [|? K|E|s' z' Hi E|s' z' Hi E]; subst; try contradiction.
        -- exfalso. apply N2. symmetry; exact E.
        -- apply app_inj_tail in E as [-> _]. now rewrite Hi.
        -- exfalso. exact (eq_ind None (fun o => match o with None => True | Some _ => False end) I _ (eq_trans (eq_sym (py_int_plus a)) Hi)).
    + split.
      * destruct (py_int s) as [z|] eqn:Ea; [|discriminate]. intros H. injection H as <-. now apply al_num.
      * intros H. inversion H as [|? K|E|s' z' Hi E|s' z' Hi E]; subst; try contradiction.
        -- exfalso. assert (endswith $"+" (s' ++ $"+") = true) as K; [|rewrite K in E3; discriminate]. apply endswith_1. exists s', 43%N. split; reflexivity.
        -- now rewrite Hi.
Qed.
(** a group of positional arguments with fewer words than its specification asks for *)
Definition too_few (tree : pnode) (l : list Z) : Prop :=
  exists srt tags p cs m, In (N (KPargGroup srt tags (Some p)) cs) (subtrees tree) /\ at_least (ps_nargs p) m /\
    zlen (sem (N (KPargGroup srt tags (Some p)) cs)) < m /\ l = front_loc (sem (N (KPargGroup srt tags (Some p)) cs)).
(** file, list or add_custom_command without arguments: [l] is the place behind the
    opening parenthesis and blanks *)
Definition no_arguments (tbl : list (str * parser)) (toks : list token) (tree : pnode) (l : list Z) : Prop :=
  exists f n, In f [$"file"; $"list"; $"add_custom_command"] /\ shipped_call tbl tree f n /\
    (forall t, first_word toks n t -> tt t = RIGHT_PAREN) /\ l = front_loc (arg_tokens toks n).
(** set with CACHE and fewer than two words behind it: [l] is the place behind the group *)
Definition cache_short (tbl : list (str * parser)) (toks : list token) (tree : pnode) (l : list Z) : Prop :=
  exists n k ks ts t us u, let g := N KKwargGroup (N KKeyword (T t :: ts) :: ks) in
    shipped_call tbl tree $"set" n /\ In g (kids (argtree n)) /\ normalized_kwarg t = Some k /\
    (List.length (sem g) <= 2)%nat /\ flat g = us ++ [u] /\ l = front_loc (behind (offset (begin u)) toks).
Lemma set_short toks n q : q_id q = $"E1120" -> (In q (set_remarks toks (argtree n)) <->
  exists k ks ts t us u a, In a [$"<variable>"; $"<value>"] /\ let g := N KKwargGroup (N KKeyword (T t :: ts) :: ks) in
    In g (kids (argtree n)) /\ normalized_kwarg t = Some k /\ (List.length (sem g) <= 2)%nat /\ flat g = us ++ [u] /\
    q = Req $"E1120" (front_loc (behind (offset (begin u)) toks)) [FS a] /\
    (a = $"<variable>" <-> (List.length (sem g) <= 1)%nat)).
Proof.
  intros Hid. unfold set_remarks. rewrite in_flat_map. split.
  - intros (g & Hg & H). destruct (group_kw g) as [k|] eqn:Ek; [|destruct H].
    destruct g as [|kd ks]; [discriminate|]. destruct kd; try discriminate. destruct ks as [|[|k2 ts] ks]; try discriminate.
    destruct k2; try discriminate. destruct ts as [|[t|] ts]; try discriminate. cbn [group_kw] in Ek.
    unfold cache_remarks in H. set (g := N KKwargGroup _) in *.
    assert (flat g <> nil) as Hn by (intros E; apply (f_equal (@List.length _)) in E; discriminate E).
    destruct (rev (flat g)) as [|u us] eqn:Er.
    { exfalso. apply Hn. rewrite <- (rev_involutive (flat g)), Er. reflexivity. }
    assert (flat g = rev us ++ [u]) as Ef by (rewrite <- (rev_involutive (flat g)), Er; reflexivity).
    destruct (sem g) as [|x0 xs] eqn:Es.
    + cbn [tl] in H. destruct H as [<-|[]]. exists k, ks, ts, t, (rev us), u, $"<variable>". split; [now left|]. cbv zeta. fold g. rewrite Es. cbn [List.length]. rewrite front_req.
      repeat split; auto.
    + cbn [tl] in H. destruct xs as [|x1 [|x2 [|x3 [|x4 [|x5 l]]]]]; try match type of H with In _ (if ?b then _ else _) => destruct b end; cbn [In] in H; try (destruct H; fail); (destruct H as [<-|[]]); try discriminate Hid.
      * exists k, ks, ts, t, (rev us), u, $"<variable>". split; [now left|]. cbv zeta. fold g. rewrite Es. cbn [List.length]. rewrite front_req. repeat split; auto.
      * exists k, ks, ts, t, (rev us), u, $"<value>". split; [right; now left|]. cbv zeta. fold g. rewrite Es. cbn [List.length]. rewrite front_req.
        repeat split; auto; [discriminate|lia].
  - intros (k & ks & ts & t & us & u & a & Ha & K). cbv zeta in K. set (g := N KKwargGroup _) in *. destruct K as (Hg & Hk & Hl & Hf & -> & HA).
    exists g. split; [exact Hg|]. change (group_kw g) with (normalized_kwarg t). rewrite Hk. unfold cache_remarks. rewrite Hf, rev_unit.
    destruct (sem g) as [|x0 [|x1 [|x2 xs]]]; cbn [tl List.length] in *; try lia; rewrite front_req; left.
    + rewrite (proj2 HA); [reflexivity|lia].
    + rewrite (proj2 HA); [reflexivity|lia].
    + destruct Ha as [<-|[<-|[]]]; [|reflexivity]. pose proof (proj1 HA eq_refl). lia.
Qed.
(** The E1120 findings are exactly those three kinds. *)
Theorem C124_missing_arguments : forall c tbl src y, lint_file c src ctx0 = Ok y -> lc_plint c = plint (lc_ctx c) tbl -> ~ In $"E1120" (lc_disabled c) ->
  exists toks tree, tokenize src = Ok toks /\ parse (lc_ctx c) toks = Ok tree /\
  forall r, In r (x_lint y) /\ l_id r = $"E1120" <->
    exists l, (too_few tree l \/ no_arguments tbl toks tree l \/ cache_short tbl toks tree l) /\
      r = LRec $"E1120" l $"Missing required positional argument".
Proof.
  intros c tbl src y H HP Hd. pose proof H as H0. apply file_in in H as (toks & tree & qt & qv & Ht & Hp & Hqt & Hqv & _ & HR).
  exists toks, tree. split; [exact Ht|]. split; [exact Hp|].
  assert (lc_plint c toks = flat_map (stmt_remarks tbl toks) (subtrees tree)) as EP.
  { rewrite HP. unfold plint. rewrite Hp. reflexivity. }
  pose proof (file_ok _ _ _ _ _ _ H0 Ht Hp) as HOK.
  intros r. rewrite HR. unfold enabled. cbn [x_lint x_sup ctx0 In].
  assert (forall l, written r (Req $"E1120" l nil) <-> r = LRec $"E1120" l $"Missing required positional argument") as W0.
  { intros l. eapply written_msg; vm_compute; reflexivity. }
  assert (forall l a, In a [$"<variable>"; $"<value>"] -> (written r (Req $"E1120" l [FS a]) <-> r = LRec $"E1120" l $"Missing required positional argument")) as W1.
  { intros l a Ha. destruct Ha as [<-|[<-|[]]]; eapply written_msg; vm_compute; reflexivity. }
  split.
  - intros [[[]|(q & W & [E _] & K)] Er]. pose proof (proj1 W) as Eid. rewrite Er in Eid. symmetry in Eid.
    assert (forall l, (forall z, In z l -> z <> $"E1120") -> In (q_id q) l -> False) as No.
    { intros l Hl Hq. now apply (Hl _ Hq). }
    destruct K as [K|[K|[K|[K|[K|K]]]]].
    + exfalso. apply (coded_in _ _ _ (basics_coded c src)) in K. revert K. apply No. intros z Hz. cbn [In] in Hz. repeat (destruct Hz as [<-|Hz]; [discriminate|]). destruct Hz.
    + exfalso. apply (coded_in _ _ _ (tokens_coded _ _ _ Hqt)) in K. revert K. apply No. intros z Hz. cbn [In] in Hz. repeat (destruct Hz as [<-|Hz]; [discriminate|]). destruct Hz.
    + rewrite EP in K. apply in_flat_map in K as (n & Hn & Hq). apply stmt_by in Hq as (Hs & Hl & Hq).
      assert (forall f, funname n = f -> shipped_call tbl tree f n) as SC by (intros f <-; repeat split; auto).
      assert (forall f, In f [$"file"; $"list"; $"add_custom_command"] -> funname n = f -> (forall t, first_word toks n t -> tt t = RIGHT_PAREN) ->
        q = at_front $"E1120" (arg_tokens toks n) nil -> exists l, (too_few tree l \/ no_arguments tbl toks tree l \/ cache_short tbl toks tree l) /\
          r = LRec $"E1120" l $"Missing required positional argument") as HN.
      { intros f Hf Ef Hw ->. rewrite front_req in W. apply W0 in W. eexists. split; [|exact W]. right. left. exists f, n. auto. }
      destruct Hq as [(Hf & Hq)|[(Hf & Hq)|[(Hf & Hq)|[(Hf & Hq)|[(Hf & Hq)|[(Hf & Hq)|[(Hf & Hq)|(Hf & Hq)]]]]]]].
      * apply form_is in Hq as [(K & E1)|(t & K & [(K2 & E1)|[(_ & E1)|(_ & _ & _ & E1)]])]; try (rewrite E1 in Eid; discriminate Eid);
          (apply (HN $"file"); [cbn; auto|exact Hf| |exact E1]); unfold first_word; intros u Hu; congruence.
      * apply form_is in Hq as [(K & E1)|(t & K & [(K2 & E1)|[(_ & E1)|(_ & _ & _ & E1)]])]; try (rewrite E1 in Eid; discriminate Eid);
          (apply (HN $"list"); [cbn; auto|exact Hf| |exact E1]); unfold first_word; intros u Hu; congruence.
      * apply command_is in Hq as [(K & E1)|(t & K & [(K2 & E1)|[(_ & E1)|[(_ & _ & _ & E1)|(_ & E1)]]])]; try (rewrite E1 in Eid; discriminate Eid).
        -- apply (HN $"add_custom_command"); [cbn; auto|exact Hf| |exact E1]. unfold first_word. intros u Hu. congruence.
        -- apply (HN $"add_custom_command"); [cbn; auto|exact Hf| |exact E1]. unfold first_word. intros u Hu. congruence.
        -- apply required_is in E1 as [(_ & E1)|(_ & E1)]; rewrite E1 in Eid; discriminate Eid.
      * apply target_is in Hq as [(t & _ & E1)|(_ & E1)]; rewrite E1 in Eid; discriminate Eid.
      * apply set_short in Hq; [|exact Eid]. cbv zeta in Hq. destruct Hq as (k & ks & ts & t & us & u & a & Ha & Hg & Hk & Hlen & Hfl & E1 & _).
        rewrite E1 in W. apply (W1 _ _ Ha) in W. eexists. split; [|exact W]. right. right. exists n, k, ks, ts, t, us, u. cbv zeta. auto 8.
      * unfold build_remarks in Hq. destruct (nth_semantic _ 1); [|destruct Hq]. destruct Hq as [E1|[]]. rewrite <- E1, front_req in Eid. discriminate Eid.
      * apply policy_is in Hq as (t & _ & [(_ & E1)|(_ & _ & E1)]); rewrite E1 in Eid; discriminate Eid.
      * apply empty_is in Hq as (a & b & s & ks & _ & E1). rewrite E1 in Eid. discriminate Eid.
    + exfalso. apply (coded_in _ _ _ (assignments_coded _ _ Hqv)) in K. revert K. apply No. intros z Hz. cbn [In] in Hz. repeat (destruct Hz as [<-|Hz]; [discriminate|]). destruct Hz.
    + exfalso. apply (coded_in _ _ _ (references_coded tree)) in K. revert K. apply No. intros z Hz. cbn [In] in Hz. repeat (destruct Hz as [<-|Hz]; [discriminate|]). destruct Hz.
    + destruct K as [([s [t|k cs]] & Hv & K)|(pre & s & t & post & E2 & K)]; [destruct K| |].
      * pose proof (node_coded _ _ _ _ _ K) as Hc. destruct k; cbn [node_codes] in Hc;
          try solve [exfalso; revert Hc; apply No; intros z Hz; cbn [In body_codes flow_codes app] in Hz; repeat (destruct Hz as [<-|Hz]; [discriminate|]); destruct Hz].
        destruct K as (qs & K & Hq). cbn [node_checks fst snd] in K. unfold positional in K. destruct spec as [p|]; [|discriminate].
        apply bindr_ok in K as (m & Hm & K). apply Ok_inj in K. subst qs. cbv zeta in Hq.
        destruct (_ <? m) eqn:El; [|destruct Hq]. destruct Hq as [<-|[]]. apply W0 in W. eexists. split; [|exact W]. left.
        exists sortable, tags, p, cs, m. split; [now apply visit_sub in Hv|]. split; [now apply min_least|]. split; [apply Z.ltb_lt; exact El|reflexivity].
      * exfalso. apply (coded_in _ _ _ (indent_coded _ _ _ _)) in K. revert K. apply No. intros z Hz. cbn [In] in Hz. repeat (destruct Hz as [<-|Hz]; [discriminate|]). destruct Hz.
  - intros (l & HL & ->). split; [|reflexivity]. right.
    assert (forall f n q, shipped_call tbl tree f n -> In q (stmt_remarks tbl toks n) -> In q (lc_plint c toks)) as SC.
    { intros f n q (Hn & _) Hq. rewrite EP. apply in_flat_map. eauto. }
    destruct HL as [(srt & tags & p & cs & m & Hg & Hm & Hlt & ->)|[(f & n & Hf & HC & Hw & ->)|(n & k & ks & ts & t & us & u & HC & Hg & Hk & Hlen & Hfl & ->)]].
    + eexists. split; [apply W0; reflexivity|]. cbn [q_id]. split; [split; [exact Hd|intros []]|]. do 5 right. left.
      destruct (sub_visit nil tree _ Hg) as (s & Hv). eexists. split; [exact Hv|]. cbn [node_asks snd fst node_checks]. unfold positional. apply min_least in Hm. rewrite Hm. cbn [bindr].
      cbv zeta. eexists. split; [reflexivity|]. apply Z.ltb_lt in Hlt. change (filter is_semantic (flats cs)) with (sem (N (KPargGroup srt tags (Some p)) cs)). rewrite Hlt. now left.
    + eexists. split; [apply W0; reflexivity|]. cbn [q_id]. split; [split; [exact Hd|intros []]|]. do 2 right. left. apply (SC f n _ HC). rewrite <- front_req.
      destruct HC as (Hn & Hs & Ef & Hl). apply stmt_by. split; [exact Hs|]. split; [now rewrite Ef|].
      unfold first_word in Hw. cbn [In] in Hf. destruct Hf as [<-|[<-|[<-|[]]]].
      * left. split; [exact Ef|]. apply form_is. destruct (first_sem (arg_tokens toks n)) as [t|]; [right; exists t; auto|left; auto].
      * right. left. split; [exact Ef|]. apply form_is. destruct (first_sem (arg_tokens toks n)) as [t|]; [right; exists t; auto|left; auto].
      * right. right. left. split; [exact Ef|]. apply command_is. destruct (first_sem (arg_tokens toks n)) as [t|]; [right; exists t; auto|left; auto].
    + pose (g := N KKwargGroup (N KKeyword (T t :: ts) :: ks)).
      assert (exists a, In a [$"<variable>"; $"<value>"] /\ (a = $"<variable>" <-> (List.length (sem g) <= 1)%nat)) as (a & Ha & HA).
      { destruct (le_lt_dec (List.length (sem g)) 1) as [L|L]; [exists $"<variable>"; split; [now left|tauto]|exists $"<value>"; split; [right; now left|]].
        split; [discriminate|lia]. }
      exists (Req $"E1120" (front_loc (behind (offset (begin u)) toks)) [FS a]). split; [apply (proj2 (W1 _ a Ha)); reflexivity|]. cbn [q_id]. split; [split; [exact Hd|intros []]|]. do 2 right. left. apply (SC _ n _ HC).
      destruct HC as (Hn & Hs & Ef & Hl). apply stmt_by. split; [exact Hs|]. split; [now rewrite Ef|]. do 4 right. left. split; [exact Ef|].
      apply set_short; [reflexivity|]. exists k, ks, ts, t, us, u, a. split; [exact Ha|]. cbv zeta. fold g. auto 8.
Qed.
Definition missing_sample : str := nl [$"file( )"; $"add_custom_command( # x"; $" )"; $"set(x CACHE)"; $"set(x CACHE y)"; $"set(x CACHE y z)"; $"install(TARGETS)"; $"configure_file(a)"].
Example C124_ex : exists y, lint_file remarks_lcfg missing_sample ctx0 = Ok y /\ lc_plint remarks_lcfg = plint (lc_ctx remarks_lcfg) nil /\ ~ In $"E1120" (lc_disabled remarks_lcfg) /\
  map l_loc (filter (fun r => seqb (l_id r) $"E1120") (x_lint y)) = [[1; 6; 6]; [2; 20; 28]; [4; 11; 46]; [5; 13; 61]; [5; 12; 60]].
Proof. eexists. split; [vm_compute; reflexivity|]. split; [reflexivity|]. split; [intros []|]. vm_compute. reflexivity. Qed.
