(** * PropNest: where the arguments of commands and keywords begin (min_prefix_chars) *)
From Verif Require Import Base Regex Lex LexProofs LexClass PropLex TextOps TextProofs PropText
  Tree Parse ParseProofs PropParse CmdSpec StdSpecs StdDb StdWf PropStd Layout LayoutProofs LayoutCols Pieces Writing
  PropLayout Markup Pipeline ParseShape StdShape NamesShape CommentShape TidyShape PropFile PropIndent Walk ParseTerm ParseBlank OutSame
  PropLines OneLine PropOneLine PropDangle PropTall PropSpan.
Require Verif.PropLintChecks.

(** ** Specification *)
(** the first word of a node is a parenthesis *)
Definition paren_first (n : pnode) : bool :=
  match hd_error (filter TidyShape.nonws (flat n)) with Some u => is_tt LEFT_PAREN u | None => false end.
(** the node begins with a word of its own first member *)
Definition leads (n : pnode) : bool :=
  match n with
  | N (KArgGroup _) cs => match members cs with m :: _ => worded m | nil => false end
  | _ => worded n
  end.
(** what stands between a prefix and the arguments behind it: nothing or a blank
    ([beside]), or a line break and the indentation [ncol], the latter only if the
    prefix is wider than min_prefix_chars.  A parenthesis that fits nowhere may go to
    a line of its own, in the column [bcol] or [ncol]. *)
Definition follows (c : fcfg) (endl : str) (paren : bool) (beside : str) (bcol width ncol : Z) (gap : str) : Prop :=
  gap = beside
  \/ (paren = true /\ exists k, gap = repeat_s (S k) endl ++ spaces bcol)
  \/ (f_min_prefix c < width /\ exists k, gap = repeat_s (S k) endl ++ spaces ncol /\ (paren = true \/ k = 0%nat)).
Definition nests (c : fcfg) (endl : str) (x : nat * pnode) (s : str) : Prop :=
  let w := Z.of_nat (fst x) * f_tab c in
  match snd x with
  | N (KStatement _) p =>
      (* the arguments of the command *)
      (forall sp a, In (N (KArgGroup sp) a) p -> leads (N (KArgGroup sp) a) = true ->
         exists t n gap r, hd_error (flat_map name_of p) = Some t /\ name_as c (spelling t) n
         /\ s = spaces w ++ n ++ spaces (Z.of_nat (blanks_before_paren c (spelling t))) ++ $"(" ++ gap ++ r
         /\ opens_with endl (N (KArgGroup sp) a) r
         /\ let width := zlen n + Z.of_nat (blanks_before_paren c (spelling t)) + 1 in
            follows c endl (paren_first (N (KArgGroup sp) a)) nil (w + width) width (w + f_tab c) gap)
      (* the arguments of its keywords *)
      /\ (forall cs g t ts, In (N KKwargGroup cs) (PropLintChecks.subtrees (snd x)) -> members cs = [N KKeyword (T t :: ts); g] ->
         leads g = true ->
         exists pre kw gap r post, s = pre ++ kw ++ gap ++ r ++ post /\ lower kw = lower (spelling t)
         /\ opens_with endl g r
         /\ follows c endl (paren_first g) $" " (col_of pre + zlen kw + 1) (zlen kw) (col_of pre + f_tab c) gap)
  | _ => True
  end.

(** ** Layout *)
Definition first_in (k : kind) (pos : cursor) (ls : list lay) : Prop :=
  match ls with
  | l :: _ => lpos l = pos \/ (k = KParenGroup /\ colm (lpos l) = colm pos /\ row pos <= row (lpos l))
  | nil => True
  end.
Definition after_at (c : fcfg) (width : Z) (beside nested pos : cursor) : Prop :=
  pos = beside \/ (pos = nested /\ f_min_prefix c < width).
Definition kw_at (c : fcfg) (pos : cursor) (cs : list box) (ls : list lay) : Prop :=
  match cs, ls with
  | B KKeyword (T t :: _) _ :: _, lk :: lg :: _ =>
      lpos lk = pos /\ after_at c (zlen (spelling t)) (shift pos (zlen (spelling t) + 1)) (Cur (row pos + 1) (colm pos + f_tab c)) (lpos lg)
  | _, _ => True
  end.
Inductive frontt (e : env) : box -> lay -> Prop :=
| frontt_intro k p cs pos pass w v x lines ls o :
    Forall2 (frontt e) (if leaf_k k then nil else cs) ls ->
    lok e (B k p cs) (Lay k p pos pass w v x lines ls) o ->
    (group_k k = true -> first_in k pos ls) ->
    (k = KKwargGroup -> kw_at (cfg e) pos cs ls) ->
    frontt e (B k p cs) (Lay k p pos pass w v x lines ls).

Section Front.
  Variable e : env.
  Hypothesis Htab : 0 <= f_tab (cfg e).

  Lemma front_once b cs path term cur pass w a : Forall (LayoutProofs.good e) cs -> map fst cs = bcs b -> wfb b = true ->
    reflow_once e b cs path term cur pass w = Ok a ->
    (group_k (bkind b) = true -> first_in (bkind b) cur (a_cs a))
    /\ (bkind b = KKwargGroup -> kw_at (cfg e) cur (bcs b) (a_cs a)).
  Proof.
    destruct b as [k p bs]. cbn [bkind bcs]. intros Hg Hm Hw H. unfold reflow_once in H. cbn [bkind] in H.
    destruct k; try (split; discriminate).
    - (* ARG *)
      split; [|discriminate]. intros _. unfold reflow_arg in H. apply bindr_ok in H as (n & En & H). apply bindr_ok in H as ([[[ls c] v] x] & E & H). injection H as <-. cbn [a_cs].
      destruct cs as [|ch cs]; cbn [arg_children] in E; [injection E as <- <- <- <-; exact Logic.I|].
      inversion Hg as [|? ? G _]; subst. apply bindr_ok in E as ([l1 o1] & E1 & E). cbn [negb andb bindr] in E.
      apply bindr_ok in E as ([[[ls' c'] v''] x''] & E3 & E). injection E as <- <- <- <-. apply G in E1 as [P _]. now left.
    - (* KWARG *)
      unfold reflow_kwarg in H. destruct cs as [|kw cs]; [discriminate|]. destruct (_ >? 2) eqn:Ez; [discriminate|].
      destruct (negb (is_keyword_k _)) eqn:K1; [discriminate|]. apply negb_false_iff in K1.
      apply bindr_ok in H as ([lk c1] & E1 & H). inversion Hg as [|? ? G Hg']; subst.
      apply G in E1 as [P L].
      destruct cs as [|ch cs].
      + injection H as <-. cbn [a_cs]. split; [now left|]. intros _. cbn [map kw_at]. now destruct (fst kw) as [[] [|[] ?] ?].
      + apply bindr_ok in H as ([l c3] & E2 & H). injection H as <-. cbn [a_cs]. split; [now left|]. intros _. cbn [map kw_at].
        destruct (fst kw) as [kk kp kc] eqn:Ekw. cbn [map] in Hw. cbn [wfb forallb] in Hw. rewrite !andb_true_iff in Hw. destruct Hw as [[Wk _] _]. rewrite Ekw in Wk.
        destruct kk; try exact Logic.I. destruct kp as [|[t|] kp]; try exact Logic.I.
        cbn [wfb] in Wk. rewrite !andb_true_iff in Wk. destruct Wk as [_ [[_ W2] W3]]. destruct kc; [|discriminate].
        apply lok_name_out in L; [|reflexivity|exact W2]. cbn [first_spelling] in L. split; [exact P|].
        pose proof (Forall_inv Hg') as G'. apply G' in E2 as [P2 _]. rewrite P2, L. unfold after_at.
        cbn [bpcs first_spelling]. destruct (Z.leb_spec (zlen (spelling t)) (f_min_prefix (cfg e))).
        * left. rewrite P. unfold shift. cbn [row colm]. f_equal. lia.
        * destruct w; [right|left]; rewrite P; [split; [reflexivity|lia]|]. unfold shift. cbn [row colm]. f_equal. lia.
    - (* PARG *)
      split; [|discriminate]. intros _. unfold reflow_parg in H. apply bindr_ok in H as ([[[[ls c] v] x] rows] & E & H). injection H as <-. cbn [a_cs].
      destruct cs as [|ch cs]; cbn [parg_children] in E; [injection E as <- <- <- <- <-; exact Logic.I|].
      inversion Hg as [|? ? G _]; subst. apply bindr_ok in E as ([l1 o1] & E1 & E). cbn [negb andb bindr] in E.
      apply bindr_ok in E as ([[[[ls' c'] v''] x''] r''] & E3 & E). injection E as <- <- <- <- <-. apply G in E1 as [P _]. now left.
    - (* PAREN *)
      split; [|discriminate]. intros _. unfold reflow_pgroup in H. destruct (negb _); [discriminate|]. apply bindr_ok in H as ([[[ls c] v] x] & E & H). injection H as <-. cbn [a_cs].
      pose proof (pgroup_first e _ _ _ _ _ _ _ _ _ _ _ _ _ Hg E) as F. destruct ls as [|l ls]; [exact Logic.I|]. destruct F as [F1 F2]. right. auto.
  Qed.

  Lemma children_front (P : box -> Prop) pass cs : Forall P cs -> forall n ls (Q : box -> lay -> Prop),
    (forall b l n path term cur o, P b -> In b cs -> reflow e b n path term cur pass = Ok (l, o) -> Q b l) ->
    Forall2 (got pass) (children_of e cs n) ls -> Forall2 Q cs ls.
  Proof.
    induction 1 as [|b cs Hb _ IH]; intros n ls Q HQ H1; cbn [children_of] in *.
    - inversion H1; subst. constructor.
    - inversion H1 as [|? l ? ls' (path & term & cur & o & G) G2]; subst. constructor.
      + eapply HQ; [exact Hb|now left|exact G].
      + eapply IH; [|exact G2]. intros. eapply HQ; eauto. now right.
  Qed.

  Theorem reflow_front b : wfb b = true -> inner_k (bkind b) = true -> forall sib path term cur passno l o,
    reflow e b sib path term cur passno = Ok (l, o) -> frontt e b l.
  Proof.
    induction b as [k p cs IH] using box_ind'. intros Hw Hin sib path term cur passno l o H. cbn [bkind] in *.
    destruct (reflow_lok e _ Htab Hw _ _ _ _ _ _ _ H) as [_ L].
    assert (Hnot : group_k k = false -> (group_k k = true -> forall pos ls, first_in k pos ls) /\ (k = KKwargGroup -> forall pos ls, kw_at (cfg e) pos cs ls)).
    { intros E. split; [rewrite E; discriminate|]. intros ->. discriminate. }
    destruct (leaf_k k) eqn:Hleaf.
    { pose proof (leaf_tall e _ _ _ _ _ _ _ _ _ _ Hleaf H) as Ht. inversion Ht as [k0 p0 cs0 pos pass w v x lines ls Hls _ _]; subst. rewrite Hleaf in Hls. inversion Hls; subst.
      destruct Hnot as [N1 N2]; [destruct k; try discriminate; reflexivity|].
      econstructor; [rewrite Hleaf; constructor|exact L|intros; now apply N1|intros; now apply N2]. }
    assert (Hgood : Forall (LayoutProofs.good e) (children_of e cs 0)).
    { cbn [wfb] in Hw. apply andb_prop in Hw as [Hw _]. clear -Hw Htab. generalize 0%nat. induction cs as [|b cs IH]; intros n; cbn [children_of]; [constructor|].
      cbn [forallb] in Hw. apply andb_prop in Hw as [W1 W2]. constructor; [|now apply IH].
      intros path term cur pass l o H. cbn [fst snd] in *. eapply reflow_lok; eassumption. }
    pose proof Hw as Hw0. cbn [wfb] in Hw. apply andb_prop in Hw as [Hw1 Hw2]. rewrite forallb_forall in Hw1.
    assert (Hkinds : Forall (fun b => inner_k (bkind b) = true) cs).
    { destruct (is_scalar_k k) eqn:Hsc.
      - assert (Hc : match cs with nil => True | [cm] => is_comment_k (bkind cm) = true | _ => False end).
        { clear -Hw2 Hsc. destruct k; try discriminate; repeat (apply andb_prop in Hw2 as [_ Hw2]); unfold tail_ok in Hw2; destruct cs as [|cm [|? ?]]; try exact Logic.I; try exact Hw2; discriminate. }
        destruct cs as [|cm [|? ?]]; [constructor| |destruct Hc]. constructor; [|constructor]. destruct (bkind cm); try discriminate; reflexivity.
      - apply (inner_kids e k p cs l o Hw0 L). destruct k; try discriminate; reflexivity. }
    assert (Hgot : forall pn w a, reflow_once e (B k p cs) (children_of e cs 0) (push_path path (B k p cs) sib) term cur pn w = Ok a -> Forall2 (got pn) (children_of e cs 0) (a_cs a)).
    { intros pn w a E. destruct (is_scalar_k k) eqn:Hsc.
      - assert (Ea : reflow_scalar p (children_of e cs 0) (push_path path (B k p cs) sib) cur pn w = Ok a).
        { unfold reflow_once in E. cbn [bkind bpcs] in E. destruct k; try discriminate; exact E. }
        unfold reflow_scalar in Ea. destruct p as [|[t|? ?] ?]; try discriminate. destruct (flow_text _ _) as [fc fx].
        destruct cs as [|c [|? ?]]; cbn [children_of] in *; try discriminate.
        + injection Ea as <-. constructor.
        + destruct (negb _); [discriminate|]. apply bindr_ok in Ea as ([l1 o1] & E1 & Ea). injection Ea as <-. cbn [a_cs].
          constructor; [|constructor]. repeat eexists. exact E1.
      - assert (Hk : group_k k || is_statement_k k = true) by (destruct k; try discriminate; reflexivity).
        exact (proj1 (once e (B k p cs) (children_of e cs 0) _ _ _ _ _ _ Hgood (children_of_fst e cs 0) Hk E)). }
    rewrite reflow_eq in H. apply try_passes_last in H as [(pn & w & ps1 & ps2 & Hps & Hlim & E & Hlast)|[H _]]; [|discriminate].
    unfold try_pass in E. apply bindr_ok in E as (a & E & E2). injection E2 as <- <-. cbn [fst lvalid] in *. cbn [bkind bpcs] in *.
    destruct (front_once (B k p cs) (children_of e cs 0) _ _ _ _ _ _ Hgood (children_of_fst e cs 0) Hw0 E) as [F1 F2]. cbn [bkind bcs] in *.
    econstructor; [rewrite Hleaf|exact L|exact F1|exact F2].
    eapply children_front; [exact IH| |exact (Hgot _ _ _ E)].
    intros b l n path' term' cur' o' Pb Hb Hr. eapply Pb; [now apply Hw1| |exact Hr]. rewrite Forall_forall in Hkinds. now apply Hkinds.
  Qed.
End Front.

(** ** The first piece *)
Section First.
  Variable e : env.
  Notation c := (cfg e).
  Notation endl := (f_endl (cfg e)).
  Hypothesis Hcmt : cmt_ok e.
  Hypothesis He : is_endl endl.
  Definition front (parent : kind) (b : box) (l : lay) : Prop :=
    exists p ps u us, pieces c parent l = p :: ps /\ btoks b = u :: us /\ head_text u (p_text p)
      /\ (p_at p = lpos l \/ (is_tt LEFT_PAREN u = true /\ colm (p_at p) = colm (lpos l) /\ row (lpos l) <= row (p_at p))).
  Definition simple_k (k : kind) : bool := is_scalar_k k || is_lparen_k k || is_onoff_k k || is_comment_k k.
  Lemma simple_at parent k q cs l p ps : simple_k k = true -> lkind l = k -> lpcs l = q -> lcs l = cs ->
    (forall m, In m cs -> True) -> pieces c parent l = p :: ps -> own_pieces c parent k q (lpos l) (llines l) <> nil -> p_at p = lpos l.
  Proof.
    intros Hk E1 E2 E3 _ H Hne. destruct l as [k0 p0 pos pass w v x lines ls]. cbn [lkind lpcs lcs lpos llines pieces] in *. subst k0 p0 cs.
    assert (F : forall a, own_pieces c parent k q pos lines = a -> match a with y :: _ => p_at y = pos | nil => True end).
    { intros a <-. destruct k; try discriminate; cbn [own_pieces]; try exact eq_refl.
      all: try (destruct q as [|[t|? ?] ?]; try exact Logic.I; destruct (scalar_text _ _ _ _); try exact Logic.I; reflexivity).
      - destruct (is_bracket q); [reflexivity|]. now destruct lines.
      - destruct (first_tok q); [|exact Logic.I]. now destruct (onoff_text t). }
    specialize (F _ eq_refl). destruct (own_pieces c parent k q pos lines) as [|y ys]; [now elim Hne|]. cbn [app] in H. now injection H as -> _.
  Qed.
  Lemma simple_front parent n l o : tidy false n = true -> wfb (create_box n) = true -> named c parent (create_box n) = true ->
    lok e (create_box n) l o -> simple_k (kind_of n) = true -> front parent (create_box n) l.
  Proof.
    intros Ht Hw Hn Hl Hk. destruct (simple_headed e parent n l o Ht Hw Hn Hl Hk) as (p & ps & u & us & E1 & E4 & E5 & E2 & E3).
    exists p, ps, u, us. repeat (split; [assumption|]). left.
    destruct n as [t|k cs]; [discriminate|]. cbn [kind_of] in Hk. rewrite create_eq in Hl, Hw, Hn.
    inversion Hl as [k0 p0 cs0 pos pass w v x lines ls o0 l0 Ho Hli Hko Hx Hv Hls]; subst. subst l0.
    eapply (simple_at parent k cs ls); eauto. cbn [lpos llines].
    destruct (is_scalar_k k) eqn:Hs.
    { cbn [named] in Hn. rewrite Hs in Hn. apply andb_prop in Hn as [Hn _]. unfold text_ok in Hn. apply andb_prop in Hn as [_ Hn].
      unfold text_same in Hn. destruct cs as [|[t|? ?] cs]; try discriminate. destruct (scalar_text c parent k t) as [s| |] eqn:Es; try discriminate.
      destruct k; try discriminate; cbn [own_pieces]; rewrite Es; discriminate. }
    unfold simple_k in Hk. rewrite Hs in Hk. destruct k; try discriminate; cbn [own_pieces].
    - unfold lines_ok in Hli. cbn [lkind lpcs llines lpos] in Hli. destruct (is_bracket cs); [discriminate|]. destruct Hli as [_ Hne]. destruct lines; [now elim Hne|discriminate].
    - cbn [wfb] in Hw. rewrite !andb_true_iff in Hw. destruct Hw as (_ & Hw & _). destruct cs as [|[t|? ?] [|? ?]]; try discriminate.
      cbn [onoff_ok] in Hw. cbn [first_tok]. destruct (onoff_text t); [|discriminate]. discriminate.
  Qed.
  Lemma group_front parent k p b bs pos pass w v x lines l ls : group_k k = true ->
    front k b l -> lpos l = pos -> front parent (B k p (b :: bs)) (Lay k p pos pass w v x lines (l :: ls)).
  Proof.
    intros Hk (q & qs & u & us & E1 & E2 & E3 & E4) <-. exists q, (qs ++ flat_map (pieces c k) ls), u, (us ++ flat_map btoks bs).
    cbn [pieces lpos btoks flat_map]. rewrite E1, E2. split; [destruct k; try discriminate; reflexivity|].
    split; [destruct k; try discriminate; reflexivity|]. split; [exact E3|exact E4].
  Qed.
  Lemma first_kid k cs l b bs : group_k k = true -> tidy false (N k cs) = true -> wfb (B k cs (kids cs)) = true -> named c k (B k cs (kids cs)) = true \/ True ->
    kids cs = b :: bs -> frontt e (B k cs (kids cs)) l -> (forall parent, named c parent (B k cs (kids cs)) = true -> named c k b = true) ->
    exists pos pass w v x lines l1 ls o1 n, l = Lay k cs pos pass w v x lines (l1 :: ls) /\ frontt e b l1 /\ lok e b l1 o1
      /\ first_in k pos (l1 :: ls) /\ In n cs /\ b = create_box n /\ kind_of n = bkind b /\ tidy false n = true /\ wfb b = true.
  Proof.
    intros Hk Ht Hw _ Ek Hf _. rewrite Ek in *. inversion Hf as [k0 p0 cs0 pos pass w v x lines ls o Hls Hl Hfi Hkw]; subst.
    assert (Hleaf : leaf_k k = false) by (destruct k; try discriminate; reflexivity). rewrite Hleaf in Hls.
    inversion Hls as [|? l1 ? ls' T1 T2]; subst.
    inversion Hl as [k1 p1 cs1 pos1 pass1 w1 v1 x1 lines1 ls1 o1 l1' _ _ _ _ _ Hlk]; subst. rewrite Hleaf in Hlk.
    inversion Hlk as [|? ? ? ? ? ? ? oo ? _ L1 _]; subst.
    cbn [tidy] in Ht. apply andb_prop in Ht as [_ Ht]. rewrite forallb_forall in Ht.
    destruct (kids_from cs b) as (n & In1 & -> & Kn); [rewrite Ek; now left|].
    cbn [wfb forallb] in Hw. rewrite !andb_true_iff in Hw. destruct Hw as [[W1 _] _].
    do 7 eexists. exists ls', oo, n. split; [reflexivity|]. repeat (split; [eauto|]). exact W1.
  Qed.
  Lemma named_kid k p b bs parent : group_k k = true -> named c parent (B k p (b :: bs)) = true -> named c k b = true.
  Proof. intros Hk H. cbn [named forallb] in H. rewrite !andb_true_iff in H. tauto. Qed.
  Lemma paren_front parent cs l : tidy false (N KParenGroup cs) = true -> wfb (create_box (N KParenGroup cs)) = true ->
    named c parent (create_box (N KParenGroup cs)) = true -> frontt e (create_box (N KParenGroup cs)) l ->
    front parent (create_box (N KParenGroup cs)) l.
  Proof.
    intros Ht Hw Hn Hf. rewrite create_eq in *.
    assert (Hlp : exists b1 bs, kids cs = b1 :: bs /\ is_lparen_k (bkind b1) = true).
    { cbn [wfb] in Hw. apply andb_prop in Hw as [_ Hw]. destruct (kids cs) as [|a [|b [|c0 tl]]]; try discriminate. exists a, (b :: c0 :: tl). split; [reflexivity|]. rewrite !andb_true_iff in Hw. tauto. }
    destruct Hlp as (b1 & bs & Ek & Kb).
    destruct (first_kid KParenGroup cs l b1 bs eq_refl Ht Hw (or_intror Logic.I) Ek Hf) as (pos & pass & w & v & x & lines & l1 & ls & o1 & n & -> & F1 & L1 & Fi & In1 & -> & Kn & T1 & W1).
    { intros par Hp. rewrite Ek in Hp. eapply named_kid; [|exact Hp]. reflexivity. }
    rewrite Ek in *. destruct n as [t|k q]; [discriminate Kb|]. cbn [kind_of] in Kn. rewrite create_eq in *. cbn [bkind] in Kb. destruct k; try discriminate.
    cbn [tidy tidy_k] in T1. apply andb_prop in T1 as [T1 _]. destruct q as [|[t|? ?] [|? ?]]; try discriminate.
    inversion L1 as [k0 p0 cs0 pos0 pass0 w0 v0 x0 lines0 ls0 o0 l0 _ _ _ _ _ Hls]; subst. subst l0. cbn [leaf_k] in Hls. inversion Hls; subst.
    eexists. eexists. exists t. eexists. cbn [pieces own_pieces app flat_map]. split; [reflexivity|]. split; [reflexivity|].
    cbn [p_text p_at lpos]. split; [right; right; left; auto|]. cbn [first_in lpos] in Fi. destruct Fi as [Fi|(_ & Fi)]; [now left|right]. auto.
  Qed.
  Lemma member_front parent n l o : tidy false n = true -> wfb (create_box n) = true -> named c parent (create_box n) = true ->
    lok e (create_box n) l o -> frontt e (create_box n) l -> in_parg (create_box n) || in_arg (create_box n) = true ->
    btoks (create_box n) <> nil -> front parent (create_box n) l.
  Proof.
    intros Ht Hw Hn Hl Hf Hin Hne. destruct n as [t|k cs]; [discriminate Hin|]. unfold in_parg, in_arg in Hin. rewrite create_eq in Hin. cbn [bkind] in Hin.
    destruct (simple_k k) eqn:Hs; [eapply simple_front; eauto|].
    destruct k; try discriminate.
    - (* keyword group *)
      rewrite create_eq in *. pose proof Hw as Hw'. cbn [wfb] in Hw'. apply andb_prop in Hw' as [_ Hw']. destruct (kids cs) as [|b bs] eqn:Ek; [discriminate|]. rewrite <- Ek in Hw, Hf.
      destruct (first_kid KKwargGroup cs l b bs eq_refl Ht Hw (or_intror Logic.I) Ek Hf) as (pos & pass & w & v & x & lines & l1 & ls & o1 & n & -> & F1 & L1 & Fi & In1 & -> & Kn & T1 & W1).
      { intros par Hp. rewrite Ek in Hp. eapply named_kid; [|exact Hp]. reflexivity. }
      apply group_front; [reflexivity| |destruct Fi as [Fi|[Fi _]]; [exact Fi|discriminate]].
      eapply simple_front; eauto; [eapply named_kid; [|exact Hn]; reflexivity|]. rewrite Kn. destruct (create_box n) as [kk ? ?]. cbn [bkind]. now destruct kk.
    - (* positional group *)
      rewrite create_eq in *. destruct (kids cs) as [|b bs] eqn:Ek; [now elim Hne|]. pose proof Hw as Hw'. cbn [wfb] in Hw'. apply andb_prop in Hw' as [_ Hw']. cbn [forallb] in Hw'. apply andb_prop in Hw' as [Hb _].
      rewrite <- Ek in Hw, Hf.
      destruct (first_kid (KPargGroup sortable tags spec) cs l b bs eq_refl Ht Hw (or_intror Logic.I) Ek Hf) as (pos & pass & w & v & x & lines & l1 & ls & o1 & n & -> & F1 & L1 & Fi & In1 & -> & Kn & T1 & W1).
      { intros par Hp. rewrite Ek in Hp. eapply named_kid; [|exact Hp]. reflexivity. }
      apply group_front; [reflexivity| |destruct Fi as [Fi|[Fi _]]; [exact Fi|discriminate]].
      assert (Hn' : named c (KPargGroup sortable tags spec) (create_box n) = true) by (eapply named_kid; [|exact Hn]; reflexivity).
      unfold in_parg in Hb. rewrite <- Kn in Hb. destruct (simple_k (kind_of n)) eqn:Hsn; [eapply simple_front; eauto|].
      destruct n as [t|kn q]; [discriminate|]. cbn [kind_of] in *. destruct kn; try discriminate. now apply paren_front.
    - now apply paren_front.
  Qed.
  (** the group behind a command or a keyword *)
  Lemma lead_front parent n l o : tidy false n = true -> wfb (create_box n) = true -> named c parent (create_box n) = true ->
    lok e (create_box n) l o -> frontt e (create_box n) l -> is_group_k (kind_of n) = true -> leads n = true ->
    front parent (create_box n) l.
  Proof.
    intros Ht Hw Hn Hl Hf Hk Hld. destruct n as [t|k cs]; [discriminate|]. cbn [kind_of] in Hk.
    assert (Hword : forall km qm, tidy false (N km qm) = true -> worded (N km qm) = true -> btoks (create_box (N km qm)) <> nil).
    { intros km qm Tm Wm E. pose proof (box_tokens false (N km qm) Tm) as Hb. rewrite E in Hb. unfold worded in Wm. apply existsb_exists in Wm as (t & F1 & F2).
      assert (F : In t (filter TidyShape.nonws (flat (N km qm)))) by (apply filter_In; auto). rewrite <- Hb in F. destruct F. }
    destruct k; try discriminate.
    - cbn [leads] in Hld. destruct (members_kids (KArgGroup cmdspec) cs Ht Hw eq_refl) as (K1 & _ & K3). destruct (members cs) as [|m ms]; [discriminate|].
      inversion K3 as [|? ? (M1 & M2 & M3) _]; subst. rewrite create_eq in *. cbn [map] in K1.
      destruct (first_kid (KArgGroup cmdspec) cs l (create_box m) (map create_box ms) eq_refl Ht Hw (or_intror Logic.I) K1 Hf) as (pos & pass & w & v & x & lines & l1 & ls & o1 & n & -> & F1 & L1 & Fi & In1 & _ & Kn & T1 & W1).
      { intros par Hp. rewrite K1 in Hp. eapply named_kid; [|exact Hp]. reflexivity. }
      rewrite K1 in *. apply group_front; [reflexivity| |destruct Fi as [Fi|[Fi _]]; [exact Fi|discriminate]].
      assert (Hin : in_parg (create_box m) || in_arg (create_box m) = true) by exact M2.
      destruct m as [t0|km qm]; [discriminate Hin|]. eapply member_front; eauto. eapply named_kid; [|exact Hn]. reflexivity.
    - eapply member_front; eauto.
  Qed.
  Lemma front_text parent n l : tidy false n = true -> front parent (create_box n) l ->
    exists p ps, pieces c parent l = p :: ps /\ (forall r, opens_with endl n (with_endl endl (p_text p) ++ r))
      /\ (p_at p = lpos l \/ (paren_first n = true /\ colm (p_at p) = colm (lpos l) /\ row (lpos l) <= row (p_at p))).
  Proof.
    intros Ht (p & ps & u & us & E1 & E2 & E3 & E4). destruct n as [t0|kn qn]; [discriminate E2|]. pose proof (box_tokens false (N kn qn) Ht) as Hb. rewrite E2 in Hb.
    exists p, ps. split; [exact E1|]. unfold opens_with, paren_first. rewrite <- Hb. cbn [hd_error]. split; [|exact E4].
    intros r. destruct E3 as [E5|[E5|[[E5 E6]|E5]]]; [now left|right; now left|right; right; left|right; right; right].
    - split; [exact E5|]. exists r. now rewrite E6.
    - exists (p_text p), r. auto.
  Qed.
End First.

(** ** Texts *)
Section NestText.
  Variable e : env.
  Notation c := (cfg e).
  Notation endl := (f_endl (cfg e)).
  Hypothesis Hcmt : cmt_ok e.
  Hypothesis Htab : 0 <= f_tab (cfg e).
  Hypothesis He : is_endl endl.

  Lemma sub_front n : forall parent l G, tidy false n = true -> wfb (create_box n) = true -> named c parent (create_box n) = true ->
    frontt e (create_box n) l -> In G (PropLintChecks.subtrees n) -> group_k (kind_of G) = true ->
    exists parent' m P0 P1, pieces c parent l = P0 ++ pieces c parent' m ++ P1 /\ frontt e (create_box G) m
      /\ tidy false G = true /\ wfb (create_box G) = true /\ named c parent' (create_box G) = true.
  Proof.
    induction n as [t|k cs IH] using pnode_ind'; intros parent l G Ht Hw Hn Htl Hin Hk.
    - cbn [PropLintChecks.subtrees] in Hin. destruct Hin as [<-|[]]. discriminate.
    - cbn [PropLintChecks.subtrees] in Hin. destruct Hin as [<-|Hin].
      { exists parent, l, nil, nil. rewrite app_nil_r. auto. }
      apply in_flat_map in Hin as (n & Hcs & Hin). rewrite Forall_forall in IH. specialize (IH n Hcs).
      rewrite create_eq in *. inversion Htl as [k0 p0 cs0 pos pass w v x lines ls oo Hls _ _ _]; subst.
      cbn [tidy] in Ht. apply andb_prop in Ht as [Ht1 Ht2]. rewrite forallb_forall in Ht2. specialize (Ht2 _ Hcs).
      assert (Hnode : exists kn q, n = N kn q /\ (match kn with KWhitespace => false | _ => true end) = true).
      { destruct n as [t|kn q]; [destruct Hin as [<-|[]]; discriminate|]. exists kn, q. split; [reflexivity|]. destruct kn; try reflexivity. exfalso.
        cbn [tidy tidy_k] in Ht2. apply andb_prop in Ht2 as [Ht2 _]. apply andb_prop in Ht2 as [Ht2 _].
        cbn [PropLintChecks.subtrees] in Hin. destruct Hin as [<-|Hin]; [discriminate|]. apply in_flat_map in Hin as (y & Hy & Hin).
        rewrite forallb_forall in Ht2. apply Ht2 in Hy. destruct y; [|discriminate]. destruct Hin as [<-|[]]. discriminate. }
      destruct Hnode as (kn & q & -> & Kn).
      assert (Hleaf : leaf_k k = false).
      { destruct (leaf_k k) eqn:El; [|reflexivity]. exfalso.
        destruct k; try discriminate; cbn [tidy_k] in Ht1.
        - apply andb_prop in Ht1 as [Ht1 _]. rewrite forallb_forall in Ht1. apply Ht1 in Hcs. discriminate.
        - apply andb_prop in Ht1 as [Ht1 _]. apply andb_prop in Ht1 as [Ht1 _]. rewrite forallb_forall in Ht1. apply Ht1 in Hcs. discriminate.
        - destruct cs as [|[t|? ?] [|? ?]]; try discriminate. destruct Hcs as [Hcs|[]]. discriminate.
        - destruct cs as [|[t|? ?] [|? ?]]; try discriminate. destruct Hcs as [Hcs|[]]. discriminate.
        - destruct cs as [|[t|? ?] [|? ?]]; try discriminate. destruct Hcs as [Hcs|[]]. discriminate. }
      rewrite Hleaf in Hls.
      apply in_split in Hcs as (c1 & c2 & Ecs).
      assert (Ek : kids cs = kids c1 ++ create_box (N kn q) :: kids c2).
      { rewrite Ecs. change (N kn q :: c2) with ([N kn q] ++ c2). rewrite !kids_app, kids_one by exact Kn. reflexivity. }
      rewrite Ek in Hls. apply Forall2_app_inv_l in Hls as (l1 & l2 & H1 & H2 & ->). inversion H2 as [|? m ? l3 T1 T2]; subst.
      cbn [wfb] in Hw. apply andb_prop in Hw as [Hw _]. cbn [named] in Hn. apply andb_prop in Hn as [_ Hn].
      rewrite forallb_forall in Hw, Hn. assert (Hb : In (create_box (N kn q)) (kids (c1 ++ N kn q :: c2))) by (rewrite Ek; apply in_or_app; right; now left).
      destruct (IH k m G Ht2 (Hw _ Hb) (Hn _ Hb) T1 Hin Hk) as (parent' & m' & P0 & P1 & E & R).
      exists parent', m'. eexists (own_pieces c parent k (c1 ++ N kn q :: c2) pos lines ++ flat_map (pieces c k) l1 ++ P0), (P1 ++ flat_map (pieces c k) l3).
      split; [|exact R]. cbn [pieces]. rewrite flat_map_app. cbn [flat_map]. rewrite E, <- !app_assoc. reflexivity.
  Qed.

  Lemma gap_follow p lp cur g j width ncol paren : 
    Z.of_nat (fst g) = row (p_at p) - row cur ->
    Z.of_nat (snd g) = (if row cur =? row (p_at p) then colm (p_at p) - colm cur else colm (p_at p)) ->
    (p_at p = lp \/ (paren = true /\ colm (p_at p) = colm lp /\ row lp <= row (p_at p))) ->
    after_at c width (shift cur j) (Cur (row cur + 1) ncol) lp ->
    follows c endl paren (spaces j) (colm cur + j) width ncol (gap_text endl g).
  Proof.
    intros G1 G2 Hp Ha. unfold follows, gap_text. unfold after_at in Ha.
    destruct Ha as [-> | [-> Hw]]; cbn [shift row colm] in *.
    - destruct (Z.eqb_spec (row cur) (row (p_at p))) as [Er|Er].
      + left. replace (fst g) with 0%nat by lia. cbn [repeat_s app]. f_equal. destruct Hp as [Hp|(_ & Hp & _)]; [rewrite Hp in G2; cbn [shift colm] in G2|]; lia.
      + right. left. destruct Hp as [Hp|(Pt & Hp & Hr)]; [rewrite Hp in Er; cbn [shift row] in Er; lia|]. split; [exact Pt|].
        exists (pred (fst g)). replace (S (pred (fst g))) with (fst g) by lia. f_equal. f_equal. lia.
    - right. right. split; [exact Hw|]. exists (pred (fst g)).
      destruct (Z.eqb_spec (row cur) (row (p_at p))) as [Er|Er]; [destruct Hp as [Hp|(_ & _ & Hp)]; [rewrite Hp in Er; cbn [row] in Er|]; lia|].
      replace (S (pred (fst g))) with (fst g) by lia. split.
      + f_equal. f_equal. destruct Hp as [Hp|(_ & Hp & _)]; [rewrite Hp in G2; cbn [colm] in G2|]; lia.
      + destruct Hp as [Hp|(Pt & _)]; [right|now left]. rewrite Hp in G1. cbn [row] in G1. lia.
  Qed.
  Lemma members_boxes cs : filter (fun b => negb (match bkind b with KWhitespace => true | _ => false end)) (kids cs) = map create_box (members cs).
  Proof.
    induction cs as [|n cs IH]; [reflexivity|]. change (kids (n :: cs)) with (kids ([n] ++ cs)). rewrite kids_app, filter_app, IH.
    destruct n as [t|k q]; [reflexivity|]. destruct (match k with KWhitespace => false | _ => true end) eqn:Kn.
    - rewrite kids_one by exact Kn. rewrite create_eq. cbn [filter bkind]. destruct k; try discriminate; reflexivity.
    - assert (k = KWhitespace) as -> by (destruct k; try discriminate; reflexivity). unfold kids. cbn [flat_map app members filter]. destruct (_ <? 2); [reflexivity|].
      cbn [filter]. reflexivity.
  Qed.

  (** a keyword with its arguments *)
  Lemma kw_text parent cs t ts g m cur gs x : 
    tidy false (N KKwargGroup cs) = true -> wfb (create_box (N KKwargGroup cs)) = true -> named c parent (create_box (N KKwargGroup cs)) = true ->
    frontt e (create_box (N KKwargGroup cs)) m -> members cs = [N KKeyword (T t :: ts); g] -> leads g = true ->
    gaps_at cur gs (pieces c parent m) -> col_of x = colm cur ->
    exists pre kw gap r, page endl gs (pieces c parent m) = pre ++ kw ++ gap ++ r /\ lower kw = lower (spelling t)
      /\ opens_with endl g r
      /\ follows c endl (paren_first g) $" " (col_of (x ++ pre) + zlen kw + 1) (zlen kw) (col_of (x ++ pre) + f_tab c) gap.
  Proof.
    intros Ht Hw Hn Hf Hm Hld Hg Hx. pose proof (members_boxes cs) as Hb. rewrite Hm in Hb. cbn [map] in Hb.
    assert (Hing : In g cs) by (assert (F : In g (members cs)) by (rewrite Hm; right; now left); unfold members in F; now apply filter_In in F).
    rewrite create_eq in *. pose proof Hw as Hw'. cbn [wfb] in Hw'. apply andb_prop in Hw' as [Hall Hsh].
    assert (Ek : kids cs = [create_box (N KKeyword (T t :: ts)); create_box g]).
    { destruct (kids cs) as [|[k1 q1 c1] tl]; [discriminate Hsh|]. destruct k1; try discriminate Hsh. destruct tl as [|b2 [|? ?]]; try discriminate Hsh; cbn [filter bkind negb] in Hb; [discriminate|].
      destruct (bkind b2); try discriminate Hsh; cbn [negb] in Hb; exact Hb. }
    rewrite Ek in *. rewrite create_eq in *. cbn [forallb] in Hall. rewrite !andb_true_iff in Hall. destruct Hall as (Wk & Wg & _).
    inversion Hf as [k0 p0 cs0 pos pass w v xx lines ls o Hls Hl _ Hkw]; subst. cbn [leaf_k] in Hls.
    inversion Hls as [|? lk ? ls1 Fk F1]; subst. inversion F1 as [|? lg ? ls2 Fg F2]; subst. inversion F2; subst.
    specialize (Hkw eq_refl). cbn [kw_at] in Hkw. destruct Hkw as [Hk1 Hk2].
    assert (Lkg : (exists o1, lok e (B KKeyword (T t :: ts) (kids (T t :: ts))) lk o1) /\ exists o2, lok e (create_box g) lg o2).
    { inversion Hl as [k1 p1 cs1 pos1 pass1 w1 v1 x1 lines1 ls1 o1 l1' _ _ _ _ _ Hlk]; subst. cbn [leaf_k] in Hlk.
      inversion Hlk as [|? ? ? ? ? ? ? oo ? _ L1 Hlk2]; subst. inversion Hlk2 as [|? ? ? ? ? ? ? o2 ? _ L2 _]; subst. eauto. }
    destruct Lkg as [[ok Lk] [og Lg]].
    cbn [named forallb] in Hn. rewrite !andb_true_iff in Hn. destruct Hn as (_ & Nk & Ng & _).
    cbn [wfb] in Wk. rewrite !andb_true_iff in Wk. destruct Wk as [_ [[_ W2] W3]].
    assert (Hnil : kids (T t :: ts) = nil) by (destruct (kids (T t :: ts)); [reflexivity|discriminate]). rewrite Hnil in *.
    inversion Lk as [k1 p1 cs1 pos1 pass1 w1 v1 x1 lines1 ls1 o1 l1' _ _ _ _ _ Hlk]; subst. cbn [leaf_k] in Hlk. inversion Hlk; subst. subst l1'. clear Hlk. cbn [lpos] in *. rename pos1 into pos.
    cbn [first_spelling] in W2. cbn [named is_scalar_k forallb] in Nk. destruct Nk as [Nk _]. pose proof Nk as Nk'. unfold text_ok in Nk'. apply andb_prop in Nk' as [Nk1 Nk2].
    destruct (scalar_piece c KKwargGroup KKeyword ts t eq_refl Nk1) as (nm & En & Ef).
    unfold text_same in Nk2. rewrite En in Nk2. apply seqb_eq in Nk2. rewrite normalize_one_line in Nk2 by exact W2.
    assert (Hlen : zlen nm = zlen (spelling t)) by (apply (f_equal zlen) in Nk2; unfold lower, zlen in *; rewrite !map_length in Nk2; exact Nk2).
    assert (Hnm1 : one_line nm = true) by (now rewrite (lower_one_line _ _ Nk2)).
    assert (Tg : tidy false g = true) by (cbn [tidy] in Ht; apply andb_prop in Ht as [_ Ht]; rewrite forallb_forall in Ht; now apply Ht).
    assert (Kg : kind_of g = bkind (create_box g)) by (destruct g as [tg|kg qg]; [discriminate Hsh|]; now rewrite create_eq).
    assert (Hgr : is_group_k (kind_of g) = true) by (rewrite Kg; exact Hsh).
    pose proof (lead_front e KKwargGroup g lg og Tg Wg Ng Lg Fg Hgr Hld) as Fr.
    destruct (front_text e KKwargGroup g lg Tg Fr) as (p & ps & Ep & Ho & Hp).
    cbn [pieces own_pieces flat_map] in Hg |- *. rewrite En in Hg |- *. cbn [app] in Hg |- *. rewrite app_nil_r in Hg |- *. rewrite Ep in Hg |- *.
    destruct gs as [|gk [|gg gs]]; cbn [gaps_at] in Hg; try (exfalso; tauto). destruct Hg as (G1 & G2 & G3 & G4 & G5).
    assert (Ee : forall pk, p_end (Pc pos nm pk) = shift pos (zlen (spelling t))).
    { intros pk. unfold p_end. cbn [p_at p_text]. now rewrite Ef, flow_text_one. }
    rewrite Ee in G3, G4. cbn [page p_text].
    exists (gap_text endl gk), nm, (gap_text endl gg), (with_endl endl (p_text p) ++ page endl gs ps).
    split; [rewrite (one_line_endl _ nm) by exact Hnm1; now rewrite <- ?app_assoc|]. split; [exact Nk2|]. split; [apply Ho|].
    rewrite (col_gap endl He x cur gk (Pc pos nm (PkWord false)) Hx G1 G2). cbn [p_at].
    pose proof (gap_follow p (lpos lg) (shift pos (zlen (spelling t))) gg 1 (zlen nm) (colm pos + f_tab c) (paren_first g) G3 G4 Hp) as R.
    rewrite Hlen in *. apply R. unfold after_at. cbn [shift row colm]. unfold after_at in Hk2. cbn [shift row colm] in Hk2.
    destruct Hk2 as [-> | [-> Hw2]]; [left; unfold shift; cbn [row colm]; f_equal; lia|right; auto].
  Qed.

  (** the arguments of a command *)
  Lemma chunk_nests val d n o : tidy false n = true ->
    item_ok e (d, create_box n) -> chunk e val (d, create_box n) o -> nests c endl (d, n) (PropLines.line_of o).
  Proof.
    intros Ht (W1 & W2 & W3 & W4) H. cbn [snd] in *. unfold nests. cbn [fst snd].
    destruct n as [|k p]; [exact Logic.I|]. destruct k; try exact Logic.I.
    assert (Hname : forall t p1, hd_error (kids p) = Some (B KFunname (T t :: p1) nil) -> hd_error (flat_map name_of p) = Some t).
    { intros t p1 Eh. eapply (first_box name_of KFunname t p1); [|now left|exact (eq_refl (B KFunname (T t :: p1) nil))|exact Eh].
      intros [|k3 [|[] ?]]; try reflexivity; now destruct k3. }
    inversion H as [d0 b0 Hb|d0 b0 parent path term pass sib cur l o0 q ps gs Hb Hr Hcol Hpc Hat Hgs]; subst; [discriminate Hb|]. clear H Hb.
    assert (W2' : named c parent (create_box (N (KStatement cmdspec) p)) = true) by (rewrite (named_parent e _ parent KBody); [exact W2|reflexivity]).
    pose proof (reflow_front e Htab _ W1 eq_refl _ _ _ _ _ _ _ Hr) as Hf.
    split.
    - intros sp a Hin Hld. cbn [PropLines.line_of]. rewrite create_eq in *.
      remember (p_at q) as cur eqn:Ecur.
      destruct (stmt_parts e Htab cmdspec p (kids p) sib path term cur pass l o0 W1 Hr)
        as (lp & ag & rp & tl & lf & ll & la & lr & lt & t & p1 & c3 & colc & o1 & o2 & o3 & Ek & El & [Lf Pf] & [Ll Pl] & [La Pa] & Hcc & Lr & Hrp & Htl & K1 & K2 & K3).
      assert (Hnm' : hd_error (flat_map name_of p) = Some t) by (apply (Hname t p1); now rewrite Ek).
      rewrite Ek in *. inversion Hf as [k0 p0 cs0 pos0 pass0 w0 v0 x0 lines0 ls0 oo0 Hls Hl _ _]; subst l. cbn [lcs leaf_k] in *. subst.
      inversion Hls as [|? ? ? ? Ff Hls1]; subst. inversion Hls1 as [|? ? ? ? Fl Hls2]; subst. inversion Hls2 as [|? ? ? ? Fa Hls3]; subst. inversion Hls3 as [|? ? ? ? Fr Hls4]; subst.
      assert (Hag : ag = create_box (N (KArgGroup sp) a)).
      { assert (Hk : In (create_box (N (KArgGroup sp) a)) (kids p)).
        { apply in_split in Hin as (x1 & x2 & ->). change (N (KArgGroup sp) a :: x2) with ([N (KArgGroup sp) a] ++ x2). rewrite !kids_app, kids_one by reflexivity. apply in_or_app. right. now left. }
        rewrite Ek in Hk. rewrite create_eq in Hk |- *. destruct Hk as [Hk|[Hk|[Hk|[Hk|Hk]]]]; [discriminate|rewrite Hk in K1; discriminate|exact Hk|rewrite Hk in K3; discriminate|exfalso].
        destruct Htl as [-> | (cm & lc & o4 & Hi & Hkc & -> & _)]; [inversion Hls4; subst; destruct Hk|]. inversion Hls4 as [|? ? ? ? _ Hls5]; subst. inversion Hls5; subst.
        destruct Hk as [Hk|[]]. destruct Hi as [<-|[]]. rewrite Hk in Hkc. discriminate. }
      subst ag. cbn [wfb] in W1. apply andb_prop in W1 as [W1 _]. cbn [named is_scalar_k andb] in W2.
      cbn [forallb] in W1, W2. rewrite !andb_true_iff in W1, W2. destruct W1 as (V1 & V2 & V3 & V4 & V5). destruct W2 as (N1 & N2 & N3 & N4 & N5).
      inversion Lf as [k1 p2 cs1 pos1 pass1 w1 v1 x1 lines1 ls1 oo1 l1 Ho1 Hli1 Hko1 Hx1 Hv1 Hls5]; subst. subst l1.
      cbn [leaf_k] in Hls5. assert (ls1 = nil) as -> by (now inversion Hls5). clear Hls5.
      cbn [wfb] in V1. rewrite !andb_true_iff in V1. destruct V1 as [_ [[F1 F2] F3]].
      assert (Hone : one_line (spelling t) = true) by exact F2.
      cbn [named is_scalar_k forallb] in N1. rewrite andb_true_r in N1. pose proof N1 as N1'. unfold text_ok in N1'. apply andb_prop in N1' as [N1' _].
      destruct (scalar_piece c (KStatement cmdspec) KFunname p1 t eq_refl N1') as (nm & En & Ef).
      assert (Hnm := name_as_text e _ _ _ _ N1 Hone En).
      cbn [flat_map pieces own_pieces lpos app] in Hpc. rewrite En in Hpc. cbn [app] in Hpc.
      assert (Hll : pieces c (KStatement cmdspec) ll = [Pc (lpos ll) $"(" (PkParen true)]).
      { inversion Ll as [k2 p3 cs2 pos2 pass2 w2 v2 x2 lines2 ls2 oo2 l2 Ho2 Hli2 Hko2 Hx2 Hv2 Hls5]; subst.
        cbn [bkind] in K1. destruct k2; try discriminate. subst l2. cbn [leaf_k] in Hls5. inversion Hls5; subst. reflexivity. }
      assert (Tg : tidy false (N (KArgGroup sp) a) = true) by (cbn [tidy] in Ht; apply andb_prop in Ht as [_ Ht]; rewrite forallb_forall in Ht; now apply Ht).
      pose proof (lead_front e (KStatement cmdspec) (N (KArgGroup sp) a) la c3 Tg V3 N3 La Fa eq_refl Hld) as Fr'.
      destruct (front_text e (KStatement cmdspec) (N (KArgGroup sp) a) la Tg Fr') as (pa & pas & Ep & Ho & Hp).
      rewrite Hll, Ep in Hpc. cbn [app] in Hpc. injection Hpc as <- <-. cbn [p_at p_text] in *.
      assert (Ee : p_end (Pc pos1 nm (PkWord true)) = shift pos1 (zlen (spelling t))).
      { unfold p_end. cbn [p_at p_text]. now rewrite Ef, flow_text_one. }
      rewrite Ee in Hgs. destruct gs as [|g0 [|ga gs]]; cbn [gaps_at] in Hgs; try (exfalso; tauto). destruct Hgs as (G1 & G2 & G3 & G4 & _).
      change (p_at (Pc (lpos ll) $"(" (PkParen true))) with (lpos ll) in *. change (p_end (Pc (lpos ll) $"(" (PkParen true))) with (shift (lpos ll) 1) in *.
      cbn [lpos] in *. rewrite Pl in *. cbn [shift row colm] in G1, G2. rewrite Z.eqb_refl in G2.
      assert (Hlen : zlen nm = zlen (spelling t)) by (destruct Hnm as (Hn & _); apply (f_equal zlen) in Hn; unfold lower, zlen in *; rewrite !map_length in Hn; exact Hn).
      eexists t, nm, (gap_text endl ga), _. split; [exact Hnm'|]. split; [exact Hnm|]. split.
      { f_equal. rewrite (one_line_endl _ nm) by apply Hnm. f_equal. cbn [page p_text]. unfold gap_text at 1.
        replace (fst g0) with 0%nat by lia. replace (Z.of_nat (snd g0)) with (Z.of_nat (blanks_before_paren c (spelling t))) by lia.
        cbn [repeat_s app]. reflexivity. }
      split; [apply Ho|]. rewrite Hlen.
      pose proof (gap_follow pa (lpos la) _ ga 0 (zlen (spelling t) + Z.of_nat (blanks_before_paren c (spelling t)) + 1) (Z.of_nat d * f_tab c + f_tab c) _ G3 G4 Hp) as R.
      cbn [shift row colm] in R. replace (Z.of_nat d * f_tab c + (zlen (spelling t) + Z.of_nat (blanks_before_paren c (spelling t)) + 1)) with (colm pos1 + (zlen (spelling t) + Z.of_nat (blanks_before_paren c (spelling t))) + 1 + 0) by lia.
      apply R. unfold after_at. cbn [shift row colm]. destruct Hcc as [-> | [-> Hw2]]; [left; unfold shift; cbn [row colm]; f_equal; lia|right; split; [f_equal; lia|exact Hw2]].
    - intros cs g t ts Hin Hm Hld.
      destruct (sub_front _ parent l (N KKwargGroup cs) Ht W1 W2' Hf Hin eq_refl) as (parent' & m & P0 & P1 & E & Tm & T2 & Wg & Ng).
      set (s := PropLines.line_of _).
      assert (Hs : exists g0, s = page endl g0 (pieces c parent l) /\ gaps_at (Cur (row (p_at q)) 0) g0 (pieces c parent l)).
      { exists ((0%nat, Z.to_nat (Z.of_nat d * f_tab c)) :: gs). rewrite Hpc. split.
        - subst s. cbn [PropLines.line_of page]. unfold gap_text. cbn [fst snd repeat_s app]. now rewrite Z2Nat.id by nia.
        - cbn [gaps_at fst snd row colm]. split; [lia|]. split; [|exact Hgs]. rewrite Z.eqb_refl, Z2Nat.id by nia. lia. }
      destruct Hs as (g0 & Es & Hg). rewrite E in Es, Hg.
      destruct (gaps_split _ _ _ _ Hg) as (ga & gr & -> & Ga & Gr). rewrite (page_app _ _ _ _ _ _ Ga) in Es.
      destruct (gaps_split _ _ _ _ Gr) as (gm & gz & -> & Gm & Gz). rewrite (page_app _ _ _ _ _ _ Gm) in Es.
      assert (Hc0 : col_of (page endl ga P0) = colm (fst (after (Cur (row (p_at q)) 0, None) P0))).
      { exact (col_page _ He P0 nil (Cur (row (p_at q)) 0) ga eq_refl Ga). }
      destruct (kw_text parent' cs t ts g m _ gm (page endl ga P0) T2 Wg Ng Tm Hm Hld Gm Hc0) as (pre & kw & gap & r & Q1 & Q2 & Q3 & Q4).
      exists (page endl ga P0 ++ pre), kw, gap, r, (page endl gz P1). split; [rewrite Es, Q1; now rewrite <- !app_assoc|]. auto.
  Qed.
End NestText.

(** C144: whatever the file, the arguments of a command stand right behind its
    parenthesis, or nested on the next line one tab in - the latter only if the name
    with the parenthesis is wider than min_prefix_chars.  The arguments of a keyword
    stand one blank behind it, or nested on the next line one tab in from the keyword,
    the latter only if the keyword is wider than min_prefix_chars. *)
Theorem C144_nesting c specs tbl src text v :
  run_cfg c specs tbl -> p_usetabs c = false -> f_autosort (p_fmt c) = false ->
  process_file c src = Ok (text, v) ->
  forall toks, tokenize src = Ok toks -> no_switch toks = true ->
  exists tree chs, parse (p_ctx c) toks = Ok tree
    /\ Forall2 (nests (effective c src) (f_endl (effective c src))) (trim_end blank_item (fitems 0 tree)) chs
    /\ text = bom_text c ++ join (f_endl (effective c src)) chs ++ f_endl (effective c src).
Proof.
  intros R Ht Ha H toks Hl Hno.
  destruct (file_chunks _ _ _ _ _ _ R Ht H toks Hl Hno) as (tree & chs & E & Htree & (Hc & Htab) & HF & _ & ->).
  exists tree, chs. split; [exact E|]. split; [|reflexivity].
  assert (He : is_endl (f_endl (effective c src))) by (apply eff_endl, R).
  assert (Ha' : f_autosort (cfg (pipe_env c src toks)) = false) by (cbn [pipe_env cfg]; unfold effective; destruct (p_auto c); exact Ha).
  change (effective c src) with (cfg (pipe_env c src toks)) in *.
  assert (Htd : Forall (fun x => tidy false (snd x) = true) (trim_end blank_item (fitems 0 tree))).
  { apply Forall_forall. intros x Hx. apply trim_end_in in Hx. pose proof (fitems_tidy false tree Htree 0%nat) as Hf. rewrite Forall_forall in Hf. exact (Hf _ Hx). }
  clear H. revert Htd. induction HF as [|[d n] s xs ys HG HF IH]; intros Htd; [constructor|]. inversion Htd as [|? ? T1 T2]; subst. constructor; [|now apply IH].
  destruct HG as (G & I & o & Ho & ->). cbn [fst snd] in *. rewrite Ha', lock_off in I, Ho. apply (chunk_nests _ Htab He v); [exact T1|exact I|exact Ho].
Qed.

Definition nest_file : str := nl
  [$"if((A AND B) OR (SOME_OTHER_LONG_CONDITION_VARIABLE AND YET_ANOTHER_LONG_CONDITION_VARIABLE))";
   $"add_custom_command(OUTPUT a_generated_file_with_a_name_of_well_over_seventy_characters_in_all.cc COMMAND x)"; $"endif()"].
(** a keyword with a group that begins with a word *)
Definition leading (n : pnode) : bool :=
  match n with
  | N KKwargGroup cs => match members cs with [N KKeyword (T _ :: _); g] => leads g | _ => false end
  | N (KArgGroup _) _ => leads n
  | _ => false
  end.
Example C144_nesting_ex :
  run_cfg (opt_pcfg nil 2 6 10) nil nil /\ f_min_prefix (p_fmt (opt_pcfg nil 2 6 10)) = 4
  /\ (exists toks tree, tokenize nest_file = Ok toks /\ no_switch toks = true /\ parse (p_ctx (opt_pcfg nil 2 6 10)) toks = Ok tree
      /\ List.length (filter leading (PropLintChecks.subtrees tree)) = 13%nat)
  (* the name and the first keyword are wider than four characters, [if(] is not *)
  /\ process_file (opt_pcfg nil 2 6 10) nest_file = Ok (nl
       [$"if((A AND B) OR (SOME_OTHER_LONG_CONDITION_VARIABLE"; $"                 AND YET_ANOTHER_LONG_CONDITION_VARIABLE))";
        $"  add_custom_command("; $"    OUTPUT"; $"      a_generated_file_with_a_name_of_well_over_seventy_characters_in_all.cc"; $"    COMMAND x)"; $"endif()"], true).
Proof.
  split; [exact default_run|]. split; [reflexivity|]. split.
  - eexists; eexists. split; [vm_compute; reflexivity|]. split; [vm_compute; reflexivity|]. split; [vm_compute; reflexivity|]. vm_compute. reflexivity.
  - vm_compute; reflexivity.
Qed.
