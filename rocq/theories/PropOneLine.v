(** * PropOneLine: a command that fits into the line is written on one line *)
From Coq Require Import Permutation.
From Verif Require Import Base Regex Lex LexProofs LexClass PropLex TextOps TextProofs PropText
  Tree Parse ParseProofs PropParse CmdSpec StdSpecs StdDb StdWf PropStd Layout LayoutProofs LayoutCols Pieces Writing
  PropLayout Markup Pipeline ParseShape StdShape NamesShape CommentShape TidyShape PropFile PropIndent Walk ParseTerm ParseBlank OutSame
  PropLines OneLine.

(** ** Specification *)
(** The words and parentheses of a command on one line: one blank between two of
    them, none behind an opening and before a closing parenthesis. *)
Definition role_text (r : role) : str :=
  match fst r with KLParen => $"(" | KRParen => $")" | _ => spelling (snd r) end.
Fixpoint spread (tight : bool) (rs : list role) : str :=
  match rs with
  | nil => nil
  | x :: r => (if tight || is_rparen_k (fst x) then nil else [cSP]) ++ role_text x ++ spread (is_lparen_k (fst x)) r
  end.
Definition on_one_line (c : fcfg) (rs : list role) : str :=
  match rs with
  | nm :: lp :: r =>
      role_text nm ++ spaces (Z.of_nat (blanks_before_paren c (role_text nm))) ++ role_text lp ++ spread true r
  | _ => nil
  end.
(** what is written for an item, if it is a short command: the line [on_one_line],
    up to the letter case of the command name, the keywords and the flags *)
Definition short_line (c : fcfg) (x : nat * pnode) (s : str) : Prop :=
  match snd x with
  | N (KStatement _) _ =>
      let rs := roles (create_box (snd x)) in
      let w := Z.of_nat (fst x) * f_tab c in
      flatb c (create_box (snd x)) = true ->
      w + zlen (on_one_line c rs) <= f_linewidth c ->
      map snd rs = filter nonws (flat (snd x))
      /\ lower s = lower (spaces w ++ on_one_line c rs)
      /\ exists t r is, rs = (KFunname, t) :: r /\ says false rs is
           /\ s = spaces w ++ itext (Z.of_nat (blanks_before_paren c (spelling t))) None is
  | _ => True
  end.

(** ** Texts on one line *)
Definition plain_role (r : role) : Prop :=
  match fst r with
  | KLParen | KRParen => True
  | KArgument | KKeyword | KFlag => one_line (spelling (snd r)) = true
  | _ => False
  end.
Lemma flat_roles c b : flatb c b = true -> flatk (bkind b) = true -> bkind b <> KFunname -> Forall plain_role (roles b).
Proof.
  induction b as [k p cs IH] using box_ind'. intros Hf Hk Hne. cbn [bkind] in *. cbn [roles]. apply Forall_app.
  assert (Hkids : (forall x, In x cs -> flatb c x = true /\ flatk (bkind x) = true /\ bkind x <> KFunname) -> Forall plain_role (flat_map roles cs)).
  { intros H. rewrite Forall_forall in IH |- *. intros r Hin. apply in_flat_map in Hin as (x & Hx & Hr).
    specialize (IH x Hx). destruct (H x Hx) as (A & B & C). specialize (IH A B C). rewrite Forall_forall in IH. auto. }
  assert (Hnil : cs = nil -> Forall plain_role (flat_map roles cs)) by (intros ->; constructor).
  assert (Hw : forall x, opener (bkind x) = true \/ subgroup (bkind x) = true -> flatk (bkind x) = true /\ bkind x <> KFunname).
  { intros x [H|H]; destruct (bkind x); try discriminate; split; try reflexivity; discriminate. }
  assert (Hone : one_line (first_spelling p) = true -> (k = KArgument \/ k = KKeyword \/ k = KFlag) -> Forall plain_role (own_roles k p)).
  { intros H1 H2. unfold own_roles. destruct p as [|[t|] p]; destruct H2 as [-> | [-> | ->]]; cbn [own_toks map]; constructor; try constructor; exact H1. }
  destruct k; try discriminate; cbn [flatb] in Hf.
  - now elim Hne.
  - split; [constructor|]. apply andb_prop in Hf as [Hf _]. rewrite forallb_forall in Hf. apply Hkids. intros x Hx.
    specialize (Hf x Hx). apply andb_prop in Hf as [F1 F2]. split; [exact F1|]. apply Hw. auto.
  - split; [constructor|]. apply Hkids. destruct cs as [|kw [|g [|]]]; try discriminate; rewrite !andb_true_iff in Hf; intros x Hx.
    + destruct Hx as [<-|[]]. split; [tauto|]. destruct (bkind kw); try (now destruct Hf); split; try reflexivity; discriminate.
    + destruct Hf as [[[[F1 F2] F3] F4] F5]. destruct Hx as [<-|[<-|[]]]; (split; [assumption|]).
      * destruct (bkind kw); try discriminate; split; try reflexivity; discriminate.
      * destruct (bkind g); try discriminate; split; try reflexivity; discriminate.
  - split; [constructor|]. rewrite !andb_true_iff in Hf. destruct Hf as [[_ Hf] _]. rewrite forallb_forall in Hf. apply Hkids. intros x Hx.
    specialize (Hf x Hx). apply andb_prop in Hf as [F1 F2]. split; [exact F1|]. apply Hw. auto.
  - split; [constructor|]. apply Hkids. destruct cs as [|lp [|ag [|rp [|]]]]; try discriminate; rewrite !andb_true_iff in Hf; intros x Hx.
    destruct Hf as [[[[[F1 F2] F3] F4] F5] F6]. destruct Hx as [<-|[<-|[<-|[]]]]; (split; [assumption|]).
    * destruct (bkind lp); try discriminate; split; try reflexivity; discriminate.
    * destruct (bkind ag); try discriminate; split; try reflexivity; discriminate.
    * destruct (bkind rp); try discriminate; split; try reflexivity; discriminate.
  - apply andb_prop in Hf as [F1 F2]. destruct cs; [|discriminate]. auto.
  - apply andb_prop in Hf as [F1 F2]. destruct cs; [|discriminate]. auto.
  - apply andb_prop in Hf as [F1 F2]. destruct cs; [|discriminate]. auto.
  - destruct cs; [|discriminate]. split; [|constructor]. unfold own_roles. apply Forall_forall. intros r Hr. apply in_map_iff in Hr as (t & <- & _). exact I.
  - destruct cs; [|discriminate]. split; [|constructor]. unfold own_roles. apply Forall_forall. intros r Hr. apply in_map_iff in Hr as (t & <- & _). exact I.
Qed.

Lemma lower_app a b : lower (a ++ b) = lower a ++ lower b.
Proof. apply map_app. Qed.
Definition one_text (i : item) : Prop := match i with IText _ s => one_line s = true | IComment _ _ => False end.
Lemma says_plain pl rs is : says pl rs is -> Forall plain_role rs -> Forall one_text is
  /\ forall nb k, k <> PkWord true ->
     lower (itext nb (Some k) is) = lower (spread (match k with PkParen true => true | _ => false end) rs).
Proof.
  assert (Hj : forall nb k k', k <> PkWord true -> k' = PkWord false \/ k' = PkParen true \/ k' = PkParen false ->
    spaces (joins nb (Some k) k') = if (match k with PkParen true => true | _ => false end) || (match k' with PkParen false => true | _ => false end) then nil else [cSP]).
  { intros nb k k' H [-> | [-> | ->]]; destruct k as [[]|[]| | |]; try congruence; reflexivity. }
  induction 1 as [|k t rs is Hk Ht Hs IH|k t rs is Hk Ht Hs IH|k t s rs is Hk Ht Hl Hs IH|t s rs is Ho Hs IH|x t rs is Hb Hs IH|x ts p rs is Hne Hts E Hpl Hs IH];
    intros HF; [split; [constructor|reflexivity]| | | | | |].
  - inversion HF as [|? ? H1 H2]; subst. destruct (IH H2) as [I1 I2]. split.
    + constructor; [|exact I1]. destruct Hk as [-> | ->]; reflexivity.
    + intros nb k0 Hk0. cbn [itext spread fst]. rewrite !lower_app. rewrite I2 by (destruct k; discriminate).
      destruct Hk as [-> | ->]; cbn [is_lparen_k is_rparen_k role_text fst]; rewrite (Hj nb k0 _ Hk0) by auto; reflexivity.
  - inversion HF as [|? ? H1 H2]; subst. destruct (IH H2) as [I1 I2]. unfold plain_role in H1. cbn [fst snd] in H1.
    assert (Ho : one_line (spelling t) = true) by (destruct Hk as [-> | ->]; [exact H1|destruct H1]).
    rewrite normalize_one_line by exact Ho. split; [now constructor|].
    intros nb k0 Hk0. cbn [itext spread fst]. rewrite !lower_app, I2 by discriminate. rewrite (Hj nb k0 _ Hk0) by auto.
    destruct Hk as [-> | ->]; reflexivity.
  - inversion HF as [|? ? H1 H2]; subst. destruct (IH H2) as [I1 I2]. unfold plain_role in H1. cbn [fst snd] in H1.
    assert (Ho : one_line (spelling t) = true) by (destruct Hk as [-> | [-> | ->]]; [destruct H1|exact H1|exact H1]).
    rewrite normalize_one_line in Hl by exact Ho.
    assert (Hf : is_funname_k k = false) by (destruct Hk as [-> | [-> | ->]]; [destruct H1|reflexivity|reflexivity]). rewrite Hf.
    split; [constructor; [|exact I1]; cbn [one_text]; now rewrite (lower_one_line _ _ Hl)|].
    intros nb k0 Hk0. cbn [itext spread fst]. rewrite !lower_app, I2 by discriminate. rewrite (Hj nb k0 _ Hk0) by auto. rewrite Hl.
    destruct Hk as [-> | [-> | ->]]; reflexivity.
  - inversion HF as [|? ? H1 H2]; subst. destruct H1.
  - inversion HF as [|? ? H1 H2]; subst. destruct H1.
  - destruct ts as [|t ts]; [now elim Hne|]. inversion HF as [|? ? H1 H2]; subst. destruct H1.
Qed.
Lemma one_text_flow cur s : one_line s = true -> fst (text_flow cur s) = shift cur (zlen s).
Proof.
  intros H. unfold text_flow. rewrite no_nl_split; [reflexivity|]. intros F. unfold one_line in H. apply negb_true_iff in H.
  assert (existsb (fun c => N.eqb c cNL || N.eqb c cCR) s = true); [|congruence]. apply existsb_exists. exists cNL. split; [exact F|reflexivity].
Qed.
Lemma one_text_endl endl s : one_line s = true -> with_endl endl s = s.
Proof.
  intros H. unfold with_endl. rewrite no_nl_split; [reflexivity|]. intros F. unfold one_line in H. apply negb_true_iff in H.
  assert (existsb (fun c => N.eqb c cNL || N.eqb c cCR) s = true); [|congruence]. apply existsb_exists. exists cNL. split; [exact F|reflexivity].
Qed.
Lemma page_place endl nb is : 0 <= nb -> Forall one_text is -> forall cur pv gs, gaps_at cur gs (place nb cur pv is) ->
  page endl gs (place nb cur pv is) = itext nb pv is.
Proof.
  intros Hnb. induction 1 as [|[k s|x p] is H _ IH]; intros cur pv gs Hg; [destruct gs; reflexivity| |destruct H].
  cbn [place itext] in *. destruct gs as [|g gs]; [destruct Hg|]. cbn [gaps_at page p_at p_text] in *. destruct Hg as (G1 & G2 & G3).
  cbn [one_text] in H. rewrite one_text_endl by exact H.
  assert (Ee : p_end (Pc (shift cur (joins nb pv k)) s k) = shift (shift cur (joins nb pv k)) (zlen s)) by (unfold p_end; cbn [p_at p_text]; now apply one_text_flow).
  rewrite Ee in G3. rewrite (IH _ _ _ G3). unfold shift in G1, G2. cbn [row colm] in G1, G2. rewrite Z.eqb_refl in G2.
  unfold gap_text. replace (fst g) with 0%nat by lia. cbn [repeat_s app]. rewrite G2. f_equal. f_equal. lia.
Qed.

(** ** Files *)
Lemma fitems_tidy b n : tidy b n = true -> forall d, Forall (fun x => tidy b (snd x) = true) (fitems d n).
Proof.
  induction n as [t|k cs IH] using pnode_ind'; intros Ht d; [constructor|].
  assert (Hone : Forall (fun x : nat * pnode => tidy b (snd x) = true) [(d, N k cs)]) by (constructor; [exact Ht|constructor]).
  assert (Hall : forall f, (forall x, exists d, f x = fitems d x) -> Forall (fun x : nat * pnode => tidy b (snd x) = true) (flat_map f cs)).
  { intros f Hf. clear Hone. cbn [tidy] in Ht. apply andb_prop in Ht as [_ Ht]. induction IH as [|x cs Hx _ IH]; [constructor|]. cbn [forallb] in Ht. apply andb_prop in Ht as [T1 T2].
    cbn [flat_map]. apply Forall_app. split; [|auto]. destruct (Hf x) as (d1 & ->). now apply Hx. }
  destruct k; try exact Hone; cbn [fitems].
  - destruct (forallb gone cs); [exact Hone|]. apply Hall. intros x. now exists d.
  - destruct (_ <? 2) eqn:E; [constructor|]. exact Hone.
  - apply Hall. intros [t|k1 c1]; [now exists d|]. destruct k1; try now exists d. now exists (S d).
Qed.
Lemma trim_end_in {A} (f : A -> bool) l x : In x (trim_end f l) -> In x l.
Proof.
  induction l as [|y l IH]; [auto|]. cbn [trim_end]. destruct (trim_end f l) as [|z r] eqn:E.
  - destruct (f y); [intros []|]. intros [->|[]]. now left.
  - intros [->|H]; [now left|right; auto].
Qed.
Lemma Forall2_in {A B} (R S : A -> B -> Prop) l m : (forall x y, In x l -> R x y -> S x y) -> Forall2 R l m -> Forall2 S l m.
Proof.
  intros H HF. induction HF as [|x y l m Hxy _ IH]; constructor; [apply H; [now left|exact Hxy]|]. apply IH. intros; apply H; [now right|assumption].
Qed.

(** C100: a command without comments, whose arguments are on one line each and not
    too many in a group for the limits of the configuration, and which fits into the
    line width from its indentation on, is written on one line: its words separated
    by single blanks, no blank inside the parentheses. *)
Theorem C100_short_commands c specs tbl src text v :
  run_cfg c specs tbl -> p_usetabs c = false -> f_autosort (p_fmt c) = false ->
  f_passes (p_fmt c) = nil -> f_always_wrap (p_fmt c) = nil -> 0 <= f_max_lines (p_fmt c) ->
  process_file c src = Ok (text, v) ->
  forall toks, tokenize src = Ok toks -> no_switch toks = true ->
  exists tree chs, parse (p_ctx c) toks = Ok tree
    /\ Forall2 (short_line (effective c src)) (trim_end blank_item (fitems 0 tree)) chs
    /\ text = bom_text c ++ join (f_endl (effective c src)) chs ++ f_endl (effective c src).
Proof.
  intros R Ht Has Hpa Haw Hml H toks Hl Hno.
  destruct (file_chunks _ _ _ _ _ _ R Ht H toks Hl Hno) as (tree & chs & E & Hti & (Hc & Htab) & HF & Ht2 & ->).
  exists tree, chs. split; [exact E|]. split; [|reflexivity].
  set (e := pipe_env c src toks) in *. change (effective c src) with (cfg e) in *.
  assert (Has' : f_autosort (cfg e) = false) by (unfold e; cbn [pipe_env cfg]; now rewrite eff_sort).
  assert (Hpa' : f_passes (cfg e) = nil) by (unfold e; cbn [pipe_env cfg]; unfold effective; destruct (p_auto c); exact Hpa).
  assert (Haw' : f_always_wrap (cfg e) = nil) by (unfold e; cbn [pipe_env cfg]; unfold effective; destruct (p_auto c); exact Haw).
  assert (Hml' : 0 <= f_max_lines (cfg e)) by (unfold e; cbn [pipe_env cfg]; unfold effective; destruct (p_auto c); exact Hml).
  clearbody e. revert HF. apply Forall2_in. intros [d n] s Hin (G & I & o & Ho & ->). cbn [fst snd] in *.
  assert (Htn : tidy false n = true).
  { apply trim_end_in in Hin. pose proof (fitems_tidy false tree Hti 0%nat) as Hf. rewrite Forall_forall in Hf. exact (Hf _ Hin). }
  unfold short_line. cbn [fst snd]. destruct n as [|k p]; [exact Logic.I|]. destruct k; try exact Logic.I.
  intros Hf Hfit. rewrite Has', lock_off in I, Ho. destruct I as (W1 & W2 & _ & _). cbn [snd] in W1, W2.
  set (n := N (KStatement cmdspec) p) in *. set (rs := roles (create_box n)) in *.
  assert (Htoks : map snd rs = filter nonws (flat n)).
  { unfold rs. rewrite roles_toks. exact (box_tokens false n Htn). }
  split; [exact Htoks|].
  pose proof (box_says false (cfg e) n Htn ltac:(discriminate) KBody KBody ltac:(discriminate)) as Hs. cbn [n] in Hs. fold n in Hs. specialize (Hs W2). fold rs in Hs.
  (* the shape of the statement *)
  assert (Hshape : exists fn lp ag rp, create_box n = B (KStatement cmdspec) p [fn; lp; ag; rp]
     /\ (is_funname_k (bkind fn) = true /\ flatb (cfg e) fn = true) /\ (is_lparen_k (bkind lp) = true /\ flatb (cfg e) lp = true)
     /\ (is_arggroup_k (bkind ag) = true /\ flatb (cfg e) ag = true) /\ (is_rparen_k (bkind rp) = true /\ flatb (cfg e) rp = true)).
  { assert (Hb : exists cs, create_box n = B (KStatement cmdspec) p cs) by (unfold n; cbn [create_box]; eauto). destruct Hb as (cs & Hb).
    rewrite Hb in Hf |- *. cbn [flatb] in Hf. destruct cs as [|fn [|lp [|ag [|rp [|]]]]]; try discriminate. rewrite !andb_true_iff in Hf.
    exists fn, lp, ag, rp. tauto. }
  destruct Hshape as (fn & lp & ag & rp & Hb & (F1 & F2) & (F3 & F4) & (F5 & F6) & (F7 & F8)).
  assert (Hnm : exists t, roles fn = [(KFunname, t)] /\ first_spelling (bpcs fn) = spelling t /\ one_line (spelling t) = true).
  { rewrite Hb in W2. cbn [named is_scalar_k forallb] in W2. rewrite !andb_true_iff in W2. destruct W2 as (_ & N1 & _).
    destruct fn as [k1 p1 c1]. cbn [bkind] in F1. destruct k1; try discriminate. cbn [flatb] in F2. apply andb_prop in F2 as [F2 F2'].
    destruct c1; [|discriminate]. cbn [named is_scalar_k forallb] in N1. rewrite andb_true_r in N1. unfold text_ok in N1.
    destruct p1 as [|[t|] p1]; try discriminate. exists t. split; [reflexivity|]. split; [reflexivity|exact F2']. }
  destruct Hnm as (t & Rn & Rs & R1).
  assert (Hrs : rs = (KFunname, t) :: roles lp ++ roles ag ++ roles rp).
  { unfold rs. rewrite Hb. cbn [roles own_roles own_toks map app flat_map]. rewrite Rn, app_nil_r. reflexivity. }
  assert (HP : Forall plain_role (roles lp ++ roles ag ++ roles rp)).
  { repeat rewrite Forall_app. split; [|split]; eapply flat_roles; eauto.
    all: match goal with |- flatk (bkind ?x) = true => destruct (bkind x); try discriminate; reflexivity | |- bkind ?x <> _ => destruct (bkind x); discriminate end. }
  set (nb := Z.of_nat (blanks_before_paren (cfg e) (spelling t))) in *. assert (Hnb : 0 <= nb) by (unfold nb; lia).
  set (is := items (cfg e) KBody (create_box n)) in *.
  assert (His : exists s0 r0, is = IText (PkWord true) s0 :: IText (PkParen true) $"(" :: r0).
  { rewrite Hb in W2. cbn [named is_scalar_k forallb] in W2. rewrite !andb_true_iff in W2. destruct W2 as (_ & N1 & _).
    destruct (name_flat e (KStatement cmdspec) fn F1 F2 N1) as (s0 & E0).
    assert (E1 : items (cfg e) (KStatement cmdspec) lp = [IText (PkParen true) $"("]) by (destruct lp as [[] ? [|]]; try discriminate; reflexivity).
    unfold is. rewrite Hb. cbn [items own_items flat_map app]. rewrite E0, E1. cbn [app]. eauto. }
  destruct His as (s0 & r0 & His). rewrite Hrs, His in Hs.
  set (rs' := roles lp ++ roles ag ++ roles rp) in *. clearbody rs'.
  assert (Hs0 : lower s0 = lower (spelling t) /\ says false rs' (IText (PkParen true) $"(" :: r0)).
  { inversion Hs; subst; try (match goal with Hk : _ \/ _ |- _ => now (intuition discriminate) end).
    rewrite normalize_one_line in * by assumption. auto. }
  destruct Hs0 as [Hlow Hs1].
  assert (Hs2 : exists t1 r1, rs' = (KLParen, t1) :: r1 /\ says false r1 r0).
  { inversion Hs1; subst; try (match goal with Hk : _ \/ _ |- _ => now (intuition (subst; discriminate)) end).
    match goal with Hk : _ \/ _ |- _ => destruct Hk as [-> | ->] end; [eauto|discriminate]. }
  destruct Hs2 as (t1 & r1 & -> & Hs3). inversion HP as [|? ? _ HP1]; subst.
  destruct (says_plain _ _ _ Hs3 HP1) as [T1 T2]. specialize (T2 nb (PkParen true) ltac:(discriminate)). cbv iota in T2.
  assert (Hot : Forall one_text is).
  { rewrite His. constructor; [cbn [one_text]; now rewrite (lower_one_line _ _ Hlow)|]. constructor; [reflexivity|exact T1]. }
  assert (Hone : lower (itext nb None is) = lower (on_one_line (cfg e) rs)).
  { rewrite His, Hrs. cbn [itext on_one_line role_text fst snd]. fold nb. rewrite !lower_app, T2, Hlow. reflexivity. }
  assert (Hlen : zlen (itext nb None is) = zlen (on_one_line (cfg e) rs)).
  { apply (f_equal zlen) in Hone. unfold lower, zlen in Hone. rewrite !map_length in Hone. exact Hone. }
  assert (Hmain : line_of o = spaces (Z.of_nat d * f_tab (cfg e)) ++ itext nb None is).
  { assert (Hob : exists b x, create_box n = b /\ chunk e v x o /\ x = (d, b)) by (eexists; eexists; split; [reflexivity|]; split; [exact Ho|reflexivity]).
    destruct Hob as (b & xx & Hbb & Ho' & Hxx). clear Ho.
    destruct Ho' as [d0 b0 Hbk|d0 b0 parent path term pass sib cur l o0 q ps gs Hbk Hr Hcol Hp Hat Hgs]; injection Hxx as -> ->;
      [rewrite <- Hbb, Hb in Hbk; discriminate Hbk|].
    cbn [line_of]. f_equal. rewrite <- Hbb, Hb in Hr.
    assert (Hit : forall parent, items (cfg e) parent (create_box n) = is) by (intros; unfold is; now rewrite Hb).
    assert (Hpl : pieces (cfg e) parent l = place nb cur None is).
    { rewrite <- (Hit parent). rewrite Hb. eapply (stmt_flat e nb Hnb Hpa' Haw' Hml' cmdspec p); eauto.
      - now rewrite <- Hb.
      - rewrite <- Hb. rewrite (named_parent e (create_box n) parent KBody) by (rewrite Hb; reflexivity). exact W2.
      - cbn. lia.
      - cbv iota. now rewrite Rs.
      - unfold W. rewrite <- Hb, Hit, Hlen, Hcol. exact Hfit. }
    rewrite Hpl in Hp. rewrite His in Hp |- *. cbn [place] in Hp. change (joins nb None (PkWord true)) with 0 in Hp. rewrite shift_0 in Hp.
    injection Hp as Hq Hps. rewrite His in Hot. inversion Hot as [|? ? O1 O2]. cbn [one_text] in O1. clear H H0 Hat.
    rewrite <- Hq, <- Hps in *. cbn [p_text p_at] in *. rewrite one_text_endl by exact O1. cbn [itext]. change (spaces (joins nb None (PkWord true))) with (@nil chr). cbn [app]. f_equal.
    assert (Ee : p_end (Pc cur s0 (PkWord true)) = shift cur (zlen s0)) by (unfold p_end; cbn [p_at p_text]; now apply one_text_flow).
    rewrite Ee in Hgs. apply (page_place (f_endl (cfg e)) nb _ Hnb O2 _ (Some (PkWord true)) gs). exact Hgs. }
  split; [rewrite Hmain, !lower_app, Hone; reflexivity|].
  exists t, ((KLParen, t1) :: r1), is. split; [exact Hrs|]. split; [rewrite Hrs, His; exact Hs|exact Hmain].
Qed.

(** the commands of a file to which the theorem applies *)
Definition short_cmd (c : fcfg) (x : nat * pnode) : bool :=
  flatb c (create_box (snd x))
  && (Z.of_nat (fst x) * f_tab c + zlen (on_one_line c (roles (create_box (snd x)))) <=? f_linewidth c).
Definition short_file : str := nl
  [$"IF((A AND"; $"  B) OR NOT C)"; $"add_library(foo"; $"  STATIC"; $"  a.c  b.c"; $")";
   $"add_custom_command(OUTPUT"; $" x y COMMAND gen ${a} -o x DEPENDS gen)";
   $"install(targets foo"; $"DESTINATION bin)"; $"endif()"; $"set(x"; $" # why"; $" 1)"].
Example C100_short_commands_ex :
  exists toks tree, tokenize short_file = Ok toks /\ no_switch toks = true
  /\ parse (p_ctx default_pcfg) toks = Ok tree
  /\ map (fun x => (fst x, short_cmd (p_fmt default_pcfg) x)) (trim_end blank_item (fitems 0 tree))
     = [(0, true); (1, true); (1, false); (1, true); (0, true); (0, false)]%nat
  /\ process_file default_pcfg short_file
     = Ok (nl [$"if((A AND B) OR NOT C)"; $"  add_library(foo STATIC a.c b.c)";
               $"  add_custom_command("; $"    OUTPUT x y"; $"    COMMAND gen ${a} -o x"; $"    DEPENDS gen)";
               $"  install(targets foo DESTINATION bin)"; $"endif()"; $"set(x # why"; $"    1)"], true).
Proof.
  eexists. eexists. split; [vm_compute; reflexivity|]. split; [vm_compute; reflexivity|].
  split; [vm_compute; reflexivity|]. split; [vm_compute; reflexivity|]. vm_compute. reflexivity.
Qed.
