(** * IdemCore2: the blocks of a file with comments and of its formatted text are laid out alike *)
From Verif Require Import Base Regex Lex LexProofs LexClass PropLex TextOps TextProofs PropText Tree Parse ParseProofs ParseTerm PropParse PropTerm
  CmdSpec StdSpecs StdDb StdWf PropStd StdShape Layout LayoutProofs Pieces Writing LayKids PropLayout Markup MarkupProofs Pipeline PropCase PropFile PropLintChecks
  ParseShape NamesShape WordShape CommentShape TidyShape Reread CommentFree PropReread ParseBlank ParseSame BodySame OutSame LaySame LayBlock LayBlock2
  Places ParseLines StmtSame IdemCore Places2 ParseLines2.

(** ** Trees that differ in blanks and comments, from the left *)
Definition plaink (k : kind) : bool := match k with KWhitespace | KComment _ => false | _ => true end.
Definition whitewf (n : pnode) : Prop := match n with N KWhitespace cs => forallb is_ws (flats cs) = true | _ => True end.
Section Left2.
  Variable ctx : pctx.
  Lemma plain_white k : plaink k = true -> k <> KWhitespace. Proof. destruct k; discriminate. Qed.
  Lemma cblank_plain k cs : plaink k = true -> ~ cblank (N k cs).
  Proof. intros H [Hb|(k' & cs' & E & _)]; [now apply (blank_node k cs (plain_white _ H))|]. injection E as -> _. discriminate. Qed.
  Lemma csim_nodes k cs a k' ds b : csim ctx (N k cs :: a) (N k' ds :: b) -> plaink k = true -> plaink k' = true -> k' = k /\ csim ctx cs ds /\ csim ctx a b.
  Proof.
    intros H Hk Hk'. inversion H as [|x ? ? Hx|y ? ? Hy| |]; subst; auto.
    - destruct (cblank_plain _ _ Hk Hx).
    - destruct (cblank_plain _ _ Hk' Hy).
  Qed.
  Lemma csim_node_nil k cs a : csim ctx (N k cs :: a) nil -> plaink k = true -> False.
  Proof. intros H Hk. inversion H as [|x ? ? Hx| | |]; subst. destruct (cblank_plain _ _ Hk Hx). Qed.
  Lemma csim_nil_node k cs a : csim ctx nil (N k cs :: a) -> plaink k = true -> False.
  Proof. intros H Hk. inversion H as [| |y ? ? Hy| |]; subst. destruct (cblank_plain _ _ Hk Hy). Qed.
  Lemma blankb_cblank x : blankb x = true -> whitewf x -> cblank x.
  Proof. destruct x as [t|k cs]; cbn [blankb whitewf]; intros H Hw; left; [exact H|]. destruct k; try discriminate. exact Hw. Qed.
  Lemma csim_drop a b : csim ctx a b -> Forall whitewf a -> Forall whitewf b -> csim ctx (dropb a) b /\ csim ctx a (dropb b).
  Proof.
    induction 1 as [|x a b Hx H IH|y a b Hy H IH|t u a b Htu H IH|k cs ds a b Hcs _ H IH]; intros Wa Wb; cbn [dropb].
    - split; apply cs_nil.
    - inversion Wa as [|? ? W1 W2]; subst. destruct (IH W2 Wb) as [I1 I2]. split; [destruct (blankb x); auto; now apply cs_l|now apply cs_l].
    - inversion Wb as [|? ? W1 W2]; subst. destruct (IH Wa W2) as [I1 I2]. split; [now apply cs_r|destruct (blankb y); auto; now apply cs_r].
    - inversion Wa as [|? ? W1 W2]; subst. inversion Wb as [|? ? W3 W4]; subst. destruct (IH W2 W4) as [I1 I2]. cbn [blankb].
      assert (E : is_ws u = is_ws t) by (destruct Htu as (E & _); unfold is_ws; now rewrite E). rewrite E. destruct (is_ws t) eqn:Et.
      + split; [apply cs_r; auto; left; exact E|apply cs_l; auto; left; exact Et].
      + split; now apply cs_t.
    - inversion Wa as [|? ? W1 W2]; subst. inversion Wb as [|? ? W3 W4]; subst. destruct (IH W2 W4) as [I1 I2].
      destruct (white_dec k) as [->|Hk].
      + split; [apply cs_r|apply cs_l]; auto; left; assumption.
      + rewrite !blankb_node by auto. split; now apply cs_n.
  Qed.
  Lemma whitewf_drop a : Forall whitewf a -> Forall whitewf (dropb a).
  Proof. induction 1 as [|x a Hx H IH]; cbn [dropb]; [constructor|]. destruct (blankb x); auto. Qed.
  Lemma csim_drops a b : csim ctx a b -> Forall whitewf a -> Forall whitewf b -> csim ctx (dropb a) (dropb b).
  Proof. intros H Wa Wb. apply csim_drop; auto using whitewf_drop. now apply csim_drop. Qed.
  Lemma semantic_ws t : is_ws t = true -> is_semantic t = false.
  Proof. unfold is_ws, is_semantic. destruct (tt t); try discriminate; reflexivity. Qed.
  Lemma semantic_comment t : is_comment t = true -> is_semantic t = false.
  Proof. unfold is_comment, is_semantic. destruct (tt t); try discriminate; reflexivity. Qed.
  Lemma wsc_sem l : forallb wsc l = true -> semantics l = nil.
  Proof.
    induction l as [|t l IH]; auto. cbn [forallb]. intros H. apply andb_prop in H as [H1 H2]. unfold semantics. cbn [filter]. fold (semantics l). rewrite IH by auto.
    unfold wsc in H1. apply orb_prop in H1 as [H1|H1]; [now rewrite semantic_ws|now rewrite semantic_comment].
  Qed.
  Lemma cblank_sem x : cblank x -> semantics (flat x) = nil.
  Proof.
    intros [Hb|(k & cs & -> & Hw & _)]; [|now apply wsc_sem]. destruct x as [t|k cs]; cbn [blankn flat] in *.
    - unfold semantics. cbn [filter]. now rewrite semantic_ws.
    - destruct k; try contradiction. apply wsc_sem. now apply ws_wsc.
  Qed.
  Lemma csim_sem a b : csim ctx a b -> List.length (semantics (flats a)) = List.length (semantics (flats b)).
  Proof.
    induction 1 as [|x a b Hx _ IH|y a b Hy _ IH|t u a b Htu H IH|k cs ds a b Hcs IHcs H IH]; unfold flats in *; cbn [flat_map]; rewrite ?sem_app, ?app_length in *.
    - reflexivity.
    - now rewrite (cblank_sem _ Hx).
    - now rewrite (cblank_sem _ Hy).
    - rewrite IH. f_equal. cbn [flat]. unfold semantics. cbn [filter]. destruct Htu as (E & _). unfold is_semantic. rewrite E. now destruct (negb _).
    - rewrite IH. f_equal. exact IHcs.
  Qed.
  Lemma quiet_ex l : OutSame.quiet l = true -> existsb is_comment l = false.
  Proof. unfold OutSame.quiet. induction l as [|t l IH]; auto. cbn [forallb existsb]. destruct (is_comment t); [discriminate|]. auto. Qed.
  Lemma csim_quiet a b : csim ctx a b -> OutSame.quiet (flats a) = true -> OutSame.quiet (flats b) = true -> lsim ctx a b.
  Proof.
    assert (G : forall x, cblank x -> OutSame.quiet (flat x) = true -> blankn x).
    { intros x [Hb|(k & cs & -> & _ & He)] Hq; auto. apply quiet_ex in Hq. cbn [flat] in Hq. fold (flats cs) in Hq. congruence. }
    induction 1 as [|x a b Hx _ IH|y a b Hy _ IH|t u a b Htu H IH|k cs ds a b Hcs IHcs H IH]; unfold flats in *; cbn [flat_map]; rewrite ?quiet_app; intros Qa Qb.
    - constructor.
    - apply andb_prop in Qa as [Q1 Q2]. apply ls_l; auto.
    - apply andb_prop in Qb as [Q1 Q2]. apply ls_r; auto.
    - apply andb_prop in Qa as [Q1 Q2]. apply andb_prop in Qb as [Q3 Q4]. apply ls_t; auto.
    - apply andb_prop in Qa as [Q1 Q2]. apply andb_prop in Qb as [Q3 Q4]. apply ls_n; auto.
  Qed.
  Lemma item2_kind tg x z e e1 nx : item2 ctx tg x z e e1 nx -> exists k cs, x = N k cs /\ plaink k = true.
  Proof.
    intros H. inversion H as [? ? ? ? ? (_ & (s & q & ->) & _)|? ? ? ? ? (_ & (q & ->) & _)|]; subst; do 2 eexists; (split; [reflexivity|reflexivity]).
  Qed.
  Lemma item2_solid tg x z e e1 nx : item2 ctx tg x z e e1 nx -> solid z.
  Proof. intros H. inversion H as [? ? ? ? ? (S & _)|? ? ? ? ? (S & _)|]; subst; auto. Qed.
  Definition cwf (n : pnode) : Prop := match n with N (KComment _) _ => cblank n | _ => True end.
  (** a comment on either side can be left out *)
  Lemma csim_note_r l b : csim ctx l b -> forall k ds b', b = N (KComment k) ds :: b' -> Forall cwf l -> csim ctx l b'.
  Proof.
    induction 1 as [|x a b Hx H IH|y a b Hy H IH|t u a b Htu H IH|k0 cs ds a b Hcs _ H IH]; intros k ds' b' E W; try discriminate.
    - apply cs_l; auto. eapply IH; eauto. now inversion W.
    - injection E as -> ->. exact H.
    - injection E as -> -> ->. inversion W as [|? ? W1 W2]; subst. apply cs_l; auto.
  Qed.
  Lemma csim_note_l l b : csim ctx l b -> forall k cs l', l = N (KComment k) cs :: l' -> Forall cwf b -> csim ctx l' b.
  Proof.
    induction 1 as [|x a b Hx H IH|y a b Hy H IH|t u a b Htu H IH|k0 cs ds a b Hcs _ H IH]; intros k cs' l' E W; try discriminate.
    - injection E as -> ->. exact H.
    - apply cs_r; auto. eapply IH; eauto. now inversion W.
    - injection E as -> -> ->. inversion W as [|? ? W1 W2]; subst. apply cs_r; auto.
  Qed.
  Lemma csim_notes k cs l k' ds b : csim ctx (N (KComment k) cs :: l) (N (KComment k') ds :: b) -> cblank (N (KComment k) cs) -> Forall cwf l -> Forall cwf b -> csim ctx l b.
  Proof. intros H H1 W W'. eapply csim_note_r in H; [|reflexivity|constructor; auto]. eapply csim_note_l; eauto. Qed.
  Lemma note_cblank tg x z e e1 nx : note tg x z e e1 nx -> cblank x.
  Proof.
    intros (t & z' & ts & -> & -> & Hn & Hw & Ht & _). right. exists false, (map T ts). rewrite flats_T. repeat split; auto.
    assert (Hin : In t ts) by (apply (proj1 (filter_In ParseBlank.nonws t ts)); change (In t (ParseBlank.nows ts)); rewrite Hn; now left).
    apply existsb_exists. exists t. split; auto. now apply tt_comment.
  Qed.
  Lemma body2_cwf tg w cs z e e1 nx : body2 ctx tg w cs z e e1 nx -> Forall cwf cs.
  Proof.
    intros H. revert w cs z e e1 nx H. apply (body2_mut ctx tg (fun _ _ _ _ _ => True) (fun _ _ _ _ _ => True) (fun _ cs _ _ _ _ => Forall cwf cs)); auto.
    - intros ws cs z e e1 nx Hw _ IH. constructor; auto. exact I.
    - intros w x cs z z' e e1 e2 nx Hi _ _ IH. constructor; auto. apply item2_kind in Hi as (k & q & -> & Hk). destruct k; try discriminate; exact I.
    - intros w x cs z z' e e1 e2 nx Hn _ IH. constructor; auto. pose proof (note_cblank _ _ _ _ _ _ Hn). destruct Hn as (t & z0 & ts & _ & -> & _). auto.
    - intros w t cs z e e1 e2 nx Ht _ IH. constructor; auto. right. do 2 eexists. split; [reflexivity|]. cbn. unfold wsc, is_tt, is_ws, is_comment in *. destruct (tt t); try discriminate; auto.
  Qed.
  Lemma body2_nonblank tg cs z e e1 nx : body2 ctx tg false cs z e e1 nx -> dropb cs = cs.
  Proof.
    intros H. inversion H as [| |? ? ? ? ? ? ? ? ? Hi|? ? ? ? ? ? ? ? ? Hn|]; subst; auto.
    - apply item2_kind in Hi as (k & q & -> & Hk). cbn [dropb]. rewrite blankb_node; auto. now apply plain_white.
    - destruct Hn as (t & z' & ts & _ & -> & _). reflexivity.
  Qed.
  Lemma body2_drop tg w cs z e e1 nx : body2 ctx tg w cs z e e1 nx ->
    exists ws, blanks ws /\ kids cs = (if nlcs ws <? 2 then nil else [B KWhitespace (map T ws) nil]) ++ kids (dropb cs)
    /\ body2 ctx tg false (dropb cs) z (e + nlcs ws) e1 nx.
  Proof.
    intros H. assert (G : body2 ctx tg false cs z e e1 nx -> exists ws, blanks ws /\ kids cs = (if nlcs ws <? 2 then nil else [B KWhitespace (map T ws) nil]) ++ kids (dropb cs)
      /\ body2 ctx tg false (dropb cs) z (e + nlcs ws) e1 nx).
    { intros Hb. rewrite (body2_nonblank _ _ _ _ _ _ Hb). exists nil. split; [reflexivity|]. cbn [nlcs]. rewrite Z.add_0_r. auto. }
    inversion H as [|ws r ? ? ? ? Hw Hr| | |]; subst.
    - apply G. apply b2_nil.
    - exists ws. split; [exact Hw|]. cbn [dropb blankb]. rewrite (body2_nonblank _ _ _ _ _ _ Hr). split; [|exact Hr].
      change (N KWhitespace (map T ws) :: r) with ([N KWhitespace (map T ws)] ++ r). rewrite kids_app. f_equal. unfold kids. cbn [flat_map].
      assert (E : node_newlines (N KWhitespace (map T ws)) = nlcs ws).
      { rewrite newlines_text. cbn [flat]. clear. induction ws as [|t ws IH]; [reflexivity|]. cbn [map flat_map flat nlcs]. rewrite map_app, concat_app, count_chr_app.
        cbn [map concat]. rewrite app_nil_r. unfold nlc. f_equal. exact IH. }
      rewrite E. destruct (nlcs ws <? 2); [reflexivity|]. rewrite create_eq. rewrite app_nil_r. f_equal. f_equal. apply kids_isT. clear. induction ws; constructor; cbn; auto.
    - apply G. eapply b2_item; eauto.
    - apply G. eapply b2_note; eauto.
    - apply G. eapply b2_brk; eauto.
  Qed.
End Left2.

Definition noteb (b : box) : bool := match bkind b with KComment _ => true | _ => false end.
(** no comment follows another one directly *)
Fixpoint notwin (l : list box) : bool :=
  match l with a :: r => negb (noteb a && match r with b :: _ => noteb b | nil => false end) && notwin r | nil => true end.
Lemma notwin_app a b : notwin (a ++ b) = true -> notwin b = true.
Proof. induction a as [|x a IH]; auto. cbn [app notwin]. intros H. apply andb_prop in H as [_ H]. auto. Qed.
Definition hdp (r : Z) (ps : list piece) : Prop := match ps with nil => True | p :: _ => r < row (p_at p) /\ pcomment p = false end.
Definition hdt (ts : list token) : Prop := match ts with nil => True | t :: _ => is_comment t = false end.

(** ** The lines of a comment *)
Lemma F2_len {A D} (R : A -> D -> Prop) a b : Forall2 R a b -> List.length a = List.length b.
Proof. induction 1; cbn; auto. Qed.
Lemma last_change {A} (l : list A) x d d' : last (x :: l) d = last (x :: l) d'.
Proof. revert x. induction l as [|y l IH]; intros x; [reflexivity|]. change (last (y :: l) d = last (y :: l) d'). apply IH. Qed.
Lemma note_match La : forall s cur t z' R M,
  Forall2 stood (line_pieces cur (s :: La) ++ R) ((t :: z') ++ M) -> is_tt COMMENT t = true -> column t z' ->
  (forall u, hd_error M = Some u -> is_tt COMMENT u = true -> line (begin u) <= line (begin (last (t :: z') t)) + 1 -> col (begin u) <> col (begin (last (t :: z') t))) ->
  match R with nil => True | p :: _ => pcomment p = true -> row cur + zlen (s :: La) < row (p_at p) end ->
  map spelling (t :: z') = s :: La /\ line (begin t) = row cur + 1 /\ line (begin (last (t :: z') t)) = row cur + zlen (s :: La).
Proof.
  induction La as [|s2 La IH]; intros s cur t z' R M H Ht Hc Ha HR; cbn [line_pieces app] in H; inversion H as [|? ? ? ? (S1 & S2 & S3 & S4 & S5) H']; subst; cbn [p_text p_at p_kind] in *.
  - destruct z' as [|t2 z'].
    + cbn [map last]. rewrite S1, S2. repeat split. 
    + exfalso. cbn [app] in H'. cbn [column] in Hc. destruct Hc as (C1 & C2 & _). destruct R as [|p R]; inversion H' as [|? ? ? ? (T1 & T2 & T3 & T4 & T5) _]; subst.
      assert (Hp : pcomment p = true) by (rewrite <- T4; now apply tt_comment). specialize (HR Hp). rewrite zlen_cons in HR. change (zlen nil) with 0 in HR. lia.
  - destruct z' as [|t2 z'].
    + exfalso. cbn [app] in H'. cbn [last] in Ha. destruct M as [|u M]; inversion H' as [|? ? ? ? (T1 & T2 & T3 & T4 & T5) _]; subst. cbn [p_text p_at p_kind row colm] in *.
      apply (Ha u eq_refl); [exact T5| |]; [rewrite S2; cbn [row] in *; lia|congruence].
    + cbn [column] in Hc. destruct Hc as (C1 & C2 & C3).
      assert (El : forall d, last (t :: t2 :: z') d = last (t2 :: z') d) by reflexivity. rewrite El in Ha |- *. rewrite (last_change z' t2 t t2) in Ha |- *.
      assert (Hz : zlen (s :: s2 :: La) = 1 + zlen (s2 :: La)) by (rewrite (zlen_cons s); lia).
      destruct (IH s2 (Cur (row cur + 1) (colm cur)) t2 z' R M H' C1 C3 Ha) as (A1 & A2 & A3).
      { destruct R as [|p R]; auto. intros Hp. specialize (HR Hp). cbn [row]. lia. }
      cbn [row] in A3. change (map spelling (t :: t2 :: z')) with (spelling t :: map spelling (t2 :: z')). rewrite A1, S1, S2. repeat split. lia.
Qed.

Section Core2.
  Variable ctx : pctx.
  Variable e : env.
  Variable strict : bool.
  Hypothesis Htab : 0 <= f_tab (cfg e).
  Variable ct : fcfg.
  Hypothesis Hover : overrides (cfg e) ct.
  Hypothesis Hplain : plain_passes2 (cfg e).
  Variables e1 e2 : env.
  Local Notation c := (cfg e).
  Local Notation same := (dsame2 ct e1 e2).

  (** ** Nodes as the parser makes them of files without switches *)
  Definition fit2 (parent : kind) (n : pnode) : Prop :=
    tidy strict n = true /\ wfb (create_box n) = true /\ calm2 (flat n) = true /\ names_ok c parent (create_box n) = true.
  Definition lfit2 (k : kind) (cs : list pnode) : Prop :=
    forallb (tidy strict) cs = true /\ forallb wfb (kids cs) = true /\ calm2 (flats cs) = true /\ forallb (names_ok c k) (kids cs) = true.
  Lemma fit2_fit parent n : fit2 parent n -> quiet_node n = true -> fit e strict parent n.
  Proof. intros (A & D & E & F) Hq. repeat split; auto. now apply calm_calm2. Qed.
  Lemma fit2_kids parent k cs : fit2 parent (N k cs) -> lfit2 k cs.
  Proof.
    intros (A & D & E & F). rewrite create_eq in *. cbn [tidy names_ok flat] in *. apply andb_prop in A as [_ A]. apply andb_prop in F as [_ F].
    apply wfb_kids in D. repeat split; auto.
  Qed.
  Lemma lfit2_cons k k' x cs : lfit2 k (N k' x :: cs) -> k' <> KWhitespace -> fit2 k (N k' x) /\ lfit2 k cs /\ kids (N k' x :: cs) = create_box (N k' x) :: kids cs.
  Proof.
    intros (A & D & E & F) Hk. rewrite white_kid in D, F by auto. cbn [forallb] in *. unfold flats in E. cbn [flat_map] in E. rewrite calm2_app in E.
    apply andb_prop in A as [A1 A]. apply andb_prop in D as [D1 D]. apply andb_prop in E as [E1 E]. apply andb_prop in F as [F1 F].
    rewrite white_kid by auto. repeat split; auto.
  Qed.
  Lemma lfit2_drop k cs : lfit2 k cs -> lfit2 k (dropb cs).
  Proof.
    induction cs as [|x cs IH]; auto. intros H. cbn [dropb]. destruct (blankb x) eqn:Ex; auto. apply IH. destruct H as (A & D & E & F).
    cbn [forallb] in A. apply andb_prop in A as [_ A]. unfold flats in E. cbn [flat_map] in E. rewrite calm2_app in E. apply andb_prop in E as [_ E].
    change (x :: cs) with ([x] ++ cs) in D, F. rewrite kids_app, forallb_app in D, F. apply andb_prop in D as [_ D]. apply andb_prop in F as [_ F]. repeat split; auto.
  Qed.
  Lemma lfit2_white k cs : lfit2 k cs -> Forall whitewf cs.
  Proof.
    intros (A & _). apply Forall_forall. intros n Hin. rewrite forallb_forall in A. apply A in Hin. destruct n as [t|k' q]; [exact I|]. destruct k'; try exact I. cbn [whitewf].
    cbn [tidy tidy_k] in Hin. apply andb_prop in Hin as [Hin _]. apply andb_prop in Hin as [H1 H2]. clear -H1 H2. induction q as [|[t|k q'] l IH]; auto; cbn [forallb onlyT wsT] in *; [|discriminate].
    apply andb_prop in H2 as [H2 H3]. unfold flats in *. cbn [flat_map flat app forallb]. now rewrite H2, IH.
  Qed.

  (** ** The texts of a statement without comments *)
  Definition iplain (i : item) : Prop := match i with IText PkLine _ | IText PkBracket _ | IComment _ _ => False | _ => True end.
  Lemma mute_plain b : mute b = true -> forall parent, Forall iplain (items c parent b).
  Proof.
    induction b as [k p cs IH] using box_ind'. intros Hm parent. cbn [items mute] in *. apply andb_prop in Hm as [Hm1 Hm]. apply Forall_app. split.
    - destruct k; cbn [own_items]; try discriminate Hm1;
      repeat match goal with |- context [match ?z with _ => _ end] => destruct z end; repeat constructor.
    - apply Forall_flat_map. rewrite forallb_forall in Hm. rewrite Forall_forall in IH. apply Forall_forall. intros b Hb. apply IH; auto.
  Qed.
  Lemma realizes_plain its ps : realizes e its ps -> Forall iplain its -> Forall (fun p => pcomment p = false) ps.
  Proof.
    induction 1 as [|k s its p ps Ht Hk H IH|]; intros Hn; inversion Hn as [|? ? K1 K2]; subst; [constructor| |destruct K1].
    constructor; auto. unfold pcomment. cbn in K1. destruct (p_kind p); auto; contradiction.
  Qed.
  Lemma stmt_plain parent k cs sib path term cur passno l o : fit e strict parent (N k cs) -> reflow e (create_box (N k cs)) sib path term cur passno = Ok (l, o) ->
    Forall (fun p => pcomment p = false) (pieces c parent l).
  Proof.
    intros Hf H. pose proof (fit_mute _ _ _ _ _ Hf) as Hm. pose proof Hf as (A & D & E & F).
    destruct (reflow_lok e _ Htab D _ _ _ _ _ _ _ H) as [_ L]. eapply realizes_plain; [apply (proj1 (lok_realizes e) _ _ _ L parent D)|now apply mute_plain].
  Qed.
  Definition nextok (r : Z) (ps : list piece) : Prop :=
    match ps with nil => True | p :: _ => r < row (p_at p) /\ (pcomment p = true -> explicit ctx (p_text p) = false) end.

  (** the token after which a comment would belong to the statement *)
  Lemma fine_sem l : forallb fine l = true -> existsb is_comment l = false -> semantics l = l.
  Proof.
    induction l as [|t l IH]; auto. cbn [forallb existsb]. intros H1 H2. apply andb_prop in H1 as [H1 H3]. apply orb_false_elim in H2 as [H2 H4].
    unfold fine in H1. rewrite H2, orb_false_r in H1. unfold semantics in *. cbn [filter]. rewrite H1. f_equal. auto.
  Qed.
  Lemma first_comment l : existsb is_comment l = true -> exists a t b, l = a ++ t :: b /\ is_comment t = true /\ existsb is_comment a = false.
  Proof.
    induction l as [|t l IH]; [discriminate|]. cbn [existsb]. destruct (is_comment t) eqn:Et; [exists nil, t, l; auto|]. intros H. destruct (IH H) as (a & u & b & -> & Hu & Ha).
    exists (t :: a), u, b. repeat split; auto. cbn [existsb]. now rewrite Et.
  Qed.
  Lemma stood_plain ps ts : Forall2 stood ps ts -> forall qs, (exists rs, ps = qs ++ rs) -> Forall (fun p => pcomment p = false) qs ->
    forall a t b, ts = a ++ t :: b -> is_comment t = true -> (List.length qs <= List.length a)%nat.
  Proof.
    induction 1 as [|p t ps ts Hpt H IH]; intros qs (rs & E) Hq a u b Ea Hu.
    - destruct a; discriminate.
    - destruct qs as [|q qs]; [cbn; lia|]. cbn [app] in E. injection E as <- ->. inversion Hq as [|? ? Hq1 Hq2]; subst. destruct a as [|v a]; cbn [app] in Ea; injection Ea as -> ->.
      + destruct Hpt as (_ & _ & _ & Hc & _). congruence.
      + cbn [List.length]. apply le_n_S. eapply IH; eauto.
  Qed.
  Lemma not_noisy x z ps r rest more : Forall2 stood (ps ++ rest) (z ++ more) -> Forall (fun p => pcomment p = false) ps -> noisy ctx x z ->
    List.length (semantics z) = List.length ps -> (exists p0 pl, ps = p0 ++ [pl] /\ row (p_at pl) = r) -> nextok r rest -> False.
  Proof.
    intros H Hp (Hf & _ & _ & u & rp & v & -> & Hr1 & Hr2 & Hor) Hlen (p0 & pl & -> & Hrow) Hn.
    rewrite sem_app, app_length in Hlen. unfold semantics in Hlen at 2. cbn [filter] in Hlen. rewrite Hr2 in Hlen. cbn [List.length] in Hlen. fold (semantics v) in Hlen.
    rewrite forallb_app in Hf. apply andb_prop in Hf as [Hf1 Hf2].
    destruct (existsb is_comment u) eqn:Eu.
    - apply first_comment in Eu as (a & t & b & -> & Ht & Ha). rewrite sem_app, app_length in Hlen. rewrite forallb_app in Hf1. apply andb_prop in Hf1 as [Hf1 _]. rewrite (fine_sem a) in Hlen by auto.
      assert (X : (List.length (p0 ++ [pl]) <= List.length a)%nat).
      { eapply (stood_plain _ _ H); eauto. rewrite <- !app_assoc. cbn [app]. reflexivity. }
      rewrite app_length in *. cbn [List.length] in *. lia.
    - destruct Hor as [Hor|(t & v' & -> & Ht & Hor)]; [discriminate|]. rewrite (fine_sem u) in Hlen by auto.
      assert (X : (List.length (p0 ++ [pl]) <= List.length (u ++ [rp]))%nat).
      { eapply (stood_plain _ _ H) with (t := t) (b := v' ++ more); eauto. rewrite <- !app_assoc. cbn [app]. reflexivity. }
      rewrite !app_length in *. cbn [List.length] in *.
      assert (Hl : List.length p0 = List.length u) by lia.
      replace ((u ++ rp :: t :: v') ++ more) with (u ++ rp :: t :: v' ++ more) in H by (rewrite <- app_assoc; reflexivity).
      rewrite <- app_assoc in H. cbn [app] in H. apply Forall2_split in H as [_ H]; auto.
      inversion H as [|? ? ? ? (_ & R1 & _) H2]; subst. destruct rest as [|p rest]; inversion H2 as [|? ? ? ? (T1 & T2 & _ & T4 & _) _]; subst.
      destruct Hn as [N1 N2]. destruct Hor as [Hor|[_ Hor]]; [lia|]. rewrite T1, N2 in Hor; [discriminate|congruence].
  Qed.
  Lemma dsame_one d k b b' : dsame ct k b b' -> (match bkind b with KStatement _ | KAtStmt => true | _ => false end) = true -> same d k b b'.
  Proof. intros H Hk. inversion H; subst; try discriminate. now apply d2_one. Qed.
  Lemma sem_len n : quiet_node n = true -> calm2 (flat n) = true -> List.length (semantics (flat n)) = List.length (filter ParseBlank.nonws (flat n)).
  Proof. intros Hq Hc. rewrite quiet_sem; auto. now apply calm2_onoff. Qed.
  Lemma stand_all ps ts : Forall2 stood ps ts -> Forall2 stands ps ts.
  Proof. induction 1; constructor; auto. now apply stood_stands. Qed.
  Definition firstp (ps : list piece) (cur : cursor) : Prop := exists p r, ps = p :: r /\ pcomment p = false /\ p_at p = cur.
  (** a statement or [@VAR@] of the source *)
  Lemma one_first x z d d1 parent sib path term cur passno l o : stm ctx x z d d1 \/ atw ctx x z d d1 -> quiet_node x = true -> fit2 parent x ->
    reflow e (create_box x) sib path term cur passno = Ok (l, o) ->
    exists k cs, x = N k cs /\ (match k with KStatement _ | KAtStmt => true | _ => false end) = true
    /\ firstp (pieces c parent l) cur /\ (exists p0 pl, pieces c parent l = p0 ++ [pl] /\ row (p_at pl) = row o)
    /\ Forall (fun p => pcomment p = false) (pieces c parent l)
    /\ List.length (pieces c parent l) = List.length (semantics (flat x)).
  Proof.
    intros Hx Hq Hf H. pose proof (fit2_fit _ _ Hf Hq) as F. pose proof Hf as (_ & W1 & Hc2 & N1).
    assert (Hxx : (exists s cs, x = N (KStatement s) cs /\ stmt_at x d d1) \/ (exists cs, x = N KAtStmt cs /\ atword_at x d)).
    { destruct Hx as [(_ & (s & cs & E) & [(A & _)|(_ & _ & Q & _)])|(_ & (cs & E) & [(A & _)|(_ & _ & Q & _)])]; try congruence; [left|right]; eauto. }
    assert (Hlen : List.length (pieces c parent l) = List.length (semantics (flat x))).
    { rewrite sem_len by auto. destruct Hxx as [(s & cs & -> & _)|(cs & -> & _)]; exact (layout_len ctx e strict Htab _ _ _ _ _ _ _ _ _ _ F H). }
    assert (Hpl : Forall (fun p => pcomment p = false) (pieces c parent l)) by (destruct Hxx as [(s & cs & -> & _)|(cs & -> & _)]; eapply stmt_plain; eauto).
    assert (Hfr : forall p r, pieces c parent l = p :: r -> pcomment p = false) by (intros p r E; rewrite E in Hpl; now inversion Hpl).
    destruct Hxx as [(s & cs & Ex & S1)|(cs & Ex & S1)]; rewrite Ex; do 2 eexists; (split; [reflexivity|]); (split; [reflexivity|]); rewrite <- Ex.
    - destruct S1 as (s1 & fn1 & u1 & lp1 & u2 & k1 & a1 & u3 & rp1 & E1 & _ & _ & _ & Hk1 & _).
      pose proof (stmt_kids fn1 u1 lp1 u2 k1 a1 u3 rp1 Hk1) as K1. cbn [app] in *. rewrite E1, create_eq, K1 in H, W1, N1.
      pose proof (stmt_rows e Htab _ _ _ _ _ _ _ _ _ _ _ _ _ _ W1 N1 eq_refl H) as (pf & mid & pl & Ep & Ep1 & Ep2).
      split; [exists pf; eexists; split; [exact Ep|eauto]|]. split; [exists (pf :: mid), pl; split; [rewrite Ep; reflexivity|auto]|]. auto.
    - destruct S1 as (t1 & E1 & _). rewrite E1, create_eq in H, W1.
      assert (G : exists p, pieces c parent l = [p] /\ p_at p = cur /\ row o = row cur).
      { rewrite reflow_eq in H. change (exists p, pieces c parent (fst (l, o)) = [p] /\ p_at p = cur /\ row (snd (l, o)) = row cur).
        revert H. apply (try_passes_inv (fun y => exists p, pieces c parent (fst y) = [p] /\ p_at p = cur /\ row (snd y) = row cur)); [|discriminate].
        intros pass w [l1 o1] H. unfold try_pass, reflow_once in H. cbn [bkind] in H. unfold reflow_atstmt in H.
        apply bindr_ok in H as (a & E & H). injection H as <- <-. cbn [fst snd]. change (kids [N KAtWord [T t1]]) with [B KAtWord [T t1] nil] in *. cbn [children_of Layout.ckind fst bkind is_atword_k negb snd] in E. apply bindr_ok in E as ([la c1] & E2 & E). injection E as <-.
        cbn [a_cs a_out]. assert (W2 : wfb (B KAtWord [T t1] nil) = true) by (apply wfb_kids in W1; cbn [forallb] in W1; now apply andb_prop in W1).
        destruct (leaf_pieces e Htab KAtStmt KAtWord _ _ _ _ _ _ _ _ eq_refl W2 E2) as (lin & P1 & _ & Ho). cbn [pieces bkind bpcs own_pieces app flat_map]. rewrite P1, app_nil_r.
        cbn [own_pieces scalar_text]. eexists. split; [reflexivity|]. split; [reflexivity|]. now apply Ho. }
      destruct G as (p & Ep & Ea & Eo). split; [exists p, nil; eauto|]. split; [exists nil, p; split; [exact Ep|congruence]|]. auto.
  Qed.
  Lemma stmt2_core x1 z1 a a1 x2 z2 f f1 dp parent sib path term cur passno l o rest more :
    (stm ctx x1 z1 a a1 /\ stm ctx x2 z2 f f1 \/ atw ctx x1 z1 a a1 /\ atw ctx x2 z2 f f1) -> quiet_node x1 = true -> ncsim ctx x1 x2 -> fit2 parent x1 -> fit2 parent x2 ->
    reflow e (create_box x1) sib path term cur passno = Ok (l, o) -> Forall2 stood (pieces c parent l ++ rest) (z2 ++ more) -> nextok (row o) rest ->
    List.length (pieces c parent l) = List.length z2 /\ same dp parent (create_box x1) (create_box x2) /\ f = row cur + 1 /\ f1 = row o + 1.
  Proof.
    intros Hx Hq Hs F1 F2 H Hst Hn. assert (Hx1 : stm ctx x1 z1 a a1 \/ atw ctx x1 z1 a a1) by tauto.
    destruct (one_first _ _ _ _ _ _ _ _ _ _ _ _ Hx1 Hq F1 H) as (k & cs & Ek & Hk & _ & Hl & Hp & Hlen).
    destruct Hs as (k' & q1 & q2 & E1 & E2 & Hs). rewrite E1 in Ek. injection Ek as <- <-. pose proof (csim_sem _ _ _ Hs) as Hse.
    assert (Hno : noisy ctx x2 z2 -> False).
    { intros Hz. pose proof Hz as (_ & Hz2 & _). eapply not_noisy; eauto. rewrite Hz2, Hlen, E1, E2. cbn [flat]. fold (flats q1) (flats q2). auto. }
    assert (Hyes : quiet_node x2 = true -> z2 = ParseBlank.nows (flat x2) ->
      (Forall2 stands (pieces c parent l) (filter nonws (flat x2)) -> nsim ctx x1 x2 -> fit e strict parent x1 -> fit e strict parent x2 -> dsame ct parent (create_box x1) (create_box x2) /\ f = row cur + 1 /\ f1 = row o + 1) ->
      List.length (pieces c parent l) = List.length z2 /\ same dp parent (create_box x1) (create_box x2) /\ f = row cur + 1 /\ f1 = row o + 1).
    { intros Q2 Ez G. pose proof F2 as (_ & _ & C2 & _).
      assert (L : List.length (pieces c parent l) = List.length z2).
      { rewrite Hlen, Ez. change (ParseBlank.nows (flat x2)) with (filter ParseBlank.nonws (flat x2)). rewrite <- sem_len by auto. rewrite E1, E2. exact Hse. }
      split; [exact L|]. apply Forall2_split in Hst as [Hst _]; auto. rewrite Ez in Hst. destruct G as (G1 & G2 & G3).
      - now apply stand_all.
      - exists k', q1, q2. split; auto. split; auto. rewrite E1 in Hq. rewrite E2 in Q2. apply csim_quiet; auto.
      - now apply fit2_fit.
      - now apply fit2_fit.
      - split; [|auto]. apply dsame_one; auto. rewrite E1. exact Hk. }
    destruct Hx as [[Hx1' (_ & _ & [(A2 & Ez & Q2)|Hz])]|[Hx1' (_ & _ & [(A2 & Ez1 & Ez & Q2)|Hz])]]; try (exfalso; now apply Hno); apply Hyes; auto; intros St Ns Ft1 Ft2.
    - destruct Hx1' as (_ & _ & [(A1 & _ & _)|(_ & _ & Q & _)]); [|congruence]. eapply (stmt_core ctx e strict Htab ct Hover); eauto.
    - destruct Hx1' as (_ & _ & [(A1 & _ & _)|(_ & _ & Q & _)]); [|congruence]. subst f1. eapply (atword_core ctx e strict Htab ct Hover); eauto.
  Qed.

  (** ** Comments on lines of their own *)
  Definition deptha (d : nat) : Z := Z.of_nat d * f_tab c.
  (** the lines written for a comment, [d] blocks deep, are laid out like the comment *)
  Definition still (d : nat) (pcs : list pnode) : Prop :=
    forall La, cmt e false pcs (f_linewidth c - deptha d) = Ok La ->
    (forall s, In s La -> explicit ctx s = false)
    /\ forall ts, forallb wsc ts = true -> Forall (fun t => is_tt COMMENT t = true) (ParseBlank.nows ts) -> map spelling (ParseBlank.nows ts) = La -> hd_error ts = hd_error (ParseBlank.nows ts) ->
       cmt e2 false (map T ts) (f_linewidth ct - depth ct d) = cmt e1 false pcs (f_linewidth ct - depth ct d).
  Definition bodyd (d : nat) (x : pnode) : nat := match x with N KBody _ => S d | _ => d end.
  Fixpoint own (d : nat) (n : pnode) : Prop :=
    match n with
    | T _ => True
    | N k cs =>
      match k with
      | KStatement _ | KAtStmt => quiet_node (N k cs) = true
      | KComment _ => is_bracket cs = false /\ still d cs
      | KFlow => fold_right (fun x P => own (bodyd d x) x /\ P) True cs
      | KBody => notwin (kids cs) = true /\ fold_right (fun x P => own d x /\ P) True cs
      | _ => True
      end
    end.
  Definition owns (d : nat) (cs : list pnode) : Prop := fold_right (fun x P => own d x /\ P) True cs.
  Definition ownf (d : nat) (cs : list pnode) : Prop := fold_right (fun x P => own (bodyd d x) x /\ P) True cs.
  Definition ownb (d : nat) (cs : list pnode) : Prop := notwin (kids cs) = true /\ owns d cs.
  Lemma owns_drop d cs : owns d cs -> owns d (dropb cs).
  Proof. induction cs as [|x cs IH]; auto. cbn [owns fold_right dropb]. intros [H1 H2]. destruct (blankb x); [now apply IH|now split]. Qed.
  Lemma quiet_own d x z a a1 : stm ctx x z a a1 \/ atw ctx x z a a1 -> own d x -> quiet_node x = true.
  Proof. intros [(_ & (s & cs & ->) & _)|(_ & (cs & ->) & _)] H; exact H. Qed.

  Lemma flow_split path cs sib cur l o : reflow e (create_box (N KFlow cs)) sib path false cur 0 = Ok (l, o) ->
    exists path' ls v x, flow_children (f_tab c) path' 0 (children_of e (kids cs) 0) true cur cur true 0 = Ok (ls, o, v, x) /\ forall parent, pieces c parent l = flat_map (pieces c KFlow) ls.
  Proof.
    intros H. pose proof (proj1 Hplain) as Hp1. rewrite create_eq, (reflow_flat c) in H by (auto; exact I). cbn [Z.gtb Z.compare] in H. unfold try_pass, reflow_once in H. cbn [bkind] in H.
    apply bindr_ok in H as (at1 & E & H). injection H as <- <-. unfold reflow_flow in E. exists (push_path path (B KFlow cs (kids cs)) sib).
    assert (G : exists ls v x, flow_children (f_tab c) (push_path path (B KFlow cs (kids cs)) sib) 0 (children_of e (kids cs) 0) true cur cur true 0 = Ok (ls, a_out at1, v, x) /\ a_cs at1 = ls).
    { revert E. set (q := children_of e (kids cs) 0). destruct q as [|c1 q]; [|destruct q as [|c2 q]]; intros E.
      - apply bindr_ok in E as ([[[ls o1] v1] x1] & E & H). injection H as <-. eauto.
      - apply bindr_ok in E as (z & _ & H). discriminate.
      - apply bindr_ok in E as ([[[ls o1] v1] x1] & E & H). injection H as <-. eauto 6. }
    destruct G as (ls & v & x & G & Els). exists ls, v, x. split; [exact G|]. intros parent. cbn [pieces bkind own_pieces app]. now rewrite Els.
  Qed.
  Lemma body_split path cs sib cur l o : reflow e (create_box (N KBody cs)) sib path false cur 0 = Ok (l, o) ->
    exists path' ls v x, body_children path' 0 (children_of e (kids cs) 0) cur cur true 0 = Ok (ls, o, v, x) /\ forall parent, pieces c parent l = flat_map (pieces c KBody) ls.
  Proof.
    intros H. pose proof (proj1 Hplain) as Hp1. rewrite create_eq, (reflow_flat c) in H by (auto; exact I). cbn [Z.gtb Z.compare] in H. unfold try_pass, reflow_once in H. cbn [bkind] in H.
    apply bindr_ok in H as (at1 & Ea & H). injection H as <- <-. unfold reflow_body in Ea. apply bindr_ok in Ea as ([[[lsb ob] vb] xb] & Ec & Ea). injection Ea as <-.
    exists (push_path path (B KBody cs (kids cs)) sib), lsb, vb, xb. split; [exact Ec|]. intros parent. reflexivity.
  Qed.
  Lemma note_split ts sib path cur l o : is_bracket (map T ts) = false -> reflow e (B (KComment false) (map T ts) nil) sib path false cur 0 = Ok (l, o) ->
    exists s La, cmt e false (map T ts) (f_linewidth c - colm cur) = Ok (s :: La) /\ (forall parent, pieces c parent l = line_pieces cur (s :: La)) /\ row o = row cur + zlen (s :: La) - 1.
  Proof.
    intros Hb H. rewrite (reflow_note c Hplain) in H by auto. destruct (0 >? _); [discriminate|]. unfold try_pass, reflow_once in H. cbn [bkind bpcs] in H. unfold reflow_comment in H. rewrite Hb in H.
    apply bindr_ok in H as (at1 & Ea & H). apply bindr_ok in Ea as (La & Ec & Ea). destruct La as [|s La]; [discriminate|]. injection Ea as <-. injection H as <- <-.
    exists s, La. split; [exact Ec|]. split; [|reflexivity]. intros parent. cbn [pieces own_pieces a_lines a_cs flat_map]. now rewrite Hb, app_nil_r.
  Qed.
  Lemma note_box ts : create_box (N (KComment false) (map T ts)) = B (KComment false) (map T ts) nil.
  Proof. rewrite create_eq. f_equal. apply kids_isT. induction ts; constructor; cbn; auto. Qed.

  (** the first text of a block and of a statement *)
  Lemma flow_first cs z a a1 nx tg d path n colc cur v x ls o v' x' : flow2 ctx tg cs z a a1 nx -> ownf d cs -> lfit2 KFlow cs ->
    flow_children (f_tab c) path 0 (children_of e (kids cs) n) true colc cur v x = Ok (ls, o, v', x') ->
    firstp (flat_map (pieces c KFlow) ls) colc /\ exists y k r, cs = N (KStatement y) k :: r.
  Proof.
    intros Hf Ho F H.
    assert (G : forall y r zz b b1, cs = y :: r -> stm ctx y zz b b1 -> firstp (flat_map (pieces c KFlow) ls) colc /\ exists y k r, cs = N (KStatement y) k :: r).
    { intros y r zz b b1 -> S. destruct Ho as [Hy _]. pose proof S as (_ & (s & q & ->) & _). pose proof (quiet_own _ _ _ _ _ (or_introl S) Hy) as Q.
      destruct (lfit2_cons _ _ _ _ F) as (F1 & _ & K); [discriminate|]. rewrite K in H. cbn [children_of flow_children] in H. destruct (negb _); [discriminate|].
      apply bindr_ok in H as ([l c0] & E & H). cbn [snd] in E. apply bindr_ok in H as ([[[ls1 o1] v1] y1] & E1 & H). injection H as <- <- <- <-. cbn [flat_map].
      destruct (one_first _ _ _ _ _ _ _ _ _ _ _ _ (or_introl S) Q F1 E) as (_ & _ & _ & _ & (p & r0 & Ep & Hp) & _). split; [|eauto]. exists p. eexists. split; [rewrite Ep; reflexivity|exact Hp]. }
    inversion Hf; subst; [discriminate H|eapply G; eauto|eapply G; eauto].
  Qed.
  Lemma item_first x z a a1 nx tg d parent sib path cur l o : item2 ctx tg x z a a1 nx -> own d x -> fit2 parent x ->
    reflow e (create_box x) sib path false cur 0 = Ok (l, o) -> firstp (pieces c parent l) cur.
  Proof.
    intros Hi Ho F H. inversion Hi as [? ? ? ? ? S|? ? ? ? ? S|cs ? ? ? ? _ S]; subst.
    - destruct (one_first _ _ _ _ _ _ _ _ _ _ _ _ (or_introl S) (quiet_own _ _ _ _ _ (or_introl S) Ho) F H) as (_ & _ & _ & _ & X & _). exact X.
    - destruct (one_first _ _ _ _ _ _ _ _ _ _ _ _ (or_intror S) (quiet_own _ _ _ _ _ (or_intror S) Ho) F H) as (_ & _ & _ & _ & X & _). exact X.
    - destruct (flow_split _ _ _ _ _ _ H) as (path' & ls & v & y & H' & ->). eapply (flow_first cs); eauto. eapply fit2_kids; eauto.
  Qed.
  Lemma body_mono cs : forall n path colc cur v x ls o v' x', forallb wfb (kids cs) = true ->
    body_children path 0 (children_of e (kids cs) n) colc cur v x = Ok (ls, o, v', x') -> row cur <= row colc -> row cur <= row o.
  Proof.
    generalize (kids cs) as bs. induction bs as [|b bs IH]; intros n path colc cur v x ls o v' x' Hw H Hr; cbn [children_of body_children] in H; [injection H as <- <- <- <-; lia|].
    apply bindr_ok in H as ([l c0] & E & H). cbn [snd] in E. apply bindr_ok in H as ([[[ls1 o1] v1] y1] & E1 & H). injection H as <- <- <- <-.
    cbn [forallb] in Hw. apply andb_prop in Hw as [Hw1 Hw2]. destruct (reflow_lok e _ Htab Hw1 _ _ _ _ _ _ _ E) as [Hp L]. apply (proj1 (lok_cle e)) in L. rewrite Hp in L.
    assert (row c0 <= row o1) by (eapply IH; eauto; cbn [row]; lia). unfold cle in L. lia.
  Qed.
  (** the first text of a body *)
  Definition bfirst (r : Z) (bs : list box) (ps : list piece) : Prop :=
    match ps with
    | nil => True
    | p :: _ => r <= row (p_at p) /\ (pcomment p = true -> explicit ctx (p_text p) = false)
                /\ (pcomment p = true -> row (p_at p) = r -> exists b q, bs = b :: q /\ noteb b = true)
    end.
  Lemma body_first cs z a a1 nx tg w d path n colc cur v x ls o v' x' : body2 ctx tg w cs z a a1 nx -> owns d cs -> lfit2 KBody cs -> colm colc = deptha d ->
    body_children path 0 (children_of e (kids cs) n) colc cur v x = Ok (ls, o, v', x') -> bfirst (row colc) (kids cs) (flat_map (pieces c KBody) ls).
  Proof.
    intros Hb Ho F Hcol H.
    assert (G : forall cs z a a1 n colc cur v x ls o v' x', body2 ctx tg false cs z a a1 nx -> owns d cs -> lfit2 KBody cs -> colm colc = deptha d ->
      body_children path 0 (children_of e (kids cs) n) colc cur v x = Ok (ls, o, v', x') -> bfirst (row colc) (kids cs) (flat_map (pieces c KBody) ls)).
    { clear -Htab Hplain. intros cs z a a1 n colc cur v x ls o v' x' Hb Ho F Hcol H. inversion Hb as [| |? x1 r1 ? ? ? ? ? ? Hi Hr|? x1 r1 ? ? ? ? ? ? Hn Hr|? t r1 ? ? ? ? ? Ht Hr]; subst.
      - injection H as <- <- <- <-. exact I.
      - destruct (item2_kind _ _ _ _ _ _ _ Hi) as (k & q & -> & Hk). destruct (lfit2_cons _ _ _ _ F (plain_white _ Hk)) as (F1 & _ & K). rewrite K in H. cbn [children_of body_children] in H.
        apply bindr_ok in H as ([l c0] & E & H). cbn [snd] in E. apply bindr_ok in H as ([[[ls1 o1] v1] y1] & E1 & H). injection H as <- <- <- <-. cbn [flat_map].
        destruct (item_first _ _ _ _ _ _ _ _ _ _ _ _ _ Hi (proj1 Ho) F1 E) as (p & r0 & Ep & Hp & Ha). rewrite Ep. cbn [app bfirst]. rewrite Ha, Hp. split; [lia|]. split; discriminate.
      - destruct Hn as (t & z' & ts & _ & -> & _). destruct Ho as [[Hbr Hst] _]. destruct (lfit2_cons _ _ _ _ F) as (F1 & _ & K); [discriminate|]. rewrite K in H |- *. cbn [children_of body_children] in H.
        apply bindr_ok in H as ([l c0] & E & H). cbn [snd] in E. apply bindr_ok in H as ([[[ls1 o1] v1] y1] & E1 & H). injection H as <- <- <- <-. cbn [flat_map].
        rewrite note_box in E. destruct (note_split _ _ _ _ _ _ Hbr E) as (s & La & Ec & Ep & _). rewrite Hcol in Ec. destruct (Hst _ Ec) as [Hex _]. rewrite Ep. cbn [line_pieces app bfirst p_at p_text].
        split; [lia|]. split; [intros _; apply Hex; now left|]. intros _ _. rewrite note_box. eauto.
      - destruct Ho as [[Hbr Hst] _]. cbn in Hbr. unfold is_tt in Ht. cbn in Ht. exfalso. clear -Hbr Ht. unfold tok_is, is_tt in *. congruence. }
    destruct (body2_drop _ _ _ _ _ _ _ _ Hb) as (ws & _ & K & Hd). apply owns_drop in Ho. apply lfit2_drop in F. destruct (nlcs ws <? 2) eqn:El; cbn [app] in K; rewrite K in H |- *.
    - eapply G; eauto.
    - cbn [children_of body_children snd] in H. destruct (white_flow e (proj1 Hplain) (map T ws) n path colc) as (lw & Ew & Pw). rewrite Ew in H. cbn [bindr] in H.
      apply bindr_ok in H as ([[[ls1 o1] v1] x1] & E & H). injection H as <- <- <- <-. cbn [bkind is_parg_k] in E. cbn [flat_map]. rewrite Pw. cbn [app].
      assert (X := G _ _ _ _ _ (Cur (row colc + 1) (colm colc)) _ _ _ _ _ _ _ Hd Ho F Hcol E). unfold bfirst in *. destruct (flat_map (pieces c KBody) ls1) as [|p ps]; auto. cbn [row] in X.
      destruct X as (X1 & X2 & X3). split; [lia|]. split; [exact X2|]. intros. lia.
  Qed.

  (** ** Blocks *)
  Definition Pitem2 (d : nat) (x1 : pnode) : Prop := forall x2 z2 f f1 parent sib path cur l o rest more,
    ncsim ctx x1 x2 -> item2 ctx true x2 z2 f f1 (hd_error more) -> own d x1 -> fit2 parent x1 -> fit2 parent x2 -> colm cur = deptha d ->
    reflow e (create_box x1) sib path false cur 0 = Ok (l, o) -> Forall2 stood (pieces c parent l ++ rest) (z2 ++ more) -> nextok (row o) rest ->
    List.length (pieces c parent l) = List.length z2 /\ same d parent (create_box x1) (create_box x2) /\ f = row cur + 1 /\ f1 = row o + 1.
  Definition Pflow2 (d : nat) (cs1 : list pnode) : Prop := forall cs2 z2 f f1 path n colc cur v x ls o v' x' rest more,
    csim ctx cs1 cs2 -> flow2 ctx true cs2 z2 f f1 (hd_error more) -> ownf d cs1 -> lfit2 KFlow cs1 -> lfit2 KFlow cs2 -> colm colc = deptha d ->
    flow_children (f_tab c) path 0 (children_of e (kids cs1) n) true colc cur v x = Ok (ls, o, v', x') ->
    Forall2 stood (flat_map (pieces c KFlow) ls ++ rest) (z2 ++ more) -> nextok (row o) rest ->
    List.length (flat_map (pieces c KFlow) ls) = List.length z2 /\ Forall2 (same d KFlow) (kids cs1) (kids cs2) /\ f = row colc + 1 /\ f1 = row o + 1.
  Definition agree2 (d : nat) (a b : list box) : Prop :=
    exists A A' t t', a = A ++ t /\ b = A' ++ t' /\ Forall2 (same d KBody) A A' /\ whites t /\ whites t'.
  Definition Q2 (d : nat) (cs1 : list pnode) : Prop := forall cs2 z2 f f1 path n colc cur v x ls o v' x' rest more,
    csim ctx cs1 cs2 -> body2 ctx true false cs2 z2 f f1 (hd_error more) -> ownb d cs1 -> lfit2 KBody cs1 -> lfit2 KBody cs2 -> colm colc = deptha d ->
    body_children path 0 (children_of e (kids cs1) n) colc cur v x = Ok (ls, o, v', x') ->
    Forall2 stood (flat_map (pieces c KBody) ls ++ rest) (z2 ++ more) -> hdp (row o) rest -> hdt more ->
    List.length (flat_map (pieces c KBody) ls) = List.length z2
    /\ ((cs1 = nil /\ cs2 = nil /\ f1 = f /\ o = cur)
        \/ (f = row colc + 1 /\ agree2 d (kids cs1) (kids cs2) /\ (f1 = row o + 2 -> Forall2 (same d KBody) (kids cs1) (kids cs2)))).
  Lemma agree2_cons d a b l l' : same d KBody a b -> agree2 d l l' -> agree2 d (a :: l) (b :: l').
  Proof. intros H (A & A' & t & t' & -> & -> & F & W & W'). exists (a :: A), (b :: A'), t, t'. repeat split; auto. Qed.

  Lemma gap2 d cs1 z1 a a1 nx1 : body2 ctx false true cs1 z1 a a1 nx1 -> Q2 d (dropb cs1) -> forall cs2 z2 f f1 path n colc cur v x ls o v' x' rest more,
    csim ctx cs1 cs2 -> body2 ctx true true cs2 z2 f f1 (hd_error more) -> ownb d cs1 -> lfit2 KBody cs1 -> lfit2 KBody cs2 -> colm colc = deptha d ->
    body_children path 0 (children_of e (kids cs1) n) colc cur v x = Ok (ls, o, v', x') ->
    Forall2 stood (flat_map (pieces c KBody) ls ++ rest) (z2 ++ more) -> hdp (row o) rest -> hdt more ->
    f = row colc ->
    List.length (flat_map (pieces c KBody) ls) = List.length z2
    /\ agree2 d (kids cs1) (kids cs2)
    /\ (f1 = row o + 2 -> row colc = row cur + 1 -> Forall2 (same d KBody) (kids cs1) (kids cs2))
    /\ (f1 = row o + 2 -> colc = cur -> Forall2 (same d KBody) (kids cs1) (kids cs2) \/ exists p, kids cs1 = nil /\ kids cs2 = [B KWhitespace p nil]).
  Proof.
    intros B1 HQ cs2 z2 f f1 path n colc cur v x ls o v' x' rest more Hs B2 Ho F1 F2 Hcol H Hst Hr Hm Hf.
    destruct (body2_drop _ _ _ _ _ _ _ _ B1) as (ws1 & _ & K1 & _). destruct (body2_drop _ _ _ _ _ _ _ _ B2) as (ws2 & _ & K2 & D2).
    apply csim_drops in Hs; [|eapply lfit2_white; eauto|eapply lfit2_white; eauto]. apply lfit2_drop in F1. apply lfit2_drop in F2.
    assert (Ho' : ownb d (dropb cs1)) by (destruct Ho as [O1 O2]; split; [rewrite K1 in O1; now apply notwin_app in O1|now apply owns_drop]).
    (* the layout of the rest *)
    assert (G : exists n' colc' cur' v0 x0 ls', body_children path 0 (children_of e (kids (dropb cs1)) n') colc' cur' v0 x0 = Ok (ls', o, v', x')
      /\ flat_map (pieces c KBody) ls' = flat_map (pieces c KBody) ls /\ colm colc' = deptha d
      /\ (if nlcs ws1 <? 2 then colc' = colc /\ cur' = cur else row colc' = row colc + 1 /\ cur' = colc)).
    { rewrite K1 in H. destruct (nlcs ws1 <? 2); cbn [app] in H; [exists n, colc, cur, v, x, ls; auto|].
      cbn [children_of body_children snd] in H. destruct (white_flow e (proj1 Hplain) (map T ws1) n path colc) as (lw & Ew & Pw). rewrite Ew in H. cbn [bindr] in H.
      apply bindr_ok in H as ([[[ls1 o1] v1] x1] & E & H). injection H as <- <- <- <-. cbn [bkind is_parg_k] in E.
      exists n, (Cur (row colc + 1) (colm colc)), colc, (v && lvalid lw), (Z.max x (lext lw)), ls1. split; [exact E|]. cbn [flat_map]. rewrite Pw. auto. }
    destruct G as (n' & colc' & cur' & v0 & x0 & ls' & H' & Ep & Hcol' & Hc). rewrite <- Ep in Hst |- *.
    destruct (HQ _ _ _ _ _ _ _ _ _ _ _ _ _ _ _ _ Hs D2 Ho' F1 F2 Hcol' H' Hst Hr Hm) as (EL & [(E1 & E2 & E3 & E4)|(E1 & E2 & E3)]); (split; [exact EL|]).
    - rewrite E1 in K1. rewrite E2 in K2. change (kids nil) with (@nil box) in K1, K2. rewrite app_nil_r in K1, K2. rewrite K1, K2. subst o f1.
      split; [exists nil, nil; do 2 eexists; repeat split; [constructor|destruct (nlcs ws1 <? 2); auto using whites_nil, whites_one|destruct (nlcs ws2 <? 2); auto using whites_nil, whites_one]|].
      destruct (nlcs ws1 <? 2) eqn:L1; destruct Hc as [Hc1 Hc2]; subst cur'.
      + split; intros Hr' Hcur.
        * assert (nlcs ws2 = 1) as -> by lia. constructor.
        * assert (nlcs ws2 = 2) as -> by (rewrite Hcur in Hf; lia). cbn [Z.ltb Z.compare Pos.compare Pos.compare_cont]. right. eexists. split; reflexivity.
      + assert (Hx : f + nlcs ws2 = row colc + 2 -> Forall2 (same d KBody) [B KWhitespace (map T ws1) nil] (if nlcs ws2 <? 2 then nil else [B KWhitespace (map T ws2) nil])).
        { intros Hx. assert (nlcs ws2 = 2) as -> by lia. constructor; [apply d2_white|constructor]. }
        split; intros; auto.
    - assert (Hn : (nlcs ws2 <? 2) = (nlcs ws1 <? 2)).
      { destruct (nlcs ws1 <? 2); destruct Hc as [Hc1 Hc2]; [subst colc'|]; [apply Z.ltb_lt|apply Z.ltb_ge]; lia. }
      rewrite Hn in K2. rewrite K1, K2. destruct (nlcs ws1 <? 2); cbn [app]; [auto|].
      assert (Hw : same d KBody (B KWhitespace (map T ws1) nil) (B KWhitespace (map T ws2) nil)) by apply d2_white.
      split; [now apply agree2_cons|]. split; intros Hx _; [|left]; constructor; auto.
  Qed.
  Lemma hdp_next r ps : hdp r ps -> nextok r ps.
  Proof. destruct ps as [|p ps]; [auto|]. intros [H1 H2]. split; [exact H1|]. rewrite H2. discriminate. Qed.
  (** what follows a statement in a body *)
  Lemma after_body cs z a a1 nx tg w d path n colc cur v x ls o v' x' rest : body2 ctx tg w cs z a a1 nx -> ownb d cs -> lfit2 KBody cs -> colm colc = deptha d -> row colc = row cur + 1 ->
    body_children path 0 (children_of e (kids cs) n) colc cur v x = Ok (ls, o, v', x') -> hdp (row o) rest ->
    nextok (row cur) (flat_map (pieces c KBody) ls ++ rest)
    /\ ((match kids cs with b :: _ => noteb b | nil => false end) = false ->
        match flat_map (pieces c KBody) ls ++ rest with nil => True | p :: _ => pcomment p = true -> row colc < row (p_at p) end).
  Proof.
    intros Hb [Hw Ho] F Hcol Hrow H Hr. pose proof (body_first _ _ _ _ _ _ _ _ _ _ _ _ _ _ _ _ _ _ Hb Ho F Hcol H) as Hf.
    pose proof (body_mono _ _ _ _ _ _ _ _ _ _ _ (proj1 (proj2 F)) H ltac:(lia)) as Hm.
    destruct (flat_map (pieces c KBody) ls) as [|p ps]; cbn [app].
    - split; [apply hdp_next; destruct rest as [|p r]; auto; destruct Hr; split; [lia|auto]|]. intros _. destruct rest as [|p r]; auto. destruct Hr as [_ Hr]. congruence.
    - destruct Hf as (X1 & X2 & X3). split; [split; [lia|exact X2]|]. intros Hn Hp.
      destruct (Z.eq_dec (row (p_at p)) (row colc)) as [E|E]; [|lia]. exfalso. destruct (X3 Hp E) as (b & q & Ek & Hb'). rewrite Ek in Hn. congruence.
  Qed.
  Lemma ownb_tail d k q r : k <> KWhitespace -> ownb d (N k q :: r) -> own d (N k q) /\ ownb d r.
  Proof.
    intros Hk [H1 [H2 H3]]. split; [exact H2|]. split; [|exact H3]. rewrite white_kid in H1 by auto. cbn [notwin] in H1. now apply andb_prop in H1.
  Qed.
  Lemma ncsim_item a q1 b q2 tg tg' z e0 d1 nx z' f f1 nx' : item2 ctx tg a z e0 d1 nx -> item2 ctx tg' b z' f f1 nx' -> csim ctx (a :: q1) (b :: q2) -> ncsim ctx a b /\ csim ctx q1 q2.
  Proof.
    intros Ha Hb Hs. apply item2_kind in Ha as (k & x & -> & Hk). apply item2_kind in Hb as (k' & y & -> & Hk').
    apply csim_nodes in Hs as (-> & H1 & H2); auto. split; auto. exists k, x, y. auto.
  Qed.
  Lemma solid_head z more ps rest cur : firstp ps cur -> Forall2 stood (ps ++ rest) (z ++ more) -> (exists t q, z ++ more = t :: q /\ is_comment t = true) -> False.
  Proof.
    intros (p & r & -> & Hp & _) H (t & q & E & Ht). rewrite E in H. cbn [app] in H. inversion H as [|? ? ? ? (_ & _ & _ & Hc & _) _]; subst. congruence.
  Qed.
  Lemma nxt_more z3 more : nxt z3 (hd_error more) = hd_error (z3 ++ more).
  Proof. now rewrite nxt_app. Qed.
  Lemma map_len {A D} (f : A -> D) l m : map f l = m -> List.length m = List.length l.
  Proof. intros <-. apply map_length. Qed.
  Lemma line_pieces_len La : forall cur, List.length (line_pieces cur La) = List.length La.
  Proof. induction La as [|s La IH]; intros cur; cbn [line_pieces List.length]; auto. Qed.
  Lemma column_all z : forall t, is_tt COMMENT t = true -> column t z -> Forall (fun t => is_tt COMMENT t = true) (t :: z).
  Proof. induction z as [|u z IH]; intros t Ht Hc; constructor; auto. cbn [column] in Hc. apply IH; tauto. Qed.
  Lemma note_nobracket ts t z : ParseBlank.nows ts = t :: z -> is_tt COMMENT t = true -> is_bracket (map T ts) = false.
  Proof.
    intros H Ht. destruct ts as [|u [|u2 ts]]; try reflexivity. cbn [map is_bracket tok_is]. cbn in H. destruct (ParseBlank.nonws u); [|discriminate]. injection H as -> _.
    unfold is_tt in *. destruct (tt t); try discriminate; reflexivity.
  Qed.

  Theorem blocks_core2 :
    (forall x z a a1 nx, item2 ctx false x z a a1 nx -> forall d, Pitem2 d x) /\ (forall cs z a a1 nx, flow2 ctx false cs z a a1 nx -> forall d, Pflow2 d cs)
    /\ (forall w cs z a a1 nx, body2 ctx false w cs z a a1 nx -> forall d, Q2 d (dropb cs)).
  Proof.
    apply (at2_ind ctx false (fun x _ _ _ _ => forall d, Pitem2 d x) (fun cs _ _ _ _ => forall d, Pflow2 d cs) (fun _ cs _ _ _ _ => forall d, Q2 d (dropb cs))).
    - intros x1 z1 a a1 nx S1 d x2 z2 f f1 parent sib path cur l o rest more Hs I2 Ho F1 F2 Hcol H Hst Hn.
      pose proof S1 as (_ & (s & q & Ex) & _). destruct Hs as (k & q1 & q2 & E1 & E2 & Hs). rewrite E1 in Ex. injection Ex as -> ->.
      assert (Hs' : ncsim ctx x1 x2) by (exists (KStatement s), q, q2; auto).
      inversion I2 as [? ? ? ? ? S2|? ? ? ? ? (_ & (y & E) & _)|]; subst x2; try discriminate; subst.
      eapply stmt2_core; eauto.
    - intros x1 z1 a a1 nx S1 d x2 z2 f f1 parent sib path cur l o rest more Hs I2 Ho F1 F2 Hcol H Hst Hn.
      pose proof S1 as (_ & (q & Ex) & _). destruct Hs as (k & q1 & q2 & E1 & E2 & Hs). rewrite E1 in Ex. injection Ex as -> ->.
      assert (Hs' : ncsim ctx x1 x2) by (exists KAtStmt, q, q2; auto).
      inversion I2 as [? ? ? ? ? (_ & (y & y' & E) & _)|? ? ? ? ? S2|]; subst x2; try discriminate; subst.
      eapply stmt2_core; eauto.
    - intros cs1 z1 a a1 nx _ S1 IH d x2 z2 f f1 parent sib path cur l o rest more Hs I2 Ho F1 F2 Hcol H Hst Hn.
      destruct Hs as (k & q1 & q2 & E1 & -> & Hs). injection E1 as <- <-.
      inversion I2 as [? ? ? ? ? (_ & (y & y' & E) & _)|? ? ? ? ? (_ & (y & E) & _)|? ? ? ? ? _ S2]; subst; try discriminate.
      destruct (flow_split _ _ _ _ _ _ H) as (path' & ls & v & x & H' & Ep). rewrite Ep in Hst |- *.
      destruct (IH d _ _ _ _ _ _ _ _ _ _ _ _ _ _ _ _ Hs S2 Ho (fit2_kids _ _ _ F1) (fit2_kids _ _ _ F2) Hcol H' Hst Hn) as (A0 & A1 & A2 & A3).
      split; [exact A0|]. split; [|auto]. rewrite !create_eq. now apply d2_flow.
    - intros a nx d cs2 z2 f f1 path n colc cur v x ls o v' x' rest more Hs S2 Ho F1 F2 Hcol H Hst Hn. discriminate H.
    - intros x1 z1 a a1 nx S1 d cs2 z2 f f1 path n colc cur v x ls o v' x' rest more Hs S2 Ho F1 F2 Hcol H Hst Hn.
      pose proof S1 as (_ & (s & q & Ex) & _).
      assert (I1 : item2 ctx false x1 z1 a a1 nx) by now apply i2_stmt. rewrite Ex in F1, Hs.
      destruct (lfit2_cons _ _ _ _ F1) as (F1x & F1r & K1); [discriminate|]. rewrite <- Ex in F1x, K1, Hs. rewrite <- Ex in F1. rewrite K1 in H. cbn [children_of flow_children] in H.
      destruct (negb _); [discriminate|]. apply bindr_ok in H as ([l c0] & E & H). cbn [snd] in E. cbn in H. injection H as <- <- <- <-. cbn [flat_map] in Hst |- *. rewrite app_nil_r in Hst |- *.
      inversion S2 as [|x2 ? ? ? ? S2x|x2 bd2 rest2 y1 y2 y3 ? b1 b2 ? ? S2x]; subst cs2.
      + exfalso. rewrite Ex in Hs. eapply csim_node_nil; eauto.
      + subst. destruct (ncsim_item _ _ _ _ _ _ _ _ _ _ _ _ _ _ I1 (i2_stmt ctx true _ _ _ _ None S2x) Hs) as [Hx _].
        pose proof S2x as (_ & (s2 & q2 & Ex2) & _). rewrite Ex2 in F2. destruct (lfit2_cons _ _ _ _ F2) as (F2x & F2r & K2); [discriminate|]. rewrite <- Ex2 in F2x, K2.
        destruct (stmt2_core _ _ _ _ _ _ _ _ d _ _ _ _ _ _ _ _ _ _ (or_introl (conj S1 S2x)) (quiet_own _ _ _ _ _ (or_introl S1) (proj1 (proj1 (conj Ho I)))) Hx F1x F2x E Hst Hn) as (A0 & A1 & A2 & A3).
        rewrite K1, K2. repeat split; auto. constructor; [exact A1|constructor].
      + exfalso. subst. destruct (ncsim_item _ _ _ _ _ _ _ _ _ _ _ _ _ _ I1 (i2_stmt ctx true _ _ _ _ None S2x) Hs) as [_ Hr]. eapply csim_nil_node; eauto.
    - intros x1 bd1 rest1 w1 w2 w3 a a1 a2 a3 nx S1 B1 IHb R1 IHr d cs2 z2 f f1 path n colc cur v x ls o v' x' rest more Hs S2 Ho F1 F2 Hcol H Hst Hn.
      pose proof S1 as (_ & (s & q & Ex) & _). assert (I1 : item2 ctx false x1 w1 a a1 nx) by now apply i2_stmt.
      inversion S2 as [|x2 ? ? ? ? S2x|x2 bd2 rest2 y1 y2 y3 ? b1 b2 ? ? S2x B2 R2]; subst cs2.
      { exfalso. rewrite Ex in Hs. eapply csim_node_nil; eauto. }
      { exfalso. subst. destruct (ncsim_item _ _ _ _ _ _ _ _ _ _ _ _ _ _ I1 (i2_stmt ctx true _ _ _ _ None S2x) Hs) as [_ Hr]. eapply csim_node_nil; eauto. }
      subst. destruct (ncsim_item _ _ _ _ _ _ _ _ _ _ _ _ _ _ I1 (i2_stmt ctx true _ _ _ _ None S2x) Hs) as [Hx Hr].
      apply csim_nodes in Hr as (_ & Hb & Hr); try reflexivity.
      pose proof S2x as (_ & (s2 & q2 & Ex2) & _). subst x2.
      destruct (lfit2_cons _ _ _ _ F1) as (F1x & F1r & K1); [discriminate|]. destruct (lfit2_cons _ _ _ _ F2) as (F2x & F2r & K2); [discriminate|].
      destruct (lfit2_cons _ _ _ _ F1r) as (F1b & F1s & K1b); [discriminate|]. destruct (lfit2_cons _ _ _ _ F2r) as (F2b & F2s & K2b); [discriminate|].
      rewrite K1b in K1. rewrite K2b in K2. rewrite K1 in H. cbn [children_of flow_children] in H.
      destruct (negb _) in H; [discriminate|]. apply bindr_ok in H as ([l c0] & E & H). cbn [snd] in E. apply bindr_ok in H as ([[[ls1 o1] v1] t1] & E1 & H). injection H as <- <- <- <-.
      unfold Layout.ckind in E1. cbn [fst bkind create_box is_body_k negb] in E1. apply bindr_ok in E1 as ([lb cb] & Eb & E1). cbn [snd] in Eb. apply bindr_ok in E1 as ([[[ls2 o2] v2] t2] & E2 & E1).
      injection E1 as <- <- <- <-. cbn [flat_map] in Hst |- *. change (B KBody bd1 _) with (create_box (N KBody bd1)) in Eb.
      destruct Ho as (O1 & O2 & O3). cbn [bodyd] in O1, O2. fold (ownf d rest1) in O3. destruct O2 as [O2a O2b]. fold (owns (S d) bd1) in O2b.
      destruct (flow_first _ _ _ _ _ _ _ _ _ _ _ _ _ _ _ _ _ R1 O3 F1s E2) as ((pn & rn & Epn & Hpn & Hpa) & (ys & yk & yr & Erest)). cbn [row colm] in *.
      destruct (body_split _ _ _ _ _ _ Eb) as (pathb & lsb & vb & xb & Ec & Epb).
      rewrite Epb in Hst |- *. rewrite <- !app_assoc in Hst.
      assert (Hbrest : hdp (row cb) (flat_map (pieces c KFlow) ls2 ++ rest)) by (rewrite Epn; cbn [app hdp]; rewrite Hpa; cbn [row]; split; [lia|exact Hpn]).
      assert (Hcb : colm (shift (Cur (row c0 + 1) (colm colc)) (f_tab c)) = deptha (S d)) by (cbn; unfold deptha in *; rewrite Hcol; lia).
      assert (Hnb : nextok (row c0) (flat_map (pieces c KBody) lsb ++ flat_map (pieces c KFlow) ls2 ++ rest)).
      { pose proof (body_first _ _ _ _ _ _ _ _ _ _ _ _ _ _ _ _ _ _ B1 O2b (fit2_kids _ _ _ F1b) Hcb Ec) as Hf.
        pose proof (body_mono _ _ _ _ _ _ _ _ _ _ _ (proj1 (proj2 (fit2_kids _ _ _ F1b))) Ec ltac:(lia)) as Hm. cbn [shift row] in Hf, Hm.
        destruct (flat_map (pieces c KBody) lsb) as [|p ps]; cbn [app].
        - apply hdp_next. rewrite Epn in *. cbn [app hdp] in *. split; [lia|exact Hpn].
        - destruct Hf as (X1 & X2 & X3). split; [lia|exact X2]. }
      destruct (stmt2_core _ _ _ _ _ _ _ _ d _ _ _ _ _ _ _ _ _ _ (or_introl (conj S1 S2x)) (quiet_own _ _ _ _ _ (or_introl S1) O1) Hx F1x F2x E Hst Hnb) as (A0 & A1 & A2 & A3).
      apply Forall2_split in Hst as [_ Hst]; auto.
      assert (Hz3 : exists t r, y3 ++ more = t :: r /\ is_comment t = false).
      { rewrite Erest in Hr. inversion R2 as [|y ? ? ? ? Y|y ? ? ? ? ? ? ? ? ? ? Y]; subst.
        - exfalso. eapply csim_node_nil; eauto.
        - destruct Y as ((t & r & -> & Ht) & _). exists t. eexists. split; [reflexivity|exact Ht].
        - destruct Y as ((t & r & -> & Ht) & _). exists t. eexists. split; [reflexivity|exact Ht]. }
      assert (Hmore : hdt (y3 ++ more)) by (destruct Hz3 as (t & r & -> & Ht); exact Ht).
      rewrite nxt_more in B2.
      destruct (gap2 (S d) _ _ _ _ _ B1 (IHb (S d)) _ _ _ _ _ _ _ _ _ _ _ _ _ _ _ _ Hb B2 (conj O2a O2b) (fit2_kids _ _ _ F1b) (fit2_kids _ _ _ F2b) Hcb Ec Hst Hbrest Hmore) as (G0 & _ & _ & G3).
      { cbn. lia. }
      apply Forall2_split in Hst as [_ Hst]; auto.
      destruct (IHr d _ _ _ _ _ _ _ _ _ _ _ _ _ _ _ _ Hr R2 O3 F1s F2s (Hcol : colm (Cur (row cb + 1) (colm colc)) = deptha d) E2 Hst Hn) as (R0 & R3 & R4 & R5). cbn [row] in R4.
      split; [rewrite !app_length; lia|]. rewrite K1, K2. split; [|auto]. constructor; [exact A1|]. constructor; [|exact R3].
      rewrite !create_eq. destruct G3 as [G3|(p & G3 & G4)]; [lia|reflexivity|now apply d2_body|]. rewrite G3, G4. apply d2_empty.
    - intros w a nx d cs2 z2 f f1 path n colc cur v x ls o v' x' rest more Hs B2 Ho F1 F2 Hcol H Hst Hr Hm. cbn [dropb] in *. injection H as <- <- <- <-. cbn [flat_map app List.length] in *.
      assert (Hno : forall t r, z2 = t :: r -> is_comment t = true -> False).
      { intros t r -> Ht. cbn [app] in Hst. destruct rest as [|p rest]; inversion Hst as [|? ? ? ? (_ & _ & _ & Hc & _) _]; subst. destruct Hr as [_ Hr]. congruence. }
      inversion B2 as [| |? x2 r2 ? ? ? ? ? ? Hi|? x2 r2 y1 y2 ? ? ? ? Hn|? t2 r2 ? ? ? ? ? Ht]; subst.
      + split; auto.
      + exfalso. destruct (item2_kind _ _ _ _ _ _ _ Hi) as (k & y & -> & Hk). eapply csim_nil_node; eauto.
      + exfalso. destruct Hn as (t & z' & ts & -> & _ & _ & _ & Ht & _). eapply Hno; [reflexivity|]. now apply tt_comment.
      + exfalso. eapply Hno; [reflexivity|]. unfold is_tt in Ht. unfold is_comment. destruct (tt t2); try discriminate; reflexivity.
    - intros ws cs z a a1 nx Hw B1 IH. cbn [dropb blankb]. exact IH.
    - intros w x1 r1 z1 z1' a a1 a2 nx I1 IHx B1 IHb d.
      destruct (item2_kind _ _ _ _ _ _ _ I1) as (k1 & q1 & Ex1 & Hk1).
      assert (Ed : dropb (x1 :: r1) = x1 :: r1) by (rewrite Ex1; cbn [dropb]; rewrite blankb_node; auto; now apply plain_white).
      rewrite Ed. intros cs2 z2 f f1 path n colc cur v x ls o v' x' rest more Hs B2 Ho F1 F2 Hcol H Hst Hr Hm.
      rewrite Ex1 in F1, Ho. destruct (lfit2_cons _ _ _ _ F1 (plain_white _ Hk1)) as (F1x & F1r & K1). destruct (ownb_tail _ _ _ _ (plain_white _ Hk1) Ho) as [O1 O2]. rewrite <- Ex1 in F1x, K1, O1.
      rewrite K1 in H. cbn [children_of body_children] in H.
      apply bindr_ok in H as ([l c0] & E & H). cbn [snd] in E. apply bindr_ok in H as ([[[ls1 o1] v1] t1] & E1 & H). injection H as <- <- <- <-. cbn [flat_map] in Hst |- *.
      pose proof (item_first _ _ _ _ _ _ _ _ _ _ _ _ _ I1 O1 F1x E) as Hfirst. rewrite <- app_assoc in Hst.
      destruct (after_body _ _ _ _ _ _ _ _ _ _ _ _ _ _ _ _ _ _ rest B1 O2 F1r (Hcol : colm (Cur (row c0 + 1) (colm colc)) = deptha d) eq_refl E1 Hr) as [Hnext _].
      inversion B2 as [| |? x2 r2 y1 y2 ? b1 ? ? I2 B2'|? x2 r2 y1 y2 ? ? ? ? Hn|? t2 r2 ? ? ? ? ? Ht]; subst cs2.
      { exfalso. rewrite Ex1 in Hs. eapply csim_node_nil; eauto. }
      + subst. destruct (ncsim_item _ _ _ _ _ _ _ _ _ _ _ _ _ _ I1 I2 Hs) as [Hx Hr']. destruct (item2_kind _ _ _ _ _ _ _ I2) as (k2 & q2 & Ex2 & Hk2). rewrite Ex2 in F2.
        destruct (lfit2_cons _ _ _ _ F2 (plain_white _ Hk2)) as (F2x & F2r & K2). rewrite <- Ex2 in F2x, K2.
        rewrite nxt_more in I2. rewrite <- app_assoc in Hst.
        destruct (IHx d _ _ _ _ _ _ _ _ _ _ _ _ Hx I2 O1 F1x F2x Hcol E Hst Hnext) as (A0 & A1 & A2 & A3).
        apply Forall2_split in Hst as [_ Hst]; auto.
        destruct (gap2 d _ _ _ _ _ B1 (IHb d) _ _ _ _ _ _ _ _ _ _ _ _ _ _ _ _ Hr' B2' O2 F1r F2r (Hcol : colm (Cur (row c0 + 1) (colm colc)) = deptha d) E1 Hst Hr Hm) as (G0 & G1 & G2 & _); [cbn; lia|].
        split; [rewrite !app_length; lia|]. right.
        split; [exact A2|]. rewrite K1, K2. split; [now apply agree2_cons|]. intros Hf. constructor; [exact A1|]. apply G2; auto.
      + exfalso. destruct Hn as (t & z' & ts & Ez & _ & _ & _ & Ht & _). subst. eapply solid_head; eauto. exists t. eexists. split; [reflexivity|]. now apply tt_comment.
      + exfalso. subst. eapply solid_head; eauto. exists t2. eexists. split; [reflexivity|]. unfold is_tt in Ht. unfold is_comment. destruct (tt t2); try discriminate; reflexivity.
    - intros w x1 r1 z1 z1' a a1 a2 nx N1 B1 IHb d. pose proof N1 as (tt1 & zz1 & ts1 & _ & Ex1 & _). subst x1.
      cbn [dropb blankb]. intros cs2 z2 f f1 path n colc cur v x ls o v' x' rest more Hs B2 Ho F1 F2 Hcol H Hst Hr Hm.
      pose proof (proj1 Ho) as Htw. assert (Hkw : KComment false <> KWhitespace) by discriminate. destruct (lfit2_cons _ _ _ _ F1 Hkw) as (F1x & F1r & K1). destruct (ownb_tail _ _ _ _ Hkw Ho) as [[O1 O1s] O2].
      rewrite K1 in Htw. rewrite note_box in K1, Htw. rewrite K1 in H. cbn [children_of body_children] in H.
      apply bindr_ok in H as ([l c0] & E & H). cbn [snd] in E. apply bindr_ok in H as ([[[ls1 o1] v1] t1] & E1 & H). injection H as <- <- <- <-. cbn [flat_map] in Hst |- *.
      destruct (note_split _ _ _ _ _ _ O1 E) as (s & La & Ec & Ep & Erow). rewrite Ep in Hst |- *. rewrite Hcol in Ec. destruct (O1s _ Ec) as [_ Hst1]. rewrite <- app_assoc in Hst.
      cbn [notwin noteb bkind andb] in Htw. apply andb_prop in Htw as [Htw _]. apply negb_true_iff in Htw.
      destruct (after_body _ _ _ _ _ _ _ _ _ _ _ _ _ _ _ _ _ _ rest B1 O2 F1r (Hcol : colm (Cur (row c0 + 1) (colm colc)) = deptha d) eq_refl E1 Hr) as [_ Hnext]. specialize (Hnext Htw). cbn [row] in Hnext.
      assert (Hhd : exists t r, z2 ++ more = t :: r /\ is_tt COMMENT t = true).
      { cbn [line_pieces app] in Hst. inversion Hst as [|? t ? r (_ & _ & _ & _ & Hc) _]; subst. exists t, r. split; auto. }
      destruct Hhd as (th & rh & Eh & Hth).
      inversion B2 as [| |? x2 r2 y1 y2 ? b1 ? ? I2|? x2 r2 y1 y2 ? b1 ? ? N2 B2'|? t2 r2 ? ? ? ? ? Ht]; subst cs2.
      { exfalso. subst z2. cbn [app] in Eh. rewrite Eh in Hm. unfold hdt in Hm. apply tt_comment in Hth. destruct Hth. congruence. }
      + exfalso. destruct (item2_solid _ _ _ _ _ _ _ I2) as (t & r & Ez & Ht). subst. cbn [app] in Eh. injection Eh as -> _. apply tt_comment in Hth. destruct Hth. congruence.
      + destruct N2 as (t2 & z' & ts2 & Ez & Ex2 & Ens & Hwsc & Ht2 & Hline & Hco & Hor & Hap & Hhd). subst. rewrite nxt_more in *. rewrite <- app_assoc in Hst.
        destruct (note_match La s colc t2 z' _ _ Hst Ht2 Hco) as (M1 & M2 & M3).
        { intros u Hu. apply Hap; auto. }
        { destruct (flat_map (pieces c KBody) ls1 ++ rest) as [|p ps]; auto. intros Hp. specialize (Hnext Hp). lia. }
        destruct (lfit2_cons _ _ _ _ F2 Hkw) as (F2x & F2r & K2). rewrite note_box in K2.
        assert (L0 : List.length (line_pieces colc (s :: La)) = List.length (t2 :: z')) by (rewrite line_pieces_len; eapply map_len; eauto).
        apply Forall2_split in Hst as [_ Hst]; [|exact L0].
        assert (Hb1 : b1 = row c0 + 1).
        { destruct Hor as [->|(u & Hu & Hcu & Hlu)]; [lia|]. exfalso. destruct (y2 ++ more) as [|u' q]; [discriminate|]. injection Hu as ->.
          destruct (flat_map (pieces c KBody) ls1 ++ rest) as [|p ps]; inversion Hst as [|? ? ? ? (_ & T2 & _ & T4 & _) _]; subst.
          assert (Hp : pcomment p = true) by (rewrite <- T4; now apply tt_comment). specialize (Hnext Hp). lia. }
        assert (Hs' : csim ctx r1 r2).
        { eapply csim_notes; [exact Hs|eapply note_cblank; exact N1|eapply body2_cwf; exact B1|eapply body2_cwf; exact B2']. }
        destruct (gap2 d _ _ _ _ _ B1 (IHb d) _ _ _ _ _ _ _ _ _ _ _ _ _ _ _ _ Hs' B2' O2 F1r F2r (Hcol : colm (Cur (row c0 + 1) (colm colc)) = deptha d) E1 Hst Hr Hm) as (G0 & G1 & G2 & _); [cbn; lia|].
        assert (Hsame : same d KBody (B (KComment false) (map T ts1) nil) (B (KComment false) (map T ts2) nil)).
        { apply d2_note; auto; [eapply note_nobracket; eauto|]. apply Hst1; auto; rewrite Ens; auto using column_all. }
        split; [rewrite !app_length; lia|]. right. split; [exact M2|]. rewrite K1, K2. split; [now apply agree2_cons|]. intros Hf. constructor; [exact Hsame|]. apply G2; auto.
      + exfalso. subst. cbn [app] in Eh. injection Eh as -> _. unfold is_tt in *. destruct (tt th); discriminate.
    - intros w t cs z a a1 a2 nx Ht B1 IH d. cbn [dropb blankb]. intros cs2 z2 f f1 path n colc cur v x ls o v' x' rest more Hs B2 [_ [[Hbr _] _]]. exfalso.
      cbn in Hbr. unfold is_tt in *. congruence.
  Qed.

  Theorem top_core2 cs1 cs2 z1 z2 a a1 f1 nx1 parent sib path l o : cfg e1 = ct -> cfg e2 = ct -> plain_passes2 ct ->
    body2 ctx false true cs1 z1 a a1 nx1 -> body2 ctx true true cs2 z2 1 f1 None -> csim ctx cs1 cs2 -> fit2 parent (N KBody cs1) -> fit2 parent (N KBody cs2) -> ownb 0 cs1 ->
    kids cs1 = kids (dropb cs1) -> reflow e (create_box (N KBody cs1)) sib path false (Cur 0 0) 0 = Ok (l, o) ->
    Forall2 stood (pieces c parent l) z2 ->
    forall sib' path' l1 o1, reflow e1 (create_box (N KBody cs1)) sib' path' false (Cur 0 0) 0 = Ok (l1, o1) ->
    exists l' o', reflow e2 (create_box (N KBody cs2)) sib' path' false (Cur 0 0) 0 = Ok (l', o') /\ pieces ct parent l' = pieces ct parent l1.
  Proof.
    intros He1 He2 Hp2 B1 B2 Hs F1 F2 Ho Hk H Hst sib' path' l1 o1 H1. apply fit2_kids in F1, F2.
    assert (G : agree2 0 (kids cs1) (kids cs2)).
    { destruct (body2_drop _ _ _ _ _ _ _ _ B2) as (ws2 & _ & K2 & D2).
      apply csim_drops in Hs; [|eapply lfit2_white; eauto|eapply lfit2_white; eauto].
      assert (Ho' : ownb 0 (dropb cs1)) by (destruct Ho as [O1 O2]; split; [now rewrite <- Hk|now apply owns_drop]).
      destruct (body_split _ _ _ _ _ _ H) as (pathb & ls & vb & xb & Ec & Ep). rewrite Ep in Hst. rewrite Hk in Ec |- *.
      assert (Hcol : colm (Cur 0 0) = deptha 0) by reflexivity.
      rewrite <- (app_nil_r z2) in Hst. rewrite <- (app_nil_r (flat_map _ _)) in Hst.
      destruct (proj2 (proj2 blocks_core2) _ _ _ _ _ _ B1 0%nat _ _ _ _ _ _ _ _ _ _ _ _ _ _ nil nil Hs D2 Ho' (lfit2_drop _ _ F1) (lfit2_drop _ _ F2) Hcol Ec Hst I I)
        as (_ & [(E1 & E2 & _)|(E1 & E2 & _)]).
      - rewrite E1. rewrite E2 in K2. rewrite K2. change (kids nil) with (@nil box). rewrite app_nil_r. exists nil, nil, nil, (if nlcs ws2 <? 2 then nil else [B KWhitespace (map T ws2) nil]).
        repeat split; [constructor|constructor|]. destruct (nlcs ws2 <? 2); auto using whites_nil, whites_one.
      - cbn [row] in E1. rewrite K2. assert (nlcs ws2 = 0) as -> by lia. exact E2. }
    destruct G as (A & A' & t & t' & E1 & E2 & Fd & W & W'). rewrite create_eq in *. rewrite E1 in H1. rewrite E2.
    pose proof (top_same2 ct e1 e2 He1 He2 Hp2 cs1 cs2 A A' t t' Fd W W' parent sib' path' (Cur 0 0) eq_refl) as X. rewrite H1 in X. cbn in X.
    destruct X as ([l' o'] & X1 & X2). exists l', o'. auto.
  Qed.
End Core2.
