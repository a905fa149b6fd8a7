(** * PropSpan: how many lines a group of arguments takes *)
From Coq Require Import Permutation.
From Verif Require Import Base Regex Lex LexProofs LexClass PropLex TextOps TextProofs PropText
  Tree Parse ParseProofs PropParse CmdSpec StdSpecs StdDb StdWf PropStd Layout LayoutProofs LayoutCols Pieces Writing
  PropLayout Markup Pipeline ParseShape StdShape NamesShape CommentShape TidyShape PropFile PropIndent Walk ParseTerm ParseBlank OutSame
  PropLines OneLine PropOneLine PropDangle PropTall.
Require Verif.PropLintChecks.

(** ** Specification *)
Definition blank_text (g : str) : Prop := Forall (fun x => x = cSP \/ x = cNL \/ x = cCR) g.
(** a word written up to letter case, with the line ending of the file; parentheses
    as they are *)
Definition word_text (endl : str) (u : token) (t : str) : Prop :=
  (is_tt LEFT_PAREN u = true /\ t = $"(") \/ (is_tt RIGHT_PAREN u = true /\ t = $")")
  \/ exists w, t = with_endl endl w /\ lower w = lower (normalize (spelling u)).
(** the words in order, with nothing but blanks between them *)
Inductive spells (endl : str) : list token -> str -> Prop :=
| sp_one u t : word_text endl u t -> spells endl [u] t
| sp_cons u us t g r : word_text endl u t -> blank_text g -> spells endl us r -> spells endl (u :: us) (t ++ g ++ r).
(** the group of these children is written vertically or takes at most
    max_lines_hwrap line endings *)
Definition compact (c : fcfg) (endl : str) (ws : list token) (s : str) : Prop :=
  exists pre t post, s = pre ++ t ++ post /\ spells endl ws t /\ count_chr cNL t <= f_max_lines c.
Definition listing_k (k : kind) : bool := is_parg_k k || is_arggroup_k k.
Definition spans (c : fcfg) (endl : str) (x : nat * pnode) (s : str) : Prop :=
  match snd x with
  | N (KStatement _) _ =>
      forall k cs, In (N k cs) (PropLintChecks.subtrees (snd x)) -> listing_k k = true ->
      let ws := filter TidyShape.nonws (flat (N k cs)) in
      forallb (fun t => negb (is_comment t)) ws = true ->
      tower endl cs s \/ compact c endl ws s
  | _ => True
  end.

(** ** Layout *)
Inductive spant (e : env) : box -> lay -> Prop :=
| spant_intro k p cs pos pass w v x lines ls o :
    Forall2 (spant e) (if leaf_k k then nil else cs) ls ->
    tallt e (B k p cs) (Lay k p pos pass w v x lines ls) ->
    lok e (B k p cs) (Lay k p pos pass w v x lines ls) o ->
    (listing_k k = true -> stk e (colm pos) None cs ls \/ row o - row pos <= f_max_lines (cfg e)) ->
    spant e (B k p cs) (Lay k p pos pass w v x lines ls).

Section Span.
  Variable e : env.
  Hypothesis Htab : 0 <= f_tab (cfg e).

  Lemma wrapped_stk b cs path term cur pass w a : Forall (LayoutProofs.good e) cs -> map fst cs = bcs b ->
    listing_k (bkind b) = true -> reflow_once e b cs path term cur pass w = Ok a -> a_wrap a = true ->
    stk e (colm cur) None (bcs b) (a_cs a).
  Proof.
    destruct b as [k p bs]. cbn [bkind bcs]. intros Hg Hm Hk H Hw. unfold reflow_once in H. cbn [bkind] in H.
    destruct k; try discriminate.
    - unfold reflow_arg in H. apply bindr_ok in H as (n & En & H). apply bindr_ok in H as ([[[ls c] v] x] & E & H). injection H as <-. cbn [a_cs a_wrap] in *. subst w.
      rewrite <- Hm. exact (arg_tall e _ _ _ _ _ Hg _ _ _ _ _ _ _ _ _ (fun _ => eq_refl) eq_refl E).
    - unfold reflow_parg in H. apply bindr_ok in H as ([[[[ls c] v] x] rows] & E & H). injection H as <-. cbn [a_cs a_wrap] in *.
      destruct (smem $"cmdline" tags); [discriminate|]. subst w.
      rewrite <- Hm. exact (parg_tall e _ _ _ _ _ Hg _ _ _ _ _ _ _ _ _ _ _ (fun _ => eq_refl) E).
  Qed.
  Lemma leaf_span k p cs l o : leaf_k k = true -> tallt e (B k p cs) l -> lok e (B k p cs) l o -> spant e (B k p cs) l.
  Proof.
    intros Hk Ht Hl. inversion Ht as [k0 p0 cs0 pos pass w v x lines ls Hls _ _]; subst. rewrite Hk in Hls. inversion Hls; subst.
    econstructor; [rewrite Hk; constructor|exact Ht|exact Hl|]. destruct k; discriminate.
  Qed.
  Lemma scalar_span k p cs sib path term cur passno l o : is_scalar_k k = true -> wfb (B k p cs) = true ->
    reflow e (B k p cs) sib path term cur passno = Ok (l, o) -> spant e (B k p cs) l.
  Proof.
    intros Hk Hw H. pose proof (scalar_tall e _ _ _ _ _ _ _ _ _ _ Hk Hw H) as Ht. destruct (reflow_lok e _ Htab Hw _ _ _ _ _ _ _ H) as [_ L].
    inversion Ht as [k0 p0 cs0 pos pass w v x lines ls Hls _ _]; subst. econstructor; [|exact Ht|exact L|destruct k; discriminate].
    inversion L as [k1 p1 cs1 pos1 pass1 w1 v1 x1 lines1 ls1 o1 l1 _ _ Hko _ _ Hlk]; subst.
    assert (Hl : leaf_k k = false) by (destruct k; try discriminate; reflexivity). rewrite Hl in *.
    assert (Hc : match cs with nil => True | [cm] => is_comment_k (bkind cm) = true | _ => False end).
    { cbn [wfb] in Hw. apply andb_prop in Hw as [_ Hw]. clear -Hw Hk.
      destruct k; try discriminate; repeat (apply andb_prop in Hw as [_ Hw]); unfold tail_ok in Hw; destruct cs as [|cm [|? ?]]; try exact I; try exact Hw; discriminate. }
    destruct cs as [|cm [|? ?]]; [inversion Hls; constructor| |destruct Hc].
    inversion Hls as [|? m ? ls' T1 T2]; subst. inversion T2; subst. inversion Hlk; subst. constructor; [|constructor].
    destruct cm as [kc pc cc]. eapply leaf_span; [|exact T1|eassumption]. cbn [bkind] in Hc. destruct kc; try discriminate; reflexivity.
  Qed.
  Lemma children_span (P : box -> Prop) pass cs : Forall P cs -> forall n ls (Q : box -> lay -> Prop),
    (forall b l n path term cur o, P b -> In b cs -> reflow e b n path term cur pass = Ok (l, o) -> lvalid l = true -> Q b l) ->
    Forall2 (got pass) (children_of e cs n) ls -> all_valid ls -> Forall2 Q cs ls.
  Proof.
    induction 1 as [|b cs Hb _ IH]; intros n ls Q HQ H1 H2; cbn [children_of] in *.
    - inversion H1; subst. constructor.
    - inversion H1 as [|? l ? ls' (path & term & cur & o & G) G2]; subst. inversion H2 as [|? ? V1 V2]; subst. constructor.
      + eapply HQ; [exact Hb|now left|exact G|exact V1].
      + eapply IH; [|exact G2|exact V2]. intros. eapply HQ; eauto. now right.
  Qed.
  Lemma inner_kids k p cs l o : wfb (B k p cs) = true -> lok e (B k p cs) l o -> group_k k || is_statement_k k = true ->
    Forall (fun b => inner_k (bkind b) = true) cs.
  Proof.
    intros Hw L Hk. inversion L as [k0 p0 cs0 pos0 pass0 w0 v0 x0 lines0 ls0 o0 l0 _ _ Hko _ _ _]; subst.
    cbn [wfb] in Hw. apply andb_prop in Hw as [_ Hw]. clear -Hko Hw Hk. destruct k; try discriminate.
    - cbn [kinds_ok] in Hko. destruct cs as [|fn [|lp [|ag [|rp tl]]]]; try discriminate. rewrite !andb_true_iff in Hko. destruct Hko as ((((K1 & K2) & K3) & K4) & K5).
      repeat (constructor; [match goal with |- inner_k ?x = true => destruct x; try discriminate; reflexivity end|]).
      destruct tl as [|cm [|? ?]]; try discriminate; constructor; [destruct (bkind cm); try discriminate; reflexivity|constructor].
    - rewrite forallb_forall in Hw. apply Forall_forall. intros b Hb. apply Hw in Hb. unfold in_arg in Hb. destruct (bkind b); try discriminate; reflexivity.
    - destruct cs as [|[[] ? ?] [|g [|? ?]]]; try discriminate; repeat constructor. destruct (bkind g); try discriminate; reflexivity.
    - rewrite forallb_forall in Hw. apply Forall_forall. intros b Hb. apply Hw in Hb. unfold in_parg in Hb. destruct (bkind b); try discriminate; reflexivity.
    - destruct cs as [|a [|b [|c tl]]]; try discriminate. rewrite !andb_true_iff in Hw. destruct Hw as (((K1 & K2) & K3) & K4).
      repeat (constructor; [match goal with |- inner_k ?x = true => destruct x; try discriminate; reflexivity end|]).
      destruct tl as [|cm [|? ?]]; try discriminate; constructor; [cbn [tail_ok] in K4; destruct (bkind cm); try discriminate; reflexivity|constructor].
  Qed.

  Theorem reflow_span b : wfb b = true -> inner_k (bkind b) = true -> forall sib path term cur passno l o,
    reflow e b sib path term cur passno = Ok (l, o) -> lvalid l = true -> spant e b l.
  Proof.
    induction b as [k p cs IH] using box_ind'. intros Hw Hin sib path term cur passno l o H Hv. cbn [bkind] in *.
    destruct (reflow_lok e _ Htab Hw _ _ _ _ _ _ _ H) as [_ L].
    destruct (leaf_k k) eqn:Hleaf; [eapply leaf_span; [exact Hleaf|eapply leaf_tall; eassumption|exact L]|].
    destruct (is_scalar_k k) eqn:Hsc; [eapply scalar_span; eassumption|].
    assert (Hk : group_k k || is_statement_k k = true) by (destruct k; try discriminate; reflexivity).
    assert (Hgood : Forall (LayoutProofs.good e) (children_of e cs 0)).
    { cbn [wfb] in Hw. apply andb_prop in Hw as [Hw _]. clear -Hw Htab. generalize 0%nat. induction cs as [|b cs IH]; intros n; cbn [children_of]; [constructor|].
      cbn [forallb] in Hw. apply andb_prop in Hw as [W1 W2]. constructor; [|now apply IH].
      intros path term cur pass l o H. cbn [fst snd] in *. eapply reflow_lok; eassumption. }
    pose proof (inner_kids _ _ _ _ _ Hw L Hk) as Hkinds.
    rewrite reflow_eq in H. apply try_passes_last in H as [(pn & w & ps1 & ps2 & Hps & Hlim & E & Hlast)|[H _]]; [|discriminate].
    unfold try_pass in E. apply bindr_ok in E as (a & E & E2). injection E2 as <- <-. cbn [fst lvalid] in *. cbn [bkind bpcs] in *.
    destruct (once e (B k p cs) (children_of e cs 0) _ _ _ _ _ _ Hgood (children_of_fst e cs 0) Hk E) as (G1 & _ & G3 & G4). cbn [bkind bcs] in *.
    assert (Hall : all_valid (a_cs a)).
    { inversion L as [k0 p0 cs0 pos0 pass0 w0 v0 x0 lines0 ls0 o0 l0 _ _ _ _ Hvs _]; subst. exact (proj2 (Hvs Hv)). }
    assert (Hkids : Forall2 (spant e) cs (a_cs a)).
    { assert (Hw' : forall b, In b cs -> wfb b = true) by (cbn [wfb] in Hw; apply andb_prop in Hw as [Hw _]; now rewrite forallb_forall in Hw).
      eapply children_span; [exact IH| |exact G1|exact Hall].
      intros b l n path' term' cur' o' Pb Hb Hr Hg. eapply Pb; [now apply Hw'| |exact Hr|exact Hg]. rewrite Forall_forall in Hkinds. now apply Hkinds. }
    apply andb_prop in Hv as [Va Vb]. econstructor; [rewrite Hleaf; exact Hkids| |exact L|].
    - constructor; [rewrite Hleaf| |exact G4].
      + clear -Hkids. induction Hkids as [|b l cs ls H _ IH]; constructor; auto. now inversion H.
      + intros Ho. apply G3; [exact Ho|now left].
    - intros Hlk. destruct (a_wrap a) eqn:Wa.
      + left. exact (wrapped_stk (B k p cs) _ _ _ _ _ _ _ Hgood (children_of_fst e cs 0) Hlk E Wa).
      + right. unfold validate in Vb. cbn [bkind] in Vb. destruct (_ >? f_linewidth _); [discriminate|].
        destruct k; try discriminate; cbn [is_body_k is_comment_k is_flow_k orb negb] in Vb; rewrite andb_true_r in Vb;
          (destruct (row (a_out a) - row cur >? f_max_lines (cfg e)) eqn:Er; [discriminate|]; rewrite Z.gtb_ltb in Er; apply Z.ltb_ge in Er; exact Er).
  Qed.
End Span.

(** ** Lines of a page *)
Section Rows.
  Variable endl : str.
  Hypothesis He : is_endl endl.
  Lemma endl_one : count_chr cNL endl = 1.
  Proof. pose proof (count_nl_repeat endl 1 He) as H. cbn [repeat_s] in H. rewrite app_nil_r in H. exact H. Qed.
  Lemma row_lines ls : forall cur ext, Forall (fun l => ~ In cNL l) ls ->
    count_chr cNL (List.concat (map (fun l => endl ++ l) ls)) = row (fst (flow_lines cur ext ls)) - row cur.
  Proof.
    induction ls as [|l ls IH]; intros cur ext Hn; cbn [map List.concat flow_lines fst]; [change (count_chr cNL nil) with 0; cbn [after fst]; lia|].
    inversion Hn as [|? ? H1 H2]; subst. rewrite !count_chr_app, endl_one, (proj2 (count_chr_zero cNL l) H1), (IH (Cur (row cur + 1) (zlen l)) (Z.max ext (zlen l)) H2).
    cbn [row colm]. lia.
  Qed.
  Lemma row_text p : count_chr cNL (with_endl endl (p_text p)) = row (p_end p) - row (p_at p).
  Proof.
    unfold p_end, text_flow, with_endl. pose proof (split_on_no cNL (p_text p)) as Hno.
    destruct (split_on cNL (p_text p)) as [|l ls] eqn:E; [cbn [join fst]; change (count_chr cNL nil) with 0; lia|].
    assert (join endl (l :: ls) = l ++ List.concat (map (fun l => endl ++ l) ls)) as -> by exact (proj2 (concat_joins endl ls l)).
    rewrite count_chr_app, (proj2 (count_chr_zero cNL l)) by (apply Hno; now left).
    rewrite (row_lines ls (shift (p_at p) (zlen l)) (colm (shift (p_at p) (zlen l)))) by (apply Forall_forall; intros y Hy; apply Hno; now right).
    cbn [shift row]. lia.
  Qed.
  Lemma row_gap g : count_chr cNL (gap_text endl g) = Z.of_nat (fst g).
  Proof.
    unfold gap_text. rewrite count_chr_app, count_nl_repeat by exact He.
    rewrite (proj2 (count_chr_zero cNL (spaces (Z.of_nat (snd g))))) by apply spaces_no_nl. lia.
  Qed.
  Lemma row_page ps : forall cur gs, gaps_at cur gs ps ->
    count_chr cNL (page endl gs ps) = row (fst (after (cur, None) ps)) - row cur.
  Proof.
    induction ps as [|p ps IH]; intros cur [|g gs] H; try (now destruct H); [cbn [page after fst]; change (count_chr cNL nil) with 0; lia|].
    destruct H as (H1 & _ & H3). cbn [page after]. rewrite (after_any ps (step p) (p_end p, None) eq_refl).
    rewrite !count_chr_app, row_gap, row_text, (IH _ _ H3). lia.
  Qed.
  Lemma gap_blank g : blank_text (gap_text endl g).
  Proof.
    unfold blank_text, gap_text. apply Forall_app. split.
    - induction (fst g) as [|n IH]; cbn [repeat_s]; [constructor|]. apply Forall_app. split; [|exact IH].
      destruct He as [-> | ->]; repeat (apply Forall_cons; [auto|]); apply Forall_nil.
    - unfold spaces. apply Forall_forall. intros y Hy. apply repeat_spec in Hy. now left.
  Qed.
End Rows.

(** ** The words of a group *)
Section Words.
  Variable e : env.
  Notation c := (cfg e).
  Notation endl := (f_endl (cfg e)).
  Hypothesis He : is_endl endl.
  Definition piece_text (u : token) (p : piece) : Prop := word_text endl u (with_endl endl (p_text p)).
  Lemma says_words rs is : says false rs is -> Forall (fun r => is_comment (snd r) = false /\ is_onoff (snd r) = false) rs ->
    forall ps, realizes e is ps -> Forall2 piece_text (map snd rs) ps.
  Proof.
    induction 1 as [|k t rs is Hk Ht Hs IH|k t rs is Hk Ht Hs IH|k t s rs is Hk Ht Hl Hs IH|t s rs is Ho Hs IH|x t rs is Hb Hs IH|x ts p rs is Hne Hts E Hpl Hs IH];
      intros HF qs Hr.
    - inversion Hr; subst. constructor.
    - inversion HF as [|? ? H1 H2]; subst. inversion Hr as [|? ? ? q qs' E1 E2 Hr'|]; subst. cbn [map snd]. constructor; [|now apply IH].
      unfold piece_text. rewrite E1. destruct Hk as [-> | ->]; [left|right; left]; (split; [exact Ht|apply one_line_endl; reflexivity]).
    - inversion HF as [|? ? H1 H2]; subst. inversion Hr as [|? ? ? q qs' E1 E2 Hr'|]; subst. cbn [map snd]. constructor; [|now apply IH].
      right. right. exists (p_text q). rewrite E1. auto.
    - inversion HF as [|? ? H1 H2]; subst. inversion Hr as [|? ? ? q qs' E1 E2 Hr'|]; subst. cbn [map snd]. constructor; [|now apply IH].
      right. right. exists (p_text q). auto.
    - exfalso. inversion HF as [|? ? [_ H1] H2]; subst. cbn [snd] in H1. unfold onoff_text in Ho. unfold is_onoff in H1.
      destruct (tt t); discriminate.
    - exfalso. inversion HF as [|? ? [H1 _] H2]; subst. cbn [snd] in H1. unfold is_comment in H1. unfold is_tt in Hb. destruct (tt t); discriminate.
    - exfalso. destruct ts as [|t ts]; [now elim Hne|]. inversion HF as [|? ? [H1 _] H2]; subst. inversion Hts; subst. cbn [snd] in H1. congruence.
  Qed.
  Lemma words_page ts ps : Forall2 piece_text ts ps -> forall cur gs, gaps_at cur gs ps -> ts <> nil ->
    exists g r, page endl gs ps = gap_text endl g ++ r /\ spells endl ts r.
  Proof.
    induction 1 as [|u p ts ps H HF IH]; intros cur gs Hg Hn; [now elim Hn|]. destruct gs as [|g gs]; [destruct Hg|]. destruct Hg as (_ & _ & Hg).
    cbn [page]. exists g, (with_endl endl (p_text p) ++ page endl gs ps). split; [reflexivity|].
    destruct ts as [|u2 ts]; [inversion HF; subst; destruct gs; [|destruct Hg]; cbn [page]; rewrite app_nil_r; now constructor|].
    destruct (IH _ _ Hg ltac:(discriminate)) as (g' & r & -> & Hr). constructor; [exact H|now apply gap_blank|exact Hr].
  Qed.
End Words.

(** ** Below a statement *)
Section Below.
  Variable e : env.
  Notation c := (cfg e).
  Lemma sub_span n : forall parent l G, tidy false n = true -> wfb (create_box n) = true -> named c parent (create_box n) = true ->
    spant e (create_box n) l -> In G (PropLintChecks.subtrees n) -> group_k (kind_of G) = true ->
    exists parent' m P0 P1, pieces c parent l = P0 ++ pieces c parent' m ++ P1 /\ spant e (create_box G) m
      /\ tidy false G = true /\ wfb (create_box G) = true /\ named c parent' (create_box G) = true
      /\ incl (flat G) (flat n).
  Proof.
    induction n as [t|k cs IH] using pnode_ind'; intros parent l G Ht Hw Hn Htl Hin Hk.
    - cbn [PropLintChecks.subtrees] in Hin. destruct Hin as [<-|[]]. discriminate.
    - cbn [PropLintChecks.subtrees] in Hin. destruct Hin as [<-|Hin].
      { exists parent, l, nil, nil. rewrite app_nil_r. repeat (split; [assumption || reflexivity|]). intros u Hu. exact Hu. }
      apply in_flat_map in Hin as (n & Hcs & Hin). rewrite Forall_forall in IH. specialize (IH n Hcs).
      rewrite create_eq in *. inversion Htl as [k0 p0 cs0 pos pass w v x lines ls o0 Hls _ _ _]; subst.
      cbn [tidy] in Ht. apply andb_prop in Ht as [Ht1 Ht2]. rewrite forallb_forall in Ht2. specialize (Ht2 _ Hcs).
      assert (Hsub : incl (flat n) (flat (N k cs))).
      { intros u Hu. cbn [flat]. apply in_flat_map. exists n. auto. }
      assert (Hnode : exists kn q, n = N kn q /\ (match kn with KWhitespace => false | _ => true end) = true).
      { destruct n as [t|kn q]; [destruct Hin as [<-|[]]; discriminate|]. exists kn, q. split; [reflexivity|]. destruct kn; try reflexivity. exfalso.
        cbn [tidy tidy_k] in Ht2. apply andb_prop in Ht2 as [Ht2 _]. apply andb_prop in Ht2 as [Ht2 _].
        cbn [PropLintChecks.subtrees] in Hin. destruct Hin as [<-|Hin]; [discriminate|]. apply in_flat_map in Hin as (y & Hy & Hin).
        rewrite forallb_forall in Ht2. apply Ht2 in Hy. destruct y; [|discriminate]. destruct Hin as [<-|[]]. discriminate. }
      destruct Hnode as (kn & q & -> & Kn).
      assert (Hleaf : leaf_k k = false).
      { destruct (leaf_k k) eqn:El; [|reflexivity]. exfalso.
        destruct k; try discriminate; cbn [tidy_k] in Ht1.
        - apply andb_prop in Ht1 as [Ht1 _]. rewrite forallb_forall in Ht1. apply Ht1 in Hcs. discriminate.
        - apply andb_prop in Ht1 as [Ht1 _]. apply andb_prop in Ht1 as [Ht1 _]. rewrite forallb_forall in Ht1. apply Ht1 in Hcs. discriminate.
        - destruct cs as [|[t|? ?] [|? ?]]; try discriminate. destruct Hcs as [Hcs|[]]. discriminate.
        - destruct cs as [|[t|? ?] [|? ?]]; try discriminate. destruct Hcs as [Hcs|[]]. discriminate.
        - destruct cs as [|[t|? ?] [|? ?]]; try discriminate. destruct Hcs as [Hcs|[]]. discriminate. }
      rewrite Hleaf in Hls.
      apply in_split in Hcs as (c1 & c2 & Ecs).
      assert (Ek : kids cs = kids c1 ++ create_box (N kn q) :: kids c2).
      { rewrite Ecs. change (N kn q :: c2) with ([N kn q] ++ c2). rewrite !kids_app, kids_one by exact Kn. reflexivity. }
      rewrite Ek in Hls. apply Forall2_app_inv_l in Hls as (l1 & l2 & H1 & H2 & ->). inversion H2 as [|? m ? l3 T1 T2]; subst.
      cbn [wfb] in Hw. apply andb_prop in Hw as [Hw _]. cbn [named] in Hn. apply andb_prop in Hn as [_ Hn].
      rewrite forallb_forall in Hw, Hn. assert (Hb : In (create_box (N kn q)) (kids (c1 ++ N kn q :: c2))) by (rewrite Ek; apply in_or_app; right; now left).
      destruct (IH k m G Ht2 (Hw _ Hb) (Hn _ Hb) T1 Hin Hk) as (parent' & m' & P0 & P1 & E & R1 & R2 & R3 & R4 & R5).
      exists parent', m'. eexists (own_pieces c parent k (c1 ++ N kn q :: c2) pos lines ++ flat_map (pieces c k) l1 ++ P0), (P1 ++ flat_map (pieces c k) l3).
      split; [cbn [pieces]; rewrite flat_map_app; cbn [flat_map]; rewrite E, <- !app_assoc; reflexivity|].
      repeat (split; [assumption|]). exact (incl_tran R5 Hsub).
  Qed.
End Below.

Lemma fitems_flat (P : token -> Prop) n : Forall P (flat n) -> forall d, Forall (fun x => Forall P (flat (snd x))) (fitems d n).
Proof.
  induction n as [t|k cs IH] using pnode_ind'; intros Ht d; [constructor|].
  assert (Hone : Forall (fun x : nat * pnode => Forall P (flat (snd x))) [(d, N k cs)]) by (constructor; [exact Ht|constructor]).
  assert (Hall : forall f, (forall x, exists d, f x = fitems d x) -> Forall (fun x : nat * pnode => Forall P (flat (snd x))) (flat_map f cs)).
  { intros f Hf. clear Hone. cbn [flat] in Ht. induction IH as [|x cs Hx _ IH]; [constructor|]. cbn [flat_map] in Ht. apply Forall_app in Ht as [T1 T2].
    cbn [flat_map]. apply Forall_app. split; [|auto]. destruct (Hf x) as (d1 & ->). now apply Hx. }
  destruct k; try exact Hone; cbn [fitems].
  - destruct (forallb gone cs); [exact Hone|]. apply Hall. intros x. now exists d.
  - destruct (_ <? 2) eqn:E; [constructor|]. exact Hone.
  - apply Hall. intros [t|k1 c1]; [now exists d|]. destruct k1; try now exists d. now exists (S d).
Qed.
Lemma chunk_spans e d n o : cmt_ok e -> 0 <= f_tab (cfg e) -> is_endl (f_endl (cfg e)) -> tidy false n = true ->
  Forall (fun t => is_onoff t = false) (flat n) ->
  item_ok e (d, create_box n) -> chunk e true (d, create_box n) o -> spans (cfg e) (f_endl (cfg e)) (d, n) (PropLines.line_of o).
Proof.
  intros Hcmt Htab He Ht Hoo (W1 & W2 & W3 & W4) H. cbn [snd] in *. unfold spans. cbn [snd].
  destruct n as [|k p]; [exact Logic.I|]. destruct k; try exact Logic.I. intros kg cs Hin Hkg Hq. set (ws := filter TidyShape.nonws (flat (N kg cs))) in *.
  inversion H as [d0 b0 Hb|d0 b0 parent path term pass sib cur l o0 q ps gs Hb Hr Hcol Hpc Hat Hgs Hvl]; subst; [discriminate Hb|].
  assert (Hgk : group_k kg = true) by (destruct kg; try discriminate; reflexivity).
  assert (W2' : named (cfg e) parent (create_box (N (KStatement cmdspec) p)) = true) by (rewrite (named_parent e _ parent KBody); [exact W2|reflexivity]).
  assert (Htl : spant e (create_box (N (KStatement cmdspec) p)) l).
  { exact (reflow_span e Htab _ W1 eq_refl _ _ _ _ _ _ _ Hr (Hvl eq_refl)). }
  destruct (sub_span e _ parent l (N kg cs) Ht W1 W2' Htl Hin Hgk) as (parent' & m & P0 & P1 & E & Tm & T2 & Wg & Ng & Hsub).
  destruct (members_kids kg cs T2 Wg Hkg) as (K1 & K2 & K3).
  set (s := PropLines.line_of _).
  assert (Hs : exists g0, s = page (f_endl (cfg e)) g0 (pieces (cfg e) parent l) /\ gaps_at (Cur (row (p_at q)) 0) g0 (pieces (cfg e) parent l)).
  { exists ((0%nat, Z.to_nat (Z.of_nat d * f_tab (cfg e))) :: gs). rewrite Hpc. split.
    - subst s. cbn [PropLines.line_of page]. unfold gap_text. cbn [fst snd repeat_s app]. now rewrite Z2Nat.id by nia.
    - cbn [gaps_at fst snd row colm]. split; [lia|]. split; [|exact Hgs]. rewrite Z.eqb_refl, Z2Nat.id by nia. lia. }
  destruct Hs as (g0 & Es & Hg). rewrite E in Es, Hg.
  destruct (gaps_split _ _ _ _ Hg) as (ga & gr & -> & Ga & Gr). rewrite (page_app _ _ _ _ _ _ Ga) in Es.
  destruct (gaps_split _ _ _ _ Gr) as (gm & gz & -> & Gm & Gz). rewrite (page_app _ _ _ _ _ _ Gm) in Es.
  pose proof (box_says false (cfg e) (N kg cs) T2 ltac:(discriminate) parent' KBody ltac:(discriminate) Ng) as Hsay.
  pose proof (box_tokens false (N kg cs) T2) as Hbt. cbn beta iota in Hbt.
  rewrite create_eq in Tm, Wg, Ng. inversion Tm as [k0 p0 cs0 pos pass0 w0 v0 x0 lines ls om Hls Htall Hlok Hst]; subst.
  assert (Hleaf : leaf_k kg = false) by (destruct kg; try discriminate; reflexivity).
  destruct (Hst Hkg) as [Hstk|Hrows].
  - left. inversion Htall as [k2 p2 cs2 pos2 pass2 w2 v2 x2 lines2 ls2 Hls2 _ _]; subst. rewrite Hleaf in Hls2. rewrite K1 in Hstk, Hls2.
    assert (Epm : pieces (cfg e) parent' (Lay kg cs pos pass0 w0 v0 x0 lines ls) = flat_map (pieces (cfg e) kg) ls) by (destruct kg; try discriminate; reflexivity).
    rewrite Epm in Gm, Es.
    assert (Hmem : Forall (member_ok e kg) (members cs)).
    { cbn [wfb] in Wg. apply andb_prop in Wg as [Wg _]. cbn [named] in Ng. apply andb_prop in Ng as [_ Ng]. rewrite forallb_forall in Wg, Ng.
      rewrite Forall_forall in K3 |- *. intros y Hy. destruct (K3 _ Hy) as (Y1 & Y2 & Y3). assert (Hb' : In (create_box y) (kids cs)) by (rewrite K1; now apply in_map).
      repeat split; auto. }
    pose proof (first_tower e Hcmt He kg (colm pos) _ _ _ _ _ Hstk Hmem Hls2 Gm) as F. unfold tower. destruct (filter worded (members cs)) as [|m0 ms]; [exact Logic.I|].
    destruct F as (g & t & rest & F1 & F2 & F3 & F4). rewrite F1 in Es.
    assert (Hc0 : col_of (page (f_endl (cfg e)) ga P0) = colm (fst (after (Cur (row (p_at q)) 0, None) P0))).
    { exact (col_page _ He P0 nil (Cur (row (p_at q)) 0) ga eq_refl Ga). }
    specialize (F2 _ Hc0).
    exists (page (f_endl (cfg e)) ga P0 ++ gap_text (f_endl (cfg e)) g), t, rest, (page (f_endl (cfg e)) gz P1).
    split; [|auto]. rewrite Es, F2. unfold col_row. now rewrite <- !app_assoc.
  - assert (Hws : ws = map snd (roles (create_box (N kg cs)))) by (rewrite roles_toks; symmetry; exact Hbt).
    destruct ws as [|u us] eqn:Ews.
    + left. unfold tower. assert (filter worded (members cs) = nil) as ->; [|exact Logic.I].
      assert (Hno : forall t, In t (flat (N kg cs)) -> TidyShape.nonws t = false).
      { intros t Hu. destruct (TidyShape.nonws t) eqn:En; [|reflexivity]. assert (F : In t ws) by (apply filter_In; auto). rewrite Ews in F. destruct F. }
      clear -Hno. assert (H : forall n, In n (members cs) -> worded n = false).
      { intros n Hn. unfold members in Hn. apply filter_In in Hn as [Hn _]. unfold worded. apply not_true_iff_false. intros F. apply existsb_exists in F as (t & F1 & F2).
        rewrite Hno in F2; [discriminate|]. cbn [flat]. apply in_flat_map. exists n. auto. }
      induction (members cs) as [|n ns IH]; [reflexivity|]. cbn [filter]. rewrite H by now left. apply IH. intros y Hy. apply H. now right.
    + right. rewrite <- Ews in *.
      assert (HR : realizes e (items (cfg e) parent' (create_box (N kg cs))) (pieces (cfg e) parent' (Lay kg cs pos pass0 w0 v0 x0 lines ls))).
      { rewrite create_eq. exact (proj1 (lok_realizes e) _ _ _ Hlok parent' Wg). }
      assert (HFr : Forall (fun r => is_comment (snd r) = false /\ is_onoff (snd r) = false) (roles (create_box (N kg cs)))).
      { apply Forall_forall. intros r Hr'. assert (Hw : In (snd r) ws) by (rewrite Hws; now apply in_map). split.
        - rewrite forallb_forall in Hq. apply Hq in Hw. now apply negb_true_iff in Hw.
        - subst ws. apply filter_In in Hw as [Hw _]. rewrite Forall_forall in Hoo. apply Hoo, Hsub, Hw. }
      pose proof (says_words e _ _ Hsay HFr _ HR) as HP. rewrite <- Hws in HP.
      destruct (proj1 (lok_placed false e Hcmt) _ _ _ Hlok parent' (pos, None) Wg ltac:(discriminate) (named_names _ _ _ Ng)) as [HPl [HA _]].
      { split; [apply cle_refl|]. split; [discriminate|]. right. reflexivity. }
      set (pm := pieces (cfg e) parent' (Lay kg cs pos pass0 w0 v0 x0 lines ls)) in *.
      destruct pm as [|p1 pr] eqn:Epm; [rewrite Ews in HP; inversion HP|].
      destruct gm as [|g gm]; [destruct Gm|]. destruct Gm as (G1 & G2 & G3).
      assert (Hsp : spells (f_endl (cfg e)) ws (with_endl (f_endl (cfg e)) (p_text p1) ++ page (f_endl (cfg e)) gm pr)).
      { rewrite Ews in HP |- *. inversion HP as [|? ? ? ? Q1 Q2]; subst. destruct us as [|u2 us].
        - inversion Q2; subst. destruct gm; [|destruct G3]. cbn [page]. rewrite app_nil_r. now constructor.
        - destruct (words_page e He _ _ Q2 _ _ G3 ltac:(discriminate)) as (g' & r & -> & Hr'). constructor; [exact Q1|now apply gap_blank|exact Hr']. }
      exists (page (f_endl (cfg e)) ga P0 ++ gap_text (f_endl (cfg e)) g), (with_endl (f_endl (cfg e)) (p_text p1) ++ page (f_endl (cfg e)) gm pr), (page (f_endl (cfg e)) gz P1).
      split; [rewrite Es; cbn [page]; now rewrite <- !app_assoc|]. split; [exact Hsp|].
      rewrite count_chr_app, (row_text _ He), (row_page _ He _ _ _ G3).
      destruct HPl as [(B1 & _) _]. cbn [after] in HA. rewrite (after_any pr (step p1) (p_end p1, None) eq_refl) in HA. cbn [fst] in *.
      assert (row pos <= row (p_at p1)) by (destruct B1 as [B1|[B1 _]]; lia).
      assert (row (fst (after (p_end p1, None) pr)) <= row om) by (destruct HA as [HA|[HA _]]; lia). lia.
Qed.

(** C139: where the whole file was laid out within the line width, a positional group
    and an argument list without comments is written vertically or takes at most
    max_lines_hwrap line endings, whatever the layout passes and limits. *)
Theorem C139_lines_limit c specs tbl src text :
  run_cfg c specs tbl -> p_usetabs c = false -> f_autosort (p_fmt c) = false ->
  process_file c src = Ok (text, true) ->
  forall toks, tokenize src = Ok toks -> no_switch toks = true ->
  exists tree chs, parse (p_ctx c) toks = Ok tree
    /\ Forall2 (spans (effective c src) (f_endl (effective c src))) (trim_end blank_item (fitems 0 tree)) chs
    /\ text = bom_text c ++ join (f_endl (effective c src)) chs ++ f_endl (effective c src).
Proof.
  intros R Ht Ha H toks Hl Hno.
  destruct (file_chunks _ _ _ _ _ _ R Ht H toks Hl Hno) as (tree & chs & E & Htree & (Hc & Htab) & HF & _ & ->).
  exists tree, chs. split; [exact E|]. split; [|reflexivity].
  assert (He : is_endl (f_endl (effective c src))) by (apply eff_endl, R).
  assert (Ha' : f_autosort (cfg (pipe_env c src toks)) = false) by (cbn [pipe_env cfg]; unfold effective; destruct (p_auto c); exact Ha).
  change (effective c src) with (cfg (pipe_env c src toks)) in *.
  assert (Htd : Forall (fun x => tidy false (snd x) = true) (trim_end blank_item (fitems 0 tree))).
  { apply Forall_forall. intros x Hx. apply trim_end_in in Hx. pose proof (fitems_tidy false tree Htree 0%nat) as Hf. rewrite Forall_forall in Hf. exact (Hf _ Hx). }
  assert (Hoo : Forall (fun x => Forall (fun t => is_onoff t = false) (flat (snd x))) (trim_end blank_item (fitems 0 tree))).
  { apply Forall_forall. intros x Hx. apply trim_end_in in Hx.
    assert (Hfl : Forall (fun t => is_onoff t = false) (flat tree)).
    { assert (Ho : no_onoff toks).
      { unfold no_switch in Hno. rewrite forallb_forall in Hno. apply Forall_forall. intros t Hin. apply Hno in Hin. now apply negb_true_iff. }
      assert (Ep : parse (p_ctx c) toks = Ok tree) by exact E. destruct R as ((ex & vt & Hctx) & Hut & _). rewrite Hctx in Ep.
      destruct (C05_file_tuples_partial ex vt specs tbl Hut _ _ _ Hl Ho Ep) as [HP _].
      apply Forall_forall. intros t Hin. apply Permutation_sym in HP. apply (Permutation_in _ HP) in Hin.
      unfold no_onoff in Ho. rewrite Forall_forall in Ho. apply Ho.
      destruct toks as [|u r]; [destruct Hin|]. unfold strip_bom_tok in Hin. destruct (is_tt _ u); [now right|exact Hin]. }
    pose proof (fitems_flat _ tree Hfl 0%nat) as Hf. rewrite Forall_forall in Hf. exact (Hf _ Hx). }
  clear H. revert Htd Hoo. induction HF as [|[d n] s xs ys HG HF IH]; intros Htd Hoo; [constructor|]. inversion Htd as [|? ? T1 T2]; subst. inversion Hoo as [|? ? O1 O2]; subst.
  constructor; [|now apply IH].
  destruct HG as (G & I & o & Ho & ->). cbn [fst snd] in *. rewrite Ha', lock_off in I, Ho. apply chunk_spans; [exact Hc|exact Htab|exact He|exact T1|exact O1|exact I|exact Ho].
Qed.

(** five words of 28 letters: within a limit of 2 they take three lines, within a limit
    of 1 they are written vertically *)
Definition wide (ch : chr) : str := repeat ch 28.
Definition span_file : str :=
  nl [$"foo(" ++ join $" " [wide 97%N; wide 98%N; wide 99%N; wide 100%N; wide 101%N] ++ $")"; $"set(names a b c d e)"].
Example C139_lines_limit_ex :
  run_cfg (opt_pcfg nil 2 9 10) nil nil
  /\ (exists toks tree, tokenize span_file = Ok toks /\ no_switch toks = true /\ parse (p_ctx (opt_pcfg nil 2 9 10)) toks = Ok tree
      /\ existsb (fun n => match n with
                           | N k _ => listing_k k && (4 <? zlen (filter TidyShape.nonws (flat n)))
                                      && forallb (fun t => negb (is_comment t)) (flat n)
                           | _ => false
                           end) (PropLintChecks.subtrees tree) = true)
  /\ process_file (opt_pcfg nil 2 9 10) span_file = Ok (nl
       [$"foo(" ++ wide 97%N ++ $" " ++ wide 98%N; $"    " ++ wide 99%N ++ $" " ++ wide 100%N; $"    " ++ wide 101%N ++ $")";
        $"set(names a b c d e)"], true)
  /\ process_file (opt_pcfg nil 1 9 10) span_file = Ok (nl
       [$"foo(" ++ wide 97%N; $"    " ++ wide 98%N; $"    " ++ wide 99%N; $"    " ++ wide 100%N; $"    " ++ wide 101%N ++ $")";
        $"set(names a b c d e)"], true).
Proof.
  split; [exact default_run|]. split.
  - eexists; eexists. split; [vm_compute; reflexivity|]. split; [vm_compute; reflexivity|]. split; [vm_compute; reflexivity|]. vm_compute. reflexivity.
  - split; vm_compute; reflexivity.
Qed.
