(** * PropLines: a formatted file is one run of lines per item of the file *)
From Coq Require Import Permutation.
From Verif Require Import Base Regex Lex LexProofs LexClass PropLex TextOps TextProofs PropText
  Tree Parse ParseProofs PropParse CmdSpec StdSpecs StdDb StdWf PropStd Layout LayoutProofs LayoutCols Pieces Writing
  PropLayout Markup Pipeline ParseShape StdShape NamesShape CommentShape TidyShape PropFile PropIndent Walk ParseTerm ParseBlank OutSame.

(** ** Where the texts of an item begin and end *)
Definition ends_on (ps : list piece) (r : Z) : Prop := exists pre p, ps = pre ++ [p] /\ row (p_end p) = r.
Lemma ends_on_app a b r : ends_on b r -> ends_on (a ++ b) r.
Proof. intros (pre & p & -> & H). exists (a ++ pre), p. now rewrite app_assoc. Qed.

Lemma no_nl_split s : ~ In cNL s -> split_on cNL s = [s].
Proof.
  induction s as [|a s IH]; intros H; [reflexivity|]. cbn [split_on]. rewrite IH by (intros F; apply H; now right).
  destruct (N.eqb_spec a cNL) as [->|_]; [|reflexivity]. elim H. now left.
Qed.
Section Ends.
  Variable e : env.
  Hypothesis Hcmt : cmt_ok e.
  Hypothesis Htab : 0 <= f_tab (cfg e).
  Let c := cfg e.

  Lemma line_pieces_end ls : forall p, ls <> nil -> Forall (fun s => ~ In cNL s) ls ->
    ends_on (line_pieces p ls) (row p + zlen ls - 1).
  Proof.
    induction ls as [|a ls IH]; intros p Hne H; [now elim Hne|]. inversion H as [|? ? Ha Hls]; subst. cbn [line_pieces].
    destruct ls as [|b ls].
    - exists nil, (Pc p a PkLine). split; [reflexivity|]. unfold p_end, text_flow. cbn [p_at p_text].
      rewrite no_nl_split by exact Ha. cbn [fst flow_lines row shift]. change (zlen [a]) with 1. lia.
    - change (Pc p a PkLine :: line_pieces (Cur (row p + 1) (colm p)) (b :: ls))
        with ([Pc p a PkLine] ++ line_pieces (Cur (row p + 1) (colm p)) (b :: ls)).
      apply ends_on_app. replace (row p + zlen (a :: b :: ls) - 1) with (row (Cur (row p + 1) (colm p)) + zlen (b :: ls) - 1).
      + apply IH; [discriminate|exact Hls].
      + cbn [row]. rewrite (zlen_cons a). lia.
  Qed.

  Definition closing_k (k : kind) : bool :=
    match k with KRParen | KComment _ | KOnOff | KAtWord => true | _ => false end.
  Lemma closing_end b l o parent : lok e b l o -> wfb b = true -> names_ok c parent b = true ->
    closing_k (bkind b) = true ->
    (exists p ps, pieces c parent l = p :: ps /\ p_at p = lpos l) /\ ends_on (pieces c parent l) (row o).
  Proof.
    intros H Hw Hn Hk. inversion H as [k p cs pos pass w v x lines ls o0 l0 Ho Hli Hko Hx Hv Hls]; subst.
    cbn [bkind] in Hk. subst l0. cbn [lpos pieces].
    assert (ls = nil /\ o = own_end (Lay k p pos pass w v x lines ls)) as [-> ->].
    { assert (E : (if leaf_k k then [] else cs) = nil).
      { destruct k; try discriminate; try reflexivity. cbn [wfb] in Hw. rewrite !andb_true_iff in Hw. destruct Hw as [_ [_ Hw]]. now destruct cs. }
      rewrite E in Hls. now inversion Hls. }
    cbn [flat_map]. rewrite app_nil_r. clear Hls Hx Hv Ho Hko.
    destruct k; try discriminate; unfold own_end, own_pieces, lines_ok in *; cbn [lkind lpcs lpos llines] in *.
    - (* comment *)
      destruct (is_bracket p) eqn:Eb.
      + split; [eexists; eexists; split; reflexivity|]. exists nil. eexists. split; [reflexivity|].
        unfold p_end. cbn [p_at p_text]. now rewrite text_flow_norm.
      + destruct Hli as [Hc Hne]. split.
        { destruct lines; [now elim Hne|]. cbn [line_pieces]. eexists. eexists. split; reflexivity. }
        cbn [row]. apply line_pieces_end; [exact Hne|]. eapply Hcmt; [|exact Hc].
        cbn [wfb] in Hw. rewrite !andb_true_iff in Hw. apply Hw.
    - (* switch *)
      cbn [wfb] in Hw. rewrite !andb_true_iff in Hw. destruct Hw as [_ [Hw _]]. unfold onoff_ok in Hw.
      destruct p as [|[t|] [|]]; try discriminate. cbn [first_tok]. destruct (onoff_text t) as [s|] eqn:Es; [|discriminate].
      split; [eexists; eexists; split; reflexivity|]. exists nil. eexists. split; [reflexivity|].
      unfold p_end. cbn [p_at p_text]. rewrite text_flow_one; [reflexivity|].
      unfold onoff_text in Es. destruct (tt t); try discriminate; injection Es as <-; split; intros F; vm_compute in F; firstorder discriminate.
    - (* at-word *)
      cbn [names_ok is_scalar_k] in Hn. apply andb_prop in Hn as [Hn _].
      destruct p as [|[t|] p]; try discriminate.
      destruct (scalar_piece c parent KAtWord p t eq_refl Hn) as (s & E1 & E2). rewrite E1.
      split; [eexists; eexists; split; reflexivity|]. exists nil. eexists. split; [reflexivity|].
      unfold p_end. cbn [p_at p_text]. now rewrite E2.
    - (* parenthesis *)
      split; [eexists; eexists; split; reflexivity|]. exists nil. eexists. split; [reflexivity|]. reflexivity.
  Qed.
  Lemma loks_last k pv pos bs b ls o : loks e k pv pos (bs ++ [b]) ls o ->
    exists ls' l, ls = ls' ++ [l] /\ lok e b l o.
  Proof.
    revert pv pos ls. induction bs as [|x bs IH]; intros pv pos ls H; cbn [app] in H.
    - inversion H as [|? ? ? ? ? l ls1 o1 ? Hs Hl Hr]; subst. inversion Hr; subst. now exists nil, l.
    - inversion H as [|? ? ? ? ? l ls1 o1 ? Hs Hl Hr]; subst. apply IH in Hr as (ls' & l' & -> & Hl'). exists (l :: ls'), l'. auto.
  Qed.

  (** the kinds of the items of a file *)
  Definition item_k (k : kind) : bool :=
    match k with KBody | KWhitespace | KComment _ | KOnOff | KStatement _ | KAtStmt => true | _ => false end.
  Lemma item_texts b sib path term cur pass l o parent :
    wfb b = true -> named c parent b = true -> item_k (bkind b) = true -> (bkind b = KBody -> bcs b = nil) ->
    reflow e b sib path term cur pass = Ok (l, o) ->
    if blank_k (bkind b) then pieces c parent l = nil /\ o = cur
    else (exists p ps, pieces c parent l = p :: ps /\ p_at p = cur) /\ ends_on (pieces c parent l) (row o).
  Proof.
    intros Hw Hn Hk Hb H. assert (Hl := H). apply reflow_lok in Hl as [Hp Hl]; [|exact Htab|exact Hw].
    assert (Hno := named_names _ _ _ Hn).
    destruct b as [k p cs]. cbn [bkind bcs] in *.
    destruct (blank_k k) eqn:Eb.
    { inversion Hl as [k0 p0 cs0 pos pass0 w v x lines ls o0 l0 Ho Hli Hko Hx Hv Hls]; subst.
      assert (E : (if leaf_k k then [] else cs) = nil) by (destruct k; try discriminate; try reflexivity; now apply Hb).
      rewrite E in Hls. inversion Hls; subst. subst l0. cbn [pieces flat_map].
      destruct k; try discriminate; split; reflexivity. }
    destruct (closing_k k) eqn:Ec.
    { subst cur. now apply (closing_end (B k p cs)). }
    destruct k; try discriminate.
    - (* statement *)
      destruct (stmt_shape e Htab _ _ _ _ _ _ _ _ _ _ Hw H) as (t & p1 & lf & ll & rest & E1 & E2 & E3 & E4).
      destruct cs as [|b1 cs]; [discriminate|]. injection E1 as ->.
      inversion Hl as [k0 p0 cs0 pos pass0 w v x lines ls o0 l0 Ho Hli Hko Hx Hv Hls]; subst.
      subst l0. cbn [lcs lpos] in *. subst ls. cbn [leaf_k] in Hls. cbn [pieces own_pieces app].
      cbn [wfb] in Hw. apply andb_prop in Hw as [Hw _]. cbn [named is_scalar_k] in Hn. cbn [andb] in Hn.
      split.
      + inversion Hls as [|? ? ? ? ? ? ? o1 ? Hs1 Hl1 Hls1]; subst.
        inversion Hl1 as [k1 p2 cs1 pos1 pass1 w1 v1 x1 lines1 ls1 oo1 l1 Ho1 Hli1 Hko1 Hx1 Hv1 Hls3]; subst. subst l1.
        cbn [flat_map pieces own_pieces lpos] in *.
        cbn [forallb] in Hn. apply andb_prop in Hn as [Hn _]. cbn [named is_scalar_k forallb] in Hn. rewrite andb_true_r in Hn.
        unfold text_ok in Hn. apply andb_prop in Hn as [Hn _].
        destruct (scalar_piece c (KStatement cmdspec) KFunname p1 t eq_refl Hn) as (n & En & _). rewrite En. cbn [app].
        eexists. eexists. split; reflexivity.
      + cbn [kinds_ok] in Hko. destruct cs as [|b2 [|b3 [|b4 tl]]]; try discriminate.
        rewrite !andb_true_iff in Hko. destruct Hko as [[[[_ K2] K3] K4] K5].
        assert (exists bs b5, B KFunname (T t :: p1) [] :: b2 :: b3 :: b4 :: tl = bs ++ [b5] /\ closing_k (bkind b5) = true) as (bs & b5 & Eb5 & Hc5).
        { destruct tl as [|cm [|]]; [| |discriminate].
          - exists [B KFunname (T t :: p1) []; b2; b3], b4. split; [reflexivity|]. destruct (bkind b4); try discriminate; reflexivity.
          - exists [B KFunname (T t :: p1) []; b2; b3; b4], cm. split; [reflexivity|]. destruct (bkind cm); try discriminate; reflexivity. }
        rewrite Eb5 in Hls, Hw, Hn. apply loks_last in Hls as (ls' & l' & -> & Hl').
        rewrite flat_map_app. apply ends_on_app. cbn [flat_map]. rewrite app_nil_r.
        rewrite forallb_app in Hw, Hn. apply andb_prop in Hw as [_ Hw]. apply andb_prop in Hn as [_ Hn]. cbn [forallb] in Hw, Hn.
        rewrite andb_true_r in Hw, Hn. apply (closing_end b5); auto. now apply named_names.
    - (* at-word statement *)
      assert (Hfirst : exists aw tl la rest, cs = aw :: tl /\ lcs l = la :: rest /\ lpos la = cur /\ is_atword_k (bkind aw) = true).
      { rewrite reflow_eq in H. destruct cs as [|aw tl].
        { exfalso. revert H. apply (try_passes_inv (fun _ => False)); [|discriminate]. intros pn w y E. unfold try_pass in E. bk E. discriminate Hx. }
        exists aw, tl.
        change (exists la rest, aw :: tl = aw :: tl /\ lcs (fst (l, o)) = la :: rest /\ lpos la = cur /\ is_atword_k (bkind aw) = true). revert H.
        apply (try_passes_inv (fun y => exists la rest, aw :: tl = aw :: tl /\ lcs (fst y) = la :: rest /\ lpos la = cur /\ is_atword_k (bkind aw) = true)); [|discriminate].
        intros pn w [l' o'] E. unfold try_pass in E. bk E. injection E as <- <-. cbn [fst lcs].
        unfold reflow_once in Hx. cbn [bkind] in Hx. unfold reflow_atstmt in Hx. cbn [children_of] in Hx.
        destruct (negb (is_atword_k _)) eqn:Ek; [discriminate|]. apply negb_false_iff in Ek. bk Hx. destruct x0 as [la c1]. cbn [snd] in Hx0.
        cbn [wfb forallb] in Hw. apply andb_prop in Hw as [Hw _]. apply andb_prop in Hw as [Hw1 _].
        apply reflow_lok in Hx0 as [Pa _]; [|exact Htab|exact Hw1].
        destruct (children_of e tl _) as [|cm [|]]; [| |discriminate].
        - injection Hx as <-. cbn [a_cs]. exists la, nil. auto.
        - destruct (negb (is_comment_k _)); [discriminate|]. bk Hx. destruct x0 as [lc c2]. bk Hx. destruct x0 as [lc' c3]. injection Hx as <-.
          cbn [a_cs]. exists la, [lc']. auto. }
      destruct Hfirst as (aw & tl & la & rest & -> & E2 & E3 & E4).
      inversion Hl as [k0 p0 cs0 pos pass0 w v x lines ls o0 l0 Ho Hli Hko Hx Hv Hls]; subst.
      subst l0. cbn [lcs lpos] in *. subst ls. cbn [leaf_k] in Hls. cbn [pieces own_pieces app].
      cbn [wfb] in Hw. apply andb_prop in Hw as [Hw _]. cbn [named is_scalar_k] in Hn. cbn [andb] in Hn.
      split.
      + inversion Hls as [|? ? ? ? ? ? ? o1 ? Hs1 Hl1 Hls1]; subst. cbn [forallb] in Hw, Hn.
        apply andb_prop in Hw as [Hw _]. apply andb_prop in Hn as [Hn _].
        destruct (closing_end aw la o1 KAtStmt Hl1 Hw (named_names _ _ _ Hn)) as [(q & qs & Eq & Pq) _].
        { destruct (bkind aw); try discriminate; reflexivity. }
        cbn [flat_map]. rewrite Eq. cbn [app]. eexists. eexists. split; [reflexivity|]. exact Pq.
      + cbn [kinds_ok] in Hko.
        assert (exists bs b5, aw :: tl = bs ++ [b5] /\ closing_k (bkind b5) = true) as (bs & b5 & Eb5 & Hc5).
        { rewrite E4 in Hko. cbn [andb] in Hko. destruct tl as [|cm [|]]; [| |discriminate].
          - exists nil, aw. split; [reflexivity|]. destruct (bkind aw); try discriminate; reflexivity.
          - exists [aw], cm. split; [reflexivity|]. destruct (bkind cm); try discriminate; reflexivity. }
        rewrite Eb5 in Hls, Hw, Hn. apply loks_last in Hls as (ls' & l' & El & Hl'). rewrite El.
        rewrite flat_map_app. apply ends_on_app. cbn [flat_map]. rewrite app_nil_r.
        rewrite forallb_app in Hw, Hn. apply andb_prop in Hw as [_ Hw]. apply andb_prop in Hn as [_ Hn]. cbn [forallb] in Hw, Hn.
        rewrite andb_true_r in Hw, Hn. apply (closing_end b5); auto. now apply named_names.
  Qed.
End Ends.

(** ** The lines of each item *)
(** line endings before an item, [n] of them left over from blank lines; a blank
    line is [None] *)
Fixpoint asm (endl : str) (n : nat) (chs : list (option str)) : str :=
  match chs with
  | nil => nil
  | None :: r => asm endl (S n) r
  | Some t :: r => repeat_s (S n) endl ++ t ++ asm endl 0 r
  end.
Lemma gaps_at_app cur ps qs : forall gs, gaps_at cur gs (ps ++ qs) ->
  exists g1 g2, gs = g1 ++ g2 /\ gaps_at cur g1 ps /\ (forall pre p, ps = pre ++ [p] -> gaps_at (p_end p) g2 qs)
    /\ (ps = nil -> gaps_at cur g2 qs).
Proof.
  revert cur. induction ps as [|p ps IH]; intros cur gs H.
  - exists nil, gs. split; [reflexivity|]. split; [exact I|]. split; [|auto]. intros pre p E. now destruct pre.
  - destruct gs as [|g gs]; [destruct H|]. cbn [app gaps_at] in H. destruct H as (H1 & H2 & H3).
    apply IH in H3 as (g1 & g2 & -> & A & B & C). exists (g :: g1), g2. split; [reflexivity|]. split; [now split|].
    split; [|discriminate]. intros pre q E. destruct pre as [|r pre]; cbn in E; injection E as -> E.
    + subst ps. now apply C.
    + now apply (B pre).
Qed.
Lemma page_app endl ps qs : forall cur g1 g2, gaps_at cur g1 ps -> page endl (g1 ++ g2) (ps ++ qs) = page endl g1 ps ++ page endl g2 qs.
Proof.
  induction ps as [|p ps IH]; intros cur [|g g1] g2 H; try (now destruct H). destruct H as (_ & _ & H).
  cbn [app page]. rewrite (IH _ _ _ H). now rewrite <- !app_assoc.
Qed.

Section Chunks.
  Variable e : env.
  Hypothesis Hcmt : cmt_ok e.
  Hypothesis Htab : 0 <= f_tab (cfg e).
  Local Notation c := (cfg e).
  Local Notation endl := (f_endl (cfg e)).
  Variable val : bool.

  Inductive chunk : nat * box -> option str -> Prop :=
  | chunk_blank d b : blank_k (bkind b) = true -> chunk (d, b) None
  | chunk_text d b parent path term pass sib cur l o p ps gs :
      blank_k (bkind b) = false ->
      reflow e b sib path term cur pass = Ok (l, o) -> colm cur = Z.of_nat d * f_tab c ->
      pieces c parent l = p :: ps -> p_at p = cur -> gaps_at (p_end p) gs ps -> vld val l ->
      chunk (d, b) (Some (spaces (Z.of_nat d * f_tab c) ++ with_endl endl (p_text p) ++ page endl gs ps)).

  Definition item_ok (x : nat * box) : Prop :=
    wfb (snd x) = true /\ named c KBody (snd x) = true /\ item_k (bkind (snd x)) = true
    /\ (bkind (snd x) = KBody -> bcs (snd x) = nil).
  Lemma named_parent b p p' : is_scalar_k (bkind b) = false -> named c p b = named c p' b.
  Proof. destruct b as [k q cs]. cbn [bkind named]. now intros ->. Qed.

  Lemma walk_asm pos es ps o : walk e val pos es ps o -> Forall item_ok es ->
    forall cur gs n, gaps_at cur gs ps -> row cur + Z.of_nat n = row pos ->
    exists chs, Forall2 chunk es chs /\ page endl gs ps = asm endl n chs.
  Proof.
    induction 1 as [p|pos d b es parent path term pass sib l o rest o' Hr Hvl Hw IH]; intros Hes cur gs n Hg Hrow.
    - exists nil. split; [constructor|]. destruct gs; [reflexivity|destruct Hg].
    - inversion Hes as [|? ? (W1 & W2 & W3 & W4) Hes']; subst. cbn [snd] in *.
      assert (Hn : named c parent b = true).
      { rewrite (named_parent b parent KBody); [exact W2|]. destruct (bkind b); try discriminate; reflexivity. }
      pose proof (item_texts e Hcmt Htab b sib path term _ pass l o parent W1 Hn W3 W4 Hr) as Ht.
      apply gaps_at_app in Hg as (g1 & g2 & -> & G1 & G2 & G3).
      destruct (blank_k (bkind b)) eqn:Eb.
      + destruct Ht as [Hp ->]. rewrite Hp in *. destruct g1; [|destruct G1]. cbn [app].
        destruct (IH Hes' cur g2 (S n) (G3 eq_refl)) as (chs & C1 & C2); [cbn [row]; lia|].
        exists (None :: chs). split; [|exact C2]. constructor; [now constructor|exact C1].
      + destruct Ht as [(p & qs & Hp & Hat) (pre & z & Hz & Hrz)].
        destruct (IH Hes' (p_end z) g2 0%nat (G2 _ _ Hz)) as (chs & C1 & C2); [lia|].
        rewrite (page_app _ _ _ _ _ _ G1). rewrite Hp in *. destruct g1 as [|g g1]; [destruct G1|]. destruct G1 as (Q1 & Q2 & Q3).
        exists (Some (spaces (Z.of_nat d * f_tab c) ++ with_endl endl (p_text p) ++ page endl g1 qs) :: chs).
        split; [constructor; [|exact C1]; eapply chunk_text; eauto|].
        cbn [page asm]. rewrite C2. unfold gap_text. rewrite Hat in Q1, Q2. cbn [row colm] in Q1, Q2.
        replace (row cur =? row pos + 1) with false in Q2 by (symmetry; apply Z.eqb_neq; lia).
        rewrite Q2. replace (fst g) with (S n) by lia. now rewrite <- !app_assoc.
  Qed.

  Lemma bitems_ok b : wfb b = true -> named c KBody b = true ->
    (item_k (bkind b) || is_flow_k (bkind b) = true) -> forall d, Forall item_ok (bitems d b).
  Proof.
    induction b as [k p cs IH] using box_ind'. intros Hw Hn Hk d. cbn [bkind] in Hk.
    assert (Hws : forallb wfb cs = true) by (cbn [wfb] in Hw; now apply andb_prop in Hw).
    assert (Hns : is_scalar_k k = false -> forallb (named c k) cs = true) by (cbn [named]; intros _; cbn [named] in Hn; now apply andb_prop in Hn).
    assert (Hone : item_k k = true -> (k = KBody -> cs = nil) -> Forall item_ok [(d, B k p cs)]).
    { intros Hi Hb. constructor; [|constructor]. split; [exact Hw|]. split; [exact Hn|]. split; [exact Hi|exact Hb]. }
    assert (Hall : forall f : box -> nat, Forall (fun x => item_k (bkind x) || is_flow_k (bkind x) = true) cs -> is_scalar_k k = false ->
      Forall item_ok (flat_map (fun x => bitems (f x) x) cs)).
    { intros f Hf Hs. specialize (Hns Hs). clear Hone Hn Hw Hk.
      induction IH as [|x cs Hx _ IHl]; [constructor|]. cbn [flat_map forallb] in *. inversion Hf; subst.
      apply andb_prop in Hws as [W1 W2]. apply andb_prop in Hns as [N1 N2]. apply Forall_app. split; [|now apply IHl].
      apply Hx; auto. rewrite (named_parent x KBody k); [exact N1|].
      destruct (bkind x); try discriminate; reflexivity. }
    cbn [wfb] in Hw. apply andb_prop in Hw as [_ Hw].
    destruct k; try discriminate; try (apply Hone; [reflexivity|discriminate]).
    - cbn [bitems]. destruct cs as [|b1 cs]; [now apply Hone|].
      apply (Hall (fun _ => d)); [|reflexivity]. rewrite forallb_forall in Hw. apply Forall_forall. intros x Hin.
      specialize (Hw x Hin). unfold in_body in Hw. destruct (bkind x); try discriminate; reflexivity.
    - cbn [bitems].
      replace (flat_map (fun x => if is_body_k (bkind x) then bitems (S d) x else bitems d x) cs)
        with (flat_map (fun x => bitems (if is_body_k (bkind x) then S d else d) x) cs).
      2:{ apply flat_map_ext. intros x. now destruct (is_body_k (bkind x)). }
      apply Hall; [|reflexivity]. rewrite forallb_forall in Hw. apply Forall_forall. intros x Hin.
      specialize (Hw x Hin). destruct (bkind x); try discriminate; reflexivity.
  Qed.
End Chunks.

(** blank lines at the end are dropped *)
Fixpoint trim_end {A} (blank : A -> bool) (l : list A) : list A :=
  match l with
  | nil => nil
  | x :: r => match trim_end blank r with nil => if blank x then nil else [x] | r' => x :: r' end
  end.
Definition is_none {A} (o : option A) : bool := match o with None => true | _ => false end.
Definition line_of (o : option str) : str := match o with Some t => t | None => nil end.
Lemma asm_concat endl chs : forall n,
  asm endl n chs = match trim_end is_none chs with
                   | nil => nil
                   | r => repeat_s n endl ++ List.concat (map (fun o => endl ++ line_of o) r)
                   end.
Proof.
  induction chs as [|[t|] chs IH]; intros n; [reflexivity| |].
  - cbn [asm trim_end]. rewrite IH, repeat_last. destruct (trim_end is_none chs) as [|y r].
    + cbn [is_none map List.concat line_of repeat_s]. now rewrite !app_nil_r, <- !app_assoc.
    + cbn [map List.concat line_of repeat_s app]. now rewrite <- !app_assoc.
  - cbn [asm trim_end]. rewrite IH, repeat_last. destruct (trim_end is_none chs) as [|y r]; [reflexivity|].
    cbn [map List.concat line_of]. now rewrite app_nil_r, <- !app_assoc.
Qed.
Lemma concat_join endl (ls : list str) : ls <> nil -> List.concat (map (fun l => endl ++ l) ls) = endl ++ join endl ls.
Proof.
  induction ls as [|a ls IH]; intros H; [now elim H|]. destruct ls as [|b ls]; [cbn; now rewrite !app_nil_r|].
  cbn [map List.concat join] in *. rewrite IH by discriminate. now rewrite <- !app_assoc.
Qed.
Lemma trim_Forall2 {A B} (R : A -> B -> Prop) f g l m : Forall2 R l m -> (forall x y, R x y -> f x = g y) ->
  Forall2 R (trim_end f l) (trim_end g m).
Proof.
  intros H Hfg. induction H as [|x y l m Hxy _ IH]; [constructor|]. cbn [trim_end]. rewrite <- (Hfg _ _ Hxy).
  inversion IH; subst; [destruct (f x); repeat constructor; auto|]. constructor; [exact Hxy|]. rewrite H, H0. exact IH.
Qed.

(** ** The items of the parse tree *)
(** whitespace other than one or more empty lines leaves no trace *)
Definition gone (n : pnode) : bool :=
  match n with T _ => true | N KWhitespace _ => node_newlines n <? 2 | N _ _ => false end.
Fixpoint fitems (d : nat) (n : pnode) : list (nat * pnode) :=
  match n with
  | T _ => nil
  | N k cs =>
      match k with
      | KBody => if forallb gone cs then [(d, n)] else flat_map (fitems d) cs
      | KFlow => flat_map (fun x => match x with N KBody _ => fitems (S d) x | _ => fitems d x end) cs
      | KWhitespace => if node_newlines n <? 2 then nil else [(d, n)]
      | _ => [(d, n)]
      end
  end.
(** empty lines of the source, and bodies of blocks with nothing in them *)
Definition blank_item (x : nat * pnode) : bool :=
  match snd x with N k _ => blank_k k | T _ => true end.
Definition word_of (n : pnode) : list token :=
  match n with N KAtWord (T t :: _) => [t] | _ => nil end.
(** what an item contributes to the file: one or more whole lines, the first one
    indented by the number of blocks around the item.  [cm] is the comment formatter. *)
Definition item_lines (c : fcfg) (cm : bool -> list pnode -> Z -> res (list str)) (endl : str)
  (x : nat * pnode) (s : str) : Prop :=
  let w := Z.of_nat (fst x) * f_tab c in
  match snd x with
  | T _ => False
  | N k p =>
      match k with
      | KBody | KWhitespace => s = nil
      | KComment al =>
          if is_bracket p then s = spaces w ++ with_endl endl (normalize (first_spelling p))
          else exists ls, cm al p (f_linewidth c - w) = Ok ls /\ ls <> nil
                 /\ s = join endl (map (fun l => spaces w ++ l) ls)
      | KStatement _ => exists t n rest, hd_error (flat_map name_of p) = Some t
                 /\ name_as c (spelling t) n
                 /\ s = spaces w ++ n ++ spaces (Z.of_nat (blanks_before_paren c (spelling t))) ++ $"(" ++ rest
      | KAtStmt => exists t rest, hd_error (flat_map word_of p) = Some t
                 /\ s = spaces w ++ with_endl endl (normalize (spelling t)) ++ rest
      | KOnOff => exists t m, first_tok p = Some t /\ onoff_text t = Some m /\ s = spaces w ++ with_endl endl m
      | _ => False
      end
  end.

Lemma create_bitems n : forall d, gone n = false ->
  bitems d (create_box n) = map (fun x => (fst x, create_box (snd x))) (fitems d n).
Proof.
  induction n as [t|k cs IH] using pnode_ind'; intros d Hg; [discriminate|].
  assert (Hne : forall x, gone x = true -> forall d, fitems d x = nil).
  { intros [t|k1 c1] H d1; [reflexivity|]. destruct k1; try discriminate. cbn [gone] in H. cbn [fitems]. now rewrite H. }
  assert (Hbox : forall x, gone x = false -> match x with T _ => nil | N KWhitespace _ => if node_newlines x <? 2 then nil else [create_box x] | N _ _ => [create_box x] end = [create_box x]).
  { intros [t|k1 c1] H; [discriminate|]. destruct k1; try reflexivity. cbn [gone] in H. now rewrite H. }
  assert (Hno : forall x, gone x = true -> match x with T _ => nil | N KWhitespace _ => if node_newlines x <? 2 then nil else [create_box x] | N _ _ => [create_box x] end = nil).
  { intros [t|k1 c1] H; [reflexivity|]. destruct k1; try discriminate. cbn [gone] in H. now rewrite H. }
  destruct (match k with KBody | KFlow | KWhitespace => true | _ => false end) eqn:Ek; [|destruct k; try discriminate; reflexivity].
  destruct k; try discriminate.
  - cbn [create_box bitems fitems]. destruct (forallb gone cs) eqn:Ea.
    + replace (flat_map _ cs) with (@nil box); [|].
      2:{ clear - Ea Hno. induction cs as [|x cs IH]; [reflexivity|]. cbn [forallb flat_map] in *. apply andb_prop in Ea as [E1 E2].
          rewrite (Hno _ E1). exact (IH E2). }
      cbn [map fst snd]. cbn [create_box]. do 3 f_equal.
      clear - Ea Hno. induction cs as [|x cs IH]; [reflexivity|]. cbn [forallb flat_map] in *. apply andb_prop in Ea as [E1 E2].
      rewrite (Hno _ E1). exact (IH E2).
    + assert (Hf : flat_map (bitems d) (flat_map (fun x => match x with T _ => nil | N KWhitespace _ => if node_newlines x <? 2 then nil else [create_box x] | N _ _ => [create_box x] end) cs)
        = map (fun x => (fst x, create_box (snd x))) (flat_map (fitems d) cs)).
      { clear Ea Hg. induction IH as [|x cs Hx _ IH]; [reflexivity|]. cbn [flat_map]. rewrite flat_map_app, IH, map_app. f_equal.
        destruct (gone x) eqn:Eg; [now rewrite Hno, Hne|]. rewrite Hbox by exact Eg. cbn [flat_map]. now rewrite app_nil_r, Hx. }
      rewrite <- Hf. destruct (flat_map _ cs) eqn:En; [|reflexivity]. exfalso.
      clear - Ea En Hbox. induction cs as [|x cs IH]; [discriminate|]. cbn [forallb flat_map] in *. apply app_eq_nil in En as [En1 En2].
      destruct (gone x) eqn:Eg; [exact (IH Ea En2)|]. rewrite (Hbox _ Eg) in En1. discriminate.
  - cbn [create_box fitems]. cbn [gone] in Hg. rewrite Hg. reflexivity.
  - cbn [create_box bitems fitems]. induction IH as [|x cs Hx _ IH]; [reflexivity|]. cbn [flat_map]. rewrite flat_map_app, IH by reflexivity.
    rewrite map_app. f_equal. destruct (gone x) eqn:Eg.
    + rewrite Hno by exact Eg. destruct x as [t|k1 c1]; [reflexivity|]. destruct k1; try discriminate. now rewrite Hne.
    + rewrite Hbox by exact Eg. cbn [flat_map]. rewrite app_nil_r. destruct x as [t|k1 c1]; [discriminate|].
      destruct k1; cbn [create_box bkind is_body_k]; apply Hx; first [exact Eg|reflexivity].
Qed.
Lemma lock_bitems a b : forall d, bitems d (lock a b) = map (fun x => (fst x, lock a (snd x))) (bitems d b).
Proof.
  induction b as [k p cs IH] using box_ind'. intros d. destruct k; try reflexivity.
  - cbn [lock bitems]. destruct cs as [|b1 cs]; [reflexivity|].
    transitivity (flat_map (bitems d) (map (lock a) (b1 :: cs))); [reflexivity|].
    induction IH as [|x l Hx _ IH]; [reflexivity|]. cbn [map flat_map]. rewrite Hx, map_app. f_equal. exact IH.
  - cbn [lock bitems]. induction IH as [|x l Hx _ IH]; [reflexivity|]. cbn [map flat_map]. rewrite IH, map_app. f_equal.
    rewrite lock_kind. destruct (is_body_k (bkind x)); apply Hx.
Qed.

(** ** Each item gives its lines *)
Lemma line_page endl col : forall ls r0 cur gs, Forall (fun s => ~ In cNL s) ls -> 0 <= col ->
  row cur = r0 -> gaps_at cur gs (line_pieces (Cur (r0 + 1) col) ls) ->
  page endl gs (line_pieces (Cur (r0 + 1) col) ls) = List.concat (map (fun l => endl ++ spaces col ++ l) ls).
Proof.
  induction ls as [|a ls IH]; intros r0 cur gs Hls Hc Hr Hg; [destruct gs; [reflexivity|destruct Hg]|].
  inversion Hls as [|? ? Ha Hls']; subst. destruct gs as [|g gs]; [destruct Hg|]. cbn [line_pieces gaps_at page map List.concat p_at p_text row colm] in *.
  destruct Hg as (G1 & G2 & G3). assert (Er : row (p_end (Pc (Cur (row cur + 1) col) a PkLine)) = row cur + 1).
  { unfold p_end, text_flow. cbn [p_at p_text]. rewrite no_nl_split by exact Ha. reflexivity. }
  rewrite (IH (row cur + 1) _ gs Hls' Hc Er G3).
  replace (row cur =? row cur + 1) with false in G2 by (symmetry; apply Z.eqb_neq; lia).
  unfold gap_text. replace (fst g) with 1%nat by lia. rewrite G2. cbn [repeat_s]. rewrite app_nil_r.
  unfold with_endl. rewrite no_nl_split by exact Ha. cbn [join]. now rewrite <- !app_assoc.
Qed.
Section ItemLines.
  Variable e : env.
  Hypothesis Hcmt : cmt_ok e.
  Hypothesis Htab : 0 <= f_tab (cfg e).
  Local Notation c := (cfg e).
  Local Notation endl := (f_endl (cfg e)).
  Variable a : bool.

  Lemma lock_hd k p cs b : is_parg_k k = false -> hd_error (bcs (lock a (B k p cs))) = Some b ->
    exists b', hd_error cs = Some b' /\ b = lock a b'.
  Proof.
    intros Hk H. destruct (lock_children a (B k p cs)) as [_ Hm]. cbn [bkind bcs] in Hm. rewrite (Hm Hk) in H.
    destruct cs as [|x cs]; [discriminate|]. injection H as <-. now exists x.
  Qed.
  Lemma first_box (f : pnode -> list token) k0 t p1 :
    (forall n, f n = match n with N k (T t :: _) => if match k, k0 with KFunname, KFunname | KAtWord, KAtWord => true | _, _ => false end then [t] else nil | _ => nil end) ->
    (k0 = KFunname \/ k0 = KAtWord) -> forall cs b, b = B k0 (T t :: p1) nil ->
    hd_error (flat_map (fun x => match x with T _ => nil | N KWhitespace _ => if node_newlines x <? 2 then nil else [create_box x] | N _ _ => [create_box x] end) cs)
      = Some b -> hd_error (flat_map f cs) = Some t.
  Proof.
    intros Hf Hk cs b -> H. induction cs as [|x cs IH]; [discriminate|]. cbn [flat_map] in *. rewrite Hf.
    destruct x as [u|k1 c1]; [exact (IH H)|].
    destruct k1; try (cbn [app hd_error] in H; injection H as E _; exfalso; destruct Hk as [-> | ->]; discriminate E).
    - destruct (_ <? 2); [cbn [app] in *; destruct c1 as [|[]]; apply IH; exact H|].
      cbn [app hd_error] in H; injection H as E _; exfalso; destruct Hk as [-> | ->]; discriminate E.
    - cbn [app hd_error create_box] in H. injection H as E1 E2 _. subst k0 c1. reflexivity.
    - cbn [app hd_error create_box] in H. injection H as E1 E2 _. subst k0 c1. reflexivity.
  Qed.

  Lemma chunk_lines val d n o : gone n = false -> item_ok e (d, lock a (create_box n)) -> chunk e val (d, lock a (create_box n)) o ->
    item_lines c (cmt e) endl (d, n) (line_of o).
  Proof.
    intros Hg (W1 & W2 & W3 & W4) H. cbn [snd] in *.
    destruct n as [t|k p]; [discriminate|]. unfold item_lines. cbn [fst snd].
    assert (Hkk : bkind (lock a (create_box (N k p))) = k) by (rewrite lock_kind; reflexivity).
    inversion H as [d0 b0 Hb|d0 b0 parent path term pass sib cur l o0 q ps gs Hb Hr Hcol Hp Hat Hgs]; subst.
    - change (blank_k k = true) in Hb. destruct k; try discriminate; reflexivity.
    - change (blank_k k = false) in Hb. rewrite Hkk in W3. cbn [line_of]. clear H.
      assert (Hcur : exists cur, p_at q = cur) by now eexists. destruct Hcur as (cur & Hat). rewrite Hat in Hr, Hcol.
      assert (Hat' : p_at q = cur /\ True) by now split. clear Hat.
      assert (Hl := Hr). apply reflow_lok in Hl as [Hpos Hl]; [|exact Htab|exact W1].
      cbn [create_box lock] in *.
      destruct k; try discriminate.
      + (* comment *)
        inversion Hl as [k0 p0 cs0 pos pass0 w v x lines ls o1 l0 Ho Hli Hko Hx Hv Hls]; subst. subst l0.
        cbn [pieces own_pieces lpos] in *. cbn [leaf_k] in Hls.
        assert (Hnil : ls = nil) by (now inversion Hls).
        subst ls. cbn [flat_map] in Hp. rewrite app_nil_r in Hp. unfold lines_ok in Hli. cbn [lkind lpcs lpos llines] in Hli.
        destruct (is_bracket p).
        * injection Hp as <- <-. destruct gs; [|destruct Hgs]. cbn [p_text page]. now rewrite app_nil_r.
        * destruct Hli as [Hc Hne]. rewrite Hcol in Hc. exists lines. split; [exact Hc|]. split; [exact Hne|].
          assert (Hnl : Forall (fun s => ~ In cNL s) lines).
          { eapply Hcmt; [|exact Hc]. cbn [wfb] in W1. rewrite !andb_true_iff in W1. apply W1. }
          destruct lines as [|s1 lines]; [now elim Hne|]. inversion Hnl as [|? ? N1 N2]; subst. cbn [line_pieces] in Hp. injection Hp as <- <-.
          cbn [p_text p_at]. rewrite Hcol in *.
          assert (Er : row (p_end (Pc pos s1 PkLine)) = row pos).
          { unfold p_end, text_flow. cbn [p_at p_text]. rewrite no_nl_split by exact N1. reflexivity. }
          rewrite (line_page endl (Z.of_nat d * f_tab c) lines (row pos) _ gs N2 ltac:(nia) Er Hgs).
          unfold with_endl. rewrite no_nl_split by exact N1. cbn [join map].
          destruct lines as [|s2 lines]; [cbn [map List.concat]; now rewrite app_nil_r|].
          pose proof (concat_join endl (map (fun l => spaces (Z.of_nat d * f_tab c) ++ l) (s2 :: lines)) ltac:(discriminate)) as G.
          rewrite map_map in G. rewrite G. cbn [map join]. rewrite <- !app_assoc. reflexivity.
      + (* statement *)
        match type of Hr with reflow _ (B _ _ ?z) _ _ _ _ _ = _ => set (cs := z) in * end.
        destruct (stmt_shape e Htab _ _ _ _ _ _ _ _ _ _ W1 Hr) as (t & p1 & lf & ll & rest & E1 & E2 & E3 & E4).
        assert (Ht : hd_error (flat_map name_of p) = Some t).
        { assert (Eh : hd_error (bcs (lock a (create_box (N (KStatement cmdspec) p)))) = Some (B KFunname (T t :: p1) nil)) by exact E1.
          apply (lock_hd (KStatement cmdspec) p) in Eh as ([k2 p2 c2] & Eh & El); [|reflexivity]. cbn [lock] in El.
          eapply (first_box name_of KFunname t p1); [|now left| |exact Eh].
          - intros [|k3 [|[] ?]]; try reflexivity; now destruct k3.
          - injection El as <- <- El. f_equal. destruct c2; [reflexivity|discriminate El]. }
        exists t. clearbody cs.
        destruct cs as [|b1 cs']; [discriminate|]. injection E1 as ->.
        inversion Hl as [k0 p0 cs0 pos pass0 w v x lines ls o1 l0 Ho Hli Hko Hx Hv Hls]; subst.
        subst l0. cbn [lcs lpos] in *. subst ls. cbn [leaf_k] in Hls. cbn [pieces own_pieces app] in Hp.
        cbn [wfb] in W1. apply andb_prop in W1 as [W1 _]. cbn [named is_scalar_k] in W2. cbn [andb] in W2.
        cbn [kinds_ok] in Hko. destruct cs' as [|b2 [|b3 [|b4 tl]]]; try discriminate.
        rewrite !andb_true_iff in Hko. destruct Hko as [[[[_ K2] K3] K4] K5].
        inversion Hls as [|? ? ? ? ? ? ? o1 ? Hs1 Hl1 Hls1]; subst.
        inversion Hl1 as [k1 p2 cs1 pos1 pass1 w1 v1 x1 lines1 ls1 oo1 l1 Ho1 Hli1 Hko1 Hx1 Hv1 Hls3]; subst. subst l1.
        cbn [flat_map pieces own_pieces lpos leaf_k] in *. assert (ls1 = nil) as -> by (now inversion Hls3).
        inversion Hls1 as [|? ? ? ? ? ? ? o2 ? Hs2 Hl2 Hls2]; subst.
        destruct b2 as [k2 p2 cs2]. cbn [bkind] in K2. destruct k2; try discriminate.
        inversion Hl2 as [k1 p3 cs1 pos2 pass2 w2 v2 x2 lines2 ls2 oo2 l1 Ho2 Hli2 Hko2 Hx2 Hv2 Hls4]; subst. subst l1.
        cbn [flat_map pieces own_pieces lpos leaf_k] in *. assert (ls2 = nil) as -> by (now inversion Hls4).
        cbn [forallb] in W1, W2. apply andb_prop in W2 as [W2 _]. cbn [named is_scalar_k forallb] in W2. rewrite andb_true_r in W2.
        apply andb_prop in W1 as [W1 _]. cbn [wfb] in W1. rewrite !andb_true_iff in W1. destruct W1 as [_ [[F1 F2] F3]].
        assert (Hone : one_line (spelling t) = true) by exact F2.
        pose proof W2 as W2'. unfold text_ok in W2'. apply andb_prop in W2' as [W2' _].
        destruct (scalar_piece c (KStatement cmdspec) KFunname p1 t eq_refl W2') as (n & En & Ef). rewrite En in Hp. cbn [app flat_map] in Hp.
        assert (Hname := name_as_text e _ _ _ _ W2 Hone En).
        injection Hp as <- Hp. cbn [p_text p_at] in *. destruct ps as [|q2 ps]; [discriminate|]. injection Hp as <- Hp.
        destruct gs as [|g gs]; [destruct Hgs|]. cbn [gaps_at page p_at p_text] in *. destruct Hgs as (G1 & G2 & _).
        assert (Ee : p_end (Pc pos1 n (PkWord true)) = shift pos1 (zlen (spelling t))).
        { unfold p_end. cbn [p_at p_text]. now rewrite Ef, flow_text_one. }
        eexists. eexists. split; [exact Ht|]. split; [exact Hname|].
        rewrite Ee in G1, G2. rewrite E4 in G1, G2. cbn [shift row colm] in G1, G2. rewrite Z.eqb_refl in G2.
        unfold gap_text. replace (fst g) with 0%nat by lia. replace (Z.of_nat (snd g)) with (Z.of_nat (blanks_before_paren c (spelling t))) by lia.
        cbn [repeat_s app]. rewrite (one_line_endl _ n) by apply Hname.
        replace (with_endl endl $"(") with $"(" by (symmetry; apply one_line_endl; reflexivity). reflexivity.
      + (* switch *)
        inversion Hl as [k0 p0 cs0 pos pass0 w v x lines ls o1 l0 Ho Hli Hko Hx Hv Hls]; subst. subst l0.
        cbn [pieces own_pieces lpos] in *. cbn [leaf_k] in Hls.
        assert (Hnil : ls = nil) by (now inversion Hls).
        subst ls. cbn [flat_map] in Hp. rewrite app_nil_r in Hp.
        destruct (first_tok p) as [t|]; [|discriminate]. destruct (onoff_text t) as [m|] eqn:Em; [|discriminate].
        injection Hp as <- <-. destruct gs; [|destruct Hgs]. exists t, m. cbn [p_text page]. rewrite app_nil_r. auto.
      + (* at-word *)
        match type of Hr with reflow _ (B _ _ ?z) _ _ _ _ _ = _ => set (cs := z) in * end.
        inversion Hl as [k0 p0 cs0 pos pass0 w v x lines ls o1 l0 Ho Hli Hko Hx Hv Hls]; subst. subst l0.
        cbn [pieces own_pieces lpos leaf_k app] in *. cbn [kinds_ok] in Hko. destruct cs as [|[k2 p2 c2] cs'] eqn:Ecs; [discriminate|].
        apply andb_prop in Hko as [K1 _]. cbn [bkind] in K1. destruct k2; try discriminate.
        inversion Hls as [|? ? ? ? ? la ls1 o2 ? Hs1 Hl1 Hls1]; subst ls.
        inversion Hl1 as [k1 p3 cs1 pos1 pass1 w1 v1 x1 lines1 ls2 oo1 l1 Ho1 Hli1 Hko1 Hx1 Hv1 Hls3]; subst la.
        cbn [flat_map pieces own_pieces] in Hp.
        cbn [wfb forallb] in W1. rewrite !andb_true_iff in W1. destruct W1 as [[W1 _] _].
        cbn [named is_scalar_k andb forallb] in W2. unfold text_ok in W2. rewrite !andb_true_iff in W2. destruct W2 as [[[W2 _] _] _].
        destruct p2 as [|[t|] p2]; [discriminate W2| |discriminate W2].
        cbn [scalar_text app] in Hp. injection Hp as <- Hp. cbn [p_text].
        exists t. eexists. split; [|reflexivity].
        assert (Eh : hd_error (bcs (lock a (create_box (N KAtStmt p)))) = Some (B KAtWord (T t :: p2) c2)) by (change (hd_error cs = Some (B KAtWord (T t :: p2) c2)); now rewrite Ecs).
        apply (lock_hd KAtStmt p) in Eh as ([k3 p4 c3] & Eh & El); [|reflexivity]. cbn [lock] in El.
        injection El as <- <- El.
        clear - Eh. revert Eh. induction p as [|x p IH]; [discriminate|]. cbn [flat_map].
        destruct x as [u|k1 c1]; [exact IH|].
        destruct k1; try (intros Eh; cbn [app hd_error create_box] in Eh; discriminate Eh).
        * destruct (_ <? 2); [exact IH|]. intros Eh. cbn [app hd_error create_box] in Eh; discriminate Eh.
        * intros Eh. cbn [app hd_error create_box] in Eh. injection Eh as E2 _. subst c1. reflexivity.
  Qed.
End ItemLines.

(** ** No two empty lines in a row *)
(** no two neighbours are both blank *)
Fixpoint no_twin {A} (blank : A -> bool) (l : list A) : bool :=
  match l with
  | x :: (y :: _) as r => negb (blank x && blank y) && no_twin blank r
  | _ => true
  end.
Definition lastb (l : list (nat * pnode)) : bool := match rev l with x :: _ => blank_item x | nil => false end.
Definition headb (l : list (nat * pnode)) : bool := match l with x :: _ => blank_item x | nil => false end.
Lemma lastb_app a b : lastb (a ++ b) = match b with nil => lastb a | _ => lastb b end.
Proof.
  unfold lastb. rewrite rev_app_distr. destruct b as [|x b]; [reflexivity|]. cbn [rev].
  destruct (rev b ++ [x]) eqn:E; [now destruct (rev b)|reflexivity].
Qed.
Lemma no_twin_app a : forall b, no_twin blank_item a = true -> no_twin blank_item b = true -> lastb a && headb b = false ->
  no_twin blank_item (a ++ b) = true.
Proof.
  induction a as [|x a IH]; intros b Ha Hb Hab; [exact Hb|]. destruct a as [|y a].
  - destruct b as [|z b]; [reflexivity|]. change (lastb [x]) with (blank_item x) in Hab. cbn [headb] in Hab.
    cbn [app no_twin] in *. rewrite Hab. exact Hb.
  - change (no_twin blank_item (x :: y :: a)) with (negb (blank_item x && blank_item y) && no_twin blank_item (y :: a)) in Ha.
    apply andb_prop in Ha as [A1 A2].
    change (negb (blank_item x && blank_item y) && no_twin blank_item ((y :: a) ++ b) = true). rewrite A1. cbn [andb].
    apply IH; auto. change (x :: y :: a) with ([x] ++ y :: a) in Hab. now rewrite lastb_app in Hab.
Qed.
Lemma no_twin_trim l : no_twin blank_item l = true -> no_twin blank_item (trim_end blank_item l) = true.
Proof.
  induction l as [|x l IH]; [reflexivity|]. intros H. cbn [trim_end].
  assert (Hl : no_twin blank_item l = true) by (destruct l; [reflexivity|]; cbn [no_twin] in H; now apply andb_prop in H).
  specialize (IH Hl). destruct (trim_end blank_item l) as [|y r] eqn:E; [destruct (blank_item x); reflexivity|].
  change (negb (blank_item x && blank_item y) && no_twin blank_item (y :: r) = true). rewrite IH, andb_true_r.
  destruct l as [|z l]; [discriminate|]. cbn [trim_end] in E.
  assert (y = z) as -> by (destruct (trim_end blank_item l); [destruct (blank_item z); [discriminate|]|]; now injection E).
  cbn [no_twin] in H. now apply andb_prop in H.
Qed.
Section Twins.
  Variable ctx : pctx.
  Hypothesis Hwf : wfctx true ctx.
  Definition halts (r : list token) : Prop := match r with t :: _ => is_ws t = false | nil => True end.
  Definition calmb (l : list (nat * pnode)) (r : list token) : Prop :=
    no_twin blank_item l = true /\ (lastb l = true -> halts r).
  (** a node that gives one item *)
  Definition solid (n : pnode) : Prop := forall d, fitems d n = [(d, n)] /\ blank_item (d, n) = false.
  Lemma stmt_solid n l x r : statement n ctx l = Ok (x, r) -> solid x /\ (no_bom l -> no_bom r).
  Proof.
    intros H. split.
    - unfold statement in H. destruct l as [|t l]; [discriminate|]. destruct (take_ws l) as [ws r0]. destruct r0 as [|lp r1]; [discriminate|].
      destruct (negb _); [discriminate|]. destruct (take_ws r1) as [ws2 r2]. bk H. destruct x0 as [args r3]. bk H. destruct x0 as [tl r4].
      destruct r4; [discriminate|]. destruct (consume_trailing ctx r4). injection H as <- <-. split; reflexivity.
    - apply (statement_QA ctx Hwf) in H as (u & -> & _). apply no_bom_suffix.
  Qed.
  Lemma cmt_solid l x r : consume_comment l = Ok (x, r) -> solid x /\ (no_bom l -> no_bom r).
  Proof.
    intros H. split.
    - unfold consume_comment in H. destruct l as [|t l]; [discriminate|]. destruct (tmem _ _); [injection H as <- <-; split; reflexivity|].
      destruct (cloop _ _ _) as [[|y a] r0]; [discriminate|]. injection H as <- <-. split; reflexivity.
    - apply (consume_comment_Q eq (@eq_refl _) ltac:(intros; congruence)) in H as (u & -> & _). apply no_bom_suffix.
  Qed.
  Lemma calmb_solid d acc x l r : calmb (flat_map (fitems d) acc) l -> solid x -> calmb (flat_map (fitems d) (acc ++ [x])) r.
  Proof.
    intros [A1 A2] Hx. destruct (Hx d) as [E1 E2]. rewrite flat_map_app. cbn [flat_map]. rewrite app_nil_r, E1. split.
    - apply no_twin_app; [exact A1|reflexivity|]. cbn [headb]. rewrite E2. apply andb_false_r.
    - rewrite lastb_app. unfold lastb. cbn [rev app]. now rewrite E2.
  Qed.
  Definition arms (d : nat) (cs : list pnode) : list (nat * pnode) :=
    flat_map (fun x => match x with N KBody _ => fitems (S d) x | _ => fitems d x end) cs.
  Lemma arms_solid d acc x : no_twin blank_item (arms d acc) = true -> solid x ->
    no_twin blank_item (arms d (acc ++ [x])) = true /\ lastb (arms d (acc ++ [x])) = false
    /\ (headb (arms d acc) = false -> headb (arms d (acc ++ [x])) = false).
  Proof.
    intros A1 Hx. destruct (Hx d) as [E1 E2]. unfold arms in *. rewrite flat_map_app. cbn [flat_map]. rewrite app_nil_r.
    assert (E : match x with N KBody _ => fitems (S d) x | _ => fitems d x end = [(d, x)]).
    { destruct x as [|k cs]; [exact E1|]. destruct k; try exact E1. discriminate E2. }
    rewrite E. split; [|split].
    - apply no_twin_app; [exact A1|reflexivity|]. cbn [headb]. rewrite E2. apply andb_false_r.
    - rewrite lastb_app. unfold lastb. cbn [rev app]. exact E2.
    - destruct (flat_map _ acc); [intros _; exact E2|intros H; exact H].
  Qed.
  Lemma body_twin d bd r : calmb (flat_map (fitems d) bd) r -> no_twin blank_item (fitems d (N KBody bd)) = true.
  Proof. intros [A _]. cbn [fitems]. destruct (forallb gone bd); [reflexivity|exact A]. Qed.
  Lemma arms_body d acc bd : no_twin blank_item (arms d acc) = true -> lastb (arms d acc) = false ->
    no_twin blank_item (fitems (S d) (N KBody bd)) = true -> no_twin blank_item (arms d (acc ++ [N KBody bd])) = true.
  Proof.
    intros A1 A2 B. unfold arms in *. rewrite flat_map_app. cbn [flat_map]. rewrite app_nil_r. apply no_twin_app; auto. now rewrite A2.
  Qed.

  Lemma twins n :
    (forall bset acc l a r, body_loop n ctx bset acc l = Ok (a, r) -> no_bom l ->
       (forall d, calmb (flat_map (fitems d) acc) l) -> (forall d, calmb (flat_map (fitems d) a) r) /\ no_bom r)
    /\ (forall l x r, flow n ctx l = Ok (x, r) -> no_bom l ->
       (forall d, no_twin blank_item (fitems d x) = true /\ headb (fitems d x) = false /\ (lastb (fitems d x) = true -> r = nil)) /\ no_bom r)
    /\ (forall acc l a r, if_loop n ctx acc l = Ok (a, r) -> no_bom l ->
       (forall d, no_twin blank_item (arms d acc) = true /\ headb (arms d acc) = false) ->
       (forall d, no_twin blank_item (arms d a) = true /\ headb (arms d a) = false /\ (lastb (arms d a) = true -> r = nil)) /\ no_bom r).
  Proof.
    induction n as [|m (IHb & IHf & IHi)]; [split; [|split]; intros; discriminate|].
    split; [|split].
    - intros bset acc l a r H Hb Ha. cbn [body_loop] in H.
      destruct l as [|t l]; [injection H as <- <-; auto|].
      assert (Hb' : no_bom l) by now inversion Hb.
      destruct (is_ws t) eqn:Ew.
      { destruct (take_ws (t :: l)) as [w1 r0] eqn:E1. apply take_ws_split in E1 as (ws & E & -> & W & Hr).
        refine (IHb _ _ _ _ _ H _ _); [rewrite E in Hb; now apply no_bom_suffix in Hb|].
        intros d. destruct (Ha d) as [A1 A2]. rewrite flat_map_app. cbn [flat_map fitems]. rewrite app_nil_r.
        assert (Hl : lastb (flat_map (fitems d) acc) = false).
        { destruct (lastb _); [|reflexivity]. specialize (A2 eq_refl). cbn [halts] in A2. congruence. }
        destruct (_ <? 2).
        - rewrite app_nil_r. split; [exact A1|]. now rewrite Hl.
        - split; [apply no_twin_app; auto; now rewrite Hl|]. intros _. exact Hr. }
      destruct (is_tt COMMENT t).
      { apply bindr_ok in H as ([x r0] & E & H). destruct (cmt_solid _ _ _ E) as [S1 S2]. refine (IHb _ _ _ _ _ H (S2 Hb) _).
        intros d. eapply calmb_solid; [apply Ha|exact S1]. }
      destruct (is_onoff t).
      { refine (IHb _ _ _ _ _ H Hb' _). intros d. eapply calmb_solid; [apply Ha|]. split; reflexivity. }
      destruct (is_tt BRACKET_COMMENT t).
      { apply bindr_ok in H as ([x r0] & E & H). destruct (cmt_solid _ _ _ E) as [S1 S2]. refine (IHb _ _ _ _ _ H (S2 Hb) _).
        intros d. eapply calmb_solid; [apply Ha|exact S1]. }
      destruct (is_tt WORD t).
      + destruct (smem _ bset); [injection H as <- <-; auto|].
        destruct (smem _ flow_names); apply bindr_ok in H as ([sub r0] & E & H).
        * destruct (IHf _ _ _ E Hb) as [F1 F2]. refine (IHb _ _ _ _ _ H F2 _). intros d. destruct (F1 d) as (G1 & G2 & G3).
          destruct (Ha d) as [A1 A2]. rewrite flat_map_app. cbn [flat_map]. rewrite app_nil_r. split.
          -- apply no_twin_app; auto. rewrite G2. apply andb_false_r.
          -- rewrite lastb_app. destruct (fitems d sub) eqn:Ef; [|intros G; now rewrite (G3 G)].
             exfalso. clear - Hwf E Ef. destruct m as [|m]; [discriminate|]. cbn [flow] in E. destruct (t :: l) as [|u l'] eqn:El; [discriminate|].
             destruct (seqb _ _).
             ++ bk E. destruct x as [a r1]. injection E as <- <-. destruct m as [|m]; [discriminate|]. cbn [if_loop] in Hx.
                assert (G : forall n acc l a r, if_loop n ctx acc l = Ok (a, r) -> acc <> nil -> exists x y, acc = x :: y /\ exists z, a = x :: z).
                { clear. induction n as [|n IH]; intros acc l a r H Hn; [discriminate|]. cbn [if_loop] in H. destruct l as [|t l].
                  { injection H as <- <-. destruct acc as [|x y]; [now elim Hn|]. eauto. }
                  destruct (seqb _ _).
                  - bk H. destruct x as [cl r1]. injection H as <- <-. destruct acc as [|x y]; [now elim Hn|]. cbn [app]. eauto 6.
                  - bk H. destruct x as [op r1]. bk H. destruct x as [bd r2]. apply IH in H as (x & y & E & z & ->); [|destruct acc; discriminate].
                    destruct acc as [|x0 y0]; [now elim Hn|]. injection E as -> _. eauto. }
                destruct (seqb _ _).
                ** bk Hx. destruct x as [cl r2]. injection Hx as <- <-. apply stmt_solid in Hx0 as [S _]. cbn [fitems flat_map app] in Ef.
                   destruct (S d) as [S1 S2]. destruct cl as [|k cs]; [discriminate S1|]. destruct k; try discriminate; rewrite S1 in Ef; discriminate.
                ** bk Hx. destruct x as [op r2]. bk Hx. destruct x as [bd r3]. apply G in Hx as (x & y & E & z & ->); [|discriminate].
                   injection E as <- _. apply stmt_solid in Hx0 as [S _]. cbn [fitems flat_map app] in Ef.
                   destruct (S d) as [S1 S2]. destruct op as [|k cs]; [discriminate S1|]. destruct k; try discriminate; rewrite S1 in Ef; discriminate.
             ++ bk E. destruct x as [op r1]. bk E. destruct x as [bd r2]. bk E. destruct x as [cl r3]. injection E as <- <-.
                apply stmt_solid in Hx as [S _]. cbn [fitems flat_map app] in Ef.
                destruct (S d) as [S1 S2]. destruct op as [|k cs]; [discriminate S1|]. destruct k; try discriminate; rewrite S1 in Ef; discriminate.
        * destruct (stmt_solid _ _ _ _ E) as [S1 S2]. refine (IHb _ _ _ _ _ H (S2 Hb) _).
          intros d. eapply calmb_solid; [apply Ha|exact S1].
      + destruct (is_tt ATWORD t).
        * apply bindr_ok in H as ([sub r0] & E & H). unfold atword_statement in E.
          destruct (consume_trailing ctx l) as [tr q] eqn:Et. injection E as <- <-.
          refine (IHb _ _ _ _ _ H _ _).
          -- apply (consume_trailing_Q eq (@eq_refl _) ltac:(intros; congruence)) in Et as (u & -> & _). now apply no_bom_suffix in Hb'.
          -- intros d. eapply calmb_solid; [apply Ha|]. split; reflexivity.
        * destruct (is_tt BYTEORDER_MARK t) eqn:Eb; [|discriminate]. inversion Hb as [|? ? Hn _]; subst. unfold is_tt in Eb. apply ttype_eqb_eq in Eb. contradiction.
    - intros l x r H Hb. cbn [flow] in H. destruct l as [|t l]; [discriminate|].
      destruct (seqb _ $"IF").
      + apply bindr_ok in H as ([a q] & E & H). injection H as <- <-.
        destruct (IHi _ _ _ _ E Hb) as [F1 F2]; [split; reflexivity|]. split; [|exact F2]. exact F1.
      + apply bindr_ok in H as ([op q1] & E1 & H). apply bindr_ok in H as ([bd q2] & E2 & H). apply bindr_ok in H as ([cl q3] & E3 & H).
        injection H as <- <-. destruct (stmt_solid _ _ _ _ E1) as [S1 S2]. destruct (stmt_solid _ _ _ _ E3) as [S3 S4].
        destruct (IHb _ _ _ _ _ E2 (S2 Hb)) as [F1 F2]; [split; [reflexivity|discriminate]|]. split; [|auto]. intros d.
        change (no_twin blank_item (arms d ([op] ++ [N KBody bd] ++ [cl])) = true /\ headb (arms d ([op] ++ [N KBody bd] ++ [cl])) = false
                /\ (lastb (arms d ([op] ++ [N KBody bd] ++ [cl])) = true -> q3 = nil)).
        destruct (arms_solid d nil op eq_refl S1) as (A1 & A2 & A3). cbn [app] in A1, A2, A3.
        pose proof (arms_body d [op] bd A1 A2 (body_twin _ _ _ (F1 (S d)))) as A4.
        destruct (arms_solid d ([op] ++ [N KBody bd]) cl A4 S3) as (A5 & A6 & A7). rewrite <- app_assoc in A5, A6, A7.
        split; [exact A5|]. split; [|rewrite A6; discriminate]. apply A7.
        specialize (A3 eq_refl). unfold arms in *. cbn [flat_map app] in A3 |- *. rewrite app_nil_r in A3. destruct (S1 d) as [S5 S6].
        destruct op as [|k cs]; [discriminate S5|]. destruct k; try (rewrite S5; exact S6). discriminate S6.
    - intros acc l a r H Hb Ha. cbn [if_loop] in H. destruct l as [|t l].
      { injection H as <- <-. split; [|constructor]. intros d. destruct (Ha d). auto. }
      destruct (seqb _ $"ENDIF").
      + apply bindr_ok in H as ([cl q3] & E3 & H). injection H as <- <-. destruct (stmt_solid _ _ _ _ E3) as [S3 S4].
        split; [|auto]. intros d. destruct (Ha d) as [A1 A2]. destruct (arms_solid d acc cl A1 S3) as (A5 & A6 & A7). rewrite A6. split; [auto|split; [auto|discriminate]].
      + apply bindr_ok in H as ([op q1] & E1 & H). apply bindr_ok in H as ([bd q2] & E2 & H).
        destruct (stmt_solid _ _ _ _ E1) as [S1 S2].
        destruct (IHb _ _ _ _ _ E2 (S2 Hb)) as [F1 F2]; [split; [reflexivity|discriminate]|].
        refine (IHi _ _ _ _ H F2 _). intros d. destruct (Ha d) as [A1 A2].
        destruct (arms_solid d acc op A1 S1) as (A5 & A6 & A7).
        change (acc ++ [op; N KBody bd]) with (acc ++ [op] ++ [N KBody bd]). rewrite app_assoc.
        split; [now apply arms_body; [| |apply (body_twin _ _ q2)]|].
        specialize (A7 A2). unfold arms in *. rewrite flat_map_app. destruct (flat_map _ (acc ++ [op])) eqn:Ee; [|exact A7].
        exfalso. rewrite flat_map_app in Ee. apply app_eq_nil in Ee as [_ Ee]. cbn [flat_map] in Ee. destruct (S1 d) as [S5 S6].
        destruct op as [|k cs]; [discriminate S5|]. destruct k; try (rewrite S5 in Ee; discriminate Ee). discriminate S6.
  Qed.
  Lemma parse_twins toks tree : parse ctx toks = Ok tree -> no_bom (strip_bom_tok toks) ->
    forall d, no_twin blank_item (fitems d tree) = true.
  Proof.
    unfold parse. intros H Hb d. apply bindr_ok in H as ([a r] & E & H). injection H as <-.
    assert (E' : exists n, body_loop n ctx nil nil (strip_bom_tok toks) = Ok (a, r)).
    { destruct toks as [|t l]; [eauto|]. unfold strip_bom_tok. destruct (is_tt BYTEORDER_MARK t) eqn:Et; [|eauto]. rewrite parse_fuel_S, body_bom in E by auto. eauto. }
    destruct E' as (n & E'). destruct (proj1 (twins n) _ _ _ _ _ E' Hb) as [F _]; [split; [reflexivity|discriminate]|].
    exact (body_twin _ _ _ (F d)).
  Qed.
End Twins.

(** ** The file *)
Lemma fitems_gone n : forall d, Forall (fun x => gone (snd x) = false) (fitems d n).
Proof.
  induction n as [t|k cs IH] using pnode_ind'; intros d; [constructor|].
  assert (Hone : gone (N k cs) = false -> Forall (fun x => gone (snd x) = false) [(d, N k cs)]) by (intros; constructor; [assumption|constructor]).
  assert (Hall : forall f, (forall x, exists d, f x = fitems d x) -> Forall (fun x : nat * pnode => gone (snd x) = false) (flat_map f cs)).
  { intros f Hf. clear Hone. induction IH as [|x cs Hx _ IH]; [constructor|]. cbn [flat_map]. apply Forall_app. split; [|exact IH].
    destruct (Hf x) as (d1 & ->). apply Hx. }
  destruct k; try (now apply Hone); cbn [fitems].
  - destruct (forallb gone cs); [now apply Hone|]. apply Hall. intros x. now exists d.
  - destruct (_ <? 2) eqn:E; [constructor|]. apply Hone. exact E.
  - apply Hall. intros [t|k1 c1]; [now exists d|]. destruct k1; try now exists d. now exists (S d).
Qed.
Lemma layout_walk e root l : ready e root -> bkind (create_box root) = KBody -> layout_tree e root = Ok l ->
  exists o, walk e (lvalid l) (Cur (-1) 0) (bitems 0 (lock (f_autosort (cfg e)) (create_box root))) (pieces (cfg e) KBody l) o.
Proof.
  intros (Hc & Ht & Hw & _) Hk H. unfold layout_tree in H. bk H. destruct x as [l' o]. injection H as ->. exists o.
  refine (reflow_walk e _ _ KBody 0%nat _ _ _ _ _ _ Hx (fun E => E) 0%nat (Cur (-1) 0) _). reflexivity.
Qed.

Lemma Forall2_impl' {A B} (R S : A -> B -> Prop) l m : (forall x y, R x y -> S x y) -> Forall2 R l m -> Forall2 S l m.
Proof. intros H. induction 1; constructor; auto. Qed.
(** the item has a place in the layout, and [s] is written for it *)
Definition chunk_of (e : env) (val : bool) (x : nat * pnode) (s : str) : Prop :=
  gone (snd x) = false /\ item_ok e (fst x, lock (f_autosort (cfg e)) (create_box (snd x)))
  /\ exists o, chunk e val (fst x, lock (f_autosort (cfg e)) (create_box (snd x))) o /\ s = line_of o.
Definition ready_e (e : env) : Prop := cmt_ok e /\ 0 <= f_tab (cfg e).
Lemma file_chunks c specs tbl src text v :
  run_cfg c specs tbl -> p_usetabs c = false -> process_file c src = Ok (text, v) ->
  forall toks, tokenize src = Ok toks -> no_switch toks = true ->
  exists tree chs, parse (p_ctx c) toks = Ok tree /\ tidy false tree = true
    /\ ready_e (pipe_env c src toks)
    /\ Forall2 (chunk_of (pipe_env c src toks) v) (trim_end blank_item (fitems 0 tree)) chs
    /\ no_twin blank_item (trim_end blank_item (fitems 0 tree)) = true
    /\ text = bom_text c ++ join (f_endl (effective c src)) chs ++ f_endl (effective c src).
Proof.
  intros R Ht H toks Hl Hno. destruct (run_split _ _ _ _ H Ht) as (toks' & tree & l & o & E1 & E2 & E3 & E4 & -> & ->).
  rewrite Hl in E1. injection E1 as <-.
  destruct (run_ready _ _ _ _ _ _ R Hl E2) as (A & B & C).
  assert (Hbt : btoks (create_box tree) = filter nonws (flat tree) /\ bkind (create_box tree) = KBody /\ gone tree = false).
  { pose proof (box_tokens false tree A) as Hb.
    unfold parse in E2. apply bindr_ok in E2 as ([a r] & _ & E2). injection E2 as <-. auto. }
  destruct Hbt as (Hbt & Hbk & Hgo).
  assert (Hsub : forall t, In t (flat tree) -> In t toks).
  { assert (Ho : no_onoff toks).
    { unfold no_switch in Hno. rewrite forallb_forall in Hno. apply Forall_forall. intros t Hin. apply Hno in Hin. now apply negb_true_iff. }
    destruct R as ((ex & vt & Hctx) & Hut & _). rewrite Hctx in E2.
    destruct (C05_file_tuples_partial ex vt specs tbl Hut _ _ _ Hl Ho E2) as [HP _].
    intros t Hin. apply Permutation_sym in HP. apply (Permutation_in _ HP) in Hin.
    destruct toks as [|u r]; [destruct Hin|]. unfold strip_bom_tok in Hin. destruct (is_tt _ u); [now right|exact Hin]. }
  assert (Hoff : no_off (create_box tree) = true).
  { apply box_no_off. rewrite Hbt. apply filter_forallb. unfold no_switch in Hno. rewrite forallb_forall in Hno |- *. auto. }
  assert (He : is_endl (f_endl (effective c src))) by (apply eff_endl, R).
  destruct (page_exact _ _ _ src B He Hoff E3) as (gs & G1 & G2). cbn [pipe_env cfg] in G1, G2.
  rewrite E4 in G2. injection G2 as ->.
  destruct (layout_walk _ _ _ B Hbk E3) as (oc & Hw).
  set (e := pipe_env c src toks) in *. change (effective c src) with (cfg e) in *.
  destruct B as (Hc & Htab & Hwf & _).
  assert (Hio : Forall (item_ok e) (bitems 0 (lock (f_autosort (cfg e)) (create_box tree)))).
  { apply bitems_ok; [now rewrite lock_wfb|now rewrite lock_named|]. now rewrite lock_kind, Hbk. }
  assert (Hg' : exists gs', gaps_at (Cur (-1) 0) gs' (pieces (cfg e) KBody l)
     /\ (pieces (cfg e) KBody l = nil \/ page (f_endl (cfg e)) gs' (pieces (cfg e) KBody l) = f_endl (cfg e) ++ page (f_endl (cfg e)) gs (pieces (cfg e) KBody l))).
  { destruct (bump_at _ _ G1) as [G|G].
    - exists (bump gs). split; [exact G|]. destruct gs as [|g gs]; [destruct (pieces (cfg e) KBody l); [now left|destruct G1]|].
      destruct (pieces (cfg e) KBody l) as [|p ps]; [now left|]. right. cbn [bump page]. unfold gap_text. cbn [fst snd repeat_s].
      now rewrite <- !app_assoc.
    - rewrite G. exists nil. split; [exact I|now left]. }
  destruct Hg' as (gs' & Hg & Hpg).
  destruct (walk_asm e Hc Htab _ _ _ _ _ Hw Hio _ _ 0%nat Hg ltac:(cbn; lia)) as (chs & Hch & Hasm).
  rewrite lock_bitems, create_bitems, map_map in Hch by exact Hgo. cbn [fst snd] in Hch.
  rewrite lock_bitems, create_bitems, map_map in Hio by exact Hgo. cbn [fst snd] in Hio.
  assert (HF : Forall2 (fun x o => (blank_item x = is_none o) /\ chunk_of e (lvalid l) x (line_of o)) (fitems 0 tree) chs).
  { pose proof (fitems_gone tree 0) as Hfg. revert chs Hasm Hch Hio Hfg. clear - Hc Htab. generalize (fitems 0 tree) as its.
    intros its chs _ H1 H2 H3. revert chs H1. induction its as [|[d n] its IH]; intros chs H1; cbn [map] in *; inversion H1; subst; constructor.
    - inversion H2; subst. inversion H3; subst. cbn [fst snd] in *. split.
      + match goal with Hc : chunk _ _ _ _ |- _ => inversion Hc; subst end;
          match goal with Hb : blank_k _ = _ |- _ => rewrite lock_kind in Hb end;
          destruct n as [tn|kn pn]; try discriminate; cbn [create_box bkind] in *; unfold blank_item; cbn [snd is_none]; assumption.
      + split; [assumption|]. split; [assumption|]. eauto.
    - inversion H2; subst. inversion H3; subst. apply IH; auto. }
  exists tree, (map line_of (trim_end is_none chs)). split; [exact E2|]. split; [exact A|]. split; [now split|]. split.
  - apply (trim_Forall2 _ blank_item is_none) in HF; [|now intros x y [? _]].
    clear - HF. induction HF as [|x y l1 m1 [_ Hxy] _ IH]; cbn [map]; constructor; assumption.
  - split.
    { apply no_twin_trim. destruct R as ((ex & vt & Hctx) & Hut & _). rewrite Hctx in E2.
      eapply parse_twins; [eapply std_wfctx; eauto|exact E2|]. now apply (tokenize_strip src). }
    f_equal. f_equal. rewrite asm_concat in Hasm. destruct (trim_end is_none chs) as [|y r] eqn:Et.
    + cbn [map join]. destruct Hpg as [Hn|Hpg]; [now rewrite Hn; destruct gs|].
      rewrite Hasm in Hpg. destruct He as [He|He]; rewrite He in Hpg; discriminate.
    + cbn [repeat_s app] in Hasm.
      assert (Hcj : List.concat (map (fun o => f_endl (cfg e) ++ line_of o) (y :: r)) = f_endl (cfg e) ++ join (f_endl (cfg e)) (map line_of (y :: r))).
      { rewrite <- concat_join by discriminate. now rewrite map_map. }
      rewrite Hcj in Hasm. destruct Hpg as [Hn|Hpg].
      * rewrite Hn in Hasm. destruct gs'; cbn [page] in Hasm; destruct He as [He|He]; rewrite He in Hasm; discriminate.
      * rewrite Hpg in Hasm. now apply app_inv_head in Hasm.
Qed.

(** C99: a formatted file is the lines of its items one after the other: every
    statement, comment and @-word stands on lines of its own, indented by the number
    of blocks around it, the empty lines between them are those the source has (any
    number of them making one) and one for a block with nothing in it, there are
    never two of them in a row, empty lines at the end are dropped, and the last
    line is ended. *)
Theorem C99_lines_of_items c specs tbl src text v :
  run_cfg c specs tbl -> p_usetabs c = false -> process_file c src = Ok (text, v) ->
  forall toks, tokenize src = Ok toks -> no_switch toks = true ->
  exists tree chs, parse (p_ctx c) toks = Ok tree
    /\ Forall2 (item_lines (effective c src) (cmt (pipe_env c src toks)) (f_endl (effective c src)))
               (trim_end blank_item (fitems 0 tree)) chs
    /\ no_twin blank_item (trim_end blank_item (fitems 0 tree)) = true
    /\ text = bom_text c ++ join (f_endl (effective c src)) chs ++ f_endl (effective c src).
Proof.
  intros R Ht H toks Hl Hno. destruct (file_chunks _ _ _ _ _ _ R Ht H toks Hl Hno) as (tree & chs & E & _ & (Hc & Htab) & HF & Ht2 & ->).
  exists tree, chs. split; [exact E|]. split; [|split; [exact Ht2|reflexivity]].
  change (effective c src) with (cfg (pipe_env c src toks)) in *. revert HF. apply Forall2_impl'.
  intros [d n] s (G & I & o & Ho & ->). cbn [fst snd] in *. eapply chunk_lines; eauto.
Qed.

Definition spaced_file : str := nl
  [$"if(A)"; $""; $"  "; $"# one"; $"# two"; $""; $""; $""; $"set(x 1) # three"; $""; $""; $"endif()"; $"if(B)"; $"endif()"; $"@AT@"; $""; $"#[[ a"; $" b ]]"; $""; $""].
Example C99_lines_of_items_ex :
  exists toks tree, tokenize spaced_file = Ok toks /\ no_switch toks = true
  /\ parse (p_ctx default_pcfg) toks = Ok tree
  /\ map (fun x => (fst x, blank_item x)) (trim_end blank_item (fitems 0 tree))
     = [(0, false); (1, true); (1, false); (1, true); (1, false); (1, true); (0, false); (0, false); (1, true); (0, false); (0, false); (0, true); (0, false)]%nat
  /\ process_file default_pcfg spaced_file
     = Ok (nl [$"if(A)"; $""; $"  # one two"; $""; $"  set(x 1) # three"; $""; $"endif()"; $"if(B)"; $""; $"endif()"; $"@AT@"; $""; $"#[[ a"; $" b ]]"], true).
Proof.
  eexists. eexists. split; [vm_compute; reflexivity|]. split; [vm_compute; reflexivity|].
  split; [vm_compute; reflexivity|]. split; [vm_compute; reflexivity|]. vm_compute. reflexivity.
Qed.
