(** * PropDangle: where the closing parenthesis of a command is written (dangle_parens) *)
From Verif Require Import Base Regex Lex LexProofs LexClass PropLex TextOps TextProofs PropText
  Tree Parse ParseProofs PropParse CmdSpec StdSpecs StdDb StdWf PropStd Layout LayoutProofs LayoutCols Pieces Writing
  PropLayout Markup Pipeline ParseShape StdShape NamesShape CommentShape TidyShape PropFile PropIndent Walk ParseTerm ParseBlank OutSame
  PropLines OneLine PropOneLine.

(** ** Specification *)
(** the column asked for by the option dangle_align; [w]: the column of the command
    name, [n]: the width of the name with its parenthesis *)
Definition dangle_column (c : fcfg) (w n col : Z) : Prop :=
  (f_dangle_align c = $"prefix" /\ col = w)
  \/ (f_dangle_align c = $"prefix-indent" /\ col = w + f_tab c)
  \/ (f_dangle_align c = $"child" /\ (col = w + n \/ col = w + f_tab c)).
(** the text of a comment behind a command: somewhere behind the parenthesis *)
Definition comment_behind (c : fcfg) (cm : bool -> list pnode -> Z -> res (list str)) (endl : str)
  (al : bool) (q : list pnode) (s : str) : Prop :=
  exists rows cols, 
    if is_bracket q then s = repeat_s rows endl ++ spaces cols ++ with_endl endl (normalize (first_spelling q))
    else exists col ls, cm al q (f_linewidth c - col) = Ok ls /\ ls <> nil
           /\ s = repeat_s rows endl ++ spaces cols ++ join (endl ++ spaces col) ls.
(** the text of a command: the name, the parenthesis, the arguments, the closing
    parenthesis, the comment behind it.  If parentheses are to dangle, then all of
    it up to the closing parenthesis is on one line, or the closing parenthesis is
    the first text of its line, in the column of the option. *)
Definition dangles (c : fcfg) (cm : bool -> list pnode -> Z -> res (list str)) (endl : str)
  (x : nat * pnode) (s : str) : Prop :=
  let w := Z.of_nat (fst x) * f_tab c in
  match snd x with
  | N (KStatement _) p =>
      exists t n args tail, hd_error (flat_map name_of p) = Some t /\ name_as c (spelling t) n
      /\ s = spaces w ++ n ++ spaces (Z.of_nat (blanks_before_paren c (spelling t))) ++ $"(" ++ args ++ $")" ++ tail
      /\ (tail = nil \/ exists al q, In (N (KComment al) q) p /\ comment_behind c cm endl al q tail)
      /\ (~ In cNL args
          \/ exists body col, args = body ++ endl ++ spaces col
             /\ dangle_column c w (zlen n + Z.of_nat (blanks_before_paren c (spelling t)) + 1) col)
  | _ => True
  end.

(** ** Rows of texts *)
Lemma flow_rows ls : forall cur ext, row (fst (flow_lines cur ext ls)) = row cur + zlen ls.
Proof.
  induction ls as [|l ls IH]; intros cur ext; cbn [flow_lines fst]; [unfold zlen; cbn; lia|].
  rewrite IH. cbn [row]. unfold zlen. cbn [List.length]. lia.
Qed.
Lemma end_row p : row (p_at p) <= row (p_end p) /\ (row (p_end p) <= row (p_at p) -> ~ In cNL (p_text p)).
Proof.
  unfold p_end, text_flow. pose proof (join_split cNL (p_text p)) as Hj. pose proof (split_on_no cNL (p_text p)) as Hno.
  destruct (split_on cNL (p_text p)) as [|l ls] eqn:E; cbn [fst]; [now destruct (split_on_nonempty cNL (p_text p))|].
  rewrite flow_rows. cbn [shift row]. pose proof (zlen_nonneg ls). split; [lia|]. intros H1.
  assert (ls = nil) as -> by (destruct ls; [reflexivity|]; unfold zlen in H1; cbn [List.length] in H1; lia).
  cbn [join] in Hj. rewrite <- Hj. apply Hno. now left.
Qed.
Lemma flat_endl endl s : ~ In cNL s -> with_endl endl s = s.
Proof. intros H. unfold with_endl. now rewrite no_nl_split. Qed.
Lemma spaces_nl k : ~ In cNL (spaces k).
Proof. unfold spaces. intros H. apply repeat_spec in H. discriminate. Qed.
(** texts between two places in one line *)
Lemma gaps_rows ps : forall cur gs, gaps_at cur gs ps -> row cur <= row (fst (after (cur, None) ps)).
Proof.
  assert (G : forall ps s gs, gaps_at (fst s) gs ps -> row (fst s) <= row (fst (after s ps))).
  { induction ps0 as [|p ps0 IH]; intros s [|g gs] H; try (now destruct H); cbn [after].
    destruct H as (H1 & _ & H3). pose proof (end_row p) as [E _]. specialize (IH (step p) gs H3). cbn [step fst] in IH. lia. }
  intros cur gs H. exact (G ps (cur, None) gs H).
Qed.
Lemma after_any ps : forall s s', fst s = fst s' -> fst (after s ps) = fst (after s' ps).
Proof. destruct ps as [|p ps]; intros s s' H; [exact H|reflexivity]. Qed.
Lemma page_flat endl ps : forall cur gs, gaps_at cur gs ps -> row (fst (after (cur, None) ps)) <= row cur -> ~ In cNL (page endl gs ps).
Proof.
  induction ps as [|p ps IH]; intros cur [|g gs] H Hr; try (now destruct H). destruct H as (H1 & _ & H3).
  cbn [after] in Hr. pose proof (end_row p) as [E1 E2]. pose proof (gaps_rows _ _ _ H3) as Hm.
  rewrite (after_any ps (step p) (p_end p, None) eq_refl) in Hr.
  cbn [page]. rewrite flat_endl by (apply E2; lia). unfold gap_text. replace (fst g) with 0%nat by lia. cbn [repeat_s app].
  intros F. apply in_app_iff in F as [F|F]; [now apply spaces_nl in F|]. apply in_app_iff in F as [F|F].
  - revert F. apply E2. lia.
  - revert F. apply IH with (cur := p_end p); [exact H3|lia].
Qed.

(** ** The parts of a laid out command *)
Section Stmt.
  Variable e : env.
  Hypothesis Hcmt : cmt_ok e.
  Hypothesis Htab : 0 <= f_tab (cfg e).
  Local Notation c := (cfg e).
  Lemma stmt_parts sp p cs sib path term cur pass l o : wfb (B (KStatement sp) p cs) = true ->
    reflow e (B (KStatement sp) p cs) sib path term cur pass = Ok (l, o) ->
    exists lp ag rp tl lf ll la lr lt t p1 c3 colc o1 o2 o3,
      cs = B KFunname (T t :: p1) nil :: lp :: ag :: rp :: tl /\ lcs l = lf :: ll :: la :: lr :: lt
      /\ (lok e (B KFunname (T t :: p1) nil) lf o1 /\ lpos lf = cur)
      /\ (lok e lp ll o2 /\ lpos ll = shift cur (zlen (spelling t) + Z.of_nat (blanks_before_paren c (spelling t))))
      /\ (lok e ag la c3 /\ lpos la = colc)
      /\ (colc = shift (lpos ll) 1
          \/ (colc = Cur (row cur + 1) (colm cur + f_tab c) /\ f_min_prefix c < zlen (spelling t) + Z.of_nat (blanks_before_paren c (spelling t)) + 1))
      /\ lok e rp lr o3
      /\ ((lpos lr = c3 /\ (f_dangle c = true -> row c3 <= row cur))
          \/ (dangle_cursor c cur (row c3 + 1) (colm colc) = Ok (lpos lr)))
      /\ (lt = nil \/ exists cm lc o4, In cm tl /\ is_comment_k (bkind cm) = true /\ lt = [lc] /\ lok e cm lc o4)
      /\ (is_lparen_k (bkind lp) = true /\ is_arggroup_k (bkind ag) = true /\ is_rparen_k (bkind rp) = true).
  Proof.
    intros Hw H. pose proof (stmt_shape e Htab sp p cs sib path term cur pass l o Hw H) as Hsh. rewrite reflow_eq in H.
    cbn [wfb] in Hw. apply andb_prop in Hw as [Hw1 Hw2].
    revert Hsh. change l with (fst (l, o)). revert H.
    apply (try_passes_inv (fun y => (exists t p1 lf ll rest, hd_error cs = Some (B KFunname (T t :: p1) nil) /\ lcs (fst y) = lf :: ll :: rest
      /\ lpos lf = cur
      /\ lpos ll = shift cur (zlen (spelling t) + Z.of_nat (blanks_before_paren c (spelling t)))) ->
      exists lp ag rp tl lf ll la lr lt t p1 c3 colc o1 o2 o3,
      cs = B KFunname (T t :: p1) nil :: lp :: ag :: rp :: tl /\ lcs (fst y) = lf :: ll :: la :: lr :: lt
      /\ (lok e (B KFunname (T t :: p1) nil) lf o1 /\ lpos lf = cur)
      /\ (lok e lp ll o2 /\ lpos ll = shift cur (zlen (spelling t) + Z.of_nat (blanks_before_paren c (spelling t))))
      /\ (lok e ag la c3 /\ lpos la = colc)
      /\ (colc = shift (lpos ll) 1
          \/ (colc = Cur (row cur + 1) (colm cur + f_tab c) /\ f_min_prefix c < zlen (spelling t) + Z.of_nat (blanks_before_paren c (spelling t)) + 1))
      /\ lok e rp lr o3
      /\ ((lpos lr = c3 /\ (f_dangle c = true -> row c3 <= row cur))
          \/ (dangle_cursor c cur (row c3 + 1) (colm colc) = Ok (lpos lr)))
      /\ (lt = nil \/ exists cm lc o4, In cm tl /\ is_comment_k (bkind cm) = true /\ lt = [lc] /\ lok e cm lc o4)
      /\ (is_lparen_k (bkind lp) = true /\ is_arggroup_k (bkind ag) = true /\ is_rparen_k (bkind rp) = true))); [|discriminate].
    intros pn w [l' o'] E (t & p1 & lf' & ll' & rest & S1 & S2 & S3 & S4). unfold try_pass in E. bk E. injection E as <- <-. cbn [fst lcs] in *.
    unfold reflow_once in Hx. cbn [bkind] in Hx. unfold reflow_statement in Hx.
    destruct cs as [|fn cs]; [discriminate|]. injection S1 as ->. cbn [children_of] in Hx. cbn [forallb] in Hw1. apply andb_prop in Hw1 as [Wf Wcs].
    destruct (negb (is_funname_k _)); [discriminate|]. bk Hx. destruct x0 as [lf c0].
    cbn [snd] in Hx0. apply reflow_lok in Hx0 as [Pf Lf]; [|exact Htab|exact Wf].
    destruct cs as [|lp cs]; [discriminate|]. cbn [children_of] in Hx.
    destruct (negb (is_lparen_k _)) eqn:Elp; [discriminate|]. bk Hx. destruct x0 as [ll c2]. cbn [snd] in Hx0.
    cbn [forallb] in Wcs. apply andb_prop in Wcs as [W1 Wcs].
    apply reflow_lok in Hx0 as [Pl Ll]; [|exact Htab|exact W1].
    destruct cs as [|ag cs]; [discriminate|]. cbn [children_of] in Hx.
    destruct (negb (is_arggroup_k _)) eqn:Eag; [discriminate|]. bk Hx. destruct x0 as [la c3]. cbn [snd] in Hx0.
    cbn [forallb] in Wcs. apply andb_prop in Wcs as [W2 Wcs].
    apply reflow_lok in Hx0 as [Pa La]; [|exact Htab|exact W2].
    destruct cs as [|rp cs]; [discriminate|]. cbn [children_of] in Hx. 
    destruct (negb (is_rparen_k _)) eqn:Erp; [discriminate|]. cbn [forallb] in Wcs. apply andb_prop in Wcs as [W3 Wcs].
    match type of Hx with (let '(_, _) := ?t in _) = _ => destruct t as [dangle v0] eqn:Ed end.
    bk Hx. bk Hx. destruct x1 as [[[ls c4] v1] x1]. injection Hx as <-. cbn [a_cs] in *.
    injection S2 as <- <- <-.
    set (colc := if (if prefix_width _ _ <=? _ then _ else _) : bool then _ else _) in *.
    assert (Hcl : forall z, lpos z = c3 -> dangle = false -> lpos z = c3 /\ (f_dangle c = true -> row c3 <= row cur)).
    { intros z Hz ->. split; [exact Hz|]. intros Hd. rewrite Hd in Ed. cbn [andb] in Ed. destruct (Z.gtb_spec (row c3) (row cur)); [discriminate|lia]. }
    assert (Hin : forall z oz q b cc pp, reflow e rp q b false cc pp = Ok (z, oz) -> (cc = (if dangle then x0 else c3) \/ cc = x0) ->
       lok e rp z oz /\ ((lpos z = c3 /\ (f_dangle c = true -> row c3 <= row cur)) \/ dangle_cursor c cur (row c3 + 1) (colm colc) = Ok (lpos z))).
    { intros z oz q b cc pp Hz Hcc. apply reflow_lok in Hz as [Hz1 Hz2]; [|exact Htab|exact W3]. split; [exact Hz2|]. rewrite Hz1.
      destruct dangle; destruct Hcc as [-> | ->]; auto. left. split; [reflexivity|]. apply (Hcl z Hz1 eq_refl). }
    assert (Hbeg : exists lr lt o3, ls = lr :: lt /\ lok e rp lr o3
      /\ ((lpos lr = c3 /\ (f_dangle c = true -> row c3 <= row cur)) \/ dangle_cursor c cur (row c3 + 1) (colm colc) = Ok (lpos lr))
      /\ (lt = nil \/ exists cm lc o4, In cm cs /\ is_comment_k (bkind cm) = true /\ lt = [lc] /\ lok e cm lc o4)).
    { unfold stmt_close in Hx1. apply bindr_ok in Hx1 as ([lr c4'] & Hx2 & Hx1). cbn [snd] in Hx2.
      destruct cs as [|cm cs]; cbn [children_of] in Hx1.
      - injection Hx1 as <- _ _ _. exists lr, nil, c4'. split; [reflexivity|]. destruct (Hin _ _ _ _ _ _ Hx2 ltac:(auto)) as [A B]. auto.
      - destruct (children_of e cs _) eqn:Ecs; [|discriminate]. 
        destruct (negb (is_comment_k _)) eqn:Ecm; [discriminate|]. apply negb_false_iff in Ecm. cbn [Layout.ckind fst] in Ecm.
        cbn [forallb] in Wcs. apply andb_prop in Wcs as [W4 _].
        assert (Hc : forall z oz q b cc pp, reflow e cm q b false cc pp = Ok (z, oz) -> lok e cm z oz).
        { intros z oz q b cc pp Hz. apply reflow_lok in Hz as [_ Hz]; [exact Hz|exact Htab|exact W4]. }
        apply bindr_ok in Hx1 as ([lc c5] & Hx3 & Hx1). cbn [snd] in Hx3. apply bindr_ok in Hx1 as ([[[[lr2 lc2] c6] save2] v2] & Hx4 & Hx1).
        assert (H2 : exists o2 o2', (lok e rp lr2 o2 /\ ((lpos lr2 = c3 /\ (f_dangle c = true -> row c3 <= row cur)) \/ dangle_cursor c cur (row c3 + 1) (colm colc) = Ok (lpos lr2))) /\ lok e cm lc2 o2').
        { destruct (negb dangle && _).
          - apply bindr_ok in Hx4 as ([z oz] & Hx5 & Hx4). apply bindr_ok in Hx4 as ([z' oz'] & Hx6 & Hx4). injection Hx4 as <- <- _ _ _. cbn [snd] in *. exists oz, oz'.
            split; [exact (Hin _ _ _ _ _ _ Hx5 ltac:(auto))|exact (Hc _ _ _ _ _ _ Hx6)].
          - injection Hx4 as <- <- _ _ _. exists c4', c5. split; [exact (Hin _ _ _ _ _ _ Hx2 ltac:(auto))|exact (Hc _ _ _ _ _ _ Hx3)]. }
        apply bindr_ok in Hx1 as ([[lr3 lc3] c7] & Hx5 & Hx1). injection Hx1 as <- _ _ _.
        assert (H3 : exists o3 o3', (lok e rp lr3 o3 /\ ((lpos lr3 = c3 /\ (f_dangle c = true -> row c3 <= row cur)) \/ dangle_cursor c cur (row c3 + 1) (colm colc) = Ok (lpos lr3))) /\ lok e cm lc3 o3').
        { destruct (lext lc2 >? _).
          - apply bindr_ok in Hx5 as ([z oz] & Hx6 & Hx5). apply bindr_ok in Hx5 as ([z' oz'] & Hx7 & Hx5). injection Hx5 as <- <- _. cbn [snd] in *. exists oz, oz'.
            split; [exact (Hin _ _ _ _ _ _ Hx6 ltac:(auto))|exact (Hc _ _ _ _ _ _ Hx7)].
          - injection Hx5 as <- <- _. exact H2. }
        destruct H3 as (o3 & o3' & [A B] & C). exists lr3, [lc3], o3. split; [reflexivity|]. split; [exact A|]. split; [exact B|].
        right. exists cm, lc3, o3'. split; [now left|]. auto. }
    destruct Hbeg as (lr & lt & o3 & -> & B1 & B2 & B3).
    apply negb_false_iff in Elp, Eag, Erp. unfold Layout.ckind in *. cbn [fst] in *.
    assert (Hc2 : c2 = shift (lpos ll) 1).
    { inversion Ll as [k0 p0 cs0 pos0 pass0 w0 v0' x' lines0 ls0 o0 l0 Ho Hli Hko Hxx Hv Hls]; subst.
      cbn [bkind] in Elp. destruct k0; try discriminate. subst l0. cbn [leaf_k] in Hls. inversion Hls; subst. cbn [lpos].
      unfold own_end. reflexivity. }
    exists lp, ag, rp, cs, lf, ll, la, lr, lt, t, p1, c3, colc, c0, c2, o3.
    repeat (split; [auto|]). 2:auto.
    subst colc. unfold prefix_width. cbn [fst bpcs first_spelling]. rewrite space_spec.
    destruct (Z.leb_spec (zlen (lower (spelling t)) + 1 + (if 0 <? Z.of_nat (blanks_before_paren c (spelling t)) then 1 else 0)) (f_min_prefix c)) as [Hle|Hlt]; [now left|].
    destruct w; [right|now left]. split; [reflexivity|].
    replace (zlen (lower (spelling t))) with (zlen (spelling t)) in Hlt by (unfold lower, zlen; now rewrite map_length).
    unfold blanks_before_paren in *. destruct (if smem _ _ then _ else _);
      [change (0 <? Z.of_nat 1) with true in Hlt|change (0 <? Z.of_nat 0) with false in Hlt]; cbv iota in Hlt; lia.
  Qed.
End Stmt.

Lemma gaps_split ps qs : forall cur gs, gaps_at cur gs (ps ++ qs) ->
  exists g1 g2, gs = g1 ++ g2 /\ gaps_at cur g1 ps /\ gaps_at (fst (after (cur, None) ps)) g2 qs.
Proof.
  induction ps as [|p ps IH]; intros cur gs H; [exists nil, gs; repeat split; exact H|].
  destruct gs as [|g gs]; [destruct H|]. cbn [app gaps_at] in H. destruct H as (H1 & H2 & H3).
  destruct (IH _ _ H3) as (g1 & g2 & -> & A & B). exists (g :: g1), g2. split; [reflexivity|]. split; [now split|].
  cbn [after]. now rewrite (after_any ps (step p) (p_end p, None) eq_refl).
Qed.
Lemma flow_cols ls : forall cur ext, 0 <= colm cur -> 0 <= colm (fst (flow_lines cur ext ls)).
Proof.
  induction ls as [|l ls IH]; intros cur ext H; cbn [flow_lines fst]; [exact H|]. apply IH. cbn [colm]. apply zlen_nonneg.
Qed.
Lemma gaps_cols ps : forall cur gs, gaps_at cur gs ps -> 0 <= colm cur -> 0 <= colm (fst (after (cur, None) ps)).
Proof.
  induction ps as [|p ps IH]; intros cur gs H Hc; [exact Hc|]. destruct gs as [|g gs]; [destruct H|]. cbn [gaps_at] in H. destruct H as (H1 & H2 & H3).
  cbn [after]. rewrite (after_any ps (step p) (p_end p, None) eq_refl). apply (IH _ gs H3).
  assert (Ha : 0 <= colm (p_at p)) by (destruct (row cur =? row (p_at p)); lia).
  unfold p_end, text_flow. destruct (split_on cNL (p_text p)) as [|l ls]; [exact Ha|]. apply flow_cols. cbn [shift colm].
  pose proof (zlen_nonneg l). lia.
Qed.
Lemma repeat_s_last n s : repeat_s (S n) s = repeat_s n s ++ s.
Proof. induction n as [|n IH]; [cbn; now rewrite app_nil_r|]. cbn [repeat_s] in *. rewrite IH at 1. now rewrite <- app_assoc. Qed.
Lemma concat_joins sep ls : forall s, List.concat (map (fun l => sep ++ l) ls) = match ls with nil => nil | _ => sep ++ join sep ls end
  /\ join sep (s :: ls) = s ++ List.concat (map (fun l => sep ++ l) ls).
Proof.
  induction ls as [|a ls IH]; intros s; [split; [reflexivity|cbn; now rewrite app_nil_r]|].
  destruct (IH a) as [A B]. split.
  - cbn [map List.concat]. rewrite B. now rewrite <- !app_assoc.
  - change (join sep (s :: a :: ls)) with (s ++ sep ++ join sep (a :: ls)). rewrite B. cbn [map List.concat]. now rewrite <- !app_assoc.
Qed.

Section Chunk.
  Variable e : env.
  Hypothesis Hcmt : cmt_ok e.
  Hypothesis Htab : 0 <= f_tab (cfg e).
  Hypothesis Hdan : f_dangle (cfg e) = true.
  Local Notation c := (cfg e).
  Local Notation endl := (f_endl (cfg e)).

  Lemma comment_page al q cs lc o gs cur parent : wfb (B (KComment al) q cs) = true -> lok e (B (KComment al) q cs) lc o ->
    gaps_at cur gs (pieces c parent lc) -> 0 <= colm cur ->
    comment_behind c (cmt e) endl al q (page endl gs (pieces c parent lc)).
  Proof.
    intros W Hl Hg Hcol. inversion Hl as [k0 p0 cs0 pos pass0 w v x lines ls o1 l0 Ho Hli Hko Hx Hv Hls]; subst. subst l0.
    cbn [pieces own_pieces lpos leaf_k] in *. assert (ls = nil) as -> by (now inversion Hls). cbn [flat_map] in *. rewrite app_nil_r in *.
    unfold lines_ok in Hli. cbn [lkind lpcs lpos llines] in Hli. unfold comment_behind.
    destruct (is_bracket q).
    - destruct gs as [|g [|]]; cbn [gaps_at] in Hg; try tauto. exists (fst g), (Z.of_nat (snd g)). cbn [page p_text]. unfold gap_text.
      now rewrite app_nil_r, <- app_assoc.
    - destruct Hli as [Hc Hne].
      assert (Hnl : Forall (fun s => ~ In cNL s) lines).
      { eapply Hcmt; [|exact Hc]. cbn [wfb] in W. rewrite !andb_true_iff in W. apply W. }
      destruct lines as [|s1 lines]; [now elim Hne|]. inversion Hnl as [|? ? N1 N2]; subst. cbn [line_pieces] in *.
      destruct gs as [|g gs]; [destruct Hg|]. cbn [gaps_at p_at] in Hg. destruct Hg as (_ & Hg0 & Hg).
      assert (Hcol' : 0 <= colm pos) by (destruct (row cur =? row pos); lia).
      exists (fst g), (Z.of_nat (snd g)), (colm pos), (s1 :: lines). split; [exact Hc|]. split; [discriminate|].
      cbn [page p_text]. 
      assert (Er : row (p_end (Pc pos s1 PkLine)) = row pos).
      { unfold p_end, text_flow. cbn [p_at p_text]. rewrite no_nl_split by exact N1. reflexivity. }
      rewrite (line_page endl (colm pos) lines (row pos) _ gs N2 Hcol' Er Hg). rewrite flat_endl by exact N1.
      pose proof (proj2 (concat_joins (endl ++ spaces (colm pos)) lines s1)) as Hj.
      unfold gap_text. rewrite <- app_assoc. f_equal. f_equal. symmetry. etransitivity; [exact Hj|].
      f_equal. f_equal. apply map_ext. intros l. now rewrite <- app_assoc.
  Qed.

  Lemma box_comment a sp p cm : In cm (bcs (lock a (create_box (N (KStatement sp) p)))) -> is_comment_k (bkind cm) = true ->
    exists al q cs, cm = B (KComment al) q cs /\ In (N (KComment al) q) p.
  Proof.
    intros Hin Hk. destruct (lock_children a (create_box (N (KStatement sp) p))) as [_ Hm]. rewrite (Hm eq_refl) in Hin. clear Hm.
    apply in_map_iff in Hin as ([k q cs] & <- & Hin). cbn [lock bkind] in Hk.
    assert (Hx : In (N k q) p).
    { cbn [create_box bcs] in Hin. apply in_flat_map in Hin as (x & Hx & Hin).
      destruct x as [u|k1 c1]; [destruct Hin|].
      assert (E : create_box (N k1 c1) = B k q cs).
      { destruct k1; try (destruct Hin as [Hin|[]]; exact Hin). destruct (_ <? 2); [destruct Hin|]. destruct Hin as [Hin|[]]. exact Hin. }
      cbn [create_box] in E. injection E as -> -> _. exact Hx. }
    destruct k; try discriminate. eexists. exists q. eexists. cbn [lock]. split; [reflexivity|exact Hx].
  Qed.

  Lemma chunk_dangles val a d n o : item_ok e (d, lock a (create_box n)) -> chunk e val (d, lock a (create_box n)) o ->
    dangles c (cmt e) endl (d, n) (line_of o).
  Proof.
    intros (W1 & W2 & W3 & W4) H. cbn [snd] in *. unfold dangles. cbn [fst snd].
    destruct n as [|k p]; [exact Logic.I|]. destruct k; try exact Logic.I.
    assert (Hb : exists cs, lock a (create_box (N (KStatement cmdspec) p)) = B (KStatement cmdspec) p cs) by (cbn [create_box lock]; eauto).
    destruct Hb as (cs & Hb).
    assert (Hcomm : forall cm, In cm cs -> is_comment_k (bkind cm) = true -> exists al q cs, cm = B (KComment al) q cs /\ In (N (KComment al) q) p).
    { intros cm Hin. apply (box_comment a cmdspec). rewrite Hb. exact Hin. }
    assert (Hname : forall t p1, hd_error cs = Some (B KFunname (T t :: p1) nil) -> hd_error (flat_map name_of p) = Some t).
    { intros t p1 E1. assert (Eh : hd_error (bcs (lock a (create_box (N (KStatement cmdspec) p)))) = Some (B KFunname (T t :: p1) nil)) by (rewrite Hb; exact E1).
      apply (lock_hd a (KStatement cmdspec) p) in Eh as ([k2 p2 c2] & Eh & El); [|reflexivity]. cbn [lock] in El.
      eapply (first_box name_of KFunname t p1); [|now left| |exact Eh].
      - intros [|k3 [|[] ?]]; try reflexivity; now destruct k3.
      - injection El as <- <- El. f_equal. destruct c2; [reflexivity|discriminate El]. }
    rewrite Hb in *. clear Hb.
    inversion H as [d0 b0 Hb|d0 b0 parent path term pass sib cur l o0 q ps gs Hb Hr Hcol Hp Hat Hgs]; subst; [discriminate Hb|]. clear H Hb.
    cbn [line_of]. remember (p_at q) as cur eqn:Ecur.
    destruct (stmt_parts e Htab cmdspec p cs sib path term cur pass l o0 W1 Hr)
      as (lp & ag & rp & tl & lf & ll & la & lr & lt & t & p1 & c3 & colc & o1 & o2 & o3 & -> & El & [Lf Pf] & [Ll Pl] & [La Pa] & Hcc & Lr & Hrp & Htl & K1 & K2 & K3).
    specialize (Hname t p1 eq_refl).
    apply reflow_lok in Hr as [Hpos Hl]; [|exact Htab|exact W1]. destruct l as [k0 p0 pos0 pass0 w0 v0 x0 lines0 cs0]. cbn [lcs lpos] in *. subst cs0.
    assert (k0 = KStatement cmdspec) as -> by (inversion Hl; reflexivity). clear Hl.
    cbn [pieces own_pieces app] in Hp.
    cbn [wfb] in W1. apply andb_prop in W1 as [W1 _]. cbn [named is_scalar_k] in W2. cbn [andb] in W2.
    cbn [forallb] in W1, W2. rewrite !andb_true_iff in W1, W2. destruct W1 as (V1 & V2 & V3 & V4 & V5). destruct W2 as (N1 & N2 & N3 & N4 & N5).
    (* the name *)
    inversion Lf as [k1 p2 cs1 pos1 pass1 w1 v1 x1 lines1 ls1 oo1 l1 Ho1 Hli1 Hko1 Hx1 Hv1 Hls3]; subst. subst l1.
    cbn [leaf_k] in Hls3. assert (ls1 = nil) as -> by (now inversion Hls3). clear Hls3.
    cbn [wfb] in V1. rewrite !andb_true_iff in V1. destruct V1 as [_ [[F1 F2] F3]].
    assert (Hone : one_line (spelling t) = true) by exact F2.
    cbn [named is_scalar_k forallb] in N1. rewrite andb_true_r in N1. pose proof N1 as N1'. unfold text_ok in N1'. apply andb_prop in N1' as [N1' _].
    destruct (scalar_piece c (KStatement cmdspec) KFunname p1 t eq_refl N1') as (nm & En & Ef).
    assert (Hnm := name_as_text e _ _ _ _ N1 Hone En).
    cbn [flat_map pieces own_pieces lpos] in *. rewrite En in Hp. cbn [app] in Hp.
    (* the parentheses *)
    assert (Hll : pieces c (KStatement cmdspec) ll = [Pc (lpos ll) $"(" (PkParen true)]).
    { inversion Ll as [k2 p3 cs2 pos2 pass2 w2 v2 x2 lines2 ls2 oo2 l2 Ho2 Hli2 Hko2 Hx2 Hv2 Hls]; subst.
      cbn [bkind] in K1. destruct k2; try discriminate. subst l2. cbn [leaf_k] in Hls. inversion Hls; subst. reflexivity. }
    assert (Hlr : pieces c (KStatement cmdspec) lr = [Pc (lpos lr) $")" (PkParen false)]).
    { inversion Lr as [k2 p3 cs2 pos2 pass2 w2 v2 x2 lines2 ls2 oo2 l2 Ho2 Hli2 Hko2 Hx2 Hv2 Hls]; subst.
      cbn [bkind] in K3. destruct k2; try discriminate. subst l2. cbn [leaf_k] in Hls. inversion Hls; subst. reflexivity. }
    rewrite Hll, Hlr in Hp. cbn [app] in Hp. set (PA := pieces c (KStatement cmdspec) la) in *.
    set (PT := flat_map (pieces c (KStatement cmdspec)) lt) in *. injection Hp as <- <-. cbn [p_at p_text] in *. 
    set (pl := Pc (lpos ll) $"(" (PkParen true)) in *. set (pr := Pc (lpos lr) $")" (PkParen false)) in *.
    assert (Ee : p_end (Pc pos1 nm (PkWord true)) = shift pos1 (zlen (spelling t))).
    { unfold p_end. cbn [p_at p_text]. now rewrite Ef, flow_text_one. }
    rewrite Ee in Hgs. destruct gs as [|g0 gs]; [destruct Hgs|]. cbn [gaps_at] in Hgs. destruct Hgs as (G1 & G2 & G3).
    change (p_at pl) with (lpos ll) in G1, G2. rewrite Pl in G1, G2. cbn [shift row colm] in G1, G2. rewrite Z.eqb_refl in G2.
    assert (Epl : p_end pl = shift (lpos ll) 1) by reflexivity.
    apply gaps_split in G3 as (gA & g2 & -> & GA & G4). destruct g2 as [|g gT]; [destruct G4|]. cbn [gaps_at] in G4. destruct G4 as (G5 & G6 & G7).
    change (p_at pr) with (lpos lr) in G5, G6.
    set (sA := fst (after (p_end pl, None) PA)) in *.
    (* the arguments end before [c3] *)
    assert (Hcol0 : 0 <= colm pos1) by (rewrite Hcol; nia).
    assert (HsA : row sA <= row c3).
    { assert (He : enters false ag (lpos la) (p_end pl, Some (PkParen true))).
      { rewrite Epl. split; [|split].
        - destruct Hcc as [E|[E _]]; rewrite E; [apply cle_refl|]. left. cbn [fst row shift]. rewrite Pl. cbn [shift row]. lia.
        - discriminate.
        - right. reflexivity. }
      destruct (proj1 (lok_placed false e Hcmt) _ _ _ La (KStatement cmdspec) _ V3 ltac:(discriminate) (named_names _ _ _ N3) He) as [_ [A _]].
      fold PA in A. assert (E : fst (after (p_end pl, Some (PkParen true)) PA) = sA) by (apply after_any; reflexivity).
      assert (A' : cle sA c3) by (rewrite <- E; exact A). destruct A' as [A'|[A' _]]; lia. }
    pose proof (gaps_rows _ _ _ GA) as HA0. change (fst (after (p_end pl, None) PA)) with sA in HA0.
    assert (Hrow0 : row (p_end pl) = row pos1) by (rewrite Epl, Pl; reflexivity).
    (* the text *)
    exists t, nm, (page endl gA PA ++ gap_text endl g), (page endl gT PT).
    split; [exact Hname|]. split; [exact Hnm|]. split.
    { f_equal. rewrite (one_line_endl _ nm) by apply Hnm. f_equal. cbn [page]. unfold gap_text at 1.
      replace (fst g0) with 0%nat by lia. replace (Z.of_nat (snd g0)) with (Z.of_nat (blanks_before_paren c (spelling t))) by lia.
      cbn [repeat_s app]. f_equal.
      replace (with_endl endl (p_text pl)) with $"(" by (symmetry; apply one_line_endl; reflexivity). f_equal.
      rewrite (page_app endl PA (pr :: PT) _ gA (g :: gT) GA). rewrite <- app_assoc. reflexivity. }
    split.
    { destruct Htl as [-> | (cm & lc & o4 & Hin & Hk & -> & Lc)].
      - left. subst PT. cbn [flat_map] in *. destruct gT; [reflexivity|destruct G7].
      - right. assert (Hin' : In cm (B KFunname (T t :: p1) nil :: lp :: ag :: rp :: tl)) by (do 4 right; exact Hin).
        destruct (Hcomm cm Hin' Hk) as (al & q & cs & -> & Hq). exists al, q. split; [exact Hq|].
        subst PT. cbn [flat_map] in *. rewrite app_nil_r in *.
        rewrite forallb_forall in V5. eapply comment_page; eauto.
        pose proof (gaps_cols PA _ _ GA ltac:(rewrite Epl, Pl; cbn [shift colm]; pose proof (zlen_nonneg (spelling t)); lia)) as Hc1.
        change (fst (after (p_end pl, None) PA)) with sA in Hc1. change (p_end pr) with (shift (lpos lr) 1). cbn [shift colm].
        destruct (row sA =? row (lpos lr)); lia. }
    destruct Hrp as [[E1 E2]|E1].
    - left. specialize (E2 Hdan). rewrite E1 in G5. intros F. apply in_app_iff in F as [F|F].
      + revert F. apply page_flat with (cur := p_end pl); [exact GA|]. change (fst (after (p_end pl, None) PA)) with sA. lia.
      + unfold gap_text in F. replace (fst g) with 0%nat in F by lia. cbn [repeat_s app] in F. now apply spaces_nl in F.
    - right. assert (Hr : row (lpos lr) = row c3 + 1 /\ dangle_column c (Z.of_nat d * f_tab c) (zlen nm + Z.of_nat (blanks_before_paren c (spelling t)) + 1) (colm (lpos lr))).
      { assert (Hlen : zlen nm = zlen (spelling t)) by (destruct Hnm as (Hn & _); apply (f_equal zlen) in Hn; unfold lower, zlen in *; rewrite !map_length in Hn; exact Hn).
        unfold dangle_cursor in E1. unfold dangle_column. rewrite <- Hcol.
        destruct (seqb (f_dangle_align c) $"prefix") eqn:A1; [apply seqb_eq in A1; injection E1 as <-; split; [reflexivity|]; left; auto|].
        destruct (seqb (f_dangle_align c) $"prefix-indent") eqn:A2; [apply seqb_eq in A2; injection E1 as <-; split; [reflexivity|]; right; left; auto|].
        destruct (seqb (f_dangle_align c) $"child") eqn:A3; [|discriminate]. apply seqb_eq in A3. injection E1 as <-. split; [reflexivity|]. right. right.
        split; [exact A3|]. cbn [colm]. destruct Hcc as [-> | [-> _]]; [left|now right]. rewrite Pl. cbn [shift colm]. lia. }
      destruct Hr as [Hr1 Hr2]. rewrite Hr1 in G5. destruct (fst g) as [|k] eqn:Eg; [lia|].
      exists (page endl gA PA ++ repeat_s k endl), (colm (lpos lr)). split; [|exact Hr2].
      unfold gap_text. rewrite Eg, repeat_s_last. replace (row sA =? row (lpos lr)) with false in G6 by (symmetry; apply Z.eqb_neq; lia).
      rewrite G6. now rewrite <- !app_assoc.
  Qed.
End Chunk.

(** ** Files *)
(** C133: with dangle_parens every command of a file is written on one line up to
    its closing parenthesis, or the closing parenthesis is the first text of its
    line, in the column which dangle_align asks for. *)
Theorem C133_dangling c specs tbl src text v :
  run_cfg c specs tbl -> p_usetabs c = false -> f_dangle (p_fmt c) = true ->
  process_file c src = Ok (text, v) ->
  forall toks, tokenize src = Ok toks -> no_switch toks = true ->
  exists tree chs, parse (p_ctx c) toks = Ok tree
    /\ Forall2 (dangles (effective c src) (cmt (pipe_env c src toks)) (f_endl (effective c src)))
         (trim_end blank_item (fitems 0 tree)) chs
    /\ text = bom_text c ++ join (f_endl (effective c src)) chs ++ f_endl (effective c src).
Proof.
  intros R Ht Hd H toks Hl Hno.
  destruct (file_chunks _ _ _ _ _ _ R Ht H toks Hl Hno) as (tree & chs & E & _ & (Hc & Htab) & HF & _ & ->).
  exists tree, chs. split; [exact E|]. split; [|reflexivity].
  assert (Hd' : f_dangle (cfg (pipe_env c src toks)) = true) by (cbn [pipe_env cfg]; unfold effective; destruct (p_auto c); exact Hd).
  change (effective c src) with (cfg (pipe_env c src toks)) in *. revert HF. apply Forall2_impl'.
  intros [d n] s (G & I & o & Ho & ->). cbn [fst snd] in *. eapply chunk_dangles; eauto.
Qed.

Definition dangle_fcfg (on : bool) (align : str) : fcfg :=
  let d := default_fcfg in
  FCfg (f_linewidth d) (f_tab d) (f_max_subgroups d) (f_max_pargs d) (f_max_rows_cmdline d) (f_max_lines d)
    (f_min_prefix d) (f_max_prefix d) (f_sep_ctrl d) (f_sep_fn d) on align (f_autosort d) (f_keyword_case d)
    (f_command_case d) (f_spelling d) (f_always_wrap d) (f_passes d) (f_endl d).
Definition dangle_pcfg (on : bool) (align : str) : pcfg :=
  PCfg (dangle_fcfg on align) default_mcfg the_ctx false false false UseSpace.
Definition dangle_file : str := nl
  [$"if(A)"; $"set(short 1)";
   $"add_custom_command(OUTPUT x y COMMAND gen ${a} -o x DEPENDS gen) # why"; $"set(x # one"; $" 1) # two"; $"endif()"].
Definition dangled (paren1 paren2 : str) : str := nl
  [$"if(A)"; $"  set(short 1)"; $"  add_custom_command("; $"    OUTPUT x y"; $"    COMMAND gen ${a} -o x"; $"    DEPENDS gen";
   paren1 ++ $") # why"; $"  set(x # one"; $"      1"; paren2 ++ $") # two"; $"endif()"].
Example C133_dangling_ex :
  run_cfg (dangle_pcfg true $"prefix") nil nil /\ f_dangle (p_fmt (dangle_pcfg true $"prefix")) = true
  /\ (exists toks, tokenize dangle_file = Ok toks /\ no_switch toks = true)
  /\ process_file (dangle_pcfg true $"prefix") dangle_file = Ok (dangled $"  " $"  ", true)
  /\ process_file (dangle_pcfg true $"prefix-indent") dangle_file = Ok (dangled $"    " $"    ", true)
  /\ process_file (dangle_pcfg true $"child") dangle_file = Ok (dangled $"    " $"      ", true)
  /\ process_file (dangle_pcfg true $"other") dangle_file = Err ValueErr.
Proof.
  split; [exact default_run|]. split; [reflexivity|].
  split; [eexists; split; [vm_compute; reflexivity|vm_compute; reflexivity]|].
  repeat (split; [vm_compute; reflexivity|]). vm_compute. reflexivity.
Qed.
