(** * PropIndent: where the commands of a formatted file stand *)
From Coq Require Import Permutation.
From Verif Require Import Base Regex Lex LexProofs LexClass PropLex TextOps TextProofs PropText
  Tree Parse ParseProofs PropParse CmdSpec StdSpecs StdDb StdWf PropStd Layout LayoutProofs LayoutCols Pieces Writing
  PropLayout Markup Pipeline ParseShape StdShape NamesShape CommentShape TidyShape PropFile.

(** ** Specification *)
(** The commands of a file with the number of blocks around each, from the parse
    tree: the body of a block (if, while, foreach, function, macro, else, elseif)
    is one level deeper than the commands that open and close it. *)
Definition name_of (n : pnode) : list token :=
  match n with N KFunname (T t :: _) => [t] | _ => nil end.
Fixpoint calls (d : nat) (n : pnode) : list (nat * token) :=
  match n with
  | T _ => nil
  | N k cs =>
      match k with
      | KBody => flat_map (calls d) cs
      | KFlow => flat_map (fun c => match c with N KBody _ => calls (S d) c | _ => calls d c end) cs
      | KStatement _ => map (pair d) (flat_map name_of cs)
      | _ => nil
      end
  end.
(** the names that open, divide or close a block *)
Definition block_names : list str :=
  [$"if"; $"elseif"; $"else"; $"endif"; $"while"; $"endwhile"; $"foreach"; $"endforeach";
   $"function"; $"endfunction"; $"macro"; $"endmacro"].
(** blanks between the name of a command and its parenthesis *)
Definition blanks_before_paren (c : fcfg) (sp : str) : nat :=
  if (if smem (lower sp) block_names then f_sep_ctrl c else f_sep_fn c) then 1%nat else 0%nat.
(** what may be written for a command name: the configured letter case *)
Definition name_as (c : fcfg) (sp n : str) : Prop :=
  lower n = lower sp /\ one_line n = true
  /\ (f_command_case c sp = $"lower" -> n = lower sp)
  /\ (f_command_case c sp = $"upper" -> n = upper sp)
  /\ (f_command_case c sp = $"unchanged" -> n = sp).

Definition is_name (k : pk) : bool := match k with PkWord true => true | _ => false end.
(** [gs], [ps]: the texts of a page and the gaps before them.  The command names
    among the texts are those of [es], in this order; before each there is a line
    ending and then blanks only, as many as its depth asks for; behind each comes
    the opening parenthesis, on the same line. *)
Fixpoint stepped (c : fcfg) (es : list (nat * token)) (gs : list gap) (ps : list piece) : Prop :=
  match gs, ps with
  | g :: gs', p :: ps' =>
      if is_name (p_kind p)
      then match es with
           | (d, t) :: es' =>
               (0 < fst g)%nat /\ Z.of_nat (snd g) = Z.of_nat d * f_tab c
               /\ name_as c (spelling t) (p_text p)
               /\ match gs', ps' with
                  | h :: _, q :: _ => h = (0%nat, blanks_before_paren c (spelling t)) /\ p_text q = $"("
                  | _, _ => False
                  end
               /\ stepped c es' gs' ps'
           | nil => False
           end
      else stepped c es gs' ps'
  | _, _ => es = nil
  end.
(** the same on the text: it falls into parts, one for each command, each ending
    with a line ending, the indentation, the name and the parenthesis *)
Fixpoint lined (c : fcfg) (es : list (nat * token)) (text : str) : Prop :=
  match es with
  | nil => True
  | (d, t) :: es' =>
      exists a n b, name_as c (spelling t) n
        /\ text = a ++ [cNL] ++ spaces (Z.of_nat d * f_tab c) ++ n
                  ++ spaces (Z.of_nat (blanks_before_paren c (spelling t))) ++ $"(" ++ b
        /\ lined c es' b
  end.

(** ** The space before the parenthesis *)
Lemma up_low s : upper (lower s) = upper s.
Proof.
  unfold lower, upper. rewrite map_map. apply map_ext. intros a. unfold Base.loc, upc.
  destruct ((65 <=? a) && (a <=? 90))%N eqn:E; [|reflexivity].
  rewrite andb_true_iff, !N.leb_le in E.
  replace ((97 <=? a + 32) && (a + 32 <=? 122))%N with true
    by (symmetry; rewrite andb_true_iff, !N.leb_le; lia).
  replace ((97 <=? a) && (a <=? 122))%N with false
    by (symmetry; rewrite andb_false_iff, !N.leb_gt; lia). lia.
Qed.
Lemma end_eqb s w : startswith $"END" s && seqb (skipn 3 s) w = seqb s ($"END" ++ w).
Proof.
  apply eq_true_iff_eq. rewrite andb_true_iff, !seqb_eq, startswith_spec. split.
  - intros [(r & ->) H]. cbn [skipn s2l app] in H. vm_compute in H. now subst.
  - intros ->. split; [eauto|reflexivity].
Qed.
Lemma low_up_eqb sp w : lower w = w -> seqb (upper sp) (upper w) = seqb (lower sp) w.
Proof.
  intros E. apply eq_true_iff_eq. rewrite !seqb_eq. split; intros H.
  - rewrite <- E, <- (lower_upper sp), H. apply lower_upper.
  - rewrite <- (up_low sp), H. reflexivity.
Qed.
Lemma space_spec c sp : need_paren_space c (lower sp) = (0 <? Z.of_nat (blanks_before_paren c sp)).
Proof.
  unfold need_paren_space, blanks_before_paren. rewrite up_low.
  assert (E : smem (lower sp) block_names =
    (smem (upper sp) flow_type_names || (startswith $"END" (upper sp) && smem (skipn 3 (upper sp)) flow_type_names)
     || smem (upper sp) [$"ELSE"; $"ELSEIF"])).
  { unfold smem, flow_type_names, block_names. cbn [existsb]. rewrite !orb_false_r, !andb_orb_distrib_r.
    rewrite !end_eqb.
    change ($"END" ++ $"IF") with ($"ENDIF").
    change ($"END" ++ $"WHILE") with ($"ENDWHILE").
    change ($"END" ++ $"FOREACH") with ($"ENDFOREACH").
    change ($"END" ++ $"FUNCTION") with ($"ENDFUNCTION").
    change ($"END" ++ $"MACRO") with ($"ENDMACRO").
    assert (L : forall w u, lower w = w -> upper w = u -> seqb (lower sp) w = seqb (upper sp) u).
    { intros w u A B. rewrite <- B. symmetry. now apply low_up_eqb. }
    rewrite (L $"if" $"IF") by reflexivity.
    rewrite (L $"elseif" $"ELSEIF") by reflexivity.
    rewrite (L $"else" $"ELSE") by reflexivity.
    rewrite (L $"endif" $"ENDIF") by reflexivity.
    rewrite (L $"while" $"WHILE") by reflexivity.
    rewrite (L $"endwhile" $"ENDWHILE") by reflexivity.
    rewrite (L $"foreach" $"FOREACH") by reflexivity.
    rewrite (L $"endforeach" $"ENDFOREACH") by reflexivity.
    rewrite (L $"function" $"FUNCTION") by reflexivity.
    rewrite (L $"endfunction" $"ENDFUNCTION") by reflexivity.
    rewrite (L $"macro" $"MACRO") by reflexivity.
    rewrite (L $"endmacro" $"ENDMACRO") by reflexivity.
    repeat match goal with |- context [seqb (upper sp) ?w] => destruct (seqb (upper sp) w) end; reflexivity. }
  rewrite E.
  destruct (smem (upper sp) flow_type_names); [destruct (f_sep_ctrl c); reflexivity|].
  destruct (startswith $"END" (upper sp) && smem (skipn 3 (upper sp)) flow_type_names); [destruct (f_sep_ctrl c); reflexivity|].
  destruct (smem (upper sp) [$"ELSE"; $"ELSEIF"]); [destruct (f_sep_ctrl c); reflexivity|destruct (f_sep_fn c); reflexivity].
Qed.

(** ** Positions of the texts *)
Section Heads.
  Variable c : fcfg.
  (** [stepped] in terms of positions; [s]: where the last text ended *)
  Fixpoint heads (s : st) (es : list (nat * token)) (ps : list piece) : Prop :=
    match ps with
    | p :: ps' =>
        if is_name (p_kind p)
        then match es with
             | (d, t) :: es' =>
                 row (fst s) < row (p_at p) /\ colm (p_at p) = Z.of_nat d * f_tab c
                 /\ name_as c (spelling t) (p_text p)
                 /\ match ps' with
                    | q :: _ => p_at q = shift (p_end p) (Z.of_nat (blanks_before_paren c (spelling t))) /\ p_text q = $"("
                    | _ => False
                    end
                 /\ heads (step p) es' ps'
             | nil => False
             end
        else heads (step p) es ps'
    | nil => es = nil
    end.
  Lemma heads_app ps qs fs : forall s es, heads s es ps -> heads (after s ps) fs qs -> heads s (es ++ fs) (ps ++ qs).
  Proof.
    induction ps as [|p ps IH]; intros s es H1 H2.
    - cbn in H1. subst es. exact H2.
    - cbn [heads app after] in *. destruct (is_name (p_kind p)).
      + destruct es as [|[d t] es]; [tauto|]. destruct H1 as (A & B & C & D & E). cbn [app].
        split; [exact A|]. split; [exact B|]. split; [exact C|]. split; [|now apply IH].
        destruct ps as [|q ps]; [tauto|exact D].
      + now apply IH.
  Qed.
  Lemma heads_none ps : forall s, Forall (fun p => is_name (p_kind p) = false) ps -> heads s nil ps.
  Proof. induction ps as [|p ps IH]; intros s H; [reflexivity|]. inversion H; subst. cbn [heads]. rewrite H2. now apply IH. Qed.
End Heads.

Lemma forallb_impl {A} (f g : A -> bool) l : (forall x, f x = true -> g x = true) -> forallb f l = true -> forallb g l = true.
Proof. intros H. rewrite !forallb_forall. auto. Qed.

(** ** Command names appear at the head of statements only *)
Definition deep_k (k : kind) : bool :=
  match k with KBody | KFlow | KStatement _ | KFunname => false | _ => true end.
Lemma line_pieces_names ls : forall p, Forall (fun p => is_name (p_kind p) = false) (line_pieces p ls).
Proof. induction ls; intros p; constructor; auto. Qed.
Lemma own_names c parent k p pos lines : deep_k k = true ->
  Forall (fun p => is_name (p_kind p) = false) (own_pieces c parent k p pos lines).
Proof.
  intros H. unfold own_pieces. destruct k; try discriminate;
    repeat match goal with
    | |- Forall _ (match ?x with _ => _ end) => destruct x
    | |- Forall _ (if ?x then _ else _) => destruct x
    end; repeat constructor. apply line_pieces_names.
Qed.
Lemma wfb_deep k p cs : wfb (B k p cs) = true -> kinds_ok k cs = true -> deep_k k = true ->
  leaf_k k = false -> forallb (fun b => deep_k (bkind b)) cs = true.
Proof.
  intros H1 H2 H3 H4. cbn [wfb] in H1. apply andb_prop in H1 as [_ H1].
  assert (Ht : forall l, tail_ok l = true -> forallb (fun b => deep_k (bkind b)) l = true).
  { intros [|[k1 p1 c1] [|y l]] H; try discriminate; [reflexivity|]. cbn in H |- *. destruct k1; try discriminate; reflexivity. }
  destruct k; try discriminate; cbn in H2; rewrite ?andb_true_iff in H1.
  - (* KArgGroup *) eapply forallb_impl; [|exact H1]. intros [k1 p1 c1]. cbn. destruct k1; try discriminate; reflexivity.
  - (* KKwargGroup *) destruct cs as [|[[] p1 c1] [|[k2 p2 c2] [|]]]; try discriminate H1; [reflexivity|].
    cbn in H1 |- *. destruct k2; try discriminate; reflexivity.
  - (* KPargGroup *) eapply forallb_impl; [|exact H1]. intros [k1 p1 c1]. cbn. destruct k1; try discriminate; reflexivity.
  - (* KParenGroup *) destruct cs as [|[k1 p1 c1] [|[k2 p2 c2] [|[k3 p3 c3] tl]]]; try discriminate H1.
    rewrite !andb_true_iff in H1. destruct H1 as [[[A B] C] D]. cbn [forallb bkind] in *.
    rewrite (Ht _ D). destruct k1, k2, k3; try discriminate; reflexivity.
  - (* KArgument *) destruct H1 as [_ H1]. auto.
  - (* KKeyword *) destruct H1 as [_ H1]. destruct cs; [reflexivity|discriminate].
  - (* KFlag *) destruct H1 as [_ H1]. auto.
  - (* KAtStmt *) destruct cs as [|[[] p1 c1] tl]; try discriminate. cbn in H2. cbn [forallb bkind deep_k andb]. now apply Ht.
  - (* KAtWord *) destruct H1 as [_ H1]. destruct cs; [reflexivity|discriminate].
Qed.
Lemma deep_names e :
  (forall b l o, lok e b l o -> forall parent, wfb b = true -> deep_k (bkind b) = true ->
     Forall (fun p => is_name (p_kind p) = false) (pieces (cfg e) parent l))
  /\ (forall k pv c bs ls o, loks e k pv c bs ls o -> forallb wfb bs = true -> forallb (fun b => deep_k (bkind b)) bs = true ->
     Forall (fun p => is_name (p_kind p) = false) (flat_map (pieces (cfg e) k) ls)).
Proof.
  apply lok_loks_ind.
  - intros k p cs pos pass w v x lines ls o l H1 H2 H3 H4 H5 H6 IH parent Hw Hd. cbn [pieces l]. cbn [bkind] in Hd.
    apply Forall_app. split; [now apply own_names|]. apply IH.
    + destruct (leaf_k k); [reflexivity|]. cbn [wfb] in Hw. now apply andb_prop in Hw.
    + destruct (leaf_k k) eqn:El; [reflexivity|]. eapply wfb_deep; eauto.
  - intros. constructor.
  - intros k pv c b bs l ls o1 o Hs Hl IH1 Hls IH2 Hw Hd. cbn [forallb flat_map] in *.
    apply andb_prop in Hw as [W1 W2]. apply andb_prop in Hd as [D1 D2]. apply Forall_app. auto.
Qed.

(** ** The layout engine places the commands *)
(** the commands of a box, as [calls] of the tree *)
Definition bname (b : box) : list token := match b with B KFunname (T t :: _) _ => [t] | _ => nil end.
Fixpoint bcalls (d : nat) (b : box) : list (nat * token) :=
  match b with
  | B k p cs =>
      match k with
      | KBody => flat_map (bcalls d) cs
      | KFlow => flat_map (fun x => if is_body_k (bkind x) then bcalls (S d) x else bcalls d x) cs
      | KStatement _ => map (pair d) (flat_map bname cs)
      | _ => nil
      end
  end.

Section Place.
  Variable e : env.
  Hypothesis Hcmt : cmt_ok e.
  Hypothesis Htab : 0 <= f_tab (cfg e).
  Let c := cfg e.
  (** what is known of a child *)
  Definition heeds (parent : kind) (b : box) (f : rfn) : Prop :=
    forall path term cur pass l o, f path term cur pass = Ok (l, o) ->
    forall d s, colm cur = Z.of_nat d * f_tab c -> row (fst s) < row cur ->
    heads c s (bcalls d b) (pieces c parent l) /\ cle (fst (after s (pieces c parent l))) o.

  (** the texts of a child end before the returned position *)
  Lemma child_end parent b f : wfb b = true -> named c parent b = true -> LayoutProofs.good e (b, f) ->
    forall path term cur pass l o, f path term cur pass = Ok (l, o) ->
    forall s, row (fst s) < row cur -> cle (fst (after s (pieces c parent l))) o.
  Proof.
    intros Hw Hn Hg path term cur pass l o H s Hs. apply Hg in H as [Hp Hl]. cbn [fst] in Hl.
    assert (He : enters false b (lpos l) s).
    { rewrite Hp. split; [now left|]. split; [intros _; exact Hs|]. left. now left. }
    destruct (proj1 (lok_placed false e Hcmt) _ _ _ Hl parent s Hw ltac:(discriminate) (named_names _ _ _ Hn) He) as [_ [A _]].
    exact A.
  Qed.

  Lemma body_heads d path pass : forall cs colc cur v x ls o v' x',
    Forall (fun ch => heeds KBody (fst ch) (snd ch)) cs -> colm colc = Z.of_nat d * f_tab c ->
    body_children path pass cs colc cur v x = Ok (ls, o, v', x') ->
    forall s, row (fst s) < row colc -> (cs = nil -> cle (fst s) cur) ->
    heads c s (flat_map (bcalls d) (map fst cs)) (flat_map (pieces c KBody) ls)
    /\ cle (fst (after s (flat_map (pieces c KBody) ls))) o.
  Proof.
    induction cs as [|ch cs IH]; intros colc cur v x ls o v' x' Hcs Hcol H s Hs Hnil.
    - cbn in H. injection H as <- <- <- <-. split; [reflexivity|]. now apply Hnil.
    - cbn [body_children] in H. bk H. destruct x0 as [l o1]. bk H. destruct x0 as [[[ls1 o2] v2] x2]. injection H as <- <- <- <-.
      inversion Hcs as [|? ? Hch Hcs']; subst.
      destruct (Hch _ _ _ _ _ _ Hx d s Hcol Hs) as [A B].
      assert (R : row (fst (after s (pieces c KBody l))) < row o1 + 1) by (destruct B as [B|[B _]]; lia).
      destruct (IH (Cur (row o1 + 1) (colm colc)) _ _ _ _ _ _ _ Hcs' Hcol Hx0 (after s (pieces c KBody l)) R (fun _ => B)) as [C D].
      cbn [flat_map map]. split; [now apply heads_app|]. now rewrite after_app.
  Qed.
  Lemma flow_heads d path pass : forall cs want colc cur v x ls o v' x',
    Forall (fun ch => heeds KFlow (fst ch) (snd ch)) cs -> colm colc = Z.of_nat d * f_tab c ->
    flow_children (f_tab c) path pass cs want colc cur v x = Ok (ls, o, v', x') ->
    forall s, row (fst s) < row colc -> (cs = nil -> cle (fst s) cur) ->
    heads c s (flat_map (fun x => if is_body_k (bkind x) then bcalls (S d) x else bcalls d x) (map fst cs))
          (flat_map (pieces c KFlow) ls)
    /\ cle (fst (after s (flat_map (pieces c KFlow) ls))) o.
  Proof.
    induction cs as [|ch cs IH]; intros want colc cur v x ls o v' x' Hcs Hcol H s Hs Hnil.
    - cbn in H. destruct want; [discriminate|]. injection H as <- <- <- <-. split; [reflexivity|]. now apply Hnil.
    - cbn [flow_children] in H. inversion Hcs as [|? ? Hch Hcs']; subst. destruct want.
      + destruct (negb (is_statement_k (Layout.ckind ch))) eqn:Ek; [discriminate|]. apply negb_false_iff in Ek.
        bk H. destruct x0 as [l o1]. bk H. destruct x0 as [[[ls1 o2] v2] x2]. injection H as <- <- <- <-.
        destruct (Hch _ _ _ _ _ _ Hx d s Hcol Hs) as [A B].
        assert (R : row (fst (after s (pieces c KFlow l))) < row o1 + 1) by (destruct B as [B|[B _]]; lia).
        destruct (IH _ (Cur (row o1 + 1) (colm colc)) _ _ _ _ _ _ _ Hcs' Hcol Hx0 (after s (pieces c KFlow l)) R (fun _ => B)) as [C D].
        cbn [flat_map map]. unfold Layout.ckind in Ek.
        replace (is_body_k (bkind (fst ch))) with false by (destruct (bkind (fst ch)); try discriminate; reflexivity).
        split; [now apply heads_app|]. now rewrite after_app.
      + destruct (negb (is_body_k (Layout.ckind ch))) eqn:Ek; [discriminate|]. apply negb_false_iff in Ek.
        bk H. destruct x0 as [l o1]. bk H. destruct x0 as [[[ls1 o2] v2] x2]. injection H as <- <- <- <-.
        assert (Hcol' : colm (shift colc (f_tab c)) = Z.of_nat (S d) * f_tab c) by (cbn [shift colm]; lia).
        destruct (Hch _ _ _ _ _ _ Hx (S d) s Hcol' Hs) as [A B].
        assert (R : row (fst (after s (pieces c KFlow l))) < row o1 + 1) by (destruct B as [B|[B _]]; lia).
        destruct (IH _ (Cur (row o1 + 1) (colm colc)) _ _ _ _ _ _ _ Hcs' Hcol Hx0 (after s (pieces c KFlow l)) R (fun _ => B)) as [C D].
        cbn [flat_map map]. unfold Layout.ckind in Ek. rewrite Ek.
        split; [now apply heads_app|]. now rewrite after_app.
  Qed.

  Lemma child_good b n : wfb b = true -> LayoutProofs.good e (b, reflow e b n).
  Proof. intros Hw path term cur pass l o H. eapply reflow_lok; eauto. Qed.
  Lemma stmt_shape sp p cs sib path term cur pass l o : wfb (B (KStatement sp) p cs) = true ->
    reflow e (B (KStatement sp) p cs) sib path term cur pass = Ok (l, o) ->
    exists t p1 lf ll rest, hd_error cs = Some (B KFunname (T t :: p1) nil) /\ lcs l = lf :: ll :: rest
      /\ lpos lf = cur
      /\ lpos ll = shift cur (zlen (spelling t) + Z.of_nat (blanks_before_paren c (spelling t))).
  Proof.
    intros Hw H. rewrite reflow_eq in H.
    cbn [wfb] in Hw. apply andb_prop in Hw as [Hw1 Hw2].
    destruct cs as [|[[] pf cf] cs]; try discriminate. cbn [forallb] in Hw1. apply andb_prop in Hw1 as [Wf Wcs].
    assert (Wf' := Wf). cbn [wfb] in Wf'. rewrite !andb_true_iff in Wf'. destruct Wf' as [_ [[F1 F2] F3]].
    destruct cf; [|discriminate]. destruct pf as [|[t|] pf]; try discriminate.
    exists t, pf.
    change (exists lf ll rest, hd_error (B KFunname (T t :: pf) nil :: cs) = Some (B KFunname (T t :: pf) nil)
      /\ lcs (fst (l, o)) = lf :: ll :: rest /\ lpos lf = cur
      /\ lpos ll = shift cur (zlen (spelling t) + Z.of_nat (blanks_before_paren c (spelling t)))).
    revert H. apply (try_passes_inv (fun y => exists lf ll rest, hd_error (B KFunname (T t :: pf) nil :: cs) = Some (B KFunname (T t :: pf) nil)
      /\ lcs (fst y) = lf :: ll :: rest /\ lpos lf = cur
      /\ lpos ll = shift cur (zlen (spelling t) + Z.of_nat (blanks_before_paren c (spelling t))))); [|discriminate].
    intros pn w [l' o'] E. unfold try_pass in E. bk E. injection E as <- <-. cbn [fst lcs].
    unfold reflow_once in Hx. cbn [bkind] in Hx. unfold reflow_statement in Hx.
    cbn [children_of] in Hx.
    destruct (negb (is_funname_k _)); [discriminate|]. bk Hx. destruct x0 as [lf c0].
    cbn [snd] in Hx0. apply reflow_lok in Hx0 as [Pf Lf]; [|exact Htab|exact Wf].
    apply lok_name_out in Lf; [|reflexivity|exact F2]. rewrite Pf in Lf.
    cbn [fst bpcs first_spelling] in Hx, Lf.
    destruct cs as [|lp cs]; [discriminate|]. cbn [children_of] in Hx.
    destruct (negb (is_lparen_k _)); [discriminate|]. bk Hx. destruct x0 as [ll c2]. cbn [snd] in Hx0.
    cbn [forallb] in Wcs. apply andb_prop in Wcs as [W1 _].
    apply reflow_lok in Hx0 as [Pl Ll]; [|exact Htab|exact W1].
    destruct (children_of e cs _) as [|ag cs3]; [discriminate|].
    destruct (negb (is_arggroup_k _)); [discriminate|]. bk Hx. destruct x0 as [la c3].
    destruct cs3 as [|rp cs4]; [discriminate|]. destruct (negb (is_rparen_k _)); [discriminate|].
    match type of Hx with (let '(_, _) := ?t in _) = _ => destruct t as [dangle v0] end.
    bk Hx. bk Hx. destruct x1 as [[[ls c4] v1] x1]. injection Hx as <-. cbn [a_cs].
    exists lf, ll, (la :: ls). split; [reflexivity|]. split; [reflexivity|]. split; [exact Pf|].
    rewrite Pl, Lf. fold c. rewrite space_spec.
    destruct (Z.ltb_spec 0 (Z.of_nat (blanks_before_paren c (spelling t)))) as [A|A].
    - assert (blanks_before_paren c (spelling t) = 1%nat) as ->.
      { revert A. unfold blanks_before_paren. destruct (if smem _ _ then _ else _); intros; [reflexivity|lia]. }
      unfold shift. cbn [row colm]. f_equal. lia.
    - replace (blanks_before_paren c (spelling t)) with 0%nat by lia. unfold shift. cbn [row colm]. f_equal. lia.
  Qed.

  Lemma name_as_text parent t p n : text_ok c parent KFunname (T t :: p) = true -> one_line (spelling t) = true ->
    scalar_text c parent KFunname t = Ok n -> name_as c (spelling t) n.
  Proof.
    intros H H1 Hs. unfold text_ok in H. apply andb_prop in H as [_ H]. unfold text_same in H. rewrite Hs in H.
    apply seqb_eq in H. rewrite normalize_one_line in H by exact H1. split; [exact H|].
    split; [now rewrite (lower_one_line _ _ H)|].
    unfold scalar_text in Hs. split; [|split]; intros E; rewrite E in Hs; cbn in Hs; injection Hs as <-; auto.
    now apply normalize_one_line.
  Qed.

  Theorem reflow_heads b : wfb b = true -> forall parent, named c parent b = true -> bkind b <> KFunname ->
    forall sib, heeds parent b (reflow e b sib).
  Proof.
    induction b as [k p cs IH] using box_ind'. intros Hw parent Hn Hk sib path term cur pass l o H d s Hcol Hs.
    assert (Hend : cle (fst (after s (pieces c parent l))) o).
    { eapply (child_end parent (B k p cs) (reflow e (B k p cs) sib)); eauto. now apply child_good. }
    assert (Hlok := H). apply reflow_lok in Hlok as [Hp Hl]; [|exact Htab|exact Hw].
    split; [|exact Hend].
    destruct (deep_k k) eqn:Ed.
    { replace (bcalls d (B k p cs)) with (@nil (nat * token)) by (destruct k; try discriminate; reflexivity).
      apply heads_none. eapply (proj1 (deep_names e)); eauto. }
    assert (Hws : forallb wfb cs = true) by (cbn [wfb] in Hw; now apply andb_prop in Hw).
    assert (Hns : forallb (named c k) cs = true) by (cbn [named] in Hn; now apply andb_prop in Hn).
    assert (Hch : (forall x, In x cs -> bkind x <> KFunname) -> forall n, Forall (fun ch => heeds k (fst ch) (snd ch)) (children_of e cs n)).
    { clear - IH Hws Hns. induction IH as [|x cs Hx _ IHl]; intros Hk n; [constructor|].
      cbn [forallb children_of] in *. apply andb_prop in Hws as [W1 W2]. apply andb_prop in Hns as [N1 N2].
      constructor; [|apply IHl; auto; intros; apply Hk; now right]. cbn [fst snd]. apply Hx; auto. apply Hk. now left. }
    destruct k; try discriminate.
    - (* KBody *)
      rewrite reflow_eq in H. cbn [bcalls].
      assert (Hk' : forall x, In x cs -> bkind x <> KFunname).
      { cbn [wfb] in Hw. apply andb_prop in Hw as [_ Hb]. rewrite forallb_forall in Hb. intros x Hin E.
        specialize (Hb x Hin). unfold in_body in Hb. rewrite E in Hb. discriminate. }
      specialize (Hch Hk'). clear - H Hch Hcol Hs.
      change l with (fst (l, o)). revert H.
      apply (try_passes_inv (fun y => heads c s (flat_map (bcalls d) cs) (pieces c parent (fst y)))); [|discriminate].
      intros pn w [l' o'] E. unfold try_pass in E. bk E. injection E as <- <-. cbn [fst pieces own_pieces app].
      unfold reflow_once in Hx. cbn [bkind] in Hx. unfold reflow_body in Hx. bk Hx. destruct x0 as [[[ls c0] v] x0]. injection Hx as <-.
      cbn [a_cs bkind bpcs]. cbn [own_pieces app].
      destruct (body_heads d _ _ _ _ _ _ _ _ _ _ _ (Hch 0%nat) Hcol Hx0 s Hs) as [A _].
      { intros _. now left. }
      now rewrite children_of_fst in A.
    - (* KStatement *)
      destruct (stmt_shape _ _ _ _ _ _ _ _ _ _ Hw H) as (t & p1 & lf & ll & rest & E1 & E2 & E3 & E4).
      destruct cs as [|b1 cs]; [discriminate|]. injection E1 as ->.
      inversion Hl as [k0 p0 cs0 pos pass0 w v x lines ls o0 l0 Ho Hli Hko Hx Hv Hls]; subst. clear Hl.
      subst l0. cbn [lcs lpos] in *. subst ls. cbn [leaf_k] in Hls.
      cbn [kinds_ok] in Hko. destruct cs as [|b2 [|b3 [|b4 tl]]]; try discriminate.
      rewrite !andb_true_iff in Hko. destruct Hko as [[[[_ K2] K3] K4] K5]. cbn [bkind] in *.
      cbn [bcalls flat_map bname]. 
      assert (Hnil : flat_map bname (b2 :: b3 :: b4 :: tl) = nil).
      { cbn [flat_map]. destruct b2 as [[] ? ?]; try discriminate. destruct b3 as [[] ? ?]; try discriminate.
        destruct b4 as [[] ? ?]; try discriminate. cbn [bname app].
        destruct tl as [|[[] ? ?] [|]]; try discriminate; reflexivity. }
      cbn [flat_map] in Hnil. rewrite Hnil. cbn [app map].
      cbn [pieces own_pieces app flat_map].
      inversion Hls as [|? ? ? ? ? ? ? o1 ? Hs1 Hl1 Hls1]; subst.
      inversion Hls1 as [|? ? ? ? ? ? ? o2 ? Hs2 Hl2 Hls2]; subst.
      cbn [forallb] in Hws, Hns. apply andb_prop in Hws as [W1 Ws]. apply andb_prop in Hns as [N1 Ns].
      apply andb_prop in Ws as [W2 Ws]. apply andb_prop in Ns as [N2 Ns].
      assert (Hrest : Forall (fun p => is_name (p_kind p) = false) (flat_map (pieces c (KStatement cmdspec)) rest)).
      { eapply (proj2 (deep_names e)); [exact Hls2|exact Ws|].
        cbn [forallb]. destruct b3 as [[] ? ?]; try discriminate. destruct b4 as [[] ? ?]; try discriminate.
        cbn [bkind deep_k andb]. destruct tl as [|[[] ? ?] [|]]; try discriminate; reflexivity. }
      inversion Hl1 as [k1 p2 cs1 pos1 pass1 w1 v1 x1 lines1 ls1 oo1 l1 Ho1 Hli1 Hko1 Hx1 Hv1 Hls3]; subst.
      cbn [leaf_k] in Hls3. inversion Hls3; subst.
      destruct b2 as [[] p3 c3]; try discriminate.
      inversion Hl2 as [k2 p4 cs2 pos2 pass2 w2 v2 x2 lines2 ls2 oo2 l2 Ho2 Hli2 Hko2 Hx2 Hv2 Hls4]; subst.
      cbn [leaf_k] in Hls4. inversion Hls4; subst.
      subst l1 l2. cbn [pieces flat_map]. cbn [lpos] in *.
      cbn [own_pieces].
      assert (N1' := N1). cbn [named] in N1'. cbn [is_scalar_k forallb] in N1'. rewrite andb_true_r in N1'.
      assert (N1f := N1'). unfold text_ok in N1f. apply andb_prop in N1f as [N1f _].
      destruct (scalar_piece c (KStatement cmdspec) KFunname p1 t eq_refl N1f) as (n & En & Ef). fold c in En. rewrite En. cbn [app].
      assert (H1l : one_line (spelling t) = true).
      { cbn [wfb] in W1. rewrite !andb_true_iff in W1. apply W1. }
      cbn [heads p_kind is_name is_funname_k p_at p_text].
      split; [subst; exact Hs|]. split; [subst; exact Hcol|].
      split; [eapply name_as_text; eauto|]. split; [|now apply heads_none].
      split; [|reflexivity]. unfold p_end. cbn [p_at p_text]. rewrite Ef, flow_text_one by exact H1l. cbn [fst].
      rewrite E4. subst. unfold shift. cbn [row colm]. f_equal. lia.
    - (* KFlow *)
      rewrite reflow_eq in H. cbn [bcalls].
      assert (Hk' : forall x, In x cs -> bkind x <> KFunname).
      { cbn [wfb] in Hw. apply andb_prop in Hw as [_ Hb]. rewrite forallb_forall in Hb. intros x Hin E.
        specialize (Hb x Hin). rewrite E in Hb. discriminate. }
      specialize (Hch Hk'). clear - H Hch Hcol Hs.
      change l with (fst (l, o)). revert H.
      match goal with |- _ -> heads _ _ ?es _ => set (es0 := es) end.
      apply (try_passes_inv (fun y => heads c s es0 (pieces c parent (fst y)))); [|discriminate]. subst es0.
      intros pn w [l' o'] E. unfold try_pass in E. bk E. injection E as <- <-. cbn [fst pieces own_pieces app].
      unfold reflow_once in Hx. cbn [bkind] in Hx.
      assert (exists ls c0 v x0, flow_children (f_tab (cfg e)) (push_path path (B KFlow p cs) sib) pn (children_of e cs 0) true cur cur true 0 = Ok (ls, c0, v, x0) /\ a_cs x = ls) as (ls & c0 & v & x0 & Hx0 & <-).
      { unfold reflow_flow in Hx. destruct (children_of e cs 0) as [|q1 [|q2 q]].
        - bk Hx. destruct x0 as [[[ls c0] v] x0]. injection Hx as <-. exists ls, c0, v, x0. now rewrite Hx0.
        - bk Hx. discriminate.
        - bk Hx. destruct x0 as [[[ls c0] v] x0]. injection Hx as <-. exists ls, c0, v, x0. now rewrite Hx0. }
      cbn [bkind bpcs]. cbn [own_pieces app].
      destruct (flow_heads d _ _ _ _ _ _ _ _ _ _ _ _ (Hch 0%nat) Hcol Hx0 s Hs) as [A _].
      { intros _. now left. }
      now rewrite children_of_fst in A.
    - now elim Hk.
  Qed.
End Place.

(** ** The page *)
(** the gaps are as wide as the positions ask for *)
Fixpoint gaps_at (cur : cursor) (gs : list gap) (ps : list piece) : Prop :=
  match gs, ps with
  | g :: gs', p :: ps' =>
      Z.of_nat (fst g) = row (p_at p) - row cur
      /\ Z.of_nat (snd g) = (if row cur =? row (p_at p) then colm (p_at p) - colm cur else colm (p_at p))
      /\ gaps_at (p_end p) gs' ps'
  | nil, nil => True
  | _, _ => False
  end.
Lemma write_at_exact endl f r c text f' : is_endl endl -> cursor_ok f -> 0 <= c ->
  cle (Cur (crow f) (ccol f)) (Cur r c) ->
  write_at endl f r c text = Ok f' ->
  cursor_ok f' /\ exists g, TextOps.out f' = TextOps.out f ++ gap_text endl g ++ with_endl endl text
    /\ Z.of_nat (fst g) = r - crow f
    /\ Z.of_nat (snd g) = (if crow f =? r then c - ccol f else c).
Proof.
  intros He Hok Hc Hle H. apply write_at_spec in H as [A (k & n & H)]; auto. cbn zeta in H.
  destruct H as (H1 & H2 & H3). split; [exact A|].
  assert (Hrow : crow f + Z.of_nat k = r).
  { destruct Hok as [Hr _]. rewrite Hr, <- H2, !count_chr_app, count_nl_repeat, count_nl_spaces by auto. lia. }
  exists (k, Z.to_nat n). cbn [fst snd]. split.
  { rewrite H1. unfold gap_text. cbn [fst snd]. unfold spaces. rewrite Nat2Z.id. reflexivity. }
  split; [lia|].
  assert (Hn : zlen (spaces n) = Z.of_nat (Z.to_nat n)).
  { destruct (Z_le_dec n 0) as [Hn|Hn]; [|rewrite zlen_spaces by lia; lia].
    assert (spaces n = nil) as -> by (unfold spaces; destruct n; try lia; reflexivity).
    change (zlen nil) with 0. lia. }
  rewrite <- Hn. destruct Hok as [_ Hcol]. rewrite app_assoc, col_of_app_out in H3 by apply spaces_no_nl.
  destruct (Z.eqb_spec (crow f) r) as [E|E].
  - assert (k = 0%nat) as -> by lia. cbn [repeat_s] in H3. rewrite app_nil_r in H3. lia.
  - rewrite col_of_repeat in H3 by (auto; lia). lia.
Qed.
Lemma put_all_exact closed c ps : is_endl (f_endl c) -> forall s k s',
  cursor_ok (w_f s) -> Forall (fun p => 0 <= colm (p_at p)) ps ->
  Pieces.placed closed (wcur s, k) ps -> put_all c ps s = Ok s' ->
  cursor_ok (w_f s') /\ exists gs, gaps_at (wcur s) gs ps
    /\ TextOps.out (w_f s') = TextOps.out (w_f s) ++ page (f_endl c) gs ps.
Proof.
  intros He. induction ps as [|p ps IH]; intros s k s' Hok Hcol Hpl H.
  - inv H. split; [exact Hok|]. exists nil. split; [exact I|]. simpl. now rewrite app_nil_r.
  - cbn [put_all] in H. bk H. rename x into s1. destruct Hpl as [(F1 & F2 & F3) Hpl].
    inversion Hcol as [|? ? Hc1 Hc2]; subst.
    assert (Hput := Hx). unfold put in Hput. bk Hput. inv Hput. rename x into f1.
    destruct p as [[r cl] text kd]. cbn [p_at p_text p_kind row colm fst snd] in *.
    destruct (write_at_exact _ _ _ _ _ _ He Hok Hc1 F1 Hx0) as (Hok1 & g & Hout & Hg1 & Hg2).
    assert (Hcur : wcur (WS (w_off s) f1) = p_end (Pc (Cur r cl) text kd)).
    { destruct (put_ok c s (Cur r cl) text F1) as (s2 & E1 & E2 & _). rewrite Hx in E1. inv E1. exact E2. }
    unfold step in Hpl. cbn [p_kind] in Hpl. rewrite <- Hcur in Hpl.
    destruct (IH (WS (w_off s) f1) _ _ Hok1 Hc2 Hpl H) as (A & gs & B & C). split; [exact A|].
    exists (g :: gs). split.
    + cbn [gaps_at p_at row colm wcur]. split; [exact Hg1|]. split; [exact Hg2|]. now rewrite <- Hcur.
    + rewrite C. cbn [page p_text w_f]. rewrite Hout. now rewrite <- !app_assoc.
Qed.
(** The page theorem with the exact gaps. *)
Theorem page_exact e root l infile :
  ready e root -> is_endl (f_endl (cfg e)) -> no_off (create_box root) = true ->
  layout_tree e root = Ok l ->
  exists gs, gaps_at (Cur 0 0) gs (pieces (cfg e) KBody l)
    /\ write_tree (cfg e) infile l
       = Ok (page (f_endl (cfg e)) gs (pieces (cfg e) KBody l) ++ f_endl (cfg e)).
Proof.
  intros R He Hno H. pose proof (layout_placed false e root l R ltac:(discriminate) H) as Hpl.
  destruct (layout_lok e root l R H) as (o & Hl & Hp & Hcols). destruct R as (Hc & Ht & Hw & Hn).
  unfold write_tree.
  rewrite (proj1 (write_pieces e infile) _ _ _ Hl KBody (WS None cf_init)).
  2: now rewrite lock_wfb.
  2: now rewrite lock_names.
  2: now rewrite lock_no_off.
  2: reflexivity.
  change (Cur 0 0) with (wcur (WS None cf_init)) in Hpl.
  destruct (put_all_ok false (cfg e) _ _ _ Hpl) as (s' & E & _). rewrite E. cbn [bindr].
  assert (Hok0 : cursor_ok (w_f (WS None cf_init))) by (split; reflexivity).
  destruct (put_all_exact false (cfg e) _ He _ _ _ Hok0 (pieces_col _ _ KBody Hcols) Hpl E)
    as (_ & gs & G1 & G2).
  exists gs. split; [exact G1|]. unfold getvalue. rewrite G2. reflexivity.
Qed.

(** with a line ending in front of the page, every line begins behind one *)
Definition bump (gs : list gap) : list gap := match gs with g :: gs' => (S (fst g), snd g) :: gs' | nil => nil end.
Lemma bump_at gs ps : gaps_at (Cur 0 0) gs ps -> gaps_at (Cur (-1) 0) (bump gs) ps \/ ps = nil.
Proof.
  destruct gs as [|g gs], ps as [|p ps]; cbn [gaps_at bump]; try tauto. intros (A & B & C). left.
  cbn [row colm fst snd] in *. split; [lia|]. split; [|exact C].
  replace (-1 =? row (p_at p)) with false by (symmetry; apply Z.eqb_neq; lia).
  destruct (Z.eqb_spec 0 (row (p_at p))); lia.
Qed.
Lemma heads_stepped c ps : forall gs s es, gaps_at (fst s) gs ps -> heads c s es ps -> stepped c es gs ps.
Proof.
  induction ps as [|p ps IH]; intros gs s es G H.
  - destruct gs; [exact H|destruct G].
  - destruct gs as [|g gs]; [destruct G|]. cbn [gaps_at heads stepped] in *. destruct G as (G1 & G2 & G3).
    destruct (is_name (p_kind p)); [|apply (IH gs (step p)); auto].
    destruct es as [|[d t] es]; [tauto|]. destruct H as (A & B & C & D & E).
    split; [lia|]. split.
    { rewrite G2, <- B. destruct (Z.eqb_spec (row (fst s)) (row (p_at p))); [lia|reflexivity]. }
    split; [exact C|]. split; [|apply (IH gs (step p)); auto].
    destruct ps as [|q ps]; [tauto|]. destruct gs as [|h gs]; [destruct G3|]. destruct D as [D1 D2].
    split; [|exact D2]. cbn [gaps_at] in G3. destruct G3 as (G3 & G4 & _). rewrite D1 in G3, G4. cbn [shift row colm] in G3, G4.
    rewrite Z.eqb_refl in G4. destruct h as [h1 h2]. cbn [fst snd] in *. f_equal; lia.
Qed.
Lemma endl_last endl : is_endl endl -> exists r, endl = r ++ [cNL].
Proof. intros [->| ->]; [now exists nil|now exists [cCR]]. Qed.
Lemma repeat_last n endl : repeat_s (S n) endl = repeat_s n endl ++ endl.
Proof. induction n as [|n IH]; [cbn; now rewrite app_nil_r|]. cbn [repeat_s] in *. now rewrite IH at 1; rewrite app_assoc. Qed.
Lemma one_line_endl endl n : one_line n = true -> with_endl endl n = n.
Proof. intros H. apply one_line_noeol in H. unfold with_endl. rewrite noeol_split by exact H. reflexivity. Qed.
Lemma stepped_lined c endl : is_endl endl -> forall ps gs es, stepped c es gs ps -> forall a b, lined c es (a ++ page endl gs ps ++ b).
Proof.
  intros He ps. induction ps as [ps IH] using (induction_ltof1 _ (@List.length piece)). unfold ltof in IH.
  intros gs es H a b. destruct ps as [|p ps].
  - replace es with (@nil (nat * token)) by (destruct gs; now symmetry). exact I.
  - destruct gs as [|g gs]; [cbn in H; subst; exact I|]. cbn [stepped page] in *.
    destruct (is_name (p_kind p)).
    2:{ specialize (IH ps ltac:(cbn; lia) gs es H (a ++ gap_text endl g ++ with_endl endl (p_text p)) b). rewrite <- !app_assoc in *. exact IH. }
    destruct es as [|[d t] es]; [tauto|]. destruct H as (A & B & C & D & E). cbn [lined].
    destruct gs as [|h gs]; [tauto|]. destruct ps as [|q ps]; [tauto|]. destruct D as [D1 D2].
    destruct (endl_last _ He) as (r & Er). destruct g as [g1 g2]. cbn [fst snd] in *. destruct g1 as [|g1]; [lia|].
    exists (a ++ repeat_s g1 endl ++ r), (p_text p), (page endl gs ps ++ b). split; [exact C|]. split.
    + unfold gap_text at 1. cbn [fst snd]. rewrite repeat_last. rewrite B. rewrite one_line_endl by apply C.
      cbn [page]. rewrite D1, D2. unfold gap_text. cbn [fst snd repeat_s app].
      replace (with_endl endl $"(") with $"(" by (symmetry; apply one_line_endl; reflexivity).
      replace (repeat_s g1 endl ++ endl) with (repeat_s g1 endl ++ r ++ [cNL]) by now rewrite <- Er.
      now rewrite <- !app_assoc.
    + cbn [stepped] in E. destruct (is_name (p_kind q)).
      * destruct es as [|[d' t'] es]; [tauto|]. destruct E as [E _]. rewrite D1 in E. cbn in E. lia.
      * apply (IH ps ltac:(cbn; lia) gs es E nil b).
Qed.

(** ** Trees and boxes *)
Lemma create_kind n : match n with N k _ => bkind (create_box n) = k | T _ => True end.
Proof. now destruct n. Qed.
Lemma create_calls n : forall d, bcalls d (create_box n) = calls d n.
Proof.
  induction n as [t|k cs IH] using pnode_ind'; intros d; [reflexivity|].
  cbn [create_box bcalls calls].
  destruct k; try reflexivity.
  - induction IH as [|x cs Hx _ IH]; [reflexivity|]. cbn [flat_map]. rewrite flat_map_app, IH. f_equal.
    destruct x as [t|k1 c1]; [reflexivity|]. rewrite <- Hx.
    destruct k1; try (cbn [flat_map]; apply app_nil_r). destruct (_ <? 2); reflexivity.
  - f_equal. clear IH. induction cs as [|x cs IH]; [reflexivity|]. cbn [flat_map]. rewrite flat_map_app, IH. f_equal.
    destruct x as [t|k1 c1]; [reflexivity|].
    destruct k1; try reflexivity; try (destruct (_ <? 2); reflexivity). destruct c1 as [|[]]; reflexivity.
  - induction IH as [|x cs Hx _ IH]; [reflexivity|]. cbn [flat_map]. rewrite flat_map_app, IH. f_equal.
    destruct x as [t|k1 c1]; [reflexivity|].
    destruct k1; try (cbn [flat_map is_body_k bkind create_box]; rewrite app_nil_r; apply Hx).
    destruct (_ <? 2); reflexivity.
Qed.
Lemma lock_bname a b : bname (lock a b) = bname b.
Proof. destruct b as [k p cs]. destruct k; reflexivity. Qed.
Lemma lock_bcalls a b : forall d, bcalls d (lock a b) = bcalls d b.
Proof.
  induction b as [k p cs IH] using box_ind'. intros d. cbn [lock bcalls]. destruct k; try reflexivity.
  - induction IH as [|x cs Hx _ IH]; [reflexivity|]. cbn [map flat_map]. now rewrite Hx, IH.
  - f_equal. clear IH. induction cs as [|x cs IH]; [reflexivity|]. cbn [map flat_map]. now rewrite lock_bname, IH.
  - induction IH as [|x cs Hx _ IH]; [reflexivity|]. cbn [map flat_map].
    replace (bkind (lock a x)) with (bkind x) by (now destruct x as [k1 p1 c1]).
    now rewrite !Hx, IH.
Qed.

(** ** C98: every command stands on its own line, indented by its depth *)
Lemma lock_named a c b : forall parent, named c parent (lock a b) = named c parent b.
Proof.
  induction b as [k p cs IH] using box_ind'. intros parent.
  destruct (lock_children a (B k p cs)) as [H _]. cbn [bcs] in H.
  destruct (lock a (B k p cs)) as [k' p' cs'] eqn:E.
  assert (k' = k /\ p' = p) as [-> ->].
  { pose proof (lock_kind a (B k p cs)) as A. pose proof (lock_pcs a (B k p cs)) as B'.
    rewrite E in A, B'. split; assumption. }
  cbn [bcs] in H. cbn [named]. f_equal. rewrite (forallb_perm _ _ _ H), forallb_map.
  apply forallb_ext_in. rewrite Forall_forall in IH. auto.
Qed.
Lemma layout_heads e root l : ready e root -> named (cfg e) KBody (create_box root) = true ->
  bkind (create_box root) = KBody -> layout_tree e root = Ok l ->
  heads (cfg e) (Cur (-1) 0, None) (calls 0 root) (pieces (cfg e) KBody l).
Proof.
  intros (Hc & Ht & Hw & _) Hn Hk H. unfold layout_tree in H. bk H. destruct x as [l' o]. injection H as ->.
  rewrite <- create_calls, <- (lock_bcalls (f_autosort (cfg e))).
  refine (proj1 (reflow_heads e Hc Ht _ _ KBody _ _ 0%nat _ _ _ _ _ _ Hx 0%nat (Cur (-1) 0, None) _ _)).
  - now rewrite lock_wfb.
  - now rewrite lock_named.
  - now rewrite lock_kind, Hk.
  - reflexivity.
  - cbn. lia.
Qed.
Lemma stepped_eff c src es : forall gs ps, stepped (effective c src) es gs ps -> stepped (p_fmt c) es gs ps.
Proof.
  assert (N : forall sp n, name_as (effective c src) sp n -> name_as (p_fmt c) sp n) by (unfold effective; destruct (p_auto c); auto).
  assert (B : forall sp, blanks_before_paren (effective c src) sp = blanks_before_paren (p_fmt c) sp) by (unfold effective; destruct (p_auto c); auto).
  intros gs ps. revert gs es. induction ps as [|p ps IH]; intros [|g gs] es H; try exact H. cbn [stepped] in *.
  destruct (is_name (p_kind p)); [|now apply IH]. destruct es as [|[d t] es]; [exact H|].
  rewrite <- B, <- (eff_tab c src). destruct H as (A1 & A2 & A3 & A4 & A5). auto 10.
Qed.

Theorem C98_commands_indented c specs tbl src text v :
  run_cfg c specs tbl -> p_usetabs c = false -> process_file c src = Ok (text, v) ->
  forall toks, tokenize src = Ok toks -> no_switch toks = true ->
  exists tree is0 is gs ps,
    parse (p_ctx c) toks = Ok tree
    /\ map snd (roles (create_box tree)) = filter nonws (flat tree)
    /\ says false (roles (create_box tree)) is0 /\ Permutation is0 is
    /\ realizes (pipe_env c src toks) is ps
    /\ (ps <> nil -> stepped (p_fmt c) (calls 0 tree) (bump gs) ps)
    /\ (ps = nil -> calls 0 tree = nil)
    /\ text = bom_text c ++ page (f_endl (effective c src)) gs ps ++ f_endl (effective c src).
Proof.
  intros R Ht H toks Hl Hno. destruct (run_split _ _ _ _ H Ht) as (toks' & tree & l & o & E1 & E2 & E3 & E4 & -> & ->).
  rewrite Hl in E1. injection E1 as <-.
  destruct (run_ready _ _ _ _ _ _ R Hl E2) as (A & B & C).
  assert (Hbt : btoks (create_box tree) = filter nonws (flat tree) /\ bkind (create_box tree) = KBody).
  { pose proof (box_tokens false tree A) as Hb.
    unfold parse in E2. apply bindr_ok in E2 as ([a r] & _ & E2). injection E2 as <-. auto. }
  destruct Hbt as [Hbt Hbk].
  assert (Hsub : forall t, In t (flat tree) -> In t toks).
  { assert (Ho : no_onoff toks).
    { unfold no_switch in Hno. rewrite forallb_forall in Hno. apply Forall_forall. intros t Hin. apply Hno in Hin. now apply negb_true_iff. }
    destruct R as ((ex & vt & Hctx) & Hut & _). rewrite Hctx in E2.
    destruct (C05_file_tuples_partial ex vt specs tbl Hut _ _ _ Hl Ho E2) as [HP _].
    intros t Hin. apply Permutation_sym in HP. apply (Permutation_in _ HP) in Hin.
    destruct toks as [|u r]; [destruct Hin|]. unfold strip_bom_tok in Hin. destruct (is_tt _ u); [now right|exact Hin]. }
  assert (Hoff : no_off (create_box tree) = true).
  { apply box_no_off. rewrite Hbt. apply filter_forallb. unfold no_switch in Hno. rewrite forallb_forall in Hno |- *. auto. }
  assert (He : is_endl (f_endl (effective c src))) by (apply eff_endl, R).
  destruct (page_exact _ _ _ src B He Hoff E3) as (gs & G1 & G2). cbn [pipe_env cfg] in G1, G2.
  rewrite E4 in G2. injection G2 as ->.
  destruct (C34_texts_in_order _ _ _ B E3) as (b & B1 & -> & B2 & B3). cbn [pipe_env cfg] in B1, B2, B3.
  pose proof (layout_heads _ _ _ B C Hbk E3) as Hh. cbn [pipe_env cfg] in Hh.
  exists tree, (items (effective c src) KBody (create_box tree)), (items (effective c src) KBody (lock (f_autosort (effective c src)) (create_box tree))), gs, (pieces (effective c src) KBody l).
  split; [exact E2|]. split; [now rewrite roles_toks|]. split.
  { pose proof (box_says false (effective c src) tree A ltac:(discriminate) KBody KBody) as Hb.
    destruct tree as [t|k cs]; [|apply Hb; [|exact C]].
    2: { unfold parse in E2. apply bindr_ok in E2 as ([a r] & _ & E2). injection E2 as <-. intros _. reflexivity. }
    unfold parse in E2. apply bindr_ok in E2 as ([a r] & _ & E2). discriminate. }
  split; [exact B2|]. split; [exact B1|]. split; [|split; [|reflexivity]].
  - intros Hne. apply (stepped_eff c src). destruct (bump_at _ _ G1) as [G|G]; [|now elim Hne].
    exact (heads_stepped _ _ _ (Cur (-1) 0, None) _ G Hh).
  - intros En. rewrite En in Hh. exact Hh.
Qed.
(** On the text: with a line ending put in front, the text falls into parts, one for
    each command, each ending with a line ending, the indentation, the name and the
    opening parenthesis. *)
Theorem C98_commands_lined c specs tbl src text v :
  run_cfg c specs tbl -> p_usetabs c = false -> process_file c src = Ok (text, v) ->
  forall toks, tokenize src = Ok toks -> no_switch toks = true ->
  exists tree o, parse (p_ctx c) toks = Ok tree /\ text = bom_text c ++ o
    /\ lined (p_fmt c) (calls 0 tree) (f_endl (effective c src) ++ o).
Proof.
  intros R Ht H toks Hl Hno.
  destruct (C98_commands_indented _ _ _ _ _ _ R Ht H toks Hl Hno) as (tree & is0 & is & gs & ps & Hp & _ & _ & _ & _ & Hs & Hn & ->).
  assert (He : is_endl (f_endl (effective c src))) by (apply eff_endl, R).
  exists tree. eexists. split; [exact Hp|]. split; [reflexivity|].
  destruct ps as [|p ps]; [now rewrite Hn|].
  specialize (Hs ltac:(discriminate)). destruct gs as [|g gs].
  { cbn in Hs. now rewrite Hs. }
  pose proof (stepped_lined _ _ He _ _ _ Hs nil (f_endl (effective c src))) as G.
  cbn [bump page app] in G. unfold gap_text in G. cbn [fst snd repeat_s] in G.
  cbn [page]. unfold gap_text. rewrite <- !app_assoc in *. exact G.
Qed.

Definition nested_file : str := nl
  [$"IF(A)"; $"set(x 1) # one"; $"foreach (i ${x})"; $"  # note"; $"Message( STATUS ""if("" )"; $"endforeach()";
   $"else()"; $"add_library(a b.c)"; $"endif (A)"; $"foo ()"].
Example C98_commands_indented_ex :
  exists toks tree, tokenize nested_file = Ok toks /\ no_switch toks = true
  /\ parse (p_ctx default_pcfg) toks = Ok tree
  /\ map (fun e => (fst e, spelling (snd e))) (calls 0 tree)
     = [(0, $"IF"); (1, $"set"); (1, $"foreach"); (2, $"Message"); (1, $"endforeach"); (0, $"else");
        (1, $"add_library"); (0, $"endif"); (0, $"foo")]%nat
  /\ process_file default_pcfg nested_file
     = Ok (nl [$"if(A)"; $"  set(x 1) # one"; $"  foreach(i ${x})"; $"    # note"; $"    message(STATUS ""if("")"; $"  endforeach()";
               $"else()"; $"  add_library(a b.c)"; $"endif(A)"; $"foo()"], true).
Proof.
  eexists. eexists. split; [vm_compute; reflexivity|]. split; [vm_compute; reflexivity|].
  split; [vm_compute; reflexivity|]. split; [vm_compute; reflexivity|]. vm_compute. reflexivity.
Qed.
