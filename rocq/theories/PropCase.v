(** * PropCase: the case settings change letter case only (C72) *)
From Coq Require Import Permutation.
From Verif Require Import Base Regex Lex LexProofs PropLex TextOps TextProofs PropText Tree Parse ParseProofs PropParse
  CmdSpec StdSpecs StdDb StdWf PropStd Layout LayoutProofs Pieces LayoutCols SortProofs PropSort Writing PropLayout
  LayKids Markup Pipeline ParseShape StdShape NamesShape TidyShape PropFile OffSpan PropOff PropEol.

(** ** Specification *)
(** [c] with format.command_case (resolved per command name) and
    format.keyword_case replaced *)
Definition cased (cc : str -> str) (kc : str) (f : fcfg) : fcfg :=
  FCfg (f_linewidth f) (f_tab f) (f_max_subgroups f) (f_max_pargs f) (f_max_rows_cmdline f)
       (f_max_lines f) (f_min_prefix f) (f_max_prefix f) (f_sep_ctrl f) (f_sep_fn f) (f_dangle f)
       (f_dangle_align f) (f_autosort f) kc cc (f_spelling f)
       (f_always_wrap f) (f_passes f) (f_endl f).
Definition with_case (cc : str -> str) (kc : str) (c : pcfg) : pcfg :=
  PCfg (cased cc kc (p_fmt c)) (p_markup c) (p_ctx c) (p_auto c) (p_bom c) (p_usetabs c) (p_tabpol c).
(** the documented values *)
Definition command_cases : list str := [$"lower"; $"upper"; $"canonical"; $"unchanged"].
Definition fold_case (s : str) : str := map (fun c => if (65 <=? c)%N && (c <=? 90)%N then (c + 32)%N else c) s.
(** same success, same text up to letter case, same validity; or the same error *)
Definition same_but_case (x y : res (str * bool)) : Prop :=
  match x, y with
  | Ok (a, v), Ok (b, w) => fold_case a = fold_case b /\ v = w
  | Err u, Err v => u = v
  | OutOfFuel, OutOfFuel => True
  | _, _ => False
  end.

(** ** Properties of a node and the kind of its parent, in boxes and layouts *)
Section Parented.
  Variable P : kind -> kind -> list pnode -> Prop.
  Fixpoint pball (parent : kind) (b : box) : Prop :=
    match b with
    | B k p cs => P parent k p /\ (fix go (l : list box) : Prop :=
                              match l with nil => True | c :: l' => pball k c /\ go l' end) cs
    end.
  Fixpoint plall (parent : kind) (l : lay) : Prop :=
    match l with
    | Lay k p _ _ _ _ _ _ cs => P parent k p /\ (fix go (l : list lay) : Prop :=
                              match l with nil => True | c :: l' => plall k c /\ go l' end) cs
    end.
  Lemma pball_eq q k p cs : pball q (B k p cs) <-> P q k p /\ Forall (pball k) cs.
  Proof.
    cbn [pball]. split; intros [A C]; split; auto.
    - clear A. induction cs as [|c cs IH]; constructor; [apply C|apply IH, C].
    - clear A. induction C; cbn; auto.
  Qed.
  Lemma plall_eq q k p c a w v x ls cs : plall q (Lay k p c a w v x ls cs) <-> P q k p /\ Forall (plall k) cs.
  Proof.
    cbn [plall]. split; intros [A C]; split; auto.
    - clear A. induction cs as [|d cs IH]; constructor; [apply C|apply IH, C].
    - clear A. induction C; cbn; auto.
  Qed.
  Theorem reflow_pall e b : forall q, pball q b -> forall sib path term cur passno l o,
    reflow e b sib path term cur passno = Ok (l, o) -> plall q l.
  Proof.
    induction b as [k p cs IH] using box_ind'. intros q Hb sib path term cur passno l o H.
    rewrite reflow_eq in H. apply pball_eq in Hb as [Hp Hb].
    assert (Hg : forall n, Forall (kgood (plall k)) (children_of e cs n)).
    { clear H Hp. induction IH as [|c cs Hc' _ IHl]; intros n; simpl; [constructor|].
      constructor; [|apply IHl; now apply Forall_inv_tail in Hb].
      intros path' term' cur' pass' l' o' E. eapply Hc'; eauto. now apply Forall_inv in Hb. }
    change (plall q (fst (l, o))).
    revert H. apply (try_passes_inv (fun y => plall q (fst y))).
    - intros p' w [l' o'] E. unfold try_pass in E. bk E. inv E. cbn [fst]. apply plall_eq. split; auto.
      eapply once_kids; eauto.
    - intros y E. discriminate.
  Qed.
  Lemma pball_lock a b : forall q, pball q b -> pball q (lock a b).
  Proof.
    induction b as [k p cs IH] using box_ind'. intros q H. apply pball_eq in H as [A C].
    cbn [lock]. apply pball_eq. split; auto.
    assert (Hm : Forall (pball k) (map (lock a) cs)).
    { clear A. induction IH as [|c cs Hc _ IHl]; cbn; constructor.
      - apply Hc. now apply Forall_inv in C.
      - apply IHl. now apply Forall_inv_tail in C. }
    pose proof (lock_children a (B k p cs)) as L. cbn [lock bcs] in L. destruct L as [L _].
    eapply Permutation_Forall; [apply Permutation_sym; exact L|exact Hm].
  Qed.
End Parented.

(** the text of a word is the word up to case *)
Definition word_text (c : fcfg) (q k : kind) (p : list pnode) : Prop :=
  is_scalar_k k = true -> text_same c q k p = true.
Lemma named_pball c b : forall q, named c q b = true -> pball (word_text c) q b.
Proof.
  induction b as [k p cs IH] using box_ind'. intros q H. cbn [named] in H. apply andb_prop in H as [A C].
  apply pball_eq. split.
  - intros Hk. rewrite Hk in A. now apply andb_prop in A.
  - rewrite forallb_forall in C. apply Forall_forall. intros x Hx. rewrite Forall_forall in IH. apply IH; auto.
Qed.

(** ** Two runs of the writer on the same layout *)
Lemma fold_lower s : fold_case s = lower s. Proof. reflexivity. Qed.
Lemma lower_app a b : lower (a ++ b) = lower a ++ lower b.
Proof. apply map_app. Qed.
Lemma loc_nl c : N.eqb cNL (loc c) = N.eqb cNL c.
Proof.
  unfold loc. destruct ((65 <=? c) && (c <=? 90))%N eqn:E; auto.
  rewrite andb_true_iff, !N.leb_le in E. unfold cNL.
  destruct (N.eqb_spec 10 (c + 32)); destruct (N.eqb_spec 10 c); lia.
Qed.
Lemma loc_nl' c : N.eqb (loc c) cNL = N.eqb c cNL.
Proof. rewrite (N.eqb_sym (loc c)), (N.eqb_sym c). apply loc_nl. Qed.
Lemma split_lower s : split_on cNL (lower s) = map lower (split_on cNL s).
Proof.
  induction s as [|c s IH]; [reflexivity|]. cbn [lower map split_on]. fold (lower s). rewrite IH.
  destruct (split_on cNL s) as [|l ls] eqn:E; [now apply split_on_nonempty in E|]. cbn [map].
  rewrite ?loc_nl, ?loc_nl'. destruct (N.eqb _ _); reflexivity.
Qed.
Lemma lower_eq_split a b : lower a = lower b -> map lower (split_on cNL a) = map lower (split_on cNL b).
Proof. intros H. now rewrite <- !split_lower, H. Qed.

Definition ctwin (a b : cfile) : Prop :=
  crow a = crow b /\ ccol a = ccol b /\ lower (TextOps.out a) = lower (TextOps.out b).
Definition cwtwin (a b : wst) : Prop := w_off a = w_off b /\ ctwin (w_f a) (w_f b).
Lemma put_lines_ctwin endl ls : forall ls' a b, map lower ls = map lower ls' -> ctwin a b ->
  ctwin (put_lines endl a ls) (put_lines endl b ls').
Proof.
  induction ls as [|l ls IH]; intros [|l' ls'] a b E H; try discriminate; [exact H|].
  cbn [map] in E. injection E as E1 E2. cbn [put_lines]. apply IH; auto.
  destruct H as (A & B & C). pose proof (lower_len _ _ E1). repeat split; cbn [crow ccol TextOps.out]; try lia.
  rewrite !lower_app. now rewrite C, E1.
Qed.
Lemma write_at_ctwin endl a b r c x y : ctwin a b -> lower x = lower y ->
  both ctwin (write_at endl a r c x) (write_at endl b r c y).
Proof.
  intros (A & B & C) Hxy. unfold write_at. rewrite <- A, <- B.
  destruct (negb _); [reflexivity|].
  set (a1 := if r - crow a =? 0 then a else _). set (b1 := if r - crow a =? 0 then b else _).
  assert (T1 : ctwin a1 b1).
  { unfold a1, b1. destruct (r - crow a =? 0); [now repeat split|].
    repeat split; cbn [TextOps.out]. now rewrite !lower_app, C. }
  clearbody a1 b1. clear a b A B C. destruct T1 as (A & B & C). rewrite <- B.
  set (a2 := if c - ccol a1 =? 0 then a1 else _). set (b2 := if c - ccol a1 =? 0 then b1 else _).
  assert (T2 : ctwin a2 b2).
  { unfold a2, b2. destruct (c - ccol a1 =? 0); [now repeat split|].
    repeat split; cbn [TextOps.out crow ccol]; try lia. now rewrite !lower_app, C. }
  clearbody a2 b2. clear a1 b1 A B C. apply lower_eq_split in Hxy.
  destruct (split_on cNL x) as [|l ls], (split_on cNL y) as [|l' ls']; try discriminate; [exact T2|].
  cbn [map] in Hxy. injection Hxy as E1 E2. cbn [both]. apply put_lines_ctwin; auto.
  destruct T2 as (A & B & C). pose proof (lower_len _ _ E1). repeat split; cbn [TextOps.out crow ccol]; try lia.
  now rewrite !lower_app, C, E1.
Qed.

Section CaseTwin.
  Variables (c : fcfg) (cc1 cc2 : str -> str) (kc1 kc2 : str).
  Let c1 := cased cc1 kc1 c.
  Let c2 := cased cc2 kc2 c.
  Lemma put_ctwin a b p x y : cwtwin a b -> lower x = lower y -> both cwtwin (put c1 a p x) (put c2 b p y).
  Proof.
    intros (A & C) Hxy. unfold put. apply (both_bind ctwin).
    - exact (write_at_ctwin _ _ _ _ _ _ _ C Hxy).
    - intros f g H. split; [exact A|exact H].
  Qed.
  Lemma write_lines_ctwin ls : forall p a b, cwtwin a b -> both cwtwin (write_lines c1 p ls a) (write_lines c2 p ls b).
  Proof.
    induction ls as [|l ls IH]; intros p a b H; cbn [write_lines]; [exact H|].
    apply (both_bind cwtwin); [now apply put_ctwin|]. intros. now apply IH.
  Qed.
  Lemma raw_ctwin a b text : ctwin a b -> ctwin (write_raw a text) (write_raw b text).
  Proof.
    intros (A & B & C). unfold write_raw. destruct (count_chr cNL text =? 0); repeat split; cbn [TextOps.out crow ccol];
      rewrite ?lower_app; try lia; now rewrite C.
  Qed.
  Lemma onoff_ctwin infile p pos a b : cwtwin a b ->
    both cwtwin (write_onoff c1 infile p pos a) (write_onoff c2 infile p pos b).
  Proof.
    intros (A & C). unfold write_onoff. destruct p as [|[t|] p]; try reflexivity.
    destruct (tt t); try reflexivity.
    - apply put_ctwin; auto. split; [reflexivity|exact C].
    - rewrite <- A. destruct (w_off a) eqn:Ea.
      + apply (both_bind eq); [now apply both_refl|]. intros text ? <-. apply put_ctwin; auto.
        split; [reflexivity|]. cbn [w_f]. destruct (raw_ctwin _ _ text C) as (D & E & F).
        repeat split. exact F.
      + apply put_ctwin; [split; [congruence|exact C]|reflexivity].
  Qed.
  Lemma write_ctwin infile l : forall parent a b, plall (word_text c1) parent l -> plall (word_text c2) parent l ->
    cwtwin a b -> both cwtwin (write c1 infile parent l a) (write c2 infile parent l b).
  Proof.
    induction l as [k p pos pass w v x lines cs IH] using lay_ind'. intros parent a b Hq1 Hq2 Hab.
    apply plall_eq in Hq1 as [Hp1 Hq1]. apply plall_eq in Hq2 as [Hp2 Hq2].
    assert (Hw : forall a b, cwtwin a b -> both cwtwin (wall c1 infile k cs a) (wall c2 infile k cs b)).
    { clear a b Hab Hp1 Hp2. induction IH as [|y cs Hy _ IHl]; intros a b H; [exact H|].
      rewrite !wall_cons. apply (both_bind cwtwin).
      - apply Hy; [now apply Forall_inv in Hq1|now apply Forall_inv in Hq2|exact H].
      - intros a' b' H'. apply IHl; [now apply Forall_inv_tail in Hq1|now apply Forall_inv_tail in Hq2|exact H']. }
    assert (Hact : active a = active b) by (unfold active; now rewrite (proj1 Hab)).
    assert (Hsc : is_scalar_k k = true -> both cwtwin
       match p with
       | T t :: _ =>
          let? text := scalar_text c1 parent k t in
          let? s' := put c1 a pos text in
          match cs with
          | nil => Ok s'
          | [ch] => if is_comment_k (lkind ch) then wall c1 infile k cs s' else Err AssertionErr
          | _ :: _ :: _ => Err AssertionErr
          end
       | _ => Err AssertionErr
       end
       match p with
       | T t :: _ =>
          let? text := scalar_text c2 parent k t in
          let? s' := put c2 b pos text in
          match cs with
          | nil => Ok s'
          | [ch] => if is_comment_k (lkind ch) then wall c2 infile k cs s' else Err AssertionErr
          | _ :: _ :: _ => Err AssertionErr
          end
       | _ => Err AssertionErr
       end).
    { intros Hk. specialize (Hp1 Hk). specialize (Hp2 Hk). destruct p as [|[t|] p]; try reflexivity.
      cbn [text_same] in Hp1, Hp2.
      destruct (scalar_text c1 parent k t) as [x1| |] eqn:E1; try discriminate. apply seqb_eq in Hp1.
      destruct (scalar_text c2 parent k t) as [x2| |] eqn:E2; try discriminate. apply seqb_eq in Hp2.
      cbn [bindr]. apply (both_bind cwtwin); [apply put_ctwin; auto; congruence|]. intros a' b' H'.
      destruct cs as [|ch [|]]; [exact H'| |reflexivity]. destruct (is_comment_k (lkind ch)); [auto|reflexivity]. }
    rewrite !write_eq, <- Hact.
    assert (Hn : forall r1 r2, (active a = true -> both cwtwin r1 r2) ->
       both cwtwin (if negb (active a) then Ok a else r1) (if negb (active a) then Ok b else r2)).
    { intros r1 r2 H. destruct (active a); cbn; auto. }
    destruct k; auto using put_ctwin, onoff_ctwin.
    apply Hn. intros _. destruct (is_bracket p); auto using put_ctwin, write_lines_ctwin.
  Qed.
  Lemma write_tree_ctwin infile l : plall (word_text c1) KBody l -> plall (word_text c2) KBody l ->
    both (fun x y => lower x = lower y) (write_tree c1 infile l) (write_tree c2 infile l).
  Proof.
    intros H1 H2. unfold write_tree. apply (both_bind cwtwin).
    - apply write_ctwin; auto. now repeat split.
    - intros a b (_ & _ & _ & E). cbn [both]. unfold getvalue. now rewrite !lower_app, E.
  Qed.
End CaseTwin.

(** ** Tabs *)
Lemma loc_sp c : N.eqb (loc c) cSP = N.eqb c cSP.
Proof.
  unfold loc. destruct ((65 <=? c) && (c <=? 90))%N eqn:E; auto.
  rewrite andb_true_iff, !N.leb_le in E. unfold cSP.
  destruct (N.eqb_spec (c + 32) 32); destruct (N.eqb_spec c 32); lia.
Qed.
Lemma indent_lower s : count_indentation (lower s) = count_indentation s.
Proof.
  unfold count_indentation. generalize 0 at 1 2. induction s as [|c s IH]; intros z; [reflexivity|].
  cbn [lower map first_nonspace]. fold (lower s). rewrite loc_sp. destruct (N.eqb c cSP); auto.
Qed.
Definition map_ok {A B} (f : A -> B) (r : res A) : res B :=
  match r with Ok a => Ok (f a) | Err x => Err x | OutOfFuel => OutOfFuel end.
Lemma lower_repeat c n : loc c = c -> lower (repeat c n) = repeat c n.
Proof. intros H. induction n as [|n IH]; [reflexivity|]. cbn. rewrite H. now f_equal. Qed.
Lemma lower_skipn n s : lower (skipn n s) = skipn n (lower s).
Proof. unfold lower. now rewrite skipn_map. Qed.
Lemma tab_line_lower ts pol l : tab_line ts pol (lower l) = map_ok lower (tab_line ts pol l).
Proof.
  unfold tab_line. rewrite indent_lower. destruct (ts =? 0); [reflexivity|].
  destruct (_ mod _ =? 0).
  - cbn [map_ok]. now rewrite lower_app, lower_repeat, lower_skipn.
  - destruct pol; cbn [map_ok]; [| |reflexivity].
    + now rewrite !lower_app, !lower_repeat, lower_skipn.
    + rewrite !lower_app, !lower_repeat, lower_skipn by reflexivity. reflexivity.
Qed.
Lemma mapr_lower ts pol ls : TextOps.mapr (tab_line ts pol) (map lower ls) = map_ok (map lower) (TextOps.mapr (tab_line ts pol) ls).
Proof.
  induction ls as [|l ls IH]; [reflexivity|]. cbn [map TextOps.mapr]. rewrite tab_line_lower, IH.
  destruct (tab_line ts pol l); cbn [map_ok bindr]; [|reflexivity|reflexivity].
  destruct (TextOps.mapr (tab_line ts pol) ls); reflexivity.
Qed.
Lemma join_lower ls : join [cNL] (map lower ls) = lower (join [cNL] ls).
Proof.
  induction ls as [|l [|l' ls] IH]; [reflexivity|reflexivity|].
  cbn [map] in *. change (join [cNL] (lower l :: lower l' :: map lower ls))
    with (lower l ++ [cNL] ++ join [cNL] (lower l' :: map lower ls)). rewrite IH.
  change (join [cNL] (l :: l' :: ls)) with (l ++ [cNL] ++ join [cNL] (l' :: ls)). now rewrite !lower_app.
Qed.
Lemma tabs_lower u ts pol s : replace_with_tabs u ts pol (lower s) = map_ok lower (replace_with_tabs u ts pol s).
Proof.
  unfold replace_with_tabs. destruct u; [|reflexivity]. cbn [negb]. rewrite split_lower, mapr_lower.
  destruct (TextOps.mapr (tab_line ts pol) (split_on cNL s)); cbn [map_ok bindr]; [|reflexivity|reflexivity].
  now rewrite join_lower.
Qed.

(** ** C72 *)
Theorem C72_case_only c specs tbl src cc1 kc1 cc2 kc2 :
  run_cfg c specs tbl ->
  (forall n, In (cc1 n) command_cases) -> (forall n, In (cc2 n) command_cases) ->
  same_but_case (process_file (with_case cc1 kc1 c) src) (process_file (with_case cc2 kc2 c) src).
Proof.
  intros R H1 H2. unfold process_file. destruct (tokenize src) as [toks|x|] eqn:Hl; [|reflexivity|exact I].
  cbn [bindr].
  change (p_ctx (with_case cc1 kc1 c)) with (p_ctx c). change (p_ctx (with_case cc2 kc2 c)) with (p_ctx c).
  destruct (parse (p_ctx c) toks) as [tree|x|] eqn:Ep; [|reflexivity|exact I]. cbn [bindr].
  assert (Ey : layout_tree (pipe_env (with_case cc2 kc2 c) src toks) tree
               = layout_tree (pipe_env (with_case cc1 kc1 c) src toks) tree).
  { unfold pipe_env, effective. cbn [with_case p_auto p_fmt p_markup]. destruct (p_auto c); reflexivity. }
  rewrite Ey. clear Ey.
  destruct (layout_tree _ tree) as [l|x|] eqn:El; [|reflexivity|exact I]. cbn [bindr].
  assert (Rn : forall cc kc, (forall n, In (cc n) command_cases) ->
    plall (word_text (effective (with_case cc kc c) src)) KBody l).
  { intros cc kc Hcc.
    assert (R' : run_cfg (with_case cc kc c) specs tbl).
    { destruct R as (A & B & C & D & E & (F1 & F2) & G & I & J).
      exact (conj A (conj B (conj C (conj D (conj E (conj (conj Hcc F2) (conj G (conj I J)))))))). }
    pose proof (run_named _ _ _ _ _ _ R' Hl Ep) as Hn.
    unfold layout_tree in El. apply bindr_ok in El as ([l0 o] & Er & El). injection El as <-.
    eapply reflow_pall; [|exact Er]. apply pball_lock. now apply named_pball. }
  assert (Ee : forall cc kc, effective (with_case cc kc c) src = cased cc kc (effective c src)).
  { intros cc kc. unfold effective. cbn [with_case p_auto p_fmt]. destruct (p_auto c); reflexivity. }
  pose proof (Rn cc1 kc1 H1) as A. pose proof (Rn cc2 kc2 H2) as B. rewrite !Ee in *.
  pose proof (write_tree_ctwin (effective c src) cc1 cc2 kc1 kc2 src l A B) as H.
  destruct (write_tree (cased cc1 kc1 (effective c src)) src l) as [o|x|],
           (write_tree (cased cc2 kc2 (effective c src)) src l) as [o'|x'|]; cbn [both] in H;
    try contradiction; try exact H; try exact I.
  cbn [bindr]. cbn [with_case p_usetabs p_tabpol p_bom p_fmt cased f_tab].
  assert (E : lower (if p_bom c then cBOM :: o else o) = lower (if p_bom c then cBOM :: o' else o')).
  { destruct (p_bom c); [|exact H]. cbn [lower map]. now f_equal. }
  pose proof (tabs_lower (p_usetabs c) (f_tab (p_fmt c)) (p_tabpol c) (if p_bom c then cBOM :: o else o)) as T1.
  pose proof (tabs_lower (p_usetabs c) (f_tab (p_fmt c)) (p_tabpol c) (if p_bom c then cBOM :: o' else o')) as T2.
  rewrite E, T2 in T1.
  destruct (replace_with_tabs _ _ _ (if p_bom c then cBOM :: o else o)),
           (replace_with_tabs _ _ _ (if p_bom c then cBOM :: o' else o')); cbn [map_ok] in T1; try discriminate; cbn [bindr same_but_case].
  - injection T1 as T1. now split.
  - now injection T1.
  - exact I.
Qed.

(** a run: the names and keywords change case, nothing moves *)
Definition src_case : str := nl
  [$"Set(x a CACHE string doc)"; $"IF(A AND b)"; $"  myFn(1 [[Q]]"; $"    # One"; $"      # Two"; $"    )"; $"endif()"].
Example C72_ex :
  process_file (with_case (fun _ => $"upper") $"lower" default_pcfg) src_case
  = Ok (nl [$"SET(x"; $"    a"; $"    cache string doc)"; $"IF(A and b)"; $"  MYFN(1 [[Q]] # One # Two"; $"  )"; $"ENDIF()"], true).
Proof. vm_compute. reflexivity. Qed.
Print Assumptions C72_case_only.
