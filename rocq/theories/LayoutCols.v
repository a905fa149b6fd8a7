(** * LayoutCols: no node is ever placed at a negative column *)
From Verif Require Import Base Regex Lex TextOps TextProofs Tree Layout LayoutProofs.

Fixpoint cols (l : lay) : Prop :=
  match l with
  | Lay _ _ p _ _ _ _ _ cs =>
      0 <= colm p /\ (fix go (l : list lay) : Prop :=
                        match l with nil => True | c :: l' => cols c /\ go l' end) cs
  end.
Definition colss : list lay -> Prop :=
  fix go (l : list lay) : Prop := match l with nil => True | c :: l' => cols c /\ go l' end.
Lemma cols_eq k p c a w v x ls cs : cols (Lay k p c a w v x ls cs) = (0 <= colm c /\ colss cs).
Proof. reflexivity. Qed.

Definition cgood (ch : chd) : Prop :=
  forall path term cur pass l o, 0 <= colm cur ->
    snd ch path term cur pass = Ok (l, o) -> cols l /\ 0 <= colm o.

Lemma flow_lines_col ls : forall c x, 0 <= colm c -> 0 <= colm (fst (flow_lines c x ls)).
Proof.
  induction ls as [|l ls IH]; simpl; intros; [assumption|]. apply IH. simpl. apply zlen_nonneg.
Qed.
Lemma flow_text_col c s : 0 <= colm c -> 0 <= colm (fst (flow_text c s)).
Proof.
  intros. unfold flow_text. destruct (split_on _ _) as [|l ls]; [assumption|].
  apply flow_lines_col. simpl. pose proof (zlen_nonneg l). lia.
Qed.

Ltac use H := let A := fresh "Cl" in let B := fresh "Co" in
  match goal with G : cgood _ |- _ => apply G in H as [A B]; [|cbn [shift colm] in *; lia] end.

Lemma body_cols path pass cs : Forall cgood cs -> forall colc cur v x ls o v' x',
  0 <= colm colc -> 0 <= colm cur ->
  body_children path pass cs colc cur v x = Ok (ls, o, v', x') -> colss ls /\ 0 <= colm o.
Proof.
  induction 1 as [|ch cs Hg _ IH]; intros colc cur v x ls o v' x' H1 H2 H; cbn [body_children] in H.
  - inv H. split; [exact I|assumption].
  - bk H. destruct x0 as [l c]. apply Hg in Hx as [A B]; auto.
    bk H. destruct x0 as [[[ls1 c'] v1] x1]. inv H. apply IH in Hx as [C D]; auto. simpl. auto.
Qed.
Lemma flow_cols tab path pass cs : 0 <= tab -> Forall cgood cs -> forall want colc cur v x ls o v' x',
  0 <= colm colc -> 0 <= colm cur ->
  flow_children tab path pass cs want colc cur v x = Ok (ls, o, v', x') -> colss ls /\ 0 <= colm o.
Proof.
  intros Ht. induction 1 as [|ch cs Hg _ IH]; intros want colc cur v x ls o v' x' H1 H2 H;
    cbn [flow_children] in H.
  - destruct want; inv H. split; [exact I|assumption].
  - destruct want; (destruct (negb _); [discriminate|]);
      bk H; destruct x0 as [l c]; (apply Hg in Hx as [A B]; [|cbn [shift colm]; lia]);
      bk H; destruct x0 as [[[ls1 c'] v1] x1]; inv H; apply IH in Hx as [C D]; auto; simpl; auto.
Qed.
Lemma parg_cols lw path pass term wrap cs : Forall cgood cs -> forall pv colc cur v x rows ls o v' x' r',
  0 <= colm colc -> 0 <= colm cur ->
  parg_children lw path pass term wrap cs pv colc cur v x rows = Ok (ls, o, v', x', r') ->
  colss ls /\ 0 <= colm o.
Proof.
  induction 1 as [|ch cs Hg _ IH]; intros pv colc cur v x rows ls o v' x' r' H1 H2 H;
    cbn [parg_children] in H.
  - inv H. split; [exact I|assumption].
  - match type of H with (match ?t with _ => _ end) = _ =>
      destruct t as [[[colc1 cur1] at_col] rows1] eqn:E end.
    assert (0 <= colm colc1 /\ 0 <= colm cur1) as [C1 C2].
    { destruct pv as [p|]; [|inv E; auto]. destruct (ends_line p || wrap); inv E; cbn; lia. }
    bk H. destruct x0 as [l1 c1]. apply Hg in Hx as [A B]; auto.
    bk H. destruct x0 as [[[l2 c2] colc2] rows2].
    assert (cols l2 /\ 0 <= colm c2 /\ 0 <= colm colc2) as (D1 & D2 & D3).
    { match type of Hx with (if ?b then _ else _) = _ => destruct b end.
      - bk Hx. destruct x0 as [l c]. inv Hx. apply Hg in Hx0 as [F G]; [|cbn; lia]. cbn. auto.
      - inv Hx. auto. }
    bk H. destruct x0 as [[[[ls1 c'] v1] x1] r1]. inv H. apply IH in Hx0 as [F G]; auto. simpl. auto.
Qed.
Lemma arg_cols lw path pass term wrap cs : Forall cgood cs -> forall pv colc cur v x ls o v' x',
  0 <= colm colc -> 0 <= colm cur ->
  arg_children lw path pass term wrap cs pv colc cur v x = Ok (ls, o, v', x') ->
  colss ls /\ 0 <= colm o.
Proof.
  induction 1 as [|ch cs Hg _ IH]; intros pv colc cur v x ls o v' x' H1 H2 H;
    cbn [arg_children] in H.
  - inv H. split; [exact I|assumption].
  - match type of H with (match ?t with _ => _ end) = _ =>
      destruct t as [[colc1 cur1] first] eqn:E end.
    assert (0 <= colm colc1 /\ 0 <= colm cur1) as [C1 C2].
    { destruct pv as [p|]; [|inv E; auto]. destruct (ends_line p || wrap); inv E; cbn; lia. }
    bk H. destruct x0 as [l1 c1]. apply Hg in Hx as [A B]; auto.
    bk H. destruct x0 as [l2 c2].
    assert (cols l2 /\ 0 <= colm c2) as (D1 & D2).
    { match type of Hx with (if ?b then _ else _) = _ => destruct b end.
      - apply Hg in Hx; auto.
      - inv Hx. auto. }
    bk H. destruct x0 as [[[ls1 c'] v1] x1]. inv H. apply IH in Hx0 as [F G]; auto. simpl. auto.
Qed.
Lemma pgroup_cols lw path pass term wrap cs : Forall cgood cs -> forall pv colc cur v x ls o v' x',
  0 <= colm colc -> 0 <= colm cur ->
  pgroup_children lw path pass term wrap cs pv colc cur v x = Ok (ls, o, v', x') ->
  colss ls /\ 0 <= colm o.
Proof.
  induction 1 as [|ch cs Hg _ IH]; intros pv colc cur v x ls o v' x' H1 H2 H;
    cbn [pgroup_children] in H.
  - inv H. split; [exact I|assumption].
  - match type of H with context [snd ch path _ ?t pass] => set (cur1 := t) in H end.
    assert (0 <= colm cur1) as C2.
    { unfold cur1. destruct pv as [p|]; auto. destruct (is_lparen_k _); auto.
      destruct (ends_line p || wrap); [cbn; lia|]. destruct (is_rparen_k _); [auto|cbn; lia]. }
    clearbody cur1.
    bk H. destruct x0 as [l1 c1]. apply Hg in Hx as [A B]; auto.
    bk H. destruct x0 as [l2 c2].
    assert (cols l2 /\ 0 <= colm c2) as (D1 & D2).
    { match type of Hx with (if ?b then _ else _) = _ => destruct b end.
      - apply Hg in Hx; auto.
      - inv Hx. auto. }
    bk H. destruct x0 as [[[ls1 c'] v1] x1]. inv H. apply IH in Hx0 as [F G]; auto. simpl. auto.
Qed.

Lemma close_cols c path pass start rp cs4 dangle initial dcur ls o v x :
  cgood rp -> Forall cgood cs4 -> 0 <= colm start -> 0 <= colm initial -> 0 <= colm dcur ->
  stmt_close c path pass start rp cs4 dangle initial dcur = Ok (ls, o, v, x) ->
  colss ls /\ 0 <= colm o.
Proof.
  intros Hrp Hcs H0 H1 H2 H. unfold stmt_close in H. bk H. destruct x0 as [lr c4].
  pose proof Hx as Hx'. apply Hrp in Hx' as [A B]; auto.
  destruct cs4 as [|cm [|]]; try discriminate.
  - inv H. simpl. auto.
  - apply Forall_inv in Hcs as Hcm. destruct (negb (is_comment_k _)); [discriminate|].
    bk H. destruct x0 as [lc c5]. apply Hcm in Hx0 as [C D]; [|cbn; lia].
    bk H. destruct x0 as [[[[lr2 lc2] c6] save2] v2].
    assert (cols lr2 /\ cols lc2 /\ 0 <= colm c6) as (E1 & E2 & E3).
    { match type of Hx0 with (if ?b then _ else _) = _ => destruct b end.
      - bk Hx0. destruct x0 as [l1 c1]. bk Hx0. destruct x0 as [l2 c2]. inv Hx0.
        apply Hrp in Hx1 as [F1 F2]; auto. apply Hcm in Hx2 as [F3 F4]; auto.
      - inv Hx0. auto. }
    bk H. destruct x0 as [[lr3 lc3] c7]. inv H.
    match type of Hx1 with (if ?b then _ else _) = _ => destruct b end.
    + bk Hx1. destruct x as [l1 c1]. bk Hx1. destruct x as [l2 c2]. inv Hx1.
      apply Hrp in Hx2 as [F1 F2]; auto. apply Hcm in Hx3 as [F3 F4]; auto. simpl. auto.
    + inv Hx1. simpl. auto.
Qed.

Lemma once_cols e b cs path term cur pass wrap a :
  0 <= f_tab (cfg e) -> Forall cgood cs -> 0 <= colm cur ->
  reflow_once e b cs path term cur pass wrap = Ok a -> colss (a_cs a) /\ 0 <= colm (a_out a).
Proof.
  intros Ht Hg Hc H. unfold reflow_once in H.
  assert (Hsc : reflow_scalar (bpcs b) cs path cur pass wrap = Ok a ->
                colss (a_cs a) /\ 0 <= colm (a_out a)).
  { unfold reflow_scalar. intros E. destruct (bpcs b) as [|[t|] p]; try discriminate.
    pose proof (flow_text_col cur (spelling t) Hc) as F.
    destruct (flow_text cur (spelling t)) as [c1 e1]. simpl in F.
    destruct cs as [|ch [|]]; try discriminate; [inv E; simpl; auto|].
    destruct (negb _); [discriminate|]. bk E. destruct x as [l c2]. inv E.
    apply Forall_inv in Hg. apply Hg in Hx as [A B]; [simpl; auto|cbn; lia]. }
  destruct (bkind b) eqn:Ek; auto; clear Hsc.
  - unfold reflow_body in H. bk H. destruct x as [[[ls c] v] x]. inv H. eapply body_cols in Hx; eauto.
  - inv H. simpl; auto.
  - unfold reflow_comment in H. destruct (is_bracket (bpcs b)).
    + pose proof (flow_text_col cur (first_spelling (bpcs b)) Hc) as F.
      destruct (flow_text cur _). inv H. simpl; auto.
    + bk H. destruct x; [discriminate|]. inv H. split; [exact I|].
      cbn [a_out colm]. match goal with |- context [zlen ?y] => pose proof (zlen_nonneg y) end. lia.
  - unfold reflow_statement in H. destruct cs as [|fn cs1]; [discriminate|].
    destruct (negb _); [discriminate|]. bk H. destruct x as [lf c0].
    inversion Hg as [|? ? G1 Hg1]; subst. apply G1 in Hx as [A1 B1]; auto.
    set (c1 := if need_paren_space (cfg e) _ then shift c0 1 else c0) in *.
    assert (0 <= colm c1) as C1 by (unfold c1; destruct (need_paren_space _ _); cbn; lia). clearbody c1.
    match type of H with context [if ?c then false else wrap] =>
      set (wr := if c then false else wrap) in H; clearbody wr end.
    destruct cs1 as [|lp cs2]; [discriminate|]. destruct (negb _); [discriminate|].
    bk H. destruct x as [ll c2]. inversion Hg1 as [|? ? G2 Hg2]; subst. apply G2 in Hx as [A2 B2]; auto.
    set (colc := if wr then _ else c2) in H.
    assert (0 <= colm colc) as C3 by (unfold colc; destruct wr; cbn; lia). clearbody colc.
    destruct cs2 as [|ag cs3]; [discriminate|]. destruct (negb _); [discriminate|].
    bk H. destruct x as [la c3]. inversion Hg2 as [|? ? G3 Hg3]; subst. apply G3 in Hx as [A3 B3]; auto.
    destruct cs3 as [|rp cs4]; [discriminate|]. destruct (negb _); [discriminate|].
    match type of H with (let '(_, _) := ?t in _) = _ => destruct t as [dangle v0] end.
    bk H. rename x into dcur. bk H. destruct x as [[[ls c4] v1] x1]. inv H.
    inversion Hg3 as [|? ? G4 Hg4]; subst.
    assert (0 <= colm dcur) as C4.
    { unfold dangle_cursor in Hx. destruct (seqb _ _); [inv Hx; cbn; lia|].
      destruct (seqb _ _); [inv Hx; cbn; lia|]. destruct (seqb _ _); [inv Hx; cbn; lia|discriminate]. }
    eapply close_cols in Hx0 as [A4 B4]; eauto; [simpl; auto|]. destruct dangle; auto.
  - unfold reflow_flow in H.
    assert (exists ls c v x, flow_children (f_tab (cfg e)) path pass cs true cur cur true 0 = Ok (ls, c, v, x)
              /\ a = Att wrap v x nil ls c) as (ls & c & v & x & Hf & ->).
    { destruct cs as [|c1 [|c2 cs']].
      - bk H. destruct x as [[[ls c] v] x]. inv H. eauto 10.
      - bk H. discriminate.
      - bk H. destruct x as [[[ls c] v] x]. inv H. eauto 10. }
    eapply flow_cols in Hf; eauto.
  - unfold reflow_arg in H. bk H. bk H. destruct x0 as [[[ls c] v] x0]. inv H. eapply arg_cols in Hx0; eauto.
  - unfold reflow_kwarg in H. destruct cs as [|kw cs1]; [discriminate|].
    destruct (_ >? _); [discriminate|]. destruct (negb _); [discriminate|].
    match type of H with context [if ?c then false else wrap] =>
      set (wr := if c then false else wrap) in H; clearbody wr end.
    bk H. destruct x as [lk c1]. inversion Hg as [|? ? G1 Hg1]; subst. apply G1 in Hx as [A1 B1]; auto.
    destruct cs1 as [|ch cs2]; [inv H; simpl; auto|].
    bk H. destruct x as [l c2]. inv H. inversion Hg1 as [|? ? G2 Hg2]; subst.
    apply G2 in Hx as [A2 B2]; [simpl; auto|]. destruct wr; cbn; lia.
  - unfold reflow_parg in H. bk H. destruct x as [[[[ls c] v] x] rows]. inv H. eapply parg_cols in Hx; eauto.
  - unfold reflow_pgroup in H. destruct (negb _); [discriminate|].
    bk H. destruct x as [[[ls c] v] x]. inv H. eapply pgroup_cols in Hx; eauto.
  - unfold reflow_onoff in H. destruct (bpcs b) as [|[t|] p]; try discriminate.
    destruct (onoff_text t) as [s|]; [|discriminate]. inv H. simpl. pose proof (zlen_nonneg s). split; [auto|lia].
  - unfold reflow_atstmt in H. destruct cs as [|aw cs1]; [discriminate|]. destruct (negb _); [discriminate|].
    bk H. destruct x as [la c1]. inversion Hg as [|? ? G1 Hg1]; subst. apply G1 in Hx as [A1 B1]; auto.
    destruct cs1 as [|cm [|]]; try discriminate; [inv H; simpl; auto|].
    destruct (negb _); [discriminate|]. bk H. destruct x as [lc c2]. apply Forall_inv in Hg1.
    apply Hg1 in Hx as [A2 B2]; [|cbn; lia]. bk H. destruct x as [lc' c3]. inv H.
    match type of Hx with (if ?b then _ else _) = _ => destruct b end.
    + apply Hg1 in Hx as [A3 B3]; [simpl; auto|cbn; lia].
    + inv Hx. simpl. auto.
  - inv H. split; [exact I|]. cbn. lia.
  - inv H. split; [exact I|]. cbn. lia.
Qed.

Theorem reflow_cols e b : 0 <= f_tab (cfg e) -> forall sib path term cur passno l o,
  0 <= colm cur -> reflow e b sib path term cur passno = Ok (l, o) -> cols l /\ 0 <= colm o.
Proof.
  intros Ht. induction b as [k p cs IH] using box_ind'. intros sib path term cur passno l o Hc H.
  rewrite reflow_eq in H.
  assert (Hg : forall n, Forall cgood (children_of e cs n)).
  { clear H. induction IH as [|c cs Hc' _ IHl]; intros n; simpl; [constructor|].
    constructor; auto. intros path' term' cur' pass' l' o' E1 E2. eapply Hc'; eauto. }
  change (cols (fst (l, o)) /\ 0 <= colm (snd (l, o))).
  revert H. apply (try_passes_inv (fun y => cols (fst y) /\ 0 <= colm (snd y))).
  - intros p' w [l' o'] E. unfold try_pass in E. bk E. inv E.
    apply once_cols in Hx as [A B]; auto. cbn [fst snd]. rewrite cols_eq. auto.
  - intros y E. discriminate.
Qed.
