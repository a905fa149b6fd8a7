(** * LayKids: the nodes of a laid-out tree are those of the box tree *)
From Verif Require Import Base Regex Lex TextOps TextProofs Tree Layout LayoutProofs.

(** ** Every child of a laid-out node was laid out by some child box *)
Section Kids.
  Variable Q : lay -> Prop.
  Definition kgood (ch : chd) : Prop :=
    forall path term cur pass l o, snd ch path term cur pass = Ok (l, o) -> Q l.

  Lemma body_kids path pass cs : Forall kgood cs -> forall colc cur v x ls o v' x',
    body_children path pass cs colc cur v x = Ok (ls, o, v', x') -> Forall Q ls.
  Proof.
    induction 1 as [|ch cs Hg _ IH]; intros colc cur v x ls o v' x' H; cbn [body_children] in H.
    - inv H. constructor.
    - bk H. destruct x0 as [l c]. apply Hg in Hx.
      bk H. destruct x0 as [[[ls1 c'] v1] x1]. inv H. apply IH in Hx0. auto.
  Qed.
  Lemma flow_kids tab path pass cs : Forall kgood cs -> forall want colc cur v x ls o v' x',
    flow_children tab path pass cs want colc cur v x = Ok (ls, o, v', x') -> Forall Q ls.
  Proof.
    induction 1 as [|ch cs Hg _ IH]; intros want colc cur v x ls o v' x' H; cbn [flow_children] in H.
    - destruct want; inv H. constructor.
    - destruct want; (destruct (negb _); [discriminate|]);
        bk H; destruct x0 as [l c]; apply Hg in Hx;
        bk H; destruct x0 as [[[ls1 c'] v1] x1]; inv H; apply IH in Hx0; auto.
  Qed.
  Lemma parg_kids lw path pass term wrap cs : Forall kgood cs -> forall pv colc cur v x rows ls o v' x' r',
    parg_children lw path pass term wrap cs pv colc cur v x rows = Ok (ls, o, v', x', r') ->
    Forall Q ls.
  Proof.
    induction 1 as [|ch cs Hg _ IH]; intros pv colc cur v x rows ls o v' x' r' H;
      cbn [parg_children] in H.
    - inv H. constructor.
    - match type of H with (match ?t with _ => _ end) = _ =>
        destruct t as [[[colc1 cur1] at_col] rows1] end.
      bk H. destruct x0 as [l1 c1]. apply Hg in Hx.
      bk H. destruct x0 as [[[l2 c2] colc2] rows2].
      assert (Q l2) as D1.
      { match type of Hx0 with (if ?b then _ else _) = _ => destruct b end.
        - bk Hx0. destruct x0 as [l c]. inv Hx0. eapply Hg; eauto.
        - inv Hx0. auto. }
      bk H. destruct x0 as [[[[ls1 c'] v1] x1] r1]. inv H. apply IH in Hx1. auto.
  Qed.
  Lemma arg_kids lw path pass term wrap cs : Forall kgood cs -> forall pv colc cur v x ls o v' x',
    arg_children lw path pass term wrap cs pv colc cur v x = Ok (ls, o, v', x') -> Forall Q ls.
  Proof.
    induction 1 as [|ch cs Hg _ IH]; intros pv colc cur v x ls o v' x' H; cbn [arg_children] in H.
    - inv H. constructor.
    - match type of H with (match ?t with _ => _ end) = _ =>
        destruct t as [[colc1 cur1] first] end.
      bk H. destruct x0 as [l1 c1]. apply Hg in Hx.
      bk H. destruct x0 as [l2 c2].
      assert (Q l2) as D1.
      { match type of Hx0 with (if ?b then _ else _) = _ => destruct b end.
        - eapply Hg; eauto.
        - inv Hx0. auto. }
      bk H. destruct x0 as [[[ls1 c'] v1] x1]. inv H. apply IH in Hx1. auto.
  Qed.
  Lemma pgroup_kids lw path pass term wrap cs : Forall kgood cs -> forall pv colc cur v x ls o v' x',
    pgroup_children lw path pass term wrap cs pv colc cur v x = Ok (ls, o, v', x') -> Forall Q ls.
  Proof.
    induction 1 as [|ch cs Hg _ IH]; intros pv colc cur v x ls o v' x' H; cbn [pgroup_children] in H.
    - inv H. constructor.
    - match type of H with context [snd ch path _ ?t pass] => set (cur1 := t) in H; clearbody cur1 end.
      bk H. destruct x0 as [l1 c1]. apply Hg in Hx.
      bk H. destruct x0 as [l2 c2].
      assert (Q l2) as D1.
      { match type of Hx0 with (if ?b then _ else _) = _ => destruct b end.
        - eapply Hg; eauto.
        - inv Hx0. auto. }
      bk H. destruct x0 as [[[ls1 c'] v1] x1]. inv H. apply IH in Hx1. auto.
  Qed.
  Lemma close_kids c path pass start rp cs4 dangle initial dcur ls o v x :
    kgood rp -> Forall kgood cs4 ->
    stmt_close c path pass start rp cs4 dangle initial dcur = Ok (ls, o, v, x) -> Forall Q ls.
  Proof.
    intros Hrp Hcs H. unfold stmt_close in H. bk H. destruct x0 as [lr c4].
    pose proof Hx as Hx'. apply Hrp in Hx'.
    destruct cs4 as [|cm [|]]; try discriminate.
    - inv H. auto.
    - apply Forall_inv in Hcs as Hcm. destruct (negb (is_comment_k _)); [discriminate|].
      bk H. destruct x0 as [lc c5]. apply Hcm in Hx0.
      bk H. destruct x0 as [[[[lr2 lc2] c6] save2] v2].
      assert (Q lr2 /\ Q lc2) as (E1 & E2).
      { match type of Hx1 with (if ?b then _ else _) = _ => destruct b end.
        - bk Hx1. destruct x0 as [l1 c1]. bk Hx1. destruct x0 as [l2 c2]. inv Hx1.
          split; [eapply Hrp; eauto|eapply Hcm; eauto].
        - inv Hx1. auto. }
      bk H. destruct x0 as [[lr3 lc3] c7]. inv H.
      match type of Hx2 with (if ?b then _ else _) = _ => destruct b end.
      + bk Hx2. destruct x as [l1 c1]. bk Hx2. destruct x as [l2 c2]. inv Hx2.
        apply Hrp in Hx3. apply Hcm in Hx4. auto.
      + inv Hx2. auto.
  Qed.

  Lemma once_kids e b cs path term cur pass wrap a :
    Forall kgood cs -> reflow_once e b cs path term cur pass wrap = Ok a -> Forall Q (a_cs a).
  Proof.
    intros Hg H. unfold reflow_once in H.
    assert (Hsc : reflow_scalar (bpcs b) cs path cur pass wrap = Ok a -> Forall Q (a_cs a)).
    { unfold reflow_scalar. intros E. destruct (bpcs b) as [|[t|] p]; try discriminate.
      destruct (flow_text cur (spelling t)) as [c1 e1].
      destruct cs as [|ch [|]]; try discriminate; [inv E; constructor|].
      destruct (negb _); [discriminate|]. bk E. destruct x as [l c2]. inv E.
      apply Forall_inv in Hg. apply Hg in Hx. cbn. auto. }
    destruct (bkind b) eqn:Ek; auto; clear Hsc.
    - unfold reflow_body in H. bk H. destruct x as [[[ls c] v] x]. inv H. eapply body_kids in Hx; eauto.
    - inv H. constructor.
    - unfold reflow_comment in H. destruct (is_bracket (bpcs b)).
      + destruct (flow_text cur _). inv H. constructor.
      + bk H. destruct x; [discriminate|]. inv H. constructor.
    - unfold reflow_statement in H. destruct cs as [|fn cs1]; [discriminate|].
      destruct (negb _); [discriminate|]. bk H. destruct x as [lf c0].
      inversion Hg as [|? ? G1 Hg1]; subst. apply G1 in Hx as A1.
      set (c1 := if need_paren_space (cfg e) _ then shift c0 1 else c0) in *. clearbody c1.
      match type of H with context [if ?c then false else wrap] =>
        set (wr := if c then false else wrap) in H; clearbody wr end.
      destruct cs1 as [|lp cs2]; [discriminate|]. destruct (negb _); [discriminate|].
      bk H. destruct x as [ll c2]. inversion Hg1 as [|? ? G2 Hg2]; subst. apply G2 in Hx0 as A2.
      set (colc := if wr then _ else c2) in H. clearbody colc.
      destruct cs2 as [|ag cs3]; [discriminate|]. destruct (negb _); [discriminate|].
      bk H. destruct x as [la c3]. inversion Hg2 as [|? ? G3 Hg3]; subst. apply G3 in Hx1 as A3.
      destruct cs3 as [|rp cs4]; [discriminate|]. destruct (negb _); [discriminate|].
      match type of H with (let '(_, _) := ?t in _) = _ => destruct t as [dangle v0] end.
      bk H. rename x into dcur. bk H. destruct x as [[[ls c4] v1] x1]. inv H.
      inversion Hg3 as [|? ? G4 Hg4]; subst.
      eapply close_kids in Hx3 as A4; eauto. cbn. auto.
    - unfold reflow_flow in H.
      assert (exists ls c v x, flow_children (f_tab (cfg e)) path pass cs true cur cur true 0 = Ok (ls, c, v, x)
                /\ a = Att wrap v x nil ls c) as (ls & c & v & x & Hf & ->).
      { destruct cs as [|c1 [|c2 cs']].
        - bk H. destruct x as [[[ls c] v] x]. inv H. eauto 10.
        - bk H. discriminate.
        - bk H. destruct x as [[[ls c] v] x]. inv H. eauto 10. }
      eapply flow_kids in Hf; eauto.
    - unfold reflow_arg in H. bk H. bk H. destruct x0 as [[[ls c] v] x0]. inv H. eapply arg_kids in Hx0; eauto.
    - unfold reflow_kwarg in H. destruct cs as [|kw cs1]; [discriminate|].
      destruct (_ >? _); [discriminate|]. destruct (negb _); [discriminate|].
      match type of H with context [if ?c then false else wrap] =>
        set (wr := if c then false else wrap) in H; clearbody wr end.
      bk H. destruct x as [lk c1]. inversion Hg as [|? ? G1 Hg1]; subst. apply G1 in Hx as A1.
      destruct cs1 as [|ch cs2]; [inv H; cbn; auto|].
      bk H. destruct x as [l c2]. inv H. inversion Hg1 as [|? ? G2 Hg2]; subst.
      apply G2 in Hx0 as A2. cbn. auto.
    - unfold reflow_parg in H. bk H. destruct x as [[[[ls c] v] x] rows]. inv H. eapply parg_kids in Hx; eauto.
    - unfold reflow_pgroup in H. destruct (negb _); [discriminate|].
      bk H. destruct x as [[[ls c] v] x]. inv H. eapply pgroup_kids in Hx; eauto.
    - unfold reflow_onoff in H. destruct (bpcs b) as [|[t|] p]; try discriminate.
      destruct (onoff_text t) as [s|]; [|discriminate]. inv H. constructor.
    - unfold reflow_atstmt in H. destruct cs as [|aw cs1]; [discriminate|]. destruct (negb _); [discriminate|].
      bk H. destruct x as [la c1]. inversion Hg as [|? ? G1 Hg1]; subst. apply G1 in Hx as A1.
      destruct cs1 as [|cm [|]]; try discriminate; [inv H; cbn; auto|].
      destruct (negb _); [discriminate|]. bk H. destruct x as [lc c2]. apply Forall_inv in Hg1.
      apply Hg1 in Hx0 as A2. bk H. destruct x as [lc' c3]. inv H.
      match type of Hx1 with (if ?b then _ else _) = _ => destruct b end.
      + apply Hg1 in Hx1 as A3. cbn. auto.
      + inv Hx1. cbn. auto.
    - inv H. constructor.
    - inv H. constructor.
  Qed.
End Kids.

(** ** A property of kind and parse children that holds in the whole box holds
    in the whole layout *)
Section All.
  Variable P : kind -> list pnode -> Prop.
  Fixpoint ball (b : box) : Prop :=
    match b with
    | B k p cs => P k p /\ (fix go (l : list box) : Prop :=
                              match l with nil => True | c :: l' => ball c /\ go l' end) cs
    end.
  Fixpoint lall (l : lay) : Prop :=
    match l with
    | Lay k p _ _ _ _ _ _ cs => P k p /\ (fix go (l : list lay) : Prop :=
                              match l with nil => True | c :: l' => lall c /\ go l' end) cs
    end.
  Lemma ball_eq k p cs : ball (B k p cs) <-> P k p /\ Forall ball cs.
  Proof.
    cbn [ball]. split; intros [A C]; split; auto.
    - clear A. induction cs as [|c cs IH]; constructor; [apply C|apply IH, C].
    - clear A. induction C; cbn; auto.
  Qed.
  Lemma lall_eq k p c a w v x ls cs : lall (Lay k p c a w v x ls cs) <-> P k p /\ Forall lall cs.
  Proof.
    cbn [lall]. split; intros [A C]; split; auto.
    - clear A. induction cs as [|d cs IH]; constructor; [apply C|apply IH, C].
    - clear A. induction C; cbn; auto.
  Qed.
  Theorem reflow_all e b : ball b -> forall sib path term cur passno l o,
    reflow e b sib path term cur passno = Ok (l, o) -> lall l.
  Proof.
    induction b as [k p cs IH] using box_ind'. intros Hb sib path term cur passno l o H.
    rewrite reflow_eq in H. apply ball_eq in Hb as [Hp Hb].
    assert (Hg : forall n, Forall (kgood lall) (children_of e cs n)).
    { clear H Hp. induction IH as [|c cs Hc' _ IHl]; intros n; simpl; [constructor|].
      constructor; [|apply IHl; now apply Forall_inv_tail in Hb].
      intros path' term' cur' pass' l' o' E. eapply Hc'; eauto. now apply Forall_inv in Hb. }
    change (lall (fst (l, o))).
    revert H. apply (try_passes_inv (fun y => lall (fst y))).
    - intros p' w [l' o'] E. unfold try_pass in E. bk E. inv E. cbn [fst]. apply lall_eq. split; auto.
      eapply once_kids; eauto.
    - intros y E. discriminate.
  Qed.
End All.

(** ** Blocks keep their children, in order *)
Lemma reflow_head e b sib path term cur passno l o :
  reflow e b sib path term cur passno = Ok (l, o) -> lkind l = bkind b /\ lpcs l = bpcs b.
Proof.
  destruct b as [k p cs]. rewrite reflow_eq. intros H.
  change (lkind (fst (l, o)) = k /\ lpcs (fst (l, o)) = p). revert H.
  apply (try_passes_inv (fun y => lkind (fst y) = k /\ lpcs (fst y) = p)); [|discriminate].
  intros p' w [l' o'] E. unfold try_pass in E. bk E. inv E. auto.
Qed.

Section Block.
  Variable R : box -> lay -> Prop.
  Definition bgood (ch : chd) : Prop :=
    forall path term cur pass l o, snd ch path term cur pass = Ok (l, o) -> R (fst ch) l.
  Lemma body_block path pass cs : Forall bgood cs -> forall colc cur v x ls o v' x',
    body_children path pass cs colc cur v x = Ok (ls, o, v', x') -> Forall2 R (map fst cs) ls.
  Proof.
    induction 1 as [|ch cs Hg _ IH]; intros colc cur v x ls o v' x' H; cbn [body_children] in H.
    - inv H. constructor.
    - bk H. destruct x0 as [l c]. apply Hg in Hx.
      bk H. destruct x0 as [[[ls1 c'] v1] x1]. inv H. apply IH in Hx0. cbn. auto.
  Qed.
  Lemma flow_block tab path pass cs : Forall bgood cs -> forall want colc cur v x ls o v' x',
    flow_children tab path pass cs want colc cur v x = Ok (ls, o, v', x') -> Forall2 R (map fst cs) ls.
  Proof.
    induction 1 as [|ch cs Hg _ IH]; intros want colc cur v x ls o v' x' H; cbn [flow_children] in H.
    - destruct want; inv H. constructor.
    - destruct want; (destruct (negb _); [discriminate|]);
        bk H; destruct x0 as [l c]; apply Hg in Hx;
        bk H; destruct x0 as [[[ls1 c'] v1] x1]; inv H; apply IH in Hx0; cbn; auto.
  Qed.
End Block.

(** [shape b l]: same kind, same parse children, and below blocks the same list
    of children *)
Fixpoint shape (b : box) (l : lay) {struct b} : Prop :=
  match b with
  | B k p cs =>
      lkind l = k /\ lpcs l = p
      /\ (is_block_k k = true ->
          (fix go (bs : list box) (ls : list lay) : Prop :=
             match bs, ls with
             | nil, nil => True
             | b :: bs', l :: ls' => shape b l /\ go bs' ls'
             | _, _ => False
             end) cs (lcs l))
  end.
Lemma shape_eq k p cs l : shape (B k p cs) l <->
  lkind l = k /\ lpcs l = p /\ (is_block_k k = true -> Forall2 shape cs (lcs l)).
Proof.
  cbn [shape]. split; intros (A & C & D); repeat split; auto; intros E; specialize (D E); clear E A C.
  - revert D. generalize (lcs l) as ls. induction cs as [|c cs IH]; intros [|x ls] D; try tauto; constructor.
    + apply D. + apply IH, D.
  - induction D; auto.
Qed.
Lemma reflow_block (R : box -> lay -> Prop) e k p cs sib path term cur passno l o :
  is_block_k k = true -> (forall n, Forall (bgood R) (children_of e cs n)) ->
  reflow e (B k p cs) sib path term cur passno = Ok (l, o) -> Forall2 R cs (lcs l).
Proof.
  intros Hk Hg H. rewrite reflow_eq in H.
  change (Forall2 R cs (lcs (fst (l, o)))). revert H.
  apply (try_passes_inv (fun y => Forall2 R cs (lcs (fst y)))); [|discriminate].
  intros p' w [l' o'] E. unfold try_pass in E. bk E. inv E. cbn [fst lcs].
  unfold reflow_once in Hx. cbn [bkind] in Hx. destruct k; try discriminate Hk.
  - unfold reflow_body in Hx. bk Hx. destruct x0 as [[[ls c] v] x0]. inv Hx. cbn [a_cs].
    rewrite <- (children_of_fst e cs 0). eapply body_block; eauto.
  - unfold reflow_flow in Hx.
    assert (exists ls c v y, flow_children (f_tab (cfg e)) (push_path path (B KFlow (bpcs (B KFlow p cs)) cs) sib) p' (children_of e cs 0) true cur cur true 0 = Ok (ls, c, v, y)
              /\ x = Att w v y nil ls c) as (ls & c & v & y & Hf & ->).
    { cbn [bpcs]. destruct (children_of e cs 0) as [|c1 [|c2 cs']].
      - bk Hx. destruct x0 as [[[ls c] v] x0]. inv Hx. eauto 10.
      - bk Hx. discriminate.
      - bk Hx. destruct x0 as [[[ls c] v] x0]. inv Hx. eauto 10. }
    cbn [a_cs]. rewrite <- (children_of_fst e cs 0). eapply flow_block; eauto.
Qed.
Theorem reflow_shape e b : forall sib path term cur passno l o,
  reflow e b sib path term cur passno = Ok (l, o) -> shape b l.
Proof.
  induction b as [k p cs IH] using box_ind'. intros sib path term cur passno l o H.
  apply shape_eq. pose proof (reflow_head _ _ _ _ _ _ _ _ _ H) as [A C]. split; [exact A|split; [exact C|]].
  intros Hk. eapply reflow_block; eauto. clear H.
  induction IH as [|c cs Hc' _ IHl]; intros n; simpl; constructor; auto.
  intros path' term' cur' pass' l' o' E. eapply Hc'; eauto.
Qed.
