(** * LayBlock2: bodies and blocks with the same statements and comments are laid out alike *)
From Verif Require Import Base Regex Lex TextOps TextProofs Tree Layout LayoutProofs Pieces Writing LayKids PropCase PropLintChecks LaySame LayBlock.

(** [layout_passes] has no entry for comments either *)
Definition plain_passes2 (c : fcfg) : Prop := plain_passes c /\ node_passes c (KComment false) = [(0, false)].

Section Block.
  Variable c : fcfg.
  Variables e e' : env.
  Hypothesis He : cfg e = c.
  Hypothesis He' : cfg e' = c.
  Hypothesis Hp : plain_passes2 c.
  Definition depth (d : nat) : Z := Z.of_nat d * f_tab c.
  Lemma depth_S d : depth (S d) = depth d + f_tab c. Proof. unfold depth. lia. Qed.
  (** [d] is the number of blocks around *)
  Inductive dsame2 : nat -> kind -> box -> box -> Prop :=
  | d2_white d k p p' cs cs' : dsame2 d k (B KWhitespace p cs) (B KWhitespace p' cs')
  | d2_body d p p' cs cs' : Forall2 (dsame2 (S d) KBody) cs cs' -> dsame2 d KFlow (B KBody p cs) (B KBody p' cs')
  | d2_empty d p p' q ws : dsame2 d KFlow (B KBody p nil) (B KBody p' [B KWhitespace q ws])
  | d2_flow d k p p' cs cs' : Forall2 (dsame2 d KFlow) cs cs' -> dsame2 d k (B KFlow p cs) (B KFlow p' cs')
  | d2_note d k p p' : is_bracket p = false -> is_bracket p' = false ->
      cmt e' false p' (f_linewidth c - depth d) = cmt e false p (f_linewidth c - depth d) ->
      dsame2 d k (B (KComment false) p nil) (B (KComment false) p' nil)
  | d2_one d k b b' : bsame c k b b' -> quiet b = true -> quiet b' = true -> single b = true -> single b' = true -> dsame2 d k b b'.
  Lemma dsame2_kind d k b b' : dsame2 d k b b' -> bkind b' = bkind b.
  Proof. intros H. inversion H; subst; auto. eapply bsame_kind; eauto. Qed.
  Lemma single_body b : single b = true -> is_body_k (bkind b) = false.
  Proof. destruct b as [k p cs]. destruct k; auto; discriminate. Qed.

  Definition colof (d : nat) (k : kind) : Z := if is_body_k k then depth (S d) else depth d.
  Definition drel2 (d : nat) (parent : kind) (ch ch' : chd) : Prop :=
    Layout.ckind ch' = Layout.ckind ch /\ forall path cur, colm cur = colof d (Layout.ckind ch) -> RR (prel c parent) (snd ch path false cur 0) (snd ch' path false cur 0).
  Lemma bodies_same2 d k path cs cs' : Forall2 (drel2 d k) cs cs' -> Forall (fun ch => is_body_k (Layout.ckind ch) = false) cs -> forall colc cur v v' x x', colm colc = depth d ->
    RR (rel2 c k) (body_children path 0 cs colc cur v x) (body_children path 0 cs' colc cur v' x').
  Proof.
    induction 1 as [|ch ch' cs cs' [_ Hr] Hcs IH]; intros Hb colc cur v v' x x' Hcol; cbn [body_children].
    - apply RR_ok. cbn. auto.
    - inversion Hb as [|? ? Hb1 Hb2]; subst. eapply RR_bind; [apply Hr; unfold colof; now rewrite Hb1|]. intros [l o] [l' o'] [E P]. cbn [fst snd] in *. subst o'.
      eapply RR_bind; [apply IH; auto|]. intros [[[ls o2] v2] x2] [[[ls' o2'] v2'] x2'] [-> Q]. apply RR_ok. cbn. split; auto.
      unfold pcs_of in *. cbn [flat_map]. now rewrite P, Q.
  Qed.
  Lemma flows_same2 d k path cs cs' : Forall2 (drel2 d k) cs cs' -> forall want colc cur v v' x x', colm colc = depth d ->
    RR (rel2 c k) (flow_children (f_tab c) path 0 cs want colc cur v x) (flow_children (f_tab c) path 0 cs' want colc cur v' x').
  Proof.
    induction 1 as [|ch ch' cs cs' [Hk Hr] Hcs IH]; intros want colc cur v v' x x' Hcol; cbn [flow_children].
    - destruct want; [exact I|]. apply RR_ok. cbn. auto.
    - rewrite Hk. destruct want.
      + destruct (is_statement_k (Layout.ckind ch)) eqn:Es; cbn [negb]; [|exact I].
        eapply RR_bind; [apply Hr; unfold colof; destruct (Layout.ckind ch); try discriminate; exact Hcol|]. intros [l o] [l' o'] [E P]. cbn [fst snd] in *. subst o'.
        eapply RR_bind; [apply IH; auto|]. intros [[[ls o2] v2] x2] [[[ls' o2'] v2'] x2'] [-> Q]. apply RR_ok. cbn. split; auto.
        unfold pcs_of in *. cbn [flat_map]. now rewrite P, Q.
      + destruct (is_body_k (Layout.ckind ch)) eqn:Es; cbn [negb]; [|exact I].
        eapply RR_bind; [apply Hr; unfold colof; rewrite Es, depth_S; cbn [shift colm]; lia|]. intros [l o] [l' o'] [E P]. cbn [fst snd] in *. subst o'.
        eapply RR_bind; [apply IH; auto|]. intros [[[ls o2] v2] x2] [[[ls' o2'] v2'] x2'] [-> Q]. apply RR_ok. cbn. split; auto.
        unfold pcs_of in *. cbn [flat_map]. now rewrite P, Q.
  Qed.
  Lemma reflow_note e0 p sib path term cur passno : cfg e0 = c ->
    reflow e0 (B (KComment false) p nil) sib path term cur passno
    = if 0 >? pass_limit (KComment false) passno then Err AssertionErr
      else try_pass e0 (B (KComment false) p nil) nil (push_path path (B (KComment false) p nil) sib) term cur 0 false.
  Proof.
    intros E. rewrite reflow_eq, E. destruct Hp as [_ N]. rewrite N. cbn [try_passes]. destruct (0 >? _); auto.
    cbn [children_of]. destruct (try_pass _ _ _ _ _ _ _ _); cbn [bindr]; auto. destruct (lvalid (fst a)); auto.
  Qed.
  Lemma inner_nobody d cs cs' : Forall2 (dsame2 d KBody) cs cs' -> forall e0 n, Forall (fun ch => is_body_k (Layout.ckind ch) = false) (children_of e0 cs n).
  Proof.
    induction 1 as [|x y cs cs' Hxy _ IH]; intros e0 n; cbn [children_of]; constructor; auto.
    unfold Layout.ckind. cbn [fst]. inversion Hxy; subst; auto. now apply single_body.
  Qed.
  Theorem block_same2 b : forall d parent b', dsame2 d parent b b' ->
    forall sib path cur, colm cur = colof d (bkind b) -> RR (prel c parent) (reflow e b sib path false cur 0) (reflow e' b' sib path false cur 0).
  Proof.
    induction b as [k p cs IH] using box_ind'. intros d parent b' H sib path cur Hcol.
    assert (Hch : forall d0 k0 cs', Forall2 (dsame2 d0 k0) cs cs' -> forall n, Forall2 (drel2 d0 k0) (children_of e cs n) (children_of e' cs' n)).
    { clear H Hcol. intros d0 k0 cs' H. revert IH. induction H as [|x y cs cs' Hxy _ IHk]; intros IH n; cbn; [constructor|].
      inversion IH as [|? ? Hx IH']; subst. rewrite (dsame2_kind _ _ _ _ Hxy). constructor; [|apply IHk; auto].
      split; [unfold Layout.ckind; cbn [fst]; now apply (dsame2_kind d0 k0)|]. intros. cbn [snd]. now apply (Hx d0). }
    pose proof (proj1 Hp) as Hp1. cbn [bkind] in Hcol.
    inversion H as [| | | | |? ? ? ? H0 H1 H2 H3 H4]; subst.
    - rewrite !(reflow_flat c) by (auto; exact I). cbn [Z.gtb Z.compare]. apply try_prel; auto; [exact I|]. apply RR_ok. auto.
    - rewrite !(reflow_flat c) by (auto; exact I). cbn [Z.gtb Z.compare]. apply try_prel; auto; [exact I|]. unfold reflow_once. cbn [bkind]. unfold reflow_body.
      match goal with F : Forall2 (dsame2 _ KBody) _ _ |- _ => rename F into HF end.
      eapply (RR_bind (rel2 c KBody)); [eapply (bodies_same2 (S d)); [apply Hch; eassumption|eapply inner_nobody; eassumption|exact Hcol]|].
      intros [[[ls o2] v2] x2] [[[ls' o2'] v2'] x2'] [-> Q]. apply RR_ok. auto.
    - rewrite !(reflow_flat c) by (auto; exact I). cbn [Z.gtb Z.compare]. apply try_prel; auto; [exact I|]. unfold reflow_once. cbn [bkind]. unfold reflow_body.
      cbn [children_of body_children bindr snd]. rewrite (reflow_flat c) by (auto; exact I). cbn [Z.gtb Z.compare]. apply RR_ok. cbn. auto.
    - rewrite !(reflow_flat c) by (auto; exact I). cbn [Z.gtb Z.compare]. apply try_prel; auto; [exact I|]. unfold reflow_once. cbn [bkind]. unfold reflow_flow. rewrite He, He'.
      match goal with F : Forall2 (dsame2 _ KFlow) _ _ |- _ => specialize (Hch _ _ _ F 0%nat) end.
      pose proof (flows_same2 d KFlow (push_path path (B KFlow p cs) sib) _ _ Hch true cur cur true true 0 0 Hcol) as G.
      destruct Hch as [|x y l l' Hxy Hl].
      + eapply RR_bind; [exact G|]. intros [[[ls o2] v2] x2] [[[ls' o2'] v2'] x2'] [-> Q]. apply RR_ok. auto.
      + destruct Hl.
        * destruct (flow_children _ _ _ _ _ _ _ _ _); exact I.
        * eapply RR_bind; [exact G|]. intros [[[ls o2] v2] x2] [[[ls' o2'] v2'] x2'] [-> Q]. apply RR_ok. auto.
    - rewrite !reflow_note by auto. destruct (0 >? _); [exact I|]. unfold try_pass, reflow_once. cbn [bkind bpcs]. unfold reflow_comment.
      match goal with A : is_bracket p = false, B : is_bracket _ = false, C : cmt e' _ _ _ = _ |- _ => rewrite A, B; rename C into HC; rename A into HA; rename B into HB end.
      rewrite He, He'. replace (colm cur) with (depth d) by (now rewrite Hcol). rewrite HC. destruct (cmt e _ _ _) as [[|l ls]| |]; try exact I. cbn [bindr]. apply RR_ok. split; [reflexivity|].
      cbn [fst a_lines a_cs pieces flat_map own_pieces]. now rewrite HA, HB.
    - pose proof (reflow_same c e e' _ He He' _ _ H0 H1 H2 H3 H4 sib path false cur 0) as G. revert G. unfold RR. destruct (reflow e _ _ _ _ _ _); auto.
      intros (a' & E & [A (_ & _ & _ & _ & D)]). exists a'. split; [exact E|]. split; auto.
  Qed.
  Lemma bodies_app2 d k path cs cs' ws ws' : Forall2 (drel2 d k) cs cs' -> Forall (fun ch => is_body_k (Layout.ckind ch) = false) cs ->
    (forall colc cur v x, exists ls o v' x', body_children path 0 ws' colc cur v x = Ok (ls, o, v', x') /\ pcs_of c k ls = nil) ->
    (forall colc cur v x ls o v' x', body_children path 0 ws colc cur v x = Ok (ls, o, v', x') -> pcs_of c k ls = nil) ->
    forall colc cur v v' x x', colm colc = depth d ->
    RR (fun r r' => let '(ls, _, _, _) := r in let '(ls', _, _, _) := r' in pcs_of c k ls' = pcs_of c k ls)
      (body_children path 0 (cs ++ ws) colc cur v x) (body_children path 0 (cs' ++ ws') colc cur v' x').
  Proof.
    intros H Hb Hw' Hw. induction H as [|ch ch' cs cs' [_ Hr] Hcs IH]; intros colc cur v v' x x' Hcol; cbn [body_children app].
    - destruct (body_children path 0 ws colc cur v x) as [[[[ls o] v1] x1]| |] eqn:E; [|exact I|exact I].
      destruct (Hw' colc cur v' x') as (ls' & o' & v2 & x2 & E2 & P2). cbn. rewrite E2. exists (ls', o', v2, x2). split; auto. rewrite P2. symmetry. eauto.
    - inversion Hb as [|? ? Hb1 Hb2]; subst. eapply RR_bind; [apply Hr; unfold colof; now rewrite Hb1|]. intros [l o] [l' o'] [E P]. cbn [fst snd] in *. subst o'.
      eapply RR_bind; [apply IH; auto|]. intros [[[ls o2] v2] x2] [[[ls' o2'] v2'] x2'] Q. apply RR_ok. cbn.
      unfold pcs_of in *. cbn [flat_map]. now rewrite P, Q.
  Qed.
  Theorem top_same2 p p' cs cs' ws ws' : Forall2 (dsame2 0 KBody) cs cs' -> whites ws -> whites ws' ->
    forall parent sib path cur, colm cur = 0 ->
    RR (fun x x' => pieces c parent (fst x') = pieces c parent (fst x))
       (reflow e (B KBody p (cs ++ ws)) sib path false cur 0) (reflow e' (B KBody p' (cs' ++ ws')) sib path false cur 0).
  Proof.
    intros H Hw Hw' parent sib path cur Hcol. pose proof (proj1 Hp) as Hp1. rewrite !(reflow_flat c) by (auto; exact I). cbn [Z.gtb Z.compare]. unfold try_pass, reflow_once. cbn [bkind].
    unfold reflow_body. cbn [push_path bkind].
    destruct (children_app e cs ws 0) as (n & ->). destruct (children_app e' cs' ws' 0) as (n' & ->).
    eapply (RR_bind (fun a a' => pcs_of c KBody (a_cs a') = pcs_of c KBody (a_cs a))); [eapply RR_bind; [apply (bodies_app2 0 KBody)|]|].
    - assert (G : forall n, Forall2 (drel2 0 KBody) (children_of e cs n) (children_of e' cs' n)); [|apply G].
      clear -H He He' Hp. induction H as [|x y cs cs' Hxy _ IHk]; intros n; cbn; [constructor|].
      rewrite (dsame2_kind _ _ _ _ Hxy). constructor; [|apply IHk].
      split; [unfold Layout.ckind; cbn [fst]; now apply (dsame2_kind 0 KBody)|]. intros. cbn [snd]. now apply (block_same2 x 0).
    - eapply inner_nobody; eauto.
    - intros. now apply white_children.
    - intros colc cur' v x ls o v' x' E. destruct (white_children c e ws He Hp1 Hw KBody path n colc cur' v x) as (ls2 & o2 & v2 & x2 & E2 & P2).
      rewrite E in E2. inv E2. exact P2.
    - rewrite Hcol. reflexivity.
    - intros [[[ls o2] v2] x2] [[[ls' o2'] v2'] x2'] Q. apply RR_ok. exact Q.
    - intros a a' Q. apply RR_ok. cbn [fst pieces own_pieces app]. exact Q.
  Qed.
End Block.
