(** * LayBlock: bodies and blocks with the same statements are laid out alike *)
From Verif Require Import Base Regex Lex TextOps TextProofs Tree Layout LayoutProofs Pieces Writing LayKids PropCase PropLintChecks LaySame.

(** [layout_passes] has no entry for bodies, blocks and blank lines *)
Definition plain_passes (c : fcfg) : Prop :=
  node_passes c KBody = [(0, false)] /\ node_passes c KFlow = [(0, false)] /\ node_passes c KWhitespace = [(0, false)].

Section Block.
  Variable c : fcfg.
  Inductive dsame : kind -> box -> box -> Prop :=
  | ds_white k p p' cs cs' : dsame k (B KWhitespace p cs) (B KWhitespace p' cs')
  | ds_body k p p' cs cs' : Forall2 (dsame KBody) cs cs' -> dsame k (B KBody p cs) (B KBody p' cs')
  | ds_empty k p p' q ws : dsame k (B KBody p nil) (B KBody p' [B KWhitespace q ws])
  | ds_flow k p p' cs cs' : Forall2 (dsame KFlow) cs cs' -> dsame k (B KFlow p cs) (B KFlow p' cs')
  | ds_one k b b' : bsame c k b b' -> quiet b = true -> quiet b' = true -> single b = true -> single b' = true -> dsame k b b'.
  Lemma dsame_kind k b b' : dsame k b b' -> bkind b' = bkind b.
  Proof. intros H. inversion H; subst; auto. eapply bsame_kind; eauto. Qed.

  Definition prel (parent : kind) (x x' : lay * cursor) : Prop := snd x' = snd x /\ pieces c parent (fst x') = pieces c parent (fst x).
  Definition drel (parent : kind) (ch ch' : chd) : Prop :=
    ckind ch' = ckind ch /\ forall path cur, RR (prel parent) (snd ch path false cur 0) (snd ch' path false cur 0).
  Definition rel2 (k : kind) (x x' : list lay * cursor * bool * Z) : Prop :=
    let '(ls, o, _, _) := x in let '(ls', o', _, _) := x' in o' = o /\ pcs_of c k ls' = pcs_of c k ls.
  Lemma bodies_same k path cs cs' : Forall2 (drel k) cs cs' -> forall colc cur v v' x x',
    RR (rel2 k) (body_children path 0 cs colc cur v x) (body_children path 0 cs' colc cur v' x').
  Proof.
    induction 1 as [|ch ch' cs cs' [_ Hr] Hcs IH]; intros colc cur v v' x x'; cbn [body_children].
    - apply RR_ok. cbn. auto.
    - eapply RR_bind; [apply Hr|]. intros [l o] [l' o'] [E P]. cbn [fst snd] in *. subst o'.
      eapply RR_bind; [apply IH|]. intros [[[ls o2] v2] x2] [[[ls' o2'] v2'] x2'] [-> Q]. apply RR_ok. cbn. split; auto.
      unfold pcs_of in *. cbn [flat_map]. now rewrite P, Q.
  Qed.
  Lemma flows_same k tab path cs cs' : Forall2 (drel k) cs cs' -> forall want colc cur v v' x x',
    RR (rel2 k) (flow_children tab path 0 cs want colc cur v x) (flow_children tab path 0 cs' want colc cur v' x').
  Proof.
    induction 1 as [|ch ch' cs cs' [Hk Hr] Hcs IH]; intros want colc cur v v' x x'; cbn [flow_children].
    - destruct want; [exact I|]. apply RR_ok. cbn. auto.
    - rewrite Hk. destruct want.
      + destruct (negb _); [exact I|]. eapply RR_bind; [apply Hr|]. intros [l o] [l' o'] [E P]. cbn [fst snd] in *. subst o'.
        eapply RR_bind; [apply IH|]. intros [[[ls o2] v2] x2] [[[ls' o2'] v2'] x2'] [-> Q]. apply RR_ok. cbn. split; auto.
        unfold pcs_of in *. cbn [flat_map]. now rewrite P, Q.
      + destruct (negb _); [exact I|]. eapply RR_bind; [apply Hr|]. intros [l o] [l' o'] [E P]. cbn [fst snd] in *. subst o'.
        eapply RR_bind; [apply IH|]. intros [[[ls o2] v2] x2] [[[ls' o2'] v2'] x2'] [-> Q]. apply RR_ok. cbn. split; auto.
        unfold pcs_of in *. cbn [flat_map]. now rewrite P, Q.
  Qed.

  Definition block_k (k : kind) : Prop := match k with KBody | KFlow | KWhitespace => True | _ => False end.
  Lemma reflow_flat e k p cs sib path term cur passno : cfg e = c -> plain_passes c -> block_k k ->
    reflow e (B k p cs) sib path term cur passno
    = if 0 >? passno then Err AssertionErr
      else try_pass e (B k p cs) (children_of e cs 0) (push_path path (B k p cs) sib) term cur 0 false.
  Proof.
    intros He (P1 & P2 & P3) Hk. rewrite reflow_eq, He.
    assert (N : node_passes c k = [(0, false)]) by (destruct k; auto; contradiction).
    assert (L : pass_limit k passno = passno) by (destruct k; auto; contradiction).
    rewrite N, L. cbn [try_passes]. destruct (0 >? passno); auto. destruct (try_pass _ _ _ _ _ _ _ _); cbn [bindr]; auto. destruct (lvalid (fst a)); auto.
  Qed.
  Lemma try_prel e e' parent b b' cs cs' path term cur pass : cfg e = c -> cfg e' = c -> block_k (bkind b) -> bkind b' = bkind b ->
    RR (fun a a' => a_out a' = a_out a /\ pcs_of c (bkind b) (a_cs a') = pcs_of c (bkind b) (a_cs a))
       (reflow_once e b cs path term cur pass false) (reflow_once e' b' cs' path term cur pass false) ->
    RR (prel parent) (try_pass e b cs path term cur pass false) (try_pass e' b' cs' path term cur pass false).
  Proof.
    intros He He' Hk Hk' H. unfold try_pass. eapply RR_bind; [exact H|]. intros a a' [E P]. apply RR_ok. rewrite He, He', Hk', E. split; [reflexivity|].
    cbn [fst pieces]. f_equal; [|exact P]. unfold own_pieces. destruct (bkind b); try contradiction; reflexivity.
  Qed.
  Theorem block_same e e' b : cfg e = c -> cfg e' = c -> plain_passes c -> forall parent b', dsame parent b b' ->
    forall sib path cur, RR (prel parent) (reflow e b sib path false cur 0) (reflow e' b' sib path false cur 0).
  Proof.
    intros He He' Hp. induction b as [k p cs IH] using box_ind'. intros parent b' H sib path cur.
    assert (Hch : forall k0 cs', Forall2 (dsame k0) cs cs' -> forall n, Forall2 (drel k0) (children_of e cs n) (children_of e' cs' n)).
    { clear H. intros k0 cs' H. revert IH. induction H as [|x y cs cs' Hxy _ IHk]; intros IH n; cbn; [constructor|].
      inversion IH as [|? ? Hx IH']; subst. rewrite (dsame_kind _ _ _ Hxy). constructor; [|apply IHk; auto].
      split; [unfold ckind; cbn [fst]; now apply (dsame_kind k0)|]. intros. cbn [snd]. now apply Hx. }
    inversion H as [| | | |? ? ? H0 H1 H2 H3 H4]; subst.
    - rewrite !reflow_flat by (auto; exact I). cbn [Z.gtb Z.compare]. apply try_prel; auto; [exact I|]. apply RR_ok. auto.
    - rewrite !reflow_flat by (auto; exact I). cbn [Z.gtb Z.compare]. apply try_prel; auto; [exact I|]. unfold reflow_once. cbn [bkind]. unfold reflow_body.
      eapply (RR_bind (rel2 KBody)); [apply bodies_same, Hch; assumption|]. intros [[[ls o2] v2] x2] [[[ls' o2'] v2'] x2'] [-> Q]. apply RR_ok. auto.
    - rewrite !reflow_flat by (auto; exact I). cbn [Z.gtb Z.compare]. apply try_prel; auto; [exact I|]. unfold reflow_once. cbn [bkind]. unfold reflow_body.
      cbn [children_of body_children bindr snd]. rewrite reflow_flat by (auto; exact I). cbn [Z.gtb Z.compare]. apply RR_ok. cbn. auto.
    - rewrite !reflow_flat by (auto; exact I). cbn [Z.gtb Z.compare]. apply try_prel; auto; [exact I|]. unfold reflow_once. cbn [bkind]. unfold reflow_flow. rewrite He, He'.
      match goal with F : Forall2 (dsame KFlow) _ _ |- _ => specialize (Hch _ _ F 0%nat) end. pose proof (flows_same KFlow (f_tab c) (push_path path (B KFlow p cs) sib) _ _ Hch true cur cur true true 0 0) as G.
      destruct Hch as [|x y l l' Hxy Hl].
      + eapply RR_bind; [exact G|]. intros [[[ls o2] v2] x2] [[[ls' o2'] v2'] x2'] [-> Q]. apply RR_ok. auto.
      + destruct Hl.
        * destruct (flow_children _ _ _ _ _ _ _ _ _); exact I.
        * eapply RR_bind; [exact G|]. intros [[[ls o2] v2] x2] [[[ls' o2'] v2'] x2'] [-> Q]. apply RR_ok. auto.
    - pose proof (reflow_same c e e' _ He He' _ _ H0 H1 H2 H3 H4 sib path false cur 0) as G. revert G. unfold RR. destruct (reflow e _ _ _ _ _ _); auto.
      intros (a' & E & [A (_ & _ & _ & _ & D)]). exists a'. split; [exact E|]. split; auto.
  Qed.

  (** blank lines at the end of the file *)
  Definition whites (l : list box) : Prop := Forall (fun b => bkind b = KWhitespace) l.
  Lemma bodies_app k path cs cs' ws ws' : Forall2 (drel k) cs cs' ->
    (forall colc cur v x, exists ls o v' x', body_children path 0 ws' colc cur v x = Ok (ls, o, v', x') /\ pcs_of c k ls = nil) ->
    (forall colc cur v x ls o v' x', body_children path 0 ws colc cur v x = Ok (ls, o, v', x') -> pcs_of c k ls = nil) ->
    forall colc cur v v' x x',
    RR (fun r r' => let '(ls, _, _, _) := r in let '(ls', _, _, _) := r' in pcs_of c k ls' = pcs_of c k ls)
      (body_children path 0 (cs ++ ws) colc cur v x) (body_children path 0 (cs' ++ ws') colc cur v' x').
  Proof.
    intros H Hw' Hw. induction H as [|ch ch' cs cs' [_ Hr] Hcs IH]; intros colc cur v v' x x'; cbn [body_children app].
    - destruct (body_children path 0 ws colc cur v x) as [[[[ls o] v1] x1]| |] eqn:E; [|exact I|exact I].
      destruct (Hw' colc cur v' x') as (ls' & o' & v2 & x2 & E2 & P2). cbn. rewrite E2. exists (ls', o', v2, x2). split; auto. rewrite P2. symmetry. eauto.
    - eapply RR_bind; [apply Hr|]. intros [l o] [l' o'] [E P]. cbn [fst snd] in *. subst o'.
      eapply RR_bind; [apply IH|]. intros [[[ls o2] v2] x2] [[[ls' o2'] v2'] x2'] Q. apply RR_ok. cbn.
      unfold pcs_of in *. cbn [flat_map]. now rewrite P, Q.
  Qed.
  Lemma white_children e ws : cfg e = c -> plain_passes c -> whites ws -> forall k path n colc cur v x,
    exists ls o v' x', body_children path 0 (children_of e ws n) colc cur v x = Ok (ls, o, v', x') /\ pcs_of c k ls = nil.
  Proof.
    intros He Hp H k path. induction H as [|b ws Hb _ IH]; intros n colc cur v x.
    - cbn. eexists _, _, _, _. split; reflexivity.
    - destruct b as [k' p cs]. cbn [bkind] in Hb. subst k'. cbn [children_of body_children snd].
      rewrite reflow_flat by (auto; exact I). cbn [Z.gtb Z.compare]. unfold try_pass, reflow_once. cbn [bkind reflow_white bindr a_out a_valid a_wrap a_ext a_lines a_cs bpcs].
      cbn [is_parg_k]. edestruct (IH n) as (ls & o & v' & x' & E & P). rewrite E. cbn [bindr]. eexists _, _, _, _. split; [reflexivity|].
      unfold pcs_of in *. cbn [flat_map pieces own_pieces]. now rewrite P.
  Qed.
  Lemma children_app e l l2 : forall n, exists n', children_of e (l ++ l2) n = children_of e l n ++ children_of e l2 n'.
  Proof.
    induction l as [|b l IH]; intros n; [exists n; reflexivity|]. cbn [app children_of]. destruct (IH (if is_parg_k (bkind b) then S n else n)) as (n' & E).
    exists n'. f_equal. exact E.
  Qed.
  Theorem top_same e e' p p' cs cs' ws ws' : cfg e = c -> cfg e' = c -> plain_passes c -> Forall2 (dsame KBody) cs cs' -> whites ws -> whites ws' ->
    forall parent sib path cur,
    RR (fun x x' => pieces c parent (fst x') = pieces c parent (fst x))
       (reflow e (B KBody p (cs ++ ws)) sib path false cur 0) (reflow e' (B KBody p' (cs' ++ ws')) sib path false cur 0).
  Proof.
    intros He He' Hp H Hw Hw' parent sib path cur. rewrite !reflow_flat by (auto; exact I). cbn [Z.gtb Z.compare]. unfold try_pass, reflow_once. cbn [bkind].
    unfold reflow_body. cbn [push_path bkind].
    destruct (children_app e cs ws 0) as (n & ->). destruct (children_app e' cs' ws' 0) as (n' & ->).
    eapply (RR_bind (fun a a' => pcs_of c KBody (a_cs a') = pcs_of c KBody (a_cs a))); [eapply RR_bind; [apply (bodies_app KBody)|]|].
    - assert (G : forall n, Forall2 (drel KBody) (children_of e cs n) (children_of e' cs' n)); [|apply G].
        clear -H He He' Hp. induction H as [|x y cs cs' Hxy _ IHk]; intros n; cbn; [constructor|].
        rewrite (dsame_kind _ _ _ Hxy). constructor; [|apply IHk].
        split; [unfold ckind; cbn [fst]; now apply (dsame_kind KBody)|]. intros. cbn [snd]. now apply block_same.
    - intros. apply white_children; auto.
    - intros colc cur' v x ls o v' x' E. destruct (white_children e ws He Hp Hw KBody path n colc cur' v x) as (ls2 & o2 & v2 & x2 & E2 & P2).
        rewrite E in E2. inv E2. exact P2.
    - intros [[[ls o2] v2] x2] [[[ls' o2'] v2'] x2'] Q. apply RR_ok. exact Q.
    - intros a a' Q. apply RR_ok. cbn [fst pieces own_pieces app]. exact Q.
  Qed.
End Block.
