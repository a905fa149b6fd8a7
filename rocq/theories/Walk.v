(** * Walk: a laid-out file is a sequence of items, each on fresh lines *)
From Coq Require Import Permutation.
From Verif Require Import Base Regex Lex TextOps TextProofs Tree Parse Layout LayoutProofs Pieces Writing
  PropLayout.

(** The items of a file: statements, comments, format switches and @-words, blank
    lines, and the bodies of blocks with nothing in them; each with the number of
    blocks around it. *)
Fixpoint bitems (d : nat) (b : box) : list (nat * box) :=
  match b with
  | B k p cs =>
      match k with
      | KBody => match cs with nil => [(d, b)] | _ => flat_map (bitems d) cs end
      | KFlow => flat_map (fun x => if is_body_k (bkind x) then bitems (S d) x else bitems d x) cs
      | _ => [(d, b)]
      end
  end.
Definition blank_k (k : kind) : bool := match k with KWhitespace | KBody => true | _ => false end.

Section Walk.
  Variable e : env.
  Hypothesis Htab : 0 <= f_tab (cfg e).
  Let c := cfg e.
  (** [val]: the layout of the file is valid *)
  Variable val : bool.
  Definition vld (l : lay) : Prop := val = true -> lvalid l = true.

  (** each item is laid out on the line below the last *)
  Inductive walk : cursor -> list (nat * box) -> list piece -> cursor -> Prop :=
  | walk_nil p : walk p nil nil p
  | walk_cons pos d b es parent path term pass sib l o rest o' :
      reflow e b sib path term (Cur (row pos + 1) (Z.of_nat d * f_tab c)) pass = Ok (l, o) -> vld l ->
      walk o es rest o' -> walk pos ((d, b) :: es) (pieces c parent l ++ rest) o'.
  Lemma walk_app pos es ps o es' ps' o' : walk pos es ps o -> walk o es' ps' o' -> walk pos (es ++ es') (ps ++ ps') o'.
  Proof. induction 1; intros H'; [exact H'|]. rewrite <- app_assoc. cbn [app]. econstructor; eauto. Qed.

  Definition walks (k : kind) (b : box) (f : rfn) : Prop :=
    forall path term cur pass l o, f path term cur pass = Ok (l, o) -> vld l ->
    forall d pos, cur = Cur (row pos + 1) (Z.of_nat d * f_tab c) -> walk pos (bitems d b) (pieces c k l) o.
  Lemma body_v path pass : forall cs cur colc v x ls o v' x',
    body_children path pass cs colc cur v x = Ok (ls, o, v', x') -> v' = true -> v = true.
  Proof.
    induction cs as [|ch cs IH]; intros cur colc v x ls o v' x' H E; cbn [body_children] in H; [injection H as <- <- <- <-; exact E|].
    bk H. destruct x0 as [l o1]. bk H. destruct x0 as [[[ls1 o2] v2] x2]. injection H as <- <- <- <-. apply IH in Hx0; [|exact E]. now apply andb_prop in Hx0.
  Qed.
  Lemma flow_v tab path pass : forall cs want cur colc v x ls o v' x',
    flow_children tab path pass cs want colc cur v x = Ok (ls, o, v', x') -> v' = true -> v = true.
  Proof.
    induction cs as [|ch cs IH]; intros want cur colc v x ls o v' x' H E; cbn [flow_children] in H.
    - destruct want; [discriminate|]. injection H as <- <- <- <-. exact E.
    - destruct want; (destruct (negb _); [discriminate|]); bk H; destruct x0 as [l o1]; bk H; destruct x0 as [[[ls1 o2] v2] x2]; injection H as <- <- <- <-;
        (apply IH in Hx0; [|exact E]); now apply andb_prop in Hx0.
  Qed.
  Lemma body_walk d path pass : forall cs cur colc pos v x ls o v' x',
    Forall (fun ch => walks KBody (fst ch) (snd ch)) cs -> colc = Cur (row pos + 1) (Z.of_nat d * f_tab c) ->
    (cs = nil -> cur = pos) -> (val = true -> v' = true) ->
    body_children path pass cs colc cur v x = Ok (ls, o, v', x') ->
    walk pos (flat_map (bitems d) (map fst cs)) (flat_map (pieces c KBody) ls) o.
  Proof.
    induction cs as [|ch cs IH]; intros cur colc pos v x ls o v' x' Hcs Hcol Hnil Hv H.
    - cbn in H. injection H as <- <- <- <-. rewrite Hnil by reflexivity. constructor.
    - cbn [body_children] in H. bk H. destruct x0 as [l o1]. bk H. destruct x0 as [[[ls1 o2] v2] x2]. injection H as <- <- <- <-.
      inversion Hcs as [|? ? Hch Hcs']; subst. cbn [map flat_map]. cbn [colm] in Hx0.
      eapply walk_app; [exact (Hch _ _ _ _ _ _ Hx ltac:(intros Ev; apply body_v in Hx0; [now apply andb_prop in Hx0|auto]) d pos eq_refl)|].
      eapply IH; [exact Hcs'| |reflexivity|exact Hv|exact Hx0]. reflexivity.
  Qed.
  Lemma flow_walk d path pass : forall cs want cur colc pos v x ls o v' x',
    Forall (fun ch => walks KFlow (fst ch) (snd ch)) cs -> colc = Cur (row pos + 1) (Z.of_nat d * f_tab c) ->
    (cs = nil -> cur = pos) -> (val = true -> v' = true) ->
    flow_children (f_tab c) path pass cs want colc cur v x = Ok (ls, o, v', x') ->
    walk pos (flat_map (fun x => if is_body_k (bkind x) then bitems (S d) x else bitems d x) (map fst cs))
         (flat_map (pieces c KFlow) ls) o.
  Proof.
    induction cs as [|ch cs IH]; intros want cur colc pos v x ls o v' x' Hcs Hcol Hnil Hv H.
    - cbn in H. destruct want; [discriminate|]. injection H as <- <- <- <-. rewrite Hnil by reflexivity. constructor.
    - cbn [flow_children] in H. inversion Hcs as [|? ? Hch Hcs']; subst. destruct want.
      + destruct (negb (is_statement_k (Layout.ckind ch))) eqn:Ek; [discriminate|]. apply negb_false_iff in Ek.
        bk H. destruct x0 as [l o1]. bk H. destruct x0 as [[[ls1 o2] v2] x2]. injection H as <- <- <- <-.
        cbn [map flat_map]. cbn [colm] in Hx0. unfold Layout.ckind in Ek.
        replace (is_body_k (bkind (fst ch))) with false by (destruct (bkind (fst ch)); try discriminate; reflexivity).
        eapply walk_app; [exact (Hch _ _ _ _ _ _ Hx ltac:(intros Ev; apply flow_v in Hx0; [now apply andb_prop in Hx0|auto]) d pos eq_refl)|].
        eapply IH; [exact Hcs'| |reflexivity|exact Hv|exact Hx0]. reflexivity.
      + destruct (negb (is_body_k (Layout.ckind ch))) eqn:Ek; [discriminate|]. apply negb_false_iff in Ek.
        bk H. destruct x0 as [l o1]. bk H. destruct x0 as [[[ls1 o2] v2] x2]. injection H as <- <- <- <-.
        cbn [map flat_map]. cbn [colm] in Hx0. unfold Layout.ckind in Ek. rewrite Ek.
        eapply walk_app; [apply (Hch _ _ _ _ _ _ Hx ltac:(intros Ev; apply flow_v in Hx0; [now apply andb_prop in Hx0|auto]) (S d) pos)|].
        { unfold shift. cbn [row colm]. f_equal. lia. }
        eapply IH; [exact Hcs'| |reflexivity|exact Hv|exact Hx0]. reflexivity.
  Qed.

  Theorem reflow_walk b : forall k sib, walks k b (reflow e b sib).
  Proof.
    induction b as [k p cs IH] using box_ind'. intros parent sib path term cur pass l o H Hv d pos ->.
    assert (Hch : forall k n, Forall (fun ch => walks k (fst ch) (snd ch)) (children_of e cs n)).
    { clear - IH. intros k. induction IH as [|x cs Hx _ IHl]; intros n; cbn [children_of]; constructor; auto. apply Hx. }
    destruct (match k with KBody => match cs with nil => true | _ => false end | KFlow => false | _ => true end) eqn:El.
    { replace (bitems d (B k p cs)) with [(d, B k p cs)] by (destruct k; try reflexivity; try discriminate; destruct cs; [reflexivity|discriminate]).
      rewrite <- (app_nil_r (pieces c parent l)). econstructor; [exact H|exact Hv|constructor]. }
    rewrite reflow_eq in H. destruct k; try discriminate.
    - (* KBody *)
      replace (bitems d (B KBody p cs)) with (flat_map (bitems d) cs) by (destruct cs; [discriminate|reflexivity]).
      change (vld (fst (l, o))) in Hv. change (walk pos (flat_map (bitems d) cs) (pieces c parent (fst (l, o))) (snd (l, o))). revert Hv. revert H.
      apply (try_passes_inv (fun y => vld (fst y) -> walk pos (flat_map (bitems d) cs) (pieces c parent (fst y)) (snd y))); [|discriminate].
      intros pn w [l' o'] E Hv. unfold try_pass in E. bk E. injection E as <- <-. unfold vld in Hv. cbn [fst lvalid] in Hv.
      unfold reflow_once in Hx. cbn [bkind] in Hx. unfold reflow_body in Hx. bk Hx. destruct x0 as [[[ls c0] v] x0]. injection Hx as <-.
      cbn [fst snd pieces bkind bpcs a_cs a_out own_pieces app].
      eapply body_walk in Hx0; [|apply Hch|reflexivity|destruct cs; [discriminate|intros; discriminate]|intros Ev; cbn [a_valid] in Hv; now apply Hv, andb_prop in Ev].
      now rewrite children_of_fst in Hx0.
    - (* KFlow *)
      cbn [bitems]. match goal with |- walk _ ?es _ _ => set (es0 := es) end.
      change (vld (fst (l, o))) in Hv. change (walk pos es0 (pieces c parent (fst (l, o))) (snd (l, o))). revert Hv. revert H.
      apply (try_passes_inv (fun y => vld (fst y) -> walk pos es0 (pieces c parent (fst y)) (snd y))); [|discriminate]. subst es0.
      intros pn w [l' o'] E Hv. unfold try_pass in E. bk E. injection E as <- <-. unfold vld in Hv. cbn [fst lvalid] in Hv.
      unfold reflow_once in Hx. cbn [bkind] in Hx.
      assert (exists ls c0 v x0, flow_children (f_tab (cfg e)) (push_path path (B KFlow p cs) sib) pn (children_of e cs 0) true
          (Cur (row pos + 1) (Z.of_nat d * f_tab c)) (Cur (row pos + 1) (Z.of_nat d * f_tab c)) true 0 = Ok (ls, c0, v, x0)
          /\ a_cs x = ls /\ a_out x = c0 /\ cs <> nil /\ a_valid x = v) as (ls & c0 & v & x0 & Hx0 & <- & <- & Hne & <-).
      { destruct cs as [|b1 cs]; [discriminate Hx|].
        unfold reflow_flow in Hx. destruct (children_of e (b1 :: cs) 0) as [|q1 [|q2 q]]; [discriminate Hx| |].
        - bk Hx. discriminate.
        - bk Hx. destruct x0 as [[[ls c0] v] x0]. injection Hx as <-. exists ls, c0, v, x0. rewrite Hx0. repeat split; discriminate. }
      cbn [fst snd pieces bkind bpcs own_pieces app].
      eapply flow_walk in Hx0; [|apply Hch|reflexivity| |].
      { now rewrite children_of_fst in Hx0. }
      { destruct cs; [now elim Hne|discriminate]. }
      intros Ev. now apply Hv, andb_prop in Ev.
  Qed.
End Walk.
