(** * PropPass: the search over layout passes (C37) *)
From Verif Require Import Base Regex Lex LexProofs TextOps Tree Parse CmdSpec StdSpecs StdDb PropStd
  Layout LayoutProofs Markup Pipeline.

(** ** Specification *)
(** The passes a node may use: the configured list up to the first pass beyond
    the limit (formatter.py 553-555). *)
Fixpoint usable (limit : Z) (ps : list (Z * bool)) : list (Z * bool) :=
  match ps with
  | nil => nil
  | (p, w) :: ps' => if p <=? limit then (p, w) :: usable limit ps' else nil
  end.
(** What one pass does to a node, whatever the other passes do. *)
Definition attempt_of (e : env) (b : box) (sib : nat) (path : list str) (term : bool)
  (cur : cursor) (q : Z * bool) : res (lay * cursor) :=
  try_pass e b (children_of e (bcs b) 0) (push_path path b sib) term cur (fst q) (snd q).
Definition rejected (run : Z * bool -> res (lay * cursor)) (q : Z * bool) : Prop :=
  exists y, run q = Ok y /\ lvalid (fst y) = false.
(** [tried] are the passes that were run and rejected, [q] the one that was kept. *)
Definition kept (run : Z * bool -> res (lay * cursor)) (ps tried : list (Z * bool))
  (q : Z * bool) (x : lay * cursor) : Prop :=
  exists rest, ps = tried ++ q :: rest
    /\ Forall (rejected run) tried
    /\ run q = Ok x
    /\ (lvalid (fst x) = true \/ rest = nil).
(** The search stops with an error: no pass may be used, or a pass fails. *)
Definition failed (run : Z * bool -> res (lay * cursor)) (ps : list (Z * bool))
  (r : res (lay * cursor)) : Prop :=
  (ps = nil /\ r = Err AssertionErr)
  \/ exists tried q rest, ps = tried ++ q :: rest
       /\ Forall (rejected run) tried /\ run q = r /\ (forall x, r <> Ok x).

(** ** Proofs *)
Lemma search f limit ps : forall last,
  let run := fun q => f (fst q) (snd q) in
  let r := try_passes f limit ps last in
  (usable limit ps = nil /\ r = match last with Some x => Ok x | None => Err AssertionErr end)
  \/ (exists tried q x, kept run (usable limit ps) tried q x /\ r = Ok x)
  \/ (exists tried q rest, usable limit ps = tried ++ q :: rest
        /\ Forall (rejected run) tried /\ run q = r /\ (forall x, r <> Ok x)).
Proof.
  induction ps as [|[p w] ps IH]; intros last; cbn zeta; cbn [usable try_passes]; [now left|].
  destruct (p <=? limit) eqn:E.
  2:{ left. split; [reflexivity|]. replace (p >? limit) with true by lia. reflexivity. }
  replace (p >? limit) with false by lia. right.
  destruct (f p w) as [x|er|] eqn:Ef; cbn.
  - destruct (lvalid (fst x)) eqn:Ev.
    + left. exists nil, (p, w), x. split; [|reflexivity]. exists (usable limit ps).
      repeat split; auto.
    + assert (Hr : rejected (fun q => f (fst q) (snd q)) (p, w)) by (exists x; auto).
      specialize (IH (Some x)). cbn zeta in IH.
      destruct IH as [[U R]|[(tried & q & y & (rest & K1 & K2 & K3 & K4) & R)|(tried & q & rest & K1 & K2 & K3 & K4)]].
      * left. exists nil, (p, w), x. split; [|exact R]. exists nil. rewrite U. repeat split; auto.
      * left. exists ((p, w) :: tried), q, y. split; [|exact R]. exists rest. rewrite K1.
        repeat split; auto.
      * right. exists ((p, w) :: tried), q, rest. rewrite K1. repeat split; auto.
  - right. exists nil, (p, w), (usable limit ps). repeat split; auto. discriminate.
  - right. exists nil, (p, w), (usable limit ps). repeat split; auto. discriminate.
Qed.

(** Two traces of the same search are the same. *)
Lemma trace_unique run ps tried q rest tried' q' rest' :
  ps = tried ++ q :: rest -> ps = tried' ++ q' :: rest' ->
  Forall (rejected run) tried -> Forall (rejected run) tried' ->
  (rejected run q -> rest = nil) -> (rejected run q' -> rest' = nil) ->
  tried = tried' /\ q = q' /\ rest = rest'.
Proof.
  revert ps tried'. induction tried as [|a tried IH]; intros ps tried' E E' F F' L L'; subst ps.
  - destruct tried' as [|a' tried']; cbn in E'; inversion E'; subst; auto.
    exfalso. specialize (L (Forall_inv F')). destruct tried'; discriminate L.
  - destruct tried' as [|a' tried']; cbn in E'; inversion E'; subst.
    + exfalso. specialize (L' (Forall_inv F)). destruct tried; discriminate L'.
    + destruct (IH _ tried' eq_refl H1 (Forall_inv_tail F) (Forall_inv_tail F') L L') as (-> & -> & ->). auto.
Qed.
Lemma kept_last run ps tried q x rest :
  ps = tried ++ q :: rest -> run q = Ok x -> (lvalid (fst x) = true \/ rest = nil) ->
  rejected run q -> rest = nil.
Proof. intros _ R [V|N] (y & E & V'); auto. congruence. Qed.

(** Every run of [reflow] on every node, with every pass list, is a search: the
    result is that of the first pass accepted, or of the last usable one if none is. *)
Theorem C37_search e b sib path term cur passno x :
  reflow e b sib path term cur passno = Ok x
  <-> exists tried q,
        kept (attempt_of e b sib path term cur)
             (usable (pass_limit (bkind b) passno) (node_passes (cfg e) (bkind b))) tried q x.
Proof.
  destruct b as [k p cs]. rewrite reflow_eq. cbn [bkind].
  set (run := attempt_of e (B k p cs) sib path term cur).
  set (f := try_pass e (B k p cs) (children_of e cs 0) (push_path path (B k p cs) sib) term cur).
  pose proof (search f (pass_limit k passno) (node_passes (cfg e) k) None) as S. cbn zeta in S.
  change (fun q => f (fst q) (snd q)) with run in S.
  split.
  - intros H. rewrite H in S. destruct S as [[_ S]|[(tried & q & y & K & S)|(t & q & r & _ & _ & _ & S)]].
    + discriminate S.
    + inversion S; subst. eauto.
    + now elim (S x).
  - intros (tried & q & rest & K1 & K2 & K3 & K4).
    destruct S as [[S _]|[(tr & q2 & y & (rest2 & M1 & M2 & M3 & M4) & S)|(tr & q2 & rest2 & M1 & M2 & M3 & M4)]].
    + rewrite S in K1. destruct tried; discriminate K1.
    + rewrite S. destruct (trace_unique run _ _ _ _ _ _ _ K1 M1 K2 M2) as (_ & E & _).
      * exact (kept_last _ _ _ _ _ _ K1 K3 K4).
      * exact (kept_last _ _ _ _ _ _ M1 M3 M4).
      * subst q2. congruence.
    + destruct (trace_unique run _ _ _ _ _ _ _ K1 M1 K2 M2) as (_ & E & _).
      * exact (kept_last _ _ _ _ _ _ K1 K3 K4).
      * intros (y & Y & _). rewrite M3 in Y. now elim (M4 y).
      * subst q2. rewrite K3 in M3. now elim (M4 x).
Qed.

(** The passes that are run, and no more of them than are configured. *)
Lemma usable_length limit ps : (List.length (usable limit ps) <= List.length ps)%nat.
Proof. induction ps as [|[p w] ps IH]; cbn; [lia|]. destruct (p <=? limit); cbn; lia. Qed.
Lemma usable_le limit ps : Forall (fun r => fst r <= limit) (usable limit ps).
Proof.
  induction ps as [|[a w] l IH]; cbn; [constructor|].
  destruct (a <=? limit) eqn:E; constructor; auto. cbn. lia.
Qed.
Theorem C37_bound e b sib path term cur passno x tried q :
  reflow e b sib path term cur passno = Ok x ->
  kept (attempt_of e b sib path term cur)
       (usable (pass_limit (bkind b) passno) (node_passes (cfg e) (bkind b))) tried q x ->
  (List.length (tried ++ [q]) <= List.length (node_passes (cfg e) (bkind b)))%nat
  /\ Forall (fun r => fst r <= pass_limit (bkind b) passno) (tried ++ [q])
  /\ lpass (fst x) = fst q.
Proof.
  intros _ (rest & K1 & _ & K3 & _). repeat split.
  - etransitivity; [|apply (usable_length (pass_limit (bkind b) passno))]. rewrite K1, !app_length.
    cbn. lia.
  - pose proof (usable_le (pass_limit (bkind b) passno) (node_passes (cfg e) (bkind b))) as U.
    rewrite K1 in U. apply Forall_app in U as [U1 U2]. apply Forall_app. split; auto.
    constructor; [|constructor]. exact (Forall_inv U2).
  - unfold attempt_of, try_pass in K3. apply bindr_ok in K3 as (a & _ & K3). now inversion K3.
Qed.

(** If the search fails, no pass could be used or the pass that was run last failed. *)
Theorem C37_error e b sib path term cur passno :
  (forall x, reflow e b sib path term cur passno <> Ok x)
  -> failed (attempt_of e b sib path term cur)
       (usable (pass_limit (bkind b) passno) (node_passes (cfg e) (bkind b)))
       (reflow e b sib path term cur passno).
Proof.
  destruct b as [k p cs]. intros H. rewrite reflow_eq in *. cbn [bkind] in *.
  pose proof (search (try_pass e (B k p cs) (children_of e cs 0) (push_path path (B k p cs) sib) term cur)
                (pass_limit k passno) (node_passes (cfg e) k) None) as S. cbn zeta in S.
  destruct S as [[U R]|[(tried & q & y & _ & R)|(tried & q & rest & K1 & K2 & K3 & K4)]].
  - left. auto.
  - now elim (H y).
  - right. exists tried, q, rest. auto.
Qed.

(** With the built-in pass lists every node has a usable pass. *)
Theorem C37_default_usable e k passno :
  f_passes (cfg e) = nil -> 0 <= passno ->
  usable (pass_limit k passno) (node_passes (cfg e) k) <> nil.
Proof.
  intros H P. unfold node_passes. rewrite H. cbn [passes_lookup].
  destruct k; cbn [default_passes usable pass_limit];
    try (replace (0 <=? passno) with true by lia); cbn; discriminate.
Qed.

(** ** Examples *)
Definition ex_toks : list token :=
  match tokenize (nl [$"foofoofoofoo(aaaaaaaaa bbbbbbbbb ccccccccc)"]) with Ok t => t | _ => nil end.
Definition ex_stmt : box :=
  match parse the_ctx ex_toks with
  | Ok n => match bcs (lock false (create_box n)) with b :: _ => b | nil => B KBody nil nil end
  | _ => B KBody nil nil
  end.
Definition slim (w : Z) (ps : list (str * list (Z * bool))) : env :=
  Env (FCfg w 2 2 6 2 2 4 10 false false false $"prefix" false $"unchanged"
         (fun _ => $"canonical") lower nil ps [cNL]) (format_comment default_mcfg None).
Definition outcome (r : res (lay * cursor)) : option (Z * bool) :=
  match r with Ok (l, _) => Some (lpass l, lvalid l) | _ => None end.
(** The first pass is kept, a later one is, none is. *)
Example search_ex :
  is_statement_k (bkind ex_stmt) = true
  /\ outcome (reflow (slim 80 nil) ex_stmt 0 nil false (Cur 0 0) 0) = Some (0, true)
  /\ outcome (reflow (slim 20 nil) ex_stmt 0 nil false (Cur 0 0) 0) = Some (1, true)
  /\ outcome (reflow (slim 5 nil) ex_stmt 0 nil false (Cur 0 0) 0) = Some (5, false).
Proof. vm_compute. auto. Qed.
(** A pass list in the configuration that starts beyond the limit makes the search fail. *)
Example search_ex_empty :
  reflow (slim 80 [($"StatementNode", [(6, false)])]) ex_stmt 0 nil false (Cur 0 0) 0
  = Err AssertionErr.
Proof. vm_compute. reflexivity. Qed.

Print Assumptions C37_search.
Print Assumptions C37_bound.
Print Assumptions C37_error.
Print Assumptions C37_default_usable.
