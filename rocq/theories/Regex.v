(** * Regex: the fragment of python [re] used by cmakelang.
    A regular expression AST with python's backtracking semantics (ordered
    choice, greedy and lazy repetition, one capture group, back-reference,
    one-character negative look-behind and look-ahead), as an executable matcher
    in continuation-passing style, plus a declarative relation. *)
From Verif Require Import Base.

Inductive re :=
| RChr (p : chr -> bool)        (* one character satisfying p *)
| REps
| RSeq (a b : re)
| RAlt (a b : re)               (* ordered choice a|b *)
| RStar (a : re)                (* greedy a* *)
| RLazy (a : re)                (* lazy a*? *)
| RGrp (a : re)                 (* capture group 1 *)
| RBack                         (* \1 *)
| RNLB (p : chr -> bool)        (* (?<!p): previous char exists and satisfies p -> fail *)
| RNLA (p : chr -> bool)        (* (?!p): next char exists and satisfies p -> fail *)
| REnd.                         (* \Z *)

Definition RPlus a := RSeq a (RStar a).
Definition ROpt a := RAlt a REps.
Fixpoint RLit (s : str) : re :=
  match s with nil => REps | c :: s' => RSeq (RChr (N.eqb c)) (RLit s') end.
Fixpoint RAlts (l : list re) : re :=
  match l with nil => RChr (fun _ => false) | [a] => a | a :: l' => RAlt a (RAlts l') end.
Fixpoint RSeqs (l : list re) : re :=
  match l with nil => REps | [a] => a | a :: l' => RSeq a (RSeqs l') end.

(** Matcher state: previous character, remaining input, captured group. *)
Record st := St { prev : option chr; rest : str; cap : str }.

Fixpoint strip_prefix (p s : str) : option str :=
  match p, s with
  | nil, _ => Some s
  | x :: p', y :: s' => if N.eqb x y then strip_prefix p' s' else None
  | _ :: _, nil => None
  end.
Definition last_or (d : option chr) (s : str) : option chr :=
  fold_left (fun _ c => Some c) s d.

(** Greedy repetition: try one more iteration (which must consume input), else
    continue. *)
Fixpoint star_loop (ma : st -> (st -> option st) -> option st)
    (k : st -> option st) (fuel : nat) (x : st) : option st :=
  match fuel with
  | O => k x
  | S f =>
      match ma x (fun y =>
              if Nat.ltb (List.length (rest y)) (List.length (rest x))
              then star_loop ma k f y else None) with
      | Some y => Some y
      | None => k x
      end
  end.
(** Lazy repetition: continue first, else one more iteration. *)
Fixpoint lazy_loop (ma : st -> (st -> option st) -> option st)
    (k : st -> option st) (fuel : nat) (x : st) : option st :=
  match k x with
  | Some y => Some y
  | None =>
      match fuel with
      | O => None
      | S f => ma x (fun y =>
              if Nat.ltb (List.length (rest y)) (List.length (rest x))
              then lazy_loop ma k f y else None)
      end
  end.

(** Backtracking matcher.  [k] is the continuation (the rest of the pattern);
    the result is the state at the end of the whole match. *)
Fixpoint m (r : re) (x : st) (k : st -> option st) {struct r} : option st :=
  match r with
  | RChr p =>
      match rest x with
      | c :: s' => if p c then k (St (Some c) s' (cap x)) else None
      | nil => None
      end
  | REps => k x
  | RSeq a b => m a x (fun y => m b y k)
  | RAlt a b => match m a x k with Some y => Some y | None => m b x k end
  | RStar a =>
      star_loop (m a) k (List.length (rest x)) x
  | RLazy a =>
      lazy_loop (m a) k (List.length (rest x)) x
  | RGrp a =>
      m a x (fun y => k (St (prev y) (rest y)
              (firstn (List.length (rest x) - List.length (rest y)) (rest x))))
  | RBack =>
      match strip_prefix (cap x) (rest x) with
      | Some s' => k (St (last_or (prev x) (cap x)) s' (cap x))
      | None => None
      end
  | RNLB p => match prev x with
              | Some c => if p c then None else k x
              | None => k x
              end
  | RNLA p => match rest x with
              | c :: _ => if p c then None else k x
              | nil => k x
              end
  | REnd => match rest x with nil => k x | _ => None end
  end.

(** [pattern.match(string, pos)]: the state after the match. *)
Definition rmatch (r : re) (pv : option chr) (s : str) : option st :=
  m r (St pv s nil) Some.

(** Declarative semantics: [r] can lead from one state to another. *)
Inductive rel : re -> st -> st -> Prop :=
| rl_chr p c s pv cp : p c = true -> rel (RChr p) (St pv (c :: s) cp) (St (Some c) s cp)
| rl_eps x : rel REps x x
| rl_seq a b x y z : rel a x y -> rel b y z -> rel (RSeq a b) x z
| rl_altl a b x y : rel a x y -> rel (RAlt a b) x y
| rl_altr a b x y : rel b x y -> rel (RAlt a b) x y
| rl_star0 a x : rel (RStar a) x x
| rl_star1 a x y z : rel a x y ->
    (List.length (rest y) < List.length (rest x))%nat ->
    rel (RStar a) y z -> rel (RStar a) x z
| rl_lazy0 a x : rel (RLazy a) x x
| rl_lazy1 a x y z : rel a x y ->
    (List.length (rest y) < List.length (rest x))%nat ->
    rel (RLazy a) y z -> rel (RLazy a) x z
| rl_grp a x y : rel a x y ->
    rel (RGrp a) x (St (prev y) (rest y)
              (firstn (List.length (rest x) - List.length (rest y)) (rest x)))
| rl_back pv s s' cp : strip_prefix cp s = Some s' ->
    rel RBack (St pv s cp) (St (last_or pv cp) s' cp)
| rl_nlb p x : (forall c, prev x = Some c -> p c = false) -> rel (RNLB p) x x
| rl_nla p x : (forall c s, rest x = c :: s -> p c = false) -> rel (RNLA p) x x
| rl_end x : rest x = nil -> rel REnd x x.

Lemma strip_prefix_app p s s' : strip_prefix p s = Some s' -> s = p ++ s'.
Proof.
  revert s; induction p as [|a p IH]; simpl; intros s H.
  - congruence.
  - destruct s as [|b s]; [discriminate|]. destruct (N.eqb a b) eqn:E; [|discriminate].
    apply N.eqb_eq in E. subst. f_equal. auto.
Qed.

(** Soundness: a successful match is witnessed by the relation. *)
Lemma m_sound r : forall x k y, m r x k = Some y -> exists z, rel r x z /\ k z = Some y.
Proof.
  induction r; intros x k y H.
  - simpl in H. destruct x as [pv s cp]; simpl in H. destruct s as [|c s]; [discriminate|].
    destruct (p c) eqn:E; [|discriminate]. eexists; split; [apply rl_chr; auto|exact H].
  - eexists; split; [apply rl_eps|exact H].
  - simpl in H. apply IHr1 in H as (z & Hz & H). apply IHr2 in H as (z' & Hz' & H).
    exists z'; split; auto. econstructor; eauto.
  - simpl in H. destruct (m r1 x k) eqn:E.
    + injection H as <-. apply IHr1 in E as (z & Hz & H). exists z; split; auto. now apply rl_altl.
    + apply IHr2 in H as (z & Hz & H). exists z; split; auto. now apply rl_altr.
  - simpl in H. generalize dependent (List.length (rest x)). intros fuel.
    revert x. induction fuel as [|f IHf]; intros x H.
    + exists x. split; [apply rl_star0|exact H].
    + simpl in H. match type of H with match ?t with _ => _ end = _ => destruct t as [y0|] eqn:E end.
      * injection H as <-. apply IHr in E as (z & Hz & E).
        destruct (Nat.ltb _ _) eqn:L; [|discriminate]. apply Nat.ltb_lt in L.
        apply IHf in E as (z' & Hz' & E). exists z'; split; auto. eapply rl_star1; eauto.
      * exists x. split; [apply rl_star0|exact H].
  - simpl in H. generalize dependent (List.length (rest x)). intros fuel.
    revert x. induction fuel as [|f IHf]; intros x H.
    + simpl in H. destruct (k x) eqn:E; [|discriminate]. exists x; split; [apply rl_lazy0|congruence].
    + simpl in H. destruct (k x) eqn:E.
      * exists x; split; [apply rl_lazy0|congruence].
      * apply IHr in H as (z & Hz & H). destruct (Nat.ltb _ _) eqn:L; [|discriminate].
        apply Nat.ltb_lt in L. apply IHf in H as (z' & Hz' & H). exists z'; split; auto.
        eapply rl_lazy1; eauto.
  - simpl in H. apply IHr in H as (z & Hz & H). eexists; split; [apply rl_grp; eauto|exact H].
  - simpl in H. destruct x as [pv s cp]; simpl in H. destruct (strip_prefix cp s) eqn:E; [|discriminate].
    eexists; split; [apply rl_back; eauto|exact H].
  - simpl in H. exists x. destruct (prev x) eqn:E.
    + destruct (p c) eqn:Ep; [discriminate|]. split; auto. apply rl_nlb. intros c' Hc. congruence.
    + split; auto. apply rl_nlb. intros c' Hc. congruence.
  - simpl in H. exists x. destruct (rest x) eqn:E.
    + split; auto. apply rl_nla. intros. congruence.
    + destruct (p c) eqn:Ep; [discriminate|]. split; auto. apply rl_nla. intros c' s' Hc. congruence.
  - simpl in H. exists x. destruct (rest x) eqn:E; [|discriminate]. split; auto. now apply rl_end.
Qed.

(** Completeness: if some path through the relation satisfies the continuation,
    the matcher finds one. *)
Lemma m_complete r : forall x z k, rel r x z -> k z <> None -> m r x k <> None.
Proof.
  induction r; intros x z k H Hk.
  - inversion H; subst. simpl. rewrite H1. auto.
  - inversion H; subst. auto.
  - inversion H; subst. simpl. eapply IHr1; [eassumption|]. cbv beta. eapply IHr2; eauto.
  - simpl. destruct (m r1 x k) eqn:E; [discriminate|].
    inversion H; subst.
    + exfalso. eapply IHr1; eauto.
    + eapply IHr2; eauto.
  - simpl.
    assert (forall n x, (List.length (rest x) <= n)%nat -> rel (RStar r) x z ->
      star_loop (m r) k n x <> None) as G.
    { induction n as [|n IHn]; intros x0 Hl H0.
      - inversion H0; subst; auto. exfalso. lia.
      - simpl. match goal with |- match ?t with _ => _ end <> _ => destruct t as [y0|] eqn:E end;
          [discriminate|].
        inversion H0; subst; auto. exfalso. revert E. eapply IHr; [eassumption|].
        cbv beta. destruct (Nat.ltb _ _) eqn:L.
        + apply IHn; auto. lia.
        + apply Nat.ltb_ge in L. lia. }
    apply G; auto.
  - simpl.
    assert (forall n x, (List.length (rest x) <= n)%nat -> rel (RLazy r) x z ->
      lazy_loop (m r) k n x <> None) as G.
    { induction n as [|n IHn]; intros x0 Hl H0.
      - simpl. destruct (k x0) eqn:E; [discriminate|]. inversion H0; subst; [contradiction|]. exfalso; lia.
      - simpl. destruct (k x0) eqn:E; [discriminate|]. inversion H0; subst; [contradiction|].
        eapply IHr; [eassumption|]. cbv beta. destruct (Nat.ltb _ _) eqn:L.
        + apply IHn; auto. lia.
        + apply Nat.ltb_ge in L. lia. }
    apply G; auto.
  - inversion H; subst. simpl. eapply IHr; eauto.
  - inversion H; subst. simpl. rewrite H0. auto.
  - inversion H as [| | | | | | | | | | |q x0 Hp| |]; subst. simpl. destruct (prev z) eqn:E; auto. rewrite Hp; auto.
  - inversion H as [| | | | | | | | | | | |q x0 Hp|]; subst. simpl. destruct (rest z) eqn:E; auto. erewrite Hp; eauto.
  - inversion H as [| | | | | | | | | | | | |x0 Hp]; subst. simpl. rewrite Hp. auto.
Qed.

Lemma rmatch_sound r pv s y : rmatch r pv s = Some y -> rel r (St pv s nil) y.
Proof. intros H. apply m_sound in H as (z & Hz & E). congruence. Qed.

(** A match only consumes a prefix. *)
Lemma rel_suffix r x y : rel r x y ->
  exists p, rest x = p ++ rest y /\ prev y = last_or (prev x) p.
Proof.
  induction 1; simpl in *;
    try (exists nil; split; reflexivity);
    try (destruct IHrel1 as (p1 & E1 & L1), IHrel2 as (p2 & E2 & L2);
         exists (p1 ++ p2); split;
         [rewrite E1, E2; now rewrite app_assoc
         |unfold last_or in *; rewrite fold_left_app, <- L1; exact L2]);
    try exact IHrel.
  - exists [c]. split; reflexivity.
  - exists cp. split; auto. now apply strip_prefix_app.
Qed.

Lemma rel_len r x y : rel r x y -> (List.length (rest y) <= List.length (rest x))%nat.
Proof. intros H. apply rel_suffix in H as (p & E & _). rewrite E, app_length. lia. Qed.

(** All characters a pattern can consume satisfy a predicate. *)
Fixpoint allc (P : chr -> Prop) (r : re) : Prop :=
  match r with
  | RChr p => forall c, p c = true -> P c
  | REps | RNLB _ | RNLA _ | REnd => True
  | RBack => False
  | RSeq a b | RAlt a b => allc P a /\ allc P b
  | RStar a | RLazy a | RGrp a => allc P a
  end.
Lemma rel_allc P r x y : rel r x y -> allc P r ->
  exists p, rest x = p ++ rest y /\ Forall P p.
Proof.
  induction 1; simpl; intros HP;
    try (exists nil; split; [reflexivity|constructor]); try contradiction.
  - exists [c]. split; auto.
  - destruct HP as [H1 H2]. destruct (IHrel1 H1) as (p1 & E1 & F1), (IHrel2 H2) as (p2 & E2 & F2).
    exists (p1 ++ p2). split; [rewrite E1, E2; apply app_assoc|]. apply Forall_app; auto.
  - apply IHrel; tauto.
  - apply IHrel; tauto.
  - destruct (IHrel1 HP) as (p1 & E1 & F1), (IHrel2 HP) as (p2 & E2 & F2).
    exists (p1 ++ p2). split; [rewrite E1, E2; apply app_assoc|]. apply Forall_app; auto.
  - destruct (IHrel1 HP) as (p1 & E1 & F1), (IHrel2 HP) as (p2 & E2 & F2).
    exists (p1 ++ p2). split; [rewrite E1, E2; apply app_assoc|]. apply Forall_app; auto.
  - auto.
Qed.

(** A pattern that always consumes at least one character. *)
Fixpoint nonempty (r : re) : bool :=
  match r with
  | RChr _ => true
  | REps | RNLB _ | RNLA _ | RBack | RStar _ | RLazy _ | REnd => false
  | RSeq a b => nonempty a || nonempty b
  | RAlt a b => nonempty a && nonempty b
  | RGrp a => nonempty a
  end.
Lemma rel_nonempty r x y : rel r x y -> nonempty r = true ->
  (List.length (rest y) < List.length (rest x))%nat.
Proof.
  induction 1; simpl; intros HN; try discriminate; auto.
  - pose proof (rel_len _ _ _ H). pose proof (rel_len _ _ _ H0).
    apply orb_prop in HN as [HN|HN]; [apply IHrel1 in HN|apply IHrel2 in HN]; lia.
  - apply andb_prop in HN as [? ?]; auto.
  - apply andb_prop in HN as [? ?]; auto.
Qed.
