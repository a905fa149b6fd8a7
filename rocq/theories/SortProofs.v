(** * SortProofs: the argument sort (C31, C32) *)
From Verif Require Import Base Regex Lex TextOps Tree Layout.
From Coq Require Import Permutation Sorted.

(** ** Facts about the insertion sort standing for python's [sorted] *)
Section Sort.
  Context {A : Type} (le : A -> A -> bool).
  Hypothesis le_total : forall a b, le a b = true \/ le b a = true.
  Hypothesis le_trans : forall a b c, le a b = true -> le b c = true -> le a c = true.

  Lemma insert_perm a l : Permutation (a :: l) (insert le a l).
  Proof.
    induction l as [|x l IH]; simpl; [reflexivity|]. destruct (le a x); [reflexivity|].
    rewrite perm_swap. now constructor.
  Qed.
  Lemma isort_perm l : Permutation l (isort le l).
  Proof. induction l as [|a l IH]; simpl; [reflexivity|]. rewrite <- insert_perm. now constructor. Qed.
  Lemma insert_sorted a l : StronglySorted (fun x y => le x y = true) l ->
    StronglySorted (fun x y => le x y = true) (insert le a l).
  Proof.
    induction 1 as [|x l Hs IH Hf]; simpl.
    - constructor; constructor.
    - destruct (le a x) eqn:E.
      + constructor; [constructor; auto|]. constructor; auto.
        eapply Forall_impl; [|exact Hf]. simpl. intros y Hy. eauto.
      + constructor; auto. apply Forall_forall. intros y Hy.
        assert (In y (a :: l)) as Hin by (eapply Permutation_in; [symmetry; apply insert_perm|exact Hy]).
        destruct Hin as [<-|Hin]; [destruct (le_total a x); congruence|].
        rewrite Forall_forall in Hf. auto.
  Qed.
  Lemma isort_sorted l : StronglySorted (fun x y => le x y = true) (isort le l).
  Proof. induction l; simpl; [constructor|]. now apply insert_sorted. Qed.
  (** equal elements keep their order *)
  Lemma insert_filter p a l :
    (forall x y, p x = true -> p y = true -> le x y = true) ->
    filter p (insert le a l) = filter p (a :: l).
  Proof.
    intros Hp. induction l as [|x l IH]; simpl; [reflexivity|].
    destruct (le a x) eqn:E; [reflexivity|]. simpl. rewrite IH. simpl.
    destruct (p a) eqn:Ea, (p x) eqn:Ex; auto. rewrite (Hp a x) in E by auto. discriminate.
  Qed.
  Lemma isort_filter p l : (forall x y, p x = true -> p y = true -> le x y = true) ->
    filter p (isort le l) = filter p l.
  Proof.
    intros Hp. induction l as [|a l IH]; simpl; [reflexivity|].
    rewrite insert_filter by auto. simpl. now rewrite IH.
  Qed.
  Lemma isort_id l : StronglySorted (fun x y => le x y = true) l -> isort le l = l.
  Proof.
    induction 1 as [|x l Hs IH Hf]; simpl; [reflexivity|]. rewrite IH.
    destruct l as [|y l]; [reflexivity|]. simpl. apply Forall_inv in Hf. now rewrite Hf.
  Qed.
  (** a list sorted without ties is the only sorted arrangement *)
  Lemma sorted_unique l : forall m,
    StronglySorted (fun x y => le x y = true /\ le y x = false) l ->
    StronglySorted (fun x y => le x y = true) m -> Permutation l m -> l = m.
  Proof.
    induction l as [|a l IH]; intros m Hl Hm Hp.
    - apply Permutation_nil in Hp. now subst.
    - destruct m as [|b m]; [symmetry in Hp; now apply Permutation_nil in Hp|].
      inversion Hl as [|? ? Hl1 Hl2]; subst. inversion Hm as [|? ? Hm1 Hm2]; subst.
      assert (a = b) as ->.
      { assert (In b (a :: l)) as [->|Hb] by (eapply Permutation_in; [symmetry; exact Hp|now left]); auto.
        assert (In a (b :: m)) as [->|Ha] by (eapply Permutation_in; [exact Hp|now left]); auto.
        rewrite Forall_forall in Hl2, Hm2. apply Hl2 in Hb as [_ Hb]. apply Hm2 in Ha. congruence. }
      f_equal. apply IH; auto. eapply Permutation_cons_inv; eauto.
  Qed.
End Sort.

Lemma isort_map {A B} (f : A -> B) (le : B -> B -> bool) l :
  isort le (map f l) = map f (isort (fun x y => le (f x) (f y)) l).
Proof.
  induction l as [|a l IH]; simpl; [reflexivity|]. rewrite IH. clear IH.
  generalize (isort (fun x y => le (f x) (f y)) l) as m. intros m.
  induction m as [|b m IH]; simpl; [reflexivity|]. destruct (le (f a) (f b)); [reflexivity|].
  simpl. now rewrite IH.
Qed.

Lemma str_leb_total a : forall b, str_leb a b = true \/ str_leb b a = true.
Proof.
  induction a as [|x a IH]; intros [|y b]; simpl; auto.
  destruct (x <? y)%N eqn:E1; auto. destruct (y <? x)%N eqn:E2; auto.
Qed.
Lemma str_leb_cons x a y b : str_leb (x :: a) (y :: b) = true <->
  (x < y)%N \/ (x = y /\ str_leb a b = true).
Proof.
  simpl. destruct (N.ltb_spec x y) as [H|H]; [split; auto|].
  destruct (N.ltb_spec y x) as [H2|H2].
  - split; [discriminate|]. intros [A|[A _]]; [exfalso; exact (N.lt_asymm _ _ A H2)|].
    subst. exfalso. exact (N.lt_irrefl _ H2).
  - assert (x = y) by (apply N.le_antisymm; assumption). split; [auto|].
    intros [A|[_ A]]; [|exact A]. subst. exfalso. exact (N.lt_irrefl _ A).
Qed.
Lemma str_leb_trans a : forall b c, str_leb a b = true -> str_leb b c = true -> str_leb a c = true.
Proof.
  induction a as [|x a IH]; intros [|y b] [|z c]; auto; try discriminate.
  rewrite !str_leb_cons. intros [A|[A A']] [C|[C C']]; subst; auto.
  - left. exact (N.lt_trans _ _ _ A C).
  - right. eauto.
Qed.
Lemma str_leb_antisym a : forall b, str_leb a b = true -> str_leb b a = true -> a = b.
Proof.
  induction a as [|x a IH]; intros [|y b]; auto; try discriminate.
  rewrite !str_leb_cons. intros [A|[A A']] [C|[C C']]; subst.
  - exfalso. exact (N.lt_asymm _ _ A C).
  - exfalso. exact (N.lt_irrefl _ A).
  - exfalso. exact (N.lt_irrefl _ C).
  - f_equal. auto.
Qed.

(** ** Specification: leading items, then one block per argument *)
Section Blocks.
  Context {A : Type} (isarg : A -> bool).
  Fixpoint blocks (l : list A) : list A * list (list A) :=
    match l with
    | nil => (nil, nil)
    | a :: l' => let '(p, bs) := blocks l' in
                 if isarg a then (nil, (a :: p) :: bs) else (a :: p, bs)
    end.
  Definition is_block (b : list A) : Prop :=
    exists a r, b = a :: r /\ isarg a = true /\ Forall (fun x => isarg x = false) r.
  Lemma blocks_spec l :
    fst (blocks l) ++ concat (snd (blocks l)) = l
    /\ Forall (fun x => isarg x = false) (fst (blocks l)) /\ Forall is_block (snd (blocks l)).
  Proof.
    induction l as [|a l (IH1 & IH2 & IH3)]; simpl; [repeat constructor|].
    destruct (blocks l) as [p bs]. simpl in *. destruct (isarg a) eqn:E; simpl.
    - split; [now rewrite IH1|]. split; [constructor|]. constructor; auto. exists a, p. auto.
    - split; [now rewrite IH1|]. split; [constructor; auto|auto].
  Qed.
  Lemma blocks_unique p bs : Forall (fun x => isarg x = false) p -> Forall is_block bs ->
    blocks (p ++ concat bs) = (p, bs).
  Proof.
    intros Hp Hb. induction Hp as [|a p Ha _ IH]; simpl.
    - induction Hb as [|b bs (a & r & -> & Ha & Hr) _ IH]; [reflexivity|]. simpl.
      assert (blocks (r ++ concat bs) = (r, bs)) as ->; [|now rewrite Ha].
      induction Hr as [|x r Hx _ IHr]; simpl; [exact IH|]. rewrite IHr, Hx. reflexivity.
    - rewrite IH, Ha. reflexivity.
  Qed.
End Blocks.

Definition b_isarg (b : box) : bool := is_argument_k (bkind b).
Definition block_key (b : list box) : str := match b with a :: _ => sort_key a | nil => nil end.
Definition block_leb (x y : list box) : bool := str_leb (block_key x) (block_key y).

(** numbered items *)
Definition n_isarg (x : nat * box) : bool := is_argument_k (bkind (snd x)).
Definition nhd (b : list (nat * box)) : nat * box := hd (0%nat, B KBody nil nil) b.

Lemma number_snd {A} (l : list A) : forall i, map snd (number i l) = l.
Proof. induction l; intros i; simpl; [reflexivity|]. now rewrite IHl. Qed.
Lemma number_fst {A} (l : list A) : forall i, map fst (number i l) = seq i (length l).
Proof. induction l; intros i; simpl; [reflexivity|]. now rewrite IHl. Qed.

Lemma filter_blocks {A} (p : A -> bool) l d :
  filter p l = map (hd d) (snd (blocks p l)).
Proof.
  induction l as [|a l IH]; simpl; [reflexivity|]. destruct (blocks p l) as [q bs]. simpl in IH.
  destruct (p a); simpl; now rewrite IH.
Qed.
Lemma blocks_map {A B} (f : A -> B) (p : B -> bool) l :
  blocks p (map f l) = (map f (fst (blocks (fun x => p (f x)) l)),
                        map (map f) (snd (blocks (fun x => p (f x)) l))).
Proof.
  induction l as [|a l IH]; simpl; [reflexivity|]. rewrite IH.
  destruct (blocks (fun x => p (f x)) l) as [q bs]. simpl. destruct (p (f a)); reflexivity.
Qed.

(** the keys handed out inside one block *)
Fixpoint tag (k p : Z) (l : list (nat * box)) : list (Z * Z * box) :=
  match l with nil => nil | x :: l' => (k, p, snd x) :: tag k (p + 1) l' end.
Lemma tag_snd l : forall k p, map snd (tag k p l) = map snd l.
Proof. induction l; intros; simpl; [reflexivity|]. now rewrite IHl. Qed.
Lemma tag_in l : forall k p y, In y (tag k p l) -> fst (fst y) = k /\ p <= snd (fst y).
Proof.
  induction l as [|a l IH]; simpl; intros k p y H; [tauto|]. destruct H as [<-|H]; simpl; [split; [reflexivity|lia]|].
  apply IH in H as [A B]. split; auto. lia.
Qed.

Lemma rank_none i l : forall n, ~ In i (map fst l) -> rank i n l = None.
Proof.
  induction l as [|[j b] l IH]; simpl; intros n H; [reflexivity|].
  destruct (Nat.eqb_spec i j); [subst; tauto|]. apply IH. tauto.
Qed.
Definition rk (sorted : list (nat * box)) (i : nat) : Z :=
  match rank i 0 sorted with Some k => k | None => 0 end.

Lemma sort_keys_plain sorted p : forall k i rest,
  Forall (fun x => ~ In (fst x) (map fst sorted)) p ->
  sort_keys sorted k i (p ++ rest) = tag k i p ++ sort_keys sorted k (i + zlen p) rest.
Proof.
  induction p as [|[j b] p IH]; intros k i rest H; simpl.
  - change (zlen nil) with 0. now rewrite Z.add_0_r.
  - inversion H as [|? ? H1 H2]; subst. simpl in H1. rewrite rank_none by auto.
    rewrite IH by auto. rewrite zlen_cons. f_equal. f_equal. f_equal. lia.
Qed.
Lemma sort_keys_blocks sorted bs : forall k i,
  Forall (fun b => exists a r, b = a :: r /\ (exists z, rank (fst a) 0 sorted = Some z) /\
                     Forall (fun x => ~ In (fst x) (map fst sorted)) r) bs ->
  sort_keys sorted k i (concat bs) =
  concat (map (fun b => tag (rk sorted (fst (nhd b))) 0 b) bs).
Proof.
  induction bs as [|b bs IH]; intros k i H; simpl; [reflexivity|].
  inversion H as [|? ? ([j x] & r & -> & (z & Hz) & Hr) H2]; subst. simpl in *.
  rewrite Hz. rewrite sort_keys_plain by auto. rewrite IH by auto.
  assert (rk sorted j = z) as -> by (unfold rk; now rewrite Hz). reflexivity.
Qed.

(** ranks of the items of a list without repetitions *)
Lemma rank_app l : forall i n m z, ~ In i (map fst l) -> rank i n (l ++ z :: m) =
  if Nat.eqb i (fst z) then Some (n + zlen l + 1) else rank i (n + zlen l + 1) m.
Proof.
  induction l as [|[j b] l IH]; intros i n m [zi zb] H; simpl.
  - change (zlen nil) with 0. rewrite Z.add_0_r. reflexivity.
  - simpl in H. destruct (Nat.eqb_spec i j); [subst; tauto|]. rewrite IH by tauto. rewrite zlen_cons.
    simpl. replace (n + 1 + zlen l + 1) with (n + (zlen l + 1) + 1) by lia. reflexivity.
Qed.

Fixpoint tags (n : Z) (bs : list (list (nat * box))) : list (Z * Z * box) :=
  match bs with nil => nil | b :: bs' => tag n 0 b ++ tags (n + 1) bs' end.
Lemma tags_rank bs : forall pre,
  NoDup (map (fun b => fst (nhd b)) (pre ++ bs)) ->
  concat (map (fun b => tag (rk (map nhd (pre ++ bs)) (fst (nhd b))) 0 b) bs)
  = tags (1 + zlen pre) bs.
Proof.
  induction bs as [|b bs IH]; intros pre Hn; simpl; [reflexivity|]. f_equal.
  - f_equal. unfold rk. rewrite map_app. simpl. rewrite rank_app.
    + rewrite Nat.eqb_refl. unfold zlen. rewrite map_length. lia.
    + rewrite map_map. rewrite map_app in Hn. simpl in Hn. apply NoDup_remove_2 in Hn.
      intros A. apply Hn. apply in_or_app. now left.
  - specialize (IH (pre ++ [b])). rewrite <- app_assoc in IH. simpl in IH. rewrite IH by exact Hn.
    f_equal. rewrite zlen_app. change (zlen [b]) with 1. lia.
Qed.

Definition pair_lt (x y : Z * Z * box) : Prop := pair_leb x y = true /\ pair_leb y x = false.
Lemma pair_lt_iff x y : pair_lt x y <->
  fst (fst x) < fst (fst y) \/ (fst (fst x) = fst (fst y) /\ snd (fst x) < snd (fst y)).
Proof. destruct x as [[a b] c], y as [[a' b'] c']. unfold pair_lt, pair_leb. simpl. lia. Qed.
Lemma tag_sorted l : forall k p, StronglySorted pair_lt (tag k p l).
Proof.
  induction l as [|a l IH]; intros k p; simpl; constructor; auto.
  apply Forall_forall. intros y Hy. apply tag_in in Hy as [A B]. rewrite pair_lt_iff. simpl. lia.
Qed.
Lemma sorted_app {A} (R : A -> A -> Prop) l m : StronglySorted R l -> StronglySorted R m ->
  (forall x y, In x l -> In y m -> R x y) -> StronglySorted R (l ++ m).
Proof.
  induction 1 as [|a l Hs IH Hf]; simpl; intros Hm Hx; [assumption|].
  constructor.
  - apply IH; auto.
  - apply Forall_app. split; [assumption|]. apply Forall_forall. auto.
Qed.
Lemma tags_in bs : forall n y, In y (tags n bs) -> n <= fst (fst y).
Proof.
  induction bs as [|b bs IH]; simpl; intros n y H; [tauto|]. apply in_app_or in H as [H|H].
  - apply tag_in in H. lia.
  - apply IH in H. lia.
Qed.
Lemma tags_sorted bs : forall n, StronglySorted pair_lt (tags n bs).
Proof.
  induction bs as [|b bs IH]; intros n; simpl; [constructor|].
  apply sorted_app; auto using tag_sorted. intros x y Hx Hy. apply tag_in in Hx. apply tags_in in Hy.
  rewrite pair_lt_iff. lia.
Qed.
Lemma tags_snd bs : forall n, map snd (tags n bs) = concat (map (map snd) bs).
Proof. induction bs; intros n; simpl; [reflexivity|]. now rewrite map_app, tag_snd, IHbs. Qed.

Lemma Permutation_concat {A} (l m : list (list A)) : Permutation l m -> Permutation (concat l) (concat m).
Proof.
  induction 1; simpl; auto.
  - now apply Permutation_app_head.
  - rewrite !app_assoc. apply Permutation_app_tail, Permutation_app_comm.
  - etransitivity; eauto.
Qed.
Lemma concat_map_NoDup {A} (f : A -> nat) (bs : list (list A)) (p : list A) d :
  NoDup (map f (p ++ concat bs)) -> Forall (fun b => b <> nil) bs ->
  NoDup (map (fun b => f (hd d b)) bs)
  /\ (forall x, In x p -> ~ In (f x) (map (fun b => f (hd d b)) bs))
  /\ Forall (fun b => forall x, In x (tl b) -> ~ In (f x) (map (fun b => f (hd d b)) bs)) bs.
Proof.
  revert p. induction bs as [|b bs IH]; intros p Hn Hf.
  - simpl. repeat split; auto; constructor.
  - inversion Hf as [|? ? Hb Hf']; subst. destruct b as [|a r]; [congruence|].
    simpl in Hn. specialize (IH (p ++ a :: r)). rewrite <- app_assoc in IH.
    destruct (IH Hn Hf') as (N1 & N2 & N3). simpl.
    assert (Hna : ~ In (f a) (map f p) /\ ~ In (f a) (map f r)).
    { rewrite map_app in Hn. simpl in Hn. apply NoDup_remove_2 in Hn. rewrite map_app in Hn.
      split; intros HA; apply Hn; apply in_or_app; [now left|right]. apply in_or_app; now left. }
    split; [|split].
    + constructor; auto. apply N2. apply in_or_app. right. now left.
    + intros x Hx [E|E]; [|eapply N2; [apply in_or_app; left; exact Hx|exact E]].
      destruct Hna as [Hna _]. apply Hna. rewrite E. now apply in_map.
    + constructor.
      * intros x Hx [E|E]; [destruct Hna as [_ Hna]; apply Hna; rewrite E; now apply in_map|].
        eapply N2; [apply in_or_app; right; right; exact Hx|exact E].
      * rewrite Forall_forall in N3 |- *. intros b Hb' x Hx [E|E]; [|eapply N3; eauto].
        rewrite map_app in Hn. simpl in Hn. apply NoDup_remove_2 in Hn. apply Hn.
        apply in_or_app. right. rewrite map_app. apply in_or_app. right. rewrite E. apply in_map.
        apply in_concat. exists b. split; [exact Hb'|]. destruct b; [destruct Hx|now right].
Qed.

(** the model sorts the blocks *)
Theorem sort_arguments_blocks cs :
  sort_arguments cs = fst (blocks b_isarg cs) ++ concat (isort block_leb (snd (blocks b_isarg cs))).
Proof.
  unfold sort_arguments. cbn zeta.
  set (l := number 0 cs).
  change (fun x : nat * box => is_argument_k (bkind (snd x))) with n_isarg.
  destruct (blocks n_isarg l) as [p bs] eqn:Eb.
  pose proof (blocks_spec n_isarg l) as (S1 & S2 & S3). rewrite Eb in S1, S2, S3. cbn [fst snd] in *.
  assert (Hb : blocks b_isarg cs = (map snd p, map (map snd) bs)).
  { unfold l in Eb. rewrite <- (number_snd cs 0) at 1. rewrite blocks_map.
    change (fun x => b_isarg (snd x)) with n_isarg. now rewrite Eb. }
  rewrite Hb. cbn [fst snd].
  assert (Hargs : filter n_isarg l = map nhd bs).
  { rewrite (filter_blocks n_isarg l (0%nat, B KBody nil nil)), Eb. reflexivity. }
  rewrite Hargs. rewrite isort_map.
  set (nle := fun x y : list (nat * box) => str_leb (sort_key (snd (nhd x))) (sort_key (snd (nhd y)))).
  set (sb := isort nle bs).
  assert (Hperm : Permutation bs sb) by apply isort_perm.
  assert (Hne : Forall (fun b : list (nat * box) => b <> nil) bs).
  { eapply Forall_impl; [|exact S3]. simpl. intros b (a & r & -> & _). discriminate. }
  assert (Hnd : NoDup (map fst (p ++ concat bs))).
  { rewrite S1. unfold l. rewrite number_fst. apply seq_NoDup. }
  destruct (concat_map_NoDup fst bs p (0%nat, B KBody nil nil) Hnd Hne) as (N1 & N2 & N3).
  change (fun b => fst (hd (0%nat, B KBody nil nil) b)) with (fun b => fst (nhd b)) in *.
  set (sorted := map nhd sb).
  assert (Hin : forall i, In i (map fst sorted) -> In i (map (fun b => fst (nhd b)) bs)).
  { intros i Hi. unfold sorted in Hi. rewrite map_map in Hi.
    eapply Permutation_in; [|exact Hi]. apply Permutation_map. now symmetry. }
  assert (Hkeys : sort_keys sorted 0 0 l =
     tag 0 0 p ++ concat (map (fun b => tag (rk sorted (fst (nhd b))) 0 b) bs)).
  { rewrite <- S1 at 1. rewrite sort_keys_plain.
    2:{ apply Forall_forall. intros x Hx A. apply (N2 x Hx). auto. }
    f_equal. apply sort_keys_blocks.
    apply Forall_forall. intros b Hb'. rewrite Forall_forall in S3, N3.
    destruct (S3 b Hb') as (a & r & -> & _ & _). exists a, r. split; [reflexivity|]. split.
    - assert (In (a :: r) sb) as Hs by (eapply Permutation_in; eauto).
      apply in_split in Hs as (u & v & Hs). unfold sorted. rewrite Hs, map_app. simpl.
      rewrite rank_app; [rewrite Nat.eqb_refl; eauto|].
      assert (NoDup (map (fun b => fst (nhd b)) sb)) as Hn'.
      { eapply Permutation_NoDup; [apply Permutation_map; exact Hperm|exact N1]. }
      rewrite Hs, map_app in Hn'. simpl in Hn'. apply NoDup_remove_2 in Hn'.
      rewrite map_map. intros A. apply Hn'. apply in_or_app. now left.
    - apply Forall_forall. intros x Hx A. apply (N3 _ Hb' x Hx). auto. }
  rewrite Hkeys.
  assert (Ht : concat (map (fun b => tag (rk sorted (fst (nhd b))) 0 b) sb) = tags 1 sb).
  { apply (tags_rank sb nil). simpl.
    eapply Permutation_NoDup; [apply Permutation_map; exact Hperm|exact N1]. }
  assert (Hsorted : StronglySorted pair_lt (tag 0 0 p ++ tags 1 sb)).
  { apply sorted_app; [apply tag_sorted|apply tags_sorted|]. intros x y Hx Hy.
    apply tag_in in Hx. apply tags_in in Hy. rewrite pair_lt_iff. lia. }
  rewrite <- (sorted_unique pair_leb (tag 0 0 p ++ tags 1 sb)
    (isort pair_leb (tag 0 0 p ++ concat (map (fun b => tag (rk sorted (fst (nhd b))) 0 b) bs)))).
  - rewrite map_app, tag_snd, tags_snd. f_equal. f_equal. rewrite isort_map. f_equal.
    unfold sb.
    assert (forall x y, In x bs -> In y bs -> nle x y = block_leb (map snd x) (map snd y)) as Hext.
    { intros x y Hx Hy. rewrite Forall_forall in Hne. apply Hne in Hx. apply Hne in Hy.
      destruct x as [|[? ?] ?]; [congruence|]. destruct y as [|[? ?] ?]; [congruence|]. reflexivity. }
    assert (Hgen : forall l', (forall x, In x l' -> In x bs) ->
       isort nle l' = isort (fun x y => block_leb (map snd x) (map snd y)) l').
    { induction l' as [|a l' IH]; intros Hsub; simpl; [reflexivity|].
      rewrite IH by (intros; apply Hsub; now right).
      assert (forall x, In x (isort (fun x y => block_leb (map snd x) (map snd y)) l') -> In x bs) as Hm.
      { intros x Hx. apply Hsub. right. eapply Permutation_in; [symmetry; apply isort_perm|exact Hx]. }
      revert Hm. generalize (isort (fun x y => block_leb (map snd x) (map snd y)) l') as m.
      induction m as [|b m IHm]; intros Hm; simpl; [reflexivity|].
      rewrite (Hext a b); [|apply Hsub; now left|apply Hm; now left].
      destruct (block_leb _ _); [reflexivity|]. f_equal. apply IHm. intros; apply Hm. now right. }
    now apply Hgen.
  - exact Hsorted.
  - apply isort_sorted.
    + intros [[a b] c] [[a' b'] c']. unfold pair_leb. lia.
    + intros [[a b] c] [[a' b'] c'] [[a'' b''] c'']. unfold pair_leb. lia.
  - etransitivity; [|apply isort_perm]. apply Permutation_app_head. rewrite <- Ht.
    apply Permutation_concat, Permutation_map. now symmetry.
Qed.
