(** * PropSort: C31, C32 *)
From Verif Require Import Base Regex Lex TextOps Tree Layout SortProofs.
From Coq Require Import Permutation Sorted.

(** C31.  The children of a sortable group are leading items (comments, flags,
    ...) followed by blocks: an argument with the items up to the next argument.
    Sorting keeps the leading items in front and permutes whole blocks; the
    lower-cased spellings are then in code point order, and blocks with equal
    keys keep their order. *)
(** the key: the spelling of the argument's own token with A-Z folded to a-z *)
Definition folded (s : str) : str := map (fun c => if (65 <=? c)%N && (c <=? 90)%N then (c + 32)%N else c) s.
Definition key_of (b : list box) : str :=
  match b with
  | B _ (T t :: _) _ :: _ => folded (spelling t)
  | _ => nil
  end.
Lemma block_key_of b : block_key b = key_of b.
Proof. destruct b as [|[k [|[t|] p] cs] b]; reflexivity. Qed.
Definition key_le (x y : list box) : Prop := str_leb (key_of x) (key_of y) = true.
Theorem C31_sort_blocks cs : exists lead bs bs',
  cs = lead ++ concat bs /\ Forall (fun x => is_argument_k (bkind x) = false) lead
  /\ Forall (fun b => exists a r, b = a :: r /\ is_argument_k (bkind a) = true
                      /\ Forall (fun x => is_argument_k (bkind x) = false) r) bs
  /\ sort_arguments cs = lead ++ concat bs'
  /\ Permutation bs bs' /\ StronglySorted key_le bs'
  /\ (forall key, filter (fun b => seqb (key_of b) key) bs'
                  = filter (fun b => seqb (key_of b) key) bs).
Proof.
  destruct (blocks_spec b_isarg cs) as (S1 & S2 & S3).
  exists (fst (blocks b_isarg cs)), (snd (blocks b_isarg cs)),
    (isort block_leb (snd (blocks b_isarg cs))).
  split; [now symmetry|]. split; [exact S2|]. split; [exact S3|].
  split; [apply sort_arguments_blocks|]. split; [apply isort_perm|]. split.
  - assert (S : StronglySorted (fun x y => block_leb x y = true) (isort block_leb (snd (blocks b_isarg cs))))
      by (apply isort_sorted; unfold block_leb; intros; [apply str_leb_total|eapply str_leb_trans; eauto]).
    induction S as [|x l S IH F]; constructor; auto. eapply Forall_impl; [|exact F].
    intros y H. unfold key_le. now rewrite <- !block_key_of.
  - intros key. apply isort_filter. intros x y Hx Hy. apply seqb_eq in Hx, Hy.
    unfold block_leb. rewrite !block_key_of, Hx, Hy. destruct (str_leb_total key key); assumption.
Qed.

(** the order is a total order on keys, so the result is determined *)
Theorem C31_order_total a b c :
  (str_leb a b = true \/ str_leb b a = true)
  /\ (str_leb a b = true -> str_leb b a = true -> a = b)
  /\ (str_leb a b = true -> str_leb b c = true -> str_leb a c = true).
Proof.
  split; [apply str_leb_total|]. split; [apply str_leb_antisym|apply str_leb_trans].
Qed.

Lemma Permutation_concat_perm cs : Permutation cs (sort_arguments cs).
Proof.
  destruct (C31_sort_blocks cs) as (lead & bs & bs' & H1 & _ & _ & H2 & H3 & _).
  rewrite H2, H1. apply Permutation_app_head. now apply Permutation_concat.
Qed.
Theorem C31_sort_permutes cs : Permutation cs (sort_arguments cs).
Proof. exact (Permutation_concat_perm cs). Qed.

(** C32 *)
Theorem C32_sort_idempotent cs : sort_arguments (sort_arguments cs) = sort_arguments cs.
Proof.
  rewrite (sort_arguments_blocks (sort_arguments cs)), (sort_arguments_blocks cs).
  destruct (blocks_spec b_isarg cs) as (S1 & S2 & S3).
  rewrite blocks_unique.
  - cbn [fst snd]. f_equal. f_equal. apply isort_id. apply isort_sorted; unfold block_leb; intros;
      [apply str_leb_total|eapply str_leb_trans; eauto].
  - exact S2.
  - eapply Permutation_Forall; [apply isort_perm|exact S3].
Qed.
(** sorting twice in the whole tree *)
Theorem C32_sorted_fixed cs lead bs :
  cs = lead ++ concat bs -> Forall (fun x => is_argument_k (bkind x) = false) lead ->
  Forall (fun b => exists a r, b = a :: r /\ is_argument_k (bkind a) = true
                      /\ Forall (fun x => is_argument_k (bkind x) = false) r) bs ->
  StronglySorted key_le bs -> sort_arguments cs = cs.
Proof.
  intros -> H1 H2 H3. rewrite sort_arguments_blocks.
  rewrite (blocks_unique b_isarg lead bs H1 H2). cbn [fst snd].
  rewrite (isort_id block_leb bs); auto.
  induction H3 as [|x l S IH F]; constructor; [apply IH; [now apply Forall_inv_tail in H2]|].
  eapply Forall_impl; [|exact F]. intros y H. unfold block_leb. now rewrite !block_key_of.
Qed.

(** a worked instance: a leading comment stays, each trailing comment follows its
    argument, and equal names keep their order *)
Definition bx (k : kind) (s : String.string) : box := B k [T (Tok UNQUOTED_LITERAL (s2l s) (Loc 0 0 0))] nil.
Example C31_demo :
  map (fun b => first_spelling (bpcs b))
    (sort_arguments [bx (KComment false) "# lead"; bx KArgument "zed.c"; bx (KComment false) "# z";
                     bx KArgument "Alpha.c"; bx KArgument "alpha.C"; bx (KComment false) "# a"])
  = map s2l ["# lead"; "Alpha.c"; "alpha.C"; "# a"; "zed.c"; "# z"]%string.
Proof. vm_compute. reflexivity. Qed.
