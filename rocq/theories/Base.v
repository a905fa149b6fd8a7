(** * Base: shared vocabulary of the model.
    Text is a list of unicode code points; python exceptions are values. *)
From Coq Require Export Ascii String ZArith NArith Bool Lia List.
Export ListNotations.
#[export] Set Warnings "-deprecated".
Open Scope list_scope.
Open Scope Z_scope.

#[global] Arguments Z.add : simpl never.
#[global] Arguments Z.sub : simpl never.
#[global] Arguments Z.mul : simpl never.
#[global] Arguments Z.opp : simpl never.
#[global] Arguments Z.of_nat : simpl never.
#[global] Arguments Z.to_nat : simpl never.
#[global] Arguments Z.div : simpl never.
#[global] Arguments Z.modulo : simpl never.

(** Python [str]: a sequence of unicode code points. *)
Definition chr := N.
Definition str := list chr.

(** Literals: ASCII text written as a Coq string. *)
Definition s2l (s : string) : str := map N_of_ascii (list_ascii_of_string s).
Arguments s2l s%string_scope.
Notation "'$' s" := (s2l s%string) (at level 1, format "'$' s").

(** Exceptions the modelled code can raise (cmakelang/common.py 98-123 and
    python built-ins). *)
Inductive err :=
  UserError | InternalError | AssertionErr | IndexErr | ValueErr
| TypeErr | KeyErr | AttrErr | ZeroDivErr | FormatErr | OSErr | UnicodeErr.

(** Outcome of a modelled call: a value, a raised exception, or "the fuel given
    to the model ran out" (used only to state and prove termination). *)
Inductive res (A : Type) :=
| Ok (a : A) | Err (e : err) | OutOfFuel.
Arguments Ok {A} a.  Arguments Err {A} e.  Arguments OutOfFuel {A}.

Definition bindr {A B} (x : res A) (f : A -> res B) : res B :=
  match x with Ok a => f a | Err e => Err e | OutOfFuel => OutOfFuel end.
Notation "'let?' p ':=' x 'in' f" := (bindr x (fun p => f))
  (at level 200, p pattern, x at level 100, f at level 200, only parsing).

Lemma bindr_ok {A B} (x : res A) (f : A -> res B) b :
  bindr x f = Ok b -> exists a, x = Ok a /\ f a = Ok b.
Proof. destruct x; simpl; intros H; try discriminate; eauto. Qed.

Definition zlen {A} (l : list A) : Z := Z.of_nat (List.length l).
Lemma zlen_nil {A} : zlen (@nil A) = 0. Proof. reflexivity. Qed.
Lemma zlen_cons {A} (a : A) l : zlen (a :: l) = zlen l + 1.
Proof. unfold zlen. simpl List.length. lia. Qed.
Lemma zlen_app {A} (l m : list A) : zlen (l ++ m) = zlen l + zlen m.
Proof. unfold zlen. rewrite app_length. lia. Qed.
Lemma zlen_nonneg {A} (l : list A) : 0 <= zlen l.
Proof. unfold zlen. lia. Qed.
Lemma zlen_zero_nil {A} (l : list A) : zlen l = 0 -> l = nil.
Proof. destruct l; auto. rewrite zlen_cons. pose proof (zlen_nonneg l). lia. Qed.

(** String equality (python [==]). *)
Fixpoint seqb (a b : str) : bool :=
  match a, b with
  | nil, nil => true
  | x :: a', y :: b' => N.eqb x y && seqb a' b'
  | _, _ => false
  end.
Lemma seqb_eq a b : seqb a b = true <-> a = b.
Proof.
  revert b; induction a as [|x a IH]; destruct b; simpl; split; intros H;
    try discriminate; auto.
  - apply andb_prop in H as [H1 H2]. apply N.eqb_eq in H1. apply IH in H2. congruence.
  - injection H as -> ->. rewrite N.eqb_refl. simpl. now apply IH.
Qed.
Lemma seqb_refl a : seqb a a = true. Proof. now apply seqb_eq. Qed.
Lemma seqb_neq a b : seqb a b = false <-> a <> b.
Proof.
  split.
  - intros H ->. rewrite seqb_refl in H. discriminate.
  - intros H. destruct (seqb a b) eqn:E; auto. apply seqb_eq in E. contradiction.
Qed.
Lemma seqb_sym a b : seqb a b = seqb b a.
Proof.
  destruct (seqb a b) eqn:E; symmetry.
  - apply seqb_eq in E. subst. apply seqb_refl.
  - apply seqb_neq in E. apply seqb_neq. congruence.
Qed.

Definition smem (s : str) (l : list str) : bool := existsb (seqb s) l.
Lemma smem_In s l : smem s l = true <-> In s l.
Proof.
  unfold smem. rewrite existsb_exists. split.
  - intros (x & Hx & E). apply seqb_eq in E. now subst.
  - intros H. exists s. split; auto. apply seqb_refl.
Qed.

(** Characters named by the code. *)
Definition cNL : chr := 10%N.   (* \n *)
Definition cCR : chr := 13%N.   (* \r *)
Definition cTAB : chr := 9%N.   (* \t *)
Definition cVT : chr := 11%N.   (* \v *)
Definition cFF : chr := 12%N.   (* \f *)
Definition cSP : chr := 32%N.
Definition cHASH : chr := 35%N.
Definition cLP : chr := 40%N.
Definition cRP : chr := 41%N.
Definition cBOM : chr := 65279%N. (* U+FEFF *)

(** [s.startswith(p)] and the remainder. *)
Fixpoint startswith (p s : str) : bool :=
  match p, s with
  | nil, _ => true
  | x :: p', y :: s' => N.eqb x y && startswith p' s'
  | _, nil => false
  end.
Lemma startswith_spec p s : startswith p s = true <-> exists r, s = p ++ r.
Proof.
  revert s; induction p as [|x p IH]; intros s; simpl.
  - split; eauto.
  - destruct s as [|y s]; split.
    + discriminate.
    + intros (r & H); discriminate.
    + intros H. apply andb_prop in H as [H1 H2]. apply N.eqb_eq in H1.
      apply IH in H2 as (r & ->). exists r. now subst.
    + intros (r & H). injection H as -> ->. rewrite N.eqb_refl. simpl. apply IH. eauto.
Qed.

Definition endswith (p s : str) : bool := startswith (rev p) (rev s).

(** ASCII letter case ([str.upper]/[str.lower] restricted to ASCII; non-ASCII
    code points are left alone -- see DESIGN.md, simplifications). *)
Definition upc (c : chr) : chr :=
  if (97 <=? c)%N && (c <=? 122)%N then (c - 32)%N else c.
Definition loc (c : chr) : chr :=
  if (65 <=? c)%N && (c <=? 90)%N then (c + 32)%N else c.
Definition upper (s : str) : str := map upc s.
Definition lower (s : str) : str := map loc s.

(** Python unicode [\s] / [str.isspace] for one code point. *)
Definition is_uspace (c : chr) : bool :=
  existsb (N.eqb c)
   [9;10;11;12;13;28;29;30;31;32;133;160;5760;8192;8193;8194;8195;8196;8197;
    8198;8199;8200;8201;8202;8232;8233;8239;8287;12288]%N.
(** ASCII [\s]: what [\s] means inside [re.Scanner] on python 3 (the scanner
    compiles its phrases without the UNICODE flag). *)
Definition is_aspace (c : chr) : bool :=
  existsb (N.eqb c) [9;10;11;12;13;32]%N.

(** [[ \t\f\v]]: the blanks of lex/__init__.py 174 and formatter.py 109. *)
Definition is_blank (c : chr) : bool :=
  existsb (N.eqb c) [32;9;12;11]%N.

Fixpoint lstrip_by (p : chr -> bool) (s : str) : str :=
  match s with
  | c :: s' => if p c then lstrip_by p s' else s
  | nil => nil
  end.
Definition rstrip_by (p : chr -> bool) (s : str) : str := rev (lstrip_by p (rev s)).
Definition strip_by p s := rstrip_by p (lstrip_by p s).
Definition lstrip := lstrip_by is_uspace.
Definition rstrip := rstrip_by is_uspace.
Definition strip := strip_by is_uspace.

(** [s.split(c)] for a one-character separator: always a non-empty list. *)
Fixpoint split_on (c : chr) (s : str) : list str :=
  match s with
  | nil => [nil]
  | x :: s' =>
      match split_on c s' with
      | nil => [[x]] (* unreachable *)
      | l :: ls => if N.eqb x c then nil :: l :: ls else (x :: l) :: ls
      end
  end.
(** [sep.join(l)] *)
Fixpoint join (sep : str) (l : list str) : str :=
  match l with
  | nil => nil
  | [x] => x
  | x :: l' => x ++ sep ++ join sep l'
  end.

Definition count_chr (c : chr) (s : str) : Z :=
  zlen (filter (N.eqb c) s).

Fixpoint repeat_s (n : nat) (s : str) : str :=
  match n with O => nil | S n' => s ++ repeat_s n' s end.
(** [" " * n] for a python int (negative gives the empty string). *)
Definition spaces (n : Z) : str := repeat cSP (Z.to_nat n).
Definition newlines (n : Z) : str := repeat cNL (Z.to_nat n).

Lemma split_on_nonempty c s : split_on c s <> nil.
Proof. induction s; simpl; try discriminate. destruct (split_on c s); try discriminate. destruct (N.eqb a c); discriminate. Qed.

Lemma join_split c s : join [c] (split_on c s) = s.
Proof.
  induction s as [|x s IH]; simpl; auto.
  destruct (split_on c s) as [|l ls] eqn:E.
  - now apply split_on_nonempty in E.
  - destruct (N.eqb x c) eqn:Ex.
    + apply N.eqb_eq in Ex. rewrite Ex. change (c :: join [c] (l :: ls) = c :: s). now rewrite IH.
    + change (join [c] ((x :: l) :: ls) = x :: s). rewrite <- IH. destruct ls; reflexivity.
Qed.

Lemma split_on_no c s l : In l (split_on c s) -> ~ In c l.
Proof.
  revert l; induction s as [|x s IH]; simpl; intros l H.
  - destruct H as [<-|[]]. auto.
  - destruct (split_on c s) as [|l0 ls] eqn:E.
    + now apply split_on_nonempty in E.
    + destruct (N.eqb x c) eqn:Ex.
      * destruct H as [<-|H]; auto.
      * apply N.eqb_neq in Ex. destruct H as [<-|H].
        -- simpl. intros [->|H2]; [congruence|]. revert H2. apply IH. now left.
        -- apply IH. now right.
Qed.

(** UTF-8 length of a code point: number of bytes of its encoding. *)
Definition utf8_len (c : chr) : Z :=
  if (c <? 128)%N then 1 else if (c <? 2048)%N then 2
  else if (c <? 65536)%N then 3 else 4.
Definition bytelen (s : str) : Z := fold_right (fun c n => utf8_len c + n) 0 s.
Lemma bytelen_app s t : bytelen (s ++ t) = bytelen s + bytelen t.
Proof. induction s; simpl; lia. Qed.
Lemma utf8_len_pos c : 0 < utf8_len c.
Proof. unfold utf8_len. repeat (destruct N.ltb; try lia). Qed.
Lemma bytelen_nonneg s : 0 <= bytelen s.
Proof. induction s; simpl; try lia. pose proof (utf8_len_pos a). lia. Qed.
