(** * PropLimits: what the documentation says about three options of the layout, and what happens *)
From Verif Require Import Base Regex Lex LexProofs TextOps Tree Parse CmdSpec StdSpecs StdDb PropStd Layout Markup Pipeline PropFile PropTall.

(** ** Specification *)
(** a call of a command with plain words on one line *)
Definition call (name : str) (args : list str) : str := name ++ $"(" ++ join $" " args ++ $")" ++ [cNL].
Definition letter (ch : chr) : bool := ((97 <=? ch) && (ch <=? 122))%N.
Definition plain_word (w : str) : bool := match w with nil => false | _ => forallb letter w end.
Definition plain_call (name : str) (args : list str) : bool := plain_word name && forallb plain_word args.
(** the lines of a file that ends in a line ending *)
Definition file_lines (text : str) : list str := removelast (split_on cNL text).
(** no blank between two words of a line *)
Fixpoint unindented (line : str) : str :=
  match line with ch :: r => if N.eqb cSP ch then unindented r else line | nil => nil end.
Definition lone (line : str) : bool :=
  negb (existsb (N.eqb cSP) (unindented line)).

(** C136: max_lines_hwrap, "If a candidate layout is wrapped horizontally but it
    exceeds this many lines, then reject the layout": a call that is not written with
    one argument per line takes no more than that many lines. *)
Definition hwrap_lines (c : pcfg) : Prop := forall name args text,
  plain_call name args = true -> process_file c (call name args) = Ok (text, true) ->
  zlen (file_lines text) <= f_max_lines (p_fmt c) \/ forallb lone (file_lines text) = true.
(** C137: always_wrap, "A list of command names which should always be wrapped": a
    call of such a command with two arguments or more is not written on one line. *)
Definition always_wrapped (c : pcfg) : Prop := forall name args text,
  plain_call name args = true -> (2 <= List.length args)%nat -> In name (f_always_wrap (p_fmt c)) ->
  process_file c (call name args) = Ok (text, true) -> 1 < zlen (file_lines text).
(** C138: max_prefix_chars, "If the statement spelling length (including space and
    parenthesis) is larger than the tab width by more than this amount, then force
    reject un-nested layouts": a call of such a command that does not fit in one line
    has nothing behind its opening parenthesis. *)
Definition prefix_nested (c : pcfg) : Prop := forall name args text,
  plain_call name args = true -> zlen name + 1 > f_tab (p_fmt c) + f_max_prefix (p_fmt c) ->
  process_file c (call name args) = Ok (text, true) ->
  zlen (file_lines text) <= 1 \/ hd nil (file_lines text) = name ++ $"(".

(** ** Witnesses *)
Definition long (ch : chr) (n : nat) : str := repeat ch n.
Definition long_args : list str := [long 97 20; long 98 50; long 99 50; long 100 50]%N.
Definition long_name : str := $"prepareallthings".

Theorem C136_lines_refuted : ~ hwrap_lines default_pcfg.
Proof.
  intros H.
  destruct (H $"prepare" long_args (nl [$"prepare(" ++ long 97%N 20 ++ [cSP] ++ long 98%N 50; spaces 8 ++ long 99%N 50; spaces 8 ++ long 100%N 50 ++ $")"])) as [A|A];
    [vm_compute; reflexivity|vm_compute; reflexivity| |]; vm_compute in A; [now apply A|discriminate].
Qed.
Theorem C137_always_wrap_refuted : ~ always_wrapped (opt_pcfg [$"get"] 2 6 10).
Proof.
  intros H. specialize (H $"get" [$"a"; $"b"; $"c"] (nl [$"get(a b c)"]) eq_refl ltac:(cbn; lia) ltac:(now left)).
  assert (E : process_file (opt_pcfg [$"get"] 2 6 10) (call $"get" [$"a"; $"b"; $"c"]) = Ok (nl [$"get(a b c)"], true)) by (vm_compute; reflexivity).
  specialize (H E). clear E.
  assert (Z : zlen (file_lines (nl [$"get(a b c)"])) = 1) by (vm_compute; reflexivity). rewrite Z in H. now apply Z.lt_irrefl in H.
Qed.
Theorem C138_prefix_refuted : ~ prefix_nested default_pcfg.
Proof.
  intros H.
  destruct (H long_name [long 97%N 50; long 98%N 50] (nl [long_name ++ $"(" ++ long 97%N 50; spaces 17 ++ long 98%N 50 ++ $")"])) as [A|A];
    [vm_compute; reflexivity|vm_compute; reflexivity|vm_compute; reflexivity| |]; vm_compute in A; [now apply A|discriminate].
Qed.

(** What the code checks instead: lines behind the first one are counted for
    max_lines_hwrap, and max_prefix_chars alone, without the tab width, is compared for
    calls of three lines or more. *)
Example limits_ex :
  process_file default_pcfg (call $"prepare" (long_args ++ [long 101%N 50])) = Ok (nl
    [$"prepare("; spaces 2 ++ long 97%N 20; spaces 2 ++ long 98%N 50; spaces 2 ++ long 99%N 50; spaces 2 ++ long 100%N 50; spaces 2 ++ long 101%N 50 ++ $")"], true).
Proof. vm_compute. reflexivity. Qed.
