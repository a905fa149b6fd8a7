(** * ParserLint: what the argument parsers record for cmake-lint
    (every call of record_lint below cmakelang/parse) *)
From Verif Require Import Base Regex Lex TextOps Tree Parse CmdSpec StdSpecs StdDb PropStd Layout Markup Pipeline LintDb Lint.

(** The python parsers record while they build the tree.  Here the remarks are
    computed from the finished tree and the tokens of the file, statement by statement
    in the order of the file, which is the order of the calls.  A file that does not
    parse has no remarks here; cmake-lint fails on it anyway. *)

(** The tokens of the file behind the one that starts at offset [o]: the list
    [tokens] once that token has been popped. *)
Fixpoint behind (o : Z) (toks : list token) : list token :=
  match toks with
  | nil => nil
  | t :: r => if offset (begin t) =? o then r else behind o r
  end.
(** [tokens] when the argument parser of a statement is called, statement_node.py
    62-90: behind the parenthesis and the blanks that follow it. *)
Definition lparen_of (n : pnode) : option token :=
  match find (fun m => match m with N KLParen _ => true | _ => false end) (kids n) with
  | Some m => hd_error (flat m)
  | None => None
  end.
Definition arg_tokens (toks : list token) (n : pnode) : list token :=
  match lparen_of n with Some lp => snd (take_ws (behind (offset (begin lp)) toks)) | None => nil end.

(** [location=()] unless there is a token, e.g. file.py 369-372 *)
Definition at_front (id : str) (toks : list token) (a : list farg) : req :=
  match toks with t :: _ => at_tok id t a | nil => Req id nil a end.
(** TreeNode.get_location, parse/common.py 88-96 *)
Fixpoint node_loc (n : pnode) : list Z :=
  match n with
  | T t => loc3 (begin t)
  | N _ nil => [0; 0; 0]
  | N _ (m :: _) => node_loc m
  end.

(** parse_file 366-422 and parse_list, funs/list.py 82-130; [forms]: the keys of
    parsemap *)
Definition form_remarks (forms : list str) (toks : list token) : list req :=
  match first_sem toks with
  | None => [at_front $"E1120" toks nil]
  | Some t =>
      if is_tt RIGHT_PAREN t then [at_front $"E1120" toks nil]
      else if is_tt DEREF t then [at_tok $"C0114" t nil]
      else if smem (upper (spelling t)) forms then nil else [at_tok $"E1126" t nil]
  end.

(** the keyword of a keyword group, [kwargnode.keyword.token] *)
Definition group_kw (n : pnode) : option str :=
  match n with
  | N KKwargGroup (N KKeyword (T t :: _) :: _) => normalized_kwarg t
  | _ => None
  end.
Definition has_kw (w : str) (args : pnode) : bool :=
  existsb (fun g => match group_kw g with Some v => seqb v w | None => false end) (kids args).
(** check_required_kwargs, argument_nodes.py 61-76; [l] is sorted by code *)
Definition required (l : list (str * str)) (args : pnode) : list req :=
  let loc := match sem args with t :: _ => loc3 (begin t) | nil => node_loc args end in
  map (fun p => Req (fst p) loc [FS (snd p)]) (filter (fun p => negb (has_kw (snd p) args)) l).
Definition command_required : list (str * str) := [($"C0113", $"COMMENT"); ($"E1125", $"COMMAND")].
(** parse_add_custom_command and its two forms, funs/add_xxx.py 22-141 *)
Definition custom_command_remarks (toks : list token) (args : pnode) : list req :=
  match first_sem toks with
  | None => [at_front $"E1120" toks nil]
  | Some t =>
      if is_tt RIGHT_PAREN t then [at_front $"E1120" toks nil]
      else (if is_tt DEREF t then [at_tok $"C0114" t nil]
            else if kwarg_in t [$"TARGET"; $"OUTPUT"] then nil
            else [at_tok $"E1126" t nil]) ++ required command_required args
  end.

(** parse_add_custom_target, funs/add_xxx.py 195-271, reread from the children it
    appended.  E1122 is recorded without the argument its message wants. *)
Inductive tstate := TName | TFirst | TKwargs.
Definition target_words : list str := map fst act_kw ++ act_flags.
Fixpoint target_strays (st : tstate) (cs : list pnode) : list token :=
  match cs with
  | nil => nil
  | T _ :: cs' => target_strays st cs'
  | N (KComment _) _ :: cs' => target_strays st cs'
  | (N _ _ as g) :: cs' =>
      match st, flat g with
      | TName, _ => target_strays TFirst cs'
      | _, nil => target_strays TKwargs cs'
      | TFirst, _ :: _ => target_strays TKwargs cs'
      | TKwargs, t :: _ => if kwarg_in t target_words then target_strays TKwargs cs' else t :: target_strays TKwargs cs'
      end
  end.
Definition target_remarks (args : pnode) : list req :=
  map (fun t => at_tok $"E1122" t nil) (target_strays TName (kids args))
  ++ (if has_kw $"COMMENT" args then nil else [at_front $"C0113" (sem args) [FS $"COMMENT"]]).

(** parse_set, funs/set.py 84-112: the CACHE group; [tokens[0]] is the token behind it *)
Definition cache_remarks (toks : list token) (g : pnode) : list req :=
  let next := match rev (flat g) with t :: _ => behind (offset (begin t)) toks | nil => toks end in
  match tl (sem g) with
  | nil => [at_front $"E1120" next [FS $"<variable>"]]
  | [_] => [at_front $"E1120" next [FS $"<value>"]]
  | [_; _] => nil
  | [_; _; t] | [_; _; t; _] => if seqb (upper (spelling t)) $"FORCE" then nil else [at_tok $"E1121" t nil]
  | _ :: _ :: t :: _ => [at_tok $"E1121" t nil]
  end.
Definition set_remarks (toks : list token) (args : pnode) : list req :=
  flat_map (fun g => match group_kw g with Some _ => cache_remarks toks g | None => nil end) (kids args).

(** parse_build_command, funs/miscellaneous.py 31-37: W0106 is recorded with one of
    the two arguments its message wants *)
Definition build_remarks (toks : list token) : list req :=
  match nth_semantic toks 1 with
  | Some _ => [at_front $"W0106" toks [FS $"build_command(<cachevariable> <makecommand>)"]]
  | None => nil
  end.
(** parse_cmake_policy, funs/miscellaneous.py 76-101 *)
Definition policy_forms : list str := [$"VERSION"; $"SET"; $"GET"; $"PUSH"; $"POP"].
Definition policy_remarks (toks : list token) : list req :=
  match first_sem toks with
  | None => nil
  | Some t => if is_tt DEREF t then [at_tok $"C0114" t nil]
              else if smem (upper (spelling t)) policy_forms then nil else [at_tok $"E1126" t nil]
  end.
(** parse_empty, funs/break.py 29-57: one remark for each positional group *)
Definition empty_remarks (args : pnode) : list req :=
  flat_map (fun g => match g with
                     | N (KPargGroup _ _ _) _ => [at_front $"E1121" (flat g) nil]
                     | _ => nil
                     end) (kids args).

(** The remarks of one statement.  A command of the user's table has the parser of
    its specification, which records nothing. *)
Definition stmt_remarks (user : list (str * parser)) (toks : list token) (n : pnode) : list req :=
  let f := funname n in
  match n with
  | N (KStatement _) _ =>
      match kw_lookup f user with
      | Some _ => nil
      | None =>
          if seqb f $"file" then form_remarks (map fst file_map) (arg_tokens toks n)
          else if seqb f $"list" then form_remarks (map fst list_map) (arg_tokens toks n)
          else if seqb f $"add_custom_command" then custom_command_remarks (arg_tokens toks n) (argtree n)
          else if seqb f $"add_custom_target" then target_remarks (argtree n)
          else if seqb f $"set" then set_remarks toks (argtree n)
          else if seqb f $"build_command" then build_remarks (arg_tokens toks n)
          else if seqb f $"cmake_policy" then policy_remarks (arg_tokens toks n)
          else if smem f [$"break"; $"continue"; $"enable_testing"; $"return"] then empty_remarks (argtree n)
          else nil
      end
  | _ => nil
  end.
(** the nodes of a tree from top to bottom *)
Fixpoint nodes (n : pnode) : list pnode :=
  n :: match n with T _ => nil | N _ cs => flat_map nodes cs end.
Definition plint (ctx : pctx) (user : list (str * parser)) (toks : list token) : list req :=
  match parse ctx toks with
  | Ok tree => flat_map (stmt_remarks user toks) (nodes tree)
  | _ => nil
  end.

(** No specification of the database replaces one of these parsers. *)
Lemma own_parsers : forall f, In f [$"file"; $"list"; $"add_custom_command"; $"add_custom_target"; $"set"; $"build_command";
    $"cmake_policy"; $"break"; $"continue"; $"enable_testing"; $"return"] -> kw_lookup f (spec_table ++ flow_table) = None.
Proof. intros f Hf. cbn [In] in Hf. repeat (destruct Hf as [<-|Hf]; [vm_compute; reflexivity|]). destruct Hf. Qed.
Definition with_remarks (user : list (str * parser)) (c : lcfg) : lcfg :=
  LCfg (lc_width c) (lc_ending c) (lc_usetabs c) (lc_tabpol c) (lc_tab c) (lc_disabled c) (lc_min_sp c) (lc_max_sp c) (lc_max_cond c)
    (lc_max_returns c) (lc_max_branches c) (lc_max_args c) (lc_max_stmts c) (lc_function c) (lc_macro c) (lc_global c) (lc_internal c)
    (lc_local c) (lc_private c) (lc_public c) (lc_argument c) (lc_re c) (lc_markup c) (lc_ctx c)
    (lc_cnode c) (lc_cond c) (lc_stackmsg c) (plint (lc_ctx c) user).
