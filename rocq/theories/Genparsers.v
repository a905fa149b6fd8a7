(** * Genparsers: model of cmake-genparsers (cmakelang/genparsers.py) *)
From Verif Require Import Base Regex Lex TextOps Tree Parse CmdSpec StdSpecs StdDb PropStd Layout Markup Pipeline LintDb Lint PropDemo.

(** ** Variables *)
(** a python dictionary of texts *)
Definition vars := list (str * str).
Fixpoint vget (k : str) (v : vars) : option str :=
  match v with nil => None | (k', x) :: v' => if seqb k k' then Some x else vget k v' end.
Definition vdel (k : str) (v : vars) : vars := filter (fun p => negb (seqb k (fst p))) v.
Definition vset (k x : str) (v : vars) : vars := (k, x) :: vdel k v.
(** VarSub, genparsers.py 56-61 *)
Definition var_value (v : vars) (name : str) : str := match vget name v with Some x => x | None => nil end.
(** [regex.sub(repl, value)], 71-73; [ref_re] of Lint.v is the same expression (ASCII
    word characters) *)
Definition sub_refs (v : vars) (s : str) : str := re_subf ref_re (fun y => var_value v (cap y)) (List.length s) None s.
(** replace_varrefs, 64-74: the while loop, [fuel] turns at most *)
Fixpoint replace_varrefs (fuel : nat) (v : vars) (s : str) : res str :=
  match rsearch ref_re None s with
  | None => Ok s
  | Some _ => match fuel with O => OutOfFuel | S n => replace_varrefs n v (sub_refs v s) end
  end.
Definition cDQ : chr := 34%N.
Definition unquote (s : str) : str := strip_by (N.eqb cDQ) s.

(** ** The statements of a subtree, find_statements_in_subtree, 32-53.  A statement
    that is yielded is not searched.  (SetFnNode objects sit below a [set] statement
    and are not reached; the configuration is the default one, so [set] cannot be
    replaced.)  The queue is level order. *)
Definition yielded (names : list str) (n : pnode) : bool := is_stmt n && smem (funname n) names.
Definition gsons (names : list str) (e : entry) : list entry :=
  if yielded names (fst e) then nil
  else filter (fun e => match fst e with N _ _ => true | T _ => false end) (sons e).
Fixpoint glevels (names : list str) (fuel : nat) (l : list entry) : list entry :=
  match fuel with O => nil | S f => l ++ glevels names f (flat_map (gsons names) l) end.
Definition find_statements (names : list str) (n : pnode) : list entry :=
  filter (fun e => yielded names (fst e)) (glevels names (depth n) [(n, None)]).

(** ** Definitions *)
(** SetFnNode.value_group, funs/set.py 117-124: the last positional group that is
    neither the first one nor started by PARENT_SCOPE *)
Definition is_pgroup (n : pnode) : bool := match n with N (KPargGroup _ _ _) _ => true | _ => false end.
Definition value_group (args : pnode) : option pnode :=
  match filter is_pgroup (kids args) with
  | nil => None
  | _ :: gs => last (map Some (filter (fun g => match flat g with
                                                | t :: _ => negb (kwarg_in t [$"PARENT_SCOPE"])
                                                | nil => true
                                                end) gs)) None
  end.
Section Run.
  Variable fuel : nat.
  (** process_set_statement, 77-88 *)
  Definition process_set (args : pnode) (v : vars) : res vars :=
    match Lint.set_varname args with
    | None => Err AttrErr
    | Some t =>
        let? name := replace_varrefs fuel v (spelling t) in
        match value_group args with
        | None => Ok (vdel name v)
        | Some g => let? x := replace_varrefs fuel v (join $";" (map (fun t => unquote (spelling t)) (sem g))) in
                    Ok (vset name x v)
        end
    end.
  (** what is generated for a definition: the dictionary built in 156-167 and 106-136.
      [g_flags], [g_kwargs]: the keys flags and kwargs, when they are present. *)
  Record gspec := GSp {
    g_nargs : nargs; g_flags : option (list str); g_kwargs : option (list (str * nargs)); g_spelling : option str }.
  (** a list of words as in 116-120 *)
  Definition words (s : str) : list str :=
    filter (fun w => match w with nil => false | _ => true end) (map (fun w => upper (strip w)) (split_on 59%N s)).
  Definition kwargs_of (one multi : str) : list (str * nargs) :=
    fold_left (fun d k => CmdSpec.dset k (NStr $"+") d) (words multi)
      (fold_left (fun d k => CmdSpec.dset k (NInt 1) d) (words one) nil).
  (** process_defn_body, 91-137 *)
  Fixpoint defn_body (es : list entry) (v : vars) (n : Z) (sp : option str) : res gspec :=
    match es with
    | nil => Ok (GSp (NInt n) None None sp)
    | (s, _) :: r =>
        if seqb (funname s) $"set" then let? v := process_set (argtree s) v in defn_body r v n sp
        else if seqb (funname s) $"list" then defn_body r v n sp
        else match sem (argtree s) with
             | _ :: a :: b :: c :: _ =>
                 let? kw := replace_varrefs fuel v (unquote (spelling a)) in
                 let? one := replace_varrefs fuel v (unquote (spelling b)) in
                 let? multi := replace_varrefs fuel v (unquote (spelling c)) in
                 Ok (GSp (NStr (if n =? 0 then $"*" else dec n ++ $"+")) (Some (words kw))
                         (Some (kwargs_of one multi)) sp)
             | _ => Err IndexErr
             end
    end.
  Definition defn_names : list str := [$"list"; $"cmake_parse_arguments"; $"set"].
  (** process_defn, 140-166 *)
  Definition process_defn (e : entry) : res (str * gspec) :=
    match first_group (argtree (fst e)) with
    | Some (f :: args) =>
        let name := spelling f in
        let sp := if negb (seqb (lower name) name) && negb (seqb (upper name) name) then Some name else None in
        match snd e with
        | None => Err AttrErr
        | Some (par, _) =>
            match nth_error (kids par) 1 with
            | Some (N KBody cs) =>
                let? g := defn_body (find_statements defn_names (N KBody cs)) nil (zlen args) sp in
                Ok (lower name, g)
            | Some _ => Err AssertionErr
            | None => Err IndexErr
            end
        end
    | _ => Err IndexErr
    end.
  (** process_tree, 169-181 *)
  Fixpoint process_all (es : list entry) (out : list (str * gspec)) : res (list (str * gspec)) :=
    match es with
    | nil => Ok out
    | e :: r => let? (name, g) := process_defn e in
                process_all r (if startswith $"_" name then out else CmdSpec.dset name g out)
    end.
  Definition process_tree (tree : pnode) : res (list (str * gspec)) :=
    process_all (find_statements [$"function"; $"macro"] tree) nil.
  (** the default configuration: Configuration() of 243 and process_file, 184-202 *)
  Definition gen_ctx : pctx := std_ctx no_explicit nil
    (match user_table demo_command with Ok l => l | _ => nil end).
  Definition gen_file (src : str) : res (list (str * gspec)) :=
    let? toks := tokenize src in
    let? tree := parse gen_ctx toks in
    process_tree tree.

  (** ** The command, 222-293.  [lread] as in Lint.v.  A path that cannot be opened
      leaves [infile] unbound or bound to a closed file, and the statement [with
      infile] fails (253-261); after a decoding error [intext] is the text of the
      previous file, or unbound (262-267). *)
  Definition merge (out new : list (str * gspec)) : list (str * gspec) :=
    fold_left (fun d p => CmdSpec.dset (fst p) (snd p) d) new out.
  Fixpoint gen_loop (rd : str -> lread) (ps : list str) (bound : bool) (prev : option str) (out : list (str * gspec))
    : res (list (str * gspec)) :=
    match ps with
    | nil => Ok out
    | p :: ps' =>
        match rd p with
        | CannotOpen => Err (if bound then ValueErr else AttrErr)
        | CannotDecode => match prev with
                          | None => Err AttrErr
                          | Some s => let? g := gen_file s in gen_loop rd ps' true prev (merge out g)
                          end
        | Text s => let? g := gen_file s in gen_loop rd ps' true (Some s) (merge out g)
        end
    end.
  (** what is printed by 242, what is generated, and the exit status *)
  Definition gen_main (rd : str -> lread) (ps : list str) : res (str * list (str * gspec) * Z) :=
    if smem $"-" ps && negb (zlen ps =? 1) then Err AssertionErr else
    let? out := gen_loop rd ps false None nil in
    Ok (nl ps, out, 0).
End Run.

(** ** The generated dictionary as an entry of additional_commands *)
Definition to_uspec (g : gspec) : uspec :=
  USpec (UDict (PDict false (Some (g_nargs g)) None None (g_flags g) None None false)) nil
        (map (fun p => (fst p, UKScalar (snd p))) (match g_kwargs g with Some l => l | None => nil end))
        (g_spelling g) None.
Definition generated (out : list (str * gspec)) : list (str * uspec) := map (fun p => (fst p, to_uspec (snd p))) out.
