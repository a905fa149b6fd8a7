(** * Lint: model of cmake-lint (cmakelang/lint/lint_util.py, basic_checker.py and
    __main__.py) *)
From Verif Require Import Base Regex Lex TextOps Tree Parse CmdSpec StdSpecs StdDb PropStd Layout Markup Pipeline LintDb.

(** ** Messages *)
(** decimal text of an integer, as [str(z)] *)
Fixpoint udigits (u : Decimal.uint) : str :=
  match u with
  | Decimal.Nil => nil
  | Decimal.D0 u => 48%N :: udigits u | Decimal.D1 u => 49%N :: udigits u
  | Decimal.D2 u => 50%N :: udigits u | Decimal.D3 u => 51%N :: udigits u
  | Decimal.D4 u => 52%N :: udigits u | Decimal.D5 u => 53%N :: udigits u
  | Decimal.D6 u => 54%N :: udigits u | Decimal.D7 u => 55%N :: udigits u
  | Decimal.D8 u => 56%N :: udigits u | Decimal.D9 u => 57%N :: udigits u
  end.
Definition dec (z : Z) : str :=
  (if z <? 0 then [45%N] else nil) ++ udigits (N.to_uint (Z.abs_N z)).

(** [msgfmt.format(...)] for the replacement fields occurring in LINT_DB *)
Inductive farg := FS (s : str) | FI (z : Z).
Definition fmt_one (spec : str) (a : farg) : res str :=
  match a with
  | FS s => if seqb spec nil || seqb spec $":s" then Ok s else Err ValueErr
  | FI z => if seqb spec nil || seqb spec $":d" then Ok (dec z) else Err ValueErr
  end.
Definition cLC : chr := 123%N.
Definition cRC : chr := 125%N.
Fixpoint fmt (field : option str) (tpl : str) (args : list farg) : res str :=
  match tpl with
  | nil => match field with None => Ok nil | Some _ => Err ValueErr end
  | c :: t =>
      match field with
      | None => if N.eqb c cLC then fmt (Some nil) t args
                else let? r := fmt None t args in Ok (c :: r)
      | Some s => if N.eqb c cRC then
                    match args with
                    | nil => Err IndexErr
                    | a :: args' => let? x := fmt_one s a in
                                    let? r := fmt None t args' in Ok (x ++ r)
                    end
                  else fmt (Some (s ++ [c])) t args
      end
  end.

(** ** lint_util.py *)
(** LintRecord, 10-29: code, location (a python tuple of 0 to 3 numbers), text *)
Record lrec := LRec { l_id : str; l_loc : list Z; l_msg : str }.
(** SuppressionEvent, 32-33 *)
Inductive smode := SAdd | SRemove.
Record sevent := SEv { ev_line : Z; ev_mode : smode; ev_ids : list str }.
(** the state of a FileContext, 36-49, without the counters (read nowhere) *)
Record lctx := LCtx { x_lint : list lrec; x_sup : list str; x_events : list sevent }.
Definition ctx0 : lctx := LCtx nil nil nil.
(** what a checker passes to record_lint *)
Record req := Req { q_id : str; q_loc : list Z; q_args : list farg }.
Definition loc3 (l : location) : list Z := [line l; col l; offset l].
Definition at_tok (id : str) (t : token) (a : list farg) : req := Req id (loc3 (begin t)) a.

(** is_idstr, 51-52 *)
Definition is_idstr (s : str) : bool := smem s (map fst lint_db).
Definition assoc_s {A} (k : str) (l : list (str * A)) : option A :=
  option_map snd (find (fun p => seqb k (fst p)) l).
Definition sdiscard (s : str) (l : list str) : list str := filter (fun y => negb (seqb s y)) l.
(** suppress, 54-68: the new suppressions and the state *)
Fixpoint new_sups (ids : list str) (sup : list str) : list str * list str :=
  match ids with
  | nil => (nil, sup)
  | i :: ids' => if smem i sup then new_sups ids' sup
                 else let '(n, s) := new_sups ids' (i :: sup) in (i :: n, s)
  end.
Definition suppress (line : Z) (ids : list str) (x : lctx) : list str * lctx :=
  let '(n, s) := new_sups ids (x_sup x) in
  (n, LCtx (x_lint x) s (x_events x ++ [SEv line SAdd n])).
(** unsuppress, 70-77 *)
Definition unsuppress (line : Z) (ids : list str) (x : lctx) : lctx :=
  LCtx (x_lint x) (fold_left (fun s i => sdiscard i s) ids (x_sup x))
       (x_events x ++ [SEv line SRemove ids]).
(** record_lint, 79-92 *)
Definition record_lint (disabled : list str) (q : req) (x : lctx) : res lctx :=
  if smem (q_id q) disabled then Ok x
  else if smem (q_id q) (x_sup x) then Ok x
  else match assoc_s (q_id q) lint_db with
       | None => Err KeyErr
       | Some tpl => let? m := fmt None tpl (q_args q) in
                     Ok (LCtx (x_lint x ++ [LRec (q_id q) (q_loc q) m]) (x_sup x) (x_events x))
       end.
Fixpoint record_all (disabled : list str) (qs : list req) (x : lctx) : res lctx :=
  match qs with
  | nil => Ok x
  | q :: qs' => let? y := record_lint disabled q x in record_all disabled qs' y
  end.

(** python's order on tuples of numbers *)
Fixpoint loc_leb (a b : list Z) : bool :=
  match a, b with
  | nil, _ => true
  | _ :: _, nil => false
  | x :: a', y :: b' => if x <? y then true else if y <? x then false else loc_leb a' b'
  end.
Fixpoint loc_eqb (a b : list Z) : bool :=
  match a, b with
  | nil, nil => true
  | x :: a', y :: b' => (x =? y) && loc_eqb a' b'
  | _, _ => false
  end.
(** the key [(location, idstr)] of get_lint, 96-99; the sort is stable, which
    stands for the third component, the index *)
Definition rec_leb (a b : lrec) : bool :=
  if loc_eqb (l_loc a) (l_loc b) then str_leb (l_id a) (l_id b) else loc_leb (l_loc a) (l_loc b).
(** one event, 110-118 *)
Definition apply_ev (act : list str) (e : sevent) : list str :=
  match ev_mode e with
  | SAdd => ev_ids e ++ act
  | SRemove => fold_left (fun s i => sdiscard i s) (ev_ids e) act
  end.
(** the while loop, 109-118 *)
Fixpoint pump (n : Z) (evs : list sevent) (act : list str) : list sevent * list str :=
  match evs with
  | nil => (nil, act)
  | e :: evs' => if ev_line e <=? n then pump n evs' (apply_ev act e) else (evs, act)
  end.
(** the for loop, 107-121 *)
Fixpoint sift (recs : list lrec) (evs : list sevent) (act : list str) : list lrec :=
  match recs with
  | nil => nil
  | r :: rs =>
      let '(evs', act') := match l_loc r with nil => (evs, act) | n :: _ => pump n evs act end in
      if smem (l_id r) act' then sift rs evs' act' else r :: sift rs evs' act'
  end.
(** get_lint, 94-123 *)
Definition get_lint (x : lctx) : list lrec := sift (isort rec_leb (x_lint x)) (x_events x) nil.

(** LintRecord.__repr__, 19-29, and writeout, 125-127 *)
Definition dec2 (z : Z) : str := (if (0 <=? z) && (z <? 10) then [48%N] else nil) ++ dec z.
Definition show_rec (r : lrec) : str :=
  join $"," (map dec2 (firstn 2 (l_loc r))) ++ $": [" ++ l_id r ++ $"] " ++ l_msg r.
Definition report (path : str) (x : lctx) : str :=
  List.concat (map (fun r => path ++ $":" ++ show_rec r ++ [cNL]) (get_lint x)).

(** ** Configuration read by the checkers.
    [lc_re p s]: [re.match(p, s)] succeeds, for a configured pattern [p].
    [lc_cnode]: the COMMENT node at this place is an instance of CommentNode
    (argument parsers of some commands build a plain TreeNode instead);
    [lc_cond]: this ARGGROUP node is a ConditionalGroupNode; [lc_stackmsg]: the
    text of the node stack; [lc_plint]: what the parsers record (parse/funs).
    These four are left open: the theorems hold whatever they are.
    [ParserLint] defines the [lc_plint] of the shipped parsers. *)
Definition stack := list (pnode * nat).
Record lcfg := LCfg {
  lc_width : Z; lc_ending : option eol; lc_usetabs : bool; lc_tabpol : tab_policy; lc_tab : Z;
  lc_disabled : list str; lc_min_sp : Z; lc_max_sp : Z; lc_max_cond : Z; lc_max_returns : Z;
  lc_max_branches : Z; lc_max_args : Z; lc_max_stmts : Z;
  lc_function : str; lc_macro : str; lc_global : str; lc_internal : str; lc_local : str;
  lc_private : str; lc_public : str; lc_argument : str;
  lc_re : str -> str -> bool; lc_markup : mcfg; lc_ctx : pctx;
  lc_cnode : stack -> bool; lc_cond : pnode -> bool; lc_stackmsg : stack -> str;
  lc_plint : list token -> list req }.

(** ** basic_checker.py: checks on text *)
Definition is_blank_tab (c : chr) : bool := N.eqb c cSP || N.eqb c cTAB.
Fixpoint take_while {A} (p : A -> bool) (l : list A) : list A :=
  match l with nil => nil | a :: l' => if p a then a :: take_while p l' else nil end.
(** [s.find(c)] for a character that occurs *)
Fixpoint find_chr (c : chr) (s : str) : Z :=
  match s with nil => 0 | x :: s' => if N.eqb x c then 0 else 1 + find_chr c s' end.
Definition has_chr (c : chr) (s : str) : bool := existsb (N.eqb c) s.
(** the body of the loop of check_basics, 213-251 *)
Definition check_line (c : lcfg) (n : Z) (ln : str) : list req :=
  (if zlen ln >? lc_width c then [Req $"C0301" [n] [FI (zlen ln); FI (lc_width c)]] else nil)
  ++ (if endswith [cCR] ln
      then match lc_ending c with Some Unix => [Req $"C0327" [n] [FS $"windows"]] | _ => nil end
      else match lc_ending c with Some Windows => [Req $"C0327" [n] [FS $"unix"]] | _ => nil end)
  ++ (let ln := if endswith [cCR] ln then removelast ln else ln in
      (if zlen (rstrip ln) =? zlen ln then nil else [Req $"C0303" [n] nil])
      ++ let ind := take_while is_blank_tab ln in
         if negb (lc_usetabs c) then
           if has_chr cTAB ind then [Req $"C0306" [n; find_chr cTAB ind] [FS $"tab"; FS $"space"]] else nil
         else match lc_tabpol c with
         | RoundUp =>
             if has_chr cSP ind then [Req $"C0306" [n; find_chr cSP ind] [FS $"space"; FS $"tab"]] else nil
         | _ =>
             let sub := lstrip_by (N.eqb cTAB) ind in
             if has_chr cTAB sub
             then [Req $"C0306" [n; zlen ind - zlen sub] [FS $"space"; FS $"tab"]] else nil
         end).
Fixpoint check_lines (c : lcfg) (n : Z) (ls : list str) : list req :=
  match ls with nil => nil | l :: ls' => check_line c n l ++ check_lines c (n + 1) ls' end.
(** check_basics, 206-255 *)
Definition check_basics (c : lcfg) (src : str) : list req :=
  check_lines c 1 (split_on cNL src)
  ++ (if endswith [cNL] src then nil else [Req $"C0304" [zlen (split_on cNL src)] nil]).

(** [pattern.search(s)]: the state after the leftmost match *)
Fixpoint rsearch (r : re) (pv : option chr) (s : str) : option st :=
  match rmatch r pv s with
  | Some y => Some y
  | None => match s with nil => None | c :: s' => rsearch r (Some c) s' end
  end.
(** [pattern.sub(f, s)] for a pattern that never matches the empty string *)
Fixpoint re_subf (r : re) (f : st -> str) (fuel : nat) (pv : option chr) (s : str) : str :=
  match fuel with
  | O => s
  | S n =>
      match s with
      | nil => nil
      | c :: s' =>
          match rmatch r pv s with
          | Some y => f y ++ re_subf r f n (prev y) (rest y)
          | None => c :: re_subf r f n (Some c) s'
          end
      end
  end.
(** [pattern.findall(s)]: the captured groups *)
Fixpoint re_findall (r : re) (fuel : nat) (pv : option chr) (s : str) : list str :=
  match fuel with
  | O => nil
  | S n =>
      match s with
      | nil => nil
      | c :: s' =>
          match rmatch r pv s with
          | Some y => cap y :: re_findall r n (prev y) (rest y)
          | None => re_findall r n (Some c) s'
          end
      end
  end.
(** the class [A-Za-z0-9_./+-] *)
Definition idc (c : chr) : bool :=
  between 65 90 c || between 97 122 c || between 48 57 c || oneof [95; 46; 47; 43; 45]%N c.
Definition ref_body : re := RPlus (RAlt (RChr idc) (RSeq (C cBSL) (RChr (fun c => negb (idc c))))).
Definition bsl2 : re := RSeq (C cBSL) (C cBSL).
(** varref, 177-179 *)
Definition varref : re :=
  RSeqs [RNLB (N.eqb cBSL); RStar (RGrp bsl2); C cDOL; C cLC; ref_body; C cRC].
(** mock_varrefs, 167-185 *)
Fixpoint mock_loop (fuel : nat) (repl s : str) : res str :=
  match rsearch varref None s with
  | None => Ok s
  | Some _ => match fuel with
              | O => OutOfFuel
              | S n => mock_loop n repl (re_subf varref (fun y => cap y ++ repl) (List.length s) None s)
              end
  end.
Definition mock_varrefs (repl s : str) : res str := mock_loop (List.length s) repl s.

(** variables.CASE_SENSITIVE_REGEX.match and CASE_INSENSITIVE_REGEX.match,
    variables.py 497-500: the first alternative that matches a prefix.  Letter
    case is folded for ASCII only. *)
Fixpoint has_part (p s : str) : bool :=
  startswith p s || match s with nil => false | _ :: s' => has_part p s' end.
Definition vmatch (f : str -> str) (s : str) (p : vpat) : bool :=
  match p with
  | VLit l => startswith (f l) (f s)
  | VPat a b => startswith (f a) (f s) && has_part (f b) (f (take_until_nl (skipn (List.length a) s)))
  end.
Definition sensitive (s : str) : option vpat := find (vmatch (fun x => x) s) var_patterns.
Definition insensitive (s : str) : option vpat := find (vmatch upper s) var_patterns.
Definition is_builtin (s : str) : bool := match sensitive s with Some _ => true | None => false end.

Definition missing_suffix : re :=
  RSeqs [RNLB (N.eqb cBSL); RStar bsl2; C cDOL; C cLC; RGrp ref_body].
Definition missing_prefix : re :=
  RSeqs [RNLB (N.eqb cBSL); RStar bsl2; RGrp (RSeq (RAlt (C cDOL) (C cLC)) ref_body)].
(** check_tokens, 257-297.  [cat]: the variable catmatch, [None] while it is not
    bound; reading it unbound is an UnboundLocalError (here [AttrErr]). *)
Fixpoint check_tokens (cat : option str) (toks : list token) : res (list req) :=
  match toks with
  | nil => Ok nil
  | t :: r =>
      if negb (tmem (tt t) [QUOTED_LITERAL; UNQUOTED_LITERAL; BRACKET_ARGUMENT]) then check_tokens cat r
      else
        let? resolved := mock_varrefs $"foo" (spelling t) in
        let suffix :=
          match rsearch missing_suffix None resolved with
          | Some y => if is_builtin (cap y)
                      then match cat with
                           | None => Err AttrErr
                           | Some m => let? qs := check_tokens cat r in
                                       Ok (at_tok $"W0106" t [FS $"closing"; FS m] :: qs)
                           end
                      else check_tokens cat r
          | None => check_tokens cat r
          end in
        match rsearch missing_prefix None resolved with
        | Some y => if is_builtin (tl (cap y))
                    then if seqb (cap y) $"$ENV" then check_tokens (Some (cap y)) r
                         else let? qs := check_tokens (Some (cap y)) r in
                              Ok (at_tok $"W0106" t [FS $"open"; FS (cap y)] :: qs)
                    else suffix
        | None => suffix
        end
  end.

(** ** Tree helpers *)
Definition kids (n : pnode) : list pnode := match n with T _ => nil | N _ cs => cs end.
Definition is_stmt (n : pnode) : bool := match n with N (KStatement _) _ => true | _ => false end.
Definition sem (n : pnode) : list token := filter is_semantic (flat n).
(** StatementNode.get_funname, statement_node.py 42-43 *)
Definition funname (n : pnode) : str :=
  match kids n with
  | f :: _ => match flat f with t :: _ => lower (spelling t) | nil => nil end
  | nil => nil
  end.
(** StatementNode.argtree, statement_node.py 89-90: the node behind the parenthesis *)
Fixpoint argtree_in (cs : list pnode) : option pnode :=
  match cs with
  | nil => None
  | N KLParen _ :: r => find (fun n => match n with N _ _ => true | T _ => false end) r
  | _ :: r => argtree_in r
  end.
Definition argtree (n : pnode) : pnode :=
  match argtree_in (kids n) with Some a => a | None => N (KArgGroup None) nil end.
(** the nodes of a subtree in breadth-first order, each with its parent and index
    (find_statements_in_subtree and find_nodes_in_subtree, 24-60) *)
Definition entry := (pnode * option (pnode * nat))%type.
Fixpoint depth (n : pnode) : nat :=
  match n with
  | T _ => 1%nat
  | N _ cs => S (fold_right (fun c d => Nat.max (depth c) d) 0%nat cs)
  end.
Definition sons (e : entry) : list entry :=
  map (fun p => (snd p, Some (fst e, fst p))) (number 0 (kids (fst e))).
Fixpoint levels (fuel : nat) (l : list entry) : list entry :=
  match fuel with O => nil | S f => l ++ levels f (flat_map sons l) end.
Definition bfs (n : pnode) : list entry := levels (depth n) [(n, None)].
Definition stmts_named (names : list str) (n : pnode) : list entry :=
  filter (fun e => is_stmt (fst e) && smem (funname (fst e)) names) (bfs n).
(** FlowControlNode.get_block_with, body_nodes.py 97-102, for the child number [i];
    the blocks are the consecutive triples of children 0-2, 2-4, ... *)
Definition block_with (n : pnode) (i : nat) : option (pnode * pnode) :=
  let j := if Nat.even i then (i - 2)%nat else (i - 1)%nat in
  match nth_error (kids n) j, nth_error (kids n) (j + 1), nth_error (kids n) (j + 2) with
  | Some o, Some b, Some _ => Some (o, b)
  | _, _, _ => None
  end.
Definition is_flow (n : pnode) : bool := match n with N KFlow _ => true | _ => false end.

(** ** Checks that only record *)
Section Checks.
  Variable c : lcfg.

  (** check_varname, 678-700 *)
  Definition check_varname (name : str) (t : token) (what : str) : list req :=
    match insensitive name with
    | Some (VLit _) => if is_builtin name then nil
                       else [at_tok $"W0105" t [FS what; FS name]]
    | _ => nil
    end.
  (** SetFnNode.varname, funs/set.py 51-57: the first argument of the first group.
      [None]: reading the spelling raises AttributeError *)
  Definition set_varname (args : pnode) : option token :=
    match find (fun n => match n with N (KPargGroup _ _ _) _ => true | _ => false end) (kids args) with
    | Some g => hd_error (sem g)
    | None => None
    end.
  (** the tokens of [argtree.parg_groups[0]]; [None] is IndexError *)
  Definition first_group (args : pnode) : option (list token) :=
    match find (fun n => match n with N (KPargGroup _ _ _) _ => true | _ => false end) (kids args) with
    | Some g => Some (sem g)
    | None => None
    end.
  (** check_variable_assignments, 702-714 *)
  Fixpoint var_assignments (es : list entry) : res (list req) :=
    match es with
    | nil => Ok nil
    | (n, _) :: r =>
        let? t := (if seqb (funname n) $"set"
                   then match set_varname (argtree n) with Some t => Ok t | None => Err AttrErr end
                   else match first_group (argtree n) with
                        | Some (_ :: t :: _) => Ok t
                        | _ => Err IndexErr
                        end) in
        let? qs := var_assignments r in
        Ok (check_varname (spelling t) t $"Assignment to" ++ qs)
    end.
  Definition wordc (c : chr) : bool := between 65 90 c || between 97 122 c || between 48 57 c || N.eqb c 95.
  Definition ref_re : re := RSeqs [C cDOL; C cLC; RGrp (RPlus (RChr wordc)); C cRC].
  (** check_variable_references, 716-729 (word characters: ASCII only) *)
  Definition var_references (tree : pnode) : list req :=
    flat_map (fun t =>
      if tmem (tt t) [QUOTED_LITERAL; DEREF]
      then flat_map (fun v => check_varname v t $"Reference to")
                    (re_findall ref_re (List.length (spelling t)) None (spelling t))
      else nil) (sem tree).

  (** check_arggroup, 550-562 *)
  Fixpoint arggroup (seen : list str) (cs : list pnode) : res (list req) :=
    match cs with
    | nil => Ok nil
    | N KKwargGroup ks :: r =>
        match filter is_semantic (flats ks) with
        | nil => Err IndexErr
        | t :: _ =>
            let w := upper (spelling t) in
            if smem w [$"AND"; $"OR"; $"COMMAND"; $"PATTERN"; $"REGEX"] then arggroup seen r
            else let? qs := arggroup (w :: seen) r in
                 Ok ((if smem w seen then [at_tok $"E1122" t [FS w]] else nil) ++ qs)
        end
    | _ :: r => arggroup seen r
    end.
  (** get_min_npargs, parse/util.py 222-250 *)
  Definition min_npargs (n : nargs) : res Z :=
    match n with
    | NInt z => Ok z
    | NStr s =>
        if smem s [$"*"; $"?"] then Ok 0 else if seqb s $"+" then Ok 1 else
        match (if endswith $"+" s then py_int (removelast s) else None) with
        | Some z => Ok z
        | None => match py_int s with Some z => Ok z | None => Err ValueErr end
        end
    end.
  (** check_positional_group, 564-575 *)
  Definition positional (sp : option pspec) (cs : list pnode) : res (list req) :=
    match sp with
    | None => Err InternalError
    | Some p =>
        let? m := min_npargs (ps_nargs p) in
        let ts := filter is_semantic (flats cs) in
        Ok (if zlen ts <? m
            then [Req $"E1120" (match ts with t :: _ => loc3 (begin t) | nil => nil end) nil] else nil)
    end.

  (** check_is_in_loop, 577-602: is there a loop around? *)
  Fixpoint in_loop (s : stack) : bool :=
    match s with
    | nil => false
    | (n, i) :: s' =>
        if is_flow n then
          match block_with n i with
          | Some (o, _) => if smem (funname o) [$"foreach"; $"while"] then true else in_loop s'
          | None => in_loop s'
          end
        else in_loop s'
    end.
  (** get_scope_of_assignment, 124-152 *)
  Inductive scope := ScCache | ScInternal | ScParent | ScLocal | ScDirectory.
  Fixpoint block_scope (s : stack) : res scope :=
    match s with
    | nil => Ok ScDirectory
    | (n, i) :: s' =>
        if is_flow n then
          match block_with n i with
          | Some (o, _) => if seqb (funname o) $"function" then Ok ScLocal
                           else if seqb (funname o) $"macro" then Ok ScParent else block_scope s'
          | None => Err AttrErr
          end
        else block_scope s'
    end.
  (** the arguments of the last CACHE group, funs/set.py 84-111 *)
  Definition set_cache (args : pnode) : option (list token) :=
    fold_left (fun acc n =>
      match n with
      | N KKwargGroup cs =>
          match filter is_semantic (flats cs) with
          | t :: r => if kwarg_in t [$"CACHE"] then Some r else acc
          | nil => acc
          end
      | _ => acc
      end) (kids args) None.
  (** [parent_scope], funs/set.py 113-117: a later positional group starting with
      that word *)
  Definition set_parent (args : pnode) : bool :=
    match filter (fun n => match n with N (KPargGroup _ _ _) _ => true | _ => false end) (kids args) with
    | nil => false
    | _ :: gs => existsb (fun g => match flat g with t :: _ => kwarg_in t [$"PARENT_SCOPE"] | nil => false end) gs
    end.
  Definition scope_of (is_set : bool) (args : pnode) (s : stack) : res scope :=
    match (if is_set then set_cache args else None) with
    | Some ts => Ok (match ts with
                     | t :: _ => if seqb (spelling t) $"INTERNAL" then ScInternal else ScCache
                     | nil => ScCache
                     end)
    | None => if is_set && set_parent args then Ok ScParent else block_scope s
    end.
  Definition bars (l : list str) : str := join $"|" l.
  (** check_assignment, 604-669 *)
  Definition assignment (n : pnode) (s : stack) : res (list req) :=
    let is_set := seqb (funname n) $"set" in
    let? sc := scope_of is_set (argtree n) s in
    let? v := (if is_set then match set_varname (argtree n) with
                              | Some t => Ok (Some t) | None => Err AttrErr end
               else match first_group (argtree n) with
                    | Some (t :: r) => Ok (if smem (upper (spelling t)) [$"LENGTH"; $"GET"; $"JOIN"; $"SUBLIST"]
                                           then Some (last r t) else None)
                    | _ => Err IndexErr
                    end) in
    match v with
    | None => Ok nil
    | Some t =>
        let? r := mock_varrefs nil (spelling t) in
        match r with
        | nil => Ok nil
        | _ =>
            let '(what, pat) :=
              match sc with
              | ScCache => ($"CACHE variable", lc_global c)
              | ScInternal => ($"INTERNAL variable", lc_internal c)
              | ScParent => ($"PARENT_SCOPE variable", bars [lc_public c; lc_private c; lc_local c])
              | ScLocal => ($"local variable", lc_local c)
              | ScDirectory => ($"directory variable", bars [lc_public c; lc_private c])
              end in
            Ok (if lc_re c pat r then nil
                else [at_tok $"C0103" t [FS what; FS (spelling t); FS pat]])
        end
    end.
  (** check_statement, 671-676 *)
  Definition statement_checks (n : pnode) (s : stack) : res (list req) :=
    if smem (funname n) [$"break"; $"continue"] then
      Ok (if in_loop s then nil else [Req $"E0103" (loc3 (node_loc n)) [FS (funname n)]])
    else if smem (funname n) [$"set"; $"list"] then assignment n s else Ok nil.

  (** check_for_custom_parse_logic, 299-328 (and loop_contains_argn, 63-68) *)
  Definition contains_argn (n : pnode) : bool :=
    existsb (fun t => is_tt DEREF t && seqb (spelling t) $"${ARGN}") (sem (argtree n)).
  Fixpoint count_conds (var : str) (es : list entry) : res Z :=
    match es with
    | nil => Ok 0
    | (n, _) :: r =>
        if lc_cond c n then
          match sem n with
          | t :: ts => if seqb (spelling t) var
                       then match ts with
                            | nil => Err IndexErr
                            | u :: _ => let? z := count_conds var r in
                                Ok (if smem (spelling u) [$"STREQUAL"; $"MATCHES"] then 1 + z else z)
                            end
                       else count_conds var r
          | nil => count_conds var r
          end
        else count_conds var r
    end.
  Fixpoint parse_loops (es : list entry) : res (list req) :=
    match es with
    | nil => Ok nil
    | (n, p) :: r =>
        if contains_argn n then
          match p with
          | Some (par, i) =>
              match block_with par i, sem (argtree n) with
              | Some (_, b), v :: _ =>
                  let? z := count_conds (spelling v) (bfs b) in
                  if z >? lc_max_cond c then Ok [Req $"C0201" (loc3 (node_loc n)) nil] else parse_loops r
              | _, _ => Err AttrErr
              end
          | None => Err AttrErr
          end
        else parse_loops r
    end.
  Definition custom_parse (body : pnode) : res (list req) :=
    match stmts_named [$"cmake_parse_arguments"] body with
    | _ :: _ => Ok nil
    | nil => parse_loops (stmts_named [$"foreach"; $"while"] body)
    end.
  (** check_name_against_pattern, 361-372 *)
  Definition check_name (stmt : pnode) (pat : str) : res (list req) :=
    match sem stmt with
    | f :: _ :: t :: _ => Ok (if lc_re c pat (spelling t) then nil
                              else [at_tok $"C0103" t [FS (lower (spelling f)); FS (spelling t); FS pat]])
    | _ => Err IndexErr
    end.
  (** check_argument_names, 330-359 *)
  Fixpoint arg_names (seen uncase : list str) (ts : list token) : list req :=
    match ts with
    | nil => nil
    | t :: r =>
        if is_tt RIGHT_PAREN t then nil
        else if negb (is_tt WORD t) then at_tok $"E0109" t [FS (spelling t)] :: arg_names seen uncase r
        else
          (if smem (spelling t) seen then [at_tok $"E0108" t [FS (spelling t)]]
           else if smem (lower (spelling t)) uncase then [at_tok $"C0202" t [FS (spelling t)]]
           else if lc_re c (lc_argument c) (spelling t) then nil
           else [at_tok $"C0103" t [FS $"argument"; FS (spelling t); FS (lc_argument c)]])
          ++ arg_names (spelling t :: seen) (lower (spelling t) :: uncase) r
    end.
  Definition check_args (stmt : pnode) : list req :=
    let ts := tl (sem (argtree stmt)) in
    arg_names nil nil ts
    ++ (if zlen ts >? lc_max_args c
        then [Req $"R0913" (loc3 (node_loc stmt)) [FI (zlen ts); FI (lc_max_args c)]] else nil).
  (** check_defn, 374-406 *)
  Definition check_defn (stmt body : pnode) (pat : str) : res (list req) :=
    let? q1 := custom_parse body in
    let? q2 := check_name stmt pat in
    match rev (flat stmt) with
    | nil => Err IndexErr
    | t :: _ =>
        let ln := [line (begin t) + 1] in
        let over id n mx := if n >? mx then [Req id ln [FI n; FI mx]] else nil in
        Ok (q1 ++ q2 ++ check_args stmt
            ++ over $"R0911" (zlen (stmts_named [$"return"] body)) (lc_max_returns c)
            ++ over $"R0912" (zlen (stmts_named [$"if"; $"elseif"; $"else"] body)) (lc_max_branches c)
            ++ over $"R0915" (zlen (filter (fun e => is_stmt (fst e)) (bfs body))) (lc_max_stmts c))
    end.
  (** check_foreach, 418-430 *)
  Definition check_foreach (stmt : pnode) : res (list req) :=
    match sem stmt with
    | _ :: _ :: t :: _ => Ok (if lc_re c (lc_argument c) (spelling t) then nil
                              else [at_tok $"C0103" t [FS $"argument"; FS (spelling t); FS (lc_argument c)]])
    | _ => Err IndexErr
    end.
  (** check_flow_control, 432-441 *)
  Definition flow_checks (cs : list pnode) : res (list req) :=
    match cs with
    | nil => Err IndexErr
    | stmt :: r =>
        let f := funname stmt in
        if seqb f $"function" || seqb f $"macro" then
          match r with
          | body :: _ :: _ => check_defn stmt body (if seqb f $"function" then lc_function c else lc_macro c)
          | _ => Err AttrErr
          end
        else if seqb f $"foreach" then check_foreach stmt else Ok nil
    end.
  (** the branches of check_tree, 805-816, that only record *)
  Definition node_checks (k : kind) (cs : list pnode) (s : stack) : res (list req) :=
    match k with
    | KFlow => flow_checks cs
    | KArgGroup _ => arggroup nil cs
    | KStatement _ => statement_checks (N k cs) s
    | KPargGroup _ _ sp => positional sp cs
    | _ => Ok nil
    end.

  (** ** Pragmas *)
  (** [s.split()] *)
  Fixpoint py_split (cur s : str) : list str :=
    match s with
    | nil => match cur with nil => nil | _ => [rev cur] end
    | a :: s' => if is_uspace a
                 then match cur with nil => nil | _ => [rev cur] end ++ py_split nil s'
                 else py_split (a :: cur) s'
    end.
  Fixpoint split_eq (s : str) : option (str * str) :=
    match s with
    | nil => None
    | a :: s' => if N.eqb a cEQ then Some (nil, s')
                 else match split_eq s' with Some (x, y) => Some (a :: x, y) | None => None end
    end.
  (** parse_pragmas_from_token, 443-466: requests and codes to suppress *)
  Fixpoint pragma_items (row col : Z) (items : list str) : list req * list str :=
    match items with
    | nil => (nil, nil)
    | it :: r =>
        match split_eq it with
        | None => let '(q, s) := pragma_items row (col + zlen it + 1) r in
                  (Req $"E0011" [row; col] [FS it] :: q, s)
        | Some (key, value) =>
            let '(q, s) := pragma_items row col r in
            if seqb key $"disable" then
              let ids := split_on 44%N value in
              (map (fun i => Req $"E0012" [row; col] [FS i]) (filter (fun i => negb (is_idstr i)) ids) ++ q,
               filter is_idstr ids ++ s)
            else (Req $"E0011" [row; col] [FS key] :: q, s)
        end
    end.
  (** parse_pragmas_from_comment, 468-487 *)
  Definition pragma_prefix : str := $"# cmake-lint: ".
  Fixpoint pragmas (cs : list pnode) : list req * list str :=
    match cs with
    | nil => (nil, nil)
    | T t :: r =>
        if is_tt COMMENT t && startswith pragma_prefix (spelling t) then
          let '(q1, s1) := pragma_items (line (begin t)) (col (begin t) + zlen pragma_prefix)
                             (py_split nil (skipn (List.length pragma_prefix) (spelling t))) in
          let '(q2, s2) := pragmas r in (q1 ++ q2, s1 ++ s2)
        else pragmas r
    | N _ _ :: r => pragmas r
    end.
  Definition first_line (n : pnode) : res Z :=
    match flat n with t :: _ => Ok (line (begin t)) | nil => Err IndexErr end.
  Definition record (qs : list req) (x : lctx) : res lctx := record_all (lc_disabled c) qs x.

  (** ** check_body, 489-548 *)
  Definition is_kind (p : kind -> bool) (n : option pnode) : bool :=
    match n with Some (N k _) => p k | _ => false end.
  Definition k_ws k := match k with KWhitespace => true | _ => false end.
  Definition k_comment k := match k with KComment _ => true | _ => false end.
  (** the docstring checks, 509-518 (with statement_is_fundef, 71-78, and
      get_prefix_comment, 81-100), for a flow-control child *)
  Definition docstring (cs : list pnode) (p0 p1 : option pnode) : res (list req) :=
    match cs with
    | nil => Err IndexErr
    | stmt :: _ =>
        match sem stmt with
        | t :: _ =>
            if smem (lower (spelling t)) [$"function"; $"macro"] then
              match filter is_semantic (flats cs) with
              | nil => Err IndexErr
              | u :: _ =>
                  match p0, p1 with
                  | Some (N k0 cs0), Some (N (KComment ex) cs1) =>
                      if k_ws k0 && (node_newlines (N k0 cs0) <=? 1) then
                        let? ls := comment_inlines (lc_markup c) ex cs1 in
                        Ok (match strip (List.concat ls) with nil => [at_tok $"C0112" u nil] | _ => nil end)
                      else Ok [at_tok $"C0111" u nil]
                  | _, _ => Ok [at_tok $"C0111" u nil]
                  end
              end
            else Ok nil
        | nil => Ok nil
        end
    end.
  (** the spacing checks, 523-535 *)
  Definition spacing (n : pnode) (p0 : option pnode) : list req :=
    let at_n id a := [Req id (loc3 (node_loc n)) a] in
    match p0 with
    | None => nil
    | Some p =>
        if negb (is_kind k_ws p0) then at_n $"C0321" nil
        else if node_newlines p <? 1 then at_n $"C0321" nil
        else if node_newlines p <? lc_min_sp c then at_n $"C0305" [FS $"not enough"]
        else if node_newlines p >? lc_max_sp c then at_n $"C0305" [FS $"too many"]
        else nil
    end.
  Fixpoint has_stmt (n : pnode) : bool :=
    match n with
    | T _ => false
    | N k cs => is_stmt n || existsb has_stmt cs
    end.
  Fixpoint body_loop (cs : list pnode) (p0 p1 : option pnode) (sups : list str) (x : lctx)
    : res (list str * lctx) :=
    match cs with
    | nil => Ok (sups, x)
    | T _ :: r => body_loop r p0 p1 sups x
    | N k ks :: r =>
        let n := N k ks in
        let? (sups, x) :=
          (if k_comment k then
             let '(qs, ids) := pragmas ks in
             let? x := record qs x in
             match ids with
             | nil => Ok (sups, x)
             | _ => let? ln := first_line n in
                    let '(new, x) := suppress ln ids x in Ok (sups ++ new, x)
             end
           else Ok (sups, x)) in
        let? q1 := (if is_flow n then docstring ks p0 p1 else Ok nil) in
        let q2 := if is_flow n || is_stmt n then spacing n p0 else nil in
        let q3 := if is_stmt n && smem (funname n) [$"break"; $"continue"; $"return"] && existsb has_stmt r
                  then [Req $"W0101" (loc3 (node_loc n)) nil] else nil in
        let? x := record (q1 ++ q2 ++ q3) x in
        body_loop r (Some n) p0 sups x
    end.
  Definition check_body (cs : list pnode) (x : lctx) : res lctx :=
    let? (sups, x) := body_loop cs None None nil x in
    match rev (flats cs) with
    | nil => Err IndexErr
    | t :: _ => Ok (match sups with nil => x | _ => unsuppress (line (begin t)) sups x end)
    end.
  Definition in_stmt (s : stack) : bool := existsb (fun p => is_stmt (fst p)) s.
  (** check_comment, 731-742 *)
  Definition check_comment (cs : list pnode) (s : stack) (x : lctx) : res lctx :=
    if negb (in_stmt s) then Ok x else
    let '(qs, ids) := pragmas cs in
    let? x := record qs x in
    match ids with
    | nil => Ok x
    | _ => let? ln := first_line (N KBody cs) in
           let '(new, x) := suppress ln ids x in
           Ok (unsuppress (ln + 1) new x)
    end.

  (** ** check_token, 763-794.  The state carries the pending indentation token. *)
  Record cst := CSt { s_ctx : lctx; s_ind : option token }.
  Definition scope_depth (s : stack) : Z :=
    zlen (filter (fun p => match fst p with N KBody _ => true | _ => false end) s).
  Definition in_arggroup (s : stack) : bool :=
    existsb (fun p => match fst p with N (KArgGroup _) _ => true | _ => false end) s.
  Definition check_token (t : token) (s : stack) (x : cst) : res cst :=
    if is_tt WHITESPACE t && (col (begin t) =? 0) then Ok (CSt (s_ctx x) (Some t))
    else match s_ind x with
    | None => Ok x
    | Some i =>
        let desired := (scope_depth s - 1) * lc_tab c in
        let actual := zlen (spelling i) + count_chr cTAB (spelling i) * (lc_tab c - 1) in
        let args m := [FS (spelling i); FS (spelling t); FS (spaces desired); FS m] in
        let qs := if in_arggroup s
                  then if actual <? desired then [at_tok $"C0307" t (args $">")] else nil
                  else if actual =? desired then nil else [at_tok $"C0307" t (args (lc_stackmsg c s))] in
        let? y := record qs (s_ctx x) in Ok (CSt y None)
    end.
  (** check_tree, 796-820; the stack holds the ancestors *)
  Fixpoint check_tree (s : stack) (n : pnode) (x : cst) {struct n} : res cst :=
    match n with
    | T t => check_token t s x
    | N k cs =>
        let? y := match k with
                  | KBody => check_body cs (s_ctx x)
                  | KComment _ => if lc_cnode c s then check_comment cs s (s_ctx x) else Ok (s_ctx x)
                  | _ => let? qs := node_checks k cs s in record qs (s_ctx x)
                  end in
        (fix go (i : nat) (l : list pnode) (x : cst) : res cst :=
           match l with
           | nil => Ok x
           | a :: l' => let? z := check_tree ((N k cs, i) :: s) a x in go (S i) l' z
           end) 0%nat cs (CSt y (s_ind x))
    end.
  (** check_parse_tree, 822-825 *)
  Definition check_parse_tree (tree : pnode) (x : lctx) : res lctx :=
    let? qs := var_assignments (stmts_named [$"set"; $"list"] tree) in
    let? x := record qs x in
    let? x := record (var_references tree) x in
    let? y := check_tree nil tree (CSt x None) in
    Ok (s_ctx y).
  (** process_file, lint/__main__.py 27-47.  With line_ending 'auto' the missing
      method Configuration.set_line_ending is called (33-35). *)
  Definition lint_file (src : str) (x : lctx) : res lctx :=
    match lc_ending c with
    | None => Err AttrErr
    | Some _ =>
        let? x := record (check_basics c src) x in
        let? toks := tokenize src in
        let? qs := check_tokens None toks in
        let? x := record qs x in
        let? tree := parse (lc_ctx c) toks in
        let? x := record (lc_plint c toks) x in
        check_parse_tree tree x
    end.
End Checks.

(** ** The command, lint/__main__.py 97-203 *)
(** get_category_counts and write_summary, lint_util.py 153-174.  The records come
    from record_lint, so the first letter is a key of category_names. *)
Definition categories : list (chr * str) :=
  [(67%N, $"Convention"); (69%N, $"     Error"); (82%N, $"  Refactor"); (87%N, $"   Warning")].
Definition in_category (ch : chr) (r : lrec) : bool :=
  match l_id r with c :: _ => N.eqb c ch | nil => false end.
Definition summary_line (rs : list lrec) (p : chr * str) : str :=
  let n := zlen (filter (in_category (fst p)) rs) in
  if n =? 0 then nil else $"  " ++ snd p ++ $": " ++ dec n ++ [cNL].
Definition summary {K} (ctxs : list (K * lctx)) : str :=
  nl [$"Summary"; $"======="] ++ $"files scanned: " ++ dec (zlen ctxs) ++ [cNL]
  ++ $"found lint:" ++ [cNL]
  ++ List.concat (map (summary_line (flat_map (fun p => get_lint (snd p)) ctxs)) categories) ++ [cNL].

(** what opening and reading a path gives, 150-165 *)
Inductive lread := CannotOpen | CannotDecode | Text (s : str).
(** get_file_ctx, lint_util.py 146-151 *)
Fixpoint ctx_of (p : str) (m : list (str * lctx)) : lctx :=
  match m with nil => ctx0 | (q, x) :: m' => if seqb p q then x else ctx_of p m' end.
Fixpoint set_ctx (p : str) (x : lctx) (m : list (str * lctx)) : list (str * lctx) :=
  match m with
  | nil => [(p, x)]
  | (q, y) :: m' => if seqb p q then (q, x) :: m' else (q, y) :: set_ctx p x m'
  end.
Section Main.
  (** [rd]: the files; [cf]: the configuration found for a path, 140-146 *)
  Variable rd : str -> lread.
  Variable cf : str -> res lcfg.
  Variable plain : bool. (* --suppress-decorations *)

  (** the loop over the paths, 137-175.  For the path "-" the variable infile_path
      becomes a file descriptor (147-148): [len] of it raises TypeError (170) and
      ["{:s}".format] of it ValueError (lint_util.py 127). *)
  Fixpoint lint_loop (ps : list str) (m : list (str * lctx)) (o : str) (rc : Z)
    : res (list (str * lctx) * str * Z) :=
    match ps with
    | nil => Ok (m, o, rc)
    | p :: ps' =>
        let? c := cf p in
        match rd p with
        | CannotOpen | CannotDecode => lint_loop ps' m o 1
        | Text s =>
            let? x := lint_file c s (ctx_of p m) in
            let bad := match get_lint x with nil => false | _ => true end in
            if seqb p $"-" && negb plain then Err TypeErr
            else if seqb p $"-" && bad then Err ValueErr
            else lint_loop ps' (set_ctx p x m)
                   (o ++ (if plain then nil else p ++ [cNL] ++ repeat 61%N (List.length p) ++ [cNL])
                      ++ report p x ++ (if plain then nil else [cNL]))
                   (if bad then 1 else rc)
        end
    end.
  (** inner_main, 97-180, after the arguments are parsed *)
  Definition inner_lint (ps : list str) : res (str * Z) :=
    if smem $"-" ps && negb (zlen ps =? 1) then Err AssertionErr else
    let? (m, o, rc) := lint_loop ps nil nil 0 in
    Ok (o ++ (if plain then nil else summary m), rc).
  (** main, 183-203: the exit status *)
  Definition lint_status (ps : list str) : Z :=
    match inner_lint ps with
    | Ok (_, rc) => rc
    | Err UserError => 1
    | _ => 2
    end.
End Main.

(** ** A default configuration, lint section of configuration.py 95-177.  The
    patterns are not interpreted: here every name matches. *)
Definition default_lcfg : lcfg :=
  LCfg 80 (Some Unix) false UseSpace 2 nil 1 2 2 6 12 5 50
       $"[0-9a-z_]+" $"[0-9A-Z_]+" $"[A-Z][0-9A-Z_]+" $"_[A-Z][0-9A-Z_]+" $"[a-z][a-z0-9_]+"
       $"_[0-9a-z_]+" $"[A-Z][0-9A-Z_]+" $"[a-z][a-z0-9_]+"
       (fun _ _ => true) default_mcfg the_ctx (fun _ => true) (fun _ => false) (fun _ => nil)
       (fun _ => nil).
Definition lint (src : str) : res (list str) :=
  let? x := lint_file default_lcfg src ctx0 in Ok (map show_rec (get_lint x)).
