(** * Parse: model of the argument parsers and of the body/statement parser
    (cmakelang/parse) *)
From Verif Require Import Base Regex Lex Tree.

(** ** Parser values *)

(** What a command (or keyword) parses its arguments with.  The python code uses
    arbitrary callables [f(ctx, tokens, breakstack)]; every callable of the code
    base is one of these shapes.
    - [PStd]: StandardArgTree.parse2, argument_nodes.py 78-196
    - [PPos]: PositionalParser, argument_nodes.py 453-467
    - [PTuple]: TupleParser, additional_nodes.py 105-120
    - [PShell]: ShellCommandNode.parse, additional_nodes.py 123-141
    - [PCond]: ConditionalGroupNode.parse, argument_nodes.py 533-622
    - [PNull]: null_parser, funs/list.py 15-16
    - [PRaise]: a parser that raises before consuming anything
    - [PDisp]: a dispatcher that inspects the pending tokens and picks a parser
    - [PSeq]: the hand-written parsers that parse a fixed prefix and then loop
      over keyword and positional groups (set, foreach, add_library OBJECT, ...)
    - [PInstallTargets]: parse_install_targets, which refers to itself
    - [PAddExe]/[PAddLib]: the two hand-written state machines. *)
Inductive parser :=
| PStd (cs : cspec) (kw : list (str * parser))
| PPos (sp : pspec)
| PTuple (npargs : nargs) (ntup : Z) (flags : list str)
| PShell | PCond | PNull
| PRaise (e : err)
| PDisp (f : list token -> parser)
| PSeq (items : list seqitem) (lp : option gspec)
| PInstallTargets
| PAddExe (sortable : bool)
| PAddLib (sortable : bool)
(** One step of the fixed prefix of a hand-written parser. *)
with seqitem :=
| SWs                                       (* skip whitespace *)
| SWsComments                               (* consume_whitespace_and_comments *)
| SPos (sp : pspec) (extra : list (list str)) (must : bool)
    (* a positional group; [extra]: KwargBreakers added; [must]: the assertion
       that something was consumed *)
(** The loop of a hand-written parser: [g_keep t] says the comment token [t] is
    not put in its own node but handed to the sub-parser; [g_step children tokens]
    picks the sub-parser. *)
with gspec :=
| GSpec (g_keep : token -> bool) (g_step : list pnode -> list token -> gaction)
with gaction :=
| GKw (word : str) (p : parser) (extra : list (list str)) (chk : pnode -> list token -> option err)
| GPos (sp : pspec) (extra : list (list str)) (push : bool) (addtags : list str)
| GFlags (flags : list str) (extra : list (list str)).

(** The parts of ParseContext the parsers read, parse/__init__.py 25-50:
    [explicit] is the match of markup.explicit_trailing_pattern on a comment
    spelling (util.py 139-149), [vartags] is parse.vartags_, [db] the parse_db. *)
Record pctx := PCtx {
  explicit : str -> bool;
  vartags : list ((str -> bool) * list str);
  db : str -> option parser }.

Fixpoint kw_lookup (k : str) (kw : list (str * parser)) : option parser :=
  match kw with
  | nil => None
  | (k', p) :: kw' => if seqb k k' then Some p else kw_lookup k kw'
  end.

(** Follow a chain of dispatchers; they only look at the pending tokens. *)
Fixpoint resolve (p : parser) (toks : list token) : parser :=
  match p with
  | PDisp f => resolve (f toks) toks
  | _ => p
  end.

(** ** Whitespace and comments, parse/simple_nodes.py *)

(** [while tokens and tokens[0].type in WHITESPACE_TOKENS: append(pop)] *)
Fixpoint take_ws (toks : list token) : list pnode * list token :=
  match toks with
  | t :: toks' => if is_ws t then let '(a, r) := take_ws toks' in (T t :: a, r) else (nil, toks)
  | nil => (nil, nil)
  end.

(** The joining loop shared by CommentNode.consume (simple_nodes.py 74-101, with
    [p] = COMMENT tokens) and consume_implicit_trailing (138-163, with [p] =
    valid trailing comments). *)
Fixpoint cloop (p : token -> bool) (last : option token) (toks : list token)
  : list pnode * list token :=
  match toks with
  | t :: toks' =>
      if p t && (match last with None => true | Some l => col (begin l) =? col (begin t) end)
      then
        match toks' with
        | n :: r1 =>
            match r1 with
            | c :: r2 =>
                if is_tt NEWLINE n && p c
                then let '(a, r) := cloop p (Some t) r1 in (T t :: T n :: a, r)
                else
                  match r2 with
                  | c2 :: _ =>
                      if is_tt NEWLINE n && is_tt WHITESPACE c && p c2
                      then let '(a, r) := cloop p (Some t) r2 in (T t :: T n :: T c :: a, r)
                      else let '(a, r) := cloop p (Some t) toks' in (T t :: a, r)
                  | nil => let '(a, r) := cloop p (Some t) toks' in (T t :: a, r)
                  end
            | nil => let '(a, r) := cloop p (Some t) toks' in (T t :: a, r)
            end
        | nil => ([T t], nil)
        end
      else (nil, toks)
  | nil => (nil, nil)
  end.

(** CommentNode.consume, simple_nodes.py 55-106 *)
Definition consume_comment (toks : list token) : res (pnode * list token) :=
  match toks with
  | nil => Err IndexErr
  | t :: toks' =>
      if tmem (tt t) [BRACKET_COMMENT; FORMAT_OFF; FORMAT_ON]
      then Ok (N (KComment false) [T t], toks')
      else match cloop (is_tt COMMENT) None toks with
           | (nil, _) => Err AssertionErr
           | (a, r) => Ok (N (KComment false) a, r)
           end
  end.

(** next_is_explicit_trailing_comment, util.py 140-150 *)
Fixpoint next_is_explicit (ctx : pctx) (toks : list token) : bool :=
  match toks with
  | nil => false
  | t :: toks' => if is_ws t then next_is_explicit ctx toks'
                  else is_tt COMMENT t && explicit ctx (spelling t)
  end.

(** next_is_trailing_comment, util.py 160-181 *)
Definition next_is_trailing (ctx : pctx) (toks : list token) : bool :=
  match toks with
  | nil => false
  | t0 :: r =>
      next_is_explicit ctx toks
      || is_valid_trailing t0
      || match r with
         | t1 :: _ => is_tt WHITESPACE t0 && is_valid_trailing t1
         | nil => false
         end
  end.

(** the loop of consume_explicit_trailing, simple_nodes.py 120-121 *)
Fixpoint exloop (ctx : pctx) (toks : list token) : list pnode * list token :=
  match toks with
  | nil => (nil, nil)
  | t :: toks' =>
      if next_is_explicit ctx toks
      then let '(a, r) := exloop ctx toks' in (T t :: a, r)
      else (nil, toks)
  end.

(** CommentNode.consume_trailing, simple_nodes.py 165-177, with
    consume_explicit_trailing 107-121 and consume_implicit_trailing 123-163:
    the children appended to the parent, and the remaining tokens *)
Definition consume_trailing (ctx : pctx) (toks : list token) : list pnode * list token :=
  if negb (next_is_trailing ctx toks) then (nil, toks)
  else if next_is_explicit ctx toks then
    let '(ws, r) := take_ws toks in
    let '(a, r') := exloop ctx r in
    (ws ++ [N (KComment true) a], r')
  else
    let '(ws, r) := match toks with
                    | t :: r => if is_tt WHITESPACE t then ([T t], r) else (nil, toks)
                    | nil => (nil, nil)
                    end in
    let '(a, r') := cloop is_valid_trailing None r in
    (ws ++ [N (KComment false) a], r').

(** consume_whitespace_and_comments, simple_nodes.py 201-228.  Fuel: the number
    of tokens; every iteration consumes one. *)
Fixpoint take_wsc (fuel : nat) (toks : list token) : res (list pnode * list token) :=
  match fuel with
  | O => OutOfFuel
  | S f =>
      match toks with
      | nil => Ok (nil, nil)
      | t :: toks' =>
          if is_ws t then
            let? (a, r) := take_wsc f toks' in Ok (T t :: a, r)
          else if is_comment t then
            let? (c, r) := consume_comment toks in
            let? (a, r') := take_wsc f r in Ok (c :: a, r')
          else if is_onoff t then
            let? (a, r) := take_wsc f toks' in Ok (N KOnOff [T t] :: a, r)
          else Ok (nil, toks)
      end
  end.

(** comment_belongs_up_tree, util.py 374-420: [nested] is "ctx.argstack is not
    empty", [children] the children of the node so far *)
Definition belongs_up (nested : bool) (toks : list token) (children : list pnode)
  (bs : list breaker) : bool :=
  match nth_semantic toks 0, toks with
  | Some s, t :: _ =>
      should_break s bs && nested
      && (col (begin t) <? col (children_loc children))
  | _, _ => false
  end.

(** ** Leaf parsers *)

(** TupleGroupNode.parse, additional_nodes.py 28-102.  [sub] is the open inner
    group (children, count), [acc] the finished children of the tree. *)
Definition tuple_spec (flags : list str) : pspec := PSpec (NInt 2) false nil flags false None.
Definition close_sub (flags : list str) (acc : list pnode) (sub : option (list pnode)) (late : list pnode)
  : list pnode :=
  acc ++ match sub with
         | Some cs => [N (KPargGroup false nil (Some (tuple_spec flags))) cs]
         | None => nil
         end ++ late.
(** Whitespace, comments and sentinels met while an inner group is open are
    appended to the tree after that group (its children keep growing): [late]. *)
Fixpoint tuple_loop (fuel : nat) (ctx : pctx) (npargs : nargs) (ntup : Z) (flags : list str)
  (bs : list breaker) (np nt : Z) (acc : list pnode) (sub : option (list pnode)) (late : list pnode)
  (toks : list token) : res (list pnode * list token) :=
  match fuel with
  | O => OutOfFuel
  | S f =>
      let done := Ok (close_sub flags acc sub late, toks) in
      match toks with
      | nil => done
      | t :: toks' =>
          let? full := pargs_are_full npargs np in
          if full then done
          else if should_break t bs then done
          else if is_ws t then
            tuple_loop f ctx npargs ntup flags bs np nt acc sub (late ++ [T t]) toks'
          else if is_comment t then
            tuple_loop f ctx npargs ntup flags bs np nt acc sub
              (late ++ [N (KComment false) [T t]]) toks'
          else
            match toks' with
            | nil => Err IndexErr
            | t' :: toks'' =>
                if is_onoff t' then
                  tuple_loop f ctx npargs ntup flags bs np nt acc sub
                    (late ++ [N KOnOff [T t']]) toks''
                else
                  let '(acc1, sub1, late1, nt1) :=
                    match sub with
                    | Some cs => (acc, cs, late, nt)
                    | None => (acc ++ late, nil, nil, 0)
                    end in
                  let k := if kwarg_in t flags then KFlag else KArgument in
                  let '(tr, r) := consume_trailing ctx toks' in
                  let sub2 := sub1 ++ [N k (T t :: tr)] in
                  if nt1 + 1 >=? ntup
                  then tuple_loop f ctx npargs ntup flags bs (np + 1) (nt1 + 1)
                         (close_sub flags acc1 (Some sub2) late1) None nil r
                  else tuple_loop f ctx npargs ntup flags bs np (nt1 + 1)
                         acc1 (Some sub2) late1 r
            end
      end
  end.

(** FlagGroupNode.parse, additional_nodes.py 165-199 *)
Fixpoint flag_loop (fuel : nat) (ctx : pctx) (flags : list str) (bs : list breaker)
  (acc : list pnode) (toks : list token) : res (list pnode * list token) :=
  match fuel with
  | O => OutOfFuel
  | S f =>
      match toks with
      | nil => Ok (acc, nil)
      | t :: toks' =>
          if should_break t bs then Ok (acc, toks)
          else if is_ws t then flag_loop f ctx flags bs (acc ++ [T t]) toks'
          else if negb (smem (upper (spelling t)) flags) then Ok (acc, toks)
          else
            let '(tr, r) := consume_trailing ctx toks' in
            flag_loop f ctx flags bs (acc ++ [N KFlag (T t :: tr)]) r
      end
  end.

(** PositionalSpec("+") *)
Definition pspec_plus : pspec := PSpec (NStr $"+") false nil nil false None.
(** PositionalGroupNode(sortable, tags=["file-list"]) with spec "+" *)
Definition srcgroup (sortable : bool) (cs : list pnode) : pnode :=
  N (KPargGroup sortable [$"file-list"] (Some pspec_plus)) cs.

(** parse_add_executable_standard, funs/add_executable.py 57-146, and
    parse_add_library_standard, funs/add_library.py 24-130: one state machine.
    [tree]: children of the tree before the groups; [g1]: the name group;
    [g2]: the source group; [tail]: children of the tree after the groups.
    [st]: 1 name, 2 type (library) or flags (executable), 3 flag (library only),
    4 sources. [at_tree]: active_depth has gone back to the tree. *)
Record amach := AMach {
  a_st : Z; a_sort : bool; a_tree : list pnode; a_g1 : list pnode;
  a_g2 : option (bool * list pnode); a_tail : list pnode; a_at_tree : bool }.
(** active_depth.children.append(n) *)
Definition a_append (m : amach) (n : pnode) : amach :=
  if a_at_tree m then AMach (a_st m) (a_sort m) (a_tree m) (a_g1 m) (a_g2 m) (a_tail m ++ [n]) true
  else match a_g2 m with
       | Some (s, cs) => AMach (a_st m) (a_sort m) (a_tree m) (a_g1 m) (Some (s, cs ++ [n])) (a_tail m) false
       | None => if a_st m =? 1
                 then AMach (a_st m) (a_sort m) (a_tree m ++ [n]) (a_g1 m) None (a_tail m) false
                 else AMach (a_st m) (a_sort m) (a_tree m) (a_g1 m ++ [n]) None (a_tail m) false
       end.
Definition a_done (m : amach) : list pnode :=
  a_tree m
  ++ (if a_st m =? 1 then nil
      else [N (KPargGroup false nil (Some pspec_plus)) (a_g1 m)])
  ++ match a_g2 m with Some (s, cs) => [srcgroup s cs] | None => nil end
  ++ a_tail m.
Definition lib_types : list str := [$"STATIC"; $"SHARED"; $"MODULE"; $"OBJECT"].
Definition exe_flags : list str := [$"WIN32"; $"MACOSX_BUNDLE"; $"EXCLUDE_FROM_ALL"].

Fixpoint add_loop (fuel : nat) (ctx : pctx) (islib : bool) (bs : list breaker)
  (m : amach) (toks : list token) : res (list pnode * list token) :=
  match fuel with
  | O => OutOfFuel
  | S f =>
      match toks with
      | nil => Ok (a_done m, nil)
      | t :: toks' =>
          if is_tt RIGHT_PAREN t then Ok (a_done m, toks)
          else if is_ws t then add_loop f ctx islib bs (a_append m (T t)) toks'
          else if is_comment t then
            let s' :=
              if a_st m >? 1 then
                if tag_in t [$"unsort"; $"unsortable"] then false
                else if islib && tag_in t [$"sort"; $"sortable"] then true
                else a_sort m
              else a_sort m in
            let m' := a_append m (N (KComment false) [T t]) in
            add_loop f ctx islib bs
              (AMach (a_st m') s' (a_tree m') (a_g1 m') (a_g2 m') (a_tail m') (a_at_tree m')) toks'
          else if a_st m =? 1 then
            let '(tr, r) := consume_trailing ctx toks' in
            add_loop f ctx islib bs
              (AMach 2 (a_sort m) (a_tree m) [N KArgument (T t :: tr)] None nil false) r
          else if a_st m =? 2 then
            if islib then
              if kwarg_in t lib_types then
                let '(tr, r) := consume_trailing ctx toks' in
                add_loop f ctx islib bs
                  (AMach 3 (a_sort m) (a_tree m) (a_g1 m ++ [N KFlag (T t :: tr)]) None nil false) r
              else add_loop f ctx islib bs
                  (AMach 3 (a_sort m) (a_tree m) (a_g1 m) None nil false) toks
            else
              if kwarg_in t exe_flags then
                let '(tr, r) := consume_trailing ctx toks' in
                add_loop f ctx islib bs
                  (AMach 2 (a_sort m) (a_tree m) (a_g1 m ++ [N KFlag (T t :: tr)]) None nil false) r
              else add_loop f ctx islib bs
                  (AMach 4 (a_sort m) (a_tree m) (a_g1 m) (Some (a_sort m, nil)) nil false) toks
          else if a_st m =? 3 then
            if kwarg_in t [$"EXCLUDE_FROM_ALL"] then
              let '(tr, r) := consume_trailing ctx toks' in
              add_loop f ctx islib bs
                (AMach 4 (a_sort m) (a_tree m) (a_g1 m ++ [N KFlag (T t :: tr)])
                       (Some (a_sort m, nil)) nil false) r
            else add_loop f ctx islib bs
                (AMach 4 (a_sort m) (a_tree m) (a_g1 m) (Some (a_sort m, nil)) nil false) toks
          else
            let '(tr, r) := consume_trailing ctx toks' in
            let arg := N KArgument (T t :: tr) in
            let g2 := match a_g2 m with
                      | Some (s, cs) => Some (s, cs ++ [arg])
                      | None => Some (a_sort m, [arg])
                      end in
            add_loop f ctx islib bs
              (AMach (a_st m) (a_sort m) (a_tree m) (a_g1 m) g2 (a_tail m)
                     (a_at_tree m || only_cw_remain r bs)) r
      end
  end.

(** ** install(TARGETS), funs/install.py 50-140 *)
Definition pos (n : nargs) (flags : list str) : parser := PPos (PSpec n false nil flags false None).
Definition pos1 : parser := pos (NInt 1) nil.
Definition posplus : parser := pos (NStr $"+") nil.
Definition install_kwargs : list (str * parser) := [
  ($"TARGETS", posplus); ($"EXPORT", pos1); ($"INCLUDES", pos (NStr $"+") [$"DESTINATION"]);
  ($"DESTINATION", pos1); ($"PERMISSIONS", posplus); ($"CONFIGURATIONS", posplus);
  ($"COMPONENT", pos1); ($"NAMELINK_COMPONENT", pos1)].
Definition install_flags : list str :=
  [$"OPTIONAL"; $"EXCLUDE_FROM_ALL"; $"NAMELINK_ONLY"; $"NAMELINK_SKIP"].
Definition designated : list str :=
  [$"ARCHIVE"; $"LIBRARY"; $"RUNTIME"; $"OBJECTS"; $"FRAMEWORK";
   $"BUNDLE"; $"PRIVATE_HEADER"; $"PUBLIC_HEADER"; $"RESOURCE"].
Definition no_check (_ : pnode) (_ : list token) : option err := None.
Definition install_step (_ : list pnode) (toks : list token) : gaction :=
  let keys := map fst install_kwargs in
  let dflt := GPos (PSpec (NStr $"+") false nil install_flags false None)
                   [keys ++ designated] false nil in
  match toks with
  | t :: _ =>
      match normalized_kwarg t with
      | Some w =>
          if smem w designated
          then GKw w PInstallTargets [designated ++ [$"INCLUDES"]] no_check
          else match kw_lookup w install_kwargs with
               | Some p => GKw w p [keys ++ designated ++ install_flags] no_check
               | None => dflt
               end
      | None => dflt
      end
  | nil => dflt
  end.
Definition install_targets : parser :=
  PSeq [SWs] (Some (GSpec (fun _ => false) install_step)).

(** ** The recursive argument parsers *)

(** DEFAULT_PSPEC, argument_nodes.py 31 *)
Definition default_pspec : pspec := PSpec (NStr $"*") false nil nil false None.
(** argument_nodes.py 102-111: the specification reused for extra positional
    arguments, and the remaining list *)
Definition split_default (pargs : list pspec) : pspec * list pspec :=
  match pargs with
  | [p] => if ps_legacy p && negb (is_exact (ps_nargs p)) then (p, nil) else (default_pspec, pargs)
  | _ => (default_pspec, pargs)
  end.
(** the CommandSpec of ShellCommandNode, additional_nodes.py 135-136 with
    argument_nodes.py 212-225 *)
Definition legacy_cspec (n : nargs) (flags : list str) : cspec :=
  CSpec $"<none>" $"<none>" [PSpec n false nil flags true None] None.
Definition add_tag (tag : str) (n : pnode) : pnode :=
  match n with
  | N (KPargGroup s tags sp) cs => N (KPargGroup s (tags ++ [tag]) sp) cs
  | _ => n
  end.
Definition add_tags (tags : list str) (n : pnode) : pnode := fold_left (fun n t => add_tag t n) tags n.

(** CONDITIONAL_FLAGS, argument_nodes.py 508-530 *)
Definition conditional_flags : list str :=
  [$"COMMAND"; $"DEFINED"; $"EQUAL"; $"EXISTS"; $"GREATER"; $"LESS"; $"IS_ABSOLUTE";
   $"IS_DIRECTORY"; $"IS_NEWER_THAN"; $"IS_SYMLINK"; $"MATCHES"; $"NOT"; $"POLICY";
   $"STRLESS"; $"STRGREATER"; $"STREQUAL"; $"TARGET"; $"TEST"; $"VERSION_EQUAL";
   $"VERSION_GREATER"; $"VERSION_LESS"].
Definition cond_words : list str := [$"AND"; $"OR"].
Definition cond_pspec : pspec := PSpec (NStr $"+") false nil conditional_flags false None.

Definition out := res (pnode * list token).
Definition outs := res (list pnode * list token).

(** [nested]: ctx.argstack is not empty. *)
Fixpoint call (n : nat) (ctx : pctx) (p : parser) (bs : list breaker) (nested : bool)
  (toks : list token) {struct n} : out :=
  match n with
  | O => OutOfFuel
  | S m =>
      match resolve p toks with
      | PStd cs kw =>
          let '(ws, r) := take_ws toks in
          let '(dflt, pargs) := split_default (cs_pargs cs) in
          let all_flags := ps_flags dflt ++ flat_map ps_flags pargs in
          let kbs := bs ++ [kwbreaker (map fst kw ++ all_flags)] in
          let? (a, r') := std_loop m ctx dflt kw bs kbs nested pargs ws r in
          Ok (N (KArgGroup (Some cs)) a, r')
      | PPos sp => pos_group m ctx sp bs nested toks
      | PTuple npargs ntup flags =>
          let? (a, r) := tuple_loop (S (List.length toks)) ctx npargs ntup flags bs 0 0 nil None nil toks in
          Ok (N (KArgGroup None) a, r)
      | PShell =>
          let cs := legacy_cspec (NStr $"+") nil in
          let '(ws, r) := take_ws toks in
          let '(dflt, pargs) := split_default (cs_pargs cs) in
          let? (a, r') := std_loop m ctx dflt nil bs (bs ++ [kwbreaker nil]) nested pargs ws r in
          Ok (N (KArgGroup (Some cs)) (map (add_tag $"cmdline") a), r')
      | PCond =>
          let '(ws, r) := take_ws toks in
          let? (a, r') := cond_loop m ctx bs ws r in
          Ok (N (KArgGroup None) a, r')
      | PNull => Ok (N (KArgGroup None) nil, toks)
      | PRaise e => Err e
      | PDisp _ => Err InternalError (* unreachable: [resolve] never returns it *)
      | PSeq items lp =>
          let? (a, r) := seq_items m ctx items lp bs nested nil toks in
          Ok (N (KArgGroup None) a, r)
      | PInstallTargets =>
          let? (a, r) := seq_items m ctx [SWs] (Some (GSpec (fun _ => false) install_step))
                           bs nested nil toks in
          Ok (N (KArgGroup None) a, r)
      | PAddExe sortable =>
          let '(ws, r) := take_ws toks in
          let? (a, r') := add_loop (2 * List.length toks + 8) ctx false bs (AMach 1 sortable ws nil None nil false) r in
          Ok (N (KArgGroup None) a, r')
      | PAddLib sortable =>
          let '(ws, r) := take_ws toks in
          let? (a, r') := add_loop (2 * List.length toks + 8) ctx true bs (AMach 1 sortable ws nil None nil false) r in
          Ok (N (KArgGroup None) a, r')
      end
  end

(** the main loop of StandardArgTree.parse2, argument_nodes.py 120-195 *)
with std_loop (n : nat) (ctx : pctx) (dflt : pspec) (kw : list (str * parser))
  (bs kbs : list breaker) (nested : bool) (pargs : list pspec) (acc : list pnode)
  (toks : list token) {struct n} : outs :=
  match n with
  | O => OutOfFuel
  | S m =>
      match toks with
      | nil => Ok (acc, nil)
      | t :: toks' =>
          if is_ws t then std_loop m ctx dflt kw bs kbs nested pargs (acc ++ [T t]) toks'
          else if is_comment t then
            if belongs_up nested toks acc bs then Ok (acc, toks)
            else
              let? (c, r) := consume_comment toks in
              std_loop m ctx dflt kw bs kbs nested pargs (acc ++ [c]) r
          else if is_onoff t then
            std_loop m ctx dflt kw bs kbs nested pargs (acc ++ [N KOnOff [T t]]) toks'
          else
            let ps := match pargs with p :: _ => p | nil => dflt end in
            if should_break t bs
               && (negb (is_exact (ps_nargs ps))
                   || match ps_nargs ps with NInt z => z =? 0 | NStr _ => false end)
            then Ok (acc, toks)
            else
              match (match normalized_kwarg t with
                     | Some w => match kw_lookup w kw with Some p => Some (w, p) | None => None end
                     | None => None end) with
              | Some (w, p) =>
                  let? (sub, r) := kwgroup m ctx w p kbs toks in
                  if (List.length toks <=? List.length r)%nat then Err InternalError
                  else std_loop m ctx dflt kw bs kbs nested pargs (acc ++ [sub]) r
              | None =>
                  let pargs' := tl pargs in
                  let other := flat_map (fun o => filter (fun fl => negb (smem fl (ps_flags ps)))
                                                         (ps_flags o)) pargs' in
                  let pbs := bs ++ [kwbreaker (map fst kw ++ other)] in
                  let? (sub, r) := pos_group m ctx ps pbs true toks in
                  if (List.length toks <=? List.length r)%nat then Err InternalError
                  else std_loop m ctx dflt kw bs kbs nested pargs' (acc ++ [sub]) r
              end
      end
  end

(** PositionalGroupNode.parse2 before its loop, argument_nodes.py 347-364 *)
with pos_group (n : nat) (ctx : pctx) (sp : pspec) (bs : list breaker) (nested : bool)
  (toks : list token) {struct n} : out :=
  match n with
  | O => OutOfFuel
  | S m =>
      let '(ws, r) := take_ws toks in
      let sortable :=
        match r with
        | t :: _ => if tag_in t [$"sortable"; $"sort"] then true
                    else if tag_in t [$"unsortable"; $"unsort"] then false
                    else ps_sortable sp
        | nil => ps_sortable sp
        end in
      let? (a, r') := pos_loop m ctx sp bs nested 0 ws r in
      Ok (N (KPargGroup sortable (ps_tags sp) (Some sp)) a, r')
  end

(** the loop of PositionalGroupNode.parse2, argument_nodes.py 366-433 *)
with pos_loop (n : nat) (ctx : pctx) (sp : pspec) (bs : list breaker) (nested : bool)
  (nconsumed : Z) (acc : list pnode) (toks : list token) {struct n} : outs :=
  match n with
  | O => OutOfFuel
  | S m =>
      match toks with
      | nil => Ok (acc, nil)
      | t :: toks' =>
          let? full := pargs_are_full (ps_nargs sp) nconsumed in
          if full then Ok (acc, toks)
          else if should_break t bs
                  && (negb (is_exact (ps_nargs sp)) || is_tt RIGHT_PAREN t)
          then Ok (acc, toks)
          else if is_tt LEFT_PAREN t then
            let? (sub, r) := paren m ctx toks in
            pos_loop m ctx sp bs nested nconsumed (acc ++ [sub]) r
          else if is_ws t then
            pos_loop m ctx sp bs nested nconsumed (acc ++ [T t]) toks'
          else if is_comment t then
            if belongs_up nested toks acc bs then Ok (acc, toks)
            else
              let? (c, r) := consume_comment toks in
              pos_loop m ctx sp bs nested nconsumed (acc ++ [c]) r
          else if is_onoff t then
            pos_loop m ctx sp bs nested nconsumed (acc ++ [N KOnOff [T t]]) toks'
          else
            let k := if kwarg_in t (ps_flags sp) then KFlag else KArgument in
            let '(tr, r) := consume_trailing ctx toks' in
            pos_loop m ctx sp bs nested (nconsumed + 1) (acc ++ [N k (T t :: tr)]) r
      end
  end

(** the loop of ConditionalGroupNode.parse, argument_nodes.py 566-622 *)
with cond_loop (n : nat) (ctx : pctx) (bs : list breaker) (acc : list pnode)
  (toks : list token) {struct n} : outs :=
  match n with
  | O => OutOfFuel
  | S m =>
      match toks with
      | nil => Ok (acc, nil)
      | t :: toks' =>
          let cbs := bs ++ [kwbreaker cond_words] in
          if should_break t bs then Ok (acc, toks)
          else if is_ws t then cond_loop m ctx bs (acc ++ [T t]) toks'
          else if is_comment t then
            cond_loop m ctx bs (acc ++ [N (KComment false) [T t]]) toks'
          else if is_onoff t then
            cond_loop m ctx bs (acc ++ [N KOnOff [T t]]) toks'
          else if is_tt LEFT_PAREN t then
            let? (sub, r) := paren m ctx toks in
            cond_loop m ctx bs (acc ++ [sub]) r
          else if kwarg_in t cond_words then
            let? (sub, r) := kwgroup m ctx (upper (spelling t)) PCond cbs toks in
            if (List.length toks <=? List.length r)%nat then Err AssertionErr
            else cond_loop m ctx bs (acc ++ [sub]) r
          else
            let? (sub, r) := pos_group m ctx cond_pspec cbs true toks in
            cond_loop m ctx bs (acc ++ [sub]) r
      end
  end

(** KeywordGroupNode.parse, argument_nodes.py 297-321 *)
with kwgroup (n : nat) (ctx : pctx) (word : str) (p : parser) (bs : list breaker)
  (toks : list token) {struct n} : out :=
  match n with
  | O => OutOfFuel
  | S m =>
      match toks with
      | nil => Err IndexErr
      | t :: toks' =>
          if negb (seqb (upper (spelling t)) (upper word)) then Err AssertionErr
          else
            let '(ws, r) := take_ws toks' in
            let? (sub, r') := call m ctx p bs true r in
            let body := if (List.length r' <? List.length r)%nat then [sub] else nil in
            Ok (N KKwargGroup (N KKeyword [T t] :: ws ++ body), r')
      end
  end

(** ParenGroupNode.parse, argument_nodes.py 475-505 *)
with paren (n : nat) (ctx : pctx) (toks : list token) {struct n} : out :=
  match n with
  | O => OutOfFuel
  | S m =>
      match toks with
      | nil => Err IndexErr
      | t :: toks' =>
          if negb (is_tt LEFT_PAREN t) then Err AssertionErr
          else
            let? (sub, r) := call m ctx PCond [BParen] true toks' in
            match r with
            | nil => Err IndexErr
            | t2 :: r' =>
                if negb (is_tt RIGHT_PAREN t2) then Err ValueErr
                else
                  let '(tr, r'') := consume_trailing ctx r' in
                  Ok (N KParenGroup ([N KLParen [T t]; sub; N KRParen [T t2]] ++ tr), r'')
            end
      end
  end

(** the fixed prefix of a hand-written parser *)
with seq_items (n : nat) (ctx : pctx) (items : list seqitem) (lp : option gspec)
  (bs : list breaker) (nested : bool) (acc : list pnode) (toks : list token) {struct n} : outs :=
  match n with
  | O => OutOfFuel
  | S m =>
      match items with
      | nil =>
          match lp with
          | Some (GSpec keep step) => gloop m ctx keep step bs nested acc toks
          | None => Ok (acc, toks)
          end
      | SWs :: items' =>
          let '(ws, r) := take_ws toks in
          seq_items m ctx items' lp bs nested (acc ++ ws) r
      | SWsComments :: items' =>
          let? (ws, r) := take_wsc (S (List.length toks)) toks in
          seq_items m ctx items' lp bs nested (acc ++ ws) r
      | SPos sp extra must :: items' =>
          let? (sub, r) := pos_group m ctx sp (bs ++ map kwbreaker extra) nested toks in
          if must && (List.length toks <=? List.length r)%nat then Err AssertionErr
          else seq_items m ctx items' lp bs nested (acc ++ [sub]) r
      end
  end

(** the loop of a hand-written parser: funs/set.py 69-128, foreach.py 92-123,
    add_library.py 171-193, break.py 33-56, install.py 103-139, add_xxx.py 189-257 *)
with gloop (n : nat) (ctx : pctx) (keep : token -> bool)
  (step : list pnode -> list token -> gaction) (bs : list breaker) (nested : bool)
  (acc : list pnode) (toks : list token) {struct n} : outs :=
  match n with
  | O => OutOfFuel
  | S m =>
      match toks with
      | nil => Ok (acc, nil)
      | t :: toks' =>
          if should_break t bs then Ok (acc, toks)
          else if is_ws t then gloop m ctx keep step bs nested (acc ++ [T t]) toks'
          else if is_comment t && negb (keep t) then
            gloop m ctx keep step bs nested (acc ++ [N (KComment false) [T t]]) toks'
          else
            let? (sub, r) :=
              match step acc toks with
              | GKw w p extra chk =>
                  let? (sub, r) := kwgroup m ctx w p (bs ++ map kwbreaker extra) toks in
                  match chk sub r with Some e => Err e | None => Ok (sub, r) end
              | GPos sp extra push tags =>
                  let? (sub, r) := pos_group m ctx sp (bs ++ map kwbreaker extra) (push || nested) toks in
                  Ok (add_tags tags sub, r)
              | GFlags flags extra =>
                  let? (a, r) := flag_loop (S (List.length toks)) ctx flags (bs ++ map kwbreaker extra) nil toks in
                  Ok (N (KPargGroup false nil (Some (PSpec (NStr $"+") false nil flags false None))) a, r)
              end in
            if (List.length toks <=? List.length r)%nat then Err AssertionErr
            else gloop m ctx keep step bs nested (acc ++ [sub]) r
      end
  end.

(** ** Statements and bodies *)

(** StandardParser(), argument_nodes.py 228-243 *)
Definition default_parser : parser := PStd (legacy_cspec (NStr $"*") nil) nil.

(** statement_node.py 72-83: the parser for a command name *)
Definition command_parser (ctx : pctx) (name : str) : parser :=
  match db ctx name with
  | Some p => p
  | None => match db ctx $"_default" with Some p => p | None => default_parser end
  end.

(** the loop after the arguments, statement_node.py 92-107 *)
Fixpoint stmt_tail (fuel : nat) (toks : list token) : outs :=
  match fuel with
  | O => OutOfFuel
  | S f =>
      match toks with
      | nil => Err UserError
      | t :: toks' =>
          if is_tt RIGHT_PAREN t then Ok (nil, toks)
          else if is_ws t then let? (a, r) := stmt_tail f toks' in Ok (T t :: a, r)
          else if is_tt COMMENT t then
            let? (c, r) := consume_comment toks in
            let? (a, r') := stmt_tail f r in Ok (c :: a, r')
          else Err UserError
      end
  end.

(** [isinstance(parse_fun, StandardParser2)], statement_node.py 85-86: only the
    table built from command specifications uses StandardParser2; a StandardParser
    or a parse function leaves the attribute None.  The two produce the same
    [PStd]; they are told apart by the name, which the legacy forms set to
    the text [<none>]. *)
Definition stmt_cmdspec (p : parser) : option cspec :=
  match p with
  | PStd cs _ => if seqb (cs_name cs) $"<none>" then None else Some cs
  | _ => None
  end.

(** StatementNode.consume, statement_node.py 46-127 *)
Definition statement (n : nat) (ctx : pctx) (toks : list token) : out :=
  match toks with
  | nil => Err IndexErr
  | fn :: r0 =>
      let '(ws, r) := take_ws r0 in
      match r with
      | nil => Err IndexErr
      | lp :: r1 =>
          if negb (is_tt LEFT_PAREN lp) then Err ValueErr
          else
            let '(ws2, r2) := take_ws r1 in
            let p := command_parser ctx (lower (spelling fn)) in
            let? (args, r3) := call n ctx p [BParen] false r2 in
            let? (tl, r4) := stmt_tail (S (List.length r3)) r3 in
            match r4 with
            | nil => Err UserError
            | rp :: r5 =>
                let '(tr, r6) := consume_trailing ctx r5 in
                Ok (N (KStatement (stmt_cmdspec p))
                      (N KFunname [T fn] :: ws ++ [N KLParen [T lp]] ++ ws2 ++ [args]
                       ++ tl ++ [N KRParen [T rp]] ++ tr), r6)
            end
      end
  end.

(** AtWordStatementNode.consume, statement_node.py 142-163 *)
Definition atword_statement (ctx : pctx) (toks : list token) : out :=
  match toks with
  | nil => Err IndexErr
  | t :: r =>
      let '(tr, r') := consume_trailing ctx r in
      Ok (N KAtStmt (N KAtWord [T t] :: tr), r')
  end.

(** FlowType, parse/common.py 51-60 *)
Definition flow_names : list str := [$"IF"; $"WHILE"; $"FOREACH"; $"FUNCTION"; $"MACRO"].
Definition if_breakset : list str := [$"ELSE"; $"ELSEIF"; $"ENDIF"].

(** BodyNode.consume 34-82, FlowControlNode.consume 108-131 and
    IfBlockNode.consume 140-166, parse/body_nodes.py *)
Fixpoint body_loop (n : nat) (ctx : pctx) (breakset : list str) (acc : list pnode)
  (toks : list token) {struct n} : outs :=
  match n with
  | O => OutOfFuel
  | S m =>
      match toks with
      | nil => Ok (acc, nil)
      | t :: toks' =>
          if is_ws t then
            let '(ws, r) := take_ws toks in
            body_loop m ctx breakset (acc ++ [N KWhitespace ws]) r
          else if is_tt COMMENT t then
            let? (c, r) := consume_comment toks in body_loop m ctx breakset (acc ++ [c]) r
          else if is_onoff t then
            body_loop m ctx breakset (acc ++ [N KOnOff [T t]]) toks'
          else if is_tt BRACKET_COMMENT t then
            let? (c, r) := consume_comment toks in body_loop m ctx breakset (acc ++ [c]) r
          else if is_tt WORD t then
            let up := upper (spelling t) in
            if smem up breakset then Ok (acc, toks)
            else if smem up flow_names then
              let? (sub, r) := flow m ctx toks in body_loop m ctx breakset (acc ++ [sub]) r
            else
              let? (sub, r) := statement m ctx toks in body_loop m ctx breakset (acc ++ [sub]) r
          else if is_tt ATWORD t then
            let? (sub, r) := atword_statement ctx toks in body_loop m ctx breakset (acc ++ [sub]) r
          else if is_tt BYTEORDER_MARK t then
            body_loop m ctx breakset acc toks'
          else Err InternalError
      end
  end
with flow (n : nat) (ctx : pctx) (toks : list token) {struct n} : out :=
  match n with
  | O => OutOfFuel
  | S m =>
      match toks with
      | nil => Err IndexErr
      | t :: _ =>
          let up := upper (spelling t) in
          if seqb up $"IF" then
            let? (a, r) := if_loop m ctx nil toks in Ok (N KFlow a, r)
          else
            let? (open, r1) := statement m ctx toks in
            let? (bd, r2) := body_loop m ctx [$"END" ++ up] nil r1 in
            let? (close, r3) := statement m ctx r2 in
            Ok (N KFlow [open; N KBody bd; close], r3)
      end
  end
with if_loop (n : nat) (ctx : pctx) (acc : list pnode) (toks : list token) {struct n} : outs :=
  match n with
  | O => OutOfFuel
  | S m =>
      match toks with
      | nil => Ok (acc, nil)
      | t :: _ =>
          if seqb (upper (spelling t)) $"ENDIF" then
            let? (close, r) := statement m ctx toks in Ok (acc ++ [close], r)
          else
            let? (open, r1) := statement m ctx toks in
            let? (bd, r2) := body_loop m ctx if_breakset nil r1 in
            if_loop m ctx (acc ++ [open; N KBody bd]) r2
      end
  end.

(** Fuel that is always enough (see [ParseTerm]): linear in the number of tokens. *)
Definition parse_fuel (toks : list token) : nat := 16 * List.length toks + 16.
(** parse, parse/__init__.py 68-75 *)
Definition parse (ctx : pctx) (toks : list token) : res pnode :=
  let? (a, _) := body_loop (parse_fuel toks) ctx nil nil toks in
  Ok (N KBody a).
