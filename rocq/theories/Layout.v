(** * Layout: model of the layout tree and of its passes
    (cmakelang/format/formatter.py) *)
From Verif Require Import Base Regex Lex TextOps Tree.

(** ** Configuration read by the layout, configuration.py 180-360.
    [f_command_case]/[f_spelling] are [resolve_for_command] applied to a command
    name (formatter.py 700-712); [f_passes] is [layout_passes]. *)
Record fcfg := FCfg {
  f_linewidth : Z; f_tab : Z; f_max_subgroups : Z; f_max_pargs : Z;
  f_max_rows_cmdline : Z; f_max_lines : Z; f_min_prefix : Z; f_max_prefix : Z;
  f_sep_ctrl : bool; f_sep_fn : bool; f_dangle : bool; f_dangle_align : str;
  f_autosort : bool; f_keyword_case : str;
  f_command_case : str -> str; f_spelling : str -> str;
  f_always_wrap : list str; f_passes : list (str * list (Z * bool)); f_endl : str }.

(** What a reflow call reads: the configuration and the comment formatter
    [cmt explicit children allocation] (format_comment_lines, 75-102; see
    [Markup]).  The layout theorems hold for every such function. *)
Record env := Env { cfg : fcfg; cmt : bool -> list pnode -> Z -> res (list str) }.

(** Cursor, 215-273 (the two integers; python's in-place updates are replaced by
    new values; no modelled function keeps an alias that is updated later). *)
Record cursor := Cur { row : Z; colm : Z }.
Definition shift (c : cursor) (n : Z) : cursor := Cur (row c) (colm c + n).

(** ** The layout tree before layout: LayoutNode with its parse node, 311-365 *)
Inductive box := B (k : kind) (pcs : list pnode) (cs : list box).
Definition bkind (b : box) : kind := let 'B k _ _ := b in k.
Definition bpcs (b : box) : list pnode := let 'B _ p _ := b in p.
Definition bcs (b : box) : list box := let 'B _ _ c := b in c.

Section BoxInd.
  Variable P : box -> Prop.
  Hypothesis H : forall k p cs, Forall P cs -> P (B k p cs).
  Fixpoint box_ind' (b : box) : P b :=
    match b with
    | B k p cs => H k p cs ((fix go l : Forall P l :=
        match l with
        | nil => Forall_nil _
        | x :: l' => Forall_cons _ (box_ind' x) (go l')
        end) cs)
    end.
End BoxInd.

(** Node type tests, 24-35 *)
Definition is_scalar_k (k : kind) : bool :=
  match k with KFunname | KArgument | KKeyword | KFlag | KAtWord => true | _ => false end.
Definition is_comment_k (k : kind) : bool := match k with KComment _ => true | _ => false end.
Definition is_parg_k (k : kind) : bool := match k with KPargGroup _ _ _ => true | _ => false end.
Definition is_arggroup_k (k : kind) : bool := match k with KArgGroup _ => true | _ => false end.
Definition is_statement_k (k : kind) : bool := match k with KStatement _ => true | _ => false end.
Definition is_body_k (k : kind) : bool := match k with KBody => true | _ => false end.
Definition is_flow_k (k : kind) : bool := match k with KFlow => true | _ => false end.
Definition is_funname_k (k : kind) : bool := match k with KFunname => true | _ => false end.
Definition is_keyword_k (k : kind) : bool := match k with KKeyword => true | _ => false end.
Definition is_lparen_k (k : kind) : bool := match k with KLParen => true | _ => false end.
Definition is_rparen_k (k : kind) : bool := match k with KRParen => true | _ => false end.
Definition is_atword_k (k : kind) : bool := match k with KAtWord => true | _ => false end.
Definition is_argument_k (k : kind) : bool := match k with KArgument => true | _ => false end.

(** create_box_tree, 1743-1762.  Every node type is in MATCH_TYPES.  A bare token
    is never passed to it. *)
Fixpoint create_box (n : pnode) : box :=
  match n with
  | T _ => B KBody nil nil
  | N k cs =>
      B k cs (flat_map (fun c =>
        match c with
        | T _ => nil
        | N KWhitespace _ => if node_newlines c <? 2 then nil else [create_box c]
        | N _ _ => [create_box c]
        end) cs)
  end.

(** spelling of [pnode.children[0]] *)
Definition first_spelling (p : list pnode) : str :=
  match p with T t :: _ => spelling t | _ => nil end.
Definition first_tok (p : list pnode) : option token :=
  match p with T t :: _ => Some t | _ => None end.

(** ** sort_arguments, 1152-1180 *)

(** python string order: by code point, then by length *)
Fixpoint str_leb (a b : str) : bool :=
  match a, b with
  | nil, _ => true
  | _ :: _, nil => false
  | x :: a', y :: b' => if (x <? y)%N then true else if (y <? x)%N then false else str_leb a' b'
  end.
(** a stable sort: [sorted(l, key=...)] *)
Section Isort.
  Context {A : Type} (le : A -> A -> bool).
  Fixpoint insert (a : A) (l : list A) : list A :=
    match l with
    | nil => [a]
    | x :: l' => if le a x then a :: l else x :: insert a l'
    end.
  Fixpoint isort (l : list A) : list A :=
    match l with nil => nil | a :: l' => insert a (isort l') end.
End Isort.

(** filename_node_key, 1143-1149 *)
Definition sort_key (b : box) : str := lower (first_spelling (bpcs b)).
Fixpoint number {A} (i : nat) (l : list A) : list (nat * A) :=
  match l with nil => nil | a :: l' => (i, a) :: number (S i) l' end.
(** [nodemap]: position of node [i] among the sorted arguments, plus one *)
Fixpoint rank (i : nat) (n : Z) (l : list (nat * box)) : option Z :=
  match l with
  | nil => None
  | (j, _) :: l' => if Nat.eqb i j then Some (n + 1) else rank i (n + 1) l'
  end.
(** the loop of lines 1172-1179 *)
Fixpoint sort_keys (sorted : list (nat * box)) (keyidx posidx : Z) (l : list (nat * box))
  : list (Z * Z * box) :=
  match l with
  | nil => nil
  | (i, b) :: l' =>
      match rank i 0 sorted with
      | Some k => (k, 0, b) :: sort_keys sorted k 1 l'
      | None => (keyidx, posidx, b) :: sort_keys sorted keyidx (posidx + 1) l'
      end
  end.
Definition pair_leb (a b : Z * Z * box) : bool :=
  let '(k, p, _) := a in let '(k', p', _) := b in
  (k <? k') || ((k =? k') && (p <=? p')).
Definition sort_arguments (cs : list box) : list box :=
  let l := number 0 cs in
  let args := filter (fun x => is_argument_k (bkind (snd x))) l in
  let sorted := isort (fun x y => str_leb (sort_key (snd x)) (sort_key (snd y))) args in
  map snd (isort pair_leb (sort_keys sorted 0 0 l)).

(** lock, 472-496 and 1222-1236: the children are sorted when asked for (the
    depths computed there are read nowhere) *)
Fixpoint lock (autosort : bool) (b : box) : box :=
  match b with
  | B k p cs =>
      let cs' := map (lock autosort) cs in
      B k p (match k with
             | KPargGroup true _ _ => if autosort then sort_arguments cs' else cs'
             | _ => cs'
             end)
  end.

(** ** Structural tests *)

Definition tok_is (k : ttype) (n : pnode) : bool :=
  match n with T t => is_tt k t | N _ _ => false end.

(** is_line_comment, 167-181 *)
Definition is_line_comment (b : box) : bool :=
  match b with
  | B (KComment _) p _ => match rev p with n :: _ => tok_is COMMENT n | nil => false end
  | _ => false
  end.

Definition first_is_comment (b : box) : bool :=
  match bpcs b with n :: _ => tok_is COMMENT n | nil => false end.
Definition last_box (l : list box) : option box :=
  match rev l with b :: _ => Some b | nil => None end.
Fixpoint after_rparen (l : list box) : list box :=
  match l with
  | nil => nil
  | b :: l' => if is_rparen_k (bkind b) then l' else after_rparen l'
  end.
(** The index of the node that [has_terminal_comment] recurses into is the last
    one; the recursion is written on the whole list. *)
Fixpoint has_terminal (b : box) : bool :=
  match b with
  | B k p cs =>
      let lastrec := (fix go l := match l with
                                  | nil => false
                                  | [c] => is_comment_k (bkind c) || has_terminal c
                                  | _ :: l' => go l'
                                  end) cs in
      match k with
      | KFunname | KArgument | KKeyword | KFlag | KAtWord =>      (* 640-648 *)
          match last_box cs with
          | Some c => first_is_comment c
          | None => false
          end
      | KOnOff => true                                            (* 741-742 *)
      | KKwargGroup => lastrec                                    (* 1072-1075 *)
      | KPargGroup _ _ _ => lastrec                               (* 1213-1218 *)
      | KArgGroup _ => lastrec                                    (* 1382-1389 *)
      | KParenGroup =>                                            (* 1489-1498 *)
          match last_box (after_rparen cs) with
          | Some c => first_is_comment c
          | None => false
          end
      | _ => false
      end
  end.

(** need_paren_space, 149-164 *)
Definition flow_type_names : list str := [$"IF"; $"WHILE"; $"FOREACH"; $"FUNCTION"; $"MACRO"].
Definition need_paren_space (c : fcfg) (sp : str) : bool :=
  let up := upper sp in
  if smem up flow_type_names then f_sep_ctrl c
  else if startswith $"END" up && smem (skipn 3 up) flow_type_names then f_sep_ctrl c
  else if smem up [$"ELSE"; $"ELSEIF"] then f_sep_ctrl c
  else f_sep_fn c.

(** ** The layout tree after layout: the fields read by the parent and by the
    writer.  [l_lines] is CommentNode._lines. *)
Inductive lay :=
  Lay (k : kind) (pcs : list pnode) (lpos : cursor) (passno : Z) (wrap valid : bool)
      (ext : Z) (lines : list str) (cs : list lay).
Definition lkind (l : lay) := let 'Lay k _ _ _ _ _ _ _ _ := l in k.
Definition lpcs (l : lay) := let 'Lay _ p _ _ _ _ _ _ _ := l in p.
Definition lpos (l : lay) := let 'Lay _ _ p _ _ _ _ _ _ := l in p.
Definition lpass (l : lay) := let 'Lay _ _ _ p _ _ _ _ _ := l in p.
Definition lwrap (l : lay) := let 'Lay _ _ _ _ w _ _ _ _ := l in w.
Definition lvalid (l : lay) := let 'Lay _ _ _ _ _ v _ _ _ := l in v.
Definition lext (l : lay) := let 'Lay _ _ _ _ _ _ e _ _ := l in e.
Definition llines (l : lay) := let 'Lay _ _ _ _ _ _ _ ls _ := l in ls.
Definition lcs (l : lay) := let 'Lay _ _ _ _ _ _ _ _ cs := l in cs.

(** [child.reflow(stack_context, cursor, passno)] as a function of the path of
    the parent, [statement_terminal], the cursor and the pass number *)
Definition rfn := list str -> bool -> cursor -> Z -> res (lay * cursor).
(** a child: its box and its reflow *)
Definition chd := (box * rfn)%type.
Definition ckind (c : chd) : kind := bkind (fst c).

(** What one call of [_reflow] leaves behind: [_wrap], [_reflow_valid],
    [_colextent], [_lines], the children, and the returned cursor. *)
Record attempt := Att {
  a_wrap : bool; a_valid : bool; a_ext : Z; a_lines : list str; a_cs : list lay; a_out : cursor }.

(** [name], 376-381 and the overrides 617-619, 738-739, 1087-1089, 833-835; a
    positional group gets its index among its siblings (201-208) *)
Definition ttype_name (t : ttype) : str :=
  match t with FORMAT_ON => $"FORMAT_ON" | FORMAT_OFF => $"FORMAT_OFF" | _ => nil end.
Definition child_spelling (cs : list box) : str :=
  match cs with c :: _ => first_spelling (bpcs c) | nil => nil end.
(** decimal numeral of a small index *)
Fixpoint dec_digits (fuel : nat) (n : nat) : str :=
  match fuel with
  | O => nil
  | S f => if Nat.ltb n 10 then [(48 + N.of_nat n)%N]
           else dec_digits f (Nat.div n 10) ++ [(48 + N.of_nat (Nat.modulo n 10))%N]
  end.
Definition dec (n : nat) : str := dec_digits (S n) n.
Definition node_name (b : box) (sib : nat) : str :=
  match bkind b with
  | KLParen => $"LPAREN" | KRParen => $"RPAREN"
  | KOnOff => match first_tok (bpcs b) with Some t => ttype_name (tt t) | None => nil end
  | KStatement _ => lower (child_spelling (bcs b))
  | KKwargGroup => upper (child_spelling (bcs b))
  | KPargGroup _ _ _ => $"PargGroupNode[" ++ dec sib ++ $"]"
  | KParenGroup => $"ParenGroupNode" | KFlow => $"FlowControlNode"
  | KComment _ => $"CommentNode" | KWhitespace => $"WhitespaceNode"
  | KAtStmt => $"AtWordStatementNode"
  | KFunname | KArgument | KKeyword | KFlag | KAtWord => $"ScalarNode"
  | KBody => $"BodyNode" | KArgGroup _ => $"ArgGroupNode"
  end.
(** node_path after pushing the node, as get_pathstr sees it (184-212) *)
Definition push_path (path : list str) (b : box) (sib : nat) : list str :=
  match bkind b with
  | KBody | KArgGroup _ => path
  | _ => path ++ [node_name b sib]
  end.

(** class name of the node, 578-611, used to look up [layout_passes] *)
Definition class_name (k : kind) : str :=
  match k with
  | KFunname | KArgument | KKeyword | KFlag | KAtWord => $"ScalarNode"
  | KOnOff => $"OnOffSwitchNode" | KStatement _ => $"StatementNode"
  | KAtStmt => $"AtWordStatementNode" | KKwargGroup => $"KwargGroupNode"
  | KArgGroup _ => $"ArgGroupNode" | KPargGroup _ _ _ => $"PargGroupNode"
  | KParenGroup => $"ParenGroupNode" | KBody => $"BodyNode" | KFlow => $"FlowControlNode"
  | KComment _ => $"CommentNode" | KWhitespace => $"WhitespaceNode"
  | KLParen | KRParen => $"ParenNode"
  end.
(** [_layout_passes], 355 and 796-804, 999-1001, 1063-1070, 1205-1211, 1360-1367, 1481-1488 *)
Definition default_passes (k : kind) : list (Z * bool) :=
  match k with
  | KStatement _ => [(0, false); (1, true); (2, true); (3, true); (4, true); (5, true)]
  | KKwargGroup => [(0, false); (1, false); (2, false); (3, false); (4, false); (5, true)]
  | KPargGroup _ _ _ => [(0, false); (1, false); (2, false); (3, false); (4, true)]
  | KArgGroup _ => [(0, false); (1, false); (2, false); (3, false); (4, true); (5, true)]
  | KParenGroup => [(0, false); (1, false); (2, false); (3, false); (4, false); (5, true)]
  | _ => [(0, false)]
  end.
Fixpoint passes_lookup (k : str) (d : list (str * list (Z * bool))) : option (list (Z * bool)) :=
  match d with
  | nil => None
  | (k', v) :: d' => if seqb k k' then Some v else passes_lookup k d'
  end.
Definition node_passes (c : fcfg) (k : kind) : list (Z * bool) :=
  match passes_lookup (class_name k) (f_passes c) with
  | Some l => l
  | None => default_passes k
  end.
(** StatementNode.reflow 806-809 and AtWordStatementNode.reflow 1003-1006 replace
    the pass limit of the parent by their own last pass *)
Definition pass_limit (k : kind) (parent_passno : Z) : Z :=
  match k with KStatement _ => 5 | KAtStmt => 0 | _ => parent_passno end.

(** get_prefix_width, 811-815 *)
Definition prefix_width (c : fcfg) (name : str) : Z :=
  zlen name + 1 + (if need_paren_space c name then 1 else 0).

(** _validate_layout: 504-534, StatementNode 837-855, KwargGroupNode 1091-1109.
    [path] includes the node. *)
Definition validate (c : fcfg) (b : box) (path : list str) (wrap : bool)
  (start : cursor) (outrow ext : Z) : bool :=
  if ext >? f_linewidth c then false
  else if wrap then true
  else
    let rows := outrow - row start in
    match bkind b with
    | KStatement _ =>
        negb ((rows >? 1) && (prefix_width c (lower (child_spelling (bcs b))) >? f_max_prefix c))
    | KKwargGroup =>
        negb ((rows >? 1) && (zlen (upper (child_spelling (bcs b))) >? f_max_prefix c))
    | _ =>
        if (rows >? f_max_lines c)
           && negb (is_body_k (bkind b) || is_comment_k (bkind b) || is_flow_k (bkind b))
        then false
        else negb (smem (join $"/" path) (f_always_wrap c))
    end.

(** ** _reflow of each node class *)

(** flow the lines of a text from a cursor (ScalarNode 662-675, CommentNode
    1688-1699): the final cursor and the largest column *)
Fixpoint flow_lines (c : cursor) (ext : Z) (ls : list str) : cursor * Z :=
  match ls with
  | nil => (c, ext)
  | l :: ls' => let c' := Cur (row c + 1) (zlen l) in
                flow_lines c' (Z.max ext (colm c')) ls'
  end.
Definition flow_text (c : cursor) (text : str) : cursor * Z :=
  match split_on cNL (normalize text) with
  | l :: ls => let c' := shift c (zlen l) in flow_lines c' (colm c') ls
  | nil => (c, colm c)
  end.

(** ParenNode._reflow, 621-624 *)
Definition reflow_paren (cur : cursor) (wrap : bool) : res attempt :=
  Ok (Att wrap true (colm cur + 1) nil nil (shift cur 1)).

(** ScalarNode._reflow, 650-693 *)
Definition reflow_scalar (pcs : list pnode) (cs : list chd) (path : list str)
  (cur : cursor) (pass : Z) (wrap : bool) : res attempt :=
  match pcs with
  | T t :: _ =>
      let '(c1, e1) := flow_text cur (spelling t) in
      match cs with
      | nil => Ok (Att wrap true e1 nil nil c1)
      | [ch] =>
          if negb (is_comment_k (ckind ch)) then Err AssertionErr else
          let? (l, c2) := snd ch path false (shift c1 1) pass in
          Ok (Att wrap (lvalid l) (Z.max e1 (lext l)) nil [l] c2)
      | _ :: _ :: _ => Err AssertionErr
      end
  | _ => Err AssertionErr
  end.

(** the canonical sentinel, 755-758 *)
Definition onoff_text (t : token) : option str :=
  match tt t with
  | FORMAT_ON => Some $"# cmake-format: on"
  | FORMAT_OFF => Some $"# cmake-format: off"
  | _ => None
  end.
(** OnOffSwitchNode._reflow, 744-762; another token type leaves [spelling]
    unbound (UnboundLocalError, not distinguished here) *)
Definition reflow_onoff (pcs : list pnode) (cur : cursor) (wrap : bool) : res attempt :=
  match pcs with
  | T t :: _ =>
      match onoff_text t with
      | Some s => let c := shift cur (zlen s) in Ok (Att wrap true (colm c) nil nil c)
      | None => Err InternalError
      end
  | _ => Err AssertionErr
  end.

(** CommentNode._reflow, 1670-1706 *)
Definition is_bracket (pcs : list pnode) : bool :=
  match pcs with [n] => tok_is BRACKET_COMMENT n | _ => false end.
Definition max_len (ls : list str) : Z := fold_right (fun l z => Z.max (zlen l) z) 0 ls.
Definition reflow_comment (e : env) (explicit : bool) (pcs : list pnode) (cur : cursor)
  (wrap : bool) : res attempt :=
  if is_bracket pcs then
    let '(c, x) := flow_text cur (first_spelling pcs) in Ok (Att wrap true x nil nil c)
  else
    let? ls := cmt e explicit pcs (f_linewidth (cfg e) - colm cur) in
    match ls with
    | nil => Err ValueErr
    | _ => Ok (Att wrap true (colm cur + max_len ls) ls nil
                   (Cur (row cur + zlen ls - 1) (colm cur + zlen (last ls nil))))
    end.

(** WhitespaceNode._reflow, 1723-1727 *)
Definition reflow_white (cur : cursor) (wrap : bool) : res attempt :=
  Ok (Att wrap true 0 nil nil cur).

(** BodyNode._reflow, 1587-1599 *)
Fixpoint body_children (path : list str) (pass : Z) (cs : list chd) (colc cur : cursor)
  (v : bool) (x : Z) : res (list lay * cursor * bool * Z) :=
  match cs with
  | nil => Ok (nil, cur, v, x)
  | ch :: cs' =>
      let? (l, c) := snd ch path false colc pass in
      let? (ls, c', v', x') :=
        body_children path pass cs' (Cur (row c + 1) (colm colc)) c
          (v && lvalid l) (Z.max x (lext l)) in
      Ok (l :: ls, c', v', x')
  end.
Definition reflow_body (cs : list chd) (path : list str) (cur : cursor) (pass : Z)
  (wrap : bool) : res attempt :=
  let? (ls, c, v, x) := body_children path pass cs cur cur true 0 in
  Ok (Att wrap v x nil ls c).

(** FlowControlNode._reflow, 1608-1653: statement, body, then statements and
    bodies in turn, ending with a statement.  [want]: the next child is a
    statement. *)
Fixpoint flow_children (tab : Z) (path : list str) (pass : Z) (cs : list chd) (want : bool)
  (colc cur : cursor) (v : bool) (x : Z) : res (list lay * cursor * bool * Z) :=
  match cs with
  | nil => if want then Err AssertionErr else Ok (nil, cur, v, x)
  | ch :: cs' =>
      if want then
        if negb (is_statement_k (ckind ch)) then Err AssertionErr else
        let? (l, c) := snd ch path false colc pass in
        let? (ls, c', v', x') :=
          flow_children tab path pass cs' false (Cur (row c + 1) (colm colc)) c
            (v && lvalid l) (Z.max x (lext l)) in
        Ok (l :: ls, c', v', x')
      else
        if negb (is_body_k (ckind ch)) then Err AssertionErr else
        let? (l, c) := snd ch path false (shift colc tab) pass in
        let? (ls, c', v', x') :=
          flow_children tab path pass cs' true (Cur (row c + 1) (colm colc)) c
            (v && lvalid l) (Z.max x (lext l)) in
        Ok (l :: ls, c', v', x')
  end.
Definition reflow_flow (e : env) (cs : list chd) (path : list str) (cur : cursor) (pass : Z)
  (wrap : bool) : res attempt :=
  match cs with
  | [_] => (* a single statement: the body is asserted (1626) *)
      let? _ := flow_children (f_tab (cfg e)) path pass cs true cur cur true 0 in Err AssertionErr
  | _ =>
      let? (ls, c, v, x) := flow_children (f_tab (cfg e)) path pass cs true cur cur true 0 in
      Ok (Att wrap v x nil ls c)
  end.

(** count_arguments, 1183-1194 *)
Definition count_arguments (cs : list chd) : Z :=
  zlen (filter (fun c => negb (is_comment_k (ckind c))) cs).
(** CommentNode.is_tag, 1667-1668 *)
Definition box_is_tag (b : box) : bool :=
  match bpcs b with T t :: _ => comment_is_tag t | _ => false end.

(** is_line_comment(prev) or prev.has_terminal_comment() *)
Definition ends_line (b : box) : bool := is_line_comment b || has_terminal b.

(** the loop of PargGroupNode._reflow, 1257-1313 *)
Fixpoint parg_children (lw : Z) (path : list str) (pass : Z) (term wrap : bool)
  (cs : list chd) (prev : option box) (colc cur : cursor) (v : bool) (x rows : Z)
  : res (list lay * cursor * bool * Z * Z) :=
  match cs with
  | nil => Ok (nil, cur, v, x, rows)
  | ch :: cs' =>
      let '(colc1, cur1, at_col, rows1) :=
        match prev with
        | None => (colc, cur, true, 1)
        | Some p =>
            if ends_line p || wrap
            then let c := Cur (row cur + 1) (colm colc) in (c, c, true, rows + 1)
            else (colc, shift cur 1, false, rows)
        end in
      let term1 := term && match cs' with nil => true | _ => false end in
      let? (l1, c1) := snd ch path term1 cur1 pass in
      let needs_wrap :=
        negb at_col && negb wrap
        && ((lext l1 >? lw)
            || (term && (colm c1 + 1 >? lw))
            || (match prev with Some p => is_scalar_k (bkind p) | None => false end
                && is_comment_k (ckind ch) && negb (box_is_tag (fst ch)))) in
      let? (l2, c2, colc2, rows2) :=
        if needs_wrap then
          let cc := Cur (row cur1 + 1) (colm colc1) in
          let? (l, c) := snd ch path term1 cc pass in Ok (l, c, cc, rows1 + 1)
        else Ok (l1, c1, colc1, rows1) in
      let? (ls, c', v', x', rows') :=
        parg_children lw path pass term wrap cs' (Some (fst ch)) colc2 c2
          (v && lvalid l2) (Z.max x (lext l2)) rows2 in
      Ok (l2 :: ls, c', v', x', rows')
  end.
(** PargGroupNode._reflow, 1238-1328 *)
Definition reflow_parg (e : env) (tags : list str) (spec : option pspec) (cs : list chd)
  (path : list str) (term : bool) (cur : cursor) (pass : Z) (wrap0 : bool) : res attempt :=
  let is_cmdline := smem $"cmdline" tags in
  let wrap := if is_cmdline then false else wrap0 in
  let? (ls, c, v, x, rows) :=
    parg_children (f_linewidth (cfg e)) path pass term wrap cs None cur cur true (colm cur) 0 in
  let maxp := match spec with
              | Some sp => match ps_max_pargs sp with Some z => z | None => f_max_pargs (cfg e) end
              | None => f_max_pargs (cfg e)
              end in
  let v' := if is_cmdline then v && (rows <=? f_max_rows_cmdline (cfg e))
            else if count_arguments cs >? maxp then v && wrap else v in
  Ok (Att wrap v' x nil ls c).

(** count_subgroups, 1331-1347 *)
Fixpoint count_subgroups (cs : list chd) : res Z :=
  match cs with
  | nil => Ok 0
  | c :: cs' =>
      let? n := count_subgroups cs' in
      match ckind c with
      | KKwargGroup | KPargGroup _ _ _ | KParenGroup => Ok (n + 1)
      | KComment _ | KOnOff => Ok n
      | _ => Err ValueErr
      end
  end.
(** the loop of ArgGroupNode._reflow, 1402-1456 *)
Fixpoint arg_children (lw : Z) (path : list str) (pass : Z) (term wrap : bool)
  (cs : list chd) (prev : option box) (colc cur : cursor) (v : bool) (x : Z)
  : res (list lay * cursor * bool * Z) :=
  match cs with
  | nil => Ok (nil, cur, v, x)
  | ch :: cs' =>
      let '(colc1, cur1, first) :=
        match prev with
        | None => (colc, cur, true)
        | Some p =>
            if ends_line p || wrap
            then let c := Cur (row colc + 1) (colm colc) in (c, c, true)
            else (colc, shift cur 1, false)
        end in
      let term1 := term && match cs' with nil => true | _ => false end in
      let? (l1, c1) := snd ch path term1 cur1 pass in
      let needs_wrap :=
        negb first && negb wrap
        && ((term1 && (colm c1 + 1 >? lw)) || (lext l1 >? lw) || (row c1 - row cur1 >? 1)) in
      let? (l2, c2) :=
        if needs_wrap then snd ch path term1 (Cur (row colc1 + 1) (colm colc1)) pass
        else Ok (l1, c1) in
      let? (ls, c', v', x') :=
        arg_children lw path pass term wrap cs' (Some (fst ch)) (Cur (row c2) (colm colc1)) c2
          (v && lvalid l2) (Z.max x (lext l2)) in
      Ok (l2 :: ls, c', v', x')
  end.
(** ArgGroupNode._reflow, 1391-1466 *)
Definition reflow_arg (e : env) (spec : option cspec) (cs : list chd)
  (path : list str) (term : bool) (cur : cursor) (pass : Z) (wrap : bool) : res attempt :=
  let? n := count_subgroups cs in
  let? (ls, c, v, x) :=
    arg_children (f_linewidth (cfg e)) path pass term wrap cs None cur cur true (colm cur) in
  let maxs := match spec with
              | Some sp => match cs_max_subgroups sp with
                           | Some z => z | None => f_max_subgroups (cfg e) end
              | None => f_max_subgroups (cfg e)
              end in
  Ok (Att wrap (if n >? maxs then v && wrap else v) x nil ls c).

(** the loop of ParenGroupNode._reflow, 1517-1571 *)
Fixpoint pgroup_children (lw : Z) (path : list str) (pass : Z) (term wrap : bool)
  (cs : list chd) (prev : option box) (colc cur : cursor) (v : bool) (x : Z)
  : res (list lay * cursor * bool * Z) :=
  match cs with
  | nil => Ok (nil, cur, v, x)
  | ch :: cs' =>
      let cur1 :=
        match prev with
        | None => cur
        | Some p =>
            if is_lparen_k (bkind p) then cur
            else if ends_line p || wrap then Cur (row cur + 1) (colm colc)
            else if is_rparen_k (ckind ch) then cur
            else shift cur 1
        end in
      let term1 := term && match cs' with nil => true | _ => false end in
      let? (l1, c1) := snd ch path term1 cur1 pass in
      let needs_wrap :=
        negb wrap
        && ((term1 && (colm c1 + 1 >? lw)) || (lext l1 >? lw) || negb (lvalid l1)) in
      let? (l2, c2) :=
        if needs_wrap then snd ch path term1 (Cur (row colc + 1) (colm colc)) pass
        else Ok (l1, c1) in
      let? (ls, c', v', x') :=
        pgroup_children lw path pass term wrap cs' (Some (fst ch)) (Cur (row c2) (colm colc)) c2
          (v && lvalid l2) (Z.max x (lext l2)) in
      Ok (l2 :: ls, c', v', x')
  end.
(** ParenGroupNode._reflow, 1500-1572 *)
Definition reflow_pgroup (e : env) (cs : list chd)
  (path : list str) (term : bool) (cur : cursor) (pass : Z) (wrap : bool) : res attempt :=
  if negb ((zlen cs =? 3) || (zlen cs =? 4)) then Err AssertionErr else
  let? (ls, c, v, x) :=
    pgroup_children (f_linewidth (cfg e)) path pass term wrap cs None cur cur true (colm cur) in
  Ok (Att wrap v x nil ls c).

(** KwargGroupNode._reflow, 1111-1140 *)
Definition reflow_kwarg (e : env) (cs : list chd)
  (path : list str) (term : bool) (cur : cursor) (pass : Z) (wrap0 : bool) : res attempt :=
  match cs with
  | nil => Err IndexErr
  | kw :: cs1 =>
      if zlen cs >? 2 then Err AssertionErr else
      if negb (is_keyword_k (ckind kw)) then Err AssertionErr else
      let wrap := if zlen (first_spelling (bpcs (fst kw))) <=? f_min_prefix (cfg e)
                  then false else wrap0 in
      let? (lk, c1) := snd kw path false cur pass in
      match cs1 with
      | nil => Ok (Att wrap (lvalid lk) (lext lk) nil [lk] c1)
      | ch :: _ =>
          let cc := if wrap then Cur (row c1 + 1) (colm cur + f_tab (cfg e)) else shift c1 1 in
          let? (l, c2) := snd ch path term cc pass in
          Ok (Att wrap (lvalid lk && lvalid l) (Z.max (lext lk) (lext l)) nil [lk; l] c2)
      end
  end.

(** the dangling position, 919-932 *)
Definition dangle_cursor (c : fcfg) (start : cursor) (r cc : Z) : res cursor :=
  if seqb (f_dangle_align c) $"prefix" then Ok (Cur r (colm start))
  else if seqb (f_dangle_align c) $"prefix-indent" then Ok (Cur r (colm start + f_tab c))
  else if seqb (f_dangle_align c) $"child" then Ok (Cur r cc)
  else Err ValueErr.

(** the right parenthesis and the trailing comment, 934-978 *)
Definition stmt_close (c : fcfg) (path : list str) (pass : Z) (start : cursor) (rp : chd)
  (cs4 : list chd) (dangle : bool) (initial dcur : cursor)
  : res (list lay * cursor * bool * Z) :=
  let? (lr, c4) := snd rp path false initial pass in
  let v1 := lvalid lr in
  match cs4 with
  | nil => Ok ([lr], c4, v1, lext lr)
  | [cm] =>
      if negb (is_comment_k (ckind cm)) then Err AssertionErr else
      let save := shift c4 1 in
      let? (lc, c5) := snd cm path false save pass in
      let? (lr2, lc2, c6, save2, v2) :=
        if negb dangle && (lext lc >? f_linewidth c) then
          let? (lr', c') := snd rp path false dcur pass in
          let? (lc', c'') := snd cm path false c' pass in
          Ok (lr', lc', c'', c', v1 && lvalid lr')
        else Ok (lr, lc, c5, save, v1) in
      let? (lr3, lc3, c7) :=
        if lext lc2 >? f_linewidth c then
          let? (lr', _) := snd rp path false initial pass in
          let? (lc', c') := snd cm path false (Cur (row save2 + 1) (colm start)) pass in
          Ok (lr', lc', c')
        else Ok (lr2, lc2, c6) in
      Ok ([lr3; lc3], c7, v2 && lvalid lc3, Z.max (lext lc3) (lext lr3))
  | _ :: _ :: _ => Err AssertionErr
  end.

(** StatementNode._reflow, 857-981 *)
Definition reflow_statement (e : env) (cs : list chd) (path : list str) (cur : cursor)
  (pass : Z) (wrap0 : bool) : res attempt :=
  let c := cfg e in
  match cs with
  | nil => Err AssertionErr
  | fn :: cs1 =>
      if negb (is_funname_k (ckind fn)) then Err AssertionErr else
      let? (lf, c0) := snd fn path false cur pass in
      let name := lower (first_spelling (bpcs (fst fn))) in
      let c1 := if need_paren_space c name then shift c0 1 else c0 in
      let wrap := if prefix_width c name <=? f_min_prefix c then false else wrap0 in
      match cs1 with
      | nil => Err AssertionErr
      | lp :: cs2 =>
          if negb (is_lparen_k (ckind lp)) then Err AssertionErr else
          let? (ll, c2) := snd lp path false c1 pass in
          let colc := if wrap then Cur (row cur + 1) (colm cur + f_tab c) else c2 in
          match cs2 with
          | nil => Err IndexErr
          | ag :: cs3 =>
              if negb (is_arggroup_k (ckind ag)) then Err AssertionErr else
              let? (la, c3) := snd ag path true colc pass in
              match cs3 with
              | nil => Err AssertionErr
              | rp :: cs4 =>
                  if negb (is_rparen_k (ckind rp)) then Err AssertionErr else
                  let '(dangle, v0) :=
                    if f_dangle c && (row c3 >? row cur) then (true, true)
                    else if colm c3 >=? f_linewidth c then (true, wrap)
                    else (has_terminal (fst ag), true) in
                  let? dcur := dangle_cursor c cur (row c3 + 1) (colm colc) in
                  let initial := if dangle then dcur else c3 in
                  let? (ls, c4, v1, x1) :=
                    stmt_close c path pass cur rp cs4 dangle initial dcur in
                  Ok (Att wrap (v0 && lvalid lf && lvalid ll && lvalid la && v1)
                          (Z.max (Z.max (Z.max (colm cur) (lext lf))
                                        (Z.max (lext ll) (lext la))) x1)
                          nil (lf :: ll :: la :: ls) c4)
              end
          end
      end
  end.

(** AtWordStatementNode._reflow, 1008-1048 *)
Definition reflow_atstmt (e : env) (cs : list chd) (path : list str) (cur : cursor)
  (pass : Z) (wrap : bool) : res attempt :=
  match cs with
  | nil => Err AssertionErr
  | aw :: cs1 =>
      if negb (is_atword_k (ckind aw)) then Err AssertionErr else
      let? (la, c1) := snd aw path false cur pass in
      let x := Z.max (colm cur) (lext la) in
      match cs1 with
      | nil => Ok (Att wrap (lvalid la) x nil [la] c1)
      | [cm] =>
          if negb (is_comment_k (ckind cm)) then Err AssertionErr else
          let save := shift c1 1 in
          let? (lc, c2) := snd cm path false save pass in
          let? (lc', c3) :=
            if lext lc >? f_linewidth (cfg e)
            then snd cm path false (Cur (row save + 1) (colm cur)) pass
            else Ok (lc, c2) in
          Ok (Att wrap (lvalid la && lvalid lc') (Z.max x (lext lc')) nil [la; lc'] c3)
      | _ :: _ :: _ => Err AssertionErr
      end
  end.

(** dispatch on the node class *)
Definition reflow_once (e : env) (b : box) (cs : list chd) (path : list str) (term : bool)
  (cur : cursor) (pass : Z) (wrap : bool) : res attempt :=
  match bkind b with
  | KLParen | KRParen => reflow_paren cur wrap
  | KFunname | KArgument | KKeyword | KFlag | KAtWord =>
      reflow_scalar (bpcs b) cs path cur pass wrap
  | KOnOff => reflow_onoff (bpcs b) cur wrap
  | KStatement _ => reflow_statement e cs path cur pass wrap
  | KAtStmt => reflow_atstmt e cs path cur pass wrap
  | KKwargGroup => reflow_kwarg e cs path term cur pass wrap
  | KPargGroup _ tags spec => reflow_parg e tags spec cs path term cur pass wrap
  | KArgGroup spec => reflow_arg e spec cs path term cur pass wrap
  | KParenGroup => reflow_pgroup e cs path term cur pass wrap
  | KBody => reflow_body cs path cur pass wrap
  | KFlow => reflow_flow e cs path cur pass wrap
  | KComment x => reflow_comment e x (bpcs b) cur wrap
  | KWhitespace => reflow_white cur wrap
  end.

(** one iteration of the loop of reflow, 551-564: lay the node out and validate *)
Definition try_pass (e : env) (b : box) (cs : list chd) (path : list str) (term : bool)
  (cur : cursor) (pass : Z) (wrap : bool) : res (lay * cursor) :=
  let? a := reflow_once e b cs path term cur pass wrap in
  let v := a_valid a && validate (cfg e) b path (a_wrap a) cur (row (a_out a)) (a_ext a) in
  Ok (Lay (bkind b) (bpcs b) cur pass (a_wrap a) v (a_ext a) (a_lines a) (a_cs a), a_out a).

(** the loop of reflow, 550-568 *)
Fixpoint try_passes (f : Z -> bool -> res (lay * cursor)) (limit : Z)
  (ps : list (Z * bool)) (last : option (lay * cursor)) : res (lay * cursor) :=
  let stop := match last with Some x => Ok x | None => Err AssertionErr end in
  match ps with
  | nil => stop
  | (p, w) :: ps' =>
      if p >? limit then stop
      else let? x := f p w in
           if lvalid (fst x) then Ok x else try_passes f limit ps' (Some x)
  end.

Section Reflow.
  Context (e : env).
  Fixpoint reflow (b : box) (sib : nat) (path : list str) (term : bool)
    (cur : cursor) (passno : Z) {struct b} : res (lay * cursor) :=
    match b with
    | B k p cs =>
        let chs := (fix go (l : list box) (n : nat) : list chd :=
                      match l with
                      | nil => nil
                      | c :: l' => (c, reflow c n) :: go l' (if is_parg_k (bkind c) then S n else n)
                      end) cs 0%nat in
        let path' := push_path path b sib in
        try_passes (try_pass e b chs path' term cur) (pass_limit k passno)
                   (node_passes (cfg e) k) None
    end.
End Reflow.

(** layout_tree, 1765-1780 (the [linewidth] argument is ignored by the code) *)
Definition layout_tree (e : env) (root : pnode) : res lay :=
  let? (l, _) := reflow e (lock (f_autosort (cfg e)) (create_box root)) 0 nil false (Cur 0 0) 0 in
  Ok l.

(** ** Writing *)

(** WriteContext, 1981-1999: [w_off] is the byte offset of the end of the last
    format-off sentinel *)
Record wst := WS { w_off : option Z; w_f : cfile }.
Definition active (s : wst) : bool := match w_off s with None => true | _ => false end.

(** BytesIO.seek / read / decode('utf-8') on the UTF-8 encoding of the input.
    [None]: the position is inside the encoding of a character. *)
Fixpoint bdrop (n : Z) (s : str) : option str :=
  if n <=? 0 then Some s else
  match s with
  | nil => Some nil
  | c :: s' => if utf8_len c <=? n then bdrop (n - utf8_len c) s' else None
  end.
Fixpoint btake (n : Z) (s : str) : option str :=
  if n <=? 0 then Some nil else
  match s with
  | nil => Some nil
  | c :: s' => if utf8_len c <=? n
               then match btake (n - utf8_len c) s' with Some r => Some (c :: r) | None => None end
               else None
  end.
(** [read(n)] with a negative count reads to the end *)
Definition read_bytes (s : str) (off n : Z) : res str :=
  if n =? 0 then Ok nil else
  match bdrop off s with
  | None => Err UnicodeErr
  | Some r =>
      if n <? 0 then Ok r
      else match btake n r with Some x => Ok x | None => Err UnicodeErr end
  end.

Definition tok_end_offset (t : token) : Z := offset (begin t) + bytelen (spelling t).

Definition put (c : fcfg) (s : wst) (p : cursor) (text : str) : res wst :=
  let? f := write_at (f_endl c) (w_f s) (row p) (colm p) text in Ok (WS (w_off s) f).

(** the spelling written for a scalar, 695-719; [parent]: the parse node above it *)
Definition scalar_text (c : fcfg) (parent k : kind) (t : token) : res str :=
  match k with
  | KFunname =>
      let cc := f_command_case c (spelling t) in
      if seqb cc $"lower" then Ok (lower (spelling t))
      else if seqb cc $"upper" then Ok (upper (spelling t))
      else if seqb cc $"canonical" then
        match parent with
        | KStatement (Some cs) => Ok (cs_spelling cs)
        | _ => Ok (f_spelling c (spelling t))
        end
      else if seqb cc $"unchanged" then Ok (normalize (spelling t)) else Err AssertionErr
  | KKeyword | KFlag =>
      if seqb (f_keyword_case c) $"lower" then Ok (lower (spelling t))
      else if seqb (f_keyword_case c) $"upper" then Ok (upper (spelling t))
      else Ok (normalize (spelling t))
  | _ => Ok (normalize (spelling t))
  end.

(** OnOffSwitchNode.write, 764-786 *)
Definition write_onoff (c : fcfg) (infile : str) (pcs : list pnode) (p : cursor) (s : wst)
  : res wst :=
  match pcs with
  | T t :: _ =>
      match tt t with
      | FORMAT_ON =>
          match w_off s with
          | None => put c s p $"# cmake-format: on"
          | Some off =>
              let? text := read_bytes infile off (offset (begin t) - off) in
              put c (WS None (forge (write_raw (w_f s) text) (row p) (colm p))) p
                  $"# cmake-format: on"
          end
      | FORMAT_OFF => put c (WS (Some (tok_end_offset t)) (w_f s)) p $"# cmake-format: off"
      | _ => Err InternalError
      end
  | _ => Err AssertionErr
  end.

(** the loop of CommentNode.write, 1715-1716 *)
Fixpoint write_lines (c : fcfg) (p : cursor) (ls : list str) (s : wst) : res wst :=
  match ls with
  | nil => Ok s
  | l :: ls' => let? s' := put c s p l in write_lines c (Cur (row p + 1) (colm p)) ls' s'
  end.

(** [for child in children: child.write(...)] *)
Fixpoint chain {A S} (f : A -> S -> res S) (l : list A) (s : S) : res S :=
  match l with
  | nil => Ok s
  | a :: l' => let? s' := f a s in chain f l' s'
  end.

(** the [write] methods: LayoutNode 570-576, ParenNode 626-632, ScalarNode
    695-728, OnOffSwitchNode, StatementNode 983-986, AtWordStatementNode
    1050-1053, ArgGroupNode 1468-1470, ParenGroupNode 1574-1578, CommentNode
    1708-1716, WhitespaceNode 1729-1730 *)
Fixpoint write (c : fcfg) (infile : str) (parent : kind) (l : lay) (s : wst) {struct l} : res wst :=
  match l with
  | Lay k pcs p _ _ _ _ lines cs =>
      let all := fun s => (fix go (l : list lay) (s : wst) : res wst :=
                             match l with
                             | nil => Ok s
                             | a :: l' => let? s' := write c infile k a s in go l' s'
                             end) cs s in
      match k with
      | KLParen => put c s p $"("
      | KRParen => put c s p $")"
      | KOnOff => write_onoff c infile pcs p s
      | KWhitespace => Ok s
      | KFunname | KArgument | KKeyword | KFlag | KAtWord =>
          if negb (active s) then Ok s else
          match pcs with
          | T t :: _ =>
              let? text := scalar_text c parent k t in
              let? s' := put c s p text in
              match cs with
              | nil => Ok s'
              | [ch] => if is_comment_k (lkind ch) then all s' else Err AssertionErr
              | _ :: _ :: _ => Err AssertionErr
              end
          | _ => Err AssertionErr
          end
      | KComment _ =>
          if negb (active s) then Ok s
          else if is_bracket pcs then put c s p (normalize (first_spelling pcs))
          else write_lines c p lines s
      | KStatement _ | KAtStmt | KArgGroup _ | KParenGroup =>
          if negb (active s) then Ok s else all s
      | KBody | KFlow | KKwargGroup | KPargGroup _ _ _ => all s
      end
  end.

(** write_tree, 2002-2013 *)
Definition write_tree (c : fcfg) (infile : str) (root : lay) : res str :=
  let? s := write c infile KBody root (WS None cf_init) in
  Ok (getvalue (f_endl c) (w_f s)).
