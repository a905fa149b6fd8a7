(** * Tree: token predicates (parse/util.py), command specifications and the
    parse tree (parse/common.py) *)
From Verif Require Import Base Regex Lex.

(** ** Positional counts and specifications *)

(** The [nargs]/[npargs] of a positional specification, parse/util.py 186-200:
    a python int or a string. *)
Inductive nargs := NInt (z : Z) | NStr (s : str).

(** PositionalSpec, parse/util.py 47-93 ([always_wrap] is stored by the code but
    read nowhere; it is left out). *)
Record pspec := PSpec {
  ps_nargs : nargs; ps_sortable : bool; ps_tags : list str;
  ps_flags : list str; ps_legacy : bool; ps_max_pargs : option Z }.

(** CommandSpec, parse/util.py 465-525, without its keyword table (the keyword
    table of a parser is modelled in [parser]); [always_wrap] left out as above. *)
Record cspec := CSpec {
  cs_name : str; cs_spelling : str; cs_pargs : list pspec;
  cs_max_subgroups : option Z }.

(** ** The parse tree *)

(** NodeType and the node attributes the later stages read.
    parse/common.py 19-48; the attribute sources are:
    [KComment explicit]: CommentNode.is_explicit_trailing (simple_nodes.py 44);
    [KStatement cmdspec]: StatementNode.cmdspec (statement_node.py 40, 86);
    [KArgGroup cmdspec]: StandardArgTree.cmdspec (argument_nodes.py 57, 94);
    [KPargGroup sortable tags spec]: PositionalGroupNode (argument_nodes.py 327-333). *)
Inductive kind :=
| KBody | KWhitespace | KComment (explicit : bool)
| KStatement (cmdspec : option cspec) | KFlow | KFunname
| KArgGroup (cmdspec : option cspec) | KKwargGroup
| KPargGroup (sortable : bool) (tags : list str) (spec : option pspec)
| KParenGroup | KArgument | KKeyword | KFlag | KOnOff | KAtStmt | KAtWord
| KLParen | KRParen.

(** TreeNode, parse/common.py 63-71: a child is a token or a node. *)
Inductive pnode :=
| T (t : token)
| N (k : kind) (cs : list pnode).

Section PnodeInd.
  Variable P : pnode -> Prop.
  Hypothesis HT : forall t, P (T t).
  Hypothesis HN : forall k cs, Forall P cs -> P (N k cs).
  Fixpoint pnode_ind' (n : pnode) : P n :=
    match n with
    | T t => HT t
    | N k cs => HN k cs ((fix go l : Forall P l :=
        match l with
        | nil => Forall_nil _
        | x :: l' => Forall_cons _ (pnode_ind' x) (go l')
        end) cs)
    end.
End PnodeInd.

(** get_tokens(kind="all"), parse/common.py 99-123: the leaves, left to right *)
Fixpoint flat (n : pnode) : list token :=
  match n with
  | T t => [t]
  | N _ cs => flat_map flat cs
  end.
Definition flats (l : list pnode) : list token := flat_map flat l.
Lemma flats_app l m : flats (l ++ m) = flats l ++ flats m.
Proof. apply flat_map_app. Qed.
Lemma flats_T l : flats (map T l) = l.
Proof. induction l; simpl; congruence. Qed.

(** TreeNode.get_location, parse/common.py 80-88: location of the first token in
    the subtree, or (0,0,0) *)
Fixpoint node_loc (n : pnode) : location :=
  match n with
  | T t => begin t
  | N _ (c :: _) => node_loc c
  | N _ nil => Loc 0 0 0
  end.
Definition children_loc (l : list pnode) : location :=
  match l with c :: _ => node_loc c | nil => Loc 0 0 0 end.

(** TreeNode.count_newlines, parse/common.py 90-94 *)
Fixpoint node_newlines (n : pnode) : Z :=
  match n with
  | T t => count_chr cNL (spelling t)
  | N _ cs => fold_right (fun c z => node_newlines c + z) 0 cs
  end.

(** ** Token classification, parse/util.py *)

(** WHITESPACE_TOKENS, util.py 25-26 *)
Definition is_ws (t : token) : bool := tmem (tt t) [WHITESPACE; NEWLINE].
(** ONOFF_TOKENS, util.py 33-34 *)
Definition is_onoff (t : token) : bool := tmem (tt t) [FORMAT_ON; FORMAT_OFF].
(** NON_SEMANTIC_TOKENS, util.py 36-43; is_semantic_token 110-114 *)
Definition is_semantic (t : token) : bool :=
  negb (tmem (tt t) [COMMENT; BRACKET_COMMENT; FORMAT_ON; FORMAT_OFF; WHITESPACE; NEWLINE]).
(** the pair (COMMENT, BRACKET_COMMENT) tested by every argument parser *)
Definition is_comment (t : token) : bool := tmem (tt t) [COMMENT; BRACKET_COMMENT].
Definition is_tt (k : ttype) (t : token) : bool := ttype_eqb (tt t) k.

(** Longest prefix [p] of the first line of [s] such that [s = p ++ close ++ _]:
    what the greedy dot-star group followed by the closing bracket of BRACKET_TAG
    captures, util.py 246. *)
Fixpoint greedy_until (close s : str) : option str :=
  match s with
  | nil => if startswith close s then Some nil else None
  | c :: s' =>
      match (if N.eqb c cNL then None else greedy_until close s') with
      | Some p => Some (c :: p)
      | None => if startswith close s then Some nil else None
      end
  end.

Fixpoint take_until_nl (s : str) : str :=
  match s with
  | nil => nil
  | c :: s' => if N.eqb c cNL then nil else c :: take_until_nl s'
  end.
Fixpoint span_eq (s : str) : str * str :=
  match s with
  | c :: s' => if N.eqb c cEQ then let '(a, b) := span_eq s' in (c :: a, b) else (nil, s)
  | nil => (nil, nil)
  end.
Definition after_prefix (ps : list str) (s : str) : option str :=
  fold_right (fun p acc => if startswith p s then Some (skipn (List.length p) s) else acc) None ps.

(** get_tag, util.py 245-264.  LINE_TAG: a hash, spaces, the tool name, a colon
    and a space, the rest of the line.  BRACKET_TAG: hash, long bracket, the tool
    name and colon, greedy text, the same closing long bracket. *)
Definition get_tag (t : token) : option str :=
  match tt t with
  | COMMENT =>
      match spelling t with
      | c :: s =>
          if N.eqb c cHASH then
            match after_prefix [$"cmake-format: "; $"cmf: "] (lstrip s) with
            | Some r => Some (lower (strip (take_until_nl r)))
            | None => None
            end
          else None
      | nil => None
      end
  | BRACKET_COMMENT =>
      match spelling t with
      | c :: b :: s =>
          if N.eqb c cHASH && N.eqb b cLB then
            let '(eqs, s1) := span_eq s in
            match s1 with
            | b2 :: s2 =>
                if N.eqb b2 cLB then
                  match after_prefix [$"cmake-format:"; $"cmf:"] s2 with
                  | Some r =>
                      match greedy_until (cRB :: eqs ++ [cRB]) r with
                      | Some g => Some (lower (strip g))
                      | None => None
                      end
                  | None => None
                  end
                else None
            | nil => None
            end
          else None
      | _ => None
      end
  | _ => None
  end.
Definition tag_in (t : token) (l : list str) : bool :=
  match get_tag t with Some g => smem g l | None => false end.
(** comment_is_tag, util.py 173-182 *)
Definition comment_is_tag (t : token) : bool :=
  match get_tag t with Some _ => true | None => false end.
(** is_valid_trailing_comment, util.py 121-127 *)
Definition is_valid_trailing (t : token) : bool := is_comment t && negb (comment_is_tag t).

(** get_normalized_kwarg, util.py 267-279 *)
Definition normalized_kwarg (t : token) : option str :=
  if is_tt UNQUOTED_LITERAL t && startswith [45%N] (spelling t)
  then Some (lower (spelling t))
  else if is_tt WORD t then Some (upper (spelling t)) else None.
Definition kwarg_in (t : token) (l : list str) : bool :=
  match normalized_kwarg t with Some w => smem w l | None => false end.

(** python [int(s)] on ASCII text: optional blanks and sign, digits possibly
    separated by single underscores; [None] is ValueError. *)
Definition is_digit_c (c : chr) : bool := (48 <=? c)%N && (c <=? 57)%N.
Fixpoint digits_val (acc : Z) (prev_digit : bool) (s : str) : option Z :=
  match s with
  | nil => if prev_digit then Some acc else None
  | c :: s' =>
      if is_digit_c c then digits_val (10 * acc + (Z.of_N c - 48)) true s'
      else if N.eqb c 95%N && prev_digit then digits_val acc false s' else None
  end.
Definition py_int (s : str) : option Z :=
  match strip s with
  | c :: s' => if N.eqb c 45%N then option_map Z.opp (digits_val 0 false s')
               else if N.eqb c 43%N then digits_val 0 false s'
               else digits_val 0 false (c :: s')
  | nil => None
  end.

(** pargs_are_full, util.py 186-204 *)
Definition pargs_are_full (n : nargs) (nconsumed : Z) : res bool :=
  match n with
  | NInt z => Ok (nconsumed >=? z)
  | NStr s =>
      if seqb s $"?" then Ok (nconsumed >=? 1)
      else if smem s [$"*"; $"+"] then Ok false
      else if endswith $"+" s then
        match py_int (removelast s) with Some _ => Ok false | None => Err ValueErr end
      else Ok false
  end.
(** npargs_is_exact, util.py 207-211 *)
Definition is_exact (n : nargs) : bool := match n with NInt _ => true | NStr _ => false end.
(** get_min_npargs, util.py 214-242 (without the [None] case) *)
Definition get_min_npargs (n : nargs) : res Z :=
  match n with
  | NInt z => Ok z
  | NStr s =>
      if smem s [$"*"; $"?"] then Ok 0
      else if seqb s $"+" then Ok 1
      else match (if endswith $"+" s then py_int (removelast s) else None) with
           | Some z => Ok z
           | None => match py_int s with Some z => Ok z | None => Err ValueErr end
           end
  end.

(** ParenBreaker / KwargBreaker, parse/common.py 132-158 *)
Inductive breaker := BParen | BKw (kws : list str).
Definition breaks (b : breaker) (t : token) : bool :=
  match b with
  | BParen => is_tt RIGHT_PAREN t
  | BKw kws => smem (upper (spelling t)) kws
  end.
(** KwargBreaker.__init__ upper-cases its keywords *)
Definition kwbreaker (kws : list str) : breaker := BKw (map upper kws).
(** should_break, util.py 282-290 *)
Definition should_break (t : token) (bs : list breaker) : bool := existsb (fun b => breaks b t) bs.

(** iter_semantic_tokens / get_nth_semantic_token, util.py 334-364 *)
Definition semantics (ts : list token) : list token := filter is_semantic ts.
Definition nth_semantic (ts : list token) (n : nat) : option token := nth_error (semantics ts) n.

(** only_comments_and_whitespace_remain, util.py 293-307 *)
Fixpoint only_cw_remain (ts : list token) (bs : list breaker) : bool :=
  match ts with
  | nil => true
  | t :: ts' => if is_ws t || is_comment t then only_cw_remain ts' bs else should_break t bs
  end.
