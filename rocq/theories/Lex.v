(** * Lex: model of cmakelang/lex/__init__.py *)
From Verif Require Import Base Regex.

(** lex/__init__.py 20-35 *)
Inductive ttype :=
  QUOTED_LITERAL | LEFT_PAREN | RIGHT_PAREN | WORD | NUMBER | DEREF
| WHITESPACE | NEWLINE | COMMENT | UNQUOTED_LITERAL | FORMAT_OFF | FORMAT_ON
| BRACKET_ARGUMENT | BRACKET_COMMENT | BYTEORDER_MARK | ATWORD.

Definition ttype_eqb (a b : ttype) : bool :=
  match a, b with
  | QUOTED_LITERAL, QUOTED_LITERAL | LEFT_PAREN, LEFT_PAREN
  | RIGHT_PAREN, RIGHT_PAREN | WORD, WORD | NUMBER, NUMBER | DEREF, DEREF
  | WHITESPACE, WHITESPACE | NEWLINE, NEWLINE | COMMENT, COMMENT
  | UNQUOTED_LITERAL, UNQUOTED_LITERAL | FORMAT_OFF, FORMAT_OFF
  | FORMAT_ON, FORMAT_ON | BRACKET_ARGUMENT, BRACKET_ARGUMENT
  | BRACKET_COMMENT, BRACKET_COMMENT | BYTEORDER_MARK, BYTEORDER_MARK
  | ATWORD, ATWORD => true
  | _, _ => false
  end.
Lemma ttype_eqb_eq a b : ttype_eqb a b = true <-> a = b.
Proof. destruct a, b; simpl; split; congruence. Qed.

(** Python's [token.type in (...)]. *)
Definition tmem (t : ttype) (l : list ttype) : bool := existsb (ttype_eqb t) l.
Lemma tmem_In t l : tmem t l = true <-> In t l.
Proof.
  unfold tmem. rewrite existsb_exists. split.
  - intros (x & H & E). apply ttype_eqb_eq in E. now subst.
  - intros H. exists t. split; auto. now apply ttype_eqb_eq.
Qed.

(** SourceLocation, lex/__init__.py 38-59 *)
Record location := Loc { line : Z; col : Z; offset : Z }.
(** Token, lex/__init__.py 62-95 (the [end] location is not modelled as a
    field: it equals the next token's begin). *)
Record token := Tok { tt : ttype; spelling : str; begin : location }.

Definition cEQ : chr := 61%N.
Definition cLB : chr := 91%N.
Definition cRB : chr := 93%N.
Definition cBSL : chr := 92%N.
Definition cDQ : chr := 34%N.
Definition cSQ : chr := 39%N.
Definition cDOL : chr := 36%N.
Definition cAT : chr := 64%N.

(** Character classes of the patterns. *)
Definition oneof (l : list chr) (c : chr) : bool := existsb (N.eqb c) l.
Definition noneof (l : list chr) (c : chr) : bool := negb (oneof l c).
Definition any (_ : chr) := true.
Definition between (a b : N) (c : chr) := (a <=? c)%N && (c <=? b)%N.
Definition nS_lp c := negb (is_aspace c) && negb (N.eqb c cLP).        (* [^\s\(] *)
Definition nS_rp c := negb (is_aspace c) && negb (N.eqb c cRP).        (* [^\s\)] *)
Definition nS_par c := negb (is_aspace c) && negb (N.eqb c cRP) && negb (N.eqb c cLP). (* [^\s\)\(] *)
Definition digit := between 48 57.                                      (* [0-9] *)
Definition wfirst c := between 97 122 c || between 65 122 c || N.eqb c 95. (* [a-zA-z_] *)
Definition wrest c := between 97 122 c || between 65 90 c || digit c || N.eqb c 95. (* [a-zA-Z0-9_] *)
Definition plain c := negb (is_aspace c) && noneof [cLP; cRP; cHASH; cDQ; cBSL] c. (* not space, parens, hash, dquote, backslash *)
(* escapes allowed after a backslash: parens # dquote space backslash dollar @ caret t r n ; *)
Definition escid := oneof [cLP; cRP; cHASH; cDQ; cSP; cBSL; cDOL; cAT; 94; 116; 114; 110; 59]%N.

Definition C (c : chr) := RChr (N.eqb c).

(** Quoted string, lines 139 and 142: a quote, a run without quote or
    backslash, then repeatedly an escaped character and such a run, a quote. *)
Definition quoted (q : chr) : re :=
  RSeqs [C q; RStar (RChr (noneof [q; cBSL]));
         RStar (RSeqs [C cBSL; RChr any; RStar (RChr (noneof [q; cBSL]))]); C q].
(** Bracket argument, lines 145 and 180: a captured run of equal signs between
    open brackets, lazily anything, closing bracket with the same run. *)
Definition bracket : re :=
  RSeqs [C cLB; RGrp (RStar (C cEQ)); C cLB; RLazy (RChr any); C cRB; RBack; C cRB].
(** lines 105-118 *)
Definition legacy_pattern : re :=
  RPlus (RAlts [
    RSeqs [C cDOL; C cLP; RPlus (RChr (noneof [cDOL; cLP; cRP])); C cRP];
    quoted cDQ;
    RChr plain;
    RSeq (C cBSL) (RChr escid)]).
(** lines 122-131 *)
Definition unquoted_pattern : re :=
  RPlus (RAlt (RChr plain) (RSeq (C cBSL) (RChr escid))).
(** (cmake-format|cmf): *)
Definition sentinel (onoff : str) : re :=
  RSeqs [C cHASH; RStar (RChr is_aspace);
         RAlt (RLit $"cmake-format") (RLit $"cmf"); RLit onoff;
         RStar (RChr (noneof [cNL]))].

(** lines 135-182, in priority order *)
Definition lexicon1 : list (ttype * re) := [
  (QUOTED_LITERAL, RSeqs [RNLB nS_lp; quoted cDQ; RNLA nS_rp]);
  (QUOTED_LITERAL, RSeqs [RNLB nS_lp; quoted cSQ; RNLA nS_rp]);
  (BRACKET_ARGUMENT, RSeqs [RNLB nS_lp; bracket; RNLA nS_rp]);
  (NUMBER, RSeqs [RNLB nS_lp; ROpt (C 45%N); RPlus (RChr digit); RNLA nS_par]);
  (WORD, RSeqs [RNLB nS_lp; RChr wfirst; RStar (RChr wrest); RNLA nS_par]);
  (ATWORD, RSeqs [RNLB nS_lp; C cAT; RChr wfirst; RStar (RChr wrest); C cAT; RNLA nS_par]);
  (DEREF, RSeqs [RNLB nS_lp; C cDOL; C 123%N; RChr wfirst; RStar (RChr wrest); C 125%N; RNLA nS_rp]);
  (UNQUOTED_LITERAL, legacy_pattern);
  (UNQUOTED_LITERAL, unquoted_pattern);
  (LEFT_PAREN, C cLP);
  (RIGHT_PAREN, C cRP);
  (NEWLINE, RSeq (ROpt (C cCR)) (C cNL));
  (NEWLINE, RSeq (C cCR) (ROpt (C cNL)));
  (WHITESPACE, RPlus (RChr is_blank));
  (FORMAT_OFF, sentinel $": off");
  (FORMAT_ON, sentinel $": on");
  (BRACKET_COMMENT, RSeq (C cHASH) bracket);
  (COMMENT, RSeq (C cHASH) (RStar (RChr (noneof [cNL]))))
].
(** lines 183-185: the catch-all, tried last *)
Definition catch_all : re := RAlts [
     RPlus (RChr nS_par);
     RSeq (RStar (RChr nS_lp)) (RChr (noneof [cRP]));
     RSeq (RChr (noneof [cLP])) (RStar (RChr nS_rp))].
Definition lexicon : list (ttype * re) := lexicon1 ++ [(UNQUOTED_LITERAL, catch_all)].

(** First pattern of the lexicon that matches at this position (the scanner is
    one big ordered alternation). *)
Fixpoint first_match (lx : list (ttype * re)) (pv : option chr) (s : str)
  : option (ttype * st) :=
  match lx with
  | nil => None
  | (t, r) :: lx' =>
      match rmatch r pv s with
      | Some y => Some (t, y)
      | None => first_match lx' pv s
      end
  end.

(** [re.Scanner.scan]: repeat at the current position, stop on no match or on an
    empty match; returns the tokens and the unparsed remainder.  The fuel is the
    length of the text; every iteration consumes at least one character. *)
Fixpoint scan (fuel : nat) (pv : option chr) (s : str) : list (ttype * str) * str :=
  match fuel with
  | O => (nil, s)
  | S f =>
      match first_match lexicon pv s with
      | None => (nil, s)
      | Some (t, y) =>
          let n := (List.length s - List.length (rest y))%nat in
          match n with
          | O => (nil, s)
          | _ =>
              let '(ts, rem) := scan f (prev y) (rest y) in
              ((t, firstn n s) :: ts, rem)
          end
      end
  end.

(** len(spelling.rsplit('\n', 1)[1]): characters after the last newline *)
Fixpoint after_last_nl (s : str) : str :=
  match s with
  | nil => nil
  | c :: s' => if existsb (N.eqb cNL) s' then after_last_nl s'
               else if N.eqb c cNL then s' else s
  end.

(** lines 206-226 *)
Fixpoint locate (ln co off : Z) (ts : list (ttype * str)) : list token :=
  match ts with
  | nil => nil
  | (t, sp) :: ts' =>
      let nls := count_chr cNL sp in
      let co' := if nls =? 0 then co + zlen sp else zlen (after_last_nl sp) in
      Tok t sp (Loc ln co off) :: locate (ln + nls) co' (off + bytelen sp) ts'
  end.

Definition bom_token : token := Tok BYTEORDER_MARK [cBOM] (Loc 0 0 0).

(** tokenize, lines 97-233 *)
Definition tokenize (contents : str) : res (list token) :=
  let '(pre, body) :=
    match contents with
    | c :: s' => if N.eqb c cBOM then ([bom_token], s') else (nil, contents)
    | nil => (nil, contents)
    end in
  let '(ts, remainder) := scan (List.length body) None body in
  match remainder with
  | nil => Ok (pre ++ locate 1 0 0 ts)
  | _ => Err UserError
  end.
