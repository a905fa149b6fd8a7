(** * TextOps: model of the text utilities of cmakelang/format *)
From Verif Require Import Base Regex Lex.

(** The pattern of formatter.py 110: blanks, then CRLF, LF or CR. *)
Definition newline_re : re :=
  RSeq (RStar (RChr is_blank))
       (RAlt (RSeq (ROpt (C cCR)) (C cNL)) (RSeq (C cCR) (ROpt (C cNL)))).

(** [re.sub(pattern, repl, s)] for a pattern that never matches the empty string:
    leftmost matches, scanning on after each match.  Fuel: length of the text. *)
Fixpoint re_sub (r : re) (repl : str) (fuel : nat) (pv : option chr) (s : str) : str :=
  match fuel with
  | O => s
  | S f =>
      match s with
      | nil => nil
      | c :: s' =>
          match rmatch r pv s with
          | Some y => repl ++ re_sub r repl f (prev y) (rest y)
          | None => c :: re_sub r repl f (Some c) s'
          end
      end
  end.

(** normalize_line_endings, formatter.py 105-110 *)
Definition normalize (s : str) : str :=
  re_sub newline_re [cNL] (length s) None s.

(** [s.count(ab)] for a two-character needle (non-overlapping, left to right) *)
Fixpoint count2 (a b : chr) (s : str) : Z :=
  match s with
  | x :: s' =>
      match s' with
      | y :: s'' => if N.eqb x a && N.eqb y b then 1 + count2 a b s'' else count2 a b s'
      | nil => 0
      end
  | nil => 0
  end.

Inductive eol := Windows | Unix.
(** detect_line_endings, __main__.py 48-54 *)
Definition detect_line_endings (s : str) : eol :=
  let windows_count := count2 cCR cNL s in
  let unix_count := count_chr cNL s - windows_count in
  if windows_count >? unix_count then Windows else Unix.

(** count_indentation, formatter.py 113-118: index of the first non-space, 0 when
    there is none *)
Fixpoint first_nonspace (idx : Z) (s : str) : Z :=
  match s with
  | nil => 0
  | c :: s' => if N.eqb c cSP then first_nonspace (idx + 1) s' else idx
  end.
Definition count_indentation (s : str) : Z := first_nonspace 0 s.

Inductive tab_policy := UseSpace | RoundUp | OtherPolicy.

(** one iteration of the loop of replace_with_tabs, formatter.py 131-145 *)
Definition tab_line (ts : Z) (pol : tab_policy) (inline : str) : res str :=
  let num_spaces := count_indentation inline in
  if ts =? 0 then Err ZeroDivErr else
  let num_tabs := num_spaces / ts in
  let fractional := num_spaces mod ts in
  let body := skipn (Z.to_nat num_spaces) inline in
  let tabs := repeat cTAB (Z.to_nat num_tabs) in
  if fractional =? 0 then Ok (tabs ++ body) else
  match pol with
  | UseSpace => Ok (tabs ++ repeat cSP (Z.to_nat fractional) ++ body)
  | RoundUp => Ok (tabs ++ [cTAB] ++ body)
  | OtherPolicy => Err UserError
  end.

Fixpoint mapr {A B} (f : A -> res B) (l : list A) : res (list B) :=
  match l with
  | nil => Ok nil
  | a :: l' => let? b := f a in let? bs := mapr f l' in Ok (b :: bs)
  end.

(** replace_with_tabs, formatter.py 121-146 *)
Definition replace_with_tabs (use_tabchars : bool) (ts : Z) (pol : tab_policy) (content : str)
  : res str :=
  if negb use_tabchars then Ok content else
  let? ls := mapr (tab_line ts pol) (split_on cNL content) in
  Ok (join [cNL] ls).

(** ** CursorFile, formatter.py 1910-1978 *)
Record cfile := CF { out : str; crow : Z; ccol : Z }.
Definition cf_init : cfile := CF nil 0 0.

(** assert_lt, lines 1927-1932 *)
Definition cur_le (r c r' c' : Z) : bool := (r <? r') || ((r =? r') && (c <=? c')).

(** the loop of lines 1958-1964 *)
Fixpoint put_lines (endl : str) (f : cfile) (ls : list str) : cfile :=
  match ls with
  | nil => f
  | l :: ls' => put_lines endl (CF (out f ++ endl ++ l) (crow f + 1) (zlen l)) ls'
  end.

(** write_at, lines 1937-1964 *)
Definition write_at (endl : str) (f : cfile) (r c : Z) (text : str) : res cfile :=
  if negb (cur_le (crow f) (ccol f) r c) then Err AssertionErr else
  let rows := r - crow f in
  let f1 := if rows =? 0 then f
            else CF (out f ++ repeat_s (Z.to_nat rows) endl) (crow f + rows) 0 in
  let cols := c - ccol f1 in
  let f2 := if cols =? 0 then f1
            else CF (out f1 ++ spaces cols) (crow f1) (ccol f1 + cols) in
  match split_on cNL text with
  | nil => Ok f2 (* unreachable: split never returns an empty list *)
  | l :: ls => Ok (put_lines endl (CF (out f2 ++ l) (crow f2) (ccol f2 + zlen l)) ls)
  end.

(** write, lines 1966-1975 *)
Definition write_raw (f : cfile) (text : str) : cfile :=
  if count_chr cNL text =? 0
  then CF (out f ++ text) (crow f) (ccol f + zlen text)
  else CF (out f ++ text) (crow f + count_chr cNL text)
          (zlen (last (split_on cNL text) nil)).

(** forge_cursor, lines 1934-1935 *)
Definition forge (f : cfile) (r c : Z) : cfile := CF (out f) r c.

(** getvalue, lines 1977-1978 *)
Definition getvalue (endl : str) (f : cfile) : str := out f ++ endl.

Inductive fop :=
| OpAt (r c : Z) (text : str)
| OpRaw (text : str)
| OpForge (r c : Z).
Definition run_op (endl : str) (f : cfile) (o : fop) : res cfile :=
  match o with
  | OpAt r c t => write_at endl f r c t
  | OpRaw t => Ok (write_raw f t)
  | OpForge r c => Ok (forge f r c)
  end.
Fixpoint run_ops (endl : str) (f : cfile) (os : list fop) : res cfile :=
  match os with
  | nil => Ok f
  | o :: os' => let? f' := run_op endl f o in run_ops endl f' os'
  end.
