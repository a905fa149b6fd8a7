(** * Markup: model of comment reflow
    (cmakelang/markup.py, common.py stable_wrap, formatter.py 45-102, and the
    part of python's [textwrap.TextWrapper] they use) *)
From Verif Require Import Base Regex Lex TextOps Tree Layout.

(** ** textwrap.TextWrapper with the options of markup.py 186-192:
    expand_tabs, replace_whitespace, drop_whitespace, no break_long_words, no
    break_on_hyphens, empty indents, no max_lines *)

(** [str.expandtabs(8)] *)
Fixpoint expandtabs (col : Z) (s : str) : str :=
  match s with
  | nil => nil
  | c :: s' =>
      if N.eqb c cTAB then let n := 8 - col mod 8 in spaces n ++ expandtabs (col + n) s'
      else if N.eqb c cNL || N.eqb c cCR then c :: expandtabs 0 s'
      else c :: expandtabs (col + 1) s'
  end.
(** [str.translate(unicode_whitespace_trans)]: the ASCII blanks become spaces *)
Definition blank_to_space (c : chr) : chr := if is_aspace c then cSP else c.
Definition munge (s : str) : str := map blank_to_space (expandtabs 0 s).
(** _split: [wordsep_simple_re.split] without empty strings.  After [munge] the
    only blank of the class is the space, so the chunks are the maximal runs of
    spaces and of other characters. *)
Fixpoint chunks (s : str) : list str :=
  match s with
  | nil => nil
  | c :: s' =>
      match chunks s' with
      | nil => [[c]]
      | w :: ws =>
          match w with
          | x :: _ => if Bool.eqb (N.eqb c cSP) (N.eqb x cSP) then (c :: w) :: ws else [c] :: w :: ws
          | nil => [c] :: w :: ws (* unreachable *)
          end
      end
  end.
(** [chunk.strip() == ''] *)
Definition blank_chunk (s : str) : bool := forallb is_uspace s.

(** the inner loop of _wrap_chunks: the chunks that fit on the line, the rest, and
    the length used *)
Fixpoint take_line (width len : Z) (cs : list str) : list str * list str :=
  match cs with
  | nil => (nil, nil)
  | c :: cs' =>
      if len + zlen c <=? width
      then let (a, b) := take_line width (len + zlen c) cs' in (c :: a, b)
      else (nil, cs)
  end.
(** drop the last chunk of a line when it is blank *)
Definition drop_last_blank (l : list str) : list str :=
  match rev l with
  | c :: r => if blank_chunk c then rev r else l
  | nil => nil
  end.
(** the outer loop of _wrap_chunks; [started]: some line has been produced.  Fuel:
    the number of chunks. *)
Fixpoint wrap_loop (width : Z) (fuel : nat) (started : bool) (cs : list str) : list str :=
  match fuel with
  | O => nil
  | S f =>
      match cs with
      | nil => nil
      | c :: cs0 =>
          let cs1 := if blank_chunk c && started then cs0 else cs in
          let '(line, rest) := take_line width 0 cs1 in
          let '(line2, rest2) :=
            match rest with
            | w :: rest' =>
                if (zlen w >? width) && match line with nil => true | _ => false end
                then ([w], rest') else (line, rest)
            | nil => (line, rest)
            end in
          let line3 := drop_last_blank line2 in
          match line3 with
          | nil => wrap_loop width f started rest2
          | _ => List.concat line3 :: wrap_loop width f true rest2
          end
      end
  end.
(** wrapper.wrap(text) *)
Definition wrap (width : Z) (text : str) : res (list str) :=
  if width <=? 0 then Err ValueErr
  else let cs := chunks (munge text) in Ok (wrap_loop width (List.length cs) false cs).

(** stable_wrap, common.py 72-95, with empty indents *)
Fixpoint stable_loop (width : Z) (n : nat) (prev : str) : res (list str) :=
  match n with
  | O => Err AssertionErr
  | S n' =>
      let? lines := wrap width prev in
      let next := join [cNL] lines in
      if seqb next prev then Ok lines
      else match lines with
           | nil => Err IndexErr
           | _ => stable_loop width n' next
           end
  end.
Definition stable_wrap (width : Z) (text : str) : res (list str) := stable_loop width 8 text.

(** ** markup.py *)

(** CommentType, 31-42 *)
Inductive ckind := CPara | CBullet | CEnum | CNote | CRuler | CSep | CFence | CVerb.
(** CommentItem, 45-53 ([indent] is only read for lists) *)
Record citem := CItem { i_kind : ckind; i_indent : Z; i_lines : list str }.

(** The [markup] section of the configuration, configuration.py 13-70.  The three
    user patterns are functions: [mk_fence] returns the groups 1 and 2 of a match;
    [mk_literal] is literal_comment_pattern ([None] if unset).  [mk_ruler0] stands
    for the module constant RULER_REGEX, which is used on line 157 whatever the
    configuration. *)
Record mcfg := MCfg {
  mk_bullet : str; mk_enum : str; mk_first_literal : bool;
  mk_literal : option (str -> bool); mk_fence : str -> option (str * str);
  mk_ruler : str -> bool; mk_ruler0 : str -> bool; mk_trailing : str;
  mk_hash_min : Z; mk_canonical : bool; mk_enable : bool }.

Fixpoint span (p : chr -> bool) (s : str) : str * str :=
  match s with
  | c :: s' => if p c then let (a, b) := span p s' in (c :: a, b) else (nil, s)
  | nil => (nil, nil)
  end.

(** The patterns of lines 11-28 as functions on a line without newline.  All of
    them are deterministic: no run can be shortened to make the rest match. *)
Definition is_bullet_c (c : chr) : bool := N.eqb c 42 || N.eqb c 45.  (* [*-] *)
(** BULLET_REGEX: groups 1, 2, 3 *)
Definition bullet_match (l : str) : option (str * chr * str) :=
  let (ind, r) := span is_uspace l in
  match r with
  | c :: b :: x :: r' => if is_bullet_c c && N.eqb b cSP then Some (ind, c, b :: x :: r') else None
  | _ => None
  end.
(** ENUM_REGEX: groups 1, 2, 3 *)
Definition enum_match (l : str) : option (str * chr * str) :=
  let (ind, r) := span is_uspace l in
  match span is_digit_c r with
  | (_ :: _, c :: b :: x :: r') =>
      if (N.eqb c 46 || N.eqb c 58) && N.eqb b cSP then Some (ind, c, b :: x :: r') else None
  | _ => None
  end.
(** NOTE_REGEX *)
Definition is_note_c (c : chr) : bool := ((65 <=? c) && (c <=? 90))%N || N.eqb c 95.
Definition note_match (l : str) : bool :=
  let (_, r) := span is_uspace l in
  match span is_note_c r with
  | (_ :: _, p :: r1) =>
      N.eqb p cLP &&
      match span (fun c => negb (N.eqb c cRP)) r1 with
      | (_ :: _, q :: d :: _) => N.eqb q cRP && N.eqb d 58
      | _ => false
      end
  | _ => false
  end.
(** RULER_REGEX.  A character outside ASCII counts as a word character here unless
    it is a blank; python asks the unicode database. *)
Definition is_word_c (c : chr) : bool :=
  ((48 <=? c) && (c <=? 57) || (65 <=? c) && (c <=? 90) || (97 <=? c) && (c <=? 122)
   || (128 <=? c))%N || N.eqb c 95.
Definition is_punct_c (c : chr) : bool := negb (is_word_c c) && negb (is_uspace c).
Definition ruler_match (l : str) : bool :=
  let (_, r) := span is_uspace l in
  (6 <=? zlen r) && forallb is_punct_c (firstn 3 r) && forallb is_punct_c (firstn 3 (rev r)).
(** FENCE_REGEX: groups 1 and 2 *)
Definition is_fence_c (c : chr) : bool := N.eqb c 96 || N.eqb c 126.
Definition fence_match (l : str) : option (str * str) :=
  let (_, r) := span is_uspace l in
  let (f, x) := span is_fence_c r in
  if 3 <=? zlen f then Some (f, x) else None.

(** the pattern of a further bullet, 118-119: the same indent and bullet *)
Definition next_bullet (ind : str) (c : chr) (l : str) : option str :=
  match strip_prefix ind l with
  | Some (x :: b :: r) => if N.eqb x c && N.eqb b cSP then Some (b :: r) else None
  | _ => None
  end.
(** the pattern of a further numbered item, 133-134.  The punctuation is inserted
    into the pattern unescaped: a period matches any character, also the last
    digit of the number. *)
Definition next_enum (ind : str) (c : chr) (l : str) : option str :=
  match strip_prefix ind l with
  | Some r0 =>
      let (ds, r) := span is_digit_c r0 in
      let full := match r with
                  | x :: b :: r' =>
                      if (N.eqb c 46 || N.eqb x c) && N.eqb b cSP then Some (b :: r') else None
                  | _ => None
                  end in
      match ds with
      | nil => None
      | _ :: ds' =>
          match full with
          | Some g => Some g
          | None =>
              match ds', r with
              | _ :: _, b :: r' => if N.eqb c 46 && N.eqb b cSP then Some (b :: r') else None
              | _, _ => None
              end
          end
      end
  | None => None
  end.

(** the local variables of parse, 56-171: [ps_objs] is [obj_list] reversed *)
Record pst := PSt { ps_objs : list citem; ps_state : option ckind; ps_next : str -> option str }.
Definition add_line (o : list citem) (l : str) : list citem :=
  match o with
  | CItem k i ls :: r => CItem k i (ls ++ [l]) :: r
  | nil => nil (* unreachable *)
  end.
Definition extend_last (o : list citem) (l : str) : list citem :=
  match o with
  | CItem k i ls :: r => CItem k i (removelast ls ++ [last ls nil ++ cNL :: l]) :: r
  | nil => nil (* unreachable *)
  end.
Definition push (k : ckind) (i : Z) (ls : list str) (o : list citem) : list citem := CItem k i ls :: o.

(** lines 87-167: a line that is not (or no longer) a fence *)
Definition parse_text (c : mcfg) (s : pst) (line : str) : pst :=
  match ps_state s with
  | Some CVerb =>                                                   (* 87-92 *)
      PSt (add_line (ps_objs s) (match line with
                                 | x :: r => if N.eqb x cSP then r else line
                                 | nil => line
                                 end)) (ps_state s) (ps_next s)
  | _ =>
      match line with
      | nil =>                                                      (* 94-100 *)
          match ps_state s with
          | Some CSep => s
          | _ => PSt (push CSep 0 nil (ps_objs s)) (Some CSep) (ps_next s)
          end
      | _ =>
          if mk_ruler c line then                                   (* 102-106 *)
            PSt (push CRuler 0 [strip line] (ps_objs s)) (Some CRuler) (ps_next s)
          else
          match ps_state s with
          | None | Some CSep | Some CRuler =>                       (* 108-151 *)
              match bullet_match line with
              | Some (ind, p, g) =>
                  PSt (push CBullet (zlen ind) [g] (ps_objs s)) (Some CBullet) (next_bullet ind p)
              | None =>
                  match enum_match line with
                  | Some (ind, p, g) =>
                      PSt (push CEnum (zlen ind) [strip g] (ps_objs s)) (Some CEnum) (next_enum ind p)
                  | None =>
                      if note_match line
                      then PSt (push CNote 0 [strip line] (ps_objs s)) (Some CNote) (ps_next s)
                      else PSt (push CPara 0 [strip line] (ps_objs s)) (Some CPara) (ps_next s)
                  end
              end
          | Some CPara | Some CNote =>                              (* 153-160 *)
              if note_match line
              then PSt (push CNote 0 [strip line] (ps_objs s)) (Some CNote) (ps_next s)
              else if mk_ruler0 c line
              then PSt (push CRuler 0 [strip line] (ps_objs s)) (Some CRuler) (ps_next s)
              else PSt (add_line (ps_objs s) (strip line)) (ps_state s) (ps_next s)
          | Some CBullet | Some CEnum =>                            (* 162-167 *)
              match ps_next s line with
              | Some g => PSt (add_line (ps_objs s) (strip g)) (ps_state s) (ps_next s)
              | None => PSt (extend_last (ps_objs s) (strip line)) (ps_state s) (ps_next s)
              end
          | Some CVerb | Some CFence => s (* never a state *)
          end
      end
  end.
(** one iteration of the loop, 73-167 *)
Definition parse_line (c : mcfg) (s : pst) (line : str) : pst :=
  match mk_fence c line with
  | Some (f, x) =>
      let o := push CFence 0 [strip f] (ps_objs s) in
      let s' := match ps_state s with
                | Some CVerb => PSt o None (ps_next s)
                | _ => PSt (push CVerb 0 nil o) (Some CVerb) (ps_next s)
                end in
      match strip x with
      | nil => s'
      | line' => parse_text c s' line'
      end
  | None => parse_text c s line
  end.
Definition parse_markup (c : mcfg) (lines : list str) : list citem :=
  rev (ps_objs (fold_left (parse_line c) lines (PSt nil None (fun _ => None)))).

(** is_hashruler, 172-183 *)
Definition is_hashruler (it : citem) : bool :=
  match i_kind it, i_lines it with
  | CRuler, [l] => forallb (N.eqb cHASH) l
  | _, _ => false
  end.
(** [int(math.ceil(math.log(n, 10)))]: the least [d] with n <= 10^d (python
    computes in floating point; the results agree below 10^15) *)
Fixpoint log10_up (fuel : nat) (n p : Z) : nat :=
  match fuel with
  | O => O
  | S f => if n <=? p then O else S (log10_up f n (p * 10))
  end.
Definition enum_digits (n : nat) : nat := log10_up n (Z.of_nat n) 1.
(** ['{:%dd}' % d] applied to a number *)
Definition pad_dec (d n : nat) : str :=
  let s := dec n in repeat cSP (d - List.length s) ++ s.

(** the loops of lines 219-223 and 234-238 *)
Fixpoint format_list (width : Z) (mark : nat -> str) (indent : str) (i : nat) (ls : list str)
  : res (list str) :=
  match ls with
  | nil => Ok nil
  | l :: ls' =>
      let? w := stable_wrap width (strip l) in
      match w with
      | nil => Err IndexErr
      | w0 :: ws =>
          let? r := format_list width mark indent (S i) ls' in
          Ok ((mark i ++ w0) :: map (app indent) ws ++ r)
      end
  end.
(** format_item, 195-240.  [mk_enum] must not contain braces (it becomes part of a
    format string). *)
Definition format_item (c : mcfg) (width : Z) (it : citem) : res (list str) :=
  match i_kind it with
  | CSep => Ok [nil]
  | CFence => Ok [$"~~~"]
  | CVerb => Ok (map rstrip (i_lines it))
  | CPara | CNote | CRuler =>
      if is_hashruler it && mk_canonical c then Ok [repeat cHASH (Z.to_nat width)]
      else stable_wrap width (strip (join [cNL] (i_lines it)))
  | CBullet =>
      if width >? 2
      then format_list (width - 2) (fun _ => mk_bullet c ++ [cSP]) (spaces 2) 0 (i_lines it)
      else Err AssertionErr
  | CEnum =>
      if width >? 2
      then let d := enum_digits (List.length (i_lines it)) in
           format_list (width - 2) (fun i => pad_dec d (S i) ++ mk_enum c ++ [cSP])
                       (spaces (Z.of_nat d + 2)) 0 (i_lines it)
      else Err AssertionErr
  end.

Definition is_list_k (k : ckind) : bool := match k with CBullet | CEnum => true | _ => false end.
Definition is_sep_k (k : ckind) : bool := match k with CSep => true | _ => false end.
(** the [while] of lines 253-254; the history is kept with its last entry first *)
Fixpoint pop_indents (i : Z) (h : list Z) : list Z :=
  match h with
  | x :: h' => if x >=? i then pop_indents i h' else h
  | nil => nil
  end.
(** format_items, 243-264 *)
Fixpoint format_items (c : mcfg) (width : Z) (h : list Z) (its : list citem) : res (list str) :=
  match its with
  | nil => Ok nil
  | it :: its' =>
      if is_list_k (i_kind it) then
        let h' := i_indent it :: pop_indents (i_indent it) h in
        let n := 2 * (zlen h' - 1) in
        let? a := format_item c (width - n) it in
        let? b := format_items c width h' its' in
        Ok (map (app (spaces n)) a ++ b)
      else
        let? a := format_item c width it in
        let? b := format_items c width (if is_sep_k (i_kind it) then h else nil) its' in
        Ok (a ++ b)
  end.

(** ** formatter.py *)

(** get_comment_lines, 45-72 *)
Definition comment_line (c : mcfg) (explicit : bool) (sp : str) : str :=
  let inline := strip sp in
  if explicit then skipn (List.length (mk_trailing c)) inline
  else if negb (mk_enable c) then tl inline
  else if startswith (repeat cHASH (Z.to_nat (mk_hash_min c))) inline then tl inline
  else lstrip_by (N.eqb cHASH) inline.
Fixpoint comment_inlines (c : mcfg) (explicit : bool) (pcs : list pnode) : res (list str) :=
  match pcs with
  | nil => Ok nil
  | T t :: r =>
      let? ls := comment_inlines c explicit r in
      Ok (if is_tt COMMENT t then comment_line c explicit (spelling t) :: ls else ls)
  | N _ _ :: _ => Err AssertionErr
  end.
(** [node.children[0] is first_token]: tokens are told apart by their offset *)
Definition same_token (a : token) (b : option token) : bool :=
  match b with
  | Some t => (offset (begin a) =? offset (begin t)) && seqb (spelling a) (spelling t)
  | None => false
  end.
(** format_comment_lines, 75-102 *)
Definition format_comment (c : mcfg) (first : option token) (explicit : bool)
  (pcs : list pnode) (width : Z) : res (list str) :=
  let? ils := comment_inlines c explicit pcs in
  let prefix := if explicit then mk_trailing c else [cHASH] in
  let literal := map (fun l => prefix ++ rstrip l) ils in
  if negb (mk_enable c) then Ok literal else
  if match mk_literal c with Some f => f (join [cNL] ils) | None => false end then Ok literal else
  if match pcs with
     | T t :: _ => same_token t first && (mk_first_literal c || startswith $"#!" (spelling t))
     | _ => false
     end then Ok literal else
  let? ls := format_items c (Z.max 10 (width - 2)) nil (parse_markup c ils) in
  Ok (map (fun l => prefix ++ spaces (zlen (firstn 1 l)) ++ l) ls).

(** the defaults of configuration.py 13-70 *)
Definition default_mcfg : mcfg :=
  MCfg $"*" $"." false None fence_match ruler_match ruler_match $"#<" 10 true true.
