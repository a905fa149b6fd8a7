(** * CmdSpec: user command specifications (parse/util.py, parse/funs/__init__.py)
    and the parsers built from them *)
From Verif Require Import Base Regex Lex Tree Parse.

(** ** Declarations as the user writes them (json/yaml/python values) *)

(** A dictionary declaration of a positional group.  [d_npargs]: the key
    "npargs" is present; [d_unknown]: some key PositionalSpec.__new__ (util.py
    61-62) does not accept is present. *)
Record pdict := PDict {
  d_npargs : bool; d_nargs : option nargs; d_sortable : option bool;
  d_tags : option (list str); d_flags : option (list str); d_legacy : option bool;
  d_max : option Z; d_unknown : bool }.
Definition pdict0 : pdict := PDict false None None None None None None false.
(** One element of a positional declaration list.  Tuples are modelled as a count
    followed by an optional dictionary; longer positional tuples are not. *)
Inductive pdecl := DScalar (n : nargs) | DDict (d : pdict) | DTuple (n : nargs) (d : pdict).
(** The [pargs] of a command specification. *)
Inductive upargs := UNone | UScalar (n : nargs) | UDict (d : pdict) | UList (l : list pdecl).

Definition oget {A} (o : option A) (d : A) : A := match o with Some x => x | None => d end.
(** PositionalSpec( **d ) and PositionalSpec(n, **d ), util.py 61-69: a missing
    count, a count given twice and an unknown key are TypeErrors, which
    CommandSpec.__init__ (490-496) turns into a UserError. *)
Definition mk_pspec (n : nargs) (d : pdict) : res pspec :=
  if d_npargs d || d_unknown d then Err UserError
  else Ok (PSpec n (oget (d_sortable d) false) (oget (d_tags d) nil) (oget (d_flags d) nil)
                 (oget (d_legacy d) false) (d_max d)).

Fixpoint mapr {A B} (f : A -> res B) (l : list A) : res (list B) :=
  match l with
  | nil => Ok nil
  | x :: l' => let? y := f x in let? ys := mapr f l' in Ok (y :: ys)
  end.

(** the loop body of parse_pspec, util.py 438-461.  A dictionary without the key
    "npargs" gets its "nargs" replaced by "*" (449-451). *)
Definition parse_pdecl (d : pdecl) : res pspec :=
  match d with
  | DScalar n => Ok (PSpec n false nil nil false None)
  | DDict d => if d_npargs d then Err UserError else mk_pspec (NStr $"*") d
  | DTuple n d => match d_nargs d with Some _ => Err UserError | None => mk_pspec n d end
  end.

(** parse_pspec, util.py 408-463 *)
Definition parse_pspec (pargs : upargs) (flags : list str) : res (list pspec) :=
  match pargs with
  | UNone => Ok [PSpec (NStr $"*") false nil flags true None]
  | UScalar n => Ok [PSpec n false nil flags true None]
  | _ =>
      match flags with
      | _ :: _ => Err UserError
      | nil => match pargs with
               | UDict d => let? p := parse_pdecl (DDict d) in Ok [p]
               | UList l => mapr parse_pdecl l
               | _ => Err UserError
               end
      end
  end.

(** A command specification as written: CommandSpec.__init__ arguments, util.py
    471-472 ([always_wrap] left out, see Tree.v). *)
Inductive uspec := USpec (pargs : upargs) (flags : list str) (kwargs : list (str * ukw))
                         (spelling : option str) (maxsub : option Z)
with ukw := UKScalar (n : nargs) | UKSpec (u : uspec).

(** The CommandSpec object: its own data and its keyword dictionary. *)
Inductive cmdspec := CmdSpec (c : cspec) (kw : list (str * cmdspec)).

(** python [d[k] = v] *)
Fixpoint dset {A} (k : str) (v : A) (l : list (str * A)) : list (str * A) :=
  match l with
  | nil => [(k, v)]
  | (k', v') :: l' => if seqb k k' then (k', v) :: l' else (k', v') :: dset k v l'
  end.

(** CommandSpec.__init__, util.py 471-519 *)
Fixpoint mk_spec (name : str) (u : uspec) : res cmdspec :=
  match u with
  | USpec pargs flags kwargs sp ms =>
      let? ps := parse_pspec pargs flags in
      let? kw :=
        (fix go (l : list (str * ukw)) (acc : list (str * cmdspec)) : res (list (str * cmdspec)) :=
           match l with
           | nil => Ok acc
           | (k, UKScalar n) :: l' =>
               let? ps := parse_pspec (UScalar n) nil in
               go l' (dset k (CmdSpec (CSpec k k ps None) nil) acc)
           | (k, UKSpec u') :: l' =>
               let? s := mk_spec k u' in go l' (dset k s acc)
           end) kwargs nil in
      Ok (CmdSpec (CSpec name (oget sp name) ps ms) kw)
  end.

(** CommandSpec.add on the root specification, util.py 537-539 *)
Fixpoint add_all (l : list (str * uspec)) (acc : list (str * cmdspec)) : res (list (str * cmdspec)) :=
  match l with
  | nil => Ok acc
  | (name, u) :: l' => let? s := mk_spec name u in add_all l' (dset (lower name) s acc)
  end.

(** get_funtree, funs/__init__.py 29-45 *)
Fixpoint fun_parser (k : str) (s : cmdspec) : parser :=
  if smem k [$"if"; $"elseif"; $"while"] then PCond
  else if seqb k $"COMMAND" then PShell
  else match s with
       | CmdSpec c kw => PStd c (map (fun '(k', s') => (k', fun_parser k' s')) kw)
       end.
Definition get_funtree (kw : list (str * cmdspec)) : list (str * parser) :=
  map (fun '(k, s) => (k, fun_parser k s)) kw.

(** ParseConfig.__init__, configuration.py 382-411 and formatter set-up: the
    table of a run is the standard table updated with the user's commands
    ([additional_commands]); later wins. *)
Definition user_table (l : list (str * uspec)) : res (list (str * parser)) :=
  let? kw := add_all l nil in Ok (get_funtree kw).
Definition with_user (user base : list (str * parser)) (name : str) : option parser :=
  match kw_lookup name user with Some p => Some p | None => kw_lookup name base end.

(** ** override_spec *)

(** apply_overrides, util.py 534-585: the navigation part.  [OvAttr path key]
    sets an attribute of a command or keyword specification, [OvParg i] one field
    of a positional specification; the value stored is not modelled. *)
Inductive ovtarget := OvAttr (c : cspec) | OvParg (c : cspec) (i : Z).
Definition strip_brackets (s : str) : str := strip_by (fun c => N.eqb c 91%N || N.eqb c 93%N) s.
(** hasattr(CommandSpec, key) and settable: its instance attributes and methods *)
Definition spec_attrs : list str :=
  [$"name"; $"spelling"; $"max_subgroups_hwrap"; $"always_wrap"; $"pargs"; $"kwargs";
   $"is_flag"; $"is_kwarg"; $"add"].
Fixpoint cmd_lookup (k : str) (kw : list (str * cmdspec)) : option cmdspec :=
  match kw with
  | nil => None
  | (k', s) :: kw' => if seqb k k' then Some s else cmd_lookup k kw'
  end.
Fixpoint ov_walk (s : cmdspec) (parts : list str) (key : str) : res ovtarget :=
  match s with
  | CmdSpec c kw =>
      match parts with
      | nil => if smem key spec_attrs then Ok (OvAttr c) else Err UserError
      | p :: parts' =>
          if startswith $"parg" p then
            match parts' with
            | _ :: _ => Err UserError
            | nil =>
                match py_int (strip_brackets (skipn 4 p)) with
                | None => Err UserError
                | Some i =>
                    let n := zlen (cs_pargs c) in
                    if i >? n then Err UserError
                    else if (i <? n) && (- n <=? i) then Ok (OvParg c i) else Err IndexErr
                end
            end
          else match cmd_lookup p kw with
               | None => Err UserError
               | Some s' => ov_walk s' parts' key
               end
      end
  end.
(** [pathkeystr.rsplit(".", 1)] *)
Fixpoint rsplit_dot (s : str) : option (str * str) :=
  match s with
  | nil => None
  | c :: s' =>
      match rsplit_dot s' with
      | Some (a, b) => Some (c :: a, b)
      | None => if N.eqb c 46%N then Some (nil, s') else None
      end
  end.
Definition apply_override (root : cmdspec) (pathkey : str) : res ovtarget :=
  match rsplit_dot pathkey with
  | None => Err UserError
  | Some (path, key) => ov_walk root (split_on 47%N path) key
  end.
(** ParseConfig: the root holds the user's commands only (configuration.py
    396-406); CommandSpec("<root>") has the single legacy group "*". *)
Definition user_root (kw : list (str * cmdspec)) : cmdspec :=
  CmdSpec (CSpec $"<root>" $"<root>" [PSpec (NStr $"*") false nil nil true None] None) kw.
