(** * PyConfig: configuration files in python notation (config_util.py ExecGlobal) and
    the choice of the notation (format/__main__.py) *)
From Verif Require Import Base Config Dump.

(** ** Scripts *)
(** The statements of a configuration script.  Simplified: of python's expressions
    only literals (a value) and names; functions, loops and imports are not modelled.
    [SNote] is a comment or an empty line. *)
Inductive expr := ELit (v : val) | EName (x : str).
Inductive stmt :=
| SNote
| SAssign (x : str) (e : expr)
| SWith (key : str) (body : list stmt)      (* with section("key"): body *)
| SPush (key : str)                         (* push_section("key") *)
| SPop.                                     (* pop_section() *)

(** the attributes of an ExecGlobal: those of dict and config_util.py 76-139 *)
Definition attributes : list str :=
  [$"__class__"; $"__class_getitem__"; $"__contains__"; $"__delattr__"; $"__delitem__"; $"__dict__"; $"__dir__"; $"__doc__";
   $"__eq__"; $"__format__"; $"__ge__"; $"__getattribute__"; $"__getitem__"; $"__getstate__"; $"__gt__"; $"__hash__";
   $"__init__"; $"__init_subclass__"; $"__ior__"; $"__iter__"; $"__le__"; $"__len__"; $"__lt__"; $"__module__"; $"__ne__";
   $"__new__"; $"__or__"; $"__reduce__"; $"__reduce_ex__"; $"__repr__"; $"__reversed__"; $"__ror__"; $"__setattr__";
   $"__setitem__"; $"__sizeof__"; $"__str__"; $"__subclasshook__"; $"__weakref__"; $"_dict_stack"; $"clear"; $"copy";
   $"filepath"; $"fromkeys"; $"get"; $"items"; $"keys"; $"pop"; $"pop_section"; $"popitem"; $"push_section"; $"section";
   $"setdefault"; $"update"; $"values"].

(** ** Nested dictionaries *)
(** the value at a path of keys, and assignment into the dictionary at a path *)
Fixpoint at_path (p : list str) (d : dict val) : option val :=
  match p with
  | nil => Some (VMap d)
  | k :: p' =>
      match lookup k d with
      | None => None
      | Some (VMap m) => at_path p' m
      | Some (VAtom a) => match p' with nil => Some (VAtom a) | _ => None end
      end
  end.
Fixpoint set_at (p : list str) (x : str) (v : val) (d : dict val) : dict val :=
  match p with
  | nil => dset x v d
  | k :: p' => match lookup k d with
               | Some (VMap m) => dset k (VMap (set_at p' x v m)) d
               | _ => d
               end
  end.

Section Exec.
(** [attr x]: the attribute [x] of the object; [file]: the path of the script;
    [builtins]: the builtin names of python; all of them values like any other *)
Variable attr : str -> val.
Variable file : val.
Variable none : val.
Variable builtins : str -> option val.

(** The dictionary and the stack of open sections, innermost first.  An entry of
    [_dict_stack] is an object; as the sections on it cannot be rebound while they
    are open it is given by its path, or by None when it is not a dictionary.
    Simplified: a name whose value is a dictionary gives a copy of it. *)
Definition pyst := (dict val * list (option (list str)))%type.

(** the names that never mean an entry: config_util.py 108-121 *)
Definition reserved (x : str) : bool :=
  smem x [$"_dict_stack"; $"__name__"; $"__file__"] || smem x attributes.
Definition reserved_value (x : str) : val :=
  if smem x [$"_dict_stack"; $"__name__"] then none
  else if seqb x $"__file__" then file
  else attr x.
(** the loop over the nested scopes, config_util.py 123-126 *)
Fixpoint scoped (d : dict val) (stack : list (option (list str))) (x : str) : res (option val) :=
  match stack with
  | nil => Ok None
  | None :: _ => Err TypeErr
  | Some p :: stack' =>
      match at_path p d with
      | Some (VMap m) => match lookup x m with Some v => Ok (Some v) | None => scoped d stack' x end
      | _ => Err TypeErr
      end
  end.
(** ExecGlobal.__getitem__, config_util.py 108-128, and what python does with the
    KeyError: the builtin names, then a NameError ([KeyErr] here) *)
Definition get_name (st : pyst) (x : str) : res val :=
  let (d, stack) := st in
  if reserved x then Ok (reserved_value x)
  else let? o := scoped d stack x in
       match o with
       | Some v => Ok v
       | None => match lookup x d with
                 | Some v => Ok v
                 | None => match builtins x with Some v => Ok v | None => Err KeyErr end
                 end
       end.
Definition eval (st : pyst) (e : expr) : res val :=
  match e with ELit v => Ok v | EName x => get_name st x end.

(** ExecGlobal.__setitem__, config_util.py 130-134 *)
Definition set_name (st : pyst) (x : str) (v : val) : res pyst :=
  let (d, stack) := st in
  match stack with
  | nil => Ok (dset x v d, stack)
  | Some p :: _ => Ok (set_at p x v d, stack)
  | None :: _ => Err TypeErr
  end.

(** key.replace("-", "_") *)
Definition under (key : str) : str := map (fun ch => if N.eqb ch 45 then 95%N else ch) key.
(** ExecGlobal.push_section, config_util.py 92-103.  At the top level the new section
    is read through __getitem__. *)
Definition push_section (st : pyst) (key : str) : res pyst :=
  let key := under key in
  let (d, stack) := st in
  match stack with
  | nil =>
      let d1 := match lookup key d with None => dset key (VMap nil) d | Some _ => d end in
      match lookup key d1 with
      | Some (VMap _) => Ok (d1, [if reserved key then None else Some [key]])
      | _ => Ok (d1, [None])
      end
  | None :: _ => Err TypeErr
  | Some p :: _ =>
      match at_path p d with
      | Some (VMap m) =>
          let d1 := match lookup key m with None => set_at p key (VMap nil) d | Some _ => d end in
          match lookup key m with
          | Some (VAtom _) => Ok (d1, None :: stack)
          | _ => Ok (d1, Some (p ++ [key]) :: stack)
          end
      | _ => Err TypeErr
      end
  end.
(** ExecGlobal.pop_section, config_util.py 105-106 *)
Definition pop_section (st : pyst) : res pyst :=
  match snd st with nil => Err IndexErr | _ :: stack => Ok (fst st, stack) end.

(** running a script; ExecGlobal.section, config_util.py 86-90 *)
Fixpoint exec1 (s : stmt) (st : pyst) {struct s} : res pyst :=
  match s with
  | SNote => Ok st
  | SAssign x e => let? v := eval st e in set_name st x v
  | SPush key => push_section st key
  | SPop => pop_section st
  | SWith key body =>
      let? st1 := push_section st key in
      let? st2 := (fix go (ss : list stmt) (st : pyst) : res pyst :=
                     match ss with nil => Ok st | s :: ss' => let? st' := exec1 s st in go ss' st' end) body st1 in
      pop_section st2
  end.
Fixpoint exec (ss : list stmt) (st : pyst) : res pyst :=
  match ss with nil => Ok st | s :: ss' => let? st' := exec1 s st in exec ss' st' end.
(** exec_pyconfig, format/__main__.py 222-228.  The entry __builtins__ that python
    adds and that is popped is left out. *)
Definition exec_pyconfig (ss : list stmt) : res (dict val) :=
  let? st := exec ss (nil, nil) in Ok (fst st).
End Exec.

(** ** Dumping in python notation *)
Section PyDump.
Variable dflt : str -> val.
Variable fhelp : str -> option val.
Variable shelp : str -> val.
(** ConfigObject.dump, config_util.py 426-469, for one field ... *)
Definition py_field (wh wd : bool) (c : config) (f : str) : list stmt :=
  if wd || overridden c f
  then (if wh then match fhelp f with Some _ => [SNote] | None => nil end else nil) ++ [SAssign f (ELit (value dflt c f))]
  else nil.
(** ... and for one section.  The help texts are comments; pprint's notation of a
    value is taken to denote the value. *)
Definition py_section (wh wd : bool) (c : config) (s : str * list str) : list stmt :=
  let (name, fields) := s in
  if wd || existsb (overridden c) fields
  then (if wh then [SNote] else nil) ++ [SWith name (flat_map (py_field wh wd c) fields); SNote]
  else nil.
Definition py_dump (wh wd : bool) (c : config) : list stmt := flat_map (py_section wh wd c) registry.
(** dump_config with --dump-config python, format/__main__.py 376-402 *)
Definition dump_python (wh wd : bool) (d : dict val) (args : dict (option val)) : res (list stmt) :=
  let? c := new_configuration (dupdate d (get_argdict args)) in
  let? c := pop_defaults c in
  Ok (py_dump wh wd c).
End PyDump.

(** ** The notation of a configuration file *)
(** what a reader does with a file: a value, a ValueError, another Exception, or an
    exception that is no Exception (SystemExit, KeyboardInterrupt) *)
Inductive reading := Read (v : val) | BadValue | BadOther | BadExit.
(** how get_one_config_dict ends: a value, a UserError, or any other exception *)
Inductive loaded := Loaded (v : val) | Reported | Raised.
Section Notation_.
Variable json yaml python : str -> reading.
Definition endswith (suf s : str) : bool := startswith (rev suf) (rev s).
(** get_one_config_dict, format/__main__.py 260-303, and try_get_configdict, 231-257,
    of a file with this path and content; [there] says whether it exists. *)
Definition get_one_config_dict (there : bool) (path content : str) : loaded :=
  if negb there then Reported
  else if endswith $".json" path then
    match content with
    | nil => Loaded (VMap nil)
    | _ => match json content with Read v => Loaded v | BadValue => Reported | _ => Raised end
    end
  else if endswith $".yaml" path then
    match yaml content with Read v => Loaded v | BadValue => Reported | _ => Raised end
  else if endswith $".py" path then
    match python content with Read v => Loaded v | BadExit => Raised | _ => Reported end
  else
    match json content with
    | Read v => Loaded v
    | _ => match yaml content with
           | Read v => Loaded v
           | _ => match python content with Read v => Loaded v | _ => Raised end
           end
    end.
End Notation_.
