(** * Config: model of configuration loading (format/__main__.py, config_util.py,
    configuration.py) *)
From Verif Require Import Base.

(** ** Dictionaries *)
(** Python dicts with string keys: association lists in insertion order. *)
Definition dict (A : Type) := list (str * A).
Fixpoint lookup {A} (k : str) (d : dict A) : option A :=
  match d with
  | nil => None
  | (k', v) :: d' => if seqb k k' then Some v else lookup k d'
  end.
(** [d[k] = v]: in place when the key is present, else at the end *)
Fixpoint dset {A} (k : str) (v : A) (d : dict A) : dict A :=
  match d with
  | nil => [(k, v)]
  | (k', v') :: d' => if seqb k k' then (k', v) :: d' else (k', v') :: dset k v d'
  end.
(** [d.pop(k)] *)
Fixpoint ddel {A} (k : str) (d : dict A) : dict A :=
  match d with
  | nil => nil
  | (k', v') :: d' => if seqb k k' then d' else (k', v') :: ddel k d'
  end.
Definition keys {A} (d : dict A) : list str := map fst d.

(** Values of a configuration file: mappings, and everything else (numbers,
    strings, lists, ...), which the loader treats alike. *)
Inductive val :=
| VAtom (n : Z)
| VMap (d : list (str * val)).

(** map_merge, __main__.py 323-344 *)
Fixpoint merge_val (inc : val) (out : dict val) : dict val :=
  match inc with
  | VAtom _ => out
  | VMap d =>
      (fix go (d : list (str * val)) (out : dict val) : dict val :=
         match d with
         | nil => out
         | (k, v) :: d' =>
             go d' (match lookup k out with
                    | None => dset k v out
                    | Some (VMap m) =>
                        match v with
                        | VMap _ => dset k (VMap (merge_val v m)) out
                        | VAtom _ => out      (* logger.warning *)
                        end
                    | Some (VAtom _) => dset k v out
                    end)
         end) d out
  end.
Definition map_merge (out inc : dict val) : dict val := merge_val (VMap inc) out.

(** ** Includes *)
(** get_configdict, __main__.py 306-320.  [load p] is the increment dictionary
    read from [p] (get_one_config_dict, 260-303: which of the three file syntaxes
    is used is not modelled) with its "include" list popped; [resolve p q] is the
    path of include [q] of [p] (lines 314-317); [home] is os.path.expanduser. *)
Fixpoint get_configdict (load : str -> res (list str * dict val)) (home : str -> str)
    (resolve : str -> str -> str) (fuel : nat) (queue : list str) (acc : dict val)
  : res (dict val) :=
  match queue with
  | nil => Ok acc
  | p :: queue' =>
      match fuel with
      | O => OutOfFuel
      | S f =>
          let p := home p in
          let? (incs, d) := load p in
          get_configdict load home resolve f (queue' ++ map (resolve p) incs) (map_merge acc d)
      end
  end.

(** ** Config file search *)
(** the candidate names of find_config_file, __main__.py 190-196 *)
Definition config_names : list str :=
  [$".cmake-format"; $".cmake-format.py"; $".cmake-format.json"; $".cmake-format.yaml";
   $"cmake-format.py"; $"cmake-format.json"; $"cmake-format.yaml"].

(** find_config_file, __main__.py 179-205, on an absolute directory given by its
    components, innermost first ([nil] is the root). [exists_ dir name] is
    os.path.exists.  Simplified: paths are already split in components. *)
Fixpoint find_config (exists_ : list str -> str -> bool) (head : list str)
  : option (list str * str) :=
  match find (exists_ head) config_names with
  | Some n => Some (head, n)
  | None => match head with
            | nil => None                    (* head == head2: break *)
            | _ :: head2 => find_config exists_ head2
            end
  end.

(** ** Configuration objects *)
(** Field registry: configuration.py; subtrees in the order of lines 449-454, with
    their fields in declaration order. *)
Definition registry : list (str * list str) :=
  [ ($"parse", [$"additional_commands"; $"override_spec"; $"vartags"; $"proptags"]);
    ($"format", [$"disable"; $"line_width"; $"tab_size"; $"use_tabchars"; $"fractional_tab_policy";
       $"max_subgroups_hwrap"; $"max_pargs_hwrap"; $"max_rows_cmdline"; $"separate_ctrl_name_with_space";
       $"separate_fn_name_with_space"; $"dangle_parens"; $"dangle_align"; $"min_prefix_chars";
       $"max_prefix_chars"; $"max_lines_hwrap"; $"line_ending"; $"command_case"; $"keyword_case";
       $"always_wrap"; $"enable_sort"; $"autosort"; $"require_valid_layout"; $"layout_passes"]);
    ($"markup", [$"bullet_char"; $"enum_char"; $"first_comment_is_literal"; $"literal_comment_pattern";
       $"fence_pattern"; $"ruler_pattern"; $"explicit_trailing_pattern"; $"hashruler_min_length";
       $"canonicalize_hashrulers"; $"enable_markup"]);
    ($"lint", [$"disabled_codes"; $"function_pattern"; $"macro_pattern"; $"global_var_pattern";
       $"internal_var_pattern"; $"local_var_pattern"; $"private_var_pattern"; $"public_var_pattern";
       $"argument_var_pattern"; $"keyword_pattern"; $"max_conditionals_custom_parser";
       $"min_statement_spacing"; $"max_statement_spacing"; $"max_returns"; $"max_branches";
       $"max_arguments"; $"max_localvars"; $"max_statements"]);
    ($"encode", [$"emit_byteorder_mark"; $"input_encoding"; $"output_encoding"]);
    ($"misc", [$"per_command"]) ].

(** A configuration object: the values set so far ([has_override]); field names are
    unique over the whole registry, so one dictionary is enough.  An absent field
    means its default value. *)
Definition config := dict val.

(** ConfigObject.consume_known on one subtree, config_util.py 360-367: every known
    field present in [kw] is stored and popped. *)
Fixpoint consume_fields (fields : list str) (c : config) (kw : dict val) : config * dict val :=
  match fields with
  | nil => (c, kw)
  | f :: fs =>
      match lookup f kw with
      | Some v => consume_fields fs (dset f v c) (ddel f kw)
      | None => consume_fields fs c kw
      end
  end.

(** consume_known of the root: SubtreeDescriptor.consume_value, config_util.py
    204-213: the value of a subtree key must be a dictionary. *)
Fixpoint consume_subtrees (reg : list (str * list str)) (c : config) (kw : dict val)
  : res (config * dict val) :=
  match reg with
  | nil => Ok (c, kw)
  | (name, fields) :: reg' =>
      match lookup name kw with
      | Some (VMap d) => consume_subtrees reg' (fst (consume_fields fields c d)) (ddel name kw)
      | Some (VAtom _) => Err ValueErr
      | None => consume_subtrees reg' c kw
      end
  end.

(** the second half of legacy_consume, config_util.py 369-375 and 215-219 *)
Fixpoint shim_consume (reg : list (str * list str)) (c : config) (kw : dict val)
  : config * dict val :=
  match reg with
  | nil => (c, kw)
  | (_, fields) :: reg' =>
      let '(c1, kw1) := consume_fields fields c kw in shim_consume reg' c1 kw1
  end.

(** legacy_consume of the root, config_util.py 369-375.  Returns the dictionary
    left: the caller's dictionary is mutated. *)
Definition legacy_consume (c : config) (kw : dict val) : res (config * dict val) :=
  let? (c1, kw1) := consume_subtrees registry c kw in
  Ok (shim_consume registry c1 kw1).

(** Configuration( **config_dict ), config_util.py 350-358 *)
Definition new_configuration (kw : dict val) : res config :=
  let? (c1, kw1) := consume_subtrees registry nil kw in
  let? (c2, _) := legacy_consume c1 kw1 in
  Ok c2.

(** get_argdict, __main__.py 469-496.  [args] holds the parsed namespace; None is an
    option that was not given.  [root_attributes] are the names that hasattr finds on the
    class Configuration: the sections are not among them, since the getter of a
    SubtreeDescriptor (config_util.py 184-193) raises AttributeError on a class. *)
Definition root_attributes : list str :=
  [$"mro"; $"resolve_for_command"; $"consume_known"; $"legacy_consume"; $"get_field_names"; $"as_dict"; $"as_odict";
   $"has_override"; $"dump"; $"add_to_argparser"; $"clone"; $"validate"].
Definition not_options : list str :=
  [$"log_level"; $"outfile_path"; $"infilepaths"; $"config_files"; $"dump_config"; $"with_help";
   $"with_defaults"; $"dump"; $"check"; $"in_place"; $"suppress_decorations"].
Definition get_argdict (args : dict (option val)) : dict val :=
  flat_map (fun kv : str * option val =>
    let (k, ov) := kv in
    if startswith ($"_") k then nil
    else if smem k root_attributes then nil
    else if smem k not_options then nil
    else match ov with None => nil | Some v => [(k, v)] end) args.

(** The configuration of each file of one run, __main__.py 506-512 and 611-615:
    [argparse_dict] is one mutable dictionary shared by all the calls. *)
Fixpoint run_configs (file_dicts : list (dict val)) (argparse_dict : dict val)
  : list (res config) :=
  match file_dicts with
  | nil => nil
  | d :: ds =>
      match new_configuration d with
      | Ok c =>
          match legacy_consume c argparse_dict with
          | Ok (c', rem) => Ok c' :: run_configs ds rem
          | Err e => [Err e]
          | OutOfFuel => [OutOfFuel]
          end
      | Err e => [Err e]
      | OutOfFuel => [OutOfFuel]
      end
  end.

(** cmake-lint instead updates a fresh dictionary for every file: lint/__main__.py
    139-142 *)
Definition dupdate (d e : dict val) : dict val :=
  fold_left (fun d kv => dset (fst kv) (snd kv) d) e d.
Definition lint_configs (file_dicts : list (dict val)) (argdict : dict val) : list (res config) :=
  map (fun d => new_configuration (dupdate d argdict)) file_dicts.

(** ** Per-command overrides *)
(** MiscConfig._update_derived, configuration.py 427-438.  [defaults] is
    standard_funs.get_default_config(). *)
Fixpoint update_per_command (per_command : list (str * val)) (acc : dict (dict val)) : dict (dict val) :=
  match per_command with
  | nil => acc
  | (command, VAtom _) :: rest => update_per_command rest acc
  | (command, VMap d) :: rest =>
      let command := lower command in
      let cur := match lookup command acc with Some x => x | None => nil end in
      update_per_command rest (dset command (dupdate cur d) acc)
  end.

(** the last component of a dotted key *)
Definition fieldname (key : str) : str := last (split_on 46%N key) nil.

(** resolve_for_command, configuration.py 456-488.  [default] is the value already
    determined by lines 476-480 (the global value of the key, or the caller's). *)
Definition resolve_for_command (per_command_ : dict (dict val)) (command_name key : str)
    (default : option val) : option val :=
  let cd := match lookup (lower command_name) per_command_ with Some d => d | None => nil end in
  match lookup key cd with
  | Some v => Some v
  | None => match lookup (fieldname key) cd with
            | Some v => Some v
            | None => default
            end
  end.
