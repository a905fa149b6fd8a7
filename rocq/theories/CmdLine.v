(** * CmdLine: the command lines of cmake-format and cmake-lint
    (config_util.py 50-60 and 270-306, format/__main__.py 420-466,
    lint/__main__.py 50-88) and the part of python's argparse they use *)
From Verif Require Import Base TextOps Config.

(** ** Values *)
(** what argparse stores: booleans, integers, strings and lists of them *)
Inductive oval := OB (b : bool) | OI (z : Z) | OS (s : str) | OL (l : list oval).

(** parse_bool, config_util.py 50-60 (the warning is not modelled) *)
Definition parse_bool (s : str) : bool :=
  smem (lower s) [$"y"; $"yes"; $"t"; $"true"; $"1"; $"yup"; $"yeah"; $"yada"].
(** [int(s)]: blanks around, a sign, digits with single underscores between them
    (ASCII digits only) *)
Definition cUS : chr := 95%N.
Definition is_digit (c : chr) : bool := (48 <=? c)%N && (c <=? 57)%N.
Fixpoint digits (acc : Z) (after_digit : bool) (s : str) : option Z :=
  match s with
  | nil => if after_digit then Some acc else None
  | c :: r =>
      if is_digit c then digits (10 * acc + (Z.of_N c - 48)) true r
      else if N.eqb c cUS && after_digit then digits acc false r
      else None
  end.
Definition parse_int (s : str) : option Z :=
  match strip s with
  | 45%N :: r => option_map Z.opp (digits 0 false r)
  | 43%N :: r => digits 0 false r
  | r => digits 0 false r
  end.

(** ** Options *)
Inductive nargs := NZero | NOne | NOpt | NStar | NPlus.
Inductive act := AStore | AConst | AExtend | AShow.      (* AShow: help and version *)
Inductive conv := CBool | CInt | CStr.
Record opt := Opt {
  o_names : list str; o_dest : str; o_nargs : nargs; o_act : act; o_conv : conv;
  o_const : option oval; o_choices : option (list str); o_default : option oval;
  o_mutex : nat                                         (* 0: in no exclusive group *)
}.

(** Default values of the configuration variables and their choices *)
Inductive dflt := DBool (b : bool) | DInt (z : Z) | DStr (s : str) (choices : option (list str))
                | DNone | DList | DDict.
(** configuration.py 13-440.  All default lists are empty. *)
Definition defaults : list (str * dflt) :=
  [ ($"additional_commands", DDict); ($"override_spec", DDict); ($"vartags", DList); ($"proptags", DList);
    ($"disable", DBool false); ($"line_width", DInt 80); ($"tab_size", DInt 2); ($"use_tabchars", DBool false);
    ($"fractional_tab_policy", DStr $"use-space" (Some [$"use-space"; $"round-up"]));
    ($"max_subgroups_hwrap", DInt 2); ($"max_pargs_hwrap", DInt 6); ($"max_rows_cmdline", DInt 2);
    ($"separate_ctrl_name_with_space", DBool false); ($"separate_fn_name_with_space", DBool false);
    ($"dangle_parens", DBool false);
    ($"dangle_align", DStr $"prefix" (Some [$"prefix"; $"prefix-indent"; $"child"; $"off"]));
    ($"min_prefix_chars", DInt 4); ($"max_prefix_chars", DInt 10); ($"max_lines_hwrap", DInt 2);
    ($"line_ending", DStr $"unix" (Some [$"windows"; $"unix"; $"auto"]));
    ($"command_case", DStr $"canonical" (Some [$"lower"; $"upper"; $"canonical"; $"unchanged"]));
    ($"keyword_case", DStr $"unchanged" (Some [$"lower"; $"upper"; $"unchanged"]));
    ($"always_wrap", DList); ($"enable_sort", DBool true); ($"autosort", DBool false);
    ($"require_valid_layout", DBool false); ($"layout_passes", DDict);
    ($"bullet_char", DStr $"*" None); ($"enum_char", DStr $"." None); ($"first_comment_is_literal", DBool false);
    ($"literal_comment_pattern", DNone); ($"fence_pattern", DStr $"^\s*([`~]{3}[`~]*)(.*)$" None);
    ($"ruler_pattern", DStr $"^\s*[^\w\s]{3}.*[^\w\s]{3}$" None); ($"explicit_trailing_pattern", DStr $"#<" None);
    ($"hashruler_min_length", DInt 10); ($"canonicalize_hashrulers", DBool true); ($"enable_markup", DBool true);
    ($"disabled_codes", DList); ($"function_pattern", DStr $"[0-9a-z_]+" None); ($"macro_pattern", DStr $"[0-9A-Z_]+" None);
    ($"global_var_pattern", DStr $"[A-Z][0-9A-Z_]+" None); ($"internal_var_pattern", DStr $"_[A-Z][0-9A-Z_]+" None);
    ($"local_var_pattern", DStr $"[a-z][a-z0-9_]+" None); ($"private_var_pattern", DStr $"_[0-9a-z_]+" None);
    ($"public_var_pattern", DStr $"[A-Z][0-9A-Z_]+" None); ($"argument_var_pattern", DStr $"[a-z][a-z0-9_]+" None);
    ($"keyword_pattern", DStr $"[A-Z][0-9A-Z_]+" None); ($"max_conditionals_custom_parser", DInt 2);
    ($"min_statement_spacing", DInt 1); ($"max_statement_spacing", DInt 2); ($"max_returns", DInt 6);
    ($"max_branches", DInt 12); ($"max_arguments", DInt 5); ($"max_localvars", DInt 15); ($"max_statements", DInt 50);
    ($"emit_byteorder_mark", DBool false); ($"input_encoding", DStr $"utf-8" None); ($"output_encoding", DStr $"utf-8" None);
    ($"per_command", DDict) ].

(** ['--' + name.replace('_', '-')] *)
Definition flag_of (name : str) : str := $"--" ++ map (fun c => if N.eqb c cUS then 45%N else c) name.
(** FieldDescriptor.add_to_argparse, config_util.py 270-306.  additional_commands is
    left out by name there and by its dictionary default here. *)
Definition add_to_argparse (name : str) (d : dflt) : list opt :=
  match d with
  | DBool b => [Opt [flag_of name] name NOpt AStore CBool (Some (OB (negb b))) None None 0]
  | DInt _ => [Opt [flag_of name] name NOne AStore CInt None None None 0]
  | DStr _ ch => [Opt [flag_of name] name NOne AStore CStr None ch None 0]
  | DNone => [Opt [flag_of name] name NOne AStore CStr None None None 0]
  | DList => [Opt [flag_of name] name NStar AStore CStr None None None 0]
  | DDict => nil
  end.
(** ConfigObject.add_to_argparser, config_util.py 472-486 *)
Definition config_options : list opt := flat_map (fun p => add_to_argparse (fst p) (snd p)) defaults.

(** options without a configuration variable: setup_argparser, __main__.py 420-464;
    argparse itself adds the help option *)
Definition flag_opt (names : list str) (dest : str) (v : bool) (m : nat) : opt :=
  Opt names dest NZero AConst CStr (Some (OB v)) None (Some (OB (negb v))) m.
Definition format_options : list opt :=
  [ Opt [$"-h"; $"--help"] $"help" NZero AShow CStr None None None 0;
    Opt [$"-v"; $"--version"] $"version" NZero AShow CStr None None None 0;
    Opt [$"-l"; $"--log-level"] $"log_level" NOne AStore CStr None
        (Some [$"error"; $"warning"; $"info"; $"debug"]) (Some (OS $"info")) 0;
    Opt [$"--dump-config"] $"dump_config" NOpt AStore CStr (Some (OS $"python"))
        (Some [$"yaml"; $"json"; $"python"]) None 1;
    Opt [$"--dump"] $"dump" NOne AStore CStr None
        (Some [$"lex"; $"parse"; $"parsedb"; $"layout"; $"markup"]) None 1;
    flag_opt [$"--no-help"] $"with_help" false 0;
    flag_opt [$"--no-default"] $"with_defaults" false 0;
    flag_opt [$"-i"; $"--in-place"] $"in_place" true 2;
    flag_opt [$"--check"] $"check" true 2;
    Opt [$"-o"; $"--outfile-path"] $"outfile_path" NOne AStore CStr None None None 2;
    Opt [$"-c"; $"--config-files"] $"config_files" NPlus AExtend CStr None None None 0 ]
  ++ config_options.
(** setup_argparse, lint/__main__.py 50-88 *)
Definition lint_options : list opt :=
  [ Opt [$"-h"; $"--help"] $"help" NZero AShow CStr None None None 0;
    Opt [$"-v"; $"--version"] $"version" NZero AShow CStr None None None 0;
    Opt [$"-l"; $"--log-level"] $"log_level" NOne AStore CStr None
        (Some [$"error"; $"warning"; $"info"; $"debug"]) (Some (OS $"info")) 0;
    Opt [$"--dump-config"] $"dump_config" NOpt AStore CStr (Some (OS $"python"))
        (Some [$"yaml"; $"json"; $"python"]) None 1;
    Opt [$"-o"; $"--outfile-path"] $"outfile_path" NOne AStore CStr None None None 1;
    flag_opt [$"--no-help"] $"with_help" false 0;
    flag_opt [$"--no-default"] $"with_defaults" false 0;
    flag_opt [$"--suppress-decorations"] $"suppress_decorations" true 0;
    Opt [$"-c"; $"--config-files"] $"config_files" NPlus AStore CStr None None None 0 ]
  ++ config_options.

(** ** argparse (python 3.11) *)
(** An outcome: a namespace, exit status 2 with a usage message, or status 0 after the
    help or version text. *)
Inductive out (A : Type) := Done (a : A) | Usage | Shown.
Arguments Done {A}. Arguments Usage {A}. Arguments Shown {A}.
Definition bindo {A B} (x : out A) (f : A -> out B) : out B :=
  match x with Done a => f a | Usage => Usage | Shown => Shown end.
Notation "'do?' p := x 'in' k" := (bindo x (fun p => k)) (at level 200, p pattern, x at level 100, k at level 200).

Definition ns := dict (option oval).
Definition dashes : str := $"--".

Section Parser.
Variable opts : list opt.

(** _option_string_actions *)
Definition table : list (str * opt) := flat_map (fun o => map (fun n => (n, o)) (o_names o)) opts.

(** [s.partition('=')] *)
Fixpoint partition_eq (s : str) : str * option str :=
  match s with
  | nil => (nil, None)
  | c :: r => if N.eqb c 61%N then (nil, Some r) else let (a, b) := partition_eq r in (c :: a, b)
  end.
(** _negative_number_matcher: -\d+$ or -\d*\.\d+$ *)
Definition negative_number (s : str) : bool :=
  match s with
  | 45%N :: r =>
      let r1 := lstrip_by is_digit r in
      match r1 with
      | nil => match r with nil => false | _ => true end
      | 46%N :: r2 => match r2 with nil => false | _ => forallb is_digit r2 end
      | _ => false
      end
  | _ => false
  end.

(** What an argument string is: an argument, or an option with its explicit argument
    (with the flag that tells a nonempty separator); no option found is an unknown
    option *)
Inductive tag := TA | TO (m : option (str * opt * option (bool * str))).

(** _get_option_tuples; only called with strings of two or more characters *)
Definition option_tuples (s : str) : list (str * opt * option (bool * str)) :=
  if startswith dashes s then
    let (p, e) := partition_eq s in
    flat_map (fun no => if startswith p (fst no) then [(fst no, snd no, option_map (fun x => (true, x)) e)] else nil) table
  else
    flat_map (fun no => if seqb (fst no) (firstn 2 s) then [(fst no, snd no, Some (false, skipn 2 s))]
                        else if startswith s (fst no) then [(fst no, snd no, None)] else nil) table.
(** _parse_optional *)
Definition parse_optional (s : str) : out tag :=
  if negb (startswith $"-" s) then Done TA else
  match lookup s table with
  | Some o => Done (TO (Some (s, o, None)))
  | None =>
      if (List.length s =? 1)%nat then Done TA else
      match (let (p, e) := partition_eq s in
             match e with Some x => option_map (fun o => (p, o, Some (true, x))) (lookup p table) | None => None end) with
      | Some t => Done (TO (Some t))
      | None =>
          match option_tuples s with
          | _ :: _ :: _ => Usage
          | [t] => Done (TO (Some t))
          | nil => if negative_number s then Done TA
                   else if existsb (N.eqb cSP) s then Done TA
                   else Done (TO None)
          end
      end
  end.

(** the pattern of the argument strings; [None] marks the first "--" *)
Fixpoint tags_of (args : list str) : out (list (str * option tag)) :=
  match args with
  | nil => Done nil
  | a :: r =>
      if seqb a dashes then Done ((a, None) :: map (fun x => (x, Some TA)) r) else
      do? t := parse_optional a in do? ts := tags_of r in Done ((a, Some t) :: ts)
  end.

(** _get_value and _check_value *)
Definition check_choice (ch : option (list str)) (v : oval) : bool :=
  match ch, v with
  | None, _ => true
  | Some l, OS s => smem s l
  | Some _, _ => false
  end.
Definition get_value (o : opt) (s : str) : out oval :=
  do? v := (match o_conv o with
            | CBool => Done (OB (parse_bool s))
            | CInt => match parse_int s with Some z => Done (OI z) | None => Usage end
            | CStr => Done (OS s)
            end) in
  if check_choice (o_choices o) v then Done v else Usage.
Fixpoint get_list (o : opt) (l : list str) : out (list oval) :=
  match l with
  | nil => Done nil
  | s :: r => do? v := get_value o s in do? vs := get_list o r in Done (v :: vs)
  end.
(** _get_values, for an option.  The constants of the tools are valid choices. *)
Definition get_values (o : opt) (l : list str) : out (option oval) :=
  match o_nargs o, l with
  | NOpt, nil => Done (o_const o)
  | (NOpt | NOne), [s] => do? v := get_value o s in Done (Some v)
  | _, _ => do? vs := get_list o l in Done (Some (OL vs))
  end.

(** the state: namespace, paths if taken, unrecognized strings, the exclusive options
    seen so far by group and destination *)
Record pst := PSt { p_ns : ns; p_paths : option (list str); p_extra : list str; p_seen : list (nat * str) }.

(** take_action.  In the tools every use of an option counts for its exclusive group:
    a value is never the default object itself. *)
Definition take_action (o : opt) (l : list str) (s : pst) : out pst :=
  do? v := get_values o l in
  if negb (o_mutex o =? 0)%nat && existsb (fun q => (fst q =? o_mutex o)%nat && negb (seqb (snd q) (o_dest o))) (p_seen s) then Usage else
  let s1 := fun n => PSt n (p_paths s) (p_extra s) ((o_mutex o, o_dest o) :: p_seen s) in
  match o_act o with
  | AStore => Done (s1 (dset (o_dest o) v (p_ns s)))
  | AConst => Done (s1 (dset (o_dest o) (o_const o) (p_ns s)))
  | AExtend =>
      let old := match lookup (o_dest o) (p_ns s) with Some (Some (OL x)) => x | _ => nil end in
      let new := match v with Some (OL x) => x | _ => nil end in
      Done (s1 (dset (o_dest o) (Some (OL (old ++ new))) (p_ns s)))
  | AShow => Shown
  end.
Fixpoint take_all (acts : list (opt * list str)) (s : pst) : out pst :=
  match acts with
  | nil => Done s
  | (o, l) :: r => do? s1 := take_action o l s in take_all r s1
  end.

(** the argument strings ahead *)
Fixpoint ahead (ts : list (str * option tag)) : list str :=
  match ts with (a, Some TA) :: r => a :: ahead r | _ => nil end.
(** _match_argument on the strings ahead: how many belong to the option *)
Definition match_count (n : nargs) (k : nat) : out nat :=
  match n with
  | NZero => Done 0%nat
  | NOne => if (k =? 0)%nat then Usage else Done 1%nat
  | NOpt => Done (Nat.min 1 k)
  | NStar => Done k
  | NPlus => if (k =? 0)%nat then Usage else Done k
  end.

(** the loop of consume_optional over one string: the actions found, unrecognized
    text, and the option that still takes the following strings *)
Fixpoint cluster (fuel : nat) (name : str) (o : opt) (e : option (bool * str))
  : out (list (opt * list str) * list str * option opt) :=
  match e with
  | None => Done (nil, nil, Some o)
  | Some (sep, x) =>
      match o_nargs o with
      | NZero =>
          match x with
          | c :: x1 =>
              if startswith dashes name then Usage else
              if sep || N.eqb c 45%N then Usage else
              match lookup [45%N; c] table with
              | None => Done ([(o, nil)], [45%N :: x], None)
              | Some o2 =>
                  match fuel with
                  | O => Usage
                  | S fuel =>
                      let e2 := match x1 with
                                | nil => None
                                | 61%N :: x2 => Some (true, x2)
                                | _ => Some (false, x1)
                                end in
                      do? (acts, ex, last) := cluster fuel [45%N; c] o2 e2 in
                      Done ((o, nil) :: acts, ex, last)
                  end
              end
          | nil => Usage
          end
      | _ => Done ([(o, [x])], nil, None)
      end
  end.

(** consume_optional: the new state and how many strings behind it were used *)
Definition consume_optional (a : str) (m : option (str * opt * option (bool * str)))
    (r : list (str * option tag)) (s : pst) : out (pst * nat) :=
  match m with
  | None => Done (PSt (p_ns s) (p_paths s) (p_extra s ++ [a]) (p_seen s), 0%nat)
  | Some (name, o, e) =>
      do? (acts, ex, last) := cluster (List.length a) name o e in
      let s1 := PSt (p_ns s) (p_paths s) (p_extra s ++ ex) (p_seen s) in
      match last with
      | None => do? s2 := take_all acts s1 in Done (s2, 0%nat)
      | Some o2 =>
          do? n := match_count (o_nargs o2) (List.length (ahead r)) in
          do? s2 := take_all (acts ++ [(o2, firstn n (ahead r))]) s1 in Done (s2, n)
      end
  end.

(** the strings up to the next option, and [list.remove('--')] *)
Fixpoint run_of (ts : list (str * option tag)) : list str :=
  match ts with
  | (_, Some (TO _)) :: _ => nil
  | (a, _) :: r => a :: run_of r
  | nil => nil
  end.
Fixpoint remove_dashes (l : list str) : list str :=
  match l with nil => nil | a :: r => if seqb a dashes then r else a :: remove_dashes r end.

(** _parse_known_args: paths are one run of strings; what cannot be placed is extra *)
Fixpoint go (fuel : nat) (ts : list (str * option tag)) (s : pst) : out pst :=
  match fuel with
  | O => Usage
  | S fuel =>
      match ts with
      | nil => Done s
      | (a, Some (TO m)) :: r =>
          do? (s1, n) := consume_optional a m r s in go fuel (skipn n r) s1
      | _ =>
          let run := run_of ts in
          go fuel (skipn (List.length run) ts)
            (match p_paths s with
             | None => PSt (p_ns s) (Some (remove_dashes run)) (p_extra s) (p_seen s)
             | Some _ => PSt (p_ns s) (p_paths s) (p_extra s ++ run) (p_seen s)
             end)
      end
  end.

(** the namespace at the start: the defaults *)
Definition initial_ns : ns :=
  flat_map (fun o => match o_act o with AShow => nil | _ => [(o_dest o, o_default o)] end) opts.
(** parse_args: the namespace and the input paths *)
Definition parse_args (args : list str) : out (ns * list str) :=
  do? ts := tags_of args in
  do? s := go (S (List.length ts)) ts (PSt initial_ns None nil nil) in
  match p_extra s with
  | nil => Done (p_ns s, match p_paths s with Some l => l | None => nil end)
  | _ => Usage
  end.
End Parser.

(** ** Into the configuration *)
(** [vars(args)] as the model of the configuration sees it: [code] stands for the
    python value *)
Definition settings (code : oval -> Z) (n : ns) : dict (option val) :=
  map (fun kv => (fst kv, option_map (fun v => VAtom (code v)) (snd kv))) n.

(** Tests of the model *)
Example cmd_ex : parse_args format_options [$"-i"; $"--line-width=100"; $"--dangle-p"; $"--"; $"a.cmake"; $"-b"] =
  Done (dset $"dangle_parens" (Some (OB true)) (dset $"line_width" (Some (OI 100))
       (dset $"in_place" (Some (OB true)) (initial_ns format_options))), [$"a.cmake"; $"-b"]).
Proof. vm_compute. reflexivity. Qed.
Example cmd_ex2 : parse_args format_options [$"--line=100"; $"a.cmake"] = Usage
  /\ parse_args format_options [$"a.cmake"; $"-i"; $"b.cmake"] = Usage
  /\ parse_args format_options [$"-i"; $"-o"; $"x"; $"b.cmake"] = Usage
  /\ parse_args format_options [$"--tab-size"; $"four"] = Usage
  /\ parse_args format_options [$"-ih"] = Shown.
Proof. vm_compute. auto. Qed.
