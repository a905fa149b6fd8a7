(** * AnnotEntry: the program cmake-annotate from its command line to its effects
    (setup_argparser and main, annotate.py 91-181) *)
From Verif Require Import Base TextOps Config MainLoop CmdLine Entry.

(** setup_argparser, annotate.py 91-107 *)
Definition annotate_options : list opt :=
  [ Opt [$"-h"; $"--help"] $"help" NZero AShow CStr None None None 0;
    Opt [$"-v"; $"--version"] $"version" NZero AShow CStr None None None 0;
    Opt [$"-f"; $"--format"] $"format" NOne AStore CStr None (Some [$"page"; $"stub"; $"iframe"]) (Some (OS $"stub")) 0;
    Opt [$"-o"; $"--outfile-path"] $"outfile_path" NOne AStore CStr None None None 0;
    Opt [$"-c"; $"--config-file"] $"config_file" NOne AStore CStr None None None 0 ].

(** The rest of the world: [a_infer] is find_config_file for an input path,
    [a_configs] is get_configdict, [a_stdin] the text of standard input, [a_read] decodes
    the contents of an input file, [a_can] tells which paths can be opened for writing,
    [a_html] is the text annotate_file (annotate.py 43-79) writes for a format, a configuration and
    an input; it is taken to be written at once and to be encodable. *)
Record aenv := AEnv {
  a_infer : str -> option str;
  a_configs : list str -> res (dict val);
  a_stdin : config -> res str;
  a_read : config -> str -> res str;
  a_can : str -> bool;
  a_html : str -> config -> str -> res str
}.

(** get_config, format/__main__.py 347-359.  The value of -c is one string, and
    get_configdict takes it for the list of its paths: [list(configfile_paths)], line 307,
    is the list of its characters. *)
Definition annotate_dict (e : aenv) (n : ns) (path : str) : res (dict val) :=
  match text_value $"config_file" n with
  | None => match a_infer e path with None => Ok nil | Some p => a_configs e [p] end
  | Some f => a_configs e (map (fun ch => [ch]) f)
  end.
(** annotate.py 137-149: the options without the format, on top of the configuration files *)
Definition annotate_config (e : aenv) (code : oval -> Z) (n : ns) (path : str) : res config :=
  let? d := annotate_dict e n path in
  new_configuration (dupdate d (ddel $"format" (get_argdict (settings code n)))).

(** one file, annotate.py 140-179: the output is opened before the input *)
Definition annotate_one (e : aenv) (code : oval -> Z) (n : ns) (out : str) (w : fs) (path : str) : list step * ending :=
  match annotate_config e code n path with
  | Err x => (nil, Raised x)
  | OutOfFuel => (nil, Hang)
  | Ok c =>
      if negb (seqb out dash) && negb (a_can e out) then (nil, Raised OSErr) else
      let opened := if seqb out dash then nil else [STrunc out] in
      let put := fun t => if seqb out dash then map SStdout t else map (SAppend out) t in
      let content := if seqb path dash then a_stdin e c
                     else match do_steps w opened path with
                          | None => Err OSErr
                          | Some (t, _) => a_read e c t
                          end in
      match content with
      | Err x => (opened, Raised x)
      | OutOfFuel => (opened, Hang)
      | Ok t =>
          match a_html e (match text_value $"format" n with Some f => f | None => nil end) c t with
          | Err x => (opened, Raised x)
          | OutOfFuel => (opened, Hang)
          | Ok h => (opened ++ put h, Exit 0)
          end
      end
  end.
(** the loop over the inputs, annotate.py 140-181 *)
Fixpoint annotate_files (e : aenv) (code : oval -> Z) (n : ns) (out : str) (w : fs) (paths : list str) : list step * ending :=
  match paths with
  | nil => (nil, Exit 0)
  | p :: ps =>
      match annotate_one e code n out w p with
      | (l, Exit _) => let (l2, x) := annotate_files e code n out (do_steps w l) ps in (l ++ l2, x)
      | r => r
      end
  end.
(** main, annotate.py 110-181 *)
Definition annotate_main (e : aenv) (code : oval -> Z) (w : fs) (argv : list str) : list step * ending :=
  match parse_args annotate_options argv with
  | Usage => (nil, Exit 2)
  | Shown => (nil, Exit 0)
  | Done (n, paths) =>
      if negb ((List.length paths =? 1)%nat || negb (given $"outfile_path" n)) then (nil, Raised AssertionErr)   (* 123-126 *)
      else
      let out := match text_value $"outfile_path" n with Some p => p | None => dash end in                     (* 128-129 *)
      if smem dash paths && (negb (List.length paths =? 1)%nat || negb (seqb out dash))
      then (nil, Raised AssertionErr)                                                                          (* 131-135 *)
      else annotate_files e code n out w paths
  end.

(** Tests of the model *)
Definition plain_aenv : aenv :=
  AEnv (fun _ => None) (fun _ => Ok nil) (fun _ => Ok $"in") (fun _ t => Ok t) (fun _ => true) (fun f _ t => Ok (f ++ $":" ++ t)).
Example annot_ex : annotate_main plain_aenv (fun _ => 0) (fun _ => Some ($"x", 0)) [$"-fpage"; $"a"; $"b"]
  = (map SStdout $"page:xpage:x", Exit 0).
Proof. vm_compute. reflexivity. Qed.
