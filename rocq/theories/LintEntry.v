(** * LintEntry: the program cmake-lint from its command line to its effects
    (inner_main and main, lint/__main__.py 95-203) *)
From Verif Require Import Base TextOps Config MainLoop CmdLine Entry Lint.

(** what opening and reading a path gives, 150-165; [dec] tells whether the text of a
    path decodes *)
Definition lint_reads (dec : str -> str -> bool) (stdin : lread) (w : fs) (p : str) : lread :=
  if seqb p dash then stdin else
  match w p with
  | None => CannotOpen
  | Some (t, _) => if dec p t then Text t else CannotDecode
  end.
(** the status for an exception that reaches main, 186-203 *)
Definition lint_error (x : err) : Z := match x with UserError => 1 | _ => 2 end.
(** [cf] and [dec] depend on the options; [can_open] tells which paths can be opened
    for writing.  The report is taken to reach its file when it is closed; what is
    written before an exception is left out.  argparse ends a refused command line and
    the help and version texts with SystemExit, which main turns into status 0
    (186-187), like the end of --dump-config (116). *)
Definition lint_main (cf : ns -> str -> res lcfg) (dec : ns -> str -> str -> bool) (stdin : lread) (can_open : str -> bool)
    (dump : ns -> res str) (w : fs) (argv : list str) : list step * Z :=
  match parse_args lint_options argv with                            (* 110 *)
  | Usage | Shown => (nil, 0)
  | Done (n, paths) =>
      if given $"dump_config" n then                                 (* 113-116 *)
        match dump n with
        | Ok t => (map SStdout t, 0)
        | Err x => (nil, lint_error x)
        | OutOfFuel => (nil, 2)
        end
      else
      let out := match text_value $"outfile_path" n with Some p => p | None => dash end in   (* 118-119 *)
      let plain := turned_on $"suppress_decorations" n in
      if smem dash paths && negb (List.length paths =? 1)%nat then (nil, 2)   (* 121-123 *)
      else if seqb out dash then                                     (* 125-127 *)
        let rd := lint_reads (dec n) stdin w in
        (match inner_lint rd (cf n) plain paths with Ok (t, _) => map SStdout t | _ => nil end,
         lint_status rd (cf n) plain paths)
      else if negb (can_open out) then (nil, 2)
      else                                                           (* 129 *)
        let rd := lint_reads (dec n) stdin (do_step w (STrunc out)) in
        (STrunc out :: match inner_lint rd (cf n) plain paths with Ok (t, _) => map (SAppend out) t | _ => nil end,
         lint_status rd (cf n) plain paths)
  end.
