(** * Entry: the program cmake-format from its command line to its effects
    (inner_main, format/__main__.py 569-621, and main, 624-644) *)
From Verif Require Import Base TextOps Config MainLoop CmdLine.

Definition given (k : str) (n : ns) : bool := match lookup k n with Some (Some _) => true | _ => false end.
Definition turned_on (k : str) (n : ns) : bool := match lookup k n with Some (Some (OB b)) => b | _ => false end.
Definition text_value (k : str) (n : ns) : option str := match lookup k n with Some (Some (OS s)) => Some s | _ => None end.

(** [en] is the rest of the world, which depends on the options (-c names configuration
    files, --dump replaces the formatted text); [dump] is the text of --dump-config,
    lines 376-402 (a dump that fails is taken to fail before its first character);
    [code] stands for python values as in [settings].  The help and version texts are
    left out.  A failing assertion ends in status 1, lines 639-643. *)
Definition inner_main (en : ns -> env) (dump : ns -> res str) (code : oval -> Z) (w : fs) (argv : list str)
  : list step * ending :=
  match parse_args format_options argv with                          (* 583 *)
  | Usage => (nil, Exit 2)
  | Shown => (nil, Exit 0)
  | Done (n, paths) =>
      let in_place := turned_on $"in_place" n in
      let out := text_value $"outfile_path" n in
      if given $"dump_config" n then                                 (* 586-589 *)
        match dump n with
        | Ok t => (map SStdout t, Exit 0)
        | Err x => (nil, Raised x)
        | OutOfFuel => (nil, Hang)
        end
      else if given $"dump" n && in_place then (nil, Raised AssertionErr)   (* 591-593 *)
      else if in_place && given $"outfile_path" n then (nil, Raised AssertionErr)   (* 595-596 *)
      else if negb ((List.length paths =? 1)%nat || in_place || negb (given $"outfile_path" n))
      then (nil, Raised AssertionErr)                                   (* 597-600 *)
      else
      let out := match out with Some p => p | None => dash end in    (* 602-603 *)
      if smem dash paths && (negb (List.length paths =? 1)%nat || negb (seqb out dash))
      then (nil, Raised AssertionErr)                                   (* 605-609 *)
      else run_main (en n) (Args (turned_on $"check" n) in_place out) w paths (settings code n)
  end.
