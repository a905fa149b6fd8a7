(** * MainLoop: model of the cmake-format driver, format/__main__.py 499-644 *)
From Verif Require Import Base Config.

(** ** Files *)
(** A file: its text and its permission bits.  Simplified: text files hold decoded
    text; decoding and encoding can fail (below) but are otherwise the identity. *)
Definition file := (str * Z)%type.
Definition fs := str -> option file.
Definition upd (w : fs) (p : str) (f : option file) : fs := fun q => if seqb q p then f else w q.

(** Atomic effects visible from outside.  A write of a text is one append per
    character: the process may die between any two of them. *)
Inductive step :=
| STrunc (p : str)            (* io.open(p, 'w') *)
| SAppend (p : str) (c : chr)
| SChmod (p : str) (mode : Z) (* shutil.copymode *)
| SRename (p q : str)         (* shutil.move on one file system: os.rename *)
| SStdout (c : chr).
Definition default_mode : Z := 420.   (* rw-r--r-- *)
Definition do_step (w : fs) (s : step) : fs :=
  match s with
  | STrunc p => upd w p (Some (nil, match w p with Some (_, m) => m | None => default_mode end))
  | SAppend p c => match w p with Some (t, m) => upd w p (Some (t ++ [c], m)) | None => w end
  | SChmod p m => match w p with Some (t, _) => upd w p (Some (t, m)) | None => w end
  | SRename p q => match w p with Some f => upd (upd w q (Some f)) p None | None => w end
  | SStdout _ => w
  end.
Definition do_steps (w : fs) (l : list step) : fs := fold_left do_step l w.
Fixpoint stdout_of (l : list step) : str :=
  match l with
  | nil => nil
  | SStdout c :: l' => c :: stdout_of l'
  | _ :: l' => stdout_of l'
  end.

(** ** The rest of the world *)
Record env := Env {
  (* get_config: the merged dictionary of the config files of an input path *)
  cfg_dict : str -> res (dict val);
  (* text of standard input *)
  stdin_text : res str;
  (* input decodes with encode.input_encoding *)
  decodes : config -> str -> bool;
  (* output encodes with encode.output_encoding *)
  encodes : config -> str -> bool;
  (* process_file: output text and layout validity *)
  fmt : config -> str -> res (str * bool)
}.

Record args := Args { check : bool; in_place : bool; outfile_path : str }.

(** A boolean field with default False. *)
Definition flag (c : config) (k : str) : bool :=
  match lookup k c with
  | Some (VAtom n) => negb (n =? 0)
  | Some (VMap d) => negb (match d with nil => true | _ => false end)
  | None => false
  end.

Definition dash : str := $"-".
Definition temp_of (p : str) : str := p ++ $".cmf-temp".

Definition write_text (p : str) (t : str) : list step := map (SAppend p) t.

(** onefile_main, lines 499-566: the effects, then how it ended.  [kw] is the
    shared argparse dictionary, returned as left by the call. *)
Definition onefile (e : env) (a : args) (w : fs) (path : str) (kw : dict val)
  : list step * res unit * dict val :=
  match cfg_dict e path with                                   (* 506-509 *)
  | Err x => (nil, Err x, kw) | OutOfFuel => (nil, OutOfFuel, kw)
  | Ok d =>
  match new_configuration d with                               (* 511 *)
  | Err x => (nil, Err x, kw) | OutOfFuel => (nil, OutOfFuel, kw)
  | Ok c0 =>
  match legacy_consume c0 kw with                              (* 512 *)
  | Err x => (nil, Err x, kw) | OutOfFuel => (nil, OutOfFuel, kw)
  | Ok (c, kw') =>
  if flag c ($"disable") then (nil, Ok tt, kw') else           (* 514-515 *)
  match (if seqb path dash then stdin_text e                   (* 517-524 *)
         else match w path with
              | Some (t, _) => if decodes e c t then Ok t else Err UnicodeErr
              | None => Err OSErr
              end) with
  | Err x => (nil, Err x, kw') | OutOfFuel => (nil, OutOfFuel, kw')
  | Ok intext =>
  match fmt e c intext with                                    (* 526-532 *)
  | Err x => (nil, Err x, kw') | OutOfFuel => (nil, OutOfFuel, kw')
  | Ok (outtext, valid) =>
  if flag c ($"require_valid_layout") && negb valid then (nil, Err FormatErr, kw') else
  if check a then                                              (* 534-537 *)
    (nil, if seqb intext outtext then Ok tt else Err FormatErr, kw')
  else if in_place a then                                      (* 539-545, 560-566 *)
    if seqb intext outtext then (nil, Ok tt, kw') else
    let tmp := temp_of path in
    if negb (encodes e c outtext) then ([STrunc tmp], Err UnicodeErr, kw') else
    match w path with
    | Some (_, mode) =>
        (STrunc tmp :: write_text tmp outtext ++ [SChmod tmp mode; SRename tmp path], Ok tt, kw')
    | None => (STrunc tmp :: write_text tmp outtext, Err OSErr, kw')  (* copymode fails *)
    end
  else if seqb (outfile_path a) dash then                      (* 547-556 *)
    if negb (encodes e c outtext) then (nil, Err UnicodeErr, kw') else
    (map SStdout outtext, Ok tt, kw')
  else                                                         (* 557-562 *)
    if negb (encodes e c outtext) then ([STrunc (outfile_path a)], Err UnicodeErr, kw') else
    (STrunc (outfile_path a) :: write_text (outfile_path a) outtext, Ok tt, kw')
  end end end end end.

(** How a run ends: a return code, or an exception other than FormatError, which
    main (624-644) turns into status 1 (or python does, with a traceback). *)
Inductive ending := Exit (rc : Z) | Raised (x : err) | Hang.
Definition status (x : ending) : option Z :=
  match x with Exit rc => Some rc | Raised _ => Some 1 | Hang => None end.

(** the loop of inner_main, lines 613-621 *)
Fixpoint run_files (e : env) (a : args) (w : fs) (paths : list str) (kw : dict val) (rc : Z)
  : list step * ending :=
  match paths with
  | nil => (nil, Exit rc)
  | p :: ps =>
      let '(l, r, kw') := onefile e a w p kw in
      match r with
      | Ok _ => let (l2, x) := run_files e a (do_steps w l) ps kw' rc in (l ++ l2, x)
      | Err FormatErr => let (l2, x) := run_files e a (do_steps w l) ps kw' 1 in (l ++ l2, x)
      | Err x => (l, Raised x)
      | OutOfFuel => (l, Hang)
      end
  end.
Definition run_main (e : env) (a : args) (w : fs) (paths : list str) (cmdline : dict (option val))
  : list step * ending :=
  run_files e a w paths (get_argdict cmdline) 0.
