(** * GenEntry: the program cmake-genparsers from its command line to its effects
    (setup_argparse and main, genparsers.py 202-293), and C166, C167 *)
From Verif Require Import Base TextOps Config Pipeline MainLoop PropMain CmdLine PropCmd Entry PropEntry Lint LintEntry PropLintEntry CmdSpec PropSpec Genparsers PropGen.

(** setup_argparse, genparsers.py 202-214 *)
Definition gen_options : list opt :=
  [ Opt [$"-h"; $"--help"] $"help" NZero AShow CStr None None None 0;
    Opt [$"-v"; $"--version"] $"version" NZero AShow CStr None None None 0;
    Opt [$"-l"; $"--log-level"] $"log_level" NOne AStore CStr None (Some [$"error"; $"warning"; $"info"; $"debug"]) (Some (OS $"info")) 0;
    Opt [$"-o"; $"--outfile-path"] $"outfile_path" NOne AStore CStr None None None 0;
    Opt [$"-f"; $"--output-format"] $"output_format" NOne AStore CStr None (Some [$"json"; $"yaml"; $"python"]) (Some (OS $"python")) 0 ].

(** main, genparsers.py 222-293.  [dec] tells which contents decode, [can_open] which
    paths can be opened for writing, [dump] is the text that json, yaml or pprint gives
    for a format and the generated dictionary (276-289); it is taken to be written at
    once and to be encodable.  The first component is what print writes to standard
    output in line 242; for a run that ends with an exception it is left out (the nil
    here stands for the paths up to the one that failed).  The steps are those of the
    descriptor opened in line 275, which for standard output is a duplicate with a buffer
    of its own: the two texts reach standard output in either order.  Log messages go to
    standard error and are not modelled. *)
Definition gen_entry (fuel : nat) (dec : str -> str -> bool) (stdin : lread) (can_open : str -> bool)
    (dump : str -> list (str * gspec) -> res str) (w : fs) (argv : list str) : str * list step * ending :=
  match parse_args gen_options argv with
  | Usage => (nil, nil, Exit 2)
  | Shown => (nil, nil, Exit 0)
  | Done (n, paths) =>
      match gen_main fuel (lint_reads dec stdin w) paths with          (* 235-273 *)
      | Err x => (nil, nil, Raised x)
      | OutOfFuel => (nil, nil, Hang)
      | Ok (printed, out, status) =>
          let o := match text_value $"outfile_path" n with Some p => p | None => dash end in           (* 239-244 *)
          if negb (seqb o dash) && negb (can_open o) then (printed, nil, Raised OSErr) else
          let opened := if seqb o dash then nil else [STrunc o] in     (* 275 *)
          match dump (match text_value $"output_format" n with Some f => f | None => nil end) out with
          | Err x => (printed, opened, Raised x)
          | OutOfFuel => (printed, opened, Hang)
          | Ok t => (printed, opened ++ (if seqb o dash then map SStdout (t ++ [cNL]) else write_text o (t ++ [cNL])), Exit status)
          end
      end
  end.
Definition steps_of (r : str * list step * ending) : list step := snd (fst r).

Lemma gen_names : forallb (fun no => name_ok (fst no)) (table gen_options) = true.
Proof. vm_compute. reflexivity. Qed.
Lemma gen_on fuel dec si can dump w argv n ps : parse_args gen_options argv = Done (n, ps) ->
  let o := match text_value $"outfile_path" n with Some p => p | None => dash end in
  forallb (on_file o) (steps_of (gen_entry fuel dec si can dump w argv)) = true
  /\ (o = dash -> forallb is_stdout (steps_of (gen_entry fuel dec si can dump w argv)) = true).
Proof.
  intros H o. unfold gen_entry. rewrite H. destruct (gen_main _ _ _) as [[[pr out] k]|x|]; [|now split|now split]. fold o. cbn zeta.
  destruct (_ && _); [now split|].
  destruct (dump _ _) as [t|x|]; unfold steps_of; cbn [fst snd]; (split; [destruct (seqb o dash)|intros ->; rewrite seqb_refl]);
    cbn [app forallb on_file]; rewrite ?seqb_refl; try reflexivity; cbn [andb].
  - induction (t ++ [cNL]) as [|a h IH]; [reflexivity|]. exact IH.
  - apply appends_on.
  - apply stdout_map.
Qed.

(** ** C166: cmake-genparsers changes no file but its output, and that only when all inputs were processed *)
Theorem C166_only_output fuel dec si can dump w argv q :
  (forall n ps, parse_args gen_options argv = Done (n, ps) -> text_value $"outfile_path" n <> Some q) ->
  do_steps w (steps_of (gen_entry fuel dec si can dump w argv)) q = w q.
Proof.
  intros H. destruct (parse_args gen_options argv) as [[n ps]| |] eqn:E; [|unfold gen_entry; rewrite E; reflexivity..].
  specialize (H _ _ eq_refl). destruct (gen_on fuel dec si can dump w argv n ps E) as [A B].
  destruct (text_value $"outfile_path" n) as [o|].
  - apply (other_file o); [exact A|congruence].
  - rewrite stdout_only; [reflexivity|]. now apply B.
Qed.
Theorem C166_on_request fuel dec si can dump w argv q :
  (forall a, In a (front argv) -> startswith $"-o" a = false /\ startswith $"--o" a = false) ->
  do_steps w (steps_of (gen_entry fuel dec si can dump w argv)) q = w q.
Proof.
  intros Hf. apply C166_only_output. intros n ps H.
  assert (U : lookup $"outfile_path" n = lookup $"outfile_path" (initial_ns gen_options)).
  { apply (untouched gen_options [$"outfile_path"] [($"-o", $"--outfile-path", $"--o")] argv n ps gen_names ltac:(vm_compute; reflexivity) H); [|now left].
    apply forallb_forall. intros a Ha. destruct (Hf _ Ha) as (A & B). unfold free_of. cbn [forallb]. now rewrite A, B. }
  unfold text_value. rewrite U. discriminate.
Qed.
(** An input that is not there, or that cannot be generated from, leaves every file as it
    was, the output of an earlier run included, and the run fails. *)
Lemma loop_bad fuel rd ps : (exists p s, In p ps /\ rd p = Text s /\ forall o, gen_file fuel s <> Ok o) ->
  forall b prev out r, gen_loop fuel rd ps b prev out <> Ok r.
Proof.
  intros (p & s & Hin & Hp & Hg). induction ps as [|p0 ps IH]; intros b prev out r E; [contradiction|]. cbn [gen_loop] in E.
  destruct Hin as [->|Hin].
  - rewrite Hp in E. apply bindr_ok in E as (g & Eg & _). exact (Hg _ Eg).
  - destruct (rd p0) as [| |s0]; [discriminate| |].
    + destruct prev; [|discriminate]. apply bindr_ok in E as (g & _ & E). exact (IH Hin _ _ _ _ E).
    + apply bindr_ok in E as (g & _ & E). exact (IH Hin _ _ _ _ E).
Qed.
Theorem C166_kept fuel dec si can dump w argv n ps p : parse_args gen_options argv = Done (n, ps) -> In p ps -> p <> dash ->
  (w p = None \/ exists t m, w p = Some (t, m) /\ dec p t = true /\ forall out, gen_file fuel t <> Ok out) ->
  (forall q, do_steps w (steps_of (gen_entry fuel dec si can dump w argv)) q = w q)
  /\ forall k, snd (gen_entry fuel dec si can dump w argv) <> Exit k.
Proof.
  intros H Hin Hd Hw.
  assert (N : forall r, gen_main fuel (lint_reads dec si w) ps <> Ok r).
  { apply seqb_neq in Hd. destruct Hw as [Hw|(t & m & Hw & Ht & Hg)].
    - apply C84_unreadable_partial. left. exists p. split; [exact Hin|]. unfold lint_reads. now rewrite Hd, Hw.
    - intros r E. unfold gen_main in E. destruct (_ && _); [discriminate|]. apply bindr_ok in E as (out & E & _).
      revert E. apply loop_bad. exists p, t. split; [exact Hin|]. split; [|exact Hg]. unfold lint_reads. now rewrite Hd, Hw, Ht. }
  unfold gen_entry. rewrite H. destruct (gen_main _ _ _) as [r|x|]; [destruct (N _ eq_refl)|now split|now split].
Qed.
(** The inputs are read before the output is opened: with every input readable the named
    output is the dump of the union of the definitions of the inputs, even when it is one
    of them, and the status is 0. *)
Fixpoint inputs_give (fuel : nat) (dec : str -> str -> bool) (w : fs) (ps : list str) (outs : list (list (str * gspec))) : Prop :=
  match ps, outs with
  | nil, nil => True
  | p :: ps, o :: outs => p <> dash /\ (exists t m, w p = Some (t, m) /\ dec p t = true /\ gen_file fuel t = Ok o) /\ inputs_give fuel dec w ps outs
  | _, _ => False
  end.
Lemma inputs_all fuel dec si w ps : forall outs, inputs_give fuel dec w ps outs -> all_outs (lint_reads dec si w) ps outs fuel /\ ~ In dash ps.
Proof.
  induction ps as [|p ps IH]; intros [|o outs] H; try contradiction; [now split|].
  destruct H as (Hd & (t & m & Hw & Ht & Hg) & H). apply IH in H as [A B]. split.
  - split; [|exact A]. exists t. split; [|exact Hg]. unfold lint_reads. apply seqb_neq in Hd. now rewrite Hd, Hw, Ht.
  - intros [E|E]; [congruence|auto].
Qed.
Theorem C166_written fuel dec si can dump w argv n ps f o outs : parse_args gen_options argv = Done (n, ps) ->
  text_value $"outfile_path" n = Some o -> text_value $"output_format" n = Some f -> o <> dash -> can o = true ->
  inputs_give fuel dec w ps outs ->
  exists d, (forall name, assoc_last name d = last_of name outs)
    /\ forall t, dump f d = Ok t ->
         snd (gen_entry fuel dec si can dump w argv) = Exit 0
         /\ exists m, do_steps w (steps_of (gen_entry fuel dec si can dump w argv)) o = Some (t ++ [cNL], m).
Proof.
  intros H Ho Hf Hd Hc Hi. destruct (inputs_all fuel dec si w ps outs Hi) as [A B].
  destruct (C84_union _ _ _ _ A) as (d & E & L); [intros X; destruct (B X)|].
  exists d. split; [exact L|]. intros t Ht. apply seqb_neq in Hd. unfold gen_entry, steps_of. rewrite H, E, Ho, Hf. cbn zeta. rewrite Hd, Hc. cbn [negb andb].
  rewrite Ht. cbn [fst snd]. split; [reflexivity|].
  assert (T : exists m, do_step w (STrunc o) o = Some (nil, m)).
  { cbn [do_step]. unfold upd. destruct (w o) as [[? m]|]; rewrite ?seqb_refl; eexists; reflexivity. }
  destruct T as [m T]. exists m. change ([STrunc o] ++ write_text o (t ++ [cNL])) with (STrunc o :: write_text o (t ++ [cNL])).
  change (do_steps w (STrunc o :: write_text o (t ++ [cNL]))) with (do_steps (do_step w (STrunc o)) (write_text o (t ++ [cNL]))).
  now rewrite (appends_same _ _ _ _ _ T).
Qed.

(** ** C167: standard output of cmake-genparsers is what it generated *)
(** It never is when there are inputs: the names of the inputs are on it too. *)
Theorem C167_broken fuel dec si can dump w argv n ps f pr l k : parse_args gen_options argv = Done (n, ps) ->
  text_value $"outfile_path" n = None -> text_value $"output_format" n = Some f -> ps <> nil ->
  gen_entry fuel dec si can dump w argv = (pr, l, Exit k) ->
  pr = nl ps /\ (exists d t, dump f d = Ok t /\ stdout_of l = t ++ [cNL])
  /\ forall text, text = pr ++ stdout_of l \/ text = stdout_of l ++ pr -> (List.length text > List.length (stdout_of l))%nat.
Proof.
  intros H Ho Hf Hp. unfold gen_entry. rewrite H, Ho, Hf. unfold gen_main.
  destruct (_ && _); [discriminate|]. destruct (gen_loop _ _ _ _ _ _) as [d|x|]; cbn [bindr]; [|discriminate|discriminate]. cbn zeta.
  rewrite seqb_refl. cbn [negb andb app]. destruct (dump f d) as [t|x|] eqn:Ed; try discriminate. intros E. injection E as <- <- <-.
  assert (S : forall t, stdout_of (map SStdout t) = t). { intros t0. induction t0 as [|c t0 IH]; [reflexivity|]. cbn [map stdout_of]. now rewrite IH. }
  rewrite S. split; [reflexivity|]. split; [now exists d, t|]. intros text Ht.
  assert (Z : (List.length (nl ps) > 0)%nat). { destruct ps as [|p ps]; [congruence|]. unfold nl. cbn [map List.concat]. rewrite !app_length. cbn. lia. }
  destruct Ht as [->| ->]; rewrite app_length; lia.
Qed.
(** Without inputs it is, and so is the file named with -o (C166_written). *)
Theorem C167_partial fuel dec si can dump w argv n f t : parse_args gen_options argv = Done (n, nil) ->
  text_value $"outfile_path" n = None -> text_value $"output_format" n = Some f -> dump f nil = Ok t ->
  gen_entry fuel dec si can dump w argv = (nil, map SStdout (t ++ [cNL]), Exit 0).
Proof. intros H Ho Hf Ht. unfold gen_entry. rewrite H, Ho, Hf. cbn. now rewrite Ht. Qed.

(** A definition written to a file that is also the input; the same command without -o. *)
Definition names_dump (f : str) (d : list (str * gspec)) : res str := Ok (f ++ $":" ++ List.concat (map fst d)).
Definition gen_world (p : str) : option (str * Z) := if seqb p $"a.cmake" then Some (src_def, 7) else None.
Definition gen_demo (argv : list str) := gen_entry 5 (fun _ _ => true) CannotOpen (fun _ => true) names_dump gen_world argv.
Example C166_ex :
  (exists n o, parse_args gen_options [$"-o"; $"a.cmake"; $"--output-f=json"; $"a.cmake"] = Done (n, [$"a.cmake"])
     /\ text_value $"outfile_path" n = Some $"a.cmake" /\ text_value $"output_format" n = Some $"json"
     /\ inputs_give 5 (fun _ _ => true) gen_world [$"a.cmake"] [o])
  /\ do_steps gen_world (steps_of (gen_demo [$"-o"; $"a.cmake"; $"--output-f=json"; $"a.cmake"])) $"a.cmake" = Some ($"json:myfun" ++ [cNL], 7)
  /\ gen_demo [$"-o"; $"a.cmake"; $"gone.cmake"] = (nil, nil, Raised AttrErr).
Proof.
  split; [|split; vm_compute; reflexivity].
  do 2 eexists. split; [vm_compute; reflexivity|]. split; [vm_compute; reflexivity|]. split; [vm_compute; reflexivity|].
  split; [discriminate|]. split; [|exact I]. do 2 eexists. split; [vm_compute; reflexivity|]. split; [reflexivity|]. vm_compute. reflexivity.
Qed.
Theorem C167_refuted : exists l, gen_demo [$"a.cmake"] = ($"a.cmake" ++ [cNL], l, Exit 0) /\ stdout_of l = $"python:myfun" ++ [cNL].
Proof. eexists. split; vm_compute; reflexivity. Qed.
Example C167_ex : exists n, parse_args gen_options [$"-fyaml"] = Done (n, nil) /\ text_value $"outfile_path" n = None /\ text_value $"output_format" n = Some $"yaml".
Proof. eexists. vm_compute. repeat split. Qed.
