(** * PropAgain: running cmake-lint, cmake-annotate or cmake-genparsers a second time (C168, C169) *)
From Verif Require Import Base TextOps Config Pipeline MainLoop PropMain CmdLine PropCmd Entry PropEntry Lint LintEntry PropLintEntry AnnotEntry PropAnnotEntry Genparsers PropGen GenEntry.

(** A command gives effects and a result; after the first run the second one, started on
    the files the first one left, has the same effects and result and changes no file. *)
Definition same_again {A} (run : fs -> A) (steps : A -> list step) (w : fs) : Prop :=
  let w' := do_steps w (steps (run w)) in
  run w' = run w /\ forall q, do_steps w' (steps (run w')) q = w' q.

(** ** Effects that replace one file *)
Lemma same_path (a b : str) : {a = b} + {a <> b}.
Proof. destruct (seqb a b) eqn:E; [left; now apply seqb_eq|right; now apply seqb_neq]. Defined.
Definition replaces (o : str) (l : list step) : Prop := forallb is_stdout l = true \/ exists t, l = STrunc o :: map (SAppend o) t.
Lemma replaced o t w : do_steps w (STrunc o :: map (SAppend o) t) o = Some (t, match w o with Some (_, m) => m | None => default_mode end).
Proof.
  change (do_steps (do_step w (STrunc o)) (write_text o t) o = Some (t, match w o with Some (_, m) => m | None => default_mode end)).
  erewrite appends_same; [|cbn [do_step]; rewrite upd_same; reflexivity]. reflexivity.
Qed.
Lemma replace_other o l w q : replaces o l -> q <> o -> do_steps w l q = w q.
Proof.
  intros [H|[t ->]] Hq; [now rewrite stdout_only|]. apply (other_file o); [|exact Hq]. cbn [forallb on_file]. rewrite seqb_refl. apply appends_on.
Qed.
Lemma replace_twice o l w q : replaces o l -> do_steps (do_steps w l) l q = do_steps w l q.
Proof.
  intros H. destruct (same_path q o) as [->|Hq]; [|now apply (replace_other o)].
  destruct H as [H|[t ->]]; [now rewrite !stdout_only by exact H|]. rewrite !replaced. reflexivity.
Qed.
Lemma twice {A} (run : fs -> A) (steps : A -> list step) w o :
  replaces o (steps (run w)) -> run (do_steps w (steps (run w))) = run w -> same_again run steps w.
Proof. intros H E. unfold same_again. cbn zeta. rewrite E. split; [reflexivity|]. intros q. now apply (replace_twice o). Qed.

(** ** cmake-lint *)
Lemma lint_loop_ext rd rd' cf plain ps : (forall p, In p ps -> rd p = rd' p) -> forall m o rc, lint_loop rd cf plain ps m o rc = lint_loop rd' cf plain ps m o rc.
Proof.
  induction ps as [|p ps IH]; intros H m o rc; [reflexivity|]. cbn [lint_loop]. rewrite (H p (or_introl eq_refl)).
  destruct (cf p) as [c|x|]; cbn [bindr]; [|reflexivity|reflexivity].
  assert (I : forall m o rc, lint_loop rd cf plain ps m o rc = lint_loop rd' cf plain ps m o rc) by (apply IH; intros q Hq; apply H; now right).
  destruct (rd' p) as [| |s]; [apply I|apply I|]. destruct (lint_file c s (ctx_of p m)) as [y|x|]; cbn [bindr]; [|reflexivity|reflexivity].
  cbn zeta. destruct (_ && _); [reflexivity|]. destruct (_ && _); [reflexivity|]. apply I.
Qed.
Lemma inner_ext rd rd' cf plain ps : (forall p, rd p = rd' p) -> inner_lint rd cf plain ps = inner_lint rd' cf plain ps /\ lint_status rd cf plain ps = lint_status rd' cf plain ps.
Proof.
  intros H. assert (E : inner_lint rd cf plain ps = inner_lint rd' cf plain ps).
  { unfold inner_lint. now rewrite (lint_loop_ext rd rd') by auto. }
  split; [exact E|]. unfold lint_status. now rewrite E.
Qed.
Theorem C168_lint cf dec si can dump w argv : same_again (fun w => lint_main cf dec si can dump w argv) fst w.
Proof.
  destruct (parse_args lint_options argv) as [[n ps]| |] eqn:E.
  2,3: apply (twice _ _ _ dash); unfold lint_main; rewrite E; [now left|reflexivity].
  apply (twice _ _ _ (match text_value $"outfile_path" n with Some p => p | None => dash end)); unfold lint_main; rewrite E; cbn zeta;
  set (out := match text_value $"outfile_path" n with Some p => p | None => dash end).
  - destruct (given _ _); [destruct (dump n) as [t|x|]; left; [apply stdout_map|reflexivity|reflexivity]|]. destruct (_ && _); [now left|].
    destruct (seqb out dash). { left. cbn [fst]. destruct (inner_lint _ _ _ _) as [[t k]|x|]; [apply stdout_map|reflexivity|reflexivity]. }
    destruct (negb _); [now left|]. right. cbn [fst]. destruct (inner_lint _ _ _ _) as [[t k]|x|]; [now exists t|exists nil; reflexivity|exists nil; reflexivity].
  - destruct (given _ _); [destruct (dump n); reflexivity|]. destruct (_ && _); [reflexivity|].
    destruct (seqb out dash).
    { cbn [fst]. rewrite stdout_only; [reflexivity|]. destruct (inner_lint _ _ _ _) as [[t k]|x|]; [apply stdout_map|reflexivity|reflexivity]. }
    destruct (negb _); [reflexivity|]. cbn [fst].
    set (l := match inner_lint (lint_reads (dec n) si (do_step w (STrunc out))) (cf n) (turned_on $"suppress_decorations" n) ps with Ok (t, _) => map (SAppend out) t | _ => nil end).
    assert (R : replaces out (STrunc out :: l)).
    { right. unfold l. destruct (inner_lint _ _ _ _) as [[t k]|x|]; [now exists t|exists nil; reflexivity|exists nil; reflexivity]. }
    assert (X : forall p, lint_reads (dec n) si (do_step (do_steps w (STrunc out :: l)) (STrunc out)) p = lint_reads (dec n) si (do_step w (STrunc out)) p).
    { intros p. unfold lint_reads. destruct (seqb p dash); [reflexivity|]. cbn [do_step]. destruct (same_path p out) as [->|Hp].
      - rewrite !upd_same. reflexivity.
      - rewrite !upd_other by exact Hp. now rewrite (replace_other out _ w p R Hp). }
    destruct (inner_ext _ _ (cf n) (turned_on $"suppress_decorations" n) ps X) as [X1 X2]. rewrite X1, X2. reflexivity.
Qed.

(** ** cmake-annotate *)
Lemma annot_one_shape e code n out w p : (out = dash -> forallb is_stdout (fst (annotate_one e code n out w p)) = true) /\ replaces out (fst (annotate_one e code n out w p)).
Proof.
  split; [apply one_on|]. unfold annotate_one. destruct (annotate_config e code n p) as [c|x|]; [|now left|now left].
  destruct (seqb out dash); cbn [negb andb app]; [|destruct (a_can e out); cbn [negb]; [|now left]]; cbn zeta.
  - match goal with |- context [match ?x with Ok _ => _ | Err _ => _ | OutOfFuel => _ end] => destruct x as [t|xx|] end; [|now left|now left].
    destruct (a_html _ _ _ _) as [h|xx|]; [left; apply stdout_map|now left|now left].
  - right. match goal with |- context [match ?x with Ok _ => _ | Err _ => _ | OutOfFuel => _ end] => destruct x as [t|xx|] end; [|exists nil; reflexivity|exists nil; reflexivity].
    destruct (a_html _ _ _ _) as [h|xx|]; [exists h; reflexivity|exists nil; reflexivity|exists nil; reflexivity].
Qed.
Lemma annot_one_again e code n out w w' p : out <> dash -> (forall q, q <> out -> w' q = w q) -> annotate_one e code n out w' p = annotate_one e code n out w p.
Proof.
  intros Ho H. unfold annotate_one. destruct (annotate_config e code n p) as [c|x|]; [|reflexivity|reflexivity].
  apply seqb_neq in Ho. rewrite Ho. destruct (_ && _); [reflexivity|]. cbn zeta. destruct (seqb p dash); [reflexivity|].
  unfold do_steps. cbn [fold_left do_step]. destruct (same_path p out) as [->|Hp]; [rewrite !upd_same; reflexivity|]. rewrite !upd_other by exact Hp. now rewrite H.
Qed.
Theorem C168_annotate e code w argv : same_again (fun w => annotate_main e code w argv) fst w.
Proof.
  destruct (parse_args annotate_options argv) as [[n ps]| |] eqn:E.
  2,3: apply (twice _ _ _ dash); unfold annotate_main; rewrite E; [now left|reflexivity].
  apply (twice _ _ _ (match text_value $"outfile_path" n with Some p => p | None => dash end)); unfold annotate_main; rewrite E; cbn zeta.
  - destruct (negb _) eqn:En; [now left|]. destruct (_ && _); [now left|]. destruct (text_value $"outfile_path" n) as [out|] eqn:Eo.
    2:{ left. now apply files_on. }
    assert (G : given $"outfile_path" n = true). { unfold text_value, given in *. destruct (lookup _ n) as [[]|]; try discriminate; reflexivity. }
    rewrite G in En. cbn [negb orb] in En. rewrite orb_false_r in En. apply negb_false_iff, Nat.eqb_eq in En.
    destruct ps as [|p [|]]; try discriminate. cbn [annotate_files]. pose proof (proj2 (annot_one_shape e code n out w p)) as R.
    destruct (annotate_one e code n out w p) as [l x]. destruct x; cbn [fst] in *; rewrite ?app_nil_r; exact R.
  - destruct (negb _) eqn:En; [reflexivity|]. destruct (_ && _); [reflexivity|]. destruct (text_value $"outfile_path" n) as [out|] eqn:Eo.
    2:{ rewrite stdout_only; [reflexivity|]. now apply files_on. }
    assert (G : given $"outfile_path" n = true). { unfold text_value, given in *. destruct (lookup _ n) as [[]|]; try discriminate; reflexivity. }
    rewrite G in En. cbn [negb orb] in En. rewrite orb_false_r in En. apply negb_false_iff, Nat.eqb_eq in En.
    destruct ps as [|p [|]]; try discriminate. destruct (same_path out dash) as [->|Ho].
    { rewrite stdout_only; [reflexivity|]. now apply files_on. }
    cbn [annotate_files]. rewrite (annot_one_again e code n out w); [reflexivity|exact Ho|].
    intros q Hq. pose proof (proj1 (one_on e code n out w p)) as R. destruct (annotate_one e code n out w p) as [l x].
    destruct x; cbn [fst] in *; rewrite ?app_nil_r; now apply (other_file out).
Qed.

(** ** cmake-genparsers *)
Lemma gen_loop_ext fuel rd rd' ps : (forall p, In p ps -> rd p = rd' p) -> forall b prev out, gen_loop fuel rd ps b prev out = gen_loop fuel rd' ps b prev out.
Proof.
  induction ps as [|p ps IH]; intros H b prev out; [reflexivity|]. cbn [gen_loop]. rewrite (H p (or_introl eq_refl)).
  assert (I : forall b prev out, gen_loop fuel rd ps b prev out = gen_loop fuel rd' ps b prev out) by (apply IH; intros q Hq; apply H; now right).
  destruct (rd' p) as [| |s]; [reflexivity| |].
  - destruct prev as [s|]; [|reflexivity]. destruct (gen_file fuel s); cbn [bindr]; [apply I|reflexivity|reflexivity].
  - destruct (gen_file fuel s); cbn [bindr]; [apply I|reflexivity|reflexivity].
Qed.
Theorem C169_partial fuel dec si can dump w argv :
  (forall n ps o, parse_args gen_options argv = Done (n, ps) -> text_value $"outfile_path" n = Some o -> o = dash \/ ~ In o ps) ->
  same_again (fun w => gen_entry fuel dec si can dump w argv) steps_of w.
Proof.
  intros Hin. destruct (parse_args gen_options argv) as [[n ps]| |] eqn:E.
  2,3: apply (twice _ _ _ dash); unfold gen_entry, steps_of; rewrite E; [now left|reflexivity].
  specialize (fun o => Hin n ps o eq_refl). set (out := match text_value $"outfile_path" n with Some p => p | None => dash end) in *.
  assert (R : replaces out (steps_of (gen_entry fuel dec si can dump w argv))).
  { unfold gen_entry, steps_of. rewrite E. destruct (gen_main _ _ _) as [[[pr d] k]|x|]; [|now left|now left]. cbn zeta. fold out.
    destruct (seqb out dash); cbn [negb andb app].
    - destruct (dump _ _) as [t|x|]; cbn [fst snd]; left; [apply stdout_map|reflexivity|reflexivity].
    - destruct (can out); cbn [negb]; [|now left]. destruct (dump _ _) as [t|x|]; cbn [fst snd]; right; [now exists (t ++ [cNL])|exists nil; reflexivity|exists nil; reflexivity]. }
  apply (twice _ _ _ out R).
  set (w' := do_steps w _). assert (X : forall p, In p ps -> lint_reads dec si w' p = lint_reads dec si w p).
  { intros p Hp. unfold lint_reads. destruct (seqb p dash) eqn:Ep; [reflexivity|]. apply seqb_neq in Ep. unfold w'. rewrite (replace_other out); [reflexivity|exact R|].
    intros ->. unfold out in *. destruct (text_value $"outfile_path" n) as [o|]; [|now apply Ep]. destruct (Hin o eq_refl); auto. }
  unfold gen_entry. rewrite E. unfold gen_main. now rewrite (gen_loop_ext _ _ _ _ X).
Qed.
(** With the output among the inputs the second run reads the result of the first. *)
Theorem C169_refuted : let argv := [$"-o"; $"a.cmake"; $"a.cmake"] in
  let first := gen_demo argv in let w' := do_steps gen_world (steps_of first) in
  let second := gen_entry 5 (fun _ _ => true) CannotOpen (fun _ => true) names_dump w' argv in
  snd first = Exit 0 /\ exists x, second = (nil, nil, Raised x).
Proof. vm_compute. split; [reflexivity|]. eexists. reflexivity. Qed.

(** A report with remarks replaces an old file; the page is written over an old one; the output is
    not among the inputs. *)
Example C168_ex :
  (let w := fun p => if seqb p $"r" then Some ($"foo()", 7) else if seqb p $"a" then Some ($"foo()", 7) else None in
   let run := fun w => lint_main (fun _ _ => Ok default_lcfg) (fun _ _ _ => true) CannotOpen (fun _ => true) (fun _ => Ok nil) w [$"--suppress-decorations"; $"-or"; $"a"; $"gone"] in
   snd (run w) = 1 /\ exists c t, do_steps w (fst (run w)) $"r" = Some (c :: t, 7))
  /\ (let w := fun p => if seqb p $"a" then Some ($"x", 7) else Some ($"old", 8) in
      let run := fun w => annotate_main plain_aenv (fun _ => 0) w [$"-oq"; $"a"] in
      do_steps w (fst (run w)) $"q" = Some ($"stub:x", 8)).
Proof. vm_compute. repeat split. do 2 eexists. reflexivity. Qed.
Example C169_ex : forall n ps o, parse_args gen_options [$"-oq"; $"a.cmake"] = Done (n, ps) -> text_value $"outfile_path" n = Some o -> o = dash \/ ~ In o ps.
Proof.
  intros n ps o H. vm_compute in H. injection H as <- <-. intros H. vm_compute in H. injection H as <-. right. intros [X|[]]. discriminate.
Qed.
