(** * C154-C156: what a command line of cmake-lint may do *)
From Verif Require Import Base TextOps Config PropConfig MainLoop PropMain CmdLine PropCmd Entry PropEntry Lint PropLint LintEntry.

Lemma tool_lint : In lint_options tools.
Proof. unfold tools. right. apply in_eq. Qed.
(** ** C154: what status 0 means *)
(** a file that was scanned and has no unsuppressed finding *)
Definition found_clean (rd : str -> lread) (cf : str -> res lcfg) (p : str) : Prop :=
  exists c s x, cf p = Ok c /\ rd p = Text s /\ lint_file c s ctx0 = Ok x /\ get_lint x = nil.
Lemma loop_zero rd cf plain ps : forall m o rc m' o', NoDup ps -> (forall p, In p ps -> ~ In p (map fst m)) ->
  lint_loop rd cf plain ps m o rc = Ok (m', o', 0) -> rc = 0 /\ forall p, In p ps -> found_clean rd cf p.
Proof.
  induction ps as [|p ps IH]; intros m o rc m' o' Hnd Hm H; [injection H as _ _ ->; split; [reflexivity|intros ? []]|].
  cbn [lint_loop] in H. apply bindr_ok in H as (c & Hc & H). inversion Hnd as [|? ? Hni Hnd']; subst.
  assert (Hm' : forall q, In q ps -> ~ In q (map fst m)) by (intros q Hq; apply Hm; now right).
  destruct (rd p) as [| |s] eqn:Er; [apply IH in H as [H _]; auto; discriminate|apply IH in H as [H _]; auto; discriminate|].
  apply bindr_ok in H as (x & Hx & H). rewrite (ctx_of_new rd cf) in Hx by (apply Hm; now left).
  match type of H with (if ?b then _ else _) = _ => destruct b; [discriminate|] end.
  match type of H with (if ?b then _ else _) = _ => destruct b; [discriminate|] end.
  apply IH in H as [H1 H2]; auto.
  - destruct (get_lint x) eqn:Eg; [|discriminate]. split; [exact H1|]. intros q [<-|Hq]; [|auto]. exists c, s, x. auto.
  - intros q Hq Hi. apply set_ctx_keys in Hi as [->|Hi]; [contradiction|]. eapply Hm'; eauto.
Qed.
Lemma status_zero rd cf plain ps : NoDup ps -> lint_status rd cf plain ps = 0 -> forall p, In p ps -> found_clean rd cf p.
Proof.
  intros Hnd H. unfold lint_status in H. destruct (inner_lint rd cf plain ps) as [[o rc]|x|] eqn:E; [subst rc|destruct x; discriminate|discriminate].
  unfold inner_lint in E. destruct (_ && _); [discriminate|]. apply bindr_ok in E as ([[m' o'] rc'] & Hl & E). injection E as _ ->.
  apply loop_zero in Hl as [_ Hl]; [exact Hl|exact Hnd|auto].
Qed.
(** An accepted command line that asks for no dump: status 0 means that every path
    was scanned and is clean.  Missing: refused command lines, and words that an option
    takes for itself; for them the statement is false (below). *)
Lemma clean_zero cf dec stdin can_open dump w argv n ps :
  parse_args lint_options argv = Done (n, ps) -> given $"dump_config" n = false -> NoDup ps ->
  snd (lint_main cf dec stdin can_open dump w argv) = 0 ->
  let w' := match text_value $"outfile_path" n with Some out => if seqb out dash then w else do_step w (STrunc out) | None => w end in
  forall p, In p ps -> found_clean (lint_reads (dec n) stdin w') (cf n) p.
Proof.
  intros H Hd Hnd. unfold lint_main. rewrite H, Hd. destruct (_ && _); [discriminate|].
  destruct (text_value $"outfile_path" n) as [out|]; [destruct (seqb out dash)|rewrite seqb_refl]; cbn [snd]; try (intros S; exact (status_zero _ _ _ _ Hnd S)).
  destruct (negb (can_open out)); [discriminate|]. intros S. exact (status_zero _ _ _ _ Hnd S).
Qed.
Definition on_file (p : str) (s : step) : bool := match s with STrunc q | SAppend q _ => seqb p q | SStdout _ => true | _ => false end.
Lemma other_file p q l : forall w : fs, forallb (on_file p) l = true -> q <> p -> do_steps w l q = w q.
Proof.
  unfold do_steps. induction l as [|s l IH]; intros w H Hq; [reflexivity|]. cbn [forallb fold_left] in *. apply andb_prop in H as [A B].
  rewrite (IH _ B Hq). apply seqb_neq in Hq. destruct s; try discriminate; cbn [on_file] in A; try (apply seqb_eq in A; subst);
    cbn [do_step]; unfold upd; try (destruct (w p0) as [[]|]); try rewrite Hq; reflexivity.
Qed.
(** every scanned file was there, was decoded as a whole and has no unsuppressed finding;
    the report itself is scanned empty *)
Theorem C154_clean_partial cf dec stdin can_open dump w argv n ps :
  parse_args lint_options argv = Done (n, ps) -> given $"dump_config" n = false -> NoDup ps ->
  snd (lint_main cf dec stdin can_open dump w argv) = 0 ->
  forall p, In p ps -> exists c t x, cf n p = Ok c /\ lint_file c t ctx0 = Ok x /\ get_lint x = nil
    /\ if seqb p dash then stdin = Text t
       else dec n p t = true /\ (text_value $"outfile_path" n <> Some p -> exists m, w p = Some (t, m)) /\ (text_value $"outfile_path" n = Some p -> t = nil).
Proof.
  intros H Hd Hnd S p Hp. pose proof (clean_zero _ _ _ _ _ _ _ _ _ H Hd Hnd S p Hp) as (c & t & x & Hc & Hr & Hx & Hg).
  exists c, t, x. split; [exact Hc|]. split; [exact Hx|]. split; [exact Hg|]. unfold lint_reads in Hr. destruct (seqb p dash) eqn:Ep; [exact Hr|].
  assert (R : forall u : fs, match u p with Some (t, _) => if dec n p t then Text t else CannotDecode | None => CannotOpen end = Text t -> dec n p t = true /\ exists m, u p = Some (t, m)).
  { intros u E. destruct (u p) as [[s m]|]; [|discriminate]. destruct (dec n p s) eqn:Ed; [|discriminate]. injection E as <-. eauto. }
  destruct (text_value $"outfile_path" n) as [out|]; [|destruct (R _ Hr) as [A B]; split; [exact A|split; [auto|discriminate]]].
  destruct (seqb out dash) eqn:Eo.
  - destruct (R _ Hr) as [A B]. split; [exact A|]. split; [auto|]. intros E. injection E as ->. congruence.
  - destruct (R _ Hr) as [A [m B]]. split; [exact A|]. split.
    + intros Hn. exists m. rewrite <- B. symmetry. apply (other_file out p [STrunc out] w); [cbn [forallb on_file]; now rewrite seqb_refl|congruence].
    + intros E. injection E as ->. cbn [do_step] in B. unfold upd in B. rewrite seqb_refl in B. congruence.
Qed.
(** Every misspelt option makes cmake-lint end with status 0, whatever the files hold. *)
Theorem C154_usage_refuted cf dec stdin can_open dump w pre a post : smem dashes pre = false -> stray lint_options a = true ->
  lint_main cf dec stdin can_open dump w (pre ++ a :: post) = (nil, 0).
Proof.
  intros Hd Ha. unfold lint_main. pose proof (C148_reported _ _ _ post tool_lint Hd Ha) as R.
  destruct (parse_args lint_options (pre ++ a :: post)) as [r| |]; [now destruct (R r)|reflexivity|reflexivity].
Qed.
(** a file with a finding *)
Definition one_file (p t : str) : fs := fun q => if seqb q p then Some (t, 420) else None.
Definition dirty_text : str := $"foo()  " ++ [cNL].
Theorem C154_refuted : ~ (forall cf dec stdin can_open dump w argv p, In p argv -> p = $"a.cmake" ->
  (exists c, cf (initial_ns lint_options) p = Ok c) ->
  snd (lint_main cf dec stdin can_open dump w argv) = 0 -> found_clean (lint_reads (dec (initial_ns lint_options)) stdin w) (cf (initial_ns lint_options)) p).
Proof.
  intros H. destruct (H (fun _ _ => Ok default_lcfg) (fun _ _ _ => true) CannotOpen (fun _ => true) (fun _ => Ok nil) (one_file $"a.cmake" dirty_text)
    [$"--line-widht=100"; $"a.cmake"] $"a.cmake") as (c & s & x & Hc & Hr & Hx & Hg); [right; now left|reflexivity|eauto|vm_compute; reflexivity|].
  injection Hc as <-. vm_compute in Hr. injection Hr as <-. vm_compute in Hx. injection Hx as <-. vm_compute in Hg. discriminate.
Qed.
(** the same without the misspelt option ends with status 1, and with an option that
    takes the path for its value with status 0 again *)
Theorem C154_swallowed_refuted : let run := lint_main (fun _ _ => Ok default_lcfg) (fun _ _ _ => true) CannotOpen (fun _ => true) (fun _ => Ok nil) (one_file $"a.cmake" dirty_text) in
  snd (run [$"a.cmake"]) = 1 /\ snd (run [$"--disabled-codes"; $"C0301"; $"a.cmake"]) = 0 /\ snd (run [$"--dangle-parens"; $"a.cmake"]) = 0.
Proof. cbn zeta. split; [vm_compute; reflexivity|]. split; vm_compute; reflexivity. Qed.

(** ** C155: cmake-lint changes no file but its report *)
Lemma appends_on p t : forallb (on_file p) (map (SAppend p) t) = true.
Proof. induction t as [|c t IH]; [reflexivity|]. cbn [map forallb on_file]. rewrite seqb_refl. exact IH. Qed.
Theorem C155_only_report cf dec stdin can_open dump w argv q :
  (forall n ps, parse_args lint_options argv = Done (n, ps) -> text_value $"outfile_path" n <> Some q) ->
  do_steps w (fst (lint_main cf dec stdin can_open dump w argv)) q = w q.
Proof.
  intros H. unfold lint_main. destruct (parse_args lint_options argv) as [[n ps]| |]; [|reflexivity|reflexivity].
  specialize (H _ _ eq_refl). destruct (given _ n); [destruct (dump n); [|reflexivity|reflexivity]; cbn [fst]; now rewrite (stdout_only w _ (stdout_map _))|].
  destruct (_ && _); [reflexivity|].
  destruct (text_value $"outfile_path" n) as [out|].
  - destruct (seqb out dash); cbn [fst].
    + match goal with |- context [match ?x with Ok _ => _ | Err _ => _ | OutOfFuel => _ end] => destruct x as [[t rc]| |] end; [|reflexivity|reflexivity].
      now rewrite (stdout_only w _ (stdout_map t)).
    + destruct (negb _); [reflexivity|]. cbn [fst]. apply (other_file out); [|congruence]. cbn [forallb on_file]. rewrite seqb_refl. cbn [andb].
      match goal with |- context [match ?x with Ok _ => _ | Err _ => _ | OutOfFuel => _ end] => destruct x as [[t rc]| |] end; [|reflexivity|reflexivity].
      apply appends_on.
  - rewrite seqb_refl. cbn [fst].
    match goal with |- context [match ?x with Ok _ => _ | Err _ => _ | OutOfFuel => _ end] => destruct x as [[t rc]| |] end; [|reflexivity|reflexivity].
    now rewrite (stdout_only w _ (stdout_map t)).
Qed.
Theorem C155_on_request cf dec stdin can_open dump w argv q :
  (forall a, In a (front argv) -> startswith $"-o" a = false /\ startswith $"--outf" a = false) ->
  do_steps w (fst (lint_main cf dec stdin can_open dump w argv)) q = w q.
Proof.
  intros Hf. apply C155_only_report. intros n ps H.
  assert (U : lookup $"outfile_path" n = lookup $"outfile_path" (initial_ns lint_options)).
  { apply (untouched lint_options [$"outfile_path"] [($"-o", $"--outfile-path", $"--outf")] argv n ps (tool_names _ tool_lint) ltac:(vm_compute; reflexivity) H); [|now left].
    apply forallb_forall. intros a Ha. destruct (Hf _ Ha) as (A & B). unfold free_of. cbn [forallb]. now rewrite A, B. }
  unfold text_value. rewrite U. discriminate.
Qed.
Example C155_ex : let argv := [$"-oreport"; $"a.cmake"] in let w := one_file $"a.cmake" dirty_text in
  let l := fst (lint_main (fun _ _ => Ok default_lcfg) (fun _ _ _ => true) CannotOpen (fun _ => true) (fun _ => Ok nil) w argv) in
  do_steps w l $"report" <> None /\ exists n ps, parse_args lint_options argv = Done (n, ps) /\ text_value $"outfile_path" n = Some $"report".
Proof. cbn zeta. split; [vm_compute; discriminate|]. eexists. eexists. split; vm_compute; reflexivity. Qed.

(** ** C156: cmake-lint and the files it scans *)
Theorem C156_scanned_partial cf dec stdin can_open dump w argv n ps p : parse_args lint_options argv = Done (n, ps) -> In p ps ->
  (forall out, text_value $"outfile_path" n = Some out -> ~ In out ps) ->
  do_steps w (fst (lint_main cf dec stdin can_open dump w argv)) p = w p.
Proof.
  intros H Hp Ho. apply C155_only_report. intros n0 ps0 H0. rewrite H in H0. injection H0 as <- <-. intros E. exact (Ho _ E Hp).
Qed.
Theorem C156_refuted : ~ (forall cf dec stdin can_open dump w argv n ps p, parse_args lint_options argv = Done (n, ps) -> In p ps ->
  do_steps w (fst (lint_main cf dec stdin can_open dump w argv)) p = w p).
Proof.
  intros H. specialize (H (fun _ _ => Ok default_lcfg) (fun _ _ _ => true) CannotOpen (fun _ => true) (fun _ => Ok nil) (one_file $"a.cmake" dirty_text)
    [$"-o"; $"a.cmake"; $"a.cmake"] _ [$"a.cmake"] $"a.cmake" ltac:(vm_compute; reflexivity) ltac:(now left)).
  vm_compute in H. discriminate.
Qed.
Example C154_ex : let argv := [$"--suppress-decorations"; $"a.cmake"] in
  (exists n, parse_args lint_options argv = Done (n, [$"a.cmake"]) /\ given $"dump_config" n = false /\ text_value $"outfile_path" n = None)
  /\ snd (lint_main (fun _ _ => Ok default_lcfg) (fun _ _ _ => true) CannotOpen (fun _ => true) (fun _ => Ok nil) (one_file $"a.cmake" ($"foo()" ++ [cNL])) argv) = 0
  /\ stray lint_options $"--line-widht=100" = true.
Proof. cbn zeta. split; [eexists; split; [vm_compute; reflexivity|split; vm_compute; reflexivity]|]. split; vm_compute; reflexivity. Qed.
