(** * C160-C163: what a command line of cmake-annotate may do *)
From Verif Require Import Base TextOps Config PropConfig MainLoop PropMain CmdLine PropCmd Entry PropEntry PropLintEntry AnnotEntry.

Lemma annot_names : forallb (fun no => name_ok (fst no)) (table annotate_options) = true.
Proof. vm_compute. reflexivity. Qed.

(** ** C160: cmake-annotate changes no file but its output *)
Lemma one_on e code n out w p : forallb (on_file out) (fst (annotate_one e code n out w p)) = true
  /\ (out = dash -> forallb is_stdout (fst (annotate_one e code n out w p)) = true).
Proof.
  unfold annotate_one. destruct (annotate_config e code n p) as [c|x|]; [|now split|now split].
  destruct (_ && _); [now split|].
  match goal with |- context [match ?x with Ok _ => _ | Err _ => _ | OutOfFuel => _ end] => destruct x as [t|xx|] end;
    try match goal with |- context [match ?x with Ok _ => _ | Err _ => _ | OutOfFuel => _ end] => destruct x as [h|xx|] end;
    cbn [fst]; (split; [destruct (seqb out dash)|intros ->; rewrite seqb_refl]); cbn [app forallb on_file]; rewrite ?seqb_refl; try reflexivity; cbn [andb].
  - induction h as [|a h IH]; [reflexivity|]. exact IH.
  - apply appends_on.
  - apply stdout_map.
Qed.
Lemma files_on e code n out ps : forall w, forallb (on_file out) (fst (annotate_files e code n out w ps)) = true
  /\ (out = dash -> forallb is_stdout (fst (annotate_files e code n out w ps)) = true).
Proof.
  induction ps as [|p ps IH]; intros w; [now split|]. cbn [annotate_files].
  pose proof (one_on e code n out w p) as [A B]. destruct (annotate_one e code n out w p) as [l x]. cbn [fst] in A, B.
  destruct x; [|now split|now split]. specialize (IH (do_steps w l)).
  destruct (annotate_files e code n out (do_steps w l) ps) as [l2 x2]. cbn [fst] in *. destruct IH as [C D].
  split; [now rewrite forallb_app, A, C|]. intros E. now rewrite forallb_app, (B E), (D E).
Qed.
Theorem C160_only_output e code w argv q :
  (forall n ps, parse_args annotate_options argv = Done (n, ps) -> text_value $"outfile_path" n <> Some q) ->
  do_steps w (fst (annotate_main e code w argv)) q = w q.
Proof.
  intros H. unfold annotate_main. destruct (parse_args annotate_options argv) as [[n ps]| |]; [|reflexivity|reflexivity].
  specialize (H _ _ eq_refl). destruct (negb _); [reflexivity|]. cbn zeta. destruct (_ && _); [reflexivity|].
  destruct (text_value $"outfile_path" n) as [out|].
  - apply (other_file out); [apply files_on|congruence].
  - rewrite stdout_only; [reflexivity|]. now apply files_on.
Qed.
Theorem C160_on_request e code w argv q :
  (forall a, In a (front argv) -> startswith $"-o" a = false /\ startswith $"--o" a = false) ->
  do_steps w (fst (annotate_main e code w argv)) q = w q.
Proof.
  intros Hf. apply C160_only_output. intros n ps H.
  assert (U : lookup $"outfile_path" n = lookup $"outfile_path" (initial_ns annotate_options)).
  { apply (untouched annotate_options [$"outfile_path"] [($"-o", $"--outfile-path", $"--o")] argv n ps annot_names ltac:(vm_compute; reflexivity) H); [|now left].
    apply forallb_forall. intros a Ha. destruct (Hf _ Ha) as (A & B). unfold free_of. cbn [forallb]. now rewrite A, B. }
  unfold text_value. rewrite U. discriminate.
Qed.
Example C160_ex : let argv := [$"--outfile"; $"page.html"; $"a.cmake"] in let w := fun p => if seqb p $"a.cmake" then Some ($"foo()", 0) else None in
  let r := annotate_main plain_aenv (fun _ => 0) w argv in
  snd r = Exit 0 /\ do_steps w (fst r) $"page.html" = Some ($"stub:foo()", default_mode) /\ do_steps w (fst r) $"a.cmake" = Some ($"foo()", 0).
Proof. vm_compute. repeat split. Qed.

(** ** C161: -c names a configuration file *)
(** The value of -c is used as a list of paths, one for each character: the run fails
    before anything is written unless there is a loadable configuration file whose path
    is the first character, whatever the file that was named contains. *)
Theorem C161_broken e code w argv n ps load home resolve fuel ch r x :
  (forall l, a_configs e l = get_configdict load home resolve (S fuel) l nil) ->
  parse_args annotate_options argv = Done (n, ps) -> ps <> nil -> text_value $"config_file" n = Some (ch :: r) ->
  load (home [ch]) = Err x ->
  exists y, annotate_main e code w argv = (nil, Raised y).
Proof.
  intros Hc H Hp Ht Hl. unfold annotate_main. rewrite H. destruct (negb _); [now eexists|]. cbn zeta. destruct (_ && _); [now eexists|].
  destruct ps as [|p ps]; [congruence|]. exists x. cbn [annotate_files]. unfold annotate_one, annotate_config, annotate_dict.
  rewrite Ht, Hc. cbn [map get_configdict]. cbn zeta. rewrite Hl. reflexivity.
Qed.
(** the file is there, is a good configuration file and is named by -c *)
Definition only_config (p : str) : str -> res (list str * dict val) := fun q => if seqb q p then Ok (nil, nil) else Err UserError.
Definition config_aenv (p : str) : aenv :=
  AEnv (fun _ => None) (fun l => get_configdict (only_config p) (fun q => q) (fun _ q => q) 100 l nil) (fun _ => Ok nil) (fun _ t => Ok t) (fun _ => true) (fun f _ t => Ok t).
Theorem C161_refuted : let e := config_aenv $"cfg.yaml" in let w := fun _ => Some ($"foo()", 0) in
  a_configs e [$"cfg.yaml"] = Ok nil /\ snd (annotate_main e (fun _ => 0) w [$"a.cmake"]) = Exit 0
  /\ annotate_main e (fun _ => 0) w [$"-c"; $"cfg.yaml"; $"a.cmake"] = (nil, Raised UserError).
Proof. vm_compute. repeat split. Qed.

(** ** C162: inputs and the previous output *)
Theorem C162_inputs_partial e code w argv n ps p : parse_args annotate_options argv = Done (n, ps) -> In p ps ->
  (forall out, text_value $"outfile_path" n = Some out -> ~ In out ps) ->
  do_steps w (fst (annotate_main e code w argv)) p = w p.
Proof.
  intros H Hp Ho. apply C160_only_output. intros n0 ps0 H0. rewrite H in H0. injection H0 as <- <-. intros E. exact (Ho _ E Hp).
Qed.
(** naming the input as output empties it before it is read; the run ends with status 0 *)
Theorem C162_input_refuted : let w := fun p => if seqb p $"a.cmake" then Some ($"foo()", 0) else None in
  let r := annotate_main plain_aenv (fun _ => 0) w [$"-o"; $"a.cmake"; $"a.cmake"] in
  snd r = Exit 0 /\ do_steps w (fst r) $"a.cmake" = Some ($"stub:", 0).
Proof. vm_compute. repeat split. Qed.
(** a run that fails to read or to parse its input has already emptied the output *)
Theorem C162_output_lost e code w argv n out p c : parse_args annotate_options argv = Done (n, [p]) -> text_value $"outfile_path" n = Some out ->
  out <> dash -> p <> dash -> p <> out -> a_can e out = true -> annotate_config e code n p = Ok c ->
  (w p = None \/ exists t m x, w p = Some (t, m) /\ (a_read e c t = Err x \/ exists s, a_read e c t = Ok s /\ a_html e (match text_value $"format" n with Some f => f | None => nil end) c s = Err x)) ->
  exists x, snd (annotate_main e code w argv) = Raised x /\ exists m, do_steps w (fst (annotate_main e code w argv)) out = Some (nil, m).
Proof.
  intros H Ho Hd Hp Hpo Ha Hc Hw. unfold annotate_main. rewrite H, Ho. cbn [List.length Nat.eqb orb negb]. cbn zeta.
  assert (Ep : smem dash [p] = false). { destruct (smem dash [p]) eqn:E; [|reflexivity]. apply smem_In in E as [E|[]]. congruence. }
  rewrite Ep. cbn [andb]. cbn [annotate_files].
  assert (O : exists x, annotate_one e code n out w p = ([STrunc out], Raised x)).
  { apply seqb_neq in Hd, Hp. unfold annotate_one. rewrite Hc, Hd, Ha, Hp. cbn [negb andb].
    rewrite (other_file out p [STrunc out]); [|cbn [forallb on_file]; now rewrite seqb_refl|exact Hpo].
    destruct Hw as [Hw|(t & m & x & Hw & [Hr|(s & Hr & Hh)])]; rewrite Hw; [now eexists|rewrite Hr; now eexists|rewrite Hr, Hh; now eexists]. }
  destruct O as [x O]. rewrite O. exists x. split; [reflexivity|]. cbn [fst]. unfold do_steps. cbn [fold_left do_step]. unfold upd.
  destruct (w out) as [[? m]|]; rewrite ?seqb_refl; eexists; reflexivity.
Qed.
Example C162_ex : let e := AEnv (fun _ => None) (fun _ => Ok nil) (fun _ => Ok nil) (fun _ t => Ok t) (fun _ => true) (fun _ _ _ => Err UserError) in
  let w := fun p => Some ($"old", 7) in
  exists n c, parse_args annotate_options [$"-opage.html"; $"a.cmake"] = Done (n, [$"a.cmake"]) /\ text_value $"outfile_path" n = Some $"page.html"
    /\ annotate_config e (fun _ => 0) n $"a.cmake" = Ok c
    /\ do_steps w (fst (annotate_main e (fun _ => 0) w [$"-opage.html"; $"a.cmake"])) $"page.html" = Some (nil, 7).
Proof. cbn zeta. eexists. eexists. split; [vm_compute; reflexivity|]. split; [vm_compute; reflexivity|]. split; vm_compute; reflexivity. Qed.

(** ** C163: several inputs *)
(** the page of one input under its own configuration *)
Definition page_of (e : aenv) (code : oval -> Z) (n : ns) (f : str) (w : fs) (p h : str) : Prop :=
  exists c t, annotate_config e code n p = Ok c
    /\ (p = dash /\ a_stdin e c = Ok t \/ p <> dash /\ exists s m, w p = Some (s, m) /\ a_read e c s = Ok t)
    /\ a_html e f c t = Ok h.
Lemma one_page e code n f w p l k : text_value $"format" n = Some f ->
  annotate_one e code n dash w p = (l, Exit k) <-> k = 0 /\ exists h, page_of e code n f w p h /\ l = map SStdout h.
Proof.
  intros Hf. unfold annotate_one, page_of. rewrite Hf, seqb_refl. cbn [negb andb app]. change (do_steps w nil p) with (w p).
  destruct (annotate_config e code n p) as [c|x|]; [|split; [discriminate|intros (_ & h & (c & t & E & _) & _); discriminate]..].
  split.
  - intros H.
    match type of H with context [match ?x with Ok _ => _ | Err _ => _ | OutOfFuel => _ end] => destruct x as [t|xx|] eqn:E end; try discriminate.
    destruct (a_html e f c t) as [h|x|] eqn:Eh; try discriminate. injection H as <- <-. split; [reflexivity|]. exists h. split; [|reflexivity].
    exists c, t. split; [reflexivity|]. split; [|exact Eh]. destruct (seqb p dash) eqn:Ep; [left; apply seqb_eq in Ep; auto|right; apply seqb_neq in Ep].
    split; [exact Ep|]. destruct (w p) as [[s m]|]; [eauto|discriminate].
  - intros (-> & h & (c0 & t & Ec & Hin & Hh) & ->). injection Ec as <-.
    destruct Hin as [[-> Hin]|[Hp (s & m & Hw & Hr)]].
    + rewrite seqb_refl, Hin, Hh. reflexivity.
    + apply seqb_neq in Hp. rewrite Hp, Hw, Hr, Hh. reflexivity.
Qed.
Lemma files_pages e code n f w ps : text_value $"format" n = Some f -> forall l,
  annotate_files e code n dash w ps = (l, Exit 0) <-> exists hs, Forall2 (page_of e code n f w) ps hs /\ l = map SStdout (List.concat hs).
Proof.
  intros Hf. induction ps as [|p ps IH]; intros l; cbn [annotate_files].
  { split; [intros E; injection E as <-; exists nil; split; [constructor|reflexivity]|]. intros (hs & H & ->). inversion H. reflexivity. }
  split.
  - destruct (annotate_one e code n dash w p) as [l1 x] eqn:E1. destruct x as [k| |]; try discriminate.
    apply (one_page _ _ _ _ _ _ _ _ Hf) in E1 as (-> & h & Hp & ->). rewrite (stdout_only w _ (stdout_map h)).
    destruct (annotate_files e code n dash w ps) as [l2 x2] eqn:E2. intros E. injection E as <- ->.
    destruct (proj1 (IH l2) eq_refl) as (hs & Hs & ->). exists (h :: hs). split; [now constructor|]. cbn [List.concat]. now rewrite map_app.
  - intros (hs & H & ->). inversion H as [|? h ? hs' Hp Hs]; subst.
    assert (E1 : annotate_one e code n dash w p = (map SStdout h, Exit 0)) by (apply (one_page _ _ _ _ _ _ _ _ Hf); eauto).
    rewrite E1, (stdout_only w _ (stdout_map h)). rewrite (proj2 (IH (map SStdout (List.concat hs')))) by eauto.
    cbn [List.concat]. now rewrite map_app.
Qed.
(** Without -o the run ends with status 0 exactly when every input can be configured,
    read and parsed, and then standard output is the pages in the order of the inputs. *)
Theorem C163_pages e code w argv n ps f l : parse_args annotate_options argv = Done (n, ps) -> text_value $"format" n = Some f ->
  lookup $"outfile_path" n = Some None -> (In dash ps -> ps = [dash]) ->
  annotate_main e code w argv = (l, Exit 0) <-> exists hs, Forall2 (page_of e code n f w) ps hs /\ l = map SStdout (List.concat hs).
Proof.
  intros H Hf Ho Hd. unfold annotate_main. rewrite H. unfold given, text_value. rewrite Ho. cbn [negb]. rewrite Bool.orb_true_r. cbn [negb]. cbn zeta.
  rewrite seqb_refl. cbn [negb]. rewrite Bool.orb_false_r.
  destruct (smem dash ps) eqn:E; [apply smem_In in E; rewrite (Hd E)|]; cbn [List.length Nat.eqb negb andb]; now apply files_pages.
Qed.
(** standard input cannot be mixed with files or with an output file *)
Theorem C163_stdin_alone e code w argv n ps : parse_args annotate_options argv = Done (n, ps) -> In dash ps ->
  ps <> [dash] \/ (exists out, text_value $"outfile_path" n = Some out /\ out <> dash) ->
  annotate_main e code w argv = (nil, Raised AssertionErr).
Proof.
  intros H Hi Hc. unfold annotate_main. rewrite H. destruct (negb _); [reflexivity|]. cbn zeta. pose proof Hi as Hm. apply smem_In in Hm. rewrite Hm. cbn [andb].
  destruct Hc as [Hc|(out & Ho & Hc)].
  - destruct ps as [|p [|q ps]]; [destruct Hi|destruct Hi as [->|[]]; congruence|]. cbn [List.length Nat.eqb negb orb]. reflexivity.
  - rewrite Ho. apply seqb_neq in Hc. rewrite Hc. cbn [negb]. now rewrite Bool.orb_true_r.
Qed.
Example C163_ex : let w := fun p => if seqb p $"a" then Some ($"1", 0) else if seqb p $"b" then Some ($"2", 0) else None in
  exists n, parse_args annotate_options [$"a"; $"b"; $"-f"; $"iframe"] = Done (n, [$"a"; $"b"]) /\ text_value $"format" n = Some $"iframe" /\ lookup $"outfile_path" n = Some None
    /\ annotate_main plain_aenv (fun _ => 0) w [$"a"; $"b"; $"-f"; $"iframe"] = (map SStdout $"iframe:1iframe:2", Exit 0)
    /\ annotate_main plain_aenv (fun _ => 0) w [$"a"; $"-"] = (nil, Raised AssertionErr)
    /\ snd (annotate_main plain_aenv (fun _ => 0) w [$"a"; $"c"]) = Raised OSErr.
Proof. eexists. split; [vm_compute; reflexivity|]. repeat split; vm_compute; reflexivity. Qed.

(** ** The configuration of an input *)
(** names the constructor of a configuration looks at *)
Definition seen (k : str) : Prop := In k (map fst registry) \/ In k all_fields.
Definition alike (a b : dict val) : Prop := NoDup (keys a) /\ NoDup (keys b) /\ forall k, seen k -> lookup k a = lookup k b.
Lemma alike_del k a b : alike a b -> alike (ddel k a) (ddel k b).
Proof.
  intros (A & B & C). split; [now apply nodup_ddel|]. split; [now apply nodup_ddel|]. intros x Hx. rewrite !lookup_ddel by assumption. now rewrite (C _ Hx).
Qed.
Lemma alike_fields fs : forall c a b, (forall f, In f fs -> seen f) -> alike a b ->
  fst (consume_fields fs c a) = fst (consume_fields fs c b) /\ alike (snd (consume_fields fs c a)) (snd (consume_fields fs c b)).
Proof.
  induction fs as [|f fs IH]; intros c a b Hf H; [now split|]. cbn [consume_fields].
  rewrite <- (proj2 (proj2 H) f) by (apply Hf; now left). destruct (lookup f a); apply IH; try (intros; apply Hf; now right); [now apply alike_del|exact H].
Qed.
Lemma alike_subtrees reg : forall c a b, (forall f, In f (map fst reg) -> seen f) -> alike a b ->
  match consume_subtrees reg c a, consume_subtrees reg c b with
  | Ok (c1, a1), Ok (c2, b1) => c1 = c2 /\ alike a1 b1
  | Err x, Err y => x = y
  | OutOfFuel, OutOfFuel => True
  | _, _ => False
  end.
Proof.
  induction reg as [|[n fs] reg IH]; intros c a b Hf H; [now split|]. cbn [consume_subtrees].
  rewrite <- (proj2 (proj2 H) n) by (apply Hf; now left). destruct (lookup n a) as [[z|d]|]; [reflexivity|apply IH|apply IH]; try (intros; apply Hf; now right); [now apply alike_del|exact H].
Qed.
Lemma alike_shim reg : forall c a b, (forall f, In f (flat_map snd reg) -> seen f) -> alike a b -> fst (shim_consume reg c a) = fst (shim_consume reg c b).
Proof.
  induction reg as [|[n fs] reg IH]; intros c a b Hf H; [reflexivity|]. cbn [shim_consume flat_map snd] in *.
  destruct (alike_fields fs c a b) as [A B]; [intros; apply Hf; apply in_or_app; now left|exact H|].
  destruct (consume_fields fs c a) as [c1 a1]. destruct (consume_fields fs c b) as [c2 b1]. cbn [fst snd] in *. subst c2.
  apply IH; [intros; apply Hf; apply in_or_app; now right|exact B].
Qed.
Lemma alike_configuration a b : alike a b -> new_configuration a = new_configuration b.
Proof.
  intros H. unfold new_configuration, legacy_consume.
  assert (R : forall f, In f (map fst registry) -> seen f) by (intros; now left).
  pose proof (alike_subtrees registry nil a b R H) as A.
  destruct (consume_subtrees registry nil a) as [[c1 a1]|x|]; destruct (consume_subtrees registry nil b) as [[c2 b1]|y|]; try contradiction; [|now subst|reflexivity].
  destruct A as [<- A]. cbn [bindr]. pose proof (alike_subtrees registry c1 a1 b1 R A) as B.
  destruct (consume_subtrees registry c1 a1) as [[c3 a2]|x|]; destruct (consume_subtrees registry c1 b1) as [[c4 b2]|y|]; try contradiction; [|now subst|reflexivity].
  destruct B as [<- B]. cbn [bindr]. pose proof (alike_shim registry c3 a2 b2 ltac:(intros; now right) B) as C.
  destruct (shim_consume registry c3 a2), (shim_consume registry c3 b2). cbn [fst bindr] in *. now subst.
Qed.
Lemma annot_keys argv n ps : parse_args annotate_options argv = Done (n, ps) ->
  NoDup (keys n) /\ forall k, In k (keys n) -> In k (map o_dest annotate_options).
Proof.
  intros H. apply parse_args_inv in H as (ts & s & E & Hg & _ & -> & _).
  refine (go_kept annotate_options annot_names (fun s => NoDup (keys (p_ns s)) /\ forall k, In k (keys (p_ns s)) -> In k (map o_dest annotate_options)) _ (fun o => In o annotate_options) _ _ _ _ _ _ Hg _).
  - intros s1 s2 <- _. auto.
  - intros o l s1 s2 Ho E2 [A B]. unfold take_action in E2. apply bindo_done in E2 as (v & _ & E2). destruct (_ && _); [discriminate|].
    assert (G : forall x, NoDup (keys (dset (o_dest o) x (p_ns s1))) /\ forall k, In k (keys (dset (o_dest o) x (p_ns s1))) -> In k (map o_dest annotate_options)).
    { intros x. split; [now apply nodup_dset|]. intros k Hk. apply keys_dset in Hk as [->|Hk]; [now apply in_map|auto]. }
    destruct (o_act o); try discriminate; injection E2 as <-; apply G.
  - eapply (known_good annotate_options); eauto. eapply tags_known; eauto.
  - cbn [p_ns]. vm_compute. split; [|intuition].
    repeat constructor; intros X; repeat destruct X as [X|X]; try discriminate; exact X.
Qed.
(** The options of cmake-annotate change nothing in the configuration: it is the one of
    the configuration files. *)
Lemma config_dict e code argv n ps p d : parse_args annotate_options argv = Done (n, ps) ->
  annotate_dict e n p = Ok d -> NoDup (keys d) -> annotate_config e code n p = new_configuration d.
Proof.
  intros H Hd ND. destruct (annot_keys _ _ _ H) as [Nn Kn]. unfold annotate_config. rewrite Hd. cbn [bindr]. apply alike_configuration.
  assert (Ns : NoDup (keys (settings code n))) by now rewrite keys_settings.
  pose proof (argdict_nodup _ Ns) as Na.
  assert (Nx : NoDup (keys (ddel $"format" (get_argdict (settings code n))))) by now apply nodup_ddel.
  split; [now apply nodup_dupdate|]. split; [exact ND|]. intros k Hk. rewrite dupdate_lookup by exact Nx. rewrite lookup_ddel by exact Na.
  destruct (seqb k $"format") eqn:Ef; [reflexivity|]. rewrite (proj1 (argdict_lookup _ k Ns)).
  destruct (lookup k (settings code n)) as [v|] eqn:El; [|now destruct (_ || _)].
  assert (Hi : In k (keys n)). { rewrite <- (keys_settings code). destruct (in_dec (list_eq_dec N.eq_dec) k (keys (settings code n))) as [Y|Y]; [exact Y|]. apply lookup_none in Y. congruence. }
  apply Kn in Hi. assert (G : existsb (seqb k) (map fst registry ++ all_fields) = true).
  { apply existsb_exists. exists k. split; [|apply seqb_refl]. apply in_or_app. exact Hk. }
  cbn [map o_dest annotate_options In] in Hi.
  repeat destruct Hi as [<-|Hi]; try (exfalso; vm_compute in G; discriminate G); try (vm_compute in Ef; discriminate Ef). destruct Hi.
Qed.
(** Without -c it is the one of the configuration file found for the input. *)
Theorem C163_config e code argv n ps p : parse_args annotate_options argv = Done (n, ps) -> text_value $"config_file" n = None ->
  (forall q d, a_configs e [q] = Ok d -> NoDup (keys d)) ->
  annotate_config e code n p = match a_infer e p with
                               | None => new_configuration nil
                               | Some q => let? d := a_configs e [q] in new_configuration d
                               end.
Proof.
  intros H Hc ND. pose proof (config_dict e code argv n ps p) as G. unfold annotate_dict in G. rewrite Hc in G.
  destruct (a_infer e p) as [q|] eqn:Ei; [|exact (G _ H eq_refl ltac:(constructor))].
  destruct (a_configs e [q]) as [d|x|] eqn:Eq; [exact (G _ H eq_refl (ND _ _ Eq))|..];
    unfold annotate_config, annotate_dict; rewrite Hc, Ei, Eq; reflexivity.
Qed.
Example C163_config_ex : annotate_config (AEnv (fun _ => Some $"cfg") (fun l => if smem $"cfg" l then Ok [($"line_width", VAtom 100)] else Err UserError) (fun _ => Ok nil) (fun _ t => Ok t) (fun _ => true) (fun _ _ t => Ok t))
  (fun _ => 7) [($"format", Some (OS $"page")); ($"outfile_path", None); ($"config_file", None)] $"a" = Ok [($"line_width", VAtom 100)].
Proof. reflexivity. Qed.
