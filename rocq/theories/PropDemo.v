(** * PropDemo: the demonstration command of the default configuration (C80) *)
From Verif Require Import Base Regex Lex TextOps Tree Parse CmdSpec StdSpecs StdDb PropStd Layout Markup Pipeline PropSpec.

(** ADDITIONAL_COMMANDS_DEMO, configuration.py 180-189: the default value of
    [additional_commands] *)
Definition demo_command : list (str * uspec) :=
  [($"foo", USpec UNone [$"BAR"; $"BAZ"]
     [($"HEADERS", UKScalar (NStr $"*")); ($"SOURCES", UKScalar (NStr $"*")); ($"DEPENDS", UKScalar (NStr $"*"))] None None)].
(** ParseConfig, configuration.py 394-403: _update_derived runs once when the section
    object is made (config_util.py 184, before any value is consumed, so with the
    default) and again after every consumption, each time adding to the same
    [fn_spec].  [n] is the number of later updates; it is at least one. *)
Definition config_table (user : list (str * uspec)) (n : nat) : res (list (str * parser)) :=
  user_table (demo_command ++ List.concat (repeat user n)).

Definition declared (user : list (str * uspec)) (name : str) : Prop := In name (map (fun ku => lower (fst ku)) user).

Lemma add_all_app a : forall b acc, add_all (a ++ b) acc = let? x := add_all a acc in add_all b x.
Proof. induction a as [|[k u] a IH]; intros b acc; cbn [app add_all bindr]; auto. destruct (mk_spec k u); cbn [bindr]; auto. Qed.
Lemma cmd_lookup_dset k k' s (l : list (str * cmdspec)) : cmd_lookup k (CmdSpec.dset k' s l) = if seqb k k' then Some s else cmd_lookup k l.
Proof.
  induction l as [|[k1 s1] l IH]; cbn [CmdSpec.dset cmd_lookup]; auto. destruct (seqb k' k1) eqn:E; cbn [cmd_lookup].
  - apply seqb_eq in E. subst k1. destruct (seqb k k'); reflexivity.
  - rewrite IH. destruct (seqb k k1) eqn:E1; auto. destruct (seqb k k') eqn:E2; auto. apply seqb_eq in E1, E2. subst. rewrite seqb_refl in E. discriminate.
Qed.
Lemma add_all_other l : forall acc kw name, add_all l acc = Ok kw -> ~ declared l name -> cmd_lookup name kw = cmd_lookup name acc.
Proof.
  induction l as [|[k u] l IH]; intros acc kw name H Hn; cbn [add_all] in H; [now injection H as <-|]. apply bindr_ok in H as (s & _ & H).
  rewrite (IH _ _ _ H) by (intros X; apply Hn; now right). rewrite cmd_lookup_dset. destruct (seqb name (lower k)) eqn:E; auto. apply seqb_eq in E. exfalso. apply Hn. left. now rewrite E.
Qed.
Lemma declared_repeat user name n : ~ declared user name -> ~ declared (List.concat (repeat user n)) name.
Proof.
  intros H X. apply H. unfold declared in *. apply in_map_iff in X as (y & E & X). apply in_concat in X as (z & Hz & X). apply repeat_spec in Hz. subst z. apply in_map_iff. eauto.
Qed.
Lemma demo_spec : exists s, mk_spec ($"foo") (snd (nth 0 demo_command (nil, USpec UNone nil nil None None))) = Ok s.
Proof. eexists. vm_compute. reflexivity. Qed.

(** C80 is false: whatever the user declares, a function that they call foo and do not
    declare is read with the flags and keywords of the demonstration. *)
Theorem C80_demo_command_refuted ex vt user n tbl : config_table user n = Ok tbl -> ~ declared user ($"foo") ->
  exists cs kw, command_parser (std_ctx ex vt tbl) ($"foo") = PStd cs kw
    /\ cs_pargs cs = [PSpec (NStr $"*") false nil [$"BAR"; $"BAZ"] true None]
    /\ map fst kw = [$"HEADERS"; $"SOURCES"; $"DEPENDS"].
Proof.
  intros H Hn. unfold config_table, user_table in H. apply bindr_ok in H as (kws & Ha & H). injection H as <-. rewrite add_all_app in Ha. apply bindr_ok in Ha as (kw0 & H0 & Ha).
  pose proof (add_all_other _ _ _ _ Ha (declared_repeat _ _ n Hn)) as E. vm_compute in H0. injection H0 as <-.
  unfold command_parser. cbn [db std_ctx]. unfold with_user, get_funtree. rewrite funtree_lookup. change (lower ($"foo")) with ($"foo") in *. rewrite E.
  eexists _, _. split; [vm_compute; reflexivity|]. split; reflexivity.
Qed.
(** Any other command that is not declared is read as the standard table says (an entry _default would
    change the reading of all unknown commands). *)
Theorem C80_other_commands ex vt user n tbl name : config_table user n = Ok tbl -> ~ declared user (lower name) -> ~ declared user ($"_default") -> lower name <> $"foo" ->
  command_parser (std_ctx ex vt tbl) (lower name) = command_parser (std_ctx ex vt nil) (lower name).
Proof.
  intros H Hn Hdf Hf. unfold config_table, user_table in H. apply bindr_ok in H as (kws & Ha & H). injection H as <-. 
  assert (G : forall x, ~ declared user x -> x <> $"foo" -> cmd_lookup x kws = cmd_lookup x nil).
  { clear name Hn Hf. intros x Hn Hf. apply (add_all_other _ _ _ _ Ha). intros X. unfold declared in X. rewrite map_app, in_app_iff in X. destruct X as [X|X]; [|now apply declared_repeat in X].
    cbn in X. destruct X as [X|[]]. apply Hf. symmetry. exact X. }
  unfold command_parser. cbn [db std_ctx]. unfold with_user, get_funtree. rewrite !funtree_lookup, !G; auto. discriminate.
Qed.
(** The layout of such a call changes: HEADERS and SOURCES start lines of their own. *)
Definition cfg_with (t : list (str * parser)) : pcfg :=
  PCfg (p_fmt default_pcfg) (p_markup default_pcfg) (std_ctx (fun _ => false) nil t) false false false UseSpace.
Definition src_foo : str := nl [$"foo(aaaaaaaaaaaaaaaaaaaa HEADERS bbbbbbbbbbbbbbbbbbbbbbbbbbbbbbbbbbbbbb ccccccccccccccccccccccccc SOURCES d)"].
Example C80_ex : exists tbl out1 out2, config_table nil 1 = Ok tbl /\ ~ declared nil ($"foo")
  /\ process_file (cfg_with tbl) src_foo = Ok (out1, true) /\ process_file (cfg_with nil) src_foo = Ok (out2, true) /\ out1 <> out2.
Proof.
  eexists _, _, _. split; [vm_compute; reflexivity|]. split; [intros []|]. split; [vm_compute; reflexivity|]. split; [vm_compute; reflexivity|]. discriminate.
Qed.
