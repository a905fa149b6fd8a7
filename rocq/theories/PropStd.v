(** * PropStd: parsing with the shipped table and any user commands (C05, C06, C07) *)
From Coq Require Import Permutation.
From Verif Require Import Base Regex Lex LexProofs LexClass PropLex Tree Parse ParseProofs PropParse
  ParseTerm PropTerm CmdSpec StdSpecs StdDb StdWf.

(** ** What the lexer guarantees to the parser *)
Lemma scanned_no_bom pv s ts : scanned pv s ts -> forall l c o, no_bom (locate l c o ts).
Proof.
  unfold no_bom. induction 1 as [|pv s0 t sp s' ts r y HF HI ? ? ? ? ? ? IH]; intros l c o; simpl; constructor; auto.
  simpl. intros ->. unfold lexicon, lexicon1 in HI. cbn [app] in HI.
  repeat (destruct HI as [HI|HI]; [discriminate|]). destruct HI.
Qed.
Lemma tokenize_strip s toks : tokenize s = Ok toks ->
  no_bom (tl toks) /\ no_bom (strip_bom_tok toks)
  /\ List.concat (map spelling (strip_bom_tok toks)) = strip_bom s
  /\ (toks = strip_bom_tok toks \/ toks = bom_token :: strip_bom_tok toks).
Proof.
  intros H. destruct (tokenize_eq s) as (ts & E & Hsc & Hcc & _). rewrite H in E. injection E as ->.
  pose proof (scanned_no_bom _ _ _ Hsc 1 0 0) as Hb.
  assert (Hl : List.concat (map spelling (locate 1 0 0 ts)) = strip_bom s) by now rewrite locate_concat.
  assert (Hn : strip_bom_tok (locate 1 0 0 ts) = locate 1 0 0 ts).
  { destruct (locate 1 0 0 ts) as [|t r]; auto. simpl. inversion Hb as [|? ? Ht _]; subst.
    destruct (is_tt BYTEORDER_MARK t) eqn:Et; auto. unfold is_tt in Et. now apply ttype_eqb_eq in Et. }
  assert (Ht : no_bom (tl (locate 1 0 0 ts))) by (destruct Hb; simpl; [constructor|assumption]).
  unfold bom_prefix. destruct s as [|c s]; [cbn [app]; rewrite Hn; auto|].
  destruct (N.eqb c cBOM) eqn:Ec; [|cbn [app]; rewrite Hn; auto].
  cbn [app tl]. change (strip_bom_tok (bom_token :: locate 1 0 0 ts)) with (locate 1 0 0 ts). auto.
Qed.

(** ** The shipped table *)
Section Std.
  Variables (ex : str -> bool) (vt : list ((str -> bool) * list str))
            (specs : list (str * uspec)) (tbl : list (str * parser)).
  Hypothesis Htbl : user_table specs = Ok tbl.

  Lemma spec_table_wf allow k p : In (k, p) spec_table -> wfp allow true p.
  Proof.
    unfold spec_table. intros H. destruct (user_table _) eqn:E in H; [eapply user_wf; eauto|destruct H|destruct H].
  Qed.
  Lemma flow_table_wf allow k p : In (k, p) flow_table -> wfp allow true p.
  Proof.
    intros H. unfold flow_table in H. rewrite !in_app_iff in H. destruct H as [H|[H|H]];
      apply in_map_iff in H as (x & E & _); injection E as <- <-; first [apply wf_cond|apply std_wf; constructor].
  Qed.
  (** the command is one of the user's, or not one of the three with pair lists *)
  Definition plain_command (name : str) : Prop :=
    kw_lookup name tbl <> None \/ ~ In name tuple_commands.
  Lemma lookup_same k m p : kw_lookup k m = Some p -> In (k, p) m.
  Proof.
    induction m as [|[k' p'] m IH]; simpl; [discriminate|].
    destruct (seqb k k') eqn:E; intros H; [|auto].
    injection H as ->. apply seqb_eq in E. subst. auto.
  Qed.
  Lemma kw_lookup_app k a b : kw_lookup k (a ++ b) =
    match kw_lookup k a with Some p => Some p | None => kw_lookup k b end.
  Proof. induction a as [|[k' p'] a IH]; simpl; auto. destruct (seqb k k'); auto. Qed.
  Lemma std_db_wf allow name p : db (std_ctx ex vt tbl) name = Some p ->
    (allow = false -> plain_command name) -> wfp allow true p.
  Proof.
    simpl. unfold with_user. intros H Ha.
    destruct (kw_lookup name tbl) as [q|] eqn:E.
    - injection H as <-. apply lookup_same in E. eapply user_wf; eauto.
    - unfold std_table in H. rewrite kw_lookup_app in H.
      destruct (kw_lookup name spec_table) eqn:E1.
      { injection H as <-. eapply spec_table_wf, lookup_same; eauto. }
      rewrite kw_lookup_app in H. destruct (kw_lookup name flow_table) eqn:E2.
      { injection H as <-. eapply flow_table_wf, lookup_same; eauto. }
      apply lookup_same in H. eapply hand_wf; eauto.
      intros Hf. destruct (Ha Hf) as [Hx|Hx]; [congruence|exact Hx].
  Qed.
  Lemma std_wfctx : wfctx true (std_ctx ex vt tbl).
  Proof. intros name p H. eapply std_db_wf; eauto. discriminate. Qed.
  Lemma std_calls toks : Forall (fun t => plain_command (lower (spelling t))) toks ->
    calls_wf false (std_ctx ex vt tbl) toks.
  Proof.
    intros H. apply Forall_impl with (2 := H). intros t Ht. unfold command_parser.
    destruct (db _ (lower (spelling t))) eqn:E; [eapply std_db_wf; eauto|].
    destruct (db _ $"_default") eqn:E2; [|apply default_wf].
    eapply std_db_wf; eauto. intros _. right. vm_compute.
    intros F. repeat (destruct F as [F|F]; [discriminate|]). exact F.
  Qed.

  (** C05 for whole files: every text, every user command table. *)
  Theorem C05_file_lossless : forall src toks tree,
    tokenize src = Ok toks ->
    Forall (fun t => plain_command (lower (spelling t))) toks ->
    parse (std_ctx ex vt tbl) toks = Ok tree ->
    List.concat (map spelling (flat tree)) = strip_bom src.
  Proof.
    intros src toks tree Ht Hp H. destruct (tokenize_strip _ _ Ht) as (H1 & H2 & H3 & H4).
    apply C05_parse_lossless in H; auto; [now rewrite H|].
    apply std_calls. destruct H4 as [H4|H4]; [now rewrite <- H4|].
    rewrite H4 in Hp. now inversion Hp.
  Qed.

  (** C05 when pair lists are used: nothing is lost or duplicated, and the
      arguments keep their order. *)
  Theorem C05_file_tuples_partial : forall src toks tree,
    tokenize src = Ok toks -> no_onoff toks ->
    parse (std_ctx ex vt tbl) toks = Ok tree ->
    Permutation (strip_bom_tok toks) (flat tree)
    /\ semantics (strip_bom_tok toks) = semantics (flat tree).
  Proof.
    intros src toks tree Ht Ho H. destruct (tokenize_strip _ _ Ht) as (H1 & H2 & H3 & H4).
    eapply C05_parse_tuples_partial; eauto. apply std_wfctx.
  Qed.

  (** C07 for whole files. *)
  Theorem C07_file_terminates_partial : forall src toks,
    tokenize src = Ok toks -> condok toks -> parse (std_ctx ex vt tbl) toks <> OutOfFuel.
  Proof. intros src toks _ Hc. apply C07_parse_terminates_partial; auto. apply std_wfctx. Qed.
End Std.

(** ** Examples and refutations on the shipped table *)
Definition no_explicit (s : str) : bool := startswith $"#<" s.
Definition the_ctx : pctx := std_ctx no_explicit nil nil.
Definition src_demo : str :=
  $"# hello" ++ [cNL] ++ $"function(f A) # t" ++ [cNL] ++ $"  add_library(x STATIC a.c #[[b]] b.c)" ++ [cNL]
  ++ $"  if(NOT (A AND B))" ++ [cNL] ++ $"    install(TARGETS x LIBRARY DESTINATION lib)" ++ [cNL]
  ++ $"  endif()" ++ [cNL] ++ $"endfunction()" ++ [cNL].
Lemma plain_check toks : forallb (fun t => negb (smem (lower (spelling t)) tuple_commands)) toks = true ->
  forall t, In t toks -> ~ In (lower (spelling t)) tuple_commands.
Proof.
  intros H t Ht Hin. rewrite forallb_forall in H. apply H in Ht. apply smem_In in Hin. rewrite Hin in Ht. discriminate.
Qed.
Lemma no_onoff_check toks : forallb (fun t => negb (is_onoff t)) toks = true -> no_onoff toks.
Proof.
  intros H. apply Forall_forall. intros t Ht. rewrite forallb_forall in H. apply H in Ht.
  now destruct (is_onoff t).
Qed.
Example C05_file_ex : exists toks tree, tokenize (cBOM :: src_demo) = Ok toks
  /\ Forall (fun t => plain_command nil (lower (spelling t))) toks
  /\ parse the_ctx toks = Ok tree /\ len (flat tree) = 62%nat.
Proof.
  eexists. eexists. split; [vm_compute; reflexivity|]. split.
  - apply Forall_forall. intros t Ht. right. revert t Ht. apply plain_check. vm_compute. reflexivity.
  - split; vm_compute; reflexivity.
Qed.

Definition src_pairs : str := $"set_target_properties(x PROPERTIES a b c d)".
Definition get_ok {A} (d : A) (r : res A) : A := match r with Ok x => x | _ => d end.
Definition toks_pairs : list token := get_ok nil (tokenize src_pairs).
Definition tree_pairs : pnode := get_ok (N KBody nil) (parse the_ctx toks_pairs).
Definition text_of (n : pnode) : str := List.concat (map spelling (flat n)).

(** C05 is false for pair lists: the blank between the two members of a pair is
    moved behind the pair. *)
Theorem C05_parse_lossless_refuted : exists src toks tree,
  tokenize src = Ok toks /\ parse the_ctx toks = Ok tree
  /\ src = $"set_target_properties(x PROPERTIES a b c d)"
  /\ text_of tree = $"set_target_properties(x PROPERTIES ab  cd )".
Proof.
  exists src_pairs, toks_pairs, tree_pairs.
  split; [vm_compute; reflexivity|]. split; [vm_compute; reflexivity|]. split; vm_compute; reflexivity.
Qed.
Example C05_file_tuples_ex : exists toks tree, tokenize src_pairs = Ok toks /\ no_onoff toks
  /\ strip_bom src_pairs = src_pairs /\ parse the_ctx toks = Ok tree /\ flat tree <> toks.
Proof.
  exists toks_pairs, tree_pairs. split; [vm_compute; reflexivity|]. split; [now apply no_onoff_check; vm_compute|].
  split; [vm_compute; reflexivity|]. split; [vm_compute; reflexivity|]. vm_compute. discriminate.
Qed.

(** C06: a sentinel right after a member of a pair makes the parser drop that
    member; the argument [a] occurs in the file but not in the tree. *)
Definition src_drop : str := $"set_target_properties(x PROPERTIES a#cmake-format: off" ++ [cNL] ++ $" b)".
Theorem C06_tuple_keeps_args_refuted : exists toks tree t,
  tokenize src_drop = Ok toks /\ parse the_ctx toks = Ok tree
  /\ In t (semantics toks) /\ spelling t = $"a"
  /\ ~ In (spelling t) (map spelling (flat tree)).
Proof.
  set (toks := get_ok nil (tokenize src_drop)).
  exists toks, (get_ok (N KBody nil) (parse the_ctx toks)), (nth 6 toks bom_token).
  split; [vm_compute; reflexivity|]. split; [vm_compute; reflexivity|].
  split; [vm_compute; tauto|]. split; [vm_compute; reflexivity|].
  vm_compute. intros F. repeat (destruct F as [F|F]; [discriminate|]). exact F.
Qed.
(** C06: and a pair list at end of input is an IndexError. *)
Definition src_eof : str := $"set_target_properties(x PROPERTIES a".
Theorem C06_tuple_end_of_input_refuted : exists toks,
  tokenize src_eof = Ok toks /\ parse the_ctx toks = Err IndexErr.
Proof. eexists. split; vm_compute; reflexivity. Qed.

(** What C06 does give: without sentinels every argument of a pair list is kept,
    in order (for every token list and every setting of the tuple parser). *)
Theorem C06_tuple_keeps_args_partial : forall ctx fuel np ntup flags bs toks a r,
  no_onoff toks ->
  tuple_loop fuel ctx np ntup flags bs 0 0 nil None nil toks = Ok (a, r) ->
  exists used, toks = used ++ r /\ Permutation used (flats a) /\ semantics used = semantics (flats a).
Proof.
  intros ctx fuel np ntup flags bs toks a r Ho H.
  apply tuple_sem in H as (u & -> & HP & HS); auto; [|reflexivity]. exists u. auto.
Qed.
Example C06_ex : exists a r,
  tuple_loop 60 the_ctx (NStr $"+") 2 nil [BParen] 0 0 nil None nil (skipn 6 toks_pairs) = Ok (a, r)
  /\ no_onoff (skipn 6 toks_pairs) /\ len r = 1%nat /\ len (semantics (flats a)) = 4%nat.
Proof.
  eexists. eexists. split; [vm_compute; reflexivity|]. split; [now apply no_onoff_check; vm_compute|].
  split; vm_compute; reflexivity.
Qed.

Example C07_file_ex : exists toks, tokenize src_demo = Ok toks /\ condok toks.
Proof.
  eexists. split; [vm_compute; reflexivity|].
  repeat (constructor; [vm_compute; intros H; try discriminate; reflexivity|]). constructor.
Qed.
(** C07 is false on the shipped table as well. *)
Theorem C07_file_terminates_refuted : exists src toks,
  tokenize src = Ok toks /\ parse the_ctx toks = OutOfFuel.
Proof. exists src_stuck, toks_stuck. split; vm_compute; reflexivity. Qed.

Print Assumptions C05_file_lossless.
Print Assumptions C05_file_tuples_partial.
Print Assumptions C07_file_terminates_partial.
Print Assumptions C05_parse_lossless_refuted.
Print Assumptions C06_tuple_keeps_args_refuted.
Print Assumptions C06_tuple_keeps_args_partial.
