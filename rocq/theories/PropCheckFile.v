(** C81 for files: formatting in place and then asking [--check]
    (/repo/cmakelang/format/__main__.py:236-334, 388-443), with the formatter of
    Pipeline.v in the place of [fmt]. *)
From Verif Require Import Base Regex Lex LexProofs LexClass PropLex TextOps TextProofs PropText Tree Parse ParseProofs ParseTerm PropParse PropTerm
  CmdSpec StdSpecs StdDb StdWf PropStd StdShape Layout LayoutProofs Pieces Writing LayKids PropLayout Markup MarkupProofs Pipeline PropCase PropFile PropLintChecks
  ParseShape NamesShape WordShape CommentShape TidyShape Reread CommentFree PropReread ParseBlank ParseSame BodySame StdSame PropSame
  LaySame LayBlock Places ParseLines StmtSame IdemCore PropIdem.
From Verif Require Import Config PropConfig MainLoop PropMain.
From Verif Require Import PropCheck.
Import ListNotations.
Open Scope Z_scope.

(** ** C81 *)
(** The files and options of C75: no comments, no format switches, at most one line
    break at the beginning, texts that are read back as they were, unix line endings,
    spaces for indentation, no sorting. *)
Definition plain_source (c : pcfg) (src : str) : Prop :=
  exists specs tbl toks tree, run_cfg c specs tbl /\ table_nb tbl = true /\ p_usetabs c = false /\ p_auto c = false /\ f_endl (p_fmt c) = [cNL]
  /\ markup_calm (p_markup c) /\ f_autosort (p_fmt c) = false /\ case_blind (p_fmt c) /\ plain_passes (p_fmt c)
  /\ tokenize src = Ok toks /\ parse (p_ctx c) toks = Ok tree /\ comment_free toks = true /\ no_switch toks = true /\ steady_file c toks
  /\ forallb settled (strip_bom_tok toks) = true /\ forallb level (semantics (strip_bom_tok toks)) = true
  /\ tags_quiet (p_ctx c) tree /\ loops_full tree = true /\ condok toks /\ starts_low toks.
Lemma plain_again c src text v : plain_source c src -> process_file c src = Ok (text, v) -> exists v', process_file c text = Ok (text, v').
Proof.
  intros (specs & tbl & toks & tree & H0 & H1 & H2 & H3 & H4 & H5 & H6 & H7 & H8 & H9 & H10 & H11 & H12 & H13 & H14 & H15 & H16 & H17 & H18 & H19) E.
  assert (Q : forall s, effective c s = p_fmt c) by (intros s; unfold effective; now rewrite H3).
  eapply (C75_idempotent_partial c specs tbl src text v); eauto; rewrite !Q; auto.
Qed.

(** C81 for a run over any number of such files: [opts] says what the options of a
    configuration mean for the formatter. *)
Theorem C81_check_after_in_place_partial e opts w paths cmdline l x :
  (forall c t, fmt e c t = process_file (opts c) t) -> (forall c t, decodes e c t = true) ->
  NoDup paths -> ~ In dash paths -> (forall p q, In p paths -> In q paths -> q <> temp_of p) ->
  (forall p c, used e (get_argdict cmdline) paths p c -> flag c ($"require_valid_layout") = false
     /\ forall t m, w p = Some (t, m) -> plain_source (opts c) t) ->
  run_main e (Args false true dash) w paths cmdline = (l, x) -> status x = Some 0 ->
  exists l' x', run_main e (Args true false dash) (do_steps w l) paths cmdline = (l', x') /\ l' = nil /\ status x' = Some 0.
Proof.
  intros Hf Hd Hnd Hdash Htmp Hu H Hx. pose proof (C19_check_mode e (Args true false dash) (do_steps w l) paths cmdline eq_refl) as G.
  destruct (run_main e (Args true false dash) (do_steps w l) paths cmdline) as [l' x']. exists l', x'. destruct G as (-> & G & _). split; [reflexivity|]. split; [reflexivity|].
  apply G. eapply (C81_run e (Args false true dash)); eauto. intros p c Hp t m out Hw (v & E & _). split; [apply Hd|].
  destruct (Hu _ _ Hp) as [Hr Hpl]. rewrite Hf in E. destruct (plain_again _ _ _ _ (Hpl _ _ Hw) E) as [v' E']. exists v'. rewrite Hf. split; [exact E'|]. rewrite Hr. discriminate.
Qed.
(** False in general: a file that begins with two empty lines. *)
Definition e_real : MainLoop.env := MainLoop.Env (fun _ => Ok nil) (Ok nil) (fun _ _ => true) (fun _ _ => true) (fun _ t => process_file default_pcfg t).
Definition w_blank : fs := upd (fun _ => None) ($"a") (Some (nl [nil; nil; $"set(a)"], 420)).
Theorem C81_check_after_in_place_refuted : exists e w p l,
  (forall c t, fmt e c t = process_file default_pcfg t) /\ (forall c t, decodes e c t = true) /\ p <> dash
  /\ run_main e (Args false true dash) w [p] nil = (l, Exit 0)
  /\ run_main e (Args true false dash) (do_steps w l) [p] nil = (nil, Exit 1).
Proof.
  exists e_real, w_blank, ($"a"). eexists. split; [reflexivity|]. split; [reflexivity|]. split; [discriminate|]. split; vm_compute; reflexivity.
Qed.
(** Two files of the kind of C75, one of them already formatted. *)
Definition e_flat : MainLoop.env := MainLoop.Env (fun _ => Ok nil) (Ok nil) (fun _ _ => true) (fun _ _ => true) (fun _ t => process_file flat_pcfg t).
Definition w_flat : fs := upd (upd (fun _ => None) ($"a") (Some (src_same, 420))) ($"b") (Some (nl [$"set(a b)"], 384)).
Lemma plain_flat src toks tree : tokenize src = Ok toks -> parse (p_ctx flat_pcfg) toks = Ok tree -> same_src flat_pcfg src = true -> starts_low toks -> plain_source flat_pcfg src.
Proof.
  intros H Hp Hs Hl. destruct (same_srced _ _ _ _ H Hp Hs) as (A & B & C & D & E & F & G). exists user_specs, user_tbl, toks, tree.
  split; [exact flat_run|]. split; [vm_compute; reflexivity|]. do 3 (split; [reflexivity|]). split; [exact default_calm|]. split; [reflexivity|].
  split; [intros s s' Hss; split; [reflexivity|exact Hss]|]. split; [repeat split|]. do 7 (split; [assumption|]). split; [intros k t m s _ _ []|]. repeat split; assumption.
Qed.
Example C81_ex : plain_source flat_pcfg src_same /\ plain_source flat_pcfg (nl [$"set(a b)"])
  /\ exists l, run_main e_flat (Args false true dash) w_flat [$"a"; $"b"] nil = (l, Exit 0) /\ do_steps w_flat l ($"a") <> w_flat ($"a")
  /\ run_main e_flat (Args true false dash) (do_steps w_flat l) [$"a"; $"b"] nil = (nil, Exit 0).
Proof.
  assert (K : forall src, (match tokenize src with Ok toks => match parse (p_ctx flat_pcfg) toks with Ok _ => true | _ => false end | _ => false end = true) ->
      same_src flat_pcfg src = true -> (forall toks, tokenize src = Ok toks -> starts_low toks) -> plain_source flat_pcfg src).
  { intros src H Hs Hl. destruct (tokenize src) as [toks| |] eqn:E; try discriminate. destruct (parse (p_ctx flat_pcfg) toks) as [tree| |] eqn:Ep; try discriminate.
    eapply plain_flat; eauto. }
  split; [apply K; [vm_compute; reflexivity|vm_compute; reflexivity|intros toks H; vm_compute in H; injection H as <-; vm_compute; reflexivity]|].
  split; [apply K; [vm_compute; reflexivity|vm_compute; reflexivity|intros toks H; vm_compute in H; injection H as <-; vm_compute; reflexivity]|].
  eexists. split; [vm_compute; reflexivity|]. split; [|vm_compute; reflexivity]. vm_compute. discriminate.
Qed.

Print Assumptions C81_check_after_in_place_partial.
Print Assumptions C81_check_after_in_place_refuted.
