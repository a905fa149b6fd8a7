(** C103: formatting in place and then asking [--check]
    (/repo/cmakelang/format/__main__.py:236-334, 388-443) for files with comments on
    lines of their own: C81 with the files of C101 and C102. *)
From Verif Require Import Base Regex Lex LexProofs LexClass PropLex TextOps TextProofs PropText Tree Parse ParseProofs ParseTerm PropParse PropTerm
  CmdSpec StdSpecs StdDb StdWf PropStd StdShape Layout LayoutProofs Pieces Writing LayKids PropLayout Markup MarkupProofs Pipeline PropCase PropFile PropLintChecks
  ParseShape NamesShape WordShape CommentShape TidyShape Reread CommentFree PropReread ParseBlank ParseSame BodySame StdSame PropSame
  LaySame LayBlock Places ParseLines StmtSame IdemCore PropIdem.
From Verif Require Import Config PropConfig MainLoop PropMain PropCheck PropCheckFile.
From Verif Require Import Places2 ParseLines2 LayBlock2 IdemCore2 PropIdem2.
Import ListNotations.
Open Scope Z_scope.

(** ** C103 *)
(** The options of C101 and C102. *)
Definition noted_cfg (c : pcfg) : Prop :=
  exists specs tbl, run_cfg c specs tbl /\ table_nb tbl = true /\ p_usetabs c = false /\ p_auto c = false /\ f_endl (p_fmt c) = [cNL]
  /\ markup_calm (p_markup c) /\ f_autosort (p_fmt c) = false /\ case_blind (p_fmt c) /\ plain_passes2 (p_fmt c).
(** A file of C101, when comments are kept as they are, or one of C102, when they are
    reformatted. *)
Definition noted_source (c : pcfg) (src : str) : Prop :=
  noted_cfg c
  /\ (mk_enable (p_markup c) = false /\ settled_source c (kept_ok (p_ctx c)) src
      \/ mk_first_literal (p_markup c) = false /\ exists toks, tokenize src = Ok toks /\ settled_source c (redone c c src toks) src).
Lemma noted_again c src text v : noted_source c src -> process_file c src = Ok (text, v) -> exists v', process_file c text = Ok (text, v').
Proof.
  intros [(specs & tbl & H0 & H1 & H2 & H3 & H4 & H5 & H6 & H7 & H8) H] E.
  assert (Q : forall s, effective c s = p_fmt c) by (intros s; unfold effective; now rewrite H3).
  destruct H as [[A B]|[A (toks & Hl & B)]].
  - eapply (C101_idempotent c specs tbl src text v); eauto; rewrite !Q; auto.
  - eapply (C102_idempotent c specs tbl src text v toks); eauto; rewrite !Q; auto.
Qed.
Theorem C103_check_after_in_place e opts w paths cmdline l x :
  (forall c t, fmt e c t = process_file (opts c) t) -> (forall c t, decodes e c t = true) ->
  NoDup paths -> ~ In dash paths -> (forall p q, In p paths -> In q paths -> q <> temp_of p) ->
  (forall p c, used e (get_argdict cmdline) paths p c -> flag c ($"require_valid_layout") = false
     /\ forall t m, w p = Some (t, m) -> noted_source (opts c) t) ->
  run_main e (Args false true dash) w paths cmdline = (l, x) -> status x = Some 0 ->
  exists l' x', run_main e (Args true false dash) (do_steps w l) paths cmdline = (l', x') /\ l' = nil /\ status x' = Some 0.
Proof.
  intros Hf Hd Hnd Hdash Htmp Hu H Hx. pose proof (C19_check_mode e (Args true false dash) (do_steps w l) paths cmdline eq_refl) as G.
  destruct (run_main e (Args true false dash) (do_steps w l) paths cmdline) as [l' x']. exists l', x'. destruct G as (-> & G & _). split; [reflexivity|]. split; [reflexivity|].
  apply G. eapply (C81_run e (Args false true dash)); eauto. intros p c Hp t m out Hw (v & E & _). split; [apply Hd|].
  destruct (Hu _ _ Hp) as [Hr Hpl]. rewrite Hf in E. destruct (noted_again _ _ _ _ (Hpl _ _ Hw) E) as [v' E']. exists v'. rewrite Hf. split; [exact E'|]. rewrite Hr. discriminate.
Qed.
(** Where [--check] succeeds, a run in place writes nothing. *)
Lemma passes_in_place e a w : check a = false -> in_place a = true -> forall ps kw, check_passes e w kw ps -> run_files e a w ps kw 0 = (nil, Exit 0).
Proof.
  intros Hc Hi ps kw H. induction H as [kw|kw kw' c p ps HC Hd H IH|kw kw' c t p ps HC Hd HR HF H IH]; [reflexivity| |]; cbn [run_files].
  - destruct HC as (d & c0 & A & B & D). unfold onefile. rewrite A, B, D, Hd. cbn [do_steps fold_left]. now rewrite IH.
  - rewrite (C20_in_place_unchanged e a w p kw c kw' t Hc Hi HC HR HF). cbn [do_steps fold_left]. now rewrite IH.
Qed.
(** So the same command run a second time touches no file. *)
Theorem C103_in_place_again e opts w paths cmdline l x :
  (forall c t, fmt e c t = process_file (opts c) t) -> (forall c t, decodes e c t = true) ->
  NoDup paths -> ~ In dash paths -> (forall p q, In p paths -> In q paths -> q <> temp_of p) ->
  (forall p c, used e (get_argdict cmdline) paths p c -> flag c ($"require_valid_layout") = false
     /\ forall t m, w p = Some (t, m) -> noted_source (opts c) t) ->
  run_main e (Args false true dash) w paths cmdline = (l, x) -> status x = Some 0 ->
  run_main e (Args false true dash) (do_steps w l) paths cmdline = (nil, Exit 0).
Proof.
  intros Hf Hd Hnd Hdash Htmp Hu H Hx. destruct (C103_check_after_in_place e opts w paths cmdline l x Hf Hd Hnd Hdash Htmp Hu H Hx) as (l' & x' & Hr & -> & Hs).
  apply passes_in_place; [reflexivity|reflexivity|].
  pose proof (C19_check_mode e (Args true false dash) (do_steps w l) paths cmdline eq_refl) as G. rewrite Hr in G. destruct G as (_ & G & _). now apply G.
Qed.
(** Two files with comments, the first changed by the run. *)
Definition w_notes : fs := upd (upd (fun _ => None) ($"a") (Some (src_notes, 420))) ($"b") (Some (nl [$"# set"; $"set(a b)"], 384)).
Lemma noted_flat src : notes_src flat_pcfg (redone flat_pcfg flat_pcfg src) src = true -> noted_source flat_pcfg src.
Proof.
  intros H. split.
  - exists user_specs, user_tbl. split; [exact flat_run|]. split; [vm_compute; reflexivity|]. do 3 (split; [reflexivity|]). split; [exact default_calm|].
    split; [reflexivity|]. split; [intros s s' Hss; split; [reflexivity|exact Hss]|]. repeat split.
  - right. split; [reflexivity|]. exact (notes_srced flat_pcfg _ _ (redone flat_pcfg flat_pcfg src) src flat_run user_quiet H).
Qed.
Lemma noted_still src : notes_src still_pcfg (fun _ => kept_ok (p_ctx still_pcfg)) src = true -> noted_source still_pcfg src.
Proof.
  intros H. split.
  - exists user_specs, user_tbl. split; [exact still_run|]. split; [vm_compute; reflexivity|]. do 3 (split; [reflexivity|]). split; [exact default_calm|].
    split; [reflexivity|]. split; [intros s s' Hss; split; [reflexivity|exact Hss]|]. repeat split.
  - left. split; [reflexivity|]. destruct (notes_srced still_pcfg _ _ (fun _ => kept_ok (p_ctx still_pcfg)) src still_run user_quiet H) as (toks & _ & Hs). exact Hs.
Qed.
Example C103_ex : noted_source flat_pcfg src_notes /\ noted_source flat_pcfg (nl [$"# set"; $"set(a b)"]) /\ noted_source still_pcfg src_notes
  /\ exists l, run_main e_flat (Args false true dash) w_notes [$"a"; $"b"] nil = (l, Exit 0) /\ do_steps w_notes l ($"a") <> w_notes ($"a")
  /\ run_main e_flat (Args true false dash) (do_steps w_notes l) [$"a"; $"b"] nil = (nil, Exit 0)
  /\ run_main e_flat (Args false true dash) (do_steps w_notes l) [$"a"; $"b"] nil = (nil, Exit 0).
Proof.
  split; [apply noted_flat; vm_compute; reflexivity|]. split; [apply noted_flat; vm_compute; reflexivity|]. split; [apply noted_still; vm_compute; reflexivity|].
  eexists. split; [vm_compute; reflexivity|]. split; [vm_compute; discriminate|]. split; vm_compute; reflexivity.
Qed.
Print Assumptions C103_check_after_in_place.
Print Assumptions C103_in_place_again.
