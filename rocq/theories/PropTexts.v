(** * PropTexts: arguments whose text the formatter changes (C34) *)
From Verif Require Import Base Regex Lex TextOps Tree Parse CmdSpec StdSpecs StdDb PropParse PropStd Layout Markup Pipeline PropFile PropOff Reread CommentFree PropReread.

(** The arguments of the output are those of the file, up to letter case. *)
Definition same_texts (src text : str) : Prop :=
  exists toks toks', tokenize src = Ok toks /\ tokenize text = Ok toks'
    /\ map (fun t => lower (spelling t)) (semantics (strip_bom_tok toks'))
       = map (fun t => lower (spelling t)) (semantics (strip_bom_tok toks)).
Definition texts_kept (c : pcfg) (src : str) : Prop :=
  exists text, process_file c src = Ok (text, true) /\ same_texts src text.

Definition texts_of (s : str) : list str :=
  match tokenize s with Ok l => map (fun t => lower (spelling t)) (semantics (strip_bom_tok l)) | _ => nil end.
Definition texts_eqb (a b : list str) : bool := if list_eq_dec (list_eq_dec N.eq_dec) a b then true else false.
Lemma not_texts_kept c src text : process_file c src = Ok (text, true) -> texts_eqb (texts_of text) (texts_of src) = false ->
  ~ texts_kept c src.
Proof.
  intros H Hn (text' & H' & toks & toks' & T1 & T2 & E). rewrite H in H'. injection H' as <-.
  unfold texts_of in Hn. rewrite T1, T2, E in Hn. unfold texts_eqb in Hn. destruct (list_eq_dec _ _ _) as [_|n] in Hn; [discriminate|]. now apply n.
Qed.

(** a string with trailing blanks on one of its lines loses them *)
Definition src_string : str := nl [$"set(x ""one  "; $"two"")"].
Theorem C34_string_blanks_refuted : comment_free match tokenize src_string with Ok l => l | _ => nil end = true
  /\ ~ texts_kept default_pcfg src_string.
Proof. split; [vm_compute; reflexivity|]. eapply not_texts_kept; vm_compute; reflexivity. Qed.

(** with use_tabchars the blanks at the beginning of the lines of a string become tabs *)
Definition src_tabs : str := nl [$"set(x ""one"; $"    two"")"].
Theorem C34_string_tabs_refuted : texts_kept default_pcfg src_tabs /\ ~ texts_kept tabs_pcfg src_tabs.
Proof.
  split.
  - eexists. split; [vm_compute; reflexivity|]. do 2 eexists. split; [vm_compute; reflexivity|]. split; vm_compute; reflexivity.
  - eapply not_texts_kept; vm_compute; reflexivity.
Qed.

(** What remains with use_tabchars: the output is that of a run without it, with the
    blanks at the beginning of each line rewritten (C12 says how). *)
Definition spaced (c : pcfg) : pcfg := PCfg (p_fmt c) (p_markup c) (p_ctx c) (p_auto c) (p_bom c) false (p_tabpol c).
Theorem C34_tabs_are_indentation c src text v : process_file c src = Ok (text, v) <->
  exists text0, process_file (spaced c) src = Ok (text0, v)
    /\ replace_with_tabs (p_usetabs c) (f_tab (p_fmt c)) (p_tabpol c) text0 = Ok text.
Proof.
  unfold process_file. change (p_ctx (spaced c)) with (p_ctx c). destruct (tokenize src) as [toks| |]; cbn [bindr]; [|split; [discriminate|intros (? & [=] & _)]..].
  destruct (parse (p_ctx c) toks) as [tree| |]; cbn [bindr]; [|split; [discriminate|intros (? & [=] & _)]..].
  change (pipe_env (spaced c) src toks) with (pipe_env c src toks). change (effective (spaced c) src) with (effective c src).
  destruct (layout_tree (pipe_env c src toks) tree) as [l| |]; cbn [bindr]; [|split; [discriminate|intros (? & [=] & _)]..].
  destruct (write_tree (effective c src) src l) as [o| |]; cbn [bindr]; [|split; [discriminate|intros (? & [=] & _)]..].
  change (p_bom (spaced c)) with (p_bom c). change (p_usetabs (spaced c)) with false. unfold replace_with_tabs at 2. cbn [negb bindr]. split.
  - intros H. apply bindr_ok in H as (o' & E & H). injection H as <- <-. eauto.
  - intros (t0 & H & E). injection H as <- <-. rewrite E. reflexivity.
Qed.
Example C34_tabs_ex : exists text0 text, process_file (spaced tabs_pcfg) src_tabs = Ok (text0, true)
  /\ process_file tabs_pcfg src_tabs = Ok (text, true) /\ text <> text0.
Proof. do 2 eexists. split; [vm_compute; reflexivity|]. split; [vm_compute; reflexivity|]. vm_compute. discriminate. Qed.
Print Assumptions C34_string_blanks_refuted.
Print Assumptions C34_string_tabs_refuted.
Print Assumptions C34_tabs_are_indentation.
