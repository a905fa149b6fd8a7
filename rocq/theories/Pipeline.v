(** * Pipeline: model of process_file (cmakelang/format/__main__.py 134-176) *)
From Verif Require Import Base Regex Lex TextOps Tree Parse CmdSpec StdSpecs StdDb PropStd Layout Markup.

(** The configuration read by process_file.  [p_auto]: format.line_ending is
    'auto'; otherwise [f_endl] is the configured ending. *)
Record pcfg := PCfg {
  p_fmt : fcfg; p_markup : mcfg; p_ctx : pctx; p_auto : bool; p_bom : bool;
  p_usetabs : bool; p_tabpol : tab_policy }.

(** FormattingConfig.set_line_ending, configuration.py 352-356 *)
Definition eol_str (e : eol) : str := match e with Windows => [cCR; cNL] | Unix => [cNL] end.
Definition set_endl (c : fcfg) (s : str) : fcfg :=
  FCfg (f_linewidth c) (f_tab c) (f_max_subgroups c) (f_max_pargs c) (f_max_rows_cmdline c)
       (f_max_lines c) (f_min_prefix c) (f_max_prefix c) (f_sep_ctrl c) (f_sep_fn c) (f_dangle c)
       (f_dangle_align c) (f_autosort c) (f_keyword_case c) (f_command_case c) (f_spelling c)
       (f_always_wrap c) (f_passes c) s.
(** __main__.py 139-143 *)
Definition effective (c : pcfg) (src : str) : fcfg :=
  if p_auto c then set_endl (p_fmt c) (eol_str (detect_line_endings src)) else p_fmt c.

(** get_first_non_whitespace_token, lex/__init__.py 250-257 *)
Definition first_token (toks : list token) : option token :=
  find (fun t => negb (is_tt WHITESPACE t || is_tt NEWLINE t)) toks.

(** the comment formatter that layout_tree gets through the stack context,
    formatter.py 1765-1780 *)
Definition pipe_env (c : pcfg) (src : str) (toks : list token) : env :=
  Env (effective c src) (format_comment (p_markup c) (first_token toks)).

(** process_file without [dump], 144-176: the text and [reflow_valid] *)
Definition process_file (c : pcfg) (src : str) : res (str * bool) :=
  let? toks := tokenize src in
  let? tree := parse (p_ctx c) toks in
  let? l := layout_tree (pipe_env c src toks) tree in
  let? o := write_tree (effective c src) src l in
  let? o' := replace_with_tabs (p_usetabs c) (f_tab (p_fmt c)) (p_tabpol c)
               (if p_bom c then cBOM :: o else o) in
  Ok (o', lvalid l).

(** the defaults of configuration.py 197-345 *)
Definition default_fcfg : fcfg :=
  FCfg 80 2 2 6 2 2 4 10 false false false $"prefix" false $"unchanged"
       (fun _ => $"canonical") lower nil nil [cNL].
Definition default_pcfg : pcfg :=
  PCfg default_fcfg default_mcfg the_ctx false false false UseSpace.
Definition nl (l : list str) : str := List.concat (map (fun s => s ++ [cNL]) l).

Example demo_out : process_file default_pcfg
  (nl [$"IF(A)"; $"  set( x  1 2 ) # why"; $"ENDIF ()"])
  = Ok (nl [$"if(A)"; $"  set(x 1 2) # why"; $"endif()"], true).
Proof. vm_compute. reflexivity. Qed.
