(** * Render: model of render.get_html (cmakelang/render.py 17-46) and of the stub
    output of annotate_file (cmakelang/annotate.py 45-67) *)
From Verif Require Import Base Regex Lex LexProofs Tree Parse CmdSpec StdSpecs StdDb PropParse PropStd Pipeline.

(** TokenType names, lex/__init__.py 20-35 *)
Definition tt_name (t : ttype) : str :=
  match t with
  | QUOTED_LITERAL => $"QUOTED_LITERAL" | LEFT_PAREN => $"LEFT_PAREN" | RIGHT_PAREN => $"RIGHT_PAREN"
  | WORD => $"WORD" | NUMBER => $"NUMBER" | DEREF => $"DEREF" | WHITESPACE => $"WHITESPACE"
  | NEWLINE => $"NEWLINE" | COMMENT => $"COMMENT" | UNQUOTED_LITERAL => $"UNQUOTED_LITERAL"
  | FORMAT_OFF => $"FORMAT_OFF" | FORMAT_ON => $"FORMAT_ON" | BRACKET_ARGUMENT => $"BRACKET_ARGUMENT"
  | BRACKET_COMMENT => $"BRACKET_COMMENT" | BYTEORDER_MARK => $"BYTEORDER_MARK" | ATWORD => $"ATWORD"
  end.
(** NodeType names, parse/common.py 25-48 *)
Definition kind_name (k : kind) : str :=
  match k with
  | KBody => $"BODY" | KWhitespace => $"WHITESPACE" | KComment _ => $"COMMENT"
  | KStatement _ => $"STATEMENT" | KFlow => $"FLOW_CONTROL" | KFunname => $"FUNNAME"
  | KArgGroup _ => $"ARGGROUP" | KKwargGroup => $"KWARGGROUP" | KPargGroup _ _ _ => $"PARGGROUP"
  | KParenGroup => $"PARENGROUP" | KArgument => $"ARGUMENT" | KKeyword => $"KEYWORD" | KFlag => $"FLAG"
  | KOnOff => $"ONOFFSWITCH" | KAtStmt => $"ATWORDSTATEMENT" | KAtWord => $"ATWORD"
  | KLParen => $"LPAREN" | KRParen => $"RPAREN"
  end.
Definition open_tag (n : str) : str := $"<span class=" ++ [cDQ] ++ $"cmf-" ++ n ++ [cDQ] ++ $">".
Definition close_tag : str := $"</span>".
(** dump_html, render.py 17-31 *)
Fixpoint dump_html (n : pnode) : str :=
  match n with
  | N k cs => open_tag (kind_name k) ++ flat_map dump_html cs ++ close_tag
  | T t => open_tag (tt_name (tt t)) ++ spelling t ++ close_tag
  end.
(** annotate_file with format "stub", annotate.py 45-67 *)
Definition annotate (ctx : pctx) (src : str) : res str :=
  let? toks := tokenize src in
  let? tree := parse ctx toks in
  Ok (dump_html tree).

(** ** Specification *)
(** [marked s t]: the html text [s] is balanced and its text, with the tags taken
    out, is [t]. *)
Inductive marked : str -> str -> Prop :=
| mk_text t : marked t t
| mk_span n s t : ~ In cDQ n -> marked s t -> marked (open_tag n ++ s ++ close_tag) t
| mk_cat s1 s2 t1 t2 : marked s1 t1 -> marked s2 t2 -> marked (s1 ++ s2) (t1 ++ t2).
(** what a browser shows as text, when tags are everything from [<] to [>] *)
Definition cLT : chr := 60%N.
Definition cGT : chr := 62%N.
Fixpoint shown (intag : bool) (s : str) : str :=
  match s with
  | nil => nil
  | c :: s' => if intag then shown (negb (N.eqb c cGT)) s'
               else if N.eqb c cLT then shown true s' else c :: shown false s'
  end.

Lemma shown_text s r : ~ In cLT s -> shown false (s ++ r) = s ++ shown false r.
Proof.
  induction s as [|c s IH]; intros H; [reflexivity|].
  cbn [app shown]. destruct (N.eqb_spec c cLT); [subst; exfalso; apply H; left; auto|].
  rewrite IH; auto. intros X; apply H; right; auto.
Qed.
Lemma shown_skip s r : ~ In cGT s -> shown true (s ++ cGT :: r) = shown false r.
Proof.
  induction s as [|c s IH]; intros H; cbn [app shown].
  - reflexivity.
  - destruct (N.eqb_spec c cGT); [subst; exfalso; apply H; left; auto|].
    cbn [negb]. apply IH. intros X; apply H; right; auto.
Qed.
Lemma shown_open n r : ~ In cGT n -> shown false (open_tag n ++ r) = shown false r.
Proof.
  intros H. unfold open_tag.
  replace (($"<span class=" ++ [cDQ] ++ $"cmf-" ++ n ++ [cDQ] ++ $">") ++ r)
    with (cLT :: ($"span class=" ++ [cDQ] ++ $"cmf-" ++ n ++ [cDQ]) ++ cGT :: r)
    by (cbn; rewrite <- !app_assoc; reflexivity).
  cbn [shown]. rewrite N.eqb_refl. apply shown_skip.
  rewrite !in_app_iff. intros X. repeat destruct X as [X|X]; auto; cbn in X; intuition discriminate.
Qed.
Lemma shown_close r : shown false (close_tag ++ r) = shown false r.
Proof. reflexivity. Qed.
Lemma names_ok : (forall k, ~ In cGT (kind_name k) /\ ~ In cDQ (kind_name k))
  /\ (forall t, ~ In cGT (tt_name t) /\ ~ In cDQ (tt_name t)).
Proof.
  assert (Q : forall a s, existsb (N.eqb a) s = false -> ~ In a s).
  { intros a s H X. assert (Y : existsb (N.eqb a) s = true); [|congruence].
    apply existsb_exists. exists a. split; auto. apply N.eqb_refl. }
  split; [intros k; destruct k|intros t; destruct t]; split; apply Q; reflexivity.
Qed.

Lemma dump_shown n : Forall (fun t => ~ In cLT (spelling t)) (flat n) ->
  forall r, shown false (dump_html n ++ r) = List.concat (map spelling (flat n)) ++ shown false r.
Proof.
  destruct names_ok as [Nk Nt].
  induction n as [t|k cs IH] using pnode_ind'; intros H r; cbn [dump_html flat] in *.
  - apply Forall_inv in H. rewrite <- !app_assoc, shown_open by apply Nt.
    rewrite shown_text by auto. rewrite shown_close. cbn [map List.concat]. now rewrite app_nil_r.
  - rewrite <- !app_assoc, shown_open by apply Nk.
    assert (Q : forall r, shown false (flat_map dump_html cs ++ r)
      = List.concat (map spelling (flat_map flat cs)) ++ shown false r).
    { clear r. induction cs as [|c cs IHc]; intros r; [reflexivity|].
      cbn [flat_map]. rewrite map_app, concat_app, <- !app_assoc.
      cbn [flat_map] in H. apply Forall_app in H. destruct H as [H1 H2].
      rewrite (Forall_inv IH) by auto. rewrite IHc; auto. now apply Forall_inv_tail in IH. }
    rewrite Q. f_equal.
Qed.
Lemma dump_marked n : marked (dump_html n) (List.concat (map spelling (flat n))).
Proof.
  destruct names_ok as [Nk Nt].
  induction n as [t|k cs IH] using pnode_ind'; cbn [dump_html flat].
  - cbn [map List.concat]. rewrite app_nil_r. apply mk_span; [apply Nt|apply mk_text].
  - apply mk_span; [apply Nk|].
    induction cs as [|c cs IHc]; [apply mk_text|].
    cbn [flat_map]. rewrite map_app, concat_app. apply mk_cat; [apply (Forall_inv IH)|].
    apply IHc. now apply Forall_inv_tail in IH.
Qed.

(** ** Theorems *)
(** C48: the tags are balanced and the text between them is the source, for every
    source and every user command table (a byte-order mark is dropped).
    The pair-list commands reorder tokens, see C05. *)
Theorem C48_balanced ex vt specs tbl src toks html :
  user_table specs = Ok tbl -> tokenize src = Ok toks ->
  Forall (fun t => plain_command tbl (lower (spelling t))) toks ->
  annotate (std_ctx ex vt tbl) src = Ok html ->
  marked html (strip_bom src).
Proof.
  intros Hu Ht Hp H. unfold annotate in H. rewrite Ht in H. cbn [bindr] in H.
  destruct (parse (std_ctx ex vt tbl) toks) as [tree| |] eqn:E; try discriminate.
  injection H as <-.
  rewrite <- (C05_file_lossless ex vt specs tbl Hu src toks tree Ht Hp E). apply dump_marked.
Qed.
(** C48 for what is shown: a source without a less-than sign is shown unchanged *)
Theorem C48_shown ex vt specs tbl src toks html :
  user_table specs = Ok tbl -> tokenize src = Ok toks ->
  Forall (fun t => plain_command tbl (lower (spelling t))) toks ->
  ~ In cLT src ->
  annotate (std_ctx ex vt tbl) src = Ok html ->
  shown false html = strip_bom src.
Proof.
  intros Hu Ht Hp Hl H. unfold annotate in H. rewrite Ht in H. cbn [bindr] in H.
  destruct (parse (std_ctx ex vt tbl) toks) as [tree| |] eqn:E; try discriminate.
  injection H as <-.
  pose proof (C05_file_lossless ex vt specs tbl Hu src toks tree Ht Hp E) as F.
  rewrite <- (app_nil_r (dump_html tree)), dump_shown.
  - cbn [shown]. rewrite app_nil_r. exact F.
  - apply Forall_forall. intros t Hin X. apply Hl.
    assert (Y : In cLT (strip_bom src)).
    { rewrite <- F. apply in_concat. exists (spelling t). split; auto. now apply in_map. }
    unfold strip_bom in Y. destruct src as [|c s]; auto. destruct (N.eqb c cBOM); auto. now right.
Qed.
Definition src_html : str := nl [$"set(a b) # x"].
Example C48_ex : exists toks html, annotate the_ctx src_html = Ok html
  /\ tokenize src_html = Ok toks
  /\ Forall (fun t => plain_command nil (lower (spelling t))) toks
  /\ ~ In cLT src_html /\ List.length html = 717%nat /\ shown false html = src_html.
Proof.
  eexists. eexists. split; [vm_compute; reflexivity|]. split; [vm_compute; reflexivity|].
  split; [apply Forall_forall; intros t Ht; right; revert t Ht; apply plain_check; vm_compute; reflexivity|].
  split; [intros X; vm_compute in X; intuition discriminate|].
  split; vm_compute; reflexivity.
Qed.

(** C48 and C49 are false for sources with a less-than sign: nothing is escaped,
    so markup in the source is markup in the output and is not shown. *)
Definition src_script : str := nl [$"set(a <script>)"].
Theorem C49_escape_refuted : exists src html,
  annotate the_ctx src = Ok html
  /\ shown false html <> strip_bom src
  /\ exists a b, html = a ++ $"<script>" ++ b.
Proof.
  exists src_script. eexists. split; [vm_compute; reflexivity|].
  split; [vm_compute; discriminate|].
  match goal with |- exists a b, ?h = _ => set (H := h) end.
  exists (firstn 440 H), (skipn 448 H). vm_compute. reflexivity.
Qed.
(** C48 is false for pair lists: the shown text is not the source *)
Theorem C48_pairs_refuted : exists src html,
  annotate the_ctx src = Ok html /\ ~ In cLT src /\ strip_bom src = src
  /\ src = $"set_target_properties(x PROPERTIES a b c d)"
  /\ shown false html = $"set_target_properties(x PROPERTIES ab  cd )".
Proof.
  exists src_pairs. eexists. split; [vm_compute; reflexivity|].
  split; [intros X; vm_compute in X; intuition discriminate|].
  split; [reflexivity|]. split; vm_compute; reflexivity.
Qed.
Print Assumptions C48_balanced.
Print Assumptions C48_shown.
Print Assumptions C49_escape_refuted.
