(** * PropReport: cmake-lint reports on every file without one of five faults (C104) *)
From Verif Require Import Base Regex Lex LexProofs LexClass PropLex TextOps TextProofs Tree Parse ParseProofs
  CmdSpec StdSpecs StdDb StdWf PropParse PropStd Layout LayoutProofs Pieces ParseShape StdShape Markup Pipeline LintDb Lint PropLint PropLintText LintTree
  PropLintChecks PropLintDefs PropLintCrash LintShape.

(** ** What remains to be asked of the file *)
(** The faults of a node, in terms of the parse tree: a block left open, "set" or
    "list" without a variable, a loop over ${ARGN}. *)
Definition faultless (n : pnode) : Prop :=
  match n with
  | N KFlow cs => closed cs
  | N (KStatement _) _ =>
      (funname n = $"set" -> leading n <> nil) /\
      (funname n = $"list" -> (2 <= List.length (leading n))%nat) /\
      (In (funname n) [$"foreach"; $"while"] ->
         forall t, In t (sem (argtree n)) -> spelling t <> $"${ARGN}")
  | _ => True
  end.

Lemma inlines_tokens m ex cs : Forall isT cs -> exists ls, comment_inlines m ex cs = Ok ls.
Proof.
  induction 1 as [|[t|k ks] cs Ht H IH]; cbn [comment_inlines]; [eauto| |destruct Ht].
  destruct IH as (ls & ->). cbn [bindr]. eauto.
Qed.
Lemma V_fine c n : (forall m, In m (kids n) -> locn m) -> locn n -> full n -> faultless n -> fine c n.
Proof.
  intros Hk [Hl _] Hb Hf. destruct n as [t|k cs]; [exact I|]. destruct k; cbn [fine] in *; try exact I; try exact Hf.
  - exact Hb.
  - now apply inlines_tokens.
  - destruct Hl as [Hl _]. split; [exact Hf|exact Hl].
  - intros ks Hin. destruct (Hk _ Hin) as [(t & r & -> & Ht) _]. unfold flats. cbn. rewrite Ht. discriminate.
  - destruct Hl as (p & -> & Hr). exists p. unfold rd in Hr. change (min_npargs (ps_nargs p)) with (get_min_npargs (ps_nargs p)).
    destruct (get_min_npargs (ps_nargs p)); try discriminate. eauto.
Qed.
Lemma subtrees_kids tree : forall n m, In n (subtrees tree) -> In m (kids n) -> In m (subtrees tree).
Proof.
  induction tree as [t|k' cs' IH] using pnode_ind'; intros n m Hn Hm.
  - destruct Hn as [<-|[]]. destruct Hm.
  - cbn [subtrees] in *. destruct Hn as [<-|Hn].
    + right. apply in_flat_map. exists m. split; [exact Hm|apply subtrees_self].
    + right. apply in_flat_map in Hn as (a & Ha & Hn). apply in_flat_map. exists a. split; [exact Ha|].
      rewrite Forall_forall in IH. eapply IH; eauto.
Qed.
Lemma subtrees_parent tree : forall m, In m (subtrees tree) -> m = tree \/ exists n, In n (subtrees tree) /\ In m (kids n).
Proof.
  induction tree as [t|k cs IH] using pnode_ind'; intros m Hm.
  - destruct Hm as [<-|[]]. now left.
  - cbn [subtrees] in *. destruct Hm as [<-|Hm]; [now left|]. right.
    apply in_flat_map in Hm as (a & Ha & Hm). rewrite Forall_forall in IH.
    destruct (IH a Ha m Hm) as [->|(n & Hn & Hk)].
    + exists (N k cs). split; [now left|exact Ha].
    + exists n. split; [|exact Hk]. right. apply in_flat_map. eauto.
Qed.

(** C104: with the shipped commands, and additional commands whose counts can be read,
    cmake-lint reports on every file that has a token and parses, unless a reference
    is left dangling, a block is left open, "set" or "list" lacks its variable, or a
    loop runs over ${ARGN}. *)
Theorem C104_report : forall c ex vt specs tbl src toks tree x,
  lc_ctx c = std_ctx ex vt tbl -> user_table specs = Ok tbl -> table_counts tbl = true ->
  lc_ending c <> None -> Forall (writable (lc_disabled c)) (lc_plint c toks) ->
  tokenize src = Ok toks -> parse (lc_ctx c) toks = Ok tree -> flat tree <> nil ->
  (forall t, In t toks -> ~ dangling t) ->
  (forall n, In n (subtrees tree) -> faultless n) ->
  exists y, lint_file c src x = Ok y.
Proof.
  intros c ex vt specs tbl src toks tree x Hc Hu Hk He Hpl Ht Hp Hne Hd Hf.
  assert (HV : Vb tree) by (rewrite Hc in Hp; eapply file_V; eauto).
  eapply C60_report_partial; eauto. intros n Hn. apply V_fine; auto.
  - intros m Hm. apply HV. eapply subtrees_kids; eauto.
  - destruct n as [t|k cs]; [exact I|]. destruct k; try exact I. cbn [full].
    destruct (subtrees_parent _ _ Hn) as [E|(p & Hpn & Hkid)].
    + subst tree. exact Hne.
    + destruct p as [|k ks]; [destruct Hkid|]. cbn [kids] in Hkid. destruct (HV _ Hpn) as [A [->|B]].
      * destruct A as [_ A]. specialize (A (Hf _ Hpn)). rewrite Forall_forall in A. exact (A _ Hkid).
      * rewrite Forall_forall in B. destruct (B _ Hkid).
Qed.

(** The hypotheses hold of the file of C60. *)
Example C104_report_ex : exists toks tree,
  lc_ctx default_lcfg = std_ctx no_explicit nil nil /\ user_table nil = Ok nil /\ table_counts nil = true /\
  lc_ending default_lcfg <> None /\ Forall (writable (lc_disabled default_lcfg)) (lc_plint default_lcfg toks) /\
  tokenize sound_file = Ok toks /\ parse (lc_ctx default_lcfg) toks = Ok tree /\ flat tree <> nil /\
  (forall t, In t toks -> ~ dangling t) /\ (forall n, In n (subtrees tree) -> faultless n).
Proof.
  destruct C60_report_partial_ex as (toks & tree & H1 & H2 & H3 & H4). exists toks, tree.
  split; [reflexivity|]. split; [reflexivity|]. split; [reflexivity|]. split; [discriminate|]. split; [constructor|].
  split; [exact H1|]. split; [exact H2|]. split.
  { specialize (H4 tree (subtrees_self tree)). unfold parse in H2. apply bindr_ok in H2 as ([a r] & _ & H2). injection H2 as <-. exact H4. }
  split; [exact H3|].
  intros n Hn. specialize (H4 n Hn). destruct n as [|k cs]; [exact I|]. destruct k; try exact I; try exact H4. apply H4.
Qed.

(** ** None of the conditions can be dropped *)
(** [empty_file], [list_short], [open_block] and [open_reference] (PropLintCrash.v) crash; so do: *)
(** a byte-order mark and nothing else *)
Example mark_only : crashes [cBOM] IndexErr. Proof. crash. Qed.
(** "set" with a comment only *)
Example set_short : crashes ($"set(# c" ++ [cNL] ++ $")") AttrErr. Proof. crash. Qed.
(** an additional command whose count cannot be read *)
Definition odd_specs : list (str * uspec) := [($"foo", USpec (UScalar (NStr $"3x")) nil nil None None)].
Definition with_table (tbl : list (str * parser)) (c : lcfg) : lcfg :=
  LCfg (lc_width c) (lc_ending c) (lc_usetabs c) (lc_tabpol c) (lc_tab c) (lc_disabled c) (lc_min_sp c) (lc_max_sp c) (lc_max_cond c)
    (lc_max_returns c) (lc_max_branches c) (lc_max_args c) (lc_max_stmts c) (lc_function c) (lc_macro c) (lc_global c) (lc_internal c)
    (lc_local c) (lc_private c) (lc_public c) (lc_argument c) (lc_re c) (lc_markup c) (std_ctx no_explicit nil tbl)
    (lc_cnode c) (lc_cond c) (lc_stackmsg c) (lc_plint c).
Example odd_count : exists tbl, user_table odd_specs = Ok tbl /\ table_counts tbl = false /\
  lint_file (with_table tbl default_lcfg) $"foo(a)" ctx0 = Err ValueErr.
Proof. eexists. split; [vm_compute; reflexivity|]. split; vm_compute; reflexivity. Qed.
(** a loop over ${ARGN} with a condition that is the loop variable alone (the only
    condition on such loops that makes the checks fail; C104 leaves out all of them) *)
Definition with_cond (f : pnode -> bool) (c : lcfg) : lcfg :=
  LCfg (lc_width c) (lc_ending c) (lc_usetabs c) (lc_tabpol c) (lc_tab c) (lc_disabled c) (lc_min_sp c) (lc_max_sp c) (lc_max_cond c)
    (lc_max_returns c) (lc_max_branches c) (lc_max_args c) (lc_max_stmts c) (lc_function c) (lc_macro c) (lc_global c) (lc_internal c)
    (lc_local c) (lc_private c) (lc_public c) (lc_argument c) (lc_re c) (lc_markup c) (lc_ctx c)
    (lc_cnode c) f (lc_stackmsg c) (lc_plint c).
Example argn_loop : lint_file (with_cond (fun n => match n with N (KArgGroup _) _ => true | _ => false end) default_lcfg)
  (nl [$"function(foo)"; $"  foreach(a ${ARGN})"; $"    if(a)"; $"    endif()"; $"  endforeach()"; $"endfunction()"]) ctx0 = Err IndexErr.
Proof. vm_compute. reflexivity. Qed.
