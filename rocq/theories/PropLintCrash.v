(** * PropLintCrash: when cmake-lint ends with a report (C60) *)
From Coq Require Import Permutation.
From Verif Require Import Base Regex Lex TextOps TextProofs Tree Parse CmdSpec StdSpecs StdDb PropStd
  Layout SortProofs Markup Pipeline LintDb Lint PropLint PropLintText LintTree PropLintChecks PropLintDefs.

(** ** Refuted: a file that parses is always reported on *)
(** [src] parses under the standard database, but the checks end in exception [e] *)
Definition crashes (src : str) (e : err) : Prop :=
  (exists toks tree, tokenize src = Ok toks /\ parse the_ctx toks = Ok tree) /\
  lint_file default_lcfg src ctx0 = Err e.
Ltac crash := split; [eexists; eexists; split; vm_compute; reflexivity | vm_compute; reflexivity].

(** the empty file *)
Example empty_file : crashes nil IndexErr. Proof. crash. Qed.
(** "list" without a variable *)
Example list_short : crashes $"list(APPEND)" IndexErr. Proof. crash. Qed.
(** a block left open around an assignment *)
Example open_block : crashes ($"if(A)" ++ [cNL] ++ $"set(B 1)" ++ [cNL]) AttrErr. Proof. crash. Qed.
(** a dollar sign in front of an unclosed reference *)
Example open_reference : crashes $"set(B ""$foo ${CMAKE_BINARY_DIR"")" AttrErr. Proof. crash. Qed.

Theorem C60_report_refuted :
  ~ forall src toks tree, tokenize src = Ok toks -> parse the_ctx toks = Ok tree ->
      exists x, lint_file default_lcfg src ctx0 = Ok x.
Proof.
  intros H. destruct list_short as ((toks & tree & Ht & Hp) & E).
  destruct (H _ _ _ Ht Hp) as (x & Hx). rewrite E in Hx. discriminate.
Qed.

(** ** What is enough for a report *)
(** a literal that opens a reference to a variable of cmake and does not close it *)
Definition dangling (t : token) : Prop :=
  exists r y, mock_varrefs $"foo" (spelling t) = Ok r /\ rsearch missing_suffix None r = Some y /\
    is_builtin (cap y) = true.
(** the leading words of the first group of positional arguments *)
Definition leading (n : pnode) : list token :=
  match filter (fun m => match m with N (KPargGroup _ _ _) _ => true | _ => false end) (kids (argtree n)) with
  | g :: _ => sem g
  | nil => nil
  end.
(** A block is closed: statement, body, statement, body, ..., statement. *)
Definition closed (cs : list pnode) : Prop := (3 <= List.length cs)%nat /\ Nat.odd (List.length cs) = true.
Definition fine (c : lcfg) (n : pnode) : Prop :=
  match n with
  | T _ => True
  | N k cs =>
      match k with
      | KBody => flats cs <> nil
      | KFlow => closed cs /\ match cs with s :: _ => (3 <= List.length (sem s))%nat | nil => True end
      | KStatement _ =>
          (funname n = $"set" -> leading n <> nil) /\
          (funname n = $"list" -> (2 <= List.length (leading n))%nat) /\
          (In (funname n) [$"foreach"; $"while"] ->
             forall t, In t (sem (argtree n)) -> spelling t <> $"${ARGN}")
      | KArgGroup _ => forall ks, In (N KKwargGroup ks) cs -> filter is_semantic (flats ks) <> nil
      | KPargGroup _ _ sp => exists p z, sp = Some p /\ min_npargs (ps_nargs p) = Ok z
      | KComment ex => exists ls, comment_inlines (lc_markup c) ex cs = Ok ls
      | _ => True
      end
  end.

(** ** Requests that can be written *)
Definition sound (q : req) : Prop :=
  exists tpl m, assoc_s (q_id q) lint_db = Some tpl /\ fmt None tpl (q_args q) = Ok m.
Definition sounds (qs : list req) : Prop := Forall sound qs.
Lemma sounds_nil : sounds nil. Proof. constructor. Qed.
Lemma sounds_one q : sound q -> sounds [q]. Proof. repeat constructor. assumption. Qed.
Lemma sounds_cons q qs : sound q -> sounds qs -> sounds (q :: qs). Proof. now constructor. Qed.
Lemma sounds_app a b : sounds a -> sounds b -> sounds (a ++ b).
Proof. intros A B. apply Forall_app. now split. Qed.
Lemma sounds_if (b : bool) x y : sounds x -> sounds y -> sounds (if b then x else y).
Proof. now destruct b. Qed.
Lemma sounds_flat_map {A} (f : A -> list req) l : (forall x, sounds (f x)) -> sounds (flat_map f l).
Proof. intros H. induction l; [constructor|]. apply sounds_app; auto. Qed.
(** can be recorded when the codes [d] are disabled *)
Definition writable (d : list str) (q : req) : Prop := In (q_id q) d \/ sound q.
Lemma record_writable d qs : forall x, Forall (writable d) qs -> exists y, record_all d qs x = Ok y.
Proof.
  induction qs as [|q qs IH]; intros x H; cbn [record_all]; [eauto|].
  inversion H as [|? ? H1 H3]; subst. unfold record_lint. destruct (smem (q_id q) d) eqn:E; [now apply IH|].
  destruct H1 as [H1|(tpl & m & H1 & H2)]; [apply smem_In in H1; congruence|]. destruct (smem (q_id q) (x_sup x)); [now apply IH|].
  rewrite H1, H2. cbn [bindr]. now apply IH.
Qed.
Lemma record_sound d qs x : sounds qs -> exists y, record_all d qs x = Ok y.
Proof. intros H. apply record_writable. eapply Forall_impl; [|exact H]. intros q Hq. now right. Qed.
Ltac snd1 := unfold sound, at_tok; cbn [q_id q_args]; eexists; eexists;
  split; [vm_compute; reflexivity | cbv -[dec app]; reflexivity].
Ltac snds := repeat first [apply sounds_nil | apply sounds_if | apply sounds_app | apply sounds_one; snd1 | apply sounds_cons; [snd1|] ].

Section Report.
  Variable c : lcfg.

  Lemma line_sound n ln : sounds (check_line c n ln).
  Proof. unfold check_line. destruct (lc_ending c) as [[]|], (lc_tabpol c); snds. Qed.
  Lemma basics_sound src : sounds (check_basics c src).
  Proof.
    unfold check_basics. apply sounds_app; [|snds]. generalize 1. induction (split_on cNL src) as [|l ls IH]; intros n.
    - apply sounds_nil.
    - cbn [check_lines]. apply sounds_app; [apply line_sound|apply IH].
  Qed.
  Lemma tokens_sound toks : forall cat, Forall (fun t => ~ dangling t) toks ->
    exists qs, check_tokens cat toks = Ok qs /\ sounds qs.
  Proof.
    induction toks as [|t toks IH]; intros cat H; cbn [check_tokens]; [exists nil; split; [reflexivity|apply sounds_nil]|].
    inversion H as [|? ? Hd H']; subst. specialize (fun k => IH k H').
    destruct (negb _); [apply IH|].
    destruct (C30_mock $"foo" (spelling t)) as (r & Hr & _).
    { vm_compute. intros [E|[E|[E|[]]]]; discriminate. }
    rewrite Hr. cbn [bindr].
    assert (exists qs, match rsearch missing_suffix None r with
          | Some y => if is_builtin (cap y)
                      then match cat with
                           | None => Err AttrErr
                           | Some m => let? qs := check_tokens cat toks in
                                       Ok (at_tok $"W0106" t [FS $"closing"; FS m] :: qs)
                           end
                      else check_tokens cat toks
          | None => check_tokens cat toks
          end = Ok qs /\ sounds qs) as G.
    { destruct (rsearch missing_suffix None r) as [y|] eqn:E; [|apply IH].
      destruct (is_builtin (cap y)) eqn:Eb; [|apply IH]. exfalso. apply Hd. exists r, y. auto. }
    destruct (rsearch missing_prefix None r) as [y|]; [|exact G]. destruct (is_builtin (tl (cap y))); [|exact G].
    destruct (IH (Some (cap y))) as (qs & Hq & Hs). destruct (seqb (cap y) $"$ENV"); [eauto|].
    rewrite Hq. cbn [bindr]. eexists. split; [reflexivity|]. apply sounds_cons; [snd1|exact Hs].
  Qed.
  Lemma varname_sound name t what : sounds (check_varname name t what).
  Proof. unfold check_varname. destruct (insensitive name) as [[]|]; snds. Qed.
  Lemma references_sound tree : sounds (var_references tree).
  Proof.
    unfold var_references. apply sounds_flat_map. intros t. apply sounds_if; [|apply sounds_nil].
    apply sounds_flat_map. intros v. apply varname_sound.
  Qed.

  (** ** Statements *)
  Lemma find_filter {A} (p : A -> bool) l : find p l = hd_error (filter p l).
  Proof. induction l as [|a l IH]; cbn [find filter]; [reflexivity|]. destruct (p a); [reflexivity|exact IH]. Qed.
  Lemma leading_set n : leading n <> nil -> exists t, set_varname (argtree n) = Some t.
  Proof.
    unfold leading, set_varname. rewrite find_filter. destruct (filter _ _) as [|g l]; [easy|].
    cbn [hd_error]. destruct (sem g) as [|t r]; [easy|]. intros _. exists t. reflexivity.
  Qed.
  Lemma leading_list n : (2 <= List.length (leading n))%nat -> exists t u r, first_group (argtree n) = Some (t :: u :: r).
  Proof.
    unfold leading, first_group. rewrite find_filter. destruct (filter _ _) as [|g l]; [cbn; lia|].
    cbn [hd_error]. destruct (sem g) as [|t [|u r]]; cbn [List.length]; try lia. eauto.
  Qed.
  Definition all_fine (n : pnode) : Prop := forall m, In m (subtrees n) -> fine c m.
  Lemma all_kids k cs : all_fine (N k cs) -> Forall all_fine cs.
  Proof.
    intros H. apply Forall_forall. intros m Hm x Hx. apply H. right. apply in_flat_map. eauto.
  Qed.
  Lemma named_fine names n e : all_fine n -> In e (stmts_named names n) ->
    is_stmt (fst e) = true /\ In (funname (fst e)) names /\ fine c (fst e).
  Proof.
    intros H He. unfold stmts_named in He. apply filter_In in He as [He Hn]. apply andb_prop in Hn as [H1 H2].
    split; [exact H1|]. split; [now apply smem_In|]. apply H.
    apply (Permutation_in _ (bfs_perm n)). now apply in_map.
  Qed.
  Lemma assignments_sound es : Forall (fun e => is_stmt (fst e) = true /\ In (funname (fst e)) [$"set"; $"list"] /\ fine c (fst e)) es ->
    exists qs, var_assignments es = Ok qs /\ sounds qs.
  Proof.
    induction es as [|[n p] es IH]; intros H; cbn [var_assignments]; [exists nil; split; [reflexivity|apply sounds_nil]|].
    inversion H as [|? ? (Hs & Hn & Hf) H']; subst. cbn [fst] in *. apply IH in H' as (qs & -> & Hqs).
    destruct n as [|k cs]; [discriminate|]. destruct k; try discriminate. destruct Hf as (F1 & F2 & _).
    destruct Hn as [Hn|[Hn|[]]]; symmetry in Hn.
    - destruct (leading_set _ (F1 Hn)) as (t & Ht). rewrite Hn. cbn [seqb]. rewrite (proj2 (seqb_eq _ _) eq_refl), Ht. cbn [bindr].
      eexists. split; [reflexivity|]. apply sounds_app; [apply varname_sound|exact Hqs].
    - destruct (leading_list _ (F2 Hn)) as (t & u & r & Ht). rewrite Hn.
      replace (seqb $"list" $"set") with false by reflexivity. rewrite Ht. cbn [bindr].
      eexists. split; [reflexivity|]. apply sounds_app; [apply varname_sound|exact Hqs].
  Qed.
  (** the ancestors: every block among them is closed *)
  Definition stack_ok (s : stack) : Prop :=
    Forall (fun p => is_flow (fst p) = true -> closed (kids (fst p)) /\ (snd p < List.length (kids (fst p)))%nat) s.
  Lemma closed_block n i : closed (kids n) -> (i < List.length (kids n))%nat -> exists o b, block_with n i = Some (o, b).
  Proof.
    intros [H3 Ho] Hi. unfold block_with.
    set (j := if Nat.even i then (i - 2)%nat else (i - 1)%nat). set (l := List.length (kids n)) in *.
    assert (j + 2 < l)%nat as Hj.
    { subst j. destruct (Nat.even i) eqn:E.
      - destruct i as [|[|i]]; [cbn; lia|discriminate|lia].
      - destruct i as [|i]; [discriminate|]. rewrite Nat.even_succ in E.
        assert (S i <> l - 1)%nat; [|lia]. intros Hc. replace l with (S (S i)) in Ho by lia.
        rewrite Nat.odd_succ, Nat.even_succ in Ho. congruence. }
    destruct (nth_error (kids n) j) eqn:E1; [|apply nth_error_None in E1; fold l in E1; lia].
    destruct (nth_error (kids n) (j + 1)) eqn:E2; [|apply nth_error_None in E2; fold l in E2; lia].
    destruct (nth_error (kids n) (j + 2)) eqn:E3; [|apply nth_error_None in E3; fold l in E3; lia].
    eauto.
  Qed.
  Lemma scope_sound s : stack_ok s -> exists sc, block_scope s = Ok sc.
  Proof.
    induction 1 as [|[n i] s H HF IH]; cbn [block_scope]; [eauto|]. cbn [fst snd] in H.
    destruct (is_flow n); [|exact IH]. destruct (H eq_refl) as [H1 H2].
    destruct (closed_block n i H1 H2) as (o & b & ->). destruct (seqb _ _); [eauto|]. destruct (seqb _ _); [eauto|exact IH].
  Qed.
  Lemma assignment_sound n s : fine c n -> is_stmt n = true -> In (funname n) [$"set"; $"list"] -> stack_ok s ->
    exists qs, assignment c n s = Ok qs /\ sounds qs.
  Proof.
    intros Hf Hs Hn Hk. destruct n as [|k cs]; [discriminate|]. destruct k; try discriminate. destruct Hf as (F1 & F2 & _).
    set (n := N (KStatement _) cs) in *. unfold assignment.
    assert (exists sc, scope_of (seqb (funname n) $"set") (argtree n) s = Ok sc) as (sc & ->).
    { unfold scope_of. destruct (if seqb (funname n) $"set" then set_cache (argtree n) else None) as [ts|]; [eauto|].
      destruct (_ && _); [eauto|]. now apply scope_sound. }
    cbn [bindr].
    assert (forall t, exists qs,
      (let? r := mock_varrefs nil (spelling t) in
        match r with
        | nil => Ok nil
        | _ =>
            let '(what, pat) :=
              match sc with
              | ScCache => ($"CACHE variable", lc_global c)
              | ScInternal => ($"INTERNAL variable", lc_internal c)
              | ScParent => ($"PARENT_SCOPE variable", bars [lc_public c; lc_private c; lc_local c])
              | ScLocal => ($"local variable", lc_local c)
              | ScDirectory => ($"directory variable", bars [lc_public c; lc_private c])
              end in
            Ok (if lc_re c pat r then nil
                else [at_tok $"C0103" t [FS what; FS (spelling t); FS pat]])
        end) = Ok qs /\ sounds qs) as G.
    { intros t. destruct (C30_mock nil (spelling t)) as (r & -> & _); [easy|]. cbn [bindr].
      destruct r as [|ch r]; [exists nil; split; [reflexivity|apply sounds_nil]|].
      destruct sc; (eexists; split; [reflexivity|snds]). }
    destruct Hn as [Hn|[Hn|[]]]; symmetry in Hn.
    - destruct (leading_set _ (F1 Hn)) as (t & Ht). rewrite Hn, (proj2 (seqb_eq _ _) eq_refl), Ht. cbn [bindr]. apply G.
    - destruct (leading_list _ (F2 Hn)) as (t & u & r & Ht). rewrite Hn.
      replace (seqb $"list" $"set") with false by reflexivity. rewrite Ht. cbn [bindr].
      destruct (smem _ _); [apply G|]. exists nil. split; [reflexivity|apply sounds_nil].
  Qed.
  Lemma statement_sound n s : fine c n -> is_stmt n = true -> stack_ok s ->
    exists qs, statement_checks c n s = Ok qs /\ sounds qs.
  Proof.
    intros Hf Hs Hk. unfold statement_checks. destruct (smem (funname n) [$"break"; $"continue"]) eqn:E.
    { eexists. split; [reflexivity|]. snds. }
    destruct (smem (funname n) [$"set"; $"list"]) eqn:E'; [|exists nil; split; [reflexivity|apply sounds_nil]].
    apply smem_In in E'. now apply assignment_sound.
  Qed.

  (** ** Groups of arguments *)
  Lemma arggroup_sound cs : forall seen, (forall ks, In (N KKwargGroup ks) cs -> filter is_semantic (flats ks) <> nil) ->
    exists qs, arggroup seen cs = Ok qs /\ sounds qs.
  Proof.
    induction cs as [|n cs IH]; intros seen H; cbn [arggroup]; [exists nil; split; [reflexivity|apply sounds_nil]|].
    assert (forall sn, exists qs, arggroup sn cs = Ok qs /\ sounds qs) as G
      by (intros sn; apply IH; intros ks Hk; apply H; now right).
    destruct n as [t|k ks]; [apply G|]. destruct k; try apply G.
    specialize (H ks (or_introl eq_refl)). destruct (filter is_semantic (flats ks)) as [|t r]; [easy|].
    destruct (smem _ _); [apply G|]. destruct (G (upper (spelling t) :: seen)) as (qs & -> & Hq). cbn [bindr].
    eexists. split; [reflexivity|]. apply sounds_app; [snds|exact Hq].
  Qed.
  Lemma positional_sound s tg sp cs : fine c (N (KPargGroup s tg sp) cs) -> exists qs, positional sp cs = Ok qs /\ sounds qs.
  Proof.
    intros (p & z & -> & Hz). cbn [positional]. rewrite Hz. cbn [bindr]. eexists. split; [reflexivity|]. snds.
  Qed.

  (** ** Blocks *)
  Lemma no_argn n : fine c n -> is_stmt n = true -> In (funname n) [$"foreach"; $"while"] -> contains_argn n = false.
  Proof.
    intros Hf Hs Hn. destruct n as [|k cs]; [discriminate|]. destruct k; try discriminate.
    destruct Hf as (_ & _ & F). specialize (F Hn). unfold contains_argn.
    apply not_true_iff_false. intros H. apply existsb_exists in H as (t & Ht & H).
    apply andb_prop in H as [_ H]. apply seqb_eq in H. now apply (F t).
  Qed.
  Lemma custom_sound b : all_fine b -> custom_parse c b = Ok nil.
  Proof.
    intros H. unfold custom_parse. destruct (stmts_named [$"cmake_parse_arguments"] b); [|reflexivity].
    pose proof (fun e => named_fine [$"foreach"; $"while"] b e H) as G.
    induction (stmts_named [$"foreach"; $"while"] b) as [|[n p] es IH]; [reflexivity|]. cbn [parse_loops].
    destruct (G (n, p) (or_introl eq_refl)) as (H1 & H2 & H3). cbn [fst] in *. rewrite (no_argn n H3 H1 H2).
    apply IH. intros e He. apply G. now right.
  Qed.
  Lemma arg_names_sound ts : forall seen uncase, sounds (arg_names c seen uncase ts).
  Proof.
    induction ts as [|t ts IH]; intros seen uncase; cbn [arg_names]; [apply sounds_nil|].
    apply sounds_if; [apply sounds_nil|]. apply sounds_if; [apply sounds_cons; [snd1|apply IH]|].
    apply sounds_app; [snds|apply IH].
  Qed.
  Lemma flow_sound cs : all_fine (N KFlow cs) -> exists qs, flow_checks c cs = Ok qs /\ sounds qs.
  Proof.
    intros H. destruct (H _ (or_introl eq_refl)) as ([H3 _] & Hs).
    destruct cs as [|stmt [|body [|e cs]]]; cbn [List.length] in H3; try lia. cbn [flow_checks].
    pose proof (all_kids _ _ H) as K. inversion K as [|? ? _ K1]; subst. inversion K1 as [|? ? Kb _]; subst.
    destruct (sem stmt) as [|f [|lp [|t r]]] eqn:Es; cbn [List.length] in Hs; try lia.
    destruct (seqb (funname stmt) $"function" || seqb (funname stmt) $"macro").
    - unfold check_defn. rewrite custom_sound by exact Kb. cbn [bindr]. unfold check_name. rewrite Es. cbn [bindr].
      destruct (rev (flat stmt)) as [|u us] eqn:Er.
      { unfold sem in Es. apply (f_equal (@rev token)) in Er. rewrite rev_involutive in Er. rewrite Er in Es. discriminate. }
      eexists. split; [reflexivity|]. unfold check_args.
      apply sounds_app; [apply sounds_nil|]. apply sounds_app; [snds|].
      apply sounds_app; [apply sounds_app; [apply arg_names_sound|snds]|]. snds.
    - destruct (seqb (funname stmt) $"foreach"); [|exists nil; split; [reflexivity|apply sounds_nil]].
      unfold check_foreach. rewrite Es. eexists. split; [reflexivity|]. snds.
  Qed.
  Lemma node_sound k cs s : all_fine (N k cs) -> stack_ok s -> exists qs, node_checks c k cs s = Ok qs /\ sounds qs.
  Proof.
    intros H Hs. pose proof (H _ (or_introl eq_refl)) as Hf.
    destruct k; cbn [node_checks]; try (exists nil; split; [reflexivity|apply sounds_nil]).
    - now apply statement_sound.
    - now apply flow_sound.
    - now apply arggroup_sound.
    - now apply positional_sound in Hf.
  Qed.

  (** ** Bodies *)
  Lemma items_sound row items : forall col, sounds (fst (pragma_items row col items)).
  Proof.
    induction items as [|it r IH]; intros cl; cbn [pragma_items]; [apply sounds_nil|].
    destruct (split_eq it) as [[key value]|].
    - specialize (IH cl). destruct (pragma_items row cl r) as [q s]. cbn [fst] in IH.
      destruct (seqb key $"disable"); cbn [fst].
      + apply sounds_app; [|exact IH]. induction (filter _ _) as [|i l IHl]; [apply sounds_nil|].
        cbn [map]. apply sounds_cons; [snd1|exact IHl].
      + apply sounds_cons; [snd1|exact IH].
    - specialize (IH (cl + zlen it + 1)). destruct (pragma_items row (cl + zlen it + 1) r) as [q s]. cbn [fst] in *.
      apply sounds_cons; [snd1|exact IH].
  Qed.
  Lemma pragmas_sound cs : sounds (fst (pragmas cs)).
  Proof.
    induction cs as [|[t|k ks] cs IH]; cbn [pragmas]; [apply sounds_nil| |exact IH].
    destruct (is_tt COMMENT t && _); [|exact IH].
    pose proof (items_sound (line (begin t)) (py_split nil (skipn (List.length pragma_prefix) (spelling t)))
                            (col (begin t) + zlen pragma_prefix)) as Hi.
    destruct (pragma_items _ _ _) as [q1 s1]. destruct (pragmas cs) as [q2 s2]. cbn [fst] in *. now apply sounds_app.
  Qed.
  Lemma pragma_token cs : snd (pragmas cs) <> nil -> flats cs <> nil.
  Proof.
    induction cs as [|[t|k ks] cs IH]; cbn [pragmas]; [easy|intros _; discriminate|].
    intros H E. apply IH; [exact H|]. cbn [flats flat_map] in E. now apply app_eq_nil in E as [_ E].
  Qed.
  Lemma docstring_sound ks p0 p1 : fine c (N KFlow ks) -> match p1 with Some n => fine c n | None => True end ->
    exists qs, docstring c ks p0 p1 = Ok qs /\ sounds qs.
  Proof.
    intros ([H3 _] & Hs) H1. destruct ks as [|stmt ks]; [cbn in H3; lia|]. cbn [docstring].
    destruct (sem stmt) as [|t r] eqn:Es; [exists nil; split; [reflexivity|apply sounds_nil]|].
    destruct (smem _ _); [|exists nil; split; [reflexivity|apply sounds_nil]].
    assert (exists u us, filter is_semantic (flats (stmt :: ks)) = u :: us) as (u & us & ->).
    { change (flats (stmt :: ks)) with (flat stmt ++ flats ks). rewrite filter_app. unfold sem in Es. rewrite Es. cbn. eauto. }
    destruct p0 as [[|k0 cs0]|]; try (eexists; split; [reflexivity|]; snds; fail).
    destruct p1 as [[|k1 cs1]|]; try (eexists; split; [reflexivity|]; snds; fail).
    destruct k1; try (eexists; split; [reflexivity|]; snds; fail).
    destruct (_ && _); [|eexists; split; [reflexivity|]; snds].
    destruct H1 as (ls & ->). cbn [bindr]. eexists. split; [reflexivity|]. destruct (strip _); snds.
  Qed.
  Lemma spacing_sound n p0 : sounds (spacing c n p0).
  Proof. unfold spacing. destruct p0; snds. Qed.
  Definition opt_fine (p : option pnode) : Prop := match p with Some n => fine c n | None => True end.
  Lemma body_sound cs : forall p0 p1 sups x, Forall (fine c) cs -> opt_fine p0 -> opt_fine p1 ->
    exists r, body_loop c cs p0 p1 sups x = Ok r.
  Proof.
    induction cs as [|n cs IH]; intros p0 p1 sups x HF H0 H1; cbn [body_loop]; [eauto|].
    inversion HF as [|? ? Hn HF']; subst. destruct n as [t|k ks]; [now apply IH|].
    set (n := N k ks) in *.
    assert (exists a b, (if k_comment k then
             let '(qs, ids) := pragmas ks in
             let? x := record c qs x in
             match ids with
             | nil => Ok (sups, x)
             | _ => let? ln := first_line n in
                    let '(new, x) := suppress ln ids x in Ok (sups ++ new, x)
             end
           else Ok (sups, x)) = Ok (a, b)) as (a & b & ->).
    { destruct (k_comment k); [|eauto]. pose proof (pragmas_sound ks) as P. pose proof (pragma_token ks) as Pt.
      destruct (pragmas ks) as [qs ids]. cbn [fst snd] in *. unfold record.
      destruct (record_sound (lc_disabled c) qs x P) as (y & ->). cbn [bindr].
      destruct ids as [|i ids]; [eauto|]. unfold first_line. subst n. cbn [flat].
      destruct (flats ks) as [|u us] eqn:Ef; [exfalso; now apply Pt|]. cbn [flats] in Ef.
      unfold flats in Ef. rewrite Ef. cbn [bindr]. destruct (suppress _ _ _). eauto. }
    cbn [bindr].
    assert (exists q1, (if is_flow n then docstring c ks p0 p1 else Ok nil) = Ok q1 /\ sounds q1) as (q1 & -> & S1).
    { destruct (is_flow n) eqn:E; [|exists nil; split; [reflexivity|apply sounds_nil]].
      subst n. destruct k; try discriminate. now apply docstring_sound. }
    cbn [bindr]. unfold record.
    destruct (record_sound (lc_disabled c)
      (q1 ++ (if is_flow n || is_stmt n then spacing c n p0 else nil)
          ++ (if is_stmt n && smem (funname n) [$"break"; $"continue"; $"return"] && existsb has_stmt cs
              then [Req $"W0101" (loc3 (node_loc n)) nil] else nil)) b) as (y & ->).
    { apply sounds_app; [exact S1|]. apply sounds_app; [apply sounds_if; [apply spacing_sound|apply sounds_nil]|]. snds. }
    cbn [bindr]. now apply IH.
  Qed.
  Lemma check_body_sound cs x : all_fine (N KBody cs) -> exists y, check_body c cs x = Ok y.
  Proof.
    intros H. pose proof (H _ (or_introl eq_refl)) as Hf. cbn [fine] in Hf. unfold check_body.
    destruct (body_sound cs None None nil x) as ([sups y] & ->); try exact I.
    { apply Forall_forall. intros m Hm. apply (proj1 (Forall_forall _ _) (all_kids _ _ H) m Hm). apply subtrees_self. }
    cbn [bindr]. destruct (rev (flats cs)) as [|t ts] eqn:E; [|eauto].
    apply (f_equal (@rev token)) in E. rewrite rev_involutive in E. contradiction.
  Qed.
  Lemma check_comment_sound cs s x : exists y, check_comment c cs s x = Ok y.
  Proof.
    unfold check_comment. destruct (negb _); [eauto|]. pose proof (pragmas_sound cs) as P. pose proof (pragma_token cs) as Pt.
    destruct (pragmas cs) as [qs ids]. cbn [fst snd] in *. unfold record.
    destruct (record_sound (lc_disabled c) qs x P) as (y & ->). cbn [bindr].
    destruct ids as [|i ids]; [eauto|]. unfold first_line. cbn [flat].
    destruct (flats cs) as [|u us] eqn:Ef; [exfalso; now apply Pt|]. unfold flats in Ef. rewrite Ef. cbn [bindr].
    destruct (suppress _ _ _). eauto.
  Qed.
  Lemma check_token_sound t s x : exists y, check_token c t s x = Ok y.
  Proof.
    unfold check_token. destruct (_ && _); [eauto|]. destruct (s_ind x) as [i|]; [|eauto]. cbv zeta.
    match goal with |- context [record c ?q ?a] => destruct (record_sound (lc_disabled c) q a) as (y & Hy) end.
    - snds.
    - unfold record. rewrite Hy. cbn [bindr]. eauto.
  Qed.

  Lemma check_tree_sound n : forall s x, all_fine n -> stack_ok s -> exists y, check_tree c s n x = Ok y.
  Proof.
    induction n as [t|k cs IH] using pnode_ind'; intros s x H Hs; [apply check_token_sound|]. cbn [check_tree].
    assert (exists y, match k with
                  | KBody => check_body c cs (s_ctx x)
                  | KComment _ => if lc_cnode c s then check_comment c cs s (s_ctx x) else Ok (s_ctx x)
                  | _ => let? qs := node_checks c k cs s in record c qs (s_ctx x)
                  end = Ok y) as (y & ->).
    { destruct (node_sound k cs s H Hs) as (qs & Hq & Sq).
      destruct (record_sound (lc_disabled c) qs (s_ctx x) Sq) as (z & Hz).
      destruct k; try (rewrite Hq; cbn [bindr]; unfold record; eauto; fail).
      - now apply check_body_sound.
      - destruct (lc_cnode c s); [apply check_comment_sound|eauto]. }
    cbn [bindr].
    assert (forall l i x0, (i + List.length l = List.length cs)%nat -> Forall (fun n => forall s x, all_fine n -> stack_ok s -> exists y, check_tree c s n x = Ok y) l ->
          Forall all_fine l -> exists y, (fix go (i : nat) (l : list pnode) (x : cst) : res cst :=
             match l with
             | nil => Ok x
             | a :: l' => let? z := check_tree c ((N k cs, i) :: s) a x in go (S i) l' z
             end) i l x0 = Ok y) as G.
    { induction l as [|a l IHl]; intros i x0 El HF HA; [eauto|]. cbn [List.length] in El.
      inversion HF as [|? ? Ha HF']; subst. inversion HA as [|? ? Hfa HA']; subst.
      destruct (Ha ((N k cs, i) :: s) x0 Hfa) as (z & ->).
      - constructor; [|exact Hs]. cbn [fst snd kids]. intros E. destruct k; try discriminate.
        destruct (H _ (or_introl eq_refl)) as (Hc & _). split; [exact Hc|lia].
      - cbn [bindr]. apply IHl; [lia|assumption|assumption]. }
    apply G; [reflexivity|exact IH|now apply (all_kids k)].
  Qed.
End Report.

(** C60 (in part): cmake-lint reports on every file that parses, if a line ending is
    configured, the parsers' own remarks can be written, and the file is free of
    the faults above: a dangling reference, an empty body, a block left open, set
    and list without their variable, a loop over ${ARGN}.  The last faults listed in
    [fine] (counts of positional arguments that cannot be read, groups without words,
    comments whose markup fails) are assumed absent here; PropReport.v (C104) shows
    that they never come out of the parser. *)
Theorem C60_report_partial : forall c src toks tree x,
  lc_ending c <> None -> Forall (writable (lc_disabled c)) (lc_plint c toks) ->
  tokenize src = Ok toks -> parse (lc_ctx c) toks = Ok tree ->
  (forall t, In t toks -> ~ dangling t) ->
  (forall n, In n (subtrees tree) -> fine c n) ->
  exists y, lint_file c src x = Ok y.
Proof.
  intros c src toks tree x He Hpl Ht Hp Hd Hf. unfold lint_file. destruct (lc_ending c); [|easy].
  unfold record. destruct (record_sound (lc_disabled c) _ x (basics_sound c src)) as (x1 & ->). cbn [bindr].
  rewrite Ht. cbn [bindr]. destruct (tokens_sound toks None) as (qs & -> & Hq).
  { apply Forall_forall. exact Hd. }
  cbn [bindr]. destruct (record_sound (lc_disabled c) qs x1 Hq) as (x2 & ->). cbn [bindr]. rewrite Hp. cbn [bindr].
  destruct (record_writable (lc_disabled c) _ x2 Hpl) as (x3 & ->). cbn [bindr]. unfold check_parse_tree, record.
  destruct (assignments_sound c (stmts_named [$"set"; $"list"] tree)) as (qv & -> & Hv).
  { apply Forall_forall. intros n Hn. now apply (named_fine c _ tree). }
  cbn [bindr]. destruct (record_sound (lc_disabled c) qv x3 Hv) as (x4 & ->). cbn [bindr].
  destruct (record_sound (lc_disabled c) _ x4 (references_sound tree)) as (x5 & ->). cbn [bindr].
  destruct (check_tree_sound c tree nil (CSt x5 None) Hf) as (y & ->); [constructor|]. cbn [bindr]. eauto.
Qed.

(** The hypotheses hold of a file with a documented function, a condition, a list
    and a quoted reference; they fail for each of the crashing files, so none of
    the conditions on set, list, blocks and references can be dropped. *)
Definition sound_file : str :=
  nl [$"# adds two"; $"function(foo a)"; $"  if(NOT a)"; $"    set(b ""${a} ${CMAKE_BINARY_DIR}"" PARENT_SCOPE)";
      $"  endif()"; $"  list(APPEND b 1)"; $"endfunction()"].
Definition is_nil {A} (l : list A) : bool := match l with nil => true | _ => false end.
Definition fineb (c : lcfg) (n : pnode) : bool :=
  match n with
  | T _ => true
  | N k cs =>
      match k with
      | KBody => negb (is_nil (flats cs))
      | KFlow => (3 <=? List.length cs)%nat && Nat.odd (List.length cs)
                 && match cs with s :: _ => (3 <=? List.length (sem s))%nat | nil => true end
      | KStatement _ =>
          (if seqb (funname n) $"set" then negb (is_nil (leading n)) else true)
          && (if seqb (funname n) $"list" then (2 <=? List.length (leading n))%nat else true)
          && (if smem (funname n) [$"foreach"; $"while"]
              then forallb (fun t => negb (seqb (spelling t) $"${ARGN}")) (sem (argtree n)) else true)
      | KArgGroup _ => forallb (fun m => match m with N KKwargGroup ks => negb (is_nil (filter is_semantic (flats ks))) | _ => true end) cs
      | KPargGroup _ _ (Some p) => match min_npargs (ps_nargs p) with Ok _ => true | _ => false end
      | KPargGroup _ _ None => false
      | KComment ex => match comment_inlines (lc_markup c) ex cs with Ok _ => true | _ => false end
      | _ => true
      end
  end.
Lemma is_nil_no {A} (l : list A) : negb (is_nil l) = true -> l <> nil.
Proof. now destruct l. Qed.
Lemma fineb_fine c n : fineb c n = true -> fine c n.
Proof.
  destruct n as [t|k cs]; [easy|]. destruct k; try (intros _; exact I); unfold fineb, fine.
  - apply is_nil_no.
  - destruct (comment_inlines _ _ _); try discriminate. eauto.
  - intros H. apply andb_prop in H as [H H3]. apply andb_prop in H as [H1 H2]. repeat split.
    + intros E. rewrite E, (proj2 (seqb_eq _ _) eq_refl) in H1. now apply is_nil_no.
    + intros E. rewrite E, (proj2 (seqb_eq _ _) eq_refl) in H2. now apply Nat.leb_le.
    + intros E t Ht. apply smem_In in E. rewrite E in H3. rewrite forallb_forall in H3. specialize (H3 t Ht).
      intros Et. rewrite Et, (proj2 (seqb_eq _ _) eq_refl) in H3. discriminate.
  - intros H. apply andb_prop in H as [H H3]. apply andb_prop in H as [H1 H2]. split; [split|].
    + now apply Nat.leb_le.
    + exact H2.
    + destruct cs; [exact I|]. now apply Nat.leb_le.
  - intros H ks Hk. rewrite forallb_forall in H. specialize (H _ Hk). now apply is_nil_no.
  - match goal with |- context [exists p z, ?a = Some p /\ _] => destruct a as [p|]; [|discriminate] end. destruct (min_npargs (ps_nargs p)) eqn:E; try discriminate. eauto.
Qed.
Definition danglingb (t : token) : bool :=
  match mock_varrefs $"foo" (spelling t) with
  | Ok r => match rsearch missing_suffix None r with Some y => is_builtin (cap y) | None => false end
  | _ => false
  end.
Lemma danglingb_no t : danglingb t = false -> ~ dangling t.
Proof. intros H (r & y & H1 & H2 & H3). unfold danglingb in H. rewrite H1, H2 in H. congruence. Qed.
(** whether the hypotheses on the text hold *)
Definition sound_text (src : str) : bool :=
  match tokenize src with
  | Ok toks => match parse (lc_ctx default_lcfg) toks with
               | Ok tree => forallb (fun t => negb (danglingb t)) toks && forallb (fineb default_lcfg) (subtrees tree)
               | _ => false
               end
  | _ => false
  end.
Lemma sound_text_ok src : sound_text src = true -> exists toks tree,
  tokenize src = Ok toks /\ parse (lc_ctx default_lcfg) toks = Ok tree /\
  (forall t, In t toks -> ~ dangling t) /\ (forall n, In n (subtrees tree) -> fine default_lcfg n).
Proof.
  unfold sound_text. destruct (tokenize src) as [toks| |]; try discriminate.
  destruct (parse _ toks) as [tree| |] eqn:Hp; try discriminate. intros H. apply andb_prop in H as [H1 H2].
  rewrite forallb_forall in H1, H2. exists toks, tree. split; [reflexivity|]. split; [exact Hp|]. split.
  - intros t Ht. apply danglingb_no. specialize (H1 t Ht). now apply negb_true_iff in H1.
  - intros n Hn. apply fineb_fine. now apply H2.
Qed.
Example C60_report_partial_ex : exists toks tree,
  tokenize sound_file = Ok toks /\ parse (lc_ctx default_lcfg) toks = Ok tree /\
  (forall t, In t toks -> ~ dangling t) /\ (forall n, In n (subtrees tree) -> fine default_lcfg n).
Proof. apply sound_text_ok. vm_compute. reflexivity. Qed.
Example C60_crashes_excluded :
  map sound_text [nil; $"list(APPEND)"; $"if(A)" ++ [cNL] ++ $"set(B 1)" ++ [cNL]; $"set(B ""$foo ${CMAKE_BINARY_DIR"")"]
  = [false; false; false; false].
Proof. vm_compute. reflexivity. Qed.
