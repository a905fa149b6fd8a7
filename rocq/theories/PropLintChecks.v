(** * PropLintChecks: what single lint codes mean (C60-C69) *)
From Verif Require Import Base Regex Lex LexProofs LexClass TextOps TextProofs Tree Parse ParseProofs CmdSpec
  StdSpecs StdDb PropStd PropBlocks ArgShape Layout SortProofs Markup Pipeline NamesShape LintDb Lint PropLint
  PropLintText LintTree.

(** ** The codes each part of the checker can request *)
Definition coded (l : list str) (qs : list req) : Prop := Forall (fun q => In (q_id q) l) qs.
Lemma coded_app l a b : coded l a -> coded l b -> coded l (a ++ b).
Proof. intros. apply Forall_app. auto. Qed.
Lemma coded_nil l : coded l nil. Proof. constructor. Qed.
Lemma coded_one l q qs : In (q_id q) l -> coded l qs -> coded l (q :: qs).
Proof. intros. constructor; auto. Qed.
Lemma coded_flat_map {A} l (f : A -> list req) xs : (forall x, coded l (f x)) -> coded l (flat_map f xs).
Proof. intros H. induction xs; [constructor|]. simpl. apply coded_app; auto. Qed.
Ltac inl_tac := cbn [q_id at_tok In]; repeat (first [left; reflexivity|right]).
Ltac coded := repeat first
  [ apply coded_nil | apply coded_app
  | apply coded_one; [solve [inl_tac]|]
  | match goal with |- coded _ (if ?b then _ else _) => destruct b end
  | match goal with |- coded _ (match ?b with _ => _ end) => destruct b end ].

Lemma basics_coded c src : coded [$"C0301"; $"C0327"; $"C0303"; $"C0306"; $"C0304"] (check_basics c src).
Proof.
  unfold check_basics. apply coded_app; [|coded].
  generalize 1 at 1. induction (split_on cNL src) as [|l ls IH]; intros n; cbn [check_lines]; [coded|].
  apply coded_app; [|apply IH]. unfold check_line. cbv zeta. coded.
Qed.
Lemma tokens_coded toks : forall cat qs, check_tokens cat toks = Ok qs -> coded [$"W0106"] qs.
Proof.
  induction toks as [|t toks IH]; intros cat qs H; cbn [check_tokens] in H; [injection H as <-; coded|].
  destruct (negb _); [eauto|]. apply bindr_ok in H as (w & _ & H). cbv zeta in H.
  repeat match type of H with
  | match ?b with _ => _ end = _ => destruct b
  | (if ?b then _ else _) = _ => destruct b
  end; eauto; try discriminate;
  apply bindr_ok in H as (qs' & H' & H); injection H as <-; apply coded_one; eauto; inl_tac.
Qed.
Lemma varname_coded name t what : coded [$"W0105"] (check_varname name t what).
Proof. unfold check_varname. coded. Qed.
Lemma assignments_coded es : forall qs, var_assignments es = Ok qs -> coded [$"W0105"] qs.
Proof.
  induction es as [|[n p] es IH]; intros qs H; cbn [var_assignments] in H; [injection H as <-; coded|].
  apply bindr_ok in H as (t & _ & H). apply bindr_ok in H as (qs' & H' & H). injection H as <-.
  apply coded_app; auto using varname_coded.
Qed.
Lemma references_coded tree : coded [$"W0105"] (var_references tree).
Proof.
  unfold var_references. apply coded_flat_map. intros t. destruct (tmem _ _); [|coded].
  apply coded_flat_map. intros v. apply varname_coded.
Qed.
Lemma arggroup_coded cs : forall seen qs, arggroup seen cs = Ok qs -> coded [$"E1122"] qs.
Proof.
  induction cs as [|n cs IH]; intros seen qs H; cbn [arggroup] in H; [injection H as <-; coded|].
  destruct n as [t|k ks]; [eauto|]. destruct k; eauto.
  destruct (filter _ _); [discriminate|]. destruct (smem _ _); [eauto|].
  apply bindr_ok in H as (qs' & H' & H). injection H as <-. apply coded_app; eauto. coded.
Qed.
Lemma positional_coded sp cs qs : positional sp cs = Ok qs -> coded [$"E1120"] qs.
Proof.
  unfold positional. destruct sp; [|discriminate]. intros H. apply bindr_ok in H as (m & _ & H).
  injection H as <-. coded.
Qed.
Lemma assignment_coded c n s qs : assignment c n s = Ok qs -> coded [$"C0103"] qs.
Proof.
  unfold assignment. intros H. apply bindr_ok in H as (sc & _ & H). apply bindr_ok in H as (v & _ & H).
  destruct v as [t|]; [|injection H as <-; coded]. apply bindr_ok in H as (r & _ & H).
  destruct r; [injection H as <-; coded|]. destruct sc; injection H as <-; coded.
Qed.
Lemma statement_coded c n s qs : statement_checks c n s = Ok qs -> coded [$"E0103"; $"C0103"] qs.
Proof.
  unfold statement_checks. destruct (smem _ _); [intros H; injection H as <-; coded|].
  destruct (smem _ _); [|intros H; injection H as <-; coded]. intros H. apply assignment_coded in H.
  eapply Forall_impl; [|exact H]. intros q [<-|[]]. now right; left.
Qed.
Lemma custom_coded c b qs : custom_parse c b = Ok qs -> coded [$"C0201"] qs.
Proof.
  unfold custom_parse. destruct (stmts_named _ _); [|intros H; injection H as <-; coded].
  generalize (stmts_named [$"foreach"; $"while"] b). intros ls. induction ls as [|[n p] ls IH]; cbn [parse_loops]; intros H.
  - injection H as <-. coded.
  - destruct (contains_argn n); [|auto]. destruct p as [[par i]|]; [|discriminate].
    destruct (block_with par i) as [[o bd]|]; [|discriminate]. destruct (sem (argtree n)); [discriminate|].
    apply bindr_ok in H as (z & _ & H). destruct (_ >? _); [injection H as <-; coded|auto].
Qed.
Definition flow_codes : list str :=
  [$"C0201"; $"C0103"; $"E0109"; $"E0108"; $"C0202"; $"R0913"; $"R0911"; $"R0912"; $"R0915"].
Lemma arg_names_coded c ts : forall seen uncase, coded flow_codes (arg_names c seen uncase ts).
Proof.
  induction ts as [|t ts IH]; intros seen uncase; cbn [arg_names]; [coded|].
  destruct (is_tt RIGHT_PAREN t); [coded|]. destruct (negb _).
  - apply coded_one; [inl_tac|auto].
  - apply coded_app; [|auto]. coded.
Qed.
Lemma flow_coded c cs qs : flow_checks c cs = Ok qs -> coded flow_codes qs.
Proof.
  unfold flow_checks. destruct cs as [|stmt r]; [discriminate|]. cbv zeta.
  destruct (_ || _).
  - destruct r as [|body [|x r]]; try discriminate. unfold check_defn. intros H.
    apply bindr_ok in H as (q1 & H1 & H). apply bindr_ok in H as (q2 & H2 & H).
    destruct (rev (flat stmt)); [discriminate|]. injection H as <-.
    assert (coded flow_codes q1).
    { apply custom_coded in H1. eapply Forall_impl; [|exact H1]. intros q [<-|[]]. now left. }
    assert (coded flow_codes q2).
    { unfold check_name in H2. destruct (sem stmt) as [|f [|g [|h sl]]]; try discriminate. injection H2 as <-. coded. }
    unfold check_args. repeat (apply coded_app; auto); coded. apply arg_names_coded.
  - destruct (seqb _ _); [|intros H; injection H as <-; coded]. unfold check_foreach.
    destruct (sem stmt) as [|f [|g [|h sl]]]; try discriminate. intros H. injection H as <-. coded.
Qed.
Lemma items_coded row items : forall col, coded [$"E0011"; $"E0012"] (fst (pragma_items row col items)).
Proof.
  induction items as [|it items IH]; intros col; cbn [pragma_items]; [coded|].
  destruct (split_eq it) as [[key value]|].
  - specialize (IH col). destruct (pragma_items row col items) as [q s]. cbn [fst] in IH.
    destruct (seqb _ _); cbn [fst].
    + apply coded_app; auto. apply Forall_map, Forall_forall. intros i _. inl_tac.
    + apply coded_one; [inl_tac|auto].
  - specialize (IH (col + zlen it + 1)). destruct (pragma_items _ _ _) as [q s]. cbn [fst] in *.
    apply coded_one; [inl_tac|auto].
Qed.
Lemma pragmas_coded cs : coded [$"E0011"; $"E0012"] (fst (pragmas cs)).
Proof.
  induction cs as [|[t|k ks] cs IH]; cbn [pragmas]; [coded| |auto].
  destruct (_ && _); [|auto]. match goal with |- context [pragma_items ?a ?b ?l] => pose proof (items_coded a l b) as H; destruct (pragma_items a b l) as [q1 s1] end.
  destruct (pragmas cs) as [q2 s2]. cbn [fst] in *. now apply coded_app.
Qed.
Lemma docstring_coded c ks p0 p1 qs : docstring c ks p0 p1 = Ok qs -> coded [$"C0111"; $"C0112"] qs.
Proof.
  unfold docstring. intros H1. destruct ks as [|stmt ks]; [discriminate|].
  repeat match type of H1 with
  | match ?b with _ => _ end = _ => destruct b
  | (if ?b then _ else _) = _ => destruct b
  end; try discriminate; try (apply bindr_ok in H1 as (ls & _ & H1)); injection H1 as <-; coded.
Qed.
Definition body_codes : list str := [$"E0011"; $"E0012"; $"C0111"; $"C0112"; $"C0321"; $"C0305"; $"W0101"].
Lemma body_coded c cs q : body_asks c cs q -> In (q_id q) body_codes.
Proof.
  intros (pre & n & post & qs & _ & H & Hq & _). revert q Hq. apply Forall_forall.
  change (coded body_codes qs). unfold child_reqs in H. destruct n as [t|k ks]; [injection H as <-; coded|].
  assert (forall p : kind -> bool, (let? q1 := (if is_flow (N k ks) then docstring c ks (before1 pre) (before2 pre) else Ok nil) in
        Ok (q1 ++ (if is_flow (N k ks) || is_stmt (N k ks) then spacing c (N k ks) (before1 pre) else nil)
            ++ (if is_stmt (N k ks) && smem (funname (N k ks)) [$"break"; $"continue"; $"return"] && existsb has_stmt post
                then [Req $"W0101" (loc3 (node_loc (N k ks))) nil] else nil))) = Ok qs -> coded body_codes qs) as G.
  { intros _ G. apply bindr_ok in G as (q1 & H1 & G). injection G as <-. repeat apply coded_app.
    - destruct (is_flow _); [|injection H1 as <-; coded]. apply docstring_coded in H1.
      eapply Forall_impl; [|exact H1]. intros q [<-|[<-|[]]]; inl_tac.
    - unfold spacing. cbv zeta. coded.
    - coded. }
  destruct k; try (apply (G k_ws), H; fail).
  injection H as <-. pose proof (pragmas_coded ks) as P. eapply Forall_impl; [|exact P].
  intros q [<-|[<-|[]]]; inl_tac.
Qed.
Lemma indent_coded c i t s : coded [$"C0307"] (indent_reqs c i t s).
Proof. unfold indent_reqs. cbv zeta. coded. Qed.

(** Requests of the walk with a given code. *)
Definition node_codes (k : kind) : list str :=
  match k with
  | KBody => body_codes
  | KComment _ => [$"E0011"; $"E0012"]
  | KFlow => flow_codes
  | KArgGroup _ => [$"E1122"]
  | KStatement _ => [$"E0103"; $"C0103"]
  | KPargGroup _ _ _ => [$"E1120"]
  | _ => nil
  end.
Lemma node_coded c s k cs q : node_asks c (s, N k cs) q -> In (q_id q) (node_codes k).
Proof.
  intros H.
  assert (match k with KBody | KComment _ => True | _ => forall qs, node_checks c k cs s = Ok qs -> coded (node_codes k) qs end) as G.
  { destruct k; try exact I; cbn [node_codes node_checks]; intros qs K; try (injection K as <-; apply coded_nil).
    - now apply statement_coded in K.
    - now apply flow_coded in K.
    - now apply arggroup_coded in K.
    - now apply positional_coded in K. }
  destruct k; cbn [node_codes];
    try (destruct H as (qs & H & Hq); exact (proj1 (Forall_forall _ _) (G qs H) q Hq)).
  - now apply body_coded in H.
  - destruct H as (_ & _ & H). exact (proj1 (Forall_forall _ _) (pragmas_coded cs) q H).
Qed.

(** The codes the argument parsers record (every call of record_lint below
    cmakelang/parse: add_xxx.py 52-270, argument_nodes.py 61-76, break.py, file.py 372-417, set.py 95-100, ...). *)
Definition parser_codes : list str :=
  [$"C0113"; $"C0114"; $"E1120"; $"E1121"; $"E1122"; $"E1125"; $"E1126"; $"W0106"].
Definition parsers_ok (c : lcfg) : Prop := forall toks, coded parser_codes (lc_plint c toks).

(** A code of the walk over the tree: its records are the requests at visited nodes. *)
Definition outside_codes : list str :=
  [$"C0301"; $"C0327"; $"C0303"; $"C0306"; $"C0304"; $"W0106"; $"W0105"; $"C0307"] ++ parser_codes.
Lemma coded_in l qs q : coded l qs -> In q qs -> In (q_id q) l.
Proof. intros H. exact (proj1 (Forall_forall _ _) H q). Qed.
Lemma tree_code c src y i : lint_file c src ctx0 = Ok y -> parsers_ok c -> ~ In i outside_codes ->
  exists toks tree, tokenize src = Ok toks /\ parse (lc_ctx c) toks = Ok tree /\
  Forall (node_ok c) (visits nil tree) /\
  forall r, In r (x_lint y) /\ l_id r = i <->
    ~ In i (lc_disabled c) /\ exists q v, q_id q = i /\ written r q /\ In v (visits nil tree) /\ node_asks c v q.
Proof.
  intros H HP Hi. pose proof H as H0. apply file_in in H as (toks & tree & qt & qv & Ht & Hp & Hqt & Hqv & _ & HR).
  exists toks, tree. split; [exact Ht|]. split; [exact Hp|]. split; [exact (file_ok _ _ _ _ _ _ H0 Ht Hp)|]. intros r. rewrite HR. unfold enabled. cbn [x_lint x_sup ctx0 In].
  unfold outside_codes in Hi. rewrite in_app_iff in Hi. split.
  - intros [[[]|(q & W & [E _] & K)] <-]. pose proof (proj1 W) as Eid. rewrite Eid in *. split; [exact E|].
    assert (forall l, incl l ([$"C0301"; $"C0327"; $"C0303"; $"C0306"; $"C0304"; $"W0106"; $"W0105"; $"C0307"]) -> In (q_id q) l -> False) as No.
    { intros l Hl Hq. apply Hl in Hq. tauto. }
    destruct K as [K|[K|[K|[K|[K|K]]]]].
    + apply (coded_in _ _ _ (basics_coded c src)) in K. exfalso. revert K. apply No. intros z Hz. cbn [In] in *. tauto.
    + apply (coded_in _ _ _ (tokens_coded _ _ _ Hqt)) in K. exfalso. revert K. apply No. intros z Hz. cbn [In] in *. tauto.
    + apply (coded_in _ _ _ (HP toks)) in K. tauto.
    + apply (coded_in _ _ _ (assignments_coded _ _ Hqv)) in K. exfalso. revert K. apply No. intros z Hz. cbn [In] in *. tauto.
    + apply (coded_in _ _ _ (references_coded tree)) in K. exfalso. revert K. apply No. intros z Hz. cbn [In] in *. tauto.
    + destruct K as [(v & Hv & K)|(pre & s & t & post & E2 & K)]; [exists q, v; auto|].
      apply (coded_in _ _ _ (indent_coded _ _ _ _)) in K. exfalso. revert K. apply No. intros z Hz. cbn [In] in *. tauto.
  - intros (E & q & v & Eq & W & Hv & K). split; [|now rewrite (proj1 W)]. right. exists q. split; [exact W|].
    rewrite Eq. split; [split; [exact E|intros []]|]. do 5 right. left. eauto.
Qed.

(** ** C62: break and continue outside a loop *)
(** The statements of a tree in document order. *)
Fixpoint subtrees (n : pnode) : list pnode :=
  n :: match n with T _ => nil | N _ cs => flat_map subtrees cs end.
Definition stmts (tree : pnode) : list pnode := filter is_stmt (subtrees tree).
(** The blocks open after a statement: if, while, foreach, function and macro open
    one; the matching end closes the innermost one. *)
Definition step (st : list str) (n : pnode) : list str :=
  match stmt_name n with
  | None => st
  | Some w => if smem w [$"IF"; $"WHILE"; $"FOREACH"; $"FUNCTION"; $"MACRO"] then w :: st
              else match st with
                   | top :: st' => if seqb w ($"END" ++ top) then st' else st
                   | nil => nil
                   end
  end.
Definition open_blocks (pre : list pnode) : list str := fold_left step pre nil.
Definition in_some_loop (st : list str) : Prop := In $"FOREACH" st \/ In $"WHILE" st.
Definition jumps (n : pnode) : Prop := exists w, stmt_name n = Some w /\ In w [$"BREAK"; $"CONTINUE"].

Lemma upper_lower s : upper (lower s) = upper s.
Proof.
  unfold lower, upper. rewrite map_map. apply map_ext. intros a. unfold loc, upc.
  destruct ((65 <=? a) && (a <=? 90))%N eqn:E; [|reflexivity].
  rewrite andb_true_iff, !N.leb_le in E.
  replace ((97 <=? a + 32) && (a + 32 <=? 122))%N with true
    by (symmetry; rewrite andb_true_iff, !N.leb_le; lia).
  replace ((97 <=? a) && (a <=? 122))%N with false
    by (symmetry; rewrite andb_false_iff, !N.leb_gt; lia). lia.
Qed.
Lemma stmt_funname n w : stmt_name n = Some w -> is_stmt n = true /\ funname n = lower w /\ upper (lower w) = w.
Proof.
  unfold stmt_name. destruct n as [t|k cs]; [discriminate|]. destruct k; try discriminate.
  destruct cs as [|[t|k2 cs2] cs]; try discriminate. destruct k2; try discriminate.
  destruct cs2 as [|[t|k3 cs3] [|]]; try discriminate. intros H. injection H as <-.
  split; [reflexivity|]. rewrite lower_upper, upper_lower. split; reflexivity.
Qed.
Lemma funname_in n w (l : list str) : stmt_name n = Some w -> Forall (fun x => lower x = x) l ->
  smem (funname n) l = true <-> In w (map upper l).
Proof.
  intros H Hl. destruct (stmt_funname n w H) as (_ & Hf & Hu). rewrite smem_In, Hf. split.
  - intros K. rewrite <- Hu. now apply in_map.
  - intros K. apply in_map_iff in K as (x & <- & K). rewrite lower_upper.
    rewrite (proj1 (Forall_forall _ _) Hl x K). exact K.
Qed.

Lemma subtrees_visits n : forall s, map snd (visits s n) = subtrees n.
Proof.
  induction n as [t|k cs IH] using pnode_ind'; intros s; [reflexivity|].
  rewrite visits_eq. cbn [map snd subtrees]. f_equal.
  assert (forall l i, Forall (fun n => forall s, map snd (visits s n) = subtrees n) l ->
    map snd (kids_visits (N k cs) s i l) = flat_map subtrees l) as G.
  { induction l as [|a l IHl]; intros i HF; [reflexivity|]. inversion HF as [|? ? Ha HF']; subst.
    cbn [kids_visits flat_map]. rewrite map_app, Ha. f_equal. now apply IHl. }
  now apply G.
Qed.
Definition svs (l : list (stack * pnode)) : list (stack * pnode) := filter (fun v => is_stmt (snd v)) l.
Lemma svs_app a b : svs (a ++ b) = svs a ++ svs b. Proof. apply filter_app. Qed.
Lemma svs_snd l : map snd (svs l) = filter is_stmt (map snd l).
Proof.
  induction l as [|[s n] l IH]; [reflexivity|]. cbn [svs filter map snd]. destruct (is_stmt n); cbn [map snd];
    fold (svs l); now rewrite IH.
Qed.
Lemma inner_svs n : forall s, inner n = true -> svs (visits s n) = nil.
Proof.
  induction n as [t|k cs IH] using pnode_ind'; intros s H; [reflexivity|].
  rewrite visits_eq. cbn [inner] in H. apply andb_prop in H as [H1 H2].
  cbn [svs filter snd]. replace (is_stmt (N k cs)) with false by (destruct k; cbn in *; congruence).
  fold (svs (kids_visits (N k cs) s 0 cs)).
  assert (forall l i, Forall (fun n => forall s, inner n = true -> svs (visits s n) = nil) l -> forallb inner l = true ->
    svs (kids_visits (N k cs) s i l) = nil) as G.
  { induction l as [|a l IHl]; intros i HF Hl; [reflexivity|]. inversion HF as [|? ? Ha HF']; subst.
    cbn [forallb] in Hl. apply andb_prop in Hl as [Hl1 Hl2].
    cbn [kids_visits]. rewrite svs_app, Ha by exact Hl1. now apply IHl. }
  now apply G.
Qed.
Lemma stmt_svs s n w : stmt_name n = Some w -> leveled n = true -> svs (visits s n) = [(s, n)].
Proof.
  intros Hn HL. destruct n as [t|k cs]; [discriminate|]. destruct k; try discriminate.
  assert (forall P l i, forallb inner l = true -> svs (kids_visits P s i l) = nil) as G.
  { induction l as [|a l IHl]; intros i Hl; [reflexivity|]. cbn [forallb] in Hl. apply andb_prop in Hl as [Hl1 Hl2].
    cbn [kids_visits]. rewrite svs_app, inner_svs by exact Hl1. now apply IHl. }
  rewrite visits_eq. cbn [svs filter snd is_stmt]. f_equal. apply G. cbn [leveled] in HL. now apply andb_prop in HL.
Qed.
Lemma inert_svs s n : inert n = true -> leveled n = true -> svs (visits s n) = nil.
Proof.
  intros Hn HL. destruct n as [t|k cs]; [discriminate|]. apply inner_svs. destruct k; try discriminate; exact HL.
Qed.

(** A walk over statements, from the open blocks [st] to the open blocks [st']. *)
Definition good (l : list (stack * pnode)) (st st' : list str) : Prop :=
  fold_left step (map snd l) st = st' /\
  forall a s n b, l = a ++ (s, n) :: b ->
    (exists w, stmt_name n = Some w) /\
    (jumps n -> (in_loop s = true <-> in_some_loop (fold_left step (map snd a) st))).
Lemma good_nil st : good nil st st.
Proof. split; [reflexivity|]. intros a s n b E. destruct a; discriminate. Qed.
Lemma good_app l1 l2 st st1 st2 : good l1 st st1 -> good l2 st1 st2 -> good (l1 ++ l2) st st2.
Proof.
  intros [E1 H1] [E2 H2]. split; [rewrite map_app, fold_left_app; congruence|].
  intros a s n b E. apply app_eq_app in E as (m & [[E3 E4]|[E3 E4]]).
  - destruct m as [|v m].
    + rewrite app_nil_r in E3. subst a. cbn [app] in E4. rewrite E1. apply (H2 nil s n b). now symmetry.
    + cbn [app] in E4. injection E4 as <- E4. apply (H1 a s n m E3).
  - subst a. rewrite map_app, fold_left_app, E1. apply (H2 m s n b E4).
Qed.
Lemma good_one s n st w : stmt_name n = Some w -> (jumps n -> (in_loop s = true <-> in_some_loop st)) ->
  good [(s, n)] st (step st n).
Proof.
  intros Hn H. split; [reflexivity|]. intros a s' n' b E. destruct a as [|v a].
  - cbn [app] in E. injection E as <- <- _. split; [eauto|exact H].
  - cbn [app] in E. injection E as _ E. destruct a; discriminate.
Qed.
Lemma not_jumps n w : stmt_name n = Some w -> ~ In w [$"BREAK"; $"CONTINUE"] -> ~ jumps n.
Proof. intros H Hw (w' & H' & K). rewrite H in H'. now injection H' as <-. Qed.

Definition ends (st brk : list str) : Prop := match st with nil => True | top :: _ => In ($"END" ++ top) brk end.

Lemma kids_visits_app n s a : forall i b,
  kids_visits n s i (a ++ b) = kids_visits n s i a ++ kids_visits n s (i + List.length a) b.
Proof.
  induction a as [|x a IH]; intros i b.
  - cbn [app kids_visits List.length]. now rewrite Nat.add_0_r.
  - cbn [app kids_visits List.length]. rewrite IH, <- app_assoc. do 3 f_equal. lia.
Qed.

(** if blocks are no loops *)
Definition even_ok (l : list pnode) : Prop := forall j n, Nat.even j = true -> nth_error l j = Some n ->
  exists w, stmt_name n = Some w /\ In w [$"IF"; $"ELSE"; $"ELSEIF"; $"ENDIF"].
Lemma even_ok_app a b : Nat.even (List.length a) = true -> even_ok a -> even_ok b -> even_ok (a ++ b).
Proof.
  intros Hl Ha Hb j n Hj H. destruct (Nat.lt_ge_cases j (List.length a)) as [L|L].
  - rewrite nth_error_app1 in H by exact L. eauto.
  - rewrite nth_error_app2 in H by exact L. apply Hb with (j := (j - List.length a)%nat); [|exact H].
    rewrite Nat.even_sub, Hj, Hl by exact L. reflexivity.
Qed.
Lemma even_ok_arm op w bd : stmt_name op = Some w -> In w [$"IF"; $"ELSE"; $"ELSEIF"; $"ENDIF"] -> even_ok [op; bd].
Proof.
  intros H Hw j n Hj Hn. destruct j as [|[|j]]; cbn [nth_error] in Hn; [injection Hn as <-; eauto|discriminate|].
  destruct j; discriminate.
Qed.
Lemma arms_even o arms : arms_ok o arms -> Nat.even (List.length arms) = true /\ even_ok arms.
Proof.
  induction 1 as [op o bd H Hb|arms op w o bd Ha [IH1 IH2] H Hw Hb].
  - split; [reflexivity|]. eapply even_ok_arm; [exact H|now left].
  - split; [rewrite app_length, Nat.even_add, IH1; reflexivity|]. apply even_ok_app; auto.
    eapply even_ok_arm; [exact H|]. destruct Hw as [<-|[<-|[]]]; cbn [In]; auto.
Qed.
Lemma if_in_loop cs i s : even_ok cs -> in_loop ((N KFlow cs, i) :: s) = in_loop s.
Proof.
  intros He. cbn [in_loop is_flow]. unfold block_with. cbn [kids].
  remember (if Nat.even i then (i - 2)%nat else (i - 1)%nat) as j.
  assert (Nat.even j = true) as Ej.
  { subst j. destruct (Nat.even i) eqn:E.
    - destruct i as [|[|i]]; [reflexivity|discriminate|]. cbn [Nat.sub]. rewrite Nat.sub_0_r. exact E.
    - destruct i as [|i]; [discriminate|]. cbn [Nat.sub]. rewrite Nat.sub_0_r.
      rewrite Nat.even_succ, <- Nat.negb_even in E. now destruct (Nat.even i). }
  destruct (nth_error cs j) as [op|] eqn:Eo; [|reflexivity].
  destruct (nth_error cs (j + 1)); [|reflexivity]. destruct (nth_error cs (j + 2)); [|reflexivity].
  destruct (He j op Ej Eo) as (w & Hw & Hin).
  destruct (smem (funname op) [$"foreach"; $"while"]) eqn:Es; [|reflexivity].
  apply (funname_in op w) in Es; [|exact Hw|repeat constructor]. exfalso.
  cbn [In map] in *. destruct Hin as [<-|[<-|[<-|[<-|[]]]]], Es as [Es|[Es|[]]]; discriminate.
Qed.
Scheme child_ok_min := Minimality for child_ok Sort Prop
with body_ok_min := Minimality for body_ok Sort Prop
with arms_ok_min := Minimality for arms_ok Sort Prop.
Combined Scheme blocks_min from child_ok_min, body_ok_min, arms_ok_min.

Lemma svs_body s cs : svs (visits s (N KBody cs)) = svs (kids_visits (N KBody cs) s 0 cs).
Proof. rewrite visits_eq. reflexivity. Qed.
Lemma svs_flow s cs : svs (visits s (N KFlow cs)) = svs (kids_visits (N KFlow cs) s 0 cs).
Proof. rewrite visits_eq. reflexivity. Qed.
Lemma step_open st n w : stmt_name n = Some w -> In w flow_names -> step st n = w :: st.
Proof.
  intros H Hw. unfold step. rewrite H. apply smem_In in Hw. unfold flow_names in Hw. now rewrite Hw.
Qed.
Lemma step_close st n w : stmt_name n = Some ($"END" ++ w) -> ~ In ($"END" ++ w) flow_names -> step (w :: st) n = st.
Proof.
  intros H Hw. unfold step. rewrite H. destruct (smem _ _) eqn:E; [apply smem_In in E; now apply Hw in E|].
  now rewrite (proj2 (seqb_eq _ _) eq_refl).
Qed.
Lemma step_other st n w : stmt_name n = Some w -> ~ In w flow_names ->
  (forall top st', st = top :: st' -> w <> $"END" ++ top) -> step st n = st.
Proof.
  intros H Hw Ht. unfold step. rewrite H. destruct (smem _ _) eqn:E; [apply smem_In in E; now apply Hw in E|].
  destruct st as [|top st']; [reflexivity|]. destruct (seqb _ _) eqn:E2; [|reflexivity].
  apply seqb_eq in E2. exfalso. exact (Ht top st' eq_refl E2).
Qed.
Ltac names := let H := fresh in intros H; cbn [In flow_names] in H;
  repeat (destruct H as [H|H]; [discriminate|]); destruct H.

Lemma blocks_good :
  (forall brk o n, child_ok brk o n -> forall s st, leveled n = true -> (in_loop s = true <-> in_some_loop st) ->
     ends st brk -> exists st', good (svs (visits s n)) st st' /\ (o = false -> st' = st)) /\
  (forall brk o cs, body_ok brk o cs -> forall P s st i, is_flow P = false -> forallb leveled cs = true ->
     (in_loop s = true <-> in_some_loop st) -> ends st brk ->
     exists st', good (svs (kids_visits P s i cs)) st st' /\ (o = false -> st' = st)) /\
  (forall o arms, arms_ok o arms -> forall F s st, (forall i, in_loop ((F, i) :: s) = in_loop s) ->
     forallb leveled arms = true -> (in_loop s = true <-> in_some_loop st) ->
     exists st', good (svs (kids_visits F s 0 arms)) st st' /\ (o = false -> st' = $"IF" :: st)).
Proof.
  apply blocks_min.
  - intros brk n Hn s st HL Hs He. exists st. rewrite inert_svs by auto. split; [apply good_nil|auto].
  - intros brk n w Hn Hb Hf s st HL Hs He. exists st. rewrite (stmt_svs s n w) by auto. split; [|auto].
    replace st with (step st n) at 2; [eapply good_one; eauto|].
    apply (step_other st n w); auto. intros top st' -> ->. now apply Hb.
  - intros brk op w bd cl Hop Hw Hb IHb Hcl s st HL Hs He. cbn [leveled forallb] in HL.
    apply andb_prop in HL as [L1 L2]. apply andb_prop in L2 as [L2 L3]. rewrite andb_true_r in L3.
    set (F := N KFlow [op; N KBody bd; cl]). exists st. split; [|auto].
    unfold F at 1. rewrite svs_flow. fold F. cbn [kids_visits]. rewrite !svs_app.
    rewrite (stmt_svs _ op w) by auto. rewrite (stmt_svs _ cl _ Hcl) by auto. rewrite svs_body.
    assert (In w flow_names) as Hwf by (cbn [loop_names flow_names In] in *; tauto).
    assert (~ In w [$"BREAK"; $"CONTINUE"]) as Hnj.
    { cbn [loop_names In] in Hw. destruct Hw as [<-|[<-|[<-|[<-|[]]]]]; names. }
    assert (~ In ($"END" ++ w) flow_names /\ ~ In ($"END" ++ w) [$"BREAK"; $"CONTINUE"]) as [Hef Hej].
    { cbn [loop_names In] in Hw. destruct Hw as [<-|[<-|[<-|[<-|[]]]]]; split; names. }
    assert (in_loop ((F, 1%nat) :: s) = true <-> in_some_loop (w :: st)) as Hin.
    { assert (in_loop ((F, 1%nat) :: s) = if smem (funname op) [$"foreach"; $"while"] then true else in_loop s) as ->
        by reflexivity.
      destruct (smem (funname op) [$"foreach"; $"while"]) eqn:Es.
      - apply (funname_in op w) in Es; [|exact Hop|repeat constructor]. split; [|reflexivity]. intros _.
        unfold in_some_loop. cbn [In map] in *. destruct Es as [<-|[<-|[]]]; auto.
      - assert (w <> $"FOREACH" /\ w <> $"WHILE") as [N1 N2].
        { split; intros ->; apply not_true_iff_false in Es; apply Es, (funname_in op _ _ Hop); try (repeat constructor);
            first [left; reflexivity|right; left; reflexivity]. }
        rewrite Hs. unfold in_some_loop. cbn [In]. intuition congruence. }
    apply good_app with (st1 := w :: st).
    { rewrite <- (step_open st op w) by auto. eapply good_one; [exact Hop|].
      intros J. exfalso. revert J. eapply not_jumps; eauto. }
    destruct (IHb (N KBody bd) ((F, 1%nat) :: s) (w :: st) 0%nat eq_refl L2 Hin) as (st' & G & E); [now left|].
    rewrite (E eq_refl) in G. eapply good_app; [exact G|].
    rewrite <- (step_close st cl w) at 2 by auto. rewrite app_nil_r. eapply good_one; [exact Hcl|].
    intros J. exfalso. revert J. eapply not_jumps; eauto.
  - intros brk arms cl Ha IHa Hcl s st HL Hs He. cbn [leveled] in HL. rewrite forallb_app in HL.
    apply andb_prop in HL as [L1 L2]. cbn [forallb] in L2. rewrite andb_true_r in L2.
    exists st. split; [|auto]. rewrite svs_flow, kids_visits_app, svs_app.
    destruct (arms_even _ _ Ha) as [A1 A2].
    assert (even_ok (arms ++ [cl])) as Hev.
    { apply even_ok_app; auto. intros j n Hj Hn. destruct j as [|[|j]]; cbn [nth_error] in Hn; try discriminate.
      injection Hn as <-. exists $"ENDIF". split; [exact Hcl|]. cbn [In]; auto. }
    destruct (IHa (N KFlow (arms ++ [cl])) s st (fun i => if_in_loop _ i s Hev) L1 Hs) as (st' & G & E).
    rewrite (E eq_refl) in G. eapply good_app; [exact G|]. cbn [kids_visits]. rewrite app_nil_r.
    rewrite (stmt_svs _ cl _ Hcl) by auto.
    assert (step ($"IF" :: st) cl = st) as Es by (apply step_close; [exact Hcl|names]).
    rewrite <- Es at 2. eapply good_one; [exact Hcl|].
    intros J. exfalso. revert J. eapply not_jumps; [exact Hcl|names].
  - intros brk arms o Ha IHa s st HL Hs He. cbn [leveled] in HL. rewrite svs_flow.
    destruct (arms_even _ _ Ha) as [A1 A2].
    destruct (IHa (N KFlow arms) s st (fun i => if_in_loop _ i s A2) HL Hs) as (st' & G & E).
    exists st'. split; [exact G|discriminate].
  - intros brk P s st i HP HL Hs He. exists st. split; [apply good_nil|auto].
  - intros brk o cs c Hcs IHcs Hc IHc P s st i HP HL Hs He. rewrite forallb_app in HL.
    apply andb_prop in HL as [L1 L2]. cbn [forallb] in L2. rewrite andb_true_r in L2.
    destruct (IHcs P s st i HP L1 Hs He) as (st1 & G1 & E1). rewrite (E1 eq_refl) in G1.
    rewrite kids_visits_app, svs_app. cbn [kids_visits]. rewrite app_nil_r.
    destruct (IHc ((P, (i + List.length cs)%nat) :: s) st L2) as (st2 & G2 & E2); auto.
    { cbn [in_loop]. now rewrite HP. }
    exists st2. split; [|exact E2]. eapply good_app; eauto.
  - intros op o bd Hop Hb IHb F s st HF HL Hs. cbn [forallb leveled] in HL. rewrite andb_true_r in HL.
    apply andb_prop in HL as [L1 L2]. cbn [kids_visits]. rewrite app_nil_r, svs_app, svs_body.
    rewrite (stmt_svs _ op _ Hop) by auto.
    destruct (IHb (N KBody bd) ((F, 1%nat) :: s) ($"IF" :: st) 0%nat eq_refl L2) as (st' & G & E).
    { rewrite HF, Hs. unfold in_some_loop. cbn [In]. intuition discriminate. }
    { cbn [ends if_breakset In]. auto. }
    exists st'. split; [|exact E]. eapply good_app; [|exact G].
    rewrite <- (step_open st op _ Hop) by (cbn [flow_names In]; auto). eapply good_one; [exact Hop|].
    intros J. exfalso. revert J. eapply not_jumps; [exact Hop|names].
  - intros arms op w o bd Ha IHa Hop Hw Hb IHb F s st HF HL Hs. rewrite forallb_app in HL.
    apply andb_prop in HL as [L0 HL]. cbn [forallb leveled] in HL. rewrite andb_true_r in HL.
    apply andb_prop in HL as [L1 L2].
    rewrite kids_visits_app, svs_app. cbn [kids_visits]. rewrite app_nil_r, svs_app, svs_body.
    rewrite (stmt_svs _ op _ Hop) by auto.
    destruct (IHa F s st HF L0 Hs) as (st1 & G1 & E1). rewrite (E1 eq_refl) in G1.
    assert (in_loop ((F, S (0 + List.length arms)) :: s) = true <-> in_some_loop ($"IF" :: st)) as Hin.
    { rewrite HF, Hs. unfold in_some_loop. cbn [In]. intuition discriminate. }
    destruct (IHb (N KBody bd) ((F, S (0 + List.length arms)) :: s) ($"IF" :: st) 0%nat eq_refl L2 Hin) as (st' & G & E).
    { cbn [ends if_breakset In]. auto. }
    exists st'. split; [|exact E]. eapply good_app; [exact G1|]. eapply good_app; [|exact G].
    assert (step ($"IF" :: st) op = $"IF" :: st) as Es.
    { apply (step_other _ _ w Hop).
      - destruct Hw as [<-|[<-|[]]]; names.
      - intros top st'' E2 E3. injection E2 as <- _. destruct Hw as [<-|[<-|[]]]; discriminate. }
    rewrite <- Es at 2. eapply good_one; [exact Hop|].
    intros J. exfalso. revert J. eapply not_jumps; [exact Hop|]. destruct Hw as [<-|[<-|[]]]; names.
Qed.
Lemma written_msg i l args tpl m r : assoc_s i lint_db = Some tpl -> fmt None tpl args = Ok m ->
  (written r (Req i l args) <-> r = LRec i l m).
Proof.
  intros Ht Hm. unfold written. cbn [q_id q_loc q_args]. split.
  - intros (E1 & E2 & tpl' & E3 & E4). rewrite Ht in E3. injection E3 as <-. rewrite Hm in E4. injection E4 as E4.
    destruct r as [a b d]. cbn [l_id l_loc l_msg] in *. now subst.
  - intros ->. cbn [l_id l_loc l_msg]. split; [reflexivity|]. split; [reflexivity|]. exists tpl. auto.
Qed.
(** the token that names a statement *)
Definition name_tok (n : pnode) : option token :=
  match n with N (KStatement _) (N KFunname [T t] :: _) => Some t | _ => None end.
Lemma name_tok_name n t : name_tok n = Some t ->
  stmt_name n = Some (upper (spelling t)) /\ node_loc n = begin t /\ funname n = lower (spelling t) /\ is_stmt n = true.
Proof.
  destruct n as [u|k cs]; [discriminate|]. destruct k; try discriminate.
  destruct cs as [|[u|k2 cs2] cs]; try discriminate. destruct k2; try discriminate.
  destruct cs2 as [|[u|k3 cs3] [|]]; try discriminate. intros H. injection H as <-. repeat split.
Qed.
Lemma name_tok_ex n w : stmt_name n = Some w -> exists t, name_tok n = Some t /\ upper (spelling t) = w.
Proof.
  destruct n as [u|k cs]; [discriminate|]. destruct k; try discriminate.
  destruct cs as [|[u|k2 cs2] cs]; try discriminate. destruct k2; try discriminate.
  destruct cs2 as [|[u|k3 cs3] [|]]; try discriminate. intros H. injection H as <-. eexists. split; reflexivity.
Qed.
Lemma tree_good ctx toks tree : parse ctx toks = Ok tree ->
  exists st', good (svs (visits nil tree)) nil st'.
Proof.
  intros Hp. pose proof (parse_leveled _ _ _ Hp) as HL.
  destruct (C50_block_structure_partial _ _ _ Hp) as (cs & o & -> & Hb).
  destruct blocks_good as (_ & HB & _). cbn [leveled] in HL.
  destruct (HB nil o cs Hb (N KBody cs) nil nil 0%nat eq_refl HL) as (st' & G & _).
  - unfold in_some_loop. cbn [in_loop In]. intuition discriminate.
  - exact I.
  - exists st'. now rewrite svs_body.
Qed.
Lemma stmts_svs tree s : map snd (svs (visits s tree)) = stmts tree.
Proof. now rewrite svs_snd, subtrees_visits. Qed.
Lemma stmts_named_all ctx toks tree n : parse ctx toks = Ok tree -> In n (stmts tree) -> exists t, name_tok n = Some t.
Proof.
  intros Hp Hn. destruct (tree_good _ _ _ Hp) as (st' & _ & G). rewrite <- (stmts_svs tree nil) in Hn.
  apply in_map_iff in Hn as ([s x] & E & Hn). cbn [snd] in E. subst x.
  apply in_split in Hn as (a & b & E). destruct (G a s n b E) as [(w & Hw) _].
  destruct (name_tok_ex n w Hw) as (t & Ht & _). eauto.
Qed.

(** A break or continue is reported exactly when no loop is open around it. *)
Theorem C62_jump_outside_loop : forall c src y,
  lint_file c src ctx0 = Ok y -> parsers_ok c -> ~ In $"E0103" (lc_disabled c) ->
  exists toks tree, tokenize src = Ok toks /\ parse (lc_ctx c) toks = Ok tree /\
  forall r, In r (x_lint y) /\ l_id r = $"E0103" <->
    exists pre n post t, stmts tree = pre ++ n :: post /\ name_tok n = Some t /\
      In (upper (spelling t)) [$"BREAK"; $"CONTINUE"] /\ ~ in_some_loop (open_blocks pre) /\
      r = LRec $"E0103" [line (begin t); col (begin t); offset (begin t)]
               (lower (spelling t) ++ $" outside of loop").
Proof.
  intros c src y H HP Hd. destruct (tree_code c src y $"E0103" H HP) as (toks & tree & Ht & Hp & _ & HR); [names|].
  exists toks, tree. split; [exact Ht|]. split; [exact Hp|]. intros r. rewrite HR. clear HR.
  destruct (tree_good _ _ _ Hp) as (st' & _ & G). split.
  - intros (_ & q & [s n] & Eq & W & Hv & K).
    destruct n as [t|k cs]; [destruct K|]. pose proof (node_coded _ _ _ _ _ K) as Hc. rewrite Eq in Hc.
    destruct k; cbn [node_codes] in Hc; try solve [exfalso; revert Hc; names]. cbn [node_asks snd fst] in K.
    destruct K as (qs & K & Hq). cbn [node_checks] in K. unfold statement_checks in K.
    match goal with _ : In (s, ?x) _ |- _ => set (n := x) in * end.
    destruct (smem (funname n) [$"break"; $"continue"]) eqn:Ej.
    + injection K as <-. destruct (in_loop s) eqn:El; [destruct Hq|]. destruct Hq as [<-|[]].
      assert (In (s, n) (svs (visits nil tree))) as Hs by (apply filter_In; split; [exact Hv|reflexivity]).
      apply in_split in Hs as (a & b & E). destruct (G a s n b E) as [(w & Hw) HJ].
      assert (In w [$"BREAK"; $"CONTINUE"]) as Hin.
      { apply (funname_in n w) in Ej; [exact Ej|exact Hw|repeat constructor]. }
      destruct (name_tok_ex n w Hw) as (t & Htk & Eu). destruct (name_tok_name n t Htk) as (_ & E1 & E2 & _).
      exists (map snd a), n, (map snd b), t. split; [rewrite <- (stmts_svs tree nil), E, map_app; reflexivity|].
      split; [exact Htk|]. split; [now rewrite Eu|]. split.
      * intros L. apply HJ in L; [congruence|]. exists w. auto.
      * change (written r (Req $"E0103" (loc3 (node_loc n)) [FS (funname n)])) in W. rewrite E1, E2 in W. eapply (written_msg $"E0103") in W; [exact W|reflexivity|reflexivity].
    + destruct (smem (funname n) [$"set"; $"list"]); [|injection K as <-; destruct Hq]. apply assignment_coded in K.
      apply (coded_in _ _ _ K) in Hq. rewrite Eq in Hq. exfalso. revert Hq. names.
  - intros (pre & n & post & t & E & Htk & Hin & Hnl & ->). split; [exact Hd|].
    rewrite <- (stmts_svs tree nil) in E. apply map_eq_app in E as (a & b & E & E1 & E2).
    destruct b as [|[s x] b]; [discriminate|]. cbn [map snd] in E2. injection E2 as -> E2. subst pre.
    destruct (G a s n b E) as [_ HJ]. destruct (name_tok_name n t Htk) as (E4 & E5 & E6 & E7).
    assert (in_loop s = false) as El.
    { apply not_true_iff_false. intros L. apply HJ in L; [now apply Hnl|]. exists (upper (spelling t)). auto. }
    exists (Req $"E0103" (loc3 (node_loc n)) [FS (funname n)]), (s, n). split; [reflexivity|]. split.
    { rewrite E5, E6. eapply (written_msg $"E0103"); reflexivity. }
    split.
    { assert (In (s, n) (svs (visits nil tree))) as K by (rewrite E; apply in_elt). now apply filter_In in K. }
    destruct n as [u|k cs]; [discriminate|]. destruct k; try discriminate. unfold node_asks. cbn [snd fst node_checks].
    eexists. unfold statement_checks.
    match goal with |- context [funname ?x] => set (n := x) in * end.
    assert (smem (funname n) [$"break"; $"continue"] = true) as ->.
    { apply (funname_in n _ _ E4); [repeat constructor|exact Hin]. }
    rewrite El. split; [reflexivity|now left].
Qed.
Lemma visit_sub n s tree v : In (s, v) (visits n tree) -> In v (subtrees tree).
Proof. intros H. rewrite <- (subtrees_visits tree n). change v with (snd (s, v)). now apply in_map. Qed.
Lemma sub_visit n tree v : In v (subtrees tree) -> exists s, In (s, v) (visits n tree).
Proof.
  intros H. rewrite <- (subtrees_visits tree n) in H. apply in_map_iff in H as ([s x] & <- & H). eauto.
Qed.
Definition only_body : list str := [$"C0111"; $"C0112"; $"C0321"; $"C0305"; $"W0101"].
Lemma body_code c src y i : lint_file c src ctx0 = Ok y -> parsers_ok c -> In i only_body ->
  exists toks tree, tokenize src = Ok toks /\ parse (lc_ctx c) toks = Ok tree /\
  Forall (node_ok c) (visits nil tree) /\
  (forall cs pre n post, In (N KBody cs) (subtrees tree) -> cs = pre ++ n :: post ->
     exists qs, child_reqs c pre n post = Ok qs) /\
  forall r, In r (x_lint y) /\ l_id r = i <->
    ~ In i (lc_disabled c) /\ exists cs pre n post qs q, In (N KBody cs) (subtrees tree) /\ cs = pre ++ n :: post /\
      ~ In i (muted pre) /\ child_reqs c pre n post = Ok qs /\ In q qs /\ q_id q = i /\ written r q.
Proof.
  intros H HP Hi. destruct (tree_code c src y i H HP) as (toks & tree & Ht & Hp & HO & HR).
  { cbn [only_body In] in Hi. destruct Hi as [<-|[<-|[<-|[<-|[<-|[]]]]]]; names. }
  exists toks, tree. split; [exact Ht|]. split; [exact Hp|]. split; [exact HO|]. split.
  { intros cs pre n post Hb E. destruct (sub_visit nil tree _ Hb) as (s & Hs).
    exact (proj1 (Forall_forall _ _) HO _ Hs pre n post E). }
  intros r. rewrite HR. split; (intros [Hd K]; split; [exact Hd|]).
  - destruct K as (q & [s [t|k cs]] & Eq & W & Hv & K); [destruct K|].
    pose proof (node_coded _ _ _ _ _ K) as Hc. rewrite Eq in Hc.
    assert (k = KBody) as ->.
    { destruct k; try reflexivity; exfalso; revert Hc; cbn [node_codes only_body In] in *;
        destruct Hi as [<-|[<-|[<-|[<-|[<-|[]]]]]]; names. }
    destruct K as (pre & n & post & qs & E & K1 & K2 & K3). apply visit_sub in Hv. rewrite Eq in K3.
    exists cs, pre, n, post, qs, q. auto 10.
  - destruct K as (cs & pre & n & post & qs & q & Hb & E & Hm & Hr & Hq & Eq & W).
    destruct (sub_visit nil tree _ Hb) as (s & Hs). exists q, (s, N KBody cs). split; [exact Eq|]. split; [exact W|].
    split; [exact Hs|]. exists pre, n, post, qs. rewrite Eq. auto.
Qed.
Lemma Ok_inj {A} (a b : A) : Ok a = Ok b -> a = b.
Proof. now injection 1. Qed.
Lemma child_in c pre n post qs q : child_reqs c pre n post = Ok qs -> In (q_id q) only_body ->
  (In q qs <->
   (exists ks q1, n = N KFlow ks /\ docstring c ks (before1 pre) (before2 pre) = Ok q1 /\ In q q1) \/
   (is_flow n || is_stmt n = true /\ In q (spacing c n (before1 pre))) \/
   (is_stmt n = true /\ smem (funname n) [$"break"; $"continue"; $"return"] = true /\ existsb has_stmt post = true /\
    q = Req $"W0101" (loc3 (node_loc n)) nil)).
Proof.
  intros H Hi. destruct n as [t|k ks].
  { cbn [child_reqs] in H. injection H as <-. split; [intros []|].
    intros [(ks & q1 & E & _)|[[E _]|[E _]]]; discriminate. }
  assert (k_comment k = false ->
    (let? q1 := (if is_flow (N k ks) then docstring c ks (before1 pre) (before2 pre) else Ok nil) in
        Ok (q1 ++ (if is_flow (N k ks) || is_stmt (N k ks) then spacing c (N k ks) (before1 pre) else nil)
            ++ (if is_stmt (N k ks) && smem (funname (N k ks)) [$"break"; $"continue"; $"return"] && existsb has_stmt post
                then [Req $"W0101" (loc3 (node_loc (N k ks))) nil] else nil))) = Ok qs) as G.
  { intros Hk. unfold child_reqs in H. destruct k; try discriminate Hk; exact H. }
  destruct (k_comment k) eqn:Ek.
  - destruct k; try discriminate Ek. cbn [child_reqs] in H. injection H as <-. split.
    + intros Hq. apply (coded_in _ _ _ (pragmas_coded ks)) in Hq. exfalso. revert Hq. cbn [only_body In] in Hi.
      destruct Hi as [<-|[<-|[<-|[<-|[<-|[]]]]]]; names.
    + intros [(ks' & q1 & E & _)|[[E _]|[E _]]]; discriminate.
  - specialize (G eq_refl). clear H. remember (N k ks) as n eqn:En.
    apply bindr_ok in G as (q1 & H1 & G). apply Ok_inj in G. subst qs. rewrite !in_app_iff.
    split.
    + intros [Hq|[Hq|Hq]].
      * left. destruct (is_flow n) eqn:Ef; [|injection H1 as <-; destruct Hq]. subst n. destruct k; try discriminate Ef. eauto.
      * right. left. destruct (_ || _); [auto|destruct Hq].
      * right. right. destruct (is_stmt n && _ && _) eqn:Ea; [|destruct Hq]. apply andb_prop in Ea as [Ea Ec].
        apply andb_prop in Ea as [Ea Eb]. destruct Hq as [<-|[]]. auto.
    + intros [(ks' & q1' & E & Hd & Hq)|[[Ho Hq]|(Ha & Hb & Hc & ->)]].
      * left. rewrite E in H1. cbn [is_flow] in H1. rewrite E in En. injection En as <- <-.
        rewrite Hd in H1. now injection H1 as <-.
      * right. left. now rewrite Ho.
      * right. right. rewrite Ha, Hb, Hc. now left.
Qed.

(** ** C68: unreachable code *)
Lemma has_stmt_stmts n : has_stmt n = true <-> stmts n <> nil.
Proof.
  assert (has_stmt n = existsb is_stmt (subtrees n)) as ->.
  { induction n as [t|k cs IH] using pnode_ind'; [reflexivity|].
    cbn [has_stmt subtrees existsb]. f_equal. induction cs as [|a cs IHl]; [reflexivity|].
    inversion IH as [|? ? Ha HF']; subst. cbn [existsb flat_map]. rewrite existsb_app, Ha. f_equal. now apply IHl. }
  unfold stmts. rewrite existsb_exists. split.
  - intros (x & H1 & H2) E. assert (In x nil) as [] by (rewrite <- E; now apply filter_In).
  - destruct (filter is_stmt (subtrees n)) as [|x l] eqn:E; [congruence|]. intros _. exists x.
    apply filter_In. rewrite E. now left.
Qed.
Lemma later_stmts post : existsb has_stmt post = true <-> flat_map stmts post <> nil.
Proof.
  rewrite existsb_exists. split.
  - intros (x & H1 & H2) E. apply has_stmt_stmts in H2. apply H2.
    destruct (stmts x) as [|s l] eqn:Es; [reflexivity|]. exfalso.
    assert (In s (flat_map stmts post)) as K by (apply in_flat_map; exists x; rewrite Es; split; [exact H1|now left]).
    rewrite E in K. destruct K.
  - intros H. induction post as [|x post IH]; [now destruct H|]. destruct (stmts x) as [|s l] eqn:Es.
    + cbn [flat_map] in H. rewrite Es in H. destruct (IH H) as (z & Hz & Hh). exists z. split; [now right|exact Hh].
    + exists x. split; [now left|]. apply has_stmt_stmts. now rewrite Es.
Qed.

(** The children of the bodies of a tree. *)
Definition in_body (tree : pnode) (pre : list pnode) (n : pnode) (post : list pnode) : Prop :=
  In (N KBody (pre ++ n :: post)) (subtrees tree).
Lemma subtrees_trans a b d : In b (subtrees a) -> In d (subtrees b) -> In d (subtrees a).
Proof.
  induction a as [t|k cs IH] using pnode_ind'; intros Hb Hd.
  - destruct Hb as [<-|[]]. exact Hd.
  - cbn [subtrees] in Hb. destruct Hb as [<-|Hb]; [exact Hd|]. cbn [subtrees]. right.
    apply in_flat_map in Hb as (x & Hx & Hb). apply in_flat_map. exists x. split; [exact Hx|].
    exact (proj1 (Forall_forall _ _) IH x Hx Hb Hd).
Qed.
Lemma subtrees_self n : In n (subtrees n).
Proof. destruct n; now left. Qed.
Lemma in_body_sub tree pre n post : in_body tree pre n post -> In n (subtrees tree).
Proof.
  intros H. eapply subtrees_trans; [exact H|]. cbn [subtrees]. right. apply in_flat_map. exists n.
  split; [apply in_elt|apply subtrees_self].
Qed.

(** A return, break or continue is reported exactly when a statement follows it in
    its own block, unless a pragma before it in that block switches the code off. *)
Theorem C68_unreachable_code : forall c src y,
  lint_file c src ctx0 = Ok y -> parsers_ok c -> ~ In $"W0101" (lc_disabled c) ->
  exists toks tree, tokenize src = Ok toks /\ parse (lc_ctx c) toks = Ok tree /\
  forall r, In r (x_lint y) /\ l_id r = $"W0101" <->
    exists pre n post t, in_body tree pre n post /\ name_tok n = Some t /\
      In (upper (spelling t)) [$"BREAK"; $"CONTINUE"; $"RETURN"] /\
      flat_map stmts post <> nil /\ ~ In $"W0101" (muted pre) /\
      r = LRec $"W0101" [line (begin t); col (begin t); offset (begin t)] $"Unreachable code".
Proof.
  intros c src y H HP Hd.
  destruct (body_code c src y $"W0101" H HP) as (toks & tree & Ht & Hp & _ & HO & HR); [cbn; auto 10|].
  exists toks, tree. split; [exact Ht|]. split; [exact Hp|]. intros r. rewrite HR. clear HR. split.
  - intros (_ & cs & pre & n & post & qs & q & Hb & -> & Hm & Hr & Hq & Eq & W).
    apply (child_in c pre n post qs q Hr) in Hq; [|rewrite Eq; cbn; auto 10].
    destruct Hq as [(ks & q1 & -> & Hdoc & Hq)|[[_ Hq]|(Hst & Hnm & Hps & ->)]].
    + apply docstring_coded in Hdoc. apply (coded_in _ _ _ Hdoc) in Hq. rewrite Eq in Hq. exfalso. revert Hq. names.
    + assert (coded [$"C0321"; $"C0305"] (spacing c n (before1 pre))) as K by (unfold spacing; cbv zeta; coded).
      apply (coded_in _ _ _ K) in Hq. rewrite Eq in Hq. exfalso. revert Hq. names.
    + destruct (stmts_named_all _ _ tree n Hp) as (t & Htk).
      { apply filter_In. split; [|exact Hst]. exact (in_body_sub _ _ _ _ Hb). }
      destruct (name_tok_name n t Htk) as (E1 & E2 & E3 & _).
      exists pre, n, post, t. split; [exact Hb|]. split; [exact Htk|]. split.
      { apply (funname_in n _ _ E1) in Hnm; [exact Hnm|repeat constructor]. }
      split; [now apply later_stmts|]. split; [exact Hm|].
      rewrite E2 in W. eapply (written_msg $"W0101") in W; [exact W|reflexivity|reflexivity].
  - intros (pre & n & post & t & Hb & Htk & Hin & Hl & Hm & ->). split; [exact Hd|].
    destruct (HO _ pre n post Hb eq_refl) as (qs & Hr). destruct (name_tok_name n t Htk) as (E1 & E2 & E3 & E4).
    exists (pre ++ n :: post), pre, n, post, qs, (Req $"W0101" (loc3 (node_loc n)) nil).
    split; [exact Hb|]. split; [reflexivity|]. split; [exact Hm|]. split; [exact Hr|]. split.
    + apply (child_in c pre n post qs _ Hr); [cbn; auto 10|]. right. right. split; [exact E4|]. split.
      { apply (funname_in n _ _ E1); [repeat constructor|exact Hin]. }
      split; [now apply later_stmts|reflexivity].
    + split; [reflexivity|]. rewrite E2. eapply (written_msg $"W0101"); reflexivity.
Qed.

(** ** Blocks start with a statement that opens a block *)
Definition flow_shape (m : pnode) : Prop :=
  exists op w r, m = N KFlow (op :: r) /\ stmt_name op = Some w /\ In w flow_names /\
    (In w loop_names -> exists bd cl, r = [N KBody bd; cl] /\ stmt_name cl = Some ($"END" ++ w)).
Definition FL (n : pnode) : Prop := forall m, In m (subtrees n) -> is_flow m = true -> flow_shape m.
Lemma inner_FL n : inner n = true -> FL n.
Proof.
  induction n as [t|k cs IH] using pnode_ind'; intros H m Hm Hf.
  - destruct Hm as [<-|[]]. discriminate.
  - cbn [inner] in H. apply andb_prop in H as [H1 H2]. destruct Hm as [<-|Hm].
    + destruct k; discriminate.
    + apply in_flat_map in Hm as (x & Hx & Hm).
      exact (proj1 (Forall_forall _ _) IH x Hx (proj1 (forallb_forall _ _) H2 x Hx) m Hm Hf).
Qed.
Lemma N_FL k cs : Forall FL cs -> (is_flow (N k cs) = true -> flow_shape (N k cs)) -> FL (N k cs).
Proof.
  intros H Hs m [<-|Hm] Hf; [auto|]. apply in_flat_map in Hm as (x & Hx & Hm).
  exact (proj1 (Forall_forall _ _) H x Hx m Hm Hf).
Qed.
Lemma stmt_FL n w : stmt_name n = Some w -> leveled n = true -> FL n.
Proof.
  destruct n as [t|k cs]; [discriminate|]. destruct k; try discriminate. intros _ HL. cbn [leveled] in HL. apply andb_prop in HL as [HL _].
  apply N_FL; [|discriminate]. apply Forall_forall. intros x Hx. apply inner_FL.
  exact (proj1 (forallb_forall _ _) HL x Hx).
Qed.
Lemma blocks_FL :
  (forall brk o n, child_ok brk o n -> leveled n = true -> FL n) /\
  (forall brk o cs, body_ok brk o cs -> forallb leveled cs = true -> Forall FL cs) /\
  (forall o arms, arms_ok o arms -> forallb leveled arms = true ->
     Forall FL arms /\ exists op r, arms = op :: r /\ stmt_name op = Some $"IF").
Proof.
  apply blocks_min.
  - intros brk n Hn HL. apply inner_FL. destruct n as [t|k cs]; [discriminate|]. destruct k; try discriminate; exact HL.
  - intros brk n w Hn _ _ HL. eapply stmt_FL; eauto.
  - intros brk op w bd cl Hop Hw Hb IHb Hcl HL. cbn [leveled forallb] in HL.
    apply andb_prop in HL as [L1 L2]. apply andb_prop in L2 as [L2 L3]. rewrite andb_true_r in L3.
    apply N_FL.
    + constructor; [eapply stmt_FL; eauto|]. constructor; [|constructor; [eapply stmt_FL; eauto|constructor]].
      apply N_FL; [auto|discriminate].
    + intros _. exists op, w, [N KBody bd; cl]. split; [reflexivity|]. split; [exact Hop|].
      split; [cbn [loop_names flow_names In] in *; tauto|]. intros _. eauto.
  - intros brk arms cl Ha IHa Hcl HL. cbn [leveled] in HL. rewrite forallb_app in HL.
    apply andb_prop in HL as [L1 L2]. cbn [forallb] in L2. rewrite andb_true_r in L2.
    destruct (IHa L1) as [HF (op & r & -> & Hop)]. apply N_FL.
    + apply Forall_app. split; [exact HF|]. constructor; [eapply stmt_FL; eauto|constructor].
    + intros _. exists op, $"IF", (r ++ [cl]). split; [reflexivity|]. split; [exact Hop|]. split; [now left|names].
  - intros brk arms o Ha IHa HL. cbn [leveled] in HL. destruct (IHa HL) as [HF (op & r & -> & Hop)]. apply N_FL; [exact HF|].
    intros _. exists op, $"IF", r. split; [reflexivity|]. split; [exact Hop|]. split; [now left|names].
  - constructor.
  - intros brk o cs x Hcs IHcs Hc IHc HL. rewrite forallb_app in HL.
    apply andb_prop in HL as [L1 L2]. cbn [forallb] in L2. rewrite andb_true_r in L2. apply Forall_app. auto.
  - intros op o bd Hop Hb IHb HL. cbn [forallb leveled] in HL. rewrite andb_true_r in HL.
    apply andb_prop in HL as [L1 L2]. split; [|eauto]. constructor; [eapply stmt_FL; eauto|].
    constructor; [|constructor]. apply N_FL; [auto|discriminate].
  - intros arms op w o bd Ha IHa Hop Hw Hb IHb HL. rewrite forallb_app in HL.
    apply andb_prop in HL as [L0 HL]. cbn [forallb leveled] in HL. rewrite andb_true_r in HL.
    apply andb_prop in HL as [L1 L2]. destruct (IHa L0) as [HF (op' & r & -> & Hop')]. split; [|cbn [app]; eauto].
    apply Forall_app. split; [exact HF|]. constructor; [eapply stmt_FL; eauto|].
    constructor; [|constructor]. apply N_FL; [auto|discriminate].
Qed.
Lemma tree_flows ctx toks tree m : parse ctx toks = Ok tree -> In m (subtrees tree) -> is_flow m = true -> flow_shape m.
Proof.
  intros Hp. pose proof (parse_leveled _ _ _ Hp) as HL.
  destruct (C50_block_structure_partial _ _ _ Hp) as (cs & o & -> & Hb). cbn [leveled] in HL.
  destruct blocks_FL as (_ & HB & _). specialize (HB nil o cs Hb HL). apply N_FL; [exact HB|discriminate].
Qed.

(** ** C67: spacing between statements *)
(** the newlines directly before: those of the whitespace there, none if something
    else is there; [None] at the start of the body *)
Definition text_newlines (ws : list pnode) : Z := count_chr cNL (List.concat (map spelling (flats ws))).
Definition gap (pre : list pnode) : option Z :=
  match rev (filter (fun n => match n with N _ _ => true | T _ => false end) pre) with
  | nil => None
  | N KWhitespace ws :: _ => Some (text_newlines ws)
  | _ :: _ => Some 0
  end.
Definition block_or_stmt (n : pnode) : Prop := match n with N KFlow _ | N (KStatement _) _ => True | _ => False end.
Lemma newlines_text n : node_newlines n = count_chr cNL (List.concat (map spelling (flat n))).
Proof.
  induction n as [t|k cs IH] using pnode_ind'.
  - cbn [node_newlines flat map List.concat]. now rewrite app_nil_r.
  - cbn [node_newlines flat]. fold (flats cs). induction cs as [|a cs IHl]; [reflexivity|].
    inversion IH as [|? ? Ha HF']; subst. cbn [fold_right flats flat_map].
    rewrite map_app, concat_app, count_chr_app, Ha, IHl by exact HF'. reflexivity.
Qed.
Lemma spacing_gap c n pre : block_or_stmt n ->
  spacing c n (before1 pre) =
  match gap pre with
  | None => nil
  | Some k => if k <? 1 then [Req $"C0321" (loc3 (node_loc n)) nil]
              else if k <? lc_min_sp c then [Req $"C0305" (loc3 (node_loc n)) [FS $"not enough"]]
              else if k >? lc_max_sp c then [Req $"C0305" (loc3 (node_loc n)) [FS $"too many"]]
              else nil
  end.
Proof.
  intros _. unfold spacing, gap, before1, nodes. cbv zeta.
  assert (Forall (fun n => match n with N _ _ => True | T _ => False end)
            (rev (filter (fun n : pnode => match n with N _ _ => true | T _ => false end) pre))) as HF.
  { apply Forall_rev, Forall_forall. intros x Hx. apply filter_In in Hx as [_ Hx]. now destruct x. }
  destruct (rev _) as [|p l]; [reflexivity|]. cbn [nth_error]. inversion HF as [|? ? Hp _]; subst.
  destruct p as [t|k ks]; [destruct Hp|]. destruct k; try reflexivity.
  cbn [is_kind k_ws negb]. rewrite newlines_text. reflexivity.
Qed.
Lemma block_or_stmt_b n : is_flow n || is_stmt n = true <-> block_or_stmt n.
Proof. destruct n as [t|k cs]; cbn; [split; [discriminate|tauto]|]. destruct k; cbn; split; try discriminate; tauto. Qed.

Lemma spacing_code c src y i : lint_file c src ctx0 = Ok y -> parsers_ok c -> In i [$"C0321"; $"C0305"] ->
  exists toks tree, tokenize src = Ok toks /\ parse (lc_ctx c) toks = Ok tree /\
  forall r, In r (x_lint y) /\ l_id r = i <->
    ~ In i (lc_disabled c) /\ exists pre n post q, in_body tree pre n post /\ block_or_stmt n /\ ~ In i (muted pre) /\
      In q (spacing c n (before1 pre)) /\ q_id q = i /\ written r q.
Proof.
  intros H HP Hi.
  assert (In i only_body) as Hi' by (cbn [only_body In] in *; tauto).
  destruct (body_code c src y i H HP Hi') as (toks & tree & Ht & Hp & _ & HO & HR).
  exists toks, tree. split; [exact Ht|]. split; [exact Hp|]. intros r. rewrite HR. clear HR.
  split; (intros [Hd K]; split; [exact Hd|]).
  - destruct K as (cs & pre & n & post & qs & q & Hb & -> & Hm & Hr & Hq & Eq & W).
    apply (child_in c pre n post qs q Hr) in Hq; [|now rewrite Eq].
    destruct Hq as [(ks & q1 & -> & Hdoc & Hq)|[[Hn Hq]|(_ & _ & _ & ->)]].
    + apply docstring_coded in Hdoc. apply (coded_in _ _ _ Hdoc) in Hq. rewrite Eq in Hq. exfalso. revert Hq.
      destruct Hi as [<-|[<-|[]]]; names.
    + exists pre, n, post, q. apply block_or_stmt_b in Hn. auto 10.
    + cbn [q_id] in Eq. subst i. exfalso. revert Hi. names.
  - destruct K as (pre & n & post & q & Hb & Hn & Hm & Hq & Eq & W).
    destruct (HO _ pre n post Hb eq_refl) as (qs & Hr).
    exists (pre ++ n :: post), pre, n, post, qs, q. split; [exact Hb|]. split; [reflexivity|]. split; [exact Hm|].
    split; [exact Hr|]. split; [|auto]. apply (child_in c pre n post qs q Hr); [now rewrite Eq|]. right. left.
    split; [now apply block_or_stmt_b|exact Hq].
Qed.

(** A statement or block is reported for sharing a line exactly when something
    other than a newline stands directly before it. *)
Theorem C67_one_line : forall c src y,
  lint_file c src ctx0 = Ok y -> parsers_ok c -> ~ In $"C0321" (lc_disabled c) ->
  exists toks tree, tokenize src = Ok toks /\ parse (lc_ctx c) toks = Ok tree /\
  forall r, In r (x_lint y) /\ l_id r = $"C0321" <->
    exists pre n post k, in_body tree pre n post /\ block_or_stmt n /\ ~ In $"C0321" (muted pre) /\
      gap pre = Some k /\ k < 1 /\
      r = LRec $"C0321" (loc3 (node_loc n)) $"Multiple statements on a single line".
Proof.
  intros c src y H HP Hd.
  destruct (spacing_code c src y $"C0321" H HP) as (toks & tree & Ht & Hp & HR); [now left|].
  exists toks, tree. split; [exact Ht|]. split; [exact Hp|]. intros r. rewrite HR. clear HR. split.
  - intros (_ & pre & n & post & q & Hb & Hn & Hm & Hq & Eq & W). exists pre, n, post.
    rewrite spacing_gap in Hq by exact Hn. destruct (gap pre) as [k|]; [|destruct Hq]. exists k.
    split; [exact Hb|]. split; [exact Hn|]. split; [exact Hm|]. split; [reflexivity|].
    destruct (k <? 1) eqn:Ek.
    + destruct Hq as [<-|[]]. split; [lia|]. eapply (written_msg $"C0321") in W; [exact W|reflexivity|reflexivity].
    + exfalso. destruct (k <? lc_min_sp c); [|destruct (k >? lc_max_sp c)]; try destruct Hq as [<-|[]]; try discriminate.
      destruct Hq.
  - intros (pre & n & post & k & Hb & Hn & Hm & Hg & Hk & ->). split; [exact Hd|].
    exists pre, n, post, (Req $"C0321" (loc3 (node_loc n)) nil). split; [exact Hb|]. split; [exact Hn|].
    split; [exact Hm|]. rewrite spacing_gap, Hg by exact Hn. rewrite (proj2 (Z.ltb_lt k 1) Hk).
    split; [now left|]. split; [reflexivity|]. eapply (written_msg $"C0321"); reflexivity.
Qed.
(** A statement or block on its own line is reported exactly when the number of
    newlines before it is outside the configured range. *)
Theorem C67_blank_lines : forall c src y,
  lint_file c src ctx0 = Ok y -> parsers_ok c -> ~ In $"C0305" (lc_disabled c) ->
  exists toks tree, tokenize src = Ok toks /\ parse (lc_ctx c) toks = Ok tree /\
  forall r, In r (x_lint y) /\ l_id r = $"C0305" <->
    exists pre n post k what, in_body tree pre n post /\ block_or_stmt n /\ ~ In $"C0305" (muted pre) /\
      gap pre = Some k /\ 1 <= k /\
      ((k < lc_min_sp c /\ what = $"not enough") \/ (lc_min_sp c <= k /\ lc_max_sp c < k /\ what = $"too many")) /\
      r = LRec $"C0305" (loc3 (node_loc n)) (what ++ $" newlines between statements").
Proof.
  intros c src y H HP Hd.
  destruct (spacing_code c src y $"C0305" H HP) as (toks & tree & Ht & Hp & HR); [right; now left|].
  exists toks, tree. split; [exact Ht|]. split; [exact Hp|]. intros r. rewrite HR. clear HR. split.
  - intros (_ & pre & n & post & q & Hb & Hn & Hm & Hq & Eq & W). exists pre, n, post.
    rewrite spacing_gap in Hq by exact Hn. destruct (gap pre) as [k|]; [|destruct Hq]. exists k.
    destruct (k <? 1) eqn:Ek; [destruct Hq as [<-|[]]; discriminate|].
    destruct (k <? lc_min_sp c) eqn:E2; [|destruct (k >? lc_max_sp c) eqn:E3; [|destruct Hq]].
    + destruct Hq as [<-|[]]. exists $"not enough".
      split; [exact Hb|]. split; [exact Hn|]. split; [exact Hm|]. split; [reflexivity|]. split; [lia|].
      split; [left; split; [lia|reflexivity]|]. eapply (written_msg $"C0305") in W; [exact W|reflexivity|reflexivity].
    + destruct Hq as [<-|[]]. exists $"too many".
      split; [exact Hb|]. split; [exact Hn|]. split; [exact Hm|]. split; [reflexivity|]. split; [lia|].
      split; [right; split; [lia|split; [lia|reflexivity]]|].
      eapply (written_msg $"C0305") in W; [exact W|reflexivity|reflexivity].
  - intros (pre & n & post & k & what & Hb & Hn & Hm & Hg & Hk & Hw & ->). split; [exact Hd|].
    exists pre, n, post, (Req $"C0305" (loc3 (node_loc n)) [FS what]). split; [exact Hb|]. split; [exact Hn|].
    split; [exact Hm|]. rewrite spacing_gap, Hg by exact Hn. rewrite (proj2 (Z.ltb_ge k 1) Hk). split.
    + destruct Hw as [[Hw ->]|(Hw1 & Hw2 & ->)].
      * rewrite (proj2 (Z.ltb_lt _ _) Hw). now left.
      * rewrite (proj2 (Z.ltb_ge _ _) Hw1). replace (k >? lc_max_sp c) with true by lia. now left.
    + split; [reflexivity|]. destruct Hw as [[Hw ->]|(Hw1 & Hw2 & ->)]; eapply (written_msg $"C0305"); reflexivity.
Qed.

(** ** C70: function and macro definitions have a comment before them *)
Lemma inner_no_stmt n m : inner n = true -> In m (subtrees n) -> is_stmt m = false.
Proof.
  induction n as [t|k cs IH] using pnode_ind'; intros H Hm.
  - destruct Hm as [<-|[]]. reflexivity.
  - cbn [inner] in H. apply andb_prop in H as [H1 H2]. destruct Hm as [<-|Hm].
    + destruct k; try discriminate; reflexivity.
    + apply in_flat_map in Hm as (x & Hx & Hm).
      exact (proj1 (Forall_forall _ _) IH x Hx (proj1 (forallb_forall _ _) H2 x Hx) Hm).
Qed.
Lemma leveled_stmt n m : leveled n = true -> In m (subtrees n) -> is_stmt m = true -> leveled m = true.
Proof.
  induction n as [t|k cs IH] using pnode_ind'; intros H Hm Hs; [discriminate|].
  destruct Hm as [<-|Hm]; [exact H|]. apply in_flat_map in Hm as (x & Hx & Hm).
  assert (forallb leveled cs = true -> leveled m = true) as G1.
  { intros Hc. exact (proj1 (Forall_forall _ _) IH x Hx (proj1 (forallb_forall _ _) Hc x Hx) Hm Hs). }
  assert (forallb inner cs = true -> leveled m = true) as G2.
  { intros Hc. rewrite (inner_no_stmt x m (proj1 (forallb_forall _ _) Hc x Hx) Hm) in Hs. discriminate. }
  destruct k; cbn [leveled] in H; auto; try (apply G2; cbn [inner blockk negb andb] in H; exact H).
  apply andb_prop in H as [H _]. auto.
Qed.
Lemma word_semantic t : is_tt WORD t = true -> is_semantic t = true.
Proof. intros H. unfold is_tt in H. apply ttype_eqb_eq in H. unfold is_semantic. now rewrite H. Qed.
Lemma name_sem ctx toks tree n t : parse ctx toks = Ok tree -> In n (subtrees tree) -> name_tok n = Some t ->
  is_tt WORD t = true /\ exists r, sem n = t :: r.
Proof.
  intros Hp Hn Ht. pose proof (parse_leveled _ _ _ Hp) as HL.
  destruct (name_tok_name n t Ht) as (_ & _ & _ & Hs). pose proof (leveled_stmt _ _ HL Hn Hs) as Hl.
  destruct n as [u|k cs]; [discriminate|]. destruct k; try discriminate.
  destruct cs as [|[u|k2 cs2] cs]; try discriminate. destruct k2; try discriminate.
  destruct cs2 as [|[u|k3 cs3] [|]]; try discriminate. injection Ht as ->. cbn [leveled] in Hl.
  apply andb_prop in Hl as [_ Hw]. split; [exact Hw|]. unfold sem. cbn [flat flats flat_map app filter].
  rewrite (word_semantic t Hw). eauto.
Qed.

(** the last two things before: a comment, then at most one newline *)
Definition documented (pre : list pnode) : Prop :=
  exists l e cm ws,
    filter (fun n => match n with N _ _ => true | T _ => false end) pre = l ++ [N (KComment e) cm; N KWhitespace ws]
    /\ text_newlines ws <= 1.
Lemma documented_before pre :
  (documented pre <-> match before1 pre, before2 pre with
                      | Some (N k0 cs0), Some (N (KComment ex) cs1) => k_ws k0 && (node_newlines (N k0 cs0) <=? 1) = true
                      | _, _ => False
                      end).
Proof.
  unfold documented, before1, before2, nodes. set (l := filter _ pre). split.
  - intros (a & e & cm & ws & E & H). rewrite E, rev_app_distr. cbn [rev app nth_error k_ws andb].
    rewrite newlines_text. apply Z.leb_le. exact H.
  - destruct (rev l) as [|p0 [|p1 r]] eqn:E; cbn [nth_error].
    + tauto.
    + destruct p0; tauto.
    + destruct p0 as [t|k0 cs0]; [tauto|]. destruct p1 as [t|k1 cs1]; [tauto|]. destruct k1; try tauto. intros H.
      apply andb_prop in H as [H1 H2]. destruct k0; try discriminate. exists (rev r), explicit, cs1, cs0. split.
      * rewrite <- (rev_involutive l), E. cbn [rev]. now rewrite <- app_assoc.
      * rewrite newlines_text in H2. now apply Z.leb_le in H2.
Qed.

Theorem C70_missing_docstring : forall c src y,
  lint_file c src ctx0 = Ok y -> parsers_ok c -> ~ In $"C0111" (lc_disabled c) ->
  exists toks tree, tokenize src = Ok toks /\ parse (lc_ctx c) toks = Ok tree /\
  forall r, In r (x_lint y) /\ l_id r = $"C0111" <->
    exists pre op rest post t, in_body tree pre (N KFlow (op :: rest)) post /\ name_tok op = Some t /\
      In (upper (spelling t)) [$"FUNCTION"; $"MACRO"] /\ ~ documented pre /\ ~ In $"C0111" (muted pre) /\
      r = LRec $"C0111" [line (begin t); col (begin t); offset (begin t)]
               $"Missing docstring on function or macro declaration".
Proof.
  intros c src y H HP Hd.
  destruct (body_code c src y $"C0111" H HP) as (toks & tree & Ht & Hp & _ & HO & HR); [cbn; auto 10|].
  exists toks, tree. split; [exact Ht|]. split; [exact Hp|]. intros r. rewrite HR. clear HR.
  assert (forall pre ks post, in_body tree pre (N KFlow ks) post -> exists op rest t, ks = op :: rest /\
    name_tok op = Some t /\ smem (lower (spelling t)) [$"function"; $"macro"] = smem (upper (spelling t)) [$"FUNCTION"; $"MACRO"] /\
    (exists sr, sem op = t :: sr) /\ exists sr, filter is_semantic (flats ks) = t :: sr) as HS.
  { intros pre ks post Hb. apply in_body_sub in Hb.
    destruct (tree_flows _ _ _ _ Hp Hb eq_refl) as (op & w & rest & E & Hw & _). injection E as ->.
    destruct (name_tok_ex op w Hw) as (t & Htk & Eu). exists op, rest, t. split; [reflexivity|]. split; [exact Htk|].
    assert (In op (subtrees tree)) as Hsub.
    { eapply subtrees_trans; [exact Hb|]. cbn [subtrees flat_map]. right. apply in_app_iff. left. apply subtrees_self. }
    destruct (name_sem _ _ _ op t Hp Hsub Htk) as (_ & sr & Es). destruct (name_tok_name op t Htk) as (E1 & _ & E3 & _). split.
    { pose proof (funname_in op _ [$"function"; $"macro"] E1) as K. rewrite E3 in K.
      apply eq_true_iff_eq. rewrite K by repeat constructor. rewrite smem_In. reflexivity. }
    split; [eauto|]. unfold sem in Es. cbn [flats flat_map]. rewrite filter_app, Es. cbn [app]. eauto. }
  split.
  - intros (_ & cs & pre & n & post & qs & q & Hb & -> & Hm & Hr & Hq & Eq & W).
    apply (child_in c pre n post qs q Hr) in Hq; [|rewrite Eq; cbn; auto 10].
    destruct Hq as [(ks & q1 & -> & Hdoc & Hq)|[[_ Hq]|(_ & _ & _ & ->)]].
    + destruct (HS pre ks post Hb) as (op & rest & t & -> & Htk & Hsm & (sr & Es) & sr2 & Ef).
      unfold docstring in Hdoc. rewrite Es, Hsm in Hdoc.
      destruct (smem (upper (spelling t)) [$"FUNCTION"; $"MACRO"]) eqn:Em; [|injection Hdoc as <-; destruct Hq].
      rewrite Ef in Hdoc. apply smem_In in Em.
      assert (~ documented pre /\ q = at_tok $"C0111" t nil) as [Hnd ->].
      { rewrite documented_before.
        destruct (before1 pre) as [[tk|k0 cs0]|]; try (injection Hdoc as <-; destruct Hq as [<-|[]]; tauto).
        destruct (before2 pre) as [[tk|k1 cs1]|]; try (injection Hdoc as <-; destruct Hq as [<-|[]]; tauto).
        destruct k1; try (injection Hdoc as <-; destruct Hq as [<-|[]]; tauto).
        destruct (k_ws k0 && _).
        - apply bindr_ok in Hdoc as (ls & _ & Hdoc). injection Hdoc as <-. destruct (strip _); [|destruct Hq].
          destruct Hq as [<-|[]]. discriminate.
        - injection Hdoc as <-. destruct Hq as [<-|[]]. split; [discriminate|reflexivity]. }
      exists pre, op, rest, post, t. split; [exact Hb|]. split; [exact Htk|]. split; [exact Em|]. split; [exact Hnd|].
      split; [exact Hm|]. eapply (written_msg $"C0111") in W; [exact W|reflexivity|reflexivity].
    + assert (coded [$"C0321"; $"C0305"] (spacing c n (before1 pre))) as K by (unfold spacing; cbv zeta; coded).
      apply (coded_in _ _ _ K) in Hq. rewrite Eq in Hq. exfalso. revert Hq. names.
    + discriminate Eq.
  - intros (pre & op & rest & post & t & Hb & Htk & Hin & Hnd & Hm & ->). split; [exact Hd|].
    destruct (HO _ pre _ post Hb eq_refl) as (qs & Hr).
    exists (pre ++ N KFlow (op :: rest) :: post), pre, (N KFlow (op :: rest)), post, qs, (at_tok $"C0111" t nil).
    split; [exact Hb|]. split; [reflexivity|]. split; [exact Hm|]. split; [exact Hr|]. split.
    + apply (child_in c pre _ post qs _ Hr); [cbn; auto 10|]. left.
      destruct (HS pre _ post Hb) as (op' & rest' & t' & E & Htk' & Hsm & (sr & Es) & sr2 & Ef).
      injection E as <- <-. rewrite Htk in Htk'. injection Htk' as <-.
      exists (op :: rest), [at_tok $"C0111" t nil]. split; [reflexivity|]. split; [|now left].
      unfold docstring. rewrite Es, Hsm, (proj2 (smem_In _ _) Hin), Ef. rewrite documented_before in Hnd.
      destruct (before1 pre) as [[tk|k0 cs0]|]; try reflexivity.
      destruct (before2 pre) as [[tk|k1 cs1]|]; try reflexivity. destruct k1; try reflexivity.
      destruct (k_ws k0 && _); [tauto|reflexivity].
    + split; [reflexivity|]. eapply (written_msg $"C0111"); reflexivity.
Qed.

(** ** Examples *)
Definition found (src : str) (r : lrec) : Prop :=
  parsers_ok default_lcfg /\ ~ In (l_id r) (lc_disabled default_lcfg) /\
  exists y, lint_file default_lcfg src ctx0 = Ok y /\ In r (x_lint y).
Ltac found := split; [intros toks; constructor|]; split; [intros []|];
  eexists; split; [vm_compute; reflexivity|vm_compute; tauto].
Definition sample : str :=
  nl [$"foreach(i a)"; $"  break()"; $"endforeach()"; $"break()"; $"foo() bar()"; nil; nil; nil; nil; $"baz()";
      $"function(f a A b a ${x})"; $"endfunction()"].
Example C62_ex : found sample (LRec $"E0103" [4; 0; 36] $"break outside of loop").
Proof. found. Qed.
Example C68_ex : found sample (LRec $"W0101" [4; 0; 36] $"Unreachable code").
Proof. found. Qed.
Example C67_ex1 : found sample (LRec $"C0321" [5; 6; 50] $"Multiple statements on a single line").
Proof. found. Qed.
Example C67_ex2 : found sample (LRec $"C0305" [10; 0; 60] $"too many newlines between statements").
Proof. found. Qed.
Example C70_ex : found sample (LRec $"C0111" [11; 0; 66] $"Missing docstring on function or macro declaration").
Proof. found. Qed.
