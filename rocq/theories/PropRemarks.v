(** * PropRemarks: the remarks of the argument parsers in cmake-lint (C117, C118) *)
From Verif Require Import Base Regex Lex LexProofs LexClass PropLex TextOps TextProofs Tree Parse ParseProofs
  CmdSpec StdSpecs StdDb StdWf PropParse PropStd Layout LayoutProofs Pieces ParseShape StdShape Markup Pipeline LintDb Lint PropLint PropLintText LintTree
  PropLintChecks PropLintDefs PropLintCrash LintShape PropReport ParserLint.

Lemma nodes_subtrees n : nodes n = subtrees n. Proof. reflexivity. Qed.

(** ** Only the eight codes *)
Lemma front_coded i toks a l : In i l -> coded l [at_front i toks a].
Proof. intros H. constructor; [|constructor]. unfold at_front. destruct toks; exact H. Qed.
Lemma one_coded i t a l : In i l -> coded l [at_tok i t a].
Proof. intros H. constructor; [exact H|constructor]. Qed.
Lemma flat_coded {A} (f : A -> list req) l xs : (forall x, coded l (f x)) -> coded l (flat_map f xs).
Proof. intros H. induction xs; [constructor|]. now apply coded_app. Qed.
Ltac incode := unfold parser_codes; cbn [In]; tauto.
Ltac coding := repeat first [apply coded_nil | apply coded_app | apply front_coded; incode | apply one_coded; incode
  | apply flat_coded; intros | match goal with |- coded _ (if ?b then _ else _) => destruct b end
  | match goal with |- coded _ (match ?b with _ => _ end) => destruct b end ].
Lemma required_coded args : coded parser_codes (required command_required args).
Proof.
  unfold required. apply Forall_forall. intros q Hq. apply in_map_iff in Hq as (p & <- & Hp). apply filter_In in Hp as [Hp _].
  cbn [command_required In] in Hp. destruct Hp as [<-|[<-|[]]]; cbn [q_id fst]; incode.
Qed.
Lemma stmt_coded user toks n : coded parser_codes (stmt_remarks user toks n).
Proof.
  unfold stmt_remarks. destruct n as [|k cs]; [constructor|]. destruct k; try constructor. destruct (kw_lookup _ user); [constructor|].
  unfold form_remarks, custom_command_remarks, target_remarks, set_remarks, cache_remarks, build_remarks, policy_remarks, empty_remarks.
  repeat match goal with |- coded _ (if seqb _ _ then _ else _) => destruct (seqb _ _) end; try coding; try apply required_coded.
  apply Forall_forall. intros q Hq. apply in_map_iff in Hq as (t & <- & _). cbn [at_tok q_id]. incode.
Qed.
Lemma plint_coded ctx user toks : coded parser_codes (plint ctx user toks).
Proof. unfold plint. destruct (parse ctx toks); try constructor. apply flat_coded. intros. apply stmt_coded. Qed.

(** ** C117: the two remarks that cannot be written *)
(** A call in the tree that the shipped parser of the command has read *)
Definition shipped_call (user : list (str * parser)) (tree : pnode) (f : str) (n : pnode) : Prop :=
  In n (subtrees tree) /\ is_stmt n = true /\ funname n = f /\ kw_lookup f user = None.
(** the groups of an argument list *)
Definition is_group (n : pnode) : bool := match n with T _ => false | N (KComment _) _ => false | N _ _ => true end.
(** An argument of add_custom_target that starts a group behind the name and the
    first command, and is neither a keyword nor a flag *)
Definition stray (n : pnode) (t : token) : Prop :=
  exists a g b, kids (argtree n) = a ++ g :: b /\ is_group g = true /\ hd_error (flat g) = Some t
    /\ (2 <= List.length (filter is_group a))%nat /\ kwarg_in t target_words = false.

Definition need (st : tstate) : nat := match st with TName => 2 | TFirst => 1 | TKwargs => 0 end.
Lemma strays_in cs t : forall st, In t (target_strays st cs) <->
  exists a g b, cs = a ++ g :: b /\ is_group g = true /\ hd_error (flat g) = Some t
    /\ (need st <= List.length (filter is_group a))%nat /\ kwarg_in t target_words = false.
Proof.
  induction cs as [|m cs IH]; intros st.
  - split; [intros []|]. intros ([|] & g & b & E & _); discriminate.
  - assert (is_group m = false -> (In t (target_strays st cs) <-> exists a g b, m :: cs = a ++ g :: b /\ is_group g = true
        /\ hd_error (flat g) = Some t /\ (need st <= List.length (filter is_group a))%nat /\ kwarg_in t target_words = false)) as G0.
    { intros Hm. rewrite IH. split.
      - intros (a & g & b & -> & H1 & H2 & H3 & H4). exists (m :: a), g, b. cbn [app filter]. rewrite Hm. auto.
      - intros (a & g & b & E & H1 & H2 & H3 & H4). destruct a as [|m' a]; cbn [app] in E; injection E as <- ->; [congruence|].
        exists a, g, b. cbn [filter] in H3. rewrite Hm in H3. auto. }
    assert (forall st', (need st' = pred (need st))%nat -> is_group m = true ->
      ((need st = 0%nat /\ hd_error (flat m) = Some t /\ kwarg_in t target_words = false) \/ In t (target_strays st' cs) <->
       exists a g b, m :: cs = a ++ g :: b /\ is_group g = true
        /\ hd_error (flat g) = Some t /\ (need st <= List.length (filter is_group a))%nat /\ kwarg_in t target_words = false)) as G1.
    { intros st' Hst Hm. rewrite IH. split.
      - intros [(H1 & H2 & H3)|(a & g & b & -> & H1 & H2 & H3 & H4)].
        + exists nil, m, cs. cbn [app filter List.length]. repeat split; auto. lia.
        + exists (m :: a), g, b. cbn [app filter]. rewrite Hm. cbn [List.length]. repeat split; auto. lia.
      - intros (a & g & b & E & H1 & H2 & H3 & H4). destruct a as [|m' a]; cbn [app] in E; injection E as <- ->.
        + left. cbn [filter List.length] in H3. repeat split; auto. lia.
        + right. exists a, g, b. cbn [filter] in H3. rewrite Hm in H3. cbn [List.length] in H3. repeat split; auto. lia. }
    destruct m as [u|k ks]; [apply G0; reflexivity|].
    assert (is_group (N k ks) = true -> (In t (target_strays st (N k ks :: cs)) <->
      (need st = 0%nat /\ hd_error (flat (N k ks)) = Some t /\ kwarg_in t target_words = false) \/
      In t (target_strays (match st with TName => TFirst | _ => TKwargs end) cs))) as G2.
    { intros Hg. destruct k; try discriminate Hg; cbn [target_strays]; destruct st; cbn [need];
        (destruct (flat (N _ ks)) as [|u r]; cbn [hd_error]; [split; [auto|intros [(H & K & _)|H]; [discriminate|exact H]]|]);
        try (split; [auto|intros [(H & _)|H]; [discriminate|exact H]]);
        (destruct (kwarg_in u target_words) eqn:Eu;
          [split; [auto|intros [(_ & E & K)|H]; [injection E as ->; congruence|exact H]]
          |cbn [In]; split; [intros [->|H]; auto|intros [(_ & E & _)|H]; [injection E as ->; auto|auto]]]). }
    destruct (is_group (N k ks)) eqn:Eg.
    + rewrite (G2 eq_refl). apply (G1 _); [destruct st; reflexivity|reflexivity].
    + destruct k; try discriminate Eg. cbn [target_strays]. now apply G0.
Qed.

(** Every other remark can be written. *)
Lemma front_sound i toks a tpl m : assoc_s i lint_db = Some tpl -> fmt None tpl a = Ok m -> sound (at_front i toks a).
Proof. intros H1 H2. exists tpl, m. unfold at_front. destruct toks; auto. Qed.
Ltac snd2 := first [snd1 | eapply front_sound; vm_compute; reflexivity].
Ltac snding := repeat first [apply sounds_nil | apply sounds_app | apply sounds_one; snd2
  | apply sounds_flat_map; intros | match goal with |- sounds (if ?b then _ else _) => destruct b end
  | match goal with |- sounds (match ?b with _ => _ end) => destruct b end ].
Lemma required_sound args : sounds (required command_required args).
Proof.
  unfold required. apply Forall_forall. intros q Hq. apply in_map_iff in Hq as (p & <- & Hp). apply filter_In in Hp as [Hp _].
  cbn [command_required In] in Hp. destruct Hp as [<-|[<-|[]]]; cbn [fst snd]; eexists; eexists; split; vm_compute; reflexivity.
Qed.
(** A remark about build_command, or about a stray argument of add_custom_target *)
Definition bad_remark (user : list (str * parser)) (toks : list token) (n : pnode) (q : req) : Prop :=
  (funname n = $"build_command" /\ nth_semantic (arg_tokens toks n) 1 <> None /\ q_id q = $"W0106")
  \/ (funname n = $"add_custom_target" /\ (exists t, stray n t) /\ q_id q = $"E1122").
Lemma stmt_sound user toks n q : In q (stmt_remarks user toks n) -> sound q \/ (is_stmt n = true /\ kw_lookup (funname n) user = None /\ bad_remark user toks n q).
Proof.
  unfold stmt_remarks. destruct n as [|k cs]; [intros []|]. destruct k; try (intros []; fail). set (n := N (KStatement _) cs).
  destruct (kw_lookup (funname n) user) eqn:Eu; [intros []|].
  assert (forall qs, sounds qs -> In q qs -> sound q \/ (is_stmt n = true /\ @None parser = None /\ bad_remark user toks n q)) as G.
  { intros qs Hs Hq. left. exact (proj1 (Forall_forall _ _) Hs q Hq). }
  destruct (seqb (funname n) $"file"); [apply G; unfold form_remarks; snding|].
  destruct (seqb (funname n) $"list"); [apply G; unfold form_remarks; snding|].
  destruct (seqb (funname n) $"add_custom_command"); [apply G; unfold custom_command_remarks; snding; apply required_sound|].
  destruct (seqb (funname n) $"add_custom_target") eqn:Et.
  { apply seqb_eq in Et. unfold target_remarks. intros Hq. apply in_app_iff in Hq as [Hq|Hq].
    - apply in_map_iff in Hq as (t & <- & Ht). right. split; [reflexivity|]. split; [reflexivity|]. right.
      split; [exact Et|]. split; [|reflexivity]. exists t. apply strays_in in Ht. exact Ht.
    - revert Hq. apply G. snding. }
  destruct (seqb (funname n) $"set"); [apply G; unfold set_remarks, cache_remarks; snding|].
  destruct (seqb (funname n) $"build_command") eqn:Eb.
  { apply seqb_eq in Eb. unfold build_remarks. destruct (nth_semantic _ 1) eqn:En; [|intros []]. intros [<-|[]]. right.
    split; [reflexivity|]. split; [reflexivity|]. left. split; [exact Eb|]. split; [congruence|]. unfold at_front. now destruct (arg_tokens _ _). }
  destruct (seqb (funname n) $"cmake_policy"); [apply G; unfold policy_remarks; snding|].
  destruct (smem _ _); [apply G; unfold empty_remarks; snding|intros []].
Qed.

Lemma record_all_sound d qs : forall x y, record_all d qs x = Ok y -> forall q, In q qs ->
  In (q_id q) d \/ In (q_id q) (x_sup x) \/ sound q.
Proof.
  induction qs as [|p qs IH]; intros x y H q Hq; [destruct Hq|]. cbn [record_all] in H. apply bindr_ok in H as (z & Hz & H).
  destruct Hq as [->|Hq].
  - unfold record_lint in Hz. destruct (smem (q_id q) d) eqn:E1; [left; now apply smem_In|].
    destruct (smem (q_id q) (x_sup x)) eqn:E2; [right; left; now apply smem_In|]. right. right.
    destruct (assoc_s (q_id q) lint_db) as [tpl|] eqn:E3; [|discriminate]. apply bindr_ok in Hz as (m & Hm & _). exists tpl, m. auto.
  - specialize (IH _ _ H q Hq). apply record_lint_in in Hz as (S1 & _). rewrite S1 in IH. exact IH.
Qed.
Lemma file_plint_sound c src y : lint_file c src ctx0 = Ok y -> forall toks, tokenize src = Ok toks ->
  forall q, In q (lc_plint c toks) -> writable (lc_disabled c) q.
Proof.
  unfold lint_file. destruct (lc_ending c); [|discriminate]. intros H toks Ht q Hq.
  apply bindr_ok in H as (x1 & H1 & H). rewrite Ht in H. cbn [bindr] in H.
  apply bindr_ok in H as (qt & Hqt & H). apply bindr_ok in H as (x2 & H2 & H).
  apply bindr_ok in H as (tree & Hp & H). apply bindr_ok in H as (x3 & H3 & H).
  apply record_all_in in H1 as (S1 & _). apply record_all_in in H2 as (S2 & _).
  destruct (record_all_sound _ _ _ _ H3 q Hq) as [K|[K|K]]; [now left| |now right].
  rewrite S2, S1 in K. destruct K.
Qed.

(** C117: what C104 says, with the remarks of the argument parsers.  Under the
    conditions of C104 the run ends in a report exactly if build_command is called
    nowhere (a call "build_command()" at the very end of the file excepted) or W0106 is
    disabled, and add_custom_target has no stray argument or E1122 is disabled. *)
Theorem C117_report : forall c ex vt specs tbl src toks tree,
  lc_ctx c = std_ctx ex vt tbl -> user_table specs = Ok tbl -> table_counts tbl = true ->
  lc_plint c = plint (lc_ctx c) tbl -> lc_ending c <> None ->
  tokenize src = Ok toks -> parse (lc_ctx c) toks = Ok tree -> flat tree <> nil ->
  (forall t, In t toks -> ~ dangling t) ->
  (forall n, In n (subtrees tree) -> faultless n) ->
  (exists y, lint_file c src ctx0 = Ok y) <->
  (forall n, shipped_call tbl tree $"build_command" n -> nth_semantic (arg_tokens toks n) 1 <> None -> In $"W0106" (lc_disabled c)) /\
  (forall n t, shipped_call tbl tree $"add_custom_target" n -> stray n t -> In $"E1122" (lc_disabled c)).
Proof.
  intros c ex vt specs tbl src toks tree Hc Hu Hk HP He Ht Hp Hne Hd Hf.
  assert (lc_plint c toks = flat_map (stmt_remarks tbl toks) (subtrees tree)) as EP.
  { rewrite HP. unfold plint. rewrite Hp. reflexivity. }
  split.
  - intros (y & Hy). pose proof (file_plint_sound _ _ _ Hy _ Ht) as G. rewrite EP in G. split.
    + intros n (Hn & Hs & Hfn & Hl) H2. destruct (nth_semantic (arg_tokens toks n) 1) eqn:E2; [clear H2|congruence].
      set (q := at_front $"W0106" (arg_tokens toks n) [FS $"build_command(<cachevariable> <makecommand>)"]).
      assert (q_id q = $"W0106") as Eq by (unfold q, at_front; now destruct (arg_tokens toks n)).
      destruct (G q) as [K|(tpl & m & K1 & K2)].
      * apply in_flat_map. exists n. split; [exact Hn|]. unfold stmt_remarks. destruct n as [|k cs]; [discriminate|]. destruct k; try discriminate.
        rewrite Hfn, Hl. cbn [seqb]. vm_compute seqb at 1. unfold build_remarks. rewrite E2. now left.
      * now rewrite Eq in K.
      * exfalso. rewrite Eq in K1. vm_compute in K1. injection K1 as <-. unfold q, at_front in K2. destruct (arg_tokens toks n); vm_compute in K2; discriminate.
    + intros n t (Hn & Hs & Hfn & Hl) H2. destruct (G (at_tok $"E1122" t nil)) as [K|(tpl & m & K1 & K2)].
      * apply in_flat_map. exists n. split; [exact Hn|]. unfold stmt_remarks. destruct n as [|k cs]; [discriminate|]. destruct k; try discriminate.
        rewrite Hfn, Hl. unfold target_remarks. apply in_app_iff. left. apply in_map_iff. exists t. split; [reflexivity|]. apply strays_in. exact H2.
      * exact K.
      * exfalso. vm_compute in K1. injection K1 as <-. vm_compute in K2. discriminate.
  - intros [HB HS]. eapply C104_report; eauto. rewrite EP. apply Forall_forall. intros q Hq. apply in_flat_map in Hq as (n & Hn & Hq).
    apply stmt_sound in Hq as [Hq|(Hs & Hl & [(Hfn & H2 & Eq)|(Hfn & (t & H2) & Eq)])]; [now right|left..]; rewrite Eq.
    + apply (HB n); auto. repeat split; auto. now rewrite <- Hfn.
    + apply (HS n t); auto. repeat split; auto. now rewrite <- Hfn.
Qed.

(** The conditions hold of the file of C60 together with a custom target and a custom
    command; a call of build_command and a stray argument make the run fail. *)
Definition remarks_lcfg : lcfg := with_remarks nil default_lcfg.
Definition remarks_file : str := sound_file ++ nl [$"add_custom_target(t ALL x COMMENT ""c"" VERBATIM)"; $"add_custom_command(OUTPUT o COMMAND x)"].
Definition faultlessb (n : pnode) : bool :=
  match n with
  | N KFlow cs => (3 <=? List.length cs)%nat && Nat.odd (List.length cs)
  | N (KStatement _) _ =>
      (negb (seqb (funname n) $"set") || negb (is_nil (leading n)))
      && (negb (seqb (funname n) $"list") || (2 <=? List.length (leading n))%nat)
      && (negb (smem (funname n) [$"foreach"; $"while"]) || forallb (fun t => negb (seqb (spelling t) $"${ARGN}")) (sem (argtree n)))
  | _ => true
  end.
Lemma faultlessb_ok n : faultlessb n = true -> faultless n.
Proof.
  destruct n as [|k cs]; [easy|]. destruct k; try easy.
  - cbn [faultlessb faultless]. set (n := N _ cs). intros H. apply andb_prop in H as [H H3]. apply andb_prop in H as [H1 H2].
    split; [|split].
    + intros E. rewrite E in H1. cbn in H1. destruct (leading n); [discriminate|easy].
    + intros E. rewrite E in H2. change (seqb $"list" $"list") with true in H2. cbn [negb orb] in H2. now apply Nat.leb_le in H2.
    + intros E t Ht. destruct (smem (funname n) _) eqn:Es; [|apply smem_In in E; congruence]. cbn [negb orb] in H3.
      rewrite forallb_forall in H3. specialize (H3 t Ht). apply negb_true_iff in H3. intros K. rewrite K in H3. discriminate.
  - cbn [faultlessb faultless]. intros H. apply andb_prop in H as [H1 H2]. split; [apply Nat.leb_le; exact H1|exact H2].
Qed.
Definition C104_text (c : lcfg) (src : str) : bool :=
  match tokenize src with
  | Ok toks => match parse (lc_ctx c) toks with
               | Ok tree => forallb (fun t => negb (danglingb t)) toks && forallb faultlessb (subtrees tree) && negb (is_nil (flat tree))
               | _ => false
               end
  | _ => false
  end.
Lemma C104_text_ok c src : C104_text c src = true -> exists toks tree,
  tokenize src = Ok toks /\ parse (lc_ctx c) toks = Ok tree /\ flat tree <> nil /\
  (forall t, In t toks -> ~ dangling t) /\ (forall n, In n (subtrees tree) -> faultless n).
Proof.
  unfold C104_text. destruct (tokenize src) as [toks| |]; try discriminate.
  destruct (parse _ toks) as [tree| |] eqn:Hp; try discriminate. intros H. apply andb_prop in H as [H H3]. apply andb_prop in H as [H1 H2].
  rewrite forallb_forall in H1, H2. exists toks, tree. split; [reflexivity|]. split; [exact Hp|]. split; [destruct (flat tree); easy|]. split.
  - intros t Ht. apply danglingb_no. specialize (H1 t Ht). now apply negb_true_iff in H1.
  - intros n Hn. apply faultlessb_ok. now apply H2.
Qed.
Example C117_report_ex :
  lc_ctx remarks_lcfg = std_ctx no_explicit nil nil /\ user_table nil = Ok nil /\ table_counts nil = true /\
  lc_plint remarks_lcfg = plint (lc_ctx remarks_lcfg) nil /\ lc_ending remarks_lcfg <> None /\
  (exists toks tree, tokenize remarks_file = Ok toks /\ parse (lc_ctx remarks_lcfg) toks = Ok tree /\ flat tree <> nil /\
    (forall t, In t toks -> ~ dangling t) /\ (forall n, In n (subtrees tree) -> faultless n)) /\
  exists y, lint_file remarks_lcfg remarks_file ctx0 = Ok y.
Proof.
  repeat (split; [reflexivity|]). split; [discriminate|]. split; [apply C104_text_ok; vm_compute; reflexivity|].
  eexists. vm_compute. reflexivity.
Qed.
Example build_command_crash : C104_text remarks_lcfg $"build_command(x)" = true /\ lint_file remarks_lcfg $"build_command(x)" ctx0 = Err IndexErr.
Proof. split; vm_compute; reflexivity. Qed.
Example stray_crash : C104_text remarks_lcfg $"add_custom_target(t x VERBATIM y)" = true
  /\ lint_file remarks_lcfg $"add_custom_target(t x VERBATIM y)" ctx0 = Err IndexErr.
Proof. split; vm_compute; reflexivity. Qed.

(** ** C118: what the other remarks say *)
Definition front_loc (ts : list token) : list Z := match ts with t :: _ => loc3 (begin t) | nil => nil end.
Lemma front_req i ts a : at_front i ts a = Req i (front_loc ts) a. Proof. now destruct ts. Qed.
(** the words that name the forms of the commands with several forms *)
Definition forms_of : list (str * list str) := [
  ($"file", [$"READ"; $"STRINGS"; $"TIMESTAMP"; $"WRITE"; $"APPEND"; $"TOUCH"; $"TOUCH_NOCREATE"; $"GENERATE"; $"GLOB"; $"GLOB_RECURSE";
     $"RENAME"; $"REMOVE"; $"REMOVE_RECURSE"; $"MAKE_DIRECTORY"; $"COPY"; $"INSTALL"; $"SIZE"; $"READ_SYMLINK"; $"CREATE_LINK";
     $"RELATIVE_PATH"; $"TO_CMAKE_PATH"; $"TO_NATIVE_PATH"; $"DOWNLOAD"; $"UPLOAD"; $"LOCK"; $"MD5"; $"SHA1"; $"SHA224"; $"SHA256";
     $"SHA384"; $"SHA512"; $"SHA3_224"; $"SHA3_256"; $"SHA3_384"; $"SHA3_512"]);
  ($"list", [$"LENGTH"; $"GET"; $"JOIN"; $"SUBLIST"; $"FIND"; $"APPEND"; $"FILTER"; $"INSERT"; $"POP_BACK"; $"POP_FRONT"; $"PREPEND";
     $"REMOVE_ITEM"; $"REMOVE_AT"; $"REMOVE_DUPLICATES"; $"TRANSFORM"; $"REVERSE"; $"SORT"]);
  ($"cmake_policy", [$"VERSION"; $"SET"; $"GET"; $"PUSH"; $"POP"])].
(** the first word behind the opening parenthesis; [)] if there is no argument *)
Definition first_word (toks : list token) (n : pnode) (t : token) : Prop := first_sem (arg_tokens toks n) = Some t.
Definition empty_call (f : str) (t : token) : Prop := f <> $"cmake_policy" /\ tt t = RIGHT_PAREN.
(** [t] does not name a form of command [f] *)
Definition no_form (f : str) (t : token) : Prop :=
  (exists l, In (f, l) forms_of /\ ~ In (upper (spelling t)) l)
  \/ (f = $"add_custom_command" /\ ~ (tt t = WORD /\ In (upper (spelling t)) [$"TARGET"; $"OUTPUT"])).
Definition formed : list str := [$"file"; $"list"; $"cmake_policy"; $"add_custom_command"].
Definition says_form (f : str) (toks : list token) (n : pnode) (r : lrec) : Prop :=
  exists t, first_word toks n t /\ ~ empty_call f t /\ tt t <> DEREF /\ no_form f t
    /\ r = LRec $"E1126" (loc3 (begin t)) $"Invalid form descriminator".
Definition says_hidden (f : str) (toks : list token) (n : pnode) (r : lrec) : Prop :=
  exists t, first_word toks n t /\ tt t = DEREF
    /\ r = LRec $"C0114" (loc3 (begin t)) $"Form descriminator hidden behind variable dereference".
(** a keyword argument of the call *)
Definition has_keyword (w : str) (n : pnode) : Prop :=
  exists ks ts t, In (N KKwargGroup (N KKeyword (T t :: ts) :: ks)) (kids (argtree n)) /\ normalized_kwarg t = Some w.
Definition args_loc (n : pnode) : list Z := match sem (argtree n) with t :: _ => loc3 (begin t) | nil => node_loc (argtree n) end.
Definition says_missing (w code : str) (msg : str) (toks : list token) (n : pnode) (r : lrec) : Prop :=
  (exists t, first_word toks n t /\ tt t <> RIGHT_PAREN) /\ ~ has_keyword w n /\ r = LRec code (args_loc n) (msg).

Lemma has_kw_ok w n : has_kw w (argtree n) = true <-> has_keyword w n.
Proof.
  unfold has_kw, has_keyword. rewrite existsb_exists. split.
  - intros (g & Hg & H). destruct g as [|k ks]; [discriminate|]. destruct k; try discriminate. destruct ks as [|[|k2 ts] ks]; try discriminate.
    destruct k2; try discriminate. destruct ts as [|[t|] ts]; try discriminate. cbn [group_kw] in H. destruct (normalized_kwarg t) eqn:E; [|discriminate].
    apply seqb_eq in H. subst. eauto 6.
  - intros (ks & ts & t & Hg & H). eexists. split; [exact Hg|]. cbn [group_kw]. rewrite H. apply seqb_eq. reflexivity.
Qed.

Definition only_parsers : list str := [$"C0113"; $"C0114"; $"E1121"; $"E1125"; $"E1126"].
Lemma remark_code c tbl src y i : lint_file c src ctx0 = Ok y -> lc_plint c = plint (lc_ctx c) tbl -> In i only_parsers ->
  exists toks tree, tokenize src = Ok toks /\ parse (lc_ctx c) toks = Ok tree /\
  forall r, In r (x_lint y) /\ l_id r = i <->
    ~ In i (lc_disabled c) /\ exists n q, In n (subtrees tree) /\ In q (stmt_remarks tbl toks n) /\ q_id q = i /\ written r q.
Proof.
  intros H HP Hi. pose proof H as H0. apply file_in in H as (toks & tree & qt & qv & Ht & Hp & Hqt & Hqv & _ & HR).
  exists toks, tree. split; [exact Ht|]. split; [exact Hp|].
  assert (lc_plint c toks = flat_map (stmt_remarks tbl toks) (subtrees tree)) as EP.
  { rewrite HP. unfold plint. rewrite Hp. reflexivity. }
  intros r. rewrite HR. unfold enabled. cbn [x_lint x_sup ctx0 In]. split.
  - intros [[[]|(q & W & [E _] & K)] <-]. pose proof (proj1 W) as Eid. rewrite Eid in *. split; [exact E|].
    assert (forall l, (forall z, In z l -> ~ In z only_parsers) -> In (q_id q) l -> False) as No.
    { intros l Hl Hq. now apply (Hl _ Hq). }
    destruct K as [K|[K|[K|[K|[K|K]]]]].
    + exfalso. apply (coded_in _ _ _ (basics_coded c src)) in K. revert K. apply No. intros z Hz. cbn [In] in Hz. repeat (destruct Hz as [<-|Hz]; [names|]). destruct Hz.
    + exfalso. apply (coded_in _ _ _ (tokens_coded _ _ _ Hqt)) in K. revert K. apply No. intros z Hz. cbn [In] in Hz. repeat (destruct Hz as [<-|Hz]; [names|]). destruct Hz.
    + rewrite EP in K. apply in_flat_map in K as (n & Hn & Hq). eauto 6.
    + exfalso. apply (coded_in _ _ _ (assignments_coded _ _ Hqv)) in K. revert K. apply No. intros z Hz. cbn [In] in Hz. repeat (destruct Hz as [<-|Hz]; [names|]). destruct Hz.
    + exfalso. apply (coded_in _ _ _ (references_coded tree)) in K. revert K. apply No. intros z Hz. cbn [In] in Hz. repeat (destruct Hz as [<-|Hz]; [names|]). destruct Hz.
    + exfalso. destruct K as [([s [t|k cs]] & Hv & K)|(pre & s & t & post & E2 & K)]; [destruct K| |].
      * pose proof (node_coded _ _ _ _ _ K) as Hc. revert Hc. apply No. intros z Hz. destruct k; cbn [node_codes In body_codes flow_codes app] in Hz;
          repeat (destruct Hz as [<-|Hz]; [names|]); destruct Hz.
      * apply (coded_in _ _ _ (indent_coded _ _ _ _)) in K. revert K. apply No. intros z Hz. cbn [In] in Hz. repeat (destruct Hz as [<-|Hz]; [names|]). destruct Hz.
  - intros (E & n & q & Hn & Hq & Eq & W). split; [|now rewrite (proj1 W)]. right. exists q. split; [exact W|].
    rewrite Eq. split; [split; [exact E|intros []]|]. right. right. left. rewrite EP. apply in_flat_map. eauto.
Qed.

Definition jumps : list str := [$"break"; $"continue"; $"enable_testing"; $"return"].
Lemma stmt_by user toks n q : In q (stmt_remarks user toks n) <->
  is_stmt n = true /\ kw_lookup (funname n) user = None /\
  ((funname n = $"file" /\ In q (form_remarks (map fst file_map) (arg_tokens toks n)))
   \/ (funname n = $"list" /\ In q (form_remarks (map fst list_map) (arg_tokens toks n)))
   \/ (funname n = $"add_custom_command" /\ In q (custom_command_remarks (arg_tokens toks n) (argtree n)))
   \/ (funname n = $"add_custom_target" /\ In q (target_remarks (argtree n)))
   \/ (funname n = $"set" /\ In q (set_remarks toks (argtree n)))
   \/ (funname n = $"build_command" /\ In q (build_remarks (arg_tokens toks n)))
   \/ (funname n = $"cmake_policy" /\ In q (policy_remarks (arg_tokens toks n)))
   \/ (In (funname n) jumps /\ In q (empty_remarks (argtree n)))).
Proof.
  destruct n as [t|k cs]; [split; [intros []|intros (H & _); discriminate]|].
  destruct k; try (split; [intros []|intros (H & _); discriminate]).
  unfold stmt_remarks. set (n := N (KStatement _) cs). generalize (funname n) as f. intros f.
  destruct (kw_lookup f user); [split; [intros []|intros (_ & H & _); discriminate]|].
  split.
  - intros H. split; [reflexivity|]. split; [reflexivity|].
    destruct (seqb f $"file") eqn:E1; [apply seqb_eq in E1; tauto|]. destruct (seqb f $"list") eqn:E2; [apply seqb_eq in E2; tauto|].
    destruct (seqb f $"add_custom_command") eqn:E3; [apply seqb_eq in E3; tauto|]. destruct (seqb f $"add_custom_target") eqn:E4; [apply seqb_eq in E4; tauto|].
    destruct (seqb f $"set") eqn:E5; [apply seqb_eq in E5; tauto|]. destruct (seqb f $"build_command") eqn:E6; [apply seqb_eq in E6; tauto|].
    destruct (seqb f $"cmake_policy") eqn:E7; [apply seqb_eq in E7; tauto|]. destruct (smem f _) eqn:E8; [apply smem_In in E8|destruct H].
    do 7 right. split; [exact E8|exact H].
  - intros (_ & _ & H). repeat (destruct H as [(-> & H)|H]; [exact H|]). destruct H as (Hf & H). unfold jumps in Hf. cbn [In] in Hf.
    repeat (destruct Hf as [<-|Hf]; [exact H|]). destruct Hf.
Qed.

(** the cases of one remark with a given code *)
Lemma form_is forms toks q : In q (form_remarks forms toks) <->
  (first_sem toks = None /\ q = at_front $"E1120" toks nil)
  \/ exists t, first_sem toks = Some t /\
     ((tt t = RIGHT_PAREN /\ q = at_front $"E1120" toks nil)
      \/ (tt t = DEREF /\ q = at_tok $"C0114" t nil)
      \/ (tt t <> RIGHT_PAREN /\ tt t <> DEREF /\ ~ In (upper (spelling t)) forms /\ q = at_tok $"E1126" t nil)).
Proof.
  unfold form_remarks. destruct (first_sem toks) as [t|]; [|cbn [In]; split; [intros [<-|[]]; auto|intros [(_ & ->)|(t & H & _)]; [auto|discriminate]]].
  destruct (is_tt RIGHT_PAREN t) eqn:E1.
  { apply is_tt_eq in E1. cbn [In]. split; [intros [<-|[]]; right; exists t; auto|].
    intros [(H & _)|(u & H & K)]; [discriminate|]. injection H as <-. destruct K as [(_ & ->)|[(K & _)|(K & _)]]; [auto|congruence|congruence]. }
  destruct (is_tt DEREF t) eqn:E2.
  { apply is_tt_eq in E2. cbn [In]. split; [intros [<-|[]]; right; exists t; auto|].
    intros [(H & _)|(u & H & K)]; [discriminate|]. injection H as <-. destruct K as [(K & _)|[(_ & ->)|(_ & K & _)]]; [congruence|auto|congruence]. }
  assert (tt t <> RIGHT_PAREN /\ tt t <> DEREF) as [A B] by (split; intros K; apply is_tt_eq in K; congruence).
  destruct (smem _ forms) eqn:E3; cbn [In].
  - apply smem_In in E3. split; [intros []|]. intros [(H & _)|(u & H & K)]; [discriminate|]. injection H as <-. destruct K as [(K & _)|[(K & _)|(_ & _ & K & _)]]; congruence.
  - split.
    + intros [<-|[]]. right. exists t. split; [reflexivity|]. do 2 right. repeat split; auto. intros K. apply smem_In in K. congruence.
    + intros [(H & _)|(u & H & K)]; [discriminate|]. injection H as <-. destruct K as [(K & _)|[(K & _)|(_ & _ & _ & ->)]]; [congruence|congruence|auto].
Qed.
Lemma policy_is toks q : In q (policy_remarks toks) <-> exists t, first_sem toks = Some t /\
     ((tt t = DEREF /\ q = at_tok $"C0114" t nil)
      \/ (tt t <> DEREF /\ ~ In (upper (spelling t)) policy_forms /\ q = at_tok $"E1126" t nil)).
Proof.
  unfold policy_remarks. destruct (first_sem toks) as [t|]; [|split; [intros []|intros (t & H & _); discriminate]].
  destruct (is_tt DEREF t) eqn:E2.
  { apply is_tt_eq in E2. cbn [In]. split; [intros [<-|[]]; exists t; auto|].
    intros (u & H & K). injection H as <-. destruct K as [(_ & ->)|(K & _)]; [auto|congruence]. }
  assert (tt t <> DEREF) as B by (intros K; apply is_tt_eq in K; congruence).
  destruct (smem _ policy_forms) eqn:E3.
  - apply smem_In in E3. split; [intros []|]. intros (u & H & K). injection H as <-. destruct K as [(K & _)|(_ & K & _)]; congruence.
  - split.
    + intros [<-|[]]. exists t. split; [reflexivity|]. right. repeat split; auto. intros K. apply smem_In in K. congruence.
    + intros (u & H & K). injection H as <-. destruct K as [(K & _)|(_ & _ & ->)]; [congruence|left; reflexivity].
Qed.
Lemma required_is q n : In q (required command_required (argtree n)) <->
  (~ has_keyword $"COMMENT" n /\ q = Req $"C0113" (args_loc n) [FS $"COMMENT"])
  \/ (~ has_keyword $"COMMAND" n /\ q = Req $"E1125" (args_loc n) [FS $"COMMAND"]).
Proof.
  unfold required. rewrite in_map_iff. fold (args_loc n). split.
  - intros (p & <- & Hp). apply filter_In in Hp as [Hp K]. apply negb_true_iff in K.
    cbn [command_required In] in Hp. destruct Hp as [<-|[<-|[]]]; [left|right]; (split; [|reflexivity]); cbn [snd] in K; intros G; apply has_kw_ok in G; congruence.
  - intros [(K & ->)|(K & ->)].
    + exists ($"C0113", $"COMMENT"). split; [reflexivity|]. apply filter_In. split; [left; reflexivity|]. cbn [snd]. apply negb_true_iff.
      destruct (has_kw _ _) eqn:E; [apply has_kw_ok in E; easy|reflexivity].
    + exists ($"E1125", $"COMMAND"). split; [reflexivity|]. apply filter_In. split; [right; left; reflexivity|]. cbn [snd]. apply negb_true_iff.
      destruct (has_kw _ _) eqn:E; [apply has_kw_ok in E; easy|reflexivity].
Qed.
Lemma kwarg_word t l : (forall w, In w l -> ~ exists s, w = 45%N :: s) -> (kwarg_in t l = true <-> tt t = WORD /\ In (upper (spelling t)) l).
Proof.
  intros Hl. unfold kwarg_in, normalized_kwarg. destruct (is_tt UNQUOTED_LITERAL t && startswith [45%N] (spelling t)) eqn:E1.
  - apply andb_prop in E1 as [E1 E2]. apply is_tt_eq in E1. rewrite smem_In. split; [|intros [K _]; congruence].
    intros H. exfalso. apply (Hl _ H). destruct (spelling t) as [|c s]; [discriminate|]. cbn [startswith] in E2. apply andb_prop in E2 as [E2 _]. apply N.eqb_eq in E2. subst c. cbn. eauto.
  - destruct (is_tt WORD t) eqn:E2; [apply is_tt_eq in E2; rewrite smem_In; tauto|]. split; [discriminate|]. intros [K _]. apply is_tt_eq in K. congruence.
Qed.
Lemma command_is toks q n : In q (custom_command_remarks toks (argtree n)) <->
  (first_sem toks = None /\ q = at_front $"E1120" toks nil)
  \/ exists t, first_sem toks = Some t /\
     ((tt t = RIGHT_PAREN /\ q = at_front $"E1120" toks nil)
      \/ (tt t = DEREF /\ q = at_tok $"C0114" t nil)
      \/ (tt t <> RIGHT_PAREN /\ tt t <> DEREF /\ ~ (tt t = WORD /\ In (upper (spelling t)) [$"TARGET"; $"OUTPUT"]) /\ q = at_tok $"E1126" t nil)
      \/ (tt t <> RIGHT_PAREN /\ In q (required command_required (argtree n)))).
Proof.
  unfold custom_command_remarks. destruct (first_sem toks) as [t|]; [|cbn [In]; split; [intros [<-|[]]; auto|intros [(_ & ->)|(t & H & _)]; [auto|discriminate]]].
  assert (kwarg_in t [$"TARGET"; $"OUTPUT"] = true <-> tt t = WORD /\ In (upper (spelling t)) [$"TARGET"; $"OUTPUT"]) as HK.
  { apply kwarg_word. intros w [<-|[<-|[]]] (s & H); discriminate. }
  split.
  - intros H. right. exists t. split; [reflexivity|]. destruct (is_tt RIGHT_PAREN t) eqn:E1; [apply is_tt_eq in E1; destruct H as [<-|[]]; auto|].
    assert (tt t <> RIGHT_PAREN) as A by (intros K; apply is_tt_eq in K; congruence).
    apply in_app_iff in H as [H|H]; [|auto 6]. destruct (is_tt DEREF t) eqn:E2; [apply is_tt_eq in E2; destruct H as [<-|[]]; auto|].
    assert (tt t <> DEREF) as B by (intros K; apply is_tt_eq in K; congruence).
    destruct (kwarg_in t _) eqn:E3; [destruct H|]. destruct H as [<-|[]]. do 2 right. left. repeat split; auto. intros K. apply HK in K. congruence.
  - intros [(H & _)|(u & H & K)]; [discriminate|]. injection H as <-. destruct K as [(K & ->)|[(K & ->)|[(K1 & K2 & K3 & ->)|(K1 & K2)]]].
    + apply is_tt_eq in K. rewrite K. now left.
    + assert (is_tt RIGHT_PAREN t = false) as -> by (destruct (is_tt RIGHT_PAREN t) eqn:E; [apply is_tt_eq in E; congruence|reflexivity]).
      apply is_tt_eq in K. rewrite K. now left.
    + assert (is_tt RIGHT_PAREN t = false) as -> by (destruct (is_tt RIGHT_PAREN t) eqn:E; [apply is_tt_eq in E; congruence|reflexivity]).
      assert (is_tt DEREF t = false) as -> by (destruct (is_tt DEREF t) eqn:E; [apply is_tt_eq in E; congruence|reflexivity]).
      destruct (kwarg_in t _) eqn:E3; [exfalso; apply K3, HK; reflexivity|]. now left.
    + assert (is_tt RIGHT_PAREN t = false) as -> by (destruct (is_tt RIGHT_PAREN t) eqn:E; [apply is_tt_eq in E; congruence|reflexivity]).
      apply in_app_iff. now right.
Qed.
Lemma target_is n q : In q (target_remarks (argtree n)) <->
  (exists t, stray n t /\ q = at_tok $"E1122" t nil)
  \/ (~ has_keyword $"COMMENT" n /\ q = Req $"C0113" (front_loc (sem (argtree n))) [FS $"COMMENT"]).
Proof.
  unfold target_remarks. rewrite in_app_iff, in_map_iff. split.
  - intros [(t & <- & H)|H]; [left; exists t; split; [apply strays_in in H; exact H|reflexivity]|].
    right. destruct (has_kw _ _) eqn:E; [destruct H|]. destruct H as [<-|[]]. split; [|apply front_req]. intros K. apply has_kw_ok in K. congruence.
  - intros [(t & H & ->)|(K & ->)]; [left; exists t; split; [reflexivity|apply strays_in; exact H]|].
    right. destruct (has_kw _ _) eqn:E; [apply has_kw_ok in E; easy|]. left. apply front_req.
Qed.
(** the words behind CACHE in a call of set *)
Definition cache_words (n : pnode) (ws : list token) : Prop :=
  exists k ks ts t, In (N KKwargGroup (N KKeyword (T t :: ts) :: ks)) (kids (argtree n)) /\ normalized_kwarg t = Some k
    /\ ws = tl (sem (N KKwargGroup (N KKeyword (T t :: ts) :: ks))).
(** the third word that set does not want: another word than FORCE, or more than four words *)
Definition too_many (ws : list token) (t : token) : Prop :=
  nth_error ws 2 = Some t /\ (upper (spelling t) <> $"FORCE" \/ (4 < List.length ws)%nat).
Lemma set_is toks n q : q_id q = $"E1121" -> (In q (set_remarks toks (argtree n)) <->
  exists ws t, cache_words n ws /\ too_many ws t /\ q = at_tok $"E1121" t nil).
Proof.
  intros Hid. unfold set_remarks. rewrite in_flat_map.
  assert (forall g, In q (cache_remarks toks g) <-> exists t, too_many (tl (sem g)) t /\ q = at_tok $"E1121" t nil) as G.
  { intros g. unfold cache_remarks, too_many. destruct (tl (sem g)) as [|a [|b [|t [|d [|e l]]]]]; cbn [In nth_error List.length].
    - split; [intros [<-|[]]; rewrite front_req in Hid; discriminate|intros (t & (K & _) & _); discriminate].
    - split; [intros [<-|[]]; rewrite front_req in Hid; discriminate|intros (t & (K & _) & _); discriminate].
    - split; [intros []|intros (t & (K & _) & _); discriminate].
    - destruct (seqb _ _) eqn:E; [apply seqb_eq in E|].
      + split; [intros []|intros (u & (K & L) & _)]. injection K as <-. destruct L as [L|L]; [congruence|lia].
      + split; [intros [<-|[]]; exists t; repeat split; left; intros K; apply seqb_eq in K; congruence|].
        intros (u & (K & _) & ->). injection K as <-. now left.
    - destruct (seqb _ _) eqn:E; [apply seqb_eq in E|].
      + split; [intros []|intros (u & (K & L) & _)]. injection K as <-. destruct L as [L|L]; [congruence|lia].
      + split; [intros [<-|[]]; exists t; repeat split; left; intros K; apply seqb_eq in K; congruence|].
        intros (u & (K & _) & ->). injection K as <-. now left.
    - split; [intros [<-|[]]; exists t; repeat split; right; lia|]. intros (u & (K & _) & ->). injection K as <-. now left. }
  split.
  - intros (g & Hg & H). destruct (group_kw g) as [k|] eqn:Ek; [|destruct H]. apply G in H as (t & H & E). exists (tl (sem g)), t. split; [|auto].
    destruct g as [|kd ks]; [discriminate|]. destruct kd; try discriminate. destruct ks as [|[|k2 ts] ks]; try discriminate.
    destruct k2; try discriminate. destruct ts as [|[u|] ts]; try discriminate. cbn [group_kw] in Ek. unfold cache_words. eauto 9.
  - intros (ws & t & (k & ks & ts & u & Hg & Hk & ->) & H & E). eexists. split; [exact Hg|]. cbn [group_kw]. rewrite Hk. apply G. eauto.
Qed.
Lemma empty_is n q : In q (empty_remarks (argtree n)) <->
  exists a b s ks, In (N (KPargGroup a b s) ks) (kids (argtree n)) /\ q = Req $"E1121" (front_loc (flat (N (KPargGroup a b s) ks))) nil.
Proof.
  unfold empty_remarks. rewrite in_flat_map. split.
  - intros (g & Hg & H). destruct g as [|k ks]; [destruct H|]. destruct k; try (destruct H; fail). destruct H as [<-|[]]. rewrite front_req. eauto 7.
  - intros (a & b & s & ks & Hg & ->). eexists. split; [exact Hg|]. rewrite front_req. now left.
Qed.
(** the codes of the remarks *)
Ltac clash H := first [discriminate H | rewrite front_req in H; discriminate H].

(** C118: the five codes that only the argument parsers record.  In a run that ends in
    a report the records with such a code are exactly: E1126 for a first word that names
    no form of the command, C0114 for a first word that is a variable reference, E1125
    and C0113 for custom commands without COMMAND and COMMENT, C0113 also for custom
    targets, E1121 for superfluous arguments of set CACHE and of break, continue,
    enable_testing and return. *)
Definition prescribed (tbl : list (str * parser)) (toks : list token) (tree : pnode) (r : lrec) : Prop :=
  (exists f n, In f formed /\ shipped_call tbl tree f n /\ (says_form f toks n r \/ says_hidden f toks n r))
  \/ (exists n, shipped_call tbl tree $"add_custom_command" n /\
        (says_missing $"COMMAND" $"E1125" $"Missing required keyword argument COMMAND" toks n r
         \/ says_missing $"COMMENT" $"C0113" $"Missing COMMENT in statement which allows it" toks n r))
  \/ (exists n, shipped_call tbl tree $"add_custom_target" n /\ ~ has_keyword $"COMMENT" n /\
        r = LRec $"C0113" (front_loc (sem (argtree n))) $"Missing COMMENT in statement which allows it")
  \/ (exists n ws t, shipped_call tbl tree $"set" n /\ cache_words n ws /\ too_many ws t /\
        r = LRec $"E1121" (loc3 (begin t)) $"Too many positional arguments")
  \/ (exists f n a b s ks, In f jumps /\ shipped_call tbl tree f n /\ In (N (KPargGroup a b s) ks) (kids (argtree n)) /\
        r = LRec $"E1121" (front_loc (flat (N (KPargGroup a b s) ks))) $"Too many positional arguments").
Lemma file_forms l : In ($"file", l) forms_of <-> l = map fst file_map.
Proof. cbn [forms_of In]. split; [intros [H|[H|[H|[]]]]; try discriminate; injection H as <-; vm_compute; reflexivity|intros ->; left; vm_compute; reflexivity]. Qed.
Lemma list_forms l : In ($"list", l) forms_of <-> l = map fst list_map.
Proof. cbn [forms_of In]. split; [intros [H|[H|[H|[]]]]; try discriminate; injection H as <-; vm_compute; reflexivity|intros ->; right; left; vm_compute; reflexivity]. Qed.
Lemma pol_forms l : In ($"cmake_policy", l) forms_of <-> l = policy_forms.
Proof. cbn [forms_of In]. split; [intros [H|[H|[H|[]]]]; try discriminate; injection H as <-; vm_compute; reflexivity|intros ->; right; right; left; vm_compute; reflexivity]. Qed.
Lemma acc_forms l : ~ In ($"add_custom_command", l) forms_of.
Proof. cbn [forms_of In]. intros [H|[H|[H|[]]]]; discriminate. Qed.
Lemma set_codes toks n q : In q (set_remarks toks (argtree n)) -> q_id q = $"E1120" \/ q_id q = $"E1121".
Proof.
  unfold set_remarks. rewrite in_flat_map. intros (g & _ & H). destruct (group_kw g); [|destruct H]. unfold cache_remarks in H.
  destruct (tl (sem g)) as [|a [|b [|t [|d [|e l]]]]]; try (destruct (seqb _ _)); cbn [In] in H; try (destruct H as [<-|[]]); try (destruct H; fail);
    rewrite ?front_req; auto.
Qed.
Lemma only_not i : In i [$"E1120"; $"E1122"; $"W0106"] -> ~ In i only_parsers.
Proof. intros [<-|[<-|[<-|[]]]]; names. Qed.
Lemma written_tok i t tpl r : assoc_s i lint_db = Some tpl -> forall m, fmt None tpl nil = Ok m ->
  (written r (at_tok i t nil) <-> r = LRec i (loc3 (begin t)) m).
Proof. intros H m Hm. unfold at_tok. now apply written_msg with (tpl := tpl). Qed.
Ltac wmsg W := first [ apply written_msg with (1 := eq_refl) in W | idtac ].

Lemma prescribed_ok tbl toks tree r : In (l_id r) only_parsers ->
  ((exists n q, In n (subtrees tree) /\ In q (stmt_remarks tbl toks n) /\ written r q) <-> prescribed tbl toks tree r).
Proof.
  intros Hi.
  assert (forall q, written r q -> In (q_id q) [$"E1120"; $"E1122"; $"W0106"] -> False) as No.
  { intros q W Hq. rewrite <- (proj1 W) in Hq. now apply only_not in Hq. }
  assert (forall t, written r (at_tok $"C0114" t nil) <-> r = LRec $"C0114" (loc3 (begin t)) $"Form descriminator hidden behind variable dereference") as WH.
  { intros t. eapply written_msg; vm_compute; reflexivity. }
  assert (forall t, written r (at_tok $"E1126" t nil) <-> r = LRec $"E1126" (loc3 (begin t)) $"Invalid form descriminator") as WF.
  { intros t. eapply written_msg; vm_compute; reflexivity. }
  assert (forall l, written r (Req $"E1121" l nil) <-> r = LRec $"E1121" l $"Too many positional arguments") as WT.
  { intros l. eapply written_msg; vm_compute; reflexivity. }
  assert (forall l, written r (Req $"C0113" l [FS $"COMMENT"]) <-> r = LRec $"C0113" l $"Missing COMMENT in statement which allows it") as WC.
  { intros l. eapply written_msg; vm_compute; reflexivity. }
  assert (forall l, written r (Req $"E1125" l [FS $"COMMAND"]) <-> r = LRec $"E1125" l $"Missing required keyword argument COMMAND") as WE.
  { intros l. eapply written_msg; vm_compute; reflexivity. }
  split.
  - intros (n & q & Hn & Hq & W). apply stmt_by in Hq as (Hs & Hl & Hq).
    assert (forall f, funname n = f -> shipped_call tbl tree f n) as SC by (intros f <-; repeat split; auto).
    destruct Hq as [(Hf & Hq)|[(Hf & Hq)|[(Hf & Hq)|[(Hf & Hq)|[(Hf & Hq)|[(Hf & Hq)|[(Hf & Hq)|(Hf & Hq)]]]]]]].
    + apply form_is in Hq as [(_ & ->)|(t & Ht & [(_ & ->)|[(K & ->)|(K1 & K2 & K3 & ->)]])].
      * exfalso. apply (No _ W). rewrite front_req. cbn; tauto.
      * exfalso. apply (No _ W). rewrite front_req. cbn; tauto.
      * left. exists $"file", n. split; [cbn; tauto|]. split; [auto|]. right. exists t. repeat split; auto. now apply WH.
      * left. exists $"file", n. split; [cbn; tauto|]. split; [auto|]. left. exists t. split; [exact Ht|]. split; [intros [_ K]; auto|]. split; [auto|].
        split; [left; eexists; split; [apply file_forms; reflexivity|exact K3]|]. now apply WF.
    + apply form_is in Hq as [(_ & ->)|(t & Ht & [(_ & ->)|[(K & ->)|(K1 & K2 & K3 & ->)]])].
      * exfalso. apply (No _ W). rewrite front_req. cbn; tauto.
      * exfalso. apply (No _ W). rewrite front_req. cbn; tauto.
      * left. exists $"list", n. split; [cbn; tauto|]. split; [auto|]. right. exists t. repeat split; auto. now apply WH.
      * left. exists $"list", n. split; [cbn; tauto|]. split; [auto|]. left. exists t. split; [exact Ht|]. split; [intros [_ K]; auto|]. split; [auto|].
        split; [left; eexists; split; [apply list_forms; reflexivity|exact K3]|]. now apply WF.
    + apply command_is in Hq as [(_ & ->)|(t & Ht & [(_ & ->)|[(K & ->)|[(K1 & K2 & K3 & ->)|(K1 & K2)]]])].
      * exfalso. apply (No _ W). rewrite front_req. cbn; tauto.
      * exfalso. apply (No _ W). rewrite front_req. cbn; tauto.
      * left. exists $"add_custom_command", n. split; [cbn; tauto|]. split; [auto|]. right. exists t. repeat split; auto. now apply WH.
      * left. exists $"add_custom_command", n. split; [cbn; tauto|]. split; [auto|]. left. exists t. split; [exact Ht|]. split; [intros [_ K]; auto|]. split; [auto|].
        split; [right; auto|]. now apply WF.
      * right. left. exists n. split; [auto|]. apply required_is in K2 as [(K2 & ->)|(K2 & ->)]; [right|left].
        -- split; [exists t; auto|]. split; [exact K2|]. now apply WC.
        -- split; [exists t; auto|]. split; [exact K2|]. now apply WE.
    + apply target_is in Hq as [(t & _ & ->)|(K & ->)]; [exfalso; apply (No _ W); cbn; tauto|]. do 2 right. left. exists n. split; [auto|]. split; [exact K|]. now apply WC.
    + destruct (set_codes _ _ _ Hq) as [E|E]; [exfalso; apply (No _ W); rewrite E; cbn; tauto|]. apply set_is in Hq as (ws & t & H1 & H2 & ->); [|exact E].
      do 3 right. left. exists n, ws, t. split; [auto|]. split; [exact H1|]. split; [exact H2|]. now apply WT.
    + exfalso. apply (No _ W). unfold build_remarks in Hq. destruct (nth_semantic _ 1); [|destruct Hq]. destruct Hq as [<-|[]]. rewrite front_req. cbn; tauto.
    + apply policy_is in Hq as (t & Ht & [(K & ->)|(K2 & K3 & ->)]); left; exists $"cmake_policy", n; (split; [cbn; tauto|]); (split; [auto|]).
      * right. exists t. repeat split; auto. now apply WH.
      * left. exists t. split; [exact Ht|]. split; [intros [K _]; auto|]. split; [auto|].
        split; [left; eexists; split; [apply pol_forms; reflexivity|exact K3]|]. now apply WF.
    + apply empty_is in Hq as (a & b & s & ks & H1 & ->). do 4 right. exists (funname n), n, a, b, s, ks. split; [exact Hf|]. split; [auto|]. split; [exact H1|]. now apply WT.
  - assert (forall f n q, shipped_call tbl tree f n -> written r q ->
      ((f = $"file" /\ In q (form_remarks (map fst file_map) (arg_tokens toks n)))
       \/ (f = $"list" /\ In q (form_remarks (map fst list_map) (arg_tokens toks n)))
       \/ (f = $"add_custom_command" /\ In q (custom_command_remarks (arg_tokens toks n) (argtree n)))
       \/ (f = $"add_custom_target" /\ In q (target_remarks (argtree n)))
       \/ (f = $"set" /\ In q (set_remarks toks (argtree n)))
       \/ (f = $"build_command" /\ In q (build_remarks (arg_tokens toks n)))
       \/ (f = $"cmake_policy" /\ In q (policy_remarks (arg_tokens toks n)))
       \/ (In f jumps /\ In q (empty_remarks (argtree n)))) ->
      exists n q, In n (subtrees tree) /\ In q (stmt_remarks tbl toks n) /\ written r q) as SC.
    { intros f n q (Hn & Hs & <- & Hl) W H. exists n, q. split; [exact Hn|]. split; [apply stmt_by; auto|exact W]. }
    intros [(f & n & Hf & Hc & K)|[(n & Hc & K)|[(n & Hc & K1 & K2)|[(n & ws & t & Hc & K1 & K2 & K3)|(f & n & a & b & s & ks & Hf & Hc & K1 & K2)]]]].
    + destruct K as [(t & Ht & He & Hd & Hno & Hr)|(t & Ht & Hd & Hr)]; [apply WF in Hr|apply WH in Hr]; apply (SC _ _ _ Hc Hr).
      * assert (f <> $"cmake_policy" -> tt t <> RIGHT_PAREN) as He' by (intros A B; apply He; split; auto).
        unfold formed in Hf. cbn [In] in Hf. destruct Hf as [<-|[<-|[<-|[<-|[]]]]].
        -- left. split; [reflexivity|]. apply form_is. right. exists t. split; [exact Ht|]. do 2 right. split; [apply He'; discriminate|]. split; [exact Hd|]. split; [|reflexivity].
           destruct Hno as [(l & Hl & K)|(K & _)]; [|discriminate]. apply file_forms in Hl. now subst.
        -- right. left. split; [reflexivity|]. apply form_is. right. exists t. split; [exact Ht|]. do 2 right. split; [apply He'; discriminate|]. split; [exact Hd|]. split; [|reflexivity].
           destruct Hno as [(l & Hl & K)|(K & _)]; [|discriminate]. apply list_forms in Hl. now subst.
        -- do 6 right. left. split; [reflexivity|]. apply policy_is. exists t. split; [exact Ht|]. right. split; [exact Hd|]. split; [|reflexivity].
           destruct Hno as [(l & Hl & K)|(K & _)]; [|discriminate]. apply pol_forms in Hl. now subst.
        -- do 2 right. left. split; [reflexivity|]. apply command_is. right. exists t. split; [exact Ht|]. do 2 right. left. split; [apply He'; discriminate|]. split; [exact Hd|].
           split; [|reflexivity]. destruct Hno as [(l & Hl & _)|(_ & K)]; [now apply acc_forms in Hl|exact K].
      * unfold formed in Hf. cbn [In] in Hf. destruct Hf as [<-|[<-|[<-|[<-|[]]]]].
        -- left. split; [reflexivity|]. apply form_is. right. exists t. auto.
        -- right. left. split; [reflexivity|]. apply form_is. right. exists t. auto.
        -- do 6 right. left. split; [reflexivity|]. apply policy_is. exists t. auto.
        -- do 2 right. left. split; [reflexivity|]. apply command_is. right. exists t. auto.
    + destruct K as [((t & Ht & Hp) & Hno & Hr)|((t & Ht & Hp) & Hno & Hr)]; [apply WE in Hr|apply WC in Hr]; apply (SC _ _ _ Hc Hr); do 2 right; left;
        (split; [reflexivity|]); apply command_is; right; exists t; (split; [exact Ht|]); do 3 right; (split; [exact Hp|]); apply required_is; auto.
    + apply WC in K2. apply (SC _ _ _ Hc K2). do 3 right. left. split; [reflexivity|]. apply target_is. auto.
    + apply WT in K3. apply (SC _ _ _ Hc K3). do 4 right. left. split; [reflexivity|]. apply set_is; [reflexivity|]. exists ws, t. auto.
    + apply WT in K2. apply (SC _ _ _ Hc K2). do 7 right. split; [exact Hf|]. apply empty_is. eauto 7.
Qed.
Theorem C118_remarks : forall c tbl src y, lint_file c src ctx0 = Ok y -> lc_plint c = plint (lc_ctx c) tbl ->
  exists toks tree, tokenize src = Ok toks /\ parse (lc_ctx c) toks = Ok tree /\
  forall r, In (l_id r) [$"C0113"; $"C0114"; $"E1121"; $"E1125"; $"E1126"] ->
    (In r (x_lint y) <-> ~ In (l_id r) (lc_disabled c) /\ prescribed tbl toks tree r).
Proof.
  intros c tbl src y H HP. destruct (remark_code c tbl src y $"C0113" H HP (or_introl eq_refl)) as (toks & tree & Ht & Hp & _).
  exists toks, tree. split; [exact Ht|]. split; [exact Hp|]. intros r Hi.
  destruct (remark_code c tbl src y (l_id r) H HP Hi) as (toks' & tree' & Ht' & Hp' & HR). rewrite Ht in Ht'. injection Ht' as <-. rewrite Hp in Hp'. injection Hp' as <-.
  specialize (HR r). rewrite <- (prescribed_ok tbl toks tree r Hi). split.
  - intros K. destruct (proj1 HR (conj K eq_refl)) as (K1 & n & q & K2 & K3 & _ & K4). split; [exact K1|]. eauto.
  - intros (K1 & n & q & K2 & K3 & K4). apply HR. split; [exact K1|]. exists n, q. split; [exact K2|]. split; [exact K3|]. split; [symmetry; exact (proj1 K4)|exact K4].
Qed.
Definition remarks_sample : str := nl [$"file(FOO x)"; $"list(${X} y)"; $"add_custom_command(OUTPUT o DEPENDS x)"; $"add_custom_target(t)";
  $"set(x y CACHE STRING ""d"" BAR)"; $"return(1)"; $"cmake_policy(SET CMP0001 NEW)"].
Example C118_remarks_ex : exists y, lint_file remarks_lcfg remarks_sample ctx0 = Ok y /\ lc_plint remarks_lcfg = plint (lc_ctx remarks_lcfg) nil
  /\ map (fun r => (l_id r, firstn 1 (l_loc r))) (filter (fun r => smem (l_id r) only_parsers) (x_lint y))
     = [($"E1126", [1]); ($"C0114", [2]); ($"C0113", [3]); ($"E1125", [3]); ($"C0113", [4]); ($"E1121", [5]); ($"E1121", [6])].
Proof. eexists. split; [vm_compute; reflexivity|]. split; [reflexivity|]. vm_compute. reflexivity. Qed.
