(** * PropPlaces: where in the file the arguments of a statement begin (for C118 and C124) *)
From Verif Require Import Base Regex Lex LexProofs LexClass TextOps TextProofs Tree Parse ParseProofs PropParse CmdSpec
  StdSpecs StdDb PropLex PropStd PropBlocks ArgShape Layout SortProofs Pipeline NamesShape LintDb Lint PropLint
  PropLintText LintTree PropLintChecks PropLintDefs PropLintMore PropLintCrash LintShape PropReport ParserLint PropRemarks PropLintRest.

(** [cs] are the children of a statement that stands in the file as the name [fn],
    the blanks [ws], the parenthesis [lp], the blanks [ws2] and then [args] *)
Definition written_as (cs : list pnode) (fn : token) (ws : list token) (lp : token) (ws2 : list token) : Prop :=
  tt fn = WORD /\ tt lp = LEFT_PAREN /\ Forall (fun t => tt t = WHITESPACE \/ tt t = NEWLINE) (ws ++ ws2) /\
  exists more, cs = N KFunname [T fn] :: map T ws ++ N KLParen [T lp] :: map T ws2 ++ more.
Definition stands (toks : list token) (n : pnode) : Prop :=
  exists pre fn ws lp ws2 args, toks = pre ++ fn :: ws ++ lp :: ws2 ++ args /\ written_as (kids n) fn ws lp ws2 /\
    (forall t r, args = t :: r -> ~ (tt t = WHITESPACE \/ tt t = NEWLINE)).
Definition St (toks : list token) (n : pnode) : Prop := forall m, In m (subtrees n) -> is_stmt m = true -> stands toks m.

Lemma ws_tt t : is_ws t = true <-> tt t = WHITESPACE \/ tt t = NEWLINE.
Proof. unfold is_ws, tmem. destruct (tt t); cbn; intuition discriminate. Qed.
Lemma take_ws_is toks : forall a r, take_ws toks = (a, r) -> exists ws, a = map T ws /\ toks = ws ++ r /\
  Forall (fun t => tt t = WHITESPACE \/ tt t = NEWLINE) ws /\ (forall t r', r = t :: r' -> ~ (tt t = WHITESPACE \/ tt t = NEWLINE)).
Proof.
  induction toks as [|t toks IH]; intros a r H; cbn [take_ws] in H.
  - injection H as <- <-. exists nil. repeat split; auto. discriminate.
  - destruct (is_ws t) eqn:E.
    + destruct (take_ws toks) as [a0 r0] eqn:E0. injection H as <- <-. destruct (IH _ _ eq_refl) as (ws & -> & -> & F & G).
      exists (t :: ws). apply ws_tt in E. repeat split; auto.
    + injection H as <- <-. exists nil. repeat split; auto. intros t' r' H K. injection H as <- <-. apply ws_tt in K. congruence.
Qed.
Lemma inner_none n : ArgShape.Q n -> forall m, In m (subtrees n) -> is_stmt m = false.
Proof.
  induction n as [t|k cs IH] using pnode_ind'; intros H m Hm.
  - destruct Hm as [<-|[]]. reflexivity.
  - unfold ArgShape.Q in H. cbn [inner] in H. apply andb_prop in H as [Hk H]. destruct Hm as [<-|Hm].
    + destruct k; try reflexivity; discriminate.
    + apply in_flat_map in Hm as (x & Hx & Hm). rewrite Forall_forall in IH. rewrite forallb_forall in H. apply (IH x Hx); auto. exact (H x Hx).
Qed.

Section Places.
  Variables (ctx : pctx) (whole : list token).
  Hypothesis Hwf : wfctx true ctx.
  (** [toks] is what is left of the file *)
  Definition left_of (toks : list token) : Prop := exists p, whole = p ++ toks.
  Lemma left_suf toks r : left_of toks -> (exists u, toks = u ++ r) -> left_of r.
  Proof. intros (p & E) (u & ->). exists (p ++ u). rewrite <- app_assoc. exact E. Qed.
  Lemma left_tl t r : left_of (t :: r) -> left_of r.
  Proof. intros H. apply (left_suf _ _ H). now exists [t]. Qed.
  Lemma inner_St n : ArgShape.Q n -> St whole n.
  Proof. intros H m Hm Hs. rewrite (inner_none n H m Hm) in Hs. discriminate. Qed.
  Lemma node_St k cs : is_stmt (N k cs) = false -> Forall (St whole) cs -> St whole (N k cs).
  Proof.
    intros Hk H m Hm Hs. destruct Hm as [<-|Hm]; [congruence|]. apply in_flat_map in Hm as (x & Hx & Hm).
    rewrite Forall_forall in H. exact (H x Hx m Hm Hs).
  Qed.
  Lemma statement_St n toks x r : statement n ctx toks = Ok (x, r) -> wordy toks -> left_of toks -> St whole x.
  Proof.
    intros H HW (p & Hp). pose proof (ArgShape.statement_Q ctx n toks x r H HW) as HL. unfold statement in H. destruct toks as [|fn r0]; [discriminate|].
    destruct (take_ws r0) as [ws r1] eqn:Ew. apply take_ws_is in Ew as (ws' & -> & -> & F1 & _).
    destruct r1 as [|lp r1]; [discriminate|].
    destruct (negb _) eqn:El; [discriminate|]. apply Bool.negb_false_iff in El.
    destruct (take_ws r1) as [ws2 r2] eqn:Ew2. apply take_ws_is in Ew2 as (ws2' & -> & -> & F2 & G2).
    apply bindr_ok in H as ([args r3] & E & H). apply bindr_ok in H as ([tl r4] & Et & H).
    destruct r4 as [|rp r5]; [discriminate|]. destruct (consume_trailing ctx r5) as [tr r6] eqn:Etr. injection H as <- <-.
    intros m Hm Hs. destruct Hm as [<-|Hm].
    - exists p, fn, ws', lp, ws2', r2. split; [exact Hp|]. split; [|exact G2]. split; [|split; [|split]].
      + cbn in HW. unfold is_tt in HW. now apply ttype_eqb_eq in HW.
      + unfold is_tt in El. now apply ttype_eqb_eq in El.
      + apply Forall_app. auto.
      + cbn [kids app]. eexists. reflexivity.
    - exfalso. cbn [leveled] in HL. apply andb_prop in HL as [HL _]. apply in_flat_map in Hm as (y & Hy & Hm).
      rewrite forallb_forall in HL. rewrite (inner_none y (HL y Hy) m Hm) in Hs. discriminate.
  Qed.
  Lemma snocSt acc x : Forall (St whole) acc -> St whole x -> Forall (St whole) (acc ++ [x]).
  Proof. intros. apply Forall_app. auto. Qed.
  Lemma body_St n :
    (forall bset acc toks a r, Forall (St whole) acc -> left_of toks -> Parse.body_loop n ctx bset acc toks = Ok (a, r) -> Forall (St whole) a /\ wordy r)
    /\ (forall toks x r, flow n ctx toks = Ok (x, r) -> wordy toks -> left_of toks -> St whole x)
    /\ (forall acc toks a r, Forall (St whole) acc -> wordy toks -> left_of toks -> if_loop n ctx acc toks = Ok (a, r) -> Forall (St whole) a).
  Proof.
    induction n as [|m (IHb & IHf & IHi)]; [split; [|split]; intros; discriminate|].
    split; [|split].
    - intros bset acc toks a r Ha Hl H. cbn [Parse.body_loop] in H.
      destruct toks as [|t toks]; [injection H as <- <-; split; [auto|exact I]|].
      destruct (is_ws t).
      { destruct (take_ws (t :: toks)) as [ws r0] eqn:E. pose proof (take_ws_Q _ _ _ E) as EQ. apply take_ws_is in E as (u & _ & E & _).
        eapply IHb; [| |exact H]; [|apply (left_suf _ _ Hl); eauto]. apply snocSt; auto. apply inner_St, Q_N; auto. }
      destruct (is_tt COMMENT t).
      { apply bindr_ok in H as ([c r1] & E & H). pose proof (comment_suffix _ _ _ E) as Es.
        apply ArgShape.consume_comment_Q in E. eapply IHb; [| |exact H]; [|apply (left_suf _ _ Hl); eauto]. apply snocSt; auto. now apply inner_St. }
      destruct (is_onoff t).
      { eapply IHb; [| |exact H]; [|now apply left_tl in Hl]. apply snocSt; auto. now apply inner_St. }
      destruct (is_tt BRACKET_COMMENT t).
      { apply bindr_ok in H as ([c r1] & E & H). pose proof (comment_suffix _ _ _ E) as Es.
        apply ArgShape.consume_comment_Q in E. eapply IHb; [| |exact H]; [|apply (left_suf _ _ Hl); eauto]. apply snocSt; auto. now apply inner_St. }
      destruct (is_tt WORD t) eqn:Ew.
      { destruct (smem _ bset); [injection H as <- <-; auto|].
        destruct (smem _ flow_names).
        - apply bindr_ok in H as ([sub r1] & E & H). pose proof (flow_suffix ctx Hwf _ _ _ _ E) as Es. apply IHf in E; auto.
          eapply IHb; [| |exact H]; [|apply (left_suf _ _ Hl); eauto]. apply snocSt; auto.
        - apply bindr_ok in H as ([sub r1] & E & H). pose proof (statement_suffix ctx Hwf _ _ _ _ E) as Es. apply statement_St in E; auto.
          eapply IHb; [| |exact H]; [|apply (left_suf _ _ Hl); eauto]. apply snocSt; auto. }
      destruct (is_tt ATWORD t).
      { apply bindr_ok in H as ([sub r1] & E & H). pose proof (atword_Q _ _ _ _ E) as EQ.
        unfold atword_statement in E. destruct (consume_trailing ctx toks) as [tr r2] eqn:Etr.
        apply (ParseProofs.consume_trailing_Q (fun _ _ => True)) in Etr as (u & -> & _); auto. injection E as <- <-.
        eapply IHb; [| |exact H]; [|apply (left_suf _ _ (left_tl _ _ Hl)); eauto]. apply snocSt; auto. now apply inner_St. }
      destruct (is_tt BYTEORDER_MARK t); [|discriminate].
      eapply IHb; [| |exact H]; auto. now apply left_tl in Hl.
    - intros toks x r H HW Hl. cbn [flow] in H.
      destruct toks as [|t toks]; [discriminate|].
      destruct (seqb _ _).
      + apply bindr_ok in H as ([a r1] & E & H). injection H as <- <-.
        apply IHi in E; auto. now apply node_St.
      + apply bindr_ok in H as ([op r1] & E & H). pose proof (left_suf _ _ Hl (statement_suffix ctx Hwf _ _ _ _ E)) as L1. apply statement_St in E; auto.
        apply bindr_ok in H as ([bd r2] & E2 & H). pose proof (left_suf _ _ L1 (proj1 (body_suffix ctx Hwf _ _ _ _ _ _ E2))) as L2. apply IHb in E2 as [E2 HW2]; auto.
        apply bindr_ok in H as ([cl r3] & E3 & H). apply statement_St in E3; auto.
        injection H as <- <-. apply node_St; [reflexivity|]. repeat (apply Forall_cons; auto). now apply node_St.
    - intros acc toks a r Ha HW Hl H. cbn [if_loop] in H.
      destruct toks as [|t toks]; [injection H as <- <-; auto|].
      destruct (seqb _ _).
      + apply bindr_ok in H as ([cl r1] & E & H). injection H as <- <-.
        apply statement_St in E; auto. now apply snocSt.
      + apply bindr_ok in H as ([op r1] & E & H). pose proof (left_suf _ _ Hl (statement_suffix ctx Hwf _ _ _ _ E)) as L1. apply statement_St in E; auto.
        apply bindr_ok in H as ([bd r2] & E2 & H). pose proof (left_suf _ _ L1 (proj1 (body_suffix ctx Hwf _ _ _ _ _ _ E2))) as L2. apply IHb in E2 as [E2 HW2]; auto.
        eapply IHi; [|exact HW2|exact L2|exact H]. apply Forall_app. split; auto.
        repeat (apply Forall_cons; auto). now apply node_St.
  Qed.
End Places.
Lemma parse_stands ctx toks tree n : wfctx true ctx -> parse ctx toks = Ok tree -> In n (subtrees tree) -> is_stmt n = true -> stands toks n.
Proof.
  intros Hwf H Hn Hs. unfold parse in H. apply bindr_ok in H as ([a r] & E & H). injection H as <-.
  destruct (body_St ctx toks Hwf (parse_fuel toks)) as [Hb _]. apply Hb in E as [E _]; auto; [|now exists nil].
  exact (node_St toks KBody a eq_refl E n Hn Hs).
Qed.

(** ** The places of tokens *)
Lemma later src toks p t q u r : tokenize src = Ok toks -> toks = p ++ t :: q ++ u :: r ->
  tt t <> BYTEORDER_MARK -> tt u <> BYTEORDER_MARK -> offset (begin t) < offset (begin u).
Proof.
  intros H E Ht Hu. pose proof (C03_locations src toks p t (q ++ u :: r) H E Ht) as A.
  pose proof (C03_locations src toks (p ++ t :: q) u r H) as B. rewrite <- app_assoc in B. specialize (B E Hu).
  rewrite A, B. unfold position. cbn [offset]. rewrite filter_app. cbn [filter].
  destruct (ttype_eqb (tt t) BYTEORDER_MARK) eqn:K; [apply ttype_eqb_eq in K; contradiction|]. cbn [negb].
  rewrite map_app, concat_app. cbn [map List.concat]. rewrite !bytelen_app.
  pose proof (proj2 (C02_lex_lossless src toks H)) as F. rewrite Forall_forall in F.
  assert (spelling t <> nil) as Hn. { apply F. rewrite E. apply in_or_app. right. now left. }
  destruct (spelling t) as [|c s]; [congruence|]. change (bytelen (c :: s)) with (utf8_len c + bytelen s).
  pose proof (utf8_len_pos c). pose proof (bytelen_nonneg s).
  pose proof (bytelen_nonneg (List.concat (map spelling (filter (fun x => negb (ttype_eqb (tt x) BYTEORDER_MARK)) q)))). lia.
Qed.
Lemma bom_zero src toks t : tokenize src = Ok toks -> In t toks -> tt t = BYTEORDER_MARK -> offset (begin t) = 0.
Proof.
  intros H Hi Ht. destruct (tokenize_strip src toks H) as (_ & Hb & _ & [E|E]).
  - exfalso. rewrite E in Hi. unfold no_bom in Hb. rewrite Forall_forall in Hb. exact (Hb t Hi Ht).
  - rewrite E in Hi. destruct Hi as [<-|Hi]; [reflexivity|]. exfalso. unfold no_bom in Hb. rewrite Forall_forall in Hb. exact (Hb t Hi Ht).
Qed.
Lemma offset_nonneg src toks p t r : tokenize src = Ok toks -> toks = p ++ t :: r -> 0 <= offset (begin t).
Proof.
  intros H E. destruct (ttype_eqb (tt t) BYTEORDER_MARK) eqn:K.
  - apply ttype_eqb_eq in K. rewrite (bom_zero src toks t H); [lia| |exact K]. rewrite E. apply in_or_app. right. now left.
  - rewrite (C03_locations src toks p t r H E); [apply bytelen_nonneg|]. intros K'. apply ttype_eqb_eq in K'. congruence.
Qed.
Lemma behind_at o p : forall u r, (forall t, In t p -> offset (begin t) <> o) -> offset (begin u) = o -> behind o (p ++ u :: r) = r.
Proof.
  induction p as [|t p IH]; intros u r Hp Hu; cbn [app behind].
  - now rewrite Hu, Z.eqb_refl.
  - destruct (offset (begin t) =? o) eqn:E; [|apply IH; auto; intros x Hx; apply Hp; now right].
    apply Z.eqb_eq in E. destruct (Hp t (or_introl eq_refl) E).
Qed.
(** The tokens behind [u] are those that follow it in the file, for every token with a
    token other than a byte-order mark before it. *)
Theorem C124_behind : forall src toks p v q u r, tokenize src = Ok toks -> toks = p ++ v :: q ++ u :: r ->
  tt v <> BYTEORDER_MARK -> tt u <> BYTEORDER_MARK -> behind (offset (begin u)) toks = r.
Proof.
  intros src toks p v q u r H E Hv Hu. rewrite E at 1.
  replace (p ++ v :: q ++ u :: r) with ((p ++ v :: q) ++ u :: r) by now rewrite <- app_assoc.
  apply behind_at; [|reflexivity]. intros t Ht. apply in_split in Ht as (a & b & Ht).
  assert (toks = a ++ t :: b ++ u :: r) as E'. { rewrite E. change (p ++ v :: q ++ u :: r) with (p ++ (v :: q) ++ u :: r).
    rewrite app_assoc, Ht, <- app_assoc. reflexivity. }
  destruct (ttype_eqb (tt t) BYTEORDER_MARK) eqn:K.
  - apply ttype_eqb_eq in K. rewrite (bom_zero src toks t H); [| |exact K]; [|rewrite E'; apply in_or_app; right; now left].
    pose proof (later src toks p v q u r H E Hv Hu). pose proof (offset_nonneg src toks p v _ H E). lia.
  - pose proof (later src toks a t b u r H E' ). assert (tt t <> BYTEORDER_MARK) as K' by (intros X; apply ttype_eqb_eq in X; congruence).
    specialize (H0 K' Hu). lia.
Qed.
Lemma find_lparen lp more : forall ws, find (fun m => match m with N KLParen _ => true | _ => false end) (map T ws ++ N KLParen [T lp] :: more) = Some (N KLParen [T lp]).
Proof. induction ws as [|w ws IH]; [reflexivity|exact IH]. Qed.
Lemma take_all ws : forall args, Forall (fun t => tt t = WHITESPACE \/ tt t = NEWLINE) ws -> (forall t r, args = t :: r -> ~ (tt t = WHITESPACE \/ tt t = NEWLINE)) ->
  snd (take_ws (ws ++ args)) = args.
Proof.
  induction ws as [|w ws IH]; intros args F G; cbn [app].
  - destruct args as [|t r]; [reflexivity|]. cbn [take_ws]. destruct (is_ws t) eqn:E; [|reflexivity].
    apply ws_tt in E. destruct (G t r eq_refl E).
  - cbn [take_ws]. inversion F as [|? ? F1 F2]; subst. apply ws_tt in F1. rewrite F1. specialize (IH args F2 G).
    destruct (take_ws (ws ++ args)) as [x y]. exact IH.
Qed.
Lemma first_sem_is l t : first_sem l = Some t <-> exists a b, l = a ++ t :: b /\ Forall (fun x => is_semantic x = false) a /\ is_semantic t = true.
Proof.
  unfold first_sem, nth_semantic, semantics. induction l as [|x l IH]; cbn [filter].
  - split; [discriminate|]. intros ([|? ?] & b & E & _); discriminate.
  - destruct (is_semantic x) eqn:Ex.
    + cbn. split.
      * intros H. injection H as ->. exists nil, l. auto.
      * intros ([|y a] & b & E & F & G); injection E as -> ->; [reflexivity|]. inversion F; congruence.
    + rewrite IH. split.
      * intros (a & b & -> & F & G). exists (x :: a), b. auto.
      * intros ([|y a] & b & E & F & G); injection E as -> ->; [congruence|]. inversion F; subst. eauto.
Qed.
(** Every statement of the tree stands in the file as its name, blanks, an opening
    parenthesis, blanks and then its arguments; the place of the remarks on arguments is
    the first token behind those blanks, and their first word the first of them that is
    neither blank nor comment. *)
Theorem C118_places : forall ctx src toks tree n, wfctx true ctx -> tokenize src = Ok toks -> parse ctx toks = Ok tree ->
  In n (subtrees tree) -> is_stmt n = true ->
  exists pre fn ws lp ws2 args, toks = pre ++ fn :: ws ++ lp :: ws2 ++ args /\ written_as (kids n) fn ws lp ws2 /\
    (forall t r, args = t :: r -> ~ (tt t = WHITESPACE \/ tt t = NEWLINE)) /\ arg_tokens toks n = args /\
    (forall t, first_word toks n t <-> exists a b, args = a ++ t :: b /\ is_semantic t = true /\ forall x, In x a -> is_semantic x = false).
Proof.
  intros ctx src toks tree n Hwf H Hp Hn Hs.
  destruct (parse_stands ctx toks tree n Hwf Hp Hn Hs) as (pre & fn & ws & lp & ws2 & args & E & HW & G).
  assert (arg_tokens toks n = args) as EA.
  { destruct HW as (H1 & H2 & H3 & more & H4). unfold arg_tokens, lparen_of. rewrite H4. cbn [find]. rewrite find_lparen. cbn [flat flat_map app hd_error].
    rewrite (C124_behind src toks pre fn ws lp (ws2 ++ args) H E); [|congruence|congruence]. apply Forall_app in H3 as [_ H3]. now apply take_all. }
  exists pre, fn, ws, lp, ws2, args. split; [exact E|]. split; [exact HW|]. split; [exact G|]. split; [exact EA|].
  intros t. unfold first_word. rewrite EA, first_sem_is. split.
  - intros (a & b & -> & F & K). rewrite Forall_forall in F. eauto 6.
  - intros (a & b & -> & K & F). rewrite <- Forall_forall in F. eauto 6.
Qed.
Definition placed_sample : str := nl [$"set(x y)"; $"file (  "; $"  # note"; $"  FOO x)"].
Example C118_places_ex : exists toks tree n t, wfctx true (lc_ctx remarks_lcfg) /\ tokenize placed_sample = Ok toks /\ parse (lc_ctx remarks_lcfg) toks = Ok tree /\
  In n (subtrees tree) /\ is_stmt n = true /\ funname n = $"file" /\ hd_error (arg_tokens toks n) = Some (Tok COMMENT $"# note" (Loc 3 2 20)) /\
  first_word toks n t /\ t = Tok WORD $"FOO" (Loc 4 2 29).
Proof.
  eexists. eexists. exists (nth 1 (filter is_stmt (subtrees (match (let? toks := tokenize placed_sample in parse (lc_ctx remarks_lcfg) toks) with Ok tree => tree | _ => N KBody nil end))) (N KBody nil)).
  eexists. split; [apply (std_wfctx no_explicit nil nil nil); reflexivity|]. split; [vm_compute; reflexivity|]. split; [vm_compute; reflexivity|].
  split. { vm_compute. repeat (first [left; reflexivity|right]). }
  split; [vm_compute; reflexivity|]. split; [vm_compute; reflexivity|]. split; [vm_compute; reflexivity|].
  split; [vm_compute; reflexivity|reflexivity].
Qed.
