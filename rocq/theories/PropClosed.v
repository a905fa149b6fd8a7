(** * PropClosed: which files are formatted, said on the sequence of commands (C157) *)
From Verif Require Import Base Regex Lex LexProofs LexClass Tree Parse ParseProofs PropParse Layout LayoutProofs Markup Pipeline CmdSpec StdSpecs StdDb
  TidyShape PropStd PropFile PropBlocks PropOff PropEol PropTotal.

(** ** Specification *)
(** the names of the commands of a file, in order and in upper case.  A comment,
    a blank line, a switch and a configured word ([@NAME@]) call no command. *)
Fixpoint called (n : pnode) : list str :=
  match n with
  | T _ => nil
  | N (KStatement _) _ => match stmt_name n with Some w => [w] | None => nil end
  | N KBody cs | N KFlow cs => flat_map called cs
  | N _ _ => nil
  end.
(** the blocks that are open behind a sequence of commands, innermost first:
    a command that opens a block is remembered until the innermost open block is
    ended by its own end command; other commands change nothing *)
Definition opens : list str := [$"IF"; $"WHILE"; $"FOREACH"; $"FUNCTION"; $"MACRO"].
Definition step (st : list str) (w : str) : list str :=
  if smem w opens then w :: st
  else match st with
       | b :: st' => if seqb w ($"END" ++ b) then st' else st
       | nil => nil
       end.
Definition left_open (names : list str) : list str := fold_left step names nil.

(** ** Proof *)
Lemma opens_flow : opens = flow_names. Proof. reflexivity. Qed.

(** the stack belongs to a body that ends at the names [brk] *)
Definition suits (brk : list str) (st : list str) : Prop :=
  match st with nil => True | b :: _ => In ($"END" ++ b) brk end.

Scheme child_rec := Minimality for child_ok Sort Prop
  with body_rec := Minimality for body_ok Sort Prop
  with arms_rec := Minimality for arms_ok Sort Prop.
Combined Scheme blocks_rec from child_rec, body_rec, arms_rec.

Lemma called_stmt n w : stmt_name n = Some w -> called n = [w].
Proof.
  destruct n as [t|k cs]; [discriminate|]. intros H. destruct k; try discriminate H. cbn [called]. now rewrite H.
Qed.
Lemma step_open st w : In w flow_names -> step st w = w :: st.
Proof. intros H. unfold step. rewrite opens_flow. now replace (smem w flow_names) with true by (symmetry; now apply smem_In). Qed.
Lemma step_close st w : In w flow_names -> step (w :: st) ($"END" ++ w) = st.
Proof.
  intros H. unfold step. rewrite seqb_refl. replace (smem ($"END" ++ w) opens) with false; [reflexivity|].
  symmetry. cbn [In] in H. destruct H as [<-|[<-|[<-|[<-|[<-|[]]]]]]; reflexivity.
Qed.
Lemma step_other st w brk : suits brk st -> ~ In w brk -> ~ In w flow_names -> step st w = st.
Proof.
  intros Hs H1 H2. unfold step. rewrite opens_flow. replace (smem w flow_names) with false.
  2:{ symmetry. destruct (smem w flow_names) eqn:E; [apply smem_In in E; contradiction|reflexivity]. }
  destruct st as [|b st]; [reflexivity|]. destruct (seqb w ($"END" ++ b)) eqn:E; [|reflexivity].
  apply seqb_eq in E. subst. contradiction.
Qed.
Lemma step_arm st w : In w [$"ELSE"; $"ELSEIF"] -> step ($"IF" :: st) w = $"IF" :: st.
Proof. intros [<-|[<-|[]]]; reflexivity. Qed.
Lemma loop_flow w : In w loop_names -> In w flow_names.
Proof. intros H. cbn [In loop_names flow_names] in *. tauto. Qed.

(** what a piece of a file does to the open blocks: nothing, or it leaves more of them open *)
Definition effect (o : bool) (names st : list str) : Prop :=
  if o then exists b pre, fold_left step names st = b :: pre ++ st /\ forall x, In x (b :: pre) -> x = $"IF" else fold_left step names st = st.

Lemma inert_called n : inert n = true -> called n = nil.
Proof. destruct n as [t|k cs]; [easy|]. destruct k; easy. Qed.
Lemma called_flow cs : called (N KFlow cs) = flat_map called cs.
Proof. reflexivity. Qed.
Lemma called_body cs : called (N KBody cs) = flat_map called cs.
Proof. reflexivity. Qed.

Lemma effects :
  (forall brk o c, child_ok brk o c -> forall st, suits brk st -> effect o (called c) st)
  /\ (forall brk o cs, body_ok brk o cs -> forall st, suits brk st -> effect o (flat_map called cs) st)
  /\ (forall o cs, arms_ok o cs -> forall st, exists mid, fold_left step (flat_map called cs) st = mid ++ $"IF" :: st
      /\ (o = false -> mid = nil) /\ forall x, In x mid -> x = $"IF").
Proof.
  apply blocks_rec.
  - intros brk n H st _. unfold effect. now rewrite (inert_called _ H).
  - intros brk n w H H1 H2 st Hs. unfold effect. rewrite (called_stmt _ _ H). cbn [fold_left]. eapply step_other; eauto.
  - intros brk op w bd cl H Hw _ IH Hc st _. unfold effect. rewrite called_flow. cbn [flat_map]. rewrite called_body, (called_stmt _ _ H), (called_stmt _ _ Hc).
    rewrite !fold_left_app. cbn [fold_left]. pose proof (loop_flow _ Hw) as Hf. rewrite (step_open _ _ Hf).
    rewrite (IH (w :: st) (or_introl eq_refl)). cbn [app fold_left]. now apply step_close.
  - intros brk arms cl _ IH Hc st _. unfold effect. rewrite called_flow, flat_map_app. cbn [flat_map]. rewrite (called_stmt _ _ Hc).
    rewrite fold_left_app. destruct (IH st) as (mid & E & Hm & _). rewrite E, (Hm eq_refl). reflexivity.
  - intros brk arms o _ IH st _. unfold effect. rewrite called_flow. destruct (IH st) as (mid & E & _ & Hi). rewrite E.
    destruct mid as [|b mid]; [exists $"IF", nil; split; [reflexivity|now intros x [<-|[]]]|]. exists b, (mid ++ [$"IF"]).
    cbn [app]. rewrite <- app_assoc. split; [reflexivity|]. intros x [<-|Hx]; [apply Hi; now left|]. apply in_app_or in Hx as [Hx|[<-|[]]]; [apply Hi; now right|reflexivity].
  - intros brk st _. reflexivity.
  - intros brk o cs c _ IH _ IHc st Hs. specialize (IH st Hs). unfold effect in *. rewrite flat_map_app. cbn [flat_map]. rewrite app_nil_r, fold_left_app, IH.
    exact (IHc st Hs).
  - intros op o bd H _ IH st. cbn [flat_map]. rewrite called_body, (called_stmt _ _ H), app_nil_r, fold_left_app.
    cbn [fold_left]. change (step st $"IF") with ($"IF" :: st). specialize (IH ($"IF" :: st)). unfold effect in IH.
    destruct o; [destruct IH as (b & pre & E & Hi); [cbn; tauto|]; exists (b :: pre); rewrite E; split; [reflexivity|split; [discriminate|exact Hi]]|].
    exists nil. rewrite IH; [|cbn; tauto]. split; [reflexivity|]. split; [auto|intros x []].
  - intros arms op w o bd _ IHa H Hw _ IH st. rewrite flat_map_app. cbn [flat_map]. rewrite called_body, (called_stmt _ _ H), app_nil_r, !fold_left_app.
    destruct (IHa st) as (mid & E & Hm & _). rewrite E, (Hm eq_refl). cbn [app fold_left]. rewrite (step_arm _ _ Hw).
    specialize (IH ($"IF" :: st)). unfold effect in IH.
    destruct o; [destruct IH as (b & pre & E' & Hi); [cbn; tauto|]; exists (b :: pre); rewrite E'; split; [reflexivity|split; [discriminate|exact Hi]]|].
    exists nil. rewrite IH; [|cbn; tauto]. split; [reflexivity|]. split; [auto|intros x []].
Qed.

(** no block stands inside the arguments of a command *)
Definition calm_k (k : kind) : bool := match k with KFlow | KBody => false | _ => true end.
Lemma calm_tail tl : tail_ok tl = true -> forallb (fun b => calm_k (bkind b)) tl = true.
Proof.
  destruct tl as [|[k p cs] [|? ?]]; try discriminate; [reflexivity|]. cbn [tail_ok bkind forallb]. now destruct k.
Qed.
Lemma calm_kids k p cs : wfb (B k p cs) = true -> firm (B k p cs) = true -> calm_k k = true -> forallb (fun b => calm_k (bkind b)) cs = true.
Proof.
  intros Hw Hf Hk. cbn [wfb firm] in Hw, Hf. apply andb_prop in Hw as [_ Hw]. apply andb_prop in Hf as [Hf _].
  assert (Hnil : match cs with nil => true | _ => false end = true -> forallb (fun b => calm_k (bkind b)) cs = true) by now destruct cs.
  assert (Himp : forall f, (forall b, f b = true -> calm_k (bkind b) = true) -> forallb f cs = true -> forallb (fun b => calm_k (bkind b)) cs = true).
  { intros f H1 H2. rewrite forallb_forall in *. auto. }
  destruct k; try discriminate Hk; cbn [firm_k] in Hf;
    repeat match goal with H : (_ && _) = true |- _ => apply andb_prop in H as [? H] end; auto using calm_tail.
  all: try (revert Hw; apply Himp; intros [k0 p0 c0]; unfold in_parg, in_arg; cbn [bkind]; now destruct k0).
  - destruct cs as [|[k1 ? ?] [|[k2 ? ?] [|[k3 ? ?] [|[k4 ? ?] tl]]]]; try discriminate Hf.
    repeat match goal with H : (_ && _) = true |- _ => apply andb_prop in H as [H ?] end.
    cbn [bkind forallb] in *. rewrite calm_tail by assumption. destruct k1; try discriminate; destruct k2; try discriminate; destruct k3; try discriminate; now destruct k4.
  - destruct cs as [|[k1 ? ?] [|[k2 ? ?] [|? ?]]]; try discriminate Hw; destruct k1; try discriminate Hw; [reflexivity|].
    cbn [bkind forallb] in *. now destruct k2.
  - destruct cs as [|[k1 ? ?] [|[k2 ? ?] [|[k3 ? ?] tl]]]; try discriminate Hw.
    repeat match goal with H : (_ && _) = true |- _ => apply andb_prop in H as [H ?] end.
    cbn [bkind forallb] in *. rewrite calm_tail by assumption. destruct k1; try discriminate; destruct k2; try discriminate; now destruct k3.
  - destruct cs as [|[k1 ? ?] tl]; try discriminate Hf. cbn [bkind forallb] in *. apply andb_prop in Hf as [? Hf]. rewrite calm_tail by assumption. now destruct k1.
Qed.
Lemma calm_closed b : wfb b = true -> firm b = true -> calm_k (bkind b) = true -> closed_b b = true.
Proof.
  induction b as [k p cs IH] using box_ind'. intros Hw Hf Hk. pose proof (calm_kids _ _ _ Hw Hf Hk) as Hc. cbn [bkind] in Hk.
  cbn [wfb firm closed_b] in *. apply andb_prop in Hw as [Hw _]. apply andb_prop in Hf as [_ Hf].
  replace (match k with KFlow => shut cs | _ => true end) with true by now destruct k. cbn [andb].
  rewrite forallb_forall in *. rewrite Forall_forall in IH. intros x Hx. auto.
Qed.

(** the boxes of the children *)
Definition boxes (cs : list pnode) : list box :=
  flat_map (fun c => match c with
                     | T _ => nil
                     | N KWhitespace _ => if node_newlines c <? 2 then nil else [create_box c]
                     | N _ _ => [create_box c]
                     end) cs.
Lemma box_eq k cs : create_box (N k cs) = B k cs (boxes cs).
Proof. reflexivity. Qed.
Lemma boxes_app a b : boxes (a ++ b) = boxes a ++ boxes b.
Proof. apply flat_map_app. Qed.
Definition sound (b : box) : bool := wfb b && firm b.
Definition sounds (bs : list box) : bool := forallb sound bs.
Lemma sound_kids k p cs : sound (B k p cs) = true -> sounds cs = true.
Proof.
  unfold sound, sounds. cbn [wfb firm]. intros H. apply andb_prop in H as [H1 H2]. apply andb_prop in H1 as [H1 _]. apply andb_prop in H2 as [_ H2].
  rewrite forallb_forall in *. intros x Hx. unfold sound. now rewrite (H1 _ Hx), (H2 _ Hx).
Qed.
Lemma sounds_app a b : sounds (a ++ b) = sounds a && sounds b.
Proof. apply forallb_app. Qed.
Lemma stmt_boxes n w : stmt_name n = Some w -> boxes [n] = [create_box n] /\ is_statement_k (bkind (create_box n)) = true /\ calm_k (bkind (create_box n)) = true.
Proof. destruct n as [t|k cs]; [discriminate|]. intros H. destruct k; try discriminate H. now repeat split. Qed.
Lemma inert_boxes n : inert n = true -> boxes [n] = nil \/ boxes [n] = [create_box n] /\ calm_k (bkind (create_box n)) = true.
Proof.
  destruct n as [t|k cs]; [discriminate|]. destruct k; try discriminate; intros _; unfold boxes; cbn [flat_map app]; auto.
  destruct (node_newlines _ <? 2); auto.
Qed.
Lemma body_boxes bd : boxes [N KBody bd] = [B KBody bd (boxes bd)].
Proof. reflexivity. Qed.
Lemma flow_boxes a : boxes [N KFlow a] = [B KFlow a (boxes a)].
Proof. reflexivity. Qed.
Lemma stmt_closed n w : stmt_name n = Some w -> sounds (boxes [n]) = true -> forallb closed_b (boxes [n]) = true.
Proof.
  intros H Hs. destruct (stmt_boxes _ _ H) as (E & _ & Hk). rewrite E in *. cbn [sounds forallb] in *. rewrite andb_true_r in *.
  apply andb_prop in Hs as [A B]. now apply calm_closed.
Qed.
Lemma last_snoc l b : last_box (l ++ [b]) = Some b.
Proof. unfold last_box. now rewrite rev_app_distr. Qed.

Lemma closings :
  (forall brk o c, child_ok brk o c -> sounds (boxes [c]) = true -> forallb closed_b (boxes [c]) = negb o)
  /\ (forall brk o cs, body_ok brk o cs -> sounds (boxes cs) = true -> forallb closed_b (boxes cs) = negb o)
  /\ (forall o cs, arms_ok o cs -> sounds (boxes cs) = true -> forallb closed_b (boxes cs) = negb o /\ shut (boxes cs) = false).
Proof.
  apply blocks_rec.
  - intros brk n H Hs. destruct (inert_boxes _ H) as [E|[E Hk]]; rewrite E in *; [reflexivity|].
    cbn [sounds forallb] in *. rewrite andb_true_r in *. apply andb_prop in Hs as [A B]. now apply calm_closed.
  - intros brk n w H _ _ Hs. now rewrite (stmt_closed _ _ H Hs).
  - intros brk op w bd cl H _ _ IH Hc Hs. rewrite flow_boxes in *. cbn [sounds forallb] in Hs. rewrite andb_true_r in Hs. apply sound_kids in Hs.
    change [op; N KBody bd; cl] with ([op] ++ [N KBody bd] ++ [cl]) in *. cbn [forallb closed_b]. rewrite andb_true_r.
    rewrite !boxes_app, !sounds_app in *. apply andb_prop in Hs as [S1 Hs]. apply andb_prop in Hs as [S2 S3].
    rewrite !forallb_app, (stmt_closed _ _ H S1), (stmt_closed _ _ Hc S3). rewrite body_boxes in *. cbn [sounds forallb] in S2. rewrite andb_true_r in S2.
    apply sound_kids in S2. cbn [forallb closed_b]. rewrite (IH S2). cbn [negb andb].
    destruct (stmt_boxes _ _ Hc) as (E & Hk & _). rewrite E. unfold shut. rewrite app_assoc, last_snoc, Hk. reflexivity.
  - intros brk arms cl _ IH Hc Hs. rewrite flow_boxes in *. cbn [sounds forallb] in Hs. rewrite andb_true_r in Hs. apply sound_kids in Hs.
    cbn [forallb closed_b]. rewrite andb_true_r. rewrite !boxes_app, !sounds_app in *. apply andb_prop in Hs as [S1 S2].
    rewrite !forallb_app, (stmt_closed _ _ Hc S2). rewrite (proj1 (IH S1)).
    destruct (stmt_boxes _ _ Hc) as (E & Hk & _). rewrite E. unfold shut. rewrite last_snoc, Hk. reflexivity.
  - intros brk arms o _ IH Hs. rewrite flow_boxes in *. cbn [sounds forallb] in Hs. rewrite andb_true_r in Hs. apply sound_kids in Hs.
    cbn [forallb closed_b]. now rewrite (proj2 (IH Hs)).
  - reflexivity.
  - intros brk o cs c _ IH _ IHc Hs. rewrite boxes_app, sounds_app in *. apply andb_prop in Hs as [S1 S2]. now rewrite forallb_app, (IH S1), (IHc S2).
  - intros op o bd H _ IH Hs. change [op; N KBody bd] with ([op] ++ [N KBody bd]) in *. rewrite !boxes_app, !sounds_app in *. apply andb_prop in Hs as [S1 S2].
    rewrite !forallb_app, (stmt_closed _ _ H S1). rewrite body_boxes in *. unfold shut. rewrite last_snoc. split; [|reflexivity].
    cbn [sounds forallb] in S2. rewrite andb_true_r in S2. apply sound_kids in S2. cbn [forallb closed_b]. rewrite (IH S2). cbn [andb]. apply andb_true_r.
  - intros arms op w o bd _ IHa H _ _ IH Hs. change [op; N KBody bd] with ([op] ++ [N KBody bd]) in *. rewrite !boxes_app, !sounds_app in *.
    apply andb_prop in Hs as [S0 Hs]. apply andb_prop in Hs as [S1 S2].
    rewrite !forallb_app, (stmt_closed _ _ H S1), (proj1 (IHa S0)). rewrite body_boxes in *. unfold shut. rewrite app_assoc, last_snoc. split; [|reflexivity].
    cbn [sounds forallb] in S2. rewrite andb_true_r in S2. apply sound_kids in S2. cbn [forallb closed_b]. rewrite (IH S2). cbn [andb negb]. apply andb_true_r.
Qed.

Lemma closed_called c specs tbl src toks tree : run_cfg c specs tbl -> tokenize src = Ok toks -> parse (p_ctx c) toks = Ok tree ->
  blocks_closed tree = true <-> left_open (called tree) = nil.
Proof.
  intros R Hl Hp. destruct (run_ready _ _ _ _ _ _ R Hl Hp) as (_ & Hr & _). assert (Hw : wfb (create_box tree) = true) by apply Hr.
  pose proof (file_firm _ _ _ _ _ _ R Hl Hp) as Hf.
  destruct (C50_block_structure_partial _ _ _ Hp) as (cs & o & -> & Hb).
  assert (Hs : sounds (boxes cs) = true). { apply (sound_kids KBody cs). unfold sound. rewrite <- (box_eq KBody cs). now rewrite Hw, Hf. }
  unfold blocks_closed. rewrite box_eq. cbn [closed_b andb]. rewrite (proj1 (proj2 closings) _ _ _ Hb Hs).
  pose proof (proj1 (proj2 effects) _ _ _ Hb nil Logic.I) as E. unfold left_open. rewrite called_body. unfold effect in E.
  destruct o; [destruct E as (b & pre & -> & _); split; discriminate|]. now rewrite E.
Qed.

(** ** C157 *)
(** A file that parses is formatted exactly when none of its blocks is left open. *)
Theorem C157_formatted c specs tbl src toks tree :
  run_cfg c specs tbl -> p_usetabs c = false -> dangle_ok (p_fmt c) = true -> passes_ok (p_fmt c) ->
  mk_enable (p_markup c) = false ->
  tokenize src = Ok toks -> parse (p_ctx c) toks = Ok tree -> no_switch toks = true -> comments_clean toks = true ->
  (exists text v, process_file c src = Ok (text, v)) <-> left_open (called tree) = nil.
Proof.
  intros R Ht Hd Hps Hm Hl Hp Hno Hcl. rewrite (C145_clean_partial _ _ _ _ _ _ R Ht Hd Hps Hm Hl Hp Hno Hcl). eapply closed_called; eauto.
Qed.
(** With comment markup, and whatever the comments: an open block is never formatted. *)
Theorem C157_open_fails c specs tbl src toks tree text v :
  run_cfg c specs tbl -> tokenize src = Ok toks -> parse (p_ctx c) toks = Ok tree ->
  left_open (called tree) <> nil -> process_file c src <> Ok (text, v).
Proof.
  intros R Hl Hp Ho H. destruct (C145_formatted_back _ _ _ _ _ _ _ _ R Hl Hp H) as [Hc _]. apply Ho. eapply closed_called; eauto.
Qed.
(** Only if blocks can be left open by a file that parses; a loop, a function or a
    macro without its end command does not parse. *)
Theorem C157_only_if ctx toks tree w : parse ctx toks = Ok tree -> In w (left_open (called tree)) -> w = $"IF".
Proof.
  intros Hp. destruct (C50_block_structure_partial _ _ _ Hp) as (cs & o & -> & Hb).
  pose proof (proj1 (proj2 effects) _ _ _ Hb nil Logic.I) as E. unfold left_open. rewrite called_body. unfold effect in E.
  destruct o; [destruct E as (b & pre & -> & Hi); rewrite app_nil_r; apply Hi|rewrite E; intros []].
Qed.

(** the hypotheses are met: stray end commands leave a file closed, and an end command
    behind an inner open block does not end the outer one *)
Example C157_ex : left_open [$"ENDIF"; $"IF"; $"WHILE"; $"ENDIF"; $"ENDWHILE"; $"ELSE"; $"SET"; $"ENDIF"] = nil
  /\ left_open [$"IF"; $"FOREACH"; $"ENDFOREACH"; $"IF"; $"ENDIF"] = [$"IF"].
Proof. split; reflexivity. Qed.
Example C157_file_ex : exists toks tree, tokenize src_total = Ok toks /\ parse (p_ctx calm_pcfg) toks = Ok tree
  /\ no_switch toks = true /\ comments_clean toks = true
  /\ called tree = [$"FOO"; $"IF"; $"FOREACH"; $"SET"; $"ENDFOREACH"; $"ELSE"; $"ENDIF"] /\ left_open (called tree) = nil.
Proof.
  destruct (tokenize src_total) as [toks| |] eqn:E; [|vm_compute in E; discriminate|vm_compute in E; discriminate].
  destruct (parse (p_ctx calm_pcfg) toks) as [tree| |] eqn:E2;
    vm_compute in E; injection E as <-; vm_compute in E2; [|discriminate E2|discriminate E2]. injection E2 as <-.
  do 2 eexists. split; [reflexivity|]. split; [vm_compute; reflexivity|].
  repeat (split; [vm_compute; reflexivity|]). vm_compute. reflexivity.
Qed.
Example C157_open_ex : exists toks tree, tokenize src_open = Ok toks /\ parse (p_ctx calm_pcfg) toks = Ok tree
  /\ left_open (called tree) = [$"IF"].
Proof.
  destruct (tokenize src_open) as [toks| |] eqn:E; [|vm_compute in E; discriminate|vm_compute in E; discriminate].
  destruct (parse (p_ctx calm_pcfg) toks) as [tree| |] eqn:E2;
    vm_compute in E; injection E as <-; vm_compute in E2; [|discriminate E2|discriminate E2]. injection E2 as <-.
  do 2 eexists. split; [reflexivity|]. split; vm_compute; reflexivity.
Qed.

Print Assumptions C157_formatted.
Print Assumptions C157_open_fails.
Print Assumptions C157_only_if.
