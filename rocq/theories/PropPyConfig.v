(** * PropPyConfig: what configuration files in python notation mean (C140-C143) *)
From Verif Require Import Base Config PropConfig Dump PyConfig.

(** ** Specification *)
(** what a script of sections and plain assignments says: sections opened and values
    written, each with its path, in the order of the script *)
Inductive event := Open (p : list str) | Write (p : list str) (v : val).
Fixpoint says1 (pre : list str) (s : stmt) : list event :=
  match s with
  | SNote => nil
  | SAssign x (ELit v) => [Write (pre ++ [x]) v]
  | SAssign x (EName _) => nil
  | SWith key body => Open (pre ++ [under key]) :: flat_map (says1 (pre ++ [under key])) body
  | SPush _ | SPop => nil
  end.
Definition script_says (ss : list stmt) : list event := flat_map (says1 nil) ss.
(** only sections, plain assignments and comments *)
Fixpoint plain_stmt (s : stmt) : bool :=
  match s with
  | SNote => true
  | SAssign _ (ELit _) => true
  | SWith _ body => forallb plain_stmt body
  | _ => false
  end.
(** no name is used both for a section and for a value in the same place, and no
    section at the top level is named like a method of python's dictionaries *)
Definition no_clash (es : list event) : Prop :=
  (forall p v, In (Write p v) es -> ~ In (Open p) es)
  /\ (forall k, In (Open [k]) es -> reserved k = false).
(** the value written last *)
Fixpoint last_write (p : list str) (es : list event) (acc : option val) : option val :=
  match es with
  | nil => acc
  | Open _ :: es' => last_write p es' acc
  | Write q v :: es' => last_write p es' (if list_eq_dec (list_eq_dec N.eq_dec) q p then Some v else acc)
  end.
Definition extends (p q : list str) : Prop := exists r, q = p ++ r.

(** ** Paths *)
Lemma at_path_app p : forall q d, at_path (p ++ q) d = match at_path p d with
  | Some (VMap m) => at_path q m
  | Some (VAtom a) => match q with nil => Some (VAtom a) | _ => None end
  | None => None end.
Proof.
  induction p as [|k p IH]; intros q d; cbn [app at_path]; [reflexivity|].
  destruct (lookup k d) as [[a|m]|]; [|apply IH|reflexivity].
  destruct p as [|k' p]; cbn [app]; [reflexivity|]. destruct q; reflexivity.
Qed.
Lemma at_path_one k d : at_path [k] d = lookup k d.
Proof. cbn [at_path]. destruct (lookup k d) as [[]|]; reflexivity. Qed.
Lemma set_here p x v : forall d m, at_path p d = Some (VMap m) -> at_path p (set_at p x v d) = Some (VMap (dset x v m)).
Proof.
  induction p as [|k p IH]; intros d m H; cbn [at_path set_at] in *; [now injection H as ->|].
  destruct (lookup k d) as [[a|m']|] eqn:E; [destruct p; discriminate| |discriminate].
  rewrite lookup_dset, seqb_refl. now apply IH.
Qed.
(** elsewhere nothing changes, except that a dictionary on the way stays one *)
Lemma set_other p x v : forall q d, ~ extends (p ++ [x]) q ->
  at_path q (set_at p x v d) = at_path q d
  \/ (extends q p /\ exists m m', at_path q d = Some (VMap m) /\ at_path q (set_at p x v d) = Some (VMap m')).
Proof.
  induction p as [|k p IH]; intros q d Hn; cbn [set_at].
  - destruct q as [|y q]; [right; split; [now exists nil|]; cbn [at_path]; eauto|]. left. cbn [at_path]. rewrite lookup_dset.
    destruct (seqb y x) eqn:E; [|reflexivity]. exfalso. apply Hn. apply seqb_eq in E. subst. now exists q.
  - destruct (lookup k d) as [[a|m]|] eqn:E; [now left| |now left].
    destruct q as [|y q]; [right; split; [now exists (k :: p)|]; cbn [at_path]; eauto|].
    cbn [at_path]. rewrite lookup_dset. destruct (seqb y k) eqn:Ey; [|now left].
    apply seqb_eq in Ey. subst y. rewrite E.
    destruct (IH q m) as [H|[(r & ->) H]].
    + intros (r & ->). apply Hn. now exists r.
    + now left.
    + right. split; [now exists r|exact H].
Qed.

(** ** Scripts *)
Definition opened (done : list event) (p : list str) : Prop := p = nil \/ In (Open p) done.
Definition rooted (done : list event) : Prop :=
  forall p, In (Open p) done \/ (exists v, In (Write p v) done) -> exists pre x, p = pre ++ [x] /\ opened done pre.
Definition agrees (done : list event) (d : dict val) : Prop :=
  (forall p, In (Open p) done -> exists m, at_path p d = Some (VMap m))
  /\ (forall p v, last_write p done None = Some v -> at_path p d = Some v)
  /\ (forall q y, at_path q d = Some y -> opened done q \/ exists p v, In (Write p v) done /\ extends p q).

Lemma opened_prefix done : rooted done -> forall r p, opened done (p ++ r) -> opened done p.
Proof.
  intros Hr r. induction r as [|x r IH] using rev_ind; intros p H; [now rewrite app_nil_r in H|].
  destruct H as [H|H]; [left; destruct p; [reflexivity|discriminate]|].
  destruct (Hr _ (or_introl H)) as (pre & y & E & Ho). rewrite app_assoc in E. apply app_inj_tail in E as [<- <-]. now apply IH.
Qed.
Lemma written_prefix done : rooted done -> forall p v q, In (Write q v) done -> extends p q -> p = q \/ opened done p.
Proof.
  intros Hr p v q H (r & E). assert (Hx : exists v, In (Write q v) done) by eauto. destruct (Hr _ (or_intror Hx)) as (pre & y & Eq & Ho).
  destruct r as [|z r _] using rev_ind; [left; now rewrite app_nil_r in E|]. right. rewrite Eq, app_assoc in E. apply app_inj_tail in E as [-> <-].
  now apply (opened_prefix done Hr r).
Qed.
Lemma written_root done : rooted done -> forall v, ~ In (Write nil v) done.
Proof.
  intros Hr v H. assert (Hx : exists v, In (Write nil v) done) by eauto. destruct (Hr _ (or_intror Hx)) as (p0 & y0 & F & _). destruct p0; discriminate.
Qed.
Lemma opened_map done d p : agrees done d -> opened done p -> exists m, at_path p d = Some (VMap m).
Proof. intros (A & _) [->|H]; [cbn; eauto|now apply A]. Qed.
Lemma last_write_app p es : forall fs acc, last_write p (es ++ fs) acc = last_write p fs (last_write p es acc).
Proof. induction es as [|[q|q v] es IH]; intros fs acc; cbn [app last_write]; auto. Qed.
Lemma last_write_in p es v : forall acc, last_write p es acc = Some v -> acc = Some v \/ exists w, In (Write p w) es.
Proof.
  induction es as [|[q|q w] es IH]; intros acc H; cbn [last_write] in H; [now left| |].
  - destruct (IH _ H) as [->|(w & Hw)]; [now left|right; exists w; now right].
  - destruct (list_eq_dec (list_eq_dec N.eq_dec) q p) as [->|Hne]; [right; exists w; now left|].
    destruct (IH _ H) as [->|(w' & Hw)]; [now left|right; exists w'; now right].
Qed.
Lemma extends_not_nil (x : str) pre : ~ extends (pre ++ [x]) nil.
Proof. intros (r & E). destruct pre; discriminate. Qed.

(** one step: the value at [pre ++ [x]] is set *)
Lemma put_agrees done d pre x v ev : agrees done d -> rooted done -> opened done pre ->
  (ev = Write (pre ++ [x]) v \/ (ev = Open (pre ++ [x]) /\ v = VMap nil)) ->
  ~ In (Open (pre ++ [x])) done ->
  (forall p w, In (Write p w) (done ++ [ev]) -> ~ In (Open p) (done ++ [ev])) ->
  agrees (done ++ [ev]) (set_at pre x v d).
Proof.
  intros Ha Hr Ho Hev Hfresh Hnc. destruct (opened_map done d pre Ha Ho) as (m & Hm). pose proof (set_here pre x v d m Hm) as Hset.
  assert (Hat : at_path (pre ++ [x]) (set_at pre x v d) = Some v).
  { rewrite at_path_app, Hset, at_path_one, lookup_dset, seqb_refl. reflexivity. }
  assert (Hnc' : forall p w, In (Write p w) done -> ~ In (Open p) done).
  { intros p w H1 H2. apply (Hnc p w); apply in_or_app; now left. }
  assert (Hdown : forall p, In (Open p) done -> ~ extends (pre ++ [x]) p).
  { intros p H (r & E). rewrite E in H. destruct (opened_prefix done Hr r _ (or_intror H)) as [F|F]; [destruct pre; discriminate|contradiction]. }
  assert (Hup : forall p w, In (Write p w) done -> p <> pre ++ [x] -> ~ extends (pre ++ [x]) p).
  { intros p w H Hne He. destruct (written_prefix done Hr _ _ _ H He) as [F|[F|F]]; [now apply Hne|destruct pre; discriminate|contradiction]. }
  destruct Ha as (A1 & A2 & A3). split; [|split].
  - intros p Hp. apply in_app_or in Hp as [Hp|[Hp|[]]].
    + destruct (set_other pre x v p d (Hdown _ Hp)) as [E|(_ & m1 & m2 & _ & E)]; rewrite E; eauto.
    + destruct Hev as [->|[-> ->]]; [discriminate|]. injection Hp as <-. exists nil. exact Hat.
  - intros p w. rewrite last_write_app. intros H. destruct Hev as [->|[-> ->]]; cbn [last_write] in H.
    + destruct (list_eq_dec (list_eq_dec N.eq_dec) (pre ++ [x]) p) as [<-|Hne]; [injection H as <-; exact Hat|].
      destruct (last_write_in _ _ _ _ H) as [F|(w' & Hw)]; [discriminate|]. specialize (A2 _ _ H).
      destruct (set_other pre x v p d (Hup _ _ Hw ltac:(congruence))) as [E|((r & Er) & m1 & m2 & E1 & E2)]; [now rewrite E|].
      exfalso. rewrite Er in Ho. destruct (opened_prefix done Hr _ _ Ho) as [->|F]; [|now apply (Hnc' _ _ Hw)].
      exact (written_root done Hr _ Hw).
    + destruct (last_write_in _ _ _ _ H) as [F|(w' & Hw)]; [discriminate|]. specialize (A2 _ _ H).
      assert (Hne : p <> pre ++ [x]). { intros ->. apply (Hnc (pre ++ [x]) w'); apply in_or_app; [now left|right; now left]. }
      destruct (set_other pre x (VMap nil) p d (Hup _ _ Hw Hne)) as [E|((r & Er) & m1 & m2 & E1 & E2)]; [now rewrite E|].
      exfalso. rewrite Er in Ho. destruct (opened_prefix done Hr _ _ Ho) as [->|F]; [|now apply (Hnc' _ _ Hw)].
      exact (written_root done Hr _ Hw).
  - assert (Hold : forall q y, at_path q d = Some y -> opened (done ++ [ev]) q \/ exists p w, In (Write p w) (done ++ [ev]) /\ extends p q).
    { intros q y H. destruct (A3 q y H) as [[->|H1]|(p & w & H1 & H2)]; [left; now left|left; right; apply in_or_app; now left|].
      right. exists p, w. split; [apply in_or_app; now left|exact H2]. }
    intros q y H.
    destruct (list_eq_dec (list_eq_dec N.eq_dec) (firstn (List.length (pre ++ [x])) q) (pre ++ [x])) as [E|E].
    + assert (Hq : extends (pre ++ [x]) q) by (exists (skipn (List.length (pre ++ [x])) q); rewrite <- E at 1; symmetry; apply firstn_skipn).
      destruct Hev as [->|[-> ->]].
      * right. exists (pre ++ [x]), v. split; [apply in_or_app; right; now left|exact Hq].
      * destruct Hq as (r & ->). rewrite at_path_app, Hat in H. destruct r as [|z r]; [|discriminate].
        rewrite app_nil_r. left. right. apply in_or_app. right. now left.
    + assert (Hq : ~ extends (pre ++ [x]) q).
      { intros (r & ->). apply E. rewrite firstn_app, firstn_all, Nat.sub_diag. cbn [firstn]. apply app_nil_r. }
      destruct (set_other pre x v q d Hq) as [F|(_ & m1 & m2 & F & _)]; [rewrite F in H; now apply (Hold q y)|now apply (Hold q (VMap m1))].
Qed.

Lemma rooted_add done pre x ev : rooted done -> opened done pre -> ev = Open (pre ++ [x]) \/ (exists v, ev = Write (pre ++ [x]) v) ->
  rooted (done ++ [ev]).
Proof.
  intros Hr Ho Hev p Hp.
  assert (Hp' : (In (Open p) done \/ exists v, In (Write p v) done) \/ p = pre ++ [x]).
  { destruct Hp as [Hp|(v & Hp)]; apply in_app_or in Hp as [Hp|[Hp|[]]]; try (left; eauto; fail);
      right; destruct Hev as [->|(w & ->)]; try discriminate; now injection Hp as <-. }
  assert (Hmono : forall q, opened done q -> opened (done ++ [ev]) q).
  { intros q [->|H]; [now left|right; apply in_or_app; now left]. }
  destruct Hp' as [Hp'| ->]; [destruct (Hr _ Hp') as (a & b & E & F); eauto|]. eauto.
Qed.
Definition on_top (pre : list str) (stack : list (option (list str))) : Prop :=
  match stack with nil => pre = nil | Some p :: _ => p = pre /\ pre <> nil | None :: _ => False end.

Section Run.
Variable attr : str -> val.
Variable file none : val.
Variable builtins : str -> option val.
Notation run1 := (exec1 attr file none builtins).
Notation run := (exec attr file none builtins).
Lemma exec1_with key body st : run1 (SWith key body) st = (let? st1 := push_section st key in let? st2 := run body st1 in pop_section st2).
Proof.
  cbn [exec1]. destruct (push_section st key) as [st1| |]; cbn [bindr]; [|reflexivity|reflexivity].
  match goal with |- bindr (?f body st1) _ = _ => assert (E : forall ss st, f ss st = run ss st) end.
  { induction ss as [|s ss IH]; intros st0; [reflexivity|]. cbn [exec]. destruct (run1 s st0); cbn [bindr]; auto. }
  now rewrite E.
Qed.

Definition ran (pre : list str) (stack : list (option (list str))) (done : list event) (evs : list event) (r : dict val -> res pyst) : Prop :=
  forall d, agrees done d -> rooted done -> opened done pre -> on_top pre stack -> no_clash (done ++ evs) ->
  exists d', r d = Ok (d', stack) /\ agrees (done ++ evs) d' /\ rooted (done ++ evs).

Lemma clash_cut done evs more : no_clash (done ++ evs ++ more) -> no_clash (done ++ evs).
Proof.
  intros [A B]. split.
  - intros p v H1 H2. apply (A p v); rewrite app_assoc; apply in_or_app; now left.
  - intros k H. apply B. rewrite app_assoc. apply in_or_app. now left.
Qed.
Lemma opened_more done evs p : opened done p -> opened (done ++ evs) p.
Proof. intros [->|H]; [now left|right; apply in_or_app; now left]. Qed.

Lemma run_list pre stack ss : (forall s, In s ss -> forall done, ran pre stack done (says1 pre s) (fun d => run1 s (d, stack))) ->
  forall done, ran pre stack done (flat_map (says1 pre) ss) (fun d => run ss (d, stack)).
Proof.
  induction ss as [|s ss IH]; intros Hs done d Ha Hr Ho Ht Hc; cbn [flat_map exec] in *.
  - rewrite app_nil_r. eauto.
  - destruct (Hs s (or_introl eq_refl) done d Ha Hr Ho Ht (clash_cut _ _ _ Hc)) as (d1 & E & A & R). rewrite E. cbn [bindr].
    rewrite app_assoc in Hc |- *. apply IH; auto; [|now apply opened_more]. intros s' Hs'. apply Hs. now right.
Qed.

(** entering a section *)
Lemma push_ok pre stack done key d : agrees done d -> rooted done -> opened done pre -> on_top pre stack ->
  no_clash (done ++ [Open (pre ++ [under key])]) ->
  exists d', push_section (d, stack) key = Ok (d', Some (pre ++ [under key]) :: stack)
    /\ agrees (done ++ [Open (pre ++ [under key])]) d' /\ rooted (done ++ [Open (pre ++ [under key])]).
Proof.
  intros Ha Hr Ho Ht [Hc1 Hc2]. set (k := under key) in *.
  assert (Hroot : rooted (done ++ [Open (pre ++ [k])])) by (eapply rooted_add; eauto).
  destruct (opened_map done d pre Ha Ho) as (m & Hm).
  assert (Hpath : at_path (pre ++ [k]) d = lookup k m) by (rewrite at_path_app, Hm; apply at_path_one).
  assert (Hres : pre = nil -> reserved k = false) by (intros ->; apply Hc2; apply in_or_app; right; now left).
  assert (Hnone : lookup k m = None -> ~ In (Open (pre ++ [k])) done).
  { intros H F. destruct Ha as (A1 & _). destruct (A1 _ F) as (m' & F'). rewrite Hpath, H in F'. discriminate. }
  assert (Hsome : forall y, lookup k m = Some y -> (exists m', y = VMap m') /\ In (Open (pre ++ [k])) done).
  { intros y H. destruct Ha as (A1 & _ & A3). destruct (A3 (pre ++ [k]) y) as [[F|F]|(p & w & F & G)]; [now rewrite Hpath|destruct pre; discriminate| |].
    - destruct (A1 _ F) as (m' & F'). rewrite Hpath, H in F'. injection F' as ->. eauto.
    - exfalso. destruct G as (r & G). destruct r as [|z r _] using rev_ind.
      + rewrite app_nil_r in G. subst p. apply (Hc1 _ _ (in_or_app _ _ _ (or_introl F))). apply in_or_app. right. now left.
      + rewrite app_assoc in G. apply app_inj_tail in G as [-> _]. destruct (opened_prefix done Hr _ _ Ho) as [->|G]; [exact (written_root done Hr _ F)|].
        apply (Hc1 _ _ (in_or_app _ _ _ (or_introl F))). apply in_or_app. now left. }
  assert (Hkeep : In (Open (pre ++ [k])) done -> agrees (done ++ [Open (pre ++ [k])]) d).
  { intros F. destruct Ha as (A1 & A2 & A3). split; [|split].
    - intros p Hp. apply in_app_or in Hp as [Hp|[Hp|[]]]; [auto|]. injection Hp as <-. auto.
    - intros p v. rewrite last_write_app. cbn [last_write]. apply A2.
    - intros q y H. destruct (A3 q y H) as [G|(p & v & G & E)]; [left; now apply opened_more|right; exists p, v; split; [apply in_or_app; now left|exact E]]. }
  assert (Hput : lookup k m = None -> agrees (done ++ [Open (pre ++ [k])]) (set_at pre k (VMap nil) d)).
  { intros H. eapply put_agrees; eauto. }
  unfold push_section. fold k. destruct stack as [|[p|] stack]; [|destruct Ht as [-> Hne]|destruct Ht].
  - cbn [on_top] in Ht. subst pre. cbn [at_path] in Hm. injection Hm as <-. cbn [app] in *.
    destruct (lookup k d) as [y|] eqn:E.
    + destruct (Hsome y eq_refl) as [(m' & ->) F]. rewrite E, Hres by reflexivity. eauto.
    + rewrite lookup_dset, seqb_refl, Hres by reflexivity. exists (dset k (VMap nil) d). split; [reflexivity|]. split; [|exact Hroot]. exact (Hput eq_refl).
  - rewrite Hm. destruct (lookup k m) as [y|] eqn:E.
    + destruct (Hsome y eq_refl) as [(m' & ->) F]. eauto.
    + eauto.
Qed.

Lemma run_stmt s : plain_stmt s = true -> forall pre stack done, ran pre stack done (says1 pre s) (fun d => run1 s (d, stack)).
Proof.
  revert s. fix IH 1. intros s Hp pre stack done d Ha Hr Ho Ht Hc. destruct s as [|x e|key body|key|]; try discriminate.
  - cbn [says1 exec1]. rewrite app_nil_r. eauto.
  - destruct e as [v|y]; [|discriminate]. cbn [says1 exec1 eval bindr] in *.
    assert (Hroot : rooted (done ++ [Write (pre ++ [x]) v])) by (eapply rooted_add; eauto).
    assert (Hput : agrees (done ++ [Write (pre ++ [x]) v]) (set_at pre x v d)).
    { destruct Hc as [Hc1 Hc2]. eapply put_agrees; eauto. intros F. apply (Hc1 (pre ++ [x]) v); apply in_or_app; [right; now left|now left]. }
    unfold set_name. destruct stack as [|[p|] stack]; [|destruct Ht as [-> Hne]|destruct Ht].
    + cbn [on_top] in Ht. subst pre. exists (dset x v d). split; [reflexivity|]. split; [exact Hput|exact Hroot].
    + eauto.
  - cbn [says1] in *. cbn [plain_stmt] in Hp.
    change (Open (pre ++ [under key]) :: flat_map (says1 (pre ++ [under key])) body) with ([Open (pre ++ [under key])] ++ flat_map (says1 (pre ++ [under key])) body) in *.
    destruct (push_ok pre stack done key d Ha Hr Ho Ht (clash_cut _ _ _ Hc)) as (d1 & E1 & A1 & R1).
    rewrite exec1_with, E1. cbn [bindr]. rewrite app_assoc in Hc |- *.
    assert (Hbody : forall done', ran (pre ++ [under key]) (Some (pre ++ [under key]) :: stack) done' (flat_map (says1 (pre ++ [under key])) body) (fun d => run body (d, Some (pre ++ [under key]) :: stack))).
    { apply run_list. clear -IH Hp. induction body as [|s body IHb]; [intros ? []|]. cbn [forallb] in Hp. apply andb_prop in Hp as [P1 P2].
      intros s' [<-|H] done'; [apply IH; exact P1|now apply (IHb P2)]. }
    destruct (Hbody _ d1 A1 R1) as (d2 & E2 & A2 & R2); [right; apply in_or_app; right; now left|split; [reflexivity|destruct pre; discriminate]|exact Hc|].
    rewrite E2. cbn [bindr pop_section snd fst]. eauto.
Qed.

(** C140: a script of sections and plain assignments, in which no name is both a section
    and a value, runs and means the nested mapping it spells: every path has the value
    written last, every section is there, and there is nothing else. *)
Theorem C140_python_sections ss : forallb plain_stmt ss = true -> no_clash (script_says ss) ->
  exists d, exec_pyconfig attr file none builtins ss = Ok d
    /\ (forall p v, last_write p (script_says ss) None = Some v -> at_path p d = Some v)
    /\ (forall p, In (Open p) (script_says ss) -> exists m, at_path p d = Some (VMap m))
    /\ (forall q y, at_path q d = Some y ->
          q = nil \/ In (Open q) (script_says ss) \/ exists p v, In (Write p v) (script_says ss) /\ extends p q).
Proof.
  intros Hp Hc.
  assert (Hrun : ran nil nil nil (flat_map (says1 nil) ss) (fun d => run ss (d, nil))).
  { apply run_list. intros s Hs done. apply run_stmt. rewrite forallb_forall in Hp. now apply Hp. }
  destruct (Hrun nil) as (d & E & (A1 & A2 & A3) & _).
  - split; [intros p []|]. split; [discriminate|]. intros q y H. left. left. destruct q; [reflexivity|discriminate].
  - intros p [[]|(v & [])].
  - now left.
  - reflexivity.
  - exact Hc.
  - exists d. split; [unfold exec_pyconfig; match goal with |- bindr ?r _ = _ => replace r with (Ok (d, @nil (option (list str)))) by (symmetry; exact E) end; reflexivity|]. split; [exact A2|]. split; [exact A1|].
    intros q y H. destruct (A3 q y H) as [[->|F]|F]; [now left|right; now left|right; now right].
Qed.
End Run.

(** a script with a section in a section, a name with a hyphen and a value given twice *)
Definition py_ex : list stmt :=
  [SNote; SAssign $"a" (ELit (VAtom 1));
   SWith $"format" [SAssign $"line_width" (ELit (VAtom 80)); SWith $"layout-passes" [SAssign $"x" (ELit (VAtom 3))]];
   SAssign $"a" (ELit (VAtom 2)); SWith $"format" [SAssign $"line_width" (ELit (VAtom 100))]].
Example C140_ex : forallb plain_stmt py_ex = true /\ no_clash (script_says py_ex)
  /\ exec_pyconfig (fun _ => VAtom 0) (VAtom 0) (VAtom 0) (fun _ => None) py_ex
     = Ok [($"a", VAtom 2); ($"format", VMap [($"line_width", VAtom 100); ($"layout_passes", VMap [($"x", VAtom 3)])])]
  /\ last_write [$"format"; $"line_width"] (script_says py_ex) None = Some (VAtom 100).
Proof.
  split; [reflexivity|]. split; [|split; reflexivity]. split.
  - intros p v H. vm_compute in H. vm_compute.
    repeat (destruct H as [H|H]; [try discriminate; injection H as <- <-; intros F; repeat (destruct F as [F|F]; [try discriminate|]); destruct F|]). destruct H.
  - intros k H. vm_compute in H. repeat (destruct H as [H|H]; [try discriminate; injection H as <-; reflexivity|]). destruct H.
Qed.

(** ** Dumps in python notation *)
Section PyDumps.
Variable attr : str -> val.
Variable file none : val.
Variable builtins : str -> option val.
Variable dflt : str -> val.
Variable fhelp : str -> option val.
Variable shelp : str -> val.
Notation run := (exec attr file none builtins).
Lemma exec_app a : forall b st, run (a ++ b) st = (let? st1 := run a st in run b st1).
Proof. induction a as [|s a IH]; intros b st; [reflexivity|]. cbn [app exec]. destruct (exec1 _ _ _ _ s st); cbn [bindr]; auto. Qed.
Lemma dset_new {A} k (v : A) d : lookup k d = None -> dset k v d = d ++ [(k, v)].
Proof. induction d as [|[k' v'] d IH]; intros H; [reflexivity|]. cbn [lookup dset] in *. destruct (seqb k k'); [discriminate|]. cbn [app]. now rewrite IH. Qed.
Lemma dset_last {A} k (v w : A) d : lookup k d = None -> dset k v (d ++ [(k, w)]) = d ++ [(k, v)].
Proof.
  induction d as [|[k' v'] d IH]; intros H; cbn [app dset]; [now rewrite seqb_refl|]. cbn [lookup] in H. destruct (seqb k k'); [discriminate|]. now rewrite IH.
Qed.
Lemma lookup_last {A} k (w : A) d : lookup k d = None -> lookup k (d ++ [(k, w)]) = Some w.
Proof. induction d as [|[k' v'] d IH]; intros H; cbn [app lookup] in *; [now rewrite seqb_refl|]. destruct (seqb k k'); [discriminate|auto]. Qed.
Lemma lookup_more {A} k k' (w : A) d : k <> k' -> lookup k d = None -> lookup k (d ++ [(k', w)]) = None.
Proof.
  intros Hn. induction d as [|[k1 v1] d IH]; intros H; cbn [app lookup] in *; [|destruct (seqb k k1); [discriminate|auto]].
  destruct (seqb k k') eqn:E; [apply seqb_eq in E; contradiction|reflexivity].
Qed.

Lemma run_fields wh wd c name fields : forall d m, NoDup fields -> (forall f, In f fields -> lookup f m = None) -> lookup name d = None ->
  run (flat_map (py_field dflt fhelp wh wd c) fields) (d ++ [(name, VMap m)], [Some [name]])
  = Ok (d ++ [(name, VMap (m ++ flat_map (field_entry dflt fhelp false wd c) fields))], [Some [name]]).
Proof.
  induction fields as [|f fields IH]; intros d m Hnd Hm Hd; cbn [flat_map]; [cbn [exec]; now rewrite app_nil_r|].
  inversion Hnd as [|? ? N1 N2]; subst. unfold py_field at 1, field_entry at 1. cbn [app]. destruct (wd || overridden c f).
  - replace (run _ _) with (run (flat_map (py_field dflt fhelp wh wd c) fields) (d ++ [(name, VMap (m ++ [(f, value dflt c f)]))], [Some [name]])).
    + rewrite IH; auto; [now rewrite <- app_assoc|]. intros g Hg. apply lookup_more; [intros ->; contradiction|apply Hm; now right].
    + rewrite <- app_assoc, exec_app.
      assert (run (if wh then match fhelp f with Some _ => [SNote] | None => nil end else nil) (d ++ [(name, VMap m)], [Some [name]]) = Ok (d ++ [(name, VMap m)], [Some [name]])) as ->
        by (destruct wh; [destruct (fhelp f)|]; reflexivity).
      cbn [bindr app exec exec1 eval set_name set_at]. rewrite lookup_last by exact Hd. cbn [set_at bindr].
      rewrite dset_last by exact Hd. rewrite dset_new by (apply Hm; now left). reflexivity.
  - cbn [app]. apply IH; auto. intros g Hg. apply Hm. now right.
Qed.
Lemma run_sections wh wd c reg : forall d, NoDup (map fst reg) -> Forall (fun s => NoDup (snd s) /\ under (fst s) = fst s /\ reserved (fst s) = false) reg ->
  (forall n, In n (map fst reg) -> lookup n d = None) ->
  run (flat_map (py_section dflt fhelp wh wd c) reg) (d, nil) = Ok (d ++ flat_map (section_entry dflt fhelp shelp false wd c) reg, nil).
Proof.
  induction reg as [|[name fields] reg IH]; intros d Hnd HF Hd; cbn [flat_map]; [cbn [exec]; now rewrite app_nil_r|].
  cbn [map fst] in *. inversion Hnd as [|? ? N1 N2]; subst. inversion HF as [|? ? (F1 & F2 & F3) F4]; subst. cbn [fst snd] in *.
  unfold py_section at 1, section_entry at 1. cbn [app]. destruct (wd || existsb (overridden c) fields).
  - replace (run _ _) with (run (flat_map (py_section dflt fhelp wh wd c) reg) (d ++ [(name, VMap (flat_map (field_entry dflt fhelp false wd c) fields))], nil)).
    + rewrite IH; auto; [now rewrite <- app_assoc|]. intros n Hn. apply lookup_more; [intros ->; contradiction|apply Hd; now right].
    + rewrite <- app_assoc, exec_app.
      assert (run (if wh then [SNote] else nil) (d, nil) = Ok (d, nil)) as -> by (destruct wh; reflexivity). cbn [bindr app exec].
      rewrite exec1_with. unfold push_section. rewrite F2. assert (En : lookup name d = None) by (apply Hd; now left). rewrite En, dset_new by exact En.
      rewrite lookup_last by exact En. rewrite F3. cbn [bindr]. rewrite run_fields by (auto; intros; reflexivity). reflexivity.
  - cbn [app]. apply IH; auto. intros n Hn. apply Hd. now right.
Qed.
Lemma registry_names : NoDup (map fst registry) /\ Forall (fun s => NoDup (snd s) /\ under (fst s) = fst s /\ reserved (fst s) = false) registry.
Proof.
  assert (Hdec : forall l : list str, nodup (list_eq_dec N.eq_dec) l = l -> NoDup l) by (intros l <-; apply NoDup_nodup).
  split; [apply Hdec; vm_compute; reflexivity|]. repeat (constructor; [split; [apply Hdec; vm_compute; reflexivity|split; vm_compute; reflexivity]|]). constructor.
Qed.
(** C141: a configuration dumped in python notation, with or without help texts and
    defaults, runs and gives the dictionary that the other notations write without help
    texts. *)
Theorem C141_python_dump wh wd c :
  exec_pyconfig attr file none builtins (py_dump dflt fhelp wh wd c) = Ok (as_dict dflt fhelp shelp false wd c).
Proof.
  unfold exec_pyconfig, py_dump. destruct registry_names as [A B]. rewrite run_sections; auto.
Qed.
(** hence a run that reads the dump behaves like the run that wrote it *)
Theorem C141_python_dump_runs_alike wh wd d args ss : flat d -> namespace args ->
  dump_python dflt fhelp wh wd d args = Ok ss ->
  forall load home resolve fuel p args0,
    (forall out, exec_pyconfig attr file none builtins ss = Ok out -> load (home p) = Ok (nil, out)) -> no_options args0 ->
  exists c1 d2 c2,
    nth_error (run_configs [d] (get_argdict args)) 0 = Some (Ok c1)
    /\ get_configdict load home resolve (S fuel) [p] nil = Ok d2
    /\ nth_error (run_configs [d2] (get_argdict args0)) 0 = Some (Ok c2)
    /\ (forall k, In k all_fields -> k <> $"per_command" -> value dflt c2 k = value dflt c1 k)
    /\ value dflt c2 ($"per_command") = pruned dflt c1.
Proof.
  intros Hf Hnd H load home resolve fuel p args0 Hload Hno. unfold dump_python in H. apply bindr_ok in H as (c & E1 & H). apply bindr_ok in H as (c' & E2 & H). injection H as <-.
  apply (C78_dump_runs_alike dflt fhelp shelp false wd d args (as_dict dflt fhelp shelp false wd c') Hf Hnd); [|apply Hload; apply C141_python_dump|exact Hno].
  unfold dump_config. rewrite E1. cbn [bindr]. rewrite E2. reflexivity.
Qed.
End PyDumps.
Example C141_ex : exists ss,
  dump_python (fun _ => VAtom 0) (fun f => if seqb f $"tab_size" then Some (VAtom 9) else None) true false
    [($"line_width", VAtom 100); ($"tab_size", VAtom 4)] nil = Ok ss
  /\ ss = [SNote; SWith $"format" [SAssign $"line_width" (ELit (VAtom 100)); SNote; SAssign $"tab_size" (ELit (VAtom 4))]; SNote]
  /\ exec_pyconfig (fun _ => VAtom 0) (VAtom 0) (VAtom 0) (fun _ => None) ss
     = Ok [($"format", VMap [($"line_width", VAtom 100); ($"tab_size", VAtom 4)])].
Proof. eexists. split; [vm_compute; reflexivity|]. split; [reflexivity|]. vm_compute. reflexivity. Qed.

(** ** Variables *)
(** a statement inside nested sections *)
Fixpoint nest (ks : list str) (s : stmt) : stmt :=
  match ks with nil => s | k :: ks' => SWith k [nest ks' s] end.
(** none of the sections on the way has an entry [x] of its own *)
Definition not_shadowed (x : str) (d : dict val) (path : list str) : Prop :=
  forall p r, path = p ++ r -> p <> nil ->
    at_path p d = None \/ exists m, at_path p d = Some (VMap m) /\ lookup x m = None.

Section Vars.
Variable attr : str -> val.
Variable file none : val.
Variable builtins : str -> option val.
Notation run1 := (exec1 attr file none builtins).
Notation run := (exec attr file none builtins).

(** the sections open in the state, none of which has an entry [x] *)
Fixpoint clear_of (x : str) (d : dict val) (pre : list str) (stack : list (option (list str))) : Prop :=
  match stack with
  | nil => pre = nil
  | Some p :: stack' => p = pre /\ (exists m, at_path p d = Some (VMap m) /\ lookup x m = None)
                        /\ exists q k, pre = q ++ [k] /\ clear_of x d q stack'
  | None :: _ => False
  end.
Lemma clear_scoped x d : forall stack pre, clear_of x d pre stack -> scoped d stack x = Ok None.
Proof.
  induction stack as [|[p|] stack IH]; intros pre H; [reflexivity| |destruct H]. cbn [clear_of scoped] in *.
  destruct H as (-> & (m & E & F) & q & k & _ & H). rewrite E, F. eauto.
Qed.
Lemma clear_map x d pre stack : clear_of x d pre stack -> exists m, at_path pre d = Some (VMap m).
Proof. destruct stack as [|[p|] stack]; cbn [clear_of]; [intros ->; cbn; eauto|intros (-> & (m & E & _) & _); eauto|intros []]. Qed.
(** a new section of another name changes nothing in this *)
Lemma clear_put x d k : forall stack pre pre', clear_of x d pre stack -> k <> x -> extends pre pre' ->
  (exists m, at_path pre' d = Some (VMap m)) -> clear_of x (set_at pre' k (VMap nil) d) pre stack.
Proof.
  induction stack as [|[p|] stack IH]; intros pre pre' H Hk He Hm; [exact H| |destruct H]. cbn [clear_of] in *.
  destruct H as (-> & (m & E & F) & q & k1 & -> & H). split; [reflexivity|]. split.
  - destruct (list_eq_dec (list_eq_dec N.eq_dec) (q ++ [k1]) pre') as [E1|Hne].
    + exists (dset k (VMap nil) m). split; [rewrite <- E1; now apply set_here|]. rewrite lookup_dset.
      destruct (seqb x k) eqn:Es; [apply seqb_eq in Es; congruence|exact F].
    + destruct He as (r & Er). destruct r as [|z r]; [rewrite app_nil_r in Er; congruence|].
      destruct (set_other pre' k (VMap nil) (q ++ [k1]) d) as [G|(_ & m1 & m2 & G1 & G2)].
      * intros (r' & G). rewrite Er in G. apply (f_equal (@List.length _)) in G. repeat rewrite app_length in G. cbn [List.length] in G. lia.
      * exists m. split; [now rewrite G|exact F].
      * (* the section on the way: its entries other than the first step are the same *)
        exists m2. split; [exact G2|].
        assert (Hx : at_path ((q ++ [k1]) ++ [x]) (set_at pre' k (VMap nil) d) = lookup x m2) by (rewrite at_path_app, G2; apply at_path_one).
        assert (Hy : at_path ((q ++ [k1]) ++ [x]) d = None) by (rewrite at_path_app, E, at_path_one; exact F).
        rewrite <- Hx.
        destruct (set_other pre' k (VMap nil) ((q ++ [k1]) ++ [x]) d) as [G|(_ & m3 & m4 & G3 & _)]; [|congruence|congruence].
        intros (r' & G). rewrite Er in G. apply (f_equal (@List.length _)) in G. repeat rewrite app_length in G. cbn [List.length] in G. lia.
  - exists q, k1. split; [reflexivity|]. apply IH; auto. destruct He as (r & ->). exists ([k1] ++ r). now rewrite <- app_assoc.
Qed.

Lemma set_at_root p k v x d : p <> nil -> (forall m, lookup x d <> Some (VMap m)) -> lookup x (set_at p k v d) = lookup x d.
Proof.
  destruct p as [|k1 p]; [congruence|]. intros _ H. cbn [set_at]. destruct (lookup k1 d) as [[a|m]|] eqn:E; try reflexivity.
  rewrite lookup_dset. destruct (seqb x k1) eqn:Es; [|reflexivity]. apply seqb_eq in Es. subst x. exfalso. exact (H m E).
Qed.
Lemma at_path_longer p : forall q d, at_path (p ++ q) d <> None -> at_path p d <> None.
Proof. intros q d H F. apply H. now rewrite at_path_app, F. Qed.

Lemma run_nested x y a : reserved x = false -> forall ks d pre stack,
  lookup x d = Some (VAtom a) -> clear_of x d pre stack ->
  (forall k, pre = nil -> hd_error ks = Some k -> reserved (under k) = false) ->
  ~ In x (map under ks) ->
  (forall p r, map under ks = p ++ r -> p <> nil ->
     at_path (pre ++ p) d = None \/ exists m, at_path (pre ++ p) d = Some (VMap m) /\ lookup x m = None) ->
  exists d', run1 (nest ks (SAssign y (EName x))) (d, stack) = Ok (d', stack) /\ at_path (pre ++ map under ks ++ [y]) d' = Some (VAtom a).
Proof.
  intros Hx. induction ks as [|k ks IH]; intros d pre stack Hl Hc Hres Hnin Hsh; cbn [nest map app].
  - assert (Hg : get_name attr file none builtins (d, stack) x = Ok (VAtom a)).
    { unfold get_name. rewrite Hx, (clear_scoped x d stack pre Hc). cbn [bindr]. now rewrite Hl. }
    cbn [exec1 eval]. rewrite Hg. cbn [bindr]. destruct (clear_map _ _ _ _ Hc) as (m & Hm).
    exists (set_at pre y (VAtom a) d). split.
    + unfold set_name. destruct stack as [|[p|] stack]; cbn [clear_of] in Hc; [now subst pre|destruct Hc as (-> & _); reflexivity|destruct Hc].
    + rewrite at_path_app, (set_here _ _ _ _ _ Hm), at_path_one, lookup_dset, seqb_refl. reflexivity.
  - cbn [map] in *. rewrite exec1_with. set (k' := under k) in *.
    assert (Hr1 : pre = nil -> reserved k' = false) by (intros E; exact (Hres k E eq_refl)).
    assert (Hkx : k' <> x) by (intros E; apply Hnin; now left).
    destruct (clear_map _ _ _ _ Hc) as (m & Hm).
    assert (Hpath : at_path (pre ++ [k']) d = lookup k' m) by (rewrite at_path_app, Hm; apply at_path_one).
    destruct (Hsh [k'] (map under ks) eq_refl ltac:(discriminate)) as [Hnone|(m1 & Hm1 & Hf1)].
    + (* a new section *)
      set (d1 := set_at pre k' (VMap nil) d).
      assert (Hpush : push_section (d, stack) k = Ok (d1, Some (pre ++ [k']) :: stack)).
      { unfold push_section. fold k'. rewrite Hnone in Hpath. destruct stack as [|[p|] stack]; cbn [clear_of] in Hc; [|destruct Hc as (-> & _)|destruct Hc].
        - subst pre. cbn [at_path] in Hm. injection Hm as <-. rewrite <- Hpath. rewrite lookup_dset, seqb_refl. rewrite (Hr1 eq_refl). reflexivity.
        - rewrite Hm, <- Hpath. reflexivity. }
      assert (Hnew : at_path (pre ++ [k']) d1 = Some (VMap nil)).
      { unfold d1. rewrite at_path_app, (set_here _ _ _ _ _ Hm), at_path_one, lookup_dset, seqb_refl. reflexivity. }
      destruct (IH d1 (pre ++ [k']) (Some (pre ++ [k']) :: stack)) as (d' & E & F).
      * unfold d1. destruct pre as [|k0 pre0].
        -- cbn [set_at]. rewrite lookup_dset. destruct (seqb x k') eqn:Es; [apply seqb_eq in Es; congruence|exact Hl].
        -- rewrite set_at_root; [exact Hl|discriminate|]. intros m0. rewrite Hl. discriminate.
      * cbn [clear_of]. split; [reflexivity|]. split; [exists nil; split; [exact Hnew|reflexivity]|]. exists pre, k'. split; [reflexivity|].
        apply clear_put; auto; [exists nil; now rewrite app_nil_r|eauto].
      * intros k0 F. destruct pre; discriminate.
      * intros F. apply Hnin. now right.
      * intros p r _ Hp. left. rewrite at_path_app, Hnew. destruct p as [|z p]; [congruence|reflexivity].
      * exists d'. rewrite Hpush. cbn [bindr exec]. rewrite E. cbn [bindr pop_section snd fst].
        split; [reflexivity|]. rewrite <- app_assoc in F. exact F.
    + (* a section that is already there *)
      assert (Hpush : push_section (d, stack) k = Ok (d, Some (pre ++ [k']) :: stack)).
      { unfold push_section. fold k'. rewrite Hm1 in Hpath. destruct stack as [|[p|] stack]; cbn [clear_of] in Hc; [|destruct Hc as (-> & _)|destruct Hc].
        - subst pre. cbn [at_path] in Hm. injection Hm as <-. rewrite <- Hpath. rewrite <- Hpath. rewrite (Hr1 eq_refl). reflexivity.
        - rewrite Hm, <- Hpath. reflexivity. }
      destruct (IH d (pre ++ [k']) (Some (pre ++ [k']) :: stack)) as (d' & E & F).
      * exact Hl.
      * cbn [clear_of]. split; [reflexivity|]. split; [eauto|]. exists pre, k'. auto.
      * intros k0 F. destruct pre; discriminate.
      * intros F. apply Hnin. now right.
      * intros p r Ep Hp. rewrite <- app_assoc. cbn [app]. apply (Hsh (k' :: p) r); [now rewrite Ep|discriminate].
      * exists d'. rewrite Hpush. cbn [bindr exec]. rewrite E. cbn [bindr pop_section snd fst].
        split; [reflexivity|]. rewrite <- app_assoc in F. exact F.
Qed.
(** C142: a variable that a script has set at the top level can be used in sections of
    any depth, unless one of them has an entry of the same name.  Restricted to names
    that are no attributes of python's dictionaries and to values that are no mappings. *)
Theorem C142_variables_partial ss d x a ks y :
  run ss (nil, nil) = Ok (d, nil) -> lookup x d = Some (VAtom a) -> reserved x = false ->
  (forall k, hd_error ks = Some k -> reserved (under k) = false) -> ~ In x (map under ks) ->
  not_shadowed x d (map under ks) ->
  exists d', exec_pyconfig attr file none builtins (ss ++ [nest ks (SAssign y (EName x))]) = Ok d'
    /\ at_path (map under ks ++ [y]) d' = Some (VAtom a).
Proof.
  intros Hr Hl Hx Hk Hn Hs.
  destruct (run_nested x y a Hx ks d nil nil Hl eq_refl (fun k _ => Hk k) Hn Hs) as (d' & E & F).
  exists d'. split; [|exact F]. unfold exec_pyconfig. rewrite exec_app, Hr. cbn [bindr exec]. rewrite E. reflexivity.
Qed.
End Vars.
Example C142_ex : exec_pyconfig (fun _ => VAtom 0) (VAtom 0) (VAtom 0) (fun _ => None)
    ([SAssign $"wide" (ELit (VAtom 100)); SWith $"format" [SAssign $"tab_size" (ELit (VAtom 4))]] ++ [nest [$"format"] (SAssign $"line_width" (EName $"wide"))])
    = Ok [($"wide", VAtom 100); ($"format", VMap [($"tab_size", VAtom 4); ($"line_width", VAtom 100)])]
  /\ reserved $"wide" = false /\ reserved (under $"format") = false
  /\ not_shadowed $"wide" [($"wide", VAtom 100); ($"format", VMap [($"tab_size", VAtom 4)])] [$"format"].
Proof.
  split; [vm_compute; reflexivity|]. split; [reflexivity|]. split; [reflexivity|].
  intros p r E Hp. destruct p as [|k p]; [congruence|]. injection E as <- E. destruct p; [|discriminate].
  right. eexists. split; vm_compute; reflexivity.
Qed.
(** a variable called [keys] is not readable: the name means the method of python's
    dictionaries, whatever was assigned to it *)
Theorem C142_variables_refuted : exists x ss d a,
  (forall attr file none builtins, exec attr file none builtins ss (nil, nil) = Ok (d, nil))
  /\ lookup x d = Some (VAtom a)
  /\ forall attr file none builtins y, attr x <> VAtom a ->
     exec_pyconfig attr file none builtins (ss ++ [nest [$"format"] (SAssign y (EName x))]) = Ok (d ++ [($"format", VMap [(y, attr x)])]).
Proof.
  exists $"keys", [SAssign $"keys" (ELit (VAtom 1))], [($"keys", VAtom 1)], 1. repeat split; intros; reflexivity.
Qed.

(** ** Files that cannot be read *)
Section Files.
Variable json yaml python : str -> reading.
(** the reader that the name of a file asks for *)
Definition reader_of (path : str) : option (str -> reading) :=
  if endswith $".json" path then Some (fun c => match c with nil => Read (VMap nil) | _ => json c end)
  else if endswith $".yaml" path then Some yaml
  else if endswith $".py" path then Some python
  else None.
Notation get := (get_one_config_dict json yaml python).
(** C143: a file that is there is read in the notation its name asks for, and in the
    first one that works when the name has none of the endings; a missing file, a json
    file or a yaml file with a ValueError and a python file with any Exception are
    reported as errors of the user. *)
Theorem C143_config_errors_partial path content :
  get false path content = Reported
  /\ (forall r, reader_of path = Some r -> forall v, get true path content = Loaded v <-> r content = Read v)
  /\ (forall r, reader_of path = Some r -> r content = BadValue -> get true path content = Reported)
  /\ (endswith $".py" path = true -> python content = BadOther -> get true path content = Reported)
  /\ (reader_of path = None -> forall v, get true path content = Loaded v <->
        json content = Read v
        \/ ((forall w, json content <> Read w) /\ yaml content = Read v)
        \/ ((forall w, json content <> Read w) /\ (forall w, yaml content <> Read w) /\ python content = Read v)).
Proof.
  unfold get_one_config_dict, reader_of. cbn [negb]. split; [reflexivity|].
  assert (Hdisj : endswith $".py" path = true -> endswith $".json" path = false /\ endswith $".yaml" path = false).
  { unfold endswith. cbn -[N.eqb]. destruct (rev path) as [|a [|b p]]; cbn -[N.eqb]; try discriminate.
    - now rewrite !andb_false_r.
    - intros H. apply andb_prop in H as [H1 _]. apply N.eqb_eq in H1. subst a. split; reflexivity. }
  destruct (endswith $".json" path) eqn:Ej.
  { split; [|split; [|split]].
    - intros r H v. injection H as <-. destruct content as [|ch content]; [split; intros H; injection H as ->; reflexivity|].
      destruct (json (ch :: content)); split; intros H; try discriminate; injection H as ->; reflexivity.
    - intros r H. injection H as <-. destruct content as [|ch content]; [discriminate|]. now intros ->.
    - intros H. destruct (Hdisj H). discriminate.
    - discriminate. }
  destruct (endswith $".yaml" path) eqn:Ey.
  { split; [|split; [|split]].
    - intros r H v. injection H as <-. destruct (yaml content); split; intros H; try discriminate; injection H as ->; reflexivity.
    - intros r H. injection H as <-. now intros ->.
    - intros H. destruct (Hdisj H). discriminate.
    - discriminate. }
  destruct (endswith $".py" path) eqn:Ep.
  { split; [|split; [|split]].
    - intros r H v. injection H as <-. destruct (python content); split; intros H; try discriminate; injection H as ->; reflexivity.
    - intros r H. injection H as <-. now intros ->.
    - intros _. now intros ->.
    - discriminate. }
  split; [discriminate|]. split; [discriminate|]. split; [discriminate|]. intros _ v.
  destruct (json content) as [w| | |]; [split; [intros H; injection H as ->; now left|intros [H|[[H _]|[H _]]]; [now injection H as ->|now destruct (H w)|now destruct (H w)]]| | |];
  (destruct (yaml content) as [w| | |]; [split; [intros H; injection H as ->; right; left; split; [discriminate|reflexivity]|intros [H|[[_ H]|[_ [H _]]]]; [discriminate|now injection H as ->|now destruct (H w)]]| | |]);
  (destruct (python content) as [w| | |]; (split; [intros H; try discriminate H; injection H as ->; right; right; repeat split; discriminate|intros [H|[[_ H]|[_ [_ H]]]]; try discriminate H; now injection H as ->])).
Qed.
(** a yaml file in which the parser finds a mistake (yaml.YAMLError is no ValueError) and
    a file without an ending that no reader understands end the program with a traceback *)
Theorem C143_config_errors_refuted :
  (forall content, yaml content = BadOther -> get true $"a.yaml" content = Raised)
  /\ (forall content, json content = BadValue -> yaml content = BadOther -> python content = BadOther -> get true $".cmake-format" content = Raised).
Proof. split; intros content; intros; unfold get_one_config_dict; cbn; [now rewrite H|now rewrite H, H0, H1]. Qed.
End Files.
Example C143_ex : get_one_config_dict (fun _ => BadValue) (fun _ => BadOther) (fun _ => Read (VMap nil)) true $"x.json" $"{" = Reported
  /\ get_one_config_dict (fun _ => BadValue) (fun _ => BadOther) (fun _ => Read (VMap nil)) true $".cmake-format" $"with" = Loaded (VMap nil).
Proof. split; reflexivity. Qed.
