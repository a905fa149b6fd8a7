(** * PropCmd: C146 to C149, C158, C159 - what a command line means *)
From Coq Require Import DecimalN.
From Verif Require Import Base TextOps Config PropConfig MainLoop CmdLine.
From Verif Require Lint.

Lemma bindo_done {A B} (x : out A) (f : A -> out B) b : bindo x f = Done b -> exists a, x = Done a /\ f a = Done b.
Proof. destruct x; cbn [bindo]; intros H; [eauto|discriminate|discriminate]. Qed.

(** an argument string that cannot be taken for an option *)
Definition plain (a : str) : bool := negb (startswith $"-" a) || seqb a $"-".
Lemma plain_dashes a : plain a = true -> seqb a dashes = false.
Proof.
  intros H. apply seqb_neq. intros ->. vm_compute in H. discriminate.
Qed.

Section Cmd.
Variable opts : list opt.
Notation tbl := (table opts).
(** option strings begin with a dash, are longer than it and hold no equals sign *)
Definition name_ok (n : str) : bool :=
  startswith $"-" n && negb (seqb n $"-") && negb (seqb n dashes) && negb (existsb (N.eqb 61%N) n).
Hypothesis names_ok : forallb (fun no => name_ok (fst no)) tbl = true.

Lemma lookup_name n o : lookup n tbl = Some o -> name_ok n = true /\ In (n, o) tbl.
Proof.
  revert names_ok. generalize tbl. intros d. induction d as [|[k v] d IH]; [discriminate|]. cbn [lookup forallb fst].
  intros Hn H. apply andb_prop in Hn as [A B]. destruct (seqb n k) eqn:E.
  - apply seqb_eq in E as ->. injection H as <-. split; [exact A|now left].
  - destruct (IH B H). split; [|right]; auto.
Qed.
Lemma plain_tag a : plain a = true -> parse_optional opts a = Done TA.
Proof.
  unfold plain, parse_optional. intros H. destruct (startswith $"-" a) eqn:E; [|reflexivity]. cbn [negb orb] in *.
  apply seqb_eq in H as ->. destruct (lookup $"-" tbl) eqn:El; [|reflexivity].
  apply lookup_name in El as [El _]. vm_compute in El. discriminate.
Qed.
Lemma partition_app n v : existsb (N.eqb 61%N) n = false -> partition_eq (n ++ 61%N :: v) = (n, Some v).
Proof.
  induction n as [|c n IH]; intros H; [reflexivity|]. cbn [existsb] in H. apply orb_false_elim in H as [A B].
  cbn [app partition_eq]. rewrite N.eqb_sym, A, IH by exact B. reflexivity.
Qed.
Lemma set_tag n o v : lookup n tbl = Some o ->
  parse_optional opts (n ++ 61%N :: v) = Done (TO (Some (n, o, Some (true, v)))) /\ seqb (n ++ 61%N :: v) dashes = false.
Proof.
  intros H. destruct (lookup_name _ _ H) as [A _]. unfold name_ok in A.
  apply andb_prop in A as [A A4]. apply andb_prop in A as [A A3]. apply andb_prop in A as [A1 A2]. apply negb_true_iff in A2, A3, A4.
  assert (Hs : startswith $"-" (n ++ 61%N :: v) = true).
  { destruct n as [|c n]; [discriminate|]. exact A1. }
  assert (Hl : lookup (n ++ 61%N :: v) tbl = None).
  { destruct (lookup (n ++ 61%N :: v) tbl) eqn:E; [|reflexivity]. apply lookup_name in E as [E _]. unfold name_ok in E.
    apply andb_prop in E as [_ E]. apply negb_true_iff in E. rewrite existsb_app in E. cbn [existsb] in E.
    rewrite orb_true_r in E. discriminate. }
  split.
  - unfold parse_optional. rewrite Hs, Hl. cbn [negb].
    destruct n as [|c [|c2 n]]; [discriminate| |].
    { change (N.eqb 45 c && true = true) in A1. rewrite andb_true_r in A1. apply N.eqb_eq in A1. subst c. vm_compute in A2. discriminate. }
    cbn [app List.length Nat.eqb]. change (c :: c2 :: n ++ 61%N :: v) with ((c :: c2 :: n) ++ 61%N :: v).
    rewrite partition_app by exact A4. rewrite H. reflexivity.
  - apply seqb_neq. intros E. assert (In 61%N dashes) by (rewrite <- E; apply in_elt). vm_compute in H0. intuition discriminate.
Qed.
Lemma flag_tag n o : lookup n tbl = Some o -> parse_optional opts n = Done (TO (Some (n, o, None))) /\ seqb n dashes = false.
Proof.
  intros H. destruct (lookup_name _ _ H) as [A _]. unfold name_ok in A.
  apply andb_prop in A as [A _]. apply andb_prop in A as [A A3]. apply andb_prop in A as [A1 _]. apply negb_true_iff in A3.
  split; [|exact A3]. unfold parse_optional. now rewrite A1, H.
Qed.

(** ** The tags *)
Lemma tags_app pre : forall post ts, smem dashes pre = false -> tags_of opts (pre ++ post) = Done ts ->
  exists tp tq, tags_of opts pre = Done tp /\ tags_of opts post = Done tq /\ ts = tp ++ tq.
Proof.
  induction pre as [|a pre IH]; intros post ts Hd H; [exists nil, ts; auto|].
  unfold smem in Hd. cbn [existsb] in Hd. apply orb_false_elim in Hd as [Ha Hd]. rewrite seqb_sym in Ha.
  cbn [app tags_of] in *. rewrite Ha in *. apply bindo_done in H as (t & E & H). apply bindo_done in H as (us & E2 & H).
  injection H as <-. destruct (IH _ _ Hd E2) as (tp & tq & A & B & ->). rewrite E, A. cbn [bindo]. exists ((a, Some t) :: tp), tq. auto.
Qed.
Lemma tags_some pre : forall tp, smem dashes pre = false -> tags_of opts pre = Done tp ->
  map fst tp = pre /\ Forall (fun q => snd q <> None) tp.
Proof.
  induction pre as [|a pre IH]; intros tp Hd H; [injection H as <-; split; [reflexivity|constructor]|].
  unfold smem in Hd. cbn [existsb] in Hd. apply orb_false_elim in Hd as [Ha Hd]. rewrite seqb_sym in Ha. cbn [tags_of] in H. rewrite Ha in H.
  apply bindo_done in H as (t & E & H). apply bindo_done in H as (us & E2 & H). injection H as <-.
  destruct (IH _ Hd E2) as [A B]. cbn [map fst]. rewrite A. split; [reflexivity|]. constructor; [discriminate|exact B].
Qed.
Lemma tags_plain ps : forallb plain ps = true -> tags_of opts ps = Done (map (fun x => (x, Some TA)) ps).
Proof.
  induction ps as [|a ps IH]; intros H; [reflexivity|]. cbn [forallb] in H. apply andb_prop in H as [A B]. cbn [tags_of map].
  rewrite plain_dashes, plain_tag, IH by assumption. reflexivity.
Qed.
Lemma plain_nodash ps : forallb plain ps = true -> smem dashes ps = false.
Proof.
  induction ps as [|a ps IH]; intros H; [reflexivity|]. cbn [forallb] in H. apply andb_prop in H as [A B]. unfold smem in *. cbn [existsb].
  rewrite seqb_sym, plain_dashes by exact A. exact (IH B).
Qed.
Lemma remove_none l : smem dashes l = false -> forall r, remove_dashes (l ++ dashes :: r) = l ++ r /\ remove_dashes l = l.
Proof.
  induction l as [|a l IH]; intros H r; [split; reflexivity|]. unfold smem in *. cbn [existsb] in H. apply orb_false_elim in H as [A B].
  rewrite seqb_sym in A. cbn [app remove_dashes]. rewrite A. destruct (IH B r) as [-> ->]. auto.
Qed.

(** ** One option *)
Lemma act_same o l s s1 : take_action o l s = Done s1 -> p_paths s1 = p_paths s /\ p_extra s1 = p_extra s.
Proof.
  unfold take_action. intros H. apply bindo_done in H as (v & _ & H). destruct (_ && _); [discriminate|].
  destruct (o_act o); [| | |discriminate]; injection H as <-; auto.
Qed.
Lemma acts_same acts : forall s s1, take_all acts s = Done s1 -> p_paths s1 = p_paths s /\ p_extra s1 = p_extra s.
Proof.
  induction acts as [|[o l] acts IH]; intros s s1 H; [injection H as <-; auto|]. cbn [take_all] in H.
  apply bindo_done in H as (s2 & E & H). apply act_same in E as [A B]. apply IH in H as [C D]. split; congruence.
Qed.
Lemma optional_same a m r s s1 n : consume_optional opts a m r s = Done (s1, n) ->
  p_paths s1 = p_paths s /\ (exists x, p_extra s1 = p_extra s ++ x) /\ (n <= List.length (ahead r))%nat.
Proof.
  unfold consume_optional. destruct m as [[[name o] e]|].
  - intros H. apply bindo_done in H as ([[acts ex] last] & _ & H). destruct last as [o2|].
    + apply bindo_done in H as (k & E & H). apply bindo_done in H as (s2 & E2 & H). injection H as <- <-.
      apply acts_same in E2 as [A B]. cbn [p_paths p_extra] in A, B. split; [exact A|]. split; [eauto|].
      unfold match_count in E. revert E. generalize (List.length (ahead r)). intros q E.
      destruct (o_nargs o2); try (destruct (q =? 0)%nat eqn:Ez; [discriminate|apply Nat.eqb_neq in Ez]); injection E as E; rewrite <- E; try lia; destruct q; lia.
    + apply bindo_done in H as (s2 & E2 & H). injection H as <- <-. apply acts_same in E2 as [A B]. cbn [p_paths p_extra] in A, B.
      split; [exact A|]. split; [eauto|lia].
  - intros H. injection H as <- <-. cbn. split; [reflexivity|]. split; [eauto|lia].
Qed.
Lemma go_mono fuel : forall ts s s', go opts fuel ts s = Done s' ->
  (exists x, p_extra s' = p_extra s ++ x) /\ (forall l, p_paths s = Some l -> p_paths s' = Some l).
Proof.
  induction fuel as [|fuel IH]; [discriminate|]. intros ts s s' H. cbn [go] in H.
  assert (G : forall k, go opts fuel k (match p_paths s with
             | None => PSt (p_ns s) (Some (remove_dashes (run_of ts))) (p_extra s) (p_seen s)
             | Some _ => PSt (p_ns s) (p_paths s) (p_extra s ++ run_of ts) (p_seen s) end) = Done s' ->
    (exists x, p_extra s' = p_extra s ++ x) /\ (forall l, p_paths s = Some l -> p_paths s' = Some l)).
  { intros k E. apply IH in E as [[x A] B]. destruct (p_paths s) as [l|]; cbn [p_extra p_paths] in A, B.
    - rewrite <- app_assoc in A. split; [eauto|]. intros l0 E. apply B. exact E.
    - split; [eauto|discriminate]. }
  destruct ts as [|[a [[|m]|]] r]; [injection H as <-; split; [exists nil; now rewrite app_nil_r|auto]|eauto| |eauto].
  apply bindo_done in H as ([s1 n] & E & H). apply optional_same in E as (A & [x B] & _). apply IH in H as [[y C] D].
  split; [exists (x ++ y); rewrite C, B; now rewrite app_assoc|]. intros l E. apply D. congruence.
Qed.
Lemma parse_args_inv args n ps : parse_args opts args = Done (n, ps) -> exists ts s, tags_of opts args = Done ts
  /\ go opts (S (List.length ts)) ts (PSt (initial_ns opts) None nil nil) = Done s
  /\ p_extra s = nil /\ n = p_ns s /\ ps = match p_paths s with Some l => l | None => nil end.
Proof.
  unfold parse_args. intros H. apply bindo_done in H as (ts & A & H). apply bindo_done in H as (s & B & H).
  destruct (p_extra s) eqn:E; [|discriminate]. injection H as <- <-. eauto 8.
Qed.

(** ** C146: the input paths *)
Lemma run_plain ps ts : match ts with (_, Some (TO _)) :: _ | nil => True | _ => False end ->
  run_of (map (fun x => (x, Some TA)) ps ++ ts) = ps.
Proof.
  intros H. induction ps as [|a ps IH]; [destruct ts as [|[b [[|m]|]] ts]; auto; contradiction|]. cbn [map app run_of]. now rewrite IH.
Qed.
Lemma skipn_exact {A} (a b : list A) k : k = List.length a -> skipn k (a ++ b) = b.
Proof. intros ->. rewrite skipn_app, skipn_all, Nat.sub_diag. reflexivity. Qed.

(** Paths that are given first are the files processed. *)
Theorem C146_paths_first_partial paths name o rest n ps :
  paths <> nil -> forallb plain paths = true -> lookup name tbl = Some o ->
  parse_args opts (paths ++ name :: rest) = Done (n, ps) -> ps = paths.
Proof.
  intros Hne Hp Hn H. apply parse_args_inv in H as (ts & s & Ht & Hg & He & _ & ->).
  destruct (tags_app _ _ _ (plain_nodash _ Hp) Ht) as (tp & tq & A & B & ->). rewrite (tags_plain _ Hp) in A. injection A as <-.
  destruct (flag_tag _ _ Hn) as [F1 F2]. cbn [tags_of] in B. rewrite F2, F1 in B. cbn [bindo] in B.
  apply bindo_done in B as (tr & _ & B). injection B as <-.
  destruct paths as [|p paths]; [contradiction|]. set (tail := (name, Some (TO (Some (name, o, None)))) :: tr) in *.
  cbn [map app go] in Hg. change ((p, Some TA) :: map (fun x => (x, Some TA)) paths ++ tail) with (map (fun x => (x, Some TA)) (p :: paths) ++ tail) in Hg.
  rewrite (run_plain (p :: paths) tail Logic.I) in Hg. cbn [p_paths] in Hg.
  apply go_mono in Hg as [_ Hg]. cbn [p_paths] in Hg. rewrite (Hg _ eq_refl).
  apply (remove_none (p :: paths) (plain_nodash _ Hp) nil).
Qed.
(** Without any option all arguments are paths. *)
Theorem C146_only_paths_partial paths n ps :
  forallb plain paths = true -> parse_args opts paths = Done (n, ps) -> ps = paths /\ n = initial_ns opts.
Proof.
  intros Hp H. apply parse_args_inv in H as (ts & s & Ht & Hg & He & -> & ->).
  rewrite (tags_plain _ Hp) in Ht. injection Ht as <-. destruct paths as [|p paths]; [injection Hg as <-; auto|].
  rewrite map_length in Hg. remember (S (List.length (p :: paths))) as k. cbn [map go] in Hg.
  assert (Hr := run_plain (p :: paths) nil Logic.I). rewrite app_nil_r in Hr. subst k. cbn [go] in Hg. cbn [map] in Hr. rewrite Hr in Hg.
  change ((p, Some TA) :: map (fun x => (x, Some TA)) paths) with (map (fun x : str => (x, Some TA)) (p :: paths)) in Hg.
  rewrite <- (app_nil_r (map _ _)) in Hg. rewrite skipn_exact in Hg by now rewrite map_length.
  cbn [List.length] in Hg. cbn [p_paths go] in Hg. injection Hg as <-. cbn [p_paths p_ns]. split; [|reflexivity].
  apply (remove_none (p :: paths) (plain_nodash _ Hp) nil).
Qed.

(** Whatever stands behind a double dash is processed, in order, whatever it looks like. *)
Lemma ahead_app tp tail : match tail with (_, None) :: _ => True | _ => False end ->
  (List.length (ahead (tp ++ tail)) <= List.length tp)%nat.
Proof.
  intros H. induction tp as [|[a [[|m]|]] tp IH]; cbn [app ahead List.length]; try lia.
  destruct tail as [|[b [t|]] tail]; try contradiction. cbn. lia.
Qed.
Lemma run_dash tp paths : Forall (fun q => snd q <> None) tp ->
  (run_of (tp ++ (dashes, None) :: map (fun x => (x, Some TA)) paths) = map fst tp ++ dashes :: paths)
  \/ exists k, run_of (tp ++ (dashes, None) :: map (fun x => (x, Some TA)) paths) = firstn k (map fst tp) /\ (k <= List.length tp)%nat.
Proof.
  induction 1 as [|[a [[|m]|]] tp H _ IH].
  - left. cbn [app run_of map]. f_equal. pose proof (run_plain paths nil Logic.I) as R. rewrite app_nil_r in R. exact R.
  - cbn [app run_of map fst]. destruct IH as [->|(k & -> & Hk)]; [now left|]. right. exists (S k). cbn. split; [reflexivity|lia].
  - right. exists 0%nat. cbn. split; [reflexivity|lia].
  - cbn in H. contradiction.
Qed.
Lemma go_dash paths fuel : forall tp s s', Forall (fun q => snd q <> None) tp -> smem dashes (map fst tp) = false ->
  go opts fuel (tp ++ (dashes, None) :: map (fun x => (x, Some TA)) paths) s = Done s' -> p_extra s' = nil ->
  exists mid, p_paths s' = Some (mid ++ paths).
Proof.
  induction fuel as [|fuel IH]; [discriminate|]. intros tp s s' Hs Hd H He.
  set (tail := (dashes, None) :: map (fun x => (x, Some TA)) paths) in *.
  assert (Hsk : forall k, (k <= List.length tp)%nat -> skipn k (tp ++ tail) = skipn k tp ++ tail).
  { intros k Hk. rewrite skipn_app. replace (k - List.length tp)%nat with 0%nat by lia. reflexivity. }
  assert (Hfs : forall k, Forall (fun q : str * option tag => snd q <> None) (skipn k tp) /\ smem dashes (map fst (skipn k tp)) = false).
  { intros k. rewrite <- (firstn_skipn k tp) in Hs, Hd. apply Forall_app in Hs as [_ Hs]. rewrite map_app in Hd. unfold smem in *.
    rewrite existsb_app in Hd. apply orb_false_elim in Hd as [_ Hd]. auto. }
  assert (G : go opts fuel (skipn (List.length (run_of (tp ++ tail))) (tp ++ tail))
      (match p_paths s with None => PSt (p_ns s) (Some (remove_dashes (run_of (tp ++ tail)))) (p_extra s) (p_seen s)
       | Some _ => PSt (p_ns s) (p_paths s) (p_extra s ++ run_of (tp ++ tail)) (p_seen s) end) = Done s' ->
      exists mid, p_paths s' = Some (mid ++ paths)).
  { intros E. destruct (run_dash tp paths Hs) as [Hr|(k & Hr & Hk)]; fold tail in Hr; rewrite Hr in E.
    - apply go_mono in E as [[x A] B]. destruct (p_paths s) as [l|]; cbn [p_extra p_paths] in A, B.
      + exfalso. rewrite He in A. destruct (p_extra s); [destruct (map fst tp)|]; discriminate A.
      + exists (map fst tp). rewrite (B _ eq_refl). now rewrite (proj1 (remove_none _ Hd paths)).
    - rewrite firstn_length, map_length in E. rewrite Nat.min_l in E by exact Hk. rewrite Hsk in E by exact Hk.
      destruct (Hfs k) as [F1 F2]. eapply IH; eauto. }
  cbn [go] in H. destruct tp as [|[a [[|m]|]] r]; [exact (G H)|exact (G H)| |exact (G H)].
  cbn [app] in H. apply bindo_done in H as ([s1 n] & E & H). apply optional_same in E as (_ & _ & Hn).
  assert (n <= List.length r)%nat by (pose proof (ahead_app r tail Logic.I); lia).
  replace (skipn n (r ++ tail)) with (skipn n r ++ tail) in H by (rewrite skipn_app; replace (n - List.length r)%nat with 0%nat by lia; reflexivity).
  destruct (Hfs (S n)) as [F1 F2]. cbn [skipn] in F1, F2. eapply IH; eauto.
Qed.
Theorem C146_dashes_partial pre paths n ps : smem dashes pre = false ->
  parse_args opts (pre ++ dashes :: paths) = Done (n, ps) -> exists mid, ps = mid ++ paths.
Proof.
  intros Hd H. apply parse_args_inv in H as (ts & s & Ht & Hg & He & _ & ->).
  destruct (tags_app _ _ _ Hd Ht) as (tp & tq & A & B & ->). destruct (tags_some _ _ Hd A) as [F1 F2].
  cbn [tags_of] in B. rewrite seqb_refl in B. injection B as <-.
  destruct (go_dash _ _ _ _ _ F2 ltac:(rewrite F1; exact Hd) Hg He) as (mid & E). rewrite E. eauto.
Qed.

(** Options that carry their value behind an equals sign, and options without value,
    leave all other arguments to be paths. *)
Inductive item := IPath (p : str) | IFlag (name : str) | ISet (name value : str).
Definition text_of (i : item) : str :=
  match i with IPath p => p | IFlag f => f | ISet f v => f ++ 61%N :: v end.
Definition takes (o : opt) : bool := match o_nargs o with NZero => false | _ => true end.
Definition item_ok (i : item) : bool :=
  match i with
  | IPath p => plain p
  | IFlag f => match lookup f tbl with Some o => negb (takes o) | None => false end
  | ISet f _ => match lookup f tbl with Some o => takes o | None => false end
  end.
Definition path_of (i : item) : list str := match i with IPath p => [p] | _ => nil end.
Definition item_tag (i : item) : str * option tag :=
  (text_of i, Some (match i with
    | IPath _ => TA
    | IFlag f => TO (option_map (fun o => (f, o, None)) (lookup f tbl))
    | ISet f v => TO (option_map (fun o => (f, o, Some (true, v))) (lookup f tbl))
    end)).
Lemma items_tags is : forallb item_ok is = true -> tags_of opts (map text_of is) = Done (map item_tag is).
Proof.
  induction is as [|i is IH]; intros H; [reflexivity|]. cbn [forallb] in H. apply andb_prop in H as [A B].
  cbn [map tags_of]. rewrite IH by exact B. clear IH. destruct i as [p|f|f v]; cbn [text_of item_ok] in *.
  - rewrite plain_dashes, plain_tag by exact A. reflexivity.
  - destruct (lookup f tbl) as [o|] eqn:E; [|discriminate]. destruct (flag_tag _ _ E) as [-> ->]. cbn [bindo]. unfold item_tag at 2. now rewrite E.
  - destruct (lookup f tbl) as [o|] eqn:E; [|discriminate]. destruct (set_tag _ _ v E) as [-> ->]. cbn [bindo]. unfold item_tag at 2. now rewrite E.
Qed.
Lemma items_run is : forallb item_ok is = true -> exists k, run_of (map item_tag is) = flat_map path_of (firstn k is)
  /\ List.length (run_of (map item_tag is)) = k /\ (k <= List.length is)%nat /\ Forall (fun i => exists p, i = IPath p) (firstn k is).
Proof.
  induction is as [|i is IH]; intros H; [exists 0%nat; repeat split; auto; constructor|]. cbn [forallb] in H. apply andb_prop in H as [A B].
  destruct i as [p|f|f v].
  - destruct (IH B) as (k & E1 & E2 & E3 & E4). exists (S k). cbn [map item_tag run_of text_of firstn flat_map path_of app List.length].
    rewrite E1. split; [reflexivity|]. rewrite E1 in E2. rewrite E2. split; [reflexivity|]. split; [lia|]. constructor; eauto.
  - exists 0%nat. repeat split; auto; [cbn; lia|constructor].
  - exists 0%nat. repeat split; auto; [cbn; lia|constructor].
Qed.
Lemma go_items fuel : forall is s s', forallb item_ok is = true -> go opts fuel (map item_tag is) s = Done s' -> p_extra s' = nil ->
  match p_paths s with
  | Some l => flat_map path_of is = nil /\ p_paths s' = Some l
  | None => match p_paths s' with Some l => l | None => nil end = flat_map path_of is
  end.
Proof.
  induction fuel as [|fuel IH]; [discriminate|]. intros is s s' Hi H He. cbn [go] in H.
  destruct is as [|i is]; [injection H as <-; destruct (p_paths s); auto|].
  assert (Hi0 := Hi). cbn [forallb] in Hi. apply andb_prop in Hi as [A B].
  destruct i as [p|f|f v].
  - cbn [map] in H. change (item_tag (IPath p)) with (p, Some TA) in H. cbv iota beta in H.
    change ((p, Some TA) :: map item_tag is) with (map item_tag (IPath p :: is)) in H.
    destruct (items_run _ Hi0) as (k & E1 & E2 & E3 & E4). set (l := IPath p :: is) in *.
    rewrite E2 in H. rewrite skipn_map in H.
    assert (Hk : forallb item_ok (skipn k l) = true).
    { rewrite <- (firstn_skipn k l) in Hi0. rewrite forallb_app in Hi0. now apply andb_prop in Hi0. }
    assert (Hsplit : flat_map path_of l = flat_map path_of (firstn k l) ++ flat_map path_of (skipn k l)).
    { rewrite <- flat_map_app. now rewrite firstn_skipn. }
    assert (Hne : run_of (map item_tag l) <> nil) by (subst l; cbn; discriminate).
    pose proof (IH _ _ _ Hk H He) as G. destruct (p_paths s) as [q|] eqn:Eq; cbn [p_paths] in G.
    + exfalso. apply go_mono in H as [[x X] _]. cbn [p_extra] in X. rewrite He in X.
      destruct (run_of (map item_tag l)); [now apply Hne|]. destruct (p_extra s); discriminate X.
    + destruct G as [G1 G2]. rewrite G2, Hsplit, G1, app_nil_r, <- E1.
      apply (remove_none (run_of (map item_tag l))); [|exact nil]. rewrite E1. apply plain_nodash.
      clear - Hi0 E4. rewrite <- (firstn_skipn k l) in Hi0. rewrite forallb_app in Hi0. apply andb_prop in Hi0 as [Hi0 _].
      induction E4 as [|i m [p2 ->] _ IH]; [reflexivity|]. cbn [forallb flat_map path_of app item_ok] in *. apply andb_prop in Hi0 as [-> Hi0]. auto.
  - cbn [map] in H. destruct (item_tag (IFlag f)) as [a t] eqn:Et. unfold item_tag in Et. cbn [text_of item_ok] in *.
    destruct (lookup f tbl) as [o|] eqn:E; [|discriminate]. injection Et as <- <-.
    cbn [option_map] in H. apply bindo_done in H as ([s1 n] & C & H).
    assert (n = 0%nat) as ->.
    { unfold consume_optional in C. destruct (List.length f); cbn [cluster bindo] in C;
        apply bindo_done in C as (k & C1 & C); apply bindo_done in C as (s2 & _ & C); injection C as _ <-;
        unfold takes in A; unfold match_count in C1; destruct (o_nargs o); try discriminate; now injection C1 as <-. }
    apply optional_same in C as (C1 & _ & _). pose proof (IH _ _ _ B H He) as G. rewrite C1 in G. cbn [skipn] in G. exact G.
  - cbn [map] in H. destruct (item_tag (ISet f v)) as [a t] eqn:Et. unfold item_tag in Et. cbn [text_of item_ok] in *.
    destruct (lookup f tbl) as [o|] eqn:E; [|discriminate]. injection Et as <- <-.
    cbn [option_map] in H. apply bindo_done in H as ([s1 n] & C & H).
    assert (n = 0%nat) as ->.
    { unfold consume_optional in C. apply bindo_done in C as ([[acts ex] last] & C1 & C).
      assert (last = None) as ->.
      { unfold takes in A. destruct (List.length _); cbn [cluster] in C1; destruct (o_nargs o); try discriminate; now injection C1. }
      apply bindo_done in C as (s2 & _ & C). now injection C. }
    apply optional_same in C as (C1 & _ & _). pose proof (IH _ _ _ B H He) as G. rewrite C1 in G. cbn [skipn] in G. exact G.
Qed.
Theorem C146_explicit_partial items n ps : forallb item_ok items = true ->
  parse_args opts (map text_of items) = Done (n, ps) -> ps = flat_map path_of items.
Proof.
  intros Hi H. apply parse_args_inv in H as (ts & s & Ht & Hg & He & _ & ->).
  rewrite (items_tags _ Hi) in Ht. injection Ht as <-. exact (go_items _ _ _ _ Hi Hg He).
Qed.

(** ** C148: strings that look like options are never dropped *)
Lemma keep_ahead x m r : In (x, Some (TO m)) r -> forall n, (n <= List.length (ahead r))%nat -> In (x, Some (TO m)) (skipn n r).
Proof.
  induction r as [|[a t] r IH]; intros Hin n Hn; [destruct Hin|]. destruct n as [|n]; [exact Hin|]. cbn [skipn].
  destruct t as [[|m2]|]; cbn [ahead List.length] in Hn; try lia. apply IH; [|lia]. destruct Hin as [Hin|Hin]; [discriminate|exact Hin].
Qed.
Lemma keep_run x m ts : In (x, Some (TO m)) ts -> In (x, Some (TO m)) (skipn (List.length (run_of ts)) ts).
Proof.
  induction ts as [|[a t] r IH]; intros Hin; [destruct Hin|]. destruct t as [[|m2]|]; cbn [run_of List.length skipn];
    [|exact Hin|]; (apply IH; destruct Hin as [Hin|Hin]; [discriminate|exact Hin]).
Qed.
Lemma unknown_extra a fuel : forall ts s s', In (a, Some (TO None)) ts -> go opts fuel ts s = Done s' -> In a (p_extra s').
Proof.
  induction fuel as [|fuel IH]; [discriminate|]. intros ts s s' Hin H. cbn [go] in H.
  destruct ts as [|[b [[|m]|]] r]; [destruct Hin| | |].
  1,3: eapply IH; [|exact H]; apply keep_run; exact Hin.
  apply bindo_done in H as ([s1 n] & E & H). destruct Hin as [Hin|Hin].
  - injection Hin as -> ->. cbn [consume_optional] in E. injection E as <- <-. apply go_mono in H as [[x X] _]. rewrite X.
    cbn [p_extra]. apply in_or_app. left. apply in_or_app. right. now left.
  - apply optional_same in E as (_ & _ & Hn). eapply IH; [|exact H]. now apply keep_ahead.
Qed.
(** the part before an equals sign *)
Definition stem (a : str) : str := fst (partition_eq a).
(** a string with two dashes that abbreviates no option *)
Definition stray (a : str) : bool :=
  startswith dashes a && negb (seqb a dashes) && negb (existsb (N.eqb cSP) a)
  && forallb (fun no => negb (startswith (stem a) (fst no))) tbl.
Lemma startswith_refl s : startswith s s = true.
Proof. apply startswith_spec. exists nil. now rewrite app_nil_r. Qed.
Lemma no_prefix p o : forallb (fun no => negb (startswith p (fst no))) tbl = true -> lookup p tbl = Some o -> False.
Proof.
  intros H E. apply lookup_name in E as [_ E]. rewrite forallb_forall in H. apply H in E. cbn [fst] in E. now rewrite startswith_refl in E.
Qed.
Lemma partition_none a : snd (partition_eq a) = None -> fst (partition_eq a) = a.
Proof.
  induction a as [|c a IH]; [reflexivity|]. cbn [partition_eq]. destruct (N.eqb c 61); [discriminate|].
  destruct (partition_eq a) as [x y]. cbn [fst snd] in *. intros H. now rewrite IH.
Qed.
Lemma partition_whole a : a = fst (partition_eq a) ++ match snd (partition_eq a) with Some v => 61%N :: v | None => nil end.
Proof.
  induction a as [|c a IH]; [reflexivity|]. cbn [partition_eq]. destruct (N.eqb c 61) eqn:E.
  - apply N.eqb_eq in E as ->. reflexivity.
  - destruct (partition_eq a) as [x y]. cbn [fst snd app] in *. now rewrite <- IH.
Qed.
Lemma stray_tag a : stray a = true -> parse_optional opts a = Done (TO None).
Proof.
  unfold stray. intros H. apply andb_prop in H as [H H4]. apply andb_prop in H as [H H3]. apply andb_prop in H as [H1 H2].
  apply negb_true_iff in H2, H3.
  assert (Hs : startswith $"-" a = true).
  { apply startswith_spec in H1 as [r ->]. reflexivity. }
  unfold parse_optional. rewrite Hs. cbn [negb].
  destruct (lookup a tbl) as [o|] eqn:El.
  { exfalso. destruct (lookup_name _ _ El) as [A _]. unfold name_ok in A. apply andb_prop in A as [_ A]. apply negb_true_iff in A.
    assert (E : stem a = a).
    { apply partition_none. pose proof (partition_whole a) as P. destruct (snd (partition_eq a)) as [v|]; [|reflexivity].
      rewrite P in A. rewrite existsb_app in A. cbn [existsb] in A. rewrite orb_true_r in A. discriminate. }
    rewrite E in H4. eapply no_prefix; eauto. }
  replace (List.length a =? 1)%nat with false.
  2:{ apply startswith_spec in H1 as [r ->]. reflexivity. }
  unfold stem in *. unfold option_tuples. rewrite H1. destruct (partition_eq a) as [p e] eqn:Ep. cbn [fst] in *.
  replace (match e with Some x => option_map (fun o => (p, o, Some (true, x))) (lookup p tbl) | None => None end) with (@None (str * opt * option (bool * str))).
  2:{ destruct e; [|reflexivity]. destruct (lookup p tbl) eqn:E; [|reflexivity]. exfalso. eapply no_prefix; eauto. }
  replace (flat_map _ tbl) with (@nil (str * opt * option (bool * str))).
  2:{ clear - H4. induction tbl as [|[k v] d IH]; [reflexivity|]. cbn [forallb flat_map fst snd] in *. apply andb_prop in H4 as [A B].
      apply negb_true_iff in A. rewrite A. exact (IH B). }
  replace (negative_number a) with false.
  2:{ apply startswith_spec in H1 as [r ->]. reflexivity. }
  now rewrite H3.
Qed.
(** A misspelt option stops the run, wherever it stands before a double dash: it is
    neither ignored nor taken for a path or a value. *)
Theorem C148_unknown_option pre a post : smem dashes pre = false -> stray a = true ->
  forall r, parse_args opts (pre ++ a :: post) <> Done r.
Proof.
  intros Hd Ha [n ps] H. apply parse_args_inv in H as (ts & s & Ht & Hg & He & _ & _).
  destruct (tags_app _ _ _ Hd Ht) as (tp & tq & A & B & ->). cbn [tags_of] in B.
  replace (seqb a dashes) with false in B.
  2:{ unfold stray in Ha. apply andb_prop in Ha as [Ha _]. apply andb_prop in Ha as [Ha _]. apply andb_prop in Ha as [_ Ha]. now apply negb_true_iff in Ha. }
  rewrite (stray_tag _ Ha) in B. cbn [bindo] in B. apply bindo_done in B as (tr & _ & B). injection B as <-.
  apply (unknown_extra a) in Hg; [rewrite He in Hg; destruct Hg|]. apply in_or_app. right. now left.
Qed.

(** ** C147: values *)
Definition single (o : opt) : bool := match o_nargs o with NOne | NOpt => true | _ => false end.
Definition stores (o : opt) : bool := match o_act o with AStore => true | _ => false end.
Lemma take_single o v x s s' : single o = true -> stores o = true -> get_value o v = Done x -> take_action o [v] s = Done s' ->
  p_ns s' = dset (o_dest o) (Some x) (p_ns s).
Proof.
  unfold single, stores, take_action, get_values. intros H1 H2 H3 H. rewrite H3 in H. cbn [bindo] in H.
  destruct (o_nargs o); try discriminate; cbn [bindo] in H; (destruct (_ && _); [discriminate|]); destruct (o_act o); try discriminate;
    injection H as <-; reflexivity.
Qed.
Lemma run_last x tp m : (List.length (run_of (tp ++ [(x, Some (TO m))])) <= List.length tp)%nat.
Proof. induction tp as [|[a [[|m2]|]] tp IH]; cbn [app run_of List.length]; lia. Qed.
Lemma ahead_last x tp m : (List.length (ahead (tp ++ [(x, Some (TO m))])) <= List.length tp)%nat.
Proof. induction tp as [|[a [[|m2]|]] tp IH]; cbn [app ahead List.length]; lia. Qed.
Lemma skipn_snoc {A} k (l : list A) x : (k <= List.length l)%nat -> skipn k (l ++ [x]) = skipn k l ++ [x].
Proof. intros H. rewrite skipn_app. replace (k - List.length l)%nat with 0%nat by lia. reflexivity. Qed.
Lemma go_last a name o v x fuel : single o = true -> stores o = true -> get_value o v = Done x -> forall tp s s',
  go opts fuel (tp ++ [(a, Some (TO (Some (name, o, Some (true, v)))))]) s = Done s' -> lookup (o_dest o) (p_ns s') = Some (Some x).
Proof.
  intros H1 H2 H3. induction fuel as [|fuel IH]; [discriminate|]. intros tp s s' H. set (z := (a, Some (TO (Some (name, o, Some (true, v)))))) in *.
  cbn [go] in H. destruct tp as [|[b [[|m]|]] r].
  - subst z. cbn [app] in H. apply bindo_done in H as ([s1 n] & E & H).
    unfold consume_optional in E. apply bindo_done in E as ([[acts ex] last] & C & E).
    assert (acts = [(o, [v])] /\ last = None) as [-> ->].
    { unfold single in H1. destruct (List.length a); cbn [cluster] in C; destruct (o_nargs o); try discriminate; now injection C as <- <- <-. }
    apply bindo_done in E as (s2 & E & E2). injection E2 as <- <-. cbn [take_all] in E. apply bindo_done in E as (s3 & E & E2). injection E2 as <-.
    apply (take_single _ _ _ _ _ H1 H2 H3) in E. destruct fuel; [discriminate|]. cbn [skipn go] in H. injection H as <-. rewrite E.
    rewrite lookup_dset, seqb_refl. reflexivity.
  - pose proof (run_last a ((b, Some TA) :: r) (Some (name, o, Some (true, v)))) as L. fold z in L.
    set (k := List.length (run_of (((b, Some TA) :: r) ++ [z]))) in *. cbn [app] in H.
    change ((b, Some TA) :: r ++ [z]) with (((b, Some TA) :: r) ++ [z]) in H. fold k in H. rewrite (skipn_snoc k _ z L) in H. eapply IH. exact H.
  - cbn [app] in H. apply bindo_done in H as ([s1 n] & E & H). apply optional_same in E as (_ & _ & Hn).
    pose proof (ahead_last a r (Some (name, o, Some (true, v)))) as L. fold z in L. rewrite skipn_snoc in H by lia. eapply IH. exact H.
  - pose proof (run_last a ((b, None) :: r) (Some (name, o, Some (true, v)))) as L. fold z in L.
    set (k := List.length (run_of (((b, None) :: r) ++ [z]))) in *. cbn [app] in H.
    change ((b, None) :: r ++ [z]) with (((b, None) :: r) ++ [z]) in H. fold k in H. rewrite (skipn_snoc k _ z L) in H. eapply IH. exact H.
Qed.
(** the last setting wins over anything before it *)
Lemma last_setting name o v x args n ps : single o = true -> stores o = true -> get_value o v = Done x -> lookup name tbl = Some o ->
  smem dashes args = false -> parse_args opts (args ++ [name ++ 61%N :: v]) = Done (n, ps) -> lookup (o_dest o) n = Some (Some x).
Proof.
  intros H1 H2 H3 Hl Hd H. apply parse_args_inv in H as (ts & s & Ht & Hg & _ & -> & _).
  destruct (tags_app _ _ _ Hd Ht) as (tp & tq & A & B & ->). destruct (set_tag _ _ v Hl) as [T1 T2]. cbn [tags_of] in B.
  rewrite T2, T1 in B. cbn [bindo] in B. injection B as <-. eapply go_last; eauto.
Qed.
(** a path and one setting *)
Lemma one_setting name o v x p : single o = true -> stores o = true -> o_mutex o = 0%nat -> get_value o v = Done x -> lookup name tbl = Some o ->
  plain p = true -> parse_args opts [p; name ++ 61%N :: v] = Done (dset (o_dest o) (Some x) (initial_ns opts), [p]).
Proof.
  intros H1 H2 H0 H3 Hl Hp. destruct (set_tag _ _ v Hl) as [T1 T2]. unfold parse_args. cbn [tags_of].
  rewrite (plain_dashes _ Hp), (plain_tag _ Hp), T2, T1. cbn [bindo List.length]. 
  remember (name ++ 61%N :: v) as a. cbn [go run_of List.length skipn p_paths p_extra p_ns p_seen remove_dashes].
  rewrite (plain_dashes _ Hp). cbn [consume_optional].
  match goal with |- context [cluster opts ?k name o ?e] =>
    assert (Ec : cluster opts k name o e = Done ([(o, [v])], nil, None)); [|rewrite Ec; clear Ec] end.
  { unfold single in H1. destruct (List.length a); cbn [cluster]; destruct (o_nargs o); try discriminate; reflexivity. }
  cbn [bindo take_all]. unfold take_action, get_values. rewrite H0, H3. unfold single, stores in *.
  destruct (o_nargs o); try discriminate; destruct (o_act o); try discriminate; reflexivity.
Qed.
Lemma ahead_plain ws : ahead (map (fun x => (x, Some TA)) ws) = ws.
Proof. induction ws as [|w ws IH]; [reflexivity|]. cbn. now rewrite IH. Qed.
(** a path and an option with a list of values *)
Lemma list_setting name o ws p : o_nargs o = NStar -> stores o = true -> o_mutex o = 0%nat -> o_conv o = CStr -> o_choices o = None ->
  lookup name tbl = Some o -> plain p = true -> forallb plain ws = true ->
  parse_args opts (p :: name :: ws) = Done (dset (o_dest o) (Some (OL (map OS ws))) (initial_ns opts), [p]).
Proof.
  intros H1 H2 H0 Hc Hch Hl Hp Hws. destruct (flag_tag _ _ Hl) as [T1 T2]. unfold parse_args. cbn [tags_of].
  rewrite (plain_dashes _ Hp), (plain_tag _ Hp), T2, T1. cbn [bindo]. rewrite (tags_plain _ Hws). cbn [bindo List.length].
  cbn [go run_of List.length skipn p_paths p_extra p_ns p_seen remove_dashes].
  rewrite (plain_dashes _ Hp). cbn [consume_optional].
  match goal with |- context [cluster opts ?k name o ?e] =>
    assert (Ec : cluster opts k name o e = Done (nil, nil, Some o)) by (destruct (List.length name); reflexivity); rewrite Ec; clear Ec end.
  cbn [bindo app take_all]. rewrite ahead_plain, H1. cbn [match_count bindo]. rewrite firstn_all.
  unfold take_action, get_values. rewrite H0, H1.
  assert (E : get_list o ws = Done (map OS ws)).
  { clear - Hc Hch. induction ws as [|w ws IH]; [reflexivity|]. cbn [get_list map]. unfold get_value. rewrite Hc, Hch. cbn [bindo check_choice]. now rewrite IH. }
  rewrite E. cbn [bindo]. unfold stores in H2. destruct (o_act o); try discriminate. cbn [bindo].
  cbn [Nat.eqb negb andb bindo p_ns p_paths p_extra p_seen app]. rewrite skipn_all2 by (rewrite map_length; apply le_n). reflexivity.
Qed.

(** ** C149: the types of the values *)
Definition scalar (o : opt) (v : oval) : Prop :=
  match o_conv o, v with CBool, OB _ | CInt, OI _ | CStr, OS _ => True | _, _ => False end
  /\ check_choice (o_choices o) v = true.
Definition fits (o : opt) (v : oval) : Prop :=
  o_default o = Some v
  \/ match o_act o with
     | AStore => match o_nargs o with
                 | NOpt => o_const o = Some v \/ scalar o v
                 | NOne => scalar o v
                 | _ => exists l, v = OL l /\ Forall (scalar o) l
                 end
     | AConst => o_const o = Some v
     | AExtend => exists l, v = OL l
     | AShow => False
     end.
Definition fitted (n : ns) : Prop := forall k v, lookup k n = Some (Some v) -> exists o, In o opts /\ o_dest o = k /\ fits o v.
Lemma get_value_scalar o s v : get_value o s = Done v -> scalar o v.
Proof.
  unfold get_value, scalar. intros H. apply bindo_done in H as (w & E & H). destruct (check_choice _ w) eqn:Ec; [|discriminate]. injection H as <-.
  split; [|exact Ec]. destruct (o_conv o); [injection E as <-; exact Logic.I| |injection E as <-; exact Logic.I].
  destruct (parse_int s); [|discriminate]. injection E as <-. exact Logic.I.
Qed.
Lemma get_list_scalar o l : forall vs, get_list o l = Done vs -> Forall (scalar o) vs.
Proof.
  induction l as [|s l IH]; intros vs H; [injection H as <-; constructor|]. cbn [get_list] in H.
  apply bindo_done in H as (v & E & H). apply bindo_done in H as (ws & E2 & H). injection H as <-.
  constructor; [eapply get_value_scalar; eauto|auto].
Qed.
(** the number of strings an option is given *)
Definition count_ok (n : nargs) (l : list str) : bool :=
  match n, l with NZero, nil | NOne, [_] | NOpt, nil | NOpt, [_] | NStar, _ | NPlus, _ :: _ => true | _, _ => false end.
Lemma action_fitted o l s s' : In o opts -> count_ok (o_nargs o) l = true -> take_action o l s = Done s' -> fitted (p_ns s) -> fitted (p_ns s').
Proof.
  intros Ho Hl H F. unfold take_action in H. apply bindo_done in H as (v & E & H). destruct (_ && _); [discriminate|].
  assert (G : forall w, (forall u, w = Some u -> fits o u) -> fitted (dset (o_dest o) w (p_ns s))).
  { intros w Hw k u Hk. rewrite lookup_dset in Hk. destruct (seqb k (o_dest o)) eqn:Ek; [|apply F; exact Hk].
    apply seqb_eq in Ek as ->. injection Hk as ->. exists o. auto. }
  destruct (o_act o) eqn:Ea; [| | |discriminate]; injection H as <-; cbn [p_ns]; apply G; intros u Hu; right; rewrite Ea; [|exact Hu|injection Hu as <-; eauto].
  subst v. unfold get_values in E.
  destruct (o_nargs o); destruct l as [|s1 [|s2 l]]; try discriminate Hl;
    first [left; now injection E
          |apply bindo_done in E as (w & E & E2); injection E2 as <-;
           first [right; eapply get_value_scalar; eassumption | eapply get_value_scalar; eassumption
                 |exists w; split; [reflexivity|eapply get_list_scalar; eassumption]]].
Qed.
Definition known (ts : list (str * option tag)) : Prop :=
  forall a n o e, In (a, Some (TO (Some (n, o, e)))) ts -> In o opts.
Lemma table_in n o : In (n, o) tbl -> In o opts.
Proof. unfold table. intros H. apply in_flat_map in H as (o2 & A & B). apply in_map_iff in B as (x & B & _). now injection B as _ <-. Qed.
Lemma optional_known a n o e : parse_optional opts a = Done (TO (Some (n, o, e))) -> In o opts.
Proof.
  unfold parse_optional. destruct (negb _); [discriminate|]. destruct (lookup a tbl) as [o1|] eqn:E1.
  { intros H. injection H as <- <- <-. apply lookup_name in E1 as [_ E1]. eapply table_in; eauto. }
  destruct (_ =? 1)%nat; [discriminate|]. destruct (partition_eq a) as [p x] eqn:Ep.
  destruct (match x with Some x0 => _ | None => None end) as [t|] eqn:E2.
  { intros H. injection H as ->. destruct x as [x|]; [|discriminate]. destruct (lookup p tbl) as [o1|] eqn:E3; [|discriminate].
    injection E2 as <- <- <-. apply lookup_name in E3 as [_ E3]. eapply table_in; eauto. }
  destruct (option_tuples opts a) as [|t [|? ?]] eqn:E3; [|intros H; injection H as ->|discriminate].
  - destruct (negative_number a); [discriminate|]. destruct (existsb (N.eqb cSP) a); discriminate.
  - assert (In (n, o, e) (option_tuples opts a)) as Hi by (rewrite E3; now left). unfold option_tuples in Hi.
    destruct (startswith dashes a).
    + rewrite Ep in Hi. apply in_flat_map in Hi as ([k v] & A & B). cbn [fst snd] in B. destruct (startswith p k); [|destruct B].
      destruct B as [B|[]]. injection B as _ <- _. eapply table_in; eauto.
    + apply in_flat_map in Hi as ([k v] & A & B). cbn [fst snd] in B. destruct (seqb k _); [|destruct (startswith a k); [|destruct B]];
        (destruct B as [B|[]]; injection B as _ <- _; eapply table_in; eauto).
Qed.
Lemma tags_known args : forall ts, tags_of opts args = Done ts -> known ts.
Proof.
  induction args as [|a args IH]; intros ts H; cbn [tags_of] in H.
  - injection H as <-. intros ? ? ? ? [].
  - destruct (seqb a dashes).
    + injection H as <-. intros x n o e [Hi|Hi]; [discriminate|]. apply in_map_iff in Hi as (y & Hi & _). discriminate.
    + apply bindo_done in H as (t & E & H). apply bindo_done in H as (us & E2 & H). injection H as <-.
      intros x n o e [Hi|Hi]; [injection Hi as -> ->; eapply optional_known; eauto|eapply IH; eauto].
Qed.
Lemma skipn_in {A} k (l : list A) x : In x (skipn k l) -> In x l.
Proof. rewrite <- (firstn_skipn k l) at 2. intros H. apply in_or_app. now right. Qed.
Lemma acts_fitted acts : forall s s', Forall (fun q => In (fst q) opts /\ count_ok (o_nargs (fst q)) (snd q) = true) acts -> take_all acts s = Done s' ->
  fitted (p_ns s) -> fitted (p_ns s').
Proof.
  induction acts as [|[o l] acts IH]; intros s s' Hf H F; [injection H as <-; exact F|]. cbn [take_all] in H.
  apply bindo_done in H as (s1 & E & H). apply Forall_cons_iff in Hf as [[A B] C]. eapply IH; eauto. eapply action_fitted; eauto.
Qed.
Lemma cluster_known fuel : forall name o e acts ex last, In o opts -> cluster opts fuel name o e = Done (acts, ex, last) ->
  Forall (fun q => In (fst q) opts /\ count_ok (o_nargs (fst q)) (snd q) = true) acts /\ (forall o2, last = Some o2 -> In o2 opts).
Proof.
  induction fuel as [|fuel IH]; intros name o e acts ex last Ho H; cbn [cluster] in H;
    (destruct e as [[sep x]|]; [|injection H as <- <- <-; split; [constructor|intros o2 E; injection E as <-; exact Ho]]);
    (destruct (o_nargs o) eqn:En; [|injection H as <- <- <-; split; [constructor; [cbn [fst snd]; rewrite En; auto|constructor]|discriminate]..]);
    (destruct x as [|c x1]; [discriminate|]); (destruct (startswith dashes name); [discriminate|]); (destruct (_ || _); [discriminate|]);
    (destruct (lookup [45%N; c] tbl) as [o2|] eqn:El; [|injection H as <- <- <-; split; [constructor; [cbn [fst snd]; rewrite En; auto|constructor]|discriminate]]);
    try discriminate.
  apply bindo_done in H as ([[acts1 ex1] last1] & E & H). injection H as <- <- <-.
  apply IH in E as [A B]; [|apply lookup_name in El as [_ El]; eapply table_in; eauto].
  split; [|exact B]. constructor; [cbn [fst snd]; rewrite En; auto|exact A].
Qed.
Lemma go_fitted fuel : forall ts s s', known ts -> go opts fuel ts s = Done s' -> fitted (p_ns s) -> fitted (p_ns s').
Proof.
  induction fuel as [|fuel IH]; [discriminate|]. intros ts s s' Hk H F. cbn [go] in H.
  destruct ts as [|[a [[|m]|]] r]; [injection H as <-; exact F| | |].
  1,3: eapply IH; [|exact H|destruct (p_paths s); exact F]; intros x n o e Hi; eapply Hk; eapply skipn_in; eauto.
  apply bindo_done in H as ([s1 n] & E & H). eapply IH; [|exact H|].
  { intros x n0 o e Hi. eapply Hk. right. eapply skipn_in; eauto. }
  unfold consume_optional in E. destruct m as [[[name o] e]|]; [|injection E as <- <-; exact F].
  apply bindo_done in E as ([[acts ex] last] & C & E). apply cluster_known in C as [C1 C2]; [|eapply Hk; now left].
  destruct last as [o2|].
  - apply bindo_done in E as (k & Ek & E). apply bindo_done in E as (s2 & E & E2). injection E2 as <- <-.
    eapply acts_fitted; [|exact E|exact F]. apply Forall_app. split; [exact C1|]. constructor; [|constructor]. cbn [fst snd].
    split; [now apply C2|]. unfold match_count in Ek. destruct (ahead r) as [|w ws]; cbn [List.length] in Ek;
      destruct (o_nargs o2); try discriminate; injection Ek as <-; try reflexivity.
  - apply bindo_done in E as (s2 & E & E2). injection E2 as <- <-. eapply acts_fitted; [exact C1|exact E|exact F].
Qed.
Lemma initial_fitted : fitted (initial_ns opts).
Proof.
  intros k v H. unfold initial_ns in H. assert (Hi : exists o, In o opts /\ o_dest o = k /\ o_default o = Some v).
  { revert H. generalize opts. clear. intros l. induction l as [|o l IH]; [discriminate|]. cbn [flat_map].
    destruct (o_act o); cbn [app lookup]; try (destruct (seqb k (o_dest o)) eqn:E; [apply seqb_eq in E; intros H; injection H as H; exists o; cbn; auto|]);
      intros H; destruct (IH H) as (o2 & A & B); exists o2; split; auto; now right. }
  destruct Hi as (o & A & B & C). exists o. split; [exact A|]. split; [exact B|]. now left.
Qed.
Lemma args_fitted args n ps : parse_args opts args = Done (n, ps) -> fitted n.
Proof.
  intros H. apply parse_args_inv in H as (ts & s & Ht & Hg & _ & -> & _). eapply go_fitted; [eapply tags_known; eauto|exact Hg|]. exact initial_fitted.
Qed.
End Cmd.

(** ** Decimal numbers *)
Lemma digits_pos u : forall p b, digits (Zpos p) true (Lint.udigits u) = Some (Zpos (Pos.of_uint_acc u p)) /\
  (u <> Decimal.Nil -> digits (Zpos p) b (Lint.udigits u) = Some (Zpos (Pos.of_uint_acc u p))).
Proof.
  induction u as [|u IH|u IH|u IH|u IH|u IH|u IH|u IH|u IH|u IH|u IH]; intros p b;
    [split; [reflexivity|intros H; contradiction]|..];
    cbn [Lint.udigits digits Pos.of_uint_acc]; cbv [is_digit]; cbn [N.leb andb];
    match goal with |- context [digits ?z true _] =>
      match goal with |- context [Pos.of_uint_acc u ?q] => replace z with (Zpos q) by lia end end;
    (split; [|intros _]); apply (proj1 (IH _ true)).
Qed.
Lemma digits_uint u b : (u = Decimal.Nil -> b = true) -> digits 0 b (Lint.udigits u) = Some (Z.of_N (N.of_uint u)).
Proof.
  revert b. induction u as [|u IH|u IH|u IH|u IH|u IH|u IH|u IH|u IH|u IH|u IH]; intros b Hb;
    [now rewrite Hb|exact (IH true (fun _ => eq_refl))|..]; exact (proj1 (digits_pos u _ true)).
Qed.
Lemma strip_none p s : forallb (fun c => negb (p c)) s = true -> strip_by p s = s.
Proof.
  intros H. unfold strip_by.
  assert (L : forall l, forallb (fun c => negb (p c)) l = true -> lstrip_by p l = l).
  { intros [|c l] A; [reflexivity|]. cbn [forallb lstrip_by] in *. apply andb_prop in A as [A _]. apply negb_true_iff in A. now rewrite A. }
  rewrite L by exact H. unfold rstrip_by. rewrite L; [apply rev_involutive|]. rewrite forallb_forall in *. intros c Hc. apply H. now apply in_rev.
Qed.
Lemma udigits_plain u : forallb (fun c => negb (is_uspace c)) (Lint.udigits u) = true.
Proof. induction u; [reflexivity|exact IHu..]. Qed.
Lemma parse_dec z : parse_int (Lint.dec z) = Some z.
Proof.
  assert (Hn : forall n, N.to_uint n <> Decimal.Nil).
  { intros n E. pose proof (Unsigned.of_to n) as H. rewrite E in H. cbn in H. subst n. discriminate E. }
  unfold parse_int, Lint.dec. set (u := N.to_uint (Z.abs_N z)).
  assert (Hd : digits 0 false (Lint.udigits u) = Some (Z.abs z)).
  { rewrite digits_uint; [|intros E; exfalso; exact (Hn _ E)]. unfold u. rewrite Unsigned.of_to. now rewrite N2Z.inj_abs_N. }
  unfold strip. destruct (z <? 0) eqn:Ez.
  - rewrite strip_none; [|cbn [app forallb]; now rewrite udigits_plain]. cbn [app]. rewrite Hd. cbn [option_map]. f_equal. lia.
  - rewrite strip_none by (cbn [app]; apply udigits_plain). cbn [app].
    assert (Z.abs z = z) as <- by lia. rewrite <- Hd. destruct u; try reflexivity.
Qed.

(** ** The two tools *)
Definition tools : list (list opt) := [format_options; lint_options].
Lemma tool_names opts : In opts tools -> forallb (fun no => name_ok (fst no)) (table opts) = true.
Proof. intros [<-|[<-|[]]]; vm_compute; reflexivity. Qed.
(** what stands in the table, checked entry by entry *)
Lemma field_lookup opts name d o : In opts tools -> In (name, d) defaults -> In o (add_to_argparse name d) ->
  lookup (flag_of name) (table opts) = Some o.
Proof.
  intros Ht Hd Ho.
  assert (F : Forall (fun p => forall o, In o (add_to_argparse (fst p) (snd p)) -> lookup (flag_of (fst p)) (table opts) = Some o) defaults).
  { clear - Ht. destruct Ht as [<-|[<-|[]]]; unfold defaults;
      repeat (constructor; [intros o Ho; cbn [add_to_argparse fst snd] in Ho; first [destruct Ho as [<-|[]]; vm_compute; reflexivity|destruct Ho]|]); constructor. }
  rewrite Forall_forall in F. exact (F _ Hd o Ho).
Qed.
(** an option has the shape that the default value asks for *)
Definition choices_eqb (a b : option (list str)) : bool :=
  match a, b with
  | None, None => true
  | Some x, Some y => (List.length x =? List.length y)%nat && forallb (fun p => seqb (fst p) (snd p)) (combine x y)
  | _, _ => false
  end.
Lemma choices_eqb_eq a b : choices_eqb a b = true -> a = b.
Proof.
  destruct a as [x|], b as [y|]; cbn [choices_eqb]; try easy. intros H. apply andb_prop in H as [H1 H2]. apply Nat.eqb_eq in H1. f_equal.
  revert y H1 H2. induction x as [|s x IH]; intros [|t y] H1 H2; try discriminate; [reflexivity|]. cbn [combine forallb fst snd] in H2.
  apply andb_prop in H2 as [A B]. apply seqb_eq in A as ->. f_equal. apply IH; [now injection H1|exact B].
Qed.
Definition agrees (o : opt) (d : dflt) : bool :=
  stores o && (match o_default o with None => true | Some _ => false end)
  && match d with
     | DBool _ => match o_nargs o, o_conv o, o_const o with NOpt, CBool, Some (OB _) => true | _, _, _ => false end
     | DInt _ => match o_nargs o, o_conv o with NOne, CInt => true | _, _ => false end
     | DStr _ ch => match o_nargs o, o_conv o with NOne, CStr => choices_eqb ch (o_choices o) | _, _ => false end
     | DNone => match o_nargs o, o_conv o with NOne, CStr => true | _, _ => false end
     | DList => match o_nargs o, o_conv o with NStar, CStr => true | _, _ => false end
     | DDict => false
     end.
Lemma all_agree opts : In opts tools ->
  forallb (fun p => forallb (fun o => implb (seqb (o_dest o) (fst p)) (agrees o (snd p))) opts) defaults = true.
Proof. intros [<-|[<-|[]]]; vm_compute; reflexivity. Qed.

(** ** C149: a value from the command line has the type of its variable *)
Definition typed (d : dflt) (v : oval) : Prop :=
  match d, v with
  | DBool _, OB _ | DInt _, OI _ | DNone, OS _ => True
  | DStr _ ch, OS s => match ch with Some l => In s l | None => True end
  | DList, OL l => Forall (fun x => exists s, x = OS s) l
  | _, _ => False
  end.
Theorem C149_types opts args n ps name d v : In opts tools -> parse_args opts args = Done (n, ps) ->
  In (name, d) defaults -> lookup name n = Some (Some v) -> typed d v.
Proof.
  intros Ht H Hd Hv. destruct (args_fitted opts (tool_names _ Ht) _ _ _ H name v Hv) as (o & Ho & Hn & Hf).
  pose proof (all_agree _ Ht) as A. rewrite forallb_forall in A. specialize (A _ Hd). cbn [fst snd] in A.
  rewrite forallb_forall in A. specialize (A _ Ho). rewrite Hn, seqb_refl in A. cbn [implb] in A.
  unfold agrees, stores in A. apply andb_prop in A as [A C]. apply andb_prop in A as [A B].
  unfold fits in Hf. destruct (o_act o); try discriminate A. destruct (o_default o); [discriminate B|]. destruct Hf as [Hf|Hf]; [discriminate|].
  unfold scalar in Hf.
  destruct d; destruct (o_nargs o); try discriminate C; destruct (o_conv o); try discriminate C.
  - destruct (o_const o) as [[c| | |]|]; try discriminate C. destruct Hf as [Hf|[Hf _]]; [injection Hf as <-; exact Logic.I|]. destruct v; try contradiction. exact Logic.I.
  - destruct Hf as [Hf _]. destruct v; try contradiction. exact Logic.I.
  - apply choices_eqb_eq in C. destruct Hf as [Hf Hc]. rewrite <- C in Hc. destruct v; try contradiction. cbn [typed]. destruct choices; [|exact Logic.I]. now apply smem_In.
  - destruct Hf as [Hf _]. destruct v; try contradiction. exact Logic.I.
  - destruct Hf as (l & -> & Hf). cbn [typed]. eapply Forall_impl; [|exact Hf]. intros x [Hx _]. destruct x; try contradiction. eauto.
Qed.
Example C149_ex : exists n, parse_args format_options [$"--line-width"; $"1_00"; $"--dangle-align=child"; $"--always-wrap"; $"a"; $"b"; $"--"; $"f"] = Done (n, [$"f"])
  /\ lookup $"line_width" n = Some (Some (OI 100)) /\ lookup $"dangle_align" n = Some (Some (OS $"child"))
  /\ lookup $"always_wrap" n = Some (Some (OL [OS $"a"; OS $"b"])).
Proof. eexists. split; [vm_compute; reflexivity|]. repeat split; vm_compute; reflexivity. Qed.

(** ** C147: the command line and the configuration file *)
(** the usual texts of a value *)
Definition means (d : dflt) (t : str) (v : oval) : Prop :=
  match d with
  | DBool _ => (smem (lower t) [$"y"; $"yes"; $"t"; $"true"; $"1"] = true /\ v = OB true)
            \/ (smem (lower t) [$"n"; $"no"; $"f"; $"false"; $"0"] = true /\ v = OB false)
  | DInt _ => exists z, t = Lint.dec z /\ v = OI z
  | DStr _ ch => v = OS t /\ match ch with Some l => In t l | None => True end
  | DNone => v = OS t
  | _ => False
  end.
Lemma means_option name d t v : means d t v -> exists o, In o (add_to_argparse name d) /\ single o = true /\ stores o = true
  /\ o_mutex o = 0%nat /\ o_dest o = name /\ get_value o t = Done v.
Proof.
  unfold means. destruct d; intros H; try contradiction; cbn [add_to_argparse];
    (eexists; split; [now left|]); (split; [reflexivity|]); (split; [reflexivity|]); (split; [reflexivity|]); (split; [reflexivity|]);
    unfold get_value; cbn [o_conv o_choices].
  - destruct H as [[H ->]|[H ->]]; cbn [bindo check_choice]; f_equal; f_equal; unfold parse_bool; apply smem_In in H.
    + apply smem_In. cbn [In] in *. intuition.
    + cbn [In] in H. destruct (smem _ _) eqn:E; [|reflexivity]. exfalso.
      destruct H as [H|[H|[H|[H|[H|[]]]]]]; rewrite <- H in E; vm_compute in E; discriminate.
  - destruct H as (z0 & -> & ->). rewrite parse_dec. reflexivity.
  - destruct H as [-> H]. cbn [bindo]. destruct choices as [l|]; [|reflexivity]. cbn [check_choice]. apply smem_In in H. now rewrite H.
  - subst v. reflexivity.
Qed.
(** the option of a variable: two dashes and its name with hyphens *)
Fixpoint hyphens (s : str) : str := match s with nil => nil | c :: r => (if N.eqb c 95 then 45%N else c) :: hyphens r end.
Definition option_name (name : str) : str := $"--" ++ hyphens name.
Lemma option_flag name : option_name name = flag_of name.
Proof.
  reflexivity.
Qed.
(** [--name=text] sets the variable to the value of the text, and nothing else *)
Theorem C147_option_partial opts name d t v p : In opts tools -> In (name, d) defaults -> means d t v -> plain p = true ->
  parse_args opts [p; option_name name ++ 61%N :: t] = Done (dset name (Some v) (initial_ns opts), [p]).
Proof.
  intros Ht Hd Hm Hp. rewrite option_flag. destruct (means_option name d t v Hm) as (o & Ho & H1 & H2 & H0 & <- & Hv).
  apply (one_setting opts (tool_names _ Ht)); auto. eapply field_lookup; eauto.
Qed.
(** [--name word ...] for the variables that hold a list of strings *)
Theorem C147_list_partial opts name ws p : In opts tools -> In (name, DList) defaults -> plain p = true -> forallb plain ws = true ->
  parse_args opts (p :: option_name name :: ws) = Done (dset name (Some (OL (map OS ws))) (initial_ns opts), [p]).
Proof.
  intros Ht Hd Hp Hw. rewrite option_flag.
  assert (Hl : lookup (flag_of name) (table opts) = Some (Opt [flag_of name] name NStar AStore CStr None None None 0))
    by (eapply field_lookup; [exact Ht|exact Hd|now left]).
  exact (list_setting opts (tool_names _ Ht) _ (Opt [flag_of name] name NStar AStore CStr None None None 0) ws p eq_refl eq_refl eq_refl eq_refl eq_refl Hl Hp Hw).
Qed.
(** a later setting replaces the earlier ones *)
Theorem C147_last_wins opts args name d t v n ps : In opts tools -> In (name, d) defaults -> means d t v ->
  smem dashes args = false -> parse_args opts (args ++ [option_name name ++ 61%N :: t]) = Done (n, ps) -> lookup name n = Some (Some v).
Proof.
  intros Ht Hd Hm Ha H. rewrite option_flag in H. destruct (means_option name d t v Hm) as (o & Ho & H1 & H2 & H0 & <- & Hv).
  eapply (last_setting opts (tool_names _ Ht)); eauto. eapply field_lookup; eauto.
Qed.
Lemma tool_format : In format_options tools.
Proof. unfold tools. apply in_eq. Qed.
Lemma keys_settings code n : keys (settings code n) = keys n.
Proof. unfold keys, settings. rewrite map_map. reflexivity. Qed.
Lemma lookup_settings code k n : lookup k (settings code n) = option_map (option_map (fun v => VAtom (code v))) (lookup k n).
Proof. induction n as [|[a v] n IH]; [reflexivity|]. cbn [settings map lookup fst snd]. destruct (seqb k a); [reflexivity|exact IH]. Qed.
Lemma initial_nodup : NoDup (keys (initial_ns format_options)).
Proof.
  assert (G : forall l, (fix nd (l : list str) := match l with nil => true | x :: r => negb (smem x r) && nd r end) l = true -> NoDup l).
  { induction l as [|x l IH]; intros H; constructor; apply andb_prop in H as [A B]; [|auto]. intros Hi. apply smem_In in Hi. now rewrite Hi in A. }
  apply G. vm_compute. reflexivity.
Qed.
Lemma initial_none k : In k all_fields -> match lookup k (initial_ns format_options) with Some (Some _) => False | _ => True end.
Proof.
  intros H. assert (A : forallb (fun k => match lookup k (initial_ns format_options) with Some (Some _) => false | _ => true end) all_fields = true)
    by (vm_compute; reflexivity).
  rewrite forallb_forall in A. specialize (A _ H). destruct (lookup k _) as [[]|]; auto. discriminate.
Qed.
(** With one setting on the command line of cmake-format, the configuration of the
    file is that of its configuration files with this value in place. *)
Theorem C147_effective_partial name d t v p code file ds c :
  In (name, d) defaults -> In name all_fields -> means d t v -> plain p = true -> new_configuration file = Ok c ->
  exists n c', parse_args format_options [p; option_name name ++ 61%N :: t] = Done (n, [p])
  /\ nth_error (run_configs (file :: ds) (get_argdict (settings code n))) 0 = Some (Ok c')
  /\ lookup name c' = Some (VAtom (code v)) /\ forall k, In k all_fields -> k <> name -> lookup k c' = lookup k c.
Proof.
  intros Hd Hf Hm Hp Hc. eexists. 
  destruct (C17_cmdline_first_file file ds (settings code (dset name (Some v) (initial_ns format_options)))) with (c := c) as (c' & E & L); [|exact Hc|].
  { split; rewrite keys_settings; [apply nodup_dset, initial_nodup|]. intros k Hk X. apply keys_dset in X as [->|X].
    - assert (G : forallb (fun k => negb (smem k (map fst registry))) all_fields = true) by reflexivity.
      rewrite forallb_forall in G. specialize (G _ Hf). apply smem_In in Hk. now rewrite Hk in G.
    - revert X. assert (G : forallb (fun k => negb (smem k (keys (initial_ns format_options)))) (map fst registry) = true) by (vm_compute; reflexivity).
      rewrite forallb_forall in G. specialize (G _ Hk). intros X. apply smem_In in X. now rewrite X in G. }
  exists c'. split; [exact (C147_option_partial format_options name d t v p tool_format Hd Hm Hp)|]. split; [exact E|]. split.
  - rewrite (L _ Hf), lookup_settings, lookup_dset, seqb_refl. reflexivity.
  - intros k Hk Hne. rewrite (L _ Hk), lookup_settings, lookup_dset. apply seqb_neq in Hne. rewrite Hne.
    pose proof (initial_none k Hk) as I. destruct (lookup k (initial_ns format_options)) as [[|]|]; [contradiction|reflexivity|reflexivity].
Qed.
Example C147_ex : In ($"line_width", DInt 80) defaults /\ means (DInt 80) $"100" (OI 100) /\ In $"line_width" all_fields
  /\ In ($"use_tabchars", DBool false) defaults /\ means (DBool false) $"Yes" (OB true) /\ plain $"CMakeLists.txt" = true.
Proof.
  split; [cbn [defaults In]; tauto|]. split; [exists 100; split; reflexivity|]. split; [apply smem_In; reflexivity|].
  split; [cbn [defaults In]; tauto|]. split; [left; split; reflexivity|reflexivity].
Qed.
(** Refuted for the other variables: no command line gives vartags or proptags the
    pairs they hold, and there is no option at all for the dictionaries. *)
Definition a_pair : oval := OL [OL [OS $"pattern"; OL [OS $"tag"]]].
Theorem C147_refuted : ~ (forall name d v, In (name, d) defaults -> exists args n ps,
  parse_args format_options args = Done (n, ps) /\ lookup name n = Some (Some v)).
Proof.
  intros H. destruct (H $"vartags" DList a_pair) as (args & n & ps & A & B).
  - cbn [defaults In]. tauto.
  - apply (C149_types format_options args n ps $"vartags" DList) in B; [|exact tool_format|exact A|cbn [defaults In]; tauto].
    apply Forall_inv in B as (s & B). discriminate.
Qed.
Theorem C147_dictionaries_refuted opts args n ps name : In opts tools -> In (name, DDict) defaults ->
  parse_args opts args = Done (n, ps) -> forall v, lookup name n <> Some (Some v).
Proof. intros Ht Hd H v Hv. exact (C149_types _ _ _ _ _ _ _ Ht H Hd Hv). Qed.

(** ** C146 refuted: an option may swallow the paths behind it *)
Theorem C146_refuted : ~ (forall args n ps p, parse_args format_options args = Done (n, ps) ->
  In p args -> plain p = true -> p = $"CMakeLists.txt" -> In p ps).
Proof.
  intros H. specialize (H [$"--dangle-parens"; $"CMakeLists.txt"] _ _ $"CMakeLists.txt" ltac:(vm_compute; reflexivity)).
  apply H; try reflexivity. right. now left.
Qed.
(** ... and the run ends with status 0 and no effect at all *)
Theorem C146_silent_refuted code e a w : exists n, parse_args format_options [$"--dangle-parens"; $"CMakeLists.txt"] = Done (n, nil)
  /\ lookup $"dangle_parens" n = Some (Some (OB false))
  /\ run_main e a w nil (settings code n) = (nil, Exit 0).
Proof. eexists. split; [vm_compute; reflexivity|]. split; [vm_compute; reflexivity|reflexivity]. Qed.
Theorem C146_list_refuted : exists n, parse_args format_options [$"--always-wrap"; $"foo"; $"CMakeLists.txt"] = Done (n, nil)
  /\ lookup $"always_wrap" n = Some (Some (OL [OS $"foo"; OS $"CMakeLists.txt"])).
Proof. eexists. split; vm_compute; reflexivity. Qed.
(** the hypotheses of the positive theorems are met *)
Example C146_ex : forallb plain [$"a.cmake"; $"-"] = true
  /\ (exists o, lookup $"--dangle-parens" (table format_options) = Some o)
  /\ forallb (item_ok format_options) [ISet $"--line-width" $"100"; IFlag $"-i"; IPath $"a"; IPath $"b"; ISet $"--dangle-parens" $"no"] = true
  /\ exists n, parse_args format_options (map text_of [ISet $"--line-width" $"100"; IFlag $"-i"; IPath $"a"; IPath $"b"; ISet $"--dangle-parens" $"no"]) = Done (n, [$"a"; $"b"]).
Proof. split; [reflexivity|]. split; [eexists; vm_compute; reflexivity|]. split; [vm_compute; reflexivity|]. eexists. vm_compute. reflexivity. Qed.
Example C148_ex : stray format_options $"--line-widht=100" = true /\ stray format_options $"--line-wid=100" = false /\ stray lint_options $"--check" = true.
Proof. vm_compute. auto. Qed.

(** ** The statements for the two programs *)
Theorem C146_tools_partial opts paths name o rest n ps : In opts tools -> paths <> nil -> forallb plain paths = true ->
  lookup name (table opts) = Some o -> parse_args opts (paths ++ name :: rest) = Done (n, ps) -> ps = paths.
Proof. intros Ht. exact (C146_paths_first_partial opts (tool_names _ Ht) paths name o rest n ps). Qed.
Theorem C146_tools_explicit_partial opts items n ps : In opts tools -> forallb (item_ok opts) items = true ->
  parse_args opts (map text_of items) = Done (n, ps) -> ps = flat_map path_of items.
Proof. intros Ht. exact (C146_explicit_partial opts (tool_names _ Ht) items n ps). Qed.
Theorem C146_tools_dashes_partial opts pre paths n ps : In opts tools -> smem dashes pre = false ->
  parse_args opts (pre ++ dashes :: paths) = Done (n, ps) -> exists mid, ps = mid ++ paths.
Proof. intros Ht. exact (C146_dashes_partial opts pre paths n ps). Qed.
Theorem C148_reported opts pre a post : In opts tools -> smem dashes pre = false -> stray opts a = true ->
  forall r, parse_args opts (pre ++ a :: post) <> Done r.
Proof. intros Ht. exact (C148_unknown_option opts (tool_names _ Ht) pre a post). Qed.

(** ** C158, C159: the readings of the command line that do hold *)
(** The files processed are the paths given, when these stand in front of the first
    option, or behind [--], or when every option carries its value itself. *)
Theorem C158_paths opts : In opts tools ->
  (forall paths n ps, forallb plain paths = true -> parse_args opts paths = Done (n, ps) -> ps = paths)
  /\ (forall paths name o rest n ps, paths <> nil -> forallb plain paths = true -> lookup name (table opts) = Some o ->
        parse_args opts (paths ++ name :: rest) = Done (n, ps) -> ps = paths)
  /\ (forall items n ps, forallb (item_ok opts) items = true -> parse_args opts (map text_of items) = Done (n, ps) -> ps = flat_map path_of items)
  /\ (forall pre paths n ps, smem dashes pre = false -> parse_args opts (pre ++ dashes :: paths) = Done (n, ps) -> exists mid, ps = mid ++ paths).
Proof.
  intros Ht. split; [|split; [|split]].
  - intros paths n ps Hp H. exact (proj1 (C146_only_paths_partial opts (tool_names _ Ht) paths n ps Hp H)).
  - intros paths name o rest n ps. now apply C146_tools_partial.
  - intros items n ps. now apply C146_tools_explicit_partial.
  - intros pre paths n ps. now apply C146_tools_dashes_partial.
Qed.
(** A setting written [--name=value] for a variable that holds a number, a string, a
    truth value or a choice is accepted by every tool, replaces every earlier one, and is
    the value the first file is formatted with; every other setting keeps the value of
    the configuration file. *)
Theorem C159_settings name d t v : In (name, d) defaults -> means d t v ->
  (forall opts p, In opts tools -> plain p = true ->
     parse_args opts [p; option_name name ++ 61%N :: t] = Done (dset name (Some v) (initial_ns opts), [p]))
  /\ (forall opts args n ps, In opts tools -> smem dashes args = false ->
        parse_args opts (args ++ [option_name name ++ 61%N :: t]) = Done (n, ps) -> lookup name n = Some (Some v))
  /\ (In name all_fields -> forall p code file ds c, plain p = true -> new_configuration file = Ok c ->
        exists n c', parse_args format_options [p; option_name name ++ 61%N :: t] = Done (n, [p])
        /\ nth_error (run_configs (file :: ds) (get_argdict (settings code n))) 0 = Some (Ok c')
        /\ lookup name c' = Some (VAtom (code v)) /\ forall k, In k all_fields -> k <> name -> lookup k c' = lookup k c).
Proof.
  intros Hd Hm. split; [|split].
  - intros opts p Ht Hp. eapply C147_option_partial; eauto.
  - intros opts args n ps Ht Ha H. eapply C147_last_wins; eauto.
  - intros Hf p code file ds c Hp Hc. eapply C147_effective_partial; eauto.
Qed.
(** Lists of words are given as the words behind the option. *)
Theorem C159_lists opts name ws p : In opts tools -> In (name, DList) defaults -> plain p = true -> forallb plain ws = true ->
  parse_args opts (p :: option_name name :: ws) = Done (dset name (Some (OL (map OS ws))) (initial_ns opts), [p]).
Proof. apply C147_list_partial. Qed.
(** Nothing else is processed: every path is a word of the command line. *)
Lemma run_in ts : forall x, In x (run_of ts) -> In x (map fst ts).
Proof. induction ts as [|[a [[|m]|]] ts IH]; intros x H; cbn [run_of map fst In] in *; [destruct H| |destruct H|]; destruct H as [H|H]; auto. Qed.
Lemma dashes_in l : forall x, In x (remove_dashes l) -> In x l.
Proof. induction l as [|a l IH]; intros x H; [destruct H|]. cbn [remove_dashes] in H. destruct (seqb a dashes); [now right|]. destruct H as [H|H]; [now left|right; auto]. Qed.
Lemma skipn_map {A B} (f : A -> B) n l : forall x, In x (map f (skipn n l)) -> In x (map f l).
Proof. revert n; induction l as [|a l IH]; intros [|n] x H; auto. cbn [skipn] in H. right. eapply IH; eauto. Qed.
Lemma go_paths opts fuel : forall ts s s' l, go opts fuel ts s = Done s' -> p_paths s' = Some l -> p_paths s = Some l \/ forall x, In x l -> In x (map fst ts).
Proof.
  induction fuel as [|fuel IH]; [discriminate|]. intros ts s s' l H Hl. cbn [go] in H.
  destruct ts as [|[b [[|m]|]] r]; [injection H as <-; now left| | |].
  1,3: apply IH with (l := l) in H as [H|H]; auto;
    [destruct (p_paths s) as [q|] eqn:Eq; [left; cbn [p_paths] in H; congruence|];
     cbn [p_paths] in H; injection H as <-; right; intros x Hx; apply run_in, dashes_in; exact Hx
    |right; intros x Hx; eapply skipn_map; apply H; exact Hx].
  apply bindo_done in H as ([s1 n] & E & H). apply optional_same in E as (Ep & _ & _).
  apply IH with (l := l) in H as [H|H]; auto; [left; congruence|]. right. intros x Hx. right. eapply skipn_map. apply H. exact Hx.
Qed.
Lemma tags_fst opts args : forall ts, tags_of opts args = Done ts -> map fst ts = args.
Proof.
  induction args as [|a r IH]; intros ts H; cbn [tags_of] in H; [now injection H as <-|].
  destruct (seqb a dashes); [injection H as <-; cbn [map fst]; f_equal; rewrite map_map; apply map_id|].
  apply bindo_done in H as (t & _ & H). apply bindo_done in H as (tr & E & H). injection H as <-. cbn [map fst]. f_equal. auto.
Qed.
Theorem C158_only_given opts args n ps p : parse_args opts args = Done (n, ps) -> In p ps -> In p args.
Proof.
  intros H Hp. apply parse_args_inv in H as (ts & s & Ht & Hg & _ & _ & ->). rewrite <- (tags_fst _ _ _ Ht).
  destruct (p_paths s) as [l|] eqn:E; [|destruct Hp]. destruct (go_paths _ _ _ _ _ _ Hg E) as [F|F]; [discriminate F|auto].
Qed.
