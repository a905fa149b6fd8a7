(** * C150-C153: what a command line of cmake-format may do *)
From Verif Require Import Base TextOps Config PropConfig MainLoop PropMain CmdLine PropCmd Entry.

Section Walk.
Variable opts : list opt.
Hypothesis names_ok : forallb (fun no => name_ok (fst no)) (table opts) = true.
Let tbl := table opts.
Variable P : pst -> Prop.
Hypothesis P_ext : forall s s2, p_ns s = p_ns s2 -> p_seen s = p_seen s2 -> P s -> P s2.

(** *** A fact that no option of a kind [Q] destroys *)
Section Kept.
Variable Q : opt -> Prop.
Hypothesis P_kept : forall o l s s', Q o -> take_action o l s = Done s' -> P s -> P s'.
Definition reach (n : str) (o : opt) (e : option (bool * str)) : Prop :=
  Q o /\ ((forall n2 o2, In (n2, o2) tbl -> Q o2) \/ e = None \/ o_nargs o <> NZero \/ startswith dashes n = true \/ o_act o = AShow).
Lemma acts_kept acts : forall s s', Forall (fun q => Q (fst q)) acts -> take_all acts s = Done s' -> P s -> P s'.
Proof.
  induction acts as [|[o l] acts IH]; intros s s' F H Hp; [injection H as <-; exact Hp|]. cbn [take_all] in H.
  apply bindo_done in H as (s1 & E & H). apply Forall_cons_iff in F as [F1 F2]. eapply IH; eauto.
Qed.
Lemma cluster_closed : (forall n2 o2, In (n2, o2) tbl -> Q o2) -> forall fuel n o e acts ex last,
  Q o -> cluster opts fuel n o e = Done (acts, ex, last) -> Forall (fun q => Q (fst q)) acts /\ (forall o2, last = Some o2 -> Q o2).
Proof.
  intros Hc. induction fuel as [|fuel IH]; intros n o e acts ex last Ho H; cbn [cluster] in H;
    (destruct e as [[sep x]|]; [|injection H as <- <- <-; split; [constructor|intros o2 E; injection E as <-; exact Ho]]);
    (destruct (o_nargs o) eqn:En; [|injection H as <- <- <-; split; [constructor; [exact Ho|constructor]|discriminate]..]);
    (destruct x as [|c x1]; [discriminate|]); (destruct (startswith dashes n); [discriminate|]); (destruct (_ || _); [discriminate|]);
    (destruct (lookup [45%N; c] (table opts)) as [o2|] eqn:El; [|injection H as <- <- <-; split; [constructor; [exact Ho|constructor]|discriminate]]);
    try discriminate.
  apply bindo_done in H as ([[acts1 ex1] last1] & E & H). injection H as <- <- <-.
  apply IH in E as [A B]; [|apply (lookup_name opts names_ok) in El as [_ El]; eapply Hc; eauto].
  split; [|exact B]. constructor; [exact Ho|exact A].
Qed.
Lemma show_never o l s s' : o_act o = AShow -> take_action o l s <> Done s'.
Proof. unfold take_action. intros E H. apply bindo_done in H as (v & _ & H). rewrite E in H. destruct (_ && _); discriminate. Qed.
Lemma cluster_reach fuel n o e acts ex last : reach n o e -> cluster opts fuel n o e = Done (acts, ex, last) ->
  (Forall (fun q => Q (fst q)) acts /\ (forall o2, last = Some o2 -> Q o2)) \/ (exists l r, acts = (o, l) :: r /\ o_act o = AShow).
Proof.
  intros [Ho [R|R]] H; [left; eapply cluster_closed; eauto|].
  destruct e as [[sep x]|]; [|left; destruct fuel; cbn [cluster] in H; injection H as <- <- <-; split; [constructor| |constructor|]; intros o2 E; injection E as <-; exact Ho].
  destruct R as [R|R]; [discriminate|].
  destruct (o_nargs o) eqn:En.
  2-5: left; destruct fuel; cbn [cluster] in H; rewrite En in H; injection H as <- <- <-; split; [constructor; [exact Ho|constructor]|discriminate|constructor; [exact Ho|constructor]|discriminate].
  destruct R as [R|R]; [congruence|].
  destruct R as [R|R].
  - destruct fuel; cbn [cluster] in H; rewrite En, R in H; destruct x; discriminate.
  - right. destruct fuel; cbn [cluster] in H; rewrite En in H; (destruct x as [|c x1]; [discriminate|]); (destruct (startswith dashes n); [discriminate|]);
      (destruct (_ || _); [discriminate|]); (destruct (lookup _ _); [|injection H as <- <- <-; eauto]); [discriminate|].
    apply bindo_done in H as ([[a1 e1] l1] & E & H). injection H as <- <- <-. eauto.
Qed.
Lemma optional_kept a n o e r s s1 k : reach n o e -> consume_optional opts a (Some (n, o, e)) r s = Done (s1, k) -> P s -> P s1.
Proof.
  intros R H Hp. cbn [consume_optional] in H. apply bindo_done in H as ([[acts ex] last] & C & H).
  destruct (cluster_reach _ _ _ _ _ _ _ R C) as [[A B]|(l & r2 & -> & E)].
  - destruct last as [o2|].
    + apply bindo_done in H as (q & _ & H). apply bindo_done in H as (s2 & H & E). injection E as <- <-.
      eapply acts_kept; [|exact H|]; [apply Forall_app; split; [exact A|constructor; [apply B; reflexivity|constructor]]|].
      eapply P_ext; [| |exact Hp]; reflexivity.
    + apply bindo_done in H as (s2 & H & E). injection E as <- <-. eapply acts_kept; [exact A|exact H|]. eapply P_ext; [| |exact Hp]; reflexivity.
  - exfalso. destruct last as [o2|].
    + apply bindo_done in H as (q & _ & H). apply bindo_done in H as (s2 & H & _). cbn [app take_all] in H. apply bindo_done in H as (s3 & H & _).
      eapply show_never; eauto.
    + apply bindo_done in H as (s2 & H & _). cbn [app take_all] in H. apply bindo_done in H as (s3 & H & _). eapply show_never; eauto.
Qed.
Definition good (ts : list (str * option tag)) : Prop := forall a n o e, In (a, Some (TO (Some (n, o, e)))) ts -> reach n o e.
Lemma go_kept fuel : forall ts s s', good ts -> go opts fuel ts s = Done s' -> P s -> P s'.
Proof.
  induction fuel as [|fuel IH]; [discriminate|]. intros ts s s' Hg H Hp. cbn [go] in H.
  destruct ts as [|[b [[|m]|]] r]; [injection H as <-; exact Hp| | |].
  1,3: eapply IH; [|exact H|]; [intros x n o e Hi; eapply Hg; eapply skipn_in; eauto|destruct (p_paths s); (eapply P_ext; [| |exact Hp]; reflexivity)].
  apply bindo_done in H as ([s1 n] & E & H). eapply IH; [|exact H|].
  { intros x n0 o e Hi. eapply Hg. right. eapply skipn_in; eauto. }
  destruct m as [[[n2 o] e]|].
  - eapply optional_kept; [eapply Hg; now left|exact E|exact Hp].
  - cbn [consume_optional] in E. injection E as <- <-. eapply P_ext; [| |exact Hp]; reflexivity.
Qed.
End Kept.

(** *** A fact that an option brings about *)
Variable o : opt.
Hypothesis P_kept : forall o l s s', In o opts -> take_action o l s = Done s' -> P s -> P s'.
Hypothesis P_made : forall l s s', take_action o l s = Done s' -> P s'.
Let all_kept : forall n2 o2, In (n2, o2) tbl -> In o2 opts.
Proof. intros n2 o2. apply table_in. Qed.
Lemma known_good ts : known opts ts -> good (fun o => In o opts) ts.
Proof. intros K a n o2 e Hi. split; [eapply K; eauto|]. left. exact all_kept. Qed.
Lemma acts_made acts : forall s s', Forall (fun q => In (fst q) opts) acts -> (exists l, In (o, l) acts) -> take_all acts s = Done s' -> P s'.
Proof.
  induction acts as [|[o1 l1] acts IH]; intros s s' F [l Hi] H; [destruct Hi|]. cbn [take_all] in H.
  apply bindo_done in H as (s1 & E & H). apply Forall_cons_iff in F as [F1 F2]. destruct Hi as [Hi|Hi].
  - injection Hi as -> ->. eapply (acts_kept (fun o => In o opts) P_kept); [exact F2|exact H|]. eapply P_made; eauto.
  - eapply IH; eauto.
Qed.
Lemma cluster_head fuel n e acts ex last : cluster opts fuel n o e = Done (acts, ex, last) -> (exists l, In (o, l) acts) \/ last = Some o.
Proof.
  intros H. destruct e as [[sep x]|]; [|right; destruct fuel; cbn [cluster] in H; now injection H as <- <- <-]. left.
  destruct fuel; cbn [cluster] in H; (destruct (o_nargs o); [|injection H as <- <- <-; eexists; now left..]);
    (destruct x as [|c x1]; [discriminate|]); (destruct (startswith dashes n); [discriminate|]);
      (destruct (_ || _); [discriminate|]); (destruct (lookup _ _); [|injection H as <- <- <-; eexists; now left]); [discriminate|].
  apply bindo_done in H as ([[a1 e1] l1] & E & H). injection H as <- <- <-. eexists. now left.
Qed.
Lemma go_made a n e fuel : forall ts s s', known opts ts -> In (a, Some (TO (Some (n, o, e)))) ts -> go opts fuel ts s = Done s' -> P s'.
Proof.
  induction fuel as [|fuel IH]; [discriminate|]. intros ts s s' K Hin H. cbn [go] in H.
  assert (K2 : forall k, known opts (skipn k ts)) by (intros k x n0 o0 e0 Hi; eapply K; eapply skipn_in; eauto).
  destruct ts as [|[b [[|m]|]] r]; [destruct Hin| | |].
  1,3: eapply IH; [|apply keep_run; exact Hin|exact H]; apply K2.
  apply bindo_done in H as ([s1 k] & E & H). destruct Hin as [Hin|Hin].
  - injection Hin as -> ->. assert (K3 : known opts (skipn k r)) by (intros x n0 o0 e0 Hi; eapply K; right; eapply skipn_in; eauto).
    eapply (go_kept (fun o => In o opts) P_kept); [apply known_good; exact K3|exact H|].
    cbn [consume_optional] in E. apply bindo_done in E as ([[acts ex] last] & C & E).
    destruct (cluster_closed (fun o => In o opts) all_kept _ _ _ _ _ _ _ (K _ _ _ _ (or_introl eq_refl)) C) as [A B].
    pose proof (cluster_head _ _ _ _ _ _ C) as Hh. destruct last as [o2|].
    + apply bindo_done in E as (q & _ & E). apply bindo_done in E as (s2 & E & E2). injection E2 as <- <-.
      eapply acts_made; [|  |exact E].
      * apply Forall_app. split; [exact A|constructor; [apply B; reflexivity|constructor]].
      * destruct Hh as [[l Hl]|Hl]; [exists l; apply in_or_app; now left|]. injection Hl as ->. eexists. apply in_or_app. right. now left.
    + apply bindo_done in E as (s2 & E & E2). injection E2 as <- <-. eapply acts_made; [exact A| |exact E]. destruct Hh as [Hl|Hl]; [exact Hl|discriminate].
  - apply optional_same in E as (_ & _ & Hn). eapply IH; [|apply keep_ahead; [exact Hin|exact Hn]|exact H].
    intros x n0 o0 e0 Hi. eapply K. right. eapply skipn_in; eauto.
Qed.
End Walk.

(** ** What a word of the command line stands for *)
Section Word.
Variable opts : list opt.
Hypothesis names_ok : forallb (fun no => name_ok (fst no)) (table opts) = true.
Let tbl := table opts.
Definition candidates (p : str) : nat := List.length (filter (fun no => startswith p (fst no)) (table opts)).
Lemma tuples_count a : startswith dashes a = true -> List.length (option_tuples opts a) = candidates (stem a).
Proof.
  intros H. unfold option_tuples, candidates, stem. rewrite H. destruct (partition_eq a) as [p e]. cbn [fst].
  generalize (table opts). intros l. induction l as [|[k v] l IH]; [reflexivity|]. cbn [flat_map filter fst snd].
  destruct (startswith p k); cbn [app List.length]; now rewrite IH.
Qed.
Lemma tag_name a n o e : parse_optional opts a = Done (TO (Some (n, o, e))) -> In (n, o) tbl /\
  (startswith n a = true
   \/ (startswith dashes a = true /\ startswith (stem a) n = true /\ candidates (stem a) = 1%nat)
   \/ (startswith dashes a = false /\ startswith a n = true /\ (2 <= List.length a)%nat)).
Proof.
  unfold parse_optional. destruct (negb _) eqn:Es; [discriminate|]. apply negb_false_iff in Es.
  destruct (lookup a (table opts)) as [o1|] eqn:E1.
  { intros H. injection H as <- <- <-. apply (lookup_name opts names_ok) in E1 as [_ E1]. split; [exact E1|]. left. apply startswith_refl. }
  destruct (List.length a =? 1)%nat eqn:El; [discriminate|]. apply Nat.eqb_neq in El.
  assert (L : (2 <= List.length a)%nat) by (destruct a as [|? [|? ?]]; cbn in *; [discriminate|lia|lia]).
  pose proof (partition_whole a) as W. destruct (partition_eq a) as [p x] eqn:Ep. cbn [fst snd] in W.
  destruct (match x with Some x0 => _ | None => None end) as [t|] eqn:E2.
  { intros H. injection H as ->. destruct x as [x|]; [|discriminate]. destruct (lookup p (table opts)) as [o1|] eqn:E3; [|discriminate].
    injection E2 as <- <- <-. apply (lookup_name opts names_ok) in E3 as [_ E3]. split; [exact E3|]. left. apply startswith_spec. eauto. }
  destruct (option_tuples opts a) as [|t [|? ?]] eqn:E3; [|intros H; injection H as ->|discriminate].
  - destruct (negative_number a); [discriminate|]. destruct (existsb (N.eqb cSP) a); discriminate.
  - assert (In (n, o, e) (option_tuples opts a)) as Hi by (rewrite E3; now left).
    destruct (startswith dashes a) eqn:Ed.
    + pose proof (tuples_count a Ed) as Ct. rewrite E3 in Ct. unfold option_tuples in Hi. rewrite Ed in Hi.
      rewrite Ep in Hi. apply in_flat_map in Hi as ([k v] & A & B). cbn [fst snd] in B. destruct (startswith p k) eqn:Ek; [|destruct B].
      destruct B as [B|[]]. injection B as <- <- _. split; [exact A|]. right. left. split; [reflexivity|]. unfold stem at 1. rewrite Ep. auto.
    + unfold option_tuples in Hi. rewrite Ed in Hi.
      apply in_flat_map in Hi as ([k v] & A & B). cbn [fst snd] in B. destruct (seqb k _) eqn:Ek.
      * destruct B as [B|[]]. injection B as <- <- _. split; [exact A|]. left. apply seqb_eq in Ek as ->. apply startswith_spec. exists (skipn 2 a).
        symmetry. apply (firstn_skipn 2 a).
      * destruct (startswith a k) eqn:Ea; [|destruct B]. destruct B as [B|[]]. injection B as <- <- _. split; [exact A|]. right. right. auto.
Qed.
Lemma tags_word args : forall ts a m, tags_of opts args = Done ts -> In (a, Some (TO m)) ts -> In a args /\ parse_optional opts a = Done (TO m).
Proof.
  induction args as [|b args IH]; intros ts a m H Hi; cbn [tags_of] in H.
  - injection H as <-. destruct Hi.
  - destruct (seqb b dashes).
    + injection H as <-. destruct Hi as [Hi|Hi]; [discriminate|]. apply in_map_iff in Hi as (y & Hi & _). discriminate.
    + apply bindo_done in H as (t & E & H). apply bindo_done in H as (us & E2 & H). injection H as <-.
      destruct Hi as [Hi|Hi]; [injection Hi as -> ->; split; [now left|exact E]|]. destruct (IH _ _ _ E2 Hi) as [A B]. split; [now right|exact B].
Qed.
(** only the words in front of a double dash are options *)
Fixpoint front (args : list str) : list str :=
  match args with nil => nil | a :: r => if seqb a dashes then nil else a :: front r end.
Lemma tags_front args : forall ts a m, tags_of opts args = Done ts -> In (a, Some (TO m)) ts -> In a (front args).
Proof.
  induction args as [|b args IH]; intros ts a m H Hi; cbn [tags_of front] in *.
  - injection H as <-. destruct Hi.
  - destruct (seqb b dashes).
    + injection H as <-. destruct Hi as [Hi|Hi]; [discriminate|]. apply in_map_iff in Hi as (y & Hi & _). discriminate.
    + apply bindo_done in H as (t & E & H). apply bindo_done in H as (us & E2 & H). injection H as <-.
      destruct Hi as [Hi|Hi]; [injection Hi as -> ->; now left|]. right. eapply IH; eauto.
Qed.
(** conversely the words in front have their tags *)
Lemma front_tags args : forall ts a t, tags_of opts args = Done ts -> In a (front args) -> parse_optional opts a = Done t -> In (a, Some t) ts.
Proof.
  induction args as [|b args IH]; intros ts a t H Hi Ht; cbn [tags_of front] in *; [destruct Hi|].
  destruct (seqb b dashes); [destruct Hi|].
  apply bindo_done in H as (t1 & E & H). apply bindo_done in H as (us & E2 & H). injection H as <-.
  destruct Hi as [<-|Hi]; [left; congruence|]. right. eapply IH; eauto.
Qed.
(** An option with a short name and a long name, whose abbreviations all begin with
    [mark]. *)
Lemma other_word a n o e short long mark : parse_optional opts a = Done (TO (Some (n, o, e))) ->
  startswith dashes short = false -> startswith $"-" short = true -> List.length short = 2%nat ->
  startswith mark long = true -> startswith dashes long = true ->
  forallb (fun k => startswith mark (firstn k long) || negb (candidates (firstn k long) =? 1)%nat) (seq 0 (S (List.length long))) = true ->
  startswith short a = false -> startswith mark a = false -> n <> short /\ n <> long.
Proof.
  intros H S1 S2 S3 M1 M2 F A1 A2. apply tag_name in H as [_ H].
  assert (Pt : forall x y z : str, startswith x y = true -> startswith y z = true -> startswith x z = true).
  { intros x y z Hx Hy. apply startswith_spec in Hx as [r ->]. apply startswith_spec in Hy as [r2 ->]. apply startswith_spec. exists (r ++ r2). now rewrite <- app_assoc. }
  assert (St : startswith (stem a) a = true).
  { apply startswith_spec. eexists. apply partition_whole. }
  split; intros ->.
  - destruct H as [H|[(H1 & H2 & _)|(H1 & H2 & H3)]].
    + congruence.
    + assert (Hd : startswith dashes (stem a) = true).
      { apply startswith_spec in H1 as [r ->]. unfold stem. cbn. destruct (partition_eq r). reflexivity. }
      rewrite (Pt _ _ _ Hd H2) in S1. discriminate.
    + apply startswith_spec in H2 as [r ->]. rewrite app_length in S3. destruct r; [|cbn in S3; lia]. rewrite app_nil_r, startswith_refl in A1. discriminate.
  - destruct H as [H|[(H1 & H2 & H3)|(H1 & H2 & H3)]].
    + rewrite (Pt _ _ _ M1 H) in A2. discriminate.
    + rewrite forallb_forall in F. apply startswith_spec in H2 as [r Hr].
      specialize (F (List.length (stem a))). rewrite in_seq in F. 
      assert (E : firstn (List.length (stem a)) long = stem a) by (rewrite Hr, firstn_app, firstn_all, Nat.sub_diag; cbn [firstn]; apply app_nil_r).
      rewrite E, H3 in F. cbn [Nat.eqb negb] in F. rewrite orb_false_r in F.
      rewrite (Pt _ _ _ (F ltac:(rewrite Hr, app_length; lia)) St) in A2. discriminate.
    + destruct a as [|c1 [|c2 a]]; cbn [List.length] in H3; [lia|lia|]. apply startswith_spec in H2 as [r ->].
      cbn [app startswith dashes] in *. change dashes with [45%N; 45%N] in *. cbn [startswith] in *. congruence.
Qed.
End Word.

(** ** The options of cmake-format *)
Definition is_stdout (s : step) : bool := match s with SStdout _ => true | _ => false end.
Lemma stdout_only w l : forallb is_stdout l = true -> do_steps w l = w.
Proof.
  unfold do_steps. revert w. induction l as [|s l IH]; intros w H; [reflexivity|]. cbn [forallb fold_left] in *. apply andb_prop in H as [A B].
  destruct s; try discriminate. cbn [do_step]. now apply IH.
Qed.
Lemma stdout_map t : forallb is_stdout (map SStdout t) = true.
Proof. induction t; [reflexivity|exact IHt]. Qed.
Lemma onefile_stdout e a w p kw : in_place a = false -> outfile_path a = dash -> forallb is_stdout (fst (fst (onefile e a w p kw))) = true.
Proof.
  intros Hi Ho. unfold onefile. destruct (cfg_dict e p) as [d| |]; [|reflexivity|reflexivity].
  destruct (new_configuration d) as [c0| |]; [|reflexivity|reflexivity].
  destruct (legacy_consume c0 kw) as [[c kw']| |]; [|reflexivity|reflexivity]. destruct (flag c _); [reflexivity|].
  match goal with |- context [match ?x with Ok _ => _ | Err _ => _ | OutOfFuel => _ end] => destruct x as [t| |] end; [|reflexivity|reflexivity].
  destruct (fmt e c t) as [[out v]| |]; [|reflexivity|reflexivity]. destruct (_ && _); [reflexivity|]. destruct (check a); [reflexivity|].
  rewrite Hi, Ho, seqb_refl. destruct (negb _); [reflexivity|]. apply stdout_map.
Qed.
Lemma run_stdout e a : in_place a = false -> outfile_path a = dash -> forall ps w kw rc, forallb is_stdout (fst (run_files e a w ps kw rc)) = true.
Proof.
  intros Hi Ho. induction ps as [|p ps IH]; intros w kw rc; [reflexivity|]. cbn [run_files].
  pose proof (onefile_stdout e a w p kw Hi Ho) as S. destruct (onefile e a w p kw) as [[l r] kw']. cbn [fst] in S.
  destruct r as [u|x|]; [|destruct x|]; try exact S;
    match goal with |- context [run_files e a ?w2 ps kw' ?rc2] => specialize (IH w2 kw' rc2); destruct (run_files e a w2 ps kw' rc2) end;
    cbn [fst] in *; rewrite forallb_app, S; exact IH.
Qed.
Lemma names_fmt : forallb (fun no => name_ok (fst no)) (table format_options) = true.
Proof. exact (tool_names _ tool_format). Qed.

(** *** Words that ask for a way of output *)
Inductive asks : str -> str -> Prop :=
| asks_i w : In w [$"-i"; $"--in-place"] -> asks w $"in_place"
| asks_check : asks $"--check" $"check"
| asks_o w : In w [$"-o"; $"--outfile-path"] -> asks w $"outfile_path"
| asks_o_file x : asks ($"-o" ++ x) $"outfile_path"
| asks_outfile x : asks ($"--outfile-path=" ++ x) $"outfile_path".
Definition o_out : opt := Opt [$"-o"; $"--outfile-path"] $"outfile_path" NOne AStore CStr None None None 2.
Lemma short_out x : exists n e, parse_optional format_options ($"-o" ++ x) = Done (TO (Some (n, o_out, e))).
Proof.
  destruct x as [|c x]; [vm_compute; eauto|].
  assert (L : lookup ($"-o" ++ c :: x) (table format_options) = None) by (vm_compute; reflexivity).
  unfold parse_optional. change (negb (startswith $"-" ($"-o" ++ c :: x))) with false. cbn iota. rewrite L.
  change (List.length ($"-o" ++ c :: x) =? 1)%nat with false. cbn iota.
  assert (T : option_tuples format_options ($"-o" ++ c :: x) = [($"-o", o_out, Some (false, c :: x))]) by (vm_compute; reflexivity).
  rewrite T.
  assert (Pq : partition_eq ($"-o" ++ c :: x) = let (p, e) := partition_eq (c :: x) in ($"-o" ++ p, e)).
  { change ($"-o" ++ c :: x) with (45%N :: 111%N :: c :: x). cbn [partition_eq]. change (45 =? 61)%N with false. change (111 =? 61)%N with false. cbn iota.
    fold (partition_eq (c :: x)). destruct (if (c =? 61)%N then _ else _). reflexivity. }
  rewrite Pq. destruct (partition_eq (c :: x)) as [p e]. destruct e as [e|]; [|eauto].
  destruct p as [|c2 p].
  - change (lookup ($"-o" ++ nil) (table format_options)) with (Some o_out). cbn [option_map]. eauto.
  - assert (L2 : lookup ($"-o" ++ c2 :: p) (table format_options) = None) by (vm_compute; reflexivity). rewrite L2. cbn [option_map]. eauto.
Qed.
Lemma asks_option w d : asks w d -> exists n o e, parse_optional format_options w = Done (TO (Some (n, o, e)))
  /\ o_mutex o = 2%nat /\ o_dest o = d /\ In o format_options.
Proof.
  intros H. assert (K : forall n o e, parse_optional format_options w = Done (TO (Some (n, o, e))) -> In o format_options)
    by (intros n o e; apply (optional_known _ names_fmt)).
  assert (G : exists n o e, parse_optional format_options w = Done (TO (Some (n, o, e))) /\ o_mutex o = 2%nat /\ o_dest o = d).
  { destruct H as [w [<-|[<-|[]]]| |w [<-|[<-|[]]]|x|x]; try (vm_compute; eauto 8; fail).
    - destruct (short_out x) as (n & e & E). exists n, o_out, e. auto. }
  destruct G as (n & o & e & A & B & C). eauto 9.
Qed.

(** *** What is known of an accepted command line *)
Definition seen_of (o : opt) (s : pst) : Prop := In (o_mutex o, o_dest o) (p_seen s).
Lemma action_seen o l s s' : take_action o l s = Done s' -> p_seen s' = (o_mutex o, o_dest o) :: p_seen s.
Proof.
  unfold take_action. intros H. apply bindo_done in H as (v & _ & H). destruct (_ && _); [discriminate|].
  destruct (o_act o); [| | |discriminate]; injection H as <-; reflexivity.
Qed.
Definition exclusive (s : pst) : Prop := forall m d d2, m <> 0%nat -> In (m, d) (p_seen s) -> In (m, d2) (p_seen s) -> d = d2.
Lemma action_exclusive o l s s' : take_action o l s = Done s' -> exclusive s -> exclusive s'.
Proof.
  intros H X. pose proof (action_seen _ _ _ _ H) as Hs. intros m d d2 Hm H1 H2. rewrite Hs in *.
  unfold take_action in H. apply bindo_done in H as (v & _ & H). destruct (_ && _) eqn:E; [discriminate|]. clear H.
  assert (G : forall x, o_mutex o = m -> In (m, x) (p_seen s) -> x = o_dest o).
  { intros x <- Hx. replace (o_mutex o =? 0)%nat with false in E by (symmetry; now apply Nat.eqb_neq). cbn [negb andb] in E.
    destruct (seqb x (o_dest o)) eqn:Ex; [now apply seqb_eq in Ex|]. exfalso.
    assert (existsb (fun q => (fst q =? o_mutex o)%nat && negb (seqb (snd q) (o_dest o))) (p_seen s) = true); [|congruence].
    apply existsb_exists. exists (o_mutex o, x). split; [exact Hx|]. cbn [fst snd]. now rewrite Nat.eqb_refl, Ex. }
  destruct H1 as [H1|H1], H2 as [H2|H2].
  - congruence.
  - injection H1 as H1 <-. symmetry. auto.
  - injection H2 as H2 <-. auto.
  - eapply X; eauto.
Qed.
(** ** C152: contradictory requests are refused *)
Theorem C152_modes en dump code w argv w1 w2 d1 d2 :
  In w1 (front argv) -> In w2 (front argv) -> asks w1 d1 -> asks w2 d2 -> d1 <> d2 ->
  inner_main en dump code w argv = (nil, Exit 2) \/ (parse_args format_options argv = Shown /\ inner_main en dump code w argv = (nil, Exit 0)).
Proof.
  intros I1 I2 A1 A2 Hne. unfold inner_main. destruct (parse_args format_options argv) as [[n ps]| |] eqn:E; [exfalso|auto|auto].
  apply parse_args_inv in E as (ts & s & Ht & Hg & _).
  destruct (asks_option _ _ A1) as (n1 & o1 & e1 & T1 & M1 & D1 & O1). destruct (asks_option _ _ A2) as (n2 & o2 & e2 & T2 & M2 & D2 & O2).
  pose proof (tags_known _ names_fmt _ _ Ht) as K.
  assert (S : forall o a n e, In (a, Some (TO (Some (n, o, e)))) ts -> seen_of o s).
  { intros o a nm e Hi. eapply (go_made _ names_fmt (seen_of o)); [| | |exact K|exact Hi|exact Hg].
    - unfold seen_of. intros s1 s2 _ <-. auto.
    - unfold seen_of. intros o3 l s1 s2 _ H. rewrite (action_seen _ _ _ _ H). now right.
    - unfold seen_of. intros l s1 s2 H. rewrite (action_seen _ _ _ _ H). now left. }
  assert (X : exclusive s).
  { eapply (go_kept _ names_fmt exclusive); [| | |exact Hg|].
    - unfold exclusive. intros s1 s2 _ <-. auto.
    - intros o l s1 s2 _ H. eapply action_exclusive; eauto.
    - apply known_good. exact K.
    - intros m d d0 _ []. }
  pose proof (S _ _ _ _ (front_tags _ _ _ _ _ Ht I1 T1)) as S1. pose proof (S _ _ _ _ (front_tags _ _ _ _ _ Ht I2 T2)) as S2.
  unfold seen_of in *. rewrite M1, D1 in S1. rewrite M2, D2 in S2. apply Hne. eapply (X 2%nat); eauto.
Qed.
(** *** Options that were not asked for keep their defaults *)
Definition mark := (str * str * str)%type.   (* short name, long name, beginning of its abbreviations *)
Definition shows (o : opt) : bool := match o_act o with AShow => true | _ => false end.
Definition marks_ok (opts : list opt) (ds : list str) (b : list mark) : bool :=
  forallb (fun q => let '(sh, lo, mk) := q in
    negb (startswith dashes sh) && startswith $"-" sh && (List.length sh =? 2)%nat && startswith mk lo && startswith dashes lo
    && forallb (fun k => startswith mk (firstn k lo) || negb (candidates opts (firstn k lo) =? 1)%nat) (seq 0 (S (List.length lo)))) b
  && forallb (fun no => implb (smem (o_dest (snd no)) ds || (negb (takes (snd no)) && negb (startswith dashes (fst no)) && negb (shows (snd no))))
                              (existsb (fun q => let '(sh, lo, mk) := q in seqb (fst no) sh || seqb (fst no) lo) b)) (table opts).
Definition free_of (b : list mark) (a : str) : bool :=
  forallb (fun q => let '(sh, lo, mk) := q in negb (startswith sh a) && negb (startswith mk a)) b.
Lemma untouched opts ds b argv n ps : forallb (fun no => name_ok (fst no)) (table opts) = true -> marks_ok opts ds b = true -> parse_args opts argv = Done (n, ps) ->
  forallb (free_of b) (front argv) = true -> forall d, In d ds -> lookup d n = lookup d (initial_ns opts).
Proof.
  intros names_fmt Mk H Hf d Hd. apply andb_prop in Mk as [Mk Tb]. rewrite forallb_forall in Mk, Tb, Hf.
  apply parse_args_inv in H as (ts & s & Ht & Hg & _ & -> & _).
  refine (go_kept _ names_fmt (fun s => lookup d (p_ns s) = lookup d (initial_ns opts)) _ (fun o => o_dest o <> d) _ _ _ _ _ _ Hg eq_refl).
  - intros s1 s2 <- _. auto.
  - intros o l s1 s2 Ho E <-. unfold take_action in E. apply bindo_done in E as (v & _ & E). destruct (_ && _); [discriminate|].
    assert (G : forall x, lookup d (dset (o_dest o) x (p_ns s1)) = lookup d (p_ns s1)).
    { intros x. rewrite lookup_dset. destruct (seqb d (o_dest o)) eqn:Ed; [|reflexivity]. apply seqb_eq in Ed. congruence. }
    destruct (o_act o); [| | |discriminate]; injection E as <-; apply G.
  - intros a nm o e Hi. pose proof (tags_front _ _ _ _ _ Ht Hi) as Hfr. destruct (tags_word _ _ _ _ _ Ht Hi) as [_ Hw].
    destruct (tag_name _ names_fmt _ _ _ _ Hw) as [Hin _].
    assert (Nb : existsb (fun q => let '(sh, lo, mk) := q in seqb nm sh || seqb nm lo) b = false).
    { match goal with |- ?x = false => destruct x eqn:Ex end; [|reflexivity]. apply existsb_exists in Ex as ([[sh lo] mk] & Hb & Ex). exfalso.
      specialize (Mk _ Hb). cbn beta iota in Mk. specialize (Hf _ Hfr). unfold free_of in Hf. rewrite forallb_forall in Hf. specialize (Hf _ Hb). cbn beta iota in Hf.
      repeat match goal with H : _ && _ = true |- _ => apply andb_prop in H as [? ?] end.
      repeat match goal with H : negb _ = true |- _ => apply negb_true_iff in H end.
      match goal with H : (_ =? 2)%nat = true |- _ => apply Nat.eqb_eq in H end.
      destruct (other_word _ names_fmt a nm o e sh lo mk Hw) as [X Y]; try assumption.
      apply orb_prop in Ex as [Ex|Ex]; apply seqb_eq in Ex; contradiction. }
    specialize (Tb _ Hin). cbn [fst snd] in Tb. rewrite Nb in Tb.
    destruct (_ || _) eqn:Eo; [discriminate|]. apply orb_false_iff in Eo as [E1 E2]. split.
    + intros <-. apply smem_In in Hd. congruence.
    + right. destruct (takes o) eqn:Tk.
      { right. left. unfold takes in Tk. destruct (o_nargs o); [discriminate|..]; discriminate. }
      cbn [negb andb] in E2. apply andb_false_iff in E2 as [E2|E2]; apply negb_false_iff in E2; [auto|].
      right. right. right. unfold shows in E2. destruct (o_act o); try discriminate. reflexivity.
Qed.
Lemma main_off en dump code w argv : (forall n ps, parse_args format_options argv = Done (n, ps) ->
    turned_on $"in_place" n = false /\ (In dash ps \/ text_value $"outfile_path" n = None)) ->
  forallb is_stdout (fst (inner_main en dump code w argv)) = true.
Proof.
  intros H. unfold inner_main. destruct (parse_args format_options argv) as [[n ps]| |]; [|reflexivity|reflexivity].
  destruct (H _ _ eq_refl) as [Hi Ho]. clear H. destruct (given $"dump_config" n).
  { destruct (dump n); [apply stdout_map|reflexivity|reflexivity]. }
  rewrite Hi, andb_false_r. cbn [andb]. destruct (negb (_ || _)); [reflexivity|].
  destruct (smem dash ps && _) eqn:E; [reflexivity|]. apply run_stdout; [reflexivity|]. cbn [outfile_path].
  destruct Ho as [Ho|Ho]; [|now rewrite Ho]. apply smem_In in Ho. rewrite Ho in E. cbn [andb] in E. apply orb_false_iff in E as [_ E].
  apply negb_false_iff in E. now apply seqb_eq in E.
Qed.
(** ** C151: files are written only on request *)
Definition output_marks : list mark := [($"-i", $"--in-place", $"--in-"); ($"-o", $"--outfile-path", $"--outf")].
Theorem C151_on_request en dump code w argv :
  (forall a, In a (front argv) -> startswith $"-i" a = false /\ startswith $"--in-" a = false
                               /\ startswith $"-o" a = false /\ startswith $"--outf" a = false) ->
  let (l, x) := inner_main en dump code w argv in forallb is_stdout l = true /\ do_steps w l = w.
Proof.
  intros Hf. destruct (inner_main en dump code w argv) as [l x] eqn:E.
  assert (S : forallb is_stdout (fst (inner_main en dump code w argv)) = true).
  { apply main_off. intros n ps H.
    assert (U : forall d, In d [$"in_place"; $"outfile_path"] -> lookup d n = lookup d (initial_ns format_options)).
    { apply (untouched format_options [$"in_place"; $"outfile_path"] output_marks _ _ _ names_fmt ltac:(vm_compute; reflexivity) H). apply forallb_forall. intros a Ha. destruct (Hf _ Ha) as (A & B & C & D).
      unfold free_of, output_marks. cbn [forallb]. now rewrite A, B, C, D. }
    unfold turned_on, text_value. rewrite (U $"in_place") by now left. rewrite (U $"outfile_path") by (right; now left). split; [reflexivity|right; reflexivity]. }
  rewrite E in S. cbn [fst] in S. split; [exact S|]. now apply stdout_only.
Qed.
(** ** C150: with --check nothing is written *)
Definition check_words : list str := [$"--check"; $"--chec"; $"--che"; $"--ch"].
Definition o_check : opt := flag_opt [$"--check"] $"check" true 2.
Theorem C150_check en dump code w argv a : In a (front argv) -> In a check_words ->
  let (l, x) := inner_main en dump code w argv in
  forallb is_stdout l = true /\ do_steps w l = w
  /\ forall n ps, parse_args format_options argv = Done (n, ps) -> given $"dump_config" n = false ->
     l = nil /\ (status x = Some 0 -> check_passes (en n) w (get_argdict (settings code n)) ps).
Proof.
  intros Hf Hc. assert (T : parse_optional format_options a = Done (TO (Some ($"--check", o_check, None)))).
  { destruct Hc as [<-|[<-|[<-|[<-|[]]]]]; vm_compute; reflexivity. }
  unfold inner_main. destruct (parse_args format_options argv) as [[n ps]| |] eqn:E.
  2,3: split; [reflexivity|]; split; [reflexivity|]; discriminate.
  assert (C : turned_on $"check" n = true).
  { pose proof E as E0. apply parse_args_inv in E0 as (ts & s & Ht & Hg & _ & -> & _).
    assert (G : lookup $"check" (p_ns s) = Some (Some (OB true))); [|unfold turned_on; now rewrite G].
    assert (All : forall o, In o format_options -> o_dest o = $"check" -> o_act o = AConst /\ o_const o = Some (OB true)).
    { intros o Ho Hd. assert (F : forallb (fun o => implb (seqb (o_dest o) $"check")
        (match o_act o, o_const o with AConst, Some (OB true) => true | _, _ => false end)) format_options = true) by (vm_compute; reflexivity).
      rewrite forallb_forall in F. specialize (F _ Ho). rewrite Hd, seqb_refl in F. cbn [implb] in F.
      destruct (o_act o); try discriminate. destruct (o_const o) as [[[|]| | |]|]; try discriminate. auto. }
    assert (Act : forall o l s1 s2, In o format_options -> take_action o l s1 = Done s2 ->
      o_dest o = $"check" \/ lookup $"check" (p_ns s1) = Some (Some (OB true)) -> lookup $"check" (p_ns s2) = Some (Some (OB true))).
    { intros o l s1 s2 Ho Ea Hd. unfold take_action in Ea. apply bindo_done in Ea as (v & _ & Ea). destruct (_ && _); [discriminate|].
      destruct (seqb (o_dest o) $"check") eqn:Ed.
      - apply seqb_eq in Ed. destruct (All _ Ho Ed) as [A B]. rewrite A in Ea. injection Ea as <-. cbn [p_ns]. rewrite Ed, lookup_dset, seqb_refl, B. reflexivity.
      - destruct Hd as [Hd|Hd]; [rewrite Hd, seqb_refl in Ed; discriminate|].
        assert (N : forall x, lookup $"check" (dset (o_dest o) x (p_ns s1)) = lookup $"check" (p_ns s1)).
        { intros x. rewrite lookup_dset. destruct (seqb $"check" (o_dest o)) eqn:Ex; [|reflexivity]. apply seqb_eq in Ex. rewrite <- Ex, seqb_refl in Ed. discriminate. }
        destruct (o_act o); [| | |discriminate]; injection Ea as <-; cbn [p_ns]; rewrite N; exact Hd. }
    eapply (go_made _ names_fmt (fun s => lookup $"check" (p_ns s) = Some (Some (OB true)))); [| | |exact (tags_known _ names_fmt _ _ Ht)|exact (front_tags _ _ _ _ _ Ht Hf T)|exact Hg].
    - intros s1 s2 <- _. auto.
    - intros o l s1 s2 Ho Ea Hl. eapply Act; eauto.
    - intros l s1 s2 Ea. eapply Act; [|exact Ea|now left]. apply (optional_known _ names_fmt _ _ _ _ T). }
  destruct (given $"dump_config" n) eqn:Dc.
  { destruct (dump n); cbn [fst]; (split; [first [apply stdout_map|reflexivity]|]); (split; [first [apply stdout_only, stdout_map|reflexivity]|]);
      intros n0 ps0 H0; injection H0 as <- <-; rewrite Dc; discriminate. }
  set (args := Args _ _ _).
  assert (Q : forall x : ending, x = Raised AssertionErr -> forallb is_stdout nil = true /\ do_steps w nil = w /\ forall n0 ps0, Done (n, ps) = Done (n0, ps0) ->
    given $"dump_config" n0 = false -> @nil step = nil /\ (status x = Some 0 -> check_passes (en n0) w (get_argdict (settings code n0)) ps0)).
  { intros x ->. split; [reflexivity|]. split; [reflexivity|]. intros. split; [reflexivity|discriminate]. }
  destruct (given $"dump" n && _); [now apply Q|]. destruct (turned_on $"in_place" n && _); [now apply Q|]. destruct (negb (_ || _)); [now apply Q|].
  destruct (smem dash ps && _); [now apply Q|]. clear Q.
  pose proof (C19_check_mode (en n) args w ps (settings code n) C) as R. destruct (run_main _ _ _ _ _) as [l x]. destruct R as (-> & R & _).
  split; [reflexivity|]. split; [reflexivity|]. intros n0 ps0 H0 _. injection H0 as <- <-. split; [reflexivity|apply R].
Qed.
(** ** C152 again: one output file for one input file, standard input alone *)
Theorem C152_paths en dump code w argv n ps : parse_args format_options argv = Done (n, ps) -> List.length ps <> 1%nat ->
  In dash ps \/ (exists a, In a (front argv) /\ asks a $"outfile_path") ->
  forallb is_stdout (fst (inner_main en dump code w argv)) = true
  /\ (given $"dump_config" n = false -> inner_main en dump code w argv = (nil, Raised AssertionErr)).
Proof.
  intros H Hl Ho.
  assert (G : In dash ps \/ given $"outfile_path" n = true).
  { destruct Ho as [Ho|(a & Hf & Ha)]; [now left|right]. destruct (asks_option _ _ Ha) as (nm & o & e & T & _ & D & O).
    pose proof H as E0. apply parse_args_inv in E0 as (ts & s & Ht & Hg & _ & -> & _).
    assert (All : forall o, In o format_options -> o_dest o = $"outfile_path" -> o_act o = AStore /\ o_nargs o = NOne).
    { clear. intros o Ho Hd. assert (F : forallb (fun o => implb (seqb (o_dest o) $"outfile_path")
        (match o_act o, o_nargs o with AStore, NOne => true | _, _ => false end)) format_options = true) by (vm_compute; reflexivity).
      rewrite forallb_forall in F. specialize (F _ Ho). rewrite Hd, seqb_refl in F. cbn [implb] in F.
      destruct (o_act o); try discriminate. destruct (o_nargs o); try discriminate. auto. }
    assert (Act : forall o l s1 s2, In o format_options -> take_action o l s1 = Done s2 ->
      o_dest o = $"outfile_path" \/ given $"outfile_path" (p_ns s1) = true -> given $"outfile_path" (p_ns s2) = true).
    { clear - All. intros o l s1 s2 Ho Ea Hd. unfold take_action in Ea. apply bindo_done in Ea as (v & Ev & Ea). destruct (_ && _); [discriminate|].
      destruct (seqb (o_dest o) $"outfile_path") eqn:Ed.
      - apply seqb_eq in Ed. destruct (All _ Ho Ed) as [A B]. rewrite A in Ea. injection Ea as <-. unfold given. cbn [p_ns]. rewrite Ed, lookup_dset, seqb_refl.
        unfold get_values in Ev. rewrite B in Ev. destruct l as [|x [|]]; apply bindo_done in Ev as (u & _ & Ev); injection Ev as <-; reflexivity.
      - destruct Hd as [Hd|Hd]; [rewrite Hd, seqb_refl in Ed; discriminate|].
        assert (N : forall x, lookup $"outfile_path" (dset (o_dest o) x (p_ns s1)) = lookup $"outfile_path" (p_ns s1)).
        { intros x. rewrite lookup_dset. destruct (seqb $"outfile_path" (o_dest o)) eqn:Ex; [|reflexivity]. apply seqb_eq in Ex. rewrite <- Ex, seqb_refl in Ed. discriminate. }
        unfold given in *. destruct (o_act o); [| | |discriminate]; injection Ea as <-; cbn [p_ns]; rewrite N; exact Hd. }
    eapply (go_made _ names_fmt (fun s => given $"outfile_path" (p_ns s) = true)); [| | |exact (tags_known _ names_fmt _ _ Ht)|exact (front_tags _ _ _ _ _ Ht Hf T)|exact Hg].
    - intros s1 s2 <- _. auto.
    - intros o2 l s1 s2 Ho Ea Hl2. eapply Act; eauto.
    - intros l s1 s2 Ea. eapply Act; [exact O|exact Ea|now left]. }
  unfold inner_main. rewrite H. apply Nat.eqb_neq in Hl. rewrite Hl. cbn [negb orb].
  destruct (given $"dump_config" n) eqn:Dc.
  { destruct (dump n); (split; [first [apply stdout_map|reflexivity]|discriminate]). }
  destruct (given $"dump" n && _); [split; reflexivity|].
  destruct (turned_on $"in_place" n) eqn:Ip.
  - destruct G as [G|G]; [|rewrite G; split; reflexivity]. destruct (true && _); [split; reflexivity|]. cbn [negb orb].
    apply smem_In in G. rewrite G. split; reflexivity.
  - cbn [andb orb]. destruct G as [G|G]; [|rewrite G; split; reflexivity]. destruct (negb (negb _)); [split; reflexivity|].
    apply smem_In in G. rewrite G. split; reflexivity.
Qed.
(** ** C153: standard input *)
Theorem C153_stdin_partial en dump code w argv n ps : parse_args format_options argv = Done (n, ps) -> In dash ps ->
  (forall a, In a (front argv) -> startswith $"-i" a = false /\ startswith $"--in-" a = false) ->
  let (l, x) := inner_main en dump code w argv in forallb is_stdout l = true /\ do_steps w l = w.
Proof.
  intros H Hd Hf. destruct (inner_main en dump code w argv) as [l x] eqn:E.
  assert (S : forallb is_stdout (fst (inner_main en dump code w argv)) = true).
  { apply main_off. intros n0 ps0 H0. rewrite H in H0. injection H0 as <- <-.
    assert (U : lookup $"in_place" n = lookup $"in_place" (initial_ns format_options)).
    { apply (untouched format_options [$"in_place"] [($"-i", $"--in-place", $"--in-")] _ _ _ names_fmt ltac:(vm_compute; reflexivity) H); [|now left].
      apply forallb_forall. intros a Ha. destruct (Hf _ Ha) as (A & B). unfold free_of. cbn [forallb]. now rewrite A, B. }
    unfold turned_on. rewrite U. split; [reflexivity|now left]. }
  rewrite E in S. cbn [fst] in S. split; [exact S|]. now apply stdout_only.
Qed.
Definition toy_env : env := Env (fun _ => Ok nil) (Ok $"a()") (fun _ _ => true) (fun _ _ => true) (fun _ _ => Ok ($"b()", true)).
Theorem C153_refuted : ~ (forall en dump code w argv n ps, parse_args format_options argv = Done (n, ps) -> ps = [dash] ->
  do_steps w (fst (inner_main en dump code w argv)) = w).
Proof.
  intros H. specialize (H (fun _ => toy_env) (fun _ => Ok nil) (fun _ => 0) (fun _ => None) [$"-i"; $"-"] _ [dash] ltac:(vm_compute; reflexivity) eq_refl).
  apply (f_equal (fun w => w $"-.cmf-temp")) in H. vm_compute in H. discriminate.
Qed.
(** ... the run leaves the file behind and ends in status 1 *)
Theorem C153_leftover_refuted : let (l, x) := inner_main (fun _ => toy_env) (fun _ => Ok nil) (fun _ => 0) (fun _ => None) [$"-i"; $"-"] in
  do_steps (fun _ => None) l $"-.cmf-temp" = Some ($"b()", default_mode) /\ x = Raised OSErr.
Proof. vm_compute. auto. Qed.

(** ** Examples: the hypotheses are met *)
Example C150_ex : let argv := [$"--dangle-parens"; $"--check"; $"a.cmake"; $"b.cmake"] in
  In $"--check" (front argv) /\ In $"--check" check_words
  /\ (exists n, parse_args format_options argv = Done (n, [$"a.cmake"; $"b.cmake"]) /\ given $"dump_config" n = false)
  /\ snd (inner_main (fun _ => toy_env) (fun _ => Ok nil) (fun _ => 0) (fun p => Some ($"a()", 0)) argv) = Exit 1.
Proof.
  cbn zeta. split; [right; now left|]. split; [now left|]. split; [eexists; split; vm_compute; reflexivity|]. vm_compute. reflexivity.
Qed.
Example C151_ex : let argv := [$"--input-encoding=latin1"; $"a.cmake"] in
  Forall (fun a => startswith $"-i" a = false /\ startswith $"--in-" a = false /\ startswith $"-o" a = false /\ startswith $"--outf" a = false) (front argv)
  /\ inner_main (fun _ => toy_env) (fun _ => Ok nil) (fun _ => 0) (fun p => Some ($"a()", 0)) argv = (map SStdout $"b()", Exit 0)
  /\ fst (inner_main (fun _ => toy_env) (fun _ => Ok nil) (fun _ => 0) (fun p => Some ($"a()", 0)) ($"--in-p" :: argv)) <> nil.
Proof. cbn zeta. split; [repeat constructor|]. split; [vm_compute; reflexivity|]. vm_compute. discriminate. Qed.
Example C152_ex : let argv := [$"-i"; $"-ofile"; $"a.cmake"] in
  In $"-i" (front argv) /\ In $"-ofile" (front argv) /\ asks $"-i" $"in_place" /\ asks $"-ofile" $"outfile_path" /\ parse_args format_options argv = Usage
  /\ exists n, parse_args format_options [$"-o"; $"file"; $"a.cmake"; $"b.cmake"] = Done (n, [$"a.cmake"; $"b.cmake"]).
Proof.
  cbn zeta. split; [now left|]. split; [right; now left|]. split; [constructor; now left|]. split; [exact (asks_o_file $"file")|].
  split; [vm_compute; reflexivity|]. eexists. vm_compute. reflexivity.
Qed.
Example C153_ex : exists n, parse_args format_options [$"-"; $"--line-width=100"] = Done (n, [dash])
  /\ inner_main (fun _ => toy_env) (fun _ => Ok nil) (fun _ => 0) (fun _ => None) [$"-"; $"--line-width=100"] = (map SStdout $"b()", Exit 0).
Proof. eexists. split; vm_compute; reflexivity. Qed.

(** ** The namespaces of the tools *)
(** What C17, C78 and C141 ask of a namespace holds for every command line. *)
Theorem C159_namespace opts code argv n ps : In opts tools -> parse_args opts argv = Done (n, ps) -> namespace (settings code n).
Proof.
  intros Ht H.
  assert (I : NoDup (keys (initial_ns opts))).
  { assert (G : forall l, (fix nd (l : list str) := match l with nil => true | x :: r => negb (smem x r) && nd r end) l = true -> NoDup l).
    { induction l as [|x l IH]; intros E; constructor; apply andb_prop in E as [A B]; [|auto]. intros Hi. apply smem_In in Hi. now rewrite Hi in A. }
    apply G. destruct Ht as [<-|[<-|[]]]; vm_compute; reflexivity. }
  assert (D : forallb (fun x => negb (smem x (map o_dest opts))) (map fst registry) = true) by (destruct Ht as [<-|[<-|[]]]; vm_compute; reflexivity).
  assert (K : NoDup (keys n) /\ forall k, In k (keys n) -> In k (map o_dest opts)).
  { apply parse_args_inv in H as (ts & s & E & Hg & _ & -> & _).
    refine (go_kept opts (tool_names _ Ht) (fun s => NoDup (keys (p_ns s)) /\ forall k, In k (keys (p_ns s)) -> In k (map o_dest opts)) _ (fun o => In o opts) _ _ _ _ _ _ Hg _).
    - intros s1 s2 <- _. auto.
    - intros o l s1 s2 Ho E2 [A B]. unfold take_action in E2. apply bindo_done in E2 as (v & _ & E2). destruct (_ && _); [discriminate|].
      assert (G : forall x, NoDup (keys (dset (o_dest o) x (p_ns s1))) /\ forall k, In k (keys (dset (o_dest o) x (p_ns s1))) -> In k (map o_dest opts)).
      { intros x. split; [now apply nodup_dset|]. intros k Hk. apply keys_dset in Hk as [->|Hk]; [now apply in_map|auto]. }
      destruct (o_act o); try discriminate; injection E2 as <-; apply G.
    - eapply (known_good opts); eauto. eapply tags_known; eauto. now apply tool_names.
    - cbn [p_ns]. split; [exact I|]. intros k Hk. unfold initial_ns, keys in Hk. apply in_map_iff in Hk as ([k2 v] & <- & Hk).
      apply in_flat_map in Hk as (o & Ho & Hk). destruct (o_act o); try (destruct Hk as [Hk|[]]; injection Hk as <- _; now apply (in_map o_dest)); destruct Hk. }
  destruct K as [K1 K2]. split; rewrite keys_settings; [exact K1|]. intros x Hx X. apply K2 in X.
  rewrite forallb_forall in D. specialize (D _ Hx). apply smem_In in X. now rewrite X in D.
Qed.
