(** * Dump: --dump-config and what a run with the dumped file does (C78, C79) *)
From Verif Require Import Base Config PropConfig.

(** The names in CANONICAL_SPELLINGS, parse/funs/standard_funs.py 10-20, in lower case:
    the keys of get_default_config, 23-33. *)
Definition canonical_names : list str :=
  [$"externalproject_add"; $"fetchcontent_declare"; $"fetchcontent_makeavailable"; $"fetchcontent_getproperties"; $"fetchcontent_populate"; $"externalproject_add_step"; $"externalproject_add_steptargets"; $"externalproject_add_stepdependencies"; $"externalproject_get_property"].

(** ** The dumped dictionary *)
Section Dump.
(** [dflt f] is the default value of the field [f] (configuration.py); [fhelp f] its
    help text wrapped for the dump, if it has one; [shelp s] the docstring of the
    section [s]. *)
Variable dflt : str -> val.
Variable fhelp : str -> option val.
Variable shelp : str -> val.

(** FieldDescriptor.__get__ and has_override, config_util.py 241-242 and 264-266 *)
Definition value (c : config) (f : str) : val := match lookup f c with Some v => v | None => dflt f end.
Definition overridden (c : config) (f : str) : bool := match lookup f c with Some _ => true | None => false end.
Definition help_key (n : str) : str := $"_help_" ++ n.
(** _as_dict, config_util.py 381-405, the branch for one field ... *)
Definition field_entry (wh wd : bool) (c : config) (f : str) : dict val :=
  if wd || overridden c f
  then match (if wh then fhelp f else None) with Some h => [(help_key f, h)] | None => nil end ++ [(f, value c f)]
  else nil.
(** ... and for one section *)
Definition section_entry (wh wd : bool) (c : config) (s : str * list str) : dict val :=
  let (name, fields) := s in
  if wd || existsb (overridden c) fields
  then (if wh then [(help_key name, shelp name)] else nil) ++ [(name, VMap (flat_map (field_entry wh wd c) fields))]
  else nil.
Definition as_dict (wh wd : bool) (c : config) : dict val := flat_map (section_entry wh wd c) registry.

(** dump_config, format/__main__.py 376-402: the overrides of the commands that have a
    default configuration are popped (lines 385-386).  What is written is the
    dictionary; the three notations (json, yaml, python) are not modelled. *)
Definition not_canonical (kv : str * val) : bool := negb (smem (fst kv) canonical_names).
Definition pop_defaults (c : config) : res config :=
  match lookup ($"per_command") c with
  | None => Ok c
  | Some (VMap m) => Ok (dset ($"per_command") (VMap (filter not_canonical m)) c)
  | Some (VAtom _) => Err AttrErr
  end.
Definition dump_config (wh wd : bool) (d : dict val) (args : dict (option val)) : res (dict val) :=
  let? c := new_configuration (dupdate d (get_argdict args)) in
  let? c := pop_defaults c in
  Ok (as_dict wh wd c).

(** ** Specification: where the value of an option comes from *)
Definition section_of (k : str) : option str :=
  option_map fst (find (fun s => smem k (snd s)) registry).
Definition option_value (d : dict val) (k : str) : option val :=
  match lookup k d with
  | Some v => Some v
  | None => match section_of k with
            | Some n => match lookup n d with Some (VMap m) => lookup k m | _ => None end
            | None => None
            end
  end.
Definition flat_in (names : list str) (d : dict val) : Prop :=
  NoDup (keys d) /\ forall n m, In n names -> lookup n d = Some (VMap m) -> NoDup (keys m).
Definition flat (d : dict val) : Prop := flat_in (map fst registry) d.
Definition sections_ok (d : dict val) : Prop := forall n, In n (map fst registry) -> forall x, lookup n d <> Some (VAtom x).

Lemma subtrees_spec reg : forall c kw, NoDup (map fst reg) -> NoDup (flat_map snd reg) -> flat_in (map fst reg) kw ->
  match consume_subtrees reg c kw with
  | Ok (c', kw') => forall k, lookup k c' =
      match find (fun s => smem k (snd s)) reg with
      | Some (n, _) => match lookup n kw with Some (VMap m) => match lookup k m with Some v => Some v | None => lookup k c end | _ => lookup k c end
      | None => lookup k c
      end
  | Err e => exists n x, In n (map fst reg) /\ lookup n kw = Some (VAtom x)
  | OutOfFuel => False
  end.
Proof.
  induction reg as [|[n fs] reg IH]; intros c kw N1 N2 Hf; cbn [consume_subtrees]; [reflexivity|].
  cbn [map fst flat_map snd] in N1, N2. inversion N1 as [|? ? Hn N1']; subst.
  assert (Hk : forall k, smem k fs = true -> find (fun s : str * list str => smem k (snd s)) reg = None).
  { intros k Hk. destruct (find _ reg) as [[n2 fs2]|] eqn:E; auto. apply find_some in E as [E1 E2]. cbn [snd] in E2. exfalso.
    apply smem_In in Hk. apply smem_In in E2. apply (nodup_app_disj _ _ _ N2 Hk). apply in_flat_map. exists (n2, fs2). auto. }
  destruct (lookup n kw) as [[x|d]|] eqn:E.
  - exists n, x. cbn [map fst In]. auto.
  - assert (Hd : flat_in (map fst reg) (ddel n kw)).
    { destruct Hf as [F1 F2]. split; [now apply nodup_ddel|]. intros n2 m2 Hi. rewrite lookup_ddel by auto. destruct (seqb n2 n); [discriminate|]. apply F2. cbn [map fst In]. auto. }
    specialize (IH (fst (consume_fields fs c d)) (ddel n kw) N1' (nodup_app_r _ _ N2) Hd).
    pose proof (consume_fields_spec fs c d (nodup_app_l _ _ N2) (proj2 Hf _ _ (or_introl eq_refl) E)) as HS. destruct (consume_fields fs c d) as [c1 k1]. cbn [fst] in *. destruct HS as (S1 & _).
    destruct (consume_subtrees reg c1 (ddel n kw)) as [[c' kw']|e|]; [|destruct IH as (n2 & x & A & B)|assumption].
    + intros k. rewrite IH. cbn [find snd]. destruct (smem k fs) eqn:Ek.
      * rewrite (Hk _ Ek), S1, Ek, E. reflexivity.
      * destruct (find _ reg) as [[n2 fs2]|] eqn:E2; [|now rewrite S1, Ek]. rewrite lookup_ddel by apply Hf.
        destruct (seqb n2 n) eqn:En; [|now rewrite !S1, !Ek]. apply seqb_eq in En. subst n2. exfalso. apply Hn. apply find_some in E2 as [E2 _]. apply (in_map fst) in E2. exact E2.
    + exists n2, x. rewrite lookup_ddel in B by apply Hf. destruct (seqb n2 n); [discriminate|]. cbn [map fst In]. auto.
  - specialize (IH c kw N1' (nodup_app_r _ _ N2)). assert (Hd : flat_in (map fst reg) kw) by (split; [apply Hf|intros n2 m2 Hi; apply Hf; cbn [map fst In]; auto]). specialize (IH Hd). destruct (consume_subtrees reg c kw) as [[c' kw']|e|]; [|destruct IH as (n2 & x & A & B)|assumption].
    + intros k. rewrite IH. cbn [find snd]. destruct (smem k fs) eqn:Ek; auto. rewrite (Hk _ Ek), E. reflexivity.
    + exists n2, x. cbn [map fst In]. auto.
Qed.
Lemma names_nodup : NoDup (map fst registry).
Proof. repeat constructor; cbn; intuition discriminate. Qed.
Lemma field_no_section k : smem k all_fields = true -> smem k (map fst registry) = false.
Proof.
  intros Hk. assert (forallb (fun k => negb (smem k (map fst registry))) all_fields = true) as G by reflexivity.
  rewrite forallb_forall in G. apply smem_In in Hk. specialize (G _ Hk). now apply negb_true_iff in G.
Qed.
Lemma find_section k : match find (fun s : str * list str => smem k (snd s)) registry with Some (n, _) => section_of k = Some n | None => section_of k = None end.
Proof. unfold section_of. destruct (find _ registry) as [[n fs]|]; reflexivity. Qed.
Lemma new_spec d : flat d -> 
  match new_configuration d with
  | Ok c => forall k, smem k all_fields = true -> lookup k c = option_value d k
  | Err e => exists n x, In n (map fst registry) /\ lookup n d = Some (VAtom x)
  | OutOfFuel => False
  end.
Proof.
  intros Hf. unfold new_configuration. pose proof (subtrees_spec registry nil d names_nodup fields_nodup Hf) as H.
  destruct (consume_subtrees registry nil d) as [[c1 kw1]|e|] eqn:E; cbn [bindr]; auto.
  apply consume_subtrees_left in E as [A B]; [|apply Hf]. unfold legacy_consume. rewrite consume_subtrees_none.
  2:{ intros n Hn. rewrite B. apply smem_In in Hn. now rewrite Hn. }
  cbn [bindr]. pose proof (shim_consume_spec registry c1 kw1 fields_nodup A) as HS. destruct (shim_consume registry c1 kw1) as [c2 kw2]. destruct HS as (S1 & _).
  cbn [bindr]. intros k Hk. rewrite S1. fold all_fields. rewrite Hk, B, (field_no_section _ Hk), H. unfold option_value. destruct (lookup k d); auto.
  pose proof (find_section k) as F. destruct (find _ registry) as [[n fs]|]; rewrite F; auto. destruct (lookup n d) as [[]|]; auto. destruct (lookup k d0); auto.
Qed.
Lemma new_ok d : flat d -> sections_ok d -> exists c, new_configuration d = Ok c.
Proof.
  intros Hf Hs. pose proof (new_spec d Hf) as H. destruct (new_configuration d) as [c|e|]; [eauto| |contradiction]. destruct H as (n & x & A & B). now apply Hs in B.
Qed.

(** ** Dictionaries built from entries *)
Lemma startswith_help k n : startswith ($"_") k = false -> k <> help_key n.
Proof. intros H ->. discriminate. Qed.
Section Built.
  Context {A : Type}.
  Variable nm : A -> str.
  Variable f : A -> dict val.
  Hypothesis Hd : forall a, NoDup (keys (f a)).
  Hypothesis Hk : forall a x, In x (keys (f a)) -> x = nm a \/ x = help_key (nm a).
  Lemma built_keys l x : In x (keys (flat_map f l)) -> exists a, In a l /\ (x = nm a \/ x = help_key (nm a)).
  Proof.
    unfold keys. induction l as [|a l IH]; cbn [flat_map]; [contradiction|]. rewrite map_app, in_app_iff. intros [H|H].
    - exists a. split; [now left|now apply Hk].
    - destruct (IH H) as (b & ? & ?). exists b. split; [now right|auto].
  Qed.
  Lemma lookup_app {B} k (a b : dict B) : lookup k (a ++ b) = match lookup k a with Some v => Some v | None => lookup k b end.
  Proof. induction a as [|[k1 v1] a IH]; cbn [app lookup]; auto. destruct (seqb k k1); auto. Qed.
  Lemma built_nodup l : NoDup (map nm l) -> (forall a, In a l -> startswith ($"_") (nm a) = false) -> NoDup (keys (flat_map f l)).
  Proof.
    induction l as [|a l IH]; cbn [flat_map map]; intros N H; [constructor|]. inversion N as [|? ? Na Nl]; subst. unfold keys. rewrite map_app.
    assert (G : NoDup (map fst (flat_map f l))) by (apply IH; auto; intros; apply H; cbn; auto). specialize (Hd a). unfold keys in Hd.
    assert (D : forall x, In x (map fst (f a)) -> ~ In x (map fst (flat_map f l))).
    { intros x Hx Hx2. apply Hk in Hx. apply built_keys in Hx2 as (b & Hb & Hx2).
      assert (nm a <> nm b) by (intros E; apply Na; rewrite E; now apply in_map).
      pose proof (H a (or_introl eq_refl)) as Sa. pose proof (H b (or_intror Hb)) as Sb.
      destruct Hx as [-> | ->], Hx2 as [E|E]; [auto|now apply startswith_help in E|symmetry in E; now apply startswith_help in E|].
      unfold help_key in E. apply app_inv_head in E. auto. }
    clear -G Hd D. induction (map fst (f a)) as [|x l1 IH]; cbn [app]; auto. inversion Hd; subst. constructor; [|apply IH; auto; intros; apply D; cbn; auto].
    rewrite in_app_iff. intros [X|X]; auto. revert X. apply D. cbn; auto.
  Qed.
  Lemma built_lookup l a : NoDup (map nm l) -> (forall a, In a l -> startswith ($"_") (nm a) = false) -> In a l ->
    lookup (nm a) (flat_map f l) = lookup (nm a) (f a).
  Proof.
    induction l as [|b l IH]; [contradiction|]. intros N H [<-|Hi]; cbn [flat_map map] in *; rewrite lookup_app; inversion N as [|? ? Na Nl]; subst.
    - destruct (lookup (nm b) (f b)) eqn:E; auto. apply lookup_none. intros X. apply built_keys in X as (c & Hc & [X|X]).
      + apply Na. rewrite X. now apply in_map.
      + revert X. apply startswith_help. apply H. now left.
    - assert (lookup (nm a) (f b) = None) as ->; [|apply IH; auto; intros; apply H; now right].
      apply lookup_none. intros X. apply Hk in X as [X|X]; [apply Na; rewrite <- X; now apply in_map|]. revert X. apply startswith_help. apply H. now right.
  Qed.
  Lemma built_none l k : startswith ($"_") k = false -> ~ In k (map nm l) -> lookup k (flat_map f l) = None.
  Proof.
    intros Hs Hn. apply lookup_none. intros X. apply built_keys in X as (a & Ha & [X|X]); [apply Hn; rewrite X; now apply in_map|]. revert X. now apply startswith_help.
  Qed.
End Built.

Lemma help_other n : n <> help_key n.
Proof.
  intros E. assert (G : List.length n = List.length (help_key n)) by now rewrite <- E.
  unfold help_key in G. rewrite app_length in G. change (List.length ($"_help_")) with 6%nat in G. lia.
Qed.
Lemma entry_nodup wh wd c f : NoDup (keys (field_entry wh wd c f)).
Proof.
  unfold field_entry. destruct (wd || _); [|constructor]. destruct (if wh then fhelp f else None); cbn [app keys map fst]; repeat constructor; cbn [In]; try tauto.
  intros [E|[]]. now apply help_other in E.
Qed.
Lemma entry_keys wh wd c f x : In x (keys (field_entry wh wd c f)) -> x = f \/ x = help_key f.
Proof. unfold field_entry. destruct (wd || _); [|contradiction]. destruct (if wh then fhelp f else None); cbn; intuition. Qed.
Lemma section_nodup wh wd c s : NoDup (keys (section_entry wh wd c s)).
Proof.
  unfold section_entry. destruct s as [n fs]. destruct (wd || _); [|constructor]. destruct wh; cbn [app keys map fst]; repeat constructor; cbn [In]; try tauto.
  intros [E|[]]. now apply help_other in E.
Qed.
Lemma section_keys wh wd c s x : In x (keys (section_entry wh wd c s)) -> x = fst s \/ x = help_key (fst s).
Proof. unfold section_entry. destruct s as [n fs]. destruct (wd || _); [|contradiction]. destruct wh; cbn; intuition. Qed.
Lemma no_underscore : (forall s, In s registry -> startswith ($"_") (fst s) = false) /\ (forall k, In k all_fields -> startswith ($"_") k = false).
Proof.
  split.
  - assert (forallb (fun s : str * list str => negb (startswith ($"_") (fst s))) registry = true) as G by reflexivity.
    rewrite forallb_forall in G. intros s Hs. specialize (G _ Hs). now apply negb_true_iff in G.
  - assert (forallb (fun k => negb (startswith ($"_") k)) all_fields = true) as G by reflexivity.
    rewrite forallb_forall in G. intros s Hs. specialize (G _ Hs). now apply negb_true_iff in G.
Qed.

Lemma lookup_entry wh wd c f : lookup f (field_entry wh wd c f) = if wd || overridden c f then Some (value c f) else None.
Proof.
  unfold field_entry. destruct (wd || _); auto. assert (E : seqb f (help_key f) = false).
  { destruct (seqb f (help_key f)) eqn:E; auto. apply seqb_eq in E. now apply help_other in E. }
  destruct (if wh then fhelp f else None); cbn [app lookup]; rewrite ?E, seqb_refl; reflexivity.
Qed.
Lemma lookup_section wh wd c n fs : lookup n (section_entry wh wd c (n, fs)) =
  if wd || existsb (overridden c) fs then Some (VMap (flat_map (field_entry wh wd c) fs)) else None.
Proof.
  unfold section_entry. destruct (wd || _); auto. assert (E : seqb n (help_key n) = false).
  { destruct (seqb n (help_key n)) eqn:E; auto. apply seqb_eq in E. now apply help_other in E. }
  destruct wh; cbn [app lookup]; rewrite ?E, seqb_refl; reflexivity.
Qed.
Lemma section_fields n fs : In (n, fs) registry -> NoDup fs /\ (forall k, In k fs -> startswith ($"_") k = false) /\ (forall k, In k fs -> In k all_fields).
Proof.
  intros H. assert (Hin : forall k, In k fs -> In k all_fields) by (intros k Hk; apply in_flat_map; exists (n, fs); auto).
  split; [|split; auto; intros; apply no_underscore; auto]. apply in_split in H as (l1 & l2 & E). pose proof fields_nodup as N. unfold all_fields in N. rewrite E, flat_map_app in N. cbn [flat_map snd] in N.
  apply nodup_app_r in N. now apply nodup_app_l in N.
Qed.
Lemma map_id_nodup (l : list str) : NoDup l -> NoDup (map (fun k => k) l).
Proof. now rewrite map_id. Qed.

Lemma dump_flat wh wd c : flat (as_dict wh wd c) /\ sections_ok (as_dict wh wd c).
Proof.
  assert (B : forall n fs, In (n, fs) registry -> lookup n (as_dict wh wd c) = lookup n (section_entry wh wd c (n, fs))).
  { intros n fs Hi. apply (built_lookup fst (section_entry wh wd c)) with (a := (n, fs)); auto using names_nodup. apply section_keys. apply no_underscore. }
  assert (C : forall n v, lookup n (as_dict wh wd c) = Some v -> startswith ($"_") n = true \/ exists fs, In (n, fs) registry /\ v = VMap (flat_map (field_entry wh wd c) fs)).
  { intros n v H. destruct (startswith ($"_") n) eqn:Es; auto. right. destruct (in_dec (list_eq_dec N.eq_dec) n (map fst registry)) as [Hi|Hi].
    - apply in_map_iff in Hi as ([n2 fs] & E & Hi). cbn [fst] in E. subst n2. exists fs. split; auto. rewrite (B _ _ Hi), lookup_section in H. destruct (wd || _); [|discriminate]. now injection H as <-.
    - unfold as_dict in H. rewrite (built_none fst) in H; auto; [discriminate|apply section_keys]. }
  split; [split|].
  - apply (built_nodup fst); auto using names_nodup, section_nodup. apply section_keys. apply no_underscore.
  - intros n m Hn H. destruct (C _ _ H) as [Hs|(fs & Hi & E)].
    + apply in_map_iff in Hn as (s & <- & Hi). rewrite (proj1 no_underscore _ Hi) in Hs. discriminate.
    + injection E as ->. destruct (section_fields _ _ Hi) as (N1 & N2 & _). apply (built_nodup (fun k => k)); auto using map_id_nodup, entry_nodup. apply entry_keys.
  - intros n Hn x H. destruct (C _ _ H) as [Hs|(fs & Hi & E)]; [|discriminate]. apply in_map_iff in Hn as (s & <- & Hi). rewrite (proj1 no_underscore _ Hi) in Hs. discriminate.
Qed.
(** reading the dump gives the values dumped *)
Lemma dump_value wh wd c c2 : new_configuration (as_dict wh wd c) = Ok c2 -> forall k, In k all_fields -> value c2 k = value c k.
Proof.
  intros H k Hk. destruct (dump_flat wh wd c) as [Hf _]. pose proof (new_spec _ Hf) as G. rewrite H in G. pose proof Hk as Hk'. apply smem_In in Hk'. unfold value at 1. rewrite (G _ Hk'). clear G H.
  unfold option_value. assert (Hn : lookup k (as_dict wh wd c) = None).
  { apply (built_none fst); [apply section_keys|now apply no_underscore|]. intros X. apply field_no_section in Hk'. apply smem_In in X. unfold str, chr in *. rewrite X in Hk'. discriminate. }
  rewrite Hn. pose proof (find_section k) as F. destruct (find _ registry) as [[n fs]|] eqn:E.
  2:{ exfalso. apply in_flat_map in Hk as ([n fs] & Hi & Hk). eapply find_none in E; [|exact Hi]. cbn [snd] in *. apply smem_In in Hk. unfold str, chr in *. rewrite Hk in E. discriminate. }
  rewrite F. apply find_some in E as [Hi Hs]. cbn [snd] in Hs. destruct (section_fields _ _ Hi) as (N1 & N2 & _). apply smem_In in Hs.
  assert (B : lookup n (as_dict wh wd c) = lookup n (section_entry wh wd c (n, fs))).
  { apply (built_lookup fst (section_entry wh wd c)) with (a := (n, fs)); auto using names_nodup. apply section_keys. apply no_underscore. }
  rewrite B, lookup_section. clear B. unfold value. destruct (wd || existsb (overridden c) fs) eqn:E.
  - assert (B : lookup k (flat_map (field_entry wh wd c) fs) = lookup k (field_entry wh wd c k)).
    { apply (built_lookup (fun k => k) (field_entry wh wd c)) with (a := k); auto using map_id_nodup. apply entry_keys. }
    rewrite B, lookup_entry. unfold overridden, value. destruct (lookup k c); destruct wd; reflexivity.
  - apply orb_false_elim in E as [_ E]. destruct (lookup k c) eqn:El; auto. exfalso. assert (X : existsb (overridden c) fs = true); [|congruence].
    apply existsb_exists. exists k. split; auto. unfold overridden. now rewrite El.
Qed.
Lemma merge_new inc : forall out, NoDup (keys inc) -> (forall k, In k (keys inc) -> lookup k out = None) -> map_merge out inc = out ++ inc.
Proof.
  assert (D : forall k (v : val) d, lookup k d = None -> dset k v d = d ++ [(k, v)]).
  { intros k v d. induction d as [|[k1 v1] d IH]; cbn [dset app lookup]; auto. destruct (seqb k k1); [discriminate|]. intros H. now rewrite IH. }
  induction inc as [|[k v] inc IH]; intros out N H; [now rewrite app_nil_r|]. cbn [keys map fst] in N, H. inversion N as [|? ? Na Nl]; subst.
  assert (E : lookup k out = None) by (apply H; now left).
  assert (St : map_merge out ((k, v) :: inc) = map_merge (dset k v out) inc) by (unfold map_merge; cbn [merge_val]; now rewrite E). rewrite St, IH; auto.
  - rewrite D by auto. now rewrite <- app_assoc.
  - intros k2 Hk2. rewrite lookup_dset. destruct (seqb k2 k) eqn:E2; [apply seqb_eq in E2; subst; contradiction|]. apply H. now right.
Qed.

(** ** C78, C79 *)
(** what became of the per-command overrides *)
Definition pruned (c : config) : val :=
  match lookup ($"per_command") c with Some (VMap m) => VMap (filter not_canonical m) | _ => dflt ($"per_command") end.
(** [args0] gives no options, for instance only --check or -i *)
Definition no_options (args0 : dict (option val)) : Prop :=
  namespace args0 /\ forall k v, In k all_fields -> lookup k args0 <> Some (Some v).

Theorem C78_dump_runs_alike wh wd d args out : flat d -> namespace args ->
  dump_config wh wd d args = Ok out ->
  forall load home resolve fuel p args0,
    load (home p) = Ok (nil, out) -> no_options args0 ->
  exists c1 d2 c2,
    nth_error (run_configs [d] (get_argdict args)) 0 = Some (Ok c1)
    /\ get_configdict load home resolve (S fuel) [p] nil = Ok d2
    /\ nth_error (run_configs [d2] (get_argdict args0)) 0 = Some (Ok c2)
    /\ (forall k, In k all_fields -> k <> $"per_command" -> value c2 k = value c1 k)
    /\ value c2 ($"per_command") = pruned c1.
Proof.
  intros Hf Ns Hd load home resolve fuel p args0 Hl [N0 H0]. pose proof (proj1 Ns) as Na. unfold dump_config in Hd.
  apply bindr_ok in Hd as (ca & Ha & Hd). apply bindr_ok in Hd as (cb & Hb & Hd). injection Hd as <-.
  assert (Hfa : flat (dupdate d (get_argdict args))).
  { split; [apply nodup_dupdate, Hf|]. intros n m Hn. rewrite dupdate_lookup by now apply argdict_nodup. rewrite (argdict_section args n Ns Hn). now apply Hf. }
  pose proof (new_spec _ Hfa) as Sa. rewrite Ha in Sa.
  assert (Hs : sections_ok d).
  { intros n Hn x E. assert (E2 : lookup n (dupdate d (get_argdict args)) = Some (VAtom x)).
    { rewrite dupdate_lookup by now apply argdict_nodup. rewrite (argdict_section args n Ns Hn). exact E. }
    unfold new_configuration in Ha. apply bindr_ok in Ha as (y & Ha & _). clear -Ha Hn E2 Hfa.
    assert (G : forall reg c kw y, NoDup (map fst reg) -> NoDup (keys kw) -> In n (map fst reg) -> lookup n kw = Some (VAtom x) -> consume_subtrees reg c kw <> Ok y).
    { induction reg as [|[n2 fs] reg IH]; intros c kw y0 N1 N2 Hi Hl; [contradiction|]. cbn [consume_subtrees map fst In] in *. inversion N1; subst.
      destruct (lookup n2 kw) as [[z|z]|] eqn:E; [discriminate| |].
      - apply IH; auto using nodup_ddel; [destruct Hi as [->|Hi]; [congruence|auto]|]. rewrite lookup_ddel by auto. destruct (seqb n n2) eqn:En; auto. apply seqb_eq in En. congruence.
      - apply IH; auto. destruct Hi as [->|Hi]; [congruence|auto]. }
    eapply G; eauto using names_nodup. apply Hfa. }
  destruct (new_ok d Hf Hs) as [cd Hcd]. destruct (C17_cmdline_first_file d nil args Ns cd Hcd) as (c1 & R1 & V1).
  pose proof (new_spec _ Hf) as Sd. rewrite Hcd in Sd.
  (* the configuration dumped is the one of the run *)
  assert (V : forall k, In k all_fields -> lookup k ca = lookup k c1).
  { intros k Hk. rewrite (V1 _ Hk). pose proof Hk as Hk'. apply smem_In in Hk'. rewrite (Sa _ Hk'), (Sd _ Hk'). unfold option_value.
    rewrite !dupdate_lookup by now apply argdict_nodup. rewrite (proj1 (argdict_lookup args k Na)), (field_is_option _ Hk').
    destruct (lookup k args) as [[v|]|]; auto; destruct (lookup k d); auto; pose proof (find_section k) as F;
      (destruct (find _ registry) as [[n fs]|] eqn:E; rewrite F; auto; apply find_some in E as [Hi _]; apply (in_map fst) in Hi;
       rewrite dupdate_lookup by (now apply argdict_nodup); rewrite (argdict_section args n Ns Hi); reflexivity). }
  destruct (dump_flat wh wd cb) as [Of Os]. destruct (new_ok _ Of Os) as [cc Hcc].
  destruct (C17_cmdline_first_file _ nil args0 N0 cc Hcc) as (c2 & R2 & V2).
  exists c1, (as_dict wh wd cb), c2. split; [exact R1|]. split.
  { cbn [get_configdict]. rewrite Hl. cbn [bindr app map]. rewrite merge_new; [destruct fuel; reflexivity|apply Of|reflexivity]. }
  split; [exact R2|].
  assert (V3 : forall k, In k all_fields -> value c2 k = value cb k).
  { intros k Hk. rewrite <- (dump_value _ _ _ _ Hcc _ Hk). unfold value at 1. rewrite (V2 _ Hk). specialize (H0 k). destruct (lookup k args0) as [[v|]|]; try reflexivity. now destruct (H0 v Hk). }
  assert (Hp : In ($"per_command") all_fields) by (apply smem_In; reflexivity).
  split.
  - intros k Hk Hne. rewrite (V3 _ Hk). unfold pop_defaults in Hb. unfold value. rewrite <- (V _ Hk). destruct (lookup ($"per_command") ca) as [[]|]; [discriminate| |now injection Hb as <-].
    injection Hb as <-. rewrite lookup_dset. destruct (seqb k ($"per_command")) eqn:E; auto. apply seqb_eq in E. contradiction.
  - rewrite (V3 _ Hp). unfold pruned, value. rewrite <- (V _ Hp). unfold pop_defaults in Hb. destruct (lookup ($"per_command") ca) as [[]|] eqn:E; [discriminate| |].
    + injection Hb as <-. now rewrite lookup_dset, seqb_refl.
    + injection Hb as <-. now rewrite E.
Qed.
End Dump.

(** A configuration with a section, a root option, a command-line option and overrides
    of two commands; the dump with defaults and help. *)
Definition ex_dict : dict val :=
  [($"format", VMap [($"line_width", VAtom 70); ($"tab_size", VAtom 4)]); ($"autosort", VAtom 1);
   ($"misc", VMap [($"per_command", VMap [($"foo", VMap [($"command_case", VAtom 7)]); ($"fetchcontent_declare", VMap [($"command_case", VAtom 7)])])])].
Definition ex_args : dict (option val) := [($"line_width", Some (VAtom 100)); ($"tab_size", None); ($"dump_config", Some (VAtom 1))].
Definition ex_dump : dict val :=
  match dump_config (fun _ => VAtom 0) (fun _ => Some (VAtom 9)) (fun _ => VAtom 8) true true ex_dict ex_args with Ok o => o | _ => nil end.
Example C78_ex : flat ex_dict /\ namespace ex_args
  /\ dump_config (fun _ => VAtom 0) (fun _ => Some (VAtom 9)) (fun _ => VAtom 8) true true ex_dict ex_args = Ok ex_dump
  /\ get [$"format"; $"line_width"] (VMap ex_dump) = Some (VAtom 100)
  /\ get [$"format"; $"tab_size"] (VMap ex_dump) = Some (VAtom 4)
  /\ get [$"format"; $"autosort"] (VMap ex_dump) = Some (VAtom 1)
  /\ get [$"format"; $"_help_autosort"] (VMap ex_dump) = Some (VAtom 9)
  /\ get [$"misc"; $"per_command"; $"foo"; $"command_case"] (VMap ex_dump) = Some (VAtom 7)
  /\ no_options [($"check", Some (VAtom 1))].
Proof.
  split.
  { split; [repeat constructor; cbn; intuition discriminate|]. intros n m Hn H. apply lookup_in in H. cbn [ex_dict In] in H. destruct H as [H|[H|[H|[]]]]; try discriminate H;
    apply (f_equal snd) in H; cbn [snd] in H; injection H as <-; repeat constructor; cbn; intuition discriminate. }
  split; [apply namespace_i; [repeat constructor; cbn; intuition discriminate|reflexivity]|]. do 6 (split; [reflexivity|]). split.
  - apply namespace_i; [repeat constructor; cbn; tauto|reflexivity].
  - intros k v Hk. cbn [lookup]. destruct (seqb k ($"check")) eqn:E; [|discriminate]. apply seqb_eq in E. subst k. exfalso. apply smem_In in Hk. discriminate.
Qed.

(** The settings of a command without default configuration survive the dump ... *)
Lemma user_value_filter pc cmd key : smem (lower cmd) canonical_names = false ->
  user_value (filter not_canonical pc) cmd key = user_value pc cmd key.
Proof.
  intros Hc. induction pc as [|[n v] pc IH]; [reflexivity|]. cbn [filter user_value]. unfold not_canonical at 1. cbn [fst]. destruct (smem n canonical_names) eqn:E; cbn [negb].
  - rewrite IH. destruct v; auto. destruct (user_value pc cmd key); auto. destruct (seqb (lower n) (lower cmd)) eqn:E2; auto. exfalso. apply seqb_eq in E2.
    assert (lower n = n) as G; [|rewrite G in E2; subst n; congruence].
    assert (forallb (fun n => seqb (lower n) n) canonical_names = true) as X by reflexivity. rewrite forallb_forall in X. apply smem_In in E. apply seqb_eq. auto.
  - cbn [user_value]. destruct v; auto. now rewrite IH.
Qed.
Theorem C79_dump_per_command_partial pc defaults cmd key global :
  (forall n d, In (n, VMap d) pc -> NoDup (keys d)) -> ~ In (lower cmd) canonical_names ->
  resolve_for_command (update_per_command (filter not_canonical pc) defaults) cmd key global
  = resolve_for_command (update_per_command pc defaults) cmd key global.
Proof.
  intros H Hc. assert (Hc2 : smem (lower cmd) canonical_names = false) by (destruct (smem _ _) eqn:E; auto; now apply smem_In in E).
  rewrite !C18_per_command; auto.
  - now rewrite !user_value_filter.
  - intros n d Hi. apply filter_In in Hi as [Hi _]. eauto.
Qed.
(** ... those of the nine commands with a canonical spelling do not: the override that the
    user wrote for FetchContent_Declare is missing from a run with the dumped file. *)
Theorem C79_dump_per_command_refuted : exists wh wd d args out load p c1 d2 c2 pc1 pc2 cmd key,
  flat d /\ namespace args
  /\ dump_config (fun _ => VMap nil) (fun _ => None) (fun _ => VAtom 0) wh wd d args = Ok out /\ load p = Ok (nil, out)
  /\ nth_error (run_configs [d] (get_argdict args)) 0 = Some (Ok c1)
  /\ get_configdict load (fun p => p) (fun _ q => q) 1 [p] nil = Ok d2
  /\ nth_error (run_configs [d2] nil) 0 = Some (Ok c2)
  /\ value (fun _ => VMap nil) c1 ($"per_command") = VMap pc1 /\ value (fun _ => VMap nil) c2 ($"per_command") = VMap pc2
  /\ resolve_for_command (update_per_command pc1 nil) cmd key (Some (VAtom 0)) = Some (VAtom 7)
  /\ resolve_for_command (update_per_command pc2 nil) cmd key (Some (VAtom 0)) = Some (VAtom 0).
Proof.
  set (out := match dump_config (fun _ => VMap nil) (fun _ => None) (fun _ => VAtom 0) false true ex_dict ex_args with Ok o => o | _ => nil end).
  exists false, true, ex_dict, ex_args, out, (fun _ => Ok (nil, out)), ($"x").
  eexists _, _, _, _, _, ($"FetchContent_Declare"), ($"format.command_case").
  split; [apply C78_ex|]. split; [apply C78_ex|]. repeat split; vm_compute; reflexivity.
Qed.
