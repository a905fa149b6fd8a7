(** * PropConfig: properties C14-C18 of configuration loading *)
From Verif Require Import Base Config.

(** ** Dictionary lemmas *)
Lemma lookup_dset {A} k k' (v : A) d :
  lookup k (dset k' v d) = if seqb k k' then Some v else lookup k d.
Proof.
  induction d as [|[k2 v2] d IH]; simpl.
  - reflexivity.
  - destruct (seqb k' k2) eqn:E; simpl.
    + apply seqb_eq in E. subst. destruct (seqb k k2); reflexivity.
    + rewrite IH. destruct (seqb k k2) eqn:E2; auto.
      apply seqb_eq in E2. subst. rewrite seqb_sym, E. reflexivity.
Qed.
Lemma lookup_none {A} k (d : dict A) : lookup k d = None <-> ~ In k (keys d).
Proof.
  induction d as [|[k2 v2] d IH]; simpl.
  - tauto.
  - destruct (seqb k k2) eqn:E.
    + apply seqb_eq in E. subst. split; [discriminate|]. intros H. exfalso. auto.
    + apply seqb_neq in E. rewrite IH. split; [|tauto]. intros H [X|X]; [congruence|auto].
Qed.
Lemma lookup_in {A} k v (d : dict A) : lookup k d = Some v -> In (k, v) d.
Proof.
  induction d as [|[k2 v2] d IH]; simpl; [discriminate|]. destruct (seqb k k2) eqn:E.
  - intros H. injection H as ->. apply seqb_eq in E. subst. auto.
  - auto.
Qed.
Lemma lookup_ddel {A} k k' (d : dict A) : NoDup (keys d) ->
  lookup k (ddel k' d) = if seqb k k' then None else lookup k d.
Proof.
  induction d as [|[k2 v2] d IH]; simpl; intros H.
  - now destruct (seqb k k').
  - inversion H as [|? ? H1 H2]; subst. destruct (seqb k' k2) eqn:E.
    + apply seqb_eq in E. subst. destruct (seqb k k2) eqn:E2; auto.
      apply seqb_eq in E2. subst. now apply lookup_none.
    + simpl. destruct (seqb k k2) eqn:E2.
      * apply seqb_eq in E2. subst. rewrite seqb_sym, E. reflexivity.
      * auto.
Qed.
Lemma keys_ddel {A} k (d : dict A) x : In x (keys (ddel k d)) -> In x (keys d).
Proof.
  induction d as [|[k2 v2] d IH]; simpl; auto. destruct (seqb k k2); simpl; tauto.
Qed.
Lemma nodup_ddel {A} k (d : dict A) : NoDup (keys d) -> NoDup (keys (ddel k d)).
Proof.
  induction d as [|[k2 v2] d IH]; simpl; auto. intros H. inversion H as [|? ? H1 H2]; subst.
  destruct (seqb k k2); auto. simpl. constructor; auto. intros X. apply keys_ddel in X. auto.
Qed.

(** ** C14 *)
(** Well-formed mappings: keys are unique at every level. *)
Inductive wf : val -> Prop :=
| wf_atom n : wf (VAtom n)
| wf_map d : NoDup (keys d) -> Forall (fun kv => wf (snd kv)) d -> wf (VMap d).

(** Value at a path of keys. *)
Fixpoint get (p : list str) (v : val) : option val :=
  match p with
  | nil => Some v
  | k :: p' => match v with
               | VMap d => match lookup k d with Some v' => get p' v' | None => None end
               | VAtom _ => None
               end
  end.

Definition merged_at (o i : option val) : option val :=
  match o, i with
  | o, None => o
  | None, Some v => Some v
  | Some (VMap m), Some (VMap n) => Some (VMap (map_merge m n))
  | Some (VMap m), Some (VAtom _) => Some (VMap m)
  | Some (VAtom _), Some v => Some v
  end.

Theorem C14_merge_one_level inc : forall out k, NoDup (keys inc) ->
  lookup k (map_merge out inc) = merged_at (lookup k out) (lookup k inc).
Proof.
  induction inc as [|[k1 v1] inc IH]; intros out k ND.
  - change (map_merge out nil) with out. destruct (lookup k out) as [[]|]; reflexivity.
  - inversion ND as [|? ? N1 N2]; subst.
    change (map_merge out ((k1, v1) :: inc)) with
      (map_merge (match lookup k1 out with
                    | None => dset k1 v1 out
                    | Some (VMap m) =>
                        match v1 with
                        | VMap _ => dset k1 (VMap (merge_val v1 m)) out
                        | VAtom _ => out
                        end
                    | Some (VAtom _) => dset k1 v1 out
                    end) inc).
    rewrite IH by auto. cbn [lookup]. destruct (seqb k k1) eqn:E.
    + apply seqb_eq in E. subst k1. apply lookup_none in N1. rewrite N1.
      destruct (lookup k out) as [[n|m]|] eqn:EO.
      * rewrite lookup_dset, seqb_refl. destruct v1; reflexivity.
      * destruct v1 as [n|n]; [rewrite EO; reflexivity|]. rewrite lookup_dset, seqb_refl. reflexivity.
      * rewrite lookup_dset, seqb_refl. destruct v1; reflexivity.
    + assert (forall v, lookup k (dset k1 v out) = lookup k out) as HD.
      { intros v. rewrite lookup_dset, E. reflexivity. }
      destruct (lookup k1 out) as [[n|m]|]; [|destruct v1|]; rewrite ?HD; reflexivity.
Qed.

Lemma wf_lookup k d v : wf (VMap d) -> lookup k d = Some v -> wf v.
Proof.
  intros H E. inversion H as [|? _ F]; subst. rewrite Forall_forall in F.
  apply lookup_in in E. apply (F _ E).
Qed.
Lemma wf_nodup d : wf (VMap d) -> NoDup (keys d).
Proof. intros H. inversion H; auto. Qed.

(** A non-mapping value of the later file wins, unless the earlier one has a whole
    mapping there. *)
Theorem C14_later_wins p : forall out inc n, wf (VMap inc) ->
  get p (VMap inc) = Some (VAtom n) ->
  (forall m, get p (VMap out) <> Some (VMap m)) ->
  get p (VMap (map_merge out inc)) = Some (VAtom n).
Proof.
  induction p as [|k p IH]; intros out inc n Hwf Hi Ho; [discriminate|].
  cbn [get] in *. rewrite C14_merge_one_level by (now apply wf_nodup).
  destruct (lookup k inc) as [v|] eqn:EI; [|discriminate].
  destruct (lookup k out) as [[x|m]|] eqn:EO; cbn [merged_at]; auto.
  destruct v as [y|d]; cbn [merged_at].
  - destruct p; [|discriminate]. exfalso. apply (Ho m). reflexivity.
  - apply IH; auto. eapply wf_lookup; eauto.
Qed.

(** A non-mapping value that the later file does not mention is kept. *)
Theorem C14_unmentioned_kept p : forall out inc n, wf (VMap inc) ->
  get p (VMap out) = Some (VAtom n) -> get p (VMap inc) = None ->
  get p (VMap (map_merge out inc)) = Some (VAtom n).
Proof.
  induction p as [|k p IH]; intros out inc n Hwf Ho Hi; [discriminate|].
  cbn [get] in *. rewrite C14_merge_one_level by (now apply wf_nodup).
  destruct (lookup k out) as [v|] eqn:EO; [|discriminate].
  destruct (lookup k inc) as [w|] eqn:EI; cbn [merged_at].
  - destruct v as [x|m].
    + destruct p; discriminate.
    + destruct w as [y|d]; auto. apply IH; auto. eapply wf_lookup; eauto.
  - destruct v; auto.
Qed.

(** No key path of either file is lost. *)
Theorem C14_keys_kept p : forall out inc, wf (VMap inc) ->
  get p (VMap out) <> None \/ get p (VMap inc) <> None ->
  get p (VMap (map_merge out inc)) <> None.
Proof.
  induction p as [|k p IH]; intros out inc Hwf H; [discriminate|].
  cbn [get] in *. rewrite C14_merge_one_level by (now apply wf_nodup).
  destruct (lookup k out) as [[x|m]|] eqn:EO; destruct (lookup k inc) as [[y|d]|] eqn:EI;
    cbn [merged_at] in *; try tauto; try (destruct p; cbn [get] in *; [discriminate|tauto]).
  apply IH; auto. eapply wf_lookup; eauto.
Qed.

Example C14_ex :
  let a := [($"format", VMap [($"line_width", VAtom 80); ($"tab_size", VAtom 2)]); ($"x", VAtom 1)] in
  let b := [($"format", VMap [($"line_width", VAtom 100)]); ($"x", VAtom 3)] in
  map_merge a b = [($"format", VMap [($"line_width", VAtom 100); ($"tab_size", VAtom 2)]); ($"x", VAtom 3)]
  /\ wf (VMap b).
Proof.
  split; [reflexivity|]. repeat (constructor; simpl; try (intuition discriminate)).
Qed.

(** The full claim 'the later file always wins' is false: a scalar cannot replace a
    mapping. *)
Theorem C14_scalar_over_mapping_refuted :
  exists out inc k n, wf (VMap out) /\ wf (VMap inc) /\ lookup k inc = Some (VAtom n) /\
    lookup k (map_merge out inc) <> Some (VAtom n).
Proof.
  exists [($"k", VMap nil)], [($"k", VAtom 1)], ($"k"), 1. repeat split; try discriminate;
  repeat (constructor; simpl; try tauto).
Qed.

(** ** C15 *)
(** Breadth-first levels of the include graph. *)
Definition next_level (load : str -> res (list str * dict val)) home resolve (ps : list str) : list str :=
  flat_map (fun p => match load (home p) with Ok (incs, _) => map (resolve (home p)) incs | _ => nil end) ps.
Fixpoint levels (load : str -> res (list str * dict val)) home resolve (n : nat) (ps : list str) : list str :=
  match n with
  | O => nil
  | S n' => ps ++ levels load home resolve n' (next_level load home resolve ps)
  end.
Definition file_dict (load : str -> res (list str * dict val)) (home : str -> str) (p : str) : dict val :=
  match load (home p) with Ok (_, d) => d | _ => nil end.
Definition loads (load : str -> res (list str * dict val)) (home : str -> str) (p : str) : Prop :=
  exists x, load (home p) = Ok x.

Section Includes.
  Variables (load : str -> res (list str * dict val)) (home : str -> str) (resolve : str -> str -> str).
  Let next := next_level load home resolve.
  Let gcd := get_configdict load home resolve.
  Let merge_files acc ps := fold_left (fun a p => map_merge a (file_dict load home p)) ps acc.

  (* processing a whole level appends the next one *)
  Lemma gcd_level ps : forall more acc fuel, Forall (loads load home) ps ->
    gcd (length ps + fuel) (ps ++ more) acc = gcd fuel (more ++ next ps) (merge_files acc ps).
  Proof.
    induction ps as [|p ps IH]; intros more acc fuel HF.
    - simpl. now rewrite app_nil_r.
    - inversion HF as [|? ? [[incs d] Hp] HF2]; subst. cbn [length Nat.add app].
      unfold gcd at 1. cbn [get_configdict]. rewrite Hp. cbn [bindr].
      rewrite <- app_assoc. fold gcd. rewrite IH by auto. unfold next, next_level, merge_files.
      cbn [flat_map fold_left]. unfold file_dict at 3. rewrite Hp. now rewrite <- app_assoc.
  Qed.

  Lemma gcd_levels n : forall ps acc fuel, Forall (loads load home) (levels load home resolve n ps) ->
    gcd (length (levels load home resolve n ps) + fuel) ps acc =
    gcd fuel (Nat.iter n next ps) (merge_files acc (levels load home resolve n ps)).
  Proof.
    induction n as [|n IH]; intros ps acc fuel HF; [reflexivity|].
    cbn [levels] in *. apply Forall_app in HF as [F1 F2].
    rewrite app_length, <- Nat.add_assoc.
    rewrite <- (app_nil_r ps) at 3. rewrite gcd_level by auto. cbn [app]. rewrite IH by auto.
    unfold merge_files. rewrite fold_left_app. f_equal.
    clear. revert ps. induction n as [|n IH]; intros ps; [reflexivity|].
    simpl. now rewrite IH.
  Qed.
End Includes.

(** With finitely many levels (no include cycle reachable) and readable files, the
    loader terminates and merges the files in breadth-first order. *)
Theorem C15_includes_bfs load home resolve n ps acc :
  Forall (loads load home) (levels load home resolve n ps) ->
  Nat.iter n (next_level load home resolve) ps = nil ->
  forall fuel, (length (levels load home resolve n ps) <= fuel)%nat ->
  get_configdict load home resolve fuel ps acc =
  Ok (fold_left (fun a p => map_merge a (file_dict load home p)) (levels load home resolve n ps) acc).
Proof.
  intros HF HN fuel Hle.
  replace fuel with (length (levels load home resolve n ps) + (fuel - length (levels load home resolve n ps)))%nat by lia.
  rewrite gcd_levels by auto. rewrite HN. destruct (fuel - _)%nat; reflexivity.
Qed.

(** Every file reachable through includes is visited. *)
Inductive reach (load : str -> res (list str * dict val)) (home : str -> str) (resolve : str -> str -> str) (roots : list str) : str -> Prop :=
| reach_root p : In p roots -> reach load home resolve roots p
| reach_inc p incs d q : reach load home resolve roots p -> load (home p) = Ok (incs, d) ->
    In q incs -> reach load home resolve roots (resolve (home p) q).

Lemma levels_reach load home resolve n ps q :
  Nat.iter n (next_level load home resolve) ps = nil ->
  reach load home resolve ps q -> In q (levels load home resolve n ps).
Proof.
  intros HN H. 
  assert (exists i, In q (Nat.iter i (next_level load home resolve) ps)) as [i Hi].
  { induction H as [p Hp|p incs d q Hp IH Hl Hq].
    - exists O. exact Hp.
    - destruct IH as [i Hi]; auto. exists (S i). simpl. apply in_flat_map. exists p. split; auto.
      rewrite Hl. now apply in_map. }
  assert (forall i, (n <= i)%nat -> Nat.iter i (next_level load home resolve) ps = nil) as HZ.
  { intros j Hj. induction Hj; auto. simpl. rewrite IHHj. reflexivity. }
  destruct (le_lt_dec n i) as [Hle|Hlt]; [rewrite (HZ i Hle) in Hi; contradiction|].
  assert (forall n i ps, (i < n)%nat -> In q (Nat.iter i (next_level load home resolve) ps) ->
    In q (levels load home resolve n ps)) as G.
  { clear. induction n as [|n IH]; intros i ps Hlt Hi; [lia|]. cbn [levels]. apply in_or_app.
    destruct i as [|i]; [left; exact Hi|]. right. apply (IH i); [lia|].
    clear IH. revert ps Hi. induction i as [|i IH]; intros ps Hi; [exact Hi|].
    assert (forall i ps, Nat.iter (S i) (next_level load home resolve) ps =
      Nat.iter i (next_level load home resolve) (next_level load home resolve ps)) as HS.
    { clear. induction i; intros ps; auto. simpl in *. now rewrite IHi. }
    rewrite HS in Hi. exact Hi. }
  eapply G; eauto.
Qed.
Theorem C15_includes_complete load home resolve n ps q :
  Nat.iter n (next_level load home resolve) ps = nil ->
  (reach load home resolve ps q <-> In q (levels load home resolve n ps)).
Proof.
  intros HN. split; [now apply levels_reach|]. clear HN.
  assert (forall n l, (forall p, In p l -> reach load home resolve ps p) ->
     In q (levels load home resolve n l) -> reach load home resolve ps q) as G.
  { clear n. induction n as [|n IH]; intros l Hl Hq; [contradiction|]. cbn [levels] in Hq.
    apply in_app_or in Hq as [Hq|Hq]; auto. apply (IH _) in Hq; auto.
    intros p Hp. apply in_flat_map in Hp as (p0 & Hp0 & Hp). destruct (load (home p0)) as [[incs d]| |] eqn:E; try contradiction.
    apply in_map_iff in Hp as (q0 & <- & Hq0). eapply reach_inc; eauto. }
  apply G. intros p Hp. now apply reach_root.
Qed.
Example C15_ex :
  let load p := if seqb p ($"a") then Ok ([$"b"; $"c"], [($"x", VAtom 1)])
                else if seqb p ($"b") then Ok ([$"d"], [($"x", VAtom 2)])
                else Ok (nil, [($"x", VAtom 3)]) in
  levels load id (fun _ q => q) 3 [$"a"] = [$"a"; $"b"; $"c"; $"d"] /\
  Nat.iter 3 (next_level load id (fun _ q => q)) [$"a"] = nil.
Proof. split; reflexivity. Qed.

(** A cyclic include never terminates. *)
Theorem C15_include_cycle_diverges_refuted :
  exists load home resolve p, (exists x, load p = Ok x) /\
    forall fuel acc, get_configdict load home resolve fuel [p] acc = OutOfFuel.
Proof.
  exists (fun _ => Ok ([$"a"], nil)), id, (fun _ q => q), ($"a"). split; [eauto|].
  induction fuel as [|f IH]; intros acc; [reflexivity|]. cbn. apply IH.
Qed.

(** ** C16 *)
(** [is_ancestor d x]: x is d or one of its parents *)
Definition is_ancestor (d x : list str) : Prop := exists pre, d = pre ++ x.

Theorem C16_nearest_config ex d :
  match find_config ex d with
  | Some (x, name) =>
      is_ancestor d x /\ ex x name = true /\
      (* names with a higher priority do not exist there *)
      (exists hi lo, config_names = hi ++ name :: lo /\ forall n, In n hi -> ex x n = false) /\
      (* no strictly nearer directory has any *)
      (forall y n, is_ancestor d y -> (length x < length y)%nat -> In n config_names -> ex y n = false)
  | None => forall y n, is_ancestor d y -> In n config_names -> ex y n = false
  end.
Proof.
  assert (forall f l, match find f l with
     | Some n => f n = true /\ exists hi lo, l = hi ++ n :: lo /\ forall m : str, In m hi -> f m = false
     | None => forall m, In m l -> f m = false end) as Hfind.
  { intros f l. induction l as [|a l IH]; simpl.
    - intros m [].
    - destruct (f a) eqn:E.
      + split; auto. exists nil, l. split; auto. intros m [].
      + destruct (find f l) as [n|].
        * destruct IH as [H1 (hi & lo & -> & H2)]. split; auto. exists (a :: hi), lo. split; auto.
          intros m [<-|Hm]; auto.
        * intros m [<-|Hm]; auto. }
  induction d as [|c d IH]; cbn [find_config].
  - specialize (Hfind (ex nil) config_names). destruct (find (ex nil) config_names) as [n|].
    + destruct Hfind as [H1 H2]. repeat split; auto.
      * exists nil. reflexivity.
      * intros y m [pre Hy] Hl. symmetry in Hy. apply app_eq_nil in Hy as [_ ->]. simpl in Hl. lia.
    + intros y n [pre Hy] Hn. symmetry in Hy. apply app_eq_nil in Hy as [_ ->]. auto.
  - specialize (Hfind (ex (c :: d)) config_names).
    destruct (find (ex (c :: d)) config_names) as [n|].
    + destruct Hfind as [H1 H2]. repeat split; auto.
      * exists nil. reflexivity.
      * intros y m [pre Hy] Hl. apply (f_equal (@length _)) in Hy. rewrite app_length in Hy. lia.
    + destruct (find_config ex d) as [[x name]|].
      * destruct IH as ([pre ->] & A & B & D). repeat split; auto.
        -- exists (c :: pre). reflexivity.
        -- intros y m [pre' Hy] Hl Hm. destruct pre' as [|z pre'].
           ++ simpl in Hy. subst. auto.
           ++ injection Hy as -> Hy. apply D; auto. exists pre'. auto.
      * intros y m [pre' Hy] Hm. destruct pre' as [|z pre'].
        -- simpl in Hy. subst. auto.
        -- injection Hy as -> Hy. apply IH; auto. exists pre'. auto.
Qed.
Example C16_ex :
  let ex d n := match d with [_; _] => seqb n ($"cmake-format.py") || seqb n ($".cmake-format.json")
                           | _ => seqb n ($".cmake-format") end in
  find_config ex [$"src"; $"proj"; $"home"] = Some ([$"src"; $"proj"; $"home"], $".cmake-format") /\
  find_config ex [$"proj"; $"home"] = Some ([$"proj"; $"home"], $".cmake-format.json").
Proof. split; reflexivity. Qed.

(** ** C17 *)
Definition all_fields : list str := flat_map snd registry.
Lemma fields_nodup : NoDup all_fields.
Proof.
  assert (forall l : list str, (fix nd l := match l with nil => true | a :: l' => negb (smem a l') && nd l' end) l = true -> NoDup l) as G.
  { induction l as [|a l IH]; intros H; constructor.
    - apply andb_prop in H as [H _]. intros X. apply smem_In in X. rewrite X in H. discriminate.
    - apply IH. now apply andb_prop in H as [_ H]. }
  apply G. reflexivity.
Qed.

Lemma consume_fields_spec fs : forall c kw, NoDup fs -> NoDup (keys kw) ->
  let (c', kw') := consume_fields fs c kw in
  (forall k, lookup k c' = if smem k fs then match lookup k kw with Some v => Some v | None => lookup k c end else lookup k c) /\
  (forall k, lookup k kw' = if smem k fs then None else lookup k kw) /\ NoDup (keys kw').
Proof.
  induction fs as [|f fs IH]; intros c kw ND NK.
  - simpl. auto.
  - inversion ND as [|? ? N1 N2]; subst. cbn [consume_fields].
    assert (forall k, smem k (f :: fs) = seqb k f || smem k fs) as HS by reflexivity.
    destruct (lookup f kw) as [v|] eqn:E.
    + specialize (IH (dset f v c) (ddel f kw) N2 (nodup_ddel f kw NK)).
      destruct (consume_fields fs (dset f v c) (ddel f kw)) as [c' kw']. destruct IH as (A & B & D).
      split; [|split]; auto; intros k; rewrite HS; [rewrite A|rewrite B]; rewrite ?lookup_dset, ?(lookup_ddel k f kw NK);
        destruct (seqb k f) eqn:Ek; cbn [orb]; auto.
      * apply seqb_eq in Ek. subst. rewrite E. destruct (smem f fs); reflexivity.
      * destruct (smem k fs); auto.
    + specialize (IH c kw N2 NK). destruct (consume_fields fs c kw) as [c' kw']. destruct IH as (A & B & D).
      split; [|split]; auto; intros k; rewrite HS; [rewrite A|rewrite B];
        destruct (seqb k f) eqn:Ek; cbn [orb]; auto; apply seqb_eq in Ek; subst; rewrite E; destruct (smem f fs); reflexivity.
Qed.

Lemma smem_app k a b : smem k (a ++ b) = smem k a || smem k b.
Proof. unfold smem. apply existsb_app. Qed.
Lemma nodup_app_l {A} (a b : list A) : NoDup (a ++ b) -> NoDup a.
Proof. induction a; simpl; intros H; constructor; inversion H; subst; auto. intros X. apply H2. apply in_or_app. auto. Qed.
Lemma nodup_app_r {A} (a b : list A) : NoDup (a ++ b) -> NoDup b.
Proof. induction a; simpl; auto. intros H. inversion H; auto. Qed.
Lemma nodup_app_disj {A} (a b : list A) x : NoDup (a ++ b) -> In x a -> ~ In x b.
Proof.
  induction a as [|y a IH]; simpl; [tauto|]. intros H [->|Hx] Hb; inversion H; subst; auto.
  - apply H2. apply in_or_app. auto.
  - eapply IH; eauto.
Qed.

Lemma shim_consume_spec reg : forall c kw, NoDup (flat_map snd reg) -> NoDup (keys kw) ->
  let (c', kw') := shim_consume reg c kw in
  (forall k, lookup k c' = if smem k (flat_map snd reg) then match lookup k kw with Some v => Some v | None => lookup k c end else lookup k c) /\
  (forall k, lookup k kw' = if smem k (flat_map snd reg) then None else lookup k kw) /\ NoDup (keys kw').
Proof.
  induction reg as [|[n fs] reg IH]; intros c kw ND NK.
  - simpl. auto.
  - cbn [flat_map snd] in *. cbn [shim_consume].
    pose proof (consume_fields_spec fs c kw (nodup_app_l _ _ ND) NK) as H.
    destruct (consume_fields fs c kw) as [c1 kw1]. destruct H as (A & B & D).
    specialize (IH c1 kw1 (nodup_app_r _ _ ND) D).
    destruct (shim_consume reg c1 kw1) as [c' kw']. destruct IH as (A' & B' & D').
    split; [|split]; auto; intros k; rewrite smem_app; [rewrite A', A, B|rewrite B', B];
      destruct (smem k fs) eqn:E1, (smem k (flat_map snd reg)) eqn:E2; cbn [orb]; auto.
Qed.

Lemma consume_subtrees_none reg c kw :
  (forall n, In n (map fst reg) -> lookup n kw = None) ->
  consume_subtrees reg c kw = Ok (c, kw).
Proof.
  induction reg as [|[n fs] reg IH]; intros H; [reflexivity|]. cbn [consume_subtrees].
  rewrite (H n (or_introl eq_refl)). apply IH. intros m Hm. apply H. now right.
Qed.

(** what the first call leaves of the shared dictionary, and the configuration *)
Lemma legacy_consume_args c kw : NoDup (keys kw) ->
  (forall n, In n (map fst registry) -> lookup n kw = None) ->
  exists c' kw', legacy_consume c kw = Ok (c', kw') /\
    (forall k, lookup k c' = if smem k all_fields then match lookup k kw with Some v => Some v | None => lookup k c end else lookup k c) /\
    (forall k, lookup k kw' = if smem k all_fields then None else lookup k kw).
Proof.
  intros NK HN. unfold legacy_consume. rewrite consume_subtrees_none by auto. cbn [bindr].
  pose proof (shim_consume_spec registry c kw fields_nodup NK) as H.
  destruct (shim_consume registry c kw) as [c' kw']. destruct H as (A & B & _). exists c', kw'. auto.
Qed.

Lemma argdict_lookup args k : NoDup (keys args) ->
  lookup k (get_argdict args) =
    (if startswith ($"_") k || smem k root_attributes || smem k not_options then None
     else match lookup k args with Some (Some v) => Some v | _ => None end)
  /\ (forall x, In x (keys (get_argdict args)) -> In x (keys args)).
Proof.
  induction args as [|[k1 ov] args IH]; intros ND.
  - split; [|auto]. cbn. destruct (_ || _); reflexivity.
  - inversion ND as [|? ? N1 N2]; subst. destruct (IH N2) as [IH1 IH2].
    unfold get_argdict in *. cbn [flat_map].
    set (e := if startswith ($"_") k1 then nil else _) in *.
    assert (e = nil \/ exists v, e = [(k1, v)]) as He.
    { unfold e. destruct (startswith _ k1); auto. destruct (smem k1 root_attributes); auto.
      destruct (smem k1 not_options); auto. destruct ov; eauto. }
    split.
    + cbn [lookup]. destruct (seqb k k1) eqn:E.
      * apply seqb_eq in E. subst k1.
        assert (lookup k (flat_map (fun kv : str * option val => let (k0, ov0) := kv in
           if startswith ($"_") k0 then nil else if smem k0 root_attributes then nil else
           if smem k0 not_options then nil else match ov0 with Some v => [(k0, v)] | None => nil end) args) = None) as HN.
        { apply lookup_none. intros X. apply IH2 in X. contradiction. }
        unfold e. destruct (startswith _ k); cbn [orb]; [exact HN|]. destruct (smem k root_attributes); cbn [orb]; [exact HN|].
        destruct (smem k not_options); cbn [orb]; [exact HN|]. destruct ov; cbn [app]; [|exact HN].
        cbn [lookup]. now rewrite seqb_refl.
      * rewrite <- IH1. destruct He as [->|[v ->]]; auto. cbn [app lookup]. now rewrite E.
    + intros x Hx. unfold keys in Hx. rewrite map_app in Hx. apply in_app_or in Hx as [Hx|Hx].
      * destruct He as [He|[v He]]; rewrite He in Hx; [destruct Hx|]. simpl in Hx. destruct Hx as [<-|[]]. now left.
      * right. apply IH2. exact Hx.
Qed.

Lemma argdict_nodup args : NoDup (keys args) -> NoDup (keys (get_argdict args)).
Proof.
  induction args as [|[k1 ov] args IH]; intros ND; [constructor|].
  inversion ND as [|? ? N1 N2]; subst. unfold get_argdict. cbn [flat_map].
  fold (get_argdict args).
  assert (~ In k1 (keys (get_argdict args))) as HN.
  { intros X. apply (argdict_lookup args k1 N2) in X. contradiction. }
  destruct (startswith _ k1); [exact (IH N2)|]. destruct (smem k1 root_attributes); [exact (IH N2)|].
  destruct (smem k1 not_options); [exact (IH N2)|]. destruct ov; [|exact (IH N2)].
  constructor; [exact HN|exact (IH N2)].
Qed.

Lemma field_is_option k : smem k all_fields = true ->
  startswith ($"_") k || smem k root_attributes || smem k not_options = false.
Proof.
  intros H. apply smem_In in H.
  assert (forallb (fun k => negb (startswith ($"_") k || smem k root_attributes || smem k not_options)) all_fields = true) as G
    by reflexivity.
  rewrite forallb_forall in G. specialize (G _ H). now apply negb_true_iff in G.
Qed.

(** the namespaces of the tools: every name once, none of them the name of a section *)
Definition namespace (args : dict (option val)) : Prop :=
  NoDup (keys args) /\ forall n, In n (map fst registry) -> ~ In n (keys args).
Lemma namespace_i args : NoDup (keys args) -> forallb (fun n => negb (smem n (keys args))) (map fst registry) = true -> namespace args.
Proof.
  intros H G. split; [exact H|]. intros n Hn X. rewrite forallb_forall in G. specialize (G _ Hn). apply smem_In in X. now rewrite X in G.
Qed.
Lemma argdict_section args n : namespace args -> In n (map fst registry) -> lookup n (get_argdict args) = None.
Proof.
  intros [ND NS] Hn. rewrite (proj1 (argdict_lookup args n ND)). apply NS, lookup_none in Hn. rewrite Hn. now destruct (_ || _).
Qed.

(** For the first file of a run: an option given on the command line has its
    command-line value; every other field has the value of the config files. *)
Theorem C17_cmdline_first_file d ds args : namespace args ->
  forall c, new_configuration d = Ok c ->
  exists c', nth_error (run_configs (d :: ds) (get_argdict args)) 0 = Some (Ok c') /\
  forall k, In k all_fields ->
    lookup k c' = match lookup k args with Some (Some v) => Some v | _ => lookup k c end.
Proof.
  intros NS c Hc. pose proof (proj1 NS) as ND. cbn [run_configs]. rewrite Hc.
  destruct (legacy_consume_args c (get_argdict args) (argdict_nodup _ ND)) as (c' & kw' & E & A & B).
  { intros n Hn. now apply argdict_section. }
  rewrite E. exists c'. split; [reflexivity|]. intros k Hk. apply smem_In in Hk. rewrite A, Hk.
  rewrite (proj1 (argdict_lookup args k ND)), (field_is_option _ Hk).
  destruct (lookup k args) as [[v|]|]; reflexivity.
Qed.
Example C17_ex : forall c, new_configuration [($"format", VMap [($"line_width", VAtom 70)]); ($"tab_size", VAtom 4)] = Ok c ->
  lookup ($"line_width") c = Some (VAtom 70) /\ lookup ($"tab_size") c = Some (VAtom 4) /\
  nth_error (run_configs [[($"format", VMap [($"line_width", VAtom 70)]); ($"tab_size", VAtom 4)]]
     (get_argdict [($"line_width", Some (VAtom 100)); ($"tab_size", None); ($"check", Some (VAtom 1))])) 0
  = Some (Ok [($"line_width", VAtom 100); ($"tab_size", VAtom 4)]).
Proof. intros c H. injection H as <-. repeat split; reflexivity. Qed.

(** The full claim, for every file of the run, is false: the dictionary of
    command-line options is emptied by the first file. *)
Theorem C17_cmdline_every_file_refuted :
  exists ds args k v i c, namespace args /\ In k all_fields /\ lookup k args = Some (Some v) /\
    nth_error (run_configs ds (get_argdict args)) i = Some (Ok c) /\ lookup k c <> Some v.
Proof.
  exists [nil; nil], [($"line_width", Some (VAtom 100))], ($"line_width"), (VAtom 100), 1%nat, nil.
  repeat split; try discriminate.
  - repeat constructor. simpl. tauto.
  - intros n Hn [<-|[]]. cbn in Hn. decompose [or] Hn; discriminate || contradiction.
  - apply smem_In. reflexivity.
Qed.

(** More precisely: no command-line option reaches any later file. *)
Theorem C17_later_files_ignore_cmdline d1 d ds args c1 c : namespace args ->
  new_configuration d1 = Ok c1 -> new_configuration d = Ok c ->
  exists c', nth_error (run_configs (d1 :: d :: ds) (get_argdict args)) 1 = Some (Ok c') /\
  forall k, lookup k c' = lookup k c.
Proof.
  intros NS H1 Hc. pose proof (proj1 NS) as ND. cbn [run_configs]. rewrite H1.
  assert (forall n, In n (map fst registry) -> lookup n (get_argdict args) = None) as HR.
  { intros n Hn. now apply argdict_section. }
  pose proof (argdict_nodup _ ND) as NK.
  unfold legacy_consume at 1. rewrite consume_subtrees_none by auto. cbn [bindr].
  pose proof (shim_consume_spec registry c1 (get_argdict args) fields_nodup NK) as H.
  destruct (shim_consume registry c1 (get_argdict args)) as [c' kw']. destruct H as (A & B & D).
  cbn [nth_error]. rewrite Hc.
  destruct (legacy_consume_args c kw' D) as (c'' & kw'' & E & A' & B').
  { intros n Hn. rewrite B, HR by auto. now destruct (smem n _). }
  rewrite E. exists c''. split; [reflexivity|]. intros k. rewrite A', B. unfold all_fields. destruct (smem k _); auto.
Qed.

(** cmake-lint does not share the dictionary: every file sees the options. *)
Lemma dupdate_lookup e : forall d k, NoDup (keys e) ->
  lookup k (dupdate d e) = match lookup k e with Some v => Some v | None => lookup k d end.
Proof.
  induction e as [|[k1 v1] e IH]; intros d k ND; [reflexivity|].
  inversion ND as [|? ? N1 N2]; subst. unfold dupdate. cbn [fold_left fst snd].
  fold (dupdate (dset k1 v1 d) e). rewrite IH by auto. cbn [lookup]. rewrite lookup_dset.
  destruct (seqb k k1) eqn:E; auto. apply seqb_eq in E. subst. apply lookup_none in N1. now rewrite N1.
Qed.
Lemma keys_dset {A} k (v : A) d x : In x (keys (dset k v d)) -> x = k \/ In x (keys d).
Proof.
  induction d as [|[k2 v2] d IH]; simpl; [intuition|]. destruct (seqb k k2) eqn:E; simpl; intuition.
Qed.
Lemma nodup_dset {A} k (v : A) d : NoDup (keys d) -> NoDup (keys (dset k v d)).
Proof.
  induction d as [|[k2 v2] d IH]; simpl; intros H.
  - repeat constructor. simpl. tauto.
  - inversion H as [|? ? H1 H2]; subst. destruct (seqb k k2) eqn:E; simpl; auto.
    constructor; auto. intros X. apply keys_dset in X as [->|X]; auto. rewrite seqb_refl in E. discriminate.
Qed.
Lemma nodup_dupdate e : forall d, NoDup (keys d) -> NoDup (keys (dupdate d e)).
Proof. induction e as [|[k v] e IH]; intros d H; auto. apply IH. now apply nodup_dset. Qed.

Lemma consume_subtrees_left reg : forall c kw c' kw', NoDup (keys kw) ->
  consume_subtrees reg c kw = Ok (c', kw') ->
  NoDup (keys kw') /\ forall k, lookup k kw' = if smem k (map fst reg) then None else lookup k kw.
Proof.
  induction reg as [|[n fs] reg IH]; intros c kw c' kw' NK H; cbn [consume_subtrees] in H.
  - injection H as <- <-. auto.
  - assert (forall k, smem k (map fst ((n, fs) :: reg)) = seqb k n || smem k (map fst reg)) as HS by reflexivity.
    destruct (lookup n kw) as [[x|d]|] eqn:E; [discriminate| |].
    + apply IH in H as [A B]; [|now apply nodup_ddel]. split; auto. intros k. rewrite HS, B, lookup_ddel by auto.
      destruct (seqb k n) eqn:Ek; cbn [orb]; auto. now destruct (smem k _).
    + apply IH in H as [A B]; auto. split; auto. intros k. rewrite HS, B.
      destruct (seqb k n) eqn:Ek; cbn [orb]; auto. apply seqb_eq in Ek. subst. rewrite E. now destruct (smem n _).
Qed.

Theorem C17_lint_cmdline_every_file ds args i d c : NoDup (keys args) -> NoDup (keys d) ->
  nth_error ds i = Some d ->
  nth_error (lint_configs ds (get_argdict args)) i = Some (Ok c) ->
  forall k v, In k all_fields -> lookup k args = Some (Some v) -> lookup k c = Some v.
Proof.
  intros ND NK Hd Hc k v Hk Hv. unfold lint_configs in Hc. rewrite nth_error_map, Hd in Hc. cbn [option_map] in Hc.
  injection Hc as Hc. unfold new_configuration in Hc.
  apply bindr_ok in Hc as ([c1 kw1] & H1 & Hc). apply bindr_ok in Hc as ([c2 kw2] & H2 & Hc). injection Hc as <-.
  pose proof (nodup_dupdate (get_argdict args) d NK) as ND2.
  apply consume_subtrees_left in H1 as [A B]; auto.
  unfold legacy_consume in H2. rewrite consume_subtrees_none in H2.
  2:{ intros n Hn. rewrite B. assert (smem n (map fst registry) = true) as -> by (now apply smem_In). reflexivity. }
  cbn [bindr] in H2. pose proof (shim_consume_spec registry c1 kw1 fields_nodup A) as HS.
  destruct (shim_consume registry c1 kw1) as [c2' kw2']. injection H2 as -> _. destruct HS as (S1 & _).
  apply smem_In in Hk. rewrite S1. fold all_fields. rewrite Hk, B.
  assert (smem k (map fst registry) = false) as ->.
  { assert (forallb (fun k => negb (smem k (map fst registry))) all_fields = true) as G by reflexivity.
    rewrite forallb_forall in G. apply smem_In in Hk. specialize (G _ Hk). now apply negb_true_iff in G. }
  rewrite dupdate_lookup by (now apply argdict_nodup).
  rewrite (proj1 (argdict_lookup args k ND)), (field_is_option _ Hk), Hv. reflexivity.
Qed.

(** ** C18 *)
(** What the user wrote for a command: the last mapping under any spelling of its
    name that has the key. *)
Fixpoint user_value (per_command : list (str * val)) (cmd key : str) : option val :=
  match per_command with
  | nil => None
  | (n, VMap d) :: rest =>
      match user_value rest cmd key with
      | Some v => Some v
      | None => if seqb (lower n) (lower cmd) then lookup key d else None
      end
  | (_, VAtom _) :: rest => user_value rest cmd key
  end.

Lemma update_per_command_get pc : forall acc cmd key, 
  (forall n d, In (n, VMap d) pc -> NoDup (keys d)) ->
  match lookup (lower cmd) (update_per_command pc acc) with Some d => lookup key d | None => None end =
  match user_value pc cmd key with
  | Some v => Some v
  | None => match lookup (lower cmd) acc with Some d => lookup key d | None => None end
  end.
Proof.
  induction pc as [|[n [a|d]] pc IH]; intros acc cmd key HW; cbn [update_per_command user_value].
  - reflexivity.
  - apply IH. intros m d Hd. apply (HW m). now right.
  - rewrite IH by (intros m d' Hd; apply (HW m); now right).
    destruct (user_value pc cmd key); auto. rewrite lookup_dset, (seqb_sym (lower n) (lower cmd)).
    destruct (seqb (lower cmd) (lower n)) eqn:E; auto. apply seqb_eq in E. rewrite E.
    rewrite dupdate_lookup by (apply (HW n); now left).
    destruct (lookup key d); auto. now destruct (lookup (lower n) acc).
Qed.

(** Precedence: the user's qualified key, the built-in qualified key, the user's
    unqualified key, the built-in unqualified key, then the global value. *)
Theorem C18_per_command pc defaults cmd key global :
  (forall n d, In (n, VMap d) pc -> NoDup (keys d)) ->
  let builtin k := match lookup (lower cmd) defaults with Some d => lookup k d | None => None end in
  let or a b := match a with Some v => Some v | None => b end in
  resolve_for_command (update_per_command pc defaults) cmd key global =
    or (user_value pc cmd key) (or (builtin key)
       (or (user_value pc cmd (fieldname key)) (or (builtin (fieldname key)) global))).
Proof.
  intros HW. cbn zeta. unfold resolve_for_command.
  pose proof (update_per_command_get pc defaults cmd key HW) as H1.
  pose proof (update_per_command_get pc defaults cmd (fieldname key) HW) as H2.
  destruct (lookup (lower cmd) (update_per_command pc defaults)) as [dd|]; cbn [lookup].
  - rewrite H1, H2. destruct (user_value pc cmd key); auto.
    destruct (match lookup (lower cmd) defaults with Some d => lookup key d | None => None end); auto.
    destruct (user_value pc cmd (fieldname key)); auto.
  - destruct (user_value pc cmd key); [discriminate|]. rewrite <- H1.
    destruct (user_value pc cmd (fieldname key)); [discriminate|]. rewrite <- H2. reflexivity.
Qed.
Example C18_ex :
  let pc := [($"Foo", VMap [($"command_case", VAtom 1); ($"format.line_width", VAtom 5)]); ($"FOO", VMap [($"command_case", VAtom 2)])] in
  resolve_for_command (update_per_command pc nil) ($"foo") ($"format.command_case") (Some (VAtom 0)) = Some (VAtom 2) /\
  resolve_for_command (update_per_command pc nil) ($"fOO") ($"format.line_width") (Some (VAtom 0)) = Some (VAtom 5) /\
  resolve_for_command (update_per_command pc nil) ($"bar") ($"format.line_width") (Some (VAtom 0)) = Some (VAtom 0).
Proof. repeat split; reflexivity. Qed.
