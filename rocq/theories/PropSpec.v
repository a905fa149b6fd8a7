(** * PropSpec: command specifications (properties C45, C46, C47, C54-C57) *)
From Verif Require Import Base Regex Lex LexProofs LexClass TextProofs Tree Parse ParseProofs PropParse
  ParseTerm CmdSpec StdSpecs StdDb StdWf PropStd.

(** ** C47: positional counts *)

(** Decimal numerals, least significant digit last. *)
Inductive is_dec : Z -> str -> Prop :=
| dec_one d : 0 <= d <= 9 -> is_dec d [Z.to_N (48 + d)]
| dec_more n s d : is_dec n s -> 0 <= d <= 9 -> is_dec (10 * n + d) (s ++ [Z.to_N (48 + d)]).

(** The documented meaning of a count: smallest and largest number of arguments. *)
Inductive means : nargs -> Z -> option Z -> Prop :=
| mn_int n : 0 <= n -> means (NInt n) n (Some n)
| mn_opt : means (NStr $"?") 0 (Some 1)
| mn_any : means (NStr $"*") 0 None
| mn_some : means (NStr $"+") 1 None
| mn_plus n s : is_dec n s -> means (NStr (s ++ $"+")) n None.

Lemma digit_char d : 0 <= d <= 9 -> is_digit_c (Z.to_N (48 + d)) = true
  /\ Z.of_N (Z.to_N (48 + d)) - 48 = d /\ is_uspace (Z.to_N (48 + d)) = false.
Proof.
  intros H. assert (d = 0 \/ d = 1 \/ d = 2 \/ d = 3 \/ d = 4 \/ d = 5 \/ d = 6 \/ d = 7 \/ d = 8 \/ d = 9) as C by lia.
  repeat (destruct C as [->|C]; [vm_compute; auto|]). subst. vm_compute. auto.
Qed.
Lemma digits_val_app a : forall acc b p c, digits_val acc b a = Some c -> is_digit_c p = true ->
  digits_val acc b (a ++ [p]) = Some (10 * c + (Z.of_N p - 48)).
Proof.
  induction a as [|x a IH]; intros acc b p c H Hp.
  - cbn [digits_val app] in *. rewrite Hp. destruct b; [|discriminate]. now injection H as ->.
  - cbn [digits_val app] in *. destruct (is_digit_c x); eauto.
    destruct (N.eqb x 95 && b)%bool; eauto. discriminate.
Qed.
Lemma dec_val n s : is_dec n s -> digits_val 0 false s = Some n /\ forallb is_digit_c s = true /\ s <> nil /\ 0 <= n.
Proof.
  induction 1 as [d Hd|n s d Hs IH Hd]; destruct (digit_char d Hd) as (H1 & H2 & H3).
  - cbn [digits_val forallb]. rewrite H1, H2. split; [f_equal; lia|]. split; [reflexivity|]. split; [discriminate|lia].
  - destruct IH as (E & F & G & G2). rewrite forallb_app, F.
    cbn [forallb]. rewrite H1. split; [|].
    { etransitivity; [exact (digits_val_app _ _ _ _ _ E H1)|]. now rewrite H2. }
    split; [reflexivity|]. split; [now destruct s|lia].
Qed.
Lemma digit_not c x : is_digit_c c = true -> is_digit_c x = false -> N.eqb c x = false.
Proof. intros H1 H2. apply N.eqb_neq. congruence. Qed.
Lemma forallb_rev1 (p : chr -> bool) (l : str) : forallb p l = true -> forallb p (rev l) = true.
Proof. rewrite !forallb_forall. intros H x Hx. apply H. now apply in_rev. Qed.
Lemma digits_strip s : forallb is_digit_c s = true -> strip s = s.
Proof.
  intros H. assert (forall l, forallb is_digit_c l = true -> lstrip_by is_uspace l = l) as G.
  { intros l Hl. destruct l as [|c l]; auto. simpl in *. apply andb_prop in Hl as [Hc _].
    replace (is_uspace c) with false; auto. symmetry.
    unfold is_uspace. rewrite <- not_true_iff_false. intros E. apply existsb_exists in E as (x & Hx & E).
    apply N.eqb_eq in E. subst x.
    cbn [In] in Hx. repeat (destruct Hx as [Hx|Hx]; [subst; discriminate|]). exact Hx. }
  unfold strip, strip_by, rstrip_by. rewrite (G s H), (G (rev s)); [apply rev_involutive|].
  now apply forallb_rev1.
Qed.
Lemma dec_int n s : is_dec n s -> py_int s = Some n.
Proof.
  intros H. destruct (dec_val _ _ H) as (E & F & G & _). unfold py_int. rewrite digits_strip by auto.
  destruct s as [|c s]; [congruence|]. simpl in F. apply andb_prop in F as [Fc _].
  rewrite !(digit_not c) by auto. exact E.
Qed.
Lemma dec_not s l : forallb is_digit_c s = true -> s <> nil -> Forall (fun x => forallb is_digit_c x = false) l ->
  smem s l = false.
Proof.
  intros H Hn F. induction F as [|x l Hx F IH]; auto. simpl. rewrite IH, orb_false_r.
  apply seqb_neq. congruence.
Qed.
Lemma smem_snoc_plus s l : s <> nil -> Forall (fun x => (List.length x <= 1)%nat) l -> smem (s ++ $"+") l = false.
Proof.
  intros Hn F. induction F as [|x l Hx F IH]; auto. simpl. rewrite IH, orb_false_r.
  apply seqb_neq. intros E. apply (f_equal (@List.length chr)) in E. rewrite app_length in E.
  simpl in E. destruct s; simpl in *; [congruence|lia].
Qed.
Lemma endswith_snoc p s : endswith [p] (s ++ [p]) = true.
Proof. unfold endswith. rewrite rev_app_distr. simpl. now rewrite N.eqb_refl. Qed.
Lemma removelast_snoc (p : chr) s : removelast (s ++ [p]) = s.
Proof. rewrite removelast_app by discriminate. simpl. apply app_nil_r. Qed.

Theorem C47_counts_partial : forall n lo hi, means n lo hi ->
  get_min_npargs n = Ok lo
  /\ match hi with Some h => lo <= h | None => True end
  /\ forall k, pargs_are_full n k = Ok (match hi with Some h => k >=? h | None => false end).
Proof.
  intros n lo hi H. destruct H as [n Hn| | | |n s Hs]; try (repeat split; auto; lia).
  destruct (dec_val _ _ Hs) as (_ & F & G & _). pose proof (dec_int _ _ Hs) as Hi.
  unfold get_min_npargs, pargs_are_full.
  replace (seqb (s ++ $"+") $"?") with (smem (s ++ $"+") [$"?"]) by (simpl; apply orb_false_r).
  replace (seqb (s ++ $"+") $"+") with (smem (s ++ $"+") [$"+"]) by (simpl; apply orb_false_r).
  rewrite !smem_snoc_plus by (auto; repeat constructor).
  change ($"+") with [43%N]. rewrite endswith_snoc, removelast_snoc, Hi. auto.
Qed.
Example C47_ex : means (NStr $"12+") 12 None /\ get_min_npargs (NStr $"12+") = Ok 12
  /\ pargs_are_full (NStr $"12+") 400 = Ok false.
Proof.
  split; [|split; reflexivity]. change $"12+" with ([49; 50]%N ++ $"+"). apply mn_plus.
  change 12 with (10 * 1 + 2). change [49;50]%N with ([49%N] ++ [Z.to_N (48 + 2)]). apply dec_more; [|lia].
  change [49%N] with [Z.to_N (48 + 1)]. apply dec_one. lia.
Qed.
(** The missing form, a count written as a string of digits (used by the shipped
    table for aux_source_directory, math and build_command): its minimum is that
    number, but the group is never full, whatever the number. *)
Theorem C47_digit_string_refuted : forall n s, is_dec n s ->
  get_min_npargs (NStr s) = Ok n /\ forall k, pargs_are_full (NStr s) k = Ok false.
Proof.
  intros n s Hs. destruct (dec_val _ _ Hs) as (_ & F & G & _). pose proof (dec_int _ _ Hs) as Hi.
  unfold get_min_npargs, pargs_are_full.
  replace (seqb s $"?") with (smem s [$"?"]) by (simpl; apply orb_false_r).
  replace (seqb s $"+") with (smem s [$"+"]) by (simpl; apply orb_false_r).
  rewrite !dec_not by (auto; repeat constructor).
  assert (E : endswith $"+" s = false).
  { unfold endswith. change (rev $"+") with [43%N].
    apply forallb_rev1 in F. destruct (rev s) as [|c r]; auto. cbn [startswith forallb] in *. apply andb_prop in F as [Fc _].
    destruct (N.eqb 43 c) eqn:Ec; auto. apply N.eqb_eq in Ec. subst c. discriminate. }
  rewrite E, Hi. auto.
Qed.
Theorem C47_counts_refuted : exists s n k, is_dec n s /\ get_min_npargs (NStr s) = Ok n
  /\ k > n /\ pargs_are_full (NStr s) k = Ok false
  /\ kw_lookup $"aux_source_directory" (hand_table nil) = Some (sat (NStr s) nil nil).
Proof.
  exists $"2", 2, 100. split; [|repeat split; lia].
  change $"2" with [Z.to_N (48 + 2)]. apply dec_one. lia.
Qed.

(** *** An exact count is exact: the group holds at most that many arguments, and
    fewer only when the call ends, at a comment that belongs to the enclosing
    group, or at end of input. *)
Definition is_arg (n : pnode) : bool := match n with N KArgument _ | N KFlag _ => true | _ => false end.
Definition nargs_in (l : list pnode) : Z := zlen (filter is_arg l).
Lemma nargs_app a b : nargs_in (a ++ b) = nargs_in a + nargs_in b.
Proof. unfold nargs_in. rewrite filter_app, zlen_app. reflexivity. Qed.
Lemma take_ws_nargs toks : forall a r, take_ws toks = (a, r) -> nargs_in a = 0.
Proof.
  induction toks as [|t toks IH]; simpl; intros a r H; [now injection H as <- _|].
  destruct (is_ws t); [|now injection H as <- _].
  destruct (take_ws toks) as [a0 r0]. injection H as <- <-. specialize (IH _ _ eq_refl). exact IH.
Qed.
Lemma consume_comment_shape toks c r : consume_comment toks = Ok (c, r) -> exists cs, c = N (KComment false) cs.
Proof.
  unfold consume_comment. destruct toks as [|t toks]; [discriminate|].
  destruct (tmem _ _); [intros H; injection H as <- _; eauto|].
  destruct (cloop _ _ _) as [[|x a] r0]; [discriminate|]. intros H; injection H as <- _; eauto.
Qed.
Lemma paren_shape n ctx toks x r : paren n ctx toks = Ok (x, r) -> exists cs, x = N KParenGroup cs.
Proof.
  destruct n; [discriminate|]. cbn [paren]. destruct toks as [|t toks]; [discriminate|].
  destruct (negb _); [discriminate|]. intros H. apply bindr_ok in H as ([sub r0] & _ & H).
  destruct r0 as [|t2 r']; [discriminate|]. destruct (negb _); [discriminate|].
  destruct (consume_trailing ctx r'). injection H as <- _. eauto.
Qed.
Lemma pos_loop_exact ctx sp bs nested z m : ps_nargs sp = NInt z -> forall k acc toks a r,
  k = nargs_in acc -> k <= Z.max 0 z ->
  pos_loop m ctx sp bs nested k acc toks = Ok (a, r) ->
  nargs_in a <= Z.max 0 z
  /\ (nargs_in a < z -> r = nil \/ exists t r', r = t :: r' /\ (is_tt RIGHT_PAREN t = true \/ is_comment t = true)).
Proof.
  intros Hz. induction m as [|m IH]; intros k acc toks a r Hk Hle H; [discriminate|].
  cbn [pos_loop] in H. destruct toks as [|t toks].
  { injection H as <- <-. split; [lia|auto]. }
  rewrite Hz in H. cbn [pargs_are_full bindr] in H.
  destruct (k >=? z) eqn:Ef.
  { injection H as <- <-. split; [lia|]. intros Hc. apply Z.geb_le in Ef. lia. }
  rewrite Z.geb_leb in Ef. apply Z.leb_gt in Ef.
  destruct (should_break t bs && _) eqn:Eb.
  { injection H as <- <-. split; [lia|]. intros _. right. exists t, toks. split; auto.
    apply andb_prop in Eb as [_ Eb]. simpl in Eb. now left. }
  assert (Hnext : forall x k', k' = k + nargs_in [x] -> k' <= z -> forall toks',
     pos_loop m ctx sp bs nested k' (acc ++ [x]) toks' = Ok (a, r) ->
     nargs_in a <= Z.max 0 z /\ (nargs_in a < z -> r = nil \/ exists t r', r = t :: r' /\ (is_tt RIGHT_PAREN t = true \/ is_comment t = true))).
  { intros x k' Ek Hle' toks' H'. eapply IH; [| |exact H']; [rewrite nargs_app; lia|lia]. }
  destruct (is_tt LEFT_PAREN t).
  { apply bindr_ok in H as ([x r0] & Ep & H). apply paren_shape in Ep as (cs & ->).
    eapply Hnext; [| |exact H]; [unfold nargs_in; simpl; change (zlen []) with 0; lia|lia]. }
  destruct (is_ws t).
  { eapply Hnext; [| |exact H]; [unfold nargs_in; simpl; change (zlen []) with 0; lia|lia]. }
  destruct (is_comment t) eqn:Ec.
  { destruct (belongs_up _ _ _ _).
    - injection H as <- <-. split; [lia|]. intros _. right. exists t, toks. auto.
    - apply bindr_ok in H as ([x r0] & Ep & H). apply consume_comment_shape in Ep as (cs & ->).
      eapply Hnext; [| |exact H]; [unfold nargs_in; simpl; change (zlen []) with 0; lia|lia]. }
  destruct (is_onoff t).
  { eapply Hnext; [| |exact H]; [unfold nargs_in; simpl; change (zlen []) with 0; lia|lia]. }
  destruct (consume_trailing ctx toks) as [tr r0].
  eapply Hnext; [| |exact H]; [|lia].
  destruct (kwarg_in t _); unfold nargs_in; simpl; unfold zlen; simpl; lia.
Qed.
Theorem C47_exact_group : forall n ctx sp bs nested toks x r z, ps_nargs sp = NInt z -> 0 <= z ->
  pos_group n ctx sp bs nested toks = Ok (x, r) ->
  exists s tags cs, x = N (KPargGroup s tags (Some sp)) cs /\ nargs_in cs <= z
    /\ (nargs_in cs < z -> r = nil \/ exists t r', r = t :: r' /\ (is_tt RIGHT_PAREN t = true \/ is_comment t = true)).
Proof.
  intros n ctx sp bs nested toks x r z Hz Hp H. destruct n as [|m]; [discriminate|]. cbn [pos_group] in H.
  destruct (take_ws toks) as [ws r0] eqn:Ew. apply bindr_ok in H as ([a r'] & El & H). injection H as <- <-.
  apply take_ws_nargs in Ew. eapply pos_loop_exact in El; eauto; [|lia].
  eexists _, _, _. split; [reflexivity|]. rewrite Z.max_r in El by lia. exact El.
Qed.
Example C47_exact_ex : exists toks x r, tokenize $"a b c)" = Ok toks
  /\ pos_group 20 the_ctx (PSpec (NInt 2) false nil nil false None) [BParen] false toks = Ok (x, r)
  /\ map spelling r = [$" "; $"c"; $")"].
Proof. eexists. eexists. eexists. split; [vm_compute; reflexivity|]. split; vm_compute; reflexivity. Qed.

(** ** C46: counts written by the user *)

(** the count the declaration asks for *)
Definition asked (d : pdecl) : option nargs :=
  match d with
  | DScalar n => Some n
  | DTuple n _ => Some n
  | DDict d => d_nargs d
  end.
Definition is_dict (d : pdecl) : bool := match d with DDict _ => true | _ => false end.
Theorem C46_count_partial : forall d p n, is_dict d = false -> parse_pdecl d = Ok p -> asked d = Some n ->
  ps_nargs p = n.
Proof.
  intros [m|d|m d] p n Hd H Ha; try discriminate; simpl in *.
  - injection H as <-. now injection Ha as <-.
  - destruct (d_nargs d); [discriminate|]. unfold mk_pspec in H. destruct (_ || _); [discriminate|].
    injection H as <-. now injection Ha as <-.
Qed.
Example C46_count_ex : exists p, parse_pdecl (DTuple (NInt 3) (PDict false None (Some true) None None None None false)) = Ok p
  /\ ps_nargs p = NInt 3 /\ ps_sortable p = true.
Proof. eexists. repeat split. Qed.
(** The missing form: no dictionary declaration ever gets the count it asks for
    (unless it asks for "*"): it is replaced by "*", or the configuration is
    rejected when the documented key "npargs" is used. *)
Theorem C46_dict_count_refuted : forall d n, d_nargs d = Some n \/ d_npargs d = true ->
  (exists e, parse_pdecl (DDict d) = Err e) \/
  (exists p, parse_pdecl (DDict d) = Ok p /\ ps_nargs p = NStr $"*").
Proof.
  intros d n _. simpl. destruct (d_npargs d) eqn:E; [left; eauto|].
  unfold mk_pspec. rewrite E. simpl. destruct (d_unknown d); [left; eauto|]. right. eauto.
Qed.
Theorem C46_count_refuted : exists d n p, asked d = Some n /\ parse_pdecl d = Ok p /\ ps_nargs p <> n.
Proof.
  exists (DDict (PDict false (Some (NInt 1)) None None None None None false)), (NInt 1).
  eexists. split; [reflexivity|]. split; [reflexivity|]. discriminate.
Qed.

(** A scalar count in a user table reaches the parser of the command and of each
    of its keywords. *)
Fixpoint assoc_last {A} (k : str) (l : list (str * A)) : option A :=
  match l with
  | nil => None
  | (k', v) :: l' => match assoc_last k l' with
                     | Some w => Some w
                     | None => if seqb k k' then Some v else None
                     end
  end.
Lemma dset_lookup {A} (f : A -> parser) (k k' : str) (v : A) l :
  kw_lookup k (map (fun '(a, b) => (a, f b)) (dset k' v l))
  = if seqb k k' then Some (f v) else kw_lookup k (map (fun '(a, b) => (a, f b)) l).
Proof.
  induction l as [|[a b] l IH]; simpl.
  - destruct (seqb k k'); auto.
  - destruct (seqb k' a) eqn:E; simpl.
    + apply seqb_eq in E. subst a. destruct (seqb k k'); auto.
    + destruct (seqb k a) eqn:E2; [|exact IH]. apply seqb_eq in E2. subst a.
      rewrite (seqb_sym k k'), E. reflexivity.
Qed.
Lemma dset_cmd {A} (g : A -> cmdspec) (k k' : str) (v : cmdspec) l :
  cmd_lookup k (dset k' v l) = if seqb k k' then Some v else cmd_lookup k l.
Proof.
  induction l as [|[a b] l IH]; simpl.
  - destruct (seqb k k'); auto.
  - destruct (seqb k' a) eqn:E; simpl.
    + apply seqb_eq in E. subst a. destruct (seqb k k'); auto.
    + destruct (seqb k a) eqn:E2; [|exact IH]. apply seqb_eq in E2. subst a.
      rewrite (seqb_sym k k'), E. reflexivity.
Qed.
Lemma funtree_lookup k kw : kw_lookup k (map (fun '(k', s') => (k', fun_parser k' s')) kw)
  = match cmd_lookup k kw with Some s => Some (fun_parser k s) | None => None end.
Proof.
  induction kw as [|[k' s'] kw IH]; simpl; auto. destruct (seqb k k') eqn:E; auto.
  apply seqb_eq in E. now subst.
Qed.
(** the keyword dictionary built by CommandSpec.__init__ *)
Fixpoint build_kw (l : list (str * ukw)) (acc : list (str * cmdspec)) : res (list (str * cmdspec)) :=
  match l with
  | nil => Ok acc
  | (k, UKScalar n) :: l' =>
      let? ps := parse_pspec (UScalar n) nil in
      build_kw l' (dset k (CmdSpec (CSpec k k ps None) nil) acc)
  | (k, UKSpec u') :: l' =>
      let? s := mk_spec k u' in build_kw l' (dset k s acc)
  end.
Lemma mk_spec_eq name pargs flags kwargs sp ms :
  mk_spec name (USpec pargs flags kwargs sp ms) =
  (let? ps := parse_pspec pargs flags in
   let? kw := build_kw kwargs nil in
   Ok (CmdSpec (CSpec name (oget sp name) ps ms) kw)).
Proof.
  reflexivity.
Qed.
Lemma build_kw_scalar k n l : forall acc kw, assoc_last k l = Some (UKScalar n) -> build_kw l acc = Ok kw ->
  cmd_lookup k kw = Some (CmdSpec (CSpec k k [PSpec n false nil nil true None] None) nil).
Proof.
  assert (Hnone : forall l acc kw, assoc_last k l = None -> build_kw l acc = Ok kw -> cmd_lookup k kw = cmd_lookup k acc).
  { clear l. induction l as [|[k' u] l IH]; intros acc kw Ha H; [now injection H as <-|].
    simpl in Ha. destruct (assoc_last k l) eqn:El; [discriminate|].
    destruct (seqb k k') eqn:Ek; [discriminate|].
    destruct u as [m|u]; cbn [build_kw parse_pspec bindr] in H; [|apply bindr_ok in H as (s & _ & H)];
      apply IH in H; auto; rewrite H, (dset_cmd (fun x => x)), Ek; reflexivity. }
  induction l as [|[k' u] l IH]; intros acc kw Ha H; [discriminate|].
  simpl in Ha. destruct (assoc_last k l) eqn:El.
  - injection Ha as ->. destruct u as [m|u]; cbn [build_kw parse_pspec bindr] in H;
      [|apply bindr_ok in H as (s & _ & H)]; eapply IH; eauto.
  - destruct (seqb k k') eqn:Ek; [|discriminate]. apply seqb_eq in Ek. subst k'. injection Ha as ->.
    cbn [build_kw parse_pspec bindr] in H. apply Hnone in H; auto.
    rewrite H, (dset_cmd (fun x => x)), seqb_refl. reflexivity.
Qed.
Lemma add_all_last l : forall acc kw name u, add_all l acc = Ok kw ->
  assoc_last name (map (fun '(k, u) => (lower k, (k, u))) l) = Some u ->
  exists s, mk_spec (fst u) (snd u) = Ok s /\ cmd_lookup name kw = Some s.
Proof.
  assert (Hnone : forall l acc kw name, add_all l acc = Ok kw ->
    assoc_last name (map (fun '(k, u) => (lower k, (k, u))) l) = None -> cmd_lookup name kw = cmd_lookup name acc).
  { clear l. induction l as [|[k u] l IH]; intros acc kw name H Ha; [now injection H as <-|].
    cbn [add_all] in H. apply bindr_ok in H as (s & _ & H). simpl in Ha.
    destruct (assoc_last name _) eqn:El; [discriminate|]. destruct (seqb name (lower k)) eqn:Ek; [discriminate|].
    eapply IH in H; eauto. now rewrite H, (dset_cmd (fun x => x)), Ek. }
  induction l as [|[k u] l IH]; intros acc kw name u0 H Ha; [discriminate|].
  cbn [add_all] in H. apply bindr_ok in H as (s & Es & H). simpl in Ha.
  destruct (assoc_last name (map _ l)) eqn:El.
  - injection Ha as ->. eapply IH; eauto.
  - destruct (seqb name (lower k)) eqn:Ek; [|discriminate]. injection Ha as <-. exists s. split; auto.
    eapply Hnone in H; eauto. now rewrite H, (dset_cmd (fun x => x)), Ek.
Qed.

Definition special (k : str) : bool := smem k [$"if"; $"elseif"; $"while"; $"COMMAND"].
Lemma fun_parser_plain k c kw : special k = false ->
  fun_parser k (CmdSpec c kw) = PStd c (map (fun '(k', s') => (k', fun_parser k' s')) kw).
Proof.
  unfold special. cbn [fun_parser smem existsb]. intros H. apply orb_false_iff in H as [H1 H].
  apply orb_false_iff in H as [H2 H]. apply orb_false_iff in H as [H3 H]. apply orb_false_iff in H as [H4 _].
  now rewrite H1, H2, H3, H4.
Qed.

(** For every list of user commands that is accepted, for the last declaration of
    a command with a scalar count: a call of that command (whatever the standard
    table says) is read with that count and those flags, and each keyword given
    by a scalar count is read with that count. *)
Theorem C46_user_command : forall ex vt specs tbl name cname n flags kwargs sp ms,
  user_table specs = Ok tbl ->
  assoc_last name (map (fun '(k, u) => (lower k, (k, u))) specs)
    = Some (cname, USpec (UScalar n) flags kwargs sp ms) ->
  special name = false ->
  exists cs kw, command_parser (std_ctx ex vt tbl) name = PStd cs kw
    /\ cs_pargs cs = [PSpec n false nil flags true None]
    /\ forall k m, assoc_last k kwargs = Some (UKScalar m) -> special k = false ->
         exists cs', kw_lookup k kw = Some (PStd cs' nil) /\ cs_pargs cs' = [PSpec m false nil nil true None].
Proof.
  intros ex vt specs tbl name cname n flags kwargs sp ms Ht Hl Hs.
  unfold user_table in Ht. apply bindr_ok in Ht as (kws & Ha & Ht). injection Ht as <-.
  destruct (add_all_last _ _ _ _ _ Ha Hl) as (s & Es & Hk). cbn [fst snd] in Es.
  rewrite mk_spec_eq in Es. cbn [parse_pspec bindr] in Es. apply bindr_ok in Es as (kw & Ek & Es).
  injection Es as <-.
  exists (CSpec cname (oget sp cname) [PSpec n false nil flags true None] ms),
    (map (fun '(k', s') => (k', fun_parser k' s')) kw).
  split; [|split; [reflexivity|]].
  - unfold command_parser. simpl db. unfold with_user, get_funtree. rewrite funtree_lookup, Hk.
    now apply fun_parser_plain.
  - intros k m Hm Hsk. apply (build_kw_scalar k m) in Ek; auto.
    rewrite funtree_lookup, Ek, fun_parser_plain by auto. eexists. split; reflexivity.
Qed.
Definition demo_specs : list (str * uspec) :=
  [($"MyFun", USpec (UScalar (NInt 2)) [$"FAST"] [($"SRC", UKScalar (NStr $"+")); ($"DST", UKScalar (NInt 1))] None None);
   ($"set", USpec (UScalar (NStr $"*")) nil nil None None)].
Example C46_user_ex : exists tbl, user_table demo_specs = Ok tbl
  /\ assoc_last $"myfun" (map (fun '(k, u) => (lower k, (k, u))) demo_specs) = Some (nth 0 demo_specs (nil, USpec UNone nil nil None None))
  /\ special $"myfun" = false /\ special $"DST" = false.
Proof. eexists. split; [vm_compute; reflexivity|]. repeat split; vm_compute; reflexivity. Qed.

(** The exclusion is needed: a user command named if, elseif or while, or a
    keyword named COMMAND, is read by a built-in parser whatever the user wrote. *)
Theorem C54_user_command_ignored_refuted : forall ex vt specs tbl name u,
  user_table specs = Ok tbl -> In name [$"if"; $"elseif"; $"while"] ->
  assoc_last name (map (fun '(k, u) => (lower k, (k, u))) specs) = Some u ->
  command_parser (std_ctx ex vt tbl) name = PCond.
Proof.
  intros ex vt specs tbl name u Ht Hn Hl.
  unfold user_table in Ht. apply bindr_ok in Ht as (kws & Ha & Ht). injection Ht as <-.
  destruct (add_all_last _ _ _ _ _ Ha Hl) as ([c kw] & Es & Hk).
  unfold command_parser. simpl db. unfold with_user, get_funtree. rewrite funtree_lookup, Hk.
  cbn [fun_parser]. apply smem_In in Hn. rewrite Hn. reflexivity.
Qed.
Example C54_ex : exists tbl, user_table [($"If", USpec (UScalar (NInt 1)) nil nil None None)] = Ok tbl.
Proof. eexists. vm_compute. reflexivity. Qed.

(** ** C45: calls that lack required arguments *)
Lemma take_ws_all ws x r : Forall (fun t => is_ws t = true) ws -> is_ws x = false ->
  take_ws (ws ++ x :: r) = (map T ws, x :: r).
Proof.
  intros H Hx. induction H as [|t ws Ht H IH]; simpl.
  - now rewrite Hx.
  - now rewrite Ht, IH.
Qed.
Lemma tt_facts_rp t : tt t = RIGHT_PAREN -> is_ws t = false /\ is_comment t = false /\ is_onoff t = false
  /\ is_tt RIGHT_PAREN t = true /\ normalized_kwarg t = None.
Proof. intros H. unfold is_ws, is_comment, is_onoff, is_tt, normalized_kwarg, is_tt. rewrite H. auto. Qed.
Lemma tt_facts_lp t : tt t = LEFT_PAREN -> is_ws t = false /\ is_tt LEFT_PAREN t = true.
Proof. intros H. unfold is_ws, is_tt. rewrite H. auto. Qed.

(** An empty call of any command whose first positional group has an exact count
    of one or more ends in an internal error. *)
Theorem C45_empty_call_refuted : forall ctx n fn ws lp ws2 rp r cs kw d p ps z,
  command_parser ctx (lower (spelling fn)) = PStd cs kw ->
  split_default (cs_pargs cs) = (d, p :: ps) -> ps_nargs p = NInt z -> z > 0 ->
  Forall (fun t => is_ws t = true) ws -> Forall (fun t => is_ws t = true) ws2 ->
  tt lp = LEFT_PAREN -> tt rp = RIGHT_PAREN ->
  statement (S (S (S (S n)))) ctx (fn :: ws ++ lp :: ws2 ++ rp :: r) = Err InternalError.
Proof.
  intros ctx n fn ws lp ws2 rp r cs kw d p ps z Hc Hs Hz Hp Hw Hw2 Hlp Hrp.
  destruct (tt_facts_lp _ Hlp) as (L1 & L2). destruct (tt_facts_rp _ Hrp) as (R1 & R2 & R3 & R4 & R5).
  unfold statement. rewrite take_ws_all by auto. rewrite L2. cbn [negb].
  rewrite take_ws_all by auto. rewrite Hc. cbn [call resolve]. cbn [take_ws]. rewrite R1, Hs.
  cbn [std_loop]. rewrite R1, R2, R3, Hz. cbn [is_exact negb orb].
  replace (z =? 0) with false by (symmetry; apply Z.eqb_neq; lia). rewrite andb_false_r, R5.
  cbn [pos_group take_ws]. rewrite R1.
  cbn [pos_loop]. rewrite Hz. cbn [pargs_are_full bindr].
  replace (0 >=? z) with false by (symmetry; rewrite Z.geb_leb; apply Z.leb_gt; lia).
  assert (B : should_break rp ([BParen] ++ [kwbreaker (map fst kw ++
     flat_map (fun o => filter (fun fl => negb (smem fl (ps_flags p))) (ps_flags o)) (tl (p :: ps)))]) = true).
  { unfold should_break. simpl. now rewrite R4. }
  cbn [tl] in *. rewrite B, R4. rewrite orb_true_r. cbn [bindr andb].
  rewrite Nat.leb_refl. reflexivity.
Qed.
Lemma consume_trailing_total ctx toks : exists a r, consume_trailing ctx toks = (a, r).
Proof. destruct (consume_trailing ctx toks). eauto. Qed.
(** When the first group has an open count, the empty call is accepted. *)
Theorem C45_empty_call_partial : forall ctx n fn ws lp ws2 rp r cs kw d ps,
  command_parser ctx (lower (spelling fn)) = PStd cs kw ->
  split_default (cs_pargs cs) = (d, ps) -> is_exact (ps_nargs (hd d ps)) = false ->
  Forall (fun t => is_ws t = true) ws -> Forall (fun t => is_ws t = true) ws2 ->
  tt lp = LEFT_PAREN -> tt rp = RIGHT_PAREN ->
  exists x r', statement (S (S n)) ctx (fn :: ws ++ lp :: ws2 ++ rp :: r) = Ok (x, r').
Proof.
  intros ctx n fn ws lp ws2 rp r cs kw d ps Hc Hs Hz Hw Hw2 Hlp Hrp.
  destruct (tt_facts_lp _ Hlp) as (L1 & L2). destruct (tt_facts_rp _ Hrp) as (R1 & R2 & R3 & R4 & R5).
  unfold statement. rewrite take_ws_all by auto. rewrite L2. cbn [negb].
  rewrite take_ws_all by auto. rewrite Hc. cbn [call resolve]. cbn [take_ws]. rewrite R1, Hs.
  cbn [std_loop]. rewrite R1, R2, R3.
  replace (match ps with nil => d | p :: _ => p end) with (hd d ps) by (destruct ps; reflexivity).
  rewrite Hz. unfold should_break. cbn [existsb breaks negb orb andb]. rewrite R4. cbn [orb andb bindr].
  cbn [List.length stmt_tail]. rewrite R4. cbn [bindr]. destruct (consume_trailing ctx r) as [a r0]. eauto.
Qed.
Theorem C45_missing_args_refuted : exists src toks, src = $"build_name()" /\ tokenize src = Ok toks
  /\ parse the_ctx toks = Err InternalError.
Proof. eexists. eexists. split; [reflexivity|]. split; vm_compute; reflexivity. Qed.
Example C45_empty_ex : exists cs kw d p ps z, command_parser the_ctx $"build_name" = PStd cs kw
  /\ split_default (cs_pargs cs) = (d, p :: ps) /\ ps_nargs p = NInt z /\ z > 0.
Proof. eexists _, _, _, _, _, _. split; [vm_compute; reflexivity|]. repeat split; vm_compute; reflexivity. Qed.
Example C45_open_ex : exists cs kw d ps, command_parser the_ctx $"message" = PStd cs kw
  /\ split_default (cs_pargs cs) = (d, ps) /\ is_exact (ps_nargs (hd d ps)) = false.
Proof. eexists _, _, _, _. split; [vm_compute; reflexivity|]. split; vm_compute; reflexivity. Qed.

(** ** C55: keyword names in specifications *)
Lemma upc_idem c : upc (upc c) = upc c.
Proof.
  unfold upc. destruct ((97 <=? c)%N && (c <=? 122)%N) eqn:E; [|now rewrite E].
  apply andb_prop in E as [E1 E2]. apply N.leb_le in E1, E2.
  replace (97 <=? c - 32)%N with false; auto. symmetry. apply N.leb_gt. lia.
Qed.
Lemma loc_idem c : Base.loc (Base.loc c) = Base.loc c.
Proof.
  unfold Base.loc. destruct ((65 <=? c)%N && (c <=? 90)%N) eqn:E; [|now rewrite E].
  apply andb_prop in E as [E1 E2]. apply N.leb_le in E1, E2.
  replace (c + 32 <=? 90)%N with false; [now rewrite andb_false_r|]. symmetry. apply N.leb_gt. lia.
Qed.
Lemma upper_idem s : upper (upper s) = upper s.
Proof. unfold upper. rewrite map_map. apply map_ext. apply upc_idem. Qed.
Lemma lower_idem s : lower (lower s) = lower s.
Proof. unfold lower. rewrite map_map. apply map_ext. apply loc_idem. Qed.
(** Only upper-case keywords, or lower-case ones starting with a dash, can ever
    be recognised. *)
Theorem C55_keyword_form : forall t k kw p, normalized_kwarg t = Some k -> kw_lookup k kw = Some p ->
  upper k = k \/ (startswith [45%N] k = true /\ lower k = k).
Proof.
  intros t k kw p H _. unfold normalized_kwarg in H. destruct (is_tt UNQUOTED_LITERAL t && _) eqn:E.
  - injection H as <-. right. split; [|apply lower_idem]. apply andb_prop in E as [_ E].
    destruct (spelling t) as [|c s]; [discriminate|]. cbn [startswith lower map] in *. destruct (N.eqb 45 c) eqn:Ec; [|discriminate].
    apply N.eqb_eq in Ec. now subst c.
  - destruct (is_tt WORD t); [|discriminate]. injection H as <-. left. apply upper_idem.
Qed.

(** A word that stops the current positional group but is not itself a keyword
    that can be recognised ends in an internal error: nothing consumes it. *)
Lemma stuck_word ctx n dflt kw bs kbs nested pargs acc t toks :
  let ps := hd dflt pargs in
  let other := flat_map (fun o => filter (fun fl => negb (smem fl (ps_flags ps))) (ps_flags o)) (tl pargs) in
  tt t = WORD -> should_break t bs = false -> kw_lookup (upper (spelling t)) kw = None ->
  is_exact (ps_nargs ps) = false -> pargs_are_full (ps_nargs ps) 0 = Ok false ->
  smem (upper (spelling t)) (map upper (map fst kw ++ other)) = true ->
  std_loop (S (S (S n))) ctx dflt kw bs kbs nested pargs acc (t :: toks) = Err InternalError.
Proof.
  intros ps other Ht Hb Hk He Hf Hm.
  assert (is_ws t = false /\ is_comment t = false /\ is_onoff t = false) as (W1 & W2 & W3)
    by (unfold is_ws, is_comment, is_onoff; rewrite Ht; auto).
  assert (normalized_kwarg t = Some (upper (spelling t))) as W4.
  { unfold normalized_kwarg, is_tt. rewrite Ht. reflexivity. }
  cbn [std_loop]. rewrite W1, W2, W3, W4, Hk, Hb. cbn [andb].
  replace (match pargs with p :: _ => p | nil => dflt end) with ps by (unfold ps; destruct pargs; reflexivity).
  fold other. cbn [pos_group take_ws]. rewrite W1. cbn [pos_loop]. rewrite Hf. cbn [bindr].
  assert (B : should_break t (bs ++ [kwbreaker (map fst kw ++ other)]) = true).
  { unfold should_break. rewrite existsb_app. apply orb_true_iff. right. simpl. now rewrite Hm. }
  rewrite B, He. cbn [negb orb andb bindr]. rewrite Nat.leb_refl. reflexivity.
Qed.
(** For every specification with a keyword that is not in upper case, using that
    keyword (in any letter case) is an internal error. *)
Theorem C55_lowercase_keyword_refuted : forall ctx n dflt kw bs kbs nested pargs acc t toks k p,
  In (k, p) kw -> tt t = WORD -> upper (spelling t) = upper k ->
  kw_lookup (upper k) kw = None -> should_break t bs = false ->
  is_exact (ps_nargs (hd dflt pargs)) = false -> pargs_are_full (ps_nargs (hd dflt pargs)) 0 = Ok false ->
  std_loop (S (S (S n))) ctx dflt kw bs kbs nested pargs acc (t :: toks) = Err InternalError.
Proof.
  intros ctx n dflt kw bs kbs nested pargs acc t toks k p Hin Ht Hu Hk Hb He Hf.
  apply stuck_word; auto; [now rewrite Hu|]. apply smem_In. rewrite Hu. apply in_map.
  apply in_app_iff. left. apply in_map_iff. now exists (k, p).
Qed.
Definition low_specs : list (str * uspec) :=
  [($"foo", USpec (UScalar (NStr $"*")) nil [($"src", UKScalar (NStr $"+"))] None None)].
Theorem C55_keyword_case_refuted : exists tbl toks, user_table low_specs = Ok tbl
  /\ tokenize $"foo(x src y)" = Ok toks /\ parse (std_ctx no_explicit nil tbl) toks = Err InternalError.
Proof. eexists. eexists. split; [vm_compute; reflexivity|]. split; vm_compute; reflexivity. Qed.

(** ** C56: flags of a later positional group *)
Theorem C56_later_flag_refuted : forall ctx n dflt kw bs kbs nested p q ps acc t toks fl,
  In fl (ps_flags q) -> ~ In fl (ps_flags p) -> tt t = WORD -> upper (spelling t) = upper fl ->
  kw_lookup (upper fl) kw = None -> should_break t bs = false ->
  is_exact (ps_nargs p) = false -> pargs_are_full (ps_nargs p) 0 = Ok false ->
  std_loop (S (S (S n))) ctx dflt kw bs kbs nested (p :: q :: ps) acc (t :: toks) = Err InternalError.
Proof.
  intros ctx n dflt kw bs kbs nested p q ps acc t toks fl Hin Hni Ht Hu Hk Hb He Hf.
  apply stuck_word; auto; [now rewrite Hu|]. apply smem_In. rewrite Hu. apply in_map.
  apply in_app_iff. right. cbn [tl hd flat_map]. apply in_app_iff. left. apply filter_In. split; auto.
  destruct (smem fl (ps_flags p)) eqn:E; auto. apply smem_In in E. contradiction.
Qed.
Definition flag_specs : list (str * uspec) :=
  [($"foo", USpec (UList [DScalar (NStr $"+"); DTuple (NStr $"*") (PDict false None None None (Some [$"FAST"]) None None false)])
      nil nil None None)].
Theorem C56_flag_order_refuted : exists tbl toks, user_table flag_specs = Ok tbl
  /\ tokenize $"foo(FAST x)" = Ok toks /\ parse (std_ctx no_explicit nil tbl) toks = Err InternalError.
Proof. eexists. eexists. split; [vm_compute; reflexivity|]. split; vm_compute; reflexivity. Qed.

(** ** C57: override_spec *)
Lemma rsplit_dot_app a b : ~ In 46%N b -> rsplit_dot (a ++ 46%N :: b) = Some (a, b).
Proof.
  intros Hb. assert (rsplit_dot b = None) as Hn.
  { clear a. induction b as [|c b IH]; auto. simpl. rewrite IH; [|intros F; apply Hb; now right].
    destruct (N.eqb c 46) eqn:E; auto. apply N.eqb_eq in E. exfalso. apply Hb. now left. }
  induction a as [|c a IH]; cbn [app rsplit_dot].
  - now rewrite Hn.
  - now rewrite IH.
Qed.
Lemma split_on_none c s : ~ In c s -> split_on c s = [s].
Proof.
  induction s as [|x s IH]; auto. intros H. cbn [split_on]. rewrite IH by (intros F; apply H; now right).
  destruct (N.eqb x c) eqn:E; auto. apply N.eqb_eq in E. exfalso. apply H. now left.
Qed.
(** Overriding a setting of any command the user did not define is
    rejected, whether or not the command is in the standard table. *)
Theorem C57_override_standard_refuted : forall kw name key,
  cmd_lookup name kw = None -> startswith $"parg" name = false -> ~ In 47%N name -> ~ In 46%N key ->
  apply_override (user_root kw) (name ++ $"." ++ key) = Err UserError.
Proof.
  intros kw name key Hk Hp Hn Hkey. unfold apply_override.
  change (name ++ $"." ++ key) with (name ++ 46%N :: key). rewrite rsplit_dot_app by auto.
  rewrite split_on_none by auto. cbn [ov_walk user_root]. now rewrite Hp, Hk.
Qed.
Example C57_override_ex : apply_override (user_root nil) $"set.max_subgroups_hwrap" = Err UserError
  /\ kw_lookup $"set" (std_table nil) <> None.
Proof. split; vm_compute; [reflexivity|discriminate]. Qed.
(** For the user's own commands the attributes of the specification are found. *)
Theorem C57_override_own_partial : forall kw name key c kws,
  cmd_lookup name kw = Some (CmdSpec c kws) -> startswith $"parg" name = false -> ~ In 47%N name ->
  ~ In 46%N key -> In key spec_attrs ->
  apply_override (user_root kw) (name ++ $"." ++ key) = Ok (OvAttr c).
Proof.
  intros kw name key c kws Hk Hp Hn Hkey Hin. unfold apply_override.
  change (name ++ $"." ++ key) with (name ++ 46%N :: key). rewrite rsplit_dot_app by auto.
  rewrite split_on_none by auto. cbn [ov_walk user_root]. rewrite Hp, Hk. cbn [ov_walk].
  apply smem_In in Hin. now rewrite Hin.
Qed.
(** A positional index one past the end is not reported as a configuration error
    but crashes. *)
Theorem C57_override_index_refuted : exists kw, (exists s, mk_spec $"foo" (USpec (UScalar (NInt 1)) nil nil None None) = Ok s
  /\ kw = [($"foo", s)]) /\ apply_override (user_root kw) $"foo/parg[1].sortable" = Err IndexErr
  /\ apply_override (user_root kw) $"foo/parg[2].sortable" = Err UserError
  /\ exists c, apply_override (user_root kw) $"foo/parg[0].sortable" = Ok (OvParg c 0).
Proof.
  eexists. split; [eexists; split; reflexivity|]. split; [vm_compute; reflexivity|].
  split; [vm_compute; reflexivity|]. eexists. vm_compute. reflexivity.
Qed.

Print Assumptions C47_counts_partial.
Print Assumptions C47_exact_group.
Print Assumptions C46_user_command.
Print Assumptions C45_empty_call_refuted.
Print Assumptions C55_lowercase_keyword_refuted.
Print Assumptions C57_override_standard_refuted.
