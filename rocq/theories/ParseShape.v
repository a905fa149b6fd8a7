(** * ParseShape: the trees the parser builds are the trees the layout expects *)
From Verif Require Import Base Regex Lex TextOps TextProofs Tree Parse ParseProofs Layout LayoutProofs Pieces.

(** ** The one irregularity: comment nodes

    A comment node below an argument, a flag or a closing parenthesis has to be a
    single bracket comment or begin with a line comment; a comment node among
    arguments has to end with a line comment as well.  (Not every comment node the
    parser builds does: see the witnesses in [PropFile].) *)
Definition is_line_tok (n : pnode) : bool := tok_is COMMENT n.
Definition begins_line (cs : list pnode) : bool := match cs with n :: _ => is_line_tok n | nil => false end.
Definition ends_line_tok (cs : list pnode) : bool := match rev cs with n :: _ => is_line_tok n | nil => false end.
(** the kinds whose children are laid out side by side *)
Definition among_k (k : kind) : bool := match k with KArgGroup _ | KPargGroup _ _ _ => true | _ => false end.
(** ... and the kinds that end with a trailing comment and are laid out so *)
Definition before_k (k : kind) : bool := match k with KArgument | KFlag | KParenGroup => true | _ => false end.
Definition regular (k : kind) (cs : list pnode) : bool :=
  is_bracket cs || (implb (among_k k || before_k k) (begins_line cs) && implb (among_k k) (ends_line_tok cs)).
Definition cm_in (k : kind) (n : pnode) : bool :=
  match n with N (KComment _) cs => regular k cs | _ => true end.
Fixpoint comments_ok (n : pnode) : bool :=
  match n with
  | T _ => true
  | N k cs => forallb (cm_in k) cs && forallb comments_ok cs
  end.

(** what the lexer guarantees about the tokens *)
Definition tgood (t : token) : Prop :=
  (is_tt COMMENT t = true -> ~ In cNL (spelling t))
  /\ (is_tt WORD t = true \/ is_tt ATWORD t = true -> one_line (spelling t) = true).

(** ** Keywords and flags are single-line texts *)
Definition pf (sp : pspec) : Prop := forallb one_line (ps_flags sp) = true.
Definition item_ok (i : seqitem) : Prop := match i with SPos sp _ _ => pf sp | _ => True end.
Definition nohash (s : str) : bool := negb (startswith [cHASH] s).
Definition gflags_ok (g : gaction) : Prop :=
  match g with
  | GPos sp _ _ _ => pf sp
  | GFlags flags _ => forallb one_line flags = true /\ forallb nohash flags = true
  | GKw _ _ _ _ => True
  end.
(** a keyword is found only at a word or an unquoted literal *)
Definition kw_head (toks : list token) : Prop :=
  match toks with t :: _ => normalized_kwarg t <> None | nil => True end.
Inductive wfk : parser -> Prop :=
| wk_std cs kw : Forall pf (cs_pargs cs) ->
    (forall k p, In (k, p) kw -> one_line k = true /\ wfk p) -> wfk (PStd cs kw)
| wk_pos sp : pf sp -> wfk (PPos sp)
| wk_tuple np nt fl : forallb one_line fl = true -> wfk (PTuple np nt fl)
| wk_shell : wfk PShell
| wk_cond : wfk PCond
| wk_null : wfk PNull
| wk_raise e : wfk (PRaise e)
| wk_disp f : (forall toks, wfk (f toks)) -> wfk (PDisp f)
| wk_seq items lp : Forall item_ok items -> wfok lp -> wfk (PSeq items lp)
| wk_inst : wfk PInstallTargets
| wk_exe s : wfk (PAddExe s)
| wk_lib s : wfk (PAddLib s)
with wfok : option gspec -> Prop :=
| wok_none : wfok None
| wok_some keep step :
    (forall acc toks w p extra chk, step acc toks = GKw w p extra chk -> one_line w = true /\ wfk p) ->
    (forall acc toks, gflags_ok (step acc toks)) ->
    (forall acc toks w p extra chk, step acc toks = GKw w p extra chk -> kw_head toks) ->
    wfok (Some (GSpec keep step)).
Definition wfkctx (ctx : pctx) : Prop := forall name p, db ctx name = Some p -> wfk p.

Lemma lookup_In k kw p : kw_lookup k kw = Some p -> In (k, p) kw.
Proof.
  induction kw as [|[k' p'] kw IH]; simpl; [discriminate|].
  destruct (seqb k k') eqn:E; intros H; [|auto].
  injection H as ->. apply seqb_eq in E. subst. auto.
Qed.
Lemma resolve_wk p : wfk p -> forall toks, wfk (resolve p toks).
Proof. induction 1; intros; simpl; try (constructor; auto; fail). auto. Qed.
Lemma install_wk : wfok (Some (GSpec (fun _ => false) install_step)).
Proof.
  constructor.
  - intros acc toks w p extra chk. unfold install_step.
    destruct toks as [|t toks]; [discriminate|].
    destruct (normalized_kwarg t) as [w'|]; [|discriminate].
    destruct (smem w' designated) eqn:Es.
    + intros H. injection H as <- <- <- <-. split; [|constructor].
      unfold smem in Es. apply existsb_exists in Es as (x & Hx & E). apply seqb_eq in E. subst x. simpl in Hx.
      repeat (destruct Hx as [<-|Hx]; [reflexivity|]). destruct Hx.
    + destruct (kw_lookup w' install_kwargs) as [q|] eqn:E; [|discriminate].
      intros H. injection H as <- <- <- <-.
      apply lookup_In in E. simpl in E.
      repeat (destruct E as [E|E]; [injection E as <- <-; split; [reflexivity|constructor; reflexivity]|]). destruct E.
  - intros acc toks. unfold install_step. destruct toks as [|t toks]; [reflexivity|].
    destruct (normalized_kwarg t) as [w'|]; [|reflexivity].
    destruct (smem w' designated); [exact I|]. destruct (kw_lookup w' install_kwargs); [exact I|reflexivity].
  - intros acc toks w p extra chk. unfold install_step, kw_head. destruct toks as [|t toks]; [easy|].
    destruct (normalized_kwarg t) as [w'|]; easy.
Qed.
Lemma kwarg_in_head t l : kwarg_in t l = true -> normalized_kwarg t <> None.
Proof. unfold kwarg_in. destruct (normalized_kwarg t); easy. Qed.
Lemma command_wk ctx name : wfkctx ctx -> wfk (command_parser ctx name).
Proof.
  intros H. unfold command_parser. destruct (db ctx name) eqn:E; [eapply H; eauto|].
  destruct (db ctx $"_default") eqn:E2; [eapply H; eauto|]. constructor; [repeat constructor|]. intros k p [].
Qed.

(** letter case does not make line endings *)
Lemma one_line_map (f : chr -> chr) s :
  (forall c, (N.eqb (f c) cNL || N.eqb (f c) cCR) = (N.eqb c cNL || N.eqb c cCR)) ->
  one_line (map f s) = one_line s.
Proof.
  intros H. unfold one_line. f_equal. induction s as [|c s IH]; simpl; auto. now rewrite H, IH.
Qed.
Lemma upc_eol c : (N.eqb (upc c) cNL || N.eqb (upc c) cCR) = (N.eqb c cNL || N.eqb c cCR).
Proof.
  unfold upc. destruct (_ && _) eqn:E; [|reflexivity].
  apply andb_prop in E as [A B]. apply N.leb_le in A. apply N.leb_le in B.
  unfold cNL, cCR. rewrite (proj2 (N.eqb_neq c 10%N)), (proj2 (N.eqb_neq c 13%N)) by lia.
  rewrite (proj2 (N.eqb_neq _ 10%N)), (proj2 (N.eqb_neq _ 13%N)) by lia. reflexivity.
Qed.
Lemma loc_eol c : (N.eqb (loc c) cNL || N.eqb (loc c) cCR) = (N.eqb c cNL || N.eqb c cCR).
Proof.
  unfold loc. destruct (_ && _) eqn:E; [|reflexivity].
  apply andb_prop in E as [A B]. apply N.leb_le in A. apply N.leb_le in B.
  unfold cNL, cCR. rewrite (proj2 (N.eqb_neq c 10%N)), (proj2 (N.eqb_neq c 13%N)) by lia.
  rewrite (proj2 (N.eqb_neq _ 10%N)), (proj2 (N.eqb_neq _ 13%N)) by lia. reflexivity.
Qed.
Lemma one_line_upper s : one_line (upper s) = one_line s.
Proof. apply one_line_map, upc_eol. Qed.
Lemma one_line_lower s : one_line (lower s) = one_line s.
Proof. apply one_line_map, loc_eol. Qed.

(** ** Children lists *)
Definition W (n : pnode) : Prop := wfb (create_box n) = true.
Definition arg_k (k : kind) : bool :=
  match k with KKwargGroup | KPargGroup _ _ _ | KParenGroup | KOnOff | KComment _ => true | _ => false end.
Definition parg_k (k : kind) : bool :=
  match k with KArgument | KFlag | KParenGroup | KOnOff | KComment _ => true | _ => false end.
Definition body_k (k : kind) : bool :=
  match k with KWhitespace | KComment _ | KOnOff | KFlow | KStatement _ | KAtStmt => true | _ => false end.
Definition inK (f : kind -> bool) (n : pnode) : Prop :=
  match n with T _ => True | N k _ => f k = true /\ W n end.
Definition isT (n : pnode) : Prop := match n with T _ => True | N _ _ => False end.
Definition goodT (n : pnode) : Prop := match n with T t => tgood t | N _ _ => False end.
(** a comment node *)
Definition inC (n : pnode) : Prop :=
  match n with N (KComment _) cs => Forall goodT cs | _ => False end.
(** the children a trailing comment adds *)
Definition trailing (tr : list pnode) : Prop :=
  exists ws, Forall isT ws /\ (tr = ws \/ exists c, inC c /\ tr = ws ++ [c]).
Definition inG (n : pnode) : Prop :=
  match n with N k _ => is_group_k k = true /\ W n | T _ => False end.

Definition kids (cs : list pnode) : list box :=
  flat_map (fun c =>
        match c with
        | T _ => nil
        | N KWhitespace _ => if node_newlines c <? 2 then nil else [create_box c]
        | N _ _ => [create_box c]
        end) cs.
Lemma create_eq k cs : create_box (N k cs) = B k cs (kids cs).
Proof. reflexivity. Qed.
Lemma kids_app a b : kids (a ++ b) = kids a ++ kids b.
Proof. apply flat_map_app. Qed.
Lemma kids_isT a : Forall isT a -> kids a = nil.
Proof. induction 1 as [|[t|k c] l Ht _ IH]; simpl; auto. destruct Ht. Qed.
Lemma kids_goodT a : Forall goodT a -> kids a = nil.
Proof. intros H. apply kids_isT. eapply Forall_impl; [|exact H]. intros [t|]; simpl; auto. Qed.
Lemma kids_one k cs : (match k with KWhitespace => false | _ => true end) = true ->
  kids [N k cs] = [create_box (N k cs)].
Proof. destruct k; try discriminate; reflexivity. Qed.
Lemma kids_forall (f : box -> bool) cs :
  Forall (fun n => match n with T _ => True | N _ _ => f (create_box n) = true end) cs ->
  forallb f (kids cs) = true.
Proof.
  induction 1 as [|[t|k c] cs H _ IH]; auto.
  change (N k c :: cs) with ([N k c] ++ cs). rewrite kids_app, forallb_app, IH, andb_true_r.
  destruct k; try (cbn [kids flat_map app]; cbn [forallb]; rewrite H; reflexivity).
  unfold kids, flat_map. destruct (_ <? _); [reflexivity|]. cbn [app forallb]. now rewrite H.
Qed.
Lemma comments_kids k cs : comments_ok (N k cs) = true -> Forall (fun n => comments_ok n = true) cs.
Proof. cbn [comments_ok]. intros H. apply andb_prop in H as [_ H]. now rewrite forallb_forall in H; apply Forall_forall. Qed.
Lemma comments_here k cs : comments_ok (N k cs) = true -> Forall (fun n => cm_in k n = true) cs.
Proof. cbn [comments_ok]. intros H. apply andb_prop in H as [H _]. now rewrite forallb_forall in H; apply Forall_forall. Qed.
Lemma W_kids f cs : Forall (inK f) cs -> forallb wfb (kids cs) = true.
Proof.
  intros H. apply kids_forall. rewrite Forall_forall in *. intros [t|k c] Hin; auto.
  now destruct (H _ Hin) as [_ Hw].
Qed.

Lemma comment_wfb x cs : Forall goodT cs -> wfb (create_box (N (KComment x) cs)) = true.
Proof.
  intros H. rewrite create_eq. rewrite (kids_goodT _ H). cbn [wfb forallb]. simpl. rewrite andb_true_r.
  unfold lines_only. apply forallb_forall. intros [t|] Hin; [|reflexivity].
  rewrite Forall_forall in H. specialize (H _ Hin). simpl in H. destruct H as [H _].
  destruct (is_tt COMMENT t); [|reflexivity]. simpl. specialize (H eq_refl).
  rewrite negb_true_iff. destruct (existsb (N.eqb cNL) (spelling t)) eqn:E; [|reflexivity].
  apply existsb_exists in E as (c & Hc & Ec). apply N.eqb_eq in Ec. subst. contradiction.
Qed.
Lemma inC_W n : inC n -> W n.
Proof. destruct n as [|k cs]; [easy|]. destruct k; try easy. intros H. now apply comment_wfb. Qed.
Lemma inC_in f n : (forall x, f (KComment x) = true) -> inC n -> inK f n.
Proof. intros Hf H. pose proof (inC_W _ H). destruct n as [|k cs]; [easy|]. destruct k; try easy; split; auto. Qed.
Lemma arg_W s cs : Forall (inK arg_k) cs -> inG (N (KArgGroup s) cs).
Proof.
  intros H. split; [reflexivity|]. unfold W. rewrite create_eq. cbn [wfb].
  rewrite (W_kids _ _ H). simpl. apply kids_forall. rewrite Forall_forall in *. intros [t|k c] Hin; auto.
  destruct (H _ Hin) as [Hk _]. rewrite create_eq. exact Hk.
Qed.
Lemma parg_W s tg sp cs : Forall (inK parg_k) cs -> W (N (KPargGroup s tg sp) cs).
Proof.
  intros H. unfold W. rewrite create_eq. cbn [wfb].
  rewrite (W_kids _ _ H). simpl. apply kids_forall. rewrite Forall_forall in *. intros [t|k c] Hin; auto.
  destruct (H _ Hin) as [Hk _]. rewrite create_eq. exact Hk.
Qed.
Lemma tail_kids tr : trailing tr -> tail_ok (kids tr) = true /\ forallb wfb (kids tr) = true.
Proof.
  intros (ws & Hws & [-> |(c & Hc & ->)]).
  - now rewrite (kids_isT _ Hws).
  - rewrite kids_app, (kids_isT _ Hws). destruct c as [|k cs]; [easy|]. destruct k; try easy.
    rewrite kids_one by reflexivity. cbn [app forallb]. now rewrite comment_wfb by exact Hc.
Qed.
Lemma trailing_wf tr : trailing tr -> forallb wfb (kids tr) = true.
Proof. intros H. now apply tail_kids. Qed.
Lemma scalar_in k t tr : k = KArgument \/ (k = KFlag /\ one_line (spelling t) = true) -> trailing tr ->
  inK parg_k (N k (T t :: tr)).
Proof.
  intros Hk Htr. split; [destruct Hk as [->|[-> _]]; reflexivity|]. destruct (tail_kids tr Htr) as [A B]. unfold W.
  rewrite create_eq. change (kids (T t :: tr)) with (kids tr). cbn [wfb]. rewrite B.
  destruct Hk as [->|[-> Ho]]; cbn [has_tok andb first_spelling]; rewrite ?Ho; exact A.
Qed.
Lemma onoff_in f t : f KOnOff = true -> is_onoff t = true -> inK f (N KOnOff [T t]).
Proof.
  intros Hf H. split; [exact Hf|]. unfold W. rewrite create_eq. cbn [wfb kids flat_map forallb andb onoff_ok].
  unfold onoff_text. unfold is_onoff in H. destruct (tt t); try discriminate; reflexivity.
Qed.
Lemma ws_in f ws : Forall isT ws -> Forall (inK f) ws.
Proof. intros H. eapply Forall_impl; [|exact H]. intros [t|]; simpl; tauto. Qed.

(** ** What the consumers return *)
Definition sh (Pn : pnode -> Prop) (toks : list token) (l : list pnode) (r : list token) : Prop :=
  Forall tgood toks -> Forall Pn l /\ Forall tgood r.

Lemma take_ws_sh toks : forall a r, take_ws toks = (a, r) -> Forall isT a /\ (Forall tgood toks -> Forall tgood r).
Proof.
  induction toks as [|t toks IH]; simpl; intros a r H.
  - injection H as <- <-. auto.
  - destruct (is_ws t).
    + destruct (take_ws toks) as [a0 r0]. injection H as <- <-. destruct (IH _ _ eq_refl) as [A B].
      split; [constructor; simpl; auto|]. intros Hg. apply B. eapply Forall_inv_tail; eauto.
    + injection H as <- <-. auto.
Qed.

Lemma cloop_sh p : forall k toks, (List.length toks <= k)%nat ->
  forall last a r, cloop p last toks = (a, r) -> sh goodT toks a r.
Proof.
  induction k as [|k IH]; intros toks Hk last a r H.
  - destruct toks; simpl in Hk; [|lia]. simpl in H. injection H as <- <-. intros Hg; auto.
  - destruct toks as [|t toks]; [simpl in H; injection H as <- <-; intros Hg; auto|].
    cbn [cloop] in H. simpl in Hk. intros Hg.
    destruct (p t && _); [|injection H as <- <-; auto].
    pose proof (Forall_inv Hg) as Ht. pose proof (Forall_inv_tail Hg) as Hg1.
    destruct toks as [|n r1]; [injection H as <- <-; auto using Forall_nil, Forall_cons|].
    assert (Hdef : forall a r, (let '(a, r) := cloop p (Some t) (n :: r1) in (T t :: a, r)) = (a, r) ->
              Forall goodT a /\ Forall tgood r).
    { intros a' r' H'. destruct (cloop p (Some t) (n :: r1)) as [a0 r0] eqn:E.
      injection H' as <- <-. apply (IH (n :: r1)) in E; [|simpl in *; lia].
      destruct (E Hg1) as [A B]. split; auto. }
    pose proof (Forall_inv Hg1) as Hn. pose proof (Forall_inv_tail Hg1) as Hg2.
    destruct r1 as [|c r2]; [now apply Hdef|].
    pose proof (Forall_inv Hg2) as Hc. pose proof (Forall_inv_tail Hg2) as Hg3.
    destruct (is_tt NEWLINE n && p c).
    + destruct (cloop p (Some t) (c :: r2)) as [a0 r0] eqn:E. injection H as <- <-.
      apply (IH (c :: r2)) in E; [|simpl in *; lia]. destruct (E Hg2) as [A B]. split; auto.
    + destruct r2 as [|c2 r3]; [now apply Hdef|].
      destruct (is_tt NEWLINE n && is_tt WHITESPACE c && p c2); [|now apply Hdef].
      destruct (cloop p (Some t) (c2 :: r3)) as [a0 r0] eqn:E. injection H as <- <-.
      apply (IH (c2 :: r3)) in E; [|simpl in *; lia]. destruct (E Hg3) as [A B]. split; auto.
Qed.

Lemma consume_comment_sh toks c r : consume_comment toks = Ok (c, r) -> sh inC toks [c] r.
Proof.
  unfold consume_comment. destruct toks as [|t toks]; [discriminate|]. intros H Hg.
  destruct (tmem _ _).
  - injection H as <- <-. split; [|eapply Forall_inv_tail; eauto].
    constructor; [|constructor]. simpl. constructor; [exact (Forall_inv Hg)|constructor].
  - destruct (cloop _ _ _) as [a0 r0] eqn:E. apply (cloop_sh _ _ _ (le_n _)) in E.
    destruct (E Hg) as [A B]. destruct a0; [discriminate|]. injection H as <- <-. auto.
Qed.

Section Shape.
  Variable ctx : pctx.

  Lemma exloop_sh toks : forall a r, exloop ctx toks = (a, r) -> sh goodT toks a r.
  Proof.
    induction toks as [|t toks IH]; intros a r H Hg.
    - simpl in H. injection H as <- <-. auto.
    - cbn [exloop] in H. destruct (next_is_explicit ctx (t :: toks)).
      + destruct (exloop ctx toks) as [a0 r0]. injection H as <- <-.
        destruct (IH _ _ eq_refl (Forall_inv_tail Hg)) as [A B].
        split; auto. constructor; auto. exact (Forall_inv Hg).
      + injection H as <- <-. auto.
  Qed.

  Lemma consume_trailing_sh toks a r : consume_trailing ctx toks = (a, r) ->
    Forall tgood toks -> trailing a /\ Forall tgood r.
  Proof.
    intros H Hg. unfold consume_trailing in H. destruct (negb _).
    { injection H as <- <-. split; auto. exists nil. auto. }
    destruct (next_is_explicit ctx toks).
    - destruct (take_ws toks) as [ws r0] eqn:E. apply take_ws_sh in E as [Hw E].
      destruct (exloop ctx r0) as [a0 r1] eqn:E2. apply exloop_sh in E2.
      destruct (E2 (E Hg)) as [A B]. injection H as <- <-. split; auto.
      exists ws. split; auto. right. exists (N (KComment true) a0). auto.
    - assert (Hh : forall ws r0, match toks with
          | t :: r => if is_tt WHITESPACE t then ([T t], r) else (nil, toks)
          | nil => (nil, nil) end = (ws, r0) -> Forall isT ws /\ Forall tgood r0).
      { intros ws r0. destruct toks as [|t toks]; [|destruct (is_tt WHITESPACE t)];
          intros H0; injection H0 as <- <-; split; auto; [repeat constructor|eapply Forall_inv_tail; eauto]. }
      destruct (match toks with nil => _ | _ => _ end) as [ws r0]. destruct (Hh _ _ eq_refl) as [Hw Hr].
      destruct (cloop is_valid_trailing None r0) as [a0 r1] eqn:E2.
      apply (cloop_sh _ _ _ (le_n _)) in E2. destruct (E2 Hr) as [A B].
      injection H as <- <-. split; auto.
      exists ws. split; auto. right. exists (N (KComment false) a0). auto.
  Qed.

  Definition inA := inK arg_k.
  Definition inP := inK parg_k.
  Lemma inC_A c : inC c -> inA c. Proof. apply inC_in. reflexivity. Qed.
  Lemma inC_P c : inC c -> inP c. Proof. apply inC_in. reflexivity. Qed.
  Lemma cm1_in b t : tgood t -> inC (N (KComment b) [T t]).
  Proof. intros H. simpl. auto. Qed.
  Lemma parg_inA s tg sp cs : Forall inP cs -> inA (N (KPargGroup s tg sp) cs).
  Proof. intros H. split; [reflexivity|]. now apply parg_W. Qed.
  Lemma parg_inG s tg sp cs : Forall inP cs -> inG (N (KPargGroup s tg sp) cs).
  Proof. intros H. split; [reflexivity|]. now apply parg_W. Qed.
  Lemma T_in f t : inK f (T t). Proof. exact I. Qed.
  Lemma snoc {P : pnode -> Prop} acc x : Forall P acc -> P x -> Forall P (acc ++ [x]).
  Proof. intros A B. apply Forall_app. auto. Qed.
  Lemma ws_A ws : Forall isT ws -> Forall inA ws. Proof. apply ws_in. Qed.
  Lemma ws_P ws : Forall isT ws -> Forall inP ws. Proof. apply ws_in. Qed.
  Lemma onoff_A t : is_onoff t = true -> inA (N KOnOff [T t]).
  Proof. now apply onoff_in. Qed.
  Lemma onoff_P t : is_onoff t = true -> inP (N KOnOff [T t]).
  Proof. now apply onoff_in. Qed.
  Lemma flag_or_arg (b : bool) t tr : (b = true -> one_line (spelling t) = true) -> trailing tr ->
    inP (N (if b then KFlag else KArgument) (T t :: tr)).
  Proof. intros Ho H. destruct b; apply scalar_in; auto. Qed.
  Lemma kwarg_upper t w : normalized_kwarg t = Some w -> one_line w = one_line (spelling t).
  Proof.
    unfold normalized_kwarg. destruct (_ && _); [|destruct (is_tt WORD t); [|discriminate]];
      intros H; injection H as <-; [apply one_line_lower|apply one_line_upper].
  Qed.
  Lemma smem_one_line w l : forallb one_line l = true -> smem w l = true -> one_line w = true.
  Proof.
    intros Hl H. unfold smem in H. apply existsb_exists in H as (x & Hx & E2). apply seqb_eq in E2. subst x.
    rewrite forallb_forall in Hl. auto.
  Qed.
  Lemma kwarg_one_line t l : forallb one_line l = true -> kwarg_in t l = true -> one_line (spelling t) = true.
  Proof.
    unfold kwarg_in. destruct (normalized_kwarg t) as [w|] eqn:E; [|discriminate]. intros Hl H.
    rewrite <- (kwarg_upper _ _ E). eapply smem_one_line; eauto.
  Qed.

  Lemma take_wsc_sh fuel : forall toks a r, take_wsc fuel toks = Ok (a, r) -> sh inA toks a r.
  Proof.
    induction fuel as [|f IH]; simpl; intros toks a r H Hg; [discriminate|].
    destruct toks as [|t toks]; [injection H as <- <-; auto|].
    pose proof (Forall_inv_tail Hg) as Hg1.
    destruct (is_ws t).
    { apply bindr_ok in H as ([a0 r0] & E & H). injection H as <- <-.
      destruct (IH _ _ _ E Hg1) as [A B]. split; auto. constructor; auto. exact I. }
    destruct (is_comment t).
    { apply bindr_ok in H as ([c r0] & E & H). apply bindr_ok in H as ([a1 r1] & E1 & H).
      injection H as <- <-. destruct (consume_comment_sh _ _ _ E Hg) as [A B].
      destruct (IH _ _ _ E1 B) as [A1 B1]. split; auto. constructor; auto. apply inC_A. exact (Forall_inv A). }
    destruct (is_onoff t) eqn:Eo.
    { apply bindr_ok in H as ([a0 r0] & E & H). injection H as <- <-.
      destruct (IH _ _ _ E Hg1) as [A B]. split; auto. constructor; auto. now apply onoff_A. }
    injection H as <- <-. auto.
  Qed.

  Lemma flag_loop_sh fuel flags bs : forallb one_line flags = true -> forall acc toks a r,
    Forall inP acc -> Forall tgood toks ->
    flag_loop fuel ctx flags bs acc toks = Ok (a, r) -> Forall inP a /\ Forall tgood r.
  Proof.
    intros Hfl. induction fuel as [|f IH]; simpl; intros acc toks a r Ha Hg H; [discriminate|].
    destruct toks as [|t toks]; [injection H as <- <-; auto|].
    pose proof (Forall_inv_tail Hg) as Hg1.
    destruct (should_break t bs); [injection H as <- <-; auto|].
    destruct (is_ws t); [eapply IH; [| |exact H]; auto; apply snoc; auto; exact I|].
    destruct (negb _) eqn:En; [injection H as <- <-; auto|].
    assert (Ho : one_line (spelling t) = true).
    { apply negb_false_iff in En. rewrite <- one_line_upper. eapply smem_one_line; eauto. }
    destruct (consume_trailing ctx toks) as [tr r0] eqn:E.
    destruct (consume_trailing_sh _ _ _ E Hg1) as [A B].
    eapply IH; [| |exact H]; auto. apply snoc; auto. apply (flag_or_arg true); auto.
  Qed.

  Definition inLate (n : pnode) : Prop := inA n.
  Lemma close_sub_sh flags acc sub late :
    Forall inA acc -> (forall cs, sub = Some cs -> Forall inP cs) -> Forall inA late ->
    Forall inA (close_sub flags acc sub late).
  Proof.
    intros Ha Hs Hl. unfold close_sub. apply Forall_app. split; auto. apply Forall_app. split; auto.
    destruct sub as [cs|]; auto. constructor; auto. apply parg_inA. auto.
  Qed.
  Lemma tuple_loop_sh fuel npargs ntup flags bs : forallb one_line flags = true -> forall np nt acc sub late toks a r,
    Forall inA acc -> (forall cs, sub = Some cs -> Forall inP cs) -> Forall inA late -> Forall tgood toks ->
    tuple_loop fuel ctx npargs ntup flags bs np nt acc sub late toks = Ok (a, r) ->
    Forall inA a /\ Forall tgood r.
  Proof.
    intros Hfl. induction fuel as [|f IH]; intros np nt acc sub late toks a r Ha Hs Hl Hg H; [discriminate|].
    cbn [tuple_loop] in H.
    assert (Hd : Ok (close_sub flags acc sub late, toks) = Ok (a, r) -> Forall inA a /\ Forall tgood r).
    { intros H'. injection H' as <- <-. split; auto. now apply close_sub_sh. }
    destruct toks as [|t toks]; [auto|].
    pose proof (Forall_inv_tail Hg) as Hg1.
    apply bindr_ok in H as (full & _ & H).
    destruct full; [auto|]. destruct (should_break t bs); [auto|].
    destruct (is_ws t).
    { eapply IH; [| | | |exact H]; auto. apply snoc; auto. exact I. }
    destruct (is_comment t).
    { eapply IH; [| | | |exact H]; auto. apply snoc; auto. apply inC_A, cm1_in, (Forall_inv Hg). }
    destruct toks as [|t' toks]; [discriminate|].
    destruct (is_onoff t') eqn:Eo.
    { eapply IH; [| | | |exact H]; auto; [|exact (Forall_inv_tail Hg1)]. apply snoc; auto. now apply onoff_A. }
    assert (H1 : exists acc1 sub1 late1 nt1, Forall inA acc1 /\ Forall inP sub1 /\ Forall inA late1 /\
      match sub with Some cs => (acc, cs, late, nt) | None => (acc ++ late, nil, nil, 0) end
      = (acc1, sub1, late1, nt1)).
    { destruct sub as [cs|].
      - exists acc, cs, late, nt. auto.
      - exists (acc ++ late), nil, nil, 0. split; [apply Forall_app; auto|auto]. }
    destruct H1 as (acc1 & sub1 & late1 & nt1 & A1 & S1 & L1 & E1). rewrite E1 in H.
    destruct (consume_trailing ctx (t' :: toks)) as [tr r0] eqn:E.
    destruct (consume_trailing_sh _ _ _ E Hg1) as [A B].
    assert (S2 : Forall inP (sub1 ++ [N (if kwarg_in t flags then KFlag else KArgument) (T t :: tr)])).
    { apply snoc; auto. apply flag_or_arg; eauto using kwarg_one_line. }
    destruct (_ >=? _).
    - eapply IH; [| | | |exact H]; auto; [|discriminate].
      apply close_sub_sh; auto. intros cs' E'. injection E' as <-. exact S2.
    - eapply IH; [| | | |exact H]; auto. intros cs' E'. injection E' as <-. exact S2.
  Qed.

  Definition a_ok (m : amach) : Prop :=
    Forall inA (a_tree m) /\ Forall inP (a_g1 m)
    /\ (forall s cs, a_g2 m = Some (s, cs) -> Forall inP cs) /\ Forall inA (a_tail m).
  Lemma a_done_ok m : a_ok m -> Forall inA (a_done m).
  Proof.
    intros (A & B & C & D). unfold a_done. apply Forall_app. split; auto. apply Forall_app. split.
    { destruct (_ =? _); auto. constructor; auto. now apply parg_inA. }
    apply Forall_app. split; auto. destruct (a_g2 m) as [[s cs]|]; auto.
    constructor; auto. unfold srcgroup. apply parg_inA. eauto.
  Qed.
  Lemma a_append_ok m n : inA n -> inP n -> a_ok m -> a_ok (a_append m n).
  Proof.
    intros HA HP (A & B & C & D). unfold a_append. destruct m as [st so tr g1 g2 tl at_]; simpl in *.
    destruct at_; [|destruct g2 as [[s cs]|]; [|destruct (_ =? _)]]; unfold a_ok; simpl;
      (split; [|split; [|split]]); auto using snoc; try discriminate.
    intros s' cs' E. injection E as <- <-. apply snoc; eauto.
  Qed.
  Ltac aok := unfold a_ok; simpl; (split; [|split; [|split]]); auto; try discriminate.
  Lemma add_loop_sh islib bs fuel : forall m toks a r,
    a_ok m -> Forall tgood toks -> add_loop fuel ctx islib bs m toks = Ok (a, r) ->
    Forall inA a /\ Forall tgood r.
  Proof.
    induction fuel as [|f IH]; intros m toks a r W0 Hg H; [discriminate|].
    cbn [add_loop] in H.
    destruct toks as [|t toks]; [injection H as <- <-; auto using a_done_ok|].
    pose proof (Forall_inv_tail Hg) as Hg1. pose proof (Forall_inv Hg) as Ht.
    destruct (is_tt RIGHT_PAREN t); [injection H as <- <-; auto using a_done_ok|].
    destruct (is_ws t).
    { eapply IH; [| |exact H]; auto. apply a_append_ok; auto; exact I. }
    destruct (is_comment t).
    { match type of H with context [AMach _ ?s _ _ _ _ _] => set (so := s) in H end.
      set (m0 := a_append m (N (KComment false) [T t])) in H.
      assert (a_ok m0).
      { apply a_append_ok; auto; [apply inC_A|apply inC_P]; now apply cm1_in. }
      eapply IH; [| |exact H]; auto. }
    destruct (consume_trailing ctx toks) as [tr' r0] eqn:E.
    destruct (consume_trailing_sh _ _ _ E Hg1) as [A B].
    destruct m as [st so tr g1 g2 tl at_]. cbn [a_st a_sort a_tree a_g1 a_g2 a_tail a_at_tree] in H.
    destruct W0 as (W1 & W2 & W3 & W4). simpl in W1, W2, W3, W4.
    assert (Harg : inP (N KArgument (T t :: tr'))) by (apply (flag_or_arg false); [discriminate|auto]).
    assert (Hflag : forall l, forallb one_line l = true -> kwarg_in t l = true -> inP (N KFlag (T t :: tr')))
      by (intros l Hl Hk; apply (flag_or_arg true); eauto using kwarg_one_line).
    assert (Hnil : forall s cs, Some (so, @nil pnode) = Some (s, cs) -> Forall inP cs).
    { intros s cs E'. injection E' as <- <-. auto. }
    destruct (st =? 1).
    { eapply IH; [| |exact H]; auto. aok. }
    destruct (st =? 2).
    { destruct islib.
      - destruct (kwarg_in t lib_types) eqn:Ek; [apply (Hflag lib_types eq_refl) in Ek|]; (eapply IH; [| |exact H]; auto; aok; auto using snoc).
      - destruct (kwarg_in t exe_flags) eqn:Ek; [apply (Hflag exe_flags eq_refl) in Ek|]; (eapply IH; [| |exact H]; auto; aok; auto using snoc). }
    destruct (st =? 3).
    { destruct (kwarg_in t _) eqn:Ek; [apply (Hflag [$"EXCLUDE_FROM_ALL"] eq_refl) in Ek|]; (eapply IH; [| |exact H]; auto; aok; auto using snoc). }
    eapply IH; [| |exact H]; auto. aok.
    intros s cs E'. destruct g2 as [[s2 cs2]|]; injection E' as <- <-; auto.
    apply snoc; eauto.
  Qed.

  Lemma add_tag_in tag n : inA n -> inA (add_tag tag n).
  Proof.
    destruct n as [t|k cs]; [auto|]. destruct k; auto.
  Qed.
  Lemma add_tags_in tags : forall n, inA n -> inA (add_tags tags n).
  Proof. unfold add_tags. induction tags as [|t tags IH]; simpl; auto using add_tag_in. Qed.

  Lemma call_cond_kind n bs nested toks x r : call n ctx PCond bs nested toks = Ok (x, r) ->
    exists cs, x = N (KArgGroup None) cs.
  Proof.
    destruct n; [discriminate|]. cbn [call resolve]. destruct (take_ws toks) as [ws r0]. intros H.
    apply bindr_ok in H as ([a r1] & E & H). injection H as <- <-. eauto.
  Qed.
  Lemma kwgroup_W t ws body : one_line (spelling t) = true -> Forall isT ws ->
    (body = nil \/ exists g, inG g /\ body = [g]) ->
    inA (N KKwargGroup (N KKeyword [T t] :: ws ++ body)).
  Proof.
    intros Ht Hw Hb. split; [reflexivity|]. unfold W. rewrite create_eq.
    change (N KKeyword [T t] :: ws ++ body) with ([N KKeyword [T t]] ++ (ws ++ body)).
    rewrite !kids_app, (kids_isT _ Hw). rewrite kids_one by reflexivity. rewrite create_eq. cbn [app kids flat_map].
    destruct Hb as [->|(g & Hg & ->)].
    - cbn [kids flat_map wfb forallb has_tok first_spelling]. now rewrite Ht.
    - destruct g as [t'|k cs]; [easy|]. destruct Hg as [Hk Hg].
      rewrite kids_one by (destruct k; discriminate || reflexivity).
      cbn [wfb forallb has_tok first_spelling]. rewrite Ht.
      change ((wfb (create_box (N k cs)) && true) && is_group_k (bkind (create_box (N k cs))) = true).
      rewrite Hg. rewrite create_eq. exact Hk.
  Qed.
  Lemma paren_W t t2 s cs tr : W (N (KArgGroup s) cs) -> trailing tr ->
    forall f, f KParenGroup = true -> inK f (N KParenGroup ([N KLParen [T t]; N (KArgGroup s) cs; N KRParen [T t2]] ++ tr)).
  Proof.
    intros Hs Htr f Hf. split; [exact Hf|]. unfold W in *. rewrite create_eq.
    destruct (tail_kids _ Htr) as [A B].
    rewrite kids_app. cbn [kids flat_map app].
    cbn [wfb forallb]. rewrite Hs. rewrite !create_eq. cbn [wfb forallb kids flat_map bkind is_lparen_k is_arggroup_k is_rparen_k andb].
    rewrite B. exact A.
  Qed.

  Lemma split_default_pf l : Forall pf l -> pf (fst (split_default l)) /\ Forall pf (snd (split_default l)).
  Proof.
    intros H. unfold split_default. destruct l as [|p [|q l]]; [split; [reflexivity|constructor]| |split; [reflexivity|exact H]].
    pose proof (Forall_inv H). destruct (_ && _); simpl; split; auto; reflexivity.
  Qed.
  Record Sh (n : nat) : Prop := {
    sh_call : forall p bs nested toks x r, wfk p -> Forall tgood toks ->
      call n ctx p bs nested toks = Ok (x, r) -> inG x /\ Forall tgood r;
    sh_std : forall dflt kw bs kbs nested pargs acc toks a r, pf dflt -> Forall pf pargs ->
      (forall k p, In (k, p) kw -> one_line k = true /\ wfk p) -> Forall inA acc -> Forall tgood toks ->
      std_loop n ctx dflt kw bs kbs nested pargs acc toks = Ok (a, r) -> Forall inA a /\ Forall tgood r;
    sh_posg : forall sp bs nested toks x r, pf sp -> Forall tgood toks ->
      pos_group n ctx sp bs nested toks = Ok (x, r) -> inA x /\ inG x /\ Forall tgood r;
    sh_pos : forall sp bs nested nc acc toks a r, pf sp -> Forall inP acc -> Forall tgood toks ->
      pos_loop n ctx sp bs nested nc acc toks = Ok (a, r) -> Forall inP a /\ Forall tgood r;
    sh_cond : forall bs acc toks a r, Forall inA acc -> Forall tgood toks ->
      cond_loop n ctx bs acc toks = Ok (a, r) -> Forall inA a /\ Forall tgood r;
    sh_kw : forall w p bs toks x r, one_line w = true -> wfk p -> Forall tgood toks ->
      kwgroup n ctx w p bs toks = Ok (x, r) -> inA x /\ Forall tgood r;
    sh_paren : forall toks x r, Forall tgood toks -> paren n ctx toks = Ok (x, r) ->
      inA x /\ inP x /\ Forall tgood r;
    sh_seq : forall items lp bs nested acc toks a r, Forall item_ok items -> wfok lp -> Forall inA acc -> Forall tgood toks ->
      seq_items n ctx items lp bs nested acc toks = Ok (a, r) -> Forall inA a /\ Forall tgood r;
    sh_gl : forall keep step bs nested acc toks a r, wfok (Some (GSpec keep step)) ->
      Forall inA acc -> Forall tgood toks ->
      gloop n ctx keep step bs nested acc toks = Ok (a, r) -> Forall inA a /\ Forall tgood r }.

  Ltac fin H := injection H as <- <-; auto.

  Lemma all_Sh n : Sh n.
  Proof.
    induction n as [|m IH]; [constructor; intros; discriminate|].
    constructor.
    - (* call *)
      intros p bs nested toks x r Hp Hg H. cbn [call] in H.
      apply resolve_wk with (toks := toks) in Hp.
      destruct (resolve p toks) as [cs kw|sp|np nt fl| | | |e|f|items lp| |so|so].
      + destruct (take_ws toks) as [ws r0] eqn:Ew. apply take_ws_sh in Ew as [Hw Er].
        inversion Hp as [? ? Hpf Hkw| | | | | | | | | | |]; subst.
        destruct (split_default_pf (cs_pargs cs) Hpf) as [Hd1 Hd2].
        destruct (split_default (cs_pargs cs)) as [dflt pargs]. cbn [fst snd] in Hd1, Hd2.
        apply bindr_ok in H as ([a r1] & E & H). injection H as <- <-.
        apply sh_std in E as [A B]; auto using ws_A. split; auto. now apply arg_W.
      + inversion Hp; subst. apply sh_posg in H as (_ & A & B); auto.
      + apply bindr_ok in H as ([a r1] & E & H). injection H as <- <-.
        inversion Hp; subst. apply tuple_loop_sh in E as [A B]; auto; [|discriminate]. split; auto. now apply arg_W.
      + destruct (take_ws toks) as [ws r0] eqn:Ew. apply take_ws_sh in Ew as [Hw Er].
        cbn [split_default cs_pargs legacy_cspec ps_legacy ps_nargs is_exact negb andb] in H.
        apply bindr_ok in H as ([a r1] & E & H). injection H as <- <-.
        apply sh_std in E as [A B]; auto using ws_A; [|reflexivity|intros k q []]. split; auto. apply arg_W.
        rewrite Forall_map. eapply Forall_impl; [|exact A]. intros; now apply add_tag_in.
      + destruct (take_ws toks) as [ws r0] eqn:Ew. apply take_ws_sh in Ew as [Hw Er].
        apply bindr_ok in H as ([a r1] & E & H). injection H as <- <-.
        apply sh_cond in E as [A B]; auto using ws_A. split; auto. now apply arg_W.
      + injection H as <- <-. split; auto. now apply arg_W.
      + discriminate.
      + discriminate.
      + apply bindr_ok in H as ([a r1] & E & H). injection H as <- <-. inversion Hp; subst.
        apply sh_seq in E as [A B]; auto. split; auto. now apply arg_W.
      + apply bindr_ok in H as ([a r1] & E & H). injection H as <- <-.
        apply sh_seq in E as [A B]; auto; [|repeat constructor|apply install_wk]. split; auto. now apply arg_W.
      + destruct (take_ws toks) as [ws r0] eqn:Ew. apply take_ws_sh in Ew as [Hw Er].
        apply bindr_ok in H as ([a r1] & E & H). injection H as <- <-.
        apply add_loop_sh in E as [A B]; [|aok; now apply ws_A|auto]. split; auto. now apply arg_W.
      + destruct (take_ws toks) as [ws r0] eqn:Ew. apply take_ws_sh in Ew as [Hw Er].
        apply bindr_ok in H as ([a r1] & E & H). injection H as <- <-.
        apply add_loop_sh in E as [A B]; [|aok; now apply ws_A|auto]. split; auto. now apply arg_W.
    - (* std_loop *)
      intros dflt kw bs kbs nested pargs acc toks a r Hd Hpa Hkw Ha Hg H. cbn [std_loop] in H.
      destruct toks as [|t toks]; [fin H|]. pose proof (Forall_inv_tail Hg) as Hg1.
      destruct (is_ws t). { eapply sh_std; [exact IH| | |exact Hkw| | |exact H]; auto. apply snoc; auto. exact I. }
      destruct (is_comment t).
      { destruct (belongs_up _ _ _ _); [fin H|].
        apply bindr_ok in H as ([c r1] & E & H). destruct (consume_comment_sh _ _ _ E Hg) as [A B].
        apply Forall_inv in A. eapply sh_std; [exact IH| | |exact Hkw| | |exact H]; auto. apply snoc; auto. now apply inC_A. }
      destruct (is_onoff t) eqn:Eo.
      { eapply sh_std; [exact IH| | |exact Hkw| | |exact H]; auto. apply snoc; auto. now apply onoff_A. }
      destruct (should_break t bs && _); [fin H|].
      destruct (match normalized_kwarg t with Some _ => _ | None => _ end) as [[w p]|] eqn:Ek.
      + apply bindr_ok in H as ([sub r1] & E & H).
        assert (Hp : one_line w = true /\ wfk p).
        { destruct (normalized_kwarg t); [|discriminate]. destruct (kw_lookup s kw) eqn:El; [|discriminate].
          injection Ek as <- <-. apply lookup_In in El. eauto. }
        destruct Hp as [Hw Hp]. apply sh_kw in E as [A B]; auto.
        destruct (_ <=? _)%nat; [discriminate|].
        eapply sh_std; [exact IH| | |exact Hkw| | |exact H]; auto. now apply snoc.
      + assert (Hps : pf (match pargs with p :: _ => p | nil => dflt end) /\ Forall pf (tl pargs)).
        { destruct Hpa; simpl; auto. }
        destruct Hps as [Hps Htl].
        apply bindr_ok in H as ([sub r1] & E & H). apply sh_posg in E as (A & _ & B); auto.
        destruct (_ <=? _)%nat; [discriminate|].
        eapply sh_std; [exact IH| | |exact Hkw| | |exact H]; auto. now apply snoc.
    - (* pos_group *)
      intros sp bs nested toks x r Hsp Hg H. cbn [pos_group] in H.
      destruct (take_ws toks) as [ws r0] eqn:Ew. apply take_ws_sh in Ew as [Hw Er].
      apply bindr_ok in H as ([a r1] & E & H). injection H as <- <-.
      apply sh_pos in E as [A B]; auto using ws_P. split; [now apply parg_inA|].
      split; auto. now apply parg_inG.
    - (* pos_loop *)
      intros sp bs nested nc acc toks a r Hsp Ha Hg H. cbn [pos_loop] in H.
      destruct toks as [|t toks]; [fin H|]. pose proof (Forall_inv_tail Hg) as Hg1.
      apply bindr_ok in H as (full & _ & H).
      destruct full; [fin H|].
      destruct (should_break t bs && _); [fin H|].
      destruct (is_tt LEFT_PAREN t).
      { apply bindr_ok in H as ([sub r1] & E & H). apply sh_paren in E as (_ & A & B); auto.
        eapply sh_pos; [exact IH| | | |exact H]; auto. now apply snoc. }
      destruct (is_ws t).
      { eapply sh_pos; [exact IH| | | |exact H]; auto. apply snoc; auto. exact I. }
      destruct (is_comment t).
      { destruct (belongs_up _ _ _ _); [fin H|].
        apply bindr_ok in H as ([c r1] & E & H). destruct (consume_comment_sh _ _ _ E Hg) as [A B].
        apply Forall_inv in A. eapply sh_pos; [exact IH| | | |exact H]; auto. apply snoc; auto. now apply inC_P. }
      destruct (is_onoff t) eqn:Eo.
      { eapply sh_pos; [exact IH| | | |exact H]; auto. apply snoc; auto. now apply onoff_P. }
      destruct (consume_trailing ctx toks) as [tr r1] eqn:E.
      destruct (consume_trailing_sh _ _ _ E Hg1) as [A B].
      eapply sh_pos; [exact IH| | | |exact H]; auto. apply snoc; auto. apply flag_or_arg; eauto using kwarg_one_line.
    - (* cond_loop *)
      intros bs acc toks a r Ha Hg H. cbn [cond_loop] in H.
      destruct toks as [|t toks]; [fin H|]. pose proof (Forall_inv_tail Hg) as Hg1.
      destruct (should_break t bs); [fin H|].
      destruct (is_ws t). { eapply sh_cond; [exact IH| | |exact H]; auto. apply snoc; auto. exact I. }
      destruct (is_comment t).
      { eapply sh_cond; [exact IH| | |exact H]; auto. apply snoc; auto. apply inC_A, cm1_in, (Forall_inv Hg). }
      destruct (is_onoff t) eqn:Eo.
      { eapply sh_cond; [exact IH| | |exact H]; auto. apply snoc; auto. now apply onoff_A. }
      destruct (is_tt LEFT_PAREN t).
      { apply bindr_ok in H as ([sub r1] & E & H). apply sh_paren in E as (A & _ & B); auto.
        eapply sh_cond; [exact IH| | |exact H]; auto. now apply snoc. }
      destruct (kwarg_in t cond_words) eqn:Ekw.
      + apply bindr_ok in H as ([sub r1] & E & H).
        apply sh_kw in E as [A B]; auto; [|rewrite one_line_upper; apply (kwarg_one_line _ cond_words eq_refl Ekw)|constructor].
        destruct (_ <=? _)%nat; [discriminate|].
        eapply sh_cond; [exact IH| | |exact H]; auto. now apply snoc.
      + apply bindr_ok in H as ([sub r1] & E & H). apply sh_posg in E as (A & _ & B); auto; [|reflexivity].
        eapply sh_cond; [exact IH| | |exact H]; auto. now apply snoc.
    - (* kwgroup *)
      intros w p bs toks x r Hw Hp Hg H. cbn [kwgroup] in H.
      destruct toks as [|t toks]; [discriminate|]. pose proof (Forall_inv_tail Hg) as Hg1.
      destruct (negb _) eqn:Eu; [discriminate|].
      apply negb_false_iff, seqb_eq in Eu.
      assert (Ht : one_line (spelling t) = true).
      { rewrite <- one_line_upper, Eu, one_line_upper. exact Hw. }
      destruct (take_ws toks) as [ws r0] eqn:Ew. apply take_ws_sh in Ew as [Hws Er].
      apply bindr_ok in H as ([sub r1] & E & H). apply (sh_call _ IH) in E as [A B]; auto.
      injection H as <- <-. split; auto. apply kwgroup_W; auto.
      destruct (_ <? _)%nat; [right; eauto|now left].
    - (* paren *)
      intros toks x r Hg H. cbn [paren] in H.
      destruct toks as [|t toks]; [discriminate|]. pose proof (Forall_inv_tail Hg) as Hg1.
      destruct (negb _); [discriminate|].
      apply bindr_ok in H as ([sub r1] & E & H).
      destruct (call_cond_kind _ _ _ _ _ _ E) as (cs & ->).
      apply (sh_call _ IH) in E as [A B]; auto; [|constructor].
      destruct r1 as [|t2 r1]; [discriminate|].
      destruct (negb _); [discriminate|].
      destruct (consume_trailing ctx r1) as [tr r2] eqn:Et. injection H as <- <-.
      destruct (consume_trailing_sh _ _ _ Et (Forall_inv_tail B)) as [C D].
      destruct A as [_ A].
      split; [|split; auto]; (apply paren_W; auto).
    - (* seq_items *)
      intros items lp bs nested acc toks a r Hit Hlp Ha Hg H. cbn [seq_items] in H.
      destruct items as [|it items].
      { destruct lp as [[keep step]|]; [|fin H]. eapply sh_gl; eauto. }
      pose proof (Forall_inv Hit) as Hi. pose proof (Forall_inv_tail Hit) as Hits.
      destruct it as [| |sp extra must].
      + destruct (take_ws toks) as [ws r0] eqn:Ew. apply take_ws_sh in Ew as [Hws Er].
        eapply sh_seq; [exact IH|exact Hits|exact Hlp| | |exact H]; auto. apply Forall_app; auto using ws_A.
      + apply bindr_ok in H as ([ws r0] & Ew & H). destruct (take_wsc_sh _ _ _ _ Ew Hg) as [A B].
        eapply sh_seq; [exact IH|exact Hits|exact Hlp| | |exact H]; auto. apply Forall_app; auto.
      + apply bindr_ok in H as ([sub r1] & E & H). apply sh_posg in E as (A & _ & B); auto.
        destruct (must && _); [discriminate|].
        eapply sh_seq; [exact IH|exact Hits|exact Hlp| | |exact H]; auto. now apply snoc.
    - (* gloop *)
      intros keep step bs nested acc toks a r Hlp Ha Hg H. cbn [gloop] in H.
      destruct toks as [|t toks]; [fin H|]. pose proof (Forall_inv_tail Hg) as Hg1.
      destruct (should_break t bs); [fin H|].
      destruct (is_ws t). { eapply sh_gl; [exact IH|exact Hlp| | |exact H]; auto. apply snoc; auto. exact I. }
      destruct (is_comment t && negb (keep t)).
      { eapply sh_gl; [exact IH|exact Hlp| | |exact H]; auto. apply snoc; auto. apply inC_A, cm1_in, (Forall_inv Hg). }
      apply bindr_ok in H as ([sub r1] & E & H).
      destruct (_ <=? _)%nat; [discriminate|].
      assert (HQ : inA sub /\ Forall tgood r1).
      { assert (Hst : gflags_ok (step acc (t :: toks))) by (inversion Hlp; subst; auto).
        destruct (step acc (t :: toks)) as [w p extra chk|sp extra push tags|flags extra] eqn:Es.
        - apply bindr_ok in E as ([sub0 r0] & E & E2).
          assert (Hq : one_line w = true /\ wfk p) by (inversion Hlp; subst; eauto). destruct Hq as [Hw Hp].
          apply sh_kw in E as [A B]; auto.
          destruct (chk sub0 r0); [discriminate|]. injection E2 as <- <-. auto.
        - apply bindr_ok in E as ([sub0 r0] & E & E2). apply sh_posg in E as (A & _ & B); auto.
          injection E2 as <- <-. auto using add_tags_in.
        - apply bindr_ok in E as ([a0 r0] & E & E2). injection E2 as <- <-.
          destruct Hst as [Hst _]. apply flag_loop_sh in E as [A B]; auto. auto using parg_inA. }
      destruct HQ as [A B]. eapply sh_gl; [exact IH|exact Hlp| | |exact H]; auto. now apply snoc.
  Qed.

  (** *** Statements and bodies *)
  Hypothesis Hctx : wfkctx ctx.

  Lemma stmt_tail_sh fuel : forall toks a r, stmt_tail fuel toks = Ok (a, r) -> sh inA toks a r.
  Proof.
    induction fuel as [|f IH]; simpl; intros toks a r H Hg; [discriminate|].
    destruct toks as [|t toks]; [discriminate|]. pose proof (Forall_inv_tail Hg) as Hg1.
    destruct (is_tt RIGHT_PAREN t); [fin H|].
    destruct (is_ws t).
    { apply bindr_ok in H as ([a0 r0] & E & H). injection H as <- <-.
      destruct (IH _ _ _ E Hg1) as [A B]. split; auto. constructor; auto. exact I. }
    destruct (is_tt COMMENT t); [|discriminate].
    apply bindr_ok in H as ([c r0] & E & H). apply bindr_ok in H as ([a1 r1] & E1 & H).
    injection H as <- <-. destruct (consume_comment_sh _ _ _ E Hg) as [A B].
    destruct (IH _ _ _ E1 B) as [A1 B1]. split; auto. constructor; auto. apply inC_A. exact (Forall_inv A).
  Qed.

  Definition wword (toks : list token) : Prop :=
    match toks with t :: _ => one_line (spelling t) = true | nil => True end.
  Definition inB := inK body_k.
  Definition inF (n : pnode) : Prop :=
    match n with N k _ => (is_statement_k k || is_body_k k) = true /\ W n | T _ => False end.

  Lemma leaf_wfb k t : (k = KLParen \/ k = KRParen) -> wfb (create_box (N k [T t])) = true.
  Proof. intros [-> | ->]; reflexivity. Qed.

  Lemma statement_sh n toks x r : Forall tgood toks -> wword toks -> statement n ctx toks = Ok (x, r) ->
    inB x /\ inF x /\ Forall tgood r.
  Proof.
    intros Hg Hw H. unfold statement in H. destruct toks as [|fn r0]; [discriminate|].
    destruct (take_ws r0) as [ws r1] eqn:Ew. apply take_ws_sh in Ew as [Hws Er].
    specialize (Er (Forall_inv_tail Hg)).
    destruct r1 as [|lp r1]; [discriminate|].
    destruct (negb _); [discriminate|].
    destruct (take_ws r1) as [ws2 r2] eqn:Ew2. apply take_ws_sh in Ew2 as [Hws2 Er2].
    specialize (Er2 (Forall_inv_tail Er)).
    apply bindr_ok in H as ([args r3] & E & H).
    apply (sh_call _ (all_Sh n)) in E as [A B]; auto; [|now apply command_wk].
    apply bindr_ok in H as ([tl r4] & Et & H). destruct (stmt_tail_sh _ _ _ _ Et B) as [C D].
    destruct r4 as [|rp r5]; [discriminate|].
    destruct (consume_trailing ctx r5) as [tr r6] eqn:Etr.
    destruct (consume_trailing_sh _ _ _ Etr (Forall_inv_tail D)) as [F G].
    injection H as <- <-.
    assert (HW : W (N (KStatement (stmt_cmdspec (command_parser ctx (lower (spelling fn)))))
       (N KFunname [T fn] :: ws ++ [N KLParen [T lp]] ++ ws2 ++ [args] ++ tl ++ [N KRParen [T rp]] ++ tr))).
    { unfold W. rewrite create_eq.
      change (N KFunname [T fn] :: ?l) with ([N KFunname [T fn]] ++ l).
      rewrite !kids_app, (kids_isT _ Hws), (kids_isT _ Hws2).
      destruct args as [|k cs]; [easy|]. destruct A as [Hk A]. unfold W in A.
      rewrite (kids_one k) by (destruct k; discriminate || reflexivity).
      rewrite !kids_one by reflexivity. cbn [app].
      cbn [wfb forallb]. simpl in Hw. rewrite A, !forallb_app, (W_kids _ _ C). cbn [forallb].
      rewrite (trailing_wf _ F).
      rewrite !create_eq. cbn [wfb kids flat_map has_tok first_spelling forallb andb]. now rewrite Hw. }
    split; [split; auto|]. split; [split; auto|]. exact G.
  Qed.

  Lemma atword_sh toks x r : Forall tgood toks -> wword toks -> atword_statement ctx toks = Ok (x, r) ->
    inB x /\ Forall tgood r.
  Proof.
    intros Hg Hw H. unfold atword_statement in H. destruct toks as [|t toks]; [discriminate|].
    destruct (consume_trailing ctx toks) as [tr r6] eqn:Etr.
    destruct (consume_trailing_sh _ _ _ Etr (Forall_inv_tail Hg)) as [F G].
    injection H as <- <-. split; auto. split; [reflexivity|].
    unfold W. rewrite create_eq.
    change (N KAtWord [T t] :: ?l) with ([N KAtWord [T t]] ++ l).
    rewrite kids_app, kids_one by reflexivity. cbn [app wfb forallb].
    rewrite (trailing_wf _ F), create_eq. cbn [wfb kids flat_map has_tok first_spelling forallb andb].
    simpl in Hw. now rewrite Hw.
  Qed.

  Lemma body_W cs : Forall inB cs -> W (N KBody cs).
  Proof.
    intros H. unfold W. rewrite create_eq. cbn [wfb].
    rewrite (W_kids _ _ H). simpl. apply kids_forall. rewrite Forall_forall in *. intros [t|k c] Hin; auto.
    destruct (H _ Hin) as [Hk _]. rewrite create_eq. unfold in_body. cbn [bkind]. destruct k; try discriminate; auto.
  Qed.
  Lemma flow_W cs : Forall inF cs -> inB (N KFlow cs).
  Proof.
    intros H. split; [reflexivity|]. unfold W. rewrite create_eq. cbn [wfb].
    apply andb_true_intro. split; apply kids_forall; rewrite Forall_forall in *; intros [t|k c] Hin; auto;
      destruct (H _ Hin) as [Hk Hw]; auto.
  Qed.

  (** the body loop stops at the end or in front of a word *)
  Lemma word_wword t toks : tgood t -> is_tt WORD t = true -> wword (t :: toks).
  Proof. intros [_ H] E. simpl. auto. Qed.
  Lemma body_sh n :
    (forall bset acc toks a r, Forall inB acc -> Forall tgood toks ->
       body_loop n ctx bset acc toks = Ok (a, r) -> Forall inB a /\ Forall tgood r /\ wword r)
    /\ (forall toks x r, Forall tgood toks -> wword toks -> flow n ctx toks = Ok (x, r) -> inB x /\ Forall tgood r)
    /\ (forall acc toks a r, Forall inF acc -> Forall tgood toks -> wword toks ->
       if_loop n ctx acc toks = Ok (a, r) -> Forall inF a /\ Forall tgood r).
  Proof.
    induction n as [|m (IHb & IHf & IHi)]; [split; [|split]; intros; discriminate|].
    split; [|split].
    - intros bset acc toks a r Ha Hg H. cbn [body_loop] in H.
      destruct toks as [|t toks]; [injection H as <- <-; simpl; auto|].
      pose proof (Forall_inv_tail Hg) as Hg1. pose proof (Forall_inv Hg) as Ht.
      assert (Hcm : forall c, inC c -> inB c) by (intros c; apply inC_in; reflexivity).
      destruct (is_ws t).
      { destruct (take_ws (t :: toks)) as [ws r0] eqn:Ew. apply take_ws_sh in Ew as [Hws Er].
        eapply IHb; [| |exact H]; auto. apply snoc; auto. split; [reflexivity|]. unfold W.
        rewrite create_eq, (kids_isT _ Hws). reflexivity. }
      destruct (is_tt COMMENT t).
      { apply bindr_ok in H as ([c r1] & E & H). destruct (consume_comment_sh _ _ _ E Hg) as [A B].
        apply Forall_inv in A. eapply IHb; [| |exact H]; auto. apply snoc; auto. }
      destruct (is_onoff t) eqn:Eo.
      { eapply IHb; [| |exact H]; auto. apply snoc; auto. now apply onoff_in. }
      destruct (is_tt BRACKET_COMMENT t).
      { apply bindr_ok in H as ([c r1] & E & H). destruct (consume_comment_sh _ _ _ E Hg) as [A B].
        apply Forall_inv in A. eapply IHb; [| |exact H]; auto. apply snoc; auto. }
      destruct (is_tt WORD t) eqn:Ewd.
      { assert (Hww : wword (t :: toks)) by now apply word_wword.
        destruct (smem _ bset); [injection H as <- <-; auto|].
        destruct (smem _ flow_names).
        - apply bindr_ok in H as ([sub r1] & E & H). apply IHf in E as [A B]; auto.
          eapply IHb; [| |exact H]; auto. apply snoc; auto.
        - apply bindr_ok in H as ([sub r1] & E & H). apply statement_sh in E as (A & _ & B); auto.
          eapply IHb; [| |exact H]; auto. apply snoc; auto. }
      destruct (is_tt ATWORD t) eqn:Eat.
      { apply bindr_ok in H as ([sub r1] & E & H). apply atword_sh in E as (A & B); auto.
        - eapply IHb; [| |exact H]; auto. apply snoc; auto.
        - simpl. apply Ht. auto. }
      destruct (is_tt BYTEORDER_MARK t) eqn:Eb; [|discriminate].
      eapply IHb; [| |exact H]; auto.
    - intros toks x r Hg Hw H. cbn [flow] in H.
      destruct toks as [|t toks]; [discriminate|].
      destruct (seqb _ _).
      + apply bindr_ok in H as ([a r1] & E & H). injection H as <- <-.
        apply IHi in E as [A B]; auto. split; auto. now apply flow_W.
      + apply bindr_ok in H as ([op r1] & E & H). apply statement_sh in E as (_ & A & B); auto.
        apply bindr_ok in H as ([bd r2] & E2 & H). apply IHb in E2 as (A2 & B2 & W2); auto.
        apply bindr_ok in H as ([cl r3] & E3 & H). apply statement_sh in E3 as (_ & A3 & B3); auto.
        injection H as <- <-. split; auto. apply flow_W.
        repeat constructor; auto; try apply A; try apply A3. now apply body_W.
    - intros acc toks a r Ha Hg Hw H. cbn [if_loop] in H.
      destruct toks as [|t toks]; [injection H as <- <-; auto|].
      destruct (seqb _ _).
      + apply bindr_ok in H as ([cl r1] & E & H). injection H as <- <-.
        apply statement_sh in E as (_ & A & B); auto. split; auto. now apply snoc.
      + apply bindr_ok in H as ([op r1] & E & H). apply statement_sh in E as (_ & A & B); auto.
        apply bindr_ok in H as ([bd r2] & E2 & H). apply IHb in E2 as (A2 & B2 & W2); auto.
        eapply IHi; [| | |exact H]; auto. apply Forall_app. split; auto.
        constructor; auto. constructor; auto. split; [reflexivity|now apply body_W].
  Qed.

  (** ** The theorem: a parse tree is a layout tree but for its comments *)
  Theorem parse_wfb toks tree : Forall tgood toks -> parse ctx toks = Ok tree -> wfb (create_box tree) = true.
  Proof.
    intros Hg H. unfold parse in H. apply bindr_ok in H as ([a r] & E & H). injection H as <-.
    destruct (body_sh (parse_fuel toks)) as [Hb _]. apply Hb in E as (A & _ & _); auto.
    now apply body_W.
  Qed.
End Shape.

(** ... and with regular comments it is one *)
Lemma kids_in cs b : In b (kids cs) -> exists k x, In (N k x) cs /\ b = create_box (N k x).
Proof.
  unfold kids. intros H. apply in_flat_map in H as ([t|k x] & H1 & H2); [destruct H2|].
  exists k, x. split; [exact H1|]. destruct k; try (now destruct H2 as [<-|[]]).
  destruct (_ <? 2); [destruct H2|now destruct H2 as [<-|[]]].
Qed.
Lemma regular_first k x cs b : before_k k = true -> regular k cs = true -> cm_first (B (KComment x) cs b) = true.
Proof.
  intros Hk. unfold regular, cm_first, begins_line. rewrite Hk, orb_true_r. cbn [bkind bpcs is_comment_k]. unfold first_is_comment. cbn [bpcs].
  destruct (is_bracket cs); [reflexivity|]. cbn [orb andb implb]. intros H. apply andb_prop in H as [H _]. exact H.
Qed.
Lemma regular_last k x cs b : among_k k = true -> regular k cs = true -> cm_last (B (KComment x) cs b) = true.
Proof.
  intros Hk. unfold regular, cm_last, ends_line_tok. rewrite Hk. cbn [bkind bpcs is_comment_k]. unfold is_line_comment.
  destruct (is_bracket cs); [reflexivity|]. cbn [orb andb implb]. intros H. apply andb_prop in H as [_ H]. exact H.
Qed.
Lemma comments_cmok n : match n with T _ => True | N _ _ => comments_ok n = true -> cmok (create_box n) = true end.
Proof.
  induction n as [t|k cs IH] using pnode_ind'; [easy|]. rewrite create_eq. intros Hc.
  pose proof (comments_here _ _ Hc) as Hh. apply comments_kids in Hc. rewrite Forall_forall in IH, Hh, Hc.
  cbn [cmok]. apply andb_true_intro. split.
  { apply forallb_forall. intros b Hb. apply kids_in in Hb as (q & x & Hin & ->). apply (IH _ Hin); auto. }
  assert (Hlast : among_k k = true -> forall b, In b (kids cs) -> implb (is_comment_k (bkind b)) (cm_last b) = true).
  { intros Hk b Hb. destruct (is_comment_k (bkind b)) eqn:E; [|reflexivity].
    apply kids_in in Hb as (q & x & Hin & ->). rewrite create_eq in *. cbn [bkind] in E.
    destruct q; try discriminate. apply (regular_last k); auto. exact (Hh _ Hin). }
  assert (Hfirst : before_k k = true -> forall b, In b (kids cs) -> implb (is_comment_k (bkind b)) (cm_first b) = true).
  { intros Hk b Hb. destruct (is_comment_k (bkind b)) eqn:E; [|reflexivity].
    apply kids_in in Hb as (q & x & Hin & ->). rewrite create_eq in *. cbn [bkind] in E.
    destruct q; try discriminate. apply (regular_first k); auto. exact (Hh _ Hin). }
  destruct k; auto; apply forallb_forall; auto.
Qed.
Lemma parse_cmok ctx toks tree : parse ctx toks = Ok tree -> comments_ok tree = true -> cmok (create_box tree) = true.
Proof.
  intros H. pose proof (comments_cmok tree) as L.
  unfold parse in H. apply bindr_ok in H as ([a r] & _ & H). injection H as <-. exact L.
Qed.
