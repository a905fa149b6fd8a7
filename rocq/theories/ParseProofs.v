(** * ParseProofs: every parser accounts for the tokens it consumes *)
From Coq Require Import Permutation.
From Verif Require Import Base Regex Lex Tree Parse.

(** ** Well-formed parser values *)

(** [wfp allow top p]: no tuple parser is reachable from [p] unless [allow], the
    fixed prefix of a hand-written parser has at most eight items (the longest in
    the code base has four), and the add_executable/add_library state machines are
    used for whole commands only ([top]), as in the code base. *)
Inductive wfp (allow : bool) : bool -> parser -> Prop :=
| wf_std top cs kw : (forall k p, In (k, p) kw -> wfp allow false p) -> wfp allow top (PStd cs kw)
| wf_pos top sp : wfp allow top (PPos sp)
| wf_tuple top np nt fl : allow = true -> wfp allow top (PTuple np nt fl)
| wf_shell top : wfp allow top PShell
| wf_cond top : wfp allow top PCond
| wf_null top : wfp allow top PNull
| wf_raise top e : wfp allow top (PRaise e)
| wf_disp top f : (forall toks, wfp allow top (f toks)) -> wfp allow top (PDisp f)
| wf_seq top items lp : (List.length items <= 8)%nat -> wfo allow lp -> wfp allow top (PSeq items lp)
| wf_inst top : wfp allow top PInstallTargets
| wf_exe s : wfp allow true (PAddExe s)
| wf_lib s : wfp allow true (PAddLib s)
with wfo (allow : bool) : option gspec -> Prop :=
| wfo_none : wfo allow None
| wfo_some keep step :
    (forall acc toks w p extra chk, step acc toks = GKw w p extra chk -> wfp allow false p) ->
    wfo allow (Some (GSpec keep step)).

Definition wfctx (allow : bool) (ctx : pctx) : Prop :=
  forall name p, db ctx name = Some p -> wfp allow true p.

Lemma kw_lookup_In k kw p : kw_lookup k kw = Some p -> exists k', In (k', p) kw.
Proof.
  induction kw as [|[k' p'] kw IH]; simpl; [discriminate|].
  destruct (seqb k k'); intros H.
  - injection H as ->. eauto.
  - destruct (IH H) as (k2 & Hk). eauto.
Qed.

Lemma resolve_wf allow top p : wfp allow top p -> forall toks, wfp allow top (resolve p toks).
Proof. induction 1; intros; simpl; try (constructor; auto; fail). auto. Qed.

Lemma resolve_not_disp p : forall toks f, resolve p toks <> PDisp f.
Proof. induction p; intros; simpl; try discriminate. auto. Qed.

Lemma install_wf allow : wfo allow (Some (GSpec (fun _ => false) install_step)).
Proof.
  constructor. intros acc toks w p extra chk. unfold install_step.
  destruct toks as [|t toks]; [discriminate|].
  destruct (normalized_kwarg t) as [w'|]; [|discriminate].
  destruct (smem w' designated).
  - intros H. injection H as <- <- <- <-. constructor.
  - destruct (kw_lookup w' install_kwargs) as [q|] eqn:E; [|discriminate].
    intros H. injection H as <- <- <- <-.
    apply kw_lookup_In in E as (k' & E). simpl in E.
    repeat (destruct E as [E|E]; [injection E as _ <-; constructor|]). destruct E.
Qed.

Lemma default_wf allow top : wfp allow top default_parser.
Proof. constructor. intros k p []. Qed.

Lemma command_parser_wf allow ctx name : wfctx allow ctx -> wfp allow true (command_parser ctx name).
Proof.
  intros H. unfold command_parser. destruct (db ctx name) eqn:E; [eapply H; eauto|].
  destruct (db ctx $"_default") eqn:E2; [eapply H; eauto|apply default_wf].
Qed.

(** ** Token accounting, generic in how the leaves are compared with the tokens *)

Section Account.
  Variable R : list token -> list token -> Prop.
  Hypothesis R_refl : forall l, R l l.
  Hypothesis R_app : forall a b c d, R a b -> R c d -> R (a ++ c) (b ++ d).
  (** a property of the pending tokens that holds of every suffix *)
  Variable good : list token -> Prop.
  Hypothesis good_suffix : forall a b, good (a ++ b) -> good b.
  Variable allow : bool.
  Variable ctx : pctx.

  (** [new] accounts for the tokens between [toks] and its remainder [r]. *)
  Definition Q (toks r : list token) (new : list pnode) : Prop :=
    exists used, toks = used ++ r /\ R used (flats new).

  Hypothesis tuple_Q : allow = true -> forall fuel np nt fl bs toks a r,
    good toks ->
    tuple_loop fuel ctx np nt fl bs 0 0 nil None nil toks = Ok (a, r) -> Q toks r a.
  (** byte-order marks in the body *)
  Hypothesis bom_Q : forall t r, good (t :: r) -> tt t = BYTEORDER_MARK -> R [t] nil.

  Lemma Q_nil toks : Q toks toks nil.
  Proof. exists nil. split; [reflexivity|apply R_refl]. Qed.
  Lemma Q_tok t r : Q (t :: r) r [T t].
  Proof. exists [t]. split; [reflexivity|apply R_refl]. Qed.
  Lemma Q_app a b c x y : Q a b x -> Q b c y -> Q a c (x ++ y).
  Proof.
    intros (u & -> & H1) (v & -> & H2). exists (u ++ v). split.
    - now rewrite app_assoc.
    - rewrite flats_app. auto.
  Qed.
  Lemma Q_wrap k a b x : Q a b x -> Q a b [N k x].
  Proof. intros (u & -> & H). exists u. split; auto. unfold flats at 1. simpl. rewrite app_nil_r. exact H. Qed.
  Lemma Q_ext a b x y : flats x = flats y -> Q a b x -> Q a b y.
  Proof. intros E (u & -> & H). exists u. split; auto. now rewrite <- E. Qed.
  Lemma Q_good a b x : Q a b x -> good a -> good b.
  Proof. intros (u & -> & _). apply good_suffix. Qed.
  Lemma Q_cons t a b x : Q a b x -> Q (t :: a) b (T t :: x).
  Proof. intros H. change (T t :: x) with ([T t] ++ x). eapply Q_app; eauto. apply Q_tok. Qed.
  Lemma Q_wrap_tok k t r : Q (t :: r) r [N k [T t]].
  Proof. apply Q_wrap, Q_tok. Qed.
  Lemma Q_le a b x : Q a b x -> (List.length b <= List.length a)%nat.
  Proof. intros (u & -> & _). rewrite app_length. lia. Qed.

  (** loops carry the children so far *)
  Definition L (acc : list pnode) (toks : list token) (a : list pnode) (r : list token) : Prop :=
    exists new, a = acc ++ new /\ Q toks r new.
  Lemma L_done acc toks : L acc toks acc toks.
  Proof. exists nil. rewrite app_nil_r. split; auto. apply Q_nil. Qed.
  Lemma L_step acc toks x r a r' : Q toks r x -> L (acc ++ x) r a r' -> L acc toks a r'.
  Proof.
    intros H (new & -> & H2). exists (x ++ new). split; [now rewrite app_assoc|].
    eapply Q_app; eauto.
  Qed.
  Lemma L_nil toks a r : L nil toks a r -> Q toks r a.
  Proof. now intros (new & -> & H). Qed.
  Lemma L_ws ws toks r a r' : Q toks r ws -> L ws r a r' -> Q toks r' a.
  Proof. intros H (new & -> & H2). eapply Q_app; eauto. Qed.

  Lemma take_ws_Q toks : forall a r, take_ws toks = (a, r) -> Q toks r a.
  Proof.
    induction toks as [|t toks IH]; simpl; intros a r H.
    - injection H as <- <-. apply Q_nil.
    - destruct (is_ws t).
      + destruct (take_ws toks) as [a0 r0]. injection H as <- <-. apply Q_cons. auto.
      + injection H as <- <-. apply Q_nil.
  Qed.

  Lemma cloop_Q p : forall k toks, (List.length toks <= k)%nat ->
    forall last a r, cloop p last toks = (a, r) -> Q toks r a.
  Proof.
    induction k as [|k IH]; intros toks Hk last a r H.
    - destruct toks; simpl in Hk; [|lia]. simpl in H. injection H as <- <-. apply Q_nil.
    - destruct toks as [|t toks]; [simpl in H; injection H as <- <-; apply Q_nil|].
      cbn [cloop] in H. simpl in Hk.
      destruct (p t && _); [|injection H as <- <-; apply Q_nil].
      destruct toks as [|n r1]; [injection H as <- <-; apply Q_tok|].
      assert (Hdef : forall a r, (let '(a, r) := cloop p (Some t) (n :: r1) in (T t :: a, r)) = (a, r) ->
                Q (t :: n :: r1) r a).
      { intros a' r' H'. destruct (cloop p (Some t) (n :: r1)) as [a0 r0] eqn:E.
        injection H' as <- <-. apply Q_cons. apply (IH (n :: r1)) in E; auto. simpl in *; lia. }
      destruct r1 as [|c r2]; [now apply Hdef|].
      destruct (is_tt NEWLINE n && p c).
      + destruct (cloop p (Some t) (c :: r2)) as [a0 r0] eqn:E. injection H as <- <-.
        apply Q_cons, Q_cons. apply (IH (c :: r2)) in E; auto. simpl in *; lia.
      + destruct r2 as [|c2 r3]; [now apply Hdef|].
        destruct (is_tt NEWLINE n && is_tt WHITESPACE c && p c2); [|now apply Hdef].
        destruct (cloop p (Some t) (c2 :: r3)) as [a0 r0] eqn:E. injection H as <- <-.
        apply Q_cons, Q_cons, Q_cons. apply (IH (c2 :: r3)) in E; auto. simpl in *; lia.
  Qed.

  Lemma consume_comment_Q toks c r : consume_comment toks = Ok (c, r) -> Q toks r [c].
  Proof.
    unfold consume_comment. destruct toks as [|t toks]; [discriminate|].
    destruct (tmem _ _).
    - intros H. injection H as <- <-. apply Q_wrap_tok.
    - destruct (cloop _ _ _) as [a0 r0] eqn:E. apply (cloop_Q _ _ _ (le_n _)) in E.
      destruct a0; [discriminate|]. intros H. injection H as <- <-. now apply Q_wrap.
  Qed.

  Lemma exloop_Q toks : forall a r, exloop ctx toks = (a, r) -> Q toks r a.
  Proof.
    induction toks as [|t toks IH]; intros a r H.
    - simpl in H. injection H as <- <-. apply Q_nil.
    - cbn [exloop] in H. destruct (next_is_explicit ctx (t :: toks)).
      + destruct (exloop ctx toks) as [a0 r0]. injection H as <- <-. apply Q_cons. auto.
      + injection H as <- <-. apply Q_nil.
  Qed.

  Lemma consume_trailing_Q toks a r : consume_trailing ctx toks = (a, r) -> Q toks r a.
  Proof.
    unfold consume_trailing. destruct (negb _).
    { intros H; injection H as <- <-. apply Q_nil. }
    destruct (next_is_explicit ctx toks).
    - destruct (take_ws toks) as [ws r0] eqn:E. apply take_ws_Q in E.
      destruct (exloop ctx r0) as [a0 r1] eqn:E2. apply exloop_Q in E2.
      intros H; injection H as <- <-. eapply Q_app; eauto. now apply Q_wrap.
    - assert (Hh : forall ws r0, match toks with
          | t :: r => if is_tt WHITESPACE t then ([T t], r) else (nil, toks)
          | nil => (nil, nil) end = (ws, r0) -> Q toks r0 ws).
      { intros ws r0. destruct toks as [|t toks]; [|destruct (is_tt WHITESPACE t)];
          intros H; injection H as <- <-; [apply Q_nil|apply Q_tok|apply Q_nil]. }
      destruct (match toks with nil => _ | _ => _ end) as [ws r0]. specialize (Hh _ _ eq_refl).
      destruct (cloop is_valid_trailing None r0) as [a0 r1] eqn:E2.
      apply (cloop_Q _ _ _ (le_n _)) in E2.
      intros H; injection H as <- <-. eapply Q_app; eauto. now apply Q_wrap.
  Qed.

  Lemma arg_Q k t toks tr r : consume_trailing ctx toks = (tr, r) -> Q (t :: toks) r [N k (T t :: tr)].
  Proof. intros H. apply Q_wrap, Q_cons, consume_trailing_Q, H. Qed.

  Lemma take_wsc_Q fuel : forall toks a r, take_wsc fuel toks = Ok (a, r) -> Q toks r a.
  Proof.
    induction fuel as [|f IH]; simpl; intros toks a r H; [discriminate|].
    destruct toks as [|t toks]; [injection H as <- <-; apply Q_nil|].
    destruct (is_ws t).
    { apply bindr_ok in H as ([a0 r0] & E & H). injection H as <- <-. apply Q_cons; auto. }
    destruct (is_comment t).
    { apply bindr_ok in H as ([c r0] & E & H). apply bindr_ok in H as ([a1 r1] & E1 & H).
      injection H as <- <-. change (c :: a1) with ([c] ++ a1).
      eapply Q_app; [eapply consume_comment_Q; eauto|auto]. }
    destruct (is_onoff t).
    { apply bindr_ok in H as ([a0 r0] & E & H). injection H as <- <-.
      change (N KOnOff [T t] :: a0) with ([N KOnOff [T t]] ++ a0).
      eapply Q_app; [apply Q_wrap_tok|auto]. }
    injection H as <- <-. apply Q_nil.
  Qed.

  Lemma flag_loop_L fuel flags bs : forall acc toks a r,
    flag_loop fuel ctx flags bs acc toks = Ok (a, r) -> L acc toks a r.
  Proof.
    induction fuel as [|f IH]; simpl; intros acc toks a r H; [discriminate|].
    destruct toks as [|t toks]; [injection H as <- <-; apply L_done|].
    destruct (should_break t bs); [injection H as <- <-; apply L_done|].
    destruct (is_ws t); [eapply L_step; [apply Q_tok|eauto]|].
    destruct (negb _); [injection H as <- <-; apply L_done|].
    destruct (consume_trailing ctx toks) as [tr r0] eqn:E.
    eapply L_step; [eapply arg_Q; eauto|eauto].
  Qed.

  (** add_executable / add_library *)
  Definition a_flat (m : amach) : list token := flats (a_done m).
  Definition a_wf (m : amach) (toks : list token) : Prop :=
    (a_st m = 1 -> a_g1 m = nil)
    /\ (a_st m = 1 \/ a_st m = 2 \/ a_st m = 3 -> a_g2 m = None /\ a_at_tree m = false)
    /\ (a_at_tree m = false -> a_tail m = nil)
    /\ (a_at_tree m = true -> only_cw_remain toks [BParen] = true).

  Lemma flats1 k cs : flats [N k cs] = flats cs.
  Proof. unfold flats at 1. simpl. now rewrite app_nil_r. Qed.
  Ltac fl := unfold srcgroup, flats;
    repeat (progress (cbn [flat_map flat app] || rewrite flat_map_app || rewrite app_nil_r
                      || rewrite <- app_assoc)); reflexivity.

  Ltac awf := unfold a_wf; simpl; split; [|split; [|split]]; intros; try lia; try discriminate; auto.

  Lemma a_append_flat m n toks : a_wf m toks -> a_flat (a_append m n) = a_flat m ++ flats [n].
  Proof.
    intros (W1 & W2 & W3 & _). unfold a_flat, a_append, a_done.
    destruct m as [st so tr g1 g2 tl at_]; simpl in *.
    destruct at_; simpl.
    - fl.
    - rewrite (W3 eq_refl). destruct g2 as [[s cs]|]; simpl.
      + fl.
      + destruct (Z.eqb_spec st 1) as [E|E]; simpl.
        * rewrite (proj2 (Z.eqb_eq st 1) E). simpl. fl.
        * rewrite (proj2 (Z.eqb_neq st 1) E). simpl. fl.
  Qed.
  Lemma a_append_wf m n t toks : is_ws t || is_comment t = true ->
    a_wf m (t :: toks) -> a_wf (a_append m n) toks.
  Proof.
    intros Ht (W1 & W2 & W3 & W4). simpl in W4. rewrite Ht in W4. unfold a_append, a_wf.
    destruct m as [st so tr g1 g2 tl at_]; simpl in *.
    destruct at_; simpl.
    - split; [auto|]. split; [|split; [discriminate|auto]]. intros H. now destruct (W2 H).
    - destruct g2 as [[s cs]|]; simpl.
      + split; [auto|]. split; [|split; [auto|auto]]. intros H. now destruct (W2 H).
      + destruct (Z.eqb_spec st 1); simpl; intuition discriminate || auto.
  Qed.

  Lemma add_loop_Q islib fuel : forall m toks a r,
    a_wf m toks -> add_loop fuel ctx islib [BParen] m toks = Ok (a, r) ->
    exists x, Q toks r x /\ flats a = a_flat m ++ flats x.
  Proof.
    assert (Hdone : forall m toks, exists x, Q toks toks x /\ flats (a_done m) = a_flat m ++ flats x).
    { intros m toks. exists nil. split; [apply Q_nil|]. unfold a_flat. simpl. now rewrite app_nil_r. }
    assert (Hcomp : forall toks r0 r y f1 f2 fa, Q toks r0 y -> f2 = f1 ++ flats y ->
       (exists x, Q r0 r x /\ fa = f2 ++ flats x) -> exists x, Q toks r x /\ fa = f1 ++ flats x).
    { intros toks r0 r y f1 f2 fa HQ -> (x & Hx & ->). exists (y ++ x). split; [eapply Q_app; eauto|].
      rewrite flats_app. now rewrite app_assoc. }
    induction fuel as [|f IH]; intros m toks a r W H; [discriminate|].
    cbn [add_loop] in H.
    destruct toks as [|t toks]; [injection H as <- <-; apply Hdone|].
    destruct (is_tt RIGHT_PAREN t) eqn:Erp; [injection H as <- <-; apply Hdone|].
    destruct (is_ws t) eqn:Ews.
    { eapply Hcomp; [apply Q_tok|eapply a_append_flat, W|].
      eapply IH; [|exact H]. eapply a_append_wf; [|exact W]. now rewrite Ews. }
    destruct (is_comment t) eqn:Ec.
    { match type of H with context [AMach _ ?s _ _ _ _ _] => set (so := s) in H end.
      set (m0 := a_append m (N (KComment false) [T t])) in H.
      set (m1 := AMach _ _ _ _ _ _ _) in H.
      assert (Hfl : a_flat m1 = a_flat m ++ flats [N (KComment false) [T t]]).
      { transitivity (a_flat m0); [reflexivity|]. eapply a_append_flat; eauto. }
      assert (Hw : a_wf m1 toks).
      { refine (a_append_wf m (N (KComment false) [T t]) t toks _ W). rewrite Ec. apply orb_true_r. }
      eapply Hcomp; [apply (Q_wrap_tok (KComment false))|exact Hfl|]. eapply IH; eauto. }
    destruct W as (W1 & W2 & W3 & W4).
    assert (Hat : a_at_tree m = false).
    { destruct (a_at_tree m); auto. specialize (W4 eq_refl). simpl in W4.
      rewrite Ews, Ec, Erp in W4. discriminate. }
    specialize (W3 Hat). clear W4.
    destruct m as [st so tr g1 g2 tl at_]; simpl in *. subst at_ tl.
    assert (Hsub : forall k cs, flats [N k cs] = flats cs) by (intros; apply flats1).
    destruct (Z.eqb_spec st 1) as [E1|E1].
    { destruct (consume_trailing ctx toks) as [tr' r0] eqn:E. specialize (W1 E1).
      destruct W2 as [G2 _]; auto. subst.
      apply IH in H; [|awf].
      eapply Hcomp; [eapply (arg_Q KArgument); eauto| |exact H].
      unfold a_flat, a_done. simpl. fl. }
    assert (Hne : st =? 1 = false) by now apply Z.eqb_neq.
    assert (Hsame : forall st' g2', st' <> 1 -> (g2 = None) -> (g2' = None \/ g2' = Some (so, nil)) ->
      a_flat (AMach st' so tr g1 g2' nil false) = a_flat (AMach st so tr g1 g2 nil false)).
    { intros st' g2' Hst -> Hg. unfold a_flat, a_done. simpl. rewrite Hne.
      rewrite (proj2 (Z.eqb_neq _ _) Hst). destruct Hg as [-> | ->]; simpl; fl. }
    assert (Hflag : forall st' tr' g2' , st' <> 1 -> (g2 = None) -> (g2' = None \/ g2' = Some (so, nil)) ->
      a_flat (AMach st' so tr (g1 ++ [N KFlag (T t :: tr')]) g2' nil false)
      = a_flat (AMach st so tr g1 g2 nil false) ++ flats [N KFlag (T t :: tr')]).
    { intros st' tr' g2' Hst -> Hg. unfold a_flat, a_done. simpl. rewrite Hne.
      rewrite (proj2 (Z.eqb_neq _ _) Hst). destruct Hg as [-> | ->]; simpl; fl. }
    destruct (Z.eqb_spec st 2) as [E2|E2].
    { destruct W2 as [G2 _]; auto.
      destruct islib.
      - destruct (kwarg_in t lib_types).
        + destruct (consume_trailing ctx toks) as [tr' r0] eqn:E.
          apply IH in H; [|awf].
          eapply Hcomp; [eapply (arg_Q KFlag); eauto| |exact H]. apply Hflag; auto; lia.
        + apply IH in H; [|awf].
          rewrite Hsame in H; auto; lia.
      - destruct (kwarg_in t exe_flags).
        + destruct (consume_trailing ctx toks) as [tr' r0] eqn:E.
          apply IH in H; [|awf].
          eapply Hcomp; [eapply (arg_Q KFlag); eauto| |exact H]. apply Hflag; auto; lia.
        + apply IH in H; [|awf].
          rewrite Hsame in H; auto; lia. }
    destruct (Z.eqb_spec st 3) as [E3|E3].
    { destruct W2 as [G2 _]; auto.
      destruct (kwarg_in t _).
      + destruct (consume_trailing ctx toks) as [tr' r0] eqn:E.
        apply IH in H; [|awf].
        eapply Hcomp; [eapply (arg_Q KFlag); eauto| |exact H]. apply Hflag; auto; lia.
      + apply IH in H; [|awf].
        rewrite Hsame in H; auto; lia. }
    destruct (consume_trailing ctx toks) as [tr' r0] eqn:E.
    apply IH in H; [|awf].
    eapply Hcomp; [eapply (arg_Q KArgument); eauto| |exact H].
    unfold a_flat, a_done. simpl. rewrite Hne.
    destruct g2 as [[s cs]|]; simpl; fl.
  Qed.

  Lemma add_tag_flat tag n : flat (add_tag tag n) = flat n.
  Proof. destruct n as [t|[] cs]; reflexivity. Qed.
  Lemma map_add_tag_flats tag l : flats (map (add_tag tag) l) = flats l.
  Proof. induction l as [|x l IH]; auto. unfold flats in *. cbn [map flat_map]. now rewrite add_tag_flat, IH. Qed.
  Lemma add_tags_flat tags : forall n, flat (add_tags tags n) = flat n.
  Proof.
    unfold add_tags. induction tags as [|t tags IH]; simpl; auto. intros n.
    now rewrite IH, add_tag_flat.
  Qed.

  Record Sp (n : nat) : Prop := {
    sp_call : forall top p bs nested toks x r, wfp allow top p -> (top = true -> bs = [BParen]) ->
      good toks -> call n ctx p bs nested toks = Ok (x, r) -> Q toks r [x];
    sp_std : forall dflt kw bs kbs nested pargs acc toks a r,
      (forall k p, In (k, p) kw -> wfp allow false p) -> good toks ->
      std_loop n ctx dflt kw bs kbs nested pargs acc toks = Ok (a, r) -> L acc toks a r;
    sp_posg : forall sp bs nested toks x r, good toks ->
      pos_group n ctx sp bs nested toks = Ok (x, r) -> Q toks r [x];
    sp_pos : forall sp bs nested nc acc toks a r, good toks ->
      pos_loop n ctx sp bs nested nc acc toks = Ok (a, r) -> L acc toks a r;
    sp_cond : forall bs acc toks a r, good toks ->
      cond_loop n ctx bs acc toks = Ok (a, r) -> L acc toks a r;
    sp_kw : forall w p bs toks x r, wfp allow false p -> good toks ->
      kwgroup n ctx w p bs toks = Ok (x, r) -> Q toks r [x];
    sp_paren : forall toks x r, good toks -> paren n ctx toks = Ok (x, r) -> Q toks r [x];
    sp_seq : forall items lp bs nested acc toks a r, wfo allow lp -> good toks ->
      seq_items n ctx items lp bs nested acc toks = Ok (a, r) -> L acc toks a r;
    sp_gl : forall keep step bs nested acc toks a r, wfo allow (Some (GSpec keep step)) -> good toks ->
      gloop n ctx keep step bs nested acc toks = Ok (a, r) -> L acc toks a r }.

  Lemma good_tl t toks : good (t :: toks) -> good toks.
  Proof. apply (good_suffix [t]). Qed.

  Ltac done_ok H := injection H as <- <-; apply L_done.

  Lemma all_Sp n : Sp n.
  Proof.
    induction n as [|m IH]; [constructor; intros; discriminate|].
    constructor.
    - (* call *)
      intros top p bs nested toks x r Hp Hbs Hg H. cbn [call] in H.
      apply resolve_wf with (toks := toks) in Hp.
      destruct (resolve p toks) as [cs kw|sp|np nt fl| | | |e|f|items lp| |so|so].
      + destruct (take_ws toks) as [ws r0] eqn:Ew. apply take_ws_Q in Ew.
        destruct (split_default (cs_pargs cs)) as [dflt pargs].
        apply bindr_ok in H as ([a r1] & E & H). injection H as <- <-.
        apply Q_wrap. eapply L_ws; [exact Ew|]. inversion Hp; subst.
        eapply sp_std; eauto using Q_good.
      + eapply sp_posg; eauto.
      + apply bindr_ok in H as ([a r1] & E & H). injection H as <- <-.
        apply Q_wrap. inversion Hp; subst. eapply tuple_Q; eauto.
      + destruct (take_ws toks) as [ws r0] eqn:Ew. apply take_ws_Q in Ew.
        destruct (split_default _) as [dflt pargs].
        apply bindr_ok in H as ([a r1] & E & H). injection H as <- <-.
        apply Q_wrap. eapply Q_ext; [symmetry; apply map_add_tag_flats|].
        eapply L_ws; [exact Ew|]. eapply sp_std; eauto using Q_good. intros k q [].
      + destruct (take_ws toks) as [ws r0] eqn:Ew. apply take_ws_Q in Ew.
        apply bindr_ok in H as ([a r1] & E & H). injection H as <- <-.
        apply Q_wrap. eapply L_ws; [exact Ew|]. eapply sp_cond; eauto using Q_good.
      + injection H as <- <-. apply Q_wrap, Q_nil.
      + discriminate.
      + discriminate.
      + apply bindr_ok in H as ([a r1] & E & H). injection H as <- <-.
        apply Q_wrap, L_nil. inversion Hp; subst. eapply sp_seq; eauto.
      + apply bindr_ok in H as ([a r1] & E & H). injection H as <- <-.
        apply Q_wrap, L_nil. eapply sp_seq; eauto. apply install_wf.
      + destruct (take_ws toks) as [ws r0] eqn:Ew. apply take_ws_Q in Ew.
        apply bindr_ok in H as ([a r1] & E & H). injection H as <- <-.
        apply Q_wrap. inversion Hp; subst. rewrite Hbs in E by auto.
        apply add_loop_Q in E as (y & HQ & Hf); [|awf].
        assert (Ef : flats (ws ++ y) = flats a).
        { rewrite Hf, flats_app. f_equal. unfold a_flat, a_done. simpl. now rewrite app_nil_r. }
        eapply Q_ext; [exact Ef|]. eapply Q_app; eauto.
      + destruct (take_ws toks) as [ws r0] eqn:Ew. apply take_ws_Q in Ew.
        apply bindr_ok in H as ([a r1] & E & H). injection H as <- <-.
        apply Q_wrap. inversion Hp; subst. rewrite Hbs in E by auto.
        apply add_loop_Q in E as (y & HQ & Hf); [|awf].
        assert (Ef : flats (ws ++ y) = flats a).
        { rewrite Hf, flats_app. f_equal. unfold a_flat, a_done. simpl. now rewrite app_nil_r. }
        eapply Q_ext; [exact Ef|]. eapply Q_app; eauto.
    - (* std_loop *)
      intros dflt kw bs kbs nested pargs acc toks a r Hkw Hg H. cbn [std_loop] in H.
      destruct toks as [|t toks]; [done_ok H|].
      destruct (is_ws t).
      { eapply L_step; [apply Q_tok|]. eapply sp_std; eauto using good_tl. }
      destruct (is_comment t).
      { destruct (belongs_up _ _ _ _); [done_ok H|].
        apply bindr_ok in H as ([c r1] & E & H). apply consume_comment_Q in E.
        eapply L_step; [exact E|]. eapply sp_std; eauto using Q_good. }
      destruct (is_onoff t).
      { eapply L_step; [apply (Q_wrap_tok KOnOff)|]. eapply sp_std; eauto using good_tl. }
      destruct (should_break t bs && _); [done_ok H|].
      destruct (match normalized_kwarg t with Some _ => _ | None => _ end) as [[w p]|] eqn:Ek.
      + apply bindr_ok in H as ([sub r1] & E & H).
        assert (Hp : wfp allow false p).
        { destruct (normalized_kwarg t); [|discriminate]. destruct (kw_lookup s kw) eqn:El; [|discriminate].
          injection Ek as _ <-. apply kw_lookup_In in El as (k' & El). eauto. }
        apply sp_kw in E; auto.
        destruct (_ <=? _)%nat; [discriminate|].
        eapply L_step; [exact E|]. eapply sp_std; eauto using Q_good.
      + apply bindr_ok in H as ([sub r1] & E & H). apply sp_posg in E; auto.
        destruct (_ <=? _)%nat; [discriminate|].
        eapply L_step; [exact E|]. eapply sp_std; eauto using Q_good.
    - (* pos_group *)
      intros sp bs nested toks x r Hg H. cbn [pos_group] in H.
      destruct (take_ws toks) as [ws r0] eqn:Ew. apply take_ws_Q in Ew.
      apply bindr_ok in H as ([a r1] & E & H). injection H as <- <-.
      apply Q_wrap. eapply L_ws; [exact Ew|]. eapply sp_pos; eauto using Q_good.
    - (* pos_loop *)
      intros sp bs nested nc acc toks a r Hg H. cbn [pos_loop] in H.
      destruct toks as [|t toks]; [done_ok H|].
      apply bindr_ok in H as (full & _ & H).
      destruct full; [done_ok H|].
      destruct (should_break t bs && _); [done_ok H|].
      destruct (is_tt LEFT_PAREN t).
      { apply bindr_ok in H as ([sub r1] & E & H). apply sp_paren in E; auto.
        eapply L_step; [exact E|]. eapply sp_pos; eauto using Q_good. }
      destruct (is_ws t).
      { eapply L_step; [apply Q_tok|]. eapply sp_pos; eauto using good_tl. }
      destruct (is_comment t).
      { destruct (belongs_up _ _ _ _); [done_ok H|].
        apply bindr_ok in H as ([c r1] & E & H). apply consume_comment_Q in E.
        eapply L_step; [exact E|]. eapply sp_pos; eauto using Q_good. }
      destruct (is_onoff t).
      { eapply L_step; [apply (Q_wrap_tok KOnOff)|]. eapply sp_pos; eauto using good_tl. }
      destruct (consume_trailing ctx toks) as [tr r1] eqn:E.
      apply (arg_Q (if kwarg_in t (ps_flags sp) then KFlag else KArgument) t) in E.
      eapply L_step; [exact E|]. eapply sp_pos; eauto using Q_good.
    - (* cond_loop *)
      intros bs acc toks a r Hg H. cbn [cond_loop] in H.
      destruct toks as [|t toks]; [done_ok H|].
      destruct (should_break t bs); [done_ok H|].
      destruct (is_ws t).
      { eapply L_step; [apply Q_tok|]. eapply sp_cond; eauto using good_tl. }
      destruct (is_comment t).
      { eapply L_step; [apply (Q_wrap_tok (KComment false))|]. eapply sp_cond; eauto using good_tl. }
      destruct (is_onoff t).
      { eapply L_step; [apply (Q_wrap_tok KOnOff)|]. eapply sp_cond; eauto using good_tl. }
      destruct (is_tt LEFT_PAREN t).
      { apply bindr_ok in H as ([sub r1] & E & H). apply sp_paren in E; auto.
        eapply L_step; [exact E|]. eapply sp_cond; eauto using Q_good. }
      destruct (kwarg_in t cond_words).
      + apply bindr_ok in H as ([sub r1] & E & H). apply sp_kw in E; auto; [|constructor].
        destruct (_ <=? _)%nat; [discriminate|].
        eapply L_step; [exact E|]. eapply sp_cond; eauto using Q_good.
      + apply bindr_ok in H as ([sub r1] & E & H). apply sp_posg in E; auto.
        eapply L_step; [exact E|]. eapply sp_cond; eauto using Q_good.
    - (* kwgroup *)
      intros w p bs toks x r Hp Hg H. cbn [kwgroup] in H.
      destruct toks as [|t toks]; [discriminate|].
      destruct (negb _); [discriminate|].
      destruct (take_ws toks) as [ws r0] eqn:Ew. apply take_ws_Q in Ew.
      apply bindr_ok in H as ([sub r1] & E & H). apply (sp_call _ IH false) in E; auto;
        [|discriminate|eauto using Q_good, good_tl].
      injection H as <- <-. apply Q_wrap.
      change (N KKeyword [T t] :: ws ++ ?b) with ([N KKeyword [T t]] ++ (ws ++ b)).
      eapply Q_app; [apply Q_wrap_tok|]. eapply Q_app; [exact Ew|].
      destruct (Nat.ltb_spec (List.length r1) (List.length r0)) as [Hl|Hl]; [exact E|].
      destruct E as (u & -> & Hu). rewrite app_length in Hl.
      assert (u = nil) by (destruct u; simpl in Hl; auto; lia). subst u. apply Q_nil.
    - (* paren *)
      intros toks x r Hg H. cbn [paren] in H.
      destruct toks as [|t toks]; [discriminate|].
      destruct (negb _); [discriminate|].
      apply bindr_ok in H as ([sub r1] & E & H). apply (sp_call _ IH true) in E; auto;
        [|constructor|eauto using good_tl].
      destruct r1 as [|t2 r1]; [discriminate|].
      destruct (negb _); [discriminate|].
      destruct (consume_trailing ctx r1) as [tr r2] eqn:Et. injection H as <- <-.
      apply consume_trailing_Q in Et. apply Q_wrap.
      change (?a :: ?b :: ?c :: tr) with ([a] ++ [b] ++ [c] ++ tr).
      eapply Q_app; [apply Q_wrap_tok|]. eapply Q_app; [exact E|].
      eapply Q_app; [apply Q_wrap_tok|exact Et].
    - (* seq_items *)
      intros items lp bs nested acc toks a r Hlp Hg H. cbn [seq_items] in H.
      destruct items as [|it items].
      { destruct lp as [[keep step]|]; [|done_ok H]. eapply sp_gl; eauto. }
      destruct it as [| |sp extra must].
      + destruct (take_ws toks) as [ws r0] eqn:Ew. apply take_ws_Q in Ew.
        eapply L_step; [exact Ew|]. eapply sp_seq; eauto using Q_good.
      + apply bindr_ok in H as ([ws r0] & Ew & H). apply take_wsc_Q in Ew.
        eapply L_step; [exact Ew|]. eapply sp_seq; eauto using Q_good.
      + apply bindr_ok in H as ([sub r1] & E & H). apply sp_posg in E; auto.
        destruct (must && _); [discriminate|].
        eapply L_step; [exact E|]. eapply sp_seq; eauto using Q_good.
    - (* gloop *)
      intros keep step bs nested acc toks a r Hlp Hg H. cbn [gloop] in H.
      destruct toks as [|t toks]; [done_ok H|].
      destruct (should_break t bs); [done_ok H|].
      destruct (is_ws t).
      { eapply L_step; [apply Q_tok|]. eapply sp_gl; eauto using good_tl. }
      destruct (is_comment t && negb (keep t)).
      { eapply L_step; [apply (Q_wrap_tok (KComment false))|]. eapply sp_gl; eauto using good_tl. }
      apply bindr_ok in H as ([sub r1] & E & H).
      destruct (_ <=? _)%nat; [discriminate|].
      assert (HQ : Q (t :: toks) r1 [sub]).
      { destruct (step acc (t :: toks)) as [w p extra chk|sp extra push tags|flags extra] eqn:Es.
        - apply bindr_ok in E as ([sub0 r0] & E & E2). apply sp_kw in E; auto.
          + destruct (chk sub0 r0); [discriminate|]. injection E2 as <- <-. exact E.
          + inversion Hlp; subst. eauto.
        - apply bindr_ok in E as ([sub0 r0] & E & E2). apply sp_posg in E; auto.
          injection E2 as <- <-. eapply Q_ext; [|exact E].
          unfold flats. simpl. now rewrite add_tags_flat.
        - apply bindr_ok in E as ([a0 r0] & E & E2). injection E2 as <- <-.
          apply Q_wrap, L_nil. eapply flag_loop_L; eauto. }
      eapply L_step; [exact HQ|]. eapply sp_gl; eauto using Q_good.
  Qed.

  (** statements and bodies *)
  (** the parser of every possible command name among the tokens is well formed *)
  Hypothesis Hctx : forall t r, good (t :: r) -> wfp allow true (command_parser ctx (lower (spelling t))).

  Lemma stmt_tail_Q fuel : forall toks a r, stmt_tail fuel toks = Ok (a, r) -> Q toks r a.
  Proof.
    induction fuel as [|f IH]; simpl; intros toks a r H; [discriminate|].
    destruct toks as [|t toks]; [discriminate|].
    destruct (is_tt RIGHT_PAREN t); [injection H as <- <-; apply Q_nil|].
    destruct (is_ws t).
    { apply bindr_ok in H as ([a0 r0] & E & H). injection H as <- <-. apply Q_cons; auto. }
    destruct (is_tt COMMENT t); [|discriminate].
    apply bindr_ok in H as ([c r0] & E & H). apply bindr_ok in H as ([a1 r1] & E1 & H).
    injection H as <- <-. change (c :: a1) with ([c] ++ a1).
    eapply Q_app; [eapply consume_comment_Q; eauto|auto].
  Qed.

  Lemma statement_Q n toks x r : good toks -> statement n ctx toks = Ok (x, r) -> Q toks r [x].
  Proof.
    intros Hg H. unfold statement in H. destruct toks as [|fn r0]; [discriminate|].
    destruct (take_ws r0) as [ws r1] eqn:Ew. apply take_ws_Q in Ew.
    destruct r1 as [|lp r1]; [discriminate|].
    destruct (negb _); [discriminate|].
    destruct (take_ws r1) as [ws2 r2] eqn:Ew2. apply take_ws_Q in Ew2.
    apply bindr_ok in H as ([args r3] & E & H).
    apply (sp_call _ (all_Sp n) true) in E; auto;
      [|eapply Hctx; eauto|eauto using Q_good, good_tl].
    apply bindr_ok in H as ([tl r4] & Et & H). apply stmt_tail_Q in Et.
    destruct r4 as [|rp r5]; [discriminate|].
    destruct (consume_trailing ctx r5) as [tr r6] eqn:Er. apply consume_trailing_Q in Er.
    injection H as <- <-. apply Q_wrap.
    change (N KFunname [T fn] :: ?l) with ([N KFunname [T fn]] ++ l).
    change (N KLParen [T lp] :: ?l) with ([N KLParen [T lp]] ++ l).
    change (args :: ?l) with ([args] ++ l).
    change (N KRParen [T rp] :: ?l) with ([N KRParen [T rp]] ++ l).
    eapply Q_app; [apply Q_wrap_tok|]. eapply Q_app; [exact Ew|].
    eapply Q_app; [apply Q_wrap_tok|]. eapply Q_app; [exact Ew2|].
    eapply Q_app; [exact E|]. eapply Q_app; [exact Et|].
    eapply Q_app; [apply Q_wrap_tok|exact Er].
  Qed.

  Lemma body_Q n :
    (forall bset acc toks a r, good toks -> body_loop n ctx bset acc toks = Ok (a, r) -> L acc toks a r)
    /\ (forall toks x r, good toks -> flow n ctx toks = Ok (x, r) -> Q toks r [x])
    /\ (forall acc toks a r, good toks -> if_loop n ctx acc toks = Ok (a, r) -> L acc toks a r).
  Proof.
    induction n as [|m (IHb & IHf & IHi)]; [split; [|split]; intros; discriminate|].
    split; [|split].
    - intros bset acc toks a r Hg H. cbn [body_loop] in H.
      destruct toks as [|t toks]; [done_ok H|].
      destruct (is_ws t).
      { destruct (take_ws (t :: toks)) as [ws r0] eqn:Ew. apply take_ws_Q in Ew.
        apply Q_wrap with (k := KWhitespace) in Ew.
        eapply L_step; [exact Ew|]. eapply IHb; eauto using Q_good. }
      destruct (is_tt COMMENT t).
      { apply bindr_ok in H as ([c r1] & E & H). apply consume_comment_Q in E.
        eapply L_step; [exact E|]. eapply IHb; eauto using Q_good. }
      destruct (is_onoff t).
      { eapply L_step; [apply (Q_wrap_tok KOnOff)|]. eapply IHb; eauto using good_tl. }
      destruct (is_tt BRACKET_COMMENT t).
      { apply bindr_ok in H as ([c r1] & E & H). apply consume_comment_Q in E.
        eapply L_step; [exact E|]. eapply IHb; eauto using Q_good. }
      destruct (is_tt WORD t).
      { destruct (smem _ bset); [done_ok H|].
        destruct (smem _ flow_names).
        - apply bindr_ok in H as ([sub r1] & E & H). apply IHf in E; auto.
          eapply L_step; [exact E|]. eapply IHb; eauto using Q_good.
        - apply bindr_ok in H as ([sub r1] & E & H). apply statement_Q in E; auto.
          eapply L_step; [exact E|]. eapply IHb; eauto using Q_good. }
      destruct (is_tt ATWORD t).
      { apply bindr_ok in H as ([sub r1] & E & H). unfold atword_statement in E.
        destruct (consume_trailing ctx toks) as [tr r2] eqn:Et. apply consume_trailing_Q in Et.
        injection E as <- <-.
        assert (HQ : Q (t :: toks) r2 [N KAtStmt (N KAtWord [T t] :: tr)]).
        { apply Q_wrap. change (?x :: tr) with ([x] ++ tr). eapply Q_app; [apply Q_wrap_tok|exact Et]. }
        eapply L_step; [exact HQ|]. eapply IHb; eauto using Q_good. }
      destruct (is_tt BYTEORDER_MARK t) eqn:Eb; [|discriminate].
      assert (HQ : Q (t :: toks) toks nil).
      { exists [t]. split; auto. eapply bom_Q; eauto.
        unfold is_tt in Eb. destruct (tt t); try discriminate; auto. }
      eapply L_step; [exact HQ|]. rewrite app_nil_r. eapply IHb; eauto using good_tl.
    - intros toks x r Hg H. cbn [flow] in H.
      destruct toks as [|t toks]; [discriminate|].
      destruct (seqb _ _).
      + apply bindr_ok in H as ([a r1] & E & H). injection H as <- <-.
        apply Q_wrap, L_nil. eapply IHi; eauto.
      + apply bindr_ok in H as ([op r1] & E & H). apply statement_Q in E; auto.
        assert (Hg1 : good r1) by eauto using Q_good.
        apply bindr_ok in H as ([bd r2] & E2 & H). apply IHb in E2; auto. apply L_nil in E2.
        assert (Hg2 : good r2) by eauto using Q_good.
        apply bindr_ok in H as ([cl r3] & E3 & H). apply statement_Q in E3; auto.
        injection H as <- <-. apply Q_wrap.
        change [op; N KBody bd; cl] with ([op] ++ [N KBody bd] ++ [cl]).
        eapply Q_app; [exact E|]. eapply Q_app; [apply Q_wrap; exact E2|exact E3].
    - intros acc toks a r Hg H. cbn [if_loop] in H.
      destruct toks as [|t toks]; [done_ok H|].
      destruct (seqb _ _).
      + apply bindr_ok in H as ([cl r1] & E & H). injection H as <- <-.
        apply statement_Q in E; auto. eapply L_step; [exact E|apply L_done].
      + apply bindr_ok in H as ([op r1] & E & H). apply statement_Q in E; auto.
        assert (Hg1 : good r1) by eauto using Q_good.
        apply bindr_ok in H as ([bd r2] & E2 & H). apply IHb in E2; auto. apply L_nil in E2.
        assert (HQ : Q (t :: toks) r2 [op; N KBody bd]).
        { change [op; N KBody bd] with ([op] ++ [N KBody bd]).
          eapply Q_app; [exact E|]. apply Q_wrap; exact E2. }
        eapply L_step; [exact HQ|]. eapply IHi; eauto using Q_good.
  Qed.
End Account.
