(** * TidyShape: every token that is not a blank is the text of some node *)
From Verif Require Import Base Regex Lex TextOps Tree Parse ParseProofs Layout LayoutProofs ParseShape.

(** ** The shape *)
Definition wsT (n : pnode) : bool := match n with T t => is_ws t | N _ _ => true end.
Definition onlyT (n : pnode) : bool := match n with T _ => true | N _ _ => false end.
(** a comment or a blank *)
Definition noteT (n : pnode) : bool := match n with T t => is_ws t || is_comment t | N _ _ => false end.
Definition starts (cs : list pnode) : bool := match cs with T t :: _ => is_comment t | _ => false end.
(** the first child is the node's own token; other tokens are blanks *)
(** with [strict], a comment node is one bracket comment or line comments that
    begin and end it *)
Definition line_or_ws (n : pnode) : bool := match n with T t => is_tt COMMENT t || is_ws t | N _ _ => false end.
Definition pure (cs : list pnode) : bool :=
  is_bracket cs || (begins_line cs && ends_line_tok cs && forallb line_or_ws cs).
Section Strict.
Variable strict : bool.
Definition tidy_k (k : kind) (cs : list pnode) : bool :=
  match k with
  | KFunname | KKeyword | KAtWord | KArgument | KFlag =>
      match cs with T t :: r => negb (is_ws t || is_comment t) && forallb wsT r | _ => false end
  | KLParen => match cs with [T t] => is_tt LEFT_PAREN t | _ => false end
  | KRParen => match cs with [T t] => is_tt RIGHT_PAREN t | _ => false end
  | KOnOff => match cs with [T t] => is_onoff t | _ => false end
  | KComment _ => forallb noteT cs && starts cs && (if strict then pure cs else true)
  | KWhitespace => forallb onlyT cs && forallb wsT cs
  | _ => forallb wsT cs
  end.
Fixpoint tidy (n : pnode) : bool :=
  match n with
  | T _ => true
  | N k cs => tidy_k k cs && forallb tidy cs
  end.

Definition D (n : pnode) : Prop := match n with T t => is_ws t = true | N _ _ => tidy n = true end.
Lemma D_tidy cs : Forall D cs -> forallb wsT cs = true /\ forallb tidy cs = true.
Proof.
  induction 1 as [|n cs H _ [A B]]; [easy|]. cbn [forallb]. rewrite A, B.
  destruct n as [t|k x]; cbn [wsT] in *.
  - unfold D in H. now rewrite H.
  - cbn [D] in H. now rewrite H.
Qed.
(** nodes whose direct tokens are blanks *)
Definition groupk (k : kind) : bool :=
  match k with
  | KBody | KStatement _ | KFlow | KArgGroup _ | KKwargGroup | KPargGroup _ _ _ | KParenGroup | KAtStmt => true
  | _ => false
  end.
Lemma D_group k cs : groupk k = true -> Forall D cs -> D (N k cs).
Proof.
  intros Hk H. apply D_tidy in H as [A B]. cbn [D tidy]. rewrite B, andb_true_r.
  destruct k; try discriminate; exact A.
Qed.
Lemma D_T t : is_ws t = true -> D (T t). Proof. auto. Qed.
Lemma D_scalar k t tr : is_scalar_k k = true -> is_ws t = false -> is_comment t = false -> Forall D tr -> D (N k (T t :: tr)).
Proof.
  intros Hk Ht Hc H. apply D_tidy in H as [A B]. cbn [D tidy forallb]. rewrite B.
  destruct k; try discriminate; cbn [tidy_k]; now rewrite Ht, Hc, A.
Qed.
Lemma D_onoff t : is_onoff t = true -> D (N KOnOff [T t]).
Proof. intros H. cbn [D tidy tidy_k forallb]. now rewrite H. Qed.
Lemma D_lparen t : is_tt LEFT_PAREN t = true -> D (N KLParen [T t]).
Proof. intros H. cbn [D tidy tidy_k forallb]. now rewrite H. Qed.
Lemma D_rparen t : is_tt RIGHT_PAREN t = true -> D (N KRParen [T t]).
Proof. intros H. cbn [D tidy tidy_k forallb]. now rewrite H. Qed.
Definition pureS (cs : list pnode) : Prop := (Forall (fun n => noteT n = true) cs /\ starts cs = true) /\ (strict = true -> pure cs = true).
Lemma D_comment b cs : pureS cs -> D (N (KComment b) cs).
Proof.
  intros [[H H1] H2]. cbn [D tidy tidy_k]. rewrite Forall_forall in H. rewrite H1.
  assert (forallb noteT cs = true) as -> by (now apply forallb_forall).
  assert ((if strict then pure cs else true) = true) as -> by (destruct strict; auto).
  apply forallb_forall. intros [t|k x] Hin; auto. apply H in Hin. discriminate.
Qed.

(** ** Comments that the parser does not mix up *)
(** the next token, or the one behind a blank, is neither a bracket comment nor a
    format switch *)
Definition odd (t : token) : bool := is_tt BRACKET_COMMENT t || is_onoff t.
Definition no_odd_next (r : list token) : bool :=
  match r with
  | n :: r1 => negb (odd n) && (if is_tt WHITESPACE n then match r1 with c :: _ => negb (odd c) | nil => true end else true)
  | nil => true
  end.
(** a comment on the line below a line comment is a line comment in the same column *)
Definition mate (t c : token) : bool :=
  implb (is_comment c || is_onoff c) (is_tt COMMENT c && (col (begin t) =? col (begin c))).
Definition next_line_ok (t : token) (r : list token) : bool :=
  match r with
  | n :: c :: r2 =>
      implb (is_tt NEWLINE n) (mate t c)
      && match r2 with c2 :: _ => implb (is_tt NEWLINE n && is_tt WHITESPACE c) (mate t c2) | nil => true end
  | _ => true
  end.
Fixpoint comments_clean (toks : list token) : bool :=
  match toks with
  | nil => true
  | t :: r => (is_ws t || (no_odd_next r && (if is_tt COMMENT t then next_line_ok t r else true))) && comments_clean r
  end.
(** the spelling of a comment starts with a hash sign *)
Definition hashed (t : token) : Prop := is_comment t = true -> startswith [cHASH] (spelling t) = true.
Definition good (toks : list token) : Prop := (strict = true -> comments_clean toks = true) /\ Forall hashed toks.
(** what stands behind a token that is not a blank *)
Definition behind (toks : list token) : Prop := good toks /\ (strict = true -> no_odd_next toks = true).
Lemma good_tl t r : good (t :: r) -> good r.
Proof.
  intros [H F]. split; [|eapply Forall_inv_tail; eauto]. intros S. specialize (H S). cbn [comments_clean] in H.
  now apply andb_prop in H.
Qed.
Lemma cloop_suffix p : forall k toks, (List.length toks <= k)%nat ->
  forall last a r, cloop p last toks = (a, r) -> Forall hashed toks -> Forall hashed r.
Proof.
  induction k as [|k IH]; intros toks Hk last a r H F.
  - destruct toks; simpl in Hk; [|lia]. simpl in H. injection H as <- <-. auto.
  - destruct toks as [|t toks]; [simpl in H; injection H as <- <-; auto|].
    cbn [cloop] in H. simpl in Hk. pose proof (Forall_inv_tail F) as F1.
    destruct (p t && _); [|injection H as <- <-; auto].
    destruct toks as [|n r1]; [injection H as <- <-; auto|].
    assert (Hdef : forall a r, (let '(a, r) := cloop p (Some t) (n :: r1) in (T t :: a, r)) = (a, r) -> Forall hashed r).
    { intros a' r' H'. destruct (cloop p (Some t) (n :: r1)) as [a0 r0] eqn:E.
      injection H' as <- <-. apply (IH (n :: r1)) in E; auto. simpl in *; lia. }
    destruct r1 as [|c r2]; [now apply (Hdef _ _ H)|]. pose proof (Forall_inv_tail F1) as F2.
    destruct (is_tt NEWLINE n && p c).
    { destruct (cloop p (Some t) (c :: r2)) as [a0 r0] eqn:E. injection H as <- <-.
      apply IH in E; auto. simpl in *; lia. }
    destruct r2 as [|c2 r3]; [now apply (Hdef _ _ H)|]. pose proof (Forall_inv_tail F2) as F3.
    destruct (_ && _); [|now apply (Hdef _ _ H)].
    destruct (cloop p (Some t) (c2 :: r3)) as [a0 r0] eqn:E. injection H as <- <-.
    apply IH in E; auto. simpl in *; lia.
Qed.
Lemma good_behind t r : good (t :: r) -> is_ws t = false -> behind r.
Proof.
  intros H Hw. split; [eapply good_tl; eauto|]. intros S. destruct H as [H _]. specialize (H S). cbn [comments_clean] in H. rewrite Hw in H.
  apply andb_prop in H as [H _]. now apply andb_prop in H.
Qed.
Hint Resolve good_tl good_behind : core.
Lemma snocD acc x : Forall D acc -> D x -> Forall D (acc ++ [x]).
Proof. intros A B. apply Forall_app. auto. Qed.


Lemma take_ws_D toks : forall a r, take_ws toks = (a, r) -> good toks ->
  (Forall D a /\ Forall (fun n => onlyT n = true) a) /\ good r /\ match r with t :: _ => is_ws t = false | nil => True end.
Proof.
  induction toks as [|t toks IH]; simpl; intros a r H G.
  - injection H as <- <-. auto.
  - destruct (is_ws t) eqn:E.
    + destruct (take_ws toks) as [a0 r0]. injection H as <- <-.
      destruct (IH _ _ eq_refl (good_tl _ _ G)) as [[A B] C]. split; [|exact C]. split; constructor; auto.
    + injection H as <- <-. split; auto.
Qed.
Lemma D_ws a : Forall D a /\ Forall (fun n => onlyT n = true) a -> D (N KWhitespace a).
Proof.
  intros [A B]. apply D_tidy in A as [A1 A2]. cbn [D tidy tidy_k]. rewrite A1, A2.
  rewrite !andb_true_r. apply forallb_forall. now rewrite Forall_forall in B.
Qed.


(** the joining loop *)
Definition lineT (n : pnode) : bool := match n with T t => is_tt COMMENT t | N _ _ => false end.
Definition last_line (a : list pnode) : bool := match rev a with n :: _ => lineT n | nil => true end.
Definition endrun (a : list pnode) : Prop := forallb line_or_ws a = true /\ last_line a = true.
Lemma run_pure n a : lineT n = true -> endrun (n :: a) -> pure (n :: a) = true.
Proof.
  intros Hn [A B]. unfold pure, begins_line, ends_line_tok. rewrite A. unfold last_line in B.
  assert (L : forall n, lineT n = true -> is_line_tok n = true).
  { intros [t|k x]; [|discriminate]. unfold lineT, is_line_tok, tok_is, is_tt. auto. }
  rewrite (L _ Hn). destruct (rev (n :: a)) as [|m q] eqn:E.
  { apply (f_equal (@List.length _)) in E. rewrite rev_length in E. discriminate. }
  rewrite (L _ B). cbn [andb]. rewrite !orb_true_r. reflexivity.
Qed.
Lemma endrun_cons n a : line_or_ws n = true -> lineT n = true \/ a <> nil -> endrun a -> endrun (n :: a).
Proof.
  intros Hn Hl [A B]. split; [cbn [forallb]; now rewrite Hn, A|]. unfold last_line in *. simpl.
  destruct (rev a) as [|m q] eqn:E; [|exact B]. destruct Hl as [Hl|Hl]; [exact Hl|].
  apply (f_equal (@rev _)) in E. rewrite rev_involutive in E. easy.
Qed.
Definition pfit (p : token -> bool) : Prop := forall t, p t = true -> is_comment t = true.
Lemma comment_line t : is_comment t = true -> odd t = false -> is_tt COMMENT t = true.
Proof. unfold odd, is_comment, is_tt. destruct (tt t); easy. Qed.
Lemma line_ws t : is_tt COMMENT t = true -> is_ws t = false.
Proof. unfold is_ws, is_tt. destruct (tt t); easy. Qed.
Lemma nl_ws t : is_tt NEWLINE t = true -> is_ws t = true.
Proof. unfold is_ws, is_tt. destruct (tt t); easy. Qed.
Lemma sp_ws t : is_tt WHITESPACE t = true -> is_ws t = true.
Proof. unfold is_ws, is_tt. destruct (tt t); easy. Qed.
Lemma cloop_run p : pfit p -> forall k toks, (List.length toks <= k)%nat ->
  forall last a r, cloop p last toks = (a, r) -> comments_clean toks = true ->
  match toks with t :: _ => p t = true -> is_tt COMMENT t = true | nil => True end ->
  endrun a /\ comments_clean r = true /\ match a with n :: _ => lineT n = true | nil => True end
  /\ (forall t toks', toks = t :: toks' -> p t = true ->
        match last with Some l => (col (begin l) =? col (begin t)) = true | None => True end -> a <> nil).
Proof.
  intros Hp. induction k as [|k IH]; intros toks Hk last a r H G H1.
  { destruct toks; simpl in Hk; [|lia]. simpl in H. injection H as <- <-. repeat split; try easy. }
  destruct toks as [|t toks]; [simpl in H; injection H as <- <-; repeat split; easy|].
  cbn [cloop] in H. simpl in Hk.
  destruct (p t && _) eqn:Ep.
  2: { injection H as <- <-. split; [split; reflexivity|]. split; [exact G|]. split; [exact I|].
       intros t0 toks' E Ht Hc. injection E as <- <-. rewrite Ht in Ep. destruct last; [rewrite Hc in Ep|]; discriminate. }
  apply andb_prop in Ep as [Ep _]. specialize (H1 Ep).
  pose proof (line_ws _ H1) as Hws.
  assert (Hline : line_or_ws (T t) = true) by (cbn; now rewrite H1).
  cbn [comments_clean] in G. rewrite Hws, H1 in G. cbn [orb] in G. apply andb_prop in G as [G Gr].
  apply andb_prop in G as [Gn Gl].
  enough (R : exists a', a = T t :: a' /\ endrun a' /\ comments_clean r = true).
  { destruct R as (a' & -> & R1 & R2). split; [apply endrun_cons; auto|]. split; [exact R2|]. split; [exact H1|easy]. }
  destruct toks as [|n r1]; [injection H as <- <-; exists nil; repeat split|].
  assert (Hdef : forall a r, (let '(a, r) := cloop p (Some t) (n :: r1) in (T t :: a, r)) = (a, r) ->
            exists a', a = T t :: a' /\ endrun a' /\ comments_clean r = true).
  { intros a' r' H'. destruct (cloop p (Some t) (n :: r1)) as [a0 r0] eqn:E.
    injection H' as <- <-. apply (IH (n :: r1)) in E as (A & B & _); [eauto|simpl in *; lia|exact Gr|].
    intros E9. apply comment_line; auto. cbn [no_odd_next] in Gn. apply andb_prop in Gn as [Gn _]. now apply negb_true_iff. }
  destruct r1 as [|c r2]; [now apply (Hdef _ _ H)|].
  pose proof Gr as Gr'. cbn [comments_clean] in Gr'. apply andb_prop in Gr' as [_ Gr'].
  cbn [next_line_ok] in Gl. apply andb_prop in Gl as [Gl1 Gl2].
  assert (M : forall c, mate t c = true -> p c = true -> is_tt COMMENT c = true /\ (col (begin t) =? col (begin c)) = true).
  { intros d Hm Hd. unfold mate in Hm. rewrite (Hp _ Hd) in Hm. cbn [orb implb] in Hm. now apply andb_prop in Hm. }
  destruct (is_tt NEWLINE n && p c) eqn:Ec.
  { apply andb_prop in Ec as [En Ec]. destruct (cloop p (Some t) (c :: r2)) as [a0 r0] eqn:E. injection H as <- <-.
    rewrite En in Gl1. cbn [implb] in Gl1. destruct (M _ Gl1 Ec) as [Gc Gd].
    apply IH in E as (A & B & _ & C); [|simpl in *; lia|exact Gr'|auto].
    exists (T n :: a0). split; [reflexivity|]. split; [|exact B]. apply endrun_cons; auto.
    - cbn [line_or_ws]. rewrite (nl_ws _ En). apply orb_true_r.
    - right. now apply (C _ _ eq_refl). }
  destruct r2 as [|c2 r3]; [now apply (Hdef _ _ H)|].
  destruct (_ && _) eqn:Ec2 in H; [|now apply (Hdef _ _ H)].
  apply andb_prop in Ec2 as [Ec2 Ep2].
  destruct (cloop p (Some t) (c2 :: r3)) as [a0 r0] eqn:E. injection H as <- <-.
  rewrite Ec2 in Gl2. cbn [implb] in Gl2. destruct (M _ Gl2 Ep2) as [Gc Gd].
  apply andb_prop in Ec2 as [En Ew]. pose proof Gr' as Gr2. cbn [comments_clean] in Gr2. apply andb_prop in Gr2 as [_ Gr2].
  apply IH in E as (A & B & _ & C); [|simpl in *; lia|exact Gr2|auto].
  exists (T n :: T c :: a0). split; [reflexivity|]. split; [|exact B].
  assert (a0 <> nil) by now apply (C _ _ eq_refl).
  apply endrun_cons; [cbn [line_or_ws]; rewrite (nl_ws _ En); apply orb_true_r|now right|].
  apply endrun_cons; [cbn [line_or_ws]; rewrite (sp_ws _ Ew); apply orb_true_r|now right|exact A].
Qed.
Lemma cloop_D p : pfit p -> forall k toks, (List.length toks <= k)%nat ->
  forall last a r, cloop p last toks = (a, r) -> Forall (fun n => noteT n = true) a.
Proof.
  intros Hp. induction k as [|k IH]; intros toks Hk last a r H.
  - destruct toks; simpl in Hk; [|lia]. simpl in H. injection H as <- <-. auto.
  - destruct toks as [|t toks]; [simpl in H; injection H as <- <-; auto|].
    cbn [cloop] in H. simpl in Hk.
    destruct (p t && _) eqn:Ept; [|injection H as <- <-; auto]. apply andb_prop in Ept as [Ept _].
    assert (Ht : noteT (T t) = true) by (cbn [noteT]; rewrite (Hp _ Ept); apply orb_true_r).
    destruct toks as [|n r1]; [injection H as <- <-; auto|].
    assert (Hdef : forall a r, (let '(a, r) := cloop p (Some t) (n :: r1) in (T t :: a, r)) = (a, r) ->
              Forall (fun n => noteT n = true) a).
    { intros a' r' H'. destruct (cloop p (Some t) (n :: r1)) as [a0 r0] eqn:E.
      injection H' as <- <-. apply (IH (n :: r1)) in E; [|simpl in *; lia]. auto. }
    destruct r1 as [|c r2]; [now apply (Hdef _ _ H)|].
    destruct (is_tt NEWLINE n && p c) eqn:En.
    { apply andb_prop in En as [En _].
      assert (noteT (T n) = true) by (cbn [noteT]; now rewrite (nl_ws _ En)). destruct (cloop p (Some t) (c :: r2)) as [a0 r0] eqn:E. injection H as <- <-.
      apply IH in E; [|simpl in *; lia]. auto. }
    destruct r2 as [|c2 r3]; [now apply (Hdef _ _ H)|].
    clear En. destruct (is_tt NEWLINE n && is_tt WHITESPACE c && p c2) eqn:En2; [|now apply (Hdef _ _ H)].
    apply andb_prop in En2 as [En2 _]. apply andb_prop in En2 as [Enl Esp].
    assert (noteT (T n) = true) by (cbn [noteT]; now rewrite (nl_ws _ Enl)).
    assert (noteT (T c) = true) by (cbn [noteT]; now rewrite (sp_ws _ Esp)).
    destruct (cloop p (Some t) (c2 :: r3)) as [a0 r0] eqn:E. injection H as <- <-.
    apply IH in E; [|simpl in *; lia]. auto.
Qed.
Lemma cloop_starts p t toks a r : pfit p -> p t = true -> cloop p None (t :: toks) = (a, r) -> starts a = true.
Proof.
  intros Hp Ht H. cbn [cloop] in H. rewrite Ht in H. cbn [andb] in H. apply Hp in Ht.
  assert (Hh : forall x a r, (let '(a, r) := cloop p (Some t) x in (T t :: a, r)) = (a, r) -> starts a = true).
  { intros x a' r' H'. destruct (cloop p (Some t) x). injection H' as <- <-. exact Ht. }
  destruct toks as [|n r1]; [injection H as <- <-; exact Ht|].
  destruct r1 as [|c r2]; [exact (Hh _ _ _ H)|]. destruct (_ && _).
  { destruct (cloop p (Some t) (c :: r2)). injection H as <- <-. exact Ht. }
  destruct r2 as [|c2 r3]; [exact (Hh _ _ _ H)|]. destruct (_ && _); [|exact (Hh _ _ _ H)].
  destruct (cloop p (Some t) (c2 :: r3)). injection H as <- <-. exact Ht.
Qed.
Lemma one_pure t : is_comment t = true -> pureS [T t].
Proof.
  intros H. split; [split; [repeat constructor; cbn [noteT]; rewrite H; apply orb_true_r|exact H]|].
  intros _. unfold pure, is_bracket, begins_line, ends_line_tok, is_line_tok, line_or_ws, tok_is, is_tt, is_ws.
  unfold is_comment in H. cbn. unfold is_tt. destruct (tt t); try discriminate; reflexivity.
Qed.
Lemma consume_comment_D toks c r : consume_comment toks = Ok (c, r) -> good toks ->
  match toks with t :: _ => is_comment t = true | nil => True end -> D c /\ good r.
Proof.
  unfold consume_comment. destruct toks as [|t toks]; [discriminate|]. intros H G Hc.
  destruct (tmem _ _) eqn:Et.
  - injection H as <- <-. split; [apply D_comment; now apply one_pure|eauto].
  - destruct (cloop _ _ _) as [a0 r0] eqn:E.
    assert (pfit (is_tt COMMENT)) as Hp by (intros x; unfold is_tt, is_comment; destruct (tt x); easy).
    pose proof (cloop_D _ Hp _ _ (le_n _) _ _ _ E) as A.
    assert (As : a0 <> nil -> starts a0 = true).
    { intros Ha. destruct (is_tt COMMENT t) eqn:Eq; [exact (cloop_starts _ _ _ _ _ Hp Eq E)|].
      cbn [cloop] in E. rewrite Eq in E. cbn [andb] in E. injection E as <- <-. congruence. }
    destruct a0 as [|n a0]; [discriminate|]. specialize (As ltac:(discriminate)). injection H as <- <-.
    split.
    + apply D_comment. split; [split; [exact A|exact As]|]. intros S.
      destruct (cloop_run _ Hp _ _ (le_n _) _ _ _ E (proj1 G S)) as (B1 & B2 & B3 & _); [auto|]. now apply run_pure.
    + split; [|exact (cloop_suffix _ _ _ (le_n _) _ _ _ E (proj2 G))].
      intros S. now destruct (cloop_run _ Hp _ _ (le_n _) _ _ _ E (proj1 G S)) as (B1 & B2 & B3 & _).
Qed.

Section Tidy.
  Variable ctx : pctx.
  Hypothesis Hctx : wfkctx ctx.

  Lemma exloop_D toks : forall a r, exloop ctx toks = (a, r) -> Forall (fun n => noteT n = true) a.
  Proof.
    induction toks as [|t toks IH]; intros a r H.
    - simpl in H. injection H as <- <-. auto.
    - cbn [exloop] in H. destruct (next_is_explicit ctx (t :: toks)) eqn:Ex.
      + destruct (exloop ctx toks) as [a0 r0]. injection H as <- <-.
        specialize (IH _ _ eq_refl). constructor; auto. cbn [noteT]. cbn [next_is_explicit] in Ex.
        destruct (is_ws t) eqn:Ew; [reflexivity|]. apply andb_prop in Ex as [Ex _].
        unfold is_tt, is_comment in *. destruct (tt t); easy.
      + injection H as <- <-. auto.
  Qed.
  Lemma exloop_run toks : forall a r, exloop ctx toks = (a, r) -> good toks ->
    endrun a /\ good r /\ (next_is_explicit ctx toks = true -> a <> nil).
  Proof.
    induction toks as [|t toks IH]; intros a r H G.
    - simpl in H. injection H as <- <-. split; [split; reflexivity|]. split; [exact G|discriminate].
    - cbn [exloop] in H. destruct (next_is_explicit ctx (t :: toks)) eqn:Ex.
      + destruct (exloop ctx toks) as [a0 r0] eqn:E0. injection H as <- <-.
        destruct (IH _ _ eq_refl (good_tl _ _ G)) as (A & B & C). split; [|split; [exact B|easy]].
        cbn [next_is_explicit] in Ex. destruct (is_ws t) eqn:Ew.
        * apply endrun_cons; [cbn [line_or_ws]; rewrite Ew; apply orb_true_r|right; auto|exact A].
        * apply andb_prop in Ex as [Ex _]. apply endrun_cons; [cbn [line_or_ws]; now rewrite Ex|now left|exact A].
      + injection H as <- <-. split; [split; reflexivity|]. split; [exact G|discriminate].
  Qed.
  Lemma exloop_first t toks : is_ws t = false -> next_is_explicit ctx (t :: toks) = true -> is_tt COMMENT t = true.
  Proof. cbn [next_is_explicit]. intros ->. intros H. now apply andb_prop in H. Qed.
  Lemma explicit_ws toks : forall a r, take_ws toks = (a, r) -> next_is_explicit ctx toks = next_is_explicit ctx r.
  Proof.
    induction toks as [|t toks IH]; simpl; intros a r H; [injection H as <- <-; reflexivity|].
    destruct (is_ws t) eqn:E.
    - destruct (take_ws toks) as [a0 r0]. injection H as <- <-. eauto.
    - injection H as <- <-. simpl. now rewrite E.
  Qed.
  Lemma consume_trailing_D toks a r : consume_trailing ctx toks = (a, r) -> behind toks -> Forall D a /\ good r.
  Proof.
    intros H [G N1]. unfold consume_trailing in H. destruct (negb _) eqn:En.
    { injection H as <- <-. auto. }
    apply negb_false_iff in En.
    destruct (next_is_explicit ctx toks) eqn:Ee.
    - destruct (take_ws toks) as [ws r0] eqn:E. rewrite (explicit_ws _ _ _ E) in Ee.
      apply take_ws_D in E as [[Hw _] [Hg Hh]]; [|exact G].
      destruct (exloop ctx r0) as [a0 r1] eqn:E2. pose proof (exloop_D _ _ _ E2) as E3.
      pose proof (exloop_run _ _ _ E2 Hg) as (A & B & C). specialize (C Ee).
      injection H as <- <-. split; [|exact B]. apply snocD; auto. apply D_comment.
      destruct r0 as [|t r0]; [discriminate|]. pose proof (exloop_first _ _ Hh Ee) as Hf.
      cbn [exloop] in E2. rewrite Ee in E2. destruct (exloop ctx r0). injection E2 as <- <-.
      split; [split; [exact E3|cbn [starts]; unfold is_tt, is_comment in *; destruct (tt t); easy]|].
      intros _. now apply run_pure.
    - unfold next_is_trailing in En. destruct toks as [|t0 r0]; [discriminate|]. rewrite Ee in En. cbn [orb] in En.
      assert (Hsplit : exists ws r2, (if is_tt WHITESPACE t0 then ([T t0], r0) else (nil, t0 :: r0)) = (ws, r2)
                /\ Forall D ws /\ good r2 /\ match r2 with t :: _ => is_valid_trailing t = true /\ (strict = true -> odd t = false) | nil => False end).
      { destruct (is_tt WHITESPACE t0) eqn:Ew.
        - exists [T t0], r0. split; [reflexivity|]. split; [constructor; [now apply sp_ws|constructor]|].
          split; [eapply good_tl; eauto|].
          assert (Hv : is_valid_trailing t0 = false).
          { unfold is_valid_trailing, is_comment. unfold is_tt in Ew. destruct (tt t0); easy. }
          rewrite Hv in En. cbn [orb andb] in En. destruct r0 as [|t1 r1]; [discriminate|].
          split; [exact En|]. intros S. specialize (N1 S). cbn [no_odd_next] in N1. rewrite Ew in N1.
          apply andb_prop in N1 as [_ N1]. now apply negb_true_iff.
        - exists nil, (t0 :: r0). split; [reflexivity|]. split; [constructor|]. split; [exact G|].
          assert (Hv : is_valid_trailing t0 = true).
          { destruct r0; cbn in En; rewrite ?orb_false_r in En; exact En. }
          split; [exact Hv|]. intros S. specialize (N1 S). cbn [no_odd_next] in N1.
          apply andb_prop in N1 as [N1 _]. now apply negb_true_iff. }
      destruct Hsplit as (ws & r2 & E & Hw & Hg & Hh). rewrite E in H. clear E.
      destruct (cloop is_valid_trailing None r2) as [a0 r1] eqn:E2. injection H as <- <-.
      destruct r2 as [|t r2]; [easy|]. destruct Hh as [Hv Ho].
      assert (Hp : pfit is_valid_trailing) by (intros x Hx; unfold is_valid_trailing in Hx; now apply andb_prop in Hx).
      assert (R : strict = true -> endrun a0 /\ comments_clean r1 = true /\ match a0 with n :: _ => lineT n = true | nil => True end /\ a0 <> nil).
      { intros S. destruct (cloop_run _ Hp _ _ (le_n _) _ _ _ E2 (proj1 Hg S)) as (A & B & C & F).
        - intros _. apply comment_line; auto.
        - repeat split; try apply A; auto. apply (F _ _ eq_refl Hv I). }
      split; [|split; [intros S; now destruct (R S) as (_ & ? & _)|exact (cloop_suffix _ _ _ (le_n _) _ _ _ E2 (proj2 Hg))]].
      apply snocD; auto. apply D_comment. split; [split; [exact (cloop_D _ Hp _ _ (le_n _) _ _ _ E2)|exact (cloop_starts _ _ _ _ _ Hp Hv E2)]|].
      intros S. destruct (R S) as (A & _ & C & F). destruct a0; [easy|]. now apply run_pure.
  Qed.
  Lemma D_arg (b : bool) t tr : is_ws t = false -> is_comment t = false -> Forall D tr -> D (N (if b then KFlag else KArgument) (T t :: tr)).
  Proof. intros. destruct b; apply D_scalar; auto. Qed.
  Lemma kw_plain t : normalized_kwarg t <> None -> is_ws t = false /\ is_comment t = false.
  Proof. unfold normalized_kwarg, is_ws, is_comment, is_tt. destruct (tt t); cbn; try (split; reflexivity); easy. Qed.

  Lemma take_wsc_D fuel : forall toks a r, take_wsc fuel toks = Ok (a, r) -> good toks -> Forall D a /\ good r.
  Proof.
    induction fuel as [|f IH]; simpl; intros toks a r H G; [discriminate|].
    destruct toks as [|t toks]; [injection H as <- <-; auto|].
    destruct (is_ws t) eqn:Ew.
    { apply bindr_ok in H as ([a0 r0] & E & H). injection H as <- <-. apply IH in E as [A B]; eauto. }
    destruct (is_comment t) eqn:Ec.
    { apply bindr_ok in H as ([c r0] & E & H). apply bindr_ok in H as ([a1 r1] & E1 & H).
      injection H as <- <-. apply consume_comment_D in E as [A B]; auto. apply IH in E1 as [A1 B1]; auto. }
    destruct (is_onoff t) eqn:Eo.
    { apply bindr_ok in H as ([a0 r0] & E & H). injection H as <- <-. apply IH in E as [A B]; eauto.
      split; auto. constructor; auto. now apply D_onoff. }
    injection H as <- <-. auto.
  Qed.
  Lemma not_flag t flags : hashed t -> forallb nohash flags = true -> smem (upper (spelling t)) flags = true -> is_comment t = false.
  Proof.
    intros Hh Hf Hs. destruct (is_comment t) eqn:E; [|reflexivity]. specialize (Hh E).
    unfold smem in Hs. apply existsb_exists in Hs as (x & Hx & Es). apply seqb_eq in Es. subst x.
    rewrite forallb_forall in Hf. apply Hf in Hx. unfold nohash in Hx. exfalso.
    destruct (spelling t) as [|c s]; [discriminate|]. cbn [startswith] in Hh. rewrite andb_true_r in Hh. apply N.eqb_eq in Hh. subst c.
    discriminate Hx.
  Qed.
  Lemma flag_loop_D fuel flags bs : forallb nohash flags = true -> forall acc toks a r, Forall D acc -> good toks ->
    flag_loop fuel ctx flags bs acc toks = Ok (a, r) -> Forall D a /\ good r.
  Proof.
    intros Hf. induction fuel as [|f IH]; simpl; intros acc toks a r Ha G H; [discriminate|].
    destruct toks as [|t toks]; [injection H as <- <-; auto|].
    destruct (should_break t bs); [injection H as <- <-; auto|].
    destruct (is_ws t) eqn:Ew; [eapply IH; [| |exact H]; eauto; apply snocD; auto|].
    destruct (negb _) eqn:En; [injection H as <- <-; auto|].
    apply negb_false_iff, (not_flag _ _ (Forall_inv (proj2 G)) Hf) in En.
    destruct (consume_trailing ctx toks) as [tr r0] eqn:E. apply consume_trailing_D in E as [A B]; eauto.
    eapply IH; [| |exact H]; auto. apply snocD; auto. now apply D_scalar.
  Qed.
  Lemma close_sub_D flags acc sub late :
    Forall D acc -> (forall cs, sub = Some cs -> Forall D cs) -> Forall D late ->
    Forall D (close_sub flags acc sub late).
  Proof.
    intros Ha Hs Hl. unfold close_sub. apply Forall_app. split; auto. apply Forall_app. split; auto.
    destruct sub as [cs|]; auto. constructor; auto. apply D_group; auto.
  Qed.
  Lemma tuple_loop_D fuel npargs ntup flags bs : forall np nt acc sub late toks a r,
    Forall D acc -> (forall cs, sub = Some cs -> Forall D cs) -> Forall D late -> good toks ->
    tuple_loop fuel ctx npargs ntup flags bs np nt acc sub late toks = Ok (a, r) -> Forall D a /\ good r.
  Proof.
    induction fuel as [|f IH]; intros np nt acc sub late toks a r Ha Hs Hl G H; [discriminate|].
    cbn [tuple_loop] in H.
    assert (Hd : Ok (close_sub flags acc sub late, toks) = Ok (a, r) -> Forall D a /\ good r).
    { intros H'. injection H' as <- <-. split; auto. now apply close_sub_D. }
    destruct toks as [|t toks]; [auto|].
    apply bindr_ok in H as (full & _ & H).
    destruct full; [auto|]. destruct (should_break t bs); [auto|].
    destruct (is_ws t) eqn:Ew.
    { eapply IH; [| | | |exact H]; eauto. apply snocD; auto. }
    destruct (is_comment t) eqn:Ec.
    { eapply IH; [| | | |exact H]; eauto. apply snocD; auto. apply D_comment. now apply one_pure. }
    destruct toks as [|t' toks]; [discriminate|].
    destruct (is_onoff t') eqn:Eo.
    { eapply IH; [| | | |exact H]; eauto. apply snocD; auto. now apply D_onoff. }
    assert (H1 : exists acc1 sub1 late1 nt1, Forall D acc1 /\ Forall D sub1 /\ Forall D late1 /\
      match sub with Some cs => (acc, cs, late, nt) | None => (acc ++ late, nil, nil, 0) end
      = (acc1, sub1, late1, nt1)).
    { destruct sub as [cs|].
      - exists acc, cs, late, nt. auto.
      - exists (acc ++ late), nil, nil, 0. split; [apply Forall_app; auto|auto]. }
    destruct H1 as (acc1 & sub1 & late1 & nt1 & A1 & S1 & L1 & E1). rewrite E1 in H.
    destruct (consume_trailing ctx (t' :: toks)) as [tr r0] eqn:E. apply consume_trailing_D in E as [E Gr]; eauto.
    assert (S2 : Forall D (sub1 ++ [N (if kwarg_in t flags then KFlag else KArgument) (T t :: tr)])).
    { apply snocD; auto. now apply D_arg. }
    destruct (_ >=? _).
    - eapply IH; [| | | |exact H]; auto; [|discriminate].
      apply close_sub_D; auto. intros cs' E'. injection E' as <-. exact S2.
    - eapply IH; [| | | |exact H]; auto. intros cs' E'. injection E' as <-. exact S2.
  Qed.

  Definition aD (m : amach) : Prop :=
    Forall D (a_tree m) /\ Forall D (a_g1 m)
    /\ (forall s cs, a_g2 m = Some (s, cs) -> Forall D cs) /\ Forall D (a_tail m).
  Lemma a_done_D m : aD m -> Forall D (a_done m).
  Proof.
    intros (A & B & C & E). unfold a_done. apply Forall_app. split; auto. apply Forall_app. split.
    { destruct (_ =? _); auto. constructor; auto. now apply D_group. }
    apply Forall_app. split; auto. destruct (a_g2 m) as [[s cs]|]; auto.
    constructor; auto. unfold srcgroup. apply D_group; eauto.
  Qed.
  Lemma a_append_D m n : D n -> aD m -> aD (a_append m n).
  Proof.
    intros HA (A & B & C & E). unfold a_append. destruct m as [st so tr g1 g2 tl at_]; simpl in *.
    destruct at_; [|destruct g2 as [[s cs]|]; [|destruct (_ =? _)]]; unfold aD; simpl;
      (split; [|split; [|split]]); auto using snocD; try discriminate.
    intros s' cs' E'. injection E' as <- <-. apply snocD; eauto.
  Qed.
  Ltac aok := unfold aD; simpl; (split; [|split; [|split]]); auto; try discriminate.
  Lemma add_loop_D islib bs fuel : forall m toks a r,
    aD m -> good toks -> add_loop fuel ctx islib bs m toks = Ok (a, r) -> Forall D a /\ good r.
  Proof.
    induction fuel as [|f IH]; intros m toks a r W0 G H; [discriminate|].
    cbn [add_loop] in H.
    destruct toks as [|t toks]; [injection H as <- <-; auto using a_done_D|].
    destruct (is_tt RIGHT_PAREN t); [injection H as <- <-; auto using a_done_D|].
    destruct (is_ws t) eqn:Ew.
    { eapply IH; [| |exact H]; eauto. apply a_append_D; auto. }
    destruct (is_comment t) eqn:Ec.
    { match type of H with context [AMach _ ?s _ _ _ _ _] => set (so := s) in H end.
      set (m0 := a_append m (N (KComment false) [T t])) in H.
      assert (aD m0).
      { apply a_append_D; auto. apply D_comment. now apply one_pure. }
      eapply IH; [| |exact H]; eauto. }
    destruct (consume_trailing ctx toks) as [tr' r0] eqn:E. apply consume_trailing_D in E as [E Gr]; eauto.
    destruct m as [st so tr g1 g2 tl at_]. cbn [a_st a_sort a_tree a_g1 a_g2 a_tail a_at_tree] in H.
    destruct W0 as (W1 & W2 & W3 & W4). simpl in W1, W2, W3, W4.
    assert (Harg : D (N KArgument (T t :: tr'))) by now apply D_scalar.
    assert (Hflag : D (N KFlag (T t :: tr'))) by now apply D_scalar.
    assert (Hnil : forall s cs, Some (so, @nil pnode) = Some (s, cs) -> Forall D cs).
    { intros s cs E'. injection E' as <- <-. auto. }
    destruct (st =? 1).
    { eapply IH; [| |exact H]; auto. aok. }
    destruct (st =? 2).
    { destruct islib.
      - destruct (kwarg_in t lib_types); (eapply IH; [| |exact H]; auto; aok; auto using snocD).
      - destruct (kwarg_in t exe_flags); (eapply IH; [| |exact H]; auto; aok; auto using snocD). }
    destruct (st =? 3).
    { destruct (kwarg_in t _); (eapply IH; [| |exact H]; auto; aok; auto using snocD). }
    eapply IH; [| |exact H]; auto. aok.
    intros s cs E'. destruct g2 as [[s2 cs2]|]; injection E' as <- <-; auto.
    apply snocD; eauto.
  Qed.

  Lemma add_tag_D tag n : D n -> D (add_tag tag n).
  Proof. destruct n as [t|k cs]; [auto|]. destruct k; auto. Qed.
  Lemma add_tags_D tags : forall n, D n -> D (add_tags tags n).
  Proof. unfold add_tags. induction tags as [|t tags IH]; simpl; auto using add_tag_D. Qed.

  Definition head_ok (toks : list token) : Prop :=
    match toks with t :: _ => is_ws t = false /\ is_comment t = false | nil => True end.
  Lemma is_tt_ws k t : is_tt k t = true -> (k = WORD \/ k = LEFT_PAREN \/ k = RIGHT_PAREN \/ k = ATWORD) ->
    is_ws t = false /\ is_comment t = false.
  Proof.
    unfold is_tt, is_ws, is_comment. destruct (tt t); intros H1 H2; try (split; reflexivity);
      destruct H2 as [->|[->|[->| ->]]]; discriminate H1.
  Qed.
  Record Td (n : nat) : Prop := {
    td_call : forall p bs nested toks x r, wfk p -> good toks -> call n ctx p bs nested toks = Ok (x, r) -> D x /\ good r;
    td_std : forall dflt kw bs kbs nested pargs acc toks a r, (forall k p, In (k, p) kw -> wfk p) ->
      Forall D acc -> good toks ->
      std_loop n ctx dflt kw bs kbs nested pargs acc toks = Ok (a, r) -> Forall D a /\ good r;
    td_posg : forall sp bs nested toks x r, good toks -> pos_group n ctx sp bs nested toks = Ok (x, r) -> D x /\ good r;
    td_pos : forall sp bs nested nc acc toks a r, Forall D acc -> good toks ->
      pos_loop n ctx sp bs nested nc acc toks = Ok (a, r) -> Forall D a /\ good r;
    td_cond : forall bs acc toks a r, Forall D acc -> good toks ->
      cond_loop n ctx bs acc toks = Ok (a, r) -> Forall D a /\ good r;
    td_kw : forall w p bs toks x r, wfk p -> head_ok toks -> good toks ->
      kwgroup n ctx w p bs toks = Ok (x, r) -> D x /\ good r;
    td_paren : forall toks x r, good toks -> paren n ctx toks = Ok (x, r) -> D x /\ good r;
    td_seq : forall items lp bs nested acc toks a r, wfok lp -> Forall D acc -> good toks ->
      seq_items n ctx items lp bs nested acc toks = Ok (a, r) -> Forall D a /\ good r;
    td_gl : forall keep step bs nested acc toks a r, wfok (Some (GSpec keep step)) -> Forall D acc -> good toks ->
      gloop n ctx keep step bs nested acc toks = Ok (a, r) -> Forall D a /\ good r }.

  Ltac fin H := injection H as <- <-; auto.
  Lemma all_Td n : Td n.
  Proof.
    induction n as [|m IH]; [constructor; intros; discriminate|].
    constructor.
    - (* call *)
      intros p bs nested toks x r Hp G H. cbn [call] in H. pose proof (resolve_wk _ Hp toks) as Hr.
      destruct (resolve p toks) as [cs kw|sp|np nt fl| | | |e|f|items lp| |so|so].
      + destruct (take_ws toks) as [ws r0] eqn:Ew. apply take_ws_D in Ew as [[Hw _] [Gw _]]; auto.
        destruct (split_default (cs_pargs cs)) as [dflt pargs].
        apply bindr_ok in H as ([a r1] & E & H). injection H as <- <-.
        assert (Hkw : forall k q, In (k, q) kw -> wfk q).
        { inversion Hr as [cs0 kw0 _ Hk0| | | | | | | | | | |]. intros k q Hin. now destruct (Hk0 k q Hin). }
        apply td_std in E as [A B]; auto. split; auto. now apply D_group.
      + now apply td_posg in H.
      + apply bindr_ok in H as ([a r1] & E & H). injection H as <- <-.
        apply tuple_loop_D in E as [A B]; auto; [|discriminate]. split; auto. now apply D_group.
      + destruct (take_ws toks) as [ws r0] eqn:Ew. apply take_ws_D in Ew as [[Hw _] [Gw _]]; auto.
        cbn [split_default cs_pargs legacy_cspec ps_legacy ps_nargs is_exact negb andb] in H.
        apply bindr_ok in H as ([a r1] & E & H). injection H as <- <-.
        apply td_std in E as [A B]; auto; [|intros k q []]. split; auto. apply D_group; auto.
        rewrite Forall_map. eapply Forall_impl; [|exact A]. intros; now apply add_tag_D.
      + destruct (take_ws toks) as [ws r0] eqn:Ew. apply take_ws_D in Ew as [[Hw _] [Gw _]]; auto.
        apply bindr_ok in H as ([a r1] & E & H). injection H as <- <-.
        apply td_cond in E as [A B]; auto. split; auto. now apply D_group.
      + injection H as <- <-. split; auto. now apply D_group.
      + discriminate.
      + discriminate.
      + apply bindr_ok in H as ([a r1] & E & H). injection H as <- <-. inversion Hr; subst.
        apply td_seq in E as [A B]; auto. split; auto. now apply D_group.
      + apply bindr_ok in H as ([a r1] & E & H). injection H as <- <-.
        apply td_seq in E as [A B]; auto; [|apply install_wk]. split; auto. now apply D_group.
      + destruct (take_ws toks) as [ws r0] eqn:Ew. apply take_ws_D in Ew as [[Hw _] [Gw _]]; auto.
        apply bindr_ok in H as ([a r1] & E & H). injection H as <- <-.
        apply add_loop_D in E as [A B]; auto; [|aok]. split; auto. now apply D_group.
      + destruct (take_ws toks) as [ws r0] eqn:Ew. apply take_ws_D in Ew as [[Hw _] [Gw _]]; auto.
        apply bindr_ok in H as ([a r1] & E & H). injection H as <- <-.
        apply add_loop_D in E as [A B]; auto; [|aok]. split; auto. now apply D_group.
    - (* std_loop *)
      intros dflt kw bs kbs nested pargs acc toks a r Hkw Ha G H. cbn [std_loop] in H.
      destruct toks as [|t toks]; [fin H|].
      destruct (is_ws t) eqn:Ew. { eapply td_std; [exact IH|exact Hkw| | |exact H]; eauto. apply snocD; auto. }
      destruct (is_comment t) eqn:Ec.
      { destruct (belongs_up _ _ _ _); [fin H|].
        apply bindr_ok in H as ([c r1] & E & H). apply consume_comment_D in E as [A B]; auto.
        eapply td_std; [exact IH|exact Hkw| | |exact H]; auto. apply snocD; auto. }
      destruct (is_onoff t) eqn:Eo.
      { eapply td_std; [exact IH|exact Hkw| | |exact H]; eauto. apply snocD; auto. now apply D_onoff. }
      destruct (should_break t bs && _); [fin H|].
      destruct (match normalized_kwarg t with Some _ => _ | None => _ end) as [[w p]|] eqn:Ek.
      + assert (Hp : wfk p).
        { destruct (normalized_kwarg t) as [k|]; [|discriminate]. destruct (kw_lookup k kw) as [q|] eqn:El; [|discriminate].
          injection Ek as <- <-. apply lookup_In in El. eauto. }
        apply bindr_ok in H as ([sub r1] & E & H). apply td_kw in E as [A B]; simpl; auto.
        destruct (_ <=? _)%nat; [discriminate|].
        eapply td_std; [exact IH|exact Hkw| | |exact H]; auto. now apply snocD.
      + apply bindr_ok in H as ([sub r1] & E & H). apply td_posg in E as [A B]; auto.
        destruct (_ <=? _)%nat; [discriminate|].
        eapply td_std; [exact IH|exact Hkw| | |exact H]; auto. now apply snocD.
    - (* pos_group *)
      intros sp bs nested toks x r G H. cbn [pos_group] in H.
      destruct (take_ws toks) as [ws r0] eqn:Ew. apply take_ws_D in Ew as [[Hw _] [Gw _]]; auto.
      apply bindr_ok in H as ([a r1] & E & H). injection H as <- <-.
      apply td_pos in E as [A B]; auto. split; auto. now apply D_group.
    - (* pos_loop *)
      intros sp bs nested nc acc toks a r Ha G H. cbn [pos_loop] in H.
      destruct toks as [|t toks]; [fin H|].
      apply bindr_ok in H as (full & _ & H).
      destruct full; [fin H|].
      destruct (should_break t bs && _); [fin H|].
      destruct (is_tt LEFT_PAREN t).
      { apply bindr_ok in H as ([sub r1] & E & H). apply td_paren in E as [A B]; auto.
        eapply td_pos; [exact IH| | |exact H]; auto. now apply snocD. }
      destruct (is_ws t) eqn:Ew.
      { eapply td_pos; [exact IH| | |exact H]; eauto. apply snocD; auto. }
      destruct (is_comment t) eqn:Ec.
      { destruct (belongs_up _ _ _ _); [fin H|].
        apply bindr_ok in H as ([c r1] & E & H). apply consume_comment_D in E as [A B]; auto.
        eapply td_pos; [exact IH| | |exact H]; auto. apply snocD; auto. }
      destruct (is_onoff t) eqn:Eo.
      { eapply td_pos; [exact IH| | |exact H]; eauto. apply snocD; auto. now apply D_onoff. }
      destruct (consume_trailing ctx toks) as [tr r1] eqn:E. apply consume_trailing_D in E as [A B]; eauto.
      eapply td_pos; [exact IH| | |exact H]; auto. apply snocD; auto. now apply D_arg.
    - (* cond_loop *)
      intros bs acc toks a r Ha G H. cbn [cond_loop] in H.
      destruct toks as [|t toks]; [fin H|].
      destruct (should_break t bs); [fin H|].
      destruct (is_ws t) eqn:Ew. { eapply td_cond; [exact IH| | |exact H]; eauto. apply snocD; auto. }
      destruct (is_comment t) eqn:Ec.
      { eapply td_cond; [exact IH| | |exact H]; eauto. apply snocD; auto. apply D_comment. now apply one_pure. }
      destruct (is_onoff t) eqn:Eo.
      { eapply td_cond; [exact IH| | |exact H]; eauto. apply snocD; auto. now apply D_onoff. }
      destruct (is_tt LEFT_PAREN t).
      { apply bindr_ok in H as ([sub r1] & E & H). apply td_paren in E as [A B]; auto.
        eapply td_cond; [exact IH| | |exact H]; auto. now apply snocD. }
      destruct (kwarg_in t cond_words) eqn:Ekw.
      + apply bindr_ok in H as ([sub r1] & E & H). apply td_kw in E as [A B]; simpl; auto; [|constructor].
        destruct (_ <=? _)%nat; [discriminate|].
        eapply td_cond; [exact IH| | |exact H]; auto. now apply snocD.
      + apply bindr_ok in H as ([sub r1] & E & H). apply td_posg in E as [A B]; auto.
        eapply td_cond; [exact IH| | |exact H]; auto. now apply snocD.
    - (* kwgroup *)
      intros w p bs toks x r Hp Hh G H. cbn [kwgroup] in H.
      destruct toks as [|t toks]; [discriminate|].
      destruct (negb _) eqn:Eu; [discriminate|].
      destruct (take_ws toks) as [ws r0] eqn:Ew. apply take_ws_D in Ew as [[Hws _] [Gw _]]; eauto.
      apply bindr_ok in H as ([sub r1] & E & H). apply (td_call _ IH) in E as [A B]; auto.
      injection H as <- <-. split; auto. simpl in Hh. destruct Hh as [Hh1 Hh2].
      apply D_group; auto. constructor; [apply D_scalar; auto|].
      apply Forall_app. split; auto. destruct (_ <? _)%nat; auto.
    - (* paren *)
      intros toks x r G H. cbn [paren] in H.
      destruct toks as [|t toks]; [discriminate|].
      destruct (negb _) eqn:E1; [discriminate|]. apply negb_false_iff in E1.
      apply bindr_ok in H as ([sub r1] & E & H). apply (td_call _ IH) in E as [A B]; eauto; [|constructor].
      destruct r1 as [|t2 r1]; [discriminate|].
      destruct (negb _) eqn:E2; [discriminate|]. apply negb_false_iff in E2.
      destruct (is_tt_ws _ _ E2) as [W1 _]; [auto|].
      destruct (consume_trailing ctx r1) as [tr r2] eqn:Et. apply consume_trailing_D in Et as [C F]; eauto.
      injection H as <- <-. split; auto.
      apply D_group; auto. apply Forall_cons; [now apply D_lparen|]. apply Forall_cons; auto.
      apply Forall_cons; auto. now apply D_rparen.
    - (* seq_items *)
      intros items lp bs nested acc toks a r Hlp Ha G H. cbn [seq_items] in H.
      destruct items as [|it items].
      { destruct lp as [[keep step]|]; [|fin H]. eapply td_gl; eauto. }
      destruct it as [| |sp extra must].
      + destruct (take_ws toks) as [ws r0] eqn:Ew. apply take_ws_D in Ew as [[Hws _] [Gw _]]; auto.
        eapply td_seq; [exact IH|exact Hlp| | |exact H]; auto. apply Forall_app; auto.
      + apply bindr_ok in H as ([ws r0] & Ew & H). apply take_wsc_D in Ew as [A B]; auto.
        eapply td_seq; [exact IH|exact Hlp| | |exact H]; auto. apply Forall_app; auto.
      + apply bindr_ok in H as ([sub r1] & E & H). apply td_posg in E as [A B]; auto.
        destruct (must && _); [discriminate|].
        eapply td_seq; [exact IH|exact Hlp| | |exact H]; auto. now apply snocD.
    - (* gloop *)
      intros keep step bs nested acc toks a r Hlp Ha G H. cbn [gloop] in H.
      destruct toks as [|t toks]; [fin H|].
      destruct (should_break t bs); [fin H|].
      destruct (is_ws t) eqn:Ew. { eapply td_gl; [exact IH|exact Hlp| | |exact H]; eauto. apply snocD; auto. }
      destruct (is_comment t && negb (keep t)) eqn:Ec.
      { apply andb_prop in Ec as [Ec _].
        eapply td_gl; [exact IH|exact Hlp| | |exact H]; eauto. apply snocD; auto. apply D_comment. now apply one_pure. }
      apply bindr_ok in H as ([sub r1] & E & H).
      destruct (_ <=? _)%nat; [discriminate|].
      assert (HQ : D sub /\ good r1).
      { pose proof Hlp as Hlp'. inversion Hlp' as [|keep0 step0 Hk1 Hk2 Hk3]; subst.
        destruct (step acc (t :: toks)) as [w p extra chk|sp extra push tags|flags extra] eqn:Es.
        - destruct (Hk1 _ _ _ _ _ _ Es) as [_ Hp]. pose proof (Hk3 _ _ _ _ _ _ Es) as Hh. apply kw_plain in Hh.
          apply bindr_ok in E as ([sub0 r0] & E & E2). apply td_kw in E as [A B]; auto.
          destruct (chk sub0 r0); [discriminate|]. injection E2 as <- <-. auto.
        - apply bindr_ok in E as ([sub0 r0] & E & E2). apply td_posg in E as [A B]; auto.
          injection E2 as <- <-. auto using add_tags_D.
        - apply bindr_ok in E as ([a0 r0] & E & E2). injection E2 as <- <-.
          pose proof (Hk2 acc (t :: toks)) as Hk4. rewrite Es in Hk4. destruct Hk4 as [_ Hk4].
          apply flag_loop_D in E as [A B]; auto. split; auto. now apply D_group. }
      destruct HQ as [A B]. eapply td_gl; [exact IH|exact Hlp| | |exact H]; auto. now apply snocD.
  Qed.

  Lemma stmt_tail_D fuel : forall toks a r, good toks -> stmt_tail fuel toks = Ok (a, r) ->
    Forall D a /\ good r /\ match r with t :: _ => is_tt RIGHT_PAREN t = true | nil => True end.
  Proof.
    induction fuel as [|f IH]; simpl; intros toks a r G H; [discriminate|].
    destruct toks as [|t toks]; [discriminate|].
    destruct (is_tt RIGHT_PAREN t) eqn:Er; [fin H|].
    destruct (is_ws t) eqn:Ew.
    { apply bindr_ok in H as ([a0 r0] & E & H). injection H as <- <-.
      apply IH in E as (A & B); eauto. }
    destruct (is_tt COMMENT t) eqn:Ec; [|discriminate].
    apply bindr_ok in H as ([c r0] & E & H). apply bindr_ok in H as ([a1 r1] & E1 & H).
    injection H as <- <-. apply consume_comment_D in E as [A B]; auto.
    - apply IH in E1 as (A1 & B1); auto.
    - unfold is_comment. unfold is_tt in Ec. destruct (tt t); easy.
  Qed.

  Lemma statement_D n toks x r : head_ok toks -> good toks -> statement n ctx toks = Ok (x, r) -> D x /\ good r.
  Proof.
    intros Hw G H. unfold statement in H. destruct toks as [|fn r0]; [discriminate|].
    destruct (take_ws r0) as [ws r1] eqn:Ew. apply take_ws_D in Ew as [[Hws _] [G1 _]]; eauto.
    destruct r1 as [|lp r1]; [discriminate|].
    destruct (negb _) eqn:E1; [discriminate|]. apply negb_false_iff in E1.
    destruct (take_ws r1) as [ws2 r2] eqn:Ew2. apply take_ws_D in Ew2 as [[Hws2 _] [G2 _]]; eauto.
    apply bindr_ok in H as ([args r3] & E & H). apply (td_call _ (all_Td n)) in E as [A B]; auto; [|now apply command_wk].
    apply bindr_ok in H as ([tl r4] & Et & H). apply stmt_tail_D in Et as (C & G4 & F); auto.
    destruct r4 as [|rp r5]; [discriminate|]. destruct (is_tt_ws _ _ F) as [W1 _]; [auto|].
    destruct (consume_trailing ctx r5) as [tr r6] eqn:Etr. apply consume_trailing_D in Etr as [Htr Gr]; eauto.
    injection H as <- <-. split; auto. destruct Hw as [Hw1 Hw2].
    apply D_group; auto. constructor; [apply D_scalar; auto|].
    apply Forall_app. split; auto. apply Forall_cons; [now apply D_lparen|].
    apply Forall_app. split; auto. apply Forall_cons; auto.
    apply Forall_app. split; auto. apply Forall_cons; auto. now apply D_rparen.
  Qed.
  Lemma atword_D toks x r : head_ok toks -> good toks -> atword_statement ctx toks = Ok (x, r) -> D x /\ good r.
  Proof.
    intros Hw G H. unfold atword_statement in H. destruct toks as [|t toks]; [discriminate|]. destruct Hw as [Hw1 Hw2].
    destruct (consume_trailing ctx toks) as [tr r6] eqn:Etr. apply consume_trailing_D in Etr as [A B]; eauto.
    injection H as <- <-. split; auto. apply D_group; auto. constructor; auto. apply D_scalar; auto.
  Qed.

  Lemma body_D n :
    (forall bset acc toks a r, Forall D acc -> good toks ->
       body_loop n ctx bset acc toks = Ok (a, r) -> Forall D a /\ good r /\ head_ok r)
    /\ (forall toks x r, head_ok toks -> good toks -> flow n ctx toks = Ok (x, r) -> D x /\ good r)
    /\ (forall acc toks a r, Forall D acc -> head_ok toks -> good toks ->
       if_loop n ctx acc toks = Ok (a, r) -> Forall D a /\ good r).
  Proof.
    induction n as [|m (IHb & IHf & IHi)]; [split; [|split]; intros; discriminate|].
    split; [|split].
    - intros bset acc toks a r Ha G H. cbn [body_loop] in H.
      destruct toks as [|t toks]; [injection H as <- <-; simpl; auto|].
      destruct (is_ws t) eqn:Ew.
      { destruct (take_ws (t :: toks)) as [ws r0] eqn:E. apply take_ws_D in E as [E [G0 _]]; auto.
        eapply IHb; [| |exact H]; auto. apply snocD; auto. now apply D_ws. }
      destruct (is_tt COMMENT t) eqn:Ec.
      { apply bindr_ok in H as ([c r1] & E & H). apply consume_comment_D in E as [A B]; auto.
        - eapply IHb; [| |exact H]; auto. apply snocD; auto.
        - unfold is_comment. unfold is_tt in Ec. destruct (tt t); easy. }
      destruct (is_onoff t) eqn:Eo.
      { eapply IHb; [| |exact H]; eauto. apply snocD; auto. now apply D_onoff. }
      destruct (is_tt BRACKET_COMMENT t) eqn:Eb0.
      { apply bindr_ok in H as ([c r1] & E & H). apply consume_comment_D in E as [A B]; auto.
        - eapply IHb; [| |exact H]; auto. apply snocD; auto.
        - unfold is_comment. unfold is_tt in Eb0. destruct (tt t); easy. }
      destruct (is_tt WORD t) eqn:Ewd.
      { assert (Hh : head_ok (t :: toks)) by (apply (is_tt_ws _ _ Ewd); auto).
        destruct (smem _ bset); [injection H as <- <-; auto|].
        destruct (smem _ flow_names).
        - apply bindr_ok in H as ([sub r1] & E & H). apply IHf in E as [A B]; auto.
          eapply IHb; [| |exact H]; auto. apply snocD; auto.
        - apply bindr_ok in H as ([sub r1] & E & H). apply statement_D in E as [A B]; auto.
          eapply IHb; [| |exact H]; auto. apply snocD; auto. }
      destruct (is_tt ATWORD t) eqn:Eat.
      { assert (Hh : head_ok (t :: toks)) by (apply (is_tt_ws _ _ Eat); auto).
        apply bindr_ok in H as ([sub r1] & E & H). apply atword_D in E as [A B]; auto.
        eapply IHb; [| |exact H]; auto. apply snocD; auto. }
      destruct (is_tt BYTEORDER_MARK t) eqn:Eb; [|discriminate].
      eapply IHb; [| |exact H]; eauto.
    - intros toks x r Hw G H. cbn [flow] in H.
      destruct toks as [|t toks]; [discriminate|].
      destruct (seqb _ _).
      + apply bindr_ok in H as ([a r1] & E & H). injection H as <- <-.
        apply IHi in E as [A B]; auto. split; auto. now apply D_group.
      + apply bindr_ok in H as ([op r1] & E & H). apply statement_D in E as [A B]; auto.
        apply bindr_ok in H as ([bd r2] & E2 & H). apply IHb in E2 as (A2 & G2 & B2); auto.
        apply bindr_ok in H as ([cl r3] & E3 & H). apply statement_D in E3 as [A3 B3]; auto.
        injection H as <- <-. split; auto. apply D_group; auto. repeat (apply Forall_cons; auto). now apply D_group.
    - intros acc toks a r Ha Hw G H. cbn [if_loop] in H.
      destruct toks as [|t toks]; [injection H as <- <-; auto|].
      destruct (seqb _ _).
      + apply bindr_ok in H as ([cl r1] & E & H). injection H as <- <-.
        apply statement_D in E as [A B]; auto. split; auto. now apply snocD.
      + apply bindr_ok in H as ([op r1] & E & H). apply statement_D in E as [A B]; auto.
        apply bindr_ok in H as ([bd r2] & E2 & H). apply IHb in E2 as (A2 & G2 & B2); auto.
        eapply IHi; [| | |exact H]; auto. apply Forall_app. split; auto.
        repeat (apply Forall_cons; auto). now apply D_group.
  Qed.

  Theorem parse_tidy toks tree : parse ctx toks = Ok tree -> good toks -> tidy tree = true.
  Proof.
    intros H G. unfold parse in H. apply bindr_ok in H as ([a r] & E & H). injection H as <-.
    destruct (body_D (parse_fuel toks)) as [Hb _]. apply Hb in E as (A & _); auto.
    apply (D_group KBody); auto.
  Qed.
End Tidy.
End Strict.

(** ** The tokens of a box *)
Definition nonws (t : token) : bool := negb (is_ws t).
Definition toksT (p : list pnode) : list token :=
  flat_map (fun n => match n with T t => [t] | N _ _ => nil end) p.
Definition own_toks (k : kind) (p : list pnode) : list token :=
  match k with
  | KFunname | KKeyword | KAtWord | KArgument | KFlag | KLParen | KRParen | KOnOff =>
      match p with T t :: _ => [t] | _ => nil end
  | KComment _ => filter nonws (toksT p)
  | _ => nil
  end.
Fixpoint btoks (b : box) : list token :=
  match b with B k p cs => own_toks k p ++ flat_map btoks cs end.

Lemma wsT_own cs : forallb wsT cs = true -> filter nonws (toksT cs) = nil.
Proof.
  induction cs as [|[t|k x] cs IH]; cbn [forallb wsT]; auto. intros H. apply andb_prop in H as [A B].
  unfold toksT. cbn [flat_map]. rewrite filter_app. cbn [filter]. unfold nonws at 1. rewrite A.
  now apply IH.
Qed.
Lemma onlyT_flats cs : forallb onlyT cs = true -> flats cs = toksT cs.
Proof. induction cs as [|[t|k x] cs IH]; cbn [forallb onlyT]; try easy. intros H. unfold flats, toksT in *. cbn [flat_map flat]. now rewrite IH. Qed.
Lemma note_only cs : forallb noteT cs = true -> forallb onlyT cs = true.
Proof. intros H. apply forallb_forall. intros n Hn. rewrite forallb_forall in H. apply H in Hn. now destruct n. Qed.
Lemma onlyT_kids cs : forallb onlyT cs = true -> kids cs = nil.
Proof. induction cs as [|[t|k x] cs IH]; cbn [forallb onlyT]; easy. Qed.

Lemma not_ws t : negb (is_ws t || is_comment t) = true -> is_ws t = false.
Proof. destruct (is_ws t); easy. Qed.
(** the tokens of a tree that are not blanks, in order, are the tokens of its box *)
Theorem box_tokens strict n : tidy strict n = true -> match n with T _ => True | N _ _ => btoks (create_box n) = filter nonws (flat n) end.
Proof.
  induction n as [t|k cs IH] using pnode_ind'; [easy|]. intros H.
  rewrite create_eq. cbn [btoks flat]. cbn [tidy] in H. apply andb_prop in H as [Hk Hc].
  fold (flats cs).
  assert (Hkids : forall cs, Forall (fun n => tidy strict n = true ->
      match n with T _ => True | N _ _ => btoks (create_box n) = filter nonws (flat n) end) cs ->
      forallb wsT cs = true -> forallb (tidy strict) cs = true -> flat_map btoks (kids cs) = filter nonws (flats cs)).
  { clear. intros cs H. induction H as [|n cs Hn _ IH]; [easy|]. cbn [forallb]. intros A B.
    apply andb_prop in A as [A1 A2]. apply andb_prop in B as [B1 B2]. specialize (IH A2 B2).
    unfold flats. cbn [flat_map]. rewrite filter_app. fold (flats cs). rewrite <- IH.
    change (n :: cs) with ([n] ++ cs). rewrite kids_app, flat_map_app. f_equal.
    destruct n as [t|k x].
    - cbn [wsT] in A1. cbn [flat filter kids flat_map]. unfold nonws. now rewrite A1.
    - specialize (Hn B1). rewrite <- Hn. destruct (match k with KWhitespace => false | _ => true end) eqn:Hk; cycle 1.
      + assert (k = KWhitespace) as -> by (destruct k; discriminate || reflexivity). unfold kids. cbn [flat_map]. destruct (node_newlines _ <? 2); [|cbn; now rewrite app_nil_r].
        rewrite Hn. cbn [tidy tidy_k] in B1. apply andb_prop in B1 as [B1 _]. apply andb_prop in B1 as [Ba Bb].
        cbn [flat flat_map]. fold (flats x). rewrite onlyT_flats by exact Ba. symmetry. now apply wsT_own.
      + rewrite kids_one by exact Hk. cbn [flat_map]. now rewrite app_nil_r. }
  assert (Hscalar : forall t r, cs = T t :: r -> is_ws t = false -> forallb wsT r = true ->
      [t] ++ flat_map btoks (kids cs) = filter nonws (flats cs)).
  { intros t r -> Ht Hr. unfold flats. cbn [flat_map flat app filter]. unfold nonws at 1. rewrite Ht. cbn [negb].
    f_equal. fold (flats r). unfold kids. cbn [flat_map app]. fold (kids r). cbn [forallb tidy] in Hc. apply Hkids; auto. eapply Forall_inv_tail; exact IH. }
  destruct k; cbn [tidy_k] in Hk; cbn [own_toks app]; try (apply Hkids; assumption).
  - apply andb_prop in Hk as [Ha Hb]. rewrite (onlyT_kids _ Ha), (onlyT_flats _ Ha), (wsT_own _ Hb). reflexivity.
  - apply andb_prop in Hk as [Hk _]. apply andb_prop in Hk as [Hk _]. apply note_only in Hk. rewrite (onlyT_kids _ Hk), (onlyT_flats _ Hk). apply app_nil_r.
  - destruct cs as [|[t|] r]; try discriminate. apply andb_prop in Hk as [A B]. eapply Hscalar; eauto. exact (not_ws _ A).
  - destruct cs as [|[t|] r]; try discriminate. apply andb_prop in Hk as [A B]. eapply Hscalar; eauto. exact (not_ws _ A).
  - destruct cs as [|[t|] r]; try discriminate. apply andb_prop in Hk as [A B]. eapply Hscalar; eauto. exact (not_ws _ A).
  - destruct cs as [|[t|] r]; try discriminate. apply andb_prop in Hk as [A B]. eapply Hscalar; eauto. exact (not_ws _ A).
  - destruct cs as [|[t|] [|]]; try discriminate. eapply Hscalar; eauto.
    unfold is_onoff, is_tt, is_ws in *. destruct (tt t); try discriminate; reflexivity.
  - destruct cs as [|[t|] r]; try discriminate. apply andb_prop in Hk as [A B]. eapply Hscalar; eauto. exact (not_ws _ A).
  - destruct cs as [|[t|] [|]]; try discriminate. eapply Hscalar; eauto. refine (proj1 (is_tt_ws _ _ Hk _)). auto.
  - destruct cs as [|[t|] [|]]; try discriminate. eapply Hscalar; eauto. refine (proj1 (is_tt_ws _ _ Hk _)). auto.
Qed.

(** ** Plain comments

    A comment node is plain when it is a single bracket comment or consists of
    line comments only; among arguments it has to end with a line comment, which
    fails when the comment on the next line begins in another column. *)
Definition plain_c (k : kind) (cs : list pnode) : bool :=
  is_bracket cs || (begins_line cs && forallb line_or_ws cs && implb (among_k k) (ends_line_tok cs)).
Definition plain_in (k : kind) (n : pnode) : bool := match n with N (KComment _) cs => plain_c k cs | _ => true end.
Fixpoint plain (n : pnode) : bool :=
  match n with
  | T _ => true
  | N k cs => forallb (plain_in k) cs && forallb plain cs
  end.
Lemma plain_comments n : plain n = true -> comments_ok n = true.
Proof.
  induction n as [t|k cs IH] using pnode_ind'; [easy|]. intros H. cbn [plain comments_ok] in *.
  apply andb_prop in H as [Hk Hc]. rewrite forallb_forall in Hk, Hc. rewrite Forall_forall in IH.
  apply andb_true_intro. split; apply forallb_forall; intros x Hx; auto.
  specialize (Hk _ Hx). destruct x as [t|q c]; auto. destruct q; auto. cbn [plain_in cm_in] in *.
  unfold plain_c, regular in *. apply orb_prop in Hk as [->|Hk]; auto.
  apply andb_prop in Hk as [Hk E]. apply andb_prop in Hk as [-> _]. rewrite E.
  destruct (among_k k), (before_k k); apply orb_true_r.
Qed.
Lemma tidy_plain n : tidy true n = true -> plain n = true.
Proof.
  induction n as [t|k cs IH] using pnode_ind'; [easy|]. intros H. cbn [tidy plain] in *.
  apply andb_prop in H as [_ Hc]. rewrite forallb_forall in Hc. rewrite Forall_forall in IH.
  apply andb_true_intro. split; apply forallb_forall; intros x Hx; auto.
  specialize (Hc _ Hx). destruct x as [t|q c]; auto. destruct q; auto. cbn [plain_in tidy tidy_k] in *.
  apply andb_prop in Hc as [Hc _]. apply andb_prop in Hc as [_ Hc]. unfold pure, plain_c in *.
  apply orb_prop in Hc as [->|Hc]; auto. apply andb_prop in Hc as [Hc ->]. apply andb_prop in Hc as [-> ->].
  destruct (among_k k); apply orb_true_r.
Qed.
