(** * ParseLines: the lines on which the statements of a parsed file stand *)
From Verif Require Import Base Regex Lex LexProofs LexClass PropLex TextOps TextProofs Tree Parse ParseProofs ParseTerm PropParse PropTerm
  CmdSpec StdSpecs StdDb StdWf PropStd StdShape Layout LayoutProofs Pieces Writing PropLayout Markup MarkupProofs Pipeline PropCase PropFile
  ParseShape NamesShape WordShape CommentShape TidyShape Reread CommentFree PropReread ParseBlank ParseSame BodySame Places.

(** ** The shape of files without comments and switches *)
Definition blanks (ws : list token) : Prop := forallb is_ws ws = true.
(** a statement with its name on the line [e] and its closing parenthesis on the line [e1] *)
Definition stmt_at (x : pnode) (e e1 : Z) : Prop :=
  exists s fn w1 lp w2 k a w3 rp,
    x = N (KStatement s) (N KFunname [T fn] :: map T w1 ++ [N KLParen [T lp]] ++ map T w2 ++ [N k a] ++ map T w3 ++ [N KRParen [T rp]])
    /\ blanks w1 /\ blanks w2 /\ blanks w3 /\ is_group_k k = true
    /\ is_tt LEFT_PAREN lp = true /\ is_tt RIGHT_PAREN rp = true
    /\ line (begin fn) = e /\ line (begin rp) = e1.
Definition atword_at (x : pnode) (e : Z) : Prop :=
  exists t, x = N KAtStmt [N KAtWord [T t]] /\ is_tt ATWORD t = true /\ line (begin t) = e.
(** [w]: a blank node may come first *)
Inductive item_at : pnode -> Z -> Z -> Prop :=
| it_stmt x e e1 : stmt_at x e e1 -> item_at x e e1
| it_at x e : atword_at x e -> item_at x e e
| it_flow cs e e1 : flow_at cs e e1 -> item_at (N KFlow cs) e e1
with flow_at : list pnode -> Z -> Z -> Prop :=
| fl_nil e : flow_at nil e e
| fl_last x e e1 : stmt_at x e e1 -> flow_at [x] e e1
| fl_more x bd rest e e1 e2 e3 : stmt_at x e e1 -> body_at true bd e1 e2 -> flow_at rest e2 e3 -> flow_at (x :: N KBody bd :: rest) e e3
with body_at : bool -> list pnode -> Z -> Z -> Prop :=
| bo_nil w e : body_at w nil e e
| bo_white ws cs e e1 : blanks ws -> body_at false cs (e + nlcs ws) e1 -> body_at true (N KWhitespace (map T ws) :: cs) e e1
| bo_item w x cs e e1 e2 : item_at x e e1 -> body_at true cs e1 e2 -> body_at w (x :: cs) e e2.
Scheme item_at_mut := Minimality for item_at Sort Prop
with flow_at_mut := Minimality for flow_at Sort Prop
with body_at_mut := Minimality for body_at Sort Prop.
Combined Scheme at_ind from item_at_mut, flow_at_mut, body_at_mut.

Lemma bo_weak w cs e e1 : body_at false cs e e1 -> body_at w cs e e1.
Proof. intros H. inversion H; subst; [apply bo_nil|econstructor; eauto]. Qed.

(** ** The parser builds trees of this shape *)
Definition ground (t : token) : Prop := tgood t /\ (is_tt RIGHT_PAREN t = true -> nlc t = 0).
Definition lined (e : Z) (l : list token) : Prop := calm l = true /\ Forall ground l /\ located e l.
Lemma lined_app e u r : lined e (u ++ r) -> lined (e + nlcs u) r.
Proof.
  intros (A & B & C). rewrite calm_app in A. apply andb_prop in A as [_ A]. apply Forall_app in B as [_ B]. apply located_app in C as [_ C]. now repeat split.
Qed.
Lemma lined_cons e t r : lined e (t :: r) -> line (begin t) = e /\ lined (e + nlc t) r.
Proof. intros H. split; [apply H|]. change (t :: r) with ([t] ++ r) in H. apply lined_app in H. cbn [nlcs] in H. now rewrite Z.add_0_r in H. Qed.
Lemma ground_good l : Forall ground l -> Forall tgood l.
Proof. apply Forall_impl. now intros t [H _]. Qed.
Lemma one_line_nlc t : one_line (spelling t) = true -> nlc t = 0.
Proof.
  unfold one_line, nlc. rewrite negb_true_iff. intros H. apply count_chr_zero. intros Hin.
  assert (E : existsb (fun c => N.eqb c cNL || N.eqb c cCR) (spelling t) = true); [|congruence]. apply existsb_exists. exists cNL. auto.
Qed.

Section Lines.
  Variable ctx : pctx.
  Hypothesis Hwf : wfctx true ctx.
  Hypothesis Hwk : wfkctx ctx.

  Lemma calm_tail f : forall l a r, calm l = true -> stmt_tail f l = Ok (a, r) ->
    exists ws rp r', r = rp :: r' /\ is_tt RIGHT_PAREN rp = true /\ l = ws ++ r /\ a = map T ws /\ forallb is_ws ws = true.
  Proof.
    induction f as [|f IH]; intros l a r Hc H; [discriminate|]. cbn [stmt_tail] in H. destruct l as [|t l]; [discriminate|].
    destruct (is_tt RIGHT_PAREN t) eqn:Ep; [injection H as <- <-; exists nil, t, l; auto|].
    destruct (is_ws t) eqn:Ew.
    - apply bindr_ok in H as ([a' r'] & E & H). injection H as <- <-.
      destruct (IH _ _ _ (calm_tl _ _ Hc) E) as (ws & rp & r2 & -> & Hp & -> & -> & Hw). exists (t :: ws), rp, r2. cbn [forallb map]. rewrite Ew. auto.
    - apply calm_flags in Hc as (Hc & _). unfold is_comment in Hc. unfold is_tt in H. destruct (tt t); discriminate.
  Qed.
  Lemma trailing_calm toks : calm toks = true -> consume_trailing ctx toks = (nil, toks).
  Proof.
    intros H. unfold consume_trailing.
    assert (E : next_is_trailing ctx toks = false); [|now rewrite E].
    assert (G : forall l, calm l = true -> next_is_explicit ctx l = false).
    { clear. induction l as [|t l IH]; [reflexivity|]. intros H. pose proof (calm_flags _ _ H) as (A & _).
      cbn [next_is_explicit]. destruct (is_ws t); [apply IH; cbn [calm forallb] in H; now apply andb_prop in H as [_ H]|].
      unfold is_comment in A. unfold is_tt. destruct (tt t); try discriminate A; reflexivity. }
    assert (V : forall t l, calm (t :: l) = true -> is_valid_trailing t = false).
    { intros t l Hc. apply calm_flags in Hc as (A & _). unfold is_valid_trailing. now rewrite A. }
    unfold next_is_trailing. destruct toks as [|t0 r]; [reflexivity|]. rewrite (G _ H), (V _ _ H). cbn [orb].
    destruct r as [|t1 r]; [reflexivity|]. rewrite (V t1 r); [apply andb_false_r|]. cbn [calm forallb] in H. now apply andb_prop in H as [_ H].
  Qed.
  Lemma statement_at n t l x r e : statement n ctx (t :: l) = Ok (x, r) -> lined e (t :: l) ->
    exists e1, stmt_at x e e1 /\ lined e1 r.
  Proof.
    intros H Hl. unfold statement in H. apply lined_cons in Hl as [He Hl].
    destruct (take_ws l) as [a1 r0] eqn:E1. apply take_ws_split in E1 as (w1 & -> & -> & W1 & _). apply lined_app in Hl.
    destruct r0 as [|lp r0]; [discriminate|]. destruct (is_tt LEFT_PAREN lp) eqn:Elp; [|discriminate]. cbn [negb] in H. apply lined_cons in Hl as [_ Hl].
    destruct (take_ws r0) as [a2 r1] eqn:E2. apply take_ws_split in E2 as (w2 & -> & -> & W2 & _). apply lined_app in Hl.
    apply bindr_ok in H as ([args r3] & E & H).
    destruct (sh_call _ _ (all_Sh ctx n) _ _ _ _ _ _ (command_wk _ _ Hwk) (ground_good _ (proj1 (proj2 Hl))) E) as [Hg _].
    destruct (s_call ctx _ true _ _ _ _ _ _ (command_parser_wf _ _ _ Hwf) (fun _ => eq_refl) E) as (z & ->). apply lined_app in Hl.
    apply bindr_ok in H as ([tl r4] & Et & H).
    destruct (calm_tail _ _ _ _ (proj1 Hl) Et) as (w3 & rp & r5 & -> & Hrp & -> & -> & W3). apply lined_app in Hl.
    pose proof Hl as Hl5. apply lined_cons in Hl5 as [Hline Hl5].
    rewrite (trailing_calm _ (proj1 Hl5)) in H. injection H as <- <-.
    eexists. split.
    - destruct args as [|k a]; [destruct Hg|]. destruct Hg as [Hk _].
      exists (stmt_cmdspec (command_parser ctx (lower (spelling t)))), t, w1, lp, w2, k, a, w3, rp. repeat split; eauto.
    - rewrite <- Hline in Hl5. destruct Hl as (_ & F & _). inversion F as [|? ? [_ G] _]; subst. rewrite (G Hrp), Z.add_0_r in Hl5. exact Hl5.
  Qed.
  Definition wfree (w : bool) (l : list token) : Prop := match l with t :: _ => is_ws t = true -> w = true | nil => True end.
  Lemma wfree_true l : wfree true l. Proof. destruct l; cbn; auto. Qed.
  Lemma body_lines n :
    (forall bset acc l a r e w, body_loop n ctx bset acc l = Ok (a, r) -> lined e l -> wfree w l ->
       exists new e1, a = acc ++ new /\ body_at w new e e1 /\ lined e1 r)
    /\ (forall t l x r e, flow n ctx (t :: l) = Ok (x, r) -> lined e (t :: l) -> exists e1, item_at x e e1 /\ lined e1 r)
    /\ (forall acc l a r e, if_loop n ctx acc l = Ok (a, r) -> lined e l ->
       exists new e1, a = acc ++ new /\ flow_at new e e1 /\ lined e1 r).
  Proof.
    induction n as [|m (IHb & IHf & IHi)]; [split; [|split]; intros; discriminate|].
    assert (Hsnoc : forall acc (x : pnode) new, (acc ++ [x]) ++ new = acc ++ x :: new) by (intros; now rewrite <- app_assoc).
    split; [|split].
    - intros bset acc l a r e w H Hl Hw. cbn [body_loop] in H. destruct l as [|t l].
      { injection H as <- <-. exists nil, e. rewrite app_nil_r. split; auto. split; [apply bo_nil|exact Hl]. }
      pose proof (calm_flags _ _ (proj1 Hl)) as (Hcm & Hoo & Hbom & _).
      destruct (is_ws t) eqn:Ew.
      { specialize (Hw Ew). subst w. destruct (take_ws (t :: l)) as [w1 r0] eqn:E1. apply take_ws_split in E1 as (ws & E & -> & W & Hh). rewrite E in Hl.
        apply lined_app in Hl. destruct (IHb _ _ _ _ _ _ false H Hl) as (new & e1 & -> & B & L).
        { destruct r0 as [|u r0]; [exact I|]. intros Eu. rewrite Eu in Hh. discriminate Hh. }
        exists (N KWhitespace (map T ws) :: new), e1. split; [apply Hsnoc|]. split; [now apply bo_white|exact L]. }
      assert (Hc : is_tt COMMENT t = false /\ is_tt BRACKET_COMMENT t = false) by (unfold is_comment in Hcm; unfold is_tt; destruct (tt t); try discriminate Hcm; auto).
      destruct Hc as [Hc1 Hc2]. rewrite Hoo, Hbom, Hc1, Hc2 in H.
      destruct (is_tt WORD t) eqn:Ewd.
      + destruct (smem _ bset); [injection H as <- <-; exists nil, e; rewrite app_nil_r; split; auto; split; [apply bo_nil|exact Hl]|].
        destruct (smem _ flow_names).
        * apply bindr_ok in H as ([sub r1] & E & H). destruct (IHf _ _ _ _ _ E Hl) as (e1 & It & L1).
          destruct (IHb _ _ _ _ _ _ true H L1 (wfree_true _)) as (new & e2 & -> & B & L).
          exists (sub :: new), e2. split; [apply Hsnoc|]. split; [econstructor; eauto|exact L].
        * apply bindr_ok in H as ([sub r1] & E & H). destruct (statement_at _ _ _ _ _ _ E Hl) as (e1 & It & L1).
          destruct (IHb _ _ _ _ _ _ true H L1 (wfree_true _)) as (new & e2 & -> & B & L).
          exists (sub :: new), e2. split; [apply Hsnoc|]. split; [econstructor; [apply it_stmt; eauto|eauto]|exact L].
      + destruct (is_tt ATWORD t) eqn:Eat; [|discriminate]. pose proof Hl as Hl2. apply lined_cons in Hl2 as [He Hl2].
        cbn [atword_statement] in H. rewrite (trailing_calm _ (proj1 Hl2)) in H. cbn [bindr] in H.
        assert (Z0 : nlc t = 0). { destruct Hl as (_ & F & _). inversion F as [|? ? [[_ G] _] _]; subst. apply one_line_nlc, G. now right. }
        rewrite Z0, Z.add_0_r in Hl2.
        destruct (IHb _ _ _ _ _ _ true H Hl2 (wfree_true _)) as (new & e2 & -> & B & L).
        exists (N KAtStmt [N KAtWord [T t]] :: new), e2. split; [apply Hsnoc|]. split; [|exact L]. econstructor; [|exact B]. apply it_at. exists t. auto.
    - intros t l x r e H Hl. cbn [flow] in H. destruct (seqb _ $"IF").
      + apply bindr_ok in H as ([a r1] & E & H). injection H as <- <-. destruct (IHi _ _ _ _ _ E Hl) as (new & e1 & -> & F & L).
        exists e1. split; [now apply it_flow|exact L].
      + apply bindr_ok in H as ([op q1] & E1 & H). apply bindr_ok in H as ([bd q2] & E2 & H). apply bindr_ok in H as ([cl q3] & E3 & H).
        injection H as <- <-. destruct (statement_at _ _ _ _ _ _ E1 Hl) as (e1 & S1 & L1).
        destruct (IHb _ _ _ _ _ _ true E2 L1 (wfree_true _)) as (new & e2 & -> & B & L2). cbn [app].
        destruct q2 as [|t2 q2]; [discriminate E3|]. destruct (statement_at _ _ _ _ _ _ E3 L2) as (e3 & S3 & L3).
        exists e3. split; [|exact L3]. apply it_flow. eapply fl_more; eauto. now apply fl_last.
    - intros acc l a r e H Hl. cbn [if_loop] in H. destruct l as [|t l].
      { injection H as <- <-. exists nil, e. rewrite app_nil_r. split; auto. split; [apply fl_nil|exact Hl]. }
      destruct (seqb _ $"ENDIF").
      + apply bindr_ok in H as ([cl q3] & E3 & H). injection H as <- <-. destruct (statement_at _ _ _ _ _ _ E3 Hl) as (e1 & S1 & L1).
        exists [cl], e1. split; auto. split; [now apply fl_last|exact L1].
      + apply bindr_ok in H as ([op q1] & E1 & H). apply bindr_ok in H as ([bd q2] & E2 & H).
        destruct (statement_at _ _ _ _ _ _ E1 Hl) as (e1 & S1 & L1).
        destruct (IHb _ _ _ _ _ _ true E2 L1 (wfree_true _)) as (new & e2 & -> & B & L2). cbn [app] in H.
        destruct (IHi _ _ _ _ _ H L2) as (nw & e3 & -> & F & L3).
        exists (op :: N KBody new :: nw), e3. split; [now rewrite <- app_assoc|]. split; [|exact L3]. eapply fl_more; eauto.
  Qed.
  Theorem parse_lines l e tree : parse ctx l = Ok tree -> lined e (strip_bom_tok l) ->
    exists cs e1, tree = N KBody cs /\ body_at true cs e e1.
  Proof.
    unfold parse. intros H Hl. apply bindr_ok in H as ([a r] & E & H). injection H as <-.
    assert (G : exists n, body_loop n ctx nil nil (strip_bom_tok l) = Ok (a, r)).
    { destruct l as [|t l]; [eauto|]. unfold strip_bom_tok. destruct (is_tt BYTEORDER_MARK t) eqn:Eb; [|eauto].
      exists (Nat.pred (parse_fuel (t :: l))). unfold parse_fuel in *.
      replace (16 * List.length (t :: l) + 16)%nat with (S (16 * List.length (t :: l) + 15)) in E |- * by lia.
      unfold is_tt in Eb. apply ttype_eqb_eq in Eb. cbn [body_loop Nat.pred] in *. unfold is_ws, is_onoff, is_tt in E. rewrite Eb in E. exact E. }
    destruct G as (n & G). destruct (proj1 (body_lines n) _ _ _ _ _ _ true G Hl (wfree_true _)) as (new & e1 & -> & B & _).
    exists new, e1. auto.
  Qed.
End Lines.
