(** * ParseLines2: the lines on which the statements and comments of a parsed file stand *)
From Verif Require Import Base Regex Lex LexProofs LexClass PropLex TextOps TextProofs Tree Parse ParseProofs ParseTerm PropParse PropTerm
  CmdSpec StdSpecs StdDb StdWf PropStd StdShape Layout LayoutProofs Pieces Writing PropLayout Markup MarkupProofs Pipeline PropCase PropFile
  ParseShape NamesShape WordShape CommentShape TidyShape Reread CommentFree PropReread ParseBlank ParseSame BodySame OutSame Places ParseLines Places2.
From Coq Require Import Permutation.

Local Notation nows := ParseBlank.nows.
Definition calm2t (t : token) : bool := negb (is_onoff t || is_tt BYTEORDER_MARK t) && implb (is_ws t) (forallb is_aspace (spelling t)).
Definition calm2 (l : list token) : bool := forallb calm2t l.
Lemma calm2_app a b : calm2 (a ++ b) = calm2 a && calm2 b. Proof. apply forallb_app. Qed.
Lemma calm2_onoff l : calm2 l = true -> no_onoff l.
Proof.
  intros H. unfold calm2 in H. rewrite forallb_forall in H. apply Forall_forall. intros t Hin. apply H in Hin. unfold calm2t in Hin.
  apply andb_prop in Hin as [Hin _]. apply negb_true_iff in Hin. now apply orb_false_elim in Hin.
Qed.
Lemma calm_calm2 l : calm2 l = true -> OutSame.quiet l = true -> calm l = true.
Proof.
  unfold calm, calm2, OutSame.quiet. rewrite !forallb_forall. intros H1 H2 t Hin. specialize (H1 _ Hin). specialize (H2 _ Hin). unfold calm2t in H1. unfold calmt.
  apply negb_true_iff in H2. rewrite H2. exact H1.
Qed.
Definition ground2 (t : token) : Prop :=
  tgood t /\ (is_tt RIGHT_PAREN t = true -> nlc t = 0) /\ (is_tt NEWLINE t = true -> nlc t <= 1) /\ (is_tt WHITESPACE t = true -> nlc t = 0).

(** the first of the tokens, or the one that follows them *)
Definition nxt (z : list token) (nx : option token) : option token := match z with t :: _ => Some t | nil => nx end.
Lemma nxt_app a b : hd_error (a ++ b) = nxt a (hd_error b). Proof. destruct a; reflexivity. Qed.
Lemma nxt_hd a : hd_error a = nxt a None. Proof. destruct a; reflexivity. Qed.
Definition solid (z : list token) : Prop := exists t r, z = t :: r /\ is_comment t = false.
Definition headed (l : list token) : Prop := match l with t :: _ => is_ws t = false | nil => True end.

(** neither a blank nor a switch *)
Definition fine (t : token) : bool := is_semantic t || is_comment t.
Section Shape.
  Variable ctx : pctx.
  Variable tg : bool.
  (** a statement, [z] its tokens in the order of the file, with comments inside or behind it *)
  Definition noisy (x : pnode) (z : list token) : Prop :=
    forallb fine z = true /\ List.length (semantics z) = List.length (semantics (flat x)) /\ quiet_node x = false
    /\ exists u rp v, z = u ++ rp :: v /\ is_comment rp = false /\ is_semantic rp = true
       /\ (existsb is_comment u = true
           \/ exists c v', v = c :: v' /\ is_comment c = true
              /\ (line (begin c) = line (begin rp) \/ is_tt COMMENT c = true /\ explicit ctx (spelling c) = true)).
  Definition stm (x : pnode) (z : list token) (e e1 : Z) : Prop :=
    solid z /\ (exists s cs, x = N (KStatement s) cs)
    /\ (stmt_at x e e1 /\ z = nows (flat x) /\ quiet_node x = true \/ noisy x z).
  Definition atw (x : pnode) (z : list token) (e e1 : Z) : Prop :=
    solid z /\ (exists cs, x = N KAtStmt cs)
    /\ (atword_at x e /\ e1 = e /\ z = nows (flat x) /\ quiet_node x = true \/ noisy x z).
  (** comments below each other *)
  Fixpoint column (c : token) (z : list token) : Prop :=
    match z with nil => True | t :: r => is_tt COMMENT t = true /\ line (begin t) <= line (begin c) + 1 /\ column t r end.
  Definition note (x : pnode) (z : list token) (e e1 : Z) (nx : option token) : Prop :=
    exists t z' ts, z = t :: z' /\ x = N (KComment false) (map T ts) /\ nows ts = z /\ forallb wsc ts = true
      /\ is_tt COMMENT t = true /\ line (begin t) = e /\ column t z'
      /\ (e1 = line (begin (last z t)) \/ exists u, nx = Some u /\ is_tt COMMENT u = true /\ line (begin u) <= line (begin (last z t)) + 1)
      /\ (tg = true -> forall u, nx = Some u -> is_tt COMMENT u = true -> line (begin u) <= line (begin (last z t)) + 1 -> col (begin u) <> col (begin (last z t)))
      /\ hd_error ts = Some t.
  Inductive item2 : pnode -> list token -> Z -> Z -> option token -> Prop :=
  | i2_stmt x z e e1 nx : stm x z e e1 -> item2 x z e e1 nx
  | i2_at x z e e1 nx : atw x z e e1 -> item2 x z e e1 nx
  | i2_flow cs z e e1 nx : solid z -> flow2 cs z e e1 nx -> item2 (N KFlow cs) z e e1 nx
  with flow2 : list pnode -> list token -> Z -> Z -> option token -> Prop :=
  | f2_nil e nx : flow2 nil nil e e nx
  | f2_last x z e e1 nx : stm x z e e1 -> flow2 [x] z e e1 nx
  | f2_more x bd rest z1 z2 z3 e e1 e2 e3 nx : stm x z1 e e1 -> body2 true bd z2 e1 e2 (nxt z3 nx) -> flow2 rest z3 e2 e3 nx ->
      flow2 (x :: N KBody bd :: rest) (z1 ++ z2 ++ z3) e e3 nx
  with body2 : bool -> list pnode -> list token -> Z -> Z -> option token -> Prop :=
  | b2_nil w e nx : body2 w nil nil e e nx
  | b2_white ws cs z e e1 nx : blanks ws -> body2 false cs z (e + nlcs ws) e1 nx -> body2 true (N KWhitespace (map T ws) :: cs) z e e1 nx
  | b2_item w x cs z1 z2 e e1 e2 nx : item2 x z1 e e1 (nxt z2 nx) -> body2 true cs z2 e1 e2 nx -> body2 w (x :: cs) (z1 ++ z2) e e2 nx
  | b2_note w x cs z1 z2 e e1 e2 nx : note x z1 e e1 (nxt z2 nx) -> body2 true cs z2 e1 e2 nx -> body2 w (x :: cs) (z1 ++ z2) e e2 nx
  | b2_brk w t cs z2 e e1 e2 nx : is_tt BRACKET_COMMENT t = true -> body2 true cs z2 e1 e2 nx -> body2 w (N (KComment false) [T t] :: cs) (t :: z2) e e2 nx.
  Scheme item2_mut := Minimality for item2 Sort Prop
  with flow2_mut := Minimality for flow2 Sort Prop
  with body2_mut := Minimality for body2 Sort Prop.
  Combined Scheme at2_ind from item2_mut, flow2_mut, body2_mut.
  Lemma b2_weak w cs z e e1 nx : body2 false cs z e e1 nx -> body2 w cs z e e1 nx.
  Proof. intros H. inversion H; subst; [apply b2_nil|eapply b2_item; eauto|eapply b2_note; eauto|eapply b2_brk; eauto]. Qed.
End Shape.

Section Lines2.
  Variable ctx : pctx.
  Variable tg : bool.
  Hypothesis Hwf : wfctx true ctx.
  Hypothesis Hwk : wfkctx ctx.
  Definition lined2 (e : Z) (l : list token) : Prop := calm2 l = true /\ Forall ground2 l /\ located e l /\ (tg = true -> snug l).
  Lemma lined2_app e u r : lined2 e (u ++ r) -> lined2 (e + nlcs u) r.
  Proof.
    intros (A & B & C & D). rewrite calm2_app in A. apply andb_prop in A as [_ A]. apply Forall_app in B as [_ B]. apply located_app in C as [_ C].
    repeat split; auto. intros Ht. eapply snug_app; eauto.
  Qed.
  Lemma lined2_cons e t r : lined2 e (t :: r) -> line (begin t) = e /\ lined2 (e + nlc t) r.
  Proof. intros H. split; [apply H|]. change (t :: r) with ([t] ++ r) in H. apply lined2_app in H. cbn [nlcs] in H. now rewrite Z.add_0_r in H. Qed.
  Lemma ground2_good l : Forall ground2 l -> Forall tgood l.
  Proof. apply Forall_impl. now intros t [H _]. Qed.
  Lemma comment_nlc e t r : lined2 e (t :: r) -> is_tt COMMENT t = true -> nlc t = 0.
  Proof. intros (_ & F & _) Hc. inversion F as [|? ? [[G _] _] _]; subst. unfold nlc. apply count_chr_zero. auto. Qed.
  Lemma tt_comment t : is_tt COMMENT t = true -> is_comment t = true /\ is_ws t = false.
  Proof. unfold is_tt, is_comment, is_ws. destruct (tt t); try discriminate; auto. Qed.
  Lemma newline_ws t : is_tt NEWLINE t = true -> is_ws t = true /\ is_tt COMMENT t = false.
  Proof. unfold is_tt, is_ws. destruct (tt t); try discriminate; auto. Qed.
  Lemma white_ws t : is_tt WHITESPACE t = true -> is_ws t = true /\ is_tt COMMENT t = false.
  Proof. unfold is_tt, is_ws. destruct (tt t); try discriminate; auto. Qed.
  Lemma nows_cons t l : is_ws t = false -> nows (t :: l) = t :: nows l.
  Proof. intros H. unfold ParseBlank.nows. cbn [filter]. unfold ParseBlank.nonws at 1. now rewrite H. Qed.
  Lemma nows_skip t l : is_ws t = true -> nows (t :: l) = nows l.
  Proof. intros H. unfold ParseBlank.nows. cbn [filter]. unfold ParseBlank.nonws at 1. now rewrite H. Qed.
  Lemma nows_blanks ws : forallb is_ws ws = true -> nows ws = nil.
  Proof. induction ws as [|w ws IH]; auto. cbn [forallb]. intros H. apply andb_prop in H as [H1 H2]. rewrite nows_skip; auto. Qed.

  Lemma fine_pre e l z r : lined2 e l -> nows l = z ++ r -> forallb fine z = true.
  Proof.
    intros (C & _) E. assert (G : forallb fine (nows l) = true).
    { clear E. unfold calm2 in C. induction l as [|t l IH]; auto. cbn [forallb] in C. apply andb_prop in C as [C1 C2]. destruct (is_ws t) eqn:Et; [rewrite nows_skip; auto|].
      rewrite nows_cons by auto. cbn [forallb]. rewrite IH by auto. rewrite andb_true_r. unfold calm2t in C1. apply andb_prop in C1 as [C1 _]. apply negb_true_iff, orb_false_elim in C1 as [C1 _].
      unfold fine, is_semantic, is_comment, is_ws, is_onoff in *. destruct (tt t); try discriminate; reflexivity. }
    rewrite E, forallb_app in G. now apply andb_prop in G.
  Qed.
  (** ** Comments *)
  Lemma first_solid l u q : nows l = u :: q -> exists ws r, l = ws ++ u :: r /\ blanks ws /\ nows r = q.
  Proof.
    induction l as [|t l IH]; [discriminate|]. destruct (is_ws t) eqn:Et.
    - rewrite nows_skip by auto. intros H. destruct (IH H) as (ws & r & -> & Hw & Hq). exists (t :: ws), r. split; auto. split; auto. unfold blanks. cbn [forallb]. now rewrite Et.
    - rewrite nows_cons by auto. intros H. injection H as -> <-. exists nil, l. repeat split.
  Qed.
  Definition nocol (lst : token) (r : list token) : Prop :=
    forall u, hd_error (nows r) = Some u -> is_tt COMMENT u = true -> line (begin u) <= line (begin lst) + 1 -> col (begin u) <> col (begin lst).
  Lemma cloop_note m : forall last0 t toks a r e, (List.length toks < m)%nat -> cloop (is_tt COMMENT) last0 (t :: toks) = (a, r) ->
    is_tt COMMENT t = true -> match last0 with None => True | Some l => col (begin l) = col (begin t) end -> lined2 e (t :: toks) ->
    exists z' ts e1, a = map T ts /\ t :: toks = ts ++ r /\ nows ts = t :: z' /\ forallb wsc ts = true /\ column t z' /\ lined2 e1 r
      /\ (e1 = line (begin (last (t :: z') t)) \/ exists u, hd_error (nows r) = Some u /\ is_tt COMMENT u = true /\ line (begin u) <= line (begin (last (t :: z') t)) + 1)
      /\ (tg = true -> nocol (last (t :: z') t) r).
  Proof.
    induction m as [|m IH]; intros last0 t toks a r e Hm H Ht Hcol Hl; [lia|].
    pose proof (comment_nlc _ _ _ Hl Ht) as Hz. pose proof (tt_comment _ Ht) as [Hc Hw].
    pose proof Hl as Hl'. apply lined2_cons in Hl' as [He Hl']. rewrite Hz, Z.add_0_r in Hl'.
    assert (Hwt : wsc t = true) by (unfold wsc; now rewrite Hc, orb_true_r).
    assert (Hend : forall ts r0 e1, t :: toks = (t :: ts) ++ r0 -> forallb is_ws ts = true -> lined2 e1 r0 ->
       (e1 = e \/ exists u, hd_error (nows r0) = Some u /\ is_tt COMMENT u = true /\ line (begin u) <= e + 1) ->
       (tg = true -> nocol t r0) ->
       exists z' ts0 e1, map T (t :: ts) = map T ts0 /\ t :: toks = ts0 ++ r0 /\ nows ts0 = t :: z' /\ forallb wsc ts0 = true /\ column t z' /\ lined2 e1 r0
        /\ (e1 = line (begin (last (t :: z') t)) \/ exists u, hd_error (nows r0) = Some u /\ is_tt COMMENT u = true /\ line (begin u) <= line (begin (last (t :: z') t)) + 1)
        /\ (tg = true -> nocol (last (t :: z') t) r0)).
    { intros ts r0 e1 E Hts L Hor Hap. exists nil, (t :: ts), e1. split; auto. split; auto. split; [rewrite nows_cons, nows_blanks; auto|].
      split; [cbn [forallb]; rewrite Hwt; now apply ws_wsc|]. split; [exact I|]. split; auto. cbn [last]. rewrite He. split; auto. }
    assert (Hgo : forall w c r0 a0, t :: toks = (t :: w) ++ c :: r0 -> forallb is_ws w = true -> nlcs w <= 1 -> is_tt COMMENT c = true -> col (begin t) = col (begin c) ->
       cloop (is_tt COMMENT) (Some t) (c :: r0) = (a0, r) -> a = map T (t :: w) ++ a0 ->
       exists z' ts e1, a = map T ts /\ t :: toks = ts ++ r /\ nows ts = t :: z' /\ forallb wsc ts = true /\ column t z' /\ lined2 e1 r
        /\ (e1 = line (begin (last (t :: z') t)) \/ exists u, hd_error (nows r) = Some u /\ is_tt COMMENT u = true /\ line (begin u) <= line (begin (last (t :: z') t)) + 1)
        /\ (tg = true -> nocol (last (t :: z') t) r)).
    { intros w c r0 a0 E Hww Hn Hcc Hcols Ecl ->. cbn [app] in E. injection E as ->.
      pose proof (lined2_app _ _ _ Hl') as Lc.
      assert (Hm' : (List.length r0 < m)%nat) by (rewrite app_length in Hm; cbn [List.length] in Hm; lia).
      destruct (IH (Some t) c r0 a0 r _ Hm' Ecl Hcc Hcols Lc) as (z' & ts & e1 & -> & Ets & Ez & Hts & Hco & L & Hor & Hap).
      pose proof (lined2_cons _ _ _ Lc) as [Lline _].
      assert (El : forall d d', last (t :: c :: z') d = last (c :: z') d').
      { intros d d'. change (last (t :: c :: z') d) with (last (c :: z') d). clear. revert c. induction z' as [|x z' IH]; intros c; [reflexivity|]. change (last (x :: z') d = last (x :: z') d'). apply IH. }
      exists (c :: z'), (t :: w ++ ts), e1. split; [cbn [map]; now rewrite map_app|]. split; [cbn [app]; now rewrite Ets, <- app_assoc|].
      split; [rewrite nows_cons, OutSame.nows_app, nows_blanks, Ez by auto; reflexivity|].
      split; [cbn [forallb]; rewrite Hwt, forallb_app, Hts, (ws_wsc _ Hww); reflexivity|]. split; [cbn [column]; repeat split; auto; lia|].
      rewrite (El t c). auto. }
    cbn [cloop] in H. rewrite Ht in H. cbn [andb] in H. replace (match last0 with Some l => col (begin l) =? col (begin t) | None => true end) with true in H.
    2: { destruct last0; auto. symmetry. now apply Z.eqb_eq. }
    cbv beta iota in H.
    destruct toks as [|n r1].
    { injection H as <- <-. apply (Hend nil nil e); auto. intros _ u E. discriminate. }
    (* the comment ends here unless the next token is a comment too *)
    assert (Hdef : forall a0 r0, cloop (is_tt COMMENT) (Some t) (n :: r1) = (a0, r0) -> a = T t :: a0 -> r0 = r ->
       (is_tt COMMENT n = false -> tg = true -> nocol t (n :: r1)) ->
       exists z' ts e1, a = map T ts /\ t :: n :: r1 = ts ++ r /\ nows ts = t :: z' /\ forallb wsc ts = true /\ column t z' /\ lined2 e1 r
        /\ (e1 = line (begin (last (t :: z') t)) \/ exists u, hd_error (nows r) = Some u /\ is_tt COMMENT u = true /\ line (begin u) <= line (begin (last (t :: z') t)) + 1)
        /\ (tg = true -> nocol (last (t :: z') t) r)).
    { intros a0 r0 E -> -> Hap. destruct (is_tt COMMENT n) eqn:En.
      - destruct (col (begin t) =? col (begin n)) eqn:Eq.
        + apply Z.eqb_eq in Eq. eapply (Hgo nil n r1 a0); eauto. cbn [nlcs]. lia.
        + cbn [cloop] in E. rewrite En, Eq in E. injection E as <- <-. apply Z.eqb_neq in Eq.
          apply (Hend nil (n :: r1) e); auto. intros _ u Hu _ _. rewrite nows_cons in Hu by (now apply tt_comment). injection Hu as <-. auto.
      - cbn [cloop] in E. rewrite En in E. injection E as <- <-. apply (Hend nil (n :: r1) e); auto. }
    destruct r1 as [|c r2].
    { destruct (cloop (is_tt COMMENT) (Some t) [n]) as [a0 r0] eqn:E. injection H as <- <-. eapply Hdef; eauto.
      intros En _ u Hu Hcu Hlu. destruct (is_ws n) eqn:Ew; [rewrite nows_skip in Hu by auto; discriminate|]. rewrite nows_cons in Hu by auto. injection Hu as <-. congruence. }
    destruct (is_tt NEWLINE n && is_tt COMMENT c) eqn:E1.
    { apply andb_prop in E1 as [En Ec]. pose proof (newline_ws _ En) as [Wn _].
      assert (Gn : nlc n <= 1). { destruct Hl' as (_ & F & _). inversion F as [|? ? (_ & _ & G & _) _]; subst. auto. }
      destruct (cloop (is_tt COMMENT) (Some t) (c :: r2)) as [a0 r0] eqn:E. injection H as <- <-.
      destruct (col (begin t) =? col (begin c)) eqn:Eq.
      - apply Z.eqb_eq in Eq. eapply (Hgo [n] c r2 a0); eauto; cbn [forallb nlcs]; [now rewrite Wn|lia].
      - cbn [cloop] in E. rewrite Ec, Eq in E. injection E as <- <-. apply Z.eqb_neq in Eq.
        pose proof (lined2_app e [n] _ Hl') as Lc. pose proof (lined2_cons _ _ _ Lc) as [Ll _]. cbn [nlcs] in *.
        assert (Hh : hd_error (nows (c :: r2)) = Some c) by (rewrite nows_cons by (now apply tt_comment); reflexivity).
        apply (Hend [n] (c :: r2) (e + (nlc n + 0))); [reflexivity|cbn [forallb]; now rewrite Wn|exact Lc|right; exists c; repeat split; auto; lia|].
        intros _ u Hu _ _. rewrite Hh in Hu. injection Hu as <-. auto. }
    assert (Ha : tg = true -> forall u ws q, n :: c :: r2 = ws ++ u :: q -> blanks ws -> is_tt COMMENT u = true -> nlcs ws <= 1 ->
      (exists n, ws = [n] /\ is_tt NEWLINE n = true) \/ exists n w, ws = [n; w] /\ is_tt NEWLINE n = true /\ is_tt WHITESPACE w = true).
    { intros Htg u ws q E Hws Hu Hn. destruct Hl as (_ & _ & _ & Hs). specialize (Hs Htg). cbn [snug] in Hs. destruct Hs as [Hs _]. eapply Hs; eauto. }
    assert (Hnl : forall u ws q, n :: c :: r2 = ws ++ u :: q -> line (begin u) = e + nlcs ws).
    { intros u ws q E. rewrite E in Hl'. apply lined2_app in Hl'. now apply lined2_cons in Hl' as [-> _]. }
    destruct r2 as [|c2 r3].
    { destruct (cloop (is_tt COMMENT) (Some t) [n; c]) as [a0 r0] eqn:E. injection H as <- <-. eapply Hdef; eauto.
      intros En Htg u Hu Hcu Hlu. destruct (nows [n; c]) as [|u' q'] eqn:Eq; [discriminate|]. injection Hu as ->.
      destruct (first_solid _ _ _ Eq) as (ws & q & Ews & Hws & _). pose proof (Hnl _ _ _ Ews) as Hlw. rewrite He in Hlu.
      assert (Hn1 : nlcs ws <= 1) by lia. destruct (Ha Htg _ _ _ Ews Hws Hcu Hn1) as [(n' & -> & Hn')|(n' & w & -> & Hn' & Hw')].
      - cbn [app] in Ews. injection Ews as <- <- _. rewrite Hn', Hcu in E1. discriminate.
      - cbn [app] in Ews. discriminate. }
    destruct (is_tt NEWLINE n && is_tt WHITESPACE c && is_tt COMMENT c2) eqn:E2.
    { apply andb_prop in E2 as [E2 Ec2]. apply andb_prop in E2 as [En Ec]. pose proof (newline_ws _ En) as [Wn _]. pose proof (white_ws _ Ec) as [Wc _].
      assert (Gn : nlc n + (nlc c + 0) <= 1). { destruct Hl' as (_ & F & _). inversion F as [|? ? (_ & _ & G & _) F2]; subst. inversion F2 as [|? ? (_ & _ & _ & G2) _]; subst. specialize (G En). specialize (G2 Ec). lia. }
      destruct (cloop (is_tt COMMENT) (Some t) (c2 :: r3)) as [a0 r0] eqn:E. injection H as <- <-.
      destruct (col (begin t) =? col (begin c2)) eqn:Eq.
      - apply Z.eqb_eq in Eq. eapply (Hgo [n; c] c2 r3 a0); eauto; cbn [forallb nlcs]; try lia; now rewrite Wn, Wc.
      - cbn [cloop] in E. rewrite Ec2, Eq in E. injection E as <- <-. apply Z.eqb_neq in Eq.
        pose proof (lined2_app e [n; c] _ Hl') as Lc. pose proof (lined2_cons _ _ _ Lc) as [Ll _]. cbn [nlcs] in *.
        assert (Hh : hd_error (nows (c2 :: r3)) = Some c2) by (rewrite nows_cons by (now apply tt_comment); reflexivity).
        apply (Hend [n; c] (c2 :: r3) (e + (nlc n + (nlc c + 0)))); [reflexivity|cbn [forallb]; now rewrite Wn, Wc|exact Lc|right; exists c2; repeat split; auto; lia|].
        intros _ u Hu _ _. rewrite Hh in Hu. injection Hu as <-. auto. }
    destruct (cloop (is_tt COMMENT) (Some t) (n :: c :: c2 :: r3)) as [a0 r0] eqn:E. injection H as <- <-. eapply Hdef; eauto.
    intros En Htg u Hu Hcu Hlu. destruct (nows (n :: c :: c2 :: r3)) as [|u' q'] eqn:Eq; [discriminate|]. injection Hu as ->.
    destruct (first_solid _ _ _ Eq) as (ws & q & Ews & Hws & _). pose proof (Hnl _ _ _ Ews) as Hlw. rewrite He in Hlu.
    assert (Hn1 : nlcs ws <= 1) by lia. destruct (Ha Htg _ _ _ Ews Hws Hcu Hn1) as [(n' & -> & Hn')|(n' & w & -> & Hn' & Hw')].
    - cbn [app] in Ews. injection Ews as <- <- _. rewrite Hn', Hcu in E1. discriminate.
    - cbn [app] in Ews. injection Ews as <- <- <- _. rewrite Hn', Hw', Hcu in E2. discriminate.
  Qed.
  Lemma comment_note t l x r e : is_tt COMMENT t = true -> consume_comment (t :: l) = Ok (x, r) -> lined2 e (t :: l) ->
    exists z e1, note tg x z e e1 (hd_error (nows r)) /\ lined2 e1 r /\ nows (t :: l) = z ++ nows r.
  Proof.
    intros Ht H Hl. unfold consume_comment in H. replace (tmem (tt t) _) with false in H by (unfold is_tt in Ht; apply ttype_eqb_eq in Ht; now rewrite Ht).
    destruct (cloop (is_tt COMMENT) None (t :: l)) as [a r0] eqn:E. destruct (cloop_note (S (List.length l)) _ _ _ _ _ _ (Nat.lt_succ_diag_r _) E Ht I Hl) as (z' & ts & e1 & -> & Ets & Ez & Hw & Hc & L & Hor & Hap).
    assert (Hr : x = N (KComment false) (map T ts) /\ r0 = r). { destruct (map T ts); [discriminate|]. injection H as <- <-. auto. } destruct Hr as [-> ->].
    exists (t :: z'), e1. split; [|split; [exact L|rewrite Ets, OutSame.nows_app, Ez; reflexivity]].
    exists t, z', ts. split; auto. split; auto. split; auto. split; auto. split; auto. split; [apply Hl|]. split; auto. split; auto. split; auto.
    destruct ts as [|u ts]; [discriminate Ez|]. cbn [app] in Ets. injection Ets as <- _. reflexivity.
  Qed.

  (** ** Statements *)
  Lemma sem_nows l : semantics (nows l) = semantics l.
  Proof.
    induction l as [|t l IH]; auto. destruct (is_ws t) eqn:E.
    - rewrite nows_skip by auto. rewrite IH. unfold semantics. cbn [filter]. replace (is_semantic t) with false; auto. unfold is_ws in E. unfold is_semantic. destruct (tt t); try discriminate; reflexivity.
    - rewrite nows_cons by auto. unfold semantics in *. cbn [filter]. now rewrite IH.
  Qed.
  Lemma sem_app a b : semantics (a ++ b) = semantics a ++ semantics b. Proof. apply filter_app. Qed.
  Lemma trailing_line r5 tr r6 e : consume_trailing ctx r5 = (tr, r6) -> lined2 e r5 ->
    (tr = nil /\ r6 = r5) \/ exists u c v, r5 = u ++ r6 /\ flats tr = u /\ nows u = c :: v /\ is_comment c = true /\ forallb wsc u = true
      /\ (line (begin c) = e \/ is_tt COMMENT c = true /\ explicit ctx (spelling c) = true).
  Proof.
    intros H Hl. pose proof H as H0. apply (ParseProofs.consume_trailing_Q eq (@eq_refl _) ltac:(intros; congruence)) in H0 as (u & Eu & Hu).
    destruct (trailing_cblank _ _ _ _ H) as (Hb & u' & Eu' & Hw). rewrite Eu in Eu'. apply app_inv_tail in Eu'. subst u'.
    unfold consume_trailing in H. destruct (next_is_trailing ctx r5) eqn:En; cbn [negb] in H; [|left; injection H as <- <-; auto]. right.
    exists u. destruct (next_is_explicit ctx r5) eqn:Ex.
    - destruct (take_ws r5) as [ws r0] eqn:E. destruct (exloop ctx r0) as [a0 r1] eqn:E2. injection H as <- <-.
      apply take_ws_split in E as (w & -> & -> & Hww & Hh).
      assert (Hx : next_is_explicit ctx r0 = true).
      { clear -Ex Hww. induction w as [|t w IH]; auto. cbn [forallb app next_is_explicit] in *. apply andb_prop in Hww as [H1 H2]. rewrite H1 in Ex. auto. }
      destruct r0 as [|t r0]; [discriminate|]. cbn [exloop] in E2. rewrite Hx in E2. destruct (exloop ctx r0) as [a1 r2]. injection E2 as <- <-.
      cbn [next_is_explicit] in Hx. rewrite Hh in Hx. apply andb_prop in Hx as [Hx1 Hx2].
      exists t, (nows (flats a1)). split; auto. split; auto. split; [|split; [now apply tt_comment|split; auto]].
      rewrite Hu. unfold flats. rewrite flat_map_app, OutSame.nows_app. fold (flats (map T w)). rewrite flats_T, nows_blanks by auto. cbn [flat_map flat app]. rewrite app_nil_r. now rewrite nows_cons.
    - assert (V : forall t, is_valid_trailing t = true -> is_comment t = true) by (intros t Ht; now apply andb_prop in Ht).
      assert (W : forall t, is_comment t = true -> is_ws t = false) by (intros t; unfold is_comment, is_ws; destruct (tt t); try discriminate; auto).
      unfold next_is_trailing in En. destruct r5 as [|t0 toks]; [discriminate|]. rewrite Ex in En. cbn [orb] in En.
      destruct (is_tt WHITESPACE t0) eqn:Ew.
      + pose proof (white_ws _ Ew) as [Ww _].
        assert (Hv : is_valid_trailing t0 = false) by (destruct (is_valid_trailing t0) eqn:Ev; auto; apply V, W in Ev; congruence).
        rewrite Hv in En. cbn [orb] in En. destruct toks as [|t1 toks]; [discriminate|]. cbn [andb] in En.
        destruct (cloop is_valid_trailing None (t1 :: toks)) as [a0 r1] eqn:E. injection H as <- <-. apply (cloop_first _ _ _ _ _ En) in E as (a' & ->).
        exists t1, (nows (flats a')). split; auto. split; auto. split; [|split; [now apply V|split; auto]].
        * rewrite Hu. unfold flats. cbn [flat_map flat app]. rewrite nows_skip by auto. rewrite app_nil_r. rewrite nows_cons; auto.
        * left. destruct Hl as (_ & F & L & _). cbn [located] in L. destruct L as (_ & L & _). inversion F as [|? ? (_ & _ & _ & G) _]; subst. specialize (G Ew). lia.
      + assert (Hv : is_valid_trailing t0 = true) by (destruct (is_valid_trailing t0); auto; destruct toks; discriminate).
        destruct (cloop is_valid_trailing None (t0 :: toks)) as [a0 r1] eqn:E. injection H as <- <-. apply (cloop_first _ _ _ _ _ Hv) in E as (a' & ->).
        exists t0, (nows (flats a')). split; auto. split; auto. split; [|split; [now apply V|split; auto]].
        * rewrite Hu. unfold flats. cbn [flat_map flat app]. rewrite app_nil_r. rewrite nows_cons; auto.
        * left. apply lined2_cons in Hl. tauto.
  Qed.
  Lemma existsb_quiet l : OutSame.quiet l = false -> existsb is_comment l = true.
  Proof.
    unfold OutSame.quiet. induction l as [|t l IH]; [discriminate|]. cbn [forallb existsb]. destruct (is_comment t); auto.
  Qed.
  Lemma quiet_perm a b : Permutation a b -> OutSame.quiet a = OutSame.quiet b.
  Proof.
    unfold OutSame.quiet. induction 1 as [|x l l' H IH|x y l|l l' l'' H1 IH1 H2 IH2]; cbn [forallb]; auto; [now rewrite IH|destruct (is_comment x), (is_comment y); auto|congruence].
  Qed.
  Lemma quiet_app a b : OutSame.quiet (a ++ b) = OutSame.quiet a && OutSame.quiet b. Proof. apply forallb_app. Qed.
  Lemma quiet_nows l : OutSame.quiet (nows l) = OutSame.quiet l.
  Proof.
    induction l as [|t l IH]; auto. destruct (is_ws t) eqn:E.
    - rewrite nows_skip by auto. rewrite IH. unfold OutSame.quiet. cbn [forallb]. replace (is_comment t) with false; auto. unfold is_ws in E. unfold is_comment. destruct (tt t); try discriminate; reflexivity.
    - rewrite nows_cons by auto. unfold OutSame.quiet in *. cbn [forallb]. now rewrite IH.
  Qed.
  Lemma quiet_ws ws : forallb is_ws ws = true -> OutSame.quiet ws = true.
  Proof. intros H. rewrite <- quiet_nows, nows_blanks; auto. Qed.
  Lemma flat_stmt s fn ws1 lp ws2 args tl rp tr :
    flat (N (KStatement s) (N KFunname [T fn] :: map T ws1 ++ [N KLParen [T lp]] ++ map T ws2 ++ [args] ++ tl ++ [N KRParen [T rp]] ++ tr))
    = fn :: ws1 ++ lp :: ws2 ++ flat args ++ flats tl ++ rp :: flats tr.
  Proof.
    cbn [flat]. cbn [flat_map]. rewrite !flat_map_app. fold (flats (map T ws1)) (flats (map T ws2)) (flats tl) (flats tr). rewrite !flats_T. cbn [flat_map flat app]. now rewrite app_nil_r.
  Qed.
  Lemma statement2 n t l x r e : statement n ctx (t :: l) = Ok (x, r) -> is_tt WORD t = true -> lined2 e (t :: l) ->
    exists z e1, stm ctx x z e e1 /\ lined2 e1 r /\ nows (t :: l) = z ++ nows r.
  Proof.
    intros H Hword Hl. unfold statement in H. pose proof Hl as L0. apply lined2_cons in Hl as [He Hl].
    assert (Wt : is_ws t = false /\ is_comment t = false) by (unfold is_tt in Hword; unfold is_ws, is_comment; destruct (tt t); try discriminate; auto). destruct Wt as [Wt Ct].
    destruct (take_ws l) as [a1 r0] eqn:E1. apply take_ws_split in E1 as (w1 & -> & -> & W1 & _). apply lined2_app in Hl.
    destruct r0 as [|lp r0]; [discriminate|]. destruct (is_tt LEFT_PAREN lp) eqn:Elp; [|discriminate]. cbn [negb] in H. apply lined2_cons in Hl as [_ Hl].
    assert (Wlp : is_ws lp = false /\ is_comment lp = false) by (unfold is_tt in Elp; unfold is_ws, is_comment; destruct (tt lp); try discriminate; auto). destruct Wlp as [Wlp Clp].
    destruct (take_ws r0) as [a2 r1] eqn:E2. apply take_ws_split in E2 as (w2 & -> & -> & W2 & _). apply lined2_app in Hl.
    apply bindr_ok in H as ([args r3] & E & H).
    destruct (sh_call _ _ (all_Sh ctx n) _ _ _ _ _ _ (command_wk _ _ Hwk) (ground2_good _ (proj1 (proj2 Hl))) E) as [Hg _].
    destruct (call_used _ Hwf _ _ _ _ _ (calm2_onoff _ (proj1 Hl)) E) as (used & -> & HP & HS).
    pose proof (proj1 Hl) as Cl. apply lined2_app in Hl.
    apply bindr_ok in H as ([tl r4] & Et & H). destruct r4 as [|rp r5]; [discriminate|].
    destruct (consume_trailing ctx r5) as [tr r6] eqn:Etr. injection H as Hx <-.
    pose proof Et as Et0. apply (ParseProofs.stmt_tail_Q eq (@eq_refl _) ltac:(intros; congruence)) in Et0 as (v & -> & Hv).
    assert (Hrp : is_tt RIGHT_PAREN rp = true /\ forallb wsc v = true).
    { subst v. clear -Et. revert Et. generalize (S (List.length (flats tl ++ rp :: r5))). generalize (flats tl ++ rp :: r5). intros l f. revert l tl rp r5. induction f as [|f IH]; intros l a rp r H; [discriminate|]. cbn [stmt_tail] in H. destruct l as [|t l]; [discriminate|].
      destruct (is_tt RIGHT_PAREN t) eqn:Ep; [injection H as <- <- <-; auto|]. destruct (is_ws t) eqn:Ew.
      - apply bindr_ok in H as ([a' r'] & E & H). injection H as <- ->. destruct (IH _ _ _ _ E) as [A B]. split; auto. unfold flats in *. cbn [flat_map flat app forallb]. rewrite B. unfold wsc. now rewrite Ew.
      - destruct (is_tt COMMENT t) eqn:Ec; [|discriminate]. apply bindr_ok in H as ([c r1] & E & H). apply bindr_ok in H as ([a' r'] & E2 & H). injection H as <- ->.
        destruct (IH _ _ _ _ E2) as [A B]. split; auto. unfold flats in *. cbn [flat_map]. rewrite forallb_app, B, andb_true_r.
        destruct (comment_cblank _ _ _ _ (proj1 (tt_comment _ Ec)) E) as [[Hb|(k & cs & -> & Hb & _)] _]; [|exact Hb].
        unfold consume_comment in E. destruct (tmem _ _); [injection E as <- <-; destruct Hb|]. destruct (cloop _ _ _) as [[|x y] z]; [discriminate|]. injection E as <- <-. destruct Hb. }
    destruct Hrp as [Hrp Hvw]. destruct (rp_nonws _ Hrp) as [Wrp Crp].
    assert (Srp : is_semantic rp = true) by (unfold is_tt in Hrp; unfold is_semantic; destruct (tt rp); try discriminate; reflexivity).
    apply lined2_app in Hl. pose proof Hl as Hl5. apply lined2_cons in Hl5 as [Hline Hl5].
    assert (Zrp : nlc rp = 0). { destruct Hl as (_ & F & _). inversion F as [|? ? (_ & G & _) _]; subst. auto. }
    rewrite Zrp, Z.add_0_r in Hl5.
    set (e5 := e + nlc t + nlcs w1 + nlc lp + nlcs w2 + nlcs used + nlcs v) in *. clearbody e5.
    set (s := stmt_cmdspec (command_parser ctx (lower (spelling t)))) in *. clearbody s.
    set (z0 := nows (t :: w1 ++ lp :: w2 ++ used ++ v)).
    assert (Hz0 : z0 = t :: lp :: nows used ++ nows v).
    { unfold z0. rewrite nows_cons, OutSame.nows_app, nows_blanks by auto. cbn [app]. rewrite nows_cons, OutSame.nows_app, nows_blanks by auto. cbn [app]. now rewrite OutSame.nows_app. }
    assert (Hqz : OutSame.quiet z0 = OutSame.quiet (flat args) && OutSame.quiet v).
    { rewrite Hz0. change (OutSame.quiet (t :: lp :: nows used ++ nows v)) with (negb (is_comment t) && (negb (is_comment lp) && OutSame.quiet (nows used ++ nows v))).
      rewrite Ct, Clp, quiet_app, !quiet_nows, (quiet_perm _ _ HP). reflexivity. }
    assert (Hstream : forall u, nows (t :: w1 ++ lp :: w2 ++ used ++ v ++ rp :: u ++ r6) = z0 ++ rp :: nows u ++ nows r6).
    { intros u. unfold z0. replace (t :: w1 ++ lp :: w2 ++ used ++ v ++ rp :: u ++ r6) with ((t :: w1 ++ lp :: w2 ++ used ++ v) ++ rp :: u ++ r6) by (cbn [app]; rewrite <- !app_assoc; cbn [app]; now rewrite <- !app_assoc).
      rewrite OutSame.nows_app, (nows_cons rp) by auto. now rewrite (OutSame.nows_app u). }
    assert (Hfl : flat x = t :: w1 ++ lp :: w2 ++ flat args ++ v ++ rp :: flats tr) by (rewrite <- Hx, Hv; apply flat_stmt).
    assert (Hlen : forall u, flats tr = u -> List.length (semantics (z0 ++ rp :: nows u)) = List.length (semantics (t :: w1 ++ lp :: w2 ++ flat args ++ v ++ rp :: flats tr))).
    { intros u <-. f_equal.
      replace (t :: w1 ++ lp :: w2 ++ flat args ++ v ++ rp :: flats tr) with ((t :: w1 ++ lp :: w2) ++ flat args ++ v ++ rp :: flats tr) by (cbn [app]; rewrite <- !app_assoc; reflexivity).
      unfold z0. replace (t :: w1 ++ lp :: w2 ++ used ++ v) with ((t :: w1 ++ lp :: w2) ++ used ++ v) by (cbn [app]; rewrite <- !app_assoc; reflexivity).
      rewrite sem_app, sem_nows, !sem_app, HS, <- !app_assoc. do 3 f_equal. unfold semantics at 1 2. cbn [filter]. rewrite Srp. f_equal. apply sem_nows. }
    assert (Hsol : forall u, solid (z0 ++ u)) by (intros u; rewrite Hz0; exists t; eexists; split; [reflexivity|exact Ct]).
    destruct (OutSame.quiet (flat args) && OutSame.quiet v) eqn:Eq.
    2: { (* comments inside *)
      destruct (trailing_cblank _ _ _ _ Etr) as (_ & u & -> & _).
      pose proof Etr as Hfu. apply (ParseProofs.consume_trailing_Q eq (@eq_refl _) ltac:(intros; congruence)) in Hfu as (u' & Eu' & Hu'). apply app_inv_tail in Eu'. subst u'.
      exists (z0 ++ rp :: nows u), (e5 + nlcs u). split; [|split; [now apply lined2_app|rewrite Hstream; now rewrite <- app_assoc]].
      split; [apply Hsol|]. split; [rewrite <- Hx; eauto|]. right. unfold noisy. rewrite Hfl. split; [apply (fine_pre _ _ (z0 ++ rp :: nows u) (nows r6) L0); rewrite Hstream; now rewrite <- app_assoc|]. split; [now apply Hlen|].
      split; [unfold quiet_node; rewrite Hfl; change (OutSame.quiet (t :: w1 ++ lp :: w2 ++ flat args ++ v ++ rp :: flats tr) = false);
              replace (t :: w1 ++ lp :: w2 ++ flat args ++ v ++ rp :: flats tr) with (([t] ++ w1 ++ [lp] ++ w2) ++ (flat args ++ v) ++ rp :: flats tr) by (cbn [app]; repeat (rewrite <- app_assoc; cbn [app]); reflexivity);
              rewrite quiet_app, (quiet_app (flat args ++ v)), (quiet_app (flat args)), Eq; cbn [andb]; apply andb_false_r|].
      exists z0, rp, (nows u). split; auto. split; auto. split; auto. left. apply existsb_quiet. now rewrite Hqz. }
    apply andb_prop in Eq as [Qa Qv].
    destruct (trailing_line _ _ _ _ Etr Hl5) as [(-> & ->)|(u & c & v' & -> & Hfu & Hnu & Cc & _ & Hor)].
    - assert (Hqt : forallb quiet_node tl = true).
      { rewrite Hv in Qv. clear -Qv. unfold OutSame.quiet, flats, quiet_node in *. induction tl as [|y tl IH]; auto. cbn [flat_map forallb] in *. rewrite forallb_app in Qv. apply andb_prop in Qv as [-> Q2]. auto. }
      destruct (tail_split _ _ _ _ Hqt Et) as (ws & rp' & r5' & Er4 & _ & Ev & -> & Wt3). injection Er4 as <- <-. apply app_inv_tail in Ev. subst v.
      exists (z0 ++ [rp]), e5. split; [|split; [exact Hl5|]].
      2: { specialize (Hstream nil). cbn [app] in Hstream. rewrite Hstream. now rewrite <- app_assoc. }
      split; [apply Hsol|]. split; [rewrite <- Hx; eauto|]. left. split; [|split].
      + destruct args as [|k a]; [destruct Hg|]. destruct Hg as [Hk _]. exists s, t, w1, lp, w2, k, a, ws, rp. split; [rewrite <- Hx; reflexivity|]. repeat split; auto.
      + rewrite Hfl, Hz0. rewrite nows_cons, OutSame.nows_app, (nows_blanks w1) by auto. cbn [app]. rewrite nows_cons, !OutSame.nows_app, (nows_blanks w2) by auto. cbn [app].
        rewrite nows_cons by auto. cbn [flats flat_map]. change (nows nil) with (@nil token). rewrite <- app_assoc. do 2 f_equal. f_equal.
        assert (Ho : no_onoff used) by (apply calm2_onoff; rewrite calm2_app in Cl; now apply andb_prop in Cl).
        rewrite <- (quiet_sem used), <- (quiet_sem (flat args)); auto; [eapply Permutation_Forall; eauto|now rewrite (quiet_perm _ _ HP)].
      + rewrite flats_T in *. unfold quiet_node. rewrite Hfl. change (OutSame.quiet (t :: w1 ++ lp :: w2 ++ flat args ++ ws ++ rp :: flats []) = true).
        replace (t :: w1 ++ lp :: w2 ++ flat args ++ ws ++ rp :: flats []) with ([t] ++ w1 ++ [lp] ++ w2 ++ flat args ++ ws ++ [rp]) by (cbn [app]; reflexivity).
        rewrite !quiet_app, Qa, Qv, (quiet_ws w1), (quiet_ws w2) by auto. unfold OutSame.quiet. cbn [forallb]. now rewrite Ct, Clp, Crp.
    - exists (z0 ++ rp :: nows u), (e5 + nlcs u). split; [|split; [now apply lined2_app|rewrite Hstream; now rewrite <- app_assoc]].
      split; [apply Hsol|]. split; [rewrite <- Hx; eauto|]. right. unfold noisy. rewrite Hfl. split; [apply (fine_pre _ _ (z0 ++ rp :: nows u) (nows r6) L0); rewrite Hstream; now rewrite <- app_assoc|]. split; [now apply Hlen|].
      split.
      + unfold quiet_node. rewrite Hfl. change (OutSame.quiet (t :: w1 ++ lp :: w2 ++ flat args ++ v ++ rp :: flats tr) = false).
        replace (t :: w1 ++ lp :: w2 ++ flat args ++ v ++ rp :: flats tr) with (([t] ++ w1 ++ [lp] ++ w2 ++ flat args ++ v ++ [rp]) ++ flats tr) by (cbn [app]; repeat (rewrite <- app_assoc; cbn [app]); reflexivity).
        rewrite quiet_app, Hfu, <- (quiet_nows u), Hnu. unfold OutSame.quiet at 2. cbn [forallb]. rewrite Cc. cbn [negb andb]. apply andb_false_r.
      + exists z0, rp, (nows u). split; auto. split; auto. split; auto. right. exists c, v'. split; auto. split; auto. rewrite Hline. auto.
  Qed.
  Lemma atword2 t l x r e : atword_statement ctx (t :: l) = Ok (x, r) -> is_tt ATWORD t = true -> lined2 e (t :: l) ->
    exists z e1, atw ctx x z e e1 /\ lined2 e1 r /\ nows (t :: l) = z ++ nows r.
  Proof.
    intros H Ht Hl. pose proof Hl as L0. cbn [atword_statement] in H. destruct (consume_trailing ctx l) as [tr r'] eqn:Etr. injection H as <- <-.
    assert (Z0 : nlc t = 0). { destruct Hl as (_ & F & _). inversion F as [|? ? [[_ G] _] _]; subst. apply one_line_nlc, G. now right. }
    apply lined2_cons in Hl as [He Hl]. rewrite Z0, Z.add_0_r in Hl.
    assert (Wt : is_ws t = false /\ is_comment t = false /\ is_semantic t = true) by (unfold is_tt in Ht; unfold is_ws, is_comment, is_semantic; destruct (tt t); try discriminate; auto). destruct Wt as (Wt & Ct & St).
    destruct (trailing_line _ _ _ _ Etr Hl) as [(-> & ->)|(u & c & v' & -> & Hfu & Hnu & Cc & _ & Hor)].
    - exists [t], e. split; [|split; [exact Hl|now rewrite nows_cons]]. split; [exists t, nil; auto|]. split; [eauto|]. left. split; [exists t; auto|]. split; auto.
      cbn [flat flat_map app]. rewrite nows_cons by auto. split; [reflexivity|]. unfold quiet_node. cbn [flat flat_map app forallb]; now rewrite Ct.
    - exists (t :: nows u), (e + nlcs u). split; [|split; [now apply lined2_app|rewrite nows_cons by auto; cbn [app]; now rewrite OutSame.nows_app]].
      assert (Hfl : flat (N KAtStmt (N KAtWord [T t] :: tr)) = t :: u) by (cbn [flat flat_map app]; now rewrite <- Hfu).
      split; [exists t; eexists; split; [reflexivity|auto]|]. split; [eauto|]. right. unfold noisy. rewrite Hfl.
      split; [apply (fine_pre _ _ (t :: nows u) (nows r') L0); rewrite nows_cons by auto; cbn [app]; now rewrite OutSame.nows_app|]. split; [unfold semantics; cbn [filter]; rewrite St; cbn [List.length]; do 2 f_equal; apply sem_nows|].
      split; [unfold quiet_node; rewrite Hfl; cbn [forallb]; rewrite Ct; cbn [negb andb]; change (OutSame.quiet u = false); rewrite <- quiet_nows, Hnu; unfold OutSame.quiet; cbn [forallb]; now rewrite Cc|].
      exists nil, t, (nows u). split; auto. split; auto. split; auto. right. exists c, v'. split; auto. split; auto. rewrite He. auto.
  Qed.
  Lemma body_lines2 n :
    (forall bset acc l a r e w, body_loop n ctx bset acc l = Ok (a, r) -> lined2 e l -> wfree w l ->
       exists new z e1, a = acc ++ new /\ body2 ctx tg w new z e e1 (hd_error (nows r)) /\ lined2 e1 r /\ nows l = z ++ nows r)
    /\ (forall t l x r e, flow n ctx (t :: l) = Ok (x, r) -> is_tt WORD t = true -> lined2 e (t :: l) ->
       exists z e1, item2 ctx tg x z e e1 (hd_error (nows r)) /\ lined2 e1 r /\ nows (t :: l) = z ++ nows r)
    /\ (forall acc l a r e, if_loop n ctx acc l = Ok (a, r) -> whead l -> lined2 e l ->
       exists new z e1, a = acc ++ new /\ flow2 ctx tg new z e e1 (hd_error (nows r)) /\ lined2 e1 r /\ nows l = z ++ nows r /\ (l <> nil -> solid z)).
  Proof.
    induction n as [|m (IHb & IHf & IHi)]; [split; [|split]; intros; discriminate|].
    assert (Hsnoc : forall acc (x : pnode) new, (acc ++ [x]) ++ new = acc ++ x :: new) by (intros; now rewrite <- app_assoc).
    split; [|split].
    - intros bset acc l a r e w H Hl Hw.
      assert (Hstop : forall l0, a = acc /\ r = l0 -> l0 = l -> exists new z e1, a = acc ++ new /\ body2 ctx tg w new z e e1 (hd_error (nows r)) /\ lined2 e1 r /\ nows l = z ++ nows r).
      { intros l0 [-> ->] ->. exists nil, nil, e. rewrite app_nil_r. split; auto. split; [apply b2_nil|auto]. }
      cbn [body_loop] in H. destruct l as [|t l]; [injection H as <- <-; eapply Hstop; eauto|].
      assert (Hc2 : is_onoff t = false /\ is_tt BYTEORDER_MARK t = false).
      { destruct Hl as (C & _). unfold calm2 in C. cbn [forallb] in C. apply andb_prop in C as [C _]. unfold calm2t in C. apply andb_prop in C as [C _]. apply negb_true_iff in C. now apply orb_false_elim in C. }
      destruct Hc2 as [Hoo Hbom].
      destruct (is_ws t) eqn:Ew.
      { specialize (Hw Ew). subst w. destruct (take_ws (t :: l)) as [w1 r0] eqn:E1. apply take_ws_split in E1 as (ws & E & -> & W & Hh). rewrite E in Hl |- *.
        apply lined2_app in Hl. destruct (IHb _ _ _ _ _ _ false H Hl) as (new & z & e1 & -> & B & L & Ez).
        { destruct r0 as [|u r0]; [exact I|]. intros Eu. rewrite Eu in Hh. discriminate Hh. }
        exists (N KWhitespace (map T ws) :: new), z, e1. split; [apply Hsnoc|]. split; [now apply b2_white|]. split; [exact L|]. rewrite OutSame.nows_app, nows_blanks; auto. }
      assert (Hcomment : forall c r0, consume_comment (t :: l) = Ok (c, r0) -> is_comment t = true -> body_loop m ctx bset (acc ++ [c]) r0 = Ok (a, r) ->
         exists new z e1, a = acc ++ new /\ body2 ctx tg w new z e e1 (hd_error (nows r)) /\ lined2 e1 r /\ nows (t :: l) = z ++ nows r).
      { intros c r0 Ec Hc Hb. destruct (is_tt COMMENT t) eqn:Et.
        - destruct (comment_note _ _ _ _ _ Et Ec Hl) as (z1 & e1 & Hn & L1 & Ez1).
          destruct (IHb _ _ _ _ _ _ true Hb L1 (wfree_true _)) as (new & z & e2 & -> & B & L & Ez).
          exists (c :: new), (z1 ++ z), e2. split; [apply Hsnoc|]. rewrite Ez, nxt_app in Hn. split; [eapply b2_note; eauto|]. split; auto. rewrite Ez1, Ez. now rewrite app_assoc.
        - assert (Eb : is_tt BRACKET_COMMENT t = true) by (unfold is_comment in Hc; unfold is_tt in *; destruct (tt t); try discriminate; reflexivity).
          unfold consume_comment in Ec. replace (tmem (tt t) _) with true in Ec by (unfold is_tt in Eb; apply ttype_eqb_eq in Eb; now rewrite Eb). injection Ec as <- <-.
          pose proof Hl as Hl2. apply lined2_cons in Hl2 as [_ Hl2].
          destruct (IHb _ _ _ _ _ _ true Hb Hl2 (wfree_true _)) as (new & z & e2 & -> & B & L & Ez).
          exists (N (KComment false) [T t] :: new), (t :: z), e2. split; [apply Hsnoc|]. split; [eapply b2_brk; eauto|]. split; auto. rewrite nows_cons by auto. now rewrite Ez. }
      rewrite Hoo in H.
      destruct (is_tt COMMENT t) eqn:Hc1; [apply bindr_ok in H as ([c r0] & Ec & H); eapply Hcomment; eauto; now apply tt_comment|].
      destruct (is_tt BRACKET_COMMENT t) eqn:Hc2; [apply bindr_ok in H as ([c r0] & Ec & H); eapply Hcomment; eauto; unfold is_tt in Hc2; unfold is_comment; destruct (tt t); try discriminate; reflexivity|].
      rewrite Hbom in H.
      destruct (is_tt WORD t) eqn:Ewd.
      + destruct (smem _ bset); [injection H as <- <-; eapply Hstop; eauto|].
        assert (Hitem : forall sub r1 z1 e1, item2 ctx tg sub z1 e e1 (hd_error (nows r1)) -> lined2 e1 r1 -> nows (t :: l) = z1 ++ nows r1 -> body_loop m ctx bset (acc ++ [sub]) r1 = Ok (a, r) ->
          exists new z e1, a = acc ++ new /\ body2 ctx tg w new z e e1 (hd_error (nows r)) /\ lined2 e1 r /\ nows (t :: l) = z ++ nows r).
        { intros sub r1 z1 e1 It L1 Ez1 Hb. destruct (IHb _ _ _ _ _ _ true Hb L1 (wfree_true _)) as (new & z & e2 & -> & B & L & Ez).
          rewrite Ez, nxt_app in It. exists (sub :: new), (z1 ++ z), e2. split; [apply Hsnoc|]. split; [eapply b2_item; eauto|]. split; auto. rewrite Ez1, Ez. now rewrite app_assoc. }
        destruct (smem _ flow_names).
        * apply bindr_ok in H as ([sub r1] & E & H). destruct (IHf _ _ _ _ _ E Ewd Hl) as (z1 & e1 & It & L1 & Ez1). eapply Hitem; eauto.
        * apply bindr_ok in H as ([sub r1] & E & H). destruct (statement2 _ _ _ _ _ _ E Ewd Hl) as (z1 & e1 & It & L1 & Ez1). eapply Hitem; eauto. now apply i2_stmt.
      + destruct (is_tt ATWORD t) eqn:Eat; [|discriminate].
        apply bindr_ok in H as ([sub r1] & E & H). destruct (atword2 _ _ _ _ _ E Eat Hl) as (z1 & e1 & It & L1 & Ez1).
        destruct (IHb _ _ _ _ _ _ true H L1 (wfree_true _)) as (new & z & e2 & -> & B & L & Ez).
        exists (sub :: new), (z1 ++ z), e2. split; [apply Hsnoc|]. split; [eapply b2_item; [apply i2_at; eauto|eauto]|]. split; auto. rewrite Ez1, Ez. now rewrite app_assoc.
    - intros t l x r e H Hwd Hl. cbn [flow] in H. destruct (seqb _ $"IF").
      + apply bindr_ok in H as ([a r1] & E & H). injection H as <- <-. destruct (IHi _ _ _ _ _ E Hwd Hl) as (new & z & e1 & -> & F & L & Ez & Hs).
        exists z, e1. split; [|auto]. apply i2_flow; [apply Hs; discriminate|exact F].
      + apply bindr_ok in H as ([op q1] & E1 & H). apply bindr_ok in H as ([bd q2] & E2 & H). apply bindr_ok in H as ([cl q3] & E3 & H).
        injection H as <- <-. destruct (statement2 _ _ _ _ _ _ E1 Hwd Hl) as (z1 & e1 & S1 & L1 & Ez1).
        destruct (IHb _ _ _ _ _ _ true E2 L1 (wfree_true _)) as (new & z2 & e2 & -> & B & L2 & Ez2). cbn [app].
        pose proof (body_whead _ _ _ _ _ _ _ E2) as Hw2.
        destruct q2 as [|t2 q2]; [discriminate E3|]. destruct (statement2 _ _ _ _ _ _ E3 Hw2 L2) as (z3 & e3 & S3 & L3 & Ez3).
        exists (z1 ++ z2 ++ z3), e3. rewrite Ez3, nxt_app in B. split; [|split; [exact L3|rewrite Ez1, Ez2, Ez3; now rewrite <- !app_assoc]].
        apply i2_flow; [destruct S1 as [(y & q & -> & Hy) _]; exists y; eexists; split; [reflexivity|auto]|].
        eapply f2_more; eauto. now apply f2_last.
    - intros acc l a r e H Hwd Hl. cbn [if_loop] in H. destruct l as [|t l].
      { injection H as <- <-. exists nil, nil, e. rewrite app_nil_r. split; auto. split; [apply f2_nil|split; auto]. split; auto. intros X. now destruct X. }
      destruct (seqb _ $"ENDIF").
      + apply bindr_ok in H as ([cl q3] & E3 & H). injection H as <- <-. destruct (statement2 _ _ _ _ _ _ E3 Hwd Hl) as (z & e1 & S1 & L1 & Ez).
        exists [cl], z, e1. split; auto. split; [now apply f2_last|]. split; auto. split; auto. intros _. apply S1.
      + apply bindr_ok in H as ([op q1] & E1 & H). apply bindr_ok in H as ([bd q2] & E2 & H).
        destruct (statement2 _ _ _ _ _ _ E1 Hwd Hl) as (z1 & e1 & S1 & L1 & Ez1).
        destruct (IHb _ _ _ _ _ _ true E2 L1 (wfree_true _)) as (new & z2 & e2 & -> & B & L2 & Ez2). cbn [app] in H.
        pose proof (body_whead _ _ _ _ _ _ _ E2) as Hw2.
        destruct (IHi _ _ _ _ _ H Hw2 L2) as (nw & z3 & e3 & -> & F & L3 & Ez3 & _). rewrite Ez3, nxt_app in B.
        exists (op :: N KBody new :: nw), (z1 ++ z2 ++ z3), e3. split; [now rewrite <- app_assoc|]. split; [eapply f2_more; eauto|].
        split; [exact L3|]. split; [rewrite Ez1, Ez2, Ez3; now rewrite <- !app_assoc|].
        intros _. destruct S1 as [(y & q & -> & Hy) _]. exists y. eexists. split; [reflexivity|auto].
  Qed.
End Lines2.
