(** * LaySame: the layout looks only at the structure of a tree and at its texts

    Two layout trees without comments and switches that agree in their node types
    and in the texts written for their scalars, are laid out alike. *)
From Verif Require Import Base Regex Lex TextOps TextProofs Tree Layout LayoutProofs Pieces Writing LayKids PropCase PropLintChecks.

(** ** Trees without comments and switches *)
Definition nil_b {A} (l : list A) : bool := match l with nil => true | _ => false end.
Fixpoint quiet (b : box) : bool :=
  match b with
  | B k p cs =>
      match k with
      | KComment _ | KOnOff => false
      | KFunname | KArgument | KKeyword | KFlag | KAtWord => nil_b cs
      | KParenGroup => nil_b (after_rparen cs)
      | KStatement _ | KKwargGroup => match cs with c :: _ => is_scalar_k (bkind c) | nil => true end
      | _ => true
      end && forallb quiet cs
  end.
(** nothing but one statement *)
Fixpoint single (b : box) : bool :=
  match b with
  | B k p cs => match k with KBody | KFlow | KWhitespace => false | _ => true end && forallb single cs
  end.
Lemma quiet_kids k p cs : quiet (B k p cs) = true -> forallb quiet cs = true.
Proof. cbn [quiet]. intros H. now apply andb_prop in H. Qed.
Lemma quiet_comment b : quiet b = true -> is_comment_k (bkind b) = false.
Proof. destruct b as [k p cs]. cbn [quiet bkind]. destruct k; auto; discriminate. Qed.
Lemma last_quiet cs c : last_box cs = Some c -> In c cs.
Proof.
  unfold last_box. intros H. apply in_rev. destruct (rev cs); inversion H; subst; now left.
Qed.
Lemma quiet_terminal b : quiet b = true -> has_terminal b = false.
Proof.
  induction b as [k p cs IH] using box_ind'. intros H. pose proof (quiet_kids _ _ _ H) as Hk.
  assert (G : (fix go l := match l with nil => false | [c] => is_comment_k (bkind c) || has_terminal c | _ :: l' => go l' end) cs = false).
  { clear H. induction IH as [|c cs Hc _ IHl]; auto. cbn [forallb] in Hk. apply andb_prop in Hk as [H1 H2].
    destruct cs as [|c' cs]; [|now apply IHl]. now rewrite quiet_comment, Hc. }
  cbn [quiet] in H. apply andb_prop in H as [H _]. cbn [has_terminal].
  destruct k; auto; try discriminate; try (destruct cs; [reflexivity|discriminate]).
  destruct (after_rparen cs); [reflexivity|discriminate].
Qed.
Lemma quiet_ends b : quiet b = true -> ends_line b = false.
Proof.
  intros H. unfold ends_line. rewrite (quiet_terminal _ H), orb_false_r.
  destruct b as [k p cs]. unfold is_line_comment. cbn [quiet] in H. destruct k; auto; discriminate.
Qed.

(** ** Trees with the same texts *)
Section Same.
  Variable c : fcfg.
  (** a token and another one with the same written text *)
  Definition tok_same (parent k : kind) (t t' : token) : Prop :=
    scalar_text c parent k t' = scalar_text c parent k t
    /\ lower (spelling t') = lower (spelling t)
    /\ forall cur, flow_text cur (spelling t') = flow_text cur (spelling t).
  Definition own_same (parent k : kind) (p p' : list pnode) : Prop :=
    if is_scalar_k k then match p, p' with T t :: _, T t' :: _ => tok_same parent k t t' | _, _ => False end else True.
  Fixpoint bsame (parent : kind) (b b' : box) {struct b} : Prop :=
    match b, b' with
    | B k p cs, B k' p' cs' =>
        k' = k /\ own_same parent k p p'
        /\ (fix go (l l' : list box) : Prop :=
              match l, l' with
              | nil, nil => True
              | x :: l, x' :: l' => bsame k x x' /\ go l l'
              | _, _ => False
              end) cs cs'
    end.
  Lemma bsame_eq parent k p cs k' p' cs' :
    bsame parent (B k p cs) (B k' p' cs') <-> k' = k /\ own_same parent k p p' /\ Forall2 (bsame k) cs cs'.
  Proof.
    cbn [bsame]. split; intros (A & D & F); repeat split; auto; clear A D.
    - revert cs' F. induction cs as [|x cs IH]; intros [|y cs'] F; try contradiction; constructor; [apply F|apply IH, F].
    - induction F; auto.
  Qed.
  Lemma bsame_kind parent b b' : bsame parent b b' -> bkind b' = bkind b.
  Proof. destruct b as [k p cs], b' as [k' p' cs']. rewrite bsame_eq. intros (-> & _). reflexivity. Qed.
  Lemma bsame_spelling parent b b' : bsame parent b b' -> is_scalar_k (bkind b) = true ->
    lower (first_spelling (bpcs b')) = lower (first_spelling (bpcs b)).
  Proof.
    destruct b as [k p cs], b' as [k' p' cs']. rewrite bsame_eq. intros (-> & H & _) Hk. cbn [bkind bpcs] in *. unfold own_same in H. rewrite Hk in H.
    destruct p as [|[t|] p]; try contradiction. destruct p' as [|[t'|] p']; try contradiction. apply H.
  Qed.

  (** ** Related results *)
  Definition RR {A A'} (P : A -> A' -> Prop) (X : res A) (X' : res A') : Prop :=
    match X with Ok a => exists a', X' = Ok a' /\ P a a' | _ => True end.
  Lemma RR_ok {A A'} (P : A -> A' -> Prop) a a' : P a a' -> RR P (Ok a) (Ok a').
  Proof. cbn. eauto. Qed.
  Lemma RR_bind {A A' D D'} (P : A -> A' -> Prop) (Q : D -> D' -> Prop) X X' f f' :
    RR P X X' -> (forall a a', P a a' -> RR Q (f a) (f' a')) -> RR Q (bindr X f) (bindr X' f').
  Proof. destruct X as [a| |]; cbn; auto. intros (a' & -> & H) K. cbn. now apply K. Qed.

  Definition lrel (parent : kind) (l l' : lay) : Prop :=
    lkind l' = lkind l /\ lpos l' = lpos l /\ lvalid l' = lvalid l /\ lext l' = lext l
    /\ pieces c parent l' = pieces c parent l.
  Definition lcrel (parent : kind) (x x' : lay * cursor) : Prop := snd x' = snd x /\ lrel parent (fst x) (fst x').
  Definition crel (parent : kind) (ch ch' : chd) : Prop :=
    bsame parent (fst ch) (fst ch') /\ quiet (fst ch) = true /\ quiet (fst ch') = true
    /\ forall path term cur pass, RR (lcrel parent) (snd ch path term cur pass) (snd ch' path term cur pass).
  Lemma crel_kind parent ch ch' : crel parent ch ch' -> ckind ch' = ckind ch.
  Proof. intros (H & _). unfold ckind. eapply bsame_kind; eauto. Qed.
  Lemma crel_calm parent ch ch' : crel parent ch ch' -> is_comment_k (ckind ch) = false /\ is_comment_k (ckind ch') = false.
  Proof. intros (_ & H & H' & _). split; now apply quiet_comment. Qed.
  Definition pcs_of (k : kind) (ls : list lay) : list piece := flat_map (pieces c k) ls.

  (** ** The loops *)
  Definition rel3 (k : kind) (x x' : list lay * cursor * bool * Z) : Prop :=
    let '(ls, o, v, e) := x in let '(ls', o', v', e') := x' in
    o' = o /\ v' = v /\ e' = e /\ pcs_of k ls' = pcs_of k ls.
  Definition orel (pv pv' : option box) : Prop :=
    match pv, pv' with
    | None, None => True
    | Some b, Some b' => bkind b' = bkind b /\ quiet b = true /\ quiet b' = true
    | _, _ => False
    end.
  Definition rel4 (k : kind) (x x' : list lay * cursor * bool * Z * Z) : Prop :=
    let '(ls, o, v, e, n) := x in let '(ls', o', v', e', n') := x' in
    o' = o /\ v' = v /\ e' = e /\ n' = n /\ pcs_of k ls' = pcs_of k ls.
  Lemma crel_orel k ch ch' : crel k ch ch' -> orel (Some (fst ch)) (Some (fst ch')).
  Proof. intros H. pose proof (crel_kind _ _ _ H). destruct H as (_ & H1 & H2 & _). cbn. auto. Qed.
  Lemma Forall2_nilb {A D} (R : A -> D -> Prop) l l' : Forall2 R l l' ->
    match l' with nil => true | _ => false end = match l with nil => true | _ => false end.
  Proof. intros H. destruct H; reflexivity. Qed.

  Lemma parg_same k lw path pass term wrap cs cs' : Forall2 (crel k) cs cs' ->
    forall pv pv' colc cur v x rows, orel pv pv' ->
    RR (rel4 k) (parg_children lw path pass term wrap cs pv colc cur v x rows)
                (parg_children lw path pass term wrap cs' pv' colc cur v x rows).
  Proof.
    induction 1 as [|ch ch' cs cs' Hch Hcs IH]; intros pv pv' colc cur v x rows Hpv; cbn [parg_children].
    - apply RR_ok. cbn. auto.
    - assert (E : match pv' with
                  | None => (colc, cur, true, 1)
                  | Some p => if ends_line p || wrap then (Cur (row cur + 1) (colm colc), Cur (row cur + 1) (colm colc), true, rows + 1)
                              else (colc, shift cur 1, false, rows) end
                = match pv with
                  | None => (colc, cur, true, 1)
                  | Some p => if ends_line p || wrap then (Cur (row cur + 1) (colm colc), Cur (row cur + 1) (colm colc), true, rows + 1)
                              else (colc, shift cur 1, false, rows) end).
      { destruct pv as [b|], pv' as [b'|]; try contradiction; auto. destruct Hpv as (_ & Q1 & Q2). now rewrite !quiet_ends. }
      rewrite E. destruct (match pv with None => _ | Some _ => _ end) as [[[colc1 cur1] at_col] rows1]. clear E.
      rewrite (Forall2_nilb _ _ _ Hcs).
      set (term1 := term && _).
      destruct (crel_calm _ _ _ Hch) as [N1 N2]. pose proof (crel_orel _ _ _ Hch) as Ho.
      destruct Hch as (Hb & Hq1 & Hq2 & Hr).
      eapply RR_bind; [apply Hr|]. intros [l1 c1] [l1' c1'] [E1 (A1 & A2 & A3 & A4 & A5)]. cbn [fst snd] in *. subst c1'.
      rewrite N1, N2, !andb_false_r, !andb_false_l, A4.
      eapply (RR_bind (fun x x' => let '(l, o, cc, r) := x in let '(l', o', cc', r') := x' in o' = o /\ cc' = cc /\ r' = r /\ lrel k l l')).
      + match goal with |- RR _ (if ?x then _ else _) _ => destruct x end.
        * eapply RR_bind; [apply Hr|]. intros [l2 c2] [l2' c2'] [E2 L2]. cbn [fst snd] in *. subst c2'. apply RR_ok. auto.
        * apply RR_ok. repeat split; auto.
      + intros [[[l2 c2] cc2] r2] [[[l2' c2'] cc2'] r2'] (-> & -> & -> & (B1 & B2 & B3 & B4 & B5)).
        rewrite B3, B4. eapply RR_bind; [apply IH; exact Ho|].
        intros [[[[ls o] v'] x'] n] [[[[ls' o'] v''] x''] n'] (-> & -> & -> & -> & P). apply RR_ok. cbn. repeat split; auto.
        unfold pcs_of in *. cbn [flat_map]. now rewrite B5, P.
  Qed.

  Lemma arg_same k lw path pass term wrap cs cs' : Forall2 (crel k) cs cs' ->
    forall pv pv' colc cur v x, orel pv pv' ->
    RR (rel3 k) (arg_children lw path pass term wrap cs pv colc cur v x)
                (arg_children lw path pass term wrap cs' pv' colc cur v x).
  Proof.
    induction 1 as [|ch ch' cs cs' Hch Hcs IH]; intros pv pv' colc cur v x Hpv; cbn [arg_children].
    - apply RR_ok. cbn. auto.
    - assert (E : match pv' with
                  | None => (colc, cur, true)
                  | Some p => if ends_line p || wrap then (Cur (row colc + 1) (colm colc), Cur (row colc + 1) (colm colc), true)
                              else (colc, shift cur 1, false) end
                = match pv with
                  | None => (colc, cur, true)
                  | Some p => if ends_line p || wrap then (Cur (row colc + 1) (colm colc), Cur (row colc + 1) (colm colc), true)
                              else (colc, shift cur 1, false) end).
      { destruct pv as [b|], pv' as [b'|]; try contradiction; auto. destruct Hpv as (_ & Q1 & Q2). now rewrite !quiet_ends. }
      rewrite E. destruct (match pv with None => _ | Some _ => _ end) as [[colc1 cur1] first]. clear E.
      rewrite (Forall2_nilb _ _ _ Hcs).
      set (term1 := term && _). pose proof (crel_orel _ _ _ Hch) as Ho.
      destruct Hch as (Hb & Hq1 & Hq2 & Hr).
      eapply RR_bind; [apply Hr|]. intros [l1 c1] [l1' c1'] [E1 (A1 & A2 & A3 & A4 & A5)]. cbn [fst snd] in *. subst c1'.
      rewrite A4.
      eapply (RR_bind (lcrel k)).
      + match goal with |- RR _ (if ?x then _ else _) _ => destruct x end; [apply Hr|]. apply RR_ok. repeat split; auto.
      + intros [l2 c2] [l2' c2'] [E2 (B1 & B2 & B3 & B4 & B5)]. cbn [fst snd] in *. subst c2'.
        rewrite B3, B4. eapply RR_bind; [apply IH; exact Ho|].
        intros [[[ls o] v'] x'] [[[ls' o'] v''] x''] (-> & -> & -> & P). apply RR_ok. cbn. repeat split; auto.
        unfold pcs_of in *. cbn [flat_map]. now rewrite B5, P.
  Qed.

  Lemma pgroup_same k lw path pass term wrap cs cs' : Forall2 (crel k) cs cs' ->
    forall pv pv' colc cur v x, orel pv pv' ->
    RR (rel3 k) (pgroup_children lw path pass term wrap cs pv colc cur v x)
                (pgroup_children lw path pass term wrap cs' pv' colc cur v x).
  Proof.
    induction 1 as [|ch ch' cs cs' Hch Hcs IH]; intros pv pv' colc cur v x Hpv; cbn [pgroup_children].
    - apply RR_ok. cbn. auto.
    - rewrite (crel_kind _ _ _ Hch).
      assert (E : match pv' with
                  | None => cur
                  | Some p => if is_lparen_k (bkind p) then cur else if ends_line p || wrap then Cur (row cur + 1) (colm colc)
                              else if is_rparen_k (ckind ch) then cur else shift cur 1 end
                = match pv with
                  | None => cur
                  | Some p => if is_lparen_k (bkind p) then cur else if ends_line p || wrap then Cur (row cur + 1) (colm colc)
                              else if is_rparen_k (ckind ch) then cur else shift cur 1 end).
      { destruct pv as [b|], pv' as [b'|]; try contradiction; auto. destruct Hpv as (K & Q1 & Q2). now rewrite !quiet_ends, K. }
      rewrite E. match type of E with _ = ?r => clear E; generalize r end. intros cur1.
      rewrite (Forall2_nilb _ _ _ Hcs).
      set (term1 := term && _). pose proof (crel_orel _ _ _ Hch) as Ho.
      destruct Hch as (Hb & Hq1 & Hq2 & Hr).
      eapply RR_bind; [apply Hr|]. intros [l1 c1] [l1' c1'] [E1 (A1 & A2 & A3 & A4 & A5)]. cbn [fst snd] in *. subst c1'.
      rewrite A4, A3.
      eapply (RR_bind (lcrel k)).
      + match goal with |- RR _ (if ?x then _ else _) _ => destruct x end; [apply Hr|]. apply RR_ok. repeat split; auto.
      + intros [l2 c2] [l2' c2'] [E2 (B1 & B2 & B3 & B4 & B5)]. cbn [fst snd] in *. subst c2'.
        rewrite B3, B4. eapply RR_bind; [apply IH; exact Ho|].
        intros [[[ls o] v'] x'] [[[ls' o'] v''] x''] (-> & -> & -> & P). apply RR_ok. cbn. repeat split; auto.
        unfold pcs_of in *. cbn [flat_map]. now rewrite B5, P.
  Qed.

  (** ** The node classes *)
  Definition arel (k : kind) (a a' : attempt) : Prop :=
    a_wrap a' = a_wrap a /\ a_valid a' = a_valid a /\ a_ext a' = a_ext a /\ a_lines a' = a_lines a
    /\ a_out a' = a_out a /\ pcs_of k (a_cs a') = pcs_of k (a_cs a).
  Lemma crel_zlen k cs cs' : Forall2 (crel k) cs cs' -> zlen cs' = zlen cs.
  Proof. unfold zlen. induction 1; cbn [List.length]; auto. f_equal. lia. Qed.
  Lemma crel_count k cs cs' : Forall2 (crel k) cs cs' -> count_arguments cs' = count_arguments cs.
  Proof.
    unfold count_arguments. induction 1 as [|ch ch' cs cs' Hc _ IH]; auto. cbn [filter]. destruct (crel_calm _ _ _ Hc) as [-> ->]. cbn [negb].
    unfold zlen in *. cbn [List.length]. lia.
  Qed.
  Lemma crel_subgroups k cs cs' : Forall2 (crel k) cs cs' -> count_subgroups cs' = count_subgroups cs.
  Proof. induction 1 as [|ch ch' cs cs' Hc _ IH]; auto. cbn [count_subgroups]. now rewrite IH, (crel_kind _ _ _ Hc). Qed.
  Lemma crel_lower k ch ch' : crel k ch ch' -> is_scalar_k (ckind ch) = true -> lower (first_spelling (bpcs (fst ch'))) = lower (first_spelling (bpcs (fst ch))).
  Proof. intros (H & _). now apply (bsame_spelling k). Qed.
  Lemma lower_zlen s s' : lower s' = lower s -> zlen s' = zlen s.
  Proof. intros H. unfold zlen. f_equal. apply (f_equal (@List.length _)) in H. unfold lower in H. now rewrite !map_length in H. Qed.

  Lemma scalar_same k p p' parent path cur pass wrap : own_same parent k p p' -> is_scalar_k k = true ->
    RR (arel k) (reflow_scalar p nil path cur pass wrap) (reflow_scalar p' nil path cur pass wrap).
  Proof.
    unfold own_same. intros H Hk. rewrite Hk in H. destruct p as [|[t|] p]; try contradiction. destruct p' as [|[t'|] p']; try contradiction.
    unfold reflow_scalar. destruct H as (_ & _ & H). rewrite H. destruct (flow_text cur (spelling t)). apply RR_ok. repeat split.
  Qed.
  Lemma close_same k path pass start rp rp' cs4 cs4' dangle initial dcur :
    crel k rp rp' -> Forall2 (crel k) cs4 cs4' ->
    RR (rel3 k) (stmt_close c path pass start rp cs4 dangle initial dcur) (stmt_close c path pass start rp' cs4' dangle initial dcur).
  Proof.
    intros Hrp Hcs. unfold stmt_close. destruct Hrp as (_ & _ & _ & Hr).
    eapply RR_bind; [apply Hr|]. intros [lr c4] [lr' c4'] [E1 (A1 & A2 & A3 & A4 & A5)]. cbn [fst snd] in *. subst c4'.
    destruct Hcs as [|cm cm' cs4 cs4' Hcm Hcs].
    - apply RR_ok. cbn. rewrite A3, A4, A5. auto.
    - destruct (crel_calm _ _ _ Hcm) as [-> ->]. destruct Hcs; cbn; exact I.
  Qed.
  Lemma statement_same e e' k cs cs' path cur pass wrap : cfg e = c -> cfg e' = c -> Forall2 (crel k) cs cs' ->
    RR (arel k) (reflow_statement e cs path cur pass wrap) (reflow_statement e' cs' path cur pass wrap).
  Proof.
    intros He He' H. unfold reflow_statement. rewrite He, He'. destruct H as [|fn fn' cs1 cs1' Hfn H]; [exact I|].
    rewrite (crel_kind _ _ _ Hfn). destruct (is_funname_k (ckind fn)) eqn:Ek; [|exact I]. cbn [negb].
    assert (Es : is_scalar_k (ckind fn) = true) by (destruct (ckind fn); try discriminate; reflexivity).
    rewrite (crel_lower _ _ _ Hfn Es). set (name := lower (first_spelling (bpcs (fst fn)))).
    destruct Hfn as (_ & _ & _ & Hr).
    eapply RR_bind; [apply Hr|]. intros [lf c0] [lf' c0'] [E1 (A1 & A2 & A3 & A4 & A5)]. cbn [fst snd] in *. subst c0'.
    destruct H as [|lp lp' cs2 cs2' Hlp H]; [exact I|]. rewrite (crel_kind _ _ _ Hlp). destruct (is_lparen_k (ckind lp)); [|exact I]. cbn [negb].
    destruct Hlp as (_ & _ & _ & Hr2). eapply RR_bind; [apply Hr2|]. intros [ll c2] [ll' c2'] [E2 (B1 & B2 & B3 & B4 & B5)]. cbn [fst snd] in *. subst c2'.
    destruct H as [|ag ag' cs3 cs3' Hag H]; [exact I|]. rewrite (crel_kind _ _ _ Hag). destruct (is_arggroup_k (ckind ag)); [|exact I]. cbn [negb].
    destruct Hag as (_ & Hq1 & Hq2 & Hr3). eapply RR_bind; [apply Hr3|]. intros [la c3] [la' c3'] [E3 (D1 & D2 & D3 & D4 & D5)]. cbn [fst snd] in *. subst c3'.
    destruct H as [|rp rp' cs4 cs4' Hrp H]; [exact I|]. rewrite (crel_kind _ _ _ Hrp). destruct (is_rparen_k (ckind rp)); [|exact I]. cbn [negb].
    rewrite (quiet_terminal _ Hq1), (quiet_terminal _ Hq2).
    match goal with |- context [if f_dangle c && ?r then (true, true) else ?z] => destruct (if f_dangle c && r then (true, true) else z) as [dangle v0] end.
    destruct (dangle_cursor _ _ _ _) as [dcur| |]; cbn [bindr]; try exact I.
    eapply RR_bind; [apply close_same; eauto|]. intros [[[ls o] v] x] [[[ls' o'] v'] x'] (-> & -> & -> & P).
    apply RR_ok. rewrite A3, A4, B3, B4, D3, D4. unfold arel. cbn. repeat split; auto. unfold pcs_of in *. cbn [flat_map]. now rewrite A5, B5, D5, P.
  Qed.
  Lemma atstmt_same e e' k cs cs' path cur pass wrap : cfg e = c -> cfg e' = c -> Forall2 (crel k) cs cs' ->
    RR (arel k) (reflow_atstmt e cs path cur pass wrap) (reflow_atstmt e' cs' path cur pass wrap).
  Proof.
    intros He He' H. unfold reflow_atstmt. destruct H as [|aw aw' cs1 cs1' Haw H]; [exact I|].
    rewrite (crel_kind _ _ _ Haw). destruct (is_atword_k (ckind aw)); [|exact I]. cbn [negb].
    destruct Haw as (_ & _ & _ & Hr).
    eapply RR_bind; [apply Hr|]. intros [la c1] [la' c1'] [E1 (A1 & A2 & A3 & A4 & A5)]. cbn [fst snd] in *. subst c1'.
    destruct H as [|cm cm' cs2 cs2' Hcm H].
    - apply RR_ok. rewrite A3, A4. unfold arel, pcs_of. cbn. now rewrite A5.
    - destruct (crel_calm _ _ _ Hcm) as [-> ->]. destruct H; cbn; exact I.
  Qed.
  Lemma kwarg_same e e' k cs cs' path term cur pass wrap : cfg e = c -> cfg e' = c -> Forall2 (crel k) cs cs' ->
    RR (arel k) (reflow_kwarg e cs path term cur pass wrap) (reflow_kwarg e' cs' path term cur pass wrap).
  Proof.
    intros He He' H. unfold reflow_kwarg. rewrite He, He'. pose proof (crel_zlen _ _ _ H) as Hz. destruct H as [|kw kw' cs1 cs1' Hkw H]; [exact I|].
    rewrite Hz. destruct (_ >? 2); [exact I|]. rewrite (crel_kind _ _ _ Hkw). destruct (is_keyword_k (ckind kw)) eqn:Ek; [|exact I]. cbn [negb].
    assert (Es : is_scalar_k (ckind kw) = true) by (destruct (ckind kw); try discriminate; reflexivity).
    rewrite (lower_zlen _ _ (crel_lower _ _ _ Hkw Es)). destruct Hkw as (_ & _ & _ & Hr).
    eapply RR_bind; [apply Hr|]. intros [lk c1] [lk' c1'] [E1 (A1 & A2 & A3 & A4 & A5)]. cbn [fst snd] in *. subst c1'.
    destruct H as [|ch ch' cs2 cs2' Hch H].
    - apply RR_ok. rewrite A3, A4. unfold arel, pcs_of. cbn. now rewrite A5.
    - destruct Hch as (_ & _ & _ & Hr2). eapply RR_bind; [apply Hr2|]. intros [l c2] [l' c2'] [E2 (B1 & B2 & B3 & B4 & B5)]. cbn [fst snd] in *. subst c2'.
      apply RR_ok. rewrite A3, A4, B3, B4. unfold arel, pcs_of. cbn. now rewrite A5, B5.
  Qed.

  Lemma once_same e e' parent k p p' bs bs' cs cs' path term cur pass wrap :
    cfg e = c -> cfg e' = c -> own_same parent k p p' -> quiet (B k p bs) = true -> single (B k p bs) = true ->
    map fst cs = bs -> Forall2 (crel k) cs cs' ->
    RR (arel k) (reflow_once e (B k p bs) cs path term cur pass wrap) (reflow_once e' (B k p' bs') cs' path term cur pass wrap).
  Proof.
    intros He He' Ho Hq Hs Hb H. unfold reflow_once. cbn [bkind bpcs].
    assert (Hsc : is_scalar_k k = true -> RR (arel k) (reflow_scalar p cs path cur pass wrap) (reflow_scalar p' cs' path cur pass wrap)).
    { intros Hk. assert (cs = nil) as ->.
      { cbn [quiet] in Hq. apply andb_prop in Hq as [Hq _]. destruct cs; auto. subst bs. cbn [map] in Hq. destruct k; discriminate. }
      inversion H; subst. eapply scalar_same; eauto. }
    destruct k; try discriminate Hs; try discriminate Hq; try (now apply Hsc).
    - now apply statement_same.
    - unfold reflow_arg. rewrite (crel_subgroups _ _ _ H). destruct (count_subgroups cs) as [n| |]; cbn [bindr]; try exact I.
      rewrite He, He'. eapply RR_bind; [apply arg_same; [exact H|exact I]|].
      intros [[[ls o] v] x] [[[ls' o'] v'] x'] (-> & -> & -> & P). apply RR_ok. unfold arel. cbn. repeat split; auto.
    - now apply kwarg_same.
    - unfold reflow_parg. rewrite (crel_count _ _ _ H), He, He'. eapply RR_bind; [apply parg_same; [exact H|exact I]|].
      intros [[[[ls o] v] x] n] [[[[ls' o'] v'] x'] n'] (-> & -> & -> & -> & P). apply RR_ok. unfold arel. cbn. repeat split; auto.
    - unfold reflow_pgroup. rewrite (crel_zlen _ _ _ H). destruct (negb _); [exact I|].
      rewrite He, He'. eapply RR_bind; [apply pgroup_same; [exact H|exact I]|].
      intros [[[ls o] v] x] [[[ls' o'] v'] x'] (-> & -> & -> & P). apply RR_ok. unfold arel. cbn. repeat split; auto.
    - now apply atstmt_same.
    - apply RR_ok. repeat split.
    - apply RR_ok. repeat split.
  Qed.

  (** ** Statements *)
  Lemma name_same parent b b' sib : bsame parent b b' -> quiet b = true -> quiet b' = true -> node_name b' sib = node_name b sib.
  Proof.
    destruct b as [k p cs], b' as [k' p' cs']. rewrite bsame_eq. intros (-> & _ & H) Hq Hq'. unfold node_name. cbn [bkind bpcs bcs].
    assert (G : match cs with c0 :: _ => is_scalar_k (bkind c0) | nil => true end = true -> lower (child_spelling cs') = lower (child_spelling cs)).
    { destruct H as [|x y cs cs' Hx _]; auto. cbn [child_spelling]. intros E. eapply bsame_spelling; eauto. }
    cbn [quiet] in Hq. apply andb_prop in Hq as [Hq _].
    destruct k; auto; try discriminate.
    specialize (G Hq). rewrite <- (upper_lower (child_spelling cs')), G. apply upper_lower.
  Qed.
  Lemma path_same parent b b' sib path : bsame parent b b' -> quiet b = true -> quiet b' = true -> push_path path b' sib = push_path path b sib.
  Proof. intros H Hq Hq'. unfold push_path. rewrite (bsame_kind _ _ _ H), (name_same _ _ _ sib H Hq Hq'). reflexivity. Qed.
  Lemma validate_same parent b b' path wrap start r x : bsame parent b b' -> quiet b = true -> quiet b' = true ->
    validate c b' path wrap start r x = validate c b path wrap start r x.
  Proof.
    intros H Hq Hq'. unfold validate. rewrite (bsame_kind _ _ _ H). destruct (_ >? _); auto. destruct wrap; auto.
    destruct b as [k p cs], b' as [k' p' cs']. rewrite bsame_eq in H. destruct H as (-> & _ & H). cbn [bkind bcs].
    assert (G : match cs with c0 :: _ => is_scalar_k (bkind c0) | nil => true end = true -> lower (child_spelling cs') = lower (child_spelling cs)).
    { destruct H as [|y z cs cs' Hx _]; auto. cbn [child_spelling]. intros E. eapply bsame_spelling; eauto. }
    cbn [quiet] in Hq. apply andb_prop in Hq as [Hq _]. destruct k; auto.
    - now rewrite (G Hq).
    - replace (zlen (upper (child_spelling cs'))) with (zlen (upper (child_spelling cs))); auto.
      rewrite <- (upper_lower (child_spelling cs)), <- (upper_lower (child_spelling cs')). now rewrite (G Hq).
  Qed.
  Lemma own_same_pieces parent k p p' pos lines : own_same parent k p p' -> match k with KComment _ | KOnOff => False | _ => True end ->
    own_pieces c parent k p' pos lines = own_pieces c parent k p pos lines.
  Proof.
    intros H Hk. unfold own_same in H. unfold own_pieces. destruct k; auto; try contradiction; cbn [is_scalar_k] in H;
      destruct p as [|[t|] p]; try contradiction; destruct p' as [|[t'|] p']; try contradiction; destruct H as (-> & _); reflexivity.
  Qed.
  Lemma try_same parent (f f' : Z -> bool -> res (lay * cursor)) limit ps :
    (forall pz w, RR (lcrel parent) (f pz w) (f' pz w)) ->
    forall last last', match last, last' with Some x, Some x' => lcrel parent x x' | None, None => True | _, _ => False end ->
    RR (lcrel parent) (try_passes f limit ps last) (try_passes f' limit ps last').
  Proof.
    intros Hf. induction ps as [|[pz w] ps IH]; intros last last' Hl; cbn [try_passes].
    - destruct last, last'; try contradiction; [apply RR_ok; auto|exact I].
    - destruct (pz >? limit); [destruct last, last'; try contradiction; [apply RR_ok; auto|exact I]|].
      eapply RR_bind; [apply Hf|]. intros x x' Hx. pose proof Hx as [_ (_ & _ & Hv & _)]. rewrite Hv.
      destruct (lvalid (fst x)); [apply RR_ok; auto|now apply IH].
  Qed.
  Theorem reflow_same e e' b : cfg e = c -> cfg e' = c -> forall parent b', bsame parent b b' ->
    quiet b = true -> quiet b' = true -> single b = true -> single b' = true ->
    forall sib path term cur passno,
    RR (lcrel parent) (reflow e b sib path term cur passno) (reflow e' b' sib path term cur passno).
  Proof.
    intros He He'. induction b as [k p cs IH] using box_ind'. intros parent [k' p' cs'] Hs Hq Hq' H1 H1' sib path term cur passno.
    rewrite !reflow_eq, (path_same _ _ _ sib path Hs Hq Hq').
    pose proof Hs as Hs'. rewrite bsame_eq in Hs'. destruct Hs' as (-> & Ho & Hk). rewrite He, He'.
    assert (Hch : forall n, Forall2 (crel k) (children_of e cs n) (children_of e' cs' n)).
    { pose proof (quiet_kids _ _ _ Hq) as Q. pose proof (quiet_kids _ _ _ Hq') as Q'.
      assert (S1 : forallb single cs = true) by (cbn [single] in H1; now apply andb_prop in H1).
      assert (S1' : forallb single cs' = true) by (cbn [single] in H1'; now apply andb_prop in H1').
      clear Hs Hq Hq' H1 H1' Ho. revert IH Q Q' S1 S1'. induction Hk as [|x y cs cs' Hxy _ IHk]; intros IH Q Q' S1 S1' n; cbn; [constructor|].
      cbn [forallb] in *. apply andb_prop in Q as [Q1 Q2]. apply andb_prop in Q' as [Q1' Q2']. apply andb_prop in S1 as [S1 S2]. apply andb_prop in S1' as [S1' S2'].
      inversion IH as [|? ? Hx IH']; subst. rewrite (bsame_kind _ _ _ Hxy). constructor; [|apply IHk; auto].
      split; [exact Hxy|]. repeat split; auto. intros. cbn [snd]. apply Hx; auto. }
    apply try_same; auto. intros pz w. unfold try_pass.
    eapply RR_bind; [eapply once_same; eauto; apply children_of_fst|].
    intros a a' (A1 & A2 & A3 & A4 & A5 & A6). apply RR_ok. rewrite He, He', A1, A2, A3, A4, A5, (validate_same _ _ _ _ _ _ _ _ Hs Hq Hq').
    split; [reflexivity|]. cbn [fst bkind bpcs]. repeat split. cbn [pieces]. f_equal; [|exact A6].
    apply own_same_pieces; auto. cbn [quiet] in Hq. destruct k; auto; discriminate.
  Qed.
End Same.
