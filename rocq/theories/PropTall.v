(** * PropTall: groups of more arguments than the limits of the options are written vertically *)
From Coq Require Import Permutation.
From Verif Require Import Base Regex Lex LexProofs LexClass PropLex TextOps TextProofs PropText
  Tree Parse ParseProofs PropParse CmdSpec StdSpecs StdDb StdWf PropStd Layout LayoutProofs LayoutCols Pieces Writing
  PropLayout Markup Pipeline ParseShape StdShape NamesShape CommentShape TidyShape PropFile PropIndent Walk ParseTerm ParseBlank OutSame
  PropLines OneLine PropOneLine PropDangle.
Require Verif.PropLintChecks.

(** ** Layout *)
(** more arguments, or more groups, than the option allows side by side *)
Definition is_subgroup_k (k : kind) : bool :=
  match k with KKwargGroup | KPargGroup _ _ _ | KParenGroup => true | _ => false end.
Definition parg_limit (c : fcfg) (spec : option pspec) : Z :=
  match spec with
  | Some sp => match ps_max_pargs sp with Some z => z | None => f_max_pargs c end
  | None => f_max_pargs c
  end.
Definition group_limit (c : fcfg) (spec : option cspec) : Z :=
  match spec with
  | Some sp => match cs_max_subgroups sp with Some z => z | None => f_max_subgroups c end
  | None => f_max_subgroups c
  end.
Definition over_k (c : fcfg) (k : kind) (ks : list kind) : bool :=
  match k with
  | KPargGroup _ tags spec =>
      negb (smem $"cmdline" tags) && (parg_limit c spec <? zlen (filter (fun k => negb (is_comment_k k)) ks))
  | KArgGroup spec => group_limit c spec <? zlen (filter is_subgroup_k ks)
  | _ => false
  end.

Inductive stk (e : env) (col : Z) : option cursor -> list box -> list lay -> Prop :=
| stk_nil pv : stk e col pv nil nil
| stk_cons pv b bs l ls o :
    lok e b l o -> colm (lpos l) = col -> (forall p, pv = Some p -> row p < row (lpos l)) ->
    stk e col (Some o) bs ls -> stk e col pv (b :: bs) (l :: ls).

Section Loops.
  Variable e : env.
  Definition got (pass : Z) (ch : chd) (l : lay) : Prop :=
    exists path term cur o, snd ch path term cur pass = Ok (l, o).

  Lemma parg_tall lw path pass term cs : Forall (LayoutProofs.good e) cs -> forall pv colc cur v x rows ls o v' x' rows',
    (pv = None -> cur = colc) ->
    parg_children lw path pass term true cs pv colc cur v x rows = Ok (ls, o, v', x', rows') ->
    stk e (colm colc) (match pv with None => None | Some _ => Some cur end) (map fst cs) ls.
  Proof.
    induction 1 as [|ch cs Hg _ IH]; intros pv colc cur v x rows ls o v' x' rows' Hpv H; cbn [parg_children] in H.
    - injection H as <- <- <- <- <-. constructor.
    - set (q := match pv with None => _ | Some _ => _ end) in H.
      assert (Hq : exists c1 r, q = (c1, c1, true, r) /\ colm c1 = colm colc /\ (pv = None \/ row c1 = row cur + 1)).
      { subst q. destruct pv as [p|].
        - rewrite orb_true_r. eexists; eexists; split; [reflexivity|]. cbn [colm row]. auto.
        - rewrite Hpv by reflexivity. eexists; eexists; split; [reflexivity|]. auto. }
      destruct Hq as (c1 & r & Eq & Q1 & Q2). rewrite Eq in H. clear q Eq.
      apply bindr_ok in H as ([l1 o1] & E1 & H). cbn [negb andb bindr] in H.
      apply bindr_ok in H as ([[[[ls' c'] v''] x''] r''] & E2 & H). injection H as <- <- <- <- <-.
      apply Hg in E1 as (P1 & L1). cbn [map]. apply stk_cons with (o := o1); [exact L1|congruence| |].
      + intros p Hp. rewrite P1. destruct pv as [b|]; [|discriminate]. injection Hp as <-. destruct Q2 as [Q2|Q2]; [discriminate|lia].
      + rewrite <- Q1. apply (IH (Some (fst ch)) c1 o1) in E2; [exact E2|discriminate].
  Qed.
  Lemma arg_tall lw path pass term cs : Forall (LayoutProofs.good e) cs -> forall pv colc cur v x ls o v' x',
    (pv = None -> cur = colc) -> row colc = row cur ->
    arg_children lw path pass term true cs pv colc cur v x = Ok (ls, o, v', x') ->
    stk e (colm colc) (match pv with None => None | Some _ => Some cur end) (map fst cs) ls.
  Proof.
    induction 1 as [|ch cs Hg _ IH]; intros pv colc cur v x ls o v' x' Hpv Hrow H; cbn [arg_children] in H.
    - injection H as <- <- <- <-. constructor.
    - set (q := match pv with None => _ | Some _ => _ end) in H.
      assert (Hq : exists c1, q = (c1, c1, true) /\ colm c1 = colm colc /\ (pv = None \/ row c1 = row cur + 1)).
      { subst q. destruct pv as [p|].
        - rewrite orb_true_r. eexists; split; [reflexivity|]. cbn [colm row]. split; [reflexivity|]. right. lia.
        - rewrite Hpv by reflexivity. eexists; split; [reflexivity|]. auto. }
      destruct Hq as (c1 & Eq & Q1 & Q2). rewrite Eq in H. clear q Eq.
      apply bindr_ok in H as ([l1 o1] & E1 & H). cbn [negb andb bindr] in H.
      apply bindr_ok in H as ([[[ls' c'] v''] x''] & E2 & H). injection H as <- <- <- <-.
      apply Hg in E1 as (P1 & L1). cbn [map]. apply stk_cons with (o := o1); [exact L1|congruence| |].
      + intros p Hp. rewrite P1. destruct pv as [b|]; [|discriminate]. injection Hp as <-. destruct Q2 as [Q2|Q2]; [discriminate|lia].
      + apply (IH (Some (fst ch)) (Cur (row o1) (colm c1)) o1) in E2; [|discriminate|reflexivity]. cbn [colm] in E2. now rewrite <- Q1.
  Qed.

  (** the children of an attempt, each laid out with the pass of the attempt *)
  Definition all_valid (ls : list lay) : Prop := Forall (fun l => lvalid l = true) ls.
  Lemma parg_got lw path pass term wrap cs : forall pv colc cur v x rows ls o v' x' rows',
    parg_children lw path pass term wrap cs pv colc cur v x rows = Ok (ls, o, v', x', rows') ->
    Forall2 (got pass) cs ls /\ (v' = true -> v = true /\ all_valid ls).
  Proof.
    induction cs as [|ch cs IH]; intros pv colc cur v x rows ls o v' x' rows' H; cbn [parg_children] in H.
    - injection H as <- <- <- <- <-. split; [constructor|]. intros ->. split; [reflexivity|constructor].
    - destruct (match pv with None => _ | Some _ => _ end) as [[[c1 c2] ac] r].
      apply bindr_ok in H as ([l1 o1] & E1 & H). apply bindr_ok in H as ([[[l2 o2] c3] r3] & E2 & H).
      apply bindr_ok in H as ([[[[ls' c'] v''] x''] r''] & E3 & H). injection H as <- <- <- <- <-.
      destruct (IH _ _ _ _ _ _ _ _ _ _ _ E3) as [A B]. split.
      + constructor; [|exact A]. destruct (_ && _)%bool in E2.
        * apply bindr_ok in E2 as ([l o0] & E2 & E4). injection E4 as <- <- <- <-. repeat eexists; exact E2.
        * injection E2 as <- <- <- <-. repeat eexists; exact E1.
      + intros E. apply B in E as [E F]. apply andb_prop in E as [E G]. split; [exact E|]. now constructor.
  Qed.
  Lemma arg_got lw path pass term wrap cs : forall pv colc cur v x ls o v' x',
    arg_children lw path pass term wrap cs pv colc cur v x = Ok (ls, o, v', x') ->
    Forall2 (got pass) cs ls /\ (v' = true -> v = true /\ all_valid ls).
  Proof.
    induction cs as [|ch cs IH]; intros pv colc cur v x ls o v' x' H; cbn [arg_children] in H.
    - injection H as <- <- <- <-. split; [constructor|]. intros ->. split; [reflexivity|constructor].
    - destruct (match pv with None => _ | Some _ => _ end) as [[c1 c2] ac].
      apply bindr_ok in H as ([l1 o1] & E1 & H). apply bindr_ok in H as ([l2 o2] & E2 & H).
      apply bindr_ok in H as ([[[ls' c'] v''] x''] & E3 & H). injection H as <- <- <- <-.
      destruct (IH _ _ _ _ _ _ _ _ _ E3) as [A B]. split.
      + constructor; [|exact A]. destruct (_ && _)%bool in E2.
        * repeat eexists; exact E2.
        * injection E2 as <- <-. repeat eexists; exact E1.
      + intros E. apply B in E as [E F]. apply andb_prop in E as [E G]. split; [exact E|]. now constructor.
  Qed.
  Lemma pgroup_got lw path pass term wrap cs : forall pv colc cur v x ls o v' x',
    pgroup_children lw path pass term wrap cs pv colc cur v x = Ok (ls, o, v', x') ->
    Forall2 (got pass) cs ls /\ (v' = true -> v = true /\ all_valid ls).
  Proof.
    induction cs as [|ch cs IH]; intros pv colc cur v x ls o v' x' H; cbn [pgroup_children] in H.
    - injection H as <- <- <- <-. split; [constructor|]. intros ->. split; [reflexivity|constructor].
    - apply bindr_ok in H as ([l1 o1] & E1 & H). apply bindr_ok in H as ([l2 o2] & E2 & H).
      apply bindr_ok in H as ([[[ls' c'] v''] x''] & E3 & H). injection H as <- <- <- <-.
      destruct (IH _ _ _ _ _ _ _ _ _ E3) as [A B]. split.
      + constructor; [|exact A]. destruct (_ && _)%bool in E2.
        * repeat eexists; exact E2.
        * injection E2 as <- <-. repeat eexists; exact E1.
      + intros E. apply B in E as [E F]. apply andb_prop in E as [E G]. split; [exact E|]. now constructor.
  Qed.
  (** the first child of a group stands at the column of the group *)
  Definition first_at (cur : cursor) (ls : list lay) : Prop :=
    match ls with l :: _ => colm (lpos l) = colm cur /\ row cur <= row (lpos l) | nil => True end.
  Lemma parg_first lw path pass term wrap cs cur v x rows ls o v' x' rows' : Forall (LayoutProofs.good e) cs ->
    parg_children lw path pass term wrap cs None cur cur v x rows = Ok (ls, o, v', x', rows') -> first_at cur ls.
  Proof.
    intros Hg H. destruct cs as [|ch cs]; cbn [parg_children] in H; [injection H as <- <- <- <- <-; exact I|].
    inversion Hg as [|? ? G _]; subst.
    apply bindr_ok in H as ([l1 o1] & E1 & H). cbn [negb andb bindr] in H.
    apply bindr_ok in H as ([[[[ls' c'] v''] x''] r''] & E3 & H). injection H as <- <- <- <- <-.
    apply G in E1 as [P _]. cbn [first_at]. rewrite P. lia.
  Qed.
  Lemma pgroup_first lw path pass term wrap cs cur v x ls o v' x' : Forall (LayoutProofs.good e) cs ->
    pgroup_children lw path pass term wrap cs None cur cur v x = Ok (ls, o, v', x') -> first_at cur ls.
  Proof.
    intros Hg H. destruct cs as [|ch cs]; cbn [pgroup_children] in H; [injection H as <- <- <- <-; exact I|].
    inversion Hg as [|? ? G _]; subst.
    apply bindr_ok in H as ([l1 o1] & E1 & H). apply bindr_ok in H as ([l2 o2] & E2 & H).
    apply bindr_ok in H as ([[[ls' c'] v''] x''] & E3 & H). injection H as <- <- <- <-.
    cbn [first_at]. destruct (_ && _)%bool in E2.
    - apply G in E2 as [P _]. rewrite P. cbn [colm row]. lia.
    - injection E2 as <- <-. apply G in E1 as [P _]. rewrite P. lia.
  Qed.
End Loops.

(** ** Trees *)
Definition group_k (k : kind) : bool :=
  match k with KArgGroup _ | KPargGroup _ _ _ | KKwargGroup | KParenGroup => true | _ => false end.
Definition first_k (k : kind) : bool :=
  match k with KPargGroup _ _ _ | KKwargGroup | KParenGroup => true | _ => false end.
Inductive tallt (e : env) : box -> lay -> Prop :=
| tallt_intro k p cs pos pass w v x lines ls :
    Forall2 (tallt e) (if leaf_k k then nil else cs) ls ->
    (over_k (cfg e) k (map bkind cs) = true -> stk e (colm pos) None cs ls) ->
    (first_k k = true -> first_at pos ls) ->
    tallt e (B k p cs) (Lay k p pos pass w v x lines ls).

Lemma try_passes_last f limit ps : forall last x, try_passes f limit ps last = Ok x ->
  (exists p w ps1 ps2, ps = ps1 ++ (p, w) :: ps2 /\ p <= limit /\ f p w = Ok x
     /\ (lvalid (fst x) = true \/ match ps2 with nil => True | (p', _) :: _ => limit < p' end))
  \/ (last = Some x /\ match ps with nil => True | (p', _) :: _ => limit < p' end).
Proof.
  induction ps as [|[p w] ps IH]; intros last x H; cbn [try_passes] in H.
  - right. split; [|exact I]. destruct last; [now injection H as ->|discriminate].
  - destruct (Z.gtb_spec p limit) as [G|G].
    + right. split; [|lia]. destruct last; [now injection H as ->|discriminate].
    + left. apply bindr_ok in H as (y & Hy & H). destruct (lvalid (fst y)) eqn:V.
      * injection H as ->. exists p, w, nil, ps. repeat split; auto.
      * apply IH in H as [(p1 & w1 & ps1 & ps2 & -> & A & B & C)|[E C]].
        { exists p1, w1, ((p, w) :: ps1), ps2. auto. }
        { injection E as ->. exists p, w, nil, ps. repeat split; auto. }
Qed.

Section Tall.
  Variable e : env.
  Hypothesis Htab : 0 <= f_tab (cfg e).
  Hypothesis Hpasses : f_passes (cfg e) = nil.

  Lemma last_pass k limit p w ps1 ps2 : node_passes (cfg e) k = ps1 ++ (p, w) :: ps2 -> group_k k || is_statement_k k = true ->
    4 <= limit -> (is_statement_k k = true -> limit = 5) -> match ps2 with nil => True | (p', _) :: _ => limit < p' end ->
    4 <= p /\ (is_parg_k k || is_arggroup_k k = true -> w = true).
  Proof.
    unfold node_passes. rewrite Hpasses. cbn [passes_lookup]. intros H Hk Hl Hs Hn.
    destruct k; try discriminate; cbn [default_passes] in H;
      repeat (destruct ps1 as [|[? ?] ps1]; [injection H as <- <- <-; split; [lia|]; intros E; try reflexivity; try discriminate; lia|cbn [app] in H; injection H as _ _ H]);
      now destruct ps1.
  Qed.

  Definition need (ch : chd) (l : lay) : Prop := group_k (Layout.ckind ch) = true -> lvalid l = true.
  Lemma valid_need cs ls pass : Forall2 (got pass) cs ls -> all_valid ls -> Forall2 need cs ls.
  Proof.
    intros H. induction H as [|ch l cs ls _ _ IH]; intros V; [constructor|]. inversion V; subst. constructor; [now intros _|auto].
  Qed.

  (** one attempt at a group or a statement *)
  Lemma once b cs path term cur pass w a : Forall (LayoutProofs.good e) cs -> map fst cs = bcs b ->
    group_k (bkind b) || is_statement_k (bkind b) = true ->
    reflow_once e b cs path term cur pass w = Ok a ->
    Forall2 (got pass) cs (a_cs a)
    /\ (a_valid a = true -> Forall2 need cs (a_cs a))
    /\ (over_k (cfg e) (bkind b) (map bkind (bcs b)) = true -> a_valid a = true \/ w = true -> stk e (colm cur) None (bcs b) (a_cs a))
    /\ (first_k (bkind b) = true -> first_at cur (a_cs a)).
  Proof.
    destruct b as [k p bs]. cbn [bkind bcs]. intros Hg Hm Hk H. unfold reflow_once in H. cbn [bkind] in H.
    destruct k; try discriminate.
    - (* STMT *)
      unfold reflow_statement in H. destruct cs as [|fn cs]; [discriminate|].
      destruct (negb (is_funname_k _)) eqn:K1; [discriminate|]. apply negb_false_iff in K1.
      apply bindr_ok in H as ([lf c0] & E1 & H). destruct cs as [|lp cs]; [discriminate|].
      destruct (negb (is_lparen_k _)) eqn:K2; [discriminate|]. apply negb_false_iff in K2.
      apply bindr_ok in H as ([ll c2] & E2 & H). destruct cs as [|ag cs]; [discriminate|].
      destruct (negb (is_arggroup_k _)) eqn:K3; [discriminate|].
      apply bindr_ok in H as ([la c3] & E3 & H). destruct cs as [|rp cs]; [discriminate|].
      destruct (negb (is_rparen_k _)) eqn:K4; [discriminate|]. apply negb_false_iff in K4.
      match type of H with (let '(_, _) := ?t in _) = _ => destruct t as [dangle v0] end.
      apply bindr_ok in H as (dc & _ & H). apply bindr_ok in H as ([[[ls c4] v1] x1] & E4 & H). injection H as <-. cbn [a_cs a_valid].
      assert (Hn : forall ch, is_funname_k (Layout.ckind ch) || is_lparen_k (Layout.ckind ch) || is_rparen_k (Layout.ckind ch) || is_comment_k (Layout.ckind ch) = true -> forall l, need ch l).
      { intros ch E l F. destruct (Layout.ckind ch); discriminate. }
      assert (Hc : Forall2 (got pass) (rp :: cs) ls /\ Forall2 need (rp :: cs) ls).
      { unfold stmt_close in E4. apply bindr_ok in E4 as ([lr c5] & F1 & E4). destruct cs as [|cm [|? ?]]; [| |discriminate].
        - injection E4 as <- <- <- <-. split; constructor; try constructor; [repeat eexists; exact F1|]. apply Hn. rewrite K4. now rewrite !orb_true_r.
        - destruct (negb (is_comment_k _)) eqn:K5; [discriminate|]. apply negb_false_iff in K5.
          apply bindr_ok in E4 as ([lc c6] & F2 & E4). apply bindr_ok in E4 as ([[[[lr2 lc2] c7] sv] v2] & F3 & E4).
          apply bindr_ok in E4 as ([[lr3 lc3] c8] & F4 & E4). injection E4 as <- <- <- <-.
          assert (G2 : got pass rp lr2 /\ got pass cm lc2).
          { destruct (negb dangle && _).
            - apply bindr_ok in F3 as ([z oz] & F5 & F3). apply bindr_ok in F3 as ([z' oz'] & F6 & F3). injection F3 as <- <- <- <- <-. split; repeat eexists; eassumption.
            - injection F3 as <- <- <- <- <-. split; repeat eexists; eassumption. }
          assert (G3 : got pass rp lr3 /\ got pass cm lc3).
          { destruct (lext lc2 >? _).
            - apply bindr_ok in F4 as ([z oz] & F5 & F4). apply bindr_ok in F4 as ([z' oz'] & F6 & F4). injection F4 as <- <- <-. split; repeat eexists; eassumption.
            - now injection F4 as <- <- <-. }
          destruct G3 as [G3 G4]. split; repeat (constructor; [assumption || (apply Hn; (rewrite K4 || rewrite K5); now rewrite !orb_true_r)|]); constructor. }
      destruct Hc as [Hc1 Hc2]. split; [|split; [|split]]; try discriminate.
      + repeat (constructor; [repeat eexists; eassumption|]). exact Hc1.
      + intros V. rewrite !andb_true_iff in V. destruct V as ((((_ & _) & _) & V) & _).
        constructor; [apply Hn; now rewrite K1|]. constructor; [apply Hn; rewrite K2; now rewrite !orb_true_r|].
        constructor; [now intros _|exact Hc2].
    - (* ARG *)
      unfold reflow_arg in H. apply bindr_ok in H as (n & En & H). apply bindr_ok in H as ([[[ls c] v] x] & E & H). injection H as <-. cbn [a_cs a_valid a_wrap].
      destruct (arg_got _ _ _ _ _ _ _ _ _ _ _ _ _ _ _ E) as [G1 G2]. split; [exact G1|]. split; [|split].
      + intros V. apply (valid_need _ _ pass G1). apply G2. destruct (_ >? _); [now apply andb_prop in V|exact V].
      + cbn [over_k]. intros Ho.
        assert (Hc : n = zlen (filter is_subgroup_k (map bkind bs))).
        { rewrite <- Hm. clear -En. revert n En. induction cs as [|c cs IH]; intros n En; cbn [count_subgroups] in En; [now injection En as <-|].
          apply bindr_ok in En as (m & Em & En). specialize (IH _ Em). cbn [map filter]. unfold Layout.ckind in En.
          destruct (bkind (fst c)); try discriminate; injection En as <-; cbn [is_subgroup_k]; rewrite IH; unfold zlen; cbn [List.length]; lia. }
        change (match cmdspec with Some _ => _ | None => _ end) with (group_limit (cfg e) cmdspec).
        apply Z.ltb_lt in Ho. rewrite <- Hc in Ho. replace (_ >? _) with true by (symmetry; apply Z.gtb_lt; exact Ho).
        intros V. assert (w = true) as -> by (destruct V as [V|V]; [now apply andb_prop in V|exact V]).
        rewrite <- Hm. exact (arg_tall e _ _ _ _ _ Hg _ _ _ _ _ _ _ _ _ (fun _ => eq_refl) eq_refl E).
      + discriminate.
    - (* KWARG *)
      unfold reflow_kwarg in H. destruct cs as [|kw cs]; [discriminate|]. destruct (_ >? 2) eqn:Ez; [discriminate|].
      destruct (negb (is_keyword_k _)) eqn:K1; [discriminate|]. apply negb_false_iff in K1.
      apply bindr_ok in H as ([lk c1] & E1 & H). inversion Hg as [|? ? G _]; subst.
      destruct cs as [|ch [|c2 cs]].
      + injection H as <-. cbn [a_cs a_valid]. split; [|split; [|split]]; try discriminate.
        * constructor; [repeat eexists; exact E1|constructor].
        * intros V. constructor; [now intros _|constructor].
        * intros _. apply G in E1 as [P _]. cbn [first_at]. rewrite P. lia.
      + apply bindr_ok in H as ([l c3] & E2 & H). injection H as <-. cbn [a_cs a_valid]. split; [|split; [|split]]; try discriminate.
        * constructor; [repeat eexists; exact E1|constructor; [repeat eexists; exact E2|constructor]].
        * intros V. apply andb_prop in V as [V1 V2]. constructor; [now intros _|]. constructor; [now intros _|constructor].
        * intros _. apply G in E1 as [P _]. cbn [first_at]. rewrite P. lia.
      + exfalso. unfold zlen in Ez. cbn [List.length] in Ez. destruct (Z.gtb_spec (Z.of_nat (S (S (S (List.length cs))))) 2); [discriminate|lia].
    - (* PARG *)
      unfold reflow_parg in H. apply bindr_ok in H as ([[[[ls c] v] x] rows] & E & H). injection H as <-. cbn [a_cs a_valid a_wrap].
      destruct (parg_got _ _ _ _ _ _ _ _ _ _ _ _ _ _ _ _ _ E) as [G1 G2]. split; [exact G1|]. split; [|split].
      + intros V. apply (valid_need _ _ pass G1). apply G2. destruct (smem $"cmdline" tags); [now apply andb_prop in V|].
        destruct (_ >? _); [now apply andb_prop in V|exact V].
      + cbn [over_k]. intros Ho. apply andb_prop in Ho as [O1 O2]. apply negb_true_iff in O1. rewrite O1 in *.
        assert (Hc : count_arguments cs = zlen (filter (fun k => negb (is_comment_k k)) (map bkind bs))).
        { unfold count_arguments, zlen. f_equal. rewrite <- Hm. clear. induction cs as [|c cs IH]; [reflexivity|]. cbn [map filter].
          unfold Layout.ckind at 1. destruct (negb _); cbn [List.length]; now rewrite IH. }
        rewrite Hc. change (match spec with Some _ => _ | None => _ end) with (parg_limit (cfg e) spec).
        apply Z.ltb_lt in O2. replace (_ >? _) with true by (symmetry; apply Z.gtb_lt; exact O2).
        intros V. assert (w = true) as -> by (destruct V as [V|V]; [now apply andb_prop in V|exact V]).
        rewrite <- Hm. exact (parg_tall e _ _ _ _ _ Hg _ _ _ _ _ _ _ _ _ _ _ (fun _ => eq_refl) E).
      + intros _. exact (parg_first e _ _ _ _ _ _ _ _ _ _ _ _ _ _ _ Hg E).
    - (* PAREN *)
      unfold reflow_pgroup in H. destruct (negb _); [discriminate|]. apply bindr_ok in H as ([[[ls c] v] x] & E & H). injection H as <-. cbn [a_cs a_valid a_wrap].
      destruct (pgroup_got _ _ _ _ _ _ _ _ _ _ _ _ _ _ _ E) as [G1 G2]. split; [exact G1|]. split; [|split].
      + intros V. apply (valid_need _ _ pass G1). now apply G2.
      + discriminate.
      + intros _. exact (pgroup_first e _ _ _ _ _ _ _ _ _ _ _ _ _ Hg E).
  Qed.

  Lemma leaf_tall k p cs sib path term cur passno l o : leaf_k k = true ->
    reflow e (B k p cs) sib path term cur passno = Ok (l, o) -> tallt e (B k p cs) l.
  Proof.
    intros Hk. rewrite reflow_eq. change l with (fst (l, o)).
    apply (try_passes_inv (fun y => tallt e (B k p cs) (fst y))); [|discriminate].
    intros pn w [l' o'] E. unfold try_pass in E. apply bindr_ok in E as (a & E & E2). injection E2 as <- <-. cbn [fst bkind bpcs].
    assert (a_cs a = nil) as Ea.
    { unfold reflow_once in E. cbn [bkind bpcs] in E. destruct k; try discriminate.
      - injection E as <-. reflexivity.
      - unfold reflow_comment in E. destruct (is_bracket p); [destruct (flow_text _ _); injection E as <-; reflexivity|].
        apply bindr_ok in E as (ls & _ & E). destruct ls; [discriminate|]. injection E as <-. reflexivity.
      - unfold reflow_onoff in E. destruct p as [|[t|? ?] ?]; try discriminate. destruct (onoff_text t); [|discriminate]. injection E as <-. reflexivity.
      - injection E as <-. reflexivity.
      - injection E as <-. reflexivity. }
    rewrite Ea. constructor; [rewrite Hk; constructor| |].
    - destruct k; discriminate.
    - destruct k; discriminate.
  Qed.
  Lemma scalar_tall k p cs sib path term cur passno l o : is_scalar_k k = true -> wfb (B k p cs) = true ->
    reflow e (B k p cs) sib path term cur passno = Ok (l, o) -> tallt e (B k p cs) l.
  Proof.
    intros Hk Hw. rewrite reflow_eq. change l with (fst (l, o)).
    apply (try_passes_inv (fun y => tallt e (B k p cs) (fst y))); [|discriminate].
    intros pn w [l' o'] E. unfold try_pass in E. apply bindr_ok in E as (a & E & E2). injection E2 as <- <-. cbn [fst bkind bpcs].
    assert (Hl : leaf_k k = false) by (destruct k; try discriminate; reflexivity).
    assert (Ea : reflow_scalar p (children_of e cs 0) (push_path path (B k p cs) sib) cur pn w = Ok a).
    { unfold reflow_once in E. cbn [bkind bpcs] in E. destruct k; try discriminate; exact E. }
    constructor; [rewrite Hl| |]; [|destruct k; discriminate|destruct k; discriminate].
    unfold reflow_scalar in Ea. destruct p as [|[t|? ?] ?]; try discriminate. destruct (flow_text _ _) as [fc fx].
    destruct cs as [|c [|? ?]]; cbn [children_of] in Ea; try discriminate.
    - injection Ea as <-. constructor.
    - destruct (negb _) eqn:Hc; [discriminate|]. apply negb_false_iff in Hc. apply bindr_ok in Ea as ([l1 o1] & E1 & Ea). injection Ea as <-. cbn [a_cs].
      constructor; [|constructor]. destruct c as [kc pc cc]. cbn [snd] in E1. unfold Layout.ckind in Hc. cbn [fst bkind] in Hc.
      eapply leaf_tall; [|exact E1]. destruct kc; try discriminate; reflexivity.
  Qed.

  Lemma children_got (P : box -> Prop) pass cs : Forall P cs -> forall n ls (Q : box -> lay -> Prop),
    (forall b l n path term cur o, P b -> In b cs -> reflow e b n path term cur pass = Ok (l, o) -> (group_k (bkind b) = true -> lvalid l = true \/ 4 <= pass) -> Q b l) ->
    Forall2 (got pass) (children_of e cs n) ls -> (Forall2 need (children_of e cs n) ls \/ 4 <= pass) -> Forall2 Q cs ls.
  Proof.
    induction 1 as [|b cs Hb _ IH]; intros n ls Q HQ H1 H2; cbn [children_of] in *.
    - inversion H1; subst. constructor.
    - inversion H1 as [|? l ? ls' (path & term & cur & o & G) G2]; subst. constructor.
      + eapply HQ; [exact Hb|now left|exact G|]. intros Hk. destruct H2 as [H2|H2]; [left|now right]. inversion H2 as [|? ? ? ? N1 N2]; subst. exact (N1 Hk).
      + eapply IH; [|exact G2|].
        * intros. eapply HQ; eauto. now right.
        * destruct H2 as [H2|H2]; [left|now right]. now inversion H2.
  Qed.

  Definition inner_k (k : kind) : bool := match k with KBody | KFlow | KAtStmt => false | _ => true end.
  Theorem reflow_tall b : wfb b = true -> inner_k (bkind b) = true -> forall sib path term cur passno l o,
    reflow e b sib path term cur passno = Ok (l, o) ->
    (group_k (bkind b) = true -> lvalid l = true \/ 4 <= passno) -> tallt e b l.
  Proof.
    induction b as [k p cs IH] using box_ind'. intros Hw Hin sib path term cur passno l o H Hv. cbn [bkind] in *.
    destruct (leaf_k k) eqn:Hleaf; [eapply leaf_tall; eassumption|].
    destruct (is_scalar_k k) eqn:Hsc; [eapply scalar_tall; eassumption|].
    assert (Hk : group_k k || is_statement_k k = true) by (destruct k; try discriminate; reflexivity).
    assert (Hgood : Forall (LayoutProofs.good e) (children_of e cs 0)).
    { cbn [wfb] in Hw. apply andb_prop in Hw as [Hw _]. clear -Hw Htab. generalize 0%nat. induction cs as [|b cs IH]; intros n; cbn [children_of]; [constructor|].
      cbn [forallb] in Hw. apply andb_prop in Hw as [W1 W2]. constructor; [|now apply IH].
      intros path term cur pass l o H. cbn [fst snd] in *. eapply reflow_lok; eassumption. }
    assert (Hkinds : Forall (fun b => inner_k (bkind b) = true) cs).
    { destruct (reflow_lok e _ Htab Hw _ _ _ _ _ _ _ H) as [_ L]. inversion L as [k0 p0 cs0 pos0 pass0 w0 v0 x0 lines0 ls0 o0 l0 _ _ Hko _ _ _]; subst.
      cbn [wfb] in Hw. apply andb_prop in Hw as [_ Hw]. clear -Hko Hw Hk. destruct k; try discriminate.
      - cbn [kinds_ok] in Hko. destruct cs as [|fn [|lp [|ag [|rp tl]]]]; try discriminate. rewrite !andb_true_iff in Hko. destruct Hko as ((((K1 & K2) & K3) & K4) & K5).
        repeat (constructor; [match goal with |- inner_k ?x = true => destruct x; try discriminate; reflexivity end|]).
        destruct tl as [|cm [|? ?]]; try discriminate; constructor; [destruct (bkind cm); try discriminate; reflexivity|constructor].
      - rewrite forallb_forall in Hw. apply Forall_forall. intros b Hb. apply Hw in Hb. unfold in_arg in Hb. destruct (bkind b); try discriminate; reflexivity.
      - destruct cs as [|[[] ? ?] [|g [|? ?]]]; try discriminate; repeat constructor. destruct (bkind g); try discriminate; reflexivity.
      - rewrite forallb_forall in Hw. apply Forall_forall. intros b Hb. apply Hw in Hb. unfold in_parg in Hb. destruct (bkind b); try discriminate; reflexivity.
      - destruct cs as [|a [|b [|c tl]]]; try discriminate. rewrite !andb_true_iff in Hw. destruct Hw as (((K1 & K2) & K3) & K4).
        repeat (constructor; [match goal with |- inner_k ?x = true => destruct x; try discriminate; reflexivity end|]).
        destruct tl as [|cm [|? ?]]; try discriminate; constructor; [cbn [tail_ok] in K4; destruct (bkind cm); try discriminate; reflexivity|constructor]. }
    rewrite reflow_eq in H. apply try_passes_last in H as [(pn & w & ps1 & ps2 & Hps & Hlim & E & Hlast)|[H _]]; [|discriminate].
    unfold try_pass in E. apply bindr_ok in E as (a & E & E2). injection E2 as <- <-. cbn [fst lvalid] in *. cbn [bkind bpcs].
    destruct (once (B k p cs) (children_of e cs 0) _ _ _ _ _ _ Hgood (children_of_fst e cs 0) Hk E) as (G1 & G2 & G3 & G4). cbn [bkind bcs] in *.
    assert (Hor : a_valid a = true \/ (4 <= pn /\ (is_parg_k k || is_arggroup_k k = true -> w = true))).
    { destruct (a_valid a) eqn:V; [now left|right]. cbn [andb] in *. destruct Hlast as [Hlast|Hlast]; [discriminate|].
      eapply last_pass; [exact Hps|exact Hk| | |exact Hlast].
      - destruct k; try discriminate; cbn [pass_limit]; try lia; destruct Hv as [Hv|Hv]; try reflexivity; try discriminate; exact Hv.
      - destruct k; try discriminate; reflexivity. }
    constructor.
    - rewrite Hleaf. assert (Hw' : forall b, In b cs -> wfb b = true).
      { cbn [wfb] in Hw. apply andb_prop in Hw as [Hw _]. now rewrite forallb_forall in Hw. }
      eapply children_got; [exact IH| |exact G1|].
      + intros b l n path' term' cur' o Pb Hb Hr Hg. eapply Pb; [now apply Hw'| |exact Hr|exact Hg]. rewrite Forall_forall in Hkinds. now apply Hkinds.
      + destruct Hor as [Hor|[Hor _]]; [left; now apply G2|now right].
    - intros Ho. apply G3; [exact Ho|]. destruct Hor as [Hor|[_ Hor]]; [now left|right]. apply Hor. destruct k; try discriminate; reflexivity.
    - exact G4.
  Qed.
End Tall.

(** ** Specification *)
(** the nodes of a group: its arguments, groups and comments *)
Definition members (cs : list pnode) : list pnode :=
  filter (fun n => match n with T _ | N KWhitespace _ => false | _ => true end) cs.
Definition kind_of (n : pnode) : kind := match n with T _ => KWhitespace | N k _ => k end.
(** a group with more arguments, or more groups, than max_pargs_hwrap or
    max_subgroups_hwrap (or the limit of the command itself) *)
Definition too_many (c : fcfg) (n : pnode) : bool :=
  match n with T _ => false | N k cs => over_k c k (map kind_of (members cs)) end.
(** the text begins with the first word of the node, up to letter case *)
Definition opens_with (endl : str) (n : pnode) (t : str) : Prop :=
  match hd_error (filter TidyShape.nonws (flat n)) with
  | None => False
  | Some u => is_comment u = true \/ is_onoff u = true
              \/ (is_tt LEFT_PAREN u = true /\ exists r, t = $"(" ++ r)
              \/ exists w r, t = with_endl endl w ++ r /\ lower w = lower (normalize (spelling u))
  end.
Definition worded (n : pnode) : bool := existsb TidyShape.nonws (flat n).
(** the members of a group one below the other, all beginning in the same column *)
Definition tower (endl : str) (cs : list pnode) (s : str) : Prop :=
  match filter worded (members cs) with
  | nil => True
  | n :: ns => exists pre t rest post,
      s = pre ++ t ++ List.concat (map (fun kt => repeat_s (S (fst kt)) endl ++ spaces (col_of pre) ++ snd kt) rest) ++ post
      /\ opens_with endl n t /\ Forall2 (opens_with endl) ns (map snd rest)
  end.
Definition towers (c : fcfg) (endl : str) (x : nat * pnode) (s : str) : Prop :=
  match snd x with
  | N (KStatement _) _ =>
      forall k cs, In (N k cs) (PropLintChecks.subtrees (snd x)) -> too_many c (N k cs) = true -> tower endl cs s
  | _ => True
  end.

(** ** Columns of a page *)
Section Columns.
  Variable endl : str.
  Hypothesis He : is_endl endl.
  Lemma col_lines ls : forall x cur ext, Forall (fun l => ~ In cNL l) ls -> col_of x = colm cur ->
    col_of (x ++ List.concat (map (fun l => endl ++ l) ls)) = colm (fst (flow_lines cur ext ls)).
  Proof.
    induction ls as [|l ls IH]; intros x cur ext Hn Hx; cbn [map List.concat flow_lines fst]; [now rewrite app_nil_r|].
    inversion Hn as [|? ? H1 H2]; subst. rewrite app_assoc. apply IH; [exact H2|]. cbn [colm].
    rewrite app_assoc, col_of_app_out by exact H1. rewrite col_of_app_in by (now apply in_nl_endl). rewrite col_of_endl by exact He. lia.
  Qed.
  Lemma col_text x p : col_of x = colm (p_at p) -> col_of (x ++ with_endl endl (p_text p)) = colm (p_end p).
  Proof.
    intros Hx. unfold p_end, text_flow, with_endl. pose proof (split_on_no cNL (p_text p)) as Hno.
    destruct (split_on cNL (p_text p)) as [|l ls] eqn:E; [cbn [join fst]; now rewrite app_nil_r|].
    match goal with |- context [?a ++ join endl (l :: ls)] => replace (a ++ join endl (l :: ls)) with ((a ++ l) ++ List.concat (map (fun l => endl ++ l) ls)) by (rewrite <- app_assoc; f_equal; symmetry; exact (proj2 (concat_joins endl ls l))) end.
    apply col_lines.
    - apply Forall_forall. intros y Hy. apply Hno. now right.
    - cbn [shift colm]. rewrite col_of_app_out by (apply Hno; now left). lia.
  Qed.
  Lemma col_gap x cur g p : col_of x = colm cur -> Z.of_nat (fst g) = row (p_at p) - row cur ->
    Z.of_nat (snd g) = (if row cur =? row (p_at p) then colm (p_at p) - colm cur else colm (p_at p)) ->
    col_of (x ++ gap_text endl g) = colm (p_at p).
  Proof.
    intros Hx H1 H2. unfold gap_text. rewrite app_assoc, col_of_app_out by apply spaces_no_nl. rewrite zlen_spaces by lia.
    destruct (Z.eqb_spec (row cur) (row (p_at p))) as [E|E].
    - replace (fst g) with 0%nat by lia. cbn [repeat_s]. rewrite app_nil_r. lia.
    - rewrite col_of_repeat by (auto; lia). lia.
  Qed.
  Lemma col_page ps : forall x cur gs, col_of x = colm cur -> gaps_at cur gs ps ->
    col_of (x ++ page endl gs ps) = colm (fst (after (cur, None) ps)).
  Proof.
    induction ps as [|p ps IH]; intros x cur [|g gs] Hx H; try (now destruct H); [cbn; now rewrite app_nil_r|].
    destruct H as (H1 & H2 & H3). cbn [page after]. rewrite (after_any ps (step p) (p_end p, None) eq_refl).
    rewrite !app_assoc. apply IH; [|exact H3]. apply col_text. now apply (col_gap x cur).
  Qed.
End Columns.

(** ** The first text of a child *)
Section First.
  Variable e : env.
  Notation c := (cfg e).
  Hypothesis Hcmt : cmt_ok e.
  Definition head_text (u : token) (w : str) : Prop :=
    is_comment u = true \/ is_onoff u = true \/ (is_tt LEFT_PAREN u = true /\ w = $"(")
    \/ lower w = lower (normalize (spelling u)).
  Definition headed (parent : kind) (b : box) (l : lay) : Prop :=
    exists p ps u us, pieces c parent l = p :: ps /\ colm (p_at p) = colm (lpos l) /\ row (lpos l) <= row (p_at p)
      /\ btoks b = u :: us /\ head_text u (p_text p).
  Lemma simple_headed parent n l o : tidy false n = true -> wfb (create_box n) = true -> named c parent (create_box n) = true ->
    lok e (create_box n) l o ->
    is_scalar_k (kind_of n) || is_lparen_k (kind_of n) || is_onoff_k (kind_of n) || is_comment_k (kind_of n) = true ->
    headed parent (create_box n) l.
  Proof.
    destruct n as [t|k cs]; [discriminate|]. cbn [kind_of]. rewrite create_eq. intros Ht Hw Hn Hl Hk.
    cbn [tidy] in Ht. apply andb_prop in Ht as [Ht _].
    inversion Hl as [k0 p0 cs0 pos pass w v x lines ls o0 l0 Ho Hli Hko Hx Hv Hls]; subst. subst l0. unfold headed. cbn [pieces lpos btoks].
    destruct (is_scalar_k k) eqn:Hs.
    { cbn [named] in Hn. rewrite Hs in Hn. apply andb_prop in Hn as [Hn _]. unfold text_ok in Hn. apply andb_prop in Hn as [_ Hn].
      unfold text_same in Hn. destruct cs as [|[t|? ?] cs]; try discriminate. destruct (scalar_text c parent k t) as [s| |] eqn:Es; try discriminate.
      apply seqb_eq in Hn. exists (Pc pos s (PkWord (is_funname_k k))), (flat_map (pieces c k) ls), t, (flat_map btoks (kids (T t :: cs))).
      cbn [p_at p_text]. split; [destruct k; try discriminate; cbn [own_pieces]; now rewrite Es|].
      split; [reflexivity|]. split; [lia|]. split; [destruct k; try discriminate; reflexivity|]. right. right. right. exact Hn. }
    destruct k; try discriminate.
    - (* comment *)
      cbn [tidy_k] in Ht. rewrite !andb_true_iff in Ht. destruct Ht as ((Ht1 & Ht2) & _). unfold starts in Ht2.
      destruct cs as [|[t|? ?] cs]; try discriminate. cbn [own_toks].
      assert (Hu : filter TidyShape.nonws (toksT (T t :: cs)) = t :: filter TidyShape.nonws (toksT cs)).
      { unfold toksT. cbn [flat_map app filter]. unfold TidyShape.nonws at 1. replace (is_ws t) with false; [reflexivity|]. revert Ht2. unfold is_comment, is_ws. destruct (tt t); reflexivity || discriminate. }
      rewrite Hu. unfold lines_ok in Hli. cbn [lkind lpcs llines] in Hli. cbn [own_pieces]. destruct (is_bracket (T t :: cs)).
      + eexists; eexists; eexists; eexists. cbn [app]. split; [reflexivity|]. cbn [p_at]. split; [reflexivity|]. split; [lia|]. split; [reflexivity|]. now left.
      + destruct Hli as [_ Hne]. destruct lines as [|s lines]; [now elim Hne|]. cbn [line_pieces].
        eexists; eexists; eexists; eexists. cbn [app]. split; [reflexivity|]. cbn [p_at]. split; [reflexivity|]. split; [lia|]. split; [reflexivity|]. now left.
    - (* switch *)
      cbn [wfb] in Hw. rewrite !andb_true_iff in Hw. destruct Hw as (_ & Hw & _). cbn [tidy_k] in Ht. destruct cs as [|[t|? ?] [|? ?]]; try discriminate.
      cbn [onoff_ok] in Hw. cbn [own_pieces first_tok]. destruct (onoff_text t) as [s|]; [|discriminate].
      eexists; eexists; eexists; eexists. cbn [app]. split; [reflexivity|]. cbn [p_at]. split; [reflexivity|]. split; [lia|]. split; [reflexivity|]. right. now left.
    - (* parenthesis *)
      cbn [tidy_k] in Ht. destruct cs as [|[t|? ?] [|? ?]]; try discriminate. cbn [own_pieces].
      eexists; eexists; eexists; eexists. cbn [app]. split; [reflexivity|]. cbn [p_at p_text]. split; [reflexivity|]. split; [lia|]. split; [reflexivity|]. right. right. left. auto.
  Qed.
  Lemma first_headed parent k p b bs pos pass w v x lines l ls : first_k k = true ->
    headed k b l -> first_at pos (l :: ls) -> headed parent (B k p (b :: bs)) (Lay k p pos pass w v x lines (l :: ls)).
  Proof.
    intros Hk (q & qs & u & us & E1 & E2 & E3 & E4 & E5) [F1 F2]. exists q, (qs ++ flat_map (pieces c k) ls), u, (us ++ flat_map btoks bs).
    cbn [pieces lpos btoks flat_map]. rewrite E1, E4. split; [destruct k; try discriminate; reflexivity|].
    split; [congruence|]. split; [lia|]. split; [destruct k; try discriminate; reflexivity|exact E5].
  Qed.
  Lemma kids_from cs b : In b (kids cs) -> exists n, In n cs /\ b = create_box n /\ kind_of n = bkind b.
  Proof.
    unfold kids. intros H. apply in_flat_map in H as (n & Hn & H). exists n. split; [exact Hn|].
    destruct n as [t|k q]; [destruct H|]. assert (E : b = create_box (N k q)).
    { destruct k; try (now destruct H as [<-|[]]). destruct (_ <? 2); [destruct H|now destruct H as [<-|[]]]. }
    rewrite E. auto.
  Qed.
  Definition fronted (parent : kind) (b : box) (l : lay) : Prop :=
    headed parent b l \/ (pieces c parent l = nil /\ btoks b = nil).
  Lemma group_fronted parent k cs l o : first_k k = true ->
    tidy false (N k cs) = true -> wfb (B k cs (kids cs)) = true -> named c parent (B k cs (kids cs)) = true ->
    lok e (B k cs (kids cs)) l o -> tallt e (B k cs (kids cs)) l ->
    (forall n l1 o1, In n cs -> tidy false n = true -> wfb (create_box n) = true -> named c k (create_box n) = true ->
      lok e (create_box n) l1 o1 -> tallt e (create_box n) l1 -> hd_error (kids cs) = Some (create_box n) -> kind_of n = bkind (create_box n) -> headed k (create_box n) l1) ->
    fronted parent (B k cs (kids cs)) l.
  Proof.
    intros Hk Ht Hw Hn Hl Htl Hfst. inversion Htl as [k0 p0 cs0 pos pass w v x lines ls Hls Hov Hf]; subst. clear Hov.
    assert (Hleaf : leaf_k k = false) by (destruct k; try discriminate; reflexivity). rewrite Hleaf in Hls. specialize (Hf Hk).
    inversion Hl as [k1 p1 cs1 pos1 pass1 w1 v1 x1 lines1 ls1 o1 l1 _ _ _ _ _ Hlk]; subst. rewrite Hleaf in Hlk. clear Hl Htl.
    cbn [tidy] in Ht. apply andb_prop in Ht as [_ Ht]. cbn [wfb] in Hw. apply andb_prop in Hw as [Hw _]. cbn [named] in Hn. apply andb_prop in Hn as [_ Hn].
    assert (Hb : forall b, In b (kids cs) -> exists n, In n cs /\ b = create_box n /\ kind_of n = bkind b) by apply kids_from.
    destruct (kids cs) as [|b bs] eqn:Ek.
    - inversion Hls; subst. right. split; [|destruct k; try discriminate; reflexivity]. cbn [pieces flat_map]. rewrite app_nil_r. destruct k; try discriminate; reflexivity.
    - inversion Hls as [|? l1' ? ls' T1 T2]; subst. inversion Hlk as [|? ? ? ? ? ? ? oo ? _ L1 _]; subst. left.
      apply first_headed; [exact Hk| |exact Hf]. cbn [forallb] in Hw, Hn. apply andb_prop in Hw as [W1 _]. apply andb_prop in Hn as [N1 _].
      destruct (Hb b (or_introl eq_refl)) as (n & In1 & -> & Kn). rewrite forallb_forall in Ht.
      eapply Hfst; eauto.
  Qed.
  Lemma member_fronted parent n l o : tidy false n = true -> wfb (create_box n) = true -> named c parent (create_box n) = true ->
    lok e (create_box n) l o -> tallt e (create_box n) l -> in_parg (create_box n) || in_arg (create_box n) = true ->
    kind_of n = bkind (create_box n) -> fronted parent (create_box n) l.
  Proof.
    intros Ht Hw Hn Hl Htl Hin Kn.
    assert (Hsimple : forall parent n l o, tidy false n = true -> wfb (create_box n) = true -> named c parent (create_box n) = true ->
      lok e (create_box n) l o -> is_scalar_k (kind_of n) || is_lparen_k (kind_of n) || is_onoff_k (kind_of n) || is_comment_k (kind_of n) = true ->
      headed parent (create_box n) l) by (intros; eapply simple_headed; eassumption).
    assert (Hparen : forall parent cs l o, tidy false (N KParenGroup cs) = true -> wfb (create_box (N KParenGroup cs)) = true -> named c parent (create_box (N KParenGroup cs)) = true ->
      lok e (create_box (N KParenGroup cs)) l o -> tallt e (create_box (N KParenGroup cs)) l -> headed parent (create_box (N KParenGroup cs)) l).
    { clear -Hsimple. intros parent cs l o Ht Hw Hn Hl Htl. rewrite create_eq in *.
      assert (Hlp : exists b1 bs, kids cs = b1 :: bs /\ is_lparen_k (bkind b1) = true).
      { cbn [wfb] in Hw. apply andb_prop in Hw as [_ Hw]. destruct (kids cs) as [|a [|b [|c0 tl]]]; try discriminate. exists a, (b :: c0 :: tl). split; [reflexivity|]. rewrite !andb_true_iff in Hw. tauto. }
      destruct Hlp as (b1 & bs & Ek & Kb).
      destruct (group_fronted parent KParenGroup cs l o eq_refl Ht Hw Hn Hl Htl) as [F|[_ F]]; [|exact F|].
      - intros n l1 o1 _ T1 W1 N1 L1 _ Hhd Kn. eapply Hsimple; eauto. rewrite Ek in Hhd. injection Hhd as ->. rewrite Kn, Kb. now rewrite !orb_true_r.
      - exfalso. rewrite Ek in F. cbn [btoks own_toks app flat_map] in F. apply app_eq_nil in F as [F _].
        destruct (kids_from cs b1) as (n & In1 & -> & Kn); [rewrite Ek; now left|].
        destruct n as [t|k q]; [discriminate|]. cbn [kind_of] in Kn. rewrite create_eq in *. cbn [bkind] in *.
        destruct k; try discriminate. cbn [tidy] in Ht. apply andb_prop in Ht as [_ Ht]. rewrite forallb_forall in Ht. specialize (Ht _ In1).
        cbn [tidy] in Ht. apply andb_prop in Ht as [Ht _]. cbn [tidy_k] in Ht. destruct q as [|[t|? ?] ?]; discriminate. }
    destruct n as [t|k cs]; [discriminate Hin|]. cbn [kind_of] in *. rewrite create_eq in Hin. unfold in_parg, in_arg in Hin. cbn [bkind] in Hin.
    destruct k; try discriminate; try (left; eapply Hsimple; eauto; reflexivity).
    - (* keyword group *)
      rewrite create_eq in *. eapply group_fronted; eauto. intros n l1 o1 _ T1 W1 N1 L1 _ Hhd K1. eapply Hsimple; eauto.
      cbn [wfb] in Hw. apply andb_prop in Hw as [_ Hw]. destruct (kids cs) as [|[kk kp kc] bs]; [discriminate|]. injection Hhd as Hhd. rewrite <- Hhd in K1. cbn [bkind] in K1.
      destruct kk; try discriminate. now rewrite K1.
    - (* positional group *)
      rewrite create_eq in *. eapply group_fronted; eauto. intros n l1 o1 _ T1 W1 N1 L1 TL1 Hhd K1.
      cbn [wfb] in Hw. apply andb_prop in Hw as [_ Hw]. destruct (kids cs) as [|b1 bs]; [discriminate|]. cbn [forallb] in Hw. apply andb_prop in Hw as [Hw _]. injection Hhd as ->.
      unfold in_parg in Hw. rewrite <- K1 in Hw. destruct (kind_of n) eqn:Kn1; try discriminate; try (eapply Hsimple; eauto; rewrite Kn1; reflexivity).
      destruct n as [t|kn q]; [discriminate|]. cbn [kind_of] in Kn1. subst kn. eapply Hparen; eauto.
    - left. eapply Hparen; eauto.
  Qed.
End First.

(** ** The text of a group *)
Section Tower.
  Variable e : env.
  Notation c := (cfg e).
  Notation endl := (f_endl (cfg e)).
  Hypothesis Hcmt : cmt_ok e.
  Hypothesis He : is_endl endl.

  Lemma end_le parent b l o cur : lok e b l o -> wfb b = true -> named c parent b = true ->
    pieces c parent l <> nil \/ row cur <= row o -> row (fst (after (cur, None) (pieces c parent l))) <= row o.
  Proof.
    intros Hl Hw Hn Hor.
    destruct (proj1 (lok_placed false e Hcmt) _ _ _ Hl parent (lpos l, None) Hw ltac:(discriminate) (named_names _ _ _ Hn)) as [_ [A _]].
    { split; [apply cle_refl|]. split; [discriminate|]. right. reflexivity. }
    destruct (pieces c parent l) as [|p ps]; [destruct Hor as [Hor|Hor]; [now elim Hor|exact Hor]|].
    cbn [after] in *. destruct A as [A|[A _]]; lia.
  Qed.
  Definition member_ok (k : kind) (n : pnode) : Prop :=
    tidy false n = true /\ wfb (create_box n) = true /\ named c k (create_box n) = true
    /\ in_parg (create_box n) || in_arg (create_box n) = true /\ kind_of n = bkind (create_box n).
  Definition col_row (col : Z) (kt : nat * str) : str := repeat_s (S (fst kt)) endl ++ spaces col ++ snd kt.

  Lemma fronted_text k n l o : member_ok k n -> lok e (create_box n) l o -> tallt e (create_box n) l ->
    (pieces c k l = nil /\ worded n = false)
    \/ (exists p ps, pieces c k l = p :: ps /\ colm (p_at p) = colm (lpos l) /\ row (lpos l) <= row (p_at p) /\ worded n = true
        /\ forall r, opens_with endl n (with_endl endl (p_text p) ++ r)).
  Proof.
    intros (M1 & M2 & M3 & M4 & M5) Hl Ht. pose proof (box_tokens false n M1) as Hb.
    destruct n as [t|kn cs]; [discriminate M4|]. unfold worded, opens_with. rewrite <- Hb.
    assert (Hex : existsb TidyShape.nonws (flat (N kn cs)) = match btoks (create_box (N kn cs)) with nil => false | _ => true end).
    { rewrite Hb. clear. induction (flat (N kn cs)) as [|t ts IH]; [reflexivity|]. cbn [existsb filter]. destruct (TidyShape.nonws t); [reflexivity|exact IH]. }
    rewrite Hex.
    destruct (member_fronted e k _ l o M1 M2 M3 Hl Ht M4 M5) as [(p & ps & u & us & E1 & E2 & E3 & E4 & E5)|[E1 E2]].
    - right. exists p, ps. rewrite E4. cbn [hd_error]. repeat (split; [assumption || reflexivity|]). intros r.
      destruct E5 as [E5|[E5|[[E5 E6]|E5]]]; [now left|right; now left|right; right; left|right; right; right].
      + split; [exact E5|]. exists r. now rewrite E6.
      + exists (p_text p), r. auto.
    - left. now rewrite E2.
  Qed.

  Lemma rest_tower k col ns : forall ls pv cur gs, stk e col (Some pv) (map create_box ns) ls ->
    Forall (member_ok k) ns -> Forall2 (tallt e) (map create_box ns) ls -> row cur <= row pv ->
    gaps_at cur gs (flat_map (pieces c k) ls) ->
    exists rest, page endl gs (flat_map (pieces c k) ls) = List.concat (map (col_row col) rest)
      /\ Forall2 (opens_with endl) (filter worded ns) (map snd rest).
  Proof.
    induction ns as [|n ns IH]; intros ls pv cur gs Hs Hm Ht Hr Hg; cbn [map] in *.
    - inversion Hs; subst. cbn [flat_map] in *. destruct gs; [|destruct Hg]. exists nil. split; [reflexivity|constructor].
    - inversion Hs as [|? ? ? l ls' o Hl Hc Hrow Hs']; subst. inversion Hm as [|? ? M1 M2]; subst. inversion Ht as [|? ? ? ? T1 T2]; subst.
      specialize (Hrow _ eq_refl). cbn [flat_map] in *. cbn [filter].
      assert (Hro : row (lpos l) <= row o) by (destruct (proj1 (lok_cle e) _ _ _ Hl) as [A|[A _]]; lia).
      destruct (gaps_split _ _ _ _ Hg) as (g1 & g2 & -> & G1 & G2). rewrite (page_app endl _ _ _ _ _ G1).
      destruct M1 as (A1 & A2 & A3 & A4). pose proof (end_le k _ _ _ cur Hl A2 A3 ltac:(right; lia)) as Hend.
      destruct (IH _ _ _ _ Hs' M2 T2 Hend G2) as (rest & -> & F).
      destruct (fronted_text k n l o (conj A1 (conj A2 (conj A3 A4))) Hl T1) as [[E1 E2]|(p & ps & E1 & E2 & E3 & E4 & E5)].
      + rewrite E1 in *. rewrite E2. destruct g1; [|destruct G1]. exists rest. split; [reflexivity|exact F].
      + rewrite E1 in *. rewrite E4. destruct g1 as [|g g1]; [destruct G1|]. cbn [gaps_at] in G1. destruct G1 as (G3 & G4 & G5).
        destruct (Z.eqb_spec (row cur) (row (p_at p))); [lia|]. cbn [page].
        exists ((pred (fst g), with_endl endl (p_text p) ++ page endl g1 ps) :: rest). cbn [map List.concat snd]. split; [|constructor; [apply E5|exact F]].
        assert (Ec : col_row (colm (lpos l)) (pred (fst g), with_endl endl (p_text p) ++ page endl g1 ps) = gap_text endl g ++ with_endl endl (p_text p) ++ page endl g1 ps).
        { unfold col_row, gap_text. cbn [fst snd]. replace (S (pred (fst g))) with (fst g) by lia. now rewrite G4, E2, <- !app_assoc. }
        rewrite Ec, <- !app_assoc. reflexivity.
  Qed.
  Lemma first_tower k col ns : forall ls pv cur gs, stk e col pv (map create_box ns) ls ->
    Forall (member_ok k) ns -> Forall2 (tallt e) (map create_box ns) ls ->
    gaps_at cur gs (flat_map (pieces c k) ls) ->
    match filter worded ns with
    | nil => True
    | m :: ms => exists g t rest, page endl gs (flat_map (pieces c k) ls) = gap_text endl g ++ t ++ List.concat (map (col_row col) rest)
        /\ (forall x, col_of x = colm cur -> col_of (x ++ gap_text endl g) = col)
        /\ opens_with endl m t /\ Forall2 (opens_with endl) ms (map snd rest)
    end.
  Proof.
    induction ns as [|n ns IH]; intros ls pv cur gs Hs Hm Ht Hg; cbn [map] in *; [exact I|].
    inversion Hs as [|? ? ? l ls' o Hl Hc Hrow Hs']; subst. inversion Hm as [|? ? M1 M2]; subst. inversion Ht as [|? ? ? ? T1 T2]; subst.
    cbn [flat_map] in *. cbn [filter].
    destruct (gaps_split _ _ _ _ Hg) as (g1 & g2 & -> & G1 & G2). rewrite (page_app endl _ _ _ _ _ G1).
    destruct (fronted_text k n l o M1 Hl T1) as [[E1 E2]|(p & ps & E1 & E2 & E3 & E4 & E5)].
    - rewrite E1 in *. rewrite E2. destruct g1; [|destruct G1]. cbn [after fst] in G2. exact (IH _ _ _ _ Hs' M2 T2 G2).
    - rewrite E4. destruct M1 as (A1 & A2 & A3 & A4).
      assert (Hend : row (fst (after (cur, None) (pieces c k l))) <= row o) by (apply (end_le k _ _ _ cur Hl A2 A3); left; now rewrite E1).
      destruct (rest_tower k (colm (lpos l)) ns _ _ _ _ Hs' M2 T2 Hend G2) as (rest & -> & F).
      rewrite E1 in *. destruct g1 as [|g g1]; [destruct G1|]. cbn [gaps_at] in G1. destruct G1 as (G3 & G4 & G5). cbn [page].
      exists g, (with_endl endl (p_text p) ++ page endl g1 ps), rest. split; [now rewrite <- !app_assoc|].
      split; [intros x Hx; rewrite <- E2; now apply (col_gap endl He x cur)|]. split; [apply E5|exact F].
  Qed.

  (** ** Below a statement *)
  Lemma sub_group n : forall parent l G, tidy false n = true -> wfb (create_box n) = true -> named c parent (create_box n) = true ->
    tallt e (create_box n) l -> In G (PropLintChecks.subtrees n) -> group_k (kind_of G) = true ->
    exists parent' m P0 P1, pieces c parent l = P0 ++ pieces c parent' m ++ P1 /\ tallt e (create_box G) m
      /\ tidy false G = true /\ wfb (create_box G) = true /\ named c parent' (create_box G) = true.
  Proof.
    induction n as [t|k cs IH] using pnode_ind'; intros parent l G Ht Hw Hn Htl Hin Hk.
    - cbn [PropLintChecks.subtrees] in Hin. destruct Hin as [<-|[]]. discriminate.
    - cbn [PropLintChecks.subtrees] in Hin. destruct Hin as [<-|Hin].
      { exists parent, l, nil, nil. rewrite app_nil_r. auto. }
      apply in_flat_map in Hin as (n & Hcs & Hin). rewrite Forall_forall in IH. specialize (IH n Hcs).
      rewrite create_eq in *. inversion Htl as [k0 p0 cs0 pos pass w v x lines ls Hls _ _]; subst.
      cbn [tidy] in Ht. apply andb_prop in Ht as [Ht1 Ht2]. rewrite forallb_forall in Ht2. specialize (Ht2 _ Hcs).
      assert (Hnode : exists kn q, n = N kn q /\ (match kn with KWhitespace => false | _ => true end) = true).
      { destruct n as [t|kn q]; [destruct Hin as [<-|[]]; discriminate|]. exists kn, q. split; [reflexivity|]. destruct kn; try reflexivity. exfalso.
        cbn [tidy tidy_k] in Ht2. apply andb_prop in Ht2 as [Ht2 _]. apply andb_prop in Ht2 as [Ht2 _].
        cbn [PropLintChecks.subtrees] in Hin. destruct Hin as [<-|Hin]; [discriminate|]. apply in_flat_map in Hin as (y & Hy & Hin).
        rewrite forallb_forall in Ht2. apply Ht2 in Hy. destruct y; [|discriminate]. destruct Hin as [<-|[]]. discriminate. }
      destruct Hnode as (kn & q & -> & Kn).
      assert (Hleaf : leaf_k k = false).
      { destruct (leaf_k k) eqn:El; [|reflexivity]. exfalso.
        destruct k; try discriminate; cbn [tidy_k] in Ht1.
        - apply andb_prop in Ht1 as [Ht1 _]. rewrite forallb_forall in Ht1. apply Ht1 in Hcs. discriminate.
        - apply andb_prop in Ht1 as [Ht1 _]. apply andb_prop in Ht1 as [Ht1 _]. rewrite forallb_forall in Ht1. apply Ht1 in Hcs. discriminate.
        - destruct cs as [|[t|? ?] [|? ?]]; try discriminate. destruct Hcs as [Hcs|[]]. discriminate.
        - destruct cs as [|[t|? ?] [|? ?]]; try discriminate. destruct Hcs as [Hcs|[]]. discriminate.
        - destruct cs as [|[t|? ?] [|? ?]]; try discriminate. destruct Hcs as [Hcs|[]]. discriminate. }
      rewrite Hleaf in Hls.
      apply in_split in Hcs as (c1 & c2 & Ecs).
      assert (Ek : kids cs = kids c1 ++ create_box (N kn q) :: kids c2).
      { rewrite Ecs. change (N kn q :: c2) with ([N kn q] ++ c2). rewrite !kids_app, kids_one by exact Kn. reflexivity. }
      rewrite Ek in Hls. apply Forall2_app_inv_l in Hls as (l1 & l2 & H1 & H2 & ->). inversion H2 as [|? m ? l3 T1 T2]; subst.
      cbn [wfb] in Hw. apply andb_prop in Hw as [Hw _]. cbn [named] in Hn. apply andb_prop in Hn as [_ Hn].
      rewrite forallb_forall in Hw, Hn. assert (Hb : In (create_box (N kn q)) (kids (c1 ++ N kn q :: c2))) by (rewrite Ek; apply in_or_app; right; now left).
      destruct (IH k m G Ht2 (Hw _ Hb) (Hn _ Hb) T1 Hin Hk) as (parent' & m' & P0 & P1 & E & R).
      exists parent', m'. eexists (own_pieces c parent k (c1 ++ N kn q :: c2) pos lines ++ flat_map (pieces c k) l1 ++ P0), (P1 ++ flat_map (pieces c k) l3).
      split; [|exact R]. cbn [pieces]. rewrite flat_map_app. cbn [flat_map]. rewrite E, <- !app_assoc. reflexivity.
  Qed.
End Tower.

(** ** Files *)
Lemma members_kids k cs : tidy false (N k cs) = true -> wfb (create_box (N k cs)) = true -> is_parg_k k || is_arggroup_k k = true ->
  kids cs = map create_box (members cs) /\ map kind_of (members cs) = map bkind (kids cs)
  /\ Forall (fun n => tidy false n = true /\ in_parg (create_box n) || in_arg (create_box n) = true /\ kind_of n = bkind (create_box n)) (members cs).
Proof.
  intros Ht Hw Hk. rewrite create_eq in Hw. cbn [wfb] in Hw. apply andb_prop in Hw as [_ Hw]. cbn [tidy] in Ht. apply andb_prop in Ht as [_ Ht].
  assert (Hin : forallb (fun b => in_parg b || in_arg b) (kids cs) = true).
  { rewrite forallb_forall in *. intros b Hb. destruct k; try discriminate; rewrite forallb_forall in Hw; rewrite (Hw _ Hb); [now rewrite orb_true_r|reflexivity]. }
  clear Hw Hk. induction cs as [|n cs IH]; [repeat constructor|].
  cbn [forallb] in Ht. apply andb_prop in Ht as [T1 T2]. change (n :: cs) with ([n] ++ cs) in Hin. rewrite kids_app, forallb_app in Hin. apply andb_prop in Hin as [I1 I2].
  destruct (IH T2 I2) as (A & B & C). change (kids (n :: cs)) with (kids ([n] ++ cs)). rewrite kids_app.
  destruct n as [t|kn q]; [cbn [members filter kids flat_map app]; auto|].
  destruct (match kn with KWhitespace => false | _ => true end) eqn:Kn.
  - rewrite kids_one in * by exact Kn. assert (Em : members (N kn q :: cs) = N kn q :: members cs) by (destruct kn; try discriminate; reflexivity).
    rewrite Em. cbn [map app]. rewrite <- A, B. split; [reflexivity|]. split; [reflexivity|]. constructor; [|exact C].
    cbn [forallb] in I1. rewrite andb_true_r in I1. auto.
  - assert (kn = KWhitespace) as -> by (destruct kn; try discriminate; reflexivity). cbn [members filter].
    assert (kids [N KWhitespace q] = nil) as ->; [|auto].
    unfold kids in *. cbn [flat_map app] in *. destruct (_ <? 2); [reflexivity|]. discriminate.
Qed.

Lemma chunk_towers e val d n o : cmt_ok e -> 0 <= f_tab (cfg e) -> is_endl (f_endl (cfg e)) -> f_passes (cfg e) = nil -> tidy false n = true ->
  item_ok e (d, create_box n) -> chunk e val (d, create_box n) o -> towers (cfg e) (f_endl (cfg e)) (d, n) (PropLines.line_of o).
Proof.
  intros Hcmt Htab He Hp Ht (W1 & W2 & W3 & W4) H. cbn [snd] in *. unfold towers. cbn [snd].
  destruct n as [|k p]; [exact Logic.I|]. destruct k; try exact Logic.I. intros kg cs Hin Hov.
  inversion H as [d0 b0 Hb|d0 b0 parent path term pass sib cur l o0 q ps gs Hb Hr Hcol Hpc Hat Hgs]; subst; [discriminate Hb|].
  assert (Hkg : is_parg_k kg || is_arggroup_k kg = true) by (cbn [too_many] in Hov; destruct kg; try discriminate; reflexivity).
  assert (Hgk : group_k kg = true) by (destruct kg; try discriminate; reflexivity).
  assert (W2' : named (cfg e) parent (create_box (N (KStatement cmdspec) p)) = true) by (rewrite (named_parent e _ parent KBody); [exact W2|reflexivity]).
  assert (Htl : tallt e (create_box (N (KStatement cmdspec) p)) l).
  { apply (reflow_tall e Htab Hp _ W1 eq_refl _ _ _ _ _ _ _ Hr). intros E. discriminate. }
  destruct (sub_group e _ parent l (N kg cs) Ht W1 W2' Htl Hin Hgk) as (parent' & m & P0 & P1 & E & Tm & T2 & Wg & Ng).
  destruct (members_kids kg cs T2 Wg Hkg) as (K1 & K2 & K3).
  set (s := PropLines.line_of _).
  assert (Hs : exists g0, s = page (f_endl (cfg e)) g0 (pieces (cfg e) parent l) /\ gaps_at (Cur (row (p_at q)) 0) g0 (pieces (cfg e) parent l)).
  { exists ((0%nat, Z.to_nat (Z.of_nat d * f_tab (cfg e))) :: gs). rewrite Hpc. split.
    - subst s. cbn [PropLines.line_of page]. unfold gap_text. cbn [fst snd repeat_s app]. now rewrite Z2Nat.id by nia.
    - cbn [gaps_at fst snd row colm]. split; [lia|]. split; [|exact Hgs]. rewrite Z.eqb_refl, Z2Nat.id by nia. lia. }
  destruct Hs as (g0 & Es & Hg). rewrite E in Es, Hg.
  destruct (gaps_split _ _ _ _ Hg) as (ga & gr & -> & Ga & Gr). rewrite (page_app _ _ _ _ _ _ Ga) in Es.
  destruct (gaps_split _ _ _ _ Gr) as (gm & gz & -> & Gm & Gz). rewrite (page_app _ _ _ _ _ _ Gm) in Es.
  rewrite create_eq in Tm, Wg, Ng. inversion Tm as [k0 p0 cs0 pos pass0 w0 v0 x0 lines ls Hls Hst _]; subst.
  assert (Hleaf : leaf_k kg = false) by (destruct kg; try discriminate; reflexivity). rewrite Hleaf in Hls.
  cbn [too_many] in Hov. rewrite K2 in Hov. specialize (Hst Hov). rewrite K1 in Hst, Hls.
  assert (Epm : pieces (cfg e) parent' (Lay kg cs pos pass0 w0 v0 x0 lines ls) = flat_map (pieces (cfg e) kg) ls) by (destruct kg; try discriminate; reflexivity).
  rewrite Epm in Gm, Es.
  assert (Hmem : Forall (member_ok e kg) (members cs)).
  { cbn [wfb] in Wg. apply andb_prop in Wg as [Wg _]. cbn [named] in Ng. apply andb_prop in Ng as [_ Ng]. rewrite forallb_forall in Wg, Ng.
    rewrite Forall_forall in K3 |- *. intros y Hy. destruct (K3 _ Hy) as (Y1 & Y2 & Y3). assert (Hb' : In (create_box y) (kids cs)) by (rewrite K1; now apply in_map).
    repeat split; auto. }
  pose proof (first_tower e Hcmt He kg (colm pos) _ _ _ _ _ Hst Hmem Hls Gm) as F. unfold tower. destruct (filter worded (members cs)) as [|m0 ms]; [exact Logic.I|].
  destruct F as (g & t & rest & F1 & F2 & F3 & F4). rewrite F1 in Es.
  assert (Hc0 : col_of (page (f_endl (cfg e)) ga P0) = colm (fst (after (Cur (row (p_at q)) 0, None) P0))).
  { exact (col_page _ He P0 nil (Cur (row (p_at q)) 0) ga eq_refl Ga). }
  specialize (F2 _ Hc0).
  exists (page (f_endl (cfg e)) ga P0 ++ gap_text (f_endl (cfg e)) g), t, rest, (page (f_endl (cfg e)) gz P1).
  split; [|auto]. rewrite Es, F2. unfold col_row. now rewrite <- !app_assoc.
Qed.

(** C135: with the built-in layout passes and without autosort, whatever the file and
    whether or not a layout within the line width was found: a positional group with
    more arguments than the limit, and an argument list with more groups than the
    limit, is written vertically. *)
Theorem C135_vertical c specs tbl src text v :
  run_cfg c specs tbl -> p_usetabs c = false -> f_autosort (p_fmt c) = false -> f_passes (p_fmt c) = nil ->
  process_file c src = Ok (text, v) ->
  forall toks, tokenize src = Ok toks -> no_switch toks = true ->
  exists tree chs, parse (p_ctx c) toks = Ok tree
    /\ Forall2 (towers (effective c src) (f_endl (effective c src))) (trim_end blank_item (fitems 0 tree)) chs
    /\ text = bom_text c ++ join (f_endl (effective c src)) chs ++ f_endl (effective c src).
Proof.
  intros R Ht Ha Hp H toks Hl Hno.
  destruct (file_chunks _ _ _ _ _ _ R Ht H toks Hl Hno) as (tree & chs & E & Htree & (Hc & Htab) & HF & _ & ->).
  exists tree, chs. split; [exact E|]. split; [|reflexivity].
  assert (He : is_endl (f_endl (effective c src))) by (apply eff_endl, R).
  assert (Ha' : f_autosort (cfg (pipe_env c src toks)) = false) by (cbn [pipe_env cfg]; unfold effective; destruct (p_auto c); exact Ha).
  assert (Hp' : f_passes (cfg (pipe_env c src toks)) = nil) by (cbn [pipe_env cfg]; unfold effective; destruct (p_auto c); exact Hp).
  change (effective c src) with (cfg (pipe_env c src toks)) in *.
  assert (Htd : Forall (fun x => tidy false (snd x) = true) (trim_end blank_item (fitems 0 tree))).
  { apply Forall_forall. intros x Hx. apply trim_end_in in Hx. pose proof (fitems_tidy false tree Htree 0%nat) as Hf. rewrite Forall_forall in Hf. exact (Hf _ Hx). }
  clear H. revert Htd. induction HF as [|[d n] s xs ys HG HF IH]; intros Htd; [constructor|]. inversion Htd as [|? ? T1 T2]; subst. constructor; [|now apply IH].
  destruct HG as (G & I & o & Ho & ->). cbn [fst snd] in *. rewrite Ha', lock_off in I, Ho. apply (chunk_towers _ v); [exact Hc|exact Htab|exact He|exact Hp'|exact T1|exact I|exact Ho].
Qed.

Definition opt_fcfg (aw : list str) (max_lines max_pargs max_prefix : Z) : fcfg :=
  let d := default_fcfg in
  FCfg (f_linewidth d) (f_tab d) (f_max_subgroups d) max_pargs (f_max_rows_cmdline d) max_lines
    (f_min_prefix d) max_prefix (f_sep_ctrl d) (f_sep_fn d) (f_dangle d) (f_dangle_align d) (f_autosort d) (f_keyword_case d)
    (f_command_case d) (f_spelling d) aw (f_passes d) (f_endl d).
Definition opt_pcfg (aw : list str) (max_lines max_pargs max_prefix : Z) : pcfg :=
  PCfg (opt_fcfg aw max_lines max_pargs max_prefix) default_mcfg the_ctx false false false UseSpace.
Definition tall_file : str := nl
  [$"set(names a b c)"; $"set(names a b c # last"; $"  d)"; $"add_library(foo STATIC a.c b.c)"; $"install(TARGETS a DESTINATION b COMPONENT c)"].
Example C135_vertical_ex :
  run_cfg (opt_pcfg nil 2 3 10) nil nil
  /\ (exists toks tree, tokenize tall_file = Ok toks /\ no_switch toks = true /\ parse (p_ctx (opt_pcfg nil 2 3 10)) toks = Ok tree
      /\ existsb (too_many (opt_fcfg nil 2 3 10)) (PropLintChecks.subtrees tree) = true)
  /\ process_file (opt_pcfg nil 2 3 10) tall_file = Ok (nl
       [$"set(names a b c)"; $"set(names"; $"    a"; $"    b"; $"    c # last"; $"    d)"; $"add_library(foo STATIC a.c b.c)";
        $"install("; $"  TARGETS a"; $"  DESTINATION b"; $"  COMPONENT c)"], true)
  /\ process_file (opt_pcfg nil 2 0 10) ($"foo(a b)" ++ [cNL]) = Ok (nl [$"foo(a"; $"    b)"], true).
Proof.
  split; [exact default_run|]. split.
  - eexists; eexists. split; [vm_compute; reflexivity|]. split; [vm_compute; reflexivity|]. split; [vm_compute; reflexivity|]. vm_compute. reflexivity.
  - split; vm_compute; reflexivity.
Qed.
