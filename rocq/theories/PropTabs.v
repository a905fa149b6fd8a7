(** * PropTabs: formatting twice with use_tabchars (C165) *)
From Verif Require Import Base Regex Lex LexProofs TextOps TextProofs PropText Tree Parse CmdSpec StdSpecs StdDb PropParse PropStd Layout Markup Pipeline PropOff PropTexts.

(** A trailing comment that is wrapped is aligned with blanks, which become tabs; in the
    second run the columns of its lines differ, so the second line is no longer taken for
    its continuation and moves below the argument. *)
Definition src_wrapped : str :=
  nl [$"foo(aaaaaaaaaaaaaaaaaaaaa bbbbbbbbbbbbbbbbbbbbbbbbbbbbbbbbbb ccccccccccccccccccc dddddddddddddddddddddddddddddd # first comment line that is very very very very long and must be wrapped"; $")"].
Definition twice (c : pcfg) (src : str) : res (str * bool) := match process_file c src with Ok (t, _) => process_file c t | x => x end.
Theorem C165_refuted : exists c src,
  (exists t v, process_file (spaced c) src = Ok (t, v) /\ process_file (spaced c) t = Ok (t, v))
  /\ exists t t' v v', process_file c src = Ok (t, v) /\ process_file c t = Ok (t', v') /\ t' <> t.
Proof.
  exists tabs_pcfg, src_wrapped. split.
  - destruct (process_file (spaced tabs_pcfg) src_wrapped) as [[t v]| |] eqn:E; [|vm_compute in E; discriminate E..].
    exists t, v. split; [reflexivity|]. vm_compute in E. injection E as <- <-. vm_compute. reflexivity.
  - destruct (process_file tabs_pcfg src_wrapped) as [[t v]| |] eqn:E; [|vm_compute in E; discriminate E..].
    destruct (process_file tabs_pcfg t) as [[t' v']| |] eqn:E2; [|vm_compute in E; injection E as <- <-; vm_compute in E2; discriminate E2..].
    exists t, t', v, v'. split; [reflexivity|]. split; [exact E2|]. intros ->. vm_compute in E. injection E as <- <-. vm_compute in E2. discriminate E2.
Qed.

(** What holds: the conversion itself changes nothing the second time. *)
Lemma tab_line_flush ts pol c b : 0 < ts -> c <> cSP -> tab_line ts pol (c :: b) = Ok (c :: b).
Proof.
  intros Hts Hc. unfold tab_line, count_indentation. cbn [first_nonspace]. apply N.eqb_neq in Hc. rewrite Hc.
  assert (ts =? 0 = false) as -> by (apply Z.eqb_neq; lia). rewrite Z.div_0_l, Z.mod_0_l by lia. reflexivity.
Qed.
Lemma tab_line_again ts pol l o : 0 < ts -> tab_line ts pol l = Ok o -> tab_line ts pol o = Ok o /\ (~ In cNL l -> ~ In cNL o).
Proof.
  intros Hts H. assert (Ez : ts =? 0 = false) by (apply Z.eqb_neq; lia).
  destruct (first_nonspace_spec l 0 ltac:(lia)) as [[F E]|(n & body & El & (c & b & Eb & Hc) & E)].
  - pose proof H as G. unfold tab_line, count_indentation in G. rewrite E, Ez, Z.div_0_l, Z.mod_0_l in G by lia. cbn in G. injection G as <-. auto.
  - pose proof H as G. unfold tab_line, count_indentation in G. rewrite E, Ez, Z.add_0_l, Nat2Z.id in G. rewrite El in G.
    rewrite skipn_app, skipn_all2, repeat_length, Nat.sub_diag in G by (rewrite repeat_length; lia). cbn [skipn app] in G.
    assert (Nb : ~ In cNL l -> ~ In cNL body) by (intros Hn X; apply Hn; rewrite El; apply in_or_app; now right).
    assert (Nr : forall x k, x <> cNL -> ~ In cNL (repeat x k)) by (intros x k Hx X; apply repeat_spec in X; congruence).
    assert (Tab : forall k r, tab_line ts pol (repeat cTAB (S k) ++ r) = Ok (repeat cTAB (S k) ++ r)) by (intros; cbn [repeat app]; now apply tab_line_flush).
    destruct (Z.of_nat n mod ts =? 0) eqn:Em.
    + injection G as <-. split; [|intros Hn X; apply in_app_or in X as [X|X]; [now apply Nr in X|now apply (Nb Hn)]].
      destruct (Z.to_nat (Z.of_nat n / ts)); [cbn [repeat app]; rewrite Eb; now apply tab_line_flush|apply Tab].
    + destruct pol; [| |discriminate]; injection G as <-.
      * split; [|intros Hn X; apply in_app_or in X as [X|X]; [now apply Nr in X|]; apply in_app_or in X as [X|X]; [now apply Nr in X|now apply (Nb Hn)]].
        destruct (Z.to_nat (Z.of_nat n / ts)) eqn:Ek; [|apply Tab]. cbn [repeat app].
        assert (Hs : Z.of_nat n / ts = 0) by (pose proof (Z.div_pos (Z.of_nat n) ts ltac:(lia) Hts); lia).
        assert (Hm : Z.of_nat n mod ts = Z.of_nat n) by (pose proof (Z.div_mod (Z.of_nat n) ts ltac:(lia)); rewrite Hs in *; lia).
        rewrite Hm, Nat2Z.id. rewrite <- El. unfold tab_line, count_indentation. rewrite E, Ez, Z.add_0_l, Hs, Hm, Nat2Z.id.
        rewrite Hm in Em. rewrite Em. cbn [Z.to_nat repeat app]. f_equal. rewrite El at 1. rewrite skipn_app, skipn_all2, repeat_length, Nat.sub_diag by (rewrite repeat_length; lia). cbn [skipn app]. now rewrite El.
      * split; [|intros Hn X; apply in_app_or in X as [X|X]; [now apply Nr in X|]; destruct X as [X|X]; [discriminate|now apply (Nb Hn)]].
        assert (Sn : forall k, repeat cTAB k ++ [cTAB] ++ body = repeat cTAB (S k) ++ body) by (induction k as [|k IHk]; [reflexivity|]; cbn [repeat app] in *; now rewrite IHk).
        cbn [app] in Sn. cbn [app]. rewrite Sn. apply Tab.
Qed.
Theorem C165_conversion_partial u ts pol s o : 0 < ts -> replace_with_tabs u ts pol s = Ok o -> replace_with_tabs u ts pol o = Ok o.
Proof.
  intros Hts. unfold replace_with_tabs. destruct u; [|reflexivity]. cbn [negb]. intros H. apply bindr_ok in H as (ls & E & H). injection H as <-.
  assert (A : TextOps.mapr (tab_line ts pol) ls = Ok ls /\ (Forall (fun l => ~ In cNL l) (split_on cNL s) -> Forall (fun l => ~ In cNL l) ls) /\ (split_on cNL s <> nil -> ls <> nil)).
  { revert ls E. induction (split_on cNL s) as [|l r IH]; intros ls E; cbn [TextOps.mapr] in E; [injection E as <-; repeat split; auto|].
    apply bindr_ok in E as (o & E1 & E). apply bindr_ok in E as (os & E2 & E). injection E as <-. destruct (IH _ E2) as (A & B & _).
    destruct (tab_line_again _ _ _ _ Hts E1) as [C D]. split; [cbn [TextOps.mapr]; rewrite C; cbn [bindr]; now rewrite A|]. split; [|discriminate].
    intros F. inversion F; subst. constructor; auto. }
  destruct A as (A & B & C). rewrite split_join_lines.
  - now rewrite A.
  - apply C. apply split_on_nonempty.
  - apply B. apply Forall_forall. intros l. apply split_on_no.
Qed.
Example C165_ex : exists o, replace_with_tabs true 4 UseSpace (nl [$"      a b"; $"  c"]) = Ok o /\ o <> nl [$"      a b"; $"  c"].
Proof. eexists. split; [vm_compute; reflexivity|]. vm_compute. discriminate. Qed.
