(** * StdShape: the shape theorem for the shipped parse table and lexed files *)
From Verif Require Import Base Regex Lex LexProofs LexClass PropLex TextOps TextProofs Tree Parse ParseProofs
  CmdSpec StdSpecs StdDb StdWf PropStd Layout LayoutProofs ParseShape.

(** ** Tokens of a lexed file *)
Lemma one_line_word w : name_text w ->
  existsb (fun c : chr => N.eqb c cNL || N.eqb c cCR) w = false.
Proof.
  intros (c & r & -> & Hc & Hr). cbn [existsb].
  assert (forall x, (13 < x)%N -> (N.eqb x cNL || N.eqb x cCR) = false) as G.
  { intros x Hx. apply orb_false_iff. rewrite !N.eqb_neq. unfold cNL, cCR. lia. }
  rewrite G; [|unfold name_first in Hc; lia]. cbn [orb].
  induction Hr as [|x r Hx Hr IH]; [reflexivity|]. cbn [existsb].
  rewrite G; [exact IH|]. unfold name_rest in Hx. lia.
Qed.
Lemma lexed_good src toks : tokenize src = Ok toks -> Forall tgood toks.
Proof.
  intros H. apply Forall_forall. intros t Hin. apply in_split in Hin as (pre & post & E).
  assert (Hsp : tt t <> BYTEORDER_MARK -> spelling_ok (tt t) (spelling t)).
  { intros Hne. now destruct (C04_token_classes _ _ _ _ _ H E Hne). }
  unfold tgood, is_tt. split.
  - intros Ht. apply ttype_eqb_eq in Ht. rewrite Ht in Hsp. destruct Hsp as (b & -> & Hb); [discriminate|].
    intros [Hc|Hc]; [discriminate Hc|contradiction].
  - intros [Ht|Ht]; apply ttype_eqb_eq in Ht; rewrite Ht in Hsp; unfold one_line; apply negb_true_iff.
    + apply one_line_word, Hsp. discriminate.
    + destruct Hsp as (w & -> & Hw); [discriminate|]. rewrite !existsb_app. apply orb_false_iff. split; [reflexivity|]. apply orb_false_iff.
      split; [now apply one_line_word|reflexivity].
Qed.

(** ** Keywords of the tables *)
Fixpoint pkeys (p : parser) : bool :=
  match p with
  | PStd cs kw => forallb (fun sp => forallb one_line (ps_flags sp)) (cs_pargs cs)
                  && forallb (fun kp => one_line (fst kp) && pkeys (snd kp)) kw
  | PShell | PCond | PNull | PRaise _ => true
  | _ => false
  end.
Fixpoint pkeys_wk (p : parser) : pkeys p = true -> wfk p.
Proof.
  destruct p as [cs kw| | | | | | | | | | |]; intros H; try discriminate H; try (constructor; fail).
  - simpl in H. apply andb_prop in H as [Hf H]. constructor.
    + rewrite forallb_forall in Hf. apply Forall_forall. exact Hf.
    + induction kw as [|[k0 p0] kw IH]; intros k p; [intros []|].
      simpl in H. apply andb_prop in H as [H1 H2]. apply andb_prop in H1 as [Ha Hb].
      intros [E|Hin]; [injection E as <- <-; split; [exact Ha|apply pkeys_wk, Hb]|].
      now apply IH.
Defined.
Definition table_keys (l : list (str * parser)) : bool := forallb (fun kp => pkeys (snd kp)) l.
Lemma table_wk l k p : table_keys l = true -> In (k, p) l -> wfk p.
Proof. unfold table_keys. rewrite forallb_forall. intros H Hin. apply pkeys_wk, (H _ Hin). Qed.

Lemma spec_table_keys : table_keys spec_table = true.
Proof. vm_compute. reflexivity. Qed.
Lemma flow_table_keys : table_keys flow_table = true.
Proof. vm_compute. reflexivity. Qed.

(** ** The hand-written part *)
Definition kwwk (m : list (str * parser)) : Prop := Forall (fun kp => one_line (fst kp) = true /\ wfk (snd kp)) m.
Lemma std_wk cs kw : Forall pf (cs_pargs cs) -> kwwk kw -> wfk (PStd cs kw).
Proof. intros Hf H. constructor; auto. intros k p Hin. unfold kwwk in H. rewrite Forall_forall in H. apply (H _ Hin). Qed.
Lemma sat_wk n kw flags : forallb one_line flags = true -> kwwk kw -> wfk (sat n kw flags).
Proof. intros Hf H. apply std_wk; auto. constructor; [exact Hf|constructor]. Qed.
Lemma lookup_wk k m p : Forall (fun kp => wfk (snd kp)) m -> kw_lookup k m = Some p -> wfk p.
Proof. intros H E. apply lookup_In in E. rewrite Forall_forall in H. apply (H _ E). Qed.
Lemma disp_first_wk m : Forall (fun kp => wfk (snd kp)) m -> wfk (disp_first m).
Proof.
  intros H. constructor. intros toks.
  assert (wfk sat_any) by (apply sat_wk; [reflexivity|constructor]).
  destruct (first_sem toks); auto. destruct (is_tt RIGHT_PAREN t); auto. destruct (is_tt DEREF t); auto.
  destruct (kw_lookup _ m) eqn:E; auto. eapply lookup_wk; eauto.
Qed.
Lemma set_wk vt : wfk (parse_set vt).
Proof.
  apply wk_seq; [repeat constructor|]. constructor.
  - intros acc toks w p extra chk. unfold set_step.
    destruct toks as [|t toks]; [discriminate|].
    destruct (kwarg_in t [$"CACHE"]); [intros H; injection H as <- <- _ _; split; [reflexivity|constructor; reflexivity]|].
    destruct (kwarg_in t _); discriminate.
  - intros acc toks. unfold set_step. destruct toks as [|t toks]; [reflexivity|].
    destruct (kwarg_in t [$"CACHE"]); [exact I|]. destruct (kwarg_in t _); reflexivity.
  - intros acc toks w p extra chk. unfold set_step, kw_head. destruct toks as [|t toks]; [easy|].
    destruct (kwarg_in t [$"CACHE"]) eqn:E; [intros _; eapply kwarg_in_head; eauto|].
    destruct (kwarg_in t [$"PARENT_SCOPE"]); discriminate.
Qed.
Lemma foreach_in_wk : wfk parse_foreach_in.
Proof.
  apply wk_seq; [repeat constructor|]. constructor.
  - intros acc toks w p extra chk. unfold foreach_in_step.
    destruct toks as [|t toks]; [discriminate|].
    destruct (kwarg_in t _); [intros H; injection H as <- <- _ _; split; [reflexivity|constructor; reflexivity]|].
    destruct (kwarg_in t _); [intros H; injection H as <- <- _ _; split; [reflexivity|constructor; reflexivity]|]. discriminate.
  - intros acc toks. unfold foreach_in_step. destruct toks as [|t toks]; [reflexivity|].
    destruct (kwarg_in t _); [exact I|]. destruct (kwarg_in t _); [exact I|reflexivity].
  - intros acc toks w p extra chk. unfold foreach_in_step, kw_head. destruct toks as [|t toks]; [easy|].
    destruct (kwarg_in t _) eqn:E; [intros _; eapply kwarg_in_head; eauto|].
    destruct (kwarg_in t [$"ITEMS"]) eqn:E2; [intros _; eapply kwarg_in_head; eauto|intros H; exfalso; discriminate H].
Qed.
Lemma act_wk : wfk parse_add_custom_target.
Proof.
  apply wk_seq; [repeat constructor|]. constructor.
  - intros acc toks w p extra chk. unfold act_step.
    destruct toks as [|t toks]; [discriminate|]. destruct (negb _); [discriminate|].
    destruct (normalized_kwarg t) as [u|]; [|discriminate]. destruct (smem u _); [discriminate|].
    destruct (kw_lookup u act_kw) as [q|] eqn:E; [|discriminate].
    intros H; injection H as <- <- _ _. apply lookup_In in E. simpl in E.
    repeat (destruct E as [E|E]; [injection E as <- <-; split; [reflexivity|constructor; reflexivity]|]). destruct E.
  - intros acc toks. unfold act_step. destruct toks as [|t toks]; [reflexivity|]. destruct (negb _); [reflexivity|].
    destruct (normalized_kwarg t) as [u|]; [|reflexivity]. destruct (smem u _); [split; reflexivity|].
    destruct (kw_lookup u act_kw); [exact I|reflexivity].
  - intros acc toks w p extra chk. unfold act_step, kw_head. destruct toks as [|t toks]; [easy|].
    destruct (negb _); [easy|]. destruct (normalized_kwarg t); easy.
Qed.
Lemma gpos_wk items keep sp extra push tags : Forall item_ok items -> pf sp ->
  wfk (PSeq items (Some (GSpec keep (fun _ _ => GPos sp extra push tags)))).
Proof. intros Hi Hs. apply wk_seq; auto. constructor; [discriminate|intros; exact Hs|discriminate]. Qed.

Ltac wkauto :=
  repeat (cbn [snd fst]; match goal with
  | |- _ /\ _ => split
  | |- one_line _ = true => vm_compute; reflexivity
  | |- forallb one_line _ = true => vm_compute; reflexivity
  | |- pf _ => vm_compute; reflexivity
  | |- item_ok _ => first [exact I|vm_compute; reflexivity]
  | |- wfk (PStd _ _) => apply std_wk
  | |- wfk (sat _ _ _) => apply sat_wk
  | |- wfk (pos _ _) => apply wk_pos
  | |- wfk (PDisp _) => apply wk_disp; intros ?toks; cbv beta
  | |- wfk (need_tok ?t _) => unfold need_tok; destruct t
  | |- wfk (parse_set _) => apply set_wk
  | |- wfk parse_foreach_in => apply foreach_in_wk
  | |- wfk parse_add_custom_target => apply act_wk
  | |- wfk (disp_first _) => apply disp_first_wk
  | |- wfk (PSeq _ (Some (GSpec _ (fun _ _ => GPos _ _ _ _)))) => apply gpos_wk
  | |- wfk (PSeq _ None) => apply wk_seq; [|constructor]
  | |- wfk (if ?c then _ else _) => destruct c
  | |- wfk (match kw_lookup ?k ?m with _ => _ end) => let E := fresh in destruct (kw_lookup k m) eqn:E; [eapply lookup_wk; [|exact E]|]
  | |- wfk (match ?c with _ => _ end) => destruct c
  | |- wfk ?p => first [solve [constructor; auto] | unfold p]
  | |- kwwk ?m => unfold kwwk
  | |- Forall _ (_ :: _) => apply Forall_cons
  | |- Forall _ nil => apply Forall_nil
  | |- Forall _ (_ ++ _) => apply Forall_app; split
  | |- Forall _ (map _ _) => apply Forall_map, Forall_forall; intros ? ?
  | |- Forall _ ?m => unfold m
  end).

Lemma hand_wk vt : Forall (fun kp => wfk (snd kp)) (hand_table vt).
Proof. unfold hand_table; wkauto. Qed.

Lemma std_wkctx ex vt tbl : table_keys tbl = true -> wfkctx (std_ctx ex vt tbl).
Proof.
  intros Ht name p. simpl. unfold with_user. destruct (kw_lookup name tbl) as [q|] eqn:E.
  - intros H. injection H as <-. apply lookup_In in E. eapply table_wk; eauto.
  - unfold std_table. intros H. apply lookup_In in H. rewrite !in_app_iff in H. destruct H as [H|[H|H]].
    + eapply table_wk; [apply spec_table_keys|eauto].
    + eapply table_wk; [apply flow_table_keys|eauto].
    + pose proof (hand_wk vt) as F. rewrite Forall_forall in F. apply (F _ H).
Qed.

Theorem file_wfb ex vt tbl src toks tree : table_keys tbl = true ->
  tokenize src = Ok toks -> parse (std_ctx ex vt tbl) toks = Ok tree ->
  wfb (create_box tree) = true.
Proof.
  intros Hk Ht Hp. eapply parse_wfb; [apply std_wkctx; exact Hk|eapply lexed_good; eauto|exact Hp].
Qed.
