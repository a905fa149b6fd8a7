(** * StdWf: the shipped parse table and every user table are well formed *)
From Verif Require Import Base Regex Lex LexProofs LexClass Tree Parse ParseProofs CmdSpec StdSpecs StdDb.

(** ** Tables built from specifications *)
Section CmdspecInd.
  Variable P : cmdspec -> Prop.
  Hypothesis H : forall c kw, Forall (fun ks => P (snd ks)) kw -> P (CmdSpec c kw).
  Fixpoint cmdspec_ind' (s : cmdspec) : P s :=
    match s with
    | CmdSpec c kw => H c kw ((fix go l : Forall (fun ks => P (snd ks)) l :=
        match l with
        | nil => Forall_nil _
        | x :: l' => Forall_cons _ (cmdspec_ind' (snd x)) (go l')
        end) kw)
    end.
End CmdspecInd.

Lemma fun_parser_wf allow s : forall top k, wfp allow top (fun_parser k s).
Proof.
  induction s as [c kw IH] using cmdspec_ind'. intros top k. simpl.
  match goal with |- context [if ?c then _ else _] => destruct c end; [constructor|].
  match goal with |- context [if ?c then _ else _] => destruct c end; [constructor|].
  constructor. intros k' p Hin. apply in_map_iff in Hin as ([k2 s2] & E & Hin).
  injection E as <- <-. rewrite Forall_forall in IH. apply (IH _ Hin).
Qed.
Lemma funtree_wf allow kw k p : In (k, p) (get_funtree kw) -> wfp allow true p.
Proof.
  intros H. apply in_map_iff in H as ([k2 s2] & E & _). injection E as <- <-. apply fun_parser_wf.
Qed.
Lemma user_wf allow l tbl k p : user_table l = Ok tbl -> In (k, p) tbl -> wfp allow true p.
Proof.
  unfold user_table. intros H. apply bindr_ok in H as (kw & _ & H). injection H as <-. apply funtree_wf.
Qed.

(** ** The hand-written part *)

Definition kwwf allow (m : list (str * parser)) : Prop := Forall (fun kp => wfp allow false (snd kp)) m.
Lemma std_wf allow top cs kw : kwwf allow kw -> wfp allow top (PStd cs kw).
Proof. intros H. constructor. intros k p Hin. unfold kwwf in H. rewrite Forall_forall in H. apply (H _ Hin). Qed.
Lemma lookup_wf allow top k m p : Forall (fun kp => wfp allow top (snd kp)) m ->
  kw_lookup k m = Some p -> wfp allow top p.
Proof.
  intros H E. apply kw_lookup_In in E as (k' & Hin). rewrite Forall_forall in H. apply (H _ Hin).
Qed.
Lemma disp_first_wf allow m : Forall (fun kp => wfp allow true (snd kp)) m -> wfp allow true (disp_first m).
Proof.
  intros H. constructor. intros toks.
  assert (wfp allow true sat_any) by (apply std_wf; constructor).
  destruct (first_sem toks); auto. destruct (is_tt RIGHT_PAREN t); auto. destruct (is_tt DEREF t); auto.
  destruct (kw_lookup _ m) eqn:E; auto. eapply lookup_wf; eauto.
Qed.

Lemma set_wf allow vt : wfp allow true (parse_set vt).
Proof.
  apply wf_seq; [simpl; lia|]. constructor. intros acc toks w p extra chk. unfold set_step.
  destruct toks as [|t toks]; [discriminate|].
  destruct (kwarg_in t [$"CACHE"]); [intros H; injection H as _ <- _ _; constructor|].
  destruct (kwarg_in t _); discriminate.
Qed.
Lemma foreach_in_wf allow : wfp allow true parse_foreach_in.
Proof.
  apply wf_seq; [simpl; lia|]. constructor. intros acc toks w p extra chk. unfold foreach_in_step.
  destruct toks as [|t toks]; [discriminate|].
  destruct (kwarg_in t _); [intros H; injection H as _ <- _ _; constructor|].
  destruct (kwarg_in t _); [intros H; injection H as _ <- _ _; constructor|]. discriminate.
Qed.
Lemma act_wf allow : wfp allow true parse_add_custom_target.
Proof.
  apply wf_seq; [simpl; lia|]. constructor. intros acc toks w p extra chk. unfold act_step.
  destruct toks as [|t toks]; [discriminate|]. destruct (negb _); [discriminate|].
  destruct (normalized_kwarg t) as [u|]; [|discriminate]. destruct (smem u _); [discriminate|].
  destruct (kw_lookup u act_kw) as [q|] eqn:E; [|discriminate].
  intros H; injection H as _ <- _ _. eapply lookup_wf; [|exact E]. repeat constructor.
Qed.
Lemma gpos_wf allow items keep sp extra push tags : (List.length items <= 8)%nat ->
  wfp allow true (PSeq items (Some (GSpec keep (fun _ _ => GPos sp extra push tags)))).
Proof. intros H. apply wf_seq; auto. constructor. discriminate. Qed.

Ltac wfauto :=
  repeat (cbn [snd]; match goal with
  | |- wfp _ _ (PStd _ _) => apply std_wf
  | |- wfp _ _ (sat _ _ _) => apply std_wf
  | |- wfp _ _ (pos _ _) => apply wf_pos
  | |- wfp _ _ (PDisp _) => apply wf_disp; intros ?toks; cbv beta
  | |- wfp _ _ (need_tok ?t _) => unfold need_tok; destruct t
  | |- wfp _ _ (parse_set _) => apply set_wf
  | |- wfp _ _ parse_foreach_in => apply foreach_in_wf
  | |- wfp _ _ parse_add_custom_target => apply act_wf
  | |- wfp _ _ (disp_first _) => apply disp_first_wf
  | |- wfp _ _ (PSeq _ (Some (GSpec _ (fun _ _ => GPos _ _ _ _)))) => apply gpos_wf; simpl; lia
  | |- wfp _ _ (PSeq _ None) => apply wf_seq; [simpl; lia|constructor]
  | |- wfp _ _ (if ?c then _ else _) => destruct c
  | |- wfp _ _ (match kw_lookup ?k ?m with _ => _ end) => let E := fresh in destruct (kw_lookup k m) eqn:E; [eapply lookup_wf; [|exact E]|]
  | |- wfp _ _ (match ?c with _ => _ end) => destruct c
  | |- wfp _ _ ?p => first [solve [constructor; auto] | unfold p]
  | |- kwwf _ ?m => unfold kwwf
  | |- Forall _ (_ :: _) => apply Forall_cons
  | |- Forall _ nil => apply Forall_nil
  | |- Forall _ (_ ++ _) => apply Forall_app; split
  | |- Forall _ (map _ _) => apply Forall_map, Forall_forall; intros ? ?
  | |- Forall _ ?m => unfold m
  end).

(** The commands of the table whose arguments may be read by a tuple parser. *)
Definition tuple_commands : list str :=
  [$"add_custom_command"; $"set_source_files_properties"; $"set_target_properties"].

Lemma hand_wf allow vt name p : In (name, p) (hand_table vt) ->
  (allow = false -> ~ In name tuple_commands) -> wfp allow true p.
Proof.
  intros Hin Ha. destruct allow.
  - assert (Forall (fun kp => wfp true true (snd kp)) (hand_table vt)) as F by (unfold hand_table; wfauto).
    rewrite Forall_forall in F. apply (F _ Hin).
  - specialize (Ha eq_refl).
    unfold hand_table in Hin.
    repeat (destruct Hin as [Hin|Hin]; [injection Hin as <- <-;
      first [exfalso; apply Ha; simpl; tauto | clear Ha; solve [wfauto]]|]).
    destruct Hin.
Qed.
