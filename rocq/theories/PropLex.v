(** * PropLex: theorems about tokenizing (properties C01-C04, C51) *)
From Verif Require Import Base Regex Lex LexProofs LexClass.

(** A small CMake file used by the non-vacuity examples:
    a call with a quoted multi-line argument, a bracket comment, an escape and a
    non-ASCII character. *)
Definition demo : str :=
  $"set(A " ++ [34; 233; 10; 34]%N ++ $" #[[c]] b\;c) # end" ++ [10%N] ++ $"if(x)".

(** C01 *)
Theorem C01_lex_total : forall s, exists toks, tokenize s = Ok toks.
Proof. intros s. destruct (tokenize_eq s) as (ts & -> & _). eauto. Qed.
Example C01_ex : exists toks, tokenize demo = Ok toks /\ length toks = 17%nat.
Proof. eexists. split; vm_compute; reflexivity. Qed.

(** C02 *)
Theorem C02_lex_lossless : forall s toks, tokenize s = Ok toks ->
  List.concat (map spelling toks) = s /\ Forall (fun t => spelling t <> nil) toks.
Proof.
  intros s toks H. destruct (tokenize_eq s) as (ts & E & _ & Hc & Hf).
  rewrite H in E. injection E as ->. split.
  - rewrite map_app, concat_app, locate_concat, Hc. unfold bom_prefix, strip_bom.
    destruct s as [|c s]; auto. destruct (N.eqb c cBOM) eqn:E; auto.
    apply N.eqb_eq in E. subst. reflexivity.
  - apply Forall_app. split.
    + unfold bom_prefix. destruct s as [|c s]; auto. destruct (N.eqb c cBOM); auto.
      constructor; [discriminate|constructor].
    + clear -Hf. assert (forall l c o, Forall (fun t => spelling t <> nil) (locate l c o ts)) as G; [|apply G].
      induction Hf as [|[t sp] ts Hx Hf IH]; intros l c o; simpl; constructor; simpl in *; auto.
Qed.
Example C02_ex : exists toks, tokenize (cBOM :: demo) = Ok toks /\
  nth_error (map spelling toks) 4 = Some [32%N].
Proof. eexists. split; vm_compute; reflexivity. Qed.

(** C03: locations are those of the text preceding the token.
    [position p] is the location reached after reading the text [p]. *)
Definition lines (p : str) : list str := split_on cNL p.
Definition position (p : str) : location :=
  Loc (zlen (lines p)) (zlen (last (lines p) nil)) (bytelen p).

Lemma lines_count p : zlen (lines p) = line_of p.
Proof.
  unfold lines, line_of. induction p as [|x p IH]; simpl; auto.
  destruct (split_on cNL p) as [|l ls] eqn:E; [now apply split_on_nonempty in E|].
  unfold count_chr in *. cbn [filter]. rewrite (N.eqb_sym cNL x). destruct (N.eqb x cNL).
  - rewrite !zlen_cons in *. lia.
  - rewrite !zlen_cons in *. lia.
Qed.

Theorem C03_locations : forall s toks pre t post,
  tokenize s = Ok toks -> toks = pre ++ t :: post -> tt t <> BYTEORDER_MARK ->
  begin t = position (List.concat (map spelling
              (filter (fun u => negb (ttype_eqb (tt u) BYTEORDER_MARK)) pre))).
Proof.
  intros s toks pre t post H Hd Ht. destruct (tokenize_eq s) as (ts & E & Hsc & _).
  rewrite H in E. injection E as ->.
  assert (forall a, Forall (fun u => tt u <> BYTEORDER_MARK) a ->
     filter (fun u => negb (ttype_eqb (tt u) BYTEORDER_MARK)) a = a) as Hfil.
  { intros a F. induction F as [|u a Hu F IH]; simpl; auto.
    destruct (ttype_eqb (tt u) BYTEORDER_MARK) eqn:E; [apply ttype_eqb_eq in E; contradiction|].
    simpl. now rewrite IH. }
  assert (Forall (fun u => tt u <> BYTEORDER_MARK) (locate 1 0 0 ts)) as Hno.
  { clear -Hsc. assert (forall l c o, Forall (fun u => tt u <> BYTEORDER_MARK) (locate l c o ts)) as G; [|apply G].
    induction Hsc as [|pv s0 t sp s' ts r y HF HI ? ? ? ? ? ? IH]; intros l c o; simpl; constructor; auto.
    simpl. intros ->. unfold lexicon, lexicon1 in HI. cbn [app] in HI.
    repeat (destruct HI as [HI|HI]; [discriminate|]). destruct HI. }
  assert (forall pre, locate 1 0 0 ts = pre ++ t :: post ->
     begin t = position (List.concat (map spelling
              (filter (fun u => negb (ttype_eqb (tt u) BYTEORDER_MARK)) pre)))) as G.
  { intros pre' E. rewrite Hfil; auto.
    - unfold position. rewrite lines_count. apply (locate_spec ts nil pre' t post E).
    - rewrite E in Hno. apply Forall_app in Hno. tauto. }
  destruct pre as [|t0 pre].
  - apply (G nil). unfold bom_prefix in Hd. destruct s as [|c s]; auto.
    destruct (N.eqb c cBOM); auto. injection Hd as <- _. simpl in Ht. congruence.
  - unfold bom_prefix in Hd. destruct s as [|c s]; [exact (G _ Hd)|].
    destruct (N.eqb c cBOM); [|exact (G _ Hd)]. injection Hd as <- Hd. simpl. exact (G _ Hd).
Qed.
Example C03_ex : exists toks t, tokenize demo = Ok toks /\ nth_error toks 11 = Some t /\
  spelling t = $"# end" /\ begin t = Loc 2 15 25.
Proof. eexists. eexists. split; [vm_compute; reflexivity|]. repeat split; vm_compute; reflexivity. Qed.

(** C04: shape of every token and the delimiters around it ([spelling_ok],
    [isolated], [delim_before], [delim_after], [follow_ok] are specified in
    LexClass.v). *)
Theorem C04_token_classes : forall s toks pre t post,
  tokenize s = Ok toks -> toks = pre ++ t :: post -> tt t <> BYTEORDER_MARK ->
  spelling_ok (tt t) (spelling t)
  /\ (isolated (tt t) = true ->
        delim_after (List.concat (map spelling post)) /\
        delim_before (last_or None (strip_bom (List.concat (map spelling pre)))))
  /\ follow_ok (tt t) (List.concat (map spelling post)).
Proof.
  intros s toks pre t post H Hd Ht. destruct (tokenize_eq s) as (ts & E & Hsc & Hcc & _).
  rewrite H in E. injection E as ->.
  assert (forall pre, locate 1 0 0 ts = pre ++ t :: post ->
    spelling_ok (tt t) (spelling t)
  /\ (isolated (tt t) = true ->
        delim_after (List.concat (map spelling post)) /\
        delim_before (last_or None (List.concat (map spelling pre))))
  /\ follow_ok (tt t) (List.concat (map spelling post))) as G.
  { intros p E. pose proof (locate_spelling 1 0 0 ts) as L. rewrite E in L.
    rewrite map_app in L. simpl in L. symmetry in L.
    destruct (scanned_ok _ _ _ Hsc _ _ _ _ L) as (A & B & D).
    rewrite !map_map in *. simpl in *. repeat split; auto; now apply B. }
  assert (forall p, locate 1 0 0 ts = p ++ t :: post -> (s = strip_bom s) ->
          strip_bom (List.concat (map spelling p)) = List.concat (map spelling p)) as SB.
  { intros p E Hs. assert (exists r, s = List.concat (map spelling p) ++ r) as (r & Hr).
    { rewrite Hs, <- Hcc, <- (locate_concat 1 0 0 ts), E, map_app, concat_app. eauto. }
    destruct (List.concat (map spelling p)) as [|c q]; auto. simpl.
    destruct (N.eqb c cBOM) eqn:Ec; auto. subst s. simpl in Hs. rewrite Ec in Hs.
    exfalso. apply (f_equal (@length chr)) in Hs. simpl in Hs. lia. }
  unfold bom_prefix in Hd. destruct s as [|c s].
  - simpl in Hd. destruct (G _ Hd) as (A & B & D). rewrite SB; auto.
  - destruct (N.eqb c cBOM) eqn:Ec.
    + destruct pre as [|t0 pre].
      * injection Hd as <- _. simpl in Ht. congruence.
      * injection Hd as <- Hd. destruct (G _ Hd) as (A & B & D).
        simpl map. simpl List.concat. simpl strip_bom. auto.
    + simpl in Hd. destruct (G _ Hd) as (A & B & D). rewrite SB; auto. simpl. now rewrite Ec.
Qed.
Example C04_ex : exists toks t, tokenize demo = Ok toks /\ nth_error toks 11 = Some t /\
  tt t = COMMENT /\ nth_error (map tt toks) 6 = Some BRACKET_COMMENT /\ nth_error (map tt toks) 8 = Some UNQUOTED_LITERAL.
Proof. eexists. eexists. split; [vm_compute; reflexivity|]. repeat split; vm_compute; reflexivity. Qed.

(** A consequence users rely on: the text of a line comment runs to the end of
    its line, so what follows the comment token is a newline or nothing. *)
Theorem C04_comment_to_eol : forall s toks pre t post,
  tokenize s = Ok toks -> toks = pre ++ t :: post -> tt t = COMMENT ->
  ~ In cNL (spelling t) /\
  (post = nil \/ exists rest, List.concat (map spelling post) = cNL :: rest).
Proof.
  intros s toks pre t post H Hd Ht.
  destruct (C04_token_classes _ _ _ _ _ H Hd) as (A & _ & D); [congruence|].
  rewrite Ht in *. simpl in A, D. destruct A as (b & -> & Hb). split.
  - simpl. intros [E|E]; [discriminate|auto].
  - destruct post as [|u post]; [auto|]. right.
    destruct (C02_lex_lossless _ _ H) as (_ & F). subst toks. apply Forall_app in F as [_ F].
    inversion F as [|? ? _ F2]; subst. inversion F2 as [|? ? Hu _]; subst.
    simpl in *. destruct (spelling u) as [|c w]; [congruence|]. simpl in *. subst c. eauto.
Qed.
Example C04_comment_ex : exists toks t, tokenize demo = Ok toks /\ nth_error toks 11 = Some t /\ tt t = COMMENT.
Proof. eexists. eexists. split; [vm_compute; reflexivity|]. repeat split; vm_compute; reflexivity. Qed.

(** C51: a format sentinel need not be one comment line: after an empty comment
    the pattern skips newlines, so ordinary code on the next line can switch
    formatting off. *)
Theorem C51_sentinel_single_line_refuted : exists s toks t,
  tokenize s = Ok toks /\ In t toks /\ tt t = FORMAT_OFF /\ In cNL (spelling t).
Proof.
  exists ($"#" ++ [10%N] ++ $"cmf: off").
  eexists. eexists. split; [vm_compute; reflexivity|]. split; [left; reflexivity|].
  split; [reflexivity|]. vm_compute. tauto.
Qed.

(** C04: a bracket comment is closed by the first close bracket that carries as
    many equal signs as its open bracket: its text, read up to and including its
    own close bracket, contains that close bracket only at the end. *)
Theorem C04_bracket_comment_end : forall s toks t,
  tokenize s = Ok toks -> In t toks -> tt t = BRACKET_COMMENT ->
  exists n body, let close := $"]" ++ repeat cEQ n ++ $"]" in
    spelling t = $"#[" ++ repeat cEQ n ++ $"[" ++ body ++ close /\
    forall a b, body ++ close = a ++ close ++ b -> a = body /\ b = nil.
Proof.
  intros s toks t H HI Ht. destruct (tokenize_eq s) as (ts & E & Hsc & _).
  rewrite H in E. injection E as ->. clear H.
  assert (In (tt t, spelling t) ts) as HIn.
  { apply in_app_iff in HI as [HI|HI].
    - unfold bom_prefix in HI. destruct s as [|c s]; [destruct HI|]. destruct (N.eqb c cBOM); [|destruct HI].
      destruct HI as [<-|[]]. discriminate.
    - rewrite <- (locate_spelling 1 0 0 ts). now apply (in_map (fun t => (tt t, spelling t))). }
  clear HI. induction Hsc as [|pv s0 t0 sp s' ts r y HF HI HM HR Hs Hs' Hne Hsc IH]; [destruct HIn|].
  destruct HIn as [E|HIn]; [|auto]. injection E as -> ->. subst s'.
  destruct (comment_bracket _ _ _ _ _ HF Hs Hne Ht) as (n & body & E & F).
  exists n, body. split; [exact E|]. intros a b Eab. specialize (F a b Eab). split; [exact F|].
  subst a. apply app_inv_head in Eab.
  match type of Eab with ?u = _ => apply (app_inv_head u) end. now rewrite app_nil_r, <- Eab.
Qed.
Example C04_bracket_ex : exists toks t, tokenize ($"#[=[ a ]] b ]=]]=]") = Ok toks /\ In t toks /\
  tt t = BRACKET_COMMENT /\ spelling t = $"#[=[ a ]] b ]=]".
Proof.
  eexists. eexists. split; [vm_compute; reflexivity|]. split; [left; reflexivity|].
  split; vm_compute; reflexivity.
Qed.

Print Assumptions C01_lex_total.
Print Assumptions C02_lex_lossless.
Print Assumptions C03_locations.
Print Assumptions C04_token_classes.
Print Assumptions C04_comment_to_eol.
Print Assumptions C51_sentinel_single_line_refuted.
Print Assumptions C04_bracket_comment_end.
