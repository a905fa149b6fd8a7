(** * PropTerm: termination of parsing (property C07) *)
From Verif Require Import Base Regex Lex LexProofs LexClass Tree Parse ParseProofs PropParse ParseTerm.

(** ** C07 *)

(** For every table (tuple parsers included) and every token list in which AND
    and OR are lexed as words, parsing finishes with a tree or an error. *)
Theorem C07_parse_terminates_partial : forall ctx toks,
  wfctx true ctx -> condok toks -> parse ctx toks <> OutOfFuel.
Proof.
  intros ctx toks Hc Ht. unfold parse. apply bindr_nf.
  - apply (body_Tm ctx Hc (parse_fuel toks)); auto. unfold parse_fuel, len. lia.
  - intros [a r] _. discriminate.
Qed.

(** The table used by the examples: [if] and friends with the conditional
    parser, everything else with the default parser (funs/__init__.py 85-95). *)
Definition mini_db (name : str) : option parser :=
  if smem name [$"if"; $"elseif"; $"else"; $"endif"; $"while"; $"endwhile"] then Some PCond
  else if smem name [$"function"; $"macro"] then Some (PStd (legacy_cspec (NStr $"1+") nil) nil)
  else if seqb name $"set_target_properties"
  then Some (PStd (legacy_cspec (NStr $"*") nil) [($"PROPERTIES", PTuple (NStr $"+") 2 nil)])
  else None.
Definition mini_ctx : pctx := PCtx (fun s => startswith $"#<" s) nil mini_db.

Lemma mini_wf : wfctx true mini_ctx.
Proof.
  intros name p. simpl. unfold mini_db.
  destruct (smem name _); [intros H; injection H as <-; constructor|].
  destruct (smem name _); [intros H; injection H as <-; constructor; intros k q []|].
  destruct (seqb name _); [|discriminate].
  intros H; injection H as <-. constructor. intros k q [H|[]]. injection H as _ <-. now constructor.
Qed.

Definition src_and_ok : str := $"if(a AND b)" ++ [cNL] ++ $"endif()" ++ [cNL].
Example C07_ex : exists toks tree, tokenize src_and_ok = Ok toks /\ condok toks /\ len toks = 13%nat
  /\ parse mini_ctx toks = Ok tree.
Proof.
  eexists. eexists. split; [vm_compute; reflexivity|]. split.
  - repeat constructor; vm_compute; intros H; try discriminate; reflexivity.
  - split; vm_compute; reflexivity.
Qed.

(** The stuck state: an AND token that is not a word is never consumed. *)
Lemma cond_stuck ctx t r :
  upper (spelling t) = $"AND" -> tt t = UNQUOTED_LITERAL -> startswith [45%N] (spelling t) = false ->
  forall n acc, cond_loop n ctx [BParen] acc (t :: r) = OutOfFuel.
Proof.
  intros Hs Ht Hd. induction n as [|n IH]; intros acc; [reflexivity|].
  cbn [cond_loop].
  assert (E1 : should_break t [BParen] = false).
  { unfold should_break. simpl. unfold is_tt. now rewrite Ht. }
  assert (E2 : is_ws t = false) by (unfold is_ws; rewrite Ht; reflexivity).
  assert (E3 : is_comment t = false) by (unfold is_comment; rewrite Ht; reflexivity).
  assert (E4 : is_onoff t = false) by (unfold is_onoff; rewrite Ht; reflexivity).
  assert (E5 : is_tt LEFT_PAREN t = false) by (unfold is_tt; rewrite Ht; reflexivity).
  assert (E6 : kwarg_in t cond_words = false).
  { unfold kwarg_in, normalized_kwarg, is_tt. now rewrite Ht, Hd. }
  rewrite E1, E2, E3, E4, E5, E6.
  destruct n as [|n]; [reflexivity|].
  assert (Eg : pos_group (S n) ctx cond_pspec ([BParen] ++ [kwbreaker cond_words]) true (t :: r)
     = OutOfFuel \/ exists x, pos_group (S n) ctx cond_pspec ([BParen] ++ [kwbreaker cond_words]) true (t :: r)
     = Ok (x, t :: r)).
  { cbn [pos_group take_ws]. rewrite E2. destruct n as [|n]; [now left|]. right.
    cbn [pos_loop]. change (pargs_are_full (ps_nargs cond_pspec) 0) with (Ok false). cbn [bindr].
    assert (E7 : should_break t ([BParen] ++ [kwbreaker cond_words]) = true).
    { unfold should_break. rewrite existsb_app. apply orb_true_iff. right.
      simpl existsb. rewrite Hs. reflexivity. }
    rewrite E7. cbn. eauto. }
  destruct Eg as [->|(x & ->)]; [reflexivity|]. cbn [bindr]. apply IH.
Qed.

(** if(AND#x ... : the word is directly followed by a comment *)
Definition src_stuck : str := $"if(AND#x" ++ [cNL] ++ $" b)" ++ [cNL] ++ $"endif()" ++ [cNL].
Definition toks_stuck : list token :=
  match tokenize src_stuck with Ok l => l | _ => nil end.

Theorem C07_parse_terminates_refuted : exists src toks ctx,
  wfctx true ctx /\ tokenize src = Ok toks /\ toks <> nil /\
  forall n, body_loop n ctx nil nil toks = OutOfFuel.
Proof.
  exists src_stuck, toks_stuck, mini_ctx.
  split; [apply mini_wf|]. split; [vm_compute; reflexivity|].
  split; [vm_compute; discriminate|].
  intros n. destruct n as [|n]; [reflexivity|].
  set (tk := toks_stuck). vm_compute in tk. subst tk.
  match goal with |- body_loop _ _ _ _ ?l = _ => set (tk := l) end.
  assert (Hf : flow n mini_ctx tk = OutOfFuel).
  { destruct n as [|n]; [reflexivity|]. cbn [flow]. unfold tk at 1.
    assert (Hi : if_loop n mini_ctx nil tk = OutOfFuel).
    { destruct n as [|n]; [reflexivity|]. cbn [if_loop]. unfold tk at 1.
      assert (Hst : statement n mini_ctx tk = OutOfFuel).
      { unfold statement, tk. destruct n as [|n]; [reflexivity|].
        lazy beta iota zeta delta [take_ws is_ws tmem existsb tt ttype_eqb orb is_tt negb].
        match goal with |- context [call (S n) ?c ?p ?b ?ne ?l] =>
          assert (Hc : call (S n) c p b ne l = OutOfFuel) end.
        { change (command_parser mini_ctx _) with PCond. cbn [call resolve].
          lazy beta iota zeta delta [take_ws is_ws tmem existsb tt ttype_eqb orb is_tt negb].
          rewrite cond_stuck; reflexivity. }
        rewrite Hc. reflexivity. }
      rewrite Hst. reflexivity. }
    rewrite Hi. reflexivity. }
  change (body_loop (S n) mini_ctx nil nil tk)
    with (let? (sub, r) := flow n mini_ctx tk in body_loop n mini_ctx nil (nil ++ [sub]) r).
  rewrite Hf. reflexivity.
Qed.
