(** * PropBlocks: block structure of the parse tree (property C50) *)
From Verif Require Import Base Regex Lex LexProofs LexClass Tree Parse ParseProofs PropParse
  ParseTerm CmdSpec StdSpecs StdDb StdWf PropStd.

(** ** Specification: properly bracketed bodies *)

(** the command name of a statement, in upper case *)
Definition stmt_name (n : pnode) : option str :=
  match n with
  | N (KStatement _) (N KFunname [T t] :: _) => Some (upper (spelling t))
  | _ => None
  end.
Definition inert (n : pnode) : bool :=
  match n with
  | N KWhitespace _ | N (KComment _) _ | N KOnOff _ | N KAtStmt _ => true
  | _ => false
  end.
Definition loop_names : list str := [$"WHILE"; $"FOREACH"; $"FUNCTION"; $"MACRO"].

(** [body_ok brk o cs]: the children of a body that ends at one of the names
    [brk].  No child is a statement named in [brk] or opening a block; blocks are
    bracketed by their own terminators.  [o]: the last child is an if block that
    reaches the end of the file without its endif. *)
Inductive child_ok : list str -> bool -> pnode -> Prop :=
| ch_inert brk n : inert n = true -> child_ok brk false n
| ch_stmt brk n w : stmt_name n = Some w -> ~ In w brk -> ~ In w flow_names -> child_ok brk false n
| ch_loop brk op w bd cl : stmt_name op = Some w -> In w loop_names -> body_ok [$"END" ++ w] false bd ->
    stmt_name cl = Some ($"END" ++ w) -> child_ok brk false (N KFlow [op; N KBody bd; cl])
| ch_if brk arms cl : arms_ok false arms -> stmt_name cl = Some $"ENDIF" ->
    child_ok brk false (N KFlow (arms ++ [cl]))
| ch_open brk arms o : arms_ok o arms -> child_ok brk true (N KFlow arms)
with body_ok : list str -> bool -> list pnode -> Prop :=
| bo_nil brk : body_ok brk false nil
| bo_snoc brk o cs c : body_ok brk false cs -> child_ok brk o c -> body_ok brk o (cs ++ [c])
(** the arms of an if block: IF body (ELSEIF body | ELSE body)* *)
with arms_ok : bool -> list pnode -> Prop :=
| ar_one op o bd : stmt_name op = Some $"IF" -> body_ok if_breakset o bd ->
    arms_ok o [op; N KBody bd]
| ar_more arms op w o bd : arms_ok false arms -> stmt_name op = Some w -> In w [$"ELSE"; $"ELSEIF"] ->
    body_ok if_breakset o bd -> arms_ok o (arms ++ [op; N KBody bd]).

Lemma statement_name n ctx t toks x r : statement n ctx (t :: toks) = Ok (x, r) ->
  stmt_name x = Some (upper (spelling t)).
Proof.
  unfold statement. destruct (take_ws toks) as [ws r0]. destruct r0 as [|lp r1]; [discriminate|].
  destruct (negb _); [discriminate|]. destruct (take_ws r1) as [ws2 r2]. intros H.
  apply bindr_ok in H as ([args r3] & _ & H). apply bindr_ok in H as ([tl r4] & _ & H).
  destruct r4 as [|rp r5]; [discriminate|]. destruct (consume_trailing ctx r5) as [tr r6].
  injection H as <- <-. reflexivity.
Qed.
Lemma comment_inert toks c r : consume_comment toks = Ok (c, r) -> inert c = true.
Proof.
  unfold consume_comment. destruct toks as [|t toks]; [discriminate|].
  destruct (tmem _ _); [intros H; now injection H as <- _|].
  destruct (cloop _ _ _) as [[|x a] r0]; [discriminate|]. intros H; now injection H as <- _.
Qed.

Definition head_in (brk : list str) (r : list token) : Prop :=
  r = nil \/ exists t r', r = t :: r' /\ tt t = WORD /\ In (upper (spelling t)) brk.

Lemma blocks_all ctx n :
  (forall brk acc toks a r, body_loop n ctx brk acc toks = Ok (a, r) -> body_ok brk false acc ->
     exists o, body_ok brk o a /\ (o = true -> r = nil) /\ head_in brk r)
  /\ (forall brk toks x r, flow n ctx toks = Ok (x, r) ->
     (exists t r', toks = t :: r' /\ In (upper (spelling t)) flow_names) ->
     exists o, child_ok brk o x /\ (o = true -> r = nil))
  /\ (forall acc toks a r, if_loop n ctx acc toks = Ok (a, r) ->
     (acc = nil /\ (exists t r', toks = t :: r' /\ upper (spelling t) = $"IF")) \/
     (exists o, arms_ok o acc /\ (o = true -> toks = nil) /\ head_in if_breakset toks) ->
     (exists o, arms_ok o a /\ r = nil) \/
     (exists arms cl, a = arms ++ [cl] /\ arms_ok false arms /\ stmt_name cl = Some $"ENDIF")).
Proof.
  induction n as [|n (IHb & IHf & IHi)]; [repeat split; intros; discriminate|]. split; [|split].
  - intros brk acc toks a r H Hacc. cbn [body_loop] in H.
    destruct toks as [|t toks].
    { injection H as <- <-. exists false. split; auto. split; [discriminate|now left]. }
    assert (Hin : forall x toks', inert x = true -> body_loop n ctx brk (acc ++ [x]) toks' = Ok (a, r) ->
      exists o, body_ok brk o a /\ (o = true -> r = nil) /\ head_in brk r).
    { intros x toks' Hx H'. apply IHb in H'; auto. constructor; auto. now constructor. }
    destruct (is_ws t) eqn:E1; [destruct (take_ws (t :: toks)); now apply Hin in H|].
    destruct (is_tt COMMENT t); [apply bindr_ok in H as ([c r1] & Ec & H); apply comment_inert in Ec; now apply Hin in H|].
    destruct (is_onoff t); [now apply Hin in H|].
    destruct (is_tt BRACKET_COMMENT t); [apply bindr_ok in H as ([c r1] & Ec & H); apply comment_inert in Ec; now apply Hin in H|].
    destruct (is_tt WORD t) eqn:Ew.
    { destruct (smem (upper (spelling t)) brk) eqn:Eb.
      - injection H as <- <-. exists false. split; auto. split; [discriminate|]. right.
        exists t, toks. split; auto. split; [now apply ttype_eqb_eq|now apply smem_In].
      - destruct (smem (upper (spelling t)) flow_names) eqn:Ef.
        + apply bindr_ok in H as ([c r1] & Ec & H). apply (IHf brk) in Ec as (o & Hc & Ho).
          * destruct o.
            -- rewrite (Ho eq_refl) in H. destruct n; [discriminate|]. injection H as <- <-.
               exists true. split; [now constructor|]. split; auto. now left.
            -- apply IHb in H; auto. now constructor.
          * exists t, toks. split; auto. now apply smem_In.
        + apply bindr_ok in H as ([c r1] & Ec & H). apply statement_name in Ec.
          apply IHb in H; auto. constructor; auto. eapply ch_stmt; eauto.
          * intros F. apply smem_In in F. congruence.
          * intros F. apply smem_In in F. congruence. }
    destruct (is_tt ATWORD t).
    { apply bindr_ok in H as ([c r1] & Ec & H). unfold atword_statement in Ec.
      destruct (consume_trailing ctx toks). injection Ec as <- <-. now apply Hin in H. }
    destruct (is_tt BYTEORDER_MARK t); [|discriminate]. now apply IHb in H.
  - intros brk toks x r H (t & r' & -> & Ht). cbn [flow] in H.
    destruct (seqb (upper (spelling t)) $"IF") eqn:Ei.
    + apply seqb_eq in Ei. apply bindr_ok in H as ([a r1] & Ea & H). injection H as <- <-.
      apply IHi in Ea; [|left; split; eauto].
      destruct Ea as [(o & Ha & ->)|(arms & cl & -> & Ha & Hc)].
      * exists true. split; auto. econstructor; eauto.
      * exists false. split; [|discriminate]. now constructor.
    + apply bindr_ok in H as ([op r1] & Eo & H). apply bindr_ok in H as ([bd r2] & Eb & H).
      apply bindr_ok in H as ([cl r3] & Ec & H). injection H as <- <-.
      apply statement_name in Eo. apply IHb in Eb as (o & Hb & Ho & Hh); [|constructor].
      destruct Hh as [->|(t2 & r2' & -> & _ & Hn)]; [discriminate|].
      destruct o; [now specialize (Ho eq_refl)|].
      apply statement_name in Ec. exists false. split; [|discriminate].
      eapply ch_loop; eauto.
      * unfold flow_names in Ht. cbn [In] in Ht. unfold loop_names. destruct Ht as [Ht|Ht]; [|exact Ht].
        rewrite <- Ht in Ei. discriminate.
      * rewrite Ec. destruct Hn as [<-|[]]. reflexivity.
  - intros acc toks a r H Hpre. cbn [if_loop] in H. destruct toks as [|t toks].
    { injection H as <- <-. left. destruct Hpre as [(-> & t & r' & Hf & _)|(o & Ha & _)]; [discriminate|]. eauto. }
    destruct (seqb (upper (spelling t)) $"ENDIF") eqn:Ee.
    + apply seqb_eq in Ee. apply bindr_ok in H as ([cl r1] & Ec & H). injection H as <- <-. right.
      apply statement_name in Ec. rewrite Ee in Ec.
      destruct Hpre as [(-> & t' & r' & Hf & Hi)|(o & Ha & Ho & _)].
      * injection Hf as <- <-. rewrite Hi in Ee. discriminate.
      * destruct o; [now specialize (Ho eq_refl)|]. eauto.
    + apply bindr_ok in H as ([op r1] & Eo & H). apply statement_name in Eo.
      apply bindr_ok in H as ([bd r2] & Eb & H). apply IHb in Eb as (o & Hb & Ho & Hh); [|constructor].
      apply IHi in H; auto. right. exists o. split; auto.
      destruct Hpre as [(-> & t' & r' & Hf & Hi)|(o' & Ha & Ho' & Hh')].
      * injection Hf as <- <-. rewrite Hi in Eo. now apply ar_one.
      * destruct o'; [now specialize (Ho' eq_refl)|].
        eapply ar_more; eauto. destruct Hh' as [Hf|(t' & r' & Hf & _ & Hn)]; [discriminate|].
        injection Hf as <- <-. unfold if_breakset in Hn. cbn [In] in *. destruct Hn as [Hn|[Hn|[Hn|[]]]]; auto.
        rewrite <- Hn in Ee. discriminate.
Qed.

(** Every tree the parser returns, for every table and every token list, is
    properly bracketed, except that an if block may run to the end of the file. *)
Theorem C50_block_structure_partial : forall ctx toks tree, parse ctx toks = Ok tree ->
  exists cs o, tree = N KBody cs /\ body_ok nil o cs.
Proof.
  intros ctx toks tree H. unfold parse in H. apply bindr_ok in H as ([a r] & E & H). injection H as <-.
  apply blocks_all in E as (o & Hb & _); [|constructor]. eauto.
Qed.
Definition src_nest : str :=
  $"foreach(i 1)" ++ [cNL] ++ $"if(A)" ++ [cNL] ++ $"while(B)" ++ [cNL] ++ $"endwhile()" ++ [cNL]
  ++ $"elseif(C)" ++ [cNL] ++ $"else()" ++ [cNL] ++ $"f()" ++ [cNL] ++ $"endif()" ++ [cNL] ++ $"endforeach()".
Example C50_ex : exists toks tree, tokenize src_nest = Ok toks /\ parse the_ctx toks = Ok tree
  /\ exists op bd cl, tree = N KBody [N KFlow [op; N KBody bd; cl]] /\ len (flats bd) = 32%nat.
Proof.
  eexists. eexists. split; [vm_compute; reflexivity|]. split; [vm_compute; reflexivity|].
  eexists _, _, _. split; [reflexivity|]. vm_compute. reflexivity.
Qed.
(** The exception is real: an if block without endif is accepted by the parser. *)
Theorem C50_unterminated_if_refuted : exists src toks op bd, tokenize src = Ok toks
  /\ parse the_ctx toks = Ok (N KBody [N KFlow [op; N KBody bd]]).
Proof. exists $"if(A) f()". eexists. eexists. eexists. split; vm_compute; reflexivity. Qed.
(** Other blocks without their terminator are never accepted: for every table,
    text and nesting, the tree holds no such block (this is [ch_loop] above);
    they end in an IndexError rather than a message. *)
Theorem C50_unterminated_loop_refuted : exists src toks, tokenize src = Ok toks
  /\ parse the_ctx toks = Err IndexErr.
Proof. exists $"foreach(A 1) f()". eexists. split; vm_compute; reflexivity. Qed.

Print Assumptions C50_block_structure_partial.
