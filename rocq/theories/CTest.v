(** * CTest: the tool ctest-to (ctest_to.py) and why it never reports a test (C77) *)
From Verif Require Import Base Regex Lex TextOps Tree Parse ParseProofs ParseTerm PropParse CommentFree.

(** ** The parser as ctest-to runs it

    ParseContext.parse_file, ctest_to.py 192-201, calls [parse.parse(tokens, db)] with
    the dictionary [get_db()] in the place where [parse.parse] (parse/__init__.py 60-68)
    expects a context object.  The dictionary has no attributes [parse_db] and
    [config], so reading one raises AttributeError.  These are the parse functions of
    [Parse] up to the first such access; the callbacks parse_add_test, parse_subdirs
    and parse_set_tests_properties (ctest_to.py 102-181) are reached through
    [ctx.parse_db] only. *)

(** StatementNode.consume, statement_node.py 46-80: [ctx.parse_db] is read behind the
    left parenthesis. *)
Definition ct_statement (toks : list token) : res (pnode * list token) :=
  match toks with
  | nil => Err IndexErr
  | _ :: r0 =>
      match snd (take_ws r0) with
      | nil => Err IndexErr
      | lp :: _ => if negb (is_tt LEFT_PAREN lp) then Err ValueErr else Err AttrErr
      end
  end.
(** AtWordStatementNode.consume, statement_node.py 150-162: consume_trailing
    (simple_nodes.py 175) reads [ctx.config]. *)
Definition ct_atword (toks : list token) : res (pnode * list token) :=
  match toks with nil => Err IndexErr | _ :: _ => Err AttrErr end.
(** FlowControlNode.consume and IfBlockNode.consume, body_nodes.py 105-166: all block
    kinds begin with StatementNode.consume. *)
Definition ct_flow (toks : list token) : res (pnode * list token) := ct_statement toks.
(** BodyNode.consume, body_nodes.py 34-82, without break set *)
Fixpoint ct_body (n : nat) (acc : list pnode) (toks : list token) : res (list pnode) :=
  match n with
  | O => OutOfFuel
  | S m =>
      match toks with
      | nil => Ok acc
      | t :: toks' =>
          if is_ws t then let '(ws, r) := take_ws toks in ct_body m (acc ++ [N KWhitespace ws]) r
          else if is_comment t then let? (c, r) := consume_comment toks in ct_body m (acc ++ [c]) r
          else if is_onoff t then ct_body m (acc ++ [N KOnOff [T t]]) toks'
          else if is_tt WORD t then
            let? (sub, r) := (if smem (upper (spelling t)) flow_names then ct_flow toks else ct_statement toks) in ct_body m (acc ++ [sub]) r
          else if is_tt ATWORD t then let? (sub, r) := ct_atword toks in ct_body m (acc ++ [sub]) r
          else if is_tt BYTEORDER_MARK t then ct_body m acc toks'
          else Err InternalError
      end
  end.
Definition ct_parse (toks : list token) : res (list pnode) := ct_body (S (List.length toks)) nil toks.

(** What one run knows: the queue of directories and the tests found (name and
    arguments), ctest_to.py 94-97. *)
Record cstate := CS { c_queue : list str; c_tests : list (str * list str) }.
(** parse_file, 192-201.  [file] is the decoded content of CTestTestfile.cmake in the
    directory, None if there is no such file.  No callback runs, so the state stays. *)
Definition ct_file (file : option str) (s : cstate) : res cstate :=
  match file with
  | None => Ok s
  | Some text => let? toks := tokenize text in let? _ := ct_parse toks in Ok s
  end.
(** start, 203-211 *)
Fixpoint ct_loop (fuel : nat) (fs : str -> option str) (s : cstate) : res cstate :=
  match c_queue s with
  | nil => Ok s
  | d :: q =>
      match fuel with
      | O => OutOfFuel
      | S m => let? s' := ct_file (fs d) (CS q (c_tests s)) in ct_loop m fs s'
      end
  end.
Definition ct_start (fuel : nat) (fs : str -> option str) (dir : str) : res cstate := ct_loop fuel fs (CS [dir] nil).

(** ** C77 *)
(** Only blanks, comments and format switches: nothing to run. *)
Definition idle (t : token) : bool := is_ws t || is_comment t || is_onoff t || is_tt BYTEORDER_MARK t.

Lemma cloop_idle p (Hp : forall t, p t = true -> idle t = true) : forall n last toks a r, (List.length toks <= n)%nat -> cloop p last toks = (a, r) ->
  exists u, toks = u ++ r /\ forallb idle u = true.
Proof.
  assert (Hnl : forall t, is_tt NEWLINE t = true -> idle t = true) by (intros t; unfold idle, is_ws, is_tt; destruct (tt t); auto; discriminate).
  assert (Hws : forall t, is_tt WHITESPACE t = true -> idle t = true) by (intros t; unfold idle, is_ws, is_tt; destruct (tt t); auto; discriminate).
  induction n as [|n IH]; intros last toks a r Hn H; (destruct toks as [|t toks]; [injection H as <- <-; exists nil; auto|]); [cbn in Hn; lia|].
  cbn [cloop] in H. destruct (p t) eqn:Et; cbn [andb] in H; [|injection H as <- <-; exists nil; auto].
  match type of H with context [if ?b then _ else _] => destruct b end; [|injection H as <- <-; exists nil; auto]. apply Hp in Et. cbn [List.length] in Hn.
  assert (G : forall x y, cloop p (Some t) toks = (x, y) -> r = y -> exists u, t :: toks = u ++ r /\ forallb idle u = true).
  { intros x y E ->. apply IH in E as (u & -> & Hu); [|lia]. exists (t :: u). cbn [app forallb]. now rewrite Et. }
  destruct toks as [|m1 r1]; [injection H as <- <-; exists [t]; cbn; now rewrite Et|].
  destruct r1 as [|m2 r2]; [destruct (cloop p (Some t) [m1]) as [x y] eqn:E; injection H as <- <-; eauto|].
  destruct (is_tt NEWLINE m1) eqn:E1; cbn [andb] in H.
  - destruct (p m2) eqn:E2; cbn [andb] in H.
    + destruct (cloop p (Some t) (m2 :: r2)) as [x y] eqn:E. injection H as <- <-. apply IH in E as (u & Eu & Hu); [|cbn in *; lia].
      exists (t :: m1 :: u). cbn [app forallb]. rewrite Eu, Et, (Hnl _ E1). auto.
    + destruct r2 as [|m3 r3]; [destruct (cloop p (Some t) [m1; m2]) as [x y] eqn:E; injection H as <- <-; eauto|].
      destruct (is_tt WHITESPACE m2) eqn:E3; cbn [andb] in H; [destruct (p m3) eqn:E4|].
      * destruct (cloop p (Some t) (m3 :: r3)) as [x y] eqn:E. injection H as <- <-. apply IH in E as (u & Eu & Hu); [|cbn in *; lia].
        exists (t :: m1 :: m2 :: u). cbn [app forallb]. rewrite Eu, Et, (Hnl _ E1), (Hws _ E3). auto.
      * destruct (cloop p (Some t) (m1 :: m2 :: m3 :: r3)) as [x y] eqn:E. injection H as <- <-. eauto.
      * destruct (cloop p (Some t) (m1 :: m2 :: m3 :: r3)) as [x y] eqn:E. injection H as <- <-. eauto.
  - destruct r2 as [|m3 r3]; [destruct (cloop p (Some t) [m1; m2]) as [x y] eqn:E; injection H as <- <-; eauto|].
    destruct (cloop p (Some t) (m1 :: m2 :: m3 :: r3)) as [x y] eqn:E. injection H as <- <-. eauto.
Qed.
Lemma comment_idle toks c r : consume_comment toks = Ok (c, r) -> exists u, toks = u ++ r /\ forallb idle u = true.
Proof.
  destruct toks as [|t toks]; [discriminate|]. cbn [consume_comment]. destruct (tmem _ _) eqn:E.
  - intros H. injection H as <- <-. exists [t]. split; auto. cbn [forallb]. unfold idle, is_comment, is_onoff, is_ws, is_tt, tmem in *. destruct (tt t); try discriminate E; reflexivity.
  - destruct (cloop _ _ _) as [a r0] eqn:Ec. destruct a as [|x a]; [discriminate|]. intros H. injection H as _ <-.
    eapply cloop_idle in Ec; [exact Ec| |apply Nat.le_refl]. intros u Hu. unfold idle, is_comment, is_onoff, is_ws, is_tt in *. destruct (tt u); auto; discriminate.
Qed.
Lemma ws_idle toks : forall a r, take_ws toks = (a, r) -> exists u, toks = u ++ r /\ forallb idle u = true.
Proof.
  induction toks as [|t toks IH]; intros a r H; cbn [take_ws] in H; [injection H as <- <-; exists nil; auto|]. destruct (is_ws t) eqn:E; [|injection H as <- <-; exists nil; auto].
  destruct (take_ws toks) as [a' r'] eqn:E2. injection H as <- <-. destruct (IH _ _ eq_refl) as (u & -> & Hu). exists (t :: u). cbn [app forallb]. unfold idle at 1. now rewrite E.
Qed.
Lemma statement_fails toks x : ct_statement toks <> Ok x.
Proof. unfold ct_statement. destruct toks as [|t r]; [discriminate|]. destruct (snd (take_ws r)) as [|lp l]; [discriminate|]. destruct (negb _); discriminate. Qed.
Lemma body_idle n : forall acc toks a, ct_body n acc toks = Ok a -> forallb idle toks = true.
Proof.
  induction n as [|m IH]; intros acc toks a H; [discriminate|]. cbn [ct_body] in H. destruct toks as [|t toks]; [reflexivity|].
  destruct (is_ws t) eqn:E1.
  { destruct (take_ws (t :: toks)) as [ws r] eqn:E. apply ws_idle in E as (u & -> & Hu). rewrite forallb_app, Hu. cbn [andb]. eauto. }
  destruct (is_comment t) eqn:E2.
  { apply bindr_ok in H as ([c r] & E & H). apply comment_idle in E as (u & -> & Hu). rewrite forallb_app, Hu. cbn [andb]. eauto. }
  destruct (is_onoff t) eqn:E3; [cbn [forallb]; unfold idle at 1; rewrite E3, orb_true_r; cbn [orb andb]; eauto|].
  destruct (is_tt WORD t) eqn:E4.
  { exfalso. apply bindr_ok in H as (x & E & _). unfold ct_flow in E. destruct (smem _ _); eapply statement_fails; eauto. }
  destruct (is_tt ATWORD t) eqn:E5; [discriminate|]. destruct (is_tt BYTEORDER_MARK t) eqn:E6; [|discriminate].
  cbn [forallb]. unfold idle at 1. rewrite E6, !orb_true_r. cbn [andb]. eauto.
Qed.
(** the fuel suffices *)
Lemma body_fuel n : forall acc toks, (List.length toks < n)%nat -> ct_body n acc toks <> OutOfFuel.
Proof.
  induction n as [|m IH]; intros acc toks Hn; [lia|]. cbn [ct_body]. destruct toks as [|t toks]; [discriminate|]. cbn [List.length] in Hn.
  destruct (is_ws t) eqn:E1.
  { destruct (take_ws (t :: toks)) as [ws r] eqn:E. apply IH. cbn [take_ws] in E. rewrite E1 in E. destruct (take_ws toks) as [w r'] eqn:E2. injection E as _ <-.
    apply ws_idle in E2 as (u & -> & _). rewrite app_length in Hn. lia. }
  destruct (is_comment t).
  { destruct (consume_comment (t :: toks)) as [[c r]| |] eqn:E; cbn [bindr]; [|discriminate|now apply comment_nf in E]. apply IH. apply comment_lt in E. unfold len in E. lia. }
  destruct (is_onoff t); [apply IH; lia|]. assert (G : forall x, ct_statement (t :: toks) = x -> x <> OutOfFuel).
  { intros x <-. unfold ct_statement. destruct (snd (take_ws toks)); [discriminate|]. destruct (negb _); discriminate. }
  destruct (is_tt WORD t).
  { unfold ct_flow. destruct (smem _ _); destruct (ct_statement (t :: toks)) as [[x r]| |] eqn:E; cbn [bindr]; try discriminate; try (now apply statement_fails in E); now apply G in E. }
  destruct (is_tt ATWORD t); [discriminate|]. destruct (is_tt BYTEORDER_MARK t); [apply IH; lia|discriminate].
Qed.

(** C77 is false: whatever the files contain, no test is ever reported; and every
    directory whose CTestTestfile.cmake has a command makes the tool fail. *)
Definition has_call (text : str) : Prop :=
  exists toks t, tokenize text = Ok toks /\ In t toks /\ tt t = WORD.
Theorem C77_no_test_refuted fs dir :
  (forall fuel s, ct_start fuel fs dir = Ok s -> c_tests s = nil)
  /\ (forall text, fs dir = Some text -> has_call text -> exists e, forall fuel, ct_start (S fuel) fs dir = Err e).
Proof.
  split.
  - unfold ct_start. assert (G : forall fuel s0 s, c_tests s0 = nil -> ct_loop fuel fs s0 = Ok s -> c_tests s = nil).
    { induction fuel as [|m IH]; intros s0 s H0 H; cbn [ct_loop] in H; (destruct (c_queue s0) as [|d q] eqn:Eq; [injection H as <-; auto|]); [discriminate|].
      apply bindr_ok in H as (s1 & E & H). apply (IH s1); auto. unfold ct_file in E. destruct (fs d); [|injection E as <-; exact H0].
      apply bindr_ok in E as (toks & _ & E). apply bindr_ok in E as (x & _ & E). injection E as <-. exact H0. }
    intros fuel s. now apply G.
  - intros text Hf (toks & t & Ht & Hin & Hw). unfold ct_start. cbn [ct_loop c_queue]. rewrite Hf. cbn [ct_file]. rewrite Ht. cbn [bindr].
    unfold ct_parse. destruct (ct_body (S (List.length toks)) nil toks) as [a|e|] eqn:E.
    + exfalso. apply body_idle in E. rewrite forallb_forall in E. specialize (E _ Hin). unfold idle, is_ws, is_comment, is_onoff, is_tt in E. rewrite Hw in E. discriminate.
    + exists e. reflexivity.
    + exfalso. revert E. apply body_fuel. lia.
Qed.
(** A file as CTest writes it: the error is an AttributeError. *)
Definition src_ctest : str := $"# CMake generated Testfile for" ++ [cNL] ++ $"add_test(foo ""/bin/foo"" ""-x"")" ++ [cNL] ++ $"subdirs(sub)" ++ [cNL].
Example C77_ex : has_call src_ctest /\ forall fs dir fuel, fs dir = Some src_ctest -> ct_start (S fuel) fs dir = Err AttrErr.
Proof.
  split.
  - assert (H : exists toks, tokenize src_ctest = Ok toks) by (eexists; vm_compute; reflexivity). destruct H as [toks H]. exists toks.
    assert (G : exists t, find (is_tt WORD) toks = Some t) by (vm_compute in H; injection H as <-; eexists; vm_compute; reflexivity). destruct G as [t G].
    apply find_some in G as [G1 G2]. exists t. repeat split; auto. unfold is_tt in G2. now apply ttype_eqb_eq in G2.
  - intros fs dir fuel H. unfold ct_start. cbn [ct_loop c_queue]. rewrite H. vm_compute. reflexivity.
Qed.
