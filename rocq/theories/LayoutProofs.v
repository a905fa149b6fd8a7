(** * LayoutProofs: what every reflow call establishes *)
From Verif Require Import Base Regex Lex TextOps TextProofs Tree Layout.

(** ** Cursor order: row-major *)
Definition cle (a b : cursor) : Prop := row a < row b \/ (row a = row b /\ colm a <= colm b).
Definition clt (a b : cursor) : Prop := row a < row b \/ (row a = row b /\ colm a < colm b).
Lemma cle_refl a : cle a a. Proof. right. lia. Qed.
Lemma cle_trans a b c : cle a b -> cle b c -> cle a c.
Proof. unfold cle. lia. Qed.
Lemma clt_cle a b : clt a b -> cle a b. Proof. unfold clt, cle. lia. Qed.
Lemma cle_clt_trans a b c : cle a b -> clt b c -> clt a c.
Proof. unfold cle, clt. lia. Qed.
Lemma clt_cle_trans a b c : clt a b -> cle b c -> clt a c.
Proof. unfold cle, clt. lia. Qed.
Lemma cle_row a b : cle a b -> row a <= row b. Proof. unfold cle. lia. Qed.

(** ** Well-formed layout trees: the shapes the parser produces *)

(** no line ending in the text *)
Definition one_line (s : str) : bool :=
  negb (existsb (fun c => N.eqb c cNL || N.eqb c cCR) s).
(** the trailing comment of a scalar or of a parenthesis *)
Definition tail_ok (l : list box) : bool :=
  match l with nil => true | [c] => is_comment_k (bkind c) | _ => false end.

Definition in_parg (b : box) : bool :=
  match bkind b with
  | KArgument | KFlag | KParenGroup | KOnOff | KComment _ => true
  | _ => false
  end.
Definition in_arg (b : box) : bool :=
  match bkind b with
  | KKwargGroup | KPargGroup _ _ _ | KParenGroup | KOnOff | KComment _ => true
  | _ => false
  end.
Definition in_body (b : box) : bool :=
  match bkind b with
  | KWhitespace | KComment _ | KOnOff | KFlow | KStatement _ | KAtStmt => true
  | _ => false
  end.
Definition is_group_k (k : kind) : bool :=
  match k with KArgGroup _ | KPargGroup _ _ _ => true | _ => false end.
Definition onoff_ok (p : list pnode) : bool :=
  match p with
  | [T t] => match onoff_text t with Some _ => true | None => false end
  | _ => false
  end.
Definition has_tok (p : list pnode) : bool := match p with T _ :: _ => true | _ => false end.

(** line comments contain no line feed (lexer) *)
Definition lines_only (p : list pnode) : bool :=
  forallb (fun x => match x with
                    | T t => implb (is_tt COMMENT t) (negb (existsb (N.eqb cNL) (spelling t)))
                    | N _ _ => true
                    end) p.

Fixpoint wfb (b : box) : bool :=
  match b with
  | B k p cs =>
      forallb wfb cs &&
      match k with
      | KFunname | KKeyword =>
          has_tok p && one_line (first_spelling p) && match cs with nil => true | _ => false end
      | KFlag => has_tok p && one_line (first_spelling p) && tail_ok cs
      | KArgument => has_tok p && tail_ok cs
      | KAtWord => has_tok p && one_line (first_spelling p) && match cs with nil => true | _ => false end
      | KOnOff => onoff_ok p && match cs with nil => true | _ => false end
      | KComment _ => lines_only p && match cs with nil => true | _ => false end
      | KWhitespace | KLParen | KRParen => match cs with nil => true | _ => false end
      | KPargGroup _ _ _ => forallb in_parg cs
      | KArgGroup _ => forallb in_arg cs
      | KKwargGroup => match cs with
                       | [B KKeyword _ _] => true
                       | [B KKeyword _ _; g] => is_group_k (bkind g)
                       | _ => false
                       end
      | KParenGroup => match cs with
                       | a :: b :: c :: tl => is_lparen_k (bkind a) && is_arggroup_k (bkind b)
                                              && is_rparen_k (bkind c) && tail_ok tl
                       | _ => false
                       end
      | KStatement _ => match cs with
                        | B KFunname _ _ :: cs' => true
                        | _ => false
                        end
      | KAtStmt => match cs with
                   | B KAtWord _ _ :: tl => true
                   | _ => false
                   end
      | KBody => forallb in_body cs
      | KFlow => forallb (fun b => is_statement_k (bkind b) || is_body_k (bkind b)) cs
      end
  end.

(** ** What a laid-out node looks like *)

(** cursor just after the node's own text *)
Definition own_end (l : lay) : cursor :=
  match lkind l with
  | KLParen | KRParen => shift (lpos l) 1
  | KFunname | KArgument | KKeyword | KFlag | KAtWord =>
      fst (flow_text (lpos l) (first_spelling (lpcs l)))
  | KOnOff => match first_tok (lpcs l) with
              | Some t => match onoff_text t with
                          | Some s => shift (lpos l) (zlen s)
                          | None => lpos l
                          end
              | None => lpos l
              end
  | KComment _ =>
      if is_bracket (lpcs l) then fst (flow_text (lpos l) (first_spelling (lpcs l)))
      else Cur (row (lpos l) + zlen (llines l) - 1)
               (colm (lpos l) + zlen (last (llines l) nil))
  | _ => lpos l
  end.
(** [x] bounds the right edge of the node's own text *)
Definition own_le (l : lay) (x : Z) : Prop :=
  match lkind l with
  | KLParen | KRParen => colm (lpos l) + 1 <= x
  | KFunname | KArgument | KKeyword | KFlag | KAtWord =>
      snd (flow_text (lpos l) (first_spelling (lpcs l))) <= x
  | KOnOff => match first_tok (lpcs l) with
              | Some t => match onoff_text t with
                          | Some s => colm (lpos l) + zlen s <= x
                          | None => True
                          end
              | None => True
              end
  | KComment _ =>
      if is_bracket (lpcs l) then snd (flow_text (lpos l) (first_spelling (lpcs l))) <= x
      else Forall (fun s => colm (lpos l) + zlen s <= x) (llines l)
  | _ => True
  end.
(** comment lines come from the comment formatter, at the width left over *)
Definition lines_ok (e : env) (l : lay) : Prop :=
  match lkind l with
  | KComment x =>
      if is_bracket (lpcs l) then True
      else cmt e x (lpcs l) (f_linewidth (cfg e) - colm (lpos l)) = Ok (llines l)
           /\ llines l <> nil
  | _ => True
  end.

Definition is_block_k (k : kind) : bool :=
  match k with KBody | KFlow => true | _ => false end.
(** node kinds whose children are all kept apart by a blank or a line break *)
Definition spaced_k (k : kind) : bool :=
  match k with
  | KFunname | KArgument | KKeyword | KFlag | KAtWord
  | KPargGroup _ _ _ | KArgGroup _ | KKwargGroup | KAtStmt | KBody | KFlow => true
  | _ => false
  end.
Definition leaf_k (k : kind) : bool :=
  match k with KLParen | KRParen | KOnOff | KComment _ | KWhitespace => true | _ => false end.

(** Placement of a child after its predecessor [pv] whose layout ended at [c]
    (for the first child, after the node's own text).  *)
Definition sep (k : kind) (pv : option box) (c c' : cursor) : Prop :=
  cle c c'
  /\ match pv with
     | Some b =>
         (ends_line b = true \/ is_block_k k = true -> row c < row c')
         /\ (spaced_k k = true -> clt c c')
     | None => is_scalar_k k = true -> clt c c'
     end.

(** the kinds of the children a successful reflow has asserted *)
Definition kinds_ok (k : kind) (cs : list box) : bool :=
  match k with
  | KStatement _ =>
      match cs with
      | fn :: lp :: ag :: rp :: tl =>
          is_funname_k (bkind fn) && is_lparen_k (bkind lp) && is_arggroup_k (bkind ag)
          && is_rparen_k (bkind rp)
          && match tl with nil => true | [cm] => is_comment_k (bkind cm) | _ => false end
      | _ => false
      end
  | KAtStmt =>
      match cs with
      | aw :: tl => is_atword_k (bkind aw)
                    && match tl with nil => true | [cm] => is_comment_k (bkind cm) | _ => false end
      | nil => false
      end
  | _ => true
  end.

Inductive lok (e : env) : box -> lay -> cursor -> Prop :=
| lok_intro k p cs pos pass w v x lines ls o :
    let l := Lay k p pos pass w v x lines ls in
    own_le l x -> lines_ok e l -> kinds_ok k cs = true ->
    Forall (fun c => lext c <= x) ls ->
    (v = true -> x <= f_linewidth (cfg e) /\ Forall (fun c => lvalid c = true) ls) ->
    loks e k None (own_end l) (if leaf_k k then nil else cs) ls o ->
    lok e (B k p cs) l o
with loks (e : env) : kind -> option box -> cursor -> list box -> list lay -> cursor -> Prop :=
| loks_nil k pv c : loks e k pv c nil nil c
| loks_cons k pv c b bs l ls o1 o :
    sep k pv c (lpos l) -> lok e b l o1 -> loks e k (Some b) o1 bs ls o ->
    loks e k pv c (b :: bs) (l :: ls) o.
Scheme lok_mind := Induction for lok Sort Prop
with loks_mind := Induction for loks Sort Prop.
Combined Scheme lok_loks_ind from lok_mind, loks_mind.

(** ** Positions only advance *)
Lemma flow_lines_cle ls : forall c x, cle c (fst (flow_lines c x ls)).
Proof.
  induction ls as [|l ls IH]; simpl; intros; [apply cle_refl|].
  eapply cle_trans; [|apply IH]. left. simpl. lia.
Qed.
Lemma flow_text_cle c s : cle c (fst (flow_text c s)).
Proof.
  unfold flow_text. destruct (split_on cNL (normalize s)) as [|l ls]; [apply cle_refl|].
  eapply cle_trans; [|apply flow_lines_cle]. right. simpl. pose proof (zlen_nonneg l). lia.
Qed.
Lemma own_end_cle e l : lines_ok e l -> cle (lpos l) (own_end l).
Proof.
  unfold own_end, lines_ok. destruct (lkind l); intros H; try apply cle_refl; try apply flow_text_cle;
    try (right; simpl; lia).
  - destruct (is_bracket (lpcs l)); [apply flow_text_cle|].
    destruct H as [_ Hn]. destruct (llines l) as [|a ls]; [congruence|].
    unfold cle. cbn [row colm]. rewrite zlen_cons. pose proof (zlen_nonneg ls).
    pose proof (zlen_nonneg (last (a :: ls) nil)). lia.
  - destruct (first_tok (lpcs l)) as [t|]; [|apply cle_refl].
    destruct (onoff_text t) as [s|]; [|apply cle_refl].
    right. simpl. pose proof (zlen_nonneg s). lia.
Qed.
Lemma lok_cle e :
  (forall b l o, lok e b l o -> cle (lpos l) o)
  /\ (forall k pv c bs ls o, loks e k pv c bs ls o -> cle c o).
Proof.
  apply lok_loks_ind.
  - intros. eapply cle_trans; [apply (own_end_cle e); assumption|]. assumption.
  - intros. apply cle_refl.
  - intros. destruct s as [s _]. eauto using cle_trans.
Qed.

(** ** The generic induction over reflow *)
Definition good (e : env) (ch : chd) : Prop :=
  forall path term cur pass l o,
    snd ch path term cur pass = Ok (l, o) ->
    lpos l = cur /\ lok e (fst ch) l o.

Lemma try_passes_inv (P : lay * cursor -> Prop) f limit ps last x :
  (forall p w y, f p w = Ok y -> P y) ->
  (forall y, last = Some y -> P y) ->
  try_passes f limit ps last = Ok x -> P x.
Proof.
  intros Hf. revert last. induction ps as [|[p w] ps IH]; simpl; intros last Hl H.
  - destruct last; inversion H; subst; auto.
  - destruct (p >? limit).
    + destruct last; inversion H; subst; auto.
    + apply bindr_ok in H as (y & Hy & H). destruct (lvalid (fst y)).
      * inversion H; subst. eauto.
      * eapply IH; [|exact H]. intros z E. inversion E; subst. eauto.
Qed.

Ltac bk H := let x := fresh "x" in let Hx := fresh "Hx" in
  apply bindr_ok in H as (x & Hx & H).
Ltac inv H := inversion H; subst; clear H.
Ltac rwp := try match goal with H : lpos ?l = _ |- context [lpos ?l] => rewrite H end.

(** Result of laying out a list of children: a chain, the largest extent, the
    conjunction of the validities. *)
Ltac sepnext := unfold sep, cle, clt; simpl; repeat split; intros; lia.
Definition chain_ok (e : env) (k : kind) (pv : option box) (c : cursor) (cs : list chd)
  (v0 : bool) (x0 : Z) (r : list lay * cursor * bool * Z) : Prop :=
  let '(ls, o, v, x) := r in
  loks e k pv c (map fst cs) ls o
  /\ x0 <= x /\ Forall (fun l => lext l <= x) ls
  /\ (v = true -> v0 = true /\ Forall (fun l => lvalid l = true) ls).

Lemma chain_cons e k pv c ch cs v0 x0 l o1 ls o v x :
  sep k pv c (lpos l) -> lok e (fst ch) l o1 ->
  chain_ok e k (Some (fst ch)) o1 cs (v0 && lvalid l) (Z.max x0 (lext l)) (ls, o, v, x) ->
  chain_ok e k pv c (ch :: cs) v0 x0 (l :: ls, o, v, x).
Proof.
  intros Hs Hl (Hc & Hx & Hf & Hv). simpl. split; [|split; [|split]].
  - econstructor; eauto.
  - lia.
  - constructor; auto. lia.
  - intros E. apply Hv in E as [E1 E2]. apply andb_prop in E1 as [E0 E1]. split; auto.
Qed.
Lemma chain_nil e k pv c v x : chain_ok e k pv c nil v x (nil, c, v, x).
Proof. simpl. split; [constructor|]. split; [lia|]. split; auto. Qed.

(** ** Body and flow control *)
Lemma body_children_ok e path pass cs :
  Forall (good e) cs -> forall pv colc cur v x r,
  sep KBody pv cur colc ->
  body_children path pass cs colc cur v x = Ok r -> chain_ok e KBody pv cur cs v x r.
Proof.
  induction 1 as [|ch cs Hg _ IH]; intros pv colc cur v x r Hs H; cbn [body_children] in H.
  - inv H. apply chain_nil.
  - bk H. destruct x0 as [l c]. apply Hg in Hx as (Hp & Hl).
    bk H. destruct x0 as [[[ls c'] v'] x']. inv H.
    eapply chain_cons; [rwp; exact Hs|exact Hl|].
    eapply IH; [|exact Hx]. sepnext.
Qed.

Lemma flow_children_ok e tab path pass cs :
  0 <= tab ->
  Forall (good e) cs -> forall pv want colc cur v x r,
  sep KFlow pv cur colc ->
  flow_children tab path pass cs want colc cur v x = Ok r -> chain_ok e KFlow pv cur cs v x r.
Proof.
  intros Ht. induction 1 as [|ch cs Hg _ IH]; intros pv want colc cur v x r Hs H;
    cbn [flow_children] in H.
  - destruct want; inv H. apply chain_nil.
  - destruct want.
    + destruct (negb _); [discriminate|].
      bk H. destruct x0 as [l c]. apply Hg in Hx as (Hp & Hl).
      bk H. destruct x0 as [[[ls c'] v'] x']. inv H.
      eapply chain_cons; [exact Hs|exact Hl|].
      eapply IH; [|exact Hx]. sepnext.
    + destruct (negb _); [discriminate|].
      bk H. destruct x0 as [l c]. apply Hg in Hx as (Hp & Hl).
      bk H. destruct x0 as [[[ls c'] v'] x']. inv H.
      eapply chain_cons; [|exact Hl|].
      * rwp. destruct Hs as [Hs1 Hs2]. split.
        { unfold cle in *. simpl. lia. }
        destruct pv as [b|].
        { destruct Hs2 as [A1 A2]. split; intros E; [exact (A1 E)|].
          specialize (A2 E). unfold clt in *. simpl. lia. }
        { intros E. discriminate. }
      * eapply IH; [|exact Hx]. sepnext.
Qed.

(** ** Argument groups *)
Lemma parg_children_ok e lw path pass term wrap k cs :
  spaced_k k = true -> is_scalar_k k = false -> is_block_k k = false ->
  Forall (good e) cs -> forall pv colc cur v x rows ls o v' x' rows',
  (pv = None -> colc = cur) ->
  parg_children lw path pass term wrap cs pv colc cur v x rows = Ok (ls, o, v', x', rows') ->
  chain_ok e k pv cur cs v x (ls, o, v', x').
Proof.
  intros Hk1 Hk2 Hk3.
  induction 1 as [|ch cs Hg _ IH]; intros pv colc cur v x rows ls o v' x' rows' Hpv H;
    cbn [parg_children] in H.
  - inv H. apply chain_nil.
  - destruct (match pv with
        | None => (colc, cur, true, 1)
        | Some p => if ends_line p || wrap
            then let c := Cur (row cur + 1) (colm colc) in (c, c, true, rows + 1)
            else (colc, shift cur 1, false, rows)
        end) as [[[colc1 cur1] at_col] rows1] eqn:E.
    assert (Hsep : sep k pv cur cur1 /\ (at_col = false -> row cur1 = row cur)).
    { destruct pv as [p|].
      - destruct (ends_line p || wrap) eqn:Ew; inv E.
        + split; [|discriminate]. sepnext.
        + apply orb_false_elim in Ew as [Ew _]. split; [|reflexivity].
          repeat split.
          * right. simpl. lia.
          * intros [A|A]; congruence.
          * intros _. right. simpl. lia.
      - inv E. split; [|discriminate]. split; [apply cle_refl|]. congruence. }
    clear E. destruct Hsep as [Hsep Hrow].
    bk H. destruct x0 as [l1 c1]. bk H. destruct x0 as [[[l2 c2] colc2] rows2].
    bk H. destruct x0 as [[[[ls' c'] v''] x''] rows'']. inv H.
    match type of Hx0 with (if ?c then _ else _) = _ => destruct c eqn:Enw end.
    + bk Hx0. destruct x0 as [l3 c3]. inv Hx0. apply Hg in Hx2 as (Hp & Hl).
      eapply chain_cons; [|exact Hl|eapply IH; [|exact Hx1]; discriminate].
      rwp.
      apply andb_prop in Enw as [Enw _]. apply andb_prop in Enw as [Enw _].
      apply negb_true_iff in Enw. specialize (Hrow Enw).
      repeat split.
      * left. simpl. lia.
      * destruct pv; [split; intros; try left; simpl; lia|]. congruence.
    + inv Hx0. apply Hg in Hx as (Hp & Hl).
      eapply chain_cons; [rwp; exact Hsep|exact Hl|eapply IH; [|exact Hx1]; discriminate].
Qed.

Lemma arg_children_ok e lw path pass term wrap k cs :
  spaced_k k = true -> is_scalar_k k = false -> is_block_k k = false ->
  Forall (good e) cs -> forall pv colc cur v x ls o v' x',
  row colc = row cur -> (pv = None -> colc = cur) ->
  arg_children lw path pass term wrap cs pv colc cur v x = Ok (ls, o, v', x') ->
  chain_ok e k pv cur cs v x (ls, o, v', x').
Proof.
  intros Hk1 Hk2 Hk3.
  induction 1 as [|ch cs Hg _ IH]; intros pv colc cur v x ls o v' x' Hrc Hpv H;
    cbn [arg_children] in H.
  - inv H. apply chain_nil.
  - destruct (match pv with
        | None => (colc, cur, true)
        | Some p => if ends_line p || wrap
            then let c := Cur (row colc + 1) (colm colc) in (c, c, true)
            else (colc, shift cur 1, false)
        end) as [[colc1 cur1] first] eqn:E.
    assert (Hsep : sep k pv cur cur1 /\ (first = false -> row colc1 = row cur)).
    { destruct pv as [p|].
      - destruct (ends_line p || wrap) eqn:Ew; inv E.
        + split; [|discriminate]. sepnext.
        + apply orb_false_elim in Ew as [Ew _]. split; [|auto].
          repeat split.
          * right. simpl. lia.
          * intros [A|A]; congruence.
          * intros _. right. simpl. lia.
      - inv E. split; [|discriminate]. split; [apply cle_refl|]. congruence. }
    clear E. destruct Hsep as [Hsep Hrow].
    bk H. destruct x0 as [l1 c1]. bk H. destruct x0 as [l2 c2].
    bk H. destruct x0 as [[[ls' c'] v''] x'']. inv H.
    match type of Hx0 with (if ?c then _ else _) = _ => destruct c eqn:Enw end.
    + apply Hg in Hx0 as (Hp & Hl).
      eapply chain_cons; [|exact Hl|eapply IH; [| |exact Hx1]; [reflexivity|discriminate]].
      rwp.
      apply andb_prop in Enw as [Enw _]. apply andb_prop in Enw as [Enw _].
      apply negb_true_iff in Enw. specialize (Hrow Enw).
      repeat split.
      * left. simpl. lia.
      * destruct pv; [split; intros; try left; simpl; lia|]. congruence.
    + inv Hx0. apply Hg in Hx as (Hp & Hl).
      eapply chain_cons; [rwp; exact Hsep|exact Hl|eapply IH; [| |exact Hx1]; [reflexivity|discriminate]].
Qed.

Lemma pgroup_children_ok e lw path pass term wrap cs :
  Forall (good e) cs -> forall pv colc cur v x ls o v' x',
  row colc = row cur -> (pv = None -> colc = cur) ->
  pgroup_children lw path pass term wrap cs pv colc cur v x = Ok (ls, o, v', x') ->
  chain_ok e KParenGroup pv cur cs v x (ls, o, v', x').
Proof.
  induction 1 as [|ch cs Hg _ IH]; intros pv colc cur v x ls o v' x' Hrc Hpv H;
    cbn [pgroup_children] in H.
  - inv H. apply chain_nil.
  - set (cur1 := match pv with
        | None => cur
        | Some p => if is_lparen_k (bkind p) then cur
            else if ends_line p || wrap then Cur (row cur + 1) (colm colc)
            else if is_rparen_k (ckind ch) then cur else shift cur 1
        end) in *.
    assert (Hsep : sep KParenGroup pv cur cur1).
    { unfold cur1. destruct pv as [p|].
      - destruct (is_lparen_k (bkind p)) eqn:El.
        + split; [apply cle_refl|]. split; [|discriminate]. intros [A|A]; [|discriminate].
          destruct p as [[] ? ?]; simpl in El; discriminate.
        + destruct (ends_line p || wrap) eqn:Ew.
          * sepnext.
          * apply orb_false_elim in Ew as [Ew _].
            destruct (is_rparen_k (ckind ch)).
            -- split; [apply cle_refl|]. split; [|discriminate]. intros [A|A]; [congruence|discriminate].
            -- split; [right; simpl; lia|]. split; [|discriminate]. intros [A|A]; [congruence|discriminate].
      - split; [apply cle_refl|]. discriminate. }
    clearbody cur1.
    bk H. destruct x0 as [l1 c1]. bk H. destruct x0 as [l2 c2].
    bk H. destruct x0 as [[[ls' c'] v''] x'']. inv H.
    match type of Hx0 with (if ?c then _ else _) = _ => destruct c eqn:Enw end.
    + apply Hg in Hx0 as (Hp & Hl).
      eapply chain_cons; [|exact Hl|eapply IH; [| |exact Hx1]; [reflexivity|discriminate]].
      rwp. repeat split.
      * left. simpl. lia.
      * destruct pv; [split; intros; try left; simpl; lia|discriminate].
    + inv Hx0. apply Hg in Hx as (Hp & Hl).
      eapply chain_cons; [rwp; exact Hsep|exact Hl|eapply IH; [| |exact Hx1]; [reflexivity|discriminate]].
Qed.

(** ** One attempt *)

(** what [reflow_once] returns, before validation *)
Definition att_ok (e : env) (b : box) (cs : list chd) (cur : cursor) (a : attempt) : Prop :=
  let l := Lay (bkind b) (bpcs b) cur 0 false false 0 (a_lines a) nil in
  own_le l (a_ext a) /\ lines_ok e l
  /\ Forall (fun c => lext c <= a_ext a) (a_cs a)
  /\ (a_valid a = true -> Forall (fun c => lvalid c = true) (a_cs a))
  /\ loks e (bkind b) None (own_end l) (if leaf_k (bkind b) then nil else map fst cs) (a_cs a) (a_out a).

Lemma chain_att e b cs cur wrap v1 x1 ls o v x :
  own_end (Lay (bkind b) (bpcs b) cur 0 false false 0 nil nil) = cur ->
  leaf_k (bkind b) = false ->
  (forall z, own_le (Lay (bkind b) (bpcs b) cur 0 false false 0 nil nil) z) ->
  lines_ok e (Lay (bkind b) (bpcs b) cur 0 false false 0 nil nil) ->
  chain_ok e (bkind b) None cur cs true x1 (ls, o, v, x) ->
  (v1 = true -> v = true) ->
  att_ok e b cs cur (Att wrap v1 x nil ls o).
Proof.
  intros Ho Hk Hw Hln (Hc & Hx & Hf & Hv) Hvv. unfold att_ok. cbn [a_ext a_lines a_cs a_valid a_out].
  rewrite Ho, Hk. repeat split; auto. intros E. apply Hv. auto.
Qed.

Lemma one_line_noeol s : one_line s = true -> noeol s.
Proof.
  unfold one_line. rewrite negb_true_iff. intros H. split; intros Hin;
    assert (existsb (fun c => N.eqb c cNL || N.eqb c cCR) s = true) as A
      by (apply existsb_exists; eexists; split; [exact Hin|]; reflexivity); congruence.
Qed.
Lemma noeol_split s : noeol s -> split_on cNL s = [s].
Proof.
  intros [H _]. induction s as [|c s IH]; simpl; auto.
  rewrite IH by (intros A; apply H; now right).
  destruct (N.eqb c cNL) eqn:E; auto. apply N.eqb_eq in E. exfalso. apply H. now left.
Qed.
Lemma normalize_one_line s : one_line s = true -> normalize s = s.
Proof.
  intros H. apply one_line_noeol in H. rewrite normalize_spec. unfold norm_spec.
  pose proof (ulines_unlines nil s (Forall_nil _) H) as E. unfold unlines in E. simpl in E.
  rewrite E. reflexivity.
Qed.
Lemma flow_text_one c s : one_line s = true ->
  flow_text c s = (shift c (zlen s), colm c + zlen s).
Proof.
  intros H. unfold flow_text. rewrite (normalize_one_line _ H), noeol_split by (now apply one_line_noeol).
  reflexivity.
Qed.

Lemma scalar_ok e b cs path cur pass wrap a :
  is_scalar_k (bkind b) = true -> Forall (good e) cs ->
  reflow_scalar (bpcs b) cs path cur pass wrap = Ok a -> att_ok e b cs cur a.
Proof.
  intros Hk Hg H. unfold reflow_scalar in H.
  destruct b as [k p bs]. cbn [bkind bpcs] in *.
  destruct p as [|[t|] p]; try discriminate.
  destruct (flow_text cur (spelling t)) as [c1 e1] eqn:Ef.
  assert (Ho : own_end (Lay k (T t :: p) cur 0 false false 0 nil nil) = c1).
  { unfold own_end. cbn. destruct k; try discriminate; now rewrite Ef. }
  assert (Hw : forall z, e1 <= z -> own_le (Lay k (T t :: p) cur 0 false false 0 nil nil) z).
  { intros z Hz. unfold own_le. cbn. destruct k; try discriminate; now rewrite Ef. }
  assert (Hln : lines_ok e (Lay k (T t :: p) cur 0 false false 0 nil nil)).
  { unfold lines_ok. cbn. destruct k; try discriminate; exact I. }
  assert (Hleaf : leaf_k k = false) by (destruct k; try discriminate; reflexivity).
  destruct cs as [|ch [|]]; try discriminate.
  - inv H. unfold att_ok. cbn [a_ext a_lines a_cs a_valid a_out bkind bpcs]. rewrite ?Hleaf; try match goal with H : own_end _ = _ |- _ => rewrite H end.
    split; [apply Hw; lia|]. split; [exact Hln|]. split; [constructor|]. split; [intros; constructor|].
    constructor.
  - destruct (negb _); [discriminate|]. bk H. destruct x as [l c2]. inv H.
    inv Hg. apply H1 in Hx as (Hp & Hl). unfold att_ok.
    cbn [a_ext a_lines a_cs a_valid a_out bkind bpcs]. rewrite ?Hleaf; try match goal with H : own_end _ = _ |- _ => rewrite H end.
    split; [apply Hw; lia|]. split; [exact Hln|]. split; [constructor; [lia|constructor]|].
    split; [intros; constructor; auto|].
    econstructor; [|exact Hl|constructor]. rwp. split.
    + right. simpl. lia.
    + intros _. right. simpl. lia.
Qed.

Lemma flow_lines_fst_ext c ls : forall x y, fst (flow_lines c x ls) = fst (flow_lines c y ls).
Proof. revert c. induction ls as [|l ls IH]; intros; cbn [flow_lines]; auto. Qed.

Lemma max_len_ge ls s : In s ls -> zlen s <= max_len ls.
Proof. induction ls as [|a ls IH]; simpl; intros []; subst; try lia. specialize (IH H). lia. Qed.

Lemma comment_ok e b cs cur wrap a x :
  bkind b = KComment x ->
  reflow_comment e x (bpcs b) cur wrap = Ok a -> att_ok e b cs cur a.
Proof.
  intros Hk H. unfold reflow_comment in H. unfold att_ok. rewrite Hk.
  unfold own_le, lines_ok, own_end. cbn [lkind lpcs lpos llines leaf_k].
  destruct (is_bracket (bpcs b)) eqn:Eb.
  - destruct (flow_text cur (first_spelling (bpcs b))) as [c z] eqn:Ef. inv H.
    cbn [a_ext a_lines a_cs a_valid a_out fst snd].
    split; [lia|]. split; [exact I|]. split; [constructor|]. split; [intros; constructor|]. constructor.
  - bk H. destruct x0 as [|s ls]; [discriminate|]. inv H.
    cbn [a_ext a_lines a_cs a_valid a_out fst snd].
    split. { apply Forall_forall. intros z Hz. apply max_len_ge in Hz. change (colm cur + zlen z <= colm cur + max_len (s :: ls)). lia. }
    split. { split; [exact Hx|discriminate]. }
    split; [constructor|]. split; [intros; constructor|]. constructor.
Qed.

Lemma loks_one e k pv c b l o :
  sep k pv c (lpos l) -> lok e b l o -> loks e k pv c [b] [l] o.
Proof. intros. econstructor; eauto. constructor. Qed.

Lemma kwarg_ok e b cs path term cur pass wrap a :
  bkind b = KKwargGroup -> Forall (good e) cs ->
  (match cs with ch :: _ => ends_line (fst ch) = false | nil => True end) ->
  reflow_kwarg e cs path term cur pass wrap = Ok a -> att_ok e b cs cur a.
Proof.
  intros Hk Hg Hnt H. unfold reflow_kwarg in H. destruct cs as [|kw cs1]; [discriminate|].
  destruct (zlen (kw :: cs1) >? 2) eqn:E2; [discriminate|].
  destruct (negb (is_keyword_k (ckind kw))) eqn:Ek; [discriminate|].
  match type of H with context [if ?c then false else wrap] => set (wr := if c then false else wrap) in H; clearbody wr end.
  bk H. destruct x as [lk c1]. inv Hg. apply H2 in Hx as (Hp & Hl).
  unfold att_ok. rewrite Hk. unfold own_le, lines_ok, own_end. cbn [lkind lpcs lpos llines leaf_k].
  destruct cs1 as [|ch cs2].
  - inv H. cbn [a_ext a_lines a_cs a_valid a_out].
    split; [exact I|]. split; [exact I|]. split; [constructor; [lia|constructor]|].
    split; [intros; constructor; auto|].
    apply loks_one; auto. split; [apply cle_refl|discriminate].
  - destruct cs2; [|rewrite !zlen_cons in E2; pose proof (zlen_nonneg cs2); lia].
    bk H. destruct x as [l c2]. inv H. inv H3. apply H1 in Hx as (Hp' & Hl').
    cbn [a_ext a_lines a_cs a_valid a_out].
    split; [exact I|]. split; [exact I|]. split; [constructor; [lia|constructor; [lia|constructor]]|].
    split; [intros E; apply andb_prop in E as [E1' E2']; constructor; auto|].
    econstructor; [|exact Hl|].
    { split; [apply cle_refl|discriminate]. }
    apply loks_one; auto. rewrite Hp'. destruct wr.
    + sepnext.
    + split; [right; simpl; lia|]. split; [|intros; right; simpl; lia].
      rewrite Hnt. intros [A|A]; discriminate.
Qed.

Lemma atstmt_ok e b cs path cur pass wrap a :
  bkind b = KAtStmt -> Forall (good e) cs ->
  (match cs with ch :: _ => ends_line (fst ch) = false | nil => True end) ->
  reflow_atstmt e cs path cur pass wrap = Ok a -> att_ok e b cs cur a.
Proof.
  intros Hk Hg Hnt H. unfold reflow_atstmt in H. destruct cs as [|aw cs1]; [discriminate|].
  destruct (negb (is_atword_k (ckind aw))) eqn:Ek; [discriminate|].
  bk H. destruct x as [la c1]. inv Hg. apply H2 in Hx as (Hp & Hl).
  unfold att_ok. rewrite Hk. unfold own_le, lines_ok, own_end. cbn [lkind lpcs lpos llines leaf_k].
  assert (Hs0 : sep KAtStmt None (lpos la) (lpos la)) by (split; [apply cle_refl|discriminate]).
  destruct cs1 as [|cm [|]]; try discriminate.
  - inv H. cbn [a_ext a_lines a_cs a_valid a_out].
    split; [exact I|]. split; [exact I|]. split; [constructor; [lia|constructor]|].
    split; [intros; constructor; auto|]. apply loks_one; auto.
  - destruct (negb (is_comment_k (ckind cm))); [discriminate|].
    bk H. destruct x as [lc c2]. bk H. destruct x as [lc' c3]. inv H. inv H3.
    cbn [a_ext a_lines a_cs a_valid a_out].
    assert (good e cm) as Hcm by auto.
    assert (exists cc, (cc = shift c1 1 \/ cc = Cur (row (shift c1 1) + 1) (colm (lpos la)))
              /\ lpos lc' = cc /\ lok e (fst cm) lc' c3) as (cc & Hcc & Hpc & Hlc).
    { destruct (lext lc >? _); [|inv Hx0]; [apply Hcm in Hx0 as (P1 & P2)|apply Hcm in Hx as (P1 & P2)];
        eauto 6. }
    split; [exact I|]. split; [exact I|].
    split; [constructor; [lia|constructor; [lia|constructor]]|].
    split; [intros E; apply andb_prop in E as [E1 E2]; constructor; auto|].
    econstructor; [exact Hs0|exact Hl|]. apply loks_one; auto. rewrite Hpc.
    destruct Hcc as [-> | ->].
    + split; [right; simpl; lia|]. split; [|intros; right; simpl; lia].
      rewrite Hnt. intros [A|A]; discriminate.
    + sepnext.
Qed.

(** the closing parenthesis and trailing comment of a statement *)
Lemma stmt_close_ok e path pass start rp cs4 dangle initial dcur ls o v x :
  good e rp -> Forall (good e) cs4 -> ends_line (fst rp) = false ->
  row initial <= row dcur -> (dangle = true -> initial = dcur) ->
  (forall path term cur pass l o, snd rp path term cur pass = Ok (l, o) -> o = shift cur 1) ->
  stmt_close (cfg e) path pass start rp cs4 dangle initial dcur = Ok (ls, o, v, x) ->
  exists cr, (cr = initial \/ (dangle = false /\ cr = dcur)) /\
  (exists l0, hd_error ls = Some l0 /\ lpos l0 = cr) /\
  Forall (fun l => lext l <= x) ls /\
  (v = true -> Forall (fun l => lvalid l = true) ls) /\
  (forall k pv c, (k = KStatement None \/ exists s, k = KStatement (Some s)) ->
     sep k pv c cr -> loks e k pv c (fst rp :: map fst cs4) ls o).
Proof.
  intros Hrp Hcs Hnt Hrow Hd Hout H. unfold stmt_close in H.
  bk H. destruct x0 as [lr c4]. pose proof (Hout _ _ _ _ _ _ Hx) as Hc4.
  pose proof Hx as Hx'. apply Hrp in Hx' as (Hpr & Hlr).
  destruct cs4 as [|cm [|]]; try discriminate.
  - inv H. exists (lpos lr). split; [now left|].
    split; [eexists; split; reflexivity|].
    split; [constructor; [lia|constructor]|]. split; [intros; constructor; auto|].
    intros k pv c _ Hs. apply loks_one; auto.
  - destruct (negb (is_comment_k (ckind cm))); [discriminate|].
    bk H. destruct x0 as [lc c5]. bk H. destruct x0 as [[[[lr2 lc2] c6] save2] v2].
    bk H. destruct x0 as [[lr3 lc3] c7]. inv H.
    assert (good e cm) as Hcm by (inv Hcs; auto).
    (* the middle stage *)
    assert (exists cr2, (cr2 = lpos lr \/ (dangle = false /\ cr2 = dcur))
      /\ lpos lr2 = cr2 /\ lok e (fst rp) lr2 (shift cr2 1)
      /\ (lpos lc2 = save2) /\ cle (shift cr2 1) save2 /\ row save2 = row cr2 /\ lok e (fst cm) lc2 c6
      /\ (v2 = true -> lvalid lr = true /\ lvalid lr2 = true)) as (cr2 & Hcr2 & Hp2 & Hl2 & Hpc2 & Hle2 & Hrow2 & Hlc2 & Hv2).
    { destruct (negb dangle && (lext lc >? f_linewidth (cfg e))) eqn:Ed.
      - bk Hx1. destruct x as [lr' c']. bk Hx1. destruct x as [lc' c'']. inv Hx1.
        pose proof (Hout _ _ _ _ _ _ Hx3) as Hc'. apply Hrp in Hx3 as (P1 & P2).
        apply Hcm in Hx4 as (P3 & P4). rewrite Hc' in *.
        apply andb_prop in Ed as [Ed _]. apply negb_true_iff in Ed.
        exists dcur. split; [right; auto|]. split; [exact P1|]. split; [exact P2|].
        split; [exact P3|]. split; [apply cle_refl|]. split; [reflexivity|]. split; [exact P4|].
        intros E. apply andb_prop in E as [? ?]. auto.
      - inv Hx1. apply Hcm in Hx0 as (P3 & P4). exists (lpos lr2).
        split; [left; reflexivity|]. split; [reflexivity|]. split; [exact Hlr|].
        split; [exact P3|]. split; [right; simpl; lia|]. split; [reflexivity|].
        split; [exact P4|]. auto. }
    (* the last stage *)
    destruct (lext lc2 >? f_linewidth (cfg e)) eqn:El.
    + bk Hx2. destruct x as [lr' cr']. bk Hx2. destruct x as [lc' c']. inv Hx2.
      pose proof Hx3 as Hsame. rewrite Hx in Hsame. inv Hsame.
      apply Hcm in Hx4 as (P3 & P4).
      exists (lpos lr3). split; [now left|]. split; [eexists; split; reflexivity|].
      split; [constructor; [lia|constructor; [lia|constructor]]|].
      split; [intros E; apply andb_prop in E as [E1 E2]; apply Hv2 in E1 as [E1 _]; constructor; auto|].
      intros k pv c Hk Hs. econstructor; [exact Hs|exact Hlr|]. apply loks_one; auto. rewrite P3.
      assert (row (lpos lr3) <= row (lpos lc2)) as Hr.
      { rewrite Hrow2. destruct Hcr2 as [-> | [_ ->]]; lia. }
      assert (spaced_k k = false) as Hsp by (destruct Hk as [-> | [? ->]]; reflexivity).
      split; [left; simpl; lia|]. split; [intros; simpl; lia|]. congruence.
    + inv Hx2. exists (lpos lr3). split.
      { destruct Hcr2 as [A|A]; [left|right]; congruence. }
      split; [eexists; split; reflexivity|].
      split; [constructor; [lia|constructor; [lia|constructor]]|].
      split; [intros E; apply andb_prop in E as [E1 E2]; apply Hv2 in E1 as [_ E1]; constructor; auto|].
      intros k pv c Hk Hs. econstructor; [exact Hs|exact Hl2|]. apply loks_one; auto.
      assert (spaced_k k = false /\ is_block_k k = false) as [Hsp Hbl]
        by (destruct Hk as [-> | [? ->]]; auto).
      split; [exact Hle2|]. split; [|congruence]. rewrite Hnt, Hbl. intros [A|A]; discriminate.
Qed.

Lemma lok_rparen_out e k p l o : is_lparen_k k || is_rparen_k k = true ->
  forall cs, lok e (B k p cs) l o -> o = shift (lpos l) 1.
Proof.
  intros Hk cs H. inversion H; subst.
  destruct k; simpl in Hk; try discriminate;
    match goal with H : loks _ _ _ _ _ _ _ |- _ => inversion H; subst end; reflexivity.
Qed.
Lemma good_paren_out e ch : good e ch -> is_lparen_k (ckind ch) || is_rparen_k (ckind ch) = true ->
  forall path term cur pass l o, snd ch path term cur pass = Ok (l, o) -> o = shift cur 1.
Proof.
  intros Hg Hk path term cur pass l o H. apply Hg in H as (Hp & Hl).
  destruct ch as [[k p cs] f]. subst cur. eapply lok_rparen_out; eauto.
Qed.
Lemma lok_name_out e k p l o : is_scalar_k k = true -> one_line (first_spelling p) = true ->
  lok e (B k p nil) l o -> o = shift (lpos l) (zlen (first_spelling p)).
Proof.
  intros Hk H1 H. inversion H; subst.
  destruct k; simpl in Hk; try discriminate;
    match goal with H : loks _ _ _ _ _ _ _ |- _ => inversion H; subst end;
    unfold own_end; cbn [lkind lpcs lpos]; rewrite flow_text_one by auto; reflexivity.
Qed.

Lemma statement_ok e b cs path cur pass wrap a s :
  bkind b = KStatement s -> Forall (good e) cs ->
  match cs with
  | ch :: _ => is_scalar_k (ckind ch) = true /\ one_line (first_spelling (bpcs (fst ch))) = true
               /\ bcs (fst ch) = nil
  | nil => True
  end ->
  reflow_statement e cs path cur pass wrap = Ok a -> att_ok e b cs cur a.
Proof.
  intros Hk Hg Hfn H. unfold reflow_statement in H.
  destruct cs as [|fn cs1]; [discriminate|]. destruct Hfn as (Hf1 & Hf2 & Hf3).
  destruct (negb (is_funname_k (ckind fn))); [discriminate|].
  bk H. destruct x as [lf c0]. inversion Hg as [|? ? Gfn Hg1]; subst.
  pose proof Hx as Hx'. apply Gfn in Hx' as (Pf & Lf). clear Hx.
  assert (Hc0 : c0 = shift cur (zlen (first_spelling (bpcs (fst fn))))).
  { destruct fn as [[k p bs] f]. cbn [fst bkind bpcs bcs ckind] in *. subst bs.
    rewrite <- Pf. eapply lok_name_out; eauto. }
  set (name := lower (first_spelling (bpcs (fst fn)))) in *.
  set (c1 := if need_paren_space (cfg e) name then shift c0 1 else c0) in *.
  match type of H with context [if ?c then false else wrap] =>
    set (wr := if c then false else wrap) in H; clearbody wr end.
  assert (Hc1 : cle c0 c1 /\ row c1 = row cur).
  { subst c0. unfold c1. destruct (need_paren_space (cfg e) name).
    - split; [right; simpl; lia|reflexivity].
    - split; [apply cle_refl|reflexivity]. }
  clearbody c1 name. destruct Hc1 as [Hc1a Hc1b].
  destruct cs1 as [|lp cs2]; [discriminate|].
  destruct (negb (is_lparen_k (ckind lp))) eqn:Elp; [discriminate|]. apply negb_false_iff in Elp.
  bk H. destruct x as [ll c2]. inversion Hg1 as [|? ? Glp Hg2]; subst.
  assert (Hc2 : c2 = shift c1 1) by (eapply good_paren_out; [exact Glp|now rewrite Elp|exact Hx]).
  apply Glp in Hx as (Pl & Ll).
  destruct cs2 as [|ag cs3]; [discriminate|].
  destruct (negb (is_arggroup_k (ckind ag))) eqn:Eag; [discriminate|]. apply negb_false_iff in Eag.
  bk H. destruct x as [la c3]. inversion Hg2 as [|? ? Gag Hg3]; subst.
  apply Gag in Hx as (Pa & La).
  destruct cs3 as [|rp cs4]; [discriminate|].
  destruct (negb (is_rparen_k (ckind rp))) eqn:Erp; [discriminate|]. apply negb_false_iff in Erp.
  inversion Hg3 as [|? ? Grp Hg4]; subst.
  match type of H with (let '(_, _) := ?t in _) = _ => destruct t as [dangle v0] eqn:Ed end.
  bk H. rename x into dcur.
  bk H. destruct x as [[[ls c4] v1] x1]. inv H.
  assert (Hdr : row dcur = row c3 + 1).
  { unfold dangle_cursor in Hx. destruct (seqb _ _); [inv Hx; reflexivity|].
    destruct (seqb _ _); [inv Hx; reflexivity|].
    destruct (seqb _ _); [inv Hx; reflexivity|discriminate]. }
  assert (Hnt : ends_line (fst rp) = false).
  { destruct rp as [[k p bs] f]. cbn in Erp |- *. destruct k; try discriminate. reflexivity. }
  apply stmt_close_ok in Hx0; auto.
  2:{ destruct dangle; lia. }
  2:{ intros ->. reflexivity. }
  2:{ intros; eapply good_paren_out; [exact Grp|rewrite Erp; apply orb_true_r|eassumption]. }
  destruct Hx0 as (cr & Hcr & _ & Hext & Hval & Hchain).
  unfold att_ok. rewrite Hk. unfold own_le, lines_ok, own_end. cbn [lkind lpcs lpos llines leaf_k].
  cbn [a_ext a_lines a_cs a_valid a_out].
  split; [exact I|]. split; [exact I|].
  split.
  { constructor; [lia|]. constructor; [lia|]. constructor; [lia|].
    eapply Forall_impl; [|exact Hext]. simpl. intros. lia. }
  split.
  { intros E. rewrite !andb_true_iff in E. destruct E as [[[[_ E1] E2] E3] E4].
    constructor; auto. }
  assert (Hst : KStatement s = KStatement None \/ exists s', KStatement s = KStatement (Some s'))
    by (destruct s; eauto).
  assert (Hfne : ends_line (fst fn) = false).
  { destruct fn as [[k p bs] f]. cbn [fst bkind bpcs bcs ckind] in *. subst bs.
    destruct k; simpl in Hf1; try discriminate; reflexivity. }
  assert (Hlpe : ends_line (fst lp) = false).
  { destruct lp as [[k p bs] f]. cbn in Elp |- *. destruct k; try discriminate. reflexivity. }
  econstructor; [|exact Lf|].
  { split; [apply cle_refl|discriminate]. }
  econstructor; [|exact Ll|].
  { rewrite ?Pl. split; [exact Hc1a|]. split; [|discriminate]. rewrite Hfne. intros [A|A]; discriminate. }
  econstructor; [|exact La|].
  { rewrite Pa. split.
    - destruct wr; [left; simpl; lia|apply cle_refl].
    - split; [|discriminate]. rewrite Hlpe. intros [A|A]; discriminate. }
  apply Hchain; [exact Hst|].
  assert (Hcr' : cr = c3 /\ has_terminal (fst ag) = false \/ row cr = row c3 + 1).
  { destruct dangle.
    - right. destruct Hcr as [-> | [A _]]; [exact Hdr|discriminate].
    - destruct Hcr as [-> | [_ ->]]; [|right; exact Hdr].
      left. split; [reflexivity|].
      destruct (f_dangle (cfg e) && (row c3 >? _)); [discriminate|].
      destruct (colm c3 >=? _); [discriminate|]. congruence. }
  assert (Hlc : is_line_comment (fst ag) = false).
  { destruct ag as [[k p bs] f]. cbn in Eag |- *. destruct k; try discriminate. reflexivity. }
  split.
  - destruct Hcr' as [[-> _] | E]; [apply cle_refl|left; lia].
  - split; [|discriminate]. unfold ends_line. rewrite Hlc.
    destruct Hcr' as [[-> E] | E]; [rewrite E|]; intros [A|A]; try discriminate; lia.
Qed.

Lemma once_kinds e b cs path term cur pass wrap a :
  map fst cs = bcs b ->
  reflow_once e b cs path term cur pass wrap = Ok a -> kinds_ok (bkind b) (bcs b) = true.
Proof.
  intros Hcs H. unfold reflow_once in H. rewrite <- Hcs. destruct (bkind b); try reflexivity.
  - unfold reflow_statement in H.
    destruct cs as [|fn [|lp [|ag [|rp tl]]]]; cbn [map kinds_ok]; try discriminate H.
    + destruct (negb _); [discriminate|]. bk H. destruct x. discriminate.
    + destruct (negb _); [discriminate|]. bk H. destruct x. destruct (negb _); [discriminate|].
      bk H. destruct x. discriminate.
    + destruct (negb _); [discriminate|]. bk H. destruct x. destruct (negb _); [discriminate|].
      bk H. destruct x. destruct (negb _); [discriminate|]. bk H. destruct x. discriminate.
    + unfold ckind in H.
      destruct (is_funname_k (bkind (fst fn))); [|discriminate H]. bk H. destruct x.
      destruct (is_lparen_k (bkind (fst lp))); [|discriminate H]. bk H. destruct x.
      destruct (is_arggroup_k (bkind (fst ag))); [|discriminate H]. bk H. destruct x.
      destruct (is_rparen_k (bkind (fst rp))); [|discriminate H].
      match type of H with context [let '(_, _) := ?t in _] => destruct t as [dangle v0] end.
      bk H. bk H. unfold stmt_close in Hx3. bk Hx3. destruct x1.
      destruct tl as [|cm [|]]; [reflexivity| |discriminate]. unfold ckind in Hx3.
      cbn [map]. destruct (is_comment_k (bkind (fst cm))); [reflexivity|discriminate Hx3].
  - unfold reflow_atstmt in H. destruct cs as [|aw tl]; cbn [map kinds_ok]; try discriminate H.
    unfold ckind in H.
    destruct (is_atword_k (bkind (fst aw))); [|discriminate H]. bk H. destruct x.
    destruct tl as [|cm [|]]; [reflexivity| |discriminate].
    cbn [map]. destruct (is_comment_k (bkind (fst cm))); [reflexivity|discriminate H].
Qed.

Lemma try_pass_ok e b cs path term cur pass wrap l o :
  0 <= f_tab (cfg e) ->
  wfb b = true -> map fst cs = bcs b -> Forall (good e) cs ->
  try_pass e b cs path term cur pass wrap = Ok (l, o) -> lpos l = cur /\ lok e b l o.
Proof.
  intros Ht Hwf Hcs Hg H. unfold try_pass in H. bk H. inv H. split; [reflexivity|].
  rename x into a. pose proof (once_kinds _ _ _ _ _ _ _ _ _ Hcs Hx) as Hkk.
  assert (A : att_ok e b cs cur a).
  { unfold reflow_once in Hx. destruct (bkind b) eqn:Ek.
    - (* body *)
      unfold reflow_body in Hx. bk Hx. destruct x as [[[ls c] v] x]. inv Hx.
      eapply chain_att; [rewrite Ek; reflexivity|rewrite Ek; reflexivity|intros; rewrite Ek; exact I|rewrite Ek; exact I| |exact (fun E => E)].
      rewrite Ek. eapply body_children_ok; [exact Hg| |exact Hx0]. split; [apply cle_refl|discriminate].
    - inv Hx. unfold att_ok. rewrite Ek. cbn. repeat split; auto; constructor.
    - eapply comment_ok; eauto.
    - eapply statement_ok; eauto. destruct cs as [|ch cs]; auto.
      destruct b as [k p bs]. cbn [bkind bcs] in *. subst k. subst bs. cbn [map] in Hwf.
      cbn [wfb] in Hwf. destruct ch as [[k' p' bs'] f]. cbn [fst] in *.
      destruct k'; simpl in Hwf; rewrite ?andb_false_r in Hwf; try discriminate.
      rewrite !andb_true_iff in Hwf. destruct Hwf as [[[_ [[_ W] W2]] _] _].
      cbn. split; [reflexivity|]. split; [exact W|]. destruct bs'; [reflexivity|discriminate].
    - (* flow *)
      unfold reflow_flow in Hx.
      assert (exists ls c v x, flow_children (f_tab (cfg e)) path pass cs true cur cur true 0 = Ok (ls, c, v, x)
                /\ a = Att wrap v x nil ls c) as (ls & c & v & x & Hf & ->).
      { destruct cs as [|c1 [|c2 cs']].
        - bk Hx. destruct x as [[[ls c] v] x]. inv Hx. eauto 10.
        - bk Hx. discriminate.
        - bk Hx. destruct x as [[[ls c] v] x]. inv Hx. eauto 10. }
      eapply chain_att; [rewrite Ek; reflexivity|rewrite Ek; reflexivity|intros; rewrite Ek; exact I|rewrite Ek; exact I| |exact (fun E => E)].
      rewrite Ek. eapply flow_children_ok; [exact Ht|exact Hg| |exact Hf]. split; [apply cle_refl|discriminate].
    - eapply scalar_ok; eauto. now rewrite Ek.
    - (* arg group *)
      unfold reflow_arg in Hx. bk Hx. bk Hx. destruct x0 as [[[ls c] v] x0]. inv Hx.
      eapply chain_att; [rewrite Ek; reflexivity|rewrite Ek; reflexivity|intros; rewrite Ek; exact I|rewrite Ek; exact I| |].
      + rewrite Ek. eapply arg_children_ok; try reflexivity; [exact Hg|exact Hx1].
      + destruct (_ >? _); auto. intros E. now apply andb_prop in E.
    - eapply kwarg_ok; eauto. destruct cs as [|ch cs]; auto.
      destruct b as [k p bs]. cbn [bkind bcs] in *. subst k. subst bs. cbn [map] in Hwf.
      cbn [wfb] in Hwf. destruct ch as [[k' p' bs'] f]. cbn [fst] in *.
      destruct k'; try (simpl in Hwf; rewrite ?andb_false_r in Hwf; discriminate).
      rewrite andb_true_iff in Hwf. destruct Hwf as [W _]. simpl in W. rewrite !andb_true_iff in W.
      destruct W as [[_ W2] _]. destruct bs'; [reflexivity|].
      destruct W2 as [_ W2]. discriminate.
    - (* positional group *)
      unfold reflow_parg in Hx. bk Hx. destruct x as [[[[ls c] v] x] rows]. inv Hx.
      eapply chain_att; [rewrite Ek; reflexivity|rewrite Ek; reflexivity|intros; rewrite Ek; exact I|rewrite Ek; exact I| |].
      + rewrite Ek. eapply parg_children_ok; try reflexivity; [exact Hg|exact Hx0].
      + destruct (smem _ _).
        * intros E. now apply andb_prop in E.
        * destruct (_ >? _); auto. intros E. now apply andb_prop in E.
    - (* paren group *)
      unfold reflow_pgroup in Hx. destruct (negb _); [discriminate|].
      bk Hx. destruct x as [[[ls c] v] x]. inv Hx.
      eapply chain_att; [rewrite Ek; reflexivity|rewrite Ek; reflexivity|intros; rewrite Ek; exact I|rewrite Ek; exact I| |exact (fun E => E)].
      rewrite Ek. eapply pgroup_children_ok; try reflexivity; [exact Hg|exact Hx0].
    - eapply scalar_ok; eauto. now rewrite Ek.
    - eapply scalar_ok; eauto. now rewrite Ek.
    - eapply scalar_ok; eauto. now rewrite Ek.
    - unfold reflow_onoff in Hx. destruct (bpcs b) as [|[t|] p] eqn:Ep; try discriminate.
      destruct (onoff_text t) eqn:Et; [|discriminate]. inv Hx.
      unfold att_ok. rewrite Ek, Ep. unfold own_le, own_end, lines_ok. cbn. rewrite Et.
      repeat split; auto; try constructor. lia.
    - eapply atstmt_ok; eauto. destruct cs as [|ch cs]; auto.
      destruct b as [k p bs]. cbn [bkind bcs] in *. subst k. subst bs. cbn [map] in Hwf.
      cbn [wfb] in Hwf. destruct ch as [[k' p' bs'] f]. cbn [fst] in *.
      destruct k'; try (simpl in Hwf; rewrite ?andb_false_r in Hwf; discriminate).
      rewrite andb_true_iff in Hwf. destruct Hwf as [W _]. simpl in W. rewrite !andb_true_iff in W.
      destruct W as [[_ W2] _]. destruct bs'; [reflexivity|].
      destruct W2 as [_ W2]. discriminate.
    - eapply scalar_ok; eauto. now rewrite Ek.
    - inv Hx. unfold att_ok. rewrite Ek. cbn. repeat split; auto; try constructor. lia.
    - inv Hx. unfold att_ok. rewrite Ek. cbn. repeat split; auto; try constructor. lia. }
  destruct A as (A1 & A2 & A3 & A4 & A5). destruct b as [k p bs]. cbn [bkind bpcs bcs] in *. subst bs.
  constructor; auto.
  intros E. apply andb_prop in E as [E1 E2]. split; [|auto].
  unfold validate in E2. destruct (a_ext a >? f_linewidth (cfg e)) eqn:El; [discriminate|]. lia.
Qed.

Definition children_of (e : env) : list box -> nat -> list chd :=
  fix go (l : list box) (n : nat) : list chd :=
    match l with
    | nil => nil
    | c :: l' => (c, reflow e c n) :: go l' (if is_parg_k (bkind c) then S n else n)
    end.
Lemma children_of_fst e l : forall n, map fst (children_of e l n) = l.
Proof. induction l as [|c l IH]; intros n; simpl; [reflexivity|]. now rewrite IH. Qed.
Lemma reflow_eq e k p cs sib path term cur passno :
  reflow e (B k p cs) sib path term cur passno =
  try_passes (try_pass e (B k p cs) (children_of e cs 0) (push_path path (B k p cs) sib) term cur)
    (pass_limit k passno) (node_passes (cfg e) k) None.
Proof. reflexivity. Qed.

Theorem reflow_lok e b : 0 <= f_tab (cfg e) -> wfb b = true ->
  forall sib path term cur passno l o,
  reflow e b sib path term cur passno = Ok (l, o) -> lpos l = cur /\ lok e b l o.
Proof.
  intros Ht. induction b as [k p cs IH] using box_ind'. intros Hwf sib path term cur passno l o H.
  rewrite reflow_eq in H.
  assert (Hg : forall n, Forall (good e) (children_of e cs n)).
  { assert (Hw : forallb wfb cs = true) by (simpl in Hwf; now apply andb_prop in Hwf).
    clear Hwf H. induction IH as [|c cs Hc _ IHl]; intros n; simpl; [constructor|].
    simpl in Hw. apply andb_prop in Hw as [W1 W2]. constructor; auto.
    intros path' term' cur' pass' l' o' E. eapply Hc; eauto. }
  change (lpos (fst (l, o)) = cur /\ lok e (B k p cs) (fst (l, o)) (snd (l, o))).
  revert H. apply (try_passes_inv (fun y => lpos (fst y) = cur /\ lok e (B k p cs) (fst y) (snd y))).
  - intros p' w [l' o'] E. eapply try_pass_ok;
      [exact Ht|exact Hwf|apply children_of_fst|apply Hg|exact E].
  - intros y E. discriminate.
Qed.
