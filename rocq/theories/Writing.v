(** * Writing: what the writer produces from a laid-out tree *)
From Verif Require Import Base Regex Lex TextOps TextProofs Tree Layout LayoutProofs Pieces LayoutCols
  SortProofs PropSort.
From Coq Require Import Permutation.

(** ** One text *)
Definition wcur (s : wst) : cursor := Cur (crow (w_f s)) (ccol (w_f s)).

Lemma put_lines_cur endl ls : forall f x,
  Cur (crow (put_lines endl f ls)) (ccol (put_lines endl f ls))
  = fst (flow_lines (Cur (crow f) (ccol f)) x ls).
Proof.
  induction ls as [|l ls IH]; intros f x; cbn [put_lines flow_lines]; [reflexivity|].
  rewrite (IH _ (Z.max x (zlen l))). reflexivity.
Qed.
Lemma write_at_ok endl f r c text : cle (Cur (crow f) (ccol f)) (Cur r c) ->
  exists f', write_at endl f r c text = Ok f'
    /\ Cur (crow f') (ccol f') = fst (text_flow (Cur r c) text).
Proof.
  intros H. unfold write_at.
  assert (cur_le (crow f) (ccol f) r c = true) as ->.
  { unfold cur_le. unfold cle in H. cbn in H. lia. }
  cbn [negb].
  set (f1 := if r - crow f =? 0 then f else _).
  assert (crow f1 = r) by (unfold f1; destruct (r - crow f =? 0) eqn:E; cbn; lia).
  set (f2 := if c - ccol f1 =? 0 then f1 else _).
  assert (crow f2 = r /\ ccol f2 = c) as [A B].
  { unfold f2. destruct (c - ccol f1 =? 0) eqn:E; cbn; lia. }
  unfold text_flow. destruct (split_on cNL text) as [|l ls] eqn:Es; [now apply split_on_nonempty in Es|].
  eexists. split; [reflexivity|]. cbn zeta.
  rewrite (put_lines_cur endl ls _ (colm (shift (Cur r c) (zlen l)))). cbn [crow ccol]. now rewrite A, B.
Qed.
Lemma put_ok c s p text : cle (wcur s) p -> exists s', put c s p text = Ok s'
  /\ wcur s' = fst (text_flow p text) /\ w_off s' = w_off s.
Proof.
  intros H. destruct p as [r cl]. unfold put. cbn [row colm].
  destruct (write_at_ok (f_endl c) (w_f s) r cl text H) as (f' & -> & E). simpl.
  eexists. split; [reflexivity|]. split; [exact E|reflexivity].
Qed.
Lemma put_off c s p text s' : put c s p text = Ok s' -> w_off s' = w_off s.
Proof. unfold put. intros H. bk H. inv H. reflexivity. Qed.

(** ** A list of texts *)
Fixpoint put_all (c : fcfg) (ps : list piece) (s : wst) : res wst :=
  match ps with
  | nil => Ok s
  | p :: ps' => let? s' := put c s (p_at p) (p_text p) in put_all c ps' s'
  end.
Lemma put_all_app c ps qs : forall s,
  put_all c (ps ++ qs) s = let? s' := put_all c ps s in put_all c qs s'.
Proof.
  induction ps as [|p ps IH]; intros s; simpl; [reflexivity|].
  destruct (put c s (p_at p) (p_text p)); simpl; auto.
Qed.
Lemma put_all_off c ps : forall s s', put_all c ps s = Ok s' -> w_off s' = w_off s.
Proof.
  induction ps as [|p ps IH]; simpl; intros s s' H; [now inv H|]. bk H.
  apply put_off in Hx. rewrite <- Hx. eauto.
Qed.
(** texts placed in order are accepted *)
Lemma put_all_ok closed c ps : forall s k, placed closed (wcur s, k) ps ->
  exists s', put_all c ps s = Ok s' /\ wcur s' = fst (after (wcur s, k) ps).
Proof.
  induction ps as [|p ps IH]; intros s k H; [eexists; split; reflexivity|].
  destruct H as [(F & _) H]. cbn [fst] in F. cbn [put_all after].
  destruct (put_ok c s (p_at p) (p_text p) F) as (s1 & -> & E1 & _). simpl.
  unfold step in *. change (fst (text_flow (p_at p) (p_text p))) with (p_end p) in E1.
  rewrite <- E1 in H |- *. apply (IH s1 (Some (p_kind p)) H).
Qed.

(** ** The writer writes the pieces *)
Definition off_tok (p : list pnode) : bool :=
  match first_tok p with Some t => is_tt FORMAT_OFF t | None => false end.
(** no format-off sentinel *)
Fixpoint no_off (b : box) : bool :=
  match b with
  | B k p cs => match k with KOnOff => negb (off_tok p) | _ => true end && forallb no_off cs
  end.

Definition wall (c : fcfg) (infile : str) (k : kind) : list lay -> wst -> res wst :=
  fix go (l : list lay) (s : wst) : res wst :=
    match l with
    | nil => Ok s
    | a :: l' => let? s' := write c infile k a s in go l' s'
    end.
Lemma wall_nil c i k s : wall c i k nil s = Ok s. Proof. reflexivity. Qed.
Lemma wall_cons c i k a l s :
  wall c i k (a :: l) s = let? s' := write c i k a s in wall c i k l s'.
Proof. reflexivity. Qed.
Lemma write_eq c infile parent k pcs p pass w v x lines cs s :
  write c infile parent (Lay k pcs p pass w v x lines cs) s =
  match k with
      | KLParen => put c s p $"("
      | KRParen => put c s p $")"
      | KOnOff => write_onoff c infile pcs p s
      | KWhitespace => Ok s
      | KFunname | KArgument | KKeyword | KFlag | KAtWord =>
          if negb (active s) then Ok s else
          match pcs with
          | T t :: _ =>
              let? text := scalar_text c parent k t in
              let? s' := put c s p text in
              match cs with
              | nil => Ok s'
              | [ch] => if is_comment_k (lkind ch) then wall c infile k cs s' else Err AssertionErr
              | _ :: _ :: _ => Err AssertionErr
              end
          | _ => Err AssertionErr
          end
      | KComment _ =>
          if negb (active s) then Ok s
          else if is_bracket pcs then put c s p (normalize (first_spelling pcs))
          else write_lines c p lines s
      | KStatement _ | KAtStmt | KArgGroup _ | KParenGroup =>
          if negb (active s) then Ok s else wall c infile k cs s
      | KBody | KFlow | KKwargGroup | KPargGroup _ _ _ => wall c infile k cs s
      end.
Proof. reflexivity. Qed.

Lemma write_lines_pieces c ls : forall p s, write_lines c p ls s = put_all c (line_pieces p ls) s.
Proof.
  induction ls as [|l ls IH]; intros p s; simpl; [reflexivity|].
  destruct (put c s p l); simpl; auto.
Qed.
Lemma bindr_ret {A} (x : res A) : bindr x Ok = x. Proof. destruct x; reflexivity. Qed.

Lemma active_off s : active s = true -> w_off s = None.
Proof. unfold active. destruct (w_off s); [discriminate|reflexivity]. Qed.

(** the kinds of the laid-out children of a scalar *)
Lemma lok_kind e b l o : lok e b l o -> lkind l = bkind b /\ lpcs l = bpcs b.
Proof. inversion 1; subst. split; reflexivity. Qed.
Lemma loks_scalar e k c bs ls o : loks e k None c bs ls o -> tail_ok bs = true ->
  ls = nil \/ exists ch, ls = [ch] /\ is_comment_k (lkind ch) = true.
Proof.
  intros H Ht. destruct bs as [|b [|]]; try discriminate.
  - inversion H; subst. now left.
  - inversion H; subst. match goal with H : loks _ _ _ _ nil _ _ |- _ => inversion H; subst end.
    right. eexists. split; [reflexivity|]. simpl in Ht.
    match goal with H : lok _ _ _ _ |- _ => apply lok_kind in H as [-> _] end. exact Ht.
Qed.

Lemma wfb_tail k p cs : is_scalar_k k = true -> wfb (B k p cs) = true -> tail_ok cs = true.
Proof.
  intros Hk H. simpl in H. apply andb_prop in H as [_ H].
  destruct k; try discriminate; rewrite ?andb_true_iff in H; destruct H as [H1 H2]; auto;
    destruct cs; try discriminate; reflexivity.
Qed.

Theorem write_pieces e infile :
  (forall b l o, lok e b l o -> forall parent s,
     wfb b = true -> names_ok (cfg e) parent b = true -> no_off b = true -> active s = true ->
     write (cfg e) infile parent l s = put_all (cfg e) (pieces (cfg e) parent l) s)
  /\ (forall k pv c bs ls o, loks e k pv c bs ls o -> forall s,
     forallb wfb bs = true -> forallb (names_ok (cfg e) k) bs = true -> forallb no_off bs = true ->
     active s = true ->
     wall (cfg e) infile k ls s = put_all (cfg e) (flat_map (pieces (cfg e) k) ls) s).
Proof.
  apply lok_loks_ind.
  - intros k p cs pos pass w v x lines ls o l Hle Hln Hk Hx Hv Hls IH parent s Hw Hn Hno Ha.
    unfold l. rewrite write_eq. cbn [pieces]. rewrite put_all_app.
    assert (Hw' := Hw). simpl in Hw'. apply andb_prop in Hw' as [Hws Hwk].
    assert (Hn' := Hn). simpl in Hn'. apply andb_prop in Hn' as [Hnk Hns].
    assert (Hno' := Hno). simpl in Hno'. apply andb_prop in Hno' as [Hok Hos].
    assert (Hone : forall q, put_all (cfg e) [q] s = put (cfg e) s (p_at q) (p_text q)).
    { intros q. simpl. apply bindr_ret. }
    assert (Hsc : is_scalar_k k = true -> leaf_k k = false ->
      own_pieces (cfg e) parent k p pos lines =
        match p with T t :: _ => match scalar_text (cfg e) parent k t with
                     | Ok s => [Pc pos s (PkWord (is_funname_k k))] | _ => nil end | _ => nil end ->
      (if negb (active s) then Ok s else
          match p with
          | T t :: _ =>
              let? text := scalar_text (cfg e) parent k t in
              let? s' := put (cfg e) s pos text in
              match ls with
              | nil => Ok s'
              | [ch] => if is_comment_k (lkind ch) then wall (cfg e) infile k ls s' else Err AssertionErr
              | _ :: _ :: _ => Err AssertionErr
              end
          | _ => Err AssertionErr
          end) =
      bindr (put_all (cfg e) (own_pieces (cfg e) parent k p pos lines) s)
        (fun s' => put_all (cfg e) (flat_map (pieces (cfg e) k) ls) s')).
    { intros Hsk Hlf Hq. rewrite Ha. cbn [negb]. rewrite Hq. rewrite Hsk in Hnk. rewrite Hlf in Hls, IH.
      destruct p as [|[t|] p']; try discriminate.
      destruct (scalar_piece _ _ _ _ _ Hsk Hnk) as (txt & -> & Hf). cbn [bindr].
      rewrite Hone. cbn [p_at p_text].
      destruct (put (cfg e) s pos txt) as [s1| |] eqn:Ep; cbn [bindr]; try reflexivity.
      assert (active s1 = true) as Ha1 by (unfold active in *; now rewrite (put_off _ _ _ _ _ Ep)).
      destruct (loks_scalar _ _ _ _ _ _ Hls (wfb_tail _ _ _ Hsk Hw)) as [-> | (ch & -> & Hc)]; [reflexivity|].
      rewrite Hc. rewrite IH by auto. reflexivity. }
    assert (Hgr : leaf_k k = false -> own_pieces (cfg e) parent k p pos lines = nil ->
      wall (cfg e) infile k ls s =
      bindr (put_all (cfg e) (own_pieces (cfg e) parent k p pos lines) s)
        (fun s' => put_all (cfg e) (flat_map (pieces (cfg e) k) ls) s')).
    { intros Hlf Hq. rewrite Hq. rewrite Hlf in Hls, IH. simpl. apply IH; auto. }
    destruct k; try (apply Hsc; reflexivity); try (apply Hgr; reflexivity);
      try (rewrite Ha; apply Hgr; reflexivity); cbn [leaf_k] in Hls;
      inversion Hls; subst; cbn [flat_map]; change (put_all (cfg e) nil) with (@Ok wst);
      rewrite ?bindr_ret.
    + reflexivity.
    + rewrite Ha. cbn [negb]. unfold own_pieces. destruct (is_bracket p).
      * rewrite Hone. reflexivity.
      * apply write_lines_pieces.
    + apply andb_prop in Hwk as [Hwk _]. destruct p as [|[t|] [|]]; try discriminate. simpl in Hwk.
      unfold own_pieces, write_onoff. cbn [first_tok]. unfold off_tok in Hok. cbn [first_tok] in Hok.
      unfold onoff_text, is_tt in *.
      destruct (tt t) eqn:Et; try discriminate.
      rewrite (active_off _ Ha). rewrite Hone. reflexivity.
    + unfold own_pieces. rewrite Hone. reflexivity.
    + unfold own_pieces. rewrite Hone. reflexivity.
  - intros. reflexivity.
  - intros k pv c b bs l ls o1 o Hs Hl IHl Hls IHls s Hw Hn Hno Ha.
    simpl in Hw, Hn, Hno. apply andb_prop in Hw as [Hw1 Hw2]. apply andb_prop in Hn as [Hn1 Hn2].
    apply andb_prop in Hno as [Ho1 Ho2].
    rewrite wall_cons. cbn [flat_map]. rewrite put_all_app. rewrite IHl by auto.
    destruct (put_all (cfg e) (pieces (cfg e) k l) s) as [s1| |] eqn:Ep; simpl; auto.
    apply IHls; auto. unfold active in *. now rewrite (put_all_off _ _ _ _ Ep).
Qed.

(** ** With sentinels: the writer's ordering assertion never fires *)
Lemma read_bytes_err s off n err : read_bytes s off n = Err err -> err = UnicodeErr.
Proof.
  unfold read_bytes. destruct (n =? 0); [discriminate|]. destruct (bdrop off s); [|intros H; now inv H].
  destruct (n <? 0); [discriminate|]. destruct (btake n s0); [discriminate|intros H; now inv H].
Qed.
Lemma read_bytes_fuel s off n : read_bytes s off n <> OutOfFuel.
Proof.
  unfold read_bytes. destruct (n =? 0); [discriminate|]. destruct (bdrop off s); [|discriminate].
  destruct (n <? 0); [discriminate|]. destruct (btake n s0); discriminate.
Qed.

Definition safe (r : res wst) (o : cursor) : Prop :=
  match r with
  | Ok s => cle (wcur s) o
  | Err UnicodeErr => True
  | _ => False
  end.

Lemma write_lines_safe c ls : forall p s, ls <> nil -> Forall (fun s => ~ In cNL s) ls ->
  cle (wcur s) p ->
  safe (write_lines c p ls s) (Cur (row p + zlen ls - 1) (colm p + zlen (last ls nil))).
Proof.
  intros p s H1 H2 H3. rewrite write_lines_pieces.
  destruct (line_pieces_ok false ls p (wcur s, None)) as [A B]; auto; try discriminate.
  destruct (put_all_ok false c _ _ _ A) as (s' & -> & E). simpl. rewrite E, B. apply cle_refl.
Qed.

Theorem write_safe e infile : cmt_ok e ->
  (forall b l o, lok e b l o -> forall parent s,
     wfb b = true -> names_ok (cfg e) parent b = true -> cle (wcur s) (lpos l) ->
     safe (write (cfg e) infile parent l s) o)
  /\ (forall k pv c bs ls o, loks e k pv c bs ls o -> forall s,
     forallb wfb bs = true -> forallb (names_ok (cfg e) k) bs = true -> cle (wcur s) c ->
     safe (wall (cfg e) infile k ls s) o).
Proof.
  intros Hc. apply lok_loks_ind.
  - intros k p cs pos pass w v x lines ls o l Hle Hln Hk Hx Hv Hls IH parent s Hw Hn Hcur.
    cbn [lpos l] in Hcur. unfold l. rewrite write_eq.
    assert (Hw' := Hw). simpl in Hw'. apply andb_prop in Hw' as [Hws Hwk].
    assert (Hn' := Hn). simpl in Hn'. apply andb_prop in Hn' as [Hnk Hns].
    assert (Hmono : cle (own_end l) o) by (eapply (proj2 (lok_cle e)); exact Hls).
    assert (Hpos : cle pos (own_end l)) by (apply (own_end_cle e l); exact Hln).
    assert (Hskip : safe (Ok s) o) by (simpl; eauto using cle_trans).
    assert (Hgr : leaf_k k = false -> safe (wall (cfg e) infile k ls s) o).
    { intros Hlf. rewrite Hlf in IH. apply IH; eauto using cle_trans. }
    assert (Hsc : is_scalar_k k = true -> leaf_k k = false ->
      own_end l = fst (flow_text pos (first_spelling p)) ->
      safe (if negb (active s) then Ok s else
          match p with
          | T t :: _ =>
              let? text := scalar_text (cfg e) parent k t in
              let? s' := put (cfg e) s pos text in
              match ls with
              | nil => Ok s'
              | [ch] => if is_comment_k (lkind ch) then wall (cfg e) infile k ls s' else Err AssertionErr
              | _ :: _ :: _ => Err AssertionErr
              end
          | _ => Err AssertionErr
          end) o).
    { intros Hsk Hlf Ho. destruct (active s); [cbn [negb]|exact Hskip].
      rewrite Hsk in Hnk. rewrite Hlf in Hls, IH. destruct p as [|[t|] p']; try discriminate.
      destruct (scalar_piece _ _ _ _ _ Hsk Hnk) as (txt & -> & Hf). cbn [bindr].
      destruct (put_ok (cfg e) s pos txt Hcur) as (s1 & -> & E1 & _). cbn [bindr].
      rewrite Hf in E1. cbn [first_spelling] in Ho.
      assert (cle (wcur s1) (own_end l)) as Hc1 by (rewrite E1, Ho; apply cle_refl).
      destruct (loks_scalar _ _ _ _ _ _ Hls (wfb_tail _ _ _ Hsk Hw)) as [-> | (ch & -> & Hch)].
      - simpl. eauto using cle_trans.
      - rewrite Hch. apply IH; auto. }
    destruct k; try (apply Hsc; reflexivity); try (apply Hgr; reflexivity);
      try (destruct (active s); [apply Hgr; reflexivity|exact Hskip]); cbn [leaf_k] in Hls;
      inversion Hls; subst.
    + exact Hskip.
    + destruct (active s); [cbn [negb]|exact Hskip].
      unfold lines_ok in Hln. cbn in Hln. unfold l, own_end. cbn [lkind lpcs lpos llines].
      destruct (is_bracket p).
      * destruct (put_ok (cfg e) s pos (normalize (first_spelling p)) Hcur) as (s1 & -> & E1 & _).
        simpl. rewrite E1. apply cle_refl.
      * destruct Hln as [Hl Hne]. apply write_lines_safe; auto.
        apply andb_prop in Hwk as [Hwk _]. eapply Hc; eauto.
    + apply andb_prop in Hwk as [Hwk _]. destruct p as [|[t|] [|]]; try discriminate. simpl in Hwk.
      unfold l, own_end, write_onoff. cbn [lkind lpcs lpos first_tok]. unfold onoff_text in *.
      destruct (tt t) eqn:Et; try discriminate.
      * destruct (put_ok (cfg e) (WS (Some (tok_end_offset t)) (w_f s)) pos $"# cmake-format: off" Hcur)
          as (s1 & -> & E1 & _).
        simpl. rewrite E1. rewrite text_flow_one by (apply one_line_noeol; reflexivity). apply cle_refl.
      * destruct (w_off s) as [off|].
        -- destruct (read_bytes infile off (offset (begin t) - off)) as [raw|err|] eqn:Er; cbn [bindr].
           ++ destruct (put_ok (cfg e) (WS None (forge (write_raw (w_f s) raw) (row pos) (colm pos)))
                pos $"# cmake-format: on") as (s1 & -> & E1 & _).
              { unfold wcur, forge. cbn. destruct pos. apply cle_refl. }
              simpl. rewrite E1. rewrite text_flow_one by (apply one_line_noeol; reflexivity). apply cle_refl.
           ++ apply read_bytes_err in Er. subst. exact I.
           ++ now apply read_bytes_fuel in Er.
        -- destruct (put_ok (cfg e) s pos $"# cmake-format: on" Hcur) as (s1 & -> & E1 & _).
           simpl. rewrite E1. rewrite text_flow_one by (apply one_line_noeol; reflexivity). apply cle_refl.
    + destruct (put_ok (cfg e) s pos $"(" Hcur) as (s1 & -> & E1 & _). simpl. rewrite E1.
      rewrite text_flow_one by (apply one_line_noeol; reflexivity). apply cle_refl.
    + destruct (put_ok (cfg e) s pos $")" Hcur) as (s1 & -> & E1 & _). simpl. rewrite E1.
      rewrite text_flow_one by (apply one_line_noeol; reflexivity). apply cle_refl.
  - intros. simpl. assumption.
  - intros k pv c b bs l ls o1 o Hs Hl IHl Hls IHls s Hw Hn Hcur.
    simpl in Hw, Hn. apply andb_prop in Hw as [Hw1 Hw2]. apply andb_prop in Hn as [Hn1 Hn2].
    rewrite wall_cons. destruct Hs as [Hs _].
    specialize (IHl k s Hw1 Hn1 (cle_trans _ _ _ Hcur Hs)).
    destruct (write (cfg e) infile k l s) as [s1|err|]; simpl in IHl |- *.
    + apply IHls; auto.
    + destruct err; tauto.
    + exact IHl.
Qed.
