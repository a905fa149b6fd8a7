(** * PropOff: format-off regions are copied (C39, C40) *)
From Coq Require Import Permutation.
From Verif Require Import Base Regex Lex LexProofs PropLex TextOps TextProofs Tree Parse ParseProofs PropParse
  CmdSpec StdSpecs StdDb StdWf PropStd Layout LayoutProofs Pieces LayoutCols SortProofs PropSort Writing PropLayout
  LayKids Markup Pipeline PropFile OffSpan.

(** ** Specification *)
Definition text_of (l : list token) : str := List.concat (map spelling l).
(** The texts between a format-off and the next format-on sentinel, read off the
    tokens.  [open]: the text since the last format-off. *)
Fixpoint regions (open : option str) (toks : list token) : list str :=
  match toks with
  | nil => nil
  | t :: r =>
      match tt t with
      | FORMAT_OFF => regions (Some nil) r
      | FORMAT_ON => match open with Some x => x :: regions None r | None => regions None r end
      | _ => regions (option_map (fun x => x ++ spelling t) open) r
      end
  end.
Definition OFF : str := $"# cmake-format: off".
Definition ON : str := $"# cmake-format: on".
(** The texts appear in this order, each directly between the two sentinels. *)
Fixpoint copied (rs : list str) (x : str) : Prop :=
  match rs with
  | nil => True
  | r :: rs' => exists a b, x = a ++ OFF ++ r ++ ON ++ b /\ copied rs' b
  end.
(** Every sentinel is an item of the file or of the body of a block: none is
    inside the parentheses of a statement. *)
Definition statement_level (tree : pnode) : bool :=
  forallb (fun n => is_switch_node n || negb (switched (flat n))) (tops tree).

(** ** Items of boxes and of layouts *)
Fixpoint btops (b : box) : list box :=
  match b with B k p cs => if is_block_k k then flat_map btops cs else [b] end.
Definition dropped (n : pnode) : bool :=
  match n with T _ => true | N KWhitespace _ => node_newlines n <? 2 | _ => false end.
Definition boxed (n : pnode) : list box := if dropped n then nil else [create_box n].
Lemma create_box_eq k cs : create_box (N k cs) = B k cs (flat_map boxed cs).
Proof.
  cbn [create_box]. f_equal. induction cs as [|c cs IH]; auto. cbn [flat_map]. rewrite IH. f_equal.
  destruct c as [t|k' cs']; [reflexivity|]. unfold boxed. destruct k'; try reflexivity.
Qed.
Lemma flat_map_flat_map {A B C} (f : A -> list B) (g : B -> list C) l :
  flat_map g (flat_map f l) = flat_map (fun a => flat_map g (f a)) l.
Proof. induction l as [|a l IH]; auto. cbn. now rewrite flat_map_app, IH. Qed.
Lemma tops_item k cs : is_block_k k = false -> tops (N k cs) = [N k cs].
Proof. destruct k; try discriminate; reflexivity. Qed.
Lemma tops_block k cs : is_block_k k = true -> tops (N k cs) = flat_map tops cs.
Proof. destruct k; try discriminate; reflexivity. Qed.
Lemma btops_create n : dropped n = false -> btops (create_box n) = flat_map boxed (tops n).
Proof.
  induction n as [t|k cs IH] using pnode_ind'; [discriminate|]. intros Hd. rewrite create_box_eq. cbn [btops].
  destruct (is_block_k k) eqn:Ek.
  - rewrite tops_block, !flat_map_flat_map by assumption. clear Hd Ek.
    induction IH as [|c cs Hc _ IHl]; auto. cbn [flat_map]. rewrite IHl. f_equal.
    unfold boxed at 1. destruct (dropped c) eqn:Ed.
    + destruct c as [t|k' cs']; [reflexivity|]. destruct k'; try discriminate Ed.
      cbn [tops flat_map]. unfold boxed. now rewrite Ed.
    + cbn [flat_map]. rewrite app_nil_r. auto.
  - rewrite tops_item by assumption. cbn [flat_map]. unfold boxed. rewrite Hd, create_box_eq. reflexivity.
Qed.
Lemma btops_lock a b : btops (lock a b) = map (lock a) (btops b).
Proof.
  induction b as [k p cs IH] using box_ind'. cbn [lock btops].
  destruct (is_block_k k) eqn:Ek; [|cbn; reflexivity].
  assert (E : match k with KPargGroup true _ _ => if a then sort_arguments (map (lock a) cs) else map (lock a) cs
              | _ => map (lock a) cs end = map (lock a) cs) by (destruct k; try discriminate; reflexivity).
  rewrite E. clear E Ek. induction IH as [|c cs Hc _ IHl]; auto. cbn [map flat_map]. rewrite map_app. congruence.
Qed.

Fixpoint ltops (parent : kind) (l : lay) : list (kind * lay) :=
  match l with
  | Lay k _ _ _ _ _ _ _ cs => if is_block_k k then flat_map (ltops k) cs else [(parent, l)]
  end.
Lemma reflow_tops P e b : forall parent sib path term cur passno l o,
  reflow e b sib path term cur passno = Ok (l, o) ->
  Forall2 (fun b l => shape b l /\ (ball P b -> lall P l)) (btops b) (map snd (ltops parent l)).
Proof.
  induction b as [k p cs IH] using box_ind'. intros parent sib path term cur passno l o H.
  pose proof (reflow_head _ _ _ _ _ _ _ _ _ H) as [A C]. cbn [bkind bpcs] in *.
  cbn [btops]. destruct (is_block_k k) eqn:Ek.
  - apply (reflow_block (fun b l => forall parent,
       Forall2 (fun b l => shape b l /\ (ball P b -> lall P l)) (btops b) (map snd (ltops parent l)))) in H; auto.
    + destruct l as [k' p' pos pass w v x lines ls]. cbn [lkind lpcs lcs] in *. subst k' p'.
      cbn [ltops]. rewrite Ek. clear -H. induction H as [|b l bs ls H1 _ IH]; cbn; [constructor|].
      rewrite map_app. apply Forall2_app; auto.
    + clear H. induction IH as [|c cs Hc' _ IHl]; intros n; simpl; constructor; auto.
      intros path' term' cur' pass' l' o' E parent'. eapply Hc'; eauto.
  - pose proof (reflow_shape _ _ _ _ _ _ _ _ _ H) as S.
    assert (L : ball P (B k p cs) -> lall P l) by (intros Hb; eapply reflow_all; eauto).
    destruct l as [k' p' pos pass w v x lines ls]. cbn [lkind lpcs lcs] in *. subst k' p'.
    cbn [ltops]. rewrite Ek. cbn. auto.
Qed.
Definition wtop (c : fcfg) (infile : str) (q : kind * lay) (s : wst) : res wst := write c infile (fst q) (snd q) s.
Lemma chain_app {A S} (f : A -> S -> res S) a b : forall s,
  chain f (a ++ b) s = let? s' := chain f a s in chain f b s'.
Proof. induction a as [|x a IH]; intros s; cbn; auto. destruct (f x s); cbn; auto. Qed.
Lemma write_tops c infile l : forall parent s,
  write c infile parent l s = chain (wtop c infile) (ltops parent l) s.
Proof.
  induction l as [k p pos pass w v x lines cs IH] using lay_ind'. intros parent s. cbn [ltops].
  destruct (is_block_k k) eqn:Ek.
  - assert (E : write c infile parent (Lay k p pos pass w v x lines cs) s = wall c infile k cs s)
      by (rewrite write_eq; destruct k; try discriminate; reflexivity).
    rewrite E. clear E Ek. revert s. induction IH as [|a cs Ha _ IHl]; intros s; [reflexivity|].
    rewrite wall_cons. cbn [flat_map]. rewrite chain_app, <- Ha.
    destruct (write c infile k a s); cbn; auto.
  - cbn [chain]. unfold wtop. cbn [fst snd]. now rewrite bindr_ret.
Qed.

(** ** The writer only appends *)
Lemma put_lines_out endl ls : forall f, exists x, TextOps.out (put_lines endl f ls) = TextOps.out f ++ x.
Proof.
  induction ls as [|l ls IH]; intros f; cbn; [exists nil; now rewrite app_nil_r|].
  destruct (IH (CF (TextOps.out f ++ endl ++ l) (crow f + 1) (zlen l))) as (x & ->). cbn.
  eexists. rewrite <- app_assoc. reflexivity.
Qed.
Lemma write_at_out endl f r c text f' : write_at endl f r c text = Ok f' ->
  exists g ls y, split_on cNL text = g :: ls /\ TextOps.out f' = TextOps.out f ++ y
    /\ (ls = nil -> exists z, y = z ++ text /\ (Cur r c = Cur (crow f) (ccol f) -> z = nil)).
Proof.
  unfold write_at. destruct (negb _); [discriminate|].
  set (f1 := if r - crow f =? 0 then f else _).
  set (f2 := if c - ccol f1 =? 0 then f1 else _).
  assert (exists z, TextOps.out f2 = TextOps.out f ++ z /\ (Cur r c = Cur (crow f) (ccol f) -> z = nil)) as (z & E & Hz).
  { unfold f2, f1. destruct (r - crow f =? 0) eqn:Er; destruct (c - ccol _ =? 0) eqn:Ec; cbn.
    - exists nil. now rewrite app_nil_r.
    - eexists. split; [reflexivity|]. intros Q. injection Q as Q1 Q2. exfalso. unfold f1 in *. cbn in *. lia.
    - eexists. split; [reflexivity|]. intros Q. injection Q as Q1 Q2. exfalso. unfold f1 in *. cbn in *. lia.
    - eexists. rewrite <- app_assoc. split; [reflexivity|]. intros Q. injection Q as Q1 Q2. exfalso. unfold f1 in *. cbn in *. lia. }
  destruct (split_on cNL text) as [|g ls] eqn:Es; [now apply split_on_nonempty in Es|].
  intros H. injection H as <-.
  destruct (put_lines_out endl ls (CF (TextOps.out f2 ++ g) (crow f2) (ccol f2 + zlen g))) as (y & Ey).
  exists g, ls, (z ++ g ++ y). split; auto. split; [rewrite Ey; cbn; rewrite E, !app_assoc; reflexivity|].
  intros ->. exists z. split; auto. cbn in Ey. rewrite <- (app_nil_r (TextOps.out f2 ++ g)) in Ey at 1.
  apply app_inv_head in Ey. subst y. rewrite app_nil_r.
  pose proof (join_split cNL text) as J. rewrite Es in J. cbn in J. congruence.
Qed.
Definition wout (s : wst) : str := TextOps.out (w_f s).
Definition grows (s s' : wst) : Prop := exists x, wout s' = wout s ++ x.
Lemma grows_refl s : grows s s. Proof. exists nil. now rewrite app_nil_r. Qed.
Lemma grows_trans a b c : grows a b -> grows b c -> grows a c.
Proof. intros (x & E) (y & F). exists (x ++ y). now rewrite F, E, app_assoc. Qed.
Lemma put_grows c s p text s' : put c s p text = Ok s' -> grows s s'.
Proof.
  unfold put. intros H. bk H. inv H. apply write_at_out in Hx as (g & ls & y & _ & E & _). exists y. exact E.
Qed.
(** a text without line break ends up at the end, and alone if the cursor is there *)
Lemma put_line c s p text s' : ~ In cNL text -> put c s p text = Ok s' ->
  exists z, wout s' = wout s ++ z ++ text /\ (wcur s = p -> z = nil).
Proof.
  unfold put. intros Hn H. bk H. inv H. apply write_at_out in Hx as (g & ls & y & Es & E & Hl).
  assert (ls = nil) as ->.
  { destruct ls as [|l ls]; auto. exfalso. apply Hn.
    rewrite <- (join_split cNL text), Es. cbn. apply in_or_app. right. now left. }
  destruct (Hl eq_refl) as (z & -> & Hz). exists z. split; [exact E|]. intros <-. now apply Hz.
Qed.
Lemma write_lines_keep c ls : forall p s s', write_lines c p ls s = Ok s' -> w_off s' = w_off s /\ grows s s'.
Proof.
  induction ls as [|l ls IH]; intros p s s' H; cbn in H; [inv H; split; auto using grows_refl|].
  bk H. apply IH in H as [A C]. pose proof (put_off _ _ _ _ _ Hx). apply put_grows in Hx.
  split; [congruence|eauto using grows_trans].
Qed.

(** ** Trees without sentinels do not change the state of the writer *)
Definition quiet (k : kind) (p : list pnode) : Prop := switched (flats p) = false.
Lemma quiet_box n : switched (flat n) = false -> dropped n = false -> ball quiet (create_box n).
Proof.
  induction n as [t|k cs IH] using pnode_ind'; [discriminate|]. intros H _. rewrite create_box_eq.
  apply ball_eq. split; [exact H|].
  assert (Hc : Forall (fun c => switched (flat c) = false) cs).
  { clear -H. cbn [flat] in H. induction cs as [|c cs IHc]; constructor; unfold switched in *;
      cbn [flat_map] in H; rewrite existsb_app in H; apply orb_false_iff in H as [A B]; auto. }
  clear H. induction IH as [|c cs Hc' _ IHl]; cbn [flat_map]; [constructor|]. apply Forall_app. split.
  - unfold boxed. destruct (dropped c) eqn:Ed; constructor; auto. apply Hc'; auto. now apply Forall_inv in Hc.
  - apply IHl. now apply Forall_inv_tail in Hc.
Qed.
Lemma ball_lock P a b : ball P b -> ball P (lock a b).
Proof.
  induction b as [k p cs IH] using box_ind'. intros H. apply ball_eq in H as [A C].
  cbn [lock]. apply ball_eq. split; auto.
  assert (Hm : Forall (ball P) (map (lock a) cs)).
  { clear A. induction IH as [|c cs Hc _ IHl]; cbn; constructor.
    - apply Hc. now apply Forall_inv in C.
    - apply IHl. now apply Forall_inv_tail in C. }
  pose proof (lock_children a (B k p cs)) as L. cbn [lock bcs] in L. destruct L as [L _].
  eapply Permutation_Forall; [apply Permutation_sym; exact L|exact Hm].
Qed.

Lemma write_quiet c infile l : forall parent s s', lall quiet l -> w_off s = None ->
  write c infile parent l s = Ok s' -> w_off s' = None /\ grows s s'.
Proof.
  induction l as [k p pos pass w v x lines cs IH] using lay_ind'. intros parent s s' Hq Ho H.
  apply lall_eq in Hq as [Hp Hq]. rewrite write_eq in H.
  assert (Hw : forall k s s', w_off s = None -> wall c infile k cs s = Ok s' -> w_off s' = None /\ grows s s').
  { clear H Hp Ho s s'. intros k0. induction IH as [|a cs Ha _ IHl]; intros s s' Ho H.
    - inv H. split; auto using grows_refl.
    - rewrite wall_cons in H. bk H. apply Ha in Hx as [A C]; [|now apply Forall_inv in Hq|assumption].
      apply IHl in H as [D E]; [|now apply Forall_inv_tail in Hq|assumption]. split; auto. eauto using grows_trans. }
  assert (Hput : forall t s1, put c s pos t = Ok s1 -> w_off s1 = None /\ grows s s1).
  { intros t s1 E. split; [rewrite (put_off _ _ _ _ _ E); exact Ho|eauto using put_grows]. }
  assert (Ha : active s = true) by (unfold active; now rewrite Ho). rewrite Ha in H. cbn [negb] in H.
  assert (Hsc : forall k0, match p with
          | T t :: _ =>
              let? text := scalar_text c parent k0 t in
              let? s' := put c s pos text in
              match cs with
              | nil => Ok s'
              | [ch] => if is_comment_k (lkind ch) then wall c infile k0 cs s' else Err AssertionErr
              | _ :: _ :: _ => Err AssertionErr
              end
          | _ => Err AssertionErr
          end = Ok s' -> w_off s' = None /\ grows s s').
  { intros k0 E. destruct p as [|[t|] p]; try discriminate. bk E. bk E. apply Hput in Hx0 as [A C].
    destruct cs as [|ch [|]]; try discriminate; [inv E; auto|].
    destruct (is_comment_k (lkind ch)); [|discriminate]. apply Hw in E as [D F]; auto.
    split; auto. eauto using grows_trans. }
  destruct k; eauto.
  - inv H. auto using grows_refl.
  - destruct (is_bracket p); [eauto|]. apply write_lines_keep in H as [A C]. split; auto. congruence.
  - unfold write_onoff in H. destruct p as [|[t|] p]; try discriminate.
    unfold quiet, switched in Hp. cbn in Hp. unfold is_onoff, tmem in Hp. cbn in Hp.
    destruct (tt t); try discriminate.
Qed.

(** ** Reading the copied text *)
Lemma bdrop_app a b : bdrop (bytelen a) (a ++ b) = Some b.
Proof.
  induction a as [|c a IH].
  - cbn [app bytelen fold_right]. destruct b; reflexivity.
  - cbn [app]. change (bytelen (c :: a)) with (utf8_len c + bytelen a). pose proof (utf8_len_pos c).
    pose proof (bytelen_nonneg a). cbn [bdrop]. replace (utf8_len c + bytelen a <=? 0) with false by lia.
    replace (utf8_len c <=? utf8_len c + bytelen a) with true by lia.
    replace (utf8_len c + bytelen a - utf8_len c) with (bytelen a) by lia. exact IH.
Qed.
Lemma btake_app a b : btake (bytelen a) (a ++ b) = Some a.
Proof.
  induction a as [|c a IH].
  - cbn [app bytelen fold_right]. destruct b; reflexivity.
  - cbn [app]. change (bytelen (c :: a)) with (utf8_len c + bytelen a). pose proof (utf8_len_pos c).
    pose proof (bytelen_nonneg a). cbn [btake]. replace (utf8_len c + bytelen a <=? 0) with false by lia.
    replace (utf8_len c <=? utf8_len c + bytelen a) with true by lia.
    replace (utf8_len c + bytelen a - utf8_len c) with (bytelen a) by lia. now rewrite IH.
Qed.
Lemma read_bytes_mid a t b : read_bytes (a ++ t ++ b) (bytelen a) (bytelen t) = Ok t.
Proof.
  unfold read_bytes. pose proof (bytelen_nonneg t).
  destruct (bytelen t =? 0) eqn:E.
  - destruct t as [|c t]; auto. change (bytelen (c :: t)) with (utf8_len c + bytelen t) in E.
    pose proof (utf8_len_pos c). pose proof (bytelen_nonneg t). lia.
  - rewrite bdrop_app. replace (bytelen t <? 0) with false by lia. now rewrite btake_app.
Qed.

(** ** The simulation *)
(** the tokens carry their byte offsets, the first one being at [n] *)
Fixpoint offs (n : Z) (toks : list token) : Prop :=
  match toks with
  | nil => True
  | t :: r => offset (begin t) = n /\ offs (n + bytelen (spelling t)) r
  end.
Lemma offs_app a : forall n b, offs n (a ++ b) -> offs (n + bytelen (text_of a)) b.
Proof.
  induction a as [|t a IH]; intros n b H; cbn in *; [now rewrite Z.add_0_r|].
  destruct H as [_ H]. apply IH in H. unfold text_of in *. cbn. now rewrite bytelen_app, Z.add_assoc.
Qed.
Lemma text_of_app a b : text_of (a ++ b) = text_of a ++ text_of b.
Proof. unfold text_of. now rewrite map_app, concat_app. Qed.
Lemma regions_quiet u : forall o us, switched u = false ->
  regions o (u ++ us) = regions (option_map (fun x => x ++ text_of u) o) us.
Proof.
  induction u as [|t u IH]; intros o us H.
  - cbn. destruct o; cbn; auto. now rewrite app_nil_r.
  - unfold switched in H. cbn [existsb] in H. apply orb_false_iff in H as [H1 H2].
    cbn [app regions]. unfold is_onoff, tmem in H1. cbn in H1.
    assert (E : regions (option_map (fun x => x ++ spelling t) o) (u ++ us)
            = regions (option_map (fun x => x ++ text_of (t :: u)) o) us).
    { rewrite IH by assumption. f_equal. destruct o; cbn; auto. unfold text_of. cbn. now rewrite app_assoc. }
    destruct (tt t); try discriminate; exact E.
Qed.
Definition opened (rs : list str) (x : str) : Prop :=
  match rs with
  | nil => True
  | r :: rs' => (exists b, x = r ++ ON ++ b /\ copied rs' b) \/ copied rs x
  end.
Lemma copied_pre rs a x : copied rs x -> copied rs (a ++ x).
Proof.
  destruct rs as [|r rs]; auto. intros (p & q & -> & H). exists (a ++ p), q. split; auto. now rewrite !app_assoc.
Qed.

Definition laid (n : pnode) (a : bool) (l : lay) : Prop :=
  shape (lock a (create_box n)) l /\ (switched (flat n) = false -> lall quiet l).
Inductive laids (a : bool) : list pnode -> list (kind * lay) -> Prop :=
| ls_nil : laids a nil nil
| ls_drop n ns qs : dropped n = true -> laids a ns qs -> laids a (n :: ns) qs
| ls_item n ns q qs : dropped n = false -> laid n a (snd q) -> laids a ns qs -> laids a (n :: ns) (q :: qs).

Lemma noNL_off : ~ In cNL OFF. Proof. vm_compute. intuition discriminate. Qed.
Lemma noNL_on : ~ In cNL ON. Proof. vm_compute. intuition discriminate. Qed.

Lemma shape_kind n a l k cs : n = N k cs -> shape (lock a (create_box n)) l -> lkind l = k /\ lpcs l = cs.
Proof. intros -> H. rewrite create_box_eq in H. cbn [lock] in H. apply shape_eq in H as (A & B & _). auto. Qed.

Lemma item_inactive c infile q s s' n a : laid n a (snd q) ->
  match n with N k _ => item_k k = true | T _ => False end -> w_off s <> None ->
  wtop c infile q s = Ok s' -> s' = s.
Proof.
  intros [Sh _] Hk Ho H. destruct n as [t|k cs]; [easy|]. destruct (shape_kind _ _ _ _ _ eq_refl Sh) as [A _].
  unfold wtop in H. destruct (snd q) as [k' p pos pass w v x lines ls]. cbn in A. subst k'.
  rewrite write_eq in H. assert (Ha : active s = false) by (unfold active; destruct (w_off s); congruence).
  rewrite Ha in H. cbn [negb] in H. destruct k; try discriminate Hk; now inv H.
Qed.

Lemma sim c infile a toks items : span toks items -> Forall (fun t => tt t <> BYTEORDER_MARK) toks ->
  forallb (fun n => is_switch_node n || negb (switched (flat n))) items = true ->
  forall qs s s', laids a items qs -> chain (wtop c infile) qs s = Ok s' ->
  (forall pre, infile = pre ++ text_of toks -> offs (bytelen pre) toks -> w_off s = None ->
     exists x, wout s' = wout s ++ x /\ copied (regions None toks) x)
  /\ (forall pre t, infile = pre ++ t ++ text_of toks -> offs (bytelen (pre ++ t)) toks ->
        w_off s = Some (bytelen pre) ->
        exists x, wout s' = wout s ++ x /\ opened (regions (Some t) toks) x).
Proof.
  induction 1 as [|u n us ns Hc Hs IH|t us ns Ht Hs IH]; intros Hb Hl qs s s' Hq H.
  - inversion Hq; subst. cbn in H. inv H. split; intros; exists nil; rewrite app_nil_r; split; auto; exact I.
  - apply Forall_app in Hb as [_ Hb]. cbn [forallb] in Hl. apply andb_prop in Hl as [Hn Hl].
    destruct Hc as [t Ho|u k cs Hk Hsw].
    + (* a sentinel *)
      inversion Hq as [|? ? ? Hd|? ? q qs' Hd Hlaid Hq']; subst; [discriminate Hd|].
      cbn [chain] in H. bk H. rename x into s1. specialize (IH Hb Hl _ _ _ Hq' H).
      destruct Hlaid as [Sh _]. destruct (shape_kind _ _ _ _ _ eq_refl Sh) as [A C].
      unfold wtop in Hx. destruct q as [par [k' p pos pass w v x lines ls]]. cbn in A, C. subst k' p.
      cbn [fst snd] in Hx. rewrite write_eq in Hx. cbn [write_onoff] in Hx. unfold write_onoff in Hx.
      unfold is_onoff, tmem in Ho. cbn in Ho.
      destruct (tt t) eqn:Et; try discriminate Ho; clear Ho; cbn [app regions]; rewrite Et.
      * (* off *)
        apply put_line in Hx as Hz; [|exact noNL_off]. destruct Hz as (z & Ez & _).
        pose proof (put_off _ _ _ _ _ Hx) as Eo. cbn [w_off] in Eo.
        assert (R : forall pre, infile = pre ++ text_of (t :: us) -> offs (bytelen pre) (t :: us) ->
                    exists x, wout s' = wout s ++ x /\ copied (regions (Some nil) us) x).
        { intros pre Ei [Eof Of]. destruct IH as [_ IH].
          destruct (IH (pre ++ spelling t) nil) as (x0 & E1 & E2).
          - rewrite Ei. unfold text_of. cbn. now rewrite <- app_assoc.
          - now rewrite app_nil_r, bytelen_app.
          - rewrite Eo. f_equal. unfold tok_end_offset. rewrite Eof. now rewrite bytelen_app.
          - exists (z ++ OFF ++ x0). split.
            { rewrite E1, Ez. change (wout {| w_off := Some (tok_end_offset t); w_f := w_f s |}) with (wout s).
              now rewrite <- !app_assoc. }
            destruct (regions (Some nil) us) as [|r rs]; [exact I|]. cbn [opened] in E2.
            destruct E2 as [(b & -> & E2)|E2].
            + exists z, b. auto.
            + now apply copied_pre, copied_pre. }
        split.
        { intros pre Ei Of _. eauto. }
        { intros pre t0 Ei Of _. destruct (R (pre ++ t0)) as (x0 & E1 & E2); auto.
          - now rewrite <- app_assoc.
          - exists x0. split; auto. destruct (regions (Some nil) us); [exact I|]. now right. }
      * (* on *)
        split.
        { intros pre Ei [Eof Of] Eo. rewrite Eo in Hx. apply put_grows in Hx as Hz. destruct Hz as (z & Ez).
          pose proof (put_off _ _ _ _ _ Hx) as Eo1. destruct IH as [IH _].
          destruct (IH (pre ++ spelling t)) as (x0 & E1 & E2).
          - rewrite Ei. unfold text_of. cbn. now rewrite <- app_assoc.
          - now rewrite bytelen_app.
          - congruence.
          - exists (z ++ x0). split; [rewrite E1, Ez; now rewrite <- app_assoc|]. now apply copied_pre. }
        { intros pre t0 Ei [Eof Of] Eo. rewrite Eo in Hx. bk Hx.
          assert (x0 = t0) as ->.
          { rewrite Eof, bytelen_app in Hx0. replace (bytelen pre + bytelen t0 - bytelen pre) with (bytelen t0) in Hx0 by lia.
            rewrite Ei, read_bytes_mid in Hx0. congruence. }
          apply put_line in Hx as Hz; [|exact noNL_on]. destruct Hz as (z & Ez & Hz).
          rewrite Hz in Ez by (destruct pos; reflexivity). clear Hz z.
          pose proof (put_off _ _ _ _ _ Hx) as Eo1. cbn [w_off] in Eo1. destruct IH as [IH _].
          destruct (IH (pre ++ t0 ++ spelling t)) as (x1 & E1 & E2).
          - rewrite Ei. unfold text_of. cbn. now rewrite <- !app_assoc.
          - rewrite !bytelen_app in *. now rewrite Z.add_assoc.
          - exact Eo1.
          - exists (t0 ++ ON ++ x1). split.
            { rewrite E1, Ez. cbn [app]. unfold wout at 1. cbn [w_f forge TextOps.out].
              assert (W : TextOps.out (write_raw (w_f s) t0) = TextOps.out (w_f s) ++ t0)
                by (unfold write_raw; destruct (count_chr cNL t0 =? 0); reflexivity).
              rewrite W. unfold wout. now rewrite <- !app_assoc. }
            left. eauto. }
    + (* an item without sentinels *)
      assert (Hno : switched (flats cs) = false).
      { apply orb_prop in Hn as [Hn|Hn]; [destruct k; discriminate|]. cbn [flat] in Hn.
        fold (flats cs) in Hn. now destruct (switched (flats cs)). }
      rewrite Hno in Hsw.
      assert (Hstep : exists s1 qs', chain (wtop c infile) qs' s1 = Ok s' /\ laids a ns qs'
                 /\ (w_off s = None -> w_off s1 = None /\ grows s s1) /\ (w_off s <> None -> s1 = s)).
      { inversion Hq as [|? ? ? Hd Hq'|? ? q qs' Hd Hlaid Hq']; subst.
        - exists s, qs. auto using grows_refl.
        - cbn [chain] in H. bk H. exists x, qs'. split; [exact H|]. split; [exact Hq'|]. split.
          + intros Eo. unfold wtop in Hx. eapply write_quiet; eauto. destruct Hlaid as [_ L]. now apply L.
          + intros Eo. eapply item_inactive; eauto. }
      destruct Hstep as (s1 & qs' & H1 & Hq1 & Hact & Hin). specialize (IH Hb Hl _ _ _ Hq1 H1).
      split.
      * intros pre Ei Of Eo. destruct (Hact Eo) as [Eo1 (z & Ez)]. destruct IH as [IH _].
        destruct (IH (pre ++ text_of u)) as (x & E1 & E2).
        -- rewrite Ei, text_of_app. now rewrite <- app_assoc.
        -- rewrite bytelen_app. now apply offs_app.
        -- exact Eo1.
        -- exists (z ++ x). split; [rewrite E1, Ez; now rewrite <- app_assoc|].
           rewrite regions_quiet by assumption. cbn. now apply copied_pre.
      * intros pre t Ei Of Eo. rewrite Hin in IH by congruence. destruct IH as [_ IH].
        destruct (IH pre (t ++ text_of u)) as (x & E1 & E2).
        -- rewrite Ei, text_of_app. now rewrite <- !app_assoc.
        -- rewrite app_assoc, bytelen_app. now apply offs_app.
        -- exact Eo.
        -- exists x. split; auto. rewrite regions_quiet by assumption. exact E2.
  - exfalso. apply Forall_inv in Hb. contradiction.
Qed.

Lemma laids_of a items : forall qs,
  Forall2 (fun b l => shape b l /\ (ball quiet b -> lall quiet l)) (map (lock a) (flat_map boxed items)) (map snd qs) ->
  laids a items qs.
Proof.
  induction items as [|n ns IH]; intros qs H; cbn [flat_map map] in H.
  - destruct qs; [constructor|inversion H].
  - unfold boxed in H at 1. destruct (dropped n) eqn:Ed; [now apply ls_drop; auto|].
    cbn [app map] in H. destruct qs as [|q qs]; inversion H as [|? ? ? ? [Sh Q] Hr]; subst.
    apply ls_item; auto. split; auto. intros Hs. apply Q, ball_lock, quiet_box; auto.
Qed.
Lemma offs_of_locations pre : forall toks n, 
  (forall a t b, toks = a ++ t :: b -> offset (begin t) = bytelen (pre ++ text_of a)) ->
  n = bytelen pre -> offs n toks.
Proof.
  intros toks. revert pre. induction toks as [|t toks IH]; intros pre n H ->; cbn; auto.
  split.
  - rewrite (H nil t toks eq_refl). now rewrite app_nil_r.
  - apply (IH (pre ++ spelling t)); [|now rewrite bytelen_app].
    intros a t' b E. rewrite (H (t :: a) t' b); [|now rewrite E]. f_equal. unfold text_of. cbn. now rewrite app_assoc.
Qed.

(** ** C39 *)
(** Every file without byte-order mark, every configuration that does not ask for
    tabs: the regions are copied, in order, each between its two sentinels. *)
Theorem C39_regions c ex vt specs tbl src text v :
  p_ctx c = std_ctx ex vt tbl -> user_table specs = Ok tbl -> p_usetabs c = false ->
  (forall r, src <> cBOM :: r) ->
  process_file c src = Ok (text, v) ->
  forall toks tree, tokenize src = Ok toks -> parse (p_ctx c) toks = Ok tree ->
  statement_level tree = true ->
  exists o, text = bom_text c ++ o /\ copied (regions None toks) o.
Proof.
  intros Hx Hu Ht Hbom H toks tree Hl Hp Hsl.
  destruct (run_split _ _ _ _ H Ht) as (toks' & tree' & l & o & E1 & E2 & E3 & E4 & -> & ->).
  rewrite Hl in E1. injection E1 as <-. rewrite Hp in E2. injection E2 as <-.
  exists o. split; [reflexivity|].
  assert (Hnb : Forall (fun t => tt t <> BYTEORDER_MARK) toks /\ text_of toks = src).
  { destruct (tokenize_strip _ _ Hl) as (_ & N2 & N3 & N4). destruct (C02_lex_lossless _ _ Hl) as [N5 _].
    destruct N4 as [N4|N4]; [rewrite N4; split; auto; now rewrite <- N4|].
    exfalso. rewrite N4 in N5. cbn in N5. eapply Hbom. symmetry. exact N5. }
  destruct Hnb as [Hnb Htx].
  assert (Hof : offs 0 toks).
  { apply (offs_of_locations nil); [|reflexivity]. intros a t b E.
    rewrite (C03_locations _ _ _ _ _ Hl E); [|rewrite Forall_forall in Hnb; apply Hnb; rewrite E; apply in_or_app; right; now left].
    cbn [position offset app]. f_equal. unfold text_of. do 2 f_equal.
    rewrite E in Hnb. apply Forall_app in Hnb as [Hn _]. clear -Hn. induction Hn as [|t a Ht _ IH]; auto.
    cbn [filter]. destruct (tt t); try contradiction; cbn [ttype_eqb negb]; now rewrite IH. }
  unfold layout_tree in E3. apply bindr_ok in E3 as ([l0 o0] & Er & E3). injection E3 as ->.
  apply (reflow_tops quiet) with (parent := KBody) in Er. rewrite btops_lock in Er.
  assert (Hd : dropped tree = false).
  { unfold parse in Hp. apply bindr_ok in Hp as ([a r] & _ & Hp). injection Hp as <-. reflexivity. }
  rewrite btops_create in Er by exact Hd. apply laids_of in Er.
  unfold write_tree in E4. apply bindr_ok in E4 as (s & Ew & E4). injection E4 as <-.
  rewrite write_tops in Ew.
  assert (Hc : wfctx true (p_ctx c)) by (rewrite Hx; eapply std_wfctx; eauto).
  pose proof (parse_span _ Hc _ _ Hp) as Hs.
  destruct (sim _ _ _ _ _ Hs Hnb Hsl _ _ _ Er Ew) as [S _].
  destruct (S nil) as (x & Ex & Cx); auto.
  unfold getvalue. change (TextOps.out (w_f s)) with (wout s). rewrite Ex. cbn [wout w_f cf_init TextOps.out app].
  clear -Cx. revert x Cx. generalize (f_endl (effective c src)) as e. generalize (regions None toks) as rs.
  induction rs as [|r rs IH]; intros e x H; [exact I|]. destruct H as (a & b & -> & H).
  exists a, (b ++ e). split; [now rewrite <- !app_assoc|]. now apply IH.
Qed.

Lemma copied_in rs1 r rs2 x : copied (rs1 ++ r :: rs2) x -> exists a b, x = a ++ OFF ++ r ++ ON ++ b.
Proof.
  revert x. induction rs1 as [|q rs1 IH]; intros x (a & b & -> & H); [eauto|].
  apply IH in H as (a' & b' & ->). exists (a ++ OFF ++ q ++ ON ++ a'), b'. now rewrite <- !app_assoc.
Qed.
Lemma regions_mid pre : forall o off mid on post,
  tt off = FORMAT_OFF -> tt on = FORMAT_ON -> switched mid = false ->
  exists rs1 rs2, regions o (pre ++ off :: mid ++ on :: post) = rs1 ++ text_of mid :: rs2.
Proof.
  induction pre as [|t pre IH]; intros o off mid on post H1 H2 H3.
  - cbn [app regions]. rewrite H1, regions_quiet by assumption. cbn [option_map app regions]. rewrite H2.
    exists nil. eexists. reflexivity.
  - cbn [app regions]. destruct (tt t); eauto. destruct o; eauto.
    destruct (IH None off mid on post H1 H2 H3) as (a & b & ->). now exists (s :: a), b.
Qed.
(** One region at a time: the text between the sentinels in the source is the
    text between the sentinels in the output. *)
Theorem C39_region c ex vt specs tbl src text v pre off mid on post tree :
  p_ctx c = std_ctx ex vt tbl -> user_table specs = Ok tbl -> p_usetabs c = false ->
  (forall r, src <> cBOM :: r) ->
  process_file c src = Ok (text, v) ->
  tokenize src = Ok (pre ++ off :: mid ++ on :: post) ->
  parse (p_ctx c) (pre ++ off :: mid ++ on :: post) = Ok tree -> statement_level tree = true ->
  tt off = FORMAT_OFF -> tt on = FORMAT_ON -> switched mid = false ->
  src = text_of pre ++ spelling off ++ text_of mid ++ spelling on ++ text_of post
  /\ exists a b, text = bom_text c ++ a ++ OFF ++ text_of mid ++ ON ++ b.
Proof.
  intros Hx Hu Ht Hb H Hl Hp Hs H1 H2 H3. split.
  - destruct (C02_lex_lossless _ _ Hl) as [E _]. rewrite <- E. unfold text_of.
    now repeat (rewrite ?map_app, ?concat_app; cbn [map List.concat]).
  - destruct (C39_regions _ _ _ _ _ _ _ _ Hx Hu Ht Hb H _ _ Hl Hp Hs) as (o & -> & Hc).
    destruct (regions_mid pre None off mid on post H1 H2 H3) as (r1 & r2 & E). rewrite E in Hc.
    apply copied_in in Hc as (a & b & ->). eauto.
Qed.

(** ** Examples *)
Definition src_off : str :=
  nl [$"set( a  b )"; $"# cmake-format: off"; $"if( x )   # hi"; $"      set( c   d )"; $"endif( )";
      $"# cmake-format: on"; $"function( f )"; $"# cmake-format: off"; $"   add_library( foo"; $"a.cc   )";
      $"  # cmake-format: on"; $"set( a  b )"; $"endfunction()"].
Definition out_off : str :=
  nl [$"set(a b)"; $"# cmake-format: off"; $"if( x )   # hi"; $"      set( c   d )"; $"endif( )";
      $"# cmake-format: on"; $"function(f)"; $"  # cmake-format: off"; $"   add_library( foo"; $"a.cc   )";
      $"  # cmake-format: on"; $"  set(a b)"; $"endfunction()"].
Example off_ex : exists tree,
  process_file default_pcfg src_off = Ok (out_off, true)
  /\ (forall r, src_off <> cBOM :: r)
  /\ parse (p_ctx default_pcfg) (toks_of src_off) = Ok tree /\ statement_level tree = true
  /\ regions None (toks_of src_off)
     = [[cNL] ++ nl [$"if( x )   # hi"; $"      set( c   d )"; $"endif( )"];
        [cNL] ++ nl [$"   add_library( foo"; $"a.cc   )"] ++ $"  "].
Proof.
  eexists. split; [vm_compute; reflexivity|]. split; [intros r; vm_compute; discriminate|].
  split; [vm_compute; reflexivity|]. split; vm_compute; reflexivity.
Qed.

(** ** The unrestricted statements are false *)
(** the text [mid] between the first two sentinels of [src] is in the output *)
Definition off_region_kept (c : pcfg) (src mid : str) : Prop :=
  exists pre post text v a b, src = pre ++ OFF ++ mid ++ ON ++ post
    /\ process_file c src = Ok (text, v) /\ text = a ++ OFF ++ mid ++ ON ++ b.
(** is [m] a part of [s]? *)
Fixpoint part (m s : str) : bool :=
  startswith m s || match s with nil => false | _ :: s' => part m s' end.
Lemma startswith_app p s : startswith p (p ++ s) = true.
Proof. induction p as [|c p IH]; cbn; auto. now rewrite N.eqb_refl. Qed.
Lemma part_app a m b : part m (a ++ m ++ b) = true.
Proof.
  induction a as [|c a IH].
  - cbn [app]. destruct (m ++ b) eqn:E; cbn [part]; rewrite <- E, startswith_app; reflexivity.
  - cbn [app part]. rewrite IH. now rewrite orb_true_r.
Qed.
Lemma not_kept c src mid text v : process_file c src = Ok (text, v) -> part (mid ++ ON) text = false ->
  ~ off_region_kept c src mid.
Proof.
  intros H Hp (pre & post & t & v' & a & b & _ & E & F). rewrite H in E. injection E as <- <-.
  rewrite F in Hp. replace (a ++ OFF ++ mid ++ ON ++ b) with ((a ++ OFF) ++ (mid ++ ON) ++ b) in Hp
    by now rewrite <- !app_assoc.
  rewrite part_app in Hp. discriminate.
Qed.
Definition has_region (src mid : str) : Prop := exists pre post, src = pre ++ OFF ++ mid ++ ON ++ post.

(** with use_tabchars the indentation inside the region is rewritten *)
Definition tabs_pcfg : pcfg := PCfg default_fcfg default_mcfg the_ctx false false true UseSpace.
Theorem C39_tabs_refuted : exists src mid,
  has_region src mid /\ ~ off_region_kept tabs_pcfg src mid.
Proof.
  exists src_off, ([cNL] ++ nl [$"if( x )   # hi"; $"      set( c   d )"; $"endif( )"]). split.
  - exists (nl [$"set( a  b )"]). eexists. vm_compute. reflexivity.
  - eapply not_kept; vm_compute; reflexivity.
Qed.
(** a second format-off inside a region: what is between the two is lost *)
Theorem C39_double_off_refuted : exists src mid,
  has_region src mid /\ ~ off_region_kept default_pcfg src mid.
Proof.
  exists (nl [OFF; $"set( a  b )"; OFF; $"set( c  d )"; ON]),
    ([cNL] ++ nl [$"set( a  b )"; OFF; $"set( c  d )"]). split.
  - exists nil. eexists. vm_compute. reflexivity.
  - eapply not_kept; vm_compute; reflexivity.
Qed.
(** C40: behind a byte-order mark the copied text is shifted by three bytes; here
    the end of a statement is lost *)
Theorem C40_bom_refuted : exists src mid text,
  has_region (cBOM :: src) mid /\ process_file default_pcfg (cBOM :: src) = Ok (text, true)
  /\ off_region_kept default_pcfg src mid
  /\ ~ off_region_kept default_pcfg (cBOM :: src) mid
  /\ text = nl [$"# cmake-format: offoff"; $"set( a  b# cmake-format: on"].
Proof.
  exists (nl [OFF; $"set( a  b )"; ON]), ([cNL] ++ nl [$"set( a  b )"]). eexists.
  split; [exists [cBOM]; eexists; vm_compute; reflexivity|].
  split; [vm_compute; reflexivity|]. split.
  - exists nil. eexists. eexists. eexists. exists nil. eexists.
    split; [vm_compute; reflexivity|]. split; vm_compute; reflexivity.
  - split; [eapply not_kept; vm_compute; reflexivity|]. vm_compute. reflexivity.
Qed.
(** C58: a region that is not closed, at the top level or because the closing
    sentinel is inside a statement: the rest of the file is dropped *)
Theorem C58_unclosed_refuted : exists src text,
  process_file default_pcfg src = Ok (text, true)
  /\ count_tt WORD (toks_of src) = 6%nat /\ text = nl [OFF].
Proof.
  exists (nl [OFF; $"set( a  b )"; $"set( c  d )"]). eexists.
  split; [vm_compute; reflexivity|]. split; vm_compute; reflexivity.
Qed.
Theorem C58_inner_on_refuted : exists src text,
  process_file default_pcfg src = Ok (text, true)
  /\ In ON (split_on cNL src) /\ count_tt WORD (toks_of src) = 8%nat /\ text = nl [OFF].
Proof.
  exists (nl [OFF; $"foo( a  b"; ON; $"c   d)"; $"set( c  d )"]). eexists.
  split; [vm_compute; reflexivity|]. split; [vm_compute; tauto|]. split; vm_compute; reflexivity.
Qed.

Print Assumptions C39_regions.
Print Assumptions C39_region.
Print Assumptions C40_bom_refuted.
