(** * IdemCore: the blocks of a file and of its formatted text are laid out alike *)
From Verif Require Import Base Regex Lex LexProofs LexClass PropLex TextOps TextProofs PropText Tree Parse ParseProofs ParseTerm PropParse PropTerm
  CmdSpec StdSpecs StdDb StdWf PropStd StdShape Layout LayoutProofs Pieces Writing LayKids PropLayout Markup MarkupProofs Pipeline PropCase PropFile PropLintChecks
  ParseShape NamesShape WordShape CommentShape TidyShape Reread CommentFree PropReread ParseBlank ParseSame BodySame LaySame LayBlock Places ParseLines StmtSame.

(** ** Trees that differ in blanks, from the left *)
Definition blankb (n : pnode) : bool := match n with T t => is_ws t | N KWhitespace _ => true | N _ _ => false end.
Fixpoint dropb (l : list pnode) : list pnode := match l with x :: r => if blankb x then dropb r else l | nil => nil end.
Lemma white_dec k : k = KWhitespace \/ k <> KWhitespace. Proof. destruct k; (now left) || (now right). Qed.
Lemma blankb_node k cs : k <> KWhitespace -> blankb (N k cs) = false.
Proof. intros H. destruct k; auto. now destruct H. Qed.
Section Left.
  Variable ctx : pctx.
  Lemma blankn_b x : blankn x -> blankb x = true.
  Proof. destruct x as [t|k cs]; cbn; auto. destruct k; cbn; tauto. Qed.
  Lemma lsim_drop a b : lsim ctx a b -> lsim ctx (dropb a) (dropb b).
  Proof.
    induction 1 as [|x a b Hx _ IH|y a b Hy _ IH|t u a b Htu H IH|k cs ds a b Hcs IHcs H IH]; cbn [dropb].
    - constructor.
    - now rewrite (blankn_b _ Hx).
    - now rewrite (blankn_b _ Hy).
    - cbn [blankb]. assert (E : is_ws u = is_ws t) by (destruct Htu as (E & _); unfold is_ws; now rewrite E). rewrite E. destruct (is_ws t); auto. now apply ls_t.
    - destruct (white_dec k) as [->|Hk]; [exact IH|]. rewrite !blankb_node by auto. now apply ls_n.
  Qed.
  Lemma blank_node k cs : k <> KWhitespace -> ~ blankn (N k cs).
  Proof. intros H. destruct k; cbn; auto. Qed.
  Lemma lsim_nodes k cs a k' ds b : lsim ctx (N k cs :: a) (N k' ds :: b) -> k <> KWhitespace -> k' <> KWhitespace -> k' = k /\ lsim ctx cs ds /\ lsim ctx a b.
  Proof.
    intros H Hk Hk'. inversion H as [|x ? ? Hx|y ? ? Hy| |]; subst; auto.
    - destruct (blank_node _ _ Hk Hx).
    - destruct (blank_node _ _ Hk' Hy).
  Qed.
  Lemma lsim_node_nil k cs a : lsim ctx (N k cs :: a) nil -> k <> KWhitespace -> False.
  Proof. intros H Hk. inversion H as [|x ? ? Hx| | |]; subst. destruct (blank_node _ _ Hk Hx). Qed.
  Lemma lsim_nil_node k cs a : lsim ctx nil (N k cs :: a) -> k <> KWhitespace -> False.
  Proof. intros H Hk. inversion H as [| |y ? ? Hy| |]; subst. destruct (blank_node _ _ Hk Hy). Qed.
  Lemma blankn_flat x : blankn x -> filter nonws (flat x) = nil.
  Proof.
    destruct x as [t|k cs]; cbn [blankn flat]; [intros H; cbn [filter]; unfold nonws; now rewrite H|]. destruct k; try contradiction.
    fold (flats cs). unfold flats. apply nows_ws.
  Qed.
  Lemma lsim_len a b : lsim ctx a b -> List.length (filter nonws (flats a)) = List.length (filter nonws (flats b)).
  Proof.
    induction 1 as [|x a b Hx _ IH|y a b Hy _ IH|t u a b Htu H IH|k cs ds a b Hcs IHcs H IH]; unfold flats in *; cbn [flat_map]; rewrite ?filter_app, ?app_length in *.
    - reflexivity.
    - now rewrite (blankn_flat _ Hx).
    - now rewrite (blankn_flat _ Hy).
    - rewrite IH. f_equal. cbn [flat filter]. unfold nonws. destruct Htu as (E & _). unfold is_ws. rewrite E. now destruct (tt u).
    - rewrite IH. f_equal. exact IHcs.
  Qed.
End Left.
Lemma item_kind x e e1 : item_at x e e1 -> exists k cs, x = N k cs /\ k <> KWhitespace.
Proof.
  intros H. inversion H as [? ? ? S|? ? A|]; subst.
  - destruct S as (s & fn & w1 & lp & w2 & k & a & w3 & rp & -> & _). do 2 eexists. split; [reflexivity|discriminate].
  - destruct A as (t & -> & _). do 2 eexists. split; [reflexivity|discriminate].
  - do 2 eexists. split; [reflexivity|discriminate].
Qed.
Lemma body_false cs e e1 : body_at false cs e e1 -> cs = nil \/ exists k x r, cs = N k x :: r /\ k <> KWhitespace.
Proof.
  intros H. inversion H as [| |? ? ? ? ? ? Hi]; subst; auto. right. apply item_kind in Hi as (k & x' & -> & Hk). eauto.
Qed.
Lemma drop_false cs e e1 : body_at false cs e e1 -> dropb cs = cs.
Proof. intros H. apply body_false in H as [->|(k & x & r & -> & Hk)]; auto. cbn [dropb]. now rewrite blankb_node. Qed.
Lemma body_drop w cs e e1 : body_at w cs e e1 -> exists ws, blanks ws /\ kids cs = (if nlcs ws <? 2 then nil else [B KWhitespace (map T ws) nil]) ++ kids (dropb cs)
  /\ body_at false (dropb cs) (e + nlcs ws) e1 /\ filter nonws (flats cs) = filter nonws (flats (dropb cs)).
Proof.
  intros H. assert (G : forall w, body_at w cs e e1 -> dropb cs = cs -> body_at false cs e e1 -> exists ws, blanks ws /\ kids cs = (if nlcs ws <? 2 then nil else [B KWhitespace (map T ws) nil]) ++ kids (dropb cs)
  /\ body_at false (dropb cs) (e + nlcs ws) e1 /\ filter nonws (flats cs) = filter nonws (flats (dropb cs))).
  { intros ? _ E Hb. rewrite E. exists nil. split; [reflexivity|]. cbn [nlcs]. rewrite Z.add_0_r. auto. }
  inversion H as [|ws r ? ? Hw Hr|]; subst.
  - eapply G; eauto. constructor.
  - exists ws. split; [exact Hw|]. cbn [dropb blankb]. rewrite (drop_false _ _ _ Hr). split; [|split; [exact Hr|]].
    + change (N KWhitespace (map T ws) :: r) with ([N KWhitespace (map T ws)] ++ r). rewrite kids_app. f_equal. unfold kids. cbn [flat_map].
      assert (E : node_newlines (N KWhitespace (map T ws)) = nlcs ws).
      { rewrite newlines_text. cbn [flat]. clear. induction ws as [|t ws IH]; [reflexivity|]. cbn [map flat_map flat nlcs]. rewrite map_app, concat_app, count_chr_app.
        cbn [map concat]. rewrite app_nil_r. unfold nlc. f_equal. exact IH. }
      rewrite E. destruct (nlcs ws <? 2); [reflexivity|]. rewrite create_eq. rewrite app_nil_r. f_equal. f_equal. apply kids_isT. clear. induction ws; constructor; cbn; auto.
    + unfold flats. cbn [flat_map flat]. rewrite filter_app. rewrite nows_ws; [reflexivity|]. clear -Hw. unfold blanks in Hw. induction ws as [|t ws IH]; [reflexivity|].
      cbn [map flat_map flat forallb app] in *. apply andb_prop in Hw as [-> Hw]. auto.
  - eapply G; eauto.
    + match goal with Hi : item_at _ _ _ |- _ => apply item_kind in Hi as (k & x' & -> & Hk) end. cbn [dropb]. now rewrite blankb_node.
    + econstructor; eauto.
Qed.

Section Core.
  Variable ctx : pctx.
  Variable e : env.
  Variable strict : bool.
  Hypothesis Htab : 0 <= f_tab (cfg e).
  Variable ct : fcfg.
  Hypothesis Hover : overrides (cfg e) ct.
  Hypothesis Hplain : plain_passes (cfg e).
  Let c := cfg e.

  (** ** Nodes as the parser makes them of files without comments and switches *)
  Definition fit (parent : kind) (n : pnode) : Prop :=
    tidy strict n = true /\ wfb (create_box n) = true /\ calm (flat n) = true /\ names_ok c parent (create_box n) = true.
  Definition lfit (k : kind) (cs : list pnode) : Prop :=
    forallb (tidy strict) cs = true /\ forallb wfb (kids cs) = true /\ calm (flats cs) = true /\ forallb (names_ok c k) (kids cs) = true.
  Lemma fit_kids parent k cs : fit parent (N k cs) -> lfit k cs.
  Proof.
    intros (A & D & E & F). rewrite create_eq in *. cbn [tidy names_ok flat] in *. apply andb_prop in A as [_ A]. apply andb_prop in F as [_ F].
    apply wfb_kids in D. repeat split; auto.
  Qed.
  Lemma lfit_cons k k' x cs : lfit k (N k' x :: cs) -> k' <> KWhitespace -> fit k (N k' x) /\ lfit k cs.
  Proof.
    intros (A & D & E & F) Hk. rewrite white_kid in D, F by auto. cbn [forallb] in *. unfold flats in E. cbn [flat_map] in E. rewrite calm_app in E.
    apply andb_prop in A as [A1 A]. apply andb_prop in D as [D1 D]. apply andb_prop in E as [E1 E]. apply andb_prop in F as [F1 F].
    repeat split; auto.
  Qed.
  Lemma lfit_drop k cs : lfit k cs -> lfit k (dropb cs).
  Proof.
    induction cs as [|x cs IH]; auto. intros H. cbn [dropb]. destruct (blankb x) eqn:Ex; auto. apply IH. destruct H as (A & D & E & F).
    cbn [forallb] in A. apply andb_prop in A as [_ A]. unfold flats in E. cbn [flat_map] in E. rewrite calm_app in E. apply andb_prop in E as [_ E].
    change (x :: cs) with ([x] ++ cs) in D, F. rewrite kids_app, forallb_app in D, F. apply andb_prop in D as [_ D]. apply andb_prop in F as [_ F]. repeat split; auto.
  Qed.
  Lemma fit_mute parent k cs : fit parent (N k cs) -> mute (create_box (N k cs)) = true.
  Proof. intros (A & _ & E & _). eapply calm_mute; eauto. Qed.
  Lemma fit_toks parent k cs : fit parent (N k cs) -> btoks (create_box (N k cs)) = filter nonws (flat (N k cs)).
  Proof. intros (A & _). exact (box_tokens strict (N k cs) A). Qed.

  (** the texts of a laid-out box, one for each token *)
  Lemma realizes_writes its ps : realizes e its ps -> (forall x p, ~ In (IComment x p) its) -> forall toks, Forall2 stands ps toks -> Forall2 writes its toks.
  Proof.
    induction 1 as [|k s its p ps Ht Hk H IH|]; intros Hn toks Hs.
    - inversion Hs. constructor.
    - inversion Hs as [|? t ? ts [Hst _] Hs']; subst. constructor; [exact Hst|]. apply IH; auto. intros x q Hin. apply (Hn x q). now right.
    - destruct (Hn x q). now left.
  Qed.
  Lemma realizes_len its ps : realizes e its ps -> (forall x p, ~ In (IComment x p) its) -> List.length ps = List.length its.
  Proof.
    induction 1 as [|k s its p ps Ht Hk H IH|]; intros Hn; [reflexivity| |].
    - cbn. f_equal. apply IH. intros x q Hin. apply (Hn x q). now right.
    - destruct (Hn x q). now left.
  Qed.
  Lemma mute_items b : mute b = true -> forall parent x p, ~ In (IComment x p) (items c parent b).
  Proof.
    induction b as [k p cs IH] using box_ind'. intros Hm parent x q Hin. cbn [items mute] in *. apply andb_prop in Hm as [Hm1 Hm].
    apply in_app_or in Hin as [Hin|Hin].
    - destruct k; cbn [own_items] in Hin; try discriminate Hm1;
      repeat match type of Hin with context [match ?z with _ => _ end] => destruct z end; cbn in Hin; intuition discriminate.
    - apply in_flat_map in Hin as (b & Hb & Hin). rewrite Forall_forall in IH. rewrite forallb_forall in Hm. exact (IH _ Hb (Hm _ Hb) _ _ _ Hin).
  Qed.
  (** the items of a box are as many as its tokens *)
  Lemma tidy_len n : forall parent, tidy strict n = true -> forall k cs, n = N k cs -> mute (create_box n) = true -> names_ok c parent (create_box n) = true ->
    List.length (items c parent (create_box n)) = List.length (btoks (create_box n)).
  Proof.
    induction n as [t|k cs IH] using pnode_ind'; intros parent Ht k0 cs0 E Hm Hn; [discriminate|]. clear k0 cs0 E. rewrite create_eq in *.
    cbn [tidy items btoks names_ok mute] in *. apply andb_prop in Ht as [Hk Ht]. apply andb_prop in Hm as [Hm1 Hm]. apply andb_prop in Hn as [Hn1 Hn]. rewrite !app_length. f_equal.
    - apply (own_len ctx); auto. intros Hp. destruct (tidy_head _ _ _ Hk Hp) as (t & q & -> & _). exists t, q, t, q. repeat split; auto.
    - assert (G : forall b, In b (kids cs) -> List.length (items c k b) = List.length (btoks b)).
      { intros b Hb. rewrite forallb_forall in Hm, Hn, Ht. rewrite Forall_forall in IH. pose proof (Hm _ Hb) as M. pose proof (Hn _ Hb) as Nn. apply kids_in in Hb as (k1 & x & Hin & ->).
        apply (IH _ Hin) with (k := k1) (cs := x); auto. }
      clear -G. induction (kids cs) as [|b l IHl]; [reflexivity|]. cbn [flat_map]. rewrite !app_length, G by now left. f_equal. apply IHl. intros. apply G. now right.
  Qed.
  Lemma layout_len parent k cs sib path term cur passno l o : fit parent (N k cs) -> reflow e (create_box (N k cs)) sib path term cur passno = Ok (l, o) ->
    List.length (pieces c parent l) = List.length (filter nonws (flat (N k cs))).
  Proof.
    intros Hf H. pose proof (fit_mute _ _ _ Hf) as Hm. pose proof Hf as (A & D & E & F). rewrite <- (fit_toks _ _ _ Hf), <- (tidy_len (N k cs) parent A k cs eq_refl Hm F).
    destruct (reflow_lok e _ Htab D _ _ _ _ _ _ _ H) as [_ L]. apply realizes_len; [apply (proj1 (lok_realizes e) _ _ _ L parent D)|now apply mute_items].
  Qed.

  (** ** One statement *)
  Lemma leaf_pieces parent k p sib path term cur passno l o : tokk k = true -> wfb (B k p nil) = true -> reflow e (B k p nil) sib path term cur passno = Ok (l, o) ->
    exists lines, pieces c parent l = own_pieces c parent k p cur lines /\ (is_rparen_k k = true -> o = shift cur 1) /\ (k = KAtWord -> row o = row cur).
  Proof.
    intros Hk Hw H. destruct (reflow_lok e _ Htab Hw _ _ _ _ _ _ _ H) as [Hp L]. inversion L as [? ? ? pos pass w v x lines ls o' l' H1 H2 H3 H4 H5 H6]; subst. subst l'. cbn [lpos] in *.
    assert (ls = nil /\ o = own_end (Lay k p pos pass w v x lines ls)) as [-> ->] by (destruct (leaf_k k); inversion H6; subst; auto).
    exists lines. cbn [pieces flat_map]. rewrite app_nil_r. split; [reflexivity|]. split.
    - intros Hr. destruct k; try discriminate. reflexivity.
    - intros ->. cbn [wfb forallb andb] in Hw. apply andb_prop in Hw as [Hw _]. apply andb_prop in Hw as [_ Hw]. unfold own_end. cbn [lkind lpos lpcs].
      now rewrite flow_text_one.
  Qed.
  Definition ends_at (ps : list piece) (cur o : cursor) : Prop :=
    exists pf mid pl, ps = pf :: mid ++ [pl] /\ p_at pf = cur /\ row (p_at pl) = row o.
  Lemma stmt_rows parent s p fn lp ag rp sib path term cur passno l o :
    wfb (B (KStatement s) p [fn; lp; ag; rp]) = true -> names_ok c parent (B (KStatement s) p [fn; lp; ag; rp]) = true ->
    bcs fn = nil -> reflow e (B (KStatement s) p [fn; lp; ag; rp]) sib path term cur passno = Ok (l, o) ->
    ends_at (pieces c parent l) cur o.
  Proof.
    intros Hw Hn Hfn H. rewrite reflow_eq in H. change (ends_at (pieces c parent (fst (l, o))) cur (snd (l, o))).
    revert H. apply (try_passes_inv (fun y => ends_at (pieces c parent (fst y)) cur (snd y))); [|discriminate].
    intros pass w [l1 o1] H. unfold try_pass, reflow_once in H. cbn [bkind] in H. unfold reflow_statement in H. cbn [children_of] in H.
    apply bindr_ok in H as (a & E & H). injection H as <- <-. cbn [fst snd]. revert E.
    unfold Layout.ckind. cbn [fst]. destruct (is_funname_k (bkind fn)) eqn:K1; [|discriminate]. cbn [negb]. intros E. apply bindr_ok in E as ([lf c0] & E1 & E). cbn [snd] in E1.
    destruct (is_lparen_k (bkind lp)) eqn:K2; [|discriminate]. cbn [negb] in E. apply bindr_ok in E as ([ll c2] & E2 & E).
    destruct (is_arggroup_k (bkind ag)) eqn:K3; [|discriminate]. cbn [negb] in E. apply bindr_ok in E as ([la c3] & E3 & E).
    destruct (is_rparen_k (bkind rp)) eqn:K4; [|discriminate]. cbn [negb] in E.
    match type of E with context [if f_dangle ?k && ?r then (true, true) else ?z] => destruct (if f_dangle k && r then (true, true) else z) as [dangle v0] end.
    apply bindr_ok in E as (dcur & _ & E). apply bindr_ok in E as ([[[ls c4] v1] x1] & E4 & E). injection E as <-. cbn [a_out a_cs].
    unfold stmt_close in E4. apply bindr_ok in E4 as ([lr c4'] & E4 & E). injection E as <- <- <- <-. cbn [snd] in E4.
    cbn [wfb forallb] in Hw. apply andb_prop in Hw as [Hw _]. repeat (apply andb_prop in Hw as [?W Hw]).
    cbn [names_ok is_scalar_k forallb andb] in Hn. apply andb_prop in Hn as [Nf _].
    destruct fn as [kf pf cf], rp as [kr pr cr]. cbn [bkind bcs] in *. destruct kf; try discriminate. destruct kr; try discriminate. subst cf.
    assert (cr = nil) as -> by (cbn [wfb] in W2; apply andb_prop in W2 as [_ W2]; destruct cr; [reflexivity|discriminate]).
    destruct (leaf_pieces (KStatement s) KFunname _ _ _ _ _ _ _ _ eq_refl W E1) as (lin & P1 & _ & _).
    destruct (leaf_pieces (KStatement s) KRParen _ _ _ _ _ _ _ _ eq_refl W2 E4) as (lin2 & P4 & Ho & _). rewrite (Ho eq_refl).
    cbn [names_ok is_scalar_k forallb] in Nf. rewrite andb_true_r in Nf. destruct pf as [|[t|] pf]; try discriminate.
    destruct (scalar_piece _ _ KFunname _ _ eq_refl Nf) as (txt & Et & _). cbn [own_pieces] in P1. rewrite Et in P1. cbn [own_pieces] in P4.
    cbn [bkind bpcs pieces own_pieces app flat_map]. rewrite P1, P4. cbn [app].
    eexists _, _, _. split; [rewrite app_assoc; reflexivity|]. cbn [p_at]. split; [reflexivity|]. cbn. reflexivity.
  Qed.
  Lemma one_core parent k cs1 cs2 sib path term cur passno l o : (match k with KStatement _ | KAtStmt => true | _ => false end) = true ->
    forallb inner_b (kids cs1) = true -> forallb inner_b (kids cs2) = true -> lsim ctx cs1 cs2 -> fit parent (N k cs1) -> fit parent (N k cs2) ->
    reflow e (create_box (N k cs1)) sib path term cur passno = Ok (l, o) -> Forall2 stands (pieces c parent l) (filter nonws (flat (N k cs2))) ->
    dsame ct parent (create_box (N k cs1)) (create_box (N k cs2)).
  Proof.
    intros Hk I1 I2 Hs F1 F2 H Hst. pose proof (fit_mute _ _ _ F1) as M1. pose proof (fit_mute _ _ _ F2) as M2.
    pose proof F1 as (A1 & W1 & _ & N1). pose proof F2 as (A2 & W2 & _ & _).
    assert (Hb : bform ctx (create_box (N k cs1)) (create_box (N k cs2))).
    { rewrite !create_eq in *. cbn [tidy] in *. apply andb_prop in A1 as [_ A1]. apply andb_prop in A2 as [_ A2]. constructor.
      - destruct k; discriminate.
      - eapply lsim_form; eauto; eapply wfb_kids; eauto. }
    assert (Hone : forall cs, forallb inner_b (kids cs) = true -> wfb (create_box (N k cs)) = true -> single (create_box (N k cs)) = true).
    { intros cs I W. rewrite create_eq in *. apply wfb_kids in W. cbn [single]. apply andb_true_intro. split; [destruct k; auto; discriminate|].
      rewrite forallb_forall in *. intros b Hin. apply inner_single; auto. }
    apply ds_one; auto using mute_quiet. eapply form_same; eauto.
    rewrite (fit_toks _ _ _ F2). destruct (reflow_lok e _ Htab W1 _ _ _ _ _ _ _ H) as [_ L].
    eapply realizes_writes; [apply (proj1 (lok_realizes e) _ _ _ L parent W1)|now apply mute_items|exact Hst].
  Qed.
  Lemma stmt_kids fn w1 lp w2 k a w3 rp : is_group_k k = true ->
    kids (N KFunname [T fn] :: map T w1 ++ [N KLParen [T lp]] ++ map T w2 ++ [N k a] ++ map T w3 ++ [N KRParen [T rp]])
    = [B KFunname [T fn] nil; B KLParen [T lp] nil; create_box (N k a); B KRParen [T rp] nil].
  Proof.
    intros Hk. assert (G : forall w, kids (map T w) = nil) by (intros w; apply kids_isT; induction w; constructor; cbn; auto).
    change (N KFunname [T fn] :: ?l) with ([N KFunname [T fn]] ++ l). rewrite !kids_app, !G. rewrite (kids_one k) by (destruct k; auto; discriminate). reflexivity.
  Qed.
  Lemma stmt_core x1 d d1 x2 f f1 parent sib path term cur passno l o :
    stmt_at x1 d d1 -> stmt_at x2 f f1 -> nsim ctx x1 x2 -> fit parent x1 -> fit parent x2 ->
    reflow e (create_box x1) sib path term cur passno = Ok (l, o) -> Forall2 stands (pieces c parent l) (filter nonws (flat x2)) ->
    dsame ct parent (create_box x1) (create_box x2) /\ f = row cur + 1 /\ f1 = row o + 1.
  Proof.
    intros (s1 & fn1 & u1 & lp1 & u2 & k1 & a1 & u3 & rp1 & -> & _ & _ & _ & Hk1 & _) (s2 & fn2 & v1 & lp2 & v2 & k2 & a2 & v3 & rp2 & -> & _ & _ & _ & Hk2 & _ & _ & Hf & Hf1)
      (k & cs1 & cs2 & E1 & E2 & Hs) F1 F2 H Hst.
    injection E1 as <- E1. injection E2 as <- E2.
    pose proof (stmt_kids fn1 u1 lp1 u2 k1 a1 u3 rp1 Hk1) as K1. pose proof (stmt_kids fn2 v1 lp2 v2 k2 a2 v3 rp2 Hk2) as K2.
    cbn [app] in *. rewrite E1 in K1, F1, H. rewrite E2 in K2, F2, Hst. rewrite E1, E2. clear E1 E2. assert (Ik : forall k a, is_group_k k = true -> inner_b (create_box (N k a)) = true) by (intros [] ?; try discriminate; reflexivity).
    split; [eapply one_core; eauto; rewrite ?K1, ?K2; cbn [forallb]; rewrite Ik by auto; reflexivity|].
    pose proof F1 as (_ & W1 & _ & N1). rewrite create_eq, K1 in H, W1, N1. pose proof (stmt_rows _ _ _ _ _ _ _ _ _ _ _ _ _ _ W1 N1 eq_refl H) as (pf & mid & pl & Ep & Ep1 & Ep2).
    rewrite <- (fit_toks _ _ _ F2), create_eq, K2 in Hst. cbn [btoks own_toks flat_map app] in Hst. rewrite Ep in Hst.
    inversion Hst as [|? ? ? ? [_ S1] Hst2]; subst. rewrite app_comm_cons in Hst2.
    split; [rewrite S1; lia|]. apply Forall2_app_inv_l in Hst2 as (y1 & y2 & Q1 & Q2 & Q3). inversion Q2 as [|? t ? ? [_ S2] Q4]; subst. inversion Q4; subst.
    apply app_inj_tail in Q3 as [_ ->]. rewrite S2. lia.
  Qed.
  Lemma atword_core x1 d x2 f parent sib path term cur passno l o :
    atword_at x1 d -> atword_at x2 f -> nsim ctx x1 x2 -> fit parent x1 -> fit parent x2 ->
    reflow e (create_box x1) sib path term cur passno = Ok (l, o) -> Forall2 stands (pieces c parent l) (filter nonws (flat x2)) ->
    dsame ct parent (create_box x1) (create_box x2) /\ f = row cur + 1 /\ f = row o + 1.
  Proof.
    intros (t1 & -> & _) (t2 & -> & _ & Hf) (k & cs1 & cs2 & E1 & E2 & Hs) F1 F2 H Hst. injection E1 as <- <-. injection E2 as <-.
    split; [eapply one_core; eauto|]. pose proof F1 as (_ & W1 & _ & N1). rewrite create_eq in H, W1. rewrite <- (fit_toks _ _ _ F2) in Hst. cbn in Hst.
    assert (G : exists p, pieces c parent l = [p] /\ p_at p = cur /\ row o = row cur).
    { rewrite reflow_eq in H. change (exists p, pieces c parent (fst (l, o)) = [p] /\ p_at p = cur /\ row (snd (l, o)) = row cur).
      revert H. apply (try_passes_inv (fun y => exists p, pieces c parent (fst y) = [p] /\ p_at p = cur /\ row (snd y) = row cur)); [|discriminate].
      intros pass w [l1 o1] H. unfold try_pass, reflow_once in H. cbn [bkind] in H. unfold reflow_atstmt in H.
      apply bindr_ok in H as (a & E & H). injection H as <- <-. cbn [fst snd]. change (kids [N KAtWord [T t1]]) with [B KAtWord [T t1] nil] in *. cbn [children_of Layout.ckind fst bkind is_atword_k negb snd] in E. apply bindr_ok in E as ([la c1] & E1 & E). injection E as <-.
      cbn [a_cs a_out]. assert (W2 : wfb (B KAtWord [T t1] nil) = true) by (apply wfb_kids in W1; cbn [forallb] in W1; now apply andb_prop in W1).
      destruct (leaf_pieces KAtStmt KAtWord _ _ _ _ _ _ _ _ eq_refl W2 E1) as (lin & P1 & _ & Ho). cbn [pieces bkind bpcs own_pieces app flat_map]. rewrite P1, app_nil_r.
      cbn [own_pieces scalar_text]. eexists. split; [reflexivity|]. split; [reflexivity|]. now apply Ho. }
    destruct G as (p & Ep & Ea & Eo). rewrite Ep in Hst. inversion Hst as [|? ? ? ? [_ S1] _]; subst. rewrite S1. lia.
  Qed.
  (** ** Blocks *)
  Definition Pitem (x1 : pnode) : Prop := forall x2 f f1 parent sib path cur l o,
    nsim ctx x1 x2 -> item_at x2 f f1 -> fit parent x1 -> fit parent x2 ->
    reflow e (create_box x1) sib path false cur 0 = Ok (l, o) -> Forall2 stands (pieces c parent l) (filter nonws (flat x2)) ->
    dsame ct parent (create_box x1) (create_box x2) /\ f = row cur + 1 /\ f1 = row o + 1.
  Definition Pflow (cs1 : list pnode) : Prop := forall cs2 f f1 path n colc cur v x ls o v' x',
    lsim ctx cs1 cs2 -> flow_at cs2 f f1 -> lfit KFlow cs1 -> lfit KFlow cs2 ->
    flow_children (f_tab c) path 0 (children_of e (kids cs1) n) true colc cur v x = Ok (ls, o, v', x') ->
    Forall2 stands (flat_map (pieces c KFlow) ls) (filter nonws (flats cs2)) ->
    Forall2 (dsame ct KFlow) (kids cs1) (kids cs2) /\ f = row colc + 1 /\ f1 = row o + 1.
  (** the same statements, up to blank lines at the end *)
  Definition agree (a b : list box) : Prop :=
    exists A A' t t', a = A ++ t /\ b = A' ++ t' /\ Forall2 (dsame ct KBody) A A' /\ whites t /\ whites t'.
  Definition Q (cs1 : list pnode) : Prop := forall cs2 f f1 path n colc cur v x ls o v' x',
    lsim ctx cs1 cs2 -> body_at false cs2 f f1 -> lfit KBody cs1 -> lfit KBody cs2 ->
    body_children path 0 (children_of e (kids cs1) n) colc cur v x = Ok (ls, o, v', x') ->
    Forall2 stands (flat_map (pieces c KBody) ls) (filter nonws (flats cs2)) ->
    (cs1 = nil /\ cs2 = nil /\ f1 = f /\ o = cur)
    \/ (f = row colc + 1 /\ agree (kids cs1) (kids cs2) /\ (f1 = row o + 2 -> Forall2 (dsame ct KBody) (kids cs1) (kids cs2))).
  Lemma agree_cons a b l l' : dsame ct KBody a b -> agree l l' -> agree (a :: l) (b :: l').
  Proof. intros H (A & A' & t & t' & -> & -> & F & W & W'). exists (a :: A), (b :: A'), t, t'. repeat split; auto. Qed.
  Lemma white_flow p sib path cur : exists l, reflow e (B KWhitespace p nil) sib path false cur 0 = Ok (l, cur) /\ pieces c KBody l = nil.
  Proof.
    rewrite (reflow_flat c) by (auto; exact I). cbn [Z.gtb Z.compare]. unfold try_pass, reflow_once. cbn [bkind]. unfold reflow_white. cbn [bindr].
    eexists. split; reflexivity.
  Qed.
  Lemma whites_nil : whites nil. Proof. constructor. Qed.
  Lemma whites_one p : whites [B KWhitespace p nil]. Proof. repeat constructor. Qed.

  (** what comes after a statement, or at the beginning of a block *)
  Lemma gap cs1 d d1 : body_at true cs1 d d1 -> Q (dropb cs1) -> forall cs2 f f1 path n colc cur v x ls o v' x',
    lsim ctx cs1 cs2 -> body_at true cs2 f f1 -> lfit KBody cs1 -> lfit KBody cs2 ->
    body_children path 0 (children_of e (kids cs1) n) colc cur v x = Ok (ls, o, v', x') ->
    Forall2 stands (flat_map (pieces c KBody) ls) (filter nonws (flats cs2)) ->
    f = row colc ->
    agree (kids cs1) (kids cs2)
    /\ (f1 = row o + 2 -> row colc = row cur + 1 -> Forall2 (dsame ct KBody) (kids cs1) (kids cs2))
    /\ (f1 = row o + 2 -> colc = cur -> Forall2 (dsame ct KBody) (kids cs1) (kids cs2) \/ exists p, kids cs1 = nil /\ kids cs2 = [B KWhitespace p nil]).
  Proof.
    intros B1 HQ cs2 f f1 path n colc cur v x ls o v' x' Hs B2 F1 F2 H Hst Hf.
    destruct (body_drop _ _ _ _ B1) as (ws1 & _ & K1 & _ & _). destruct (body_drop _ _ _ _ B2) as (ws2 & _ & K2 & D2 & T2).
    apply lsim_drop in Hs. apply lfit_drop in F1. apply lfit_drop in F2. rewrite T2 in Hst.
    (* the layout of the rest *)
    assert (G : exists n' colc' cur' v0 x0 ls', body_children path 0 (children_of e (kids (dropb cs1)) n') colc' cur' v0 x0 = Ok (ls', o, v', x')
      /\ flat_map (pieces c KBody) ls' = flat_map (pieces c KBody) ls
      /\ (if nlcs ws1 <? 2 then colc' = colc /\ cur' = cur else row colc' = row colc + 1 /\ cur' = colc)).
    { rewrite K1 in H. destruct (nlcs ws1 <? 2); cbn [app] in H; [exists n, colc, cur, v, x, ls; auto|].
      cbn [children_of body_children snd] in H. destruct (white_flow (map T ws1) n path colc) as (lw & Ew & Pw). rewrite Ew in H. cbn [bindr] in H.
      apply bindr_ok in H as ([[[ls1 o1] v1] x1] & E & H). injection H as <- <- <- <-. cbn [bkind is_parg_k] in E.
      exists n, (Cur (row colc + 1) (colm colc)), colc, (v && lvalid lw), (Z.max x (lext lw)), ls1. split; [exact E|]. cbn [flat_map]. rewrite Pw. auto. }
    destruct G as (n' & colc' & cur' & v0 & x0 & ls' & H' & Ep & Hc). rewrite <- Ep in Hst.
    destruct (HQ _ _ _ _ _ _ _ _ _ _ _ _ _ Hs D2 F1 F2 H' Hst) as [(E1 & E2 & E3 & E4)|(E1 & E2 & E3)].
    - rewrite E1 in K1. rewrite E2 in K2. change (kids nil) with (@nil box) in K1, K2. rewrite app_nil_r in K1, K2. rewrite K1, K2. subst o f1.
      split; [exists nil, nil; do 2 eexists; repeat split; [constructor|destruct (nlcs ws1 <? 2); auto using whites_nil, whites_one|destruct (nlcs ws2 <? 2); auto using whites_nil, whites_one]|].
      destruct (nlcs ws1 <? 2) eqn:L1; destruct Hc as [Hc1 Hc2]; subst cur'.
      + split; intros Hr Hcur.
        * assert (nlcs ws2 = 1) as -> by lia. constructor.
        * assert (nlcs ws2 = 2) as -> by (rewrite Hcur in Hf; lia). cbn [Z.ltb Z.compare Pos.compare Pos.compare_cont]. right. eexists. split; reflexivity.
      + assert (Hr : f + nlcs ws2 = row colc + 2 -> Forall2 (dsame ct KBody) [B KWhitespace (map T ws1) nil] (if nlcs ws2 <? 2 then nil else [B KWhitespace (map T ws2) nil])).
        { intros Hr. assert (nlcs ws2 = 2) as -> by lia. repeat constructor. }
        split; intros; auto.
    - assert (Hn : (nlcs ws2 <? 2) = (nlcs ws1 <? 2)).
      { destruct (nlcs ws1 <? 2); destruct Hc as [Hc1 Hc2]; [subst colc'|]; [apply Z.ltb_lt|apply Z.ltb_ge]; lia. }
      rewrite Hn in K2. rewrite K1, K2. destruct (nlcs ws1 <? 2); cbn [app]; [auto|].
      assert (Hw : dsame ct KBody (B KWhitespace (map T ws1) nil) (B KWhitespace (map T ws2) nil)) by constructor.
      split; [now apply agree_cons|]. split; intros Hr _; [|left]; constructor; auto.
  Qed.
  (** the texts of the first node *)
  Lemma take_first k x1 x2 r2 parent sib path term cur passno l o ps : nsim ctx (N k x1) x2 -> fit parent (N k x1) ->
    reflow e (create_box (N k x1)) sib path term cur passno = Ok (l, o) ->
    Forall2 stands (pieces c parent l ++ ps) (filter nonws (flats (x2 :: r2))) ->
    Forall2 stands (pieces c parent l) (filter nonws (flat x2)) /\ Forall2 stands ps (filter nonws (flats r2)).
  Proof.
    intros (k' & a & b & E1 & E2 & Hs) F H Hst. injection E1 as <- <-. unfold flats in Hst. cbn [flat_map] in Hst. rewrite filter_app in Hst. apply Forall2_split in Hst; [exact Hst|].
    rewrite (layout_len _ _ _ _ _ _ _ _ _ _ F H), E2. cbn [flat]. fold (flats x1) (flats b). now apply (lsim_len ctx).
  Qed.
  Lemma stmt_kind x d d1 : stmt_at x d d1 -> exists s cs, x = N (KStatement s) cs.
  Proof. intros (s & fn & w1 & lp & w2 & k & a & w3 & rp & -> & _). eauto. Qed.
  Lemma lsim_item a r1 b r2 d d1 f f1 : item_at a d d1 -> item_at b f f1 -> lsim ctx (a :: r1) (b :: r2) -> nsim ctx a b /\ lsim ctx r1 r2.
  Proof.
    intros Ha Hb Hs. apply item_kind in Ha as (k & x & -> & Hk). apply item_kind in Hb as (k' & y & -> & Hk').
    apply lsim_nodes in Hs as (-> & H1 & H2); auto. split; auto. exists k, x, y. auto.
  Qed.
  Lemma lfit_item k x r d d1 : item_at x d d1 -> lfit k (x :: r) -> fit k x /\ lfit k r /\ kids (x :: r) = create_box x :: kids r.
  Proof.
    intros Hi H. apply item_kind in Hi as (k' & y & -> & Hk). destruct (lfit_cons _ _ _ _ H Hk). repeat split; auto; try (apply H0 || apply H1). now apply white_kid.
  Qed.
  Theorem blocks_core :
    (forall x d d1, item_at x d d1 -> Pitem x) /\ (forall cs d d1, flow_at cs d d1 -> Pflow cs) /\ (forall w cs d d1, body_at w cs d d1 -> Q (dropb cs)).
  Proof.
    apply (at_ind (fun x _ _ => Pitem x) (fun cs _ _ => Pflow cs) (fun _ cs _ _ => Q (dropb cs))).
    - intros x1 d d1 S1 x2 f f1 parent sib path cur l o Hs I2 F1 F2 H Hst. inversion I2 as [? ? ? S2|? ? S2|cs2 ? ? S2]; subst.
      + eapply stmt_core; eauto.
      + exfalso. destruct (stmt_kind _ _ _ S1) as (s & z & ->). destruct S2 as (t & -> & _). destruct Hs as (k & a & b & E1 & E2 & _). congruence.
      + exfalso. destruct (stmt_kind _ _ _ S1) as (s & z & ->). destruct Hs as (k & a & b & E1 & E2 & _). congruence.
    - intros x1 d S1 x2 f f1 parent sib path cur l o Hs I2 F1 F2 H Hst. inversion I2 as [? ? ? S2|? ? S2|cs2 ? ? S2]; subst.
      + exfalso. destruct (stmt_kind _ _ _ S2) as (s & z & ->). destruct S1 as (t & -> & _). destruct Hs as (k & a & b & E1 & E2 & _). congruence.
      + eapply atword_core; eauto.
      + exfalso. destruct S1 as (t & -> & _). destruct Hs as (k & a & b & E1 & E2 & _). congruence.
    - intros cs1 d d1 S1 IH x2 f f1 parent sib path cur l o Hs I2 F1 F2 H Hst.
      destruct Hs as (k & a & b & E1 & -> & Hs). injection E1 as <- <-.
      inversion I2 as [? ? ? S2|? ? S2|cs2 ? ? S2]; subst.
      { exfalso. destruct (stmt_kind _ _ _ S2) as (s & z & E). discriminate. }
      { exfalso. destruct S2 as (t & E & _). discriminate. }
      rewrite create_eq, (reflow_flat c) in H by (auto; exact I). cbn [Z.gtb Z.compare] in H. unfold try_pass, reflow_once in H. cbn [bkind] in H.
      apply bindr_ok in H as (at1 & E & H). injection H as <- <-. unfold reflow_flow in E.
      assert (G : exists ls v x, flow_children (f_tab c) (push_path path (B KFlow cs1 (kids cs1)) sib) 0 (children_of e (kids cs1) 0) true cur cur true 0 = Ok (ls, a_out at1, v, x) /\ a_cs at1 = ls).
      { revert E. set (q := children_of e (kids cs1) 0). destruct q as [|c1 q]; [|destruct q as [|c2 q]]; intros E.
        - apply bindr_ok in E as ([[[ls o1] v1] x1] & E & H). injection H as <-. eauto.
        - apply bindr_ok in E as (z & _ & H). discriminate.
        - apply bindr_ok in E as ([[[ls o1] v1] x1] & E & H). injection H as <-. eauto 6. }
      destruct G as (ls & v & x & G & Els). cbn [pieces bkind own_pieces app] in Hst. rewrite Els in Hst. cbn [flat] in Hst.
      destruct (IH _ _ _ _ _ _ _ _ _ _ _ _ _ Hs S2 (fit_kids _ _ _ F1) (fit_kids _ _ _ F2) G Hst) as (A1 & A2 & A3).
      split; [|auto]. rewrite !create_eq. now constructor.
    - intros d cs2 f f1 path n colc cur v x ls o v' x' Hs S2 F1 F2 H Hst. discriminate H.
    - intros x1 d d1 S1 cs2 f f1 path n colc cur v x ls o v' x' Hs S2 F1 F2 H Hst.
      destruct (lfit_item _ _ _ _ _ (it_stmt _ _ _ S1) F1) as (F1x & F1r & K1). rewrite K1 in H. cbn [children_of flow_children] in H.
      destruct (negb _); [discriminate|]. apply bindr_ok in H as ([l c0] & E & H). cbn [snd] in E. cbn in H. injection H as <- <- <- <-. cbn [flat_map] in Hst.
      destruct (stmt_kind _ _ _ S1) as (s1 & z1 & Ex1). inversion S2 as [|x2 ? ? S2x|x2 bd2 rest2 ? e1 e2 ? S2x]; subst.
      + exfalso. apply lsim_node_nil in Hs; auto. discriminate.
      + destruct (lfit_item _ _ _ _ _ (it_stmt _ _ _ S2x) F2) as (F2x & F2r & K2). destruct (lsim_item _ _ _ _ _ _ _ _ (it_stmt _ _ _ S1) (it_stmt _ _ _ S2x) Hs) as [Hx _].
        destruct (take_first _ _ _ _ _ _ _ _ _ _ _ _ _ Hx F1x E Hst) as [St _].
        destruct (stmt_core _ _ _ _ _ _ _ _ _ _ _ _ _ _ S1 S2x Hx F1x F2x E St) as (A1 & A2 & A3).
        rewrite K1, K2. repeat split; auto. constructor; auto; constructor.
      + exfalso. destruct (lsim_item _ _ _ _ _ _ _ _ (it_stmt _ _ _ S1) (it_stmt _ _ _ S2x) Hs) as [_ Hr]. apply lsim_nil_node in Hr; auto. discriminate.
    - intros x1 bd1 rest1 d d1 d2 d3 S1 B1 IHb R1 IHr cs2 f f1 path n colc cur v x ls o v' x' Hs S2 F1 F2 H Hst.
      destruct (stmt_kind _ _ _ S1) as (s1 & z1 & Ex1). inversion S2 as [|x2 ? ? S2x|x2 bd2 rest2 ? e1 e2 ? S2x B2 R2]; subst cs2.
      { exfalso. rewrite Ex1 in Hs. apply lsim_node_nil in Hs; auto. discriminate. }
      { exfalso. destruct (lsim_item _ _ _ _ _ _ _ _ (it_stmt _ _ _ S1) (it_stmt _ _ _ S2x) Hs) as [_ Hr]. apply lsim_node_nil in Hr; auto. discriminate. }
      subst.
      destruct (lfit_item _ _ _ _ _ (it_stmt _ _ _ S1) F1) as (F1x & F1r & K1). destruct (lfit_item _ _ _ _ _ (it_stmt _ _ _ S2x) F2) as (F2x & F2r & K2).
      destruct (lsim_item _ _ _ _ _ _ _ _ (it_stmt _ _ _ S1) (it_stmt _ _ _ S2x) Hs) as [Hx Hr].
      apply lsim_nodes in Hr as (_ & Hb & Hr); try discriminate.
      pose proof (lfit_cons _ _ _ _ F1r) as G1. destruct G1 as [F1b F1s]; [discriminate|]. pose proof (lfit_cons _ _ _ _ F2r) as G2. destruct G2 as [F2b F2s]; [discriminate|].
      rewrite (white_kid KBody) in K1, K2 by discriminate. rewrite K1 in H. cbn [children_of flow_children] in H.
      destruct (negb _) in H; [discriminate|]. apply bindr_ok in H as ([l c0] & E & H). cbn [snd] in E. apply bindr_ok in H as ([[[ls1 o1] v1] y1] & E1 & H). injection H as <- <- <- <-.
      unfold Layout.ckind in E1. cbn [fst bkind create_box is_body_k negb] in E1. apply bindr_ok in E1 as ([lb cb] & Eb & E1). cbn [snd] in Eb. apply bindr_ok in E1 as ([[[ls2 o2] v2] y2] & E2 & E1).
      injection E1 as <- <- <- <-. cbn [flat_map] in Hst.
      destruct (take_first _ _ _ _ _ _ _ _ _ _ _ _ _ Hx F1x E Hst) as [St Hst1].
      destruct (stmt_core _ _ _ _ _ _ _ _ _ _ _ _ _ _ S1 S2x Hx F1x F2x E St) as (A1 & A2 & A3).
      change (B KBody bd1 _) with (create_box (N KBody bd1)) in Eb.
      assert (Hbn : nsim ctx (N KBody bd1) (N KBody bd2)) by (exists KBody, bd1, bd2; auto).
      destruct (take_first _ _ _ _ _ _ _ _ _ _ _ _ _ Hbn F1b Eb Hst1) as [Sb Hst2].
      destruct (IHr _ _ _ _ _ _ _ _ _ _ _ _ _ Hr R2 F1s F2s E2 Hst2) as (R3 & R4 & R5). cbn [row] in R4.
      rewrite K1, K2. split; [|auto]. constructor; [exact A1|]. constructor; [|exact R3].
      rewrite create_eq, (reflow_flat c) in Eb by (auto; exact I). cbn [Z.gtb Z.compare] in Eb. unfold try_pass, reflow_once in Eb. cbn [bkind] in Eb.
      apply bindr_ok in Eb as (at1 & Ea & Eb). injection Eb as <- <-. unfold reflow_body in Ea. apply bindr_ok in Ea as ([[[lsb ob] vb] xb] & Ec & Ea). injection Ea as <-.
      cbn [pieces bkind own_pieces app a_cs a_out] in *. cbn [flat] in Sb.
      destruct (gap _ _ _ B1 IHb _ _ _ _ _ _ _ _ _ _ _ _ _ Hb B2 (fit_kids _ _ _ F1b) (fit_kids _ _ _ F2b) Ec Sb) as (_ & _ & G3).
      { cbn. lia. }
      rewrite !create_eq. destruct G3 as [G3|(p & G3 & G4)]; [lia|reflexivity|now constructor|]. rewrite G3, G4. apply ds_empty.
    - intros w d cs2 f f1 path n colc cur v x ls o v' x' Hs B2 F1 F2 H Hst. left. cbn [dropb] in *.
      apply body_false in B2 as Hc2. destruct Hc2 as [->|(k & y & r & -> & Hk)]; [|exfalso; apply lsim_nil_node in Hs; auto].
      inversion B2; subst. injection H as <- <- <- <-. auto.
    - intros ws cs d d1 Hw B1 IH. cbn [dropb blankb]. exact IH.
    - intros w x1 r1 d d1 d2 I1 IHx B1 IHb.
      assert (Ed : dropb (x1 :: r1) = x1 :: r1). { destruct (item_kind _ _ _ I1) as (k & y & -> & Hk). cbn [dropb]. now rewrite blankb_node. }
      rewrite Ed. intros cs2 f f1 path n colc cur v x ls o v' x' Hs B2 F1 F2 H Hst. right.
      destruct (item_kind _ _ _ I1) as (k1 & y1 & Ex1 & Hk1). inversion B2 as [| |? x2 r2 ? e1 ? I2 B2']; subst.
      { exfalso. apply lsim_node_nil in Hs; auto. }
      destruct (lfit_item _ _ _ _ _ I1 F1) as (F1x & F1r & K1). destruct (lfit_item _ _ _ _ _ I2 F2) as (F2x & F2r & K2).
      destruct (lsim_item _ _ _ _ _ _ _ _ I1 I2 Hs) as [Hx Hr]. rewrite K1 in H. cbn [children_of body_children] in H.
      apply bindr_ok in H as ([l c0] & E & H). cbn [snd] in E. apply bindr_ok in H as ([[[ls1 o1] v1] z1] & E1 & H). injection H as <- <- <- <-. cbn [flat_map] in Hst.
      destruct (take_first _ _ _ _ _ _ _ _ _ _ _ _ _ Hx F1x E Hst) as [St Hst1].
      destruct (IHx _ _ _ _ _ _ _ _ _ Hx I2 F1x F2x E St) as (A1 & A2 & A3).
      destruct (gap _ _ _ B1 IHb _ _ _ _ _ _ _ _ _ _ _ _ _ Hr B2' F1r F2r E1 Hst1) as (G1 & G2 & _); [cbn; lia|].
      split; [exact A2|]. rewrite K1, K2. split; [now apply agree_cons|]. intros Hf. constructor; [exact A1|]. apply G2; auto.
  Qed.
  (** ** The file *)
  Theorem top_core e1 e2 cs1 cs2 d d1 f1 parent sib path l o : cfg e1 = ct -> cfg e2 = ct -> plain_passes ct ->
    body_at true cs1 d d1 -> body_at true cs2 1 f1 -> lsim ctx cs1 cs2 -> fit parent (N KBody cs1) -> fit parent (N KBody cs2) ->
    kids cs1 = kids (dropb cs1) -> reflow e (create_box (N KBody cs1)) sib path false (Cur 0 0) 0 = Ok (l, o) ->
    Forall2 stands (pieces c parent l) (filter nonws (flat (N KBody cs2))) ->
    forall sib' path' l1 o1, reflow e1 (create_box (N KBody cs1)) sib' path' false (Cur 0 0) 0 = Ok (l1, o1) ->
    exists l' o', reflow e2 (create_box (N KBody cs2)) sib' path' false (Cur 0 0) 0 = Ok (l', o') /\ pieces ct parent l' = pieces ct parent l1.
  Proof.
    intros He1 He2 Hp2 B1 B2 Hs F1 F2 Hk H Hst sib' path' l1 o1 H1. apply fit_kids in F1, F2.
    assert (G : agree (kids cs1) (kids cs2)).
    { destruct (body_drop _ _ _ _ B2) as (ws2 & _ & K2 & D2 & T2). pose proof (lsim_drop _ _ _ Hs) as Hsd.
      rewrite create_eq, (reflow_flat c) in H by (auto; exact I). cbn [Z.gtb Z.compare] in H. unfold try_pass, reflow_once in H. cbn [bkind] in H.
      apply bindr_ok in H as (at1 & Ea & H). injection H as <- <-. unfold reflow_body in Ea. apply bindr_ok in Ea as ([[[ls ob] vb] xb] & Ec & Ea). injection Ea as <-.
      cbn [pieces bkind own_pieces app a_cs] in Hst. cbn [flat] in Hst. fold (flats cs2) in Hst. rewrite T2 in Hst. rewrite Hk in Ec |- *.
      destruct (proj2 (proj2 blocks_core) _ _ _ _ B1 _ _ _ _ _ _ _ _ _ _ _ _ _ Hsd D2 (lfit_drop _ _ F1) (lfit_drop _ _ F2) Ec Hst) as [(E1 & E2 & _)|(E1 & E2 & _)].
      - rewrite E1. rewrite E2 in K2. rewrite K2. change (kids nil) with (@nil box). rewrite app_nil_r. exists nil, nil, nil, (if nlcs ws2 <? 2 then nil else [B KWhitespace (map T ws2) nil]).
        repeat split; [constructor|constructor|]. destruct (nlcs ws2 <? 2); auto using whites_nil, whites_one.
      - cbn [row] in E1. rewrite K2. assert (nlcs ws2 = 0) as -> by lia. exact E2. }
    destruct G as (A & A' & t & t' & E1 & E2 & Fd & W & W'). rewrite create_eq in *. rewrite E1 in H1. rewrite E2.
    pose proof (top_same ct e1 e2 cs1 cs2 A A' t t' He1 He2 Hp2 Fd W W' parent sib' path' (Cur 0 0)) as X. rewrite H1 in X. cbn in X.
    destruct X as ([l' o'] & X1 & X2). exists l', o'. auto.
  Qed.
End Core.
