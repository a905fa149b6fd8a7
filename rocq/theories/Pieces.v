(** * Pieces: the texts a laid-out tree puts on the page, and where *)
From Verif Require Import Base Regex Lex TextOps TextProofs Tree Layout LayoutProofs.

(** ** Specification: a page is a list of placed texts *)

(** a parenthesis, opening or closing; a word, the name of a command or not; a
    bracket comment; a line of a comment; a format switch *)
Inductive pk := PkParen (opening : bool) | PkWord (name : bool) | PkBracket | PkLine | PkSwitch.
Definition is_ppar (k : pk) : bool := match k with PkParen _ => true | _ => false end.
(** whether a text may stand right behind another: anything behind an opening
    parenthesis, a closing parenthesis behind anything, a parenthesis behind the
    name of a command, and anything but a word behind a closing parenthesis *)
Definition touch (a : option pk) (b : pk) : bool :=
  match a, b with
  | None, _ | Some (PkParen true), _ | Some _, PkParen false => true
  | Some (PkParen false), PkWord _ => false
  | Some (PkParen false), _ => true
  | Some (PkWord true), PkParen _ => true
  | Some _, _ => false
  end.
Record piece := Pc { p_at : cursor; p_text : str; p_kind : pk }.
(** cursor behind a text, and its rightmost column *)
Definition text_flow (c : cursor) (text : str) : cursor * Z :=
  match split_on cNL text with
  | l :: ls => let c' := shift c (zlen l) in flow_lines c' (colm c') ls
  | nil => (c, colm c)
  end.
Definition p_end (p : piece) : cursor := fst (text_flow (p_at p) (p_text p)).
Definition p_edge (p : piece) : Z := snd (text_flow (p_at p) (p_text p)).
(** a text that reaches to the end of its line whatever follows *)
Definition line_k (k : pk) : bool := match k with PkLine | PkSwitch => true | _ => false end.

(** [st]: where the last text ended and what it was *)
Definition st := (cursor * option pk)%type.
(** [closed]: whether line comments are to be followed by a line ending; this is
    so of the files whose comments are as the layout expects them ([cmok] below) *)
Section Closed.
Variable closed : bool.
Definition line_st (s : st) : bool := match snd s with Some k => line_k k && closed | None => false end.
Lemma line_closed s : line_st s = true -> closed = true.
Proof. unfold line_st. destruct (snd s) as [k|]; [|discriminate]. intros H. now apply andb_prop in H. Qed.
(** the next text starts behind the last one, on a fresh line if the last one
    swallows the rest of its line, and apart from it unless they may touch *)
Definition fits (s : st) (p : piece) : Prop :=
  cle (fst s) (p_at p)
  /\ (line_st s = true -> row (fst s) < row (p_at p))
  /\ (touch (snd s) (p_kind p) = false -> clt (fst s) (p_at p)).
Definition step (p : piece) : st := (p_end p, Some (p_kind p)).
Fixpoint placed (s : st) (ps : list piece) : Prop :=
  match ps with nil => True | p :: ps' => fits s p /\ placed (step p) ps' end.
Fixpoint after (s : st) (ps : list piece) : st :=
  match ps with nil => s | p :: ps' => after (step p) ps' end.

Lemma placed_app ps qs : forall s, placed s (ps ++ qs) <-> placed s ps /\ placed (after s ps) qs.
Proof.
  induction ps as [|p ps IH]; intros s; simpl; [tauto|]. rewrite IH. tauto.
Qed.
Lemma after_app ps qs : forall s, after s (ps ++ qs) = after (after s ps) qs.
Proof. induction ps; simpl; auto. Qed.

(** ** The pieces of a laid-out tree *)
Fixpoint line_pieces (p : cursor) (ls : list str) : list piece :=
  match ls with
  | nil => nil
  | s :: ls' => Pc p s PkLine :: line_pieces (Cur (row p + 1) (colm p)) ls'
  end.
Definition own_pieces (c : fcfg) (parent k : kind) (pcs : list pnode) (p : cursor)
  (lines : list str) : list piece :=
  match k with
  | KLParen => [Pc p $"(" (PkParen true)]
  | KRParen => [Pc p $")" (PkParen false)]
  | KFunname | KArgument | KKeyword | KFlag | KAtWord =>
      match pcs with
      | T t :: _ => match scalar_text c parent k t with
                    | Ok s => [Pc p s (PkWord (is_funname_k k))]
                    | _ => nil
                    end
      | _ => nil
      end
  | KOnOff => match first_tok pcs with
              | Some t => match onoff_text t with Some s => [Pc p s PkSwitch] | None => nil end
              | None => nil
              end
  | KComment _ => if is_bracket pcs then [Pc p (normalize (first_spelling pcs)) PkBracket]
                  else line_pieces p lines
  | _ => nil
  end.
Fixpoint pieces (c : fcfg) (parent : kind) (l : lay) : list piece :=
  match l with
  | Lay k pcs p _ _ _ _ lines cs =>
      own_pieces c parent k pcs p lines ++ flat_map (pieces c k) cs
  end.

(** ** Spellings that keep their length *)
Definition text_fits (c : fcfg) (parent k : kind) (p : list pnode) : bool :=
  match p with
  | T t :: _ =>
      match scalar_text c parent k t with
      | Ok s => seqb s (normalize (spelling t))
                || (one_line s && one_line (spelling t) && (zlen s =? zlen (spelling t)))
      | _ => false
      end
  | _ => false
  end.
Fixpoint names_ok (c : fcfg) (parent : kind) (b : box) : bool :=
  match b with
  | B k p cs => (if is_scalar_k k then text_fits c parent k p else true)
                && forallb (names_ok c k) cs
  end.

Lemma flow_lines_fst ls : forall c x y, fst (flow_lines c x ls) = fst (flow_lines c y ls).
Proof. induction ls as [|l ls IH]; simpl; intros; auto. Qed.
Lemma flow_lines_snd ls : forall c x, x <= snd (flow_lines c x ls).
Proof. induction ls as [|l ls IH]; simpl; intros; [lia|]. eapply Z.le_trans; [|apply IH]. lia. Qed.
Lemma text_flow_norm c s : text_flow c (normalize s) = flow_text c s.
Proof. reflexivity. Qed.
Lemma text_flow_one c s : noeol s -> text_flow c s = (shift c (zlen s), colm c + zlen s).
Proof. intros H. unfold text_flow. rewrite noeol_split by auto. reflexivity. Qed.

Lemma scalar_piece c parent k p t :
  is_scalar_k k = true -> text_fits c parent k (T t :: p) = true ->
  exists s, scalar_text c parent k t = Ok s /\ forall pos, text_flow pos s = flow_text pos (spelling t).
Proof.
  intros Hk H. cbn [text_fits] in H. destruct (scalar_text c parent k t) as [s| |]; try discriminate.
  exists s. split; [reflexivity|]. intros pos. apply orb_prop in H as [H|H].
  - apply seqb_eq in H. subst s. reflexivity.
  - rewrite !andb_true_iff in H. destruct H as [[H1 H2] H3].
    rewrite text_flow_one by (now apply one_line_noeol). rewrite flow_text_one by auto.
    apply Z.eqb_eq in H3. now rewrite H3.
Qed.

(** the comment formatter makes lines of lines *)
Definition cmt_ok (e : env) : Prop :=
  forall x p w ls, lines_only p = true -> cmt e x p w = Ok ls -> Forall (fun s => ~ In cNL s) ls.

(** ** Where a box may leave a line open to be swallowed *)
Definition is_paren_k (k : kind) : bool := is_lparen_k k || is_rparen_k k.
Definition term_line (b : box) : bool :=
  ends_line b ||
  match bkind b with
  | KBody | KFlow | KStatement _ | KAtStmt => true
  | KComment _ => negb (is_bracket (bpcs b))
  | _ => false
  end.
Fixpoint inner (k : kind) (bs : list box) : bool :=
  match bs with
  | b :: ((_ :: _) as bs') => (is_block_k k || implb (term_line b) (ends_line b)) && inner k bs'
  | _ => true
  end.
Definition is_onoff_k (k : kind) : bool := match k with KOnOff => true | _ => false end.
(** the same as [touch] for nodes: what may stand right behind a text *)
Definition touch_k (a : option pk) (k : kind) : bool :=
  match a with
  | None | Some (PkParen true) => true
  | Some (PkParen false) => is_paren_k k || is_comment_k k || is_onoff_k k
  | Some (PkWord true) => is_paren_k k
  | Some _ => is_rparen_k k
  end.
Definition touch_kk (a b : kind) : bool :=
  is_lparen_k a || is_rparen_k b || (is_funname_k a && is_lparen_k b) || (is_rparen_k a && is_comment_k b).
Fixpoint adj (k : kind) (bs : list box) : bool :=
  match bs with
  | b :: ((b' :: _) as bs') =>
      (spaced_k k || touch_kk (bkind b) (bkind b')) && adj k bs'
  | _ => true
  end.

Lemma text_end_ge p : cle (p_at p) (p_end p).
Proof.
  unfold p_end, text_flow. destruct (split_on cNL (p_text p)) as [|l ls]; [apply cle_refl|].
  eapply cle_trans; [|apply flow_lines_cle]. right. simpl. pose proof (zlen_nonneg l). lia.
Qed.

Lemma line_pieces_ok ls : forall p s, ls <> nil -> Forall (fun s => ~ In cNL s) ls ->
  cle (fst s) p -> (line_st s = true -> row (fst s) < row p) ->
  (touch (snd s) PkLine = false -> clt (fst s) p) ->
  placed s (line_pieces p ls) /\
  after s (line_pieces p ls) =
    (Cur (row p + zlen ls - 1) (colm p + zlen (last ls nil)), Some PkLine).
Proof.
  induction ls as [|a ls IH]; intros p s Hn Hf H1 H2 H3; [congruence|].
  apply Forall_inv in Hf as Ha. apply Forall_inv_tail in Hf as Hf'.
  assert (Hend : p_end (Pc p a PkLine) = shift p (zlen a)).
  { unfold p_end, text_flow. cbn [p_text p_at].
    assert (split_on cNL a = [a]) as ->; [|reflexivity].
    clear -Ha. induction a as [|c s IH]; simpl; auto.
    rewrite IH by (intros A; apply Ha; now right).
    destruct (N.eqb c cNL) eqn:E; auto. apply N.eqb_eq in E. subst. exfalso. apply Ha. now left. }
  destruct ls as [|b ls].
  - cbn [line_pieces placed after]. split.
    + split; [|exact I]. repeat split; auto.
    + unfold step. rewrite Hend. cbn [fst p_kind last]. unfold shift. change (zlen [a]) with 1. f_equal. f_equal; lia.
  - change (line_pieces p (a :: b :: ls))
      with (Pc p a PkLine :: line_pieces (Cur (row p + 1) (colm p)) (b :: ls)).
    remember (line_pieces (Cur (row p + 1) (colm p)) (b :: ls)) as q eqn:Eq.
    cbn [placed after].
    destruct (IH (Cur (row p + 1) (colm p)) (step (Pc p a PkLine))) as [A B]; auto.
    + discriminate.
    + unfold step. rewrite Hend. left. simpl. lia.
    + unfold step. rewrite Hend. simpl. lia.
    + unfold step. rewrite Hend. left. simpl. lia.
    + split.
      * split; [repeat split; auto|]. rewrite Eq. exact A.
      * rewrite Eq, B. cbn [row colm last]. rewrite !zlen_cons. f_equal. f_equal. lia.
Qed.

(** ** Comments whose line-ending behaviour is announced by their first or last
    token, as the layout expects it of trailing comments and of comments among
    arguments *)
Definition cm_first (b : box) : bool :=
  is_comment_k (bkind b) && (is_bracket (bpcs b) || first_is_comment b).
Definition cm_last (b : box) : bool :=
  is_comment_k (bkind b) && (is_bracket (bpcs b) || is_line_comment b).
Fixpoint cmok (b : box) : bool :=
  match b with
  | B k _ cs =>
      forallb cmok cs &&
      match k with
      | KPargGroup _ _ _ | KArgGroup _ => forallb (fun c => implb (is_comment_k (bkind c)) (cm_last c)) cs
      | KArgument | KFlag | KParenGroup => forallb (fun c => implb (is_comment_k (bkind c)) (cm_first c)) cs
      | _ => true
      end
  end.

(** ** The invariant *)
Definition enters (b : box) (c : cursor) (s : st) : Prop :=
  cle (fst s) c /\ (line_st s = true -> row (fst s) < row c)
  /\ (clt (fst s) c \/ touch_k (snd s) (bkind b) = true).
(** what the last text of a parenthesis or a command name is *)
Definition left_by (k : kind) (s : st) : Prop :=
  (is_lparen_k k = true -> snd s = Some (PkParen true))
  /\ (is_rparen_k k = true -> snd s = Some (PkParen false))
  /\ (is_funname_k k = true -> snd s = Some (PkWord true)).
Definition leaves (b : box) (o : cursor) (s : st) : Prop :=
  cle (fst s) o /\ (line_st s = true -> row (fst s) < row o \/ term_line b = true)
  /\ left_by (bkind b) s.

Definition last_opt (pv : option box) (bs : list box) : option box :=
  fold_left (fun _ b => Some b) bs pv.

Definition plain_k (k : kind) : bool :=
  match k with KBody | KFlow | KStatement _ | KAtStmt | KComment _ => false | _ => true end.
Lemma plain_term b : plain_k (bkind b) = true -> term_line b = ends_line b.
Proof. unfold term_line. destruct (bkind b); simpl; intros H; try discriminate; apply orb_false_r. Qed.
Lemma cm_last_term b : cm_last b = true -> term_line b = true -> ends_line b = true.
Proof.
  unfold cm_last, term_line, ends_line. intros H Ht.
  apply andb_prop in H as [H1 H2]. destruct (bkind b) eqn:E; simpl in H1; try discriminate.
  destruct (is_bracket (bpcs b)); simpl in H2, Ht; [now rewrite orb_false_r in Ht|].
  now rewrite H2.
Qed.
Lemma in_parg_term b : in_parg b = true -> implb (is_comment_k (bkind b)) (cm_last b) = true -> term_line b = true -> ends_line b = true.
Proof.
  unfold in_parg. intros H Hc Ht. destruct (bkind b) eqn:E; try discriminate;
    try (rewrite plain_term in Ht by (rewrite E; reflexivity); exact Ht).
  now apply cm_last_term.
Qed.
Lemma in_arg_term b : in_arg b = true -> implb (is_comment_k (bkind b)) (cm_last b) = true -> term_line b = true -> ends_line b = true.
Proof.
  unfold in_arg. intros H Hc Ht. destruct (bkind b) eqn:E; try discriminate;
    try (rewrite plain_term in Ht by (rewrite E; reflexivity); exact Ht).
  now apply cm_last_term.
Qed.
Lemma inner_forall k bs : (forall b, In b bs -> term_line b = true -> ends_line b = true) ->
  inner k bs = true.
Proof.
  induction bs as [|b bs IH]; intros H; [reflexivity|]. destruct bs as [|b' bs']; [reflexivity|].
  change (((is_block_k k || implb (term_line b) (ends_line b)) && inner k (b' :: bs')) = true).
  rewrite IH by (intros; apply H; [right|]; auto). rewrite andb_true_r.
  destruct (term_line b) eqn:E; [|apply orb_true_r]. rewrite (H b) by (auto; now left). apply orb_true_r.
Qed.
Lemma inner_block k bs : is_block_k k = true -> inner k bs = true.
Proof.
  intros H. induction bs as [|b bs IH]; [reflexivity|]. destruct bs as [|b' bs']; [reflexivity|].
  change (((is_block_k k || implb (term_line b) (ends_line b)) && inner k (b' :: bs')) = true).
  now rewrite H, IH.
Qed.
Lemma adj_spaced k bs : spaced_k k = true -> adj k bs = true.
Proof.
  intros H. induction bs as [|b bs IH]; [reflexivity|]. destruct bs as [|b' bs']; [reflexivity|].
  change (((spaced_k k || touch_kk (bkind b) (bkind b')) && adj k (b' :: bs')) = true).
  now rewrite H, IH.
Qed.

Definition opt_list {A} (o : option A) : list A := match o with Some a => [a] | None => nil end.
Definition enters_list (k : kind) (pv : option box) (c : cursor) (s : st) : Prop :=
  cle (fst s) c
  /\ (line_st s = true -> row (fst s) < row c \/ (exists b, pv = Some b /\ term_line b = true))
  /\ match pv with
     | None => is_scalar_k k = true \/ clt (fst s) c \/ (forall k', touch_k (snd s) k' = true)
     | Some b => left_by (bkind b) s
     end.

(** the last item of a group decides whether the group ends its line *)
Definition last_rec : list box -> bool :=
  fix go l := match l with
              | nil => false
              | [c] => is_comment_k (bkind c) || has_terminal c
              | _ :: l' => go l'
              end.
Lemma last_rec_spec cs : forall pv b, last_opt pv cs = Some b -> cs <> nil -> ends_line b = true ->
  last_rec cs = true.
Proof.
  induction cs as [|c cs IH]; intros pv b H Hn He; [congruence|].
  destruct cs as [|c' cs'].
  - simpl in H. injection H as <-. simpl. unfold ends_line in He.
    apply orb_prop in He as [He|He]; [|rewrite He; apply orb_true_r].
    destruct c as [k p x]. destruct k; simpl in He; try discriminate. reflexivity.
  - change (last_rec (c' :: cs') = true). eapply IH; [exact H|discriminate|auto].
Qed.
Lemma last_opt_in cs : forall pv b, last_opt pv cs = Some b -> In b cs \/ (cs = nil /\ pv = Some b).
Proof.
  induction cs as [|c cs IH]; intros pv b H; [right; auto|].
  simpl in H. apply IH in H as [H|[-> H]]; [left; now right|]. left. injection H as ->. now left.
Qed.

(** whatever line a group leaves open, the group says so *)
Lemma group_term k p cs b :
  wfb (B k p cs) = true -> cmok (B k p cs) = true -> kinds_ok k cs = true -> last_opt None cs = Some b -> term_line b = true ->
  term_line (B k p cs) = true.
Proof.
  intros Hw Hcm Hk Hl Ht. cbn [cmok] in Hcm. apply andb_prop in Hcm as [_ Hcm].
  assert (Hin : In b cs) by (apply last_opt_in in Hl as [A|[-> A]]; [exact A|discriminate]).
  assert (Hne : cs <> nil) by (intros ->; destruct Hin).
  simpl in Hw. apply andb_prop in Hw as [Hws Hw].
  assert (Htail : tail_ok cs = true -> forallb (fun c => implb (is_comment_k (bkind c)) (cm_first c)) cs = true ->
    first_is_comment b = true /\ last_box cs = Some b).
  { intros H0 H. destruct cs as [|c [|]]; try discriminate.
    simpl in Hl. injection Hl as ->. simpl in H0. cbn [forallb] in H. rewrite H0 in H. cbn [implb] in H.
    rewrite andb_true_r in H. split; [|reflexivity].
    unfold cm_first in H. apply andb_prop in H as [H1 H2].
    destruct (is_bracket (bpcs b)) eqn:Eb; [|exact H2]. exfalso.
    unfold term_line, ends_line in Ht.
    destruct b as [kb pb cb]. destruct kb; simpl in H1; try discriminate.
    cbn [bkind bpcs is_line_comment has_terminal orb] in Ht. simpl in Eb. rewrite Eb in Ht. simpl in Ht.
    rewrite !orb_false_r in Ht. destruct pb as [|n [|]]; try discriminate. simpl in Ht, Eb.
    destruct n as [t|]; [|discriminate]. simpl in Ht, Eb. unfold is_tt in *. destruct (tt t); discriminate. }
  unfold term_line, ends_line. destruct k; try (cbn [bkind]; rewrite ?orb_true_r; reflexivity);
    try (destruct cs; [congruence|]; rewrite ?andb_false_r in Hw; discriminate Hw);
    cbn [bkind has_terminal orb is_line_comment].
  - rewrite orb_false_r. eapply last_rec_spec; [exact Hl|exact Hne|].
    rewrite forallb_forall in Hw, Hcm. apply in_arg_term; auto.
  - rewrite orb_false_r. eapply last_rec_spec; [exact Hl|exact Hne|].
    destruct cs as [|[kk pk0 ck] [|g [|]]]; simpl in Hw; try discriminate;
      try (destruct kk; discriminate).
    + destruct kk; try discriminate. simpl in Hl. injection Hl as <-.
      rewrite plain_term in Ht by reflexivity. exact Ht.
    + simpl in Hl. injection Hl as <-. destruct kk; try discriminate.
      rewrite plain_term in Ht; [exact Ht|]. destruct (bkind g); try discriminate; reflexivity.
  - rewrite orb_false_r. eapply last_rec_spec; [exact Hl|exact Hne|].
    rewrite forallb_forall in Hw, Hcm. apply in_parg_term; auto.
  - rewrite orb_false_r.
    destruct cs as [|x [|y [|z tl]]]; try discriminate.
    rewrite !andb_true_iff in Hw. destruct Hw as [[[W1 W2] W3] W4].
    assert (Har : after_rparen (x :: y :: z :: tl) = tl).
    { simpl. destruct (is_rparen_k (bkind x)) eqn:E1; [destruct (bkind x); discriminate|].
      destruct (is_rparen_k (bkind y)) eqn:E2; [destruct (bkind y); discriminate|]. now rewrite W3. }
    rewrite Har. destruct tl as [|cm [|]]; try discriminate.
    + exfalso. simpl in Hl. injection Hl as <-. destruct z as [kz pz cz].
      destruct kz; simpl in W3; try discriminate.
    + simpl in Hl. injection Hl as ->. simpl. rewrite forallb_forall in Hcm. specialize (Hcm b Hin).
      simpl in W4. rewrite W4 in Hcm. cbn [implb] in Hcm. unfold cm_first in Hcm.
      apply andb_prop in Hcm as [H1 H2].
      destruct (is_bracket (bpcs b)) eqn:Eb; [|exact H2]. exfalso.
      unfold term_line, ends_line in Ht.
      destruct b as [kb pb cb]. destruct kb; simpl in H1; try discriminate.
      cbn [bkind bpcs is_line_comment has_terminal orb] in Ht. simpl in Eb. rewrite Eb in Ht. simpl in Ht.
      rewrite !orb_false_r in Ht. destruct pb as [|n [|]]; try discriminate. simpl in Ht, Eb.
      destruct n as [t|]; [|discriminate]. simpl in Ht, Eb. unfold is_tt in *. destruct (tt t); discriminate.
  - rewrite orb_false_r. apply andb_prop in Hw as [_ Hw]. destruct (Htail Hw Hcm) as [A ->]. exact A.
  - rewrite orb_false_r. apply andb_prop in Hw as [_ Hw]. destruct (Htail Hw Hcm) as [A ->]. exact A.
Qed.

Lemma group_inner k p cs : wfb (B k p cs) = true -> cmok (B k p cs) = true -> kinds_ok k cs = true -> inner k cs = true.
Proof.
  intros Hw Hcm Hk. cbn [cmok] in Hcm. apply andb_prop in Hcm as [_ Hcm]. simpl in Hw. apply andb_prop in Hw as [Hws Hw].
  assert (Hshort : forall l : list box, tail_ok l = true -> inner k l = true)
    by (intros [|x [|]]; simpl; auto; discriminate).
  destruct k; try (apply inner_block; reflexivity);
    try (destruct cs; [reflexivity|discriminate]);
    try (destruct cs; [reflexivity|rewrite andb_false_r in Hw; discriminate]);
    try (apply andb_prop in Hw as [_ Hw]; apply Hshort; exact Hw).
  - (* statement *)
    destruct cs as [|fn [|lp [|ag [|rp tl]]]]; try discriminate.
    cbn [kinds_ok] in Hk. rewrite !andb_true_iff in Hk. destruct Hk as [[[[K1 K2] K3] K4] K5].
    assert (forall x, plain_k (bkind x) = true -> implb (term_line x) (ends_line x) = true) as P.
    { intros x Hx. rewrite plain_term by auto. destruct (ends_line x); reflexivity. }
    assert (plain_k (bkind fn) = true) by (destruct (bkind fn); try discriminate; reflexivity).
    assert (plain_k (bkind lp) = true) by (destruct (bkind lp); try discriminate; reflexivity).
    assert (plain_k (bkind ag) = true) by (destruct (bkind ag); try discriminate; reflexivity).
    assert (plain_k (bkind rp) = true) by (destruct (bkind rp); try discriminate; reflexivity).
    destruct tl as [|cm [|]]; try discriminate; cbn [inner]; rewrite !P by auto; reflexivity.
  - apply inner_forall. rewrite forallb_forall in Hw, Hcm. intros; apply in_arg_term; auto.
  - destruct cs as [|[kk pk0 ck] [|g [|]]]; simpl in Hw; try discriminate;
      try (destruct kk; discriminate); [reflexivity|].
    cbn [inner]. rewrite plain_term by (destruct kk; try discriminate; reflexivity).
    destruct (ends_line _); reflexivity.
  - apply inner_forall. rewrite forallb_forall in Hw, Hcm. intros; apply in_parg_term; auto.
  - destruct cs as [|x [|y [|z tl]]]; try discriminate.
    rewrite !andb_true_iff in Hw. destruct Hw as [[[W1 W2] W3] W4].
    assert (forall x, plain_k (bkind x) = true -> implb (term_line x) (ends_line x) = true) as P.
    { intros b Hx. rewrite plain_term by auto. destruct (ends_line b); reflexivity. }
    assert (plain_k (bkind x) = true) by (destruct (bkind x); try discriminate; reflexivity).
    assert (plain_k (bkind y) = true) by (destruct (bkind y); try discriminate; reflexivity).
    assert (plain_k (bkind z) = true) by (destruct (bkind z); try discriminate; reflexivity).
    destruct tl as [|cm [|]]; try discriminate; cbn [inner]; rewrite !P by auto; reflexivity.
  - (* atword statement *)
    destruct cs as [|aw [|cm [|]]]; try discriminate; [reflexivity| |].
    + cbn [kinds_ok] in Hk. apply andb_prop in Hk as [K1 _]. cbn [inner].
      rewrite plain_term by (destruct (bkind aw); try discriminate; reflexivity).
      destruct (ends_line aw); reflexivity.
    + cbn [kinds_ok] in Hk. rewrite andb_false_r in Hk. discriminate.
Qed.

Lemma group_adj k p cs : wfb (B k p cs) = true -> kinds_ok k cs = true -> adj k cs = true.
Proof.
  intros Hw Hk. simpl in Hw. apply andb_prop in Hw as [Hws Hw].
  destruct k; try (apply adj_spaced; reflexivity);
    try (destruct cs; [reflexivity|discriminate]);
    try (destruct cs; [reflexivity|rewrite andb_false_r in Hw; discriminate]).
  - destruct cs as [|fn [|lp [|ag [|rp tl]]]]; try discriminate.
    cbn [kinds_ok] in Hk. rewrite !andb_true_iff in Hk. destruct Hk as [[[[K1 K2] K3] K4] K5].
    destruct tl as [|cm [|]]; try discriminate; cbn [adj]; unfold touch_kk;
      rewrite ?K1, ?K2, ?K4, ?K5, ?orb_true_r; reflexivity.
  - destruct cs as [|x [|y [|z tl]]]; try discriminate.
    rewrite !andb_true_iff in Hw. destruct Hw as [[[W1 W2] W3] W4].
    destruct tl as [|cm [|]]; try discriminate; cbn [adj tail_ok] in *; unfold touch_kk;
      rewrite ?W1, ?W3, ?W4, ?orb_true_r; reflexivity.
Qed.

Lemma own_placed e k p cs parent pos lines s :
  cmt_ok e -> wfb (B k p cs) = true -> names_ok (cfg e) parent (B k p cs) = true ->
  forall pass w v x ls, lines_ok e (Lay k p pos pass w v x lines ls) ->
  enters (B k p cs) pos s ->
  let q := own_pieces (cfg e) parent k p pos lines in
  let s' := after s q in
  let o := own_end (Lay k p pos pass w v x lines ls) in
  placed s q /\ cle (fst s') o
  /\ (line_st s' = true -> row (fst s') < row o \/ (leaf_k k = true /\ term_line (B k p cs) = true))
  /\ (is_scalar_k k = true \/ clt (fst s') o \/ leaf_k k = true \/ (forall k', touch_k (snd s') k' = true))
  /\ left_by k s'.
Proof.
  intros Hc Hw Hn pass w v x ls Hl (E1 & E2 & E3). cbn zeta.
  simpl in Hw. apply andb_prop in Hw as [_ Hw]. simpl in Hn. apply andb_prop in Hn as [Hn _].
  cbn [bkind] in E3.
  assert (Hfit : forall text kd, (touch_k (snd s) k = true -> touch (snd s) kd = true) -> fits s (Pc pos text kd)).
  { intros text kd Hp. split; [exact E1|]. split; [exact E2|]. cbn [p_kind p_at]. intros Ht.
    destruct E3 as [A|A]; [exact A|]. rewrite (Hp A) in Ht. discriminate. }
  assert (Hto : forall kd, match k, kd with
      | KLParen, PkParen true | KRParen, PkParen false | KComment _, PkBracket | KComment _, PkLine | KOnOff, PkSwitch => true
      | KLParen, _ | KRParen, _ | KComment _, _ | KOnOff, _ => false
      | _, PkWord _ => true | _, _ => false end = true -> touch_k (snd s) k = true -> touch (snd s) kd = true).
  { intros kd. destruct (snd s) as [[[]|[]| | |]|]; destruct k, kd as [[]|[]| | |]; cbn; try discriminate; auto. }
  assert (Hsc : is_scalar_k k = true -> is_paren_k k = false ->
     own_pieces (cfg e) parent k p pos lines =
       match p with T t :: _ => match scalar_text (cfg e) parent k t with
                    | Ok s => [Pc pos s (PkWord (is_funname_k k))] | _ => nil end | _ => nil end ->
     own_end (Lay k p pos pass w v x lines ls) = fst (flow_text pos (first_spelling p)) ->
     let q := own_pieces (cfg e) parent k p pos lines in
     let s' := after s q in
     let o := own_end (Lay k p pos pass w v x lines ls) in
     placed s q /\ cle (fst s') o
     /\ (line_st s' = true -> row (fst s') < row o \/ (leaf_k k = true /\ term_line (B k p cs) = true))
     /\ (is_scalar_k k = true \/ clt (fst s') o \/ leaf_k k = true \/ (forall k', touch_k (snd s') k' = true))
     /\ left_by k s').
  { intros Hk Hp Hq Ho. cbn zeta. rewrite Hq, Ho. rewrite Hk in Hn.
    destruct p as [|[t|] p']; try discriminate.
    destruct (scalar_piece _ _ _ _ _ Hk Hn) as (txt & -> & Hf).
    cbn [placed after step fst first_spelling]. unfold p_end. cbn [p_at p_text p_kind]. rewrite Hf.
    split; [split; [apply Hfit, Hto; destruct k; try discriminate; reflexivity|exact I]|]. split; [apply cle_refl|].
    split; [discriminate|]. split; [now left|]. split; [|split]; intros E; destruct k; try discriminate; reflexivity. }
  assert (Hnone : own_pieces (cfg e) parent k p pos lines = nil ->
     own_end (Lay k p pos pass w v x lines ls) = pos ->
     is_paren_k k || is_scalar_k k || is_comment_k k || is_onoff_k k = false ->
     let q := own_pieces (cfg e) parent k p pos lines in
     let s' := after s q in
     let o := own_end (Lay k p pos pass w v x lines ls) in
     placed s q /\ cle (fst s') o
     /\ (line_st s' = true -> row (fst s') < row o \/ (leaf_k k = true /\ term_line (B k p cs) = true))
     /\ (is_scalar_k k = true \/ clt (fst s') o \/ leaf_k k = true \/ (forall k', touch_k (snd s') k' = true))
     /\ left_by k s').
  { intros Hq Ho Hp. cbn zeta. rewrite Hq, Ho. cbn [placed after].
    split; [exact I|]. split; [exact E1|]. split; [intros; left; auto|].
    split; [|split; [|split]; intros E; destruct k; discriminate].
    destruct E3 as [A|A]; [auto|]. right. right. right. intros k'.
    destruct (snd s) as [[[]|[]| | |]|]; cbn in A |- *; auto; destruct k; discriminate. }
  destruct k; try (apply Hsc; reflexivity); try (apply Hnone; reflexivity).
  - (* comment *)
    unfold own_pieces, own_end. cbn [lkind lpcs lpos llines]. unfold lines_ok in Hl.
    cbn [lkind lpcs lpos llines] in Hl. destruct (is_bracket p) eqn:Eb.
    + cbn [placed after step fst]. unfold p_end. cbn [p_at p_text p_kind]. rewrite text_flow_norm.
      split; [split; [apply Hfit, Hto; reflexivity|exact I]|]. split; [apply cle_refl|].
      split; [discriminate|]. split; [right; right; now left|split; [|split]; discriminate].
    + destruct Hl as [Hl Hne]. apply andb_prop in Hw as [Hw _]. pose proof (Hc _ _ _ _ Hw Hl) as Hno.
      destruct (line_pieces_ok lines pos s) as [A B]; auto.
      { intros Ht. destruct E3 as [C|C]; [exact C|]. rewrite (Hto PkLine eq_refl C) in Ht. discriminate. }
      rewrite B. cbn [fst]. split; [exact A|]. split; [apply cle_refl|].
      split; [intros _; right; split; [reflexivity|]; unfold term_line; cbn [bkind bpcs]; rewrite Eb; apply orb_true_r|].
      split; [right; right; now left|split; [|split]; discriminate].
  - (* switch *)
    apply andb_prop in Hw as [Hw _]. destruct p as [|[t|] [|]]; try discriminate. simpl in Hw.
    unfold own_pieces, own_end. cbn [lkind lpcs lpos first_tok].
    destruct (onoff_text t) as [txt|] eqn:Et; [|discriminate].
    assert (noeol txt) as Hno.
    { apply one_line_noeol. unfold onoff_text in Et. destruct (tt t); inversion Et; subst; reflexivity. }
    cbn [placed after step fst]. unfold p_end. cbn [p_at p_text p_kind].
    rewrite text_flow_one by auto. cbn [fst].
    split; [split; [apply Hfit, Hto; reflexivity|exact I]|]. split; [apply cle_refl|].
    split; [intros _; right; split; reflexivity|]. split; [right; right; now left|split; [|split]; discriminate].
  - unfold own_pieces, own_end. cbn [lkind lpcs lpos placed after step fst]. unfold p_end.
    cbn [p_at p_text p_kind]. rewrite text_flow_one by (apply one_line_noeol; reflexivity). cbn [fst].
    split; [split; [apply Hfit, Hto; reflexivity|exact I]|]. split; [apply cle_refl|].
    split; [discriminate|]. split; [right; right; now left|split; [|split]; try discriminate; reflexivity].
  - unfold own_pieces, own_end. cbn [lkind lpcs lpos placed after step fst]. unfold p_end.
    cbn [p_at p_text p_kind]. rewrite text_flow_one by (apply one_line_noeol; reflexivity). cbn [fst].
    split; [split; [apply Hfit, Hto; reflexivity|exact I]|]. split; [apply cle_refl|].
    split; [discriminate|]. split; [right; right; now left|split; [|split]; try discriminate; reflexivity].
Qed.

Theorem lok_placed e : cmt_ok e ->
  (forall b l o, lok e b l o -> forall parent s,
     wfb b = true -> (closed = true -> cmok b = true) -> names_ok (cfg e) parent b = true -> enters b (lpos l) s ->
     placed s (pieces (cfg e) parent l) /\ leaves b o (after s (pieces (cfg e) parent l)))
  /\ (forall k pv c bs ls o, loks e k pv c bs ls o -> forall s,
     forallb wfb bs = true -> (closed = true -> forallb cmok bs = true) -> forallb (names_ok (cfg e) k) bs = true ->
     (closed = true -> inner k (opt_list pv ++ bs) = true) -> adj k (opt_list pv ++ bs) = true ->
     enters_list k pv c s ->
     let s' := after s (flat_map (pieces (cfg e) k) ls) in
     placed s (flat_map (pieces (cfg e) k) ls) /\ cle (fst s') o
     /\ (line_st s' = true -> row (fst s') < row o
         \/ exists b, last_opt pv bs = Some b /\ term_line b = true)).
Proof.
  intros Hc. apply lok_loks_ind.
  - intros k p cs pos pass w v x lines ls o l Hle Hln Hk Hx Hv Hls IH parent s Hw Hm Hn He.
    cbn [pieces l lpos] in *.
    pose proof (own_placed e k p cs parent pos lines s Hc Hw Hn pass w v x ls Hln He) as A.
    cbn zeta in A. fold l in A. destruct A as (A1 & A2 & A3 & A4 & A5).
    set (s1 := after s (own_pieces (cfg e) parent k p pos lines)) in *.
    destruct (leaf_k k) eqn:El.
    + inversion Hls; subst. cbn [flat_map]. rewrite app_nil_r. split; [exact A1|].
      split; [exact A2|]. split; [|exact A5]. intros E. destruct (A3 E) as [F|[_ F]]; auto.
    + assert (Hp : is_paren_k k = false) by (destruct k; try reflexivity; discriminate).
      destruct (IH s1) as (B1 & B2 & B3).
      * simpl in Hw. now apply andb_prop in Hw.
      * intros E. specialize (Hm E). cbn [cmok] in Hm. now apply andb_prop in Hm.
      * simpl in Hn. now apply andb_prop in Hn.
      * intros E. simpl. eapply group_inner; eauto.
      * simpl. eapply group_adj; eauto.
      * split; [exact A2|]. split.
        -- intros E. destruct (A3 E) as [F|[F _]]; [now left|congruence].
        -- destruct A4 as [F|[F|[F|F]]]; [now left|right; now left|congruence|right; now right].
      * rewrite placed_app, after_app. fold s1. split; [split; [exact A1|exact B1]|].
        split; [exact B2|]. split.
        2: { cbn [bkind]. destruct k; try (split; [|split]; discriminate); try discriminate Hp.
             assert (cs = nil) as ->.
             { simpl in Hw. apply andb_prop in Hw as [_ Hw]. destruct cs; [reflexivity|]. now rewrite andb_false_r in Hw. }
             inversion Hls; subst. exact A5. }
        intros E. destruct (B3 E) as [F|(b & F1 & F2)]; [now left|]. right.
        apply line_closed in E. eapply group_term; eauto.
  - intros k pv c s Hw Hm Hn Hi Ha He. cbn zeta. simpl. destruct He as (E1 & E2 & E3). split; [exact I|]. split; [exact E1|]. exact E2.
  - intros k pv c b bs l ls o1 o Hs Hl IHl Hls IHls s Hw Hm Hn Hi Ha He. cbn zeta.
    simpl in Hw, Hn. apply andb_prop in Hw as [Hw1 Hw2]. apply andb_prop in Hn as [Hn1 Hn2].
    destruct He as (E1 & E2 & E3). destruct Hs as [S1 S2].
    assert (Hm1 : closed = true -> cmok b = true) by (intros E; specialize (Hm E); cbn [forallb] in Hm; now apply andb_prop in Hm).
    assert (Hm2 : closed = true -> forallb cmok bs = true) by (intros E; specialize (Hm E); cbn [forallb] in Hm; now apply andb_prop in Hm).
    destruct (IHl k s Hw1 Hm1 Hn1) as (A1 & A2 & A3 & A4).
    { split; [eauto using cle_trans|]. split.
      - intros E. destruct (E2 E) as [F|(b0 & -> & F)].
        + apply cle_row in S1. lia.
        + specialize (Hi (line_closed _ E)). simpl in Hi. apply andb_prop in Hi as [Hi _]. destruct S2 as [S2 _].
          apply cle_row in E1. enough (row c < row (lpos l)) by lia. apply S2.
          apply orb_prop in Hi as [Hi|Hi]; [now right|left]. rewrite F in Hi. exact Hi.
      - destruct pv as [b0|].
        + simpl in Ha. apply andb_prop in Ha as [Ha _].
          apply orb_prop in Ha as [Ha|Ha]; [left; destruct S2 as [_ S2]; eapply cle_clt_trans; [exact E1|auto]|].
          right. destruct E3 as (L1 & L2 & L3). unfold touch_kk in Ha. rewrite !orb_true_iff, !andb_true_iff in Ha.
          destruct Ha as [[[Ha|Ha]|[Ha Hb]]|[Ha Hb]].
          * rewrite (L1 Ha). reflexivity.
          * unfold touch_k, is_paren_k. rewrite Ha. destruct (snd s) as [[[]|[]| | |]|]; auto using orb_true_r.
            rewrite orb_true_r. reflexivity.
          * rewrite (L3 Ha). cbn. unfold is_paren_k. now rewrite Hb.
          * rewrite (L2 Ha). cbn. rewrite Hb. now rewrite orb_true_r.
        + destruct E3 as [F|[F|F]].
          * left. eapply cle_clt_trans; [exact E1|auto].
          * left. eapply clt_cle_trans; eauto.
          * right. apply F. }
    destruct (IHls (after s (pieces (cfg e) k l))) as (B1 & B2 & B3); auto.
    { intros E. specialize (Hi E). simpl. destruct pv; [|exact Hi]. simpl in Hi. now apply andb_prop in Hi. }
    { simpl. destruct pv; [|exact Ha]. simpl in Ha. now apply andb_prop in Ha. }
    { split; [exact A2|]. split; [|exact A4].
      intros E. destruct (A3 E) as [F|F]; [now left|right; eauto]. }
    cbn [flat_map]. rewrite placed_app, after_app. split; [split; auto|]. split; [exact B2|].
    intros E. destruct (B3 E) as [F|(b0 & F1 & F2)]; [now left|right]. exists b0. auto.
Qed.
End Closed.
