(** * LexClass: what each token class can look like and what surrounds it *)
From Verif Require Import Base Regex Lex LexProofs.

Lemma rel_chr_inv p x y : rel (RChr p) x y ->
  exists c s, rest x = c :: s /\ p c = true /\ y = St (Some c) s (cap x).
Proof. intros H. inversion H; subst. simpl. eauto 6. Qed.
Lemma rel_C_inv c x y : rel (C c) x y ->
  exists s, rest x = c :: s /\ y = St (Some c) s (cap x).
Proof.
  intros H. apply rel_chr_inv in H as (c' & s & E & P & ->). apply N.eqb_eq in P. subst. eauto.
Qed.
Lemma rel_seq_inv a b x z : rel (RSeq a b) x z -> exists y, rel a x y /\ rel b y z.
Proof. intros H. inversion H; subst. eauto. Qed.
Lemma rel_alt_inv a b x z : rel (RAlt a b) x z -> rel a x z \/ rel b x z.
Proof. intros H. inversion H; subst; auto. Qed.
Lemma rel_eps_inv x z : rel REps x z -> x = z.
Proof. intros H. inversion H; subst; auto. Qed.
Lemma rel_nlb_inv p x z : rel (RNLB p) x z -> x = z /\ forall c, prev x = Some c -> p c = false.
Proof. intros H. inversion H; subst; auto. Qed.
Lemma rel_nla_inv p x z : rel (RNLA p) x z -> x = z /\ forall c s, rest x = c :: s -> p c = false.
Proof. intros H. inversion H; subst; auto. Qed.
Lemma rel_starchr_inv p x z : rel (RStar (RChr p)) x z ->
  exists u, rest x = u ++ rest z /\ forallb p u = true /\ cap z = cap x.
Proof.
  intros H. remember (RStar (RChr p)) as r eqn:Er.
  induction H; try discriminate.
  - exists nil. auto.
  - injection Er as ->. destruct (IHrel2 eq_refl) as (u & E & F & G).
    apply rel_chr_inv in H as (c & s & E1 & P & ->). simpl in *.
    exists (c :: u). rewrite E1, E. simpl. rewrite P. auto.
Qed.
Lemma rel_lazychr_inv p x z : rel (RLazy (RChr p)) x z ->
  exists u, rest x = u ++ rest z /\ forallb p u = true /\ cap z = cap x.
Proof.
  intros H. remember (RLazy (RChr p)) as r eqn:Er.
  induction H; try discriminate.
  - exists nil. auto.
  - injection Er as ->. destruct (IHrel2 eq_refl) as (u & E & F & G).
    apply rel_chr_inv in H as (c & s & E1 & P & ->). simpl in *.
    exists (c :: u). rewrite E1, E. simpl. rewrite P. auto.
Qed.
Lemma rel_grp_inv a x z : rel (RGrp a) x z -> exists y, rel a x y /\
  z = St (prev y) (rest y) (firstn (length (rest x) - length (rest y)) (rest x)).
Proof. intros H. inversion H; subst. eauto. Qed.
Lemma rel_back_inv x z : rel RBack x z -> rest x = cap x ++ rest z /\ cap z = cap x.
Proof. intros H. inversion H; subst. simpl. split; auto. now apply strip_prefix_app. Qed.
Lemma rel_lit_inv l : forall x z, rel (RLit l) x z -> rest x = l ++ rest z /\ cap z = cap x.
Proof.
  induction l as [|c l IH]; intros x z H; simpl in H.
  - apply rel_eps_inv in H. subst. auto.
  - apply rel_seq_inv in H as (y & H1 & H2). apply rel_C_inv in H1 as (s & E & ->).
    apply IH in H2 as [E2 E3]. simpl in *. rewrite E, E2. auto.
Qed.
Lemma forallb_const (c : chr) (u : str) : forallb (N.eqb c) u = true -> u = repeat c (length u).
Proof.
  induction u; simpl; auto. intros H. apply andb_prop in H as [H1 H2].
  apply N.eqb_eq in H1. subst. f_equal. auto.
Qed.

(** ** Specification of token spellings *)
Definition bracket_text (eqs body : str) : str :=
  [cLB] ++ eqs ++ [cLB] ++ body ++ [cRB] ++ eqs ++ [cRB].
(** Text between quotes: every quote in it is escaped by a backslash, and it
    does not end in the middle of an escape, so that the quote after it is the
    first one that is not escaped. *)
Fixpoint closed (q : chr) (body : str) : Prop :=
  match body with
  | nil => True
  | c :: r => if N.eqb c cBSL then match r with nil => False | _ :: r' => closed q r' end
              else c <> q /\ closed q r
  end.
Definition quoted_text (q : chr) (sp : str) : Prop :=
  exists body, sp = [q] ++ body ++ [q] /\ closed q body.
(** Characters of names, in ASCII order: digits are 48-57, upper-case letters
    65-90, lower-case letters 97-122.  The first character may also be one of
    those between the two ranges of letters (the code's [A-z] range). *)
Definition name_first (c : chr) : Prop := (65 <= c <= 122)%N.
Definition name_rest (c : chr) : Prop :=
  (48 <= c <= 57)%N \/ (65 <= c <= 90)%N \/ c = 95%N \/ (97 <= c <= 122)%N.
Definition name_text (sp : str) : Prop :=
  exists c w, sp = c :: w /\ name_first c /\ Forall name_rest w.

Definition spelling_ok (t : ttype) (sp : str) : Prop :=
  match t with
  | COMMENT => exists b, sp = cHASH :: b /\ ~ In cNL b
  | NEWLINE => sp = [cNL] \/ sp = [cCR; cNL] \/ sp = [cCR]
  | WHITESPACE => sp <> nil /\ forallb is_blank sp = true
  | LEFT_PAREN => sp = [cLP]
  | RIGHT_PAREN => sp = [cRP]
  | WORD => name_text sp
  | NUMBER => exists sg d, (sg = nil \/ sg = [45%N]) /\ sp = sg ++ d /\ d <> nil
                           /\ Forall (fun c => 48 <= c <= 57)%N d
  | ATWORD => exists w, sp = [cAT] ++ w ++ [cAT] /\ name_text w
  | DEREF => exists w, sp = [cDOL; 123%N] ++ w ++ [125%N] /\ name_text w
  | FORMAT_OFF => exists ws nm tail, sp = [cHASH] ++ ws ++ nm ++ $": off" ++ tail /\
       forallb is_aspace ws = true /\ (nm = $"cmake-format" \/ nm = $"cmf") /\ ~ In cNL tail
  | FORMAT_ON => exists ws nm tail, sp = [cHASH] ++ ws ++ nm ++ $": on" ++ tail /\
       forallb is_aspace ws = true /\ (nm = $"cmake-format" \/ nm = $"cmf") /\ ~ In cNL tail
  | BRACKET_ARGUMENT => exists n body, sp = bracket_text (repeat cEQ n) body
  | BRACKET_COMMENT => exists n body, sp = cHASH :: bracket_text (repeat cEQ n) body
  | QUOTED_LITERAL => quoted_text cDQ sp \/ quoted_text cSQ sp
  | UNQUOTED_LITERAL => exists c w, sp = c :: w /\ is_aspace c = false /\ c <> cLP /\ c <> cRP /\ c <> cHASH
  | BYTEORDER_MARK => sp = [cBOM]
  end.

(** Tokens that the lexer only recognizes when delimited on both sides. *)
Definition isolated (t : ttype) : bool :=
  tmem t [QUOTED_LITERAL; BRACKET_ARGUMENT; NUMBER; WORD; ATWORD; DEREF].
Definition delim_before (pv : option chr) : Prop :=
  match pv with None => True | Some c => is_aspace c = true \/ c = cLP end.
Definition delim_after (s : str) : Prop :=
  match s with nil => True | c :: _ => is_aspace c = true \/ c = cRP \/ c = cLP end.

Lemma no_nl_forallb l : forallb (noneof [cNL]) l = true -> ~ In cNL l.
Proof.
  intros H HI. rewrite forallb_forall in H. apply H in HI. discriminate.
Qed.

Lemma between_spec a b c : between a b c = true -> (a <= c <= b)%N.
Proof. unfold between. intros H. apply andb_prop in H as [H1 H2]. rewrite N.leb_le in *. auto. Qed.
Lemma digits_spec u : forallb digit u = true -> Forall (fun c => 48 <= c <= 57)%N u.
Proof. intros H. apply Forall_forall. intros c Hc. rewrite forallb_forall in H. now apply between_spec, H. Qed.
Lemma wrest_spec c : wrest c = true -> name_rest c.
Proof.
  unfold wrest, digit, name_rest. intros H. rewrite !orb_true_iff, N.eqb_eq in H.
  destruct H as [[[H|H]|H]|H]; auto; apply between_spec in H; tauto.
Qed.
Lemma name_spec c w : wfirst c = true -> forallb wrest w = true -> name_text (c :: w).
Proof.
  intros H1 H2. exists c, w. split; [reflexivity|]. split.
  - unfold wfirst in H1. rewrite !orb_true_iff, N.eqb_eq in H1. unfold name_first.
    destruct H1 as [[H|H]|H]; try (apply between_spec in H); lia.
  - apply Forall_forall. intros x Hx. rewrite forallb_forall in H2. now apply wrest_spec, H2.
Qed.

Lemma closed_plain q u : forallb (noneof [q; cBSL]) u = true -> forall v, closed q v -> closed q (u ++ v).
Proof.
  induction u as [|c u IH]; intros H v Hv; [exact Hv|]. cbn [forallb] in H. apply andb_prop in H as [H1 H2].
  unfold noneof, oneof in H1. cbn [existsb] in H1. apply negb_true_iff in H1. rewrite !orb_false_iff, !N.eqb_neq in H1.
  cbn [app closed]. destruct (N.eqb c cBSL) eqn:E; [apply N.eqb_eq in E; tauto|]. split; [tauto|]. auto.
Qed.
Lemma quoted_rel q x z : rel (quoted q) x z ->
  exists body, rest x = ([q] ++ body ++ [q]) ++ rest z /\ closed q body.
Proof.
  intros H. unfold quoted in H. simpl in H.
  apply rel_seq_inv in H as (y1 & H1 & H). apply rel_C_inv in H1 as (s1 & E1 & ->).
  apply rel_seq_inv in H as (y2 & H2 & H). apply rel_starchr_inv in H2 as (u2 & E2 & F2 & _).
  apply rel_seq_inv in H as (y3 & H3 & H).
  assert (exists u3, rest y2 = u3 ++ rest y3 /\ closed q u3) as (u3 & E3 & F3).
  { clear -H3. match type of H3 with rel (RStar ?r) _ _ => remember (RStar r) as R eqn:ER end.
    induction H3; try discriminate.
    - exists nil. split; [reflexivity|exact I].
    - injection ER as ->. destruct (IHrel2 eq_refl) as (u & E & F). clear IHrel1 IHrel2.
      apply rel_seq_inv in H3_ as (w1 & W1 & H3_). apply rel_C_inv in W1 as (t1 & T1 & ->).
      apply rel_seq_inv in H3_ as (w2 & W2 & H3_). apply rel_chr_inv in W2 as (c & t2 & T2 & _ & ->).
      apply rel_starchr_inv in H3_ as (v & T3 & FV & _). cbn [rest] in *.
      exists (cBSL :: c :: v ++ u). split.
      + rewrite T1, T2, T3, E. cbn [app]. now rewrite <- app_assoc.
      + change (closed q (v ++ u)). now apply closed_plain. }
  apply rel_C_inv in H as (s4 & E4 & ->). cbn [rest] in *.
  exists (u2 ++ u3). split.
  - rewrite E1, E2, E3, E4. cbn [app]. rewrite <- !app_assoc. reflexivity.
  - now apply closed_plain.
Qed.

Lemma bracket_rel x z : rel bracket x z ->
  exists n body, rest x = bracket_text (repeat cEQ n) body ++ rest z.
Proof.
  intros H. unfold bracket in H. simpl in H.
  apply rel_seq_inv in H as (y1 & H1 & H). apply rel_C_inv in H1 as (s1 & E1 & ->).
  apply rel_seq_inv in H as (y2 & H2 & H). apply rel_grp_inv in H2 as (y2' & H2 & ->).
  apply rel_starchr_inv in H2 as (u2 & E2 & F2 & _).
  apply rel_seq_inv in H as (y3 & H3 & H). apply rel_C_inv in H3 as (s3 & E3 & ->).
  apply rel_seq_inv in H as (y4 & H4 & H). apply rel_lazychr_inv in H4 as (u4 & E4 & F4 & C4).
  apply rel_seq_inv in H as (y5 & H5 & H). apply rel_C_inv in H5 as (s5 & E5 & ->).
  apply rel_seq_inv in H as (y6 & H6 & H). apply rel_back_inv in H6 as (E6 & C6).
  apply rel_C_inv in H as (s7 & E7 & ->).
  cbn [rest cap] in *. subst s1.
  assert (firstn (length (u2 ++ rest y2') - length (rest y2')) (u2 ++ rest y2') = u2) as Ecap.
  { rewrite app_length. replace (length u2 + length (rest y2') - length (rest y2'))%nat with (length u2) by lia.
    rewrite firstn_app, Nat.sub_diag, firstn_all. simpl. apply app_nil_r. }
  rewrite Ecap in *. rewrite C4 in *.
  exists (length u2), u4. rewrite <- (forallb_const _ _ F2).
  unfold bracket_text. rewrite E1, E3, E4, E5, E6, E7. cbn [app]. rewrite <- !app_assoc. cbn [app].
  repeat (rewrite <- !app_assoc; cbn [app]). reflexivity.
Qed.

Lemma sentinel_rel oo x z : rel (sentinel oo) x z ->
  exists ws nm tail, rest x = ([cHASH] ++ ws ++ nm ++ oo ++ tail) ++ rest z /\
    forallb is_aspace ws = true /\ (nm = $"cmake-format" \/ nm = $"cmf") /\ ~ In cNL tail.
Proof.
  intros H. unfold sentinel in H. cbn [RSeqs] in H.
  apply rel_seq_inv in H as (y1 & H1 & H). apply rel_C_inv in H1 as (s1 & E1 & ->).
  apply rel_seq_inv in H as (y2 & H2 & H). apply rel_starchr_inv in H2 as (u2 & E2 & F2 & _).
  apply rel_seq_inv in H as (y3 & H3 & H).
  apply rel_seq_inv in H as (y4 & H4 & H). apply rel_lit_inv in H4 as (E4 & _).
  apply rel_starchr_inv in H as (u5 & E5 & F5 & _).
  cbn [rest] in *.
  assert (exists nm, (nm = $"cmake-format" \/ nm = $"cmf") /\ rest y2 = nm ++ rest y3) as (nm & Hnm & E3).
  { apply rel_alt_inv in H3 as [H3|H3]; apply rel_lit_inv in H3 as (E3 & _); eauto. }
  exists u2, nm, u5. split; [|split; [|split]]; auto using no_nl_forallb.
  rewrite E1, E2, E3, E4, E5. cbn [app]. rewrite <- !app_assoc. reflexivity.
Qed.

Definition follow_ok (t : ttype) (s : str) : Prop :=
  match t with
  | COMMENT | FORMAT_OFF | FORMAT_ON => match s with nil => True | c :: _ => c = cNL end
  | _ => True
  end.

Lemma nS_lp_false c : nS_lp c = false -> is_aspace c = true \/ c = cLP.
Proof.
  unfold nS_lp. intros H. apply andb_false_iff in H as [H|H]; apply negb_false_iff in H; auto.
  apply N.eqb_eq in H. auto.
Qed.
Lemma nS_rp_false c : nS_rp c = false -> is_aspace c = true \/ c = cRP.
Proof.
  unfold nS_rp. intros H. apply andb_false_iff in H as [H|H]; apply negb_false_iff in H; auto.
  apply N.eqb_eq in H. auto.
Qed.
Lemma nS_par_false c : nS_par c = false -> is_aspace c = true \/ c = cRP \/ c = cLP.
Proof.
  unfold nS_par. intros H. apply andb_false_iff in H as [H|H].
  - apply andb_false_iff in H as [H|H]; apply negb_false_iff in H; auto. apply N.eqb_eq in H. auto.
  - apply negb_false_iff in H. apply N.eqb_eq in H. auto.
Qed.

Lemma db_ok pv : (forall c, pv = Some c -> nS_lp c = false) -> delim_before pv.
Proof. intros H. destruct pv as [c|]; simpl; auto. apply nS_lp_false. auto. Qed.
Lemma da_ok_rp s : (forall c s', s = c :: s' -> nS_rp c = false) -> delim_after s.
Proof. intros H. destruct s as [|c s]; simpl; auto. specialize (H c s eq_refl). apply nS_rp_false in H. tauto. Qed.
Lemma da_ok_par s : (forall c s', s = c :: s' -> nS_par c = false) -> delim_after s.
Proof. intros H. destruct s as [|c s]; simpl; auto. specialize (H c s eq_refl). apply nS_par_false in H. tauto. Qed.

Lemma app_inv_prefix (p q r s : str) : p ++ s = q ++ s -> p = q.
Proof. intros H. now apply app_inv_tail in H. Qed.

Ltac iso_start H Hb :=
  cbn [RSeqs] in H; apply rel_seq_inv in H as (?y0 & Hb & H);
  apply rel_nlb_inv in Hb as [<- Hb]; cbn [prev] in Hb.

(** First character facts for the unquoted patterns. *)
Lemma plain_spec c : plain c = true -> is_aspace c = false /\ c <> cLP /\ c <> cRP /\ c <> cHASH.
Proof.
  unfold plain. intros H. apply andb_prop in H as [H1 H2]. apply negb_true_iff in H1. split; auto.
  unfold noneof, oneof in H2. apply negb_true_iff in H2. simpl in H2.
  repeat (apply orb_false_iff in H2 as [? H2]). rewrite !N.eqb_neq in *. auto.
Qed.

Lemma token1_ok pv s t sp s' r y :
  In (t, r) lexicon1 -> rel r (St pv s nil) y -> s = sp ++ s' -> s' = rest y ->
  spelling_ok t sp /\ (isolated t = true -> delim_before pv /\ delim_after s').
Proof.
  intros HI HR Hs Hs'.
  unfold lexicon1 in HI.
  destruct HI as [HI|HI].
  { injection HI as <- <-. iso_start HR Hb. apply rel_seq_inv in HR as (y1 & H1 & HR).
    apply rel_nla_inv in HR as [<- Ha]. apply quoted_rel in H1 as (body & E & Hcl). cbn [rest] in E.
    subst s'. rewrite Hs in E. apply app_inv_tail in E. subst sp. split.
    - left. exists body. auto.
    - intros _. split; [now apply db_ok|now apply da_ok_rp]. }
  destruct HI as [HI|HI].
  { injection HI as <- <-. iso_start HR Hb. apply rel_seq_inv in HR as (y1 & H1 & HR).
    apply rel_nla_inv in HR as [<- Ha]. apply quoted_rel in H1 as (body & E & Hcl). cbn [rest] in E.
    subst s'. rewrite Hs in E. apply app_inv_tail in E. subst sp. split.
    - right. exists body. auto.
    - intros _. split; [now apply db_ok|now apply da_ok_rp]. }
  destruct HI as [HI|HI].
  { injection HI as <- <-. iso_start HR Hb. apply rel_seq_inv in HR as (y1 & H1 & HR).
    apply rel_nla_inv in HR as [<- Ha]. apply bracket_rel in H1 as (n & body & E). cbn [rest] in E.
    subst s'. rewrite Hs in E. apply app_inv_tail in E. subst sp. split.
    - exists n, body. reflexivity.
    - intros _. split; [now apply db_ok|now apply da_ok_rp]. }
  destruct HI as [HI|HI].
  { injection HI as <- <-. iso_start HR Hb.
    apply rel_seq_inv in HR as (y1 & H1 & HR). unfold RPlus in HR.
    apply rel_seq_inv in HR as (y2 & H2 & HR). apply rel_nla_inv in HR as [<- Ha].
    apply rel_seq_inv in H2 as (y3 & H3 & H2). apply rel_chr_inv in H3 as (c & s3 & E3 & P & ->).
    apply rel_starchr_inv in H2 as (u & E2 & F & _). cbn [rest] in *.
    assert (exists sg, (sg = nil \/ sg = [45%N]) /\ s = sg ++ rest y1) as (sg & Hsg & E1).
    { apply rel_alt_inv in H1 as [H1|H1].
      - apply rel_C_inv in H1 as (s1 & E1 & ->). exists [45%N]. split; auto.
      - apply rel_eps_inv in H1. subst y1. exists nil. auto. }
    rewrite E3, E2 in E1. change (c :: u ++ rest y2) with ((c :: u) ++ rest y2) in E1.
    rewrite app_assoc in E1. rewrite <- Hs' in *. rewrite Hs in E1. apply app_inv_tail in E1. split.
    - exists sg, (c :: u). split; [auto|]. split; [auto|]. split; [discriminate|].
      apply digits_spec. simpl. now rewrite P, F.
    - intros _. split; [now apply db_ok|now apply da_ok_par]. }
  destruct HI as [HI|HI].
  { injection HI as <- <-. iso_start HR Hb.
    apply rel_seq_inv in HR as (y1 & H1 & HR). apply rel_chr_inv in H1 as (c & s1 & E1 & P & ->).
    apply rel_seq_inv in HR as (y2 & H2 & HR). apply rel_nla_inv in HR as [<- Ha].
    apply rel_starchr_inv in H2 as (u & E2 & F & _). cbn [rest] in *.
    rewrite E2 in E1. change (c :: u ++ rest y2) with ((c :: u) ++ rest y2) in E1.
    rewrite <- Hs' in *. rewrite Hs in E1. apply app_inv_tail in E1. split.
    - rewrite E1. now apply name_spec.
    - intros _. split; [now apply db_ok|now apply da_ok_par]. }
  destruct HI as [HI|HI].
  { injection HI as <- <-. iso_start HR Hb.
    apply rel_seq_inv in HR as (y0 & H0 & HR). apply rel_C_inv in H0 as (s0 & E0 & ->).
    apply rel_seq_inv in HR as (y1 & H1 & HR). apply rel_chr_inv in H1 as (c & s1 & E1 & P & ->).
    apply rel_seq_inv in HR as (y2 & H2 & HR).
    apply rel_starchr_inv in H2 as (u & E2 & F & _).
    apply rel_seq_inv in HR as (y3 & H3 & HR). apply rel_C_inv in H3 as (s3 & E3 & ->).
    apply rel_nla_inv in HR as [<- Ha]. cbn [rest] in *.
    rewrite E1, E2, E3 in E0. subst s3.
    assert (s = ([cAT] ++ (c :: u) ++ [cAT]) ++ s') as E4.
    { rewrite E0. simpl. rewrite <- app_assoc. reflexivity. }
    rewrite Hs in E4. apply app_inv_tail in E4. split.
    - exists (c :: u). split; [auto|now apply name_spec].
    - intros _. split; [now apply db_ok|now apply da_ok_par]. }
  destruct HI as [HI|HI].
  { injection HI as <- <-. iso_start HR Hb.
    apply rel_seq_inv in HR as (y0 & H0 & HR). apply rel_C_inv in H0 as (s0 & E0 & ->).
    apply rel_seq_inv in HR as (y9 & H9 & HR). apply rel_C_inv in H9 as (s9 & E9 & ->).
    apply rel_seq_inv in HR as (y1 & H1 & HR). apply rel_chr_inv in H1 as (c & s1 & E1 & P & ->).
    apply rel_seq_inv in HR as (y2 & H2 & HR).
    apply rel_starchr_inv in H2 as (u & E2 & F & _).
    apply rel_seq_inv in HR as (y3 & H3 & HR). apply rel_C_inv in H3 as (s3 & E3 & ->).
    apply rel_nla_inv in HR as [<- Ha]. cbn [rest] in *.
    rewrite E9, E1, E2, E3 in E0. subst s3.
    assert (s = ([cDOL; 123%N] ++ (c :: u) ++ [125%N]) ++ s') as E4.
    { rewrite E0. simpl. rewrite <- app_assoc. reflexivity. }
    rewrite Hs in E4. apply app_inv_tail in E4. split.
    - exists (c :: u). split; [auto|now apply name_spec].
    - intros _. split; [now apply db_ok|now apply da_ok_rp]. }
  assert (forall x, rel (RAlts [
    RSeqs [C cDOL; C cLP; RPlus (RChr (noneof [cDOL; cLP; cRP])); C cRP];
    quoted cDQ; RChr plain; RSeq (C cBSL) (RChr escid)]) (St pv s nil) x ->
    exists c w, s = c :: w /\ is_aspace c = false /\ c <> cLP /\ c <> cRP /\ c <> cHASH) as Hleg.
  { intros x H. cbn [RAlts] in H.
    apply rel_alt_inv in H as [H|H].
    { cbn [RSeqs] in H. apply rel_seq_inv in H as (z & H & _). apply rel_C_inv in H as (w & E & _).
      exists cDOL, w. repeat split; auto; discriminate. }
    apply rel_alt_inv in H as [H|H].
    { unfold quoted in H. cbn [RSeqs] in H. apply rel_seq_inv in H as (z & H & _). apply rel_C_inv in H as (w & E & _).
      exists cDQ, w. repeat split; auto; discriminate. }
    apply rel_alt_inv in H as [H|H].
    { apply rel_chr_inv in H as (c & w & E & P & _). exists c, w. split; auto. now apply plain_spec. }
    apply rel_seq_inv in H as (z & H & _). apply rel_C_inv in H as (w & E & _).
    exists cBSL, w. repeat split; auto; discriminate. }
  assert (nonempty r = true) as Hne.
  { eapply lexicon_nonempty. unfold lexicon, lexicon1. cbn [app]. do 7 right. apply (in_or_app (skipn 7 lexicon1)). left. exact HI. }
  assert (sp <> nil) as Hsp.
  { intros ->. pose proof (rel_nonempty _ _ _ HR Hne) as L. cbn [rest] in L. simpl in Hs. subst. lia. }
  assert (forall P : chr -> Prop, (exists c w, s = c :: w /\ P c) -> exists c w, sp = c :: w /\ P c) as Hhd.
  { intros P (c & w & E & Pc). destruct sp as [|c' sp']; [congruence|]. rewrite E in Hs. injection Hs as <- _. eauto. }
  destruct HI as [HI|HI].
  { injection HI as <- <-. split; [|discriminate]. unfold legacy_pattern, RPlus in HR.
    apply rel_seq_inv in HR as (z & HR & _). apply Hhd with (P := fun c => is_aspace c = false /\ c <> cLP /\ c <> cRP /\ c <> cHASH).
    eapply Hleg; eauto. }
  destruct HI as [HI|HI].
  { injection HI as <- <-. split; [|discriminate]. unfold unquoted_pattern, RPlus in HR.
    apply rel_seq_inv in HR as (z & HR & _). apply Hhd with (P := fun c => is_aspace c = false /\ c <> cLP /\ c <> cRP /\ c <> cHASH).
    apply Hleg with (x := z). cbn [RAlts]. apply rl_altr, rl_altr.
    apply rel_alt_inv in HR as [HR|HR]; [apply rl_altl|apply rl_altr]; auto. }
  destruct HI as [HI|HI].
  { injection HI as <- <-. split; [|discriminate]. apply rel_C_inv in HR as (w & E & ->). cbn [rest] in *.
    subst w. change (s = [cLP] ++ s') in E. rewrite Hs in E. now apply app_inv_tail in E. }
  destruct HI as [HI|HI].
  { injection HI as <- <-. split; [|discriminate]. apply rel_C_inv in HR as (w & E & ->). cbn [rest] in *.
    subst w. change (s = [cRP] ++ s') in E. rewrite Hs in E. now apply app_inv_tail in E. }
  destruct HI as [HI|HI].
  { injection HI as <- <-. split; [|discriminate]. apply rel_seq_inv in HR as (z & H1 & H2).
    apply rel_C_inv in H2 as (w & E & ->). cbn [rest] in *. subst w.
    apply rel_alt_inv in H1 as [H1|H1].
    - apply rel_C_inv in H1 as (w & E1 & ->). cbn [rest] in *. rewrite E in E1.
      change (s = [cCR; cNL] ++ s') in E1. rewrite Hs in E1. apply app_inv_tail in E1. simpl; auto.
    - apply rel_eps_inv in H1. subst z. cbn [rest] in *.
      change (s = [cNL] ++ s') in E. rewrite Hs in E. apply app_inv_tail in E. simpl; auto. }
  destruct HI as [HI|HI].
  { injection HI as <- <-. split; [|discriminate]. apply rel_seq_inv in HR as (z & H1 & H2).
    apply rel_C_inv in H1 as (w & E & ->). cbn [rest] in *.
    apply rel_alt_inv in H2 as [H2|H2].
    - apply rel_C_inv in H2 as (w' & E1 & ->). cbn [rest] in *. rewrite E1 in E. subst w'.
      change (s = [cCR; cNL] ++ s') in E. rewrite Hs in E. apply app_inv_tail in E. simpl; auto.
    - apply rel_eps_inv in H2. subst y. cbn [rest] in *. subst w.
      change (s = [cCR] ++ s') in E. rewrite Hs in E. apply app_inv_tail in E. simpl; auto. }
  destruct HI as [HI|HI].
  { injection HI as <- <-. split; [|discriminate]. unfold RPlus in HR. apply rel_seq_inv in HR as (z & H1 & H2).
    apply rel_chr_inv in H1 as (c & w & E & P & ->). apply rel_starchr_inv in H2 as (u & E2 & F & _).
    cbn [rest] in *. rewrite E2 in E. subst s'. change (s = (c :: u) ++ rest y) in E. rewrite Hs in E.
    apply app_inv_tail in E. subst sp. split; [discriminate|]. simpl. now rewrite P. }
  destruct HI as [HI|HI].
  { injection HI as <- <-. split; [|discriminate]. apply sentinel_rel in HR as (ws & nm & tail & E & H).
    cbn [rest] in E. rewrite <- Hs' in E. rewrite Hs in E. apply app_inv_tail in E. exists ws, nm, tail. auto. }
  destruct HI as [HI|HI].
  { injection HI as <- <-. split; [|discriminate]. apply sentinel_rel in HR as (ws & nm & tail & E & H).
    cbn [rest] in E. rewrite <- Hs' in E. rewrite Hs in E. apply app_inv_tail in E. exists ws, nm, tail. auto. }
  destruct HI as [HI|HI].
  { injection HI as <- <-. split; [|discriminate]. apply rel_seq_inv in HR as (z & H1 & H2).
    apply rel_C_inv in H1 as (w & E & ->). apply bracket_rel in H2 as (n & body & E2). cbn [rest] in *.
    rewrite E2, <- Hs' in E. exists n, body.
    change (s = (cHASH :: bracket_text (repeat cEQ n) body) ++ s') in E. rewrite Hs in E.
    now apply app_inv_tail in E. }
  destruct HI as [HI|HI].
  { injection HI as <- <-. split; [|discriminate]. apply rel_seq_inv in HR as (z & H1 & H2).
    apply rel_C_inv in H1 as (w & E & ->). apply rel_starchr_inv in H2 as (u & E2 & F & _). cbn [rest] in *.
    rewrite E2, <- Hs' in E. exists u.
    change (s = (cHASH :: u) ++ s') in E. rewrite Hs in E. apply app_inv_tail in E. split; auto.
    now apply no_nl_forallb. }
  destruct HI.
Qed.

Lemma first_match_app l1 l2 pv s :
  first_match (l1 ++ l2) pv s =
  match first_match l1 pv s with Some x => Some x | None => first_match l2 pv s end.
Proof.
  induction l1 as [|(t, r) l1 IH]; simpl; auto. destruct (rmatch r pv s); auto.
Qed.

Lemma lexicon1_bad pv c s :
  is_aspace c = true \/ c = cLP \/ c = cRP \/ c = cHASH ->
  first_match lexicon1 pv (c :: s) <> None.
Proof.
  intros H.
  assert (c = cNL \/ c = cCR \/ is_blank c = true \/ c = cLP \/ c = cRP \/ c = cHASH) as H'.
  { destruct H as [H|H]; [|tauto]. unfold is_aspace in H. apply existsb_exists in H as (z & Hz & E).
    apply N.eqb_eq in E. subst z. simpl in Hz.
    repeat (destruct Hz as [<-|Hz]; [unfold is_blank; simpl; unfold cNL, cCR; tauto|]). destruct Hz. }
  destruct H' as [->|[->|[Hb|[->|[->| ->]]]]].
  - eapply first_match_some with (t := NEWLINE); [unfold lexicon1; simpl; do 11 right; left; reflexivity|].
    eapply rl_seq; [apply rl_altr, rl_eps|]. constructor. reflexivity.
  - eapply first_match_some with (t := NEWLINE); [unfold lexicon1; simpl; do 12 right; left; reflexivity|].
    eapply rl_seq; [constructor; reflexivity|]. apply rl_altr, rl_eps.
  - eapply first_match_some with (t := WHITESPACE); [unfold lexicon1; simpl; do 13 right; left; reflexivity|].
    eapply rl_seq; [constructor; exact Hb|]. apply rl_star0.
  - eapply first_match_some with (t := LEFT_PAREN); [unfold lexicon1; simpl; do 9 right; left; reflexivity|].
    constructor. reflexivity.
  - eapply first_match_some with (t := RIGHT_PAREN); [unfold lexicon1; simpl; do 10 right; left; reflexivity|].
    constructor. reflexivity.
  - eapply first_match_some with (t := COMMENT); [unfold lexicon1; simpl; do 17 right; left; reflexivity|].
    eapply rl_seq; [constructor; reflexivity|]. apply rl_star0.
Qed.

(** Follow-up: a line comment or sentinel extends to the end of its line. *)
Lemma m_seq a b x k : m (RSeq a b) x k = m a x (fun y => m b y k).
Proof. reflexivity. Qed.

Lemma star_tail p x y : m (RStar (RChr p)) x Some = Some y -> rest y = lstrip_by p (rest x).
Proof.
  intros H. cbn [m] in H.
  destruct (star_chr_max p Some (length (rest x)) x) as (u & _ & _ & E); auto; [discriminate|].
  change (star_loop (m (RChr p)) Some (length (rest x)) x = Some y) in H.
  rewrite E in H. injection H as <-. reflexivity.
Qed.
Lemma lstrip_nl s : match lstrip_by (noneof [cNL]) s with nil => True | c :: _ => c = cNL end.
Proof.
  induction s as [|c s IH]; simpl; auto.
  unfold noneof, oneof. simpl. rewrite orb_false_r. destruct (N.eqb c cNL) eqn:E; simpl; auto.
  now apply N.eqb_eq.
Qed.
(** The final star of a pattern determines where the match ends. *)
Inductive ends_star (p : chr -> bool) : re -> Prop :=
| es_star : ends_star p (RStar (RChr p))
| es_seq a b : ends_star p b -> ends_star p (RSeq a b).
Lemma ends_star_max p r x y : ends_star p r -> m r x Some = Some y ->
  exists u, rest y = lstrip_by p u.
Proof.
  intros He. revert x y. induction He; intros x y H.
  - apply star_tail in H. eauto.
  - rewrite m_seq in H. apply m_sound in H as (z & _ & H). cbv beta in H. eauto.
Qed.

Lemma token1_follow pv s t r y :
  In (t, r) lexicon1 -> rmatch r pv s = Some y -> follow_ok t (rest y).
Proof.
  intros HI HM.
  assert (t = COMMENT \/ t = FORMAT_OFF \/ t = FORMAT_ON -> ends_star (noneof [cNL]) r) as He.
  { unfold lexicon1 in HI.
    repeat (destruct HI as [HI|HI];
      [injection HI as <- <-; intros [H|[H|H]]; try discriminate;
       unfold sentinel; cbn [RSeqs]; repeat first [apply es_star|apply es_seq]|]). destruct HI. }
  assert (ends_star (noneof [cNL]) r -> match rest y with nil => True | c :: _ => c = cNL end) as G.
  { intros E. destruct (ends_star_max _ _ _ _ E HM) as (u & ->). apply lstrip_nl. }
  destruct t; simpl; auto; apply G, He; tauto.
Qed.

(** ** All facts about one scanned token. *)
Lemma token_ok pv s t y sp :
  first_match lexicon pv s = Some (t, y) -> s = sp ++ rest y -> sp <> nil ->
  spelling_ok t sp /\ (isolated t = true -> delim_before pv /\ delim_after (rest y))
  /\ follow_ok t (rest y).
Proof.
  intros H Hs Hne. unfold lexicon in H. rewrite first_match_app in H.
  destruct (first_match lexicon1 pv s) as [p|] eqn:E.
  - injection H as ->. destruct (first_match_rmatch _ _ _ _ _ E) as (r & HI & HM).
    pose proof (rmatch_sound _ _ _ _ HM) as HR.
    destruct (token1_ok _ _ _ _ _ _ _ HI HR Hs eq_refl) as [A B].
    repeat split; auto; try (now apply B). eapply token1_follow; eauto.
  - cbn [first_match] in H. destruct (rmatch catch_all pv s) as [z|]; [|discriminate].
    injection H as <- <-. split; [|split; [discriminate|exact I]].
    destruct sp as [|c w]; [congruence|]. exists c, w. split; auto.
    destruct s as [|c' s']; [discriminate|]. injection Hs as <- Hs.
    pose proof (lexicon1_bad pv c' s') as Hbad.
    destruct (is_aspace c') eqn:E1; [exfalso; apply Hbad; auto|].
    repeat split; auto; intros ->; apply Hbad; auto 10.
Qed.

Lemma scanned_ok pv s ts : scanned pv s ts -> forall pre t sp post,
  ts = pre ++ (t, sp) :: post ->
  spelling_ok t sp /\
  (isolated t = true -> delim_before (last_or pv (List.concat (map snd pre)))
                        /\ delim_after (List.concat (map snd post)))
  /\ follow_ok t (List.concat (map snd post)).
Proof.
  intros H. induction H as [|pv s t sp s' ts r y HF HI HM HR Hs Hs' Hne Hsc IH]; intros pre t0 sp0 post E.
  - destruct pre; discriminate.
  - destruct pre as [|[t1 sp1] pre].
    + injection E as <- <- <-. simpl.
      assert (List.concat (map snd ts) = rest y) as ->.
      { rewrite <- Hs'. clear -Hsc. induction Hsc; simpl; auto. now rewrite IHHsc. }
      subst s'. apply token_ok with (s := s); auto.
    + injection E as <- <- E. simpl. destruct (IH _ _ _ _ E) as (A & B & D).
      repeat split; auto; intros; try (now apply B).
      unfold last_or in *. rewrite fold_left_app. now apply B.
Qed.

(** ** A bracket comment ends at the first matching close.
    The lazy repetition stops at the first position where the rest matches. *)
Lemma lazy_first k : forall n x y, (List.length (rest x) <= n)%nat ->
  lazy_loop (m (RChr any)) k n x = Some y ->
  exists u v, rest x = u ++ v /\ k (St (last_or (prev x) u) v (cap x)) = Some y /\
    forall u' w, u = u' ++ w -> w <> nil -> k (St (last_or (prev x) u') (w ++ v) (cap x)) = None.
Proof.
  induction n as [|n IH]; intros [pv s cp] y Hl H; cbn [rest prev cap] in *.
  - destruct s; [|simpl in Hl; lia]. exists nil, nil. cbn [lazy_loop] in H. split; [reflexivity|]. split.
    + cbn [last_or fold_left]. destruct (k _); congruence.
    + intros u' w E Hw. symmetry in E. apply app_eq_nil in E. tauto.
  - cbn [lazy_loop] in H. destruct (k (St pv s cp)) as [y0|] eqn:Ek.
    + injection H as <-. exists nil, s. split; [reflexivity|]. split; [exact Ek|].
      intros u' w E Hw. symmetry in E. apply app_eq_nil in E. tauto.
    + destruct s as [|c s]; [discriminate|]. rewrite m_chr in H. cbn [rest cap any] in H.
      change (any c) with true in H. cbn match in H.
      destruct (Nat.ltb _ _); [|discriminate]. apply IH in H; [|cbn [rest]; simpl in Hl; lia].
      destruct H as (u & v & E & K & Mn). cbn [rest prev cap] in *.
      exists (c :: u), v. split; [now rewrite E|]. split; [exact K|].
      intros u' w Eu Hw. destruct u' as [|c' u'].
      * cbn [app] in Eu. subst w. cbn [app last_or fold_left]. now rewrite <- E.
      * injection Eu as <- Eu. apply (Mn u' w Eu Hw).
Qed.

Lemma strip_prefix_self p s : strip_prefix p (p ++ s) = Some s.
Proof. induction p as [|c p IH]; simpl; auto. now rewrite N.eqb_refl. Qed.
Lemma bracket_first x y : m bracket x Some = Some y ->
  exists n body, rest x = bracket_text (repeat cEQ n) body ++ rest y /\
    forall a b, body ++ [cRB] ++ repeat cEQ n ++ [cRB] = a ++ ([cRB] ++ repeat cEQ n ++ [cRB]) ++ b -> a = body.
Proof.
  intros H. unfold bracket in H. cbn [RSeqs] in H.
  rewrite m_seq in H. apply m_sound in H as (z1 & H1 & H). apply rel_C_inv in H1 as (s1 & E1 & ->).
  rewrite m_seq in H. apply m_sound in H as (z2 & H2 & H). apply rel_grp_inv in H2 as (y2 & H2 & ->).
  apply rel_starchr_inv in H2 as (u2 & E2 & F2 & _).
  rewrite m_seq in H. apply m_sound in H as (z3 & H3 & H). apply rel_C_inv in H3 as (s3 & E3 & ->).
  rewrite m_seq in H. cbn [rest cap] in *.
  assert (firstn (length s1 - length (rest y2)) s1 = u2) as Ecap.
  { rewrite E2, app_length. replace (length u2 + length (rest y2) - length (rest y2))%nat with (length u2) by lia.
    rewrite firstn_app, Nat.sub_diag, firstn_all. simpl. apply app_nil_r. }
  rewrite Ecap in H. apply forallb_const in F2. remember (length u2) as n eqn:En. clear Ecap En. subst u2.
  cbn [m] in H. apply lazy_first in H; [|auto]. cbn [rest prev cap] in H.
  destruct H as (u & v & Ev & K & Mn). unfold C in K, Mn. cbn [m rest cap prev] in K, Mn.
  exists n, u.
  assert (exists q, v = [cRB] ++ repeat cEQ n ++ [cRB] ++ q /\ rest y = q) as (q & Eq1 & Eq2).
  { destruct v as [|c v]; [discriminate|]. destruct (N.eqb cRB c) eqn:Ec; [|discriminate].
    apply N.eqb_eq in Ec. subst c.
    destruct (strip_prefix (repeat cEQ n) v) as [v'|] eqn:Es; [|discriminate]. apply strip_prefix_app in Es.
    destruct v' as [|c v']; [discriminate|]. destruct (N.eqb cRB c) eqn:Ec; [|discriminate].
    apply N.eqb_eq in Ec. subst c. injection K as <-. exists v'. subst v. auto. }
  split.
  - rewrite Eq2, E1, E2, E3, Ev, Eq1. unfold bracket_text. cbn [app].
    repeat (rewrite <- !app_assoc; cbn [app]). reflexivity.
  - intros a b E.
    assert (Forall (fun _ : chr => True) u) as _ by (apply Forall_forall; auto).
    destruct (Nat.lt_trichotomy (List.length a) (List.length u)) as [L|[L|L]].
    + exfalso. set (w := skipn (List.length a) u).
      assert (u = a ++ w) as Eu.
      { rewrite <- (firstn_skipn (List.length a) u) at 1. fold w. f_equal.
        apply (f_equal (firstn (List.length a))) in E.
        rewrite !firstn_app in E. replace (List.length a - List.length u)%nat with 0%nat in E by lia.
        rewrite Nat.sub_diag, firstn_all in E. cbn [firstn] in E. now rewrite !app_nil_r in E. }
      assert (w <> nil) as Hw. { intros Ew. rewrite Ew, app_nil_r in Eu. rewrite Eu in L. lia. }
      specialize (Mn a w Eu Hw). revert Mn.
      assert (w ++ v = [cRB] ++ repeat cEQ n ++ [cRB] ++ b ++ q) as ->.
      { rewrite Eq1. rewrite Eu in E. rewrite <- app_assoc in E. apply app_inv_head in E.
        transitivity ((w ++ [cRB] ++ repeat cEQ n ++ [cRB]) ++ q).
        - cbn [app]. repeat (rewrite <- !app_assoc; cbn [app]). reflexivity.
        - rewrite E. cbn [app]. repeat (rewrite <- !app_assoc; cbn [app]). reflexivity. }
      cbn [app]. rewrite N.eqb_refl. rewrite strip_prefix_self. cbn [app]. rewrite N.eqb_refl. discriminate.
    + apply (f_equal (firstn (List.length a))) in E.
      rewrite !firstn_app in E. replace (List.length a - List.length u)%nat with 0%nat in E by lia.
      rewrite Nat.sub_diag, firstn_all in E. rewrite L, firstn_all in E. cbn [firstn] in E. now rewrite !app_nil_r in E.
    + exfalso. apply (f_equal (@List.length chr)) in E. rewrite !app_length in E. cbn [List.length] in E. lia.
Qed.

Lemma comment_bracket pv s t sp y :
  first_match lexicon pv s = Some (t, y) -> s = sp ++ rest y -> sp <> nil -> t = BRACKET_COMMENT ->
  exists n body, sp = cHASH :: bracket_text (repeat cEQ n) body /\
    forall a b, body ++ [cRB] ++ repeat cEQ n ++ [cRB] = a ++ ([cRB] ++ repeat cEQ n ++ [cRB]) ++ b -> a = body.
Proof.
  intros H Hs Hne ->. destruct (first_match_rmatch _ _ _ _ _ H) as (r & HI & HM).
  unfold lexicon, lexicon1 in HI. cbn [app] in HI.
  repeat (destruct HI as [HI|HI]; [try discriminate HI|]); try (destruct HI; fail).
  injection HI as <-.
  unfold rmatch in HM. rewrite m_seq in HM. apply m_sound in HM as (z & H1 & HM).
  apply rel_C_inv in H1 as (w & E & ->). apply bracket_first in HM as (n & body & E2 & F). cbn [rest] in *.
  exists n, body. split; [|exact F].
  rewrite E2 in E. change (s = (cHASH :: bracket_text (repeat cEQ n) body) ++ rest y) in E.
  rewrite Hs in E. now apply app_inv_tail in E.
Qed.
