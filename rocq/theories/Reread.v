(** * Reread: what the lexer makes of a text that stands by itself
    Equations for the patterns of the lexer (lex/__init__.py 135-186) as functions
    on the text, used to show that the words of the formatter's output are read
    as the words that were written. *)
From Verif Require Import Base Regex Lex LexProofs LexClass.

Definition okb (pv : option chr) : bool := match pv with None => true | Some c => negb (nS_lp c) end.
Definition okd (d : str) : bool := match d with nil => true | c :: _ => negb (nS_rp c) end.
Definition okp (d : str) : bool := match d with nil => true | c :: _ => negb (nS_par c) end.

Definition rm (r : re) (pv : option chr) (s : str) : option str := option_map rest (rmatch r pv s).
Fixpoint fmx (lx : list (ttype * re)) (pv : option chr) (s : str) : option (ttype * str) :=
  match lx with
  | nil => None
  | (t, r) :: lx' => match rm r pv s with Some d => Some (t, d) | None => fmx lx' pv s end
  end.
Lemma fmx_eq lx pv s : fmx lx pv s = option_map (fun x => (fst x, rest (snd x))) (first_match lx pv s).
Proof.
  induction lx as [|(t, r) lx IH]; simpl; auto. unfold rm. destruct (rmatch r pv s); simpl; auto.
Qed.

(** ** Repetitions of one character *)
Fixpoint takew (p : chr -> bool) (s : str) : str :=
  match s with c :: s' => if p c then c :: takew p s' else nil | nil => nil end.
Lemma takew_split p s : s = takew p s ++ lstrip_by p s.
Proof. induction s as [|c s IH]; simpl; auto. destruct (p c); simpl; congruence. Qed.

Lemma star_det p k : (forall y c s, rest y = c :: s -> p c = true -> k y = None) ->
  forall n x, (List.length (rest x) <= n)%nat ->
  star_loop (m (RChr p)) k n x = k (St (last_or (prev x) (takew p (rest x))) (lstrip_by p (rest x)) (cap x)).
Proof.
  intros Hk. induction n as [|n IH]; intros [pv s cp] Hl; cbn [rest prev cap] in *.
  - destruct s; [reflexivity|simpl in Hl; lia].
  - destruct s as [|c s]; [cbn [star_loop]; now rewrite m_chr|].
    cbn [star_loop]. rewrite m_chr. cbn [rest cap]. cbn [lstrip_by takew]. destruct (p c) eqn:E; [|reflexivity].
    assert (Nat.ltb (List.length s) (List.length (c :: s)) = true) as -> by (apply Nat.ltb_lt; simpl; lia).
    rewrite IH by (cbn [rest]; simpl in Hl; lia). cbn [rest prev cap].
    match goal with |- match ?v with _ => _ end = ?w => assert (v = w) as -> by reflexivity; destruct w eqn:Ew end; auto.
    eapply Hk; [reflexivity|exact E].
Qed.
Lemma m_star_det p k x : (forall y c s, rest y = c :: s -> p c = true -> k y = None) ->
  m (RStar (RChr p)) x k = k (St (last_or (prev x) (takew p (rest x))) (lstrip_by p (rest x)) (cap x)).
Proof. intros H. apply (star_det p k H). auto. Qed.
(** the last repetition of a pattern *)
Lemma star_some p n : forall x, (List.length (rest x) <= n)%nat ->
  star_loop (m (RChr p)) Some n x = Some (St (last_or (prev x) (takew p (rest x))) (lstrip_by p (rest x)) (cap x)).
Proof.
  induction n as [|n IH]; intros [pv s cp] Hl; cbn [rest prev cap] in *.
  - destruct s; [reflexivity|simpl in Hl; lia].
  - destruct s as [|c s]; [cbn [star_loop]; now rewrite m_chr|].
    cbn [star_loop]. rewrite m_chr. cbn [rest cap]. cbn [lstrip_by takew]. destruct (p c) eqn:E; [|reflexivity].
    assert (Nat.ltb (List.length s) (List.length (c :: s)) = true) as -> by (apply Nat.ltb_lt; simpl; lia).
    rewrite IH by (cbn [rest]; simpl in Hl; lia). reflexivity.
Qed.

(** ** The patterns as functions *)
(** a guarded pattern *)
Definition guard (b : bool) (d : option str) : option str := if b then d else None.
Definition ends (ok : str -> bool) (d : option str) : option str :=
  match d with Some r => if ok r then Some r else None | None => None end.

Lemma nla_eq p x k : m (RNLA p) x k = if (match rest x with c :: _ => p c | nil => false end) then None else k x.
Proof. simpl. destruct (rest x); reflexivity. Qed.
Lemma rm_guard r pv s : rm (RSeq (RNLB nS_lp) r) pv s = guard (okb pv) (rm r pv s).
Proof.
  unfold rm, rmatch, guard, okb. rewrite m_seq. cbn [m prev]. destruct pv as [c|]; auto.
  destruct (nS_lp c); reflexivity.
Qed.
Lemma C_eq c x k : m (C c) x k =
  match rest x with d :: s => if N.eqb c d then k (St (Some d) s (cap x)) else None | nil => None end.
Proof. reflexivity. Qed.
Lemma end_par x : m (RNLA nS_par) x Some = if okp (rest x) then Some x else None.
Proof. rewrite nla_eq. unfold okp. destruct (rest x) as [|c]; auto. destruct (nS_par c); reflexivity. Qed.
Lemma end_rp x : m (RNLA nS_rp) x Some = if okd (rest x) then Some x else None.
Proof. rewrite nla_eq. unfold okd. destruct (rest x) as [|c]; auto. destruct (nS_rp c); reflexivity. Qed.

Lemma digit_par c : digit c = true -> nS_par c = true.
Proof.
  unfold digit, between, nS_par, is_aspace. intros H. apply andb_prop in H as [H1 H2].
  apply N.leb_le in H1, H2. cbn [existsb]. unfold cRP, cLP. rewrite !orb_false_r.
  repeat match goal with |- context [N.eqb c ?n] => destruct (N.eqb_spec c n); [lia|] end. reflexivity.
Qed.
Lemma wrest_par c : wrest c = true -> nS_par c = true.
Proof.
  unfold wrest, digit, between, nS_par, is_aspace. intros H.
  rewrite !orb_true_iff, !andb_true_iff, !N.leb_le, N.eqb_eq in H. cbn [existsb]. unfold cRP, cLP. rewrite !orb_false_r.
  repeat match goal with |- context [N.eqb c ?n] => destruct (N.eqb_spec c n); [lia|] end. reflexivity.
Qed.

Lemma wfirst_par c : wfirst c = true -> nS_par c = true.
Proof.
  unfold wfirst, between, nS_par, is_aspace. intros H.
  rewrite !orb_true_iff, !andb_true_iff, !N.leb_le, N.eqb_eq in H. cbn [existsb]. unfold cRP, cLP. rewrite !orb_false_r.
  repeat match goal with |- context [N.eqb c ?n] => destruct (N.eqb_spec c n); [lia|] end. reflexivity.
Qed.

Definition num_rest (s : str) : option str :=
  let s1 := match s with c :: s' => if N.eqb 45%N c then s' else s | nil => nil end in
  match s1 with
  | c :: s' => if digit c then ends okp (Some (lstrip_by digit s')) else None
  | nil => None
  end.
Definition numpat : re := RSeqs [ROpt (C 45%N); RPlus (RChr digit); RNLA nS_par].
Lemma digits_eq x : m (RPlus (RChr digit)) x (fun y => m (RNLA nS_par) y Some) =
  match rest x with c :: s => if digit c then
      (let z := St (last_or (Some c) (takew digit s)) (lstrip_by digit s) (cap x) in if okp (rest z) then Some z else None) else None | nil => None end.
Proof.
  unfold RPlus. rewrite m_seq, m_chr. destruct (rest x) as [|c s] eqn:E; auto. destruct (digit c) eqn:Ed; auto.
  rewrite m_star_det; [cbn [rest prev cap]; apply end_par|].
  intros y d s' Ey Hd. rewrite end_par, Ey. cbn [okp]. now rewrite (digit_par _ Hd).
Qed.
Lemma rm_num pv s : rm numpat pv s = num_rest s.
Proof.
  unfold rm, rmatch, numpat, num_rest. cbn [RSeqs]. rewrite m_seq. unfold ROpt.
  change (m (RAlt (C 45%N) REps) (St pv s nil) (fun y => m (RSeq (RPlus (RChr digit)) (RNLA nS_par)) y Some)) with
    (match m (C 45%N) (St pv s nil) (fun y => m (RPlus (RChr digit)) y (fun z => m (RNLA nS_par) z Some)) with
     | Some y => Some y | None => m (RPlus (RChr digit)) (St pv s nil) (fun z => m (RNLA nS_par) z Some) end).
  rewrite C_eq. cbn [rest cap]. destruct s as [|c s]; [reflexivity|].
  rewrite !digits_eq. cbn [rest cap]. destruct (N.eqb 45%N c) eqn:E.
  - apply N.eqb_eq in E. subst c. change (digit 45%N) with false. cbn [ends].
    destruct s as [|c s]; [reflexivity|]. destruct (digit c); auto. cbn zeta. cbn [rest].
    destruct (okp _); reflexivity.
  - destruct (digit c); auto. cbn zeta. cbn [rest ends]. destruct (okp _); reflexivity.
Qed.

Definition wordpat : re := RSeqs [RChr wfirst; RStar (RChr wrest); RNLA nS_par].
Definition word_rest (s : str) : option str :=
  match s with c :: s' => if wfirst c then ends okp (Some (lstrip_by wrest s')) else None | nil => None end.
Lemma rm_word pv s : rm wordpat pv s = word_rest s.
Proof.
  unfold rm, rmatch, wordpat, word_rest. cbn [RSeqs]. rewrite m_seq, m_chr. cbn [rest cap].
  destruct s as [|c s]; [reflexivity|]. destruct (wfirst c); [|reflexivity].
  rewrite m_seq. rewrite m_star_det.
  - rewrite end_par. cbn [rest ends]. destruct (okp _); reflexivity.
  - intros y d s' Ey Hd. rewrite end_par, Ey. cbn [okp]. now rewrite (wrest_par _ Hd).
Qed.

Definition one (c : chr) (ok : str -> bool) (s : str) : option str :=
  match s with d :: s' => if N.eqb c d then ends ok (Some s') else None | nil => None end.
Lemma one_par c x : m (C c) x (fun y => m (RNLA nS_par) y Some) =
  match rest x with d :: s => if N.eqb c d then (if okp s then Some (St (Some d) s (cap x)) else None) else None | nil => None end.
Proof. rewrite C_eq. destruct (rest x); auto. now rewrite end_par. Qed.
Lemma one_rp c x : m (C c) x (fun y => m (RNLA nS_rp) y Some) =
  match rest x with d :: s => if N.eqb c d then (if okd s then Some (St (Some d) s (cap x)) else None) else None | nil => None end.
Proof. rewrite C_eq. destruct (rest x); auto. now rewrite end_rp. Qed.

Definition atpat : re := RSeqs [C cAT; RChr wfirst; RStar (RChr wrest); C cAT; RNLA nS_par].
Definition at_rest (s : str) : option str :=
  match s with
  | a :: c :: s' => if N.eqb cAT a && wfirst c then one cAT okp (lstrip_by wrest s') else None
  | _ => None
  end.
Lemma rm_at pv s : rm atpat pv s = at_rest s.
Proof.
  unfold rm, rmatch, atpat, at_rest. cbn [RSeqs]. rewrite m_seq, C_eq. cbn [rest cap].
  destruct s as [|a s]; [reflexivity|]. destruct (N.eqb cAT a).
  2: { destruct s; reflexivity. }
  rewrite m_seq, m_chr. cbn [rest cap]. destruct s as [|c s]; [reflexivity|]. cbn [andb]. destruct (wfirst c); [|reflexivity].
  rewrite m_seq, m_star_det.
  - rewrite m_seq, one_par. cbn [rest]. unfold one. destruct (lstrip_by wrest s) as [|d r]; [reflexivity|].
    destruct (N.eqb cAT d); [|reflexivity]. cbn [ends]. destruct (okp r); reflexivity.
  - intros y d s' Ey Hd. rewrite m_seq, one_par, Ey. destruct (N.eqb_spec cAT d); [|reflexivity]. subst d. discriminate.
Qed.
Definition derefpat : re := RSeqs [C cDOL; C 123%N; RChr wfirst; RStar (RChr wrest); C 125%N; RNLA nS_rp].
Definition deref_rest (s : str) : option str :=
  match s with
  | a :: b :: c :: s' => if N.eqb cDOL a && N.eqb 123%N b && wfirst c then one 125%N okd (lstrip_by wrest s') else None
  | _ => None
  end.
Lemma rm_deref pv s : rm derefpat pv s = deref_rest s.
Proof.
  unfold rm, rmatch, derefpat, deref_rest. cbn [RSeqs]. rewrite m_seq, C_eq. cbn [rest cap].
  destruct s as [|a s]; [reflexivity|]. destruct (N.eqb cDOL a).
  2: { destruct s as [|? [|? ?]]; reflexivity. }
  rewrite m_seq, C_eq. cbn [rest cap]. destruct s as [|b s]; [reflexivity|]. cbn [andb]. destruct (N.eqb 123%N b).
  2: { destruct s; reflexivity. }
  rewrite m_seq, m_chr. cbn [rest cap]. destruct s as [|c s]; [reflexivity|]. cbn [andb]. destruct (wfirst c); [|reflexivity].
  rewrite m_seq, m_star_det.
  - rewrite m_seq, one_rp. cbn [rest]. unfold one. destruct (lstrip_by wrest s) as [|d r]; [reflexivity|].
    destruct (N.eqb 125%N d); [|reflexivity]. cbn [ends]. destruct (okd r); reflexivity.
  - intros y d s' Ey Hd. rewrite m_seq, one_rp, Ey. destruct (N.eqb_spec 125%N d); [|reflexivity]. subst d. discriminate.
Qed.

(** *** Quoted strings *)
(** the text behind the closing quote *)
Fixpoint qrest (q : chr) (s : str) : option str :=
  match s with
  | nil => None
  | c :: s' => if N.eqb c q then Some s'
               else if N.eqb c cBSL then match s' with nil => None | _ :: s'' => qrest q s'' end
               else qrest q s'
  end.
Definition qstop (q : chr) : chr -> bool := noneof [q; cBSL].
Lemma qstop_spec q c : qstop q c = negb (N.eqb c q || N.eqb c cBSL).
Proof. unfold qstop, noneof, oneof. cbn [existsb]. now rewrite orb_false_r. Qed.
Lemma qrest_strip q s : qrest q (lstrip_by (qstop q) s) = qrest q s.
Proof.
  induction s as [|c s IH]; auto. cbn [lstrip_by]. rewrite qstop_spec. cbn [qrest].
  destruct (N.eqb c q) eqn:E1; cbn [orb negb]; [cbn [qrest]; now rewrite E1|].
  destruct (N.eqb c cBSL) eqn:E2; cbn [negb]; auto. cbn [qrest]. now rewrite E1, E2.
Qed.
Lemma lstrip_len p s : (List.length (lstrip_by p s) <= List.length s)%nat.
Proof. induction s as [|c s IH]; simpl; auto. destruct (p c); simpl; lia. Qed.
Lemma lstrip_head p s : match lstrip_by p s with nil => True | c :: _ => p c = false end.
Proof. induction s as [|c s IH]; simpl; auto. destruct (p c) eqn:E; auto. Qed.
Definition esc (q : chr) : re := RSeqs [C cBSL; RChr any; RStar (RChr (noneof [q; cBSL]))].
Lemma esc_eq q x k : (forall y c s, rest y = c :: s -> qstop q c = true -> k y = None) ->
  m (esc q) x k = match rest x with
    | b :: c :: s => if N.eqb cBSL b then k (St (last_or (Some c) (takew (qstop q) s)) (lstrip_by (qstop q) s) (cap x)) else None
    | _ => None end.
Proof.
  intros Hk. unfold esc. cbn [RSeqs]. rewrite m_seq, C_eq. destruct (rest x) as [|b [|c s]]; auto.
  - destruct (N.eqb cBSL b); auto.
  - destruct (N.eqb cBSL b); auto. rewrite m_seq, m_chr. cbn [rest any]. rewrite m_star_det; auto.
Qed.
Lemma esc_loop q k : q <> cBSL -> forall n x, (List.length (rest x) <= n)%nat ->
  (match rest x with nil => True | c :: _ => qstop q c = false end) ->
  star_loop (m (esc q)) (fun y => m (C q) y k) n x =
  match qrest q (rest x) with Some r => k (St (Some q) r (cap x)) | None => None end.
Proof.
  intros Hq. induction n as [|n IH]; intros [pv s cp] Hl Hh; cbn [rest cap] in *.
  - destruct s; [reflexivity|simpl in Hl; lia].
  - assert (Hf : forall (f : nat) y c s', rest y = c :: s' -> qstop q c = true ->
       star_loop (m (esc q)) (fun y => m (C q) y k) f y = None).
    { intros f y c s' Ey Hc. rewrite qstop_spec in Hc. apply negb_true_iff, orb_false_iff in Hc as [H1 H2].
      assert (Hc : m (C q) y k = None).
      { rewrite C_eq, Ey. rewrite N.eqb_sym, H1. reflexivity. }
      destruct f; cbn [star_loop]; [exact Hc|].
      assert (forall kk, m (esc q) y kk = None) as He.
      { intros kk. unfold esc. cbn [RSeqs]. rewrite m_seq, C_eq, Ey, N.eqb_sym, H2. reflexivity. }
      rewrite He. exact Hc. }
    cbn [star_loop]. rewrite esc_eq.
    2: { intros y c s' Ey Hc. cbn [rest]. destruct (Nat.ltb _ _); auto. eapply Hf; eauto. }
    cbn [rest]. rewrite C_eq. cbn [rest cap]. destruct s as [|c s]; [reflexivity|].
    rewrite qstop_spec in Hh. apply negb_false_iff in Hh. cbn [qrest].
    destruct (N.eqb c q) eqn:E1.
    + apply N.eqb_eq in E1. subst c. assert (N.eqb cBSL q = false) as -> by (apply N.eqb_neq; auto).
      rewrite N.eqb_refl. destruct s; reflexivity.
    + cbn [orb] in Hh. rewrite Hh. rewrite (N.eqb_sym cBSL c), Hh. rewrite (N.eqb_sym q c), E1.
      destruct s as [|d s]; auto.
      assert (Nat.ltb (List.length (lstrip_by (qstop q) s)) (List.length (c :: d :: s)) = true) as Hlt.
      { apply Nat.ltb_lt. pose proof (lstrip_len (qstop q) s). simpl. lia. }
      cbn [rest]. rewrite Hlt. rewrite IH.
      * cbn [rest cap]. rewrite qrest_strip. destruct (qrest q s) as [r|]; auto. destruct (k _); auto.
      * cbn [rest]. pose proof (lstrip_len (qstop q) s). simpl in Hl. lia.
      * cbn [rest]. apply lstrip_head.
Qed.
Lemma m_quoted q x k : q <> cBSL -> m (quoted q) x k =
  match rest x with
  | c :: s => if N.eqb q c then match qrest q s with Some r => k (St (Some q) r (cap x)) | None => None end else None
  | nil => None end.
Proof.
  intros Hq. unfold quoted. cbn [RSeqs]. rewrite m_seq, C_eq. destruct (rest x) as [|c s]; auto.
  destruct (N.eqb q c) eqn:E; auto. rewrite m_seq. change (noneof [q; cBSL]) with (qstop q) at 1.
  assert (Hl : forall y, (match rest y with nil => True | d :: _ => qstop q d = false end) ->
     m (RSeq (RStar (RSeq (C cBSL) (RSeq (RChr any) (RStar (RChr (noneof [q; cBSL])))))) (C q)) y k =
     match qrest q (rest y) with Some r => k (St (Some q) r (cap y)) | None => None end).
  { intros y Hy. rewrite m_seq. cbn [m]. apply (esc_loop q k Hq); auto. }
  rewrite m_star_det.
  - rewrite Hl by apply lstrip_head. cbn [rest cap]. now rewrite qrest_strip.
  - intros y d s' Ey Hd. rewrite m_seq.
    rewrite qstop_spec in Hd. apply negb_true_iff, orb_false_iff in Hd as [H1 H2].
    change (star_loop (m (esc q)) (fun y0 => m (C q) y0 k) (List.length (rest y)) y = None).
    rewrite Ey. cbn [List.length star_loop].
    assert (forall kk, m (esc q) y kk = None) as ->.
    { intros kk. unfold esc. cbn [RSeqs]. rewrite m_seq, C_eq, Ey, N.eqb_sym, H2. reflexivity. }
    rewrite C_eq, Ey, N.eqb_sym, H1. reflexivity.
Qed.
Definition quoted_rest (q : chr) (s : str) : option str :=
  match s with c :: s' => if N.eqb q c then ends okd (qrest q s') else None | nil => None end.
Lemma rm_quoted q pv s : q <> cBSL -> rm (RSeq (quoted q) (RNLA nS_rp)) pv s = quoted_rest q s.
Proof.
  intros Hq. unfold rm, rmatch, quoted_rest. rewrite m_seq, m_quoted by auto. cbn [rest cap].
  destruct s as [|c s]; auto. destruct (N.eqb q c); auto. destruct (qrest q s) as [r|]; auto.
  rewrite end_rp. cbn [rest ends]. destruct (okd r); reflexivity.
Qed.

(** *** Bracket arguments *)
Definition bopen (s : str) : option (str * str) :=
  match s with
  | a :: s1 => if N.eqb cLB a then
      match lstrip_by (N.eqb cEQ) s1 with
      | b :: r => if N.eqb cLB b then Some (takew (N.eqb cEQ) s1, r) else None
      | nil => None
      end else None
  | nil => None
  end.
Definition closer (e : str) : str := cRB :: e ++ [cRB].
Fixpoint bfind (cl : str) (ok : str -> bool) (s : str) : option str :=
  let next := match s with _ :: s' => bfind cl ok s' | nil => None end in
  match strip_prefix cl s with
  | Some r => if ok r then Some r else next
  | None => next
  end.
Definition bracket_rest (ok : str -> bool) (s : str) : option str :=
  match bopen s with Some (e, r) => bfind (closer e) ok r | None => None end.
Definition fin (ok : str -> bool) (x : st) : option st := if ok (rest x) then Some x else None.
Lemma strip_prefix_app p q s : strip_prefix (p ++ q) s = match strip_prefix p s with Some r => strip_prefix q r | None => None end.
Proof.
  revert s. induction p as [|c p IH]; intros s; auto. destruct s as [|d s]; cbn [app strip_prefix]; auto.
  destruct (N.eqb c d); auto.
Qed.
Lemma m_closer x ok : option_map rest (m (RSeqs [C cRB; RBack; C cRB]) x (fin ok)) = ends ok (strip_prefix (closer (cap x)) (rest x)).
Proof.
  cbn [RSeqs]. rewrite m_seq, C_eq. unfold closer. cbn [strip_prefix].
  destruct (rest x) as [|c s]; auto. destruct (N.eqb cRB c); auto.
  rewrite m_seq. cbn [m cap rest prev]. rewrite strip_prefix_app.
  destruct (strip_prefix (cap x) s) as [r|]; auto. rewrite C_eq. cbn [rest strip_prefix]. destruct r as [|d r]; auto.
  destruct (N.eqb cRB d); auto. unfold fin. cbn [rest ends]. destruct (ok r); reflexivity.
Qed.
Lemma bfind_loop ok k : (forall x, option_map rest (k x) = ends ok (strip_prefix (closer (cap x)) (rest x))) ->
  forall n x, (List.length (rest x) <= n)%nat ->
  option_map rest (lazy_loop (m (RChr any)) k n x) = bfind (closer (cap x)) ok (rest x).
Proof.
  intros Hk. induction n as [|n IH]; intros [pv s cp] Hl; cbn [rest cap] in *.
  - destruct s; [|simpl in Hl; lia]. cbn [lazy_loop bfind]. pose proof (Hk (St pv nil cp)) as H. cbn [rest cap] in H.
    unfold closer in *. cbn [strip_prefix ends] in *. destruct (k _); cbn in *; congruence.
  - cbn [lazy_loop]. pose proof (Hk (St pv s cp)) as H. cbn [rest cap] in H.
    assert (Hn : option_map rest (m (RChr any) (St pv s cp)
        (fun y => if Nat.ltb (List.length (rest y)) (List.length s) then lazy_loop (m (RChr any)) k n y else None))
      = match s with _ :: s' => bfind (closer cp) ok s' | nil => None end).
    { rewrite m_chr. cbn [rest]. destruct s as [|c s]; auto. cbn [any rest].
      assert (Nat.ltb (List.length s) (List.length (c :: s)) = true) as -> by (apply Nat.ltb_lt; simpl; lia).
      cbn [cap]. rewrite IH; auto. cbn [rest]. simpl in Hl. lia. }
    assert (Hb : bfind (closer cp) ok s = match ends ok (strip_prefix (closer cp) s) with Some r => Some r
        | None => match s with _ :: s' => bfind (closer cp) ok s' | nil => None end end).
    { destruct s; cbn [bfind]; destruct (strip_prefix _ _) as [r|]; cbn [ends]; auto; destruct (ok r); auto. }
    rewrite Hb, <- H. destruct (k (St pv s cp)) as [y|]; [reflexivity|]. cbn [option_map rest]. exact Hn.
Qed.
Lemma takew_firstn p s : firstn (List.length s - List.length (lstrip_by p s)) s = takew p s.
Proof.
  rewrite (takew_split p s) at 1 3. rewrite app_length, Nat.add_sub. now rewrite firstn_app, Nat.sub_diag, firstn_all, firstn_O, app_nil_r.
Qed.
Lemma m_bracket ok x : option_map rest (m bracket x (fin ok)) = bracket_rest ok (rest x).
Proof.
  unfold bracket, bracket_rest, bopen. cbn [RSeqs]. rewrite m_seq, C_eq. destruct (rest x) as [|a s]; auto.
  destruct (N.eqb cLB a); auto. rewrite m_seq. cbn [m].
  change (star_loop (m (C cEQ))) with (star_loop (m (RChr (N.eqb cEQ)))).
  rewrite (star_det (N.eqb cEQ)); auto.
  - cbn [rest cap prev]. rewrite takew_firstn. unfold C at 1. cbn [m rest cap].
    destruct (lstrip_by (N.eqb cEQ) s) as [|b r]; auto. destruct (N.eqb cLB b); auto.
    match goal with |- option_map rest (lazy_loop ?f ?k ?n ?y) = _ =>
      change (option_map rest (lazy_loop (m (RChr any)) k n y) = bfind (closer (cap y)) ok (rest y)) end.
    rewrite (bfind_loop ok); auto. intros y. rewrite <- m_closer. reflexivity.
  - intros y c s' Ey Hc. apply N.eqb_eq in Hc. subst c. unfold C. cbn [m rest]. rewrite Ey. reflexivity.
Qed.
Lemma rm_bracket pv s : rm (RSeq bracket (RNLA nS_rp)) pv s = bracket_rest okd s.
Proof.
  unfold rm, rmatch. rewrite m_seq. etransitivity; [|exact (m_bracket okd (St pv s nil))]. f_equal.
  assert (H : forall r (k1 k2 : st -> option st), (forall y, k1 y = k2 y) -> forall x, m r x k1 = m r x k2).
  { clear. induction r; intros k1 k2 H x; cbn [m]; auto.
    - destruct (rest x); auto. destruct (p c); auto.
    - rewrite (IHr1 k1 k2 H x), (IHr2 k1 k2 H x). reflexivity.
    - generalize (List.length (rest x)). intros n. revert x.
      induction n as [|n IHn]; intros x; cbn [star_loop]; auto. rewrite H.
      erewrite IHr; [reflexivity|]. intros y. cbn beta. now rewrite IHn.
    - generalize (List.length (rest x)). intros n. revert x.
      induction n as [|n IHn]; intros x; cbn [lazy_loop]; rewrite H; auto.
      erewrite IHr; [reflexivity|]. intros y. cbn beta. now rewrite IHn.
    - destruct (strip_prefix _ _); auto.
    - destruct (prev x); auto. destruct (p c); auto.
    - destruct (rest x); auto. destruct (p c); auto.
    - destruct (rest x); auto. }
  apply H. intros y. rewrite end_rp. reflexivity.
Qed.

(** *** Unquoted arguments, in the order of the alternatives of [legacy_pattern] *)
Definition mk_rest (s : str) : option str :=
  match s with
  | a :: b :: c :: s' =>
      if N.eqb cDOL a && N.eqb cLP b && noneof [cDOL; cLP; cRP] c
      then match lstrip_by (noneof [cDOL; cLP; cRP]) s' with
           | d :: r => if N.eqb cRP d then Some r else None
           | nil => None
           end
      else None
  | _ => None
  end.
Definition ustep (s : str) : option str :=
  match mk_rest s with
  | Some r => Some r
  | None =>
      match s with
      | nil => None
      | c :: s' =>
          match (if N.eqb cDQ c then qrest cDQ s' else None) with
          | Some r => Some r
          | None => if plain c then Some s' else
                    if N.eqb cBSL c then match s' with d :: s'' => if escid d then Some s'' else None | nil => None end
                    else None
          end
      end
  end.
Fixpoint uloop (n : nat) (s : str) : str :=
  match n with
  | O => s
  | S n' => match ustep s with Some r => uloop n' r | None => s end
  end.
Definition units : re := RAlts [
    RSeqs [C cDOL; C cLP; RPlus (RChr (noneof [cDOL; cLP; cRP])); C cRP];
    quoted cDQ;
    RChr plain;
    RSeq (C cBSL) (RChr escid)].
Lemma mk_eq x k : m (RSeqs [C cDOL; C cLP; RPlus (RChr (noneof [cDOL; cLP; cRP])); C cRP]) x k =
  match mk_rest (rest x) with Some r => k (St (Some cRP) r (cap x)) | None => None end.
Proof.
  cbn [RSeqs]. rewrite m_seq, C_eq. unfold mk_rest. destruct (rest x) as [|a s]; auto.
  destruct (N.eqb cDOL a).
  2: { destruct s as [|b [|c s]]; auto. }
  rewrite m_seq, C_eq. cbn [rest cap]. destruct s as [|b s]; auto. cbn [andb]. destruct (N.eqb cLP b).
  2: { destruct s; auto. }
  rewrite m_seq. unfold RPlus. rewrite m_seq, m_chr. cbn [rest cap]. destruct s as [|c s]; auto. cbn [andb].
  destruct (noneof [cDOL; cLP; cRP] c); auto. rewrite m_star_det.
  - rewrite C_eq. cbn [rest cap]. destruct (lstrip_by _ s) as [|d r]; auto. destruct (N.eqb_spec cRP d); auto. now subst.
  - intros y d s' Ey Hd. rewrite C_eq, Ey. destruct (N.eqb_spec cRP d); auto. subst. discriminate.
Qed.
Lemma qrest_len q : forall s r, qrest q s = Some r -> (List.length r < List.length s)%nat.
Proof.
  assert (H : forall n s r, (List.length s <= n)%nat -> qrest q s = Some r -> (List.length r < List.length s)%nat).
  { induction n as [|n IH]; intros [|c s] r Hl H; try discriminate; simpl in Hl; try lia. cbn [qrest] in H.
    destruct (N.eqb c q); [inversion H; subst; simpl; lia|].
    destruct (N.eqb c cBSL); [destruct s as [|d s]; [discriminate|]|]; apply IH in H; simpl in *; lia. }
  intros s r. apply (H (List.length s)). lia.
Qed.
Lemma ustep_len s r : ustep s = Some r -> (List.length r < List.length s)%nat.
Proof.
  unfold ustep. destruct (mk_rest s) as [r'|] eqn:E.
  - intros H. inversion H; subst. unfold mk_rest in E. destruct s as [|a [|b [|c s]]]; try discriminate.
    destruct (_ && _); [|discriminate]. destruct (lstrip_by _ s) as [|d r'] eqn:El; [discriminate|].
    destruct (N.eqb cRP d); inversion E; subst. pose proof (lstrip_len (noneof [cDOL; cLP; cRP]) s). rewrite El in H0. simpl in *. lia.
  - destruct s as [|c s]; [discriminate|]. destruct (if N.eqb cDQ c then qrest cDQ s else None) as [r'|] eqn:Eq.
    + destruct (N.eqb cDQ c); [|discriminate]. intros H. inversion H; subst. apply qrest_len in Eq. simpl. lia.
    + destruct (plain c); [intros H; inversion H; subst; simpl; lia|]. destruct (N.eqb cBSL c); [|discriminate].
      destruct s as [|d s]; [discriminate|]. destruct (escid d); intros H; inversion H; subst. simpl. lia.
Qed.
Lemma units_eq x k K : (forall y, (List.length (rest y) < List.length (rest x))%nat -> option_map rest (k y) = Some (K (rest y))) ->
  option_map rest (m units x k) = match ustep (rest x) with Some r => Some (K r) | None => None end.
Proof.
  intros HK. unfold units. cbn [RAlts].
  change (option_map rest (match m (RSeqs [C cDOL; C cLP; RPlus (RChr (noneof [cDOL; cLP; cRP])); C cRP]) x k with
    | Some y => Some y
    | None => match m (quoted cDQ) x k with Some y => Some y
      | None => match m (RChr plain) x k with Some y => Some y | None => m (RSeq (C cBSL) (RChr escid)) x k end end end) =
    match ustep (rest x) with Some r => Some (K r) | None => None end).
  assert (HS : forall r, ustep (rest x) = Some r -> forall p c, option_map rest (k (St p r c)) = Some (K r)).
  { intros r Hr p c. apply (HK (St p r c)). cbn [rest]. now apply ustep_len. }
  rewrite mk_eq. unfold ustep in *. destruct (mk_rest (rest x)) as [r|].
  { specialize (HS r eq_refl (Some cRP) (cap x)). destruct (k _); auto; discriminate. }
  rewrite m_quoted by discriminate. rewrite m_chr, m_seq, C_eq. destruct (rest x) as [|c s]; auto.
  assert (HT : forall r o, match (if N.eqb cDQ c then qrest cDQ s else None) with Some r => Some r
       | None => if plain c then Some s else if N.eqb cBSL c then match s with d :: s'' => if escid d then Some s'' else None | nil => None end
                    else None end = Some r -> option_map rest (match k (St o r (cap x)) with Some y => Some y | None => None end) = Some (K r)).
  { intros r o Hr. rewrite <- (HS r Hr o (cap x)). destruct (k _); auto. }
  clear HS. destruct (N.eqb cDQ c).
  - destruct (qrest cDQ s) as [r|].
    + specialize (HT r (Some cDQ) eq_refl). destruct (k _); auto; discriminate.
    + destruct (plain c).
      * specialize (HT s (Some c) eq_refl). destruct (k _); auto; discriminate.
      * destruct (N.eqb cBSL c); auto. rewrite m_chr. cbn [rest cap]. destruct s as [|d s]; auto. destruct (escid d); auto.
        specialize (HT s (Some d) eq_refl). destruct (k _); auto; discriminate.
  - destruct (plain c).
    + specialize (HT s (Some c) eq_refl). destruct (k _); auto; discriminate.
    + destruct (N.eqb cBSL c); auto. rewrite m_chr. cbn [rest cap]. destruct s as [|d s]; auto. destruct (escid d); auto.
      specialize (HT s (Some d) eq_refl). destruct (k _); auto; discriminate.
Qed.
Lemma uloop_eq n : forall x, (List.length (rest x) <= n)%nat ->
  option_map rest (star_loop (m units) Some n x) = Some (uloop n (rest x)).
Proof.
  induction n as [|n IH]; intros x Hl; cbn [star_loop uloop]; [reflexivity|].
  assert (E := units_eq x (fun y => if Nat.ltb (List.length (rest y)) (List.length (rest x)) then star_loop (m units) Some n y else None) (uloop n)).
  assert (H : option_map rest (m units x (fun y => if Nat.ltb (List.length (rest y)) (List.length (rest x)) then star_loop (m units) Some n y else None)) =
     match ustep (rest x) with Some r => Some (uloop n r) | None => None end).
  { apply E. intros y Hy. assert (Nat.ltb (List.length (rest y)) (List.length (rest x)) = true) as -> by now apply Nat.ltb_lt.
    apply IH. lia. }
  destruct (m units x _) as [y|]; destruct (ustep (rest x)); cbn in H; try discriminate; auto.
Qed.
Lemma uloop_more n : forall s k, (List.length s <= n)%nat -> uloop (n + k) s = uloop n s.
Proof.
  induction n as [|n IH]; intros s k Hl.
  - destruct s; [|simpl in Hl; lia]. destruct k; reflexivity.
  - cbn [uloop Nat.add]. destruct (ustep s) as [r|] eqn:E; auto. apply IH. apply ustep_len in E. lia.
Qed.
Definition ugo (s : str) : str := uloop (List.length s) s.
Lemma ugo_eq s : ugo s = match ustep s with Some r => ugo r | None => s end.
Proof.
  unfold ugo. destruct s as [|c s]; [reflexivity|]. cbn [List.length uloop]. destruct (ustep (c :: s)) as [r|] eqn:E; auto.
  apply ustep_len in E. cbn [List.length] in E. replace (List.length s) with (List.length r + (List.length s - List.length r))%nat by lia.
  apply uloop_more. lia.
Qed.
Definition legacy_rest (s : str) : option str := match ustep s with Some r => Some (ugo r) | None => None end.
Lemma rm_legacy pv s : rm legacy_pattern pv s = legacy_rest s.
Proof.
  unfold rm, rmatch, legacy_pattern, RPlus. fold units. rewrite m_seq.
  rewrite (units_eq _ _ ugo); auto. intros y _. cbn [m]. apply uloop_eq. auto.
Qed.

(** ** The lexer as a function *)
Definition guarded : list (ttype * (str -> option str)) :=
  [(QUOTED_LITERAL, quoted_rest cDQ); (QUOTED_LITERAL, quoted_rest cSQ); (BRACKET_ARGUMENT, bracket_rest okd);
   (NUMBER, num_rest); (WORD, word_rest); (ATWORD, at_rest); (DEREF, deref_rest)].
Fixpoint ftry (l : list (ttype * (str -> option str))) (s : str) : option (ttype * str) :=
  match l with
  | nil => None
  | (t, f) :: l' => match f s with Some r => Some (t, r) | None => ftry l' s end
  end.
Definition lextail : list (ttype * re) := skipn 8 lexicon.
Lemma fmx_lexicon pv s : fmx lexicon pv s =
  match (if okb pv then ftry guarded s else None) with
  | Some x => Some x
  | None => match legacy_rest s with Some r => Some (UNQUOTED_LITERAL, r) | None => fmx lextail pv s end
  end.
Proof.
  unfold lextail. change lexicon with (firstn 8 lexicon ++ skipn 8 lexicon) at 1.
  set (tl := skipn 8 lexicon). clearbody tl. cbn [firstn lexicon lexicon1 app fmx].
  change (rm (RSeqs [RNLB nS_lp; quoted cDQ; RNLA nS_rp]) pv s) with (rm (RSeq (RNLB nS_lp) (RSeq (quoted cDQ) (RNLA nS_rp))) pv s).
  change (rm (RSeqs [RNLB nS_lp; quoted cSQ; RNLA nS_rp]) pv s) with (rm (RSeq (RNLB nS_lp) (RSeq (quoted cSQ) (RNLA nS_rp))) pv s).
  change (rm (RSeqs [RNLB nS_lp; bracket; RNLA nS_rp]) pv s) with (rm (RSeq (RNLB nS_lp) (RSeq bracket (RNLA nS_rp))) pv s).
  change (rm (RSeqs [RNLB nS_lp; ROpt (C 45%N); RPlus (RChr digit); RNLA nS_par]) pv s) with (rm (RSeq (RNLB nS_lp) numpat) pv s).
  change (rm (RSeqs [RNLB nS_lp; RChr wfirst; RStar (RChr wrest); RNLA nS_par]) pv s) with (rm (RSeq (RNLB nS_lp) wordpat) pv s).
  change (rm (RSeqs [RNLB nS_lp; C cAT; RChr wfirst; RStar (RChr wrest); C cAT; RNLA nS_par]) pv s) with (rm (RSeq (RNLB nS_lp) atpat) pv s).
  change (rm (RSeqs [RNLB nS_lp; C cDOL; C 123%N; RChr wfirst; RStar (RChr wrest); C 125%N; RNLA nS_rp]) pv s) with (rm (RSeq (RNLB nS_lp) derefpat) pv s).
  rewrite !rm_guard, !rm_quoted, rm_bracket, rm_num, rm_word, rm_at, rm_deref, rm_legacy by discriminate.
  destruct (okb pv); cbn [guard]; [|reflexivity].
  unfold guarded. cbn [ftry]. repeat match goal with |- context [match ?f s with Some d => _ | None => _ end] => destruct (f s); [reflexivity|] end.
  reflexivity.
Qed.

(** ** The type of a text by itself *)
Inductive verdict := Yes | No | Maybe.
(** whether a match of the text by itself says what happens in front of a delimiter *)
Definition verd (r : option str) : verdict := match r with Some nil => Yes | Some _ => Maybe | None => No end.
Definition v_quoted (q : chr) (s : str) : verdict :=
  match s with
  | c :: s' => if N.eqb q c then match qrest q s' with Some r => verd (ends okd (Some r)) | None => Maybe end else No
  | nil => No
  end.
Definition v_bracket (s : str) : verdict :=
  match bopen s with
  | Some (e, r) => match bfind (closer e) okd r with Some nil => Yes | _ => Maybe end
  | None => No
  end.
Definition verdicts : list (ttype * (str -> verdict)) :=
  [(QUOTED_LITERAL, v_quoted cDQ); (QUOTED_LITERAL, v_quoted cSQ); (BRACKET_ARGUMENT, v_bracket);
   (NUMBER, fun s => verd (num_rest s)); (WORD, fun s => verd (word_rest s)); (ATWORD, fun s => verd (at_rest s)); (DEREF, fun s => verd (deref_rest s))].
Fixpoint vtry (l : list (ttype * (str -> verdict))) (dflt : option ttype) (s : str) : option ttype :=
  match l with
  | nil => dflt
  | (t, v) :: l' => match v s with Yes => Some t | Maybe => None | No => vtry l' dflt s end
  end.
Definition class_of (s : str) : option ttype :=
  match s with
  | nil => None
  | _ => vtry verdicts (match ugo s with nil => Some UNQUOTED_LITERAL | _ => None end) s
  end.

Lemma lstrip_app p s d : (match d with nil => True | c :: _ => p c = false end) -> lstrip_by p (s ++ d) = lstrip_by p s ++ d.
Proof.
  intros Hd. induction s as [|c s IH]; cbn [lstrip_by app].
  - destruct d as [|c d]; auto. cbn [lstrip_by]. now rewrite Hd.
  - destruct (p c); auto.
Qed.
Lemma takew_app p s d : (match d with nil => True | c :: _ => p c = false end) -> takew p (s ++ d) = takew p s.
Proof.
  intros Hd. induction s as [|c s IH]; cbn [takew app].
  - destruct d as [|c d]; auto. cbn [takew]. now rewrite Hd.
  - destruct (p c); auto. now rewrite IH.
Qed.
Lemma nS_rp_imp (p : chr -> bool) : (forall c, p c = true -> nS_rp c = true) -> forall d, okd d = true ->
  match d with nil => True | c :: _ => p c = false end.
Proof.
  intros H [|c d]; cbn; auto. intros E. destruct (p c) eqn:Ep; auto. apply H in Ep. rewrite Ep in E. discriminate.
Qed.
Lemma nS_par_imp (p : chr -> bool) : (forall c, p c = true -> nS_par c = true) -> forall d, okp d = true ->
  match d with nil => True | c :: _ => p c = false end.
Proof.
  intros H [|c d]; cbn; auto. intros E. destruct (p c) eqn:Ep; auto. apply H in Ep. rewrite Ep in E. discriminate.
Qed.
Lemma par_rp c : nS_par c = true -> nS_rp c = true.
Proof. unfold nS_par, nS_rp. destruct (is_aspace c), (N.eqb c cRP); cbn; auto. Qed.
Lemma okd_okp d : okd d = true -> okp d = true.
Proof. destruct d as [|c d]; auto. cbn. intros H. destruct (nS_par c) eqn:E; auto. apply par_rp in E. rewrite E in H. discriminate. Qed.
Lemma okd_app c s d : okd ((c :: s) ++ d) = okd (c :: s). Proof. reflexivity. Qed.
Lemma okp_app c s d : okp ((c :: s) ++ d) = okp (c :: s). Proof. reflexivity. Qed.

Definition ctx (ok : str -> bool) (v : str -> verdict) (f : str -> option str) : Prop := forall sp d, sp <> nil -> ok d = true ->
  (v sp = Yes -> f (sp ++ d) = Some d) /\ (v sp = No -> f (sp ++ d) = None).
Lemma ends_app (ok : str -> bool) r d : ok nil = true -> (forall c s, ok ((c :: s) ++ d) = ok (c :: s)) -> ok d = true ->
  (verd (ends ok (Some r)) = Yes -> ends ok (Some (r ++ d)) = Some d) /\
  (verd (ends ok (Some r)) = No -> ends ok (Some (r ++ d)) = None).
Proof.
  intros Hn Ha Hd. destruct r as [|c r]; cbn [ends app].
  - rewrite Hd, Hn. cbn; split; auto; discriminate.
  - change (c :: r ++ d) with ((c :: r) ++ d). rewrite Ha. destruct (ok (c :: r)); cbn; split; auto; discriminate.
Qed.
Lemma qrest_app q s r d : qrest q s = Some r -> qrest q (s ++ d) = Some (r ++ d).
Proof.
  assert (H : forall n s, (List.length s <= n)%nat -> qrest q s = Some r -> qrest q (s ++ d) = Some (r ++ d)).
  { induction n as [|n IH]; intros [|c s0] Hl H; try discriminate; simpl in Hl; try lia. cbn [qrest app] in *.
    destruct (N.eqb c q); [inversion H; subst; auto|]. destruct (N.eqb c cBSL).
    - destruct s0 as [|e s0]; [discriminate|]. cbn [app]. apply IH; auto. simpl in Hl. lia.
    - apply IH; auto. lia. }
  apply (H (List.length s)). lia.
Qed.
Lemma ctx_quoted q : ctx okd (v_quoted q) (quoted_rest q).
Proof.
  intros sp d Hs Hd. destruct sp as [|c s]; [congruence|]. cbn [v_quoted quoted_rest app].
  destruct (N.eqb q c); [|split; [discriminate|reflexivity]].
  destruct (qrest q s) as [r|] eqn:E; [|split; discriminate]. rewrite (qrest_app _ _ _ d E).
  apply ends_app; auto.
Qed.
Lemma num_ctx : ctx okp (fun s => verd (num_rest s)) num_rest.
Proof.
  intros sp d Hs Hd. destruct sp as [|c s]; [congruence|]. unfold num_rest. cbn [app].
  pose proof (nS_par_imp digit digit_par d Hd) as Hdd.
  assert (H : forall s1, (verd (match s1 with c0 :: s' => if digit c0 then ends okp (Some (lstrip_by digit s')) else None | nil => None end) = Yes ->
     match s1 ++ d with c0 :: s' => if digit c0 then ends okp (Some (lstrip_by digit s')) else None | nil => None end = Some d) /\
     (verd (match s1 with c0 :: s' => if digit c0 then ends okp (Some (lstrip_by digit s')) else None | nil => None end) = No ->
     match s1 ++ d with c0 :: s' => if digit c0 then ends okp (Some (lstrip_by digit s')) else None | nil => None end = None)).
  { intros [|e s1]; cbn [app].
    - split; [discriminate|]. intros _. destruct d as [|e d]; auto. now rewrite Hdd.
    - destruct (digit e); [|split; [discriminate|reflexivity]]. rewrite lstrip_app by exact Hdd. apply ends_app; auto. }
  destruct (N.eqb 45 c); [apply H|]. apply (H (c :: s)).
Qed.
Lemma word_ctx : ctx okp (fun s => verd (word_rest s)) word_rest.
Proof.
  intros sp d Hs Hd. destruct sp as [|c s]; [congruence|]. unfold word_rest. cbn [app].
  destruct (wfirst c); [|split; [discriminate|reflexivity]]. rewrite lstrip_app by (apply (nS_par_imp wrest wrest_par); auto).
  apply ends_app; auto.
Qed.
Lemma one_app c ok s d : ok nil = true -> (forall e s, ok ((e :: s) ++ d) = ok (e :: s)) -> ok d = true -> (match d with nil => True | e :: _ => N.eqb c e = false end) ->
  (verd (one c ok s) = Yes -> one c ok (s ++ d) = Some d) /\ (verd (one c ok s) = No -> one c ok (s ++ d) = None).
Proof.
  intros Hn Ha Hd Hc. destruct s as [|e s]; cbn [one app].
  - split; [discriminate|]. intros _. destruct d as [|e d]; cbn [one]; auto. now rewrite Hc.
  - destruct (N.eqb c e); [|split; [discriminate|reflexivity]]. apply ends_app; auto.
Qed.
Lemma at_ctx : ctx okp (fun s => verd (at_rest s)) at_rest.
Proof.
  intros sp d Hs Hd. destruct sp as [|a s]; [congruence|]. unfold at_rest.
  pose proof (nS_par_imp wrest wrest_par d Hd) as Hw.
  assert (Hat : match d with nil => True | e :: _ => N.eqb cAT e = false end).
  { apply (nS_par_imp (N.eqb cAT)); auto. intros e He. apply N.eqb_eq in He. subst. reflexivity. }
  destruct s as [|c s]; cbn [app].
  - split; [discriminate|]. intros _. destruct d as [|e d]; auto.
    destruct (wfirst e) eqn:Ee; [|now rewrite andb_false_r]. rewrite andb_true_r. destruct (N.eqb cAT a); auto.
    cbn in Hd. now rewrite (wfirst_par _ Ee) in Hd.
  - destruct (N.eqb cAT a && wfirst c); [|split; [discriminate|reflexivity]].
    rewrite lstrip_app by exact Hw. apply one_app; auto.
Qed.
Lemma deref_ctx : ctx okd (fun s => verd (deref_rest s)) deref_rest.
Proof.
  intros sp d Hs Hd. destruct sp as [|a s]; [congruence|]. unfold deref_rest.
  pose proof (nS_par_imp wrest wrest_par d (okd_okp _ Hd)) as Hw.
  assert (Hat : match d with nil => True | e :: _ => N.eqb 125 e = false end).
  { apply (nS_rp_imp (N.eqb 125)); auto. intros e He. apply N.eqb_eq in He. subst. reflexivity. }
  assert (Hbr : match d with nil => True | e :: _ => N.eqb 123 e = false end).
  { apply (nS_rp_imp (N.eqb 123)); auto. intros e He. apply N.eqb_eq in He. subst. reflexivity. }
  destruct s as [|b s]; cbn [app].
  - split; [discriminate|]. intros _. destruct d as [|e [|e' d]]; auto. now rewrite Hbr, andb_false_r.
  - destruct s as [|c s]; cbn [app].
    + split; [discriminate|]. intros _. destruct d as [|e d]; auto.
      destruct (wfirst e) eqn:Ee; [|now rewrite andb_false_r].
      exfalso. apply wfirst_par, par_rp in Ee. cbn in Hd. rewrite Ee in Hd. discriminate.
    + destruct (N.eqb cDOL a && N.eqb 123 b && wfirst c); [|split; [discriminate|reflexivity]].
      rewrite lstrip_app by exact Hw. apply one_app; auto.
Qed.
Lemma strip_prefix_more p s r d : strip_prefix p s = Some r -> strip_prefix p (s ++ d) = Some (r ++ d).
Proof.
  revert s. induction p as [|c p IH]; intros s H; cbn [strip_prefix] in *; [inversion H; reflexivity|].
  destruct s as [|e s]; [discriminate|]. cbn [app]. destruct (N.eqb c e); [auto|discriminate].
Qed.
Lemma strip_prefix_none p s d : strip_prefix p s = None -> (List.length p <= List.length s)%nat -> strip_prefix p (s ++ d) = None.
Proof.
  revert s. induction p as [|c p IH]; intros s H Hl; cbn [strip_prefix] in *; [discriminate|].
  destruct s as [|e s]; [simpl in Hl; lia|]. cbn [app]. destruct (N.eqb c e); [|reflexivity]. apply IH; auto. simpl in Hl. lia.
Qed.
Lemma strip_prefix_len p s r : strip_prefix p s = Some r -> (List.length s = List.length p + List.length r)%nat.
Proof.
  revert s. induction p as [|c p IH]; intros s H; cbn [strip_prefix] in *; [inversion H; reflexivity|].
  destruct s as [|e s]; [discriminate|]. destruct (N.eqb c e); [|discriminate]. apply IH in H. simpl. lia.
Qed.
Lemma bfind_len cl ok s r : bfind cl ok s = Some r -> (List.length cl <= List.length s)%nat.
Proof.
  induction s as [|c s IH]; cbn [bfind].
  - destruct (strip_prefix cl nil) as [r'|] eqn:E; [|discriminate]. apply strip_prefix_len in E. intros _. simpl in *. lia.
  - destruct (strip_prefix cl (c :: s)) as [r'|] eqn:E.
    + apply strip_prefix_len in E. intros _. simpl in *. lia.
    + intros H. apply IH in H. simpl. lia.
Qed.
Lemma bfind_app cl ok s d : (forall c s, ok ((c :: s) ++ d) = ok (c :: s)) -> ok d = true -> ok nil = true ->
  bfind cl ok s = Some nil -> bfind cl ok (s ++ d) = Some d.
Proof.
  intros Ha Hd Hn. induction s as [|c s IH].
  - cbn [bfind app]. destruct (strip_prefix cl nil) as [r|] eqn:E; [|discriminate].
    pose proof (strip_prefix_more _ _ _ d E) as E'. apply strip_prefix_len in E. simpl in E.
    destruct r; [|simpl in E; lia]. intros _. cbn [app] in E'. destruct d; cbn [bfind]; rewrite E'; rewrite Hd; auto.
  - cbn [bfind app]. destruct (strip_prefix cl (c :: s)) as [r|] eqn:E.
    + change (c :: s ++ d) with ((c :: s) ++ d). rewrite (strip_prefix_more _ _ _ d E). destruct r as [|e r].
      * intros _. cbn [app]. now rewrite Hd.
      * rewrite Ha. destruct (ok (e :: r)); [discriminate|]. exact IH.
    + intros H. change (c :: s ++ d) with ((c :: s) ++ d). rewrite strip_prefix_none; auto. apply bfind_len in H. simpl. lia.
Qed.
Lemma bopen_app s d e r : bopen s = Some (e, r) -> bopen (s ++ d) = Some (e, r ++ d).
Proof.
  unfold bopen. destruct s as [|a s]; [discriminate|]. cbn [app]. destruct (N.eqb cLB a); [|discriminate].
  destruct (lstrip_by (N.eqb cEQ) s) as [|b s'] eqn:E; [discriminate|]. destruct (N.eqb cLB b) eqn:Eb; [|discriminate].
  intros H. inversion H; subst; clear H.
  assert (L : forall t, lstrip_by (N.eqb cEQ) t = b :: r -> lstrip_by (N.eqb cEQ) (t ++ d) = b :: r ++ d /\
     takew (N.eqb cEQ) (t ++ d) = takew (N.eqb cEQ) t).
  { induction t as [|x t IH]; [discriminate|]. cbn [lstrip_by takew app]. destruct (N.eqb cEQ x); intros H.
    - apply IH in H as [-> ->]. auto.
    - inversion H; subst. auto. }
  destruct (L s E) as [-> ->]. now rewrite Eb.
Qed.
Lemma bopen_none s d : s <> nil -> (match d with nil => True | c :: _ => N.eqb cEQ c = false /\ N.eqb cLB c = false end) ->
  bopen s = None -> bopen (s ++ d) = None.
Proof.
  intros Hs Hd. unfold bopen. destruct s as [|a s]; [congruence|]. cbn [app]. destruct (N.eqb cLB a); [|reflexivity].
  rewrite lstrip_app by (destruct d; tauto). destruct (lstrip_by (N.eqb cEQ) s) as [|b s'] eqn:E; cbn [app].
  - intros _. destruct d as [|c d]; auto. destruct Hd as [_ ->]. reflexivity.
  - destruct (N.eqb cLB b); [discriminate|reflexivity].
Qed.
Lemma bracket_ctx : ctx okd v_bracket (bracket_rest okd).
Proof.
  intros sp d Hs Hd. unfold v_bracket, bracket_rest. destruct (bopen sp) as [[e r]|] eqn:E.
  - rewrite (bopen_app _ d _ _ E). destruct (bfind (closer e) okd r) as [[|? ?]|] eqn:Eb; (split; [|discriminate]); try discriminate.
    intros _. apply bfind_app; auto.
  - split; [discriminate|]. intros _. rewrite bopen_none; auto. destruct d as [|c d]; auto. cbn in Hd.
    split; apply N.eqb_neq; intros <-; discriminate.
Qed.
Lemma okd_ustep d : okd d = true -> ustep d = None.
Proof.
  destruct d as [|c d]; auto. cbn. intros H. apply negb_true_iff, nS_rp_false in H.
  assert (mk_rest (c :: d) = None) as E.
  { unfold mk_rest. destruct d as [|? [|? ?]]; auto. destruct (N.eqb_spec cDOL c); auto. subst. destruct H as [H|H]; discriminate. }
  unfold ustep. rewrite E. destruct (N.eqb_spec cDQ c); [subst; destruct H; discriminate|].
  destruct (plain c) eqn:Ep.
  { apply plain_spec in Ep as (H1 & _ & H2 & _). destruct H; congruence. }
  destruct (N.eqb_spec cBSL c); [subst; destruct H; discriminate|reflexivity].
Qed.
Lemma mk_app s r d : mk_rest s = Some r -> mk_rest (s ++ d) = Some (r ++ d).
Proof.
  unfold mk_rest. destruct s as [|a [|b [|c s]]]; try discriminate. cbn [app]. destruct (_ && _); [|discriminate].
  assert (L : forall t x r', lstrip_by (noneof [cDOL; cLP; cRP]) t = x :: r' -> lstrip_by (noneof [cDOL; cLP; cRP]) (t ++ d) = x :: r' ++ d).
  { induction t as [|y t IH]; [discriminate|]. cbn [lstrip_by app]. destruct (noneof _ y); intros x r' H; [auto|].
    inversion H; subst. reflexivity. }
  destruct (lstrip_by _ s) as [|x r'] eqn:E; [discriminate|]. rewrite (L _ _ _ E). destruct (N.eqb cRP x); [|discriminate].
  intros H. now inversion H.
Qed.

Lemma mk_none c s : N.eqb cDOL c = false -> mk_rest (c :: s) = None.
Proof. intros H. unfold mk_rest. destruct s as [|? [|? ?]]; auto. now rewrite H. Qed.
Lemma mk_none2 c b s : N.eqb cLP b = false -> mk_rest (c :: b :: s) = None.
Proof. intros H. unfold mk_rest. destruct s as [|? ?]; auto. now rewrite H, andb_false_r. Qed.
Lemma ustep_lp s : ustep (cLP :: s) = None.
Proof. unfold ustep. rewrite mk_none by reflexivity. reflexivity. Qed.
Lemma ustep_app s r d : okd d = true -> ustep s = Some r -> ugo r = nil -> ustep (s ++ d) = Some (r ++ d).
Proof.
  intros Hd. unfold ustep at 1. destruct (mk_rest s) as [r'|] eqn:E.
  { intros H _. inversion H; subst. unfold ustep. now rewrite (mk_app _ _ d E). }
  destruct s as [|c s]; [discriminate|].
  assert (Hm : ugo r = nil -> plain c = true -> r = s -> mk_rest (c :: s ++ d) = None).
  { intros Hu _ ->. destruct s as [|b s].
    - cbn [app]. destruct d as [|e d]; auto. apply mk_none2. apply N.eqb_neq. intros <-. discriminate.
    - cbn [app]. apply mk_none2. apply N.eqb_neq. intros <-. rewrite ugo_eq, ustep_lp in Hu. discriminate. }
  destruct (N.eqb cDQ c) eqn:Hq.
  - apply N.eqb_eq in Hq. subst c. destruct (qrest cDQ s) as [r'|] eqn:Eq; [|discriminate].
    intros H _. inversion H; subst. unfold ustep. cbn [app]. rewrite mk_none by reflexivity. rewrite N.eqb_refl.
    now rewrite (qrest_app _ _ _ d Eq).
  - destruct (plain c) eqn:Ep.
    + intros H Hu. inversion H; subst. unfold ustep. cbn [app]. rewrite Hm by auto. rewrite Hq, Ep. reflexivity.
    + destruct (N.eqb cBSL c) eqn:Eb; [|discriminate]. destruct s as [|e s]; [discriminate|]. destruct (escid e) eqn:Ee; [|discriminate].
      intros H _. inversion H; subst. unfold ustep. cbn [app]. rewrite mk_none.
      * now rewrite Hq, Ep, Eb, Ee.
      * apply N.eqb_eq in Eb. subst c. reflexivity.
Qed.
Lemma ugo_app s d : okd d = true -> ugo s = nil -> ugo (s ++ d) = d.
Proof.
  intros Hd. assert (H : forall n s, (List.length s <= n)%nat -> ugo s = nil -> ugo (s ++ d) = d).
  { induction n as [|n IH]; intros s0 Hl Hu.
    - destruct s0; [|simpl in Hl; lia]. cbn [app]. rewrite ugo_eq, okd_ustep; auto.
    - destruct (ustep s0) as [r|] eqn:E.
      + assert (ugo r = nil) as Hr by (rewrite ugo_eq, E in Hu; exact Hu).
        rewrite ugo_eq, (ustep_app _ _ _ Hd E Hr). apply IH; auto. apply ustep_len in E. lia.
      + rewrite ugo_eq, E in Hu. subst. cbn [app]. rewrite ugo_eq, okd_ustep; auto. }
  apply (H (List.length s)). lia.
Qed.
Lemma legacy_app s d : s <> nil -> okd d = true -> ugo s = nil -> legacy_rest (s ++ d) = Some d.
Proof.
  intros Hs Hd Hu. unfold legacy_rest. destruct (ustep s) as [r|] eqn:E.
  - assert (ugo r = nil) as Hr by (rewrite ugo_eq, E in Hu; exact Hu).
    rewrite (ustep_app _ _ _ Hd E Hr). now rewrite ugo_app.
  - rewrite ugo_eq, E in Hu. congruence.
Qed.

(** ** A text in front of a delimiter *)
Theorem class_ctx pv sp d t : class_of sp = Some t -> okb pv = true -> okd d = true -> fmx lexicon pv (sp ++ d) = Some (t, d).
Proof.
  intros Hc Hb Hd. destruct sp as [|c0 sp0]; [discriminate|]. unfold class_of in Hc. set (sp := c0 :: sp0) in *.
  assert (Hs : sp <> nil) by discriminate. clearbody sp. rewrite fmx_lexicon, Hb.
  assert (Hp : okp d = true) by now apply okd_okp.
  unfold verdicts, guarded in *. cbn [vtry ftry] in *.
  destruct (ctx_quoted cDQ sp d Hs Hd) as [Y1 N1]. destruct (v_quoted cDQ sp); [rewrite Y1 by auto; congruence| |discriminate]. rewrite N1 by auto.
  destruct (ctx_quoted cSQ sp d Hs Hd) as [Y2 N2]. destruct (v_quoted cSQ sp); [rewrite Y2 by auto; congruence| |discriminate]. rewrite N2 by auto.
  destruct (bracket_ctx sp d Hs Hd) as [Y3 N3]. destruct (v_bracket sp); [rewrite Y3 by auto; congruence| |discriminate]. rewrite N3 by auto.
  destruct (num_ctx sp d Hs Hp) as [Y4 N4]. destruct (verd (num_rest sp)); [rewrite Y4 by auto; congruence| |discriminate]. rewrite N4 by auto.
  destruct (word_ctx sp d Hs Hp) as [Y5 N5]. destruct (verd (word_rest sp)); [rewrite Y5 by auto; congruence| |discriminate]. rewrite N5 by auto.
  destruct (at_ctx sp d Hs Hp) as [Y6 N6]. destruct (verd (at_rest sp)); [rewrite Y6 by auto; congruence| |discriminate]. rewrite N6 by auto.
  destruct (deref_ctx sp d Hs Hd) as [Y7 N7]. destruct (verd (deref_rest sp)); [rewrite Y7 by auto; congruence| |discriminate]. rewrite N7 by auto.
  destruct (ugo sp) eqn:Eu; [|discriminate]. rewrite legacy_app by auto. congruence.
Qed.
(** a name in front of a delimiter or a parenthesis *)
Theorem word_class pv sp d : word_rest sp = Some nil -> okb pv = true -> okp d = true -> fmx lexicon pv (sp ++ d) = Some (WORD, d).
Proof.
  intros Hw Hb Hd. assert (Hs : sp <> nil) by (destruct sp; discriminate).
  rewrite fmx_lexicon, Hb. unfold guarded. cbn [ftry].
  assert (Hr : word_rest (sp ++ d) = Some d) by (apply (word_ctx sp d Hs Hd); now rewrite Hw).
  destruct sp as [|c s]; [congruence|]. unfold word_rest in Hw. destruct (wfirst c) eqn:Ec; [|discriminate].
  assert (Hq : N.eqb cDQ c = false) by (apply N.eqb_neq; intros <-; discriminate).
  assert (Hq' : N.eqb cSQ c = false) by (apply N.eqb_neq; intros <-; discriminate).
  cbn [app quoted_rest] in *. rewrite Hq, Hq'.
  assert (bracket_rest okd (c :: s ++ d) = None) as ->.
  { unfold bracket_rest. change (c :: s ++ d) with ((c :: s) ++ d). rewrite bopen_none; auto.
    - destruct d as [|e d]; auto. cbn in Hd. split; apply N.eqb_neq; intros <-; discriminate.
    - unfold bopen. destruct (N.eqb cLB c); auto. cbn [ends] in Hw. destruct (okp (lstrip_by wrest s)); [|discriminate].
      inversion Hw as [Hl]. destruct s as [|b s]; auto. cbn [lstrip_by] in *. destruct (wrest b) eqn:Eb.
      + destruct (N.eqb cEQ b) eqn:E; [apply N.eqb_eq in E; subst; discriminate|].
        destruct (N.eqb cLB b) eqn:E'; [apply N.eqb_eq in E'; subst; discriminate|]. reflexivity.
      + discriminate. }
  assert (num_rest (c :: s ++ d) = None) as ->.
  { unfold num_rest. destruct (N.eqb 45 c) eqn:E; [apply N.eqb_eq in E; subst; discriminate|].
    destruct (digit c) eqn:E2; auto. exfalso. clear - Ec E2. unfold wfirst, digit, between in *.
    rewrite !orb_true_iff, !andb_true_iff, !N.leb_le, N.eqb_eq in *. lia. }
  now rewrite Hr.
Qed.

(** ** Parentheses, blanks and comments *)
Lemma okd_guarded d : okd d = true -> ftry guarded d = None.
Proof.
  intros Hd. destruct d as [|c d]; [reflexivity|]. cbn in Hd. apply negb_true_iff in Hd.
  unfold guarded. cbn [ftry quoted_rest].
  destruct (N.eqb cDQ c) eqn:E1; [apply N.eqb_eq in E1; subst; discriminate|].
  destruct (N.eqb cSQ c) eqn:E2; [apply N.eqb_eq in E2; subst; discriminate|].
  unfold bracket_rest, bopen. destruct (N.eqb cLB c) eqn:E3; [apply N.eqb_eq in E3; subst; discriminate|].
  unfold num_rest. destruct (N.eqb 45 c) eqn:E4; [apply N.eqb_eq in E4; subst; discriminate|].
  destruct (digit c) eqn:E5; [apply digit_par, par_rp in E5; congruence|].
  unfold word_rest. destruct (wfirst c) eqn:E6; [apply wfirst_par, par_rp in E6; congruence|].
  unfold at_rest. destruct (N.eqb cAT c) eqn:E7; [apply N.eqb_eq in E7; subst; discriminate|].
  unfold deref_rest. destruct (N.eqb cDOL c) eqn:E8; [apply N.eqb_eq in E8; subst; discriminate|].
  destruct d as [|? [|? ?]]; reflexivity.
Qed.
Lemma fmx_okd pv d : okd d = true -> fmx lexicon pv d = fmx lextail pv d.
Proof.
  intros Hd. rewrite fmx_lexicon, okd_guarded by auto. unfold legacy_rest. rewrite okd_ustep by auto. destruct (okb pv); reflexivity.
Qed.
Lemma fmx_rp pv s : fmx lexicon pv (cRP :: s) = Some (RIGHT_PAREN, s).
Proof. rewrite fmx_okd by reflexivity. reflexivity. Qed.
Lemma fmx_nl pv s : fmx lexicon pv (cNL :: s) = Some (NEWLINE, s).
Proof. rewrite fmx_okd by reflexivity. reflexivity. Qed.
Lemma fmx_lp pv s : fmx lexicon pv (cLP :: s) = Some (LEFT_PAREN, s).
Proof.
  rewrite fmx_lexicon. unfold legacy_rest. rewrite ustep_lp. assert (ftry guarded (cLP :: s) = None) as ->.
  { unfold guarded. cbn. destruct s as [|? [|? ?]]; reflexivity. }
  destruct (okb pv); reflexivity.
Qed.
Lemma m_star_some p x : m (RStar (RChr p)) x Some = Some (St (last_or (prev x) (takew p (rest x))) (lstrip_by p (rest x)) (cap x)).
Proof. exact (star_some p _ x (le_n _)). Qed.
Lemma rm_plus p pv c s : p c = true -> rm (RPlus (RChr p)) pv (c :: s) = Some (lstrip_by p s).
Proof.
  intros H. unfold rm, rmatch, RPlus. rewrite m_seq, m_chr. cbn [rest cap]. rewrite H. rewrite m_star_some. reflexivity.
Qed.
Lemma fmx_blank pv s : fmx lexicon pv (cSP :: s) = Some (WHITESPACE, lstrip_by is_blank s).
Proof.
  rewrite fmx_okd by reflexivity. unfold lextail. cbn [skipn lexicon lexicon1 app fmx].
  change (rm unquoted_pattern pv (cSP :: s)) with (@None str).
  change (rm (C cLP) pv (cSP :: s)) with (@None str). change (rm (C cRP) pv (cSP :: s)) with (@None str).
  change (rm (RSeq (ROpt (C cCR)) (C cNL)) pv (cSP :: s)) with (@None str).
  change (rm (RSeq (C cCR) (ROpt (C cNL))) pv (cSP :: s)) with (@None str).
  now rewrite rm_plus.
Qed.
Lemma m_lit l k : forall x, m (RLit l) x k = match strip_prefix l (rest x) with Some r => k (St (last_or (prev x) l) r (cap x)) | None => None end.
Proof.
  induction l as [|c l IH]; intros x; cbn [RLit strip_prefix].
  - destruct x; reflexivity.
  - rewrite m_seq, m_chr. destruct (rest x) as [|d s]; auto. destruct (N.eqb_spec c d); auto. subst.
    rewrite IH. cbn [rest cap prev]. reflexivity.
Qed.
(** "# cmake-format: off" and the like *)
Definition sent_at (onoff s : str) : bool :=
  let s1 := lstrip_by is_aspace s in
  match strip_prefix ($"cmake-format" ++ onoff) s1, strip_prefix ($"cmf" ++ onoff) s1 with None, None => false | _, _ => true end.
Lemma rm_sentinel onoff pv s : sent_at onoff s = false -> rm (sentinel onoff) pv (cHASH :: s) = None.
Proof.
  intros H. unfold rm, rmatch, sentinel. cbn [RSeqs]. rewrite m_seq, C_eq. cbn [rest cap]. rewrite N.eqb_refl.
  rewrite m_seq. rewrite m_star_det.
  - rewrite m_seq. unfold sent_at in H. rewrite !strip_prefix_app in H. revert H. cbn [rest cap prev].
    set (s1 := lstrip_by is_aspace s). intros H.
    change (m (RAlt (RLit $"cmake-format") (RLit $"cmf"))) with
      (fun x k => match m (RLit $"cmake-format") x k with Some y => Some y | None => m (RLit $"cmf") x k end). cbn beta.
    rewrite !m_lit. cbn [rest cap prev].
    destruct (strip_prefix $"cmake-format" s1) as [r1|].
    + rewrite m_seq, m_lit. cbn [rest]. destruct (strip_prefix onoff r1); [discriminate|].
      destruct (strip_prefix $"cmf" s1) as [r2|]; [|reflexivity].
      rewrite m_seq, m_lit. cbn [rest]. destruct (strip_prefix onoff r2); [discriminate|reflexivity].
    + destruct (strip_prefix $"cmf" s1) as [r2|]; [|reflexivity].
      rewrite m_seq, m_lit. cbn [rest]. destruct (strip_prefix onoff r2); [discriminate|reflexivity].
  - intros y c s' Ey Hc. rewrite m_seq.
    change (m (RAlt (RLit $"cmake-format") (RLit $"cmf"))) with
      (fun x k => match m (RLit $"cmake-format") x k with Some y => Some y | None => m (RLit $"cmf") x k end). cbn beta.
    rewrite !m_lit, Ey. assert (N.eqb 99 c = false) as E by (apply N.eqb_neq; intros <-; discriminate).
    change (strip_prefix $"cmake-format" (c :: s')) with
      (if N.eqb 99 c then strip_prefix $"make-format" s' else None).
    change (strip_prefix $"cmf" (c :: s')) with (if N.eqb 99 c then strip_prefix $"mf" s' else None). rewrite E. reflexivity.
Qed.
Lemma fmx_hash pv s : fmx lexicon pv (cHASH :: s) = fmx (skipn 6 lextail) pv (cHASH :: s).
Proof.
  rewrite fmx_lexicon. unfold legacy_rest. assert (ftry guarded (cHASH :: s) = None) as ->.
  { unfold guarded. cbn. destruct s as [|? [|? ?]]; reflexivity. }
  assert (ustep (cHASH :: s) = None) as -> by (unfold ustep; rewrite mk_none by reflexivity; reflexivity).
  destruct (okb pv); reflexivity.
Qed.
Lemma rm_bcomment pv s : rm (RSeq (C cHASH) bracket) pv (cHASH :: s) = bracket_rest (fun _ => true) s.
Proof.
  unfold rm, rmatch. rewrite m_seq, C_eq. cbn [rest cap]. rewrite N.eqb_refl.
  exact (m_bracket (fun _ => true) (St (Some cHASH) s nil)).
Qed.
Lemma fmx_comment pv s : sent_at $": off" s = false -> sent_at $": on" s = false -> bracket_rest (fun _ => true) s = None ->
  fmx lexicon pv (cHASH :: s) = Some (COMMENT, lstrip_by (noneof [cNL]) s).
Proof.
  intros H1 H2 H3. rewrite fmx_hash. unfold lextail. cbn [skipn lexicon lexicon1 app fmx].
  rewrite !rm_sentinel, rm_bcomment, H3 by auto.
  unfold rm at 1, rmatch. rewrite m_seq, C_eq. cbn [rest cap]. rewrite N.eqb_refl. rewrite m_star_some. reflexivity.
Qed.
Lemma fmx_bcomment pv e r d : let sp := cHASH :: cLB :: e ++ cLB :: r in
  bopen (cLB :: e ++ cLB :: r) = Some (e, r) -> bfind (closer e) (fun _ => true) r = Some nil ->
  fmx lexicon pv (sp ++ d) = Some (BRACKET_COMMENT, d).
Proof.
  intros sp Ho Hf. subst sp. cbn [app]. rewrite fmx_hash. unfold lextail. cbn [skipn lexicon lexicon1 app fmx].
  rewrite !rm_sentinel by reflexivity. rewrite rm_bcomment. unfold bracket_rest.
  change (cLB :: (e ++ cLB :: r) ++ d) with ((cLB :: e ++ cLB :: r) ++ d). rewrite (bopen_app _ d _ _ Ho).
  rewrite (bfind_app _ _ _ d); auto.
Qed.

(** ** Letter case does not matter *)
Definition ci (p : chr -> bool) : Prop := forall a b, loc a = loc b -> p a = p b.
Lemma ci_intro p : (forall a, (65 <= a <= 90)%N -> p (a + 32)%N = p a) -> ci p.
Proof.
  intros H. assert (E : forall a, p (loc a) = p a).
  { intros a. unfold loc. destruct ((65 <=? a) && (a <=? 90))%N eqn:Ea; auto. apply H.
    rewrite andb_true_iff, !N.leb_le in Ea. exact Ea. }
  intros a b Hab. now rewrite <- (E a), <- (E b), Hab.
Qed.
Lemma ci_eqb q : (q < 65 \/ 122 < q \/ 90 < q < 97)%N -> ci (N.eqb q).
Proof. intros H. apply ci_intro. intros a Ha. destruct (N.eqb_spec q (a + 32)), (N.eqb_spec q a); auto; lia. Qed.
Lemma ci_eqb' q : (q < 65 \/ 122 < q \/ 90 < q < 97)%N -> ci (fun c => N.eqb c q).
Proof. intros H a b E. rewrite !(N.eqb_sym _ q). now apply ci_eqb. Qed.
Lemma ci_or p q : ci p -> ci q -> ci (fun c => p c || q c).
Proof. intros P Q a b E. now rewrite (P a b E), (Q a b E). Qed.
Lemma ci_and p q : ci p -> ci q -> ci (fun c => p c && q c).
Proof. intros P Q a b E. now rewrite (P a b E), (Q a b E). Qed.
Lemma ci_neg p : ci p -> ci (fun c => negb (p c)).
Proof. intros P a b E. now rewrite (P a b E). Qed.
Lemma ci_oneof l : Forall (fun q => (q < 65 \/ 122 < q \/ 90 < q < 97)%N) l -> ci (oneof l).
Proof.
  intros H a b E. unfold oneof. induction H as [|q l Hq _ IH]; auto. cbn [existsb]. rewrite IH. f_equal. now apply ci_eqb'.
Qed.
Lemma ci_noneof l : Forall (fun q => (q < 65 \/ 122 < q \/ 90 < q < 97)%N) l -> ci (noneof l).
Proof. intros H. apply ci_neg. now apply ci_oneof. Qed.
Ltac outr := repeat (first [apply Forall_nil | apply Forall_cons; [unfold cNL, cSP, cHASH, cLP, cRP, cDQ, cSQ, cBSL, cDOL, cAT, cEQ, cLB, cRB; lia|]]).
Lemma ci_aspace : ci is_aspace.
Proof. unfold is_aspace. apply (ci_oneof [9;10;11;12;13;32]%N). outr. Qed.
Lemma ci_digit : ci digit.
Proof.
  apply ci_intro. intros a Ha. unfold digit, between.
  assert ((a <=? 57)%N = false) as -> by (apply N.leb_gt; lia). assert ((a + 32 <=? 57)%N = false) as -> by (apply N.leb_gt; lia).
  now rewrite !andb_false_r.
Qed.
Lemma ci_wfirst : ci wfirst.
Proof.
  apply ci_intro. intros a Ha. unfold wfirst, between.
  assert ((65 <=? a)%N = true) as -> by (apply N.leb_le; lia). assert ((a <=? 122)%N = true) as -> by (apply N.leb_le; lia).
  assert ((65 <=? a + 32)%N = true) as -> by (apply N.leb_le; lia). assert ((a + 32 <=? 122)%N = true) as -> by (apply N.leb_le; lia).
  cbn [andb]. rewrite !orb_true_r. reflexivity.
Qed.
Lemma ci_wrest : ci wrest.
Proof.
  apply ci_intro. intros a Ha. unfold wrest, between.
  assert ((65 <=? a)%N = true) as -> by (apply N.leb_le; lia). assert ((a <=? 90)%N = true) as -> by (apply N.leb_le; lia).
  assert ((97 <=? a + 32)%N = true) as -> by (apply N.leb_le; lia). assert ((a + 32 <=? 122)%N = true) as -> by (apply N.leb_le; lia).
  cbn [andb orb]. now rewrite orb_true_r.
Qed.
Lemma ci_plain : ci plain.
Proof. apply ci_and; [apply ci_neg, ci_aspace|]. apply ci_noneof. outr. Qed.
Lemma ci_nS_rp : ci nS_rp.
Proof. apply ci_and; [apply ci_neg, ci_aspace|]. apply ci_neg, ci_eqb'. unfold cRP. lia. Qed.
Lemma ci_nS_par : ci nS_par.
Proof. apply ci_and; [apply ci_and; [apply ci_neg, ci_aspace|]|]; apply ci_neg, ci_eqb'; unfold cRP, cLP; lia. Qed.

Lemma lower_cons a s b t : lower (a :: s) = lower (b :: t) -> loc a = loc b /\ lower s = lower t.
Proof. intros H. now inversion H. Qed.
Lemma lower_nil s : lower s = lower nil -> s = nil.
Proof. destruct s; [auto|discriminate]. Qed.
(** functions that give the same answer up to letter case *)
Definition rsp (f : str -> option str) : Prop := forall s t, lower s = lower t -> option_map lower (f s) = option_map lower (f t).
Definition cis (f : str -> bool) : Prop := forall s t, lower s = lower t -> f s = f t.
Lemma cis_okd : cis okd.
Proof.
  intros [|a s] [|b t] H; auto; try discriminate. apply lower_cons in H as [H _]. cbn. now rewrite (ci_nS_rp a b H).
Qed.
Lemma cis_okp : cis okp.
Proof.
  intros [|a s] [|b t] H; auto; try discriminate. apply lower_cons in H as [H _]. cbn. now rewrite (ci_nS_par a b H).
Qed.
Lemma lstrip_rsp p : ci p -> forall s t, lower s = lower t -> lower (lstrip_by p s) = lower (lstrip_by p t).
Proof.
  intros Hp. induction s as [|a s IH]; intros [|b t] H; auto; try discriminate. pose proof H as H0.
  apply lower_cons in H as [H1 H2]. cbn [lstrip_by]. rewrite (Hp a b H1). destruct (p b); auto.
Qed.
Lemma ends_rsp ok : cis ok -> forall o o', option_map lower o = option_map lower o' -> option_map lower (ends ok o) = option_map lower (ends ok o').
Proof.
  intros Hk [r|] [r'|] H; auto; try discriminate. cbn in H. injection H as H. cbn [ends]. rewrite (Hk r r' H).
  destruct (ok r'); auto. cbn. congruence.
Qed.
Lemma qrest_rsp q : (q < 65)%N -> rsp (qrest q).
Proof.
  intros Hq. assert (H : forall n s t, (List.length s <= n)%nat -> lower s = lower t -> option_map lower (qrest q s) = option_map lower (qrest q t)).
  { induction n as [|n IH]; intros [|a s] [|b t] Hl E; auto; try discriminate; simpl in Hl; try lia.
    apply lower_cons in E as [E1 E2]. cbn [qrest]. rewrite (ci_eqb' q ltac:(lia) a b E1), (ci_eqb' cBSL ltac:(unfold cBSL; lia) a b E1).
    destruct (N.eqb b q); [cbn; congruence|]. destruct (N.eqb b cBSL); [|apply IH; auto; lia].
    destruct s as [|a' s], t as [|b' t]; auto; try discriminate. apply lower_cons in E2 as [_ E2]. apply IH; auto. simpl in Hl. lia. }
  intros s t. apply (H (List.length s)). lia.
Qed.
Lemma verd_rsp f : rsp f -> forall s t, lower s = lower t -> verd (f s) = verd (f t).
Proof.
  intros H s t E. specialize (H s t E). destruct (f s) as [[|a r]|], (f t) as [[|b r']|]; cbn in H; auto; discriminate.
Qed.
Lemma num_rsp : rsp num_rest.
Proof.
  intros s t E. unfold num_rest.
  assert (H : forall s t, lower s = lower t -> option_map lower (match s with c :: s' => if digit c then ends okp (Some (lstrip_by digit s')) else None | nil => None end)
     = option_map lower (match t with c :: s' => if digit c then ends okp (Some (lstrip_by digit s')) else None | nil => None end)).
  { clear. intros [|a s] [|b t] E; auto; try discriminate. apply lower_cons in E as [E1 E2]. rewrite (ci_digit a b E1).
    destruct (digit b); auto. apply ends_rsp; [apply cis_okp|]. cbn [option_map]. f_equal. apply lstrip_rsp; [apply ci_digit|auto]. }
  apply H. destruct s as [|a s], t as [|b t]; auto; try discriminate. pose proof E as E0. apply lower_cons in E as [E1 E2].
  rewrite (ci_eqb 45 ltac:(lia) a b E1). destruct (N.eqb 45 b); auto.
Qed.
Lemma word_rsp : rsp word_rest.
Proof.
  intros [|a s] [|b t] E; auto; try discriminate. apply lower_cons in E as [E1 E2]. unfold word_rest. rewrite (ci_wfirst a b E1).
  destruct (wfirst b); auto. apply ends_rsp; [apply cis_okp|]. cbn [option_map]. f_equal. apply lstrip_rsp; [apply ci_wrest|auto].
Qed.
Lemma one_rsp c ok : (c < 65 \/ 122 < c \/ 90 < c < 97)%N -> cis ok -> rsp (one c ok).
Proof.
  intros Hc Hk [|a s] [|b t] E; auto; try discriminate. apply lower_cons in E as [E1 E2]. unfold one. rewrite (ci_eqb c Hc a b E1).
  destruct (N.eqb c b); auto. apply ends_rsp; auto. cbn. congruence.
Qed.
Lemma at_rsp : rsp at_rest.
Proof.
  intros [|a [|a' s]] [|b [|b' t]] E; auto; try discriminate. apply lower_cons in E as [E1 E2]. apply lower_cons in E2 as [E2 E3].
  unfold at_rest. rewrite (ci_eqb cAT ltac:(unfold cAT; lia) a b E1), (ci_wfirst a' b' E2). destruct (_ && _); auto.
  apply one_rsp; [unfold cAT; lia|apply cis_okp|]. apply lstrip_rsp; [apply ci_wrest|auto].
Qed.
Lemma deref_rsp : rsp deref_rest.
Proof.
  intros [|a [|a' [|a'' s]]] [|b [|b' [|b'' t]]] E; auto; try discriminate. apply lower_cons in E as [E1 E2]. apply lower_cons in E2 as [E2 E3].
  apply lower_cons in E3 as [E3 E4].
  unfold deref_rest. rewrite (ci_eqb cDOL ltac:(unfold cDOL; lia) a b E1), (ci_eqb 123 ltac:(lia) a' b' E2), (ci_wfirst a'' b'' E3). destruct (_ && _); auto.
  apply one_rsp; [lia|apply cis_okd|]. apply lstrip_rsp; [apply ci_wrest|auto].
Qed.
Lemma v_quoted_ci q s t : (q < 65)%N -> lower s = lower t -> v_quoted q s = v_quoted q t.
Proof.
  intros Hq E. destruct s as [|a s], t as [|b t]; auto; try discriminate. apply lower_cons in E as [E1 E2]. cbn [v_quoted].
  rewrite (ci_eqb q ltac:(lia) a b E1). destruct (N.eqb q b); auto.
  pose proof (qrest_rsp q Hq s t E2) as H. destruct (qrest q s) as [r|], (qrest q t) as [r'|]; auto; try discriminate.
  apply (verd_rsp (fun x => ends okd (Some x))); [|cbn in H; congruence].
  intros x y Exy. apply ends_rsp; [apply cis_okd|]. cbn. congruence.
Qed.
Lemma strip_prefix_rsp p : Forall (fun q => (q < 65 \/ 122 < q \/ 90 < q < 97)%N) p -> rsp (strip_prefix p).
Proof.
  induction 1 as [|q p Hq _ IH]; intros s t E; [cbn; congruence|].
  destruct s as [|a s], t as [|b t]; cbn [strip_prefix]; auto; try discriminate.
  apply lower_cons in E as [E1 E2]. rewrite (ci_eqb q Hq a b E1). destruct (N.eqb q b); auto.
Qed.
Lemma bfind_rsp cl ok : Forall (fun q => (q < 65 \/ 122 < q \/ 90 < q < 97)%N) cl -> cis ok -> rsp (bfind cl ok).
Proof.
  intros Hc Hk s. induction s as [|a s IH]; intros [|b t] E; try discriminate; auto.
  pose proof (strip_prefix_rsp cl Hc _ _ E) as H. apply lower_cons in E as [E1 E2]. cbn [bfind].
  destruct (strip_prefix cl (a :: s)) as [r|], (strip_prefix cl (b :: t)) as [r'|]; try discriminate; [|now apply IH].
  cbn in H. injection H as H. rewrite (Hk r r' H). destruct (ok r'); [cbn; congruence|now apply IH].
Qed.
Lemma takew_same c s t : (c < 65)%N -> lower s = lower t -> takew (N.eqb c) s = takew (N.eqb c) t.
Proof.
  intros Hc. revert t. induction s as [|a s IH]; intros [|b t] E; auto; try discriminate. apply lower_cons in E as [E1 E2]. cbn [takew].
  rewrite (ci_eqb c ltac:(lia) a b E1). destruct (N.eqb_spec c b); auto. subst b. f_equal; auto.
  unfold loc in E1. destruct ((65 <=? a) && (a <=? 90))%N eqn:Ea; destruct ((65 <=? c) && (c <=? 90))%N eqn:Ec;
    rewrite ?andb_true_iff, ?andb_false_iff, ?N.leb_le, ?N.leb_gt in *; lia.
Qed.
Lemma v_bracket_ci s t : lower s = lower t -> v_bracket s = v_bracket t.
Proof.
  intros E. unfold v_bracket, bopen. destruct s as [|a s], t as [|b t]; auto; try discriminate. apply lower_cons in E as [E1 E2].
  rewrite (ci_eqb cLB ltac:(unfold cLB; lia) a b E1). destruct (N.eqb cLB b); auto.
  rewrite (takew_same cEQ s t ltac:(unfold cEQ; lia) E2).
  pose proof (lstrip_rsp (N.eqb cEQ) (ci_eqb cEQ ltac:(unfold cEQ; lia)) s t E2) as H.
  destruct (lstrip_by (N.eqb cEQ) s) as [|a' r], (lstrip_by (N.eqb cEQ) t) as [|b' r']; auto; try discriminate.
  apply lower_cons in H as [H1 H2]. rewrite (ci_eqb cLB ltac:(unfold cLB; lia) a' b' H1). destruct (N.eqb cLB b'); auto.
  set (e := takew (N.eqb cEQ) t).
  assert (He : Forall (fun q => (q < 65 \/ 122 < q \/ 90 < q < 97)%N) (closer e)).
  { unfold closer. apply Forall_cons; [unfold cRB; lia|]. apply Forall_app. split; [|apply Forall_cons; [unfold cRB; lia|constructor]].
    subst e. clear. induction t as [|c t IH]; cbn [takew]; [constructor|]. destruct (N.eqb_spec cEQ c); constructor; auto. subst c. unfold cEQ. lia. }
  pose proof (bfind_rsp (closer e) okd He cis_okd r r' H2) as Hb.
  destruct (bfind (closer e) okd r) as [[|]|], (bfind (closer e) okd r') as [[|]|]; cbn in Hb; auto; discriminate.
Qed.
Lemma mk_rsp : rsp mk_rest.
Proof.
  intros [|a [|a' [|a'' s]]] [|b [|b' [|b'' t]]] E; auto; try discriminate. apply lower_cons in E as [E1 E2]. apply lower_cons in E2 as [E2 E3].
  apply lower_cons in E3 as [E3 E4]. unfold mk_rest.
  assert (Hn : ci (noneof [cDOL; cLP; cRP])) by (apply ci_noneof; outr).
  rewrite (ci_eqb cDOL ltac:(unfold cDOL; lia) a b E1), (ci_eqb cLP ltac:(unfold cLP; lia) a' b' E2), (Hn a'' b'' E3). destruct (_ && _); auto.
  pose proof (lstrip_rsp _ Hn s t E4) as H. destruct (lstrip_by _ s) as [|c r], (lstrip_by _ t) as [|d r']; auto; try discriminate.
  apply lower_cons in H as [H1 H2]. rewrite (ci_eqb cRP ltac:(unfold cRP; lia) c d H1). destruct (N.eqb cRP d); auto. cbn. congruence.
Qed.
Definition no_bsl (s : str) : bool := negb (existsb (N.eqb cBSL) s).
Lemma no_bsl_ci s t : lower s = lower t -> no_bsl s = no_bsl t.
Proof.
  revert t. unfold no_bsl. induction s as [|a s IH]; intros [|b t] E; auto; try discriminate. apply lower_cons in E as [E1 E2].
  cbn [existsb]. rewrite (ci_eqb cBSL ltac:(unfold cBSL; lia) a b E1). specialize (IH t E2). destruct (N.eqb cBSL b); auto.
Qed.
Lemma ustep_rsp s t : no_bsl s = true -> lower s = lower t -> option_map lower (ustep s) = option_map lower (ustep t).
Proof.
  intros Hb E. unfold ustep. pose proof (mk_rsp s t E) as H. destruct (mk_rest s) as [r|], (mk_rest t) as [r'|]; try discriminate; auto.
  destruct s as [|a s], t as [|b t]; auto; try discriminate. apply lower_cons in E as [E1 E2].
  rewrite <- (ci_eqb cDQ ltac:(unfold cDQ; lia) a b E1), <- (ci_plain a b E1), <- (ci_eqb cBSL ltac:(unfold cBSL; lia) a b E1).
  assert (N.eqb cBSL a = false) as ->.
  { unfold no_bsl in Hb. cbn [existsb] in Hb. destruct (N.eqb cBSL a); [discriminate|reflexivity]. }
  pose proof (qrest_rsp cDQ ltac:(unfold cDQ; lia) s t E2) as Hq.
  destruct (N.eqb cDQ a); [destruct (qrest cDQ s) as [r|], (qrest cDQ t) as [r'|]; try discriminate; auto|];
    destruct (plain a); auto; cbn; congruence.
Qed.
Lemma suffix_bsl a b : no_bsl (a ++ b) = true -> no_bsl b = true.
Proof. unfold no_bsl. rewrite existsb_app. rewrite !negb_true_iff, orb_false_iff. tauto. Qed.
Lemma qrest_suffix q s r : qrest q s = Some r -> exists u, s = u ++ r.
Proof.
  assert (H : forall n s, (List.length s <= n)%nat -> qrest q s = Some r -> exists u, s = u ++ r).
  { induction n as [|n IH]; intros [|c s0] Hl H; try discriminate; simpl in Hl; try lia. cbn [qrest] in H.
    destruct (N.eqb c q); [injection H as <-; exists [c]; reflexivity|]. destruct (N.eqb c cBSL).
    - destruct s0 as [|e s0]; [discriminate|]. apply IH in H as (u & ->); [|simpl in Hl; lia]. exists (c :: e :: u). reflexivity.
    - apply IH in H as (u & ->); [|lia]. exists (c :: u). reflexivity. }
  apply (H (List.length s)). lia.
Qed.
Lemma ustep_suffix s r : ustep s = Some r -> exists u, s = u ++ r.
Proof.
  unfold ustep. destruct (mk_rest s) as [r'|] eqn:E.
  - intros H. injection H as <-. unfold mk_rest in E. destruct s as [|a [|b [|c s]]]; try discriminate. destruct (_ && _); [|discriminate].
    pose proof (takew_split (noneof [cDOL; cLP; cRP]) s) as Es. destruct (lstrip_by _ s) as [|d r''] ; [discriminate|].
    destruct (N.eqb cRP d); [|discriminate]. injection E as <-. rewrite Es. exists (a :: b :: c :: takew (noneof [cDOL; cLP; cRP]) s ++ [d]).
    cbn [app]. now rewrite <- app_assoc.
  - destruct s as [|c s]; [discriminate|]. destruct (if N.eqb cDQ c then qrest cDQ s else None) as [r'|] eqn:Eq.
    + destruct (N.eqb cDQ c); [|discriminate]. intros H. injection H as <-. apply qrest_suffix in Eq as (u & ->). exists (c :: u). reflexivity.
    + destruct (plain c); [intros H; injection H as <-; exists [c]; reflexivity|]. destruct (N.eqb cBSL c); [|discriminate].
      destruct s as [|d s]; [discriminate|]. destruct (escid d); [|discriminate]. intros H. injection H as <-. exists [c; d]. reflexivity.
Qed.
Lemma ugo_rsp s t : no_bsl s = true -> lower s = lower t -> lower (ugo s) = lower (ugo t).
Proof.
  assert (H : forall n s t, (List.length s <= n)%nat -> no_bsl s = true -> lower s = lower t -> lower (ugo s) = lower (ugo t)).
  { induction n as [|n IH]; intros s0 t0 Hl Hb E.
    - destruct s0; [|simpl in Hl; lia]. destruct t0; [reflexivity|discriminate].
    - rewrite (ugo_eq s0), (ugo_eq t0). pose proof (ustep_rsp s0 t0 Hb E) as Hu.
      destruct (ustep s0) as [r|] eqn:Es, (ustep t0) as [r'|]; try discriminate; auto. cbn in Hu. injection Hu as Hu.
      pose proof (ustep_len _ _ Es). apply ustep_suffix in Es as (u & ->). apply suffix_bsl in Hb. apply IH; auto. lia. }
  apply (H (List.length s)). lia.
Qed.
Theorem class_case s t : no_bsl s = true -> lower s = lower t -> class_of s = class_of t.
Proof.
  intros Hb E. unfold class_of. destruct s as [|a s0] eqn:Es, t as [|b t0] eqn:Et; auto; try discriminate.
  rewrite <- Es, <- Et in *. clear Es Et a s0 b t0. unfold verdicts. cbn [vtry].
  rewrite !(v_quoted_ci _ s t) by (auto; unfold cDQ, cSQ; lia). rewrite (v_bracket_ci s t E).
  rewrite (verd_rsp _ num_rsp s t E), (verd_rsp _ word_rsp s t E), (verd_rsp _ at_rsp s t E), (verd_rsp _ deref_rsp s t E).
  pose proof (ugo_rsp s t Hb E) as Hu. destruct (ugo s), (ugo t); try discriminate; reflexivity.
Qed.
Theorem word_case s t : word_rest s = Some nil -> lower s = lower t -> word_rest t = Some nil.
Proof.
  intros H E. pose proof (word_rsp s t E) as R. rewrite H in R. destruct (word_rest t) as [[|]|]; try discriminate. reflexivity.
Qed.
