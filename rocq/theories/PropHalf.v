(** * PropHalf: what cmake-lint says about incomplete variable references (C125, C126) *)
From Verif Require Import Base Regex Lex LexProofs LexClass TextOps TextProofs Tree Parse ParseProofs CmdSpec
  StdSpecs StdDb PropStd PropBlocks Layout Markup Pipeline LintDb Lint PropLint
  PropLintText LintTree PropLintChecks PropLintDefs PropLintMore PropLintCrash LintShape PropReport ParserLint PropRemarks.

(** ** The specification *)
(** no further part of a name at the start of the text *)
Definition stops (b : str) : Prop :=
  match b with
  | nil => True
  | c :: r => idc c = false /\ (c = cBSL -> match r with nil => True | d :: _ => idc d = true end)
  end.
(** One of the texts [hs], not escaped, stands behind [a] in [s], and the name [nm]
    behind it is as long as possible. *)
Definition occ (hs : list str) (s a h nm b : str) : Prop :=
  s = a ++ h ++ nm ++ b /\ In h hs /\ Nat.Even (bsls a) /\ ref_text nm /\ stops b.
Definition first_occ (hs : list str) (s h nm : str) : Prop :=
  exists a b, occ hs s a h nm b /\ forall a' h' nm' b', occ hs s a' h' nm' b' -> (List.length a <= List.length a')%nat.
Definition builtin (nm : str) : Prop := exists p, In p var_patterns /\ starts eq p nm.
(** the text of a literal once its complete references have been replaced by "foo" *)
Definition half_text (t : token) (s : str) : Prop :=
  In (tt t) [QUOTED_LITERAL; UNQUOTED_LITERAL; BRACKET_ARGUMENT] /\ mock_varrefs $"foo" (spelling t) = Ok s.
(** [w]: a dollar sign or brace with the name of a builtin variable behind it *)
Definition opens (t : token) (w : str) : Prop :=
  exists s h nm, half_text t s /\ first_occ [$"$"; $"{"] s h nm /\ builtin nm /\ w = h ++ nm.
Definition unclosed (t : token) : Prop :=
  exists s nm, half_text t s /\ first_occ [$"${"] s $"${" nm /\ builtin nm.

(** ** The patterns *)
Fixpoint units (s : str) : str * str :=
  match s with
  | nil => (nil, nil)
  | c :: s' =>
      if idc c then let '(u, r) := units s' in (c :: u, r)
      else if N.eqb c cBSL then
        match s' with
        | d :: s'' => if idc d then (nil, s) else let '(u, r) := units s'' in (c :: d :: u, r)
        | nil => (nil, s)
        end
      else (nil, s)
  end.
Lemma idc_bsl : idc cBSL = false. Proof. reflexivity. Qed.
Lemma str2_ind (P : str -> Prop) : P nil -> (forall c, P [c]) -> (forall c d s, P s -> P (d :: s) -> P (c :: d :: s)) -> forall s, P s.
Proof.
  intros H0 H1 H2. assert (forall s, P s /\ forall c, P (c :: s)) as G.
  { induction s as [|d s [IH1 IH2]]; [auto|]. split; [apply IH2|]. intros c. apply H2; auto. }
  intros s. apply G.
Qed.
Lemma units_app s : s = fst (units s) ++ snd (units s).
Proof.
  induction s as [|c|c d s IH1 IH2] using str2_ind; [reflexivity| |].
  - cbn [units]. destruct (idc c); [reflexivity|]. destruct (N.eqb c cBSL); reflexivity.
  - change (units (c :: d :: s)) with (if idc c then let '(u, r) := units (d :: s) in (c :: u, r)
      else if N.eqb c cBSL then if idc d then (nil, c :: d :: s) else let '(u, r) := units s in (c :: d :: u, r) else (nil, c :: d :: s)).
    destruct (idc c).
    + destruct (units (d :: s)) as [u r]. cbn [fst snd app] in *. now rewrite IH2.
    + destruct (N.eqb c cBSL); [|reflexivity]. destruct (idc d); [reflexivity|]. destruct (units s) as [u r]. cbn [fst snd app] in *. now rewrite IH1.
Qed.
Lemma units_stops s : stops (snd (units s)).
Proof.
  induction s as [|c|c d s IH1 IH2] using str2_ind; [exact I| |].
  - cbn [units]. destruct (idc c) eqn:E; [exact I|]. destruct (N.eqb c cBSL) eqn:Eb; cbn; split; auto.
  - change (units (c :: d :: s)) with (if idc c then let '(u, r) := units (d :: s) in (c :: u, r)
      else if N.eqb c cBSL then if idc d then (nil, c :: d :: s) else let '(u, r) := units s in (c :: d :: u, r) else (nil, c :: d :: s)).
    destruct (idc c) eqn:E.
    + destruct (units (d :: s)) as [u r]. exact IH2.
    + destruct (N.eqb c cBSL) eqn:Eb.
      * destruct (idc d) eqn:Ed; [cbn; auto|]. destruct (units s) as [u r]. exact IH1.
      * cbn. split; [exact E|]. intros ->. rewrite N.eqb_refl in Eb. discriminate.
Qed.
Lemma units_text s : fst (units s) = nil \/ ref_text (fst (units s)).
Proof.
  induction s as [|c|c d s IH1 IH2] using str2_ind; [now left| |].
  - cbn [units]. destruct (idc c) eqn:E; [right; now constructor|]. destruct (N.eqb c cBSL); now left.
  - change (units (c :: d :: s)) with (if idc c then let '(u, r) := units (d :: s) in (c :: u, r)
      else if N.eqb c cBSL then if idc d then (nil, c :: d :: s) else let '(u, r) := units s in (c :: d :: u, r) else (nil, c :: d :: s)).
    destruct (idc c) eqn:E.
    + destruct (units (d :: s)) as [u r]. cbn [fst] in *. right. destruct IH2 as [->|H]; [now constructor|now apply rt_id_cons].
    + destruct (N.eqb c cBSL) eqn:Eb; [|now left]. apply N.eqb_eq in Eb. subst c. destruct (idc d) eqn:Ed; [now left|]. destruct (units s) as [u r]. cbn [fst] in *.
      right. destruct IH1 as [->|H]; [now constructor|now apply rt_esc_cons].
Qed.
Lemma units_max nm b : ref_text nm -> stops b -> units (nm ++ b) = (nm, b).
Proof.
  intros H Hb.
  assert (units b = (nil, b)) as Hu.
  { destruct b as [|c r]; [reflexivity|]. destruct Hb as [H1 H2]. cbn [units]. rewrite H1. destruct (N.eqb c cBSL) eqn:E; [|reflexivity]. apply N.eqb_eq in E.
    specialize (H2 E). destruct r as [|d r]; [reflexivity|]. now rewrite H2. }
  induction H as [c Hc|c Hc|c s Hc H IH|c s Hc H IH].
  - cbn [app units]. now rewrite Hc, Hu.
  - change (units ([cBSL; c] ++ b)) with (if idc c then (nil, cBSL :: c :: b) else let '(u, r) := units b in (cBSL :: c :: u, r)). now rewrite Hc, Hu.
  - cbn [app units]. now rewrite Hc, IH.
  - change (units ((cBSL :: c :: s) ++ b)) with (if idc c then (nil, cBSL :: c :: s ++ b) else let '(u, r) := units (s ++ b) in (cBSL :: c :: u, r)). now rewrite Hc, IH.
Qed.
Lemma ref_text_nonempty nm : ref_text nm -> nm <> nil.
Proof. intros []; discriminate. Qed.
(** one part of a name *)
Lemma item_step pv s cp k : m ref_item (St pv s cp) k =
  match s with
  | nil => None
  | c :: s' => if idc c then k (St (Some c) s' cp)
               else if N.eqb c cBSL then match s' with d :: s'' => if idc d then None else k (St (Some d) s'' cp) | nil => None end
               else None
  end.
Proof.
  unfold ref_item, C. cbn [m rest cap]. destruct s as [|c s']; [reflexivity|]. rewrite (N.eqb_sym cBSL c). destruct (idc c) eqn:E.
  - destruct (k _) eqn:Ek; [reflexivity|]. destruct (N.eqb c cBSL) eqn:Eb; [|reflexivity]. apply N.eqb_eq in Eb. subst c. discriminate.
  - destruct (N.eqb c cBSL); [|reflexivity]. destruct s' as [|d s'']; [reflexivity|]. cbn [rest]. destruct (idc d); reflexivity.
Qed.
Lemma star_units k : (forall y, k y <> None) -> forall fuel s pv cp, (List.length s <= fuel)%nat ->
  star_loop (m ref_item) k fuel (St pv s cp) = k (St (last_or pv (fst (units s))) (snd (units s)) cp).
Proof.
  intros Hk. induction fuel as [|f IH]; intros s pv cp Hl.
  - destruct s; [reflexivity|cbn in Hl; lia].
  - cbn [star_loop rest]. rewrite item_step. destruct s as [|c s']; [reflexivity|]. cbn [List.length] in Hl.
    destruct (idc c) eqn:E.
    + cbn [rest]. replace (List.length s' <? List.length (c :: s'))%nat with true by (symmetry; apply Nat.ltb_lt; cbn; lia).
      rewrite IH by lia. cbn [units]. rewrite E. destruct (units s') as [u r]. cbn [fst snd].
      change (last_or pv (c :: u)) with (last_or (Some c) u). destruct (k _) eqn:Ek; [reflexivity|]. exfalso. now apply Hk in Ek.
    + destruct (N.eqb c cBSL) eqn:Eb.
      * destruct s' as [|d s'']; [cbn [units]; now rewrite E, Eb|]. cbn [units]. rewrite E, Eb. destruct (idc d) eqn:Ed; [reflexivity|].
        cbn [rest]. replace (List.length s'' <? List.length (c :: d :: s''))%nat with true by (symmetry; apply Nat.ltb_lt; cbn; lia).
        cbn [List.length] in Hl. rewrite IH by lia. destruct (units s'') as [u r]. cbn [fst snd].
        change (last_or pv (c :: d :: u)) with (last_or (Some d) u). destruct (k _) eqn:Ek; [reflexivity|]. exfalso. now apply Hk in Ek.
      * cbn [units]. now rewrite E, Eb.
Qed.
Lemma body_units k pv s cp : (forall y, k y <> None) ->
  m ref_body (St pv s cp) k = match fst (units s) with nil => None | u => k (St (last_or pv u) (snd (units s)) cp) end.
Proof.
  intros Hk. change (m ref_body (St pv s cp) k) with (m ref_item (St pv s cp) (fun y => star_loop (m ref_item) k (List.length (rest y)) y)).
  rewrite item_step. destruct s as [|c s']; [reflexivity|]. cbn [units]. destruct (idc c).
  - cbn [rest]. rewrite star_units by (auto; lia). destruct (units s') as [u r]. reflexivity.
  - destruct (N.eqb c cBSL); [|reflexivity]. destruct s' as [|d s'']; [reflexivity|]. destruct (idc d); [reflexivity|]. cbn [rest].
    rewrite star_units by (auto; lia). destruct (units s'') as [u r]. reflexivity.
Qed.
(** pairs of backslashes *)
Fixpoint lead (s : str) : nat := match s with c :: s' => if N.eqb c cBSL then S (lead s') else O | nil => O end.
Lemma star_pairs K : (forall y s, rest y = cBSL :: s -> K y = None) -> forall fuel s pv cp, (List.length s <= fuel)%nat ->
  star_loop (m bsl2) K fuel (St pv s cp) =
    if Nat.even (lead s) then K (St (last_or pv (firstn (lead s) s)) (skipn (lead s) s) cp) else None.
Proof.
  intros HK. induction fuel as [|f IH]; intros s pv cp Hl.
  - destruct s; [reflexivity|cbn in Hl; lia].
  - cbn [star_loop rest]. unfold bsl2, C. cbn [m rest cap]. destruct s as [|c s']; [reflexivity|]. cbn [List.length] in Hl.
    rewrite (N.eqb_sym cBSL c). destruct (N.eqb c cBSL) eqn:E.
    + apply N.eqb_eq in E. subst c. cbn [rest cap]. destruct s' as [|d s''].
      * cbn [lead]. change (N.eqb cBSL cBSL) with true. cbn [Nat.even]. now apply (HK _ nil).
      * rewrite (N.eqb_sym cBSL d). destruct (N.eqb d cBSL) eqn:Ed.
        -- apply N.eqb_eq in Ed. subst d. replace (List.length s'' <? List.length (cBSL :: cBSL :: s''))%nat with true by (symmetry; apply Nat.ltb_lt; cbn; lia).
           cbn [List.length] in Hl. change (RSeq (RChr (N.eqb cBSL)) (RChr (N.eqb cBSL))) with bsl2. change (fun x k => m (RChr (N.eqb cBSL)) x (fun y => m (RChr (N.eqb cBSL)) y k)) with (m bsl2).
           match goal with |- match ?q with _ => _ end = _ => assert (q = if Nat.even (lead s'') then K (St (last_or (Some cBSL) (firstn (lead s'') s'')) (skipn (lead s'') s'') cp) else None) as -> by (apply IH; lia) end.
           cbn [lead]. change (N.eqb cBSL cBSL) with true. cbn [Nat.even firstn skipn].
           change (last_or pv (cBSL :: cBSL :: firstn (lead s'') s'')) with (last_or (Some cBSL) (firstn (lead s'') s'')).
           rewrite (HK (St pv (cBSL :: cBSL :: s'') cp) _ eq_refl). destruct (if Nat.even (lead s'') then _ else _); reflexivity.
        -- cbn [lead]. change (N.eqb cBSL cBSL) with true. rewrite Ed. cbn [Nat.even]. apply (HK _ (d :: s'')). reflexivity.
    + cbn [lead]. rewrite E. reflexivity.
Qed.
Lemma lead_split s : exists s1, s = repeat cBSL (lead s) ++ s1 /\ skipn (lead s) s = s1 /\ firstn (lead s) s = repeat cBSL (lead s) /\ forall r, s1 <> cBSL :: r.
Proof.
  induction s as [|c s IH]; [exists nil; repeat split; discriminate|]. cbn [lead]. destruct (N.eqb c cBSL) eqn:E.
  - apply N.eqb_eq in E. subst c. destruct IH as (s1 & E1 & E2 & E3 & E4). exists s1. cbn [repeat app skipn firstn]. repeat split; auto; congruence.
  - exists (c :: s). repeat split; auto. intros r H. injection H as -> _. rewrite N.eqb_refl in E. discriminate.
Qed.
Lemma lead_app k s1 : (forall r, s1 <> cBSL :: r) -> lead (repeat cBSL k ++ s1) = k.
Proof.
  intros H. induction k as [|k IH]; cbn [repeat app lead].
  - destruct s1 as [|c r]; [reflexivity|]. cbn [lead]. destruct (N.eqb c cBSL) eqn:E; [|reflexivity]. apply N.eqb_eq in E. subst. exfalso. now apply (H r).
  - change (N.eqb cBSL cBSL) with true. now rewrite IH.
Qed.
(** what a pattern reads at a place *)
Definition no_bsl (pv : option chr) : Prop := pv <> Some cBSL.
Definition reads_at (hs : list str) (s h nm b : str) : Prop :=
  exists k, s = repeat cBSL (2 * k) ++ h ++ nm ++ b /\ In h hs /\ ref_text nm /\ stops b.
Lemma rest_nil_units s : fst (units s) = nil -> forall nm b, ref_text nm -> stops b -> s <> nm ++ b.
Proof. intros H nm b H1 H2 ->. rewrite (units_max _ _ H1 H2) in H. now apply (ref_text_nonempty nm). Qed.
Lemma units_read s : fst (units s) <> nil -> ref_text (fst (units s)) /\ stops (snd (units s)).
Proof. intros H. split; [|apply units_stops]. now destruct (units_text s). Qed.
Lemma firstn_read s : firstn (List.length s - List.length (snd (units s))) s = fst (units s).
Proof.
  rewrite (units_app s) at 1 3. rewrite app_length. replace (_ + _ - _)%nat with (List.length (fst (units s)) + 0)%nat by lia.
  rewrite firstn_app_2. cbn [firstn]. apply app_nil_r.
Qed.
Lemma lead_start h x k : (exists c r, h = c :: r /\ c <> cBSL) -> lead (repeat cBSL k ++ h ++ x) = k /\ skipn k (repeat cBSL k ++ h ++ x) = h ++ x.
Proof.
  intros (c & r & -> & Hc). split.
  - apply lead_app. cbn [app]. intros r' E. injection E as E _. auto.
  - rewrite skipn_app, repeat_length, Nat.sub_diag. rewrite skipn_all2 by (rewrite repeat_length; lia). reflexivity.
Qed.
Lemma nlb_step pv s cp k : m (RNLB (N.eqb cBSL)) (St pv s cp) k = match pv with Some c => if N.eqb cBSL c then None else k (St pv s cp) | None => k (St pv s cp) end.
Proof. reflexivity. Qed.
Lemma chr_step p pv s cp k : m (RChr p) (St pv s cp) k = match s with c :: s' => if p c then k (St (Some c) s' cp) else None | nil => None end.
Proof. reflexivity. Qed.

Definition agrees (hs : list str) (f : str -> str -> str) (r : re) : Prop := forall pv s,
  match rmatch r pv s with
  | Some y => no_bsl pv /\ exists h nm b, reads_at hs s h nm b /\ cap y = f h nm
  | None => ~ (no_bsl pv /\ exists h nm b, reads_at hs s h nm b)
  end.
(** the part of the two patterns behind the backslashes *)
Lemma agrees_intro hs f tail :
  (forall h, In h hs -> exists c r, h = c :: r /\ c <> cBSL) ->
  (forall pv s, match m tail (St pv s nil) Some with
     | Some y => exists h nm b, s = h ++ nm ++ b /\ In h hs /\ ref_text nm /\ stops b /\ cap y = f h nm
     | None => forall h nm b, s = h ++ nm ++ b -> In h hs -> ref_text nm -> stops b -> False end) ->
  agrees hs f (RSeq (RNLB (N.eqb cBSL)) (RSeq (RStar bsl2) tail)).
Proof.
  intros Hh Ht pv s. unfold rmatch.
  assert (forall y s', rest y = cBSL :: s' -> cap y = nil -> m tail y Some = None) as H0.
  { intros [pv' s0 cp] s' E Ec. cbn [rest cap] in *. subst s0 cp. specialize (Ht pv' (cBSL :: s')). destruct (m tail _ _) as [y|]; [|reflexivity].
    destruct Ht as (h & nm & b & E & Hi & _). destruct (Hh h Hi) as (c & r & -> & Hc). injection E as E _. congruence. }
  set (K := fun y => match cap y with nil => m tail y Some | _ => None end).
  assert (forall n pv' s', star_loop (m bsl2) (fun y => m tail y Some) n (St pv' s' nil) = star_loop (m bsl2) K n (St pv' s' nil)) as HK.
  { induction n as [|n IH]; intros pv' s'; [reflexivity|]. cbn [star_loop]. unfold bsl2, C. cbn [m rest cap].
    destruct s' as [|c1 s1]; [reflexivity|]. destruct (N.eqb cBSL c1); [|reflexivity]. cbn [rest cap]. destruct s1 as [|c2 s2]; [reflexivity|]. destruct (N.eqb cBSL c2); [|reflexivity].
    cbn [rest]. destruct (_ <? _)%nat; [|reflexivity].
    match goal with |- match ?a with _ => _ end = match ?b with _ => _ end => assert (a = b) as -> by (apply IH) end. reflexivity. }
  change (m (RSeq (RNLB (N.eqb cBSL)) (RSeq (RStar bsl2) tail)) (St pv s nil) Some)
    with (m (RNLB (N.eqb cBSL)) (St pv s nil) (fun y => star_loop (m bsl2) (fun y => m tail y Some) (List.length (rest y)) y)).
  rewrite nlb_step. cbn [rest]. rewrite HK, star_pairs; [|intros y s' E; unfold K; destruct (cap y) eqn:Ec; [eapply H0; eauto|reflexivity]|lia].
  unfold K. cbn [cap].
  destruct (lead_split s) as (s1 & E1 & E2 & E3 & E4). rewrite E2, E3.
  assert (match (if Nat.even (lead s) then m tail (St (last_or pv (repeat cBSL (lead s))) s1 nil) Some else None) with
          | Some y => exists h nm b, reads_at hs s h nm b /\ cap y = f h nm
          | None => ~ exists h nm b, reads_at hs s h nm b end) as G.
  { destruct (Nat.even (lead s)) eqn:Ev.
    - specialize (Ht (last_or pv (repeat cBSL (lead s))) s1). destruct (m tail _ _) as [y|].
      + destruct Ht as (h & nm & b & E & Hi & Hn & Hb & Hc). exists h, nm, b. split; [|exact Hc]. apply Nat.even_spec in Ev as (k & Ek). exists k. rewrite <- Ek, <- E. auto.
      + intros (h & nm & b & k & E & Hi & Hn & Hb). destruct (lead_start h (nm ++ b) (2 * k) (Hh h Hi)) as [F1 F2]. rewrite <- E in F1, F2. rewrite F1, F2 in E2. eapply (Ht h nm b); eauto.
    - intros (h & nm & b & k & E & Hi & Hn & Hb). destruct (lead_start h (nm ++ b) (2 * k) (Hh h Hi)) as [F1 F2]. rewrite <- E in F1. rewrite F1 in Ev.
      assert (Nat.even (2 * k) = true) as F by (apply Nat.even_spec; now exists k). congruence. }
  assert (forall c, pv = Some c -> N.eqb cBSL c = false -> no_bsl pv) as Hpv by (intros c -> E ->%(f_equal (fun o => match o with Some c => c | None => 0%N end)); discriminate E).
  assert (forall q : option st, match q with Some y => exists h nm b, reads_at hs s h nm b /\ cap y = f h nm | None => ~ exists h nm b, reads_at hs s h nm b end ->
     no_bsl pv -> match q with Some y => no_bsl pv /\ exists h nm b, reads_at hs s h nm b /\ cap y = f h nm | None => ~ (no_bsl pv /\ exists h nm b, reads_at hs s h nm b) end) as Q.
  { intros [y|] A B; [auto|]. intros [_ D]. auto. }
  destruct pv as [c|]; [destruct (N.eqb cBSL c) eqn:Ec|].
  - apply N.eqb_eq in Ec. subst c. intros [D _]. now apply D.
  - apply Q; [exact G|]. now apply (Hpv c).
  - apply Q; [exact G|]. discriminate.
Qed.
Lemma prefix_agrees : agrees [$"$"; $"{"] (fun h nm => h ++ nm) missing_prefix.
Proof.
  apply (agrees_intro _ _ (RGrp (RSeq (RAlt (C cDOL) (C cLC)) ref_body))).
  { intros h [<-|[<-|[]]]; eexists; eexists; (split; [reflexivity|discriminate]). }
  intros pv s.
  set (k := fun y => Some (St (prev y) (rest y) (firstn (List.length s - List.length (rest y)) s))).
  change (m _ (St pv s nil) Some) with
    (match m (RChr (N.eqb cDOL)) (St pv s nil) (fun y => m ref_body y k) with Some y => Some y | None => m (RChr (N.eqb cLC)) (St pv s nil) (fun y => m ref_body y k) end).
  rewrite !chr_step. destruct s as [|c s'].
  { intros h nm b E [<-|[<-|[]]]; discriminate. }
  assert (forall y, k y <> None) as Hk by discriminate.
  rewrite !body_units by exact Hk.
  destruct (fst (units s')) as [|u0 u] eqn:Eu.
  { assert (forall h nm b, c :: s' = h ++ nm ++ b -> In h [$"$"; $"{"] -> ref_text nm -> stops b -> False) as G.
    { intros h nm b E [<-|[<-|[]]] Hn Hb; injection E as _ E; exact (rest_nil_units _ Eu _ _ Hn Hb E). }
    destruct (N.eqb cDOL c); destruct (N.eqb cLC c); exact G. }
  assert (fst (units s') <> nil) as Hu by (rewrite Eu; discriminate). destruct (units_read _ Hu) as [U1 U2].
  assert (forall pv', k (St pv' (snd (units s')) nil) = Some (St pv' (snd (units s')) (c :: fst (units s')))) as Ek.
  { intros pv'. unfold k. cbn [prev rest]. f_equal. f_equal. pose proof (firstn_read s') as F.
    pose proof (f_equal (@List.length chr) (units_app s')) as L. rewrite app_length in L.
    replace (List.length (c :: s') - List.length (snd (units s')))%nat with (S (List.length s' - List.length (snd (units s'))))%nat by (cbn [List.length]; lia).
    cbn [firstn]. now rewrite F. }
  rewrite !Ek. rewrite <- Eu in *.
  destruct (N.eqb cDOL c) eqn:E1; [|destruct (N.eqb cLC c) eqn:E2].
  - apply N.eqb_eq in E1. subst c. exists $"$", (fst (units s')), (snd (units s')). rewrite <- units_app. cbn [cap]. repeat split; auto. now left.
  - apply N.eqb_eq in E2. subst c. exists $"{", (fst (units s')), (snd (units s')). rewrite <- units_app. cbn [cap]. repeat split; auto. right. now left.
  - intros h nm b E [<-|[<-|[]]]; injection E as E _; subst c; discriminate.
Qed.
Lemma suffix_agrees : agrees [$"${"] (fun h nm => nm) missing_suffix.
Proof.
  apply (agrees_intro _ _ (RSeq (C cDOL) (RSeq (C cLC) (RGrp ref_body)))).
  { intros h [<-|[]]; eexists; eexists; (split; [reflexivity|discriminate]). }
  intros pv s.
  change (m _ (St pv s nil) Some) with (m (RChr (N.eqb cDOL)) (St pv s nil) (fun y => m (RChr (N.eqb cLC)) y (fun z => m ref_body z
    (fun w => Some (St (prev w) (rest w) (firstn (List.length (rest z) - List.length (rest w)) (rest z))))))).
  rewrite chr_step. destruct s as [|c s1].
  { intros h nm b E [<-|[]]; discriminate. }
  destruct (N.eqb cDOL c) eqn:E1; [|intros h nm b E [<-|[]]; injection E as E _; subst c; discriminate].
  apply N.eqb_eq in E1. subst c. rewrite chr_step. destruct s1 as [|c s'].
  { intros h nm b E [<-|[]]; discriminate. }
  destruct (N.eqb cLC c) eqn:E1; [|intros h nm b E [<-|[]]; injection E as E _; subst c; discriminate].
  apply N.eqb_eq in E1. subst c. cbn [rest]. rewrite body_units by discriminate.
  destruct (fst (units s')) as [|u0 u] eqn:Eu.
  { intros h nm b E [<-|[]] Hn Hb; injection E as E; exact (rest_nil_units _ Eu _ _ Hn Hb E). }
  assert (fst (units s') <> nil) as Hu by (rewrite Eu; discriminate). destruct (units_read _ Hu) as [U1 U2].
  cbn [prev rest cap]. rewrite firstn_read. exists $"${", (fst (units s')), (snd (units s')). rewrite <- units_app. repeat split; auto. now left.
Qed.
(** the first place *)
Lemma rsearch_some r : forall s pv y, rsearch r pv s = Some y ->
  exists a s', s = a ++ s' /\ rmatch r (last_or pv a) s' = Some y /\ forall a1 s1, s = a1 ++ s1 -> (List.length a1 < List.length a)%nat -> rmatch r (last_or pv a1) s1 = None.
Proof.
  induction s as [|c s IH]; intros pv y H; cbn [rsearch] in H.
  - exists nil, nil. destruct (rmatch r pv nil) eqn:E; [|discriminate]. injection H as <-. repeat split; auto. intros a1 s1 _ Hl. cbn in Hl. lia.
  - destruct (rmatch r pv (c :: s)) eqn:E.
    + injection H as <-. exists nil, (c :: s). repeat split; auto. intros a1 s1 _ Hl. cbn in Hl. lia.
    + apply IH in H as (a & s' & -> & H1 & H2). exists (c :: a), s'. repeat split; auto. intros a1 s1 E1 Hl. destruct a1 as [|d a1].
      * cbn [app] in E1. subst s1. exact E.
      * injection E1 as <- E1. apply (H2 a1 s1 E1). cbn in Hl. lia.
Qed.
Lemma rev_bsls k : rev (repeat cBSL k) = repeat cBSL k.
Proof. induction k as [|k IH]; [reflexivity|]. cbn [repeat rev]. rewrite IH. clear. induction k as [|k IH]; [reflexivity|]. cbn [repeat app]. now rewrite IH. Qed.
Lemma app_inv_len (a b x y : str) : a ++ x = b ++ y -> List.length a = List.length b -> a = b /\ x = y.
Proof.
  revert b. induction a as [|c a IH]; intros [|d b] E L; try discriminate L; [auto|]. injection E as -> E. injection L as L. destruct (IH b E L) as [-> ->]. auto.
Qed.
Lemma bsls_app a k : last_or None a <> Some cBSL -> bsls (a ++ repeat cBSL k) = k.
Proof.
  intros H. unfold bsls. rewrite rev_app_distr, rev_bsls.
  assert (take_while (N.eqb cBSL) (rev a) = nil) as E.
  { destruct a as [|c a _] using rev_ind; [reflexivity|]. rewrite rev_app_distr. cbn [rev app take_while]. unfold last_or in H. rewrite fold_left_app in H. cbn in H.
    destruct (N.eqb cBSL c) eqn:E; [|reflexivity]. apply N.eqb_eq in E. subst. now exfalso. }
  induction k as [|k IH]; cbn [repeat app take_while]; [now rewrite E|]. change (N.eqb cBSL cBSL) with true. cbn [List.length]. now rewrite IH.
Qed.
Section First.
  Variables (hs : list str) (f : str -> str -> str) (r : re).
  Hypothesis Hh : forall h, In h hs -> exists c u, h = c :: u /\ c <> cBSL.
  Hypothesis Hlen : forall h h' x x', In h hs -> In h' hs -> h ++ x = h' ++ x' -> h = h'.
  Hypothesis Hr : agrees hs f r.
  Lemma occ_fun s a h nm b a' h' nm' b' : occ hs s a h nm b -> occ hs s a' h' nm' b' -> List.length a = List.length a' -> a = a' /\ h = h' /\ nm = nm' /\ b = b'.
  Proof.
    intros (E & Hi & _ & Hn & Hb) (E' & Hi' & _ & Hn' & Hb') L. rewrite E in E'.
    destruct (app_inv_len _ _ _ _ E' L) as [-> E2]. pose proof (Hlen _ _ _ _ Hi Hi' E2) as ->. apply app_inv_head in E2.
    pose proof (units_max _ _ Hn Hb) as U. rewrite E2, (units_max _ _ Hn' Hb') in U. injection U as -> ->. auto.
  Qed.
  Lemma first_fun s h nm h' nm' : first_occ hs s h nm -> first_occ hs s h' nm' -> h = h' /\ nm = nm'.
  Proof.
    intros (a & b & O & L) (a' & b' & O' & L'). pose proof (L _ _ _ _ O') as H1. pose proof (L' _ _ _ _ O) as H2.
    destruct (occ_fun _ _ _ _ _ _ _ _ _ O O') as (_ & -> & -> & _); [lia|auto].
  Qed.
  (** an unescaped place comes with a place where the pattern reads *)
  Lemma occ_reads s a h nm b : occ hs s a h nm b -> exists a1 k, a = a1 ++ repeat cBSL (2 * k) /\ s = a1 ++ (repeat cBSL (2 * k) ++ h ++ nm ++ b) /\
    rmatch r (last_or None a1) (repeat cBSL (2 * k) ++ h ++ nm ++ b) <> None.
  Proof.
    intros (E & Hi & (k & Ek) & Hn & Hb). destruct (bsls_split a) as (a1 & Ea & Hl). rewrite Ek in Ea. exists a1, k. split; [exact Ea|]. split; [rewrite E, Ea at 1; now rewrite <- !app_assoc|].
    intros F. pose proof (Hr (last_or None a1) (repeat cBSL (2 * k) ++ h ++ nm ++ b)) as A. rewrite F in A. apply A. split; [apply Hl; discriminate|]. exists h, nm, b, k. auto.
  Qed.
  Lemma search_first s : match rsearch r None s with
    | Some y => exists h nm, first_occ hs s h nm /\ cap y = f h nm
    | None => forall h nm, ~ first_occ hs s h nm end.
  Proof.
    destruct (rsearch r None s) as [y|] eqn:E.
    - apply rsearch_some in E as (a & s' & -> & E1 & E2). pose proof (Hr (last_or None a) s') as A. rewrite E1 in A.
      destruct A as (Hn & h & nm & b & (k & -> & Hi & H1 & H2) & Hc). exists h, nm. split; [|exact Hc].
      exists (a ++ repeat cBSL (2 * k)), b. split.
      + repeat split; auto; [now rewrite <- !app_assoc|]. rewrite bsls_app by exact Hn. now exists k.
      + intros a' h' nm' b' O. destruct (occ_reads _ _ _ _ _ O) as (a1 & k1 & Ea & Es & Hm).
        assert (List.length a <= List.length a1)%nat as La.
        { destruct (Nat.le_gt_cases (List.length a) (List.length a1)) as [|L]; [assumption|]. exfalso. apply Hm. exact (E2 _ _ Es L). }
        rewrite app_length, repeat_length. destruct (Nat.le_gt_cases (List.length a + 2 * k) (List.length a')) as [|L]; [assumption|]. exfalso.
        assert (List.length a <= List.length a')%nat as La' by (rewrite Ea, app_length; lia).
        destruct O as (Eo & Hi' & _). destruct (Hh h' Hi') as (c & u & -> & Hcb).
        assert (nth_error (a ++ repeat cBSL (2 * k) ++ h ++ nm ++ b) (List.length a') = Some c) as N1.
        { rewrite Eo. rewrite nth_error_app2, Nat.sub_diag by lia. reflexivity. }
        rewrite nth_error_app2, nth_error_app1 in N1 by (rewrite ?repeat_length; lia). apply nth_error_In, repeat_spec in N1. auto.
    - intros h nm (a & b & O & _). destruct (occ_reads _ _ _ _ _ O) as (a1 & k1 & Ea & Es & Hm). apply Hm. apply rsearch_none. now rewrite <- Es.
  Qed.
End First.
Lemma open_heads h : In h [$"$"; $"{"] -> exists c u, h = c :: u /\ c <> cBSL.
Proof. intros [<-|[<-|[]]]; eexists; eexists; (split; [reflexivity|discriminate]). Qed.
Lemma open_len h h' x x' : In h [$"$"; $"{"] -> In h' [$"$"; $"{"] -> h ++ x = h' ++ x' -> h = h'.
Proof. intros [<-|[<-|[]]] [<-|[<-|[]]] E; try reflexivity; discriminate. Qed.
Lemma close_heads h : In h [$"${"] -> exists c u, h = c :: u /\ c <> cBSL.
Proof. intros [<-|[]]; eexists; eexists; (split; [reflexivity|discriminate]). Qed.
Lemma close_len h h' x x' : In h [$"${"] -> In h' [$"${"] -> h ++ x = h' ++ x' -> h = h'.
Proof. intros [<-|[]] [<-|[]] E; reflexivity. Qed.
Lemma builtin_iff nm : is_builtin nm = true <-> builtin nm.
Proof.
  unfold is_builtin, sensitive. destruct (find _ _) as [p|] eqn:E.
  - apply find_some in E as [E1 E2]. split; [|auto]. intros _. exists p. split; [exact E1|]. now apply vmatch_id.
  - split; [discriminate|]. intros (p & Hp & Hs). apply vmatch_id in Hs; [|exact Hp]. pose proof (find_none _ _ E p Hp). cbn beta in *. congruence.
Qed.

(** ** Which references are reported *)
Lemma tmem_literal t : tmem (tt t) [QUOTED_LITERAL; UNQUOTED_LITERAL; BRACKET_ARGUMENT] = true <-> In (tt t) [QUOTED_LITERAL; UNQUOTED_LITERAL; BRACKET_ARGUMENT].
Proof. destruct t as [k sp b]. cbn [tt]. destruct k; cbn; split; intros H; try discriminate; try tauto; repeat (destruct H as [H|H]; [discriminate|]); try destruct H; auto. Qed.
Lemma opens_fun t w w' : opens t w -> opens t w' -> w = w'.
Proof.
  intros (s & h & nm & (_ & E) & F & _ & ->) (s' & h' & nm' & (_ & E') & F' & _ & ->). rewrite E in E'. injection E' as <-.
  destruct (first_fun _ open_len _ _ _ _ _ F F') as [-> ->]. reflexivity.
Qed.
(** the half reference read last before a place *)
Definition last_open (cat : option str) (pre : list token) (w : str) : Prop :=
  (exists p1 t p2, pre = p1 ++ t :: p2 /\ opens t w /\ forall t' w', In t' p2 -> ~ opens t' w') \/
  (cat = Some w /\ forall t' w', In t' pre -> ~ opens t' w').
Definition asked (cat : option str) (toks : list token) (q : req) : Prop :=
  exists pre t post, toks = pre ++ t :: post /\
    ((exists w, opens t w /\ w <> $"$ENV" /\ q = at_tok $"W0106" t [FS $"open"; FS w]) \/
     (exists w, unclosed t /\ (forall w', ~ opens t w') /\ last_open cat pre w /\ q = at_tok $"W0106" t [FS $"closing"; FS w])).
Lemma last_open_on cat t r w0 w : opens t w0 -> (last_open cat (t :: r) w <-> last_open (Some w0) r w).
Proof.
  intros O. split.
  - intros [(p1 & t' & p2 & E & O' & No)|[E No]].
    + destruct p1 as [|x p1]; injection E as <- ->.
      * right. split; [f_equal; now apply (opens_fun t)|exact No].
      * left. exists p1, t', p2. auto.
    + exfalso. apply (No t w0); [now left|exact O].
  - intros [(p1 & t' & p2 & -> & O' & No)|[[= ->] No]].
    + left. exists (t :: p1), t', p2. auto.
    + left. exists nil, t, r. auto.
Qed.
Lemma last_open_off cat t r w : (forall w0, ~ opens t w0) -> (last_open cat (t :: r) w <-> last_open cat r w).
Proof.
  intros O. split.
  - intros [(p1 & t' & p2 & E & O' & No)|[E No]].
    + destruct p1 as [|x p1]; injection E as <- ->.
      * exfalso. now apply (O w).
      * left. exists p1, t', p2. auto.
    + right. split; [exact E|]. intros t' w' Hi. apply No. now right.
  - intros [(p1 & t' & p2 & -> & O' & No)|[E No]].
    + left. exists (t :: p1), t', p2. auto.
    + right. split; [exact E|]. intros t' w' [<-|Hi]; auto.
Qed.
Lemma last_open_nil cat w : last_open cat nil w <-> cat = Some w.
Proof. split; [intros [(p1 & t & p2 & E & _)|[E _]]; [now destruct p1|exact E]|]. intros ->. right. split; [reflexivity|intros ? ? []]. Qed.
Definition here (cat : option str) (t : token) (q : req) : Prop :=
  (exists w, opens t w /\ w <> $"$ENV" /\ q = at_tok $"W0106" t [FS $"open"; FS w]) \/
  (exists w, unclosed t /\ (forall w', ~ opens t w') /\ cat = Some w /\ q = at_tok $"W0106" t [FS $"closing"; FS w]).
Lemma asked_cons cat cat' t r q : (forall p w, last_open cat (t :: p) w <-> last_open cat' p w) ->
  (asked cat (t :: r) q <-> here cat t q \/ asked cat' r q).
Proof.
  intros HL. split.
  - intros (pre & t' & post & E & K). destruct pre as [|x pre]; injection E as <- ->.
    + left. destruct K as [K|(w & K1 & K2 & K3 & K4)]; [now left|]. right. exists w. apply last_open_nil in K3. auto.
    + right. exists pre, t', post. split; [reflexivity|]. destruct K as [K|(w & K1 & K2 & K3 & K4)]; [now left|]. right. exists w. apply HL in K3. auto.
  - intros [K|(pre & t' & post & -> & K)].
    + exists nil, t, r. split; [reflexivity|]. destruct K as [K|(w & K1 & K2 & K3 & K4)]; [now left|]. right. exists w. rewrite last_open_nil. auto.
    + exists (t :: pre), t', post. split; [reflexivity|]. destruct K as [K|(w & K1 & K2 & K3 & K4)]; [now left|]. right. exists w. rewrite HL. auto.
Qed.
Lemma opens_search t s y : half_text t s -> rsearch missing_prefix None s = Some y -> is_builtin (tl (cap y)) = true -> opens t (cap y).
Proof.
  intros Ht E Hb. pose proof (search_first _ _ _ open_heads prefix_agrees s) as S. rewrite E in S. destruct S as (h & nm & F & Ec). exists s, h, nm. rewrite Ec in *.
  repeat (split; [assumption|]). split; [|reflexivity]. apply builtin_iff. destruct F as (a & b & (_ & Hi & _) & _). destruct Hi as [<-|[<-|[]]]; exact Hb.
Qed.
Lemma opens_only t s w : half_text t s -> opens t w -> exists y, rsearch missing_prefix None s = Some y /\ is_builtin (tl (cap y)) = true.
Proof.
  intros (_ & E) (s' & h & nm & (_ & E') & F & Hb & ->). rewrite E in E'. injection E' as <-.
  pose proof (search_first _ _ _ open_heads prefix_agrees s) as S. destruct (rsearch missing_prefix None s) as [y|]; [|exfalso; exact (S _ _ F)].
  exists y. split; [reflexivity|]. destruct S as (h' & nm' & F' & ->). destruct (first_fun _ open_len _ _ _ _ _ F F') as [<- <-].
  apply builtin_iff in Hb. destruct F as (a & b & (_ & Hi & _) & _). destruct Hi as [<-|[<-|[]]]; exact Hb.
Qed.
Lemma unclosed_search t s y : half_text t s -> rsearch missing_suffix None s = Some y -> is_builtin (cap y) = true -> unclosed t.
Proof.
  intros Ht E Hb. pose proof (search_first _ _ _ close_heads suffix_agrees s) as S. rewrite E in S. destruct S as (h & nm & F & Ec). rewrite Ec in *.
  exists s, nm. split; [exact Ht|]. split; [|now apply builtin_iff]. destruct F as (a & b & O & L). pose proof O as (_ & Hi & _). destruct Hi as [<-|[]]. now exists a, b.
Qed.
Lemma unclosed_only t s : half_text t s -> unclosed t -> exists y, rsearch missing_suffix None s = Some y /\ is_builtin (cap y) = true.
Proof.
  intros (_ & E) (s' & nm & (_ & E') & F & Hb). rewrite E in E'. injection E' as <-.
  pose proof (search_first _ _ _ close_heads suffix_agrees s) as S. destruct (rsearch missing_suffix None s) as [y|]; [|exfalso; exact (S _ _ F)].
  exists y. split; [reflexivity|]. destruct S as (h' & nm' & F' & ->). destruct (first_fun _ close_len _ _ _ _ _ F F') as [<- <-]. now apply builtin_iff in Hb.
Qed.
Lemma asked_nil cat q : ~ asked cat nil q.
Proof. intros (pre & t & post & E & _). now destruct pre. Qed.
(** every exit of the loop: what is asked, and that an unclosed reference is always behind a half reference *)
Lemma tokens_exact toks : forall cat qs, check_tokens cat toks = Ok qs -> forall q, In q qs <-> asked cat toks q.
Proof.
  induction toks as [|t r IH]; intros cat qs H q; cbn [check_tokens] in H.
  { injection H as <-. split; [intros []|]. intros K. now apply asked_nil in K. }
  assert (forall qs', (forall w0, ~ opens t w0) -> ~ unclosed t -> check_tokens cat r = Ok qs' -> (In q qs' <-> asked cat (t :: r) q)) as None_.
  { intros qs' No Nu Hr. rewrite (asked_cons cat cat t r q) by (intros p w; now apply last_open_off). rewrite (IH cat qs' Hr q).
    split; [now right|]. intros [[(w & O & _)|(w & U & _)]|K]; [now exfalso; apply (No w)|now exfalso|exact K]. }
  destruct (tmem (tt t) _) eqn:Et; cbn [negb] in H.
  2:{ assert (forall s, ~ half_text t s) as Nh by (intros s [Hi _]; apply tmem_literal in Hi; congruence).
      apply None_; [intros w (s & h & nm & Hs & _); now apply (Nh s)|intros (s & nm & Hs & _); now apply (Nh s)|exact H]. }
  apply bindr_ok in H as (s & Es & H). assert (half_text t s) as Ht by (split; [now apply tmem_literal|exact Es]).
  assert ((forall w0, ~ opens t w0) -> (forall qs', match rsearch missing_suffix None s with
          | Some y => if is_builtin (cap y)
                      then match cat with
                           | None => Err AttrErr
                           | Some m => let? qs := check_tokens cat r in
                                       Ok (at_tok $"W0106" t [FS $"closing"; FS m] :: qs)
                           end
                      else check_tokens cat r
          | None => check_tokens cat r
          end = Ok qs' -> (In q qs' <-> asked cat (t :: r) q))) as Suf.
  { intros No qs' Hs. destruct (rsearch missing_suffix None s) as [y|] eqn:Ey; [destruct (is_builtin (cap y)) eqn:Eb|].
    - pose proof (unclosed_search t s y Ht Ey Eb) as U. destruct cat as [w|]; [|discriminate]. apply bindr_ok in Hs as (q1 & H1 & Hs). injection Hs as <-.
      rewrite (asked_cons (Some w) (Some w) t r q) by (intros p w'; now apply last_open_off). cbn [In]. rewrite (IH _ _ H1 q). split.
      + intros [<-|K]; [left; right; exists w; auto|now right].
      + intros [[(w' & O & _)|(w' & _ & _ & [= <-] & ->)]|K]; [now exfalso; apply (No w')|now left|now right].
    - apply None_; auto. intros U. destruct (unclosed_only t s Ht U) as (y' & E1 & E2). rewrite Ey in E1. injection E1 as <-. congruence.
    - apply None_; auto. intros U. destruct (unclosed_only t s Ht U) as (y' & E1 & E2). congruence. }
  destruct (rsearch missing_prefix None s) as [y|] eqn:Ey; [destruct (is_builtin (tl (cap y))) eqn:Eb|].
  - pose proof (opens_search t s y Ht Ey Eb) as O.
    rewrite (asked_cons cat (Some (cap y)) t r q) by (intros p w; now apply last_open_on).
    destruct (seqb (cap y) $"$ENV") eqn:Ev.
    + rewrite (IH _ _ H q). split; [now right|]. intros [[(w & O' & Hw & _)|(w & _ & No & _)]|K]; [|now exfalso; apply (No _ O)|exact K].
      exfalso. apply Hw. rewrite (opens_fun _ _ _ O' O). now apply seqb_eq.
    + apply bindr_ok in H as (q1 & H1 & H). injection H as <-. cbn [In]. rewrite (IH _ _ H1 q). split.
      * intros [<-|K]; [|now right]. left. left. exists (cap y). split; [exact O|]. split; [|reflexivity]. intros F. apply seqb_eq in F. congruence.
      * intros [[(w & O' & Hw & ->)|(w & _ & No & _)]|K]; [|now exfalso; apply (No _ O)|now right]. left. now rewrite (opens_fun _ _ _ O' O).
  - apply Suf; [|exact H]. intros w O. destruct (opens_only t s w Ht O) as (y' & E1 & E2). rewrite Ey in E1. injection E1 as <-. congruence.
  - apply Suf; [|exact H]. intros w O. destruct (opens_only t s w Ht O) as (y' & E1 & E2). congruence.
Qed.
Definition half_msg (tag w : str) : str := $"String looks like a variable reference missing an " ++ tag ++ $" tag '" ++ w ++ $"'".

(** C125: exactly which incomplete references are reported, and where.  A literal whose
    complete references are replaced by "foo" (C30) is looked through for an unescaped
    dollar sign or brace with a name behind it; when the first one names a builtin
    variable and does not read $ENV it is reported as missing an open tag.  Only
    otherwise the first "${" in it counts, and the report then quotes the half
    reference of the last earlier literal that had one. *)
Theorem C125_half_references : forall c tbl src y, lint_file c src ctx0 = Ok y -> lc_plint c = plint (lc_ctx c) tbl -> ~ In $"W0106" (lc_disabled c) ->
  exists toks, tokenize src = Ok toks /\
  forall r, In r (x_lint y) /\ l_id r = $"W0106" <->
    exists pre t post, toks = pre ++ t :: post /\
      ((exists w, opens t w /\ w <> $"$ENV" /\ r = LRec $"W0106" (loc3 (begin t)) (half_msg $"open" w)) \/
       (exists w p1 u p2, unclosed t /\ (forall w', ~ opens t w') /\
          pre = p1 ++ u :: p2 /\ opens u w /\ (forall u' w', In u' p2 -> ~ opens u' w') /\
          r = LRec $"W0106" (loc3 (begin t)) (half_msg $"closing" w))).
Proof.
  intros c tbl src y H HP Hd. apply file_in in H as (toks & tree & qt & qv & Ht & Hp & Hqt & Hqv & _ & HR).
  exists toks. split; [exact Ht|]. intros r. rewrite HR. unfold enabled. cbn [x_lint x_sup ctx0 In].
  assert (forall t tag w, written r (at_tok $"W0106" t [FS tag; FS w]) <-> r = LRec $"W0106" (loc3 (begin t)) (half_msg tag w)) as W.
  { intros t tag w. apply (written_msg $"W0106" _ _ $"String looks like a variable reference missing an {:s} tag '{:s}'"); reflexivity. }
  split.
  - intros [[[]|(q & Wq & [E _] & K)] Er]. pose proof (proj1 Wq) as Eid. rewrite Er in Eid. symmetry in Eid.
    assert (forall l, (forall z, In z l -> z <> $"W0106") -> In (q_id q) l -> False) as No.
    { intros l Hl Hq. now apply (Hl _ Hq). }
    destruct K as [K|[K|[K|[K|[K|K]]]]].
    + exfalso. apply (coded_in _ _ _ (basics_coded c src)) in K. revert K. apply No. intros z Hz. cbn [In] in Hz. repeat (destruct Hz as [<-|Hz]; [discriminate|]). destruct Hz.
    + apply (tokens_exact _ _ _ Hqt) in K as (pre & t & post & Et & K). exists pre, t, post. split; [exact Et|].
      destruct K as [(w & O & Hw & ->)|(w & U & NO & L & ->)]; apply W in Wq.
      * left. eauto.
      * right. destruct L as [(p1 & u & p2 & Ep & O & Nx)|[F _]]; [|discriminate]. exists w, p1, u, p2. auto 8.
    + exfalso. rewrite HP in K. unfold plint in K. rewrite Hp in K. cbv iota beta in K. apply in_flat_map in K as (n & Hn & K).
      destruct Wq as (_ & _ & tpl & K1 & K2). apply stmt_by in K as (Hs & Hl & K).
      destruct K as [(Hf & K)|[(Hf & K)|[(Hf & K)|[(Hf & K)|[(Hf & K)|[(Hf & K)|[(Hf & K)|(Hf & K)]]]]]]].
      * apply form_is in K as [(_ & E1)|(t & _ & [(_ & E1)|[(_ & E1)|(_ & _ & _ & E1)]])]; rewrite E1, ?front_req in Eid; discriminate Eid.
      * apply form_is in K as [(_ & E1)|(t & _ & [(_ & E1)|[(_ & E1)|(_ & _ & _ & E1)]])]; rewrite E1, ?front_req in Eid; discriminate Eid.
      * apply command_is in K as [(_ & E1)|(t & _ & [(_ & E1)|[(_ & E1)|[(_ & _ & _ & E1)|(_ & E1)]]])]; try (rewrite E1, ?front_req in Eid; discriminate Eid).
        apply required_is in E1 as [(_ & E1)|(_ & E1)]; rewrite E1 in Eid; discriminate Eid.
      * apply target_is in K as [(t & _ & E1)|(_ & E1)]; rewrite E1 in Eid; discriminate Eid.
      * unfold set_remarks in K. apply in_flat_map in K as (g & _ & K). destruct (group_kw g); [|destruct K]. unfold cache_remarks in K. cbv zeta in K.
        repeat match type of K with In _ (match ?x with _ => _ end) => destruct x end; try (destruct K as [E1|[]]; rewrite <- E1, ?front_req in Eid; discriminate Eid); destruct K.
      * unfold build_remarks in K. destruct (nth_semantic _ 1); [|destruct K]. destruct K as [E1|[]]. rewrite Eid in K1. vm_compute in K1. injection K1 as <-. rewrite <- E1, front_req in K2. vm_compute in K2. discriminate.
      * apply policy_is in K as (t & _ & [(_ & E1)|(_ & _ & E1)]); rewrite E1 in Eid; discriminate Eid.
      * apply empty_is in K as (a & b & s & ks & _ & E1). rewrite E1 in Eid. discriminate Eid.
    + exfalso. apply (coded_in _ _ _ (assignments_coded _ _ Hqv)) in K. revert K. apply No. intros z Hz. cbn [In] in Hz. repeat (destruct Hz as [<-|Hz]; [discriminate|]). destruct Hz.
    + exfalso. apply (coded_in _ _ _ (references_coded tree)) in K. revert K. apply No. intros z Hz. cbn [In] in Hz. repeat (destruct Hz as [<-|Hz]; [discriminate|]). destruct Hz.
    + exfalso. destruct K as [([s [t|k cs]] & Hv & K)|(pre & s & t & post & E2 & K)]; [destruct K| |].
      * pose proof (node_coded _ _ _ _ _ K) as Hc. destruct k; cbn [node_codes] in Hc;
          try solve [exfalso; revert Hc; apply No; intros z Hz; cbn [In body_codes flow_codes app] in Hz; repeat (destruct Hz as [<-|Hz]; [discriminate|]); destruct Hz].
      * apply (coded_in _ _ _ (indent_coded _ _ _ _)) in K. revert K. apply No. intros z Hz. cbn [In] in Hz. repeat (destruct Hz as [<-|Hz]; [discriminate|]). destruct Hz.
  - intros (pre & t & post & Et & K). assert (exists q, written r q /\ q_id q = $"W0106" /\ asked None toks q) as (q & Wq & Eq & A).
    { destruct K as [(w & O & Hw & Er)|(w & p1 & u & p2 & U & NO & Ep & O & Nx & Er)].
      - apply W in Er. eexists. split; [exact Er|]. split; [reflexivity|]. exists pre, t, post. split; [exact Et|]. left. eauto.
      - apply W in Er. eexists. split; [exact Er|]. split; [reflexivity|]. exists pre, t, post. split; [exact Et|]. right. exists w. split; [exact U|]. split; [exact NO|]. split; [|reflexivity].
        left. exists p1, u, p2. auto. }
    split; [|rewrite <- Eq; apply Wq]. right. exists q. split; [exact Wq|]. rewrite Eq. split; [split; [exact Hd|intros []]|]. right. left. now apply (tokens_exact _ _ _ Hqt).
Qed.
Definition half_sample : str := nl [$"set(a ""$CMAKE_BUILD_TYPE"")"; $"set(b ""x{CMAKE_C_FLAGS}"")"; $"set(c ""${CMAKE_C_FLAGS} $ENV{HOME}"")";
  $"set(d ""$nothing ${CMAKE_C_FLAGS"")"; $"set(e ""\$CMAKE_C_FLAGS"")"].
Definition w0106 (y : lctx) : list (list Z * str) := map (fun r => (l_loc r, l_msg r)) (filter (fun r => seqb (l_id r) $"W0106") (x_lint y)).
Example C125_ex : exists y, lint_file remarks_lcfg half_sample ctx0 = Ok y /\ lc_plint remarks_lcfg = plint (lc_ctx remarks_lcfg) nil /\ ~ In $"W0106" (lc_disabled remarks_lcfg) /\
  w0106 y = [([1; 6; 6], half_msg $"open" $"$CMAKE_BUILD_TYPE"); ([2; 6; 33], half_msg $"open" $"{CMAKE_C_FLAGS"); ([4; 6; 96], half_msg $"closing" $"$ENV")].
Proof. eexists. split; [vm_compute; reflexivity|]. split; [reflexivity|]. split; [intros []|]. vm_compute. reflexivity. Qed.

(** C126: a reference to a builtin variable without its closing brace is not reported as
    one that misses its closing tag: it is said to miss its open tag, the report of
    another literal is quoted, or the run fails because there is no other literal. *)
Lemma unclosed_lit t s y : In (tt t) [QUOTED_LITERAL; UNQUOTED_LITERAL; BRACKET_ARGUMENT] -> mock_varrefs $"foo" (spelling t) = Ok s ->
  rsearch missing_suffix None s = Some y -> is_builtin (cap y) = true -> unclosed t.
Proof. intros H1 H2. apply unclosed_search. split; assumption. Qed.
Theorem C126_closing_refuted :
  (exists toks t y, tokenize (nl [$"set(x ""${CMAKE_BUILD_TYPE"")"]) = Ok toks /\ In t toks /\ unclosed t /\
     lint_file remarks_lcfg (nl [$"set(x ""${CMAKE_BUILD_TYPE"")"]) ctx0 = Ok y /\ w0106 y = [(loc3 (begin t), half_msg $"open" $"{CMAKE_BUILD_TYPE")]) /\
  (exists toks t, tokenize (nl [$"set(x ""$nothing ${CMAKE_BUILD_TYPE"")"]) = Ok toks /\ In t toks /\ unclosed t /\
     lint_file remarks_lcfg (nl [$"set(x ""$nothing ${CMAKE_BUILD_TYPE"")"]) ctx0 = Err AttrErr).
Proof.
  split.
  - eexists. exists (Tok QUOTED_LITERAL $"""${CMAKE_BUILD_TYPE""" (Loc 1 6 6)). eexists. split; [vm_compute; reflexivity|].
    split; [vm_compute; auto 6|]. split; [|split; vm_compute; reflexivity].
    eapply unclosed_lit; [left; reflexivity|vm_compute; reflexivity|vm_compute; reflexivity|vm_compute; reflexivity].
  - eexists. exists (Tok QUOTED_LITERAL $"""$nothing ${CMAKE_BUILD_TYPE""" (Loc 1 6 6)). split; [vm_compute; reflexivity|].
    split; [vm_compute; auto 6|]. split; [|vm_compute; reflexivity].
    eapply unclosed_lit; [left; reflexivity|vm_compute; reflexivity|vm_compute; reflexivity|vm_compute; reflexivity].
Qed.
Lemma opens_dec t : (exists w, opens t w) \/ forall w, ~ opens t w.
Proof.
  destruct (tmem (tt t) [QUOTED_LITERAL; UNQUOTED_LITERAL; BRACKET_ARGUMENT]) eqn:Et.
  2:{ right. intros w (s & h & nm & [Hi _] & _). apply tmem_literal in Hi. congruence. }
  destruct (mock_varrefs $"foo" (spelling t)) as [s| |] eqn:Es.
  2,3: right; intros w (s & h & nm & [_ E] & _); congruence.
  assert (half_text t s) as Ht by (split; [now apply tmem_literal|exact Es]).
  destruct (rsearch missing_prefix None s) as [y|] eqn:Ey; [destruct (is_builtin (tl (cap y))) eqn:Eb|].
  - left. exists (cap y). now apply (opens_search t s).
  - right. intros w O. destruct (opens_only t s w Ht O) as (y' & E1 & E2). rewrite Ey in E1. injection E1 as <-. congruence.
  - right. intros w O. destruct (opens_only t s w Ht O) as (y' & E1 & E2). congruence.
Qed.
(** when the loop ends, every unclosed reference has a half reference before it or is one *)
Lemma tokens_last t post : unclosed t -> (forall w, ~ opens t w) -> forall pre cat qs, check_tokens cat (pre ++ t :: post) = Ok qs -> exists w, last_open cat pre w.
Proof.
  intros U No. pose proof U as (s & nm & Ht & _). induction pre as [|x pre IH]; intros cat qs H; cbn [app check_tokens] in H.
  - pose proof Ht as [Hi Es]. apply tmem_literal in Hi. rewrite Hi, Es in H. cbn [negb bindr] in H.
    destruct (unclosed_only t s Ht U) as (y & Ey & Eb). rewrite Ey, Eb in H.
    assert (exists w, cat = Some w) as (w & E).
    { destruct cat as [w|]; [eauto|]. exfalso. destruct (rsearch missing_prefix None s) as [z|] eqn:Ez; [|discriminate]. destruct (is_builtin (tl (cap z))) eqn:Ec; [|discriminate].
      exact (No _ (opens_search t s z Ht Ez Ec)). }
    exists w. now apply last_open_nil.
  - assert (exists cat' qs', check_tokens cat' (pre ++ t :: post) = Ok qs' /\ ((exists w0, opens x w0 /\ cat' = Some w0) \/ ((forall w0, ~ opens x w0) /\ cat' = cat))) as (cat' & qs' & H' & D).
    { destruct (tmem (tt x) _) eqn:Et; cbn [negb] in H.
      2:{ exists cat, qs. split; [exact H|]. right. split; [|reflexivity]. intros w (s' & h & nm' & [Hi _] & _). apply tmem_literal in Hi. congruence. }
      apply bindr_ok in H as (s' & Es & H). assert (half_text x s') as Hx by (split; [now apply tmem_literal|exact Es]).
      assert (match rsearch missing_suffix None s' with
          | Some y => if is_builtin (cap y)
                      then match cat with
                           | None => Err AttrErr
                           | Some m => let? qs := check_tokens cat (pre ++ t :: post) in
                                       Ok (at_tok $"W0106" x [FS $"closing"; FS m] :: qs)
                           end
                      else check_tokens cat (pre ++ t :: post)
          | None => check_tokens cat (pre ++ t :: post) end = Ok qs -> exists qs', check_tokens cat (pre ++ t :: post) = Ok qs') as Suf.
      { intros K. destruct (rsearch missing_suffix None s') as [y|]; [destruct (is_builtin (cap y)); [destruct cat; [|discriminate]|]|]; eauto. apply bindr_ok in K as (q1 & K & _). eauto. }
      destruct (rsearch missing_prefix None s') as [y|] eqn:Ey; [destruct (is_builtin (tl (cap y))) eqn:Eb|].
      - pose proof (opens_search x s' y Hx Ey Eb) as O. destruct (seqb (cap y) _); [|apply bindr_ok in H as (q1 & H & _)]; (eexists; eexists; split; [exact H|left; eauto]).
      - destruct (Suf H) as (qs' & K). exists cat, qs'. split; [exact K|]. right. split; [|reflexivity].
        intros w O. destruct (opens_only x s' w Hx O) as (y' & E1 & E2). rewrite Ey in E1. injection E1 as <-. congruence.
      - destruct (Suf H) as (qs' & K). exists cat, qs'. split; [exact K|]. right. split; [|reflexivity].
        intros w O. destruct (opens_only x s' w Hx O) as (y' & E1 & E2). congruence. }
    destruct (IH _ _ H') as (w & L). exists w. destruct D as [(w0 & O & ->)|(NO & ->)]; [now apply (last_open_on cat x pre w0)|now apply last_open_off].
Qed.
(** What is left: in a run that ends, every literal with an unclosed reference to a builtin
    variable gets a report that some tag is missing, unless its first half reference is
    $ENV.  Missing: that the report names the closing tag and the reference itself. *)
Theorem C126_closing_partial : forall c tbl src y toks t, lint_file c src ctx0 = Ok y -> lc_plint c = plint (lc_ctx c) tbl -> ~ In $"W0106" (lc_disabled c) ->
  tokenize src = Ok toks -> In t toks -> unclosed t -> ~ opens t $"$ENV" ->
  exists tag w, In tag [$"open"; $"closing"] /\ In (LRec $"W0106" (loc3 (begin t)) (half_msg tag w)) (x_lint y).
Proof.
  intros c tbl src y toks t H HP Hd Ht Hi U He. destruct (C125_half_references _ _ _ _ H HP Hd) as (toks' & Ht' & G). rewrite Ht in Ht'. injection Ht' as <-.
  apply in_split in Hi as (pre & post & Es).
  destruct (opens_dec t) as [(w & O)|No].
  - exists $"open", w. split; [now left|]. apply G. exists pre, t, post. split; [exact Es|]. left. exists w. split; [exact O|]. split; [|reflexivity]. intros ->. now apply He.
  - apply file_in in H as (toks' & tree & qt & qv & Ht' & Hp & Hqt & _). rewrite Ht in Ht'. injection Ht' as <-. rewrite Es in Hqt.
    destruct (tokens_last t post U No pre None qt Hqt) as (w & [(p1 & u & p2 & Ep & O & Nx)|[F _]]); [|discriminate].
    exists $"closing", w. split; [right; now left|]. apply G. exists pre, t, post. split; [exact Es|]. right. exists w, p1, u, p2. auto 8.
Qed.
Example C126_ex : exists toks t y, tokenize half_sample = Ok toks /\ In t toks /\ unclosed t /\ ~ opens t $"$ENV" /\
  lint_file remarks_lcfg half_sample ctx0 = Ok y /\ lc_plint remarks_lcfg = plint (lc_ctx remarks_lcfg) nil /\ ~ In $"W0106" (lc_disabled remarks_lcfg).
Proof.
  eexists. exists (Tok QUOTED_LITERAL $"""$nothing ${CMAKE_C_FLAGS""" (Loc 4 6 96)). eexists. split; [vm_compute; reflexivity|]. split; [vm_compute; auto 40|].
  split; [eapply unclosed_lit; [left; reflexivity|vm_compute; reflexivity|vm_compute; reflexivity|vm_compute; reflexivity]|].
  split; [|split; [vm_compute; reflexivity|split; [reflexivity|intros []]]].
  intros O. assert (half_text (Tok QUOTED_LITERAL $"""$nothing ${CMAKE_C_FLAGS""" (Loc 4 6 96)) $"""$nothing ${CMAKE_C_FLAGS""") as Ht by (split; [now left|vm_compute; reflexivity]).
  destruct (opens_only _ _ _ Ht O) as (y & E1 & E2). vm_compute in E1. injection E1 as <-. vm_compute in E2. discriminate.
Qed.
