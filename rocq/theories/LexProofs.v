(** * LexProofs: lemmas about the lexer model *)
From Verif Require Import Base Regex Lex.

Lemma first_match_rel lx pv s t y :
  first_match lx pv s = Some (t, y) ->
  exists r, In (t, r) lx /\ rel r (St pv s nil) y.
Proof.
  induction lx as [|(t0, r0) lx IH]; simpl; [discriminate|].
  destruct (rmatch r0 pv s) eqn:E.
  - intros H; injection H as <- <-. exists r0. split; auto. now apply rmatch_sound.
  - intros H. destruct (IH H) as (r & HI & HR). eauto.
Qed.

Lemma first_match_some lx pv s t r z :
  In (t, r) lx -> rel r (St pv s nil) z -> first_match lx pv s <> None.
Proof.
  induction lx as [|(t0, r0) lx IH]; simpl; [tauto|].
  intros [H|H] HR.
  - injection H as -> ->. destruct (rmatch r pv s) eqn:E; [discriminate|].
    exfalso. revert E. unfold rmatch. eapply m_complete; eauto. discriminate.
  - destruct (rmatch r0 pv s) eqn:E; [discriminate|]. eauto.
Qed.

(** Every pattern consumes at least one character. *)
Lemma lexicon_nonempty t r : In (t, r) lexicon -> nonempty r = true.
Proof.
  intros H. unfold lexicon, lexicon1 in H. cbn [app] in H.
  repeat (destruct H as [H|H]; [injection H as <- <-; reflexivity|]). destruct H.
Qed.

(** Some pattern matches on every non-empty text. *)
Lemma lexicon_total pv c s : first_match lexicon pv (c :: s) <> None.
Proof.
  destruct (N.eqb c cLP) eqn:E1; [|destruct (N.eqb c cRP) eqn:E2].
  - eapply first_match_some with (t := LEFT_PAREN) (r := C cLP).
    + unfold lexicon; simpl; tauto.
    + constructor. now rewrite N.eqb_sym.
  - eapply first_match_some with (t := RIGHT_PAREN) (r := C cRP).
    + unfold lexicon; simpl; tauto.
    + constructor. now rewrite N.eqb_sym.
  - eapply first_match_some with (t := UNQUOTED_LITERAL).
    + unfold lexicon. apply in_or_app. right. left. reflexivity.
    + simpl. apply rl_altr, rl_altl. eapply rl_seq; [apply rl_star0|].
      constructor. unfold noneof, oneof; simpl. rewrite E2. reflexivity.
Qed.

Lemma scan_ok fuel : forall pv s, (List.length s <= fuel)%nat ->
  exists ts, scan fuel pv s = (ts, nil) /\
    List.concat (map snd ts) = s /\ Forall (fun p => snd p <> nil) ts.
Proof.
  induction fuel as [|f IH]; intros pv s Hl.
  - destruct s; simpl in Hl; [|lia]. exists nil. repeat split; constructor.
  - destruct s as [|c s].
    + exists nil. split; [|split; constructor].
      change (scan (S f) pv nil) with
        (match first_match lexicon pv nil with
         | None => (@nil (ttype * str), @nil chr)
         | Some (t, y) => match (0 - List.length (rest y))%nat with
              | O => (nil, nil)
              | S n => let '(ts, rem) := scan f (prev y) (rest y) in
                        ((t, firstn (S n) nil) :: ts, rem) end end).
      destruct (first_match lexicon pv nil) as [[t y]|]; reflexivity.
    + cbn [scan]. destruct (first_match lexicon pv (c :: s)) as [[t y]|] eqn:E.
      2:{ exfalso. eapply lexicon_total; eauto. }
      destruct (first_match_rel _ _ _ _ _ E) as (r & HI & HR).
      pose proof (rel_nonempty _ _ _ HR (lexicon_nonempty _ _ HI)) as HL. cbn [rest] in HL.
      destruct (rel_suffix _ _ _ HR) as (p & Hp & _). cbn [rest] in Hp.
      assert ((List.length (c :: s) - List.length (rest y))%nat = List.length p) as Hn.
      { rewrite Hp, app_length. lia. }
      rewrite Hn.
      destruct (IH (prev y) (rest y)) as (ts & Hs & Hc & Hf); [lia|].
      rewrite Hs.
      assert (List.length p <> 0)%nat.
      { rewrite Hp, app_length in HL. lia. }
      destruct (List.length p) as [|n] eqn:En; [congruence|].
      exists ((t, p) :: ts). repeat split.
      * rewrite Hp, <- En. rewrite firstn_app, Nat.sub_diag, firstn_all. simpl firstn.
        rewrite app_nil_r. reflexivity.
      * simpl. rewrite Hc. now rewrite Hp.
      * constructor; auto. simpl. intros ->. discriminate.
Qed.

(** Invariant of scanning: every token arises from a lexicon pattern applied at
    its position, with the true previous character. *)
Inductive scanned : option chr -> str -> list (ttype * str) -> Prop :=
| sc_nil pv : scanned pv nil nil
| sc_cons pv s t sp s' ts r y :
    first_match lexicon pv s = Some (t, y) -> In (t, r) lexicon ->
    rmatch r pv s = Some y -> rel r (St pv s nil) y ->
    s = sp ++ s' -> s' = rest y -> sp <> nil ->
    scanned (last_or pv sp) s' ts -> scanned pv s ((t, sp) :: ts).

Lemma first_match_rmatch lx pv s t y :
  first_match lx pv s = Some (t, y) -> exists r, In (t, r) lx /\ rmatch r pv s = Some y.
Proof.
  induction lx as [|(t0, r0) lx IH]; simpl; [discriminate|].
  destruct (rmatch r0 pv s) eqn:E.
  - intros H; injection H as <- <-. eauto.
  - intros H. destruct (IH H) as (r & HI & HR). eauto.
Qed.

Lemma scan_scanned fuel : forall pv s ts, (List.length s <= fuel)%nat ->
  scan fuel pv s = (ts, nil) -> scanned pv s ts.
Proof.
  induction fuel as [|f IH]; intros pv s ts Hl H.
  - destruct s; simpl in Hl; [|lia]. injection H as <-. constructor.
  - destruct s as [|c s].
    + destruct (scan_ok (S f) pv nil Hl) as (ts' & E & HC & HF). rewrite H in E. injection E as <-.
      destruct ts as [|[t0 s0] ts]; [constructor|]. exfalso.
      inversion HF; subst. simpl in *. destruct s0; simpl in *; congruence.
    + cbn [scan] in H. destruct (first_match lexicon pv (c :: s)) as [[t y]|] eqn:E; [|discriminate].
      destruct (first_match_rmatch _ _ _ _ _ E) as (r & HI & HM).
      pose proof (rmatch_sound _ _ _ _ HM) as HR.
      pose proof (rel_nonempty _ _ _ HR (lexicon_nonempty _ _ HI)) as HL. cbn [rest] in HL.
      destruct (rel_suffix _ _ _ HR) as (p & Hp & Hpv). cbn [rest prev] in Hp, Hpv.
      assert ((List.length (c :: s) - List.length (rest y))%nat = List.length p) as Hn.
      { rewrite Hp, app_length. lia. }
      rewrite Hn in H.
      destruct (scan f (prev y) (rest y)) as [ts' rem] eqn:Es.
      assert (List.length p <> 0)%nat as Hp0.
      { rewrite Hp, app_length in HL. lia. }
      assert (firstn (List.length p) (c :: s) = p) as Hfn.
      { rewrite Hp, firstn_app, Nat.sub_diag, firstn_all. simpl. apply app_nil_r. }
      destruct (List.length p) as [|n] eqn:En; [congruence|].
      rewrite Hfn in H. injection H as <- ->.
      econstructor; eauto.
      * intros ->. discriminate.
      * rewrite <- Hpv. apply IH; auto. simpl in *; lia.
Qed.

(** ** Greedy single-character repetition takes the longest run. *)
Lemma m_chr p x k : m (RChr p) x k =
  match rest x with
  | c :: s' => if p c then k (St (Some c) s' (cap x)) else None
  | nil => None
  end.
Proof. reflexivity. Qed.

Lemma star_chr_max p k : forall n x,
  (List.length (rest x) <= n)%nat ->
  (forall y, k y <> None) ->
  exists u, rest x = u ++ lstrip_by p (rest x) /\ forallb p u = true /\
  star_loop (m (RChr p)) k n x = k (St (last_or (prev x) u) (lstrip_by p (rest x)) (cap x)).
Proof.
  induction n as [|n IH]; intros [pv s cp] Hl Hk; cbn [rest prev cap] in *.
  - destruct s; [|simpl in Hl; lia]. exists nil. repeat split.
  - destruct s as [|c s].
    + exists nil. repeat split. 
    + simpl lstrip_by. cbn [star_loop]. rewrite m_chr. cbn [rest cap]. destruct (p c) eqn:E.
      * assert (Nat.ltb (List.length s) (List.length (c :: s)) = true) as ->.
        { apply Nat.ltb_lt. simpl. lia. }
        destruct (IH (St (Some c) s cp)) as (u & Hu & Hf & He); auto.
        { cbn [rest]. simpl in Hl. lia. }
        cbn [rest prev cap] in *. rewrite He.
        exists (c :: u). repeat split.
        -- simpl. now rewrite <- Hu.
        -- simpl. now rewrite E, Hf.
        -- match goal with |- context [k ?q] => destruct (k q) eqn:Ek; [|exfalso; eapply Hk; eauto] end.
           symmetry. exact Ek.
      * exists nil. repeat split.
Qed.

(** locate is correct: positions are functions of the text before the token. *)
Definition line_of (p : str) : Z := 1 + count_chr cNL p.
Definition col_of (p : str) : Z := zlen (last (split_on cNL p) nil).

Lemma split_on_app_last c a b :
  ~ In c b -> last (split_on c (a ++ b)) nil = last (split_on c a) nil ++ b.
Proof.
  intros Hb. induction a as [|x a IH]; simpl.
  - assert (split_on c b = [b]) as ->; auto.
    induction b as [|y b IHb]; simpl; auto. rewrite IHb.
    + destruct (N.eqb y c) eqn:E; auto. apply N.eqb_eq in E. subst. exfalso. apply Hb. now left.
    + intros H. apply Hb. now right.
  - destruct (split_on c (a ++ b)) as [|l ls] eqn:E; [now apply split_on_nonempty in E|].
    destruct (split_on c a) as [|l' ls'] eqn:E'; [now apply split_on_nonempty in E'|].
    assert (length ls = length ls') as Hlen.
    { clear IH. revert l ls l' ls' E E'. induction a as [|z a IHa]; simpl; intros.
      - assert (split_on c b = [b]) as Hs.
        { clear -Hb. induction b as [|y b IHb]; simpl; auto. rewrite IHb.
          - destruct (N.eqb y c) eqn:E; auto. apply N.eqb_eq in E. subst. exfalso. apply Hb. now left.
          - intros H. apply Hb. now right. }
        rewrite Hs in E. congruence.
      - destruct (split_on c (a ++ b)) as [|m1 ms1] eqn:F; [now apply split_on_nonempty in F|].
        destruct (split_on c a) as [|m2 ms2] eqn:F'; [now apply split_on_nonempty in F'|].
        specialize (IHa _ _ _ _ eq_refl eq_refl).
        destruct (N.eqb z c); injection E as <- <-; injection E' as <- <-; simpl; auto. }
    destruct (N.eqb x c).
    + exact IH.
    + destruct ls, ls'; simpl in *; try discriminate; auto. now rewrite IH.
Qed.

Lemma split_on_app_last2 c a b :
  In c b -> last (split_on c (a ++ b)) nil = last (split_on c b) nil.
Proof.
  intros Hb. induction a as [|x a IH]; simpl; auto.
  destruct (split_on c (a ++ b)) as [|l ls] eqn:E; [now apply split_on_nonempty in E|].
  destruct (N.eqb x c); auto.
  destruct ls; auto. exfalso. clear IH.
  revert l E. induction a as [|z a IHa]; simpl; intros l E.
  - revert l E. induction b as [|y b IHb]; simpl in *; [tauto|]. intros l E.
    destruct (split_on c b) as [|m ms] eqn:F; [now apply split_on_nonempty in F|].
    destruct (N.eqb y c) eqn:G; [congruence|]. apply N.eqb_neq in G.
    destruct Hb as [->|Hb]; [congruence|]. injection E as <- ->. eapply IHb; eauto.
  - destruct (split_on c (a ++ b)) as [|m ms] eqn:F; [now apply split_on_nonempty in F|].
    destruct (N.eqb z c); [congruence|]. injection E as <- ->. eapply IHa; eauto.
Qed.

Lemma count_chr_zero c s : count_chr c s = 0 <-> ~ In c s.
Proof.
  unfold count_chr. split.
  - intros H HI. apply zlen_zero_nil in H.
    assert (In c (filter (N.eqb c) s)) as F by (apply filter_In; split; auto; apply N.eqb_refl).
    rewrite H in F. destruct F.
  - intros H. induction s as [|x s IH]; simpl; auto.
    destruct (N.eqb c x) eqn:E.
    + apply N.eqb_eq in E. subst. exfalso. apply H. now left.
    + apply IH. intros HI. apply H. now right.
Qed.

Lemma count_chr_app c a b : count_chr c (a ++ b) = count_chr c a + count_chr c b.
Proof. unfold count_chr. rewrite filter_app, zlen_app. reflexivity. Qed.

Lemma after_last_nl_spec s : In cNL s -> after_last_nl s = last (split_on cNL s) nil.
Proof.
  induction s as [|x s IH]; simpl; [tauto|]. intros H.
  destruct (existsb (N.eqb cNL) s) eqn:E.
  - apply existsb_exists in E as (z & Hz & E). apply N.eqb_eq in E. subst z.
    rewrite IH; auto.
    pose proof (split_on_app_last2 cNL [x] s Hz) as G. simpl in G. now rewrite G.
  - assert (~ In cNL s) as Hn.
    { intros HI. assert (existsb (N.eqb cNL) s = true); [|congruence].
      apply existsb_exists. exists cNL. split; auto. }
    assert (split_on cNL s = [s]) as ->.
    { clear -Hn. induction s as [|y s IHs]; simpl; auto. rewrite IHs.
      - destruct (N.eqb y cNL) eqn:E; auto. apply N.eqb_eq in E. subst. exfalso. apply Hn. now left.
      - intros H. apply Hn. now right. }
    destruct H as [->|H]; [|tauto]. rewrite N.eqb_refl. reflexivity.
Qed.

Lemma locate_spec ts : forall p,
  forall pre t post, locate (line_of p) (col_of p) (bytelen p) ts = pre ++ t :: post ->
  let q := p ++ List.concat (map spelling pre) in
  begin t = Loc (line_of q) (col_of q) (bytelen q).
Proof.
  induction ts as [|(ty, sp) ts IH]; intros p pre t post H; simpl in H.
  - destruct pre; discriminate.
  - destruct pre as [|t0 pre].
    + simpl in H. injection H as <- _. simpl. rewrite app_nil_r. reflexivity.
    + simpl in H. injection H as <- H. simpl.
      rewrite app_assoc. apply (IH (p ++ sp) pre t post).
      rewrite <- H. unfold line_of at 1. rewrite count_chr_app, bytelen_app.
      unfold line_of. f_equal; [lia|].
      destruct (count_chr cNL sp =? 0) eqn:E.
      * apply Z.eqb_eq in E. apply count_chr_zero in E.
        unfold col_of. rewrite split_on_app_last by auto. now rewrite zlen_app.
      * apply Z.eqb_neq in E. unfold col_of.
        assert (In cNL sp) as HI.
        { destruct (in_dec N.eq_dec cNL sp) as [|n]; auto. apply count_chr_zero in n. contradiction. }
        rewrite split_on_app_last2 by auto. now rewrite after_last_nl_spec.
Qed.

Lemma locate_spelling l c o ts : map (fun t => (tt t, spelling t)) (locate l c o ts) = ts.
Proof. revert l c o; induction ts as [|(t, s) ts IH]; intros; simpl; auto. now rewrite IH. Qed.
Lemma locate_concat l c o ts : List.concat (map spelling (locate l c o ts)) = List.concat (map snd ts).
Proof. revert l c o; induction ts as [|(t, s) ts IH]; intros; simpl; auto. now rewrite IH. Qed.

(** Text after an optional byte-order mark. *)
Definition strip_bom (s : str) : str :=
  match s with c :: s' => if N.eqb c cBOM then s' else s | nil => nil end.
Definition bom_prefix (s : str) : list token :=
  match s with c :: _ => if N.eqb c cBOM then [bom_token] else nil | nil => nil end.

Lemma tokenize_eq s : exists ts,
  tokenize s = Ok (bom_prefix s ++ locate 1 0 0 ts) /\ scanned None (strip_bom s) ts
  /\ List.concat (map snd ts) = strip_bom s /\ Forall (fun p => snd p <> nil) ts.
Proof.
  unfold tokenize, bom_prefix, strip_bom. destruct s as [|c s'].
  - destruct (scan_ok (List.length (@nil chr)) None nil) as (ts & E & Hc & Hf); [lia|].
    exists ts. rewrite E. split; [reflexivity|]. split; auto. eapply scan_scanned; eauto.
  - destruct (N.eqb c cBOM).
    + destruct (scan_ok (List.length s') None s') as (ts & E & Hc & Hf); [lia|].
      exists ts. rewrite E. split; [reflexivity|]. split; auto. eapply scan_scanned; eauto.
    + destruct (scan_ok (List.length (c :: s')) None (c :: s')) as (ts & E & Hc & Hf); [lia|].
      exists ts. rewrite E. split; [reflexivity|]. split; auto. eapply scan_scanned; eauto.
Qed.
