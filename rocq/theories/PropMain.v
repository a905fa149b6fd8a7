(** * PropMain: properties C19-C24 of the driver *)
From Verif Require Import Base Config PropConfig MainLoop.

(** ** Vocabulary *)
(** the configuration in force for a path, and the dictionary left *)
Definition configured (e : env) (p : str) (kw : dict val) (c : config) (kw' : dict val) : Prop :=
  exists d c0, cfg_dict e p = Ok d /\ new_configuration d = Ok c0 /\ legacy_consume c0 kw = Ok (c, kw').
(** the text read for a path *)
Definition reads (e : env) (w : fs) (c : config) (p t : str) : Prop :=
  if seqb p dash then stdin_text e = Ok t
  else exists m, w p = Some (t, m) /\ decodes e c t = true.
(** formatting succeeds with an acceptable layout *)
Definition formats (e : env) (c : config) (t out : str) : Prop :=
  exists valid, fmt e c t = Ok (out, valid) /\
    (flag c ($"require_valid_layout") = true -> valid = true).

(** Everything onefile can do. *)
Lemma onefile_cases e a w p kw l r kw' : onefile e a w p kw = (l, r, kw') ->
  (l = nil /\ (forall x, r <> Ok x) /\
     (forall c kw1 t out, configured e p kw c kw1 -> flag c ($"disable") = false -> reads e w c p t ->
        formats e c t out -> r = Err FormatErr /\ check a = true /\ seqb t out = false) /\
     (forall c kw1, configured e p kw c kw1 -> flag c ($"disable") = false /\ kw1 = kw'))
  \/ (exists c, configured e p kw c kw' /\ flag c ($"disable") = true /\ l = nil /\ r = Ok tt)
  \/ (exists c t out, configured e p kw c kw' /\ flag c ($"disable") = false /\ reads e w c p t /\
        formats e c t out /\
        ((check a = true /\ l = nil /\ r = Ok tt /\ t = out)
        \/ (check a = false /\ in_place a = true /\ l = nil /\ r = Ok tt /\ t = out)
        \/ (check a = false /\ in_place a = true /\ t <> out /\
             ((l = [STrunc (temp_of p)] /\ r = Err UnicodeErr) \/
              (w p = None /\ l = STrunc (temp_of p) :: write_text (temp_of p) out /\ r = Err OSErr) \/
              (exists t0 m, w p = Some (t0, m) /\
                 l = STrunc (temp_of p) :: write_text (temp_of p) out ++ [SChmod (temp_of p) m; SRename (temp_of p) p]
                 /\ r = Ok tt)))
        \/ (check a = false /\ in_place a = false /\
             ((outfile_path a = dash /\ ((l = nil /\ r = Err UnicodeErr) \/ (l = map SStdout out /\ r = Ok tt)))
             \/ (outfile_path a <> dash /\
                 ((l = [STrunc (outfile_path a)] /\ r = Err UnicodeErr) \/
                  (l = STrunc (outfile_path a) :: write_text (outfile_path a) out /\ r = Ok tt))))))).
Proof.
  unfold onefile. intros H.
  destruct (cfg_dict e p) as [d|x|] eqn:E1.
  2,3: injection H as <- <- <-; left; split; [reflexivity|]; split; [discriminate|];
       split; [intros c kw1 t out (d & c0 & A & _) | intros c kw1 (d & c0 & A & _)]; congruence.
  destruct (new_configuration d) as [c0|x|] eqn:E2.
  2,3: injection H as <- <- <-; left; split; [reflexivity|]; split; [discriminate|];
       split; [intros c kw1 t out (d' & c0 & A & B & _) | intros c kw1 (d' & c0 & A & B & _)]; congruence.
  destruct (legacy_consume c0 kw) as [[c kw1]|x|] eqn:E3.
  2,3: injection H as <- <- <-; left; split; [reflexivity|]; split; [discriminate|];
       split; [intros c kw1 t out (d' & c0' & A & B & D) | intros c kw1 (d' & c0' & A & B & D)]; congruence.
  assert (configured e p kw c kw1) as HC by (exists d, c0; auto).
  assert (forall c' kw2, configured e p kw c' kw2 -> c' = c /\ kw2 = kw1) as HU.
  { intros c' kw2 (d' & c0' & A & B & D). split; congruence. }
  destruct (flag c ($"disable")) eqn:E4.
  { injection H as <- <- <-. right. left. exists c. auto. }
  set (inp := if seqb p dash then stdin_text e else _) in H.
  assert (forall t, reads e w c p t <-> inp = Ok t) as HR.
  { intros t. unfold reads, inp. destruct (seqb p dash); [reflexivity|].
    destruct (w p) as [[t0 m0]|]; split.
    - intros (m & A & B). injection A as -> ->. now rewrite B.
    - destruct (decodes e c t0) eqn:ED; [|discriminate]. intros A. injection A as ->. eauto.
    - intros (m & A & B). discriminate.
    - discriminate. }
  destruct inp as [t|x|] eqn:E5.
  2,3: injection H as <- <- <-; left; split; [reflexivity|]; split; [discriminate|];
       split; [intros c' kw2 t out A B D; apply HU in A as [-> ->]; apply HR in D; discriminate
              | intros c' kw2 A; apply HU in A as [-> ->]; auto].
  assert (reads e w c p t) as HRt by (now apply HR).
  destruct (fmt e c t) as [[out valid]|x|] eqn:E6.
  2,3: injection H as <- <- <-; left; split; [reflexivity|]; split; [discriminate|];
       split; [intros c' kw2 t' out A B D (v & F & _); apply HU in A as [-> ->]; apply HR in D; injection D as <-; congruence
              | intros c' kw2 A; apply HU in A as [-> ->]; auto].
  destruct (flag c ($"require_valid_layout") && negb valid) eqn:E7.
  { apply andb_prop in E7 as [E7 E8]. injection H as <- <- <-. left. split; [reflexivity|]. split; [discriminate|].
    split; [intros c' kw2 t' out' A B D (v & F & G); apply HU in A as [-> ->]; apply HR in D; injection D as <-
           | intros c' kw2 A; apply HU in A as [-> ->]; auto].
    rewrite E6 in F. injection F as <- <-. rewrite (G E7) in E8. discriminate. }
  assert (formats e c t out) as HF.
  { exists valid. split; auto. intros X. rewrite X in E7. simpl in E7. now apply negb_false_iff in E7. }
  destruct (check a) eqn:E8.
  { destruct (seqb t out) eqn:E9.
    - injection H as <- <- <-. apply seqb_eq in E9. right. right. exists c, t, out. repeat (split; auto).
    - injection H as <- <- <-. left. split; [reflexivity|]. split; [discriminate|].
      split; [intros c' kw2 t' out' A B D (v & F & G); apply HU in A as [-> ->]; apply HR in D; injection D as <-
           | intros c' kw2 A; apply HU in A as [-> ->]; auto].
      rewrite E6 in F. injection F as <- <-. auto. }
  right. right.
  destruct (in_place a) eqn:E9.
  { destruct (seqb t out) eqn:E10.
    - injection H as <- <- <-. apply seqb_eq in E10. exists c, t, out. repeat (split; auto). right. left. auto.
    - apply seqb_neq in E10. destruct (encodes e c out); cbn [negb] in H.
      + destruct (w p) as [[t0 m]|] eqn:E11; injection H as <- <- <-; exists c, t, out; repeat (split; auto);
          right; right; left; repeat (split; auto).
        right. right. exists t0, m. auto.
      + injection H as <- <- <-. exists c, t, out. repeat (split; auto). right. right. left. repeat (split; auto). }
  destruct (seqb (outfile_path a) dash) eqn:E10; destruct (encodes e c out); cbn [negb] in H;
    injection H as <- <- <-; exists c, t, out; repeat (split; auto); right; right; right; repeat (split; auto);
    (apply seqb_eq in E10 || apply seqb_neq in E10); auto.
Qed.

(** ** C19 *)
Inductive check_passes (e : env) (w : fs) : dict val -> list str -> Prop :=
| cp_nil kw : check_passes e w kw nil
| cp_disabled kw kw' c p ps : configured e p kw c kw' -> flag c ($"disable") = true ->
    check_passes e w kw' ps -> check_passes e w kw (p :: ps)
| cp_same kw kw' c t p ps : configured e p kw c kw' -> flag c ($"disable") = false ->
    reads e w c p t -> formats e c t t ->
    check_passes e w kw' ps -> check_passes e w kw (p :: ps).

Lemma configured_det e p kw c kw1 c' kw2 :
  configured e p kw c kw1 -> configured e p kw c' kw2 -> c' = c /\ kw2 = kw1.
Proof. intros (d & c0 & A & B & D) (d' & c0' & A' & B' & D'). split; congruence. Qed.
Lemma reads_det e w c p t t' : reads e w c p t -> reads e w c p t' -> t = t'.
Proof. unfold reads. destruct (seqb p dash); [congruence|]. intros (m & A & _) (m' & A' & _). congruence. Qed.
Lemma formats_det e c t o o' : formats e c t o -> formats e c t o' -> o = o'.
Proof. intros (v & A & _) (v' & A' & _). congruence. Qed.

Lemma run_rc e a : forall ps w kw l x, run_files e a w ps kw 1 = (l, x) -> status x <> Some 0.
Proof.
  induction ps as [|p ps IH]; intros w kw l x H; cbn [run_files] in H.
  - injection H as <- <-. discriminate.
  - destruct (onefile e a w p kw) as [[l1 r] kw'].
    destruct r as [u|y|].
    + destruct (run_files e a (do_steps w l1) ps kw' 1) as [l2 x2] eqn:E. injection H as <- <-. eapply IH; eauto.
    + destruct y; try (injection H as <- <-; discriminate).
      destruct (run_files e a (do_steps w l1) ps kw' 1) as [l2 x2] eqn:E. injection H as <- <-. eapply IH; eauto.
    + injection H as <- <-. discriminate.
Qed.

Lemma check_run e a w : check a = true -> forall ps kw l x, run_files e a w ps kw 0 = (l, x) ->
  l = nil /\ (status x = Some 0 <-> check_passes e w kw ps).
Proof.
  intros Hck. 
  assert (forall p kw l r kw', onefile e a w p kw = (l, r, kw') -> l = nil) as Hnil.
  { intros p kw l r kw' E. destruct (onefile_cases _ _ _ _ _ _ _ _ E) as [(-> & _)|[(c & _ & _ & -> & _)|(c & t & out & _ & _ & _ & _ & H)]]; auto.
    destruct H as [(_ & -> & _)|[(H & _)|[(H & _)|(H & _)]]]; auto; congruence. }
  assert (forall ps kw rc l x, run_files e a w ps kw rc = (l, x) -> l = nil) as Hnil2.
  { induction ps as [|p ps IH]; intros kw rc l x H; cbn [run_files] in H.
    - congruence.
    - destruct (onefile e a w p kw) as [[l1 r] kw'] eqn:E. apply Hnil in E. subst l1. cbn in H.
      destruct r as [u|y|].
      + destruct (run_files e a w ps kw' rc) as [l2 x2] eqn:E2. injection H as <- <-. eapply IH; eauto.
      + destruct y; try congruence. destruct (run_files e a w ps kw' 1) as [l2 x2] eqn:E2. injection H as <- <-. eapply IH; eauto.
      + congruence. }
  intros ps kw l x H. split; [eapply Hnil2; eauto|].
  revert kw l x H. induction ps as [|p ps IH]; intros kw l x H; cbn [run_files] in H.
  - injection H as <- <-. split; [constructor|reflexivity].
  - destruct (onefile e a w p kw) as [[l1 r] kw'] eqn:E.
    pose proof (Hnil _ _ _ _ _ E) as ->. cbn in H.
    destruct (onefile_cases _ _ _ _ _ _ _ _ E) as [(_ & Hr & Hbad & Hdis)|[(c & Hc & Hd & _ & Hr)|(c & t & out & Hc & Hd & Ht & Hf & Hcase)]].
    + assert (status x <> Some 0) as Hx.
      { destruct r as [u|y|].
        - exfalso. apply (Hr u). reflexivity.
        - destruct y; try (injection H as <- <-; discriminate).
          destruct (run_files e a w ps kw' 1) as [l2 x2] eqn:E2. injection H as <- <-. eapply run_rc; eauto.
        - injection H as <- <-. discriminate. }
      split; [contradiction|]. intros HP. exfalso. inversion HP as [|? ? c ? ? A B|? ? c t ? ? A B D F]; subst.
      * destruct (Hdis _ _ A) as [X _]. congruence.
      * destruct (Hbad _ _ _ _ A B D F) as (_ & _ & X). rewrite seqb_refl in X. discriminate.
    + subst r. destruct (run_files e a w ps kw' 0) as [l2 x2] eqn:E2. injection H as <- <-.
      rewrite (IH _ _ _ E2). split; intros HP.
      * eapply cp_disabled; eauto.
      * inversion HP as [|? ? c' ? ? A B D|? ? c' t ? ? A B D F G]; subst;
          destruct (configured_det _ _ _ _ _ _ _ Hc A) as [-> ->]; auto.
    + destruct Hcase as [(_ & _ & -> & ->)|[(X & _)|[(X & _)|(X & _)]]]; [|congruence|congruence|congruence].
      destruct (run_files e a w ps kw' 0) as [l2 x2] eqn:E2. injection H as <- <-.
      rewrite (IH _ _ _ E2). split; intros HP.
      * eapply cp_same; eauto.
      * inversion HP as [|? ? c' ? ? A B D|? ? c' t' ? ? A B D F G]; subst;
          destruct (configured_det _ _ _ _ _ _ _ Hc A) as [-> ->]; auto.
Qed.

(** --check has no effect at all; it exits 0 exactly when every file is disabled or
    formats to itself (under the configuration the run uses for it). *)
Theorem C19_check_mode e a w paths cmdline : check a = true ->
  let (l, x) := run_main e a w paths cmdline in
  l = nil /\ (status x = Some 0 <-> check_passes e w (get_argdict cmdline) paths) /\
  (status x = Some 0 \/ status x = Some 1 \/ x = Hang).
Proof.
  intros Hc. unfold run_main. destruct (run_files e a w paths (get_argdict cmdline) 0) as [l x] eqn:E.
  destruct (check_run e a w Hc _ _ _ _ E) as [A B]. split; [|split]; auto.
  assert (forall ps w kw rc l x, rc = 0 \/ rc = 1 -> run_files e a w ps kw rc = (l, x) ->
    status x = Some 0 \/ status x = Some 1 \/ x = Hang) as G.
  { clear. induction ps as [|p ps IH]; intros w kw rc l x Hrc H; cbn [run_files] in H.
    - injection H as <- <-. destruct Hrc as [->| ->]; auto.
    - destruct (onefile e a w p kw) as [[l1 r] kw']. destruct r as [u|y|].
      + destruct (run_files e a (do_steps w l1) ps kw' rc) eqn:E. injection H as <- <-. eapply IH; eauto.
      + destruct y; try (injection H as <- <-; auto).
        destruct (run_files e a (do_steps w l1) ps kw' 1) eqn:E. injection H as <- <-. eapply IH; [|eauto]. auto.
      + injection H as <- <-. auto. }
  apply (G paths w (get_argdict cmdline) 0 l x); auto.
Qed.

(** A small world for the examples: two files, upper-casing formatter. *)
Definition w0 : fs := upd (upd (fun _ => None) ($"a") (Some ($"X", 420))) ($"b") (Some ($"x", 384)).
Definition e0 : env := Env (fun _ => Ok nil) (Ok nil) (fun _ _ => true) (fun _ _ => true)
                           (fun _ t => Ok (upper t, true)).
Example C19_ex :
  run_main e0 (Args true false dash) w0 [$"a"] nil = (nil, Exit 0) /\
  run_main e0 (Args true false dash) w0 [$"b"; $"a"] nil = (nil, Exit 1).
Proof. split; reflexivity. Qed.

(** ** C20 *)
Theorem C20_in_place_unchanged e a w p kw c kw1 t : check a = false -> in_place a = true ->
  configured e p kw c kw1 -> reads e w c p t -> formats e c t t ->
  onefile e a w p kw = (nil, Ok tt, kw1).
Proof.
  intros Hck Hip HC HR HF. destruct (onefile e a w p kw) as [[l r] kw'] eqn:E.
  destruct (onefile_cases _ _ _ _ _ _ _ _ E) as [(-> & Hr & Hbad & Hdis)|[(c' & Hc & Hd & -> & ->)|(c' & t' & out & Hc & Hd & Ht & Hf & Hcase)]].
  - destruct (Hdis _ _ HC) as [Hd ->]. destruct (Hbad _ _ _ _ HC Hd HR HF) as (_ & X & _). congruence.
  - destruct (configured_det _ _ _ _ _ _ _ HC Hc) as [-> ->]. reflexivity.
  - destruct (configured_det _ _ _ _ _ _ _ HC Hc) as [-> ->].
    pose proof (reads_det _ _ _ _ _ _ HR Ht). subst t'. pose proof (formats_det _ _ _ _ _ HF Hf). subst out.
    destruct Hcase as [(X & _)|[(_ & _ & -> & -> & _)|[(_ & _ & X & _)|(_ & X & _)]]]; congruence.
Qed.
Example C20_ex : onefile e0 (Args false true dash) w0 ($"a") nil = (nil, Ok tt, nil) /\
  fst (fst (onefile e0 (Args false true dash) w0 ($"b") nil)) <> nil.
Proof. split; [reflexivity|discriminate]. Qed.

(** ** C21 *)
(** [versions e t t']: t' is t, or a complete result of formatting a version. *)
Inductive versions (e : env) (t : str) : str -> Prop :=
| v_same : versions e t t
| v_fmt c u o : versions e t u -> formats e c u o -> versions e t o.
Lemma versions_trans e t u v : versions e t u -> versions e u v -> versions e t v.
Proof. intros H1 H2. induction H2; auto. eapply v_fmt; eauto. Qed.

Lemma upd_other w p f q : q <> p -> upd w p f q = w q.
Proof. intros H. unfold upd. apply seqb_neq in H. now rewrite H. Qed.
Lemma upd_same w p f : upd w p f p = f.
Proof. unfold upd. now rewrite seqb_refl. Qed.
Lemma appends p s : forall w q, q <> p -> do_steps w (write_text p s) q = w q.
Proof.
  induction s as [|c s IH]; intros w q H; [reflexivity|].
  change (do_steps w (write_text p (c :: s))) with (do_steps (do_step w (SAppend p c)) (write_text p s)). rewrite IH by auto. cbn.
  destruct (w p) as [[t m]|]; auto. now apply upd_other.
Qed.
Lemma appends_same p s : forall w t m, w p = Some (t, m) -> do_steps w (write_text p s) p = Some (t ++ s, m).
Proof.
  induction s as [|c s IH]; intros w t m H.
  - cbn. now rewrite app_nil_r.
  - change (do_steps w (write_text p (c :: s))) with (do_steps (do_step w (SAppend p c)) (write_text p s)).
    rewrite (IH _ (t ++ [c]) m); [now rewrite <- app_assoc|]. cbn. rewrite H. apply upd_same.
Qed.
Lemma temp_neq p : temp_of p <> p.
Proof.
  intros H. apply (f_equal (@length _)) in H. unfold temp_of in H. rewrite app_length in H. simpl in H. lia.
Qed.

Definition safe (e : env) (p : str) (w w' : fs) : Prop :=
  match w p with
  | Some (t, m) => exists t', w' p = Some (t', m) /\ versions e t t'
  | None => w' p = None
  end.
Lemma safe_refl e p w : safe e p w w.
Proof. unfold safe. destruct (w p) as [[t m]|]; auto. exists t. split; auto. constructor. Qed.
Lemma safe_trans e p w1 w2 w3 : safe e p w1 w2 -> safe e p w2 w3 -> safe e p w1 w3.
Proof.
  unfold safe. destruct (w1 p) as [[t m]|].
  - intros (t' & E & V). rewrite E. intros (t2 & E2 & V2). exists t2. split; auto. eapply versions_trans; eauto.
  - intros E. rewrite E. auto.
Qed.
Lemma safe_eq e p w w' : w' p = w p -> safe e p w w'.
Proof. unfold safe. intros ->. destruct (w p) as [[t m]|]; auto. exists t. split; auto. constructor. Qed.

Lemma do_steps_app w a b : do_steps w (a ++ b) = do_steps (do_steps w a) b.
Proof. apply fold_left_app. Qed.
Lemma do_steps_cons w s l : do_steps w (s :: l) = do_steps (do_step w s) l.
Proof. reflexivity. Qed.
Definition untouched_by (q : str) (s : step) : Prop :=
  match s with STrunc p | SAppend p _ | SChmod p _ => p <> q | SRename a b => a <> q /\ b <> q | SStdout _ => True end.
Lemma do_steps_untouched q l : Forall (untouched_by q) l -> forall w, do_steps w l q = w q.
Proof.
  induction 1 as [|s l Hs HF IH]; intros w; [reflexivity|].
  change (do_steps w (s :: l)) with (do_steps (do_step w s) l). rewrite IH.
  destruct s; cbn in *; auto.
  - apply upd_other. congruence.
  - destruct (w p) as [[t m]|]; auto. apply upd_other. congruence.
  - destruct (w p) as [[t m]|]; auto. apply upd_other. congruence.
  - destruct (w p) as [f|]; auto. destruct Hs. rewrite !upd_other by congruence. reflexivity.
Qed.
Lemma forall_prefix {A} (P : A -> Prop) l1 l2 : Forall P (l1 ++ l2) -> Forall P l1.
Proof. intros H. now apply Forall_app in H. Qed.
Lemma write_untouched q p s : p <> q -> Forall (untouched_by q) (write_text p s).
Proof. intros H. unfold write_text. apply Forall_forall. intros x Hx. apply in_map_iff in Hx as (c & <- & _). exact H. Qed.

Lemma prefix_snoc {A} (l : list A) a l1 l2 : l ++ [a] = l1 ++ l2 ->
  (l1 = l ++ [a] /\ l2 = nil) \/ exists l3, l = l1 ++ l3.
Proof.
  intros H. destruct l2 as [|b l2 _] using rev_ind.
  - left. rewrite app_nil_r in H. auto.
  - right. rewrite app_assoc in H. apply app_inj_tail in H as [H _]. eauto.
Qed.

Lemma in_place_safe e a w p kw l r kw' : check a = false -> in_place a = true -> p <> dash ->
  onefile e a w p kw = (l, r, kw') ->
  forall l1 l2 q, l = l1 ++ l2 -> q <> temp_of p -> safe e q w (do_steps w l1).
Proof.
  intros Hck Hip Hdash E l1 l2 q Hl Hq.
  destruct (onefile_cases _ _ _ _ _ _ _ _ E) as [(-> & _)|[(c & _ & _ & -> & _)|(c & t & out & Hc & Hd & Ht & Hf & H)]].
  1,2: symmetry in Hl; apply app_eq_nil in Hl as [-> _]; apply safe_refl.
  destruct H as [(H & _)|[(_ & _ & -> & _)|[(_ & _ & Hne & H)|(_ & H & _)]]]; try congruence.
  { symmetry in Hl; apply app_eq_nil in Hl as [-> _]; apply safe_refl. }
  destruct H as [(-> & _)|[(_ & -> & _)|(t0 & m & Hw & -> & _)]].
  - apply safe_eq. apply do_steps_untouched. apply (forall_prefix _ _ l2). rewrite <- Hl. repeat constructor. cbn. congruence.
  - apply safe_eq. apply do_steps_untouched. apply (forall_prefix _ _ l2). rewrite <- Hl. constructor; [cbn; congruence|].
    apply write_untouched. congruence.
  - set (tmp := temp_of p) in *.
    assert (STrunc tmp :: write_text tmp out ++ [SChmod tmp m; SRename tmp p] =
            (STrunc tmp :: write_text tmp out ++ [SChmod tmp m]) ++ [SRename tmp p]) as Hsn.
    { cbn [app]. now rewrite <- app_assoc. }
    rewrite Hsn in Hl. apply prefix_snoc in Hl as [[-> _]|[l3 Hl]].
    + rewrite do_steps_app.
      assert (exists w1, do_steps w (STrunc tmp :: write_text tmp out ++ [SChmod tmp m]) = w1 /\
         w1 tmp = Some (out, m) /\ forall q', q' <> tmp -> w1 q' = w q') as (w1 & -> & W1 & W2).
      { eexists. split; [reflexivity|]. split.
        - rewrite do_steps_cons, do_steps_app. set (w2 := do_steps _ (write_text tmp out)).
          assert (exists m2, w2 tmp = Some (out, m2)) as [m2 W2].
          { exists (match w tmp with Some (_, m0) => m0 | None => default_mode end).
            apply (appends_same tmp out _ nil). apply upd_same. }
          cbn. rewrite W2. apply upd_same.
        - intros q' Hq'. apply do_steps_untouched. constructor; [cbn; congruence|]. apply Forall_app. split.
          + apply write_untouched. congruence.
          + repeat constructor. cbn. congruence. }
      rewrite do_steps_cons. cbn [do_step]. rewrite W1. change (do_steps ?x nil) with x. unfold safe. destruct (seqb q p) eqn:Eq.
      * apply seqb_eq in Eq. subst q. rewrite Hw. exists out. split.
        { rewrite upd_other by congruence. apply upd_same. }
        apply (v_fmt e t0 c t0 out); [constructor|].
        unfold reads in Ht. apply seqb_neq in Hdash. rewrite Hdash in Ht. destruct Ht as (m' & Ht & _).
        rewrite Hw in Ht. injection Ht as -> _. exact Hf.
      * apply seqb_neq in Eq. rewrite !upd_other by auto. rewrite W2 by auto.
        destruct (w q) as [[tq mq]|]; auto. exists tq. split; auto. constructor.
    + apply safe_eq. apply do_steps_untouched. apply (forall_prefix _ _ l3). rewrite <- Hl.
      constructor; [cbn; congruence|]. apply Forall_app. split.
      * apply write_untouched. congruence.
      * repeat constructor. cbn. congruence.
Qed.

Lemma app_split {A} (a b l1 l2 : list A) : a ++ b = l1 ++ l2 ->
  (exists x, a = l1 ++ x) \/ (exists x, l1 = a ++ x /\ b = x ++ l2).
Proof.
  revert l1. induction a as [|y a IH]; intros l1 H.
  - right. exists l1. auto.
  - destruct l1 as [|z l1]; [left; eexists; reflexivity|]. cbn in H. injection H as -> H.
    apply IH in H as [[x ->]|[x [-> Hx]]]; [left; exists x; reflexivity|right; exists x; auto].
Qed.

(** Kill the process after any effect of an in-place run: every file other than the
    temporaries still exists with its permissions and holds either its old text or
    a complete formatted text. *)
Theorem C21_crash_safe e a w paths cmdline : check a = false -> in_place a = true -> ~ In dash paths ->
  forall l x, run_main e a w paths cmdline = (l, x) ->
  forall l1 l2, l = l1 ++ l2 ->
  forall q, (forall p, In p paths -> q <> temp_of p) ->
  match w q with
  | Some (t, m) => exists t', do_steps w l1 q = Some (t', m) /\ versions e t t'
  | None => do_steps w l1 q = None
  end.
Proof.
  intros Hck Hip. unfold run_main. generalize (get_argdict cmdline) as kw. generalize 0 as rc.
  intros rc kw Hdash l x H l1 l2 Hl q Hq.
  change (safe e q w (do_steps w l1)).
  revert w rc kw l x H l1 l2 Hl. induction paths as [|p ps IH]; intros w rc kw l x H l1 l2 Hl; cbn [run_files] in H.
  - injection H as <- <-. symmetry in Hl. apply app_eq_nil in Hl as [-> _]. apply safe_refl.
  - destruct (onefile e a w p kw) as [[l0 r] kw'] eqn:E.
    assert (forall y z, l0 = y ++ z -> safe e q w (do_steps w y)) as H1.
    { intros y z Hyz. eapply in_place_safe; eauto.
      - intros ->. apply Hdash. now left.
      - apply Hq. now left. }
    assert (forall rc' l' x', run_files e a (do_steps w l0) ps kw' rc' = (l', x') -> l0 ++ l' = l1 ++ l2 ->
       safe e q w (do_steps w l1)) as H2.
    { intros rc' l' x' E2 Hs. apply app_split in Hs as [[y Hy]|[y [-> Hy]]].
      - eapply H1; eauto.
      - rewrite do_steps_app. apply safe_trans with (w2 := do_steps w l0).
        + apply (H1 l0 nil). now rewrite app_nil_r.
        + eapply IH; eauto.
          * intros X. apply Hdash. now right.
          * intros p' Hp'. apply Hq. now right. }
    destruct r as [u|y|].
    + destruct (run_files e a (do_steps w l0) ps kw' rc) as [l' x'] eqn:E2. injection H as <- <-. eapply H2; eauto.
    + destruct y; try (injection H as <- <-; eapply H1; eauto).
      destruct (run_files e a (do_steps w l0) ps kw' 1) as [l' x'] eqn:E2. injection H as <- <-. eapply H2; eauto.
    + injection H as <- <-. eapply H1; eauto.
Qed.
Example C21_ex :
  let l := fst (run_main e0 (Args false true dash) w0 [$"b"] nil) in
  l = [STrunc ($"b.cmf-temp"); SAppend ($"b.cmf-temp") 88%N; SChmod ($"b.cmf-temp") 384; SRename ($"b.cmf-temp") ($"b")]
  /\ do_steps w0 (firstn 3 l) ($"b") = Some ($"x", 384) /\ do_steps w0 l ($"b") = Some ($"X", 384).
Proof. repeat split; reflexivity. Qed.

(** The temporary name is not reserved: a user's file of that name is destroyed. *)
Theorem C21_temp_name_refuted :
  exists e a w p cmdline q t, check a = false /\ in_place a = true /\ q <> p /\ w q = Some t /\
    do_steps w (fst (run_main e a w [p] cmdline)) q = None.
Proof.
  exists e0, (Args false true dash), (upd w0 ($"b.cmf-temp") (Some ($"precious", 420))), ($"b"), nil,
    ($"b.cmf-temp"), ($"precious", 420). repeat split; discriminate.
Qed.

(** ** C52: writing to an output path (-o) is not crash safe *)
Theorem C52_outfile_crash_refuted :
  exists e a w p l1 l2 q old new, check a = false /\ in_place a = false /\ outfile_path a = q /\
    fst (run_main e a w [p] nil) = l1 ++ l2 /\ w q = Some old /\
    do_steps w (l1 ++ l2) q = Some new /\
    do_steps w l1 q <> Some old /\ do_steps w l1 q <> Some new.
Proof.
  exists e0, (Args false false ($"a")), w0, ($"b"), [STrunc ($"a")], [SAppend ($"a") 88%N], ($"a"), ($"X", 420), ($"X", 420).
  repeat split; discriminate.
Qed.

(** ** C22 *)
Lemma format_err_no_steps e a w p kw l kw' : onefile e a w p kw = (l, Err FormatErr, kw') -> l = nil.
Proof.
  intros E. destruct (onefile_cases _ _ _ _ _ _ _ _ E) as [(-> & _)|[(c & _ & _ & -> & _)|(c & t & out & _ & _ & _ & _ & H)]]; auto.
  destruct H as [(_ & -> & _)|[(_ & _ & -> & _)|[(_ & _ & _ & H)|(_ & _ & H)]]]; auto.
  - destruct H as [(_ & H)|[(_ & _ & H)|(t0 & m & _ & _ & H)]]; discriminate.
  - destruct H as [(_ & [(_ & H)|(_ & H)])|(_ & [(_ & H)|(_ & H)])]; discriminate.
Qed.

(** A file that raises a format error has no effect, the others are processed as
    they would be, and the status is not 0. *)
Theorem C22_format_error_isolated e a w before p after kw rc w1 kw1 rc1 l1 kw2 :
  (* after the files in [before] *)
  (forall rest, exists l0, run_files e a w (before ++ rest) kw rc =
      (let (l, x) := run_files e a w1 rest kw1 rc1 in (l0 ++ l, x))) ->
  onefile e a w1 p kw1 = (l1, Err FormatErr, kw2) ->
  exists l0, run_files e a w (before ++ p :: after) kw rc =
    (let (l, x) := run_files e a w1 after kw2 1 in (l0 ++ l, x)) /\
  status (snd (run_files e a w (before ++ p :: after) kw rc)) <> Some 0.
Proof.
  intros HB E. destruct (HB (p :: after)) as [l0 Hl0]. exists l0. rewrite Hl0. cbn [run_files]. rewrite E.
  rewrite (format_err_no_steps _ _ _ _ _ _ _ E). cbn.
  destruct (run_files e a w1 after kw2 1) as [l x] eqn:E2. split; [reflexivity|]. cbn. eapply run_rc; eauto.
Qed.
(* the premise of the theorem holds whenever the earlier files all succeed *)
Lemma C22_before_ok e a : forall before w kw rc,
  (exists w1 kw1 rc1, forall rest, exists l0, run_files e a w (before ++ rest) kw rc =
      (let (l, x) := run_files e a w1 rest kw1 rc1 in (l0 ++ l, x))) \/
  (exists l x, forall rest, run_files e a w (before ++ rest) kw rc = (l, x)).
Proof.
  induction before as [|p ps IH]; intros w kw rc.
  - left. exists w, kw, rc. intros rest. exists nil. cbn. now destruct (run_files e a w rest kw rc).
  - cbn [app run_files]. destruct (onefile e a w p kw) as [[l r] kw']. destruct r as [u|y|].
    + destruct (IH (do_steps w l) kw' rc) as [(w1 & kw1 & rc1 & H)|(l' & x' & H)].
      * left. exists w1, kw1, rc1. intros rest. destruct (H rest) as [l0 ->]. exists (l ++ l0).
        destruct (run_files e a w1 rest kw1 rc1). now rewrite app_assoc.
      * right. exists (l ++ l'), x'. intros rest. now rewrite H.
    + destruct y; try (right; eexists _, _; reflexivity).
      destruct (IH (do_steps w l) kw' 1) as [(w1 & kw1 & rc1 & H)|(l' & x' & H)].
      * left. exists w1, kw1, rc1. intros rest. destruct (H rest) as [l0 ->]. exists (l ++ l0).
        destruct (run_files e a w1 rest kw1 rc1). now rewrite app_assoc.
      * right. exists (l ++ l'), x'. intros rest. now rewrite H.
    + right. eexists _, _. reflexivity.
Qed.
Definition e1 : env := Env (fun _ => Ok [($"require_valid_layout", VAtom 1)]) (Ok nil) (fun _ _ => true) (fun _ _ => true)
                           (fun _ t => Ok (upper t, negb (seqb t ($"X")))).
Example C22_ex : run_main e1 (Args false true dash) w0 [$"a"; $"b"] nil =
  ([STrunc ($"b.cmf-temp"); SAppend ($"b.cmf-temp") 88%N; SChmod ($"b.cmf-temp") 384; SRename ($"b.cmf-temp") ($"b")], Exit 1)
  /\ onefile e1 (Args false true dash) w0 ($"a") nil = (nil, Err FormatErr, nil).
Proof. split; reflexivity. Qed.

(** Any other exception (a parse error, an unreadable file) stops the run: the
    remaining files are not processed. *)
Theorem C22_other_error_stops_refuted :
  exists e a w p q, w q <> None /\
    onefile e a w q nil <> (nil, Ok tt, nil) /\
    fst (run_main e a w [p; q] nil) = nil /\ exists x, snd (run_main e a w [p; q] nil) = Raised x.
Proof.
  exists e0, (Args false true dash), w0, ($"missing"), ($"b"). split; [discriminate|]. split; [discriminate|].
  split; [reflexivity|]. exists OSErr. reflexivity.
Qed.

(** ** C23 *)
Theorem C23_require_valid_layout e a w p kw c kw1 t out : configured e p kw c kw1 ->
  flag c ($"disable") = false -> flag c ($"require_valid_layout") = true ->
  reads e w c p t -> fmt e c t = Ok (out, false) ->
  onefile e a w p kw = (nil, Err FormatErr, kw1) /\
  (forall after rc, status (snd (run_files e a w (p :: after) kw rc)) <> Some 0).
Proof.
  intros HC Hd Hv HR HF.
  assert (onefile e a w p kw = (nil, Err FormatErr, kw1)) as HE.
  { destruct HC as (d & c0 & A & B & D). unfold onefile. rewrite A, B, D, Hd.
    unfold reads in HR. destruct (seqb p dash).
    - rewrite HR, HF, Hv. reflexivity.
    - destruct HR as (m & -> & ->). rewrite HF, Hv. reflexivity. }
  split; auto. intros after rc. cbn [run_files]. rewrite HE. cbn.
  destruct (run_files e a w after kw1 1) as [l x] eqn:E. cbn. eapply run_rc; eauto.
Qed.
Example C23_ex : exists c, configured e1 ($"a") nil c nil /\ flag c ($"require_valid_layout") = true /\
  fmt e1 c ($"X") = Ok ($"X", false) /\ reads e1 w0 c ($"a") ($"X").
Proof.
  exists [($"require_valid_layout", VAtom 1)]. repeat split; try reflexivity.
  - exists [($"require_valid_layout", VAtom 1)], [($"require_valid_layout", VAtom 1)]. repeat split; reflexivity.
  - exists 420. split; reflexivity.
Qed.

(** ** C24 *)
(** Disabled by its configuration: nothing happens for that file, it is not even read. *)
Theorem C24_disable_noop e a w p kw c kw1 : configured e p kw c kw1 -> flag c ($"disable") = true ->
  onefile e a w p kw = (nil, Ok tt, kw1).
Proof. intros (d & c0 & A & B & D) Hd. unfold onefile. now rewrite A, B, D, Hd. Qed.
Example C24_ex : onefile (Env (fun _ => Ok [($"format", VMap [($"disable", VAtom 1)])]) (Ok nil)
    (fun _ _ => true) (fun _ _ => true) (fun _ t => Ok (upper t, true))) (Args false true dash) w0 ($"b") nil = (nil, Ok tt, nil).
Proof. reflexivity. Qed.

(** The command-line switch only disables the first file. *)
Theorem C24_disable_cmdline_refuted :
  exists e w p q, run_main e (Args false true dash) w [p; q] [($"disable", Some (VAtom 1))] =
     run_main e (Args false true dash) w [q] nil /\
     fst (run_main e (Args false true dash) w [q] nil) <> nil /\
     fst (run_main e (Args false true dash) w [q] [($"disable", Some (VAtom 1))]) = nil.
Proof. exists e0, w0, ($"a"), ($"b"). repeat split; try reflexivity. discriminate. Qed.
