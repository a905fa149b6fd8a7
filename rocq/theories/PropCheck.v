(** * PropCheck: formatting in place and then checking (C81) *)
From Verif Require Import Base Config PropConfig MainLoop PropMain.

(** [used e kw paths p c]: a run over [paths] with the options [kw] formats [p] with the
    configuration [c]. *)
Inductive used (e : env) : dict val -> list str -> str -> config -> Prop :=
| used_here kw p ps c kw' : configured e p kw c kw' -> used e kw (p :: ps) p c
| used_later kw p ps c kw' q c' : configured e p kw c kw' -> used e kw' ps q c' -> used e kw (p :: ps) q c'.
(** formatting the text of [p] once is enough *)
Definition settles (e : env) (w : fs) (p : str) (c : config) : Prop :=
  forall t m out, w p = Some (t, m) -> formats e c t out -> decodes e c out = true /\ formats e c out out.

Lemma onefile_other e a w p kw l r kw' q : check a = false -> in_place a = true -> q <> p -> q <> temp_of p ->
  onefile e a w p kw = (l, r, kw') -> do_steps w l q = w q.
Proof.
  intros Hc Hi Hq Hqt E. destruct (onefile_cases _ _ _ _ _ _ _ _ E) as [(-> & _)|[(c & _ & _ & -> & _)|(c & t & out & _ & _ & _ & _ & H)]]; auto.
  destruct H as [(H & _)|[(_ & _ & -> & _)|[(_ & _ & _ & H)|(_ & H & _)]]]; try congruence; auto.
  destruct H as [(-> & _)|[(_ & -> & _)|(t0 & m & _ & -> & _)]]; apply do_steps_untouched; constructor; try (cbn; congruence); try constructor.
  - apply write_untouched. congruence.
  - apply Forall_app. split; [apply write_untouched; congruence|]. repeat constructor; cbn; congruence.
Qed.
Lemma run_other e a q : check a = false -> in_place a = true -> forall ps w kw rc l x,
  (forall p, In p ps -> q <> p /\ q <> temp_of p) -> run_files e a w ps kw rc = (l, x) -> do_steps w l q = w q.
Proof.
  intros Hc Hi. induction ps as [|p ps IH]; intros w kw rc l x Hq H; cbn [run_files] in H; [now injection H as <- <-|].
  destruct (onefile e a w p kw) as [[l1 r] kw'] eqn:E. destruct (Hq p (or_introl eq_refl)) as [Q1 Q2]. pose proof (onefile_other _ _ _ _ _ _ _ _ _ Hc Hi Q1 Q2 E) as E1.
  assert (G : forall rc2 l2 x2, run_files e a (do_steps w l1) ps kw' rc2 = (l2, x2) -> do_steps w (l1 ++ l2) q = w q).
  { intros rc2 l2 x2 H2. rewrite do_steps_app, <- E1. eapply IH; eauto. intros p' Hp'. apply Hq. now right. }
  destruct r as [u|y|].
  - destruct (run_files e a (do_steps w l1) ps kw' rc) as [l2 x2] eqn:E2. injection H as <- <-. eauto.
  - destruct y; try (injection H as <- <-; exact E1). destruct (run_files e a (do_steps w l1) ps kw' 1) as [l2 x2] eqn:E2. injection H as <- <-. eauto.
  - injection H as <- <-. exact E1.
Qed.
(** what an in-place run leaves in the file it formatted *)
Lemma onefile_left e a w p kw l kw' : check a = false -> in_place a = true -> p <> dash -> onefile e a w p kw = (l, Ok tt, kw') ->
  exists c, configured e p kw c kw' /\
    (flag c ($"disable") = true \/ (flag c ($"disable") = false /\ exists t m out, w p = Some (t, m) /\ decodes e c t = true /\ formats e c t out /\ do_steps w l p = Some (out, m))).
Proof.
  intros Hc Hi Hd E. destruct (onefile_cases _ _ _ _ _ _ _ _ E) as [(_ & H & _)|[(c & Hcf & Hdis & _ & _)|(c & t & out & Hcf & Hdis & Hr & Hf & H)]].
  - exfalso. now apply (H tt).
  - exists c. auto.
  - exists c. split; auto. right. split; auto. unfold reads in Hr. apply seqb_neq in Hd. rewrite Hd in Hr. destruct Hr as (m & Hw & Hdec). exists t, m, out. repeat split; auto.
    destruct H as [(H & _)|[(_ & _ & -> & _ & ->)|[(_ & _ & Hne & H)|(_ & H & _)]]]; try congruence; auto.
    destruct H as [(_ & H)|[(_ & _ & H)|(t0 & m0 & Hw0 & -> & _)]]; try discriminate. rewrite Hw in Hw0. injection Hw0 as <- <-.
    set (tmp := temp_of p). rewrite do_steps_cons, do_steps_app. set (w2 := do_steps _ (write_text tmp out)).
    assert (exists m2, w2 tmp = Some (out, m2)) as [m2 W2].
    { exists (match w tmp with Some (_, m0) => m0 | None => default_mode end). apply (appends_same tmp out _ nil). apply upd_same. }
    cbn [do_steps fold_left do_step]. rewrite W2, upd_same, (upd_other _ tmp _ p) by (intros X; symmetry in X; now apply temp_neq in X). now rewrite upd_same.
Qed.
Theorem C81_run e a : check a = false -> in_place a = true -> forall ps w kw l x,
  NoDup ps -> ~ In dash ps -> (forall p q, In p ps -> In q ps -> q <> temp_of p) ->
  (forall p c, used e kw ps p c -> settles e w p c) ->
  run_files e a w ps kw 0 = (l, x) -> status x = Some 0 -> check_passes e (do_steps w l) kw ps.
Proof.
  intros Hc Hi. induction ps as [|p ps IH]; intros w kw l x Hnd Hdash Htmp Hset H Hx; cbn [run_files] in H; [constructor|].
  inversion Hnd as [|? ? Hp Hnd']; subst. destruct (onefile e a w p kw) as [[l1 r] kw'] eqn:E.
  destruct r as [u|y|].
  2:{ destruct y; try (injection H as <- <-; discriminate). destruct (run_files e a (do_steps w l1) ps kw' 1) as [l2 x2] eqn:E2. injection H as <- <-. now apply run_rc in E2. }
  2:{ injection H as <- <-. discriminate. }
  destruct u. destruct (run_files e a (do_steps w l1) ps kw' 0) as [l2 x2] eqn:E2. injection H as <- <-. rewrite do_steps_app.
  assert (Hpd : p <> dash) by (intros ->; apply Hdash; now left).
  assert (Hother : forall q, In q ps -> do_steps w l1 q = w q).
  { intros q Hq. eapply onefile_other; eauto; [intros ->; contradiction|]. apply Htmp; [now left|now right]. }
  destruct (onefile_left _ _ _ _ _ _ _ Hc Hi Hpd E) as (c & Hcf & Hcase).
  assert (Hrest : check_passes e (do_steps (do_steps w l1) l2) kw' ps).
  { eapply IH; eauto.
    - intros X. apply Hdash. now right.
    - intros p' q Hp' Hq. apply Htmp; now right.
    - intros q c' Hu t m out Hw. assert (Hq : In q ps) by (clear -Hu; induction Hu; cbn; auto). rewrite (Hother _ Hq) in Hw. revert t m out Hw. apply Hset. eapply used_later; eauto. }
  destruct Hcase as [Hdis|(Hdis & t & m & out & Hw & Hdec & Hf & Hafter)]; [eapply cp_disabled; eauto|].
  destruct (Hset p c (used_here _ _ _ _ _ _ Hcf) _ _ _ Hw Hf) as [Hdo Hfo]. eapply cp_same; eauto. unfold reads.
  apply seqb_neq in Hpd. rewrite Hpd. exists m. split; [|exact Hdo]. rewrite <- Hafter. eapply run_other; eauto.
  intros q Hq. split; [intros ->; contradiction|]. apply Htmp; [now right|now left].
Qed.

