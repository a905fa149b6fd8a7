(** * PropEol: the line ending setting (C71) *)
From Coq Require Import Permutation.
From Verif Require Import Base Regex Lex LexProofs PropLex TextOps TextProofs PropText Tree Parse ParseProofs PropParse
  CmdSpec StdSpecs StdDb StdWf PropStd Layout LayoutProofs Pieces LayoutCols SortProofs PropSort Writing PropLayout
  LayKids Markup Pipeline PropFile OffSpan PropOff.

(** ** Specification *)
(** every LF becomes CR LF, nothing else changes *)
Definition crlf (s : str) : str := flat_map (fun c => if N.eqb c 10 then [13; 10] else [c])%N s.
(** the configuration with format.line_ending set to the given ending *)
Definition with_ending (e : eol) (c : pcfg) : pcfg :=
  PCfg (set_endl (p_fmt c) (eol_str e)) (p_markup c) (p_ctx c) false (p_bom c) (p_usetabs c) (p_tabpol c).
(** ... and with format.line_ending set to 'auto' *)
Definition with_auto (c : pcfg) : pcfg :=
  PCfg (p_fmt c) (p_markup c) (p_ctx c) true (p_bom c) (p_usetabs c) (p_tabpol c).
Definition map_text (f : str -> str) (r : res (str * bool)) : res (str * bool) :=
  match r with Ok (t, v) => Ok (f t, v) | Err x => Err x | OutOfFuel => OutOfFuel end.

(** ** Layout does not look at the line ending *)
Lemma layout_endl c s f root : layout_tree (Env (set_endl c s) f) root = layout_tree (Env c f) root.
Proof. reflexivity. Qed.
Lemma scalar_endl c s parent k t : scalar_text (set_endl c s) parent k t = scalar_text c parent k t.
Proof. reflexivity. Qed.

(** ** The two runs of the writer side by side *)
Lemma crlf_app a b : crlf (a ++ b) = crlf a ++ crlf b.
Proof. apply flat_map_app. Qed.
Lemma crlf_flat s : ~ In cNL s -> crlf s = s.
Proof.
  induction s as [|c s IH]; intros H; [reflexivity|]. unfold crlf in *. cbn [flat_map].
  rewrite IH by (intros X; apply H; now right). change 10%N with cNL.
  destruct (N.eqb_spec c cNL) as [->|]; [exfalso; apply H; now left|reflexivity].
Qed.
Lemma crlf_repeat n : crlf (repeat_s n [cNL]) = repeat_s n [cCR; cNL].
Proof. induction n as [|n IH]; [reflexivity|]. cbn [repeat_s]. now rewrite crlf_app, IH. Qed.
Lemma spaces_flat z : ~ In cNL (spaces z).
Proof. unfold spaces. intros H. apply repeat_spec in H. discriminate. Qed.
Lemma crlf_spaces z : crlf (spaces z) = spaces z.
Proof. apply crlf_flat, spaces_flat. Qed.

Definition twin (a b : cfile) : Prop :=
  crow a = crow b /\ ccol a = ccol b /\ TextOps.out b = crlf (TextOps.out a).
Definition wtwin (a b : wst) : Prop := w_off a = None /\ w_off b = None /\ twin (w_f a) (w_f b).
Definition both {A} (R : A -> A -> Prop) (x y : res A) : Prop :=
  match x, y with
  | Ok a, Ok b => R a b
  | Err u, Err v => u = v
  | OutOfFuel, OutOfFuel => True
  | _, _ => False
  end.
Lemma both_bind {A B} (R : A -> A -> Prop) (S : B -> B -> Prop) x y f g :
  both R x y -> (forall a b, R a b -> both S (f a) (g b)) -> both S (bindr x f) (bindr y g).
Proof. destruct x, y; cbn; intros H F; try contradiction; auto. Qed.
Lemma both_refl {A} (R : A -> A -> Prop) x : (forall a, R a a) -> both R x x.
Proof. destruct x; cbn; auto. Qed.

Lemma put_lines_twin ls : Forall (fun l => ~ In cNL l) ls -> forall a b, twin a b ->
  twin (put_lines [cNL] a ls) (put_lines [cCR; cNL] b ls).
Proof.
  induction 1 as [|l ls Hl _ IH]; intros a b H; cbn [put_lines]; [exact H|].
  apply IH. destruct H as (A & B & C). repeat split; cbn [crow ccol TextOps.out]; [lia|].
  rewrite C, !crlf_app. f_equal. cbn [app]. rewrite (crlf_flat l Hl). reflexivity.
Qed.
Lemma split_flat s : Forall (fun l => ~ In cNL l) (split_on cNL s).
Proof. apply Forall_forall. apply split_on_no. Qed.
Lemma write_at_twin a b r c text : twin a b ->
  both twin (write_at [cNL] a r c text) (write_at [cCR; cNL] b r c text).
Proof.
  intros (A & B & C). unfold write_at. rewrite <- A, <- B.
  destruct (negb _); [reflexivity|].
  set (a1 := if r - crow a =? 0 then a else _). set (b1 := if r - crow a =? 0 then b else _).
  assert (T1 : twin a1 b1).
  { unfold a1, b1. destruct (r - crow a =? 0); [now repeat split|].
    repeat split; cbn [TextOps.out]. now rewrite C, crlf_app, crlf_repeat. }
  clearbody a1 b1. clear a b A B C. destruct T1 as (A & B & C). rewrite <- B.
  set (a2 := if c - ccol a1 =? 0 then a1 else _). set (b2 := if c - ccol a1 =? 0 then b1 else _).
  assert (T2 : twin a2 b2).
  { unfold a2, b2. destruct (c - ccol a1 =? 0); [now repeat split|].
    repeat split; cbn [TextOps.out crow ccol]; try lia. now rewrite C, crlf_app, crlf_spaces. }
  clearbody a2 b2. clear a1 b1 A B C. pose proof (split_flat text) as Hs.
  destruct (split_on cNL text) as [|l ls]; [exact T2|]. apply Forall_inv in Hs as Hl. apply Forall_inv_tail in Hs.
  cbn [both]. apply put_lines_twin; auto. destruct T2 as (A & B & C). repeat split; cbn [TextOps.out crow ccol]; try lia.
  now rewrite C, crlf_app, (crlf_flat l Hl).
Qed.

Section Twin.
  Variable c : fcfg.
  Let cu := set_endl c [cNL].
  Let cw := set_endl c [cCR; cNL].
  Lemma put_twin a b p text : wtwin a b -> both wtwin (put cu a p text) (put cw b p text).
  Proof.
    intros (A & B & C). unfold put. apply (both_bind twin).
    - exact (write_at_twin _ _ _ _ _ C).
    - intros f g H. repeat split; cbn; auto; apply H.
  Qed.
  Lemma write_lines_twin ls : forall p a b, wtwin a b -> both wtwin (write_lines cu p ls a) (write_lines cw p ls b).
  Proof.
    induction ls as [|l ls IH]; intros p a b H; cbn [write_lines]; [exact H|].
    apply (both_bind wtwin); [now apply put_twin|]. intros. now apply IH.
  Qed.
  Lemma write_twin infile l : forall parent a b, lall quiet l -> wtwin a b ->
    both wtwin (write cu infile parent l a) (write cw infile parent l b).
  Proof.
    induction l as [k p pos pass w v x lines cs IH] using lay_ind'. intros parent a b Hq Hab.
    apply lall_eq in Hq as [Hp Hq].
    assert (Hw : forall k a b, wtwin a b -> both wtwin (wall cu infile k cs a) (wall cw infile k cs b)).
    { clear a b Hab Hp. intros k0. induction IH as [|y cs Hy _ IHl]; intros a b H; [exact H|].
      rewrite !wall_cons. apply (both_bind wtwin).
      - apply Hy; [now apply Forall_inv in Hq|exact H].
      - intros a' b' H'. apply IHl; [now apply Forall_inv_tail in Hq|exact H']. }
    assert (Ha : active a = true) by (unfold active; now rewrite (proj1 Hab)).
    assert (Hb : active b = true) by (unfold active; now rewrite (proj1 (proj2 Hab))).
    assert (Hsc : forall k0, both wtwin
       match p with
       | T t :: _ =>
          let? text := scalar_text cu parent k0 t in
          let? s' := put cu a pos text in
          match cs with
          | nil => Ok s'
          | [ch] => if is_comment_k (lkind ch) then wall cu infile k0 cs s' else Err AssertionErr
          | _ :: _ :: _ => Err AssertionErr
          end
       | _ => Err AssertionErr
       end
       match p with
       | T t :: _ =>
          let? text := scalar_text cw parent k0 t in
          let? s' := put cw b pos text in
          match cs with
          | nil => Ok s'
          | [ch] => if is_comment_k (lkind ch) then wall cw infile k0 cs s' else Err AssertionErr
          | _ :: _ :: _ => Err AssertionErr
          end
       | _ => Err AssertionErr
       end).
    { intros k0. destruct p as [|[t|] p]; try reflexivity.
      change (scalar_text cu) with (scalar_text c). change (scalar_text cw) with (scalar_text c).
      apply (both_bind eq); [now apply both_refl|]. intros text ? <-.
      apply (both_bind wtwin); [now apply put_twin|]. intros a' b' H'.
      destruct cs as [|ch [|]]; [exact H'| |reflexivity]. destruct (is_comment_k (lkind ch)); [auto|reflexivity]. }
    rewrite !write_eq, Ha, Hb. cbn [negb].
    destruct k; auto using put_twin.
    - destruct (is_bracket p); auto using put_twin, write_lines_twin.
    - unfold quiet, switched in Hp. destruct p as [|[t|] p]; try reflexivity. cbn in Hp.
      unfold is_onoff, tmem in Hp. cbn in Hp. unfold write_onoff. destruct (tt t); try discriminate; reflexivity.
  Qed.
  Lemma write_tree_twin infile l : lall quiet l ->
    both (fun x y => y = crlf x) (write_tree cu infile l) (write_tree cw infile l).
  Proof.
    intros H. unfold write_tree. apply (both_bind wtwin).
    - apply write_twin; auto. now repeat split.
    - intros a b (_ & _ & _ & _ & E). cbn [both]. unfold getvalue. rewrite E, crlf_app. reflexivity.
  Qed.
End Twin.

(** ** C71 *)
(** tree level: no sentinel anywhere *)
Theorem C71_tree c src toks : p_usetabs c = false -> tokenize src = Ok toks ->
  (forall tree, parse (p_ctx c) toks = Ok tree -> switched (flat tree) = false) ->
  process_file (with_ending Windows c) src = map_text crlf (process_file (with_ending Unix c) src).
Proof.
  intros Ht Hl Hs. unfold process_file. rewrite Hl. cbn [bindr].
  change (p_ctx (with_ending Windows c)) with (p_ctx c). change (p_ctx (with_ending Unix c)) with (p_ctx c).
  destruct (parse (p_ctx c) toks) as [tree|x|] eqn:Ep; [|reflexivity|reflexivity]. cbn [bindr].
  change (layout_tree (pipe_env (with_ending Windows c) src toks) tree)
    with (layout_tree (Env (p_fmt c) (format_comment (p_markup c) (first_token toks))) tree).
  change (layout_tree (pipe_env (with_ending Unix c) src toks) tree)
    with (layout_tree (Env (p_fmt c) (format_comment (p_markup c) (first_token toks))) tree).
  destruct (layout_tree _ tree) as [l|x|] eqn:El; [|reflexivity|reflexivity]. cbn [bindr].
  assert (Hq : lall quiet l).
  { unfold layout_tree in El. apply bindr_ok in El as ([l0 o] & Er & El). injection El as <-.
    eapply reflow_all; [|exact Er]. apply ball_lock, quiet_box; auto.
    unfold parse in Ep. apply bindr_ok in Ep as ([u r] & _ & Ep). injection Ep as <-. reflexivity. }
  pose proof (write_tree_twin (p_fmt c) src l Hq) as H.
  change (effective (with_ending Windows c) src) with (set_endl (p_fmt c) [cCR; cNL]).
  change (effective (with_ending Unix c) src) with (set_endl (p_fmt c) [cNL]).
  destruct (write_tree (set_endl (p_fmt c) [cNL]) src l) as [o|x|],
           (write_tree (set_endl (p_fmt c) [cCR; cNL]) src l) as [o'|x'|]; cbn [both] in H; try contradiction; subst; try reflexivity.
  cbn [bindr]. unfold replace_with_tabs.
  change (p_usetabs (with_ending Windows c)) with (p_usetabs c). change (p_usetabs (with_ending Unix c)) with (p_usetabs c).
  rewrite Ht. cbn [negb bindr map_text]. do 2 f_equal.
  change (p_bom (with_ending Windows c)) with (p_bom c). change (p_bom (with_ending Unix c)) with (p_bom c).
  destruct (p_bom c); reflexivity.
Qed.
(** a file without sentinels: setting line_ending to windows instead of unix
    turns every LF of the output into CR LF and changes nothing else (in
    particular an error stays the same error) *)
Theorem C71_line_endings c ex vt specs tbl src toks :
  p_ctx c = std_ctx ex vt tbl -> user_table specs = Ok tbl -> p_usetabs c = false ->
  tokenize src = Ok toks -> no_switch toks = true ->
  process_file (with_ending Windows c) src = map_text crlf (process_file (with_ending Unix c) src).
Proof.
  intros Hctx Hut Ht Hl Hno. apply (C71_tree c src toks Ht Hl). intros tree Hp.
  assert (Ho : no_onoff toks).
  { unfold no_switch in Hno. rewrite forallb_forall in Hno. apply Forall_forall. intros t Hin. apply Hno in Hin. now apply negb_true_iff. }
  rewrite Hctx in Hp. destruct (C05_file_tuples_partial ex vt specs tbl Hut _ _ _ Hl Ho Hp) as [HP _].
  unfold switched. destruct (existsb is_onoff (flat tree)) eqn:E; auto. apply existsb_exists in E as (t & Hin & E).
  apply Permutation_sym in HP. apply (Permutation_in _ HP) in Hin.
  assert (Hin' : In t toks).
  { destruct toks as [|u r]; [destruct Hin|]. unfold strip_bom_tok in Hin. destruct (is_tt _ u); [now right|exact Hin]. }
  unfold no_onoff in Ho. rewrite Forall_forall in Ho. rewrite (Ho _ Hin') in E. discriminate.
Qed.
(** 'auto' is the explicit setting that the majority of the line ends of the
    input votes for; ties and files without line ends give unix *)
Theorem C71_auto c src :
  process_file (with_auto c) src
  = process_file (with_ending (if crlf_count false src >? lf_count false src then Windows else Unix) c) src.
Proof.
  assert (E : detect_line_endings src = if crlf_count false src >? lf_count false src then Windows else Unix).
  { destruct (detect_line_endings src) eqn:E.
    - apply C11_detect_majority in E. destruct (Z.gtb_spec (crlf_count false src) (lf_count false src)); auto; lia.
    - destruct (Z.gtb_spec (crlf_count false src) (lf_count false src)) as [H|H]; auto.
      assert (detect_line_endings src = Windows) as F by (apply C11_detect_majority; lia). congruence. }
  rewrite <- E. reflexivity.
Qed.
(** the copied text of a format-off region keeps its line ends *)
Theorem C71_region_refuted : exists src toks, tokenize src = Ok toks /\
  process_file (with_ending Windows default_pcfg) src
  <> map_text crlf (process_file (with_ending Unix default_pcfg) src).
Proof.
  exists (nl [$"# cmake-format: off"; $"set( x )"; $"# cmake-format: on"]). eexists. split; [vm_compute; reflexivity|].
  vm_compute. discriminate.
Qed.

Definition src_eol : str := $"set( a" ++ [cCR; cNL] ++ $"b) # c" ++ [cCR; cNL] ++ $"set(c [[x" ++ [cNL] ++ $"y]])" ++ [cCR; cNL].
Example C71_ex :
  (exists toks, tokenize src_eol = Ok toks /\ no_switch toks = true)
  /\ (crlf_count false src_eol >? lf_count false src_eol) = true
  /\ process_file (with_ending Unix default_pcfg) src_eol
     = Ok (nl [$"set(a b) # c"; $"set(c [[x"; $"y]])"], true)
  /\ process_file (with_auto default_pcfg) src_eol
     = Ok (crlf (nl [$"set(a b) # c"; $"set(c [[x"; $"y]])"]), true).
Proof. split; [eexists; split; vm_compute; reflexivity|]. repeat split; vm_compute; reflexivity. Qed.

Print Assumptions C71_line_endings.
