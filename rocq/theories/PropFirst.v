(** * PropFirst: the comment at the top of a file (C129, C130) *)
From Verif Require Import Base Regex Lex LexProofs LexClass PropLex TextOps TextProofs PropText
  Tree Parse ParseProofs PropParse CmdSpec StdSpecs StdDb StdWf PropStd Layout LayoutProofs LayoutCols Pieces Writing
  PropLayout Markup MarkupProofs Pipeline ParseShape StdShape NamesShape CommentShape TidyShape PropFile PropIndent Walk ParseTerm ParseBlank OutSame
  PropLines LintShape.

(** ** Specification *)
Definition blank_token (t : token) : Prop := tt t = WHITESPACE \/ tt t = NEWLINE.
(** [cs] are the comments of a block and [text] its tokens: the comments stand in one
    column on lines that follow each other *)
Inductive block : list token -> list token -> Prop :=
| block_one t : tt t = COMMENT -> block [t] [t]
| block_more t gap u cs text : tt t = COMMENT -> line_gap gap -> col (begin t) = col (begin u) -> block (u :: cs) (u :: text) ->
    block (t :: u :: cs) (t :: gap ++ u :: text)
with line_gap : list token -> Prop :=
| gap_nl n : tt n = NEWLINE -> line_gap [n]
| gap_in n w : tt n = NEWLINE -> tt w = WHITESPACE -> line_gap [n; w].
(** no further comment of the block follows *)
Definition stops (c : Z) (rest : list token) : Prop := forall gap u r, rest = gap ++ u :: r -> gap = nil \/ line_gap gap -> tt u = COMMENT -> c <> col (begin u).
(** the file begins with the block [cs]; only blanks stand before it *)
Definition top_block (toks cs : list token) : Prop :=
  exists ws text rest c, toks = ws ++ text ++ rest /\ (forall t, In t ws -> blank_token t) /\ block cs text /\
    (forall t, In t cs -> col (begin t) = c) /\ stops c rest.
(** how a line of the block is written: without blanks at its end; with markup on,
    several hash signs that are no ruler become one *)
Definition kept_line (m : mcfg) (sp s : str) : Prop :=
  exists h body blanks, sp = repeat cHASH h ++ body ++ blanks /\ forallb is_uspace blanks = true /\
    match body with nil => True | x :: _ => x <> cHASH end /\ match rev body with nil => True | x :: _ => is_uspace x = false end /\
    s = (if mk_enable m && (Z.of_nat h <? mk_hash_min m) then $"#" ++ body else repeat cHASH h ++ body).

(** ** Lines *)
Definition solid_end (s : str) : Prop := match rev s with nil => True | x :: _ => is_uspace x = false end.
Lemma lstrip_front p s : match lstrip_by p s with nil => True | c :: _ => p c = false end.
Proof. induction s as [|a s IH]; cbn [lstrip_by]; [exact I|]. destruct (p a) eqn:E; [exact IH|exact E]. Qed.
Lemma solid_rstrip s : solid_end (rstrip s).
Proof. unfold solid_end, rstrip, rstrip_by. rewrite rev_involutive. apply lstrip_front. Qed.
Lemma rstrip_solid s : solid_end s -> rstrip s = s.
Proof.
  unfold solid_end, rstrip, rstrip_by. intros H. replace (lstrip_by is_uspace (rev s)) with (rev s); [apply rev_involutive|].
  destruct (rev s) as [|x r]; [reflexivity|]. cbn [lstrip_by]. now rewrite H.
Qed.
Lemma solid_app a x b : solid_end (a ++ x :: b) -> solid_end (x :: b).
Proof. unfold solid_end. rewrite rev_app_distr. cbn [rev]. destruct (rev b ++ [x]) as [|y l] eqn:E; [destruct (rev b); discriminate|]. cbn [app]. auto. Qed.
Lemma solid_suffix a b : solid_end (a ++ b) -> solid_end b.
Proof. destruct b as [|x b]; [reflexivity|apply solid_app]. Qed.
Lemma hashes_start k : forall h body, match body with nil => True | x :: _ => x <> cHASH end ->
  startswith (repeat cHASH k) (repeat cHASH h ++ body) = (k <=? h)%nat.
Proof.
  induction k as [|k IH]; intros h body Hb; [reflexivity|]. cbn [repeat]. destruct h as [|h]; cbn [repeat app].
  - destruct body as [|x body]; [reflexivity|]. cbn [startswith]. destruct (N.eqb_spec cHASH x) as [E|_]; [congruence|reflexivity].
  - cbn [startswith]. rewrite N.eqb_refl. cbn [andb]. rewrite IH by exact Hb. reflexivity.
Qed.
Lemma hash_split s : exists h, s = repeat cHASH h ++ lstrip_by (N.eqb cHASH) s /\ match lstrip_by (N.eqb cHASH) s with nil => True | x :: _ => x <> cHASH end.
Proof.
  induction s as [|a s (h & IH & Hn)]; [exists 0%nat; split; [reflexivity|exact I]|]. cbn [lstrip_by].
  destruct (N.eqb_spec cHASH a) as [<-|Ha].
  - exists (S h). cbn [repeat app]. split; [now rewrite <- IH|exact Hn].
  - exists 0%nat. split; [reflexivity|congruence].
Qed.
Lemma kept_ok m b : kept_line m (cHASH :: b) ($"#" ++ rstrip (Markup.comment_line m false (cHASH :: b))).
Proof.
  set (sp := cHASH :: b). destruct (rstrip_by_app is_uspace sp) as (blanks & Es & Hbl). fold (rstrip sp) in Es.
  assert (strip sp = rstrip sp) as EN by reflexivity.
  destruct (hash_split (rstrip sp)) as (h & Eh & Hbody). set (body := lstrip_by (N.eqb cHASH) (rstrip sp)) in *.
  pose proof (solid_rstrip sp) as Hsol.
  assert (1 <= h)%nat as Hh.
  { destruct h as [|h]; [|lia]. cbn [repeat app] in Eh. exfalso. rewrite Eh in Es. destruct body as [|x body'] eqn:Eb.
    - cbn [app] in Es. unfold sp in Es. rewrite <- Es in Hbl. discriminate.
    - cbn [app] in Es. unfold sp in Es. injection Es as <- _. now apply Hbody. }
  exists h, body, blanks. split; [rewrite app_assoc, <- Eh; exact Es|]. split; [exact Hbl|]. split; [exact Hbody|].
  assert (solid_end body) as Hsb. { rewrite Eh in Hsol. now apply solid_suffix in Hsol. }
  split; [exact Hsb|]. unfold Markup.comment_line. rewrite EN.
  assert ($"#" ++ rstrip (tl (rstrip sp)) = repeat cHASH h ++ body) as EK.
  { rewrite <- Eh. destruct (rstrip sp) as [|x r] eqn:Er; [destruct h; [lia|discriminate]|]. cbn [tl].
    assert (x = cHASH) as ->. { destruct h; [lia|]. cbn [repeat app] in Eh. congruence. }
    rewrite rstrip_solid; [reflexivity|]. now apply (solid_suffix [cHASH]) in Hsol. }
  destruct (mk_enable m) eqn:Em; cbn [negb andb]; [|exact EK].
  rewrite Eh at 1. rewrite hashes_start by exact Hbody.
  destruct (Z.of_nat h <? mk_hash_min m) eqn:Ez.
  - replace (Z.to_nat (mk_hash_min m) <=? h)%nat with false by (symmetry; apply Nat.leb_gt; lia).
    fold body. now rewrite rstrip_solid.
  - replace (Z.to_nat (mk_hash_min m) <=? h)%nat with true by (symmetry; apply Nat.leb_le; lia). exact EK.
Qed.

(** ** The block in the tree *)
Lemma is_tt_eq k t : is_tt k t = true <-> tt t = k.
Proof. unfold is_tt. rewrite ttype_eqb_eq. split; congruence. Qed.
Definition comments (pcs : list pnode) : list token := flat_map (fun n => match n with T t => if is_tt COMMENT t then [t] else nil | N _ _ => nil end) pcs.
Definition tokens_only (pcs : list pnode) : Prop := exists ts, pcs = map T ts.
Lemma gap_cloop p last gap u r : line_gap gap -> forall t, p t = true -> match last with None => True | Some l => col (begin l) = col (begin t) end -> p u = true ->
  (forall x, p x = true -> is_tt WHITESPACE x = false) -> (forall x, p x = true -> is_tt NEWLINE x = false) ->
  cloop p last (t :: gap ++ u :: r) = (let '(a, r') := cloop p (Some t) (u :: r) in (T t :: map T gap ++ a, r')).
Proof.
  intros Hg t Ht Hl Hu Hw Hn. assert (p t && match last with None => true | Some l => col (begin l) =? col (begin t) end = true) as E.
  { rewrite Ht. destruct last as [l|]; [|reflexivity]. rewrite Hl, Z.eqb_refl. reflexivity. }
  destruct Hg as [n Hn1|n w Hn1 Hw1]; cbn [app map].
  - change (cloop p last (t :: n :: u :: r)) with (if p t && match last with None => true | Some l => col (begin l) =? col (begin t) end then
      (if is_tt NEWLINE n && p u then let '(a, r') := cloop p (Some t) (u :: r) in (T t :: T n :: a, r')
       else match r with c2 :: _ => if is_tt NEWLINE n && is_tt WHITESPACE u && p c2 then let '(a, r') := cloop p (Some t) r in (T t :: T n :: T u :: a, r')
            else let '(a, r') := cloop p (Some t) (n :: u :: r) in (T t :: a, r') | nil => let '(a, r') := cloop p (Some t) (n :: u :: r) in (T t :: a, r') end)
      else (nil, t :: n :: u :: r)).
    rewrite E. apply is_tt_eq in Hn1. rewrite Hn1, Hu. reflexivity.
  - change (cloop p last (t :: n :: w :: u :: r)) with (if p t && match last with None => true | Some l => col (begin l) =? col (begin t) end then
      (if is_tt NEWLINE n && p w then let '(a, r') := cloop p (Some t) (w :: u :: r) in (T t :: T n :: a, r')
       else if is_tt NEWLINE n && is_tt WHITESPACE w && p u then let '(a, r') := cloop p (Some t) (u :: r) in (T t :: T n :: T w :: a, r')
            else let '(a, r') := cloop p (Some t) (n :: w :: u :: r) in (T t :: a, r'))
      else (nil, t :: n :: w :: u :: r)).
    rewrite E. apply is_tt_eq in Hn1, Hw1. destruct (p w) eqn:Epw; [apply Hw in Epw; congruence|]. rewrite Hn1, Hw1, Hu. reflexivity.
Qed.

Lemma stop_cloop p last t rest : p t = true -> match last with None => True | Some l => col (begin l) = col (begin t) end ->
  (forall gap u r, rest = gap ++ u :: r -> gap = nil \/ line_gap gap -> p u = true -> col (begin t) <> col (begin u)) ->
  exists gap r, cloop p last (t :: rest) = (T t :: map T gap, r) /\ (gap = nil \/ line_gap gap).
Proof.
  intros Ht Hl Hs. assert (p t && match last with None => true | Some l => col (begin l) =? col (begin t) end = true) as E.
  { rewrite Ht. destruct last as [l|]; [|reflexivity]. rewrite Hl, Z.eqb_refl. reflexivity. }
  assert (forall gap u r, rest = gap ++ u :: r -> gap = nil \/ line_gap gap -> cloop p (Some t) (u :: r) = (nil, u :: r)) as HN.
  { intros gap u r Hr Hg. cbn [cloop]. destruct (p u) eqn:Epu; [|reflexivity]. specialize (Hs gap u r Hr Hg Epu).
    destruct (col (begin t) =? col (begin u)) eqn:K; [apply Z.eqb_eq in K; contradiction|reflexivity]. }
  cbn [cloop]. rewrite E. destruct rest as [|n r1]; [exists nil, nil; split; [reflexivity|now left]|].
  assert (cloop p (Some t) (n :: r1) = (nil, n :: r1)) as H0. { apply (HN nil); [reflexivity|now left]. }
  destruct r1 as [|c r2]; [rewrite H0; exists nil; eexists; split; [reflexivity|now left]|].
  destruct (is_tt NEWLINE n && p c) eqn:E1.
  { apply andb_prop in E1 as [E1 _]. apply is_tt_eq in E1. rewrite (HN [n] c r2); [|reflexivity|right; now constructor].
    exists [n]. eexists. split; [reflexivity|right; now constructor]. }
  destruct r2 as [|c2 r3]; [rewrite H0; exists nil; eexists; split; [reflexivity|now left]|].
  destruct (is_tt NEWLINE n && is_tt WHITESPACE c && p c2) eqn:E2; [|rewrite H0; exists nil; eexists; split; [reflexivity|now left]].
  apply andb_prop in E2 as [E2 _]. apply andb_prop in E2 as [E2 E3]. apply is_tt_eq in E2, E3.
  rewrite (HN [n; c] c2 r3); [|reflexivity|right; now constructor]. exists [n; c]. eexists. split; [reflexivity|right; now constructor].
Qed.
Lemma comments_cons t l : tt t = COMMENT -> comments (T t :: l) = t :: comments l.
Proof. intros H. unfold comments. cbn [flat_map]. apply is_tt_eq in H. now rewrite H. Qed.
Lemma comments_gap gap l : gap = nil \/ line_gap gap -> comments (map T gap ++ l) = comments l.
Proof.
  intros [->|[n H|n w H1 H2]]; [reflexivity| |]; unfold comments; cbn [map app flat_map].
  - unfold is_tt. now rewrite H.
  - unfold is_tt. now rewrite H1, H2.
Qed.
Lemma block_cloop cs text c : block cs text -> (forall t, In t cs -> col (begin t) = c) -> forall rest last, stops c rest ->
  match last with None => True | Some l => col (begin l) = c end ->
  exists a r, cloop (is_tt COMMENT) last (text ++ rest) = (map T a, r) /\ comments (map T a) = cs /\ hd_error a = hd_error cs.
Proof.
  intros HB. induction HB as [t Ht|t gap u cs text Ht Hg Hc HB IH]; intros Hcol rest last Hs Hl; cbn [app].
  - pose proof (Hcol t (or_introl eq_refl)) as Ct. destruct (stop_cloop (is_tt COMMENT) last t rest) as (gap & r & E & Hg).
    + now apply is_tt_eq.
    + destruct last; [congruence|exact I].
    + intros gap u r Hr Hgap Hu. rewrite Ct. apply is_tt_eq in Hu. exact (Hs gap u r Hr Hgap Hu).
    + rewrite E. exists (t :: gap), r. split; [reflexivity|]. split; [|reflexivity]. cbn [map]. rewrite comments_cons by exact Ht.
      f_equal. rewrite <- (app_nil_r (map T gap)). rewrite comments_gap by exact Hg. reflexivity.
  - assert (tt u = COMMENT) as Hu. { inversion HB; assumption. }
    destruct (IH (fun x Hx => Hcol x (or_intror Hx)) rest (Some t) Hs (Hcol t (or_introl eq_refl))) as (a & r & E & E2 & E3).
    rewrite <- app_assoc. cbn [app] in *. rewrite gap_cloop; [|exact Hg|now apply is_tt_eq| |now apply is_tt_eq| |].
    + rewrite E. exists (t :: gap ++ a), r. split; [cbn [map]; now rewrite map_app|]. split; [|reflexivity].
      cbn [map]. rewrite comments_cons by exact Ht. rewrite map_app, comments_gap by now right. now rewrite E2.
    + destruct last; [|exact I]. rewrite Hl. symmetry. apply Hcol. now left.
    + intros x Hx. apply is_tt_eq in Hx. unfold is_tt. now rewrite Hx.
    + intros x Hx. apply is_tt_eq in Hx. unfold is_tt. now rewrite Hx.
Qed.
Lemma block_head cs text : block cs text -> exists t cs' text', cs = t :: cs' /\ text = t :: text' /\ tt t = COMMENT.
Proof. intros H. inversion H; subst; eauto 6. Qed.
Lemma block_comments cs text : block cs text -> forall t, In t cs -> tt t = COMMENT /\ In t text.
Proof.
  intros H. induction H as [t Ht|t gap u cs text Ht Hg Hc HB IH]; intros x Hx.
  - destruct Hx as [<-|[]]. split; [exact Ht|now left].
  - destruct Hx as [<-|Hx]; [split; [exact Ht|now left]|]. destruct (IH x Hx) as [K1 K2]. split; [exact K1|]. right. apply in_or_app. now right.
Qed.
Lemma take_blank ws : forall r, (forall t, In t ws -> blank_token t) -> match r with nil => True | t :: _ => is_ws t = false end -> take_ws (ws ++ r) = (map T ws, r).
Proof.
  induction ws as [|w ws IH]; intros r Hw Hr; cbn [app map].
  - destruct r as [|t r]; [reflexivity|]. cbn [take_ws]. now rewrite Hr.
  - cbn [take_ws]. assert (is_ws w = true) as ->. { destruct (Hw w (or_introl eq_refl)) as [E|E]; unfold is_ws, tmem; rewrite E; reflexivity. }
    rewrite (IH r) by (auto; intros t Ht; apply Hw; now right). reflexivity.
Qed.
Lemma top_tree ctx toks cs tree : wfctx true ctx -> top_block toks cs -> parse ctx toks = Ok tree ->
  exists lead a more, tree = N KBody (lead ++ N (KComment false) (map T a) :: more) /\ comments (map T a) = cs /\ hd_error a = hd_error cs /\
    (lead = nil \/ exists ws, lead = [N KWhitespace ws]).
Proof.
  intros Hwf (ws & text & rest & c & E & Hws & HB & Hcol & Hst) H. unfold parse in H. apply bindr_ok in H as ([l r] & H & K). injection K as <-.
  destruct (block_head cs text HB) as (t & cs' & text' & Ecs & Etx & Ht).
  assert (is_ws t = false) as Hwt by (unfold is_ws, tmem; now rewrite Ht).
  assert (forall n acc, Parse.body_loop n ctx nil acc (text ++ rest) = Ok (l, r) ->
    exists a more, l = acc ++ N (KComment false) (map T a) :: more /\ comments (map T a) = cs /\ hd_error a = hd_error cs) as HC.
  { intros n acc Hb. destruct n as [|n]; [discriminate|]. destruct (block_cloop cs text c HB Hcol rest None Hst I) as (a & r' & Ea & E2 & E3).
    assert (consume_comment (text ++ rest) = Ok (N (KComment false) (map T a), r')) as EC.
    { unfold consume_comment. rewrite Etx in Ea |- *. cbn [app] in *. rewrite Ea, Ht. cbn [tmem existsb ttype_eqb].
      destruct a as [|x a]; [|reflexivity]. rewrite Ecs in E3. discriminate. }
    assert (exists q, text ++ rest = t :: q) as (q & Eq) by (rewrite Etx; cbn [app]; eauto). rewrite Eq in Hb, EC.
    cbn [Parse.body_loop] in Hb. rewrite Hwt in Hb. assert (is_tt COMMENT t = true) as Hct by now apply is_tt_eq. rewrite Hct, EC in Hb. cbn [bindr] in Hb.
    destruct (body_suffix ctx Hwf _ _ _ _ _ _ Hb) as (_ & more & ->). exists a, more. rewrite <- app_assoc. auto. }
  destruct ws as [|w ws].
  - cbn [app] in E. rewrite E in H. destruct (HC _ _ H) as (a & more & -> & E2 & E3). exists nil, a, more. auto.
  - destruct (parse_fuel toks) as [|n]; [discriminate|]. rewrite E in H. cbn [app] in H. cbn [Parse.body_loop] in H.
    assert (is_ws w = true) as Hw. { destruct (Hws w (or_introl eq_refl)) as [X|X]; unfold is_ws, tmem; rewrite X; reflexivity. }
    rewrite Hw in H. change (w :: ws ++ text ++ rest) with ((w :: ws) ++ text ++ rest) in H.
    rewrite (take_blank (w :: ws) (text ++ rest) Hws) in H; [|rewrite Etx; exact Hwt].
    destruct (HC _ _ H) as (a & more & -> & E2 & E3). exists [N KWhitespace (map T (w :: ws))], a, more. cbn [app]. split; [reflexivity|]. eauto.
Qed.

(** ** The block in the output *)
Lemma inlines_are m ts : forall ls, comment_inlines m false (map T ts) = Ok ls -> ls = map (fun t => Markup.comment_line m false (spelling t)) (comments (map T ts)).
Proof.
  induction ts as [|t ts IH]; intros ls H; cbn [map comment_inlines] in H.
  - injection H as <-. reflexivity.
  - apply bindr_ok in H as (l & E & H). injection H as <-. apply IH in E. subst l. unfold comments. cbn [map flat_map].
    destruct (is_tt COMMENT t); reflexivity.
Qed.
Lemma trim_keeps {A} (f : A -> bool) a x b : f x = false -> trim_end f (a ++ x :: b) = a ++ x :: trim_end f b.
Proof.
  intros Hx. induction a as [|y a IH]; cbn [app trim_end].
  - destruct (trim_end f b); [now rewrite Hx|reflexivity].
  - rewrite IH. destruct a; reflexivity.
Qed.
Lemma find_first ws t r : (forall x, In x ws -> blank_token x) -> tt t = COMMENT -> first_token (ws ++ t :: r) = Some t.
Proof.
  intros H Ht. unfold first_token. induction ws as [|w ws IH]; cbn [app find].
  - unfold is_tt. rewrite Ht. reflexivity.
  - unfold is_tt at 1 2. destruct (H w (or_introl eq_refl)) as [-> | ->]; cbn [ttype_eqb orb negb]; apply IH; intros x Hx; apply H; now right.
Qed.
Lemma comment_starts src toks x : tokenize src = Ok toks -> In x toks -> tt x = COMMENT -> exists b, spelling x = cHASH :: b.
Proof.
  intros H Hx Ht. apply in_split in Hx as (pre & post & E). destruct (C04_token_classes _ _ _ _ _ H E) as (A & _ & _); [congruence|].
  rewrite Ht in A. destruct A as (b & -> & _). eauto.
Qed.
Theorem C129_first_comment : forall c specs tbl src text v, run_cfg c specs tbl -> p_usetabs c = false -> process_file c src = Ok (text, v) ->
  forall toks cs, tokenize src = Ok toks -> no_switch toks = true -> top_block toks cs ->
  (mk_enable (p_markup c) = false \/ mk_first_literal (p_markup c) = true \/ exists t, hd_error cs = Some t /\ startswith $"#!" (spelling t) = true) ->
  exists empty lines tail, Forall2 (kept_line (p_markup c)) (map spelling cs) lines /\ (empty = nil \/ empty = f_endl (effective c src)) /\
    text = bom_text c ++ empty ++ List.concat (map (fun l => l ++ f_endl (effective c src)) lines) ++ tail.
Proof.
  intros c specs tbl src text v R Ht H toks cs Hl Hno HT Hlit.
  destruct (C99_lines_of_items c specs tbl src text v R Ht H toks Hl Hno) as (tree & chs & Ep & HF & _ & Etext).
  assert (wfctx true (p_ctx c)) as Hwf. { destruct R as ((ex & vt & Hctx) & Hut & _). rewrite Hctx. eapply std_wfctx; eauto. }
  destruct (top_tree _ _ _ _ Hwf HT Ep) as (lead & a & more & -> & Ecs & Ehd & Hlead).
  destruct HT as (ws & btext & rest & cc & Etoks & Hws & HB & Hcol & Hst). destruct (block_head cs btext HB) as (t & cs' & text' & Ecs1 & Etx & Htt).
  assert (first_token toks = Some t) as Eft. { rewrite Etoks, Etx. cbn [app]. now apply find_first. }
  set (endl := f_endl (effective c src)) in *.
  assert (exists lead', (lead' = nil \/ exists n, lead' = [(0%nat, n)] /\ blank_item (0%nat, n) = true /\ exists w, n = N KWhitespace w) /\
    fitems 0 (N KBody (lead ++ N (KComment false) (map T a) :: more)) = lead' ++ (0%nat, N (KComment false) (map T a)) :: flat_map (fitems 0) more) as (lead' & Hl' & Ef).
  { cbn [fitems]. assert (forallb gone (lead ++ N (KComment false) (map T a) :: more) = false) as ->.
    { rewrite forallb_app. cbn [forallb gone]. now rewrite andb_false_r. }
    rewrite flat_map_app. cbn [flat_map fitems app]. destruct Hlead as [->|(w & ->)].
    - exists nil. split; [now left|reflexivity].
    - cbn [flat_map fitems app]. destruct (node_newlines (N KWhitespace w) <? 2).
      + exists nil. split; [now left|reflexivity].
      + exists [(0%nat, N KWhitespace w)]. split; [|reflexivity]. right. exists (N KWhitespace w). split; [reflexivity|]. split; [reflexivity|]. now exists w. }
  rewrite Ef, trim_keeps in HF by reflexivity. apply Forall2_app_inv_l in HF as (ch1 & ch2 & F1 & F2 & ->).
  inversion F2 as [|? s ? ch3 Hs F3]; subst ch2. clear F2.
  unfold item_lines in Hs. cbn [fst snd] in Hs.
  assert (is_bracket (map T a) = false) as EB.
  { destruct a as [|x0 a]; [reflexivity|]. rewrite Ecs1 in Ehd. injection Ehd as ->. unfold is_bracket. cbn [map]. destruct (map T a); [|reflexivity]. cbn [tok_is]. unfold is_tt. now rewrite Htt. }
  rewrite EB in Hs. destruct Hs as (ls & Hc & Hne & ->). cbn [pipe_env cmt] in Hc. rewrite Eft in Hc. unfold format_comment in Hc.
  apply bindr_ok in Hc as (ils & Hi & Hc). apply inlines_are in Hi. rewrite Ecs in Hi.
  assert (ls = map (fun l => [cHASH] ++ rstrip l) ils) as Els.
  { destruct Hlit as [Hm|Hm]; [rewrite Hm in Hc; cbn [negb] in Hc; now injection Hc|].
    destruct (negb (mk_enable (p_markup c))); [now injection Hc|].
    destruct (match mk_literal (p_markup c) with Some f => _ | None => _ end); [now injection Hc|].
    assert (exists a', a = t :: a') as (a' & ->). { destruct a as [|x0 a]; [rewrite Ecs1 in Ehd; discriminate|]. rewrite Ecs1 in Ehd. injection Ehd as ->. eauto. }
    cbn [map] in Hc. unfold same_token in Hc. rewrite Z.eqb_refl, seqb_refl in Hc. cbn [andb] in Hc.
    assert (mk_first_literal (p_markup c) || startswith $"#!" (spelling t) = true) as EL.
    { destruct Hm as [Hm|(t' & E1 & E2)]; [now rewrite Hm|]. rewrite Ecs1 in E1. injection E1 as <-. rewrite E2. apply orb_true_r. }
    rewrite EL in Hc. now injection Hc. }
  exists (match lead' with nil => nil | _ => endl end), ls, (match ch3 with nil => nil | _ => join endl ch3 ++ endl end).
  split; [|split].
  - rewrite Els, Hi, map_map. clear - HB Hl Etoks. pose proof (block_comments cs btext HB) as HX.
    assert (forall x, In x cs -> exists b, spelling x = cHASH :: b) as HY.
    { intros x Hx. destruct (HX x Hx) as [K1 K2]. apply (comment_starts src toks x Hl); [|exact K1]. rewrite Etoks. apply in_or_app. right. apply in_or_app. now left. }
    clear HX HB. induction cs as [|x cs IH]; cbn [map]; constructor.
    + destruct (HY x (or_introl eq_refl)) as (b & ->). apply (kept_ok (p_markup c) b).
    + apply IH. intros y Hy. apply HY. now right.
  - destruct lead'; auto.
  - rewrite Etext. clear Els Hi Etext. f_equal. change (Z.of_nat 0 * f_tab (effective c src)) with 0. cbn [spaces].
    replace (map (fun l => spaces 0 ++ l) ls) with ls by (symmetry; apply map_id).
    assert (forall X, List.concat (map (fun l => l ++ endl) ls) ++ X = join endl ls ++ endl ++ X) as EJ.
    { intros X. clear - Hne. induction ls as [|l ls IH]; [congruence|]. destruct ls as [|l2 ls].
      - cbn [map List.concat join]. now rewrite app_nil_r, <- app_assoc.
      - cbn [map List.concat] in *. rewrite <- app_assoc, IH by discriminate. change (join endl (l :: l2 :: ls)) with (l ++ endl ++ join endl (l2 :: ls)). now rewrite <- !app_assoc. }
    rewrite EJ.
    assert (join endl (join endl ls :: ch3) ++ endl = join endl ls ++ endl ++ match ch3 with nil => nil | _ => join endl ch3 ++ endl end) as EK.
    { destruct ch3 as [|y ch3]; [cbn [join]; now rewrite app_nil_r|]. change (join endl (join endl ls :: y :: ch3)) with (join endl ls ++ endl ++ join endl (y :: ch3)). now rewrite <- !app_assoc. }
    destruct Hl' as [->|(n & -> & _ & (w & ->))].
    + inversion F1; subst ch1. cbn [app]. exact EK.
    + inversion F1 as [|? s0 ? ? Hs0 F0]; subst. inversion F0; subst. unfold item_lines in Hs0. cbn [fst snd] in Hs0. subst s0. cbn [app].
      change (join endl (nil :: join endl ls :: ch3)) with (endl ++ join endl (join endl ls :: ch3)). rewrite <- app_assoc. f_equal. exact EK.
Qed.
Definition literal_pcfg : pcfg := PCfg default_fcfg
  (MCfg $"*" $"." true None fence_match ruler_match ruler_match $"#<" 10 true true) the_ctx false false false UseSpace.
Definition licence : str := nl [$""; $""; $"#   Copyright   (c)  me  "; $"#     all rights reserved"; $"set(x  1)"].
Example C129_ex : exists toks cs, run_cfg literal_pcfg nil nil /\ tokenize licence = Ok toks /\ no_switch toks = true /\ top_block toks cs /\ List.length cs = 2%nat /\
  mk_first_literal (p_markup literal_pcfg) = true /\
  process_file literal_pcfg licence = Ok (nl [$""; $"#   Copyright   (c)  me"; $"#     all rights reserved"; $"set(x 1)"], true) /\
  process_file default_pcfg licence = Ok (nl [$""; $"# Copyright   (c)  me all rights reserved"; $"set(x 1)"], true).
Proof.
  eexists. exists [Tok COMMENT $"#   Copyright   (c)  me  " (Loc 3 0 2); Tok COMMENT $"#     all rights reserved" (Loc 4 0 28)].
  split. { pose proof default_run as H. unfold run_cfg in *. cbn [p_ctx p_fmt p_markup literal_pcfg default_pcfg] in *. intuition (try assumption).  }
  split; [vm_compute; reflexivity|]. split; [vm_compute; reflexivity|]. split.
  { exists [Tok NEWLINE [cNL] (Loc 1 0 0); Tok NEWLINE [cNL] (Loc 2 0 1)]. eexists. eexists. exists 0. split; [|split; [|split; [|split]]].
    2:{ intros t [<-|[<-|[]]]; now right. }
    2:{ apply block_more with (gap := [Tok NEWLINE [cNL] (Loc 3 25 27)]); [reflexivity|now constructor|reflexivity|now constructor]. }
    - reflexivity.
    - intros t [<-|[<-|[]]]; reflexivity.
    - intros gap u r E [->|G] K; [|inversion G; subst gap]; cbn [app] in E; injection E; intros; subst; discriminate. }
  split; [reflexivity|]. split; [reflexivity|]. split; vm_compute; reflexivity.
Qed.

(** ** C130: false in two ways *)
(** The text comes out as written, apart from blanks at line ends: false behind a
    byte-order mark, where another token counts as the first one, and when a line
    begins with several hash signs. *)
Theorem C130_literal_refuted :
  (exists toks ws t rest, tokenize (cBOM :: $"#   Copyright   (c)") = Ok toks /\ toks = bom_token :: ws ++ t :: rest /\ tt t = COMMENT /\
     process_file literal_pcfg (cBOM :: $"#   Copyright   (c)") = Ok (nl [$"# Copyright   (c)"], true)) /\
  (exists toks cs, tokenize $"## Copyright" = Ok toks /\ top_block toks cs /\ map spelling cs = [$"## Copyright"] /\
     process_file literal_pcfg $"## Copyright" = Ok (nl [$"# Copyright"], true)).
Proof.
  split.
  - eexists. exists nil. eexists. eexists. split; [vm_compute; reflexivity|]. split; [reflexivity|]. split; [reflexivity|]. vm_compute. reflexivity.
  - eexists. eexists. split; [vm_compute; reflexivity|]. split.
    { exists nil. eexists. exists nil, 0. split; [|split; [|split; [|split]]]; [rewrite app_nil_r; reflexivity|intros t []| | |].
      - now constructor.
      - intros t [<-|[]]. reflexivity.
      - intros [|g gap] u r E; discriminate. }
    split; [reflexivity|]. vm_compute. reflexivity.
Qed.
