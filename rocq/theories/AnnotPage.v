(** * AnnotPage: the pages cmake-annotate writes (C164) *)
From Verif Require Import Base Regex Lex LexProofs TextOps Config PropConfig MainLoop PropMain Tree Parse CmdSpec StdSpecs StdDb PropParse PropStd Pipeline Render
  CmdLine PropCmd Entry PropEntry PropLintEntry AnnotEntry PropAnnotEntry.

(** ** Model *)
(** the template of a full page, templates/layout.html.tpl, filled in by get_html,
    render.py 34-69.  Its name does not end in .html, so nothing is escaped; jinja2, which
    is taken to be installed, drops the last newline.  [css] is the text of style.css. *)
Definition page_head (css : str) : str :=
  nl [$"<html>"; nil; $"<head>"; $"  <style type=""text/css"">"] ++ css ++ [cNL] ++ nl [$"  </style>"; $"</head>"; nil; $"<body>"; $"<div class=""content"">"].
Definition page_tail : str := cNL :: nl [$"</div>"; $"</body>"] ++ $"</html>".
Definition full_page (css content : str) : str := page_head css ++ content ++ page_tail.
(** EMBED_TPL without its third line, annotate.py 28-40 and 69-78; the text ends in a
    newline, so the last line is empty and gets a newline too *)
Definition frame_head : str := nl [nil; $"<template id=""renderedcontent"">"].
Definition frame_tail : str :=
  nl [$"</template>"; $"<iframe id=""renderframe"" style=""width:100%;""></iframe>"; $"<script type=""text/javascript"">";
      $"  var frame = document.getElementById(""renderframe"");"; $"  frame.addEventListener(""load"", function() {";
      $"    frame.height = frame.contentWindow.document.body.scrollHeight + 30;"; $"  });";
      $"  frame.srcdoc = document.getElementById(""renderedcontent"").innerHTML;"; $"</script>"; nil].
(** annotate_file, annotate.py 43-79 *)
Definition file_html (css : str) (ctx : pctx) (fmt src : str) : res str :=
  let? h := annotate ctx src in
  if seqb fmt $"page" then Ok (full_page css h)
  else if seqb fmt $"stub" then Ok h
  else if seqb fmt $"iframe" then Ok (frame_head ++ full_page css h ++ frame_tail)
  else Err ValueErr.

(** ** Specification *)
(** what stands around the source in what a browser shows of a page *)
Definition around (css fmt : str) : str * str :=
  if seqb fmt $"stub" then (nil, nil)
  else let head := [cNL; cNL; cNL] ++ $"  " ++ [cNL] ++ css ++ [cNL] ++ $"  " ++ [cNL; cNL; cNL; cNL; cNL] in
       let tail := [cNL; cNL; cNL] in
       if seqb fmt $"page" then (head, tail)
       else (nl [nil; nil] ++ head,
             tail ++ nl [nil; nil; nil; $"  var frame = document.getElementById(""renderframe"");"; $"  frame.addEventListener(""load"", function() {";
               $"    frame.height = frame.contentWindow.document.body.scrollHeight + 30;"; $"  });";
               $"  frame.srcdoc = document.getElementById(""renderedcontent"").innerHTML;"; nil; nil]).
(** the text of an input as the program reads it, with its configuration *)
Definition input_of (e : aenv) (code : oval -> Z) (n : ns) (w : fs) (p : str) (ct : config * str) : Prop :=
  annotate_config e code n p = Ok (fst ct)
  /\ (p = dash /\ a_stdin e (fst ct) = Ok (snd ct) \/ p <> dash /\ exists s m, w p = Some (s, m) /\ a_read e (fst ct) s = Ok (snd ct)).
(** sources that C48 is about: no less-than sign and no command with pairs of arguments *)
Definition simple_source (tbl : list (str * parser)) (t : str) : Prop :=
  ~ In cLT t /\ forall toks, tokenize t = Ok toks -> Forall (fun k => plain_command tbl (lower (spelling k))) toks.

(** ** C164 *)
Lemma annotate_shown ex vt specs tbl t h : user_table specs = Ok tbl -> simple_source tbl t -> annotate (std_ctx ex vt tbl) t = Ok h ->
  forall r, shown false (h ++ r) = strip_bom t ++ shown false r.
Proof.
  intros Hu [Hl Hp] H r. unfold annotate in H. destruct (tokenize t) as [toks| |] eqn:Ht; try discriminate. cbn [bindr] in H.
  destruct (parse (std_ctx ex vt tbl) toks) as [tree| |] eqn:E; try discriminate. injection H as <-.
  pose proof (C05_file_lossless ex vt specs tbl Hu t toks tree Ht (Hp _ eq_refl) E) as F.
  rewrite dump_shown; [now rewrite F|]. apply Forall_forall. intros k Hin X. apply Hl.
  assert (Y : In cLT (strip_bom t)). { rewrite <- F. apply in_concat. exists (spelling k). split; auto. now apply in_map. }
  unfold strip_bom in Y. destruct t as [|c s]; auto. destruct (N.eqb c cBOM); auto. now right.
Qed.
Lemma page_head_shown css r : ~ In cLT css -> shown false (page_head css ++ r)
  = ([cNL; cNL; cNL] ++ $"  " ++ [cNL] ++ css ++ [cNL] ++ $"  " ++ [cNL; cNL; cNL; cNL; cNL]) ++ shown false r.
Proof.
  intros H. unfold page_head. rewrite <- !app_assoc.
  change (shown false (nl [$"<html>"; nil; $"<head>"; $"  <style type=""text/css"">"] ++ ?x)) with ([cNL; cNL; cNL] ++ $"  " ++ [cNL] ++ shown false x).
  rewrite (shown_text css) by exact H. do 4 f_equal.
Qed.
Lemma ok_eq {A} (a b : A) : Ok a = Ok b -> b = a.
Proof. now injection 1. Qed.
Lemma file_shown css ex vt specs tbl fmt t h : ~ In cLT css -> user_table specs = Ok tbl -> simple_source tbl t -> In fmt [$"page"; $"stub"; $"iframe"] ->
  file_html css (std_ctx ex vt tbl) fmt t = Ok h ->
  forall r, shown false (h ++ r) = (fst (around css fmt) ++ strip_bom t ++ snd (around css fmt)) ++ shown false r.
Proof.
  intros Hc Hu Hs Hf H r. unfold file_html in H. destruct (annotate (std_ctx ex vt tbl) t) as [h0| |] eqn:E; try discriminate. cbn [bindr] in H.
  pose proof (annotate_shown _ _ _ _ _ _ Hu Hs E) as A.
  assert (P : forall r, shown false (full_page css h0 ++ r) = fst (around css $"page") ++ strip_bom t ++ snd (around css $"page") ++ shown false r).
  { intros r0. unfold full_page. rewrite <- !app_assoc, page_head_shown by exact Hc. rewrite A. reflexivity. }
  destruct Hf as [<-|[<-|[<-|[]]]]; [change (Ok (full_page css h0) = Ok h) in H|change (Ok h0 = Ok h) in H|change (Ok (frame_head ++ full_page css h0 ++ frame_tail) = Ok h) in H];
    apply ok_eq in H; subst h.
  - rewrite P, <- !app_assoc. reflexivity.
  - rewrite A. change (around css $"stub") with (@nil chr, @nil chr). cbn [fst snd app]. now rewrite app_nil_r.
  - rewrite <- !app_assoc. transitivity (nl [nil; nil] ++ shown false (full_page css h0 ++ frame_tail ++ r)); [reflexivity|]. rewrite P.
    change (fst (around css $"iframe")) with (nl [nil; nil] ++ fst (around css $"page")). rewrite <- !app_assoc. do 3 f_equal.
Qed.
Lemma stdout_back t : stdout_of (map SStdout t) = t.
Proof. induction t as [|c t IH]; [reflexivity|]. cbn [map stdout_of]. now rewrite IH. Qed.
Theorem C164_shown e code w argv n ps f l css ex vt (specs : config -> list (str * uspec)) tbl :
  (forall c, user_table (specs c) = Ok (tbl c)) -> (forall fmt c t, a_html e fmt c t = file_html css (std_ctx ex vt (tbl c)) fmt t) -> ~ In cLT css ->
  parse_args annotate_options argv = Done (n, ps) -> text_value $"format" n = Some f -> lookup $"outfile_path" n = Some None ->
  annotate_main e code w argv = (l, Exit 0) ->
  exists cts, Forall2 (input_of e code n w) ps cts
    /\ (Forall (fun ct => simple_source (tbl (fst ct)) (snd ct)) cts ->
        shown false (stdout_of l) = List.concat (map (fun ct => fst (around css f) ++ strip_bom (snd ct) ++ snd (around css f)) cts)).
Proof.
  intros Hu Hh Hc H Hf Ho R.
  assert (Hd : In dash ps -> ps = [dash]).
  { intros Hi. destruct (list_eq_dec (list_eq_dec N.eq_dec) ps [dash]) as [->|Hn]; [reflexivity|].
    rewrite (C163_stdin_alone e code w argv n ps H Hi (or_introl Hn)) in R. discriminate. }
  apply (C163_pages e code w argv n ps f l H Hf Ho Hd) in R as (hs & Hp & ->). rewrite stdout_back.
  assert (Ff : ps <> nil -> In f [$"page"; $"stub"; $"iframe"]).
  { intros Hn. destruct Hp as [|p h ps' hs' (c & t & _ & _ & Hx) _]; [congruence|]. rewrite Hh in Hx. unfold file_html in Hx.
    destruct (annotate _ t); try discriminate. cbn [bindr] in Hx.
    destruct (seqb f $"page") eqn:E1; [apply seqb_eq in E1; subst; now left|]. destruct (seqb f $"stub") eqn:E2; [apply seqb_eq in E2; subst; right; now left|].
    destruct (seqb f $"iframe") eqn:E3; [apply seqb_eq in E3; subst; right; right; now left|discriminate]. }
  clear H Ho Hd. induction Hp as [|p h ps' hs' Hx Hp IH]; [exists nil; split; [constructor|reflexivity]|].
  specialize (Ff ltac:(discriminate)). destruct (IH (fun _ => Ff)) as (cts & H2 & Hs). destruct Hx as (c & t & Ec & Hin & Hx).
  exists ((c, t) :: cts). split; [constructor; [split; assumption|exact H2]|]. intros Fa. inversion Fa as [|? ? Fs Fr]; subst. cbn [fst snd] in *.
  rewrite Hh in Hx. cbn [List.concat map]. rewrite (file_shown css ex vt _ _ _ _ _ Hc (Hu c) Fs Ff Hx). f_equal. now apply Hs.
Qed.
(** the hypotheses are met by a run over two files *)
Definition page_aenv : aenv := AEnv (fun _ => None) (fun _ => Ok nil) (fun _ => Ok nil) (fun _ t => Ok t) (fun _ => true)
  (fun fmt c t => file_html $"body {}" (std_ctx (fun _ => false) nil nil) fmt t).
Example C164_ex : let w := fun p => if seqb p $"a" then Some (src_html, 0) else if seqb p $"b" then Some ($"foo()", 0) else None in
  user_table nil = Ok nil /\ ~ In cLT $"body {}" /\ simple_source nil src_html
  /\ exists n l, parse_args annotate_options [$"a"; $"b"] = Done (n, [$"a"; $"b"]) /\ text_value $"format" n = Some $"stub" /\ lookup $"outfile_path" n = Some None
    /\ annotate_main page_aenv (fun _ => 0) w [$"a"; $"b"] = (l, Exit 0) /\ shown false (stdout_of l) = src_html ++ $"foo()".
Proof.
  cbn zeta. split; [reflexivity|]. split; [intros X; vm_compute in X; intuition discriminate|]. split.
  { split; [intros X; vm_compute in X; intuition discriminate|]. intros toks E. vm_compute in E. injection E as <-.
    apply Forall_forall; intros t Ht; right; revert t Ht; apply plain_check; vm_compute; reflexivity. }
  eexists. eexists. split; [vm_compute; reflexivity|]. split; [vm_compute; reflexivity|]. split; [vm_compute; reflexivity|].
  split; [vm_compute; reflexivity|]. vm_compute. reflexivity.
Qed.
