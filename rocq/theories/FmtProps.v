(** C46, C94: the token-based formatter. *)
From Verif Require Import Base BaseFacts StringsModel EncodingModel LexSpec LexModel LexProofs LexProofs4 FmtSpec FmtModel FmtProofs FmtProofs2 FmtProofs3 FmtProofs4 FmtProofs5.

(** C46: every source is formatted, to its own lines in order, each with other indentation only *)
Theorem fmt_lines src : exists out ls ls', format src = Some out /\ has_lines src ls /\ has_lines out ls' /\ out = text ls' /\ Forall2 reindented ls ls'.
Proof.
  destruct (format_total src) as [out F]. exists out. unfold format in F. destruct (depth_table src (count_lines src)) as [table|] eqn:D; [|discriminate]. injection F as F.
  exists (lines src), (written_lines src table 1 (lines src)). unfold format. rewrite D, <- F, format_lines_written. split; [reflexivity|]. split; [apply lines_has|].
  split; [split; [apply written_lines_no_newline, lines_no_newline|now left]|]. split; [reflexivity|apply written_lines_reindented].
Qed.
(** C46: formatting twice is formatting once, unless a quote ends a line and the next line starts with one *)
Theorem fmt_twice_partial src out : ~ quote_break src -> format src = Some out -> format out = Some out.
Proof. apply format_twice. Qed.
(** C46: the program stays the same, token by token, if quotes only delimit strings, only raw strings have line breaks, and
    these have no line of blanks only *)
Theorem fmt_program_partial src ts out : lex src = Some ts -> Forall (fun t => tkind t <> ILLEGAL) ts -> tidy [] ts src -> format src = Some out ->
  exists ts', lex out = Some ts' /\ map meaning ts' = map meaning ts.
Proof.
  intros L Lg. apply format_tokens; [exact L|]. apply forallb_forall. intros t I. rewrite Forall_forall in Lg. specialize (Lg t I). unfold legal. destruct (tkind t); congruence.
Qed.
(** C46 in full does not hold.  A line of blanks inside a raw string is emptied; a quote in a comment or in a character
    makes the formatter indent inside a raw string; a string with a line break inside an interpolation is changed;
    and formatting twice can differ from once. *)
Definition changes (src : bytes) : Prop := exists ts out ts', lex src = Some ts /\ Forall (fun t => tkind t <> ILLEGAL) ts /\ format src = Some out /\ lex out = Some ts' /\ map meaning ts' <> map meaning ts.
Ltac differs := do 3 eexists; split; [vm_compute; reflexivity|]; split; [repeat constructor; discriminate|]; split; [vm_compute; reflexivity|]; split; [vm_compute; reflexivity|discriminate].
Theorem fmt_refuted :
  changes (bs "`a" ++ [10] ++ bs "  " ++ [10] ++ bs "b`") /\
  changes (bs "// 5"" disk" ++ [10] ++ bs "{" ++ [10] ++ bs "`a" ++ [10] ++ bs "b`" ++ [10] ++ bs "}") /\
  changes (bs "'""'{" ++ [10] ++ bs "`a" ++ [10] ++ bs "b`" ++ [10] ++ bs "}") /\
  changes (bs "{" ++ [10] ++ bs "x = ""${" ++ [10] ++ bs "}""" ++ [10] ++ bs "}") /\
  exists src once twice, format src = Some once /\ format once = Some twice /\ twice <> once.
Proof.
  split; [differs|]. split; [differs|]. split; [differs|]. split; [differs|].
  exists ([39; 10] ++ bs " '" ++ [10] ++ bs "{" ++ [10] ++ bs "x"). do 2 eexists. split; [vm_compute; reflexivity|]. split; [vm_compute; reflexivity|discriminate].
Qed.

(** C94: a line whose first token is t, with every earlier token ended on an earlier line, gets four spaces for each brace
    open before it, a closing brace itself one brace less *)
Theorem fmt_indent_partial src ts out ls ls' a t b : lex src = Some ts -> Forall (fun t => tkind t <> ILLEGAL) ts -> tidy [] ts src \/ ~ In 96 src -> format src = Some out ->
  has_lines src ls -> has_lines out ls' -> ts = a ++ t :: b -> tkind t <> EOF -> Forall (fun u => tline u + newlines (literal u) < tline t) a ->
  exists w x, nth (Z.to_nat (tline t - 1)) ls [] = w ++ x /\ Forall indent_char w /\ ~ indent_char (hd 0 x) /\ x <> [] /\
    nth (Z.to_nat (tline t - 1)) ls' [] = List.repeat 32 (Z.to_nat (4 * start_depth (nesting 0 a) (tkind t))) ++ x.
Proof.
  intros L Lg T F H H' Et K Fa. apply has_lines_unique in H as ->. apply has_lines_unique in H' as ->. eapply format_depth; eauto.
  apply forallb_forall. intros u I. rewrite Forall_forall in Lg. specialize (Lg u I). unfold legal. destruct (tkind u); congruence.
Qed.
(** C94 in full does not hold: a comment on its own line after an opening brace is indented like the line of the brace *)
Theorem fmt_indent_refuted : exists src out, format src = Some out /\ src = bs "{" ++ [10] ++ bs "// first" ++ [10] ++ bs "x" ++ [10] ++ bs "}" /\
  out = bs "{" ++ [10] ++ bs "// first" ++ [10] ++ bs "    x" ++ [10] ++ bs "}" ++ [10].
Proof. do 2 eexists. split; [|split; [reflexivity|]]; vm_compute; reflexivity. Qed.

(** Examples *)
Lemma tidy_step pre t ts g s src : src = g ++ spelling (tkind t) (literal t) ++ s -> quote_free g -> tline t = 1 + newlines (pre ++ g) -> tcol t - 1 = column (pre ++ g) -> plain_token t ->
  tidy (pre ++ g ++ spelling (tkind t) (literal t)) ts s -> tidy pre (t :: ts) src.
Proof. intros -> F L C P T. apply tidy_token; auto. split; [exact L|]. rewrite C. apply column_spec. Qed.
Example fmt_example : let src := bs "{" ++ [10] ++ bs "`a" ++ [10] ++ bs "  b`" in
  exists ts, lex src = Some ts /\ Forall (fun t => tkind t <> ILLEGAL) ts /\ tidy [] ts src /\ ~ quote_break src /\ format src = Some (bs "{" ++ [10] ++ bs "    `a" ++ [10] ++ bs "  b`" ++ [10]) /\
    exists t, ts = [hd t ts] ++ t :: [nth 2 ts t] /\ Forall (fun u => tline u + newlines (literal u) < tline t) [hd t ts].
Proof.
  cbv zeta. eexists. split; [vm_compute; reflexivity|]. split; [repeat constructor; discriminate|]. split; [|split; [|split]].
  - apply (tidy_step [] _ _ [] (skipn 1 (bs "{" ++ [10] ++ bs "`a" ++ [10] ++ bs "  b`"))); [reflexivity|split; intros []|reflexivity|reflexivity|split; [split|]; vm_compute; intuition discriminate|].
    apply (tidy_step _ _ _ [10] []); [reflexivity|split; vm_compute; intuition discriminate|reflexivity|reflexivity| |constructor].
    intros a w b E _. exfalso. vm_compute in E. destruct a as [|x a]; [discriminate|]. injection E as _ E. destruct a as [|y a]; cbn [app] in E.
    + injection E as E. destruct w as [|? [|? [|? [|? w]]]]; discriminate.
    + injection E as _ E. destruct a as [|? [|? [|? [|? a]]]]; discriminate.
  - intros (a & w & b & E & _). assert (I : In 39 (a ++ [39; 10] ++ w ++ [39] ++ b)) by (apply in_app_iff; right; now left). rewrite <- E in I. vm_compute in I. intuition discriminate.
  - vm_compute. reflexivity.
  - eexists. split; [reflexivity|]. repeat constructor.
Qed.
Example fmt_twice_example : let src := bs "do f() {" ++ [10] ++ bs "return 1" ++ [10] ++ bs "  }" in ~ quote_break src /\ exists out, format src = Some out /\ out <> src.
Proof.
  split; [|eexists; split; [vm_compute; reflexivity|discriminate]].
  intros (a & w & b & E & _). assert (I : In 39 (a ++ [39; 10] ++ w ++ [39] ++ b)) by (apply in_app_iff; right; now left). rewrite <- E in I. vm_compute in I. intuition discriminate.
Qed.

Print Assumptions fmt_lines.
Print Assumptions fmt_twice_partial.
Print Assumptions fmt_program_partial.
Print Assumptions fmt_refuted.
Print Assumptions fmt_indent_partial.
Print Assumptions fmt_indent_refuted.
