(** C57: keywords; C58: lexing covers the source; C93: words are not split. *)
From Coq Require Import Sorted.
From Verif Require Import Base LexSpec LexModel LexProofs LexProofs2 LexProofs3 LexProofs4.

(** * C57 *)
Definition kind_eq (a b : kind) : {a = b} + {a <> b}.
Proof. decide equality. Defined.
(** A name is a keyword exactly if it is in the language's list, with the meaning of the list; every other name is an
    identifier.  The binary search always ends, inside the table *)
Theorem keyword_exact name : exists k, lookup_identifier name = Some k /\
  forall kw, kw <> IDENT -> (k = kw <-> In (name, kw) keyword_list).
Proof.
  destruct (lookup_exact name) as [(k & I & ->)|[N ->]]; eexists; (split; [reflexivity|]); intros kw K.
  - split; [intros <-; exact I|]. intros J.
    assert (U : forall w a b, In (w, a) keyword_list -> In (w, b) keyword_list -> a = b).
    { assert (C : forallb (fun x => forallb (fun y => negb (strcmp (fst x) (fst y) =? 0) || (if kind_eq (snd x) (snd y) then true else false)) keyword_list) keyword_list = true)
        by (vm_compute; reflexivity).
      intros w a b A B. rewrite forallb_forall in C. specialize (C _ A). rewrite forallb_forall in C. specialize (C _ B). cbn [fst snd] in C. rewrite strcmp_refl in C.
      cbn in C. destruct (kind_eq a b); [assumption|discriminate]. }
    exact (U _ _ _ I J).
  - split; [intros <-; contradiction|]. intros J. exfalso. exact (N _ J).
Qed.
Theorem identifier_exact name : lookup_identifier name = Some IDENT <-> forall kw, ~ In (name, kw) keyword_list.
Proof.
  destruct (lookup_exact name) as [(k & I & ->)|[N ->]].
  - split; [|intros H; exfalso; exact (H k I)]. intros [= ->]. exfalso.
    assert (C : forallb (fun x => match snd x with IDENT => false | _ => true end) keyword_list = true) by (vm_compute; reflexivity).
    rewrite forallb_forall in C. specialize (C _ I). discriminate.
  - split; [intros _; exact N|reflexivity].
Qed.
Example keyword_while : lookup_identifier (bs "while") = Some AS_LONG_AS /\ lookup_identifier (bs "_") = Some BLANK /\ lookup_identifier (bs "whilE") = Some IDENT /\ lookup_identifier [] = Some IDENT.
Proof. vm_compute. auto. Qed.

(** * C58 *)
Definition is_illegal (t : token) : bool := match tkind t with ILLEGAL => true | _ => false end.
(** Lexing ends, with EOF as the last token only; the tokens and the layout between them are the source, each token where
    it says it is *)
Theorem lex_covers src : exists ts, lex src = Some ts /\ made_of (negb (existsb is_illegal ts)) [] ts src /\
  (length ts <= S (length src))%nat /\ exists body e, ts = body ++ [e] /\ tkind e = EOF /\ Forall (fun t => tkind t <> EOF) body.
Proof.
  destruct (lex_made src) as (ts & L & M & N). exists ts. split; [exact L|].
  replace (negb (existsb is_illegal ts)) with (forallb legal ts).
  2:{ clear. induction ts as [|t ts IH]; cbn [existsb forallb]; [reflexivity|]. rewrite negb_orb, IH. unfold legal, is_illegal. destruct (tkind t); reflexivity. }
  split; [exact M|]. split; [exact N|]. exact (made_ends _ _ _ _ M).
Qed.
(** Without errors, positions go strictly up *)
Theorem lex_ordered src ts : lex src = Some ts -> existsb is_illegal ts = false -> StronglySorted before ts.
Proof.
  intros L E. destruct (lex_covers src) as (ts' & L' & M & _). rewrite L in L'. injection L' as <-. rewrite E in M.
  apply Sorted_StronglySorted; [|exact (proj1 (made_ordered _ _ _ M))].
  intros x y z. unfold before. lia.
Qed.
(** Layout does not matter: the tokens written out again, with any blanks and comments between them, are the same tokens *)
Theorem relex src ts src' : lex src = Some ts -> existsb is_illegal ts = false -> laid_out (map meaning ts) src' ->
  exists ts', lex src' = Some ts' /\ map meaning ts' = map meaning ts.
Proof.
  intros L E Ly. assert (F : forallb legal ts = true).
  { clear -E. induction ts as [|t ts IH]; [reflexivity|]. cbn [existsb forallb] in *. apply orb_false_iff in E as [A B]. unfold legal. unfold is_illegal in A. destruct (tkind t); try discriminate; cbn; auto. }
  unfold lex in L. rewrite at_create in L. destruct (tokens_keep _ _ _ _ L F) as (body & e & -> & K & Me).
  unfold lex. rewrite at_create. rewrite map_app in *. cbn [map] in *. rewrite Me in *.
  exact (laid_tokens _ _ Ly (map meaning body) eq_refl K (S (length src')) [] (Nat.lt_succ_diag_r _)).
Qed.
Definition sample : bytes := bs "do main() { // entry" ++ [10] ++ bs "  mut x int = 1_000 /* n */ x+= 0xFF" ++ [10] ++ bs "}".
Example sample_lexes : option_map (map (fun t => (tkind t, tline t, tcol t))) (lex sample) =
  Some [(DO, 1, 1); (IDENT, 1, 4); (LPAREN, 1, 8); (RPAREN, 1, 9); (LBRACE, 1, 11); (MUT, 2, 3); (IDENT, 2, 7); (IDENT, 2, 9); (ASSIGN, 2, 13);
        (INT, 2, 15); (IDENT, 2, 29); (PLUS_ASSIGN, 2, 30); (INT, 2, 33); (RBRACE, 3, 1); (EOF, 3, 2)].
Proof. vm_compute. reflexivity. Qed.
Example sample_laid : laid_out [(IDENT, bs "x"); (PLUS, bs "+"); (INT, bs "1"); (EOF, [])] (bs "x /* a */+ 1 // b").
Proof.
  apply (laid_token IDENT (bs "x") _ [] (bs " /* a */+ 1 // b")); [constructor|right; exists 32, (bs "/* a */+ 1 // b"); split; [left|]; reflexivity|].
  apply (laid_token PLUS (bs "+") _ (bs " /* a */") (bs " 1 // b")); [|right; exists 32, (bs "1 // b"); split; [left|]; reflexivity|].
  { apply gap_blank; [left; reflexivity|]. apply (gap_block _ (bs " a ") []); [|constructor]. intros [|x [|y [|z [|w a]]]] b; discriminate. }
  apply (laid_token INT (bs "1") _ [32] (bs " // b")); [apply gap_blank; [left; reflexivity|constructor]|right; exists 32, (bs "// b"); split; [left|]; reflexivity|].
  apply laid_end. apply (gap_blank _ 32 (bs "// b")); [left; reflexivity|]. apply (gap_last True (bs " b")); [exact Logic.I|]. cbn. intuition discriminate.
Qed.
(** The errors of a source, as the compiler reports the first *)
Example lex_errors : map (fun s => option_map (map meaning) (lex s)) [bs "a /* b"; bs """x"; bs "1__0"; bs "'ab'"] =
  [Some [(IDENT, bs "a"); (ILLEGAL, bs "E1003"); (EOF, [])]; Some [(ILLEGAL, bs "E1021"); (EOF, [])]; Some [(ILLEGAL, bs "E1011"); (EOF, [])];
   Some [(ILLEGAL, bs "E1018"); (EOF, [])]].
Proof. vm_compute. reflexivity. Qed.

(** * C93 *)
(** Only after a number, "!in" or an attribute can a run of letters, digits and underscores go on in the next token.
    Missing: for those it does *)
Theorem words_partial src ts a t u b : lex src = Some ts -> existsb is_illegal ts = false -> ts = a ++ t :: u :: b -> after_gap u = false ->
  word_letter (last (spelling (tkind t) (literal t)) 0) -> word_letter (hd 0 (spelling (tkind u) (literal u))) ->
  tkind t = INT \/ tkind t = FLOAT \/
  In (meaning t) [(NOT_IN, bs "!in"); (SUPPRESS, bs "#suppress"); (STRICT, bs "#strict"); (FLAGS, bs "#flags"); (DOC, bs "#doc"); (JSON_ATTR, bs "#json")].
Proof.
  intros L E Et Gu Wt Wu. assert (F : forallb legal ts = true).
  { clear -E. induction ts as [|x ts IH]; [reflexivity|]. cbn [existsb forallb] in *. apply orb_false_iff in E as [A B]. unfold legal. unfold is_illegal in A. destruct (tkind x); try discriminate; cbn; auto. }
  unfold lex in L. rewrite at_create in L. exact (tokens_split _ _ _ _ L F a t u b Et Gu Wt Wu).
Qed.
Theorem words_refuted :
  map (fun s => option_map (map meaning) (lex s)) [bs "0b12"; bs "12ab"; bs "x !in_list"; bs "#document"; bs "0xFG"; bs "0_x1"] =
  [Some [(INT, bs "0b1"); (INT, bs "2"); (EOF, [])]; Some [(INT, bs "12"); (IDENT, bs "ab"); (EOF, [])];
   Some [(IDENT, bs "x"); (NOT_IN, bs "!in"); (IDENT, bs "_list"); (EOF, [])]; Some [(DOC, bs "#doc"); (IDENT, bs "ument"); (EOF, [])];
   Some [(INT, bs "0xF"); (IDENT, bs "G"); (EOF, [])]; Some [(ILLEGAL, bs "E1013"); (IDENT, bs "x1"); (EOF, [])]].
Proof. vm_compute. reflexivity. Qed.
Example words_sample : exists a t u b, lex (bs "12ab") = Some (a ++ t :: u :: b) /\ after_gap u = false /\ tkind t = INT /\ literal u = bs "ab".
Proof. exists [], (Tok INT (bs "12") 1 1 false), (Tok IDENT (bs "ab") 1 3 false), [Tok EOF [] 1 5 false]. vm_compute. auto. Qed.

Print Assumptions keyword_exact.
Print Assumptions identifier_exact.
Print Assumptions lex_covers.
Print Assumptions lex_ordered.
Print Assumptions relex.
Print Assumptions words_partial.
Print Assumptions words_refuted.
