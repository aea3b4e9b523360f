(** C59: integer literals; C61: string and character literals in C; C95: literals of 128 and 256 bits. *)
From Verif Require Import Base StringsModel EncodingModel LexSpec LexModel LexProofs4 LexProps BigIntModel BigIntSpec LitSpec LitModel LitSpec2 LitProofs LitProofs2 LitProofs3.
From Verif Require Import Decimal.
Lemma no_illegal ts : existsb is_illegal ts = false -> forallb legal ts = true.
Proof.
  induction ts as [|t ts IH]; intros E; [reflexivity|]. cbn [existsb forallb] in *. apply orb_false_iff in E as [A B]. unfold legal, is_illegal in *. destruct (tkind t); try discriminate; cbn; auto.
Qed.

(** * C59 *)
(** The value if it fits in 64 bits, an overflow exactly if it does not; what is emitted is the value in decimal *)
Theorem int_literal_exact lit v : int_literal lit v ->
  (overflow (parse_int lit) = false <-> v <= INT64_MAX) /\ (overflow_u64 (parse_int lit) = false <-> v <= UINT64_MAX) /\
  (v <= INT64_MAX -> ivalue (parse_int lit) = v /\ emit_int (parse_int lit) = dec v) /\
  (INT64_MAX < v <= UINT64_MAX -> ivalue (parse_int lit) = v - 2 ^ 64 /\ emit_int (parse_int lit) = dec v ++ bs "ULL").
Proof.
  intros L. pose proof (int_literal_pos _ _ L) as P. rewrite (parse_int_spec _ _ L). unfold emit_int, UMAX. cbn [overflow overflow_u64 ivalue].
  change INT64_MAX with 9223372036854775807. change UINT64_MAX with 18446744073709551615. split; [lia|]. split; [lia|]. split.
  - intros H. replace (9223372036854775807 <? v) with false by lia. rewrite wrap_i_small by (change INT64_MAX with 9223372036854775807; lia). split; [reflexivity|]. unfold dec_signed. replace (v <? 0) with false by lia. reflexivity.
  - intros H. replace (9223372036854775807 <? v) with true by lia. rewrite wrap_u_i, Z.mod_small by lia. split; [|reflexivity].
    unfold wrap_i. change (2 ^ 64) with 18446744073709551616. change (2 ^ (64 - 1)) with 9223372036854775808. cbv zeta. rewrite Z.mod_small by lia. destruct (v <? 9223372036854775808) eqn:E; lia.
Qed.
(** Every integer token of a source without errors is a literal of the grammar, with one value *)
Theorem int_token_literal src ts t : lex src = Some ts -> existsb is_illegal ts = false -> In t ts -> tkind t = INT ->
  exists v, int_literal (literal t) v /\ forall w, int_literal (literal t) w -> w = v.
Proof.
  intros L E I K. destruct (int_token _ _ _ L (no_illegal _ E) I K) as [v H]. exists v. split; [exact H|]. intros w H'. exact (int_literal_unique _ _ _ H' H).
Qed.
Example int_literals : int_literal (bs "0xFF_ff") 65535 /\ int_literal (bs "1_000") 1000 /\ int_literal (bs "0o17") 15 /\ int_literal (bs "0B101") 5.
Proof.
  assert (D : forall b c d, digit b c d -> forall s v, numeral b s v -> numeral b (s ++ [c]) (b * v + d)) by (intros; now constructor).
  split; [|split; [|split]].
  - apply (lit_hex 120 (bs "FF_ff")); [now left|].
    change 65535 with (16 * (16 * (16 * (16 * 0 + (70 - 55)) + (70 - 55)) + (102 - 87)) + (102 - 87)).
    apply (num_digit 16 (bs "FF_f") _ 102); [|apply digit_low; lia]. apply (num_digit 16 (bs "FF_") _ 102); [|apply digit_low; lia]. apply (num_sep 16 (bs "FF")).
    apply (num_digit 16 (bs "F") _ 70); [|apply digit_up; lia]. apply (num_digit 16 [] 0 70); [constructor|apply digit_up; lia].
  - apply lit_dec. change 1000 with (10 * (10 * (10 * (10 * 0 + (49 - 48)) + (48 - 48)) + (48 - 48)) + (48 - 48)).
    apply (num_digit 10 (bs "1_00") _ 48); [|apply digit_num; lia]. apply (num_digit 10 (bs "1_0") _ 48); [|apply digit_num; lia]. apply (num_digit 10 (bs "1_") _ 48); [|apply digit_num; lia].
    apply (num_sep 10 (bs "1")). apply (num_digit 10 [] 0 49); [constructor|apply digit_num; lia].
  - apply (lit_oct 111 (bs "17")); [now left|]. change 15 with (8 * (8 * 0 + (49 - 48)) + (55 - 48)).
    apply (num_digit 8 (bs "1") _ 55); [|apply digit_num; lia]. apply (num_digit 8 [] 0 49); [constructor|apply digit_num; lia].
  - apply (lit_bin 66 (bs "101")); [now right|]. change 5 with (2 * (2 * (2 * 0 + (49 - 48)) + (48 - 48)) + (49 - 48)).
    apply (num_digit 2 (bs "10") _ 49); [|apply digit_num; lia]. apply (num_digit 2 (bs "1") _ 48); [|apply digit_num; lia]. apply (num_digit 2 [] 0 49); [constructor|apply digit_num; lia].
Qed.
Example int_parsed : map (fun s => (ivalue (parse_int s), overflow (parse_int s), overflow_u64 (parse_int s)))
  [bs "9223372036854775807"; bs "9223372036854775808"; bs "18446744073709551615"; bs "18446744073709551616"; bs "0x1_0000_0000_0000_0000"] =
  [(9223372036854775807, false, false); (-9223372036854775808, true, false); (-1, true, false); (0, true, true); (0, true, true)].
Proof. vm_compute. reflexivity. Qed.

(** * C61 *)
(** Text with escapes.  Missing: text with two question marks in a row, an escaped backslash before a dollar sign, \0
    before an octal digit; inside a function, text with a zero byte and another byte written as \xNN *)
Theorem string_partial top lit its : spells lit its -> free_of (bs "??") lit -> no_neighbours bad_dollar its -> no_neighbours bad_octal its ->
  (top = false -> In 0 (map denoted its) -> Forall (fun i => ~ other_hex i) its) ->
  value_of (emit_string top false lit) = Some (map denoted its).
Proof. intros [F ->] Q D O H. now apply emit_items. Qed.
(** Raw text.  Missing: text with two question marks in a row; inside a function, text with \0 or \x00 in it *)
Theorem raw_partial top lit : ~ In 0 lit -> free_of (bs "??") lit -> (top = false -> free_of (bs "\0") lit /\ free_of (bs "\x00") lit) ->
  value_of (emit_string top true lit) = Some lit.
Proof. apply emit_raw. Qed.
(** Text in an interpolated string: the format denotes it.  Missing: two question marks in a row, an escaped backslash
    before a dollar sign, zero bytes, \x25, \xNN before a hexadecimal digit *)
Theorem format_partial lit its : spells lit its -> free_of (bs "??") lit -> no_neighbours bad_dollar its -> no_neighbours bad_hex its -> Forall (fun i => ~ bad_item i) its ->
  exists f, c_string (quoted (part lit)) = Some f /\ printf_text f = Some (map denoted its).
Proof.
  intros [F ->] Q D H B. exists (flat_map doubled its). split; [apply quoted_string; [apply part_qq, qq_free, Q|now apply part_chars]|]. apply printf_doubled.
  eapply Forall_impl; [|exact B]. intros i N E. apply N. now left.
Qed.
(** Every string token of a source without errors reads as items in exactly one way *)
Theorem string_token_items src ts t : lex src = Some ts -> existsb is_illegal ts = false -> ~ In 0 src -> In t ts -> tkind t = STRING -> ~ interpolates (literal t) ->
  has_interpolation (literal t) = false /\ exists its, spells (literal t) its /\ forall its', spells (literal t) its' -> its' = its.
Proof.
  intros L E Z0 I K NI. split. { destruct (has_interpolation (literal t)) eqn:H; [|reflexivity]. exfalso. apply NI. now apply interpolation_spec. }
  destruct (string_token _ _ _ L (no_illegal _ E) Z0 I K NI) as [its [F Q]]. exists its. split; [split; assumption|]. intros its' [F' Q']. apply items_unique; [exact F'|exact F|congruence].
Qed.
(** Characters: a plain one, or an escape *)
Theorem char_exact c : 0 < c < 128 -> c <> 92 -> c_char (emit_char (parse_char [c])) = Some c.
Proof.
  intros R B. assert (H : forallb (fun c => (c =? 92) || match c_char (emit_char (parse_char [c])) with Some d => d =? c | None => false end) (map Z.of_nat (seq 1 127)) = true) by (vm_compute; reflexivity).
  rewrite forallb_forall in H. specialize (H c). destruct (c_char _) as [d|]; [f_equal; assert (In c (map Z.of_nat (seq 1 127))) by (apply in_map_iff; exists (Z.to_nat c); split; [lia|apply in_seq; lia]); specialize (H H0); lia|].
  assert (In c (map Z.of_nat (seq 1 127))) by (apply in_map_iff; exists (Z.to_nat c); split; [lia|apply in_seq; lia]). specialize (H H0). lia.
Qed.
Theorem char_escape_exact e v : In (e, v) escapes -> In e [110; 116; 114; 92; 39; 48] -> c_char (emit_char (parse_char [92; e])) = Some v.
Proof.
  intros I J. assert (C : forallb (fun p => negb (existsb (Z.eqb (fst p)) [110; 116; 114; 92; 39; 48]) || match c_char (emit_char (parse_char [92; fst p])) with Some d => d =? snd p | None => false end) escapes = true) by (vm_compute; reflexivity).
  rewrite forallb_forall in C. specialize (C _ I). cbn [fst snd] in C. replace (existsb (Z.eqb e) [110; 116; 114; 92; 39; 48]) with true in C. 2:{ symmetry. apply existsb_exists. exists e. split; [exact J|lia]. }
  cbn [negb orb] in C. destruct (c_char _); [f_equal; lia|discriminate].
Qed.
(** The missing cases are wrong: \0 and a digit become an octal escape, a trigraph is replaced, a backslash before a
    dollar sign is lost, too many or too few bytes are counted, raw text is cut, and in an interpolated string a
    hexadecimal escape swallows the next letter, a zero cuts the text and \x25 is a conversion *)
Theorem string_refuted :
  value_of (emit_string false false (bs "\01")) = Some [1; 0] /\ spells (bs "\01") [Escape 48 0; Plain 49] /\
  value_of (emit_string false false (bs "what??!")) = Some (bs "what|") /\
  emit_string false false (bs "\\$5") = Lit (bs """\$5""") /\ value_of (emit_string false false (bs "\\$5")) = None /\
  value_of (emit_string false false (bs "\x41\0")) = None /\
  value_of (emit_string false true (bs "C:\0.txt")) = Some (bs "C:\0.tx") /\
  c_string (quoted (part (bs "\x41B"))) = None /\
  (exists f, c_string (quoted (part (bs "a\0b"))) = Some f /\ printf_text f = Some (bs "a")) /\
  (exists f, c_string (quoted (part (bs "5\x25 d"))) = Some f /\ printf_text f = None) /\
  parse_char (bs "\x") = 120.
Proof.
  split; [vm_compute; reflexivity|]. split.
  { split; [|reflexivity]. apply Forall_cons; [cbn; auto 20|]. apply Forall_cons; [cbn; lia|constructor]. }
  repeat (split; [vm_compute; reflexivity|]).
  split; [eexists; split; vm_compute; reflexivity|]. split; [eexists; split; vm_compute; reflexivity|]. vm_compute. reflexivity.
Qed.
Example string_sample : spells (bs "a\x42C\$\""\n") [Plain 97; HexEscape 52 50 66; Plain 67; Escape 36 36; Escape 34 34; Escape 110 10] /\
  emit_string false false (bs "a\x42C\$\""\n") = Lit (bs """a\x42"" ""C$\""\n""") /\ value_of (emit_string false false (bs "a\x42C\$\""\n")) = Some ([97; 66; 67; 36; 34; 10]).
Proof.
  split; [|split; vm_compute; reflexivity]. split; [|reflexivity]. apply Forall_cons; [cbn; lia|]. apply Forall_cons.
  - exists 4, 2. split; [apply (digit_num 16 52); lia|]. split; [apply (digit_num 16 50); lia|reflexivity].
  - apply Forall_cons; [cbn; lia|]. repeat (apply Forall_cons; [cbn; auto 20|]). constructor.
Qed.
Example string_sample_nul : value_of (emit_string false false (bs "a\0\x00b")) = Some [97; 0; 0; 98] /\ value_of (emit_string true false (bs "\x41\0")) = Some [65; 0].
Proof. vm_compute. auto. Qed.

(** * C95 *)
(** Decimal literals, and others below 2^63, have their value in a 128- or 256-bit type.  Missing: a variable initialised
    with a multiple of 2^64, constants beyond 64 bits, and hexadecimal, octal and binary literals from 2^63 *)
Theorem wide_partial wv t lit v : int_literal lit v -> v < hi t -> numeral 10 lit v \/ v <= INT64_MAX ->
  exists x, wide_operand wv t (parse_int lit) = Ok x /\ big_val x = v /\
    (v = 0 \/ v mod 2 ^ 64 <> 0 -> exists y, wide_init wv false t (parse_int lit) = Ok y /\ big_val y = v) /\
    (v <= INT64_MAX -> exists y, wide_init wv true t (parse_int lit) = Ok y /\ big_val y = v).
Proof.
  intros L H D. pose proof (int_literal_pos _ _ L) as P. rewrite (parse_int_spec _ _ L). unfold wide_operand, wide_init. cbn [overflow ivalue iliteral].
  assert (L0 : lo t <= 0) by (destruct t; cbn; lia).
  destruct (INT64_MAX <? v) eqn:O.
  - destruct D as [D|D]; [|lia]. destruct (from_decimal_val wv t lit v D H) as (x & E & V). exists x. split; [exact E|]. split; [exact V|]. split; [|lia].
    intros [->|M]; [discriminate|]. destruct (wrap_i 64 v =? 0) eqn:W; [|exists x; auto]. exfalso. apply M.
    unfold wrap_i in W. cbv zeta in W. change (2 ^ 64) with 18446744073709551616 in *. change (2 ^ (64 - 1)) with 9223372036854775808 in *. destruct (v mod 18446744073709551616 <? 9223372036854775808) eqn:Q; lia.
  - rewrite wrap_i_small by lia. exists (from_64 t v). split; [reflexivity|]. split; [apply from_64_val; lia|]. assert (E : exists y, (if v =? 0 then Ok (zero t) else Ok (from_64 t v)) = Ok y /\ big_val y = v).
    { destruct (v =? 0) eqn:Z0; eexists; (split; [reflexivity|]); [rewrite zero_val; lia|apply from_64_val; lia]. }
    split; intros _; [exact E|]. rewrite compound_64 by lia. exact E.
Qed.
Theorem wide_negated_partial wv t lit v : t = TI128 \/ t = TI256 -> int_literal lit v -> v < hi t \/ (v = hi t /\ (t = TI128 -> wv = true)) -> numeral 10 lit v \/ v <= INT64_MAX ->
  exists x, wide_negated wv t (parse_int lit) = Ok x /\ big_val x = - v.
Proof.
  intros T L H D. pose proof (int_literal_pos _ _ L) as P. rewrite (parse_int_spec _ _ L). unfold wide_negated. cbn [overflow ivalue iliteral]. destruct (INT64_MAX <? v) eqn:O.
  - destruct D as [D|D]; [|lia]. exact (from_decimal_neg wv t lit v D T H).
  - rewrite wrap_i_small by lia. eexists. split; [reflexivity|]. apply from_64_val; [lia|]. change INT64_MAX with 9223372036854775807 in O.
    destruct T as [->| ->]; unfold lo; [assert (18446744073709551616 < 2 ^ 127) by (vm_compute; reflexivity)|assert (18446744073709551616 < 2 ^ 255) by (vm_compute; reflexivity)]; lia.
Qed.
(** 2^64 in decimal initialises a variable with 0; 2^64 in hexadecimal is read as if its digits were decimal; a constant
    beyond 64 bits does not compile *)
Theorem wide_refuted :
  wide_init true false TU128 (parse_int (bs "18446744073709551616")) = Ok (BU128 (U128 0 0)) /\
  (exists x, wide_operand true TU128 (parse_int (bs "0x1_0000_0000_0000_0000")) = Ok x /\ big_val x = 7210000000000000000) /\
  (exists x, wide_operand true TI256 (parse_int (bs "0xFFFFFFFFFFFFFFFF")) = Ok x /\ big_val x <> 18446744073709551615) /\
  wide_init true true TI128 (parse_int (bs "9223372036854775808")) = Panic 0.
Proof.
  split; [vm_compute; reflexivity|]. split; [exists (BU128 (U128 7210000000000000000 0)); split; vm_compute; reflexivity|].
  split; [exists (B256 [744444444444444442; 0; 0; 0]); split; [vm_compute; reflexivity|vm_compute; discriminate]|vm_compute; reflexivity].
Qed.
Example wide_sample : exists x, wide_init true false TU128 (parse_int (bs "340_282366920938463463374607431768211455")) = Ok x /\ big_val x = 2 ^ 128 - 1.
Proof. exists (BU128 (U128 18446744073709551615 18446744073709551615)). split; vm_compute; reflexivity. Qed.

Print Assumptions int_literal_exact.
Print Assumptions int_token_literal.
Print Assumptions string_partial.
Print Assumptions raw_partial.
Print Assumptions format_partial.
Print Assumptions string_token_items.
Print Assumptions char_exact.
Print Assumptions char_escape_exact.
Print Assumptions string_refuted.
Print Assumptions wide_partial.
Print Assumptions wide_negated_partial.
Print Assumptions wide_refuted.
