(** Theorems C06 about grayc/src/stdlib/uuid.c and C70 about grayc/src/stdlib/bytes.c.
    Specification vocabulary: UuidSpec.v, EncodingSpec.v. *)
From Verif Require Import Base BaseFacts EncodingModel EncodingSpec EncodingProofs EncodingProps UuidModel UuidSpec UuidProofs.
Ltac Zify.zify_post_hook ::= Z.div_mod_to_equations.

Definition sample : bytes := [255; 254; 3; 4; 5; 6; 215; 8; 249; 10; 11; 12; 13; 14; 15; 16].
Lemma sample_ok : byte_string sample /\ length sample = 16%nat.
Proof. split; [repeat constructor|reflexivity]; lia. Qed.

Lemma format_version b : nth 14 (format_hyphenated b) 0 = hex_digit false (b_at b 6 / 16) /\ nth 19 (format_hyphenated b) 0 = hex_digit false (b_at b 8 / 16).
Proof. split; reflexivity. Qed.
Lemma variant_char x : is_byte x -> In (hex_digit false ((128 + x mod 64) / 16)) (bs "89ab").
Proof.
  intros Hx. apply inb_spec. apply (sweep_bytes (fun x => inb (hex_digit false ((128 + x mod 64) / 16)) (bs "89ab"))); [vm_compute; reflexivity|exact Hx].
Qed.
Lemma hyphen_free b : byte_string b -> length b = 16%nat -> hex_decode (without_hyphens (format_hyphenated b)) = Ok b.
Proof.
  intros Hb L. rewrite format_compact by assumption. pose proof (hex_roundtrip b Hb ltac:(lia)) as R.
  unfold hex_encode in R. destruct (_ <? _) in R; [discriminate|]. exact R.
Qed.

(** C06: a version 4 identifier, for every sequence of random bytes: canonical lower-case
    text, accepted, version digit 4, variant digit 8, 9, a or b, and every one of the
    other 122 bits is the random bit. *)
Theorem v4_text : forall b, byte_string b -> length b = 16%nat ->
  let t := generate (Some b) in
  uuid_text t /\ lower_hex t /\ length t = 36%nat /\ is_valid t = true /\
  nth 14 t 0 = 52 /\ In (nth 19 t 0) (bs "89ab") /\
  exists c, hex_decode (without_hyphens t) = Ok c /\ length c = 16%nat /\
    (forall j, j <> 6%nat -> j <> 8%nat -> nth j c 0 = nth j b 0) /\
    nth 6 c 0 mod 16 = nth 6 b 0 mod 16 /\ nth 8 c 0 mod 64 = nth 8 b 0 mod 64.
Proof.
  intros b Hb L. cbn [generate]. destruct (stamp_ok 64 b Hb L ltac:(auto)) as (S1 & S2 & S3 & S4 & S5).
  destruct (format_text _ S1) as [F1 F2]. cbv zeta.
  split; [exact F1|]. split; [exact F2|]. split; [reflexivity|]. split; [apply is_valid_text, F1|].
  destruct (format_version (stamp 64 b)) as [V1 V2].
  pose proof (b_at_byte b 6 Hb) as B6. pose proof (b_at_byte b 8 Hb) as B8. unfold is_byte in B6.
  split; [rewrite V1, S3; replace ((64 + b_at b 6 mod 16) / 16) with 4 by lia; reflexivity|].
  split; [rewrite V2, S4; apply variant_char, B8|].
  exists (stamp 64 b). split; [apply hyphen_free; assumption|]. split; [exact S2|]. split; [exact S5|].
  unfold b_at in *. unfold is_byte in B8. split; [rewrite S3; lia|rewrite S4; lia].
Qed.
Print Assumptions v4_text.
Example v4_text_ex : generate (Some sample) = bs "fffe0304-0506-4708-b90a-0b0c0d0e0f10".
Proof. reflexivity. Qed.

(** C06: a version 7 identifier: same text form, version digit 7, and the first six
    bytes are the clock's milliseconds, big-endian. *)
Theorem v7_text : forall b sec nsec, byte_string b -> length b = 16%nat ->
  0 <= sec -> 0 <= nsec < 1000000000 -> sec * 1000 + nsec / 1000000 < 2 ^ 48 ->
  let t := generate_time_ordered (Some b) sec nsec in
  uuid_text t /\ lower_hex t /\ is_valid t = true /\ nth 14 t 0 = 55 /\ In (nth 19 t 0) (bs "89ab") /\
  exists c, hex_decode (without_hyphens t) = Ok c /\ length c = 16%nat /\
    fold_left (fun v x => v * 256 + x) (firstn 6 c) 0 = sec * 1000 + nsec / 1000000 /\
    (forall j, (9 <= j)%nat \/ j = 7%nat -> nth j c 0 = nth j b 0) /\
    nth 6 c 0 mod 16 = nth 6 b 0 mod 16 /\ nth 8 c 0 mod 64 = nth 8 b 0 mod 64.
Proof.
  intros b sec nsec Hb L Hs Hn Hms. cbn [generate_time_ordered].
  assert (EM : now_ms sec nsec = sec * 1000 + nsec / 1000000).
  { unfold now_ms, wrap_u. change (2 ^ 48) with 281474976710656 in Hms. change (2 ^ 64) with 18446744073709551616.
    rewrite (Z.mod_small sec), (Z.mod_small (nsec / 1000000)), Z.mod_small by lia. reflexivity. }
  rewrite EM. set (ms := sec * 1000 + nsec / 1000000) in *. assert (0 <= ms) by (subst ms; lia). clearbody ms.
  destruct (put_ms_ok ms b Hb L) as (P1 & P2 & P3 & P4).
  destruct (stamp_ok 112 _ P1 P2 ltac:(auto)) as (S1 & S2 & S3 & S4 & S5).
  destruct (format_text _ S1) as [F1 F2]. cbv zeta.
  split; [exact F1|]. split; [exact F2|]. split; [apply is_valid_text, F1|].
  destruct (format_version (stamp 112 (put_ms ms b))) as [V1 V2]. rewrite P4 in S3, S4 by lia.
  pose proof (b_at_byte b 6 Hb) as B6. pose proof (b_at_byte b 8 Hb) as B8. unfold is_byte in B6.
  split; [rewrite V1, S3; replace ((112 + b_at b 6 mod 16) / 16) with 7 by lia; reflexivity|].
  split; [rewrite V2, S4; apply variant_char, B8|].
  set (c := stamp 112 (put_ms ms b)) in *. exists c. split; [apply hyphen_free; assumption|]. split; [exact S2|].
  split; [|split; [|split]].
  - assert (A : forall k, (k < 6)%nat -> b_at c k = ms / 2 ^ (40 - 8 * Z.of_nat k) mod 256) by (intros k Hk; rewrite S5 by lia; apply P3, Hk).
    assert (FE : firstn 6 c = [b_at c 0; b_at c 1; b_at c 2; b_at c 3; b_at c 4; b_at c 5]).
    { clear - S2. clearbody c. destruct c as [|c0 [|c1 [|c2 [|c3 [|c4 [|c5 c]]]]]]; try discriminate S2. reflexivity. }
    rewrite FE, !A by lia. cbn [fold_left].
    change (40 - 8 * Z.of_nat 0) with 40. change (40 - 8 * Z.of_nat 1) with 32. change (40 - 8 * Z.of_nat 2) with 24.
    change (40 - 8 * Z.of_nat 3) with 16. change (40 - 8 * Z.of_nat 4) with 8. change (40 - 8 * Z.of_nat 5) with 0.
    rewrite Z.pow_0_r, Z.div_1_r. pose proof (ms_split ms ltac:(lia)) as E. rewrite Z.mul_0_l, Z.add_0_l. symmetry. exact E.
  - intros j Hj. change (b_at c j = b_at b j). rewrite S5 by lia. apply P4. lia.
  - change (b_at c 6 mod 16 = b_at b 6 mod 16). rewrite S3. lia.
  - change (b_at c 8 mod 64 = b_at b 8 mod 64). rewrite S4. unfold is_byte in B8. lia.
Qed.
Print Assumptions v7_text.
Example v7_text_ex : generate_time_ordered (Some sample) 1700000000 123456789 = bs "018bcfe5-687b-7708-b90a-0b0c0d0e0f10".
Proof. reflexivity. Qed.

(** C06: identifiers of a later millisecond come later in dictionary order. *)
Theorem v7_ordered : forall b1 b2 s1 n1 s2 n2,
  byte_string b1 -> length b1 = 16%nat -> byte_string b2 -> length b2 = 16%nat ->
  0 <= s1 -> 0 <= n1 < 1000000000 -> 0 <= s2 -> 0 <= n2 < 1000000000 ->
  s1 * 1000 + n1 / 1000000 < s2 * 1000 + n2 / 1000000 -> s2 * 1000 + n2 / 1000000 < 2 ^ 48 ->
  text_before (generate_time_ordered (Some b1) s1 n1) (generate_time_ordered (Some b2) s2 n2).
Proof.
  intros b1 b2 s1 n1 s2 n2 H1 L1 H2 L2 Hs1 Hn1 Hs2 Hn2 Hlt Hb. cbn [generate_time_ordered].
  assert (EM : forall s n, 0 <= s -> 0 <= n < 1000000000 -> s * 1000 + n / 1000000 < 2 ^ 48 -> now_ms s n = s * 1000 + n / 1000000).
  { intros s n A1 A2 A3. unfold now_ms, wrap_u. change (2 ^ 48) with 281474976710656 in A3. change (2 ^ 64) with 18446744073709551616.
    rewrite (Z.mod_small s), (Z.mod_small (n / 1000000)), Z.mod_small by lia. reflexivity. }
  rewrite !EM by lia. apply time_before; auto. lia.
Qed.
Print Assumptions v7_ordered.
Example v7_ordered_ex : text_before (generate_time_ordered (Some sample) 1700000000 5) (generate_time_ordered (Some (rev sample)) 1700000000 2000000).
Proof.
  destruct sample_ok as [S1 S2]. apply v7_ordered; auto; try lia.
  - apply Forall_rev, S1.
Qed.

(** C06: is_valid accepts exactly the 8-4-4-4-12 texts; parse lower-cases them, rejects
    everything else, is idempotent and case-insensitive. *)
Theorem is_valid_exact : forall s, is_valid s = true <-> uuid_text s.
Proof. exact is_valid_text. Qed.
Print Assumptions is_valid_exact.
Theorem parse_exact : forall s,
  (uuid_text s -> parse s = Ok (map lower s) /\ lower_hex (map lower s)) /\ (~ uuid_text s -> parse s = Panic 0).
Proof.
  intros s. unfold parse. split; intros H.
  - apply is_valid_text in H. rewrite H. unfold is_valid in H. destruct (negb _) in H; [discriminate|].
    apply valid_loop_chars, low_lower_map in H as [-> H]. auto.
  - destruct (is_valid s) eqn:V; [|reflexivity]. exfalso. apply H, is_valid_text, V.
Qed.
Print Assumptions parse_exact.
Lemma lower_idem c : lower (lower c) = lower c.
Proof. unfold lower. destruct ((65 <=? c) && (c <=? 90)) eqn:C; [|rewrite C; reflexivity]. destruct ((65 <=? c + 32) && (c + 32 <=? 90)) eqn:D; lia. Qed.
Lemma valid_lower : forall s i, valid_loop i (map lower s) = valid_loop i s.
Proof.
  induction s as [|c s IH]; intros i; [reflexivity|]. cbn [map valid_loop]. rewrite IH. f_equal.
  unfold HYPHEN, uuid_hex, lower. destruct ((65 <=? c) && (c <=? 90)) eqn:C; destruct (Nat.eqb i 8 || Nat.eqb i 13 || Nat.eqb i 18 || Nat.eqb i 23); try reflexivity; lia.
Qed.
Theorem parse_laws : forall s,
  parse (map lower s) = parse s /\
  (forall u, parse s = Ok u -> parse u = Ok u /\ uuid_text u /\ uuid_to_string u = u).
Proof.
  intros s. assert (V : is_valid (map lower s) = is_valid s) by (unfold is_valid; rewrite map_length, valid_lower; reflexivity).
  assert (E : forall s, is_valid s = true -> parse s = Ok (map lower s)) by (intros x Hx; apply parse_exact, is_valid_text, Hx).
  split.
  - destruct (is_valid s) eqn:C.
    + rewrite (E s C), (E _ V), map_map. f_equal. apply map_ext. apply lower_idem.
    + unfold parse. rewrite V, C. reflexivity.
  - intros u Hu. assert (C : is_valid s = true) by (unfold parse in Hu; destruct (is_valid s); congruence).
    rewrite (E s C) in Hu. injection Hu as <-. rewrite C in V. split; [|split; [apply is_valid_text, V|reflexivity]].
    rewrite (E _ V), map_map. f_equal. apply map_ext, lower_idem.
Qed.
Print Assumptions parse_laws.
Example parse_ex : parse (bs "FFFE0304-0506-4708-B90a-0b0c0d0e0f10") = Ok (bs "fffe0304-0506-4708-b90a-0b0c0d0e0f10")
   /\ parse (bs "fffe0304x0506-4708-b90a-0b0c0d0e0f10") = Panic 0 /\ is_valid uuid_nil = true.
Proof. repeat split. Qed.

(** C06: the compact form of a valid identifier is its 32 digits; parsing the text of a
    generated identifier gives it back. *)
Lemma filter_hex_id a : Forall is_hex_digit a -> filter (fun c => negb (c =? 45)) a = a.
Proof.
  induction 1 as [|c a Hc Ha IH]; [reflexivity|]. cbn [filter]. apply isxdigit_spec in Hc.
  rewrite (proj2 (Z.eqb_neq c 45)) by (unfold isxdigit in Hc; lia). cbn [negb]. rewrite IH. reflexivity.
Qed.
Theorem compact_form : forall s, uuid_text s ->
  generate_compact s = Ok (without_hyphens s) /\ length (without_hyphens s) = 32%nat /\ Forall is_hex_digit (without_hyphens s).
Proof.
  intros s (a & b & c & d & e & -> & La & Lb & Lc & Ld & Le & F).
  assert (E : without_hyphens (a ++ [45] ++ b ++ [45] ++ c ++ [45] ++ d ++ [45] ++ e) = a ++ b ++ c ++ d ++ e).
  { rewrite !Forall_app_iff in F. destruct F as (Fa & Fb & Fc & Fd & Fe).
    unfold without_hyphens. rewrite !filter_app. rewrite (filter_hex_id a), (filter_hex_id b), (filter_hex_id c), (filter_hex_id d), (filter_hex_id e) by assumption. reflexivity. }
  assert (LE : length (a ++ b ++ c ++ d ++ e) = 32%nat) by (rewrite !app_length; lia).
  rewrite E. split; [|auto]. unfold generate_compact.
  rewrite (proj2 (Nat.eqb_eq _ _)) by (rewrite !app_length; cbn [length]; lia). cbn [negb]. unfold HYPHEN. fold (without_hyphens (a ++ [45] ++ b ++ [45] ++ c ++ [45] ++ d ++ [45] ++ e)).
  rewrite E, LE. cbn [Nat.ltb Nat.leb]. rewrite firstn_all2 by lia. reflexivity.
Qed.
Print Assumptions compact_form.
Lemma lower_hex_fix t : lower_hex t -> map lower t = t.
Proof.
  unfold lower_hex. induction 1 as [|c t Hc Ht IH]; [reflexivity|]. cbn [map]. rewrite IH. f_equal.
  assert (D : forallb (fun c => lower c =? c) (45 :: hex_digits_lower) = true) by reflexivity.
  rewrite forallb_forall in D. apply Z.eqb_eq, D. destruct Hc as [Hc| ->]; [right; exact Hc|left; reflexivity].
Qed.
Theorem generated_parse : forall b sec nsec, byte_string b -> length b = 16%nat ->
  parse (generate (Some b)) = Ok (generate (Some b)) /\
  parse (generate_time_ordered (Some b) sec nsec) = Ok (generate_time_ordered (Some b) sec nsec).
Proof.
  intros b sec nsec Hb L. cbn [generate generate_time_ordered].
  assert (P : forall x, byte_string x -> parse (format_hyphenated x) = Ok (format_hyphenated x)).
  { intros x Hx. destruct (format_text x Hx) as [F1 F2]. destruct (proj1 (parse_exact _) F1) as [E _]. rewrite E. f_equal. apply lower_hex_fix, F2. }
  split; apply P.
  - apply (stamp_ok 64 b Hb L). auto.
  - destruct (put_ms_ok (now_ms sec nsec) b Hb L) as (P1 & P2 & _). apply (stamp_ok 112 _ P1 P2). auto.
Qed.
Print Assumptions generated_parse.
(** When the random source fails the result is the empty text, which is not valid. *)
Theorem generate_failure : forall sec nsec, generate None = [] /\ generate_time_ordered None sec nsec = [] /\ is_valid [] = false.
Proof. repeat split. Qed.
Print Assumptions generate_failure.

(** C70: the bytes module. *)
Theorem bytes_text_roundtrip : forall s, bytes_to_string (bytes_from_string s) = s /\ bytes_from_string (bytes_to_string s) = s.
Proof. split; reflexivity. Qed.
Print Assumptions bytes_text_roundtrip.
Theorem bytes_hex_roundtrip : forall b, byte_string b -> Z.of_nat (length b) <= 1073741823 ->
  exists t, bytes_to_hex b = Ok t /\ t = hex_text b /\ bytes_from_hex t = Ok b.
Proof.
  intros b Hb L. destruct (hex_decode_encode b Hb L) as (t & E1 & E2 & E3). exists t. split; [exact E1|]. split; [exact E2|].
  pose proof (proj1 (hex_decode_domain t) ltac:(eauto)) as [D1 D2]. unfold bytes_from_hex. rewrite from_hex_loop_eq by assumption.
  unfold hex_decode in E3. destruct (negb _) in E3; [discriminate|exact E3].
Qed.
Print Assumptions bytes_hex_roundtrip.
Example bytes_hex_ex : bytes_from_hex (bs "00abFF") = Ok [0; 171; 255].
Proof. reflexivity. Qed.
(** On every text of an even number of hexadecimal digits it agrees with the encoding
    module's checked decoder ... *)
Theorem bytes_from_hex_partial : forall t o, hex_decode t = Ok o -> bytes_from_hex t = Ok o.
Proof.
  intros t o H. pose proof (proj1 (hex_decode_domain t) ltac:(eauto)) as [D1 D2]. unfold bytes_from_hex. rewrite from_hex_loop_eq by assumption.
  unfold hex_decode in H. destruct (negb _) in H; [discriminate|exact H].
Qed.
Print Assumptions bytes_from_hex_partial.
(** ... but malformed text is not rejected: it yields an indeterminate byte, or is
    accepted with another meaning, and an odd digit is dropped. *)
Theorem bytes_from_hex_refuted :
  bytes_from_hex (bs "zz") = UB /\ bytes_from_hex (bs "-5") = Ok [251] /\ bytes_from_hex (bs "abc") = Ok [171] /\
  bytes_from_hex (bs " 1 2") = Ok [1; 2] /\ bytes_from_hex (bs "5g") = Ok [5].
Proof. repeat split. Qed.
Print Assumptions bytes_from_hex_refuted.
Theorem bytes_base64_roundtrip : forall b, byte_string b -> Z.of_nat (length b) <= 1610612733 ->
  exists t, bytes_to_base64 b = Ok t /\ t = rfc4648_base64 b /\ bytes_from_base64 t = Ok b.
Proof.
  intros b Hb L. destruct (base64_decode_encode b Hb L) as (t & E1 & E2). exists t. split; [exact E1|].
  split; [apply (base64_encode_rfc4648 b t Hb E1)|]. unfold bytes_from_base64. rewrite E2. reflexivity.
Qed.
Print Assumptions bytes_base64_roundtrip.
