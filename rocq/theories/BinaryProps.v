(** Theorems C05 about grayc/src/stdlib/binary.c.
    Specification vocabulary: BinarySpec.v, BigIntSpec.v. *)
From Verif Require Import Base BaseFacts BigIntModel BigIntSpec BigIntProofs BinaryModel BinarySpec BinaryProofs.
Ltac Zify.zify_post_hook ::= Z.div_mod_to_equations.

(** C05: what the bytes mean.  Every encoder writes the number (modulo 2^bits, i.e.
    its two's complement) in the byte order it is named after, in exactly as many
    bytes as the type has. *)
Theorem encode_meaning : forall w v, w = 1%nat \/ w = 2%nat \/ w = 4%nat \/ w = 8%nat ->
  length (encode_int_le w v) = w /\ length (encode_int_be w v) = w /\
  byte_string (encode_int_le w v) /\ byte_string (encode_int_be w v) /\
  le_number (encode_int_le w v) = v mod 2 ^ (8 * Z.of_nat w) /\
  be_number (encode_int_be w v) = v mod 2 ^ (8 * Z.of_nat w).
Proof.
  intros w v _. unfold encode_int_le, encode_int_be, make_bytes, make_bytes_reversed. rewrite rev_length, obj_int_length.
  repeat split; auto using obj_int_bytes, rev_bytes.
  - rewrite <- le_val_number. apply obj_int_mod.
  - rewrite be_rev, <- le_val_number. apply obj_int_mod.
Qed.
Print Assumptions encode_meaning.
Example encode_meaning_ex : encode_int_be 4 (-2) = [255; 255; 255; 254] /\ encode_int_le 2 258 = [2; 1].
Proof. split; reflexivity. Qed.

(** C05: round trips, 8 to 64 bits. *)
Theorem signed_roundtrip : forall v,
  (in_i 8 v -> decode_i8 (encode_i8 v) = Ok v) /\
  (in_i 16 v -> decode_i_le 2 (encode_int_le 2 v) = Ok v /\ decode_i16_be (encode_int_be 2 v) = Ok v) /\
  (in_i 32 v -> decode_i_le 4 (encode_int_le 4 v) = Ok v /\ decode_i32_be (encode_int_be 4 v) = Ok v) /\
  (in_i 64 v -> decode_i_le 8 (encode_int_le 8 v) = Ok v /\ decode_i64_be (encode_int_be 8 v) = Ok v).
Proof.
  intros v.
  assert (BE : forall n, byte_string (rev (obj_int n v)) /\ length (rev (obj_int n v)) = n /\ be_number (rev (obj_int n v)) = v mod B n).
  { intros n. split; [apply rev_bytes, obj_int_bytes|]. split; [rewrite rev_length; apply obj_int_length|].
    rewrite be_rev, <- le_val_number. apply obj_int_mod. }
  refine (conj (fun H => _) (conj (fun H => conj _ _) (conj (fun H => conj _ _) (fun H => conj _ _)))).
  - apply (memcpy_i_obj 1); [discriminate|exact H].
  - apply (memcpy_i_obj 2); [discriminate|exact H].
  - destruct (BE 2%nat) as (B1 & B2 & B3). unfold decode_i16_be, encode_int_be, make_bytes_reversed.
    rewrite data_ok by exact B2. cbn [rmap]. rewrite be16_number by assumption. rewrite B3. unfold B.
    change (8 * Z.of_nat 2) with 16. rewrite wrap_i_mod, wrap_i_id by (lia || exact H). reflexivity.
  - apply (memcpy_i_obj 4); [discriminate|exact H].
  - destruct (BE 4%nat) as (B1 & B2 & B3). unfold decode_i32_be, encode_int_be, make_bytes_reversed.
    rewrite data_ok by exact B2. cbn [rmap]. rewrite be32_number by assumption. rewrite B3. unfold B.
    change (8 * Z.of_nat 4) with 32. rewrite wrap_i_mod, wrap_i_id by (lia || exact H). reflexivity.
  - apply (memcpy_i_obj 8); [discriminate|exact H].
  - destruct (BE 8%nat) as (B1 & B2 & B3). unfold decode_i64_be, encode_int_be, make_bytes_reversed.
    rewrite data_ok by exact B2. cbn [rmap]. rewrite be64s_number by assumption. rewrite B3. unfold B.
    change (8 * Z.of_nat 8) with 64. rewrite wrap_i_mod, wrap_i_id by (lia || exact H). reflexivity.
Qed.
Print Assumptions signed_roundtrip.
Example signed_roundtrip_ex : in_i 64 (-5) /\ decode_i64_be (encode_int_be 8 (-5)) = Ok (-5).
Proof. split; [unfold in_i; change (64 - 1) with 63; lia|reflexivity]. Qed.

Theorem unsigned_roundtrip : forall v,
  (in_u 8 v -> decode_u8 (encode_u8 v) = Ok v) /\
  (in_u 16 v -> decode_u_le 2 (encode_int_le 2 v) = Ok v /\ decode_u16_be (encode_int_be 2 v) = Ok v) /\
  (in_u 32 v -> decode_u_le 4 (encode_int_le 4 v) = Ok v /\ decode_u32_be (encode_int_be 4 v) = Ok v) /\
  (in_u 64 v -> decode_u_le 8 (encode_int_le 8 v) = Ok v /\ decode_u64_be (encode_int_be 8 v) = Ok v).
Proof.
  intros v.
  assert (BE : forall n, byte_string (rev (obj_int n v)) /\ length (rev (obj_int n v)) = n /\ be_number (rev (obj_int n v)) = v mod B n).
  { intros n. split; [apply rev_bytes, obj_int_bytes|]. split; [rewrite rev_length; apply obj_int_length|].
    rewrite be_rev, <- le_val_number. apply obj_int_mod. }
  refine (conj (fun H => _) (conj (fun H => conj _ _) (conj (fun H => conj _ _) (fun H => conj _ _)))).
  - apply (memcpy_u_obj 1), H.
  - apply (memcpy_u_obj 2), H.
  - destruct (BE 2%nat) as (B1 & B2 & B3). unfold decode_u16_be, encode_int_be, make_bytes_reversed.
    rewrite data_ok by exact B2. cbn [rmap]. rewrite be16_number by assumption. rewrite B3. unfold B, wrap_u.
    change (8 * Z.of_nat 2) with 16. rewrite !Z.mod_small by (exact H || (rewrite Z.mod_small; exact H)). reflexivity.
  - apply (memcpy_u_obj 4), H.
  - destruct (BE 4%nat) as (B1 & B2 & B3). unfold decode_u32_be, encode_int_be, make_bytes_reversed.
    rewrite data_ok by exact B2. cbn [rmap]. rewrite be32_number by assumption. rewrite B3. f_equal. apply Z.mod_small, H.
  - apply (memcpy_u_obj 8), H.
  - destruct (BE 8%nat) as (B1 & B2 & B3). unfold decode_u64_be, encode_int_be, make_bytes_reversed.
    rewrite data_ok by exact B2. cbn [rmap]. rewrite be64_number by assumption. rewrite B3. f_equal. apply Z.mod_small, H.
Qed.
Print Assumptions unsigned_roundtrip.
Example unsigned_roundtrip_ex : in_u 64 18446744073709551615 /\ decode_u64_be (encode_int_be 8 18446744073709551615) = Ok 18446744073709551615.
Proof. split; [unfold in_u; lia|reflexivity]. Qed.

(** C05: what every decoder makes of an arbitrary array: it reads its first bytes as a
    number in its byte order, converts to the type, and re-encoding gives those bytes
    back; with too few bytes it reads out of bounds. *)
Theorem decode_meaning : forall w s, byte_string s -> w = 1%nat \/ w = 2%nat \/ w = 4%nat \/ w = 8%nat ->
  (w <= length s)%nat ->
  decode_u_le w s = Ok (le_number (firstn w s)) /\
  decode_i_le w s = Ok (wrap_i (8 * Z.of_nat w) (le_number (firstn w s))) /\
  (w = 2%nat -> decode_u16_be s = Ok (be_number (firstn w s)) /\ decode_i16_be s = Ok (wrap_i 16 (be_number (firstn w s)))) /\
  (w = 4%nat -> decode_u32_be s = Ok (be_number (firstn w s)) /\ decode_i32_be s = Ok (wrap_i 32 (be_number (firstn w s)))) /\
  (w = 8%nat -> decode_u64_be s = Ok (be_number (firstn w s)) /\ decode_i64_be s = Ok (wrap_i 64 (be_number (firstn w s)))) /\
  encode_int_le w (le_number (firstn w s)) = firstn w s /\
  encode_int_be w (be_number (firstn w s)) = firstn w s.
Proof.
  intros w s Hs _ Hl.
  assert (D : data w s = Ok (firstn w s)) by (unfold data; rewrite (proj2 (Nat.ltb_ge _ _)) by lia; reflexivity).
  pose proof (data_bytes w s _ Hs D) as [Db Dl].
  split; [unfold decode_u_le, memcpy_u; rewrite D; reflexivity|].
  split; [unfold decode_i_le, memcpy_i; rewrite D; reflexivity|].
  split; [intros ->; unfold decode_u16_be, decode_i16_be; rewrite D; cbn [rmap]; rewrite be16_number by assumption; split; [|reflexivity]|].
  { f_equal. apply Z.mod_small. pose proof (be_number_range _ Db) as R. rewrite Dl in R. exact R. }
  split; [intros ->; unfold decode_u32_be, decode_i32_be; rewrite D; cbn [rmap]; rewrite be32_number by assumption; split; reflexivity|].
  split; [intros ->; unfold decode_u64_be, decode_i64_be; rewrite D; cbn [rmap]; rewrite be64_number, be64s_number by assumption; split; reflexivity|].
  unfold encode_int_le, encode_int_be, make_bytes, make_bytes_reversed, obj_int. split.
  - rewrite Z.mod_small. 2:{ pose proof (le_val_range _ Db) as R. rewrite Dl in R. exact R. }
    rewrite <- Dl at 1. apply le_bytes_val, Db.
  - rewrite Z.mod_small. 2:{ pose proof (be_number_range _ Db) as R. rewrite Dl in R. exact R. }
    unfold be_number. pose proof (le_bytes_val (rev (firstn w s)) (rev_bytes _ Db)) as E. rewrite rev_length, Dl in E.
    change (le_number (rev (firstn w s))) with (le_val (rev (firstn w s))). rewrite E. apply rev_involutive.
Qed.
Print Assumptions decode_meaning.
Example decode_meaning_ex : decode_i16_be [128; 0; 7] = Ok (-32768) /\ decode_u16_be [128; 0; 7] = Ok 32768.
Proof. split; reflexivity. Qed.

(** No decoder checks the length: every one reads out of bounds on a short array. *)
Theorem decode_short_refuted : forall w s, (length s < w)%nat -> w = 1%nat \/ w = 2%nat \/ w = 4%nat \/ w = 8%nat ->
  decode_u_le w s = UB /\ decode_i_le w s = UB /\
  (w = 2%nat -> decode_u16_be s = UB /\ decode_i16_be s = UB) /\
  (w = 4%nat -> decode_u32_be s = UB /\ decode_i32_be s = UB) /\
  (w = 8%nat -> decode_u64_be s = UB /\ decode_i64_be s = UB).
Proof.
  intros w s H _. assert (D : data w s = UB) by (unfold data; rewrite (proj2 (Nat.ltb_lt _ _)) by lia; reflexivity).
  unfold decode_u_le, decode_i_le, memcpy_u, memcpy_i. rewrite D.
  repeat split; try reflexivity; subst w;
    unfold decode_u16_be, decode_i16_be, decode_u32_be, decode_i32_be, decode_u64_be, decode_i64_be; rewrite D; reflexivity.
Qed.
Print Assumptions decode_short_refuted.

(** Strict ISO C: the signed 64-bit big-endian decoder is defined exactly on the
    encodings of non-negative numbers (its left shift overflows otherwise). *)
Theorem decode_i64_be_iso_domain : forall s, byte_string s -> (8 <= length s)%nat ->
  decode_i64_be_iso s = if be_number (firstn 8 s) <? 2 ^ 63 then Ok (be_number (firstn 8 s)) else UB.
Proof.
  intros s Hs Hl. unfold decode_i64_be_iso.
  assert (D : data 8 s = Ok (firstn 8 s)) by (unfold data; rewrite (proj2 (Nat.ltb_ge _ _)) by lia; reflexivity).
  pose proof (data_bytes _ s _ Hs D) as [Db Dl]. rewrite D. cbn [rbind].
  destruct (be64s_iso_spec (firstn 8 s) 0 Db ltac:(lia)) as [I1 I2]. rewrite Dl in *. rewrite Z.mul_0_l, Z.add_0_l in *.
  destruct (_ <? _) eqn:C; [apply I1; lia|apply I2; [lia|lia|]]. intros E. rewrite E in Dl. discriminate.
Qed.
Print Assumptions decode_i64_be_iso_domain.
Example decode_i64_be_iso_ex : decode_i64_be_iso (encode_int_be 8 (-1)) = UB /\ decode_i64_be_iso (encode_int_be 8 77) = Ok 77.
Proof. split; reflexivity. Qed.

(** C05: 128 bits. *)
Lemma obj_app_rev a b : rev (obj_int 8 a ++ obj_int 8 b) = rev (obj_int 8 b) ++ rev (obj_int 8 a).
Proof. apply rev_app_distr. Qed.
Lemma be64_obj x : be64 (rev (obj_int 8 x)) = x mod 2 ^ 64.
Proof.
  rewrite be64_number by (rewrite ?rev_length, ?obj_int_length; auto using rev_bytes, obj_int_bytes).
  rewrite be_rev, <- le_val_number. apply (obj_int_mod 8).
Qed.
Lemma le64_obj x : le_val (obj_int 8 x) = x mod 2 ^ 64.
Proof. apply (obj_int_mod 8). Qed.
Lemma firstn8 x r : firstn 8 (obj_int 8 x ++ r) = obj_int 8 x.
Proof. rewrite firstn_app, obj_int_length. cbn [Nat.sub]. rewrite firstn_O, app_nil_r. apply firstn_all2. rewrite obj_int_length. lia. Qed.
Lemma skipn8 x r : skipn 8 (obj_int 8 x ++ r) = r.
Proof. rewrite skipn_app, obj_int_length. cbn [Nat.sub]. rewrite skipn_all2 by (rewrite obj_int_length; lia). reflexivity. Qed.
Lemma firstn8r x r : firstn 8 (rev (obj_int 8 x) ++ r) = rev (obj_int 8 x).
Proof. rewrite firstn_app, rev_length, obj_int_length. cbn [Nat.sub]. rewrite firstn_O, app_nil_r. apply firstn_all2. rewrite rev_length, obj_int_length. lia. Qed.
Lemma skipn8r x r : skipn 8 (rev (obj_int 8 x) ++ r) = r.
Proof. rewrite skipn_app, rev_length, obj_int_length. cbn [Nat.sub]. rewrite skipn_all2 by (rewrite rev_length, obj_int_length; lia). reflexivity. Qed.
Lemma word_mod x : is_word x -> x mod 2 ^ 64 = x.
Proof. unfold is_word. intros. apply Z.mod_small. lia. Qed.

Theorem roundtrip_128 : forall a b, i128_ok a -> u128_ok b ->
  decode_i128_le (encode_i128_le a) = Ok a /\ decode_i128_be (encode_i128_be a) = Ok a /\
  decode_u128_le (encode_u128_le b) = Ok b /\ decode_u128_be (encode_u128_be b) = Ok b /\
  le_number (encode_i128_le a) = i128_val a mod 2 ^ 128 /\ le_number (encode_u128_le b) = u128_val b /\
  be_number (encode_i128_be a) = i128_val a mod 2 ^ 128 /\ be_number (encode_u128_be b) = u128_val b.
Proof.
  intros [al ah] [bl bh] [Ha1 Ha2] [Hb1 Hb2]. cbn [ilo ihi ulo uhi] in *.
  assert (L2 : forall x y, le_val (obj_int 8 x ++ obj_int 8 y) = x mod 2 ^ 64 + 2 ^ 64 * (y mod 2 ^ 64)).
  { intros x y. rewrite le_val_app, obj_int_length, !le64_obj. reflexivity. }
  unfold encode_i128_le, encode_i128_be, encode_u128_le, encode_u128_be, make_bytes, make_bytes_reversed,
    decode_i128_le, decode_i128_be, decode_u128_le, decode_u128_be, obj_i128, obj_u128. cbn [ilo ihi ulo uhi].
  assert (Wi : forall x, - 2 ^ 63 <= x < 2 ^ 63 -> wrap_i 64 (x mod 2 ^ 64) = x).
  { intros x Hx. rewrite wrap_i_mod by lia. apply wrap_i_id; [lia|]. exact Hx. }
  repeat split.
  - rewrite data_ok by (rewrite app_length, !obj_int_length; reflexivity). cbn [rmap]. rewrite firstn8, skipn8, !le64_obj.
    rewrite word_mod by exact Ha1. rewrite Wi by exact Ha2. reflexivity.
  - rewrite data_ok by (rewrite rev_length, app_length, !obj_int_length; reflexivity). cbn [rmap]. rewrite obj_app_rev, firstn8r, skipn8r, !be64_obj.
    rewrite word_mod by exact Ha1. f_equal. f_equal. exact (Wi ah Ha2).
  - rewrite data_ok by (rewrite app_length, !obj_int_length; reflexivity). cbn [rmap]. rewrite firstn8, skipn8, !le64_obj.
    rewrite !word_mod by assumption. reflexivity.
  - rewrite data_ok by (rewrite rev_length, app_length, !obj_int_length; reflexivity). cbn [rmap]. rewrite obj_app_rev, firstn8r, skipn8r, !be64_obj.
    rewrite !word_mod by assumption. reflexivity.
  - rewrite <- le_val_number, L2. unfold i128_val, is_word in *. cbn [ilo ihi]. change (2 ^ 128) with (2 ^ 64 * 2 ^ 64). consts. lia.
  - rewrite <- le_val_number, L2, !word_mod by assumption. unfold u128_val, words_val. cbn [ulo uhi]. ring.
  - rewrite be_rev, <- le_val_number, L2. unfold i128_val, is_word in *. cbn [ilo ihi]. change (2 ^ 128) with (2 ^ 64 * 2 ^ 64). consts. lia.
  - rewrite be_rev, <- le_val_number, L2, !word_mod by assumption. unfold u128_val, words_val. cbn [ulo uhi]. ring.
Qed.
Print Assumptions roundtrip_128.
Example roundtrip_128_ex : i128_ok (I128 5 (-1)) /\ encode_i128_be (I128 5 (-1)) = repeat 255 8 ++ [0; 0; 0; 0; 0; 0; 0; 5].
Proof. split; [unfold i128_ok, is_word; cbn; lia|reflexivity]. Qed.

Lemma skipn_add {A} n m : forall l : list A, skipn (n + m) l = skipn m (skipn n l).
Proof. induction n; intros l; [reflexivity|]. destruct l; cbn [Nat.add skipn]; [symmetry; apply skipn_nil|apply IHn]. Qed.
(** C05: 256 bits (the same code serves i256 and u256). *)
Theorem roundtrip_256 : forall a, w256_ok a ->
  decode_256_le (encode_256_le a) = Ok a /\ decode_256_be (encode_256_be a) = Ok a /\
  le_number (encode_256_le a) = u256_val a /\ be_number (encode_256_be a) = u256_val a.
Proof.
  intros a [HL HF]. destruct a as [|a0 [|a1 [|a2 [|a3 [|]]]]]; try discriminate.
  repeat match goal with F : Forall is_word (_ :: _) |- _ => apply Forall_cons_iff in F; destruct F end.
  unfold encode_256_le, encode_256_be, make_bytes, make_bytes_reversed, obj_256. cbn [flat_map]. rewrite app_nil_r.
  assert (V : le_number (obj_int 8 a0 ++ obj_int 8 a1 ++ obj_int 8 a2 ++ obj_int 8 a3) = u256_val [a0; a1; a2; a3]).
  { rewrite <- le_val_number, !le_val_app, !obj_int_length, !le64_obj, !word_mod by assumption.
    unfold u256_val, words_val. change (B 8) with (2 ^ 64). ring. }
  split; [|split; [|split; [exact V|rewrite be_rev; exact V]]].
  - unfold decode_256_le. rewrite data_ok by (rewrite !app_length, !obj_int_length; reflexivity). cbn [rmap].
    unfold limb_at. cbn [Nat.mul Nat.add]. change (skipn 0) with (fun l : bytes => l).
    change (skipn 16) with (fun l : bytes => skipn (8 + 8) l). change (skipn 24) with (fun l : bytes => skipn (8 + 16) l). cbv beta.
    assert (SS : forall n (l : bytes), skipn (8 + n) l = skipn n (skipn 8 l)) by (intros; apply skipn_add).
    change 16%nat with (8 + 8)%nat. rewrite !SS, !skipn8, !firstn8. rewrite (firstn_all2 (obj_int 8 a3)) by (rewrite obj_int_length; lia).
    rewrite !le64_obj, !word_mod by assumption. reflexivity.
  - unfold decode_256_be. rewrite data_ok by (rewrite rev_length, !app_length, !obj_int_length; reflexivity). cbn [rmap].
    rewrite !rev_app_distr, <- !app_assoc.
    unfold limb_at. cbn [Nat.mul Nat.add]. change (skipn 0) with (fun l : bytes => l).
    change (skipn 16) with (fun l : bytes => skipn (8 + 8) l). change (skipn 24) with (fun l : bytes => skipn (8 + 16) l). cbv beta.
    assert (SS : forall n (l : bytes), skipn (8 + n) l = skipn n (skipn 8 l)) by (intros; apply skipn_add).
    change 16%nat with (8 + 8)%nat. rewrite !SS, !skipn8r, !firstn8r. rewrite (firstn_all2 (rev (obj_int 8 a0))) by (rewrite rev_length, obj_int_length; lia).
    rewrite !be64_obj, !word_mod by assumption. reflexivity.
Qed.
Print Assumptions roundtrip_256.
Example roundtrip_256_ex : w256_ok [1; 2; 3; 4] /\ firstn 9 (encode_256_be [1; 2; 3; 4]) = [0; 0; 0; 0; 0; 0; 0; 4; 0].
Proof. split; [split; [reflexivity|repeat apply Forall_cons; try apply Forall_nil; unfold is_word; lia]|reflexivity]. Qed.

(** C05: floats keep their bit pattern (so NaN payloads and signed zeros too). *)
Theorem float_roundtrip : forall w bits, w = 4%nat \/ w = 8%nat -> in_u (8 * Z.of_nat w) bits ->
  decode_f_le w (encode_f_le w bits) = Ok bits /\ decode_f_be w (encode_f_be w bits) = Ok bits /\
  encode_f_be w bits = rev (encode_f_le w bits).
Proof.
  intros w bits _ H. split; [apply (memcpy_u_obj w), H|]. split; [|reflexivity].
  unfold decode_f_be, encode_f_be, make_bytes_reversed. rewrite data_ok by (rewrite rev_length; apply obj_int_length). cbn [rmap].
  rewrite rev_involutive, obj_int_mod. f_equal. apply Z.mod_small, H.
Qed.
Print Assumptions float_roundtrip.
Example float_roundtrip_ex : encode_f_be 4 1065353216 = [63; 128; 0; 0]. (* 1.0f *)
Proof. reflexivity. Qed.
