From Verif Require Import Base BaseFacts EncodingModel EncodingSpec.

(** * Bit-list lemmas *)
Lemma bits_msb_length n x : length (bits_msb n x) = n.
Proof. induction n; cbn; congruence. Qed.

Lemma bits_msb_app n m a b : 0 <= b < 2 ^ Z.of_nat m ->
  bits_msb (n + m) (a * 2 ^ Z.of_nat m + b) = bits_msb n a ++ bits_msb m b.
Proof.
  intros Hb. induction n as [|n IH].
  - cbn [Nat.add bits_msb app]. 
    assert (H : forall k, (k <= m)%nat ->
              bits_msb k (a * 2 ^ Z.of_nat m + b) = bits_msb k b).
    { induction k as [|k IHk]; intros Hk; [reflexivity|].
      cbn [bits_msb]. rewrite IHk by lia. f_equal.
      rewrite <- lor_shift by lia. rewrite Z.lor_spec, Z.shiftl_spec by lia.
      rewrite Z.testbit_neg_r by lia. reflexivity. }
    apply H; lia.
  - cbn [Nat.add bits_msb app]. rewrite IH. f_equal.
    rewrite <- lor_shift by lia. rewrite Z.lor_spec, Z.shiftl_spec by lia.
    replace (Z.of_nat (n + m) - Z.of_nat m) with (Z.of_nat n) by lia.
    rewrite <- orb_false_r. f_equal.
    destruct (Z.eq_dec b 0) as [->|Hnz]; [apply Z.bits_0|].
    apply Z.bits_above_log2; [lia|]. apply Z.log2_lt_pow2; [lia|].
    apply Z.lt_le_trans with (2 ^ Z.of_nat m); [lia|]. apply Z.pow_le_mono_r; lia.
Qed.

Lemma val_msb_acc l acc : val_msb acc l = acc * 2 ^ Z.of_nat (length l) + val_msb 0 l.
Proof.
  revert acc. induction l as [|b l IH]; intros acc.
  - cbn. lia.
  - cbn [val_msb length]. rewrite (IH (2 * acc + _)), (IH (2 * 0 + _)).
    rewrite Nat2Z.inj_succ, Z.pow_succ_r by lia. lia.
Qed.

Lemma val_bits n x : val_msb 0 (bits_msb n x) = x mod 2 ^ Z.of_nat n.
Proof.
  induction n as [|n IH].
  - cbn. rewrite Z.mod_1_r. reflexivity.
  - cbn [bits_msb val_msb]. rewrite val_msb_acc, IH, bits_msb_length.
    replace (2 * 0 + (if Z.testbit x (Z.of_nat n) then 1 else 0))
      with (Z.b2z (Z.testbit x (Z.of_nat n))) by (destruct (Z.testbit _ _); reflexivity).
    rewrite Z.testbit_spec' by lia.
    rewrite Nat2Z.inj_succ, Z.pow_succ_r by lia.
    set (p := 2 ^ Z.of_nat n). assert (Hp : 0 < p) by (apply Z.pow_pos_nonneg; lia).
    rewrite (Z.mul_comm 2 p). rewrite Z.rem_mul_r by lia. lia.
Qed.

(** * Arithmetic form of the bit operations *)
Lemma enc_triple_arith a b c : is_byte a -> is_byte b -> is_byte c ->
  enc_triple a b c = a * 65536 + b * 256 + c.
Proof.
  unfold is_byte, enc_triple. intros Ha Hb Hc.
  assert (E : Z.lor (Z.shiftl a 16) (Z.shiftl b 8) = Z.shiftl (a * 256 + b) 8).
  { rewrite !Z.shiftl_mul_pow2 by lia. change (2^16) with 65536. change (2^8) with 256.
    replace (a * 65536) with (Z.shiftl a 16) by (rewrite Z.shiftl_mul_pow2 by lia; reflexivity).
    rewrite lor_shift by (change (2^16) with 65536; lia). change (2^16) with 65536. lia. }
  rewrite E, lor_shift by lia. change (2^8) with 256. lia.
Qed.

Lemma dec_triple_arith a b c d : 0 <= a < 64 -> 0 <= b < 64 -> 0 <= c < 64 -> 0 <= d < 64 ->
  dec_triple a b c d = a * 262144 + b * 4096 + c * 64 + d.
Proof.
  unfold dec_triple. intros Ha Hb Hc Hd.
  assert (E1 : Z.lor (Z.shiftl a 18) (Z.shiftl b 12) = a * 262144 + b * 4096).
  { rewrite lor_shift; rewrite ?Z.shiftl_mul_pow2 by lia;
      change (2^18) with 262144; change (2^12) with 4096; lia. }
  assert (E2 : Z.lor (a * 262144 + b * 4096) (Z.shiftl c 6) = Z.shiftl (a * 4096 + b * 64 + c) 6).
  { replace (a * 262144 + b * 4096) with (Z.shiftl (a * 64 + b) 12)
      by (rewrite Z.shiftl_mul_pow2 by lia; change (2^12) with 4096; lia).
    rewrite lor_shift; rewrite ?Z.shiftl_mul_pow2 by lia;
      change (2^12) with 4096; change (2^6) with 64; lia. }
  rewrite E1, E2, lor_shift by lia. change (2^6) with 64. lia.
Qed.

Lemma shr_and t n k : 0 <= n -> 0 <= k -> Z.land (Z.shiftr t n) (Z.ones k) = (t / 2 ^ n) mod 2 ^ k.
Proof. intros. rewrite Z.land_ones, Z.shiftr_div_pow2 by lia. reflexivity. Qed.

Ltac Zify.zify_post_hook ::= Z.div_mod_to_equations.

Lemma enc_c0 a b c : is_byte a -> is_byte b -> is_byte c ->
  Z.land (Z.shiftr (enc_triple a b c) 18) 63 = a / 4.
Proof.
  intros Ha Hb Hc. rewrite enc_triple_arith by assumption.
  change 63 with (Z.ones 6). rewrite shr_and by lia. unfold is_byte in *.
  change (2^18) with 262144; change (2^6) with 64. lia.
Qed.
Lemma enc_c1 a b c : is_byte a -> is_byte b -> is_byte c ->
  Z.land (Z.shiftr (enc_triple a b c) 12) 63 = (a mod 4) * 16 + b / 16.
Proof.
  intros Ha Hb Hc. rewrite enc_triple_arith by assumption.
  change 63 with (Z.ones 6). rewrite shr_and by lia. unfold is_byte in *.
  change (2^12) with 4096; change (2^6) with 64. lia.
Qed.
Lemma enc_c2 a b c : is_byte a -> is_byte b -> is_byte c ->
  Z.land (Z.shiftr (enc_triple a b c) 6) 63 = (b mod 16) * 4 + c / 64.
Proof.
  intros Ha Hb Hc. rewrite enc_triple_arith by assumption.
  change 63 with (Z.ones 6). rewrite shr_and by lia. unfold is_byte in *.
  change (2^6) with 64. lia.
Qed.
Lemma enc_c3 a b c : is_byte a -> is_byte b -> is_byte c ->
  Z.land (enc_triple a b c) 63 = c mod 64.
Proof.
  intros Ha Hb Hc. rewrite enc_triple_arith by assumption.
  change 63 with (Z.ones 6). rewrite Z.land_ones by lia. unfold is_byte in *.
  change (2^6) with 64. lia.
Qed.

Lemma dec_b0 a b c d : 0 <= a < 64 -> 0 <= b < 64 -> 0 <= c < 64 -> 0 <= d < 64 ->
  Z.land (Z.shiftr (dec_triple a b c d) 16) 255 = a * 4 + b / 16.
Proof.
  intros. rewrite dec_triple_arith by assumption.
  change 255 with (Z.ones 8). rewrite shr_and by lia.
  change (2^16) with 65536; change (2^8) with 256. lia.
Qed.
Lemma dec_b1 a b c d : 0 <= a < 64 -> 0 <= b < 64 -> 0 <= c < 64 -> 0 <= d < 64 ->
  Z.land (Z.shiftr (dec_triple a b c d) 8) 255 = (b mod 16) * 16 + c / 4.
Proof.
  intros. rewrite dec_triple_arith by assumption.
  change 255 with (Z.ones 8). rewrite shr_and by lia.
  change (2^8) with 256. lia.
Qed.
Lemma dec_b2 a b c d : 0 <= a < 64 -> 0 <= b < 64 -> 0 <= c < 64 -> 0 <= d < 64 ->
  Z.land (dec_triple a b c d) 255 = (c mod 4) * 64 + d.
Proof.
  intros. rewrite dec_triple_arith by assumption.
  change 255 with (Z.ones 8). rewrite Z.land_ones by lia.
  change (2^8) with 256. lia.
Qed.

(** * The alphabet *)
Definition sixes : list Z := map Z.of_nat (seq 0 64).
Lemma sixes_in k : 0 <= k < 64 -> In k sixes.
Proof.
  intros H. unfold sixes. replace k with (Z.of_nat (Z.to_nat k)) by lia.
  apply in_map, in_seq. lia.
Qed.
Lemma sweep_sixes (f : Z -> bool) : forallb f sixes = true -> forall k, 0 <= k < 64 -> f k = true.
Proof. intros H k Hk. rewrite forallb_forall in H. apply H, sixes_in, Hk. Qed.

Lemma val_char k : 0 <= k < 64 -> b64_val (b64_char k) = k.
Proof.
  intros Hk. apply Z.eqb_eq.
  apply (sweep_sixes (fun k => b64_val (b64_char k) =? k)); [vm_compute; reflexivity|exact Hk].
Qed.
Lemma char_not_eq k : 0 <= k < 64 -> b64_char k =? EQ = false.
Proof.
  intros Hk. apply negb_true_iff.
  apply (sweep_sixes (fun k => negb (b64_char k =? EQ))); [vm_compute; reflexivity|exact Hk].
Qed.
Lemma char_in k : 0 <= k < 64 -> In (b64_char k) b64_alphabet.
Proof.
  intros Hk. unfold b64_char. apply (nth_In b64_table).
  assert (E : length b64_table = 64%nat) by reflexivity. lia.
Qed.

Fixpoint inb (x : Z) (l : list Z) : bool :=
  match l with [] => false | y :: r => (y =? x) || inb x r end.
Lemma inb_spec x l : inb x l = true <-> In x l.
Proof. induction l as [|y l IH]; cbn; [intuition congruence|].
  rewrite orb_true_iff, IH, Z.eqb_eq. tauto. Qed.

Lemma alphabet_bytes c : In c b64_alphabet -> is_byte c.
Proof.
  intros H. pose proof (bs_bytes "ABCDEFGHIJKLMNOPQRSTUVWXYZabcdefghijklmnopqrstuvwxyz0123456789+/") as Hb.
  unfold byte_string in Hb. rewrite Forall_forall in Hb. apply Hb, H.
Qed.

Lemma b64_val_byte c : is_byte c ->
  b64_val c = if inb c b64_alphabet then index_in c b64_alphabet else -1.
Proof.
  intros Hc. apply Z.eqb_eq.
  apply (sweep_bytes (fun c => b64_val c =? (if inb c b64_alphabet then index_in c b64_alphabet else -1)));
    [vm_compute; reflexivity|exact Hc].
Qed.

Lemma b64_val_in c : In c b64_alphabet -> 0 <= b64_val c < 64 /\ b64_val c = index_in c b64_alphabet
                                           /\ b64_char (b64_val c) = c /\ c =? EQ = false.
Proof.
  intros Hc. pose proof (alphabet_bytes c Hc) as Hb.
  assert (E : inb c b64_alphabet = true) by (apply inb_spec, Hc).
  pose proof (sweep_bytes (fun c => if inb c b64_alphabet
     then (0 <=? b64_val c) && (b64_val c <? 64) && (b64_val c =? index_in c b64_alphabet)
          && (b64_char (b64_val c) =? c) && negb (c =? EQ) else true)
     ltac:(vm_compute; reflexivity) c Hb) as S. cbv beta in S. rewrite E in S.
  rewrite !andb_true_iff in S. destruct S as [[[[S1 S2] S3] S4] S5].
  rewrite negb_true_iff in S5. lia.
Qed.

Lemma b64_val_neg c : (0 <= b64_val c) <-> In c b64_alphabet.
Proof.
  split; [|intros H; apply b64_val_in in H; lia].
  intros H. assert (Hb : is_byte c).
  { revert H. unfold b64_val, is_byte.
    destruct ((65 <=? c) && (c <=? 90)) eqn:E1; [lia|].
    destruct ((97 <=? c) && (c <=? 122)) eqn:E2; [lia|].
    destruct ((48 <=? c) && (c <=? 57)) eqn:E3; [lia|].
    destruct (c =? 43) eqn:E4; [lia|]. destruct (c =? 47) eqn:E5; lia. }
  rewrite b64_val_byte in H by exact Hb.
  destruct (inb c b64_alphabet) eqn:E; [apply inb_spec, E|lia].
Qed.

(** * base64: round trip *)
Lemma b64_decode_quad ca cb cc cd rest :
  In ca b64_alphabet -> In cb b64_alphabet -> In cc b64_alphabet -> In cd b64_alphabet ->
  b64_decode_loop (ca :: cb :: cc :: cd :: rest) =
  rmap (fun r => b64_val ca * 4 + b64_val cb / 16 ::
                 (b64_val cb mod 16) * 16 + b64_val cc / 4 ::
                 (b64_val cc mod 4) * 64 + b64_val cd :: r) (b64_decode_loop rest).
Proof.
  intros Ha Hb Hc Hd. cbn [b64_decode_loop].
  apply b64_val_in in Ha as (Ra & _ & _ & _), Hb as (Rb & _ & _ & _),
    Hc as (Rc & _ & _ & Nc), Hd as (Rd & _ & _ & Nd).
  rewrite Nc, Nd. cbn [orb andb negb].
  destruct (b64_val ca <? 0) eqn:?; [lia|]. destruct (b64_val cb <? 0) eqn:?; [lia|].
  destruct (b64_val cc <? 0) eqn:?; [lia|]. destruct (b64_val cd <? 0) eqn:?; [lia|].
  cbn [orb]. rewrite dec_b0, dec_b1, dec_b2 by assumption. reflexivity.
Qed.

Lemma b64_decode_pad2 ca cb : In ca b64_alphabet -> In cb b64_alphabet ->
  b64_decode_loop [ca; cb; EQ; EQ] = Ok [b64_val ca * 4 + b64_val cb / 16].
Proof.
  intros Ha Hb. cbn [b64_decode_loop].
  apply b64_val_in in Ha as (Ra & _ & _ & _), Hb as (Rb & _ & _ & _).
  rewrite Z.eqb_refl. cbn [orb andb negb].
  destruct (b64_val ca <? 0) eqn:?; [lia|]. destruct (b64_val cb <? 0) eqn:?; [lia|].
  cbn [orb Z.ltb Z.compare]. change (0 <? 0) with false. cbn [orb].
  rewrite dec_b0 by lia. reflexivity.
Qed.
Lemma b64_decode_pad1 ca cb cc : In ca b64_alphabet -> In cb b64_alphabet -> In cc b64_alphabet ->
  b64_decode_loop [ca; cb; cc; EQ] =
    Ok [b64_val ca * 4 + b64_val cb / 16; (b64_val cb mod 16) * 16 + b64_val cc / 4].
Proof.
  intros Ha Hb Hc. cbn [b64_decode_loop].
  apply b64_val_in in Ha as (Ra & _ & _ & _), Hb as (Rb & _ & _ & _), Hc as (Rc & _ & _ & Nc).
  rewrite Z.eqb_refl, Nc. cbn [orb andb negb].
  destruct (b64_val ca <? 0) eqn:?; [lia|]. destruct (b64_val cb <? 0) eqn:?; [lia|].
  destruct (b64_val cc <? 0) eqn:?; [lia|].
  change (0 <? 0) with false. cbn [orb].
  rewrite dec_b0, dec_b1 by lia. reflexivity.
Qed.

(** Induction three bytes at a time. *)
Lemma list3_ind {A} (P : list A -> Prop) :
  P [] -> (forall a, P [a]) -> (forall a b, P [a; b]) ->
  (forall a b c r, P r -> P (a :: b :: c :: r)) -> forall l, P l.
Proof.
  intros H0 H1 H2 H3 l. induction l as [l IH] using list_len_ind.
  destruct l as [|a [|b [|c r]]]; auto. apply H3, IH. cbn; lia.
Qed.
Lemma list4_ind {A} (P : list A -> Prop) :
  P [] -> (forall a, P [a]) -> (forall a b, P [a; b]) -> (forall a b c, P [a; b; c]) ->
  (forall a b c d r, P r -> P (a :: b :: c :: d :: r)) -> forall l, P l.
Proof.
  intros H0 H1 H2 H2' H3 l. induction l as [l IH] using list_len_ind.
  destruct l as [|a [|b [|c [|d r]]]]; auto. apply H3, IH. cbn; lia.
Qed.

(** The encoder in arithmetic form. *)
Lemma b64_enc1 a : is_byte a ->
  b64_encode_loop [a] = [b64_char (a / 4); b64_char ((a mod 4) * 16); EQ; EQ].
Proof.
  intros Ha. cbn [b64_encode_loop]. rewrite enc_c0, enc_c1 by (assumption || (unfold is_byte; lia)).
  replace (a mod 4 * 16 + 0 / 16) with (a mod 4 * 16) by (cbn; lia). reflexivity.
Qed.
Lemma b64_enc2 a b : is_byte a -> is_byte b ->
  b64_encode_loop [a; b] =
  [b64_char (a / 4); b64_char ((a mod 4) * 16 + b / 16); b64_char ((b mod 16) * 4); EQ].
Proof.
  intros Ha Hb. cbn [b64_encode_loop].
  rewrite enc_c0, enc_c1, enc_c2 by (assumption || (unfold is_byte; lia)).
  replace (b mod 16 * 4 + 0 / 64) with (b mod 16 * 4) by (cbn; lia). reflexivity.
Qed.
Lemma b64_enc3 a b c r : is_byte a -> is_byte b -> is_byte c ->
  b64_encode_loop (a :: b :: c :: r) =
  b64_char (a / 4) :: b64_char ((a mod 4) * 16 + b / 16) :: b64_char ((b mod 16) * 4 + c / 64)
  :: b64_char (c mod 64) :: b64_encode_loop r.
Proof.
  intros Ha Hb Hc. cbn [b64_encode_loop].
  rewrite enc_c0, enc_c1, enc_c2, enc_c3 by assumption. reflexivity.
Qed.

Lemma b64_encode_loop_length s :
  Z.of_nat (length (b64_encode_loop s)) = (Z.of_nat (length s) + 2) / 3 * 4.
Proof.
  induction s as [|a|a b|a b c r IH] using list3_ind; try reflexivity.
  cbn [b64_encode_loop length]. lia.
Qed.

Ltac fa := repeat (apply Forall_cons; [assumption|]); first [apply Forall_nil|assumption].
Ltac dec_char := rewrite !val_char by lia.

Lemma b64_roundtrip_loop s : byte_string s -> b64_decode_loop (b64_encode_loop s) = Ok s.
Proof.
  unfold byte_string.
  induction s as [|a|a b|a b c r IH] using list3_ind; intros H.
  - reflexivity.
  - inversion H as [|? ? Ha _]; subst. rewrite b64_enc1 by assumption. unfold is_byte in Ha.
    rewrite b64_decode_pad2 by (apply char_in; lia). dec_char. f_equal. f_equal. lia.
  - inversion H as [|? ? Ha H']; subst. inversion H' as [|? ? Hb _]; subst.
    rewrite b64_enc2 by assumption. unfold is_byte in *.
    rewrite b64_decode_pad1 by (apply char_in; lia). dec_char. repeat f_equal; lia.
  - inversion H as [|? ? Ha H']; subst. inversion H' as [|? ? Hb H'']; subst.
    inversion H'' as [|? ? Hc Hr]; subst.
    rewrite b64_enc3 by assumption. unfold is_byte in *.
    rewrite b64_decode_quad by (apply char_in; lia). rewrite IH by assumption.
    dec_char. cbn [rmap]. repeat f_equal; lia.
Qed.

Lemma base64_encode_ok s : Z.of_nat (length s) <= 1610612733 ->
  base64_encode s = Ok (b64_encode_loop s).
Proof.
  intros H. unfold base64_encode, b64_output_length, INT32_MAX.
  destruct (2147483647 <? Z.of_nat (length s) + 2) eqn:E1; [lia|].
  destruct (2147483647 <? (Z.of_nat (length s) + 2) / 3 * 4) eqn:E2; [lia|]. reflexivity.
Qed.
Lemma base64_encode_ub s : 1610612733 < Z.of_nat (length s) -> base64_encode s = UB.
Proof.
  intros H. unfold base64_encode, b64_output_length, INT32_MAX.
  destruct (2147483647 <? Z.of_nat (length s) + 2) eqn:E1; [reflexivity|].
  destruct (2147483647 <? (Z.of_nat (length s) + 2) / 3 * 4) eqn:E2; [reflexivity|lia].
Qed.

Lemma base64_roundtrip s : byte_string s -> Z.of_nat (length s) <= 1610612733 ->
  rbind (base64_encode s) base64_decode = Ok s.
Proof.
  intros Hs Hl. rewrite base64_encode_ok by exact Hl. cbn [rbind].
  unfold base64_decode. pose proof (b64_encode_loop_length s) as L.
  destruct (b64_encode_loop s) as [|x l] eqn:E.
  - cbn in L. destruct s; [reflexivity|cbn in L; lia].
  - rewrite <- E in *. destruct (negb _) eqn:Em; [lia|]. apply b64_roundtrip_loop, Hs.
Qed.

(** * base64 encoder = RFC 4648 *)
Lemma bits8_split6_2 a : is_byte a -> bits_msb 8 a = bits_msb 6 (a / 4) ++ bits_msb 2 (a mod 4).
Proof.
  intros Ha. rewrite <- bits_msb_app by (cbn; unfold is_byte in Ha; lia).
  f_equal. unfold is_byte in Ha. change (2 ^ Z.of_nat 2) with 4. lia.
Qed.
Lemma bits8_split4_4 a : is_byte a -> bits_msb 8 a = bits_msb 4 (a / 16) ++ bits_msb 4 (a mod 16).
Proof.
  intros Ha. rewrite <- bits_msb_app by (cbn; unfold is_byte in Ha; lia).
  f_equal. unfold is_byte in Ha. change (2 ^ Z.of_nat 4) with 16. lia.
Qed.
Lemma bits8_split2_6 a : is_byte a -> bits_msb 8 a = bits_msb 2 (a / 64) ++ bits_msb 6 (a mod 64).
Proof.
  intros Ha. rewrite <- bits_msb_app by (cbn; unfold is_byte in Ha; lia).
  f_equal. unfold is_byte in Ha. change (2 ^ Z.of_nat 6) with 64. lia.
Qed.

Lemma sextets_6 x r : sextets (bits_msb 6 x ++ r) = bits_msb 6 x :: sextets r.
Proof. reflexivity. Qed.

Lemma bits3_regroup a b c r : is_byte a -> is_byte b -> is_byte c ->
  sextets (bits_msb 8 a ++ bits_msb 8 b ++ bits_msb 8 c ++ r) =
  bits_msb 6 (a / 4) :: bits_msb 6 ((a mod 4) * 16 + b / 16) ::
  bits_msb 6 ((b mod 16) * 4 + c / 64) :: bits_msb 6 (c mod 64) :: sextets r.
Proof.
  intros Ha Hb Hc.
  rewrite (bits8_split6_2 a), (bits8_split4_4 b), (bits8_split2_6 c) by assumption.
  unfold is_byte in *.
  rewrite <- !app_assoc, (app_assoc (bits_msb 2 (a mod 4))), <- (bits_msb_app 2 4) by (cbn; lia).
  rewrite (app_assoc (bits_msb 4 (b mod 16))), <- (bits_msb_app 4 2) by (cbn; lia).
  change (2 ^ Z.of_nat 4) with 16. change (2 ^ Z.of_nat 2) with 4.
  cbn [Nat.add]. rewrite !sextets_6. reflexivity.
Qed.

Lemma bits0 n : bits_msb n 0 = repeat false n.
Proof. induction n; cbn; [reflexivity|]. rewrite IHn, Z.testbit_0_l. reflexivity. Qed.

Lemma alpha_val k : 0 <= k < 64 ->
  nth (Z.to_nat (val_msb 0 (bits_msb 6 k))) b64_alphabet 0 = b64_char k.
Proof.
  intros Hk. rewrite val_bits. change (2 ^ Z.of_nat 6) with 64.
  rewrite Z.mod_small by lia. reflexivity.
Qed.

Definition rfc_body (s : bytes) : bytes :=
  map (fun g => nth (Z.to_nat (val_msb 0 g)) b64_alphabet 0) (sextets (flat_map (bits_msb 8) s)).

Lemma rfc_body3 a b c r : is_byte a -> is_byte b -> is_byte c ->
  rfc_body (a :: b :: c :: r) =
  b64_char (a / 4) :: b64_char ((a mod 4) * 16 + b / 16) :: b64_char ((b mod 16) * 4 + c / 64)
  :: b64_char (c mod 64) :: rfc_body r.
Proof.
  intros Ha Hb Hc. unfold rfc_body. cbn [flat_map]. rewrite bits3_regroup by assumption.
  unfold is_byte in *. cbn [map]. rewrite !alpha_val by lia. reflexivity.
Qed.
Lemma rfc_body1 a : is_byte a -> rfc_body [a] = [b64_char (a / 4); b64_char ((a mod 4) * 16)].
Proof.
  intros Ha. unfold rfc_body. cbn [flat_map]. rewrite app_nil_r, bits8_split6_2 by assumption.
  rewrite sextets_6. unfold is_byte in Ha.
  assert (E : sextets (bits_msb 2 (a mod 4)) = [bits_msb 6 (a mod 4 * 16)]).
  { change 6%nat with (2 + 4)%nat. replace (a mod 4 * 16) with (a mod 4 * 2 ^ Z.of_nat 4 + 0)
      by (change (2 ^ Z.of_nat 4) with 16; lia).
    rewrite (bits_msb_app 2 4) by (cbn; lia). rewrite bits0. reflexivity. }
  rewrite E. cbn [map]. rewrite !alpha_val by lia. reflexivity.
Qed.
Lemma rfc_body2 a b : is_byte a -> is_byte b -> rfc_body [a; b] =
  [b64_char (a / 4); b64_char ((a mod 4) * 16 + b / 16); b64_char ((b mod 16) * 4)].
Proof.
  intros Ha Hb. unfold rfc_body. cbn [flat_map].
  rewrite app_nil_r, bits8_split6_2, (bits8_split4_4 b) by assumption.
  unfold is_byte in *.
  rewrite <- app_assoc, (app_assoc (bits_msb 2 _)), <- (bits_msb_app 2 4) by (cbn; lia).
  cbn [Nat.add]. rewrite !sextets_6. change (2 ^ Z.of_nat 4) with 16.
  assert (E : sextets (bits_msb 4 (b mod 16)) = [bits_msb 6 (b mod 16 * 4)]).
  { change 6%nat with (4 + 2)%nat. replace (b mod 16 * 4) with (b mod 16 * 2 ^ Z.of_nat 2 + 0)
      by (change (2 ^ Z.of_nat 2) with 4; lia).
    rewrite (bits_msb_app 4 2) by (cbn; lia). rewrite bits0. reflexivity. }
  rewrite E. cbn [map]. rewrite !alpha_val by lia. reflexivity.
Qed.

Lemma b64_encode_rfc_loop s : byte_string s -> b64_encode_loop s = rfc4648_base64 s.
Proof.
  intros Hs.
  change (rfc4648_base64 s) with
    (rfc_body s ++ repeat equals_sign ((4 - length (rfc_body s) mod 4) mod 4)%nat).
  revert Hs. unfold byte_string.
  induction s as [|a|a b|a b c r IH] using list3_ind; intros H.
  - reflexivity.
  - inversion H as [|? ? Ha _]; subst. rewrite b64_enc1, rfc_body1 by assumption. reflexivity.
  - inversion H as [|? ? Ha H']; subst. inversion H' as [|? ? Hb _]; subst.
    rewrite b64_enc2, rfc_body2 by assumption. reflexivity.
  - inversion H as [|? ? Ha H']; subst. inversion H' as [|? ? Hb H'']; subst.
    inversion H'' as [|? ? Hc Hr]; subst.
    rewrite b64_enc3, rfc_body3 by assumption. cbn [app length].
    rewrite IH by assumption. do 4 f_equal.
    replace (S (S (S (S (length (rfc_body r)))))) with (length (rfc_body r) + 1 * 4)%nat by lia.
    rewrite Nat.mod_add by lia. reflexivity.
Qed.

(** * base64 decoder: acceptance and value *)
Lemma app_repeat_eq (body : bytes) p x :
  Forall (fun c => In c b64_alphabet) body -> In x (body ++ repeat equals_sign p) ->
  In x b64_alphabet \/ x = EQ.
Proof.
  intros Hf Hi. apply in_app_or in Hi as [Hi|Hi].
  - left. rewrite Forall_forall in Hf. apply Hf, Hi.
  - right. apply repeat_spec in Hi. exact Hi.
Qed.

Lemma EQ_not_alpha : ~ In EQ b64_alphabet.
Proof. intros H. apply b64_val_in in H as (H & _). vm_compute in H. destruct H as [H _]. apply H; reflexivity. Qed.

(** Value of the decoder on a well-formed text. *)
Definition dec_value (body : bytes) (out : bytes) : Prop :=
  exists rest, b64_body_bits body = flat_map (bits_msb 8) out ++ rest /\ (length rest < 8)%nat.

Lemma body_bits_quad a b c d r : In a b64_alphabet -> In b b64_alphabet -> In c b64_alphabet -> In d b64_alphabet ->
  b64_body_bits (a :: b :: c :: d :: r) =
  flat_map (bits_msb 8) [b64_val a * 4 + b64_val b / 16; (b64_val b mod 16) * 16 + b64_val c / 4;
                         (b64_val c mod 4) * 64 + b64_val d] ++ b64_body_bits r.
Proof.
  intros Ha Hb Hc Hd. unfold b64_body_bits. cbn [flat_map].
  apply b64_val_in in Ha as (Ra & <- & _ & _), Hb as (Rb & <- & _ & _),
    Hc as (Rc & <- & _ & _), Hd as (Rd & <- & _ & _).
  set (va := b64_val a) in *; set (vb := b64_val b) in *; set (vc := b64_val c) in *; set (vd := b64_val d) in *.
  assert (E0 : bits_msb 8 (va * 4 + vb / 16) = bits_msb 6 va ++ bits_msb 2 (vb / 16)).
  { change 4 with (2 ^ Z.of_nat 2). apply (bits_msb_app 6 2). cbn. lia. }
  assert (E1 : bits_msb 8 (vb mod 16 * 16 + vc / 4) = bits_msb 4 (vb mod 16) ++ bits_msb 4 (vc / 4)).
  { change (vb mod 16 * 16) with (vb mod 16 * 2 ^ Z.of_nat 4). apply (bits_msb_app 4 4). cbn. lia. }
  assert (E2 : bits_msb 8 (vc mod 4 * 64 + vd) = bits_msb 2 (vc mod 4) ++ bits_msb 6 vd).
  { change (vc mod 4 * 64) with (vc mod 4 * 2 ^ Z.of_nat 6). apply (bits_msb_app 2 6). cbn. lia. }
  rewrite E0, E1, E2, !app_nil_r, <- !app_assoc.
  assert (F1 : bits_msb 6 vb = bits_msb 2 (vb / 16) ++ bits_msb 4 (vb mod 16)).
  { rewrite <- (bits_msb_app 2 4) by (cbn; lia). f_equal. cbn; lia. }
  assert (F2 : bits_msb 6 vc = bits_msb 4 (vc / 4) ++ bits_msb 2 (vc mod 4)).
  { rewrite <- (bits_msb_app 4 2) by (cbn; lia). f_equal. cbn; lia. }
  rewrite F1, F2, <- !app_assoc. reflexivity.
Qed.

Lemma body_bits_2 a b : In a b64_alphabet -> In b b64_alphabet ->
  b64_body_bits [a; b] = flat_map (bits_msb 8) [b64_val a * 4 + b64_val b / 16] ++ bits_msb 4 (b64_val b mod 16).
Proof.
  intros Ha Hb. unfold b64_body_bits. cbn [flat_map].
  apply b64_val_in in Ha as (Ra & <- & _ & _), Hb as (Rb & <- & _ & _).
  set (va := b64_val a) in *; set (vb := b64_val b) in *.
  assert (E0 : bits_msb 8 (va * 4 + vb / 16) = bits_msb 6 va ++ bits_msb 2 (vb / 16)).
  { change 4 with (2 ^ Z.of_nat 2). apply (bits_msb_app 6 2). cbn. lia. }
  rewrite E0, !app_nil_r, <- app_assoc. f_equal.
  rewrite <- (bits_msb_app 2 4) by (cbn; lia). f_equal. cbn; lia.
Qed.
Lemma body_bits_3 a b c : In a b64_alphabet -> In b b64_alphabet -> In c b64_alphabet ->
  b64_body_bits [a; b; c] =
  flat_map (bits_msb 8) [b64_val a * 4 + b64_val b / 16; (b64_val b mod 16) * 16 + b64_val c / 4]
    ++ bits_msb 2 (b64_val c mod 4).
Proof.
  intros Ha Hb Hc. unfold b64_body_bits. cbn [flat_map].
  apply b64_val_in in Ha as (Ra & <- & _ & _), Hb as (Rb & <- & _ & _), Hc as (Rc & <- & _ & _).
  set (va := b64_val a) in *; set (vb := b64_val b) in *; set (vc := b64_val c) in *.
  assert (E0 : bits_msb 8 (va * 4 + vb / 16) = bits_msb 6 va ++ bits_msb 2 (vb / 16)).
  { change 4 with (2 ^ Z.of_nat 2). apply (bits_msb_app 6 2). cbn. lia. }
  assert (E1 : bits_msb 8 (vb mod 16 * 16 + vc / 4) = bits_msb 4 (vb mod 16) ++ bits_msb 4 (vc / 4)).
  { change (vb mod 16 * 16) with (vb mod 16 * 2 ^ Z.of_nat 4). apply (bits_msb_app 4 4). cbn. lia. }
  rewrite E0, E1, !app_nil_r, <- !app_assoc. f_equal.
  assert (F1 : bits_msb 6 vb = bits_msb 2 (vb / 16) ++ bits_msb 4 (vb mod 16)).
  { rewrite <- (bits_msb_app 2 4) by (cbn; lia). f_equal. cbn; lia. }
  assert (F2 : bits_msb 6 vc = bits_msb 4 (vc / 4) ++ bits_msb 2 (vc mod 4)).
  { rewrite <- (bits_msb_app 4 2) by (cbn; lia). f_equal. cbn; lia. }
  rewrite F1, F2, <- !app_assoc. reflexivity.
Qed.

Lemma b64_decode_wf body p : Forall (fun c => In c b64_alphabet) body -> (p <= 2)%nat ->
  (length (body ++ repeat equals_sign p) mod 4 = 0)%nat ->
  exists out, b64_decode_loop (body ++ repeat equals_sign p) = Ok out /\
    byte_string out /\ dec_value body out.
Proof.
  intros Hf Hp. revert Hf.
  induction body as [|a|a b|a b c|a b c d r IH] using list4_ind; intros Hf Hl.
  - rewrite app_length, repeat_length in Hl. cbn [length] in Hl.
    destruct p as [|[|[|p]]]; [|cbn in Hl; lia|cbn in Hl; lia|lia].
    exists []. split; [reflexivity|]. split; [constructor|]. exists []. split; [reflexivity|cbn; lia].
  - rewrite app_length, repeat_length in Hl. cbn [length] in Hl.
    destruct p as [|[|[|p]]]; cbn in Hl; lia.
  - rewrite app_length, repeat_length in Hl. cbn [length] in Hl.
    destruct p as [|[|[|p]]]; [cbn in Hl; lia|cbn in Hl; lia| |lia].
    inversion Hf as [|? ? Ha H']; subst. inversion H' as [|? ? Hb _]; subst.
    cbn [app repeat]. change equals_sign with EQ. rewrite b64_decode_pad2 by assumption.
    eexists. split; [reflexivity|]. split.
    + apply b64_val_in in Ha as (Ra & _), Hb as (Rb & _).
      constructor; [unfold is_byte; lia|constructor].
    + exists (bits_msb 4 (b64_val b mod 16)). split; [apply body_bits_2; assumption|].
      rewrite bits_msb_length; lia.
  - rewrite app_length, repeat_length in Hl. cbn [length] in Hl.
    destruct p as [|[|[|p]]]; [cbn in Hl; lia| |cbn in Hl; lia|lia].
    inversion Hf as [|? ? Ha H']; subst. inversion H' as [|? ? Hb H'']; subst.
    inversion H'' as [|? ? Hc _]; subst.
    cbn [app repeat]. change equals_sign with EQ. rewrite b64_decode_pad1 by assumption.
    eexists. split; [reflexivity|]. split.
    + apply b64_val_in in Ha as (Ra & _), Hb as (Rb & _), Hc as (Rc & _).
      constructor; [unfold is_byte; lia|constructor; [unfold is_byte; lia|constructor]].
    + exists (bits_msb 2 (b64_val c mod 4)). split; [apply body_bits_3; assumption|].
      rewrite bits_msb_length; lia.
  - inversion Hf as [|? ? Ha H1]; subst. inversion H1 as [|? ? Hb H2]; subst.
    inversion H2 as [|? ? Hc H3]; subst. inversion H3 as [|? ? Hd H4]; subst.
    destruct IH as (out & Ho & Hbo & rest & Hr & Hrl); [assumption| |].
    { cbn [app length] in Hl. lia. }
    cbn [app]. rewrite b64_decode_quad, Ho by assumption. cbn [rmap].
    eexists. split; [reflexivity|]. split.
    + apply b64_val_in in Ha as (Ra & _), Hb as (Rb & _), Hc as (Rc & _), Hd as (Rd & _).
      repeat constructor; try (unfold is_byte; lia); assumption.
    + exists rest. split; [|exact Hrl].
      rewrite body_bits_quad, Hr by assumption. cbn [flat_map]. rewrite <- !app_assoc. reflexivity.
Qed.

(** Conversely an accepted text is well formed. *)
Lemma rmap_ok {A B} (f : A -> B) r b : rmap f r = Ok b -> exists a, r = Ok a /\ b = f a.
Proof. destruct r; cbn; intros H; inversion H; eauto. Qed.

Lemma b64_decode_ok_wf s out : b64_decode_loop s = Ok out ->
  exists body p, s = body ++ repeat equals_sign p /\ (p <= 2)%nat /\
    Forall (fun c => In c b64_alphabet) body /\ (length s mod 4 = 0)%nat.
Proof.
  revert out. induction s as [|a|a b|a b c|a b c d r IH] using list4_ind; intros out H; try discriminate.
  - exists [], 0%nat. repeat split; [lia|constructor].
  - cbn [b64_decode_loop] in H.
    destruct (((c =? EQ) || (d =? EQ)) && negb match r with [] => true | _ => false end) eqn:E1; [discriminate|].
    destruct ((c =? EQ) && negb (d =? EQ)) eqn:E2; [discriminate|].
    destruct ((b64_val a <? 0) || (b64_val b <? 0) || ((if c =? EQ then 0 else b64_val c) <? 0)
              || ((if d =? EQ then 0 else b64_val d) <? 0)) eqn:E3; [discriminate|].
    apply rmap_ok in H as (o & Ho & _).
    rewrite !orb_false_iff in E3. destruct E3 as [[[Ea Eb] Ec] Ed].
    assert (Ha : In a b64_alphabet) by (apply b64_val_neg; lia).
    assert (Hb : In b b64_alphabet) by (apply b64_val_neg; lia).
    destruct (IH _ Ho) as (body & p & Er & Hp & Hf & Hl).
    assert (Hl' : (length (a :: b :: c :: d :: r) mod 4 = 0)%nat).
    { cbn [length]. replace (S (S (S (S (length r))))) with (length r + 1 * 4)%nat by lia.
      rewrite Nat.mod_add by lia. exact Hl. }
    destruct (d =? EQ) eqn:Dd.
    + apply Z.eqb_eq in Dd. subst d.
      assert (r = []) by (destruct r; [reflexivity|rewrite orb_true_r in E1; discriminate]). clear Er. subst r.
      destruct (c =? EQ) eqn:Dc.
      * apply Z.eqb_eq in Dc. subst c. exists [a; b], 2%nat. split; [reflexivity|]. split; [lia|]. split; [fa|exact Hl'].
      * assert (Hc : In c b64_alphabet) by (apply b64_val_neg; lia).
        exists [a; b; c], 1%nat. split; [reflexivity|]. split; [lia|]. split; [fa|exact Hl'].
    + destruct (c =? EQ) eqn:Dc; [discriminate|].
      assert (Hc : In c b64_alphabet) by (apply b64_val_neg; lia).
      assert (Hd : In d b64_alphabet) by (apply b64_val_neg; lia).
      exists (a :: b :: c :: d :: body), p. rewrite Er. repeat split; [assumption| |].
      * fa.
      * rewrite <- Er. exact Hl'.
Qed.

Lemma wf_len_cond (t : bytes) : (length t mod 4 = 0)%nat -> negb (Z.of_nat (length t) mod 4 =? 0) = false.
Proof. intros H. lia. Qed.

Lemma b64_decode_accepts t : (exists out, base64_decode t = Ok out) <-> b64_wellformed t.
Proof.
  split.
  - intros [out H]. unfold base64_decode in H. destruct t as [|x t].
    + exists [], 0%nat. repeat split; [lia|constructor].
    + destruct (negb _) eqn:E; [discriminate|]. apply b64_decode_ok_wf in H. exact H.
  - intros (body & p & -> & Hp & Hf & Hl).
    destruct (b64_decode_wf body p Hf Hp Hl) as (out & Ho & _).
    unfold base64_decode. destruct (body ++ repeat equals_sign p) as [|x t] eqn:E; [eauto|].
    rewrite wf_len_cond by exact Hl. eauto.
Qed.

Lemma b64_decode_value body p : Forall (fun c => In c b64_alphabet) body -> (p <= 2)%nat ->
  (length (body ++ repeat equals_sign p) mod 4 = 0)%nat ->
  exists out rest, base64_decode (body ++ repeat equals_sign p) = Ok out /\ byte_string out /\
     b64_body_bits body = flat_map (bits_msb 8) out ++ rest /\ (length rest < 8)%nat.
Proof.
  intros Hf Hp Hl. destruct (b64_decode_wf body p Hf Hp Hl) as (out & Ho & Hb & rest & Hr & Hrl).
  exists out, rest. split; [|auto].
  unfold base64_decode. destruct (body ++ repeat equals_sign p) as [|x t] eqn:E.
  - cbn in Ho. exact Ho.
  - rewrite wf_len_cond by exact Hl. exact Ho.
Qed.

(** Outcome is never UB and the panics are the documented ones. *)
Lemma b64_decode_loop_outcomes s : (Z.of_nat (length s) mod 4 = 0) ->
  (exists o, b64_decode_loop s = Ok o) \/ (exists c, b64_decode_loop s = Panic c /\ 37 <= c <= 39).
Proof.
  induction s as [|a|a b|a b c|a b c d r IH] using list4_ind; intros H;
    try (cbn in H; lia).
  - left; exists []; reflexivity.
  - cbn [b64_decode_loop].
    do 3 (match goal with |- context [if ?b then Panic _ else _] =>
            destruct b; [right; eexists; split; [reflexivity|lia]|] end).
    destruct IH as [[o Ho]|(k & Ho & Hk)].
    + cbn [length] in H. lia.
    + rewrite Ho. cbn [rmap]. eauto.
    + rewrite Ho. cbn [rmap]. eauto.
Qed.
Lemma base64_decode_outcomes t :
  (exists o, base64_decode t = Ok o) \/ (exists c, base64_decode t = Panic c /\ 36 <= c <= 39).
Proof.
  unfold base64_decode. destruct t as [|x t]; [left; eauto|].
  destruct (negb _) eqn:E; [right; eexists; split; [reflexivity|lia]|].
  destruct (b64_decode_loop_outcomes (x :: t)) as [?|(c & ? & ?)]; [lia|left; assumption|].
  right; exists c; split; [assumption|lia].
Qed.

(** The buffer allocated by the decoder is filled exactly. *)
Lemma b64_capacity_exact s out : base64_decode s = Ok out -> s <> [] ->
  Z.of_nat (length out) = b64_decode_capacity s.
Proof.
  intros H Hne. assert (Hs : b64_decode_loop s = Ok out).
  { unfold base64_decode in H. destruct s; [congruence|]. destruct (negb _); [discriminate|exact H]. }
  clear H. revert out Hs Hne.
  induction s as [|a|a b|a b c|a b c d r IH] using list4_ind; intros out H Hne; try discriminate; try congruence.
  cbn [b64_decode_loop] in H.
  destruct (((c =? EQ) || (d =? EQ)) && negb match r with [] => true | _ => false end) eqn:E1; [discriminate|].
  destruct ((c =? EQ) && negb (d =? EQ)) eqn:E2; [discriminate|].
  match type of H with (if ?b then _ else _) = _ => destruct b; [discriminate|] end.
  apply rmap_ok in H as (o & Ho & ->).
  destruct r as [|e r].
  - inversion Ho; subst o. unfold b64_decode_capacity. cbn [length Nat.sub nth].
    destruct (c =? EQ) eqn:Dc, (d =? EQ) eqn:Dd; try discriminate; reflexivity.
  - destruct (c =? EQ) eqn:Dc; [discriminate|]. destruct (d =? EQ) eqn:Dd; [discriminate|].
    specialize (IH o Ho ltac:(discriminate)).
    cbn [app length].
    unfold b64_decode_capacity in *.
    set (n := length (e :: r)) in *.
    assert (Hn : length (a :: b :: c :: d :: e :: r) = S (S (S (S n)))) by reflexivity.
    rewrite Hn. assert (Hpos : (1 <= n)%nat) by (subst n; cbn; lia).
    destruct (b64_decode_ok_wf _ _ Ho) as (body & p & Er & Hp & Hf & Hl).
    assert (Hn4 : (4 <= n)%nat).
    { fold n in Hl. destruct n as [|[|[|[|n']]]]; cbn in Hl; lia. }
    replace (S (S (S (S n))) - 1)%nat with (S (S (S (S (n - 1)))))%nat by lia.
    replace (S (S (S (S n))) - 2)%nat with (S (S (S (S (n - 2)))))%nat by lia.
    cbn [nth]. 
    change (match (n - 1)%nat with 0%nat => e | S m => nth m r 0 end) with (nth (n - 1) (e :: r) 0).
    change (match (n - 2)%nat with 0%nat => e | S m => nth m r 0 end) with (nth (n - 2) (e :: r) 0).
    replace (2 <=? Z.of_nat (S (S (S (S n))))) with true by lia.
    replace (2 <=? Z.of_nat n) with true in IH by lia.
    destruct (nth (n - 1) (e :: r) 0 =? EQ), (nth (n - 2) (e :: r) 0 =? EQ); cbn [andb] in *; lia.
Qed.

(** * Refutation of canonicity *)
Lemma base64_noncanonical : base64_decode (bs "QR==") = Ok (bs "A") /\ base64_encode (bs "A") = Ok (bs "QQ==").
Proof. split; vm_compute; reflexivity. Qed.

(** * Hexadecimal *)
Lemma hex2_bytes u b : is_byte b ->
  match hex2 u b with
  | [h; l] => isxdigit h = true /\ isxdigit l = true /\
              Z.lor (Z.shiftl (hex_value h) 4) (hex_value l) = b
  | _ => False
  end.
Proof.
  intros Hb. unfold hex2.
  pose proof (sweep_bytes (fun b =>
     forallb (fun u => isxdigit (hex_digit u (b / 16)) && isxdigit (hex_digit u (b mod 16)) &&
      (Z.lor (Z.shiftl (hex_value (hex_digit u (b / 16))) 4) (hex_value (hex_digit u (b mod 16))) =? b))
      [true; false]) ltac:(vm_compute; reflexivity) b Hb) as S. cbv beta in S.
  rewrite forallb_forall in S. specialize (S u). 
  rewrite !andb_true_iff, Z.eqb_eq in S.
  destruct S as [[S1 S2] S3]; [destruct u; cbn; tauto|]. auto.
Qed.

Lemma hex_roundtrip_loop s : byte_string s -> hex_decode_loop (flat_map (hex2 false) s) = Ok s.
Proof.
  induction s as [|b s IH]; intros H; [reflexivity|].
  inversion H as [|? ? Hb Hs]; subst. cbn [flat_map].
  pose proof (hex2_bytes false b Hb) as P. unfold hex2 in *. destruct P as (P1 & P2 & P3).
  cbn [app hex_decode_loop]. rewrite P1, P2, P3. cbn [negb orb]. rewrite IH by assumption. reflexivity.
Qed.

Lemma flat_hex2_length u s : length (flat_map (hex2 u) s) = (2 * length s)%nat.
Proof. induction s as [|b s IH]; [reflexivity|]. cbn [flat_map]. rewrite app_length, IH. cbn [hex2 length]. lia. Qed.

Lemma hex_roundtrip s : byte_string s -> Z.of_nat (length s) <= 1073741823 ->
  rbind (hex_encode s) hex_decode = Ok s.
Proof.
  intros Hs Hl. unfold hex_encode, INT32_MAX.
  destruct (2147483647 <? Z.of_nat (length s) * 2) eqn:E; [lia|]. cbn [rbind].
  unfold hex_decode. rewrite flat_hex2_length.
  destruct (negb _) eqn:E2; [lia|]. apply hex_roundtrip_loop, Hs.
Qed.

(** Independent spec: hexadecimal text of a byte string. *)
Lemma hex2_text b : is_byte b ->
  hex2 false b = [nth (Z.to_nat (b / 16)) hex_digits_lower 0; nth (Z.to_nat (b mod 16)) hex_digits_lower 0].
Proof.
  intros Hb. unfold hex2.
  pose proof (sweep_bytes (fun b =>
     (hex_digit false (b / 16) =? nth (Z.to_nat (b / 16)) hex_digits_lower 0) &&
     (hex_digit false (b mod 16) =? nth (Z.to_nat (b mod 16)) hex_digits_lower 0))
     ltac:(vm_compute; reflexivity) b Hb) as S. cbv beta in S.
  rewrite andb_true_iff, !Z.eqb_eq in S. destruct S as [-> ->]. reflexivity.
Qed.
Lemma hex_encode_text s : byte_string s -> Z.of_nat (length s) <= 1073741823 ->
  hex_encode s = Ok (hex_text s).
Proof.
  intros Hs Hl. unfold hex_encode, INT32_MAX.
  destruct (2147483647 <? Z.of_nat (length s) * 2) eqn:E; [lia|]. f_equal.
  unfold hex_text. clear Hl E. induction Hs as [|b s Hb Hs IH]; [reflexivity|].
  cbn [flat_map]. rewrite hex2_text, IH by assumption. reflexivity.
Qed.

Lemma isxdigit_byte c : isxdigit c = true -> is_byte c.
Proof. unfold isxdigit, is_byte. lia. Qed.
Lemma isxdigit_spec c : isxdigit c = true <-> is_hex_digit c.
Proof.
  unfold is_hex_digit. rewrite <- !inb_spec, <- orb_true_iff.
  split; intros H.
  - pose proof (sweep_bytes (fun c => implb (isxdigit c) (inb c hex_digits_lower || inb c hex_digits_upper))
      ltac:(vm_compute; reflexivity) c (isxdigit_byte c H)) as S. cbv beta in S.
    rewrite H in S. exact S.
  - assert (Hb : is_byte c).
    { rewrite orb_true_iff, !inb_spec in H. destruct H as [H|H].
      - pose proof (bs_bytes "0123456789abcdef") as B. unfold byte_string in B; rewrite Forall_forall in B. apply B, H.
      - pose proof (bs_bytes "0123456789ABCDEF") as B. unfold byte_string in B; rewrite Forall_forall in B. apply B, H. }
    pose proof (sweep_bytes (fun c => implb (inb c hex_digits_lower || inb c hex_digits_upper) (isxdigit c))
      ltac:(vm_compute; reflexivity) c Hb) as S. cbv beta in S. rewrite H in S. exact S.
Qed.

Lemma list2_ind {A} (P : list A -> Prop) :
  P [] -> (forall a, P [a]) -> (forall a b r, P r -> P (a :: b :: r)) -> forall l, P l.
Proof.
  intros H0 H1 H2 l. induction l as [l IH] using list_len_ind.
  destruct l as [|a [|b r]]; auto. apply H2, IH. cbn; lia.
Qed.

Lemma hex_decode_accepts t :
  (exists o, hex_decode t = Ok o) <-> (Nat.even (length t) = true /\ Forall is_hex_digit t).
Proof.
  assert (L : forall t, Nat.even (length t) = true ->
     (exists o, hex_decode_loop t = Ok o) <-> Forall is_hex_digit t).
  { clear t. intros t. induction t as [|a|a b r IH] using list2_ind; intros He.
    - split; [constructor|exists []; reflexivity].
    - discriminate.
    - cbn [hex_decode_loop length Nat.even] in *. specialize (IH He). split.
      + intros [o H]. destruct (negb (isxdigit a) || negb (isxdigit b)) eqn:E; [discriminate|].
        rewrite orb_false_iff, !negb_false_iff in E. destruct E as [Ea Eb].
        apply rmap_ok in H as (o' & Ho & _).
        constructor; [apply isxdigit_spec, Ea|]. constructor; [apply isxdigit_spec, Eb|]. apply IH; eauto.
      + intros H. inversion H as [|? ? Ha H']; subst. inversion H' as [|? ? Hb Hr]; subst.
        apply isxdigit_spec in Ha, Hb. rewrite Ha, Hb. cbn [negb orb].
        apply IH in Hr as [o Ho]. rewrite Ho. cbn [rmap]. eauto. }
  unfold hex_decode. destruct (Nat.even (length t)) eqn:He.
  - assert (Em : negb (Z.of_nat (length t) mod 2 =? 0) = false).
    { apply Nat.even_spec in He as [m Hm]. lia. }
    rewrite Em. rewrite L by exact He. tauto.
  - assert (Em : negb (Z.of_nat (length t) mod 2 =? 0) = true).
    { assert (Ho : Nat.odd (length t) = true) by (rewrite <- Nat.negb_even, He; reflexivity).
      apply Nat.odd_spec in Ho as [m Hm]. lia. }
    rewrite Em. split; [intros [o H]; discriminate|intros [H _]; discriminate].
Qed.

Lemma lower_val c : isxdigit c = true -> isxdigit (lower c) = true /\ hex_value (lower c) = hex_value c.
Proof.
  intros H. pose proof (sweep_bytes (fun c => implb (isxdigit c) (isxdigit (lower c) && (hex_value (lower c) =? hex_value c)))
      ltac:(vm_compute; reflexivity) c (isxdigit_byte c H)) as S. cbv beta in S.
  rewrite H in S. cbn [implb] in S. rewrite andb_true_iff, Z.eqb_eq in S. exact S.
Qed.
Lemma lower_xdigit c : is_byte c -> isxdigit (lower c) = isxdigit c.
Proof.
  intros H. pose proof (sweep_bytes (fun c => Bool.eqb (isxdigit (lower c)) (isxdigit c))
      ltac:(vm_compute; reflexivity) c H) as S. cbv beta in S. apply eqb_prop, S.
Qed.
Lemma hex_decode_case t : byte_string t -> hex_decode (map lower t) = hex_decode t.
Proof.
  intros Ht. unfold hex_decode. rewrite map_length.
  destruct (negb _); [reflexivity|]. unfold byte_string in Ht.
  induction t as [|a|a b r IH] using list2_ind; try reflexivity.
  inversion Ht as [|? ? Ha H']; subst. inversion H' as [|? ? Hb Hr]; subst.
  cbn [map hex_decode_loop]. rewrite !lower_xdigit, IH by assumption.
  destruct (isxdigit a) eqn:Ea; [|reflexivity]. destruct (isxdigit b) eqn:Eb; [|reflexivity].
  rewrite (proj2 (lower_val a Ea)), (proj2 (lower_val b Eb)). reflexivity.
Qed.

(** An accepted text is the hexadecimal text (up to letter case) of its decoding. *)
Lemma hex_decode_inverse t o : hex_decode t = Ok o -> byte_string o /\ hex_text o = map lower t.
Proof.
  unfold hex_decode. destruct (negb _) eqn:E; [discriminate|].
  revert o E. induction t as [|a|a b r IH] using list2_ind; intros o E H.
  - inversion H; subst. split; [constructor|reflexivity].
  - cbn in E. discriminate.
  - cbn [hex_decode_loop] in H. destruct (negb (isxdigit a) || negb (isxdigit b)) eqn:E2; [discriminate|].
    apply rmap_ok in H as (o' & Ho & ->).
    rewrite orb_false_iff, !negb_false_iff in E2. destruct E2 as [Ea Eb].
    destruct (IH o') as [Hb Ht]; [cbn [length] in E; lia|exact Ho|].
    pose proof (sweep_bytes2 (fun a b => implb (isxdigit a && isxdigit b)
        (let v := Z.lor (Z.shiftl (hex_value a) 4) (hex_value b) in
         (0 <=? v) && (v <? 256) && (nth (Z.to_nat (v / 16)) hex_digits_lower 0 =? lower a)
         && (nth (Z.to_nat (v mod 16)) hex_digits_lower 0 =? lower b)))
        ltac:(vm_compute; reflexivity) a b (isxdigit_byte a Ea) (isxdigit_byte b Eb)) as S.
    cbv beta zeta in S. rewrite Ea, Eb in S. cbn [andb implb] in S.
    rewrite !andb_true_iff in S. destruct S as [[[S1 S2] S3] S4].
    split; [constructor; [unfold is_byte; lia|exact Hb]|].
    unfold hex_text in *. cbn [flat_map map app]. apply Z.eqb_eq in S3, S4. rewrite S3, S4, Ht. reflexivity.
Qed.

(** * URL encoding *)
Lemma url_keep_spec c : is_byte c -> url_keep c = inb c unreserved.
Proof.
  intros Hc. apply eqb_prop.
  apply (sweep_bytes (fun c => Bool.eqb (url_keep c) (inb c unreserved))); [vm_compute; reflexivity|exact Hc].
Qed.
Lemma url_keep_plain c : url_keep c = true -> c =? 37 = false /\ c =? 43 = false.
Proof. unfold url_keep, isalnum. lia. Qed.

Lemma url_roundtrip_text s : byte_string s -> url_decode (url_encode_text s) = Ok s.
Proof.
  induction s as [|c s IH]; intros H; [reflexivity|].
  inversion H as [|? ? Hc Hs]; subst. unfold url_encode_text in *. cbn [flat_map].
  destruct (url_keep c) eqn:E.
  - cbn [app url_decode]. destruct (url_keep_plain c E) as [E1 E2]. rewrite E1, E2, IH by assumption. reflexivity.
  - pose proof (hex2_bytes true c Hc) as P. unfold hex2 in *. destruct P as (P1 & P2 & P3).
    cbn [app url_decode]. rewrite Z.eqb_refl, P1, P2, P3, IH by assumption. reflexivity.
Qed.

Lemma hex_upper_in c : is_byte c ->
  In (hex_digit true (c / 16)) hex_digits_upper /\ In (hex_digit true (c mod 16)) hex_digits_upper.
Proof.
  intros Hc. rewrite <- !inb_spec, <- andb_true_iff.
  apply (sweep_bytes (fun c => inb (hex_digit true (c / 16)) hex_digits_upper && inb (hex_digit true (c mod 16)) hex_digits_upper));
    [vm_compute; reflexivity|exact Hc].
Qed.
Lemma url_encode_shape s : byte_string s -> pct_text (url_encode_text s).
Proof.
  induction s as [|c s IH]; intros H; [constructor|].
  inversion H as [|? ? Hc Hs]; subst. unfold url_encode_text in *. cbn [flat_map].
  destruct (url_keep c) eqn:E.
  - cbn [app]. constructor; [|auto]. rewrite url_keep_spec in E by exact Hc. apply inb_spec, E.
  - unfold hex2. cbn [app]. destruct (hex_upper_in c Hc). apply pct_hex; auto.
Qed.
Lemma url_encode_unreserved s : Forall (fun c => In c unreserved) s -> url_encode_text s = s.
Proof.
  induction s as [|c s IH]; intros H; [reflexivity|]. inversion H as [|? ? Hc Hs]; subst.
  unfold url_encode_text in *. cbn [flat_map].
  assert (Hb : is_byte c).
  { pose proof (bs_bytes "ABCDEFGHIJKLMNOPQRSTUVWXYZabcdefghijklmnopqrstuvwxyz0123456789-_.~") as B.
    unfold byte_string in B; rewrite Forall_forall in B. apply B, Hc. }
  rewrite url_keep_spec by exact Hb. apply inb_spec in Hc. rewrite Hc, IH by assumption. reflexivity.
Qed.
Lemma url_encode_injective s t : byte_string s -> byte_string t -> url_encode_text s = url_encode_text t -> s = t.
Proof.
  intros Hs Ht E. apply url_roundtrip_text in Hs, Ht. rewrite E in Hs. congruence.
Qed.
Lemma url_decode_outcomes n : forall t, (length t <= n)%nat -> (exists o, url_decode t = Ok o) \/ url_decode t = Panic 42.
Proof.
  induction n as [|n IH]; intros t Hn.
  - destruct t; [left; exists []; reflexivity|cbn in Hn; lia].
  - destruct t as [|c r]; [left; exists []; reflexivity|].
    cbn [url_decode]. cbn [length] in Hn.
    assert (P : (exists o, rmap (cons (if c =? 43 then 32 else c)) (url_decode r) = Ok o) \/
                rmap (cons (if c =? 43 then 32 else c)) (url_decode r) = Panic 42).
    { destruct (IH r ltac:(lia)) as [[o ->]| ->]; cbn [rmap]; eauto. }
    destruct (c =? 37); [|exact P].
    destruct r as [|h [|l r2]]; [exact P|exact P|].
    destruct (_ || _); [right; reflexivity|].
    destruct (IH r2) as [[o ->]| ->]; cbn [length rmap] in *; eauto; lia.
Qed.
(** A text without '%' and '+' decodes to itself. *)
Lemma url_decode_plain t : ~ In 37 t -> ~ In 43 t -> url_decode t = Ok t.
Proof.
  induction t as [|c t IH]; intros H1 H2; [reflexivity|]. cbn [url_decode].
  destruct (c =? 37) eqn:E1; [exfalso; apply H1; left; lia|].
  destruct (c =? 43) eqn:E2; [exfalso; apply H2; left; lia|].
  rewrite IH; [reflexivity| |]; intros H; [apply H1|apply H2]; right; exact H.
Qed.

Lemma url_text_length s : (length s <= length (url_encode_text s) <= 3 * length s)%nat.
Proof.
  induction s as [|c s IH]; [cbn; lia|]. unfold url_encode_text in *. cbn [flat_map].
  rewrite app_length. destruct (url_keep c); cbn [length hex2]; lia.
Qed.
Lemma url_encode_ok s : Z.of_nat (length s) <= 715827882 -> url_encode s = Ok (url_encode_text s).
Proof.
  intros H. unfold url_encode, INT32_MAX. pose proof (url_text_length s).
  destruct (2147483647 <? _) eqn:E; [lia|reflexivity].
Qed.
Lemma url_encode_inv s e : url_encode s = Ok e -> e = url_encode_text s.
Proof. unfold url_encode. destruct (_ <? _); congruence. Qed.

(** Canonical texts are re-encoded to themselves. *)
Lemma list6_ind {A} (P : list A -> Prop) :
  (forall l, (length l < 6)%nat -> P l) ->
  (forall a b c d e f r, P r -> P (a :: b :: c :: d :: e :: f :: r)) -> forall l, P l.
Proof.
  intros H0 H l. induction l as [l IH] using list_len_ind.
  destruct l as [|a [|b [|c [|d [|e [|f r]]]]]]; try (apply H0; cbn; lia).
  apply H, IH. cbn. lia.
Qed.

Lemma sextets_pad l k : (k < 6)%nat -> ((length l + k) mod 6 = 0)%nat ->
  sextets (l ++ repeat false k) = sextets l.
Proof.
  intros Hk. induction l as [l Hl|a b c d e f r IH] using list6_ind; intros H.
  - destruct l as [|a [|b [|c [|d [|e [|f r]]]]]]; cbn [length] in *; try lia;
      match type of H with context [(?n + _)%nat] =>
        first [ replace k with (6 - n)%nat by lia | idtac ] end; cbn.
    + replace k with 0%nat by lia. reflexivity.
    + reflexivity. 
    + reflexivity. 
    + reflexivity. 
    + reflexivity. 
    + reflexivity.
  - cbn [app sextets]. f_equal. apply IH. cbn [length] in H. lia.
Qed.

Lemma sextets_body body : Forall (fun c => In c b64_alphabet) body ->
  map (fun g => nth (Z.to_nat (val_msb 0 g)) b64_alphabet 0) (sextets (b64_body_bits body)) = body.
Proof.
  induction body as [|c r IH]; intros H; [reflexivity|].
  inversion H as [|? ? Hc Hr]; subst. unfold b64_body_bits in *. cbn [flat_map].
  rewrite sextets_6. cbn [map]. rewrite IH by assumption. f_equal.
  apply b64_val_in in Hc as (R & E & C & _). rewrite <- E, alpha_val by exact R. exact C.
Qed.

Lemma body_bits_length body : length (b64_body_bits body) = (6 * length body)%nat.
Proof.
  unfold b64_body_bits. induction body as [|c r IH]; [reflexivity|].
  cbn [flat_map]. rewrite app_length, IH. change (length (bits_msb 6 _)) with 6%nat. cbn [length]. lia.
Qed.
Lemma bits8_length s : length (flat_map (bits_msb 8) s) = (8 * length s)%nat.
Proof.
  induction s as [|c r IH]; [reflexivity|].
  cbn [flat_map]. rewrite app_length, IH. change (length (bits_msb 8 _)) with 8%nat. cbn [length]. lia.
Qed.

Lemma b64_canonical body p out : Forall (fun c => In c b64_alphabet) body -> (p <= 2)%nat ->
  (length (body ++ repeat equals_sign p) mod 4 = 0)%nat ->
  base64_decode (body ++ repeat equals_sign p) = Ok out ->
  Forall (fun b => b = false) (skipn (8 * length out) (b64_body_bits body)) ->
  rfc4648_base64 out = body ++ repeat equals_sign p.
Proof.
  intros Hb Hp Hl Hd Hz.
  destruct (b64_decode_value body p Hb Hp Hl) as (out' & rest & E & Ho & Hbits & Hr).
  rewrite E in Hd. injection Hd as ->.
  rewrite Hbits, <- bits8_length, skipn_app, skipn_all, Nat.sub_diag in Hz. cbn [app skipn] in Hz.
  assert (Er : rest = repeat false (length rest)).
  { clear -Hz. induction Hz; [reflexivity|]. cbn. subst. congruence. }
  pose proof (f_equal (@length bool) Hbits) as L. rewrite app_length, bits8_length, body_bits_length in L.
  rewrite app_length, repeat_length in Hl.
  assert (Hbody : map (fun g => nth (Z.to_nat (val_msb 0 g)) b64_alphabet 0)
                      (sextets (flat_map (bits_msb 8) out)) = body).
  { etransitivity; [|apply (sextets_body body Hb)].
    rewrite Hbits, Er, sextets_pad; [reflexivity| |].
    - lia.
    - rewrite bits8_length. lia. }
  unfold rfc4648_base64. rewrite Hbody. cbv zeta. f_equal. f_equal. lia.
Qed.
