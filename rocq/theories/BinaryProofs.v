From Verif Require Import Base BaseFacts BigIntModel BigIntSpec BigIntProofs BinaryModel BinarySpec.
Ltac Zify.zify_post_hook ::= Z.div_mod_to_equations.

Lemma le_val_number s : le_val s = le_number s.
Proof. reflexivity. Qed.
Definition B (n : nat) : Z := 2 ^ (8 * Z.of_nat n).
Arguments B : simpl never.
Lemma B_S n : B (S n) = 256 * B n.
Proof. unfold B. change 256 with (2 ^ 8). rewrite <- Z.pow_add_r by lia. f_equal. lia. Qed.
Lemma B_0 : B 0 = 1. Proof. reflexivity. Qed.
Lemma B_pos n : 0 < B n. Proof. unfold B. apply Z.pow_pos_nonneg; lia. Qed.

Lemma le_bytes_length n : forall x, length (le_bytes n x) = n.
Proof. induction n; intros; cbn [le_bytes length]; auto. Qed.
Lemma le_bytes_bytes n : forall x, byte_string (le_bytes n x).
Proof. induction n; intros; cbn [le_bytes]; constructor; [unfold is_byte; lia|apply IHn]. Qed.
Lemma le_val_bytes n : forall x, 0 <= x < B n -> le_val (le_bytes n x) = x.
Proof.
  induction n as [|n IH]; intros x H; [rewrite B_0 in H; cbn; lia|]. rewrite B_S in H. cbn [le_bytes le_val].
  rewrite IH by lia. lia.
Qed.
Lemma le_val_range s : byte_string s -> 0 <= le_val s < B (length s).
Proof.
  induction s as [|b s IH]; intros H; [cbn [le_val length]; rewrite B_0; lia|]. inversion H as [|? ? Hb Hs]; subst.
  cbn [le_val length]. rewrite B_S. specialize (IH Hs). unfold is_byte in Hb. lia.
Qed.
Lemma le_bytes_val s : byte_string s -> le_bytes (length s) (le_val s) = s.
Proof.
  induction s as [|b s IH]; intros H; [reflexivity|]. inversion H as [|? ? Hb Hs]; subst. cbn [length le_bytes le_val].
  unfold is_byte in Hb. f_equal; [lia|]. replace ((b + 256 * le_val s) / 256) with (le_val s) by lia. apply IH, Hs.
Qed.
Lemma le_val_app s t : le_val (s ++ t) = le_val s + B (length s) * le_val t.
Proof.
  induction s as [|b s IH]; [cbn [app le_val length]; rewrite B_0; lia|]. cbn [app le_val length]. rewrite IH, B_S. ring.
Qed.
Lemma obj_int_mod n x : le_val (obj_int n x) = x mod B n.
Proof. unfold obj_int. apply le_val_bytes. apply Z.mod_pos_bound, B_pos. Qed.
Lemma obj_int_length n x : length (obj_int n x) = n.
Proof. apply le_bytes_length. Qed.
Lemma obj_int_bytes n x : byte_string (obj_int n x).
Proof. apply le_bytes_bytes. Qed.

Lemma data_ok n s : length s = n -> data n s = Ok s.
Proof. intros H. unfold data. rewrite (proj2 (Nat.ltb_ge _ _)) by lia. rewrite firstn_all2 by lia. reflexivity. Qed.

Lemma wrap_i_mod n x : 0 < n -> wrap_i n (x mod 2 ^ n) = wrap_i n x.
Proof. intros H. unfold wrap_i. rewrite Z.mod_mod by (apply Z.pow_nonzero; lia). reflexivity. Qed.
Lemma wrap_i_id n x : 0 < n -> in_i n x -> wrap_i n x = x.
Proof.
  intros Hn H. unfold in_i in H. unfold wrap_i. assert (E : 2 ^ n = 2 * 2 ^ (n - 1)).
  { rewrite <- Z.pow_succ_r by lia. f_equal. lia. }
  assert (0 < 2 ^ (n - 1)) by (apply Z.pow_pos_nonneg; lia). rewrite E. set (h := 2 ^ (n - 1)) in *. clearbody h.
  destruct (Z_lt_ge_dec x 0) as [L|G].
  - assert (M : x mod (2 * h) = x + 2 * h) by (symmetry; apply (Z.mod_unique x (2 * h) (-1)); lia).
    rewrite M. destruct (_ <? h) eqn:C; lia.
  - rewrite Z.mod_small by lia. destruct (_ <? h) eqn:C; lia.
Qed.

(** Little-endian round trips. *)
Lemma memcpy_u_obj n v : in_u (8 * Z.of_nat n) v -> memcpy_u n (obj_int n v) = Ok v.
Proof.
  intros H. unfold memcpy_u. rewrite data_ok by apply obj_int_length. cbn [rmap]. rewrite obj_int_mod. f_equal.
  apply Z.mod_small. exact H.
Qed.
Lemma memcpy_i_obj n v : n <> O -> in_i (8 * Z.of_nat n) v -> memcpy_i n (obj_int n v) = Ok v.
Proof.
  intros Hn H. unfold memcpy_i. rewrite data_ok by apply obj_int_length. cbn [rmap]. rewrite obj_int_mod. f_equal.
  unfold B. rewrite wrap_i_mod by lia. apply wrap_i_id; [lia|exact H].
Qed.

(** Big-endian decoders compute the big-endian number. *)
Lemma be_snoc s b : be_number (s ++ [b]) = 256 * be_number s + b.
Proof. unfold be_number. rewrite rev_app_distr. cbn [rev app le_number]. ring. Qed.
Lemma be_number_range s : byte_string s -> 0 <= be_number s < B (length s).
Proof. intros H. unfold be_number. rewrite <- rev_length. apply le_val_range. apply Forall_rev, H. Qed.

Lemma be16_number d : byte_string d -> length d = 2%nat -> be16 d = be_number d.
Proof.
  intros H L. destruct d as [|d0 [|d1 [|]]]; try discriminate. unfold byte_string in H.
  repeat match goal with F : Forall is_byte (_ :: _) |- _ => apply Forall_cons_iff in F; destruct F end.
  unfold be16. rewrite lor_shift by (unfold is_byte in *; lia). unfold be_number. cbn [rev app le_number]. change (2 ^ 8) with 256. ring.
Qed.
Lemma lor_comm_shift a b n : 0 <= n -> 0 <= b < 2 ^ n -> Z.lor b (Z.shiftl a n) = a * 2 ^ n + b.
Proof. intros. rewrite Z.lor_comm. apply lor_shift; assumption. Qed.
Lemma be32_number d : byte_string d -> length d = 4%nat -> be32 d = be_number d.
Proof.
  intros H L. destruct d as [|d0 [|d1 [|d2 [|d3 [|]]]]]; try discriminate. unfold byte_string in H.
  repeat match goal with F : Forall is_byte (_ :: _) |- _ => apply Forall_cons_iff in F; destruct F end.
  unfold is_byte in *. unfold be32, shl32, wrap_u.
  assert (S : forall d n, 0 <= d < 256 -> n = 24 \/ n = 16 \/ n = 8 -> Z.shiftl d n mod 2 ^ 32 = Z.shiftl d n).
  { intros d n Hd Hn. apply Z.mod_small. rewrite Z.shiftl_mul_pow2 by lia. destruct Hn as [->|[->| ->]]; lia. }
  rewrite !S by tauto.
  replace (Z.shiftl d0 24) with (Z.shiftl (Z.shiftl d0 8) 16) by (rewrite Z.shiftl_shiftl by lia; f_equal; lia).
  rewrite <- Z.shiftl_lor. rewrite (lor_shift d0 d1 8) by lia.
  replace (Z.shiftl (d0 * 2 ^ 8 + d1) 16) with (Z.shiftl (Z.shiftl (d0 * 2 ^ 8 + d1) 8) 8) by (rewrite Z.shiftl_shiftl by lia; f_equal; lia).
  rewrite <- Z.shiftl_lor. rewrite (lor_shift _ d2 8) by lia. rewrite lor_shift by lia.
  unfold be_number. cbn [rev app le_number]. change (2 ^ 8) with 256. ring.
Qed.
Lemma be64_fold d : forall v, byte_string d -> 0 <= v -> v * B (length d) + be_number d < 2 ^ 64 ->
  fold_left (fun v b => Z.lor (shl64 v 8) b) d v = v * B (length d) + be_number d.
Proof.
  induction d as [|b d IH] using rev_ind; intros v H Hv Hlt.
  - cbn [fold_left length]. rewrite B_0. unfold be_number. cbn. lia.
  - apply Forall_app in H as [Hd Hb]. inversion Hb as [|? ? Hb' _]; subst. unfold is_byte in Hb'.
    rewrite fold_left_app. cbn [fold_left]. rewrite be_snoc in *. rewrite app_length in *. cbn [length] in *.
    replace (length d + 1)%nat with (S (length d)) in * by lia. rewrite B_S in *.
    pose proof (be_number_range d Hd) as R. pose proof (B_pos (length d)) as P.
    rewrite IH; [|exact Hd|exact Hv|nia].
    unfold shl64, M64. rewrite Z.mod_small.
    + rewrite lor_shift by lia. change (2 ^ 8) with 256. ring.
    + rewrite Z.shiftl_mul_pow2 by lia. change (2 ^ 8) with 256. change 18446744073709551616 with (2 ^ 64). nia.
Qed.
Lemma be64_number d : byte_string d -> length d = 8%nat -> be64 d = be_number d.
Proof.
  intros H L. unfold be64. rewrite be64_fold; [lia|exact H|lia|]. pose proof (be_number_range d H) as R. rewrite L in R.
  change (B 8) with (2 ^ 64) in R. lia.
Qed.
Lemma wrap64_step v b : is_byte b -> wrap_i 64 (Z.lor (wrap_i 64 (Z.shiftl (wrap_i 64 v) 8)) b) = wrap_i 64 (256 * v + b)
  /\ Z.lor (wrap_i 64 (Z.shiftl (wrap_i 64 v) 8)) b = wrap_i 64 (256 * v + b).
Proof.
  intros Hb. unfold is_byte in Hb.
  assert (E : Z.lor (wrap_i 64 (Z.shiftl (wrap_i 64 v) 8)) b = wrap_i 64 (256 * v + b)).
  { rewrite Z.shiftl_mul_pow2 by lia. unfold wrap_i at 2. unfold wrap_i. change (64 - 1) with 63. consts. change (2 ^ 8) with 256.
    set (w := if v mod 18446744073709551616 <? 9223372036854775808 then v mod 18446744073709551616 else v mod 18446744073709551616 - 18446744073709551616).
    assert (Ew : exists k, w = v + 18446744073709551616 * k) by (subst w; destruct (_ <? _); [exists (- (v / 18446744073709551616))|exists (- (v / 18446744073709551616) - 1)]; lia).
    destruct Ew as [k Ew]. clearbody w.
    replace (w * 256 mod 18446744073709551616) with (Z.shiftl (v mod 72057594037927936) 8).
    2:{ rewrite Z.shiftl_mul_pow2 by lia. change (2 ^ 8) with 256. lia. }
    destruct (_ <? 9223372036854775808) eqn:C.
    - rewrite lor_shift by lia. change (2 ^ 8) with 256. rewrite Z.shiftl_mul_pow2 in C by lia. change (2 ^ 8) with 256 in C.
      destruct ((256 * v + b) mod 18446744073709551616 <? 9223372036854775808) eqn:D; lia.
    - replace (Z.shiftl (v mod 72057594037927936) 8 - 18446744073709551616) with (Z.shiftl (v mod 72057594037927936 - 72057594037927936) 8)
        by (rewrite !Z.shiftl_mul_pow2 by lia; change (2 ^ 8) with 256; lia).
      rewrite lor_shift by lia. rewrite Z.shiftl_mul_pow2 in C by lia. change (2 ^ 8) with 256 in *.
      destruct ((256 * v + b) mod 18446744073709551616 <? 9223372036854775808) eqn:D; lia. }
  split; [|exact E]. rewrite E. apply wrap_i_id; [lia|]. unfold in_i, wrap_i. change (64 - 1) with 63. consts. dif C; lia.
Qed.
Lemma be64s_number d : byte_string d -> be64s d = wrap_i 64 (be_number d).
Proof.
  induction d as [|b d IH] using rev_ind; intros H; [reflexivity|].
  apply Forall_app in H as [Hd Hb]. inversion Hb as [|? ? Hb' _]; subst.
  unfold be64s in *. rewrite fold_left_app. cbn [fold_left]. rewrite IH by exact Hd. rewrite be_snoc. apply wrap64_step, Hb'.
Qed.
(** Under ISO C the signed loop is defined exactly for the non-negative values. *)
Lemma be64s_iso_spec d : forall v, byte_string d -> 0 <= v ->
  (v * B (length d) + be_number d < 2 ^ 63 -> be64s_iso v d = Ok (v * B (length d) + be_number d)) /\
  (2 ^ 63 <= v * B (length d) + be_number d -> (v < 2 ^ 63) -> d <> [] -> be64s_iso v d = UB).
Proof.
  induction d as [|b d IH]; intros v H Hv.
  - split; [intros _; cbn [be64s_iso length]; rewrite B_0; f_equal; unfold be_number; cbn; lia|congruence].
  - inversion H as [|? ? Hb Hd]; subst. unfold is_byte in Hb. cbn [be64s_iso length].
    assert (EB : be_number (b :: d) = b * B (length d) + be_number d).
    { unfold be_number. cbn [rev]. change (le_number (rev d ++ [b])) with (le_val (rev d ++ [b])). rewrite le_val_app, rev_length.
      cbn [le_val]. rewrite le_val_number. ring. }
    rewrite EB, B_S. pose proof (B_pos (length d)) as P. pose proof (be_number_range d Hd) as R.
    replace (Z.lor (v * 256) b) with (v * 256 + b) by (replace (v * 256) with (Z.shiftl v 8) at 2 by (apply Z.shiftl_mul_pow2; lia); symmetry; apply (lor_shift v b 8); lia).
    destruct (IH (v * 256 + b) Hd ltac:(lia)) as [I1 I2].
    replace (v * (256 * B (length d)) + (b * B (length d) + be_number d)) with ((v * 256 + b) * B (length d) + be_number d) by ring.
    unfold INT64_MAX. split.
    + intros L. rewrite (proj2 (Z.ltb_ge v 0)) by lia. rewrite (proj2 (Z.ltb_ge _ (v * 256))) by (consts; nia). cbn [orb]. apply I1, L.
    + intros G Lv _. destruct ((v <? 0) || _) eqn:C; [reflexivity|].
      destruct d as [|b' d'].
      { exfalso. cbn [length] in G. rewrite B_0 in G. unfold be_number in G. cbn in G.
        (* v * 256 <= 2^63 - 1 and a multiple of 256, so adding a byte stays below *) consts. lia. }
      apply I2; [exact G| |discriminate]. consts. lia.
Qed.

Lemma rev_bytes s : byte_string s -> byte_string (rev s).
Proof. apply Forall_rev. Qed.
Lemma be_rev s : be_number (rev s) = le_number s.
Proof. unfold be_number. rewrite rev_involutive. reflexivity. Qed.

Lemma data_bytes n s d : byte_string s -> data n s = Ok d -> byte_string d /\ length d = n.
Proof.
  unfold data. intros H. destruct (Nat.ltb (length s) n) eqn:C; [discriminate|]. intros E; injection E as <-.
  apply Nat.ltb_ge in C. split; [unfold byte_string in *; rewrite <- (firstn_skipn n s) in H; apply Forall_app in H; tauto|apply firstn_length_le, C].
Qed.
