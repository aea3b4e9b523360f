(** Messages, words and hexadecimal text. *)
From Verif Require Import Base BaseFacts MapModel DigestSpec DigestModel DigestProofs.
Open Scope Z_scope.

Lemma value_snoc l b : value_be (l ++ [b]) = 256 * value_be l + b.
Proof. unfold value_be. rewrite fold_left_app. reflexivity. Qed.
Lemma value_le_cons b l : value_le (b :: l) = b + 256 * value_le l.
Proof. unfold value_le. cbn [rev]. rewrite value_snoc. lia. Qed.
Lemma value_le_inj l l' : length l = length l' -> Forall is_byte l -> Forall is_byte l' -> value_le l = value_le l' -> l = l'.
Proof.
  revert l'. induction l as [|b l IH]; intros [|b' l'] L F F'; cbn [length] in L; try discriminate; [reflexivity|].
  apply Forall_cons_iff in F as [B F]. apply Forall_cons_iff in F' as [B' F']. rewrite !value_le_cons. unfold is_byte in *. intros E.
  f_equal; [lia|]. apply IH; [congruence|exact F|exact F'|lia].
Qed.
Lemma value_be_inj l l' : length l = length l' -> Forall is_byte l -> Forall is_byte l' -> value_be l = value_be l' -> l = l'.
Proof.
  intros L F F' E. rewrite <- (rev_involutive l), <- (rev_involutive l'). f_equal. apply value_le_inj.
  - rewrite !rev_length. exact L.
  - apply Forall_rev. exact F.
  - apply Forall_rev. exact F'.
  - unfold value_le. rewrite !rev_involutive. exact E.
Qed.

(** * Messages *)
Lemma stored_length n x : length (stored n x) = n.
Proof. revert x. induction n as [|n IH]; intros x; cbn [stored length]; [reflexivity|]. rewrite IH. reflexivity. Qed.
Lemma stored_bytes n x : Forall is_byte (stored n x).
Proof. revert x. induction n as [|n IH]; intros x; cbn [stored]; constructor; [unfold is_byte; lia|apply IH]. Qed.
Lemma stored_value n x : 0 <= x < 256 ^ Z.of_nat n -> value_le (stored n x) = x.
Proof.
  revert x. induction n as [|n IH]; intros x Hx; cbn [stored].
  - cbn in Hx. change (value_le []) with 0. lia.
  - rewrite value_le_cons, IH; [lia|]. rewrite Nat2Z.inj_succ, Z.pow_succ_r in Hx by lia. lia.
Qed.
Definition pad_zeros (len : nat) : nat := (Z.to_nat (padded_length (Z.of_nat len)) - len - 9)%nat.
Lemma padded_is len : (Z.of_nat len < 2 ^ 31) -> padded_length (Z.of_nat len) = ((Z.of_nat len + 8) / 64 + 1) * 64.
Proof. intros Hl. change (2 ^ 31) with 2147483648 in Hl. unfold padded_length, wrap_u. change (2 ^ 64) with 18446744073709551616. rewrite (Z.mod_small (_ + 8)) by lia. apply Z.mod_small. lia. Qed.
Lemma md5_message_is m : (Z.of_nat (length m) < 2 ^ 31) -> md5_message m = m ++ [128] ++ repeat 0 (pad_zeros (length m)) ++ stored 8 (8 * Z.of_nat (length m)).
Proof.
  intros Hl. unfold md5_message, pad_zeros. rewrite padded_is by exact Hl. change (2 ^ 31) with 2147483648 in Hl. cbv zeta.
  unfold wrap_u. change (2 ^ 64) with 18446744073709551616. rewrite Z.mod_small by lia. do 3 f_equal; [f_equal; lia|f_equal; lia].
Qed.
Lemma set_app {A} (pre t : list A) j v n : n = (length pre + j)%nat -> set_nth n v (pre ++ t) = pre ++ set_nth j v t.
Proof. intros ->. induction pre as [|a pre IH]; cbn [length plus app set_nth]; [reflexivity|]. rewrite IH. reflexivity. Qed.
Lemma sha_message_is m : (Z.of_nat (length m) < 2 ^ 31) -> sha256_message m = m ++ [128] ++ repeat 0 (pad_zeros (length m)) ++ rev (stored 8 (8 * Z.of_nat (length m))).
Proof.
  intros Hl. unfold sha256_message, pad_zeros. rewrite padded_is by exact Hl. change (2 ^ 31) with 2147483648 in Hl.
  set (len := Z.of_nat (length m)) in *. cbv zeta.
  set (padded := ((len + 8) / 64 + 1) * 64). assert (P : len + 9 <= padded) by (unfold padded; lia). clearbody padded.
  replace (Z.to_nat (padded - len - 1)) with ((Z.to_nat padded - length m - 9) + 8)%nat by (unfold len in *; lia).
  rewrite repeat_app. set (k := (Z.to_nat padded - length m - 9)%nat).
  replace (m ++ [128] ++ repeat 0 k ++ repeat 0 8) with ((m ++ [128] ++ repeat 0 k) ++ repeat 0 8) by (rewrite <- !app_assoc; reflexivity).
  replace (m ++ [128] ++ repeat 0 k ++ rev (stored 8 (8 * len))) with ((m ++ [128] ++ repeat 0 k) ++ rev (stored 8 (8 * len))) by (rewrite <- !app_assoc; reflexivity).
  assert (L : length (m ++ [128] ++ repeat 0 k) = (Z.to_nat padded - 8)%nat) by (rewrite !app_length, repeat_length; cbn [length]; unfold k, len in *; lia).
  set (pre := m ++ [128] ++ repeat 0 k) in *. clearbody pre. clearbody k.
  assert (B : wrap_u 64 (len * 8) = 8 * len). { unfold wrap_u. change (2 ^ 64) with 18446744073709551616. rewrite Z.mod_small by (unfold len in *; lia). lia. }
  rewrite B. clear B. generalize (8 * len) as x. intros x. cbn [fold_left].
  rewrite (set_app pre _ 7) by (unfold len in *; lia). rewrite (set_app pre _ 6) by (unfold len in *; lia). rewrite (set_app pre _ 5) by (unfold len in *; lia). rewrite (set_app pre _ 4) by (unfold len in *; lia).
  rewrite (set_app pre _ 3) by (unfold len in *; lia). rewrite (set_app pre _ 2) by (unfold len in *; lia). rewrite (set_app pre _ 1) by (unfold len in *; lia). rewrite (set_app pre _ 0) by (unfold len in *; lia).
  f_equal. cbn [repeat set_nth stored rev app].
  assert (Sh : forall i, 0 <= i -> wrap_u 8 (Z.shiftr x (i * 8)) = (x / 256 ^ i) mod 256).
  { intros i Hi. unfold wrap_u. rewrite Z.shiftr_div_pow2 by lia. rewrite Z.mul_comm, Z.pow_mul_r by lia. reflexivity. }
  rewrite !Sh by lia. rewrite !Z.div_div by lia. repeat f_equal. exact (Z.div_1_r x).
Qed.
Lemma zeros_ok len : (Z.of_nat len < 2 ^ 31) -> (pad_zeros len < 64)%nat /\ Z.of_nat (len + 1 + pad_zeros len + 8) mod 64 = 0.
Proof. intros Hl. unfold pad_zeros. rewrite padded_is by exact Hl. lia. Qed.
Lemma pad_length (m : bytes) k (l : bytes) : length l = 8%nat -> length (m ++ [128] ++ repeat 0 k ++ l) = (length m + 1 + k + 8)%nat.
Proof. intros L. rewrite !app_length, repeat_length, L. cbn [length]. lia. Qed.
Lemma md5_padded m : (Z.of_nat (length m) < 2 ^ 31) -> padded_by value_le m (md5_message m).
Proof.
  intros Hl. rewrite md5_message_is by exact Hl. destruct (zeros_ok (length m) Hl) as [A B].
  exists (pad_zeros (length m)), (stored 8 (8 * Z.of_nat (length m))). split; [reflexivity|]. split; [exact A|]. split; [apply stored_length|]. split; [apply stored_bytes|].
  split; [apply stored_value; change (2 ^ 31) with 2147483648 in Hl; change (256 ^ Z.of_nat 8) with 18446744073709551616; lia|].
  rewrite pad_length by apply stored_length. exact B.
Qed.
Lemma sha_padded m : (Z.of_nat (length m) < 2 ^ 31) -> padded_by value_be m (sha256_message m).
Proof.
  intros Hl. rewrite sha_message_is by exact Hl. destruct (zeros_ok (length m) Hl) as [A B].
  assert (L : length (rev (stored 8 (8 * Z.of_nat (length m)))) = 8%nat) by (rewrite rev_length; apply stored_length).
  exists (pad_zeros (length m)), (rev (stored 8 (8 * Z.of_nat (length m)))). split; [reflexivity|]. split; [exact A|]. split; [exact L|]. split; [apply Forall_rev, stored_bytes|].
  split; [apply stored_value; change (2 ^ 31) with 2147483648 in Hl; change (256 ^ Z.of_nat 8) with 18446744073709551616; lia|].
  rewrite pad_length by exact L. exact B.
Qed.
Lemma padded_bytes value m p : byte_string m -> padded_by value m p -> Forall is_byte p.
Proof.
  intros M [k [l [-> [_ [_ [L _]]]]]]. apply Forall_app_iff. split; [exact M|]. apply Forall_app_iff. split; [constructor; [unfold is_byte; lia|constructor]|].
  apply Forall_app_iff. split; [|exact L]. apply Forall_forall. intros x X. apply repeat_spec in X. subst x. unfold is_byte. lia.
Qed.
Lemma padded_unique value m p p' :
  (forall l l', length l = length l' -> Forall is_byte l -> Forall is_byte l' -> value l = value l' -> l = l') ->
  padded_by value m p -> padded_by value m p' -> p = p'.
Proof.
  intros Inj [k [l [-> [K [L [F [V M]]]]]]] [k' [l' [-> [K' [L' [F' [V' M']]]]]]]. rewrite pad_length in M, M' by assumption.
  assert (k = k') by lia. subst k'. do 3 f_equal. apply Inj; [congruence|exact F|exact F'|congruence].
Qed.

(** * Words *)
Lemma four_at (p : bytes) n : (n + 4 <= length p)%nat -> firstn 4 (skipn n p) = [nth n p 0; nth (n + 1) p 0; nth (n + 2) p 0; nth (n + 3) p 0].
Proof.
  revert n. induction p as [|b p IH]; intros n Hn; cbn [length] in Hn; [lia|].
  destruct n as [|n]; [|cbn [skipn]; rewrite IH by lia; reflexivity].
  destruct p as [|c [|d [|e p]]]; cbn [length] in Hn; try lia. reflexivity.
Qed.
Lemma byte_at p n : Forall is_byte p -> is_byte (nth n p 0).
Proof.
  intros F. destruct (Nat.lt_ge_cases n (length p)) as [Hn|Hn]; [rewrite Forall_forall in F; apply F, nth_In; exact Hn|].
  rewrite nth_overflow by exact Hn. unfold is_byte. lia.
Qed.
Lemma shl_byte b k : is_byte b -> 0 <= k <= 24 -> u32 (Z.shiftl b k) = Z.shiftl b k.
Proof.
  intros B K. unfold is_byte in B. rewrite u32_mod. apply Z.mod_small. rewrite Z.shiftl_mul_pow2 by lia. split; [apply Z.mul_nonneg_nonneg; lia|].
  apply Z.lt_le_trans with (256 * 2 ^ k). { apply Z.mul_lt_mono_pos_r; lia. }
  change 256 with (2 ^ 8). rewrite <- Z.pow_add_r by lia. change M32 with (2 ^ 32). apply Z.pow_le_mono_r; lia.
Qed.
Lemma load_be_value p n : Forall is_byte p -> (n + 4 <= length p)%nat -> load_be p n = value_be (firstn 4 (skipn n p)).
Proof.
  intros F Hn. rewrite four_at by exact Hn. unfold load_be.
  pose proof (byte_at p n F) as A. pose proof (byte_at p (n + 1) F) as B. pose proof (byte_at p (n + 2) F) as C. pose proof (byte_at p (n + 3) F) as D.
  rewrite !shl_byte by (assumption || lia). unfold is_byte in *.
  set (a := nth n p 0) in *. set (b := nth (n + 1) p 0) in *. set (c := nth (n + 2) p 0) in *. set (d := nth (n + 3) p 0) in *.
  unfold value_be. cbn [fold_left]. clearbody a b c d.
  replace (Z.shiftl b 16) with (b * 65536) by (rewrite Z.shiftl_mul_pow2 by lia; reflexivity).
  replace (Z.shiftl c 8) with (c * 256) by (rewrite Z.shiftl_mul_pow2 by lia; reflexivity).
  rewrite (lor_shift a (b * 65536) 24) by (change (2 ^ 24) with 16777216; lia).
  replace (a * 2 ^ 24 + b * 65536) with (Z.shiftl (256 * a + b) 16) by (rewrite Z.shiftl_mul_pow2 by lia; change (2 ^ 24) with 16777216; change (2 ^ 16) with 65536; lia).
  rewrite (lor_shift _ (c * 256) 16) by (change (2 ^ 16) with 65536; lia).
  replace ((256 * a + b) * 2 ^ 16 + c * 256) with (Z.shiftl (256 * (256 * a + b) + c) 8) by (rewrite Z.shiftl_mul_pow2 by lia; change (2 ^ 8) with 256; change (2 ^ 16) with 65536; lia).
  rewrite (lor_shift _ d 8) by (change (2 ^ 8) with 256; lia). change (2 ^ 8) with 256. lia.
Qed.
Lemma load_le_value p n : (n + 4 <= length p)%nat -> load_le p n = value_le (firstn 4 (skipn n p)).
Proof. intros Hn. rewrite four_at by exact Hn. unfold load_le. rewrite !value_le_cons. change (value_le []) with 0. lia. Qed.
Lemma word_w32 value p block t : Forall is_byte p -> (64 * block + 4 * t + 4 <= length p)%nat -> (value = value_be \/ value = value_le) -> w32 (word_at value p block t).
Proof.
  intros F Hn V. unfold word_at. rewrite four_at by exact Hn. set (n := (64 * block + 4 * t)%nat).
  pose proof (byte_at p n F) as A. pose proof (byte_at p (n + 1) F) as B. pose proof (byte_at p (n + 2) F) as C. pose proof (byte_at p (n + 3) F) as D.
  unfold w32, M32, is_byte in *. destruct V as [-> | ->].
  - unfold value_be. cbn [fold_left]. lia.
  - rewrite !value_le_cons. change (value_le []) with 0. lia.
Qed.

(** * Text *)
Lemma hex_app a s b t : hex_bytes a s -> hex_bytes b t -> hex_bytes (a ++ b) (s ++ t).
Proof. intros A B. induction A as [|b0 hi lo h l bs0 t0 Hh Hl E D1 D2 _ IH]; cbn [app]; [exact B|]. exact (hex_byte _ _ _ h l _ _ Hh Hl E D1 D2 IH). Qed.
Lemma hex_digit_value d : 0 <= d < 16 -> digit_value (hex_digit d) d.
Proof. intros Hd. unfold digit_value, hex_digit. destruct (d <? 10) eqn:E; lia. Qed.
Lemma hex_two x n : hex_bytes (map (fun i => x / 256 ^ Z.of_nat i mod 256) (rev (seq 0 n))) (hex_pad (2 * n) x).
Proof.
  revert x. induction n as [|n IH]; intros x; [constructor|].
  replace (2 * S n)%nat with (S (S (2 * n))) by lia. cbn [hex_pad]. rewrite <- app_assoc. cbn [app].
  cbn [seq]. rewrite <- seq_shift. cbn [rev]. rewrite map_app. apply hex_app.
  - rewrite <- map_rev, map_map. erewrite map_ext; [exact (IH (x / 16 / 16))|]. intros i. cbv beta.
    rewrite Nat2Z.inj_succ, Z.pow_succ_r by lia. rewrite !Z.div_div by lia. do 2 f_equal. ring.
  - cbn [map]. change (256 ^ Z.of_nat 0) with 1. rewrite Z.div_1_r.
    apply (hex_byte _ _ _ ((x / 16) mod 16) (x mod 16)); try lia; [apply hex_digit_value; lia|apply hex_digit_value; lia|constructor].
Qed.
Lemma hex_word x : hex_bytes (bytes_be x) (hex_pad 8 x).
Proof.
  pose proof (hex_two x 4) as H0. cbn [seq rev app map] in H0. unfold bytes_be.
  change (256 ^ Z.of_nat 3) with 16777216 in H0. change (256 ^ Z.of_nat 2) with 65536 in H0. change (256 ^ Z.of_nat 1) with 256 in H0. change (256 ^ Z.of_nat 0) with 1 in H0.
  rewrite Z.div_1_r in H0. exact H0.
Qed.
Lemma hex_all l : Forall is_byte l -> hex_bytes l (flat_map (hex_pad 2) l).
Proof.
  induction l as [|b l IH]; intros F; cbn [flat_map]; [constructor|]. apply Forall_cons_iff in F as [B F].
  apply (hex_app [b]); [|exact (IH F)]. pose proof (hex_two b 1) as H0. cbn [seq rev app map] in H0. change (256 ^ Z.of_nat 0) with 1 in H0.
  rewrite Z.div_1_r in H0. unfold is_byte in B. rewrite Z.mod_small in H0 by lia. exact H0.
Qed.
Lemma hex_length l t : hex_bytes l t -> length t = (2 * length l)%nat.
Proof. intros H0. induction H0; cbn [length]; lia. Qed.
Lemma hex_unique l t t' : hex_bytes l t -> hex_bytes l t' -> t = t'.
Proof.
  intros A. revert t'. induction A as [|b hi lo h l0 bs t Hh Hl E D1 D2 _ IH]; intros t' A'; inversion A' as [|b' hi' lo' h' l0' bs' t'' Hh' Hl' E' D1' D2' B']; subst; [reflexivity|].
  assert (h = h' /\ l0 = l0') as [-> ->] by lia. rewrite (IH _ B').
  f_equal; [unfold digit_value in *; lia|]. f_equal. unfold digit_value in *; lia.
Qed.
Lemma stored4 x : stored 4 x = bytes_le x.
Proof. unfold bytes_le, bytes_be. cbn [stored rev app]. rewrite !Z.div_div by lia. reflexivity. Qed.
