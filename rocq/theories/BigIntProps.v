(** Theorems C07-C11 and the wide-integer part of C13, about
    grayc/src/runtime/bigint.h.  Vocabulary: BigIntSpec.v, Decimal.v.

    [wv = false] is ISO C as the project compiles it (signed overflow is undefined,
    result [UB]); [wv = true] is a compiler told to wrap. *)
From Verif Require Import Base BaseFacts Decimal DecimalFacts BigIntModel BigIntSpec BigIntProofs BigIntDiv BigIntSigned
  BigInt256 BigInt256Div BigIntText.

Definition I128_MIN := I128 0 (- 2 ^ 63).
Definition I128_M1 := I128 (2 ^ 64 - 1) (-1).
Definition I256_MIN : w256 := [0; 0; 0; 2 ^ 63].
Definition I256_M1 : w256 := [2 ^ 64 - 1; 2 ^ 64 - 1; 2 ^ 64 - 1; 2 ^ 64 - 1].

(** * C07 *)
(** Unsigned 128-bit +, -, *, and all six comparisons. *)
Theorem u128_arith : forall a b, u128_ok a -> u128_ok b ->
  (u128_ok (u128_add a b) /\ u128_val (u128_add a b) = (u128_val a + u128_val b) mod 2 ^ 128) /\
  (u128_ok (u128_sub a b) /\ u128_val (u128_sub a b) = (u128_val a - u128_val b) mod 2 ^ 128) /\
  (u128_ok (u128_mul a b) /\ u128_val (u128_mul a b) = (u128_val a * u128_val b) mod 2 ^ 128) /\
  u128_eq a b = (u128_val a =? u128_val b) /\ u128_ne a b = negb (u128_val a =? u128_val b) /\
  u128_lt a b = (u128_val a <? u128_val b) /\ u128_gt a b = (u128_val b <? u128_val a) /\
  u128_le a b = (u128_val a <=? u128_val b) /\ u128_ge a b = (u128_val b <=? u128_val a).
Proof.
  intros a b Ha Hb. repeat (split; [split; [auto using u128_add_ok, u128_sub_ok, u128_mul_ok|auto using u128_add_val, u128_sub_val, u128_mul_val]|]).
  unfold u128_gt, u128_le, u128_ge, u128_gt. rewrite !u128_lt_val, u128_eq_val, u128_ne_val by assumption.
  rewrite !(Z.leb_antisym). repeat split; reflexivity.
Qed.
Print Assumptions u128_arith.
Example u128_arith_ex : u128_ok (U128 (2 ^ 64 - 1) (2 ^ 64 - 1)) /\
  u128_mul (U128 (2 ^ 64 - 1) (2 ^ 64 - 1)) (U128 (2 ^ 64 - 1) 1) = U128 1 (2 ^ 64 - 2).
Proof. split; [unfold u128_ok, is_word; cbn [ulo uhi]; lia|reflexivity]. Qed.

(** Signed 128-bit: what the operations return is always the two's-complement result
    whenever they are defined, and under a wrapping compiler they always are. *)
Theorem i128_arith_partial : forall a b, i128_ok a -> i128_ok b ->
  (exists r, i128_add true a b = Ok r /\ i128_ok r /\ i128_val r = wrap_i 128 (i128_val a + i128_val b)) /\
  (exists r, i128_sub true a b = Ok r /\ i128_ok r /\ i128_val r = wrap_i 128 (i128_val a - i128_val b)) /\
  (exists r, i128_neg true a = Ok r /\ i128_ok r /\ i128_val r = wrap_i 128 (- i128_val a)) /\
  (i128_ok (i128_mul a b) /\ i128_val (i128_mul a b) = wrap_i 128 (i128_val a * i128_val b)) /\
  (forall r, i128_add false a b = Ok r -> i128_ok r /\ i128_val r = i128_val a + i128_val b) /\
  (forall r, i128_sub false a b = Ok r -> i128_ok r /\ i128_val r = i128_val a - i128_val b) /\
  (forall r, i128_neg false a = Ok r -> i128_ok r /\ i128_val r = - i128_val a) /\
  (i128_neg false a = UB <-> i128_val a = - 2 ^ 127).
Proof.
  intros a b Ha Hb.
  split; [destruct (i128_add_wrap a b Ha Hb) as (r & E & O & V); eauto|].
  split; [destruct (i128_sub_wrap a b Ha Hb) as (r & E & O & V); eauto|].
  split; [destruct (i128_neg_wrap a Ha) as (r & E & O & V); eauto|].
  split; [apply i128_mul_wrap; assumption|].
  split; [intros r; apply iso_agrees_add; assumption|].
  split; [intros r; apply iso_agrees_sub; assumption|].
  split; [intros r; apply iso_agrees_neg; assumption|].
  split; [|apply i128_neg_ub, Ha]. intros U.
  destruct (Z.eq_dec (i128_val a) (- 2 ^ 127)) as [E|N]; [exact E|].
  destruct (iso_neg_defined a Ha N) as [r R]. congruence.
Qed.
Print Assumptions i128_arith_partial.
Example i128_arith_ex : i128_ok I128_M1 /\ i128_val I128_M1 = -1 /\
  i128_add false I128_M1 (I128 5 0) = Ok (I128 4 0) /\ i128_mul I128_M1 (I128 7 0) = I128 (2 ^ 64 - 7) (-1).
Proof. split; [unfold i128_ok, is_word, I128_M1; cbn [ilo ihi]; lia|]. repeat split; reflexivity. Qed.

(** ISO C, signed comparisons: exact for all operands. *)
Theorem i128_compare : forall a b, i128_ok a -> i128_ok b ->
  i128_eq a b = (i128_val a =? i128_val b) /\ i128_ne a b = negb (i128_val a =? i128_val b) /\
  i128_lt a b = (i128_val a <? i128_val b) /\ i128_gt a b = (i128_val b <? i128_val a) /\
  i128_le a b = (i128_val a <=? i128_val b) /\ i128_ge a b = (i128_val b <=? i128_val a).
Proof.
  intros a b Ha Hb. unfold i128_le, i128_ge, i128_gt. rewrite !i128_lt_val, i128_eq_val, i128_ne_val by assumption.
  rewrite !(Z.leb_antisym). repeat split; reflexivity.
Qed.
Print Assumptions i128_compare.
Example i128_compare_ex : i128_lt I128_MIN I128_M1 = true /\ i128_ge (I128 0 0) I128_M1 = true.
Proof. split; reflexivity. Qed.

(** C07 is false as compiled: operands whose exact sum is representable, yet the C
    expression overflows int64_t; likewise subtraction, and negation of the minimum. *)
Theorem i128_arith_refuted :
  (exists a b, i128_ok a /\ i128_ok b /\ - 2 ^ 127 <= i128_val a + i128_val b < 2 ^ 127 /\ i128_add false a b = UB) /\
  (exists a b, i128_ok a /\ i128_ok b /\ - 2 ^ 127 <= i128_val a - i128_val b < 2 ^ 127 /\ i128_sub false a b = UB) /\
  (exists a, i128_ok a /\ i128_neg false a = UB).
Proof.
  split; [|split].
  - exists (I128 (2 ^ 64 - 1) (- 2 ^ 63)), (I128 1 (-1)). unfold i128_ok, is_word, i128_val; cbn [ilo ihi].
    repeat split; try lia; reflexivity.
  - exists (I128 0 (2 ^ 63 - 1)), (I128 1 (-1)). unfold i128_ok, is_word, i128_val; cbn [ilo ihi].
    repeat split; try lia; reflexivity.
  - exists I128_MIN. unfold i128_ok, is_word, I128_MIN; cbn [ilo ihi]. repeat split; try lia; reflexivity.
Qed.
Print Assumptions i128_arith_refuted.

(** * C08 *)
Theorem u128_checked : forall a b, u128_ok a -> u128_ok b ->
  u_exact_or_panic (u128_add_checked a b) (u128_val a + u128_val b) 24 /\
  u_exact_or_panic (u128_sub_checked a b) (u128_val a - u128_val b) 25 /\
  u_exact_or_panic (u128_mul_checked a b) (u128_val a * u128_val b) 26.
Proof. intros a b Ha Hb. auto using u128_add_checked_spec, u128_sub_checked_spec, u128_mul_checked_spec. Qed.
Print Assumptions u128_checked.
Example u128_checked_ex : u128_mul_checked (U128 0 1) (U128 0 1) = Panic 26 /\
  u128_mul_checked (U128 0 1) (U128 3 0) = Ok (U128 0 3) /\ u128_sub_checked (U128 0 0) (U128 1 0) = Panic 25 /\
  u128_add_checked (U128 1 (2 ^ 64 - 1)) (U128 0 1) = Panic 24.
Proof. repeat split; reflexivity. Qed.

(** Signed, with a wrapping compiler: exact or panic, except MIN * -1. *)
Theorem i128_checked_partial : forall a b, i128_ok a -> i128_ok b ->
  exact_or_panic (i128_add_checked true a b) (i128_val a + i128_val b) 21 /\
  exact_or_panic (i128_sub_checked true a b) (i128_val a - i128_val b) 22 /\
  (~ (i128_val a = - 2 ^ 127 /\ i128_val b = -1) ->
   exact_or_panic (i128_mul_checked true a b) (i128_val a * i128_val b) 23).
Proof. intros a b Ha Hb. auto using i128_add_checked_wrap, i128_sub_checked_wrap, i128_mul_checked_wrap. Qed.
Print Assumptions i128_checked_partial.
Example i128_checked_ex : i128_add_checked true (I128 (2 ^ 64 - 1) (2 ^ 63 - 1)) (I128 1 0) = Panic 21 /\
  i128_mul_checked true I128_M1 (I128 9 0) = Ok (I128 (2 ^ 64 - 9) (-1)) /\ i128_sub_checked true I128_MIN (I128 1 0) = Panic 22.
Proof. repeat split; reflexivity. Qed.
(** As compiled (ISO C): never a wrong sum or difference is returned. *)
Theorem i128_checked_iso_partial : forall a b r, i128_ok a -> i128_ok b ->
  (i128_add_checked false a b = Ok r -> i128_ok r /\ i128_val r = i128_val a + i128_val b) /\
  (i128_sub_checked false a b = Ok r -> i128_ok r /\ i128_val r = i128_val a - i128_val b).
Proof.
  intros a b r Ha Hb. unfold i128_add_checked, i128_sub_checked. split.
  - destruct (i128_add false a b) as [x| | |] eqn:E; try discriminate. cbn [rbind]. destruct (_ || _); [discriminate|].
    intros H; injection H as <-. apply (iso_agrees_add a b x); assumption.
  - destruct (i128_sub false a b) as [x| | |] eqn:E; try discriminate. cbn [rbind]. destruct (_ || _); [discriminate|].
    intros H; injection H as <-. apply (iso_agrees_sub a b x); assumption.
Qed.
Print Assumptions i128_checked_iso_partial.
Example i128_checked_iso_ex : i128_add_checked false I128_M1 I128_M1 = Ok (I128 (2 ^ 64 - 2) (-1)).
Proof. reflexivity. Qed.

(** C08 is false: overflow of the checked addition is undefined behaviour as compiled
    instead of panic P0021; MIN * -1 is returned as MIN even with a wrapping compiler;
    and division or remainder by zero (emitted unchecked by the compiler) gives 0
    instead of stopping. *)
Theorem i128_checked_refuted :
  (exists a b, i128_ok a /\ i128_ok b /\ i128_val a + i128_val b > 2 ^ 127 - 1 /\ i128_add_checked false a b = UB) /\
  (i128_mul_checked true I128_MIN I128_M1 = Ok I128_MIN) /\
  (forall a wv, i128_div wv a (I128 0 0) = Ok (I128 0 0) /\ i128_mod wv a (I128 0 0) = Ok (I128 0 0)) /\
  (forall a, u128_div a (U128 0 0) = U128 0 0 /\ u128_mod a (U128 0 0) = U128 0 0).
Proof.
  split; [|split; [reflexivity|split; [intros a wv|intros a]; split; reflexivity]].
  exists (I128 0 (2 ^ 63 - 1)), (I128 0 1). unfold i128_ok, is_word, i128_val; cbn [ilo ihi].
  repeat split; try lia; reflexivity.
Qed.
Print Assumptions i128_checked_refuted.

(** * C09 *)
Theorem u256_arith_partial : forall a b, w256_ok a -> w256_ok b ->
  (w256_ok (w256_add a b) /\ u256_val (w256_add a b) = (u256_val a + u256_val b) mod 2 ^ 256) /\
  (w256_ok (w256_mul a b) /\ u256_val (w256_mul a b) = (u256_val a * u256_val b) mod 2 ^ 256) /\
  w256_ok (w256_sub a b) /\
  (u256_val (w256_sub a b) = (u256_val a - u256_val b) mod 2 ^ 256 <-> ~ borrow_into_full (u256_val a) (u256_val b)) /\
  w256_eq a b = (u256_val a =? u256_val b) /\ w256_ne a b = negb (u256_val a =? u256_val b) /\
  u256_lt a b = (u256_val a <? u256_val b) /\ u256_gt a b = (u256_val b <? u256_val a) /\
  u256_le a b = (u256_val a <=? u256_val b) /\ u256_ge a b = (u256_val b <=? u256_val a).
Proof.
  intros a b Ha Hb. split; [apply w256_add_val; assumption|]. split; [apply w256_mul_val; assumption|].
  split; [apply w256_sub_ok; assumption|]. split; [apply w256_sub_iff; assumption|].
  unfold w256_ne, u256_gt, u256_le, u256_ge, u256_gt. rewrite !u256_lt_val, w256_eq_val by assumption.
  rewrite !(Z.leb_antisym). repeat split; reflexivity.
Qed.
Print Assumptions u256_arith_partial.
Theorem i256_arith_partial : forall a b, w256_ok a -> w256_ok b ->
  i256_val (w256_add a b) = wrap_i 256 (i256_val a + i256_val b) /\
  i256_val (w256_mul a b) = wrap_i 256 (i256_val a * i256_val b) /\
  i256_val (i256_neg a) = wrap_i 256 (- i256_val a) /\
  (i256_val (w256_sub a b) = wrap_i 256 (i256_val a - i256_val b) <-> ~ borrow_into_full (u256_val a) (u256_val b)) /\
  w256_eq a b = (i256_val a =? i256_val b) /\
  i256_lt a b = (i256_val a <? i256_val b) /\ i256_gt a b = (i256_val b <? i256_val a) /\
  i256_le a b = (i256_val a <=? i256_val b) /\ i256_ge a b = (i256_val b <=? i256_val a).
Proof.
  intros a b Ha Hb. split; [apply i256_add_val; assumption|]. split; [apply i256_mul_val; assumption|].
  split; [apply i256_neg_val; assumption|]. split; [apply i256_sub_val; assumption|]. split; [apply w256_eq_ival; assumption|].
  unfold i256_gt, i256_le, i256_ge, i256_gt. rewrite !i256_lt_val by assumption. rewrite !(Z.leb_antisym). repeat split; reflexivity.
Qed.
Print Assumptions i256_arith_partial.
Example w256_arith_ex : w256_add I256_M1 [5; 0; 0; 0] = [4; 0; 0; 0] /\
  w256_mul [0; 3; 0; 0] [0; 5; 7; 0] = [0; 0; 15; 21] /\ w256_sub [0; 0; 0; 1] [1; 0; 0; 0] = [2 ^ 64 - 1; 2 ^ 64 - 1; 2 ^ 64 - 1; 0].
Proof. repeat split; reflexivity. Qed.
(** C09 is false: 0 - (-1) is not 1. *)
Theorem i256_sub_refuted : i256_val [0; 0; 0; 0] = 0 /\ i256_val I256_M1 = -1 /\
  i256_val (w256_sub [0; 0; 0; 0] I256_M1) = 1 + 2 ^ 128.
Proof. repeat split; reflexivity. Qed.
Print Assumptions i256_sub_refuted.

(** * C10 *)
Theorem u128_division : forall a b, u128_ok a -> u128_ok b -> u128_val b <> 0 ->
  u128_ok (u128_div a b) /\ u128_ok (u128_mod a b) /\
  u128_val a = u128_val (u128_div a b) * u128_val b + u128_val (u128_mod a b) /\
  0 <= u128_val (u128_mod a b) < u128_val b.
Proof.
  intros a b Ha Hb N. destruct (u128_divmod_spec a b Ha Hb N) as (Oq & Or & Vq & Vr). pose proof (u128_val_range b Hb).
  split; [exact Oq|]. split; [exact Or|]. rewrite Vq, Vr. split.
  - rewrite Z.mul_comm. apply Z.div_mod, N.
  - apply Z.mod_pos_bound. lia.
Qed.
Print Assumptions u128_division.
Example u128_division_ex : u128_div (U128 5 (2 ^ 64 - 1)) (U128 7 3) = U128 6148914691236517204 0 /\
  u128_mod (U128 5 (2 ^ 64 - 1)) (U128 7 3) = U128 12297829382473034425 0.
Proof. split; vm_compute; reflexivity. Qed.
(** Signed 128: [Z.quot] truncates toward zero, [Z.rem] has the dividend's sign. *)
Theorem i128_division_partial : forall wv a b, i128_ok a -> i128_ok b -> i128_val b <> 0 ->
  (forall q, i128_div wv a b = Ok q -> i128_ok q /\ i128_val q = wrap_i 128 (Z.quot (i128_val a) (i128_val b))) /\
  (forall r, i128_mod wv a b = Ok r -> i128_ok r /\ i128_val r = Z.rem (i128_val a) (i128_val b)) /\
  (wv = true \/ (i128_val a <> - 2 ^ 127 /\ i128_val b <> - 2 ^ 127) ->
   (exists q, i128_div wv a b = Ok q) /\ (exists r, i128_mod wv a b = Ok r)).
Proof.
  intros wv a b Ha Hb N. split; [intros q; apply i128_div_ok; assumption|]. split; [intros r; apply i128_mod_ok; assumption|].
  intros D. split; [apply i128_div_def|apply i128_mod_def]; assumption.
Qed.
Print Assumptions i128_division_partial.
Example i128_division_ex : i128_div false (I128 (2 ^ 64 - 7) (-1)) (I128 2 0) = Ok (I128 (2 ^ 64 - 3) (-1)) /\
  i128_mod false (I128 (2 ^ 64 - 7) (-1)) (I128 2 0) = Ok I128_M1.
Proof. split; vm_compute; reflexivity. Qed.
Theorem u256_division_partial : forall a b, w256_ok a -> w256_ok b -> u256_val b <> 0 -> ~ inner_word_full (u256_val b) ->
  w256_ok (u256_div a b) /\ w256_ok (u256_mod a b) /\
  u256_val a = u256_val (u256_div a b) * u256_val b + u256_val (u256_mod a b) /\
  0 <= u256_val (u256_mod a b) < u256_val b.
Proof.
  intros a b Ha Hb N NF. destruct (u256_divmod_spec a b Ha Hb N NF) as (Oq & Or & Vq & Vr). pose proof (w256_range b Hb).
  split; [exact Oq|]. split; [exact Or|]. rewrite Vq, Vr. split.
  - rewrite Z.mul_comm. apply Z.div_mod, N.
  - apply Z.mod_pos_bound. lia.
Qed.
Print Assumptions u256_division_partial.
Theorem i256_division_partial : forall a b, w256_ok a -> w256_ok b -> i256_val b <> 0 -> ~ inner_word_full (Z.abs (i256_val b)) ->
  i256_val (i256_div a b) = wrap_i 256 (Z.quot (i256_val a) (i256_val b)) /\
  i256_val (i256_mod a b) = Z.rem (i256_val a) (i256_val b).
Proof.
  intros a b Ha Hb N NF. split; [apply i256_div_val|apply i256_mod_val]; assumption.
Qed.
Print Assumptions i256_division_partial.
(** In particular every divisor of magnitude below 2^64 is fine. *)
Theorem i256_division_small : forall a b, w256_ok a -> w256_ok b -> i256_val b <> 0 -> Z.abs (i256_val b) < 2 ^ 64 ->
  i256_val (i256_div a b) = wrap_i 256 (Z.quot (i256_val a) (i256_val b)) /\
  i256_val (i256_mod a b) = Z.rem (i256_val a) (i256_val b).
Proof.
  intros a b Ha Hb N S. apply i256_division_partial; try assumption. 
  intros [F|F]; unfold full_word in F; rewrite Z.div_small in F; try discriminate; (split; [lia|]); try exact S.
  eapply Z.lt_trans; [exact S|reflexivity].
Qed.
Print Assumptions i256_division_small.
Example i256_division_ex : i256_div (i256_neg [7; 0; 9; 0]) [2; 0; 0; 0] = i256_neg [3; 2 ^ 63; 4; 0] /\
  i256_mod (i256_neg [7; 0; 9; 0]) [2; 0; 0; 0] = I256_M1.
Proof. split; vm_compute; reflexivity. Qed.
(** C10 is false for 256 bits: a divisor with an all-ones middle word. *)
Theorem u256_division_refuted : exists a b, w256_ok a /\ w256_ok b /\ u256_val b <> 0 /\
  u256_val a <> u256_val (u256_div a b) * u256_val b + u256_val (u256_mod a b) /\
  ~ (0 <= u256_val (u256_mod a b) < u256_val b).
Proof.
  exists [0; 0; 2; 0], [1; 2 ^ 64 - 1; 0; 0].
  split; [split; [reflexivity|repeat apply Forall_cons; try apply Forall_nil; unfold is_word; lia]|].
  split; [split; [reflexivity|repeat apply Forall_cons; try apply Forall_nil; unfold is_word; lia]|].
  split; [discriminate|]. split; [vm_compute; discriminate|]. vm_compute. intros [_ H]. discriminate.
Qed.
Print Assumptions u256_division_refuted.

(** 256-bit checked operations (C08 extended to 256 bits). *)
Theorem w256_checked_partial : forall a b, w256_ok a -> w256_ok b ->
  exact_or_panic256 (i256_add_checked a b) (i256_val a + i256_val b) 27 /\
  u_exact_or_panic256 (u256_add_checked a b) (u256_val a + u256_val b) 30 /\
  (~ borrow_into_full (u256_val a) (u256_val b) ->
     exact_or_panic256 (i256_sub_checked a b) (i256_val a - i256_val b) 28 /\
     u_exact_or_panic256 (u256_sub_checked a b) (u256_val a - u256_val b) 31) /\
  (~ (i256_val a = - 2 ^ 255 /\ i256_val b = -1) -> ~ inner_word_full (Z.abs (i256_val b)) ->
     exact_or_panic256 (i256_mul_checked a b) (i256_val a * i256_val b) 29) /\
  (~ inner_word_full (u256_val b) -> u_exact_or_panic256 (u256_mul_checked a b) (u256_val a * u256_val b) 32).
Proof.
  intros a b Ha Hb. split; [apply i256_add_checked_spec; assumption|]. split; [apply u256_add_checked_spec; assumption|].
  split; [intros N; split; [apply i256_sub_checked_spec|apply u256_sub_checked_spec]; assumption|].
  split; [intros; apply i256_mul_checked_spec; assumption|intros; apply u256_mul_checked_spec; assumption].
Qed.
Print Assumptions w256_checked_partial.
Example w256_checked_ex : i256_add_checked I256_MIN I256_M1 = Panic 27 /\
  u256_mul_checked [0; 0; 1; 0] [0; 0; 1; 0] = Panic 32 /\ i256_mul_checked I256_M1 [9; 0; 0; 0] = Ok (i256_neg [9; 0; 0; 0]).
Proof. repeat split; vm_compute; reflexivity. Qed.
(** Wrong value returned by checked subtraction, spurious panic of checked
    multiplication, MIN * -1 undetected. *)
Theorem w256_checked_refuted :
  i256_sub_checked [0; 0; 0; 0] I256_M1 = Ok [1; 0; 1; 0] /\
  u256_mul_checked [2 ^ 64 - 7; 0; 0; 0] [2 ^ 64 - 1; 2 ^ 64 - 1; 0; 0] = Panic 32 /\
  u256_val [2 ^ 64 - 7; 0; 0; 0] * u256_val [2 ^ 64 - 1; 2 ^ 64 - 1; 0; 0] < 2 ^ 256 /\
  i256_mul_checked I256_MIN I256_M1 = Ok I256_MIN.
Proof. repeat split; vm_compute; reflexivity. Qed.
Print Assumptions w256_checked_refuted.

(** * C11 *)
(** to_string prints the canonical decimal numeral (so never writes before its buffer,
    which would be [UB]), and reading the text gives the value back. *)
Theorem big_decimal_text : forall (u : u128) (w : w256), u128_ok u -> w256_ok w ->
  (u128_to_string u = Ok (dec (u128_val u)) /\ u128_from_decimal (dec (u128_val u)) = u) /\
  (u256_to_string w = Ok (dec (u256_val w)) /\ u256_from_decimal (dec (u256_val w)) = w) /\
  (i256_to_string w = Ok (dec_signed (i256_val w)) /\ i256_from_decimal (dec_signed (i256_val w)) = w).
Proof.
  intros u w Hu Hw. split; [split; [apply u128_to_string_val|apply u128_read_dec]; assumption|].
  split; [split; [apply u256_to_string_val|apply u256_read_dec]; assumption|].
  split; [apply i256_to_string_val|apply i256_read_dec]; assumption.
Qed.
Print Assumptions big_decimal_text.
Theorem i128_decimal_text_partial : forall wv a, i128_ok a -> wv = true \/ i128_val a <> - 2 ^ 127 ->
  i128_to_string wv a = Ok (dec_signed (i128_val a)) /\ i128_from_decimal wv (dec_signed (i128_val a)) = Ok a.
Proof. intros wv a Ha D. split; [apply i128_to_string_val|apply i128_read_dec]; assumption. Qed.
Print Assumptions i128_decimal_text_partial.
Example big_decimal_ex : u256_to_string I256_M1 = Ok (bs "115792089237316195423570985008687907853269984665640564039457584007913129639935")
  /\ i256_to_string (i256_neg [12; 0; 0; 0]) = Ok (bs "-12") /\ u128_to_string (U128 0 1) = Ok (bs "18446744073709551616")
  /\ i128_to_string true I128_MIN = Ok (bs "-170141183460469231731687303715884105728").
Proof. repeat split; vm_compute; reflexivity. Qed.
(** The text is the canonical numeral of the value: digits, no superfluous zero. *)
Theorem dec_is_canonical : forall n, 0 <= n -> canonical_nat (dec n) /\ dec_val (dec n) = n.
Proof. exact dec_spec. Qed.
Print Assumptions dec_is_canonical.
(** Reading any digit text, with '_' separators: the value modulo 2^n. *)
Theorem big_from_decimal : forall s, Forall is_digit (digits_only s) ->
  u128_val (u128_from_decimal s) = dec_val (digits_only s) mod 2 ^ 128 /\
  u256_val (u256_from_decimal s) = dec_val (digits_only s) mod 2 ^ 256 /\
  i256_val (i256_from_decimal (45 :: s)) = wrap_i 256 (- dec_val (digits_only s)).
Proof.
  intros s H. split; [apply u128_from_decimal_val, H|]. split; [apply u256_from_decimal_val, H|]. apply i256_from_decimal_neg, H.
Qed.
Print Assumptions big_from_decimal.
Example big_from_decimal_ex : u128_val (u128_from_decimal (bs "1_000_000_000_000_000_000_000")) = 10 ^ 21.
Proof. vm_compute. reflexivity. Qed.
(** C11 is false as compiled for the smallest i128: printing negates it. *)
Theorem i128_decimal_text_refuted : i128_ok I128_MIN /\ i128_to_string false I128_MIN = UB /\
  i128_from_decimal false (bs "-170141183460469231731687303715884105728") = UB.
Proof. split; [unfold i128_ok, is_word, I128_MIN; cbn [ilo ihi]; lia|]. split; vm_compute; reflexivity. Qed.
Print Assumptions i128_decimal_text_refuted.

(** * C13, wide casts: exact or the documented panic. *)
Theorem big_casts : forall (i : i128) (u : u128) (w : w256), i128_ok i -> u128_ok u -> w256_ok w ->
  cast_ok (i128_to_i64 i) (- 2 ^ 63) (2 ^ 63) (i128_val i) 93 /\
  cast_ok (i128_to_u64 i) 0 (2 ^ 64) (i128_val i) 94 /\
  cast_ok (u128_to_i64 u) (- 2 ^ 63) (2 ^ 63) (u128_val u) 95 /\
  cast_ok (u128_to_u64 u) 0 (2 ^ 64) (u128_val u) 96 /\
  cast_ok (i256_to_i64 w) (- 2 ^ 63) (2 ^ 63) (i256_val w) 97 /\
  cast_ok (i256_to_u64 w) 0 (2 ^ 64) (i256_val w) 98 /\
  cast_ok (u256_to_i64 w) (- 2 ^ 63) (2 ^ 63) (u256_val w) 99 /\
  cast_ok (u256_to_u64 w) 0 (2 ^ 64) (u256_val w) 100.
Proof.
  intros i u w Hi Hu Hw. repeat split; auto using i128_to_i64_cast, i128_to_u64_cast, u128_to_i64_cast, u128_to_u64_cast,
    i256_to_i64_cast, i256_to_u64_cast, u256_to_i64_cast, u256_to_u64_cast.
Qed.
Print Assumptions big_casts.
Example big_casts_ex : i128_to_i64 (I128 (2 ^ 64 - 5) (-1)) = Ok (-5) /\ i128_to_i64 (I128 (2 ^ 63) 0) = Panic 93 /\
  i256_to_i64 I256_M1 = Ok (-1) /\ u256_to_u64 I256_M1 = Panic 100.
Proof. repeat split; vm_compute; reflexivity. Qed.
