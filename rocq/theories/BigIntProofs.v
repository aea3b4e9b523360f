From Verif Require Import Base BaseFacts Decimal DecimalFacts BigIntModel BigIntSpec.
Ltac Zify.zify_post_hook ::= Z.div_mod_to_equations.

Ltac u64 := unfold u128_ok, i128_ok, u128_val, i128_val, is_word, words_val, add64, sub64, mul64, not64,
  to_u64, M64, b2z in *.
Ltac dif F := match goal with |- context [if ?b then _ else _] => destruct b eqn:F end.
Ltac consts := change (2 ^ 64) with 18446744073709551616 in *;
  change (2 ^ 63) with 9223372036854775808 in *;
  change (2 ^ 128) with 340282366920938463463374607431768211456 in *;
  change (2 ^ 127) with 170141183460469231731687303715884105728 in *.

Lemma to_i64_spec x : to_i64 x = if x mod 18446744073709551616 <? 9223372036854775808
   then x mod 18446744073709551616 else x mod 18446744073709551616 - 18446744073709551616.
Proof. reflexivity. Qed.

(** * u128 add/sub/compare *)
Lemma u128_add_ok a b : u128_ok a -> u128_ok b -> u128_ok (u128_add a b).
Proof. intros. u64. cbn [ulo uhi u128_add]. unfold u128_add; u64; cbn [ulo uhi]. consts. lia. Qed.
Lemma u128_add_val a b : u128_ok a -> u128_ok b ->
  u128_val (u128_add a b) = (u128_val a + u128_val b) mod 2 ^ 128.
Proof.
  intros Ha Hb. unfold u128_add. u64. cbn [ulo uhi]. consts.
  dif E; lia.
Qed.
Lemma u128_sub_ok a b : u128_ok a -> u128_ok b -> u128_ok (u128_sub a b).
Proof. intros. unfold u128_sub; u64; cbn [ulo uhi]. consts. lia. Qed.
Lemma u128_sub_val a b : u128_ok a -> u128_ok b ->
  u128_val (u128_sub a b) = (u128_val a - u128_val b) mod 2 ^ 128.
Proof.
  intros Ha Hb. unfold u128_sub. u64. cbn [ulo uhi]. consts.
  dif E; lia.
Qed.

Lemma u128_val_range a : u128_ok a -> 0 <= u128_val a < 2 ^ 128.
Proof. intros. u64. consts. lia. Qed.
Lemma u128_val_inj a b : u128_ok a -> u128_ok b -> u128_val a = u128_val b -> a = b.
Proof. destruct a as [al ah], b as [bl bh]. intros. u64. cbn [ulo uhi] in *. consts. f_equal; lia. Qed.
Lemma i128_val_range a : i128_ok a -> - 2 ^ 127 <= i128_val a < 2 ^ 127.
Proof. intros. u64. consts. lia. Qed.
Lemma i128_val_inj a b : i128_ok a -> i128_ok b -> i128_val a = i128_val b -> a = b.
Proof. destruct a as [al ah], b as [bl bh]. intros. u64. cbn [ilo ihi] in *. consts. f_equal; lia. Qed.

Lemma u128_lt_val a b : u128_ok a -> u128_ok b -> u128_lt a b = (u128_val a <? u128_val b).
Proof. intros. unfold u128_lt. u64. consts. lia. Qed.
Lemma u128_eq_val a b : u128_ok a -> u128_ok b -> u128_eq a b = (u128_val a =? u128_val b).
Proof. intros. unfold u128_eq. u64. consts. lia. Qed.
Lemma i128_lt_val a b : i128_ok a -> i128_ok b -> i128_lt a b = (i128_val a <? i128_val b).
Proof. intros. unfold i128_lt. u64. consts. lia. Qed.
Lemma i128_eq_val a b : i128_ok a -> i128_ok b -> i128_eq a b = (i128_val a =? i128_val b).
Proof. intros. unfold i128_eq. u64. consts. lia. Qed.
Lemma u128_ne_val a b : u128_ok a -> u128_ok b -> u128_ne a b = negb (u128_val a =? u128_val b).
Proof. intros. unfold u128_ne. u64. consts. lia. Qed.
Lemma i128_ne_val a b : i128_ok a -> i128_ok b -> i128_ne a b = negb (i128_val a =? i128_val b).
Proof. intros. unfold i128_ne. u64. consts. lia. Qed.

(** * 64x64 -> 128 product *)
Lemma land_mask32 x : Z.land x MASK32 = x mod 4294967296.
Proof. change MASK32 with (Z.ones 32). rewrite Z.land_ones by lia. reflexivity. Qed.
Lemma shr64_div x n : 0 <= n -> shr64 x n = x / 2 ^ n.
Proof. intros. unfold shr64. apply Z.shiftr_div_pow2. lia. Qed.

Lemma prod_bound x y m : 0 <= x <= m -> 0 <= y <= m -> 0 <= x * y <= m * m.
Proof. intros. nia. Qed.

Lemma mul_high_spec x y : is_word x -> is_word y -> mul_high x y = x * y / 2 ^ 64.
Proof.
  unfold is_word, mul_high. intros Hx Hy. consts.
  rewrite !land_mask32, !shr64_div by lia. change (2 ^ 32) with 4294967296.
  set (a0 := x mod 4294967296). set (a1 := x / 4294967296).
  set (b0 := y mod 4294967296). set (b1 := y / 4294967296).
  assert (Ex : x = a0 + 4294967296 * a1) by (subst a0 a1; lia).
  assert (Ey : y = b0 + 4294967296 * b1) by (subst b0 b1; lia).
  assert (Ha0 : 0 <= a0 <= 4294967295) by (subst a0; lia).
  assert (Ha1 : 0 <= a1 <= 4294967295) by (subst a1; lia).
  assert (Hb0 : 0 <= b0 <= 4294967295) by (subst b0; lia).
  assert (Hb1 : 0 <= b1 <= 4294967295) by (subst b1; lia).
  clearbody a0 a1 b0 b1. 
  replace (x * y) with (a0 * b0 + 4294967296 * (a0 * b1 + a1 * b0) + 18446744073709551616 * (a1 * b1)) by (subst; ring).
  clear Ex Ey.
  pose proof (prod_bound _ _ _ Ha0 Hb0) as P0. pose proof (prod_bound _ _ _ Ha0 Hb1) as P1.
  pose proof (prod_bound _ _ _ Ha1 Hb0) as P2. pose proof (prod_bound _ _ _ Ha1 Hb1) as P3.
  unfold add64, mul64, M64.
  generalize dependent (a0 * b0). intros p00. generalize dependent (a0 * b1). intros p01.
  generalize dependent (a1 * b0). intros p10. generalize dependent (a1 * b1). intros p11.
  intros. change (4294967295 * 4294967295) with 18446744065119617025 in *.
  rewrite !(Z.mod_small p00), !(Z.mod_small p01), !(Z.mod_small p10), !(Z.mod_small p11) by lia.
  rewrite (Z.mod_small (p01 + _)) by lia.
  rewrite (Z.mod_small (_ + p10)) by lia.
  rewrite (Z.mod_small (p11 + _)) by lia.
  rewrite Z.mod_small; lia.
Qed.

Lemma mod_mul_64 x y : x * y = mul64 x y + 2 ^ 64 * (x * y / 2 ^ 64).
Proof. unfold mul64, M64. consts. pose proof (Z.div_mod (x * y) 18446744073709551616). lia. Qed.

Lemma mul128_core al ah bl bh : is_word al -> is_word bl ->
  words_val [mul64 al bl; add64 (add64 (mul_high al bl) (mul64 al bh)) (mul64 ah bl)]
  = ((al + 2 ^ 64 * ah) * (bl + 2 ^ 64 * bh)) mod 2 ^ 128.
Proof.
  intros Ha Hb. rewrite mul_high_spec by assumption.
  replace ((al + 2 ^ 64 * ah) * (bl + 2 ^ 64 * bh)) with
    (al * bl + 2 ^ 64 * (al * bh + ah * bl) + 2 ^ 128 * (ah * bh)) by (change (2 ^ 128) with (2 ^ 64 * 2 ^ 64); ring).
  pose proof (mod_mul_64 al bl) as E. set (h := al * bl / 2 ^ 64) in *. 
  rewrite E. unfold words_val, add64. 
  pose proof (mod_mul_64 al bh) as E1. pose proof (mod_mul_64 ah bl) as E2.
  assert (R0 : 0 <= mul64 al bl < M64) by (unfold mul64, M64; lia).
  assert (R1 : 0 <= mul64 al bh < M64) by (unfold mul64, M64; lia).
  assert (R2 : 0 <= mul64 ah bl < M64) by (unfold mul64, M64; lia).
  generalize dependent (mul64 al bl). intros l0. generalize dependent (mul64 al bh). intros l1.
  generalize dependent (mul64 ah bl). intros l2. intros.
  rewrite E1, E2. generalize (al * bh / 2 ^ 64), (ah * bl / 2 ^ 64), (ah * bh). intros z1 z2 z3.
  clear E E1 E2. clearbody h. unfold M64 in *. consts. lia.
Qed.
Lemma u128_mul_ok a b : u128_ok a -> u128_ok b -> u128_ok (u128_mul a b).
Proof. intros. unfold u128_mul, u128_ok, is_word, add64, mul64, M64; cbn [ulo uhi]. consts. lia. Qed.
Lemma u128_mul_val a b : u128_ok a -> u128_ok b ->
  u128_val (u128_mul a b) = (u128_val a * u128_val b) mod 2 ^ 128.
Proof.
  intros Ha Hb. unfold u128_val at 1. unfold u128_mul. cbn [ulo uhi].
  rewrite mul128_core by (apply Ha || apply Hb). unfold u128_val, words_val.
  f_equal. ring.
Qed.

(** * i128 *)
Lemma signed64_spec wv x : 
  signed64 wv x = if (- 2 ^ 63 <=? x) && (x <? 2 ^ 63) then Ok x else if wv then Ok (to_i64 x) else UB.
Proof.
  unfold signed64, INT64_MIN, INT64_MAX. consts.
  replace (x <=? 9223372036854775807) with (x <? 9223372036854775808) by lia. reflexivity.
Qed.
Lemma signed64_true x : signed64 true x = Ok (to_i64 x).
Proof.
  rewrite signed64_spec. destruct (_ && _) eqn:E; [|reflexivity]. consts.
  f_equal. rewrite to_i64_spec. dif F; lia.
Qed.
Lemma to_i64_range x : - 2 ^ 63 <= to_i64 x < 2 ^ 63.
Proof. rewrite to_i64_spec. consts. dif F; lia. Qed.
Lemma to_i64_cong x : exists k, to_i64 x = x + 2 ^ 64 * k.
Proof.
  rewrite to_i64_spec. consts. dif F.
  - exists (- (x / 18446744073709551616)). lia.
  - exists (- (x / 18446744073709551616) - 1). lia.
Qed.
Lemma to_i64_id x : - 2 ^ 63 <= x < 2 ^ 63 -> to_i64 x = x.
Proof. rewrite to_i64_spec. consts. intros. dif F; lia. Qed.

Lemma wrap128_unique x y k : - 2 ^ 127 <= x < 2 ^ 127 -> x = y + 2 ^ 128 * k -> x = wrap_i 128 y.
Proof.
  intros Hx E. unfold wrap_i. change (2 ^ (128 - 1)) with (2 ^ 127). consts.
  dif F; lia.
Qed.
Lemma wrap128_id x : - 2 ^ 127 <= x < 2 ^ 127 -> wrap_i 128 x = x.
Proof. intros H. symmetry. apply (wrap128_unique x x 0 H). lia. Qed.

Definition i128_spec (r : res i128) (v : Z) : Prop := exists x, r = Ok x /\ i128_ok x /\ i128_val x = v.

Lemma i128_add_wrap a b : i128_ok a -> i128_ok b ->
  i128_spec (i128_add true a b) (wrap_i 128 (i128_val a + i128_val b)).
Proof.
  intros Ha Hb. unfold i128_add. rewrite signed64_true. cbn [rbind]. rewrite signed64_true. cbn [rbind].
  eexists; split; [reflexivity|]. split.
  - split; cbn [ilo ihi]; [u64; consts; lia|apply to_i64_range].
  - set (c := b2z _). destruct (to_i64_cong (ihi a + ihi b)) as [k1 E1].
    destruct (to_i64_cong (to_i64 (ihi a + ihi b) + c)) as [k2 E2].
    pose proof (to_i64_range (to_i64 (ihi a + ihi b) + c)) as R.
    assert (Ec : ilo a + ilo b = add64 (ilo a) (ilo b) + 2 ^ 64 * c).
    { subst c. u64. consts. dif E; lia. }
    apply (wrap128_unique _ _ (k1 + k2)).
    + unfold i128_val; cbn [ilo ihi]. unfold add64, M64. consts. lia.
    + unfold i128_val in *; cbn [ilo ihi] in *. rewrite E2, E1. change (2 ^ 128) with (2 ^ 64 * 2 ^ 64).
      replace (ilo a + 2 ^ 64 * ihi a + (ilo b + 2 ^ 64 * ihi b)) with ((ilo a + ilo b) + 2 ^ 64 * (ihi a + ihi b)) by ring.
      rewrite Ec. ring.
Qed.
Lemma i128_sub_wrap a b : i128_ok a -> i128_ok b ->
  i128_spec (i128_sub true a b) (wrap_i 128 (i128_val a - i128_val b)).
Proof.
  intros Ha Hb. unfold i128_sub. rewrite signed64_true. cbn [rbind]. rewrite signed64_true. cbn [rbind].
  eexists; split; [reflexivity|]. split.
  - split; cbn [ilo ihi]; [u64; consts; lia|apply to_i64_range].
  - set (c := b2z _). destruct (to_i64_cong (ihi a - ihi b)) as [k1 E1].
    destruct (to_i64_cong (to_i64 (ihi a - ihi b) - c)) as [k2 E2].
    pose proof (to_i64_range (to_i64 (ihi a - ihi b) - c)) as R.
    assert (Ec : ilo a - ilo b = sub64 (ilo a) (ilo b) - 2 ^ 64 * c).
    { subst c. u64. consts. dif E; lia. }
    apply (wrap128_unique _ _ (k1 + k2)).
    + unfold i128_val; cbn [ilo ihi]. unfold sub64, M64. consts. lia.
    + unfold i128_val in *; cbn [ilo ihi] in *. rewrite E2, E1. change (2 ^ 128) with (2 ^ 64 * 2 ^ 64).
      replace (ilo a + 2 ^ 64 * ihi a - (ilo b + 2 ^ 64 * ihi b)) with ((ilo a - ilo b) + 2 ^ 64 * (ihi a - ihi b)) by ring.
      rewrite Ec. ring.
Qed.
Lemma i128_neg_wrap a : i128_ok a ->
  i128_spec (i128_neg true a) (wrap_i 128 (- i128_val a)).
Proof.
  intros Ha. unfold i128_neg. rewrite signed64_true. cbn [rbind].
  eexists; split; [reflexivity|]. split.
  - split; cbn [ilo ihi]; [u64; consts; lia|apply to_i64_range].
  - set (c := b2z _). destruct (to_i64_cong (-1 - ihi a + c)) as [k2 E2].
    pose proof (to_i64_range (-1 - ihi a + c)) as R.
    assert (Ec : - ilo a = add64 (not64 (ilo a)) 1 - 2 ^ 64 * (1 - c)).
    { subst c. u64. consts. dif E; lia. }
    apply (wrap128_unique _ _ k2).
    + unfold i128_val; cbn [ilo ihi]. unfold add64, M64. consts. lia.
    + unfold i128_val in *; cbn [ilo ihi] in *. rewrite E2. change (2 ^ 128) with (2 ^ 64 * 2 ^ 64).
      replace (- (ilo a + 2 ^ 64 * ihi a)) with (- ilo a + 2 ^ 64 * - ihi a) by ring.
      rewrite Ec. ring.
Qed.
Lemma mul_wrap_arith W W2 al ah bl bh lo hi k ka kb D : W2 = W * W ->
  lo + W * (hi + W * 0) = (al + W * (ah + W * ka)) * (bl + W * (bh + W * kb)) - W2 * D ->
  lo + W * (hi + W * k) = (al + W * ah) * (bl + W * bh)
    + W2 * (k + ka * (bl + W * bh) + kb * (al + W * ah) + W2 * ka * kb - D).
Proof.
  intros -> E.
  replace (lo + W * (hi + W * k)) with (lo + W * (hi + W * 0) + W * W * k) by ring.
  rewrite E. ring.
Qed.
Lemma to_u64_cong x : to_u64 x = x + 2 ^ 64 * - (x / 2 ^ 64).
Proof. unfold to_u64, M64. consts. lia. Qed.
Lemma i128_mul_core al ah bl bh : is_word al -> is_word bl ->
  let hi := add64 (add64 (mul_high al bl) (mul64 al (to_u64 bh))) (mul64 (to_u64 ah) bl) in
  exists K, mul64 al bl + 2 ^ 64 * to_i64 hi = (al + 2 ^ 64 * ah) * (bl + 2 ^ 64 * bh) + 2 ^ 128 * K.
Proof.
  intros Ha Hb. pose proof (mul128_core al (to_u64 ah) bl (to_u64 bh) Ha Hb) as E.
  rewrite !to_u64_cong in *. cbv zeta.
  set (hi := add64 _ _) in *. destruct (to_i64_cong hi) as [k Ek]. rewrite Ek. clearbody hi.
  rewrite Z.mod_eq in E by discriminate. cbn [words_val] in E.
  eexists. eapply (mul_wrap_arith (2 ^ 64) (2 ^ 128)); [reflexivity|exact E].
Qed.
Lemma i128_mul_wrap a b : i128_ok a -> i128_ok b ->
  i128_ok (i128_mul a b) /\ i128_val (i128_mul a b) = wrap_i 128 (i128_val a * i128_val b).
Proof.
  intros Ha Hb. assert (Hok : i128_ok (i128_mul a b)).
  { unfold i128_mul. split; cbn [ilo ihi]; [u64; consts; lia|apply to_i64_range]. }
  split; [exact Hok|].
  pose proof (i128_val_range _ Hok) as R. clear Hok.
  destruct (i128_mul_core (ilo a) (ihi a) (ilo b) (ihi b) (proj1 Ha) (proj1 Hb)) as [K E].
  exact (wrap128_unique _ _ K R E).
Qed.

(** ISO C: the signed high-word arithmetic is defined exactly when its partial sums fit *)
Lemma signed64_false_ok x r : signed64 false x = Ok r -> r = x /\ - 2 ^ 63 <= x < 2 ^ 63.
Proof. rewrite signed64_spec. destruct (_ && _) eqn:E; intros H; [|discriminate]. injection H as <-. consts. lia. Qed.
Ltac ds E := match goal with |- context [signed64 ?w ?x] => destruct (signed64 w x) eqn:E; try discriminate end.
Lemma iso_agrees_add a b r : i128_ok a -> i128_ok b -> i128_add false a b = Ok r ->
  i128_ok r /\ i128_val r = i128_val a + i128_val b.
Proof.
  intros Ha Hb. unfold i128_add. ds E1.
  cbn [rbind]. ds E2. cbn [rbind]. intros H; injection H as <-.
  apply signed64_false_ok in E1 as [-> R1], E2 as [-> R2].
  unfold i128_ok, i128_val, is_word in *. cbn [ilo ihi]. split; [split; [unfold add64, M64; consts; lia|exact R2]|].
  clear R1 R2. u64. consts. dif E; lia.
Qed.
Lemma iso_agrees_sub a b r : i128_ok a -> i128_ok b -> i128_sub false a b = Ok r ->
  i128_ok r /\ i128_val r = i128_val a - i128_val b.
Proof.
  intros Ha Hb. unfold i128_sub. ds E1.
  cbn [rbind]. ds E2. cbn [rbind]. intros H; injection H as <-.
  apply signed64_false_ok in E1 as [-> R1], E2 as [-> R2].
  unfold i128_ok, i128_val, is_word in *. cbn [ilo ihi]. split; [split; [unfold sub64, M64; consts; lia|exact R2]|].
  clear R1 R2. u64. consts. dif E; lia.
Qed.
Lemma iso_agrees_neg a r : i128_ok a -> i128_neg false a = Ok r ->
  i128_ok r /\ i128_val r = - i128_val a.
Proof.
  intros Ha. unfold i128_neg. ds E1.
  cbn [rbind]. intros H; injection H as <-.
  apply signed64_false_ok in E1 as [-> R1].
  unfold i128_ok, i128_val, is_word in *. cbn [ilo ihi]. split; [split; [unfold add64, M64; consts; lia|exact R1]|].
  clear R1. u64. consts. dif E; lia.
Qed.
Lemma iso_neg_defined a : i128_ok a -> i128_val a <> - 2 ^ 127 -> exists r, i128_neg false a = Ok r.
Proof.
  intros Ha N. unfold i128_neg. rewrite signed64_spec.
  match goal with |- context [if ?c then _ else _] => destruct c eqn:E end; [cbn [rbind]; eexists; reflexivity|exfalso].
  revert E. u64. consts. dif F; lia.
Qed.
