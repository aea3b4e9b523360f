(** C108: the integer functions of the math module. *)
From Verif Require Import Base BaseFacts MathSpec MathModel MathProofs.

(** math.factorial *)
Theorem factorial_exact_partial n fuel : 0 <= n <= 20 -> (22 <= fuel)%nat -> gray_math_factorial fuel n = Ok (product (Z.to_nat n)).
Proof.
  intros L Lf. unfold gray_math_factorial. replace (n <? 0) with false by lia. destruct (Z.leb_spec n 1).
  - assert (C : n = 0 \/ n = 1) by lia. destruct C as [->| ->]; reflexivity.
  - change 2 with (Z.of_nat 2). change (1 : Z) with (product (2 - 1)). apply factorial_steps; lia.
Qed.
Theorem factorial_negative n fuel : n < 0 -> gray_math_factorial fuel n = Panic 70.
Proof. intros L. unfold gray_math_factorial. replace (n <? 0) with true by lia. reflexivity. Qed.
(** Every other [int] overflows, without the panic that [*] has. *)
Theorem factorial_exact_refuted n fuel : 21 <= n -> (22 <= fuel)%nat -> gray_math_factorial fuel n = UB.
Proof.
  intros L Lf. unfold gray_math_factorial. replace (n <? 0) with false by lia. replace (n <=? 1) with false by lia.
  change 2 with (Z.of_nat 2). change (1 : Z) with (product (2 - 1)). apply factorial_over; lia.
Qed.
Print Assumptions factorial_exact_partial.
Print Assumptions factorial_exact_refuted.

(** math.gcd and math.lcm *)
Theorem gcd_exact_partial a b fuel : int a -> int b -> a <> INT64_MIN -> b <> INT64_MIN -> Z.abs b < Z.of_nat fuel -> gray_math_gcd fuel a b = Ok (Z.gcd a b).
Proof. apply gcd_ok. Qed.
Theorem gcd_exact_refuted fuel x : gray_math_gcd fuel INT64_MIN x = UB.
Proof. reflexivity. Qed.
Theorem lcm_exact_partial a b fuel : int a -> int b -> a <> INT64_MIN -> b <> INT64_MIN -> 0 <= a * b -> int (Z.lcm a b) -> Z.abs b < Z.of_nat fuel ->
  gray_math_lcm fuel a b = Ok (Z.lcm a b).
Proof.
  intros Ia Ib Na Nb Ps Il L. unfold gray_math_lcm. destruct (Z.eqb_spec a 0) as [->|Za]; [rewrite Z.lcm_0_l; reflexivity|]. destruct (Z.eqb_spec b 0) as [->|Zb]; [rewrite Z.lcm_0_r; reflexivity|]. cbn [orb].
  rewrite gcd_ok by auto. cbn [rbind]. rewrite lcm_quot by exact Za. assert (0 < a * b) by nia. rewrite Z.sgn_pos, Z.mul_1_l by lia. now apply i64_ok.
Qed.
(** With one argument negative the result is negative, and no multiple is
    larger than it; a multiple that does not fit overflows. *)
Theorem lcm_exact_refuted : gray_math_lcm 100 4 (-6) = Ok (-12) /\ Z.lcm 4 (-6) = 12 /\ gray_math_lcm 100 INT64_MAX 2 = UB.
Proof. vm_compute. auto. Qed.
Theorem lcm_negative a b fuel : int a -> int b -> a <> INT64_MIN -> b <> INT64_MIN -> a * b < 0 -> int (Z.lcm a b) -> Z.abs b < Z.of_nat fuel ->
  gray_math_lcm fuel a b = Ok (- Z.lcm a b).
Proof.
  intros Ia Ib Na Nb Ps Il L. unfold gray_math_lcm. replace (a =? 0) with false by nia. replace (b =? 0) with false by nia. cbn [orb].
  rewrite gcd_ok by auto. cbn [rbind]. rewrite lcm_quot by nia. rewrite Z.sgn_neg by lia. replace (-1 * Z.lcm a b) with (- Z.lcm a b) by ring. apply i64_ok. pose proof (Z.lcm_nonneg a b). unfold int, INT64_MIN, INT64_MAX in *. lia.
Qed.
Print Assumptions gcd_exact_partial.
Print Assumptions lcm_exact_partial.
Print Assumptions lcm_negative.
Example gcd_lcm_case : int (-12) /\ int 18 /\ gray_math_gcd 19 (-12) 18 = Ok 6 /\ gray_math_lcm 19 12 18 = Ok 36 /\ Z.lcm 12 18 = 36 /\ gray_math_factorial 30 20 = Ok 2432902008176640000.
Proof. unfold int. vm_compute. intuition discriminate. Qed.

(** math.is_prime *)
Definition safe_limit : Z := 3037000499 * 3037000499.
Theorem is_prime_exact_partial n fuel : int n -> n < safe_limit \/ ~ prime n -> Z.sqrt n < Z.of_nat fuel ->
  exists b, gray_math_is_prime fuel n = Ok b /\ (b = true <-> prime n).
Proof.
  intros In C Lf. unfold safe_limit in C. destruct (is_prime_answer fuel n In Lf) as [(P & _ & ->)|[(P & L & _)|(P & ->)]].
  - exists true. split; [reflexivity|tauto].
  - destruct C as [C|C]; [|contradiction]. exfalso. revert L C. generalize (3037000499 * 3037000499). intros z L C. lia.
  - exists false. split; [reflexivity|]. split; [discriminate|contradiction].
Qed.
Print Assumptions is_prime_exact_partial.
(** The primes from there on overflow [i * i]. *)
Theorem is_prime_overflows n fuel : int n -> prime n -> safe_limit <= n -> Z.sqrt n < Z.of_nat fuel -> gray_math_is_prime fuel n = UB.
Proof.
  intros In P L Lf. unfold safe_limit in L. destruct (is_prime_answer fuel n In Lf) as [(_ & L2 & _)|[(_ & _ & E)|(N & _)]]; [|exact E|contradiction].
  exfalso. revert L L2. generalize (3037000499 * 3037000499). intros z L C. lia.
Qed.
(** There are such primes. *)
Lemma q_prime : prime 3037000721.
Proof.
  destruct (is_prime_exact_partial 3037000721 (Z.to_nat 60000)) as (b & E & Q).
  - unfold int, INT64_MIN, INT64_MAX. lia.
  - left. reflexivity.
  - apply Z.ltb_lt. vm_compute. reflexivity.
  - assert (X : gray_math_is_prime (Z.to_nat 60000) 3037000721 = Ok true) by (vm_compute; reflexivity). rewrite X in E. injection E as <-. now apply Q.
Qed.
Definition big_prime : Z := 9223372033963200439.
Lemma big_is_prime : prime big_prime.
Proof.
  apply (large_prime big_prime 3037000278 3037000721 2 (-1681147846271061227) (1541531584107079573)).
  - unfold big_prime. lia.
  - reflexivity.
  - lia.
  - exact q_prime.
  - reflexivity.
  - change (3037000278 * 3037000721) with (Zpos 9223372033963200438). rewrite <- power_mod_ok by discriminate. vm_compute. reflexivity.
  - rewrite <- (power_mod_ok 2 big_prime) by discriminate. vm_compute. reflexivity.
Qed.
Theorem is_prime_exact_refuted : exists n, int n /\ prime n /\ forall fuel, Z.sqrt n < Z.of_nat fuel -> gray_math_is_prime fuel n = UB.
Proof.
  exists big_prime. assert (I : int big_prime) by (unfold int, INT64_MIN, INT64_MAX, big_prime; lia). split; [exact I|]. split; [exact big_is_prime|].
  intros fuel L. apply is_prime_overflows; [exact I|exact big_is_prime| |exact L]. vm_compute. discriminate.
Qed.
Print Assumptions is_prime_exact_refuted.
Example is_prime_case : int 1000003 /\ 1000003 < safe_limit /\ gray_math_is_prime 1001 1000003 = Ok true /\ gray_math_is_prime 1001 (1009 * 997) = Ok false.
Proof. unfold int, INT64_MIN, INT64_MAX. split; [lia|]. vm_compute. auto. Qed.

(** The small ones *)
Theorem small_functions a b c : gray_math_sign a = Z.sgn a /\ gray_math_min_int a b = Z.min a b /\ gray_math_max_int a b = Z.max a b /\
  (b <= c -> gray_math_clamp_int a b c = Z.max b (Z.min a c)) /\ gray_math_is_even a = Z.even a /\ gray_math_is_odd a = Z.odd a.
Proof.
  unfold gray_math_sign, gray_math_min_int, gray_math_max_int, gray_math_clamp_int, gray_math_is_even, gray_math_is_odd.
  assert (R : (Z.rem a 2 =? 0) = Z.even a).
  { apply eq_true_iff_eq. rewrite Z.eqb_eq, Z.even_spec. rewrite Z.rem_divide by lia. split; intros [x Hx]; exists x; lia. }
  rewrite R, Z.negb_even. repeat split; try reflexivity.
  - destruct (Z.ltb_spec 0 a), (Z.ltb_spec a 0); lia.
  - destruct (Z.ltb_spec a b); lia.
  - destruct (Z.ltb_spec b a); lia.
  - intros L. destruct (Z.ltb_spec a b), (Z.ltb_spec c a); lia.
Qed.
Theorem abs_neg_partial a : int a -> a <> INT64_MIN -> gray_math_abs_int a = Ok (Z.abs a) /\ math_neg a = Ok (- a).
Proof.
  intros Ia Na. unfold gray_math_abs_int, math_neg. assert (X : int (- a)) by (unfold int, INT64_MIN, INT64_MAX in *; lia). rewrite (i64_ok _ X). split; [|reflexivity].
  destruct (Z.ltb_spec a 0); f_equal; lia.
Qed.
(** [-x] panics; [math.neg(x)] and [math.abs(x)] do not. *)
Theorem abs_neg_refuted : gray_math_abs_int INT64_MIN = UB /\ math_neg INT64_MIN = UB.
Proof. split; reflexivity. Qed.
Print Assumptions small_functions.
Print Assumptions abs_neg_partial.
