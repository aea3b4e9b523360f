(** Factorials, divisors and primes. *)
From Verif Require Import Base BaseFacts MathSpec MathModel.

Lemma i64_ok x : int x -> i64 x = Ok x.
Proof. unfold int, i64. intros H. replace (_ && _) with true by lia. reflexivity. Qed.
Lemma i64_ub x : ~ int x -> i64 x = UB.
Proof. unfold int, i64. intros H. replace (_ && _) with false by lia. reflexivity. Qed.

(** Factorials. *)
Lemma product_pos n : 0 < product n.
Proof. induction n; cbn [product]; lia. Qed.
Lemma product_mono n m : (n <= m)%nat -> product n <= product m.
Proof. induction 1 as [|m H IH]; [lia|]. cbn [product]. pose proof (product_pos m). nia. Qed.
Lemma factorial_steps fuel : forall i n, (2 <= i <= 20)%nat -> Z.of_nat i <= n + 1 -> n <= 20 -> n - Z.of_nat i < Z.of_nat fuel - 1 ->
  factorial_loop fuel (Z.of_nat i) n (product (i - 1)) = Ok (product (Z.to_nat n)).
Proof.
  induction fuel as [|fuel IH]; intros i n L1 L2 Ln Lf; [lia|]. cbn [factorial_loop]. destruct (Z.leb_spec (Z.of_nat i) n) as [Le|Gt].
  - assert (P : product (i - 1) * Z.of_nat i = product i) by (destruct i as [|i]; [lia|]; cbn [product]; replace (S i - 1)%nat with i by lia; lia).
    rewrite P. assert (B : product i <= product 20) by (apply product_mono; lia). assert (V : product 20 = 2432902008176640000) by reflexivity. pose proof (product_pos i).
    rewrite i64_ok by (unfold int, INT64_MIN, INT64_MAX; lia). cbn [rbind]. rewrite i64_ok by (unfold int, INT64_MIN, INT64_MAX; lia). cbn [rbind].
    destruct (Nat.eq_dec i 20) as [->|Ne].
    + destruct fuel as [|fuel]; [lia|]. cbn [factorial_loop]. replace (Z.of_nat 20 + 1 <=? n) with false by lia. replace n with 20 by lia. reflexivity.
    + replace (Z.of_nat i + 1) with (Z.of_nat (S i)) by lia. replace (product i) with (product (S i - 1)) by (f_equal; lia). apply IH; lia.
  - replace (Z.to_nat n) with (i - 1)%nat by lia. reflexivity.
Qed.
Lemma factorial_over fuel n : forall i, 21 <= n -> (1 <= i <= 21)%nat -> (22 - i <= fuel)%nat -> factorial_loop fuel (Z.of_nat i) n (product (i - 1)) = UB.
Proof.
  induction fuel as [|fuel IH]; intros i L Li Lf; [lia|]. cbn [factorial_loop]. replace (Z.of_nat i <=? n) with true by lia.
  assert (P : product (i - 1) * Z.of_nat i = product i) by (destruct i as [|i]; [lia|]; cbn [product]; replace (S i - 1)%nat with i by lia; lia). rewrite P. pose proof (product_pos i).
  destruct (Nat.eq_dec i 21) as [->|Ne].
  - assert (V : product 21 = 51090942171709440000) by reflexivity. rewrite i64_ub; [reflexivity|]. unfold int, INT64_MIN, INT64_MAX. lia.
  - assert (B : product i <= product 20) by (apply product_mono; lia). assert (V : product 20 = 2432902008176640000) by reflexivity.
    rewrite i64_ok by (unfold int, INT64_MIN, INT64_MAX; lia). cbn [rbind]. rewrite i64_ok by (unfold int, INT64_MIN, INT64_MAX; lia). cbn [rbind].
    replace (Z.of_nat i + 1) with (Z.of_nat (S i)) by lia. replace (product i) with (product (S i - 1)) by (f_equal; lia). apply IH; lia.
Qed.

(** Divisors. *)
Lemma gcd_loop_ok fuel : forall a b, 0 <= a -> 0 <= b -> b < Z.of_nat fuel -> gcd_loop fuel a b = Ok (Z.gcd a b).
Proof.
  induction fuel as [|fuel IH]; intros a b Ha Hb L; [lia|]. cbn [gcd_loop]. destruct (Z.eqb_spec b 0) as [->|N]; [rewrite Z.gcd_0_r, Z.abs_eq by lia; reflexivity|].
  pose proof (Z.rem_bound_pos a b Ha ltac:(lia)). rewrite IH by lia. f_equal. rewrite Z.rem_mod_nonneg by lia. rewrite Z.gcd_comm, Z.gcd_mod by lia. apply Z.gcd_comm.
Qed.
Lemma gcd_ok fuel a b : int a -> int b -> a <> INT64_MIN -> b <> INT64_MIN -> Z.abs b < Z.of_nat fuel -> gray_math_gcd fuel a b = Ok (Z.gcd a b).
Proof.
  intros Ia Ib Na Nb L. unfold gray_math_gcd. assert (E : forall x, int x -> x <> INT64_MIN -> (if x <? 0 then i64 (- x) else Ok x) = Ok (Z.abs x)).
  { intros x Ix Nx. destruct (Z.ltb_spec x 0); [rewrite i64_ok by (unfold int, INT64_MIN, INT64_MAX in *; lia); f_equal; lia|f_equal; lia]. }
  rewrite (E a Ia Na). cbn [rbind]. rewrite (E b Ib Nb). cbn [rbind]. rewrite gcd_loop_ok by lia. now rewrite Z.gcd_abs_l, Z.gcd_abs_r.
Qed.
Lemma lcm_quot a b : a <> 0 -> Z.quot a (Z.gcd a b) * b = Z.sgn (a * b) * Z.lcm a b.
Proof.
  intros Na. pose proof (Z.gcd_nonneg a b). assert (G : Z.gcd a b <> 0) by (intros E; apply Z.gcd_eq_0_l in E; lia). destruct (Z.gcd_divide_l a b) as [x Ex].
  unfold Z.lcm. remember (Z.gcd a b) as g eqn:Eg. destruct (Z.gcd_divide_r a b) as [y Ey]. rewrite <- Eg in Ey.
  replace (Z.quot a g) with x by (rewrite Ex; symmetry; apply Z.quot_mul; lia). replace (b / g) with y by (rewrite Ey; symmetry; apply Z.div_mul; lia).
  replace (a * y) with (x * b) by (rewrite Ex, Ey; ring). assert (Sg : Z.sgn (a * b) = Z.sgn (x * b)) by (rewrite Ex, !Z.sgn_mul, (Z.sgn_pos g) by lia; ring).
  rewrite Sg. generalize (x * b). intros z. lia.
Qed.

(** Primes. *)
Lemma rem_divide n d : 0 <= n -> 0 < d -> Z.rem n d = 0 <-> (d | n).
Proof. intros Hn Hd. rewrite Z.rem_mod_nonneg by lia. split; [apply Z.mod_divide; lia|]. intros D. apply Z.mod_divide; [lia|exact D]. Qed.
Definition free_below (i n : Z) : Prop := forall d, 2 <= d < i -> ~ (d | n).
Lemma free_prime i n : 2 <= n -> n < i * i -> 0 < i -> free_below i n -> prime n.
Proof.
  intros L B Li Fr. apply prime_alt. split; [lia|]. intros d Hd D. pose proof D as [e He].
  destruct (Z.lt_ge_cases d i) as [|Ge]; [apply (Fr d); [lia|exact D]|]. assert (e < i) by nia. assert (2 <= e) by nia. apply (Fr e); [lia|]. exists d. lia.
Qed.
Lemma not_prime n d : 1 < d < n -> (d | n) -> ~ prime n.
Proof. intros L D P. apply prime_alt in P as [_ P]. exact (P d L D). Qed.
Definition answer (n : Z) (r : res bool) : Prop :=
  (prime n /\ n < 3037000499 * 3037000499 /\ r = Ok true) \/ (prime n /\ 3037000499 * 3037000499 <= n /\ r = UB) \/ (~ prime n /\ r = Ok false).
Lemma prime_loop_ok fuel : forall i n, int n -> 5 <= n -> ~ (2 | n) -> ~ (3 | n) -> i mod 6 = 5 -> 5 <= i -> i <= Z.sqrt n + 6 -> Z.sqrt n - i + 6 < 6 * Z.of_nat fuel ->
  free_below i n -> answer n (prime_loop fuel i n).
Proof.
  induction fuel as [|fuel IH]; intros i n In Ln N2 N3 Im Li Ls Lf Fr; [lia|]. cbn [prime_loop]. destruct (Z.sqrt_spec n ltac:(lia)) as [S1 S2]. unfold int, INT64_MIN, INT64_MAX in In.
  set (s := Z.sqrt n) in *. assert (Ss : s <= 3037000499) by nia. destruct (Z.le_gt_cases i 3037000499) as [Small|Big].
  - rewrite i64_ok by (unfold int, INT64_MIN, INT64_MAX; nia). cbn [rbind]. destruct (Z.leb_spec (i * i) n) as [Le|Gt].
    + destruct (_ || _) eqn:E.
      * right; right. split; [|reflexivity]. apply orb_true_iff in E as [E|E]; apply Z.eqb_eq, rem_divide in E; try lia; (eapply not_prime; [|exact E]); nia.
      * apply orb_false_iff in E as [E1 E2]. apply Z.eqb_neq in E1, E2. rewrite (rem_divide n i) in E1 by lia. rewrite (rem_divide n (i + 2)) in E2 by lia.
        apply IH; auto; try lia.
        -- assert (i <= s) by nia. lia.
        -- intros d Hd D. destruct (Z.lt_ge_cases d i); [apply (Fr d); [lia|exact D]|].
           pose proof (Z.div_mod i 6 ltac:(lia)) as Dm. rewrite Im in Dm. set (m := i / 6) in *.
           assert (C : d = i \/ d = i + 1 \/ d = i + 2 \/ d = i + 3 \/ d = i + 4 \/ d = i + 5) by lia.
           destruct C as [->|[->|[->|[->|[->| ->]]]]]; [auto| | auto | | | ].
           ++ apply N2. apply (Z.divide_trans _ (i + 1)); [exists (3 * m + 3); lia|exact D].
           ++ apply N2. apply (Z.divide_trans _ (i + 3)); [exists (3 * m + 4); lia|exact D].
           ++ apply N3. apply (Z.divide_trans _ (i + 4)); [exists (2 * m + 3); lia|exact D].
           ++ apply N2. apply (Z.divide_trans _ (i + 5)); [exists (3 * m + 5); lia|exact D].
    + left. split; [apply (free_prime i n); auto; lia|]. split; [|reflexivity]. nia.
  - rewrite i64_ub by (unfold int, INT64_MIN, INT64_MAX; nia). right; left. split; [apply (free_prime i n); auto; nia|]. split; [|reflexivity].
    assert (3037000499 <= s).
    { pose proof (Z.div_mod i 6 ltac:(lia)) as Dm. rewrite Im in Dm. lia. }
    nia.
Qed.
Lemma is_prime_answer fuel n : int n -> Z.sqrt n < Z.of_nat fuel -> answer n (gray_math_is_prime fuel n).
Proof.
  intros In Lf. unfold gray_math_is_prime. destruct (Z.ltb_spec n 2) as [L|L]; [right; right; split; [intros P; apply prime_ge_2 in P; lia|reflexivity]|].
  destruct (Z.ltb_spec n 4) as [L4|L4].
  { left. split; [|split; [lia|reflexivity]]. assert (C : n = 2 \/ n = 3) by lia. destruct C as [->| ->]; [exact prime_2|exact prime_3]. }
  destruct (_ || _) eqn:E.
  - right; right. split; [|reflexivity]. apply orb_true_iff in E as [E|E]; apply Z.eqb_eq, rem_divide in E; try lia; (eapply not_prime; [|exact E]); lia.
  - apply orb_false_iff in E as [E1 E2]. apply Z.eqb_neq in E1, E2. rewrite rem_divide in E1, E2 by lia. pose proof (Z.sqrt_nonneg n).
    assert (N5 : n <> 4) by (intros ->; apply E1; exists 2; reflexivity).
    apply prime_loop_ok; auto; try lia. intros d Hd D. assert (C : d = 2 \/ d = 3 \/ d = 4) by lia. destruct C as [->|[->| ->]]; [auto|auto|].
    apply E1. apply (Z.divide_trans _ 4); [exists 2; reflexivity|exact D].
Qed.

(** A large prime: n = k * q + 1 with q a prime beyond the root of n. *)
Lemma power_one b p m : 1 < p -> (b ^ m) mod p = 1 -> forall t, 0 <= m -> 0 <= t -> (b ^ (m * t)) mod p = 1.
Proof.
  intros Hp E t Hm Ht. rewrite Z.pow_mul_r by lia.
  pattern t. apply natlike_ind; [rewrite Z.pow_0_r; now apply Z.mod_1_l| |exact Ht]. intros x Hx IH. rewrite Z.pow_succ_r by lia. rewrite Z.mul_mod, E, IH by lia. now apply Z.mod_1_l.
Qed.
Lemma small_power b p q d : 1 < p -> prime q -> (b ^ q) mod p = 1 -> 0 < d < q -> (b ^ d) mod p = 1 -> b mod p = 1.
Proof.
  intros Hp Pq Eq Ld Ed. pose proof (prime_ge_2 q Pq). assert (R : rel_prime d q) by (apply rel_prime_sym, prime_rel_prime; [exact Pq|]; intros D; apply Z.divide_pos_le in D; lia).
  destruct (rel_prime_bezout d q R) as [u v Euv]. set (w := u mod q). assert (Hw : 0 <= w < q) by (apply Z.mod_pos_bound; lia).
  assert (M : (w * d) mod q = 1) by (unfold w; rewrite Z.mul_mod_idemp_l by lia; replace (u * d) with (1 + (- v) * q) by lia; rewrite Z.mod_add by lia; apply Z.mod_1_l; lia).
  pose proof (Z.div_mod (w * d) q ltac:(lia)) as Dm. rewrite M in Dm. set (t := w * d / q) in *. assert (Ht : 0 <= t) by (apply Z.div_pos; nia).
  assert (Xq : d * w = q * t + 1) by (rewrite (Z.mul_comm d w); exact Dm). pose proof (power_one b p d Hp Ed w ltac:(lia) ltac:(lia)) as P1. pose proof (power_one b p q Hp Eq t ltac:(lia) ltac:(lia)) as P2.
  rewrite Xq in P1. rewrite Z.pow_add_r in P1 by (try (apply Z.mul_nonneg_nonneg); lia). rewrite Z.mul_mod, P2, Z.pow_1_r, Z.mul_1_l, Z.mod_mod in P1 by lia. exact P1.
Qed.
Lemma mod_cancel c x y p : prime p -> ~ (p | c) -> (c * x) mod p = (c * y) mod p -> x mod p = y mod p.
Proof.
  intros P N E. pose proof (prime_ge_2 p P). assert (D : (p | c * (x - y))).
  { apply Z.mod_divide; [lia|]. rewrite Z.mul_sub_distr_l, Zminus_mod, E, Z.sub_diag. apply Z.mod_0_l. lia. }
  apply prime_mult in D as [D|D]; [contradiction| |exact P]. apply Z.mod_divide in D; [|lia]. rewrite <- (Z.sub_add y x), Z.add_mod, D, Z.add_0_l, Z.mod_mod by lia. reflexivity.
Qed.
Lemma order_bound b p q : prime p -> prime q -> ~ (p | b) -> (b ^ q) mod p = 1 -> b mod p <> 1 -> q < p.
Proof.
  intros Pp Pq Nb Eq Ne. pose proof (prime_ge_2 p Pp). pose proof (prime_ge_2 q Pq).
  assert (Np : forall m, 0 <= m -> ~ (p | b ^ m)).
  { intros m Hm. pattern m. apply natlike_ind; [rewrite Z.pow_0_r; intros D; apply Z.divide_pos_le in D; lia| |exact Hm].
    intros x Hx IH D. rewrite Z.pow_succ_r in D by lia. apply prime_mult in D; [tauto|exact Pp]. }
  set (f := fun i : nat => Z.to_nat ((b ^ Z.of_nat i) mod p)).
  assert (Inj : forall i j, (i < j)%nat -> (j < Z.to_nat q)%nat -> f i <> f j).
  { intros i j L1 L2 E. unfold f in E. apply Z2Nat.inj in E; try (apply Z.mod_pos_bound; lia). assert (Ej : Z.of_nat j = Z.of_nat i + Z.of_nat (j - i)) by (clear -L1; lia). rewrite Ej in E.
    rewrite Z.pow_add_r in E by apply Zle_0_nat. rewrite <- (Z.mul_1_r (b ^ Z.of_nat i)) in E at 1. apply mod_cancel in E; [|exact Pp|apply Np, Zle_0_nat].
    assert (Hp1 : 1 < p) by (clear -H; lia). rewrite Z.mod_1_l in E by exact Hp1. apply Ne. apply (small_power b p q (Z.of_nat (j - i))); auto. clear -L1 L2 H0. lia. }
  assert (ND : NoDup (map f (seq 0 (Z.to_nat q)))).
  { apply (NoDup_nth _ (f 0%nat)). intros i j Hi Hj E. rewrite map_length, seq_length in *. rewrite !map_nth, !seq_nth in E by lia. cbn [Nat.add] in E.
    destruct (Nat.lt_trichotomy i j) as [L|[L|L]]; [exfalso; exact (Inj i j L Hj E)|exact L|exfalso; exact (Inj j i L Hi (eq_sym E))]. }
  assert (Inc : incl (map f (seq 0 (Z.to_nat q))) (seq 1 (Z.to_nat p - 1))).
  { intros x I. apply in_map_iff in I as (i & <- & I). apply in_seq. unfold f. pose proof (Z.mod_pos_bound (b ^ Z.of_nat i) p ltac:(lia)).
    assert ((b ^ Z.of_nat i) mod p <> 0) by (intros E; apply Z.mod_divide in E; [|lia]; revert E; apply Np; lia). lia. }
  pose proof (NoDup_incl_length ND Inc) as Len. rewrite map_length, !seq_length in Len. lia.
Qed.
(** Computing powers. *)
Fixpoint power_mod (a : Z) (e : positive) (n : Z) : Z :=
  match e with
  | xH => a mod n
  | xO e => let x := power_mod a e n in (x * x) mod n
  | xI e => let x := power_mod a e n in (((x * x) mod n) * a) mod n
  end.
Lemma power_mod_ok a n : n <> 0 -> forall e, power_mod a e n = (a ^ Zpos e) mod n.
Proof.
  intros Hn. induction e as [e IH|e IH|]; cbn [power_mod]; [| |now rewrite Z.pow_1_r].
  - rewrite IH. replace (Zpos e~1) with (Zpos e + Zpos e + 1) by lia. rewrite !Z.pow_add_r by lia. rewrite Z.pow_1_r. rewrite <- Z.mul_mod by lia. rewrite Z.mul_mod_idemp_l by lia. reflexivity.
  - rewrite IH. replace (Zpos e~0) with (Zpos e + Zpos e) by lia. rewrite Z.pow_add_r by lia. rewrite <- Z.mul_mod by lia. reflexivity.
Qed.
Lemma smallest_divisor n : 2 <= n -> ~ prime n -> exists p, prime p /\ (p | n) /\ p * p <= n.
Proof.
  intros L N.
  assert (G : forall m, 2 <= m -> exists p, prime p /\ (p | m)).
  { intros m Lm. assert (H : 0 <= m) by lia. revert Lm. pattern m. apply Zlt_0_ind; [|exact H]. clear. intros m IH Hm L.
    destruct (prime_dec m) as [P|P]; [exists m; split; [exact P|apply Z.divide_refl]|]. destruct (not_prime_divide m ltac:(lia) P) as (d & Hd & D).
    destruct (IH d ltac:(lia) ltac:(lia)) as (p & Pp & Dp). exists p. split; [exact Pp|exact (Z.divide_trans _ _ _ Dp D)]. }
  destruct (not_prime_divide n ltac:(lia) N) as (d & Hd & [e He]).
  assert (He2 : 1 < e < n) by nia.
  destruct (Z.le_ge_cases d e) as [Le|Ge].
  - destruct (G d ltac:(lia)) as (p & Pp & Dp). exists p. split; [exact Pp|]. split; [apply (Z.divide_trans _ d); [exact Dp|exists e; lia]|]. apply Z.divide_pos_le in Dp; [|lia]. pose proof (prime_ge_2 p Pp). nia.
  - destruct (G e ltac:(lia)) as (p & Pp & Dp). exists p. split; [exact Pp|]. split; [apply (Z.divide_trans _ e); [exact Dp|exists d; lia]|]. apply Z.divide_pos_le in Dp; [|lia]. pose proof (prime_ge_2 p Pp). nia.
Qed.
Lemma large_prime n k q a u v : 2 <= n -> n = k * q + 1 -> 0 < k -> prime q -> n < q * q -> (a ^ (k * q)) mod n = 1 -> u * ((a ^ k) mod n - 1) + v * n = 1 -> prime n.
Proof.
  intros Ln En Hk Pq Lq E1 E2. destruct (prime_dec n) as [P|N]; [exact P|exfalso]. destruct (smallest_divisor n Ln N) as (p & Pp & [c Dn] & Ls). pose proof (prime_ge_2 p Pp). pose proof (prime_ge_2 q Pq).
  assert (Mp : forall x, (x mod n) mod p = x mod p).
  { intros x. rewrite (Z.div_mod x n) at 2 by (clear -Ln; lia). replace (n * (x / n) + x mod n) with (x mod n + (c * (x / n)) * p) by (rewrite Dn at 3; ring). rewrite Z.mod_add by (clear -H; lia). reflexivity. }
  assert (Eb : ((a ^ k) ^ q) mod p = 1) by (rewrite <- Z.pow_mul_r by lia; rewrite <- Mp, E1; apply Z.mod_1_l; lia).
  assert (Nb : (a ^ k) mod p <> 1).
  { intros E. rewrite <- Mp in E. assert (D : (p | (a ^ k) mod n - 1)) by (apply Z.mod_divide; [lia|]; rewrite Zminus_mod, E, Z.mod_1_l, Z.sub_diag by lia; apply Z.mod_0_l; lia).
    destruct D as [x Ex]. rewrite Ex, Dn in E2. assert (D : (p | 1)) by (exists (u * x + v * c); rewrite <- E2; ring). apply Z.divide_pos_le in D; clear -D H; lia. }
  assert (Nd : ~ (p | a ^ k)).
  { intros D. assert (D2 : (p | (a ^ k) ^ q)) by (replace q with (1 + (q - 1)) by ring; rewrite Z.pow_add_r, Z.pow_1_r by (clear -H0; lia); now apply Z.divide_mul_l).
    apply Z.mod_divide in D2; [|clear -H; lia]. congruence. }
  pose proof (order_bound _ p q Pp Pq Nd Eb Nb) as Lt. clear -Lt Ls Lq H H0. nia.
Qed.
