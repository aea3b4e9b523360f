(** Bits, the sine constants and the roots of primes. *)
From Coq Require Import QArith Qabs Lqa.
From Verif Require Import Base BaseFacts DigestSpec DigestModel.
Open Scope Z_scope.

(** * Bits *)
Lemma of_bits_range n f : 0 <= of_bits n f < 2 ^ Z.of_nat n.
Proof.
  induction n as [|n IH]; cbn [of_bits]; [cbn; lia|].
  rewrite Nat2Z.inj_succ, Z.pow_succ_r by lia. destruct (f _); lia.
Qed.
Lemma of_bits_testbit n f i : 0 <= i -> Z.testbit (of_bits n f) i = (i <? Z.of_nat n) && f i.
Proof.
  intros Hi. induction n as [|n IH]; cbn [of_bits].
  - rewrite Z.testbit_0_l. cbn. destruct (i <? 0) eqn:E; [lia|reflexivity].
  - pose proof (of_bits_range n f) as R.
    assert (A : of_bits n f + (if f (Z.of_nat n) then 2 ^ Z.of_nat n else 0) = Z.lor (of_bits n f) (if f (Z.of_nat n) then 2 ^ Z.of_nat n else 0)).
    { assert (Z0 : Z.land (of_bits n f) (if f (Z.of_nat n) then 2 ^ Z.of_nat n else 0) = 0).
      { apply Z.bits_inj'. intros j Hj. rewrite Z.land_spec, Z.testbit_0_l.
        destruct (f (Z.of_nat n)); [|rewrite Z.testbit_0_l; apply andb_false_r].
        rewrite Z.pow2_bits_eqb by lia. destruct (Z.of_nat n =? j) eqn:E; [|apply andb_false_r].
        apply Z.eqb_eq in E. subst j. destruct (Z.eq_dec (of_bits n f) 0) as [->|N0]; [rewrite Z.testbit_0_l; reflexivity|].
        rewrite Z.bits_above_log2; [reflexivity|lia|apply Z.log2_lt_pow2; lia]. }
      rewrite <- Z.lxor_lor by exact Z0. apply Z.add_nocarry_lxor. exact Z0. }
    rewrite A, Z.lor_spec, IH. clear A IH.
    replace (Z.of_nat (S n)) with (Z.of_nat n + 1) by lia.
    destruct (Z.eq_dec i (Z.of_nat n)) as [->|N].
    + replace (Z.of_nat n <? Z.of_nat n) with false by (symmetry; apply Z.ltb_ge; lia).
      replace (Z.of_nat n <? Z.of_nat n + 1) with true by (symmetry; apply Z.ltb_lt; lia).
      cbn [andb orb]. destruct (f _); [rewrite Z.pow2_bits_eqb by lia; apply Z.eqb_refl|apply Z.testbit_0_l].
    + replace (i <? Z.of_nat n + 1) with (i <? Z.of_nat n) by lia.
      replace (Z.testbit (if f (Z.of_nat n) then 2 ^ Z.of_nat n else 0) i) with false; [apply orb_false_r|].
      destruct (f _); [rewrite Z.pow2_bits_eqb by lia; symmetry; apply Z.eqb_neq; lia|symmetry; apply Z.testbit_0_l].
Qed.
Definition w32 (x : Z) : Prop := 0 <= x < M32.
Lemma bitwise_w32 f : w32 (bitwise f).
Proof. exact (of_bits_range 32 f). Qed.
Lemma w32_high x i : w32 x -> 32 <= i -> Z.testbit x i = false.
Proof.
  intros R Hi. destruct (Z.eq_dec x 0) as [->|N0]; [apply Z.testbit_0_l|].
  unfold w32, M32 in R. apply Z.bits_above_log2; [lia|]. enough (Z.log2 x < 32) by lia. apply Z.log2_lt_pow2; [lia|]. change (2 ^ 32) with 4294967296. lia.
Qed.
Lemma bitwise_eq x f : (forall i, 32 <= i -> Z.testbit x i = false) -> (forall i, 0 <= i < 32 -> Z.testbit x i = f i) -> x = bitwise f.
Proof.
  intros Hh Hl. apply Z.bits_inj'. intros i Hi. unfold bitwise. rewrite of_bits_testbit by exact Hi.
  change (Z.of_nat 32) with 32. destruct (i <? 32) eqn:E; [apply Hl; lia|apply Hh; lia].
Qed.
Lemma u32_bit x i : 0 <= i -> Z.testbit (u32 x) i = (i <? 32) && Z.testbit x i.
Proof.
  intros Hi. unfold u32, wrap_u. destruct (i <? 32) eqn:E; [apply Z.mod_pow2_bits_low; lia|apply Z.mod_pow2_bits_high; lia].
Qed.
Lemma u32_mod x : u32 x = x mod M32.
Proof. reflexivity. Qed.
Lemma u32_w32 x : w32 (u32 x).
Proof. rewrite u32_mod. apply Z.mod_pos_bound. reflexivity. Qed.
Lemma mod_w32 x : w32 (x mod M32).
Proof. apply Z.mod_pos_bound. reflexivity. Qed.

Ltac bits_in :=
  repeat first
    [ rewrite Z.lxor_spec | rewrite Z.land_spec | rewrite Z.lor_spec ];
  unfold NOT; repeat first [ rewrite u32_bit by lia | rewrite Z.lnot_spec by lia | rewrite Z.shiftr_spec by lia ].

Lemma ROTR_eq x n : w32 x -> 0 < n < 32 -> ROTR x n = rotate_right n x.
Proof.
  intros R Hn. unfold ROTR, rotate_right. apply bitwise_eq; intros i Hi.
  - bits_in. rewrite (w32_high x (i + n)) by (assumption || lia). replace (i <? 32) with false by (symmetry; apply Z.ltb_ge; lia). reflexivity.
  - bits_in. rewrite Z.shiftl_spec by lia. replace (i <? 32) with true by (symmetry; apply Z.ltb_lt; lia). cbn [andb].
    destruct (i + n <? 32) eqn:E.
    + rewrite (Z.testbit_neg_r x (i - (32 - n))) by lia. rewrite orb_false_r. rewrite Z.mod_small by lia. reflexivity.
    + rewrite (w32_high x (i + n)) by (assumption || lia). cbn [orb]. f_equal.
      replace (i + n) with (i - (32 - n) + 1 * 32) by lia. rewrite Z.mod_add by lia. rewrite Z.mod_small by lia. reflexivity.
Qed.
Lemma ROTL_eq x n : w32 x -> 0 < n < 32 -> ROTL x n = rotate_left n x.
Proof.
  intros R Hn. unfold ROTL, rotate_left. apply bitwise_eq; intros i Hi.
  - bits_in. rewrite (w32_high x (i + (32 - n))) by (assumption || lia). replace (i <? 32) with false by (symmetry; apply Z.ltb_ge; lia). reflexivity.
  - bits_in. rewrite Z.shiftl_spec by lia. replace (i <? 32) with true by (symmetry; apply Z.ltb_lt; lia). cbn [andb].
    destruct (i <? n) eqn:E.
    + rewrite (Z.testbit_neg_r x (i - n)) by lia. cbn [orb]. f_equal.
      replace (i - n) with (i + (32 - n) + (-1) * 32) by lia. rewrite Z.mod_add by lia. rewrite Z.mod_small by lia. reflexivity.
    + rewrite (w32_high x (i + (32 - n))) by (assumption || lia). rewrite orb_false_r. rewrite Z.mod_small by lia. reflexivity.
Qed.
Lemma shiftr_eq x n : w32 x -> 0 < n < 32 -> Z.shiftr x n = shift_right n x.
Proof.
  intros R Hn. unfold shift_right. apply bitwise_eq; intros i Hi; rewrite Z.shiftr_spec by lia; [apply w32_high; [exact R|lia]|].
  destruct (i + n <? 32) eqn:E; [reflexivity|apply w32_high; [exact R|lia]].
Qed.
Lemma xor3_eq x y z : w32 x -> w32 y -> w32 z -> Z.lxor (Z.lxor x y) z = xor3 x y z.
Proof.
  intros X Y Z0. apply bitwise_eq; intros i Hi; rewrite !Z.lxor_spec.
  - rewrite !w32_high by assumption. reflexivity.
  - apply xorb_assoc.
Qed.
Lemma CH_eq x y z : w32 x -> w32 y -> w32 z -> CH x y z = choose x y z.
Proof.
  intros X Y Z0. unfold CH. apply bitwise_eq; intros i Hi; bits_in.
  - rewrite !w32_high by assumption. destruct (i <? 32); reflexivity.
  - replace (i <? 32) with true by (symmetry; apply Z.ltb_lt; lia).
    destruct (Z.testbit x i), (Z.testbit y i), (Z.testbit z i); reflexivity.
Qed.
Lemma MAJ_eq x y z : w32 x -> w32 y -> w32 z -> MAJ x y z = majority x y z.
Proof.
  intros X Y Z0. unfold MAJ. apply bitwise_eq; intros i Hi; bits_in.
  - rewrite !w32_high by assumption. reflexivity.
  - destruct (Z.testbit x i), (Z.testbit y i), (Z.testbit z i); reflexivity.
Qed.
Lemma F_eq x y z : w32 x -> w32 y -> w32 z -> F x y z = choose x y z.
Proof.
  intros X Y Z0. unfold F. apply bitwise_eq; intros i Hi; bits_in.
  - rewrite !w32_high by assumption. destruct (i <? 32); reflexivity.
  - replace (i <? 32) with true by (symmetry; apply Z.ltb_lt; lia).
    destruct (Z.testbit x i), (Z.testbit y i), (Z.testbit z i); reflexivity.
Qed.
Lemma G_eq x y z : w32 x -> w32 y -> w32 z -> G x y z = choose z x y.
Proof.
  intros X Y Z0. unfold G. apply bitwise_eq; intros i Hi; bits_in.
  - rewrite !w32_high by assumption. reflexivity.
  - replace (i <? 32) with true by (symmetry; apply Z.ltb_lt; lia).
    destruct (Z.testbit x i), (Z.testbit y i), (Z.testbit z i); reflexivity.
Qed.
Lemma I_eq x y z : w32 x -> w32 y -> w32 z -> I x y z = bitwise (fun b => xorb (Z.testbit y b) (Z.testbit x b || negb (Z.testbit z b))).
Proof.
  intros X Y Z0. unfold I. apply bitwise_eq; intros i Hi; bits_in.
  - rewrite !w32_high by assumption. replace (i <? 32) with false by (symmetry; apply Z.ltb_ge; lia). reflexivity.
  - replace (i <? 32) with true by (symmetry; apply Z.ltb_lt; lia). reflexivity.
Qed.
Lemma EP0_eq x : w32 x -> EP0 x = Sigma0 x.
Proof. intros R. unfold EP0, Sigma0. rewrite !ROTR_eq by (assumption || lia). apply xor3_eq; apply bitwise_w32. Qed.
Lemma EP1_eq x : w32 x -> EP1 x = Sigma1 x.
Proof. intros R. unfold EP1, Sigma1. rewrite !ROTR_eq by (assumption || lia). apply xor3_eq; apply bitwise_w32. Qed.
Lemma SIG0_eq x : w32 x -> SIG0 x = sigma0 x.
Proof. intros R. unfold SIG0, sigma0. rewrite !ROTR_eq, shiftr_eq by (assumption || lia). apply xor3_eq; apply bitwise_w32. Qed.
Lemma SIG1_eq x : w32 x -> SIG1 x = sigma1 x.
Proof. intros R. unfold SIG1, sigma1. rewrite !ROTR_eq, shiftr_eq by (assumption || lia). apply xor3_eq; apply bitwise_w32. Qed.

(** * Sines *)
Open Scope Q_scope.
Definition qk (k : nat) : Z := ((2 * Z.of_nat k + 2) * (2 * Z.of_nat k + 3))%Z.
(** The sum over its first term *)
Fixpoint ratio (x : Z) (n k : nat) : Q := match n with O => 0 | S n => 1 - inject_Z (x * x) / inject_Z (qk k) * ratio x n (S k) end.
Lemma qk_pos k : (0 < qk k)%Z.
Proof. unfold qk. lia. Qed.
Lemma inj_pos z : (0 < z)%Z -> 0 < inject_Z z.
Proof. intros P. change 0 with (inject_Z 0). rewrite <- Zlt_Qlt. exact P. Qed.
Lemma sum_ratio x n k : sine_sum x n k == sine_term x k * ratio x n k.
Proof.
  revert k. induction n as [|n IH]; intros k; cbn [sine_sum ratio]; [ring|].
  rewrite (IH (S k)). cbn [sine_term]. change ((2 * Z.of_nat k + 2) * (2 * Z.of_nat k + 3))%Z with (qk k).
  pose proof (inj_pos _ (qk_pos k)) as P. field. intros E. rewrite E in P. apply (Qlt_irrefl _ P).
Qed.
Lemma coeff_le x k : (x * x <= qk k)%Z -> 0 <= inject_Z (x * x) / inject_Z (qk k) /\ inject_Z (x * x) / inject_Z (qk k) <= 1.
Proof.
  intros Hk. pose proof (inj_pos _ (qk_pos k)) as P. split.
  - apply Qle_shift_div_l; [exact P|]. rewrite Qmult_0_l. change 0 with (inject_Z 0). rewrite <- Zle_Qle. apply Z.square_nonneg.
  - apply Qle_shift_div_r; [exact P|]. rewrite Qmult_1_l. rewrite <- Zle_Qle. exact Hk.
Qed.
Lemma ratio_unit x n k : (x * x <= qk k)%Z -> 0 <= ratio x n k /\ ratio x n k <= 1.
Proof.
  revert k. induction n as [|n IH]; intros k Hk; cbn [ratio]; [split; lra|].
  assert (Hk1 : (x * x <= qk (S k))%Z) by (unfold qk in *; lia).
  destruct (IH (S k) Hk1) as [A B]. destruct (coeff_le x k Hk) as [C D].
  set (r := ratio x n (S k)) in *. set (c := inject_Z (x * x) / inject_Z (qk k)) in *. split; [|pose proof (Qmult_le_0_compat c r C A); lra].
  assert (c * r <= 1 * 1). { apply Qle_trans with (1 * r); [apply Qmult_le_compat_r; assumption|lra]. } lra.
Qed.
(** An enclosure over a common denominator *)
Fixpoint enclose (x : Z) (j k : nat) : Z * Z * Z :=
  match j with
  | O => (0, 1, 1)%Z
  | S j => let '(lo, hi, d) := enclose x j (S k) in (qk k * d - x * x * hi, qk k * d - x * x * lo, qk k * d)%Z
  end.
Lemma enclosed x j k n : (x * x <= qk (k + j))%Z ->
  let '(lo, hi, d) := enclose x j k in (0 < d)%Z /\ inject_Z lo <= ratio x (j + n) k * inject_Z d /\ ratio x (j + n) k * inject_Z d <= inject_Z hi.
Proof.
  revert k. induction j as [|j IH]; intros k Hk; cbn [enclose plus].
  - rewrite Nat.add_0_r in Hk. destruct (ratio_unit x n k Hk) as [A B]. split; [lia|]. change (inject_Z 1) with 1. change (inject_Z 0) with 0. split; lra.
  - specialize (IH (S k)). replace (k + S j)%nat with (S k + j)%nat in Hk by lia. specialize (IH Hk).
    destruct (enclose x j (S k)) as [[lo hi] d]. destruct IH as [Pd [A B]]. pose proof (qk_pos k) as Pq.
    split; [apply Z.mul_pos_pos; assumption|]. cbn [ratio].
    assert (E : (1 - inject_Z (x * x) / inject_Z (qk k) * ratio x (j + n) (S k)) * inject_Z (qk k * d) == inject_Z (qk k * d) - inject_Z (x * x) * (ratio x (j + n) (S k) * inject_Z d)).
    { rewrite (inject_Z_mult (qk k) d). pose proof (inj_pos _ Pq) as P. field. intros E. rewrite E in P. apply (Qlt_irrefl _ P). }
    rewrite E. unfold Z.sub. rewrite !inject_Z_plus, !inject_Z_opp, (inject_Z_mult (x * x) hi), (inject_Z_mult (x * x) lo).
    assert (X : 0 <= inject_Z (x * x)). { change 0 with (inject_Z 0). rewrite <- Zle_Qle. apply Z.square_nonneg. }
    set (r := ratio x (j + n) (S k) * inject_Z d) in *.
    assert (M1 : inject_Z (x * x) * r <= inject_Z (x * x) * inject_Z hi). { rewrite !(Qmult_comm (inject_Z (x * x))). apply Qmult_le_compat_r; assumption. }
    assert (M2 : inject_Z (x * x) * inject_Z lo <= inject_Z (x * x) * r). { rewrite !(Qmult_comm (inject_Z (x * x))). apply Qmult_le_compat_r; assumption. }
    split; lra.
Qed.
Definition sine_check (x c : Z) (j : nat) : bool :=
  let '(lo, hi, d) := enclose x j 0 in
  ((0 <? x) && (x * x <=? qk j) &&
   ((0 <=? lo) && (c * d <=? M32 * x * lo) && (M32 * x * hi <? (c + 1) * d)
    || (hi <=? 0) && (c * d <=? - (M32 * x * hi)) && (- (M32 * x * lo) <? (c + 1) * d)))%Z.
Lemma sine_checked t c j : sine_check (Z.of_nat t + 1) c j = true -> sine_bits t c.
Proof.
  unfold sine_check, sine_bits. set (x := (Z.of_nat t + 1)%Z). clearbody x. intros H0. exists j. intros m Hm.
  replace m with (j + (m - j))%nat by lia. generalize (m - j)%nat as n. intros n. clear m Hm.
  pose proof (enclosed x j 0 n) as En. destruct (enclose x j 0) as [[lo hi] d].
  apply andb_prop in H0 as [H0 H1]. apply andb_prop in H0 as [Hx Hq]. apply Z.ltb_lt in Hx. apply Z.leb_le in Hq.
  destruct (En Hq) as [Pd [A B]]. clear En Hq.
  rewrite sum_ratio. cbn [sine_term]. set (r := ratio x (j + n) 0) in *. clearbody r.
  pose proof (inj_pos _ Pd) as PD. pose proof (inj_pos _ Hx) as PX. rewrite Qabs_Qmult. rewrite (Qabs_pos (inject_Z x)) by (apply Qlt_le_weak; exact PX).
  assert (PM : 0 < inject_Z M32) by reflexivity.
  set (m := inject_Z M32) in *. 
  assert (PMX : 0 < m * inject_Z x) by (apply Qmult_lt_0_compat; assumption).
  enough (Goal : inject_Z c * inject_Z d <= m * inject_Z x * (Qabs r * inject_Z d) /\ m * inject_Z x * (Qabs r * inject_Z d) < inject_Z (c + 1) * inject_Z d).
  { destruct Goal as [G1 G2]. split.
    - apply (Qmult_le_r _ _ (inject_Z d) PD). eapply Qle_trans; [exact G1|]. apply Qle_lteq. right. ring.
    - apply (Qmult_lt_r _ _ (inject_Z d) PD). eapply Qle_lt_trans; [|exact G2]. apply Qle_lteq. right. ring. }
  assert (Up : forall a b, a <= b -> m * inject_Z x * a <= m * inject_Z x * b).
  { intros a b Hab. rewrite !(Qmult_comm (m * inject_Z x)). apply Qmult_le_compat_r; [exact Hab|apply Qlt_le_weak; exact PMX]. }
  apply orb_prop in H1 as [H1|H1]; apply andb_prop in H1 as [H1 K3]; apply andb_prop in H1 as [K1 K2];
    apply Z.leb_le in K1; apply Z.leb_le in K2; apply Z.ltb_lt in K3; rewrite Zle_Qle in K1, K2; rewrite Zlt_Qlt in K3;
    rewrite ?inject_Z_opp, !inject_Z_mult in K2, K3; fold m in K2, K3; change (inject_Z 0) with 0 in K1.
  - assert (R : 0 <= r). { apply (Qmult_le_r _ _ (inject_Z d) PD). rewrite Qmult_0_l. eapply Qle_trans; eassumption. }
    rewrite Qabs_pos by exact R. split; [eapply Qle_trans; [exact K2|apply Up; exact A]|eapply Qle_lt_trans; [apply Up; exact B|exact K3]].
  - assert (R : r <= 0). { apply (Qmult_le_r _ _ (inject_Z d) PD). rewrite Qmult_0_l. eapply Qle_trans; eassumption. }
    rewrite Qabs_neg by exact R. pose proof (Up _ _ A) as UA. pose proof (Up _ _ B) as UB0.
    assert (E : m * inject_Z x * (- r * inject_Z d) == - (m * inject_Z x * (r * inject_Z d))) by ring. rewrite E. split; lra.
Qed.
Close Scope Q_scope.
Lemma md5_constants t : (t < 64)%nat -> sine_bits t (nth t md5_k 0).
Proof.
  intros Ht. apply (sine_checked t _ (20 + t + t / 2)).
  assert (C : forallb (fun t => sine_check (Z.of_nat t + 1) (nth t md5_k 0) (20 + t + t / 2)) (seq 0 64) = true) by (vm_compute; reflexivity).
  rewrite forallb_forall in C. apply C. apply in_seq. lia.
Qed.
Lemma sine_unique t c c' : sine_bits t c -> sine_bits t c' -> c = c'.
Proof.
  intros [n A] [n' A']. destruct (A (n + n')%nat) as [L U]; [lia|]. destruct (A' (n + n')%nat) as [L' U']; [lia|].
  pose proof (Qle_lt_trans _ _ _ L U') as X. pose proof (Qle_lt_trans _ _ _ L' U) as Y. rewrite <- Zlt_Qlt in X, Y. lia.
Qed.

(** * Primes and roots *)
Definition prime_check (p : Z) : bool := (1 <? p) && forallb (fun d => negb (p mod (Z.of_nat d) =? 0)) (seq 2 (Z.to_nat p - 2)).
Lemma prime_checked p : prime_check p = true <-> is_prime p.
Proof.
  unfold prime_check, is_prime. rewrite andb_true_iff, forallb_forall, Z.ltb_lt. split.
  - intros [P C]. split; [exact P|]. intros d Hd E. specialize (C (Z.to_nat d)). rewrite Z2Nat.id in C by lia.
    rewrite E in C. assert (X : negb (0 =? 0) = true) by (apply C; apply in_seq; lia). discriminate X.
  - intros [P C]. split; [exact P|]. intros d Hd. apply in_seq in Hd. specialize (C (Z.of_nat d)).
    destruct (Z.eqb_spec (p mod Z.of_nat d) 0) as [E|E]; [exfalso; apply C; [lia|exact E]|reflexivity].
Qed.
Lemma nth_prime_unique t p p' : nth_prime t p -> nth_prime t p' -> p = p'.
Proof.
  assert (half : forall p p', nth_prime t p -> nth_prime t p' -> ~ p < p').
  { clear p p'. intros p p' [P [b [L [N B]]]] [P' [b' [L' [N' B']]]] Hlt.
    assert (NoDup (p :: b)) as N1. { constructor; [|exact N]. intros X. apply B in X. lia. }
    assert (incl (p :: b) b') as I1. { intros q [<-|X]; apply B'; [split; [exact P|exact Hlt]|]. apply B in X. destruct X. split; [assumption|lia]. }
    pose proof (NoDup_incl_length N1 I1) as C. cbn [length] in C. lia. }
  intros A A'. destruct (Z.lt_trichotomy p p') as [X|[X|X]]; [exfalso; exact (half _ _ A A' X)|exact X|exfalso; exact (half _ _ A' A X)].
Qed.
Lemma prime_two : nth_prime 0 2.
Proof.
  split; [apply prime_checked; reflexivity|]. exists []. split; [reflexivity|]. split; [constructor|].
  intros q. split; [intros []|]. intros [[Q0 _] Hq]. lia.
Qed.
(** [gap] numbers that are not prime, then [p] *)
Lemma next_prime t p gap : nth_prime t p -> forallb (fun d => negb (prime_check (p + Z.of_nat d))) (seq 1 gap) = true ->
  prime_check (p + Z.of_nat gap + 1) = true -> nth_prime (S t) (p + Z.of_nat gap + 1).
Proof.
  intros [P [b [L [N B]]]] G P'. split; [apply prime_checked; exact P'|]. exists (p :: b).
  split; [cbn [length]; congruence|]. split. { constructor; [|exact N]. intros X. apply B in X. lia. }
  intros q. split.
  - intros [<-|X]; [split; [exact P|lia]|]. apply B in X as [Q0 X]. split; [exact Q0|lia].
  - intros [Q0 Hq]. destruct (Z.lt_trichotomy q p) as [X|[X|X]]; [right; apply B; split; assumption|left; symmetry; exact X|].
    exfalso. rewrite forallb_forall in G. specialize (G (Z.to_nat (q - p)) ltac:(apply in_seq; lia)).
    rewrite Z2Nat.id in G by lia. replace (p + (q - p)) with q in G by lia.
    assert (Q1 : prime_check q = true) by (apply prime_checked; exact Q0). rewrite Q1 in G. discriminate G.
Qed.
Definition first_primes : list Z :=
  [2; 3; 5; 7; 11; 13; 17; 19; 23; 29; 31; 37; 41; 43; 47; 53; 59; 61; 67; 71; 73; 79; 83; 89; 97; 101; 103; 107; 109; 113; 127; 131; 137; 139; 149; 151; 157; 163; 167; 173; 179; 181; 191; 193; 197; 199; 211; 223; 227; 229; 233; 239; 241; 251; 257; 263; 269; 271; 277; 281; 283; 293; 307; 311].
Fixpoint prime_rows (p : Z) (l : list Z) : bool :=
  match l with
  | [] => true
  | p' :: l => (p <? p') && forallb (fun d => negb (prime_check (p + Z.of_nat d))) (seq 1 (Z.to_nat (p' - p - 1))) && prime_check p' && prime_rows p' l
  end.
Lemma rows_right l : forall p t0 t, nth_prime t0 p -> prime_rows p l = true -> (t <= length l)%nat -> nth_prime (t0 + t) (nth t (p :: l) 0).
Proof.
  induction l as [|p' l IH]; intros p t0 t Hp R Ht; (destruct t as [|t]; [cbn [nth]; rewrite Nat.add_0_r; exact Hp|]); cbn [length] in Ht; [lia|].
  cbn [prime_rows] in R. apply andb_prop in R as [A R]. apply andb_prop in A as [A C]. apply andb_prop in A as [A B]. apply Z.ltb_lt in A.
  change (nth (S t) (p :: p' :: l) 0) with (nth t (p' :: l) 0). rewrite <- Nat.add_succ_comm. apply IH; [|exact R|lia].
  replace p' with (p + Z.of_nat (Z.to_nat (p' - p - 1)) + 1) by lia. apply next_prime; [exact Hp|exact B|].
  replace (p + Z.of_nat (Z.to_nat (p' - p - 1)) + 1) with p' by lia. exact C.
Qed.
Lemma rows_checked : prime_rows 2 (tl first_primes) = true.
Proof. vm_compute. reflexivity. Qed.
Lemma primes_right t : (t < 64)%nat -> nth_prime t (nth t first_primes 0).
Proof.
  intros Ht. apply (rows_right (tl first_primes) 2 0 t prime_two rows_checked). change (length (tl first_primes)) with 63%nat. lia.
Qed.
(** The root with the given 32 bits after the point; the whole part is below 7 for the cube roots *)
Definition root_check (e p c : Z) : bool :=
  (0 <=? c) && (c <? M32) && existsb (fun whole => let r := whole * M32 + c in (r ^ e <=? p * 2 ^ (32 * e)) && (p * 2 ^ (32 * e) <? (r + 1) ^ e)) [1; 2; 3; 4; 5; 6].
Lemma root_checked e p c : root_check e p c = true -> exists r, 0 <= r /\ r ^ e <= p * 2 ^ (32 * e) < (r + 1) ^ e /\ c = r mod M32.
Proof.
  unfold root_check. rewrite !andb_true_iff, existsb_exists. intros [[A B] [w [Hw C]]]. cbv zeta in C. apply andb_prop in C as [C D].
  exists (w * M32 + c). apply Z.leb_le in A, C. apply Z.ltb_lt in B, D.
  assert (W : 0 <= w) by (cbn in Hw; lia). split; [unfold M32; lia|]. split; [split; assumption|].
  rewrite Z.add_comm, Z.mod_add by (unfold M32; lia). rewrite Z.mod_small by lia. reflexivity.
Qed.
Lemma sha_constants t : (t < 64)%nat -> cube_root_bits t (nth t sha256_k 0).
Proof.
  intros Ht. assert (C : forallb (fun t => root_check 3 (nth t first_primes 0) (nth t sha256_k 0)) (seq 0 64) = true) by (vm_compute; reflexivity).
  rewrite forallb_forall in C. specialize (C t ltac:(apply in_seq; lia)). destruct (root_checked _ _ _ C) as [r [R0 [R1 R2]]].
  exists (nth t first_primes 0), r. split; [apply primes_right; exact Ht|]. split; [exact R0|]. split; [exact R1|exact R2].
Qed.
Lemma sha_initial t : (t < 8)%nat -> square_root_bits t (nth t sha256_h 0).
Proof.
  intros Ht. assert (C : forallb (fun t => root_check 2 (nth t first_primes 0) (nth t sha256_h 0)) (seq 0 8) = true) by (vm_compute; reflexivity).
  rewrite forallb_forall in C. specialize (C t ltac:(apply in_seq; lia)). destruct (root_checked _ _ _ C) as [r [R0 [R1 R2]]].
  exists (nth t first_primes 0), r. split; [apply primes_right; lia|]. split; [exact R0|]. split; [exact R1|exact R2].
Qed.
Lemma root_unique e v r r' : 0 < e -> 0 <= r -> 0 <= r' -> r ^ e <= v < (r + 1) ^ e -> r' ^ e <= v < (r' + 1) ^ e -> r = r'.
Proof.
  intros He R R' [A B] [A' B'].
  assert (X : r < r' + 1) by (apply (Z.pow_lt_mono_l_iff r (r' + 1) e); lia).
  assert (Y : r' < r + 1) by (apply (Z.pow_lt_mono_l_iff r' (r + 1) e); lia). lia.
Qed.
Lemma cube_unique t c c' : cube_root_bits t c -> cube_root_bits t c' -> c = c'.
Proof.
  intros [p [r [P [R [A ->]]]]] [p' [r' [P' [R' [A' ->]]]]]. pose proof (nth_prime_unique _ _ _ P P'). subst p'.
  f_equal. apply (root_unique 3 (p * 2 ^ 96)); lia.
Qed.
Lemma square_unique t c c' : square_root_bits t c -> square_root_bits t c' -> c = c'.
Proof.
  intros [p [r [P [R [A ->]]]]] [p' [r' [P' [R' [A' ->]]]]]. pose proof (nth_prime_unique _ _ _ P P'). subst p'.
  f_equal. apply (root_unique 2 (p * 2 ^ 64)); lia.
Qed.
