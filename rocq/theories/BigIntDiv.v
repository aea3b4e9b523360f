(** Division of 128-bit integers. *)
From Verif Require Import Base BaseFacts BigIntModel BigIntSpec BigIntProofs.
Ltac Zify.zify_post_hook ::= Z.div_mod_to_equations.

(** One step of schoolbook binary division. *)
Lemma longdiv_step A b i r2 : 0 <= A -> 0 < b -> 0 <= i ->
  let hi := A / 2 ^ (i + 1) in
  r2 = 2 * (hi mod b) + A / 2 ^ i mod 2 ->
  0 <= r2 <= A / 2 ^ i /\ r2 < 2 * b /\
  (if b <=? r2 then r2 - b = (A / 2 ^ i) mod b /\ hi / b * 2 ^ (i + 1) + 2 ^ i = A / 2 ^ i / b * 2 ^ i
   else r2 = (A / 2 ^ i) mod b /\ hi / b * 2 ^ (i + 1) = A / 2 ^ i / b * 2 ^ i).
Proof.
  intros HA Hb Hi hi E.
  assert (Hh : hi = A / 2 ^ i / 2).
  { subst hi. rewrite Z.add_1_r, Z.pow_succ_r, (Z.mul_comm 2), <- Z.div_div by lia. reflexivity. }
  set (X := A / 2 ^ i) in *. assert (HX : 0 <= X) by (apply Z.div_pos; lia).
  assert (Hp : 2 ^ (i + 1) = 2 * 2 ^ i) by (rewrite Z.add_1_r, Z.pow_succ_r by lia; reflexivity).
  rewrite Hp. clearbody hi X. subst hi.
  pose proof (Z.div_mod X 2 ltac:(lia)) as DX. pose proof (Z.mod_pos_bound X 2 ltac:(lia)) as BX.
  set (h := X / 2) in *. set (bit := X mod 2) in *. clearbody h bit.
  pose proof (Z.div_mod h b ltac:(lia)) as Dh. pose proof (Z.mod_pos_bound h b Hb) as Bh.
  assert (Hh : 0 <= h) by lia.
  pose proof (Z.div_pos h b Hh Hb) as Qh.
  set (q := h / b) in *. set (r := h mod b) in *. clearbody q r.
  assert (X = b * (2 * q) + r2) by nia.
  split; [nia|]. split; [nia|].
  destruct (b <=? r2) eqn:C.
  - assert (Eq : X / b = 2 * q + 1) by (symmetry; apply (Z.div_unique X b _ (r2 - b)); nia).
    assert (Er : X mod b = r2 - b) by (symmetry; apply (Z.mod_unique X b (2 * q + 1)); nia).
    rewrite Eq, Er. split; [reflexivity|ring].
  - assert (Eq : X / b = 2 * q) by (symmetry; apply (Z.div_unique X b _ r2); nia).
    assert (Er : X mod b = r2) by (symmetry; apply (Z.mod_unique X b (2 * q)); nia).
    rewrite Eq, Er. split; [reflexivity|ring].
Qed.

Lemma land_1 x : Z.land x 1 = x mod 2.
Proof. change 1 with (Z.ones 1). rewrite Z.land_ones by lia. reflexivity. Qed.

Lemma pow_pos k : 0 <= k -> 0 < 2 ^ k.
Proof. intros. apply Z.pow_pos_nonneg; lia. Qed.

Lemma bit128_spec a i : u128_ok a -> 0 <= i < 128 -> bit128 a i = u128_val a / 2 ^ i mod 2.
Proof.
  intros [Hl Hh] Hi. unfold bit128. rewrite !land_1.
  unfold u128_val, words_val. rewrite Z.mul_0_r, Z.add_0_r.
  destruct (64 <=? i) eqn:E.
  - rewrite shr64_div by lia. f_equal.
    replace i with (64 + (i - 64)) at 2 by lia. rewrite Z.pow_add_r, <- Z.div_div by (try apply pow_pos; lia).
    f_equal. rewrite (Z.mul_comm (2 ^ 64)), Z.div_add, Z.div_small by (exact Hl || discriminate). reflexivity.
  - rewrite shr64_div by lia.
    replace (2 ^ 64) with (2 ^ (64 - i) * 2 ^ i) by (rewrite <- Z.pow_add_r by lia; f_equal; lia).
    rewrite <- Z.mul_assoc, (Z.mul_comm (2 ^ i)), Z.mul_assoc, Z.div_add by (pose proof (pow_pos i); lia).
    replace (2 ^ (64 - i)) with (2 * 2 ^ (64 - i - 1)) by (rewrite <- Z.pow_succ_r by lia; f_equal; lia).
    rewrite <- Z.mul_assoc, (Z.mul_comm 2), Z.mod_add by lia. reflexivity.
Qed.

(** Setting a bit of a number whose lower part is clear. *)
Lemma lor_bit x k : 0 <= k -> 0 <= x -> x mod 2 ^ (k + 1) = 0 -> Z.lor x (2 ^ k) = x + 2 ^ k.
Proof.
  intros Hk Hx H. pose proof (pow_pos k Hk).
  assert (E : x = Z.shiftl (x / 2 ^ (k + 1)) (k + 1)).
  { rewrite Z.shiftl_mul_pow2 by lia. pose proof (pow_pos (k + 1)).
    pose proof (Z.div_mod x (2 ^ (k + 1)) ltac:(lia)). nia. }
  rewrite E at 1. rewrite lor_shift.
  - rewrite E at 2. rewrite Z.shiftl_mul_pow2 by lia. reflexivity.
  - lia.
  - split; [lia|apply Z.pow_lt_mono_r; lia].
Qed.

Lemma shl64_bit k : 0 <= k < 64 -> shl64 1 k = 2 ^ k.
Proof.
  intros Hk. unfold shl64, M64. rewrite Z.shiftl_1_l, Z.mod_small; [reflexivity|].
  pose proof (pow_pos k). change 18446744073709551616 with (2 ^ 64). split; [lia|apply Z.pow_lt_mono_r; lia].
Qed.

Lemma mod_of_multiple x m d : 0 < m -> 0 < d -> x mod m = 0 -> m mod d = 0 -> x mod d = 0.
Proof.
  intros Hm Hd H1 H2. apply Z.mod_divide; [lia|]. apply Z.mod_divide in H1; [|lia]. apply Z.mod_divide in H2; [|lia].
  eapply Z.divide_trans; eassumption.
Qed.
Lemma pow_mod_pow i j : 0 <= i <= j -> 2 ^ j mod 2 ^ i = 0.
Proof.
  intros H. replace (2 ^ j) with (2 ^ (j - i) * 2 ^ i) by (rewrite <- Z.pow_add_r by lia; f_equal; lia).
  apply Z.mod_mul. pose proof (pow_pos i). lia.
Qed.

Lemma setbit128_spec q i : u128_ok q -> 0 <= i < 128 -> u128_val q mod 2 ^ (i + 1) = 0 ->
  u128_val q + 2 ^ i < 2 ^ 128 ->
  u128_ok (setbit128 q i) /\ u128_val (setbit128 q i) = u128_val q + 2 ^ i.
Proof.
  intros [Hl Hh] Hi Hm Hlt. unfold setbit128, u128_val, words_val in *.
  rewrite Z.mul_0_r, Z.add_0_r in *. destruct (64 <=? i) eqn:E; cbn [ulo uhi].
  - rewrite shl64_bit by lia.
    assert (L0 : ulo q = 0).
    { assert (X : (ulo q + 2 ^ 64 * uhi q) mod 2 ^ 64 = 0).
      { apply (mod_of_multiple _ (2 ^ (i + 1))); [apply pow_pos; lia|reflexivity|exact Hm|apply pow_mod_pow; lia]. }
      rewrite (Z.mul_comm (2 ^ 64)), Z.mod_add, Z.mod_small in X by (exact Hl || discriminate). exact X. }
    rewrite L0, Z.add_0_l in *.
    assert (Hq : uhi q mod 2 ^ (i - 64 + 1) = 0).
    { replace (i + 1) with (64 + (i - 64 + 1)) in Hm by lia. rewrite Z.pow_add_r in Hm by lia.
      rewrite Z.mul_mod_distr_l in Hm by (pose proof (pow_pos (i - 64 + 1)); lia). 
      apply Z.mul_eq_0_r in Hm; [exact Hm|discriminate]. }
    rewrite lor_bit by (unfold is_word in Hh; lia).
    assert (Ei : 2 ^ i = 2 ^ 64 * 2 ^ (i - 64)) by (rewrite <- Z.pow_add_r by lia; f_equal; lia).
    pose proof (pow_pos (i - 64)). unfold u128_ok, is_word in *; cbn [ulo uhi].
    change (2 ^ 128) with (2 ^ 64 * 2 ^ 64) in Hlt.
    split; [|rewrite Ei; ring]. rewrite Ei in Hlt. nia.
  - rewrite shl64_bit by lia.
    assert (Hq : ulo q mod 2 ^ (i + 1) = 0).
    { assert (X : (ulo q + 2 ^ 64 * uhi q) mod 2 ^ (i + 1) = ulo q mod 2 ^ (i + 1)).
      { replace (2 ^ 64) with (2 ^ (64 - (i + 1)) * 2 ^ (i + 1)) by (rewrite <- Z.pow_add_r by lia; f_equal; lia).
        rewrite <- Z.mul_assoc, (Z.mul_comm (2 ^ (i + 1))), Z.mul_assoc. apply Z.mod_add. pose proof (pow_pos (i + 1)); lia. }
      congruence. }
    rewrite lor_bit by (unfold is_word in Hl; lia).
    assert (Hs : ulo q + 2 ^ i < 2 ^ 64).
    { pose proof (pow_pos i). pose proof (pow_pos (i+1)). pose proof (pow_pos (64 - (i + 1))). unfold is_word in Hl.
      pose proof (Z.div_mod (ulo q) (2 ^ (i + 1)) ltac:(lia)) as D. rewrite Hq in D.
      assert (E64 : 2 ^ 64 = 2 ^ (64 - (i + 1)) * 2 ^ (i + 1)) by (rewrite <- Z.pow_add_r by lia; f_equal; lia).
      assert (E1 : 2 ^ (i + 1) = 2 * 2 ^ i) by (rewrite Z.add_1_r, Z.pow_succ_r by lia; reflexivity).
      rewrite E64 in *. set (k := ulo q / 2 ^ (i + 1)) in *. clearbody k.
      assert (k < 2 ^ (64 - (i + 1))) by nia. nia. }
    pose proof (pow_pos i). unfold u128_ok, is_word in *; cbn [ulo uhi]. split; [lia|ring].
Qed.

Lemma shl1_lor x c : is_word x -> 0 <= c < 2 ->
  Z.lor (shl64 x 1) c = (2 * x + c) mod 2 ^ 64 /\ shr64 x 63 = (2 * x + c) / 2 ^ 64.
Proof.
  intros Hx Hc. unfold is_word in Hx. split.
  - unfold shl64, M64. rewrite Z.shiftl_mul_pow2 by lia. change (2 ^ 1) with 2. consts.
    replace (x * 2 mod 18446744073709551616) with (Z.shiftl (x mod 9223372036854775808) 1).
    2:{ rewrite Z.shiftl_mul_pow2 by lia. change (2 ^ 1) with 2. lia. }
    rewrite lor_shift by lia. change (2 ^ 1) with 2. lia.
  - rewrite shr64_div by lia. consts. lia.
Qed.

Lemma div128_step_spec a b i q r :
  u128_ok a -> u128_ok b -> u128_ok q -> u128_ok r -> 0 <= i < 128 -> 0 < u128_val b ->
  u128_val r = (u128_val a / 2 ^ (i + 1)) mod u128_val b ->
  u128_val q = (u128_val a / 2 ^ (i + 1)) / u128_val b * 2 ^ (i + 1) ->
  let '(q', r') := div128_step a b i q r in
  u128_ok q' /\ u128_ok r' /\
  u128_val r' = (u128_val a / 2 ^ i) mod u128_val b /\
  u128_val q' = (u128_val a / 2 ^ i) / u128_val b * 2 ^ i.
Proof.
  intros Ha Hb Hq Hr Hi Hpos Er Eq.
  pose proof (u128_val_range a Ha) as Ra.
  pose proof (bit128_spec a i Ha Hi) as Eb.
  assert (Hbit : 0 <= bit128 a i < 2) by (rewrite Eb; apply Z.mod_pos_bound; lia).
  destruct (longdiv_step (u128_val a) (u128_val b) i (2 * u128_val r + bit128 a i)
     ltac:(lia) ltac:(lia) ltac:(lia) ltac:(rewrite Er, Eb; reflexivity)) as (B1 & B2 & S).
  assert (Hlt : u128_val a / 2 ^ i < 2 ^ 128).
  { pose proof (pow_pos i ltac:(lia)). apply Z.div_lt_upper_bound; [lia|]. nia. }
  unfold div128_step.
  destruct Hr as [Hrl Hrh].
  destruct (shl1_lor (ulo r) (bit128 a i) Hrl Hbit) as [El Ec].
  assert (Hcar : 0 <= shr64 (ulo r) 63 < 2).
  { rewrite Ec. unfold is_word in Hrl. consts. lia. }
  destruct (shl1_lor (uhi r) (shr64 (ulo r) 63) Hrh Hcar) as [Eh _].
  set (rlo := Z.lor (shl64 (ulo r) 1) (bit128 a i)) in *.
  set (rhi := Z.lor (shl64 (uhi r) 1) (shr64 (ulo r) 63)) in *.
  set (bit := bit128 a i) in *.
  assert (Ev : u128_val (U128 rlo rhi) = 2 * u128_val r + bit).
  { unfold u128_val, words_val in *. cbn [ulo uhi]. rewrite El, Eh, Ec. unfold is_word in *. 
    clear S Eq Er Eb El Eh Ec rlo rhi. consts. lia. }
  assert (Hok : u128_ok (U128 rlo rhi)).
  { split; cbn [ulo uhi]; [rewrite El|rewrite Eh]; unfold is_word; apply Z.mod_pos_bound; reflexivity. }
  clearbody rlo rhi bit.
  rewrite <- Ev in *.
  set (A := u128_val a) in *. set (B := u128_val b) in *.
  assert (Ecmp : ((uhi b <? rhi) || ((rhi =? uhi b) && (ulo b <=? rlo))) = (B <=? u128_val (U128 rlo rhi))).
  { subst B. destruct Hok as [Hok1 Hok2], Hb as [Hb1 Hb2]. unfold u128_val, words_val, is_word in *. cbn [ulo uhi] in *. clear - Hok1 Hok2 Hb1 Hb2. consts. lia. }
  rewrite Ecmp. destruct (B <=? u128_val (U128 rlo rhi)) eqn:C.
  - destruct S as [S1 S2].
    assert (Sub : u128_ok (U128 (sub64 rlo (ulo b)) (sub64 rhi (add64 (uhi b) (b2z (rlo <? ulo b))))) /\
       u128_val (U128 (sub64 rlo (ulo b)) (sub64 rhi (add64 (uhi b) (b2z (rlo <? ulo b))))) = u128_val (U128 rlo rhi) - B).
    { subst B. clear - C Hok Hb. destruct Hok as [Hok1 Hok2], Hb as [Hb1 Hb2].
      unfold u128_ok, u128_val, words_val, is_word, sub64, add64, M64, b2z in *. cbn [ulo uhi] in *.
      consts. destruct (rlo <? ulo b) eqn:F; lia. }
    destruct Sub as [Sok Sv].
    assert (SB : u128_ok (setbit128 q i) /\ u128_val (setbit128 q i) = u128_val q + 2 ^ i).
    { apply setbit128_spec; [exact Hq|exact Hi| |].
      - rewrite Eq. apply Z.mod_mul. pose proof (pow_pos (i + 1)). lia.
      - rewrite Eq, S2. pose proof (pow_pos i ltac:(lia)) as Pi.
        assert (A / 2 ^ i / B * 2 ^ i <= A).
        { apply Z.le_trans with (A / 2 ^ i * 2 ^ i).
          - apply Z.mul_le_mono_nonneg_r; [lia|]. apply Z.div_le_upper_bound; [lia|].
            pose proof (Z.div_pos A (2 ^ i)). nia.
          - rewrite Z.mul_comm. apply Z.mul_div_le. lia. }
        lia. }
    destruct SB as [Qok Qv]. repeat split; try apply Qok; try apply Sok.
    + rewrite Sv. exact S1.
    + rewrite Qv, Eq. exact S2.
  - destruct S as [S1 S2]. repeat split; try apply Hq; try apply Hok; [exact S1|congruence].
Qed.

Lemma div128_loop_spec n : forall a b q r, (n <= 128)%nat ->
  u128_ok a -> u128_ok b -> u128_ok q -> u128_ok r -> 0 < u128_val b ->
  u128_val r = (u128_val a / 2 ^ Z.of_nat n) mod u128_val b ->
  u128_val q = (u128_val a / 2 ^ Z.of_nat n) / u128_val b * 2 ^ Z.of_nat n ->
  let '(q', r') := div128_loop n a b q r in
  u128_ok q' /\ u128_ok r' /\ u128_val q' = u128_val a / u128_val b /\ u128_val r' = u128_val a mod u128_val b.
Proof.
  induction n as [|m IH]; intros a b q r Hn Ha Hb Hq Hr Hpos Er Eq.
  - change (2 ^ Z.of_nat 0) with 1 in *. rewrite Z.div_1_r in *. rewrite Z.mul_1_r in Eq.
    unfold div128_loop. auto.
  - cbn [div128_loop]. 
    replace (Z.of_nat (S m)) with (Z.of_nat m + 1) in * by lia.
    pose proof (div128_step_spec a b (Z.of_nat m) q r Ha Hb Hq Hr ltac:(lia) Hpos Er Eq) as S.
    destruct (div128_step a b (Z.of_nat m) q r) as [q' r'].
    destruct S as (Q & R & S1 & S2). apply IH; auto. lia.
Qed.

Lemma u128_zero_ok : u128_ok U128_ZERO.
Proof. split; cbn [ulo uhi U128_ZERO]; unfold is_word; consts; lia. Qed.

Lemma u128_divmod_spec a b : u128_ok a -> u128_ok b -> u128_val b <> 0 ->
  u128_ok (u128_div a b) /\ u128_ok (u128_mod a b) /\
  u128_val (u128_div a b) = u128_val a / u128_val b /\
  u128_val (u128_mod a b) = u128_val a mod u128_val b.
Proof.
  intros Ha Hb Hnz. pose proof (u128_val_range b Hb) as Rb. pose proof (u128_val_range a Ha) as Ra.
  unfold u128_div, u128_mod, u128_divmod.
  destruct ((uhi b =? 0) && (ulo b =? 0)) eqn:E0.
  { exfalso. apply Hnz. apply andb_true_iff in E0 as [X Y]. apply Z.eqb_eq in X, Y. unfold u128_val. rewrite X, Y. reflexivity. }
  destruct ((uhi a =? 0) && (uhi b =? 0)) eqn:E1.
  - apply andb_true_iff in E1 as [X Y]. apply Z.eqb_eq in X, Y. cbn [fst snd].
    assert (Va : u128_val a = ulo a) by (unfold u128_val, words_val; rewrite X; lia).
    assert (Vb : u128_val b = ulo b) by (unfold u128_val, words_val; rewrite Y; lia).
    rewrite Va, Vb in *. destruct Ha as [La _], Hb as [Lb _].
    unfold u128_ok, u128_val, words_val; cbn [ulo uhi].
    assert (P : 0 < ulo b) by (unfold is_word in Lb; lia).
    assert (D : 0 <= ulo a / ulo b <= ulo a).
    { split; [apply Z.div_pos; unfold is_word in La; lia|]. apply Z.div_le_upper_bound; [lia|]. unfold is_word in La; nia. }
    pose proof (Z.mod_pos_bound (ulo a) (ulo b) P) as M.
    unfold is_word in *. repeat split; lia.
  - pose proof (div128_loop_spec 128 a b U128_ZERO U128_ZERO (le_n _) Ha Hb u128_zero_ok u128_zero_ok ltac:(lia)) as L.
    assert (D0 : u128_val a / 2 ^ Z.of_nat 128 = 0) by (apply Z.div_small; exact Ra).
    rewrite D0 in L. change (u128_val U128_ZERO) with 0 in L.
    specialize (L ltac:(rewrite Z.mod_0_l by lia; reflexivity) ltac:(rewrite Z.div_0_l by lia; reflexivity)).
    destruct (div128_loop 128 a b U128_ZERO U128_ZERO) as [q r]. cbn [fst snd].
    destruct L as (Q & R & V1 & V2). auto.
Qed.
