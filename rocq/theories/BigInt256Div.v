(** 256-bit division, signed 256-bit operations, checked 256-bit arithmetic. *)
From Verif Require Import Base BaseFacts BigIntModel BigIntSpec BigIntProofs BigIntDiv BigIntSigned BigInt256.
Ltac Zify.zify_post_hook ::= Z.div_mod_to_equations.

Lemma w256_range a : w256_ok a -> 0 <= u256_val a < 2 ^ 256.
Proof. intros [L F]. pose proof (words_range a F) as R. rewrite L, WB_4 in R. exact R. Qed.
Lemma w256_inj a b : w256_ok a -> w256_ok b -> u256_val a = u256_val b -> a = b.
Proof. intros [La Fa] [Lb Fb] E. apply words_inj; auto. congruence. Qed.
Lemma w256_four a : w256_ok a -> exists x0 x1 x2 x3, a = [x0; x1; x2; x3] /\
  is_word x0 /\ is_word x1 /\ is_word x2 /\ is_word x3.
Proof.
  intros [L F]. destruct a as [|x0 [|x1 [|x2 [|x3 [|]]]]]; try discriminate.
  exists x0, x1, x2, x3. inversion F as [|? ? ? F1]; inversion F1 as [|? ? ? F2]; inversion F2 as [|? ? ? F3]; inversion F3; subst. auto 10.
Qed.
Lemma mod256_unique v x k : 0 <= v < 2 ^ 256 -> v = x + 2 ^ 256 * k -> v = x mod 2 ^ 256.
Proof.
  intros R ->. rewrite <- (Z.mod_small (x + 2 ^ 256 * k) (2 ^ 256)) by exact R.
  rewrite (Z.mul_comm (2 ^ 256)). apply Z.mod_add. discriminate.
Qed.
Lemma mod256_of a x : w256_ok a -> (exists k, words_val a = x + WB 4 * k) -> u256_val a = x mod 2 ^ 256.
Proof. intros O [k E]. rewrite WB_4 in E. apply (mod256_unique _ _ k); [apply w256_range, O|exact E]. Qed.

Lemma w256_add_val a b : w256_ok a -> w256_ok b ->
  w256_ok (w256_add a b) /\ u256_val (w256_add a b) = (u256_val a + u256_val b) mod 2 ^ 256.
Proof.
  intros [La Fa] [Lb Fb]. destruct (add_words_spec a b 0) as (F & L & k & E); try assumption; try lia.
  assert (O : w256_ok (w256_add a b)) by (split; [unfold w256_add; lia|exact F]).
  split; [exact O|]. apply mod256_of; [exact O|]. exists k. unfold w256_add, u256_val. rewrite E, La. ring.
Qed.
Lemma i256_neg_mod a : w256_ok a ->
  w256_ok (i256_neg a) /\ u256_val (i256_neg a) = (- u256_val a) mod 2 ^ 256.
Proof.
  intros [La Fa]. destruct (neg_words_spec a 1) as (F & L & k & E); try assumption; try lia.
  assert (O : w256_ok (i256_neg a)) by (split; [unfold i256_neg; lia|exact F]).
  split; [exact O|]. apply mod256_of; [exact O|]. exists k. unfold i256_neg, u256_val. rewrite E, La. ring.
Qed.
Lemma w256_mul_val a b : w256_ok a -> w256_ok b ->
  w256_ok (w256_mul a b) /\ u256_val (w256_mul a b) = (u256_val a * u256_val b) mod 2 ^ 256.
Proof.
  intros [La Fa] [Lb Fb].
  assert (Z0 : Forall is_word W256_ZERO) by (repeat constructor; unfold is_word; consts; lia).
  destruct (mul_rows_spec a b W256_ZERO) as (F & L & k & E); try assumption; try (cbn [length W256_ZERO]; lia).
  assert (O : w256_ok (w256_mul a b)) by (split; [unfold w256_mul; rewrite L; reflexivity|exact F]).
  split; [exact O|]. apply mod256_of; [exact O|]. exists k. unfold w256_mul, u256_val. rewrite E.
  change (words_val W256_ZERO) with 0. change (length W256_ZERO) with 4%nat. ring.
Qed.

Lemma full_word_spec a k : (k = 1 \/ k = 2)%nat -> w256_ok a ->
  (full_word (u256_val a) (Z.of_nat k) <-> word a k = 2 ^ 64 - 1).
Proof.
  intros Hk [L F]. unfold full_word. rewrite word_spec by exact F.
  replace (2 ^ (64 * Z.of_nat k)) with (WB k) by reflexivity. tauto.
Qed.
Lemma w256_sub_ok a b : w256_ok a -> w256_ok b -> w256_ok (w256_sub a b).
Proof.
  intros Ha Hb. destruct (w256_four a Ha) as (a0 & a1 & a2 & a3 & -> & _). destruct (w256_four b Hb) as (b0 & b1 & b2 & b3 & -> & _).
  unfold w256_sub. cbn [sub_words]. split; [reflexivity|].
  repeat constructor; unfold is_word, sub64, M64; apply Z.mod_pos_bound; reflexivity.
Qed.

(** One word of the subtraction: the computed borrow is right unless the borrow comes
    into an all-ones word, and then it is lost. *)
Lemma sub_cell x y c : is_word x -> is_word y -> 0 <= c <= 1 ->
  exists d c', sub64 (sub64 x y) c = d /\ b2z (x <? add64 y c) = c' /\ is_word d /\ 0 <= c' <= 1 /\
   ((~ (y = 2 ^ 64 - 1 /\ c = 1) /\ d - 2 ^ 64 * c' = x - y - c) \/
    (y = 2 ^ 64 - 1 /\ c = 1 /\ c' = 0 /\ d = x)).
Proof.
  intros Hx Hy Hc. eexists _, _. split; [reflexivity|]. split; [reflexivity|].
  unfold is_word, sub64, add64, M64, b2z in *. consts. dif C; lia.
Qed.
Lemma no_unit W t : 1 < W -> W * t = -1 -> False.
Proof. intros H E. assert (t <= -1 \/ 0 <= t) as [|] by lia; nia. Qed.
Lemma sub_iff_core a0 a1 a2 a3 b0 b1 b2 b3 c1 c2 c3 c4 d0 d1 d2 d3 W :
  let m := W - 1 in
  1 < W ->
  0 <= a0 < W -> 0 <= a1 < W -> 0 <= a2 < W -> 0 <= a3 < W ->
  0 <= b0 < W -> 0 <= b1 < W -> 0 <= b2 < W -> 0 <= b3 < W ->
  0 <= d0 < W -> 0 <= d1 < W -> 0 <= d2 < W -> 0 <= d3 < W ->
  0 <= c1 <= 1 -> 0 <= c2 <= 1 -> 0 <= c3 <= 1 -> 0 <= c4 <= 1 ->
  d0 - W * c1 = a0 - b0 ->
  ((~ (b1 = m /\ c1 = 1) /\ d1 - W * c2 = a1 - b1 - c1) \/ (b1 = m /\ c1 = 1 /\ c2 = 0 /\ d1 = a1)) ->
  ((~ (b2 = m /\ c2 = 1) /\ d2 - W * c3 = a2 - b2 - c2) \/ (b2 = m /\ c2 = 1 /\ c3 = 0 /\ d2 = a2)) ->
  ((~ (b3 = m /\ c3 = 1) /\ d3 - W * c4 = a3 - b3 - c3) \/ (b3 = m /\ c3 = 1 /\ c4 = 0 /\ d3 = a3)) ->
  ((exists k, d0 + W * (d1 + W * (d2 + W * d3)) =
    a0 + W * (a1 + W * (a2 + W * a3)) - (b0 + W * (b1 + W * (b2 + W * b3))) + W * W * W * W * k) <->
   ~ ((b1 = m /\ a0 < b0) \/ (b2 = m /\ a0 + W * a1 < b0 + W * b1))).
Proof.
  intros m HW Ra0 Ra1 Ra2 Ra3 Rb0 Rb1 Rb2 Rb3 Rd0 Rd1 Rd2 Rd3 R1 R2 R3 R4 E0 E1 E2 E3. subst m.
  assert (P1 : a0 < b0 <-> c1 = 1) by nia.
  destruct E1 as [[N1 E1]|(B1 & C1 & C2 & D1)].
  - assert (P2 : a0 + W * a1 < b0 + W * b1 <-> c2 = 1) by nia.
    destruct E2 as [[N2 E2]|(B2 & C2 & C3 & D2)].
    + split; [intros _ [[X Y]|[X Y]]; tauto|intros _].
      destruct E3 as [[N3 E3]|(B3 & C3 & C4 & D3)].
      * exists c4. replace d3 with (a3 - b3 - c3 + W * c4) by lia.
        replace d2 with (a2 - b2 - c2 + W * c3) by lia. replace d1 with (a1 - b1 - c1 + W * c2) by lia.
        replace d0 with (a0 - b0 + W * c1) by lia. ring.
      * exists 1. rewrite D3, B3, C3 in *.
        replace d2 with (a2 - b2 - c2 + W * 1) by lia. replace d1 with (a1 - b1 - c1 + W * c2) by lia.
        replace d0 with (a0 - b0 + W * c1) by lia. ring.
    + split; [|tauto]. intros [k Ek]. exfalso.
      rewrite B2, C2, C3, D2 in *.
      replace d1 with (a1 - b1 - c1 + W * 1) in Ek by lia. replace d0 with (a0 - b0 + W * c1) in Ek by lia.
      assert (E' : W * W * W * (d3 - a3 + b3 + 1 - W * k) = 0) by lia.
      assert (Z3 : d3 - a3 + b3 + 1 - W * k = 0) by nia. clear E'.
      destruct E3 as [[N3 E3]|(B3 & C3' & _)]; [|lia].
      assert (X : W * (c4 - k) = - 1) by nia. exact (no_unit W _ HW X).
  - split; [|intros N; exfalso; apply N; left; tauto]. intros [k Ek]. exfalso.
    rewrite B1, C1, C2, D1 in *. replace d0 with (a0 - b0 + W * 1) in Ek by lia.
    destruct E2 as [[N2 E2]|(B2 & C2' & _)]; [|lia].
    replace d2 with (a2 - b2 - 0 + W * c3) in Ek by lia.
    assert (E' : W * W * (W * c3 + 1 + W * (d3 - a3 + b3 - W * k)) = 0) by lia.
    assert (W * c3 + 1 + W * (d3 - a3 + b3 - W * k) = 0) by nia.
    assert (X : W * (c3 + d3 - a3 + b3 - W * k) = -1) by nia. exact (no_unit W _ HW X).
Qed.

(** 256-bit subtraction is right exactly when it does not borrow into a full word. *)
Lemma w256_sub_iff a b : w256_ok a -> w256_ok b ->
  (u256_val (w256_sub a b) = (u256_val a - u256_val b) mod 2 ^ 256 <->
   ~ borrow_into_full (u256_val a) (u256_val b)).
Proof.
  intros Ha Hb. pose proof (w256_sub_ok a b Ha Hb) as Os. pose proof (w256_range _ Os) as Rs.
  assert (K : u256_val (w256_sub a b) = (u256_val a - u256_val b) mod 2 ^ 256 <->
     exists k, u256_val (w256_sub a b) = u256_val a - u256_val b + 2 ^ 256 * k).
  { split.
    - intros E. exists (- ((u256_val a - u256_val b) / 2 ^ 256)). rewrite E at 1. rewrite Z.mod_eq by discriminate. ring.
    - intros [k E]. apply (mod256_unique _ _ k); assumption. }
  rewrite K. clear K.
  unfold borrow_into_full.
  rewrite (full_word_spec b 1 (or_introl eq_refl) Hb : full_word (u256_val b) 1 <-> _).
  rewrite (full_word_spec b 2 (or_intror eq_refl) Hb : full_word (u256_val b) 2 <-> _).
  clear Rs Os.
  destruct (w256_four a Ha) as (a0 & a1 & a2 & a3 & -> & Ra0 & Ra1 & Ra2 & Ra3).
  destruct (w256_four b Hb) as (b0 & b1 & b2 & b3 & -> & Rb0 & Rb1 & Rb2 & Rb3).
  unfold word, w256_sub. cbn [sub_words nth].
  destruct (sub_cell a0 b0 0 Ra0 Rb0 ltac:(lia)) as (d0 & c1 & -> & -> & Rd0 & Rc1 & S0).
  destruct (sub_cell a1 b1 c1 Ra1 Rb1 Rc1) as (d1 & c2 & -> & -> & Rd1 & Rc2 & S1).
  destruct (sub_cell a2 b2 c2 Ra2 Rb2 Rc2) as (d2 & c3 & -> & -> & Rd2 & Rc3 & S2).
  destruct (sub_cell a3 b3 c3 Ra3 Rb3 Rc3) as (d3 & c4 & -> & _ & Rd3 & Rc4 & S3).
  unfold u256_val, words_val. rewrite !Z.mul_0_r, !Z.add_0_r.
  assert (S0' : d0 - 2 ^ 64 * c1 = a0 - b0) by (clear - S0; lia).
  change (2 ^ 256) with (2 ^ 64 * 2 ^ 64 * 2 ^ 64 * 2 ^ 64).
  assert (M1 : forall x y, is_word x -> (x + 2 ^ 64 * y) mod 2 ^ 64 = x).
  { intros x y R. rewrite (Z.mul_comm (2 ^ 64)), Z.mod_add by discriminate. apply Z.mod_small, R. }
  assert (M2 : forall x y z, is_word x -> is_word y -> (x + 2 ^ 64 * (y + 2 ^ 64 * z)) mod 2 ^ 128 = x + 2 ^ 64 * y).
  { intros x y z Rx Ry. replace (x + 2 ^ 64 * (y + 2 ^ 64 * z)) with (x + 2 ^ 64 * y + z * (2 ^ 64 * 2 ^ 64)) by ring.
    change (2 ^ 128) with (2 ^ 64 * 2 ^ 64). rewrite Z.mod_add by discriminate. apply Z.mod_small. unfold is_word in *. nia. }
  rewrite !M1, !M2 by assumption.
  exact (sub_iff_core a0 a1 a2 a3 b0 b1 b2 b3 c1 c2 c3 c4 d0 d1 d2 d3 (2 ^ 64) eq_refl Ra0 Ra1 Ra2 Ra3 Rb0 Rb1 Rb2 Rb3
    Rd0 Rd1 Rd2 Rd3 Rc1 Rc2 Rc3 Rc4 S0' S1 S2 S3).
Qed.

Lemma w256_sub_val a b : w256_ok a -> w256_ok b -> ~ inner_word_full (u256_val b) ->
  u256_val (w256_sub a b) = (u256_val a - u256_val b) mod 2 ^ 256.
Proof.
  intros Ha Hb N. apply w256_sub_iff; [assumption..|]. intros [[X _]|[X _]]; apply N; [left|right]; exact X.
Qed.

Lemma w256_zero_ok : w256_ok W256_ZERO.
Proof. split; [reflexivity|]. repeat constructor; unfold is_word; consts; lia. Qed.
Lemma zero_words_val a : Forall is_word a -> zero256 a = (words_val a =? 0).
Proof.
  unfold zero256. induction a as [|x a IH]; intros H; [reflexivity|]. inversion H as [|? ? Hx Ha]; subst.
  cbn [forallb words_val]. rewrite IH by exact Ha. pose proof (words_range a Ha). unfold is_word in Hx. consts. lia.
Qed.
Lemma zero256_val a : w256_ok a -> zero256 a = (u256_val a =? 0).
Proof. intros [_ F]. apply zero_words_val, F. Qed.

Lemma div256_step_spec a b i q r :
  w256_ok a -> w256_ok b -> w256_ok q -> w256_ok r -> 0 <= i < 256 -> 0 < u256_val b ->
  ~ inner_word_full (u256_val b) ->
  u256_val r = (u256_val a / 2 ^ (i + 1)) mod u256_val b ->
  u256_val q = (u256_val a / 2 ^ (i + 1)) / u256_val b * 2 ^ (i + 1) ->
  let '(q', r') := div256_step a b i q r in
  w256_ok q' /\ w256_ok r' /\
  u256_val r' = (u256_val a / 2 ^ i) mod u256_val b /\
  u256_val q' = (u256_val a / 2 ^ i) / u256_val b * 2 ^ i.
Proof.
  intros Ha Hb Hq Hr Hi Hpos Hnf Er Eq.
  pose proof (w256_range a Ha) as Ra.
  pose proof (bit256_spec a i (proj2 Ha) ltac:(lia)) as Eb. fold (u256_val a) in Eb.
  assert (Hbit : 0 <= bit256 a i < 2) by (rewrite Eb; apply Z.mod_pos_bound; lia).
  destruct (longdiv_step (u256_val a) (u256_val b) i (2 * u256_val r + bit256 a i)
     ltac:(lia) ltac:(lia) ltac:(lia) ltac:(rewrite Er, Eb; reflexivity)) as (B1 & B2 & S).
  assert (Hlt : u256_val a / 2 ^ i < 2 ^ 256).
  { pose proof (pow_pos i ltac:(lia)). apply Z.div_lt_upper_bound; [lia|]. nia. }
  unfold div256_step.
  destruct (shl1_words_spec r (bit256 a i) (proj2 Hr) Hbit) as (F1 & L1 & k1 & E1).
  set (r1 := shl1_words (bit256 a i) r) in *. clearbody r1.
  assert (Ok1 : w256_ok r1) by (split; [rewrite L1; apply Hr|exact F1]).
  assert (Ev : u256_val r1 = 2 * u256_val r + bit256 a i).
  { rewrite (proj1 Hr), WB_4 in E1. pose proof (w256_range r1 Ok1) as R1. 
    transitivity ((2 * u256_val r + bit256 a i) mod 2 ^ 256); [apply (mod256_unique _ _ k1); [exact R1|exact E1]|].
    apply Z.mod_small. lia. }
  rewrite <- Ev in *.
  rewrite ge_words_spec; [|rewrite (proj1 Ok1), (proj1 Hb); reflexivity|destruct Ok1 as [X _]; intros ->; discriminate|apply Ok1|apply Hb].
  fold (u256_val b). fold (u256_val r1).
  destruct (u256_val b <=? u256_val r1) eqn:C.
  - destruct S as [S1 S2].
    change (sub_words 0 r1 b) with (w256_sub r1 b).
    pose proof (w256_sub_ok r1 b Ok1 Hb) as Sok. pose proof (w256_sub_val r1 b Ok1 Hb Hnf) as Sv.
    rewrite Z.mod_small in Sv by (pose proof (w256_range r1 Ok1); lia).
    destruct (setbit256_spec q i (proj2 Hq)) as (F2 & L2 & E2).
    { rewrite (proj1 Hq). lia. }
    { fold (u256_val q). rewrite Eq. apply Z.mod_mul. pose proof (pow_pos (i + 1)). lia. }
    split; [split; [rewrite L2; apply Hq|exact F2]|]. split; [exact Sok|].
    split; [rewrite Sv; exact S1|]. unfold u256_val at 1. rewrite E2. fold (u256_val q). rewrite Eq. exact S2.
  - destruct S as [S1 S2]. split; [exact Hq|]. split; [exact Ok1|]. split; [exact S1|congruence].
Qed.
Lemma div256_loop_spec n : forall a b q r, (n <= 256)%nat ->
  w256_ok a -> w256_ok b -> w256_ok q -> w256_ok r -> 0 < u256_val b -> ~ inner_word_full (u256_val b) ->
  u256_val r = (u256_val a / 2 ^ Z.of_nat n) mod u256_val b ->
  u256_val q = (u256_val a / 2 ^ Z.of_nat n) / u256_val b * 2 ^ Z.of_nat n ->
  let '(q', r') := div256_loop n a b q r in
  w256_ok q' /\ w256_ok r' /\ u256_val q' = u256_val a / u256_val b /\ u256_val r' = u256_val a mod u256_val b.
Proof.
  induction n as [|m IH]; intros a b q r Hn Ha Hb Hq Hr Hpos Hnf Er Eq.
  - change (2 ^ Z.of_nat 0) with 1 in *. rewrite Z.div_1_r in *. rewrite Z.mul_1_r in Eq.
    unfold div256_loop. auto.
  - cbn [div256_loop].
    replace (Z.of_nat (S m)) with (Z.of_nat m + 1) in * by lia.
    pose proof (div256_step_spec a b (Z.of_nat m) q r Ha Hb Hq Hr ltac:(lia) Hpos Hnf Er Eq) as S.
    destruct (div256_step a b (Z.of_nat m) q r) as [q' r'].
    destruct S as (Q & R & S1 & S2). apply IH; auto. lia.
Qed.
Lemma u256_divmod_spec a b : w256_ok a -> w256_ok b -> u256_val b <> 0 -> ~ inner_word_full (u256_val b) ->
  w256_ok (u256_div a b) /\ w256_ok (u256_mod a b) /\
  u256_val (u256_div a b) = u256_val a / u256_val b /\
  u256_val (u256_mod a b) = u256_val a mod u256_val b.
Proof.
  intros Ha Hb Hnz Hnf. pose proof (w256_range b Hb) as Rb. pose proof (w256_range a Ha) as Ra.
  unfold u256_div, u256_mod, u256_divmod. rewrite zero256_val by exact Hb.
  destruct (u256_val b =? 0) eqn:E0; [lia|].
  destruct (zero256 (tl a) && zero256 (tl b)) eqn:E1.
  - apply andb_true_iff in E1 as [X Y]. cbn [fst snd].
    destruct (w256_four a Ha) as (a0 & a1 & a2 & a3 & -> & Ra0 & Ra1 & Ra2 & Ra3).
    destruct (w256_four b Hb) as (b0 & b1 & b2 & b3 & -> & Rb0 & Rb1 & Rb2 & Rb3).
    cbn [tl] in X, Y. rewrite zero_words_val in X, Y by (auto 10 using Forall_cons, Forall_nil).
    apply Z.eqb_eq in X, Y. 
    assert (Va : u256_val [a0; a1; a2; a3] = a0) by (unfold u256_val; change (words_val [a0; a1; a2; a3]) with (a0 + 2 ^ 64 * words_val [a1; a2; a3]); rewrite X; lia).
    assert (Vb : u256_val [b0; b1; b2; b3] = b0) by (unfold u256_val; change (words_val [b0; b1; b2; b3]) with (b0 + 2 ^ 64 * words_val [b1; b2; b3]); rewrite Y; lia).
    rewrite Va, Vb in *. unfold word. cbn [nth].
    assert (P : 0 < b0) by (unfold is_word in Rb0; lia).
    assert (D : 0 <= a0 / b0 <= a0).
    { unfold is_word in Ra0. split; [apply Z.div_pos; lia|]. apply Z.div_le_upper_bound; [lia|]. nia. }
    pose proof (Z.mod_pos_bound a0 b0 P) as M.
    assert (OV : forall v, is_word v -> w256_ok [v; 0; 0; 0] /\ u256_val [v; 0; 0; 0] = v).
    { intros v Hv. split; [split; [reflexivity|repeat apply Forall_cons; try apply Forall_nil; try apply Hv; unfold is_word; consts; lia]|].
      unfold u256_val, words_val. lia. }
    destruct (OV (a0 / b0)) as [O1 V1]; [unfold is_word in *; lia|]. destruct (OV (a0 mod b0)) as [O2 V2]; [unfold is_word in *; lia|].
    auto.
  - pose proof (div256_loop_spec 256 a b W256_ZERO W256_ZERO (le_n _) Ha Hb w256_zero_ok w256_zero_ok ltac:(lia) Hnf) as L.
    assert (D0 : u256_val a / 2 ^ Z.of_nat 256 = 0) by (apply Z.div_small; exact Ra).
    rewrite D0 in L. change (u256_val W256_ZERO) with 0 in L.
    specialize (L ltac:(rewrite Z.mod_0_l by lia; reflexivity) ltac:(rewrite Z.div_0_l by lia; reflexivity)).
    destruct (div256_loop 256 a b W256_ZERO W256_ZERO) as [q r]. cbn [fst snd].
    destruct L as (Q & R & V1 & V2). auto.
Qed.

(** * Signed view *)
Lemma wrap256_unique v x k : - 2 ^ 255 <= v < 2 ^ 255 -> v = x + 2 ^ 256 * k -> v = wrap_i 256 x.
Proof.
  intros R E. unfold wrap_i. change (2 ^ (256 - 1)) with (2 ^ 255).
  assert (P : 2 ^ 256 = 2 * 2 ^ 255) by reflexivity. assert (Q : 0 < 2 ^ 255) by reflexivity.
  rewrite P in *. set (H := 2 ^ 255) in *. clearbody H. clear P.
  destruct (Z_lt_ge_dec v 0) as [N|N].
  - assert (M : x mod (2 * H) = v + 2 * H).
    { symmetry. apply (Z.mod_unique x (2 * H) (- k - 1)); [left; lia|]. rewrite E. ring. }
    rewrite M. destruct (_ <? H) eqn:C; lia.
  - assert (M : x mod (2 * H) = v).
    { symmetry. apply (Z.mod_unique x (2 * H) (- k)); [left; lia|]. rewrite E. ring. }
    rewrite M. destruct (_ <? H) eqn:C; lia.
Qed.
Lemma wrap256_spec x : exists k, wrap_i 256 x = x + 2 ^ 256 * k /\ - 2 ^ 255 <= wrap_i 256 x < 2 ^ 255.
Proof.
  unfold wrap_i. change (2 ^ (256 - 1)) with (2 ^ 255).
  assert (P : 2 ^ 256 = 2 * 2 ^ 255) by reflexivity. assert (Q : 0 < 2 ^ 255) by reflexivity.
  rewrite P. set (H := 2 ^ 255) in *. clearbody H. clear P.
  pose proof (Z.mod_pos_bound x (2 * H) ltac:(lia)) as B. rewrite Z.mod_eq in * by lia.
  destruct (_ <? H) eqn:C; [exists (- (x / (2 * H)))|exists (- (x / (2 * H)) - 1)]; lia.
Qed.
Lemma wrap256_id x : - 2 ^ 255 <= x < 2 ^ 255 -> wrap_i 256 x = x.
Proof. intros R. symmetry. apply (wrap256_unique x x 0); [exact R|ring]. Qed.
Lemma wrap256_mod x : wrap_i 256 (x mod 2 ^ 256) = wrap_i 256 x.
Proof.
  destruct (wrap256_spec (x mod 2 ^ 256)) as (k & E & R). apply (wrap256_unique _ _ (k - x / 2 ^ 256)); [exact R|].
  rewrite E. rewrite Z.mod_eq by discriminate. ring.
Qed.
Lemma wrap256_neg x : wrap_i 256 (- wrap_i 256 x) = wrap_i 256 (- x).
Proof.
  destruct (wrap256_spec x) as (k & E & _). destruct (wrap256_spec (- wrap_i 256 x)) as (k2 & E2 & R).
  apply (wrap256_unique _ _ (k2 - k)); [exact R|]. lia.
Qed.
Lemma i256_val_wrap a : w256_ok a -> i256_val a = wrap_i 256 (u256_val a).
Proof.
  intros O. unfold i256_val, signed_of, wrap_i. rewrite Z.mod_small by (apply w256_range, O). reflexivity.
Qed.
Lemma i256_val_range a : w256_ok a -> - 2 ^ 255 <= i256_val a < 2 ^ 255.
Proof. intros O. rewrite i256_val_wrap by exact O. destruct (wrap256_spec (u256_val a)) as (k & _ & R). exact R. Qed.
Lemma i256_val_cong a : w256_ok a -> exists k, i256_val a = u256_val a + 2 ^ 256 * k.
Proof. intros O. rewrite i256_val_wrap by exact O. destruct (wrap256_spec (u256_val a)) as (k & E & _). eauto. Qed.
Lemma i256_val_of a x : w256_ok a -> u256_val a = x mod 2 ^ 256 -> i256_val a = wrap_i 256 x.
Proof. intros O E. rewrite i256_val_wrap, E by exact O. apply wrap256_mod. Qed.

Lemma mod_cong_256 x y k : y = x + 2 ^ 256 * k -> x mod 2 ^ 256 = y mod 2 ^ 256.
Proof. intros ->. rewrite (Z.mul_comm (2 ^ 256)), Z.mod_add by discriminate. reflexivity. Qed.
Lemma i256_add_val a b : w256_ok a -> w256_ok b -> i256_val (w256_add a b) = wrap_i 256 (i256_val a + i256_val b).
Proof.
  intros Ha Hb. destruct (w256_add_val a b Ha Hb) as [O V]. apply i256_val_of; [exact O|]. rewrite V.
  destruct (i256_val_cong a Ha) as [k1 ->], (i256_val_cong b Hb) as [k2 ->]. apply (mod_cong_256 _ _ (k1 + k2)). ring.
Qed.
Lemma i256_sub_val a b : w256_ok a -> w256_ok b ->
  (i256_val (w256_sub a b) = wrap_i 256 (i256_val a - i256_val b) <-> ~ borrow_into_full (u256_val a) (u256_val b)).
Proof.
  intros Ha Hb. rewrite <- w256_sub_iff by assumption. pose proof (w256_sub_ok a b Ha Hb) as O.
  assert (C : (u256_val a - u256_val b) mod 2 ^ 256 = (i256_val a - i256_val b) mod 2 ^ 256).
  { destruct (i256_val_cong a Ha) as [k1 ->], (i256_val_cong b Hb) as [k2 ->]. apply (mod_cong_256 _ _ (k1 - k2)). ring. }
  rewrite C. split; [|apply i256_val_of, O].
  intros E. destruct (i256_val_cong _ O) as [k K]. destruct (wrap256_spec (i256_val a - i256_val b)) as (k2 & K2 & _).
  apply (mod256_unique _ _ (k2 - k)); [apply w256_range, O|]. lia.
Qed.
Lemma i256_mul_val a b : w256_ok a -> w256_ok b -> i256_val (w256_mul a b) = wrap_i 256 (i256_val a * i256_val b).
Proof.
  intros Ha Hb. destruct (w256_mul_val a b Ha Hb) as [O V]. apply i256_val_of; [exact O|]. rewrite V.
  destruct (i256_val_cong a Ha) as [k1 ->], (i256_val_cong b Hb) as [k2 ->].
  apply (mod_cong_256 _ _ (k1 * u256_val b + u256_val a * k2 + 2 ^ 256 * k1 * k2)). ring.
Qed.
Lemma i256_neg_val a : w256_ok a -> i256_val (i256_neg a) = wrap_i 256 (- i256_val a).
Proof.
  intros Ha. destruct (i256_neg_mod a Ha) as [O V]. apply i256_val_of; [exact O|]. rewrite V.
  destruct (i256_val_cong a Ha) as [k1 ->]. apply (mod_cong_256 _ _ (- k1)). ring.
Qed.

Lemma neg_core a0 a1 a2 a3 W h : 0 < W -> 0 < h -> 0 <= a0 < W -> 0 <= a1 < W -> 0 <= a2 < W -> 0 <= a3 < 2 * h ->
  let v := a0 + W * (a1 + W * (a2 + W * a3)) in let H := W * (W * (W * h)) in
  ((if v <? H then v else v - 2 * H) <? 0) = negb (a3 <? h).
Proof.
  intros HW Hh R0 R1 R2 R3 v H.
  assert (B1 : 0 <= a0 + W * (a1 + W * a2) < W * (W * W)) by nia.
  assert (Ev : v = a0 + W * (a1 + W * a2) + W * (W * W) * a3) by (subst v; ring).
  assert (EH : H = W * (W * W) * h) by (subst H; ring). rewrite Ev, EH. clear Ev EH. clearbody v H.
  set (L := a0 + W * (a1 + W * a2)) in *. set (T := W * (W * W)) in *. clearbody L T. clear R0 R1 R2 HW.
  assert (PT : 0 < T) by lia.
  destruct (a3 <? h) eqn:C; cbn [negb].
  - assert (T * (a3 + 1) <= T * h) by (apply Z.mul_le_mono_nonneg_l; lia).
    assert (0 <= T * a3) by (apply Z.mul_nonneg_nonneg; lia).
    rewrite (proj2 (Z.ltb_lt (L + T * a3) (T * h))) by lia. apply Z.ltb_ge. lia.
  - assert (T * h <= T * a3) by (apply Z.mul_le_mono_nonneg_l; lia).
    assert (T * (a3 + 1) <= T * (2 * h)) by (apply Z.mul_le_mono_nonneg_l; lia).
    rewrite (proj2 (Z.ltb_ge (L + T * a3) (T * h))) by lia. apply Z.ltb_lt. lia.
Qed.
Lemma i256_is_neg_val a : w256_ok a -> i256_is_neg a = (i256_val a <? 0).
Proof.
  intros Ha. unfold i256_is_neg, i256_val, signed_of.
  destruct (w256_four a Ha) as (a0 & a1 & a2 & a3 & -> & R0 & R1 & R2 & R3).
  unfold word. cbn [nth]. change (2 ^ (256 - 1)) with (2 ^ 64 * (2 ^ 64 * (2 ^ 64 * 2 ^ 63))).
  change (2 ^ 256) with (2 * (2 ^ 64 * (2 ^ 64 * (2 ^ 64 * 2 ^ 63)))).
  assert (E : to_i64 a3 <? 0 = negb (a3 <? 2 ^ 63)).
  { rewrite to_i64_spec. unfold is_word in R3. consts. dif C; lia. }
  rewrite E. unfold words_val. rewrite Z.mul_0_r, Z.add_0_r. clear E.
  symmetry. refine (neg_core a0 a1 a2 a3 (2 ^ 64) (2 ^ 63) eq_refl eq_refl R0 R1 R2 _).
  unfold is_word in R3. consts. lia.
Qed.
Lemma i256_mag_val a : w256_ok a -> w256_ok (i256_mag a) /\ u256_val (i256_mag a) = Z.abs (i256_val a).
Proof.
  intros Ha. unfold i256_mag. rewrite i256_is_neg_val by exact Ha. pose proof (i256_val_range a Ha) as R.
  destruct (i256_val_cong a Ha) as [k K]. pose proof (w256_range a Ha) as Ru.
  destruct (i256_val a <? 0) eqn:C.
  - destruct (i256_neg_mod a Ha) as [O V]. split; [exact O|]. rewrite V.
    rewrite (mod_cong_256 _ (- i256_val a) (- k)) by lia. rewrite Z.mod_small by (change (2 ^ 256) with (2 * 2 ^ 255); lia). lia.
  - split; [exact Ha|]. change (2 ^ 256) with (2 * 2 ^ 255) in *. assert (0 < 2 ^ 255) by reflexivity.
    assert (k = 0) by nia. subst k. lia.
Qed.
Lemma i256_zero_val b : w256_ok b -> zero256 b = (i256_val b =? 0).
Proof.
  intros O. rewrite zero256_val by exact O. destruct (i256_val_cong b O) as [k K]. pose proof (w256_range b O) as R.
  assert (0 < 2 ^ 256) by reflexivity. pose proof (i256_val_range b O) as R2. change (2 ^ 256) with (2 * 2 ^ 255) in *.
  destruct (u256_val b =? 0) eqn:C.
  - assert (k = 0) by nia. lia.
  - destruct (i256_val b =? 0) eqn:D; [|reflexivity]. assert (k = 0) by nia. lia.
Qed.

Lemma i256_div_val a b : w256_ok a -> w256_ok b -> i256_val b <> 0 -> ~ inner_word_full (Z.abs (i256_val b)) ->
  w256_ok (i256_div a b) /\ i256_val (i256_div a b) = wrap_i 256 (Z.quot (i256_val a) (i256_val b)).
Proof.
  intros Ha Hb Hnz Hnf. unfold i256_div. rewrite i256_zero_val by exact Hb.
  destruct (i256_val b =? 0) eqn:E0; [lia|]. cbv zeta.
  destruct (i256_mag_val a Ha) as [Oa Va], (i256_mag_val b Hb) as [Ob Vb]. rewrite <- Vb in Hnf.
  destruct (u256_divmod_spec _ _ Oa Ob ltac:(lia) Hnf) as (Oq & _ & Vq & _).
  rewrite Va, Vb in Vq. rewrite quot_abs, !i256_is_neg_val by assumption.
  set (q := u256_div (i256_mag a) (i256_mag b)) in *. clearbody q.
  destruct (xorb _ _).
  - split; [apply i256_neg_mod, Oq|]. rewrite i256_neg_val by exact Oq. rewrite i256_val_wrap, Vq by exact Oq. apply wrap256_neg.
  - split; [exact Oq|]. rewrite i256_val_wrap, Vq by exact Oq. reflexivity.
Qed.
Lemma i256_mod_val a b : w256_ok a -> w256_ok b -> i256_val b <> 0 -> ~ inner_word_full (Z.abs (i256_val b)) ->
  w256_ok (i256_mod a b) /\ i256_val (i256_mod a b) = Z.rem (i256_val a) (i256_val b).
Proof.
  intros Ha Hb Hnz Hnf. unfold i256_mod. rewrite i256_zero_val by exact Hb.
  destruct (i256_val b =? 0) eqn:E0; [lia|]. cbv zeta.
  destruct (i256_mag_val a Ha) as [Oa Va], (i256_mag_val b Hb) as [Ob Vb]. rewrite <- Vb in Hnf.
  destruct (u256_divmod_spec _ _ Oa Ob ltac:(lia) Hnf) as (_ & Oq & _ & Vq).
  rewrite Va, Vb in Vq. rewrite rem_abs, !i256_is_neg_val by assumption.
  pose proof (i256_val_range b Hb) as Rb.
  pose proof (Z.mod_pos_bound (Z.abs (i256_val a)) (Z.abs (i256_val b)) ltac:(lia)) as M.
  set (r := u256_mod (i256_mag a) (i256_mag b)) in *. clearbody r.
  destruct (i256_val a <? 0).
  - split; [apply i256_neg_mod, Oq|]. rewrite i256_neg_val by exact Oq. rewrite i256_val_wrap, Vq by exact Oq.
    rewrite wrap256_neg. apply wrap256_id. lia.
  - split; [exact Oq|]. rewrite i256_val_wrap, Vq by exact Oq. apply wrap256_id. lia.
Qed.

(** * Comparisons *)
Lemma w256_eq_val a b : w256_ok a -> w256_ok b -> w256_eq a b = (u256_val a =? u256_val b).
Proof.
  intros Ha Hb. destruct (u256_val a =? u256_val b) eqn:E.
  - apply Z.eqb_eq, w256_inj in E; try assumption. subst b. unfold w256_eq. rewrite !Z.eqb_refl. reflexivity.
  - apply Z.eqb_neq in E. destruct (w256_eq a b) eqn:F; [|reflexivity]. exfalso. apply E. f_equal.
    unfold w256_eq in F. rewrite !andb_true_iff, !Z.eqb_eq in F.
    destruct (w256_four a Ha) as (a0 & a1 & a2 & a3 & -> & _), (w256_four b Hb) as (b0 & b1 & b2 & b3 & -> & _).
    unfold word in F. cbn [nth] in F. destruct F as [[[-> ->] ->] ->]. reflexivity.
Qed.
Lemma w256_eq_ival a b : w256_ok a -> w256_ok b -> w256_eq a b = (i256_val a =? i256_val b).
Proof.
  intros Ha Hb. rewrite w256_eq_val by assumption.
  destruct (i256_val_cong a Ha) as [k1 K1], (i256_val_cong b Hb) as [k2 K2].
  pose proof (w256_range a Ha). pose proof (w256_range b Hb).
  pose proof (i256_val_range a Ha) as R1. pose proof (i256_val_range b Hb) as R2. change (2 ^ 256) with (2 * 2 ^ 255) in *.
  assert (0 < 2 ^ 255) by reflexivity. set (h := 2 ^ 255) in *. clearbody h.
  destruct (u256_val a =? u256_val b) eqn:E; symmetry.
  - apply Z.eqb_eq. assert (k1 = k2) by nia. lia.
  - apply Z.eqb_neq. intros C. assert (k1 = k2) by nia. lia.
Qed.
Lemma lex_step L1 L2 T h1 h2 : 0 <= L1 < T -> 0 <= L2 < T ->
  (L1 + T * h1 <? L2 + T * h2) = if negb (h1 =? h2) then h1 <? h2 else L1 <? L2.
Proof.
  intros R1 R2. destruct (h1 =? h2) eqn:E; cbn [negb].
  - apply Z.eqb_eq in E. subst. lia.
  - assert (h1 + 1 <= h2 \/ h2 + 1 <= h1) as [H|H] by lia.
    + assert (T * (h1 + 1) <= T * h2) by (apply Z.mul_le_mono_nonneg_l; lia). lia.
    + assert (T * (h2 + 1) <= T * h1) by (apply Z.mul_le_mono_nonneg_l; lia). lia.
Qed.
Lemma cmp_chain a0 a1 a2 a3 b0 b1 b2 b3 W x y : 0 < W ->
  0 <= a0 < W -> 0 <= a1 < W -> 0 <= a2 < W ->
  0 <= b0 < W -> 0 <= b1 < W -> 0 <= b2 < W ->
  x = a0 + W * (a1 + W * (a2 + W * a3)) -> y = b0 + W * (b1 + W * (b2 + W * b3)) ->
  (if negb (a3 =? b3) then a3 <? b3 else if negb (a2 =? b2) then a2 <? b2
   else if negb (a1 =? b1) then a1 <? b1 else a0 <? b0) = (x <? y).
Proof.
  intros HW R0 R1 R2 S0 S1 S2 -> ->.
  replace (a0 + W * (a1 + W * (a2 + W * a3))) with (a0 + W * a1 + W * W * a2 + W * W * W * a3) by ring.
  replace (b0 + W * (b1 + W * (b2 + W * b3))) with (b0 + W * b1 + W * W * b2 + W * W * W * b3) by ring.
  assert (A1 : 0 <= a0 + W * a1 < W * W) by nia. assert (B1 : 0 <= b0 + W * b1 < W * W) by nia.
  assert (A2 : 0 <= a0 + W * a1 + W * W * a2 < W * W * W).
  { set (T := W * W) in *. set (L := a0 + W * a1) in *. clearbody T L. nia. }
  assert (B2 : 0 <= b0 + W * b1 + W * W * b2 < W * W * W).
  { set (T := W * W) in *. set (L := b0 + W * b1) in *. clearbody T L. nia. }
  rewrite (lex_step _ _ _ a3 b3 A2 B2), (lex_step _ _ _ a2 b2 A1 B1), (lex_step _ _ _ a1 b1 R0 S0). reflexivity.
Qed.
Lemma u256_lt_val a b : w256_ok a -> w256_ok b -> u256_lt a b = (u256_val a <? u256_val b).
Proof.
  intros Ha Hb.
  destruct (w256_four a Ha) as (a0 & a1 & a2 & a3 & -> & R0 & R1 & R2 & R3), (w256_four b Hb) as (b0 & b1 & b2 & b3 & -> & S0 & S1 & S2 & S3).
  unfold u256_lt, word. cbn [nth].
  apply (cmp_chain a0 a1 a2 a3 b0 b1 b2 b3 (2 ^ 64)); try assumption; try reflexivity; unfold u256_val, words_val; ring.
Qed.
Lemma signed_range a0 a1 a2 a3 W h : 0 < W -> 0 <= a0 < W -> 0 <= a1 < W -> 0 <= a2 < W -> - h <= a3 < h ->
  - (W * W * W * h) <= a0 + W * (a1 + W * (a2 + W * a3)) < W * W * W * h.
Proof.
  intros HW R0 R1 R2 R3.
  assert (B1 : 0 <= a0 + W * (a1 + W * a2) < W * W * W) by nia.
  replace (a0 + W * (a1 + W * (a2 + W * a3))) with (a0 + W * (a1 + W * a2) + W * W * W * a3) by ring.
  set (L := a0 + W * (a1 + W * a2)) in *. set (T := W * W * W) in *. clearbody L T.
  assert (T * (a3 + 1) <= T * h) by (apply Z.mul_le_mono_nonneg_l; lia).
  assert (T * (- h) <= T * a3) by (apply Z.mul_le_mono_nonneg_l; lia). lia.
Qed.
Lemma i256_lt_val a b : w256_ok a -> w256_ok b -> i256_lt a b = (i256_val a <? i256_val b).
Proof.
  intros Ha Hb.
  pose proof (i256_is_neg_val a Ha) as Na. pose proof (i256_is_neg_val b Hb) as Nb.
  assert (V : forall x0 x1 x2 x3, w256_ok [x0; x1; x2; x3] ->
     i256_val [x0; x1; x2; x3] = x0 + 2 ^ 64 * (x1 + 2 ^ 64 * (x2 + 2 ^ 64 * to_i64 x3))).
  { intros x0 x1 x2 x3 O. symmetry. rewrite i256_val_wrap by exact O.
    destruct (w256_four _ O) as (y0 & y1 & y2 & y3 & Ey & R0 & R1 & R2 & R3). injection Ey as <- <- <- <-.
    destruct (to_i64_cong x3) as [k Ek]. pose proof (to_i64_range x3) as R.
    apply (wrap256_unique _ _ k).
    - exact (signed_range x0 x1 x2 (to_i64 x3) (2 ^ 64) (2 ^ 63) eq_refl R0 R1 R2 R).
    - rewrite Ek. unfold u256_val, words_val. change (2 ^ 256) with (2 ^ 64 * 2 ^ 64 * 2 ^ 64 * 2 ^ 64). ring. }
  destruct (w256_four a Ha) as (a0 & a1 & a2 & a3 & -> & R0 & R1 & R2 & R3), (w256_four b Hb) as (b0 & b1 & b2 & b3 & -> & S0 & S1 & S2 & S3).
  unfold i256_lt, word. cbn [nth].
  apply (cmp_chain a0 a1 a2 (to_i64 a3) b0 b1 b2 (to_i64 b3) (2 ^ 64)); try assumption; try reflexivity; apply V; assumption.
Qed.

(** * Checked operations *)
Lemma wrap_add_detect A B H : 0 < H -> - H <= A < H -> - H <= B < H -> forall r k, r = A + B + 2 * H * k -> - H <= r < H ->
  (negb (A <? 0) && negb (B <? 0) && (r <? 0)) || ((A <? 0) && (B <? 0) && negb (r <? 0)) = negb (k =? 0).
Proof. intros PH RA RB r k -> R. assert (k = -1 \/ k = 0 \/ k = 1) as [->|[->| ->]] by nia; lia. Qed.
Lemma i256_add_checked_spec a b : w256_ok a -> w256_ok b ->
  exact_or_panic256 (i256_add_checked a b) (i256_val a + i256_val b) 27.
Proof.
  intros Ha Hb. unfold i256_add_checked. cbv zeta. destruct (w256_add_val a b Ha Hb) as [O _].
  pose proof (i256_add_val a b Ha Hb) as V. rewrite !i256_is_neg_val by assumption.
  pose proof (i256_val_range a Ha) as RA. pose proof (i256_val_range b Hb) as RB. pose proof (i256_val_range _ O) as RO.
  destruct (wrap256_spec (i256_val a + i256_val b)) as (k & K & _). rewrite <- V in K.
  change (2 ^ 256) with (2 * 2 ^ 255) in K. unfold exact_or_panic256. assert (P : 0 < 2 ^ 255) by reflexivity.
  set (h := 2 ^ 255) in *. clearbody h.
  rewrite (wrap_add_detect _ _ h P RA RB _ k K RO). destruct (k =? 0) eqn:E; cbn [negb].
  - left. assert (k = 0) by lia. subst k. split; [lia|]. eexists. split; [reflexivity|]. split; [exact O|]. lia.
  - right. split; [|reflexivity]. intros C. nia.
Qed.
Lemma i256_sub_checked_spec a b : w256_ok a -> w256_ok b -> ~ borrow_into_full (u256_val a) (u256_val b) ->
  exact_or_panic256 (i256_sub_checked a b) (i256_val a - i256_val b) 28.
Proof.
  intros Ha Hb N. unfold i256_sub_checked. cbv zeta. pose proof (w256_sub_ok a b Ha Hb) as O.
  pose proof (proj2 (i256_sub_val a b Ha Hb) N) as V. rewrite !i256_is_neg_val by assumption.
  pose proof (i256_val_range a Ha) as RA. pose proof (i256_val_range b Hb) as RB. pose proof (i256_val_range _ O) as RO.
  destruct (wrap256_spec (i256_val a - i256_val b)) as (k & K & _). rewrite <- V in K.
  change (2 ^ 256) with (2 * 2 ^ 255) in K. unfold exact_or_panic256. assert (P : 0 < 2 ^ 255) by reflexivity.
  set (h := 2 ^ 255) in *. clearbody h. clear V.
  set (A := i256_val a) in *. set (B := i256_val b) in *. set (r := i256_val (w256_sub a b)) in *.
  assert (D : (negb (A <? 0) && (B <? 0) && (r <? 0)) || ((A <? 0) && negb (B <? 0) && negb (r <? 0)) = negb (k =? 0)).
  { clearbody A B r. assert (k = -1 \/ k = 0 \/ k = 1) as [->|[->| ->]] by nia; lia. }
  rewrite D. destruct (k =? 0) eqn:E; cbn [negb].
  - left. assert (k = 0) by lia. subst k. split; [lia|]. eexists. split; [reflexivity|]. split; [exact O|]. fold r. lia.
  - right. split; [|reflexivity]. intros C. nia.
Qed.
Lemma div_back_signed256 A B : - 2 ^ 255 <= A < 2 ^ 255 -> - 2 ^ 255 <= B < 2 ^ 255 -> A <> 0 -> B <> 0 ->
  ~ (A = - 2 ^ 255 /\ B = -1) ->
  (wrap_i 256 (Z.quot (wrap_i 256 (A * B)) B) = A <-> - 2 ^ 255 <= A * B < 2 ^ 255).
Proof.
  intros RA RB NA NB NM. split.
  - intros H. destruct (wrap256_spec (A * B)) as (k & Ek & Rk). set (R := wrap_i 256 (A * B)) in *. clearbody R.
    assert (NM2 : ~ (R = - 2 ^ 255 /\ B = -1)).
    { intros [-> ->]. apply NM. split; [|reflexivity].
      change (wrap_i 256 (Z.quot (- 2 ^ 255) (-1))) with (- 2 ^ 255) in H. congruence. }
    assert (P : 0 < 2 ^ 255) by reflexivity.
    assert (QR : - 2 ^ 255 <= Z.quot R B < 2 ^ 255).
    { destruct (Z.eq_dec B 1) as [->|N1]; [rewrite Z.quot_1_r; exact Rk|].
      destruct (Z.eq_dec B (-1)) as [->|Nm1].
      - change (-1) with (- (1)). rewrite Z.quot_opp_r, Z.quot_1_r by lia. lia.
      - pose proof (quot_half R B NB N1 Nm1) as Hs.
        assert (Z.abs R / 2 < 2 ^ 255) by (set (h := 2 ^ 255) in *; clearbody h; lia). lia. }
    rewrite wrap256_id in H by exact QR.
    pose proof (Z.quot_rem R B NB) as QRM. pose proof (Z.rem_bound_abs R B NB) as RB2. rewrite H in QRM.
    change (2 ^ 256) with (2 * 2 ^ 255) in *. set (h := 2 ^ 255) in *. clearbody h.
    assert (k = 0).
    { assert (E : 2 * h * k = Z.rem R B) by lia. assert (Z.abs (Z.rem R B) < h) by lia. clear - E H0 P. nia. }
    subst k. lia.
  - intros H. rewrite (wrap256_id (A * B)) by exact H. rewrite Z.quot_mul by exact NB. apply wrap256_id, RA.
Qed.
Lemma i256_mul_checked_spec a b : w256_ok a -> w256_ok b ->
  ~ (i256_val a = - 2 ^ 255 /\ i256_val b = -1) -> ~ inner_word_full (Z.abs (i256_val b)) ->
  exact_or_panic256 (i256_mul_checked a b) (i256_val a * i256_val b) 29.
Proof.
  intros Ha Hb NM NF. unfold i256_mul_checked. cbv zeta. rewrite !i256_zero_val by assumption.
  destruct (w256_mul_val a b Ha Hb) as [O _]. pose proof (i256_mul_val a b Ha Hb) as V.
  pose proof (i256_val_range a Ha) as Ra. pose proof (i256_val_range b Hb) as Rb.
  assert (P : 0 < 2 ^ 255) by reflexivity.
  destruct (i256_val a =? 0) eqn:Za; cbn [negb andb].
  { left. replace (i256_val a * i256_val b) with 0 in * by nia. split; [lia|]. eexists. split; [reflexivity|]. split; [exact O|].
    rewrite V. apply wrap256_id. lia. }
  destruct (i256_val b =? 0) eqn:Zb; cbn [negb].
  { left. replace (i256_val a * i256_val b) with 0 in * by nia. split; [lia|]. eexists. split; [reflexivity|]. split; [exact O|].
    rewrite V. apply wrap256_id. lia. }
  destruct (i256_div_val _ _ O Hb ltac:(lia) NF) as [Oc Vc].
  rewrite w256_eq_ival by assumption. rewrite Vc, V.
  pose proof (div_back_signed256 (i256_val a) (i256_val b) Ra Rb ltac:(lia) ltac:(lia) NM) as D.
  destruct (_ =? i256_val a) eqn:Q; cbn [negb].
  - left. apply Z.eqb_eq, D in Q. split; [exact Q|]. eexists. split; [reflexivity|]. split; [exact O|]. rewrite V. apply wrap256_id, Q.
  - right. apply Z.eqb_neq in Q. split; [|reflexivity]. intros C. apply Q, D, C.
Qed.
Lemma u256_add_checked_spec a b : w256_ok a -> w256_ok b ->
  u_exact_or_panic256 (u256_add_checked a b) (u256_val a + u256_val b) 30.
Proof.
  intros Ha Hb. unfold u256_add_checked. cbv zeta. destruct (w256_add_val a b Ha Hb) as [O V].
  rewrite u256_lt_val, V by assumption.
  pose proof (w256_range a Ha) as Ra. pose proof (w256_range b Hb) as Rb. unfold u_exact_or_panic256.
  destruct (Z_lt_ge_dec (u256_val a + u256_val b) (2 ^ 256)) as [L|G].
  - rewrite Z.mod_small in * by lia. rewrite (proj2 (Z.ltb_ge _ _)) by lia. left. split; [lia|].
    eexists. split; [reflexivity|]. auto.
  - assert (E : (u256_val a + u256_val b) mod 2 ^ 256 = u256_val a + u256_val b - 2 ^ 256).
    { symmetry. apply (Z.mod_unique _ _ 1); [left; lia|ring]. }
    rewrite E. rewrite (proj2 (Z.ltb_lt _ _)) by lia. right. split; [lia|reflexivity].
Qed.
Lemma u256_sub_checked_spec a b : w256_ok a -> w256_ok b -> ~ borrow_into_full (u256_val a) (u256_val b) ->
  u_exact_or_panic256 (u256_sub_checked a b) (u256_val a - u256_val b) 31.
Proof.
  intros Ha Hb N. unfold u256_sub_checked. pose proof (w256_sub_ok a b Ha Hb) as O. pose proof (proj2 (w256_sub_iff a b Ha Hb) N) as V.
  rewrite u256_lt_val by assumption.
  pose proof (w256_range a Ha) as Ra. pose proof (w256_range b Hb) as Rb.
  destruct (u256_val a <? u256_val b) eqn:C.
  - right. split; [lia|reflexivity].
  - left. split; [lia|]. eexists. split; [reflexivity|]. split; [exact O|]. rewrite V. apply Z.mod_small. lia.
Qed.
Lemma u256_mul_checked_spec a b : w256_ok a -> w256_ok b -> ~ inner_word_full (u256_val b) ->
  u_exact_or_panic256 (u256_mul_checked a b) (u256_val a * u256_val b) 32.
Proof.
  intros Ha Hb NF. unfold u256_mul_checked. cbv zeta. rewrite !zero256_val by assumption.
  destruct (w256_mul_val a b Ha Hb) as [O V].
  pose proof (w256_range a Ha) as Ra. pose proof (w256_range b Hb) as Rb.
  assert (P : 0 < 2 ^ 256) by reflexivity.
  destruct (u256_val a =? 0) eqn:Za; cbn [negb andb].
  { left. replace (u256_val a * u256_val b) with 0 in * by nia. split; [lia|]. eexists. split; [reflexivity|]. split; [exact O|].
    rewrite V. reflexivity. }
  destruct (u256_val b =? 0) eqn:Zb; cbn [negb].
  { left. replace (u256_val a * u256_val b) with 0 in * by nia. split; [lia|]. eexists. split; [reflexivity|]. split; [exact O|].
    rewrite V. reflexivity. }
  destruct (u256_divmod_spec _ b O Hb ltac:(lia) NF) as (Oq & _ & Vq & _).
  rewrite w256_eq_val by assumption. rewrite Vq, V.
  pose proof (div_back_unsigned (u256_val a) (u256_val b) (2 ^ 256) Ra ltac:(lia)) as D.
  destruct (_ =? u256_val a) eqn:Q; cbn [negb].
  - left. apply Z.eqb_eq, D in Q. split; [nia|]. eexists. split; [reflexivity|]. split; [exact O|]. rewrite V. apply Z.mod_small. nia.
  - right. apply Z.eqb_neq in Q. split; [|reflexivity]. intros C. apply Q, D, C.
Qed.
