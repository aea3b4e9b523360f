(** Signed 128-bit division, checked 128-bit arithmetic, casts. *)
From Verif Require Import Base BaseFacts BigIntModel BigIntSpec BigIntProofs BigIntDiv.
Ltac Zify.zify_post_hook ::= Z.div_mod_to_equations.

Lemma wrap128_spec x : exists k, wrap_i 128 x = x + 2 ^ 128 * k /\ - 2 ^ 127 <= wrap_i 128 x < 2 ^ 127.
Proof.
  unfold wrap_i. change (2 ^ (128 - 1)) with (2 ^ 127). consts.
  dif F; [exists (- (x / 340282366920938463463374607431768211456))|exists (- (x / 340282366920938463463374607431768211456) - 1)]; lia.
Qed.
Lemma wrap128_neg x : wrap_i 128 (- wrap_i 128 x) = wrap_i 128 (- x).
Proof.
  destruct (wrap128_spec x) as (k & E & _). destruct (wrap128_spec (- wrap_i 128 x)) as (k2 & E2 & R).
  apply (wrap128_unique _ _ (k2 - k)); [exact R|]. lia.
Qed.

Lemma i128_neg_ok wv a r : i128_ok a -> i128_neg wv a = Ok r ->
  i128_ok r /\ i128_val r = wrap_i 128 (- i128_val a).
Proof.
  intros Ha H. destruct wv.
  - destruct (i128_neg_wrap a Ha) as (x & E & O & V). rewrite E in H. injection H as <-. auto.
  - destruct (iso_agrees_neg a r Ha H) as [O V]. split; [exact O|]. rewrite <- V.
    symmetry. apply wrap128_id, i128_val_range, O.
Qed.
Lemma i128_neg_def wv a : i128_ok a -> wv = true \/ i128_val a <> - 2 ^ 127 -> exists r, i128_neg wv a = Ok r.
Proof.
  intros Ha [-> | H].
  - destruct (i128_neg_wrap a Ha) as (x & E & _). eauto.
  - destruct wv; [destruct (i128_neg_wrap a Ha) as (x & E & _); eauto|]. apply iso_neg_defined; assumption.
Qed.
Lemma i128_neg_ub a : i128_ok a -> i128_val a = - 2 ^ 127 -> i128_neg false a = UB.
Proof.
  intros Ha E. assert (Hh : ihi a = - 2 ^ 63 /\ ilo a = 0) by (clear -Ha E; u64; consts; lia).
  destruct a as [l h]. cbn [ilo ihi] in Hh. destruct Hh as [-> ->]. reflexivity.
Qed.

Lemma i128_sign a : i128_ok a -> (ihi a <? 0) = (i128_val a <? 0).
Proof. intros. u64. consts. lia. Qed.

Lemma wrap_hi_val l h : is_word l -> is_word h ->
  i128_ok (I128 l (to_i64 h)) /\ i128_val (I128 l (to_i64 h)) = wrap_i 128 (u128_val (U128 l h)).
Proof.
  intros Hl Hh. assert (O : i128_ok (I128 l (to_i64 h))) by (split; cbn [ilo ihi]; [exact Hl|apply to_i64_range]).
  split; [exact O|]. destruct (to_i64_cong h) as [k E].
  apply (wrap128_unique _ _ k); [apply i128_val_range, O|].
  unfold i128_val, u128_val, words_val. cbn [ilo ihi ulo uhi]. rewrite E. change (2 ^ 128) with (2 ^ 64 * 2 ^ 64). ring.
Qed.
Lemma unsigned_hi_val a : i128_ok a ->
  u128_ok (U128 (ilo a) (to_u64 (ihi a))) /\ u128_val (U128 (ilo a) (to_u64 (ihi a))) = i128_val a mod 2 ^ 128.
Proof.
  intros Ha. u64. cbn [ulo uhi]. consts. split; [lia|]. lia.
Qed.

Lemma i128_mag_ok wv a u : i128_ok a -> i128_mag wv a = Ok u -> u128_ok u /\ u128_val u = Z.abs (i128_val a).
Proof.
  intros Ha. unfold i128_mag. rewrite i128_sign by exact Ha. pose proof (i128_val_range a Ha) as R.
  destruct (i128_val a <? 0) eqn:E.
  - destruct (i128_neg wv a) as [t| | |] eqn:N; try discriminate. cbn [rmap]. intros H; injection H as <-.
    destruct (i128_neg_ok wv a t Ha N) as [Ot Vt]. destruct (unsigned_hi_val t Ot) as [O V].
    split; [exact O|]. rewrite V, Vt. destruct (wrap128_spec (- i128_val a)) as (k & Ek & Rk). rewrite Ek in *.
    clear V Vt. consts. lia.
  - intros H; injection H as <-. destruct (unsigned_hi_val a Ha) as [O V]. split; [exact O|]. rewrite V. consts. lia.
Qed.
Lemma i128_mag_def wv a : i128_ok a -> wv = true \/ i128_val a <> - 2 ^ 127 -> exists u, i128_mag wv a = Ok u.
Proof.
  intros Ha D. unfold i128_mag. destruct (ihi a <? 0); [|eauto].
  destruct (i128_neg_def wv a Ha D) as [r ->]. cbn [rmap]. eauto.
Qed.

Lemma i128_zero_val b : i128_ok b -> ((ilo b =? 0) && (ihi b =? 0)) = (i128_val b =? 0).
Proof. intros. u64. consts. lia. Qed.

Lemma quot_abs a b : b <> 0 -> Z.quot a b = if xorb (a <? 0) (b <? 0) then - (Z.abs a / Z.abs b) else Z.abs a / Z.abs b.
Proof.
  intros Hb. rewrite Z.quot_div by exact Hb.
  destruct (a <? 0) eqn:Ea, (b <? 0) eqn:Eb; cbn [xorb].
  - replace (Z.sgn a) with (-1) by lia. replace (Z.sgn b) with (-1) by lia. ring.
  - replace (Z.sgn a) with (-1) by lia. replace (Z.sgn b) with 1 by lia. ring.
  - replace (Z.sgn b) with (-1) by lia. destruct (Z.eq_dec a 0) as [->|N]; [rewrite Z.abs_0, Z.div_0_l by lia; reflexivity|].
    replace (Z.sgn a) with 1 by lia. ring.
  - replace (Z.sgn b) with 1 by lia. destruct (Z.eq_dec a 0) as [->|N]; [rewrite Z.abs_0, Z.div_0_l by lia; reflexivity|].
    replace (Z.sgn a) with 1 by lia. ring.
Qed.
Lemma rem_abs a b : b <> 0 -> Z.rem a b = if a <? 0 then - (Z.abs a mod Z.abs b) else Z.abs a mod Z.abs b.
Proof.
  intros Hb. rewrite Z.rem_mod by exact Hb. destruct (a <? 0) eqn:Ea.
  - replace (Z.sgn a) with (-1) by lia. ring.
  - destruct (Z.eq_dec a 0) as [->|N]; [rewrite Z.abs_0, Z.mod_0_l by lia; reflexivity|].
    replace (Z.sgn a) with 1 by lia. ring.
Qed.

Lemma i128_div_ok wv a b r : i128_ok a -> i128_ok b -> i128_val b <> 0 -> i128_div wv a b = Ok r ->
  i128_ok r /\ i128_val r = wrap_i 128 (Z.quot (i128_val a) (i128_val b)).
Proof.
  intros Ha Hb Hnz. unfold i128_div. rewrite i128_zero_val by exact Hb.
  destruct (i128_val b =? 0) eqn:E0; [lia|].
  destruct (i128_mag wv a) as [ua| | |] eqn:Ma; try discriminate. cbn [rbind].
  destruct (i128_mag wv b) as [ub| | |] eqn:Mb; try discriminate. cbn [rbind].
  apply i128_mag_ok in Ma as [Oa Va], Mb as [Ob Vb]; try assumption.
  destruct (u128_divmod_spec ua ub Oa Ob ltac:(lia)) as (Oq & _ & Vq & _).
  destruct (wrap_hi_val (ulo (u128_div ua ub)) (uhi (u128_div ua ub)) (proj1 Oq) (proj2 Oq)) as [Ores Vres].
  replace (U128 (ulo (u128_div ua ub)) (uhi (u128_div ua ub))) with (u128_div ua ub) in Vres by (destruct (u128_div ua ub); reflexivity).
  rewrite Vq, Va, Vb in Vres. rewrite quot_abs, !i128_sign by assumption.
  destruct (xorb _ _).
  - intros H. apply i128_neg_ok in H as [O V]; [|exact Ores]. split; [exact O|]. rewrite V, Vres. apply wrap128_neg.
  - intros H; injection H as <-. auto.
Qed.
Lemma i128_mod_ok wv a b r : i128_ok a -> i128_ok b -> i128_val b <> 0 -> i128_mod wv a b = Ok r ->
  i128_ok r /\ i128_val r = Z.rem (i128_val a) (i128_val b).
Proof.
  intros Ha Hb Hnz. unfold i128_mod. rewrite i128_zero_val by exact Hb.
  destruct (i128_val b =? 0) eqn:E0; [lia|].
  destruct (i128_mag wv a) as [ua| | |] eqn:Ma; try discriminate. cbn [rbind].
  destruct (i128_mag wv b) as [ub| | |] eqn:Mb; try discriminate. cbn [rbind].
  apply i128_mag_ok in Ma as [Oa Va], Mb as [Ob Vb]; try assumption.
  destruct (u128_divmod_spec ua ub Oa Ob ltac:(lia)) as (_ & Oq & _ & Vq).
  destruct (wrap_hi_val (ulo (u128_mod ua ub)) (uhi (u128_mod ua ub)) (proj1 Oq) (proj2 Oq)) as [Ores Vres].
  replace (U128 (ulo (u128_mod ua ub)) (uhi (u128_mod ua ub))) with (u128_mod ua ub) in Vres by (destruct (u128_mod ua ub); reflexivity).
  rewrite Vq, Va, Vb in Vres. rewrite rem_abs, !i128_sign by assumption.
  pose proof (i128_val_range b Hb) as Rb.
  pose proof (Z.mod_pos_bound (Z.abs (i128_val a)) (Z.abs (i128_val b)) ltac:(lia)) as M.
  rewrite wrap128_id in Vres by lia.
  destruct (_ <? 0).
  - intros H. apply i128_neg_ok in H as [O V]; [|exact Ores]. split; [exact O|]. rewrite V, Vres. apply wrap128_id. lia.
  - intros H; injection H as <-. auto.
Qed.
Lemma i128_div_def wv a b : i128_ok a -> i128_ok b ->
  wv = true \/ (i128_val a <> - 2 ^ 127 /\ i128_val b <> - 2 ^ 127) -> exists r, i128_div wv a b = Ok r.
Proof.
  intros Ha Hb D. unfold i128_div. rewrite i128_zero_val by exact Hb. destruct (_ =? 0) eqn:E0; [eauto|].
  destruct (i128_mag_def wv a Ha) as [ua Ma]; [tauto|]. destruct (i128_mag_def wv b Hb) as [ub Mb]; [tauto|].
  rewrite Ma, Mb. cbn [rbind]. destruct (xorb _ _); [|eauto].
  apply i128_mag_ok in Ma as [Oa Va], Mb as [Ob Vb]; try assumption.
  destruct (u128_divmod_spec ua ub Oa Ob ltac:(lia)) as (Oq & _ & Vq & _).
  destruct (wrap_hi_val (ulo (u128_div ua ub)) (uhi (u128_div ua ub)) (proj1 Oq) (proj2 Oq)) as [Ores Vres].
  apply i128_neg_def; [exact Ores|]. destruct D as [D|[D1 D2]]; [auto|right].
  rewrite Vres. replace (U128 _ _) with (u128_div ua ub) by (destruct (u128_div ua ub); reflexivity).
  rewrite Vq, Va, Vb. pose proof (i128_val_range a Ha).
  assert (0 <= Z.abs (i128_val a) / Z.abs (i128_val b) <= Z.abs (i128_val a)).
  { split; [apply Z.div_pos; lia|]. apply Z.div_le_upper_bound; [lia|]. nia. }
  rewrite wrap128_id by lia. lia.
Qed.
Lemma i128_mod_def wv a b : i128_ok a -> i128_ok b ->
  wv = true \/ (i128_val a <> - 2 ^ 127 /\ i128_val b <> - 2 ^ 127) -> exists r, i128_mod wv a b = Ok r.
Proof.
  intros Ha Hb D. unfold i128_mod. rewrite i128_zero_val by exact Hb. destruct (_ =? 0) eqn:E0; [eauto|].
  destruct (i128_mag_def wv a Ha) as [ua Ma]; [tauto|]. destruct (i128_mag_def wv b Hb) as [ub Mb]; [tauto|].
  rewrite Ma, Mb. cbn [rbind]. destruct (ihi a <? 0); [|eauto].
  apply i128_mag_ok in Ma as [Oa Va], Mb as [Ob Vb]; try assumption.
  destruct (u128_divmod_spec ua ub Oa Ob ltac:(lia)) as (_ & Oq & _ & Vq).
  destruct (wrap_hi_val (ulo (u128_mod ua ub)) (uhi (u128_mod ua ub)) (proj1 Oq) (proj2 Oq)) as [Ores Vres].
  apply i128_neg_def; [exact Ores|]. right.
  rewrite Vres. replace (U128 _ _) with (u128_mod ua ub) by (destruct (u128_mod ua ub); reflexivity).
  rewrite Vq, Va, Vb. pose proof (i128_val_range b Hb).
  pose proof (Z.mod_pos_bound (Z.abs (i128_val a)) (Z.abs (i128_val b)) ltac:(lia)) as M.
  rewrite wrap128_id by lia. lia.
Qed.

(** * Checked operations *)
Lemma i128_add_checked_wrap a b : i128_ok a -> i128_ok b ->
  exact_or_panic (i128_add_checked true a b) (i128_val a + i128_val b) 21.
Proof.
  intros Ha Hb. unfold i128_add_checked. destruct (i128_add_wrap a b Ha Hb) as (x & E & O & V).
  rewrite E. cbn [rbind]. pose proof (i128_val_range a Ha) as Ra. pose proof (i128_val_range b Hb) as Rb.
  destruct (wrap128_spec (i128_val a + i128_val b)) as (k & Ek & Rk). rewrite Ek in *.
  pose proof (i128_sign a Ha) as Sa. pose proof (i128_sign b Hb) as Sb. pose proof (i128_sign x O) as Sx.
  rewrite !Z.leb_antisym, Sa, Sb, Sx, V. unfold exact_or_panic.
  generalize dependent (i128_val a). intros A. generalize dependent (i128_val b). intros B. intros.
  dif C.
  - right. split; [|reflexivity]. clear Sa Sb Sx E V. consts. lia.
  - left. assert (k = 0) by (clear Sa Sb Sx E V; consts; lia). subst k. split; [clear Sa Sb Sx E V; consts; lia|].
    exists x. split; [reflexivity|]. split; [exact O|]. lia.
Qed.
Lemma i128_sub_checked_wrap a b : i128_ok a -> i128_ok b ->
  exact_or_panic (i128_sub_checked true a b) (i128_val a - i128_val b) 22.
Proof.
  intros Ha Hb. unfold i128_sub_checked. destruct (i128_sub_wrap a b Ha Hb) as (x & E & O & V).
  rewrite E. cbn [rbind]. pose proof (i128_val_range a Ha) as Ra. pose proof (i128_val_range b Hb) as Rb.
  destruct (wrap128_spec (i128_val a - i128_val b)) as (k & Ek & Rk). rewrite Ek in *.
  pose proof (i128_sign a Ha) as Sa. pose proof (i128_sign b Hb) as Sb. pose proof (i128_sign x O) as Sx.
  rewrite !Z.leb_antisym, Sa, Sb, Sx, V. unfold exact_or_panic.
  generalize dependent (i128_val a). intros A. generalize dependent (i128_val b). intros B. intros.
  dif C.
  - right. split; [|reflexivity]. clear Sa Sb Sx E V. consts. lia.
  - left. assert (k = 0) by (clear Sa Sb Sx E V; consts; lia). subst k. split; [clear Sa Sb Sx E V; consts; lia|].
    exists x. split; [reflexivity|]. split; [exact O|]. lia.
Qed.

(** Overflow detection by dividing back. *)
Lemma quot_half R B : B <> 0 -> B <> 1 -> B <> -1 -> Z.abs (Z.quot R B) <= Z.abs R / 2.
Proof.
  intros N0 N1 N2. rewrite <- Z.quot_abs by exact N0.
  rewrite Z.quot_div_nonneg by lia. apply Z.div_le_compat_l; lia.
Qed.
Lemma div_back_signed A B : - 2 ^ 127 <= A < 2 ^ 127 -> - 2 ^ 127 <= B < 2 ^ 127 -> A <> 0 -> B <> 0 ->
  ~ (A = - 2 ^ 127 /\ B = -1) ->
  (wrap_i 128 (Z.quot (wrap_i 128 (A * B)) B) = A <-> - 2 ^ 127 <= A * B < 2 ^ 127).
Proof.
  intros RA RB NA NB NM. split.
  - intros H. destruct (wrap128_spec (A * B)) as (k & Ek & Rk). set (R := wrap_i 128 (A * B)) in *. clearbody R.
    assert (NM2 : ~ (R = - 2 ^ 127 /\ B = -1)).
    { intros [-> ->]. apply NM. split; [|reflexivity].
      change (wrap_i 128 (Z.quot (- 2 ^ 127) (-1))) with (- 2 ^ 127) in H. lia. }
    assert (QR : - 2 ^ 127 <= Z.quot R B < 2 ^ 127).
    { pose proof (Z.quot_rem R B NB) as QRM.
      pose proof (Z.rem_bound_abs R B NB) as RB2.
      destruct (Z.eq_dec B 1) as [->|N1]; [rewrite Z.quot_1_r; exact Rk|].
      destruct (Z.eq_dec B (-1)) as [->|Nm1].
      - change (-1) with (- (1)). rewrite Z.quot_opp_r, Z.quot_1_r by lia. lia.
      - assert (Hs : Z.abs (Z.quot R B) <= Z.abs R / 2).
        { apply quot_half; assumption. }
        clear - Hs Rk. consts. lia. }
    rewrite wrap128_id in H by exact QR.
    pose proof (Z.quot_rem R B NB) as QRM. pose proof (Z.rem_bound_abs R B NB) as RB2. rewrite H in QRM.
    assert (k = 0).
    { assert (E : 2 ^ 128 * k = Z.rem R B) by nia. clear - E RB2 RB. consts. lia. }
    subst k. lia.
  - intros H. rewrite (wrap128_id (A * B)) by exact H. rewrite Z.quot_mul by exact NB. apply wrap128_id, RA.
Qed.

Lemma i128_is_zero_val a : i128_ok a -> i128_is_zero a = (i128_val a =? 0).
Proof. intros. unfold i128_is_zero. u64. consts. lia. Qed.
Lemma u128_is_zero_val a : u128_ok a -> u128_is_zero a = (u128_val a =? 0).
Proof. intros. unfold u128_is_zero. u64. consts. lia. Qed.

Lemma i128_mul_checked_wrap a b : i128_ok a -> i128_ok b ->
  ~ (i128_val a = - 2 ^ 127 /\ i128_val b = -1) ->
  exact_or_panic (i128_mul_checked true a b) (i128_val a * i128_val b) 23.
Proof.
  intros Ha Hb NM. unfold i128_mul_checked. rewrite !i128_is_zero_val by assumption.
  destruct (i128_mul_wrap a b Ha Hb) as [O V].
  pose proof (i128_val_range a Ha) as Ra. pose proof (i128_val_range b Hb) as Rb.
  destruct (i128_val a =? 0) eqn:Za; cbn [negb andb].
  { left. replace (i128_val a * i128_val b) with 0 in * by nia. split; [consts; lia|]. eexists. split; [reflexivity|]. split; [exact O|].
    rewrite V. apply wrap128_id. consts; lia. }
  destruct (i128_val b =? 0) eqn:Zb; cbn [negb].
  { left. replace (i128_val a * i128_val b) with 0 in * by nia. split; [consts; lia|]. eexists. split; [reflexivity|]. split; [exact O|].
    rewrite V. apply wrap128_id. consts; lia. }
  destruct (i128_div_def true (i128_mul a b) b O Hb (or_introl eq_refl)) as [c Ec].
  rewrite Ec. cbn [rbind]. destruct (i128_div_ok _ _ _ _ O Hb ltac:(lia) Ec) as [Oc Vc].
  rewrite i128_eq_val by assumption. rewrite Vc, V.
  pose proof (div_back_signed (i128_val a) (i128_val b) Ra Rb ltac:(lia) ltac:(lia) NM) as D.
  destruct (_ =? i128_val a) eqn:Q; cbn [negb].
  - left. apply Z.eqb_eq, D in Q. split; [exact Q|]. eexists. split; [reflexivity|]. split; [exact O|]. rewrite V. apply wrap128_id, Q.
  - right. apply Z.eqb_neq in Q. split; [|reflexivity]. intros C. apply Q, D, C.
Qed.

Lemma u128_add_checked_spec a b : u128_ok a -> u128_ok b ->
  u_exact_or_panic (u128_add_checked a b) (u128_val a + u128_val b) 24.
Proof.
  intros Ha Hb. unfold u128_add_checked. pose proof (u128_add_ok a b Ha Hb) as O. pose proof (u128_add_val a b Ha Hb) as V.
  rewrite u128_lt_val by assumption. rewrite V.
  pose proof (u128_val_range a Ha) as Ra. pose proof (u128_val_range b Hb) as Rb.
  generalize dependent (u128_val a). intros A. generalize dependent (u128_val b). intros B. intros.
  dif C.
  - right. split; [|reflexivity]. clear V. consts. lia.
  - left. assert (A + B < 2 ^ 128) by (clear V; consts; lia). split; [lia|].
    eexists. split; [reflexivity|]. split; [exact O|]. rewrite V. apply Z.mod_small. lia.
Qed.
Lemma u128_sub_checked_spec a b : u128_ok a -> u128_ok b ->
  u_exact_or_panic (u128_sub_checked a b) (u128_val a - u128_val b) 25.
Proof.
  intros Ha Hb. unfold u128_sub_checked. pose proof (u128_sub_ok a b Ha Hb) as O. pose proof (u128_sub_val a b Ha Hb) as V.
  rewrite u128_lt_val by assumption.
  pose proof (u128_val_range a Ha) as Ra. pose proof (u128_val_range b Hb) as Rb.
  destruct (u128_val a <? u128_val b) eqn:C.
  - right. split; [lia|reflexivity].
  - left. split; [lia|]. eexists. split; [reflexivity|]. split; [exact O|]. rewrite V. apply Z.mod_small. lia.
Qed.
Lemma div_back_unsigned A B M : 0 <= A < M -> 0 < B -> ((A * B) mod M / B = A <-> A * B < M).
Proof.
  intros RA PB. assert (PM : 0 < M) by lia. split.
  - intros H. pose proof (Z.mul_div_le ((A * B) mod M) B PB) as L. rewrite H in L.
    pose proof (Z.mod_pos_bound (A * B) M PM). nia.
  - intros H. rewrite Z.mod_small by nia. apply Z.div_mul. lia.
Qed.
Lemma u128_mul_checked_spec a b : u128_ok a -> u128_ok b ->
  u_exact_or_panic (u128_mul_checked a b) (u128_val a * u128_val b) 26.
Proof.
  intros Ha Hb. unfold u128_mul_checked. rewrite !u128_is_zero_val by assumption.
  pose proof (u128_mul_ok a b Ha Hb) as O. pose proof (u128_mul_val a b Ha Hb) as V.
  pose proof (u128_val_range a Ha) as Ra. pose proof (u128_val_range b Hb) as Rb.
  destruct (u128_val a =? 0) eqn:Za; cbn [negb andb].
  { left. replace (u128_val a * u128_val b) with 0 in * by nia. split; [consts; lia|]. eexists. split; [reflexivity|]. split; [exact O|].
    rewrite V. reflexivity. }
  destruct (u128_val b =? 0) eqn:Zb; cbn [negb].
  { left. replace (u128_val a * u128_val b) with 0 in * by nia. split; [consts; lia|]. eexists. split; [reflexivity|]. split; [exact O|].
    rewrite V. reflexivity. }
  destruct (u128_divmod_spec (u128_mul a b) b O Hb ltac:(lia)) as (Oq & _ & Vq & _).
  rewrite u128_eq_val by assumption. rewrite Vq, V.
  pose proof (div_back_unsigned (u128_val a) (u128_val b) (2 ^ 128) Ra ltac:(lia)) as D.
  destruct (_ =? u128_val a) eqn:Q; cbn [negb].
  - left. apply Z.eqb_eq, D in Q. split; [nia|]. eexists. split; [reflexivity|]. split; [exact O|]. rewrite V. apply Z.mod_small. nia.
  - right. apply Z.eqb_neq in Q. split; [|reflexivity]. intros C. apply Q, D, C.
Qed.
