(** 256-bit arithmetic on word lists (the proofs work for any number of words). *)
From Verif Require Import Base BaseFacts BigIntModel BigIntSpec BigIntProofs BigIntDiv.
Ltac Zify.zify_post_hook ::= Z.div_mod_to_equations.

Definition WB (n : nat) : Z := 2 ^ (64 * Z.of_nat n).
Arguments WB : simpl never.
Lemma WB_0 : WB 0 = 1. Proof. reflexivity. Qed.
Lemma WB_S n : WB (S n) = 2 ^ 64 * WB n.
Proof. unfold WB. rewrite <- Z.pow_add_r by lia. f_equal. lia. Qed.
Lemma WB_pos n : 0 < WB n. Proof. apply pow_pos. lia. Qed.
Lemma WB_4 : WB 4 = 2 ^ 256. Proof. reflexivity. Qed.

Lemma words_range l : Forall is_word l -> 0 <= words_val l < WB (length l).
Proof.
  induction l as [|x l IH]; intros H; [cbn [words_val length]; rewrite WB_0; lia|].
  inversion H as [|? ? Hx Hl]; subst. cbn [words_val length]. rewrite WB_S. specialize (IH Hl).
  unfold is_word in Hx. consts. nia.
Qed.
Lemma words_inj a b : Forall is_word a -> Forall is_word b -> length a = length b ->
  words_val a = words_val b -> a = b.
Proof.
  revert b. induction a as [|x a IH]; intros [|y b] Ha Hb L E; try discriminate; [reflexivity|].
  inversion Ha; inversion Hb; subst. cbn [words_val] in E. unfold is_word in *. consts.
  assert (x = y /\ words_val a = words_val b) as [-> E2] by lia. f_equal. apply IH; auto.
Qed.
Lemma words_app a b : words_val (a ++ b) = words_val a + WB (length a) * words_val b.
Proof.
  induction a as [|x a IH]; [cbn [words_val length app]; rewrite WB_0; lia|].
  cbn [words_val length app]. rewrite IH, WB_S. ring.
Qed.

(** Addition *)
Lemma add_words_spec a : forall b c, length b = length a -> Forall is_word a -> Forall is_word b -> 0 <= c <= 1 ->
  Forall is_word (add_words c a b) /\ length (add_words c a b) = length a /\
  exists k, words_val (add_words c a b) = words_val a + words_val b + c + WB (length a) * k.
Proof.
  induction a as [|x a IH]; intros [|y b] c L Ha Hb Hc; try discriminate.
  - cbn [add_words sub_words neg_words mul_row mul_rows shl1_words words_val length]. split; [constructor|]. split; [reflexivity|]. exists (- c). rewrite WB_0. lia.
  - inversion Ha as [|? ? Hx Ha']; inversion Hb as [|? ? Hy Hb']; subst. cbn [length] in L. injection L as L.
    cbn [add_words words_val length].
    set (sum := add64 (add64 x y) c). set (c' := b2z _).
    assert (E : sum + 2 ^ 64 * c' = x + y + c /\ 0 <= c' <= 1 /\ is_word sum).
    { subst c' sum. unfold is_word, add64, M64, b2z in *. clear IH. consts. dif C; lia. }
    destruct E as (E & Rc & Rs). clearbody sum c'.
    destruct (IH b c' L Ha' Hb' Rc) as (F & Lr & k & Ek).
    split; [constructor; assumption|]. split; [lia|].
    exists k. rewrite Ek, WB_S. replace sum with (x + y + c - 2 ^ 64 * c') by lia. ring.
Qed.

(** Subtraction: exact when no word of b except possibly the first (if no borrow
    comes in) and the last is all ones. *)
Lemma sub_words_spec a : forall b c, length b = length a -> Forall is_word a -> Forall is_word b -> 0 <= c <= 1 ->
  Forall (fun y => y + 1 < 2 ^ 64) (removelast b) \/
    (c = 0 /\ Forall (fun y => y + 1 < 2 ^ 64) (removelast (tl b))) ->
  Forall is_word (sub_words c a b) /\ length (sub_words c a b) = length a /\
  exists k, words_val (sub_words c a b) = words_val a - words_val b - c + WB (length a) * k.
Proof.
  induction a as [|x a IH]; intros [|y b] c L Ha Hb Hc Hm; try discriminate.
  - cbn [add_words sub_words neg_words mul_row mul_rows shl1_words words_val length]. split; [constructor|]. split; [reflexivity|]. exists c. rewrite WB_0. lia.
  - inversion Ha as [|? ? Hx Ha']; inversion Hb as [|? ? Hy Hb']; subst. cbn [length] in L. injection L as L.
    cbn [sub_words words_val length].
    destruct b as [|y2 b].
    { destruct a as [|? ?]; [|discriminate]. cbn [sub_words words_val length].
      split; [constructor; [|constructor]|]. { unfold is_word, sub64, M64. consts. lia. }
      split; [reflexivity|]. rewrite WB_S, WB_0. unfold is_word, sub64, M64 in *. clear IH. consts.
      exists (((x - y) mod 18446744073709551616 - c) mod 18446744073709551616 / 18446744073709551616 - ((x - y) / 18446744073709551616 + ((x - y) mod 18446744073709551616 - c) / 18446744073709551616)). lia. }
    assert (Hw : y + c < 2 ^ 64 /\ Forall (fun y => y + 1 < 2 ^ 64) (removelast (y2 :: b))).
    { destruct Hm as [Hm|[-> Hm]].
      - change (removelast (y :: y2 :: b)) with (y :: removelast (y2 :: b)) in Hm. inversion Hm; subst. split; [lia|assumption].
      - cbn [tl] in Hm. split; [unfold is_word in Hy; lia|exact Hm]. }
    destruct Hw as [Hw Hm'].
    set (diff := sub64 (sub64 x y) c). set (c' := b2z _).
    assert (E : diff - 2 ^ 64 * c' = x - y - c /\ 0 <= c' <= 1 /\ is_word diff).
    { subst c' diff. unfold is_word, sub64, add64, M64, b2z in *. clear IH Hm Hm'. consts. dif C; lia. }
    destruct E as (E & Rc & Rs). clearbody diff c'.
    destruct (IH (y2 :: b) c' L Ha' Hb' Rc (or_introl Hm')) as (F & Lr & k & Ek).
    split; [constructor; assumption|]. split; [lia|].
    exists k. rewrite Ek, WB_S. replace diff with (x - y - c + 2 ^ 64 * c') by lia. cbn [words_val]. ring.
Qed.

(** Negation *)
Lemma neg_words_spec a : forall c, Forall is_word a -> 0 <= c <= 1 ->
  Forall is_word (neg_words c a) /\ length (neg_words c a) = length a /\
  exists k, words_val (neg_words c a) = - words_val a - 1 + c + WB (length a) * k.
Proof.
  induction a as [|x a IH]; intros c Ha Hc.
  - cbn [add_words sub_words neg_words mul_row mul_rows shl1_words words_val length]. split; [constructor|]. split; [reflexivity|]. exists (1 - c). rewrite WB_0. lia.
  - inversion Ha as [|? ? Hx Ha']; subst. cbn [neg_words words_val length].
    set (sum := add64 (not64 x) c). set (c' := b2z _).
    assert (E : sum + 2 ^ 64 * c' = 2 ^ 64 - 1 - x + c /\ 0 <= c' <= 1 /\ is_word sum).
    { subst c' sum. unfold is_word, add64, not64, M64, b2z in *. clear IH. consts. dif C; lia. }
    destruct E as (E & Rc & Rs). clearbody sum c'.
    destruct (IH c' Ha' Rc) as (F & Lr & k & Ek).
    split; [constructor; assumption|]. split; [lia|].
    exists k. rewrite Ek, WB_S. replace sum with (2 ^ 64 - 1 - x + c - 2 ^ 64 * c') by lia. ring.
Qed.

(** Multiplication *)
Lemma mul_cell x bi old c : is_word x -> is_word bi -> is_word old -> is_word c ->
  let s := add64 old (mul64 x bi) in
  let out := add64 s c in
  let c1 := add64 (mul_high x bi) (b2z (out <? s)) in
  let c2 := if s <? old then add64 c1 1 else c1 in
  is_word out /\ is_word c2 /\ out + 2 ^ 64 * c2 = old + x * bi + c.
Proof.
  intros Hx Hb Ho Hc. cbv zeta. rewrite mul_high_spec by assumption.
  pose proof (mod_mul_64 x bi) as E.
  assert (B : 0 <= x * bi <= (2 ^ 64 - 1) * (2 ^ 64 - 1)) by (unfold is_word in *; nia).
  assert (R : 0 <= mul64 x bi < 2 ^ 64) by (unfold mul64, M64; consts; lia).
  set (h := x * bi / 2 ^ 64) in *. generalize dependent (mul64 x bi). intros lo E R.
  assert (Hh : 0 <= h <= 2 ^ 64 - 2).
  { subst h. change ((2 ^ 64 - 1) * (2 ^ 64 - 1)) with 340282366920938463426481119284349108225 in B. consts. lia. }
  rewrite E in B |- *. clearbody h. clear E.
  change ((2 ^ 64 - 1) * (2 ^ 64 - 1)) with 340282366920938463426481119284349108225 in B.
  unfold is_word, add64, M64, b2z in *. consts.
  destruct (_ <? old) eqn:C1; dif C2; lia.
Qed.
Lemma mul_row_spec a : forall bi r c, (length r <= length a)%nat -> Forall is_word a -> is_word bi -> Forall is_word r -> is_word c ->
  Forall is_word (mul_row c a bi r) /\ length (mul_row c a bi r) = length r /\
  exists k, words_val (mul_row c a bi r) = words_val r + bi * words_val a + c + WB (length r) * k.
Proof.
  induction a as [|x a IH]; intros bi [|old r] c L Ha Hb Hr Hc; try (cbn in L; lia).
  - cbn [add_words sub_words neg_words mul_row mul_rows shl1_words words_val length]. split; [constructor|]. split; [reflexivity|]. exists (- c). rewrite WB_0. lia.
  - cbn [add_words sub_words neg_words mul_row mul_rows shl1_words words_val length]. split; [constructor|]. split; [reflexivity|]. rewrite WB_0. exists (- (bi * words_val (x :: a) + c)). cbn [words_val]. ring.
  - inversion Ha as [|? ? Hx Ha']; inversion Hr as [|? ? Ho Hr']; subst. cbn [length] in L.
    pose proof (mul_cell x bi old c Hx Hb Ho Hc) as Cell. cbv zeta in Cell.
    cbn [mul_row words_val length]. cbv zeta.
    set (out := add64 (add64 old (mul64 x bi)) c) in *.
    set (c2 := if _ <? old then _ else _) in *. clearbody out c2.
    destruct Cell as (Ro & Rc & E).
    destruct (IH bi r c2 ltac:(lia) Ha' Hb Hr' Rc) as (F & Lr & k & Ek).
    split; [constructor; assumption|]. split; [lia|].
    exists k. rewrite Ek, WB_S. replace out with (old + x * bi + c - 2 ^ 64 * c2) by lia. ring.
Qed.
Lemma mul_rows_spec a b : forall r, length b = length r -> (length r <= length a)%nat ->
  Forall is_word a -> Forall is_word b -> Forall is_word r ->
  Forall is_word (mul_rows a b r) /\ length (mul_rows a b r) = length r /\
  exists k, words_val (mul_rows a b r) = words_val r + words_val a * words_val b + WB (length r) * k.
Proof.
  induction b as [|bi b IH]; intros r Lb Lr Ha Hb Hr.
  - destruct r; [|discriminate]. cbn. split; [constructor|]. split; [reflexivity|]. exists 0. ring.
  - destruct r as [|r0 r]; [discriminate|]. inversion Hb as [|? ? Hbi Hb']; subst.
    cbn [mul_rows]. 
    assert (W0 : is_word 0) by (unfold is_word; consts; lia).
    destruct (mul_row_spec a bi (r0 :: r) 0 Lr Ha Hbi Hr W0) as (F & L & k & E).
    destruct (mul_row 0 a bi (r0 :: r)) as [|w r']; [discriminate|].
    inversion F as [|? ? Hw Hr']; subst. cbn [length] in *.
    destruct (IH r' ltac:(lia) ltac:(lia) Ha Hb' Hr') as (F2 & L2 & k2 & E2).
    split; [constructor; assumption|]. split; [lia|].
    cbn [words_val] in *. rewrite E2. 
    exists (k + k2). rewrite WB_S in *. replace (length r') with (length r) by lia.
    replace w with (r0 + 2 ^ 64 * words_val r + bi * words_val a + 0 + 2 ^ 64 * WB (length r) * k - 2 ^ 64 * words_val r') by lia.
    ring.
Qed.

(** Comparison *)
Lemma ge_words_snoc x y a b :
  ge_words (a ++ [x]) (b ++ [y]) =
  if y <? x then true else if x <? y then false else match a with [] => true | _ => ge_words a b end.
Proof.
  unfold ge_words. rewrite !rev_app_distr. cbn [rev app ge_words_msb].
  destruct a as [|a0 a]; [reflexivity|].
  assert (N : rev (a0 :: a) <> []). { cbn [rev]. destruct (rev a); discriminate. }
  destruct (rev (a0 :: a)); [congruence|reflexivity].
Qed.
Lemma ge_words_spec a : forall b, length a = length b -> a <> [] -> Forall is_word a -> Forall is_word b ->
  ge_words a b = (words_val b <=? words_val a).
Proof.
  induction a as [|x a IH] using rev_ind; intros b L N Ha Hb; [congruence|].
  destruct (rev_ind_len b) as [->|(y & b' & ->)]; [rewrite app_length in L; cbn in L; lia|].
  rewrite !app_length in L. cbn [length] in L. rewrite ge_words_snoc, !words_app. cbn [words_val].
  apply Forall_app in Ha as [Ha Hx], Hb as [Hb Hy]. inversion Hx; inversion Hy; subst.
  assert (EL : length a = length b') by lia.
  pose proof (words_range a Ha) as Ra. pose proof (words_range b' Hb) as Rb. rewrite <- EL in *.
  set (B := WB (length a)) in *. pose proof (WB_pos (length a)) as P. fold B in P. clearbody B.
  rewrite !Z.mul_0_r, !Z.add_0_r.
  destruct (y <? x) eqn:C1; [symmetry; apply Z.leb_le; nia|].
  destruct (x <? y) eqn:C2; [symmetry; apply Z.leb_gt; nia|].
  assert (x = y) by lia. subst y.
  destruct a as [|a0 a]; [destruct b'; [cbn; lia|discriminate]|].
  rewrite IH by (auto; discriminate). lia.
Qed.

(** Doubling *)
Lemma shl1_words_spec r : forall c, Forall is_word r -> 0 <= c < 2 ->
  Forall is_word (shl1_words c r) /\ length (shl1_words c r) = length r /\
  exists k, words_val (shl1_words c r) = 2 * words_val r + c + WB (length r) * k.
Proof.
  induction r as [|x r IH]; intros c Hr Hc.
  - cbn [add_words sub_words neg_words mul_row mul_rows shl1_words words_val length]. split; [constructor|]. split; [reflexivity|]. exists (- c). rewrite WB_0. lia.
  - inversion Hr as [|? ? Hx Hr']; subst. cbn [shl1_words words_val length].
    destruct (shl1_lor x c Hx Hc) as [E1 E2].
    assert (R : 0 <= shr64 x 63 < 2) by (rewrite E2; unfold is_word in Hx; consts; lia).
    destruct (IH (shr64 x 63) Hr' R) as (F & L & k & E).
    split; [constructor; [rewrite E1; unfold is_word; apply Z.mod_pos_bound; reflexivity|exact F]|]. split; [lia|].
    exists k. rewrite E, WB_S, E1, E2. 
    pose proof (Z.div_mod (2 * x + c) (2 ^ 64) ltac:(discriminate)) as D.
    replace ((2 * x + c) mod 2 ^ 64) with (2 * x + c - 2 ^ 64 * ((2 * x + c) / 2 ^ 64)) by lia. ring.
Qed.

(** Words as digits *)
Lemma word_spec a : forall k, Forall is_word a -> word a k = words_val a / WB k mod 2 ^ 64.
Proof.
  unfold word. induction a as [|x a IH]; intros k Ha.
  - cbn [words_val]. rewrite Z.div_0_l by (pose proof (WB_pos k); lia). destruct k; reflexivity.
  - inversion Ha as [|? ? Hx Ha']; subst. destruct k as [|k]; cbn [nth words_val].
    + rewrite WB_0, Z.div_1_r. rewrite (Z.mul_comm (2 ^ 64)), Z.mod_add, Z.mod_small; [reflexivity|exact Hx|discriminate].
    + rewrite (IH k Ha'), WB_S, <- Z.div_div by (try apply WB_pos; reflexivity || discriminate).
      f_equal. f_equal. rewrite (Z.mul_comm (2 ^ 64)), Z.div_add, Z.div_small; [reflexivity|exact Hx|discriminate].
Qed.
Lemma WB_word i : 0 <= i -> 2 ^ i = WB (Z.to_nat (i / 64)) * 2 ^ (i mod 64).
Proof. intros. unfold WB. rewrite <- Z.pow_add_r by lia. f_equal. lia. Qed.

Lemma bit256_spec a i : Forall is_word a -> 0 <= i -> bit256 a i = words_val a / 2 ^ i mod 2.
Proof.
  intros Ha Hi. unfold bit256. rewrite land_1, shr64_div by lia. rewrite word_spec by exact Ha.
  rewrite (WB_word i Hi). pose proof (WB_pos (Z.to_nat (i / 64))) as P.
  assert (Hm : 0 <= i mod 64 < 64) by lia.
  set (j := i mod 64) in *. set (X := words_val a). set (B := WB _) in *. clearbody j X B.
  pose proof (pow_pos j ltac:(lia)).
  rewrite <- Z.div_div by lia. set (Y := X / B). clearbody Y.
  rewrite (Z.mod_eq Y (2 ^ 64)) by discriminate.
  assert (E64 : 2 ^ 64 = 2 ^ (64 - j) * 2 ^ j) by (rewrite <- Z.pow_add_r by lia; f_equal; lia).
  replace (Y - 2 ^ 64 * (Y / 2 ^ 64)) with (Y + (- (2 ^ (64 - j) * (Y / 2 ^ 64))) * 2 ^ j)
    by (set (t := Y / 2 ^ 64); clearbody t; rewrite E64; ring).
  rewrite Z.div_add by lia.
  replace (2 ^ (64 - j)) with (2 * 2 ^ (64 - j - 1)) by (rewrite <- Z.pow_succ_r by lia; f_equal; lia).
  replace (- (2 * 2 ^ (64 - j - 1) * (Y / 2 ^ 64))) with (- (2 ^ (64 - j - 1) * (Y / 2 ^ 64)) * 2) by ring.
  rewrite Z.mod_add by lia. reflexivity.
Qed.

Lemma set_word_spec q : forall k v, (k < length q)%nat -> Forall is_word q -> is_word v ->
  Forall is_word (set_word q k v) /\ length (set_word q k v) = length q /\
  words_val (set_word q k v) = words_val q + WB k * (v - word q k).
Proof.
  unfold word. induction q as [|x q IH]; intros k v Hk Hq Hv; [cbn in Hk; lia|].
  inversion Hq as [|? ? Hx Hq']; subst. destruct k as [|k]; cbn [set_word nth length words_val].
  - split; [constructor; assumption|]. split; [reflexivity|]. rewrite WB_0. ring.
  - cbn [length] in Hk. destruct (IH k v ltac:(lia) Hq' Hv) as (F & L & E).
    split; [constructor; assumption|]. split; [lia|]. rewrite E, WB_S. ring.
Qed.

Lemma word_is_word a k : Forall is_word a -> is_word (word a k).
Proof. intros H. rewrite word_spec by exact H. unfold is_word. apply Z.mod_pos_bound. reflexivity. Qed.

Lemma setbit256_spec q i : Forall is_word q -> 0 <= i < 64 * Z.of_nat (length q) ->
  words_val q mod 2 ^ (i + 1) = 0 ->
  Forall is_word (setbit256 q i) /\ length (setbit256 q i) = length q /\
  words_val (setbit256 q i) = words_val q + 2 ^ i.
Proof.
  intros Hq Hi Hm. unfold setbit256.
  assert (Hj : 0 <= i mod 64 < 64) by lia. rewrite shl64_bit by exact Hj.
  set (k := Z.to_nat (i / 64)) in *.
  assert (Hkl : (k < length q)%nat) by (subst k; lia).
  assert (Hw : word q k mod 2 ^ (i mod 64 + 1) = 0).
  { rewrite word_spec by exact Hq. pose proof (WB_pos k) as P.
    assert (E1 : 2 ^ (i + 1) = WB k * 2 ^ (i mod 64 + 1)).
    { subst k. unfold WB. rewrite <- Z.pow_add_r by lia. f_equal. lia. }
    set (j1 := i mod 64 + 1) in *. assert (1 <= j1 <= 64) by (subst j1; lia). clearbody j1.
    rewrite E1 in Hm. pose proof (pow_pos j1 ltac:(lia)) as P1.
    apply Z.mod_divide in Hm; [|nia]. destruct Hm as [z Hz]. rewrite Hz.
    replace (z * (WB k * 2 ^ j1)) with ((z * 2 ^ j1) * WB k) by ring. rewrite Z.div_mul by lia.
    rewrite (Z.mod_eq _ (2 ^ 64)) by discriminate.
    assert (E64 : 2 ^ 64 = 2 ^ (64 - j1) * 2 ^ j1) by (rewrite <- Z.pow_add_r by lia; f_equal; lia).
    replace (z * 2 ^ j1 - 2 ^ 64 * (z * 2 ^ j1 / 2 ^ 64))
      with ((z - 2 ^ (64 - j1) * (z * 2 ^ j1 / 2 ^ 64)) * 2 ^ j1)
      by (set (t := z * 2 ^ j1 / 2 ^ 64); clearbody t; rewrite E64; ring).
    apply Z.mod_mul. lia. }
  pose proof (word_is_word q k Hq) as Wk. set (w := word q k) in *.
  rewrite lor_bit by (unfold is_word in Wk; lia).
  assert (Wn : is_word (w + 2 ^ (i mod 64))).
  { clearbody w. set (j := i mod 64) in *. clearbody j. unfold is_word in *. pose proof (pow_pos j ltac:(lia)).
    pose proof (pow_pos (j + 1) ltac:(lia)). pose proof (pow_pos (64 - (j + 1)) ltac:(lia)).
    pose proof (Z.div_mod w (2 ^ (j + 1)) ltac:(lia)) as D. rewrite Hw in D.
    assert (E64 : 2 ^ 64 = 2 ^ (64 - (j + 1)) * 2 ^ (j + 1)) by (rewrite <- Z.pow_add_r by lia; f_equal; lia).
    assert (E1 : 2 ^ (j + 1) = 2 * 2 ^ j) by (rewrite Z.add_1_r, Z.pow_succ_r by lia; reflexivity).
    rewrite E64 in *. set (z := w / 2 ^ (j + 1)) in *. clearbody z.
    assert (z < 2 ^ (64 - (j + 1))) by nia. nia. }
  destruct (set_word_spec q k (w + 2 ^ (i mod 64)) Hkl Hq Wn) as (F & L & E).
  split; [exact F|]. split; [exact L|]. rewrite E. fold w.
  rewrite (WB_word i) by lia. fold k. ring.
Qed.
