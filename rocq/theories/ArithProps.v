(** C12, C13, C71, C72, C73: checked arithmetic, conversions, shifts, ranges, call depth. *)
From Coq Require Import FinFun ZifyBool.
From Verif Require Import Base BaseFacts ArithModel ArithSpec ArithProofs.
Ltac Zify.zify_post_hook ::= Z.div_mod_to_equations.

(** ---- C12: 64-bit types ---- *)
(** + - * on two int/i64 or two uint/u64 operands: the exact result, or the documented panic. *)
Theorem int64_arith_exact_or_panic : forall wv op l r a b,
  wide l -> wide r -> same_sign l r -> of_type l a -> of_type r b ->
  exact_or_panic l (exact op a b) (overflow_code op l (exact op a b)) (eval_arith wv op l r a b).
Proof. exact arith_wide. Qed.
(** unary minus and ++, -- for every type *)
Theorem neg_exact_or_panic : forall wv t a, signed t -> of_type t a ->
  exact_or_panic t (- a) (match t with INT | I64 => 7 | _ => 14 end) (eval_neg wv t a).
Proof. exact neg_ok. Qed.
Theorem incdec_exact_or_panic : forall wv (inc : bool) t a, of_type t a ->
  let x := if inc then a + 1 else a - 1 in
  exact_or_panic t x (overflow_code (if inc then Add else Sub) t x) (eval_step wv inc t a).
Proof. exact step_ok. Qed.
(** / and %: zero divisor panics, the one overflowing quotient panics, everything else is
    truncating division, and the two operators belong together. *)
Theorem division : forall l r a b, same_sign l r -> of_type l a -> of_type r b ->
  (b = 0 -> eval_div Quo l r a b = Some (Panic 78) /\ eval_div Rem l r a b = Some (Panic 78)) /\
  (a = lo l -> b = -1 -> eval_div Quo l r a b = Some (Panic 79) /\ eval_div Rem l r a b = Some (Panic 79)) /\
  (b <> 0 -> ~ (a = lo l /\ b = -1) ->
     exists q m, eval_div Quo l r a b = Some (Ok q) /\ eval_div Rem l r a b = Some (Ok m) /\ truncated a b q m).
Proof.
  intros l r a b [[Hl Hr]|[Hl Hr]] Ha Hb.
  - rewrite !div_signed by assumption. split; [|split].
    + intros ->. split; reflexivity.
    + intros -> ->. change (-1 =? 0) with false. rewrite Z.eqb_refl. split; reflexivity.
    + intros H0 H1. exists (Z.quot a b), (Z.rem a b).
      replace (b =? 0) with false by lia. replace ((a =? lo l) && (b =? -1)) with false by lia.
      split; [reflexivity|split; [reflexivity|apply trunc_spec; assumption]].
  - rewrite !div_unsigned by assumption. split; [|split].
    + intros ->. split; reflexivity.
    + intros _ ->. exfalso. unfold of_type in Hb. unfold unsigned in Hr. lia.
    + intros H0 H1. exists (Z.quot a b), (Z.rem a b). replace (b =? 0) with false by lia.
      split; [reflexivity|split; [reflexivity|apply trunc_spec; assumption]].
Qed.
Example int64_arith_ex :
  wide INT /\ same_sign INT I64 /\ of_type INT INT64_MAX /\ of_type I64 1 /\
  eval_arith false Add INT I64 INT64_MAX 1 = Panic 4 /\ eval_arith false Add INT I64 INT64_MAX (-1) = Ok 9223372036854775806 /\
  eval_arith false Mul UINT U64 4294967296 4294967296 = Panic 10 /\ eval_arith false Sub UINT UINT 3 4 = Panic 9 /\
  eval_neg false INT INT64_MIN = Panic 7 /\ eval_step false true UINT UINT64_MAX = Panic 8 /\
  eval_div Quo INT INT (-7) 2 = Some (Ok (-3)) /\ eval_div Rem INT INT (-7) 2 = Some (Ok (-1)) /\
  eval_div Rem I64 INT INT64_MIN (-1) = Some (Panic 79) /\ eval_div Quo I8 I8 (-128) (-1) = Some (Panic 79).
Proof.
  split; [left; reflexivity|]. split; [left; unfold signed; cbn; lia|].
  split; [unfold of_type; vm_compute; split; discriminate|]. split; [unfold of_type; vm_compute; split; discriminate|].
  vm_compute. repeat split.
Qed.

(** ---- C13: sized types ---- *)
(** Two operands of small types: exact in the wider type (the left one on a tie), or a panic. *)
Theorem sized_arith_exact_or_panic_partial : forall wv op l r a b,
  small l -> small r -> of_type l a -> of_type r b -> ~ (op = Mul /\ 2 ^ 63 <= a * b) ->
  let t := if (hi l - lo l <? hi r - lo r) then r else l in
  exact_or_panic t (exact op a b) (overflow_code op t (exact op a b)) (eval_arith wv op l r a b).
Proof.
  intros wv op l r a b Sl Sr Ha Hb Hn t.
  assert (T : sized_name l r = t /\ sized_target l r = true).
  { subst t. clear - Sl Sr. unfold small, wide in Sl, Sr. destruct l; try (exfalso; apply Sl; tauto; fail);
      destruct r; try (exfalso; apply Sr; tauto; fail); split; reflexivity. }
  destruct T as [T1 T]. rewrite <- T1. clear t T1.
  assert (Ra : -2147483648 <= a <= 4294967295) by (clear - Sl Ha; unfold small, wide in Sl; destruct l; try (exfalso; apply Sl; tauto; fail); rewrite of_type_num in Ha; lia).
  assert (Rb : -2147483648 <= b <= 4294967295) by (clear - Sr Hb; unfold small, wide in Sr; destruct r; try (exfalso; apply Sr; tauto; fail); rewrite of_type_num in Hb; lia).
  apply arith_sized; try assumption; [apply wi64; lia|apply wi64; lia|].
  destruct op; cbn [exact]; try lia.
  assert (a * b < 9223372036854775808). { destruct (Z_lt_le_dec (a * b) 9223372036854775808) as [|L]; [assumption|]. exfalso. apply Hn. split; [reflexivity|exact L]. }
  split; [|lia]. nia.
Qed.
(** The missing case is undefined behaviour: two u32 whose product is 2^63 or more. *)
Theorem sized_arith_refuted : exists a b, of_type U32 a /\ of_type U32 b /\
  eval_arith false Mul U32 U32 a b = UB /\ eval_arith true Mul U32 U32 a b = Panic 16.
Proof. exists 4294967295, 4294967295. vm_compute. repeat split; discriminate. Qed.
(** An operator that returns has returned the exact result, whichever integer types meet,
    unless a 64-bit unsigned operand meets a signed or a small one. *)
Theorem arith_never_wrong_partial : forall op l r a b x,
  of_type l a -> of_type r b ->
  (unsigned64 l <-> unsigned64 r) ->
  eval_arith false op l r a b = Ok x -> x = exact op a b.
Proof.
  intros op l r a b x Ha Hb Hu H.
  destruct (sized_name_small l r) as [S|[Wl Wr]].
  - assert (N : forall t v, of_type t v -> ~ unsigned64 t -> as_i64 v = v).
    { clear. intros t v Hv Hn. apply wi64. unfold unsigned64 in Hn. destruct t; try (exfalso; apply Hn; tauto; fail); rewrite of_type_num in Hv; lia. }
    assert (Nl : ~ unsigned64 l).
    { intros Ul. pose proof (proj1 Hu Ul) as Ur. destruct Ul, Ur; subst; discriminate S. }
    apply (arith_sized_sound op l r a b x S); [eapply N; eassumption| |assumption].
    eapply N; [eassumption|]. intros Ur. apply Nl, Hu, Ur.
  - assert (Hs : same_sign l r).
    { destruct Hu as [H1 H2]. unfold same_sign, signed, unsigned, unsigned64 in *.
      destruct Wl as [->|[->|[->| ->]]], Wr as [->|[->|[->| ->]]]; cbn; try (left; lia); try (right; lia);
        exfalso; first [destruct H1 as [E|E]; [tauto|discriminate E|discriminate E]|destruct H2 as [E|E]; [tauto|discriminate E|discriminate E]]. }
    destruct (arith_wide false op l r a b Wl Wr Hs Ha Hb) as [E1 E2].
    assert (D : of_type l (exact op a b) \/ ~ of_type l (exact op a b)) by (unfold of_type; lia).
    destruct D as [D|D]; [rewrite (E1 D) in H; injection H as <-; reflexivity|rewrite (E2 D) in H; discriminate H].
Qed.
Theorem mixed_arith_refuted :
  (* -1 (int) * 1 (uint) gives 2^64-1 *)
  eval_arith false Mul INT UINT (-1) 1 = Ok UINT64_MAX /\
  (* -1 (int) + 2 (uint) panics although the sum is 1 *)
  eval_arith false Add INT UINT (-1) 2 = Panic 8 /\
  (* 5 (i8) + 2^64-1 (uint) gives 4 *)
  eval_arith false Add I8 UINT 5 UINT64_MAX = Ok 4 /\
  (* byte + int near the maximum is undefined *)
  eval_arith false Add BYTE INT 1 INT64_MAX = UB /\
  (* int / uint divides by an unsigned value *)
  eval_div Quo INT UINT (-6) 2 = Some (Ok 9223372036854775805) /\
  (* a small unsigned type divided by a signed one does not compile *)
  eval_div Quo U8 INT 6 2 = None.
Proof. vm_compute. repeat split. Qed.
(** Comparison operators are exact on every pair of types except those for which C makes a
    negative operand unsigned. *)
Theorem comparison_exact_partial : forall l r a b, of_type l a -> of_type r b -> ~ loses_sign l r ->
  (eval_lt l r a b = true <-> a < b) /\ (eval_eq l r a b = true <-> a = b).
Proof.
  intros l r a b Ha Hb Hn. unfold eval_lt, eval_eq. destruct (conv_both l r a b Hn Ha Hb) as [-> ->].
  split; [apply Z.ltb_lt|apply Z.eqb_eq].
Qed.
Theorem comparison_refuted :
  (of_type INT (-1) /\ of_type UINT 1 /\ eval_lt INT UINT (-1) 1 = false) /\
  (of_type I32 (-1) /\ of_type U32 1 /\ eval_lt I32 U32 (-1) 1 = false) /\
  (of_type INT (-1) /\ of_type UINT UINT64_MAX /\ eval_eq INT UINT (-1) UINT64_MAX = true).
Proof. vm_compute. repeat split; discriminate. Qed.
(** Casts: the value if the target type has it, otherwise P0018 / P0019. *)
Theorem cast_exact_or_panic_partial : forall src tgt v, of_type src v ->
  ~ (unsigned64 src /\ small tgt /\ 2 ^ 63 <= v) ->
  exact_or_panic tgt v (if lo tgt =? 0 then 19 else 18) (eval_cast src tgt v).
Proof. exact cast_ok. Qed.
Theorem cast_refuted :
  of_type UINT UINT64_MAX /\ ~ of_type I8 UINT64_MAX /\ eval_cast UINT I8 UINT64_MAX = Ok (-1).
Proof. vm_compute. repeat split; try discriminate. intros [_ H]. apply H. reflexivity. Qed.
Example sized_ex :
  small I8 /\ small U32 /\ of_type I8 (-100) /\ of_type U32 50 /\
  eval_arith false Add I8 I8 100 27 = Ok 127 /\ eval_arith false Add I8 I8 100 28 = Panic 11 /\
  eval_arith false Add U32 I8 50 (-100) = Panic 16 /\ eval_arith false Mul U8 BYTE 16 16 = Panic 17 /\
  eval_arith false Add I8 I16 100 100 = Ok 200 /\
  eval_cast INT U8 256 = Panic 19 /\ eval_cast INT I16 (-32769) = Panic 18 /\ eval_cast U64 INT (2 ^ 63) = Panic 18 /\
  eval_cast INT UINT (-1) = Panic 19 /\ eval_cast U16 I8 77 = Ok 77 /\ ~ loses_sign U8 I16 /\ ~ loses_sign U32 INT.
Proof.
  split; [unfold small, wide; intuition discriminate|]. split; [unfold small, wide; intuition discriminate|].
  split; [unfold of_type; vm_compute; split; discriminate|]. split; [unfold of_type; vm_compute; split; discriminate|].
  split; [reflexivity|]. split; [reflexivity|]. split; [reflexivity|]. split; [reflexivity|]. split; [reflexivity|].
  split; [reflexivity|]. split; [reflexivity|]. split; [reflexivity|]. split; [reflexivity|]. split; [reflexivity|].
  unfold loses_sign, signed, small, wide; split; cbn; intuition (discriminate || lia).
Qed.

(** ---- C71: shifts ---- *)
Theorem shift_amount_checked : forall wv t u a n, of_type t a -> of_type u n -> ~ 0 <= n < 64 ->
  eval_shl wv t a n = Panic 92 /\ eval_shr t a n = Panic 92.
Proof.
  intros wv t u a n _ Hn Hr.
  assert (B : (as_i64 n <? 0) || (64 <=? as_i64 n) = true).
  { unfold as_i64, wrap_i. change (2 ^ (64 - 1)) with 9223372036854775808. change (2 ^ 64) with 18446744073709551616.
    rewrite of_type_num in Hn.
    destruct (n mod 18446744073709551616 <? 9223372036854775808) eqn:E; destruct u; lia. }
  unfold eval_shl, eval_shr. rewrite B. split; reflexivity.
Qed.
(** >> is division by 2^n rounded towards minus infinity (64-bit types: all n; small types: n < 32). *)
Theorem shift_right_floor : forall t a n, of_type t a -> 0 <= n < 64 -> (small t -> n < 32) ->
  exists q, eval_shr t a n = Ok q /\ q * 2 ^ n <= a < (q + 1) * 2 ^ n.
Proof.
  intros t a n Ha Hn Hs. exists (a / 2 ^ n).
  assert (P : 0 < 2 ^ n) by (apply Z.pow_pos_nonneg; lia).
  assert (E : as_i64 n = n) by (apply wi64; lia).
  split.
  - unfold eval_shr. rewrite E. replace ((n <? 0) || (64 <=? n)) with false by lia.
    assert (S : small t -> (32 <=? n) = false) by (intros S; specialize (Hs S); lia).
    destruct t; cbn [promote]; try reflexivity; rewrite S by (unfold small, wide; intuition discriminate); reflexivity.
  - clear - P. pose proof (Z.div_mod a (2 ^ n)). pose proof (Z.mod_pos_bound a (2 ^ n) P).
    generalize dependent (a / 2 ^ n). generalize dependent (a mod 2 ^ n). intros. nia.
Qed.
(** << on a 64-bit unsigned value keeps the low 64 bits; on an int it is exact where the
    result fits and the operand is not negative. *)
Theorem shift_left_partial : forall t a n, wide t -> of_type t a -> 0 <= n < 64 -> 0 <= a ->
  of_type t (a * 2 ^ n) -> forall wv, eval_shl wv t a n = Ok (a * 2 ^ n).
Proof.
  intros t a n W Ha Hn H0 Hr wv. assert (E : as_i64 n = n) by (apply wi64; lia).
  unfold eval_shl. rewrite E. replace ((n <? 0) || (64 <=? n)) with false by lia.
  rewrite of_type_num in Hr. generalize dependent (a * 2 ^ n). intros x Hr.
  destruct W as [->|[->|[->| ->]]]; cbn [promote]; try (rewrite wu64 by lia; reflexivity);
    (rewrite wi64 by lia; unfold INT64_MAX; destruct wv; [reflexivity|]; replace ((a <? 0) || (9223372036854775807 <? x)) with false by lia; reflexivity).
Qed.
Theorem shift_left_refuted :
  (* 1 << 63 on an int does not panic: undefined, negative when wrapped *)
  eval_shl false INT 1 63 = UB /\ eval_shl true INT 1 63 = Ok INT64_MIN /\
  (* bits of a uint are lost silently *)
  eval_shl false UINT (2 ^ 63) 1 = Ok 0 /\
  (* a negative int may not be shifted *)
  eval_shl false INT (-1) 1 = UB /\
  (* a small type is shifted as a C int: amounts 32..63 pass the check and are undefined *)
  eval_shl false U8 1 40 = UB /\ eval_shr U8 1 40 = UB.
Proof. vm_compute. repeat split. Qed.
Example shift_ex : eval_shr INT (-7) 1 = Ok (-4) /\ eval_shl false INT 5 3 = Ok 40 /\ eval_shl false INT 1 64 = Panic 92 /\
  eval_shr UINT 1 UINT64_MAX = Panic 92.
Proof. vm_compute. repeat split. Qed.

(** ---- C72: ranges ---- *)
(** A range loop with a non-zero step visits start, start+step, ... exactly as long as the
    value is before the end, then ends - normally if the value after the last one is an int. *)
Theorem range_loop_partial : forall s a e,
  in_i 64 a -> in_i 64 e -> in_i 64 (step_value s) -> step_value s <> 0 ->
  (forall k, s = Minus k -> 0 < k) ->
  exists n, visits a e (step_value s) n /\
    (forall m, visits a e (step_value s) m -> m = n) /\
    forall fuel, (n < fuel)%nat ->
      run_range fuel s a e =
        (terms a (step_value s) n,
         if (n =? 0)%nat || fits_i64 (a + Z.of_nat n * step_value s) then Done else Died 4).
Proof.
  intros s a e Ha He Hk Hnz Hm. destruct (visits_exists a e (step_value s) Hnz) as [n V].
  exists n. split; [assumption|]. split; [intros m W; symmetry; eapply visits_unique; eassumption|].
  intros fuel Hf. destruct s as [|k|k|k]; cbn [step_value] in *; unfold run_range.
  - apply loop_run with (k := 1); try assumption; try reflexivity.
    intros i Hi Hb. unfold before in Hb. change (0 <? 1) with true in Hb. cbv iota in Hb. unfold in_i in *.
    assert (fits_i64 (i + 1) = true) as E by (unfold fits_i64, INT64_MIN, INT64_MAX; lia).
    unfold int64_expr. rewrite E. reflexivity.
  - replace (k =? 0) with false by lia. apply loop_run; try assumption; [lia|reflexivity].
  - apply loop_run; try assumption; [specialize (Hm k eq_refl); lia|].
    intros i _ Hi. unfold neg_check. unfold in_i in Hk. replace (0 - k) with (- k) by lia.
    replace (fits_i64 (- k)) with true by (unfold fits_i64, INT64_MIN, INT64_MAX; lia). reflexivity.
  - replace (k =? 0) with false by lia. apply loop_run; try assumption; reflexivity.
Qed.
Theorem range_zero_step_panics : forall fuel a e,
  run_range fuel (Literal 0) a e = ([], Died 90) /\ run_range fuel (ByExpr 0) a e = ([], Died 90).
Proof. intros. split; reflexivity. Qed.
(** A step written -x: with x = 0 the loop never ends, with x < 0 it runs away from the end
    until the addition overflows. *)
Lemma loop_stuck incr e a : incr a = Ok a -> e < a -> forall fuel,
  loop fuel false incr e a = (repeat a fuel, Running).
Proof.
  intros Hi He fuel. induction fuel as [|f IH]; [reflexivity|].
  cbn [loop repeat]. replace (e <? a) with true by lia. rewrite Hi, IH. reflexivity.
Qed.
Theorem range_minus_refuted :
  (forall fuel, run_range fuel (Minus 0) 5 0 = (repeat 5 fuel, Running)) /\
  (* for i in range(0, 5, -x) with x = -1 visits nothing instead of 0..4 *)
  (visits 0 5 (step_value (Minus (-1))) 5 /\ forall fuel, run_range (S fuel) (Minus (-1)) 0 5 = ([], Done)) /\
  (* for i in range(MAX-1, 0, -x) with x = -1 visits MAX-1, MAX and panics; it should visit nothing *)
  (visits (INT64_MAX - 1) 0 (step_value (Minus (-1))) 0 /\
   run_range 5 (Minus (-1)) (INT64_MAX - 1) 0 = ([INT64_MAX - 1; INT64_MAX], Died 4)).
Proof.
  split; [|split; split].
  - intros fuel. apply loop_stuck; [reflexivity|lia].
  - split; [intros j Hj; unfold before; cbn; lia|unfold before; cbn; lia].
  - intros fuel. reflexivity.
  - split; [intros j Hj; lia|unfold before; cbn; unfold INT64_MAX; lia].
  - vm_compute. reflexivity.
Qed.
(** A last addition that overflows panics although every value has been visited. *)
Theorem range_overflow_refuted :
  visits 0 INT64_MAX (2 ^ 62) 2 /\
  forall fuel, (2 < fuel)%nat -> run_range fuel (Literal (2 ^ 62)) 0 INT64_MAX = ([0; 2 ^ 62], Died 4).
Proof.
  assert (V : visits 0 INT64_MAX (2 ^ 62) 2).
  { split; [intros j Hj; unfold before; cbn [Z.ltb]; change (2 ^ 62) with 4611686018427387904; unfold INT64_MAX; cbn; lia
           |unfold before; vm_compute; intros H; discriminate H]. }
  split; [exact V|]. intros fuel Hf.
  destruct (range_loop_partial (Literal (2 ^ 62)) 0 INT64_MAX) as (n & _ & U & R);
    [unfold in_i; cbn; lia|unfold in_i, INT64_MAX; cbn; lia|unfold in_i; cbn; lia|cbn; lia|discriminate|].
  specialize (U 2%nat V). subst n. rewrite R by assumption. vm_compute. reflexivity.
Qed.
(** x in range(a, e) and x in range(a, e, k) with k > 0 ask exactly whether the loop over the
    same range visits x. *)
Theorem range_membership_partial : forall s a e x n, in_i 64 a -> in_i 64 e -> in_i 64 x ->
  (forall k, s = Some k -> 0 < k /\ x - a <= INT64_MAX) ->
  visits a e (match s with Some k => k | None => 1 end) n ->
  exists b, in_range s a e x = Ok b /\
    (b = true <-> In x (terms a (match s with Some k => k | None => 1 end) n)).
Proof.
  intros s a e x n Ha He Hx Hk. set (k := match s with Some k => k | None => 1 end). intros V.
  assert (K : 0 < k) by (subst k; destruct s as [k|]; [apply Hk; reflexivity|lia]).
  assert (T : In x (terms a k n) <-> a <= x < e /\ (x - a) mod k = 0).
  { unfold terms. rewrite in_map_iff. destruct V as [V1 V2]. unfold before in V1, V2. replace (0 <? k) with true in * by lia.
    split.
    - intros (j & <- & Hj). apply in_seq in Hj. specialize (V1 j ltac:(lia)). split; [nia|].
      replace (a + Z.of_nat j * k - a) with (Z.of_nat j * k) by lia. apply Z.mod_mul. lia.
    - intros [Hr Hm]. exists (Z.to_nat ((x - a) / k)).
      pose proof (Z.div_mod (x - a) k ltac:(lia)) as D. rewrite Hm in D.
      assert (0 <= (x - a) / k) by (apply Z.div_pos; lia).
      split; [rewrite Z2Nat.id by assumption; lia|]. apply in_seq. split; [lia|].
      cbn [plus]. generalize dependent ((x - a) / k). intros q Dq Hq.
      assert (q < Z.of_nat n); [|lia]. apply Z.nle_gt. intros L. apply V2.
      nia. }
  unfold in_range. destruct ((a <=? x) && (x <? e)) eqn:R.
  - destruct s as [k'|]; subst k; cbv iota in *.
    + destruct (Hk k' eq_refl) as [_ Hd]. unfold int64_expr, fits_i64, INT64_MIN, INT64_MAX in *.
      replace ((-9223372036854775808 <=? x - a) && (x - a <=? 9223372036854775807)) with true by lia.
      cbn [rbind]. replace (k' =? 0) with false by lia. eexists. split; [reflexivity|].
      rewrite Z.rem_mod_nonneg by lia. rewrite T, Z.eqb_eq. intuition lia.
    + exists true. split; [reflexivity|]. rewrite T. rewrite Z.mod_1_r. intuition lia.
  - exists false. split; [reflexivity|]. rewrite T. split; [discriminate|]. intros [? _]. lia.
Qed.
(** With a negative step membership disagrees with the loop; with step 0 it divides by zero. *)
Theorem range_membership_refuted :
  (visits 5 0 (-1) 5 /\ In 3 (terms 5 (-1) 5) /\ in_range (Some (-1)) 5 0 3 = Ok false) /\
  in_range (Some 0) 0 5 3 = UB /\
  in_range (Some 1) INT64_MIN INT64_MAX 0 = UB.
Proof.
  split; [split; [|split]|split].
  - split; [intros j Hj|]; unfold before; change (0 <? -1) with false; cbv iota; lia.
  - vm_compute. tauto.
  - reflexivity.
  - reflexivity.
  - reflexivity.
Qed.
Example range_ex :
  run_range 10 (Literal 3) 0 10 = ([0; 3; 6; 9], Done) /\ run_range 10 (Minus 2) 5 0 = ([5; 3; 1], Done) /\
  run_range 10 (ByExpr (-2)) 5 0 = ([5; 3; 1], Done) /\ run_range 10 NoStep 2 5 = ([2; 3; 4], Done) /\
  run_range 10 NoStep 5 2 = ([], Done) /\ in_range (Some 3) 0 10 6 = Ok true /\ in_range (Some 3) 0 10 7 = Ok false.
Proof. vm_compute. repeat split. Qed.

(** ---- C73: call depth ---- *)
(** In any single-threaded execution the depth panic comes exactly when some moment nests
    more than 10000 calls. *)
Theorem call_depth : forall l,
  (run_calls 0 l = Panic 3 <-> exists p q, l = p ++ q /\ 10000 < nesting p) /\
  ((forall p q, l = p ++ q -> nesting p <= 10000) -> run_calls 0 l = Ok (nesting l)).
Proof.
  assert (G : forall l d, d <= 10000 ->
    (run_calls d l = Panic 3 <-> exists p q, l = p ++ q /\ 10000 < d + nesting p) /\
    ((forall p q, l = p ++ q -> d + nesting p <= 10000) -> run_calls d l = Ok (d + nesting l))).
  { induction l as [|[t|t] l IH]; intros d Hd; cbn [run_calls].
    - split.
      + split; [discriminate|]. intros (p & q & E & H). symmetry in E. apply app_eq_nil in E. destruct E as [-> ->]. change (nesting []) with 0 in H. lia.
      + intros _. change (nesting []) with 0. f_equal. lia.
    - destruct (10000 <? d + 1) eqn:E.
      + split.
        * split; [|reflexivity]. intros _. exists [Call t], l. split; [reflexivity|]. change (nesting [Call t]) with 1. lia.
        * intros H. specialize (H [Call t] l eq_refl). change (nesting [Call t]) with 1 in H. lia.
      + destruct (IH (d + 1)) as [I1 I2]; [lia|]. split.
        * rewrite I1. split; intros (p & q & Hl & Hn).
          -- exists (Call t :: p), q. split; [rewrite Hl; reflexivity|]. cbn [nesting fold_right]. fold (nesting p). lia.
          -- destruct p as [|ev p]; [change (nesting []) with 0 in Hn; lia|]. injection Hl as <- Hl. exists p, q. split; [assumption|].
             cbn [nesting fold_right] in Hn. fold (nesting p) in Hn. lia.
        * intros H. rewrite I2.
          -- cbn [nesting fold_right]. fold (nesting l). f_equal. lia.
          -- intros p q ->. specialize (H (Call t :: p) q eq_refl). cbn [nesting fold_right] in H. fold (nesting p) in H. lia.
    - destruct (IH (d - 1)) as [I1 I2]; [lia|]. split.
      * rewrite I1. split; intros (p & q & Hl & Hn).
        -- exists (Return t :: p), q. split; [rewrite Hl; reflexivity|]. cbn [nesting fold_right]. fold (nesting p). lia.
        -- destruct p as [|ev p]; [change (nesting []) with 0 in Hn; lia|]. injection Hl as <- Hl. exists p, q. split; [assumption|].
           cbn [nesting fold_right] in Hn. fold (nesting p) in Hn. lia.
      * intros H. rewrite I2.
        -- cbn [nesting fold_right]. fold (nesting l). f_equal. lia.
        -- intros p q ->. specialize (H (Return t :: p) q eq_refl). cbn [nesting fold_right] in H. fold (nesting p) in H. lia. }
  intros l. destruct (G l 0) as [G1 G2]; [lia|]. split; [exact G1|exact G2].
Qed.
(** The counter is shared by all threads: 101 threads, none more than 100 deep, panic. *)
Definition thread_calls (t : Z) : list call_event := repeat (Call t) 100.
Theorem call_depth_threads_refuted :
  let l := flat_map thread_calls (map Z.of_nat (seq 0 101)) in
  run_calls 0 l = Panic 3 /\
  forall t, nesting (filter (fun e => match e with Call u | Return u => u =? t end) l) <= 100.
Proof.
  intros l. split; [vm_compute; reflexivity|]. intros t.
  assert (F : forall ts, NoDup ts ->
    nesting (filter (fun e => match e with Call u | Return u => u =? t end) (flat_map thread_calls ts)) =
    if existsb (Z.eqb t) ts then 100 else 0).
  { assert (N0 : forall p q, nesting (p ++ q) = nesting p + nesting q).
    { induction p as [|[u|u] p IH]; intros q; [reflexivity|..]; cbn [app nesting fold_right]; fold (nesting (p ++ q)); fold (nesting p); rewrite IH; lia. }
    assert (R : forall u n, nesting (filter (fun e => match e with Call u | Return u => u =? t end) (repeat (Call u) n)) = if u =? t then Z.of_nat n else 0).
    { intros u n. induction n as [|n IH]; [destruct (u =? t); reflexivity|]. cbn [repeat filter].
      destruct (u =? t); [cbn [nesting fold_right]; fold (nesting (filter (fun e => match e with Call u | Return u => u =? t end) (repeat (Call u) n))); rewrite IH; lia|exact IH]. }
    induction ts as [|u ts IH]; intros ND; [reflexivity|]. inversion ND as [|? ? Hu Hts]; subst.
    cbn [flat_map existsb]. rewrite filter_app, N0, IH by assumption. unfold thread_calls. rewrite R.
    destruct (u =? t) eqn:E.
    - apply Z.eqb_eq in E. subst u. rewrite Z.eqb_refl. cbn [orb].
      replace (existsb (Z.eqb t) ts) with false; [reflexivity|]. symmetry. apply not_true_iff_false. intros X.
      apply existsb_exists in X. destruct X as (y & Hy & Ey). apply Z.eqb_eq in Ey. subst y. contradiction.
    - replace (t =? u) with false by lia. cbn [orb]. lia. }
  subst l. rewrite F; [destruct (existsb _ _); lia|].
  apply FinFun.Injective_map_NoDup; [intros x y; lia|apply seq_NoDup].
Qed.
Example call_depth_ex : run_calls 0 (repeat (Call 1) 5 ++ repeat (Return 1) 3) = Ok 2.
Proof. reflexivity. Qed.

Print Assumptions int64_arith_exact_or_panic.
Print Assumptions neg_exact_or_panic.
Print Assumptions incdec_exact_or_panic.
Print Assumptions division.
Print Assumptions sized_arith_exact_or_panic_partial.
Print Assumptions arith_never_wrong_partial.
Print Assumptions comparison_exact_partial.
Print Assumptions cast_exact_or_panic_partial.
Print Assumptions cast_refuted.
Print Assumptions shift_amount_checked.
Print Assumptions shift_right_floor.
Print Assumptions shift_left_partial.
Print Assumptions range_loop_partial.
Print Assumptions range_minus_refuted.
Print Assumptions range_membership_partial.
Print Assumptions call_depth.
Print Assumptions call_depth_threads_refuted.
