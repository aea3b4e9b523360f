From Coq Require Import ZifyBool.
From Verif Require Import Base BaseFacts ArithModel ArithSpec.
Ltac Zify.zify_post_hook ::= Z.div_mod_to_equations.

Lemma lo_hi t : (lo t, hi t) =
  match t with
  | I8 => (-128, 127) | I16 => (-32768, 32767) | I32 => (-2147483648, 2147483647)
  | I64 | INT => (-9223372036854775808, 9223372036854775807)
  | U8 | BYTE => (0, 255) | U16 => (0, 65535) | U32 => (0, 4294967295)
  | U64 | UINT => (0, 18446744073709551615)
  end.
Proof. destruct t; reflexivity. Qed.
Lemma of_type_num t v : of_type t v <->
  match t with
  | I8 => -128 <= v <= 127 | I16 => -32768 <= v <= 32767 | I32 => -2147483648 <= v <= 2147483647
  | I64 | INT => -9223372036854775808 <= v <= 9223372036854775807
  | U8 | BYTE => 0 <= v <= 255 | U16 => 0 <= v <= 65535 | U32 => 0 <= v <= 4294967295
  | U64 | UINT => 0 <= v <= 18446744073709551615
  end.
Proof. destruct t; reflexivity. Qed.
Lemma wi64 v : -9223372036854775808 <= v <= 9223372036854775807 -> wrap_i 64 v = v.
Proof.
  intros H. unfold wrap_i. change (2 ^ (64 - 1)) with 9223372036854775808. change (2 ^ 64) with 18446744073709551616.
  destruct (_ <? _) eqn:E; lia.
Qed.
Lemma wu64 v : 0 <= v <= 18446744073709551615 -> wrap_u 64 v = v.
Proof. intros H. unfold wrap_u. change (2 ^ 64) with 18446744073709551616. lia. Qed.
Lemma wi32 v : -2147483648 <= v <= 2147483647 -> wrap_i 32 v = v.
Proof.
  intros H. unfold wrap_i. change (2 ^ (32 - 1)) with 2147483648. change (2 ^ 32) with 4294967296.
  destruct (_ <? _) eqn:E; lia.
Qed.
Lemma wu32 v : 0 <= v <= 4294967295 -> wrap_u 32 v = v.
Proof. intros H. unfold wrap_u. change (2 ^ 32) with 4294967296. lia. Qed.

Lemma as_i64_id t v : of_type t v -> v <= 9223372036854775807 -> as_i64 v = v.
Proof. intros H Hm. apply wi64. apply of_type_num in H. destruct t; lia. Qed.
Lemma as_u64_id t v : of_type t v -> 0 <= v -> as_u64 v = v.
Proof. intros H Hm. apply wu64. apply of_type_num in H. destruct t; lia. Qed.

Lemma sized_ok wv code x l h : -9223372036854775808 <= x <= 9223372036854775807 ->
  sized_check wv code x l h = if (l <=? x) && (x <=? h) then Ok x else Panic code.
Proof.
  intros H. unfold sized_check, int64_expr, fits_i64, INT64_MIN, INT64_MAX.
  destruct ((_ <=? x) && (x <=? 9223372036854775807)) eqn:E; [|lia]. cbn [rbind].
  destruct ((x <? l) || (h <? x)) eqn:E2; destruct ((l <=? x) && (x <=? h)) eqn:E3; try reflexivity; lia.
Qed.
Lemma usized_ok wv code x h : -9223372036854775808 <= x <= 9223372036854775807 ->
  usized_check wv code x h = if x <? 0 then Panic 16 else if x <=? h then Ok x else Panic code.
Proof.
  intros H. unfold usized_check, int64_expr, fits_i64, INT64_MIN, INT64_MAX.
  destruct ((_ <=? x) && (x <=? 9223372036854775807)) eqn:E; [|lia]. cbn [rbind].
  destruct (x <? 0); [reflexivity|]. destruct (h <? x) eqn:E2; destruct (x <=? h) eqn:E3; try reflexivity; lia.
Qed.

Ltac lits := change (2 ^ 7 - 1) with 127 in *; change (2 ^ 15 - 1) with 32767 in *.
Ltac nums := repeat match goal with
  | H : of_type _ _ |- _ => rewrite of_type_num in H
  | H : ~ of_type _ _ |- _ => rewrite of_type_num in H
  | |- context [of_type _ _] => rewrite of_type_num
  end.

(** Both operands 64-bit types of the same signedness. *)
Lemma arith_wide wv op l r a b : wide l -> wide r -> same_sign l r ->
  of_type l a -> of_type r b ->
  exact_or_panic l (exact op a b) (overflow_code op l (exact op a b)) (eval_arith wv op l r a b).
Proof.
  intros Hl Hr Hs Ha Hb.
  assert (D : (forall x y, (x = INT \/ x = I64) -> (y = INT \/ y = I64) -> of_type x a -> of_type y b ->
    exact_or_panic x (exact op a b) (overflow_code op x (exact op a b)) (eval_arith wv op x y a b))).
  { clear. intros x y Hx Hy Ha Hb.
    assert (Ea : as_i64 a = a) by (apply wi64; destruct Hx; subst; nums; lia).
    assert (Eb : as_i64 b = b) by (apply wi64; destruct Hy; subst; nums; lia).
    destruct Hx, Hy; subst; unfold eval_arith, exact_or_panic; cbn [sized_name sized_int_bounds bounded int_type_rank kind_uint];
      cbn -[as_i64 add_check sub_check mul_check exact of_type overflow_code]; rewrite Ea, Eb; nums;
      destruct op; cbn [exact overflow_code]; unfold add_check, sub_check, mul_check, fits_i64, INT64_MIN, INT64_MAX;
      match goal with |- context [if ?c then _ else _] => destruct c eqn:E end; split; intros; try reflexivity; lia. }
  assert (U : (forall x y, (x = UINT \/ x = U64) -> (y = UINT \/ y = U64) -> of_type x a -> of_type y b ->
    exact_or_panic x (exact op a b) (overflow_code op x (exact op a b)) (eval_arith wv op x y a b))).
  { clear. intros x y Hx Hy Ha Hb.
    assert (Ea : as_u64 a = a) by (apply wu64; destruct Hx; subst; nums; lia).
    assert (Eb : as_u64 b = b) by (apply wu64; destruct Hy; subst; nums; lia).
    destruct Hx, Hy; subst; unfold eval_arith, exact_or_panic;
      cbn -[as_u64 uadd_check usub_check umul_check exact of_type overflow_code]; rewrite Ea, Eb; nums;
      destruct op; cbn [exact overflow_code]; unfold uadd_check, usub_check, umul_check, fits_u64, UINT64_MAX;
      match goal with |- context [if ?c then _ else _] => destruct c eqn:E end; split; intros; try reflexivity; lia. }
  destruct Hl as [->|[->|[->| ->]]], Hr as [->|[->|[->| ->]]];
    try (apply D; auto; fail); try (apply U; auto; fail);
    exfalso; clear - Hs; destruct Hs as [[A B]|[A B]]; unfold signed, unsigned in *; cbn in *; lia.
Qed.

(** A small type is involved: the check is made against [sized_name l r]. *)
Definition sized_target l r := match sized_int_bounds (sized_name l r) with Some _ => true | None => false end.
Lemma arith_sized wv op l r a b : sized_target l r = true ->
  of_type l a -> of_type r b -> as_i64 a = a -> as_i64 b = b ->
  -9223372036854775808 <= exact op a b <= 9223372036854775807 ->
  exact_or_panic (sized_name l r) (exact op a b) (overflow_code op (sized_name l r) (exact op a b)) (eval_arith wv op l r a b).
Proof.
  intros Hs _ _ Ea Eb Hx. unfold sized_target in Hs. unfold eval_arith, exact_or_panic.
  destruct (sized_name l r) eqn:Et; try discriminate Hs; cbn [sized_int_bounds]; rewrite Ea, Eb; nums;
    destruct op; cbn [exact overflow_code] in *;
    unfold sized_add_check, sized_sub_check, sized_mul_check, usized_add_check, usized_sub_check, usized_mul_check;
    rewrite ?sized_ok, ?usized_ok by assumption;
    match goal with
    | |- context [if ?c && ?d then _ else _] => destruct (c && d) eqn:E
    | |- context [if ?c then Panic 16 else _] => destruct c eqn:E1; match goal with |- context [if ?d then Ok _ else _] => destruct d eqn:E2 | _ => idtac end
    end; split; intros; try reflexivity; lia.
Qed.

(** Whatever the types, as long as no 64-bit unsigned operand meets a signed or small one,
    an operator that returns returns the exact result. *)
Lemma sized_name_small l r : sized_target l r = true \/ (wide l /\ wide r).
Proof.
  unfold wide. destruct l; try (right; split; tauto);
    destruct r; try (left; reflexivity); right; split; tauto.
Qed.
Lemma int64_expr_false x y : int64_expr false x = Ok y -> y = x /\ fits_i64 x = true.
Proof. unfold int64_expr. destruct (fits_i64 x); [|discriminate]. intros [= <-]. split; reflexivity. Qed.
Lemma arith_sized_sound op l r a b x : sized_target l r = true -> as_i64 a = a -> as_i64 b = b ->
  eval_arith false op l r a b = Ok x -> x = exact op a b /\ of_type (sized_name l r) x.
Proof.
  intros Hs Ea Eb H. unfold sized_target in Hs. unfold eval_arith in H.
  destruct (sized_name l r) eqn:Et; try discriminate Hs; cbn [sized_int_bounds] in H; rewrite Ea, Eb in H; nums;
  destruct op; cbn [exact];
  unfold sized_add_check, sized_sub_check, sized_mul_check, usized_add_check, usized_sub_check, usized_mul_check,
    sized_check, usized_check in H;
  match type of H with rbind (int64_expr false ?e) _ = _ =>
    destruct (int64_expr false e) eqn:E; try discriminate H; apply int64_expr_false in E; destruct E as [-> E]; cbn [rbind] in H end;
  repeat match type of H with (if ?c then _ else _) = _ => destruct c eqn:?; try discriminate H end;
  injection H as <-; split; try reflexivity; lia.
Qed.

(** unary minus, ++ and -- *)
Lemma neg_ok wv t a : signed t -> of_type t a ->
  exact_or_panic t (- a) (match t with INT | I64 => 7 | _ => 14 end) (eval_neg wv t a).
Proof.
  intros Hs Ha. unfold exact_or_panic.
  destruct t; try (exfalso; clear - Hs; unfold signed in Hs; cbn in Hs; lia); nums; unfold eval_neg;
    unfold sized_neg_check, neg_check, fits_i64, INT64_MIN, INT64_MAX; try rewrite sized_ok by lia;
    try replace (0 - a) with (- a) by lia;
    match goal with |- context [if ?c then _ else _] => destruct c eqn:E end; split; intros; try reflexivity; lia.
Qed.
Lemma step_ok wv (inc : bool) t a : of_type t a ->
  let x := if inc then a + 1 else a - 1 in
  exact_or_panic t x (overflow_code (if inc then Add else Sub) t x) (eval_step wv inc t a).
Proof.
  intros Ha x. unfold exact_or_panic, eval_step.
  destruct t; nums; cbn [sized_int_bounds kind_uint]; subst x; destruct inc; cbn [overflow_code];
    unfold sized_add_check, sized_sub_check, usized_add_check, usized_sub_check, inc_check, dec_check, add_check, sub_check,
      uadd_check, usub_check, fits_i64, fits_u64, INT64_MIN, INT64_MAX, UINT64_MAX; rewrite ?sized_ok, ?usized_ok by lia;
    repeat match goal with |- context [if ?c then _ else _] => destruct c eqn:? end; split; intros; try reflexivity; lia.
Qed.

(** conversions *)
Lemma common_sym l r : common l r = common r l.
Proof. destruct l, r; reflexivity. Qed.
Lemma conv_both l r a b : ~ loses_sign l r -> of_type l a -> of_type r b ->
  conv (common l r) a = a /\ conv (common l r) b = b.
Proof.
  intros Hn Ha Hb. unfold loses_sign in Hn.
  destruct l, r; cbn [common promote]; unfold conv; rewrite of_type_num in Ha, Hb;
    first [ split; first [apply wi32; lia|apply wu32; lia|apply wi64; lia|apply wu64; lia]
          | exfalso; apply Hn; clear; unfold signed, small, wide; cbn; intuition (lia || congruence) ].
Qed.

Lemma trunc_spec a b : b <> 0 -> truncated a b (Z.quot a b) (Z.rem a b).
Proof.
  intros Hb. unfold truncated. pose proof (Z.quot_rem a b Hb). split; [assumption|].
  split; [apply Z.rem_bound_abs; assumption|].
  split; intros; [apply Z.rem_nonneg; assumption|].
  destruct (Z.eq_dec a 0) as [->|]; [rewrite Z.rem_0_l by assumption; lia|].
  apply Z.rem_nonpos; assumption.
Qed.
Lemma c_div_ok c op a b : b <> 0 -> ~ (b = -1 /\ a = match c with CI32 => -2147483648 | CI64 => INT64_MIN | _ => 1 end) ->
  c_div c op a b = Ok (match op with Quo => Z.quot a b | Rem => Z.rem a b end).
Proof.
  intros Hb Hn. unfold c_div. replace (b =? 0) with false by lia. cbn [orb].
  match goal with |- context [if ?c then _ else _] => destruct c eqn:E end; [|reflexivity].
  exfalso. apply Hn. apply andb_true_iff in E. destruct E as [E1 E2]. split; [lia|].
  apply Z.eqb_eq in E1. exact E1.
Qed.
Lemma same_sign_no_loss l r : same_sign l r -> ~ loses_sign l r.
Proof.
  intros H L. destruct l, r; unfold same_sign, loses_sign, signed, unsigned, small, wide in *; cbn in *;
  destruct H as [[A B]|[A B]], L as [[C D]|[[C D]|[[C [D E]]|[C [D E]]]]]; try lia; try (destruct D; discriminate); try discriminate.
Qed.
Lemma div_signed op l r a b : signed l -> signed r -> of_type l a -> of_type r b ->
  eval_div op l r a b =
    Some (if b =? 0 then Panic 78
          else if (a =? lo l) && (b =? -1) then Panic 79
          else Ok (match op with Quo => Z.quot a b | Rem => Z.rem a b end)).
Proof.
  intros Hl Hr Ha Hb.
  destruct (conv_both l r a b) as [Ca Cb]; [apply same_sign_no_loss; left; split; assumption|assumption..|].
  assert (G : (conv (common r I32) b =? conv (common r I32) (-1)) = (b =? -1)).
  { destruct (conv_both r I32 b (-1)) as [-> ->]; [apply same_sign_no_loss; left; split; [assumption|unfold signed; cbn; lia]|assumption|rewrite of_type_num; lia|reflexivity]. }
  assert (Ea : as_i64 a = a). { apply wi64. destruct l; try (exfalso; clear - Hl; unfold signed in Hl; cbn in Hl; lia); rewrite of_type_num in Ha; lia. }
  unfold eval_div. rewrite G, Ea, Ca, Cb.
  assert (K : kind_int l = true) by (destruct l; try reflexivity; exfalso; clear - Hl; unfold signed in Hl; cbn in Hl; lia).
  rewrite K. cbn [orb].
  assert (M : exists u h, sized_int_bounds l = Some (lo l, h, u) /\ u = false \/ sized_int_bounds l = None /\ lo l = INT64_MIN).
  { destruct l; try (exfalso; clear - Hl; unfold signed in Hl; cbn in Hl; lia); cbn; try (exists false; eexists; left; split; reflexivity); exists false, 0; right; split; reflexivity. }
  assert (F : b <> 0 -> ~ (a = lo l /\ b = -1) -> c_div (common l r) op a b = Ok (match op with Quo => Z.quot a b | Rem => Z.rem a b end)).
  { intros H0 H1. apply c_div_ok; [assumption|]. intros [Hb1 Hm]. apply H1. split; [|assumption].
    destruct l; try (exfalso; clear - Hl; unfold signed in Hl; cbn in Hl; lia);
      destruct r; try (exfalso; clear - Hr; unfold signed in Hr; cbn in Hr; lia); cbn in Hm; rewrite of_type_num in Ha; cbn; unfold INT64_MIN in Hm; lia. }
  destruct M as (u & h & [[-> ->]|[-> Em]]); [|rewrite <- Em]; f_equal;
    (destruct (b =? 0) eqn:E0; [reflexivity|]; destruct ((a =? lo l) && (b =? -1)) eqn:E1; [reflexivity|]; apply F; lia).
Qed.
Lemma div_unsigned op l r a b : unsigned l -> unsigned r -> of_type l a -> of_type r b ->
  eval_div op l r a b =
    Some (if b =? 0 then Panic 78 else Ok (match op with Quo => Z.quot a b | Rem => Z.rem a b end)).
Proof.
  intros Hl Hr Ha Hb.
  destruct (conv_both l r a b) as [Ca Cb]; [apply same_sign_no_loss; right; split; assumption|assumption..|].
  unfold eval_div. rewrite Ca, Cb.
  assert (K : forall t, unsigned t -> kind_int t = false) by (intros t Ht; destruct t; try reflexivity; exfalso; clear - Ht; unfold unsigned in Ht; cbn in Ht; lia).
  rewrite (K l Hl), (K r Hr). cbn [orb]. destruct (b =? 0) eqn:E; [reflexivity|]. f_equal.
  apply c_div_ok; [lia|]. intros [Hb1 _].
  assert (0 <= b); [|lia]. destruct r; rewrite of_type_num in Hb; try lia; exfalso; clear - Hr; unfold unsigned in Hr; cbn in Hr; lia.
Qed.

Lemma cast_ok src tgt v : of_type src v -> ~ (unsigned64 src /\ small tgt /\ 2 ^ 63 <= v) ->
  exact_or_panic tgt v (if (lo tgt =? 0) then 19 else 18) (eval_cast src tgt v).
Proof.
  intros Hv Hn. unfold exact_or_panic.
  destruct (Z_lt_le_dec v 9223372036854775808) as [L|L].
  - assert (Ea : as_i64 v = v) by (apply wi64; destruct src; rewrite of_type_num in Hv; lia).
    destruct tgt; unfold eval_cast; cbn [sized_int_bounds]; rewrite ?Ea; rewrite of_type_num;
      change (lo I8 =? 0) with false; change (lo I16 =? 0) with false; change (lo I32 =? 0) with false;
      change (lo I64 =? 0) with false; change (lo INT =? 0) with false; cbn [lo];
      change (0 =? 0) with true; cbv iota;
      try (unfold cast_check, ucast_check; match goal with |- context [if ?c then _ else _] => destruct c eqn:E end; split; intros; try reflexivity; lia);
      destruct src; rewrite of_type_num in Hv; cbn [kind_int];
      try (assert (Eu : as_u64 v = v) by (apply wu64; lia); rewrite Eu);
      unfold uint_to_int_check, ucast_check, INT64_MAX, UINT64_MAX;
      try match goal with |- context [if ?c then _ else _] => destruct c eqn:E end; split; intros; try reflexivity; lia.
  - assert (Hs : unsigned64 src) by (unfold unsigned64; destruct src; rewrite of_type_num in Hv; try lia; tauto).
    assert (Ht : wide tgt). { unfold wide. destruct tgt; try tauto; exfalso; apply Hn; (split; [assumption|split; [unfold small, wide; intuition congruence|exact L]]). }
    assert (Eu : as_u64 v = v) by (apply wu64; destruct Hs; subst; rewrite of_type_num in Hv; lia).
    destruct Ht as [->|[->|[->| ->]]]; destruct Hs; subst; rewrite of_type_num in *; unfold eval_cast; cbn [sized_int_bounds kind_int]; rewrite Eu;
      unfold uint_to_int_check, INT64_MAX; try match goal with |- context [if ?c then Panic 18 else _] => destruct c eqn:E end; split; intros; try reflexivity; lia.
Qed.

(** range loops *)
Lemma terms_S a k n : terms a k (S n) = a :: terms (a + k) k n.
Proof.
  unfold terms. cbn [seq map]. f_equal; [lia|]. rewrite <- seq_shift, map_map. apply map_ext. intros j. lia.
Qed.
Lemma visits_tail a e k n : visits a e k (S n) -> visits (a + k) e k n.
Proof.
  intros [V1 V2]. split.
  - intros j Hj. specialize (V1 (S j) ltac:(lia)). replace (a + k + Z.of_nat j * k) with (a + Z.of_nat (S j) * k) by lia. assumption.
  - intros H. apply V2. replace (a + Z.of_nat (S n) * k) with (a + k + Z.of_nat n * k) by lia. assumption.
Qed.
Lemma visits_exists a e k : k <> 0 -> exists n, visits a e k n.
Proof.
  intros Hk. set (m := if 0 <? k then Z.max 0 (e - a) else Z.max 0 (a - e)).
  assert (M : forall n a, (if 0 <? k then Z.max 0 (e - a) else Z.max 0 (a - e)) <= Z.of_nat n -> exists n, visits a e k n).
  { clear m a. intros n. induction n as [|n IH]; intros a Hm.
    - exists O. split; [intros; lia|]. unfold before. destruct (0 <? k) eqn:E; lia.
    - assert (D : before k a e \/ ~ before k a e) by (unfold before; destruct (0 <? k); lia).
      destruct D as [D|D].
      + destruct (IH (a + k)) as [x [V1 V2]].
        { unfold before in D. destruct (0 <? k) eqn:E; lia. }
        exists (S x). split.
        * intros j Hj. destruct j; [replace (a + Z.of_nat 0 * k) with a by lia; assumption|].
          specialize (V1 j ltac:(lia)). replace (a + Z.of_nat (S j) * k) with (a + k + Z.of_nat j * k) by lia. assumption.
        * intros H. apply V2. replace (a + k + Z.of_nat x * k) with (a + Z.of_nat (S x) * k) by lia. assumption.
      + exists O. split; [intros; lia|]. replace (a + Z.of_nat 0 * k) with a by lia. assumption. }
  apply (M (Z.to_nat m) a). subst m. lia.
Qed.
Lemma visits_unique a e k n m : k <> 0 -> visits a e k n -> visits a e k m -> n = m.
Proof.
  intros Hk [V1 V2] [W1 W2]. destruct (lt_eq_lt_dec n m) as [[L|L]|L]; [|assumption|].
  - exfalso. apply V2, W1, L.
  - exfalso. apply W2, V1, L.
Qed.
Lemma loop_run (up : bool) k e incr n : k <> 0 -> up = (0 <? k) ->
  (forall i, in_i 64 i -> before k i e -> incr i = if fits_i64 (i + k) then Ok (i + k) else Panic 4) ->
  in_i 64 e ->
  forall a fuel, in_i 64 a -> visits a e k n -> (n < fuel)%nat ->
  loop fuel up incr e a = (terms a k n, if (n =? 0)%nat || fits_i64 (a + Z.of_nat n * k) then Done else Died 4).
Proof.
  intros Hk Hup Hin He. induction n as [|n IH]; intros a fuel Ha V Hf.
  - destruct fuel as [|f]; [lia|]. cbn [loop Nat.eqb orb]. destruct V as [_ V].
    replace (a + Z.of_nat 0 * k) with a in V by lia. unfold before in V. subst up.
    destruct (0 <? k); [destruct (a <? e) eqn:E; [lia|reflexivity]|destruct (e <? a) eqn:E; [lia|reflexivity]].
  - destruct fuel as [|f]; [lia|]. cbn [loop].
    assert (B : before k a e). { destruct V as [V _]. specialize (V 0%nat ltac:(lia)). replace (a + Z.of_nat 0 * k) with a in V by lia. assumption. }
    replace (if up then a <? e else e <? a) with true by (unfold before in B; subst up; destruct (0 <? k); lia).
    rewrite (Hin a Ha B). destruct (fits_i64 (a + k)) eqn:F.
    + rewrite (IH (a + k) f); [|unfold in_i; unfold fits_i64, INT64_MIN, INT64_MAX in F; lia|apply visits_tail; assumption|lia].
      rewrite terms_S. cbn [Nat.eqb orb]. f_equal. 
      replace (a + k + Z.of_nat n * k) with (a + Z.of_nat (S n) * k) by lia.
      destruct n; [cbn [Nat.eqb orb]; replace (a + Z.of_nat 1 * k) with (a + k) by lia; rewrite F; reflexivity|reflexivity].
    + assert (N : n = O).
      { destruct n; [reflexivity|]. exfalso. destruct V as [V _]. specialize (V 1%nat ltac:(lia)).
        replace (a + Z.of_nat 1 * k) with (a + k) in V by lia. unfold before in V, B. unfold in_i in *. unfold fits_i64, INT64_MIN, INT64_MAX in F.
        destruct (0 <? k) eqn:E; lia. }
      subst n. rewrite terms_S. cbn [terms seq map Nat.eqb orb]. replace (a + Z.of_nat 1 * k) with (a + k) by lia. rewrite F. reflexivity.
Qed.
