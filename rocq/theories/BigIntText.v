(** Decimal text of wide integers and casts to 64 bits. *)
From Verif Require Import Base BaseFacts Decimal DecimalFacts BigIntModel BigIntSpec BigIntProofs BigIntDiv BigIntSigned BigInt256 BigInt256Div.
Ltac Zify.zify_post_hook ::= Z.div_mod_to_equations.

Lemma u128_small_ok n : is_word n -> u128_ok (U128 n 0) /\ u128_val (U128 n 0) = n.
Proof. intros H. split; [split; [exact H|cbn; unfold is_word; consts; lia]|]. unfold u128_val, words_val. cbn [ulo uhi]. lia. Qed.
Lemma w256_small_ok v : is_word v -> w256_ok [v; 0; 0; 0] /\ u256_val [v; 0; 0; 0] = v.
Proof.
  intros Hv. split; [split; [reflexivity|repeat apply Forall_cons; try apply Forall_nil; try apply Hv; unfold is_word; consts; lia]|].
  unfold u256_val, words_val. lia.
Qed.
Lemma word_10 : is_word 10. Proof. unfold is_word. consts. lia. Qed.

(** * Reading *)
Lemma char_digit c : is_digit c -> char_minus_0 c = c - 48 /\ is_word (char_minus_0 c).
Proof.
  unfold is_digit, char_minus_0, to_u64, M64, is_word. intros H. rewrite (proj2 (Z.ltb_lt c 128)) by lia. consts. lia.
Qed.
Lemma dec_val_from_mod s : forall a M, 0 < M -> dec_val_from (a mod M) s mod M = dec_val_from a s mod M.
Proof.
  intros a M HM. rewrite !dec_val_from_acc. rewrite Z.add_mod, Z.mul_mod, Z.mod_mod, <- Z.mul_mod, <- Z.add_mod by lia. reflexivity.
Qed.

Lemma u128_from_decimal_spec s : forall acc, u128_ok acc -> Forall is_digit (digits_only s) ->
  u128_ok (u128_from_decimal_loop acc s) /\
  u128_val (u128_from_decimal_loop acc s) = dec_val_from (u128_val acc) (digits_only s) mod 2 ^ 128.
Proof.
  induction s as [|c s IH]; intros acc Ha Hs.
  - cbn [u128_from_decimal_loop digits_only filter dec_val_from]. split; [exact Ha|]. symmetry. apply Z.mod_small, u128_val_range, Ha.
  - unfold digits_only in *. cbn [u128_from_decimal_loop filter] in *. destruct (c =? 95); cbn [negb] in *.
    + apply IH; assumption.
    + inversion Hs as [|? ? Hc Hs']; subst. destruct (char_digit c Hc) as [Ec Wc].
      destruct (u128_small_ok _ Wc) as [Oc Vc]. destruct (u128_small_ok 10 word_10) as [Ot Vt].
      pose proof (u128_mul_ok acc (U128 10 0) Ha Ot) as Om. pose proof (u128_mul_val acc (U128 10 0) Ha Ot) as Vm.
      pose proof (u128_add_ok _ _ Om Oc) as Oa. pose proof (u128_add_val _ _ Om Oc) as Va.
      destruct (IH _ Oa Hs') as [O V]. split; [exact O|]. rewrite V, Va, Vm, Vc, Vt. cbn [dec_val_from].
      rewrite Z.add_mod_idemp_l by discriminate. rewrite dec_val_from_mod by reflexivity. rewrite Ec. reflexivity.
Qed.
Lemma u128_from_decimal_val s : Forall is_digit (digits_only s) ->
  u128_ok (u128_from_decimal s) /\ u128_val (u128_from_decimal s) = dec_val (digits_only s) mod 2 ^ 128.
Proof. intros H. apply (u128_from_decimal_spec s U128_ZERO u128_zero_ok H). Qed.

Lemma u256_from_decimal_spec s : forall acc, w256_ok acc -> Forall is_digit (digits_only s) ->
  w256_ok (u256_from_decimal_loop acc s) /\
  u256_val (u256_from_decimal_loop acc s) = dec_val_from (u256_val acc) (digits_only s) mod 2 ^ 256.
Proof.
  induction s as [|c s IH]; intros acc Ha Hs.
  - cbn [u256_from_decimal_loop digits_only filter dec_val_from]. split; [exact Ha|]. symmetry. apply Z.mod_small, w256_range, Ha.
  - unfold digits_only in *. cbn [u256_from_decimal_loop filter] in *. destruct (c =? 95); cbn [negb] in *.
    + apply IH; assumption.
    + inversion Hs as [|? ? Hc Hs']; subst. destruct (char_digit c Hc) as [Ec Wc].
      destruct (w256_small_ok _ Wc) as [Oc Vc]. destruct (w256_small_ok 10 word_10) as [Ot Vt].
      destruct (w256_mul_val acc _ Ha Ot) as [Om Vm]. destruct (w256_add_val _ _ Om Oc) as [Oa Va].
      destruct (IH _ Oa Hs') as [O V]. split; [exact O|]. rewrite V, Va, Vm, Vc, Vt. cbn [dec_val_from].
      rewrite Z.add_mod_idemp_l by discriminate. rewrite dec_val_from_mod by reflexivity. rewrite Ec. reflexivity.
Qed.
Lemma u256_from_decimal_val s : Forall is_digit (digits_only s) ->
  w256_ok (u256_from_decimal s) /\ u256_val (u256_from_decimal s) = dec_val (digits_only s) mod 2 ^ 256.
Proof. intros H. apply (u256_from_decimal_spec s W256_ZERO w256_zero_ok H). Qed.

Lemma no_minus_digit s : Forall is_digit (digits_only s) -> forall r, s <> 45 :: r.
Proof.
  intros H r ->. unfold digits_only in H. cbn in H. inversion H as [|? ? X]; subst. unfold is_digit in X. lia.
Qed.

Lemma i128_from_decimal_pos wv s : Forall is_digit (digits_only s) -> 
  exists r, i128_from_decimal wv s = Ok r /\ i128_ok r /\ i128_val r = wrap_i 128 (dec_val (digits_only s)).
Proof.
  intros H. unfold i128_from_decimal. pose proof (no_minus_digit s H) as N.
  assert (E : (match s with c :: r => if c =? 45 then (true, r) else (false, s) | [] => (false, s) end) = (false, s)).
  { destruct s as [|c r]; [reflexivity|]. destruct (c =? 45) eqn:C; [|reflexivity]. exfalso. apply (N r). f_equal. lia. }
  rewrite E. destruct (u128_from_decimal_val s H) as [[Hl Hh] V].
  destruct (wrap_hi_val _ _ Hl Hh) as [O W]. eexists. split; [reflexivity|]. split; [exact O|]. rewrite W.
  replace (U128 _ _) with (u128_from_decimal s) by (destruct (u128_from_decimal s); reflexivity). rewrite V.
  destruct (wrap128_spec (dec_val (digits_only s) mod 2 ^ 128)) as (k & K & R).
  apply (wrap128_unique _ _ (k - dec_val (digits_only s) / 2 ^ 128)); [exact R|]. rewrite K, Z.mod_eq by discriminate. ring.
Qed.
Lemma i128_from_decimal_neg wv s r : Forall is_digit (digits_only s) -> i128_from_decimal wv (45 :: s) = Ok r ->
  i128_ok r /\ i128_val r = wrap_i 128 (- dec_val (digits_only s)).
Proof.
  intros H. unfold i128_from_decimal. cbn [Z.eqb Pos.eqb].
  destruct (u128_from_decimal_val s H) as [[Hl Hh] V]. destruct (wrap_hi_val _ _ Hl Hh) as [O W].
  intros E. apply i128_neg_ok in E as [Or Vr]; [|exact O]. split; [exact Or|]. rewrite Vr, W, wrap128_neg.
  replace (U128 _ _) with (u128_from_decimal s) by (destruct (u128_from_decimal s); reflexivity). rewrite V.
  destruct (wrap128_spec (- (dec_val (digits_only s) mod 2 ^ 128))) as (k & K & R).
  apply (wrap128_unique _ _ (k + dec_val (digits_only s) / 2 ^ 128)); [exact R|]. rewrite K, Z.mod_eq by discriminate. ring.
Qed.
Lemma i128_from_decimal_neg_def wv s : Forall is_digit (digits_only s) ->
  wv = true \/ dec_val (digits_only s) < 2 ^ 127 -> exists r, i128_from_decimal wv (45 :: s) = Ok r.
Proof.
  intros H D. unfold i128_from_decimal. cbn [Z.eqb Pos.eqb].
  destruct (u128_from_decimal_val s H) as [[Hl Hh] V]. destruct (wrap_hi_val _ _ Hl Hh) as [O W].
  apply i128_neg_def; [exact O|]. destruct D as [D|D]; [left; exact D|right]. rewrite W.
  replace (U128 _ _) with (u128_from_decimal s) by (destruct (u128_from_decimal s); reflexivity). rewrite V.
  pose proof (dec_val_bound _ H). rewrite Z.mod_small by (consts; lia). rewrite wrap128_id by (consts; lia). consts; lia.
Qed.

(** * Writing *)
Lemma u128_digits_spec pos : forall v out, u128_ok v -> u128_val v < 10 ^ Z.of_nat pos ->
  u128_digits pos v out = Ok ((if u128_val v =? 0 then [] else dec (u128_val v)) ++ out).
Proof.
  induction pos as [|p IH]; intros v out Hv Hb; pose proof (u128_val_range v Hv) as R.
  - change (10 ^ Z.of_nat 0) with 1 in Hb. cbn [u128_digits]. fold (u128_is_zero v). rewrite u128_is_zero_val by exact Hv.
    replace (u128_val v) with 0 by lia. reflexivity.
  - cbn [u128_digits]. fold (u128_is_zero v). rewrite u128_is_zero_val by exact Hv.
    destruct (u128_val v =? 0) eqn:E0; [reflexivity|].
    destruct (u128_small_ok 10 word_10) as [Ot Vt].
    destruct (u128_divmod_spec v (U128 10 0) Hv Ot ltac:(lia)) as (Oq & Or & Vq & Vr).
    unfold u128_div, u128_mod in *. destruct (u128_divmod v (U128 10 0)) as [q r]. cbn [fst snd] in *. rewrite Vt in *.
    assert (El : ulo r = u128_val v mod 10).
    { rewrite <- Vr. assert (u128_val r < 10) by lia. clear - H Or. u64. consts. lia. }
    rewrite IH; [|exact Oq|]. 2:{ rewrite Vq. rewrite Nat2Z.inj_succ, Z.pow_succ_r in Hb by lia.
       apply Z.div_lt_upper_bound; lia. }
    f_equal. rewrite Vq, El.
    change ((if u128_val v / 10 =? 0 then [] else dec (u128_val v / 10)) ++ [48 + u128_val v mod 10] ++ out = dec (u128_val v) ++ out).
    rewrite app_assoc. f_equal. set (n := u128_val v) in *. clearbody n. clear - E0 R.
    destruct (n / 10 =? 0) eqn:E1.
    + rewrite dec_small by lia. cbn [app]. f_equal. f_equal. lia.
    + rewrite (dec_snoc n) by lia. reflexivity.
Qed.
Lemma dec_word_firstn x : is_word x -> firstn 20 (dec x) = dec x.
Proof.
  intros H. apply firstn_all2. apply (dec_length x 20); [|lia]. unfold is_word in H.
  change (10 ^ Z.of_nat 20) with 100000000000000000000. consts. lia.
Qed.
Lemma u128_to_string_val v : u128_ok v -> u128_to_string v = Ok (dec (u128_val v)).
Proof.
  intros Hv. unfold u128_to_string. pose proof (u128_val_range v Hv) as R. destruct (uhi v =? 0) eqn:E.
  - assert (V : u128_val v = ulo v) by (unfold u128_val, words_val; lia). rewrite V, dec_word_firstn by apply Hv. reflexivity.
  - rewrite u128_digits_spec; [|exact Hv|]. 2:{ eapply Z.lt_trans; [apply R|reflexivity]. }
    assert (N : u128_val v <> 0) by (clear R; u64; consts; lia). rewrite (proj2 (Z.eqb_neq _ _) N), app_nil_r. reflexivity.
Qed.
Lemma i128_to_string_val wv v : i128_ok v -> wv = true \/ i128_val v <> - 2 ^ 127 ->
  i128_to_string wv v = Ok (dec_signed (i128_val v)).
Proof.
  intros Hv D. unfold i128_to_string, dec_signed. rewrite i128_sign by exact Hv. pose proof (i128_val_range v Hv) as R.
  destruct (i128_val v <? 0) eqn:E.
  - destruct (i128_neg_def wv v Hv D) as [n En]. rewrite En. cbn [rbind]. destruct (i128_neg_ok _ _ _ Hv En) as [On Vn].
    destruct (unsigned_hi_val n On) as [Ou Vu]. rewrite u128_to_string_val by exact Ou. cbn [rmap]. rewrite Vu, Vn. do 3 f_equal.
    destruct (wrap128_spec (- i128_val v)) as (k & K & Rk). rewrite K in *. clear Vu Vn. consts. lia.
  - destruct (unsigned_hi_val v Hv) as [Ou Vu]. rewrite u128_to_string_val by exact Ou. rewrite Vu.
    rewrite Z.mod_small by (consts; lia). reflexivity.
Qed.

Lemma ten_not_full : ~ inner_word_full 10.
Proof. intros [H|H]; unfold full_word in H; vm_compute in H; discriminate. Qed.
Lemma u256_digits_spec pos : forall v out, w256_ok v -> u256_val v < 10 ^ Z.of_nat pos ->
  u256_digits pos v out = Ok ((if u256_val v =? 0 then [] else dec (u256_val v)) ++ out).
Proof.
  induction pos as [|p IH]; intros v out Hv Hb; pose proof (w256_range v Hv) as R.
  - change (10 ^ Z.of_nat 0) with 1 in Hb. cbn [u256_digits]. rewrite zero256_val by exact Hv.
    replace (u256_val v) with 0 by lia. reflexivity.
  - cbn [u256_digits]. rewrite zero256_val by exact Hv.
    destruct (u256_val v =? 0) eqn:E0; [reflexivity|].
    destruct (w256_small_ok 10 word_10) as [Ot Vt].
    destruct (u256_divmod_spec v [10; 0; 0; 0] Hv Ot ltac:(lia) ltac:(rewrite Vt; apply ten_not_full)) as (Oq & Or & Vq & Vr).
    unfold u256_div, u256_mod in *. destruct (u256_divmod v [10; 0; 0; 0]) as [q r]. cbn [fst snd] in *. rewrite Vt in *.
    assert (El : word r 0 = u256_val v mod 10).
    { rewrite <- Vr. rewrite word_spec by apply Or. rewrite WB_0, Z.div_1_r. fold (u256_val r). apply Z.mod_small. rewrite Vr. consts. lia. }
    rewrite IH; [|exact Oq|]. 2:{ rewrite Vq. rewrite Nat2Z.inj_succ, Z.pow_succ_r in Hb by lia.
       apply Z.div_lt_upper_bound; lia. }
    f_equal. rewrite Vq, El.
    change ((if u256_val v / 10 =? 0 then [] else dec (u256_val v / 10)) ++ [48 + u256_val v mod 10] ++ out = dec (u256_val v) ++ out).
    rewrite app_assoc. f_equal. set (n := u256_val v) in *. clearbody n. clear - E0 R.
    destruct (n / 10 =? 0) eqn:E1.
    + rewrite dec_small by lia. cbn [app]. f_equal. f_equal. lia.
    + rewrite (dec_snoc n) by lia. reflexivity.
Qed.
Lemma u256_to_string_val v : w256_ok v -> u256_to_string v = Ok (dec (u256_val v)).
Proof.
  intros Hv. unfold u256_to_string. pose proof (w256_range v Hv) as R. destruct (zero256 (tl v)) eqn:E.
  - destruct (w256_four v Hv) as (a0 & a1 & a2 & a3 & -> & R0 & R1 & R2 & R3). cbn [tl] in E.
    rewrite zero_words_val in E by (auto 10 using Forall_cons, Forall_nil).
    assert (V : u256_val [a0; a1; a2; a3] = a0).
    { unfold u256_val. change (words_val [a0; a1; a2; a3]) with (a0 + 2 ^ 64 * words_val [a1; a2; a3]). lia. }
    rewrite V. unfold word. cbn [nth]. rewrite dec_word_firstn by exact R0. reflexivity.
  - rewrite u256_digits_spec; [|exact Hv|]. 2:{ eapply Z.lt_trans; [apply R|reflexivity]. }
    assert (N : u256_val v <> 0).
    { intros C. destruct Hv as [L F]. destruct v as [|x v]; [discriminate|]. inversion F; subst. cbn [tl] in E.
      rewrite zero_words_val in E by assumption. unfold u256_val in C. cbn [words_val] in C.
      pose proof (words_range v ltac:(assumption)). unfold is_word in *. consts. lia. }
    rewrite (proj2 (Z.eqb_neq _ _) N), app_nil_r. reflexivity.
Qed.
Lemma i256_to_string_val v : w256_ok v -> i256_to_string v = Ok (dec_signed (i256_val v)).
Proof.
  intros Hv. unfold i256_to_string, dec_signed. pose proof (i256_mag_val v Hv) as M. unfold i256_mag in M.
  rewrite i256_is_neg_val in * by exact Hv. destruct (i256_val v <? 0) eqn:E; destruct M as [O V].
  - rewrite u256_to_string_val by exact O. cbn [rmap]. rewrite V. do 3 f_equal. lia.
  - rewrite u256_to_string_val by exact O. rewrite V. do 2 f_equal. lia.
Qed.

(** * Reading back *)
Lemma digits_only_dec n : 0 <= n -> digits_only (dec n) = dec n.
Proof.
  intros H. pose proof (dec_digit n H) as D. unfold digits_only. induction (dec n) as [|c s IH]; [reflexivity|].
  inversion D as [|? ? Hc Hs]; subst. cbn [filter]. unfold is_digit in Hc. rewrite (proj2 (Z.eqb_neq c 95)) by lia. cbn [negb]. f_equal. auto.
Qed.
Lemma u128_inj a b : u128_ok a -> u128_ok b -> u128_val a = u128_val b -> a = b.
Proof.
  intros [A1 A2] [B1 B2] E. destruct a as [al ah], b as [bl bh]. u64. cbn [ulo uhi] in *. consts. f_equal; lia.
Qed.
Lemma i128_inj a b : i128_ok a -> i128_ok b -> i128_val a = i128_val b -> a = b.
Proof.
  intros [A1 A2] [B1 B2] E. destruct a as [al ah], b as [bl bh]. u64. cbn [ilo ihi] in *. consts. f_equal; lia.
Qed.
Lemma u128_read_dec v : u128_ok v -> u128_from_decimal (dec (u128_val v)) = v.
Proof.
  intros Hv. pose proof (u128_val_range v Hv) as R. assert (P : 0 <= u128_val v) by lia.
  destruct (u128_from_decimal_val (dec (u128_val v))) as [O V]; [rewrite digits_only_dec by exact P; apply dec_digit, P|].
  apply u128_inj; auto. rewrite V, digits_only_dec, dec_val_dec by exact P. apply Z.mod_small, R.
Qed.
Lemma u256_read_dec v : w256_ok v -> u256_from_decimal (dec (u256_val v)) = v.
Proof.
  intros Hv. pose proof (w256_range v Hv) as R. assert (P : 0 <= u256_val v) by lia.
  destruct (u256_from_decimal_val (dec (u256_val v))) as [O V]; [rewrite digits_only_dec by exact P; apply dec_digit, P|].
  apply w256_inj; auto. rewrite V, digits_only_dec, dec_val_dec by exact P. apply Z.mod_small, R.
Qed.
Lemma i128_read_dec wv v : i128_ok v -> wv = true \/ i128_val v <> - 2 ^ 127 ->
  i128_from_decimal wv (dec_signed (i128_val v)) = Ok v.
Proof.
  intros Hv D. pose proof (i128_val_range v Hv) as R. unfold dec_signed. destruct (i128_val v <? 0) eqn:E.
  - assert (P : 0 <= - i128_val v) by lia.
    assert (F : Forall is_digit (digits_only (dec (- i128_val v)))) by (rewrite digits_only_dec by exact P; apply dec_digit, P).
    destruct (i128_from_decimal_neg_def wv _ F) as [r Er].
    { rewrite digits_only_dec, dec_val_dec by exact P. destruct D as [D|D]; [left; exact D|right; lia]. }
    rewrite Er. f_equal. destruct (i128_from_decimal_neg _ _ _ F Er) as [Or Vr]. apply i128_inj; auto.
    rewrite Vr, digits_only_dec, dec_val_dec by exact P. rewrite Z.opp_involutive. apply wrap128_id, R.
  - assert (P : 0 <= i128_val v) by lia.
    destruct (i128_from_decimal_pos wv (dec (i128_val v))) as (r & Er & Or & Vr); [rewrite digits_only_dec by exact P; apply dec_digit, P|].
    rewrite Er. f_equal. apply i128_inj; auto. rewrite Vr, digits_only_dec, dec_val_dec by exact P. apply wrap128_id, R.
Qed.
Lemma i256_from_decimal_pos s : Forall is_digit (digits_only s) ->
  w256_ok (i256_from_decimal s) /\ i256_val (i256_from_decimal s) = wrap_i 256 (dec_val (digits_only s)).
Proof.
  intros H. pose proof (no_minus_digit s H) as N.
  assert (E : i256_from_decimal s = u256_from_decimal s).
  { unfold i256_from_decimal. destruct s as [|c r]; [reflexivity|]. destruct (c =? 45) eqn:C; [|reflexivity].
    exfalso. apply (N r). f_equal. lia. }
  rewrite E. destruct (u256_from_decimal_val s H) as [O V]. split; [exact O|]. apply i256_val_of; assumption.
Qed.
Lemma i256_from_decimal_neg s : Forall is_digit (digits_only s) ->
  w256_ok (i256_from_decimal (45 :: s)) /\ i256_val (i256_from_decimal (45 :: s)) = wrap_i 256 (- dec_val (digits_only s)).
Proof.
  intros H. unfold i256_from_decimal. cbn [Z.eqb Pos.eqb]. destruct (u256_from_decimal_val s H) as [O V].
  split; [apply i256_neg_mod, O|]. rewrite i256_neg_val by exact O. rewrite (i256_val_of _ _ O V). apply wrap256_neg.
Qed.
Lemma i256_inj a b : w256_ok a -> w256_ok b -> i256_val a = i256_val b -> a = b.
Proof.
  intros Ha Hb E. apply w256_inj; try assumption. apply Z.eqb_eq. rewrite <- w256_eq_val, w256_eq_ival by assumption. apply Z.eqb_eq, E.
Qed.
Lemma i256_read_dec v : w256_ok v -> i256_from_decimal (dec_signed (i256_val v)) = v.
Proof.
  intros Hv. pose proof (i256_val_range v Hv) as R. unfold dec_signed. destruct (i256_val v <? 0) eqn:E.
  - assert (P : 0 <= - i256_val v) by lia.
    destruct (i256_from_decimal_neg (dec (- i256_val v))) as [O V]; [rewrite digits_only_dec by exact P; apply dec_digit, P|].
    apply i256_inj; auto. rewrite V, digits_only_dec, dec_val_dec by exact P. rewrite Z.opp_involutive. apply wrap256_id, R.
  - assert (P : 0 <= i256_val v) by lia.
    destruct (i256_from_decimal_pos (dec (i256_val v))) as [O V]; [rewrite digits_only_dec by exact P; apply dec_digit, P|].
    apply i256_inj; auto. rewrite V, digits_only_dec, dec_val_dec by exact P. apply wrap256_id, R.
Qed.

(** * Casts to 64 bits *)
Lemma sign_word x : is_word x -> Z.shiftr (to_i64 x) 63 = if x <? 2 ^ 63 then 0 else -1.
Proof.
  intros H. rewrite Z.shiftr_div_pow2 by lia. rewrite to_i64_spec. unfold is_word in H. consts.
  rewrite Z.mod_small by lia. dif C; lia.
Qed.
Lemma to_i64_word x : is_word x -> to_i64 x = if x <? 2 ^ 63 then x else x - 2 ^ 64.
Proof. intros H. rewrite to_i64_spec. unfold is_word in H. consts. rewrite Z.mod_small by lia. reflexivity. Qed.

Lemma i128_to_i64_cast a : i128_ok a -> cast_ok (i128_to_i64 a) (- 2 ^ 63) (2 ^ 63) (i128_val a) 93.
Proof.
  intros [Hl Hh]. unfold i128_to_i64. rewrite sign_word, to_i64_word by exact Hl. unfold cast_ok, i128_val, is_word in *. consts.
  destruct (ilo a <? 9223372036854775808) eqn:C.
  - destruct (ihi a =? 0) eqn:D; cbn [negb]; [left|right]; (split; [lia|]); try reflexivity. f_equal. lia.
  - destruct (ihi a =? -1) eqn:D; cbn [negb]; [left|right]; (split; [lia|]); try reflexivity. f_equal. lia.
Qed.
Lemma i128_to_u64_cast a : i128_ok a -> cast_ok (i128_to_u64 a) 0 (2 ^ 64) (i128_val a) 94.
Proof.
  intros [Hl Hh]. unfold i128_to_u64, cast_ok, i128_val, is_word in *. consts.
  destruct (ihi a =? 0) eqn:D; cbn [negb]; [left|right]; (split; [lia|]); try reflexivity. f_equal. lia.
Qed.
Lemma u128_to_i64_cast a : u128_ok a -> cast_ok (u128_to_i64 a) (- 2 ^ 63) (2 ^ 63) (u128_val a) 95.
Proof.
  intros [Hl Hh]. unfold u128_to_i64, cast_ok, u128_val, words_val, INT64_MAX. rewrite to_i64_word by exact Hl. unfold is_word in *. consts.
  destruct (negb (uhi a =? 0) || (9223372036854775807 <? ulo a)) eqn:D; [right|left]; (split; [lia|]); try reflexivity. f_equal.
  dif C; lia.
Qed.
Lemma u128_to_u64_cast a : u128_ok a -> cast_ok (u128_to_u64 a) 0 (2 ^ 64) (u128_val a) 96.
Proof.
  intros [Hl Hh]. unfold u128_to_u64, cast_ok, u128_val, words_val, is_word in *. consts.
  destruct (uhi a =? 0) eqn:D; cbn [negb]; [left|right]; (split; [lia|]); try reflexivity. f_equal. lia.
Qed.

Lemma u256_hi_val a : w256_ok a ->
  negb (word a 1 =? 0) || negb (word a 2 =? 0) || negb (word a 3 =? 0) = negb (u256_val a <? 2 ^ 64) /\
  (u256_val a < 2 ^ 64 -> word a 0 = u256_val a).
Proof.
  intros Ha. destruct (w256_four a Ha) as (a0 & a1 & a2 & a3 & -> & R0 & R1 & R2 & R3).
  unfold word, u256_val, words_val, is_word in *. cbn [nth]. consts. lia.
Qed.
Lemma u256_to_u64_cast a : w256_ok a -> cast_ok (u256_to_u64 a) 0 (2 ^ 64) (u256_val a) 100.
Proof.
  intros Ha. unfold u256_to_u64, cast_ok. destruct (u256_hi_val a Ha) as [-> E]. pose proof (w256_range a Ha).
  destruct (u256_val a <? 2 ^ 64) eqn:C; cbn [negb]; [left|right]; (split; [lia|]); try reflexivity. f_equal. apply E. lia.
Qed.
Lemma u256_to_i64_cast a : w256_ok a -> cast_ok (u256_to_i64 a) (- 2 ^ 63) (2 ^ 63) (u256_val a) 99.
Proof.
  intros Ha. unfold u256_to_i64, cast_ok. destruct (u256_hi_val a Ha) as [-> E]. pose proof (w256_range a Ha) as R.
  pose proof (word_is_word a 0 (proj2 Ha)) as W. rewrite to_i64_word by exact W. unfold INT64_MAX.
  set (v := u256_val a) in *. clearbody v. consts. unfold is_word in W.
  destruct (v <? 18446744073709551616) eqn:C; cbn [negb orb].
  - rewrite E in * by lia. destruct (9223372036854775807 <? v) eqn:D; [right|left]; (split; [lia|]); try reflexivity. f_equal. dif F; lia.
  - right. split; [lia|reflexivity].
Qed.
Lemma i256_nonneg_small a : w256_ok a -> (u256_val a < 2 ^ 64 <-> 0 <= i256_val a < 2 ^ 64) /\ (u256_val a < 2 ^ 64 -> i256_val a = u256_val a).
Proof.
  intros Ha. destruct (i256_val_cong a Ha) as [k K]. pose proof (w256_range a Ha) as R. pose proof (i256_val_range a Ha) as R2.
  assert (P : 2 ^ 64 < 2 ^ 255) by reflexivity. assert (Q : 0 < 2 ^ 64) by reflexivity.
  change (2 ^ 256) with (2 * 2 ^ 255) in *. set (h := 2 ^ 255) in *. set (w := 2 ^ 64) in *. clearbody h w.
  assert (k = 0 \/ k = -1) as [->| ->] by nia; lia.
Qed.
Lemma i256_to_u64_cast a : w256_ok a -> cast_ok (i256_to_u64 a) 0 (2 ^ 64) (i256_val a) 98.
Proof.
  intros Ha. unfold i256_to_u64, cast_ok. destruct (u256_hi_val a Ha) as [-> E]. destruct (i256_nonneg_small a Ha) as [N V].
  destruct (u256_val a <? 2 ^ 64) eqn:C; cbn [negb].
  - apply Z.ltb_lt in C. left. split; [tauto|]. rewrite E, V by exact C. reflexivity.
  - apply Z.ltb_ge in C. right. split; [|reflexivity]. intros X. apply N in X. lia.
Qed.
Lemma i256_to_i64_cast a : w256_ok a -> cast_ok (i256_to_i64 a) (- 2 ^ 63) (2 ^ 63) (i256_val a) 97.
Proof.
  intros Ha. unfold i256_to_i64, cast_ok. cbv zeta.
  pose proof (i256_inj (i256_from_i64 (to_i64 (word a 0))) a) as I.
  assert (V0 : forall v, - 2 ^ 63 <= v < 2 ^ 63 -> w256_ok (i256_from_i64 v) /\ i256_val (i256_from_i64 v) = v).
  { intros v Rv. unfold i256_from_i64. cbv zeta.
    assert (O : w256_ok [to_u64 v; to_u64 (if v <? 0 then -1 else 0); to_u64 (if v <? 0 then -1 else 0); to_u64 (if v <? 0 then -1 else 0)]).
    { split; [reflexivity|]. repeat apply Forall_cons; try apply Forall_nil; unfold is_word, to_u64, M64; apply Z.mod_pos_bound; reflexivity. }
    split; [exact O|]. rewrite i256_val_wrap by exact O. symmetry. unfold u256_val, words_val, to_u64, M64.
    apply (wrap256_unique _ _ (if v <? 0 then -1 else 0)).
    - clear - Rv. consts. change (2 ^ 255) with 57896044618658097711785492504343953926634992332820282019728792003956564819968. lia.
    - clear O. consts. change (2 ^ 256) with 115792089237316195423570985008687907853269984665640564039457584007913129639936. dif C; lia. }
  destruct (V0 (to_i64 (word a 0)) (to_i64_range _)) as [O0 E0]. specialize (I O0 Ha). rewrite E0 in I.
  pose proof (word_is_word a 0 (proj2 Ha)) as W0.
  pose proof (word_is_word a 1 (proj2 Ha)) as W1. pose proof (word_is_word a 2 (proj2 Ha)) as W2. pose proof (word_is_word a 3 (proj2 Ha)) as W3.
  assert (SE : to_u64 (Z.shiftr (to_i64 (word a 0)) 63) = to_u64 (if to_i64 (word a 0) <? 0 then -1 else 0)).
  { f_equal. rewrite sign_word, to_i64_word by exact W0. unfold is_word in W0. consts. dif C; dif D; lia. }
  assert (U0 : to_u64 (to_i64 (word a 0)) = word a 0).
  { rewrite to_i64_word by exact W0. unfold to_u64, M64. unfold is_word in W0. consts. dif C; lia. }
  assert (Hw : (negb (word a 1 =? to_u64 (Z.shiftr (to_i64 (word a 0)) 63)) || negb (word a 2 =? to_u64 (Z.shiftr (to_i64 (word a 0)) 63))
     || negb (word a 3 =? to_u64 (Z.shiftr (to_i64 (word a 0)) 63))) = false <-> i256_from_i64 (to_i64 (word a 0)) = a).
  { destruct (w256_four a Ha) as (a0 & a1 & a2 & a3 & -> & R0 & R1 & R2 & R3). rewrite SE. unfold i256_from_i64, word in *. cbn [nth] in *. rewrite U0.
    rewrite !orb_false_iff, !negb_false_iff, !Z.eqb_eq. split; [intros [[<- <-] <-]; reflexivity|].
    intros X. pose proof (f_equal (fun l => nth 1 l 0) X) as X1. pose proof (f_equal (fun l => nth 2 l 0) X) as X2.
    pose proof (f_equal (fun l => nth 3 l 0) X) as X3. cbn [nth] in X1, X2, X3. auto. }
  destruct (negb _ || negb _ || negb _) eqn:C.
  - right. split; [|reflexivity]. intros R. apply diff_false_true. symmetry. apply Hw.
    apply i256_inj; [exact O0|exact Ha|]. rewrite E0.
    destruct (V0 (i256_val a) R) as [O1 E1]. assert (X : i256_from_i64 (i256_val a) = a) by (apply i256_inj; assumption).
    rewrite <- X at 1. unfold i256_from_i64, word. cbn [nth]. clear - R. rewrite to_i64_spec. unfold to_u64, M64. consts.
    generalize dependent (i256_val a). intros v R. dif C; lia.
  - left. assert (X : i256_from_i64 (to_i64 (word a 0)) = a) by (apply Hw; reflexivity).
    split; [rewrite <- X, E0; apply to_i64_range|]. f_equal. rewrite <- E0, X. reflexivity.
Qed.
