(** Proofs about constant folding. *)
From Verif Require Import Base BaseFacts LexModel LexProofs ConstModel ConstSpec.

Lemma in64_iff z : in64 z = true <-> int64 z.
Proof. unfold in64, int64, INT64_MIN, INT64_MAX. change (2 ^ 63) with 9223372036854775808. lia. Qed.
Lemma in64_false z : in64 z = false <-> ~ int64 z.
Proof. rewrite <- in64_iff. destruct (in64 z); split; congruence. Qed.
Lemma int_value_small v : 0 <= v < 2 ^ 63 -> int_value v = v.
Proof.
  unfold int_value, wrap_i. change (2 ^ 64) with 18446744073709551616. change (2 ^ 63) with 9223372036854775808. change (2 ^ (64 - 1)) with 9223372036854775808.
  intros H. rewrite Z.mod_small by lia. replace (v <? 9223372036854775808) with true by lia. reflexivity.
Qed.
Lemma int_value_int64 v : int64 (int_value v).
Proof.
  unfold int_value, wrap_i, int64. change (2 ^ 64) with 18446744073709551616. change (2 ^ (64 - 1)) with 9223372036854775808. change (2 ^ 63) with 9223372036854775808.
  pose proof (Z.mod_pos_bound v 18446744073709551616 eq_refl) as B. destruct (_ <? _) eqn:E; lia.
Qed.
Lemma strcmp_iff a b : (strcmp a b =? 0) = true <-> a = b.
Proof. split; [intros H; apply strcmp_eq; lia|intros ->; now rewrite strcmp_refl]. Qed.
Lemma look_in t n v : look t n = Some v -> In (n, v) t.
Proof.
  induction t as [|[m w] t IH]; cbn [look]; [discriminate|]. destruct (strcmp m n =? 0) eqn:E; [|right; auto].
  apply strcmp_iff in E as ->. intros H. left. congruence.
Qed.
Lemma look_some t n v : In (n, v) t -> exists w, look t n = Some w.
Proof.
  induction t as [|[m w] t IH]; [intros []|]. cbn [look]. destruct (strcmp m n =? 0) eqn:E; [eauto|].
  intros [H|H]; [|auto]. assert (m = n) as -> by congruence. rewrite strcmp_refl in E. discriminate.
Qed.
(** The table holds values the names have. *)
Definition agree (t : table) (env : bytes -> option Z) : Prop := forall n v, In (n, v) t -> env n = Some v /\ int64 v.

Lemma plain_bin o l r : plain (Bin o l r) -> plain l /\ plain r.
Proof. unfold plain. cbn [literals]. apply Forall_app. Qed.
Lemma quot_abs_le a b : b <> 0 -> Z.abs (Z.quot a b) <= Z.abs a.
Proof.
  intros N. rewrite <- Z.quot_abs by exact N. assert (B : 1 <= Z.abs b) by lia. assert (A : 0 <= Z.abs a) by lia.
  revert A B. generalize (Z.abs a) (Z.abs b). clear. intros a b A B. apply Z.quot_le_upper_bound; [exact (Z.lt_le_trans 0 1 b eq_refl B)|].
  rewrite <- (Z.mul_1_l a) at 1. apply Z.mul_le_mono_nonneg_r; assumption.
Qed.
Lemma quot_abs_lt a b : a <> 0 -> 2 <= Z.abs b -> Z.abs (Z.quot a b) < Z.abs a.
Proof.
  intros N B. rewrite <- Z.quot_abs by (clear -B; lia). assert (A : 0 < Z.abs a) by (clear -N; lia).
  apply Z.quot_lt; [exact A|clear -B; lia].
Qed.
Lemma quot_int64 a b : int64 a -> int64 b -> b <> 0 -> ~ (a = INT64_MIN /\ b = -1) -> int64 (Z.quot a b).
Proof.
  unfold int64, INT64_MIN. change (2 ^ 63) with 9223372036854775808. intros A B N M.
  destruct (Z.eq_dec b (-1)) as [->|K].
  - replace (Z.quot a (-1)) with (- a); [clear -A M; lia|]. symmetry. change (-1) with (- (1)). rewrite Z.quot_opp_r by discriminate. now rewrite Z.quot_1_r.
  - destruct (Z.eq_dec b 1) as [->|K1]; [rewrite Z.quot_1_r; exact A|]. destruct (Z.eq_dec a 0) as [->|K0]; [rewrite Z.quot_0_l by exact N; split; reflexivity || discriminate|].
    assert (L : Z.abs (Z.quot a b) < Z.abs a) by (apply quot_abs_lt; [exact K0|clear -N K K1; lia]).
    revert L. generalize (Z.quot a b). intros q L. clear -A L. lia.
Qed.
Lemma rem_int64 a b : int64 a -> int64 b -> b <> 0 -> int64 (Z.rem a b).
Proof.
  unfold int64. change (2 ^ 63) with 9223372036854775808. intros A B N. pose proof (Z.rem_bound_abs a b N) as R. revert R. generalize (Z.rem a b). intros q R. clear -R B. lia.
Qed.

Lemma some_inj (a b : Z) : Some a = Some b -> a = b.
Proof. congruence. Qed.
Definition outcome (env : bytes -> option Z) (e : expr) (q : option Z * bool) : Prop :=
  match fst q with
  | Some v => value env e = Some v /\ int64 v /\ snd q = false
  | None => snd q = true -> exists p z, part p e /\ value env p = Some z /\ ~ int64 z
  end.
Lemma fold_outcome env t e : agree t env -> plain e -> forall q, fold_const_int t e = Ok q -> outcome env e q.
Proof.
  intros A. induction e as [v|e IH|n|o l IHl r IHr|]; intros P q; cbn [fold_const_int].
  - unfold plain in P. cbn in P. inversion P as [|? ? [V1 V2] _]; subst. intros H. injection H as <-.
    unfold overflow_u64, U64_MAX. destruct (18446744073709551615 <? v) eqn:O; unfold outcome; cbn [fst snd].
    + intros _. exists (Lit v), v. split; [constructor|]. split; [reflexivity|]. unfold int64. change (2 ^ 63) with 9223372036854775808. lia.
    + change (2 ^ 64) with 18446744073709551616 in V2. destruct V2 as [V2|V2]; [|lia]. rewrite int_value_small by lia.
      cbn [value]. split; [reflexivity|]. split; [|reflexivity]. unfold int64. change (2 ^ 63) with 9223372036854775808 in *. lia.
  - destruct e as [v| | | |]; try (intros H; injection H as <-; unfold outcome; cbn; discriminate).
    unfold plain in P. cbn in P. inversion P as [|? ? [V1 V2] _]; subst.
    unfold overflow_u64, U64_MAX. destruct (18446744073709551615 <? v) eqn:O.
    + intros H. injection H as <-. unfold outcome; cbn [fst snd]. intros _. exists (Neg (Lit v)), (- v). split; [constructor|].
      split; [reflexivity|]. unfold int64. change (2 ^ 63) with 9223372036854775808. lia.
    + change (2 ^ 64) with 18446744073709551616 in V2. destruct V2 as [V2|V2]; [|lia]. rewrite int_value_small by lia.
      unfold c_neg, INT64_MIN. change (2 ^ 63) with 9223372036854775808 in *. destruct (v =? -9223372036854775808) eqn:M; [lia|].
      cbn [rmap rbind]. intros H. injection H as <-. unfold outcome; cbn [fst snd value option_map]. split; [reflexivity|]. split; [|reflexivity].
      unfold int64. change (2 ^ 63) with 9223372036854775808. lia.
  - intros H. injection H as <-. unfold outcome; cbn [fst snd]. destruct (look t n) as [v|] eqn:L; [|discriminate].
    apply look_in, A in L as [L1 L2]. cbn [value]. auto.
  - apply plain_bin in P as [P1 P2]. destruct (fold_const_int t l) as [a| | |] eqn:EL; cbn [rbind]; try discriminate.
    destruct (fold_const_int t r) as [b| | |] eqn:ER; cbn [rbind]; try discriminate.
    specialize (IHl P1 _ eq_refl). specialize (IHr P2 _ eq_refl). unfold outcome in IHl, IHr.
    destruct a as [[x|] oa]; cbn [fst snd] in *.
    2:{ intros H. injection H as <-. unfold outcome. cbn [fst snd]. intros K. apply orb_prop in K as [K|K].
        - destruct (IHl K) as (p & z & I & V). exists p, z. split; [now apply p_left|exact V].
        - destruct b as [[y|] ob]; cbn [fst snd] in *; [destruct IHr as (_ & _ & ->); discriminate|].
          destruct (IHr K) as (p & z & I & V). exists p, z. split; [now apply p_right|exact V]. }
    destruct b as [[y|] ob]; cbn [fst snd] in *.
    2:{ intros H. injection H as <-. unfold outcome. cbn [fst snd]. destruct IHl as (_ & _ & ->). cbn [orb]. intros K.
        destruct (IHr K) as (p & z & I & V). exists p, z. split; [now apply p_right|exact V]. }
    destruct IHl as (VL & IL & _), IHr as (VR & IR & _).
    assert (CH : forall z, value env (Bin o l r) = Some z -> forall q, Ok (checked z) = Ok q -> outcome env (Bin o l r) q).
    { intros z V q0 H. injection H as <-. unfold checked. destruct (in64 z) eqn:I; unfold outcome; cbn [fst snd].
      - apply in64_iff in I. auto.
      - intros _. exists (Bin o l r), z. split; [constructor|]. split; [exact V|]. now apply in64_false. }
    destruct o.
    + apply CH. cbn [value]. now rewrite VL, VR.
    + apply CH. cbn [value]. now rewrite VL, VR.
    + apply CH. cbn [value]. now rewrite VL, VR.
    + destruct (y =? 0) eqn:Y; [intros H; injection H as <-; unfold outcome; cbn; discriminate|].
      unfold c_div. destruct ((x =? INT64_MIN) && (y =? -1)) eqn:M; cbn [rmap rbind]; [discriminate|]. intros H. injection H as <-.
      unfold outcome; cbn [fst snd value]. rewrite VL, VR, Y. split; [reflexivity|]. split; [|reflexivity].
      apply quot_int64; try assumption; clear -Y M; lia.
    + destruct (y =? 0) eqn:Y; [intros H; injection H as <-; unfold outcome; cbn; discriminate|].
      unfold c_mod. destruct ((x =? INT64_MIN) && (y =? -1)) eqn:M; cbn [rmap rbind]; [discriminate|]. intros H. injection H as <-.
      unfold outcome; cbn [fst snd value]. rewrite VL, VR, Y. split; [reflexivity|]. split; [|reflexivity].
      apply rem_int64; try assumption; clear -Y M; lia.
    + intros H. injection H as <-. unfold outcome; cbn; discriminate.
  - intros H. injection H as <-. unfold outcome; cbn; discriminate.
Qed.

Lemma fold_total env t e : agree t env -> plain e -> (forall p, part p e -> ~ overflowing_division env p) -> exists q, fold_const_int t e = Ok q.
Proof.
  intros A. induction e as [v|e IH|n|o l IHl r IHr|]; intros P D; cbn [fold_const_int]; [eauto| |eauto| |eauto].
  - destruct e as [v| | | |]; eauto. unfold plain in P. cbn in P. inversion P as [|? ? [V1 V2] _]; subst.
    unfold overflow_u64, U64_MAX. destruct (18446744073709551615 <? v) eqn:O; [eauto|].
    change (2 ^ 64) with 18446744073709551616 in V2. destruct V2 as [V2|V2]; [|lia]. rewrite int_value_small by lia.
    unfold c_neg, INT64_MIN. replace (v =? -9223372036854775808) with false by lia. cbn. eauto.
  - apply plain_bin in P as [P1 P2].
    destruct (IHl P1) as [a EL]; [intros p I; apply D; now apply p_left|]. destruct (IHr P2) as [b ER]; [intros p I; apply D; now apply p_right|].
    pose proof (fold_outcome env t l A P1 a EL) as OL. pose proof (fold_outcome env t r A P2 b ER) as OR. rewrite EL, ER. cbn [rbind].
    destruct a as [[x|] oa]; cbn [fst snd]; [|eauto]. destruct b as [[y|] ob]; cbn [fst snd]; [|eauto].
    unfold outcome in OL, OR; cbn [fst snd] in *. destruct OL as (VL & _), OR as (VR & _).
    assert (N : o = Div \/ o = Mod -> (x =? INT64_MIN) && (y =? -1) = false).
    { intros K. destruct ((x =? INT64_MIN) && (y =? -1)) eqn:M; [exfalso|reflexivity]. apply (D (Bin o l r)); [constructor|].
      apply andb_prop in M as [M1 M2]. apply Z.eqb_eq in M1, M2. subst. exists o, l, r. auto. }
    destruct o; eauto; destruct (y =? 0); eauto; unfold c_div, c_mod; rewrite N by auto; cbn; eauto.
Qed.
(** Names the environment knows are in the table. *)
Definition covers (t : table) (env : bytes -> option Z) : Prop := forall n v, env n = Some v -> In (n, v) t.
Lemma fold_complete env t e :
  agree t env -> covers t env -> plain e -> constant_shape e ->
  (forall p, part p e -> (exists v, value env p = Some v /\ int64 v) /\ ~ overflowing_division env p) ->
  exists v, value env e = Some v /\ fold_const_int t e = Ok (Some v, false).
Proof.
  intros A C P S. induction S as [v|v|n|o l r O S1 IH1 S2 IH2]; intros D.
  - destruct (D (Lit v) (p_self _)) as [(z & V & I) _]. cbn [value] in V. injection V as <-. exists v. split; [reflexivity|].
    unfold plain in P. cbn in P. inversion P as [|? ? [V1 V2] _]; subst. unfold int64 in I.
    cbn [fold_const_int]. unfold overflow_u64, U64_MAX. rewrite int_value_small by lia. change (2 ^ 63) with 9223372036854775808 in I.
    replace (18446744073709551615 <? v) with false by lia. reflexivity.
  - destruct (fold_total env t (Neg (Lit v)) A P) as [q E]; [intros p I; now apply D|].
    pose proof (fold_outcome env t _ A P q E) as H. unfold outcome in H. destruct (D _ (p_self _)) as [(z & V & I) _].
    exists z. split; [exact V|]. rewrite E. destruct q as [[w|] b]; cbn [fst snd] in H; [destruct H as (H & _ & ->); congruence|].
    cbn [fold_const_int] in E. destruct (overflow_u64 v) eqn:W.
    + exfalso. injection E as E. cbn [value option_map] in V. injection V as <-. unfold overflow_u64, U64_MAX in W. unfold int64 in I.
      change (2 ^ 63) with 9223372036854775808 in I. lia.
    + destruct (c_neg (int_value v)); discriminate.
  - destruct (D _ (p_self _)) as [(z & V & I) _]. exists z. split; [exact V|]. cbn [fold_const_int value] in *.
    destruct (look_some t n z (C _ _ V)) as [w L]. rewrite L. apply look_in, A in L as [L _]. congruence.
  - apply plain_bin in P as [P1 P2]. destruct IH1 as (a & VA & EA); [exact P1|intros p I; apply D; now apply p_left|].
    destruct IH2 as (b & VB & EB); [exact P2|intros p I; apply D; now apply p_right|].
    destruct (D _ (p_self _)) as [(z & V & I) N]. exists z. split; [exact V|].
    cbn [fold_const_int]. rewrite EA, EB. cbn [rbind fst snd]. cbn [value] in V. rewrite VA, VB in V.
    assert (M : o = Div \/ o = Mod -> (a =? INT64_MIN) && (b =? -1) = false).
    { intros K. destruct ((a =? INT64_MIN) && (b =? -1)) eqn:M; [exfalso|reflexivity]. apply N.
      apply andb_prop in M as [M1 M2]. apply Z.eqb_eq in M1, M2. subst. exists o, l, r. auto. }
    destruct o; try (apply some_inj in V; subst z; unfold checked; apply in64_iff in I; rewrite I; reflexivity).
    + destruct (b =? 0); [discriminate|]. apply some_inj in V; subst z. unfold c_div. rewrite M by auto. reflexivity.
    + destruct (b =? 0); [discriminate|]. apply some_inj in V; subst z. unfold c_mod. rewrite M by auto. reflexivity.
    + now elim O.
Qed.
