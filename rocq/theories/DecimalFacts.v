From Verif Require Import Base BaseFacts Decimal.
Ltac Zify.zify_post_hook ::= Z.div_mod_to_equations.

Lemma dec_val_from_app s t acc : dec_val_from acc (s ++ t) = dec_val_from (dec_val_from acc s) t.
Proof. revert acc. induction s as [|c s IH]; intros acc; [reflexivity|]. cbn. apply IH. Qed.
Lemma dec_val_from_acc s acc : dec_val_from acc s = acc * 10 ^ Z.of_nat (length s) + dec_val s.
Proof.
  unfold dec_val. revert acc. induction s as [|c s IH]; intros acc; [cbn; lia|].
  cbn [dec_val_from length]. rewrite IH, (IH (0 * 10 + _)).
  rewrite Nat2Z.inj_succ, Z.pow_succ_r by lia. ring.
Qed.
Lemma dec_val_cons c s : dec_val (c :: s) = (c - 48) * 10 ^ Z.of_nat (length s) + dec_val s.
Proof. unfold dec_val at 1. cbn [dec_val_from]. rewrite dec_val_from_acc. ring. Qed.
Lemma dec_val_snoc s c : dec_val (s ++ [c]) = dec_val s * 10 + (c - 48).
Proof. unfold dec_val. rewrite dec_val_from_app. reflexivity. Qed.

Lemma dec_val_bound s : Forall is_digit s -> 0 <= dec_val s < 10 ^ Z.of_nat (length s).
Proof.
  induction s as [|c s IH]; intros H; [cbn; lia|].
  inversion H as [|? ? Hc Hs]; subst. rewrite dec_val_cons. cbn [length].
  rewrite Nat2Z.inj_succ, Z.pow_succ_r by lia. specialize (IH Hs). unfold is_digit in Hc. nia.
Qed.

Lemma dec_digits_spec fuel : forall n acc, 0 <= n -> n < 2 ^ Z.of_nat fuel ->
  exists d, dec_digits fuel n acc = d ++ acc /\ Forall is_digit d /\ dec_val d = n /\
            (0 < n -> exists c r, d = c :: r /\ c <> 48) /\ (fuel <> O -> n = 0 -> d = [48]).
Proof.
  induction fuel as [|f IH]; intros n acc Hn Hf.
  - cbn in Hf. exists []. cbn. repeat split; auto; lia.
  - cbn [dec_digits]. rewrite Nat2Z.inj_succ, Z.pow_succ_r in Hf by lia.
    destruct (n / 10 =? 0) eqn:E.
    + exists [48 + n mod 10]. repeat split.
      * constructor; [unfold is_digit; lia|constructor].
      * unfold dec_val; cbn [dec_val_from]; lia.
      * intros. exists (48 + n mod 10), []. split; [reflexivity|lia].
      * intros _ ->. reflexivity.
    + destruct (IH (n / 10) (48 + n mod 10 :: acc)) as (d & Ed & Hd & Vd & Nd & _); [lia|lia|].
      exists (d ++ [48 + n mod 10]). rewrite Ed, <- app_assoc. repeat split.
      * apply Forall_app; split; [assumption|constructor; [unfold is_digit; lia|constructor]].
      * rewrite dec_val_snoc, Vd. lia.
      * intros _. destruct Nd as (c & r & -> & Hc); [lia|]. exists c, (r ++ [48 + n mod 10]). auto.
      * intros _ ->. cbn in E. discriminate.
Qed.

Lemma dec_fuel n : 0 <= n -> n < 2 ^ Z.of_nat (S (Z.to_nat (Z.log2 n))).
Proof.
  intros H. rewrite Nat2Z.inj_succ, Z2Nat.id by apply Z.log2_nonneg.
  destruct (Z.eq_dec n 0) as [->|N]; [reflexivity|]. apply Z.log2_spec. lia.
Qed.

Lemma dec_spec n : 0 <= n -> canonical_nat (dec n) /\ dec_val (dec n) = n.
Proof.
  intros H. unfold dec.
  destruct (dec_digits_spec _ n [] H (dec_fuel n H)) as (d & -> & Hd & Vd & Nd & Zd).
  rewrite app_nil_r. split; [|exact Vd]. split; [exact Hd|].
  destruct (Z.eq_dec n 0) as [->|N]; [left; auto|right; apply Nd; lia].
Qed.
Lemma dec_digit n : 0 <= n -> Forall is_digit (dec n).
Proof. intros H. apply dec_spec in H as [[H _] _]. exact H. Qed.
Lemma dec_val_dec n : 0 <= n -> dec_val (dec n) = n.
Proof. intros H. apply dec_spec, H. Qed.

(** A canonical numeral is determined by its value. *)
Lemma canonical_lt s t : Forall is_digit s -> canonical_nat t -> (length s < length t)%nat -> t <> [48] ->
  dec_val s < dec_val t.
Proof.
  intros Hs [Ht Hc] L N. destruct Hc as [->|(c & r & -> & Hc)]; [congruence|].
  pose proof (dec_val_bound s Hs) as Bs. inversion Ht as [|? ? Dc Dr]; subst.
  rewrite dec_val_cons. pose proof (dec_val_bound r Dr) as Br. cbn [length] in L.
  assert (10 ^ Z.of_nat (length s) <= 10 ^ Z.of_nat (length r)) by (apply Z.pow_le_mono_r; lia).
  unfold is_digit in Dc. nia.
Qed.
Lemma dec_val_inj_len s t : Forall is_digit s -> Forall is_digit t -> length s = length t ->
  dec_val s = dec_val t -> s = t.
Proof.
  revert t. induction s as [|c s IH]; intros [|d t] Hs Ht L E; try discriminate; [reflexivity|].
  cbn [length] in L. injection L as L. inversion Hs; inversion Ht; subst.
  rewrite !dec_val_cons, L in E.
  pose proof (dec_val_bound s ltac:(assumption)) as Bs. pose proof (dec_val_bound t ltac:(assumption)) as Bt.
  rewrite L in Bs. unfold is_digit in *.
  assert (c = d) by nia. subst d. f_equal. apply IH; auto. lia.
Qed.
Lemma canonical_unique s t : canonical_nat s -> canonical_nat t -> dec_val s = dec_val t -> s = t.
Proof.
  intros Hs Ht E. destruct (Nat.lt_trichotomy (length s) (length t)) as [L|[L|L]].
  - exfalso. pose proof Ht as [Dt _]. pose proof Hs as [Ds _].
    destruct (list_eq_dec Z.eq_dec t [48]) as [->|N].
    + cbn in L. destruct s as [|? ?]; [|cbn in L; lia]. destruct Hs as [_ [H|(c & r & H & _)]]; discriminate.
    + pose proof (canonical_lt s t Ds Ht L N). lia.
  - apply dec_val_inj_len; [apply Hs|apply Ht|exact L|exact E].
  - exfalso. pose proof Ht as [Dt _]. pose proof Hs as [Ds _].
    destruct (list_eq_dec Z.eq_dec s [48]) as [->|N].
    + cbn in L. destruct t as [|? ?]; [|cbn in L; lia]. destruct Ht as [_ [H|(c & r & H & _)]]; discriminate.
    + pose proof (canonical_lt t s Dt Hs L N). lia.
Qed.
Lemma dec_unique s n : 0 <= n -> canonical_nat s -> dec_val s = n -> s = dec n.
Proof. intros Hn Hs E. destruct (dec_spec n Hn). apply canonical_unique; auto. congruence. Qed.

Lemma dec_length n k : 0 <= n < 10 ^ Z.of_nat k -> (0 < k)%nat -> (length (dec n) <= k)%nat.
Proof.
  intros [H0 H] Hk. destruct (dec_spec n H0) as [C V].
  destruct (Nat.le_gt_cases (length (dec n)) k) as [L|L]; [exact L|exfalso].
  destruct C as [D [E|(c & r & E & Hc)]]; [rewrite E in L; cbn in L; lia|].
  rewrite E in *. inversion D as [|? ? Dc Dr]; subst.
  rewrite dec_val_cons in *. pose proof (dec_val_bound r Dr). cbn [length] in L.
  assert (10 ^ Z.of_nat k <= 10 ^ Z.of_nat (length r)) by (apply Z.pow_le_mono_r; lia).
  unfold is_digit in Dc. nia.
Qed.
Lemma dec_nonempty n : 0 <= n -> dec n <> [].
Proof. intros H E. destruct (dec_spec n H) as [[_ [C|(c & r & C & _)]] _]; rewrite E in C; discriminate. Qed.
Lemma dec_bytes n : 0 <= n -> byte_string (dec n).
Proof.
  intros H. eapply Forall_impl; [|apply (dec_digit n H)]. unfold is_digit, is_byte. intros; lia.
Qed.
Lemma dec_head_not_minus n : 0 <= n -> forall r, dec n <> 45 :: r.
Proof.
  intros H r E. pose proof (dec_digit n H) as D. rewrite E in D. inversion D as [|? ? X]; subst. unfold is_digit in X; lia.
Qed.
(** dec of n*10+d appends a digit. *)
Lemma dec_snoc n : 10 <= n -> dec n = dec (n / 10) ++ [48 + n mod 10].
Proof.
  intros H. symmetry. destruct (dec_spec (n / 10)) as [[D C] V]; [lia|]. apply dec_unique; [lia| |].
  - split; [apply Forall_app; split; [exact D|constructor; [unfold is_digit; lia|constructor]]|].
    right. destruct C as [C|(c & r & C & N)].
    + exfalso. rewrite C in V. unfold dec_val in V; cbn in V. lia.
    + rewrite C. exists c, (r ++ [48 + n mod 10]). auto.
  - rewrite dec_val_snoc, V. lia.
Qed.
Lemma dec_small n : 0 <= n < 10 -> dec n = [48 + n].
Proof.
  intros H. symmetry. apply dec_unique; [lia| |unfold dec_val; cbn [dec_val_from]; lia].
  split; [constructor; [unfold is_digit; lia|constructor]|].
  destruct (Z.eq_dec n 0) as [->|N]; [left; reflexivity|right; eexists _, _; split; [reflexivity|lia]].
Qed.
