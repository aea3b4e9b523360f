(** C143, C144: loops over ranges, membership in ranges, when. *)
From Verif Require Import Base RangeSpec RangeModel RangeProofs.

(** C143.  The loop runs its body for start, start + step, ... up to the end,
    each once and in this order, and ends.  Missing: ranges whose last value
    plus the step is no int64; a minus sign before a value that is not
    positive. *)
Theorem for_range_partial r : plain_step (r_step r) -> (r_start r = None -> r_step r = NoStep) -> (forall x, holds r x -> int64 (x + amount (r_step r))) ->
  exists l, (forall f, (length l < f)%nat -> for_range f r = (l, Done)) /\ lists r l /\ forall x, In x l <-> holds r x.
Proof. intros P N I. destruct (for_lists r P N I) as (l & L & C). exists l. split; [exact L|]. split; [exact C|]. now apply lists_holds. Qed.
(** A range without step never overflows, whatever its bounds. *)
Theorem for_range_unit r : int64 (start r) -> int64 (r_end r) -> r_step r = NoStep ->
  exists l, (forall f, (length l < f)%nat -> for_range f r = (l, Done)) /\ lists r l.
Proof.
  intros A B S. apply for_lists; [now rewrite S|auto|]. intros x (k & K & E & [[_ H]|[H _]]); rewrite S in *; cbn in *; [|lia]. unfold int64 in *. lia.
Qed.
(** A step of zero panics before the body runs. *)
Theorem for_range_zero r f : r_start r <> None -> amount (r_step r) = 0 -> (forall n, r_step r <> Neg n) -> for_range f r = ([], Zero_step).
Proof.
  intros S Z N. unfold for_range. destruct (r_start r); [|congruence]. destruct (r_step r) as [|n|n|n]; cbn in Z; [lia|subst; reflexivity|now destruct (N n)|subst; reflexivity].
Qed.
(** A loop with literal bounds and a step whose sign shows is accepted exactly
    when its direction is right. *)
Theorem for_check r a : r_start r = Some a -> (forall n, r_step r <> Var n) -> (forall n, r_step r = Lit n -> 0 < n) -> (forall n, r_step r = Neg n -> 0 < n) ->
  check_for true r = [] <-> ((0 < amount (r_step r) /\ a <= r_end r) \/ (amount (r_step r) < 0 /\ r_end r <= a)).
Proof.
  intros S V L N. unfold check_for. rewrite S. destruct (r_step r) as [|n|n|n]; cbn [andb amount].
  - destruct (r_end r <? a) eqn:E; split; try discriminate; auto; lia.
  - specialize (L n eq_refl). replace (n <? 0) with false by lia. destruct (r_end r <? a) eqn:E; split; try discriminate; auto; lia.
  - specialize (N n eq_refl). destruct (a <? r_end r) eqn:E; split; try discriminate; auto; lia.
  - now destruct (V n).
Qed.
(** The missing cases are wrong.  range(9223372036854775806, 9223372036854775807, 2)
    panics after its only value; range(10, 0, -s) with s = -2 counts up from 10
    until it panics; a loop in the wrong direction is no error when the bounds
    are not literals. *)
Lemma up_from n : forall f x, 0 < x -> x + Z.of_nat f * n <= INT64_MAX -> 0 < n -> snd (loop f false 0 n x) = Unfinished.
Proof.
  induction f as [|f IH]; intros x X M N; [reflexivity|]. cbn [loop]. replace (0 <? x) with true by lia. unfold add_check. change INT64_MIN with (-9223372036854775808).
  assert (M1 : x + n + Z.of_nat f * n <= INT64_MAX) by (rewrite Nat2Z.inj_succ in M; lia). assert (M2 : 0 <= Z.of_nat f * n) by nia.
  replace ((-9223372036854775808 <=? x + n) && (x + n <=? INT64_MAX)) with true by lia. specialize (IH (x + n)). destruct (loop f false 0 n (x + n)) as [l e]. cbn in *. apply IH; lia.
Qed.
Theorem for_range_refuted :
  (forall f, for_range (S (S f)) (Range (Some (INT64_MAX - 1)) INT64_MAX (Lit 2)) = ([INT64_MAX - 1], Overflow)) /\
  (forall f, Z.of_nat f < 1000000 -> snd (for_range f (Range (Some 10) 0 (Neg (-2)))) = Unfinished) /\
  (forall f, for_range (S f) (Range (Some 0) 10 (Var (-1))) = ([], Done) /\ check_for false (Range (Some 0) 10 (Neg 1)) = [] /\ for_range (S f) (Range (Some 0) 10 (Neg 1)) = ([], Done)).
Proof.
  split; [intros f; cbn; reflexivity|]. split; [|intros f; cbn; auto].
  intros f F. unfold for_range. cbn [r_start r_step r_end]. apply up_from; [lia| |lia]. change INT64_MAX with 9223372036854775807. lia.
Qed.

(** C144.  x in range(...) is true exactly for the values the loop visits.
    Missing: negative steps, a step of zero, and distances from the start that
    are no int64. *)
Theorem in_range_partial x r : 0 < amount (r_step r) -> x - start r <= INT64_MAX ->
  exists b, in_range x r = Ok b /\ not_in_range x r = Ok (negb b) /\ (b = true <-> holds r x).
Proof. intros S M. destruct (in_ok x r S M) as (b & B & H). exists b. unfold not_in_range. rewrite B. auto. Qed.
Theorem in_range_loop_partial x r f l : 0 < amount (r_step r) -> x - start r <= INT64_MAX -> (r_start r = None -> r_step r = NoStep) ->
  plain_step (r_step r) -> (forall x, holds r x -> int64 (x + amount (r_step r))) ->
  for_range f r = (l, Done) -> (in_range x r = Ok true <-> In x l).
Proof.
  intros SG M N P I F. destruct (in_ok x r SG M) as (b & B & H). destruct (for_lists r P N I) as (l' & L & C).
  assert (E : l = l').
  { assert (MORE : forall up b s f x l, loop f up b s x = (l, Done) -> forall g, (f <= g)%nat -> loop g up b s x = (l, Done)).
    { clear. intros up b s. induction f as [|f IH]; intros x l H g G; [discriminate|]. destruct g as [|g]; [lia|]. cbn [loop] in *. destruct (if up then x <? b else b <? x); [|exact H].
      destruct (add_check x s) as [y|]; [|exact H]. destruct (loop f up b s y) as [t e] eqn:T. injection H as <- ->. rewrite (IH y t T g) by lia. reflexivity. }
    assert (MF : forall g, (f <= g)%nat -> for_range g r = (l, Done)).
    { intros g G. unfold for_range in *. destruct (r_start r); [|eapply MORE; eassumption]. destruct (r_step r) as [|n|n|n]; try (eapply MORE; eassumption); (destruct (n =? 0); [discriminate|eapply MORE; eassumption]). }
    specialize (MF (f + S (length l'))%nat). specialize (L (f + S (length l'))%nat). rewrite L in MF by lia. specialize (MF ltac:(lia)). congruence. }
  subst. rewrite (lists_holds r l' C x), <- H, B. split; [intros [= ->]; reflexivity|intros ->; reflexivity].
Qed.
(** when runs the first branch with a value that is x or a range that holds x.
    Missing: ranges without start, negative steps that are not written with a
    minus sign, a step of zero, distances that are no int64. *)
Theorem when_first_partial x cases : Forall (Forall (good x)) cases -> is_c cases = true /\ exists o, run_when x cases = Ok o /\ chosen x cases o.
Proof.
  intros G. split; [|now apply run_when_ok]. unfold is_c. apply forallb_forall. intros vs V. apply forallb_forall. intros c C. rewrite Forall_forall in G. specialize (G vs V). rewrite Forall_forall in G. specialize (G c C).
  destruct c as [v|r]; [reflexivity|]. destruct G as [G _]. destruct (r_start r); [reflexivity|congruence].
Qed.
(** The missing cases are wrong.  5 in range(10, 0, -1) is false, though the
    loop visits 5; a step of zero divides by zero; is range(5) is not C; when
    with a step in a variable of value -1 matches nothing; the distance of far
    values overflows. *)
Theorem range_refuted :
  in_range 5 (Range (Some 10) 0 (Neg 1)) = Ok false /\ holds (Range (Some 10) 0 (Neg 1)) 5 /\ In 5 (fst (for_range 100 (Range (Some 10) 0 (Neg 1)))) /\
  in_range 5 (Range (Some 0) 10 (Lit 0)) = UB /\
  is_c [[Within (Range None 5 NoStep)]] = false /\
  run_when 5 [[Within (Range (Some 10) 0 (Var (-1)))]] = Ok None /\ ~ chosen 5 [[Within (Range (Some 10) 0 (Var (-1)))]] None /\
  in_range 5 (Range (Some INT64_MIN) 10 (Lit 2)) = UB.
Proof.
  split; [reflexivity|]. split; [exists 5; cbn; unfold before; cbn; lia|]. split; [cbn; tauto|]. do 3 (split; [reflexivity|]). split; [|reflexivity].
  intros C. apply (C _ (or_introl eq_refl)). constructor. exists 5. cbn. unfold before. cbn. lia.
Qed.

(** * Cases that meet the hypotheses *)
Example for_case : for_range 100 (Range (Some 10) 0 (Neg 2)) = ([10; 8; 6; 4; 2], Done) /\ for_range 100 (Range None 3 NoStep) = ([0; 1; 2], Done) /\
  plain_step (Neg 2) /\ (forall x, holds (Range (Some 10) 0 (Neg 2)) x -> int64 (x + -2)).
Proof.
  split; [reflexivity|]. split; [reflexivity|]. split; [cbn; lia|]. intros x (k & K & E & [[B _]|[_ B]]); unfold start in E; cbn [amount r_step r_start r_end] in *; [lia|]. unfold int64. change INT64_MIN with (-9223372036854775808). change INT64_MAX with 9223372036854775807. lia.
Qed.
Example when_case : Forall (Forall (good 6)) [[Value 1]; [Value 2; Value 3]; [Within (Range (Some 4) 10 NoStep)]; [Value 6]] /\
  run_when 6 [[Value 1]; [Value 2; Value 3]; [Within (Range (Some 4) 10 NoStep)]; [Value 6]] = Ok (Some 2%nat).
Proof. split; [|reflexivity]. repeat constructor; discriminate. Qed.
Print Assumptions for_range_partial.
Print Assumptions for_range_unit.
Print Assumptions for_range_zero.
Print Assumptions for_check.
Print Assumptions for_range_refuted.
Print Assumptions in_range_partial.
Print Assumptions in_range_loop_partial.
Print Assumptions when_first_partial.
Print Assumptions range_refuted.
