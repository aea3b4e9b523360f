(** Proofs about ranges. *)
From Verif Require Import Base RangeSpec RangeModel.

Definition ahead (up : bool) (b x : Z) : bool := if up then x <? b else b <? x.
Lemma loop_lists (up : bool) (b s : Z) : (if up then 0 < s else s < 0) -> forall N x, (if up then b - x else x - b) <= Z.of_nat N ->
  (forall k, 0 <= k -> ahead up b (x + k * s) = true -> int64 (x + k * s + s)) ->
  exists l, (forall f, (length l < f)%nat -> loop f up b s x = (l, Done)) /\
    forall k y, nth_error l k = Some y <-> y = x + Z.of_nat k * s /\ ahead up b y = true.
Proof.
  intros SG. induction N as [|N IH]; intros x M I; (destruct (ahead up b x) eqn:A; [|
    exists []; split;
      [intros [|f] L; [cbn in L; lia|]; cbn [loop]; unfold ahead in A; now rewrite A
      |intros k y; split; [destruct k; discriminate|]; intros [-> B]; exfalso; unfold ahead in *; destruct up; nia]]).
  - exfalso. unfold ahead in A. destruct up; lia.
  - assert (I0 : int64 (x + s)) by (specialize (I 0); rewrite Z.mul_0_l, Z.add_0_r in I; apply I; [lia|exact A]).
    destruct (IH (x + s)) as (l & L & C).
    + unfold ahead in A. destruct up; lia.
    + intros k K B. replace (x + s + k * s) with (x + (k + 1) * s) in * by ring. apply I; [lia|exact B].
    + exists (x :: l). split.
      * intros [|f] F; [cbn in F; lia|]. cbn [loop]. unfold ahead in A. rewrite A. unfold add_check. unfold int64 in I0.
        replace ((INT64_MIN <=? x + s) && (x + s <=? INT64_MAX)) with true by lia. rewrite L by (cbn in F; lia). reflexivity.
      * intros [|k] y; cbn [nth_error].
        -- rewrite Z.mul_0_l, Z.add_0_r. split; [intros [= <-]; auto|intros [-> _]; reflexivity].
        -- rewrite C. replace (x + s + Z.of_nat k * s) with (x + Z.of_nat (S k) * s) by lia. reflexivity.
Qed.
Lemma before_ahead r y (up : bool) : (if up then 0 < amount (r_step r) else amount (r_step r) < 0) -> ahead up (r_end r) y = true <-> before r y.
Proof. unfold ahead, before. destruct up; lia. Qed.
Lemma for_lists r : plain_step (r_step r) -> (r_start r = None -> r_step r = NoStep) -> (forall x, holds r x -> int64 (x + amount (r_step r))) ->
  exists l, (forall f, (length l < f)%nat -> for_range f r = (l, Done)) /\ lists r l.
Proof.
  intros P N I.
  set (up := 0 <? amount (r_step r)).
  assert (SG : if up then 0 < amount (r_step r) else amount (r_step r) < 0).
  { unfold up. destruct (0 <? amount (r_step r)) eqn:E; [lia|]. unfold plain_step, amount in *. destruct (r_step r); lia. }
  destruct (loop_lists up (r_end r) (amount (r_step r)) SG (Z.to_nat (Z.abs (r_end r - start r))) (start r)) as (l & L & C); [destruct up; lia| |].
  - intros k K A. apply I. exists k. split; [exact K|]. split; [reflexivity|]. now apply (before_ahead r _ up).
  - exists l. split.
    + intros f F. rewrite <- (L f F). unfold for_range, up, start. destruct (r_start r) as [a|] eqn:E; [|rewrite (N eq_refl); reflexivity].
      destruct (r_step r) as [|n|n|n] eqn:ST; cbn [amount plain_step] in *; [reflexivity| | |].
      * replace (n =? 0) with false by lia. replace (negb (n <? 0)) with (0 <? n) by lia. reflexivity.
      * replace (0 <? - n) with false by lia. reflexivity.
      * replace (n =? 0) with false by lia. reflexivity.
    + intros k y. rewrite C. split; intros [A B]; (split; [exact A|]); now apply (before_ahead r _ up).
Qed.
Lemma lists_holds r l : lists r l -> forall x, In x l <-> holds r x.
Proof.
  intros L x. split.
  - intros I. apply In_nth_error in I as [k K]. apply L in K as [-> B]. exists (Z.of_nat k). split; [lia|]. auto.
  - intros (k & K & E & B). apply (nth_error_In l (Z.to_nat k)). apply L. rewrite Z2Nat.id by lia. auto.
Qed.
Lemma at_step_ok x a s : int64 (x - a) -> s <> 0 -> x - a <> INT64_MIN -> at_step x a s = Ok (Z.rem (x - a) s =? 0).
Proof.
  unfold int64, at_step. intros I S M. replace ((INT64_MIN <=? x - a) && (x - a <=? INT64_MAX)) with true by lia.
  replace (s =? 0) with false by lia. replace (x - a =? INT64_MIN) with false by lia. reflexivity.
Qed.
Lemma rem_steps x a s : s <> 0 -> (Z.rem (x - a) s = 0 <-> exists k, x = a + k * s).
Proof.
  intros S. rewrite Z.rem_divide by exact S. unfold Z.divide. split; intros [k K]; exists k; lia.
Qed.
Lemma holds_up r x : 0 < amount (r_step r) -> holds r x <-> start r <= x < r_end r /\ exists k, x = start r + k * amount (r_step r).
Proof.
  intros S. unfold holds, before. split.
  - intros (k & K & E & [[_ B]|[B _]]); [|lia]. split; [split; [nia|exact B]|]. now exists k.
  - intros [B [k E]]. exists k. split; [nia|]. split; [exact E|]. left. lia.
Qed.
Lemma holds_down r x : amount (r_step r) < 0 -> holds r x <-> r_end r < x <= start r /\ exists k, x = start r + k * amount (r_step r).
Proof.
  intros S. unfold holds, before. split.
  - intros (k & K & E & [[B _]|[_ B]]); [lia|]. split; [split; [exact B|nia]|]. now exists k.
  - intros [B [k E]]. exists k. split; [nia|]. split; [exact E|]. right. lia.
Qed.
Lemma in_ok x r : 0 < amount (r_step r) -> x - start r <= INT64_MAX -> exists b, in_range x r = Ok b /\ (b = true <-> holds r x).
Proof.
  intros S M. setoid_rewrite (holds_up r x S). unfold in_range. destruct (start r <=? x) eqn:A; [|exists false; split; [reflexivity|]; split; [discriminate|lia]].
  destruct (x <? r_end r) eqn:B; [|exists false; split; [reflexivity|]; split; [discriminate|lia]].
  assert (AT : at_step x (start r) (amount (r_step r)) = Ok (Z.rem (x - start r) (amount (r_step r)) =? 0)).
  { apply at_step_ok; [unfold int64; change INT64_MIN with (-9223372036854775808); lia|lia|change INT64_MIN with (-9223372036854775808); lia]. }
  assert (Q : exists b, at_step x (start r) (amount (r_step r)) = Ok b /\ (b = true <-> start r <= x < r_end r /\ (exists k, x = start r + k * amount (r_step r)))).
  { eexists. split; [exact AT|]. rewrite Z.eqb_eq, rem_steps by lia. split; [intros H; split; [lia|exact H]|tauto]. }
  destruct (r_step r) eqn:ST; auto. exists true. split; [reflexivity|]. split; [|auto]. intros _. split; [lia|]. exists (x - start r). cbn. lia.
Qed.
Lemma when_ok x r : 0 < amount (r_step r) \/ (exists n, r_step r = Neg n /\ 0 < n) -> INT64_MIN < x - start r <= INT64_MAX ->
  (match r_step r with Neg n => 0 < n | _ => True end) -> exists b, when_range x r = Ok b /\ (b = true <-> holds r x).
Proof.
  intros S M N.
  destruct (r_step r) as [|n|n|n] eqn:ST.
  1,2,4: destruct S as [S|(q & Q & _)]; [|congruence]; rewrite <- ST in S; destruct (in_ok x r S) as (b & B & H); [lia|]; exists b; split; [|exact H];
    unfold in_range in B; unfold when_range; rewrite ST in *; exact B.
  assert (D : amount (r_step r) < 0) by (rewrite ST; cbn; lia). setoid_rewrite (holds_down r x D). unfold when_range. rewrite ST.
  destruct (x <=? start r) eqn:A; [|exists false; split; [reflexivity|]; split; [discriminate|lia]].
  destruct (r_end r <? x) eqn:B; [|exists false; split; [reflexivity|]; split; [discriminate|lia]].
  eexists. split; [apply at_step_ok; [unfold int64; lia|cbn; lia|lia]|]. rewrite Z.eqb_eq, rem_steps by (cbn; lia). split; [intros H; split; [lia|exact H]|tauto].
Qed.
Lemma arm_ok x vs : Forall (good x) vs -> exists b, arm x vs = Ok b /\ (b = true <-> Exists (covers x) vs).
Proof.
  induction 1 as [|c t G _ (b & B & H)]; [exists false; split; [reflexivity|]; split; [discriminate|intros E; inversion E]|]. cbn [arm]. setoid_rewrite Exists_cons.
  assert (Q : exists d, match c with Value v => Ok (x =? v) | Within r => when_range x r end = Ok d /\ (d = true <-> covers x c)).
  { destruct c as [v|r]; [exists (x =? v); split; [reflexivity|]; cbn; lia|]. destruct G as (_ & P & M). cbn [covers]. apply when_ok; [|exact M|destruct (r_step r); auto].
    destruct (r_step r) as [|n|n|n]; cbn; [left; lia|left; lia|right; eauto|left; lia]. }
  destruct Q as (d & -> & D). destruct d.
  - exists true. split; [reflexivity|]. tauto.
  - exists b. split; [exact B|]. rewrite <- H, <- D. split; [tauto|]. intros [?|?]; [discriminate|assumption].
Qed.
Lemma run_when_ok x cases : Forall (Forall (good x)) cases -> exists o, run_when x cases = Ok o /\ chosen x cases o.
Proof.
  induction 1 as [|vs t G _ (o & O & C)]; [exists None; split; [reflexivity|]; intros vs []|]. cbn [run_when]. destruct (arm_ok x vs G) as (b & -> & B). destruct b.
  - exists (Some 0%nat). split; [reflexivity|]. split; [exists vs; split; [reflexivity|now apply B]|]. intros j us J. lia.
  - rewrite O. exists (option_map S o). split; [reflexivity|].
    assert (NB : ~ Exists (covers x) vs) by (intros E; apply B in E; discriminate). destruct o as [k|]; cbn [option_map chosen] in *.
    + destruct C as [C1 C2]. split; [exact C1|]. intros [|j] us J E; cbn in E; [injection E as <-; exact NB|]. apply (C2 j us); [lia|exact E].
    + intros us [<-|I]; [exact NB|now apply C].
Qed.
