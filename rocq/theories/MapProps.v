(** C14-C17: maps. *)
From Coq Require Import ZifyBool ZifyNat.
From Verif Require Import Base BaseFacts MapModel MapSpec MapProofs.

(** ---- the key kinds ---- *)
Lemma bytes_eq_iff a b : bytes_eq a b = true <-> a = b.
Proof.
  revert b. induction a as [|x a IH]; intros [|y b]; cbn; try (split; (reflexivity || discriminate)).
  rewrite andb_true_iff, Z.eqb_eq, IH. split; [intros [-> ->]; reflexivity|intros [= -> ->]; split; reflexivity].
Qed.
(** int, bool, char, byte, pointer (as stored bytes) and string keys *)
Theorem bytes_keys_good : good_keys bytes_eq hash_bytes.
Proof.
  split; [intros a; apply bytes_eq_iff; reflexivity|]. split; [|split].
  - intros a b. destruct (bytes_eq a b) eqn:E1, (bytes_eq b a) eqn:E2; try reflexivity.
    + apply bytes_eq_iff in E1. subst. assert (bytes_eq b b = true) by (apply bytes_eq_iff; reflexivity). congruence.
    + apply bytes_eq_iff in E2. subst. assert (bytes_eq a a = true) by (apply bytes_eq_iff; reflexivity). congruence.
  - intros a b c H1 H2. apply bytes_eq_iff in H1, H2. subst. apply bytes_eq_iff. reflexivity.
  - intros a b H. apply bytes_eq_iff in H. subst. reflexivity.
Qed.
(** float keys, by their bit patterns *)
Theorem f64_keys_good : good_keys floats_equal_f64 hash_f64.
Proof.
  assert (ZN : forall a, f64_zero a = true -> f64_nan a = false) by (intros a; unfold f64_zero, f64_nan; lia).
  unfold good_keys, floats_equal_f64, hash_f64, f64_eq. split; [|split; [|split]].
  - intros a. destruct (f64_zero a) eqn:E1, (f64_nan a) eqn:E2; cbn [andb orb negb]; try reflexivity. rewrite Z.eqb_refl. reflexivity.
  - intros a b. rewrite (Z.eqb_sym a b). destruct (f64_zero a), (f64_zero b), (f64_nan a), (f64_nan b); cbn [andb orb negb]; reflexivity.
  - intros a b c H1 H2. pose proof (ZN a) as Na. pose proof (ZN b) as Nb. pose proof (ZN c) as Nc.
    destruct (Z.eqb_spec a b) as [->|D1]; [|destruct (Z.eqb_spec b c) as [->|D2]].
    + destruct (f64_zero b), (f64_zero c), (f64_nan b), (f64_nan c); cbn [andb orb negb] in *; try reflexivity; try discriminate; try assumption.
    + destruct (f64_zero a), (f64_zero c), (f64_nan a), (f64_nan c); cbn [andb orb negb] in *; try reflexivity; try discriminate; try assumption;
        destruct (a =? c); try reflexivity; try discriminate; try assumption.
    + destruct (f64_zero a), (f64_zero b), (f64_zero c), (f64_nan a), (f64_nan b), (f64_nan c); cbn [andb orb negb] in *; try reflexivity; try discriminate;
        try (specialize (Na eq_refl); discriminate); try (specialize (Nb eq_refl); discriminate).
  - intros a b H. f_equal. f_equal. pose proof (ZN a) as Na. pose proof (ZN b) as Nb.
    destruct (f64_zero a) eqn:Za, (f64_zero b) eqn:Zb, (f64_nan a) eqn:NNa, (f64_nan b) eqn:NNb; cbn [andb orb negb] in *; try reflexivity; try discriminate;
      try (specialize (Na eq_refl); discriminate); try (specialize (Nb eq_refl); discriminate);
      rewrite orb_false_r in H; apply Z.eqb_eq in H; subst; congruence.
Qed.
Theorem f32_keys_good : good_keys floats_equal_f32 hash_f32.
Proof.
  assert (ZN : forall a, f32_zero a = true -> f32_nan a = false) by (intros a; unfold f32_zero, f32_nan; lia).
  unfold good_keys, floats_equal_f32, hash_f32, f32_eq. split; [|split; [|split]].
  - intros a. destruct (f32_zero a) eqn:E1, (f32_nan a) eqn:E2; cbn [andb orb negb]; try reflexivity. rewrite Z.eqb_refl. reflexivity.
  - intros a b. rewrite (Z.eqb_sym a b). destruct (f32_zero a), (f32_zero b), (f32_nan a), (f32_nan b); cbn [andb orb negb]; reflexivity.
  - intros a b c H1 H2. pose proof (ZN a) as Na. pose proof (ZN b) as Nb. pose proof (ZN c) as Nc.
    destruct (Z.eqb_spec a b) as [->|D1]; [|destruct (Z.eqb_spec b c) as [->|D2]].
    + destruct (f32_zero b), (f32_zero c), (f32_nan b), (f32_nan c); cbn [andb orb negb] in *; try reflexivity; try discriminate; try assumption.
    + destruct (f32_zero a), (f32_zero c), (f32_nan a), (f32_nan c); cbn [andb orb negb] in *; try reflexivity; try discriminate; try assumption;
        destruct (a =? c); try reflexivity; try discriminate; try assumption.
    + destruct (f32_zero a), (f32_zero b), (f32_zero c), (f32_nan a), (f32_nan b), (f32_nan c); cbn [andb orb negb] in *; try reflexivity; try discriminate;
        try (specialize (Na eq_refl); discriminate); try (specialize (Nb eq_refl); discriminate).
  - intros a b H. f_equal. f_equal. pose proof (ZN a) as Na. pose proof (ZN b) as Nb.
    destruct (f32_zero a) eqn:Za, (f32_zero b) eqn:Zb, (f32_nan a) eqn:NNa, (f32_nan b) eqn:NNb; cbn [andb orb negb] in *; try reflexivity; try discriminate;
      try (specialize (Na eq_refl); discriminate); try (specialize (Nb eq_refl); discriminate);
      rewrite orb_false_r in H; apply Z.eqb_eq in H; subst; congruence.
Qed.
(** The equality of float keys: IEEE ==, except that all NaNs are one key. *)
Theorem f64_key_equality : forall a b,
  floats_equal_f64 a b = true <-> (f64_nan a = true /\ f64_nan b = true) \/ f64_eq a b = true.
Proof.
  assert (ZN : forall a, f64_zero a = true -> f64_nan a = false) by (intros a; unfold f64_zero, f64_nan; lia).
  intros a b. unfold floats_equal_f64, f64_eq. pose proof (ZN a) as Na. pose proof (ZN b) as Nb.
  destruct (f64_zero a), (f64_zero b), (f64_nan a), (f64_nan b), (a =? b); cbn [andb orb negb]; split; intros H;
    try discriminate; try reflexivity; try (specialize (Na eq_refl); discriminate); try (specialize (Nb eq_refl); discriminate);
    intuition (discriminate || tauto).
Qed.

(** ---- C14 ---- *)
(** After any history of up to 2^27 operations on a fresh map the program has seen exactly
    what an insertion-ordered dictionary shows, and the map's contents are that dictionary.
    In particular no operation fails. *)
Theorem map_refines_dictionary : forall (K V : Type) (keq : K -> K -> bool) (hsh : K -> Z),
  good_keys keq hsh -> forall (init : nat) (l : list (op K V)),
  Z.of_nat init <= 2 ^ 27 -> Z.of_nat (length l) <= 2 ^ 27 ->
  exists m, run keq hsh (map_new init) l = Ok (m, snd (d_run keq [] l)) /\
            entries m = fst (d_run keq [] l).
Proof.
  intros K V keq hsh G init l Hi Hl.
  destruct (run_ok keq hsh G (Z.of_nat (Nat.max 8 init)) l ltac:(lia) ltac:(lia) 0 (map_new init) ltac:(lia) ltac:(lia) (new_bounded keq hsh init))
    as (m & xs & E & _ & D).
  destruct (new_ok (K := K) (V := V) keq hsh init) as (_ & En & _). rewrite En in D.
  exists m. rewrite D. split; [exact E|reflexivity].
Qed.
Example map_history :
  let k i := [Z.of_nat i; 0; 0; 0; 0; 0; 0; 0] in
  let l := map (fun i => OSet (k i) i) (seq 0 9) ++ [ORemove (k 3%nat); OSet (k 1%nat) 100%nat; OSet (k 3%nat) 7%nat; OGet (k 3%nat); OLen; OEntries] in
  rmap snd (run bytes_eq hash_bytes (map_new 0) l) =
  Ok (repeat Nothing 9 ++ [Flag true; Nothing; Nothing; Value (Some 7%nat); Num 9;
      Listing (map (fun i => (k i, if (i =? 1)%nat then 100%nat else i)) [0;1;2;4;5;6;7;8]%nat ++ [(k 3, 7)])%nat]).
Proof. vm_compute. reflexivity. Qed.

(** ---- C15 ---- *)
(** In every reachable state a slot is free, at most three quarters (rounded up, plus one)
    of the slots are occupied, the count is the number of occupied slots, and the
    capacity is proportional to the number of operations. *)
Theorem map_never_overfills : forall (K V : Type) (keq : K -> K -> bool) (hsh : K -> Z),
  good_keys keq hsh -> forall (init : nat) (l : list (op K V)) m xs,
  Z.of_nat init <= 2 ^ 27 -> Z.of_nat (length l) <= 2 ^ 27 ->
  run keq hsh (map_new init) l = Ok (m, xs) ->
  (exists p, (p < capacity m)%nat /\ forall k v, slot_at m p <> Occ k v) /\
  count m * 4 <= Z.of_nat (capacity m) * 3 + 3 /\
  (NoDup (order m) /\ count m = Z.of_nat (length (order m)) /\
     forall p, In p (order m) <-> (p < capacity m)%nat /\ exists k v, slot_at m p = Occ k v) /\
  Z.of_nat (capacity m) * 3 <= Z.max (Z.of_nat (Nat.max 8 init) * 3) (Z.of_nat (length l) * 8).
Proof.
  intros K V keq hsh G init l m xs Hi Hl E.
  destruct (run_ok keq hsh G (Z.of_nat (Nat.max 8 init)) l ltac:(lia) ltac:(lia) 0 (map_new init) ltac:(lia) ltac:(lia) (new_bounded keq hsh init))
    as (m' & xs' & E' & B & _).
  rewrite E in E'. injection E' as <- <-. replace (0 + Z.of_nat (length l)) with (Z.of_nat (length l)) in B by lia.
  split; [|split; [|split]].
  - destruct (bounded_free keq hsh _ _ m B) as (p & Hp & Hno). exists p. split; [exact Hp|]. intros k v X. apply Hno. exists k, v. exact X.
  - apply B.
  - destruct B as (I & _). split; [apply (inv_nodup _ _ m I)|]. split; [apply (inv_count _ _ m I)|]. apply (inv_order _ _ m I).
  - apply B.
Qed.
(** There need not be a never-used slot: tombstones can fill the table (lookups then scan all
    of it; map_refines_dictionary covers these states too). *)
Definition churn (n : nat) : list (op (list Z) Z) :=
  flat_map (fun i => [OSet [Z.of_nat i] 0; ORemove [Z.of_nat i]]) (seq 0 n).
Theorem map_never_used_slot_refuted :
  exists m xs, run bytes_eq hash_bytes (map_new 8) (churn 40) = Ok (m, xs) /\ slots m = repeat Tomb 8.
Proof. eexists. eexists. split; [vm_compute; reflexivity|reflexivity]. Qed.

(** ---- C16 ---- *)
Lemma fold_running {K V} (l : list (iev K V)) n :
  fold_left (fun n e => match e with BeginName | BeginCopy => n + 1 | EndName | EndCopy | ReturnOut => n - 1 | Do _ => n end) l n =
  n + running l.
Proof.
  unfold running. revert n. induction l as [|e l IH]; intros n; cbn [fold_left]; [lia|].
  rewrite (IH (match e with BeginName | BeginCopy => n + 1 | EndName | EndCopy | ReturnOut => n - 1 | Do _ => n end)),
          (IH (match e with BeginName | BeginCopy => 0 + 1 | EndName | EndCopy | ReturnOut => 0 - 1 | Do _ => 0 end)).
  destruct e; lia.
Qed.
Lemma step_iterating {K V} keq hsh (m m' : gmap K V) o x : step keq hsh m o = Ok (m', x) -> iterating m' = iterating m.
Proof.
  assert (FILL : forall (m m' : gmap K V) p k v, fill m p k v = Ok m' -> iterating m' = iterating m).
  { intros a b p k v. unfold fill. destruct (_ <? _)%nat; [|discriminate]. intros [= <-]. reflexivity. }
  assert (LOOP : forall n (m m' : gmap K V) k v i t, set_loop keq hsh m k v n i t = Ok m' -> iterating m' = iterating m).
  { induction n as [|n IH]; intros a b k v i t; cbn [set_loop].
    - destruct t; [apply FILL|intros [= <-]; reflexivity].
    - destruct (slot_at a _) as [|k2 v2|]; [apply FILL| |apply IH]. destruct (keq k2 k); [intros [= <-]; reflexivity|apply IH]. }
  assert (RE : forall l (r : res (gmap K V)) (m m' : gmap K V), (forall m0, r = Ok m0 -> iterating m0 = iterating m) ->
    fold_left (reinsert keq hsh) l r = Ok m' -> iterating m' = iterating m).
  { induction l as [|e l IH]; intros r a b Hr E; [apply Hr; exact E|]. cbn [fold_left] in E. eapply IH; [|exact E].
    intros m0. unfold reinsert. destruct r as [m1| | |]; try discriminate. cbn [rbind]. destruct (load_overflows m1); [discriminate|].
    destruct (overloaded m1); [discriminate|]. intros X. apply LOOP in X. rewrite X. apply Hr. reflexivity. }
  destruct o as [k v|k| |k|k| |]; cbn [step]; try (intros [= <- _]; reflexivity).
  - unfold map_set. destruct (0 <? iterating m); [discriminate|]. destruct (load_overflows m); [discriminate|].
    destruct (overloaded m).
    + destruct (rehash keq hsh m) as [m1| | |] eqn:R; try discriminate. cbn [rbind].
      destruct (set_core keq hsh m1 k v) as [m2| | |] eqn:S; try discriminate. intros [= <- _]. apply LOOP in S. rewrite S.
      unfold rehash in R. destruct (INT32_MAX <? _); [discriminate|]. eapply RE; [|exact R]. intros m0 [= <-]. reflexivity.
    + destruct (set_core keq hsh m k v) as [m2| | |] eqn:S; try discriminate. intros [= <- _]. apply LOOP in S. exact S.
  - unfold map_remove. destruct (0 <? iterating m); [discriminate|]. destruct (find_slot keq hsh m k); intros [= <- _]; reflexivity.
Qed.
Lemma irun_iterating {K V} keq hsh (l : list (iev K V)) : plain_loops l -> forall m m' xs,
  irun keq hsh m l = Ok (m', xs) -> iterating m' = iterating m + running l.
Proof.
  induction l as [|e l IH]; intros P m m' xs E; [injection E as <- _; cbn; lia|].
  cbn [irun] in E. destruct (istep keq hsh m e) as [[m1 x]| | |] eqn:S; try discriminate. cbn [rbind fst snd] in E.
  destruct (irun keq hsh m1 l) as [[m2 ys]| | |] eqn:R; try discriminate. injection E as <- _.
  assert (Pl : plain_loops l) by (intros f Hf; apply P; right; exact Hf).
  rewrite (IH Pl m1 m2 ys R). destruct (P e (or_introl eq_refl)) as (P1 & P2 & P3).
  change (running (e :: l)) with (fold_left (fun n e => match e with BeginName | BeginCopy => n + 1 | EndName | EndCopy | ReturnOut => n - 1 | Do _ => n end) l
    (match e with BeginName | BeginCopy => 0 + 1 | EndName | EndCopy | ReturnOut => 0 - 1 | Do _ => 0 end)).
  rewrite fold_running. destruct e as [| | | | |o]; try congruence; cbn [istep] in S.
  - injection S as <- _. cbn [iterating]. lia.
  - injection S as <- _. cbn [iterating]. lia.
  - apply step_iterating in S. lia.
Qed.
(** While any for_each over the map variable runs, set and remove panic with P0035 - nested
    loops included; as soon as none runs, neither does. *)
Theorem map_iteration_guard_partial : forall (K V : Type) (keq : K -> K -> bool) (hsh : K -> Z) init (l : list (iev K V)) m xs k v,
  plain_loops l -> irun keq hsh (map_new init) l = Ok (m, xs) ->
  (0 < running l -> step keq hsh m (OSet k v) = Panic 35 /\ step keq hsh m (ORemove k) = Panic 35) /\
  (running l = 0 -> step keq hsh m (OSet k v) <> Panic 35 /\ step keq hsh m (ORemove k) <> Panic 35).
Proof.
  intros K V keq hsh init l m xs k v P E.
  assert (I0 : iterating (map_new (K := K) (V := V) init) = 0) by reflexivity.
  pose proof (irun_iterating keq hsh l P _ _ _ E) as It. rewrite I0 in It. split; intros H.
  - cbn [step]. unfold map_set, map_remove. replace (0 <? iterating m) with true by lia. split; reflexivity.
  - cbn [step]. unfold map_set, map_remove. replace (0 <? iterating m) with false by lia. split.
    + assert (FILL : forall (a : gmap K V) p, fill a p k v <> Panic 35) by (intros a p; unfold fill; destruct (_ <? _)%nat; discriminate).
      assert (LOOP : forall n (a : gmap K V) kk vv i t, set_loop keq hsh a kk vv n i t <> Panic 35).
      { induction n as [|n IH]; intros a kk vv i t; cbn [set_loop].
        - destruct t; [unfold fill; destruct (_ <? _)%nat; discriminate|discriminate].
        - destruct (slot_at a _) as [|k2 v2|]; [unfold fill; destruct (_ <? _)%nat; discriminate| |apply IH]. destruct (keq k2 kk); [discriminate|apply IH]. }
      assert (RE : forall ll (r : res (gmap K V)), r <> Panic 35 -> fold_left (reinsert keq hsh) ll r <> Panic 35).
      { induction ll as [|e ll IH]; intros r Hr; [exact Hr|]. cbn [fold_left]. apply IH. unfold reinsert.
        destruct r as [m1|c| |]; cbn [rbind]; try discriminate; [|exact Hr].
        destruct (load_overflows m1); [discriminate|]. destruct (overloaded m1); [discriminate|]. apply LOOP. }
      assert (RM : forall r : res (gmap K V), r <> Panic 35 -> rmap (fun m : gmap K V => (m, @Nothing K V)) r <> Panic 35).
      { intros [a|c| |] Hr; cbn; try discriminate. intros [= ->]. apply Hr. reflexivity. }
      apply RM. destruct (load_overflows m); [discriminate|]. destruct (overloaded m); [|apply LOOP].
      unfold rehash. destruct (INT32_MAX <? _); [discriminate|].
      match goal with |- rbind ?r _ <> _ => assert (Hr : r <> Panic 35) by (apply RE; discriminate); destruct r as [a|c| |] end;
        cbn [rbind]; try discriminate; [apply LOOP|]. intros [= ->]. apply Hr. reflexivity.
    + destruct (find_slot keq hsh m k); discriminate.
Qed.
(** Where the guard fails:
    - a return out of the loop leaves the map locked although no loop runs any more;
    - a loop over anything but a plain variable (a struct field, say) locks a copy only;
    - clear is not guarded at all. *)
Theorem map_iteration_guard_refuted :
  (let l := [Do (OSet [1] 1); BeginName; ReturnOut] : list (iev (list Z) Z) in
   running l = 0 /\ exists m xs, irun bytes_eq hash_bytes (map_new 8) l = Ok (m, xs) /\ step bytes_eq hash_bytes m (OSet [2] 2) = Panic 35) /\
  (let l := [Do (OSet [1] 1); BeginCopy] : list (iev (list Z) Z) in
   0 < running l /\ exists m xs, irun bytes_eq hash_bytes (map_new 8) l = Ok (m, xs) /\ exists m', step bytes_eq hash_bytes m (OSet [2] 2) = Ok m') /\
  (let l := [Do (OSet [1] 1); BeginName] : list (iev (list Z) Z) in
   0 < running l /\ exists m xs, irun bytes_eq hash_bytes (map_new 8) l = Ok (m, xs) /\ exists m', step bytes_eq hash_bytes m OClear = Ok m').
Proof.
  split; [|split]; cbv zeta; (split; [vm_compute; reflexivity|]).
  - eexists. eexists. split; [vm_compute; reflexivity|vm_compute; reflexivity].
  - eexists. eexists. split; [vm_compute; reflexivity|]. eexists. vm_compute. reflexivity.
  - eexists. eexists. split; [vm_compute; reflexivity|]. eexists. vm_compute. reflexivity.
Qed.
Example map_iteration_ex :
  let l := [Do (OSet [1] 1); BeginName; BeginName; EndName] : list (iev (list Z) Z) in
  plain_loops l /\ running l = 1 /\ rmap snd (irun bytes_eq hash_bytes (map_new 8) l) = Ok [Nothing; Nothing; Nothing; Nothing] /\
  irun bytes_eq hash_bytes (map_new 8) (l ++ [Do (ORemove [1])]) = Panic 35 /\
  rmap snd (irun bytes_eq hash_bytes (map_new 8) (l ++ [EndName; Do (ORemove [1])])) = Ok [Nothing; Nothing; Nothing; Nothing; Nothing; Flag true].
Proof.
  cbv zeta. split; [intros e [<-|[<-|[<-|[<-|[]]]]]; repeat split; discriminate|]. vm_compute. repeat split.
Qed.

(** ---- C17 ---- *)
(** For maps reached by any history (their invariant [Inv] is what run_ok establishes). *)
Definition reachable {K V} (keq : K -> K -> bool) hsh (m : gmap K V) : Prop :=
  exists init l xs, Z.of_nat init <= 2 ^ 27 /\ Z.of_nat (length l) <= 2 ^ 27 /\ run keq hsh (map_new init) l = Ok (m, xs).
Lemma reachable_inv {K V} (keq : K -> K -> bool) hsh (m : gmap K V) : good_keys keq hsh -> reachable keq hsh m -> Inv keq hsh m.
Proof.
  intros G (init & l & xs & Hi & Hl & E).
  destruct (run_ok keq hsh G (Z.of_nat (Nat.max 8 init)) l ltac:(lia) ltac:(lia) 0 (map_new init) ltac:(lia) ltac:(lia) (new_bounded keq hsh init))
    as (m' & xs' & E' & (I & _) & _).
  rewrite E in E'. injection E' as <- <-. exact I.
Qed.
Theorem maps_merge : forall (K V : Type) (keq : K -> K -> bool) hsh (m1 m2 : gmap K V), good_keys keq hsh ->
  reachable keq hsh m1 -> reachable keq hsh m2 -> count m1 + count m2 <= 2 ^ 26 ->
  exists r, merge keq hsh m1 m2 = Ok r /\
    (forall k, map_get keq hsh r k = match map_get keq hsh m2 k with Some v => Some v | None => map_get keq hsh m1 k end) /\
    get_keys r = get_keys m1 ++ filter (fun k => negb (map_has keq hsh m1 k)) (get_keys m2).
Proof.
  intros K V keq hsh m1 m2 G R1 R2 Hn. pose proof (reachable_inv _ _ _ G R1) as I1. pose proof (reachable_inv _ _ _ G R2) as I2.
  destruct (merge_ok keq hsh G m1 m2 I1 I2 Hn) as (r & E & Ir & En). exists r. split; [exact E|]. split.
  - intros k. rewrite !(map_get_spec keq hsh G) by assumption. rewrite En. apply (d_put_all_get keq hsh G). apply (entries_distinct keq hsh). exact I2.
  - unfold get_keys. rewrite En, (d_put_all_keys keq hsh G) by (apply (entries_distinct keq hsh); exact I2). f_equal.
    apply filter_ext. intros k. rewrite (map_has_spec keq hsh G) by exact I1. reflexivity.
Qed.
(** get_keys and get_values run in parallel, list every key once, and agree with get. *)
Theorem maps_keys_values : forall (K V : Type) (keq : K -> K -> bool) hsh (m : gmap K V), good_keys keq hsh -> reachable keq hsh m ->
  length (get_keys m) = length (get_values m) /\ Z.of_nat (length (get_keys m)) = count m /\
  (forall i k v, nth_error (get_keys m) i = Some k -> nth_error (get_values m) i = Some v -> map_get keq hsh m k = Some v) /\
  (forall k, map_has keq hsh m k = true <-> exists k', In k' (get_keys m) /\ keq k' k = true) /\
  (forall i j k1 k2, nth_error (get_keys m) i = Some k1 -> nth_error (get_keys m) j = Some k2 -> keq k1 k2 = true -> i = j).
Proof.
  intros K V keq hsh m G R. pose proof (reachable_inv _ _ _ G R) as I. unfold get_keys, get_values.
  pose proof (entries_distinct keq hsh m I) as D.
  split; [rewrite !map_length; reflexivity|]. split; [rewrite map_length, entries_length with (keq := keq) (hsh := hsh) by exact I; symmetry; apply (inv_count _ _ m I)|].
  assert (ORD : forall i j k1 k2, (i < j)%nat -> nth_error (map fst (entries m)) i = Some k1 -> nth_error (map fst (entries m)) j = Some k2 -> keq k1 k2 = false).
  { revert D. generalize (entries m) as d. induction d as [|[a w] d IH]; intros D i j k1 k2 L H1 H2; [destruct i; discriminate|].
    destruct j as [|j]; [lia|]. cbn [map nth_error fst] in H2. destruct i as [|i].
    - injection H1 as <-. apply nth_error_In in H2. apply in_map_iff in H2. destruct H2 as (e & <- & He). eapply distinct_head; eassumption.
    - cbn [map nth_error] in H1. apply (IH (distinct_tail _ _ _ D) i j k1 k2); [lia|exact H1|exact H2]. }
  split; [|split].
  - intros i k v Hk Hv. rewrite (map_get_spec keq hsh G) by exact I. clear ORD R I. revert i D Hk Hv. generalize (entries m) as d.
    induction d as [|[a w] d IH]; intros i D Hk Hv; [destruct i; discriminate|]. cbn [d_get]. destruct i as [|i].
    + cbn in Hk, Hv. injection Hk as ->. injection Hv as ->. rewrite (proj1 G). reflexivity.
    + cbn in Hk, Hv. assert (In k (map fst d)) as Hin by (eapply nth_error_In; exact Hk). apply in_map_iff in Hin. destruct Hin as (e & <- & He).
      rewrite (distinct_head keq a w d D e He). apply (IH i); [eapply distinct_tail; exact D|exact Hk|exact Hv].
  - intros k. rewrite (map_has_spec keq hsh G) by exact I. unfold present.
    assert (PI : forall d : list (K * V), match d_get keq d k with Some _ => true | None => false end = true <-> exists e, In e d /\ keq (fst e) k = true).
    { induction d as [|[a w] d IH]; cbn [d_get]; [split; [discriminate|intros (? & [] & _)]|]. destruct (keq a k) eqn:Ea.
      - split; [intros _; exists (a, w); split; [left; reflexivity|exact Ea]|reflexivity].
      - rewrite IH. split; intros (e & He & Ek); [exists e; split; [right; exact He|exact Ek]|].
        destruct He as [<-|He]; [cbn in Ek; congruence|exists e; split; assumption]. }
    rewrite PI. split.
    + intros (e & He & Ek). exists (fst e). split; [apply in_map; exact He|exact Ek].
    + intros (k' & Hk' & Ek). apply in_map_iff in Hk'. destruct Hk' as (e & <- & He). exists e. split; assumption.
  - intros i j k1 k2 H1 H2 E. destruct (lt_eq_lt_dec i j) as [[L|L]|L]; [|exact L|].
    + rewrite (ORD i j k1 k2 L H1 H2) in E. discriminate.
    + rewrite (proj1 (proj2 G)) in E. rewrite (ORD j i k2 k1 L H2 H1) in E. discriminate.
Qed.
(** is_equal is extensional equality under the value comparison used. *)
Theorem maps_is_equal : forall (K V : Type) (keq : K -> K -> bool) hsh (veq : V -> V -> bool) (a b : gmap K V), good_keys keq hsh ->
  reachable keq hsh a -> reachable keq hsh b ->
  (is_equal keq hsh veq a b = true <->
   forall k, match map_get keq hsh a k, map_get keq hsh b k with
             | Some v, Some w => veq v w = true | None, None => True | _, _ => False end).
Proof.
  intros K V keq hsh veq a b G Ra Rb. pose proof (reachable_inv _ _ _ G Ra) as Ia. pose proof (reachable_inv _ _ _ G Rb) as Ib.
  rewrite (is_equal_ok keq hsh G veq a b Ia Ib). split; intros H k; specialize (H k); rewrite !(map_get_spec keq hsh G) in * by assumption; exact H.
Qed.
(** contains_value: some key maps to a value with the same stored bytes. *)
Theorem maps_contains_value_partial : forall (K V : Type) (keq : K -> K -> bool) hsh (raw_eq : V -> V -> bool) (m : gmap K V) v, good_keys keq hsh ->
  reachable keq hsh m ->
  (contains_value raw_eq m v = true <-> exists k w, map_get keq hsh m k = Some w /\ raw_eq w v = true).
Proof.
  intros K V keq hsh raw_eq m v G R. pose proof (reachable_inv _ _ _ G R) as I. unfold contains_value. rewrite existsb_exists.
  pose proof (maps_keys_values K V keq hsh m G R) as (_ & _ & KV & _ & _).
  split.
  - intros (e & He & Ev). exists (fst e), (snd e). split; [|exact Ev]. apply In_nth_error in He. destruct He as [i Hi].
    apply (KV i); unfold get_keys, get_values; rewrite nth_error_map, Hi; reflexivity.
  - intros (k & w & Hg & Ev). rewrite (map_get_spec keq hsh G) in Hg by exact I.
    revert Hg. generalize (entries m) as d. induction d as [|[a x] d IH]; [discriminate|]. cbn. destruct (keq a k).
    + intros [= ->]. exists (a, w). split; [left; reflexivity|exact Ev].
    + intros Hg. destruct (IH Hg) as (e & He & X). exists e. split; [right; exact He|exact X].
Qed.
(** For string values the stored bytes are a pointer and a length: an equal text held at
    another address is not found. *)
Record stored_string := { address : Z; text : list Z }.
Definition memcmp_string (a b : stored_string) : bool := (address a =? address b) && (length (text a) =? length (text b))%nat.
Theorem maps_contains_value_refuted : exists m v w xs,
  run bytes_eq hash_bytes (map_new 8) [OSet (bs "k") v] = Ok (m, xs) /\ text v = text w /\ contains_value memcmp_string m w = false.
Proof.
  eexists. exists {| address := 4096; text := bs "red" |}, {| address := 8192; text := bs "red" |}. eexists.
  split; [vm_compute; reflexivity|]. split; [reflexivity|]. vm_compute. reflexivity.
Qed.
Theorem maps_is_empty : forall (K V : Type) (keq : K -> K -> bool) hsh (m : gmap K V), good_keys keq hsh -> reachable keq hsh m ->
  (is_empty m = true <-> forall k, map_get keq hsh m k = None).
Proof.
  intros K V keq hsh m G R. pose proof (reachable_inv _ _ _ G R) as I. unfold is_empty. rewrite Z.eqb_eq.
  pose proof (inv_count _ _ m I) as C. rewrite <- (entries_length keq hsh m I) in C. split.
  - intros H k. rewrite (map_get_spec keq hsh G) by exact I. destruct (entries m); [reflexivity|cbn in C; lia].
  - intros H. destruct (entries m) as [|[k v] d] eqn:E; [cbn in C; lia|]. specialize (H k).
    rewrite (map_get_spec keq hsh G), E in H by exact I. cbn in H. rewrite (proj1 G) in H. discriminate.
Qed.
Example maps_ex :
  let m1 := run bytes_eq hash_bytes (map_new 8) [OSet [1] 10; OSet [2] 20] in
  let m2 := run bytes_eq hash_bytes (map_new 8) [OSet [3] 30; OSet [1] 11] in
  rbind m1 (fun a => rbind m2 (fun b => rmap entries (merge bytes_eq hash_bytes (fst a) (fst b)))) = Ok [([1], 11); ([2], 20); ([3], 30)] /\
  rbind m1 (fun a => rbind m2 (fun b => Ok (is_equal bytes_eq hash_bytes Z.eqb (fst a) (fst b)))) = Ok false.
Proof. vm_compute. split; reflexivity. Qed.

Print Assumptions map_refines_dictionary.
Print Assumptions map_never_overfills.
Print Assumptions map_never_used_slot_refuted.
Print Assumptions map_iteration_guard_partial.
Print Assumptions map_iteration_guard_refuted.
Print Assumptions maps_merge.
Print Assumptions maps_keys_values.
Print Assumptions maps_is_equal.
Print Assumptions maps_contains_value_partial.
Print Assumptions maps_contains_value_refuted.
Print Assumptions maps_is_empty.
Print Assumptions f64_keys_good.
Print Assumptions f32_keys_good.
Print Assumptions f64_key_equality.
Print Assumptions bytes_keys_good.
