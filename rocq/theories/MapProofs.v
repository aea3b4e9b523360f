From Coq Require Import ZifyBool ZifyNat.
From Verif Require Import Base BaseFacts MapModel MapSpec.

(** ---- lists ---- *)
Lemma set_nth_length {A} n (x : A) l : length (set_nth n x l) = length l.
Proof. revert n. induction l as [|y l IH]; intros [|n]; cbn; try reflexivity. rewrite IH. reflexivity. Qed.
Lemma nth_set_nth {A} n p (x d : A) l : (n < length l)%nat ->
  nth p (set_nth n x l) d = if (p =? n)%nat then x else nth p l d.
Proof.
  revert n p. induction l as [|y l IH]; intros [|n] [|p] Hn; cbn in *; try lia; try reflexivity.
  rewrite IH by lia. reflexivity.
Qed.
Lemma nth_repeat_d {A} (d : A) n p : nth p (repeat d n) d = d.
Proof. revert p. induction n as [|n IH]; intros [|p]; cbn; try reflexivity. apply IH. Qed.
Lemma remove_first_not_in p o : ~ In p o -> remove_first p o = o.
Proof.
  induction o as [|q o IH]; intros H; [reflexivity|]. cbn. destruct (q =? p)%nat eqn:E.
  - exfalso. apply H. left. lia.
  - rewrite IH; [reflexivity|]. intros X. apply H. right. exact X.
Qed.
Lemma remove_first_in p q o : NoDup o -> (In q (remove_first p o) <-> In q o /\ q <> p).
Proof.
  induction o as [|r o IH]; intros H; [cbn; tauto|]. inversion H as [|? ? Hr Ho]; subst. cbn.
  destruct (r =? p)%nat eqn:E.
  - apply Nat.eqb_eq in E. subst r. split.
    + intros X. split; [right; exact X|]. intros ->. contradiction.
    + intros [[X|X] Y]; [congruence|exact X].
  - cbn. rewrite IH by assumption. split; intros; [|tauto].
    destruct H0 as [->|[X Y]]; [split; [left; reflexivity|lia]|tauto].
Qed.
Lemma remove_first_NoDup p o : NoDup o -> NoDup (remove_first p o).
Proof.
  induction o as [|r o IH]; intros H; [exact H|]. inversion H as [|? ? Hr Ho]; subst. cbn.
  destruct (r =? p)%nat; [exact Ho|]. constructor; [|apply IH; exact Ho].
  intros X. apply remove_first_in in X; [|exact Ho]. tauto.
Qed.
Lemma remove_first_length p o : In p o -> length (remove_first p o) = pred (length o).
Proof.
  induction o as [|r o IH]; intros H; [contradiction|]. cbn. destruct (r =? p)%nat eqn:E; [reflexivity|].
  destruct H as [->|H]; [rewrite Nat.eqb_refl in E; discriminate|]. cbn. rewrite IH by exact H.
  destruct o; [contradiction|reflexivity].
Qed.
Lemma NoDup_snoc {A} (l : list A) x : NoDup l -> ~ In x l -> NoDup (l ++ [x]).
Proof.
  intros H Hx. rewrite <- (rev_involutive (l ++ [x])). apply NoDup_rev. rewrite rev_app_distr. cbn.
  constructor; [rewrite <- in_rev; exact Hx|apply NoDup_rev; exact H].
Qed.
Lemma pigeon (l : list nat) n : NoDup l -> (forall x, In x l -> (x < n)%nat) -> (length l <= n)%nat.
Proof.
  intros H B. rewrite <- (seq_length n 0). apply NoDup_incl_length; [exact H|].
  intros x Hx. apply in_seq. specialize (B x Hx). lia.
Qed.

Section Proofs.
Context {K V : Type} (keq : K -> K -> bool) (hsh : K -> Z).
Hypothesis good : good_keys keq hsh.
Let keq_refl : forall a, keq a a = true := proj1 good.
Let keq_sym : forall a b, keq a b = keq b a := proj1 (proj2 good).
Let keq_trans : forall a b c, keq a b = true -> keq b c = true -> keq a c = true := proj1 (proj2 (proj2 good)).
Let hash_eq : forall a b, keq a b = true -> hsh a = hsh b := proj2 (proj2 (proj2 good)).
Notation gm := (gmap K V).
Notation at_ := (@slot_at K V).
Notation cap := (@capacity K V).

Definition is_occ (s : slot K V) : Prop := exists k v, s = Occ k v.
Record Inv (m : gm) : Prop := {
  inv_cap : (8 <= cap m)%nat;
  inv_nodup : NoDup (order m);
  inv_order : forall p, In p (order m) <-> (p < cap m)%nat /\ is_occ (at_ m p);
  inv_count : count m = Z.of_nat (length (order m));
  inv_uniq : forall p q k1 v1 k2 v2, at_ m p = Occ k1 v1 -> at_ m q = Occ k2 v2 -> keq k1 k2 = true -> p = q;
  inv_probe : forall p k v, at_ m p = Occ k v ->
     exists d, (d < cap m)%nat /\ p = probe_at hsh m k d /\
       forall d', (d' < d)%nat -> at_ m (probe_at hsh m k d') <> Empty
}.

Lemma slot_out (m : gm) p : (cap m <= p)%nat -> at_ m p = Empty.
Proof. intros H. unfold slot_at. apply nth_overflow. exact H. Qed.
Lemma occ_in m p k v : at_ m p = Occ k v -> (p < cap m)%nat.
Proof. intros H. destruct (Nat.lt_ge_cases p (cap m)) as [L|L]; [exact L|]. rewrite slot_out in H by exact L. discriminate. Qed.
Lemma probe_lt (m : gm) k i : (0 < cap m)%nat -> (probe_at hsh m k i < cap m)%nat.
Proof. intros H. unfold probe_at. apply Nat.mod_upper_bound. lia. Qed.
Lemma probe_cong (m : gm) a b i : keq a b = true -> probe_at hsh m a i = probe_at hsh m b i.
Proof. intros H. unfold probe_at, home. rewrite (hash_eq a b H). reflexivity. Qed.
Lemma probe_cap (m m' : gm) k i : cap m = cap m' -> probe_at hsh m k i = probe_at hsh m' k i.
Proof. intros H. unfold probe_at, home. rewrite H. reflexivity. Qed.
(** the probe sequence visits every slot *)
Lemma home_lt (m : gm) k : (0 < cap m)%nat -> (home hsh m k < cap m)%nat.
Proof. intros H. unfold home. pose proof (Z.mod_pos_bound (hsh k) (Z.of_nat (cap m)) ltac:(lia)). lia. Qed.
Lemma probe_onto (m : gm) k p : (p < cap m)%nat -> exists d, (d < cap m)%nat /\ probe_at hsh m k d = p.
Proof.
  intros H. pose proof (home_lt m k ltac:(lia)) as Hh. unfold probe_at. set (h := home hsh m k) in *.
  destruct (Nat.le_gt_cases h p) as [L|L].
  - exists (p - h)%nat. split; [lia|]. replace (h + (p - h))%nat with p by lia. apply Nat.mod_small. exact H.
  - exists (cap m + p - h)%nat. split; [lia|]. replace (h + (cap m + p - h))%nat with (p + 1 * cap m)%nat by lia.
    rewrite Nat.mod_add by lia. apply Nat.mod_small. exact H.
Qed.
Lemma probe_inj (m : gm) k i j : (i < cap m)%nat -> (j < cap m)%nat -> probe_at hsh m k i = probe_at hsh m k j -> i = j.
Proof.
  intros Hi Hj E. unfold probe_at in E. pose proof (home_lt m k ltac:(lia)) as Hh. set (h := home hsh m k) in *.
  set (c := cap m) in *.
  assert (A : forall x, (x < c)%nat -> ((h + x) mod c = if h + x <? c then h + x else h + x - c)%nat).
  { intros x Hx. destruct (h + x <? c)%nat eqn:L; [apply Nat.mod_small; lia|].
    replace (h + x)%nat with ((h + x - c) + 1 * c)%nat at 1 by lia. rewrite Nat.mod_add by lia. apply Nat.mod_small. lia. }
  rewrite !A in E by assumption. destruct (h + i <? c)%nat eqn:E1, (h + j <? c)%nat eqn:E2; lia.
Qed.

(** ---- lookup ---- *)
Lemma find_hit m k p k' v : Inv m -> at_ m p = Occ k' v -> keq k' k = true ->
  find_slot keq hsh m k = Some p.
Proof.
  intros I Hp Hk. destruct (inv_probe m I p k' v Hp) as (d & Hd & Pd & Hne).
  unfold find_slot.
  assert (G : forall n i, (i <= d)%nat -> (d < i + n)%nat -> find_loop keq hsh m k n i = Some p).
  { induction n as [|n IH]; intros i Hi Hn; [lia|]. cbn [find_loop].
    rewrite <- (probe_cong m k' k i Hk).
    destruct (Nat.eq_dec i d) as [->|Hid].
    - rewrite <- Pd, Hp, Hk. reflexivity.
    - destruct (at_ m (probe_at hsh m k' i)) as [|k2 v2|] eqn:E.
      + exfalso. apply (Hne i); [lia|exact E].
      + destruct (keq k2 k) eqn:E2.
        * exfalso. assert (probe_at hsh m k' i = p).
          { eapply (inv_uniq m I); [exact E|exact Hp|]. apply keq_trans with k; [exact E2|]. rewrite keq_sym. exact Hk. }
          subst p. apply Hid. apply (probe_inj m k'); [lia|lia|]. congruence.
        * apply IH; lia.
      + apply IH; lia. }
  apply G; lia.
Qed.
Lemma find_loop_sound m k n i p : find_loop keq hsh m k n i = Some p -> exists k' v, at_ m p = Occ k' v /\ keq k' k = true.
Proof.
  revert i. induction n as [|n IH]; intros i H; [discriminate|]. cbn [find_loop] in H.
  destruct (at_ m (probe_at hsh m k i)) as [|k2 v2|] eqn:E; [discriminate| |apply (IH _ H)].
  destruct (keq k2 k) eqn:E2; [|apply (IH _ H)]. injection H as <-. exists k2, v2. split; assumption.
Qed.
Lemma find_sound m k p : find_slot keq hsh m k = Some p -> exists k' v, at_ m p = Occ k' v /\ keq k' k = true.
Proof. apply find_loop_sound. Qed.

(** ---- abstraction ---- *)
Lemma entries_of_ext m m' o : (forall p, In p o -> at_ m p = at_ m' p) -> entries_of m o = entries_of m' o.
Proof.
  induction o as [|p o IH]; intros H; [reflexivity|]. cbn. rewrite (H p (or_introl eq_refl)).
  rewrite IH; [reflexivity|]. intros q Hq. apply H. right. exact Hq.
Qed.
Lemma entries_of_app (m : gm) o1 o2 : entries_of m (o1 ++ o2) = entries_of m o1 ++ entries_of m o2.
Proof. induction o1 as [|p o IH]; [reflexivity|]. cbn. destruct (slot_at m p); rewrite IH; reflexivity. Qed.
Lemma entries_length m : Inv m -> length (entries m) = length (order m).
Proof.
  intros I. unfold entries. assert (H : forall p, In p (order m) -> is_occ (at_ m p)) by (intros p Hp; apply (inv_order m I) in Hp; tauto).
  induction (order m) as [|p o IH]; [reflexivity|]. cbn.
  destruct (H p (or_introl eq_refl)) as (k & v & ->). cbn. rewrite IH; [reflexivity|]. intros q Hq. apply H. right. exact Hq.
Qed.
Lemma d_get_entries m k : Inv m -> d_get keq (entries m) k =
  match find_slot keq hsh m k with Some p => match at_ m p with Occ _ v => Some v | _ => None end | None => None end.
Proof.
  intros I. unfold entries.
  assert (Hin : forall p, In p (order m) -> is_occ (at_ m p)) by (intros p Hp; apply (inv_order m I) in Hp; tauto).
  assert (G : forall o, (forall p, In p o -> is_occ (at_ m p)) ->
    (forall p k' v, In p o -> at_ m p = Occ k' v -> keq k' k = true -> d_get keq (entries_of m o) k = Some v) /\
    ((forall p k' v, In p o -> at_ m p = Occ k' v -> keq k' k = false) -> d_get keq (entries_of m o) k = None)).
  { induction o as [|q o IH]; intros Ho; [split; [intros ? ? ? []|reflexivity]|].
    destruct IH as [I1 I2]; [intros; apply Ho; right; assumption|].
    cbn. destruct (Ho q (or_introl eq_refl)) as (kq & vq & Eq). rewrite Eq. cbn. split.
    - intros p k' v [->|Hp] Ep Hk.
      + rewrite Eq in Ep. injection Ep as -> ->. rewrite Hk. reflexivity.
      + destruct (keq kq k) eqn:E; [|eapply I1; eassumption].
        assert (q = p). { eapply (inv_uniq m I); [exact Eq|exact Ep|]. apply keq_trans with k; [exact E|]. rewrite keq_sym. exact Hk. }
        subst q. rewrite Eq in Ep. injection Ep as -> ->. reflexivity.
    - intros Hn. rewrite (Hn q kq vq (or_introl eq_refl) Eq). apply I2. intros p k' v Hp. apply Hn. right. exact Hp. }
  destruct (G (order m) Hin) as [G1 G2].
  destruct (find_slot keq hsh m k) as [p|] eqn:F.
  - destruct (find_sound m k p F) as (k' & v & Ep & Hk). rewrite Ep. apply (G1 p k' v); try assumption.
    apply (inv_order m I). split; [eapply occ_in; exact Ep|exists k', v; exact Ep].
  - apply G2. intros p k' v Hp Ep. destruct (keq k' k) eqn:E; [|reflexivity].
    rewrite (find_hit m k p k' v I Ep E) in F. discriminate.
Qed.
Lemma map_get_spec m k : Inv m -> map_get keq hsh m k = d_get keq (entries m) k.
Proof. intros I. rewrite d_get_entries by exact I. reflexivity. Qed.
Lemma map_has_spec m k : Inv m -> map_has keq hsh m k = present keq (entries m) k.
Proof.
  intros I. unfold map_has, present. rewrite d_get_entries by exact I.
  destruct (find_slot keq hsh m k) as [p|] eqn:F; [|reflexivity].
  destruct (find_sound m k p F) as (k' & v & -> & _). reflexivity.
Qed.
Lemma present_iff m k : Inv m -> (present keq (entries m) k = true <-> exists p k' v, at_ m p = Occ k' v /\ keq k' k = true).
Proof.
  intros I. rewrite <- map_has_spec by exact I. unfold map_has. split.
  - destruct (find_slot keq hsh m k) as [p|] eqn:F; [|discriminate]. intros _. exists p. apply find_sound. exact F.
  - intros (p & k' & v & Ep & Hk). rewrite (find_hit m k p k' v I Ep Hk). reflexivity.
Qed.

(** ---- insertion ---- *)
Lemma d_set_absent d k v : present keq d k = false -> d_set (V := V) keq d k v = d ++ [(k, v)].
Proof.
  unfold present. induction d as [|[k' w] d IH]; intros H; [reflexivity|]. cbn in *.
  destruct (keq k' k); [discriminate|]. rewrite IH by exact H. reflexivity.
Qed.
Lemma at_set m p s o c i q : (p < cap m)%nat ->
  at_ (mkmap (set_nth p s (slots m)) o c i) q = if (q =? p)%nat then s else at_ m q.
Proof. intros H. unfold slot_at. cbn. apply nth_set_nth. exact H. Qed.
Lemma cap_set (m : gm) p s o c i : cap (mkmap (set_nth p s (slots m)) o c i) = cap m.
Proof. unfold capacity. cbn. apply set_nth_length. Qed.

Lemma fill_ok m k v d : Inv m -> present keq (entries m) k = false ->
  (d < cap m)%nat -> ~ is_occ (at_ m (probe_at hsh m k d)) ->
  (forall d', (d' < d)%nat -> at_ m (probe_at hsh m k d') <> Empty) ->
  exists m', fill m (probe_at hsh m k d) k v = Ok m' /\ Inv m' /\ entries m' = entries m ++ [(k, v)] /\
    cap m' = cap m /\ iterating m' = iterating m.
Proof.
  intros I Hp Hd Hno Hne. set (p := probe_at hsh m k d) in *.
  assert (Hpc : (p < cap m)%nat) by (apply probe_lt; pose proof (inv_cap m I); lia).
  assert (Hpo : ~ In p (order m)) by (intros X; apply (inv_order m I) in X; tauto).
  assert (Hlen : (length (p :: order m) <= cap m)%nat).
  { apply pigeon.
    - constructor; [exact Hpo|apply (inv_nodup m I)].
    - intros x [<-|Hx]; [exact Hpc|]. apply (inv_order m I) in Hx. tauto. }
  cbn in Hlen.
  unfold fill. replace (length (order m) <? cap m)%nat with true by lia. eexists. split; [reflexivity|].
  set (m' := mkmap (set_nth p (Occ k v) (slots m)) (order m ++ [p]) (count m + 1) (iterating m)).
  assert (Hc : cap m' = cap m) by apply cap_set.
  assert (Hat : forall q, at_ m' q = if (q =? p)%nat then Occ k v else at_ m q) by (intros q; apply at_set; exact Hpc).
  assert (Hold : forall q, In q (order m) -> at_ m' q = at_ m q).
  { intros q Hq. rewrite Hat. destruct (q =? p)%nat eqn:E; [|reflexivity]. apply Nat.eqb_eq in E. subst q. contradiction. }
  assert (Hnone : forall q k' w, at_ m q = Occ k' w -> keq k' k = false).
  { intros q k' w Eq. destruct (keq k' k) eqn:E; [|reflexivity]. rewrite <- not_true_iff_false in Hp. exfalso. apply Hp.
    apply (present_iff m k I). exists q, k', w. split; assumption. }
  split; [|split; [|split; [exact Hc|reflexivity]]].
  - constructor.
    + rewrite Hc. apply (inv_cap m I).
    + apply NoDup_snoc; [apply (inv_nodup m I)|exact Hpo].
    + intros q. cbn [order m']. rewrite in_app_iff, Hc, (inv_order m I), Hat. cbn. destruct (q =? p)%nat eqn:E.
      * apply Nat.eqb_eq in E. subst q. split; [intros _; split; [exact Hpc|exists k, v; reflexivity]|tauto].
      * split; [intros [X|[X|[]]]; [exact X|lia]|tauto].
    + cbn [count order m']. rewrite app_length, (inv_count m I). cbn. lia.
    + intros q r k1 v1 k2 v2. rewrite !Hat. destruct (q =? p)%nat eqn:E1, (r =? p)%nat eqn:E2.
      * intros _ _ _. lia.
      * intros [= <- <-] Er Hk. exfalso. rewrite keq_sym in Hk. rewrite (Hnone r k2 v2 Er) in Hk. discriminate.
      * intros Eq [= <- <-] Hk. exfalso. rewrite (Hnone q k1 v1 Eq) in Hk. discriminate.
      * intros Eq Er Hk. eapply (inv_uniq m I); eassumption.
    + intros q k' w Eq. rewrite Hat in Eq. rewrite Hc. destruct (q =? p)%nat eqn:E.
      * injection Eq as <- <-. apply Nat.eqb_eq in E. subst q. exists d. split; [exact Hd|]. split.
        -- rewrite (probe_cap m' m) by exact Hc. reflexivity.
        -- intros d' Hd'. rewrite (probe_cap m' m) by exact Hc. rewrite Hat. match goal with |- context [if ?c then _ else _] => destruct c end; [discriminate|]. apply Hne. exact Hd'.
      * destruct (inv_probe m I q k' w Eq) as (e & He & Pe & Hle). exists e. split; [exact He|]. split.
        -- rewrite (probe_cap m' m) by exact Hc. exact Pe.
        -- intros d' Hd'. rewrite (probe_cap m' m) by exact Hc. rewrite Hat. match goal with |- context [if ?c then _ else _] => destruct c end; [discriminate|]. apply Hle. exact Hd'.
  - unfold entries. cbn [order m']. rewrite entries_of_app. f_equal.
    + apply entries_of_ext. exact Hold.
    + cbn [entries_of]. rewrite Hat, Nat.eqb_refl. reflexivity.
Qed.

Lemma entries_update m p k' w v : Inv m -> at_ m p = Occ k' w -> forall k, keq k' k = true ->
  forall o, NoDup o -> In p o -> (forall q, In q o -> is_occ (at_ m q)) ->
  entries_of (mkmap (set_nth p (Occ k' v) (slots m)) (order m) (count m) (iterating m)) o =
  d_set keq (entries_of m o) k v.
Proof.
  intros I Ep k Hk. pose proof (occ_in m p k' w Ep) as Hpc.
  induction o as [|q o IH]; intros ND Hin Ho; [contradiction|]. inversion ND as [|? ? Hq Hnd]; subst.
  cbn [entries_of]. rewrite at_set by exact Hpc. destruct (q =? p)%nat eqn:E.
  - apply Nat.eqb_eq in E. subst q. rewrite Ep. cbn [d_set]. rewrite Hk. f_equal.
    apply entries_of_ext. intros r Hr. rewrite at_set by exact Hpc. destruct (r =? p)%nat eqn:E2; [|reflexivity].
    apply Nat.eqb_eq in E2. subst r. contradiction.
  - destruct Hin as [->|Hin]; [rewrite Nat.eqb_refl in E; discriminate|].
    destruct (Ho q (or_introl eq_refl)) as (kq & vq & Eq). rewrite Eq. cbn [d_set].
    destruct (keq kq k) eqn:E2.
    + exfalso. assert (q = p); [|lia]. eapply (inv_uniq m I); [exact Eq|exact Ep|]. apply keq_trans with k; [exact E2|]. rewrite keq_sym. exact Hk.
    + f_equal. apply IH; [exact Hnd|exact Hin|]. intros r Hr. apply Ho. right. exact Hr.
Qed.
Lemma update_ok m p k' w v k : Inv m -> at_ m p = Occ k' w -> keq k' k = true ->
  let m' := mkmap (set_nth p (Occ k' v) (slots m)) (order m) (count m) (iterating m) in
  Inv m' /\ entries m' = d_set keq (entries m) k v /\ cap m' = cap m.
Proof.
  intros I Ep Hk m'. pose proof (occ_in m p k' w Ep) as Hpc.
  assert (Hc : cap m' = cap m) by apply cap_set.
  assert (Hat : forall q, at_ m' q = if (q =? p)%nat then Occ k' v else at_ m q) by (intros q; apply at_set; exact Hpc).
  assert (Hocc : forall q k1 v1, at_ m' q = Occ k1 v1 -> exists v2, at_ m q = Occ k1 v2).
  { intros q k1 v1. rewrite Hat. destruct (q =? p)%nat eqn:E; [|intros H; exists v1; exact H].
    intros [= <- <-]. apply Nat.eqb_eq in E. subst q. exists w. exact Ep. }
  split; [|split; [|exact Hc]].
  - constructor.
    + rewrite Hc. apply (inv_cap m I).
    + apply (inv_nodup m I).
    + intros q. cbn [order m']. rewrite Hc, (inv_order m I), Hat. destruct (q =? p)%nat eqn:E; [|reflexivity].
      apply Nat.eqb_eq in E. subst q. split; intros _; split; try exact Hpc; [exists k', v; reflexivity|exists k', w; exact Ep].
    + apply (inv_count m I).
    + intros q r k1 v1 k2 v2 Eq Er. destruct (Hocc _ _ _ Eq) as [v3 E3], (Hocc _ _ _ Er) as [v4 E4]. eapply (inv_uniq m I); eassumption.
    + intros q k1 v1 Eq. destruct (Hocc _ _ _ Eq) as [v3 E3]. destruct (inv_probe m I q k1 v3 E3) as (e & He & Pe & Hle).
      exists e. rewrite Hc. split; [exact He|]. split; [rewrite (probe_cap m' m) by exact Hc; exact Pe|].
      intros d' Hd'. rewrite (probe_cap m' m) by exact Hc. rewrite Hat. match goal with |- context [if ?c then _ else _] => destruct c end; [discriminate|]. apply Hle. exact Hd'.
  - unfold entries. cbn [order m']. apply (entries_update m p k' w v I Ep k Hk).
    + apply (inv_nodup m I).
    + apply (inv_order m I). split; [exact Hpc|exists k', w; exact Ep].
    + intros q Hq. apply (inv_order m I) in Hq. tauto.
Qed.

(** [set_core]: the probing loop *)
Lemma set_core_ok m k v : Inv m -> (length (order m) < cap m)%nat ->
  exists m', set_core keq hsh m k v = Ok m' /\ Inv m' /\ entries m' = d_set keq (entries m) k v /\
    cap m' = cap m /\ iterating m' = iterating m.
Proof.
  intros I Hroom. unfold set_core.
  assert (G : forall n i t, (i + n = cap m)%nat ->
    (forall j, (j < i)%nat -> at_ m (probe_at hsh m k j) <> Empty) ->
    (forall j k' w, (j < i)%nat -> at_ m (probe_at hsh m k j) = Occ k' w -> keq k' k = false) ->
    match t with
    | None => forall j, (j < i)%nat -> is_occ (at_ m (probe_at hsh m k j))
    | Some p => exists j, (j < i)%nat /\ p = probe_at hsh m k j /\ ~ is_occ (at_ m p)
    end ->
    exists m', set_loop keq hsh m k v n i t = Ok m' /\ Inv m' /\ entries m' = d_set keq (entries m) k v /\
      cap m' = cap m /\ iterating m' = iterating m).
  2:{ apply G; [lia|intros; lia..]. }
  assert (ABS : forall i, ((i = cap m)%nat \/ (i < cap m)%nat /\ at_ m (probe_at hsh m k i) = Empty) ->
    (forall j k' w, (j < i)%nat -> at_ m (probe_at hsh m k j) = Occ k' w -> keq k' k = false) ->
    present keq (entries m) k = false).
  { intros i Hi Hno. apply not_true_iff_false. intros X. apply (present_iff m k I) in X.
    destruct X as (p & k' & w & Ep & Hk). destruct (inv_probe m I p k' w Ep) as (d & Hd & Pd & Hne).
    rewrite (probe_cong m k' k d Hk) in Pd.
    destruct (Nat.lt_ge_cases d i) as [L|L].
    - specialize (Hno d k' w L). rewrite <- Pd in Hno. rewrite (Hno Ep) in Hk. discriminate.
    - destruct Hi as [->|[Hi He]]; [lia|].
      destruct (Nat.eq_dec d i) as [->|]; [rewrite <- Pd, Ep in He; discriminate|].
      apply (Hne i); [lia|]. rewrite (probe_cong m k' k i Hk). exact He. }
  induction n as [|n IH]; intros i t Hin Hne Hno Ht; cbn [set_loop].
  - assert (i = cap m) by lia. subst i.
    assert (Habs := ABS (cap m) (or_introl eq_refl) Hno).
    destruct t as [p|].
    + destruct Ht as (j & Hj & -> & Hnocc). rewrite d_set_absent by exact Habs.
      apply fill_ok; try assumption. intros d' Hd'. apply Hne. lia.
    + exfalso.
      assert (C : forall p, (p < cap m)%nat -> In p (order m)).
      { intros p Hp. apply (inv_order m I). split; [exact Hp|].
        destruct (probe_onto m k p Hp) as (d & Hd & <-). apply Ht. exact Hd. }
      assert (cap m <= length (order m))%nat; [|lia].
      rewrite <- (seq_length (cap m) 0) at 1. apply NoDup_incl_length; [apply seq_NoDup|].
      intros x Hx. apply in_seq in Hx. apply C. lia.
  - destruct (at_ m (probe_at hsh m k i)) as [|k2 v2|] eqn:E.
    + assert (Hlt : (i < cap m)%nat) by lia. assert (Habs := ABS i (or_intror (conj Hlt E)) Hno). rewrite d_set_absent by exact Habs.
      destruct t as [p|].
      * destruct Ht as (j & Hj & -> & Hnocc). apply fill_ok; try assumption; try lia. intros d' Hd'. apply Hne. lia.
      * apply fill_ok; try assumption; try lia. rewrite E. intros (? & ? & X). discriminate.
    + destruct (keq k2 k) eqn:Ek.
      * eexists. split; [reflexivity|]. destruct (update_ok m _ k2 v2 v k I E Ek) as (A & B & C).
        split; [exact A|split; [exact B|split; [exact C|reflexivity]]].
      * apply IH; [lia| | |].
        -- intros j Hj. destruct (Nat.eq_dec j i) as [->|]; [rewrite E; discriminate|apply Hne; lia].
        -- intros j k' w Hj. destruct (Nat.eq_dec j i) as [->|]; [rewrite E; intros [= <- <-]; exact Ek|apply Hno; lia].
        -- destruct t as [p|].
           ++ destruct Ht as (j & Hj & X). exists j. split; [lia|exact X].
           ++ intros j Hj. destruct (Nat.eq_dec j i) as [->|]; [rewrite E; exists k2, v2; reflexivity|apply Ht; lia].
    + apply IH; [lia| | |].
      * intros j Hj. destruct (Nat.eq_dec j i) as [->|]; [rewrite E; discriminate|apply Hne; lia].
      * intros j k' w Hj. destruct (Nat.eq_dec j i) as [->|]; [rewrite E; discriminate|apply Hno; lia].
      * destruct t as [p|].
        -- destruct Ht as (j & Hj & X). exists j. split; [lia|exact X].
        -- exists i. split; [lia|]. split; [reflexivity|]. rewrite E. intros (? & ? & X). discriminate.
Qed.

(** ---- empty maps, clear ---- *)
Lemma empty_inv n it : (8 <= n)%nat -> Inv (mkmap (repeat Empty n) [] 0 it).
Proof.
  intros H. set (m := mkmap _ _ _ _ : gm).
  assert (Hat : forall p, at_ m p = Empty) by (intros p; unfold slot_at; cbn; apply nth_repeat_d).
  constructor.
  - unfold capacity. cbn. rewrite repeat_length. exact H.
  - constructor.
  - intros p. rewrite Hat. split; [intros []|intros [_ (k & v & X)]; discriminate].
  - reflexivity.
  - intros p q k1 v1 k2 v2. rewrite Hat. discriminate.
  - intros p k v. rewrite Hat. discriminate.
Qed.
Lemma entries_NoDup m : Inv m -> forall e1 e2 l1 l2 l3, entries m = l1 ++ e1 :: l2 ++ e2 :: l3 -> keq (fst e1) (fst e2) = false.
Proof.
  intros I. unfold entries.
  assert (H : forall p, In p (order m) -> is_occ (at_ m p)) by (intros p Hp; apply (inv_order m I) in Hp; tauto).
  assert (ND := inv_nodup m I). revert H ND.
  assert (L : forall o e, In e (entries_of m o) -> exists p, In p o /\ at_ m p = Occ (fst e) (snd e)).
  { induction o as [|p o IH]; intros e He; [contradiction|]. cbn in He. destruct (slot_at m p) as [|k v|] eqn:E.
    - destruct (IH e He) as (q & Hq & X). exists q. split; [right; exact Hq|exact X].
    - destruct He as [<-|He]; [exists p; split; [left; reflexivity|exact E]|].
      destruct (IH e He) as (q & Hq & X). exists q. split; [right; exact Hq|exact X].
    - destruct (IH e He) as (q & Hq & X). exists q. split; [right; exact Hq|exact X]. }
  induction (order m) as [|p o IH]; intros H ND e1 e2 l1 l2 l3 E; [destruct l1; discriminate|].
  inversion ND as [|? ? Hp Hnd]; subst. cbn in E. destruct (H p (or_introl eq_refl)) as (k & v & Ep).
  change (slot_at m p) with (at_ m p) in E. rewrite Ep in E.
  destruct l1 as [|e0 l1].
  - injection E as <- E. cbn. destruct (keq k (fst e2)) eqn:Ek; [|reflexivity]. exfalso.
    destruct (L o e2) as (q & Hq & Eq); [rewrite E; apply in_or_app; right; left; reflexivity|].
    assert (p = q) by (eapply (inv_uniq m I); eassumption). subst q. contradiction.
  - injection E as _ E. apply (IH) with (l1 := l1) (l2 := l2) (l3 := l3); try assumption. intros q Hq. apply H. right. exact Hq.
Qed.

(** ---- rehash ---- *)
Lemma d_set_list_append (d l : list (K * V)) :
  (forall e1 e2 l1 l2 l3, d ++ l = l1 ++ e1 :: l2 ++ e2 :: l3 -> keq (fst e1) (fst e2) = false) ->
  fold_left (fun d e => d_set keq d (fst e) (snd e)) l d = d ++ l.
Proof.
  revert d. induction l as [|[k v] l IH]; intros d H; [cbn; rewrite app_nil_r; reflexivity|].
  cbn [fold_left]. rewrite d_set_absent.
  - rewrite IH; [rewrite <- app_assoc; reflexivity|]. intros e1 e2 l1 l2 l3 E. rewrite <- app_assoc in E. apply (H e1 e2 l1 l2 l3 E).
  - cbn [fst]. unfold present.
    assert (G : forall d' : list (K * V), (forall e, In e d' -> keq (fst e) k = false) -> d_get keq d' k = None).
    { induction d' as [|[k' w] d' IHd]; intros Hd; [reflexivity|]. cbn. rewrite (Hd (k', w) (or_introl eq_refl) : keq k' k = false).
      apply IHd. intros e He. apply Hd. right. exact He. }
    rewrite G; [reflexivity|]. intros e He. apply in_split in He. destruct He as (l1 & l2 & ->).
    apply (H e (k, v) l1 l2 l). rewrite <- app_assoc. reflexivity.
Qed.
Lemma d_set_length d k v : (length (d_set (V := V) keq d k v) <= S (length d))%nat.
Proof. induction d as [|[k' w] d IH]; [cbn; lia|]. cbn. destruct (keq k' k); cbn; lia. Qed.
Lemma reinsert_all l : forall m, Inv m -> (length (order m) + length l <= cap m / 2)%nat ->
  Z.of_nat (cap m) * 3 <= INT32_MAX ->
  exists m', fold_left (reinsert keq hsh) l (Ok m) = Ok m' /\ Inv m' /\
    entries m' = fold_left (fun d e => d_set keq d (fst e) (snd e)) l (entries m) /\
    cap m' = cap m /\ iterating m' = iterating m.
Proof.
  induction l as [|e l IH]; intros m I Hroom Hc.
  - exists m. split; [reflexivity|split; [exact I|split; [reflexivity|split; reflexivity]]].
  - cbn [fold_left]. cbn [length] in Hroom. pose proof (inv_cap m I) as Hcap.
    pose proof (Nat.div_mod (cap m) 2 ltac:(lia)) as Hdm. pose proof (Nat.mod_upper_bound (cap m) 2 ltac:(lia)) as Hmb.
    destruct (set_core_ok m (fst e) (snd e) I) as (m1 & E1 & I1 & En1 & C1 & It1); [lia|].
    unfold reinsert at 2. cbn [rbind].
    assert (Ho : overloaded m = false). { unfold overloaded. rewrite (inv_count m I). lia. }
    assert (Hl : load_overflows m = false). { unfold load_overflows. rewrite (inv_count m I). unfold INT32_MAX in *. lia. }
    rewrite Hl, Ho, E1.
    assert (Hlen : (length (order m1) <= S (length (order m)))%nat).
    { rewrite <- !entries_length by assumption. rewrite En1. apply d_set_length. }
    destruct (IH m1 I1) as (m2 & E2 & I2 & En2 & C2 & It2); [rewrite C1; lia|rewrite C1; exact Hc|].
    exists m2. rewrite E2. split; [reflexivity|]. split; [exact I2|]. split; [rewrite En2, En1; reflexivity|].
    split; congruence.
Qed.
Lemma order_bound m : Inv m -> (length (order m) <= cap m)%nat.
Proof.
  intros I. apply pigeon; [apply (inv_nodup m I)|]. intros x Hx. apply (inv_order m I) in Hx. tauto.
Qed.
Lemma rehash_ok m : Inv m -> Z.of_nat (cap m) * 6 <= INT32_MAX ->
  exists m', rehash keq hsh m = Ok m' /\ Inv m' /\ entries m' = entries m /\ cap m' = (2 * cap m)%nat /\ iterating m' = iterating m.
Proof.
  intros I Hc. unfold rehash. replace (INT32_MAX <? Z.of_nat (cap m) * 2) with false by (unfold INT32_MAX in *; lia).
  pose proof (inv_cap m I) as Hcap. pose proof (order_bound m I) as Hob.
  set (m0 := mkmap (repeat Empty (2 * cap m)) [] 0 (iterating m) : gm).
  assert (C0 : cap m0 = (2 * cap m)%nat) by (unfold capacity at 1; cbn [slots m0]; apply repeat_length).
  destruct (reinsert_all (entries m) m0) as (m' & E & I' & En & C' & It').
  - apply empty_inv. lia.
  - rewrite C0, entries_length by exact I. cbn [order m0 length]. replace (2 * cap m)%nat with (cap m * 2)%nat by lia. rewrite Nat.div_mul by lia. lia.
  - rewrite C0. unfold INT32_MAX in *. lia.
  - exists m'. split; [exact E|]. split; [exact I'|]. split; [|split; [congruence|exact It']].
    rewrite En. change (entries m0) with (@nil (K * V)).
    rewrite d_set_list_append; [reflexivity|]. intros e1 e2 l1 l2 l3. apply entries_NoDup. exact I.
Qed.

(** ---- set, remove, clear ---- *)
Lemma map_set_ok m k v : Inv m -> iterating m <= 0 -> Z.of_nat (cap m) * 6 <= INT32_MAX ->
  exists m', map_set keq hsh m k v = Ok m' /\ Inv m' /\ entries m' = d_set keq (entries m) k v /\
    iterating m' = iterating m /\
    (cap m' = cap m /\ count m * 4 < Z.of_nat (cap m) * 3 \/ cap m' = (2 * cap m)%nat /\ Z.of_nat (cap m) * 3 <= count m * 4).
Proof.
  intros I Hit Hc. pose proof (inv_cap m I) as Hcap. pose proof (order_bound m I) as Hob.
  unfold map_set. replace (0 <? iterating m) with false by lia.
  replace (load_overflows m) with false by (unfold load_overflows; rewrite (inv_count m I); unfold INT32_MAX in *; lia).
  unfold overloaded. destruct (Z.of_nat (cap m) * 3 <=? count m * 4) eqn:E.
  - destruct (rehash_ok m I Hc) as (m1 & E1 & I1 & En1 & C1 & It1). rewrite E1. cbn [rbind].
    destruct (set_core_ok m1 k v I1) as (m2 & E2 & I2 & En2 & C2 & It2).
    { rewrite <- entries_length by exact I1. rewrite En1, entries_length by exact I. lia. }
    exists m2. split; [exact E2|]. split; [exact I2|]. split; [rewrite En2, En1; reflexivity|]. split; [congruence|]. right. split; [congruence|lia].
  - destruct (set_core_ok m k v I) as (m2 & E2 & I2 & En2 & C2 & It2).
    { rewrite (inv_count m I) in E. lia. }
    exists m2. split; [exact E2|]. split; [exact I2|]. split; [exact En2|]. split; [exact It2|]. left. split; [exact C2|lia].
Qed.
Lemma d_remove_absent d k : present keq d k = false -> d_remove (V := V) keq d k = d.
Proof.
  unfold present. induction d as [|[k' w] d IH]; intros H; [reflexivity|]. cbn in *.
  destruct (keq k' k); [discriminate|]. rewrite IH by exact H. reflexivity.
Qed.
Lemma map_remove_ok m k : Inv m -> iterating m <= 0 ->
  exists m', map_remove keq hsh m k = Ok (m', present keq (entries m) k) /\ Inv m' /\
    entries m' = d_remove keq (entries m) k /\ cap m' = cap m /\ iterating m' = iterating m.
Proof.
  intros I Hit. unfold map_remove. replace (0 <? iterating m) with false by lia.
  pose proof (map_has_spec m k I) as Hhas. unfold map_has in Hhas.
  destruct (find_slot keq hsh m k) as [p|] eqn:F.
  - rewrite <- Hhas. eexists. split; [reflexivity|].
    destruct (find_sound m k p F) as (k' & w & Ep & Hk). pose proof (occ_in m p k' w Ep) as Hpc.
    set (m' := mkmap (set_nth p Tomb (slots m)) (remove_first p (order m)) (count m - 1) (iterating m)).
    assert (Hc : cap m' = cap m) by apply cap_set.
    assert (Hat : forall q, at_ m' q = if (q =? p)%nat then Tomb else at_ m q) by (intros q; apply at_set; exact Hpc).
    assert (Hpo : In p (order m)) by (apply (inv_order m I); split; [exact Hpc|exists k', w; exact Ep]).
    assert (ND := inv_nodup m I).
    split; [|split; [|split; [exact Hc|reflexivity]]].
    + constructor.
      * rewrite Hc. apply (inv_cap m I).
      * apply remove_first_NoDup. exact ND.
      * intros q. cbn [order m']. rewrite remove_first_in by exact ND. rewrite Hc, (inv_order m I), Hat. destruct (q =? p)%nat eqn:E.
        -- split; [intros [_ X]; lia|intros [_ (? & ? & X)]; discriminate].
        -- split; [tauto|]. intros X. split; [exact X|lia].
      * cbn [count order m']. rewrite remove_first_length by exact Hpo. rewrite (inv_count m I).
        destruct (order m); [contradiction|]. cbn [length pred]. lia.
      * intros q r k1 v1 k2 v2. rewrite !Hat. destruct (q =? p)%nat; [discriminate|]. destruct (r =? p)%nat; [discriminate|]. apply (inv_uniq m I).
      * intros q k1 v1. rewrite Hat. destruct (q =? p)%nat; [discriminate|]. intros Eq. destruct (inv_probe m I q k1 v1 Eq) as (e & He & Pe & Hle).
        exists e. rewrite Hc. split; [exact He|]. split; [rewrite (probe_cap m' m) by exact Hc; exact Pe|].
        intros d' Hd'. rewrite (probe_cap m' m) by exact Hc. rewrite Hat. match goal with |- context [if ?c then _ else _] => destruct c end; [discriminate|]. apply Hle. exact Hd'.
    + unfold entries. cbn [order m'].
      assert (Ho : forall q, In q (order m) -> is_occ (at_ m q)) by (intros q Hq; apply (inv_order m I) in Hq; tauto).
      revert Hpo ND Ho. generalize (order m) as o. induction o as [|q o IH]; intros Hpo ND Ho; [contradiction|].
      inversion ND as [|? ? Hq Hnd]; subst. cbn [remove_first entries_of]. destruct (q =? p)%nat eqn:E.
      * apply Nat.eqb_eq in E. subst q. rewrite Ep. cbn [d_remove]. rewrite Hk.
        apply entries_of_ext. intros r Hr. rewrite Hat. destruct (r =? p)%nat eqn:E2; [|reflexivity]. apply Nat.eqb_eq in E2. subst r. contradiction.
      * destruct Hpo as [->|Hpo]; [rewrite Nat.eqb_refl in E; discriminate|]. cbn [entries_of]. change (slot_at m q) with (at_ m q).
        rewrite Hat, E. destruct (Ho q (or_introl eq_refl)) as (kq & vq & Eq). rewrite Eq. cbn [d_remove].
        destruct (keq kq k) eqn:E2.
        -- exfalso. assert (q = p); [|lia]. eapply (inv_uniq m I); [exact Eq|exact Ep|]. apply keq_trans with k; [exact E2|]. rewrite keq_sym. exact Hk.
        -- f_equal. apply IH; [exact Hpo|exact Hnd|]. intros r Hr. apply Ho. right. exact Hr.
  - rewrite <- Hhas. exists m. split; [reflexivity|]. split; [exact I|]. split; [|split; reflexivity].
    rewrite d_remove_absent; [reflexivity|symmetry; exact Hhas].
Qed.
Lemma map_clear_ok m : Inv m -> Inv (map_clear m) /\ entries (map_clear m) = [] /\ cap (map_clear m) = cap m.
Proof.
  intros I. split; [apply empty_inv, (inv_cap m I)|]. split; [reflexivity|]. unfold map_clear, capacity. cbn. apply repeat_length.
Qed.

(** ---- histories ---- *)
(** [n]: bound on the entries and on the number of operations so far *)
Definition Bounded (init : Z) (n : Z) (m : gm) : Prop :=
  Inv m /\ iterating m = 0 /\ Z.of_nat (cap m) * 3 <= Z.max (init * 3) (n * 8) /\ count m <= n /\
  count m * 4 <= Z.of_nat (cap m) * 3 + 3.
Lemma step_ok init n m o : 8 <= init -> init <= 2 ^ 27 -> 0 <= n < 2 ^ 27 -> Bounded init n m ->
  exists m' x, step keq hsh m o = Ok (m', x) /\ Bounded init (n + 1) m' /\
    d_step keq (entries m) o = (entries m', x).
Proof.
  change (2 ^ 27) with 134217728. intros H8 Hi Hn (I & It & Hc & Hcnt & Hload).
  assert (Hov : Z.of_nat (cap m) * 6 <= INT32_MAX) by (unfold INT32_MAX; lia).
  pose proof (inv_cap m I) as H8c. pose proof (order_bound m I) as Hob. pose proof (inv_count m I) as Hceq.
  assert (KC : forall m', Inv m' -> (length (entries m') <= S (length (entries m)))%nat -> count m' <= count m + 1).
  { intros m' I' L. rewrite (inv_count m' I'), <- (entries_length m' I'). rewrite (inv_count m I), <- (entries_length m I). lia. }
  assert (SAME : Bounded init (n + 1) m) by (split; [exact I|split; [exact It|lia]]).
  destruct o as [k v|k| |k|k| |]; cbn [step d_step].
  - destruct (map_set_ok m k v I ltac:(lia) Hov) as (m' & E & I' & En & It' & Hcap). rewrite E. cbn [rmap].
    exists m', Nothing. split; [reflexivity|]. split; [|rewrite En; reflexivity].
    assert (C1 : count m' <= count m + 1) by (apply KC; [exact I'|rewrite En; apply d_set_length]).
    split; [exact I'|]. split; [congruence|]. destruct Hcap as [[-> ?]|[-> ?]]; lia.
  - destruct (map_remove_ok m k I ltac:(lia)) as (m' & E & I' & En & C & It'). rewrite E. cbn [rmap fst snd].
    exists m', (Flag (present keq (entries m) k)). split; [reflexivity|]. split; [|rewrite En; reflexivity].
    assert (C1 : count m' <= count m).
    { rewrite (inv_count m' I'), <- (entries_length m' I'). rewrite (inv_count m I), <- (entries_length m I). rewrite En.
      apply inj_le. clear. induction (entries m) as [|[k' w] d IH]; [cbn; lia|]. cbn. destruct (keq k' k); cbn in *; lia. }
    split; [exact I'|]. split; [congruence|]. rewrite C. lia.
  - destruct (map_clear_ok m I) as (I' & En & C). exists (map_clear m), Nothing. split; [reflexivity|].
    split; [|rewrite En; reflexivity]. split; [exact I'|]. split; [exact It|]. rewrite C. cbn [map_clear count]. lia.
  - exists m, (Value (map_get keq hsh m k)). split; [reflexivity|]. split; [exact SAME|]. rewrite map_get_spec by exact I. reflexivity.
  - exists m, (Flag (map_has keq hsh m k)). split; [reflexivity|]. split; [exact SAME|]. rewrite map_has_spec by exact I. reflexivity.
  - exists m, (Num (count m)). split; [reflexivity|]. split; [exact SAME|].
    rewrite (inv_count m I), <- (entries_length m I). reflexivity.
  - exists m, (Listing (entries m)). split; [reflexivity|]. split; [exact SAME|]. reflexivity.
Qed.
Lemma run_ok init l : 8 <= init -> init <= 2 ^ 27 -> forall n m, 0 <= n -> n + Z.of_nat (length l) <= 2 ^ 27 -> Bounded init n m ->
  exists m' xs, run keq hsh m l = Ok (m', xs) /\ Bounded init (n + Z.of_nat (length l)) m' /\
    d_run keq (entries m) l = (entries m', xs).
Proof.
  intros H8 Hi. induction l as [|o l IH]; intros n m Hn Hl B.
  - exists m, []. split; [reflexivity|]. cbn [length]. replace (n + Z.of_nat 0) with n by lia. split; [exact B|reflexivity].
  - cbn [length] in *. destruct (step_ok init n m o H8 Hi ltac:(lia) B) as (m1 & x & E1 & B1 & D1).
    destruct (IH (n + 1) m1 ltac:(lia) ltac:(lia) B1) as (m2 & xs & E2 & B2 & D2).
    exists m2, (x :: xs). cbn [run d_run]. rewrite E1. cbn [rbind fst snd]. rewrite E2. cbn [rmap fst snd]. split; [reflexivity|].
    split; [replace (n + Z.of_nat (S (length l))) with (n + 1 + Z.of_nat (length l)) by lia; exact B2|].
    rewrite D1, D2. reflexivity.
Qed.
Lemma new_ok init : Inv (map_new (V := V) init : gm) /\ entries (map_new init : gm) = [] /\
  cap (map_new init : gm) = Nat.max 8 init.
Proof.
  unfold map_new, MIN_CAP. destruct (init <? 8)%nat eqn:E.
  - split; [apply empty_inv; lia|]. split; [reflexivity|]. unfold capacity. cbn [slots]. rewrite repeat_length. lia.
  - split; [apply empty_inv; lia|]. split; [reflexivity|]. unfold capacity. cbn [slots]. rewrite repeat_length. lia.
Qed.
Lemma new_bounded init : Bounded (Z.of_nat (Nat.max 8 init)) 0 (map_new init : gm).
Proof.
  destruct (new_ok init) as (I & E & C). split; [exact I|]. split; [reflexivity|]. rewrite C. cbn [count map_new]. lia.
Qed.
Lemma bounded_free init n m : Bounded init n m -> exists p, (p < cap m)%nat /\ ~ is_occ (at_ m p).
Proof.
  intros (I & _ & _ & _ & Hl). pose proof (inv_cap m I) as H8. rewrite (inv_count m I) in Hl.
  assert (D : (exists p, In p (seq 0 (cap m)) /\ ~ In p (order m)) \/ incl (seq 0 (cap m)) (order m)).
  { induction (seq 0 (cap m)) as [|p l IH]; [right; intros x []|].
    destruct (in_dec Nat.eq_dec p (order m)) as [Hp|Hp].
    - destruct IH as [(q & Hq & X)|IH]; [left; exists q; split; [right; exact Hq|exact X]|].
      right. intros x [<-|Hx]; [exact Hp|apply IH; exact Hx].
    - left. exists p. split; [left; reflexivity|exact Hp]. }
  destruct D as [(p & Hp & Hno)|D].
  - apply in_seq in Hp. exists p. split; [lia|]. intros Ho. apply Hno. apply (inv_order m I). split; [lia|exact Ho].
  - exfalso. apply NoDup_incl_length in D; [|apply seq_NoDup]. rewrite seq_length in D. lia.
Qed.

(** ---- merge, is_equal ---- *)
Definition distinct (d : list (K * V)) : Prop :=
  forall e1 e2 l1 l2 l3, d = l1 ++ e1 :: l2 ++ e2 :: l3 -> keq (fst e1) (fst e2) = false.
Lemma distinct_tail e d : distinct (e :: d) -> distinct d.
Proof. intros H e1 e2 l1 l2 l3 E. apply (H e1 e2 (e :: l1) l2 l3). rewrite E. reflexivity. Qed.
Lemma distinct_head k v d : distinct ((k, v) :: d) -> forall e, In e d -> keq k (fst e) = false.
Proof. intros H e He. apply in_split in He. destruct He as (l1 & l2 & ->). apply (H (k, v) e [] l1 l2). reflexivity. Qed.
Lemma d_get_none d k : (forall e, In e d -> keq (fst e) k = false) <-> d_get (V := V) keq d k = None.
Proof.
  induction d as [|[k' w] d IH]; cbn; [split; [reflexivity|intros _ e []]|].
  split.
  - intros H. rewrite (H (k', w) (or_introl eq_refl) : keq k' k = false). apply IH. intros e He. apply H. right. exact He.
  - destruct (keq k' k) eqn:E; [discriminate|]. intros H e [<-|He]; [exact E|]. apply IH; assumption.
Qed.
Lemma d_get_cong d a b : keq a b = true -> d_get (V := V) keq d a = d_get keq d b.
Proof.
  intros H. induction d as [|[k w] d IH]; [reflexivity|]. cbn. rewrite IH.
  assert (E : keq k a = keq k b).
  { destruct (keq k b) eqn:E1.
    - apply keq_trans with b; [exact E1|]. rewrite keq_sym. exact H.
    - apply not_true_iff_false. intros E2. rewrite (keq_trans k a b E2 H) in E1. discriminate. }
  rewrite E. reflexivity.
Qed.
Lemma d_get_set d k v k' : d_get (V := V) keq (d_set keq d k v) k' = if keq k k' then Some v else d_get keq d k'.
Proof.
  induction d as [|[a w] d IH]; cbn; [reflexivity|]. destruct (keq a k) eqn:E; cbn.
  - assert (E' : keq k a = true) by (rewrite keq_sym; exact E).
    destruct (keq a k') eqn:E2.
    + rewrite (keq_trans k a k' E' E2). reflexivity.
    + destruct (keq k k') eqn:E3; [|reflexivity]. rewrite (keq_trans a k k' E E3) in E2. discriminate.
  - rewrite IH. destruct (keq a k') eqn:E2; [|reflexivity]. destruct (keq k k') eqn:E3; [|reflexivity].
    exfalso. rewrite keq_sym in E3. rewrite (keq_trans a k' k E2 E3) in E. discriminate.
Qed.
Definition d_put_all (d l : list (K * V)) := fold_left (fun d e => d_set keq d (fst e) (snd e)) l d.
Lemma d_put_all_get l : distinct l -> forall d k, d_get keq (d_put_all d l) k =
  match d_get keq l k with Some v => Some v | None => d_get keq d k end.
Proof.
  induction l as [|[a w] l IH]; intros Hd d k; [reflexivity|]. unfold d_put_all in *. cbn [fold_left fst snd].
  rewrite IH by (eapply distinct_tail; exact Hd). rewrite d_get_set. cbn. destruct (keq a k) eqn:E; [|reflexivity].
  replace (d_get keq l k) with (@None V); [reflexivity|]. symmetry. apply d_get_none. intros e He.
  apply not_true_iff_false. intros X. pose proof (distinct_head a w l Hd e He) as Y.
  rewrite keq_sym in X. rewrite (keq_trans a k (fst e) E X) in Y. discriminate.
Qed.
Lemma present_in d k : present (V := V) keq d k = true <-> exists e, In e d /\ keq (fst e) k = true.
Proof.
  unfold present. induction d as [|[a w] d IH]; cbn; [split; [discriminate|intros (e & [] & _)]|].
  destruct (keq a k) eqn:E.
  - split; [intros _; exists (a, w); split; [left; reflexivity|exact E]|reflexivity].
  - rewrite IH. split; intros (e & H & He); exists e; (split; [|exact He]); [right; exact H|].
    destruct H as [<-|H]; [cbn in He; congruence|exact H].
Qed.
Lemma d_set_keys d k v : map fst (d_set (V := V) keq d k v) = if present keq d k then map fst d else map fst d ++ [k].
Proof.
  unfold present. induction d as [|[a w] d IH]; [reflexivity|]. cbn. destruct (keq a k); cbn; [reflexivity|].
  rewrite IH. destruct (d_get keq d k); reflexivity.
Qed.
Lemma present_set d k v k' : present (V := V) keq (d_set keq d k v) k' = keq k k' || present keq d k'.
Proof. unfold present. rewrite d_get_set. destruct (keq k k'); reflexivity. Qed.
Lemma d_put_all_keys l : distinct l -> forall d, map fst (d_put_all d l) =
  map fst d ++ filter (fun k => negb (present keq d k)) (map fst l).
Proof.
  induction l as [|[a w] l IH]; intros Hd d; [cbn; rewrite app_nil_r; reflexivity|]. unfold d_put_all in *. cbn [fold_left fst snd].
  rewrite IH by (eapply distinct_tail; exact Hd). rewrite d_set_keys.
  assert (F : filter (fun k => negb (present keq (d_set keq d a w) k)) (map fst l) = filter (fun k => negb (present keq d k)) (map fst l)).
  { apply filter_ext_in. intros k Hk. rewrite present_set. apply in_map_iff in Hk. destruct Hk as (e & <- & He).
    rewrite (distinct_head a w l Hd e He). reflexivity. }
  rewrite F. cbn [map filter fst]. destruct (present keq d a); cbn [negb]; [reflexivity|]. rewrite <- app_assoc. reflexivity.
Qed.
Lemma set_all_ok l : forall init n m, 8 <= init -> init <= 2 ^ 27 -> 0 <= n -> n + Z.of_nat (length l) <= 2 ^ 27 -> Bounded init n m ->
  exists m', set_all keq hsh (Ok m) l = Ok m' /\ Bounded init (n + Z.of_nat (length l)) m' /\ entries m' = d_put_all (entries m) l.
Proof.
  induction l as [|e l IH]; intros init n m H8 Hi Hn Hl B.
  - exists m. split; [reflexivity|]. cbn [length]. replace (n + Z.of_nat 0) with n by lia. split; [exact B|reflexivity].
  - cbn [length] in *. destruct (step_ok init n m (OSet (fst e) (snd e)) H8 Hi ltac:(lia) B) as (m1 & x & E1 & B1 & D1).
    cbn [step d_step] in E1, D1. destruct (map_set keq hsh m (fst e) (snd e)) as [m1'| | |] eqn:E; try discriminate.
    cbn [rmap] in E1. injection E1 as -> _. injection D1 as D1 _.
    destruct (IH init (n + 1) m1 H8 Hi ltac:(lia) ltac:(lia) B1) as (m2 & E2 & B2 & D2).
    exists m2. unfold set_all in *. cbn [fold_left rbind]. rewrite E. split; [exact E2|].
    split; [replace (n + Z.of_nat (S (length l))) with (n + 1 + Z.of_nat (length l)) by lia; exact B2|].
    rewrite D2, <- D1. reflexivity.
Qed.
Lemma entries_distinct m : Inv m -> distinct (entries m).
Proof. intros I e1 e2 l1 l2 l3. apply entries_NoDup. exact I. Qed.
Lemma merge_ok m1 m2 : Inv m1 -> Inv m2 -> count m1 + count m2 <= 2 ^ 26 ->
  exists r, merge keq hsh m1 m2 = Ok r /\ Inv r /\ entries r = d_put_all (entries m1) (entries m2).
Proof.
  change (2 ^ 26) with 67108864. intros I1 I2 Hn. unfold merge.
  assert (C1 : count m1 = Z.of_nat (length (entries m1))) by (rewrite (inv_count m1 I1), entries_length by exact I1; reflexivity).
  assert (C2 : count m2 = Z.of_nat (length (entries m2))) by (rewrite (inv_count m2 I2), entries_length by exact I2; reflexivity).
  replace (INT32_MAX <? (count m1 + count m2) * 2) with false by (unfold INT32_MAX; lia).
  set (c := Z.to_nat _). pose proof (new_bounded c) as B.
  assert (Hc : Z.of_nat (Nat.max 8 c) <= 134217728) by (subst c; destruct (8 <? count m1 + count m2); lia).
  destruct (set_all_ok (entries m1) (Z.of_nat (Nat.max 8 c)) 0 (map_new c)) as (r1 & E1 & B1 & D1); try assumption; try (change (2 ^ 27) with 134217728; lia).
  rewrite E1. destruct (set_all_ok (entries m2) (Z.of_nat (Nat.max 8 c)) (0 + Z.of_nat (length (entries m1))) r1) as (r2 & E2 & B2 & D2); try assumption; try (change (2 ^ 27) with 134217728; lia).
  exists r2. split; [exact E2|]. split; [apply B2|]. rewrite D2, D1. f_equal.
  destruct (new_ok c) as (_ & En & _). rewrite En. unfold d_put_all. rewrite d_set_list_append; [reflexivity|].
  cbn [app]. apply entries_distinct. exact I1.
Qed.
Lemma d_remove_get d k k' : distinct d -> keq k k' = false -> d_get (V := V) keq (d_remove keq d k) k' = d_get keq d k'.
Proof.
  intros Hd Hk. induction d as [|[a w] d IH]; [reflexivity|]. cbn. destruct (keq a k) eqn:E.
  - destruct (keq a k') eqn:E2; [|reflexivity]. rewrite keq_sym in E. rewrite (keq_trans k a k' E E2) in Hk. discriminate.
  - cbn. rewrite IH by (eapply distinct_tail; exact Hd). reflexivity.
Qed.
Lemma d_remove_length d k : present (V := V) keq d k = true -> S (length (d_remove keq d k)) = length d.
Proof.
  unfold present. induction d as [|[a w] d IH]; [discriminate|]. cbn. destruct (keq a k); [reflexivity|]. intros H. cbn. rewrite IH by exact H. reflexivity.
Qed.
Lemma d_remove_incl d k e : In e (d_remove (V := V) keq d k) -> In e d.
Proof. induction d as [|[a w] d IH]; [intros []|]. cbn. destruct (keq a k); [intros H; right; exact H|]. intros [H|H]; [left; exact H|right; apply IH; exact H]. Qed.
Lemma d_remove_distinct d k : distinct d -> distinct (d_remove keq d k).
Proof.
  induction d as [|[a w] d IH]; intros Hd; [exact Hd|]. cbn. destruct (keq a k); [eapply distinct_tail; exact Hd|].
  intros e1 e2 l1 l2 l3 E. destruct l1 as [|e0 l1].
  - injection E as <- E. cbn [fst]. eapply distinct_head; [exact Hd|]. apply (d_remove_incl d k). rewrite E. apply in_or_app. right. left. reflexivity.
  - injection E as _ E. apply (IH (distinct_tail _ _ Hd) e1 e2 l1 l2 l3 E).
Qed.
Lemma subset_length d1 : distinct d1 -> forall d2, distinct d2 -> (forall e, In e d1 -> present keq d2 (fst e) = true) ->
  (length d1 <= length d2)%nat.
Proof.
  induction d1 as [|[a w] d1 IH]; intros H1 d2 H2 Hs; [cbn; lia|]. cbn [length].
  rewrite <- (d_remove_length d2 a) by (apply (Hs (a, w)); left; reflexivity).
  apply le_n_S. apply IH; [eapply distinct_tail; exact H1|apply d_remove_distinct; exact H2|].
  intros e He. pose proof (Hs e (or_intror He)) as P. unfold present in *.
  rewrite d_remove_get; [exact P|exact H2|]. eapply distinct_head; [exact H1|exact He].
Qed.
Lemma is_equal_ok veq a b : Inv a -> Inv b ->
  (is_equal keq hsh veq a b = true <->
   forall k, match d_get keq (entries a) k, d_get keq (entries b) k with
             | Some v, Some w => veq v w = true
             | None, None => True
             | _, _ => False
             end).
Proof.
  intros Ia Ib. unfold is_equal. rewrite andb_true_iff, forallb_forall, Z.eqb_eq.
  rewrite (inv_count a Ia), (inv_count b Ib), <- (entries_length a Ia), <- (entries_length b Ib).
  pose proof (entries_distinct a Ia) as Da. pose proof (entries_distinct b Ib) as Db.
  assert (GET : forall e : K * V, map_get keq hsh b (fst e) = d_get keq (entries b) (fst e)) by (intros e; apply map_get_spec; exact Ib).
  assert (SELF : forall d e, distinct d -> In e d -> d_get keq d (fst e) = Some (snd e)).
  { clear - keq_refl keq_sym. induction d as [|[k w] d IH]; intros e Hd He; [contradiction|]. cbn. destruct He as [<-|He].
    - cbn. rewrite keq_refl. reflexivity.
    - rewrite (distinct_head k w d Hd e He). apply IH; [eapply distinct_tail; exact Hd|exact He]. }
  split.
  - intros [Hc Hall] k.
    assert (P : forall k, present keq (entries a) k = true -> present keq (entries b) k = true).
    { intros k0 H. apply present_in in H. destruct H as (e & He & Ek). specialize (Hall e He). rewrite GET in Hall.
      rewrite (d_get_cong _ _ _ Ek) in Hall. unfold present. destruct (d_get keq (entries b) k0); [reflexivity|discriminate]. }
    destruct (d_get keq (entries a) k) as [v|] eqn:Ea.
    + assert (Pa : present keq (entries a) k = true) by (unfold present; rewrite Ea; reflexivity).
      apply present_in in Pa. destruct Pa as (e & He & Ek). specialize (Hall e He). rewrite GET in Hall.
      rewrite (d_get_cong _ _ _ Ek) in Hall. pose proof (SELF _ e Da He) as S. rewrite (d_get_cong _ _ _ Ek), Ea in S.
      injection S as ->. destruct (d_get keq (entries b) k); [exact Hall|discriminate].
    + destruct (d_get keq (entries b) k) as [w|] eqn:Eb; [|exact I].
      assert (Pb : present keq (entries b) k = true) by (unfold present; rewrite Eb; reflexivity).
      assert (L : (length (entries a) <= length (d_remove keq (entries b) k))%nat).
      { apply subset_length; [exact Da|apply d_remove_distinct; exact Db|].
        intros e He. unfold present. rewrite d_remove_get; [|exact Db|].
        - apply P. apply present_in. exists e. split; [exact He|apply keq_refl].
        - apply not_true_iff_false. intros X. apply (proj2 (d_get_none (entries a) k) Ea) in He. rewrite keq_sym, X in He. discriminate. }
      pose proof (d_remove_length (entries b) k Pb). lia.
  - intros H.
    assert (Pab : forall e, In e (entries a) -> present keq (entries b) (fst e) = true).
    { intros e He. specialize (H (fst e)). rewrite (SELF _ e Da He) in H. unfold present. destruct (d_get keq (entries b) (fst e)); [reflexivity|contradiction]. }
    assert (Pba : forall e, In e (entries b) -> present keq (entries a) (fst e) = true).
    { intros e He. specialize (H (fst e)). rewrite (SELF _ e Db He) in H. unfold present. destruct (d_get keq (entries a) (fst e)); [reflexivity|contradiction]. }
    split.
    + pose proof (subset_length _ Da _ Db Pab). pose proof (subset_length _ Db _ Da Pba). lia.
    + intros e He. rewrite GET. specialize (H (fst e)). rewrite (SELF _ e Da He) in H. destruct (d_get keq (entries b) (fst e)); [exact H|contradiction].
Qed.
End Proofs.
