From Verif Require Import Base BaseFacts ArrayModel ArraySpec ArrayProofs ArrayStore.
From Coq Require Import Permutation Sorted.

Section Queries.
Context (sz : nat) (Hz : (0 < sz)%nat).
Notation repr := (repr sz).
Lemma get_ok h a l i : repr h a l -> array_get h a i sz = take_at l i 33.
Proof.
  intros V. unfold take_at, array_get. rewrite (r_len _ _ _ _ V).
  destruct (i <? 0) eqn:Hi; cbn [orb]; [reflexivity|]. destruct (nth_error l (Z.to_nat i)) as [e|] eqn:Ee.
  - pose proof (nth_some_lt _ _ _ Ee). replace (Z.of_nat (length l) <=? i) with false by lia. exact (read_one sz h a l _ e V Ee).
  - apply nth_error_None in Ee. replace (Z.of_nat (length l) <=? i) with true by lia. reflexivity.
Qed.
Lemma repr_reads h a l : repr h a l -> reads_as sz h a l.
Proof. intros V. split; [exact (r_len _ _ _ _ V)|]. intros i. apply get_ok. exact V. Qed.
Lemma contains_ok h a l p : repr h a l -> contains h a sz p = Ok (existsb p l).
Proof.
  intros V. unfold contains. rewrite (r_len _ _ _ _ V). pose proof (first_match_ok sz h a p l [] V) as FM. cbn [length] in FM. rewrite FM. cbn [rmap rbind].
  destruct (find_index p l 0) eqn:E.
  - destruct (existsb p l) eqn:X; [reflexivity|]. apply find_index_none with (i := 0%nat) in X. cbn in E. congruence.
  - apply find_index_none in E. rewrite E. reflexivity.
Qed.
Lemma find_index_spec p l : forall i, match find_index p l i with
  | Some j => (i <= j)%nat /\ position p l (Z.of_nat (j - i))
  | None => position p l (-1) end.
Proof.
  induction l as [|e l IH]; intros i; cbn [find_index].
  - right. split; reflexivity.
  - destruct (p e) eqn:E.
    + split; [lia|]. left. exists 0%nat, e. split; [f_equal; lia|]. split; [reflexivity|]. split; [exact E|]. intros k Hk. lia.
    + specialize (IH (S i)). destruct (find_index p l (S i)) as [j|].
      * destruct IH as [Hj [(n & x & E1 & E2 & E3 & E4)|[E1 _]]]; [|lia]. split; [lia|]. left. exists (S n), x.
        split; [lia|]. split; [exact E2|]. split; [exact E3|]. intros [|k] y Hk Ek; [cbn in Ek; congruence|]. apply (E4 k y); [lia|exact Ek].
      * destruct IH as [(n & x & E1 & _)|[_ E1]]; [lia|]. right. split; [reflexivity|]. cbn. rewrite E. exact E1.
Qed.
Lemma index_of_ok h a l p : repr h a l -> exists i, index_of h a sz p = Ok i /\ position p l i.
Proof.
  intros V. unfold index_of. rewrite (r_len _ _ _ _ V). pose proof (first_match_ok sz h a p l [] V) as FM. cbn [length] in FM. rewrite FM. cbn [rmap rbind].
  pose proof (find_index_spec p l 0) as F. destruct (find_index p l 0) as [j|].
  - eexists. split; [reflexivity|]. replace (Z.of_nat j) with (Z.of_nat (j - 0)) by lia. apply F.
  - eexists. split; [reflexivity|]. exact F.
Qed.
Lemma count_from_ok h a p : forall l2 l1, repr h a (l1 ++ l2) ->
  count_from h a sz p (length l2) (length l1) = Ok (Z.of_nat (length (filter p l2))).
Proof.
  induction l2 as [|e l2 IH]; intros l1 R; [reflexivity|]. cbn [length count_from filter].
  rewrite (read_one sz h a (l1 ++ e :: l2) (length l1) e R).
  2: { rewrite nth_error_app2 by lia. rewrite Nat.sub_diag. reflexivity. }
  cbn [rbind]. specialize (IH (l1 ++ [e])). rewrite app_length in IH. cbn [length] in IH. rewrite Nat.add_1_r in IH.
  rewrite IH by (rewrite <- app_assoc; exact R). cbn. destruct (p e); cbn [length]; f_equal; lia.
Qed.
Lemma same_bytes_eq a : forall b, same_bytes a b = true <-> a = b.
Proof.
  induction a as [|x a IH]; intros [|y b]; cbn; try (split; [discriminate|discriminate]); [split; reflexivity|].
  rewrite Bool.andb_true_iff, IH, Z.eqb_eq. split; [intros [-> ->]; reflexivity|intros [= -> ->]; split; reflexivity].
Qed.
Lemma concat_inj l : forall m, shaped sz l -> shaped sz m -> length l = length m -> concat l = concat m -> l = m.
Proof.
  induction l as [|x l IH]; intros [|y m] Sl Sm L E; cbn in L; try discriminate; [reflexivity|].
  inversion Sl as [|? ? X1 X2]; inversion Sm as [|? ? Y1 Y2]; subst. cbn in E. assert (x = y) as ->.
  { apply (f_equal (firstn (length x))) in E. rewrite firstn_app_exact in E by reflexivity. rewrite firstn_app_exact in E by congruence. exact E. }
  f_equal. apply IH; try assumption; [lia|]. apply app_inv_head in E. exact E.
Qed.
Lemma is_equal_ok h a b l m : repr h a l -> repr h b m -> exists r, is_equal_prim h a b = Ok r /\ (r = true <-> l = m).
Proof.
  intros A B. unfold is_equal_prim. pose proof (read_all _ _ _ _ A) as RA. pose proof (read_all _ _ _ _ B) as RB.
  rewrite (r_len _ _ _ _ A), (r_esz _ _ _ _ A) in *. rewrite (r_len _ _ _ _ B), (r_esz _ _ _ _ B) in *.
  destruct (length l =? length m)%nat eqn:E; cbn [negb].
  2: { exists false. split; [reflexivity|]. split; [discriminate|]. intros ->. lia. }
  rewrite Nat.eqb_refl. cbn [negb]. destruct (length l =? 0)%nat eqn:Z0.
  - exists true. split; [reflexivity|]. split; [|reflexivity]. intros _. destruct l, m; cbn in *; try lia. reflexivity.
  - rewrite RA. cbn [rbind]. assert (length l = length m) as L by lia. rewrite L, RB. cbn [rmap rbind]. eexists. split; [reflexivity|]. rewrite same_bytes_eq. split.
    + intros C. apply concat_inj; [apply A|apply B|exact L|exact C].
    + intros ->. reflexivity.
Qed.

(** new blocks only *)
Definition kept (h h' : heap) : Prop := (length h <= length h')%nat /\ forall c, (c < length h)%nat -> nth_error h' c = nth_error h c.
Lemma kept_refl h : kept h h. Proof. split; [lia|reflexivity]. Qed.
Lemma kept_trans a b c : kept a b -> kept b c -> kept a c.
Proof. intros [L1 K1] [L2 K2]. split; [lia|]. intros d H. rewrite K2 by lia. apply K1. exact H. Qed.
Lemma kept_repr h h' a l : kept h h' -> repr h a l -> repr h' a l.
Proof. intros [L K] R. apply (repr_frame sz h h' (length h)); [split; [exact L|intros c Hc _; apply K; exact Hc]| |exact R]. pose proof (repr_lt _ _ _ _ R). lia. Qed.
Lemma split_loop_ok a size : (0 < size)%nat -> forall n h l1 l2, repr h a (l1 ++ l2) -> (length l2 <= n)%nat -> Z.of_nat (length (l1 ++ l2)) <= 2 ^ 29 ->
  exists h' rs cs, split_loop h a size n (length l1) = Ok (h', rs) /\ kept h h' /\ Forall2 (repr h') rs cs /\ concat cs = l2 /\ chunked size cs.
Proof.
  intros Hs. induction n as [|n IH]; intros h l1 l2 R L B.
  - destruct l2; [|cbn in L; lia]. exists h, [], []. cbn. split; [reflexivity|]. split; [apply kept_refl|]. split; [constructor|]. split; [reflexivity|exact I].
  - cbn [split_loop]. rewrite (r_len _ _ _ _ R), (r_esz _ _ _ _ R), app_length. rewrite app_length in B. destruct l2 as [|x l2'] eqn:El2.
    { cbn [length]. replace (length l1 <? length l1 + 0)%nat with false by lia. exists h, [], []. split; [reflexivity|]. split; [apply kept_refl|]. split; [constructor|]. split; [reflexivity|exact I]. }
    rewrite <- El2 in *. assert (N : (0 < length l2)%nat) by (rewrite El2; cbn; lia). clear x l2' El2.
    replace (length l1 <? length l1 + length l2)%nat with true by lia.
    set (k := if (length l1 + size <=? length l1 + length l2)%nat then size else (length l1 + length l2 - length l1)%nat).
    assert (Hk : k = Nat.min size (length l2)) by (unfold k; destruct (_ <=? _)%nat eqn:E; lia). clearbody k.
    rewrite <- (firstn_skipn k l2) in R. pose proof R as R0.
    assert (Lk : length (firstn k l2) = k) by (rewrite firstn_length; lia).
    rewrite (read_seg sz h a l1 (firstn k l2) (skipn k l2) R (length l1 * sz) (k * sz)) by (rewrite ?Lk; reflexivity). cbn [rbind].
    pose proof (r_shape _ _ _ _ R0) as SH. apply shaped_app in SH. destruct SH as [_ SH]. apply shaped_app in SH. destruct SH as [SH _].
    destruct (from_ok sz h (firstn k l2) (concat (firstn k l2)) SH) as (h1 & c & E & Rc & Bc & Lh & K1); [lia|exists []; rewrite app_nil_r; reflexivity|].
    rewrite Lk in E. rewrite E. cbn [rbind fst snd].
    assert (KK : kept h h1) by (split; [lia|exact K1]).
    destruct (Nat.le_gt_cases size (length l2)) as [Hle|Hgt].
    + assert (k = size) as -> by lia.
      destruct (IH h1 (l1 ++ firstn size l2) (skipn size l2)) as (h2 & rs & cs & E2 & K2 & F2 & C2 & CH).
      { rewrite <- app_assoc. eapply kept_repr; eassumption. } { rewrite skipn_length. lia. } { rewrite app_length, app_length, skipn_length. lia. }
      rewrite app_length, Lk in E2. rewrite E2. cbn [rmap rbind fst snd]. exists h2, (c :: rs), (firstn size l2 :: cs). split; [reflexivity|].
      split; [eapply kept_trans; eassumption|]. split; [constructor; [eapply kept_repr; eassumption|exact F2]|]. split; [cbn; rewrite C2; apply firstn_skipn|].
      cbn [chunked]. destruct cs as [|c0 cs]; [rewrite Lk; split; [lia|lia]|]. split; [exact Lk|exact CH].
    + assert (k = length l2) as -> by lia. rewrite firstn_all in *. rewrite skipn_all in *.
      assert (E2 : split_loop h1 a size n (length l1 + size) = Ok (h1, [])).
      { destruct n; [reflexivity|]. cbn [split_loop]. rewrite (r_len _ _ _ _ R0), app_nil_r, app_length. replace (_ <? _)%nat with false by lia. reflexivity. }
      rewrite E2. cbn. exists h1, [c], [l2]. split; [reflexivity|]. split; [exact KK|]. split; [constructor; [exact Rc|constructor]|]. split; [apply app_nil_r|]. split; lia.
Qed.
Lemma pair_loop_ok a b : forall n h l1 l2 m1 m2, repr h a (l1 ++ l2) -> repr h b (m1 ++ m2) -> length l1 = length m1 ->
  n = Nat.min (length l2) (length m2) ->
  exists h' rs, pair_loop h a b n (length l1) = Ok (h', rs) /\ kept h h' /\ Forall2 (repr h') rs (map (fun p => [fst p; snd p]) (combine l2 m2)).
Proof.
  induction n as [|n IH]; intros h l1 l2 m1 m2 A B L N.
  - exists h, []. split; [reflexivity|]. split; [apply kept_refl|]. destruct l2, m2; cbn in N; try lia; constructor.
  - destruct l2 as [|x l2], m2 as [|y m2]; cbn in N; try lia. cbn [pair_loop combine map fst snd].
    rewrite (r_esz _ _ _ _ A), (r_esz _ _ _ _ B).
    destruct (new_ok sz h 2 ltac:(cbn; lia)) as (h0 & r0 & E0 & R0 & B0 & L0 & K0). rewrite E0.
    assert (KK0 : kept h h0) by (split; [lia|exact K0]).
    pose proof (kept_repr _ _ _ _ KK0 A) as A0. pose proof (kept_repr _ _ _ _ KK0 B) as Bb0.
    assert (SX : length x = sz /\ length y = sz).
    { pose proof (r_shape _ _ _ _ A) as S1. pose proof (r_shape _ _ _ _ B) as S2. apply shaped_app in S1, S2. destruct S1 as [_ S1], S2 as [_ S2]. inversion S1 as [|? ? X1 X2]; inversion S2 as [|? ? Y1 Y2]; split; assumption. }
    destruct SX as [Hx Hy].
    pose proof (read_one sz h0 a (l1 ++ x :: l2) (length l1) x A0) as RX. rewrite (r_esz _ _ _ _ A) in RX. rewrite RX by (rewrite nth_error_app2, Nat.sub_diag by lia; reflexivity). cbn [rbind].
    destruct (push_ok sz h0 r0 [] x R0 Hx ltac:(cbn; lia)) as (h1 & r1 & E1 & R1 & M1). rewrite E1. cbn [rbind fst snd].
    assert (F0 : fresh h h0 r0) by (split; [lia|split; [lia|exact K0]]). pose proof (fresh_moved sz h h0 h1 r0 r1 F0 M1) as F1.
    pose proof (fresh_keeps sz h h1 r1 b _ F1 B) as B1. pose proof (read_one sz h1 b (m1 ++ y :: m2) (length l1) y B1) as RY. rewrite (r_esz _ _ _ _ B) in RY.
    rewrite RY by (rewrite L, nth_error_app2, Nat.sub_diag by lia; reflexivity). cbn [rbind].
    destruct (push_ok sz h1 r1 [x] y R1 Hy ltac:(cbn; lia)) as (h2 & r2 & E2 & R2 & M2). rewrite E2. cbn [rbind fst snd].
    pose proof (fresh_moved sz h h1 h2 r1 r2 F1 M2) as F2.
    destruct (IH h2 (l1 ++ [x]) l2 (m1 ++ [y]) m2) as (h3 & rs & E3 & K3 & FF).
    { rewrite <- app_assoc. eapply fresh_keeps; eassumption. } { rewrite <- app_assoc. eapply fresh_keeps; eassumption. } { rewrite !app_length. cbn. lia. } { lia. }
    rewrite app_length in E3. cbn [length] in E3. rewrite Nat.add_1_r in E3. rewrite E3. cbn [rmap rbind fst snd]. exists h3, (r2 :: rs). split; [reflexivity|]. split.
    + destruct F2 as (_ & L2 & K2). eapply kept_trans; [split; [exact L2|exact K2]|exact K3].
    + constructor; [eapply kept_repr; [exact K3|exact R2]|exact FF].
Qed.
End Queries.

Lemma flatten_loop_ok : forall inner ls h r m, Forall2 (repr 8 h) inner ls -> repr 8 h r m -> Forall (fun a => blk a <> blk r) inner ->
  Z.of_nat (length m + length (concat ls)) <= 2 ^ 29 ->
  exists h' r', flatten_loop h r inner = Ok (h', r') /\ repr 8 h' r' (m ++ concat ls).
Proof.
  induction inner as [|a inner IH]; intros ls h r m F R D B; inversion F as [|x l y ls' Ra Fr]; subst; cbn [flatten_loop concat].
  - exists h, r. split; [reflexivity|]. rewrite app_nil_r. exact R.
  - inversion D as [|x y Da Dr]; subst. cbn [concat] in B. rewrite app_length in B. rewrite (r_len _ _ _ _ Ra).
    destruct (push_elems_ok 8 a l (seq 0 (length l)) h r m Ra R ltac:(congruence) ltac:(lia)) as (h1 & r1 & E & R1 & M).
    { intros i Hi. apply in_seq in Hi. lia. } { rewrite seq_length. lia. }
    rewrite map_nth_seq in R1. rewrite E. cbn [rbind fst snd]. destruct M as [[L K] Bk].
    destruct (IH ls' h1 r1 (m ++ l)) as (h2 & r2 & E2 & R2).
    + clear - Fr Dr K L. induction Fr as [|b lb ? ? Rb Fr IHF]; [constructor|]. inversion Dr; subst. constructor; [|apply IHF; assumption].
      apply (repr_frame 8 h h1 (blk r)); [split; assumption|assumption|exact Rb].
    + exact R1.
    + clear - Dr Bk Fr. induction Fr as [|b lb ? ? Rb Fr IHF]; [constructor|]. inversion Dr; subst. constructor; [|apply IHF; assumption].
      pose proof (repr_lt _ _ _ _ Rb). destruct Bk; lia.
    + rewrite app_length. lia.
    + rewrite E2. exists h2, r2. split; [reflexivity|]. rewrite <- app_assoc in R2. exact R2.
Qed.
Lemma flatten_ok inner ls h : Forall2 (repr 8 h) inner ls -> Z.of_nat (length (concat ls)) <= 2 ^ 29 ->
  exists h' r, flatten h inner = Ok (h', r) /\ repr 8 h' r (concat ls).
Proof.
  intros F B. unfold flatten. destruct (new_ok 8 h 8 ltac:(cbn; lia)) as (h0 & r0 & E0 & R0 & B0 & L0 & K0). rewrite E0.
  apply (flatten_loop_ok inner ls h0 r0 []); [|exact R0| |cbn; exact B].
  - clear - F L0 K0. induction F as [|a l ? ? R F IH]; constructor; [|exact IH]. apply (repr_frame 8 h h0 (length h)); [split; [lia|intros c Hc _; apply K0; exact Hc]| |exact R]. pose proof (repr_lt _ _ _ _ R). lia.
  - clear - F B0. induction F as [|a l ? ? R F IH]; constructor; [|exact IH]. pose proof (repr_lt _ _ _ _ R). lia.
Qed.

(** insertion sort is one function with the promise of qsort *)
Fixpoint insert_by {A} (cmp : A -> A -> Z) (x : A) (l : list A) : list A :=
  match l with [] => [x] | y :: l => if cmp x y <=? 0 then x :: y :: l else y :: insert_by cmp x l end.
Definition insertion_sort {A} (cmp : A -> A -> Z) (l : list A) : list A := fold_right (insert_by cmp) [] l.
Lemma insert_perm {A} cmp (x : A) l : Permutation (x :: l) (insert_by cmp x l).
Proof.
  induction l as [|y l IH]; cbn; [reflexivity|]. destruct (cmp x y <=? 0); [reflexivity|].
  etransitivity; [apply perm_swap|]. constructor. exact IH.
Qed.
Lemma insertion_sort_perm {A} cmp (l : list A) : Permutation l (insertion_sort cmp l).
Proof. induction l as [|x l IH]; cbn; [constructor|]. etransitivity; [constructor; exact IH|apply insert_perm]. Qed.
Lemma insert_sorted {A} cmp (x : A) l : consistent cmp (x :: l) -> StronglySorted (fun a b => cmp a b <= 0) l ->
  StronglySorted (fun a b => cmp a b <= 0) (insert_by cmp x l).
Proof.
  induction l as [|y l IH]; intros [An Tr] S; cbn; [constructor; constructor|].
  inversion S as [|? ? Sl Fl]; subst. destruct (cmp x y <=? 0) eqn:E.
  - constructor; [exact S|]. constructor; [lia|]. rewrite Forall_forall in *. intros z Hz. apply (Tr x y z); cbn; try tauto; [lia|apply Fl; exact Hz].
  - constructor.
    + apply IH; [|exact Sl]. split; [intros a b Ha Hb; apply An; cbn in *; tauto|intros a b c Ha Hb Hc; apply Tr; cbn in *; tauto].
    + rewrite Forall_forall in *. intros z Hz. apply (Permutation_in _ (Permutation_sym (insert_perm cmp x l))) in Hz. destruct Hz as [<-|Hz]; [|apply Fl; exact Hz].
      pose proof (An x y ltac:(cbn; tauto) ltac:(cbn; tauto)). lia.
Qed.
Lemma consistent_perm {A} (cmp : A -> A -> Z) l m : (forall x, In x m -> In x l) -> consistent cmp l -> consistent cmp m.
Proof. intros H [An Tr]. split; [intros a b Ha Hb; apply An; auto|intros a b c Ha Hb Hc; apply Tr; auto]. Qed.
Lemma insertion_sort_ok : is_qsort (@insertion_sort (list Z)).
Proof.
  intros cmp l C. split; [apply insertion_sort_perm|]. induction l as [|x l IH]; cbn; [constructor|].
  apply insert_sorted.
  - eapply consistent_perm; [|exact C]. intros z [<-|Hz]; [left; reflexivity|right]. apply (Permutation_in _ (Permutation_sym (insertion_sort_perm cmp l))). exact Hz.
  - apply IH. eapply consistent_perm; [|exact C]. intros z Hz. right. exact Hz.
Qed.
Lemma rank_consistent {A} (f : A -> Z) (cmp : A -> A -> Z) l :
  (forall a b, In a l -> In b l -> cmp a b = sgn (f b <? f a) - sgn (f a <? f b)) -> consistent cmp l.
Proof.
  intros H. split.
  - intros a b Ha Hb. rewrite !H by assumption. unfold sgn. destruct (f b <? f a) eqn:E1, (f a <? f b) eqn:E2; cbn; lia.
  - intros a b c Ha Hb Hc. rewrite !H by assumption. unfold sgn.
    destruct (f b <? f a) eqn:E1, (f a <? f b) eqn:E2, (f c <? f b) eqn:E3, (f b <? f c) eqn:E4, (f c <? f a) eqn:E5, (f a <? f c) eqn:E6; lia.
Qed.
Lemma sorted_impl {A} (P Q : A -> A -> Prop) (l : list A) : (forall a b, In a l -> In b l -> P a b -> Q a b) -> StronglySorted P l -> StronglySorted Q l.
Proof.
  induction l as [|x l IH]; intros H S; [constructor|]. inversion S as [|? ? Sl Fl]; subst. constructor.
  - apply IH; [|exact Sl]. intros a b Ha Hb. apply H; right; assumption.
  - rewrite Forall_forall in *. intros z Hz. apply H; [left; reflexivity|right; exact Hz|apply Fl; exact Hz].
Qed.
Lemma rank_sorted {A} (f : A -> Z) cmp (qs : (A -> A -> Z) -> list A -> list A) l :
  (forall a b, In a l -> In b l -> cmp a b = sgn (f b <? f a) - sgn (f a <? f b)) ->
  Permutation l (qs cmp l) -> StronglySorted (fun a b => cmp a b <= 0) (qs cmp l) ->
  StronglySorted (fun a b => f a <= f b) (qs cmp l).
Proof.
  intros H P. apply sorted_impl. intros a b Ha Hb. apply Permutation_sym in P. rewrite H by (eapply Permutation_in; eassumption).
  unfold sgn. destruct (f b <? f a) eqn:E1, (f a <? f b) eqn:E2; lia.
Qed.
Lemma single_sorted {A} (P : A -> A -> Prop) (l : list A) : (length l <= 1)%nat -> StronglySorted P l.
Proof. destruct l as [|x [|y l]]; cbn; intros H; [constructor|constructor; constructor|lia]. Qed.
(** text comparison *)
Lemma cmp_str_le : forall a b, cmp_str_asc a b <= 0 <-> text_le a b.
Proof.
  unfold cmp_str_asc. induction a as [|x a IH]; intros [|y b]; cbn [length Nat.min firstn memcmp text_le].
  - split; [trivial|]. cbn. lia.
  - split; [trivial|]. cbn. lia.
  - split; [cbn; lia|contradiction].
  - specialize (IH b). destruct (x =? y) eqn:E.
    + change (S (length b) <? S (length a))%nat with (length b <? length a)%nat. change (S (length a) <? S (length b))%nat with (length a <? length b)%nat.
      rewrite IH. split; [intros H; right; split; [lia|exact H]|intros [H|[_ H]]; [lia|exact H]].
    + replace (negb (x - y =? 0)) with true by lia. split; [intros H; left; lia|intros [H|[H _]]; lia].
Qed.
Lemma cmp_str_anti : forall a b, Z.sgn (cmp_str_asc a b) = - Z.sgn (cmp_str_asc b a).
Proof.
  unfold cmp_str_asc. induction a as [|x a IH]; intros [|y b]; cbn [length Nat.min firstn memcmp]; try reflexivity.
  specialize (IH b). destruct (x =? y) eqn:E.
  - replace (y =? x) with true by lia. exact IH.
  - replace (y =? x) with false by lia. replace (negb (x - y =? 0)) with true by lia. replace (negb (y - x =? 0)) with true by lia. lia.
Qed.
Lemma text_le_trans : forall a b c, text_le a b -> text_le b c -> text_le a c.
Proof.
  induction a as [|x a IH]; intros [|y b] [|z c]; cbn; trivial; try contradiction. intros [H1|[-> H1]] [H2|[-> H2]]; [left; lia|left; lia|left; lia|].
  right. split; [reflexivity|]. eapply IH; eassumption.
Qed.
Lemma cmp_str_consistent l : consistent cmp_str_asc l.
Proof. split; [intros; apply cmp_str_anti|]. intros a b c _ _ _. rewrite !cmp_str_le. apply text_le_trans. Qed.
Lemma cmp_str_desc_consistent l : consistent cmp_str_desc l.
Proof. unfold cmp_str_desc. split; [intros; apply cmp_str_anti|]. intros a b c _ _ _. rewrite !cmp_str_le. intros H1 H2. eapply text_le_trans; eassumption. Qed.

(** shuffling *)
Lemma update_perm {A} (l : list A) : forall i j x y, nth_error l i = Some x -> nth_error l j = Some y -> Permutation l (update j x (update i y l)).
Proof.
  intros i j x y Hi Hj. destruct (Nat.eq_dec i j) as [->|N].
  { rewrite Hi in Hj. injection Hj as <-. rewrite (update_same l j x Hi), (update_same l j x Hi). reflexivity. }
  assert (HH : forall a b x y, (a < b)%nat -> nth_error l a = Some x -> nth_error l b = Some y ->
    Permutation l (update b x (update a y l)) /\ Permutation l (update a y (update b x l))).
  { clear. revert l. induction l as [|z l IH]; intros a b x y H Ha Hb; [destruct a; discriminate|].
    destruct b as [|b]; [lia|]. destruct a as [|a]; cbn in Ha, Hb |- *.
    - injection Ha as ->. destruct (nth_error_split l b Hb) as (p & q & -> & Lp). rewrite <- Lp, update_app. cbn.
      assert (Permutation (x :: p ++ y :: q) (y :: p ++ x :: q)).
      { rewrite <- (Permutation_middle p q y), <- (Permutation_middle p q x). apply perm_swap. }
      split; assumption.
    - destruct (IH a b x y ltac:(lia) Ha Hb). split; constructor; assumption. }
  destruct (Nat.lt_trichotomy i j) as [Hlt|[->|Hgt]]; [apply (HH i j x y Hlt Hi Hj)|contradiction|apply (HH j i y x Hgt Hj Hi)].
Qed.
Lemma swap_perm {A} (l : list A) i j : Permutation l (swap l i j).
Proof.
  unfold swap. destruct (nth_error l i) as [x|] eqn:Ei; [|reflexivity]. destruct (nth_error l j) as [y|] eqn:Ej; [|reflexivity].
  apply update_perm; assumption.
Qed.
Lemma shuffle_loop_perm {A} i : forall (l : list A) rs, Permutation l (shuffle_loop l i rs).
Proof.
  induction i as [|i IH]; intros l rs; cbn [shuffle_loop]; [reflexivity|]. destruct rs as [|r rs]; [reflexivity|].
  etransitivity; [apply swap_perm|apply IH].
Qed.
Lemma update_map {A B} (f : A -> B) l : forall n x, update n (f x) (map f l) = map f (update n x l).
Proof. induction l as [|y l IH]; intros [|n] x; cbn; try reflexivity. rewrite IH. reflexivity. Qed.
Lemma swap_map {A B} (f : A -> B) l i j : swap (map f l) i j = map f (swap l i j).
Proof.
  unfold swap. rewrite !nth_error_map. destruct (nth_error l i); [|reflexivity]. cbn [option_map]. destruct (nth_error l j); [|reflexivity].
  cbn [option_map]. rewrite !update_map. reflexivity.
Qed.
Lemma shuffle_loop_map {A B} (f : A -> B) i : forall l rs, shuffle_loop (map f l) i rs = map f (shuffle_loop l i rs).
Proof.
  induction i as [|i IH]; intros l rs; cbn [shuffle_loop]; [reflexivity|]. destruct rs as [|r rs]; [reflexivity|]. rewrite swap_map. apply IH.
Qed.
Lemma update_length' {A} (l : list A) n x : length (update n x l) = length l. Proof. apply update_length. Qed.
