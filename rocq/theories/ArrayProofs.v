From Verif Require Import Base BaseFacts ArrayModel ArraySpec.

Lemma update_length {A} n (x : A) l : length (update n x l) = length l.
Proof. revert n. induction l as [|y l IH]; intros [|n]; cbn; auto. Qed.
Lemma nth_update {A} n (x : A) l p : nth_error (update n x l) p =
  if (p =? n)%nat then (if (n <? length l)%nat then Some x else None) else nth_error l p.
Proof.
  revert n p. induction l as [|y l IH]; intros n p.
  - replace (update n x []) with (@nil A) by (destruct n; reflexivity). cbn [length]. replace (n <? 0)%nat with false by lia. destruct (p =? n)%nat; destruct p; reflexivity.
  - destruct n as [|n], p as [|p]; cbn [update nth_error Nat.eqb]; try reflexivity. rewrite IH. cbn [length].
    destruct (p =? n)%nat; [|reflexivity]. destruct (Nat.ltb_spec n (length l)), (Nat.ltb_spec (S n) (S (length l))); try reflexivity; lia.
Qed.
Lemma update_app {A} (l1 : list A) x y l2 : update (length l1) x (l1 ++ y :: l2) = l1 ++ x :: l2.
Proof. induction l1 as [|z l1 IH]; cbn; [reflexivity|]. rewrite IH. reflexivity. Qed.
Lemma update_split {A} n (x : A) l : (n < length l)%nat -> update n x l = firstn n l ++ x :: skipn (S n) l.
Proof.
  revert n. induction l as [|y l IH]; intros n H; [cbn in H; lia|]. destruct n as [|n]; [reflexivity|].
  cbn [update firstn skipn app]. rewrite IH by (cbn in H; lia). reflexivity.
Qed.
Lemma align8_ge n : (n <= align8 n)%nat.
Proof. unfold align8. pose proof (Nat.div_mod (n + 7) 8 ltac:(lia)). pose proof (Nat.mod_upper_bound (n + 7) 8 ltac:(lia)). lia. Qed.

Opaque align8.
(** ---- reads and writes of a block split into parts ---- *)
Lemma firstn_app_exact {A} (a b : list A) n : n = length a -> firstn n (a ++ b) = a.
Proof. intros ->. rewrite firstn_app, Nat.sub_diag, firstn_all. cbn. apply app_nil_r. Qed.
Lemma skipn_app_exact {A} (a b : list A) n : n = length a -> skipn n (a ++ b) = b.
Proof. intros ->. rewrite skipn_app, Nat.sub_diag, skipn_all. reflexivity. Qed.
Lemma skipn_twice {A} (l : list A) m n : skipn m (skipn n l) = skipn (n + m) l.
Proof. revert l. induction n as [|n IH]; intros l; [reflexivity|]. destruct l; [rewrite !skipn_nil; reflexivity|]. apply IH. Qed.
Lemma rd_at h b pre v post off n : nth_error h b = Some (pre ++ v ++ post) -> off = length pre -> n = length v ->
  rd h b off n = Ok v.
Proof.
  intros E -> ->. unfold rd. rewrite E. replace (_ <=? _)%nat with true by (rewrite !app_length; lia).
  rewrite skipn_app_exact by reflexivity. rewrite firstn_app_exact by reflexivity. reflexivity.
Qed.
Lemma splice_at pre old post v off : off = length pre -> length v = length old ->
  splice (pre ++ old ++ post) off v = pre ++ v ++ post.
Proof.
  intros -> L. unfold splice. rewrite firstn_app_exact by reflexivity. f_equal. f_equal.
  rewrite app_assoc. apply skipn_app_exact. rewrite app_length. lia.
Qed.
Lemma nth_some_lt {A} (h : list A) b x : nth_error h b = Some x -> (b < length h)%nat.
Proof. intros E. apply nth_error_Some. congruence. Qed.
(** [frame h h' b]: only block b and fresh blocks may differ *)
Definition frame (h h' : heap) (b : nat) : Prop :=
  (length h <= length h')%nat /\ forall c, (c < length h)%nat -> c <> b -> nth_error h' c = nth_error h c.
Lemma frame_refl h b : frame h h b. Proof. split; [lia|reflexivity]. Qed.
Lemma frame_trans h1 h2 h3 b c : frame h1 h2 b -> frame h2 h3 c -> (c = b \/ length h1 <= c)%nat -> frame h1 h3 b.
Proof.
  intros [L1 F1] [L2 F2] Hc. split; [lia|]. intros d Hd Hne. rewrite F2 by lia. apply F1; assumption.
Qed.
Lemma wr_at h b pre old post v off : nth_error h b = Some (pre ++ old ++ post) -> off = length pre -> length v = length old ->
  exists h', wr h b off v = Ok h' /\ nth_error h' b = Some (pre ++ v ++ post) /\ length h' = length h /\
    forall c, c <> b -> nth_error h' c = nth_error h c.
Proof.
  intros E Ho L. unfold wr. rewrite E. replace (_ <=? _)%nat with true by (rewrite !app_length; lia).
  eexists. split; [reflexivity|]. pose proof (nth_some_lt _ _ _ E) as Hb.
  rewrite splice_at by assumption. split; [|split].
  - rewrite nth_update, Nat.eqb_refl. replace (_ <? _)%nat with true by lia. reflexivity.
  - apply update_length.
  - intros c Hc. rewrite nth_update. replace (c =? b)%nat with false by lia. reflexivity.
Qed.
Lemma alloc_at h n : nth_error (fst (alloc h n)) (length h) = Some (repeat 0 (align8 n)) /\ length (fst (alloc h n)) = S (length h) /\
  forall c, (c < length h)%nat -> nth_error (fst (alloc h n)) c = nth_error h c.
Proof.
  unfold alloc. cbn [fst]. split; [rewrite nth_error_app2, Nat.sub_diag by lia; reflexivity|]. split; [rewrite app_length; cbn; lia|].
  intros c Hc. apply nth_error_app1. exact Hc.
Qed.

Section Repr.
Context (sz : nat).
Definition shaped (l : elems) : Prop := Forall (fun e => length e = sz) l.
Lemma concat_len (l : elems) : shaped l -> length (concat l) = (length l * sz)%nat.
Proof. intros H. induction H as [|e l He _ IH]; [reflexivity|]. cbn. rewrite app_length, IH, He. reflexivity. Qed.
Lemma shaped_app l1 l2 : shaped (l1 ++ l2) <-> shaped l1 /\ shaped l2.
Proof. apply Forall_app. Qed.
(** what the header and the memory say about a variable holding list l *)
Record repr (h : heap) (a : arr) (l : elems) : Prop := {
  r_esz : esz a = sz;
  r_len : alen a = length l;
  r_iter : iter a = 0;
  r_shape : shaped l;
  r_fit : (length l <= acap a)%nat;
  r_cap : Z.of_nat (acap a) <= 2 ^ 30;
  r_pos : (0 < acap a)%nat;
  r_mem : exists rest, nth_error h (blk a) = Some (concat l ++ rest) /\ (acap a * sz <= length (concat l ++ rest))%nat }.
Lemma repr_lt h a l : repr h a l -> (blk a < length h)%nat.
Proof. intros [_ _ _ _ _ _ _ (r & E & _)]. apply (nth_some_lt _ _ _ E). Qed.
Lemma repr_frame h h' b a l : frame h h' b -> blk a <> b -> repr h a l -> repr h' a l.
Proof.
  intros [_ F] Hb R. pose proof (repr_lt _ _ _ R) as Hlt. destruct R as [A B C D E F' P (r & N & Hr)]. constructor; try assumption.
  exists r. split; [|exact Hr]. rewrite F by assumption. exact N.
Qed.

Lemma new_ok h cap : Z.of_nat cap <= 2 ^ 30 -> exists h' a, array_new h sz cap = (h', a) /\ repr h' a [] /\ blk a = length h /\
  length h' = S (length h) /\ forall c, (c < length h)%nat -> nth_error h' c = nth_error h c.
Proof.
  intros Hc. unfold array_new. set (n := if (0 <? cap)%nat then cap else MIN_CAP).
  destruct (alloc_at h (n * sz)) as (E & L & F). destruct (alloc h (n * sz)) as [h' b] eqn:Ea. cbn [fst] in E, L, F.
  assert (b = length h) as -> by (unfold alloc in Ea; congruence).
  eexists. eexists. split; [reflexivity|]. split; [|split; [reflexivity|split; [exact L|exact F]]].
  constructor; cbn; try reflexivity; try (constructor); try lia.
  - subst n. unfold MIN_CAP. destruct (0 <? cap)%nat; lia.
  - subst n. unfold MIN_CAP. destruct (0 <? cap)%nat eqn:X; lia.
  - exists (repeat 0 (align8 (n * sz))). split; [exact E|]. rewrite repeat_length. apply align8_ge.
Qed.
Lemma from_ok h l data : shaped l -> Z.of_nat (length l) <= 2 ^ 30 -> (exists t, data = concat l ++ t) ->
  exists h' a, array_from h data sz (length l) = Ok (h', a) /\ repr h' a l /\ blk a = length h /\
  length h' = S (length h) /\ forall c, (c < length h)%nat -> nth_error h' c = nth_error h c.
Proof.
  intros Hs Hl (t & ->). unfold array_from. set (n := if (0 <? length l)%nat then length l else MIN_CAP).
  assert (Hn : (length l <= n)%nat) by (subst n; destruct (0 <? length l)%nat eqn:X; lia).
  destruct (alloc_at h (n * sz)) as (E & L & F). destruct (alloc h (n * sz)) as [h1 b] eqn:Ea. cbn [fst] in E, L, F.
  assert (b = length h) as -> by (unfold alloc in Ea; congruence).
  unfold from_value. rewrite app_length, (concat_len l Hs). replace (_ <=? _)%nat with true by lia. cbn [rbind].
  rewrite firstn_app_exact by (rewrite concat_len by exact Hs; reflexivity).
  pose proof (align8_ge (n * sz)) as Hal.
  assert (Hms : (length l * sz <= n * sz)%nat) by (apply Nat.mul_le_mono_r; exact Hn).
  assert (Sp : repeat 0 (align8 (n * sz)) = [] ++ repeat 0 (length l * sz) ++ repeat 0 (align8 (n * sz) - length l * sz)).
  { cbn [app]. rewrite <- repeat_app. f_equal. lia. }
  rewrite Sp in E. destruct (wr_at h1 (length h) [] _ _ (concat l) 0 E eq_refl ltac:(rewrite repeat_length; apply concat_len; exact Hs))
    as (h2 & W & N & L2 & F2). rewrite W. cbn [rmap]. eexists. eexists. split; [reflexivity|]. split; [|split; [reflexivity|split; [lia|]]].
  - constructor; cbn; try reflexivity; try assumption.
    + subst n. unfold MIN_CAP. destruct (0 <? length l)%nat eqn:X; lia.
    + subst n. unfold MIN_CAP. destruct (0 <? length l)%nat eqn:X; lia.
    + eexists. split; [exact N|]. cbn. rewrite app_length, repeat_length, concat_len by exact Hs. lia.
  - intros c Hc. rewrite F2 by lia. apply F. exact Hc.
Qed.
Lemma read_all h a l : repr h a l -> rd h (blk a) 0 (alen a * esz a) = Ok (concat l).
Proof.
  intros [A B C D E F P (r & N & Hr)]. apply rd_at with (pre := []) (post := r); [exact N|reflexivity|]. rewrite A, B, concat_len by exact D. reflexivity.
Qed.
Lemma read_seg h a l1 l2 l3 : repr h a (l1 ++ l2 ++ l3) -> forall off n, off = (length l1 * sz)%nat -> n = (length l2 * sz)%nat ->
  rd h (blk a) off n = Ok (concat l2).
Proof.
  intros [A B C D E F P (r & N & Hr)] off n -> ->. apply shaped_app in D. destruct D as [D1 D]. apply shaped_app in D. destruct D as [D2 D3].
  apply rd_at with (pre := concat l1) (post := concat l3 ++ r).
  - rewrite N, !concat_app, <- !app_assoc. reflexivity.
  - symmetry. apply concat_len. exact D1.
  - symmetry. apply concat_len. exact D2.
Qed.
Lemma read_one h a l i e : repr h a l -> nth_error l i = Some e -> rd h (blk a) (i * esz a) sz = Ok e.
Proof.
  intros R Hi. rewrite (r_esz _ _ _ R). destruct (nth_error_split l i Hi) as (l1 & l2 & -> & L1).
  replace e with (concat [e]) by (cbn; apply app_nil_r). eapply read_seg with (l1 := l1) (l2 := [e]) (l3 := l2).
  - exact R.
  - rewrite L1. reflexivity.
  - cbn. lia.
Qed.
(** writing one element in place *)
Lemma copy_ok h a l : repr h a l -> Z.of_nat (length l) <= 2 ^ 30 -> exists h' a', array_copy h a = Ok (h', a') /\ repr h' a' l /\ blk a' = length h /\
  length h' = S (length h) /\ forall c, (c < length h)%nat -> nth_error h' c = nth_error h c.
Proof.
  intros R Hl. unfold array_copy. rewrite (read_all h a l R). cbn [rbind]. rewrite (r_esz _ _ _ R), (r_len _ _ _ R).
  apply from_ok; [apply R|exact Hl|exists []; rewrite app_nil_r; reflexivity].
Qed.
(** the state after an operation on a that may have moved its storage *)
Definition moved (h h' : heap) (a a' : arr) : Prop := frame h h' (blk a) /\ (blk a' = blk a \/ length h <= blk a')%nat.
Lemma grow_ok h a l : repr h a l -> Z.of_nat (length l) < 2 ^ 29 -> exists h' a', grow h a = Ok (h', a') /\ repr h' a' l /\
  (length l < acap a')%nat /\ moved h h' a a'.
Proof.
  intros R Hl. unfold grow. pose proof (r_len _ _ _ R) as HL. pose proof (r_esz _ _ _ R) as HE. pose proof (r_fit _ _ _ R) as HF.
  destruct (acap a <=? alen a)%nat eqn:Hg.
  - assert (HC : acap a = length l) by lia. unfold INT32_MAX. replace (2147483647 <? Z.of_nat (acap a) * 2) with false by lia.
    set (n := if (acap a <? MIN_CAP)%nat then MIN_CAP else (acap a * 2)%nat).
    assert (Hn : (length l < n)%nat) by (subst n; unfold MIN_CAP; pose proof (r_pos _ _ _ R); destruct (acap a <? 4)%nat eqn:X; lia).
    assert (Hn2 : Z.of_nat n <= 2 ^ 30) by (subst n; unfold MIN_CAP; destruct (acap a <? 4)%nat eqn:X; lia).
    destruct (alloc_at h (n * esz a)) as (E & L & F). destruct (alloc h (n * esz a)) as [h1 b] eqn:Ea. cbn [fst] in E, L, F.
    assert (b = length h) as -> by (unfold alloc in Ea; congruence).
    assert (R1 : repr h1 a l). { apply (repr_frame h h1 (length h)); [split; [lia|intros c Hc _; apply F; exact Hc]|pose proof (repr_lt _ _ _ R); lia|exact R]. }
    rewrite (read_all h1 a l R1). cbn [rbind].
    pose proof (align8_ge (n * esz a)) as Hal. pose proof (r_shape _ _ _ R) as Hs.
    assert (Hms : (length l * sz <= n * esz a)%nat) by (rewrite HE; apply Nat.mul_le_mono_r; lia).
    assert (Sp : repeat 0 (align8 (n * esz a)) = [] ++ repeat 0 (length l * sz) ++ repeat 0 (align8 (n * esz a) - length l * sz)).
    { cbn [app]. rewrite <- repeat_app. f_equal. lia. }
    rewrite Sp in E. destruct (wr_at h1 (length h) [] _ _ (concat l) 0 E eq_refl ltac:(rewrite repeat_length; apply concat_len; exact Hs))
      as (h2 & W & N & L2 & F2). rewrite W. cbn [rmap]. eexists. eexists. split; [reflexivity|]. split; [|split; [cbn; exact Hn|]].
    + constructor; cbn; try assumption; try apply R; try lia.
      eexists. split; [exact N|]. cbn. rewrite app_length, repeat_length, concat_len by exact Hs. rewrite HE in *. lia.
    + split; [split; [lia|]|right; cbn; lia]. intros c Hc Hne. rewrite F2 by lia. apply F. exact Hc.
  - exists h, a. split; [reflexivity|]. split; [exact R|]. split; [lia|]. split; [apply frame_refl|left; reflexivity].
Qed.
Lemma value_ok v : length v = sz -> from_value v sz = Ok v.
Proof. intros H. unfold from_value. replace (_ <=? _)%nat with true by lia. rewrite <- H at 1. rewrite firstn_all. reflexivity. Qed.
Lemma append_ok h a l v : repr h a l -> length v = sz -> (length l < acap a)%nat ->
  exists h', wr h (blk a) (alen a * esz a) v = Ok h' /\ repr h' (with_len a (alen a + 1)) (l ++ [v]) /\ frame h h' (blk a).
Proof.
  intros R Hv Hc. pose proof (r_len _ _ _ R) as HL. pose proof (r_esz _ _ _ R) as HE. destruct (r_mem _ _ _ R) as (r & N & Hr).
  pose proof (concat_len l (r_shape _ _ _ R)) as CL. rewrite app_length, CL in Hr.
  assert (Hroom : (sz <= length r)%nat).
  { assert ((S (length l) * sz <= acap a * sz)%nat) by (apply Nat.mul_le_mono_r; lia). cbn in H. lia. }
  destruct (wr_at h (blk a) (concat l) (firstn sz r) (skipn sz r) v (alen a * esz a)) as (h' & W & N' & L' & F').
  - rewrite firstn_skipn. exact N.
  - rewrite CL, HL, HE. reflexivity.
  - rewrite firstn_length. lia.
  - exists h'. split; [exact W|]. split.
    + destruct R as [A B C D E F P _]. constructor; cbn; try assumption.
      * rewrite app_length. cbn. lia.
      * apply shaped_app. split; [exact D|]. constructor; [exact Hv|constructor].
      * rewrite app_length. cbn. lia.
      * exists (skipn sz r). rewrite concat_app. cbn [concat]. rewrite app_nil_r, <- app_assoc. split; [exact N'|].
        rewrite !app_length, CL, skipn_length, Hv. lia.
    + split; [lia|]. intros c _ Hne. apply F'. exact Hne.
Qed.
Lemma moved_refl h a : moved h h a a. Proof. split; [apply frame_refl|left; reflexivity]. Qed.
Lemma moved_trans h1 h2 h3 a1 a2 a3 : moved h1 h2 a1 a2 -> moved h2 h3 a2 a3 -> moved h1 h3 a1 a3.
Proof.
  intros [F1 B1] [F2 B2]. split.
  - eapply frame_trans; [exact F1|exact F2|]. destruct B1; lia.
  - destruct F1 as [L _]. lia.
Qed.
Lemma push_ok h a l v : repr h a l -> length v = sz -> Z.of_nat (length l) < 2 ^ 29 ->
  exists h' a', array_push h a v = Ok (h', a') /\ repr h' a' (l ++ [v]) /\ moved h h' a a'.
Proof.
  intros R Hv Hl. unfold array_push. rewrite (r_iter _ _ _ R). cbn [Z.ltb Z.compare].
  destruct (grow_ok h a l R Hl) as (h1 & a1 & E & R1 & Hc & M1). rewrite E. cbn [rbind].
  rewrite (r_esz _ _ _ R1), (value_ok v Hv). cbn [rbind].
  destruct (append_ok h1 a1 l v R1 Hv Hc) as (h2 & W & R2 & F2). rewrite (r_esz _ _ _ R1) in W. rewrite W. cbn [rmap].
  eexists. eexists. split; [reflexivity|]. split; [exact R2|]. eapply moved_trans; [exact M1|]. split; [exact F2|left; reflexivity].
Qed.
Lemma set_ok h a l i v : repr h a l -> length v = sz -> (i < length l)%nat ->
  exists h', array_set h a (Z.of_nat i) v = Ok h' /\ repr h' a (update i v l) /\ frame h h' (blk a).
Proof.
  intros R Hv Hi. unfold array_set. rewrite (r_iter _ _ _ R), (r_len _ _ _ R). cbn [Z.ltb Z.compare].
  replace ((Z.of_nat i <? 0) || _) with false by lia. rewrite (r_esz _ _ _ R), (value_ok v Hv). cbn [rbind]. rewrite Nat2Z.id.
  destruct (nth_error l i) as [e|] eqn:Ee; [|apply nth_error_None in Ee; lia].
  destruct (nth_error_split l i Ee) as (l1 & l2 & -> & L1). destruct R as [A B C D E F P (r & N & Hr)].
  apply shaped_app in D. destruct D as [D1 D2]. inversion D2 as [|x y D3 D4]; subst x y.
  destruct (wr_at h (blk a) (concat l1) e (concat l2 ++ r) v (i * sz)) as (h' & W & N' & L' & F').
  - rewrite N, concat_app. cbn [concat]. rewrite <- !app_assoc. reflexivity.
  - rewrite concat_len by exact D1. rewrite L1. reflexivity.
  - lia.
  - exists h'. split; [exact W|]. rewrite <- L1, update_app. split.
    + rewrite app_length in *. cbn [length] in *. constructor; try assumption.
      * rewrite app_length. cbn. lia.
      * apply shaped_app. split; [exact D1|]. constructor; assumption.
      * rewrite app_length. cbn. lia.
      * exists r. rewrite concat_app in *. cbn [concat] in *. rewrite <- !app_assoc. split; [exact N'|].
        rewrite !app_length in *. lia.
    + split; [lia|]. intros c _ Hne. apply F'. exact Hne.
Qed.
Lemma insert_ok h a l i v : repr h a l -> length v = sz -> (i <= length l)%nat -> Z.of_nat (length l) < 2 ^ 29 ->
  exists h' a', insert_at h a (Z.of_nat i) v = Ok (h', a') /\ repr h' a' (insert_nth i v l) /\ moved h h' a a'.
Proof.
  intros R Hv Hi Hl. unfold insert_at. rewrite (r_iter _ _ _ R), (r_len _ _ _ R). cbn [Z.ltb Z.compare].
  replace ((Z.of_nat i <? 0) || _) with false by lia. rewrite Nat2Z.id.
  destruct (grow_ok h a l R Hl) as (h1 & a1 & E & R1 & Hc & M1). rewrite E. cbn [rbind].
  pose proof (r_esz _ _ _ R1) as HE. pose proof (r_len _ _ _ R1) as HL. rewrite HE, HL.
  set (A := firstn i l). set (T := skipn i l).
  assert (EL : l = A ++ T) by (symmetry; apply firstn_skipn).
  assert (LA : length A = i) by (subst A; rewrite firstn_length; lia).
  assert (LT : length T = (length l - i)%nat) by (subst T; apply skipn_length).
  assert (Rd : rd h1 (blk a1) (i * sz) ((length l - i) * sz) = Ok (concat T)).
  { eapply read_seg with (l1 := A) (l2 := T) (l3 := []); [rewrite app_nil_r, <- EL; exact R1|rewrite LA; reflexivity|rewrite LT; reflexivity]. }
  rewrite Rd. cbn [rbind].
  destruct R1 as [r1 r2 r3 r4 r5 r6 r7 (r & N & Hr)].
  pose proof r4 as HS. rewrite EL in HS. apply shaped_app in HS. destruct HS as [SA ST].
  pose proof (concat_len A SA) as CA. pose proof (concat_len T ST) as CT. pose proof (concat_len l r4) as CL.
  assert (Hroom : (sz <= length r)%nat).
  { rewrite app_length, CL in Hr. assert ((S (length l) * sz <= acap a1 * sz)%nat) by (apply Nat.mul_le_mono_r; lia). cbn in H. lia. }
  assert (EC : concat l = concat A ++ concat T) by (rewrite EL at 1; apply concat_app).
  (* the memmove *)
  assert (MV : exists h2, (if (i <? length l)%nat then wr h1 (blk a1) ((i + 1) * sz) (concat T) else Ok h1) = Ok h2 /\
    (exists g, length g = sz /\ nth_error h2 (blk a1) = Some (concat A ++ g ++ concat T ++ skipn sz r)) /\ frame h1 h2 (blk a1)).
  { destruct (i <? length l)%nat eqn:Hil.
    - assert (SPL : concat T ++ r = firstn sz (concat T ++ r) ++ firstn (length (concat T)) (skipn sz (concat T ++ r)) ++ skipn sz r).
      { rewrite <- (firstn_skipn sz (concat T ++ r)) at 1. f_equal. rewrite <- (firstn_skipn (length (concat T)) (skipn sz (concat T ++ r))) at 1. f_equal.
        rewrite skipn_twice. rewrite <- (skipn_app_exact (concat T) r (length (concat T)) eq_refl) at 2. rewrite skipn_twice. f_equal. lia. }
      destruct (wr_at h1 (blk a1) (concat A ++ firstn sz (concat T ++ r)) (firstn (length (concat T)) (skipn sz (concat T ++ r))) (skipn sz r) (concat T) ((i + 1) * sz))
        as (h2 & W & N2 & L2 & F2).
      + rewrite N, EC, <- app_assoc. f_equal. rewrite SPL at 1. rewrite <- app_assoc. reflexivity.
      + rewrite app_length, CA, LA, firstn_length, app_length. lia.
      + rewrite firstn_length, skipn_length, app_length. lia.
      + exists h2. split; [exact W|]. split.
        * exists (firstn sz (concat T ++ r)). split; [rewrite firstn_length, app_length; lia|]. rewrite N2, <- app_assoc. reflexivity.
        * split; [lia|]. intros c _ Hne. apply F2. exact Hne.
    - assert (T = []) as HT by (apply length_zero_iff_nil; lia). exists h1. split; [reflexivity|]. split; [|apply frame_refl].
      exists (firstn sz r). split; [rewrite firstn_length; lia|]. rewrite N, EC, HT. cbn [concat app]. rewrite app_nil_r.
      rewrite firstn_skipn. reflexivity. }
  destruct MV as (h2 & Emv & (g & Lg & N2) & F2). rewrite Emv. cbn [rbind]. rewrite (value_ok v Hv). cbn [rbind].
  destruct (wr_at h2 (blk a1) (concat A) g (concat T ++ skipn sz r) v (i * sz) N2 ltac:(rewrite CA, LA; reflexivity) ltac:(lia)) as (h3 & W & N3 & L3 & F3).
  rewrite W. cbn [rmap]. eexists. eexists. split; [reflexivity|]. split.
  - assert (LL : length (insert_nth i v l) = S (length l)) by (unfold insert_nth; fold A T; rewrite app_length; cbn [length]; lia).
    constructor; cbn; try assumption.
    + lia.
    + unfold insert_nth. fold A T. apply shaped_app. split; [exact SA|]. constructor; [exact Hv|exact ST].
    + lia.
    + exists (skipn sz r). unfold insert_nth. fold A T. rewrite concat_app. cbn [concat]. rewrite <- !app_assoc. split; [exact N3|].
      rewrite app_length, CL in Hr. rewrite !app_length, skipn_length, CA, CT, LA, LT, Hv.
      assert ((length l * sz = i * sz + (length l - i) * sz)%nat) by (rewrite <- Nat.mul_add_distr_r; f_equal; lia). lia.
  - eapply moved_trans; [exact M1|]. split; [|left; reflexivity]. eapply frame_trans; [exact F2| |left; reflexivity].
    split; [lia|]. intros c _ Hne. apply F3. exact Hne.
Qed.
Lemma remove_ok h a l i : repr h a l -> (i < length l)%nat ->
  exists h' a', remove_at h a (Z.of_nat i) = Ok (h', a') /\ repr h' a' (delete_nth i l) /\ moved h h' a a'.
Proof.
  intros R Hi. unfold remove_at. rewrite (r_iter _ _ _ R). cbn [Z.ltb Z.compare].
  pose proof (r_len _ _ _ R) as HL. pose proof (r_esz _ _ _ R) as HE. rewrite HL.
  replace ((Z.of_nat i <? 0) || _) with false by lia. rewrite Nat2Z.id, HE.
  destruct (nth_error l i) as [e|] eqn:Ee; [|apply nth_error_None in Ee; lia].
  destruct (nth_error_split l i Ee) as (l1 & l2 & El & L1).
  assert (DEL : delete_nth i l = l1 ++ l2).
  { unfold delete_nth. rewrite El, <- L1, firstn_app_exact by reflexivity. f_equal.
    change (l1 ++ e :: l2) with (l1 ++ [e] ++ l2). rewrite app_assoc. apply skipn_app_exact. rewrite app_length. cbn. lia. }
  assert (LL : length l = (length l1 + S (length l2))%nat) by (rewrite El, app_length; reflexivity).
  assert (Rd : rd h (blk a) ((i + 1) * sz) ((length l - 1 - i) * sz) = Ok (concat l2)).
  { eapply read_seg with (l1 := l1 ++ [e]) (l2 := l2) (l3 := []).
    - rewrite app_nil_r, <- app_assoc. cbn [app]. rewrite <- El. exact R.
    - rewrite app_length. cbn [length]. f_equal. lia.
    - f_equal. lia. }
  rewrite Rd. cbn [rbind]. destruct R as [r1 r2 r3 r4 r5 r6 r7 (r & N & Hr)]. rewrite El in r4. apply shaped_app in r4. destruct r4 as [S1 S2].
  inversion S2 as [|x y S3 S4]; subst x y.
  pose proof (concat_len l1 S1) as C1. pose proof (concat_len l2 S4) as C2.
  set (B := e ++ concat l2 ++ r).
  destruct (wr_at h (blk a) (concat l1) (firstn (length (concat l2)) B) (skipn (length (concat l2)) B) (concat l2) (i * sz)) as (h' & W & N' & L' & F').
  - rewrite firstn_skipn, N, El, concat_app. cbn [concat]. subst B. rewrite <- !app_assoc. reflexivity.
  - rewrite C1, L1. reflexivity.
  - rewrite firstn_length. subst B. rewrite !app_length. lia.
  - rewrite W. cbn [rmap]. eexists. eexists. split; [reflexivity|]. rewrite DEL. split.
    + constructor; cbn; try assumption.
      * rewrite app_length. lia.
      * apply shaped_app. split; assumption.
      * rewrite app_length. lia.
      * eexists. rewrite concat_app, <- app_assoc. split; [exact N'|]. rewrite El, concat_app in Hr. cbn [concat] in Hr.
        subst B. rewrite !app_length in *. rewrite skipn_length, !app_length. lia.
    + split; [|left; reflexivity]. split; [lia|]. intros c _ Hne. apply F'. exact Hne.
Qed.
Lemma clear_ok h a l : repr h a l -> exists a', clear a = Ok a' /\ repr h a' [] /\ blk a' = blk a.
Proof.
  intros R. unfold clear. rewrite (r_iter _ _ _ R). cbn [Z.ltb Z.compare]. eexists. split; [reflexivity|]. split; [|reflexivity].
  destruct R as [A B C D E F P (r & N & Hr)]. constructor; cbn; try assumption; try reflexivity; try constructor; try lia.
  exists (concat l ++ r). split; assumption.
Qed.
Lemma push_n_ok v n : length v = sz -> forall h a l, repr h a l -> Z.of_nat (length l + n) <= 2 ^ 29 ->
  exists h' a', push_n h a v n = Ok (h', a') /\ repr h' a' (l ++ repeat v n) /\ moved h h' a a'.
Proof.
  intros Hv. induction n as [|n IH]; intros h a l R Hl.
  - exists h, a. rewrite app_nil_r. split; [reflexivity|]. split; [exact R|apply moved_refl].
  - cbn [push_n]. destruct (push_ok h a l v R Hv ltac:(lia)) as (h1 & a1 & E & R1 & M1). rewrite E. cbn [rbind fst snd].
    destruct (IH h1 a1 (l ++ [v]) R1 ltac:(rewrite app_length; cbn; lia)) as (h2 & a2 & E2 & R2 & M2).
    exists h2, a2. split; [exact E2|]. split; [|eapply moved_trans; eassumption]. rewrite <- app_assoc in R2. exact R2.
Qed.
Lemma fill_ok h a l v n : repr h a l -> length v = sz -> n <= 2 ^ 29 ->
  exists h' a', fill h a v n = Ok (h', a') /\ repr h' a' (repeat v (Z.to_nat n)) /\ moved h h' a a'.
Proof.
  intros R Hv Hn. unfold fill. destruct (clear_ok h a l R) as (a1 & E & R1 & B1). rewrite E. cbn [rbind].
  destruct (push_n_ok v (Z.to_nat n) Hv h a1 [] R1 ltac:(cbn; lia)) as (h2 & a2 & E2 & R2 & M2). exists h2, a2.
  split; [exact E2|]. split; [exact R2|]. destruct M2 as [F2 B2]. unfold moved. rewrite B1 in F2, B2. split; assumption.
Qed.
(** a result array being built beside sources in other blocks *)
Lemma push_elems_ok a l : forall is h r m, repr h a l -> repr h r m -> blk r <> blk a -> (0 < sz)%nat ->
  (forall i, In i is -> (i < length l)%nat) -> Z.of_nat (length m + length is) <= 2 ^ 29 ->
  exists h' r', push_elems h r a is = Ok (h', r') /\ repr h' r' (m ++ map (fun i => nth i l []) is) /\ moved h h' r r'.
Proof.
  induction is as [|i is IH]; intros h r m Ra Rr Hb Hz Hi Hl.
  - exists h, r. cbn. rewrite app_nil_r. split; [reflexivity|]. split; [exact Rr|apply moved_refl].
  - cbn [push_elems]. assert (Hil : (i < length l)%nat) by (apply Hi; left; reflexivity).
    assert (Ei : nth_error l i = Some (nth i l [])) by (apply nth_error_nth'; exact Hil).
    rewrite (r_esz _ _ _ Rr), (read_one h a l i _ Ra Ei). cbn [rbind].
    assert (Hv : length (nth i l []) = sz).
    { pose proof (r_shape _ _ _ Ra) as S. unfold shaped in S. rewrite Forall_forall in S. apply S. apply nth_In. exact Hil. }
    cbn [length] in Hl. destruct (push_ok h r m _ Rr Hv ltac:(lia)) as (h1 & r1 & E & R1 & M1). rewrite E. cbn [rbind fst snd].
    assert (Ra1 : repr h1 a l) by (apply (repr_frame h h1 (blk r)); [apply M1|lia|exact Ra]).
    assert (Hb1 : blk r1 <> blk a) by (pose proof (repr_lt _ _ _ Ra); destruct M1 as [_ [X|X]]; lia).
    destruct (IH h1 r1 (m ++ [nth i l []]) Ra1 R1 Hb1 Hz ltac:(intros j Hj; apply Hi; right; exact Hj) ltac:(rewrite app_length; cbn; lia))
      as (h2 & r2 & E2 & R2 & M2).
    exists h2, r2. split; [exact E2|]. split; [|eapply moved_trans; eassumption]. cbn [map]. rewrite <- app_assoc in R2. exact R2.
Qed.
Lemma map_nth_seq {A} (l : list A) d : map (fun i => nth i l d) (seq 0 (length l)) = l.
Proof.
  apply nth_ext with d d; rewrite map_length, seq_length; [reflexivity|]. intros n Hn.
  rewrite (nth_indep _ d (nth 0 l d)) by (rewrite map_length, seq_length; exact Hn).
  rewrite (map_nth (fun i => nth i l d)). rewrite seq_nth by exact Hn. reflexivity.
Qed.
(** an operation that builds its result in fresh storage *)
Definition fresh (h h' : heap) (r : arr) : Prop := (length h <= blk r)%nat /\ (length h <= length h')%nat /\
  forall c, (c < length h)%nat -> nth_error h' c = nth_error h c.
Lemma fresh_keeps h h' r a l : fresh h h' r -> repr h a l -> repr h' a l.
Proof.
  intros (_ & L & F) R. apply (repr_frame h h' (length h)); [split; [exact L|intros c Hc _; apply F; exact Hc]| |exact R].
  pose proof (repr_lt _ _ _ R). lia.
Qed.
Lemma fresh_moved h h1 h2 r r2 : fresh h h1 r -> moved h1 h2 r r2 -> fresh h h2 r2.
Proof.
  intros (B & L & F) ((L2 & F2) & B2). split; [destruct B2; lia|]. split; [lia|]. intros c Hc. rewrite F2 by lia. apply F. exact Hc.
Qed.
Lemma reverse_ok h a l : repr h a l -> (0 < sz)%nat -> Z.of_nat (length l) <= 2 ^ 29 ->
  exists h' r, reverse h a = Ok (h', r) /\ repr h' r (rev l) /\ fresh h h' r.
Proof.
  intros R Hz Hl. unfold reverse. rewrite (r_esz _ _ _ R), (r_len _ _ _ R).
  destruct (new_ok h (length l) ltac:(lia)) as (h1 & r1 & E & R1 & B1 & L1 & F1). rewrite E.
  assert (FR : fresh h h1 r1) by (split; [lia|split; [lia|exact F1]]).
  destruct (push_elems_ok a l (rev (seq 0 (length l))) h1 r1 [] (fresh_keeps _ _ _ _ _ FR R) R1) as (h2 & r2 & E2 & R2 & M2).
  - pose proof (repr_lt _ _ _ R). lia.
  - exact Hz.
  - intros i Hi. apply in_rev in Hi. apply in_seq in Hi. lia.
  - rewrite rev_length, seq_length. cbn. lia.
  - exists h2, r2. split; [exact E2|]. split; [|eapply fresh_moved; eassumption].
    rewrite map_rev, map_nth_seq in R2. exact R2.
Qed.
Lemma slice_ok h a l i j : repr h a l -> exists h' r, slice h a i j = Ok (h', r) /\ repr h' r (sublist l i j) /\ fresh h h' r.
Proof.
  intros R. unfold slice. rewrite (r_len _ _ _ R), (r_esz _ _ _ R). pose proof (r_fit _ _ _ R) as HF. pose proof (r_cap _ _ _ R) as HC.
  set (st := if i <? 0 then 0 else i). set (en := if Z.of_nat (length l) <? j then Z.of_nat (length l) else j).
  assert (Hst : st = Z.max 0 i) by (subst st; destruct (i <? 0) eqn:X; lia).
  destruct (en <=? st) eqn:Hle.
  - destruct (new_ok h 1 ltac:(lia)) as (h1 & r1 & E & R1 & B1 & L1 & F1). exists h1, r1. rewrite E. split; [reflexivity|].
    assert (HN : sublist l i j = []).
    { unfold sublist. destruct (Z.of_nat (length l) <? j) eqn:X; subst en.
      - rewrite skipn_all2 by lia. apply firstn_nil.
      - replace (Z.to_nat (j - Z.max 0 i)) with O by lia. reflexivity. }
    rewrite HN. split; [exact R1|]. split; [lia|split; [lia|exact F1]].
  - set (n := Z.to_nat (en - st)).
    assert (HN : sublist l i j = firstn n (skipn (Z.to_nat st) l)).
    { unfold sublist. replace (Z.to_nat i) with (Z.to_nat st) by lia. destruct (Z.of_nat (length l) <? j) eqn:X; subst en n.
      - rewrite !firstn_all2 by (rewrite skipn_length; lia). reflexivity.
      - f_equal. lia. }
    set (A := firstn (Z.to_nat st) l). set (B := firstn n (skipn (Z.to_nat st) l)). set (C := skipn n (skipn (Z.to_nat st) l)).
    assert (El : l = A ++ B ++ C) by (subst A B C; rewrite firstn_skipn, firstn_skipn; reflexivity).
    assert (Hen : en <= Z.of_nat (length l)) by (subst en; destruct (Z.of_nat (length l) <? j) eqn:X; lia).
    assert (LB : length B = n) by (subst B; rewrite firstn_length, skipn_length; lia).
    assert (LA : length A = Z.to_nat st) by (subst A; rewrite firstn_length; lia).
    assert (Rd : rd h (blk a) (Z.to_nat st * sz) (n * sz) = Ok (concat B)).
    { eapply read_seg with (l1 := A) (l2 := B) (l3 := C); [rewrite <- El; exact R|rewrite LA; reflexivity|rewrite LB; reflexivity]. }
    rewrite Rd. cbn [rbind]. rewrite HN. fold B. rewrite <- LB.
    assert (SB : shaped B). { pose proof (r_shape _ _ _ R) as S. rewrite El in S. apply shaped_app in S. destruct S as [_ S]. apply shaped_app in S. tauto. }
    destruct (from_ok h B (concat B) SB ltac:(lia) ltac:(exists []; rewrite app_nil_r; reflexivity)) as (h1 & r1 & E & R1 & B1 & L1 & F1).
    exists h1, r1. split; [exact E|]. split; [exact R1|]. split; [lia|split; [lia|exact F1]].
Qed.
Lemma concat_ok h a b l m : repr h a l -> repr h b m -> (0 < sz)%nat -> Z.of_nat (length l + length m) <= 2 ^ 29 ->
  exists h' r, concat_arrays h a b = Ok (h', r) /\ repr h' r (l ++ m) /\ fresh h h' r.
Proof.
  intros Ra Rb Hz Hl. unfold concat_arrays. destruct (copy_ok h a l Ra ltac:(lia)) as (h1 & r1 & E & R1 & B1 & L1 & F1). rewrite E. cbn [rbind fst snd].
  assert (FR : fresh h h1 r1) by (split; [lia|split; [lia|exact F1]]).
  rewrite (r_len _ _ _ Rb).
  destruct (push_elems_ok b m (seq 0 (length m)) h1 r1 l (fresh_keeps _ _ _ _ _ FR Rb) R1) as (h2 & r2 & E2 & R2 & M2).
  - pose proof (repr_lt _ _ _ Rb). lia.
  - exact Hz.
  - intros i Hi. apply in_seq in Hi. lia.
  - rewrite seq_length. lia.
  - exists h2, r2. split; [exact E2|]. rewrite map_nth_seq in R2. split; [exact R2|eapply fresh_moved; eassumption].
Qed.
(** search loops *)
Fixpoint find_index (p : list Z -> bool) (l : elems) (i : nat) : option nat :=
  match l with [] => None | e :: l => if p e then Some i else find_index p l (S i) end.
Lemma first_match_ok h a p : forall l2 l1, repr h a (l1 ++ l2) ->
  first_match h a sz p (length l2) (length l1) = Ok (find_index p l2 (length l1)).
Proof.
  induction l2 as [|e l2 IH]; intros l1 R; [reflexivity|]. cbn [length first_match find_index].
  rewrite (read_one h a (l1 ++ e :: l2) (length l1) e R) by (rewrite nth_error_app2, Nat.sub_diag by lia; reflexivity). cbn [rbind].
  destruct (p e); [reflexivity|]. specialize (IH (l1 ++ [e])). rewrite <- app_assoc, app_length in IH. cbn [app length] in IH.
  rewrite Nat.add_1_r in IH. apply IH. exact R.
Qed.
Lemma find_index_none p l i : find_index p l i = None <-> existsb p l = false.
Proof. revert i. induction l as [|e l IH]; intros i; cbn; [tauto|]. destruct (p e); cbn; [split; discriminate|apply IH]. Qed.
Lemma dedup_loop_ok a : forall l2 l1 h r m, repr h a (l1 ++ l2) -> repr h r m -> blk r <> blk a -> Z.of_nat (length m + length l2) <= 2 ^ 29 ->
  exists h' r', dedup_loop h r a (length l2) (length l1) = Ok (h', r') /\ repr h' r' (m ++ first_occurrences m l2) /\ moved h h' r r'.
Proof.
  induction l2 as [|e l2 IH]; intros l1 h r m Ra Rr Hb Hl.
  - exists h, r. cbn. rewrite app_nil_r. split; [reflexivity|]. split; [exact Rr|apply moved_refl].
  - cbn [length dedup_loop]. rewrite (r_esz _ _ _ Ra).
    assert (Ei : nth_error (l1 ++ e :: l2) (length l1) = Some e) by (rewrite nth_error_app2, Nat.sub_diag by lia; reflexivity).
    pose proof (read_one h a _ _ e Ra Ei) as RE. rewrite (r_esz _ _ _ Ra) in RE. rewrite RE. cbn [rbind].
    rewrite (r_esz _ _ _ Rr), (r_len _ _ _ Rr). pose proof (first_match_ok h r (same_bytes e) m [] Rr) as FM. cbn [length] in FM.
    change (fun e0 : list Z => same_bytes e e0) with (same_bytes e). rewrite FM. cbn [rbind].
    assert (NEXT : forall r' h' m', repr h' a (l1 ++ e :: l2) -> repr h' r' m' -> blk r' <> blk a -> Z.of_nat (length m' + length l2) <= 2 ^ 29 ->
      exists h'' r'', dedup_loop h' r' a (length l2) (S (length l1)) = Ok (h'', r'') /\ repr h'' r'' (m' ++ first_occurrences m' l2) /\ moved h' h'' r' r'').
    { intros r' h' m' Ra' Rr' Hb' Hl'. specialize (IH (l1 ++ [e]) h' r' m'). rewrite <- app_assoc, app_length in IH. cbn [app length] in IH.
      rewrite Nat.add_1_r in IH. apply IH; assumption. }
    cbn [length] in Hl. cbn [first_occurrences]. destruct (find_index (same_bytes e) m 0) as [k|] eqn:Ef.
    + assert (X : existsb (same_bytes e) m = true). { destruct (existsb (same_bytes e) m) eqn:X; [reflexivity|]. apply (find_index_none _ _ 0%nat) in X. congruence. }
      rewrite X. apply NEXT; try assumption. lia.
    + apply find_index_none in Ef. rewrite Ef.
      assert (He : length e = sz). { pose proof (r_shape _ _ _ Ra) as S. apply shaped_app in S. destruct S as [_ S]. inversion S. assumption. }
      destruct (push_ok h r m e Rr He ltac:(lia)) as (h1 & r1 & E1 & R1 & M1). rewrite E1. cbn [rbind fst snd].
      destruct (NEXT r1 h1 (m ++ [e])) as (h2 & r2 & E2 & R2 & M2).
      * apply (repr_frame h h1 (blk r)); [apply M1|lia|exact Ra].
      * exact R1.
      * pose proof (repr_lt _ _ _ Ra). destruct M1 as [_ [X|X]]; lia.
      * rewrite app_length. cbn. lia.
      * exists h2, r2. split; [exact E2|]. split; [|eapply moved_trans; eassumption]. rewrite <- app_assoc in R2. exact R2.
Qed.
Lemma dedup_ok h a l : repr h a l -> Z.of_nat (length l) <= 2 ^ 29 ->
  exists h' r, deduplicate h a = Ok (h', r) /\ repr h' r (first_occurrences [] l) /\ fresh h h' r.
Proof.
  intros R Hl. unfold deduplicate. rewrite (r_esz _ _ _ R), (r_len _ _ _ R).
  destruct (new_ok h (length l) ltac:(lia)) as (h1 & r1 & E & R1 & B1 & L1 & F1). rewrite E.
  assert (FR : fresh h h1 r1) by (split; [lia|split; [lia|exact F1]]).
  destruct (dedup_loop_ok a l [] h1 r1 [] (fresh_keeps _ _ _ _ _ FR R) R1) as (h2 & r2 & E2 & R2 & M2).
  - pose proof (repr_lt _ _ _ R). lia.
  - cbn. lia.
  - exists h2, r2. split; [exact E2|]. split; [exact R2|eapply fresh_moved; eassumption].
Qed.
End Repr.
