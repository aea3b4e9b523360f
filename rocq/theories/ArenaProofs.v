(** Invariants of arena histories. *)
From Verif Require Import Base BaseFacts ArenaSpec ArenaModel.
From Coq Require Import Sorted.

Notation bl := (list block).
Definition usedat (bs : bl) (i : nat) : Z := match nth_error bs i with Some b => used b | None => 0 end.
Fixpoint sumused (bs : bl) (ch : list nat) : Z := match ch with [] => 0 | i :: ch => usedat bs i + sumused bs ch end.
Fixpoint path (bs : bl) (p : option nat) (ch : list nat) : Prop :=
  match ch with
  | [] => p = None
  | i :: r => p = Some i /\ exists b, nth_error bs i = Some b /\ freed b = false /\ path bs (next b) r
  end.

Lemma set_nth_length l i b : length (set_nth l i b) = length l.
Proof. revert i; induction l as [|x l IH]; intros [|i]; cbn; auto. Qed.
Lemma nth_set l i b j : nth_error (set_nth l i b) j = if (j =? i)%nat then (match nth_error l i with Some _ => Some b | None => None end) else nth_error l j.
Proof.
  revert i j; induction l as [|x l IH]; intros [|i] [|j]; cbn; auto. destruct (j =? i)%nat; reflexivity.
Qed.
Lemma path_ext bs bs' ch : forall p, (forall i b, In i ch -> nth_error bs i = Some b -> exists b', nth_error bs' i = Some b' /\ next b' = next b /\ freed b' = freed b) ->
  path bs p ch -> path bs' p ch.
Proof.
  induction ch as [|i ch IH]; intros p H; cbn; [auto|]. intros (-> & b & E & F & P). split; [reflexivity|].
  destruct (H i b (or_introl eq_refl) E) as (b' & E' & N & F'). exists b'. split; [exact E'|]. split; [congruence|]. rewrite N.
  apply IH; [|exact P]. intros j c Hj. apply H. now right.
Qed.
Lemma path_in bs ch : forall p i, path bs p ch -> In i ch -> exists b, nth_error bs i = Some b /\ freed b = false.
Proof.
  induction ch as [|j ch IH]; intros p i; [easy|]. cbn. intros (-> & b & E & F & P) [->|H]; [eauto|]. exact (IH _ _ P H).
Qed.
Lemma path_length bs ch p : path bs p ch -> NoDup ch -> (length ch <= length bs)%nat.
Proof.
  intros P N. rewrite <- (seq_length (length bs) 0). apply NoDup_incl_length; [exact N|]. intros i H.
  destruct (path_in _ _ _ _ P H) as (b & E & _). apply in_seq. split; [lia|]. apply nth_error_Some. congruence.
Qed.
Lemma sumused_ext bs bs' ch : (forall i, In i ch -> usedat bs' i = usedat bs i) -> sumused bs' ch = sumused bs ch.
Proof. induction ch as [|i ch IH]; cbn; intros H; [reflexivity|]. f_equal; [apply H; now left|]. apply IH. intros j Hj. apply H. now right. Qed.
Lemma sumused_app bs c1 c2 : sumused bs (c1 ++ c2) = sumused bs c1 + sumused bs c2.
Proof. induction c1 as [|i c1 IH]; cbn; [reflexivity|]. rewrite IH. lia. Qed.

(** chains *)
Definition same_rest (a a' : arena) : Prop :=
  mem a' = mem a /\ first a' = first a /\ current a' = current a /\ default_size a' = default_size a /\ destroyed a' = destroyed a /\ length (blocks a') = length (blocks a).
Lemma clear_chain_ok fuel : forall a p ch, path (blocks a) p ch -> NoDup ch -> (length ch < fuel)%nat ->
  exists a', clear_chain fuel a p = Ok a' /\ same_rest a a' /\
    forall i, nth_error (blocks a') i = if in_dec Nat.eq_dec i ch then option_map (fun b => with_used b 0) (nth_error (blocks a) i) else nth_error (blocks a) i.
Proof.
  induction fuel as [|fuel IH]; intros a p ch P N F; [lia|]. destruct ch as [|i ch]; cbn in P.
  - subst p. cbn. exists a. split; [reflexivity|]. split; [repeat split|]. reflexivity.
  - destruct P as (-> & b & E & Fr & P). cbn [clear_chain deref]. rewrite E, Fr. cbn [rbind].
    inversion_clear N as [|? ? Ni Nc].
    destruct (IH (put_block a i (with_used b 0)) (next b) ch) as (a' & -> & R & H).
    + eapply path_ext; [|exact P]. intros j c Hj Ej. cbn. rewrite nth_set. destruct (j =? i)%nat eqn:K; [|eauto].
      apply Nat.eqb_eq in K. subst j. easy.
    + exact Nc.
    + cbn in F. lia.
    + exists a'. split; [reflexivity|]. split.
      { destruct R as (R1 & R2 & R3 & R4 & R5 & R6). repeat split; try assumption. rewrite R6. cbn. apply set_nth_length. }
      intros j. rewrite H. cbn [put_block blocks]. rewrite nth_set, E.
      destruct (in_dec Nat.eq_dec j ch) as [J|J], (in_dec Nat.eq_dec j (i :: ch)) as [J2|J2]; try (exfalso; cbn in J2; tauto);
        destruct (j =? i)%nat eqn:K; try reflexivity; apply Nat.eqb_eq in K || apply Nat.eqb_neq in K.
      * subst j. easy.
      * subst j. rewrite E. reflexivity.
      * exfalso. destruct J2 as [J2|J2]; [now symmetry in J2|easy].
      * subst j. exfalso. apply J2. now left.
Qed.
Lemma free_chain_ok fuel : forall a p ch, path (blocks a) p ch -> NoDup ch -> (length ch < fuel)%nat ->
  exists a', free_chain fuel a p = Ok a' /\ same_rest a a' /\
    forall i, nth_error (blocks a') i = if in_dec Nat.eq_dec i ch then option_map (fun b => Blk (next b) (size b) (used b) true) (nth_error (blocks a) i) else nth_error (blocks a) i.
Proof.
  induction fuel as [|fuel IH]; intros a p ch P N F; [lia|]. destruct ch as [|i ch]; cbn in P.
  - subst p. cbn. exists a. split; [reflexivity|]. split; [repeat split|]. reflexivity.
  - destruct P as (-> & b & E & Fr & P). cbn [free_chain deref]. rewrite E, Fr. cbn [rbind].
    inversion_clear N as [|? ? Ni Nc].
    destruct (IH (put_block a i (Blk (next b) (size b) (used b) true)) (next b) ch) as (a' & -> & R & H).
    + eapply path_ext; [|exact P]. intros j c Hj Ej. cbn. rewrite nth_set. destruct (j =? i)%nat eqn:K; [|eauto].
      apply Nat.eqb_eq in K. subst j. easy.
    + exact Nc.
    + cbn in F. lia.
    + exists a'. split; [reflexivity|]. split.
      { destruct R as (R1 & R2 & R3 & R4 & R5 & R6). repeat split; try assumption. rewrite R6. cbn. apply set_nth_length. }
      intros j. rewrite H. cbn [put_block blocks]. rewrite nth_set, E.
      destruct (in_dec Nat.eq_dec j ch) as [J|J], (in_dec Nat.eq_dec j (i :: ch)) as [J2|J2]; try (exfalso; cbn in J2; tauto);
        destruct (j =? i)%nat eqn:K; try reflexivity; apply Nat.eqb_eq in K || apply Nat.eqb_neq in K.
      * subst j. easy.
      * subst j. rewrite E. reflexivity.
      * exfalso. destruct J2 as [J2|J2]; [now symmetry in J2|easy].
      * subst j. exfalso. apply J2. now left.
Qed.
Lemma wrap_u_add x y : wrap_u 64 (wrap_u 64 x + y) = wrap_u 64 (x + y).
Proof. unfold wrap_u. change (2 ^ 64) with 18446744073709551616. rewrite Zplus_mod_idemp_l. reflexivity. Qed.
Lemma sum_chain_ok fuel : forall a p ch t, path (blocks a) p ch -> (length ch < fuel)%nat ->
  sum_chain fuel a p (wrap_u 64 t) = Ok (wrap_u 64 (t + sumused (blocks a) ch)).
Proof.
  induction fuel as [|fuel IH]; intros a p ch t P F; [lia|]. destruct ch as [|i ch]; cbn in P.
  - subst p. cbn. now rewrite Z.add_0_r.
  - destruct P as (-> & b & E & Fr & P). cbn [sum_chain deref]. rewrite E, Fr. cbn [rbind]. rewrite wrap_u_add.
    rewrite (IH a (next b) ch); [|exact P|cbn in F; lia]. cbn. unfold usedat. rewrite E. do 2 f_equal. ring.
Qed.

(** the invariant *)
Definition BIG : Z := 4611686018427387904. (* 2^62 *)
Definition fine (b : block) : Prop := 0 <= used b <= size b /\ size b <= BIG + 8 /\ used b mod 8 = 0.
Definition placed (bs : bl) (ch : list nat) (cur : nat) (al : alloc) : Prop :=
  In (blk al) ch /\ (blk al <= cur)%nat /\ 0 <= off al /\ off al mod 8 = 0 /\ 0 <= len al /\ off al + round8 (len al) <= usedat bs (blk al).
Definition apart (a b : alloc) : Prop := blk a <> blk b \/ off a + round8 (len a) <= off b.
Definition mark_ok (bs : bl) (ch : list nat) (l : list alloc) (m : mark) (n : nat) : Prop :=
  exists b, fst m = Some b /\ In b ch /\ (n <= length l)%nat /\
    0 <= snd m /\ snd m mod 8 = 0 /\ (forall blk, nth_error bs b = Some blk -> snd m <= size blk) /\
    sumused bs (filter (fun i => i <? b)%nat ch) + snd m = total (firstn n l) /\
    forall al, In al (firstn n l) -> (blk al < b)%nat \/ (blk al = b /\ off al + round8 (len al) <= snd m).
(** the open scopes, innermost first: positions and counts go down *)
Fixpoint marks_ok (bs : bl) (ch : list nat) (l : list alloc) (top : nat) (topn : nat) (ms : list mark) (ns : list nat) : Prop :=
  match ms, ns with
  | [], [] => True
  | m :: ms, n :: ns => mark_ok bs ch l m n /\ (n <= topn)%nat /\ (exists b, fst m = Some b /\ (b <= top)%nat /\ marks_ok bs ch l b n ms ns)
  | _, _ => False
  end.
Definition matches_mem (a : arena) (al : alloc) : Prop := forall k, 0 <= k < len al -> mem a (blk al) (off al + k) = contents al k.
Record inv (simple : bool) (s : state) (ls : lives) (ch : list nat) (cur : nat) : Prop := Inv {
  i_alive : destroyed (ar s) = false;
  i_path : path (blocks (ar s)) (first (ar s)) ch;
  i_sorted : StronglySorted lt ch;
  i_cur : current (ar s) = Some cur;
  i_incur : In cur ch;
  i_after : forall i, In i ch -> (cur < i)%nat -> usedat (blocks (ar s)) i = 0;
  i_fine : forall i b, nth_error (blocks (ar s)) i = Some b -> fine b;
  i_default : 0 <= default_size (ar s) <= BIG;
  i_placed : forall al, In al (live ls) -> placed (blocks (ar s)) ch cur al;
  i_apart : ForallOrdPairs apart (live ls);
  i_total : sumused (blocks (ar s)) ch = total (live ls);
  i_mem : forall al, In al (live ls) -> matches_mem (ar s) al;
  i_marks : marks_ok (blocks (ar s)) ch (live ls) cur (length (live ls)) (marks s) (scopes ls);
  i_simple : simple = true -> ch = seq 0 (length (blocks (ar s))) /\ S cur = length (blocks (ar s)) }.

Lemma sorted_nodup ch : StronglySorted lt ch -> NoDup ch.
Proof.
  induction 1 as [|i ch S IH F]; constructor; [|exact IH]. intros H. rewrite Forall_forall in F. apply F in H. lia.
Qed.
Lemma deref_ok a i b : nth_error (blocks a) i = Some b -> freed b = false -> deref a (Some i) = Ok (i, b).
Proof. intros E F. cbn. now rewrite E, F. Qed.
Lemma round8_bound n : 0 <= n -> n <= round8 n /\ round8 n < n + 8 /\ round8 n mod 8 = 0.
Proof. unfold round8. intros H. lia. Qed.
Lemma align8_ok n : 0 <= n <= BIG -> align8 n = round8 n.
Proof.
  intros H. unfold align8, wrap_u, round8. change (2 ^ 64) with 18446744073709551616. rewrite Z.mod_small by (unfold BIG in H; lia).
  change (18446744073709551616 - 8) with (Z.ldiff (Z.ones 64) (Z.ones 3)).
  assert (L : forall x y z, Z.land x (Z.ldiff y z) = Z.ldiff (Z.land x y) z).
  { intros x y z. apply Z.bits_inj'. intros k _. rewrite Z.land_spec, !Z.ldiff_spec, Z.land_spec. now rewrite andb_assoc. }
  rewrite L, Z.land_ones, Z.ldiff_ones_r by lia. rewrite Z.shiftr_div_pow2, Z.shiftl_mul_pow2 by lia.
  change (2 ^ 64) with 18446744073709551616. rewrite Z.mod_small by (unfold BIG in H; lia). reflexivity.
Qed.

Lemma filter_all (f : nat -> bool) ch : (forall i, In i ch -> f i = true) -> filter f ch = ch.
Proof. induction ch as [|i ch IH]; cbn; intros H; [reflexivity|]. rewrite H by now left. f_equal. apply IH. intros j Hj. apply H. now right. Qed.
Lemma filter_none (f : nat -> bool) ch : (forall i, In i ch -> f i = false) -> filter f ch = [].
Proof. induction ch as [|i ch IH]; cbn; intros H; [reflexivity|]. rewrite H by now left. apply IH. intros j Hj. apply H. now right. Qed.
Lemma sumused_split bs c ch : StronglySorted lt ch -> In c ch ->
  sumused bs ch = sumused bs (filter (fun i => i <? c)%nat ch) + usedat bs c + sumused bs (filter (fun i => c <? i)%nat ch).
Proof.
  induction 1 as [|i ch S IH F]; [easy|]. rewrite Forall_forall in F. intros H. cbn [filter].
  destruct (i <? c)%nat eqn:A, (c <? i)%nat eqn:B; try lia.
  - cbn [sumused]. rewrite IH; [lia|]. destruct H as [H|H]; [lia|exact H].
  - exfalso. destruct H as [H|H]; [lia|]. apply F in H. lia.
  - assert (i = c) by lia. subst i. cbn [sumused].
    assert (E1 : filter (fun i => i <? c)%nat ch = []) by (apply filter_none; intros j Hj; apply F in Hj; lia).
    assert (E2 : filter (fun i => c <? i)%nat ch = ch) by (apply filter_all; intros j Hj; apply F in Hj; lia).
    rewrite E1, E2. cbn. lia.
Qed.
Lemma sumused_zero bs ch : (forall i, In i ch -> usedat bs i = 0) -> sumused bs ch = 0.
Proof. induction ch as [|i ch IH]; cbn; intros H; [reflexivity|]. rewrite H by now left. rewrite IH; [reflexivity|]. intros j Hj. apply H. now right. Qed.
Lemma filter_sorted f ch : StronglySorted lt ch -> StronglySorted lt (filter f ch).
Proof.
  induction 1 as [|i ch S IH F]; cbn; [constructor|]. destruct (f i); [|exact IH]. constructor; [exact IH|].
  rewrite Forall_forall in *. intros j Hj. apply filter_In in Hj. now apply F.
Qed.
Lemma filter_ext_in' f g (ch : list nat) : (forall i, In i ch -> f i = g i) -> filter f ch = filter g ch.
Proof. apply filter_ext_in. Qed.

Lemma marks_ok_move bs bs' ch ch' l l' ms : forall ns top top' topn topn',
  marks_ok bs ch l top topn ms ns ->
  (forall b, (b <= top)%nat -> In b ch -> In b ch' /\ filter (fun i => i <? b)%nat ch' = filter (fun i => i <? b)%nat ch /\
     (forall i, In i ch -> (i < b)%nat -> usedat bs' i = usedat bs i) /\
     (forall x', nth_error bs' b = Some x' -> exists x, nth_error bs b = Some x /\ size x' = size x)) ->
  (forall n, (n <= topn)%nat -> (n <= length l)%nat -> (n <= length l')%nat /\ total (firstn n l') = total (firstn n l) /\
     (forall al', In al' (firstn n l') -> exists al, In al (firstn n l) /\ blk al' = blk al /\ off al' = off al /\ len al' = len al)) ->
  (top <= top')%nat -> (topn <= topn')%nat -> marks_ok bs' ch' l' top' topn' ms ns.
Proof.
  induction ms as [|m ms IH]; intros [|n ns] top top' topn topn' M B L T1 T2; try easy.
  destruct M as ((b & E & Hb & Hn & U1 & U2 & U3 & U4 & U5) & Tn & b' & E' & Tb & M).
  assert (b' = b) by congruence. subst b'.
  destruct (B b Tb Hb) as (B1 & B2 & B3 & B4). destruct (L n Tn Hn) as (L1 & L2 & L3).
  split; [|split; [lia|]].
  - exists b. split; [exact E|]. split; [exact B1|]. split; [exact L1|]. split; [exact U1|]. split; [exact U2|]. split; [|split].
    + intros x' Ex. destruct (B4 x' Ex) as (x & Ex2 & ->). eauto.
    + rewrite B2, L2, <- U4. f_equal. apply sumused_ext. intros i Hi. apply filter_In in Hi. apply B3; [tauto|lia].
    + intros al' Hal. destruct (L3 al' Hal) as (al & H1 & H2 & H3 & H4). rewrite H2, H3, H4. now apply U5.
  - exists b. split; [exact E|]. split; [lia|].
    apply (IH ns b b n n); [exact M| | |lia|lia].
    + intros x Hx Hi. apply B; [lia|exact Hi].
    + intros x Hx Hi. apply L; lia.
Qed.

Lemma usedat_set bs i b j : nth_error bs i <> None -> usedat (set_nth bs i b) j = if (j =? i)%nat then used b else usedat bs j.
Proof. intros H. unfold usedat. rewrite nth_set. destruct (j =? i)%nat; [|reflexivity]. destruct (nth_error bs i); easy. Qed.
Lemma sumused_set bs c b ch : NoDup ch -> In c ch -> nth_error bs c <> None ->
  sumused (set_nth bs c b) ch = sumused bs ch - usedat bs c + used b.
Proof.
  intros N H E. induction N as [|i ch Ni N IH]; [easy|]. cbn. rewrite usedat_set by assumption.
  destruct (i =? c)%nat eqn:K.
  - apply Nat.eqb_eq in K. subst i. rewrite (sumused_ext bs); [lia|]. intros j Hj. rewrite usedat_set by assumption.
    destruct (j =? c)%nat eqn:K; [|reflexivity]. apply Nat.eqb_eq in K. subst. easy.
  - apply Nat.eqb_neq in K. destruct H as [H|H]; [easy|]. rewrite IH by assumption. lia.
Qed.
Lemma total_app l1 l2 : total (l1 ++ l2) = total l1 + total l2.
Proof. induction l1 as [|a l1 IH]; cbn [app total]; [reflexivity|]. rewrite IH. lia. Qed.
Lemma fop_snoc {A} (R : A -> A -> Prop) l x : ForallOrdPairs R l -> Forall (fun a => R a x) l -> ForallOrdPairs R (l ++ [x]).
Proof.
  induction 1 as [|a l F P IH]; cbn; intros H; [constructor; constructor|]. inversion_clear H. constructor; [|auto].
  apply Forall_app. split; [assumption|]. constructor; [assumption|constructor].
Qed.
Lemma firstn_app_le {A} n (l l2 : list A) : (n <= length l)%nat -> firstn n (l ++ l2) = firstn n l.
Proof. intros H. rewrite firstn_app. replace (n - length l)%nat with 0%nat by lia. cbn. now rewrite app_nil_r. Qed.

(** allocating inside the current block *)
Lemma alloc_inside simple s ls ch cur n b : inv simple s ls ch cur -> 0 <= n <= BIG ->
  nth_error (blocks (ar s)) cur = Some b -> used b + round8 n <= size b ->
  inv simple (St (set_mem (put_block (ar s) cur (with_used b (used b + round8 n))) (zero_range (mem (ar s)) cur (used b) (round8 n))) (marks s))
    (Lv (live ls ++ [Al cur (used b) n (fun _ => 0)]) (scopes ls)) ch cur.
Proof.
  intros I Hn E Hs. pose proof (i_fine _ _ _ _ _ I cur b E) as (F1 & F2 & F3).
  pose proof (round8_bound n ltac:(lia)) as (R1 & R2 & R3).
  assert (NE : nth_error (blocks (ar s)) cur <> None) by congruence.
  assert (UC : usedat (blocks (ar s)) cur = used b) by (unfold usedat; now rewrite E).
  pose proof (sorted_nodup _ (i_sorted _ _ _ _ _ I)) as ND.
  assert (OLD : forall al, In al (live ls) -> blk al = cur -> off al + round8 (len al) <= used b).
  { intros al H K. destruct (i_placed _ _ _ _ _ I al H) as (_ & _ & _ & _ & _ & P). rewrite K, UC in P. exact P. }
  constructor; cbn [ar marks live scopes set_mem put_block blocks mem first current default_size destroyed].
  - apply (i_alive _ _ _ _ _ I).
  - eapply path_ext; [|apply (i_path _ _ _ _ _ I)]. intros i x _ Ex. rewrite nth_set.
    destruct (i =? cur)%nat eqn:K; [|eauto]. apply Nat.eqb_eq in K. subst i. rewrite E. assert (x = b) by congruence. subst. eauto.
  - apply (i_sorted _ _ _ _ _ I).
  - apply (i_cur _ _ _ _ _ I).
  - apply (i_incur _ _ _ _ _ I).
  - intros i Hi L. rewrite usedat_set by exact NE. destruct (i =? cur)%nat eqn:K; [lia|]. now apply (i_after _ _ _ _ _ I).
  - intros i x. rewrite nth_set, E. destruct (i =? cur)%nat; [|apply (i_fine _ _ _ _ _ I)].
    intros [= <-]. unfold fine. cbn [with_used used size]. split; [lia|]. split; [exact F2|]. rewrite Z.add_mod, F3, R3 by lia. reflexivity.
  - apply (i_default _ _ _ _ _ I).
  - intros al H. apply in_app_or in H. destruct H as [H|[<-|[]]].
    + destruct (i_placed _ _ _ _ _ I al H) as (P1 & P2 & P3 & P4 & P5 & P6). repeat split; try assumption.
      rewrite usedat_set by exact NE. destruct (blk al =? cur)%nat eqn:K; [|exact P6].
      apply Nat.eqb_eq in K. cbn [with_used used]. specialize (OLD al H K). lia.
    + unfold placed. cbn [blk off len]. repeat split; try lia; [apply (i_incur _ _ _ _ _ I)|].
      rewrite usedat_set by exact NE. rewrite Nat.eqb_refl. cbn [with_used used]. lia.
  - apply fop_snoc; [apply (i_apart _ _ _ _ _ I)|]. apply Forall_forall. intros al H. unfold apart. cbn [blk off len].
    destruct (Nat.eq_dec (blk al) cur) as [K|K]; [right; now apply OLD|now left].
  - rewrite sumused_set; [|exact ND|apply (i_incur _ _ _ _ _ I)|exact NE]. rewrite UC, (i_total _ _ _ _ _ I), total_app. cbn [total len with_used used]. lia.
  - intros al H k Hk. cbn [mem set_mem put_block]. unfold zero_range. apply in_app_or in H. destruct H as [H|[<-|[]]].
    + pose proof (i_mem _ _ _ _ _ I al H k Hk) as M.
      destruct ((blk al =? cur)%nat && (used b <=? off al + k) && (off al + k <? used b + round8 n)) eqn:ZZ; [|exact M].
      exfalso. destruct (i_placed _ _ _ _ _ I al H) as (_ & _ & P3 & _ & P5 & _). pose proof (round8_bound (len al) P5).
      specialize (OLD al H ltac:(lia)). lia.
    + cbn [blk off len contents] in *. rewrite Nat.eqb_refl.
      destruct (true && (used b <=? used b + k) && (used b + k <? used b + round8 n)) eqn:ZZ; [reflexivity|lia].
  - eapply marks_ok_move; [apply (i_marks _ _ _ _ _ I)| | |lia|rewrite app_length; lia].
    + intros x Hx Hi. split; [exact Hi|]. split; [reflexivity|]. split.
      * intros i _ L. rewrite usedat_set by exact NE. destruct (i =? cur)%nat eqn:K; [lia|reflexivity].
      * intros x'. rewrite nth_set, E. destruct (x =? cur)%nat eqn:K; [|eauto]. apply Nat.eqb_eq in K. subst. intros [= <-]. cbn. eauto.
    + intros m _ Hm. rewrite firstn_app_le by exact Hm. split; [rewrite app_length; lia|]. split; [reflexivity|]. eauto.
  - rewrite set_nth_length. apply (i_simple _ _ _ _ _ I).
Qed.

(** opening a new block *)
Lemma path_cut bs cur b new ch : forall p, path bs p ch -> StronglySorted lt ch -> In cur ch -> nth_error bs cur = Some b -> freed (with_next b (length bs)) = false ->
  freed new = false -> next new = None ->
  path (set_nth bs cur (with_next b (length bs)) ++ [new]) p (filter (fun i => i <=? cur)%nat ch ++ [length bs]).
Proof.
  assert (LN : forall i x, nth_error bs i = Some x -> (i < length bs)%nat) by (intros i x E; apply nth_error_Some; congruence).
  intros p P S H E Fb Fn Nn. revert p P S H. induction ch as [|i ch IH]; intros p P S H; [easy|].
  cbn in P. destruct P as (-> & x & Ex & Fx & P). apply StronglySorted_inv in S. destruct S as [S F]. rewrite Forall_forall in F.
  assert (Li := LN _ _ Ex). destruct H as [->|H].
  - assert (x = b) by congruence. subst x. cbn [filter]. rewrite Nat.leb_refl.
    assert (filter (fun i => i <=? cur)%nat ch = []) as ->.
    { apply filter_none. intros j Hj. apply F in Hj. lia. }
    cbn. split; [reflexivity|]. exists (with_next b (length bs)). rewrite nth_error_app1 by (rewrite set_nth_length; exact Li).
    rewrite nth_set, E, Nat.eqb_refl. split; [reflexivity|]. split; [exact Fb|]. cbn. split; [reflexivity|]. exists new.
    rewrite nth_error_app2 by (rewrite set_nth_length; lia). rewrite set_nth_length, Nat.sub_diag. cbn. auto.
  - assert (i < cur)%nat by now apply F. cbn [filter]. destruct (i <=? cur)%nat eqn:K; [|lia]. cbn. split; [reflexivity|].
    exists x. rewrite nth_error_app1 by (rewrite set_nth_length; exact Li). rewrite nth_set.
    destruct (i =? cur)%nat eqn:K2; [lia|]. split; [exact Ex|]. split; [exact Fx|]. now apply IH.
Qed.
Lemma nth_snoc (bs : bl) new i : nth_error (bs ++ [new]) i = if (i =? length bs)%nat then Some new else nth_error bs i.
Proof.
  destruct (i =? length bs)%nat eqn:E.
  - apply Nat.eqb_eq in E. subst. rewrite nth_error_app2, Nat.sub_diag by lia. reflexivity.
  - apply Nat.eqb_neq in E. destruct (Nat.lt_ge_cases i (length bs)).
    + now rewrite nth_error_app1.
    + rewrite (proj2 (nth_error_None bs i)) by lia. apply nth_error_None. rewrite app_length. cbn. lia.
Qed.
Lemma snoc_sorted ch x : StronglySorted lt ch -> (forall i, In i ch -> (i < x)%nat) -> StronglySorted lt (ch ++ [x]).
Proof.
  induction 1 as [|i ch S IH F]; cbn; intros H; [repeat constructor|]. constructor.
  - apply IH. intros j Hj. apply H. now right.
  - apply Forall_app. split; [exact F|]. constructor; [apply H; now left|constructor].
Qed.
Lemma filter_filter (f g : nat -> bool) ch : filter f (filter g ch) = filter (fun i => g i && f i) ch.
Proof. induction ch as [|i ch IH]; cbn; [reflexivity|]. destruct (g i); cbn; [destruct (f i); now rewrite IH|exact IH]. Qed.

Definition grow (a : arena) (cur : nat) (b : block) (sz : Z) : arena :=
  Arena (set_nth (blocks a) cur (with_next b (length (blocks a))) ++ [Blk None sz 0 false]) (mem a) (first a) (Some (length (blocks a)))
    (default_size a) (destroyed a).
Lemma alloc_grow simple s ls ch cur b sz : inv simple s ls ch cur -> 0 <= sz <= BIG + 8 ->
  nth_error (blocks (ar s)) cur = Some b ->
  inv simple (St (grow (ar s) cur b sz) (marks s)) ls (filter (fun i => i <=? cur)%nat ch ++ [length (blocks (ar s))]) (length (blocks (ar s))).
Proof.
  intros I Hs E.
  assert (NE : nth_error (blocks (ar s)) cur <> None) by congruence.
  assert (Lt : forall i, In i ch -> (i < length (blocks (ar s)))%nat).
  { intros i Hi. destruct (path_in _ _ _ _ (i_path _ _ _ _ _ I) Hi) as (x & Ex & _). apply nth_error_Some. congruence. }
  assert (FB : freed b = false). { destruct (path_in _ _ _ _ (i_path _ _ _ _ _ I) (i_incur _ _ _ _ _ I)) as (x & Ex & Fx). congruence. }
  assert (U : forall i, (i < length (blocks (ar s)))%nat -> usedat (blocks (grow (ar s) cur b sz)) i = usedat (blocks (ar s)) i).
  { intros i Hi. unfold usedat. cbn. rewrite nth_snoc, set_nth_length. destruct (i =? length (blocks (ar s)))%nat eqn:K; [lia|].
    rewrite nth_set, E. destruct (i =? cur)%nat eqn:K2; [|reflexivity]. apply Nat.eqb_eq in K2. subst. now rewrite E. }
  pose proof (Lt cur (i_incur _ _ _ _ _ I)) as Lc.
  assert (FI : forall i, In i (filter (fun i => i <=? cur)%nat ch) <-> In i ch /\ (i <= cur)%nat).
  { intros i. rewrite filter_In. split; intros [A B]; split; try assumption; lia. }
  constructor; cbn [ar marks].
  - apply (i_alive _ _ _ _ _ I).
  - cbn. apply (path_cut _ _ _ _ _ _ (i_path _ _ _ _ _ I) (i_sorted _ _ _ _ _ I) (i_incur _ _ _ _ _ I) E); auto.
  - apply snoc_sorted; [apply filter_sorted, (i_sorted _ _ _ _ _ I)|]. intros i Hi. apply FI in Hi. apply Lt. tauto.
  - reflexivity.
  - apply in_or_app. right. now left.
  - intros i Hi L. apply in_app_or in Hi. destruct Hi as [Hi|[<-|[]]]; [|lia]. apply FI in Hi. specialize (Lt i ltac:(tauto)). lia.
  - intros i x. cbn. rewrite nth_snoc, set_nth_length, nth_set, E. destruct (i =? length (blocks (ar s)))%nat.
    + intros [= <-]. unfold fine. cbn [used size]. split; [lia|]. split; [lia|reflexivity].
    + destruct (i =? cur)%nat; [|apply (i_fine _ _ _ _ _ I)]. intros [= <-]. exact (i_fine _ _ _ _ _ I cur b E).
  - apply (i_default _ _ _ _ _ I).
  - intros al H. destruct (i_placed _ _ _ _ _ I al H) as (P1 & P2 & P3 & P4 & P5 & P6). repeat split; try assumption.
    + apply in_or_app. left. now apply FI.
    + lia.
    + rewrite U by now apply Lt. exact P6.
  - apply (i_apart _ _ _ _ _ I).
  - rewrite sumused_app. cbn [sumused]. unfold usedat at 1. cbn [grow blocks]. rewrite nth_snoc, set_nth_length, Nat.eqb_refl. cbn [used].
    rewrite <- (i_total _ _ _ _ _ I). rewrite (sumused_ext (blocks (ar s))).
    2:{ intros i Hi. apply FI in Hi. apply (U i). apply Lt. tauto. }
    assert (Z1 : sumused (blocks (ar s)) (filter (fun i => cur <? i)%nat ch) = 0).
    { apply sumused_zero. intros i Hi. apply filter_In in Hi. apply (i_after _ _ _ _ _ I); [tauto|lia]. }
    pose proof (sumused_split (blocks (ar s)) cur ch (i_sorted _ _ _ _ _ I) (i_incur _ _ _ _ _ I)) as S1.
    pose proof (sumused_split (blocks (ar s)) cur _ (filter_sorted (fun i => i <=? cur)%nat _ (i_sorted _ _ _ _ _ I)) (proj2 (FI cur) (conj (i_incur _ _ _ _ _ I) (le_n _)))) as S2.
    rewrite !filter_filter in S2.
    rewrite (filter_ext_in' (fun i => (i <=? cur)%nat && (i <? cur)%nat) (fun i => i <? cur)%nat) in S2 by (intros; lia).
    rewrite (filter_ext_in' (fun i => (i <=? cur)%nat && (cur <? i)%nat) (fun i => false)) in S2 by (intros; lia).
    rewrite (sumused_zero _ (filter (fun _ => false) ch)) in S2; [lia|]. intros i Hi. apply filter_In in Hi. easy.
  - intros al H. apply (i_mem _ _ _ _ _ I al H).
  - eapply marks_ok_move; [apply (i_marks _ _ _ _ _ I)| | |lia|lia].
    + intros x Hx Hi. split; [apply in_or_app; left; now apply FI|]. split; [|split].
      * rewrite filter_app. cbn [filter]. specialize (Lt x Hi). destruct (length (blocks (ar s)) <? x)%nat eqn:K; [lia|]. rewrite app_nil_r.
        rewrite filter_filter. apply filter_ext_in. intros i _. lia.
      * intros i Hi2 _. apply U. now apply Lt.
      * intros x'. cbn. rewrite nth_snoc, set_nth_length. specialize (Lt x Hi). destruct (x =? length (blocks (ar s)))%nat eqn:K; [lia|].
        rewrite nth_set, E. destruct (x =? cur)%nat eqn:K2; [|eauto]. apply Nat.eqb_eq in K2. subst. intros [= <-]. eauto.
    + intros m _ Hm. split; [exact Hm|]. split; [reflexivity|]. eauto.
  - intros Si. destruct (i_simple _ _ _ _ _ I Si) as [S1 S2]. cbn [grow blocks]. rewrite app_length, set_nth_length. cbn. split; [|lia].
    rewrite (filter_all _ ch); [|intros i Hi; specialize (Lt i Hi); lia]. rewrite S1 at 1.
    rewrite Nat.add_comm. cbn [plus]. rewrite seq_S. reflexivity.
Qed.

Lemma wrap_small x : 0 <= x < 2 ^ 64 -> wrap_u 64 x = x.
Proof. intros H. unfold wrap_u. now apply Z.mod_small. Qed.
Lemma step_alloc simple s ls ch cur n ok : inv simple s ls ch cur -> 0 <= n <= BIG ->
  (arena_alloc (ar s) n ok = Panic 0 /\ ok = false) \/
  exists a p ch' cur', arena_alloc (ar s) n ok = Ok (a, p) /\
    inv simple (St a (marks s)) (Lv (live ls ++ [Al (fst p) (snd p) n (fun _ => 0)]) (scopes ls)) ch' cur' /\
    exists b, nth_error (blocks a) (fst p) = Some b /\ freed b = false /\ 0 <= snd p /\ snd p + n <= size b.
Proof.
  intros I Hn. unfold arena_alloc. rewrite (i_alive _ _ _ _ _ I), (i_cur _ _ _ _ _ I).
  destruct (path_in _ _ _ _ (i_path _ _ _ _ _ I) (i_incur _ _ _ _ _ I)) as (b & E & Fb).
  rewrite (deref_ok _ _ _ E Fb). cbn [rbind]. rewrite align8_ok by exact Hn.
  pose proof (round8_bound n ltac:(lia)) as (R1 & R2 & R3).
  destruct (i_fine _ _ _ _ _ I cur b E) as (F1 & F2 & F3). unfold BIG in *.
  rewrite (wrap_small (used b + round8 n)) by (change (2 ^ 64) with 18446744073709551616; lia).
  destruct (size b <? used b + round8 n) eqn:C.
  - destruct ok; [right|now left]. cbn [rbind].
    set (sz := if default_size (put_block (ar s) cur (with_next b (length (blocks (ar s))))) <? round8 n then round8 n
               else default_size (put_block (ar s) cur (with_next b (length (blocks (ar s)))))).
    assert (Hsz : 0 <= sz <= BIG + 8 /\ round8 n <= sz).
    { pose proof (i_default _ _ _ _ _ I) as D. unfold BIG in *. subst sz. cbn [put_block default_size].
      destruct (default_size (ar s) <? round8 n) eqn:K; lia. }
    pose proof (alloc_grow simple s ls ch cur b sz I (proj1 Hsz) E) as J.
    assert (EN : nth_error (blocks (grow (ar s) cur b sz)) (length (blocks (ar s))) = Some (Blk None sz 0 false)).
    { cbn. rewrite nth_snoc, set_nth_length, Nat.eqb_refl. reflexivity. }
    pose proof (alloc_inside simple _ ls _ _ n _ J Hn EN ltac:(cbn; lia)) as K.
    rewrite (deref_ok (Arena _ _ _ _ _ _) (length (blocks (ar s))) (Blk None sz 0 false)) by (exact EN || reflexivity).
    cbn [rbind size used]. cbn [size used ar marks] in K.
    destruct (sz <? 0 + round8 n) eqn:Q; [lia|].
    rewrite (wrap_small (0 + round8 n)) by (change (2 ^ 64) with 18446744073709551616; lia).
    eexists _, _, _, _. split; [reflexivity|]. split; [exact K|].
    eexists. cbn [fst snd set_mem put_block blocks]. split; [rewrite nth_set, Nat.eqb_refl; cbn [blocks grow] in EN; rewrite EN; reflexivity|].
    cbn. split; [reflexivity|]. lia.
  - cbn [rbind]. rewrite (i_cur _ _ _ _ _ I), (deref_ok _ _ _ E Fb). cbn [rbind]. rewrite C.
    rewrite (wrap_small (used b + round8 n)) by (change (2 ^ 64) with 18446744073709551616; lia).
    pose proof (alloc_inside simple s ls ch cur n b I Hn E ltac:(lia)) as K. right.
    eexists _, _, _, _. split; [reflexivity|]. split; [exact K|].
    eexists. cbn [fst snd set_mem put_block blocks]. split; [rewrite nth_set, Nat.eqb_refl, E; reflexivity|].
    cbn. split; [exact Fb|]. lia.
Qed.
