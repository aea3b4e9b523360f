From Verif Require Import Base StringsModel StringsSpec.

Lemma mem_eq_spec : forall a b, mem_eq a b = true <-> a = b.
Proof.
  induction a as [|x a IH]; intros [|y b]; simpl; split; try discriminate; auto; intro H.
  - apply andb_true_iff in H as [H1 H2]. apply Z.eqb_eq in H1. apply IH in H2. congruence.
  - injection H as -> ->. rewrite Z.eqb_refl. apply IH. reflexivity.
Qed.

Lemma occurs_at_iff : forall sub s i,
  occurs_at sub s i <-> (i + length sub <= length s)%nat /\ firstn (length sub) (skipn i s) = sub.
Proof.
  intros sub s i. split.
  - intros (a & b & -> & <-). rewrite !app_length. split; [lia|].
    rewrite skipn_app, skipn_all, Nat.sub_diag. simpl.
    rewrite firstn_app, firstn_all, Nat.sub_diag. simpl. apply app_nil_r.
  - intros [L E]. exists (firstn i s), (skipn (length sub) (skipn i s)). split.
    + rewrite <- E at 1. rewrite firstn_skipn, firstn_skipn. reflexivity.
    + rewrite firstn_length. lia.
Qed.

Lemma match_at_spec : forall s i sub, (i + length sub <= length s)%nat ->
  exists b, match_at s i sub = Ok b /\ (b = true <-> occurs_at sub s i).
Proof.
  intros s i sub L. unfold match_at. rewrite (proj2 (Nat.leb_le _ _) L).
  eexists. split; [reflexivity|]. rewrite mem_eq_spec, occurs_at_iff. tauto.
Qed.

Lemma skipn_plus : forall A n m (l : list A), skipn n (skipn m l) = skipn (m + n) l.
Proof.
  intros A n m; revert n; induction m as [|m IH]; intros n l; simpl; [reflexivity|].
  destruct l as [|x l]; [now rewrite skipn_nil|]. apply IH.
Qed.

Lemma occurs_at_skipn : forall sub s i k, (i <= length s)%nat ->
  (occurs_at sub (skipn i s) k <-> occurs_at sub s (i + k)).
Proof.
  intros. rewrite !occurs_at_iff, skipn_length, skipn_plus.
  split; intros [A B]; (split; [lia|exact B]).
Qed.

Lemma skipn_cons_nth : forall (s : bytes) i, (i < length s)%nat -> skipn i s = nth i s 0 :: skipn (S i) s.
Proof.
  induction s as [|x s IH]; intros [|i] L; simpl in *; try lia; [reflexivity|]. apply IH. lia.
Qed.

(** ---- cutting ---- *)
Lemma occurs_at_cons : forall sub c t k, sub <> [] -> occurs_at sub (c :: t) (S k) <-> occurs_at sub t k.
Proof.
  intros sub c t k N. rewrite !occurs_at_iff. simpl. intuition lia.
Qed.
Lemma occurs_not_nil : forall sub i, sub <> [] -> ~ occurs_at sub [] i.
Proof.
  intros sub i N (a & b & E & _). destruct a, sub; simpl in E; congruence.
Qed.

Lemma cut_nonempty : forall sep s ps, cut sep s ps -> ps <> [].
Proof. intros sep s ps H. destruct H; discriminate. Qed.

Lemma first_at_zero : forall sep r, first_at sep (sep ++ r) 0.
Proof. intros. split; [exists [], r; auto|]. intros; lia. Qed.

(** extending the front piece by a byte at which sep does not begin *)
Lemma cut_skip : forall sep c t p ps, sep <> [] -> ~ occurs_at sep (c :: t) 0 ->
  cut sep t (p :: ps) -> cut sep (c :: t) ((c :: p) :: ps).
Proof.
  intros sep c t p ps N H C. inversion C as [s H1 E1 E2|q rest qs H1 H2 E1 E2].
  - subst. constructor. intros [[|k] O]; [exact (H O)|]. apply (proj1 (occurs_at_cons _ _ _ _ N)) in O.
    apply H1. now exists k.
  - subst. apply (cut_at sep (c :: p) rest ps); [|exact H2].
    destruct H1 as [O L]. split.
    + exists (c :: p), rest. auto.
    + intros [|j] Oj; [destruct (H Oj)|]. apply (proj1 (occurs_at_cons _ _ _ _ N)) in Oj.
      specialize (L _ Oj). simpl. lia.
Qed.
Lemma cut_hit : forall sep t ps, cut sep t ps -> cut sep (sep ++ t) ([] :: ps).
Proof.
  intros. apply (cut_at sep [] t ps); [exact (first_at_zero sep t)|assumption].
Qed.
Lemma cut_short : forall sep t, (length t < length sep)%nat -> cut sep t [t].
Proof.
  intros. constructor. intros [i O]. apply occurs_at_iff in O. lia.
Qed.

Lemma cut_unique : forall sep s ps, sep <> [] -> cut sep s ps -> forall qs, cut sep s qs -> ps = qs.
Proof.
  intros sep s ps N C. induction C as [s H|p rest ps H C IH]; intros qs D.
  - inversion D as [s' H' E1 E2|q rest' qs' H' H2 E1 E2]; [reflexivity|].
    exfalso. apply H. rewrite <- E1. exists (length q). apply H'.
  - inversion D as [s' H' E1 E2|q rest' qs' H' H2 E1 E2].
    + exfalso. apply H'. exists (length p). apply H.
    + assert (L : length q = length p).
      { destruct H as [A B], H' as [A' B']. rewrite E1 in A', B'. specialize (B _ A'). specialize (B' _ A). lia. }
      assert (E : q = p /\ rest' = rest).
      { assert (X : firstn (length q) (q ++ sep ++ rest') = firstn (length p) (p ++ sep ++ rest)) by (rewrite E1, L; reflexivity).
        rewrite !firstn_app, !firstn_all, !Nat.sub_diag in X. simpl in X. rewrite !app_nil_r in X. subst q.
        apply app_inv_head in E1. apply app_inv_head in E1. auto. }
      destruct E as [-> ->]. f_equal. apply IH. assumption.
Qed.

Lemma glue_cons : forall sep p q ps, glue sep (p :: q :: ps) = p ++ sep ++ glue sep (q :: ps).
Proof. reflexivity. Qed.
Lemma glue_front : forall sep c p ps, glue sep ((c :: p) :: ps) = c :: glue sep (p :: ps).
Proof. intros. destruct ps; reflexivity. Qed.
Lemma cut_glue : forall sep s ps, cut sep s ps -> glue sep ps = s.
Proof.
  intros sep s ps C. induction C as [|p rest ps H C IH]; [reflexivity|].
  destruct ps as [|q ps]; [destruct (cut_nonempty _ _ _ C); reflexivity|].
  rewrite glue_cons, IH. reflexivity.
Qed.
Lemma cut_pieces : forall sep s ps, cut sep s ps -> sep <> [] -> Forall (fun p => ~ occurs sep p) ps.
Proof.
  intros sep s ps C N. induction C as [s H|p rest ps H C IH]; constructor; auto.
  intros [i O]. destruct H as [_ L]. pose proof (proj1 (occurs_at_iff _ _ _) O) as [B _].
  assert (O' : occurs_at sep (p ++ sep ++ rest) i).
  { destruct O as (a & b & -> & <-). exists a, (b ++ sep ++ rest). rewrite <- !app_assoc. auto. }
  apply L in O'. destruct sep; [congruence|]. simpl in B. lia.
Qed.

(** ---- scanning ---- *)
Lemma scan_ok : forall s sub n i, sub <> [] -> (length s + 1 <= n + i)%nat -> (i <= length s)%nat ->
  (forall j, occurs_at sub s j -> (i <= j)%nat) ->
  (exists k, scan s sub n i = Ok (Some k) /\ first_at sub s k) \/ (scan s sub n i = Ok None /\ ~ occurs sub s).
Proof.
  intros s sub n. induction n as [|n IH]; intros i N F B M; [lia|]. cbn [scan].
  assert (1 <= length sub)%nat by (destruct sub; [congruence|simpl; lia]).
  destruct (i + length sub <=? length s)%nat eqn:E.
  - destruct (match_at_spec s i sub) as (b & Eb & Hb); [lia|]. rewrite Eb. cbn [rbind].
    destruct b.
    + left. exists i. split; [reflexivity|]. split; [now apply Hb|exact M].
    + apply IH; auto; try lia. intros j Oj. specialize (M _ Oj).
      destruct (Nat.eq_dec i j) as [->|]; [|lia]. apply Hb in Oj. discriminate.
  - right. split; [reflexivity|]. intros [j O]. pose proof (M _ O).
    apply occurs_at_iff in O. lia.
Qed.

Lemma scan_down_ok : forall s sub i, (i + length sub <= length s)%nat ->
  (forall j, occurs_at sub s j -> (j <= i)%nat) ->
  (exists k, scan_down s sub i = Ok (Z.of_nat k) /\ last_at sub s k) \/ (scan_down s sub i = Ok (-1) /\ ~ occurs sub s).
Proof.
  intros s sub i. induction i as [|i IH]; intros L M;
    destruct (match_at_spec s _ sub L) as (b & Eb & Hb); cbn [scan_down]; rewrite Eb; cbn [rbind]; destruct b.
  - left. exists 0%nat. split; [reflexivity|]. split; [now apply Hb|exact M].
  - right. split; [reflexivity|]. intros [j O]. pose proof (M _ O). assert (j = 0)%nat by lia. subst.
    apply Hb in O. discriminate.
  - left. exists (S i). split; [reflexivity|]. split; [now apply Hb|exact M].
  - apply IH; [lia|]. intros j O. pose proof (M _ O). destruct (Nat.eq_dec j (S i)) as [->|]; [|lia].
    apply Hb in O. discriminate.
Qed.

(** the three possible situations at position i *)
Lemma at_position : forall s sep i, sep <> [] -> (i <= length s)%nat -> (i + length sep <= length s)%nat ->
  exists b, match_at s i sep = Ok b /\
    (b = true -> skipn i s = sep ++ skipn (i + length sep) s) /\
    (b = false -> ~ occurs_at sep (skipn i s) 0).
Proof.
  intros s sep i N B L. destruct (match_at_spec s i sep L) as (b & Eb & Hb).
  exists b. split; [exact Eb|]. split.
  - intro T. apply Hb in T. apply occurs_at_iff in T as [_ T].
    rewrite <- skipn_plus. rewrite <- (firstn_skipn (length sep) (skipn i s)) at 1. now rewrite T.
  - intros T O. apply occurs_at_skipn in O; [|exact B]. rewrite Nat.add_0_r in O. apply Hb in O. congruence.
Qed.

Lemma count_loop_ok : forall s sep n i c, sep <> [] -> (length s + 1 <= n + i)%nat -> (i <= length s)%nat ->
  exists p ps, cut sep (skipn i s) (p :: ps) /\ count_loop s sep n i c = Ok (c + Z.of_nat (length ps)).
Proof.
  intros s sep n. induction n as [|n IH]; intros i c N F B; [lia|]. cbn [count_loop].
  assert (1 <= length sep)%nat by (destruct sep; [congruence|simpl; lia]).
  destruct (i + length sep <=? length s)%nat eqn:E.
  - destruct (at_position s sep i) as (b & Eb & Ht & Hf); auto; [lia|]. rewrite Eb. cbn [rbind].
    destruct b.
    + destruct (IH (i + length sep)%nat (c + 1)) as (p & ps & C & ->); auto; try lia.
      exists [], (p :: ps). rewrite Ht by reflexivity. split; [now apply cut_hit|]. f_equal. simpl length. lia.
    + destruct (IH (S i) c) as (p & ps & C & ->); auto; try lia.
      specialize (Hf eq_refl). rewrite skipn_cons_nth in Hf |- * by lia.
      exists (nth i s 0 :: p), ps. split; [now apply cut_skip|reflexivity].
  - exists (skipn i s), []. split; [apply cut_short; rewrite skipn_length; lia|]. f_equal. simpl. lia.
Qed.

Lemma substr_ok : forall s a n, (a + n <= length s)%nat -> substr s a n = Ok (firstn n (skipn a s)).
Proof. intros. unfold substr. rewrite (proj2 (Nat.leb_le _ _) H). reflexivity. Qed.

Lemma firstn_step : forall (s : bytes) a n, (a + n < length s)%nat ->
  firstn (S n) (skipn a s) = firstn n (skipn a s) ++ [nth (a + n) s 0].
Proof.
  intros s a n L. rewrite <- (firstn_skipn n (skipn a s)) at 1.
  rewrite skipn_plus, (skipn_cons_nth s (a + n)) by lia.
  rewrite firstn_app. rewrite firstn_length, skipn_length.
  replace (S n - Nat.min n (length s - a))%nat with 1%nat by lia.
  rewrite firstn_firstn. replace (Nat.min (S n) n) with n by lia. reflexivity.
Qed.

Lemma split_loop_ok : forall s sep n i start arr, sep <> [] -> (length s + 1 <= n + i)%nat ->
  (start <= i)%nat -> (i <= length s)%nat ->
  exists p ps, cut sep (skipn i s) (p :: ps) /\
    split_loop s sep n i start arr = Ok (arr ++ (firstn (i - start) (skipn start s) ++ p) :: ps).
Proof.
  intros s sep n. induction n as [|n IH]; intros i start arr N F SI B; [lia|]. cbn [split_loop].
  assert (1 <= length sep)%nat by (destruct sep; [congruence|simpl; lia]).
  destruct (i + length sep <=? length s)%nat eqn:E.
  - destruct (at_position s sep i) as (b & Eb & Ht & Hf); auto; [lia|]. rewrite Eb. cbn [rbind].
    destruct b.
    + rewrite substr_ok by lia. cbn [rbind].
      destruct (IH (i + length sep)%nat (i + length sep)%nat (arr ++ [firstn (i - start) (skipn start s)])) as (p & ps & C & R); auto; try lia.
      exists [], (p :: ps). rewrite Ht by reflexivity. split; [now apply cut_hit|]. etransitivity; [exact R|].
      rewrite Nat.sub_diag. simpl. rewrite app_nil_r, <- app_assoc. reflexivity.
    + destruct (IH (S i) start arr) as (p & ps & C & ->); auto; try lia.
      specialize (Hf eq_refl). rewrite skipn_cons_nth in Hf |- * by lia.
      exists (nth i s 0 :: p), ps. split; [now apply cut_skip|].
      replace (S i - start)%nat with (S (i - start)) by lia.
      rewrite firstn_step by lia. replace (start + (i - start))%nat with i by lia.
      rewrite <- app_assoc. reflexivity.
  - exists (skipn i s), []. split; [apply cut_short; rewrite skipn_length; lia|].
    rewrite substr_ok by lia. cbn [rmap]. repeat f_equal.
    replace (skipn i s) with (skipn (i - start) (skipn start s)) by (rewrite skipn_plus; f_equal; lia).
    rewrite firstn_skipn. apply firstn_all2. rewrite skipn_length. lia.
Qed.

Lemma split_ok : forall s sep, sep <> [] -> exists ps, split s sep = Ok ps /\ cut sep s ps.
Proof.
  intros s sep N. unfold split. destruct (length sep =? 0)%nat eqn:E; [destruct sep; [congruence|discriminate]|].
  destruct (split_loop_ok s sep (S (length s)) 0 0 []) as (p & ps & C & H); auto; try lia.
  rewrite H. exists (p :: ps). auto.
Qed.
Lemma count_ok : forall s sep ps, sep <> [] -> cut sep s ps -> count s sep = Ok (Z.of_nat (length ps) - 1).
Proof.
  intros s sep ps N C. unfold count. destruct (length sep =? 0)%nat eqn:E; [destruct sep; [congruence|discriminate]|].
  destruct (count_loop_ok s sep (S (length s)) 0 0) as (p & qs & C' & H); auto; try lia.
  rewrite H. simpl in C'. rewrite (cut_unique _ _ _ N C _ C'). f_equal. simpl length. lia.
Qed.

(** ---- replace ---- *)
Lemma emit_ok : forall cap w v, Z.of_nat (length w) + Z.of_nat (length v) <= cap -> emit cap w v = Ok (w ++ v).
Proof. intros. unfold emit. rewrite (proj2 (Z.leb_le _ _)); [reflexivity|lia]. Qed.

Lemma replace_loop_ok : forall s old_s new_s cap n i w p ps, old_s <> [] -> (length s + 1 <= n + i)%nat ->
  (i <= length s)%nat -> cut old_s (skipn i s) (p :: ps) ->
  cap = Z.of_nat (length w) + Z.of_nat (length (glue new_s (p :: ps))) + 1 ->
  replace_loop s old_s new_s cap n i w = Ok (w ++ glue new_s (p :: ps)).
Proof.
  intros s old_s new_s cap n. induction n as [|n IH]; intros i w p ps N F B C Hc; [lia|]. cbn [replace_loop].
  assert (1 <= length old_s)%nat by (destruct old_s; [congruence|simpl; lia]).
  destruct (i <? length s)%nat eqn:Ei.
  - assert (Step : ~ occurs_at old_s (skipn i s) 0 ->
      rbind (emit cap w [nth i s 0]) (replace_loop s old_s new_s cap n (S i)) = Ok (w ++ glue new_s (p :: ps))).
    { intro No. destruct (split_ok (skipn (S i) s) old_s N) as ([|q qs] & _ & D); [destruct (cut_nonempty _ _ _ D); reflexivity|].
      rewrite skipn_cons_nth in C, No by lia.
      pose proof (cut_unique _ _ _ N C _ (cut_skip _ _ _ _ _ N No D)) as X. injection X as -> ->.
      rewrite glue_front in Hc |- *. simpl length in Hc.
      rewrite emit_ok by (simpl length; lia). cbn [rbind].
      rewrite (IH (S i) (w ++ [nth i s 0]) q qs); auto; try lia.
      + rewrite <- app_assoc. reflexivity.
      + rewrite app_length. simpl length. lia. }
    destruct (i + length old_s <=? length s)%nat eqn:E.
    + destruct (at_position s old_s i) as (b & Eb & Ht & Hf); auto; try lia. rewrite Eb. cbn [rbind].
      destruct b; [|apply Step; auto].
      specialize (Ht eq_refl). rewrite Ht in C.
      destruct (split_ok (skipn (i + length old_s) s) old_s N) as ([|q qs] & _ & D); [destruct (cut_nonempty _ _ _ D); reflexivity|].
      pose proof (cut_unique _ _ _ N C _ (cut_hit _ _ _ D)) as X. injection X as -> ->.
      rewrite glue_cons in Hc |- *. rewrite app_length in Hc. simpl (length []) in Hc. rewrite app_length in Hc.
      rewrite emit_ok by lia. cbn [rbind].
      rewrite (IH (i + length old_s)%nat (w ++ new_s) q qs); auto; try lia.
      * rewrite <- app_assoc. reflexivity.
      * rewrite app_length. lia.
    + apply Step. intro O. apply occurs_at_iff in O. rewrite skipn_length in O. lia.
  - rewrite skipn_all2 in C by lia.
    assert (D : cut old_s [] [[]]) by (constructor; intros [k O]; now apply occurs_not_nil in O).
    pose proof (cut_unique _ _ _ N C _ D) as X. injection X as -> ->. simpl in Hc |- *.
    rewrite emit_ok by (simpl length; lia). simpl. rewrite app_nil_r. reflexivity.
Qed.

Fixpoint lens (ps : list bytes) : Z := match ps with [] => 0 | p :: ps => Z.of_nat (length p) + lens ps end.
Lemma glue_length : forall sep p ps,
  Z.of_nat (length (glue sep (p :: ps))) =
  Z.of_nat (length p) + lens ps + Z.of_nat (length ps) * Z.of_nat (length sep).
Proof.
  intros sep p ps. revert p. induction ps as [|q ps IH]; intro p; [simpl; lia|].
  rewrite glue_cons, !app_length. specialize (IH q). cbn [lens]. simpl length in *. lia.
Qed.

Lemma replace_ok : forall s old_s new_s ps, old_s <> [] -> cut old_s s ps ->
  Z.of_nat (length s) <= INT32_MAX ->
  replace s old_s new_s =
    if Z.of_nat (length (glue new_s ps)) <=? INT32_MAX then Ok (glue new_s ps) else Panic 71.
Proof.
  intros s old_s new_s ps N C L. unfold replace.
  destruct (length old_s =? 0)%nat eqn:E0; [destruct old_s; [congruence|discriminate]|].
  rewrite (count_ok _ _ _ N C). cbn [rbind].
  destruct ps as [|p ps]; [destruct (cut_nonempty _ _ _ C); reflexivity|].
  pose proof (cut_glue _ _ _ C) as G.
  pose proof (glue_length old_s p ps) as L1. pose proof (glue_length new_s p ps) as L2. rewrite G in L1.
  change (Z.of_nat (length (p :: ps))) with (Z.of_nat (S (length ps))).
  destruct (Z.of_nat (S (length ps)) - 1 =? 0) eqn:E1.
  - destruct ps; [|simpl length in E1; lia]. simpl in G. simpl glue. subst.
    rewrite (proj2 (Z.leb_le _ _) L). reflexivity.
  - assert (W : Z.of_nat (length s) + (Z.of_nat (length (p :: ps)) - 1) * (Z.of_nat (length new_s) - Z.of_nat (length old_s))
             = Z.of_nat (length (glue new_s (p :: ps)))) by (rewrite L2, L1; simpl length; rewrite Nat2Z.inj_succ; ring).
    change (Z.of_nat (length (p :: ps))) with (Z.of_nat (S (length ps))) in W. cbv zeta. rewrite W.
    destruct (Z.of_nat (length (glue new_s (p :: ps))) <=? INT32_MAX) eqn:E2.
    + rewrite (proj2 (Z.ltb_ge _ 0)) by lia. rewrite (proj2 (Z.ltb_ge INT32_MAX _)) by lia. simpl orb. cbv iota.
      rewrite (replace_loop_ok s old_s new_s _ (S (length s)) 0 [] p ps); [reflexivity|exact N|lia|lia|exact C|]. cbn [length]. lia.
    + rewrite (proj2 (Z.ltb_lt INT32_MAX _)) by lia. rewrite orb_true_r. reflexivity.
Qed.

(** ---- join ---- *)
Lemma add_len_eq : forall t v, add_len (Ok t) v =
  if INT32_MAX <? t + Z.of_nat (length v) then UB else Ok (t + Z.of_nat (length v)).
Proof. reflexivity. Qed.
Lemma join_total_fold : forall sep ps t, t <= INT32_MAX ->
  fold_left (fun t v => add_len (add_len t v) sep) ps (Ok t) =
  let n := t + lens ps + Z.of_nat (length ps) * Z.of_nat (length sep) in
  if n <=? INT32_MAX then Ok n else UB.
Proof.
  intros sep ps. induction ps as [|p ps IH]; intros t L.
  - simpl. rewrite !Z.add_0_r. rewrite (proj2 (Z.leb_le _ _) L). reflexivity.
  - cbn [fold_left]. rewrite add_len_eq.
    assert (U : forall l, fold_left (fun t v => add_len (add_len t v) sep) l UB = UB) by (induction l; simpl; auto).
    assert (P : 0 <= lens ps) by (clear; induction ps; simpl; lia).
    assert (Q : 0 <= Z.of_nat (length ps) * Z.of_nat (length sep)) by lia.
    cbn [lens length]. cbv zeta.
    destruct (INT32_MAX <? t + Z.of_nat (length p)) eqn:E1.
    + change (add_len UB sep) with (@UB Z). rewrite U. rewrite (proj2 (Z.leb_gt _ _)); [reflexivity|lia].
    + rewrite add_len_eq.
      destruct (INT32_MAX <? t + Z.of_nat (length p) + Z.of_nat (length sep)) eqn:E2.
      * rewrite U. rewrite (proj2 (Z.leb_gt _ _)); [reflexivity|lia].
      * rewrite IH by lia. cbv zeta.
        replace (t + (Z.of_nat (length p) + lens ps) + Z.of_nat (S (length ps)) * Z.of_nat (length sep))
          with (t + Z.of_nat (length p) + Z.of_nat (length sep) + lens ps + Z.of_nat (length ps) * Z.of_nat (length sep)) by lia.
        reflexivity.
Qed.

Lemma join_fold : forall sep cap ps w,
  Z.of_nat (length w) + lens ps + Z.of_nat (length ps) * Z.of_nat (length sep) <= cap ->
  fold_left (fun w v => rbind (rbind w (fun w => emit cap w sep)) (fun w => emit cap w v)) ps (Ok w) =
  Ok (w ++ concat (map (fun p => sep ++ p) ps)).
Proof.
  intros sep cap ps. induction ps as [|p ps IH]; intros w L.
  - simpl. rewrite app_nil_r. reflexivity.
  - cbn [fold_left]. cbn [lens length] in L.
    assert (P : 0 <= lens ps) by (clear; induction ps; simpl; lia).
    assert (Q : 0 <= Z.of_nat (length ps) * Z.of_nat (length sep)) by lia.
    cbn [rbind]. rewrite emit_ok by lia. cbn [rbind]. rewrite emit_ok by (rewrite app_length; lia).
    rewrite IH.
    + simpl. rewrite <- !app_assoc. reflexivity.
    + rewrite !app_length. lia.
Qed.
Lemma glue_concat : forall sep p ps, glue sep (p :: ps) = p ++ concat (map (fun p => sep ++ p) ps).
Proof.
  intros sep p ps. revert p. induction ps as [|q ps IH]; intro p; [simpl; now rewrite app_nil_r|].
  rewrite glue_cons, IH. simpl. rewrite <- !app_assoc. reflexivity.
Qed.

Lemma join_ok : forall ps sep,
  join ps sep = if Z.of_nat (length (glue sep ps)) <=? INT32_MAX then Ok (glue sep ps) else UB.
Proof.
  intros [|p ps] sep; [reflexivity|]. unfold join, join_total.
  assert (P : 0 <= lens ps) by (clear; induction ps; simpl; lia).
  assert (Q : 0 <= Z.of_nat (length ps) * Z.of_nat (length sep)) by lia.
  assert (U : forall l, fold_left (fun t v => add_len (add_len t v) sep) l UB = UB) by (induction l; simpl; auto).
  pose proof (glue_length sep p ps) as G.
  rewrite add_len_eq. rewrite Z.add_0_l.
  destruct (INT32_MAX <? Z.of_nat (length p)) eqn:E1.
  - rewrite U. rewrite (proj2 (Z.leb_gt _ _)); [reflexivity|lia].
  - rewrite join_total_fold by lia. cbv zeta. rewrite <- G.
    destruct (Z.of_nat (length (glue sep (p :: ps))) <=? INT32_MAX); [|reflexivity]. cbn [rbind].
    rewrite emit_ok by (cbn [length]; lia). change ([] ++ p) with p. rewrite join_fold by (cbn [length]; lia). cbn [rbind].
    rewrite <- glue_concat.
    rewrite emit_ok by (cbn [length]; lia). reflexivity.
Qed.

(** ---- gluing pieces that do not contain an unbordered separator ---- *)
Lemma first_after_piece : forall sep p r, sep <> [] -> unbordered sep -> ~ occurs sep p ->
  first_at sep (p ++ sep ++ r) (length p).
Proof.
  intros sep p r N U H. split; [exists p, r; auto|].
  intros j O. destruct (le_lt_dec (length p) j) as [|L]; [assumption|]. exfalso.
  apply occurs_at_iff in O as [_ O].
  destruct (le_lt_dec (j + length sep) (length p)) as [In|Over].
  - apply H. exists j. apply occurs_at_iff. split; [exact In|].
    rewrite skipn_app in O. replace (j - length p)%nat with 0%nat in O by lia. simpl in O.
    rewrite firstn_app, skipn_length in O. replace (length sep - (length p - j))%nat with 0%nat in O by lia.
    simpl in O. now rewrite app_nil_r in O.
  - set (k := (length p - j)%nat) in *.
    assert (E : sep = skipn j p ++ firstn (length sep - k) sep).
    { rewrite skipn_app in O. replace (j - length p)%nat with 0%nat in O by lia. simpl in O.
      rewrite firstn_app, skipn_length in O. fold k in O.
      rewrite (firstn_all2 (skipn j p)) in O by (rewrite skipn_length; lia).
      rewrite firstn_app in O. replace (length sep - k - length sep)%nat with 0%nat in O by lia.
      simpl in O. rewrite app_nil_r in O. symmetry. exact O. }
    destruct (U (skipn j p) (firstn (length sep - k) sep) (skipn (length sep - k) sep) E) as [X|X].
    + symmetry. apply firstn_skipn.
    + apply (f_equal (@length Z)) in X. rewrite firstn_length in X. simpl in X. lia.
    + apply (f_equal (@length Z)) in X. rewrite skipn_length in X. simpl in X. lia.
Qed.
Lemma glue_cut : forall sep p ps, sep <> [] -> unbordered sep -> Forall (fun p => ~ occurs sep p) (p :: ps) ->
  cut sep (glue sep (p :: ps)) (p :: ps).
Proof.
  intros sep p ps N U. revert p. induction ps as [|q ps IH]; intros p H; inversion H; subst.
  - now constructor.
  - rewrite glue_cons. constructor; [now apply first_after_piece|]. apply IH. assumption.
Qed.

(** ---- trimming ---- *)
Lemma isspace_blank : forall c, isspace c = true <-> blank c.
Proof. intro c. unfold isspace, blank. simpl. lia. Qed.

Lemma skip_left_ok : forall s n i, (i + n <= length s)%nat -> 
  let k := skip_left s n i (i + n) in
  (i <= k <= i + n)%nat /\ Forall blank (firstn (k - i) (skipn i s)) /\
  ((k < i + n)%nat -> ~ blank (nth k s 0)).
Proof.
  intros s n. induction n as [|n IH]; intros i L; cbn [skip_left].
  - rewrite Nat.sub_diag. simpl. split; [lia|]. split; [constructor|lia].
  - replace (i + S n)%nat with (S i + n)%nat by lia.
    rewrite (proj2 (Nat.ltb_lt i (S i + n))) by lia. cbn [andb].
    destruct (isspace (nth i s 0)) eqn:E.
    + specialize (IH (S i) ltac:(lia)). cbv zeta in IH |- *. destruct IH as (B & F & X).
      split; [lia|]. split; [|exact X].
      rewrite skipn_cons_nth by lia. set (k := skip_left s n (S i) (S i + n)) in *.
      replace (k - i)%nat with (S (k - S i)) by lia. cbn [firstn]. constructor; [now apply isspace_blank|exact F].
    + cbv zeta. rewrite Nat.sub_diag. simpl. split; [lia|]. split; [constructor|].
      intros _ B. apply isspace_blank in B. congruence.
Qed.
Lemma skip_right_ok : forall s stop start, (start <= stop <= length s)%nat ->
  let k := skip_right s stop start in
  (start <= k <= stop)%nat /\ Forall blank (firstn (stop - k) (skipn k s)) /\
  ((start < k)%nat -> ~ blank (nth (k - 1) s 0)).
Proof.
  intros s stop. induction stop as [|e IH]; intros start L; cbn [skip_right].
  - simpl. split; [lia|]. split; [constructor|lia].
  - destruct (start <? S e)%nat eqn:E1; cbn [andb].
    + destruct (isspace (nth e s 0)) eqn:E2.
      * specialize (IH start ltac:(lia)). cbv zeta in IH |- *. destruct IH as (B & F & X).
        split; [lia|]. split; [|exact X]. set (k := skip_right s e start) in *.
        replace (S e - k)%nat with (S (e - k)) by lia. rewrite firstn_step by lia.
        apply Forall_app. split; [exact F|]. constructor; [|constructor].
        replace (k + (e - k))%nat with e by lia. now apply isspace_blank.
      * cbv zeta. rewrite Nat.sub_diag. simpl firstn. split; [lia|]. split; [constructor|].
        intros _ B. replace (S e - 1)%nat with e in B by lia. apply isspace_blank in B. congruence.
    + cbv zeta. rewrite Nat.sub_diag. simpl firstn. split; [lia|]. split; [constructor|]. lia.
Qed.

Lemma piece_start : forall (s : bytes) a n, (a + n <= length s)%nat ->
  forall c r, firstn n (skipn a s) = c :: r -> c = nth a s 0 /\ (0 < n)%nat.
Proof.
  intros s a n L c r E. destruct n; [discriminate|]. rewrite skipn_cons_nth in E by lia.
  simpl in E. injection E as <- _. split; [reflexivity|lia].
Qed.
Lemma piece_end : forall (s : bytes) a n, (a + n <= length s)%nat ->
  forall c r, firstn n (skipn a s) = r ++ [c] -> c = nth (a + n - 1) s 0 /\ (0 < n)%nat.
Proof.
  intros s a n L c r E. destruct n; [destruct r; discriminate|]. rewrite firstn_step in E by lia.
  apply app_inj_tail in E as [_ <-]. split; [f_equal; lia|lia].
Qed.
Lemma three_parts : forall (s : bytes) a b, (a <= b <= length s)%nat ->
  s = firstn a s ++ firstn (b - a) (skipn a s) ++ skipn b s.
Proof.
  intros s a b L. rewrite <- (firstn_skipn a s) at 1. f_equal.
  rewrite <- (firstn_skipn (b - a) (skipn a s)) at 1. f_equal. rewrite skipn_plus. f_equal. lia.
Qed.

Lemma trim_ok : forall s, exists a t b, trim s = Ok t /\ s = a ++ t ++ b /\ Forall blank a /\ Forall blank b /\
  ~ starts_blank t /\ ~ ends_blank t.
Proof.
  intro s. unfold trim.
  pose proof (skip_left_ok s (length s) 0 ltac:(lia)) as H. simpl plus in H. cbv zeta in H.
  set (k := skip_left s (length s) 0 (length s)) in *. destruct H as (B & F & X).
  pose proof (skip_right_ok s (length s) k ltac:(lia)) as H. cbv zeta in H.
  set (e := skip_right s (length s) k) in *. destruct H as (B2 & F2 & X2).
  exists (firstn k s), (firstn (e - k) (skipn k s)), (skipn e s).
  split; [apply substr_ok; lia|]. split; [apply three_parts; lia|].
  split; [rewrite Nat.sub_0_r in F; exact F|].
  split; [rewrite firstn_all2 in F2 by (rewrite skipn_length; lia); exact F2|].
  split.
  - intros (c & r & E & Bl). apply piece_start in E as [-> P]; [|lia]. revert Bl. apply X. lia.
  - intros (c & r & E & Bl). apply piece_end in E as [-> P]; [|lia].
    replace (k + (e - k) - 1)%nat with (e - 1)%nat in Bl by lia. revert Bl. apply X2. lia.
Qed.
Lemma trim_left_ok : forall s, exists a t, trim_left s = Ok t /\ s = a ++ t /\ Forall blank a /\ ~ starts_blank t.
Proof.
  intro s. unfold trim_left.
  pose proof (skip_left_ok s (length s) 0 ltac:(lia)) as H. simpl plus in H. cbv zeta in H.
  set (k := skip_left s (length s) 0 (length s)) in *. destruct H as (B & F & X).
  exists (firstn k s), (firstn (length s - k) (skipn k s)).
  split; [apply substr_ok; lia|].
  split; [rewrite (firstn_all2 (skipn k s)) by (rewrite skipn_length; lia); now rewrite firstn_skipn|].
  split; [rewrite Nat.sub_0_r in F; exact F|].
  intros (c & r & E & Bl). apply piece_start in E as [-> P]; [|lia]. revert Bl. apply X. lia.
Qed.
Lemma trim_right_ok : forall s, exists t b, trim_right s = Ok t /\ s = t ++ b /\ Forall blank b /\ ~ ends_blank t.
Proof.
  intro s. unfold trim_right.
  pose proof (skip_right_ok s (length s) 0 ltac:(lia)) as H. cbv zeta in H.
  set (e := skip_right s (length s) 0) in *. destruct H as (B2 & F2 & X2).
  exists (firstn e (skipn 0 s)), (skipn e s).
  split; [apply substr_ok; lia|]. split; [simpl; now rewrite firstn_skipn|].
  split; [rewrite firstn_all2 in F2 by (rewrite skipn_length; lia); exact F2|].
  intros (c & r & E & Bl). apply piece_end in E as [-> P]; [|lia].
  replace (0 + e - 1)%nat with (e - 1)%nat in Bl by lia. revert Bl. apply X2. lia.
Qed.

(** ---- repeat, reverse, padding ---- *)
Lemma copies_length : forall n s, length (copies n s) = (n * length s)%nat.
Proof. induction n; intro s; simpl; [reflexivity|]. rewrite app_length, IHn. reflexivity. Qed.
Lemma repeat_loop_ok : forall s cap n w,
  Z.of_nat (length w) + Z.of_nat n * Z.of_nat (length s) + 1 <= cap ->
  repeat_loop s cap n w = Ok (w ++ copies n s).
Proof.
  intros s cap n. induction n as [|n IH]; intros w L; cbn [repeat_loop copies].
  - rewrite emit_ok by (simpl length; lia). simpl. now rewrite app_nil_r.
  - rewrite emit_ok by lia. cbn [rbind]. rewrite IH; [now rewrite <- app_assoc|].
    rewrite app_length. lia.
Qed.
Lemma copies_nil : forall n, copies n [] = [].
Proof. induction n; simpl; auto. Qed.

Lemma reverse_rev : forall s, reverse s = rev s.
Proof.
  intro s. unfold reverse. apply nth_ext with 0 0.
  - rewrite map_length, seq_length, rev_length. reflexivity.
  - rewrite map_length, seq_length. intros n L.
    set (f := fun i => nth (length s - 1 - i) s 0).
    rewrite (nth_indep _ 0 (f 0%nat)) by (rewrite map_length, seq_length; exact L).
    rewrite map_nth, seq_nth by exact L. unfold f. rewrite rev_nth by exact L. f_equal. lia.
Qed.
Lemma with_width_ok : forall buf width, Z.of_nat (length buf) = width -> width <= INT32_MAX ->
  with_width buf width = Ok buf.
Proof.
  intros buf width L M. unfold with_width, wrap_i. unfold INT32_MAX in M. change (2 ^ (32 - 1)) with 2147483648. change (2 ^ 32) with 4294967296.
  rewrite Z.mod_small by lia. cbv zeta. rewrite (proj2 (Z.ltb_lt width 2147483648)) by lia. rewrite (proj2 (Z.ltb_ge width 0)) by lia.
  rewrite firstn_all2 by lia. reflexivity.
Qed.
