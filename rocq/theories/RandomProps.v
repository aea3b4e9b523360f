(** C146, C147: the random module. *)
From Coq Require Import Permutation.
From Verif Require Import Base ArrayModel ArrayProofs ArrayMore RandomSpec RandomModel.

Section Run.
Context {G : Type} (srand : Z -> G) (rand : G -> Z * G).
Notation step := (step srand rand). Notation run := (run srand rand).
Lemma draw_seeded s : seeded (snd (draw rand s)) = seeded s.
Proof. unfold draw. destruct (rand (gen s)). reflexivity. Qed.
Lemma draws_seeded n : forall s, seeded (snd (draws rand n s)) = seeded s.
Proof.
  induction n as [|n IH]; intros s; [reflexivity|]. cbn. pose proof (draw_seeded s). destruct (draw rand s) as [r s1]. specialize (IH s1). destruct (draws rand n s1). cbn in *. congruence.
Qed.
Lemma ensure_seeded now s : seeded (ensure_seed srand now s) = true.
Proof. unfold ensure_seed. destruct (seeded s) eqn:E; [exact E|reflexivity]. Qed.
Lemma ensure_same now now' s : seeded s = true -> ensure_seed srand now s = ensure_seed srand now' s.
Proof. unfold ensure_seed. intros ->. reflexivity. Qed.
Lemma step_clock now now' s c : seeded s = true -> step now s c = step now' s c.
Proof. intros E. destruct c; cbn; rewrite ?(ensure_same now now' s E); reflexivity. Qed.
Lemma step_seeded now s c : seeded s = true -> seeded (snd (step now s c)) = true.
Proof.
  intros E. assert (N : ensure_seed srand now s = s) by (unfold ensure_seed; now rewrite E).
  assert (W : forall f, seeded (snd (with_draw rand f s)) = true) by (intros f; unfold with_draw; pose proof (draw_seeded s); destruct (draw rand s); cbn in *; congruence).
  assert (M : forall m, seeded (snd (int_max rand m s)) = true) by (intros m; unfold int_max; destruct (m <=? 0); [exact E|]; pose proof (draw_seeded s); destruct (draw rand s); cbn in *; congruence).
  assert (D : forall l, seeded (snd (do_shuffle rand l s)) = true) by (intros l; unfold do_shuffle; pose proof (draws_seeded (length l - 1) s); destruct (draws rand (length l - 1) s); cbn in *; congruence).
  destruct c as [v|m|a b| | | |a b|l|l|l n]; cbn [RandomModel.step]; cbv zeta; rewrite ?N; try apply W.
  - reflexivity.
  - specialize (M m). destruct (int_max rand m s). exact M.
  - destruct (b <=? a); [exact E|apply W].
  - destruct (b <=? a); [exact E|apply W].
  - specialize (M (Z.of_nat (length l))). destruct (int_max rand _ s). exact M.
  - specialize (D l). destruct (do_shuffle rand l s). exact D.
  - destruct (_ <? _); [exact E|]. destruct (_ <? _); [exact E|]. specialize (D l). destruct (do_shuffle rand l s). exact D.
Qed.
Lemma run_clock cs : forall clock clock' i i' s, seeded s = true -> run clock i s cs = run clock' i' s cs.
Proof.
  induction cs as [|c t IH]; intros clock clock' i i' s E; [reflexivity|]. cbn [RandomModel.run]. rewrite (step_clock (clock i) (clock' i') s c E).
  pose proof (step_seeded (clock' i') s c E) as E'. destruct (step (clock' i') s c) as [o s']. f_equal. destruct o; auto.
Qed.
End Run.
(** C146.  After seed(v) everything the module returns is decided by v and the
    calls: not by the clock, nor by what was called or seeded before. *)
Theorem seed_reproducible : forall G (srand : Z -> G) (rand : G -> Z * G) clock clock' i i' s s' v cs,
  run srand rand clock i s (Seed v :: cs) = run srand rand clock' i' s' (Seed v :: cs).
Proof. intros. cbn [run step]. f_equal. now apply run_clock. Qed.
(** Without seed the first use is seeded with the time, once: the calls return
    what they do after seed(now), even if time goes on afterwards. *)
Lemma unseeded_now : forall G (srand : Z -> G) (rand : G -> Z * G) cs clock i g t, (forall k, (i <= k)%nat -> clock k = t) ->
  run srand rand clock i (St false g) cs = run srand rand clock i (St true (srand (wrap_u 32 t))) cs.
Proof.
  intros G srand rand. set (fresh t := St true (srand (wrap_u 32 t))).
  induction cs as [|c r IH]; intros clock i g t C; [reflexivity|].
  assert (E : forall n, ensure_seed srand n (fresh t) = fresh t) by reflexivity.
  assert (F : ensure_seed srand (clock i) (St false g) = fresh t) by (unfold ensure_seed, fresh; cbn; now rewrite C by lia).
  fold (fresh t). cbn [run].
  destruct c as [v|m|a b| | | |a b|l|l|l n]; cbn [step]; cbv zeta; rewrite ?E, ?F; try reflexivity.
  destruct (_ <? _); [reflexivity|]. destruct (_ <? _); [reflexivity|]. reflexivity.
Qed.
Theorem unseeded_is_seeded_once : forall G (srand : Z -> G) (rand : G -> Z * G) cs clock i g t, (forall k, (i <= k)%nat -> clock k = t) ->
  Ok Nothing :: run srand rand clock i (St false g) cs = run srand rand clock i (St false g) (Seed t :: cs).
Proof. intros G srand rand cs clock i g t C. cbn [run step]. f_equal. rewrite (unseeded_now G srand rand cs clock i g t C). now apply run_clock. Qed.
(** The time of the first call is all that counts: later times do not matter. *)
Lemma step_first {G} (srand : Z -> G) rand now s c a : fst (step srand rand now s c) = Ok a -> seeded (snd (step srand rand now s c)) = true.
Proof.
  intros H. assert (E : step srand rand now s c = step srand rand now (ensure_seed srand now s) c -> seeded (snd (step srand rand now s c)) = true).
  { intros ->. apply step_seeded. apply ensure_seeded. }
  assert (I : ensure_seed srand now (ensure_seed srand now s) = ensure_seed srand now s) by (unfold ensure_seed at 1; now rewrite ensure_seeded).
  destruct c as [v|m|x y| | | |x y|l|l|l n]; try (apply E; cbn [step]; cbv zeta; rewrite ?I; reflexivity).
  cbn [step] in *. cbv zeta in *. destruct (_ <? _); [discriminate|]. destruct (_ <? _); [discriminate|]. apply E. now rewrite I.
Qed.
Theorem unseeded_first : forall G (srand : Z -> G) (rand : G -> Z * G) c cs clock clock' i s, clock i = clock' i ->
  run srand rand clock i s (c :: cs) = run srand rand clock' i s (c :: cs).
Proof.
  intros G srand rand c cs clock clock' i s C. cbn [run]. rewrite C. pose proof (step_first srand rand (clock' i) s c) as F.
  destruct (step srand rand (clock' i) s c) as [o s']. f_equal. destruct o as [a| | |]; try reflexivity. apply run_clock. now apply (F a).
Qed.
(** Only the low 32 bits of the seed count. *)
Theorem seed_low_bits : forall G (srand : Z -> G) (rand : G -> Z * G) clock i s v cs,
  run srand rand clock i s (Seed (v + 2 ^ 32) :: cs) = run srand rand clock i s (Seed v :: cs).
Proof.
  intros. cbn [run step]. f_equal. f_equal. f_equal. f_equal. unfold wrap_u. rewrite <- (Z.mul_1_l (2 ^ 32)) at 1. now rewrite Z.mod_add.
Qed.

(** * C147: what can come out *)
Theorem int_reach : forall max v, 0 < max <= INT32_MAX ->
  (0 <= v < max <-> exists r, 0 <= r <= INT32_MAX /\ random_int_max max r = Ok v).
Proof.
  intros max v H. unfold INT32_MAX in *. unfold random_int_max. assert (W : wrap_i 32 max = max).
  { unfold wrap_i. change (2 ^ 32) with 4294967296. change (2 ^ (32 - 1)) with 2147483648. cbv zeta. rewrite Z.mod_small by lia. destruct (max <? 2147483648) eqn:E; lia. }
  rewrite W. replace (max <=? 0) with false by lia. replace (max =? 0) with false by lia. split.
  - intros V. exists v. split; [lia|]. now rewrite Z.rem_small.
  - intros (r & R & [= <-]). apply Z.rem_bound_pos; lia.
Qed.
Theorem range_reach : forall min max v, in_i 64 min -> in_i 64 max -> 0 < max - min <= INT32_MAX ->
  (min <= v < max <-> exists r, 0 <= r <= INT32_MAX /\ random_int_range min max r = Ok v).
Proof.
  intros min max v H1 H2 H. pose proof (int_reach (max - min) (v - min) H) as K. unfold INT32_MAX in *. unfold random_int_range. unfold random_int_max in K.
  replace (max <=? min) with false by lia. replace (max - min <=? 0) with false in K by lia.
  assert (F : fits_i 64 (max - min) = true) by (unfold fits_i; change (2 ^ (64 - 1)) with 9223372036854775808; lia). rewrite F.
  destruct (wrap_i 32 (max - min) =? 0); split.
  - intros V. destruct (proj1 K ltac:(lia)) as (r & _ & D). discriminate D.
  - intros (r & _ & D). discriminate D.
  - intros V. destruct (proj1 K ltac:(lia)) as (r & R & [= D]). exists r. split; [exact R|]. rewrite D. f_equal. lia.
  - intros (r & R & D). injection D as D. assert (0 <= v - min < max - min); [|lia]. apply K. exists r. split; [exact R|]. f_equal. lia.
Qed.
(** Above that, not every value: rand_int(4294967297) is always 0, and
    rand_int(3000000000) stays below 1294967296. *)
Theorem reach_refuted : (forall r, random_int_max 4294967297 r = Ok 0) /\
  (forall r v, 0 <= r <= INT32_MAX -> random_int_max 3000000000 r = Ok v -> v < 1294967296).
Proof.
  split; intros r; unfold random_int_max.
  - change (wrap_i 32 4294967297) with 1. change (4294967297 <=? 0) with false. change (1 =? 0) with false. cbv iota. f_equal. apply Z.rem_1_r.
  - intros v R. change (wrap_i 32 3000000000) with (-1294967296). change (3000000000 <=? 0) with false. change (-1294967296 =? 0) with false. cbv iota. intros [= <-].
    pose proof (Z.rem_bound_abs r (-1294967296) ltac:(lia)). lia.
Qed.
Theorem byte_char_reach : (forall v, 0 <= v < 256 <-> exists r, 0 <= r <= INT32_MAX /\ random_byte r = v) /\
  (forall v, 32 <= v <= 126 <-> exists r, 0 <= r <= INT32_MAX /\ random_char r = v) /\
  (forall min max v, in_i 32 min -> in_i 32 max -> 0 < max - min <= INT32_MAX ->
     (min <= v < max <-> exists r, 0 <= r <= INT32_MAX /\ random_char_range min max r = Ok v)).
Proof.
  unfold random_byte, random_char, random_char_range, wrap_u, INT32_MAX. change (2 ^ 8) with 256. split; [|split].
  - intros v. split; [intros V; exists v; split; [lia|rewrite Z.rem_small, Z.mod_small; lia]|intros (r & R & <-); apply Z.mod_pos_bound; lia].
  - intros v. split; [intros V; exists (v - 32); split; [lia|rewrite Z.rem_small; lia]|intros (r & R & <-); pose proof (Z.rem_bound_pos r 95); lia].
  - intros min max v H1 H2 H. replace (max <=? min) with false by lia.
    assert (F : fits_i 32 (max - min) = true) by (unfold fits_i; change (2 ^ (32 - 1)) with 2147483648; lia). rewrite F. split.
    + intros V. exists (v - min). split; [lia|]. rewrite Z.rem_small by lia. f_equal. lia.
    + intros (r & R & E). injection E as E. pose proof (Z.rem_bound_pos r (max - min)). lia.
Qed.

(** choice gives an element, any of them can come out, and an empty array panics. *)
Theorem choice_member : forall G (srand : Z -> G) (rand : G -> Z * G) now s l, (forall g, 0 <= fst (rand g) <= INT32_MAX) ->
  Z.of_nat (length l) <= INT32_MAX ->
  match fst (step srand rand now s (Choice l)) with Ok (Value v) => In v l | Panic c => c = 33 /\ l = [] | _ => False end.
Proof.
  intros G srand rand now s l R L. cbn [step]. unfold int_max. destruct (Z.of_nat (length l) <=? 0) eqn:E.
  - destruct l as [|x l]; [cbn; auto|cbn [length] in E; lia].
  - unfold draw. specialize (R (gen (ensure_seed srand now s))). destruct (rand _) as [r g]. cbn [fst] in R.
    assert (V : exists v, random_int_max (Z.of_nat (length l)) r = Ok v /\ 0 <= v < Z.of_nat (length l)).
    { assert (H : 0 < Z.of_nat (length l) <= INT32_MAX) by lia. destruct (random_int_max (Z.of_nat (length l)) r) as [v|c| |] eqn:V.
      - exists v. split; [reflexivity|]. apply (int_reach _ v H). now exists r.
      - exfalso. unfold random_int_max in V. repeat destruct (_ : bool) in V; discriminate.
      - exfalso. unfold random_int_max in V. rewrite E in V. destruct (wrap_i 32 (Z.of_nat (length l)) =? 0) eqn:W; [|discriminate].
        unfold wrap_i in W. unfold INT32_MAX in *. change (2 ^ 32) with 4294967296 in W. change (2 ^ (32 - 1)) with 2147483648 in W. cbv zeta in W. rewrite Z.mod_small in W by lia. destruct (_ <? _) in W; lia.
      - exfalso. unfold random_int_max in V. repeat destruct (_ : bool) in V; discriminate. }
    destruct V as (v & -> & V). cbn [rbind fst]. destruct (nth_error l (Z.to_nat v)) as [x|] eqn:N; [now apply nth_error_In in N|]. apply nth_error_None in N. lia.
Qed.
Theorem choice_reach : forall l v, Z.of_nat (length l) <= INT32_MAX -> In v l ->
  exists r, 0 <= r <= INT32_MAX /\ forall G (srand : Z -> G) now s, fst (step srand (fun g => (r, g)) now s (Choice l)) = Ok (Value v).
Proof.
  intros l v L I. apply In_nth_error in I as [i N]. assert (K : (i < length l)%nat) by (apply nth_error_Some; congruence).
  destruct (proj1 (int_reach (Z.of_nat (length l)) (Z.of_nat i) ltac:(lia)) ltac:(lia)) as (r & R & E). exists r. split; [exact R|]. intros G srand now s.
  cbn [step]. unfold int_max. replace (Z.of_nat (length l) <=? 0) with false by lia. unfold draw. rewrite E. cbn [rbind fst]. now rewrite Nat2Z.id, N.
Qed.
(** sample cuts its count to 32 bits: 4294967297 of two elements is one, not a panic. *)
Theorem sample_refuted : forall G (srand : Z -> G) (rand : G -> Z * G) now s a b, exists x,
  fst (step srand rand now s (Sample [a; b] 4294967297)) = Ok (Values [x]).
Proof.
  intros. cbn [step]. change (wrap_i 32 4294967297) with 1. cbv zeta. change (Z.of_nat (length [a; b]) <? 1) with false. change (1 <? 0) with false. cbv iota.
  unfold do_shuffle. cbn [length Nat.sub draws]. destruct (draw rand _) as [r s']. unfold shuffle. cbn [length Nat.sub shuffle_loop].
  pose proof (shuffle_loop_perm 1 [a; b] [r]) as P. apply Permutation_length in P. cbn [shuffle_loop] in P. destruct (swap [a; b] 1 _) as [|x t]; [discriminate|]. now exists x.
Qed.

(** * Shuffle *)
Lemma nth_swap {A} (l : list A) i j x y k : nth_error l i = Some x -> nth_error l j = Some y ->
  nth_error (swap l i j) k = if (k =? j)%nat then Some x else if (k =? i)%nat then Some y else nth_error l k.
Proof.
  intros X Y. unfold swap. rewrite X, Y, !nth_update, update_length.
  assert (i < length l)%nat by (apply nth_error_Some; congruence). assert (j < length l)%nat by (apply nth_error_Some; congruence).
  replace (j <? length l)%nat with true by lia. replace (i <? length l)%nat with true by lia. reflexivity.
Qed.
Lemma swap_out {A} (l : list A) i j : nth_error l j <> None -> nth_error l i <> None ->
  nth_error (swap l i j) i = nth_error l j.
Proof.
  intros J I. destruct (nth_error l i) as [x|] eqn:X; [|congruence]. destruct (nth_error l j) as [y|] eqn:Y; [|congruence].
  rewrite (nth_swap l i j x y i X Y). destruct (i =? j)%nat eqn:E; [assert (i = j) by lia; subst; congruence|]. now replace (i =? i)%nat with true by lia.
Qed.
Lemma swap_above {A} (l : list A) i j k : (i < k)%nat -> (j < k)%nat -> nth_error (swap l i j) k = nth_error l k.
Proof.
  intros I J. unfold swap. destruct (nth_error l i) as [x|]; [|reflexivity]. destruct (nth_error l j) as [y|]; [|reflexivity].
  rewrite !nth_update. replace (k =? j)%nat with false by lia. now replace (k =? i)%nat with false by lia.
Qed.
Lemma loop_above {A} i : forall (l : list A) js k, (i < k)%nat -> nth_error (shuffle_loop l i js) k = nth_error l k.
Proof.
  induction i as [|i IH]; intros l js k K; [reflexivity|]. destruct js as [|j t]; [reflexivity|]. cbn [shuffle_loop]. rewrite IH by lia. apply swap_above; [lia|].
  pose proof (Z.mod_pos_bound j (Z.of_nat (S i + 1)) ltac:(lia)). lia.
Qed.
Lemma swap_perm {A} (l : list A) i j : (j <= i)%nat -> Permutation l (swap l i j).
Proof.
  intros H. destruct i as [|i].
  - assert (j = 0)%nat by lia. subst. unfold swap. destruct l as [|x t]; cbn; reflexivity.
  - pose proof (shuffle_loop_perm (S i) l [Z.of_nat j]) as P. cbn [shuffle_loop] in P. rewrite Z.mod_small in P by lia. rewrite Nat2Z.id in P. now destruct i.
Qed.
Lemma choices_step n js : choices (S (S n)) js -> exists j t, js = j :: t /\ 0 <= j < Z.of_nat (S (S n)) /\ choices (S n) t.
Proof. cbn [choices]. destruct js as [|j t]; [intros []|]. intros [A B]. eauto. Qed.
Lemma loop_unique {A} i : forall (l : list A) js js', NoDup l -> (i < length l)%nat -> choices (S i) js -> choices (S i) js' ->
  shuffle_loop l i js = shuffle_loop l i js' -> js = js'.
Proof.
  induction i as [|i IH]; intros l js js' N L C C' E; [cbn in C, C'; congruence|].
  apply choices_step in C as (j & t & -> & J & C). apply choices_step in C' as (j' & t' & -> & J' & C'). cbn [shuffle_loop] in E.
  rewrite !Z.mod_small in E by lia.
  assert (B : forall k, (k <= S i)%nat -> nth_error l k <> None) by (intros k K; apply nth_error_Some; lia).
  assert (EQ : nth_error l (Z.to_nat j) = nth_error l (Z.to_nat j')).
  { rewrite <- (swap_out l (S i) (Z.to_nat j)), <- (swap_out l (S i) (Z.to_nat j')) by (apply B; lia).
    rewrite <- (loop_above i (swap l (S i) (Z.to_nat j)) t (S i)), <- (loop_above i (swap l (S i) (Z.to_nat j')) t' (S i)) by lia. now rewrite E. }
  pose proof (proj1 (NoDup_nth_error l) N (Z.to_nat j) (Z.to_nat j') ltac:(lia) EQ) as JJ. assert (j = j') by lia. subst j'. f_equal.
  pose proof (swap_perm l (S i) (Z.to_nat j) ltac:(lia)) as P.
  apply (IH (swap l (S i) (Z.to_nat j))); auto; [now apply (Permutation_NoDup P)|rewrite <- (Permutation_length P); lia].
Qed.
Lemma loop_reach {A} i : forall (p p' t : list A), length p = S i -> Permutation p p' -> exists js, choices (S i) js /\ shuffle_loop (p ++ t) i js = p' ++ t.
Proof.
  induction i as [|i IH]; intros p p' t L P.
  - exists []. split; [reflexivity|]. destruct p as [|x [|y p]]; try discriminate. apply Permutation_length_1_inv in P. now subst.
  - assert (L' : length p' = S (S i)) by (now rewrite <- (Permutation_length P)).
    destruct (exists_last (l := p')) as (q & x & ->); [intros ->; discriminate|]. rewrite app_length in L'. cbn in L'.
    assert (I : In x p) by (apply (Permutation_in x (Permutation_sym P)); apply in_or_app; right; now left).
    apply In_nth_error in I as [j J]. assert (JL : (j < length p)%nat) by (apply nth_error_Some; congruence).
    set (w := swap (p ++ t) (S i) j).
    assert (W : nth_error w (S i) = Some x).
    { unfold w. rewrite swap_out; [rewrite nth_error_app1 by lia; exact J|rewrite nth_error_app1 by lia; congruence|]. apply nth_error_Some. rewrite app_length. lia. }
    pose proof (swap_perm (p ++ t) (S i) j ltac:(lia)) as PW. fold w in PW.
    assert (LW : length w = (length p + length t)%nat) by (rewrite <- (Permutation_length PW); apply app_length).
    assert (T : skipn (S (S i)) w = t).
    { transitivity (skipn (S (S i)) (p ++ t)); [|rewrite <- L; now rewrite skipn_app, skipn_all, Nat.sub_diag].
      assert (X : forall (a b : list A) n, length a = length b -> (forall k, (n <= k)%nat -> nth_error a k = nth_error b k) -> skipn n a = skipn n b).
      { clear. induction a as [|u a IHa]; intros [|v b] n LE H; try discriminate; [now destruct n|]. destruct n as [|n].
        - cbn [skipn]. pose proof (H 0%nat ltac:(lia)) as H0. cbn in H0. injection H0 as ->. f_equal. apply (IHa b 0%nat); [now injection LE|]. intros k _. apply (H (S k)). lia.
        - cbn [skipn]. apply IHa; [now injection LE|]. intros k K. apply (H (S k)). lia. }
      apply X; [rewrite LW, app_length; reflexivity|]. intros k K. apply swap_above; lia. }
    assert (F : w = firstn (S i) w ++ x :: t).
    { rewrite <- (firstn_skipn (S i) w) at 1. f_equal. rewrite <- T. clear -W. revert W. generalize (S i) as n. induction w as [|u w IHw]; intros [|n] H; try discriminate; cbn in *; [now injection H as ->|]. now apply IHw. }
    assert (PQ : Permutation (firstn (S i) w) q).
    { apply (Permutation_app_inv_r (x :: t)). rewrite <- F. rewrite <- PW. rewrite (Permutation_app_tail t P). rewrite <- app_assoc. reflexivity. }
    destruct (IH (firstn (S i) w) q (x :: t)) as (js & C & S'); [rewrite firstn_length; lia|exact PQ|].
    exists (Z.of_nat j :: js). split; [split; [lia|exact C]|]. cbn [shuffle_loop]. rewrite Z.mod_small by lia. rewrite Nat2Z.id. fold w. rewrite F, S', <- app_assoc. reflexivity.
Qed.
(** C147.  A shuffle reaches every order of the elements, and each by exactly one
    sequence of choices, so equally likely choices make equally likely orders. *)
Theorem shuffle_reaches : forall (A : Type) (l l' : list A), Permutation l l' -> exists js, choices (length l) js /\ shuffle l js = l'.
Proof.
  intros A l l' P. destruct (length l) as [|i] eqn:L.
  - exists []. split; [reflexivity|]. apply length_zero_iff_nil in L. subst. apply Permutation_nil in P. now subst.
  - destruct (loop_reach i l l' [] L P) as (js & C & E). rewrite !app_nil_r in E. exists js. split; [exact C|]. unfold shuffle. rewrite L. replace (S i - 1)%nat with i by lia. exact E.
Qed.
Theorem shuffle_uniform : forall (A : Type) (l l' : list A), NoDup l -> Permutation l l' -> exists! js, choices (length l) js /\ shuffle l js = l'.
Proof.
  intros A l l' N P. destruct (shuffle_reaches A l l' P) as (js & C & E). exists js. split; [split; assumption|]. intros js' [C' E'].
  destruct (length l) as [|i] eqn:L; [cbn in *; congruence|]. unfold shuffle in *. rewrite L in *. replace (S i - 1)%nat with i in * by lia.
  apply (loop_unique i l); auto; [lia|congruence].
Qed.

(** * Cases *)
Definition lcg (g : Z) : Z * Z := let n := (g * 1103515245 + 12345) mod 2147483648 in (n, n).
Example run_case : run (fun z => z) lcg (fun k => 1700000000 + Z.of_nat k) 0 (St false 0)
    [Seed 42; IntMax 10; Shuffle [1; 2; 3; 4]; Choice [7; 8; 9]; IntRange 5 5; Sample [1; 2; 3] 2; Sample [1; 2] 3; Byte] =
  [Ok Nothing; Ok (Value 7); Ok (Values [2; 4; 3; 1]); Ok (Value 8); Ok (Value 5); Ok (Values [3; 2]); Panic 62].
Proof. vm_compute. reflexivity. Qed.
Example choice_empty : forall clock g, run (fun z => z) lcg clock 0 (St false g) [Choice []; Byte] = [Panic 33].
Proof. reflexivity. Qed.
Example choices_case : choices 4 [2; 0; 1] /\ shuffle [1; 2; 3; 4] [2; 0; 1] = [4; 2; 1; 3].
Proof. split; [cbn; repeat split; lia|reflexivity]. Qed.
Print Assumptions seed_reproducible.
Print Assumptions unseeded_is_seeded_once.
Print Assumptions unseeded_first.
Print Assumptions seed_low_bits.
Print Assumptions int_reach.
Print Assumptions range_reach.
Print Assumptions reach_refuted.
Print Assumptions byte_char_reach.
Print Assumptions shuffle_reaches.
Print Assumptions shuffle_uniform.
Print Assumptions choice_member.
Print Assumptions choice_reach.
Print Assumptions sample_refuted.
