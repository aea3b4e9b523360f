(** Wake-ups are not lost, and operations settle. *)
From Verif Require Import Base ChannelSpec ChannelModel ChannelProofs ChannelProofs2.
Ltac Zify.zify_post_hook ::= Z.div_mod_to_equations.

Fixpoint sumz (f : pc -> Z) (l : list pc) : Z := match l with [] => 0 | p :: l => f p + sumz f l end.
Lemma sum_set f l t p p' : nth_error l t = Some p -> sumz f (set_nth l t p') = sumz f l - f p + f p'.
Proof.
  revert t; induction l as [|x l IH]; intros [|t] E; cbn in *; try discriminate.
  - injection E as <-. lia.
  - rewrite (IH _ E). lia.
Qed.
Lemma sum_nonneg f l : (forall p, 0 <= f p) -> 0 <= sumz f l.
Proof. intros H. induction l as [|x l IH]; cbn; [lia|]. specialize (H x). lia. Qed.
Lemma sum_pos_in f l : (forall p, 0 <= f p) -> 0 < sumz f l -> exists t p, nth_error l t = Some p /\ 0 < f p.
Proof.
  intros H. induction l as [|x l IH]; cbn; [lia|]. intros K. destruct (Z.eq_dec (f x) 0) as [E|N].
  - destruct IH as (t & p & A & B); [lia|]. exists (S t), p. split; assumption.
  - exists 0%nat, x. split; [reflexivity|]. specialize (H x). lia.
Qed.
Lemma sum_in f l t p : (forall p, 0 <= f p) -> nth_error l t = Some p -> f p <= sumz f l.
Proof.
  intros H. revert t; induction l as [|x l IH]; intros [|t] E; cbn in *; try discriminate.
  - injection E as <-. pose proof (sum_nonneg f l H). lia.
  - specialize (IH _ E). specialize (H x). lia.
Qed.
Lemma sum_none f l : (forall p, In p l -> f p = 0) -> sumz f l = 0.
Proof. induction l as [|x l IH]; cbn; intros H; [reflexivity|]. rewrite (H x), IH; auto. Qed.
Lemma sum_broadcast f waits l : sumz f (broadcast waits l) = sumz (fun p => if waits p then f (wake p) else f p) l.
Proof. induction l as [|x l IH]; cbn; [reflexivity|]. rewrite <- IH. destruct (waits x); reflexivity. Qed.
Lemma sum_ext f g l : (forall p, f p = g p) -> sumz f l = sumz g l.
Proof. intros H. induction l; cbn; congruence. Qed.
Lemma sum_le f g l : (forall p, f p <= g p) -> sumz f l <= sumz g l.
Proof. intros H. induction l as [|x l IH]; cbn; [lia|]. specialize (H x). lia. Qed.

Definition slept_f (p : pc) : Z := match p with PWait _ => 1 | _ => 0 end.
Definition slept_e (p : pc) : Z := match p with GWait => 1 | _ => 0 end.
Definition pend_f (p : pc) : Z :=
  match p with
  | PAwake _ | PTest _ _ | PClosed _ | PStore _ _ | PTail _ _ | PCount _ _ | GSignal _ _ => 1
  | _ => 0
  end.
Definition pend_e (p : pc) : Z :=
  match p with
  | GAwake | GTest _ | GEnded | GLoad _ | GHead _ _ | GCount _ _ | PSignal _ _ => 1
  | _ => 0
  end.
Definition cast_f (p : pc) : Z := match p with CCast1 => 1 | _ => 0 end.
Definition cast_e (p : pc) : Z := match p with CCast1 | CCast2 => 1 | _ => 0 end.
Definition wake_ok (s : state) : Prop :=
  (0 < sumz slept_f (pcs s) -> capacity (ch s) - count (ch s) <= sumz pend_f (pcs s)) /\
  (0 < sumz slept_e (pcs s) -> count (ch s) <= sumz pend_e (pcs s)) /\
  (closed (ch s) = true -> 0 < sumz slept_f (pcs s) -> 0 < sumz cast_f (pcs s)) /\
  (closed (ch s) = true -> 0 < sumz slept_e (pcs s) -> 0 < sumz cast_e (pcs s)).

Lemma slept_f_nn p : 0 <= slept_f p. Proof. destruct p; cbn; lia. Qed.
Lemma slept_e_nn p : 0 <= slept_e p. Proof. destruct p; cbn; lia. Qed.
Lemma pend_f_nn p : 0 <= pend_f p. Proof. destruct p; cbn; lia. Qed.
Lemma pend_e_nn p : 0 <= pend_e p. Proof. destruct p; cbn; lia. Qed.
Lemma cast_f_nn p : 0 <= cast_f p. Proof. destruct p; cbn; lia. Qed.
Lemma cast_e_nn p : 0 <= cast_e p. Proof. destruct p; cbn; lia. Qed.

Lemma no_cast s t p : lock_ok s -> nth_error (pcs s) t = Some p -> holds p = true -> cast_e p = 0 ->
  sumz cast_f (pcs s) = 0 /\ sumz cast_e (pcs s) = 0.
Proof.
  intros L E H K.
  assert (sumz cast_e (pcs s) = 0) as Z0.
  { pose proof (sum_nonneg cast_e (pcs s) cast_e_nn). destruct (Z.eq_dec (sumz cast_e (pcs s)) 0) as [|N]; [assumption|exfalso].
    destruct (sum_pos_in cast_e (pcs s) cast_e_nn) as (u & p' & E' & P'); [lia|].
    assert (holds p' = true) as H' by (destruct p'; cbn in P'; try lia; reflexivity).
    pose proof (lock_here _ _ _ L E H) as O1. pose proof (lock_here _ _ _ L E' H') as O2.
    rewrite O1 in O2. injection O2 as <-. rewrite E in E'. injection E' as <-. lia. }
  split; [|exact Z0]. pose proof (sum_nonneg cast_f (pcs s) cast_f_nn).
  assert (sumz cast_f (pcs s) <= sumz cast_e (pcs s)) by (apply sum_le; intros []; cbn; lia). lia.
Qed.

(** what signal does to the sums *)
Lemma signal_spec waits w l l' : signal waits w l = Some l' ->
  (existsb waits l = false /\ l' = l) \/
  (exists p, nth_error l w = Some p /\ waits p = true /\ l' = set_nth l w (wake p)).
Proof.
  unfold signal. destruct (existsb waits l).
  - destruct (nth_error l w) as [p|]; [|discriminate]. destruct (waits p) eqn:E; [|discriminate]. intros [= <-]. right. eauto.
  - intros [= <-]. auto.
Qed.
Lemma no_sleepers_f l : existsb waits_full l = false -> sumz slept_f l = 0.
Proof.
  induction l as [|x l IH]; cbn; [reflexivity|]. intros H. apply orb_false_iff in H. destruct H as [A B].
  rewrite (IH B). destruct x; cbn in *; try lia; discriminate.
Qed.
Lemma no_sleepers_e l : existsb waits_empty l = false -> sumz slept_e l = 0.
Proof.
  induction l as [|x l IH]; cbn; [reflexivity|]. intros H. apply orb_false_iff in H. destruct H as [A B].
  rewrite (IH B). destruct x; cbn in *; try lia; discriminate.
Qed.
Lemma cast_full_sums l :
  sumz slept_f (broadcast waits_full l) = 0 /\ sumz slept_e (broadcast waits_full l) = sumz slept_e l /\
  sumz pend_e (broadcast waits_full l) = sumz pend_e l /\ sumz cast_e (broadcast waits_full l) = sumz cast_e l.
Proof.
  rewrite !sum_broadcast. repeat split.
  - apply sum_none. intros [] _; reflexivity.
  - apply sum_ext. intros []; reflexivity.
  - apply sum_ext. intros []; reflexivity.
  - apply sum_ext. intros []; reflexivity.
Qed.
Lemma cast_empty_sums l :
  sumz slept_e (broadcast waits_empty l) = 0 /\ sumz slept_f (broadcast waits_empty l) = sumz slept_f l /\
  sumz pend_f (broadcast waits_empty l) = sumz pend_f l /\ sumz cast_f (broadcast waits_empty l) = sumz cast_f l.
Proof.
  rewrite !sum_broadcast. repeat split.
  - apply sum_none. intros [] _; reflexivity.
  - apply sum_ext. intros []; reflexivity.
  - apply sum_ext. intros []; reflexivity.
  - apply sum_ext. intros []; reflexivity.
Qed.

Ltac sums s :=
  pose proof (sum_nonneg slept_f (pcs s) slept_f_nn); pose proof (sum_nonneg slept_e (pcs s) slept_e_nn);
  pose proof (sum_nonneg pend_f (pcs s) pend_f_nn); pose proof (sum_nonneg pend_e (pcs s) pend_e_nn);
  pose proof (sum_nonneg cast_f (pcs s) cast_f_nn); pose proof (sum_nonneg cast_e (pcs s) cast_e_nn).
Ltac insum E :=
  pose proof (sum_in slept_f _ _ _ slept_f_nn E); pose proof (sum_in slept_e _ _ _ slept_e_nn E);
  pose proof (sum_in pend_f _ _ _ pend_f_nn E); pose proof (sum_in pend_e _ _ _ pend_e_nn E);
  pose proof (sum_in cast_f _ _ _ cast_f_nn E); pose proof (sum_in cast_e _ _ _ cast_e_nn E).

(** thread t moves, the channel becomes c' *)
Lemma wake_move s t p p' s' : wake_ok s -> nth_error (pcs s) t = Some p ->
  pcs s' = set_nth (pcs s) t p' ->
  (slept_f p' <= slept_f p /\ capacity (ch s') - count (ch s') - (capacity (ch s) - count (ch s)) <= pend_f p' - pend_f p
   \/ capacity (ch s') - count (ch s') <= 0
   \/ (closed (ch s) = true /\ sumz cast_f (pcs s) = 0 /\ slept_f p' <= slept_f p)) ->
  (slept_e p' <= slept_e p /\ count (ch s') - count (ch s) <= pend_e p' - pend_e p
   \/ count (ch s') <= 0) ->
  (closed (ch s') = true -> cast_f p' = 1 \/ (closed (ch s) = true /\ cast_f p' = cast_f p /\ slept_f p' <= slept_f p)) ->
  (closed (ch s') = true -> cast_e p' = 1 \/ (closed (ch s) = true /\ cast_e p' = cast_e p /\ slept_e p' <= slept_e p)) ->
  wake_ok s'.
Proof.
  intros (A & B & C & D) E P HF HE CF CE. unfold wake_ok. rewrite P, !(sum_set _ _ _ _ _ E).
  sums s. insum E.
  assert (0 <= pend_f p') by apply pend_f_nn. assert (0 <= pend_e p') by apply pend_e_nn.
  assert (0 <= cast_f p') by apply cast_f_nn. assert (0 <= cast_e p') by apply cast_e_nn.
  split; [|split; [|split]].
  - intros K. destruct HF as [[F1 F2]|[F|(F1 & F2 & F3)]]; [specialize (A ltac:(lia)); lia|lia|].
    specialize (C F1 ltac:(lia)). lia.
  - intros K. destruct HE as [[F1 F2]|F]; [specialize (B ltac:(lia)); lia|lia].
  - intros Ec K. destruct (CF Ec) as [F|(F1 & F2 & F3)]; [lia|]. specialize (C F1 ltac:(lia)). lia.
  - intros Ec K. destruct (CE Ec) as [F|(F1 & F2 & F3)]; [lia|]. specialize (D F1 ltac:(lia)). lia.
Qed.

Ltac fin A B C D := repeat split; intros; try lia;
  first [specialize (A ltac:(lia)); lia | specialize (B ltac:(lia)); lia
        |specialize (C ltac:(assumption) ltac:(lia)); lia | specialize (D ltac:(assumption) ltac:(lia)); lia].
Lemma wake_signal_e s t w bl v l' p' : wake_ok s -> nth_error (pcs s) t = Some (PSignal bl v) ->
  signal waits_empty w (pcs s) = Some l' ->
  slept_f p' = 0 -> slept_e p' = 0 -> cast_f p' = 0 -> cast_e p' = 0 -> pend_f p' = 0 -> pend_e p' = 0 ->
  wake_ok (goto (with_pcs s l') t p').
Proof.
  intros (A & B & C & D) E S Z1 Z2 Z3 Z4 Z5 Z6. unfold wake_ok. cbn [pcs goto with_pcs ch].
  destruct (signal_spec _ _ _ _ S) as [[N ->]|(x & Ex & Wx & ->)].
  - rewrite !(sum_set _ _ _ _ _ E), Z1, Z2, Z3, Z4, Z5, Z6. apply no_sleepers_e in N. rewrite N. cbn [slept_f slept_e cast_f cast_e pend_f pend_e].
    fin A B C D.
  - destruct x; try discriminate. assert (w <> t) by (intros ->; congruence).
    assert (nth_error (set_nth (pcs s) w (wake GWait)) t = Some (PSignal bl v)) as E' by (rewrite nth_set_other; congruence).
    rewrite !(sum_set _ _ _ _ _ E'), !(sum_set _ _ _ _ _ Ex), Z1, Z2, Z3, Z4, Z5, Z6. cbn [slept_f slept_e cast_f cast_e pend_f pend_e wake].
    fin A B C D.
Qed.
Lemma wake_signal_f s t w bl v l' p' : wake_ok s -> nth_error (pcs s) t = Some (GSignal bl v) ->
  signal waits_full w (pcs s) = Some l' ->
  slept_f p' = 0 -> slept_e p' = 0 -> cast_f p' = 0 -> cast_e p' = 0 -> pend_f p' = 0 -> pend_e p' = 0 ->
  wake_ok (goto (with_pcs s l') t p').
Proof.
  intros (A & B & C & D) E S Z1 Z2 Z3 Z4 Z5 Z6. unfold wake_ok. cbn [pcs goto with_pcs ch].
  destruct (signal_spec _ _ _ _ S) as [[N ->]|(x & Ex & Wx & ->)].
  - rewrite !(sum_set _ _ _ _ _ E), Z1, Z2, Z3, Z4, Z5, Z6. apply no_sleepers_f in N. rewrite N. cbn [slept_f slept_e cast_f cast_e pend_f pend_e].
    fin A B C D.
  - destruct x as [| | | |vw| | | | | | | | | | | | | | | | | | | | | ]; try discriminate. assert (w <> t) by (intros ->; congruence).
    assert (nth_error (set_nth (pcs s) w (wake (PWait vw))) t = Some (GSignal bl v)) as E' by (rewrite nth_set_other; congruence).
    rewrite !(sum_set _ _ _ _ _ E'), !(sum_set _ _ _ _ _ Ex), Z1, Z2, Z3, Z4, Z5, Z6. cbn [slept_f slept_e cast_f cast_e pend_f pend_e wake].
    fin A B C D.
Qed.
Ltac wm := cbn; intros;
  first [lia | left; repeat split; first [assumption|lia] | right; left; lia | right; repeat split; first [assumption|lia]
        | right; right; repeat split; first [assumption|lia]].
Lemma step_wake C s l s' : 0 < C -> lock_ok s -> data_ok C s -> wake_ok s -> step s l = Some s' -> wake_ok s'.
Proof.
  intros HC L D K E. pose proof D as (_ & D2 & _). revert D2.
  stepcase E; intros D2;
  (* statements that only move one thread *)
  try (eapply (wake_move s); [exact K|eassumption|reflexivity|wm|wm|wm|wm]).
  all: try (destruct o; eapply (wake_move s); [exact K|eassumption|reflexivity|wm|wm|wm|wm]).
  all: try (match goal with H : nth_error _ _ = Some ?p |- _ =>
      destruct (no_cast _ _ _ L H eq_refl eq_refl) as [NC1 NC2];
      eapply (wake_move s); [exact K|eassumption|reflexivity|wm|wm|wm|wm] end).
  all: try (match goal with |- wake_ok (crash _) => exact K end).
  all: try (match goal with H : nth_error _ _ = Some ?q, B : (waits_full ?q || waits_empty ?q)%bool = true |- _ =>
      destruct q; try discriminate; eapply (wake_move s); [exact K|exact H|reflexivity|wm|wm|wm|wm] end).
  - (* call *)
    destruct o; (eapply (wake_move s); [exact K|exact Ep|reflexivity|wm|wm|wm|wm]).
  - (* the sender goes to sleep: the buffer is full *)
    apply andb_true_iff in Heqb0. destruct Heqb0 as [F1 F2]. apply negb_true_iff in F2.
    eapply (wake_move s); [exact K|exact Ep|reflexivity|right; left; cbn; lia|wm|cbn; congruence|cbn; congruence].
  - (* try_send fails *)
    apply orb_true_iff in Heqb0. destruct (no_cast _ _ _ L Ep eq_refl eq_refl) as [NC1 NC2].
    eapply (wake_move s); [exact K|exact Ep|reflexivity| |wm|wm|wm]. destruct Heqb0 as [F|F]; [right; left; cbn; lia|].
    right; right. cbn. repeat split; [exact F|exact NC1|lia].
  - eapply wake_signal_e; try reflexivity; eassumption.
  - eapply wake_signal_e; try reflexivity; eassumption.
  - (* the receiver goes to sleep: the buffer is empty *)
    apply andb_true_iff in Heqb0. destruct Heqb0 as [F1 F2]. apply negb_true_iff in F2.
    eapply (wake_move s); [exact K|exact Ep|reflexivity|wm|right; cbn; lia|cbn; congruence|cbn; congruence].
  - eapply wake_signal_f; try reflexivity; eassumption.
  - eapply wake_signal_f; try reflexivity; eassumption.
  - (* first broadcast *)
    destruct (cast_full_sums (pcs s)) as (S1 & S2 & S3 & S4). destruct K as (A & B & C0 & D0).
    assert (nth_error (broadcast waits_full (pcs s)) t = Some CCast1) as E'
      by (eapply woken_keeps; [apply broadcast_woken; exact full_sleeps|exact Ep|reflexivity|reflexivity]).
    unfold wake_ok. cbn [pcs goto with_pcs ch]. rewrite !(sum_set _ _ _ _ _ E'), S1, S2, S3, S4.
    cbn [slept_f slept_e cast_f cast_e pend_f pend_e]. fin A B C0 D0.
  - (* second broadcast *)
    destruct (cast_empty_sums (pcs s)) as (S1 & S2 & S3 & S4). destruct K as (A & B & C0 & D0).
    assert (nth_error (broadcast waits_empty (pcs s)) t = Some CCast2) as E'
      by (eapply woken_keeps; [apply broadcast_woken; exact empty_sleeps|exact Ep|reflexivity|reflexivity]).
    unfold wake_ok. cbn [pcs goto with_pcs ch]. rewrite !(sum_set _ _ _ _ _ E'), S1, S2, S3, S4.
    cbn [slept_f slept_e cast_f cast_e pend_f pend_e]. fin A B C0 D0.
  - (* spurious *)
    destruct p; try discriminate; (eapply (wake_move s); [exact K|exact Ep|reflexivity|wm|wm|wm|wm]).
Qed.

Lemma start_wake cap n : wake_ok (start cap n).
Proof.
  assert (forall f, f Idle = 0 -> sumz f (List.repeat Idle n) = 0) as Z.
  { intros f H. apply sum_none. intros p K. apply repeat_spec in K. subst. exact H. }
  unfold wake_ok, start. cbn [pcs]. rewrite !Z by reflexivity. repeat split; intros; lia.
Qed.
Lemma reachable_wake cap n s : cap < 2 ^ 61 -> reachable cap n s -> wake_ok s.
Proof.
  intros Hc (ls & E). revert E.
  assert (forall s s' ls, (lock_ok s /\ data_ok (real_cap cap) s /\ wake_ok s) -> steps s ls = Some s' ->
    (lock_ok s' /\ data_ok (real_cap cap) s' /\ wake_ok s')) as H.
  { intros s0 s1 ls0. apply (steps_ind (fun s => lock_ok s /\ data_ok (real_cap cap) s /\ wake_ok s)). intros s2 l s3 (A & B & D) E.
    assert (0 < real_cap cap) by (unfold real_cap; lia).
    split; [eapply step_lock; eauto|]. split; [eapply step_data; eauto|eapply step_wake; eauto]. }
  intros E. apply (H _ _ _ (conj (start_lock cap n) (conj (start_data cap n Hc) (start_wake cap n))) E).
Qed.

(** ** Quiet states *)
Definition resting (p : pc) : bool := match p with Idle | PWait _ | GWait => true | _ => false end.
Lemma rest_zero f l : (forall p, resting p = true -> f p = 0) -> (forall p, In p l -> resting p = true) -> sumz f l = 0.
Proof. intros H K. apply sum_none. intros p I. apply H, K, I. Qed.
Lemma resting_full s t v : wake_ok s -> 0 <= count (ch s) <= capacity (ch s) -> (forall p, In p (pcs s) -> resting p = true) ->
  nth_error (pcs s) t = Some (PWait v) -> count (ch s) = capacity (ch s) /\ closed (ch s) = false.
Proof.
  intros (A & B & C & D) R Q E.
  assert (0 < sumz slept_f (pcs s)) as P by (pose proof (sum_in slept_f _ _ _ slept_f_nn E) as K; cbn in K; lia).
  specialize (A P). rewrite (rest_zero pend_f) in A; [|intros []; cbn; congruence|exact Q]. split; [lia|].
  destruct (closed (ch s)); [|reflexivity]. specialize (C eq_refl P).
  rewrite (rest_zero cast_f) in C; [lia|intros []; cbn; congruence|exact Q].
Qed.
Lemma resting_empty s t : wake_ok s -> 0 <= count (ch s) -> (forall p, In p (pcs s) -> resting p = true) ->
  nth_error (pcs s) t = Some GWait -> count (ch s) = 0 /\ closed (ch s) = false.
Proof.
  intros (A & B & C & D) R Q E.
  assert (0 < sumz slept_e (pcs s)) as P by (pose proof (sum_in slept_e _ _ _ slept_e_nn E) as K; cbn in K; lia).
  specialize (B P). rewrite (rest_zero pend_e) in B; [|intros []; cbn; congruence|exact Q]. split; [lia|].
  destruct (closed (ch s)); [|reflexivity]. specialize (D eq_refl P).
  rewrite (rest_zero cast_e) in D; [lia|intros []; cbn; congruence|exact Q].
Qed.

(** ** Somebody can always run *)
Lemma signal_choice waits l : exists w l', signal waits w l = Some l'.
Proof.
  unfold signal. destruct (existsb waits l) eqn:E; [|exists 0%nat; eauto].
  apply existsb_exists in E. destruct E as (p & I & W). apply In_nth_error in I. destruct I as (w & I).
  exists w. rewrite I, W. eauto.
Qed.
Lemma holder_runs s t p : nth_error (pcs s) t = Some p -> holds p = true -> exists w s', run s t w = Some s'.
Proof.
  intros E H. destruct p as [|bl v|bl v|bl v|v|v|v|bl v|bl v|bl v|bl v|bl|bl| | | |bl|bl v|bl v|bl v| | | | |o r|o r]; try discriminate;
    try (exists 0%nat; unfold run; rewrite E; splitbl; repeat match goal with |- context [if ?c then _ else _] => destruct c end; eauto; fail).
  - destruct (signal_choice waits_empty (pcs s)) as (w & l' & S). exists w. unfold run. rewrite E, S. eauto.
  - destruct (signal_choice waits_full (pcs s)) as (w & l' & S). exists w. unfold run. rewrite E, S. eauto.
Qed.
Lemma free_runs s t p : owner (ch s) = None -> nth_error (pcs s) t = Some p -> resting p = false -> holds p = false ->
  exists w s', run s t w = Some s'.
Proof.
  intros O E R H. exists 0%nat. unfold run, lock. rewrite E.
  destruct p; try discriminate; rewrite ?O; splitbl; repeat match goal with |- context [if ?c then _ else _] => destruct c end; eauto.
Qed.
Lemma someone_runs s t p : lock_ok s -> nth_error (pcs s) t = Some p -> resting p = false ->
  exists u w s', run s u w = Some s'.
Proof.
  intros L E R. destruct (owner (ch s)) as [u|] eqn:O.
  - pose proof (proj1 (L u) O) as (x & Ex & Hx). destruct (holder_runs _ _ _ Ex Hx) as (w & s' & K). eauto.
  - assert (holds p = false) as H by (destruct (holds p) eqn:Hp; [pose proof (lock_here _ _ _ L E Hp); congruence|reflexivity]).
    destruct (free_runs _ _ _ O E R H) as (w & s' & K). eauto.
Qed.

(** ** and not for ever *)
Definition weight (n : Z) (p : pc) : Z :=
  match p with
  | Idle => 0 | Ret _ _ => 1 | Unlock _ _ => 2
  | PSignal _ _ | GSignal _ _ => 5
  | PCount _ _ | GCount _ _ => 6
  | PTail _ _ | GHead _ _ => 7
  | PStore _ _ | GLoad _ => 8
  | PClosed _ | GEnded | PWait _ | GWait => 9
  | PTest _ _ | GTest _ => 10
  | PAwake _ | GAwake | PLock _ _ | GLock _ => 11
  | PEnter _ _ => 12
  | CCast2 => 2 * n + 3 | CCast1 => 4 * n + 4 | CSet => 4 * n + 5 | CLock => 4 * n + 6
  end.
Definition measure (l : list pc) : Z := sumz (weight (Z.of_nat (length l))) l.
Lemma weight_nn n p : 0 <= n -> 0 <= weight n p. Proof. destruct p; cbn [weight]; lia. Qed.
Lemma measure_nn l : 0 <= measure l.
Proof. apply sum_nonneg. intros p. apply weight_nn. lia. Qed.
Lemma measure_set l t p p' : nth_error l t = Some p ->
  measure (set_nth l t p') = measure l - weight (Z.of_nat (length l)) p + weight (Z.of_nat (length l)) p'.
Proof. intros E. unfold measure. rewrite set_nth_length. apply sum_set, E. Qed.
Lemma sum_plus f (k : Z) l : sumz (fun p => f p + k) l = sumz f l + k * Z.of_nat (length l).
Proof. induction l as [|x l IH]; cbn [sumz length]; [lia|]. rewrite IH. lia. Qed.
Lemma measure_cast waits l :
  (forall p, waits p = true -> waits_full p = true \/ waits_empty p = true) ->
  measure (broadcast waits l) <= measure l + 2 * Z.of_nat (length l).
Proof.
  intros W. unfold measure. rewrite sum_broadcast. unfold broadcast. rewrite map_length.
  rewrite <- (sum_plus _ 2). apply sum_le. intros p. destruct (waits p) eqn:E; [|lia].
  destruct (W p E) as [K|K]; destruct p; try discriminate; cbn [weight wake]; lia.
Qed.
Lemma measure_signal waits w l l' :
  (forall p, waits p = true -> waits_full p = true \/ waits_empty p = true) ->
  signal waits w l = Some l' -> measure l' <= measure l + 2.
Proof.
  intros W S. destruct (signal_spec _ _ _ _ S) as [[_ ->]|(p & E & Wp & ->)]; [lia|].
  rewrite (measure_set _ _ _ _ E). destruct (W p Wp) as [K|K]; destruct p; try discriminate; cbn [weight wake]; lia.
Qed.
Lemma run_measure s t w s' : run s t w = Some s' -> crashed s' = false -> measure (pcs s') < measure (pcs s).
Proof.
  intros E CR. unfold run in E. destruct (nth_error (pcs s) t) as [p|] eqn:Ep; [|discriminate].
  destruct p as [|bl v|bl v|bl v|v|v|v|bl v|bl v|bl v|bl v|bl|bl| | | |bl|bl v|bl v|bl v| | | | |o r|o r]; try discriminate;
  splitbl; unfold lock in E;
   repeat match type of E with
   | context [if ?c then _ else _] => destruct c eqn:?; try discriminate
   | context [match ?x with _ => _ end] => destruct x eqn:?; try discriminate
   end; injection E as <-; cbn [pcs goto note with_ch with_pcs crash crashed] in *; try discriminate;
   try (rewrite (measure_set _ _ _ _ Ep); cbn [weight]; lia).
  all: try (match goal with S : signal ?waits _ _ = Some ?l |- _ =>
    assert (woken (pcs s) l) as W by woke; pose proof (woken_keeps _ _ _ _ W Ep eq_refl eq_refl) as E';
    rewrite (measure_set _ _ _ _ E'); destruct W as [W _];
    assert (measure l <= measure (pcs s) + 2) by (eapply measure_signal; [|exact S]; (exact full_sleeps || exact empty_sleeps));
    cbn [weight]; lia end).
  - assert (woken (pcs s) (broadcast waits_full (pcs s))) as W by woke.
    pose proof (woken_keeps _ _ _ _ W Ep eq_refl eq_refl) as E'. rewrite (measure_set _ _ _ _ E'). destruct W as [W _].
    pose proof (measure_cast waits_full (pcs s) full_sleeps). rewrite W. cbn [weight]. lia.
  - assert (woken (pcs s) (broadcast waits_empty (pcs s))) as W by woke.
    pose proof (woken_keeps _ _ _ _ W Ep eq_refl eq_refl) as E'. rewrite (measure_set _ _ _ _ E'). destruct W as [W _].
    pose proof (measure_cast waits_empty (pcs s) empty_sleeps). rewrite W. cbn [weight]. lia.
Qed.

