(** Channels: C34 (FIFO, no loss, no duplication), C35 (no lost wake-ups), C82 (locking). *)
From Verif Require Import Base ChannelSpec ChannelModel ChannelProofs ChannelProofs2 ChannelProofs3.
Ltac Zify.zify_post_hook ::= Z.div_mod_to_equations.

(** ** C34 *)
(** Under every schedule of any number of threads, a channel of capacity below 2^61 behaves like a
    FIFO queue bounded by its capacity (at least 1): each operation takes effect at one instant
    between its call and its return.  Missing: larger capacities, see channel_block_refuted. *)
Theorem channel_linearizable_partial cap threads s :
  cap < 2 ^ 61 -> reachable cap threads s ->
  crashed s = false /\ linearizable (Z.max 1 cap) (trace s).
Proof.
  intros Hc R. destruct (reachable_ok _ _ _ Hc R) as (_ & P & D1 & _ & _ & q & D4 & _).
  split; [exact D1|]. split.
  - intros t. eexists. apply P.
  - eexists. exact D4.
Qed.
Print Assumptions channel_linearizable_partial.

Lemma fifo_gen cap l : forall q c q' c', apply_all cap (q, c) l = Some (q', c') ->
  q ++ went_in l = came_out l ++ q' /\ (Z.of_nat (length q) <= cap -> Z.of_nat (length q') <= cap).
Proof.
  induction l as [|[o r] l IH]; intros q c q' c' E; cbn [apply_all] in E.
  - injection E as <- <-. cbn. rewrite app_nil_r. auto.
  - destruct (apply cap (q, c) o r) as [[q1 c1]|] eqn:A; [|discriminate]. specialize (IH _ _ _ _ E). destruct IH as [H1 H2].
    assert (forall x, went_in ((o, r) :: l) = x ++ went_in l -> q ++ x = q1 -> came_out ((o, r) :: l) = came_out l ->
      q ++ went_in ((o, r) :: l) = came_out ((o, r) :: l) ++ q') as PUT.
    { intros x -> <- ->. rewrite app_assoc. exact H1. }
    unfold apply in A.
    destruct o, r as [| | | |[]| | |]; try discriminate; cbn [went_in came_out flat_map app] in *.
    + destruct (negb c && negb (cap <=? Z.of_nat (length q))) eqn:K; [|discriminate]. injection A as <- <-.
      split; [apply (PUT [v]); reflexivity|]. intros B. apply H2. rewrite app_length. cbn. lia.
    + destruct c; [|discriminate]. injection A as <- <-. auto.
    + destruct q as [|x q0]; [discriminate|]. destruct (Z.eqb_spec x v) as [->|]; [|discriminate]. injection A as <- <-.
      split; [exact (f_equal (cons v) H1)|]. intros B. apply H2. cbn [length] in B. lia.
    + destruct q; [|discriminate]. destruct c; [|discriminate]. injection A as <- <-. auto.
    + destruct (negb c && negb (cap <=? Z.of_nat (length q))) eqn:K; [|discriminate]. injection A as <- <-.
      split; [apply (PUT [v]); reflexivity|]. intros B. apply H2. rewrite app_length. cbn. lia.
    + destruct (c || _); [|discriminate]. injection A as <- <-. auto.
    + destruct q as [|x q0]; [discriminate|]. destruct (Z.eqb_spec x v) as [->|]; [|discriminate]. injection A as <- <-.
      split; [exact (f_equal (cons v) H1)|]. intros B. apply H2. cbn [length] in B. lia.
    + destruct q; [|discriminate]. injection A as <- <-. auto.
    + injection A as <- <-. auto.
Qed.
(** What came out is, in order, an initial part of what went in; what remains fits the capacity. *)
Theorem channel_fifo_partial cap threads s :
  cap < 2 ^ 61 -> reachable cap threads s ->
  exists rest, went_in (effects (trace s)) = came_out (effects (trace s)) ++ rest /\
    Z.of_nat (length rest) <= Z.max 1 cap.
Proof.
  intros Hc R. destruct (channel_linearizable_partial _ _ _ Hc R) as (_ & _ & [q c] & A).
  destruct (fifo_gen _ _ _ _ _ _ A) as [H1 H2]. exists q. split; [exact H1|]. apply H2. cbn. lia.
Qed.
Print Assumptions channel_fifo_partial.

Lemma closed_gen cap l : forall q q' c', apply_all cap (q, true) l = Some (q', c') -> went_in l = [] /\ c' = true.
Proof.
  induction l as [|[o r] l IH]; intros q q' c' E; cbn [apply_all] in E.
  - injection E as <- <-. auto.
  - destruct (apply cap (q, true) o r) as [[q1 c1]|] eqn:A; [|discriminate].
    unfold apply in A. assert (c1 = true /\ forall x, went_in ((o, r) :: x) = went_in x) as [-> W].
    { destruct o, r as [| | | |[]| | |]; try discriminate; cbn in A;
        try (destruct q as [|y q]; try discriminate; try (destruct (y =? v); try discriminate));
        injection A as <- <-; split; reflexivity. }
    rewrite W. exact (IH _ _ _ E).
Qed.
(** Once the channel is closed nothing goes in: later sends are dropped. *)
Theorem channel_closed_partial cap threads s before after :
  cap < 2 ^ 61 -> reachable cap threads s ->
  effects (trace s) = before ++ (Close, DoneClose) :: after -> went_in after = [].
Proof.
  intros Hc R E. destruct (channel_linearizable_partial _ _ _ Hc R) as (_ & _ & [q c] & A).
  rewrite E, apply_all_app in A. destruct (apply_all _ _ before) as [[q1 c1]|]; [|discriminate].
  cbn [apply_all apply] in A. apply closed_gen in A. apply A.
Qed.
Print Assumptions channel_closed_partial.

(** A run with three threads and capacity 1: thread 0 sends 5 and then 7, which blocks; thread 1
    receives; thread 0 is woken and finishes; thread 2 closes and drains. *)
Definition go (t k : nat) : list label := List.repeat (LRun t 0) k.
Definition demo : list label :=
  [LCall 0 (Send 5)] ++ go 0 10 ++ [LCall 0 (Send 7)] ++ go 0 3 ++
  [LCall 1 Receive] ++ go 1 9 ++ go 0 9 ++
  [LCall 2 Close] ++ go 2 6 ++ [LCall 1 Receive] ++ go 1 9 ++ [LCall 1 Receive] ++ go 1 5 ++
  [LCall 0 (Send 9)] ++ go 0 2.
Example channel_demo :
  match steps (start 1 3) demo with
  | Some s => effects (trace s) =
      [(Send 5, Sent); (Receive, Got 5); (Send 7, Sent); (Close, DoneClose); (Receive, Got 7); (Receive, Ended); (Send 9, Dropped)]
      /\ pcs s = [Idle; Idle; Idle]
  | None => False
  end.
Proof. vm_compute. auto. Qed.

(** For a capacity of 2^61 the size of the block wraps to 0 bytes and the first send writes outside it. *)
Theorem channel_block_refuted : exists cap s, 0 < cap <= INT64_MAX /\ reachable cap 1 s /\ crashed s = true.
Proof.
  exists (2 ^ 61).
  destruct (steps (start (2 ^ 61) 1) ([LCall 0 (Send 5)] ++ go 0 5)) as [s|] eqn:E; [|vm_compute in E; discriminate].
  exists s. split; [unfold INT64_MAX; lia|]. split; [eexists; exact E|].
  assert (option_map crashed (steps (start (2 ^ 61) 1) ([LCall 0 (Send 5)] ++ go 0 5)) = Some true) as K by (vm_compute; reflexivity).
  rewrite E in K. cbn in K. congruence.
Qed.
Print Assumptions channel_block_refuted.

(** ** C35 *)
(** No wake-up is lost: when no thread can go on, every thread is outside the channel, or asleep in
    send with the channel full and open, or asleep in receive with the channel empty and open. *)
Theorem channel_wakeups_partial cap threads s :
  cap < 2 ^ 61 -> reachable cap threads s ->
  (forall t w, step s (LRun t w) = None) ->
  exists q closed, apply_all (Z.max 1 cap) ([], false) (effects (trace s)) = Some (q, closed) /\
  forall t p, nth_error (pcs s) t = Some p ->
    p = Idle \/ (exists v, p = PWait v /\ Z.of_nat (length q) = Z.max 1 cap /\ closed = false)
    \/ (p = GWait /\ q = [] /\ closed = false).
Proof.
  intros Hc R Q. destruct (reachable_ok _ _ _ Hc R) as (L & P & D). pose proof (reachable_wake _ _ _ Hc R) as W.
  assert (forall p, In p (pcs s) -> resting p = true) as REST.
  { intros p I. apply In_nth_error in I. destruct I as (t & E). destruct (resting p) eqn:Rp; [reflexivity|exfalso].
    destruct (someone_runs _ _ _ L E Rp) as (u & w & s' & K). specialize (Q u w). unfold step in Q.
    destruct D as (D1 & _). rewrite D1, K in Q. discriminate. }
  destruct D as (D1 & D2 & D3 & q & D4 & h & _ & D5 & _ & D6 & _). exists q, (closed (ch s)). split; [exact D4|].
  intros t p E. pose proof (REST p (nth_error_In _ _ E)) as K. unfold len in *.
  destruct p; try discriminate; [left; reflexivity| |].
  - right; left. destruct (resting_full s t v W) as [F1 F2]; [lia|exact REST|exact E|]. exists v. unfold real_cap in *. split; [reflexivity|]. split; [lia|exact F2].
  - right; right. destruct (resting_empty s t W) as [F1 F2]; [lia|exact REST|exact E|]. split; [reflexivity|].
    split; [|exact F2]. destruct q; [reflexivity|]. cbn [length] in D6. lia.
Qed.
Print Assumptions channel_wakeups_partial.

(** Left alone (no new calls, no spurious wake-ups), the threads reach such a state: there is a bound
    on the number of statements they can execute ... *)
Theorem channel_settles_partial cap threads s :
  cap < 2 ^ 61 -> reachable cap threads s ->
  exists n, forall tws s', steps s (map (fun x : nat * nat => LRun (fst x) (snd x)) tws) = Some s' -> (length tws <= n)%nat.
Proof.
  intros Hc (ls & E). exists (Z.to_nat (measure (pcs s))). intros tws. revert s ls E.
  induction tws as [|[t w] tws IH]; intros s ls E s' K; [cbn; lia|]. cbn [map steps fst snd] in K.
  destruct (step s (LRun t w)) as [s1|] eqn:S; [|discriminate].
  assert (steps (start cap threads) (ls ++ [LRun t w]) = Some s1) as E1.
  { clear - E S. revert E. generalize (start cap threads). induction ls as [|l ls IH]; intros s0 E; cbn in *.
    - injection E as ->. rewrite S. reflexivity.
    - destruct (step s0 l); [apply IH, E|discriminate]. }
  specialize (IH _ _ E1 _ K).
  assert (crashed s1 = false) as CR by (destruct (reachable_ok cap threads s1 Hc) as (_ & _ & D1 & _); [eexists; exact E1|exact D1]).
  unfold step in S. destruct (crashed s); [discriminate|]. pose proof (run_measure _ _ _ _ S CR).
  pose proof (measure_nn (pcs s1)). cbn [length]. lia.
Qed.
Print Assumptions channel_settles_partial.
(** ... and as long as a thread is inside an operation and not asleep, some thread can go on. *)
Theorem channel_progress_partial cap threads s t p :
  cap < 2 ^ 61 -> reachable cap threads s -> nth_error (pcs s) t = Some p ->
  p <> Idle -> (forall v, p <> PWait v) -> p <> GWait ->
  exists u w s', step s (LRun u w) = Some s'.
Proof.
  intros Hc R E N1 N2 N3. destruct (reachable_ok _ _ _ Hc R) as (L & _ & D1 & _).
  assert (resting p = false) as Rp by (destruct p; try reflexivity; exfalso; try congruence; eapply N2; reflexivity).
  destruct (someone_runs _ _ _ L E Rp) as (u & w & s' & K). exists u, w, s'. unfold step. rewrite D1. exact K.
Qed.
Print Assumptions channel_progress_partial.
(** A state at rest with a sleeping sender: capacity 1, one value queued. *)
Example channel_rest_demo :
  match steps (start 1 2) ([LCall 0 (Send 5)] ++ go 0 10 ++ [LCall 0 (Send 7)] ++ go 0 3) with
  | Some s => pcs s = [PWait 7; Idle] /\ effects (trace s) = [(Send 5, Sent)]
  | None => False
  end.
Proof. vm_compute. auto. Qed.

(** ** C82 *)
(** Statements that read or write the fields of the channel, apart from the first line of send and
    try_send. *)
Definition touches (p : pc) : bool :=
  match p with
  | PTest _ _ | PClosed _ | PStore _ _ | PTail _ _ | PCount _ _ | GTest _ | GEnded | GLoad _ | GHead _ _ | GCount _ _ | CSet => true
  | _ => false
  end.
(** They are executed by the thread that holds the lock, and two threads never execute them at the
    same time.  Missing: the first line of send and try_send, see channel_race_refuted. *)
Theorem channel_locked_partial cap threads s t u p p' :
  reachable cap threads s -> nth_error (pcs s) t = Some p -> nth_error (pcs s) u = Some p' ->
  touches p = true -> owner (ch s) = Some t /\ (touches p' = true -> t = u).
Proof.
  intros (ls & E) Et Eu T.
  assert (lock_ok s) as L by (eapply (steps_ind lock_ok); [exact step_lock|apply start_lock|exact E]).
  assert (holds p = true) as H by (destruct p; try discriminate; reflexivity).
  pose proof (lock_here _ _ _ L Et H) as O. split; [exact O|]. intros T'.
  assert (holds p' = true) as H' by (destruct p'; try discriminate; reflexivity).
  pose proof (lock_here _ _ _ L Eu H') as O'. congruence.
Qed.
Print Assumptions channel_locked_partial.
(** Send reads the closed flag without the lock while close is about to write it. *)
Theorem channel_race_refuted : exists s, reachable 1 2 s /\
  nth_error (pcs s) 0 = Some (PEnter true 5) /\ nth_error (pcs s) 1 = Some CSet.
Proof.
  destruct (steps (start 1 2) [LCall 0 (Send 5); LCall 1 Close; LRun 1 0]) as [s|] eqn:E; [|vm_compute in E; discriminate].
  exists s. split; [eexists; exact E|].
  assert (option_map pcs (steps (start 1 2) [LCall 0 (Send 5); LCall 1 Close; LRun 1 0]) = Some [PEnter true 5; CSet]) as K by (vm_compute; reflexivity).
  rewrite E in K. cbn in K. injection K as ->. split; reflexivity.
Qed.
Print Assumptions channel_race_refuted.
