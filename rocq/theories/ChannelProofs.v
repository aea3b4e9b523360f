(** Proofs about the channel model: locking, linearizability, bounds. *)
From Verif Require Import Base ChannelSpec ChannelModel.
Ltac Zify.zify_post_hook ::= Z.div_mod_to_equations.

(** ** Lists of threads *)
Lemma set_nth_length l t p : length (set_nth l t p) = length l.
Proof. revert t; induction l as [|x l IH]; intros [|t]; cbn; auto. Qed.
Lemma nth_set_same l t p p0 : nth_error l t = Some p0 -> nth_error (set_nth l t p) t = Some p.
Proof. revert t; induction l as [|x l IH]; intros [|t]; cbn; try congruence; auto. Qed.
Lemma nth_set_other l t u p : u <> t -> nth_error (set_nth l t p) u = nth_error l u.
Proof.
  revert t u; induction l as [|x l IH]; intros [|t] [|u] H; cbn; auto; try congruence.
Qed.
Lemma nth_set l t u p p0 : nth_error l t = Some p0 ->
  nth_error (set_nth l t p) u = if Nat.eqb u t then Some p else nth_error l u.
Proof.
  intros E. destruct (Nat.eqb_spec u t) as [->|N].
  - eapply nth_set_same, E.
  - apply nth_set_other, N.
Qed.

(** l' is l with some sleepers woken *)
Definition woken (l l' : list pc) : Prop :=
  length l' = length l /\
  forall u p, nth_error l u = Some p -> exists p', nth_error l' u = Some p' /\
    (p' = p \/ ((waits_full p = true \/ waits_empty p = true) /\ p' = wake p)).
Lemma woken_refl l : woken l l.
Proof. split; eauto. Qed.
Lemma woken_inv l l' u p' : woken l l' -> nth_error l' u = Some p' ->
  exists p, nth_error l u = Some p /\ (p' = p \/ ((waits_full p = true \/ waits_empty p = true) /\ p' = wake p)).
Proof.
  intros [L H] E. destruct (nth_error l u) as [p|] eqn:E0.
  - destruct (H _ _ E0) as (p2 & E2 & D). exists p. split; [reflexivity|]. rewrite E2 in E. injection E as <-. exact D.
  - exfalso. apply nth_error_None in E0. assert (nth_error l' u <> None) as N by congruence.
    apply nth_error_Some in N. lia.
Qed.
Lemma signal_woken waits w l l' :
  (forall p, waits p = true -> waits_full p = true \/ waits_empty p = true) ->
  signal waits w l = Some l' -> woken l l'.
Proof.
  intros W. unfold signal. destruct (existsb waits l).
  - destruct (nth_error l w) as [p|] eqn:E; [|discriminate]. destruct (waits p) eqn:Ew; [|discriminate].
    intros [= <-]. split; [apply set_nth_length|]. intros u p0 E0. rewrite (nth_set _ _ _ _ _ E).
    destruct (Nat.eqb_spec u w) as [->|N].
    + rewrite E in E0. injection E0 as <-. eexists. split; [reflexivity|]. right. split; [apply W, Ew|reflexivity].
    + rewrite E0. eauto.
  - intros [= <-]. apply woken_refl.
Qed.
Lemma broadcast_woken waits l :
  (forall p, waits p = true -> waits_full p = true \/ waits_empty p = true) ->
  woken l (broadcast waits l).
Proof.
  intros W. unfold broadcast. split; [apply map_length|]. intros u p E. exists (if waits p then wake p else p).
  split; [exact (map_nth_error (fun p => if waits p then wake p else p) _ _ E)|]. destruct (waits p) eqn:Ew; [right; split; [apply W, Ew|reflexivity]|left; reflexivity].
Qed.

(** ** Who holds the lock *)
Definition holds (p : pc) : bool :=
  match p with
  | PTest _ _ | PClosed _ | PStore _ _ | PTail _ _ | PCount _ _ | PSignal _ _ => true
  | GTest _ | GEnded | GLoad _ | GHead _ _ | GCount _ _ | GSignal _ _ => true
  | CSet | CCast1 | CCast2 | Unlock _ _ => true
  | _ => false
  end.
Definition lock_ok (s : state) : Prop :=
  forall t, owner (ch s) = Some t <-> exists p, nth_error (pcs s) t = Some p /\ holds p = true.

Lemma lock_here s t p : lock_ok s -> nth_error (pcs s) t = Some p -> holds p = true -> owner (ch s) = Some t.
Proof. intros L E H. apply L. eauto. Qed.
Lemma woken_lock s l : lock_ok s -> woken (pcs s) l -> lock_ok (with_pcs s l).
Proof.
  intros L W t. cbn. rewrite (L t). split.
  - intros (p & E & H). destruct W as [_ W]. destruct (W _ _ E) as (p' & E' & [->|[[K|K] ->]]); eauto.
    + destruct p; discriminate.
    + destruct p; discriminate.
  - intros (p' & E' & H). destruct (woken_inv _ _ _ _ W E') as (p & E & [->|[[K|K] ->]]); eauto.
    + destruct p; discriminate.
    + destruct p; discriminate.
Qed.
(** moving thread t without touching the lock *)
Lemma goto_lock s t p p' : lock_ok s -> nth_error (pcs s) t = Some p -> holds p' = holds p -> lock_ok (goto s t p').
Proof.
  intros L E H u. cbn. rewrite (L u), (nth_set _ _ _ _ _ E). destruct (Nat.eqb_spec u t) as [->|N]; [|tauto].
  rewrite E. split; intros (x & Ex & Hx); injection Ex as <-; eexists; (split; [reflexivity|congruence]).
Qed.
Lemma take_lock s t p p' : lock_ok s -> nth_error (pcs s) t = Some p -> owner (ch s) = None -> holds p' = true ->
  lock_ok (goto (with_ch s (set_owner (ch s) (Some t))) t p').
Proof.
  intros L E O H u. cbn. rewrite (nth_set _ _ _ _ _ E). destruct (Nat.eqb_spec u t) as [->|N].
  - split; intros; eauto.
  - split; [intros [= ->]; congruence|]. intros K. apply L in K. congruence.
Qed.
Lemma drop_lock s t p p' : lock_ok s -> nth_error (pcs s) t = Some p -> holds p = true -> holds p' = false ->
  lock_ok (goto (with_ch s (set_owner (ch s) None)) t p').
Proof.
  intros L E Hp Hp' u. cbn. rewrite (nth_set _ _ _ _ _ E). destruct (Nat.eqb_spec u t) as [->|N].
  - split; [discriminate|]. intros (x & [= <-] & Hx). congruence.
  - split; [discriminate|]. intros K. apply L in K. pose proof (lock_here _ _ _ L E Hp). congruence.
Qed.
Lemma lock_ok_ext s s' : owner (ch s') = owner (ch s) -> pcs s' = pcs s -> lock_ok s -> lock_ok s'.
Proof. intros O P L t. rewrite O, P. apply L. Qed.

Lemma full_sleeps p : waits_full p = true -> waits_full p = true \/ waits_empty p = true. Proof. auto. Qed.
Lemma empty_sleeps p : waits_empty p = true -> waits_full p = true \/ waits_empty p = true. Proof. auto. Qed.

(** woken keeps the pc of a thread that is not asleep *)
Lemma woken_keeps l l' u p : woken l l' -> nth_error l u = Some p -> waits_full p = false -> waits_empty p = false ->
  nth_error l' u = Some p.
Proof. intros [_ W] E F G. destruct (W _ _ E) as (p' & E' & [->|[[K|K] _]]); congruence. Qed.

(** All the ways a step can go, with the lock invariant preserved. *)
Ltac splitbl := repeat match goal with b : bool |- _ => destruct b end.
Ltac stepcase E :=
  unfold step in E;
  match type of E with context [if ?c then _ else _] => destruct c eqn:?; [discriminate|] end;
  match type of E with context [match ?l with _ => _ end] => destruct l as [t o|t w|t] end; unfold run in E;
  match type of E with context [nth_error ?l ?t] => destruct (nth_error l t) as [p|] eqn:Ep; [|discriminate] end;
  [match type of E with context [match ?p with _ => _ end] => destruct p; try discriminate; injection E as <- end
  |match type of E with context [match ?p with _ => _ end] =>
     destruct p as [|bl v|bl v|bl v|v|v|v|bl v|bl v|bl v|bl v|bl|bl| | | |bl|bl v|bl v|bl v| | | | |o r|o r] end;
   try discriminate; splitbl; unfold lock in E;
   repeat match type of E with
   | context [if ?c then _ else _] => destruct c eqn:?; try discriminate
   | context [match ?x with _ => _ end] => destruct x eqn:?; try discriminate
   end; try discriminate; injection E as <-
  |match type of E with context [if ?c then _ else _] => destruct c eqn:?; [injection E as <-|discriminate] end].

Lemma step_lock s l s' : lock_ok s -> step s l = Some s' -> lock_ok s'.
Proof.
  intros L E. stepcase E;
    try (eapply goto_lock; [eapply lock_ok_ext; [| |exact L]; reflexivity|eassumption|reflexivity]);
    try (eapply take_lock; [exact L|eassumption|eassumption|reflexivity]);
    try (eapply drop_lock; [exact L|eassumption|reflexivity|reflexivity]);
    try (eapply lock_ok_ext; [| |exact L]; reflexivity).
  all: try (eapply goto_lock; [exact L|eassumption|]; destruct o; reflexivity).
  all: try (eapply goto_lock;
      [apply woken_lock; [exact L|first [eapply signal_woken; [|eassumption]; (exact full_sleeps || exact empty_sleeps)
                                       |apply broadcast_woken; (exact full_sleeps || exact empty_sleeps)]]
      |cbn; eapply woken_keeps; [first [eapply signal_woken; [|eassumption]; (exact full_sleeps || exact empty_sleeps)
                                       |apply broadcast_woken; (exact full_sleeps || exact empty_sleeps)]|eassumption|reflexivity|reflexivity]
      |reflexivity]).
  all: try (match goal with H : nth_error _ _ = Some ?p, B : (_ || _)%bool = true |- _ => 
      eapply goto_lock; [exact L|exact H|destruct p; try discriminate; reflexivity] end).
Qed.

(** ** Calls, effects and returns of each thread *)
Definition phase_of (p : pc) : phase :=
  match p with
  | Idle => Out
  | PEnter bl v | PLock bl v | PTest bl v | PStore bl v | PTail bl v | PCount bl v => Called (put_op bl v)
  | PWait v | PAwake v | PClosed v => Called (Send v)
  | PSignal bl v => Done (put_op bl v) (put_done bl)
  | GLock bl | GTest bl | GLoad bl | GHead bl _ | GCount bl _ => Called (get_op bl)
  | GWait | GAwake | GEnded => Called Receive
  | GSignal bl v => Done (get_op bl) (get_done bl v)
  | CLock | CSet => Called Close
  | CCast1 | CCast2 => Done Close DoneClose
  | Unlock o r | Ret o r => Done o r
  end.
Definition phase_at (l : list pc) (t : nat) : phase := match nth_error l t with Some p => phase_of p | None => Out end.
Definition phases_ok (s : state) : Prop := forall t, phases Out (of_thread t (trace s)) (phase_at (pcs s) t).

Lemma phases_snoc p l q e q' : phases p l q -> next q e q' -> phases p (l ++ [e]) q'.
Proof.
  intros H N. induction H as [p|p e0 p' l q N0 H IH]; cbn.
  - econstructor; [exact N|constructor].
  - econstructor; [exact N0|exact (IH N)].
Qed.
Lemma of_thread_snoc t l e : of_thread t (l ++ [e]) = of_thread t l ++ (if Nat.eqb (who e) t then [e] else []).
Proof. unfold of_thread. rewrite filter_app. reflexivity. Qed.

Lemma phases_quiet s s' : trace s' = trace s -> (forall u, phase_at (pcs s') u = phase_at (pcs s) u) ->
  phases_ok s -> phases_ok s'.
Proof. intros T P H u. rewrite T, P. apply H. Qed.
Lemma phases_event s s' t e p p' : trace s' = trace s ++ [e] -> who e = t ->
  nth_error (pcs s) t = Some p -> pcs s' = set_nth (pcs s) t p' -> next (phase_of p) e (phase_of p') ->
  phases_ok s -> phases_ok s'.
Proof.
  intros T W E P N H u. rewrite T, P, of_thread_snoc, W. unfold phase_at. rewrite (nth_set _ _ _ _ _ E).
  destruct (Nat.eqb_spec u t) as [->|D].
  - rewrite Nat.eqb_refl. eapply phases_snoc; [|exact N]. specialize (H t). unfold phase_at in H. rewrite E in H. exact H.
  - rewrite (proj2 (Nat.eqb_neq t u)) by congruence. rewrite app_nil_r. exact (H u).
Qed.
Lemma phase_wake p : phase_of (wake p) = phase_of p. Proof. destruct p; reflexivity. Qed.
Lemma phase_goto l t u p p' : nth_error l t = Some p -> phase_of p' = phase_of p ->
  phase_at (set_nth l t p') u = phase_at l u.
Proof.
  intros E P. unfold phase_at. rewrite (nth_set _ _ _ _ _ E). destruct (Nat.eqb_spec u t) as [->|D]; [rewrite E; exact P|reflexivity].
Qed.
Lemma phase_woken l l' u : woken l l' -> phase_at l' u = phase_at l u.
Proof.
  intros W. unfold phase_at. destruct (nth_error l u) as [p|] eqn:E.
  - destruct W as [_ W]. destruct (W _ _ E) as (p' & -> & [->|[_ ->]]); [reflexivity|apply phase_wake].
  - apply nth_error_None in E. rewrite (proj2 (nth_error_None l' u)); [reflexivity|]. destruct W. lia.
Qed.
Lemma phase_woken_goto l l' t u p p' : woken l l' -> nth_error l t = Some p -> waits_full p = false -> waits_empty p = false ->
  phase_of p' = phase_of p -> phase_at (set_nth l' t p') u = phase_at l u.
Proof.
  intros W E F G P. rewrite (phase_goto l' t u p p'); [apply phase_woken, W| |exact P]. eapply woken_keeps; eauto.
Qed.

Ltac woke :=
  first [eapply signal_woken; [|eassumption]; (exact full_sleeps || exact empty_sleeps)
        |apply broadcast_woken; (exact full_sleeps || exact empty_sleeps)].

Lemma step_phases s l s' : phases_ok s -> step s l = Some s' -> phases_ok s'.
Proof.
  intros L E. stepcase E;
  try (eapply (phases_event s); [reflexivity|reflexivity|eassumption|reflexivity| |exact L];
       cbn; try (destruct o); cbn; repeat split; reflexivity);
  (eapply (phases_quiet s); [reflexivity| |exact L]; intros u; cbn [pcs goto with_ch with_pcs note crash];
      first [reflexivity | eapply phase_goto; [eassumption|first [reflexivity|apply phase_wake]]
            |eapply phase_woken_goto; [woke|eassumption|reflexivity|reflexivity|reflexivity]]).
Qed.
