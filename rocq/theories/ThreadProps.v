(** Threads: C36 (the record is freed exactly once), C83 (thread_count, is_alive). *)
From Verif Require Import Base ThreadModel ThreadSpec ThreadProofs.
Ltac Zify.zify_post_hook ::= Z.div_mod_to_equations.

(** ** C36 *)
(** Whatever the schedule, a thread that has ended and was detached or joined has had its record
    freed: it is not leaked. *)
Theorem thread_record_not_leaked ls s i r :
  steps start ls = Some s -> nth_error (recs s) i = Some r ->
  finished r = true -> released r = true -> (1 <= frees r)%nat.
Proof.
  intros E N F R. assert (leak_inv r) as (_ & _ & H1 & H2 & H3).
  { eapply rec_invariant; [| |exact E|exact N]; [|exact leak_step].
    intros [|]; cbn; repeat split; discriminate. }
  unfold finished, released in *. destruct (wk r); try discriminate. destruct (ct r); try discriminate; [|auto].
  destruct H1 as [D|[D|D]]; try discriminate. apply H2; auto.
Qed.
Print Assumptions thread_record_not_leaked.

(** Joining: freed exactly once and never touched afterwards, under every schedule. *)
Theorem thread_join_frees_once ls s i r :
  steps start ls = Some s -> nth_error (recs s) i = Some r -> never_detached ls i ->
  after_free r = false /\ (ct r = CJoined -> frees r = 1%nat) /\ (ct r <> CJoined -> frees r = 0%nat).
Proof.
  intros E N D. assert (join_inv r) as [H1 H2].
  { apply (local_run join_inv (fun a => a <> ACall Detach) i join_step) with (ls := ls) (s := s); auto.
    - intros [|]; cbn; repeat split; discriminate.
    - intros a I ->. apply D, acts_in, I. }
  split; [exact H1|]. destruct (ct r) as [| | |[]| | | | | |[]]; try tauto; split; intros; try discriminate; try tauto.
Qed.
Print Assumptions thread_join_frees_once.
Example thread_join_demo :
  match steps start [LSpawn true; LCall 0 IsAlive; LControl 0; LCall 0 Join; LWork 0; LWork 0; LWork 0; LWork 0; LWork 0; LControl 0; LControl 0] with
  | Some s => map (fun r => (frees r, after_free r, ct r)) (recs s) = [(1%nat, false, CJoined)] /\ live s = 0
  | None => False
  end.
Proof. vm_compute. auto. Qed.

(** Detaching: freed exactly once and never touched afterwards when detach and the end of the thread do
    not overlap.  Missing: the overlapping schedules, see thread_detach_refuted; is_alive after detach, see
    thread_is_alive_refuted; and threads whose creation failed. *)
Theorem thread_detach_partial ls s i r :
  steps start ls = Some s -> nth_error (recs s) i = Some r ->
  ~ In (LSpawn false) ls -> apart_run (new_rec true) (acts i ls) ->
  after_free r = false /\ (frees r <= 1)%nat /\ (finished r = true -> released r = true -> frees r = 1%nat).
Proof.
  intros E N NF A. destruct (own_run _ _ _ _ E N) as (b & I & R). destruct b; [|contradiction].
  assert (detach_inv r) as H.
  { assert (detach_inv (new_rec true)) as H0 by (cbn; repeat split; discriminate).
    revert R A H0. generalize (new_rec true). induction (acts i ls) as [|a l IH]; intros r0 R A H0; cbn in R, A; [congruence|].
    destruct A as [A1 A2]. destruct (act_step r0 a) as [r1|] eqn:ST; [|discriminate]. eapply IH; eauto. eapply detach_step; eauto. }
  destruct H as (H1 & HN & H2). split; [exact H1|]. unfold finished, released.
  destruct (ct r) as [| | |[]| | | | | |[]], (wk r); intuition (try lia; try congruence).
Qed.
Print Assumptions thread_detach_partial.
(** Both orders that are apart, as runs of one record. *)
Example thread_detach_demo :
  let early := [ACall Detach; AControl; AControl; AControl; AWork; AWork; AWork; AWork; AWork; AWork] in
  let late := [AWork; AWork; AWork; AWork; AWork; ACall Detach; AControl; AControl; AControl; AControl] in
  apart_run (new_rec true) early /\ apart_run (new_rec true) late /\
  option_map (fun r => (frees r, finished r, released r)) (act_steps (new_rec true) early) = Some (1%nat, true, true) /\
  option_map (fun r => (frees r, finished r, released r)) (act_steps (new_rec true) late) = Some (1%nat, true, true).
Proof. vm_compute. repeat split; try (intros; discriminate); auto. Qed.
(** The full statement fails: a thread that has cleared alive but not yet looked at detached is
    detached by its owner, who finds it dead; both free the record. *)
Theorem thread_detach_refuted :
  exists ls s r, steps start ls = Some s /\ recs s = [r] /\ finished r = true /\ ct r = CDetached /\
    frees r = 2%nat /\ after_free r = true.
Proof.
  exists [LSpawn true; LWork 0; LWork 0; LWork 0; LCall 0 Detach; LControl 0; LControl 0; LControl 0; LControl 0; LWork 0; LWork 0; LWork 0].
  eexists _, _. vm_compute. repeat split.
Qed.
Print Assumptions thread_detach_refuted.
(** And a thread that ends while its owner is inside detach, having been seen alive: the owner reads
    the handle from a freed record. *)
Theorem thread_detach_use_after_free_refuted :
  exists ls s r, steps start ls = Some s /\ recs s = [r] /\ ct r = CDetached /\ frees r = 1%nat /\ after_free r = true.
Proof.
  exists [LSpawn true; LCall 0 Detach; LControl 0; LControl 0; LWork 0; LWork 0; LWork 0; LWork 0; LWork 0; LControl 0].
  eexists _, _. vm_compute. repeat split.
Qed.
Print Assumptions thread_detach_use_after_free_refuted.
(** is_alive on a detached thread may read a freed record. *)
Theorem thread_is_alive_refuted :
  exists ls s r, steps start ls = Some s /\ recs s = [r] /\ ct r = CDetached /\ after_free r = true /\
    apart_run (new_rec true) (removelast (removelast (acts 0 ls))).
Proof.
  exists [LSpawn true; LCall 0 Detach; LControl 0; LControl 0; LControl 0; LWork 0; LWork 0; LWork 0; LWork 0; LWork 0; LCall 0 IsAlive; LControl 0].
  eexists _, _. split; [vm_compute; reflexivity|]. vm_compute. repeat split; intros; discriminate.
Qed.
Print Assumptions thread_is_alive_refuted.

(** ** C83 *)
(** thread_count() is the number of spawned threads that have not yet passed line 48, i.e. whose
    function has not returned (up to the statement that counts it out), as long as every
    pthread_create succeeded.  Missing: failures of pthread_create, see thread_count_refuted. *)
Theorem thread_count_partial ls s :
  ~ In (LSpawn false) ls -> steps start ls = Some s -> live s = count_running (recs s).
Proof.
  intros NF. assert (forall s0, live s0 = count_running (recs s0) -> steps s0 ls = Some s -> live s = count_running (recs s)) as G.
  { induction ls as [|l ls IH]; intros s0 K E; cbn in E; [congruence|]. destruct (step s0 l) as [s1|] eqn:ST; [|discriminate].
    apply IH with (s0 := s1); [intros I; apply NF; right; exact I| |exact E].
    destruct l as [c|j|j c|j]; cbn in ST; try (destruct (nth_error (recs s0) j) as [q|] eqn:Ej; [|discriminate]).
    - injection ST as <-. cbn. rewrite count_app. destruct c; [cbn; lia|exfalso; apply NF; left; reflexivity].
    - destruct (work q) as [[q' d]|] eqn:W; [|discriminate]. injection ST as <-. cbn. rewrite (count_set _ _ _ _ Ej).
      unfold work, running in *. destruct q as [al de fr af w ct0]; cbn in *. destruct w; try discriminate; injection W as <- <-; cbn; try (destruct de; cbn); lia.
    - destruct (begin_call q c) as [q'|] eqn:W; [|discriminate]. injection ST as <-. cbn. rewrite (count_set _ _ _ _ Ej).
      assert (running q' = running q) as -> by (unfold begin_call in W; destruct q as [al de fr af w ct0]; cbn in *; destruct ct0, c; try discriminate; injection W as <-; reflexivity).
      lia.
    - destruct (control q) as [q'|] eqn:W; [|discriminate]. injection ST as <-. cbn. rewrite (count_set _ _ _ _ Ej).
      assert (running q' = running q) as ->.
      { unfold control in W. destruct q as [al de fr af w ct0]; cbn in *. destruct ct0; try discriminate; try (injection W as <-; reflexivity).
        destruct w; try discriminate. injection W as <-. reflexivity. }
      lia. }
  intros E. apply (G start); [reflexivity|exact E].
Qed.
Print Assumptions thread_count_partial.
Example thread_count_demo :
  match steps start [LSpawn true; LSpawn true; LSpawn true; LWork 1; LWork 1; LWork 2] with
  | Some s => live s = 2 | None => False end.
Proof. vm_compute. reflexivity. Qed.
(** A failed pthread_create is counted for ever. *)
Theorem thread_count_refuted : exists s, steps start [LSpawn false] = Some s /\ live s = 1 /\ count_running (recs s) = 0.
Proof. eexists. split; [reflexivity|]. split; reflexivity. Qed.
Print Assumptions thread_count_refuted.
(** Once is_alive has answered false (the alive flag is clear), the thread's function has returned
    and the thread is no longer counted. *)
Theorem thread_dead_means_returned ls s i r :
  steps start ls = Some s -> nth_error (recs s) i = Some r -> alive r = false -> running r = false.
Proof.
  intros E N. apply (rec_invariant (fun r => alive r = false -> running r = false)) with (ls := ls) (s := s) (i := i); auto.
  - intros [|]; discriminate.
  - intros [al de fr af w c] a r' H ST A. unfold running in *. cbn in *. destruct a as [|k|]; cbn in ST.
    + unfold work in ST. destruct w; cbn in ST; try discriminate; try (destruct de); cbn in ST; injection ST as <-; cbn in *; auto.
    + unfold begin_call in ST. destruct c, k; cbn in ST; try discriminate; injection ST as <-; cbn in *; auto.
    + unfold control in ST. destruct c as [| | |[]| | | | | |[]]; cbn in ST; try discriminate; try (injection ST as <-; cbn in *; auto; fail).
      destruct w; try discriminate. injection ST as <-. reflexivity.
Qed.
Print Assumptions thread_dead_means_returned.
