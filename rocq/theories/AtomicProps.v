(** Atomic operations: C84 (linearizable, no lost updates, finish alone); spin locks: C85 (mutual exclusion). *)
From Verif Require Import Base AtomicSpec AtomicModel AtomicProofs AtomicProofs2.
Ltac Zify.zify_post_hook ::= Z.div_mod_to_equations.

(** The operations a schedule calls. *)
Definition calls (ok : op -> bool) (ls : list label) : Prop := forall t o g, In (LCall t o g) ls -> ok o = true.
Definition lock_op (o : op) : bool := match o with Lock | TryLock | Unlock => true | _ => false end.

Lemma reach_inv a w ptr m0 locks ls : forall s s', 0 < w -> inv a w ptr m0 locks s ->
  calls (fun o => if locks then lock_op o else cell_op o) ls -> steps a w ptr s ls = Some s' -> inv a w ptr m0 locks s'.
Proof.
  induction ls as [|l ls IH]; intros s s' W I C E; cbn in E; [congruence|].
  destruct (step a w ptr s l) as [s1|] eqn:K; [|discriminate]. eapply IH; [exact W| |intros t o g J; apply (C t o g); right; exact J|exact E].
  eapply inv_step; [exact W|exact I| |exact K]. destruct l as [t o g|]; [|exact Logic.I].
  specialize (C t o g (or_introl eq_refl)). destruct locks, o; cbn in *; congruence.
Qed.

(** ** C84 *)
(** On both architectures, under every schedule of any number of threads, with arbitrary contents of the
    other registers: every history of loads, stores, additions, subtractions, bit operations, exchanges and
    compare-and-swaps on a cell is one of operations that act indivisibly; no access goes elsewhere. *)
Theorem atomic_linearizable a w ptr m0 n ls s :
  0 < w -> calls cell_op ls -> steps a w ptr (start m0 n) ls = Some s ->
  faulted s = false /\ linearizable false w m0 (hist s).
Proof.
  intros W C E. destruct (reach_inv a w ptr m0 false ls _ _ W (inv_start a w ptr m0 false n ltac:(discriminate)) C E) as (F & _ & ph & EX & _).
  split; [exact F|]. exists ph, (mem s).
  assert (uses cell_op n (hist s) \/ True) as _ by auto.
  assert (forall weak h ph m, explains weak w m0 h ph m -> (forall t o, In (Call t o) h -> cell_op o = true) ->
    (forall t o, ph t = Called o -> cell_op o = true) /\ explains false w m0 h ph m) as G.
  { intros weak h p m X. induction X as [p H|h p m t o p' X IH H1 HM|h p m t o r m' p' X IH H1 HA HM|h p m t o r p' X IH H1 HM]; intros K.
    - split; [intros t o Q; rewrite H in Q; discriminate|constructor; exact H].
    - destruct IH as [I1 I2]; [intros u q J; apply (K u q), in_or_app; left; exact J|]. split; [|eapply ex_call; eauto].
      intros u q Q. destruct HM as [M1 M2]. destruct (Nat.eq_dec u t) as [->|N]; [|rewrite (M2 u N) in Q; eauto].
      rewrite M1 in Q. injection Q as <-. apply (K t o), in_or_app. right; left; reflexivity.
    - destruct (IH K) as [I1 I2]. split.
      + intros u q Q. destruct HM as [M1 M2]. destruct (Nat.eq_dec u t) as [->|N]; [congruence|rewrite (M2 u N) in Q; eauto].
      + eapply ex_act; eauto. specialize (I1 _ _ H1). destruct o; try discriminate; exact HA.
    - destruct IH as [I1 I2]; [intros u q J; apply (K u q), in_or_app; left; exact J|]. split; [|eapply ex_ret; eauto].
      intros u q Q. destruct HM as [M1 M2]. destruct (Nat.eq_dec u t) as [->|N]; [congruence|rewrite (M2 u N) in Q; eauto]. }
  apply (G _ _ _ _ EX).
  assert (forall ls s0 s, calls cell_op ls -> steps a w ptr s0 ls = Some s ->
    (forall t o, In (Call t o) (hist s0) -> cell_op o = true) -> forall t o, In (Call t o) (hist s) -> cell_op o = true) as HC.
  { clear. induction ls as [|l ls IH]; intros s0 s C E H; cbn in E; [injection E as <-; exact H|].
    destruct (step a w ptr s0 l) as [s1|] eqn:K; [|discriminate].
    apply (IH s1 s); [intros t o g J; apply (C t o g); right; exact J|exact E|].
    destruct l as [t o g|t ok]; cbn [step] in K; (destruct (nth_error (threads s0) t) as [th|]; [|discriminate]); (destruct (busy th) as [b|]; try discriminate).
    - injection K as <-. intros u q J. cbn [hist] in J. apply in_app_iff in J. destruct J as [J|[J|[]]]; [eauto|]. injection J as <- <-.
      exact (C t o g (or_introl eq_refl)).
    - destruct (nth_error (code a b) (pc (core th))) as [i|]; [|injection K as <-; exact H].
      destruct (exec w ptr i ok (core th) (mem s0)); injection K as <-; cbn [hist]; try exact H.
      intros u q J. apply in_app_iff in J. destruct J as [J|[J|[]]]; [eauto|discriminate]. }
  apply (HC ls (start m0 n) s C E). intros t o [].
Qed.
Print Assumptions atomic_linearizable.

(** No update is lost: when threads only add, subtract and load, and all calls have returned, the cell
    holds the start value plus everything added, modulo 2^w. *)
Theorem atomic_no_lost_updates a w ptr m0 n ls s :
  0 < w -> in_i w m0 -> calls counts ls -> steps a w ptr (start m0 n) ls = Some s ->
  (forall th, In th (threads s) -> busy th = None) ->
  wrap_i w (mem s) = wrap_i w (m0 + total (hist s)).
Proof.
  intros W _ C E Q.
  assert (calls cell_op ls) as C' by (intros t o g J; specialize (C t o g J); destruct o; try discriminate; reflexivity).
  destruct (reach_inv a w ptr m0 false ls _ _ W (inv_start a w ptr m0 false n ltac:(discriminate)) C' E) as (_ & _ & ph & EX & TH).
  assert (forall ls s0 s, calls counts ls -> steps a w ptr s0 ls = Some s -> length (threads s0) = n ->
    uses counts n (hist s0) -> uses counts n (hist s) /\ length (threads s) = n) as HC.
  { clear. induction ls as [|l ls IH]; intros s0 s C E L H; cbn in E; [injection E as <-; auto|].
    destruct (step a w ptr s0 l) as [s1|] eqn:K; [|discriminate].
    assert (forall (l : list thread) i x, length (set_nth l i x) = length l) as SL.
    { clear. induction l as [|y l IHl]; intros [|i] x; cbn; auto. }
    apply (IH s1 s); [intros t o g J; apply (C t o g); right; exact J|exact E| |];
    (destruct l as [t o g|t ok]; cbn [step] in K; (destruct (nth_error (threads s0) t) as [th|] eqn:Et; [|discriminate]); (destruct (busy th) as [b|]; try discriminate)).
    - injection K as <-. cbn [threads]. rewrite SL. exact L.
    - destruct (nth_error (code a b) (pc (core th))) as [i|]; [|injection K as <-; exact L].
      destruct (exec w ptr i ok (core th) (mem s0)) as [c m []| |]; injection K as <-; cbn [threads]; rewrite ?SL, ?map_length; exact L.
    - injection K as <-. intros u q J. cbn [hist] in J. apply in_app_iff in J. destruct J as [J|[J|[]]]; [eauto|]. injection J as <- <-.
      split; [exact (C t o g (or_introl eq_refl))|]. assert (nth_error (threads s0) t <> None) as NN by congruence. apply nth_error_Some in NN. lia.
    - destruct (nth_error (code a b) (pc (core th))) as [i|]; [|injection K as <-; exact H].
      destruct (exec w ptr i ok (core th) (mem s0)); injection K as <-; cbn [hist]; try exact H.
      intros u q J. apply in_app_iff in J. destruct J as [J|[J|[]]]; [eauto|discriminate]. }
  destruct (HC ls (start m0 n) s C E) as [U L]; [cbn; apply repeat_length|intros t o []|].
  destruct (explains_total _ _ _ n _ _ _ W EX U) as ((k & K) & _).
  assert (forall t, ph t = Out) as OUT.
  { intros t. specialize (TH t). destruct (nth_error (threads s) t) as [th|] eqn:Et; [|exact TH].
    unfold thread_ok in TH. rewrite (Q th) in TH by (eapply nth_error_In; eauto). exact TH. }
  assert (all_pending ph n = 0) as P0 by (clear - OUT; induction n as [|n IH]; [reflexivity|]; cbn [all_pending]; rewrite IH, OUT; reflexivity).
  rewrite P0, Z.add_0_r in K. rewrite K. apply wrap_shift, W.
Qed.
Print Assumptions atomic_no_lost_updates.

(** A thread left alone finishes its operation within 20 instructions, whatever state the others were
    stopped in (a lock must be free), if its store-exclusives do not fail. *)
Theorem atomic_finishes_alone a w ptr m0 n ls s t th o :
  0 < w -> (calls cell_op ls \/ (calls lock_op ls /\ m0 = 0)) -> steps a w ptr (start m0 n) ls = Some s ->
  nth_error (threads s) t = Some th -> busy th = Some o -> (o = Lock -> mem s = 0) ->
  exists k s', (k <= 20)%nat /\ steps a w ptr s (List.repeat (LRun t true) k) = Some s' /\
    option_map busy (nth_error (threads s') t) = Some None.
Proof.
  intros W C E N B L.
  assert (pre a w ptr o (core th) (mem s) (Called o) \/ exists ph, pre a w ptr o (core th) (mem s) ph) as P.
  { right. destruct C as [C|[C ->]].
    - destruct (reach_inv a w ptr m0 false ls _ _ W (inv_start a w ptr m0 false n ltac:(discriminate)) C E) as (_ & _ & ph & _ & TH).
      specialize (TH t). rewrite N in TH. unfold thread_ok in TH. rewrite B in TH. exists (ph t). apply TH.
    - destruct (reach_inv a w ptr 0 true ls _ _ W (inv_start a w ptr 0 true n ltac:(left; reflexivity)) C E) as (_ & _ & ph & _ & TH).
      specialize (TH t). rewrite N in TH. unfold thread_ok in TH. rewrite B in TH. exists (ph t). apply TH. }
  assert (exists ph, pre a w ptr o (core th) (mem s) ph) as (ph & P') by (destruct P; eauto).
  pose proof (solo_ends _ _ _ _ _ _ _ P' L) as SO. clear - N B SO. revert s th N B SO. generalize 20%nat as k.
  induction k as [|k IH]; intros s th N B SO; cbn [solo] in SO; [discriminate|].
  destruct (nth_error (code a o) (pc (core th))) as [i|] eqn:Ei; [|discriminate].
  destruct (exec w ptr i true (core th) (mem s)) as [c m wr| |] eqn:X; [| |discriminate].
  - set (s1 := Sys m (set_nth (if wr then map lose (threads s) else threads s) t (Thr (Some o) c)) (hist s) (faulted s)).
    assert (step a w ptr s (LRun t true) = Some s1) as ST by (cbn [step]; rewrite N, B, Ei, X; reflexivity).
    assert (nth_error (threads s1) t = Some (Thr (Some o) c)) as N1.
    { cbn [threads s1]. assert (exists x, nth_error (if wr then map lose (threads s) else threads s) t = Some x) as (x & Ex).
      { destruct wr; [rewrite (map_nth_error _ _ _ N)|rewrite N]; eauto. }
      unfold s1. cbn [threads]. rewrite (nth_set _ _ _ _ _ Ex), Nat.eqb_refl. reflexivity. }
    destruct (IH s1 _ N1 eq_refl SO) as (j & s' & J1 & J2 & J3). exists (S j), s'. split; [lia|]. split; [|exact J3].
    cbn [List.repeat steps]. rewrite ST. exact J2.
  - eexists 1%nat, _. split; [lia|]. split; [cbn [List.repeat steps step]; rewrite N, B, Ei, X; reflexivity|].
    cbn [threads]. rewrite (nth_set _ _ _ _ _ N), Nat.eqb_refl. reflexivity.
Qed.
Print Assumptions atomic_finishes_alone.

(** Two threads interleaved inside an addition and a bit operation, on both machines; on ARM one
    store-exclusive fails because of the other thread and one spuriously. *)
Definition g0 : regs := Regs 11 12 13 14 15 16.
Example atomic_demo_arm :
  match steps ARM 64 1000 (start 5 2)
    ([LCall 0 (Rmw KAdd 3) g0; LCall 1 (Rmw KXor 1) g0; LRun 0 true; LRun 1 true; LRun 0 true; LRun 0 true; LRun 1 true; LRun 1 true; LRun 1 true;
      LRun 1 true; LRun 1 true; LRun 1 false; LRun 1 true] ++ List.repeat (LRun 0 true) 4 ++ List.repeat (LRun 1 true) 7) with
  | Some s => mem s = 9 /\ hist s = [Call 0 (Rmw KAdd 3); Call 1 (Rmw KXor 1); Ret 0 5; Ret 1 8] /\ faulted s = false
  | None => False
  end.
Proof. vm_compute. auto. Qed.
Example atomic_demo_x86 :
  match steps X86 32 1000 (start 5 2)
    ([LCall 1 (Rmw KXor 1) g0; LRun 1 true; LRun 1 true; LRun 1 true; LCall 0 (Rmw KSub 3) g0] ++ List.repeat (LRun 0 true) 4 ++ List.repeat (LRun 1 true) 7) with
  | Some s => mem s = 3 /\ hist s = [Call 1 (Rmw KXor 1); Call 0 (Rmw KSub 3); Ret 0 5; Ret 1 2]
  | None => False
  end.
Proof. vm_compute. auto. Qed.

(** ** C85 *)
(** Under every schedule, if only threads that hold the lock release it and none takes it twice, at most
    one thread is between a successful lock or try_lock and its unlock. *)
Theorem spin_mutual_exclusion a w ptr n ls s t u :
  0 < w -> calls lock_op ls -> steps a w ptr (start 0 n) ls = Some s -> disciplined (hist s) ->
  inside (hist s) t = true -> inside (hist s) u = true -> t = u.
Proof.
  intros W C E D. destruct (reach_inv a w ptr 0 true ls _ _ W (inv_start a w ptr 0 true n ltac:(left; reflexivity)) C E) as (_ & _ & ph & EX & _).
  eapply explains_inside; eauto.
Qed.
Print Assumptions spin_mutual_exclusion.
(** The histories are those of an indivisible lock; on x86 try_lock fails only when the lock is taken.
    Missing for ARM: there try_lock may fail on a free lock, see spin_trylock_refuted. *)
Theorem spin_linearizable_partial a w ptr n ls s :
  0 < w -> calls lock_op ls -> steps a w ptr (start 0 n) ls = Some s ->
  faulted s = false /\ linearizable (match a with X86 => false | ARM => true end) w 0 (hist s).
Proof.
  intros W C E. destruct (reach_inv a w ptr 0 true ls _ _ W (inv_start a w ptr 0 true n ltac:(left; reflexivity)) C E) as (F & _ & ph & EX & _).
  split; [exact F|]. exists ph, (mem s). exact EX.
Qed.
Print Assumptions spin_linearizable_partial.
Lemma strong_trylock_alone m0 h ph m : explains false 32 m0 h ph m -> m0 = 0 ->
  (h = [] \/ h = [Call 0 TryLock] \/ exists r, h = [Call 0 TryLock; Ret 0 r]) ->
  (h = [] -> m = 0 /\ forall t, ph t = Out) /\
  (h = [Call 0 TryLock] -> (ph 0%nat = Called TryLock /\ m = 0 \/ ph 0%nat = Done TryLock 1) /\ forall t, t <> 0%nat -> ph t = Out) /\
  (forall r, h = [Call 0 TryLock; Ret 0 r] -> r = 1).
Proof.
  intros EX. induction EX as [p H|h p m t o p' X IH H1 HM|h p m t o r m' p' X IH H1 HA HM|h p m t o r p' X IH H1 HM]; intros Z K.
  - split; [auto|]. split; [discriminate|intros r; discriminate].
  - assert (h = [] /\ t = 0%nat /\ o = TryLock) as (-> & -> & ->).
    { destruct h as [|x [|y [|z h]]]; destruct K as [K|[K|(r & K)]]; try discriminate; cbn in K; injection K as ? ?; subst; auto; discriminate. }
    destruct (IH Z (or_introl eq_refl)) as (I1 & _). destruct (I1 eq_refl) as [M I2].
    split; [discriminate|]. split; [|intros r; discriminate]. intros _. destruct HM as [M1 M2].
    split; [left; auto|]. intros u N. rewrite (M2 u N). apply I2.
  - destruct (IH Z K) as (I1 & I2 & I3). split; [|split; [|exact I3]].
    + intros ->. destruct (I1 eq_refl) as [_ Q]. rewrite Q in H1. discriminate.
    + intros ->. destruct (I2 eq_refl) as [Q1 Q2]. destruct (Nat.eq_dec t 0) as [->|N]; [|rewrite (Q2 t N) in H1; discriminate].
      destruct Q1 as [[Q1 Q1']|Q1]; [|congruence]. rewrite Q1 in H1. injection H1 as <-. subst m.
      destruct HM as [M1 M2]. cbn [apply] in HA. destruct HA as [(_ & -> & _)|([HA|HA] & _)]; try congruence.
      split; [right; exact M1|]. intros u N. rewrite (M2 u N). auto.
  - assert (h = [Call 0 TryLock] /\ t = 0%nat) as (-> & ->).
    { destruct h as [|x [|y [|z h]]]; destruct K as [K|[K|(q & K)]]; try discriminate; cbn in K; injection K as ? ?; subst; auto; discriminate. }
    destruct (IH Z (or_intror (or_introl eq_refl))) as (_ & I2 & _). destruct (I2 eq_refl) as [Q1 Q2].
    split; [discriminate|]. split; [discriminate|]. intros q Q. injection Q as <-. destruct Q1 as [[Q1 _]|Q1]; rewrite Q1 in H1; congruence.
Qed.
Theorem spin_trylock_refuted :
  exists s, steps ARM 32 1000 (start 0 1) ([LCall 0 TryLock g0] ++ List.repeat (LRun 0 false) 8) = Some s /\
    hist s = [Call 0 TryLock; Ret 0 0] /\ ~ linearizable false 32 0 (hist s).
Proof.
  eexists. split; [vm_compute; reflexivity|]. cbn [hist]. split; [reflexivity|]. intros (ph & m & EX).
  destruct (strong_trylock_alone _ _ _ _ EX eq_refl) as (_ & _ & R); [right; right; eauto|]. specialize (R 0 eq_refl). discriminate.
Qed.
Print Assumptions spin_trylock_refuted.
(** Three threads contending: one gets in, try_lock fails meanwhile, the waiting one gets in after unlock. *)
Example spin_demo :
  match steps X86 32 1000 (start 0 3)
    ([LCall 0 Lock g0; LCall 1 Lock g0; LCall 2 TryLock g0] ++ List.repeat (LRun 1 true) 5 ++ List.repeat (LRun 0 true) 20 ++ List.repeat (LRun 2 true) 6) with
  | Some s => hist s = [Call 0 Lock; Call 1 Lock; Call 2 TryLock; Ret 1 0; Ret 2 0] /\ inside (hist s) 1 = true /\ disciplined (hist s) /\
      match steps X86 32 1000 s ([LCall 1 Unlock g0] ++ List.repeat (LRun 1 true) 3 ++ List.repeat (LRun 0 true) 8) with
      | Some s => inside (hist s) 0 = true /\ inside (hist s) 1 = false | None => False end
  | None => False
  end.
Proof.
  vm_compute. split; [reflexivity|]. split; [reflexivity|]. split; [|auto].
  intros b t o l E.
  do 5 (destruct b as [|x b]; [try discriminate E; injection E; intros; subst; vm_compute; auto|cbn in E; injection E as <- E]).
  destruct b; discriminate.
Qed.
