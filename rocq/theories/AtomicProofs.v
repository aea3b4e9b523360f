(** Every routine acts on the cell exactly once, at one instruction, with the result it returns. *)
From Verif Require Import Base AtomicSpec AtomicModel.
Ltac Zify.zify_post_hook ::= Z.div_mod_to_equations.

Lemma wrap_add w a b : 0 < w -> wrap_i w (a + wrap_i w b) = wrap_i w (a + b).
Proof.
  intros W. assert (exists k, wrap_i w b = b + k * 2 ^ w) as (k & ->).
  { unfold wrap_i. pose proof (Z.pow_pos_nonneg 2 w ltac:(lia) ltac:(lia)) as P. pose proof (Z.div_mod b (2 ^ w) ltac:(lia)) as D.
    destruct (_ <? _); [exists (- (b / 2 ^ w))|exists (- (b / 2 ^ w) - 1)]; lia. }
  unfold wrap_i. replace (a + (b + k * 2 ^ w)) with (a + b + k * 2 ^ w) by lia. rewrite Z.mod_add; [reflexivity|].
  pose proof (Z.pow_pos_nonneg 2 w ltac:(lia) ltac:(lia)). lia.
Qed.

(** ** What holds at each instruction *)
Section Assertions.
Context (a : arch) (w ptr : Z).
Definition x86_pre (o : op) (c : cpu) (ph : phase) : Prop :=
  let r := rs c in
  match o, pc c with
  | Load, (0 | 1)%nat => r5 r = ptr /\ ph = Called o
  | Load, (2 | 3)%nat => ph = Done o (r0 r)
  | Store v, (0 | 1)%nat => r5 r = ptr /\ r1 r = v /\ ph = Called o
  | Store v, (2 | 3)%nat => ph = Done o 0
  | Rmw KAdd v, 0%nat => r5 r = ptr /\ r1 r = v /\ ph = Called o
  | Rmw KAdd v, 1%nat => r5 r = ptr /\ r0 r = v /\ ph = Called o
  | Rmw KAdd v, 2%nat => ph = Done o (r0 r)
  | Rmw KSub v, 0%nat => r5 r = ptr /\ r1 r = v /\ ph = Called o
  | Rmw KSub v, 1%nat => r5 r = ptr /\ r1 r = wrap_i w (- v) /\ ph = Called o
  | Rmw KSub v, 2%nat => r5 r = ptr /\ r0 r = wrap_i w (- v) /\ ph = Called o
  | Rmw KSub v, 3%nat => ph = Done o (r0 r)
  | Cas e d, 0%nat => r5 r = ptr /\ r1 r = e /\ r2 r = d /\ ph = Called o
  | Cas e d, 1%nat => r5 r = ptr /\ r0 r = e /\ r2 r = d /\ ph = Called o
  | Cas e d, 2%nat => ph = Done o (if zf c then 1 else 0)
  | Cas e d, 3%nat => ph = Done o (r0 r mod 256)
  | Cas e d, 4%nat => ph = Done o (r0 r)
  | Exchange v, 0%nat => r5 r = ptr /\ r1 r = v /\ ph = Called o
  | Exchange v, 1%nat => r5 r = ptr /\ r0 r = v /\ ph = Called o
  | Exchange v, 2%nat => ph = Done o (r0 r)
  | Rmw KAdd _, _ => False
  | Rmw KSub _, _ => False
  | Rmw _ v, (0 | 1)%nat => r5 r = ptr /\ r1 r = v /\ ph = Called o
  | Rmw _ v, 2%nat => r5 r = ptr /\ r1 r = v /\ r3 r = r0 r /\ ph = Called o
  | Rmw k v, 3%nat => r5 r = ptr /\ r1 r = v /\ r3 r = compute w k (r0 r) v /\ ph = Called o
  | Rmw _ v, 4%nat => if zf c then ph = Done o (r0 r) else r5 r = ptr /\ r1 r = v /\ ph = Called o
  | Rmw _ v, 5%nat => ph = Done o (r0 r)
  | Lock, (0 | 5 | 6 | 7 | 8)%nat => r5 r = ptr /\ ph = Called o
  | Lock, 1%nat => r5 r = ptr /\ r0 r = 1 /\ ph = Called o
  | Lock, 2%nat => if r0 r =? 0 then ph = Done o 0 else r5 r = ptr /\ ph = Called o
  | Lock, 3%nat => if zf c then ph = Done o 0 else r5 r = ptr /\ ph = Called o
  | Lock, 4%nat => ph = Done o 0
  | TryLock, 0%nat => r5 r = ptr /\ ph = Called o
  | TryLock, 1%nat => r5 r = ptr /\ r0 r = 1 /\ ph = Called o
  | TryLock, 2%nat => ph = Done o (if r0 r =? 0 then 1 else 0)
  | TryLock, 3%nat => ph = Done o (if zf c then 1 else 0)
  | TryLock, 4%nat => ph = Done o (r0 r mod 256)
  | TryLock, 5%nat => ph = Done o (r0 r)
  | Unlock, (0 | 1)%nat => r5 r = ptr /\ ph = Called o
  | Unlock, 2%nat => ph = Done o 0
  | _, _ => False
  end.
(** m is the cell *)
Definition arm_pre (o : op) (c : cpu) (m : Z) (ph : phase) : Prop :=
  let r := rs c in
  match o, pc c with
  | Load, (0 | 1)%nat => r0 r = ptr /\ ph = Called o
  | Load, (2 | 3)%nat => ph = Done o (r0 r)
  | Store v, (0 | 1)%nat => r0 r = ptr /\ r1 r = v /\ ph = Called o
  | Store v, (2 | 3)%nat => ph = Done o 0
  | Rmw k v, 0%nat => r0 r = ptr /\ r1 r = v /\ ph = Called o
  | Rmw k v, 1%nat => r0 r = ptr /\ r1 r = v /\ ph = Called o /\ (excl c = true -> r2 r = m)
  | Rmw k v, 2%nat => r0 r = ptr /\ r1 r = v /\ ph = Called o /\ r3 r = compute w k (r2 r) v /\ (excl c = true -> r2 r = m)
  | Rmw k v, 3%nat => if r4 r =? 0 then ph = Done o (r2 r) else r0 r = ptr /\ r1 r = v /\ ph = Called o
  | Rmw k v, (4 | 5)%nat => ph = Done o (r2 r)
  | Rmw k v, 6%nat => ph = Done o (r0 r)
  | Cas e d, 0%nat => r0 r = ptr /\ r1 r = e /\ r2 r = d /\ ph = Called o
  | Cas e d, 1%nat => if r3 r =? r1 r then r0 r = ptr /\ r1 r = e /\ r2 r = d /\ ph = Called o /\ (excl c = true -> m = e)
                      else ph = Done o 0
  | Cas e d, 2%nat => if zf c then r0 r = ptr /\ r1 r = e /\ r2 r = d /\ ph = Called o /\ (excl c = true -> m = e)
                      else ph = Done o 0
  | Cas e d, 3%nat => r0 r = ptr /\ r1 r = e /\ r2 r = d /\ ph = Called o /\ (excl c = true -> m = e)
  | Cas e d, 4%nat => if r4 r =? 0 then ph = Done o 1 else r0 r = ptr /\ r1 r = e /\ r2 r = d /\ ph = Called o
  | Cas e d, (5 | 6)%nat => ph = Done o 1
  | Cas e d, 7%nat => ph = Done o (r0 r)
  | Cas e d, (8 | 9 | 10)%nat => ph = Done o 0
  | Cas e d, 11%nat => ph = Done o (r0 r)
  | Exchange v, 0%nat => r0 r = ptr /\ r1 r = v /\ ph = Called o
  | Exchange v, 1%nat => r0 r = ptr /\ r1 r = v /\ ph = Called o /\ (excl c = true -> r2 r = m)
  | Exchange v, 2%nat => if r3 r =? 0 then ph = Done o (r2 r) else r0 r = ptr /\ r1 r = v /\ ph = Called o
  | Exchange v, (3 | 4)%nat => ph = Done o (r2 r)
  | Exchange v, 5%nat => ph = Done o (r0 r)
  | Lock, (0 | 7 | 8 | 9 | 10)%nat => r0 r = ptr /\ ph = Called o
  | Lock, 1%nat => r0 r = ptr /\ ph = Called o /\ (excl c = true -> r1 r = m)
  | Lock, 2%nat => r0 r = ptr /\ ph = Called o /\ (excl c = true -> m = 0)
  | Lock, 3%nat => r0 r = ptr /\ ph = Called o /\ r2 r = 1 /\ (excl c = true -> m = 0)
  | Lock, 4%nat => if r3 r =? 0 then ph = Done o 0 else r0 r = ptr /\ ph = Called o
  | Lock, (5 | 6)%nat => ph = Done o 0
  | TryLock, 0%nat => r0 r = ptr /\ ph = Called o
  | TryLock, 1%nat => if r1 r =? 0 then r0 r = ptr /\ ph = Called o /\ (excl c = true -> m = 0) else ph = Done o 0
  | TryLock, 2%nat => r0 r = ptr /\ ph = Called o /\ (excl c = true -> m = 0)
  | TryLock, 3%nat => r0 r = ptr /\ ph = Called o /\ r2 r = 1 /\ (excl c = true -> m = 0)
  | TryLock, 4%nat => if r3 r =? 0 then ph = Done o 1 else ph = Done o 0
  | TryLock, (5 | 6)%nat => ph = Done o 1
  | TryLock, 7%nat => ph = Done o (r0 r)
  | TryLock, (8 | 9)%nat => ph = Done o 0
  | TryLock, 10%nat => ph = Done o (r0 r)
  | Unlock, (0 | 1)%nat => r0 r = ptr /\ ph = Called o
  | Unlock, 2%nat => ph = Done o 0
  | _, _ => False
  end.
Definition pre (o : op) (c : cpu) (m : Z) (ph : phase) : Prop :=
  match a with X86 => x86_pre o c ph | ARM => arm_pre o c m ph end.
End Assertions.

(** try_lock may fail spuriously on ARM *)
Definition weak_of (a : arch) : bool := match a with X86 => false | ARM => true end.

(** On entry the first assertion holds. *)
Lemma entry_pre a w ptr o g z e m : pre a w ptr o (Cpu 0 (entry a ptr o g) z e) m (Called o).
Proof. destruct a, o as [|v|[] v|x d|v| | |], g; cbn; auto. Qed.
(** A thread's assertion survives writes of the others. *)
Lemma lose_pre a w ptr o c m m' ph : pre a w ptr o c m ph -> pre a w ptr o (core (lose (Thr (Some o) c))) m' ph.
Proof.
  destruct a; [intros H; exact H|]. unfold pre, arm_pre. destruct c as [p r z e]. cbn [pc rs excl zf core lose busy].
  destruct o as [|v|k v|x d|v| | |]; do 12 (try (destruct p as [|p]; [cbn; repeat match goal with |- context [if ?b then _ else _] => destruct b end; intuition discriminate|]));
   cbn; tauto.
Qed.
(** An instruction either leaves the cell and the phase alone, or is the one that acts; it never faults;
    what is returned is the result of the act.  [lock_cell]: a cell used as a lock holds 0 or 1. *)
Definition cell_op (o : op) : bool := match o with Lock | TryLock | Unlock => false | _ => true end.
Definition lock_cell (m : Z) : Prop := m = 0 \/ m = 1.
Lemma low_byte x b : 0 <= b < 256 -> (x - x mod 256 + b) mod 256 = b.
Proof. lia. Qed.
Ltac dest_ands := repeat match goal with H : _ /\ _ |- _ => destruct H end.
Ltac bools := repeat match goal with
  | H : (_ =? _) = true |- _ => apply Z.eqb_eq in H
  | H : (_ =? _) = false |- _ => apply Z.eqb_neq in H
  | H : negb _ = true |- _ => apply negb_true_iff in H
  | H : negb _ = false |- _ => apply negb_false_iff in H
  | H : _ && _ = true |- _ => apply andb_true_iff in H; destruct H
  end.
Ltac split_ifs := repeat match goal with
  | |- context [if ?b then _ else _] => match b with context [if _ then _ else _] => fail 1 | _ => destruct b eqn:? end
  | H : context [if ?b then _ else _] |- _ => match b with context [if _ then _ else _] => fail 1 | _ => destruct b eqn:? end
  end.
Ltac fin := bools; dest_ands; subst; cbn in *; bools; subst; try solve [congruence | lia | intuition (try congruence; try lia)].
Ltac stay := eexists; split; [|left; split; [reflexivity|]]; [cbn; split_ifs; fin|fin].
Ltac act := eexists; split; [|right; eexists; split; [eassumption || fin|split; [reflexivity|]]]; [cbn; split_ifs; fin|cbn; split_ifs; fin].
Ltac solve_exec := cbn [exec get set pc rs zf excl r0 r1 r2 r3 r4 r5 result]; dest_ands; subst; rewrite ?Z.eqb_refl; split_ifs; dest_ands; subst; rewrite ?Z.eqb_refl; cbn [exec get set pc rs zf excl r0 r1 r2 r3 r4 r5]; try discriminate; first [reflexivity | split; [fin|split; [intros; unfold lock_cell in *; fin|first [solve [stay] | solve [act]]]]].
Lemma exec_pre a w ptr o c m ph i ok : 0 < w -> pre a w ptr o c m ph -> (cell_op o = false -> lock_cell m) ->
  nth_error (code a o) (pc c) = Some i ->
  match exec w ptr i ok c m with
  | Next c' m' wrote =>
      (wrote = false -> m' = m) /\ (cell_op o = false -> lock_cell m') /\
      exists ph', pre a w ptr o c' m' ph' /\
        ((ph' = ph /\ m' = m) \/ (exists r, ph = Called o /\ ph' = Done o r /\ apply (weak_of a) w m o r m'))
  | Returned => ph = Done o (result o (rs c))
  | Fault => False
  end.
Proof.
  intros W P L. destruct c as [p [x0 x1 x2 x3 x4 x5] z e]. cbn [pc].
  destruct a; unfold pre, x86_pre, arm_pre in P; cbn [pc rs zf excl r0 r1 r2 r3 r4 r5] in P.
  - destruct o as [|v|[] v|ex d|v| | |]; do 12 (try (destruct p as [|p]; try contradiction)).
    all: cbn [code nth_error]; intros [= <-]. all: try (solve_exec; fail).
    + cbn. dest_ands. subst. rewrite Z.eqb_refl. split; [discriminate|]. split; [discriminate|].
      eexists. split; [|right; exists m; split; [reflexivity|split; [reflexivity|]]]; [reflexivity|]. cbn. split; [reflexivity|].
      rewrite wrap_add by lia. reflexivity.
    + cbn. split; [reflexivity|]. split; [discriminate|]. exists ph. split; [|left; auto]. rewrite low_byte by (destruct z; lia). exact P.
    + cbn. dest_ands. subst. rewrite Z.eqb_refl. split; [discriminate|]. split; [right; reflexivity|].
      specialize (L eq_refl). destruct (Z.eqb_spec m 0) as [->|N].
      * exists (Done Lock 0). split; [reflexivity|]. right. exists 0. cbn. auto.
      * eexists. split; [cbn; rewrite (proj2 (Z.eqb_neq m 0) N); split; reflexivity|]. left. split; [reflexivity|]. unfold lock_cell in L. lia.
    + cbn. dest_ands. subst. rewrite Z.eqb_refl. split; [discriminate|]. split; [right; reflexivity|].
      specialize (L eq_refl). eexists. split; [reflexivity|]. right. eexists. split; [reflexivity|]. split; [reflexivity|]. cbn.
      unfold lock_cell in L. destruct (Z.eqb_spec m 0); lia.
    + cbn. split; [reflexivity|]. split; [intros; apply L; reflexivity|]. exists ph. split; [|left; auto]. rewrite low_byte by (destruct z; lia). exact P.
  - destruct o as [|v|k v|ex d|v| | |]; do 12 (try (destruct p as [|p]; try contradiction)).
    all: cbn [code nth_error]; intros [= <-]. all: try (solve_exec; fail).
    + cbn. dest_ands. subst. rewrite Z.eqb_refl. split; [reflexivity|]. split; [discriminate|]. destruct (Z.eqb_spec m ex) as [->|N].
      * eexists. split; [cbn; rewrite ?Z.eqb_refl; repeat split; auto|left; auto].
      * exists (Done (Cas ex d) 0). split; [cbn; try rewrite (proj2 (Z.eqb_neq m ex) N); reflexivity|]. right. exists 0. cbn. try rewrite (proj2 (Z.eqb_neq m ex) N). auto.
    + cbn. dest_ands. subst. rewrite Z.eqb_refl. split; [reflexivity|]. split; [exact L|]. destruct (Z.eqb_spec m 0) as [->|N].
      * eexists. split; [cbn; rewrite ?Z.eqb_refl; repeat split; auto|left; auto].
      * exists (Done TryLock 0). split; [cbn; try rewrite (proj2 (Z.eqb_neq m 0) N); reflexivity|]. right. exists 0. cbn. auto 10.
Qed.
(** Every program counter reached is inside the routine. *)
Lemma pre_in_code a w ptr o c m ph : pre a w ptr o c m ph -> nth_error (code a o) (pc c) <> None.
Proof.
  destruct c as [p r z e]. unfold pre, x86_pre, arm_pre. cbn [pc rs zf excl]. intros H N.
  destruct a, o as [|v|[] v|ex d|v| | |]; do 12 (try (destruct p as [|p]; try contradiction; try discriminate)); contradiction.
Qed.

(** ** The whole system *)
Lemma nth_set {A} (l : list A) i j (x y : A) : nth_error l i = Some x -> nth_error (set_nth l i y) j = if Nat.eqb j i then Some y else nth_error l j.
Proof. revert i j; induction l as [|z l IH]; intros [|i] [|j] E; cbn in *; try discriminate; auto. Qed.

Lemma explains_ext weak w m0 h ph ph2 m : explains weak w m0 h ph m -> (forall u, ph2 u = ph u) -> explains weak w m0 h ph2 m.
Proof.
  intros EX Q. destruct EX as [ph H|h ph m t o ph' EX H1 [H2 H3]|h ph m t o r m' ph' EX H1 HA [H2 H3]|h ph m t o r ph' EX H1 [H2 H3]].
  - constructor. intros t. rewrite Q. apply H.
  - eapply ex_call; [exact EX|exact H1|]. split; [rewrite Q; exact H2|intros u N; rewrite Q; apply H3, N].
  - eapply ex_act; [exact EX|exact H1|exact HA|]. split; [rewrite Q; exact H2|intros u N; rewrite Q; apply H3, N].
  - eapply ex_ret; [exact EX|exact H1|]. split; [rewrite Q; exact H2|intros u N; rewrite Q; apply H3, N].
Qed.

Section System.
Context (a : arch) (w ptr m0 : Z) (locks : bool).
Definition thread_ok (m : Z) (th : thread) (p : phase) : Prop :=
  match busy th with
  | None => p = Out
  | Some o => pre a w ptr o (core th) m p /\ cell_op o = negb locks
  end.
Definition inv (s : sys) : Prop :=
  faulted s = false /\ (locks = true -> lock_cell (mem s)) /\
  exists ph, explains (weak_of a) w m0 (hist s) ph (mem s) /\
    forall t, match nth_error (threads s) t with None => ph t = Out | Some th => thread_ok (mem s) th (ph t) end.

Definition upd (ph : nat -> phase) (t : nat) (p : phase) (u : nat) : phase := if Nat.eqb u t then p else ph u.
Lemma upd_moves ph t p : moves t ph (upd ph t p) p.
Proof.
  unfold moves, upd. split; [rewrite Nat.eqb_refl; reflexivity|]. intros u N.
  rewrite (proj2 (Nat.eqb_neq u t) N). reflexivity.
Qed.

Lemma inv_start n : (locks = true -> lock_cell m0) -> inv (start m0 n).
Proof.
  intros L. split; [reflexivity|]. split; [exact L|]. exists (fun _ => Out). split; [constructor; reflexivity|].
  intros t. cbn [threads start]. destruct (nth_error _ t) as [th|] eqn:E; [|reflexivity].
  apply nth_error_In, repeat_spec in E. subst th. reflexivity.
Qed.
Lemma inv_step s l s' : 0 < w -> inv s -> match l with LCall _ o _ => cell_op o = negb locks | _ => True end ->
  step a w ptr s l = Some s' -> inv s'.
Proof.
  intros W (F & LC & ph & EX & TH) OK E. destruct l as [t o g|t ok]; cbn [step] in E.
  - pose proof (TH t) as Ht. destruct (nth_error (threads s) t) as [th|] eqn:Et; [|discriminate].
    unfold thread_ok in Ht. destruct (busy th) eqn:Eb; [discriminate|]. injection E as <-.
    split; [exact F|]. split; [exact LC|]. exists (upd ph t (Called o)). cbn [hist mem threads]. split.
    + eapply ex_call; [exact EX|exact Ht|apply upd_moves].
    + intros u. rewrite (nth_set _ _ _ _ _ Et). unfold upd. destruct (Nat.eqb u t).
      * split; [apply entry_pre|exact OK].
      * apply TH.
  - pose proof (TH t) as Ht. destruct (nth_error (threads s) t) as [th|] eqn:Et; [|discriminate].
    unfold thread_ok in Ht. destruct (busy th) as [o|] eqn:Eb; [|discriminate]. destruct Ht as [P K].
    destruct (nth_error (code a o) (pc (core th))) as [i|] eqn:Ei; [|exfalso; exact (pre_in_code _ _ _ _ _ _ _ P Ei)].
    assert (cell_op o = false -> lock_cell (mem s)) as LC' by (intros Q; apply LC; destruct locks; [reflexivity|cbn in K; congruence]).
    pose proof (exec_pre a w ptr o (core th) (mem s) (ph t) i ok W P LC' Ei) as X.
    destruct (exec w ptr i ok (core th) (mem s)) as [c m' wrote| |]; [| |contradiction].
    + injection E as <-. destruct X as (X1 & X2 & ph' & X3 & X4). split; [exact F|]. cbn [mem hist threads].
      split; [intros Q; apply X2; rewrite K, Q; reflexivity|]. exists (upd ph t ph'). split.
      * destruct X4 as [[-> ->]|(r & Q1 & -> & Q2)].
        -- eapply explains_ext; [exact EX|]. intros u. unfold upd. destruct (Nat.eqb_spec u t) as [->|]; reflexivity.
        -- eapply ex_act; [exact EX|exact Q1|exact Q2|apply upd_moves].
      * intros u. assert (exists x, nth_error (if wrote then map lose (threads s) else threads s) t = Some x) as (x & Ex).
        { destruct wrote; [rewrite (map_nth_error _ _ _ Et)|rewrite Et]; eauto. }
        rewrite (nth_set _ _ _ _ _ Ex). unfold upd. destruct (Nat.eqb_spec u t) as [->|N].
        -- split; [exact X3|exact K].
        -- specialize (TH u). destruct wrote.
           ++ rewrite nth_error_map. destruct (nth_error (threads s) u) as [tu|]; cbn; [|exact TH].
              unfold thread_ok in *. destruct tu as [[ou|] cu]; cbn [busy lose core] in *; [|exact TH].
              split; [|apply TH]. exact (lose_pre a w ptr ou cu _ m' _ (proj1 TH)).
           ++ rewrite (X1 eq_refl). exact TH.
    + injection E as <-. split; [exact F|]. split; [exact LC|]. exists (upd ph t Out). cbn [hist mem threads]. split.
      * eapply ex_ret; [exact EX|exact X|apply upd_moves].
      * intros u. rewrite (nth_set _ _ _ _ _ Et). unfold upd. destruct (Nat.eqb u t); [reflexivity|apply TH].
Qed.
End System.
