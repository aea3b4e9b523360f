(** Consequences of linearizability: no lost additions, mutual exclusion; and progress of a thread that
    runs alone. *)
From Verif Require Import Base AtomicSpec AtomicModel AtomicProofs.
Ltac Zify.zify_post_hook ::= Z.div_mod_to_equations.

(** ** Additions *)
Definition added (e : event) : Z := match e with Call _ (Rmw KAdd v) => v | Call _ (Rmw KSub v) => - v | _ => 0 end.
Fixpoint total (h : list event) : Z := match h with [] => 0 | e :: h => added e + total h end.
Lemma total_app h e : total (h ++ [e]) = total h + added e.
Proof. induction h as [|x h IH]; cbn [total app]; lia. Qed.
Definition pending (p : phase) : Z := match p with Called (Rmw KAdd v) => v | Called (Rmw KSub v) => - v | _ => 0 end.
Fixpoint all_pending (ph : nat -> phase) (n : nat) : Z := match n with O => 0 | S n => all_pending ph n + pending (ph n) end.
Lemma pending_moves t ph ph' p n : moves t ph ph' p -> (t < n)%nat ->
  all_pending ph' n = all_pending ph n - pending (ph t) + pending p.
Proof.
  intros [H1 H2] L. assert (forall k, (k <= t)%nat -> all_pending ph' k = all_pending ph k) as B.
  { induction k as [|k IH]; intros K; [reflexivity|]. cbn [all_pending]. rewrite IH by lia. rewrite H2 by lia. reflexivity. }
  induction n as [|n IH]; [lia|]. cbn [all_pending]. destruct (Nat.eq_dec t n) as [->|N].
  - rewrite B by lia. rewrite H1. lia.
  - rewrite IH by lia. rewrite (H2 n) by lia. lia.
Qed.
Definition counts (o : op) : bool := match o with Rmw KAdd _ | Rmw KSub _ | Load => true | _ => false end.
Definition uses (ok : op -> bool) (n : nat) (h : list event) : Prop := forall t o, In (Call t o) h -> ok o = true /\ (t < n)%nat.
Lemma wrap_spec w x : 0 < w -> exists k, wrap_i w x = x + k * 2 ^ w.
Proof.
  intros W. unfold wrap_i. pose proof (Z.pow_pos_nonneg 2 w ltac:(lia) ltac:(lia)) as P. pose proof (Z.div_mod x (2 ^ w) ltac:(lia)) as D.
  destruct (_ <? _); [exists (- (x / 2 ^ w))|exists (- (x / 2 ^ w) - 1)]; lia.
Qed.
Lemma wrap_shift w x k : 0 < w -> wrap_i w (x + k * 2 ^ w) = wrap_i w x.
Proof. intros W. unfold wrap_i. rewrite Z.mod_add; [reflexivity|]. pose proof (Z.pow_pos_nonneg 2 w ltac:(lia) ltac:(lia)). lia. Qed.
Lemma explains_total weak w m0 n h ph m : 0 < w -> explains weak w m0 h ph m -> uses counts n h ->
  (exists k, m + all_pending ph n = m0 + total h + k * 2 ^ w) /\
  (forall t o, ph t = Called o -> counts o = true /\ (t < n)%nat) /\ (forall t o r, ph t = Done o r -> (t < n)%nat).
Proof.
  intros W EX. induction EX as [ph H|h ph m t o ph' EX IH H1 HM|h ph m t o r m' ph' EX IH H1 HA HM|h ph m t o r ph' EX IH H1 HM]; intros U.
  - split; [|split; [intros t o Q|intros t o r Q]; rewrite H in Q; discriminate]. exists 0. cbn [total].
    assert (all_pending ph n = 0) as -> by (clear U; induction n as [|n IHn]; [reflexivity|]; cbn [all_pending]; rewrite IHn, H; reflexivity). lia.
  - assert (uses counts n h) as U1 by (intros u q I; apply (U u q), in_or_app; left; exact I).
    destruct (IH U1) as ((k & K) & C & D). destruct (U t o) as [Q1 Q2]; [apply in_or_app; right; left; reflexivity|].
    split; [exists k|split].
    + rewrite (pending_moves _ _ _ _ _ HM Q2), total_app, H1. cbn [pending added].
      destruct o as [|v|[] v|x d|v| | |]; try discriminate; lia.
    + intros u q E. destruct (Nat.eq_dec u t) as [->|N].
      * destruct HM as [HM _]. rewrite HM in E. injection E as <-. auto.
      * destruct HM as [_ HM]. rewrite (HM u N) in E. exact (C u q E).
    + intros u q r E. destruct (Nat.eq_dec u t) as [->|N].
      * destruct HM as [HM _]. congruence.
      * destruct HM as [_ HM]. rewrite (HM u N) in E. exact (D u q r E).
  - destruct (IH U) as ((k & K) & C & D). destruct (C t o H1) as [Q1 Q2].
    split; [|split].
    + rewrite (pending_moves _ _ _ _ _ HM Q2), H1. cbn [pending].
      destruct o as [|v|[] v|x d|v| | |]; try discriminate; cbn [apply compute] in HA; destruct HA as [-> ->].
      * exists k. cbn [pending]. lia.
      * destruct (wrap_spec w (m + v) W) as (j & ->). exists (k + j). lia.
      * destruct (wrap_spec w (m - v) W) as (j & ->). exists (k + j). lia.
    + intros u q E. destruct (Nat.eq_dec u t) as [->|N].
      * destruct HM as [HM _]. congruence.
      * destruct HM as [_ HM]. rewrite (HM u N) in E. exact (C u q E).
    + intros u q r' E. destruct (Nat.eq_dec u t) as [->|N]; [exact Q2|].
      destruct HM as [_ HM]. rewrite (HM u N) in E. exact (D u q r' E).
  - assert (uses counts n h) as U1 by (intros u q I; apply (U u q), in_or_app; left; exact I).
    destruct (IH U1) as ((k & K) & C & D). pose proof (D _ _ _ H1) as Q2.
    split; [exists k|split].
    + rewrite (pending_moves _ _ _ _ _ HM Q2), total_app, H1. cbn [pending added]. lia.
    + intros u q E. destruct (Nat.eq_dec u t) as [->|N].
      * destruct HM as [HM _]. congruence.
      * destruct HM as [_ HM]. rewrite (HM u N) in E. exact (C u q E).
    + intros u q r' E. destruct (Nat.eq_dec u t) as [->|N]; [exact Q2|].
      destruct HM as [_ HM]. rewrite (HM u N) in E. exact (D u q r' E).
Qed.

(** ** Mutual exclusion *)
Lemma seat_app h e t : seat_of (h ++ [e]) t = if Nat.eqb (who e) t then sit (seat_of h t) e else seat_of h t.
Proof.
  unfold seat_of. rewrite filter_app, fold_left_app. cbn [filter]. destruct (Nat.eqb (who e) t); reflexivity.
Qed.
Definition owner (h : list event) (ph : nat -> phase) (t : nat) : Prop :=
  match ph t with
  | Out => seat_of h t = Inside
  | Called o => o = Unlock
  | Done o r => o = Lock \/ (o = TryLock /\ r = 1)
  end.
Definition seat_ok (h : list event) (ph : nat -> phase) (t : nat) : Prop :=
  match ph t with
  | Out => seat_of h t = Inside \/ seat_of h t = Away
  | Called o => seat_of h t = Asking o /\ (o = Lock \/ o = TryLock \/ o = Unlock)
  | Done o r => seat_of h t = Asking o /\ (o = Lock \/ (o = TryLock /\ (r = 0 \/ r = 1)) \/ o = Unlock)
  end.
Lemma disciplined_app h e : disciplined (h ++ [e]) -> disciplined h.
Proof. intros D b t o l E. apply (D b t o (l ++ [e])). rewrite E, <- app_assoc. reflexivity. Qed.
Lemma explains_excl weak w h ph m : explains weak w 0 h ph m -> disciplined h ->
  (m = 0 \/ m = 1) /\ (forall t, seat_ok h ph t) /\ (forall t, owner h ph t -> m = 1) /\
  (forall t u, owner h ph t -> owner h ph u -> t = u).
Proof.
  intros EX. induction EX as [ph H|h ph m t o ph' EX IH H1 [HM HO]|h ph m t o r m' ph' EX IH H1 HA [HM HO]|h ph m t o r ph' EX IH H1 [HM HO]]; intros DI.
  - split; [left; reflexivity|]. split; [intros t; unfold seat_ok; rewrite H; right; reflexivity|].
    split; [intros t|intros t u]; unfold owner; rewrite !H; discriminate.
  - destruct (IH (disciplined_app _ _ DI)) as (M & S & O & U).
    specialize (DI h t o []). specialize (DI eq_refl). unfold inside in DI.
    assert (forall u, u <> t -> owner (h ++ [Call t o]) ph' u <-> owner h ph u) as OO.
    { intros u N. unfold owner. rewrite (HO u N), seat_app. cbn [who]. rewrite (proj2 (Nat.eqb_neq t u)) by congruence. reflexivity. }
    assert (owner (h ++ [Call t o]) ph' t -> owner h ph t) as OT.
    { unfold owner. rewrite HM, H1. intros ->. specialize (S t). unfold seat_ok in S. rewrite H1 in S.
      destruct S as [S|S]; [exact S|]. rewrite S in DI. destruct DI; discriminate. }
    assert (forall u, owner (h ++ [Call t o]) ph' u -> owner h ph u) as OB.
    { intros u. destruct (Nat.eq_dec u t) as [->|N]; [exact OT|apply OO, N]. }
    split; [exact M|]. split; [|split].
    + intros u. unfold seat_ok. destruct (Nat.eq_dec u t) as [->|N].
      * rewrite HM, seat_app. cbn [who]. rewrite Nat.eqb_refl. specialize (S t). unfold seat_ok in S. rewrite H1 in S.
        destruct S as [S|S]; rewrite S in *; cbn in *; [subst o|]; tauto.
      * rewrite (HO u N), seat_app. cbn [who]. rewrite (proj2 (Nat.eqb_neq t u)) by congruence. apply S.
    + intros u X. exact (O u (OB u X)).
    + intros u v X Y. exact (U u v (OB u X) (OB v Y)).
  - destruct (IH DI) as (M & S & O & U). pose proof (S t) as St. unfold seat_ok in St. rewrite H1 in St. destruct St as [S1 S2].
    assert (forall u, u <> t -> owner h ph' u <-> owner h ph u) as OO by (intros u N; unfold owner; rewrite (HO u N); reflexivity).
    assert (forall u, u <> t -> seat_ok h ph' u) as SO by (intros u N; unfold seat_ok; rewrite (HO u N); apply S).
    assert (forall u, u = t \/ u <> t) as DEC by (intros u; destruct (Nat.eq_dec u t); auto).
    destruct S2 as [-> | [-> | ->]]; cbn [apply] in HA.
    + destruct HA as (-> & -> & ->). assert (forall u, ~ owner h ph u) as NO by (intros u X; specialize (O u X); lia).
      split; [auto|]. split; [|split].
      * intros u. destruct (DEC u) as [->|N]; [|auto]. unfold seat_ok. rewrite HM. auto 8.
      * auto.
      * intros u v X Y. destruct (DEC u) as [->|N], (DEC v) as [->|N']; auto; exfalso;
          try (apply (NO u), OO; assumption); try (apply (NO v), OO; assumption).
    + destruct HA as [(-> & -> & ->)|(_ & -> & ->)].
      * assert (forall u, ~ owner h ph u) as NO by (intros u X; specialize (O u X); lia).
        split; [auto|]. split; [|split].
        -- intros u. destruct (DEC u) as [->|N]; [|auto]. unfold seat_ok. rewrite HM. auto 8.
        -- auto.
        -- intros u v X Y. destruct (DEC u) as [->|N], (DEC v) as [->|N']; auto; exfalso;
             try (apply (NO u), OO; assumption); try (apply (NO v), OO; assumption).
      * assert (forall u, owner h ph' u -> owner h ph u) as OB.
        { intros u X. destruct (DEC u) as [->|N]; [|apply OO; assumption]. unfold owner in X. rewrite HM in X. destruct X as [X|[_ X]]; discriminate. }
        split; [exact M|]. split; [|split].
        -- intros u. destruct (DEC u) as [->|N]; [|auto]. unfold seat_ok. rewrite HM. auto 8.
        -- intros u X. exact (O u (OB u X)).
        -- intros u v X Y. exact (U u v (OB u X) (OB v Y)).
    + destruct HA as [-> ->]. assert (owner h ph t) as OT by (unfold owner; rewrite H1; reflexivity).
      assert (forall u, ~ owner h ph' u) as NO.
      { intros u X. destruct (DEC u) as [->|N].
        - unfold owner in X. rewrite HM in X. destruct X as [X|[X _]]; discriminate.
        - apply N. apply (U u t); [apply OO; assumption|exact OT]. }
      split; [auto|]. split; [|split].
      * intros u. destruct (DEC u) as [->|N]; [|auto]. unfold seat_ok. rewrite HM. auto 8.
      * intros u X. destruct (NO u X).
      * intros u v X. destruct (NO u X).
  - destruct (IH (disciplined_app _ _ DI)) as (M & S & O & U). pose proof (S t) as St. unfold seat_ok in St. rewrite H1 in St. destruct St as [S1 S2].
    assert (seat_of (h ++ [Ret t r]) t = sit (seat_of h t) (Ret t r)) as ST by (rewrite seat_app; cbn [who]; rewrite Nat.eqb_refl; reflexivity).
    rewrite S1 in ST.
    assert (forall u, u <> t -> owner (h ++ [Ret t r]) ph' u <-> owner h ph u) as OO.
    { intros u N. unfold owner. rewrite (HO u N), seat_app. cbn [who]. rewrite (proj2 (Nat.eqb_neq t u)) by congruence. reflexivity. }
    assert (owner (h ++ [Ret t r]) ph' t -> owner h ph t) as OT.
    { unfold owner. rewrite HM, H1, ST. destruct S2 as [-> |[[-> [-> | ->]]| ->]]; cbn; auto; discriminate. }
    assert (forall u, owner (h ++ [Ret t r]) ph' u -> owner h ph u) as OB.
    { intros u. destruct (Nat.eq_dec u t) as [->|N]; [exact OT|apply OO, N]. }
    split; [exact M|]. split; [|split].
    + intros u. unfold seat_ok. destruct (Nat.eq_dec u t) as [->|N].
      * rewrite HM, ST. destruct S2 as [-> |[[-> [-> | ->]]| ->]]; cbn; auto.
      * rewrite (HO u N), seat_app. cbn [who]. rewrite (proj2 (Nat.eqb_neq t u)) by congruence. apply S.
    + intros u X. exact (O u (OB u X)).
    + intros u v X Y. exact (U u v (OB u X) (OB v Y)).
Qed.
Lemma explains_inside weak w h ph m : explains weak w 0 h ph m -> disciplined h ->
  forall t u, inside h t = true -> inside h u = true -> t = u.
Proof.
  intros EX D t u Ht Hu. destruct (explains_excl _ _ _ _ _ EX D) as (_ & S & _ & U).
  assert (forall v, inside h v = true -> owner h ph v) as OW.
  { intros v I. specialize (S v). unfold seat_ok, owner, inside in *. destruct (ph v).
    - destruct S as [S|S]; [exact S|]. rewrite S in I. discriminate.
    - destruct S as [S _]. rewrite S in I. discriminate.
    - destruct S as [S _]. rewrite S in I. discriminate. }
  auto.
Qed.

(** ** Running alone *)
Fixpoint solo (a : arch) (w ptr : Z) (o : op) (k : nat) (c : cpu) (m : Z) : bool :=
  match k with
  | O => false
  | S k =>
      match nth_error (code a o) (pc c) with
      | None => false
      | Some i => match exec w ptr i true c m with Next c m _ => solo a w ptr o k c m | Returned => true | Fault => false end
      end
  end.
Lemma solo_S a w ptr o k c m : solo a w ptr o (S k) c m =
  match nth_error (code a o) (pc c) with
  | None => false
  | Some i => match exec w ptr i true c m with Next c m _ => solo a w ptr o k c m | Returned => true | Fault => false end
  end.
Proof. reflexivity. Qed.
Ltac simp := cbn [code nth_error pc exec get set rs zf excl r0 r1 r2 r3 r4 r5 negb andb].
Ltac one := rewrite solo_S; simp; rewrite ?Z.eqb_refl; simp.
Ltac alone := repeat (first [exact (eq_refl true) | progress simp | rewrite Z.eqb_refl | one | match goal with |- context [if ?b then _ else _] => destruct b eqn:?; cbn [negb andb] end]); bools; try congruence; try lia.
Lemma solo_ends a w ptr o c m ph : pre a w ptr o c m ph -> (o = Lock -> m = 0) -> solo a w ptr o 20 c m = true.
Proof.
  intros P L. destruct c as [p [x0 x1 x2 x3 x4 x5] z e].
  destruct a; unfold pre, x86_pre, arm_pre in P; cbn [pc rs zf excl r0 r1 r2 r3 r4 r5] in P.
  - destruct o as [|v|[] v|ex d|v| | |]; do 12 (try (destruct p as [|p]; try contradiction)); try contradiction;
    try (specialize (L eq_refl); subst m); split_ifs; dest_ands; subst; bools; subst; alone.
  - destruct o as [|v|k v|ex d|v| | |]; do 12 (try (destruct p as [|p]; try contradiction)); try contradiction;
    try (specialize (L eq_refl); subst m); split_ifs; dest_ands; subst; bools; subst; alone.
Qed.
