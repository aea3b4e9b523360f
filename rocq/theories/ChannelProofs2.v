(** The ring buffer holds the queue of the sequential channel. *)
From Verif Require Import Base ChannelSpec ChannelModel ChannelProofs.
Ltac Zify.zify_post_hook ::= Z.div_mod_to_equations.

Definition len (q : list Z) : Z := Z.of_nat (length q).
Definition ring (C h : Z) (b : Z -> Z) (q : list Z) : Prop :=
  forall i, 0 <= i < len q -> b ((h + i) mod C) = nth (Z.to_nat i) q 0.

(** the buffer variables while the thread inside the lock is at p; q: the queue before its effect *)
Definition mid (C : Z) (c : chan) (p : option pc) (q : list Z) : Prop :=
  exists h, 0 <= h < C /\ len q <= C /\ ring C h (buffer c) q /\ count c = len q /\
  let tl := (h + len q) mod C in
  match p with
  | Some (PTail _ v) => head c = h /\ tail c = tl /\ len q < C /\ closed c = false /\ buffer c tl = v
  | Some (PCount _ v) => head c = h /\ tail c = (tl + 1) mod C /\ len q < C /\ closed c = false /\ buffer c tl = v
  | Some (PStore _ _) => head c = h /\ tail c = tl /\ len q < C /\ closed c = false
  | Some (PClosed _) => head c = h /\ tail c = tl /\ (len q < C \/ closed c = true)
  | Some GEnded => head c = h /\ tail c = tl /\ (0 < len q \/ closed c = true)
  | Some (GLoad _) => head c = h /\ tail c = tl /\ 0 < len q
  | Some (GHead _ v) => head c = h /\ tail c = tl /\ exists q', q = v :: q'
  | Some (GCount _ v) => head c = (h + 1) mod C /\ tail c = tl /\ exists q', q = v :: q'
  | _ => head c = h /\ tail c = tl
  end.
Definition inside (s : state) : option pc :=
  match owner (ch s) with Some t => nth_error (pcs s) t | None => None end.
Definition data_ok (C : Z) (s : state) : Prop :=
  crashed s = false /\ capacity (ch s) = C /\ cells (ch s) = C /\
  exists q, apply_all C ([], false) (effects (trace s)) = Some (q, closed (ch s)) /\ mid C (ch s) (inside s) q.

Lemma apply_all_app C s l1 l2 : apply_all C s (l1 ++ l2) =
  match apply_all C s l1 with Some s => apply_all C s l2 | None => None end.
Proof.
  revert s; induction l1 as [|[o r] l1 IH]; intros s; cbn; [reflexivity|]. destruct (apply C s o r); [apply IH|reflexivity].
Qed.
Lemma effects_snoc l e : effects (l ++ [e]) = effects l ++ effects [e].
Proof. unfold effects. apply flat_map_app. Qed.

Lemma len_snoc q v : len (q ++ [v]) = len q + 1.
Proof. unfold len. rewrite app_length. cbn. lia. Qed.
Lemma len_cons q v : len (v :: q) = len q + 1.
Proof. unfold len. cbn [length]. lia. Qed.
Lemma len_nonneg q : 0 <= len q. Proof. unfold len. lia. Qed.

Lemma mod_inj C h i j : 0 < C -> 0 <= i < C -> 0 <= j < C -> (h + i) mod C = (h + j) mod C -> i = j.
Proof.
  intros HC Hi Hj E.
  assert ((h + i - (h + j)) mod C = 0) as K by (rewrite Zminus_mod, E, Z.sub_diag; apply Z.mod_0_l; lia).
  replace (h + i - (h + j)) with (i - j) in K by ring.
  apply Z.mod_divide in K; [|lia]. destruct K as [k K]. assert (k = 0) by nia. subst k. lia.
Qed.
Lemma ring_store C h c q v : 0 < C -> len q < C -> ring C h (buffer c) q ->
  ring C h (buffer (store c ((h + len q) mod C) v)) q.
Proof.
  intros HC HL R i Hi. cbn. destruct (Z.eqb_spec ((h + i) mod C) ((h + len q) mod C)) as [E|_]; [|apply R, Hi].
  exfalso. pose proof (len_nonneg q). apply mod_inj in E; lia.
Qed.
Lemma ring_snoc C h b q v : ring C h b q -> b ((h + len q) mod C) = v -> ring C h b (q ++ [v]).
Proof.
  intros R E i Hi. rewrite len_snoc in Hi. unfold len in *. destruct (Z.eq_dec i (Z.of_nat (length q))) as [->|N].
  - rewrite E, Nat2Z.id, app_nth2, Nat.sub_diag; [reflexivity|lia].
  - rewrite app_nth1 by lia. apply R. unfold len. lia.
Qed.
Lemma ring_tail C h b q v : 0 < C -> ring C h b (v :: q) -> ring C ((h + 1) mod C) b q.
Proof.
  intros HC R i Hi. rewrite Z.add_mod_idemp_l by lia. replace (h + 1 + i) with (h + (i + 1)) by ring.
  rewrite R by (rewrite len_cons; lia). replace (Z.to_nat (i + 1)) with (S (Z.to_nat i)) by lia. reflexivity.
Qed.

(** the state of the buffer does not depend on which of the "quiet" statements is next *)
Definition quiet (p : option pc) : bool :=
  match p with
  | Some (PTail _ _ | PCount _ _ | PStore _ _ | PClosed _ | GEnded | GLoad _ | GHead _ _ | GCount _ _) => false
  | _ => true
  end.
Lemma mid_quiet C c p p' q : quiet p = true -> quiet p' = true -> mid C c p q -> mid C c p' q.
Proof.
  intros K K' (h & A & B & D & E & F). exists h. do 4 (split; [assumption|]). cbn in F |- *.
  destruct p as [[]|]; try discriminate; destruct p' as [[]|]; try discriminate; exact F.
Qed.
Lemma mid_same C c c' p q : capacity c' = capacity c -> buffer c' = buffer c -> count c' = count c ->
  head c' = head c -> tail c' = tail c -> closed c' = closed c -> mid C c p q -> mid C c' p q.
Proof. intros _ E1 E2 E3 E4 E5 (h & F). exists h. cbn in *. rewrite E1, E2, E3, E4, E5. exact F. Qed.

(** a step of a thread outside the lock that leaves the channel alone *)
Lemma inside_other s t p p' : lock_ok s -> nth_error (pcs s) t = Some p -> holds p = false ->
  inside (goto s t p') = inside s.
Proof.
  intros L E H. unfold inside. cbn. destruct (owner (ch s)) as [u|] eqn:O; [|reflexivity].
  apply nth_set_other. intros ->. apply L in O. destruct O as (x & Ex & Hx). congruence.
Qed.
Lemma inside_woken s l p : lock_ok s -> woken (pcs s) l -> inside s = Some p -> inside (with_pcs s l) = Some p.
Proof.
  unfold inside. intros L W. cbn. destruct (owner (ch s)) as [u|] eqn:O; [|discriminate]. intros E.
  apply L in O. destruct O as (x & Ex & Hx). rewrite Ex in E. injection E as <-.
  eapply woken_keeps; eauto; destruct x; try discriminate; reflexivity.
Qed.
Lemma inside_here s t p : lock_ok s -> nth_error (pcs s) t = Some p -> holds p = true -> inside s = Some p.
Proof. intros L E H. unfold inside. rewrite (lock_here _ _ _ L E H). exact E. Qed.
Lemma inside_free s t p : lock_ok s -> owner (ch s) = None -> nth_error (pcs s) t = Some p -> inside s = None.
Proof. intros L O E. unfold inside. rewrite O. reflexivity. Qed.
Lemma inside_goto s t p p' : owner (ch s) = Some t -> nth_error (pcs s) t = Some p -> inside (goto s t p') = Some p'.
Proof. intros O E. unfold inside. cbn. rewrite O. eapply nth_set_same, E. Qed.

(** ** One step *)
Lemma rem_mod a C : 0 <= a -> 0 < C -> Z.rem a C = a mod C.
Proof. intros. apply Z.rem_mod_nonneg; lia. Qed.

Ltac inv H := inversion H; subst; clear H.
Section Step.
  Context (C : Z) (HC : 0 < C).

  (** an effect-free step of the thread holding the lock *)
  Lemma data_move s t p c' p' :
    lock_ok s -> data_ok C s -> nth_error (pcs s) t = Some p -> holds p = true ->
    owner c' = Some t \/ owner c' = None /\ quiet (Some p') = true ->
    capacity c' = C -> cells c' = C -> closed c' = closed (ch s) ->
    (forall q, mid C (ch s) (Some p) q -> mid C c' (Some p') q) ->
    data_ok C (goto (with_ch s c') t p').
  Proof.
    intros L (D1 & D2 & D3 & q & D4 & D5) E H O C1 C2 C3 M. repeat split; try assumption.
    exists q. cbn. rewrite C3. split; [exact D4|]. rewrite (inside_here _ _ _ L E H) in D5. specialize (M q D5).
    destruct O as [O|[O Q]].
    - unfold inside. cbn. rewrite O, (nth_set_same _ _ _ _ E). exact M.
    - unfold inside. cbn. rewrite O. revert M. apply mid_quiet; [exact Q|reflexivity].
  Qed.
  (** the step that has the effect *)
  Lemma data_effect s t p c' p' o r :
    lock_ok s -> data_ok C s -> nth_error (pcs s) t = Some p -> holds p = true ->
    owner c' = Some t -> capacity c' = C -> cells c' = C ->
    (forall q, mid C (ch s) (Some p) q -> exists q', apply C (q, closed (ch s)) o r = Some (q', closed c') /\ mid C c' (Some p') q') ->
    data_ok C (goto (note (with_ch s c') (EEffect t o r)) t p').
  Proof.
    intros L (D1 & D2 & D3 & q & D4 & D5) E H O C1 C2 M. repeat split; try assumption.
    rewrite (inside_here _ _ _ L E H) in D5. destruct (M q D5) as (q' & A & M').
    exists q'. cbn [trace note with_ch goto ch]. rewrite effects_snoc, apply_all_app, D4. cbn [effects flat_map app apply_all]. rewrite A. split; [reflexivity|].
    unfold inside. cbn. rewrite O, (nth_set_same _ _ _ _ E). exact M'.
  Qed.
End Step.

Lemma quiet_free s p t C q : nth_error (pcs s) t = Some p -> holds p = false -> mid C (ch s) (Some p) q -> mid C (ch s) None q.
Proof. intros E H. destruct p; try discriminate; apply mid_quiet; reflexivity. Qed.
Lemma put_closed C q bl v : apply C (q, true) (put_op bl v) (put_fail bl) = Some (q, true).
Proof. destruct bl; reflexivity. Qed.
Lemma put_ok C q bl v : len q < C -> apply C (q, false) (put_op bl v) (put_done bl) = Some (q ++ [v], false).
Proof.
  intros H. unfold len in H. destruct bl; cbn -[Z.leb]; rewrite (proj2 (Z.leb_gt C (Z.of_nat (length q)))) by lia; reflexivity.
Qed.
Lemma get_ok C q cl bl v : apply C (v :: q, cl) (get_op bl) (get_done bl v) = Some (q, cl).
Proof. destruct bl; cbn; rewrite Z.eqb_refl; reflexivity. Qed.

Lemma step_data C s l s' : 0 < C -> lock_ok s -> data_ok C s -> step s l = Some s' -> data_ok C s'.
Proof.
  intros HC L D E.
  unfold step in E. destruct (crashed s) eqn:Ecr; [discriminate|]. destruct l as [t o|t w|t].
  - (* call *)
    destruct (nth_error (pcs s) t) as [p|] eqn:Ep; [|discriminate]. destruct p; try discriminate. injection E as <-.
    destruct D as (D1 & D2 & D3 & q & D4 & D5). do 3 (split; [assumption|]). exists q. cbn [trace note goto ch].
    rewrite effects_snoc, app_nil_r. split; [exact D4|].
    change (inside (goto (note s (ECall t o)) t (entry o))) with (inside (goto s t (entry o))).
    rewrite (inside_other _ _ _ _ L Ep eq_refl). exact D5.
  - (* run *)
    unfold run in E. destruct (nth_error (pcs s) t) as [p|] eqn:Ep; [|discriminate].
    pose proof D as (D1 & D2 & D3 & q & D4 & D5).
    assert (forall p', holds p = false -> data_ok C (goto s t p')) as STAY.
    { intros p' H. do 3 (split; [assumption|]). exists q. split; [exact D4|]. rewrite (inside_other _ _ _ _ L Ep H). exact D5. }
    assert (forall p', owner (ch s) = None -> quiet (Some p') = true ->
      data_ok C (goto (with_ch s (set_owner (ch s) (Some t))) t p')) as TAKE.
    { intros p' O Q. do 3 (split; [assumption|]). exists q. split; [exact D4|].
      rewrite (inside_free _ _ _ L O Ep) in D5. unfold inside. cbn. rewrite (nth_set_same _ _ _ _ Ep).
      apply (mid_same C (ch s)); try reflexivity. revert D5. apply mid_quiet; [reflexivity|exact Q]. }
    assert (holds p = true -> owner (ch s) = Some t) as OWN by (intros H; exact (lock_here _ _ _ L Ep H)).
    destruct p as [|bl v|bl v|bl v|v|v|v|bl v|bl v|bl v|bl v|bl|bl| | | |bl|bl v|bl v|bl v| | | | |o r|o r]; try discriminate.
    + (* PEnter *)
      destruct (closed (ch s)) eqn:Ec; injection E as <-; [|apply STAY; reflexivity].
      do 3 (split; [assumption|]). exists q. cbn [trace note goto ch]. rewrite effects_snoc, apply_all_app, D4.
      cbn [effects flat_map app apply_all]. rewrite put_closed, Ec. split; [reflexivity|].
      change (mid C (ch s) (inside (goto s t (Ret (put_op bl v) (put_fail bl)))) q).
      rewrite (inside_other _ _ _ _ L Ep eq_refl). exact D5.
    + unfold lock in E. destruct (owner (ch s)) eqn:O; [discriminate|]. injection E as <-. apply TAKE; reflexivity.
    + (* PTest *)
      assert (forall q, mid C (ch s) (Some (PTest bl v)) q -> count (ch s) = len q) as CNT by (intros q0 (h & _ & _ & _ & K & _); exact K).
      destruct bl.
      * destruct ((count (ch s) =? capacity (ch s)) && negb (closed (ch s))) eqn:Et; injection E as <-.
        -- eapply data_move; eauto.
        -- change (goto s t (PClosed v)) with (goto (with_ch s (ch s)) t (PClosed v)) || idtac.
           destruct s as [c0 l0 tr0 cr0]. apply (data_move C (St c0 l0 tr0 cr0) t (PTest true v) c0 (PClosed v)); cbn; eauto.
           intros q0 M. pose proof (CNT q0 M) as K. destruct M as (h & A & B & R & G & F). exists h. do 4 (split; [assumption|]).
           cbn in F |- *. destruct F as [F1 F2]. do 2 (split; [assumption|]). cbn in *.
           destruct (closed c0); [right; reflexivity|left]. cbn in Et. rewrite andb_true_r in Et. apply Z.eqb_neq in Et. lia.
      * destruct ((count (ch s) =? capacity (ch s)) || closed (ch s)) eqn:Et; injection E as <-; destruct s as [c0 l0 tr0 cr0]; cbn in *.
        -- apply (data_effect C (St c0 l0 tr0 cr0) t (PTest false v) c0 (Unlock (TrySend v) (Tried false))); cbn; eauto.
           intros q0 M. exists q0. pose proof (CNT q0 M) as K. split; [|revert M; apply mid_quiet; reflexivity].
           unfold len in K. destruct (closed c0); [reflexivity|].
           cbn -[Z.leb]. rewrite orb_false_r in Et. apply Z.eqb_eq in Et.
           rewrite (proj2 (Z.leb_le C (Z.of_nat (length q0)))); [reflexivity|]. lia.
        -- apply (data_move C (St c0 l0 tr0 cr0) t (PTest false v) c0 (PStore false v)); cbn; eauto.
           intros q0 M. pose proof (CNT q0 M) as K. destruct M as (h & A & B & R & G & F). exists h. do 4 (split; [assumption|]).
           cbn in F |- *. destruct F as [F1 F2]. do 2 (split; [assumption|]). apply orb_false_iff in Et. destruct Et as [Et Ec].
           split; [|exact Ec]. apply Z.eqb_neq in Et. lia.
    + unfold lock in E. destruct (owner (ch s)) eqn:O; [discriminate|]. injection E as <-. apply TAKE; reflexivity.
    + (* PClosed *)
      destruct (closed (ch s)) eqn:Ec; injection E as <-; destruct s as [c0 l0 tr0 cr0]; cbn in *.
      * apply (data_effect C (St c0 l0 tr0 cr0) t (PClosed v) c0 (Unlock (Send v) Dropped)); cbn; eauto.
        intros q0 M. exists q0. rewrite Ec. split; [reflexivity|].
        destruct M as (h & A & B & R & G & F). exists h. do 4 (split; [assumption|]). cbn in F |- *. tauto.
      * apply (data_move C (St c0 l0 tr0 cr0) t (PClosed v) c0 (PStore true v)); cbn; eauto.
        intros q0 M. destruct M as (h & A & B & R & G & F). exists h. do 4 (split; [assumption|]). cbn in F |- *.
        destruct F as (F1 & F2 & [F3|F3]); [tauto|congruence].
    + (* PStore *)
      assert (in_block (ch s) (tail (ch s)) = true) as IB.
      { rewrite (inside_here _ _ _ L Ep eq_refl) in D5. destruct D5 as (h & A & B & R & G & F). cbn in F.
        unfold in_block. rewrite D3. destruct F as (_ & -> & _). lia. }
      rewrite IB in E. injection E as <-. eapply data_move; [exact L|exact D|exact Ep|reflexivity|left; exact (OWN eq_refl)|exact D2|exact D3|reflexivity|].
      intros q0 (h & A & B & R & G & F). exists h. cbn zeta in F |- *. destruct F as (F1 & F2 & F3 & F4).
      split; [exact A|]. split; [exact B|]. rewrite F2. split; [apply ring_store; assumption|]. split; [exact G|].
      cbn. do 4 (split; [assumption|]). rewrite Z.eqb_refl. reflexivity.
    + (* PTail *)
      injection E as <-. eapply data_move; [exact L|exact D|exact Ep|reflexivity|left; exact (OWN eq_refl)|exact D2|exact D3|reflexivity|].
      intros q0 (h & A & B & R & G & F). exists h. do 4 (split; [assumption|]). cbn in F |- *.
      destruct F as (F1 & F2 & F3 & F4 & F5). split; [exact F1|]. rewrite F2, D2. split; [|tauto].
      apply rem_mod; lia.
    + (* PCount *)
      injection E as <-. eapply data_effect; [exact L|exact D|exact Ep|reflexivity|exact (OWN eq_refl)|exact D2|exact D3|].
      intros q0 (h & A & B & R & G & F). cbn in F. destruct F as (F1 & F2 & F3 & F4 & F5). exists (q0 ++ [v]).
      cbn [closed set_count]. rewrite F4. split; [apply put_ok; exact F3|]. exists h. rewrite len_snoc.
      split; [exact A|]. split; [lia|]. split; [apply ring_snoc; [exact R|exact F5]|]. split; [cbn; lia|].
      cbn. split; [exact F1|]. rewrite F2, Z.add_mod_idemp_l by lia. f_equal. ring.
    + (* PSignal *)
      destruct (signal waits_empty w (pcs s)) as [l'|] eqn:Es; [|discriminate]. injection E as <-.
      assert (woken (pcs s) l') as W by (eapply signal_woken; [|exact Es]; exact empty_sleeps).
      do 3 (split; [assumption|]). exists q. split; [exact D4|]. rewrite (inside_here _ _ _ L Ep eq_refl) in D5.
      assert (nth_error l' t = Some (PSignal bl v)) as E' by (eapply woken_keeps; eauto).
      rewrite (inside_goto (with_pcs s l') t (PSignal bl v)); [|cbn; apply OWN; reflexivity|exact E'].
      revert D5. apply mid_quiet; reflexivity.
    + unfold lock in E. destruct (owner (ch s)) eqn:O; [discriminate|]. injection E as <-. apply TAKE; reflexivity.
    + (* GTest *)
      assert (forall q, mid C (ch s) (Some (GTest bl)) q -> count (ch s) = len q) as CNT by (intros q0 (h & _ & _ & _ & K & _); exact K).
      destruct bl.
      * destruct ((count (ch s) =? 0) && negb (closed (ch s))) eqn:Et; injection E as <-.
        -- eapply data_move; eauto.
        -- destruct s as [c0 l0 tr0 cr0]. apply (data_move C (St c0 l0 tr0 cr0) t (GTest true) c0 GEnded); cbn; eauto.
           intros q0 M. pose proof (CNT q0 M) as K. destruct M as (h & A & B & R & G & F). exists h. do 4 (split; [assumption|]).
           cbn in F |- *. destruct F as [F1 F2]. do 2 (split; [assumption|]). cbn in *. pose proof (len_nonneg q0).
           destruct (closed c0); [right; reflexivity|left]. cbn in Et. rewrite andb_true_r in Et. apply Z.eqb_neq in Et. lia.
      * destruct (count (ch s) =? 0) eqn:Et; injection E as <-; destruct s as [c0 l0 tr0 cr0]; cbn in *.
        -- apply (data_effect C (St c0 l0 tr0 cr0) t (GTest false) c0 (Unlock TryReceive TryNone)); cbn; eauto.
           intros q0 M. exists q0. pose proof (CNT q0 M) as K. split; [|revert M; apply mid_quiet; reflexivity].
           destruct q0; [reflexivity|]. rewrite len_cons in K. pose proof (len_nonneg q0). lia.
        -- apply (data_move C (St c0 l0 tr0 cr0) t (GTest false) c0 (GLoad false)); cbn; eauto.
           intros q0 M. pose proof (CNT q0 M) as K. destruct M as (h & A & B & R & G & F). exists h. do 4 (split; [assumption|]).
           cbn in F |- *. pose proof (len_nonneg q0). split; [tauto|]. split; [tauto|]. lia.
    + unfold lock in E. destruct (owner (ch s)) eqn:O; [discriminate|]. injection E as <-. apply TAKE; reflexivity.
    + (* GEnded *)
      destruct ((count (ch s) =? 0) && closed (ch s)) eqn:Ec; injection E as <-; destruct s as [c0 l0 tr0 cr0]; cbn in *.
      * apply (data_effect C (St c0 l0 tr0 cr0) t GEnded c0 (Unlock Receive Ended)); cbn; eauto.
        intros q0 M. exists q0. apply andb_true_iff in Ec. destruct Ec as [Ec1 Ec2]. rewrite Ec2.
        destruct M as (h & A & B & R & G & F). split.
        -- destruct q0; [reflexivity|]. rewrite len_cons in G. pose proof (len_nonneg q0). lia.
        -- exists h. do 4 (split; [assumption|]). cbn in F |- *. tauto.
      * apply (data_move C (St c0 l0 tr0 cr0) t GEnded c0 (GLoad true)); cbn; eauto.
        intros q0 M. destruct M as (h & A & B & R & G & F). exists h. do 4 (split; [assumption|]). cbn in F |- *.
        destruct F as (F1 & F2 & F3). split; [exact F1|]. split; [exact F2|]. pose proof (len_nonneg q0).
        destruct (closed c0); [|destruct F3; [assumption|discriminate]]. rewrite andb_true_r in Ec. apply Z.eqb_neq in Ec. lia.
    + (* GLoad *)
      assert (in_block (ch s) (head (ch s)) = true) as IB.
      { rewrite (inside_here _ _ _ L Ep eq_refl) in D5. destruct D5 as (h & A & B & R & G & F). cbn in F.
        unfold in_block. rewrite D3. destruct F as (-> & _). lia. }
      rewrite IB in E. injection E as <-. destruct s as [c0 l0 tr0 cr0]. cbn in *.
      apply (data_move C (St c0 l0 tr0 cr0) t (GLoad bl) c0 (GHead bl (buffer c0 (head c0)))); cbn; eauto.
      intros q0 M. destruct M as (h & A & B & R & G & F). exists h. do 4 (split; [assumption|]). cbn in F |- *.
      destruct F as (F1 & F2 & F3). do 2 (split; [assumption|]). destruct q0 as [|x q0]; [cbn in F3; lia|].
      exists q0. f_equal. rewrite F1. specialize (R 0 ltac:(lia)). rewrite Z.add_0_r, Z.mod_small in R by lia. cbn in R. congruence.
    + (* GHead *)
      injection E as <-. eapply data_move; [exact L|exact D|exact Ep|reflexivity|left; exact (OWN eq_refl)|exact D2|exact D3|reflexivity|].
      intros q0 (h & A & B & R & G & F). exists h. do 4 (split; [assumption|]). cbn in F |- *.
      destruct F as (F1 & F2 & F3). rewrite F1, D2. split; [apply rem_mod; lia|tauto].
    + (* GCount *)
      injection E as <-. eapply data_effect; [exact L|exact D|exact Ep|reflexivity|exact (OWN eq_refl)|exact D2|exact D3|].
      intros q0 (h & A & B & R & G & F). cbn in F. destruct F as (F1 & F2 & q' & ->). exists q'.
      cbn [closed set_count]. split; [apply get_ok|]. rewrite len_cons in *. exists ((h + 1) mod C).
      split; [apply Z.mod_pos_bound; exact HC|]. split; [lia|]. split; [eapply ring_tail; eauto|]. split; [cbn; lia|].
      cbn. split; [exact F1|]. rewrite F2, Z.add_mod_idemp_l by lia. f_equal. ring.
    + (* GSignal *)
      destruct (signal waits_full w (pcs s)) as [l'|] eqn:Es; [|discriminate]. injection E as <-.
      assert (woken (pcs s) l') as W by (eapply signal_woken; [|exact Es]; exact full_sleeps).
      do 3 (split; [assumption|]). exists q. split; [exact D4|]. rewrite (inside_here _ _ _ L Ep eq_refl) in D5.
      assert (nth_error l' t = Some (GSignal bl v)) as E' by (eapply woken_keeps; eauto).
      rewrite (inside_goto (with_pcs s l') t (GSignal bl v)); [|cbn; apply OWN; reflexivity|exact E'].
      revert D5. apply mid_quiet; reflexivity.
    + unfold lock in E. destruct (owner (ch s)) eqn:O; [discriminate|]. injection E as <-. apply TAKE; reflexivity.
    + (* CSet *)
      injection E as <-. eapply data_effect; [exact L|exact D|exact Ep|reflexivity|exact (OWN eq_refl)|exact D2|exact D3|].
      intros q0 M. exists q0. split; [reflexivity|]. destruct M as (h & F). exists h. cbn in *. exact F.
    + (* CCast1 *)
      injection E as <-. assert (woken (pcs s) (broadcast waits_full (pcs s))) as W by (apply broadcast_woken; exact full_sleeps).
      do 3 (split; [assumption|]). exists q. split; [exact D4|]. rewrite (inside_here _ _ _ L Ep eq_refl) in D5.
      rewrite (inside_goto (with_pcs s _) t CCast1); [|cbn; apply OWN; reflexivity|cbn; eapply woken_keeps; eauto].
      revert D5. apply mid_quiet; reflexivity.
    + (* CCast2 *)
      injection E as <-. assert (woken (pcs s) (broadcast waits_empty (pcs s))) as W by (apply broadcast_woken; exact empty_sleeps).
      do 3 (split; [assumption|]). exists q. split; [exact D4|]. rewrite (inside_here _ _ _ L Ep eq_refl) in D5.
      rewrite (inside_goto (with_pcs s _) t CCast2); [|cbn; apply OWN; reflexivity|cbn; eapply woken_keeps; eauto].
      revert D5. apply mid_quiet; reflexivity.
    + (* Unlock *)
      injection E as <-. eapply data_move; eauto.
    + (* Ret *)
      injection E as <-. do 3 (split; [assumption|]). exists q. cbn [trace note goto ch]. rewrite effects_snoc, app_nil_r.
      split; [exact D4|]. change (mid C (ch s) (inside (goto s t Idle)) q). rewrite (inside_other _ _ _ _ L Ep eq_refl). exact D5.
  - (* spurious wake-up *)
    destruct (nth_error (pcs s) t) as [p|] eqn:Ep; [|discriminate].
    destruct (waits_full p || waits_empty p) eqn:Ew; [|discriminate]. injection E as <-.
    destruct D as (D1 & D2 & D3 & q & D4 & D5). do 3 (split; [assumption|]). exists q. split; [exact D4|].
    rewrite (inside_other _ _ _ _ L Ep); [exact D5|]. destruct p; try discriminate; reflexivity.
Qed.

(** ** All states *)
Lemma start_lock cap n : lock_ok (start cap n).
Proof.
  intros t. cbn. unfold open. cbn. split; [discriminate|]. intros (p & E & H).
  assert (In p (List.repeat Idle n)) as K by (eapply nth_error_In, E). apply repeat_spec in K. subst. discriminate.
Qed.
Lemma start_phases cap n : phases_ok (start cap n).
Proof.
  intros t. cbn. unfold phase_at. destruct (nth_error (List.repeat Idle n) t) eqn:E; [|constructor].
  apply nth_error_In in E. apply repeat_spec in E. subst. constructor.
Qed.
Definition real_cap (cap : Z) : Z := Z.max 1 cap.
Lemma start_data cap n : cap < 2 ^ 61 -> data_ok (real_cap cap) (start cap n).
Proof.
  intros H. unfold data_ok, start, open. cbn -[Z.mul Z.div wrap_u].
  assert ((if cap <? 1 then 1 else cap) = real_cap cap) as -> by (unfold real_cap; destruct (cap <? 1) eqn:E; lia).
  assert (1 <= real_cap cap < 2 ^ 61) by (unfold real_cap; lia).
  repeat split.
  - unfold wrap_u. rewrite Z.mod_small by (change (2 ^ 64) with (8 * 2 ^ 61); lia). rewrite Z.mul_comm, Z.div_mul; lia.
  - exists []. split; [reflexivity|]. exists 0. unfold len, ring. cbn. repeat split; try lia; rewrite Z.mod_0_l; lia.
Qed.
Lemma steps_ind (P : state -> Prop) : (forall s l s', P s -> step s l = Some s' -> P s') ->
  forall ls s s', P s -> steps s ls = Some s' -> P s'.
Proof.
  intros H. induction ls as [|l ls IH]; intros s s' K E; cbn in E; [congruence|].
  destruct (step s l) as [s1|] eqn:E1; [|discriminate]. eapply IH; [|exact E]. eapply H; eauto.
Qed.
Lemma reachable_ok cap n s : cap < 2 ^ 61 -> reachable cap n s ->
  lock_ok s /\ phases_ok s /\ data_ok (real_cap cap) s.
Proof.
  intros Hc (ls & E). revert E.
  apply (steps_ind (fun s => lock_ok s /\ phases_ok s /\ data_ok (real_cap cap) s)).
  - intros s0 l s1 (A & B & D) E. split; [eapply step_lock; eauto|]. split; [eapply step_phases; eauto|].
    eapply step_data; eauto. unfold real_cap. lia.
  - split; [apply start_lock|]. split; [apply start_phases|]. apply start_data, Hc.
Qed.
