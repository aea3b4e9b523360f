(** Facts about linear probing, for any key type and hash function. *)
From Verif Require Import Base BaseFacts MapModel MapProofs ProbeModel.

Section Probing.
Context {E K : Type} (key : E -> K) (hash : K -> Z).
Notation tab := (list (option E)).
Definition cap (t : tab) : Z := Z.of_nat (length t).
Definition pow2 (t : tab) : Prop := exists k, 0 <= k /\ cap t = 2 ^ k.
(** Where step [d] of a probe from [h] looks. *)
Definition at_step (t : tab) (h d : Z) : Z := (h + d) mod cap t.

Lemma pow2_pos t : pow2 t -> 0 < cap t.
Proof. intros (k & Hk & E0). rewrite E0. apply Z.pow_pos_nonneg; lia. Qed.
Lemma land_mask t x : pow2 t -> Z.land x (mask_of t) = x mod cap t.
Proof.
  intros (k & Hk & E0). unfold mask_of. fold (cap t). rewrite E0.
  rewrite <- land_mod by lia. f_equal. rewrite Z.ones_equiv. lia.
Qed.
Lemma step_range t h d : pow2 t -> 0 <= at_step t h d < cap t.
Proof. intros P. apply Z.mod_pos_bound, pow2_pos, P. Qed.
Lemma step_next t h d : pow2 t -> Z.land (at_step t h d + 1) (mask_of t) = at_step t h (d + 1).
Proof.
  intros P. rewrite land_mask by exact P. unfold at_step.
  rewrite Z.add_mod_idemp_l by (pose proof (pow2_pos t P); lia). f_equal. lia.
Qed.
Lemma step_onto t h p : pow2 t -> 0 <= p < cap t -> exists d, 0 <= d < cap t /\ at_step t h d = p.
Proof.
  intros P R. pose proof (pow2_pos t P). exists ((p - h) mod cap t).
  split; [apply Z.mod_pos_bound; lia|]. unfold at_step.
  rewrite Z.add_mod_idemp_r by lia. replace (h + (p - h)) with p by lia. apply Z.mod_small, R.
Qed.
Lemma step_inj t h d d' : pow2 t -> 0 <= d < cap t -> 0 <= d' < cap t -> at_step t h d = at_step t h d' -> d = d'.
Proof.
  unfold at_step. intros P R R' E0. pose proof (pow2_pos t P).
  pose proof (Z.div_mod (h + d) (cap t) ltac:(lia)). pose proof (Z.div_mod (h + d') (cap t) ltac:(lia)).
  set (q := (h + d) / cap t) in *. set (q' := (h + d') / cap t) in *.
  assert (Q : cap t * (q - q') = d - d') by lia. assert (q - q' = 0) by nia. nia.
Qed.

Definition halts (found : E -> bool) (t : tab) (p : Z) : Prop :=
  match slot t p with None => True | Some e => found e = true end.

(** The loop stops at the first slot on its way that makes it stop. *)
Lemma probe_first found t h d : pow2 t -> 0 <= d < cap t ->
  halts found t (at_step t h d) ->
  (forall i, 0 <= i < d -> ~ halts found t (at_step t h i)) ->
  probe_from found t h = Some (at_step t h d).
Proof.
  intros P R F B. unfold probe_from. rewrite land_mask by exact P.
  replace (h mod cap t) with (at_step t h 0) by (unfold at_step; f_equal; lia).
  assert (G : forall fuel i, 0 <= i <= d -> d - i < Z.of_nat fuel ->
    probe fuel found t (at_step t h i) = Some (at_step t h d)).
  { induction fuel as [|fuel IH]; intros i Ri Rf; [lia|]. cbn [probe].
    destruct (Z.eq_dec i d) as [->|N].
    - revert F. unfold halts. destruct (slot t (at_step t h d)); intros F; [rewrite F|]; reflexivity.
    - specialize (B i ltac:(lia)). unfold halts in B. destruct (slot t (at_step t h i)) as [e|]; [|tauto].
      destruct (found e); [tauto|]. rewrite step_next by exact P. apply IH; lia. }
  apply G; [lia|]. change (Z.of_nat (length t)) with (cap t). lia.
Qed.
(** If some slot makes it stop, it stops. *)
Lemma probe_stops found t h : pow2 t -> (exists p, 0 <= p < cap t /\ halts found t p) ->
  exists d, 0 <= d < cap t /\ halts found t (at_step t h d) /\
    (forall i, 0 <= i < d -> ~ halts found t (at_step t h i)) /\
    probe_from found t h = Some (at_step t h d).
Proof.
  intros P (p & Rp & Hp). destruct (step_onto t h p P Rp) as (d0 & Rd & Ed).
  assert (dec : forall q, halts found t q \/ ~ halts found t q).
  { intros q. unfold halts. destruct (slot t q) as [e|]; [|tauto]. destruct (found e); [tauto|right; discriminate]. }
  assert (G : forall n, 0 <= n -> (exists i, 0 <= i < n /\ halts found t (at_step t h i)) ->
     exists d, 0 <= d < n /\ halts found t (at_step t h d) /\ (forall i, 0 <= i < d -> ~ halts found t (at_step t h i))).
  { apply (natlike_ind (fun n => (exists i, 0 <= i < n /\ halts found t (at_step t h i)) ->
     exists d, 0 <= d < n /\ halts found t (at_step t h d) /\ (forall i, 0 <= i < d -> ~ halts found t (at_step t h i)))).
    - intros (i & Ri & _). lia.
    - intros n Hn IH (i & Ri & Hi). destruct (Z.eq_dec i n) as [->|N].
      + assert (all : (exists j, 0 <= j < n /\ halts found t (at_step t h j)) \/ (forall j, 0 <= j < n -> ~ halts found t (at_step t h j))).
        { clear -Hn dec. revert n Hn. apply natlike_ind; [right; intros; lia|]. intros n Hn [(j & Rj & Hj)|A].
          - left. exists j. split; [lia|exact Hj].
          - destruct (dec (at_step t h n)) as [Y|Y]; [left; exists n; split; [lia|exact Y]|].
            right. intros j Rj. destruct (Z.eq_dec j n) as [->|]; [exact Y|apply A; lia]. }
        destruct all as [X|A].
        * destruct (IH X) as (d & Rd' & X1 & X2). exists d. split; [lia|]. now split.
        * exists n. split; [lia|]. now split.
      + destruct IH as (d & Rd' & X1 & X2); [exists i; split; [lia|exact Hi]|]. exists d. split; [lia|]. now split. }
  destruct (G (cap t)) as (d & R & X1 & X2); [pose proof (pow2_pos t P); lia|exists d0; split; [exact Rd|now rewrite Ed]|].
  exists d. repeat split; try tauto; try lia. now apply probe_first.
Qed.

(** A table whose entries can all be found again. *)
Record sound (t : tab) : Prop := {
  s_pow : pow2 t;
  s_free : exists p, 0 <= p < cap t /\ slot t p = None;
  s_reach : forall p e, 0 <= p < cap t -> slot t p = Some e ->
     exists d, 0 <= d < cap t /\ p = at_step t (hash (key e)) d /\
       forall i, 0 <= i < d -> slot t (at_step t (hash (key e)) i) <> None;
  s_uniq : forall p q e f, 0 <= p < cap t -> 0 <= q < cap t -> slot t p = Some e -> slot t q = Some f -> key e = key f -> p = q
}.
Definition has (t : tab) (e : E) : Prop := exists p, 0 <= p < cap t /\ slot t p = Some e.

Lemma find_present found t e : sound t -> has t e -> (forall f, has t f -> (found f = true <-> key f = key e)) ->
  exists p, probe_from found t (hash (key e)) = Some p /\ slot t p = Some e.
Proof.
  intros S0 (p & Rp & Hp) F. destruct (s_reach t S0 p e Rp Hp) as (d & Rd & Ep & B).
  exists p. split; [|exact Hp]. rewrite Ep. apply probe_first; [apply S0|exact Rd| |].
  - rewrite <- Ep. unfold halts. rewrite Hp. apply F; [now exists p|reflexivity].
  - intros i Ri X. unfold halts in X. specialize (B i Ri).
    destruct (slot t (at_step t (hash (key e)) i)) as [f|] eqn:Ef; [|now apply B].
    assert (Rf : 0 <= at_step t (hash (key e)) i < cap t) by (apply step_range, S0).
    assert (K0 : key f = key e) by (apply F; [now exists (at_step t (hash (key e)) i)|exact X]).
    pose proof (s_uniq t S0 _ _ _ _ Rf Rp Ef Hp K0) as Y. rewrite Ep in Y.
    apply step_inj in Y; [lia|apply S0|lia|lia].
Qed.
Lemma find_absent found t h : sound t -> (forall f, has t f -> found f = false) ->
  exists d, 0 <= d < cap t /\ probe_from found t h = Some (at_step t h d) /\ slot t (at_step t h d) = None /\
    forall i, 0 <= i < d -> slot t (at_step t h i) <> None.
Proof.
  intros S0 F. destruct (s_free t S0) as (p & Rp & Hp).
  destruct (probe_stops found t h (s_pow t S0)) as (d & Rd & X & B & Ep).
  { exists p. split; [exact Rp|]. unfold halts. now rewrite Hp. }
  exists d. repeat split; try lia; [exact Ep| |].
  - unfold halts in X. destruct (slot t (at_step t h d)) as [f|] eqn:Ef; [|reflexivity].
    rewrite F in X; [discriminate|]. exists (at_step t h d). split; [apply step_range, S0|exact Ef].
  - intros i Ri N. apply (B i Ri). unfold halts. now rewrite N.
Qed.

Lemma slot_put t p e q : 0 <= p < cap t -> 0 <= q -> slot (put t p e) q = if q =? p then Some e else slot t q.
Proof.
  unfold slot, put, cap. intros R Rq. rewrite nth_set_nth by lia.
  destruct (Nat.eqb_spec (Z.to_nat q) (Z.to_nat p)), (Z.eqb_spec q p); try reflexivity; lia.
Qed.
Lemma cap_put t p e : cap (put t p e) = cap t.
Proof. unfold cap, put. now rewrite set_nth_length. Qed.
Definition used (t : tab) : nat := length (filter (fun o => match o with Some _ => true | None => false end) t).
Lemma used_put t p e : 0 <= p < cap t -> slot t p = None -> used (put t p e) = S (used t).
Proof.
  unfold slot, put, cap, used. intros R. assert (L : (Z.to_nat p < length t)%nat) by lia.
  generalize dependent (Z.to_nat p). clear. induction t as [|o t IH]; intros [|n] L H; cbn in *; try lia.
  - subst o. reflexivity.
  - destruct o; cbn; rewrite IH; try reflexivity; try lia; exact H.
Qed.
Lemma used_free t : Z.of_nat (used t) < cap t -> exists p, 0 <= p < cap t /\ slot t p = None.
Proof.
  unfold slot, cap, used. induction t as [|[x|] t IH]; cbn [length filter]; intros H; [lia| |].
  - destruct IH as (p & R & X); [lia|]. exists (p + 1). split; [lia|].
    replace (Z.to_nat (p + 1)) with (S (Z.to_nat p)) by lia. exact X.
  - exists 0. split; [lia|reflexivity].
Qed.

(** Adding an entry with a new key where the loop stops keeps the table sound. *)
Lemma add_entry found t e : sound t -> (forall f, has t f -> key f <> key e) -> (forall f, has t f -> found f = false) ->
  Z.of_nat (used t) + 1 < cap t ->
  exists p, probe_from found t (hash (key e)) = Some p /\ 0 <= p < cap t /\ slot t p = None /\
    sound (put t p e) /\ used (put t p e) = S (used t) /\ cap (put t p e) = cap t /\
    forall f, has (put t p e) f <-> f = e \/ has t f.
Proof.
  intros S0 Nk F U. destruct (find_absent found t (hash (key e)) S0 F) as (d & Rd & Ep & Hp & B).
  set (p := at_step t (hash (key e)) d) in *. assert (Rp : 0 <= p < cap t) by (apply step_range, S0).
  assert (Ps : p = at_step t (hash (key e)) d) by reflexivity. clearbody p. exists p.
  assert (Hc : cap (put t p e) = cap t) by apply cap_put.
  assert (Hu : used (put t p e) = S (used t)) by (now apply used_put).
  assert (Hh : forall f, has (put t p e) f <-> f = e \/ has t f).
  { intros f. split.
    - intros (q & Rq & Hq). rewrite Hc in Rq. rewrite slot_put in Hq by lia. destruct (Z.eqb_spec q p).
      + injection Hq as <-. now left.
      + right. now exists q.
    - intros [->|(q & Rq & Hq)].
      + exists p. rewrite Hc. split; [exact Rp|]. rewrite slot_put by lia. now rewrite Z.eqb_refl.
      + exists q. rewrite Hc. split; [exact Rq|]. rewrite slot_put by lia. destruct (Z.eqb_spec q p) as [->|]; [congruence|exact Hq]. }
  repeat (split; [first [exact Ep|exact Rp|exact Hp|lia]|]). split; [|now split; [|split]].
  assert (As : forall h i, at_step (put t p e) h i = at_step t h i) by (intros; unfold at_step; now rewrite Hc).
  constructor.
  - destruct (s_pow t S0) as (k & Hk & E0). exists k. rewrite Hc. now split.
  - apply used_free. rewrite Hu, Hc. lia.
  - intros q f Rq Hq. rewrite Hc in *. rewrite slot_put in Hq by lia. destruct (Z.eqb_spec q p) as [->|N].
    + injection Hq as <-. exists d. split; [exact Rd|]. rewrite As. split; [exact Ps|]. intros i Ri. rewrite As.
      rewrite slot_put by (try lia; apply step_range, S0). destruct (_ =? p); [discriminate|apply B, Ri].
    + destruct (s_reach t S0 q f Rq Hq) as (d' & R' & E' & B'). exists d'. split; [exact R'|]. rewrite As. split; [exact E'|].
      intros i Ri. rewrite As. rewrite slot_put by (try lia; apply step_range, S0). destruct (_ =? p); [discriminate|apply B', Ri].
  - intros q r f g Rq Rr Hq Hr. rewrite Hc in *. rewrite slot_put in Hq, Hr by lia. intros Kf.
    destruct (Z.eqb_spec q p) as [->|N], (Z.eqb_spec r p) as [->|N']; try reflexivity.
    + injection Hq as <-. exfalso. apply (Nk g); [now exists r|congruence].
    + injection Hr as <-. exfalso. apply (Nk f); [now exists q|congruence].
    + eapply s_uniq; eauto.
Qed.
Lemma slot_empty n p : slot (repeat (@None E) n) p = None.
Proof. unfold slot. apply nth_repeat_d. Qed.
Lemma empty_sound k n : 0 <= k -> Z.of_nat n = 2 ^ k -> sound (repeat None n).
Proof.
  intros Hk Hn. assert (C : cap (repeat (@None E) n) = 2 ^ k) by (unfold cap; rewrite repeat_length; exact Hn).
  constructor.
  - exists k. now split.
  - exists 0. rewrite C. split; [split; [lia|apply Z.pow_pos_nonneg; lia]|apply slot_empty].
  - intros p e _. rewrite slot_empty. discriminate.
  - intros p q e f _ _. rewrite slot_empty. discriminate.
Qed.
Lemma empty_has n e : ~ has (repeat None n) e.
Proof. intros (p & _ & H). rewrite slot_empty in H. discriminate. Qed.
Lemma empty_used n : used (repeat None n) = O.
Proof. unfold used. induction n; [reflexivity|exact IHn]. Qed.
Lemma empty_cap n : cap (repeat None n) = Z.of_nat n.
Proof. unfold cap. now rewrite repeat_length. Qed.
End Probing.
