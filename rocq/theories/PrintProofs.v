From Verif Require Import Base Decimal PrintSpec PrintModel.

Lemma same_iff a b : same_name a b = true <-> a = b.
Proof. unfold same_name. destruct (list_eq_dec Z.eq_dec a b); split; congruence. Qed.
Lemma same_in n l : existsb (same_name n) l = true <-> In n l.
Proof.
  rewrite existsb_exists. split.
  - intros (x & I & E). apply same_iff in E. congruence.
  - intros I. exists n. split; auto. now apply same_iff.
Qed.
Lemma fields_in D n fs : fields D n = Some fs -> In n (map fst D).
Proof.
  induction D as [|[m gs] D IH]; cbn; [discriminate|]. destruct (same_name m n) eqn:E.
  - apply same_iff in E. auto.
  - auto.
Qed.

Section Emission.
Context (cty : ty -> bytes) (D : decls).
Notation emit := (emit cty D).
Notation emit_fields := (emit_fields cty).

(** *** More fuel does not change what is emitted *)
Lemma fields_mono (rec rec' : guard -> cexp -> ty -> bool -> res (list stmt * guard)) e :
  (forall g e t q r, rec g e t q = Ok r -> rec' g e t q = Ok r) ->
  forall fs first g r, emit_fields rec e first fs g = Ok r -> emit_fields rec' e first fs g = Ok r.
Proof.
  intros H. induction fs as [|[f t] fs IH]; intros first g r; cbn; auto.
  destruct (rec g (clip cty (CFld e f)) t true) eqn:E; try discriminate. rewrite (H _ _ _ _ _ E). cbn.
  destruct (emit_fields rec e false fs (snd a)) eqn:E2; try discriminate. now rewrite (IH _ _ _ E2).
Qed.
Lemma emit_mono fuel : forall g e t q r, emit fuel g e t q = Ok r -> emit (S fuel) g e t q = Ok r.
Proof.
  induction fuel as [|fuel IH]; intros g e t q r; [discriminate|].
  change (emit (S (S fuel))) with (fun g e t q => emit (S (S fuel)) g e t q). cbv beta.
  remember (S fuel) as f1. intros H. rewrite Heqf1 in H. cbn [PrintModel.emit] in H |- *.
  destruct t as [| | | | | | |t|k v|n]; auto.
  - destruct (composite t).
    + destruct (emit fuel _ _ t true) eqn:E; try discriminate. apply IH in E. now rewrite E.
    + destruct (emit fuel _ _ t true) eqn:E; try discriminate. apply IH in E. now rewrite E.
  - destruct (emit fuel _ _ k true) eqn:E; try discriminate. apply IH in E. rewrite E. cbn in *.
    destruct (emit fuel _ _ v true) eqn:E2; try discriminate. apply IH in E2. now rewrite E2.
  - destruct (existsb _ _); auto. destruct (enter n g) as [g1| | |]; try discriminate. cbn in *.
    destruct (emit_fields (emit fuel) e true _ g1) eqn:E; try discriminate.
    now rewrite (fields_mono _ _ e IH _ _ _ _ E).
Qed.
Lemma emit_le fuel fuel' g e t q r : (fuel <= fuel')%nat -> emit fuel g e t q = Ok r -> emit fuel' g e t q = Ok r.
Proof. induction 1; auto. intros. apply emit_mono. auto. Qed.

(** *** The guard *)
Context (few : (length D <= 63)%nat).
Definition sane (g : guard) : Prop := debt g = 0%nat /\ NoDup (vis g) /\ incl (vis g) (map fst D).
Definition keeps (g g' : guard) : Prop := (uid g <= uid g')%nat /\ vis g' = vis g /\ debt g' = 0%nat.
Lemma sane_len g : sane g -> (length (vis g) <= 63)%nat.
Proof. intros (_ & N & I). pose proof (NoDup_incl_length N I) as L. rewrite map_length in L. lia. Qed.
Lemma enter_ok n g : sane g -> enter n g = Ok (Guard (uid g) (n :: vis g) 0).
Proof.
  intros S. pose proof (sane_len g S). unfold enter, CYCLE_GUARD_DEPTH. destruct (Nat.ltb_spec (length (vis g)) 64); [|lia].
  destruct S as (-> & _). reflexivity.
Qed.
Lemma keeps_sane g g' : sane g -> keeps g g' -> sane g'.
Proof. intros (A & B & C) (_ & E & F). unfold sane. now rewrite E. Qed.
Lemma fields_keeps rec e : (forall g e t q ss g', sane g -> rec g e t q = Ok (ss, g') -> keeps g g') ->
  forall fs first g ss g', sane g -> emit_fields rec e first fs g = Ok (ss, g') -> keeps g g'.
Proof.
  intros H. induction fs as [|[f t] fs IH]; intros first g ss g' S; cbn.
  - intros [= <- <-]. unfold keeps. destruct S as (S & _). auto.
  - destruct (rec g (clip cty (CFld e f)) t true) as [[s1 g1]| | |] eqn:E; try discriminate. cbn.
    pose proof (H _ _ _ _ _ _ S E) as K. destruct (emit_fields rec e false fs g1) as [[s2 g2]| | |] eqn:E2; try discriminate.
    cbn. intros [= <- <-]. pose proof (IH _ _ _ _ (keeps_sane _ _ S K) E2) as (K1 & K2 & K3). destruct K as (J1 & J2 & J3).
    unfold keeps. repeat split; auto; [lia|congruence].
Qed.
Lemma sane_push n g : sane g -> In n (map fst D) -> existsb (same_name n) (vis g) = false -> sane (Guard (uid g) (n :: vis g) 0).
Proof.
  intros (A & B & C) I E. repeat split; cbn; auto.
  - constructor; auto. intros J. apply same_in in J. congruence.
  - intros x [<-|J]; auto.
Qed.
Lemma sane_next g : sane g -> sane (next g).
Proof. auto. Qed.
Lemma emit_keeps fuel : forall g e t q ss g', sane g -> emit fuel g e t q = Ok (ss, g') -> keeps g g'.
Proof.
  induction fuel as [|fuel IH]; intros g e t q ss g' S; [discriminate|]. cbn [PrintModel.emit].
  assert (R : keeps g g) by (destruct S; unfold keeps; auto).
  destruct t as [| | | | | | |t|k v|n]; try (intros [= <- <-]; exact R).
  - destruct (composite t).
    + destruct (emit fuel _ _ t true) as [[s1 g1]| | |] eqn:E; try discriminate. cbn. intros [= <- <-].
      apply IH in E; auto. destruct E as (E1 & E2 & E3). cbn in *. unfold keeps. repeat split; auto. lia.
    + destruct (emit fuel _ _ t true) as [[s1 g1]| | |] eqn:E; try discriminate. cbn. intros [= <- <-].
      apply IH in E; auto. destruct E as (E1 & E2 & E3). cbn in *. unfold keeps. repeat split; auto. lia.
  - destruct (emit fuel _ _ k true) as [[s1 g1]| | |] eqn:E; try discriminate. cbn.
    apply IH in E; [|now apply sane_next]. pose proof (keeps_sane _ _ (sane_next _ S) E) as S1.
    destruct (emit fuel _ _ v true) as [[s2 g2]| | |] eqn:E2; try discriminate. cbn. intros [= <- <-].
    apply IH in E2; auto. destruct E as (E & F & _), E2 as (E2 & F2 & G2). cbn in *. unfold keeps. repeat split; [lia|congruence|auto].
  - destruct (existsb _ _) eqn:X. { intros [= <- <-]. exact R. } rewrite enter_ok by auto. cbn.
    destruct (fields D n) as [fs|] eqn:F.
    + destruct (emit_fields (emit fuel) e true fs _) as [[s1 g1]| | |] eqn:E; try discriminate. cbn. intros [= <- <-].
      apply (fields_keeps _ e IH) in E; [|apply sane_push; auto; eapply fields_in; eauto].
      destruct E as (E1 & E2 & E3). cbn in *. unfold keeps, leave. rewrite E2. cbn. auto.
    + cbn. intros [= <- <-]. unfold keeps, leave. cbn. auto.
Qed.

(** *** The emitter stops *)
Lemma emit_total k : forall t g e q, (length D - length (vis g) <= k)%nat -> sane g -> exists fuel r, emit fuel g e t q = Ok r.
Proof.
  induction k as [k IHk] using lt_wf_ind. induction t as [| | | | | | |t IH|t1 IH1 t2 IH2|n]; intros g e q L S;
  try (exists 1%nat; eexists; reflexivity).
  - destruct (composite t) eqn:C.
    + destruct (IH (next (next g)) (CVar (Datatypes.S (uid g))) true) as (fuel & r & E); auto.
      exists (Datatypes.S fuel). cbn [PrintModel.emit]. rewrite C, E. eexists. reflexivity.
    + destruct (IH (next g) (clip cty (CGet e t (uid g))) true) as (fuel & r & E); auto.
      exists (Datatypes.S fuel). cbn [PrintModel.emit]. rewrite C, E. eexists. reflexivity.
  - destruct (IH1 (next g) (clip cty (CKey e t1 (uid g))) true) as (fuel & [s1 g1] & E); auto.
    pose proof (emit_keeps _ _ _ _ _ _ _ (sane_next _ S) E) as K.
    destruct (IH2 g1 (clip cty (CVal e t2 (uid g))) true) as (fuel2 & r2 & E2).
    { destruct K as (_ & -> & _). exact L. } { apply (keeps_sane (next g) g1); auto. }
    exists (Datatypes.S (fuel + fuel2)). cbn [PrintModel.emit].
    rewrite (emit_le fuel (fuel + fuel2) _ _ _ _ _ ltac:(lia) E). cbn.
    rewrite (emit_le fuel2 (fuel + fuel2) _ _ _ _ _ ltac:(lia) E2). eexists. reflexivity.
  - destruct (existsb (same_name n) (vis g)) eqn:X.
    { exists 1%nat. cbn. rewrite X. eexists. reflexivity. }
    destruct (fields D n) as [fs|] eqn:F.
    + pose proof (sane_push n g S (fields_in _ _ _ F) X) as S1.
      pose proof (sane_len _ S1) as L1. cbn in L1.
      assert (L2 : (length D - Datatypes.S (length (vis g)) < k)%nat).
      { destruct S1 as (_ & N & I). pose proof (NoDup_incl_length N I) as Q. rewrite map_length in Q. cbn in Q. lia. }
      assert (A : forall gs first g1, sane g1 -> vis g1 = n :: vis g -> exists fuel r, emit_fields (emit fuel) e first gs g1 = Ok r).
      { induction gs as [|[f t] gs IHg]; intros first g1 Sg Vg. { exists 0%nat. eexists. reflexivity. }
        destruct (IHk (length D - Datatypes.S (length (vis g)))%nat L2 t g1 (clip cty (CFld e f)) true) as (fuel & [s2 g2] & E); auto.
        { rewrite Vg. cbn. lia. }
        pose proof (emit_keeps _ _ _ _ _ _ _ Sg E) as K. pose proof (keeps_sane _ _ Sg K) as Sg2. destruct K as (_ & Vk & _).
        destruct (IHg false g2 Sg2 (eq_trans Vk Vg)) as (fuel2 & r2 & E2).
        exists (fuel + fuel2)%nat. cbn. rewrite (emit_le fuel (fuel + fuel2) _ _ _ _ _ ltac:(lia) E). cbn.
        rewrite (fields_mono (emit fuel2) (emit (fuel + fuel2)) e) with (r := r2); auto. { eexists. reflexivity. }
        intros. eapply emit_le; [|eauto]. lia. }
      destruct (A fs true _ S1 eq_refl) as (fuel & r & E). exists (Datatypes.S fuel). cbn [PrintModel.emit].
      rewrite X, enter_ok by auto. cbn. rewrite F, E. eexists. reflexivity.
    + exists 1%nat. cbn. rewrite X, enter_ok by auto. cbn. rewrite F. eexists. reflexivity.
Qed.
End Emission.
