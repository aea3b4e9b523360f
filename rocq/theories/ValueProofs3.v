From Verif Require Import Base ValueSpec ValueModel ValueProofs ValueProofs2.

Lemma runs_agree l : forall g s ts, agrees g s ts -> all_typed g l -> all_careful g l ->
  both (types_of g l) (runs g s l) (sruns ts l).
Proof.
  induction l as [|c l IH]; intros g s ts A T C; cbn in *; auto.
  destruct T as [T1 T2], C as [C1 C2]. pose proof (exec_agrees g s ts c A T1 C1) as E.
  destruct (exec g s c) as [s'|], (sstep ts c) as [ts'|]; cbn in E; try easy. now apply IH.
Qed.
Lemma start_agrees : agrees [] start [].
Proof. split; [constructor|]. exists []. split; constructor. Qed.
Lemma agrees_contents g s ts : agrees g s ts -> contents g (mem s) (vars s) = ts.
Proof. intros (T & f & R & _). eapply reps_contents; eauto. Qed.

Lemma runs_app l1 : forall g s l2, runs g s (l1 ++ l2) = match runs g s l1 with Some s => runs (types_of g l1) s l2 | None => None end.
Proof. induction l1 as [|c l1 IH]; intros; cbn; auto. destruct (exec g s c); auto. rewrite IH. reflexivity. Qed.
Lemma sruns_app l1 : forall s l2, sruns s (l1 ++ l2) = match sruns s l1 with Some s => sruns s l2 | None => None end.
Proof. induction l1 as [|c l1 IH]; intros; cbn; auto. destruct (sstep s c); auto. Qed.
Lemma typed_app l1 : forall g l2, all_typed g (l1 ++ l2) <-> all_typed g l1 /\ all_typed (types_of g l1) l2.
Proof. induction l1 as [|c l1 IH]; intros; cbn; [tauto|]. rewrite IH. unfold types_of. cbn. tauto. Qed.
Lemma careful_app l1 : forall g l2, all_careful g (l1 ++ l2) <-> all_careful g l1 /\ all_careful (types_of g l1) l2.
Proof. induction l1 as [|c l1 IH]; intros; cbn; [tauto|]. rewrite IH. unfold types_of. cbn. tauto. Qed.
Lemma checks_app l1 : forall k l2, checks k (l1 ++ l2) = checks k l1 && checks (consts_of k l1) l2.
Proof. induction l1 as [|c l1 IH]; intros; cbn; auto. rewrite IH, andb_assoc. reflexivity. Qed.

(** In the specification a write changes the one variable it names. *)
Lemma swrite_other s x p t s' y : swrite s x p t = Some s' -> x <> y -> nth_error s' y = nth_error s y.
Proof.
  unfold swrite. destruct (nth_error s x); [|discriminate]. destruct (sput t0 p t); [|discriminate].
  intros [= <-] N. now apply put_other.
Qed.
Lemma step_keeps k c s s' y : refused k c = false -> in_sight c -> is_const k y = true -> (y < length s)%nat ->
  sstep s c = Some s' -> nth_error s' y = nth_error s y.
Proof.
  intros R S K L E.
  assert (W : forall x p t, swrite s x p t = Some s' -> (is_const k x = false) -> nth_error s' y = nth_error s y).
  { intros x p t Ew N. eapply swrite_other; eauto. intros ->. congruence. }
  destruct c as [m a t e|x p e|w x p z|x p t]; cbn in *.
  - destruct (seval s e); [|discriminate]. injection E as <-. now apply nth_error_app1.
  - destruct (seval s e); [|discriminate]. eapply W; eauto. destruct (Nat.leb_spec (length p) 1); [|lia].
    now rewrite andb_true_r in R.
  - destruct (nth_error s x) as [t|]; [|discriminate]. destruct (sget t p) as [[old| |]|]; try discriminate.
    destruct (poked w old z); [|discriminate]. eapply W; eauto.
    destruct w; auto; try (subst p; now rewrite andb_true_r in R).
    destruct (Nat.leb_spec (length p) 1); [|lia]. now rewrite andb_true_r in R.
  - destruct (nth_error s x) as [u|]; [|discriminate]. destruct (sget u p) as [[| |us]|]; try discriminate.
    eapply W; eauto. subst p. now rewrite andb_true_r in R.
Qed.
Lemma step_length c s s' : sstep s c = Some s' -> (length s <= length s')%nat.
Proof.
  assert (W : forall x p t, swrite s x p t = Some s' -> (length s <= length s')%nat).
  { intros x p t. unfold swrite. destruct (nth_error s x); [|discriminate]. destruct (sput t0 p t); [|discriminate].
    intros [= <-]. now rewrite put_length. }
  destruct c as [m a t e|x p e|w x p z|x p t]; cbn; intros E.
  - destruct (seval s e); [|discriminate]. injection E as <-. rewrite app_length. lia.
  - destruct (seval s e); [|discriminate]. eauto.
  - destruct (nth_error s x) as [t|]; [|discriminate]. destruct (sget t p) as [[old| |]|]; try discriminate.
    destruct (poked w old z); [|discriminate]. eauto.
  - destruct (nth_error s x) as [u|]; [|discriminate]. destruct (sget u p) as [[| |us]|]; try discriminate. eauto.
Qed.
Lemma is_const_after k c y : is_const k y = true -> is_const (consts_after k c) y = true.
Proof.
  unfold is_const. intros H. destruct c; auto. cbn. rewrite app_nth1; auto.
  destruct (Nat.lt_ge_cases y (length k)); auto. rewrite nth_overflow in H by lia. discriminate.
Qed.
Lemma runs_keep l : forall k s s' y, checks k l = true -> Forall in_sight l -> is_const k y = true -> (y < length s)%nat ->
  sruns s l = Some s' -> nth_error s' y = nth_error s y.
Proof.
  induction l as [|c l IH]; intros k s s' y C S K L E; cbn in *. { congruence. }
  apply andb_prop in C as [C1 C2]. inversion S; subst. destruct (sstep s c) as [s1|] eqn:E1; [|discriminate].
  rewrite <- (step_keeps k c s s1 y); auto; [|now destruct (refused k c)].
  eapply IH; eauto; [now apply is_const_after|]. pose proof (step_length _ _ _ E1). lia.
Qed.
Lemma counts l : forall g k, length g = length k -> length (types_of g l) = length (consts_of k l).
Proof.
  induction l as [|c l IH]; intros g k E; auto. cbn. apply IH. destruct c; auto. cbn. rewrite !app_length. cbn. lia.
Qed.
Lemma Forall2_len {A B} (R : A -> B -> Prop) l m : Forall2 R l m -> length l = length m.
Proof. induction 1; cbn; congruence. Qed.
