From Verif Require Import Base LexModel LexProofs BsearchModel.

Definition sorted {A} (name : A -> bytes) (t : list A) : Prop :=
  forall i j a b, (i < j)%nat -> nth_error t i = Some a -> nth_error t j = Some b -> strcmp (name a) (name b) < 0.
(** Sortedness of a literal table, by computation. *)
Fixpoint ascending {A} (name : A -> bytes) (t : list A) : bool :=
  match t with
  | a :: (b :: _) as r => (strcmp (name a) (name b) <? 0) && ascending name r
  | _ => true
  end.
Lemma ascending_sorted {A} (name : A -> bytes) t : ascending name t = true -> sorted name t.
Proof.
  assert (G : forall t a b j, ascending name (a :: t) = true -> nth_error t j = Some b -> strcmp (name a) (name b) < 0).
  { induction t0 as [|c t0 IH]; intros a b j H E; [destruct j; discriminate E|]. cbn [ascending] in H. apply andb_true_iff in H as [H1 H2].
    destruct j as [|j]; [injection E as <-; lia|]. specialize (IH c b j H2 E). eapply strcmp_trans; [|exact IH]. lia. }
  induction t as [|a t IH]; intros H i j x y L Ei Ej.
  - destruct i; discriminate.
  - destruct j as [|j]; [lia|]. destruct i as [|i].
    + injection Ei as <-. exact (G t a y j H Ej).
    + apply (IH ltac:(destruct t; [reflexivity|]; apply andb_true_iff in H; tauto) i j); [lia|exact Ei|exact Ej].
Qed.
Lemma bsearch_loop_spec {A} (name : A -> bytes) t key : sorted name t -> forall fuel lo hi,
  (hi <= length t)%nat -> (hi - lo < fuel)%nat ->
  (forall i a, nth_error t i = Some a -> name a = key -> (lo <= i < hi)%nat) ->
  match bsearch_loop fuel name t key lo hi with
  | Some i => exists a, nth_error t i = Some a /\ name a = key
  | None => forall i a, nth_error t i = Some a -> name a <> key
  end.
Proof.
  intros S0. induction fuel as [|fuel IH]; intros lo hi Lh Lf W; [lia|]. cbn [bsearch_loop]. cbv zeta.
  destruct (Nat.ltb_spec lo hi) as [L|L].
  - assert (D : (lo <= Nat.div2 (lo + hi) < hi)%nat).
    { pose proof (Nat.div2_odd (lo + hi)) as O0. destruct (Nat.odd (lo + hi)); cbn in O0; lia. }
    destruct (nth_error t (Nat.div2 (lo + hi))) as [e|] eqn:E; [|apply nth_error_None in E; lia].
    destruct (Z.ltb_spec (strcmp key (name e)) 0) as [C|C]; [|destruct (Z.ltb_spec 0 (strcmp key (name e))) as [C'|C']].
    + apply IH; [lia|lia|]. intros i a Hi Ha. specialize (W i a Hi Ha).
      destruct (Nat.lt_ge_cases i (Nat.div2 (lo + hi))) as [Y|Y]; [lia|]. exfalso. subst key.
      destruct (Nat.eq_dec i (Nat.div2 (lo + hi))) as [->|N].
      * rewrite E in Hi. injection Hi as <-. rewrite strcmp_refl in C. lia.
      * assert (X : strcmp (name e) (name a) < 0) by (apply (S0 (Nat.div2 (lo + hi)) i); [lia|exact E|exact Hi]). apply strcmp_anti in X. lia.
    + apply IH; [lia|lia|]. intros i a Hi Ha. specialize (W i a Hi Ha).
      destruct (Nat.lt_ge_cases (Nat.div2 (lo + hi)) i) as [Y|Y]; [lia|]. exfalso. subst key.
      destruct (Nat.eq_dec i (Nat.div2 (lo + hi))) as [->|N].
      * rewrite E in Hi. injection Hi as <-. rewrite strcmp_refl in C'. lia.
      * assert (X : strcmp (name a) (name e) < 0) by (apply (S0 i (Nat.div2 (lo + hi))); [lia|exact Hi|exact E]). lia.
    + exists e. split; [exact E|]. symmetry. apply strcmp_eq. lia.
  - intros i a Hi Ha. specialize (W i a Hi Ha). lia.
Qed.
Lemma bsearch_spec {A} (name : A -> bytes) t key : sorted name t ->
  match bsearch name t key with
  | Some i => exists a, nth_error t i = Some a /\ name a = key
  | None => forall a, In a t -> name a <> key
  end.
Proof.
  intros S0. unfold bsearch.
  pose proof (bsearch_loop_spec name t key S0 (S (length t)) 0 (length t) (le_n _) ltac:(lia)) as H.
  destruct (bsearch_loop _ _ _ _ _ _).
  - apply H. intros i a Hi _. apply (conj (Nat.le_0_l i)). apply nth_error_Some. congruence.
  - intros a Ha. apply In_nth_error in Ha as (i & Hi). apply (H ltac:(intros j b Hj _; split; [lia|apply nth_error_Some; congruence]) i a Hi).
Qed.
