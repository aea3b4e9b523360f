(** Proofs about the order and the count of the arguments. *)
From Verif Require Import Base ArgsSpec ArgsModel.

Lemma nth_error_nth_opt {A} (l : list (option A)) i : (i < length l)%nat -> nth_error l i = Some (nth i l None).
Proof. revert i; induction l as [|x l IH]; intros [|i] H; cbn in *; try lia; auto. apply IH; lia. Qed.

(** ** Positional arguments first *)
Definition is_named (a : arg) : Prop := fst a <> None.
Lemma ordered_true t : ordered true t = true <-> Forall is_named t.
Proof.
  induction t as [|[[n|] e] t IH]; cbn; split; intros H; auto.
  - constructor; [intros E; discriminate E|now apply IH].
  - inversion H; subst. now apply IH.
  - discriminate.
  - inversion H as [|? ? X]; subst. exfalso. now apply X.
Qed.
Lemma ordered_lead args : ordered false args = true <-> Forall is_named (skipn (lead args) args).
Proof.
  induction args as [|[[n|] e] t IH]; cbn; try (split; auto; fail).
  - rewrite ordered_true. split; intros H; [constructor; auto; intros E; discriminate E|now inversion H].
  - exact IH.
Qed.
Lemma lead_le args : (lead args <= length args)%nat.
Proof. induction args as [|[[n|] e] t IH]; cbn; lia. Qed.
Lemma lead_none args j a : nth_error args j = Some a -> (j < lead args)%nat -> fst a = None.
Proof.
  revert j; induction args as [|[[n|] e] t IH]; intros [|j] H L; cbn in *; try lia; try discriminate.
  - now injection H as <-.
  - apply (IH j); auto; lia.
Qed.
Lemma lead_end args a : nth_error args (lead args) = Some a -> is_named a.
Proof.
  induction args as [|[[n|] e] t IH]; cbn; intros H; try discriminate; auto.
  injection H as <-. intros E; discriminate E.
Qed.
Lemma nth_error_skipn {A} (l : list A) n i : nth_error (skipn n l) i = nth_error l (n + i)%nat.
Proof. revert l; induction n as [|n IH]; intros [|x l]; cbn; auto. now destruct i. Qed.
Lemma ordered_none args j a : ordered false args = true -> nth_error args j = Some a -> fst a = None -> (j < lead args)%nat.
Proof.
  intros O H N. destruct (Nat.lt_ge_cases j (lead args)) as [|G]; auto. exfalso.
  apply ordered_lead in O. rewrite Forall_forall in O. apply (O a); auto.
  apply (nth_error_In _ (j - lead args)). rewrite nth_error_skipn. now replace (lead args + (j - lead args))%nat with j by lia.
Qed.
Definition first_rule (args : list arg) : Prop :=
  forall j k n a b, (j < k)%nat -> nth_error args j = Some (Some n, a) -> nth_error args k = Some (None, b) -> False.
Lemma ordered_iff args : ordered false args = true <-> first_rule args.
Proof.
  split.
  - intros O j k n a b L H1 H2.
    pose proof (ordered_none _ _ _ O H2 eq_refl). pose proof (lead_none _ _ _ H1 ltac:(lia)). discriminate.
  - intros R. apply ordered_lead, Forall_forall. intros x HI N.
    apply In_nth_error in HI as (i & HI). rewrite nth_error_skipn in HI. destruct x as [o b]. cbn in N. subst o.
    destruct (nth_error args (lead args)) as [[[n|] a]|] eqn:E.
    + destruct i as [|i]; [rewrite Nat.add_0_r in HI; congruence|]. apply (R (lead args) (lead args + S i)%nat n a b ltac:(lia) E HI).
    + apply lead_end in E. now apply E.
    + apply nth_error_None in E. assert (nth_error args (lead args + i) <> None) by congruence. apply nth_error_Some in H. lia.
Qed.

(** ** The slot of a name *)
Lemma find_slot_some ps n k : find_slot ps n = Some k -> exists p, nth_error ps k = Some p /\ p_name p = n.
Proof.
  revert k; induction ps as [|p ps IH]; cbn; intros k H; try discriminate.
  destruct (list_eq_dec Z.eq_dec (p_name p) n) as [E|E].
  - injection H as <-. now exists p.
  - destruct (find_slot ps n) as [k'|]; try discriminate. injection H as <-. now apply IH.
Qed.
Lemma find_slot_none ps n : find_slot ps n = None -> forall i p, nth_error ps i = Some p -> p_name p <> n.
Proof.
  induction ps as [|p ps IH]; cbn; intros H [|i] q Q; try discriminate; destruct (list_eq_dec Z.eq_dec (p_name p) n) as [E|E]; try discriminate.
  - now injection Q as <-.
  - destruct (find_slot ps n) eqn:F; try discriminate. now apply (IH eq_refl i).
Qed.
Lemma name_inj ps i k p q : NoDup (map p_name ps) -> nth_error ps i = Some p -> nth_error ps k = Some q -> p_name p = p_name q -> i = k.
Proof.
  intros N H1 H2 E. rewrite NoDup_nth_error in N. apply N.
  - rewrite map_length. apply nth_error_Some. congruence.
  - rewrite !nth_error_map, H1, H2. cbn. now rewrite E.
Qed.

Lemma set_nth_length {A} k (x : A) l : length (set_nth k x l) = length l.
Proof. revert k; induction l as [|y l IH]; intros [|k]; cbn; auto. Qed.
Lemma set_nth_nth {A} k (x d : A) l i : (k < length l)%nat -> nth i (set_nth k x l) d = if Nat.eqb i k then x else nth i l d.
Proof. revert k i; induction l as [|y l IH]; intros [|k] [|i] H; cbn in *; try lia; auto. apply IH; lia. Qed.

Lemma skipn_next {A} (l : list A) m x t : skipn m l = x :: t -> t = skipn (S m) l.
Proof. revert m; induction l as [|y l IH]; intros [|m] H; try discriminate H. - cbn in H. now injection H as _ ->. - now apply IH. Qed.
(** ** The slots after m arguments *)
Section Inv.
Context (ps : list param) (args : list arg).
Record inv (m : nat) (slots : list (option exp)) : Prop := {
  inv_len : length slots = length ps;
  inv_slot : forall i e, (i < length ps)%nat -> (nth i slots None = Some e <->
    exists j a, (j < m)%nat /\ gives ps args i j /\ nth_error args j = Some a /\ snd a = e);
  inv_once : forall i j k, (j < m)%nat -> (k < m)%nat -> gives ps args i j -> gives ps args i k -> j = k;
  inv_par : forall j, (lead args <= j < m)%nat -> exists i, gives ps args i j
}.
Lemma gives_lt i j : gives ps args i j -> (i < length ps)%nat /\ (j < length args)%nat.
Proof. intros (p & a & H1 & H2 & _). split; apply nth_error_Some; congruence. Qed.
Lemma gives_lead i j : (j < lead args)%nat -> gives ps args i j -> i = j.
Proof. intros L (p & a & H1 & H2 & H3). now rewrite (lead_none _ _ _ H2 L) in H3. Qed.
Lemma lead_gives i : (i < lead args)%nat -> (i < length ps)%nat -> gives ps args i i.
Proof.
  intros L P. pose proof (lead_le args).
  destruct (nth_error ps i) as [p|] eqn:E1; [|apply nth_error_None in E1; lia].
  destruct (nth_error args i) as [a|] eqn:E2; [|apply nth_error_None in E2; lia].
  exists p, a. repeat split; auto. now rewrite (lead_none _ _ _ E2 L).
Qed.
Lemma start_nth i : (i < length ps)%nat -> nth i (start ps args) None = if (i <? lead args)%nat then option_map snd (nth_error args i) else None.
Proof.
  intros H. unfold start. set (f := fun i => if (i <? lead args)%nat then option_map snd (nth_error args i) else None).
  rewrite (nth_indep _ None (f O)) by (rewrite map_length, seq_length; lia).
  rewrite (map_nth f). now rewrite seq_nth by lia.
Qed.
Lemma start_inv : inv (lead args) (start ps args).
Proof.
  constructor.
  - unfold start. now rewrite map_length, seq_length.
  - intros i e H. rewrite start_nth by lia. destruct (Nat.ltb_spec i (lead args)) as [L|L].
    + split.
      * destruct (nth_error args i) as [a|] eqn:E; cbn; try discriminate. intros [= <-]. exists i, a. repeat split; auto. now apply lead_gives.
      * intros (j & a & J & G & A & <-). apply gives_lead in G; auto. subst j. now rewrite A.
    + split; [discriminate|]. intros (j & a & J & G & _). apply gives_lead in G; auto. lia.
  - intros i j k J K G1 G2. apply gives_lead in G1, G2; auto. congruence.
  - intros j H. lia.
Qed.
Lemma place_inv (N : NoDup (map p_name ps)) rest : Forall is_named rest -> forall m slots, (lead args <= m)%nat -> rest = skipn m args -> (m <= length args)%nat -> inv m slots ->
  match place ps slots rest with
  | inr s => inv (length args) s
  | inl c => (c = 5031 /\ exists j n e, nth_error args j = Some (Some n, e) /\ forall i, ~ gives ps args i j) \/
             (c = 5032 /\ exists i j k, (j < k)%nat /\ gives ps args i j /\ gives ps args i k)
  end.
Proof.
  induction 1 as [|[[n|] e] t X F IH]; intros m slots Lm E M I.
  - cbn. assert (length (skipn m args) = O) by now rewrite <- E. rewrite skipn_length in H. now replace (length args) with m by lia.
  - assert (Am : nth_error args m = Some (Some n, e)).
    { rewrite <- (Nat.add_0_r m), <- nth_error_skipn, <- E. reflexivity. }
    assert (Mlt : (m < length args)%nat) by (apply nth_error_Some; congruence).
    assert (Et : t = skipn (S m) args).
    { symmetry in E. now apply skipn_next in E. }
    cbn. destruct (find_slot ps n) as [k|] eqn:FS.
    + apply find_slot_some in FS as (p & P & PN). assert (K : (k < length ps)%nat) by (apply nth_error_Some; congruence).
      assert (G : gives ps args k m) by (exists p, (Some n, e); auto).
      assert (Only : forall i, gives ps args i m -> i = k).
      { intros i (q & a & Q & A & R). rewrite Am in A. injection A as <-. cbn in R. apply (name_inj ps i k q p N Q P). congruence. }
      destruct (nth k slots None) as [x|] eqn:SK.
      * right. split; auto. apply (inv_slot _ _ I) in SK as (j & a & J & GJ & _); auto. exists k, j, m. auto.
      * assert (Free : forall j, (j < m)%nat -> ~ gives ps args k j).
        { intros j J GJ. destruct (nth_error args j) as [a|] eqn:A; [|destruct GJ as (? & ? & ? & ? & ?); congruence].
          assert (nth k slots None = Some (snd a)) by (apply (inv_slot _ _ I); auto; exists j, a; auto). congruence. }
        apply (IH (S m)); auto. constructor.
        -- rewrite set_nth_length. apply (inv_len _ _ I).
        -- intros i e' H. rewrite set_nth_nth by (rewrite (inv_len _ _ I); lia). destruct (Nat.eqb_spec i k) as [->|NE].
           ++ split.
              ** intros [= <-]. exists m, (Some n, e). repeat split; auto.
              ** intros (j & a & J & GJ & A & <-). destruct (Nat.eq_dec j m) as [->|]; [rewrite Am in A; now injection A as <-|].
                 exfalso. apply (Free j); auto; lia.
           ++ rewrite (inv_slot _ _ I) by auto. split; intros (j & a & J & GJ & A & <-); exists j, a; repeat split; auto.
              destruct (Nat.eq_dec j m) as [->|]; [exfalso; now apply NE, Only|lia].
        -- intros i j j' J J' G1 G2. destruct (Nat.eq_dec j m) as [->|]; destruct (Nat.eq_dec j' m) as [->|]; auto.
           ++ apply Only in G1. subst i. exfalso. apply (Free j'); auto; lia.
           ++ apply Only in G2. subst i. exfalso. apply (Free j); auto; lia.
           ++ apply (inv_once _ _ I i); auto; lia.
        -- intros j H. destruct (Nat.eq_dec j m) as [->|]; [now exists k|]. apply (inv_par _ _ I). lia.
    + left. split; auto. exists m, n, e. split; auto. intros i (q & a & Q & A & R). rewrite Am in A. injection A as <-.
      cbn in R. now apply (find_slot_none _ _ FS _ _ Q).
  - exfalso. now apply X.
Qed.
End Inv.
Lemma last_filled_spec slots : forall i, ((i < last_filled slots)%nat <-> exists k e, (i <= k)%nat /\ nth k slots None = Some e).
Proof.
  induction slots as [|s t IH]; intros i; cbn.
  - split; [lia|]. intros (k & e & _ & H). destruct k; discriminate.
  - destruct (last_filled t) as [|n] eqn:E.
    + assert (Z : forall k e, nth k t None <> Some e).
      { intros k e H. assert ((0 < 0)%nat) by (apply IH; exists k, e; split; auto; lia). lia. }
      destruct s as [e|]; split; intros H; try lia.
      * exists O, e. split; auto; lia.
      * destruct H as ([|k] & e' & L & H); [lia|]. now apply Z in H.
      * destruct H as ([|k] & e' & L & H); [discriminate|]. now apply Z in H.
    + split.
      * intros H. destruct (proj1 (IH (pred i)) ltac:(lia)) as (k & e & L & K). exists (S k), e. split; auto; lia.
      * intros ([|k] & e & L & K); [lia|]. assert ((k < S n)%nat) by (apply IH; exists k, e; split; auto). lia.
Qed.

Lemma place_full ps rest : Forall is_named rest -> rest <> [] -> forall slots, (forall i, (i < length ps)%nat -> nth i slots None <> None) -> exists c, place ps slots rest = inl c.
Proof.
  intros [|[[n|] e] t X F] NE slots H; [easy| |exfalso; now apply X]. cbn.
  destruct (find_slot ps n) as [k|] eqn:FS; [|eauto]. apply find_slot_some in FS as (p & P & _).
  assert (K : (k < length ps)%nat) by (apply nth_error_Some; congruence). specialize (H k K). destruct (nth k slots None); [eauto|easy].
Qed.

Lemma gaps_length ps slots : length slots = length ps -> length (gaps ps slots) = length ps.
Proof. revert slots; induction ps as [|p ps IH]; intros [|s t] H; cbn in *; auto; try discriminate. Qed.
Lemma gaps_nth ps slots i p : length slots = length ps -> nth_error ps i = Some p ->
  nth_error (gaps ps slots) i = Some (match nth i slots None with Some e => Some e | None => p_default p end).
Proof.
  revert slots i; induction ps as [|q ps IH]; intros [|s t] [|i] H P; cbn in *; try discriminate.
  - now injection P as <-.
  - apply IH; auto.
Qed.
Lemma whole_some l es : whole l = Some es <-> l = map Some es.
Proof.
  revert es; induction l as [|[e|] l IH]; intros es; cbn.
  - split; [intros [= <-]; auto|destruct es; auto; discriminate].
  - destruct (whole l) as [x|]; cbn.
    + split; [intros [= <-]; cbn; f_equal; now apply IH|]. destruct es as [|e' es]; cbn; try discriminate. intros [= <- H]. apply IH in H. congruence.
    + split; [discriminate|]. destruct es as [|e' es]; cbn; try discriminate. intros [= <- H]. apply IH in H. discriminate.
  - split; [discriminate|]. destruct es; discriminate.
Qed.
Lemma whole_exists l : (forall i, nth_error l i <> Some None) -> exists es, whole l = Some es.
Proof.
  induction l as [|[e|] l IH]; intros H; cbn; [eauto| |exfalso; now apply (H O)].
  destruct IH as (es & ->); [intros i; apply (H (S i))|]. cbn; eauto.
Qed.
Lemma min_le ps : (min_args ps <= length ps)%nat.
Proof. unfold min_args. induction ps as [|p ps IH]; cbn; auto. destruct (p_default p); cbn; lia. Qed.
Lemma min_iff ps i p : declared ps -> nth_error ps i = Some p -> (p_default p = None <-> (i < min_args ps)%nat).
Proof.
  intros [_ D]. unfold min_args. revert i D; induction ps as [|q ps IH]; intros i D P; [destruct i; discriminate|].
  assert (D' : forall i j p q, (i < j)%nat -> nth_error ps i = Some p -> nth_error ps j = Some q -> p_default p <> None -> p_default q <> None).
  { intros a b x y L X Y. apply (D (S a) (S b) x y); auto; lia. }
  cbn. destruct (p_default q) as [d|] eqn:Q.
  - assert (Z : filter (fun p => match p_default p with None => true | Some _ => false end) ps = []).
    { destruct (filter _ ps) as [|r l] eqn:Fl; auto. exfalso. assert (HI : In r (r :: l)) by now left. rewrite <- Fl in HI.
      apply filter_In in HI as [HI R]. apply In_nth_error in HI as (k & HI). specialize (D O (S k) q r ltac:(lia) eq_refl HI ltac:(congruence)).
      destruct (p_default r); [discriminate|easy]. }
    rewrite Z. cbn. split; [|lia]. intros H. exfalso. destruct i as [|i]; [cbn in P; injection P as <-; congruence|].
    apply (D O (S i) q p ltac:(lia) eq_refl P ltac:(congruence)). exact H.
  - cbn. destruct i as [|i]; cbn in P.
    + injection P as <-. split; auto; lia.
    + rewrite (IH i D' P). lia.
Qed.
