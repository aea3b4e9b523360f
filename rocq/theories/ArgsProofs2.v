(** Which calls are accepted, and in which slots the arguments are. *)
From Verif Require Import Base ArgsSpec ArgsModel ArgsProofs.

(** The slots of an accepted call. *)
Definition in_slots (ps : list param) (args : list arg) (es : list exp) : Prop :=
  (length es <= length ps)%nat /\ (forall i, reached ps args i <-> (i < length es)%nat) /\
  forall i e, nth_error es i = Some e ->
    (forall j a, gives ps args i j -> nth_error args j = Some a -> snd a = e) /\
    ((forall j, ~ gives ps args i j) -> exists p, nth_error ps i = Some p /\ p_default p = Some e).

Lemma count_accept ps slots es : count ps slots = Accept es <-> (min_args ps <= length slots <= length ps)%nat /\ slots = map Some es.
Proof.
  unfold count. split.
  - destruct (whole (firstn (length ps) slots)) as [x|] eqn:W; try discriminate.
    destruct (Nat.ltb_spec (length slots) (min_args ps)); cbn [orb]; try discriminate.
    destruct (Nat.ltb_spec (length ps) (length slots)); try discriminate. intros [= <-].
    rewrite firstn_all2 in W by lia. apply whole_some in W. auto.
  - intros [L ->]. rewrite firstn_all2 by lia. rewrite (proj2 (whole_some _ es) eq_refl).
    destruct (Nat.ltb_spec (length (map Some es)) (min_args ps)); try lia.
    destruct (Nat.ltb_spec (length ps) (length (map Some es))); try lia. reflexivity.
Qed.
Lemma count_not ps slots : count ps slots <> Overread.
Proof. unfold count. destruct (whole _); [|discriminate]. destruct (_ || _); discriminate. Qed.
Lemma count_crash ps slots : count ps slots = Crash <-> exists i, (i < length ps)%nat /\ nth_error slots i = Some None.
Proof.
  unfold count. split.
  - destruct (whole (firstn (length ps) slots)) as [x|] eqn:W; [destruct (_ || _); discriminate|]. intros _.
    destruct (existsb (fun o : option exp => match o with None => true | _ => false end) (firstn (length ps) slots)) eqn:E.
    + apply existsb_exists in E as ([o|] & HI & ?); [discriminate|]. apply In_nth_error in HI as (i & HI). exists i.
      assert (L : (i < length (firstn (length ps) slots))%nat) by (apply nth_error_Some; congruence). rewrite firstn_length in L.
      split; [lia|]. revert HI. rewrite <- (firstn_skipn (length ps) slots) at 2. intros HI. rewrite nth_error_app1; auto.
      rewrite firstn_length. lia.
    + exfalso. destruct (whole_exists (firstn (length ps) slots)) as (es & Y); [|congruence].
      intros i HI. apply nth_error_In in HI. assert (existsb (fun o : option exp => match o with None => true | _ => false end) (firstn (length ps) slots) = true).
      { apply existsb_exists. now exists None. } congruence.
  - intros (i & L & H). destruct (whole (firstn (length ps) slots)) as [x|] eqn:W; auto. exfalso.
    apply whole_some in W. assert (S : (i < length slots)%nat) by (apply nth_error_Some; congruence).
    rewrite <- (firstn_skipn (length ps) slots), nth_error_app1 in H by (rewrite firstn_length; lia).
    rewrite W, nth_error_map in H. destruct (nth_error x i); discriminate.
Qed.

Lemma unnamed args : any_named args = false -> lead args = length args /\ ordered false args = true.
Proof.
  induction args as [|[[n|] e] t IH]; cbn; auto; try discriminate. intros H. destruct (IH H). auto.
Qed.
Lemma nth_firstn {A} (l : list A) n i : (i < n)%nat -> nth_error (firstn n l) i = nth_error l i.
Proof. revert l i; induction n as [|n IH]; intros [|x l] [|i] H; cbn; auto; try lia. apply IH. lia. Qed.

(** The three rules that place the arguments. *)
Definition placed (ps : list param) (args : list arg) : Prop :=
  first_rule args /\ (forall j, (j < length args)%nat -> exists i, gives ps args i j) /\
  (forall i j k, gives ps args i j -> gives ps args i k -> j = k).
Lemma lawful_placed ps args : lawful ps args <-> placed ps args /\ forall i p, nth_error ps i = Some p -> p_default p = None -> exists j, gives ps args i j.
Proof.
  split.
  - intros [A B C D]. repeat split; auto.
  - intros [(A & B & C) D]. now constructor.
Qed.

Section Named.
Context (ps : list param) (args : list arg) (D : declared ps) (AN : any_named args = true) (O : ordered false args = true).
Context (slots : list (option exp)) (PL : place ps (start ps args) (skipn (lead args) args) = inr slots).
Lemma named_inv : inv ps args (length args) slots.
Proof.
  pose proof (place_inv ps args (proj1 D) _ (proj1 (ordered_lead args) O) (lead args) (start ps args) (le_n _) eq_refl (lead_le args) (start_inv ps args)) as H.
  now rewrite PL in H.
Qed.
Lemma named_lead : (lead args < length ps)%nat.
Proof.
  destruct (Nat.lt_ge_cases (lead args) (length ps)) as [|G]; auto. exfalso.
  destruct (place_full ps (skipn (lead args) args) (proj1 (ordered_lead args) O)) with (slots := start ps args) as (c & E).
  - intros E. assert (L : length (skipn (lead args) args) = 0%nat) by now rewrite E. rewrite skipn_length in L.
    unfold any_named in AN. apply existsb_exists in AN as (a & HI & N). apply In_nth_error in HI as (j & HI).
    assert ((j < length args)%nat) by (apply nth_error_Some; congruence). rewrite (lead_none args j a HI ltac:(lia)) in N. discriminate.
  - intros i H. rewrite start_nth by auto. destruct (Nat.ltb_spec i (lead args)); [|lia].
    pose proof (lead_le args). destruct (nth_error args i) as [a|] eqn:E; [discriminate|]. apply nth_error_None in E. lia.
  - congruence.
Qed.
Lemma slot_given i : (i < length ps)%nat -> (nth i slots None <> None <-> exists j, gives ps args i j).
Proof.
  intros H. split.
  - destruct (nth i slots None) as [e|] eqn:E; [|easy]. intros _. apply (inv_slot _ _ _ _ named_inv) in E as (j & a & _ & G & _); auto. now exists j.
  - intros (j & G). pose proof G as (p & a & _ & A & _).
    assert (E : nth i slots None = Some (snd a)).
    { apply (inv_slot _ _ _ _ named_inv); auto. exists j, a. repeat split; auto. apply (gives_lt _ _ _ _ G). }
    congruence.
Qed.
Lemma named_filled : Nat.max (last_filled slots) (lead args) = last_filled slots /\ (last_filled slots <= length ps)%nat.
Proof.
  pose proof named_lead as NL. pose proof (inv_len _ _ _ _ named_inv) as LEN.
  assert (B : (last_filled slots <= length ps)%nat).
  { destruct (last_filled slots) as [|n] eqn:E; [lia|]. destruct (proj1 (last_filled_spec slots n) ltac:(lia)) as (k & e & L & K).
    destruct (Nat.lt_ge_cases k (length slots)) as [|G]; [lia|]. rewrite nth_overflow in K by auto. discriminate. }
  split; auto. destruct (Nat.eq_dec (lead args) 0) as [E|E]; [lia|]. set (n := pred (lead args)) in *.
  enough ((n < last_filled slots)%nat) by (unfold n in *; lia). apply last_filled_spec.
  destruct (nth n slots None) as [e|] eqn:S; [exists n, e; auto|]. exfalso.
  apply (slot_given n ltac:(unfold n; lia)); auto. exists n. apply lead_gives; unfold n; lia.
Qed.
Lemma named_reached i : reached ps args i <-> (i < last_filled slots)%nat.
Proof.
  rewrite last_filled_spec. split.
  - intros (i' & j & L & G). exists i'. pose proof (proj1 (gives_lt _ _ _ _ G)) as B.
    destruct (nth i' slots None) as [e|] eqn:E; [exists e; auto|]. exfalso. apply (slot_given i' B); eauto.
  - intros (k & e & L & K). destruct (Nat.lt_ge_cases k (length ps)) as [B|B].
    + destruct (proj1 (slot_given k B)) as (j & G); [congruence|]. now exists k, j.
    + rewrite nth_overflow in K by (rewrite (inv_len _ _ _ _ named_inv); auto). discriminate.
Qed.
Lemma named_placed : placed ps args.
Proof.
  repeat split.
  - now apply ordered_iff.
  - intros j H. destruct (Nat.lt_ge_cases j (lead args)) as [L|L].
    + exists j. apply lead_gives; auto. pose proof named_lead. lia.
    + apply (inv_par _ _ _ _ named_inv). auto.
  - intros i j k G1 G2. apply (inv_once _ _ _ _ named_inv i); auto; [apply (gives_lt _ _ _ _ G1)|apply (gives_lt _ _ _ _ G2)].
Qed.
Lemma named_check : check ps args = count ps (firstn (last_filled slots) (gaps ps slots)).
Proof.
  unfold check. rewrite AN, O, PL. destruct named_filled as [-> B]. cbv zeta.
  destruct (Nat.ltb_spec (length ps) (last_filled slots)); [lia|reflexivity].
Qed.
Lemma final_nth i p : (i < last_filled slots)%nat -> nth_error ps i = Some p ->
  nth_error (firstn (last_filled slots) (gaps ps slots)) i = Some (match nth i slots None with Some e => Some e | None => p_default p end).
Proof. intros L P. rewrite nth_firstn by auto. apply gaps_nth; auto. apply (inv_len _ _ _ _ named_inv). Qed.
Lemma final_length : length (firstn (last_filled slots) (gaps ps slots)) = last_filled slots.
Proof. rewrite firstn_length, gaps_length by apply (inv_len _ _ _ _ named_inv). destruct named_filled. lia. Qed.
Lemma named_slots es : check ps args = Accept es -> in_slots ps args es.
Proof.
  rewrite named_check. intros E. apply count_accept in E as [L E].
  assert (LE : length es = last_filled slots). { rewrite <- final_length, E. now rewrite map_length. }
  rewrite final_length in L. split; [lia|]. split; [intros i; rewrite LE; apply named_reached|].
  intros i e H. assert (I : (i < length es)%nat) by (apply nth_error_Some; congruence).
  destruct (nth_error ps i) as [p|] eqn:P; [|apply nth_error_None in P; lia].
  pose proof (final_nth i p ltac:(lia) P) as F. rewrite E, nth_error_map, H in F. cbn in F. injection F as F.
  split.
  - intros j a G A. assert (S : nth i slots None = Some (snd a)).
    { apply (inv_slot _ _ _ _ named_inv); [apply nth_error_Some; congruence|]. exists j, a. repeat split; auto. apply (gives_lt _ _ _ _ G). }
    rewrite S in F. congruence.
  - intros NG. exists p. split; auto. destruct (nth i slots None) as [x|] eqn:S; [|congruence]. exfalso.
    destruct (proj1 (slot_given i ltac:(apply nth_error_Some; congruence)) ltac:(congruence)) as (j & G). now apply (NG j).
Qed.
Lemma named_lawful : (exists es, check ps args = Accept es) <-> lawful ps args.
Proof.
  rewrite lawful_placed. rewrite named_check. split.
  - intros (es & E). split; [apply named_placed|]. apply count_accept in E as [L E]. rewrite final_length in L.
    intros i p P N. assert (I : (i < last_filled slots)%nat) by (pose proof (proj1 (min_iff ps i p D P) N); lia).
    pose proof (final_nth i p I P) as F. rewrite E, nth_error_map, N in F. apply slot_given; [apply nth_error_Some; congruence|].
    destruct (nth i slots None) eqn:NS; [discriminate|]. exfalso. destruct (nth_error es i); discriminate.
  - intros [_ R]. destruct (whole_exists (firstn (last_filled slots) (gaps ps slots))) as (es & W).
    + intros i H. assert (I : (i < last_filled slots)%nat) by (rewrite <- final_length; apply nth_error_Some; congruence).
      destruct named_filled as [_ B]. destruct (nth_error ps i) as [p|] eqn:P; [|apply nth_error_None in P; lia].
      rewrite (final_nth i p I P) in H. destruct (nth i slots None) eqn:NS; [discriminate|]. injection H as H.
      apply (slot_given i ltac:(lia)); auto. apply (R i p P H).
    + exists es. apply count_accept. rewrite final_length. apply whole_some in W. destruct named_filled as [_ B]. repeat split; auto.
      destruct (min_args ps) as [|n] eqn:M; [lia|]. pose proof (min_le ps).
      destruct (nth_error ps n) as [p|] eqn:P; [|apply nth_error_None in P; lia].
      destruct (R n p P) as (j & G); [apply (min_iff ps n p D P); lia|]. assert (reached ps args n) by (exists n, j; auto). now apply named_reached.
Qed.
Lemma named_crash : check ps args = Crash <-> exists i p, nth_error ps i = Some p /\ p_default p = None /\ (forall j, ~ gives ps args i j) /\ reached ps args i.
Proof.
  rewrite named_check, count_crash. destruct named_filled as [_ B]. split.
  - intros (i & I & H). assert (Ii : (i < last_filled slots)%nat) by (rewrite <- final_length; apply nth_error_Some; congruence).
    destruct (nth_error ps i) as [p|] eqn:P; [|apply nth_error_None in P; lia].
    rewrite (final_nth i p Ii P) in H. destruct (nth i slots None) eqn:NS; [discriminate|]. injection H as H.
    exists i, p. repeat split; auto; [|now apply named_reached]. intros j G. apply (slot_given i ltac:(lia)); eauto.
  - intros (i & p & P & N & NG & RE). apply named_reached in RE. exists i. split; [lia|]. rewrite (final_nth i p RE P).
    destruct (nth i slots None) as [x|] eqn:S; [|congruence]. exfalso.
    destruct (proj1 (slot_given i ltac:(lia)) ltac:(congruence)) as (j & G). now apply (NG j).
Qed.
End Named.

Section Plain.
Context (ps : list param) (args : list arg) (AN : any_named args = false).
Lemma plain_gives i j : gives ps args i j <-> i = j /\ (i < length ps)%nat /\ (i < length args)%nat.
Proof.
  destruct (unnamed args AN) as [L _]. split.
  - intros G. pose proof (gives_lt _ _ _ _ G). split; [|].
    + apply (gives_lead ps args); auto. lia.
    + assert (i = j) by (apply (gives_lead ps args); auto; lia). lia.
  - intros (-> & A & B). apply lead_gives; auto. lia.
Qed.
Lemma plain_check : check ps args = count ps (map (fun a => Some (snd a)) args).
Proof. unfold check. now rewrite AN. Qed.
Lemma plain_accept es : check ps args = Accept es <-> (min_args ps <= length args <= length ps)%nat /\ es = map snd args.
Proof.
  rewrite plain_check, count_accept, map_length. split; intros [A B]; split; auto.
  - rewrite <- (map_map snd Some) in B. clear -B. revert es B; induction (map snd args) as [|x l IH]; intros [|e es] H; cbn in *; try discriminate; auto.
    injection H as -> H. f_equal. now apply IH.
  - subst es. now rewrite map_map.
Qed.
Lemma plain_slots es : check ps args = Accept es -> in_slots ps args es.
Proof.
  intros E. apply plain_accept in E as [L ->]. split; [rewrite map_length; lia|]. split.
  - intros i. rewrite map_length. split.
    + intros (i' & j & B & G). apply plain_gives in G. lia.
    + intros H. exists i, i. split; auto. apply plain_gives. lia.
  - intros i e H. rewrite nth_error_map in H. destruct (nth_error args i) as [a|] eqn:A; [|discriminate]. cbn in H. injection H as <-.
    split.
    + intros j b G B. apply plain_gives in G as [-> _]. congruence.
    + intros NG. exfalso. apply (NG i). apply plain_gives. assert ((i < length args)%nat) by (apply nth_error_Some; congruence). lia.
Qed.
Lemma plain_lawful (D : declared ps) : (exists es, check ps args = Accept es) <-> lawful ps args.
Proof.
  destruct (unnamed args AN) as [LA O]. split.
  - intros (es & E). apply plain_accept in E as [L _]. constructor.
    + now apply ordered_iff.
    + intros j H. exists j. apply plain_gives. lia.
    + intros i j k G1 G2. apply plain_gives in G1, G2. lia.
    + intros i p P N. apply (min_iff ps i p D P) in N. exists i. apply plain_gives. lia.
  - intros L. exists (map snd args). apply plain_accept. split; auto. pose proof (min_le ps). split.
    + destruct (min_args ps) as [|n] eqn:M; [lia|]. destruct (nth_error ps n) as [p|] eqn:P; [|apply nth_error_None in P; lia].
      destruct (required_given _ _ L n p P) as (j & G); [apply (min_iff ps n p D P); lia|]. apply plain_gives in G. lia.
    + destruct (Nat.le_gt_cases (length args) (length ps)) as [|G]; auto.
      destruct (has_parameter _ _ L (length ps) G) as (i & GI). apply plain_gives in GI. lia.
Qed.
Lemma plain_nocrash : check ps args <> Crash.
Proof.
  rewrite plain_check, count_crash. intros (i & _ & H). rewrite nth_error_map in H. destruct (nth_error args i); discriminate.
Qed.
End Plain.

Lemma place_code ps args c : declared ps -> ordered false args = true -> place ps (start ps args) (skipn (lead args) args) = inl c ->
  (c = 5031 /\ exists j n e, nth_error args j = Some (Some n, e) /\ forall i, ~ gives ps args i j) \/
  (c = 5032 /\ exists i j k, (j < k)%nat /\ gives ps args i j /\ gives ps args i k).
Proof.
  intros D O PL. pose proof (place_inv ps args (proj1 D) _ (proj1 (ordered_lead args) O) (lead args) (start ps args) (le_n _) eq_refl (lead_le args) (start_inv ps args)) as H.
  now rewrite PL in H.
Qed.
Lemma check_slots ps args es : declared ps -> check ps args = Accept es -> in_slots ps args es.
Proof.
  intros D E. destruct (any_named args) eqn:AN; [|now apply plain_slots].
  pose proof E as E'. unfold check in E'. rewrite AN in E'. destruct (ordered false args) eqn:O; [|discriminate].
  destruct (place ps (start ps args) (skipn (lead args) args)) as [c|slots] eqn:PL; [discriminate|].
  now apply (named_slots ps args D AN O slots PL).
Qed.
Lemma check_lawful ps args : declared ps -> (exists es, check ps args = Accept es) <-> lawful ps args.
Proof.
  intros D. destruct (any_named args) eqn:AN; [|now apply plain_lawful].
  destruct (ordered false args) eqn:O.
  - destruct (place ps (start ps args) (skipn (lead args) args)) as [c|slots] eqn:PL.
    + split; [intros (es & E); unfold check in E; rewrite AN, O, PL in E; discriminate|]. intros [_ B C _]. exfalso.
      destruct (place_code ps args c D O PL) as [(_ & k & n & e & A & NG)|(_ & i & k & m & L & G1 & G2)].
      * destruct (B k) as (i & G); [apply nth_error_Some; congruence|]. now apply (NG i).
      * pose proof (C _ _ _ G1 G2). lia.
    + now apply (named_lawful ps args D AN O slots PL).
  - split.
    + intros (es & E). unfold check in E. rewrite AN, O in E. discriminate.
    + intros L. exfalso. assert (ordered false args = true) by (apply ordered_iff; exact (positional_first _ _ L)). congruence.
Qed.
Lemma check_overread ps args : declared ps -> check ps args <> Overread.
Proof.
  intros D. destruct (any_named args) eqn:AN; [|rewrite plain_check by auto; apply count_not].
  destruct (ordered false args) eqn:O; [|unfold check; rewrite AN, O; discriminate].
  destruct (place ps (start ps args) (skipn (lead args) args)) as [c|slots] eqn:PL; [unfold check; rewrite AN, O, PL; discriminate|].
  rewrite (named_check ps args D AN O slots PL). apply count_not.
Qed.
Lemma check_crash ps args : declared ps ->
  (check ps args = Crash <-> placed ps args /\ exists i p, nth_error ps i = Some p /\ p_default p = None /\ (forall j, ~ gives ps args i j) /\ reached ps args i).
Proof.
  intros D. destruct (any_named args) eqn:AN.
  - destruct (ordered false args) eqn:O.
    + destruct (place ps (start ps args) (skipn (lead args) args)) as [c|slots] eqn:PL.
      * split; [unfold check; rewrite AN, O, PL; discriminate|]. intros [(_ & B & C) _]. exfalso.
        destruct (place_code ps args c D O PL) as [(_ & k & n & e & A & NG)|(_ & i & k & m & L & G1 & G2)].
        -- destruct (B k) as (i & G); [apply nth_error_Some; congruence|]. now apply (NG i).
        -- pose proof (C _ _ _ G1 G2). lia.
      * rewrite (named_crash ps args D AN O slots PL). split; [|tauto]. intros H. split; auto. now apply (named_placed ps args D AN O slots PL).
    + split; [unfold check; rewrite AN, O; discriminate|]. intros [(F & _) _]. apply ordered_iff in F. congruence.
  - split; [intros E; now apply plain_nocrash in E|]. intros [_ (i & p & P & N & NG & (i' & j & L & G))]. exfalso.
    apply plain_gives in G as (-> & A & B); auto. apply (NG i). apply plain_gives; auto. lia.
Qed.
Lemma count_reject ps slots c : count ps slots = Reject c -> c = 5008 /\ ((length slots < min_args ps)%nat \/ (length ps < length slots)%nat).
Proof.
  unfold count. destruct (whole _); [|discriminate].
  destruct (Nat.ltb_spec (length slots) (min_args ps)); cbn [orb]; [intros [= <-]; auto|].
  destruct (Nat.ltb_spec (length ps) (length slots)); [intros [= <-]; auto|discriminate].
Qed.
Lemma check_code ps args c : declared ps -> check ps args = Reject c ->
  (c = 5033 /\ ~ first_rule args) \/
  (c = 5031 /\ exists j n e, nth_error args j = Some (Some n, e) /\ forall i, ~ gives ps args i j) \/
  (c = 5032 /\ exists i j k, (j < k)%nat /\ gives ps args i j /\ gives ps args i k) \/
  (c = 5008 /\ ((exists i p, nth_error ps i = Some p /\ p_default p = None /\ forall j, ~ gives ps args i j) \/
                exists j, (j < length args)%nat /\ forall i, ~ gives ps args i j)).
Proof.
  intros D E. assert (LAST : forall m, (m < min_args ps)%nat -> exists p, nth_error ps m = Some p /\ p_default p = None).
  { intros m M. pose proof (min_le ps). destruct (nth_error ps m) as [p|] eqn:P; [|apply nth_error_None in P; lia]. exists p. split; auto. now apply (min_iff ps m p D P). }
  destruct (any_named args) eqn:AN.
  - destruct (ordered false args) eqn:O.
    + destruct (place ps (start ps args) (skipn (lead args) args)) as [x|slots] eqn:PL.
      * unfold check in E. rewrite AN, O, PL in E. injection E as <-. destruct (place_code ps args x D O PL); auto.
      * rewrite (named_check ps args D AN O slots PL) in E. apply count_reject in E as [-> H]. do 3 right. split; auto.
        rewrite (final_length ps args D AN O slots PL) in H. pose proof (proj2 (named_filled ps args D AN O slots PL)).
        left. destruct (LAST (last_filled slots)) as (p & P & N); [lia|]. exists (last_filled slots), p. repeat split; auto.
        intros j G. assert (R : reached ps args (last_filled slots)) by (exists (last_filled slots), j; auto).
        apply (named_reached ps args D O slots PL) in R. lia.
    + unfold check in E. rewrite AN, O in E. injection E as <-. left. split; auto. intros F. apply ordered_iff in F. congruence.
  - rewrite plain_check in E by auto. apply count_reject in E as [-> H]. rewrite map_length in H. do 3 right. split; auto. destruct H as [H|H].
    + left. destruct (LAST (length args) H) as (p & P & N). exists (length args), p. repeat split; auto. intros j G. apply plain_gives in G; auto. lia.
    + right. exists (length ps). split; auto. intros i G. apply plain_gives in G; auto. lia.
Qed.
