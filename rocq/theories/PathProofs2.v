(** Lemmas for PathProps: locations, join, dirname, basename. *)
From Verif Require Import Base BaseFacts SemverSpec SemverModel SemverProofs InstallSpec InstallModel InstallProofs InstallProofs2 ServerModel ServerProofs ServerProofs2 PathSpec PathModel PathProofs.

Lemma head_slash {A} (s : bytes) (x y : A) : match s with 47 :: _ => x | _ => y end = if is_absolute s then x else y.
Proof.
  destruct s as [|c s]; [reflexivity|]. unfold is_absolute. destruct (Z.eqb_spec c 47) as [->|N]; [reflexivity|].
  destruct c as [|c|c]; try reflexivity. repeat (destruct c as [c|c|]; try reflexivity). now elim N.
Qed.
Lemma seen_eq place p : seen_from place p = if is_absolute (slashes p) then walk [] (pieces p) else walk place (pieces p).
Proof. unfold seen_from. rewrite head_slash. unfold pieces. fold full. now rewrite !(walk_full (parts (slashes p))). Qed.
Lemma location_seen cwd p : location cwd p = seen_from (walk [] (parts cwd)) p.
Proof.
  unfold location, seen_from. unfold resolve. destruct (slashes p); reflexivity.
Qed.
Lemma location_eq cwd p : location cwd p = if is_absolute (slashes p) then walk [] (parts (slashes p)) else walk (walk [] (parts cwd)) (parts (slashes p)).
Proof. rewrite location_seen. unfold seen_from. apply head_slash. Qed.

(** A deep working directory *)
Definition deep (c : Z) (m n : nat) : list bytes := List.repeat (List.repeat c (S m)) n.
Definition deep_dir (c : Z) (m n : nat) : bytes := 47 :: join 47 (deep c m n).
Lemma deep_walk c m n : c <> 46 -> c <> 47 -> walk [] (parts (deep_dir c m n)) = deep c m n.
Proof.
  intros A B. assert (P : Forall plain (deep c m n)).
  { apply Forall_forall. intros x I. apply repeat_spec in I. subst x. cbn [List.repeat]. repeat split; [discriminate| |]; intros K; apply (f_equal (hd 0)) in K; cbn in K; congruence. }
  unfold deep_dir. change (47 :: join 47 (deep c m n)) with ([] ++ 47 :: join 47 (deep c m n)). rewrite parts_app. change (parts []) with [@nil Z]. cbn [app]. rewrite walk_cons. change (go [] []) with (@nil bytes).
  destruct (deep c m n) as [|x l] eqn:E; [reflexivity|]. rewrite parts_stack; [now rewrite walk_plain| |easy]. intros y I. rewrite <- E in I. apply repeat_spec in I. subst y. intros K. apply repeat_spec in K. congruence.
Qed.
Lemma in_size x l : In x l -> (length x < size l)%nat.
Proof. induction l as [|y l IH]; intros []; cbn [size fold_right]; fold (size l); [subst; lia|]. apply IH in H. lia. Qed.
Lemma deep_fresh c m n l x : In x (deep c m n) -> (size l <= m)%nat -> ~ In x l.
Proof. intros I L K. apply repeat_spec in I. apply in_size in K. rewrite I, repeat_length in K. lia. Qed.
Definition place (ab : bool) (k : nat) (names : list bytes) (cwd : bytes) : list bytes := if ab then names else walk (walk [] (parts cwd)) (ups k ++ names).
Lemma firstn_deep c m n k : firstn k (deep c m n) = deep c m (Nat.min k n).
Proof. unfold deep. revert k. induction n as [|n IH]; intros [|k]; try reflexivity. cbn [List.repeat firstn Nat.min]. now rewrite IH. Qed.
Lemma deep_length c m n : length (deep c m n) = n.
Proof. apply repeat_length. Qed.
Lemma place_deep k names m n : Forall name names -> place false k names (deep_dir 97 m n) = deep 97 m (n - k) ++ names.
Proof.
  intros F. unfold place. rewrite deep_walk by lia. rewrite walk_stack by exact F. rewrite firstn_deep, deep_length. do 2 f_equal. lia.
Qed.
Lemma place_rel_lt k1 n1 k2 n2 : Forall name n1 -> Forall name n2 -> (k1 < k2)%nat -> (forall cwd, place false k1 n1 cwd = place false k2 n2 cwd) -> False.
Proof.
  intros F1 F2 L H. specialize (H (deep_dir 97 (size n2) k2)). rewrite !place_deep in H by assumption. replace (k2 - k2)%nat with 0%nat in H by lia. cbn [app] in H.
  replace (k2 - k1)%nat with (S (k2 - k1 - 1)) in H by lia. apply (deep_fresh 97 (size n2) 1 n2 (List.repeat 97 (S (size n2)))); [now left|lia|].
  assert (Q : n2 = deep 97 (size n2) (S (k2 - k1 - 1)) ++ n1) by (symmetry; exact H). rewrite Q at 2. apply in_or_app. left. now left.
Qed.
Lemma place_abs_rel n1 k2 n2 : Forall name n2 -> (forall cwd, n1 = place false k2 n2 cwd) -> False.
Proof.
  intros F2 H. specialize (H (deep_dir 97 (size n1) (S k2))). rewrite place_deep in H by assumption. replace (S k2 - k2)%nat with 1%nat in H by lia.
  apply (deep_fresh 97 (size n1) 1 n1 (List.repeat 97 (S (size n1)))); [now left|lia|]. rewrite H at 2. apply in_or_app. left. now left.
Qed.
Lemma place_unique a1 k1 n1 a2 k2 n2 : Forall name n1 -> Forall name n2 -> (a1 = true -> k1 = 0%nat) -> (a2 = true -> k2 = 0%nat) ->
  (forall cwd, place a1 k1 n1 cwd = place a2 k2 n2 cwd) -> a1 = a2 /\ k1 = k2 /\ n1 = n2.
Proof.
  intros F1 F2 K1 K2 H. destruct a1, a2.
  - split; [reflexivity|]. rewrite K1, K2 by reflexivity. split; [reflexivity|]. exact (H []).
  - elim (place_abs_rel n1 k2 n2 F2 H).
  - elim (place_abs_rel n2 k1 n1 F1). intros cwd. symmetry. apply H.
  - split; [reflexivity|]. assert (E : k1 = k2).
    { destruct (Nat.lt_trichotomy k1 k2) as [L|[L|L]]; [|exact L|]; exfalso; [eapply (place_rel_lt k1 n1 k2 n2); eauto|eapply (place_rel_lt k2 n2 k1 n1); eauto; intros; symmetry; apply H]. }
    split; [exact E|]. subst k2. pose proof (H (deep_dir 97 0 0)) as Q. now rewrite !place_deep in Q by assumption.
Qed.
Lemma location_place p k names cwd :
  (if is_absolute (slashes p) then names = walk [] (parts (slashes p)) else forall start, walk start (ups k ++ names) = walk start (parts (slashes p))) ->
  location cwd p = place (is_absolute (slashes p)) k names cwd.
Proof. intros H. rewrite location_eq. unfold place. destruct (is_absolute (slashes p)); [now rewrite H|now rewrite H]. Qed.
Lemma text_place ab k names cwd : Forall name names -> (ab = true -> k = 0%nat) -> (k + length names <= 256)%nat -> location cwd (text_of ab k names) = place ab k names cwd.
Proof.
  intros F K L. destruct (text_facts ab k names F K L) as (_ & S & A & _ & W). rewrite location_eq, S, A, !W. unfold place. destruct ab; [|reflexivity]. rewrite walk_plain by now apply names_plain. reflexivity.
Qed.

(** Separators and pieces *)
Lemma sep_iff c : sep c = true <-> separator c.
Proof. unfold sep, separator. lia. Qed.
Lemma slashes_app a b : slashes (a ++ b) = slashes a ++ slashes b.
Proof. apply map_app. Qed.
Lemma slashes_sep c : sep c = true -> slashes [c] = [47].
Proof. unfold sep. cbn. intros H. destruct (Z.eqb_spec c 92); [reflexivity|]. f_equal. lia. Qed.
Lemma pieces_sep a c b : sep c = true -> pieces (a ++ c :: b) = pieces a ++ pieces b.
Proof.
  intros H. unfold pieces. change (a ++ c :: b) with (a ++ [c] ++ b). rewrite !slashes_app, (slashes_sep c H). cbn [app]. rewrite parts_app. apply filter_app.
Qed.
Lemma pieces_snoc a c : sep c = true -> pieces (a ++ [c]) = pieces a.
Proof. intros H. rewrite pieces_sep by exact H. change (pieces []) with (@nil bytes). apply app_nil_r. Qed.
Lemma pieces_seps s : (forall c, In c s -> sep c = true) -> forall a, pieces (a ++ s) = pieces a.
Proof.
  induction s as [|c s IH]; intros H a; [now rewrite app_nil_r|]. rewrite pieces_sep by (apply H; now left).
  replace (pieces s) with (pieces ([] ++ s)) by reflexivity. rewrite IH by (intros; apply H; now right). change (pieces []) with (@nil bytes). apply app_nil_r.
Qed.
Definition no_sep (b : bytes) : Prop := forall c, In c b -> sep c = false.
Lemma absolute_app a b : a <> [] -> is_absolute (slashes (a ++ b)) = is_absolute (slashes a).
Proof. destruct a; [easy|reflexivity]. Qed.
Lemma absolute_head c s : is_absolute (slashes (c :: s)) = sep c.
Proof. unfold is_absolute, sep. cbn [slashes map]. destruct (Z.eqb_spec c 92) as [->|N]; [reflexivity|]. rewrite orb_false_r. reflexivity. Qed.

Lemma strip_all_app r b c x : (forall d, In d r -> sep d = true) -> sep c = false -> b = c :: x -> strip_all (r ++ b) = b.
Proof. intros H N ->. induction r as [|d r IH]; cbn [app strip_all]; [now rewrite N|]. rewrite H by now left. apply IH. intros; apply H; now right. Qed.
Lemma strip_keep_app r b c x : (forall d, In d r -> sep d = true) -> sep c = false -> b = c :: x -> strip_keep (r ++ b) = b.
Proof.
  intros H N ->. induction r as [|d r IH]; [cbn [app strip_keep]; destruct x; [reflexivity|now rewrite N]|].
  assert (E : strip_keep ((d :: r) ++ c :: x) = strip_keep (r ++ c :: x)).
  { cbn [app strip_keep]. rewrite H by now left. destruct (r ++ c :: x) eqn:E; [destruct r; discriminate|reflexivity]. }
  rewrite E. apply IH. intros; apply H; now right.
Qed.
Lemma last_name_app n d : no_sep n -> (d = [] \/ exists c q, d = c :: q /\ sep c = true) -> last_name (n ++ d) = (n, d).
Proof.
  intros N D. induction n as [|c n IH].
  - cbn [app]. destruct D as [->|(c & q & -> & H)]; [reflexivity|]. cbn [last_name]. now rewrite H.
  - cbn [app last_name]. rewrite (N c) by now left. rewrite IH by (intros x I; apply N; now right). reflexivity.
Qed.
Lemma last_name_spec r : exists n d, r = n ++ d /\ last_name r = (n, d) /\ no_sep n /\ (d = [] \/ exists c q, d = c :: q /\ sep c = true).
Proof.
  induction r as [|c r (n & d & E & L & N & D)]; [exists [], []; repeat split; auto; intros c []|]. cbn [last_name]. destruct (sep c) eqn:S.
  - exists [], (c :: r). repeat split; [intros x []|]. right. eauto.
  - exists (c :: n), d. rewrite L, E. repeat split; auto. intros x [<-|I]; [exact S|now apply N].
Qed.
(** Every path: only separators, or a directory part, a last name and trailing separators *)
Inductive shape : bytes -> Prop :=
| only_seps p : p <> [] -> (forall c, In c p -> sep c = true) -> shape p
| with_name q b s : b <> [] -> no_sep b -> (q = [] \/ exists q' c, q = q' ++ [c] /\ sep c = true) -> (forall c, In c s -> sep c = true) -> shape (q ++ b ++ s).
Lemma shape_of p : p <> [] -> shape p.
Proof.
  intros NE. assert (H : exists s r, rev p = s ++ r /\ (forall c, In c s -> sep c = true) /\ (r = [] \/ exists c x, r = c :: x /\ sep c = false)).
  { generalize (rev p). intros l. induction l as [|c l (s & r & E & S & R)]; [exists [], []; repeat split; auto; intros c []|]. destruct (sep c) eqn:SC.
    - exists (c :: s), r. rewrite E. repeat split; auto. intros x [<-|I]; auto.
    - exists [], (c :: l). repeat split; [intros x []|]. right; eauto. }
  destruct H as (s & r & E & S & R). assert (EP : p = rev r ++ rev s) by (rewrite <- (rev_involutive p), E, rev_app_distr; reflexivity). destruct R as [->|(c & x & -> & NC)].
  - apply only_seps; [exact NE|]. rewrite EP. cbn [rev app]. intros c I. apply S. now apply in_rev.
  - destruct (last_name_spec (c :: x)) as (n & d & E1 & _ & N & D). rewrite E1 in EP. rewrite rev_app_distr, <- app_assoc in EP. rewrite EP. apply with_name.
    + destruct n as [|y n]; [|cbn [rev]; now destruct (rev n)]. destruct D as [->|(c' & q & -> & SC)]; [discriminate|]. cbn [app] in E1. congruence.
    + intros y I. apply N. now apply in_rev.
    + destruct D as [->|(c' & q & -> & SC)]; [now left|right; exists (rev q), c'; now split].
    + intros y I. apply S. now apply in_rev.
Qed.
Lemma dir_base q b s : b <> [] -> no_sep b -> (q = [] \/ exists q' c, q = q' ++ [c] /\ sep c = true) -> (forall c, In c s -> sep c = true) ->
  dirname (q ++ b ++ s) = match q with [] => bs "." | [_] => bs "/" | _ => removelast q end /\ basename (q ++ b ++ s) = b.
Proof.
  intros NB N Q S. assert (NE : q ++ b ++ s <> []) by (intros K; apply app_eq_nil in K as (_ & K); apply app_eq_nil in K as (K & _); easy).
  assert (R : rev (q ++ b ++ s) = rev s ++ rev b ++ rev q) by now rewrite !rev_app_distr, app_assoc.
  destruct (rev_ind_len b) as [->|(c & b' & EB)]; [easy|]. assert (RB : rev b ++ rev q = c :: rev b' ++ rev q) by (rewrite EB, rev_app_distr; reflexivity).
  assert (SC : sep c = false) by (apply N; rewrite EB; apply in_or_app; right; now left).
  assert (LN : last_name (rev b ++ rev q) = (rev b, rev q)).
  { apply last_name_app; [intros x I; apply N; now apply in_rev|]. destruct Q as [->|(q' & d & -> & SD)]; [now left|right]. rewrite rev_app_distr. cbn [rev app]. eauto. }
  assert (SR : forall d, In d (rev s) -> sep d = true) by (intros d I; apply S; now apply in_rev).
  unfold dirname, basename. destruct (q ++ b ++ s) as [|e r] eqn:EE; [easy|]. rewrite R, (strip_keep_app _ _ c _ SR SC RB), (strip_all_app _ _ c _ SR SC RB), LN. cbn [fst snd]. split; [|rewrite RB; cbv iota; rewrite <- RB, LN; apply rev_involutive].
  destruct Q as [->|(q' & d & -> & SD)]; [reflexivity|]. rewrite rev_app_distr. cbn [rev app]. destruct q' as [|y q'] using rev_ind; [reflexivity|]. rewrite rev_app_distr. cbn [rev app]. clear IHq'.
  assert (RL : removelast ((q' ++ [y]) ++ [d]) = q' ++ [y]) by apply removelast_last. rewrite rev_involutive. destruct q' as [|z q']; [reflexivity|]. cbn [app] in RL |- *. destruct (q' ++ [y]) eqn:EZ; [destruct q'; discriminate|]. cbn [app] in RL |- *. symmetry. exact RL.
Qed.
