(** Proofs about the version model: order, parsing. *)
From Verif Require Import Base BaseFacts Decimal DecimalFacts SemverSpec SemverModel.

(** ** Orders *)
Record order {A} (c : A -> A -> comparison) : Prop := Order {
  o_eq : forall x y, c x y = Eq <-> x = y;
  o_opp : forall x y, c y x = CompOpp (c x y);
  o_trans : forall x y z, c x y = Lt -> c y z = Lt -> c x z = Lt }.
Lemma Z_order : order Z.compare.
Proof.
  constructor; [apply Z.compare_eq_iff|intros; apply Z.compare_antisym|].
  intros x y z. rewrite !Z.compare_lt_iff. lia.
Qed.
Lemma bytes_order : order cmp_bytes.
Proof.
  constructor.
  - induction x as [|a x IH]; intros [|b y]; cbn; try (split; easy). destruct (a ?= b) eqn:E.
    + apply Z.compare_eq_iff in E. subst. rewrite IH. split; congruence.
    + split; [easy|]. intros [= -> ->]. rewrite Z.compare_refl in E. easy.
    + split; [easy|]. intros [= -> ->]. rewrite Z.compare_refl in E. easy.
  - induction x as [|a x IH]; intros [|b y]; cbn; try easy. rewrite Z.compare_antisym. destruct (a ?= b); cbn; auto.
  - induction x as [|a x IH]; intros [|b y] [|d z]; cbn; try easy.
    destruct (a ?= b) eqn:E1; [| |easy]; destruct (b ?= d) eqn:E2; try easy; intros H1 H2.
    + apply Z.compare_eq_iff in E1. subst. rewrite E2. eauto.
    + apply Z.compare_eq_iff in E1. subst. now rewrite E2.
    + apply Z.compare_eq_iff in E2. subst. now rewrite E1.
    + replace (a ?= d) with Lt; [reflexivity|]. symmetry. apply Z.compare_lt_iff. rewrite Z.compare_lt_iff in E1, E2. lia.
Qed.
Lemma ident_order : order cmp_ident.
Proof.
  constructor.
  - intros [x|x] [y|y]; cbn; try easy; [rewrite Z.compare_eq_iff|rewrite (o_eq _ bytes_order)]; split; congruence.
  - intros [x|x] [y|y]; cbn; try easy; [apply Z.compare_antisym|apply (o_opp _ bytes_order)].
  - intros [x|x] [y|y] [z|z]; cbn; try easy; [apply (o_trans _ Z_order)|apply (o_trans _ bytes_order)].
Qed.
Lemma idents_order : order cmp_idents.
Proof.
  pose proof ident_order as O. constructor.
  - induction x as [|a x IH]; intros [|b y]; cbn; try (split; easy). destruct (cmp_ident a b) eqn:E.
    + apply (o_eq _ O) in E. subst. rewrite IH. split; congruence.
    + split; [easy|]. intros [= -> ->]. rewrite (proj2 (o_eq _ O b b) eq_refl) in E. easy.
    + split; [easy|]. intros [= -> ->]. rewrite (proj2 (o_eq _ O b b) eq_refl) in E. easy.
  - induction x as [|a x IH]; intros [|b y]; cbn; try easy. rewrite (o_opp _ O a b). destruct (cmp_ident a b); cbn; auto.
  - induction x as [|a x IH]; intros [|b y] [|d z]; cbn; try easy.
    destruct (cmp_ident a b) eqn:E1; [| |easy]; destruct (cmp_ident b d) eqn:E2; try easy; intros H1 H2.
    + apply (o_eq _ O) in E1. subst. rewrite E2. eauto.
    + apply (o_eq _ O) in E1. subst. now rewrite E2.
    + apply (o_eq _ O) in E2. subst. now rewrite E1.
    + now rewrite (o_trans _ O _ _ _ E1 E2).
Qed.
Lemma precedence_order : order precedence.
Proof.
  pose proof idents_order as O. constructor.
  - intros [a b c p] [a' b' c' p']. unfold precedence. cbn [major minor patch pre].
    destruct (Z.compare_spec a a') as [->|H|H]; try (split; [easy|intros [= -> -> -> ->]; lia]).
    destruct (Z.compare_spec b b') as [->|H|H]; try (split; [easy|intros [= -> -> ->]; lia]).
    destruct (Z.compare_spec c c') as [->|H|H]; try (split; [easy|intros [= -> ->]; lia]).
    destruct p as [|x p], p' as [|x' p']; try (split; easy). rewrite (o_eq _ O). split; congruence.
  - intros [a b c p] [a' b' c' p']. unfold precedence. cbn [major minor patch pre]. rewrite (Z.compare_antisym a a').
    destruct (a ?= a'); try reflexivity. cbn [CompOpp]. rewrite (Z.compare_antisym b b'). destruct (b ?= b'); try reflexivity. cbn [CompOpp].
    rewrite (Z.compare_antisym c c'). destruct (c ?= c'); try reflexivity. cbn [CompOpp].
    destruct p as [|x p], p' as [|x' p']; try reflexivity. apply (o_opp _ O).
  - intros [a b c p] [a' b' c' p'] [a2 b2 c2 p2]. unfold precedence. cbn [major minor patch pre].
    destruct (Z.compare_spec a a') as [->|H|H]; [| |easy].
    2:{ destruct (Z.compare_spec a' a2) as [->|H2|H2]; [| |easy]; intros _ _; [rewrite (proj2 (Z.compare_lt_iff _ _) H)|rewrite (proj2 (Z.compare_lt_iff a a2)) by lia]; reflexivity. }
    destruct (Z.compare_spec a' a2) as [->|H2|H2]; [|easy|easy].
    destruct (Z.compare_spec b b') as [->|H|H]; [| |easy].
    2:{ destruct (Z.compare_spec b' b2) as [->|H2|H2]; [| |easy]; intros _ _; [rewrite (proj2 (Z.compare_lt_iff _ _) H)|rewrite (proj2 (Z.compare_lt_iff b b2)) by lia]; reflexivity. }
    destruct (Z.compare_spec b' b2) as [->|H2|H2]; [|easy|easy].
    destruct (Z.compare_spec c c') as [->|H|H]; [| |easy].
    2:{ destruct (Z.compare_spec c' c2) as [->|H2|H2]; [| |easy]; intros _ _; [rewrite (proj2 (Z.compare_lt_iff _ _) H)|rewrite (proj2 (Z.compare_lt_iff c c2)) by lia]; reflexivity. }
    destruct (Z.compare_spec c' c2) as [->|H2|H2]; [|easy|easy].
    destruct p as [|x p], p' as [|x' p'], p2 as [|x2 p2]; try easy. apply (o_trans _ O).
Qed.
Definition sign (c : comparison) : Z := match c with Lt => -1 | Eq => 0 | Gt => 1 end.

(** ** The code computes precedence of what it parsed *)
Lemma beq_iff a b : beq a b = true <-> a = b.
Proof.
  revert b; induction a as [|x a IH]; intros [|y b]; cbn; try (split; easy). rewrite andb_true_iff, IH, Z.eqb_eq. split; [intros [-> ->]; reflexivity|intros [= -> ->]; auto].
Qed.
Lemma beq_refl a : beq a a = true.
Proof. now apply beq_iff. Qed.
Lemma beq_nil a : beq a [] = match a with [] => true | _ => false end.
Proof. now destruct a. Qed.
Definition to_ident (s : bytes) : ident := match numeric s with Some n => Num n | None => Word s end.
Definition abs (s : bytes) : version :=
  let '(M, n, p, pre) := parse_semver s in Ver M n p (match pre with [] => [] | _ => map to_ident (split_on 46 pre) end).
Lemma str_lt_cmp a b : a <> b -> cmp_bytes a b = if str_lt a b then Lt else Gt.
Proof.
  revert b; induction a as [|x a IH]; intros [|y b] N; cbn; try easy. destruct (x =? y) eqn:E.
  - apply Z.eqb_eq in E. subst. rewrite Z.compare_refl. apply IH. congruence.
  - destruct (Z.compare_spec x y), (x <? y) eqn:K; try reflexivity; lia.
Qed.
Lemma compare_one_spec a b : match compare_one a b with None => cmp_ident (to_ident a) (to_ident b) = Eq | Some r => r = sign (cmp_ident (to_ident a) (to_ident b)) /\ r <> 0 end.
Proof.
  unfold compare_one, to_ident. destruct (numeric a) as [x|], (numeric b) as [y|]; cbn; try (split; [reflexivity|easy]).
  - destruct (x =? y) eqn:E; [apply Z.eqb_eq in E; subst; apply Z.compare_refl|].
    destruct (x <? y) eqn:K; destruct (Z.compare_spec x y); cbn; lia.
  - destruct (beq a b) eqn:E; [apply beq_iff in E; subst; now apply (o_eq _ bytes_order)|].
    rewrite str_lt_cmp by (intros ->; rewrite beq_refl in E; easy). destruct (str_lt a b); cbn; lia.
Qed.
Lemma compare_pre_spec a : forall b, compare_pre a b = sign (cmp_idents (map to_ident a) (map to_ident b)).
Proof.
  induction a as [|x a IH]; intros [|y b]; cbn; try reflexivity. pose proof (compare_one_spec x y) as H. destruct (compare_one x y) as [r|].
  - destruct H as [-> H]. destruct (cmp_ident _ _); cbn in *; easy.
  - rewrite H. apply IH.
Qed.
Lemma split_nonempty c s : split_on c s <> [].
Proof. destruct s as [|x s]; cbn; [easy|]. destruct (x =? c); [easy|]. now destruct (split_on c s). Qed.
Theorem compare_is_precedence a b : compare_semver a b = sign (precedence (abs a) (abs b)).
Proof.
  unfold compare_semver, abs. destruct (parse_semver a) as [[[aM an] ap] apre], (parse_semver b) as [[[bM bn] bp] bpre].
  unfold precedence. cbn [major minor patch pre].
  destruct (Z.compare_spec aM bM) as [->|H|H]; [rewrite Z.eqb_refl|..]; cbn [negb].
  2,3: destruct (aM =? bM) eqn:E; [lia|]; cbn [negb]; destruct (aM <? bM) eqn:K; cbn; lia.
  destruct (Z.compare_spec an bn) as [->|H|H]; [rewrite Z.eqb_refl|..]; cbn [negb].
  2,3: destruct (an =? bn) eqn:E; [lia|]; cbn [negb]; destruct (an <? bn) eqn:K; cbn; lia.
  destruct (Z.compare_spec ap bp) as [->|H|H]; [rewrite Z.eqb_refl|..]; cbn [negb].
  2,3: destruct (ap =? bp) eqn:E; [lia|]; cbn [negb]; destruct (ap <? bp) eqn:K; cbn; lia.
  rewrite !beq_nil. destruct apre as [|x apre], bpre as [|y bpre]; cbn [andb].
  - reflexivity.
  - pose proof (split_nonempty 46 (y :: bpre)). destruct (split_on 46 (y :: bpre)); [easy|reflexivity].
  - pose proof (split_nonempty 46 (x :: apre)). destruct (split_on 46 (x :: apre)); [easy|reflexivity].
  - rewrite compare_pre_spec. pose proof (split_nonempty 46 (x :: apre)). pose proof (split_nonempty 46 (y :: bpre)).
    destruct (split_on 46 (x :: apre)); [easy|]. destruct (split_on 46 (y :: bpre)); [easy|]. reflexivity.
Qed.

(** ** Parsing *)
Lemma cut_none c s : ~ In c s -> cut c s = None.
Proof. induction s as [|x s IH]; cbn; intros H; [reflexivity|]. destruct (x =? c) eqn:E; [exfalso; apply H; left; lia|]. now rewrite IH by tauto. Qed.
Lemma cut_app c a b : ~ In c a -> cut c (a ++ c :: b) = Some (a, b).
Proof.
  induction a as [|x a IH]; cbn; intros H; [now rewrite Z.eqb_refl|]. destruct (x =? c) eqn:E; [exfalso; apply H; left; lia|]. now rewrite IH by tauto.
Qed.
Lemma split_none c s : ~ In c s -> split_on c s = [s].
Proof. induction s as [|x s IH]; cbn; intros H; [reflexivity|]. destruct (x =? c) eqn:E; [exfalso; apply H; left; lia|]. now rewrite IH by tauto. Qed.
Lemma split_app c a b : ~ In c a -> split_on c (a ++ c :: b) = a :: split_on c b.
Proof.
  induction a as [|x a IH]; cbn; intros H; [now rewrite Z.eqb_refl|]. destruct (x =? c) eqn:E; [exfalso; apply H; left; lia|]. now rewrite IH by tauto.
Qed.
Lemma split_join c l : l <> [] -> (forall x, In x l -> ~ In c x) -> split_on c (join c l) = l.
Proof.
  induction l as [|x l IH]; [easy|]. intros _ H. destruct l as [|y l].
  - cbn [join]. apply split_none, H. now left.
  - change (join c (x :: y :: l)) with (x ++ c :: join c (y :: l)). rewrite split_app by (apply H; now left). rewrite IH; [reflexivity|easy|].
    intros z Hz. apply H. now right.
Qed.
Lemma take_all p s : Forall (fun c => p c = true) s -> take p s = (s, []).
Proof. induction 1 as [|c s H F IH]; cbn; [reflexivity|]. now rewrite H, IH. Qed.
Lemma take_app p s r : Forall (fun c => p c = true) s -> match r with c :: _ => p c = false | [] => True end -> take p (s ++ r) = (s, r).
Proof.
  induction 1 as [|c s H F IH]; intros R; cbn.
  - destruct r as [|c r]; cbn; [reflexivity|]. now rewrite R.
  - now rewrite H, IH.
Qed.
Lemma take_spec p s : let (a, b) := take p s in s = a ++ b /\ Forall (fun c => p c = true) a /\ match b with c :: _ => p c = false | [] => True end.
Proof.
  induction s as [|c s IH]; cbn; [auto|]. destruct (p c) eqn:E; [|auto]. destruct (take p s) as [a b]. destruct IH as (-> & F & B). auto.
Qed.
Lemma digit_iff c : digit c = true <-> is_digit c.
Proof. unfold digit, is_digit. lia. Qed.
Lemma digits_all s : Forall is_digit s -> Forall (fun c => digit c = true) s.
Proof. apply Forall_impl. intros. now apply digit_iff. Qed.
Lemma skip_digit c s : is_digit c -> skip_space (c :: s) = Some (c :: s).
Proof.
  unfold is_digit. intros H. cbn [skip_space]. replace (c =? 10) with false by lia.
  replace (((9 <=? c) && (c <=? 13)) || (c =? 32)) with false by lia.
  destruct s as [|d s]; [reflexivity|]. replace (c =? 194) with false by lia. cbn [andb].
  destruct s as [|e s]; [reflexivity|]. replace (c =? 225) with false by lia. replace (c =? 226) with false by lia. replace (c =? 227) with false by lia. reflexivity.
Qed.
Lemma scan_dec n : 0 <= n <= INT64_MAX -> scan_int (dec n) = Some n.
Proof.
  intros H. pose proof (dec_digit n ltac:(lia)) as D. pose proof (dec_nonempty n ltac:(lia)) as N. pose proof (dec_val_dec n ltac:(lia)) as V.
  unfold scan_int. destruct (dec n) as [|c s]; [easy|]. inversion_clear D as [|? ? D1 D2].
  rewrite skip_digit by exact D1. unfold is_digit in D1. replace (c =? 45) with false by lia. replace (c =? 43) with false by lia.
  rewrite take_all by (apply digits_all; now constructor). rewrite V.
  replace ((INT64_MIN <=? n) && (n <=? INT64_MAX)) with true by (unfold INT64_MIN, INT64_MAX in *; lia). reflexivity.
Qed.
Lemma scan_or_0_dec n : 0 <= n <= INT64_MAX -> scan_or_0 (dec n) = n.
Proof. intros H. unfold scan_or_0. now rewrite scan_dec. Qed.
Lemma numeric_dec n : 0 <= n <= INT64_MAX -> numeric (dec n) = Some n.
Proof. intros H. unfold numeric. rewrite scan_dec by exact H. unfold dec_signed. replace (n <? 0) with false by lia. now rewrite beq_refl. Qed.
Lemma scan_range s n : scan_int s = Some n -> INT64_MIN <= n <= INT64_MAX.
Proof.
  unfold scan_int. destruct (skip_space s) as [r|]; [|easy]. destruct (match r with [] => _ | _ => _ end) as [neg r']. destruct (take digit r') as [ds q].
  destruct ds; [easy|]. destruct (_ && _) eqn:E; [|easy]. intros [= <-]. lia.
Qed.
Lemma numeric_some s n : numeric s = Some n -> s = dec_signed n /\ INT64_MIN <= n <= INT64_MAX.
Proof.
  unfold numeric. destruct (scan_int s) as [x|] eqn:E; [|easy]. destruct (beq (dec_signed x) s) eqn:K; [|easy]. intros [= <-].
  apply beq_iff in K. split; [now symmetry|]. now apply scan_range in E.
Qed.

(** trailers *)
Lemma hex_iff c : hex c = true <-> hex_char c.
Proof. unfold hex, digit, hex_char. lia. Qed.
Lemma trailer_spec s g : trailer s = Some g <->
  exists ds hs d, g = (ds, hs, d) /\ ds <> [] /\ hs <> [] /\ Forall is_digit ds /\ Forall hex_char hs /\
    s = [45] ++ ds ++ bs "-g" ++ hs ++ (if d then bs "-dirty" else []).
Proof.
  change (bs "-g") with [45; 103]. split.
  - destruct s as [|c s]; [easy|]. cbn [trailer]. destruct (c =? 45) eqn:C; [|easy]. apply Z.eqb_eq in C. subst c.
    pose proof (take_spec digit s) as T. destruct (take digit s) as [ds s1]. destruct T as (-> & F & _).
    destruct ds as [|d0 ds]; [easy|]. destruct s1 as [|c1 [|c2 s1]]; try easy. destruct ((c1 =? 45) && (c2 =? 103)) eqn:C; [|easy].
    assert (c1 = 45 /\ c2 = 103) as [-> ->] by lia. pose proof (take_spec hex s1) as T. destruct (take hex s1) as [hs s2]. destruct T as (-> & G & _).
    destruct hs as [|h0 hs]; [easy|].
    assert (FF : Forall is_digit (d0 :: ds)) by (revert F; apply Forall_impl; intros; now apply digit_iff).
    assert (GG : Forall hex_char (h0 :: hs)) by (revert G; apply Forall_impl; intros; now apply hex_iff).
    destruct (beq s2 []) eqn:B1; [|destruct (beq s2 (bs "-dirty")) eqn:B2; [|easy]]; intros [= <-].
    + apply beq_iff in B1. subst s2. exists (d0 :: ds), (h0 :: hs), false. repeat split; try easy; assumption.
    + apply beq_iff in B2. subst s2. exists (d0 :: ds), (h0 :: hs), true. repeat split; try easy; assumption.
  - intros (ds & hs & d & -> & N1 & N2 & F & G & ->). cbn [app trailer]. rewrite Z.eqb_refl.
    rewrite take_app; [|now apply digits_all|reflexivity]. destruct ds as [|d0 ds]; [easy|]. cbn [andb Z.eqb Pos.eqb].
    rewrite take_app; [|revert G; apply Forall_impl; intros; now apply hex_iff|destruct d; reflexivity].
    destruct hs as [|h0 hs]; [easy|]. destruct d; reflexivity.
Qed.
Lemma trailer_iff s : (exists g, trailer s = Some g) <-> describe_trailer s.
Proof.
  split.
  - intros (g & H). apply trailer_spec in H. destruct H as (ds & hs & d & _ & A & B & C & D & ->). exists ds, hs, (if d then bs "-dirty" else []).
    repeat split; try assumption. destruct d; auto.
  - intros (ds & hs & d & A & B & C & D & [-> | ->] & ->); [exists (ds, hs, false)|exists (ds, hs, true)]; apply trailer_spec; exists ds, hs; eexists; repeat split; try eassumption; try reflexivity.
Qed.
Lemma find_trailer_some s p g : find_trailer s = Some (p, g) -> exists t, s = p ++ t /\ trailer t = Some g.
Proof.
  revert p; induction s as [|c s IH]; intros p; cbn [find_trailer].
  - destruct (trailer []) eqn:E; [|easy]. intros [= <- <-]. exists []. auto.
  - destruct (trailer (c :: s)) eqn:E; [intros [= <- <-]; exists (c :: s); auto|]. destruct (find_trailer s) as [[p' g']|] eqn:K; [|easy].
    intros [= <- <-]. destruct (IH p' eq_refl) as (t & -> & H). exists t. auto.
Qed.
Lemma find_trailer_none s : find_trailer s = None <-> ~ ends_in_trailer s.
Proof.
  induction s as [|c s IH]; cbn [find_trailer].
  - destruct (trailer []) eqn:E; [easy|]. split; [|easy]. intros _ (p & t & T & H). symmetry in H. apply app_eq_nil in H. destruct H as [-> ->].
    apply trailer_iff in T. destruct T as (g & T). congruence.
  - destruct (trailer (c :: s)) eqn:E.
    + split; [easy|]. intros H. exfalso. apply H. exists [], (c :: s). split; [|reflexivity]. apply trailer_iff. eauto.
    + destruct (find_trailer s) as [[p g]|] eqn:K.
      * split; [easy|]. intros H. exfalso. apply H. destruct (find_trailer_some s p g K) as (t & -> & T). exists (c :: p), t. split; [apply trailer_iff; eauto|reflexivity].
      * split; [|easy]. intros _ (p & t & T & H). destruct p as [|x p]; cbn in H.
        -- subst t. apply trailer_iff in T. destruct T as (g & T). congruence.
        -- injection H as <- ->. apply (proj1 IH eq_refl). exists p, t. auto.
Qed.

Lemma dec_no c n : 0 <= n -> ~ is_digit c -> ~ In c (dec n).
Proof. intros H N I. pose proof (dec_digit n H) as D. rewrite Forall_forall in D. now apply D in I. Qed.
Lemma ident_no c i : ident_ok i -> ~ word_char c -> ~ In c (ident_text i).
Proof.
  destruct i as [n|w]; cbn [ident_ok ident_text]; intros H N I.
  - apply (dec_no c n H); [|exact I]. unfold is_digit. unfold word_char in N. lia.
  - destruct H as (_ & F & _). rewrite Forall_forall in F. now apply F in I.
Qed.
Lemma join_no c s l : c <> s -> (forall x, In x l -> ~ In c x) -> ~ In c (join s l).
Proof.
  induction l as [|x l IH]; intros N H; [easy|]. destruct l as [|y l]; [apply H; now left|].
  change (join s (x :: y :: l)) with (x ++ s :: join s (y :: l)). rewrite in_app_iff. intros [I|[I|I]].
  - now apply (H x (or_introl eq_refl)).
  - congruence.
  - revert I. apply IH; [exact N|]. intros z Hz. apply H. now right.
Qed.
(** What the proved part of C40 asks of a version beyond the standard. *)
Definition small (v : version) : Prop := major v <= INT64_MAX /\ minor v <= INT64_MAX /\ patch v <= INT64_MAX /\
  Forall (fun i => match i with Num n => n <= INT64_MAX | Word w => forall n, 0 < n <= 2 ^ 63 -> w <> 45 :: dec n end) (pre v) /\
  ~ ends_in_trailer (pre_text (pre v)).
Lemma to_ident_text i : ident_ok i -> match i with Num n => n <= INT64_MAX | Word w => forall n, 0 < n <= 2 ^ 63 -> w <> 45 :: dec n end -> to_ident (ident_text i) = i.
Proof.
  destruct i as [n|w]; cbn [ident_ok ident_text]; intros H S; unfold to_ident.
  - now rewrite numeric_dec.
  - destruct (numeric w) as [n|] eqn:E; [|reflexivity]. exfalso. apply numeric_some in E. destruct E as [-> R]. unfold dec_signed in *.
    destruct (n <? 0) eqn:K.
    + apply (S (- n)); [|reflexivity]. unfold INT64_MIN in R. change (2 ^ 63) with 9223372036854775808. lia.
    + destruct H as (_ & _ & H). apply H, dec_digit. lia.
Qed.
Lemma abs_text v s : version_ok v -> small v -> text_of v s -> abs s = v.
Proof.
  intros (V1 & V2 & V3 & V4) (S1 & S2 & S3 & S4 & S5) T. destruct T as [pfx suf build P Q B]. unfold abs, parse_semver. cbv zeta.
  assert (TV : trim_v (pfx ++ core_text v ++ suf ++ build) = core_text v ++ suf ++ build).
  { destruct P as [-> | ->]; [|reflexivity]. cbn [app]. unfold core_text. pose proof (dec_nonempty (major v) V1). pose proof (dec_digit (major v) V1) as D.
    destruct (dec (major v)) as [|c r]; [easy|]. inversion_clear D as [|? ? D1 _]. unfold is_digit in D1. cbn. destruct (c =? 118) eqn:K; [lia|reflexivity]. }
  rewrite TV. set (core := core_text v) in *.
  assert (C43 : forall c, ~ is_digit c -> c <> 46 -> ~ In c core).
  { intros c N1 N2. unfold core, core_text. rewrite !in_app_iff. cbn [In]. pose proof (dec_no c (major v) V1 N1). pose proof (dec_no c (minor v) V2 N1). pose proof (dec_no c (patch v) V3 N1). intuition congruence. }
  assert (PN : forall c, ~ word_char c -> c <> 46 -> ~ In c (pre_text (pre v))).
  { intros c N1 N2. apply join_no; [exact N2|]. intros x Hx. apply in_map_iff in Hx. destruct Hx as (i & <- & Hi). apply ident_no; [|exact N1]. rewrite Forall_forall in V4. auto. }
  assert (SN : ~ In 43 (core ++ suf)).
  { rewrite in_app_iff. intros [I|I]; [revert I; apply C43; [unfold is_digit; lia|lia]|]. rewrite Q in I. destruct (pre v) as [|i l] eqn:E; [easy|]. destruct I as [I|I]; [lia|].
    revert I. apply PN; [unfold word_char; lia|lia]. }
  assert (C1 : match cut 43 (core ++ suf ++ build) with Some (a, _) => a | None => core ++ suf ++ build end = core ++ suf).
  { rewrite app_assoc. destruct B as [->|(b & ->)]; [rewrite app_nil_r; now rewrite cut_none|now rewrite cut_app]. }
  rewrite C1.
  assert (C2 : (exists b, cut 45 (core ++ suf) = Some (core, b) /\ strip_trailer b = pre_text (pre v)) \/
               (cut 45 (core ++ suf) = None /\ core ++ suf = core /\ pre_text (pre v) = [])).
  { rewrite Q. destruct (pre v) as [|i l] eqn:E.
    - right. rewrite app_nil_r. rewrite cut_none; [auto|]. apply C43; [unfold is_digit; lia|lia].
    - left. exists (pre_text (i :: l)). change ([45] ++ pre_text (i :: l)) with (45 :: pre_text (i :: l)). rewrite cut_app by (apply C43; [unfold is_digit; lia|lia]).
      split; [reflexivity|]. unfold strip_trailer. rewrite (proj2 (find_trailer_none _) S5). reflexivity. }
  cut (match split_on 46 core with [a; b; c] => Ver (scan_or_0 a) (scan_or_0 b) (scan_or_0 c)
         (match pre_text (pre v) with [] => [] | _ => map to_ident (split_on 46 (pre_text (pre v))) end) = v | _ => False end).
  { intros H. destruct (split_on 46 core) as [|x [|y [|z [|w sp]]]] eqn:SPE; try easy.
    destruct C2 as [(b & -> & ->)|(-> & -> & PE)].
    - rewrite SPE. exact H.
    - rewrite SPE, PE in *. exact H. }
  assert (N46 : forall n, 0 <= n -> ~ In 46 (dec n)) by (intros; apply dec_no; [assumption|unfold is_digit; lia]).
  assert (SP : split_on 46 core = [dec (major v); dec (minor v); dec (patch v)]).
  { unfold core, core_text. cbn [app]. rewrite split_app by auto. cbn [app]. rewrite split_app by auto. now rewrite split_none by auto. }
  rewrite SP. rewrite !scan_or_0_dec by lia.
  destruct v as [M n p l]. cbn [major minor patch pre] in *. f_equal. destruct l as [|i l]; [reflexivity|].
  assert (NE : pre_text (i :: l) <> []).
  { unfold pre_text. cbn [map]. inversion_clear V4 as [|? ? V5 V6].
    assert (K : ident_text i <> []) by (destruct i; cbn in *; [now apply dec_nonempty|tauto]).
    destruct (map ident_text l); cbn [join]; [exact K|]. now destruct (ident_text i). }
  destruct (pre_text (i :: l)) as [|c r] eqn:E; [easy|]. rewrite <- E. unfold pre_text. rewrite split_join; [|easy|].
  - rewrite map_map. rewrite <- (map_id (i :: l)) at 2. apply map_ext_in. intros x Hx. rewrite Forall_forall in V4, S4. exact (to_ident_text x (V4 x Hx) (S4 x Hx)).
  - intros x Hx. apply in_map_iff in Hx. destruct Hx as (j & <- & Hj). apply ident_no; [rewrite Forall_forall in V4; auto|]. unfold word_char. lia.
Qed.
