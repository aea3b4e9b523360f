From Verif Require Import Base BaseFacts Decimal DecimalFacts StringsModel StringsSpec StringsProofs
  StrconvModel StrconvSpec.
Ltac Zify.zify_post_hook ::= Z.div_mod_to_equations.

(** ** digits *)
Lemma digit_of_value c d : digit_of c d <-> digit_value c = d /\ d < 36.
Proof.
  unfold digit_of, digit_value, isdigit, isupper, islower.
  destruct ((48 <=? c) && (c <=? 57)) eqn:?; [|destruct ((65 <=? c) && (c <=? 90)) eqn:?;
    [|destruct ((97 <=? c) && (c <=? 122)) eqn:?]]; split; intros H; lia.
Qed.
Lemma digit_value_nonneg c : 0 <= digit_value c.
Proof. unfold digit_value, isdigit, isupper, islower. repeat match goal with |- context [if ?c then _ else _] => destruct c eqn:? end; lia. Qed.

Fixpoint eval (base acc : Z) (ds : bytes) : Z :=
  match ds with [] => acc | c :: r => eval base (acc * base + digit_value c) r end.
Lemma eval_app base ds : forall acc es, eval base acc (ds ++ es) = eval base (eval base acc ds) es.
Proof. induction ds; intros; cbn; auto. Qed.
Definition all_digits (base : Z) (ds : bytes) : Prop := Forall (fun c => digit_value c < base) ds.

Lemma positional_iff base ds v : base <= 36 ->
  positional base ds v <-> ds <> [] /\ all_digits base ds /\ v = eval base 0 ds.
Proof.
  intros B. split.
  - induction 1 as [c d D L|ds v c d P IH D L].
    + apply digit_of_value in D as [D _]. split; [discriminate|split]; [|cbn; lia].
      constructor; [lia|constructor].
    + apply digit_of_value in D as [D _]. destruct IH as (N & A & E). split; [|split].
      * destruct ds; discriminate.
      * apply Forall_app; split; auto. constructor; [lia|constructor].
      * rewrite eval_app. cbn. subst. reflexivity.
  - intros (N & A & ->). revert N A. induction ds as [|c ds IH] using rev_ind; intros N A; [congruence|].
    apply Forall_app in A as [A1 A2]. apply Forall_inv in A2.
    destruct ds as [|x ds].
    + cbn. apply pos_one; [apply digit_of_value; lia|lia].
    + rewrite eval_app. cbn [eval]. apply pos_more; [|apply digit_of_value; lia|lia].
      apply IH; [discriminate|exact A1].
Qed.

Lemma take_digits_spec base s : forall acc n, exists ds rest,
  take_digits base acc n s = (eval base acc ds, (n + length ds)%nat, rest) /\
  s = ds ++ rest /\ all_digits base ds /\
  match rest with [] => True | c :: _ => base <= digit_value c end.
Proof.
  induction s as [|c s IH]; intros acc n; cbn [take_digits].
  - exists [], []. rewrite Nat.add_0_r. split; [reflexivity|split; [reflexivity|split; [constructor|exact I]]].
  - destruct (Z.ltb_spec (digit_value c) base).
    + destruct (IH (acc * base + digit_value c) (S n)) as (ds & rest & E & -> & A & M).
      exists (c :: ds), rest. split; [|split; [reflexivity|split; [constructor; auto|exact M]]].
      rewrite E. cbn [eval length]. do 2 f_equal. lia.
    + exists [], (c :: s). rewrite Nat.add_0_r. split; [reflexivity|split; [reflexivity|split; [constructor|exact H]]].
Qed.
Lemma take_digits_all base ds : forall acc n, all_digits base ds ->
  take_digits base acc n ds = (eval base acc ds, (n + length ds)%nat, []).
Proof.
  induction ds as [|c ds IH]; intros acc n A; cbn [take_digits eval length].
  - rewrite Nat.add_0_r. reflexivity.
  - apply Forall_cons_iff in A as [A1 A2]. rewrite (proj2 (Z.ltb_lt _ _) A1). rewrite IH by auto.
    do 2 f_equal. lia.
Qed.
Lemma take_digits_app base ds : forall acc n rest, all_digits base ds ->
  match rest with [] => True | c :: _ => base <= digit_value c end ->
  take_digits base acc n (ds ++ rest) = (eval base acc ds, (n + length ds)%nat, rest).
Proof.
  induction ds as [|c ds IH]; intros acc n rest A M; cbn [app take_digits eval length].
  - rewrite Nat.add_0_r. destruct rest as [|c r]; [reflexivity|]. cbn [take_digits].
    rewrite (proj2 (Z.ltb_ge _ _) M). reflexivity.
  - apply Forall_cons_iff in A as [A1 A2]. rewrite (proj2 (Z.ltb_lt _ _) A1). rewrite IH by auto.
    do 2 f_equal. lia.
Qed.

(** the unsigned part: prefix and digits *)
Definition read_unsigned (base : Z) (s : bytes) : option (Z * bytes) :=
  let '(v, n, rest) := take_digits base 0 0 (take_prefix base s) in
  if (n =? 0)%nat then None else Some (v, rest).
Lemma c_strto_eq base buf : c_strto base buf =
  let '(neg, s) := take_sign (skip_space buf) in
  match read_unsigned base s with
  | Some (v, rest) => Some (if neg : bool then - v else v, rest)
  | None => None
  end.
Proof.
  unfold c_strto, read_unsigned. destruct (take_sign _) as [neg s].
  destruct (take_digits _ _ _ _) as [[v n] rest]. destruct (n =? 0)%nat; reflexivity.
Qed.

Definition stops base (rest : bytes) : Prop := match rest with [] => True | c :: _ => base <= digit_value c end.
(** a text read to a stop that is not [x] or [X] *)
Definition stopc (rest : bytes) : Prop := match rest with [] => True | c :: _ => c <> 120 /\ c <> 88 end.

Lemma take_prefix_cases base s :
  (take_prefix base s = s) \/
  (exists x d r, base = 16 /\ (x = 120 \/ x = 88) /\ digit_value d < 16 /\
     s = 48 :: x :: d :: r /\ take_prefix base s = d :: r).
Proof.
  unfold take_prefix. destruct s as [|z [|x [|d r]]]; try (left; reflexivity).
  destruct (_ && _) eqn:E; [|left; reflexivity]. right. exists x, d, r.
  apply andb_true_iff in E as [E E4]. apply andb_true_iff in E as [E E3]. apply andb_true_iff in E as [E1 E2].
  assert (z = 48) by lia. subst z. split; [lia|split; [lia|split; [lia|split; reflexivity]]].
Qed.

Lemma unsigned_read base ds v rest : base <= 36 -> unsigned base ds v -> stops base rest -> stopc rest ->
  read_unsigned base (ds ++ rest) = Some (v, rest).
Proof.
  intros B U M C. unfold read_unsigned. destruct U as [ds v P|ds v x E X P].
  - apply positional_iff in P as (N & A & ->); auto.
    assert (TP : take_prefix base (ds ++ rest) = ds ++ rest).
    { destruct (take_prefix_cases base (ds ++ rest)) as [T|(x & d & r & B16 & X & D & S & T)]; auto.
      exfalso. destruct ds as [|a [|b ds]]; [congruence| |].
      - cbn in S. injection S as S1 S2. rewrite S2 in C. cbn in C. lia.
      - cbn in S. injection S as S1 S2 S3.
        apply Forall_inv_tail, Forall_inv in A. subst b base.
        destruct X as [->| ->]; vm_compute in A; discriminate. }
    rewrite TP, take_digits_app by auto.
    destruct ds; [congruence|]. reflexivity.
  - subst base. apply positional_iff in P as (N & A & ->); [|lia].
    assert (TP : take_prefix 16 ((48 :: x :: ds) ++ rest) = ds ++ rest).
    { destruct ds as [|d ds]; [congruence|]. cbn [app take_prefix].
      apply Forall_inv in A. rewrite (proj2 (Z.ltb_lt _ _) A).
      destruct X as [->| ->]; reflexivity. }
    rewrite TP, take_digits_app by auto. destruct ds; [congruence|]. reflexivity.
Qed.
Lemma read_unsigned_inv base s v rest : base <= 36 -> read_unsigned base s = Some (v, rest) ->
  exists ds, s = ds ++ rest /\ unsigned base ds v.
Proof.
  intros B. unfold read_unsigned.
  destruct (take_digits_spec base (take_prefix base s) 0 0) as (ds & r & E & S & A & M).
  rewrite E. cbn [Nat.add]. destruct (Nat.eqb_spec (length ds) 0) as [|L]; [discriminate|]. intros [= <- <-].
  assert (N : ds <> []) by (destruct ds; [cbn in L; lia|discriminate]).
  destruct (take_prefix_cases base s) as [T|(x & d & r' & B16 & X & D & S' & T)]; rewrite T in S.
  - exists ds. split; auto. apply uns_digits, positional_iff; auto.
  - exists (48 :: x :: ds). split; [cbn [app]; rewrite <- S; exact S'|].
    apply uns_hex; auto. subst base. apply positional_iff; auto.
Qed.

Lemma unsigned_head base ds v : 2 <= base <= 36 -> unsigned base ds v ->
  0 <= v /\ exists c r, ds = c :: r /\ digit_value c < base.
Proof.
  intros B U.
  assert (E0 : forall ds acc, 0 <= acc -> 0 <= eval base acc ds).
  { induction ds0; cbn; intros; auto. apply IHds0. pose proof (digit_value_nonneg a). nia. }
  destruct U as [ds v P|ds v x E X P].
  - apply positional_iff in P as (N & A & ->); [|lia]. split; [apply E0; lia|].
    destruct ds as [|c r]; [congruence|]. exists c, r. apply Forall_inv in A. auto.
  - subst base. apply positional_iff in P as (N & A & ->); [|lia]. split; [apply E0; lia|].
    exists 48, (x :: ds). split; reflexivity.
Qed.

Lemma not_space_sign c : digit_value c < 36 -> isspace c = false /\ c <> 45 /\ c <> 43 /\ c <> 0.
Proof.
  unfold digit_value, isspace, isdigit, isupper, islower.
  repeat match goal with |- context [if ?c then _ else _] => destruct c eqn:? end; intros; lia.
Qed.

Lemma skip_space_spec s : exists ws, s = ws ++ skip_space s /\ Forall blank ws /\ ~ starts_blank (skip_space s).
Proof.
  induction s as [|c s IH]; cbn [skip_space].
  - exists []. split; [reflexivity|split; [constructor|]]. intros (c & r & E & _). discriminate.
  - destruct (isspace c) eqn:E.
    + destruct IH as (ws & E1 & F & N). exists (c :: ws). split; [cbn; f_equal; exact E1|]. split; [|exact N].
      constructor; auto. unfold blank, isspace in *. cbn [In]. lia.
    + exists []. split; [reflexivity|split; [constructor|]].
      intros (c' & r & [= <- <-] & Bl). unfold blank, isspace in *. cbn [In] in Bl. lia.
Qed.
Lemma skip_space_app ws s : Forall blank ws -> skip_space (ws ++ s) = skip_space s.
Proof.
  induction 1 as [|c ws Bc F IH]; cbn [app skip_space]; auto.
  replace (isspace c) with true; auto. unfold blank, isspace in *. cbn [In] in Bc. symmetry. lia.
Qed.

(** number <-> sign and unsigned *)
Lemma number_read base num v rest : 2 <= base <= 36 -> number base num v -> stops base rest -> stopc rest ->
  c_strto base (num ++ rest) = Some (v, rest) /\ leading_space (num ++ rest) = false /\
  skip_space (num ++ rest) = num ++ rest.
Proof.
  intros B N M C. rewrite c_strto_eq.
  destruct N as [ds v U|ds v U|ds v U]; pose proof (unsigned_read base ds v rest ltac:(lia) U M C) as R;
    pose proof (unsigned_head base ds v B U) as (V & c & r & E & D).
  - pose proof (not_space_sign c ltac:(lia)) as (S1 & S2 & S3 & _).
    assert (K : skip_space (ds ++ rest) = ds ++ rest).
    { subst ds. cbn [app skip_space]. rewrite S1. reflexivity. }
    rewrite K. split; [|split; auto]; [|subst ds; cbn; exact S1].
    assert (T : take_sign (ds ++ rest) = (false, ds ++ rest)).
    { subst ds. cbn [app take_sign]. rewrite (proj2 (Z.eqb_neq c 45)), (proj2 (Z.eqb_neq c 43)) by auto. reflexivity. }
    rewrite T, R. reflexivity.
  - cbn [app skip_space isspace Z.leb Z.eqb andb orb]. cbn. rewrite R. auto.
  - cbn. rewrite R. auto.
Qed.
Lemma c_strto_inv base s v rest : base <= 36 -> c_strto base s = Some (v, rest) ->
  exists ws num, s = ws ++ num ++ rest /\ Forall blank ws /\ number base num v.
Proof.
  intros B. rewrite c_strto_eq. destruct (skip_space_spec s) as (ws & E & F & N).
  destruct (take_sign (skip_space s)) as [neg t] eqn:T.
  destruct (read_unsigned base t) as [[u r]|] eqn:R; [|discriminate]. intros [= <- <-].
  apply read_unsigned_inv in R as (ds & -> & U); auto.
  exists ws. unfold take_sign in T. destruct (skip_space s) as [|c k] eqn:K.
  - injection T as <- E0. exists ds. rewrite E0 in *. split; [exact E|]. split; auto. apply num_plain; auto.
  - destruct (Z.eqb_spec c 45).
    + injection T as <- E1. exists (45 :: ds). split; [rewrite E, e, E1; reflexivity|]. split; auto. apply num_minus; auto.
    + destruct (Z.eqb_spec c 43).
      * injection T as <- E1. exists (43 :: ds). split; [rewrite E, e, E1; reflexivity|]. split; auto. apply num_plus; auto.
      * injection T as <- E1. exists ds. split; [rewrite E, E1; reflexivity|]. split; auto. apply num_plain; auto.
Qed.
Lemma number_unique base s v w : 2 <= base <= 36 -> number base s v -> number base s w -> v = w.
Proof.
  intros B N1 N2.
  pose proof (number_read base s v [] B N1 I I) as (R1 & _).
  pose proof (number_read base s w [] B N2 I I) as (R2 & _). rewrite R1 in R2. injection R2 as ->. reflexivity.
Qed.
Lemma number_head base s v : 2 <= base <= 36 -> number base s v -> leading_space s = false.
Proof.
  intros B N. pose proof (number_read base s v [] B N I I) as (_ & L & _). rewrite app_nil_r in L. exact L.
Qed.

Lemma c_str_id s : ~ In 0 s -> c_str s = s.
Proof.
  induction s as [|c s IH]; cbn [c_str In]; auto. intros N. destruct (Z.eqb_spec c 0); [tauto|].
  f_equal. apply IH. tauto.
Qed.
Lemma copy_id s : (length s <= 63)%nat -> ~ In 0 s -> copy_text s = s.
Proof. intros L N. unfold copy_text. rewrite firstn_all2 by (cbn; lia). apply c_str_id, N. Qed.
Lemma blank_lead s ws : s <> [] -> Forall blank ws -> ws <> [] -> leading_space (ws ++ s) = true.
Proof.
  intros N F W. destruct ws as [|c ws]; [congruence|]. cbn. apply Forall_inv in F.
  unfold blank, isspace in *. cbn [In] in F. lia.
Qed.

Lemma whole_iff base s v : 2 <= base <= 36 ->
  (leading_space s = false /\ c_strto base s = Some (v, [])) <-> number base s v.
Proof.
  intros B. split.
  - intros [L E]. apply c_strto_inv in E as (ws & num & -> & F & N); [|lia]. rewrite app_nil_r in *.
    destruct ws as [|c ws]; auto.
    rewrite blank_lead in L; auto; try discriminate.
    intros ->. inversion N; subst;
    match goal with H : unsigned _ _ _ |- _ => apply unsigned_head in H as (_ & c' & r' & E' & _); auto; discriminate end.
  - intros N. pose proof (number_read base s v [] B N I I) as (R & L & _). rewrite app_nil_r in *. auto.
Qed.
Lemma to_int_value_iff s base v : 2 <= base <= 36 -> (length s <= 63)%nat -> ~ In 0 s ->
  to_int_value s base = Some v <-> number base s v /\ in_i 64 v.
Proof.
  intros B L Z0. unfold to_int_value. rewrite copy_id by auto.
  pose proof (whole_iff base s) as W.
  unfold in_i, INT64_MIN, INT64_MAX. change (2 ^ (64 - 1)) with 9223372036854775808.
  split.
  - destruct (leading_space s) eqn:LS; [discriminate|].
    destruct (c_strto base s) as [[u [|? ?]]|] eqn:E; try discriminate.
    destruct (_ && _) eqn:R; [|discriminate]. intros [= <-]. split; [apply W; auto|lia].
  - intros [N R]. apply W in N as [-> ->]; auto.
    replace (_ && _) with true by lia. reflexivity.
Qed.

(** reading what was printed *)
Lemma dec_positional n : 0 <= n -> positional 10 (dec n) n.
Proof.
  intros N. destruct (dec_spec n N) as [[D C] V]. apply positional_iff; [lia|].
  assert (DV : forall c, Decimal.is_digit c -> digit_value c = c - 48).
  { intros c Hc. unfold Decimal.is_digit, digit_value, isdigit in *. replace (_ && _) with true by lia. reflexivity. }
  split; [|split].
  - destruct C as [->|(c & r & -> & _)]; discriminate.
  - unfold all_digits. eapply Forall_impl; [|exact D]. intros c Hc. cbn beta. rewrite DV by auto.
    unfold Decimal.is_digit in Hc. lia.
  - rewrite <- V at 1. unfold dec_val. generalize 0 as acc. clear C V. induction D as [|c s Hc D IH]; intros acc; cbn; auto.
    rewrite DV by auto. apply IH.
Qed.
Lemma dec_signed_number n : number 10 (dec_signed n) n.
Proof.
  unfold dec_signed. destruct (Z.ltb_spec n 0).
  - replace n with (- - n) at 2 by lia. apply num_minus, uns_digits, dec_positional. lia.
  - apply num_plain, uns_digits, dec_positional. lia.
Qed.
Lemma digit_char_value d : 0 <= d < 36 -> digit_value (digit_char d) = d.
Proof.
  intros. unfold digit_char, digit_value, isdigit, isupper, islower.
  destruct (Z.ltb_spec d 10); repeat match goal with |- context [if ?c then _ else _] => destruct c eqn:? end; lia.
Qed.
Lemma base_digits_spec base fuel : 2 <= base <= 36 -> forall n acc, 0 <= n -> n < 2 ^ Z.of_nat fuel ->
  (0 < fuel)%nat ->
  exists ds, base_digits base fuel n acc = ds ++ acc /\ ds <> [] /\ all_digits base ds /\ eval base 0 ds = n /\
    (forall k, (0 < k)%nat -> n < base ^ Z.of_nat k -> (length ds <= k)%nat).
Proof.
  intros B. induction fuel as [|f IH]; intros n acc N L F; [lia|].
  cbn [base_digits].
  assert (M : digit_value (digit_char (n mod base)) = n mod base).
  { apply digit_char_value. pose proof (Z.mod_pos_bound n base ltac:(lia)). lia. }
  pose proof (Z.mod_pos_bound n base ltac:(lia)) as MB.
  pose proof (Z.div_mod n base ltac:(lia)) as DM.
  destruct (Z.eqb_spec (n / base) 0) as [Q|Q].
  - exists [digit_char (n mod base)]. split; [reflexivity|]. split; [discriminate|].
    split; [constructor; [lia|constructor]|]. split; [cbn; rewrite M; lia|].
    intros k K _. cbn. lia.
  - assert (Q0 : 0 <= n / base) by (apply Z.div_pos; lia).
    assert (f <> 0)%nat. { intros ->. change (2 ^ Z.of_nat 1) with 2 in L. apply Q. apply Z.div_small. lia. }
    destruct (IH (n / base) (digit_char (n mod base) :: acc)) as (ds & E & Nd & A & V & K); [lia| |lia|].
    { apply Z.div_lt_upper_bound; [lia|]. rewrite Nat2Z.inj_succ, Z.pow_succ_r in L by lia. nia. }
    exists (ds ++ [digit_char (n mod base)]). rewrite E, <- app_assoc. split; [reflexivity|].
    split; [destruct ds; discriminate|].
    split; [apply Forall_app; split; auto; constructor; [lia|constructor]|].
    split; [rewrite eval_app, V; cbn [eval]; rewrite M; lia|].
    intros k Hk Lk. rewrite app_length. cbn [length].
    destruct k as [|[|k]]; [lia| |].
    + change (Z.of_nat 1) with 1 in Lk. rewrite Z.pow_1_r in Lk. exfalso. apply Q, Z.div_small. lia.
    + assert (length ds <= S k)%nat; [|lia]. apply K; [lia|].
      apply Z.div_lt_upper_bound; [lia|]. rewrite Nat2Z.inj_succ, Z.pow_succ_r in Lk by lia. lia.
Qed.
Lemma in_base_spec base n : 2 <= base <= 36 -> 0 <= n ->
  positional base (in_base base n) n /\
  (forall k, (0 < k)%nat -> n < base ^ Z.of_nat k -> (length (in_base base n) <= k)%nat).
Proof.
  intros B N. unfold in_base.
  destruct (base_digits_spec base (S (Z.to_nat (Z.log2 n))) B n [] N) as (ds & E & Nd & A & V & K);
    [apply dec_fuel; auto|lia|].
  rewrite E, app_nil_r. split; [apply positional_iff; [lia|auto]|exact K].
Qed.

Lemma positional_nonzero base ds v : base <= 36 -> positional base ds v -> ~ In 0 ds.
Proof.
  intros B P. apply positional_iff in P as (_ & A & _); auto.
  intros H. unfold all_digits in A. rewrite Forall_forall in A. apply A in H.
  change (digit_value 0) with 36 in H. lia.
Qed.
Lemma unsigned_nonzero base ds v : base <= 36 -> unsigned base ds v -> ~ In 0 ds.
Proof.
  intros B [ds' v' P|ds' v' x E X P]; [eapply positional_nonzero; eauto|].
  intros [H|[H|H]]; [lia|lia|]. revert H. eapply positional_nonzero; [|exact P]. lia.
Qed.

Lemma binary_loop_spec pos : forall v out, 0 <= v < 2 ^ Z.of_nat pos -> exists ds,
  binary_loop pos v out = Ok (ds ++ out) /\ all_digits 2 ds /\ eval 2 0 ds = v /\ (length ds <= pos)%nat /\
  (0 < v -> ds <> []).
Proof.
  induction pos as [|p IH]; intros v out V; cbn [binary_loop].
  - change (2 ^ Z.of_nat 0) with 1 in V. assert (v = 0) by lia. subst. cbn.
    exists []. repeat split; auto; try lia. constructor.
  - destruct (Z.eqb_spec v 0) as [->|N].
    + exists []. repeat split; auto; try (cbn; lia). constructor.
    + destruct (IH (v / 2) (48 + v mod 2 :: out)) as (ds & E & A & EV & L & _).
      { rewrite Nat2Z.inj_succ, Z.pow_succ_r in V by lia. split; lia. }
      assert (D : digit_value (48 + v mod 2) = v mod 2).
      { unfold digit_value, isdigit. replace (_ && _) with true by lia. lia. }
      exists (ds ++ [48 + v mod 2]). rewrite E, <- app_assoc. split; [reflexivity|].
      split; [apply Forall_app; split; auto; constructor; [lia|constructor]|].
      split; [rewrite eval_app, EV; cbn [eval]; rewrite D; lia|].
      split; [rewrite app_length; cbn; lia|]. destruct ds; discriminate.
Qed.
Lemma int_to_binary_spec n : in_i 64 n -> exists t, int_to_binary n = Ok t /\
  positional 2 t (wrap_u 64 n) /\ (length t <= 64)%nat.
Proof.
  intros H. unfold int_to_binary. destruct (Z.eqb_spec n 0) as [->|N].
  - exists [48]. split; [reflexivity|]. split; [|cbn; lia]. apply positional_iff; [lia|].
    split; [discriminate|split; [|reflexivity]]. constructor; [reflexivity|constructor].
  - destruct (binary_loop_spec 64 (wrap_u 64 n) []) as (ds & E & A & V & L & Nd).
    { unfold wrap_u. apply Z.mod_pos_bound. lia. }
    rewrite app_nil_r in E. exists ds. split; auto. split; auto. apply positional_iff; [lia|].
    split; auto. apply Nd. unfold wrap_u, in_i in *.
    change (2 ^ (64 - 1)) with 9223372036854775808 in H. change (2 ^ 64) with 18446744073709551616. lia.
Qed.

(** casts *)
Lemma stop_blank rest : rest = [] \/ (exists r, rest = 32 :: r) -> stops 10 rest /\ stopc rest.
Proof. intros [->|[r ->]]; cbn; auto. split; [discriminate|split; discriminate]. Qed.

(** is_integer *)
Lemma forallb_digits s : forallb isdigit s = true <-> all_digits 10 s.
Proof.
  unfold all_digits. rewrite forallb_forall, Forall_forall.
  split; intros H c Hc; specialize (H c Hc); revert H; unfold digit_value, isdigit, isupper, islower;
    [intros E; rewrite E; lia|].
  repeat match goal with |- context [if ?c then _ else _] => destruct c eqn:? end; intros; lia.
Qed.
Lemma unsigned10_iff ds : (exists v, unsigned 10 ds v) <-> ds <> [] /\ all_digits 10 ds.
Proof.
  split.
  - intros [v [ds' v' P|ds' v' x E X P]]; [|discriminate]. apply positional_iff in P as (? & ? & _); [auto|lia].
  - intros [N A]. exists (eval 10 0 ds). apply uns_digits, positional_iff; [lia|auto].
Qed.

(** ** UTF-8 *)
Lemma cont_val x : cont x = 128 + x mod 64.
Proof.
  unfold cont. change 63 with (Z.ones 6). rewrite land_mod by lia. change (2 ^ 6) with 64.
  change 128 with (Z.shiftl 2 6) at 1. rewrite lor_shift by (change (2 ^ 6) with 64; lia). change (2 ^ 6) with 64. lia.
Qed.
Lemma or_low (hi n y : Z) : 0 <= n -> 0 <= y < 2 ^ n -> Z.lor (Z.shiftl hi n) y = hi * 2 ^ n + y.
Proof. apply lor_shift. Qed.

Ltac bits := unfold low8, wrap_u; rewrite ?cont_val, ?Z.shiftr_div_pow2 by lia;
  change (2 ^ 6) with 64 in *; change (2 ^ 12) with 4096 in *; change (2 ^ 18) with 262144 in *;
  change (2 ^ 8) with 256 in *.
Lemma utf8_encode cp : 0 <= cp <= 1114111 -> utf8 cp (char_to_utf8 cp).
Proof.
  intros H. unfold char_to_utf8.
  destruct (Z.ltb_spec cp 128); [|destruct (Z.ltb_spec cp 2048); [|destruct (Z.ltb_spec cp 65536)]].
  - bits. rewrite Z.mod_small by lia. apply utf8_1. lia.
  - change 192 with (Z.shiftl 6 5). bits.
    rewrite lor_shift by (change (2 ^ 5) with 32; lia). change (6 * 2 ^ 5) with 192.
    rewrite (Z.mod_small (192 + _)) by lia.
    replace cp with (cp / 64 * 64 + cp mod 64) at 1 by lia. apply utf8_2; lia.
  - change 224 with (Z.shiftl 14 4). bits.
    rewrite lor_shift by (change (2 ^ 4) with 16; lia). change (14 * 2 ^ 4) with 224.
    rewrite (Z.mod_small (224 + _)) by lia.
    replace cp with (cp / 4096 * 4096 + (cp / 64) mod 64 * 64 + cp mod 64) at 1 by lia. apply utf8_3; lia.
  - destruct (Z.ltb_spec cp 1114112); [|lia].
    change 240 with (Z.shiftl 30 3). bits.
    rewrite lor_shift by (change (2 ^ 3) with 8; lia). change (30 * 2 ^ 3) with 240.
    rewrite (Z.mod_small (240 + _)) by lia.
    replace cp with (cp / 262144 * 262144 + (cp / 4096) mod 64 * 4096 + (cp / 64) mod 64 * 64 + cp mod 64) at 1 by lia.
    apply utf8_4; lia.
Qed.
Ltac lists := repeat match goal with |- _ :: _ = _ :: _ => apply (f_equal2 cons); [lia|] end; reflexivity.
Lemma utf8_unique cp e : utf8 cp e -> e = char_to_utf8 cp.
Proof.
  intros U. unfold char_to_utf8.
  destruct U as [a A|a b A B L|a b c A B C L|a b c d A B C D L].
  - rewrite (proj2 (Z.ltb_lt a 128)) by lia. bits. rewrite Z.mod_small by lia. reflexivity.
  - rewrite (proj2 (Z.ltb_ge (a * 64 + b) 128)), (proj2 (Z.ltb_lt (a * 64 + b) 2048)) by lia.
    change 192 with (Z.shiftl 6 5) at 2. bits.
    rewrite lor_shift by (change (2 ^ 5) with 32; lia). change (6 * 2 ^ 5) with 192.
    lists.
  - rewrite (proj2 (Z.ltb_ge (a * 4096 + b * 64 + c) 128)), (proj2 (Z.ltb_ge (a * 4096 + b * 64 + c) 2048)),
      (proj2 (Z.ltb_lt (a * 4096 + b * 64 + c) 65536)) by lia.
    change 224 with (Z.shiftl 14 4) at 2. bits.
    rewrite lor_shift by (change (2 ^ 4) with 16; lia). change (14 * 2 ^ 4) with 224.
    lists.
  - set (cp := a * 262144 + b * 4096 + c * 64 + d) in *.
    rewrite (proj2 (Z.ltb_ge cp 128)), (proj2 (Z.ltb_ge cp 2048)),
      (proj2 (Z.ltb_ge cp 65536)), (proj2 (Z.ltb_lt cp 1114112)) by lia.
    change 240 with (Z.shiftl 30 3) at 2. bits.
    rewrite lor_shift by (change (2 ^ 3) with 8; subst cp; lia). change (30 * 2 ^ 3) with 240.
    subst cp. lists.
Qed.

(** lead bytes, by a sweep *)
Definition lead_spec (b : Z) : Z * nat :=
  if b <? 128 then (b, 1%nat) else if (192 <=? b) && (b <? 224) then (b - 192, 2%nat)
  else if (224 <=? b) && (b <? 240) then (b - 224, 3%nat)
  else if (240 <=? b) && (b <? 248) then (b - 240, 4%nat) else (REPLACEMENT, 1%nat).
Lemma lead_eq b : is_byte b -> lead b = lead_spec b.
Proof.
  intros H.
  assert (E : (fst (lead b) =? fst (lead_spec b)) && (snd (lead b) =? snd (lead_spec b))%nat = true).
  { revert b H. apply sweep_bytes. vm_compute. reflexivity. }
  apply andb_true_iff in E as [E1 E2]. apply Z.eqb_eq in E1. apply Nat.eqb_eq in E2.
  destruct (lead b), (lead_spec b). cbn in *. congruence.
Qed.
Lemma cont_byte y : 0 <= y < 64 -> (Z.land (128 + y) 192 =? 128) = true /\ Z.land (128 + y) 63 = y.
Proof.
  intros H.
  assert (E : let b := y in ((b <? 64) = false) \/ ((Z.land (128 + b) 192 =? 128) && (Z.land (128 + b) 63 =? b)) = true).
  { assert (Q : (negb (y <? 64) || ((Z.land (128 + y) 192 =? 128) && (Z.land (128 + y) 63 =? y))) = true).
    { apply (sweep_bytes (fun y => negb (y <? 64) || ((Z.land (128 + y) 192 =? 128) && (Z.land (128 + y) 63 =? y))));
        [vm_compute; reflexivity|unfold is_byte; lia]. }
    apply orb_true_iff in Q as [Q|Q]; [left; apply negb_true_iff, Q|right; exact Q]. }
  destruct E as [E|E]; lia.
Qed.
Lemma cont_step cp y : 0 <= y < 64 -> Z.lor (Z.shiftl cp 6) (Z.land (128 + y) 63) = cp * 64 + y.
Proof. intros H. destruct (cont_byte y H) as [_ ->]. rewrite lor_shift; change (2 ^ 6) with 64; lia. Qed.

Lemma decode1_utf8 cp e s : utf8 cp e -> exists b r, e = b :: r /\
  decode1 b (r ++ s) = (cp, length e) /\ snd (lead b) = length e.
Proof.
  intros U.
  assert (LT : forall b, is_byte b -> lead b = lead_spec b) by apply lead_eq.
  destruct U as [a A|a b A B L|a b c A B C L|a b c d A B C D L]; eexists; eexists; (split; [reflexivity|]);
    unfold decode1; rewrite LT by (unfold is_byte; lia); unfold lead_spec.
  - rewrite (proj2 (Z.ltb_lt a 128)) by lia. cbn. auto.
  - rewrite (proj2 (Z.ltb_ge (192 + a) 128)) by lia.
    replace ((192 <=? 192 + a) && (192 + a <? 224)) with true by lia.
    cbn [app length]. rewrite (proj2 (Nat.ltb_ge (S (S (length s))) 2)) by lia.
    cbn [Nat.sub continuation]. destruct (cont_byte b B) as [-> _]. rewrite cont_step by lia.
    split; [|reflexivity]. do 2 f_equal. lia.
  - rewrite (proj2 (Z.ltb_ge (224 + a) 128)) by lia.
    replace ((192 <=? 224 + a) && (224 + a <? 224)) with false by lia.
    replace ((224 <=? 224 + a) && (224 + a <? 240)) with true by lia.
    cbn [app length]. rewrite (proj2 (Nat.ltb_ge (S (S (S (length s)))) 3)) by lia.
    cbn [Nat.sub continuation]. destruct (cont_byte b B) as [-> _], (cont_byte c C) as [-> _].
    rewrite !cont_step by lia. split; [|reflexivity]. f_equal. lia.
  - rewrite (proj2 (Z.ltb_ge (240 + a) 128)) by lia.
    replace ((192 <=? 240 + a) && (240 + a <? 224)) with false by lia.
    replace ((224 <=? 240 + a) && (240 + a <? 240)) with false by lia.
    replace ((240 <=? 240 + a) && (240 + a <? 248)) with true by lia.
    cbn [app length]. rewrite (proj2 (Nat.ltb_ge (S (S (S (S (length s))))) 4)) by lia.
    cbn [Nat.sub continuation].
    destruct (cont_byte b B) as [-> _], (cont_byte c C) as [-> _], (cont_byte d D) as [-> _].
    rewrite !cont_step by lia. split; [|reflexivity]. f_equal. lia.
Qed.
Lemma skipn_app_len {A} (l r : list A) : skipn (length l) (l ++ r) = r.
Proof. rewrite skipn_app, skipn_all, Nat.sub_diag. reflexivity. Qed.

Lemma to_char_text cps s : utf8_text cps s -> forall fuel k i, (length s <= fuel)%nat -> 0 <= i ->
  to_char_loop fuel s (k + i) k =
    match nth_error cps (Z.to_nat i) with Some cp => Ok cp | None => Panic 50 end.
Proof.
  induction 1 as [|cp e cps s U T IH]; intros fuel k i F I0.
  - destruct fuel; cbn; destruct (Z.to_nat i); reflexivity.
  - destruct (decode1_utf8 cp e s U) as (b & r & -> & D & _).
    cbn [app length] in *. destruct fuel as [|f]; [lia|]. cbn [to_char_loop]. rewrite D.
    destruct (Z.eqb_spec k (k + i)).
    + assert (i = 0) by lia. subst i. reflexivity.
    + change (b :: r ++ s) with ((b :: r) ++ s).
      change (S (length r)) with (length (b :: r)). rewrite skipn_app_len.
      replace (k + i) with (k + 1 + (i - 1)) by lia. rewrite IH.
      * replace (Z.to_nat i) with (S (Z.to_nat (i - 1))) by lia. reflexivity.
      * rewrite app_length in F. lia.
      * lia.
Qed.
Lemma char_count_text cps s : utf8_text cps s -> forall fuel k, (length s <= fuel)%nat ->
  char_count_loop fuel s k = Ok (k + Z.of_nat (length cps)).
Proof.
  induction 1 as [|cp e cps s U T IH]; intros fuel k F.
  - destruct fuel; cbn; f_equal; lia.
  - destruct (decode1_utf8 cp e s U) as (b & r & -> & _ & Ld).
    cbn [app length] in *. destruct fuel as [|f]; [lia|]. cbn [char_count_loop]. rewrite Ld.
    change (b :: r ++ s) with ((b :: r) ++ s). change (S (length r)) with (length (b :: r)). rewrite skipn_app_len.
    rewrite IH by (rewrite app_length in F; lia). f_equal. lia.
Qed.

(** totality of to_char on any text *)
Lemma decode1_pos b r : (1 <= snd (decode1 b r))%nat.
Proof.
  unfold decode1, lead.
  repeat match goal with |- context [if ?c then _ else _] => destruct c end; cbn [Nat.sub];
    repeat match goal with |- context [match ?x with Some _ => _ | None => _ end] => destruct x end; cbn; lia.
Qed.
Lemma to_char_total fuel : forall s, (length s <= fuel)%nat ->
  exists n, 0 <= n <= Z.of_nat (length s) /\ forall k i, 0 <= i ->
    if i <? n then exists cp, to_char_loop fuel s (k + i) k = Ok cp
    else to_char_loop fuel s (k + i) k = Panic 50.
Proof.
  induction fuel as [|f IH]; intros s L.
  - destruct s; [|cbn in L; lia]. exists 0. split; [cbn; lia|]. intros k i I0.
    destruct (Z.ltb_spec i 0); [lia|reflexivity].
  - destruct s as [|b r].
    + exists 0. split; [cbn; lia|]. intros k i I0. destruct (Z.ltb_spec i 0); [lia|reflexivity].
    + cbn [to_char_loop length] in *. destruct (decode1 b r) as [cp n] eqn:D.
      pose proof (decode1_pos b r) as P. rewrite D in P. cbn [snd] in P.
      assert (SL : (length (skipn n (b :: r)) <= length r)%nat).
      { rewrite skipn_length. cbn [length]. lia. }
      destruct (IH (skipn n (b :: r)) ltac:(lia)) as (m & M & H).
      exists (m + 1). split; [lia|]. intros k i I0.
      destruct (Z.eqb_spec k (k + i)).
      * replace (i <? m + 1) with true by lia. eauto.
      * specialize (H (k + 1) (i - 1) ltac:(lia)). replace (k + 1 + (i - 1)) with (k + i) in H by lia.
        replace (i <? m + 1) with (i - 1 <? m) by lia. exact H.
Qed.
Lemma char_count_total fuel : forall s k, (length s <= fuel)%nat ->
  exists n, char_count_loop fuel s k = Ok n.
Proof.
  induction fuel as [|f IH]; intros s k L.
  - destruct s; [|cbn in L; lia]. eexists. reflexivity.
  - destruct s as [|b r]; [eexists; reflexivity|]. cbn [char_count_loop length] in *.
    apply IH. rewrite skipn_length. cbn [length].
    assert (1 <= snd (lead b))%nat; [|lia]. unfold lead.
    repeat match goal with |- context [if ?c then _ else _] => destruct c end; cbn; lia.
Qed.

(** ** arrays and maps as text *)
Fixpoint joined (first : bool) (ts : list bytes) : bytes :=
  match ts with [] => [] | t :: ts => (if first then [] else comma) ++ t ++ joined false ts end.
Lemma joined_glue ts : joined true ts = glue comma ts.
Proof.
  assert (H : forall ts t, t ++ joined false ts = glue comma (t :: ts)).
  { clear ts. intros ts. induction ts as [|u ts IH]; intros t; [cbn; apply app_nil_r|].
    cbn [joined]. rewrite IH. cbn [glue]. reflexivity. }
  destruct ts as [|t ts]; [reflexivity|]. cbn [joined app]. apply H.
Qed.
Lemma put_ok w t : (length w + length t < 4096)%nat -> put w t = Ok (w ++ t).
Proof. intros H. unfold put. rewrite (proj2 (Nat.ltb_lt _ _)) by exact H. reflexivity. Qed.
Lemma put_elem_ok w e : (length w + length (elem_text e) < 4096)%nat -> put_elem w e = Ok (w ++ elem_text e).
Proof.
  intros H. destruct e; try (apply put_ok; exact H).
  cbn [put_elem]. rewrite (proj2 (Nat.ltb_lt _ _)); [reflexivity|].
  cbn [elem_text app length] in H. rewrite app_length in H. cbn [length] in H. unfold TOSTRING_BUF. lia.
Qed.
Lemma comma_len : length comma = 2%nat. Proof. reflexivity. Qed.

(** the loop prints a prefix; it stops early only at the safe limit *)
Lemma array_loop_prefix es : forall (first : bool) (w : bytes),
  Forall (fun e => (length (elem_text e) <= 93)%nat) es -> (length w <= 4094)%nat ->
  exists k, (k <= length es)%nat /\
    array_loop first es w = Ok (w ++ joined first (map elem_text (firstn k es))) /\
    (length (w ++ joined first (map elem_text (firstn k es))) <= 4094)%nat /\
    (k = length es \/ 4000 <= length (w ++ joined first (map elem_text (firstn k es))))%nat.
Proof.
  induction es as [|e es IH]; intros first w F W.
  - exists 0%nat. cbn. rewrite app_nil_r. auto.
  - cbn [array_loop]. unfold SAFE_LIMIT. destruct (Nat.ltb_spec (length w) 4000) as [L|L].
    + apply Forall_cons_iff in F as [F1 F2].
      assert (E : rbind (if first then Ok w else put w comma) (fun w0 => rbind (put_elem w0 e) (fun w1 => array_loop false es w1))
              = array_loop false es (w ++ (if first then [] else comma) ++ elem_text e)).
      { destruct first.
        - cbn [rbind app]. rewrite put_elem_ok by lia. reflexivity.
        - rewrite put_ok by (rewrite comma_len; lia). cbn [rbind].
          rewrite put_elem_ok by (rewrite app_length, comma_len; lia). cbn [rbind]. rewrite <- app_assoc. reflexivity. }
      rewrite E.
      destruct (IH false (w ++ (if first then [] else comma) ++ elem_text e) F2) as (k & K & R & B & O).
      { rewrite !app_length. destruct first; [cbn [length]|rewrite comma_len]; lia. }
      exists (S k). cbn [firstn map joined length]. rewrite !app_assoc in *.
      split; [lia|]. split; [rewrite R; reflexivity|]. split; [exact B|].
      destruct O as [O|O]; [left; lia|right; exact O].
    + exists 0%nat. cbn [firstn map joined]. rewrite app_nil_r. split; [lia|]. split; [reflexivity|]. split; [lia|right; lia].
Qed.
(** everything is printed when the whole text stays below the safe limit *)
Lemma array_loop_all es : forall (first : bool) (w : bytes),
  (length w + length (joined first (map elem_text es)) < 4000)%nat ->
  array_loop first es w = Ok (w ++ joined first (map elem_text es)).
Proof.
  induction es as [|e es IH]; intros first w L.
  - cbn. rewrite app_nil_r. reflexivity.
  - cbn [map joined] in *. rewrite !app_length in L. cbn [array_loop]. unfold SAFE_LIMIT.
    rewrite (proj2 (Nat.ltb_lt (length w) 4000)) by lia.
    assert (E : rbind (if first then Ok w else put w comma) (fun w0 => rbind (put_elem w0 e) (fun w1 => array_loop false es w1))
              = array_loop false es (w ++ (if first then [] else comma) ++ elem_text e)).
    { destruct first.
      - cbn [rbind app]. rewrite put_elem_ok by lia. reflexivity.
      - rewrite put_ok by (rewrite comma_len in *; lia). cbn [rbind].
        rewrite put_elem_ok by (rewrite app_length; lia). cbn [rbind]. rewrite <- app_assoc. reflexivity. }
    rewrite E, IH; [rewrite !app_assoc; reflexivity|]. rewrite !app_length. lia.
Qed.
Definition entry_text (p : bytes * elem) : bytes := (quoted (fst p) ++ bs ": ") ++ elem_text (snd p).
Lemma map_step (first : bool) (w : bytes) p es : (length w < 4000)%nat ->
  (length w + length (if first then [] else comma) + length (entry_text p) < 4096)%nat ->
  (let '(k, e) := p in
   rbind (if first then Ok w else put w comma) (fun w =>
        rbind (put w (quoted k ++ bs ": ")) (fun w =>
        rbind (put_elem w e) (fun w => map_loop false es w))))
  = map_loop false es (w ++ (if first then [] else comma) ++ entry_text p).
Proof.
  destruct p as [k e]. unfold entry_text. cbn [fst snd]. intros L B. rewrite (app_length (_ ++ _)) in B.
  destruct first.
  - cbn [rbind app length] in *. rewrite put_ok by lia. cbn [rbind].
    rewrite put_elem_ok by (rewrite app_length; lia). cbn [rbind]. rewrite !app_assoc. reflexivity.
  - rewrite put_ok by (rewrite comma_len in *; lia). cbn [rbind].
    rewrite put_ok by (rewrite (app_length w), comma_len in *; lia). cbn [rbind].
    rewrite put_elem_ok by (rewrite (app_length (w ++ comma)), (app_length w), comma_len in *; lia).
    cbn [rbind]. rewrite <- !app_assoc. reflexivity.
Qed.
Lemma map_loop_prefix es : forall (first : bool) (w : bytes),
  Forall (fun p => (length (entry_text p) <= 93)%nat) es -> (length w <= 4094)%nat ->
  exists k, (k <= length es)%nat /\
    map_loop first es w = Ok (w ++ joined first (map entry_text (firstn k es))) /\
    (length (w ++ joined first (map entry_text (firstn k es))) <= 4094)%nat /\
    (k = length es \/ 4000 <= length (w ++ joined first (map entry_text (firstn k es))))%nat.
Proof.
  induction es as [|[k0 e] es IH]; intros first w F W.
  - exists 0%nat. cbn. rewrite app_nil_r. auto.
  - cbn [map_loop]. unfold SAFE_LIMIT. destruct (Nat.ltb_spec (length w) 4000) as [L|L].
    + apply Forall_cons_iff in F as [F1 F2].
      pose proof (map_step first w (k0, e) es L ltac:(destruct first; [cbn [length]|rewrite comma_len]; lia)) as E.
      cbv beta iota in E. rewrite E.
      destruct (IH false (w ++ (if first then [] else comma) ++ entry_text (k0, e)) F2) as (k & K & R & B & O).
      { rewrite !app_length. destruct first; [cbn [length]|rewrite comma_len]; lia. }
      exists (S k). cbn [firstn map joined length]. rewrite !app_assoc in *.
      split; [lia|]. split; [rewrite R; reflexivity|]. split; [exact B|].
      destruct O as [O|O]; [left; lia|right; exact O].
    + exists 0%nat. cbn [firstn map joined]. rewrite app_nil_r. split; [cbn; lia|]. split; [reflexivity|]. split; [lia|right; lia].
Qed.
Lemma map_loop_all es : forall (first : bool) (w : bytes),
  (length w + length (joined first (map entry_text es)) < 4000)%nat ->
  map_loop first es w = Ok (w ++ joined first (map entry_text es)).
Proof.
  induction es as [|[k e] es IH]; intros first w L.
  - cbn. rewrite app_nil_r. reflexivity.
  - cbn [map joined] in *. rewrite !app_length in L. cbn [map_loop]. unfold SAFE_LIMIT.
    rewrite (proj2 (Nat.ltb_lt (length w) 4000)) by lia.
    pose proof (map_step first w (k, e) es ltac:(lia) ltac:(lia)) as E. cbv beta iota in E. rewrite E.
    rewrite IH; [rewrite !app_assoc; reflexivity|]. rewrite !app_length. lia.
Qed.
Lemma close_ok w : (length w <= 4094)%nat -> close w = Ok (w ++ [125]).
Proof. intros H. unfold close. rewrite (proj2 (Nat.ltb_lt _ _)); [reflexivity|unfold TOSTRING_BUF; lia]. Qed.

(** ** input *)
Lemma fgets_newline n : forall l rest, ~ In 10 l -> (length l < n)%nat ->
  fgets n (l ++ [10] ++ rest) = (l ++ [10], rest).
Proof.
  induction n as [|n IH]; intros l rest N L; [lia|]. destruct l as [|c l]; cbn [app fgets].
  - reflexivity.
  - cbn [In length] in *. destruct (Z.eqb_spec c 10); [tauto|].
    change (l ++ 10 :: rest) with (l ++ [10] ++ rest). rewrite IH by (tauto || lia). reflexivity.
Qed.
Lemma fgets_full n : forall l rest, ~ In 10 l -> (n <= length l)%nat ->
  fgets n (l ++ rest) = (firstn n l, skipn n l ++ rest).
Proof.
  induction n as [|n IH]; intros l rest N L; [reflexivity|]. destruct l as [|c l]; [cbn in L; lia|].
  cbn [app fgets firstn skipn In length] in *. destruct (Z.eqb_spec c 10); [tauto|].
  rewrite IH by (tauto || lia). reflexivity.
Qed.
Lemma fgets_short n : forall l, ~ In 10 l -> (length l <= n)%nat -> fgets n l = (l, []).
Proof.
  induction n as [|n IH]; intros l N L; destruct l as [|c l]; try reflexivity; [cbn in L; lia|].
  cbn [fgets In length] in *. destruct (Z.eqb_spec c 10); [tauto|]. rewrite IH by (tauto || lia). reflexivity.
Qed.
Lemma drain_newline l rest : ~ In 10 l -> drain (l ++ [10] ++ rest) = rest.
Proof.
  induction l as [|c l IH]; intros N; [reflexivity|]. cbn [app drain In] in *.
  destruct (Z.eqb_spec c 10); [tauto|]. apply IH. tauto.
Qed.
Lemma drain_none l : ~ In 10 l -> drain l = [].
Proof.
  induction l as [|c l IH]; intros N; [reflexivity|]. cbn [drain In] in *.
  destruct (Z.eqb_spec c 10); [tauto|]. apply IH. tauto.
Qed.
