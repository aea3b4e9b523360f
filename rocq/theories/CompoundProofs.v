(** Proofs about assignments. *)
From Verif Require Import Base BaseFacts ArithModel ArithSpec ArithProofs CompoundModel CompoundSpec.
Ltac Zify.zify_post_hook ::= Z.div_mod_to_equations.

Lemma wi8 v : -128 <= v <= 127 -> wrap_i 8 v = v.
Proof. intros H. unfold wrap_i. change (2 ^ (8 - 1)) with 128. change (2 ^ 8) with 256. destruct (_ <? _) eqn:E; lia. Qed.
Lemma wi16 v : -32768 <= v <= 32767 -> wrap_i 16 v = v.
Proof. intros H. unfold wrap_i. change (2 ^ (16 - 1)) with 32768. change (2 ^ 16) with 65536. destruct (_ <? _) eqn:E; lia. Qed.
Lemma store_id t v : of_type t v -> store t v = v.
Proof.
  intros H. apply of_type_num in H. destruct t; cbn [store]; first [apply wi8|apply wi16|apply wi32|apply wi64|apply wu32|apply wu64|idtac]; try assumption.
  all: unfold wrap_u; change (2 ^ 8) with 256; change (2 ^ 16) with 65536; lia.
Qed.
Lemma store_of t v : of_type t (store t v).
Proof.
  apply of_type_num. destruct t; cbn [store]; unfold wrap_i, wrap_u;
  change (2 ^ (8 - 1)) with 128; change (2 ^ 8) with 256; change (2 ^ (16 - 1)) with 32768; change (2 ^ 16) with 65536;
  change (2 ^ (32 - 1)) with 2147483648; change (2 ^ 32) with 4294967296; change (2 ^ (64 - 1)) with 9223372036854775808; change (2 ^ 64) with 18446744073709551616;
  try (destruct (_ <? _) eqn:E); lia.
Qed.
Lemma i64_of t v : of_type t v -> ~ unsigned64 t -> as_i64 v = v.
Proof. intros H N. apply wi64. apply of_type_num in H. unfold unsigned64 in N. destruct t; try lia; exfalso; apply N; tauto. Qed.
Lemma u64_of t v : of_type t v -> 0 <= v -> as_u64 v = v.
Proof. intros H N. apply wu64. apply of_type_num in H. destruct t; lia. Qed.
Lemma conv_of l a : of_type l a -> conv (common l l) a = a.
Proof.
  intros H. apply of_type_num in H. destruct l; cbn [common promote conv]; first [apply wi32|apply wu32|apply wi64|apply wu64]; lia.
Qed.
Lemma rmap_id {A} (f : A -> A) r : (forall x, r = Ok x -> f x = x) -> rmap f r = r.
Proof. destruct r; intros H; [|reflexivity..]. cbn. now rewrite H. Qed.

Lemma same_arith o l a b : of_type l a -> of_type l b -> eval_arith false o l l a b = direct (Arith o) l l a b.
Proof.
  intros Ha Hb. unfold eval_arith, direct.
  assert (En : sized_name l l = l) by (destruct l; reflexivity). rewrite En.
  destruct (sized_int_bounds l) as [[[lo hi] [|]]|] eqn:Es; [reflexivity..|].
  destruct (kind_int l) eqn:K.
  - assert (E : kind_uint l = false) by (destruct l; try discriminate; reflexivity). rewrite E. cbn [orb].
    rewrite (i64_of l a) by (trivial; destruct l; try discriminate; unfold unsigned64; intuition discriminate). reflexivity.
  - assert (E : kind_uint l = true) by (destruct l; try discriminate; reflexivity). rewrite E. cbn [orb].
    rewrite (u64_of l a) by (trivial; apply of_type_num in Ha; destruct l; try discriminate; lia). reflexivity.
Qed.
Lemma same_div o l r a b : same_sign l r -> of_type l a -> of_type r b -> eval_div o l r a b = Some (direct (Div o) l r a b).
Proof.
  intros S Ha Hb. unfold eval_div, direct, c_op.
  assert (K : kind_int l = kind_int r) by (destruct S as [[S1 S2]|[S1 S2]]; destruct l, r; try reflexivity; exfalso; unfold signed, unsigned in *; cbn in *; lia).
  rewrite <- K, orb_diag. destruct (kind_int l) eqn:E; [|cbn [andb]; reflexivity].
  assert (Ea : as_i64 a = a) by (apply (i64_of l); [exact Ha|]; destruct l; try discriminate; unfold unsigned64; intuition discriminate).
  rewrite Ea. destruct (sized_int_bounds l) as [[[lo hi] [|]]|] eqn:Es; [exfalso; destruct l; discriminate|reflexivity..].
Qed.
Lemma same_written o l a b : of_type l a -> of_type l b -> written o l l a b = Some (rmap (store l) (direct o l l a b)).
Proof.
  intros Ha Hb. unfold written. destruct o as [o|o].
  - rewrite same_arith by assumption. reflexivity.
  - rewrite same_div; [reflexivity| |assumption..]. unfold same_sign, signed, unsigned. destruct l; cbn; first [left; lia|right; lia].
Qed.

Lemma sized_sound o lo hi u a b x : sized_op o lo hi u a b = Ok x -> x = exact o a b /\ (if u then 0 else lo) <= x <= hi.
Proof.
  unfold sized_op, usized_add_check, usized_sub_check, usized_mul_check, sized_add_check, sized_sub_check, sized_mul_check, sized_check, usized_check.
  intros H. destruct u, o; cbn [exact] in *;
  (match type of H with rbind (int64_expr false ?e) _ = _ =>
    destruct (int64_expr false e) eqn:E; try discriminate H; apply int64_expr_false in E; destruct E as [-> E]; cbn [rbind] in H end);
  repeat match type of H with (if ?c then _ else _) = _ => destruct c eqn:?; try discriminate H end;
  injection H as <-; (split; [reflexivity|lia]).
Qed.
Lemma sized_complete o lo hi (u : bool) a b : -9223372036854775808 <= (if u then 0 else lo) -> hi <= 9223372036854775807 -> (if u then 0 else lo) <= exact o a b <= hi -> sized_op o lo hi u a b = Ok (exact o a b).
Proof.
  intros L1 L2 H. assert (I : -9223372036854775808 <= exact o a b <= 9223372036854775807) by lia.
  unfold sized_op, usized_add_check, usized_sub_check, usized_mul_check, sized_add_check, sized_sub_check, sized_mul_check.
  destruct u, o; cbn [exact] in *; rewrite ?usized_ok, ?sized_ok by exact I;
  repeat match goal with |- context [if ?c then _ else _] => let E := fresh in destruct c eqn:E; try reflexivity; try (exfalso; lia) end.
Qed.
Lemma bounds_type l lo' hi' (u : bool) : sized_int_bounds l = Some (lo', hi', u) ->
  (forall x, of_type l x <-> (if u then 0 else lo') <= x <= hi') /\ -9223372036854775808 <= (if u then 0 else lo') /\ hi' <= 9223372036854775807 /\ ~ unsigned64 l.
Proof.
  intros H. split; [|destruct l; try discriminate; injection H as <- <- <-; repeat split; try lia; unfold unsigned64; intuition discriminate].
  intros x. rewrite of_type_num. destruct l; try discriminate; injection H as <- <- <-; lia.
Qed.

(** Direct places: sound and complete for values that the parameters hold. *)
Definition kept (l : ity) (b : Z) : Prop := if match sized_int_bounds l with Some _ => true | None => kind_int l end then as_i64 b = b else as_u64 b = b.
Lemma direct_sound o l r a b v : of_type l a -> kept l b -> direct (Arith o) l r a b = Ok v -> v = exact o a b /\ of_type l v.
Proof.
  intros Ha K. unfold kept in K. unfold direct. destruct (sized_int_bounds l) as [[[lo' hi'] u]|] eqn:Es.
  - destruct (bounds_type _ _ _ _ Es) as (T & _ & _ & N). rewrite (i64_of l a Ha N), K. intros H. apply sized_sound in H as [-> H]. split; [reflexivity|]. now apply T.
  - destruct (kind_int l) eqn:Ki; rewrite K; destruct o; unfold add_check, sub_check, mul_check, uadd_check, usub_check, umul_check, fits_i64, fits_u64, INT64_MIN, INT64_MAX, UINT64_MAX;
    (match goal with |- (if ?c then _ else _) = _ -> _ => destruct c eqn:E; [|] end); try discriminate; intros [= <-]; (split; [reflexivity|]); apply of_type_num; apply of_type_num in Ha; destruct l; try discriminate; clear -E Ha K; try (unfold as_u64, wrap_u in K; change (2 ^ 64) with 18446744073709551616 in K); lia.
Qed.
Lemma direct_complete o l r a b : of_type l a -> kept l b -> of_type l (exact o a b) -> direct (Arith o) l r a b = Ok (exact o a b).
Proof.
  intros Ha K T0. unfold kept in K. unfold direct. destruct (sized_int_bounds l) as [[[lo' hi'] u]|] eqn:Es.
  - destruct (bounds_type _ _ _ _ Es) as (T & L1 & L2 & N). rewrite (i64_of l a Ha N), K. apply sized_complete; [assumption..|]. now apply T.
  - apply of_type_num in T0. destruct (kind_int l) eqn:Ki; rewrite K; destruct o; cbn [exact] in *; unfold add_check, sub_check, mul_check, uadd_check, usub_check, umul_check, fits_i64, fits_u64, INT64_MIN, INT64_MAX, UINT64_MAX;
    (match goal with |- context [if ?c then _ else _] => destruct c eqn:E; [|] end); try reflexivity; exfalso; destruct l; try discriminate; clear -E T0; lia.
Qed.
Lemma kept_same l b : of_type l b -> kept l b.
Proof.
  intros H. unfold kept. destruct (sized_int_bounds l) as [[[lo' hi'] u]|] eqn:Es.
  - apply (i64_of l); [exact H|]. eapply bounds_type. exact Es.
  - destruct (kind_int l) eqn:K; [apply (i64_of l); [exact H|]; destruct l; try discriminate; unfold unsigned64; intuition discriminate|].
    apply (u64_of l); [exact H|]. apply of_type_num in H. destruct l; try discriminate; lia.
Qed.

(** C's operators when the exact result is in the type *)
Lemma c_arith_ok o l a b : of_type l a -> of_type l b -> of_type l (exact o a b) -> c_op (Arith o) l l a b = Ok (exact o a b).
Proof.
  intros Ha Hb Hx. unfold c_op. rewrite !conv_of by assumption. unfold c_arith. change (match o with Add => a + b | Sub => a - b | Mul => a * b end) with (exact o a b).
  revert Hx. generalize (exact o a b). intros x Hx. apply of_type_num in Hx. unfold INT32_MIN, INT32_MAX, fits_i64, INT64_MIN, INT64_MAX.
  destruct l; cbn [common promote]; rewrite ?wu32, ?wu64 by lia; try reflexivity;
  (match goal with |- context [if ?c then _ else _] => destruct c eqn:E; [reflexivity|exfalso; lia] end).
Qed.
Lemma div_result o l r a b v : same_sign l r -> of_type l a -> of_type r b -> direct (Div o) l r a b = Ok v ->
  v = result (Div o) a b /\ b <> 0 /\ ~ (a = lo l /\ b = -1) /\ c_op (Div o) l r a b = Ok v.
Proof.
  intros S Ha Hb H. assert (E := same_div o l r a b S Ha Hb). rewrite H in E.
  assert (B : b <> 0) by (intros ->; cbn in H; discriminate).
  assert (C : c_op (Div o) l r a b = Ok v).
  { unfold direct in H. cbn [Z.eqb] in H. destruct (b =? 0); [discriminate|]. destruct (_ && _); [discriminate|exact H]. }
  destruct S as [[S1 S2]|[S1 S2]].
  - rewrite div_signed in E by assumption. replace (b =? 0) with false in E by lia. destruct ((a =? lo l) && (b =? -1)) eqn:G; [discriminate|]. injection E as E. split; [destruct o; symmetry; exact E|]. split; [exact B|]. split; [lia|exact C].
  - rewrite div_unsigned in E by assumption. replace (b =? 0) with false in E by lia. injection E as E. split; [destruct o; symmetry; exact E|]. split; [exact B|]. split; [|exact C].
    intros [_ ->]. unfold of_type, unsigned in *. lia.
Qed.
Lemma quot_in l r a b : same_sign l r -> of_type l a -> of_type r b -> b <> 0 -> ~ (a = lo l /\ b = -1) -> of_type l (Z.quot a b) /\ of_type l (Z.rem a b).
Proof.
  intros S Ha Hb B N. pose proof (Z.quot_rem' a b) as Q. pose proof (Z.rem_bound_abs a b B) as R.
  assert (Sr : 0 <= a -> 0 <= Z.rem a b) by (intros; now apply Z.rem_nonneg).
  assert (Sn : a <= 0 -> Z.rem a b <= 0) by (intros; now apply Z.rem_nonpos).
  assert (Ar : Z.abs (Z.rem a b) <= Z.abs a).
  { rewrite <- Z.rem_abs by exact B. apply Z.rem_le; lia. }
  assert (Aq : Z.abs (Z.quot a b) <= Z.abs a).
  { rewrite <- Z.quot_abs by exact B. apply Z.quot_le_upper_bound; [lia|]. nia. }
  assert (D : lo l <= 0 /\ (lo l = 0 \/ lo l = - hi l - 1)) by (destruct l; cbn; lia). destruct D as [D1 D2].
  unfold of_type in *. destruct S as [[S1 S2]|[S1 S2]]; unfold signed, unsigned in *.
  - destruct D2 as [D2|D2]; [lia|]. split; [|lia]. destruct (Z.eq_dec a (lo l)) as [Ea|]; [|lia].
    assert (b <> -1) by tauto. assert (b = 1 \/ 2 <= Z.abs b) by lia. destruct H0 as [->|H0]; [rewrite Z.quot_1_r; lia|].
    assert (Z.abs (Z.quot a b) <= Z.abs a / 2).
    { rewrite <- Z.quot_abs by exact B. rewrite <- (Z.quot_div_nonneg (Z.abs a) 2) by lia. apply Z.quot_le_compat_l; lia. }
    clear -H1 Ea D2 S1 Ha. zify; lia.
  - assert (0 <= Z.quot a b) by (apply Z.quot_pos; lia). lia.
Qed.
