(** C109, C110: compound assignments; stored integers. *)
From Verif Require Import Base BaseFacts ArithModel ArithSpec ArithProofs CompoundModel CompoundSpec CompoundProofs.
Ltac Zify.zify_post_hook ::= Z.div_mod_to_equations.

(** ---- C109: [x OP= y] is [x = x OP y] ---- *)
(** For a variable or a field of a struct: the same in every case, panics
    included. *)
Theorem compound_as_written_direct : forall o l read8 a b, of_type l a -> of_type l b ->
  written o l l a b = Some (compound Direct o l l read8 a b).
Proof. intros o l x a b Ha Hb. rewrite same_written by assumption. reflexivity. Qed.
(** Elsewhere: whenever the written-out form does not panic, except for
    divisions of array elements and for elements of one byte. *)
Theorem compound_as_written_partial : forall p o l read8 a b v, of_type l a -> of_type l b ->
  (p = Element -> read8 = a) -> (in_array p -> ~ is_div o) ->
  written o l l a b = Some (Ok v) -> compound p o l l read8 a b = Ok v.
Proof.
  intros p o l x a b v Ha Hb Hx Hd W. rewrite same_written in W by assumption. injection W as W.
  destruct (direct o l l a b) as [w|c| |] eqn:D; try discriminate. cbn [rmap rbind] in W. injection W as W.
  assert (C : c_op o l l a b = Ok w).
  { destruct o as [o|o].
    - destruct (direct_sound _ _ _ _ _ _ Ha (kept_same _ _ Hb) D) as [-> T]. now apply c_arith_ok.
    - eapply div_result; [|exact Ha|exact Hb|exact D]. unfold same_sign, signed, unsigned. destruct l; cbn; first [left; lia|right; lia]. }
  unfold compound. destruct p.
  - rewrite D. cbn [rmap rbind]. now rewrite W.
  - rewrite C. cbn [rmap rbind]. now rewrite W.
  - destruct o as [o|o]; [|exfalso; apply Hd; [left; reflexivity|exact I]]. unfold direct in D. rewrite (Hx eq_refl).
    destruct (sized_int_bounds l) as [[[lo' hi'] u]|] eqn:Es; [|rewrite C; cbn [rmap rbind]; now rewrite W].
    rewrite (i64_of l a Ha) in D by (eapply bounds_type; exact Es). rewrite D. cbn [rmap rbind]. now rewrite W.
  - destruct o as [o|o]; [rewrite C; cbn [rmap rbind]; now rewrite W|exfalso; apply Hd; [right; reflexivity|exact I]].
  - rewrite C. cbn [rmap rbind]. now rewrite W.
Qed.
(** [/=] and [%=] on an element of an array do not divide: the divisor is
    stored. *)
Theorem element_division_refuted : forall p o l read8 a b, in_array p -> of_type l b -> compound p (Div o) l l read8 a b = Ok b.
Proof. intros p o l x a b [->| ->] Hb; cbn [compound rmap rbind]; now rewrite store_id. Qed.
(** Outside variables and struct fields an [int] overflow is undefined, where
    the written-out form panics; *)
Theorem unchecked_overflow_refuted : forall p, p <> Direct -> exists a b, of_type INT a /\ of_type INT b /\
  written (Arith Add) INT INT a b = Some (Panic 4) /\ compound p (Arith Add) INT INT a a b = UB.
Proof.
  intros p N. exists INT64_MAX, 1. split; [unfold of_type; vm_compute; split; discriminate|]. split; [unfold of_type; vm_compute; split; discriminate|].
  split; [reflexivity|]. destruct p; [contradiction|reflexivity..].
Qed.
(** an unsigned result wraps around, *)
Theorem unchecked_wrap_refuted : forall p t, p = Pointed \/ p = FieldElement \/ p = Entry -> unsigned t ->
  exists code, written (Arith Add) t t (hi t) 1 = Some (Panic code) /\ compound p (Arith Add) t t (hi t) (hi t) 1 = Ok 0.
Proof.
  intros p t P U. unfold unsigned in U. destruct t; try (exfalso; vm_compute in U; discriminate); eexists; (split; [reflexivity|]); destruct P as [->|[->| ->]]; reflexivity.
Qed.
(** and a zero divisor is not found. *)
Theorem unchecked_zero_refuted : forall p o t read8 a, p = Pointed \/ p = Entry ->
  written (Div o) t t a 0 = Some (Panic 78) /\ compound p (Div o) t t read8 a 0 = UB.
Proof.
  intros p o t x a P. split.
  - unfold written, eval_div. destruct (sized_int_bounds t) as [[[? ?] [|]]|] eqn:E; destruct t; try discriminate; reflexivity.
  - destruct P as [->| ->]; unfold compound, c_op, c_div; replace (conv (common t t) 0) with 0 by (destruct t; reflexivity); cbn [Z.eqb orb rmap rbind]; reflexivity.
Qed.
(** An element of a byte array is read together with the seven bytes after
    it: the addition panics unless they are zero. *)
Theorem byte_element_refuted : forall after a b, of_type BYTE a -> of_type BYTE b -> 0 < after < 2 ^ 54 ->
  compound Element (Arith Add) BYTE BYTE (a + 256 * after) a b = Panic 15.
Proof.
  intros n a b Ha Hb L. rewrite of_type_num in *. unfold compound. cbn [sized_int_bounds sized_op]. unfold usized_add_check. unfold as_i64. rewrite (wi64 b) by lia. rewrite usized_ok by lia.
  replace (_ <? 0) with false by lia. replace (_ <=? 255) with false by lia. reflexivity.
Qed.
(** Target and value of different types: exact when the value fits the
    parameter of the checked function, i.e. an int64_t, and for uint and u64 a
    uint64_t. *)
Theorem compound_exact_partial : forall o l r read8 a b, of_type l a -> of_type r b ->
  (if Z.eq_dec (hi l) (hi U64) then 0 <= b else b <= hi I64) ->
  (forall v, compound Direct (Arith o) l r read8 a b = Ok v -> v = exact o a b /\ of_type l v) /\
  (of_type l (exact o a b) -> compound Direct (Arith o) l r read8 a b = Ok (exact o a b)).
Proof.
  intros o l r x a b Ha Hb C.
  assert (K : kept l b).
  { unfold kept. apply of_type_num in Hb. destruct l; cbn in C |- *; try (apply wi64; cbn in C; destruct r; lia); apply wu64; destruct r; lia. }
  unfold compound. split.
  - intros v H. destruct (direct (Arith o) l r a b) as [w|c| |] eqn:D; try discriminate. cbn in H. injection H as <-. destruct (direct_sound _ _ _ _ _ _ Ha K D) as [-> T]. rewrite store_id by exact T. split; [reflexivity|exact T].
  - intros T. rewrite (direct_complete o l r a b Ha K T). cbn [rmap rbind]. now rewrite store_id.
Qed.
Theorem compound_exact_refuted :
  compound Direct (Arith Add) U64 INT 0 0 (-1) = Ok (hi U64) /\ compound Direct (Arith Add) INT U64 5 5 (hi U64) = Ok 4.
Proof. split; reflexivity. Qed.
(** and then it need not be the written-out form, which computes in the wider
    type and stores without a check *)
Theorem mixed_as_written_refuted :
  compound Direct (Arith Add) I8 I16 100 100 100 = Panic 11 /\ written (Arith Add) I8 I16 100 100 = Some (Ok (-56)).
Proof. split; reflexivity. Qed.
Lemma some_inj {A} (x y : A) : Some x = Some y -> x = y.
Proof. congruence. Qed.
(** Divisions of variables by values of any type of the same signedness *)
Theorem compound_division : forall o l r read8 a b, same_sign l r -> of_type l a -> of_type r b ->
  (b = 0 -> compound Direct (Div o) l r read8 a b = Panic 78) /\
  (signed l -> a = lo l -> b = -1 -> compound Direct (Div o) l r read8 a b = Panic 79) /\
  (b <> 0 -> ~ (a = lo l /\ b = -1) -> compound Direct (Div o) l r read8 a b = Ok (result (Div o) a b)).
Proof.
  intros o l r x a b S Ha Hb. assert (E := same_div o l r a b S Ha Hb). unfold compound. split; [|split].
  - intros ->. reflexivity.
  - intros Sl -> ->. destruct S as [[_ Sr]|[Su _]]; [|unfold signed, unsigned in *; lia]. rewrite div_signed in E by assumption. change (-1 =? 0) with false in E. rewrite Z.eqb_refl in E. change (-1 =? -1) with true in E. cbv beta iota delta [andb] in E. apply some_inj in E. rewrite <- E. reflexivity.
  - intros B N. destruct (quot_in l r a b S Ha Hb B N) as [Q R].
    assert (D : direct (Div o) l r a b = Ok (result (Div o) a b)).
    { destruct S as [[S1 S2]|[S1 S2]]; [rewrite div_signed in E by assumption|rewrite div_unsigned in E by assumption]; replace (b =? 0) with false in E by lia; [replace ((a =? lo l) && (b =? -1)) with false in E by lia|]; apply some_inj in E; rewrite <- E; destruct o; reflexivity. }
    rewrite D. cbn [rmap rbind]. rewrite store_id; [reflexivity|]. destruct o; cbn [result]; assumption.
Qed.
(** [x++] is [x += 1] and [x = x + 1]; [x--] likewise. *)
Theorem step_as_written : forall (up : bool) t read8 a, of_type t a -> let o := Arith (if up then Add else Sub) in
  rmap (store t) (eval_step false up t a) = compound Direct o t INT read8 a 1 /\ written o t INT a 1 = Some (compound Direct o t INT read8 a 1).
Proof.
  intros up t x a Ha o. subst o. assert (Eb : as_i64 1 = 1) by reflexivity. assert (Eu : as_u64 1 = 1) by reflexivity.
  unfold written, eval_arith, eval_step, compound, direct. cbn [option_map].
  destruct (sized_int_bounds t) as [[[lo' hi'] u]|] eqn:Es.
  - assert (Et : sized_name t INT = t) by (destruct t; try discriminate; reflexivity). rewrite Et, Es, Eb, (i64_of t a Ha) by (eapply bounds_type; exact Es). destruct u, up; split; reflexivity.
  - assert (Et : sized_int_bounds (sized_name t INT) = None) by (destruct t; try discriminate; reflexivity). rewrite Et. rewrite Eb, Eu.
    destruct (kind_int t) eqn:Ki.
    + assert (Ku : kind_uint t = false) by (destruct t; try discriminate; reflexivity). rewrite Ku. cbn [kind_uint orb].
      rewrite (i64_of t a Ha) by (destruct t; try discriminate; unfold unsigned64; intuition discriminate). destruct up; split; reflexivity.
    + assert (Ku : kind_uint t = true) by (destruct t; try discriminate; reflexivity). rewrite Ku. cbn [kind_uint orb].
      rewrite (u64_of t a Ha) by (apply of_type_num in Ha; destruct t; try discriminate; lia). destruct up; split; reflexivity.
Qed.
Print Assumptions compound_as_written_direct.
Print Assumptions compound_as_written_partial.
Print Assumptions element_division_refuted.
Print Assumptions unchecked_overflow_refuted.
Print Assumptions unchecked_wrap_refuted.
Print Assumptions unchecked_zero_refuted.
Print Assumptions byte_element_refuted.
Print Assumptions compound_exact_partial.
Print Assumptions compound_exact_refuted.
Print Assumptions mixed_as_written_refuted.
Print Assumptions compound_division.
Print Assumptions step_as_written.
Example compound_case :
  of_type I16 30000 /\ written (Arith Add) I16 I16 30000 2000 = Some (Ok 32000) /\ compound Entry (Arith Add) I16 I16 0 30000 2000 = Ok 32000 /\
  compound Direct (Arith Add) I16 I16 0 30000 3000 = Panic 11 /\ compound Entry (Arith Add) I16 I16 0 30000 3000 = Ok (-32536) /\
  compound Direct (Div Quo) INT INT 0 (-7) 2 = Ok (-3) /\ compound Element (Div Quo) INT INT 0 (-7) 2 = Ok 2 /\
  compound Direct (Arith Sub) UINT UINT 0 3 5 = Panic 9.
Proof. split; [unfold of_type; vm_compute; split; discriminate|]. vm_compute. repeat split. Qed.

(** ---- C110: a stored integer keeps its value ---- *)
(** A declaration or an argument of a small type: exact or a panic. *)
Theorem declare_exact_or_panic_partial : forall t v, small t -> v <= hi I64 -> lo I64 <= v ->
  exact_or_panic t v (if (lo t =? 0) then 19 else 18) (declare t v).
Proof.
  intros t v St L1 L2. cbn in L1, L2. unfold exact_or_panic, declare. assert (E : as_i64 v = v) by (apply wi64; lia). rewrite !of_type_num.
  destruct t; try (exfalso; apply St; unfold wide; tauto); cbn [sized_int_bounds lo]; rewrite E; change (- 2 ^ 7 =? 0) with false; change (- 2 ^ 15 =? 0) with false; change (- 2 ^ 31 =? 0) with false; change (0 =? 0) with true; cbv iota;
  unfold cast_check, ucast_check; (match goal with |- context [if ?c then Panic _ else _] => destruct c eqn:Ec end); split; intros; try reflexivity; exfalso; lia.
Qed.
(** Any place, with a value that the type has *)
Theorem stored_exact_partial : forall t v, of_type t v -> assign t v = Ok v /\ (wide t -> declare t v = Ok v).
Proof.
  intros t v H. unfold assign, declare. rewrite store_id by exact H. split; [reflexivity|]. intros [->|[->|[->| ->]]]; cbn [sized_int_bounds]; reflexivity.
Qed.
(** An assignment of a value that the type does not have never panics: the
    place holds another number.  So do declarations of the 64-bit types, and
    those of small types with a uint above the largest int. *)
Theorem assigned_exact_refuted : forall t v, ~ of_type t v -> exists w, assign t v = Ok w /\ of_type t w /\ w <> v.
Proof. intros t v N. exists (store t v). split; [reflexivity|]. split; [apply store_of|]. intros E. apply N. rewrite <- E. apply store_of. Qed.
Theorem declared_exact_refuted :
  (forall t v, wide t -> ~ of_type t v -> exists w, declare t v = Ok w /\ of_type t w /\ w <> v) /\ declare I8 (hi U64) = Ok (-1).
Proof.
  split; [|reflexivity]. intros t v W N. exists (store t v). split; [destruct W as [->|[->|[->| ->]]]; reflexivity|]. split; [apply store_of|]. intros E. apply N. rewrite <- E. apply store_of.
Qed.
Print Assumptions declare_exact_or_panic_partial.
Print Assumptions stored_exact_partial.
Print Assumptions assigned_exact_refuted.
Print Assumptions declared_exact_refuted.
Example stored_case : small U8 /\ declare U8 300 = Panic 19 /\ declare U8 (-1) = Panic 19 /\ declare I16 (-300) = Ok (-300) /\ assign U8 300 = Ok 44 /\ assign U64 (-1) = Ok 18446744073709551615.
Proof. split; [unfold small, wide; intuition discriminate|]. vm_compute. repeat split. Qed.
