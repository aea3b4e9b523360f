(** C116-C118: integer constants, array sizes and literals. *)
From Verif Require Import Base BaseFacts LexModel LexProofs Decimal TypesModel TypesSpec ConstModel ConstSpec ConstProofs ConstProofs2.
Notation fits := ConstSpec.fits.

Definition nothing : bytes -> option Z := fun _ => None.
Lemma agree_nil env : agree [] env.
Proof. intros n v []. Qed.
Lemma fresh_nil (l : list bytes) n : In n l -> ~ In n (map fst (@nil (bytes * Z))).
Proof. intros _ []. Qed.

Lemma int_types l : Forall (fun d => In (ctype d) integer_types) l -> Forall (fun d => const_int_type (ctype d) = true) l.
Proof.
  assert (H : forallb const_int_type integer_types = true) by (vm_compute; reflexivity). rewrite forallb_forall in H.
  apply Forall_impl. intros d I. now apply H.
Qed.
Lemma number_iff s : numeric s = true <-> number s.
Proof. unfold numeric, number. rewrite forallb_forall, Forall_forall. split; intros H c I; specialize (H c I); lia. Qed.
Lemma not_number s : ~ number s -> numeric s = false.
Proof. intros H. destruct (numeric s) eqn:E; [|reflexivity]. now apply number_iff in E. Qed.

(** ** C116: constants *)
(** Constants of different names: a value the compiler knows for one is its
    exact value, and lies in 64 bits. *)
Theorem constant_exact_partial l t k n v :
  NoDup (map cname l) -> Forall (fun d => plain (cexpr d)) l -> declare [] l = Ok (t, k) -> In (n, v) t ->
  env_of nothing l n = Some v /\ int64 v.
Proof. intros N P D I. exact (proj1 (declare_agree l [] nothing t k (agree_nil _) N (fresh_nil _) P D) n v I). Qed.
Print Assumptions constant_exact_partial.

(** The report of an overflow: some part of the expression does not fit. *)
Theorem overflow_real_partial l d t k t' :
  NoDup (map cname (l ++ [d])) -> Forall (fun d => plain (cexpr d)) (l ++ [d]) -> declare [] l = Ok (t, k) -> declare1 t d = Ok (t', true) ->
  exists p z, part p (cexpr d) /\ value (env_of nothing l) p = Some z /\ ~ int64 z.
Proof.
  intros N P D E. rewrite map_app in N. apply Forall_app in P as [P1 P2]. inversion P2 as [|? ? P3 _]; subst.
  assert (N1 : NoDup (map cname l)) by (apply (NoDup_remove (map cname l) [] (cname d)) in N as [N _]; now rewrite app_nil_r in N).
  assert (N2 : ~ In (cname d) (map cname l)) by (apply (NoDup_remove (map cname l) [] (cname d)) in N as [_ N]; now rewrite app_nil_r in N).
  destruct (declare_agree l [] nothing t k (agree_nil _) N1 (fresh_nil _) P1 D) as [A F].
  apply (declare1_agree t (env_of nothing l) d t' true A); [|exact P3|exact E|reflexivity].
  intros I. apply F in I as [[]|I]. contradiction.
Qed.
Print Assumptions overflow_real_partial.

(** Constants computed within 64 bits are all accepted and known. *)
Theorem constants_known_partial l :
  NoDup (map cname l) -> Forall (fun d => In (ctype d) integer_types) l -> computable nothing l ->
  exists t, declare [] l = Ok (t, 0%nat) /\ forall n v, In (n, v) t <-> env_of nothing l n = Some v.
Proof.
  intros N T C. apply int_types in T. destruct (declare_complete l [] nothing (agree_nil _)) as (t & E & A & K); try assumption; [intros n v H; discriminate H|apply fresh_nil|].
  exists t. split; [exact E|]. intros n v. split; [intros I; now apply A|apply K].
Qed.
Print Assumptions constants_known_partial.

Definition hex_decl := Const (bs "N") (bs "int") (Bin Mul (Bin Add (Lit 3) (Neg (Lit 1))) (Lit 21)).
Definition rem_decl := Const (bs "M") (bs "i64") (Bin Mod (Name (bs "N")) (Bin Sub (Lit 0) (Lit 5))).
Example constants_case :
  declare [] [hex_decl; rem_decl; Const (bs "B") (bs "int") (Bin Mul (Lit 9223372036854775807) (Name (bs "M")))] =
    Ok ([(bs "N", 42); (bs "M", 2)], 1%nat).
Proof. vm_compute. reflexivity. Qed.
Example computable_case : computable nothing [hex_decl; rem_decl].
Proof.
  assert (L : forall v, 0 <= v < 100 -> 0 <= v /\ (v < 2 ^ 63 \/ 2 ^ 64 <= v)).
  { intros v H. split; [lia|]. left. change (2 ^ 63) with 9223372036854775808. lia. }
  assert (J : forall v, -100 <= v <= 100 -> int64 v) by (intros v H; unfold int64; change (2 ^ 63) with 9223372036854775808; lia).
  assert (D : forall env o l r, (o = Div \/ o = Mod -> value env r <> Some (-1)) -> ~ overflowing_division env (Bin o l r)).
  { intros env o l r H (o' & l' & r' & E & O & _ & V). injection E as <- <- <-. now apply H. }
  assert (D1 : forall env v, ~ overflowing_division env (Lit v)) by (intros env v (o' & l' & r' & E & _); discriminate E).
  assert (D2 : forall env e, ~ overflowing_division env (Neg e)) by (intros env v (o' & l' & r' & E & _); discriminate E).
  assert (D3 : forall env n, ~ overflowing_division env (Name n)) by (intros env v (o' & l' & r' & E & _); discriminate E).
  cbn [computable hex_decl rem_decl cexpr cname]. split; [|split; [|split; [|split; [|split; [|split; [|exact I]]]]]].
  - repeat constructor; discriminate.
  - unfold plain. cbn. repeat (apply Forall_cons; [apply L; lia|]); apply Forall_nil.
  - intros p P. repeat match goal with H : part _ (Bin _ _ _) |- _ => inversion H; clear H; subst | H : part _ _ |- _ => inversion H; clear H; subst end;
      (split; [eexists; split; [reflexivity|apply J; vm_compute; split; discriminate]|]); first [apply D1|apply D2|apply D3|apply D; intros [O|O]; try discriminate O; vm_compute; discriminate].
  - repeat constructor; discriminate.
  - unfold plain. cbn. repeat (apply Forall_cons; [apply L; lia|]); apply Forall_nil.
  - intros p P. repeat match goal with H : part _ (Bin _ _ _) |- _ => inversion H; clear H; subst | H : part _ _ |- _ => inversion H; clear H; subst end;
      (split; [eexists; split; [reflexivity|apply J; vm_compute; split; discriminate]|]); first [apply D1|apply D2|apply D3|apply D; intros [O|O]; try discriminate O; vm_compute; discriminate].
Qed.

(** Without these conditions none of this holds.  A literal between 2^63 and
    2^64 counts as negative, so that a sum above 2^64 is accepted as 5; a
    constant that fits its type i128 or u64 is reported as overflowing; the
    smallest number divided by -1 crashes the compiler. *)
Theorem constants_exact_refuted :
  (exists l t, declare [] l = Ok (t, 0%nat) /\ In (bs "N", 5) t /\ env_of nothing l (bs "N") = Some (2 ^ 64 + 5)) /\
  (exists t, declare [] [Const (bs "N") (bs "i128") (Lit (2 ^ 64))] = Ok (t, 1%nat)) /\
  (exists t, declare [] [Const (bs "N") (bs "u64") (Bin Add (Lit (2 ^ 63 - 1)) (Lit 1))] = Ok (t, 1%nat)) /\
  declare [] [Const (bs "N") (bs "int") (Bin Mod (Bin Sub (Neg (Lit (2 ^ 63 - 1))) (Lit 1)) (Neg (Lit 1)))] = UB.
Proof.
  split; [|split; [|split]].
  - exists [Const (bs "N") (bs "u64") (Bin Add (Lit 18446744073709551615) (Lit 6))], [(bs "N", 5)].
    split; [vm_compute; reflexivity|]. split; [left; reflexivity|vm_compute; reflexivity].
  - exists []. vm_compute. reflexivity.
  - exists []. vm_compute. reflexivity.
  - vm_compute. reflexivity.
Qed.
Print Assumptions constants_exact_refuted.

(** ** C117: array sizes *)
(** With constants of different names, a name as an array size means the value
    of that constant. *)
Theorem array_size_exact_partial l e n v :
  NoDup (map cname l) -> Forall (fun d => In (ctype d) integer_types) l -> computable nothing l ->
  wf e -> word n -> ~ number n -> Z.of_nat (length n) < 256 ->
  env_of nothing l n = Some v -> v < 2 ^ 31 ->
  exists t, declare [] l = Ok (t, 0%nat) /\
    resolve_array_size t (show (TFix e n)) = if 0 <? v then Rewritten (show (TFix e (dec v))) else NotPositive.
Proof.
  intros N T C W Wn NU L V B. apply int_types in T. apply not_number in NU. destruct (declare_complete l [] nothing (agree_nil _)) as (t & E & A & K); try assumption; [intros m w H; discriminate H|apply fresh_nil|].
  exists t. split; [exact E|]. rewrite resolve_name by assumption. rewrite NU. destruct (look_some t n v (K _ _ V)) as [w LK].
  rewrite LK. apply look_in in LK. destruct (A n w LK) as [V' _]. rewrite V in V'. apply some_inj in V' as <-.
  destruct (0 <? v) eqn:P; [replace (v <=? 0) with false by lia|replace (v <=? 0) with true by lia; reflexivity].
  assert (EW : wrap_i 32 v = v).
  { unfold wrap_i. change (2 ^ 31) with 2147483648 in B. change (2 ^ 32) with 4294967296. change (2 ^ (32 - 1)) with 2147483648.
    rewrite Z.mod_small by lia. replace (v <? 2147483648) with true by lia. reflexivity. }
  rewrite EW. unfold dec_signed. replace (v <? 0) with false by lia. reflexivity.
Qed.
Print Assumptions array_size_exact_partial.
(** A name that is no constant is reported; a number stays as it is. *)
Theorem array_size_unknown l e n t k :
  NoDup (map cname l) -> Forall (fun d => plain (cexpr d)) l -> declare [] l = Ok (t, k) ->
  wf e -> word n -> Z.of_nat (length n) < 256 ->
  (number n -> resolve_array_size t (show (TFix e n)) = Unchanged) /\
  (~ number n -> ~ In n (map cname l) -> resolve_array_size t (show (TFix e n)) = NotConst).
Proof.
  intros N P D W Wn L. rewrite resolve_name by assumption. split; [intros H; apply number_iff in H; now rewrite H|]. intros H NI. apply not_number in H. rewrite H.
  destruct (look t n) as [v|] eqn:LK; [|reflexivity]. apply look_in in LK.
  destruct (declare_agree l [] nothing t k (agree_nil _) N (fresh_nil _) P D) as [_ F]. apply (in_map fst) in LK. apply F in LK as [[]|LK]. contradiction.
Qed.
Print Assumptions array_size_unknown.
Example array_size_case :
  resolve_array_size [(bs "N", 42)] (bs "[map[int:[u8,4]],N]") = Rewritten (bs "[map[int:[u8,4]],42]") /\
  resolve_array_size [(bs "N", 42)] (bs "[func(int,int)->int,K]") = NotConst /\
  resolve_array_size [(bs "N", 0)] (bs "[int,N]") = NotPositive.
Proof. vm_compute. repeat split. Qed.
(** A size beyond 32 bits is cut off.  Of two functions that each have a
    constant of one name, the second gets the size of the first. *)
Theorem array_size_refuted :
  (exists l t, declare [] l = Ok (t, 0%nat) /\ env_of nothing l (bs "N") = Some (2 ^ 32 + 1) /\
     resolve_array_size t (bs "[int,N]") = Rewritten (bs "[int,1]")) /\
  (exists f g t, declare [] (f ++ g) = Ok (t, 0%nat) /\ env_of nothing g (bs "N") = Some 5 /\
     resolve_array_size t (bs "[int,N]") = Rewritten (bs "[int,3]")).
Proof.
  split.
  - exists [Const (bs "N") (bs "int") (Lit 4294967297)], [(bs "N", 4294967297)]. vm_compute. repeat split.
  - exists [Const (bs "N") (bs "int") (Lit 3)], [Const (bs "N") (bs "int") (Lit 5)], [(bs "N", 3); (bs "N", 5)]. vm_compute. repeat split.
Qed.
Print Assumptions array_size_refuted.

(** ** C118: literals *)
Lemma some_pair (a b c d : Z) : Some (a, b) = Some (c, d) -> a = c /\ b = d.
Proof. intros H. split; congruence. Qed.
Lemma fits_range tn lo hi z : range tn = Some (lo, hi) -> (fits tn z <-> (lo <=? z) && (z <=? hi) = true).
Proof.
  intros R. unfold fits. split.
  - intros (lo' & hi' & R' & B). rewrite R in R'. apply some_pair in R' as [<- <-]. lia.
  - intros B. exists lo, hi. split; [exact R|lia].
Qed.
(** A declaration with one literal as its value is rejected exactly if the
    literal does not fit the declared type. *)
Theorem literal_fits tn lo hi v : range tn = Some (lo, hi) -> 0 <= v ->
  exists b, declaration_error tn (Lit v) = Ok b /\ (b = true <-> ~ fits tn v).
Proof.
  intros R V. exists (negb ((lo <=? v) && (v <=? hi))). split; [|rewrite (fits_range tn lo hi v R); destruct ((lo <=? v) && (v <=? hi)); cbn; intuition congruence].
  unfold declaration_error, literal_unfit, literal_overflows, overflow, overflow_u64. destruct (INT64_MAX <? v) eqn:O; cbn [rmap rbind].
  - rewrite orb_false_r. f_equal. apply range_cases in R. unfold INT64_MIN, INT64_MAX, U64_MAX in *. unfold is_bigint, is_u64_like. cbn [existsb]. cbn [In] in R.
    repeat (destruct R as [R|R]; [apply pair_equal_spec in R as [<- R]; apply pair_equal_spec in R as [<- <-]; names; cbn [orb andb negb]; destruct (18446744073709551615 <? v) eqn:U; lia|]).
    destruct R.
  - cbn [try_get_literal_int rmap rbind orb]. unfold INT64_MAX in O. rewrite int_value_small by (change (2 ^ 63) with 9223372036854775808; lia).
    f_equal. apply out_of_range_exact; [exact R|]. unfold int64. change (2 ^ 63) with 9223372036854775808. lia.
Qed.
Print Assumptions literal_fits.
(** The same for sums, differences, products and quotients of literals below
    2^63 whose parts all lie in 64 bits, also in a later assignment. *)
Theorem literal_expression_fits_partial tn lo hi e :
  range tn = Some (lo, hi) -> plain e -> constant_shape e ->
  (forall p, part p e -> (exists v, value nothing p = Some v /\ int64 v) /\ (forall l r, p <> Bin Mod l r)) ->
  exists v b, value nothing e = Some v /\ declaration_error tn e = Ok b /\ assignment_error tn e = Ok b /\ (b = true <-> ~ fits tn v).
Proof.
  intros R P S D. destruct (lit_try nothing e P S) as (v & V & I & T).
  { intros p H. destruct (D p H) as [(z & Vz & Iz) M]. split; [eauto|]. split; [exact M|]. intros n ->. discriminate Vz. }
  exists v, (negb ((lo <=? v) && (v <=? hi))). split; [exact V|].
  assert (A : assignment_error tn e = Ok (negb ((lo <=? v) && (v <=? hi)))).
  { unfold assignment_error. rewrite T. cbn [rmap rbind]. f_equal. apply out_of_range_exact; assumption. }
  split; [|split; [exact A|rewrite (fits_range tn lo hi v R); destruct ((lo <=? v) && (v <=? hi)); cbn; intuition congruence]].
  unfold declaration_error, literal_unfit. fold (assignment_error tn e). rewrite A.
  assert (O : match e with Lit w => overflow w | _ => false end = false).
  { destruct e; try reflexivity. cbn [value] in V. apply some_inj in V as ->. unfold overflow, INT64_MAX. unfold int64 in I. change (2 ^ 63) with 9223372036854775808 in I. lia. }
  rewrite O. cbn [rmap rbind]. f_equal. destruct e; try reflexivity. unfold literal_overflows. rewrite O. reflexivity.
Qed.
Print Assumptions literal_expression_fits_partial.
Example literal_case :
  declaration_error (bs "u8") (Lit 256) = Ok true /\ declaration_error (bs "u8") (Bin Sub (Lit 256) (Lit 1)) = Ok false /\
  declaration_error (bs "i8") (Neg (Lit 129)) = Ok true /\ declaration_error (bs "u64") (Lit 18446744073709551615) = Ok false /\
  declaration_error (bs "uint") (Lit 18446744073709551616) = Ok true /\ assignment_error (bs "i16") (Bin Mul (Lit 200) (Lit 200)) = Ok true.
Proof. vm_compute. repeat split. Qed.
(** Beyond that the check is wrong both ways. *)
Theorem literal_expression_fits_refuted :
  assignment_error (bs "u64") (Lit (2 ^ 64 - 1)) = Ok true /\ fits (bs "u64") (2 ^ 64 - 1) /\
  assignment_error (bs "int") (Lit (2 ^ 64 - 1)) = Ok false /\ ~ fits (bs "int") (2 ^ 64 - 1) /\
  declaration_error (bs "i8") (Neg (Lit (2 ^ 64 - 1))) = Ok false /\ ~ fits (bs "i8") (- (2 ^ 64 - 1)) /\
  declaration_error (bs "u8") (Bin Mod (Lit 1000) (Lit 600)) = Ok false /\ ~ fits (bs "u8") (Z.rem 1000 600) /\
  declaration_error (bs "int") (Bin Add (Lit (2 ^ 63 - 1)) (Lit 1)) = UB.
Proof.
  split; [vm_compute; reflexivity|]. split; [exists 0, (2 ^ 64 - 1); split; [reflexivity|lia]|].
  split; [vm_compute; reflexivity|]. split; [intros (lo & hi & R & B); vm_compute in R; injection R as <- <-; vm_compute in B; intuition congruence|].
  split; [vm_compute; reflexivity|]. split; [intros (lo & hi & R & B); vm_compute in R; injection R as <- <-; vm_compute in B; intuition congruence|].
  split; [vm_compute; reflexivity|]. split; [intros (lo & hi & R & B); vm_compute in R; injection R as <- <-; vm_compute in B; intuition congruence|].
  vm_compute. reflexivity.
Qed.
Print Assumptions literal_expression_fits_refuted.
