(** The C code written for an expression computes it as it was written, and
    evaluates its operands once. *)
From Verif Require Import Base BaseFacts ArithModel EmitModel EmitSpec EmitProofs EmitProofs2 EmitProofs3 EmitProofs4.
From Coq Require Import Permutation.

(** C reads the tokens in exactly one way, and then the operations are those of
    the source, on the same operands.  Missing: a division outside of constants
    whose dividend is a sum or difference of floats, and [in range] in constants. *)
Theorem grouping_kept_partial file line tname in_const e :
  typed e ->
  (in_const = false -> forall x, inside x e -> ~ float_sum_divided x) ->
  (in_const = true -> forall x, inside x e -> ~ is_range x) ->
  exists c, c_reads (emit_expression file line tname in_const e) c /\
    (forall c', c_reads (emit_expression file line tname in_const e) c' -> c' = c) /\
    ops (fun _ => None) c = Some (source e).
Proof.
  intros Ty F R. destruct (emit_good file line tname in_const (fun _ _ => true) e Ty) as [c G].
  { intros x J. split; [intros E; now apply F|]. intros E b y s t d ->. apply (R E _ J). exact I. }
  assert (C : c_reads (emit_expression file line tname in_const e) c).
  { pose proof (good_full _ _ _ _ _ _ _ G [] I) as H. now rewrite app_nil_r in H. }
  exists c. split; [exact C|]. split; [|apply G]. intros c' C'. exact (c_reads_once _ _ _ C' C).
Qed.
Print Assumptions grouping_kept_partial.
(** !(a - (b - c) / d < e) || f == g, on ints *)
Definition grouping_witness : expr :=
  let i n := Leaf false (EInt INT) n in
  Infix OOr (Prefix Not (Infix OLt (Infix OSub (i 0%nat) (Infix ODiv (Infix OSub (i 1%nat) (i 2%nat)) (i 3%nat))) (i 4%nat))) (Infix OEq (i 5%nat) (i 6%nat)).
Example grouping_kept_case : typed grouping_witness /\ (forall x, inside x grouping_witness -> ~ float_sum_divided x) /\ (forall x, inside x grouping_witness -> ~ is_range x) /\
  source grouping_witness = Bi BarBar (Un Bang (Bi Lt (Bi Minus (K 0) (Bi Slash (Bi Minus (K 1) (K 2)) (K 3))) (K 4))) (Bi EqEq (K 5) (K 6)).
Proof.
  split; [|split; [|split; [|reflexivity]]].
  - unfold grouping_witness. cbv zeta. repeat first [apply t_leaf | apply t_not; [|reflexivity] | apply t_logic; [cbn; auto 10; fail| | |reflexivity|reflexivity]
      | apply t_equal; [cbn; auto 10; fail| | |left; split; exact I] | apply t_arith; [cbn; auto 10; fail| | |exact I|exact I]].
  - intros x J (o & l & r & b & O & E & T). unfold grouping_witness in J. cbv zeta in J.
    repeat match goal with H : inside _ _ |- _ => inversion H; clear H; subst end; try discriminate; injection E as <- <- <- <-; discriminate.
  - intros x J R. unfold grouping_witness in J. cbv zeta in J. repeat match goal with H : inside _ _ |- _ => inversion H; clear H; subst end; exact R.
Qed.

(** (a + b) / c on floats becomes a + b / c; and in a constant, 5 + (x in
    range(..)) aside, x in range(s, t, d) with a sum for x is read differently. *)
Theorem grouping_refuted file line tname :
  (exists e c, typed e /\ c_reads (emit_expression file line tname false e) c /\
     source e = Bi Slash (Bi Plus (K 0) (K 1)) (K 2) /\ ops (fun _ => None) c = Some (Bi Plus (K 0) (Bi Slash (K 1) (K 2)))) /\
  (exists e c, typed e /\ c_reads (emit_expression file line tname true e) c /\
     source e = Bi AmpAmp (Bi AmpAmp (Bi Ge (K 0) (Bi Plus (K 1) (K 2))) (Bi Lt (K 0) (K 3))) (Bi EqEq (Bi Percent (Bi Minus (K 0) (Bi Plus (K 1) (K 2))) (K 4)) (Lit 0)) /\
     ops (fun _ => None) c = Some (Bi AmpAmp (Bi AmpAmp (Bi Ge (K 0) (Bi Plus (K 1) (K 2))) (Bi Lt (K 0) (K 3))) (Bi EqEq (Bi Percent (Bi Plus (Bi Minus (K 0) (K 1)) (K 2)) (K 4)) (Lit 0)))).
Proof.
  split.
  - exists (Infix ODiv (Infix OAdd (Leaf false EFloat 0) (Leaf false EFloat 1)) (Leaf false EFloat 2)).
    eexists. split; [|split; [unfold c_reads; cbn; qe|split; reflexivity]].
    repeat first [apply t_leaf | apply t_arith; [cbn; auto 10; fail| | |exact I|exact I]].
  - exists (let i n := Leaf false (EInt INT) n in InRange false (i 0%nat) (Some (Infix OAdd (i 1%nat) (i 2%nat))) (i 3%nat) (Some (i 4%nat))). cbv zeta.
    eexists. split; [|split; [unfold c_reads; cbn; qe|split; reflexivity]].
    apply t_range; try apply t_leaf; try exact I.
    + intros y E. injection E as <-. split; [|exact I]. apply t_arith; [cbn; auto 10; fail|apply t_leaf|apply t_leaf|exact I|exact I].
    + intros y E. injection E as <-. split; [apply t_leaf|exact I].
Qed.
Print Assumptions grouping_refuted.

(** Whatever order a C compiler chooses: the operands with effects are evaluated
    exactly as often as they should be.  Missing: [x in range(..)] with effects. *)
Theorem operands_evaluated_once_partial decides eff file line tname in_const e c l :
  typed e ->
  (in_const = false -> forall x, inside x e -> ~ float_sum_divided x) ->
  (in_const = true -> forall x, inside x e -> ~ is_range x) ->
  (forall x, inside x e -> is_range x -> ~ effects eff x) ->
  c_reads (emit_expression file line tname in_const e) c ->
  evals decides (fun _ => None) c l ->
  Permutation (filter eff l) (filter eff (left_to_right decides e)).
Proof.
  intros Ty F R N C V. destruct (emit_good file line tname in_const decides e Ty) as [c' G].
  { intros x J. split; [intros E; now apply F|]. intros E b y s t d ->. apply (R E _ J). exact I. }
  assert (C' : c_reads (emit_expression file line tname in_const e) c').
  { pose proof (good_full _ _ _ _ _ _ _ G [] I) as H. now rewrite app_nil_r in H. }
  rewrite (c_reads_once _ _ _ C C') in V. apply any_once; [|exact N]. eapply G. exact V.
Qed.
Print Assumptions operands_evaluated_once_partial.
(** ... and from left to right, if no operator other than && and || has effects
    on both sides. *)
Theorem left_to_right_partial decides eff file line tname in_const e c l :
  typed e ->
  (in_const = false -> forall x, inside x e -> ~ float_sum_divided x) ->
  (in_const = true -> forall x, inside x e -> ~ is_range x) ->
  (forall x, inside x e -> is_range x -> ~ effects eff x) ->
  (forall x, inside x e -> ~ both_sides eff x) ->
  c_reads (emit_expression file line tname in_const e) c ->
  evals decides (fun _ => None) c l ->
  filter eff l = filter eff (left_to_right decides e).
Proof.
  intros Ty F R N B C V. destruct (emit_good file line tname in_const decides e Ty) as [c' G].
  { intros x J. split; [intros E; now apply F|]. intros E b y s t d ->. apply (R E _ J). exact I. }
  assert (C' : c_reads (emit_expression file line tname in_const e) c').
  { pose proof (good_full _ _ _ _ _ _ _ G [] I) as H. now rewrite app_nil_r in H. }
  rewrite (c_reads_once _ _ _ C C') in V. apply any_in_order; [|exact N|exact B]. eapply G. exact V.
Qed.
Print Assumptions left_to_right_partial.
(** f() / a > 1 && g() == b: f, then g if the first comparison holds *)
Definition order_witness : expr :=
  let i n := Leaf false (EInt INT) n in
  Infix OAnd (Infix OGt (Infix ODiv (i 0%nat) (i 1%nat)) (i 2%nat)) (Infix OEq (i 3%nat) (i 4%nat)).
Definition order_effects (a : nat) : bool := match a with 0 | 3 => true | _ => false end%nat.
Example left_to_right_case file line tname : typed order_witness /\ (forall x, inside x order_witness -> ~ float_sum_divided x) /\
  (forall x, inside x order_witness -> ~ is_range x) /\ (forall x, inside x order_witness -> ~ both_sides order_effects x) /\
  exists c, c_reads (emit_expression file line tname false order_witness) c /\
    evals (fun _ _ => false) (fun _ => None) c [1; 0; 2; 3; 4]%nat /\ evals (fun _ _ => true) (fun _ => None) c [1; 0; 2]%nat /\
    left_to_right (fun _ _ => false) order_witness = [0; 1; 2; 3; 4]%nat /\ left_to_right (fun _ _ => true) order_witness = [0; 1; 2]%nat.
Proof.
  split; [|split; [|split; [|split]]].
  - unfold order_witness. cbv zeta. repeat first [apply t_leaf | apply t_logic; [cbn; auto 10; fail| | |reflexivity|reflexivity]
      | apply t_equal; [cbn; auto 10; fail| | |left; split; exact I] | apply t_arith; [cbn; auto 10; fail| | |exact I|exact I]].
  - intros x J (o & l & r & b & O & E & T). unfold order_witness in J. cbv zeta in J.
    repeat match goal with H : inside _ _ |- _ => inversion H; clear H; subst end; try discriminate; injection E as <- <- <- <-; discriminate.
  - intros x J R. unfold order_witness in J. cbv zeta in J. repeat match goal with H : inside _ _ |- _ => inversion H; clear H; subst end; exact R.
  - intros x J (o & l & r & E & N1 & N2 & (b1 & t1 & a1 & I1 & E1) & (b2 & t2 & a2 & I2 & E2)). unfold order_witness in J. cbv zeta in J.
    inversion J; clear J; subst; [congruence|subst..]; 
    repeat match goal with H : inside _ (Infix _ _ _) |- _ => inversion H; clear H; subst | H : inside _ (Leaf _ _ _) |- _ => inversion H; clear H; subst end;
    cbn in *; try discriminate;
    repeat match goal with H : Infix _ _ _ = Infix _ _ _ |- _ => injection H as <- <- <- end; try congruence;
    repeat match goal with H : inside _ (Infix _ _ _) |- _ => inversion H; clear H; subst | H : inside _ (Leaf _ _ _) |- _ => inversion H; clear H; subst end;
    cbn in *; discriminate.
  - eexists. split; [unfold c_reads; cbn; qe|]. split; [|split; [|split; reflexivity]].
    + apply evals_as. eexists. split; [ev|reflexivity].
    + apply evals_as. eexists. split; [ev|reflexivity].
Qed.
(** f() / g() calls g first, and f() in range(..) calls f twice, although
    STANDARD.md 12.3 has expressions evaluated from left to right. *)
Theorem left_to_right_refuted decides file line tname : decides AmpAmp (Bi Ge (K 0) (Lit 0)) = false ->
  (exists e c, typed e /\ (forall x, inside x e -> ~ is_range x) /\ c_reads (emit_expression file line tname false e) c /\
     left_to_right decides e = [0; 1]%nat /\ forall l, evals decides (fun _ => None) c l -> l = [1; 0]%nat) /\
  (exists e c, typed e /\ c_reads (emit_expression file line tname false e) c /\
     left_to_right decides e = [0; 1]%nat /\ evals decides (fun _ => None) c [0; 0; 1]%nat).
Proof.
  intros D. split.
  - exists (Infix ODiv (Leaf false (EInt INT) 0) (Leaf false (EInt INT) 1)). eexists. split; [|split; [|split; [unfold c_reads; cbn; qe|split; [reflexivity|]]]].
    + repeat first [apply t_leaf | apply t_arith; [cbn; auto 10; fail| | |exact I|exact I]].
    + intros x J R. repeat match goal with H : inside _ _ |- _ => inversion H; clear H; subst end; exact R.
    + intros l H. apply let_evals in H as (v & l1 & l2 & H1 & H2 & ->). apply if_evals in H2; [|reflexivity].
      apply let_evals in H2 as (v' & l3 & l4 & H3 & H4 & ->). apply if_evals in H4; [|reflexivity]. apply last_evals in H4. apply by_var_evals in H4; [|reflexivity].
      inversion H1; inversion H3; inversion H4; subst. reflexivity.
  - exists (InRange false (Leaf false (EInt INT) 0) None (Leaf false (EInt INT) 1) None). eexists. split; [|split; [unfold c_reads; cbn; qe|split; [reflexivity|]]].
    + apply t_range; try apply t_leaf; try exact I; discriminate.
    + apply evals_as. eexists. split.
      * eapply v_then; [reflexivity|reflexivity|exact D|ev|ev].
      * reflexivity.
Qed.
Print Assumptions left_to_right_refuted.
Example left_to_right_refuted_case : (fun (_ : punct) (_ : sk) => false) AmpAmp (Bi Ge (K 0) (Lit 0)) = false.
Proof. reflexivity. Qed.
