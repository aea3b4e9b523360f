(** C145: when on an enum. *)
From Verif Require Import Base LitSpec EnumSpec EnumModel EnumProofs EnumProps StrictSpec StrictModel.

Lemma enum_named_in es e : NoDup (map e_name es) -> In e es -> enum_named es (e_name e) = Some e.
Proof.
  unfold enum_named. induction es as [|d t IH]; intros N I; [destruct I|]. cbn in *. inversion N as [|? ? N1 N2]; subst. destruct I as [->|I].
  - now rewrite (proj2 (same_iff _ _) eq_refl).
  - destruct (same (e_name d) (e_name e)) eqn:S; [|auto]. apply same_iff in S. exfalso. apply N1. rewrite S. now apply in_map.
Qed.
Lemma variant_named_some e x v : variant_named e x = Some v -> v_name v = x /\ exists j, nth_error (e_variants e) j = Some v.
Proof. intros H. apply find_some in H as [I S]. apply same_iff in S. split; [exact S|]. now apply In_nth_error. Qed.
Lemma nth_names e : NoDup (map v_name (e_variants e)) -> forall i j v w, nth_error (e_variants e) i = Some v -> nth_error (e_variants e) j = Some w -> v_name v = v_name w -> i = j.
Proof.
  intros N i j v w A B E. rewrite NoDup_nth_error in N. apply N; [rewrite map_length; apply nth_error_Some; congruence|].
  rewrite (map_nth_error v_name i (e_variants e) A), (map_nth_error v_name j (e_variants e) B). now f_equal.
Qed.
Definition kind (x : value) : bool := match x with Int _ => true | Text _ => false end.
Lemma means_kind e i x : means e i x -> (kind x = false <-> textual e).
Proof. intros M. inversion M; subst; cbn; split; try tauto; try discriminate; intros _; [now exists v, false, s; split; [eapply nth_error_In; eassumption|]|now exists v, true, s; split; [eapply nth_error_In; eassumption|]]. Qed.
Lemma counting_means e : counting e -> forall i x, means e i x -> x = Int (Z.of_nat i).
Proof.
  intros [F N] i x M.
  assert (NT : ~ textual e) by (intros (v & r & s & I & G); rewrite (N v I) in G; discriminate).
  assert (G : forall j v g, nth_error (e_variants e) j = Some v -> v_given v = Some g -> False) by (intros j v g A B; apply nth_error_In in A; rewrite (N v A) in B; discriminate).
  assert (K : forall j n, worth (e_flags e) (e_variants e) j n -> n = Z.of_nat j) by (intros j n W; induction W; [exfalso; eapply G; eassumption|reflexivity|lia|congruence]).
  inversion M; subst; try tauto; try (exfalso; eapply G; eassumption). f_equal. now apply K.
Qed.
Section W.
Context (es : list enum) (g : env) (e : enum) (FA : faithful es access g) (ND : NoDup (map e_name es)) (IN : In e es) (NV : NoDup (map v_name (e_variants e))).
Lemma own_right p : own e p -> check_pat es e p = [] -> forall i v x, nth_error (e_variants e) i = Some v -> means e i x ->
  exists y, right es g e p = Some y /\ kind y = kind x /\ (y = x <-> names e p x).
Proof.
  intros O C i v x NI M.
  assert (K : forall j w, nth_error (e_variants e) j = Some w -> (forall j' w', nth_error (e_variants e) j' = Some w' -> stands e p j' w' <-> v_name w' = v_name w) ->
    right es g e p = constant_of g (access e w) -> exists y, right es g e p = Some y /\ kind y = kind x /\ (y = x <-> names e p x)).
  { intros j w J ST ->. destruct (FA e j w IN J) as (c & y & F & R & MY & U). exists y. unfold constant_of. rewrite F. split; [exact R|]. split.
    - pose proof (means_kind _ _ _ MY). pose proof (means_kind _ _ _ M). destruct (kind y), (kind x); intuition congruence.
    - split; [intros ->; exists j, w; split; [exact J|]; split; [now apply (ST j w J)|exact MY]|]. intros (j' & w' & J' & S' & M'). apply (ST j' w' J') in S'.
      assert (j' = j) by (eapply nth_names; eassumption). subst. symmetry. now apply U. }
  unfold own in O. destruct p as [en n|n|n k|n]; cbn [check_pat] in C.
  - subst en. rewrite (enum_named_in es e ND IN) in C. destruct (variant_named e n) as [w|] eqn:V; [|discriminate]. apply variant_named_some in V as [<- [j J]].
    apply (K j w J); [intros j' w' _; cbn; intuition congruence|]. cbn [right]. unfold access. rewrite (enum_named_in es e ND IN). destruct (is_tagged e); reflexivity.
  - destruct (variant_named e n) as [w|] eqn:V; [|discriminate]. apply variant_named_some in V as [<- [j J]].
    apply (K j w J); [intros j' w' _; cbn; intuition congruence|]. cbn [right]. unfold access. destruct (is_tagged e); reflexivity.
  - destruct (variant_named e n) as [w|] eqn:V; [|discriminate]. apply variant_named_some in V as [<- [j J]]. destruct (v_payload w =? S k)%nat eqn:P; [|discriminate].
    apply (K j w J); [intros j' w' _; cbn; intuition congruence|]. cbn [right]. unfold access.
    assert (T : is_tagged e = true) by (apply tagged_iff; exists w; split; [eapply nth_error_In; eassumption|lia]). now rewrite T.
  - exists (Int n). split; [reflexivity|]. pose proof (counting_means e O i x M) as ->. split; [reflexivity|]. split.
    + intros [= ->]. exists i, v. split; [exact NI|]. split; [reflexivity|exact M].
    + intros (j & w & J & S & M'). apply (counting_means e O) in M'. cbn in S. congruence.
Qed.
Lemma own_test p : own e p -> check_pat es e p = [] -> forall i v x, nth_error (e_variants e) i = Some v -> means e i x ->
  exists b, test es g e x p = Some b /\ (b = true <-> names e p x).
Proof.
  intros O C i v x NI M. destruct (own_right p O C i v x NI M) as (y & R & K & N). unfold test. rewrite R.
  destruct y as [a|a], x as [b|b]; cbn in K; try discriminate; eexists; (split; [reflexivity|]); rewrite <- N; [rewrite Z.eqb_eq|rewrite same_iff]; intuition congruence.
Qed.
Lemma all_tests (cases : list (list pat)) i v x : (forall p, In p (concat cases) -> own e p /\ check_pat es e p = []) -> nth_error (e_variants e) i = Some v -> means e i x ->
  exists l, all_some (map (fun vs => all_some (map (test es g e x) vs)) cases) = Some l /\
    Forall2 (fun vs bs => existsb (fun b => b) bs = true <-> Exists (fun p => names e p x) vs) cases l.
Proof.
  intros H NI M. induction cases as [|vs t IH]; [exists []; split; [reflexivity|constructor]|].
  destruct IH as (l & L & F); [intros p P; apply H; cbn; apply in_or_app; now right|].
  assert (Q : exists q, all_some (map (test es g e x) vs) = Some q /\ (existsb (fun b => b) q = true <-> Exists (fun p => names e p x) vs)).
  { assert (H' : forall p, In p vs -> own e p /\ check_pat es e p = []) by (intros p P; apply H; cbn; apply in_or_app; now left). clear -H' NI M FA ND IN NV.
    induction vs as [|p vs IH]; [exists []; split; [reflexivity|]; split; [discriminate|intros E; inversion E]|]. destruct IH as (q & Q & E); [intros p' P; apply H'; now right|].
    destruct (H' p (or_introl eq_refl)) as [O C]. destruct (own_test p O C i v x NI M) as (b & T & B). exists (b :: q). cbn [map all_some]. rewrite T, Q. split; [reflexivity|]. cbn [existsb]. rewrite orb_true_iff, Exists_cons. tauto. }
  destruct Q as (q & Q & E). exists (q :: l). cbn [map all_some]. rewrite Q, L. split; [reflexivity|]. now constructor.
Qed.
Lemma first_true_spec (P : list pat -> Prop) cases l : Forall2 (fun vs bs => existsb (fun b : bool => b) bs = true <-> P vs) cases l -> (exists vs, In vs cases /\ P vs) ->
  forall n, exists k vs, first_true n l = Some (n + k)%nat /\ nth_error cases k = Some vs /\ P vs /\ forall j us, (j < k)%nat -> nth_error cases j = Some us -> ~ P us.
Proof.
  induction 1 as [|vs bs cases l A F IH]; intros (ws & W & PW) n; [destruct W|]. cbn [first_true]. destruct (existsb (fun b => b) bs) eqn:E.
  - exists 0%nat, vs. rewrite Nat.add_0_r. split; [reflexivity|]. split; [reflexivity|]. split; [now apply A|]. intros j us J. lia.
  - assert (NP : ~ P vs) by (intros Q; apply A in Q; discriminate). destruct (IH) with (n := S n) as (k & us & K1 & K2 & K3 & K4); [destruct W as [->|W]; [tauto|now exists ws]|].
    exists (S k), us. rewrite K1. split; [f_equal; lia|]. split; [exact K2|]. split; [exact K3|]. intros [|j] zs J Z; cbn in Z; [now injection Z as <-|]. apply (K4 j zs); [lia|exact Z].
Qed.
Lemma uncovered_all ps vs : forall n, uncovered ps n vs = [] -> forall i v, nth_error vs i = Some v -> covered ps (n + i)%nat v = true.
Proof.
  induction vs as [|w t IH]; intros n U i v H; [destruct i; discriminate|]. cbn in U. apply app_eq_nil in U as [A B]. destruct (covered ps n w) eqn:C; [|discriminate]. destruct i as [|i].
  - cbn in H. injection H as <-. now rewrite Nat.add_0_r.
  - rewrite Nat.add_succ_r, <- Nat.add_succ_l. apply IH; [exact B|exact H].
Qed.
Lemma inferred_own ps x : (forall p, In p ps -> own e p /\ check_pat es e p = []) -> first_some (inferred es e) ps = Some x -> x = e_name e.
Proof.
  induction ps as [|p t IH]; intros H F; [discriminate|]. cbn in F. destruct (inferred es e p) as [y|] eqn:I; [|apply IH; auto; intros q Q; apply H; now right].
  injection F as <-. destruct (H p (or_introl eq_refl)) as [O _]. unfold inferred in I. destruct p as [en n|n|n k|n]; cbn in O.
  - destruct (enum_named es en); [|discriminate]. congruence.
  - destruct (variant_named e n); [congruence|discriminate].
  - congruence.
  - discriminate.
Qed.
End W.
(** C145.  In an accepted #strict when without default on an enum whose
    constants are right, every variant has a branch: the first branch that has
    the variant (or one of equal value) runs.  Missing: values of branches
    written for another enum, and integer literals unless the variants are
    numbered by position. *)
Theorem strict_partial es g e cases i v x : check_enums [] es = [] -> faithful es access g -> In e es ->
  check_when es e cases = [] -> (forall p, In p (concat cases) -> own e p) ->
  nth_error (e_variants e) i = Some v -> means e i x ->
  exists k vs, run_strict es g e cases x = Some (Some k) /\ nth_error cases k = Some vs /\ Exists (fun p => names e p x) vs /\
    forall j us, (j < k)%nat -> nth_error cases j = Some us -> ~ Exists (fun p => names e p x) us.
Proof.
  intros CE FA IN C O NI M. destruct (check_enums_ok es [] CE) as (ND & _ & K). destruct (K e IN) as [_ [kn H]]. destruct (check_enum_ok kn e H) as (NV & _).
  unfold check_when in C. apply app_eq_nil in C as [C1 C2].
  assert (OK : forall p, In p (concat cases) -> own e p /\ check_pat es e p = []).
  { intros p P. split; [now apply O|]. destruct (check_pat es e p) eqn:E; [reflexivity|]. exfalso. assert (X : In z (flat_map (check_pat es e) (concat cases))) by (apply in_flat_map; exists p; split; [exact P|rewrite E; now left]). rewrite C1 in X. destruct X. }
  unfold check_strict in C2. destruct (first_some (inferred es e) (concat cases)) as [n|] eqn:F; [|discriminate].
  apply (inferred_own es e) in F; [|exact OK]. subst n. rewrite (enum_named_in es e ND IN) in C2.
  pose proof (uncovered_all _ _ 0 C2 i v NI) as CV. cbn [Nat.add] in CV. unfold covered in CV. apply existsb_exists in CV as (p & P & S).
  assert (NP : names e p x).
  { exists i, v. split; [exact NI|]. split; [|exact M]. destruct (OK p P) as [OP _]. destruct p as [en m|m|m q|m]; cbn in *; [apply same_iff in S; auto|now apply same_iff in S|now apply same_iff in S|lia]. }
  apply in_concat in P as (vs & VS & P).
  destruct (all_tests es g e FA ND IN NV cases i v x OK NI M) as (l & L & F2).
  destruct (first_true_spec (fun vs => Exists (fun p => names e p x) vs) cases l F2) with (n := 0%nat) as (k & us & K1 & K2 & K3 & K4).
  { exists vs. split; [exact VS|]. apply Exists_exists. now exists p. }
  exists k, us. unfold run_strict. rewrite L. cbn [option_map]. rewrite K1. auto.
Qed.
(** The hypothesis on the constants is what enum_values_partial gives. *)
Theorem faithful_case : exists out g, emit_enums some_enums = Ok out /\ c_file out [] = Some g /\ faithful some_enums access g.
Proof.
  destruct some_enums_meet as (A & B & C).
  destruct (enum_values_partial some_enums (proj1 some_enums_ok) (fun e I => proj1 (A e I)) (fun e I => proj2 (proj2 (A e I))) (fun e I => proj1 (proj2 (A e I))) B C) as (out & g & E & F & R).
  exists out, g. exact (conj E (conj F R)).
Qed.
Definition direction := Enum (bs "Direction") false [V (bs "NORTH"); VN (bs "EAST") 5; V (bs "SOUTH")].
Definition shape := Enum (bs "Shape") false [Variant (bs "Circle") None 1; Variant (bs "Rect") None 2; V (bs "Point")].
Definition of (es : list enum) : env := match emit_enums es with Ok out => match c_file out [] with Some g => g | None => [] end | _ => [] end.
Example strict_case :
  (let cases := [[Member (bs "Direction") (bs "NORTH"); Implicit (bs "SOUTH")]; [Implicit (bs "EAST")]] in
   check_when some_enums direction cases = [] /\ (forall p, In p (concat cases) -> own direction p) /\
   map (run_strict some_enums (of some_enums) direction cases) [Int 0; Int 5; Int 6] = [Some (Some 0%nat); Some (Some 1%nat); Some (Some 0%nat)]) /\
  (let cases := [[Pattern (bs "Rect") 1]; [Implicit (bs "Point")]; [Pattern (bs "Circle") 0]] in
   check_when some_enums shape cases = [] /\ (forall p, In p (concat cases) -> own shape p) /\
   map (run_strict some_enums (of some_enums) shape cases) [Int 0; Int 1; Int 2] = [Some (Some 2%nat); Some (Some 0%nat); Some (Some 1%nat)]) /\
  check_when some_enums direction [[Implicit (bs "NORTH")]; [Implicit (bs "EAST")]] = [3056] /\
  check_when some_enums shape [[Pattern (bs "Rect") 0]; [Implicit (bs "Point")]; [Pattern (bs "Circle") 0]] = [3116].
Proof.
  split; [|split; [|split; vm_compute; reflexivity]]; intros cases; (split; [vm_compute; reflexivity|]); (split; [|vm_compute; reflexivity]);
    intros p P; cbn in P; repeat (destruct P as [<-|P]; [try reflexivity; exact I|]); destruct P.
Qed.
(** The missing cases are wrong.  Branches 0, 1, 2 pass for NORTH, EAST = 5,
    SOUTH although 5 and 6 have no branch; the variants of another enum of the
    same names pass, and no branch runs; so do the variants of another enum
    named first; and two flags at once have no branch in a #strict when that
    passes. *)
Theorem strict_refuted :
  (let cases := [[Implicit (bs "NORTH"); Number 1; Number 2]] in
   check_when some_enums direction cases = [] /\ map (run_strict some_enums (of some_enums) direction cases) [Int 0; Int 5; Int 6] = [Some (Some 0%nat); Some None; Some None]) /\
  (let es := [Enum (bs "A") false [V (bs "X"); V (bs "Y")]; Enum (bs "B") false [VN (bs "X") 7; VN (bs "Y") 8]] in
   let e := Enum (bs "A") false [V (bs "X"); V (bs "Y")] in let cases := [[Member (bs "B") (bs "X")]; [Member (bs "B") (bs "Y")]] in
   check_enums [] es = [] /\ check_when es e cases = [] /\ map (run_strict es (of es) e cases) [Int 0; Int 1] = [Some None; Some None]) /\
  (let es := [Enum (bs "A") false [V (bs "X"); V (bs "Y")]; Enum (bs "B") false [VN (bs "Z") 0]] in
   let e := Enum (bs "A") false [V (bs "X"); V (bs "Y")] in let cases := [[Member (bs "B") (bs "Z")]] in
   check_enums [] es = [] /\ check_when es e cases = [] /\ map (run_strict es (of es) e cases) [Int 0; Int 1] = [Some (Some 0%nat); Some None]) /\
  (let e := Enum (bs "Permissions") true [V (bs "READ"); V (bs "WRITE"); V (bs "RUN")] in let cases := [[Implicit (bs "READ")]; [Implicit (bs "WRITE")]; [Implicit (bs "RUN")]] in
   check_when some_enums e cases = [] /\ run_strict some_enums (of some_enums) e cases (Int 3) = Some None).
Proof. repeat split; vm_compute; reflexivity. Qed.
Print Assumptions strict_partial.
Print Assumptions faithful_case.
Print Assumptions strict_refuted.
