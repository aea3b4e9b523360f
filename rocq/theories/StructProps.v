(** C111, C112: structs that contain themselves; the order of definitions. *)
From Verif Require Import Base BaseFacts LexModel StructModel StructSpec StructProofs.

(** ---- C111: exactly the structs that contain themselves are rejected ---- *)
(** Whatever is rejected contains itself; *)
Theorem rejection_sound : forall prog d, In d prog -> rejected prog d = true -> contains_itself prog (dname d).
Proof. exact rejected_sound. Qed.
(** in a program of up to 33 structs nothing else is accepted; *)
Theorem rejection_exact_partial : forall prog d, well_named prog -> (length prog <= 33)%nat -> In d prog ->
  (rejected prog d = true <-> contains_itself prog (dname d)).
Proof. intros prog d W L I. split; [now apply rejected_sound|now apply rejected_complete]. Qed.
(** and in any program a cycle through up to 32 other structs is found. *)
Theorem short_cycle_rejected : forall prog d l, well_named prog -> In d prog ->
  chain (holds prog) (dname d) l (dname d) -> NoDup (dname d :: l) -> (length l <= 32)%nat -> rejected prog d = true.
Proof. exact rejected_chain. Qed.
(** A cycle of 34 structs is accepted. *)
Definition ring_name (i : nat) : bytes := [83; 48 + Z.of_nat (i / 10); 48 + Z.of_nat (i mod 10)].
Definition ring (n : nat) : list decl := map (fun i => {| dname := ring_name i; fields := [ring_name ((i + 1) mod n)] |}) (seq 0 n).
Fixpoint chain_b (l : list decl) (a : bytes) (m : list bytes) (b : bytes) : bool :=
  let step x y := existsb (fun d => eqs (dname d) x && existsb (eqs y) (fields d)) l && existsb (fun d => eqs (dname d) y) l in
  match m with [] => step a b | x :: m => step a x && chain_b l x m b end.
Lemma chain_b_ok l m : forall a b, chain_b l a m b = true -> chain (holds l) a m b.
Proof.
  assert (S : forall x y, existsb (fun d => eqs (dname d) x && existsb (eqs y) (fields d)) l && existsb (fun d => eqs (dname d) y) l = true -> holds l x y).
  { intros x y H. apply andb_true_iff in H as [H1 H2]. apply existsb_exists in H1 as (d & Id & H1). apply andb_true_iff in H1 as [E H1]. apply eqs_iff in E. apply existsb_exists in H1 as (f & If & E1). apply eqs_iff in E1 as <-.
    exists d. repeat split; try assumption. apply existsb_exists in H2 as (e & Ie & E2). apply eqs_iff in E2 as <-. now apply in_map. }
  induction m as [|x m IH]; intros a b H; cbn [chain_b chain] in *; [now apply S|]. apply andb_true_iff in H as [H1 H2]. split; [now apply S|now apply IH].
Qed.
Fixpoint distinct (l : list bytes) : bool := match l with [] => true | x :: l => negb (existsb (eqs x) l) && distinct l end.
Lemma distinct_ok l : distinct l = true -> NoDup l.
Proof.
  induction l as [|x l IH]; intros H; [constructor|]. cbn in H. apply andb_true_iff in H as [H1 H2]. constructor; [|now apply IH].
  intros I. apply negb_true_iff in H1. assert (X : existsb (eqs x) l = true) by (apply existsb_exists; exists x; split; [exact I|now apply eqs_iff]). congruence.
Qed.
Definition word_b (c : Z) : bool := ((48 <=? c) && (c <=? 57)) || ((65 <=? c) && (c <=? 90)) || (c =? 95) || ((97 <=? c) && (c <=? 122)).
Lemma well_named_b l : distinct (names l) && forallb (fun n => negb (match n with [] => true | _ => false end) && forallb word_b n) (names l) = true -> well_named l.
Proof.
  intros H. apply andb_true_iff in H as [H1 H2]. split; [now apply distinct_ok|]. apply Forall_forall. rewrite forallb_forall in H2. intros n I. specialize (H2 n I). apply andb_true_iff in H2 as [N F]. split; [now destruct n|].
  rewrite forallb_forall in F. apply Forall_forall. intros c Ic. specialize (F c Ic). unfold word_b in F. unfold word_char. lia.
Qed.
Theorem rejection_exact_refuted : exists prog, well_named prog /\ (length prog = 34)%nat /\ forall d, In d prog -> rejected prog d = false /\ contains_itself prog (dname d).
Proof.
  exists (ring 34). split; [apply well_named_b; vm_compute; reflexivity|]. split; [reflexivity|].
  assert (X : forallb (fun i => chain_b (ring 34) (ring_name i) (map ring_name (seq (i + 1) (33 - i) ++ seq 0 i)) (ring_name i)) (seq 0 34) = true) by (vm_compute; reflexivity).
  assert (Y : forallb (fun d => negb (rejected (ring 34) d)) (ring 34) = true) by (vm_compute; reflexivity).
  intros d I. rewrite forallb_forall in X, Y. split; [apply negb_true_iff, Y, I|]. unfold ring in I. apply in_map_iff in I as (i & <- & I). cbn [dname].
  eapply chain_trans, chain_b_ok. exact (X i I).
Qed.
Print Assumptions rejection_sound.
Print Assumptions rejection_exact_partial.
Print Assumptions short_cycle_rejected.
Print Assumptions rejection_exact_refuted.
Example rejection_case :
  let a := {| dname := bs "A"; fields := [bs "int"; bs "B"] |} in let b := {| dname := bs "B"; fields := [bs "C"; bs "[A]"] |} in
  let c := {| dname := bs "C"; fields := [bs "^A"; bs "map[string:A]"] |} in let c2 := {| dname := bs "C"; fields := [bs "A"] |} in
  well_named [a; b; c] /\ rejected [a; b; c] a = false /\ well_named [a; b; c2] /\ rejected [a; b; c2] a = true /\ rejected [a; b; c2] b = true /\ rejected [a; b; c2] c2 = true.
Proof. intros a b c c2. split; [apply well_named_b; vm_compute; reflexivity|]. split; [vm_compute; reflexivity|]. split; [apply well_named_b; vm_compute; reflexivity|]. vm_compute. auto. Qed.

(** ---- C112: every type is defined before it is used in a field ---- *)
Theorem definitions_ordered_partial : forall enums structs,
  (forall a, ~ contains_itself structs a) -> (length structs <= 256)%nat ->
  ordered (enums ++ structs) enums ->
  Permutation (definitions enums structs) (enums ++ structs) /\ ordered (enums ++ structs) (definitions enums structs).
Proof.
  intros en st A L O. unfold definitions.
  destruct (order_ok st A L) as [P Os]. split; [now apply Permutation_app_head|].
  intros pre d post E f If Nf. destruct (Nat.lt_ge_cases (length pre) (length en)) as [C|C].
  - assert (X : exists mid, en = pre ++ d :: mid).
    { exists (skipn (length pre + 1) en). assert (Y : firstn (length pre + 1) (en ++ struct_order st) = pre ++ [d]).
      { rewrite E. rewrite firstn_app, firstn_all2 by lia. replace (length pre + 1 - length pre)%nat with 1%nat by lia. reflexivity. }
      rewrite firstn_app in Y. replace (length pre + 1 - length en)%nat with 0%nat in Y by lia. rewrite firstn_O, app_nil_r in Y. rewrite <- (firstn_skipn (length pre + 1) en) at 1. rewrite Y, <- app_assoc. reflexivity. }
    destruct X as [mid X]. exact (O _ _ _ X f If Nf).
  - assert (X : exists q, pre = en ++ q /\ struct_order st = q ++ d :: post).
    { exists (skipn (length en) pre). assert (Y : firstn (length en) pre = en).
      { assert (Z1 : firstn (length en) (en ++ struct_order st) = en) by (rewrite firstn_app, firstn_all, Nat.sub_diag, firstn_O, app_nil_r; reflexivity).
        rewrite E, firstn_app in Z1. replace (length en - length pre)%nat with 0%nat in Z1 by lia. rewrite firstn_O, app_nil_r in Z1. exact Z1. }
      assert (E1 : pre = en ++ skipn (length en) pre) by (rewrite <- Y at 1; symmetry; apply firstn_skipn). split; [exact E1|].
      apply (app_inv_head en). rewrite app_assoc, <- E1. exact E. }
    destruct X as (q & -> & Eq). unfold names in *. rewrite map_app in Nf |- *. apply in_or_app. apply in_app_or in Nf as [Nf|Nf]; [now left|right]. exact (Os _ _ _ Eq f If Nf).
Qed.
(** With the check of C111 and at most 33 structs, accepted programs qualify. *)
Theorem accepted_ordered_partial : forall enums structs,
  well_named structs -> (length structs <= 33)%nat -> (forall d, In d structs -> rejected structs d = false) ->
  ordered (enums ++ structs) enums -> ordered (enums ++ structs) (definitions enums structs).
Proof.
  intros en st W L R O. apply definitions_ordered_partial; [|lia|exact O]. intros a C.
  assert (X : exists d, In d st /\ dname d = a).
  { apply chain_of in C as [l C]. apply chain_incl in C as [C _]. apply in_map_iff in C as (d & E & I). exists d. now split. }
  destruct X as (d & I & <-). apply (rejected_complete st d W L I) in C. rewrite (R d I) in C. discriminate.
Qed.
(** The enums all come before the structs, also those with a struct in a
    payload; *)
Theorem definitions_ordered_refuted : exists enums structs,
  NoDup (names (enums ++ structs)) /\ (forall a, ~ contains_itself structs a) /\ (length structs <= 256)%nat /\ ~ ordered (enums ++ structs) (definitions enums structs).
Proof.
  exists [{| dname := bs "Shape"; fields := [bs "Point"] |}], [{| dname := bs "Point"; fields := [bs "int"] |}].
  split; [apply distinct_ok; vm_compute; reflexivity|]. split; [|split; [cbn; lia|]].
  - intros a C. apply chain_of in C as [[|x l] C]; [destruct C as (d & [<-|[]] & <- & [E|[]] & _); revert E; vm_compute; discriminate|].
    destruct C as [(d & [<-|[]] & _ & [E|[]] & [E2|[]]) _]. rewrite <- E in E2. revert E2. vm_compute. discriminate.
  - intros O. exact (O [] _ _ eq_refl (bs "Point") (or_introl eq_refl) (or_intror (or_introl eq_refl))).
Qed.
(** and the structs after the first 256 are not defined at all. *)
Theorem definitions_missing_refuted : forall prog d, NoDup (names prog) -> In d (skipn 256 prog) -> ~ In d (struct_order prog).
Proof.
  intros prog d N I O. apply order_from in O. rewrite <- (firstn_skipn 256 prog) in N. unfold names in N. rewrite map_app in N.
  assert (X : forall (a b : list bytes) x, NoDup (a ++ b) -> In x a -> In x b -> False).
  { induction a as [|y a IH]; intros b x D Ia Ib; [contradiction|]. cbn in D. inversion D as [|? ? D1 D2]; subst. destruct Ia as [->|Ia]; [apply D1, in_or_app; now right|exact (IH b x D2 Ia Ib)]. }
  exact (X _ _ (dname d) N (in_map dname _ _ O) (in_map dname _ _ I)).
Qed.
Print Assumptions definitions_missing_refuted.
Print Assumptions definitions_ordered_partial.
Print Assumptions accepted_ordered_partial.
Print Assumptions definitions_ordered_refuted.
Example order_case :
  let a := {| dname := bs "A"; fields := [bs "B"; bs "C"] |} in let b := {| dname := bs "B"; fields := [bs "C"; bs "^A"] |} in let c := {| dname := bs "C"; fields := [bs "E"; bs "[A]"] |} in
  let e := {| dname := bs "E"; fields := [bs "int"] |} in
  definitions [e] [a; b; c] = [e; c; b; a] /\ (forall d, In d [a; b; c] -> rejected [a; b; c] d = false).
Proof. intros a b c e. split; [vm_compute; reflexivity|]. intros d [<-|[<-|[<-|[]]]]; vm_compute; reflexivity. Qed.
Example missing_case : NoDup (names (ring 300)) /\ length (skipn 256 (ring 300)) = 44%nat.
Proof. split; [apply distinct_ok; vm_compute; reflexivity|vm_compute; reflexivity]. Qed.
