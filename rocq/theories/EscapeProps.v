(** C107: a value assigned in a block outlives the block. *)
From Verif Require Import Base BaseFacts TypesModel TypesSpec CopySpec CopyModel CopyProofs CopyProps EscapeSpec EscapeModel EscapeProofs.

(** In a function whose assignments to variables of enclosing blocks are of the
    kinds [escapes] lists, whatever values are computed and whatever blocks are
    run how often, every variable in scope consists of memory that has not been
    given back, at every moment. *)
Theorem escaped_values_alive_partial p rank body a n m s' seen : fine_program p rank -> fine p rank false [] body -> a < n ->
  exec p a None (St [[]] [] n m) body s' seen -> Forall (fun s => alive (vars s) (freed s)) seen.
Proof.
  intros F Fi L E. apply (exec_ok p rank F _ _ _ _ _ _ E false [] (fun x => x = a) [] [] [] Fi).
  - split; [reflexivity|]. split; [constructor|]. now split.
  - constructor; cbn [vars freed next_arena]; auto.
    + intros x v b [].
    + intros x ->. split; [intros []|exact L].
    + intros x [].
Qed.
Print Assumptions escaped_values_alive_partial.

(** Whatever is copied and wherever to, the place that is assigned to reads as
    the value, and everything else as before. *)
Theorem assignment_stores tg (kp vp : plan) ak av kt kv v n kw n1 w n2 nb old new : holds_key kt kv -> (forall b l, old = VMap b l -> Forall (fun e => holds_key kt (fst e)) l) ->
  run ak (copying kp) kv n = Some (kw, n1) -> run av (copying vp) v n1 = Some (w, n2) ->
  updated tg kw w nb old = Some new -> stored_in tg (content kv) (content v) (content old) (content new).
Proof.
  intros Hk Ko Rk Rv Up. refine (updated_stored _ kt _ _ _ _ _ _ _ (run_key _ _ _ _ _ _ _ Hk Rk) _ _ Ko Up); [exact (run_content _ _ _ (le_n _) _ _ _ _ Rk)|exact (run_content _ _ _ (le_n _) _ _ _ _ Rv)].
Qed.
Print Assumptions assignment_stores.

(** Running one assignment, in a block, to a variable of the function. *)
Definition start : state := St [[]] [] 1 0.
Lemma one_assignment p t0 v0 m tg t kt kv v fuel kp vp kw n1 w n2 nw : holds p t0 v0 -> usable 0 [[]] v0 -> (forall k g, tg = Entry k g -> kt = k) -> holds_key kt kv -> owned kv = [] ->
  holds p t v -> usable 1 [[]] v -> assign_plan (texts p) fuel true tg (descriptor p t) (show t) = Some (kp, vp) ->
  run (if outward kp then 0 else 1) (copying kp) kv m = Some (kw, n1) -> run (if outward vp then 0 else 1) (copying vp) v n1 = Some (w, n2) ->
  updated tg kw w (0, n2) v0 = Some nw ->
  exists s' seen, exec p 0 None start [Declare 7 t0; Block [Assign 7 tg t]] s' seen /\ vars s' = [[(7, nw)]] /\ freed s' = [1].
Proof.
  intros H0 U0 Ek Hk Ok Hv Uv Ep Rk Rv Up. eexists. eexists. split; [|split].
  - eapply (e_declare _ _ _ _ _ _ v0 m); [reflexivity|exact H0|exact U0|]. eapply e_block; [| |apply e_nil].
    eapply (e_assign _ _ _ _ _ _ _ kt kv v fuel); [exact Ek|exact Hk|intros b I; rewrite Ok in I; destruct I|exact Hv| |exact Ep|split; [exact Rk|exact Rv]| |apply e_nil].
    + intros b I. destruct (Uv b I) as [Q|(fr & x & u & [<-|[]] & [] & _)]. now left.
    + cbn [vars next_block set_store set_var]. change (7 =? 7) with true. cbn iota. rewrite Up. reflexivity.
    + reflexivity.
  - reflexivity.
  - reflexivity.
Qed.
Definition is_freed (v : val) : Prop := exists b, In b (owned v) /\ fst b = 1.
Lemma gone s nw : vars s = [[(7, nw)]] -> freed s = [1] -> is_freed nw -> ~ alive (vars s) (freed s).
Proof.
  intros -> -> (b & I & E) A. apply (A b); [|rewrite E; now left]. exists [(7, nw)], 7, nw. split; [now left|]. split; [now left|exact I].
Qed.

Definition person : bytes * list (bytes * ty) := (bs "Person", [(bs "name", TName (bs "string")); (bs "age", TName (bs "int"))]).
Definition people : program := Prog [person] [].
Definition a_person (a b : Z) : val := VRec [(bs "name", VStr (a, b) (bs "Ada")); (bs "age", VBits 36)].
Lemma a_person_holds a b : holds people (TName (bs "Person")) (a_person a b).
Proof.
  eapply h_struct; [discriminate|discriminate|reflexivity|]. constructor; [split; [reflexivity|constructor]|]. constructor; [split; [reflexivity|]|constructor].
  apply h_bits; [discriminate|discriminate|reflexivity|reflexivity].
Qed.
(** A person, a string and a number of their own, and entries of a map. *)
Definition roster : list stmt :=
  [Declare 1 (TMap (bs "string") (TName (bs "Person"))); Declare 2 (TName (bs "string"));
   Block [Declare 3 (TName (bs "Person")); Assign 3 (Field (bs "name")) (TName (bs "string")); Block [Assign 1 (Entry (bs "string") true) (TName (bs "Person"))]; Assign 2 Whole (TName (bs "string"))];
   Assign 2 Whole (TName (bs "string"))].
Definition flat_rank (n : bytes) : nat := if eqs n (bs "Person") then 1%nat else 0%nat.
Lemma people_fine : fine_program people flat_rank.
Proof.
  intros n fs H. cbn [structs people In] in H. destruct H as [H|[]]. unfold person in H. apply pair_equal_spec in H as [<- <-]. split; [words|]. split; [discriminate|]. split; [vm_compute; repeat constructor|].
  split; [apply distinct; vm_compute; reflexivity|]. intros f t I. cbn [In] in I. repeat (destruct I as [I|I]; [apply pair_equal_spec in I as [<- <-]; good_field|]). contradiction.
Qed.
Ltac good_type := split; [wfs|]; split; [vm_compute; reflexivity|]; split; [repeat split; try (vm_compute; discriminate); vm_compute; reflexivity|];
  intros m Hm; cbn [inside] in Hm; repeat destruct Hm as [<-|Hm]; try contradiction; vm_compute; lia.
Ltac none := let b := fresh in let H := fresh in intros b H; destruct H.
Ltac its_own := let b := fresh in let H := fresh in intros b H; cbn in H; destruct H as [<-|[]]; left; reflexivity.
Ltac assign kt kv v := eapply (e_assign _ _ _ _ _ _ _ kt kv v 20%nat);
  [intros ? ? [=]; try reflexivity; auto|try (apply k_string); try (apply k_bits; discriminate)|first [solve [none]|solve [its_own]]|try apply a_person_holds; try apply h_string|try its_own|vm_compute; reflexivity
  |cbv zeta; split; vm_compute; reflexivity|vm_compute; reflexivity|].
Example escaped_values_alive_partial_case : fine_program people flat_rank /\ fine people flat_rank false [] roster /\
  exists s' seen w, exec people 0 None start roster s' seen /\ length seen = 12%nat /\ freed s' = [1; 2] /\
    In w (concat (vars s')) /\ w = (1, VMap (0, 4) [(VStr (0, 2) (bs "ada"), a_person 0 3)]).
Proof.
  split; [apply people_fine|]. split.
  - unfold roster. apply f_declare, f_declare, f_block.
    + apply f_declare, f_assign; [good_type|right; left; now left|]. apply f_block; [|apply f_assign; [good_type|right; right; right; exact I|apply f_nil]].
      apply f_assign; [good_type|right; right; right; exact I|apply f_nil].
    + apply f_assign; [good_type|now left|apply f_nil].
  - eexists. eexists. eexists. split; [|split; [|split; [|split; [|reflexivity]]]].
    + unfold roster. eapply (e_declare _ _ _ _ _ _ (VMap (0, 0) []) 1); [reflexivity|apply h_map; constructor|its_own|].
      eapply (e_declare _ _ _ _ _ _ (VStr (0, 8) []) 1); [reflexivity|constructor|its_own|].
      eapply e_block.
      * eapply (e_declare _ _ _ _ _ _ (a_person 1 9) 1); [reflexivity|apply a_person_holds|its_own|].
        assign (bs "int") (VBits 0) (VStr (1, 11) (bs "Bob")).
        eapply e_block; [assign (bs "string") (VStr (2, 30) (bs "ada")) (a_person 2 31); apply e_nil|reflexivity|].
        assign (bs "int") (VBits 0) (VStr (1, 12) (bs "Ada")). apply e_nil.
      * reflexivity.
      * assign (bs "int") (VBits 0) (VStr (0, 40) (bs "end")). apply e_nil.
    + reflexivity.
    + reflexivity.
    + vm_compute. right. left. reflexivity.
Qed.

(** An array assigned to a variable, in a block: the copy is made in the arena
    of the block, and the variable is left with memory that was given back. *)
Theorem array_variable_alive_refuted : exists s' seen,
  let t := TArr (TName (bs "int")) in exec people 0 None start [Declare 7 t; Block [Assign 7 Whole t]] s' seen /\ ~ alive (vars s') (freed s').
Proof.
  edestruct (one_assignment people (TArr (TName (bs "int"))) (VArr (0, 0) []) 1 Whole (TArr (TName (bs "int"))) (bs "int") (VBits 0) (VArr (1, 5) []) 20%nat) as (s' & seen & E & V & Fr);
    [constructor; constructor|its_own|discriminate|apply k_bits; discriminate|reflexivity|constructor; constructor|its_own|vm_compute; reflexivity|vm_compute; reflexivity|vm_compute; reflexivity|vm_compute; reflexivity|].
  exists s', seen. split; [exact E|]. apply (gone _ _ V Fr). eexists. split; [left; reflexivity|reflexivity].
Qed.
Print Assumptions array_variable_alive_refuted.
(** So for a map. *)
Theorem map_variable_alive_refuted : exists s' seen,
  let t := TMap (bs "int") (TName (bs "int")) in exec people 0 None start [Declare 7 t; Block [Assign 7 Whole t]] s' seen /\ ~ alive (vars s') (freed s').
Proof.
  edestruct (one_assignment people (TMap (bs "int") (TName (bs "int"))) (VMap (0, 0) []) 1 Whole (TMap (bs "int") (TName (bs "int"))) (bs "int") (VBits 0) (VMap (1, 5) []) 20%nat) as (s' & seen & E & V & Fr);
    [constructor; constructor|its_own|discriminate|apply k_bits; discriminate|reflexivity|constructor; constructor|its_own|vm_compute; reflexivity|vm_compute; reflexivity|vm_compute; reflexivity|vm_compute; reflexivity|].
  exists s', seen. split; [exact E|]. apply (gone _ _ V Fr). eexists. split; [left; reflexivity|reflexivity].
Qed.
(** A string assigned to an element of an array. *)
Theorem element_alive_refuted : exists s' seen,
  exec people 0 None start [Declare 7 (TArr (TName (bs "string"))); Block [Assign 7 (Elem 0) (TName (bs "string"))]] s' seen /\ ~ alive (vars s') (freed s').
Proof.
  edestruct (one_assignment people (TArr (TName (bs "string"))) (VArr (0, 0) [VStr (0, 1) []]) 2 (Elem 0) (TName (bs "string")) (bs "int") (VBits 0) (VStr (1, 5) (bs "x")) 20%nat) as (s' & seen & E & V & Fr);
    [constructor; repeat constructor| |discriminate|apply k_bits; discriminate|reflexivity|constructor|its_own|vm_compute; reflexivity|vm_compute; reflexivity|vm_compute; reflexivity|vm_compute; reflexivity|].
  { intros b I. cbn in I. destruct I as [<-|[<-|[]]]; left; reflexivity. }
  exists s', seen. split; [exact E|]. apply (gone _ _ V Fr). eexists. split; [right; left; reflexivity|reflexivity].
Qed.
Print Assumptions element_alive_refuted.
(** A string assigned to a field of a struct. *)
Theorem string_field_alive_refuted : exists s' seen,
  exec people 0 None start [Declare 7 (TName (bs "Person")); Block [Assign 7 (Field (bs "name")) (TName (bs "string"))]] s' seen /\ ~ alive (vars s') (freed s').
Proof.
  edestruct (one_assignment people (TName (bs "Person")) (a_person 0 1) 2 (Field (bs "name")) (TName (bs "string")) (bs "int") (VBits 0) (VStr (1, 5) (bs "x")) 20%nat) as (s' & seen & E & V & Fr);
    [apply a_person_holds|its_own|discriminate|apply k_bits; discriminate|reflexivity|constructor|its_own|vm_compute; reflexivity|vm_compute; reflexivity|vm_compute; reflexivity|vm_compute; reflexivity|].
  exists s', seen. split; [exact E|]. apply (gone _ _ V Fr). eexists. split; [left; reflexivity|reflexivity].
Qed.
Print Assumptions string_field_alive_refuted.
(** A string assigned through a pointer. *)
Theorem pointed_string_alive_refuted : exists s' seen,
  exec people 0 None start [Declare 7 (TName (bs "string")); Block [Assign 7 Deref (TName (bs "string"))]] s' seen /\ ~ alive (vars s') (freed s').
Proof.
  edestruct (one_assignment people (TName (bs "string")) (VStr (0, 1) []) 2 Deref (TName (bs "string")) (bs "int") (VBits 0) (VStr (1, 5) (bs "x")) 20%nat) as (s' & seen & E & V & Fr);
    [constructor|its_own|discriminate|apply k_bits; discriminate|reflexivity|constructor|its_own|vm_compute; reflexivity|vm_compute; reflexivity|vm_compute; reflexivity|vm_compute; reflexivity|].
  exists s', seen. split; [exact E|]. apply (gone _ _ V Fr). eexists. split; [left; reflexivity|reflexivity].
Qed.
(** A function with a [&] parameter that appends to it, called in a block: the
    array moves to memory of the block. *)
Theorem appended_by_function_alive_refuted : exists s' seen,
  exec people 0 None start [Declare 7 (TArr (TName (bs "int"))); Block [Call [Assign 7 (Push true) (TName (bs "int"))]]] s' seen /\ ~ alive (vars s') (freed s').
Proof.
  eexists. eexists. split.
  - eapply (e_declare _ _ _ _ _ _ (VArr (0, 0) []) 1); [reflexivity|constructor; constructor|its_own|]. eapply e_block; [eapply e_call; [eapply (e_assign _ _ _ _ _ _ _ (bs "int") (VBits 0) (VBits 3) 20%nat);
      [discriminate|apply k_bits; discriminate|none|apply h_bits; [discriminate|discriminate|reflexivity|reflexivity]|none|vm_compute; reflexivity|cbv zeta; split; vm_compute; reflexivity|vm_compute; reflexivity|apply e_nil]|reflexivity|apply e_nil]|reflexivity|apply e_nil].
  - intros A. apply (A (1, 1)); [|left; reflexivity]. cbn [vars]. eexists. eexists. eexists. split; [left; reflexivity|]. split; [left; reflexivity|]. left. reflexivity.
Qed.
Print Assumptions appended_by_function_alive_refuted.
(** A function without results that assigns a string through a pointer it is
    given: the string lies in the memory that the function gives back. *)
Theorem assigned_by_function_alive_refuted : exists s' seen,
  exec people 0 None start [Declare 7 (TName (bs "Person")); CallOwn [Assign 7 (PtrField (bs "name")) (TName (bs "string"))]] s' seen /\ ~ alive (vars s') (freed s').
Proof.
  eexists. eexists. split.
  - eapply (e_declare _ _ _ _ _ _ (a_person 0 1) 2); [reflexivity|apply a_person_holds|its_own|].
    eapply e_call_own; [assign (bs "int") (VBits 0) (VStr (1, 5) (bs "x")); apply e_nil|reflexivity|apply e_nil].
  - intros A. apply (A (1, 5)); [|left; reflexivity]. cbn [vars]. eexists. eexists. eexists. split; [left; reflexivity|]. split; [left; reflexivity|]. left. reflexivity.
Qed.
Print Assumptions assigned_by_function_alive_refuted.
