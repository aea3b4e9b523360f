(** C137, C138: named arguments and default parameters. *)
From Verif Require Import Base ArgsSpec ArgsModel ArgsProofs ArgsProofs2 ArgsProofs3.

(** C137.  Of a declared function, exactly the lawful calls are accepted:
    positional arguments first, every argument with a parameter, no parameter
    given twice, every required one given.  Every other call is reported, and
    the code says what is wrong, unless a required parameter is skipped while
    a later one is given by name: then the compiler crashes.  No slot beyond
    the array is read. *)
Theorem args_checked_partial : forall ps args, declared ps ->
  ((exists es, check ps args = Accept es) <-> lawful ps args) /\ check ps args <> Overread /\
  (forall c, check ps args = Reject c ->
    (c = 5033 /\ exists j k n a b, (j < k)%nat /\ nth_error args j = Some (Some n, a) /\ nth_error args k = Some (None, b)) \/
    (c = 5031 /\ exists j n e, nth_error args j = Some (Some n, e) /\ forall i, ~ gives ps args i j) \/
    (c = 5032 /\ exists i j k, (j < k)%nat /\ gives ps args i j /\ gives ps args i k) \/
    (c = 5008 /\ ((exists i p, nth_error ps i = Some p /\ p_default p = None /\ forall j, ~ gives ps args i j) \/
                  exists j, (j < length args)%nat /\ forall i, ~ gives ps args i j))) /\
  (check ps args = Crash -> exists i p, nth_error ps i = Some p /\ p_default p = None /\ (forall j, ~ gives ps args i j) /\ reached ps args i).
Proof.
  intros ps args D. split; [now apply check_lawful|]. split; [now apply check_overread|]. split.
  - intros c E. destruct (check_code ps args c D E) as [[-> F]|H]; [|right; exact H]. left. split; auto.
    assert (O : ordered false args = false) by (destruct (ordered false args) eqn:O; auto; exfalso; now apply F, ordered_iff).
    clear -O. induction args as [|[[n|] e] t IH]; cbn in O; try discriminate.
    + destruct (existsb (fun a => match fst a with None => true | Some _ => false end) t) eqn:X.
      * apply existsb_exists in X as ([[m|] b] & HI & Y); [discriminate|]. apply In_nth_error in HI as (k & HI).
        exists 0%nat, (S k), n, e, b. repeat split; auto. lia.
      * exfalso. assert (ordered true t = true); [|congruence]. apply ordered_true, Forall_forall. intros a HI N.
        assert (existsb (fun a => match fst a with None => true | Some _ => false end) t = true); [|congruence].
        apply existsb_exists. exists a. split; auto. now rewrite N.
    + destruct (IH O) as (j & k & n & a & b & L & A & B). exists (S j), (S k), n, a, b. repeat split; auto. lia.
  - intros E. now apply check_crash in E.
Qed.
(** connect(host, port = 8080, verbose = 0) *)
Definition connect : list param := [Param (bs "host") None; Param (bs "port") (Some (Num 8080)); Param (bs "verbose") (Some (Num 0))].
Lemma connect_declared : declared connect.
Proof.
  split.
  - repeat constructor; cbn; intuition discriminate.
  - intros i j p q L P Q H. destruct i as [|[|[|i]]]; destruct j as [|[|[|j]]]; cbn in *; try lia; try discriminate; try (destruct i; discriminate); try (destruct j; discriminate); injection P as <-; injection Q as <-; cbn in *; congruence.
Qed.
Example args_checked_live : declared connect /\
  check connect [(Some (bs "verbose"), Num 1); (Some (bs "host"), Num 5)] = Accept [Num 5; Num 8080; Num 1] /\
  check connect [(None, Num 5); (Some (bs "verbose"), Num 1)] = Accept [Num 5; Num 8080; Num 1] /\
  check connect [(None, Num 5)] = Accept [Num 5] /\ check connect [] = Reject 5008 /\
  check connect [(Some (bs "host"), Num 5); (None, Num 1)] = Reject 5033 /\
  check connect [(None, Num 5); (Some (bs "host"), Num 1)] = Reject 5032 /\
  check connect [(None, Num 5); (Some (bs "hots"), Num 1)] = Reject 5031 /\
  check connect [(None, Num 5); (None, Num 1); (None, Num 1); (None, Num 2)] = Reject 5008.
Proof. split; [apply connect_declared|]. vm_compute. repeat split. Qed.
(** connect(port: 3000) leaves the host out: the compiler dereferences NULL. *)
Theorem args_checked_refuted : ~ forall ps args, declared ps -> ~ lawful ps args -> exists c, check ps args = Reject c.
Proof.
  intros H. destruct (H connect [(Some (bs "port"), Num 3000)] connect_declared) as (c & E).
  - intros L. destruct (required_given _ _ L 0 _ eq_refl eq_refl) as (j & p & a & P & A & R). destruct j as [|j]; [|destruct j; discriminate].
    cbn in P, A. injection P as <-. injection A as <-. discriminate.
  - vm_compute in E. discriminate.
Qed.

(** C138.  The emitted call passes to every parameter the value of its argument,
    positional or named, evaluated where the call stands, or else its default.
    When a default is left to the end of the call, no argument uses the name of
    its parameter or of one before it; a default in use mentions only globals, or
    parameters the call reaches when a default is left to the end. *)
Theorem args_passed_partial : forall ps args es rho glob vs,
  declared ps -> check ps args = Accept es -> passes ps args rho glob vs -> apart ps args -> at_home ps args rho glob ->
  crun rho (emit_call ps es) = Passed vs.
Proof. intros ps args es rho glob vs D E P A H. apply (call_run ps args rho glob vs es); auto; [apply D|]. now apply check_slots. Qed.
(** When every parameter has its argument, nothing else is asked. *)
Theorem args_passed_full : forall ps args es rho glob vs,
  declared ps -> check ps args = Accept es -> (forall i, (i < length ps)%nat -> exists j, gives ps args i j) ->
  passes ps args rho glob vs -> crun rho (emit_call ps es) = Passed vs.
Proof.
  intros ps args es rho glob vs D E F P. apply (args_passed_partial ps args es rho glob vs); auto.
  - intros (i & I & R). exfalso. destruct (F i I) as (j & G). apply R. exists i, j. auto.
  - intros i p d x Pi _ NG _. exfalso. destruct (F i) as (j & G); [apply nth_error_Some; congruence|]. now apply (NG j).
Qed.
Definition at_call (x : bytes) : option Z :=
  if list_eq_dec Z.eq_dec x (bs "a") then Some 1 else if list_eq_dec Z.eq_dec x (bs "b") then Some 2
  else if list_eq_dec Z.eq_dec x (bs "host") then Some 3 else None.
Definition nothing (x : bytes) : option Z := None.
Example args_passed_live :
  check connect [(None, Plus (Var (bs "a")) (Num 4))] = Accept [Plus (Var (bs "a")) (Num 4)] /\
  passes connect [(None, Plus (Var (bs "a")) (Num 4))] at_call nothing [5; 8080; 0] /\
  apart connect [(None, Plus (Var (bs "a")) (Num 4))] /\ at_home connect [(None, Plus (Var (bs "a")) (Num 4))] at_call nothing.
Proof.
  assert (G : forall i j, gives connect [(None, Plus (Var (bs "a")) (Num 4))] i j -> i = O /\ j = O).
  { intros i j (p & a & P & A & R). destruct j as [|j]; [|destruct j; discriminate]. cbn in A. injection A as <-. cbn in R. auto. }
  split; [reflexivity|]. split; [split; [reflexivity|]|split].
  - intros i p v P V. split.
    + intros j a GI A. apply G in GI as [-> ->]. cbn in V, A. injection V as <-. injection A as <-. reflexivity.
    + intros NG. destruct i as [|[|[|i]]]; cbn in P, V; try (destruct i; discriminate); injection P as <-; injection V as <-.
      * exfalso. apply (NG O). exists (Param (bs "host") None), (None, Plus (Var (bs "a")) (Num 4)). repeat split.
      * exists (Num 8080). auto.
      * exists (Num 0). auto.
  - intros _ i j a x GI A HI. apply G in GI as [-> ->]. cbn in A. injection A as <-. cbn in HI. destruct HI as [<-|[]]. cbn. intros [X|[]]. discriminate X.
  - intros i p d x P Dp _ HI. destruct i as [|[|[|i]]]; cbn in P; try (destruct i; discriminate); injection P as <-; cbn in Dp; try discriminate; injection Dp as <-; destruct HI.
Qed.
(** connect(host), with a variable host: the local host of the block is
    initialised with itself.  f(b, a), with a default left: both get b. *)
Definition three : list param := [Param (bs "a") None; Param (bs "b") None; Param (bs "c") (Some (Num 0))].
(** A default that uses a parameter before it. *)
Definition chain : list param := [Param (bs "a") None; Param (bs "b") (Some (Plus (Var (bs "a")) (Num 1))); Param (bs "c") (Some (Plus (Var (bs "b")) (Num 1)))].
Theorem args_passed_refuted :
  (check connect [(None, Var (bs "host"))] = Accept [Var (bs "host")] /\ crun at_call (emit_call connect [Var (bs "host")]) = Garbage) /\
  (check three [(None, Var (bs "b")); (None, Var (bs "a"))] = Accept [Var (bs "b"); Var (bs "a")] /\
   eval at_call (Var (bs "b")) = Some 2 /\ eval at_call (Var (bs "a")) = Some 1 /\
   crun at_call (emit_call three [Var (bs "b"); Var (bs "a")]) = Passed [2; 2; 0]) /\
  (check chain [(None, Num 10)] = Accept [Num 10] /\ crun nothing (emit_call chain [Num 10]) = NoCompile /\
   crun at_call (emit_call chain [Num 10]) = Passed [10; 11; 3]) /\
  (exists es, check chain [(None, Num 10); (Some (bs "c"), Num 7)] = Accept es /\ crun at_call (emit_call chain es) = Passed [10; 2; 7]).
Proof.
  split; [vm_compute; auto|]. split; [vm_compute; auto|]. split; [vm_compute; auto|].
  eexists. split; vm_compute; reflexivity.
Qed.

Print Assumptions args_checked_partial.
Print Assumptions args_checked_refuted.
Print Assumptions args_passed_partial.
Print Assumptions args_passed_full.
Print Assumptions args_passed_refuted.
