(** The HTTP server's connection limit: C37. *)
From Verif Require Import Base ServcapModel ServcapProofs.
Ltac Zify.zify_post_hook ::= Z.div_mod_to_equations.

(** The number of connections being served: threads started and not yet counted out. *)
Definition served (s : state) : Z := count in_service (handlers s).
(** Listen loops between counting a connection in and handing it to a thread or giving it up. *)
Definition admitting (s : state) : Z := count holds (listeners s).

(** At no point of any schedule are more than 1024 connections served. *)
Theorem server_capped n ls s : Z.of_nat n < 2 ^ 30 -> steps (start n) ls = Some s -> served s <= 1024.
Proof.
  intros H E. destruct (steps_ok _ _ _ (start_ok n H) E) as (_ & A & _). unfold served, max_connections in *.
  pose proof (count_bounds admitted (listeners s)). lia.
Qed.
Print Assumptions server_capped.
(** The counter is exact: connections served plus those being admitted; in particular it is 0 when
    nothing is going on, so no capacity is ever lost. *)
Theorem server_counter n ls s : Z.of_nat n < 2 ^ 30 -> steps (start n) ls = Some s ->
  counter s = served s + admitting s /\
  ((forall h, In h (handlers s) -> h = HEnd) -> (forall p, In p (listeners s) -> p = LAccept) -> counter s = 0).
Proof.
  intros H E. destruct (steps_ok _ _ _ (start_ok n H) E) as (C & _ & _). split; [exact C|]. intros H1 H2. rewrite C.
  assert (forall {A} (f : A -> bool) l, (forall x, In x l -> f x = false) -> count f l = 0) as Z.
  { intros A f l. induction l as [|x l IH]; intros K; [reflexivity|]. rewrite count_cons, (K x) by (left; reflexivity).
    rewrite IH; [reflexivity|]. intros y I. apply K. right. exact I. }
  rewrite !Z; [reflexivity| |]; intros x I; [rewrite (H2 x I)|rewrite (H1 x I)]; reflexivity.
Qed.
Print Assumptions server_counter.
(** A connection is refused only when 1024 are served or being admitted by the other loops ... *)
Theorem server_refuses n ls s i ok1 s1 ok2 s2 : Z.of_nat n < 2 ^ 30 -> steps (start n) ls = Some s ->
  nth_error (listeners s) i = Some LAdd ->
  step s (LListen i ok1) = Some s1 -> step s1 (LListen i ok2) = Some s2 ->
  nth_error (listeners s2) i = Some (if 1024 <=? served s + admitting s then LRefuse else LMalloc).
Proof.
  intros H E N E1 E2. destruct (server_counter n ls s H E) as [C _]. cbn [step] in *. unfold listen in E1. rewrite N in E1. injection E1 as <-.
  assert (forall {A} (l : list A) i (x y : A), nth_error l i = Some x -> nth_error (set_nth l i y) i = Some y) as NS.
  { intros A l. induction l as [|z l IH]; intros [|k] x y K; cbn in *; try discriminate; eauto. }
  unfold listen in E2. cbn [listeners counter handlers refused] in E2. rewrite (NS _ _ _ _ _ N) in E2. injection E2 as <-.
  cbn [listeners]. unfold max_connections. rewrite C. eapply NS, NS, N.
Qed.
Print Assumptions server_refuses.
(** ... so a single listen loop refuses exactly when 1024 connections are served. *)
Theorem server_refuses_single ls s ok1 s1 ok2 s2 : steps (start 1) ls = Some s -> listeners s = [LAdd] ->
  step s (LListen 0 ok1) = Some s1 -> step s1 (LListen 0 ok2) = Some s2 ->
  listeners s2 = [if served s =? 1024 then LRefuse else LMalloc].
Proof.
  intros E L E1 E2. assert (nth_error (listeners s) 0 = Some LAdd) as N by (rewrite L; reflexivity).
  pose proof (server_refuses 1 ls s 0 ok1 s1 ok2 s2 ltac:(lia) E N E1 E2) as R.
  assert (length (listeners s2) = 1%nat) as LEN.
  { assert (forall s l s', step s l = Some s' -> length (listeners s') = length (listeners s)) as SL.
    { intros t l t' K. destruct l as [i b|j]; cbn in K.
      - unfold listen in K. destruct (nth_error (listeners t) i) as [p|]; [|discriminate].
        destruct p; try (destruct b); injection K as <-; apply set_nth_length.
      - unfold handle in K. destruct (nth_error (handlers t) j) as [[]|]; try discriminate; injection K as <-; reflexivity. }
    rewrite (SL _ _ _ E2), (SL _ _ _ E1), L. reflexivity. }
  pose proof (server_capped 1 ls s ltac:(lia) E) as CAP. assert (admitting s = 0) as A0 by (unfold admitting; rewrite L; reflexivity).
  rewrite A0, Z.add_0_r in R. destruct (listeners s2) as [|p [|]]; try discriminate. cbn in R. injection R as ->.
  destruct (Z.leb_spec 1024 (served s)), (Z.eqb_spec (served s) 1024); try lia; reflexivity.
Qed.
Print Assumptions server_refuses_single.

(** One listen loop that has started k threads, by five steps each. *)
Fixpoint accept_many (k : nat) : list label :=
  match k with O => [] | S k => [LListen 0 true; LListen 0 true; LListen 0 true; LListen 0 true; LListen 0 true] ++ accept_many k end.
(** 1024 connections are served, the next one is refused; after one ends, the next is served again. *)
Example server_demo :
  let refuse := [LListen 0 true; LListen 0 true; LListen 0 true; LListen 0 true; LListen 0 true] in
  match steps (start 1) (accept_many (Z.to_nat 1024) ++ refuse) with
  | Some s => served s = 1024 /\ refused s = 1%nat /\
      match steps s ([LHandle 7; LHandle 7] ++ accept_many 1) with Some s => served s = 1024 /\ refused s = 1%nat /\ counter s = 1024 | None => False end
  | None => False
  end.
Proof. vm_compute. auto. Qed.
(** Two listen loops, a failing malloc and a failing pthread_create. *)
Example server_demo_failures :
  match steps (start 2) [LListen 0 true; LListen 1 true; LListen 0 true; LListen 1 true; LListen 1 true; LListen 0 true; LListen 0 false; LListen 1 true; LListen 1 false; LListen 0 true; LListen 1 true] with
  | Some s => counter s = 0 /\ listeners s = [LAccept; LAccept] | None => False end.
Proof. vm_compute. auto. Qed.
