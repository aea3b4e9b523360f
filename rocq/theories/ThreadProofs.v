(** Invariants of the thread machine. *)
From Verif Require Import Base ThreadModel ThreadSpec.
Ltac Zify.zify_post_hook ::= Z.div_mod_to_equations.

(** ** Runs of one record *)
Lemma nth_set l i j r r0 : nth_error l i = Some r0 -> nth_error (set_nth l i r) j = if Nat.eqb j i then Some r else nth_error l j.
Proof.
  revert i j; induction l as [|x l IH]; intros [|i] [|j] E; cbn in *; try discriminate; auto.
Qed.
Lemma local_step s l s' i r : step s l = Some s' -> nth_error (recs s) i = Some r ->
  exists r', nth_error (recs s') i = Some r' /\ act_steps r (acts i [l]) = Some r'.
Proof.
  intros E N. destruct l as [c|j|j c|j]; cbn in E.
  - injection E as <-. exists r. split; [|reflexivity]. cbn. rewrite nth_error_app1; [exact N|].
    apply nth_error_Some. congruence.
  - destruct (nth_error (recs s) j) as [q|] eqn:Ej; [|discriminate]. destruct (work q) as [[q' d]|] eqn:W; [|discriminate].
    injection E as <-. cbn. rewrite (nth_set _ _ _ _ _ Ej), Nat.eqb_sym. destruct (Nat.eqb_spec j i) as [->|D]; [|eauto].
    rewrite N in Ej. injection Ej as <-. exists q'. cbn. rewrite W. auto.
  - destruct (nth_error (recs s) j) as [q|] eqn:Ej; [|discriminate]. destruct (begin_call q c) as [q'|] eqn:W; [|discriminate].
    injection E as <-. cbn. rewrite (nth_set _ _ _ _ _ Ej), Nat.eqb_sym. destruct (Nat.eqb_spec j i) as [->|D]; [|eauto].
    rewrite N in Ej. injection Ej as <-. exists q'. cbn. rewrite W. auto.
  - destruct (nth_error (recs s) j) as [q|] eqn:Ej; [|discriminate]. destruct (control q) as [q'|] eqn:W; [|discriminate].
    injection E as <-. cbn. rewrite (nth_set _ _ _ _ _ Ej), Nat.eqb_sym. destruct (Nat.eqb_spec j i) as [->|D]; [|eauto].
    rewrite N in Ej. injection Ej as <-. exists q'. cbn. rewrite W. auto.
Qed.
Lemma act_steps_app r a b : act_steps r (a ++ b) = match act_steps r a with Some r => act_steps r b | None => None end.
Proof. revert r; induction a as [|x a IH]; intros r; cbn; [reflexivity|]. destruct (act_step r x); [apply IH|reflexivity]. Qed.

(** A schedule of the whole system is, for each record, a run of that record from its creation. *)
Lemma own_run ls s i r : steps start ls = Some s -> nth_error (recs s) i = Some r ->
  exists b, In (LSpawn b) ls /\ act_steps (new_rec b) (acts i ls) = Some r.
Proof.
  assert (forall ls s0, steps s0 ls = Some s -> nth_error (recs s) i = Some r ->
    match nth_error (recs s0) i with
    | Some r0 => act_steps r0 (acts i ls) = Some r
    | None => exists b, In (LSpawn b) ls /\ act_steps (new_rec b) (acts i ls) = Some r
    end) as G.
  2:{ intros E N. specialize (G ls start E N). destruct i; exact G. }
  clear ls. induction ls as [|l ls IH]; intros s0 E N; cbn in E.
  - injection E as ->. rewrite N. reflexivity.
  - destruct (step s0 l) as [s1|] eqn:ST; [|discriminate]. specialize (IH _ E N).
    assert (acts i (l :: ls) = acts i [l] ++ acts i ls) as AE by (unfold acts; cbn; rewrite app_nil_r; reflexivity).
    rewrite AE. destruct (nth_error (recs s0) i) as [r0|] eqn:N0.
    + destruct (local_step _ _ _ _ _ ST N0) as (r' & N' & A). rewrite N' in IH. rewrite act_steps_app, A. exact IH.
    + destruct l as [c|j|j c|j]; cbn in ST; try (destruct (nth_error (recs s0) j) as [q|] eqn:Ej; [|discriminate]).
      * injection ST as <-. cbn [recs] in IH. cbn [acts flat_map app]. apply nth_error_None in N0. rewrite nth_error_app2 in IH by exact N0.
        destruct (i - length (recs s0))%nat as [|k]; cbn in IH.
        -- exists c. split; [left; reflexivity|exact IH].
        -- assert (nth_error (@nil rec) k = None) as Z by (destruct k; reflexivity). rewrite Z in IH. destruct IH as (b & I & A). exists b. split; [right; exact I|exact A].
      * assert (j <> i) as D by congruence. cbn [acts flat_map]. rewrite (proj2 (Nat.eqb_neq j i) D). cbn [app].
        destruct (work q) as [[q' d]|]; [|discriminate]. injection ST as <-. cbn [recs] in IH. rewrite (nth_set _ _ _ _ _ Ej) in IH.
        rewrite (proj2 (Nat.eqb_neq i j)) in IH by congruence. rewrite N0 in IH. destruct IH as (b & I & A). exists b. split; [right; exact I|exact A].
      * assert (j <> i) as D by congruence. cbn [acts flat_map]. rewrite (proj2 (Nat.eqb_neq j i) D). cbn [app].
        destruct (begin_call q c) as [q'|]; [|discriminate]. injection ST as <-. cbn [recs] in IH. rewrite (nth_set _ _ _ _ _ Ej) in IH.
        rewrite (proj2 (Nat.eqb_neq i j)) in IH by congruence. rewrite N0 in IH. destruct IH as (b & I & A). exists b. split; [right; exact I|exact A].
      * assert (j <> i) as D by congruence. cbn [acts flat_map]. rewrite (proj2 (Nat.eqb_neq j i) D). cbn [app].
        destruct (control q) as [q'|]; [|discriminate]. injection ST as <-. cbn [recs] in IH. rewrite (nth_set _ _ _ _ _ Ej) in IH.
        rewrite (proj2 (Nat.eqb_neq i j)) in IH by congruence. rewrite N0 in IH. destruct IH as (b & I & A). exists b. split; [right; exact I|exact A].
Qed.
(** An invariant of single records holds in every state of every schedule. *)
Lemma rec_invariant (P : rec -> Prop) : (forall b, P (new_rec b)) ->
  (forall r a r', P r -> act_step r a = Some r' -> P r') ->
  forall ls s, steps start ls = Some s -> forall i r, nth_error (recs s) i = Some r -> P r.
Proof.
  intros H0 H1 ls. assert (forall s0 s, (forall i r, nth_error (recs s0) i = Some r -> P r) -> steps s0 ls = Some s ->
    forall i r, nth_error (recs s) i = Some r -> P r) as G.
  { induction ls as [|l ls IH]; intros s0 s K E; cbn in E; [injection E as <-; exact K|]. destruct (step s0 l) as [s1|] eqn:ST; [|discriminate].
    eapply IH; [|exact E]. intros i r N. destruct (nth_error (recs s0) i) as [r0|] eqn:N0.
    - destruct (local_step _ _ _ _ _ ST N0) as (r' & N' & A). rewrite N in N'. injection N' as <-.
      specialize (K _ _ N0). clear - K A H1. revert r0 K A. generalize (acts i [l]) as a.
      induction a as [|x a IHa]; intros r0 K A; cbn in A; [congruence|]. destruct (act_step r0 x) as [r1|] eqn:X; [|discriminate]. eauto.
    - destruct l as [c|j|j c|j]; cbn in ST; try (destruct (nth_error (recs s0) j) as [q|] eqn:Ej; [|discriminate]).
      + injection ST as <-. cbn in N. apply nth_error_None in N0. rewrite nth_error_app2 in N by exact N0.
        destruct (i - length (recs s0))%nat as [|k]; cbn in N; [injection N as <-; apply H0|destruct k; discriminate].
      + destruct (work q) as [[q' d]|]; [|discriminate]. injection ST as <-. cbn in N. rewrite (nth_set _ _ _ _ _ Ej) in N.
        destruct (Nat.eqb_spec i j) as [->|]; congruence.
      + destruct (begin_call q c) as [q'|]; [|discriminate]. injection ST as <-. cbn in N. rewrite (nth_set _ _ _ _ _ Ej) in N.
        destruct (Nat.eqb_spec i j) as [->|]; congruence.
      + destruct (control q) as [q'|]; [|discriminate]. injection ST as <-. cbn in N. rewrite (nth_set _ _ _ _ _ Ej) in N.
        destruct (Nat.eqb_spec i j) as [->|]; congruence. }
  intros s E. apply (G start s); [|exact E]. intros [|i] r N; discriminate.
Qed.

Definition leak_inv (r : rec) : Prop :=
  let past := match wk r with WFreeArg | WEnd => true | _ => false end in
  let exited := match wk r with WCheck | WFree | WFreeArg | WEnd => true | _ => false end in
  (exited = true -> alive r = false) /\
  (wk r = WFree -> detached r = true) /\
  (match ct r with CIdle | DSet | JWait | ALoad false => True | _ => detached r = true \/ ct r = JFree \/ ct r = CJoined end) /\
  (past = true -> detached r = true -> match ct r with
     | DLoad | DDetach true | DFree => True | DDetach false | CDetached | ALoad true => (1 <= frees r)%nat | _ => True end) /\
  (ct r = CJoined -> (1 <= frees r)%nat).
(* the clause for an ended thread whose owner saw it alive: the thread itself must have freed *)
Lemma leak_step r a r' : leak_inv r -> act_step r a = Some r' -> leak_inv r'.
Proof.
  unfold leak_inv. destruct r as [al de fr af w c]. destruct a as [|k|]; cbn; intros H E.
  - unfold work in E. destruct w; cbn in E; try discriminate; try (destruct de); cbn in E; injection E as <-;
      cbn in *; destruct c as [| | |[]| | | | | |[]]; cbn in *; intuition (try congruence; try lia).
  - unfold begin_call in E. destruct c as [| | |[]| | | | | |[]], k; cbn in E; try discriminate; injection E as <-;
      destruct w; cbn in *; intuition (try congruence; try lia).
  - unfold control in E. destruct c as [| | |[]| | | | | |[]]; cbn in E; try discriminate.
    all: try (injection E as <-; destruct w, al, de; cbn in *; intuition (try congruence; try lia); fail).
    all: try (destruct w; try discriminate; injection E as <-; cbn in *; intuition (try congruence; try lia); fail).
Qed.
Definition join_inv (r : rec) : Prop :=
  after_free r = false /\
  match ct r with
  | CIdle | JWait | ALoad false => frees r = 0%nat /\ detached r = false /\ wk r <> WFree
  | JFree => frees r = 0%nat /\ detached r = false /\ wk r = WEnd
  | CJoined => frees r = 1%nat /\ wk r = WEnd
  | _ => False
  end.
Lemma join_step r a r' : join_inv r -> a <> ACall Detach -> act_step r a = Some r' -> join_inv r'.
Proof.
  unfold join_inv. destruct r as [al de fr af w c]. destruct a as [|k|]; cbn; intros H D E.
  - unfold work in E. destruct w; cbn in E; try discriminate; try (destruct de); cbn in E; injection E as <-;
      cbn in *; destruct c as [| | |[]| | | | | |[]]; cbn in *; intuition (subst; cbn; try congruence; try lia).
  - unfold begin_call in E. destruct c as [| | |[]| | | | | |[]], k; cbn in E; try discriminate; try congruence; injection E as <-;
      destruct w; cbn in *; intuition (subst; cbn; try congruence; try lia).
  - unfold control in E. destruct c as [| | |[]| | | | | |[]]; cbn in E; try discriminate; try tauto.
    all: destruct w; try discriminate; injection E as <-; cbn in *; intuition (subst; cbn; try congruence; try lia).
Qed.
Lemma local_run (P : rec -> Prop) (ok : act -> Prop) i :
  (forall r a r', P r -> ok a -> act_step r a = Some r' -> P r') -> (forall b, P (new_rec b)) ->
  forall ls s, steps start ls = Some s -> (forall a, In a (acts i ls) -> ok a) ->
  forall r, nth_error (recs s) i = Some r -> P r.
Proof.
  intros H1 H0 ls. assert (forall s0 s, (forall r, nth_error (recs s0) i = Some r -> P r) -> steps s0 ls = Some s ->
    (forall a, In a (acts i ls) -> ok a) -> forall r, nth_error (recs s) i = Some r -> P r) as G.
  { induction ls as [|l ls IH]; intros s0 s K E O; cbn in E; [injection E as <-; exact K|]. destruct (step s0 l) as [s1|] eqn:ST; [|discriminate].
    assert (acts i (l :: ls) = acts i [l] ++ acts i ls) as AE by (unfold acts; cbn; rewrite app_nil_r; reflexivity).
    rewrite AE in O. eapply IH; [|exact E|intros a I; apply O, in_or_app; right; exact I]. intros r N.
    destruct (nth_error (recs s0) i) as [r0|] eqn:N0.
    - destruct (local_step _ _ _ _ _ ST N0) as (r' & N' & A). rewrite N in N'. injection N' as <-.
      specialize (K _ eq_refl). assert (forall a, In a (acts i [l]) -> ok a) as O1 by (intros a I; apply O, in_or_app; left; exact I).
      clear - K A H1 O1. revert r0 K A O1. generalize (acts i [l]) as a.
      induction a as [|x a IHa]; intros r0 K A O1; cbn in A; [congruence|]. destruct (act_step r0 x) as [r1|] eqn:X; [|discriminate].
      eapply IHa; [|exact A|]; [eapply H1; [exact K| |exact X]; apply O1; left; reflexivity|intros y I; apply O1; right; exact I].
    - destruct l as [c|j|j c|j]; cbn in ST; try (destruct (nth_error (recs s0) j) as [q|] eqn:Ej; [|discriminate]).
      + injection ST as <-. cbn in N. apply nth_error_None in N0. rewrite nth_error_app2 in N by exact N0.
        destruct (i - length (recs s0))%nat as [|k]; cbn in N; [injection N as <-; apply H0|destruct k; discriminate].
      + destruct (work q) as [[q' d]|]; [|discriminate]. injection ST as <-. cbn in N. rewrite (nth_set _ _ _ _ _ Ej) in N.
        destruct (Nat.eqb_spec i j) as [->|]; congruence.
      + destruct (begin_call q c) as [q'|]; [|discriminate]. injection ST as <-. cbn in N. rewrite (nth_set _ _ _ _ _ Ej) in N.
        destruct (Nat.eqb_spec i j) as [->|]; congruence.
      + destruct (control q) as [q'|]; [|discriminate]. injection ST as <-. cbn in N. rewrite (nth_set _ _ _ _ _ Ej) in N.
        destruct (Nat.eqb_spec i j) as [->|]; congruence. }
  intros s E O. apply (G start s); [|exact E|exact O]. intros r N. destruct i; discriminate.
Qed.
Lemma acts_in i ls c : In (ACall c) (acts i ls) -> In (LCall i c) ls.
Proof.
  unfold acts. intros I. apply in_flat_map in I. destruct I as ([b|j|j c'|j] & I & K); try contradiction;
    destruct (Nat.eqb_spec j i) as [->|]; cbn in K; try contradiction; destruct K as [K|[]]; try discriminate.
  injection K as ->. exact I.
Qed.
Definition detach_inv (r : rec) : Prop :=
  after_free r = false /\ wk r <> WNever /\
  match ct r with
  | CIdle | JWait | ALoad false =>
      frees r = 0%nat /\ detached r = false /\ wk r <> WFree /\
      (alive r = match wk r with WRun | WCount | WAlive => true | _ => false end)
  | DSet => frees r = 0%nat /\ detached r = false /\ wk r <> WFree /\ wk r <> WCheck /\
      (alive r = match wk r with WRun | WCount | WAlive => true | _ => false end)
  | DLoad => frees r = 0%nat /\
      (alive r = match wk r with WRun | WCount | WAlive => true | _ => false end) /\ detached r = true /\ wk r <> WFree /\ wk r <> WCheck
  | DDetach dead => frees r = 0%nat /\ detached r = true /\
      (if dead then wk r = WFreeArg \/ wk r = WEnd else alive r = true /\ (wk r = WRun \/ wk r = WCount \/ wk r = WAlive))
  | DFree => frees r = 0%nat /\ (wk r = WFreeArg \/ wk r = WEnd)
  | CDetached =>
      match wk r with
      | WRun | WCount | WAlive | WCheck | WFree => frees r = 0%nat /\ detached r = true
      | _ => frees r = 1%nat
      end
  | JFree => frees r = 0%nat /\ wk r = WEnd
  | CJoined => frees r = 1%nat /\ wk r = WEnd
  | ALoad true => False
  end.
Lemma detach_step r a r' : detach_inv r -> apart r a -> act_step r a = Some r' -> detach_inv r'.
Proof.
  unfold detach_inv. destruct r as [al de fr af w c]. destruct a as [|k|]; cbn; intros H D E.
  - unfold work in E. destruct w; cbn in E; try discriminate; try (destruct de); cbn in E; injection E as <-;
      cbn in *; destruct c as [| | |[]| | | | | |[]]; cbn in *; intuition (subst; cbn; try congruence; try lia).
  - unfold begin_call in E. destruct c as [| | |[]| | | | | |[]], k; cbn in E; try discriminate; try congruence; injection E as <-;
      destruct w; cbn in *; intuition (subst; cbn; try congruence; try lia).
  - unfold control in E. destruct c as [| | |[]| | | | | |[]]; cbn in E; try discriminate; try tauto.
    all: destruct w; try discriminate; injection E as <-; cbn in *; try (destruct al); cbn in *; intuition (subst; cbn; try congruence; try lia).
Qed.
Lemma count_set l i r r' : nth_error l i = Some r ->
  count_running (set_nth l i r') = count_running l - (if running r then 1 else 0) + (if running r' then 1 else 0).
Proof.
  revert i; induction l as [|x l IH]; intros [|i] E; cbn in *; try discriminate.
  - injection E as ->. lia.
  - rewrite (IH _ E). lia.
Qed.
Lemma count_app l l' : count_running (l ++ l') = count_running l + count_running l'.
Proof. induction l; cbn; lia. Qed.
