(** The counter is the number of connection threads plus the units held by listen loops. *)
From Verif Require Import Base ServcapModel.
Ltac Zify.zify_post_hook ::= Z.div_mod_to_equations.

Definition count {A} (f : A -> bool) (l : list A) : Z := Z.of_nat (length (filter f l)).
Definition b2z (b : bool) : Z := if b then 1 else 0.
Lemma count_app {A} (f : A -> bool) l l' : count f (l ++ l') = count f l + count f l'.
Proof. unfold count. rewrite filter_app, app_length. lia. Qed.
Lemma count_cons {A} (f : A -> bool) x l : count f (x :: l) = b2z (f x) + count f l.
Proof. unfold count, b2z. cbn. destruct (f x); cbn [length]; lia. Qed.
Lemma count_set {A} (f : A -> bool) l i x y : nth_error l i = Some x ->
  count f (set_nth l i y) = count f l - b2z (f x) + b2z (f y).
Proof.
  revert i; induction l as [|z l IH]; intros [|i] E; cbn [nth_error set_nth] in *; try discriminate.
  - injection E as ->. rewrite !count_cons. lia.
  - rewrite !count_cons, (IH _ E). lia.
Qed.
Lemma count_bounds {A} (f : A -> bool) l : 0 <= count f l <= Z.of_nat (length l).
Proof. induction l as [|x l IH]; [cbn; lia|]. rewrite count_cons. unfold b2z. cbn [length]. destruct (f x); lia. Qed.
Lemma count_le {A} (f g : A -> bool) l : (forall x, f x = true -> g x = true) -> count f l <= count g l.
Proof.
  intros H. induction l as [|x l IH]; [cbn; lia|]. rewrite !count_cons. specialize (H x). unfold b2z.
  destruct (f x), (g x); intuition (try lia; try discriminate).
Qed.
Lemma set_nth_length {A} (l : list A) i x : length (set_nth l i x) = length l.
Proof. revert i; induction l as [|y l IH]; intros [|i]; cbn; auto. Qed.
Lemma count_in {A} (f : A -> bool) l i x : nth_error l i = Some x -> f x = true -> 1 <= count f l.
Proof.
  revert i; induction l as [|z l IH]; intros [|i] E F; cbn in E; try discriminate; rewrite count_cons.
  - injection E as ->. rewrite F. pose proof (count_bounds f l). unfold b2z. lia.
  - specialize (IH _ E F). unfold b2z. destruct (f z); lia.
Qed.

Definition in_service (h : hpc) : bool := match h with HEnd => false | _ => true end.
(** a listen loop that has added its unit and neither taken it back nor handed it to a thread *)
Definition holds (p : lpc) : bool := match p with LTest _ | LRefuse | LMalloc | LCreate | LUndo => true | _ => false end.
(** of these, those whose unit was over the limit *)
Definition admitted (p : lpc) : bool :=
  match p with LTest prev => prev <? max_connections | LMalloc | LCreate | LUndo => true | _ => false end.

Definition small (s : state) : Prop := Z.of_nat (length (listeners s)) < 2 ^ 30.
Definition ok (s : state) : Prop :=
  counter s = count in_service (handlers s) + count holds (listeners s) /\
  count in_service (handlers s) + count admitted (listeners s) <= max_connections /\
  small s.
Lemma start_ok n : Z.of_nat n < 2 ^ 30 -> ok (start n).
Proof.
  intros H. unfold ok, small, start, max_connections. cbn [counter listeners handlers]. rewrite repeat_length.
  assert (forall f, f LAccept = false -> count f (List.repeat LAccept n) = 0) as Z.
  { intros f F. clear H. induction n; cbn [List.repeat]; [reflexivity|]. rewrite count_cons, F, IHn. reflexivity. }
  rewrite !Z by reflexivity. cbn. lia.
Qed.
Lemma add32_small c v : -2 ^ 31 <= c + v < 2 ^ 31 -> add32 c v = c + v.
Proof.
  intros H. unfold add32, wrap_i. change (2 ^ 31) with 2147483648 in *. change (2 ^ (32 - 1)) with 2147483648. change (2 ^ 32) with 4294967296.
  destruct (Z.ltb_spec ((c + v) mod 4294967296) 2147483648); lia.
Qed.
Lemma step_ok s l s' : ok s -> step s l = Some s' -> ok s'.
Proof.
  intros (C & A & SM) E. pose proof (count_bounds in_service (handlers s)). pose proof (count_bounds holds (listeners s)).
  pose proof (count_bounds admitted (listeners s)). unfold small in SM.
  assert (forall p, admitted p = true -> holds p = true) as SUB by (intros []; cbn; congruence).
  pose proof (count_le admitted holds (listeners s) SUB).
  unfold ok, small, max_connections in *. destruct l as [i b|j]; cbn [step] in E.
  - unfold listen in E. destruct (nth_error (listeners s) i) as [p|] eqn:Ei; [|discriminate].
    pose proof (fun q => count_set holds _ _ _ q Ei) as CH. pose proof (fun q => count_set admitted _ _ _ q Ei) as CA.
    pose proof (set_nth_length (listeners s) i) as SL.
    destruct p; try (destruct b); try (destruct (Z.leb_spec max_connections prev)); injection E as <-; cbn [counter listeners handlers];
      rewrite ?SL, ?CH, ?CA, ?count_app, ?count_cons; cbn [holds admitted in_service b2z]; unfold max_connections in *; cbn in *.
    all: try (rewrite add32_small by lia).
    all: try (destruct (Z.ltb_spec (counter s) 1024)); try (destruct (Z.ltb_spec prev 1024)); cbn [b2z] in *; try lia.
    all: change (count in_service []) with 0 in *; cbn [b2z] in *; try lia.
  - unfold handle in E. destruct (nth_error (handlers s) j) as [p|] eqn:Ej; [|discriminate].
    pose proof (fun q => count_set in_service _ _ _ q Ej) as CH.
    assert (in_service p = true -> 1 <= count in_service (handlers s)) by (intros; eapply count_in; eauto).
    destruct p; try discriminate; injection E as <-; cbn [counter listeners handlers in_service] in *; rewrite ?CH; cbn [b2z in_service].
    all: try (rewrite add32_small by lia); lia.
Qed.
Lemma steps_ok ls : forall s s', ok s -> steps s ls = Some s' -> ok s'.
Proof.
  induction ls as [|l ls IH]; intros s s' H E; cbn in E; [congruence|]. destruct (step s l) as [s1|] eqn:K; [|discriminate].
  eapply IH; [eapply step_ok; eauto|exact E].
Qed.
