From Verif Require Import Base ValueSpec ValueModel ValueProofs ValueProofs2 ValueProofs3.

(** ** C131 Assignment copies *)

(** Every program whose hand-overs are of the careful forms behaves as if every
    variable held its own whole value: it stops where that program stops, and
    ends with the same values in all variables. *)
Theorem value_semantics_partial l : all_typed [] l -> all_careful [] l ->
  match runs [] start l, sruns [] l with
  | Some s, Some ts => contents (types_of [] l) (mem s) (vars s) = ts
  | None, None => True
  | _, _ => False
  end.
Proof.
  intros T C. pose proof (runs_agree l [] start [] start_agrees T C) as B. unfold both in B.
  destruct (runs [] start l), (sruns [] l); auto. now apply agrees_contents.
Qed.
(** In particular a write to one variable changes no other. *)
Theorem write_changes_one_partial l x p e y s : all_typed [] (l ++ [Write x p e]) -> all_careful [] (l ++ [Write x p e]) ->
  runs [] start l = Some s -> y <> x ->
  match runs [] start (l ++ [Write x p e]) with
  | Some s' => nth_error (contents (types_of [] l) (mem s') (vars s')) y = nth_error (contents (types_of [] l) (mem s) (vars s)) y
  | None => True
  end.
Proof.
  intros T C E N. pose proof (value_semantics_partial _ T C) as B.
  assert (T' := proj1 (proj1 (typed_app l [] [Write x p e]) T)). assert (C' := proj1 (proj1 (careful_app l [] [Write x p e]) C)).
  pose proof (value_semantics_partial _ T' C') as B1. rewrite E in B1.
  destruct (sruns [] l) as [ts|] eqn:Es; [|contradiction]. rewrite sruns_app, Es in B. cbn [sruns] in B.
  destruct (runs [] start (l ++ [Write x p e])) as [s'|]; auto.
  destruct (sstep ts (Write x p e)) as [ts'|] eqn:E1; [|contradiction].
  assert (types_of [] (l ++ [Write x p e]) = types_of [] l) as Q by (unfold types_of; rewrite fold_left_app; reflexivity).
  rewrite Q in B. rewrite B, B1. cbn in E1. destruct (seval ts e); [|discriminate]. eapply swrite_other; eauto.
Qed.

Definition ints (l : list Z) : tree := Arr (map Num l).
Definition INTS : ty := TArr TNum.
(** A person: a number and an array of numbers. *)
Definition PERSON : ty := TRec [TNum; INTS].
(** const a [int] = {1,2}; mut b [int] = a; b[0] = 9; mut p Person = Person{7, {3}};
    mut q Person = p; q.1 = b; arrays.append(q.1, 4); q.1[0] += 5; mut c [int] = q.1; c[1] = 0 *)
Definition sample : list stmt :=
  [ Decl false true INTS (Lit (ints [1; 2])); Decl true true INTS (Path 0 []); Write 1 [Idx 0] (Lit (Num 9));
    Decl true true PERSON (Lit (Rec [Num 7; ints [3]])); Decl true true PERSON (Path 2 []);
    Write 3 [Fld 1] (Path 1 []); Push 3 [Fld 1] (Num 4); Poke Compound 3 [Fld 1; Idx 0] 5;
    Decl true true INTS (Path 3 [Fld 1]); Write 4 [Idx 1] (Lit (Num 0)) ].
Example sample_typed : all_typed [] sample.
Proof. cbn. repeat match goal with |- _ /\ _ => split | |- exists _, _ => eexists; split; [reflexivity|] | |- True => exact I | |- _ = _ => reflexivity end; repeat constructor. Qed.
Example sample_careful : all_careful [] sample.
Proof. cbn. repeat split; auto 6. Qed.
Example sample_runs : exists s, runs [] start sample = Some s /\
  contents (types_of [] sample) (mem s) (vars s) =
  [ints [1; 2]; ints [9; 2]; Rec [Num 7; ints [3]]; Rec [Num 7; ints [14; 2; 4]]; ints [14; 0; 4]].
Proof. eexists. split; reflexivity. Qed.

(** The full property is false: [mut b = a] without a type shares the elements;
    so does [rows[0] = b]; so does [mut r [[int]] = s.rows]; so does
    [mut q Person = people[0]]. *)
Definition untyped : list stmt :=
  [ Decl true true INTS (Lit (ints [1; 2])); Decl true false INTS (Path 0 []); Write 1 [Idx 0] (Lit (Num 9)) ].
Definition into_element : list stmt :=
  [ Decl true true INTS (Lit (ints [1; 2])); Decl true true (TArr INTS) (Lit (Arr [ints [3]])); Write 1 [Idx 0] (Path 0 []);
    Write 1 [Idx 0; Idx 0] (Lit (Num 9)) ].
Definition nested_field : list stmt :=
  [ Decl true true (TRec [TArr INTS]) (Lit (Rec [Arr [ints [1; 2]]])); Decl true true (TArr INTS) (Path 0 [Fld 0]);
    Write 1 [Idx 0; Idx 0] (Lit (Num 9)) ].
Definition from_element : list stmt :=
  [ Decl true true (TArr PERSON) (Lit (Arr [Rec [Num 7; ints [1; 2]]])); Decl true true PERSON (Path 0 [Idx 0]);
    Write 1 [Fld 1; Idx 0] (Lit (Num 9)) ].
Theorem value_semantics_refuted : Forall (fun l => all_typed [] l /\ checks [] l = true /\
  exists s ts, runs [] start l = Some s /\ sruns [] l = Some ts /\
    nth_error (contents (types_of [] l) (mem s) (vars s)) 0 <> nth_error ts 0)
  [untyped; into_element; nested_field; from_element].
Proof.
  repeat (apply Forall_cons || apply Forall_nil); (split; [|split; [reflexivity|]]);
  try (do 2 eexists; split; [reflexivity|split; [reflexivity|]]; discriminate);
  cbn; repeat match goal with |- _ /\ _ => split | |- exists _, _ => eexists; split; [reflexivity|] | |- True => exact I | |- _ = _ => reflexivity end; repeat constructor.
Qed.

(** ** C132 Constants keep their value *)

(** In every program the type checker accepts, made of careful hand-overs and of
    writes at the depths the checks look at, a constant has at every later point
    the value it had when it was declared. *)
Theorem consts_kept_partial l1 l2 s1 s2 x : all_typed [] (l1 ++ l2) -> all_careful [] (l1 ++ l2) -> Forall in_sight (l1 ++ l2) ->
  checks [] (l1 ++ l2) = true -> runs [] start l1 = Some s1 -> runs [] start (l1 ++ l2) = Some s2 ->
  nth_error (consts_of [] l1) x = Some true ->
  exists v, nth_error (contents (types_of [] l1) (mem s1) (vars s1)) x = Some v /\
            nth_error (contents (types_of [] (l1 ++ l2)) (mem s2) (vars s2)) x = Some v.
Proof.
  intros T C S K E1 E2 X.
  assert (T' := proj1 (proj1 (typed_app l1 [] l2) T)). assert (C' := proj1 (proj1 (careful_app l1 [] l2) C)).
  pose proof (runs_agree l1 [] start [] start_agrees T' C') as A1. rewrite E1 in A1.
  pose proof (runs_agree _ [] start [] start_agrees T C) as A2. rewrite E2 in A2. rewrite sruns_app in A2.
  destruct (sruns [] l1) as [ts1|]; [|contradiction]. destruct (sruns ts1 l2) as [ts2|] eqn:Es; [|contradiction].
  cbn in A1, A2. rewrite (agrees_contents _ _ _ A1), (agrees_contents _ _ _ A2).
  assert (L : (x < length ts1)%nat).
  { destruct A1 as [A1 _]. pose proof (Forall2_len _ _ _ A1) as Q. rewrite <- Q. rewrite (counts l1 [] []) by reflexivity.
    apply nth_error_Some. congruence. }
  rewrite checks_app in K. apply andb_prop in K as [_ K]. apply Forall_app in S as [_ S].
  assert (Kx : is_const (consts_of [] l1) x = true) by (unfold is_const; eapply nth_of_error; eauto).
  pose proof (runs_keep _ _ _ _ x K S Kx L Es) as Q. rewrite Q.
  destruct (nth_error ts1 x) as [v|] eqn:Ev; eauto. apply nth_error_None in Ev. lia.
Qed.
Example sample_checks : checks [] sample = true /\ nth_error (consts_of [] sample) 0 = Some true /\
  checks [] (firstn 1 sample ++ [Write 0 [] (Lit (ints []))]) = false /\
  checks [] (firstn 1 sample ++ [Write 0 [Idx 0] (Lit (Num 9))]) = false /\
  checks [] (firstn 1 sample ++ [Poke Address 0 [Idx 0] 9]) = false.
Proof. repeat split; reflexivity. Qed.
(** The full property is false: an element of an element of a constant can be
    assigned, an element incremented, passed to an [&] parameter, referred to by
    [mut r = ref(c[0])]; its parts can be appended to; and a variable that
    shares with it can be changed. *)
Definition GRID : ty := TArr INTS.
Definition grid : stmt := Decl false true GRID (Lit (Arr [ints [1; 2]])).
Definition row : stmt := Decl false true INTS (Lit (ints [1; 2])).
Theorem consts_kept_refuted : Forall (fun l => all_typed [] l /\ checks [] l = true /\ nth_error (consts_of [] l) 0 = Some true /\
  exists s s', runs [] start (firstn 1 l) = Some s /\ runs [] start l = Some s' /\
    nth_error (contents (types_of [] l) (mem s') (vars s')) 0 <> nth_error (contents (types_of [] (firstn 1 l)) (mem s) (vars s)) 0)
  [ [grid; Write 0 [Idx 0; Idx 1] (Lit (Num 9))]; [grid; Poke Compound 0 [Idx 0; Idx 1] 5]; [row; Poke Inc 0 [Idx 0] 1];
    [row; Poke Amp 0 [Idx 0] 9]; [row; Poke MutRef 0 [Idx 0] 9]; [grid; Push 0 [Idx 0] (Num 3)];
    [row; Decl true false INTS (Path 0 []); Write 1 [Idx 0] (Lit (Num 9))] ].
Proof.
  repeat (apply Forall_cons || apply Forall_nil); (split; [|split; [reflexivity|split; [reflexivity|]]]);
  try (do 2 eexists; split; [reflexivity|split; [reflexivity|]]; discriminate);
  cbn; repeat match goal with |- _ /\ _ => split | |- exists _, _ => eexists; split; [reflexivity|] | |- True => exact I | |- _ = _ => reflexivity end; repeat constructor.
Qed.

Print Assumptions value_semantics_partial.
Print Assumptions write_changes_one_partial.
Print Assumptions value_semantics_refuted.
Print Assumptions consts_kept_partial.
Print Assumptions consts_kept_refuted.
