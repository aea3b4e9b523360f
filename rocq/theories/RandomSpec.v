(** The calls of the random module, and the choices of a shuffle. *)
From Verif Require Import Base.

Inductive call :=
| Seed (v : Z) | IntMax (max : Z) | IntRange (min max : Z) | Bool | Byte | Char | CharRange (min max : Z)
| Choice (l : list Z) | Shuffle (l : list Z) | Sample (l : list Z) (n : Z).
Inductive answer := Nothing | Value (z : Z) | Values (l : list Z).
(** The choices of a shuffle of n elements: one of n, then one of n - 1, ..., at last one of 2. *)
Fixpoint choices (n : nat) (js : list Z) : Prop :=
  match n with
  | O | 1%nat => js = []
  | S m => match js with [] => False | j :: t => 0 <= j < Z.of_nat n /\ choices m t end
  end.
