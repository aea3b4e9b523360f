(** What the integer functions of the math module return.  Divisibility, the
    greatest common divisor, the least common multiple and primes are those of
    Coq's library. *)
From Verif Require Import Base.
From Coq Require Export Znumtheory.

(** 1 * 2 * ... * n *)
Fixpoint product (n : nat) : Z := match n with O => 1 | S m => Z.of_nat n * product m end.
(** An [int] of the language. *)
Definition int (x : Z) : Prop := INT64_MIN <= x <= INT64_MAX.
