(** What a range holds. *)
From Verif Require Import Base.

(** The step as it is written: none, an integer literal, a minus sign before
    an expression of value n, another expression of value n. *)
Inductive step := NoStep | Lit (n : Z) | Neg (n : Z) | Var (n : Z).
Definition amount (s : step) : Z := match s with NoStep => 1 | Lit n => n | Neg n => - n | Var n => n end.
(** range(end), range(start, end), range(start, end, step) *)
Record range := Range { r_start : option Z; r_end : Z; r_step : step }.
Definition start (r : range) : Z := match r_start r with Some a => a | None => 0 end.
Definition int64 (n : Z) : Prop := INT64_MIN <= n <= INT64_MAX.
(** x is before the end, in the direction of the step *)
Definition before (r : range) (x : Z) : Prop := (0 < amount (r_step r) /\ x < r_end r) \/ (amount (r_step r) < 0 /\ r_end r < x).
(** start, start + step, start + 2 step, ... as long as the end is not reached *)
Definition holds (r : range) (x : Z) : Prop := exists k, 0 <= k /\ x = start r + k * amount (r_step r) /\ before r x.
Definition lists (r : range) (l : list Z) : Prop :=
  forall k x, nth_error l k = Some x <-> x = start r + Z.of_nat k * amount (r_step r) /\ before r x.
(** The sign of the step can be read off the text. *)
Definition plain_step (s : step) : Prop := match s with NoStep => True | Lit n => 0 < n | Neg n => 0 < n | Var n => n <> 0 end.

(** How a loop ends. *)
Inductive ending := Done | Zero_step | Overflow | Unfinished.

(** A value of a branch of when is compared, or is a range. *)
Inductive case := Value (v : Z) | Within (r : range).
Definition covers (x : Z) (c : case) : Prop := match c with Value v => x = v | Within r => holds r x end.
(** The branch that is to run: the first with a value that covers x. *)
Definition chosen (x : Z) (cases : list (list case)) (o : option nat) : Prop :=
  match o with
  | Some k => (exists vs, nth_error cases k = Some vs /\ Exists (covers x) vs) /\ forall j vs, (j < k)%nat -> nth_error cases j = Some vs -> ~ Exists (covers x) vs
  | None => forall vs, In vs cases -> ~ Exists (covers x) vs
  end.
(** A range of a branch with a start, an upward step or a step with a minus
    sign, and a distance from the start to x that is an int64. *)
Definition good (x : Z) (c : case) : Prop :=
  match c with
  | Value _ => True
  | Within r => r_start r <> None /\ match r_step r with NoStep => True | Lit n => 0 < n | Neg n => 0 < n | Var n => 0 < n end /\ INT64_MIN < x - start r <= INT64_MAX
  end.
