(** grayc/src/stdlib/math.c and the integer functions of math.h.  [fuel] bounds the turns of a loop.  The runtime is
    compiled as ISO C: a signed result that does not fit is [UB].  The
    floating-point functions are not modelled. *)
From Verif Require Import Base.

Definition i64 (x : Z) : res Z := if (INT64_MIN <=? x) && (x <=? INT64_MAX) then Ok x else UB.

(** math.h:29 *)
Definition gray_math_abs_int (n : Z) : res Z := if n <? 0 then i64 (- n) else Ok n.
(** codegen.c:4091-4096: [math.neg(x)] is [(-(x))] *)
Definition math_neg (n : Z) : res Z := i64 (- n).
(** math.h:57 *)
Definition gray_math_sign (n : Z) : Z := if 0 <? n then 1 else if n <? 0 then -1 else 0.
(** math.h:70, 84 and 98-100 *)
Definition gray_math_min_int (a b : Z) : Z := if a <? b then a else b.
Definition gray_math_max_int (a b : Z) : Z := if b <? a then a else b.
Definition gray_math_clamp_int (v lo hi : Z) : Z := if v <? lo then lo else if hi <? v then hi else v.
(** math.h:450 and 462; [%] is [Z.rem] *)
Definition gray_math_is_even (n : Z) : bool := Z.rem n 2 =? 0.
Definition gray_math_is_odd (n : Z) : bool := negb (Z.rem n 2 =? 0).

(** math.c:34-40 *)
Fixpoint factorial_loop (fuel : nat) (i n result : Z) : res Z :=
  match fuel with
  | O => NoFuel
  | S fuel => if i <=? n then rbind (i64 (result * i)) (fun r => rbind (i64 (i + 1)) (fun i => factorial_loop fuel i n r)) else Ok result
  end.
Definition gray_math_factorial (fuel : nat) (n : Z) : res Z :=
  if n <? 0 then Panic 70 else if n <=? 1 then Ok 1 else factorial_loop fuel 2 n 1.

(** math.c:42-47 *)
Fixpoint gcd_loop (fuel : nat) (a b : Z) : res Z :=
  match fuel with
  | O => NoFuel
  | S fuel => if b =? 0 then Ok a else gcd_loop fuel b (Z.rem a b)
  end.
Definition gray_math_gcd (fuel : nat) (a b : Z) : res Z :=
  rbind (if a <? 0 then i64 (- a) else Ok a) (fun a =>
  rbind (if b <? 0 then i64 (- b) else Ok b) (fun b => gcd_loop fuel a b)).
(** math.c:49-53 *)
Definition gray_math_lcm (fuel : nat) (a b : Z) : res Z :=
  if (a =? 0) || (b =? 0) then Ok 0 else
  rbind (gray_math_gcd fuel a b) (fun g => i64 (Z.quot a g * b)).

(** math.c:55-63 *)
Fixpoint prime_loop (fuel : nat) (i n : Z) : res bool :=
  match fuel with
  | O => NoFuel
  | S fuel =>
    rbind (i64 (i * i)) (fun s =>
    if s <=? n then
      if (Z.rem n i =? 0) || (Z.rem n (i + 2) =? 0) then Ok false else prime_loop fuel (i + 6) n
    else Ok true)
  end.
Definition gray_math_is_prime (fuel : nat) (n : Z) : res bool :=
  if n <? 2 then Ok false else
  if n <? 4 then Ok true else
  if (Z.rem n 2 =? 0) || (Z.rem n 3 =? 0) then Ok false else prime_loop fuel 5 n.

