(** Ranges of int: the check of a for loop over a range with literal bounds
    (typechecker.c:9768-9800), the loop (codegen.c:8503-8597), x in range(...)
    (codegen.c:1847-1885) and when with ranges (codegen.c:9063-9136).  The
    bounds are taken as values: that the end is evaluated again before each
    iteration, and the left operand of in up to three times, is not modelled;
    nor are unsigned subjects. *)
From Verif Require Import Base RangeSpec.

(** typechecker.c:9771-9800: E9005; [lits]: both bounds are integer literals *)
Definition check_for (lits : bool) (r : range) : list Z :=
  match r_start r with
  | Some a =>
      let known := match r_step r with Var _ => false | _ => true end in
      let negative := match r_step r with Lit n => n <? 0 | Neg _ => true | _ => false end in
      if lits && known then if (if negative then a <? r_end r else r_end r <? a) then [9005] else [] else []
  | None => []
  end.
(** gray_add_check, runtime.h: panics when the sum is no int64 *)
Definition add_check (x s : Z) : option Z := if (INT64_MIN <=? x + s) && (x + s <=? INT64_MAX) then Some (x + s) else None.
(** The C loop: [up] is the direction of the comparison; ++ for a range without step cannot overflow, so it is written as a checked addition too.  The values of the variable in the body, and how it ends *)
Fixpoint loop (fuel : nat) (up : bool) (b s x : Z) : list Z * ending :=
  match fuel with
  | O => ([], Unfinished)
  | S f =>
      if (if up then x <? b else b <? x) then
        match add_check x s with
        | Some y => let '(l, e) := loop f up b s y in (x :: l, e)
        | None => ([x], Overflow)
        end
      else ([], Done)
  end.
(** codegen.c:8518-8589 *)
Definition for_range (fuel : nat) (r : range) : list Z * ending :=
  match r_start r with
  | None => loop fuel true (r_end r) 1 0
  | Some a =>
      match r_step r with
      | NoStep => loop fuel true (r_end r) 1 a
      | Lit n => if n =? 0 then ([], Zero_step) else loop fuel (negb (n <? 0)) (r_end r) n a
      | Neg n => loop fuel false (r_end r) (- n) a
      | Var n => if n =? 0 then ([], Zero_step) else loop fuel (0 <? n) (r_end r) n a
      end
  end.
(** C: (x - a) % s == 0 on int64_t *)
Definition at_step (x a s : Z) : res bool :=
  let d := x - a in
  if (INT64_MIN <=? d) && (d <=? INT64_MAX) then
    if (s =? 0) || ((d =? INT64_MIN) && (s =? -1)) then UB else Ok (Z.rem d s =? 0)
  else UB.
(** codegen.c:1852-1885 *)
Definition in_range (x : Z) (r : range) : res bool :=
  if start r <=? x then
    if x <? r_end r then match r_step r with NoStep => Ok true | s => at_step x (start r) (amount s) end else Ok false
  else Ok false.
Definition not_in_range (x : Z) (r : range) : res bool :=
  match in_range x r with Ok b => Ok (negb b) | Panic c => Panic c | UB => UB | NoFuel => NoFuel end.
(** codegen.c:9098-9122 *)
Definition when_range (x : Z) (r : range) : res bool :=
  let neg := match r_step r with Neg _ => true | _ => false end in
  if (if neg then x <=? start r else start r <=? x) then
    if (if neg then r_end r <? x else x <? r_end r) then match r_step r with NoStep => Ok true | s => at_step x (start r) (amount s) end else Ok false
  else Ok false.
(** codegen.c:9105, 9109, 1006: nothing is emitted for a start that is not written, which C rejects *)
Definition is_c (cases : list (list case)) : bool :=
  forallb (forallb (fun c => match c with Within r => match r_start r with Some _ => true | None => false end | Value _ => true end)) cases.
(** codegen.c:9072-9136: the values of a branch are tried from left to right *)
Fixpoint arm (x : Z) (vs : list case) : res bool :=
  match vs with
  | [] => Ok false
  | c :: t =>
      match (match c with Value v => Ok (x =? v) | Within r => when_range x r end) with
      | Ok true => Ok true
      | Ok false => arm x t
      | o => o
      end
  end.
(** codegen.c:9063-9071: if ... else if ...; the number of the branch, None for default *)
Fixpoint run_when (x : Z) (cases : list (list case)) : res (option nat) :=
  match cases with
  | [] => Ok None
  | vs :: t =>
      match arm x vs with
      | Ok true => Ok (Some 0%nat)
      | Ok false => match run_when x t with Ok o => Ok (option_map S o) | o => o end
      | Panic c => Panic c | UB => UB | NoFuel => NoFuel
      end
  end.
