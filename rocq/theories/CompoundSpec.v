(** What assignments should do, in terms of unbounded integers; the ranges of
    the types and the exact operators are those of [ArithSpec]. *)
From Verif Require Export Base ArithModel ArithSpec.
From Verif Require Import CompoundModel.

(** The exact result of an operator *)
Definition result (o : op) (a b : Z) : Z :=
  match o with Arith o => exact o a b | Div Quo => Z.quot a b | Div Rem => Z.rem a b end.
Definition is_div (o : op) : Prop := match o with Div _ => True | Arith _ => False end.
Definition in_array (p : place) : Prop := p = Element \/ p = FieldElement.
