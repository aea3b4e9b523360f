(** C95: the integers the wide C values denote, and the ranges of the types. *)
From Verif Require Import Base BigIntModel BigIntSpec LitModel.

Definition big_val (b : big) : Z := match b with B128 x => i128_val x | BU128 x => u128_val x | B256 x => i256_val x | BU256 x => u256_val x end.
Definition lo (t : wide) : Z := match t with TI128 => - 2 ^ 127 | TI256 => - 2 ^ 255 | _ => 0 end.
Definition hi (t : wide) : Z := match t with TI128 => 2 ^ 127 | TI256 => 2 ^ 255 | TU128 => 2 ^ 128 | TU256 => 2 ^ 256 end.
