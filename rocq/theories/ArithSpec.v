(** What checked arithmetic should do, in terms of unbounded integers. *)
From Verif Require Import Base ArithModel.

(** The values of each type. *)
Definition lo (t : ity) : Z :=
  match t with I8 => - 2 ^ 7 | I16 => - 2 ^ 15 | I32 => - 2 ^ 31 | I64 | INT => - 2 ^ 63 | _ => 0 end.
Definition hi (t : ity) : Z :=
  match t with
  | I8 => 2 ^ 7 - 1 | I16 => 2 ^ 15 - 1 | I32 => 2 ^ 31 - 1 | I64 | INT => 2 ^ 63 - 1
  | U8 | BYTE => 2 ^ 8 - 1 | U16 => 2 ^ 16 - 1 | U32 => 2 ^ 32 - 1 | U64 | UINT => 2 ^ 64 - 1
  end.
Definition of_type (t : ity) (v : Z) : Prop := lo t <= v <= hi t.
Definition signed (t : ity) : Prop := lo t < 0.
Definition unsigned (t : ity) : Prop := lo t = 0.
Definition same_sign (l r : ity) : Prop := (signed l /\ signed r) \/ (unsigned l /\ unsigned r).
(** The 64-bit types. *)
Definition wide (t : ity) : Prop := t = INT \/ t = I64 \/ t = UINT \/ t = U64.
Definition small (t : ity) : Prop := ~ wide t.

(** The 64-bit unsigned types. *)
Definition unsigned64 (t : ity) : Prop := t = UINT \/ t = U64.
(** The pairs of types for which C converts a negative operand to an unsigned type
    (C11 6.3.1.8). *)
Definition loses_sign (l r : ity) : Prop :=
  (signed l /\ (r = U64 \/ r = UINT)) \/ (signed r /\ (l = U64 \/ l = UINT)) \/
  (signed l /\ small l /\ r = U32) \/ (signed r /\ small r /\ l = U32).

Definition exact (op : aop) (a b : Z) : Z :=
  match op with Add => a + b | Sub => a - b | Mul => a * b end.
(** The documented panic of an operator whose exact result [x] is outside type [t]. *)
Definition overflow_code (op : aop) (t : ity) (x : Z) : Z :=
  match t with
  | INT | I64 => match op with Add => 4 | Sub => 5 | Mul => 6 end
  | UINT | U64 => match op with Add => 8 | Sub => 9 | Mul => 10 end
  | I8 | I16 | I32 => match op with Add => 11 | Sub => 12 | Mul => 13 end
  | _ => if x <? 0 then 16 else match op with Mul => 17 | _ => 15 end
  end.
(** A checked result: the exact value if the type has it, otherwise a panic. *)
Definition exact_or_panic (t : ity) (x code : Z) (r : res Z) : Prop :=
  (of_type t x -> r = Ok x) /\ (~ of_type t x -> r = Panic code).
(** Truncating division, by its characterisation. *)
Definition truncated (a b q r : Z) : Prop :=
  a = b * q + r /\ Z.abs r < Z.abs b /\ (0 <= a -> 0 <= r) /\ (a <= 0 -> r <= 0).

(** [x] comes before the end [e] in a loop of step [k]. *)
Definition before (k x e : Z) : Prop := if 0 <? k then x < e else e < x.
Definition terms (a k : Z) (n : nat) : list Z := map (fun j => a + Z.of_nat j * k) (seq 0 n).
(** [n] is the number of values a loop should visit. *)
Definition visits (a e k : Z) (n : nat) : Prop :=
  (forall j, (j < n)%nat -> before k (a + Z.of_nat j * k) e) /\ ~ before k (a + Z.of_nat n * k) e.
(** The value of a step as written. *)
Definition step_value (s : step_form) : Z :=
  match s with NoStep => 1 | Literal k => k | Minus k => - k | ByExpr k => k end.

(** Nesting depth reached by a prefix of an execution. *)
Definition nesting (l : list call_event) : Z :=
  fold_right (fun e n => match e with Call _ => n + 1 | Return _ => n - 1 end) 0 l.
