(** What an integer expression is worth. *)
From Verif Require Import Base ConstModel.

Definition int64 (z : Z) : Prop := - 2 ^ 63 <= z < 2 ^ 63.
(** The exact value; division and remainder truncate. *)
Fixpoint value (env : bytes -> option Z) (e : expr) : option Z :=
  match e with
  | Lit v => Some v
  | Neg e => option_map Z.opp (value env e)
  | Name n => env n
  | Bin o l r =>
      match value env l, value env r with
      | Some a, Some b =>
          match o with
          | Add => Some (a + b)
          | Sub => Some (a - b)
          | Mul => Some (a * b)
          | Div => if b =? 0 then None else Some (Z.quot a b)
          | Mod => if b =? 0 then None else Some (Z.rem a b)
          | OtherOp => None
          end
      | _, _ => None
      end
  | Other => None
  end.
(** The expression and all its parts; a negative literal is one part. *)
Inductive part : expr -> expr -> Prop :=
| p_self e : part e e
| p_left o l r e : part e l -> part e (Bin o l r)
| p_right o l r e : part e r -> part e (Bin o l r).
(** The literals written in an expression; none lies between 2^63 and 2^64. *)
Fixpoint literals (e : expr) : list Z :=
  match e with
  | Lit v => [v]
  | Neg e => literals e
  | Bin _ l r => literals l ++ literals r
  | _ => []
  end.
Definition plain (e : expr) : Prop := Forall (fun v => 0 <= v /\ (v < 2 ^ 63 \/ 2 ^ 64 <= v)) (literals e).
(** Literals, negative literals and names, combined by the five operators. *)
Inductive constant_shape : expr -> Prop :=
| k_lit v : constant_shape (Lit v)
| k_neg v : constant_shape (Neg (Lit v))
| k_name n : constant_shape (Name n)
| k_bin o l r : o <> OtherOp -> constant_shape l -> constant_shape r -> constant_shape (Bin o l r).
(** The division that has no result in 64 bits: the smallest number by -1. *)
Definition overflowing_division (env : bytes -> option Z) (e : expr) : Prop :=
  exists o l r, e = Bin o l r /\ (o = Div \/ o = Mod) /\ value env l = Some (- 2 ^ 63) /\ value env r = Some (-1).
(** Constants declared one after the other; each may use the earlier ones. *)
Definition bind (env : bytes -> option Z) (n : bytes) (v : option Z) : bytes -> option Z :=
  fun m => if list_eq_dec Z.eq_dec m n then v else env m.
Fixpoint env_of (env : bytes -> option Z) (l : list const_decl) : bytes -> option Z :=
  match l with
  | [] => env
  | d :: l => env_of (bind env (cname d) (value env (cexpr d))) l
  end.
(** Every constant is computed within 64 bits. *)
Fixpoint computable (env : bytes -> option Z) (l : list const_decl) : Prop :=
  match l with
  | [] => True
  | d :: l =>
      constant_shape (cexpr d) /\ plain (cexpr d) /\
      (forall p, part p (cexpr d) -> (exists v, value env p = Some v /\ int64 v) /\ ~ overflowing_division env p) /\
      computable (bind env (cname d) (value env (cexpr d))) l
  end.
(** The values of the integer types of up to 64 bits. *)
Definition range (tn : bytes) : option (Z * Z) :=
  let is s := if list_eq_dec Z.eq_dec tn (bs s) then true else false in
  if is "i8"%string then Some (- 2 ^ 7, 2 ^ 7 - 1)
  else if is "i16"%string then Some (- 2 ^ 15, 2 ^ 15 - 1)
  else if is "i32"%string then Some (- 2 ^ 31, 2 ^ 31 - 1)
  else if is "i64"%string then Some (- 2 ^ 63, 2 ^ 63 - 1)
  else if is "int"%string then Some (- 2 ^ 63, 2 ^ 63 - 1)
  else if is "u8"%string then Some (0, 2 ^ 8 - 1)
  else if is "byte"%string then Some (0, 2 ^ 8 - 1)
  else if is "u16"%string then Some (0, 2 ^ 16 - 1)
  else if is "u32"%string then Some (0, 2 ^ 32 - 1)
  else if is "u64"%string then Some (0, 2 ^ 64 - 1)
  else if is "uint"%string then Some (0, 2 ^ 64 - 1)
  else None.
Definition fits (tn : bytes) (z : Z) : Prop := exists lo hi, range tn = Some (lo, hi) /\ lo <= z <= hi.
(** The integer types, byte excepted. *)
Definition integer_types : list bytes :=
  [bs "int"; bs "i8"; bs "i16"; bs "i32"; bs "i64"; bs "i128"; bs "i256"; bs "uint"; bs "u8"; bs "u16"; bs "u32"; bs "u64"; bs "u128"; bs "u256"].
Definition number (s : bytes) : Prop := Forall (fun c => 48 <= c <= 57) s.
