(** Compound assignments ([+=], [-=], [*=], [/=], [%=]), plain assignments and
    declarations of integers up to 64 bits: emit_assign_statement
    (grayc/src/codegen/codegen.c:7568-8130) and emit_narrowing_cast
    (codegen.c:7032-7067), in terms of the arithmetic of [ArithModel].  Both
    sides are values of variables of a declared type, and signed overflow is
    undefined ([UB]).  Not modelled: the order in which target and value are
    evaluated, the integers of 128 and 256 bits, and nil checks and missing
    keys. *)
From Verif Require Import Base ArithModel.

(** What stands left of the operator. *)
Inductive place :=
| Direct        (* a variable, a field of a struct variable, a & parameter *)
| Pointed       (* p^, p^.f, p.f and o.p.f: codegen.c:7793-7906 *)
| Element       (* a[i]: codegen.c:7630-7681 *)
| FieldElement  (* p.a[i] with a pointer p: codegen.c:7586-7629 *)
| Entry.        (* m[k]: codegen.c:7682-7790 *)
Inductive op := Arith (o : aop) | Div (o : dop).

(** C converts a value that it stores to the type of the place (C11 6.3.1.3;
    to a signed type it wraps in GCC and Clang). *)
Definition store (t : ity) (v : Z) : Z :=
  match t with
  | I8 => wrap_i 8 v | I16 => wrap_i 16 v | I32 => wrap_i 32 v | I64 | INT => wrap_i 64 v
  | U8 | BYTE => wrap_u 8 v | U16 => wrap_u 16 v | U32 => wrap_u 32 v | U64 | UINT => wrap_u 64 v
  end.
(** C's + - * on values converted to [c] *)
Definition c_arith (c : cty) (o : aop) (a b : Z) : res Z :=
  let x := match o with Add => a + b | Sub => a - b | Mul => a * b end in
  match c with
  | CI32 => if (INT32_MIN <=? x) && (x <=? INT32_MAX) then Ok x else UB
  | CI64 => if fits_i64 x then Ok x else UB
  | CU32 => Ok (wrap_u 32 x)
  | CU64 => Ok (wrap_u 64 x)
  end.
(** [x OP= y] and [x OP y] as C operators *)
Definition c_op (o : op) (l r : ity) (a b : Z) : res Z :=
  let c := common l r in
  match o with
  | Arith o => c_arith c o (conv c a) (conv c b)
  | Div o => c_div c o (conv c a) (conv c b)
  end.

(** codegen.c:201-212: the checked function for a sized integer *)
Definition sized_op (o : aop) (lo hi : Z) (u : bool) (a b : Z) : res Z :=
  if u then match o with Add => usized_add_check false a b hi | Sub => usized_sub_check false a b hi | Mul => usized_mul_check false a b hi end
  else match o with Add => sized_add_check false a b lo hi | Sub => sized_sub_check false a b lo hi | Mul => sized_mul_check false a b lo hi end.

(** codegen.c:7911-8015: the type of the target alone decides *)
Definition direct (o : op) (l r : ity) (a b : Z) : res Z :=
  match o with
  | Arith o =>
    match sized_int_bounds l with
    | Some (lo, hi, u) => sized_op o lo hi u (as_i64 a) (as_i64 b)
    | None =>
      if kind_int l then
        match o with Add => add_check a (as_i64 b) | Sub => sub_check a (as_i64 b) | Mul => mul_check a (as_i64 b) end
      else
        match o with Add => uadd_check a (as_u64 b) | Sub => usub_check a (as_u64 b) | Mul => umul_check a (as_u64 b) end
    end
  | Div o =>
    if b =? 0 then Panic 78 else
    let low := match sized_int_bounds l with Some (lo, _, _) => lo | None => INT64_MIN end in
    if kind_int l && (as_i64 a =? low) && (conv (common r I32) b =? conv (common r I32) (-1)) then Panic 79
    else c_op (Div o) l r a b
  end.

(** The value stored by [x OP= y].  [read8] is what the eight bytes at the
    element hold: for elements of eight bytes the element itself, else the
    element and those after it. *)
Definition compound (p : place) (o : op) (l r : ity) (read8 a b : Z) : res Z :=
  rmap (store l)
    match p with
    | Direct => direct o l r a b
    | Pointed => c_op o l r a b
    | Element =>
      match o with
      | Arith o =>
        match sized_int_bounds l with
        | Some (lo, hi, u) => sized_op o lo hi u read8 (as_i64 b)
        | None => c_op (Arith o) l r a b
        end
      | Div _ => Ok b
      end
    | FieldElement => match o with Arith _ => c_op o l r a b | Div _ => Ok b end
    | Entry => c_op o l r a b
    end.

(** [x = x OP y], whatever [x] is *)
Definition written (o : op) (l r : ity) (a b : Z) : option (res Z) :=
  option_map (rmap (store l)) match o with Arith o => Some (eval_arith false o l r a b) | Div o => eval_div o l r a b end.

(** [x = v]: codegen.c:8103-8130 and the paths above for fields, elements and
    entries; [return v]: codegen.c:8266-8383.  No check. *)
Definition assign (t : ity) (v : Z) : res Z := Ok (store t v).
(** [mut x t = v] and an argument: codegen.c:7544, 6891, 6973 *)
Definition declare (t : ity) (v : Z) : res Z :=
  match sized_int_bounds t with
  | Some (_, hi, true) => ucast_check (as_i64 v) hi
  | Some (lo, hi, false) => cast_check (as_i64 v) lo hi
  | None => Ok (store t v)
  end.
