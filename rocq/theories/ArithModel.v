(** Model of the checked integer arithmetic: the functions of
    grayc/src/runtime/runtime.h:168-316 and the choice codegen.c makes among them for an
    operator applied to two variables.

    [wv] is the treatment of signed overflow where the C code leaves it undefined:
    false = ISO C, as the project is built ([UB]); true = wrapping.  Operands are
    variables of a declared integer type (an operand that is itself a checked
    expression is held by C in an int64_t / uint64_t, as here for the 64-bit types). *)
From Verif Require Import Base.

(** The integer types of the language up to 64 bits (types.c:370-390). *)
Inductive ity := I8 | I16 | I32 | I64 | INT | U8 | BYTE | U16 | U32 | U64 | UINT.
(** kind TK_INT; the others are TK_UINT or, for byte, TK_BYTE *)
Definition kind_int (t : ity) : bool := match t with I8 | I16 | I32 | I64 | INT => true | _ => false end.
Definition kind_uint (t : ity) : bool := match t with U8 | U16 | U32 | U64 | UINT => true | _ => false end.

(** runtime.h:169-224.  __builtin_*_overflow computes the exact result and tells whether
    it fits the result type. *)
Definition fits_i64 (x : Z) : bool := (INT64_MIN <=? x) && (x <=? INT64_MAX).
Definition fits_u64 (x : Z) : bool := (0 <=? x) && (x <=? UINT64_MAX).
Definition add_check (a b : Z) : res Z := if fits_i64 (a + b) then Ok (a + b) else Panic 4.
Definition sub_check (a b : Z) : res Z := if fits_i64 (a - b) then Ok (a - b) else Panic 5.
Definition mul_check (a b : Z) : res Z := if fits_i64 (a * b) then Ok (a * b) else Panic 6.
Definition neg_check (a : Z) : res Z := if fits_i64 (0 - a) then Ok (0 - a) else Panic 7.
Definition inc_check (a : Z) : res Z := add_check a 1.
Definition dec_check (a : Z) : res Z := sub_check a 1.
Definition uadd_check (a b : Z) : res Z := if fits_u64 (a + b) then Ok (a + b) else Panic 8.
Definition usub_check (a b : Z) : res Z := if a <? b then Panic 9 else Ok (a - b).
Definition umul_check (a b : Z) : res Z := if fits_u64 (a * b) then Ok (a * b) else Panic 10.

(** int64_t result = <exact value x>; *)
Definition int64_expr (wv : bool) (x : Z) : res Z :=
  if fits_i64 x then Ok x else if wv then Ok (wrap_i 64 x) else UB.
(** runtime.h:227-257 *)
Definition sized_check (wv : bool) (code x lo hi : Z) : res Z :=
  rbind (int64_expr wv x) (fun r => if (r <? lo) || (hi <? r) then Panic code else Ok r).
Definition sized_add_check wv a b lo hi := sized_check wv 11 (a + b) lo hi.
Definition sized_sub_check wv a b lo hi := sized_check wv 12 (a - b) lo hi.
Definition sized_mul_check wv a b lo hi := sized_check wv 13 (a * b) lo hi.
Definition sized_neg_check wv a lo hi := sized_check wv 14 (- a) lo hi.
(** runtime.h:263-291 *)
Definition usized_check (wv : bool) (code x hi : Z) : res Z :=
  rbind (int64_expr wv x) (fun r => if r <? 0 then Panic 16 else if hi <? r then Panic code else Ok r).
Definition usized_add_check wv a b hi := usized_check wv 15 (a + b) hi.
Definition usized_sub_check wv a b hi := usized_check wv 15 (a - b) hi.
Definition usized_mul_check wv a b hi := usized_check wv 17 (a * b) hi.
(** runtime.h:294-316; the arguments are already converted to the parameter type *)
Definition cast_check (v lo hi : Z) : res Z := if (v <? lo) || (hi <? v) then Panic 18 else Ok v.
Definition ucast_check (v hi : Z) : res Z := if (v <? 0) || (hi <? v) then Panic 19 else Ok v.
Definition uint_to_int_check (v : Z) : res Z := if INT64_MAX <? v then Panic 18 else Ok v.

(** codegen.c:185-200: (min, max, is_unsigned) *)
Definition sized_int_bounds (t : ity) : option (Z * Z * bool) :=
  match t with
  | I8 => Some (-128, 127, false)
  | I16 => Some (-32768, 32767, false)
  | I32 => Some (-2147483648, 2147483647, false)
  | U8 | BYTE => Some (0, 255, true)
  | U16 => Some (0, 65535, true)
  | U32 => Some (0, 4294967295, true)
  | _ => None
  end.
(** codegen.c:170-181 *)
Definition int_type_rank (t : ity) : Z :=
  match t with I8 | U8 | BYTE => 1 | I16 | U16 => 2 | I32 | U32 => 3 | _ => 4 end.
Definition bounded (t : ity) : bool := (1 <=? int_type_rank t) && (int_type_rank t <=? 3).

Inductive aop := Add | Sub | Mul.
(** conversion of an argument to an int64_t / uint64_t parameter *)
Definition as_i64 (v : Z) : Z := wrap_i 64 v.
Definition as_u64 (v : Z) : Z := wrap_u 64 v.
(** codegen.c:2051-2059 *)
Definition sized_name (l r : ity) : ity :=
  if bounded l && bounded r then (if int_type_rank l <? int_type_rank r then r else l)
  else if bounded l then l
  else if bounded r then r
  else if int_type_rank l <? int_type_rank r then r else l.
(** codegen.c:2036-2118: l op r for +, -, * (outside constant declarations) *)
Definition eval_arith (wv : bool) (op : aop) (l r : ity) (a b : Z) : res Z :=
  match sized_int_bounds (sized_name l r) with
  | Some (lo, hi, true) =>
      let a := as_i64 a in let b := as_i64 b in
      match op with Add => usized_add_check wv a b hi | Sub => usized_sub_check wv a b hi | Mul => usized_mul_check wv a b hi end
  | Some (lo, hi, false) =>
      let a := as_i64 a in let b := as_i64 b in
      match op with Add => sized_add_check wv a b lo hi | Sub => sized_sub_check wv a b lo hi | Mul => sized_mul_check wv a b lo hi end
  | None =>
      if kind_uint l || kind_uint r then
        let a := as_u64 a in let b := as_u64 b in
        match op with Add => uadd_check a b | Sub => usub_check a b | Mul => umul_check a b end
      else
        let a := as_i64 a in let b := as_i64 b in
        match op with Add => add_check a b | Sub => sub_check a b | Mul => mul_check a b end
  end.
(** codegen.c:1713-1734: unary minus on a TK_INT operand *)
Definition eval_neg (wv : bool) (t : ity) (a : Z) : res Z :=
  match t with
  | I8 => sized_neg_check wv a (-128) 127
  | I16 => sized_neg_check wv a (-32768) 32767
  | I32 => sized_neg_check wv a (-2147483648) 2147483647
  | _ => neg_check a
  end.
(** codegen.c:2142-2218: x++ / x-- *)
Definition eval_step (wv inc : bool) (t : ity) (a : Z) : res Z :=
  match sized_int_bounds t with
  | Some (lo, hi, true) => if inc then usized_add_check wv a 1 hi else usized_sub_check wv a 1 hi
  | Some (lo, hi, false) => if inc then sized_add_check wv a 1 lo hi else sized_sub_check wv a 1 lo hi
  | None => if kind_uint t then (if inc then uadd_check a 1 else usub_check a 1)
            else (if inc then inc_check a else dec_check a)
  end.

(** C's usual arithmetic conversions (C11 6.3.1.8) on the C types of the variables. *)
Inductive cty := CI32 | CU32 | CI64 | CU64.
Definition promote (t : ity) : cty :=
  match t with I8 | I16 | I32 | U8 | BYTE | U16 => CI32 | U32 => CU32 | I64 | INT => CI64 | U64 | UINT => CU64 end.
Definition common (l r : ity) : cty :=
  match promote l, promote r with
  | CU64, _ | _, CU64 => CU64
  | CI64, _ | _, CI64 => CI64
  | CU32, _ | _, CU32 => CU32
  | _, _ => CI32
  end.
Definition conv (c : cty) (v : Z) : Z :=
  match c with CI32 => wrap_i 32 v | CU32 => wrap_u 32 v | CI64 => wrap_i 64 v | CU64 => wrap_u 64 v end.
Inductive dop := Quo | Rem.
(** C / and %: truncating; the signed TYPE_MIN / -1 is undefined *)
Definition c_div (c : cty) (op : dop) (a b : Z) : res Z :=
  let lim := match c with CI32 => -2147483648 | CI64 => INT64_MIN | _ => 1 end in
  if (b =? 0) || ((a =? lim) && (b =? -1)) then UB
  else Ok (match op with Quo => Z.quot a b | Rem => Z.rem a b end).
(** codegen.c:1996-2033: l / r and l % r.  [None]: signed_min is NULL, the generated
    text contains "(null)" and does not compile. *)
Definition eval_div (op : dop) (l r : ity) (a b : Z) : option (res Z) :=
  let go (guard : bool) :=
    Some (if b =? 0 then Panic 78
          else if guard then Panic 79
          else c_div (common l r) op (conv (common l r) a) (conv (common l r) b)) in
  if kind_int l || kind_int r then
    match sized_int_bounds l with
    | Some (_, _, true) => None
    | Some (lo, _, false) => go ((a =? lo) && (conv (common r I32) b =? conv (common r I32) (-1)))
    | None => go ((as_i64 a =? INT64_MIN) && (conv (common r I32) b =? conv (common r I32) (-1)))
    end
  else go false.

(** codegen.c: operator_to_c_string; l < r, l == r on integers are the C operators *)
Definition eval_lt (l r : ity) (a b : Z) : bool := conv (common l r) a <? conv (common l r) b.
Definition eval_eq (l r : ity) (a b : Z) : bool := conv (common l r) a =? conv (common l r) b.

(** codegen.c:2739-2782: cast(v, target) between integer types; [emit_narrowing_cast]
    (codegen.c:7032-7067) inserts the first two branches in assignments. *)
Definition eval_cast (src tgt : ity) (v : Z) : res Z :=
  match sized_int_bounds tgt with
  | Some (_, hi, true) => ucast_check (as_i64 v) hi
  | Some (lo, hi, false) => cast_check (as_i64 v) lo hi
  | None =>
      match tgt with
      | UINT | U64 => if kind_int src then ucast_check (as_i64 v) UINT64_MAX else Ok (as_u64 v)
      | _ => match src with UINT | U64 => uint_to_int_check (as_u64 v) | _ => Ok (as_i64 v) end
      end
  end.

(** codegen.c:1835-1845: shifts.  The left operand keeps its promoted C type; a literal
    is cast to int64_t.  [w] is that type. *)
Definition eval_shl (wv : bool) (t : ity) (a n : Z) : res Z :=
  let sa := as_i64 n in
  if (sa <? 0) || (64 <=? sa) then Panic 92
  else
    let w := promote t in
    match w with
    | CI32 | CU32 => if 32 <=? sa then UB (* shift >= width *)
                     else match w with
                          | CU32 => Ok (wrap_u 32 (a * 2 ^ sa))
                          | _ => if wv then Ok (wrap_i 32 (a * 2 ^ sa))
                                 else if (a <? 0) || (INT32_MAX <? a * 2 ^ sa) then UB else Ok (a * 2 ^ sa)
                          end
    | CU64 => Ok (wrap_u 64 (a * 2 ^ sa))
    | CI64 => if wv then Ok (wrap_i 64 (a * 2 ^ sa))
              else if (a <? 0) || (INT64_MAX <? a * 2 ^ sa) then UB else Ok (a * 2 ^ sa)
    end.
Definition eval_shr (t : ity) (a n : Z) : res Z :=
  let sa := as_i64 n in
  if (sa <? 0) || (64 <=? sa) then Panic 92
  else match promote t with
       | CI32 | CU32 => if 32 <=? sa then UB else Ok (a / 2 ^ sa) (* >> of a negative int is arithmetic in GCC and Clang *)
       | _ => Ok (a / 2 ^ sa)
       end.

(** ---- range loops (codegen.c:8504-8580) ----
    Simplified: the bounds and the step are not changed by the loop body (in some
    branches their expressions are evaluated again in every round), the body does not
    assign the loop variable, and bounds and step are of type int. *)
(** How the step is written decides the code. *)
Inductive step_form :=
| NoStep                    (* range(a, b), or range(b) with a = 0: i++ *)
| Literal (k : Z)           (* an integer literal *)
| Minus (k : Z)             (* a prefix minus on an expression of value k *)
| ByExpr (k : Z).           (* any other expression, of value k *)
(** The visited values and how the loop ends.  [fuel] bounds the model only. *)
Inductive loop_end := Done | Died (code : Z) | Running.
Fixpoint loop (fuel : nat) (up : bool) (incr : Z -> res Z) (e i : Z) : list Z * loop_end :=
  match fuel with
  | O => ([], Running)
  | S f =>
      if (if up then i <? e else e <? i) then
        match incr i with
        | Ok i' => let (l, x) := loop f up incr e i' in (i :: l, x)
        | Panic c => ([i], Died c)
        | _ => ([i], Running)
        end
      else ([], Done)
  end.
Definition run_range (fuel : nat) (s : step_form) (a e : Z) : list Z * loop_end :=
  match s with
  | NoStep => loop fuel true (fun i => int64_expr false (i + 1)) e a
  | Literal k => if k =? 0 then ([], Died 90) else loop fuel (negb (k <? 0)) (fun i => add_check i k) e a
  | Minus k => loop fuel false (fun i => rbind (neg_check k) (add_check i)) e a
  | ByExpr k => if k =? 0 then ([], Died 90) else loop fuel (0 <? k) (fun i => add_check i k) e a
  end.
(** codegen.c:1852-1883: x in range(a, e[, step]) *)
Definition in_range (s : option Z) (a e x : Z) : res bool :=
  if (a <=? x) && (x <? e) then
    match s with
    | None => Ok true
    | Some k => rbind (int64_expr false (x - a))
                  (fun d => if k =? 0 then UB else Ok (Z.rem d k =? 0))
    end
  else Ok false.

(** ---- call depth (runtime.h:154-166, emitted by codegen.c:8768 and 8785) ----
    An execution's function entries and exits, each tagged with the thread it happens in.
    gray_call_depth is one plain global (runtime.c:210): the thread plays no part.
    Simplified: the unsynchronised increments are taken as atomic. *)
Inductive call_event := Call (thread : Z) | Return (thread : Z).
Fixpoint run_calls (depth : Z) (l : list call_event) : res Z :=
  match l with
  | [] => Ok depth
  | Call _ :: l => if 10000 <? depth + 1 then Panic 3 else run_calls (depth + 1) l
  | Return _ :: l => run_calls (depth - 1) l
  end.
