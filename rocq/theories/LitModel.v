(** Model of literals from token to emitted C: parse_int_literal, the TOK_CHAR case of parse_prefix and
    string_has_interpolation (parser.c), the NODE_INT_VALUE, NODE_STRING_VALUE, NODE_CHAR_VALUE cases and the text parts
    of NODE_INTERPOLATED_STRING in emit_expression, and the initialisers of 128- and 256-bit variables (codegen.c).
    Floating-point literals are not modelled; str_len is an int, the literal is shorter than 2^31. *)
From Verif Require Import Base Decimal StringsModel EncodingModel BigIntModel LitSpec.

Definition UMAX : Z := 18446744073709551615.
(** parser.c:517-549, one character; [d] is the digit's value as unsigned *)
Definition sub_0 (c : Z) : Z := wrap_u 32 (c - 48).
Definition hex_d (c : Z) : Z :=
  if (48 <=? c) && (c <=? 57) then c - 48 else if (97 <=? c) && (c <=? 102) then c - 97 + 10 else if (65 <=? c) && (c <=? 70) then c - 65 + 10 else 0.
Definition step_hex (a : Z * bool) (c : Z) : Z * bool :=
  let '(u, o) := a in if c =? 95 then a else (wrap_u 64 (u * 16 + hex_d c), o || (Z.shiftr UMAX 4 <? u)).
Definition step_oct (a : Z * bool) (c : Z) : Z * bool :=
  let '(u, o) := a in if c =? 95 then a else (wrap_u 64 (u * 8 + sub_0 c), o || (Z.shiftr UMAX 3 <? u)).
Definition step_bin (a : Z * bool) (c : Z) : Z * bool :=
  let '(u, o) := a in if c =? 95 then a else (wrap_u 64 (u * 2 + sub_0 c), o || (Z.shiftr UMAX 1 <? u)).
Definition step_dec (a : Z * bool) (c : Z) : Z * bool :=
  let '(u, o) := a in if c =? 95 then a else (wrap_u 64 (u * 10 + sub_0 c), o || ((UMAX - sub_0 c) / 10 <? u)).
(** ast.h: the fields value, overflow, overflow_u64 and literal of an integer literal *)
Record int_value := Int { ivalue : Z; overflow : bool; overflow_u64 : bool; iliteral : bytes }.
(** parser.c:508-562 parse_int_literal *)
Definition parse_int (s : bytes) : int_value :=
  let p := hd 0 (tl s) in
  let zero := hd 0 s =? 48 in
  let '(u, o) :=
    if zero && ((p =? 120) || (p =? 88)) then fold_left step_hex (tl (tl s)) (0, false)
    else if zero && ((p =? 111) || (p =? 79)) then fold_left step_oct (tl (tl s)) (0, false)
    else if zero && ((p =? 98) || (p =? 66)) then fold_left step_bin (tl (tl s)) (0, false)
    else fold_left step_dec s (0, false) in
  Int (wrap_i 64 u) (o || (INT64_MAX <? u)) o s.
(** codegen.c:1049-1064 (outside bigint contexts, resolve_bigint_type of a literal is NULL) *)
Definition emit_int (n : int_value) : bytes :=
  if overflow n then dec (wrap_u 64 (ivalue n)) ++ bs "ULL" else dec_signed (ivalue n).

(** * 128- and 256-bit types *)
Inductive wide := TI128 | TU128 | TI256 | TU256.
(** The value of the C expression emitted; the arithmetic is BigIntModel's, [wv]: signed overflow wraps.
    codegen.c:7434-7437 (_from_decimal) *)
Inductive big := B128 (x : i128) | BU128 (x : u128) | B256 (x : w256) | BU256 (x : w256).
Definition from_decimal (wv : bool) (t : wide) (s : bytes) : res big :=
  match t with
  | TI128 => match i128_from_decimal wv s with Ok x => Ok (B128 x) | Panic c => Panic c | UB => UB | NoFuel => NoFuel end
  | TU128 => Ok (BU128 (u128_from_decimal s))
  | TI256 => Ok (B256 (i256_from_decimal s))
  | TU256 => Ok (BU256 (u256_from_decimal s))
  end.
(** codegen.c:7451-7456, 858-860: _from_i64(vLL) for signed types, _from_u64(vLL) for unsigned ones *)
Definition from_64 (t : wide) (v : Z) : big :=
  match t with TI128 => B128 (i128_from_i64 v) | TU128 => BU128 (u128_from_u64 (wrap_u 64 v)) | TI256 => B256 (i256_from_i64 v) | TU256 => BU256 (u256_from_u64 (wrap_u 64 v)) end.
(** codegen.c:7438-7450: compound literals, in a constant at file level *)
Definition compound (t : wide) (v : Z) : big :=
  let m := if v <? 0 then -1 else 0 in
  match t with
  | TI128 => B128 (I128 (wrap_u 64 v) m)
  | TU128 => BU128 (U128 (wrap_u 64 v) 0)
  | TI256 => B256 [wrap_u 64 v; wrap_u 64 m; wrap_u 64 m; wrap_u 64 m]
  | TU256 => BU256 [wrap_u 64 v; 0; 0; 0]
  end.
Definition zero (t : wide) : big :=
  match t with TI128 => B128 (I128 0 0) | TU128 => BU128 (U128 0 0) | TI256 => B256 [0; 0; 0; 0] | TU256 => BU256 [0; 0; 0; 0] end.
(** codegen.c:7422-7457: the initialiser of a variable ([const_]: constant at file level, where C accepts _from_decimal
    calls in no initialiser: the program does not compile, given as Panic) *)
Definition wide_init (wv const_ : bool) (t : wide) (n : int_value) : res big :=
  if ivalue n =? 0 then Ok (zero t)
  else if overflow n then (if const_ then Panic 0 else from_decimal wv t (iliteral n))
  else if const_ then Ok (compound t (ivalue n)) else Ok (from_64 t (ivalue n)).
(** codegen.c:855-862: an operand of a wide operation *)
Definition wide_operand (wv : bool) (t : wide) (n : int_value) : res big :=
  if overflow n then from_decimal wv t (iliteral n) else Ok (from_64 t (ivalue n)).
(** codegen.c:864-874, 7458-7470: the same negated, for the signed types; _from_i64(-v) *)
Definition wide_negated (wv : bool) (t : wide) (n : int_value) : res big :=
  if overflow n then from_decimal wv t (45 :: iliteral n) else Ok (from_64 t (- ivalue n)).

(** * Strings *)
(** parser.c:582-588 string_has_interpolation *)
Fixpoint has_interpolation (s : bytes) : bool :=
  match s with
  | [] => false
  | c :: r => if (c =? 36) && (hd 0 r =? 123) then true
              else if c =? 92 then match r with [] => false | _ :: r' => has_interpolation r' end else has_interpolation r
  end.
(** codegen.c:1087-1103: has_null and str_len (of every literal, raw ones too) *)
Fixpoint measure (s : bytes) : bool * Z :=
  match s with
  | [] => (false, 0)
  | c :: r =>
      let one x := let '(n, l) := x in (n, l + 1) in let nul x := let '(n, l) := x in (true, l + 1) in
      match r with
      | e :: r2 =>
          if c =? 92 then
            if e =? 48 then nul (measure r2)
            else if e =? 120 then match r2 with h :: l :: r4 => if (h =? 48) && (l =? 48) then nul (measure r4) else one (measure r2) | _ => one (measure r2) end
            else one (measure r2)
          else one (measure r)
      | [] => one (measure r)
      end
  end.
(** codegen.c:1112-1128 raw text *)
Definition raw_char (c : Z) : bytes :=
  if c =? 92 then [92; 92] else if c =? 34 then [92; 34] else if c =? 10 then [92; 110] else if c =? 13 then [92; 114] else if c =? 9 then [92; 116] else [c].
Definition raw_body (s : bytes) : bytes := flat_map raw_char s.
(** codegen.c:1130-1156 text with escapes; [break_]: the closing and opening quote before another hexadecimal digit *)
Definition break_ (s : bytes) : bytes := if isxdigit (hd 0 s) then [34; 32; 34] else [].
Fixpoint body (s : bytes) : bytes :=
  match s with
  | [] => []
  | c :: r =>
      let other := (if c =? 10 then [92; 110] else if c =? 13 then [92; 114] else [c]) ++ body r in
      match r with
      | e :: r2 =>
          if c =? 92 then
            if (e =? 120) && isxdigit (hd 0 r2) then
              match r2 with
              | h :: r3 => match r3 with
                           | l :: r4 => if isxdigit l then c :: e :: h :: l :: break_ r4 ++ body r4 else c :: e :: h :: body r3
                           | [] => c :: e :: h :: body r3
                           end
              | [] => other
              end
            else if e =? 36 then 36 :: body r2
            else other
          else other
      | [] => other
      end
  end.
Definition quoted (s : bytes) : bytes := [34] ++ s ++ [34].
(** codegen.c:1081-1166 NODE_STRING_VALUE; [top]: indent is 0 *)
Definition emit_string (top raw : bool) (s : bytes) : emitted :=
  let '(has_null, len) := measure s in
  let text := quoted (if raw then raw_body s else body s) in
  if has_null && negb top then LitLen text len else if top then Macro text else Lit text.
(** codegen.c:1193-1203: a text part of an interpolated string *)
Fixpoint part (s : bytes) : bytes :=
  match s with
  | [] => []
  | c :: r => if c =? 37 then 37 :: 37 :: part r
              else if (c =? 92) && (hd 0 r =? 36) then match r with [] => [36] | _ :: r2 => 36 :: part r2 end
              else c :: part r
  end.

(** * Characters *)
(** parser.c:846-861 *)
Definition parse_char (s : bytes) : Z :=
  let c := hd 0 s in let e := hd 0 (tl s) in
  if (c =? 92) && negb (e =? 0) then
    if e =? 110 then 10 else if e =? 116 then 9 else if e =? 114 then 13 else if e =? 92 then 92 else if e =? 39 then 39 else if e =? 48 then 0 else e
  else c.
(** codegen.c:1172-1182 *)
Definition emit_char (c : Z) : bytes :=
  if c =? 10 then bs "'\n'" else if c =? 9 then bs "'\t'" else if c =? 13 then bs "'\r'" else if c =? 92 then bs "'\\'" else if c =? 39 then bs "'\''"
  else if c =? 0 then bs "'\0'" else [39; c; 39].
