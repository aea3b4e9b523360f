(** Model of the C code written for expressions:
    grayc/src/codegen/codegen.c:1686-1763 (prefix operators) and 1765-2136 (infix
    operators), with 170-200.
    Simplified: the text is given by its C tokens; names, literals, calls, casts,
    indexing and the like are one token [A] (each is written as a C primary
    expression); the operands have integer types of up to 64 bits, char, float,
    bool or string: bigints, which become calls, and [in] on arrays, maps and
    strings, which become calls too, are left out; a minus before a literal above
    2^63-1 is left out (see the model of literals); the texts of panic messages
    are shortened. *)
From Verif Require Import Base ArithModel.

(** The kinds of type in question (types.c:370-390). *)
Inductive ety := EInt (i : ity) | EChar | EFloat | EBool | EString.
Inductive pop := Neg | Not | BitNot.
Inductive iop := OAdd | OSub | OMul | ODiv | ORem | OEq | ONe | OLt | OGt | OLe | OGe | OAnd | OOr | BAnd | BOr | BXor | OShl | OShr.
(** Expressions.  [Leaf lit t a]: operand [a] of type [t], [lit] if it is an
    integer literal.  [InRange neg x start stop step]: x in range(..), or not. *)
Inductive expr :=
| Leaf (lit : bool) (t : ety) (a : nat)
| Prefix (o : pop) (e : expr)
| Infix (o : iop) (l r : expr)
| InRange (negated : bool) (x : expr) (start : option expr) (stop : expr) (step : option expr).

Definition is_float (t : ety) : bool := match t with EFloat => true | _ => false end.
Definition is_string (t : ety) : bool := match t with EString => true | _ => false end.
(** The type the type checker notes for an expression: typechecker.c:6037-6052. *)
Fixpoint type_of (e : expr) : ety :=
  match e with
  | Leaf _ t _ => t
  | Prefix Not _ => EBool
  | Prefix _ e => type_of e
  | Infix (OEq | ONe | OLt | OGt | OLe | OGe | OAnd | OOr) _ _ => EBool
  | Infix _ l r => if is_float (type_of l) || is_float (type_of r) then EFloat else type_of l
  | InRange _ _ _ _ _ => EBool
  end.

(** C tokens: operands, identifiers, type names, [if], punctuators, string
    literals, numbers. *)
Inductive punct := LP | RP | LB | RB | Comma | Semi | Assign | Plus | Minus | Star | Slash | Percent | EqEq | BangEq | Lt | Gt | Le | Ge
  | AmpAmp | BarBar | Amp | Bar | Caret | Shl | Shr | Bang | Tilde.
Inductive ctype := AutoType | Int64T | DoubleT | Uint8T | IntT.
Inductive tok := A (a : nat) | V (n : bytes) | T (t : ctype) | If | P (p : punct) | Q (s : bytes) | N (z : Z).

(** codegen.c:31-56 *)
Definition c_op (o : iop) : punct :=
  match o with
  | OAdd => Plus | OSub => Minus | OMul => Star | ODiv => Slash | ORem => Percent | OEq => EqEq | ONe => BangEq
  | OLt => Lt | OGt => Gt | OLe => Le | OGe => Ge | OAnd => AmpAmp | OOr => BarBar | BAnd => Amp | BOr => Bar | BXor => Caret
  | OShl => Shl | OShr => Shr
  end.
Definition c_prefix (o : pop) : punct := match o with Neg => Minus | Not => Bang | BitNot => Tilde end.
Definition is_infix (e : expr) : bool := match e with Infix _ _ _ | InRange _ _ _ _ _ => true | _ => false end.
Definition kind_int (t : ety) : bool := match t with EInt i => ArithModel.kind_int i | _ => false end.
Definition kind_uint (t : ety) : bool := match t with EInt i => kind_uint i | _ => false end.
(** TK_INT, TK_UINT, TK_BYTE or TK_CHAR *)
Definition int_like (t : ety) : bool := match t with EInt _ | EChar => true | _ => false end.
(** a possibly negative number as C tokens *)
Definition num (z : Z) : list tok := if z <? 0 then [P Minus; N (- z)] else [N z].
Definition wrap (b : bool) (s : list tok) : list tok := if b then P LP :: s ++ [P RP] else s.
(** the call of gray_panic_code_at in its block *)
Definition panic_block (file : bytes) (line : Z) (code msg : bytes) (more : list tok) : list tok :=
  [P LB; V (bs "gray_panic_code_at"); P LP; Q file; P Comma; N line; P Comma; Q code; P Comma; Q msg] ++ more ++ [P RP; P Semi; P RB].
(** a call with two operands and the closing arguments *)
Definition call2 (f : bytes) (l r : list tok) (more : list tok) : list tok := [V f; P LP] ++ l ++ [P Comma] ++ r ++ more ++ [P RP].

(** codegen.c:2051-2077: the type in whose range the operation is checked: minimum (none for an unsigned one) and maximum *)
Definition rank (t : ety) : Z := match t with EInt i => int_type_rank i | _ => 0 end.
Definition bounded (t : ety) : bool := (1 <=? rank t) && (rank t <=? 3).
Definition sized_type (l r : ety) : ety :=
  if bounded l && bounded r then (if rank l <? rank r then r else l)
  else if bounded l then l else if bounded r then r else if rank l <? rank r then r else l.
Definition sized_bounds (t : ety) : option (option Z * Z) :=
  match t with EInt i => option_map (fun b => let '(lo, hi, u) := b in (if u : bool then None else Some lo, hi)) (sized_int_bounds i) | _ => None end.
Definition op_name (o : iop) : bytes := match o with OAdd => bs "add" | OSub => bs "sub" | _ => bs "mul" end.

Section Emit.
Context (file : bytes) (line : Z) (tname : ety -> bytes) (in_const : bool).

(** codegen.c:2082-2118 *)
Definition emit_arith (o : iop) (tl tr : ety) (l r : list tok) : list tok :=
  match sized_bounds (sized_type tl tr) with
  | Some (None, hi) => call2 (bs "gray_usized_" ++ op_name o ++ bs "_check") l r ([P Comma; N hi; P Comma; Q (tname (sized_type tl tr)); P Comma; Q file; P Comma; N line])
  | Some (Some lo, hi) =>
      call2 (bs "gray_sized_" ++ op_name o ++ bs "_check") l r ([P Comma] ++ num lo ++ [P Comma; N hi; P Comma; Q (tname (sized_type tl tr)); P Comma; Q file; P Comma; N line])
  | None => call2 ((if kind_uint tl || kind_uint tr then bs "gray_u" else bs "gray_") ++ op_name o ++ bs "_check") l r [P Comma; Q file; P Comma; N line]
  end.
(** codegen.c:1983-2033 *)
Definition emit_div (o : iop) (tl tr : ety) (l r : list tok) : list tok :=
  if is_float tl || is_float tr then
    [P LP; P LB; T DoubleT; V (bs "_dv"); P Assign; P LP; T DoubleT; P RP] ++ r ++
    [P Semi; If; P LP; V (bs "_dv"); P EqEq; N 0; P RP] ++ panic_block file line (bs "P0078") (bs "division by zero") [] ++
    [P LP; T DoubleT; P RP] ++ l ++ [P (c_op o); V (bs "_dv"); P Semi; P RB; P RP]
  else
    let signed := kind_int tl || kind_int tr in
    let named := match tl with EInt i => Some i | _ => match tr with EInt i => Some i | _ => None end end in
    let smin := match match named with Some i => sized_int_bounds i | None => None end with
                | Some (lo, _, u) => if u : bool then [P LP; V (bs "null"); P RP] else num lo
                | None => [P LP; P Minus; N 9223372036854775807; P Minus; N 1; P RP]
                end in
    [P LP; P LB; T AutoType; V (bs "_dv"); P Assign] ++ r ++
    [P Semi; If; P LP; P Bang; V (bs "_dv"); P RP] ++ panic_block file line (bs "P0078") (bs "division by zero") [] ++
    (if signed then
       [T AutoType; V (bs "_dn"); P Assign] ++ l ++
       [P Semi; If; P LP; P LP; T Int64T; P RP; V (bs "_dn"); P EqEq] ++ smin ++ [P AmpAmp; V (bs "_dv"); P EqEq; P Minus; N 1; P RP] ++
       panic_block file line (bs "P0079") (bs "result is too large") [] ++ [V (bs "_dn")]
     else l) ++
    [P (c_op o); V (bs "_dv"); P Semi; P RB; P RP].

(** codegen.c:1005, 1686-2136 *)
Fixpoint emit_expression (e : expr) : list tok :=
  match e with
  | Leaf _ _ a => [A a]
  | Prefix o r =>
      match o, type_of r with
      | Neg, EInt i =>
          if ArithModel.kind_int i then
            match sized_int_bounds i with
            | Some (lo, hi, _) => [V (bs "gray_sized_neg_check"); P LP] ++ emit_expression r ++ [P Comma] ++ num lo ++ [P Comma; N hi; P Comma; Q (tname (EInt i)); P Comma; Q file; P Comma; N line; P RP]
            | None => [V (bs "gray_neg_check"); P LP] ++ emit_expression r ++ [P Comma; Q file; P Comma; N line; P RP]
            end
          else [P LP; P Minus] ++ wrap (is_infix r) (emit_expression r) ++ [P RP]
      | BitNot, EInt BYTE => [P LP; P LP; T Uint8T; P RP; P LP; P Tilde; P LP] ++ emit_expression r ++ [P RP; P RP; P RP]
      | BitNot, _ => [P LP; P Tilde; P LP] ++ emit_expression r ++ [P RP; P RP]
      | _, _ => [P LP; P (c_prefix o)] ++ wrap (is_infix r) (emit_expression r) ++ [P RP]
      end
  | Infix o l r =>
      let tl := type_of l in
      let tr := type_of r in
      let str := is_string tl || is_string tr in
      let normal := wrap (is_infix l) (emit_expression l) ++ [P (c_op o)] ++ wrap (is_infix r) (emit_expression r) in
      match o with
      | OEq => if str then call2 (bs "gray_string_eq") (emit_expression l) (emit_expression r) [] else normal
      | ONe => if str then P Bang :: call2 (bs "gray_string_eq") (emit_expression l) (emit_expression r) [] else normal
      | BAnd | BOr | BXor => [P LP] ++ emit_expression l ++ [P (c_op o)] ++ emit_expression r ++ [P RP]
      | OShl | OShr =>
          [P LP; P LB; T Int64T; V (bs "_sa"); P Assign; P LP; T Int64T; P RP; P LP] ++ emit_expression r ++
          [P RP; P Semi; If; P LP; V (bs "_sa"); P Lt; N 0; P BarBar; V (bs "_sa"); P Ge; N 64; P RP] ++
          panic_block file line (bs "P0092") (bs "shift amount is out of range") [P Comma; V (bs "_sa")] ++
          [P LP] ++ (match l with Leaf true _ _ => [P LP; T Int64T; P RP] | _ => [] end) ++ emit_expression l ++
          [P RP; P (c_op o); P LP; T IntT; P RP; V (bs "_sa"); P Semi; P RB; P RP]
      | ODiv | ORem => if in_const then normal else emit_div o tl tr (emit_expression l) (emit_expression r)
      | OAdd | OSub | OMul =>
          if in_const then normal else
          if int_like tl && int_like tr then emit_arith o tl tr (emit_expression l) (emit_expression r) else normal
      | _ => normal
      end
  | InRange negated x start stop step =>
      let ex := emit_expression x in
      let es := match start with Some s => emit_expression s | None => [N 0] end in
      (if negated then [P Bang; P LP] else []) ++ ([P LP] ++ ex ++ [P Ge] ++ es ++ [P AmpAmp] ++ ex ++ [P Lt] ++ emit_expression stop ++
        (match step with
         | Some s => [P AmpAmp; P LP] ++ ex ++ [P Minus] ++ es ++ [P RP; P Percent] ++ emit_expression s ++ [P EqEq; N 0]
         | None => []
         end) ++ [P RP]) ++ (if negated then [P RP] else [])
  end.
End Emit.
