(** Model of the integer constants the type checker evaluates:
    grayc/src/typechecker/typechecker.c:1860-1891 (literals), 1893-1984 (the
    table of constants, array sizes that are names), 1986-2047 (folding),
    2049-2105 with 8269-8306 and 9092-9107 (does a literal fit the declared
    type), 7706-7746 (constants are registered).
    Simplified: an expression is given by what these functions look at, any
    other node is [Other]; of an integer literal its exact value is kept, from
    which grayc/src/parser/parser.c:558-560 makes the three fields (see the model
    of literals); names and types are the bytes of NUL-free C strings. *)
From Verif Require Import Base LexModel Decimal.

Inductive op := Add | Sub | Mul | Div | Mod | OtherOp.
Inductive expr := Lit (v : Z) | Neg (e : expr) | Name (n : bytes) | Bin (o : op) (l r : expr) | Other.
Definition in64 (z : Z) : bool := (INT64_MIN <=? z) && (z <=? INT64_MAX).
Definition U64_MAX : Z := 18446744073709551615.
(** parser.c:558-560 *)
Definition int_value (v : Z) : Z := wrap_i 64 v.
Definition overflow (v : Z) : bool := INT64_MAX <? v.
Definition overflow_u64 (v : Z) : bool := U64_MAX <? v.
(** C arithmetic on [int64_t] *)
Definition c_neg (z : Z) : res Z := if z =? INT64_MIN then UB else Ok (- z).
Definition c_div (a b : Z) : res Z := if (a =? INT64_MIN) && (b =? -1) then UB else Ok (Z.quot a b).
Definition c_mod (a b : Z) : res Z := if (a =? INT64_MIN) && (b =? -1) then UB else Ok (Z.rem a b).
Definition c_exact (z : Z) : res Z := if in64 z then Ok z else UB.

(** typechecker.c:1865-1891 *)
Fixpoint try_get_literal_int (e : expr) : res (option Z) :=
  match e with
  | Lit v => Ok (Some (int_value v))
  | Neg (Lit v) => rmap Some (c_neg (int_value v))
  | Bin o l r =>
      rbind (try_get_literal_int l) (fun a =>
        match a with
        | None => Ok None
        | Some a =>
            rbind (try_get_literal_int r) (fun b =>
              match b with
              | None => Ok None
              | Some b =>
                  match o with
                  | Add => rmap Some (c_exact (a + b))
                  | Sub => rmap Some (c_exact (a - b))
                  | Mul => rmap Some (c_exact (a * b))
                  | Div => if b =? 0 then Ok None else rmap Some (c_div a b)
                  | _ => Ok None
                  end
              end)
        end)
  | _ => Ok None
  end.

(** typechecker.c:1894-1905: names and values, in the order of registration *)
Notation table := (list (bytes * Z)).
Fixpoint look (t : table) (n : bytes) : option Z :=
  match t with
  | [] => None
  | (m, v) :: t => if strcmp m n =? 0 then Some v else look t n
  end.
Definition checked (z : Z) : option Z * bool := if in64 z then (Some z, false) else (None, true).
(** typechecker.c:1993-2047: the value, and whether [*overflowed] was set *)
Fixpoint fold_const_int (t : table) (e : expr) : res (option Z * bool) :=
  match e with
  | Lit v => Ok (if overflow_u64 v then (None, true) else (Some (int_value v), false))
  | Neg (Lit v) => if overflow_u64 v then Ok (None, true) else rmap (fun z => (Some z, false)) (c_neg (int_value v))
  | Name n => Ok (look t n, false)
  | Bin o l r =>
      rbind (fold_const_int t l) (fun a =>
        rbind (fold_const_int t r) (fun b =>
          match fst a, fst b with
          | Some x, Some y =>
              match o with
              | Add => Ok (checked (x + y))
              | Sub => Ok (checked (x - y))
              | Mul => Ok (checked (x * y))
              | Div => if y =? 0 then Ok (None, false) else rmap (fun z => (Some z, false)) (c_div x y)
              | Mod => if y =? 0 then Ok (None, false) else rmap (fun z => (Some z, false)) (c_mod x y)
              | OtherOp => Ok (None, false)
              end
          | _, _ => Ok (None, snd a || snd b)
          end))
  | _ => Ok (None, false)
  end.
(** typechecker.c:7724-7730 *)
Definition const_int_type (tn : bytes) : bool :=
  existsb (fun n => strcmp tn n =? 0)
    [bs "int"; bs "i64"; bs "i8"; bs "i16"; bs "i32"; bs "i128"; bs "i256"; bs "uint"; bs "u64"; bs "u8"; bs "u16"; bs "u32"; bs "u128"; bs "u256"].
(** A declaration [const name tn = e]. *)
Record const_decl := Const { cname : bytes; ctype : bytes; cexpr : expr }.
(** typechecker.c:7713-7746: one declaration; true: E5039 is reported *)
Definition declare1 (t : table) (d : const_decl) : res (table * bool) :=
  if const_int_type (ctype d) then
    rmap (fun q => match fst q with Some v => (t ++ [(cname d, v)], false) | None => (t, snd q) end) (fold_const_int t (cexpr d))
  else Ok (t, false).
(** The declarations of constants in the order they are checked, whatever
    function they are in: the table has no scopes; the number of reports *)
Fixpoint declare (t : table) (l : list const_decl) : res (table * nat) :=
  match l with
  | [] => Ok (t, 0%nat)
  | d :: l => rbind (declare1 t d) (fun p => rmap (fun q => (fst q, ((if snd p then 1 else 0) + snd q)%nat)) (declare (fst p) l))
  end.

(** typechecker.c:1916-1922: what comes before and after the comma *)
Fixpoint size_comma (s : bytes) (depth : Z) : option (bytes * bytes) :=
  match s with
  | [] => None
  | c :: r =>
      if (c =? 40) || (c =? 91) then option_map (fun p => (c :: fst p, snd p)) (size_comma r (depth + 1))
      else if (c =? 41) || (c =? 93) then option_map (fun p => (c :: fst p, snd p)) (size_comma r (depth - 1))
      else if (c =? 44) && (depth =? 1) then Some ([], r)
      else option_map (fun p => (c :: fst p, snd p)) (size_comma r depth)
  end.
(** what comes before the last bracket, [strrchr] *)
Fixpoint before_last (c : Z) (s : bytes) : option bytes :=
  match s with
  | [] => None
  | x :: r => match before_last c r with Some p => Some (x :: p) | None => if x =? c then Some [] else None end
  end.
Inductive size_result := Unchanged | NotConst | NotPositive | Rewritten (tn : bytes).
(** typechecker.c:1913-1984. [strtol] on what the parser put there, a word: all
    of it is read if it is a sequence of digits. *)
Definition numeric (s : bytes) : bool := forallb (fun c => (48 <=? c) && (c <=? 57)) s.
Definition resolve_array_size (t : table) (tn : bytes) : size_result :=
  match size_comma tn 0 with
  | None => Unchanged
  | Some (pre, rest) =>
      match before_last 93 rest with
      | None => Unchanged
      | Some [] => Unchanged
      | Some size =>
          if 256 <=? Z.of_nat (length size) then Unchanged else
          if numeric size then Unchanged else
          match look t size with
          | None => NotConst
          | Some v => if v <=? 0 then NotPositive else Rewritten (pre ++ [44] ++ dec_signed (wrap_i 32 v) ++ [93])
          end
      end
  end.

(** typechecker.c:2056-2079: true: E3036 is reported *)
Definition out_of_range (tn : bytes) (v : Z) : bool :=
  let is s := strcmp tn s =? 0 in
  if is (bs "i8") then (v <? -128) || (127 <? v)
  else if is (bs "i16") then (v <? -32768) || (32767 <? v)
  else if is (bs "i32") then (v <? -2147483648) || (2147483647 <? v)
  else if is (bs "u8") then (v <? 0) || (255 <? v)
  else if is (bs "u16") then (v <? 0) || (65535 <? v)
  else if is (bs "u32") then (v <? 0) || (4294967295 <? v)
  else if is (bs "u64") then v <? 0
  else if is (bs "uint") then v <? 0
  else if is (bs "byte") then (v <? 0) || (255 <? v)
  else false.
Definition is_u64_like (tn : bytes) : bool := (strcmp tn (bs "u64") =? 0) || (strcmp tn (bs "uint") =? 0).
Definition is_bigint (tn : bytes) : bool := existsb (fun n => strcmp tn n =? 0) [bs "i128"; bs "u128"; bs "i256"; bs "u256"].
(** typechecker.c:8273-8294 *)
Definition literal_overflows (tn : bytes) (e : expr) : bool :=
  match e with
  | Lit v => if overflow v then (if overflow_u64 v then negb (is_bigint tn) else negb (is_bigint tn) && negb (is_u64_like tn)) else false
  | _ => false
  end.
(** typechecker.c:8296-8306 *)
Definition literal_unfit (tn : bytes) (e : expr) : res bool :=
  if match e with Lit v => overflow v | _ => false end then Ok false else
  rmap (fun o => match o with Some v => out_of_range tn v | None => false end) (try_get_literal_int e).
(** the declaration of a variable of type [tn] with the value [e]: E3046 or E3036 *)
Definition declaration_error (tn : bytes) (e : expr) : res bool := rmap (fun b => literal_overflows tn e || b) (literal_unfit tn e).
(** typechecker.c:9095-9107: a later assignment: E3036 *)
Definition assignment_error (tn : bytes) (e : expr) : res bool :=
  rmap (fun o => match o with Some v => out_of_range tn v | None => false end) (try_get_literal_int e).
