(** Model of how names of a program become C names:
    grayc/src/codegen/codegen.c:152-166 and 214-221 (variables, parameters and
    fields), 1620-1631, 6656-6672, 9209-9218 and 9708-9716 (instances of generic
    structs and functions), 8623-8660 and 8668-8700 (structs for several return
    values), 8703-8708, 9556-9620 and 9664 (functions, structs and enums);
    grayc/src/util/reserved.h:24-91 with
    grayc/src/typechecker/typechecker.c:7269-7278 and 7782-7800 (which names of
    variables are refused); grayc/src/main.c:1272-1279 and 1339-1447 (names of
    imported declarations) and 277-346 (the types they mention).
    Simplified: names are the bytes of NUL-free C strings; the rotating static
    buffers are taken to be fresh (no use needs more than four at once); arena
    addresses are not compared, so a type that is rewritten to an equal text is
    not told from one left alone. *)
From Verif Require Import Base LexModel BsearchModel EncodingModel.

Definition MSG_BUF_SIZE : Z := 256.
Definition fit (s : bytes) : bytes := firstn (Z.to_nat (MSG_BUF_SIZE - 1)) s.

(** codegen.c:155-166 *)
Definition c_words : list bytes :=
  [bs "NULL"; bs "auto"; bs "bool"; bs "break"; bs "case"; bs "char"; bs "const"; bs "continue";
   bs "default"; bs "do"; bs "double"; bs "else"; bs "enum"; bs "extern"; bs "false"; bs "float";
   bs "for"; bs "goto"; bs "if"; bs "inline"; bs "int"; bs "long"; bs "register"; bs "restrict";
   bs "return"; bs "short"; bs "signed"; bs "sizeof"; bs "static"; bs "struct"; bs "switch";
   bs "true"; bs "typedef"; bs "union"; bs "unsigned"; bs "void"; bs "volatile"; bs "while"].
Definition in_table (t : list bytes) (n : bytes) : bool := match bsearch (fun x => x) t n with Some _ => true | None => false end.
Definition is_c_keyword (n : bytes) : bool := in_table c_words n.
(** codegen.c:214-221 *)
Definition sanitize_name (n : bytes) : bytes := if is_c_keyword n then fit (bs "_gray_" ++ n) else n.

(** reserved.h:24-60 *)
Definition reserved_type_names : list bytes :=
  [bs "Error"; bs "SourceLocation"; bs "bool"; bs "byte"; bs "char"; bs "f32"; bs "f64"; bs "float"; bs "func"; bs "i128"; bs "i16"; bs "i256";
   bs "i32"; bs "i64"; bs "i8"; bs "int"; bs "map"; bs "nil"; bs "string"; bs "u128"; bs "u16"; bs "u256"; bs "u32"; bs "u64"; bs "u8"; bs "uint"; bs "void"].
Definition is_reserved_type_name (n : bytes) : bool := in_table reserved_type_names n.
(** reserved.h:63-100 *)
Definition builtin_func_names : list bytes :=
  [bs "addr"; bs "assert"; bs "c_string"; bs "cast"; bs "char_count"; bs "copy"; bs "embed"; bs "eprint"; bs "eprintln"; bs "error"; bs "exit"; bs "here";
   bs "input"; bs "len"; bs "panic"; bs "print"; bs "println"; bs "ref"; bs "size_of"; bs "sleep_ms"; bs "sleep_ns"; bs "sleep_s"; bs "to_char"; bs "type_of"].
Definition is_reserved_builtin_func_name (n : bytes) : bool := in_table builtin_func_names n.
Definition begins (p s : bytes) : bool := strcmp (firstn (length p) s) p =? 0.
(** typechecker.c:7271-7278 *)
Definition check_reserved_name (n : bytes) : bool :=
  if begins (bs "_gray_") n then false else begins (bs "gray_") n || begins (bs "Gray") n.
(** typechecker.c:7782-7800 and 8601-8604: a variable of that name is an error *)
Definition variable_refused (n : bytes) : bool :=
  (negb (hd 0 n =? 95) && (is_reserved_type_name n || is_reserved_builtin_func_name n)) ||
  (negb (strcmp n (bs "_") =? 0) && check_reserved_name n).

(** main.c:1276, 1351, 1361, 1403, 1424, 1446 *)
Definition imported_name (m n : bytes) : bytes := fit (m ++ [95] ++ n).
(** codegen.c:8703-8708 and 6675-6676 *)
Definition c_function (n : bytes) : bytes := bs "gray_fn_" ++ n.
(** codegen.c:9664 *)
Definition c_struct (n : bytes) : bytes := bs "GrayStruct_" ++ n.
(** codegen.c:9608 and 9626 *)
Definition c_enum (e : bytes) : bytes := bs "GrayEnum_" ++ e.
Definition c_enum_constant (e v : bytes) : bytes := bs "GrayEnum_" ++ e ++ [95] ++ v.
(** codegen.c:9565-9604: the names a tagged enum gets besides *)
Definition c_enum_tag_type (e : bytes) : bytes := bs "GrayEnum_" ++ e ++ bs "_Tag".

(** The loop that makes a type usable in a name *)
Definition ident_char (c : Z) : Z := if isalnum c || (c =? 95) then c else 95.
(** codegen.c:9213-9218, 9709-9714, 1624-1629, 9939-9943: into a buffer of 256
    bytes; when the name and the underscores do not fit, the terminator is
    written past its end *)
Definition mangled (name concrete : bytes) : res bytes :=
  let pos := Z.of_nat (length name) + 2 in
  if MSG_BUF_SIZE <=? pos then UB else
  Ok (name ++ bs "__" ++ firstn (Z.to_nat (MSG_BUF_SIZE - 1 - pos)) (map ident_char concrete)).
(** codegen.c:6656-6670: a call of an instance, in a buffer long enough *)
Definition c_call (name binding : bytes) : bytes := bs "gray_fn_" ++ name ++ bs "__" ++ map ident_char binding.
(** [strstr(s, "__")]: what comes before *)
Fixpoint before_dunder (s : bytes) : option bytes :=
  match s with
  | c :: r => if (c =? 95) && (hd 0 r =? 95) then Some [] else option_map (cons c) (before_dunder r)
  | [] => None
  end.
(** codegen.c:8623-8641 *)
Definition multi_return_base_name (n : bytes) : bytes := fit (match before_dunder n with Some p => p | None => n end).
(** codegen.c:8657-8666: the name of the struct declared for a function with
    several return types *)
Definition c_multi_declared (n : bytes) : bytes := bs "GrayMulti_" ++ n.
(** codegen.c:8668-8697: the name its return type is written with; [wild]: a
    return type has a question mark *)
Definition c_multi_used (wild : bool) (n : bytes) : bytes := fit (bs "GrayMulti_" ++ (if wild then n else multi_return_base_name n)).

(** What a program declares at file level: variables, functions, structs, structs
    for several return values, and enums, which have constants [EPlain], or, when
    a variant has a payload, a tag type, tag constants and payload structs. *)
Inductive decl :=
| DVar (n : bytes) | DFun (n : bytes) | DStruct (n : bytes) | DMulti (n : bytes)
| DEnum (e : bytes) | EPlain (e v : bytes) | ETagType (e : bytes) | ETag (e v : bytes) | EData (e v : bytes).
(** codegen.c:9565-9610 for the last three *)
Definition c_name (d : decl) : bytes :=
  match d with
  | DVar n => sanitize_name n
  | DFun n => c_function n
  | DStruct n => c_struct n
  | DMulti n => c_multi_declared n
  | DEnum e => c_enum e
  | EPlain e v => c_enum_constant e v
  | ETagType e => c_enum_tag_type e
  | ETag e v => c_enum_constant e (bs "TAG_" ++ v)
  | EData e v => c_enum_constant e (bs "Data_" ++ v)
  end.

(** main.c:290-297 and 322-328: the first [c] outside brackets, and what comes
    before and after it *)
Fixpoint outside (c : Z) (depth : Z) (s : bytes) : option (bytes * bytes) :=
  match s with
  | [] => None
  | x :: r =>
      if x =? 91 then option_map (fun p => (x :: fst p, snd p)) (outside c (depth + 1) r)
      else if x =? 93 then option_map (fun p => (x :: fst p, snd p)) (outside c (depth - 1) r)
      else if (x =? c) && (depth =? 0) then Some ([], r)
      else option_map (fun p => (x :: fst p, snd p)) (outside c depth r)
  end.
Fixpoint new_name (names : list (bytes * bytes)) (t : bytes) : bytes :=
  match names with
  | [] => t
  | (o, n) :: r => if strcmp t o =? 0 then n else new_name r t
  end.
(** main.c:277-346; each call works on a shorter text *)
Fixpoint rewrite_type (fuel : nat) (names : list (bytes * bytes)) (t : bytes) : res bytes :=
  match fuel with
  | O => NoFuel
  | S fuel =>
      match t with
      | [] => Ok []
      | c :: _ =>
          if (c =? 91) && (last t 0 =? 93) then
            (* [len - 2] of a size_t *)
            if Z.of_nat (length t) <? 2 then UB else
            let inner := removelast (tl t) in
            match outside 44 0 inner with
            | Some (e, size) => rmap (fun e => fit ([91] ++ e ++ [44] ++ size ++ [93])) (rewrite_type fuel names e)
            | None => rmap (fun e => fit ([91] ++ e ++ [93])) (rewrite_type fuel names inner)
            end
          else if c =? 94 then
            rmap (fun p => if strcmp p (tl t) =? 0 then t else fit (94 :: p)) (rewrite_type fuel names (tl t))
          else if (5 <? Z.of_nat (length t)) && begins (bs "map[") t && (last t 0 =? 93) then
            match outside 58 0 (removelast (skipn 4 t)) with
            | None => Ok t
            | Some (k, v) =>
                rbind (rewrite_type fuel names k) (fun k' =>
                rmap (fun v' => if (strcmp k' k =? 0) && (strcmp v' v =? 0) then t else fit (bs "map[" ++ k' ++ [58] ++ v' ++ [93]))
                  (rewrite_type fuel names v))
            end
          else Ok (new_name names t)
      end
  end.
Definition rewrite_type_name (names : list (bytes * bytes)) (t : bytes) : res bytes := rewrite_type (S (length t)) names t.
