(** Enum declarations: the checks of a declaration (typechecker.c:11001-11115)
    and the C declarations it becomes (codegen.c:9523-9626), with the constant
    a variant is read through (codegen.c:2312-2330).  Numbers are int64
    literals; other expressions as values, reserved names, structs of the same
    name, the payload structs and enums of other modules are not modelled. *)
From Verif Require Import Base LitSpec LitModel EnumSpec.

Definition same (a b : bytes) : bool := if list_eq_dec Z.eq_dec a b then true else false.
(** typechecker.c:11006-11020: E3033; [seen] are the variants before *)
Definition same_value (v w : variant) : bool :=
  match v_given v, v_given w with Some (Num n), Some (Num m) => n =? m | _, _ => false end.
Fixpoint check_values (seen vs : list variant) : list Z :=
  match vs with
  | [] => []
  | v :: t => (if existsb (same_value v) seen then [3033] else []) ++ check_values (v :: seen) t
  end.
(** typechecker.c:11023-11063: E2065, E2014 *)
Fixpoint check_names (name : bytes) (seen vs : list variant) : list Z :=
  match vs with
  | [] => []
  | v :: t => (if same (v_name v) name then [2065] else []) ++ (if existsb (fun w => same (v_name w) (v_name v)) seen then [2014] else []) ++ check_names name (v :: seen) t
  end.
(** typechecker.c:11065-11072, codegen.c:9527-9534 *)
Definition is_str (e : enum) : bool := existsb (fun v => match v_given v with Some (Str _ _) => true | _ => false end) (e_variants e).
(** parser.c:2554-2559 *)
Definition is_tagged (e : enum) : bool := existsb (fun v => (0 <? v_payload v)%nat) (e_variants e).
(** parser.c:2524-2531: E2083 *)
Definition check_parse (e : enum) : list Z :=
  flat_map (fun v => match v_given v with Some _ => if (0 <? v_payload v)%nat then [2083] else [] | None => [] end) (e_variants e).
(** typechecker.c:11001-11115; [known]: the enums before *)
Definition check_enum (known : list bytes) (e : enum) : list Z :=
  (if (length (e_variants e) =? 0)%nat then [2016] else []) ++ check_values [] (e_variants e) ++ check_names (e_name e) [] (e_variants e) ++
  (if existsb (same (e_name e)) known then [4007] else []) ++ (if is_str e && is_tagged e then [3111] else []) ++
  (if e_flags e && is_tagged e then [3112] else []).
Fixpoint check_enums (known : list bytes) (es : list enum) : list Z :=
  match es with [] => [] | e :: t => check_parse e ++ check_enum known e ++ check_enums (e_name e :: known) t end.

(** codegen.c:9559, 9610, 2314, 2330 *)
Definition ident (e v : bytes) : bytes := bs "GrayEnum_" ++ e ++ bs "_" ++ v.
(** codegen.c:9569, 2312, 2328 *)
Definition tag_ident (e v : bytes) : bytes := bs "GrayEnum_" ++ e ++ bs "_TAG_" ++ v.
(** codegen.c:9553-9562: the text as it stands in the source, raw or not, with strlen of it *)
Definition emit_text (v : variant) : emitted :=
  let s := match v_given v with Some (Str _ s) => s | _ => v_name v end in LitLen (quoted s) (Z.of_nat (length s)).
(** codegen.c:9568-9570 *)
Fixpoint emit_tags (name : bytes) (j : nat) (vs : list variant) : list (bytes * option Z) :=
  match vs with [] => [] | v :: t => (tag_ident name (v_name v), Some (Z.of_nat j)) :: emit_tags name (S j) t end.
(** codegen.c:9608-9623; shifting a 1 into the sign of an int is undefined *)
Fixpoint emit_plain (name : bytes) (flags : bool) (j : nat) (vs : list variant) : res (list (bytes * option Z)) :=
  match vs with
  | [] => Ok []
  | v :: t =>
      match v_given v with
      | Some g => match emit_plain name flags (S j) t with Ok r => Ok ((ident name (v_name v), number g) :: r) | Panic c => Panic c | UB => UB | NoFuel => NoFuel end
      | None =>
          if flags then
            if (j <? 31)%nat then match emit_plain name flags (S j) t with Ok r => Ok ((ident name (v_name v), Some (Z.shiftl 1 (Z.of_nat j))) :: r) | Panic c => Panic c | UB => UB | NoFuel => NoFuel end
            else UB
          else match emit_plain name flags (S j) t with Ok r => Ok ((ident name (v_name v), None) :: r) | Panic c => Panic c | UB => UB | NoFuel => NoFuel end
      end
  end.
Definition emit_enum (e : enum) : res cdecl :=
  if is_str e then Ok (CDefines (map (fun v => (ident (e_name e) (v_name v), emit_text v)) (e_variants e)))
  else if is_tagged e then Ok (CEnum (emit_tags (e_name e) 0 (e_variants e)))
  else match emit_plain (e_name e) (e_flags e) 0 (e_variants e) with Ok l => Ok (CEnum l) | Panic c => Panic c | UB => UB | NoFuel => NoFuel end.
Fixpoint emit_enums (es : list enum) : res (list cdecl) :=
  match es with
  | [] => Ok []
  | e :: t => match emit_enum e with
              | Ok d => match emit_enums t with Ok r => Ok (d :: r) | Panic c => Panic c | UB => UB | NoFuel => NoFuel end
              | Panic c => Panic c | UB => UB | NoFuel => NoFuel
              end
  end.
(** codegen.c:2307-2331: the constant E.V is read through *)
Definition access (e : enum) (v : variant) : bytes := if is_tagged e then tag_ident (e_name e) (v_name v) else ident (e_name e) (v_name v).
