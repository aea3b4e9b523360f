(** codegen.c: the code that is generated for copying a value
    (type_needs_deep_copy, emit_array_deep_copy, emit_map_deep_copy,
    emit_struct_deep_copy, emit_value_deep_copy, the builtin [copy]), and what
    that code does.  The code generator works on the texts of types, as here.
    Simplified: a map's four tables are one block; the C declarations of the
    temporaries are left out, so that an element is always read as what it is;
    a map's entries are a list in insertion order, into which [gray_map_set]
    puts keys that are not there yet; the capacity of a copy is left out. *)
From Verif Require Import Base LexModel TypesModel CopySpec.

(** codegen.h, constants: CYCLE_GUARD_DEPTH and TYPE_NAME_MAX; MSG_BUF_SIZE is
    in TypesModel. *)
Definition CYCLE_GUARD_DEPTH : Z := 64.
Definition TYPE_NAME_MAX : Z := 128.
(** The struct declarations: name, and name and type text of each field. *)
Definition decls := list (bytes * list (bytes * bytes)).
Definition eqs (a b : bytes) : bool := strcmp a b =? 0.
(** codegen.c:3126-3134 *)
Fixpoint find_struct_declaration (ds : decls) (name : bytes) : option (list (bytes * bytes)) :=
  match ds with
  | [] => None
  | (n, fs) :: ds => if eqs n name then Some fs else find_struct_declaration ds name
  end.
Definition starts_map (tn : bytes) : bool := eqs (firstn 4 tn) (bs "map[").
Section Any.
  Context {A : Type} (f : A -> option bool).
  (** The loop of codegen.c:512-515: stops at the first that answers yes. *)
  Fixpoint first_yes (l : list A) : option bool :=
    match l with
    | [] => Some false
    | x :: l => match f x with Some false => first_yes l | r => r end
    end.
End Any.
(** codegen.c:499-518.  [visiting]: the struct names of the calls that are
    under way; [None]: out of fuel, or more of them than the guard has room for
    (the counter is then decremented once too often; not modelled further). *)
Fixpoint type_needs_deep_copy (ds : decls) (fuel : nat) (visiting : list bytes) (tn : bytes) : option bool :=
  match fuel with
  | O => None
  | S fuel =>
    if (length tn =? 0)%nat then Some false else
    if hd 0 tn =? 91 then Some true else
    if starts_map tn then Some true else
    if eqs tn (bs "string") then Some true else
    if hd 0 tn =? 94 then Some false else
    match find_struct_declaration ds tn with
    | None => Some false
    | Some fields =>
      if existsb (fun m => eqs m tn) visiting then Some false else
      if CYCLE_GUARD_DEPTH <=? Z.of_nat (length visiting) then None else
      first_yes (fun f => type_needs_deep_copy ds fuel (visiting ++ [tn]) (snd f)) fields
    end
  end.

(** The C expressions that are emitted. *)
Inductive code :=
| Same                                (** the variable itself *)
| NewString                           (** gray_string_new *)
| ArrayCopy                           (** gray_array_copy *)
| EachElement (c : code)              (** codegen.c:562-584 *)
| MapCopy                             (** gray_map_copy *)
| EachEntry (string_keys : bool) (c : code)  (** codegen.c:625-661 *)
| Fields (l : list (bytes * code)).   (** codegen.c:688-700 *)

(** codegen.c:534-540: the element type in the text of an array type *)
Definition element_text (tn : bytes) : bytes :=
  let inner := firstn (Z.to_nat (MSG_BUF_SIZE - 1)) (firstn (length tn - 2) (skipn 1 tn)) in
  match cut 44 inner with Some (e, _) => e | None => inner end.
Section Fields.
  Context (needs : bytes -> option bool) (emit : bytes -> option code).
  (** codegen.c:691-700 *)
  Fixpoint emit_fields (fields : list (bytes * bytes)) : option (list (bytes * code)) :=
    match fields with
    | [] => Some []
    | (f, tn) :: fields =>
      match needs tn with
      | None => None
      | Some false => emit_fields fields
      | Some true => opt_bind (emit tn) (fun c => option_map (cons (f, c)) (emit_fields fields))
      end
    end.
End Fields.
(** codegen.c:704-724, with 526-585, 587-662 and 669-702 in place of the calls;
    [visiting] is the guard of emit_struct_deep_copy. *)
Fixpoint emit_value_deep_copy (ds : decls) (fuel : nat) (visiting : list bytes) (tn : bytes) : option code :=
  match fuel with
  | O => None
  | S fuel =>
    let needs := type_needs_deep_copy ds fuel [] in
    match type_needs_deep_copy ds (S fuel) [] tn with
    | None => None
    | Some false => Some Same
    | Some true =>
      if eqs tn (bs "string") then Some NewString else
      if hd 0 tn =? 91 then
        if (length tn <? 3)%nat || negb (last tn 0 =? 93) then Some ArrayCopy else
        match needs (element_text tn) with
        | None => None
        | Some false => Some ArrayCopy
        | Some true => option_map EachElement (emit_value_deep_copy ds fuel visiting (element_text tn))
        end
      else if starts_map tn then
        if (length tn <? 7)%nat || negb (last tn 0 =? 93) then Some MapCopy else
        match cut 58 (skipn 4 tn) with
        | None => Some MapCopy
        | Some (k, _) =>
          let key := firstn (Z.to_nat (TYPE_NAME_MAX - 1)) k in
          let vlen := (length tn - 4 - length key - 1 - 1)%nat in
          let value := firstn (Nat.min vlen (Z.to_nat (MSG_BUF_SIZE - 1))) (skipn (4 + length k + 1) tn) in
          match needs value with
          | None => None
          | Some false => Some MapCopy
          | Some true => option_map (EachEntry (eqs key (bs "string"))) (emit_value_deep_copy ds fuel visiting value)
          end
        end
      else
        match find_struct_declaration ds tn with
        | None => Some Same
        | Some fields =>
          if existsb (fun m => eqs m tn) visiting then Some Same else
          if CYCLE_GUARD_DEPTH <=? Z.of_nat (length visiting) then None else
          option_map Fields (emit_fields needs (emit_value_deep_copy ds fuel (visiting ++ [tn])) fields)
        end
    end
  end.
(** codegen.c:3871-3903: the type text that [copy(x)] works with, from the type
    of [x]; [None]: a type of another kind, for which the value itself is the
    result. *)
Definition copy_text (g : gtype) : option bytes :=
  let opt o := match o with Some t => t | None => [] end in
  let text :=
    match kind g with
    | KArray => Some ([91] ++ opt (element_type g) ++ [93])
    | KMap => Some (bs "map[" ++ opt (key_type g) ++ [58] ++ opt (value_type g) ++ [93])
    | KStruct => Some (name g)
    | _ => None
    end in
  option_map (firstn (Z.to_nat (MSG_BUF_SIZE - 1))) text.
Definition emit_copy (ds : decls) (fuel : nat) (g : gtype) : option code :=
  match copy_text g with
  | None => Some Same
  | Some tn => emit_value_deep_copy ds fuel [] tn
  end.

Section Each.
  Context {A B : Type} (f : A -> Z -> option (B * Z)).
  Fixpoint each (l : list A) (n : Z) : option (list B * Z) :=
    match l with
    | [] => Some ([], n)
    | x :: l => opt_bind (f x n) (fun r => option_map (fun s => (fst r :: fst s, snd s)) (each l (snd r)))
    end.
End Each.
(** string.c: gray_string_new, in arena [a]; [n]: the number of the next block. *)
Definition new_string (a : Z) (v : val) (n : Z) : option (val * Z) :=
  match v with VStr _ s => Some (VStr (a, n) s, n + 1) | _ => None end.
(** map.c:303-313: the keys of a map of strings *)
Definition own_key (a : Z) (e : val * val) (n : Z) : option ((val * val) * Z) :=
  match fst e with
  | VStr _ s => Some ((VStr (a, n) s, snd e), n + 1)
  | _ => Some (e, n)
  end.
Fixpoint field (f : bytes) (l : list (bytes * val)) : option val :=
  match l with
  | [] => None
  | (g, v) :: l => if eqs g f then Some v else field f l
  end.
Fixpoint set_field (f : bytes) (x : val) (l : list (bytes * val)) : list (bytes * val) :=
  match l with
  | [] => []
  | (g, v) :: l => if eqs g f then (g, x) :: l else (g, v) :: set_field f x l
  end.
Section SetFields.
  Context (run : code -> val -> Z -> option (val * Z)) (src : list (bytes * val)).
  Fixpoint set_fields (l : list (bytes * code)) (dst : list (bytes * val)) (n : Z) : option (list (bytes * val) * Z) :=
    match l with
    | [] => Some (dst, n)
    | (f, c) :: l =>
      match field f src with
      | None => None
      | Some v => opt_bind (run c v n) (fun r => set_fields l (set_field f (fst r) dst) (snd r))
      end
    end.
End SetFields.
(** The emitted expression for the value [v], with the default arena [a]; the
    result and the number of the next block.  [None]: the C code reads something
    else than what is there.  ArrayCopy: array.c:75-77; MapCopy: map.c:281-316. *)
Fixpoint run (a : Z) (c : code) (v : val) (n : Z) {struct c} : option (val * Z) :=
  match c with
  | Same => Some (v, n)
  | NewString => new_string a v n
  | ArrayCopy => match v with VArr _ l => Some (VArr (a, n) l, n + 1) | _ => None end
  | EachElement c =>
    match v with
    | VArr _ l => option_map (fun r => (VArr (a, n) (fst r), snd r)) (each (run a c) l (n + 1))
    | _ => None
    end
  | MapCopy =>
    match v with
    | VMap _ l => option_map (fun r => (VMap (a, n) (fst r), snd r)) (each (own_key a) l (n + 1))
    | _ => None
    end
  | EachEntry sk c =>
    match v with
    | VMap _ l =>
      option_map (fun r => (VMap (a, n) (fst r), snd r))
        (each (fun e m => opt_bind (run a c (snd e) m) (fun r =>
           if sk : bool then option_map (fun k => ((fst k, fst r), snd k)) (new_string a (fst e) (snd r))
           else Some ((fst e, fst r), snd r))) l (n + 1))
    | _ => None
    end
  | Fields l =>
    match v with
    | VRec s => option_map (fun r => (VRec (fst r), snd r)) (set_fields (run a) s l s n)
    | _ => None
    end
  end.
