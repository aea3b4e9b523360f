(** The check that no struct contains itself by value
    (grayc/src/typechecker/typechecker.c:10807-10836 and 11160-11210) and the
    order in which the definitions of enums and structs are written to the C
    file (grayc/src/codegen/codegen.c:9525-9700).  A declaration is a name and
    the types of its fields, or for an enum of all payloads.  Generic structs
    (emitted once per use) and the names of imported types are not modelled. *)
From Verif Require Import Base LexModel.

Record decl := { dname : bytes; fields : list bytes }.
Definition eqs (a b : bytes) : bool := strcmp a b =? 0.

(** typechecker.c:10820-10822, 11173-11174: a pointer, an array or a map *)
Definition by_value (f : bytes) : bool :=
  match f with
  | [] => false
  | c :: _ => negb ((c =? 94) || (c =? 91) || (strcmp (firstn 4 f) (bs "map[") =? 0))
  end.
(** find_struct_in_program *)
Definition find_struct (prog : list decl) (n : bytes) : option decl := find (fun d => eqs (dname d) n) prog.

(** typechecker.c:10807-10836.  [visited] is the stack of names, [room] how
    many more fit. *)
Fixpoint contains (room : nat) (prog : list decl) (d : decl) (target : bytes) (visited : list bytes) : bool :=
  if existsb (eqs (dname d)) visited then false else
  match room with
  | O => false
  | S room =>
    existsb (fun f => by_value f && (eqs f target ||
      match find_struct prog f with Some c => contains room prog c target (dname d :: visited) | None => false end)) (fields d)
  end.
(** typechecker.c:11172-11210: E3061 *)
Definition MAX_STRUCT_DEPTH : nat := 32.
Definition rejected (prog : list decl) (d : decl) : bool :=
  existsb (fun f => by_value f && (eqs f (dname d) ||
    match find_struct prog f with Some c => contains MAX_STRUCT_DEPTH prog c (dname d) [] | None => false end)) (fields d).

(** codegen.c:9652-9682.  [emitted] has one flag per struct. *)
Definition deps_met (structs : list decl) (emitted : list bool) (i : nat) (d : decl) : bool :=
  forallb (fun f => forallb (fun k =>
    negb (negb (Nat.eqb k i) && negb (nth k emitted false) && match nth_error structs k with Some e => eqs (dname e) f | None => false end))
    (seq 0 (length structs))) (fields d).
Fixpoint set_true (l : list bool) (i : nat) : list bool :=
  match l, i with [], _ => [] | _ :: l, O => true :: l | b :: l, S i => b :: set_true l i end.
Definition visit (structs : list decl) (st : list bool * list decl) (i : nat) : list bool * list decl :=
  let '(emitted, out) := st in
  if nth i emitted false then st else
  match nth_error structs i with
  | Some d => if deps_met structs emitted i d then (set_true emitted i, out ++ [d]) else st
  | None => st
  end.
Definition pass (structs : list decl) (st : list bool * list decl) : list bool * list decl :=
  fold_left (visit structs) (seq 0 (length structs)) st.
Fixpoint passes (n : nat) (structs : list decl) (st : list bool * list decl) : list bool * list decl :=
  match n with
  | O => st
  | S n => if (length (snd st) <? length structs)%nat then passes n structs (pass structs st) else st
  end.
(** codegen.c:9684-9696: whatever is left *)
Definition leftover (structs : list decl) (emitted : list bool) : list decl :=
  flat_map (fun i => if nth i emitted false then [] else match nth_error structs i with Some d => [d] | None => [] end) (seq 0 (length structs)).
Definition MAX_STRUCT_DECLS : nat := 256.
Definition struct_order (prog : list decl) : list decl :=
  let structs := firstn MAX_STRUCT_DECLS prog in
  let '(emitted, out) := passes (length structs) structs (repeat false (length structs), []) in
  out ++ leftover structs emitted.
(** codegen.c:9525-9700: the enums first, in the order of the source *)
Definition definitions (enums structs : list decl) : list decl := enums ++ struct_order structs.
