(** When a program of enums and structs makes sense in C. *)
From Coq Require Export Relation_Operators Permutation.
From Verif Require Export Base.
From Verif Require Import StructModel.

(** A letter, a digit or an underscore *)
Definition word_char (c : Z) : Prop := 48 <= c <= 57 \/ 65 <= c <= 90 \/ c = 95 \/ 97 <= c <= 122.
Definition identifier (n : bytes) : Prop := n <> [] /\ Forall word_char n.
Definition names (l : list decl) : list bytes := map dname l.
Definition well_named (l : list decl) : Prop := NoDup (names l) /\ Forall identifier (names l).

(** Struct [a] has a field of struct type [b] (not a pointer to it, nor an
    array or a map of it: then the type is not just the name). *)
Definition holds (l : list decl) (a b : bytes) : Prop := exists d, In d l /\ dname d = a /\ In b (fields d) /\ In b (names l).
Definition contains_itself (l : list decl) (a : bytes) : Prop := clos_trans _ (holds l) a a.

(** Every field whose type is in [all] comes after that type. *)
Definition ordered (all out : list decl) : Prop :=
  forall before d after, out = before ++ d :: after -> forall f, In f (fields d) -> In f (names all) -> In f (names before).
