(** How far apart two names are. *)
From Verif Require Import Base.

(** One character is inserted, removed or replaced. *)
Inductive edit : bytes -> bytes -> Prop :=
| e_insert u c v : edit (u ++ v) (u ++ c :: v)
| e_remove u c v : edit (u ++ c :: v) (u ++ v)
| e_replace u c c' v : edit (u ++ c :: v) (u ++ c' :: v).
(** [n] edits turn [s] into [t]. *)
Inductive edits : nat -> bytes -> bytes -> Prop :=
| e_none s : edits 0 s s
| e_more n s m t : edits n s m -> edit m t -> edits (S n) s t.
(** [n] is the least number of edits. *)
Definition distance (s t : bytes) (n : nat) : Prop := edits n s t /\ forall m, edits m s t -> (n <= m)%nat.
