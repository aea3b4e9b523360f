(** Model of the linear-probing loop that the compiler writes out in each of its
    three hash tables: grayc/src/typechecker/scope.c:26-34 and 104-110,
    grayc/src/typechecker/types.c:64-74 and 77-91, grayc/src/main.c:559-591.
    A table is an array of slots, a slot is empty (the C code's null name, type
    or path) or holds an entry. *)
From Verif Require Import Base MapModel.

(** [table[h]] *)
Definition slot {E} (tab : list (option E)) (h : Z) : option E := nth (Z.to_nat h) tab None.
(** [table[h] = e] *)
Definition put {E} (tab : list (option E)) (h : Z) (e : E) : list (option E) := set_nth (Z.to_nat h) (Some e) tab.
(** The mask of a table: its size, a power of 2 in the code, less one. *)
Definition mask_of {E} (tab : list (option E)) : Z := Z.of_nat (length tab) - 1.
(** [for (;;) { if empty return; if found return; h = (h + 1) & mask; }]: the
    slot where the loop stops.  The loop visits slots cyclically, so it either
    stops within one round of the table or never: [None] is the endless loop. *)
Fixpoint probe {E} (fuel : nat) (found : E -> bool) (tab : list (option E)) (h : Z) : option Z :=
  match fuel with
  | O => None
  | S fuel =>
      match slot tab h with
      | None => Some h
      | Some e => if found e then Some h else probe fuel found tab (Z.land (h + 1) (mask_of tab))
      end
  end.
(** The loop entered at [h & mask]. *)
Definition probe_from {E} (found : E -> bool) (tab : list (option E)) (h : Z) : option Z :=
  probe (length tab) found tab (Z.land h (mask_of tab)).
(** [h = h * 33u ^ (uint32_t)*p] over the bytes of a string, scope.c:18-23 and
    types.c:56-61. *)
Definition mix33 (h : Z) (s : bytes) : Z := fold_left (fun h c => Z.lxor (wrap_u 32 (h * 33)) c) s h.
