(** Byte-order vocabulary: the number a byte string denotes. *)
From Verif Require Import Base.

(** Little-endian: first byte least significant.  Big-endian: last byte least
    significant. *)
Fixpoint le_number (s : bytes) : Z := match s with [] => 0 | b :: r => b + 256 * le_number r end.
Definition be_number (s : bytes) : Z := le_number (rev s).
