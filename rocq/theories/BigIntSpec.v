(** The integers denoted by the wide types (only the data types of BigIntModel are
    used here). *)
From Verif Require Import Base BigIntModel.

Definition is_word (x : Z) : Prop := 0 <= x < 2 ^ 64.
(** Value of a list of 64-bit words, least significant first. *)
Fixpoint words_val (l : list Z) : Z :=
  match l with [] => 0 | x :: r => x + 2 ^ 64 * words_val r end.
(** Reading an n-bit pattern as two's complement. *)
Definition signed_of (n x : Z) : Z := if x <? 2 ^ (n - 1) then x else x - 2 ^ n.

Definition u128_ok (a : u128) : Prop := is_word (ulo a) /\ is_word (uhi a).
Definition u128_val (a : u128) : Z := words_val [ulo a; uhi a].
Definition i128_ok (a : i128) : Prop := is_word (ilo a) /\ - 2 ^ 63 <= ihi a < 2 ^ 63.
Definition i128_val (a : i128) : Z := ilo a + 2 ^ 64 * ihi a.
Definition w256_ok (a : w256) : Prop := length a = 4%nat /\ Forall is_word a.
Definition u256_val (a : w256) : Z := words_val a.
Definition i256_val (a : w256) : Z := signed_of 256 (words_val a).

(** One of the two middle words of a 256-bit number is all ones. *)
Definition full_word (x k : Z) : Prop := x / 2 ^ (64 * k) mod 2 ^ 64 = 2 ^ 64 - 1.
Definition inner_word_full (x : Z) : Prop := full_word x 1 \/ full_word x 2.
(** A subtraction that borrows into a middle word of [b] that is all ones. *)
Definition borrow_into_full (a b : Z) : Prop :=
  (full_word b 1 /\ a mod 2 ^ 64 < b mod 2 ^ 64) \/ (full_word b 2 /\ a mod 2 ^ 128 < b mod 2 ^ 128).

(** Decimal texts: digits and '_' separators. *)
Definition digits_only (s : bytes) : bytes := filter (fun c => negb (c =? 95)) s.

(** A checked operation: the exact mathematical result if the type can represent it,
    otherwise a panic with the given code; casts likewise. *)
Definition exact_or_panic (r : res i128) (v : Z) (code : Z) : Prop :=
  (- 2 ^ 127 <= v < 2 ^ 127 /\ exists x, r = Ok x /\ i128_ok x /\ i128_val x = v) \/
  (~ (- 2 ^ 127 <= v < 2 ^ 127) /\ r = Panic code).
Definition u_exact_or_panic (r : res u128) (v : Z) (code : Z) : Prop :=
  (0 <= v < 2 ^ 128 /\ exists x, r = Ok x /\ u128_ok x /\ u128_val x = v) \/
  (~ (0 <= v < 2 ^ 128) /\ r = Panic code).
Definition exact_or_panic256 (r : res w256) (v : Z) (code : Z) : Prop :=
  (- 2 ^ 255 <= v < 2 ^ 255 /\ exists x, r = Ok x /\ w256_ok x /\ i256_val x = v) \/
  (~ (- 2 ^ 255 <= v < 2 ^ 255) /\ r = Panic code).
Definition u_exact_or_panic256 (r : res w256) (v : Z) (code : Z) : Prop :=
  (0 <= v < 2 ^ 256 /\ exists x, r = Ok x /\ w256_ok x /\ u256_val x = v) \/
  (~ (0 <= v < 2 ^ 256) /\ r = Panic code).
Definition cast_ok (r : res Z) (lo hi v code : Z) : Prop :=
  (lo <= v < hi /\ r = Ok v) \/ (~ (lo <= v < hi) /\ r = Panic code).
