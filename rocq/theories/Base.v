(** Shared vocabulary of all models: bytes, byte strings, outcomes of C runtime
    calls.  No model of a particular function lives here. *)
From Coq Require Export String Ascii.
From Coq Require Export ZArith Bool Lia List.
From Coq Require Export ZifyBool ZifyNat ZifyN.
Export ListNotations.
#[global] Open Scope Z_scope.
#[global] Open Scope list_scope.

(** A byte is an integer in [0,256); a [GrayString] / byte array is the list of
    its bytes ([data[0..len)]), see grayc/src/runtime/runtime.h GrayString. *)
Definition is_byte (b : Z) : Prop := 0 <= b < 256.
Definition bytes := list Z.
Definition byte_string (s : bytes) : Prop := Forall is_byte s.

(** Literal text as bytes (ASCII). *)
Definition byte_of_ascii (c : ascii) : Z := Z.of_N (N_of_ascii c).
Fixpoint bs (s : string) : bytes :=
  match s with
  | EmptyString => []
  | String c r => byte_of_ascii c :: bs r
  end.

(** Outcome of a call into the C runtime.
    [Panic n] is [gray_panic_code("P%04d", ...)], which ends the program;
    [UB] marks C undefined behaviour (out-of-bounds access, signed overflow);
    [NoFuel] is never a behaviour of the program: it marks that the model's own
    recursion bound was too small and is excluded by every theorem. *)
Inductive res (A : Type) : Type :=
| Ok (a : A)
| Panic (code : Z)
| UB
| NoFuel.
Arguments Ok {A} a. Arguments Panic {A} code. Arguments UB {A}. Arguments NoFuel {A}.

Definition rmap {A B} (f : A -> B) (r : res A) : res B :=
  match r with Ok a => Ok (f a) | Panic c => Panic c | UB => UB | NoFuel => NoFuel end.
Definition rbind {A B} (r : res A) (f : A -> res B) : res B :=
  match r with Ok a => f a | Panic c => Panic c | UB => UB | NoFuel => NoFuel end.

(** Machine ranges. *)
Definition in_i (n x : Z) : Prop := - 2 ^ (n - 1) <= x < 2 ^ (n - 1).
Definition in_u (n x : Z) : Prop := 0 <= x < 2 ^ n.
Definition INT32_MAX : Z := 2147483647.
Definition INT32_MIN : Z := -2147483648.
Definition INT64_MAX : Z := 9223372036854775807.
Definition INT64_MIN : Z := -9223372036854775808.
Definition UINT64_MAX : Z := 18446744073709551615.
Definition UINT32_MAX : Z := 4294967295.

(** Conversion to an n-bit unsigned / two's-complement signed integer. *)
Definition wrap_u (n x : Z) : Z := x mod 2 ^ n.
Definition wrap_i (n x : Z) : Z :=
  let m := x mod 2 ^ n in if m <? 2 ^ (n - 1) then m else m - 2 ^ n.
