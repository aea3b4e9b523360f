(** What text conversion should do, without reference to the code. *)
From Verif Require Import Base.

(** The byte c is the digit of value d: 0-9, then a-z or A-Z for 10..35. *)
Definition digit_of (c d : Z) : Prop :=
  (0 <= d <= 9 /\ c = 48 + d) \/ (10 <= d <= 35 /\ (c = 97 + (d - 10) \/ c = 65 + (d - 10))).
(** The digit string ds is the positional notation of v in the given base. *)
Inductive positional (base : Z) : bytes -> Z -> Prop :=
| pos_one c d : digit_of c d -> d < base -> positional base [c] d
| pos_more ds v c d : positional base ds v -> digit_of c d -> d < base ->
    positional base (ds ++ [c]) (v * base + d).
(** A number in text: an optional sign, in base 16 optionally 0x, then digits. *)
Inductive number (base : Z) : bytes -> Z -> Prop :=
| num_plain ds v : unsigned base ds v -> number base ds v
| num_plus ds v : unsigned base ds v -> number base (43 :: ds) v
| num_minus ds v : unsigned base ds v -> number base (45 :: ds) (- v)
with unsigned (base : Z) : bytes -> Z -> Prop :=
| uns_digits ds v : positional base ds v -> unsigned base ds v
| uns_hex ds v x : base = 16 -> x = 120 \/ x = 88 -> positional 16 ds v -> unsigned base (48 :: x :: ds) v.

(** A decimal number with an optional fraction, e.g. -12.5, 3., .5 *)
Definition decimal_number (s : bytes) : Prop :=
  exists sign a b, (sign = [] \/ sign = [43] \/ sign = [45]) /\
    Forall (fun c => 48 <= c <= 57) a /\ Forall (fun c => 48 <= c <= 57) b /\
    a ++ b <> [] /\ (s = sign ++ a ++ [46] ++ b \/ (b = [] /\ s = sign ++ a)).

(** Upper or lower case spelling of a lower-case word *)
Definition spelled (word s : bytes) : Prop :=
  Forall2 (fun w c => c = w \/ c = w - 32) word s.

(** UTF-8 (RFC 3629 section 3, as a table of bit patterns; code points up to 0x10FFFF) *)
Inductive utf8 : Z -> bytes -> Prop :=
| utf8_1 a : 0 <= a < 128 -> utf8 a [a]
| utf8_2 a b : 0 <= a < 32 -> 0 <= b < 64 -> 128 <= a * 64 + b -> utf8 (a * 64 + b) [192 + a; 128 + b]
| utf8_3 a b c : 0 <= a < 16 -> 0 <= b < 64 -> 0 <= c < 64 -> 2048 <= a * 4096 + b * 64 + c ->
    utf8 (a * 4096 + b * 64 + c) [224 + a; 128 + b; 128 + c]
| utf8_4 a b c d : 0 <= a < 8 -> 0 <= b < 64 -> 0 <= c < 64 -> 0 <= d < 64 ->
    65536 <= a * 262144 + b * 4096 + c * 64 + d <= 1114111 ->
    utf8 (a * 262144 + b * 4096 + c * 64 + d) [240 + a; 128 + b; 128 + c; 128 + d].
Inductive utf8_text : list Z -> bytes -> Prop :=
| utf8_nil : utf8_text [] []
| utf8_cons cp e cps s : utf8 cp e -> utf8_text cps s -> utf8_text (cp :: cps) (e ++ s).

(** The lines of a stream: each up to its newline, the last one possibly without. *)
Inductive lines : bytes -> list bytes -> Prop :=
| lines_nil : lines [] []
| lines_last l : l <> [] -> ~ In 10 l -> lines l [l]
| lines_cons l rest ls : ~ In 10 l -> lines rest ls -> lines (l ++ [10] ++ rest) (l :: ls).
