(** JSON (RFC 8259) on bytes, without reference to the code.  Bytes from 128 up stand for
    themselves inside strings; whether they form UTF-8 is not looked at. *)
From Verif Require Import Base StrconvSpec EncodingSpec StringsSpec.

Definition digit (c : Z) : Prop := 48 <= c <= 57.
Definition json_blank (c : Z) : Prop := c = 32 \/ c = 9 \/ c = 10 \/ c = 13.

(** section 7: the characters between the quotes, and the text they denote *)
Inductive escape_of : Z -> Z -> Prop :=
| eo_quote : escape_of 34 34 | eo_back : escape_of 92 92 | eo_slash : escape_of 47 47
| eo_b : escape_of 98 8 | eo_f : escape_of 102 12 | eo_n : escape_of 110 10
| eo_r : escape_of 114 13 | eo_t : escape_of 116 9.
Definition hex4 (a b c d : Z) : Prop :=
  is_hex_digit a /\ is_hex_digit b /\ is_hex_digit c /\ is_hex_digit d.
Inductive chars : bytes -> Prop :=
| ch_nil : chars []
| ch_plain c r : 32 <= c -> c <> 34 -> c <> 92 -> chars r -> chars (c :: r)
| ch_esc e x r : escape_of e x -> chars r -> chars (92 :: e :: r)
| ch_u a b c d r : hex4 a b c d -> chars r -> chars (92 :: 117 :: a :: b :: c :: d :: r).
(** [\uXXXX] denotes the UTF-8 bytes of code point XXXX (surrogate pairs are not covered) *)
Inductive denotes : bytes -> bytes -> Prop :=
| de_nil : denotes [] []
| de_plain c r s : 32 <= c -> c <> 34 -> c <> 92 -> denotes r s -> denotes (c :: r) (c :: s)
| de_esc e x r s : escape_of e x -> denotes r s -> denotes (92 :: e :: r) (x :: s)
| de_u a b c d cp e r s : positional 16 [a; b; c; d] cp -> utf8 cp e -> denotes r s ->
    denotes (92 :: 117 :: a :: b :: c :: d :: r) (e ++ s).
Definition json_string (t : bytes) : Prop := exists b, t = [34] ++ b ++ [34] /\ chars b.
Definition string_denoting (t s : bytes) : Prop := exists b, t = [34] ++ b ++ [34] /\ chars b /\ denotes b s.

(** section 6 *)
Definition digits1 (t : bytes) : Prop := t <> [] /\ Forall digit t.
Definition int_part (t : bytes) : Prop :=
  t = [48] \/ exists c r, t = c :: r /\ 49 <= c <= 57 /\ Forall digit r.
Definition frac_part (t : bytes) : Prop := t = [] \/ exists ds, t = 46 :: ds /\ digits1 ds.
Definition exp_part (t : bytes) : Prop :=
  t = [] \/ exists e sg ds, t = e :: sg ++ ds /\ (e = 101 \/ e = 69) /\ (sg = [] \/ sg = [43] \/ sg = [45]) /\ digits1 ds.
Definition json_number (t : bytes) : Prop :=
  exists m i f e, t = m ++ i ++ f ++ e /\ (m = [] \/ m = [45]) /\ int_part i /\ frac_part f /\ exp_part e.

(** sections 2-5, for a choice of blank characters.  The number d bounds how many arrays and
    objects enclose any value inside. *)
Section Grammar.
Context (blank : Z -> Prop).
Definition blanks (w : bytes) : Prop := Forall blank w.
Inductive value : nat -> bytes -> Prop :=
| va_string d t : json_string t -> value d t
| va_number d t : json_number t -> value d t
| va_true d : value d (bs "true")
| va_false d : value d (bs "false")
| va_null d : value d (bs "null")
| va_array0 d w : blanks w -> value d ([91] ++ w ++ [93])
| va_array d es : elements d es -> value (S d) ([91] ++ es ++ [93])
| va_object0 d w : blanks w -> value d ([123] ++ w ++ [125])
| va_object d ms : members d ms -> value (S d) ([123] ++ ms ++ [125])
with elements : nat -> bytes -> Prop :=
| el_one d w1 v w2 : blanks w1 -> value d v -> blanks w2 -> elements d (w1 ++ v ++ w2)
| el_more d w1 v w2 es : blanks w1 -> value d v -> blanks w2 -> elements d es ->
    elements d (w1 ++ v ++ w2 ++ [44] ++ es)
with members : nat -> bytes -> Prop :=
| me_one d w1 k w2 w3 v w4 : blanks w1 -> json_string k -> blanks w2 -> blanks w3 -> value d v -> blanks w4 ->
    members d (w1 ++ k ++ w2 ++ [58] ++ w3 ++ v ++ w4)
| me_more d w1 k w2 w3 v w4 ms : blanks w1 -> json_string k -> blanks w2 -> blanks w3 -> value d v -> blanks w4 ->
    members d ms -> members d (w1 ++ k ++ w2 ++ [58] ++ w3 ++ v ++ w4 ++ [44] ++ ms).
Definition text (d : nat) (t : bytes) : Prop :=
  exists w1 v w2, t = w1 ++ v ++ w2 /\ blanks w1 /\ value d v /\ blanks w2.
End Grammar.
Scheme value_ind3 := Induction for value Sort Prop
with elements_ind3 := Induction for elements Sort Prop
with members_ind3 := Induction for members Sort Prop.
Combined Scheme grammar_ind from value_ind3, elements_ind3, members_ind3.

(** A JSON text with values nested in at most d arrays and objects. *)
Definition json_text (d : nat) (t : bytes) : Prop := text json_blank d t.
(** The same with vertical tab and form feed counted as blank too. *)
Definition space (c : Z) : Prop := 9 <= c <= 13 \/ c = 32.

(** Text that needs no escape inside a JSON string. *)
Definition plain (s : bytes) : Prop := Forall (fun c => 32 <= c /\ c <> 34 /\ c <> 92) s.
(** {"k":"v","k2":"v2"} with the given JSON texts of keys and values *)
Definition object_of (ps : list (bytes * bytes)) : bytes :=
  [123] ++ glue [44] (map (fun p => fst p ++ [58] ++ snd p) ps) ++ [125].
Definition array_of (vs : list bytes) : bytes := [91] ++ glue [44] vs ++ [93].

(** An object whose values are numbers, true, false, null or strings needing no escape, with
    the key/value pairs it lists (a value that is not a string is its own text). *)
Inductive flat_value : bytes -> bytes -> Prop :=
| fv_string s : plain s -> flat_value ([34] ++ s ++ [34]) s
| fv_number t : json_number t -> flat_value t t
| fv_true : flat_value (bs "true") (bs "true")
| fv_false : flat_value (bs "false") (bs "false")
| fv_null : flat_value (bs "null") (bs "null").
Inductive flat_members : list (bytes * bytes) -> bytes -> Prop :=
| fm_one w1 k w2 w3 t v w4 : blanks json_blank w1 -> plain k -> blanks json_blank w2 -> blanks json_blank w3 ->
    flat_value t v -> blanks json_blank w4 ->
    flat_members [(k, v)] (w1 ++ ([34] ++ k ++ [34]) ++ w2 ++ [58] ++ w3 ++ t ++ w4)
| fm_more w1 k w2 w3 t v w4 es ms : blanks json_blank w1 -> plain k -> blanks json_blank w2 -> blanks json_blank w3 ->
    flat_value t v -> blanks json_blank w4 -> flat_members es ms ->
    flat_members ((k, v) :: es) (w1 ++ ([34] ++ k ++ [34]) ++ w2 ++ [58] ++ w3 ++ t ++ w4 ++ [44] ++ ms).
Inductive flat_object : list (bytes * bytes) -> bytes -> Prop :=
| fo_empty w1 w2 w3 : blanks json_blank w1 -> blanks json_blank w2 -> flat_object [] (w1 ++ [123] ++ w2 ++ [125] ++ w3)
| fo_some w1 es ms w3 : blanks json_blank w1 -> flat_members es ms -> flat_object es (w1 ++ [123] ++ ms ++ [125] ++ w3).
