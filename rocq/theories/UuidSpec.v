(** RFC 9562 text form, lexicographic order of texts. *)
From Verif Require Import Base EncodingSpec.

(** 8-4-4-4-12 hexadecimal digits. *)
Definition uuid_text (t : bytes) : Prop :=
  exists a b c d e, t = a ++ [45] ++ b ++ [45] ++ c ++ [45] ++ d ++ [45] ++ e /\
    length a = 8%nat /\ length b = 4%nat /\ length c = 4%nat /\ length d = 4%nat /\ length e = 12%nat /\
    Forall is_hex_digit (a ++ b ++ c ++ d ++ e).
Definition lower_hex (t : bytes) : Prop := Forall (fun c => In c hex_digits_lower \/ c = 45) t.

(** Dictionary order of texts (first difference decides). *)
Definition text_before (a b : bytes) : Prop :=
  exists p x y s t, a = p ++ x :: s /\ b = p ++ y :: t /\ x < y.

(** The 16 bytes a UUID text stands for, by hexadecimal reading without hyphens. *)
Definition without_hyphens (t : bytes) : bytes := filter (fun c => negb (c =? 45)) t.
