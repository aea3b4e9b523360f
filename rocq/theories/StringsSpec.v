(** What the strings functions should compute, without reference to the code. *)
From Verif Require Import Base.

(** sub occurs in s at position i *)
Definition occurs_at (sub s : bytes) (i : nat) : Prop :=
  exists before after, s = before ++ sub ++ after /\ length before = i.
Definition occurs (sub s : bytes) : Prop := exists i, occurs_at sub s i.
(** i is the least / greatest position of an occurrence *)
Definition first_at (sub s : bytes) (i : nat) : Prop :=
  occurs_at sub s i /\ forall j, occurs_at sub s j -> (i <= j)%nat.
Definition last_at (sub s : bytes) (i : nat) : Prop :=
  occurs_at sub s i /\ forall j, occurs_at sub s j -> (j <= i)%nat.
(** Cutting s at the non-overlapping occurrences of sep, from left to right. *)
Inductive cut (sep : bytes) : bytes -> list bytes -> Prop :=
| cut_last s : ~ occurs sep s -> cut sep s [s]
| cut_at p rest ps : first_at sep (p ++ sep ++ rest) (length p) -> cut sep rest ps ->
    cut sep (p ++ sep ++ rest) (p :: ps).
(** the pieces with sep between them *)
Fixpoint glue (sep : bytes) (ps : list bytes) : bytes :=
  match ps with
  | [] => []
  | [p] => p
  | p :: ps => p ++ sep ++ glue sep ps
  end.
(** no proper non-empty prefix of sep is also a suffix of it *)
Definition unbordered (sep : bytes) : Prop :=
  forall x y z, sep = x ++ y -> sep = y ++ z -> y = [] \/ x = [].
(** white space of the C locale: \t \n \v \f \r and the blank *)
Definition blank (c : Z) : Prop := In c [9; 10; 11; 12; 13; 32].
Definition starts_blank (s : bytes) : Prop := exists c r, s = c :: r /\ blank c.
Definition ends_blank (s : bytes) : Prop := exists c r, s = r ++ [c] /\ blank c.
(** n copies of s *)
Fixpoint copies (n : nat) (s : bytes) : bytes := match n with O => [] | S n => s ++ copies n s end.
