(** Decimal notation, shared by specifications and by the models of printf's integer
    conversions ("%d", PRId64, PRIu64): C prints the canonical decimal numeral. *)
From Verif Require Import Base.

Definition is_digit (c : Z) : Prop := 48 <= c <= 57.

(** Value of a digit string, most significant first. *)
Fixpoint dec_val_from (acc : Z) (s : bytes) : Z :=
  match s with [] => acc | c :: r => dec_val_from (acc * 10 + (c - 48)) r end.
Definition dec_val (s : bytes) : Z := dec_val_from 0 s.

(** A canonical numeral of a natural number: digits, no superfluous leading zero. *)
Definition canonical_nat (s : bytes) : Prop :=
  Forall is_digit s /\ (s = [48] \/ (exists c r, s = c :: r /\ c <> 48)).

(** Its digits by repeated division (what printf outputs). *)
Fixpoint dec_digits (fuel : nat) (n : Z) (acc : bytes) : bytes :=
  match fuel with
  | O => acc
  | S f => let acc' := 48 + n mod 10 :: acc in
           if n / 10 =? 0 then acc' else dec_digits f (n / 10) acc'
  end.
Definition dec (n : Z) : bytes := dec_digits (S (Z.to_nat (Z.log2 n))) n [].

(** Signed. *)
Definition dec_signed (n : Z) : bytes := if n <? 0 then 45 :: dec (- n) else dec n.
