(** What a for_each does. *)
From Verif Require Import Base.

(** Statements of a body: output, append to the collection, assign it, break, continue. *)
Inductive act := Log (z : Z) | Push (z : Z) | Assign (l : list Z) | Stop | Next.
(** How a body or a loop ends. *)
Inductive ending := Fall | Leave | Die (code : Z).
(** The output of one turn and its end; with [frozen] the collection may not be changed (P0034). *)
Fixpoint turn (frozen : bool) (b : list act) : list Z * ending :=
  match b with
  | [] | Next :: _ => ([], Fall)
  | Stop :: _ => ([], Leave)
  | Log z :: t => let (o, e) := turn frozen t in (z :: o, e)
  | Push _ :: t => if frozen then ([], Die 34) else turn frozen t
  | Assign _ :: t => turn frozen t
  end.
(** The elements in order, each once with its number, until a break or a panic. *)
Fixpoint visit (frozen : bool) (body : nat -> Z -> list act) (i : nat) (l : list Z) : list Z * ending :=
  match l with
  | [] => ([], Fall)
  | x :: t => let (o, e) := turn frozen (body i x) in
              match e with
              | Fall => let (o', e') := visit frozen body (S i) t in (o ++ o', e')
              | Leave => (o, Fall)
              | Die c => (o, Die c)
              end
  end.
Definition never_assigns (body : nat -> Z -> list act) : Prop := forall i x l, ~ In (Assign l) (body i x).
