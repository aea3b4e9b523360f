(** What nested scopes mean: each block binds names to types, the innermost
    block that binds a name wins, and a second definition in the same block
    replaces the first. *)
From Verif Require Import Base ScopeModel.

(** What is known of a name: its type, whether it may be assigned, and the
    notes the checker has attached to it. *)
Record info := Info { i_type : Z; i_mutable : bool; i_notes : Z }.
Definition block := list Z -> option info.
Definition same_name (a b : list Z) : bool := if list_eq_dec Z.eq_dec a b then true else false.
Definition bind (b : block) (n : list Z) (i : info) : block := fun x => if same_name x n then Some i else b x.
(** Blocks from the innermost outwards. *)
Fixpoint resolve (e : list block) (n : list Z) : option info :=
  match e with
  | [] => None
  | b :: r => match b n with Some i => Some i | None => resolve r n end
  end.
Definition declare (e : list block) (n : list Z) (t : Z) (m : bool) : list block :=
  match e with
  | [] => []
  | b :: r => bind b n (Info t m (match b n with Some i => i_notes i | None => 0 end)) :: r
  end.
(** Attach a note to the binding a name resolves to. *)
Fixpoint note (e : list block) (n : list Z) (a : Z) : list block :=
  match e with
  | [] => []
  | b :: r => match b n with Some i => bind b n (Info (i_type i) (i_mutable i) a) :: r | None => b :: note r n a end
  end.
Inductive event := Open | Close | Decl (n : list Z) (t : Z) (m : bool) | Note (n : list Z) (a : Z).
Definition no_names : block := fun _ => None.
(** A declaration or a close needs an open block. *)
Definition after (e : list block) (v : event) : option (list block) :=
  match v, e with
  | Open, _ => Some (no_names :: e)
  | Close, _ :: r => Some r
  | Close, [] => None
  | Decl n t m, _ :: _ => Some (declare e n t m)
  | Decl _ _ _, [] => None
  | Note n a, _ => Some (note e n a)
  end.
Fixpoint after_all (e : list block) (l : list event) : option (list block) :=
  match l with
  | [] => Some e
  | v :: r => match after e v with Some e' => after_all e' r | None => None end
  end.
(** Events that stay within the block they start in: every block they open
    they close, and they close no other. *)
Inductive nested : list event -> Prop :=
| n_nil : nested []
| n_decl n t m l : nested l -> nested (Decl n t m :: l)
| n_note n a l : nested l -> nested (Note n a :: l)
| n_block k l : nested k -> nested l -> nested (Open :: k ++ Close :: l).
(** The event each operation of the checker is meant to be. *)
Definition meaning (o : op) : event :=
  match o with Enter => Open | Leave => Close | Define n t m => Decl n t m | Mark n a => Note n a end.
