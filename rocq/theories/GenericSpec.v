(** What a call of a generic function may be given. *)
From Verif Require Import Base TypesModel TypesSpec GenericModel.

(** The text with every question mark replaced. *)
Fixpoint instance (s t : bytes) : bytes :=
  match s with
  | [] => []
  | c :: r => if c =? 63 then t ++ instance r t else c :: instance r t
  end.
Definition wild (s : bytes) : Prop := In 63 s.

(** Patterns from which the wildcard can be read off: the wildcard itself,
    inside arrays and maps; [map[?:?]] is the only one with two of them. *)
Inductive readable : ty -> Prop :=
| r_hole : readable (TName (bs "?"))
| r_arr p : readable p -> readable (TArr p)
| r_value k p : word k -> ~ wild k -> readable p -> readable (TMap k p)
| r_key v : wf v -> ~ wild (show v) -> readable (TMap (bs "?") v)
| r_both : readable (TMap (bs "?") (TName (bs "?"))).
(** Does it stand for the key type of a map? (Keys are simple names.) *)
Fixpoint keyed (p : ty) : Prop :=
  match p with
  | TArr p => keyed p
  | TMap k v => wild k \/ keyed v
  | _ => False
  end.
(** In a map with a wildcard on both sides, both sides are the same. *)
Fixpoint even (p : ty) : Prop :=
  match p with
  | TArr p => even p
  | TMap k v => (wild k -> wild (show v) -> show v = k) /\ even v
  | _ => True
  end.

(** The arguments of a call are fine for the wildcard standing for [t]: an
    argument for a value is of the parameter's type with [t] put in, and a
    struct given for a type parameter is [t]. *)
Definition fits_param (t : bytes) (q : param * arg) : Prop :=
  match q with
  | (PVal p, AVal a) => a = instance p t
  | (PType, AStruct n) => n = t
  | _ => False
  end.
