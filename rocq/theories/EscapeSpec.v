(** Programs made of blocks that are entered and left, and variables whose
    values must outlive the blocks they are assigned in. *)
From Verif Require Import Base TypesModel TypesSpec CopySpec.

(** What is assigned to: the variable itself, a field or an element of it, the
    entry of a map, a new element ([arrays.append], [insert_at], [prepend]), or,
    through a pointer to the variable, all of it or a field.  [grows]: the
    container has to take a larger block. *)
Inductive target :=
| Whole
| Field (f : bytes)
| Elem (i : nat)
| Entry (k : bytes) (grows : bool)
| Push (grows : bool)
| Deref
| PtrField (f : bytes).
(** [Assign x tg t]: a value of type [t] is assigned.  [Block]: an [if] or one
    pass of a loop.  [Call]: a call of a function with a [&] parameter, [CallOwn]: of
    one without results and without such a parameter; the body is given. *)
Inductive stmt :=
| Declare (x : Z) (t : ty)
| Assign (x : Z) (tg : target) (t : ty)
| Block (l : list stmt)
| Call (l : list stmt)
| CallOwn (l : list stmt).

(** The variables of the blocks that are open, innermost first. *)
Definition frame := list (Z * val).
Definition store := list frame.
Definition in_store (st : store) (b : block) : Prop := exists fr x v, In fr st /\ In (x, v) fr /\ In b (owned v).
(** Every variable in scope consists of memory that has not been given back. *)
Definition alive (st : store) (freed : list Z) : Prop := forall b, in_store st b -> ~ In (fst b) freed.

(** The assignments that may be made, in a block, to a variable of an enclosing
    one: a string or a struct to a variable, a struct to a field, anything to an
    entry or as a new element, a string or an array through a pointer to a field;
    and, everywhere, values that lie in place. *)
Definition lies_in_place (p : program) (t : ty) : Prop :=
  match t with TPtr _ | TFunc _ _ => True | TName n => in_place p n | _ => False end.
Definition named (t : ty) : Prop := match t with TName _ => True | _ => False end.
Definition struct_named (t : ty) : Prop := match t with TName n => n <> bs "string" | _ => False end.
Definition array_type (t : ty) : Prop := match t with TArr _ | TFix _ _ => True | _ => False end.
Definition escapes (p : program) (tg : target) (t : ty) : Prop :=
  lies_in_place p t \/
  match tg with
  | Whole => named t
  | Field _ => struct_named t
  | Entry _ _ | Push _ => True
  | PtrField _ => t = TName (bs "string") \/ array_type t
  | Elem _ | Deref => False
  end.
Definition fine_type (p : program) (rank : bytes -> nat) (t : ty) : Prop :=
  wf t /\ Z.of_nat (length (show t)) < 254 /\ copyable p t /\ forall m, In m (inside t) -> (rank m < 64)%nat.
(** [here]: the variables of the innermost block; [deep]: some block is open. *)
Inductive fine (p : program) (rank : bytes -> nat) : bool -> list Z -> list stmt -> Prop :=
| f_nil deep here : fine p rank deep here []
| f_declare deep here x t l : fine p rank deep (x :: here) l -> fine p rank deep here (Declare x t :: l)
| f_assign deep here x tg t l : fine_type p rank t -> (deep = false \/ In x here \/ escapes p tg t) ->
    fine p rank deep here l -> fine p rank deep here (Assign x tg t :: l)
| f_block deep here b l : fine p rank true [] b -> fine p rank deep here l -> fine p rank deep here (Block b :: l).

(** What an assignment of [v] makes of what a variable reads as, [old] before
    and [new] after; [k]: the key. *)
Definition stored_in (tg : target) (k v old new : val) : Prop :=
  match tg with
  | Whole | Deref => new = v
  | Field f | PtrField f => exists l1 u l2, ~ In f (map fst l1) /\ old = VRec (l1 ++ (f, u) :: l2) /\ new = VRec (l1 ++ (f, v) :: l2)
  | Elem i => exists b l1 u l2, length l1 = i /\ old = VArr b (l1 ++ u :: l2) /\ new = VArr b (l1 ++ v :: l2)
  | Push _ => exists b l, old = VArr b l /\ new = VArr b (l ++ [v])
  | Entry _ _ => exists b l, old = VMap b l /\
      ((exists l1 u l2, ~ In k (map fst l1) /\ l = l1 ++ (k, u) :: l2 /\ new = VMap b (l1 ++ (k, v) :: l2)) \/
       (~ In k (map fst l) /\ new = VMap b (l ++ [(k, v)])))
  end.
