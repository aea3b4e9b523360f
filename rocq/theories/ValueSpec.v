(** Value semantics, stated on its own: a variable holds a whole value, a number,
    a record of values or an array of values, and changing one variable never
    changes another. *)
From Verif Require Import Base.

Inductive ty := TNum | TRec (ts : list ty) | TArr (t : ty).
Inductive tree := Num (z : Z) | Rec (ts : list tree) | Arr (ts : list tree).
(** A place inside a variable: fields and elements, from the outside in. *)
Inductive step := Fld (i : nat) | Idx (i : Z).
Definition path := list step.
(** The [i]-th element of a list, for an index that may be out of range. *)
Definition at_ {A} (l : list A) (i : Z) : option A := if i <? 0 then None else nth_error l (Z.to_nat i).
Fixpoint put {A} (l : list A) (i : nat) (x : A) : list A :=
  match l, i with [], _ => [] | _ :: l, O => x :: l | y :: l, S i => y :: put l i x end.

(** Right-hand sides: a literal, or what a place holds.  Variables are numbered
    in the order of their declarations. *)
Inductive expr := Lit (t : tree) | Path (x : nat) (p : path).
(** How a number is written to a place: [place += z] (also [-=] ...), [place++],
    by a function with an [&] parameter, through [mut r = ref(place)], through
    [addr(place)]. *)
Inductive how := Compound | Inc | Amp | MutRef | Address.
Inductive stmt :=
| Decl (mut annot : bool) (t : ty) (e : expr)   (** [mut]/[const x T = e]; [annot]: the type is written out *)
| Write (x : nat) (p : path) (e : expr)         (** [x.p = e] *)
| Poke (w : how) (x : nat) (p : path) (z : Z)
| Push (x : nat) (p : path) (t : tree).         (** [arrays.append(x.p, literal)] *)

Fixpoint sget (t : tree) (p : path) : option tree :=
  match p, t with
  | [], _ => Some t
  | Fld i :: p, Rec ts => match nth_error ts i with Some u => sget u p | None => None end
  | Idx i :: p, Arr ts => match at_ ts i with Some u => sget u p | None => None end
  | _, _ => None
  end.
(** The value with the part at the path replaced. *)
Fixpoint sput (t : tree) (p : path) (new : tree) : option tree :=
  match p, t with
  | [], _ => Some new
  | Fld i :: p, Rec ts =>
    match nth_error ts i with
    | Some u => match sput u p new with Some u' => Some (Rec (put ts i u')) | None => None end
    | None => None
    end
  | Idx i :: p, Arr ts =>
    match at_ ts i with
    | Some u => match sput u p new with Some u' => Some (Arr (put ts (Z.to_nat i) u')) | None => None end
    | None => None
    end
  | _, _ => None
  end.

Definition fits (z : Z) : bool := (- 2^63 <=? z) && (z <? 2^63).
(** The number a place holds afterwards; [None]: the program stops. *)
Definition poked (w : how) (old z : Z) : option Z :=
  match w with
  | Compound | Inc => if fits (old + z) then Some (old + z) else None
  | Amp | MutRef | Address => Some z
  end.

Definition senv := list tree.
Definition seval (s : senv) (e : expr) : option tree :=
  match e with
  | Lit t => Some t
  | Path x p => match nth_error s x with Some t => sget t p | None => None end
  end.
Definition swrite (s : senv) (x : nat) (p : path) (new : tree) : option senv :=
  match nth_error s x with
  | Some t => match sput t p new with Some t' => Some (put s x t') | None => None end
  | None => None
  end.
Definition sstep (s : senv) (c : stmt) : option senv :=
  match c with
  | Decl _ _ _ e => match seval s e with Some t => Some (s ++ [t]) | None => None end
  | Write x p e => match seval s e with Some t => swrite s x p t | None => None end
  | Poke w x p z =>
    match seval s (Path x p) with
    | Some (Num old) => match poked w old z with Some n => swrite s x p (Num n) | None => None end
    | _ => None
    end
  | Push x p t =>
    match seval s (Path x p) with
    | Some (Arr ts) => swrite s x p (Arr (ts ++ [t]))
    | _ => None
    end
  end.
(** [None]: the program stopped at a check (an index out of range, an overflow). *)
Fixpoint sruns (s : senv) (l : list stmt) : option senv :=
  match l with
  | [] => Some s
  | c :: l => match sstep s c with Some s => sruns s l | None => None end
  end.

(** Types. *)
Inductive has : ty -> tree -> Prop :=
| has_num z : has TNum (Num z)
| has_rec tys ts : Forall2 has tys ts -> has (TRec tys) (Rec ts)
| has_arr t ts : Forall (has t) ts -> has (TArr t) (Arr ts).
Fixpoint part (t : ty) (p : path) : option ty :=
  match p, t with
  | [], _ => Some t
  | Fld i :: p, TRec ts => match nth_error ts i with Some u => part u p | None => None end
  | Idx _ :: p, TArr u => part u p
  | _, _ => None
  end.
Definition place_type (g : list ty) (x : nat) (p : path) : option ty :=
  match nth_error g x with Some t => part t p | None => None end.
Definition typed_expr (g : list ty) (e : expr) (t : ty) : Prop :=
  match e with Lit u => has t u | Path x p => place_type g x p = Some t end.
Definition typed (g : list ty) (c : stmt) : Prop :=
  match c with
  | Decl _ _ t e => typed_expr g e t
  | Write x p e => exists t, place_type g x p = Some t /\ typed_expr g e t
  | Poke _ x p _ => place_type g x p = Some TNum
  | Push x p u => exists t, place_type g x p = Some (TArr t) /\ has t u
  end.
Definition types_after (g : list ty) (c : stmt) : list ty := match c with Decl _ _ t _ => g ++ [t] | _ => g end.
Fixpoint all_typed (g : list ty) (l : list stmt) : Prop :=
  match l with [] => True | c :: l => typed g c /\ all_typed (types_after g c) l end.

(** A type without arrays inside. *)
Fixpoint no_arrays (t : ty) : bool :=
  match t with TNum => true | TRec ts => forallb no_arrays ts | TArr _ => false end.
(** The forms for which the property is proved: what is handed over is a literal
    or has no array inside; or it is the value of a whole variable, or a field
    that is a flat array, given to a variable declared with its type; or it is
    assigned to anything but an array element. *)
Definition is_field (p : path) : bool := match last p (Idx 0) with Fld _ => true | Idx _ => false end.
Definition ends_in_index (p : path) : bool := match last p (Fld 0) with Idx _ => true | Fld _ => false end.
Definition flat_array (t : ty) : bool := match t with TArr (TArr _) => false | TArr _ => true | _ => false end.
Definition careful (g : list ty) (c : stmt) : Prop :=
  match c with
  | Decl _ _ _ (Lit _) => True
  | Decl _ annot t (Path _ p) => no_arrays t = true \/ annot = true /\ (p = [] \/ flat_array t = true /\ is_field p = true)
  | Write x p (Lit _) => True
  | Write x p (Path y q) => ends_in_index p = false \/ exists t, place_type g x p = Some t /\ no_arrays t = true
  | _ => True
  end.
Fixpoint all_careful (g : list ty) (l : list stmt) : Prop :=
  match l with [] => True | c :: l => careful g c /\ all_careful (types_after g c) l end.

(** Constants: which variables were declared [const], in order. *)
Definition consts_after (k : list bool) (c : stmt) : list bool :=
  match c with Decl mut _ _ _ => k ++ [negb mut] | _ => k end.
(** The depths at which the checks look: an assignment at most one step deep,
    the others at the variable itself, [addr] at any depth. *)
Definition in_sight (c : stmt) : Prop :=
  match c with
  | Write _ p _ | Poke Compound _ p _ => (length p <= 1)%nat
  | Poke (Inc | Amp | MutRef) _ p _ | Push _ p _ => p = []
  | Poke Address _ _ _ | Decl _ _ _ _ => True
  end.
(** The types and the constants after a program. *)
Definition types_of (g : list ty) (l : list stmt) : list ty := fold_left types_after l g.
Definition consts_of (k : list bool) (l : list stmt) : list bool := fold_left consts_after l k.
