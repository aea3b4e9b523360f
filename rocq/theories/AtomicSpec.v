(** Atomic operations: what each does in one indivisible step, and what it means that a concurrent
    history of calls and returns is explained by indivisible steps.  Independent of the model. *)
From Verif Require Import Base.

Inductive alu := KAdd | KSub | KAnd | KOr | KXor.
Inductive op :=
| Load | Store (v : Z) | Rmw (k : alu) (v : Z) (* add, sub, and, or, xor *) | Cas (expected desired : Z) | Exchange (v : Z)
| Lock | TryLock | Unlock.   (* a spin lock: the cell is 0 when free, 1 when taken *)

(** Arithmetic on w-bit two's complement integers. *)
Definition compute (w : Z) (k : alu) (a b : Z) : Z :=
  match k with
  | KAdd => wrap_i w (a + b) | KSub => wrap_i w (a - b)
  | KAnd => Z.land a b | KOr => Z.lor a b | KXor => Z.lxor a b
  end.
(** [apply weak w m o r m']: operation o on a cell holding m may return r and leave m'.
    weak: try_lock may also fail on a free lock. *)
Definition apply (weak : bool) (w : Z) (m : Z) (o : op) (r : Z) (m' : Z) : Prop :=
  match o with
  | Load => r = m /\ m' = m
  | Store v => r = 0 /\ m' = v
  | Rmw k v => r = m /\ m' = compute w k m v
  | Cas e d => if m =? e then r = 1 /\ m' = d else r = 0 /\ m' = m
  | Exchange v => r = m /\ m' = v
  | Lock => m = 0 /\ r = 0 /\ m' = 1
  | TryLock => (m = 0 /\ r = 1 /\ m' = 1) \/ ((m <> 0 \/ weak = true) /\ r = 0 /\ m' = m)
  | Unlock => r = 0 /\ m' = 0
  end.

(** A history is what can be seen from outside: who called what, who got which result. *)
Inductive event := Call (t : nat) (o : op) | Ret (t : nat) (r : Z).
Inductive phase := Out | Called (o : op) | Done (o : op) (r : Z).
Definition moves (t : nat) (ph ph' : nat -> phase) (p : phase) : Prop :=
  ph' t = p /\ forall u, u <> t -> ph' u = ph u.
(** [explains w m0 h ph m]: h can be produced from a cell holding m0 by threads each of whose
    operations acts indivisibly once between its call and its return, with the result it returns; ph and
    m are the phases of the threads and the cell afterwards. *)
Inductive explains (weak : bool) (w m0 : Z) : list event -> (nat -> phase) -> Z -> Prop :=
| ex_nil ph : (forall t, ph t = Out) -> explains weak w m0 [] ph m0
| ex_call h ph m t o ph' : explains weak w m0 h ph m -> ph t = Out -> moves t ph ph' (Called o) ->
    explains weak w m0 (h ++ [Call t o]) ph' m
| ex_act h ph m t o r m' ph' : explains weak w m0 h ph m -> ph t = Called o -> apply weak w m o r m' ->
    moves t ph ph' (Done o r) -> explains weak w m0 h ph' m'
| ex_ret h ph m t o r ph' : explains weak w m0 h ph m -> ph t = Done o r -> moves t ph ph' Out ->
    explains weak w m0 (h ++ [Ret t r]) ph' m.
Definition linearizable (weak : bool) (w m0 : Z) (h : list event) : Prop := exists ph m, explains weak w m0 h ph m.

(** Who is inside the section guarded by a lock, seen from the calls and returns alone. *)
Inductive seat := Away | Asking (o : op) | Inside | InsideAsking (o : op).
Definition sit (p : seat) (e : event) : seat :=
  match p, e with
  | Away, Call _ o => Asking o
  | Asking Lock, Ret _ _ => Inside
  | Asking TryLock, Ret _ r => if r =? 1 then Inside else Away
  | Asking _, Ret _ _ => Away
  | Inside, Call _ Unlock => Asking Unlock
  | Inside, Call _ o => InsideAsking o
  | InsideAsking _, Ret _ _ => Inside
  | _, _ => p
  end.
Definition who (e : event) : nat := match e with Call t _ => t | Ret t _ => t end.
Definition seat_of (h : list event) (t : nat) : seat :=
  fold_left sit (filter (fun e => Nat.eqb (who e) t) h) Away.
Definition inside (h : list event) (t : nat) : bool :=
  match seat_of h t with Inside | InsideAsking _ => true | _ => false end.
(** Only a thread that is inside calls unlock, and it does not lock again: every prefix of the history
    ending in a call obeys the rule. *)
Definition disciplined (h : list event) : Prop :=
  forall before t o after, h = before ++ Call t o :: after ->
    if inside before t then o = Unlock else o = Lock \/ o = TryLock.
