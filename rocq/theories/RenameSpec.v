(** A small language of functions with module variables, and its meaning. *)
From Verif Require Import Base.

Notation name := bytes (only parsing).
Inductive expr := Num (z : Z) | Label (x : name) | Plus (a b : expr) | Call (f : name) (a : expr).
Inductive stmt :=
| Skip | Seq (s t : stmt) | Decl (x : name) (e : expr) | Set_ (x : name) (e : expr) | Say (e : expr)
| If (e : expr) (s t : stmt) | Scope (s : stmt) | For (x : name) (e : expr) (s : stmt) | Return (e : expr).
Definition table (A : Type) := list (name * A).
Fixpoint get {A} (x : name) (t : table A) : option A :=
  match t with [] => None | (y, a) :: r => if list_eq_dec Z.eq_dec y x then Some a else get x r end.
Fixpoint put {A} (x : name) (a : A) (t : table A) : table A :=
  match t with [] => [] | (y, b) :: r => if list_eq_dec Z.eq_dec y x then (y, a) :: r else (y, b) :: put x a r end.
(** Local variables, newest first; module variables; output. *)
Record state := State { locals : table Z; globals : table Z; said : list Z }.
Fixpoint eval (fs : table (Z -> Z)) (st : state) (e : expr) : option Z :=
  match e with
  | Num z => Some z
  | Label x => match get x (locals st) with Some v => Some v | None => get x (globals st) end
  | Plus a b => match eval fs st a, eval fs st b with Some x, Some y => Some (x + y) | _, _ => None end
  | Call f a => match get f fs, eval fs st a with Some g, Some x => Some (g x) | _, _ => None end
  end.
(** The end of a block drops the variables declared in it. *)
Definition close (st st' : state) : state := State (skipn (length (locals st') - length (locals st)) (locals st')) (globals st') (said st').
Definition declare (x : name) (v : Z) (st : state) : state := State ((x, v) :: locals st) (globals st) (said st).
Fixpoint turns (run : state -> option (state * option Z)) (x : name) (k : nat) (i : Z) (st : state) : option (state * option Z) :=
  match k with
  | O => Some (st, None)
  | S k => match run (declare x i st) with
           | None => None
           | Some (st', Some r) => Some (close st st', Some r)
           | Some (st', None) => turns run x k (i + 1) (close st st')
           end
  end.
(** None: a name is not known.  Some r: returned r. *)
Fixpoint exec (fs : table (Z -> Z)) (s : stmt) (st : state) : option (state * option Z) :=
  match s with
  | Skip => Some (st, None)
  | Seq a b => match exec fs a st with Some (st', None) => exec fs b st' | r => r end
  | Decl x e => match eval fs st e with Some v => Some (declare x v st, None) | None => None end
  | Set_ x e =>
      match eval fs st e with
      | None => None
      | Some v => match get x (locals st) with
                  | Some _ => Some (State (put x v (locals st)) (globals st) (said st), None)
                  | None => match get x (globals st) with
                            | Some _ => Some (State (locals st) (put x v (globals st)) (said st), None)
                            | None => None
                            end
                  end
      end
  | Say e => match eval fs st e with Some v => Some (State (locals st) (globals st) (said st ++ [v]), None) | None => None end
  | If e a b => match eval fs st e with
                | None => None
                | Some v => match exec fs (if v =? 0 then b else a) st with Some (st', r) => Some (close st st', r) | None => None end
                end
  | Scope a => match exec fs a st with Some (st', r) => Some (close st st', r) | None => None end
  | For x e a => match eval fs st e with Some n => turns (exec fs a) x (Z.to_nat n) 0 st | None => None end
  | Return e => match eval fs st e with Some v => Some (st, Some v) | None => None end
  end.
(** Names a body declares, and all names in it. *)
Fixpoint declared (s : stmt) : list name :=
  match s with
  | Seq a b | If _ a b => declared a ++ declared b
  | Decl x _ => [x] | Scope a => declared a | For x _ a => x :: declared a
  | _ => []
  end.
Fixpoint names_e (e : expr) : list name :=
  match e with Num _ => [] | Label x => [x] | Plus a b => names_e a ++ names_e b | Call f a => f :: names_e a end.
Fixpoint names_s (s : stmt) : list name :=
  match s with
  | Skip => [] | Seq a b => names_s a ++ names_s b | Decl x e | Set_ x e => x :: names_e e | Say e | Return e => names_e e
  | If e a b => names_e e ++ names_s a ++ names_s b | Scope a => names_s a | For x e a => x :: names_e e ++ names_s a
  end.
(** A function called with arguments: what it returns, the module variables and the output afterwards. *)
Definition call (fs : table (Z -> Z)) (params : list name) (body : stmt) (args : list Z) (g : table Z) : option (option Z * table Z * list Z) :=
  match exec fs body (State (combine params args) g []) with Some (st, r) => Some (r, globals st, said st) | None => None end.
