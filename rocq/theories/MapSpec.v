(** The dictionary a map should be: a list of key/value pairs in order of first insertion. *)
From Verif Require Import Base MapModel.

Section Dict.
Context {K V : Type} (keq : K -> K -> bool).
Fixpoint d_get (d : list (K * V)) (k : K) : option V :=
  match d with
  | [] => None
  | (k', v) :: d => if keq k' k then Some v else d_get d k
  end.
(** overwrite in place, or append *)
Fixpoint d_set (d : list (K * V)) (k : K) (v : V) : list (K * V) :=
  match d with
  | [] => [(k, v)]
  | (k', w) :: d => if keq k' k then (k', v) :: d else (k', w) :: d_set d k v
  end.
Fixpoint d_remove (d : list (K * V)) (k : K) : list (K * V) :=
  match d with
  | [] => []
  | (k', w) :: d => if keq k' k then d else (k', w) :: d_remove d k
  end.
Definition present (d : list (K * V)) (k : K) : bool := match d_get d k with Some _ => true | None => false end.
Definition d_step (d : list (K * V)) (o : op K V) : list (K * V) * obs K V :=
  match o with
  | OSet k v => (d_set d k v, Nothing)
  | ORemove k => (d_remove d k, Flag (present d k))
  | OClear => ([], Nothing)
  | OGet k => (d, Value (d_get d k))
  | OHas k => (d, Flag (present d k))
  | OLen => (d, Num (Z.of_nat (length d)))
  | OEntries => (d, Listing d)
  end.
Fixpoint d_run (d : list (K * V)) (l : list (op K V)) : list (K * V) * list (obs K V) :=
  match l with
  | [] => (d, [])
  | o :: l => let (d', x) := d_step d o in let (e, xs) := d_run d' l in (e, x :: xs)
  end.
End Dict.

(** What the key comparison and the hash must satisfy. *)
Definition good_keys {K} (keq : K -> K -> bool) (hsh : K -> Z) : Prop :=
  (forall a, keq a a = true) /\
  (forall a b, keq a b = keq b a) /\
  (forall a b c, keq a b = true -> keq b c = true -> keq a c = true) /\
  (forall a b, keq a b = true -> hsh a = hsh b).

(** Loops over the map that are running after a history, and the by-name ones among them. *)
Definition running {K V} (l : list (iev K V)) : Z :=
  fold_left (fun n e => match e with BeginName | BeginCopy => n + 1 | EndName | EndCopy | ReturnOut => n - 1 | Do _ => n end) l 0.
(** A history that loops over variables only and leaves no loop by return. *)
Definition plain_loops {K V} (l : list (iev K V)) : Prop :=
  forall e, In e l -> e <> BeginCopy /\ e <> EndCopy /\ e <> ReturnOut.
