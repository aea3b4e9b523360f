(** What a copy of a value is: the same contents in memory of its own. *)
From Verif Require Import Base TypesModel TypesSpec.

(** A piece of memory: the arena it was taken from and its number there. *)
Definition block := (Z * Z)%type.
(** Values as they lie in memory.  Strings, arrays and maps are headers that
    lead to a block; structs and enums lie in place; a pointer or a function
    owns nothing; an [Error] is a block that holds two strings. *)
Inductive val :=
| VBits (n : Z)
| VPtr (p : Z)
| VStr (b : block) (s : bytes)
| VArr (b : block) (l : list val)
| VMap (b : block) (l : list (val * val))
| VRec (l : list (bytes * val))
| VTag (n : Z) (l : list val)
| VErr (b : block) (l : list val).

(** The blocks a value consists of.  What a pointer leads to is not part of it. *)
Fixpoint owned (v : val) : list block :=
  match v with
  | VBits _ | VPtr _ => []
  | VStr b _ => [b]
  | VArr b l | VErr b l => b :: flat_map owned l
  | VMap b l => b :: flat_map (fun e => owned (fst e) ++ owned (snd e)) l
  | VRec l => flat_map (fun e => owned (snd e)) l
  | VTag _ l => flat_map owned l
  end.
(** What a program reads from a value: everything but the addresses. *)
Fixpoint content (v : val) : val :=
  match v with
  | VBits n => VBits n
  | VPtr p => VPtr p
  | VStr _ s => VStr (0, 0) s
  | VArr _ l => VArr (0, 0) (map content l)
  | VMap _ l => VMap (0, 0) (map (fun e => (content (fst e), content (snd e))) l)
  | VRec l => VRec (map (fun e => (fst e, content (snd e))) l)
  | VTag n l => VTag n (map content l)
  | VErr _ l => VErr (0, 0) (map content l)
  end.
Definition block_eqb (a b : block) : bool := (fst a =? fst b) && (snd a =? snd b).
(** The value after block [b] has been written over, so that it reads as [x]
    there: every value that holds the block changes with it. *)
Fixpoint overwritten (b : block) (x : val) (v : val) : val :=
  match v with
  | VBits _ | VPtr _ => v
  | VStr c _ => if block_eqb b c then x else v
  | VArr c l => if block_eqb b c then x else VArr c (map (overwritten b x) l)
  | VMap c l => if block_eqb b c then x else VMap c (map (fun e => (overwritten b x (fst e), overwritten b x (snd e))) l)
  | VRec l => VRec (map (fun e => (fst e, overwritten b x (snd e))) l)
  | VTag n l => VTag n (map (overwritten b x) l)
  | VErr c l => if block_eqb b c then x else VErr c (map (overwritten b x) l)
  end.

(** The declared structs, with the names and types of their fields, and the
    declared enums some variant of which carries values, with the types that
    each variant carries. *)
Record program := Prog { structs : list (bytes * list (bytes * ty)); enums : list (bytes * list (list ty)) }.
(** The struct declarations as the code generator has them, with the texts of
    the types. *)
Definition texts (p : program) : list (bytes * list (bytes * bytes)) :=
  map (fun s => (fst s, map (fun f => (fst f, show (snd f))) (snd s))) (structs p).
Fixpoint lookup {A} (n : bytes) (l : list (bytes * A)) : option A :=
  match l with
  | [] => None
  | (m, a) :: l => if list_eq_dec Z.eq_dec m n then Some a else lookup n l
  end.
(** A map's key is a string, or something that is stored in place. *)
Inductive holds_key : bytes -> val -> Prop :=
| k_string b s : holds_key (bs "string") (VStr b s)
| k_bits k z : k <> bs "string" -> holds_key k (VBits z).
(** The value [v] is one of type [t]. *)
Inductive holds (p : program) : ty -> val -> Prop :=
| h_string b s : holds p (TName (bs "string")) (VStr b s)
| h_error b c s d m : holds p (TName (bs "Error")) (VErr b [VStr c s; VStr d m])
| h_nil : holds p (TName (bs "Error")) (VPtr 0)
| h_struct n fs l : n <> bs "string" -> n <> bs "Error" -> lookup n (structs p) = Some fs ->
    Forall2 (fun f x => fst f = fst x /\ holds p (snd f) (snd x)) fs l -> holds p (TName n) (VRec l)
| h_enum n vs i ts l : n <> bs "string" -> n <> bs "Error" -> lookup n (structs p) = None -> lookup n (enums p) = Some vs ->
    nth_error vs (Z.to_nat i) = Some ts -> Forall2 (holds p) ts l -> holds p (TName n) (VTag i l)
| h_bits n z : n <> bs "string" -> n <> bs "Error" -> lookup n (structs p) = None -> lookup n (enums p) = None ->
    holds p (TName n) (VBits z)
| h_ptr t a : holds p (TPtr t) (VPtr a)
| h_func ps r a : holds p (TFunc ps r) (VPtr a)
| h_arr e b l : Forall (holds p e) l -> holds p (TArr e) (VArr b l)
| h_fix e z b l : Forall (holds p e) l -> holds p (TFix e z) (VArr b l)
| h_map k v b l : Forall (fun x => holds_key k (fst x) /\ holds p v (snd x)) l -> holds p (TMap k v) (VMap b l).

(** No array in [t] has a size, and [t] has no function type. *)
Fixpoint sizeless (t : ty) : Prop :=
  match t with
  | TName _ => True
  | TPtr t | TArr t | TMap _ t => sizeless t
  | TFix _ _ | TFunc _ _ => False
  end.
(** The name of a type whose values lie in place. *)
Definition in_place (p : program) (n : bytes) : Prop :=
  n <> bs "string" /\ n <> bs "Error" /\ lookup n (structs p) = None /\ lookup n (enums p) = None.
(** The element types of arrays for which copying works: no array with a size
    inside, except one of things that lie in place. *)
Definition fine_element (p : program) (e : ty) : Prop :=
  match e with
  | TPtr _ | TFunc _ _ => True
  | TFix (TName n) z => in_place p n
  | _ => sizeless e
  end.
(** The types for which copying works: those without an [Error] or an enum that
    carries values, and with array elements as above. *)
Fixpoint copyable (p : program) (t : ty) : Prop :=
  match t with
  | TName n => n <> bs "Error" /\ lookup n (enums p) = None
  | TPtr _ | TFunc _ _ => True
  | TArr e | TFix e _ => fine_element p e /\ copyable p e
  | TMap k v => Z.of_nat (length k) < 128 /\ copyable p v
  end.
(** The names of the types whose values lie inside a value of type [t]. *)
Fixpoint inside (t : ty) : list bytes :=
  match t with
  | TName n => [n]
  | TPtr _ | TFunc _ _ => []
  | TArr e | TFix e _ => inside e
  | TMap _ v => inside v
  end.
Definition short (t : ty) : Prop := Z.of_nat (length (show t)) < 256.
(** Structs for which copying works: no struct lies inside itself, at most 64
    are nested, and the field types are those above. *)
Definition fine_program (p : program) (rank : bytes -> nat) : Prop :=
  forall n fs, In (n, fs) (structs p) -> word n /\ n <> bs "string" /\ (rank n < 64)%nat /\ NoDup (map fst fs) /\
    forall f t, In (f, t) fs -> wf t /\ short t /\ copyable p t /\ forall m, In m (inside t) -> (rank m < rank n)%nat.

(** [w] is a copy of [v], in arena [a]: it reads the same, lies in [a], and a
    change of either, at any place, leaves the other as it is. *)
Definition deep_copy (a : Z) (v w : val) : Prop :=
  content w = content v /\ (forall b, In b (owned w) -> fst b = a) /\
  (forall b x, In b (owned v) -> overwritten b x w = w) /\
  (forall b x, In b (owned w) -> overwritten b x v = v).
(** The type descriptor [g] of an expression says that it is an array, a map or
    a struct of type [t]. *)
Definition describes (p : program) (g : gtype) (t : ty) : Prop :=
  match t with
  | TArr e | TFix e _ => kind g = KArray /\ element_type g = Some (show e)
  | TMap k v => kind g = KMap /\ key_type g = Some k /\ value_type g = Some (show v)
  | TName n => kind g = KStruct /\ name g = n /\ lookup n (structs p) <> None
  | _ => False
  end.
