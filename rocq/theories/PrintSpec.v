(** How a value is written by print and println. *)
From Verif Require Import Base Decimal.

Inductive val :=
| VInt (z : Z) | VFlt (z : Z) | VStr (s : bytes) | VBool (b : bool) | VChar (c : Z) | VPtr (a : Z)
| VArr (l : list val) | VMap (l : list (val * val)) | VRec (name : bytes) (l : list (bytes * val)).

Fixpoint join (l : list bytes) : bytes :=
  match l with [] => [] | [x] => x | x :: r => x ++ bs ", " ++ join r end.
Definition quote (q : bool) (c : Z) (s : bytes) : bytes := if q then [c] ++ s ++ [c] else s.
Definition same_name (a b : bytes) : bool := if list_eq_dec Z.eq_dec a b then true else false.

Section Spec.
(** The text of a float, of a character and of an address. *)
Context (flt chr hex : Z -> bytes).

(** The text of a value; [q]: it is a part of another value.  Every part is
    written, in order. *)
Fixpoint whole (q : bool) (v : val) : bytes :=
  match v with
  | VInt z => dec_signed z
  | VFlt z => flt z
  | VStr s => quote q 34 s
  | VBool b => if b then bs "true" else bs "false"
  | VChar c => quote q 39 (chr c)
  | VPtr a => if a =? 0 then bs "nil" else bs "0x" ++ hex a
  | VArr l => bs "{" ++ join (map (whole true) l) ++ bs "}"
  | VMap [] => bs "{:}"
  | VMap l => bs "{" ++ join (map (fun kv => whole true (fst kv) ++ bs ": " ++ whole true (snd kv)) l) ++ bs "}"
  | VRec n l => n ++ bs "{" ++ join (map (fun fv => fst fv ++ bs ": " ++ whole true (snd fv)) l) ++ bs "}"
  end.
(** The same, but a struct inside a struct of the same type is written as
    Name{...}; [path]: the structs around it. *)
Fixpoint shown (path : list bytes) (q : bool) (v : val) : bytes :=
  match v with
  | VInt z => dec_signed z
  | VFlt z => flt z
  | VStr s => quote q 34 s
  | VBool b => if b then bs "true" else bs "false"
  | VChar c => quote q 39 (chr c)
  | VPtr a => if a =? 0 then bs "nil" else bs "0x" ++ hex a
  | VArr l => bs "{" ++ join (map (shown path true) l) ++ bs "}"
  | VMap [] => bs "{:}"
  | VMap l => bs "{" ++ join (map (fun kv => shown path true (fst kv) ++ bs ": " ++ shown path true (snd kv)) l) ++ bs "}"
  | VRec n l =>
    if existsb (same_name n) path then n ++ bs "{...}"
    else n ++ bs "{" ++ join (map (fun fv => fst fv ++ bs ": " ++ shown (n :: path) true (snd fv)) l) ++ bs "}"
  end.
End Spec.

(** No struct of the value is inside a struct of the same type. *)
Fixpoint unfolded (path : list bytes) (v : val) : bool :=
  match v with
  | VArr l => forallb (unfolded path) l
  | VMap l => forallb (fun kv => unfolded path (fst kv) && unfolded path (snd kv)) l
  | VRec n l => negb (existsb (same_name n) path) && forallb (fun fv => unfolded (n :: path) (snd fv)) l
  | _ => true
  end.

(** Types, declarations, and the values of a type.  A string has no zero byte. *)
Inductive ty := TInt | TUint | TFlt | TStr | TBool | TChar | TPtr | TArr (t : ty) | TMap (k v : ty) | TNamed (n : bytes).
Definition decls := list (bytes * list (bytes * ty)).
Fixpoint fields (D : decls) (n : bytes) : option (list (bytes * ty)) :=
  match D with [] => None | (m, fs) :: D => if same_name m n then Some fs else fields D n end.
Inductive has (D : decls) : ty -> val -> Prop :=
| has_int z : in_i 64 z -> has D TInt (VInt z)
| has_uint z : in_u 64 z -> has D TUint (VInt z)
| has_flt z : has D TFlt (VFlt z)
| has_str s : ~ In 0 s -> has D TStr (VStr s)
| has_bool b : has D TBool (VBool b)
| has_char c : has D TChar (VChar c)
| has_ptr a : has D TPtr (VPtr a)
| has_arr t l : Forall (has D t) l -> has D (TArr t) (VArr l)
| has_map k v l : Forall (fun kv => has D k (fst kv) /\ has D v (snd kv)) l -> has D (TMap k v) (VMap l)
| has_rec n fs l : fields D n = Some fs -> NoDup (map fst fs) -> Forall2 (fun f fv => fst f = fst fv /\ has D (snd f) (snd fv)) fs l ->
  has D (TNamed n) (VRec n l).
