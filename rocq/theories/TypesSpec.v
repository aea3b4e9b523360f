(** The text of a type, and which types are well formed. *)
From Verif Require Import Base TypesModel.

Fixpoint commas (l : list bytes) : bytes :=
  match l with
  | [] => []
  | [x] => x
  | x :: r => x ++ [44] ++ commas r
  end.
(** [int], [^T], [[T]], [[T,3]], [map[K:V]], [func(A,&B)->R], [func(A)->(R,S)],
    without blanks. *)
Fixpoint show (t : ty) : bytes :=
  match t with
  | TName n => n
  | TPtr t => [94] ++ show t
  | TArr t => [91] ++ show t ++ [93]
  | TFix t size => [91] ++ show t ++ [44] ++ size ++ [93]
  | TMap k v => bs "map[" ++ k ++ [58] ++ show v ++ [93]
  | TFunc params r => bs "func(" ++ commas (map (fun p => (if fst p : bool then [38] else []) ++ show (snd p)) params) ++ [41] ++ show_ret r
  end
with show_ret (r : ret) : bytes :=
  match r with
  | RNone => []
  | ROne t => bs "->" ++ show t
  | RMany ts => bs "->(" ++ commas (map show ts) ++ [41]
  end.
(** The return types. *)
Definition returns (r : ret) : list ty := match r with RNone => [] | ROne t => [t] | RMany ts => ts end.
(** Names, sizes and map keys are words. *)
Definition word_char (c : Z) : Prop := 48 <= c <= 57 \/ 65 <= c <= 90 \/ 97 <= c <= 122 \/ c = 95 \/ c = 63.
Definition word (n : bytes) : Prop := n <> [] /\ Forall word_char n.
Inductive wf : ty -> Prop :=
| w_name n : word n -> wf (TName n)
| w_ptr t : wf t -> wf (TPtr t)
| w_arr t : wf t -> wf (TArr t)
| w_fix t z : wf t -> word z -> wf (TFix t z)
| w_map k v : word k -> wf v -> wf (TMap k v)
| w_func ps r : Forall (fun p => wf (snd p)) ps -> wf_ret r -> wf (TFunc ps r)
with wf_ret : ret -> Prop :=
| w_none : wf_ret RNone
| w_one t : wf t -> wf_ret (ROne t)
| w_many ts : ts <> [] -> Forall wf ts -> wf_ret (RMany ts).
(** No function type in [t] returns one single type whose text is longer than
    the parser's buffer. *)
Inductive fits : ty -> Prop :=
| f_name n : fits (TName n)
| f_ptr t : fits t -> fits (TPtr t)
| f_arr t : fits t -> fits (TArr t)
| f_fix t z : fits t -> fits (TFix t z)
| f_map k v : fits v -> fits (TMap k v)
| f_func ps r : Forall (fun p => fits (snd p)) ps -> fits_ret r -> fits (TFunc ps r)
with fits_ret : ret -> Prop :=
| f_none : fits_ret RNone
| f_one t : fits t -> Z.of_nat (length (show t)) < 256 -> fits_ret (ROne t)
| f_many ts : Forall fits ts -> fits_ret (RMany ts).
