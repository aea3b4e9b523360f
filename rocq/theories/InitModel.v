(** Struct literals and new(): the check of the names of a literal
    (typechecker.c:6375-6385, 6404-6417), the C initialiser that is emitted
    (codegen.c:1601-1684), and the allocation of new() (codegen.c:2785-2843).
    Expressions are those of ArgsSpec; the types of the values, generic
    structs and the renaming of C keywords are not modelled. *)
From Verif Require Import Base ArgsSpec ArgsModel InitSpec.

Definition same (a b : bytes) : bool := if list_eq_dec Z.eq_dec a b then true else false.
(** typechecker.c:6376-6385: E2015, then 6404-6417: E3010; the codes of the errors reported *)
Fixpoint twice (seen : list bytes) (l : literal) : list Z :=
  match l with
  | [] => []
  | (x, _) :: t => (if existsb (same x) seen then [2015] else []) ++ twice (x :: seen) t
  end.
Fixpoint unknown (fs : list field) (l : literal) : list Z :=
  match l with
  | [] => []
  | (x, _) :: t => (if existsb (fun f => same (f_name f) x) fs then [] else [3010]) ++ unknown fs t
  end.
Definition check_literal (fs : list field) (l : literal) : list Z := twice [] l ++ unknown fs l.

(** The tokens between the braces of the initialiser. *)
Inductive tok := Comma | Init (x : bytes) (e : exp).
(** codegen.c:1638-1661 *)
Fixpoint emit_given (i : nat) (l : literal) : list tok :=
  match l with
  | [] => []
  | (x, e) :: t => (if (0 <? i)%nat then [Comma] else []) ++ Init x e :: emit_given (S i) t
  end.
(** codegen.c:1663-1681: i is the index of the field *)
Fixpoint emit_defaults (i : nat) (fs : list field) (l : literal) : list tok :=
  match fs with
  | [] => []
  | f :: t =>
      match f_default f with
      | None => emit_defaults (S i) t l
      | Some d =>
          if existsb (fun g => same (fst g) (f_name f)) l then emit_defaults (S i) t l
          else (if (0 <? length l)%nat || (0 <? i)%nat then [Comma] else []) ++ Init (f_name f) d :: emit_defaults (S i) t l
      end
  end.
Definition emit_literal (fs : list field) (l : literal) : list tok := emit_given 0 l ++ emit_defaults 0 fs l.

(** C: a list of designated initialisers, None when it does not parse. *)
Fixpoint items (need : bool) (ts : list tok) : option literal :=
  match ts with
  | [] => Some []
  | Comma :: t => if need then items false t else None
  | Init x e :: t => if need then None else option_map (cons (x, e)) (items true t)
  end.
(** C: the last initialiser of a member counts, the others are zero.  None: a
    name is not in scope. *)
Fixpoint member (rho : bytes -> option Z) (x : bytes) (l : literal) : option content :=
  match l with
  | [] => Some Zeros
  | (y, e) :: t =>
      match eval rho e, member rho x t with
      | Some v, Some Zeros => Some (if same y x then Val v else Zeros)
      | Some _, r => r
      | None, _ => None
      end
  end.
Fixpoint all {A} (l : list (option A)) : option (list A) :=
  match l with
  | [] => Some []
  | Some a :: t => option_map (cons a) (all t)
  | None :: _ => None
  end.
Definition run_literal (rho : bytes -> option Z) (fs : list field) (ts : list tok) : option (list content) :=
  match items false ts with
  | None => None
  | Some l => all (map (fun f => member rho (f_name f) l) fs)
  end.
(** codegen.c:2797-2841: gray_arena_alloc zeroes; arrays and maps are created, then
    the default is stored *)
Definition run_new (rho : bytes -> option Z) (fs : list field) : option (list content) :=
  let needs_init := existsb (fun f => match f_shape f, f_default f with Scalar, None => false | _, _ => true end) fs in
  if needs_init then
    all (map (fun f => match f_default f with
                       | Some d => option_map Val (eval rho d)
                       | None => Some (match f_shape f with Container => Fresh | Scalar => Zeros end)
                       end) fs)
  else Some (map (fun _ => Zeros) fs).
