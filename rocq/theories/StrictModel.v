(** when on an enum: the checks of its branches (typechecker.c:10523-10575) and
    of exhaustiveness under #strict (typechecker.c:10654-10728), and the
    emitted conditions (codegen.c:9034-9136).  Enums of other modules, and
    values of branches other than variants, patterns and integer literals, are
    not modelled; duplicate integer branches (E2043) are left out. *)
From Verif Require Import Base LitSpec EnumSpec EnumModel StrictSpec.

Definition enum_named (es : list enum) (x : bytes) : option enum := List.find (fun e => same (e_name e) x) es.
Definition variant_named (e : enum) (x : bytes) : option variant := List.find (fun v => same (v_name v) x) (e_variants e).
(** typechecker.c:6145-6163, 2180-2209, 10528-10562; a name that is no enum is an error of its own, 4002 here *)
Definition check_pat (es : list enum) (e : enum) (p : pat) : list Z :=
  match p with
  | Member en x => match enum_named es en with Some d => match variant_named d x with Some _ => [] | None => [3047] end | None => [4002] end
  | Implicit x => match variant_named e x with Some _ => [] | None => [3047] end
  | Pattern x k => match variant_named e x with Some v => if (v_payload v =? S k)%nat then [] else [3116] | None => [3047] end
  | Number _ => []
  end.
(** typechecker.c:10656-10676: the enum whose variants are to be covered *)
Definition inferred (es : list enum) (e : enum) (p : pat) : option bytes :=
  match p with
  | Member en _ => match enum_named es en with Some _ => Some en | None => None end
  | Implicit x => match variant_named e x with Some _ => Some (e_name e) | None => None end
  | Pattern _ _ => Some (e_name e)
  | Number _ => None
  end.
Fixpoint first_some {A B} (f : A -> option B) (l : list A) : option B :=
  match l with [] => None | a :: t => match f a with Some b => Some b | None => first_some f t end end.
(** typechecker.c:10693-10716 *)
Definition covered (ps : list pat) (i : nat) (v : variant) : bool :=
  existsb (fun p => match p with Member _ x | Implicit x | Pattern x _ => same x (v_name v) | Number n => n =? Z.of_nat i end) ps.
Fixpoint uncovered (ps : list pat) (i : nat) (vs : list variant) : list Z :=
  match vs with [] => [] | v :: t => (if covered ps i v then [] else [3056]) ++ uncovered ps (S i) t end.
Definition check_strict (es : list enum) (e : enum) (cases : list (list pat)) : list Z :=
  match first_some (inferred es e) (concat cases) with
  | Some x => match enum_named es x with Some d => uncovered (concat cases) 0 (e_variants d) | None => [] end
  | None => [3056]
  end.
Definition check_when (es : list enum) (e : enum) (cases : list (list pat)) : list Z :=
  flat_map (check_pat es e) (concat cases) ++ check_strict es e cases.

(** The right side of a comparison; None: C rejects it *)
Definition constant_of (g : env) (x : bytes) : option value := match find x g with Some c => read c | None => None end.
Definition right (es : list enum) (g : env) (e : enum) (p : pat) : option value :=
  match p with
  | Pattern x _ => if is_tagged e then constant_of g (tag_ident (e_name e) x) else None
  | Member en x => if is_tagged e then constant_of g (tag_ident (e_name e) x)
                   else match enum_named es en with Some d => if is_tagged d then None else constant_of g (ident en x) | None => None end
  | Implicit x => if is_tagged e then constant_of g (tag_ident (e_name e) x) else constant_of g (ident (e_name e) x)
  | Number n => Some (Int n)
  end.
(** codegen.c:9074-9134 *)
Definition test (es : list enum) (g : env) (e : enum) (x : value) (p : pat) : option bool :=
  match right es g e p, x with
  | Some (Int a), Int b => Some (a =? b)
  | Some (Text a), Text b => Some (same a b)
  | _, _ => None
  end.
(** The number of the branch that runs for the subject x, None for none of them; the whole is None when C rejects a test *)
Fixpoint all_some {A} (l : list (option A)) : option (list A) :=
  match l with [] => Some [] | Some a :: t => option_map (cons a) (all_some t) | None :: _ => None end.
Fixpoint first_true (i : nat) (l : list (list bool)) : option nat :=
  match l with [] => None | bs :: t => if existsb (fun b => b) bs then Some i else first_true (S i) t end.
Definition run_strict (es : list enum) (g : env) (e : enum) (cases : list (list pat)) (x : value) : option (option nat) :=
  option_map (first_true 0) (all_some (map (fun vs => all_some (map (test es g e x) vs)) cases)).
