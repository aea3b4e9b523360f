(** codegen.c and typechecker.c: what a declaration or an assignment copies
    (emit_variable_declaration 7087-7565, emit_assign_statement 7568-8114,
    gray_array_set array.c:44-52), and which writes to constants the type checker
    refuses (9041-9058, 6941-6949, 2219-2247, 2698-2715, 8739-8752, 3955-3972).
    Simplified: one function body without blocks; variables are numbered in the
    order of their declarations; numbers, structs and dynamic arrays only (no
    strings, maps, pointers kept in variables, fixed-size arrays); an index is
    its value; the length of an array is kept with its elements and an append
    always takes new room; a deep copy is new room for the same value (what the
    copying code does is the subject of CopyModel). *)
From Verif Require Import Base ValueSpec.

(** array.h: a GrayArray is the address of its elements; gray.h: structs are
    values. *)
Inductive val := VNum (z : Z) | VRec (vs : list val) | VArr (b : nat).
Definition heap := list (list val).
Record state := St { vars : list val; mem : heap }.

(** array.c:24-35 gray_array_from: new room; elements from left to right. *)
Fixpoint build (t : tree) (h : heap) : val * heap :=
  match t with
  | Num z => (VNum z, h)
  | Rec ts =>
    let '(vs, h) := (fix go l h := match l with
      | [] => ([], h)
      | t :: l => let '(v, h) := build t h in let '(vs, h) := go l h in (v :: vs, h)
      end) ts h in (VRec vs, h)
  | Arr ts =>
    let '(vs, h) := (fix go l h := match l with
      | [] => ([], h)
      | t :: l => let '(v, h) := build t h in let '(vs, h) := go l h in (v :: vs, h)
      end) ts h in (VArr (length h), h ++ [vs])
  end.
(** What a value is, read in full. *)
Fixpoint view (t : ty) (h : heap) (v : val) : tree :=
  match t, v with
  | TNum, VNum z => Num z
  | TRec ts, VRec vs =>
    Rec ((fix go ts vs := match ts, vs with t :: ts, v :: vs => view t h v :: go ts vs | _, _ => [] end) ts vs)
  | TArr t, VArr b => Arr (map (view t h) (nth b h []))
  | _, _ => Num 0
  end.
(** emit_value_deep_copy, codegen.c:531-742. *)
Definition dup (t : ty) (h : heap) (v : val) : val * heap := build (view t h v) h.

(** A read of a place: members, and GRAY_ARRAY_GET (array.c:37-42), which panics
    when the index is out of range. *)
Fixpoint rd (h : heap) (v : val) (p : path) : option val :=
  match p, v with
  | [], _ => Some v
  | Fld i :: p, VRec vs => match nth_error vs i with Some u => rd h u p | None => None end
  | Idx i :: p, VArr b => match at_ (nth b h []) i with Some u => rd h u p | None => None end
  | _, _ => None
  end.
(** A write to a place; array.c:44-52 for elements. *)
Fixpoint wr (h : heap) (v : val) (p : path) (new : val) : option (val * heap) :=
  match p, v with
  | [], _ => Some (new, h)
  | Fld i :: p, VRec vs =>
    match nth_error vs i with
    | Some u => match wr h u p new with Some (u', h') => Some (VRec (put vs i u'), h') | None => None end
    | None => None
    end
  | Idx i :: p, VArr b =>
    match at_ (nth b h []) i with
    | Some u => match wr h u p new with
                | Some (u', h') => Some (VArr b, put h' b (put (nth b h' []) (Z.to_nat i) u'))
                | None => None end
    | None => None
    end
  | _, _ => None
  end.

(** codegen.c:7090-7210 and 7534-7546: whether the initial value is copied.  An
    array type that is not nested: from a variable or a field (7184-7196); a
    nested one: from a variable (7136-7162); a struct with arrays inside: from a
    variable (7534-7546); without a type nothing is copied (7338-7340). *)
Definition decl_copies (annot : bool) (t : ty) (e : expr) : bool :=
  match e with
  | Lit _ => false
  | Path _ p =>
    annot && match t with
    | TArr (TArr _) => (length p =? 0)%nat
    | TArr _ => (length p =? 0)%nat || match last p (Idx 0) with Fld _ => true | Idx _ => false end
    | _ => (length p =? 0)%nat && negb (no_arrays t)
    end
  end.
(** codegen.c:7572-7689: an element of an array is set as it is; 8023-8069:
    otherwise an array, or a struct with arrays inside, is copied. *)
Definition write_copies (t : ty) (p : path) : bool :=
  match last p (Fld 0) with
  | Idx _ => false
  | Fld _ => negb (no_arrays t)
  end.
Definition eval (s : state) (e : expr) : option (val * heap) :=
  match e with
  | Lit t => Some (build t (mem s))
  | Path x p => match nth_error (vars s) x with
                | Some v => match rd (mem s) v p with Some u => Some (u, mem s) | None => None end
                | None => None end
  end.
Definition set_place (s : state) (h : heap) (x : nat) (p : path) (new : val) : option state :=
  match nth_error (vars s) x with
  | Some v => match wr h v p new with Some (v', h') => Some (St (put (vars s) x v') h') | None => None end
  | None => None
  end.
(** One statement of the emitted program.  [g]: the types of the variables. *)
Definition exec (g : list ty) (s : state) (c : stmt) : option state :=
  match c with
  | Decl _ annot t e =>
    match eval s e with
    | Some (v, h) => let '(v, h) := if decl_copies annot t e then dup t h v else (v, h) in Some (St (vars s ++ [v]) h)
    | None => None
    end
  | Write x p e =>
    match eval s e, place_type g x p with
    | Some (v, h), Some t =>
      let '(v, h) := if write_copies t p then dup t h v else (v, h) in set_place s h x p v
    | _, _ => None
    end
  | Poke w x p z =>
    match eval s (Path x p) with
    | Some (VNum old, h) => match poked w old z with Some n => set_place s h x p (VNum n) | None => None end
    | _ => None
    end
  | Push x p t =>
    match eval s (Path x p) with
    | Some (VArr b, h) =>
      let '(v, h) := build t h in set_place s (h ++ [nth b h [] ++ [v]]) x p (VArr (length h))
    | _ => None
    end
  end.
Fixpoint runs (g : list ty) (s : state) (l : list stmt) : option state :=
  match l with
  | [] => Some s
  | c :: l => match exec g s c with Some s => runs (types_after g c) s l | None => None end
  end.
Definition start : state := St [] [].
(** What the program sees in its variables. *)
Fixpoint contents (g : list ty) (h : heap) (vs : list val) : list tree :=
  match g, vs with t :: g, v :: vs => view t h v :: contents g h vs | _, _ => [] end.

(** typechecker.c:185-209 assignment_target_root_name: the variable, however deep. *)
Definition is_const (k : list bool) (x : nat) : bool := nth x k false.
(** E3005 for assignments (typechecker.c:9041-9058): the variable, an element of
    it, a field of it.  E3005 for ++ and -- (6941-6949), E3027 (2219-2247), E5007
    (2698-2715) and E3079 (8739-8752): the variable itself.  E3122 (3966-3972):
    any depth. *)
Definition refused (k : list bool) (c : stmt) : bool :=
  match c with
  | Decl _ _ _ _ => false
  | Write x p _ | Poke Compound x p _ => is_const k x && (length p <=? 1)%nat
  | Poke (Inc | Amp | MutRef) x p _ | Push x p _ => is_const k x && (length p =? 0)%nat
  | Poke Address x p _ => is_const k x
  end.
Fixpoint checks (k : list bool) (l : list stmt) : bool :=
  match l with [] => true | c :: l => negb (refused k c) && checks (consts_after k c) l end.
