(** Renaming of the names of an imported module (main.c:353-531 rewrite_labels,
    main.c:1268-1281 the table of names, main.c:1335-1381 and 1398-1400 the
    merged declarations), on the language of RenameSpec: labels, sums, calls,
    declarations, assignments, conditions, blocks, loops and return.  Types are
    in C97.  Functions of the module are renamed as its variables are; here
    they are given by what they compute. *)
From Verif Require Import Base RenameSpec.

Definition prefixed (m x : name) : name := m ++ bs "_" ++ x.
(** main.c:1275-1281: at most 256 names *)
Definition mapping (m : name) (tops : list name) : table name := map (fun x => (x, prefixed m x)) (firstn 256 tops).
(** The first entry of the table for a name, else the name (main.c:356-361) *)
Definition rename (t : table name) (x : name) : name := match get x t with Some y => y | None => x end.
Fixpoint rewrite_e (t : table name) (e : expr) : expr :=
  match e with
  | Num z => Num z
  | Label x => Label (rename t x)
  | Plus a b => Plus (rewrite_e t a) (rewrite_e t b)
  | Call f a => Call (rename t f) (rewrite_e t a)
  end.
(** Names in declarations and of loop variables stay (main.c:383-393, 430-437) *)
Fixpoint rewrite_s (t : table name) (s : stmt) : stmt :=
  match s with
  | Skip => Skip
  | Seq a b => Seq (rewrite_s t a) (rewrite_s t b)
  | Decl x e => Decl x (rewrite_e t e)
  | Set_ x e => Set_ (rename t x) (rewrite_e t e)
  | Say e => Say (rewrite_e t e)
  | If e a b => If (rewrite_e t e) (rewrite_s t a) (rewrite_s t b)
  | Scope a => Scope (rewrite_s t a)
  | For x e a => For x (rewrite_e t e) (rewrite_s t a)
  | Return e => Return (rewrite_e t e)
  end.
(** The merged declarations have prefixed names, whether in the table or not (main.c:1345, 1353, 1398) *)
Definition merged {A} (m : name) (own : list name) (t : table A) : table A :=
  map (fun p => (if existsb (fun x => if list_eq_dec Z.eq_dec x (fst p) then true else false) own then prefixed m (fst p) else fst p, snd p)) t.
(** Each variable is inserted before those merged so far (main.c:1360-1380) *)
Fixpoint insert_all {A} (vars program : list A) : list A := match vars with [] => program | v :: t => insert_all t (v :: program) end.
