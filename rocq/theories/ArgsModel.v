(** Named arguments and default parameters: the arguments of a call put in
    the order of the parameters, the count of the arguments, and the C call
    that is emitted (typechecker.c:1369-1483 and 4517-4547, codegen.c:6826-6910).
    Expressions are numbers, names and sums; the types of the arguments, the
    narrowing casts, type parameters and &-parameters are not modelled, nor
    is the renaming of C keywords (NameModel has it). *)
From Verif Require Import Base ArgsSpec.

(** What the type checker makes of a call.  Overread: a slot beyond the array is
    read; Crash: a NULL argument is dereferenced (typechecker.c:4690). *)
Inductive verdict := Reject (code : Z) | Overread | Crash | Accept (slots : list exp).

(** typechecker.c:1379-1383 *)
Definition any_named (args : list arg) : bool := existsb (fun a => match fst a with Some _ => true | None => false end) args.
(** typechecker.c:1386-1401 *)
Fixpoint ordered (seen : bool) (args : list arg) : bool :=
  match args with
  | [] => true
  | (Some _, _) :: t => ordered true t
  | (None, _) :: t => if seen then false else ordered seen t
  end.
(** typechecker.c:1413-1424: positional_count, and the slots it fills *)
Fixpoint lead (args : list arg) : nat := match args with (None, _) :: t => S (lead t) | _ => O end.
Definition start (ps : list param) (args : list arg) : list (option exp) :=
  map (fun i => if (i <? lead args)%nat then option_map snd (nth_error args i) else None) (seq 0 (length ps)).
(** typechecker.c:1430-1435: the first parameter of that name *)
Fixpoint find_slot (ps : list param) (n : bytes) : option nat :=
  match ps with
  | [] => None
  | p :: ps => if list_eq_dec Z.eq_dec (p_name p) n then Some O else option_map S (find_slot ps n)
  end.
Fixpoint set_nth {A} (k : nat) (x : A) (l : list A) : list A :=
  match l, k with
  | [], _ => []
  | _ :: t, O => x :: t
  | y :: t, S k => y :: set_nth k x t
  end.
(** typechecker.c:1427-1460: the named ones; inl is the code of the error *)
Fixpoint place (ps : list param) (slots : list (option exp)) (rest : list arg) : Z + list (option exp) :=
  match rest with
  | [] => inr slots
  | (None, _) :: t => place ps slots t
  | (Some n, e) :: t =>
      match find_slot ps n with
      | None => inl 5031
      | Some k => match nth k slots None with
                  | Some _ => inl 5032
                  | None => place ps (set_nth k (Some e) slots) t
                  end
      end
  end.
(** typechecker.c:1464-1467 *)
Fixpoint last_filled (slots : list (option exp)) : nat :=
  match slots with
  | [] => O
  | s :: t => match last_filled t with
              | O => match s with Some _ => 1%nat | None => O end
              | n => S n
              end
  end.
(** typechecker.c:1471-1475 *)
Fixpoint gaps (ps : list param) (slots : list (option exp)) : list (option exp) :=
  match ps, slots with
  | p :: ps, s :: t => match s with Some e => Some e | None => p_default p end :: gaps ps t
  | _, _ => []
  end.
(** typechecker.c:4521-4528 *)
Definition min_args (ps : list param) : nat :=
  length (filter (fun p => match p_default p with None => true | Some _ => false end) ps).
(** the arguments when none is NULL *)
Fixpoint whole (l : list (option exp)) : option (list exp) :=
  match l with
  | [] => Some []
  | Some e :: t => option_map (cons e) (whole t)
  | None :: _ => None
  end.
(** typechecker.c:4529-4547: the count; 4666-4690: every argument is looked at,
    whether or not the count was wrong *)
Definition count (ps : list param) (slots : list (option exp)) : verdict :=
  match whole (firstn (length ps) slots) with
  | None => Crash
  | Some es => if (length slots <? min_args ps)%nat || (length ps <? length slots)%nat then Reject 5008 else Accept es
  end.
(** typechecker.c:1371-1483, then the count *)
Definition check (ps : list param) (args : list arg) : verdict :=
  if any_named args then
    if ordered false args then
      match place ps (start ps args) (skipn (lead args) args) with
      | inl c => Reject c
      | inr slots =>
          let filled := Nat.max (last_filled slots) (lead args) in
          if (length ps <? filled)%nat then Overread
          else count ps (firstn filled (gaps ps slots))
      end
    else Reject 5033
  else count ps (map (fun a => Some (snd a)) args).

(** The C text of a call: the arguments pasted, or a block that first declares
    locals named after the parameters.  codegen.c:6835-6858, 6863-6910 and
    6914-6985 *)
Inductive ccall := Paste (es : list exp) | Block (locals : list (bytes * exp)) (es : list exp).
Definition emit_call (ps : list param) (slots : list exp) : ccall :=
  let rest := skipn (length slots) ps in
  if existsb (fun p => match p_default p with Some _ => true | None => false end) rest
  then Block (combine (map p_name (firstn (length slots) ps)) slots)
             (map (fun p => Var (p_name p)) (firstn (length slots) ps) ++
              map (fun p => match p_default p with Some d => d | None => Num 0 end) rest)
  else Paste (slots ++ map (fun _ => Num 0) rest).

(** C: a name is not in scope, holds an indeterminate value, or a value. *)
Inductive cell := Absent | Junk | Has (v : Z).
Fixpoint ceval (rho : bytes -> cell) (e : exp) : cell :=
  match e with
  | Num z => Has z
  | Var x => rho x
  | Plus a b => match ceval rho a, ceval rho b with
                | Absent, _ | _, Absent => Absent
                | Junk, _ | _, Junk => Junk
                | Has u, Has v => Has (u + v)
                end
  end.
Definition bind (rho : bytes -> cell) (x : bytes) (c : cell) : bytes -> cell :=
  fun y => if list_eq_dec Z.eq_dec x y then c else rho y.
(** T x = e; the scope of x begins before its initializer (C11 6.2.1p7). *)
Fixpoint locals (rho : bytes -> cell) (l : list (bytes * exp)) : list cell * (bytes -> cell) :=
  match l with
  | [] => ([], rho)
  | (x, e) :: t =>
      let c := ceval (bind rho x Junk) e in
      let r := locals (bind rho x c) t in
      (c :: fst r, snd r)
  end.
Inductive outcome := NoCompile | Garbage | Passed (vs : list Z).
Definition has_absent (l : list cell) : bool := existsb (fun c => match c with Absent => true | _ => false end) l.
Fixpoint values (l : list cell) : option (list Z) :=
  match l with
  | [] => Some []
  | Has v :: t => option_map (cons v) (values t)
  | _ => None
  end.
(** What the C call passes, where the names mean rho. *)
Definition crun (rho : bytes -> option Z) (c : ccall) : outcome :=
  let env x := match rho x with Some v => Has v | None => Absent end in
  let (ls, cs) := match c with
                  | Paste es => ([], map (ceval env) es)
                  | Block l es => let r := locals env l in (fst r, map (ceval (snd r)) es)
                  end in
  if has_absent ls || has_absent cs then NoCompile
  else match values ls, values cs with Some _, Some vs => Passed vs | _, _ => Garbage end.
