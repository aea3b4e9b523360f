(** Model of grayc/src/typechecker/scope.c (whole file) and scope.h: the type
    checker's symbol table, a chain of scopes each holding an array of symbols
    and an open-addressing hash table over it.
    Simplified: names are the bytes of NUL-free C strings, a [GrayType] pointer
    is a number, the fields of [Symbol] other than [name], [type] and [mutable]
    are one value [attrs] (0 when zeroed), [xmalloc] does not fail, and the
    chain of parents is the list of scopes, innermost first. *)
From Verif Require Import Base LexModel MapModel ProbeModel.

(** scope.h:15-40 *)
Record symbol := Sym { sname : bytes; stype : Z; smutable : bool; attrs : Z }.
(** scope.h:42-54; [table] is [hash[0..hash_cap)], [] when [hash] is null. *)
Record scope := Scope { symbols : list symbol; table : list (option (bytes * nat)) }.
Definition count (s : scope) : Z := Z.of_nat (length (symbols s)).
Definition hash_cap (s : scope) : Z := Z.of_nat (length (table s)).

(** scope.c:18-23 *)
Definition scope_str_hash (s : bytes) : Z := mix33 5381 s.
(** scope.c:25-36; [symbols[idx].name] outside the array is undefined, a full
    table makes the loop endless ([NoFuel]). *)
Definition hash_insert (syms : list symbol) (t : list (option (bytes * nat))) (idx : nat) : res (list (option (bytes * nat))) :=
  match nth_error syms idx with
  | None => UB
  | Some y =>
      match probe_from (fun _ => false) t (scope_str_hash (sname y)) with
      | None => NoFuel
      | Some h => Ok (put t h (sname y, idx))
      end
  end.
(** scope.c:38-44 *)
Definition hash_rebuild (syms : list symbol) (new_cap : Z) : res (list (option (bytes * nat))) :=
  fold_left (fun r i => rbind r (fun t => hash_insert syms t i)) (seq 0 (length syms)) (Ok (repeat None (Z.to_nat new_cap))).
(** scope.c:46-51 *)
Definition scope_create : scope := Scope [] [].

(** scope.c:117-122: the fallback for a scope without a table *)
Fixpoint scan (syms : list symbol) (name : bytes) (i : nat) : option nat :=
  match syms with
  | [] => None
  | y :: r => if strcmp (sname y) name =? 0 then Some i else scan r name (S i)
  end.
(** scope.c:105-124: the index of the symbol found *)
Definition lookup_local (s : scope) (name : bytes) : res (option nat) :=
  match table s with
  | [] => Ok (scan (symbols s) name 0)
  | t =>
      match probe_from (fun e => strcmp (fst e) name =? 0) t (scope_str_hash name) with
      | None => NoFuel
      | Some h =>
          match slot t h with
          | None => Ok None
          | Some e => if (snd e <? length (symbols s))%nat then Ok (Some (snd e)) else UB
          end
      end
  end.
(** scope.c:67-69 *)
Fixpoint grow_cap (fuel : nat) (new_count c : Z) : res Z :=
  match fuel with
  | O => NoFuel
  | S fuel => if c <? new_count * 2 then if INT32_MAX <? c * 2 then UB else grow_cap fuel new_count (c * 2) else Ok c
  end.
(** scope.c:53-82 *)
Definition scope_define (s : scope) (name : bytes) (type : Z) (mutable : bool) : res scope :=
  rbind (lookup_local s name) (fun existing =>
  match existing with
  | Some i =>
      match nth_error (symbols s) i with
      | None => UB
      | Some y => Ok (Scope (set_nth i (Sym (sname y) type mutable (attrs y)) (symbols s)) (table s))
      end
  | None =>
      let new_count := count s + 1 in
      if INT32_MAX <? new_count * 2 then UB else
      rbind (if (hash_cap s =? 0) || (hash_cap s <? new_count * 2) then
               if INT32_MAX <? hash_cap s * 2 then UB else
               rbind (grow_cap 32 new_count (if hash_cap s =? 0 then 16 else hash_cap s * 2)) (fun c =>
               hash_rebuild (symbols s) c)
             else Ok (table s)) (fun t =>
      let syms := symbols s ++ [Sym name type mutable 0] in
      rmap (Scope syms) (hash_insert syms t (length (symbols s))))
  end).
(** scope.c:84-90: the scope (counted from the innermost) and the symbol found *)
Fixpoint scope_lookup (l : list scope) (name : bytes) : res (option (nat * nat)) :=
  match l with
  | [] => Ok None
  | s :: r =>
      rbind (lookup_local s name) (fun o =>
      match o with
      | Some i => Ok (Some (O, i))
      | None => rmap (option_map (fun p => (S (fst p), snd p))) (scope_lookup r name)
      end)
  end.
(** The symbol behind the returned pointer. *)
Definition deref (l : list scope) (p : nat * nat) : option symbol :=
  match nth_error l (fst p) with Some s => nth_error (symbols s) (snd p) | None => None end.
(** An assignment of [attrs] through a pointer returned by [scope_lookup], as in
    [sym->used = true] (typechecker.c). *)
Definition assign (l : list scope) (p : nat * nat) (a : Z) : list scope :=
  match nth_error l (fst p), deref l p with
  | Some s, Some y => set_nth (fst p) (Scope (set_nth (snd p) (Sym (sname y) (stype y) (smutable y) a) (symbols s)) (table s)) l
  | _, _ => l
  end.

(** What the type checker does with its scopes: [scope_create(current)],
    [scope_destroy(current)] and return to the parent, [scope_define(current)],
    and an assignment to a looked-up symbol. *)
Inductive op := Enter | Leave | Define (name : bytes) (type : Z) (mutable : bool) | Mark (name : bytes) (a : Z).
Definition step (l : list scope) (o : op) : res (list scope) :=
  match o with
  | Enter => Ok (scope_create :: l)
  | Leave => match l with [] => UB | _ :: r => Ok r end
  | Define n t m => match l with [] => UB | s :: r => rmap (fun s => s :: r) (scope_define s n t m) end
  | Mark n a => rmap (fun o => match o with Some p => assign l p a | None => l end) (scope_lookup l n)
  end.
Definition run (l : list scope) (os : list op) : res (list scope) := fold_left (fun r o => rbind r (fun l => step l o)) os (Ok l).
(** What a lookup tells its caller. *)
Definition found (l : list scope) (name : bytes) : res (option symbol) :=
  rmap (fun o => match o with Some p => deref l p | None => None end) (scope_lookup l name).
