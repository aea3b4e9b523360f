(** Model of grayc/src/runtime/map.c (hash map with linear probing, tombstones and an
    insertion-order array) and grayc/src/stdlib/maps.c.

    The functions are generic in the key type [K], its equality [keq] and its hash [hsh];
    the four instances the C code has (hash_key / keys_equal on key_kind) are at the end.
    Capacities and slot numbers are natural numbers; the three int32_t computations that
    can overflow (count * 4, capacity * 3, capacity * 2) are guarded by [UB].  The probe
    index idx + i is below 2 * capacity and cannot overflow while capacity <= 2^30. *)
From Verif Require Import Base.

(** states[] together with keys[] and values[]: 0 = empty, 1 = occupied, 2 = tombstone *)
Inductive slot (K V : Type) := Empty | Occ (k : K) (v : V) | Tomb.
Arguments Empty {K V}. Arguments Occ {K V} k v. Arguments Tomb {K V}.
(** map.h:30-42.  capacity = length slots; order_len = length order; the C order array has
    [capacity] entries. *)
Record gmap (K V : Type) := mkmap {
  slots : list (slot K V); order : list nat; count : Z; iterating : Z }.
Arguments mkmap {K V}. Arguments slots {K V}. Arguments order {K V}. Arguments count {K V}. Arguments iterating {K V}.

Definition MIN_CAP : nat := 8.
Fixpoint set_nth {A} (n : nat) (x : A) (l : list A) : list A :=
  match l, n with
  | [], _ => []
  | _ :: l, O => x :: l
  | y :: l, S n => y :: set_nth n x l
  end.

Section Map.
Context {K V : Type} (keq : K -> K -> bool) (hsh : K -> Z).

Definition capacity (m : gmap K V) : nat := length (slots m).
Definition slot_at (m : gmap K V) (p : nat) : slot K V := nth p (slots m) Empty.
(** map.c:119-136 *)
Definition map_new (initial_cap : nat) : gmap K V :=
  let cap := if (initial_cap <? MIN_CAP)%nat then MIN_CAP else initial_cap in
  mkmap (repeat Empty cap) [] 0 0.
(** hash % capacity *)
Definition home (m : gmap K V) (k : K) : nat := Z.to_nat (hsh k mod Z.of_nat (capacity m)).
Definition probe_at (m : gmap K V) (k : K) (i : nat) : nat := Nat.modulo (home m k + i) (capacity m).
(** map.c:145-156.  [n]: iterations left, [i]: loop variable. *)
Fixpoint find_loop (m : gmap K V) (k : K) (n i : nat) : option nat :=
  match n with
  | O => None
  | S n =>
      let p := probe_at m k i in
      match slot_at m p with
      | Empty => None
      | Occ k' _ => if keq k' k then Some p else find_loop m k n (S i)
      | Tomb => find_loop m k n (S i)
      end
  end.
Definition find_slot (m : gmap K V) (k : K) : option nat := find_loop m k (capacity m) 0.
(** map.c:188-192; 244-246 *)
Definition map_get (m : gmap K V) (k : K) : option V :=
  match find_slot m k with
  | Some p => match slot_at m p with Occ _ v => Some v | _ => None end
  | None => None
  end.
Definition map_has (m : gmap K V) (k : K) : bool := match find_slot m k with Some _ => true | None => false end.

(** Filling slot p: memcpy key and value, states[p] = 1, order[order_len++] = p, count++.
    The order array has room for [capacity] entries. *)
Definition fill (m : gmap K V) (p : nat) (k : K) (v : V) : res (gmap K V) :=
  if (length (order m) <? capacity m)%nat
  then Ok (mkmap (set_nth p (Occ k v) (slots m)) (order m ++ [p]) (count m + 1) (iterating m))
  else UB.
(** map.c:203-241, the probing loop of gray_map_set and the code after it *)
Fixpoint set_loop (m : gmap K V) (k : K) (v : V) (n i : nat) (tomb : option nat) : res (gmap K V) :=
  match n with
  | O => match tomb with Some t => fill m t k v | None => Ok m end
  | S n =>
      let p := probe_at m k i in
      match slot_at m p with
      | Tomb => set_loop m k v n (S i) (match tomb with None => Some p | _ => tomb end)
      | Empty => fill m (match tomb with Some t => t | None => p end) k v
      | Occ k' _ =>
          if keq k' k then Ok (mkmap (set_nth p (Occ k' v) (slots m)) (order m) (count m) (iterating m))
          else set_loop m k v n (S i) tomb
      end
  end.
Definition set_core (m : gmap K V) (k : K) (v : V) : res (gmap K V) := set_loop m k v (capacity m) 0 None.
(** map.c:198: count * 4 >= capacity * 3 *)
Definition overloaded (m : gmap K V) : bool := Z.of_nat (capacity m) * 3 <=? count m * 4.
Definition load_overflows (m : gmap K V) : bool :=
  (INT32_MAX <? count m * 4) || (INT32_MAX <? Z.of_nat (capacity m) * 3).
(** entries in insertion order: every loop over order[] that tests states[slot] == 1 *)
Fixpoint entries_of (m : gmap K V) (o : list nat) : list (K * V) :=
  match o with
  | [] => []
  | p :: o => match slot_at m p with Occ k v => (k, v) :: entries_of m o | _ => entries_of m o end
  end.
Definition entries (m : gmap K V) : list (K * V) := entries_of m (order m).
(** map.c:158-186.  The re-insertions call gray_map_set; a second rehash inside one of them
    is not unfolded but reported as [NoFuel] (proved not to happen). *)
Definition reinsert (m : res (gmap K V)) (e : K * V) : res (gmap K V) :=
  rbind m (fun m => if load_overflows m then UB else if overloaded m then NoFuel else set_core m (fst e) (snd e)).
Definition rehash (m : gmap K V) : res (gmap K V) :=
  if INT32_MAX <? Z.of_nat (capacity m) * 2 then UB
  else fold_left reinsert (entries m) (Ok (mkmap (repeat Empty (2 * capacity m)) [] 0 (iterating m))).
(** map.c:194-242 *)
Definition map_set (m : gmap K V) (k : K) (v : V) : res (gmap K V) :=
  if 0 <? iterating m then Panic 35
  else if load_overflows m then UB
  else if overloaded m then rbind (rehash m) (fun m => set_core m k v)
  else set_core m k v.
(** map.c:258-265: removal of the first occurrence from the order array *)
Fixpoint remove_first (p : nat) (o : list nat) : list nat :=
  match o with
  | [] => []
  | q :: o => if (q =? p)%nat then o else q :: remove_first p o
  end.
(** map.c:248-268 *)
Definition map_remove (m : gmap K V) (k : K) : res (gmap K V * bool) :=
  if 0 <? iterating m then Panic 35
  else match find_slot m k with
       | None => Ok (m, false)
       | Some p => Ok (mkmap (set_nth p Tomb (slots m)) (remove_first p (order m)) (count m - 1) (iterating m), true)
       end.
(** map.c:270-274 *)
Definition map_clear (m : gmap K V) : gmap K V :=
  mkmap (repeat Empty (capacity m)) [] 0 (iterating m).
(** map.c:292-328: the copy has equal contents in fresh storage and is not iterating *)
Definition map_copy (m : gmap K V) : gmap K V := mkmap (slots m) (order m) (count m) 0.

(** ---- maps.c ---- *)
(** maps.c:14-26, 28-40: pushes one key / value per occupied slot in order *)
Definition get_keys (m : gmap K V) : list K := map fst (entries m).
Definition get_values (m : gmap K V) : list V := map snd (entries m).
(** maps.c:46-48 *)
Definition is_empty (m : gmap K V) : bool := count m =? 0.
(** maps.c:50-74.  (count1 + count2) * 2 is an int32_t. *)
Definition set_all (m : res (gmap K V)) (l : list (K * V)) : res (gmap K V) :=
  fold_left (fun r e => rbind r (fun m => map_set m (fst e) (snd e))) l m.
Definition merge (m1 m2 : gmap K V) : res (gmap K V) :=
  let n := count m1 + count m2 in
  if INT32_MAX <? n * 2 then UB
  else
    let r := map_new (Z.to_nat (if 8 <? n then n * 2 else 8)) in
    set_all (set_all (Ok r) (entries m1)) (entries m2).
(** maps.c:76-85 with [raw_eq] = memcmp of the stored bytes *)
Definition contains_value (raw_eq : V -> V -> bool) (m : gmap K V) (v : V) : bool :=
  existsb (fun e => raw_eq (snd e) v) (entries m).
(** maps.c:87-107 with [veq] the comparison chosen by str_values *)
Definition is_equal (veq : V -> V -> bool) (a b : gmap K V) : bool :=
  (count a =? count b) &&
  forallb (fun e => match map_get b (fst e) with Some v => veq (snd e) v | None => false end) (entries a).

(** A program's operations on one map and what it sees. *)
Inductive op := OSet (k : K) (v : V) | ORemove (k : K) | OClear | OGet (k : K) | OHas (k : K) | OLen | OEntries.
Inductive obs := Nothing | Flag (b : bool) | Value (v : option V) | Num (z : Z) | Listing (l : list (K * V)).
Definition step (m : gmap K V) (o : op) : res (gmap K V * obs) :=
  match o with
  | OSet k v => rmap (fun m => (m, Nothing)) (map_set m k v)
  | ORemove k => rmap (fun p => (fst p, Flag (snd p))) (map_remove m k)
  | OClear => Ok (map_clear m, Nothing)
  | OGet k => Ok (m, Value (map_get m k))
  | OHas k => Ok (m, Flag (map_has m k))
  | OLen => Ok (m, Num (count m))
  | OEntries => Ok (m, Listing (entries m))
  end.
Fixpoint run (m : gmap K V) (l : list op) : res (gmap K V * list obs) :=
  match l with
  | [] => Ok (m, [])
  | o :: l => rbind (step m o) (fun p => rmap (fun q => (fst q, snd p :: snd q)) (run (fst p) l))
  end.

(** Iteration (codegen.c:8843-8995).  [BeginName]: for_each over a variable: iterating++ on
    the map itself.  [BeginCopy]: the collection is any other expression (a struct field,
    a call): iterating++ on a temporary copy of the header.  [EndName]/[EndCopy]: the
    loop ends (normally or by break): iterating--.  [ReturnOut]: a return statement inside the
    loop (codegen.c:8270-8385) leaves it without the decrement. *)
Inductive iev := BeginName | EndName | ReturnOut | BeginCopy | EndCopy | Do (o : op).
Definition istep (m : gmap K V) (e : iev) : res (gmap K V * obs) :=
  match e with
  | BeginName => Ok (mkmap (slots m) (order m) (count m) (iterating m + 1), Nothing)
  | EndName => Ok (mkmap (slots m) (order m) (count m) (iterating m - 1), Nothing)
  | ReturnOut | BeginCopy | EndCopy => Ok (m, Nothing)
  | Do o => step m o
  end.
Fixpoint irun (m : gmap K V) (l : list iev) : res (gmap K V * list obs) :=
  match l with
  | [] => Ok (m, [])
  | o :: l => rbind (istep m o) (fun p => rmap (fun q => (fst q, snd p :: snd q)) (irun (fst p) l))
  end.
End Map.
Arguments op : clear implicits. Arguments obs : clear implicits. Arguments iev : clear implicits.

(** ---- the key kinds (map.c:15-109) ---- *)
(** map.c:15-23, FNV-1a *)
Definition hash_bytes (l : list Z) : Z :=
  fold_left (fun h b => wrap_u 64 (Z.lxor h b * 1099511628211)) l 14695981039346656037.
(** KEY_BYTES and KEY_STRING: the bytes themselves *)
Fixpoint bytes_eq (a b : list Z) : bool :=
  match a, b with
  | [], [] => true
  | x :: a, y :: b => (x =? y) && bytes_eq a b
  | _, _ => false
  end.
(** Little-endian bytes of an n-byte word. *)
Fixpoint word_bytes (n : nat) (x : Z) : list Z :=
  match n with O => [] | S n => x mod 256 :: word_bytes n (x / 256) end.
(** KEY_F64: a double by its 64-bit pattern: sign, 11 exponent bits, 52 mantissa bits. *)
Definition f64_zero (b : Z) : bool := b mod 2 ^ 63 =? 0.
Definition f64_nan (b : Z) : bool := 9218868437227405312 <? b mod 2 ^ 63.
(** IEEE-754 == *)
Definition f64_eq (a b : Z) : bool :=
  negb (f64_nan a) && negb (f64_nan b) && ((a =? b) || (f64_zero a && f64_zero b)).
(** map.c:30-42 *)
Definition hash_f64 (b : Z) : Z :=
  hash_bytes (word_bytes 8 (if f64_zero b then 0 else if f64_nan b then 9221120237041090560 else b)).
(** map.c:58-65 *)
Definition floats_equal_f64 (a b : Z) : bool :=
  if f64_zero a && f64_zero b then true
  else if f64_nan a && f64_nan b then true
  else f64_eq a b.
(** KEY_F32: sign, 8 exponent bits, 23 mantissa bits *)
Definition f32_zero (b : Z) : bool := b mod 2 ^ 31 =? 0.
Definition f32_nan (b : Z) : bool := 2139095040 <? b mod 2 ^ 31.
Definition f32_eq (a b : Z) : bool :=
  negb (f32_nan a) && negb (f32_nan b) && ((a =? b) || (f32_zero a && f32_zero b)).
(** map.c:44-56 *)
Definition hash_f32 (b : Z) : Z :=
  hash_bytes (word_bytes 4 (if f32_zero b then 0 else if f32_nan b then 2143289344 else b)).
(** map.c:67-74 *)
Definition floats_equal_f32 (a b : Z) : bool :=
  if f32_zero a && f32_zero b then true
  else if f32_nan a && f32_nan b then true
  else f32_eq a b.
