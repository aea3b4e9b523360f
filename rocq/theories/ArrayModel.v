(** Model of grayc/src/runtime/array.c, grayc/src/stdlib/arrays.c and
    grayc/src/stdlib/random.c, and of the code emitted for arrays by
    grayc/src/codegen/codegen.c.

    Memory is a list of allocations, each a list of bytes; an array header names its
    allocation.  memcpy/memmove are reads followed by writes; leaving an allocation is [UB].
    Sizes are natural numbers; int32_t arguments are Z, converted with [wrap_i 32] where the
    program passes a 64-bit value.  Byte offsets [i * elem_size],
    int32_t products in the C code, are exact here: the theorems are about arrays below 2^29
    bytes.  The arena never runs out of memory. *)
From Verif Require Import Base.

(** representable in a signed n-bit integer *)
Definition fits_i (n x : Z) : bool := (- 2 ^ (n - 1) <=? x) && (x <? 2 ^ (n - 1)).
Definition heap := list (list Z).
Fixpoint update {A} (n : nat) (x : A) (l : list A) : list A :=
  match l, n with
  | [], _ => []
  | _ :: l, O => x :: l
  | y :: l, S n => y :: update n x l
  end.
(** runtime.c:63-78: zeroed memory, sizes rounded up to a multiple of 8 *)
Definition align8 (n : nat) : nat := (Nat.div (n + 7) 8 * 8)%nat.
Definition alloc (h : heap) (size : nat) : heap * nat := (h ++ [repeat 0 (align8 size)], length h).
(** n bytes at offset off of allocation b *)
Definition rd (h : heap) (b off n : nat) : res (list Z) :=
  match nth_error h b with
  | Some bl => if (off + n <=? length bl)%nat then Ok (firstn n (skipn off bl)) else UB
  | None => UB
  end.
Definition splice (bl : list Z) (off : nat) (v : list Z) : list Z :=
  firstn off bl ++ v ++ skipn (off + length v) bl.
Definition wr (h : heap) (b off : nat) (v : list Z) : res heap :=
  match nth_error h b with
  | Some bl => if (off + length v <=? length bl)%nat then Ok (update b (splice bl off v) h) else UB
  | None => UB
  end.
(** n bytes from a caller's object holding the bytes v *)
Definition from_value (v : list Z) (n : nat) : res (list Z) :=
  if (n <=? length v)%nat then Ok (firstn n v) else UB.

(** array.h:20-26 *)
Record arr := mkarr { blk : nat; alen : nat; acap : nat; esz : nat; iter : Z }.
Definition with_len (a : arr) (n : nat) : arr := mkarr (blk a) n (acap a) (esz a) (iter a).
Definition MIN_CAP : nat := 4.

(** array.c:14-22 *)
Definition array_new (h : heap) (sz : nat) (initial_cap : nat) : heap * arr :=
  let cap := if (0 <? initial_cap)%nat then initial_cap else MIN_CAP in
  let (h, b) := alloc h (cap * sz) in
  (h, mkarr b 0 cap sz 0).
(** array.c:24-35, [data] being the bytes at the source pointer *)
Definition array_from (h : heap) (data : list Z) (sz count : nat) : res (heap * arr) :=
  let cap := if (0 <? count)%nat then count else MIN_CAP in
  let (h, b) := alloc h (cap * sz) in
  rbind (from_value data (count * sz)) (fun v =>
  rmap (fun h => (h, mkarr b count cap sz 0)) (wr h b 0 v)).
(** array.c:37-42 followed by the read of a [w]-byte object (GRAY_ARRAY_GET, array.h:51) *)
Definition array_get (h : heap) (a : arr) (index : Z) (w : nat) : res (list Z) :=
  if (index <? 0) || (Z.of_nat (alen a) <=? index) then Panic 33
  else rd h (blk a) (Z.to_nat index * esz a) w.
(** array.c:44-52 *)
Definition array_set (h : heap) (a : arr) (index : Z) (v : list Z) : res heap :=
  if 0 <? iter a then Panic 34
  else if (index <? 0) || (Z.of_nat (alen a) <=? index) then Panic 33
  else rbind (from_value v (esz a)) (fun v => wr h (blk a) (Z.to_nat index * esz a) v).
(** array.c:57-69 and arrays.c:31-43.  cap * 2 is an int32_t; the test new_cap < cap after
    it can only hold by overflow. *)
Definition grow (h : heap) (a : arr) : res (heap * arr) :=
  if (acap a <=? alen a)%nat then
    if INT32_MAX <? Z.of_nat (acap a) * 2 then UB
    else
      let new_cap := if (acap a <? MIN_CAP)%nat then MIN_CAP else (acap a * 2)%nat in
      let (h, b) := alloc h (new_cap * esz a) in
      rbind (rd h (blk a) 0 (alen a * esz a)) (fun v =>
      rmap (fun h => (h, mkarr b (alen a) new_cap (esz a) (iter a))) (wr h b 0 v))
  else Ok (h, a).
(** array.c:54-73 *)
Definition array_push (h : heap) (a : arr) (v : list Z) : res (heap * arr) :=
  if 0 <? iter a then Panic 34
  else rbind (grow h a) (fun p => let (h, a) := p in
    rbind (from_value v (esz a)) (fun v =>
    rmap (fun h => (h, with_len a (alen a + 1))) (wr h (blk a) (alen a * esz a) v))).
(** array.c:75-77 *)
Definition array_copy (h : heap) (a : arr) : res (heap * arr) :=
  rbind (rd h (blk a) 0 (alen a * esz a)) (fun v => array_from h v (esz a) (alen a)).

(** ---- arrays.c: modification ---- *)
(** arrays.c:22-53 *)
Definition insert_at (h : heap) (a : arr) (index : Z) (v : list Z) : res (heap * arr) :=
  if 0 <? iter a then Panic 34
  else if (index <? 0) || (Z.of_nat (alen a) <? index) then Panic 43
  else
    let i := Z.to_nat index in
    rbind (grow h a) (fun p => let (h, a) := p in
    let s := esz a in
    rbind (rd h (blk a) (i * s) ((alen a - i) * s)) (fun tail =>
    rbind (if (i <? alen a)%nat then wr h (blk a) ((i + 1) * s) tail else Ok h) (fun h =>
    rbind (from_value v s) (fun v =>
    rmap (fun h => (h, with_len a (alen a + 1))) (wr h (blk a) (i * s) v))))).
(** arrays.c:55-57 *)
Definition prepend (h : heap) (a : arr) (v : list Z) : res (heap * arr) := insert_at h a 0 v.
(** arrays.c:59-70 *)
Definition remove_at (h : heap) (a : arr) (index : Z) : res (heap * arr) :=
  if 0 <? iter a then Panic 34
  else if (index <? 0) || (Z.of_nat (alen a) <=? index) then Panic 44
  else
    let i := Z.to_nat index in let s := esz a in
    rbind (rd h (blk a) ((i + 1) * s) ((alen a - 1 - i) * s)) (fun tail =>
    rmap (fun h => (h, with_len a (alen a - 1))) (wr h (blk a) (i * s) tail)).
(** arrays.c:101-105 *)
Definition clear (a : arr) : res arr := if 0 <? iter a then Panic 34 else Ok (with_len a 0).
(** arrays.c:107-112 *)
Fixpoint push_n (h : heap) (a : arr) (v : list Z) (n : nat) : res (heap * arr) :=
  match n with
  | O => Ok (h, a)
  | S n => rbind (array_push h a v) (fun p => push_n (fst p) (snd p) v n)
  end.
Definition fill (h : heap) (a : arr) (v : list Z) (count : Z) : res (heap * arr) :=
  rbind (clear a) (fun a => push_n h a v (Z.to_nat count)).

(** ---- arrays.c: access (w = size of the element type at the call) ---- *)
(** arrays.c:116-126 *)
Definition get_first (h : heap) (a : arr) (w : nat) : res (list Z) :=
  if (alen a =? 0)%nat then Panic 45 else rd h (blk a) 0 w.
Definition get_last (h : heap) (a : arr) (w : nat) : res (list Z) :=
  if (alen a =? 0)%nat then Panic 46 else rd h (blk a) ((alen a - 1) * esz a) w.
(** arrays.c:128-135: memcpy of elem_size bytes into the caller's w-byte object *)
Definition remove_first (h : heap) (a : arr) (w : nat) : res (heap * arr * list Z) :=
  if 0 <? iter a then Panic 34
  else if (alen a =? 0)%nat then Panic 47
  else if (w <? esz a)%nat then UB
  else rbind (rd h (blk a) 0 (esz a)) (fun v => rmap (fun p => (p, v)) (remove_at h a 0)).
(** arrays.c:137-144 *)
Definition remove_last (h : heap) (a : arr) (w : nat) : res (heap * arr * list Z) :=
  if 0 <? iter a then Panic 34
  else if (alen a =? 0)%nat then Panic 48
  else if (w <? esz a)%nat then UB
  else rmap (fun v => ((h, with_len a (alen a - 1)), v)) (rd h (blk a) ((alen a - 1) * esz a) (esz a)).

(** ---- arrays.c: queries ---- *)
(** The search loops of contains/index_of/remove/count read a w-byte object at every
    element and compare it with [p]. *)
Fixpoint first_match (h : heap) (a : arr) (w : nat) (p : list Z -> bool) (n i : nat) : res (option nat) :=
  match n with
  | O => Ok None
  | S n => rbind (rd h (blk a) (i * esz a) w) (fun e =>
      if p e then Ok (Some i) else first_match h a w p n (S i))
  end.
(** arrays.c:182-215 *)
Definition contains (h : heap) (a : arr) (w : nat) (p : list Z -> bool) : res bool :=
  rmap (fun o => match o with Some _ => true | None => false end) (first_match h a w p (alen a) 0).
(** arrays.c:217-232 *)
Definition index_of (h : heap) (a : arr) (w : nat) (p : list Z -> bool) : res Z :=
  rmap (fun o => match o with Some i => Z.of_nat i | None => -1 end) (first_match h a w p (alen a) 0).
(** arrays.c:72-99 *)
Definition remove_value (h : heap) (a : arr) (w : nat) (p : list Z -> bool) : res (heap * arr) :=
  rbind (first_match h a w p (alen a) 0) (fun o =>
    match o with Some i => remove_at h a (Z.of_nat i) | None => Ok (h, a) end).
(** arrays.c:234-240 *)
Fixpoint count_from (h : heap) (a : arr) (w : nat) (p : list Z -> bool) (n i : nat) : res Z :=
  match n with
  | O => Ok 0
  | S n => rbind (rd h (blk a) (i * esz a) w) (fun e =>
      rmap (fun c => if p e then c + 1 else c) (count_from h a w p n (S i)))
  end.
Definition count (h : heap) (a : arr) (p : list Z -> bool) : res Z := count_from h a 8 p (alen a) 0.
Fixpoint same_bytes (a b : list Z) : bool :=
  match a, b with
  | [], [] => true
  | x :: a, y :: b => (x =? y) && same_bytes a b
  | _, _ => false
  end.
(** arrays.c:242-247 *)
Definition is_equal_prim (h : heap) (a b : arr) : res bool :=
  if negb (alen a =? alen b)%nat then Ok false
  else if negb (esz a =? esz b)%nat then Ok false
  else if (alen a =? 0)%nat then Ok true
  else rbind (rd h (blk a) 0 (alen a * esz a)) (fun x =>
       rmap (fun y => same_bytes x y) (rd h (blk b) 0 (alen a * esz a))).

(** ---- arrays.c: transformations ---- *)
(** pushing the elements number is of array a onto r *)
Fixpoint push_elems (h : heap) (r : arr) (a : arr) (is : list nat) : res (heap * arr) :=
  match is with
  | [] => Ok (h, r)
  | i :: is => rbind (rd h (blk a) (i * esz a) (esz r)) (fun v =>
      rbind (array_push h r v) (fun p => push_elems (fst p) (snd p) a is))
  end.
(** arrays.c:263-270 *)
Definition reverse (h : heap) (a : arr) : res (heap * arr) :=
  let (h, r) := array_new h (esz a) (alen a) in push_elems h r a (rev (seq 0 (alen a))).
(** arrays.c:272-278 *)
Definition slice (h : heap) (a : arr) (start stop : Z) : res (heap * arr) :=
  let start := if start <? 0 then 0 else start in
  let stop := if Z.of_nat (alen a) <? stop then Z.of_nat (alen a) else stop in
  if stop <=? start then Ok (array_new h (esz a) 1)
  else
    let n := Z.to_nat (stop - start) in
    rbind (rd h (blk a) (Z.to_nat start * esz a) (n * esz a)) (fun v => array_from h v (esz a) n).
(** arrays.c:280-287 *)
Definition concat_arrays (h : heap) (a b : arr) : res (heap * arr) :=
  rbind (array_copy h a) (fun p => push_elems (fst p) (snd p) b (seq 0 (alen b))).
(** arrays.c:289-302 *)
Fixpoint dedup_loop (h : heap) (r a : arr) (n i : nat) : res (heap * arr) :=
  match n with
  | O => Ok (h, r)
  | S n => rbind (rd h (blk a) (i * esz a) (esz a)) (fun v =>
      rbind (first_match h r (esz r) (fun e => same_bytes v e) (alen r) 0) (fun o =>
        match o with
        | Some _ => dedup_loop h r a n (S i)
        | None => rbind (array_push h r v) (fun p => dedup_loop (fst p) (snd p) a n (S i))
        end))
  end.
Definition deduplicate (h : heap) (a : arr) : res (heap * arr) :=
  let (h, r) := array_new h (esz a) (alen a) in dedup_loop h r a (alen a) 0.
(** arrays.c:304-315: [inner] are the headers stored in the outer array.  The result holds
    8-byte elements whatever the inner element size. *)
Fixpoint flatten_loop (h : heap) (r : arr) (inner : list arr) : res (heap * arr) :=
  match inner with
  | [] => Ok (h, r)
  | a :: inner => rbind (push_elems h r a (seq 0 (alen a))) (fun p => flatten_loop (fst p) (snd p) inner)
  end.
Definition flatten (h : heap) (inner : list arr) : res (heap * arr) :=
  let (h, r) := array_new h 8 8 in flatten_loop h r inner.
(** arrays.c:317-328: the chunks, as the list of headers pushed onto the result *)
Fixpoint split_loop (h : heap) (a : arr) (size n i : nat) : res (heap * list arr) :=
  match n with
  | O => Ok (h, [])
  | S n =>
      if (i <? alen a)%nat then
        let chunk_len := if (i + size <=? alen a)%nat then size else (alen a - i)%nat in
        rbind (rd h (blk a) (i * esz a) (chunk_len * esz a)) (fun v =>
        rbind (array_from h v (esz a) chunk_len) (fun p =>
        rmap (fun q => (fst q, snd p :: snd q)) (split_loop (fst p) a size n (i + size))))
      else Ok (h, [])
  end.
Definition split_every (h : heap) (a : arr) (size : Z) : res (heap * list arr) :=
  split_loop h a (Z.to_nat (if size <=? 0 then 1 else size)) (alen a) 0.
(** arrays.c:330-340 *)
Fixpoint pair_loop (h : heap) (a b : arr) (n i : nat) : res (heap * list arr) :=
  match n with
  | O => Ok (h, [])
  | S n =>
      let (h, r) := array_new h (esz a) 2 in
      rbind (rd h (blk a) (i * esz a) (esz a)) (fun x =>
      rbind (array_push h r x) (fun p =>
      rbind (rd (fst p) (blk b) (i * esz b) (esz a)) (fun y =>
      rbind (array_push (fst p) (snd p) y) (fun p =>
      rmap (fun q => (fst q, snd p :: snd q)) (pair_loop (fst p) a b n (S i))))))
  end.
Definition pair (h : heap) (a b : arr) : res (heap * list arr) :=
  pair_loop h a b (Nat.min (alen a) (alen b)) 0.

(** ---- arrays.c: computation, on the int64_t values read ---- *)
(** arrays.c:344-350; the int64_t addition is unchecked *)
Fixpoint sum_loop (l : list Z) (total : Z) : res Z :=
  match l with
  | [] => Ok total
  | x :: l => if fits_i 64 (total + x) then sum_loop l (total + x) else UB
  end.
Definition get_sum (l : list Z) : res Z := sum_loop l 0.
(** arrays.c:352-370 *)
Definition get_min (l : list Z) : Z :=
  match l with [] => 0 | x :: l => fold_left (fun m v => if v <? m then v else m) l x end.
Definition get_max (l : list Z) : Z :=
  match l with [] => 0 | x :: l => fold_left (fun m v => if m <? v then v else m) l x end.

(** codegen.c:5299-5366: map, filter, any, all, reduce emit the obvious loop over the array
    through a pointer to the element's C type; on the elements: *)
Definition hof_map {A} (f : A -> A) (l : list A) : list A := fold_left (fun r x => r ++ [f x]) l [].
Definition hof_filter {A} (f : A -> bool) (l : list A) : list A := fold_left (fun r x => if f x then r ++ [x] else r) l [].
Fixpoint hof_any {A} (f : A -> bool) (l : list A) : bool := match l with [] => false | x :: l => if f x then true else hof_any f l end.
Fixpoint hof_all {A} (f : A -> bool) (l : list A) : bool := match l with [] => true | x :: l => if negb (f x) then false else hof_all f l end.
Definition hof_reduce {A} (f : A -> A -> A) (init : A) (l : list A) : A := fold_left f l init.

(** ---- several array variables of one element type ---- *)
Inductive aop :=
  | OPush (d : nat) (v : list Z) | OGet (d : nat) (i : Z) | OSet (d : nat) (i : Z) (v : list Z)
  | OInsert (d : nat) (i : Z) (v : list Z) | OPrepend (d : nat) (v : list Z) | ORemoveAt (d : nat) (i : Z)
  | OClear (d : nat) | OFill (d : nat) (v : list Z) (n : Z)
  | OFirst (d : nat) | OLast (d : nat) | OTakeFirst (d : nat) | OTakeLast (d : nat) | OLen (d : nat)
  | OCopy (d s : nat) | OReverse (d s : nat) | OSlice (d s : nat) (i j : Z) | OConcat (d s t : nat) | ODedup (d s : nat).
Inductive aobs := Unit | Bytes (v : list Z) | Num (n : Z).
Definition state := (heap * list arr)%type.
Definition with_var {S} (vs : list S) (d : nat) {A} (f : S -> res A) : res A :=
  match nth_error vs d with Some a => f a | None => UB end.
(** put the header just computed into variable d *)
Definition store (vs : list arr) (d : nat) (x : aobs) (r : res (heap * arr)) : res (state * aobs) :=
  with_var vs d (fun _ => rmap (fun p => ((fst p, update d (snd p) vs), x)) r).
(** Indices and counts are 64-bit values in the program and int32_t parameters here. *)
Definition astep (st : state) (o : aop) : res (state * aobs) :=
  let (h, vs) := st in
  let i32 := wrap_i 32 in
  match o with
  | OPush d v => with_var vs d (fun a => store vs d Unit (array_push h a v))
  | OGet d i => with_var vs d (fun a => rmap (fun v => (st, Bytes v)) (array_get h a (i32 i) (esz a)))
  | OSet d i v => with_var vs d (fun a => rmap (fun h => ((h, vs), Unit)) (array_set h a (i32 i) v))
  | OInsert d i v => with_var vs d (fun a => store vs d Unit (insert_at h a (i32 i) v))
  | OPrepend d v => with_var vs d (fun a => store vs d Unit (prepend h a v))
  | ORemoveAt d i => with_var vs d (fun a => store vs d Unit (remove_at h a (i32 i)))
  | OClear d => with_var vs d (fun a => store vs d Unit (rmap (fun a => (h, a)) (clear a)))
  | OFill d v n => with_var vs d (fun a => store vs d Unit (fill h a v (i32 n)))
  | OFirst d => with_var vs d (fun a => rmap (fun v => (st, Bytes v)) (get_first h a (esz a)))
  | OLast d => with_var vs d (fun a => rmap (fun v => (st, Bytes v)) (get_last h a (esz a)))
  | OTakeFirst d => with_var vs d (fun a => rbind (remove_first h a (esz a)) (fun q => store vs d (Bytes (snd q)) (Ok (fst q))))
  | OTakeLast d => with_var vs d (fun a => rbind (remove_last h a (esz a)) (fun q => store vs d (Bytes (snd q)) (Ok (fst q))))
  | OLen d => with_var vs d (fun a => Ok (st, Num (Z.of_nat (alen a))))
  | OCopy d s => with_var vs s (fun a => store vs d Unit (array_copy h a))
  | OReverse d s => with_var vs s (fun a => store vs d Unit (reverse h a))
  | OSlice d s i j => with_var vs s (fun a => store vs d Unit (slice h a (i32 i) (i32 j)))
  | OConcat d s t => with_var vs s (fun a => with_var vs t (fun b => store vs d Unit (concat_arrays h a b)))
  | ODedup d s => with_var vs s (fun a => store vs d Unit (deduplicate h a))
  end.
Fixpoint arun (st : state) (l : list aop) : res (state * list aobs) :=
  match l with
  | [] => Ok (st, [])
  | o :: l => rbind (astep st o) (fun p => rmap (fun q => (fst q, snd p :: snd q)) (arun (fst p) l))
  end.
(** n variables declared with an empty literal *)
Fixpoint declare (sz n : nat) (h : heap) : state :=
  match n with
  | O => (h, [])
  | S n => let (h, a) := array_new h sz 4 in let (h, vs) := declare sz n h in (h, a :: vs)
  end.

(** Loops over one array variable (codegen.c:8949-9005), as in MapModel: [BeginName] ...
    and the mutating calls, all of which test [iter]. *)
Inductive aiev := BeginName | EndName | ReturnOut | BeginCopy | EndCopy | Assign | Mutate (o : mutation)
with mutation := MPush (v : list Z) | MSet (i : Z) (v : list Z) | MInsert (i : Z) (v : list Z) | MRemoveAt (i : Z)
  | MClear | MFill (v : list Z) (n : Z) | MTakeFirst | MTakeLast.
Definition mutate (h : heap) (a : arr) (o : mutation) : res (heap * arr) :=
  match o with
  | MPush v => array_push h a v
  | MSet i v => rmap (fun h => (h, a)) (array_set h a i v)
  | MInsert i v => insert_at h a i v
  | MRemoveAt i => remove_at h a i
  | MClear => rmap (fun a => (h, a)) (clear a)
  | MFill v n => fill h a v n
  | MTakeFirst => rmap fst (remove_first h a (esz a))
  | MTakeLast => rmap fst (remove_last h a (esz a))
  end.
Definition set_iter (a : arr) (n : Z) : arr := mkarr (blk a) (alen a) (acap a) (esz a) n.
(** [Assign]: the variable is assigned a copy of itself, say; the new header has iterating = 0. *)
Definition aistep (st : heap * arr) (e : aiev) : res (heap * arr) :=
  let (h, a) := st in
  match e with
  | BeginName => Ok (h, set_iter a (iter a + 1))
  | EndName => Ok (h, set_iter a (iter a - 1))
  | ReturnOut | BeginCopy | EndCopy => Ok st
  | Assign => array_copy h a
  | Mutate o => mutate h a o
  end.
Definition airun (st : heap * arr) (l : list aiev) : res (heap * arr) :=
  fold_left (fun r e => rbind r (fun st => aistep st e)) l (Ok st).

(** ---- qsort comparators (arrays.c:374-412), on the element's bytes ---- *)
Fixpoint le_value (l : list Z) : Z := match l with [] => 0 | b :: l => b + 256 * le_value l end.
Definition signed64 (v : Z) : Z := wrap_i 64 v.
Definition sgn (x : bool) : Z := if x then 1 else 0.
Definition cmp_i64_asc (a b : list Z) : Z :=
  let va := signed64 (le_value (firstn 8 a)) in let vb := signed64 (le_value (firstn 8 b)) in
  sgn (vb <? va) - sgn (va <? vb).
Definition cmp_i64_desc (a b : list Z) : Z :=
  let va := signed64 (le_value (firstn 8 a)) in let vb := signed64 (le_value (firstn 8 b)) in
  sgn (va <? vb) - sgn (vb <? va).
(** IEEE doubles by bit pattern: < *)
Definition f64_nan (b : Z) : bool := 9218868437227405312 <? b mod 2 ^ 63.
(** position on the number line: sign and magnitude *)
Definition f64_rank (b : Z) : Z := if b <? 2 ^ 63 then b else - (b mod 2 ^ 63).
Definition f64_lt (a b : Z) : bool := negb (f64_nan a) && negb (f64_nan b) && (f64_rank a <? f64_rank b).
Definition cmp_f64_asc (a b : list Z) : Z :=
  let va := le_value (firstn 8 a) in let vb := le_value (firstn 8 b) in sgn (f64_lt vb va) - sgn (f64_lt va vb).
Definition cmp_f64_desc (a b : list Z) : Z :=
  let va := le_value (firstn 8 a) in let vb := le_value (firstn 8 b) in sgn (f64_lt va vb) - sgn (f64_lt vb va).
(** arrays.c:398-412 on the texts: memcmp of the common prefix, then the lengths *)
Fixpoint memcmp (a b : list Z) : Z :=
  match a, b with
  | x :: a, y :: b => if x =? y then memcmp a b else x - y
  | _, _ => 0
  end.
Definition cmp_str_asc (a b : list Z) : Z :=
  let n := Nat.min (length a) (length b) in
  let c := memcmp (firstn n a) (firstn n b) in
  if negb (c =? 0) then c else sgn (length b <? length a)%nat - sgn (length a <? length b)%nat.
Definition cmp_str_desc (a b : list Z) : Z := cmp_str_asc b a.
(** arrays.c:414-461 with qsort as a parameter, on the element list.  The integer and float
    comparators read 8 bytes of every element. *)
Definition sort_with (qsort : (list Z -> list Z -> Z) -> list (list Z) -> list (list Z))
    (cmp : list Z -> list Z -> Z) (reads sz : nat) (l : list (list Z)) : res (list (list Z)) :=
  if (length l <=? 1)%nat then Ok l
  else if (sz <? reads)%nat then UB
  else Ok (qsort cmp l).
(** codegen.c:5149-5175: the comparator chosen for an element type name *)
Inductive sorter := SInt | SFloat | SStr.
Definition sorter_of (elem_type : list Z) : sorter :=
  if same_bytes elem_type (bs "float") then SFloat
  else if same_bytes elem_type (bs "string") then SStr
  else SInt.

(** ---- random.c ---- *)
(** [rs]: the values rand() returns, each in [0, RAND_MAX]. *)
Definition swap {A} (l : list A) (i j : nat) : list A :=
  match nth_error l i, nth_error l j with
  | Some x, Some y => update j x (update i y l)
  | _, _ => l
  end.
(** random.c:70-87: for (i = len - 1; i > 0; i--) { j = rand() % (i + 1); swap } *)
Fixpoint shuffle_loop {A} (l : list A) (i : nat) (rs : list Z) : list A :=
  match i with
  | O => l
  | S i' => match rs with
            | [] => l
            | r :: rs => shuffle_loop (swap l i (Z.to_nat (r mod Z.of_nat (i + 1)))) i' rs
            end
  end.
Definition shuffle {A} (l : list A) (rs : list Z) : list A := shuffle_loop l (length l - 1) rs.
(** random.c:89-97 *)
Definition sample {A} (l : list A) (n : Z) (rs : list Z) : res (list A) :=
  if Z.of_nat (length l) <? n then Panic 62
  else if n <? 0 then Panic 63
  else Ok (firstn (Z.to_nat n) (shuffle l rs)).
(** random.c:34-38; (int)max truncates *)
Definition random_int_max (max r : Z) : res Z :=
  if max <=? 0 then Ok 0
  else if wrap_i 32 max =? 0 then UB else Ok (Z.rem r (wrap_i 32 max)).
(** random.c:40-44; max - min is an int64_t *)
Definition random_int_range (min max r : Z) : res Z :=
  if max <=? min then Ok min
  else if fits_i 64 (max - min) then
    if wrap_i 32 (max - min) =? 0 then UB else Ok (min + Z.rem r (wrap_i 32 (max - min)))
  else UB.
(** random.c:46-65 *)
Definition random_byte (r : Z) : Z := wrap_u 8 (Z.rem r 256).
Definition random_char (r : Z) : Z := 32 + Z.rem r 95.
Definition random_char_range (min max r : Z) : res Z :=
  if max <=? min then Ok min
  else if fits_i 32 (max - min) then Ok (min + Z.rem r (max - min)) else UB.

(** ---- widths of array elements in the emitted code ---- *)
Inductive ety := Eint | Euint | Ei8 | Ei16 | Ei32 | Ei64 | Eu8 | Eu16 | Eu32 | Eu64
  | Ei128 | Eu128 | Ei256 | Eu256 | Efloat | Ef32 | Ef64 | Ebool | Echar | Ebyte | Estring.
(** sizeof of gray_type_to_c_codegen (codegen.c:301-336) *)
Definition c_size (t : ety) : nat :=
  match t with
  | Ei8 | Eu8 | Ebool | Ebyte => 1 | Ei16 | Eu16 => 2 | Ei32 | Eu32 | Ef32 | Echar => 4
  | Eint | Euint | Ei64 | Eu64 | Efloat | Ef64 => 8
  | Ei128 | Eu128 | Estring => 16 | Ei256 | Eu256 => 32
  end%nat.
(** A variable declared with an empty literal (codegen.c:7178-7183) *)
Definition empty_width (t : ety) : nat := c_size t.
(** A variable declared with a non-empty literal of integer/float/... elements: chosen by the
    kind of the first element (codegen.c:1434-1527); i8..u64 and f32 have kinds INT, UINT, FLOAT.
    Integer literals in an array of bytes have kind INT unless they are byte-typed; here the
    elements have the array's element type. *)
Definition literal_width (t : ety) : nat :=
  match t with
  | Eint | Euint | Ei8 | Ei16 | Ei32 | Ei64 | Eu8 | Eu16 | Eu32 | Eu64 => 8
  | Efloat | Ef32 | Ef64 => 8
  | _ => c_size t
  end%nat.
(** a[i] as a value, and for_each (codegen.c:2461-2490, 8921-8946) *)
Definition read_width (t : ety) : nat :=
  match t with
  | Ei8 | Ei16 | Ei32 | Eu8 | Eu16 | Eu32 | Ef32 => 8
  | _ => c_size t
  end%nat.
(** a[i] = v (codegen.c:7577-7583) *)
Definition write_width (t : ety) : nat := c_size t.
(** arrays.append (codegen.c:5013-5030) *)
Definition append_width (t : ety) : nat :=
  match t with
  | Ei8 | Ei16 | Ei32 | Eu8 | Eu16 | Eu32 | Ef32 => 8
  | _ => c_size t
  end%nat.
(** arrays.contains / index_of / remove (codegen.c:5124-5225) *)
Definition search_width (t : ety) : nat := match t with Estring => 16 | _ => 8 end%nat.
(** arrays.map/filter/... (codegen.c:5299-5366): stride and width sizeof(C type), regardless
    of the array's element size *)
Definition hof_width (t : ety) : nat := c_size t.
