(** What arrays should be: lists of elements; an element is a list of bytes. *)
From Verif Require Import Base ArrayModel.

Definition elems := list (list Z).
Definition take_at {A} (l : list A) (i : Z) (err : Z) : res A :=
  if i <? 0 then Panic err
  else match nth_error l (Z.to_nat i) with Some x => Ok x | None => Panic err end.
Definition insert_nth {A} (i : nat) (x : A) (l : list A) : list A := firstn i l ++ x :: skipn i l.
Definition delete_nth {A} (i : nat) (l : list A) : list A := firstn i l ++ skipn (S i) l.
(** positions start..stop-1 that exist *)
Definition sublist {A} (l : list A) (start stop : Z) : list A :=
  firstn (Z.to_nat (stop - Z.max 0 start)) (skipn (Z.to_nat start) l).
(** first occurrences, in order *)
Fixpoint first_occurrences (seen l : elems) : elems :=
  match l with
  | [] => []
  | x :: l => if existsb (same_bytes x) seen then first_occurrences seen l else x :: first_occurrences (seen ++ [x]) l
  end.
Definition in_range (l : elems) (i : Z) : bool := (0 <=? i) && (i <? Z.of_nat (length l)).

(** The operations of a program on its array variables, on lists. *)
Definition assign (ls : list elems) (d : nat) (x : aobs) (r : res elems) : res (list elems * aobs) :=
  with_var ls d (fun _ => rmap (fun l => (update d l ls, x)) r).
Definition sstep (ls : list elems) (o : aop) : res (list elems * aobs) :=
  match o with
  | OPush d v => with_var ls d (fun l => assign ls d Unit (Ok (l ++ [v])))
  | OGet d i => with_var ls d (fun l => rmap (fun v => (ls, Bytes v)) (take_at l i 33))
  | OSet d i v => with_var ls d (fun l => if in_range l i then Ok (update d (update (Z.to_nat i) v l) ls, Unit) else Panic 33)
  | OInsert d i v => with_var ls d (fun l => if (0 <=? i) && (i <=? Z.of_nat (length l)) then assign ls d Unit (Ok (insert_nth (Z.to_nat i) v l)) else Panic 43)
  | OPrepend d v => with_var ls d (fun l => assign ls d Unit (Ok (v :: l)))
  | ORemoveAt d i => with_var ls d (fun l => if in_range l i then assign ls d Unit (Ok (delete_nth (Z.to_nat i) l)) else Panic 44)
  | OClear d => with_var ls d (fun _ => assign ls d Unit (Ok []))
  | OFill d v n => with_var ls d (fun _ => assign ls d Unit (Ok (repeat v (Z.to_nat n))))
  | OFirst d => with_var ls d (fun l => rmap (fun v => (ls, Bytes v)) (take_at l 0 45))
  | OLast d => with_var ls d (fun l => rmap (fun v => (ls, Bytes v)) (take_at (rev l) 0 46))
  | OTakeFirst d => with_var ls d (fun l => match l with [] => Panic 47 | x :: l => assign ls d (Bytes x) (Ok l) end)
  | OTakeLast d => with_var ls d (fun l => match rev l with [] => Panic 48 | x :: r => assign ls d (Bytes x) (Ok (rev r)) end)
  | OLen d => with_var ls d (fun l => Ok (ls, Num (Z.of_nat (length l))))
  | OCopy d s => with_var ls s (fun l => assign ls d Unit (Ok l))
  | OReverse d s => with_var ls s (fun l => assign ls d Unit (Ok (rev l)))
  | OSlice d s i j => with_var ls s (fun l => assign ls d Unit (Ok (sublist l i j)))
  | OConcat d s t => with_var ls s (fun l => with_var ls t (fun m => assign ls d Unit (Ok (l ++ m))))
  | ODedup d s => with_var ls s (fun l => assign ls d Unit (Ok (first_occurrences [] l)))
  end.
Fixpoint srun (ls : list elems) (l : list aop) : res (list elems * list aobs) :=
  match l with
  | [] => Ok (ls, [])
  | o :: l => rbind (sstep ls o) (fun p => rmap (fun q => (fst q, snd p :: snd q)) (srun (fst p) l))
  end.
(** Values have the element size; indices and counts fit a 32-bit integer. *)
Definition well_typed (sz : nat) (o : aop) : Prop :=
  match o with
  | OPush _ v | OPrepend _ v => length v = sz
  | OGet _ i | ORemoveAt _ i => in_i 32 i
  | OSet _ i v | OInsert _ i v => in_i 32 i /\ length v = sz
  | OFill _ v n => length v = sz /\ in_i 32 n
  | OSlice _ _ i j => in_i 32 i /\ in_i 32 j
  | _ => True
  end.
(** No array ever gets larger than 2^29 bytes (the C code computes byte offsets in int32_t). *)
Definition stays_small (sz : nat) (ls : list elems) (l : list aop) : Prop :=
  forall p q ls' xs, l = p ++ q -> srun ls p = Ok (ls', xs) -> Forall (fun e => Z.of_nat (length e * sz) <= 2 ^ 29) ls'.

(** Loops over an array variable that are running. *)
Definition running (l : list aiev) : Z :=
  fold_left (fun n e => match e with BeginName | BeginCopy => n + 1 | EndName | EndCopy | ReturnOut => n - 1 | _ => n end) l 0.
Definition plain_loops (l : list aiev) : Prop :=
  forall e, In e l -> e <> BeginCopy /\ e <> EndCopy /\ e <> ReturnOut /\ e <> Assign.

(** ISO C's promise about qsort: with a comparison function that is consistent on the
    elements, the result is a permutation in ascending order. *)
Definition consistent {A} (cmp : A -> A -> Z) (l : list A) : Prop :=
  (forall a b, In a l -> In b l -> Z.sgn (cmp a b) = - Z.sgn (cmp b a)) /\
  (forall a b c, In a l -> In b l -> In c l -> cmp a b <= 0 -> cmp b c <= 0 -> cmp a c <= 0).
From Coq Require Import Permutation Sorted.
Definition is_qsort (qs : (list Z -> list Z -> Z) -> elems -> elems) : Prop :=
  forall cmp l, consistent cmp l -> Permutation l (qs cmp l) /\ StronglySorted (fun a b => cmp a b <= 0) (qs cmp l).
(** The order of texts: byte-wise lexicographic *)
Fixpoint text_le (a b : list Z) : Prop :=
  match a, b with
  | [], _ => True
  | _ :: _, [] => False
  | x :: a, y :: b => x < y \/ (x = y /\ text_le a b)
  end.
(** int64 value of an 8-byte little-endian element *)
Definition int_value (e : list Z) : Z := wrap_i 64 (le_value e).

(** What a program sees of an array: its length and what indexing gives. *)
Definition reads_as (sz : nat) (h : heap) (a : arr) (l : elems) : Prop :=
  alen a = length l /\ forall i, array_get h a i sz = take_at l i 33.
(** i is the first position whose element satisfies p, or -1 *)
Definition position {A} (p : A -> bool) (l : list A) (i : Z) : Prop :=
  (exists n x, i = Z.of_nat n /\ nth_error l n = Some x /\ p x = true /\
     forall k y, (k < n)%nat -> nth_error l k = Some y -> p y = false) \/
  (i = -1 /\ existsb p l = false).
(** all chunks have the given size, except that the last may be shorter, but not empty *)
Fixpoint chunked {A} (size : nat) (cs : list (list A)) : Prop :=
  match cs with
  | [] => True
  | [c] => (0 < length c)%nat /\ (length c <= size)%nat
  | c :: cs => length c = size /\ chunked size cs
  end.
