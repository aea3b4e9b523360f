(** What users of an arena rely on (C38, C39, C88), without reference to the code. *)
From Verif Require Import Base.

(** Alloc n: allocate n bytes; Save / Restore: enter and leave a scope; Reset: mem.reset; Destroy: mem.destroy;
    Write k i v: the program stores the byte v at offset i of its k-th live allocation (oldest first). *)
Inductive op := Alloc (n : Z) | Save | Restore | Reset | Destroy | Write (k : nat) (i v : Z).
(** A live allocation: the address it was given (block and offset), its size, and what the program has stored. *)
Record alloc := Al { blk : nat; off : Z; len : Z; contents : Z -> Z }.
(** The live allocations, oldest first, and for each open scope how many there were when it was entered. *)
Record lives := Lv { live : list alloc; scopes : list nat }.
Definition fresh : lives := Lv [] [].
Definition put (f : Z -> Z) (i v : Z) : Z -> Z := fun j => if j =? i then v else f j.
Fixpoint update (l : list alloc) (k : nat) (f : alloc -> alloc) : list alloc :=
  match l, k with
  | [], _ => []
  | a :: l, O => f a :: l
  | a :: l, S k => a :: update l k f
  end.
(** Liveness after an operation; None: not something a program does (leaving a scope that is not open,
    resetting inside a scope, storing outside an allocation). *)
Definition live_step (s : lives) (o : op) (addr : nat * Z) : option lives :=
  match o with
  | Alloc n => Some (Lv (live s ++ [Al (fst addr) (snd addr) n (fun _ => 0)]) (scopes s))
  | Save => Some (Lv (live s) (length (live s) :: scopes s))
  | Restore => match scopes s with [] => None | n :: r => Some (Lv (firstn n (live s)) r) end
  | Reset => match scopes s with [] => Some (Lv [] []) | _ => None end
  | Destroy => Some (Lv [] [])
  | Write k i v =>
      match nth_error (live s) k with
      | Some a => if (0 <=? i) && (i <? len a)
                  then Some (Lv (update (live s) k (fun a => Al (blk a) (off a) (len a) (put (contents a) i v))) (scopes s))
                  else None
      | None => None
      end
  end.
Definition disjoint (a b : alloc) : Prop := blk a <> blk b \/ off a + len a <= off b \/ off b + len b <= off a.
Definition round8 (n : Z) : Z := (n + 7) / 8 * 8.
Fixpoint total (l : list alloc) : Z := match l with [] => 0 | a :: l => round8 (len a) + total l end.
