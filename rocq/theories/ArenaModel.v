(** Model of the arena allocator, grayc/src/runtime/runtime.c:36-117 and 187-207, and of mem.c:16-36.
    Blocks are numbered in the order malloc returned them; an address is a block and an offset into its
    data (which starts 24 bytes into a 16-byte aligned malloc'ed object, so an 8-byte aligned offset is an
    8-byte aligned address).  malloc succeeding or not is an argument. *)
From Verif Require Import Base ArenaSpec.

(** runtime.h:27-32; freed: free was called on it *)
Record block := Blk { next : option nat; size : Z; used : Z; freed : bool }.
(** runtime.h:34-39, with the heap of its blocks and their bytes *)
Record arena := Arena { blocks : list block; mem : nat -> Z -> Z; first : option nat; current : option nat;
                        default_size : Z; destroyed : bool }.
Definition align8 (n : Z) : Z := Z.land (wrap_u 64 (n + 7)) (2 ^ 64 - 8). (* ALIGN_UP(size, 8) on size_t *)
Fixpoint set_nth (l : list block) (i : nat) (b : block) : list block :=
  match l, i with [], _ => [] | _ :: l, O => b :: l | x :: l, S i => x :: set_nth l i b end.
Definition with_used (b : block) (u : Z) : block := Blk (next b) (size b) u (freed b).
Definition with_next (b : block) (n : nat) : block := Blk (Some n) (size b) (used b) (freed b).
(** access through a pointer: a null, dangling or freed one is undefined *)
Definition deref (a : arena) (p : option nat) : res (nat * block) :=
  match p with
  | None => UB
  | Some i => match nth_error (blocks a) i with Some b => if freed b then UB else Ok (i, b) | None => UB end
  end.
Definition put_block (a : arena) (i : nat) (b : block) : arena :=
  Arena (set_nth (blocks a) i b) (mem a) (first a) (current a) (default_size a) (destroyed a).
Definition set_current (a : arena) (p : option nat) : arena :=
  Arena (blocks a) (mem a) (first a) p (default_size a) (destroyed a).
Definition set_mem (a : arena) (m : nat -> Z -> Z) : arena :=
  Arena (blocks a) m (first a) (current a) (default_size a) (destroyed a).

(** runtime.c:50-61 *)
Definition create (n : Z) (junk : nat -> Z -> Z) : arena := Arena [Blk None n 0 false] junk (Some 0%nat) (Some 0%nat) n false.
(** memset(ptr, 0, n) *)
Definition zero_range (m : nat -> Z -> Z) (i : nat) (o n : Z) : nat -> Z -> Z :=
  fun j k => if (j =? i)%nat && (o <=? k) && (k <? o + n) then 0 else m j k.
(** runtime.c:63-78; exit code 1 when malloc fails; a store outside the block is undefined *)
Definition arena_alloc (a : arena) (n : Z) (malloc_ok : bool) : res (arena * (nat * Z)) :=
  if destroyed a then Panic 1 else
  let n := align8 n in
  rbind (deref a (current a)) (fun '(i, b) =>
  rbind (if size b <? wrap_u 64 (used b + n) then
           if malloc_ok then
             let new := length (blocks a) in
             let a := put_block a i (with_next b new) in
             Ok (Arena (blocks a ++ [Blk None (if default_size a <? n then n else default_size a) 0 false]) (mem a) (first a)
                   (Some new) (default_size a) (destroyed a))
           else Panic 0 (* out of memory *)
         else Ok a) (fun a =>
  rbind (deref a (current a)) (fun '(i, b) =>
  if size b <? used b + n then UB
  else Ok (set_mem (put_block a i (with_used b (wrap_u 64 (used b + n)))) (zero_range (mem a) i (used b) n), (i, used b))))).
(** runtime.c:82-86, 200-204: used = 0 from p to the end of the chain; fuel: one unit per block *)
Fixpoint clear_chain (fuel : nat) (a : arena) (p : option nat) : res arena :=
  match p with
  | None => Ok a
  | Some _ => match fuel with
              | O => NoFuel
              | S fuel => rbind (deref a p) (fun '(i, b) => clear_chain fuel (put_block a i (with_used b 0)) (next b))
              end
  end.
(** runtime.c:80-88 *)
Definition arena_reset (a : arena) : res arena :=
  rmap (fun a => set_current a (first a)) (clear_chain (S (length (blocks a))) a (first a)).
(** runtime.c:94-99 *)
Fixpoint free_chain (fuel : nat) (a : arena) (p : option nat) : res arena :=
  match p with
  | None => Ok a
  | Some _ => match fuel with
              | O => NoFuel
              | S fuel => rbind (deref a p) (fun '(i, b) => free_chain fuel (put_block a i (Blk (next b) (size b) (used b) true)) (next b))
              end
  end.
(** runtime.c:90-106 *)
Definition arena_destroy (a : arena) : res arena :=
  if destroyed a then Panic 2 else
  rmap (fun a => Arena (blocks a) (mem a) None None (default_size a) true) (free_chain (S (length (blocks a))) a (first a)).
(** runtime.c:108-116 *)
Fixpoint sum_chain (fuel : nat) (a : arena) (p : option nat) (t : Z) : res Z :=
  match p with
  | None => Ok t
  | Some _ => match fuel with
              | O => NoFuel
              | S fuel => rbind (deref a p) (fun '(i, b) => sum_chain fuel a (next b) (wrap_u 64 (t + used b)))
              end
  end.
Definition arena_usage (a : arena) : res Z := sum_chain (S (length (blocks a))) a (first a) 0.
(** runtime.c:189-194 *)
Definition mark : Type := option nat * Z.
Definition scope_save (a : arena) : res mark :=
  match current a with None => Ok (None, 0) | Some _ => rmap (fun '(i, b) => (Some i, used b)) (deref a (current a)) end.
(** runtime.c:196-207 *)
Definition scope_restore (a : arena) (m : mark) : res arena :=
  match fst m with
  | None => Ok a
  | Some _ =>
      rbind (deref a (fst m)) (fun '(i, b) =>
      rbind (clear_chain (S (length (blocks a))) a (next b)) (fun a =>
      rbind (deref a (fst m)) (fun '(i, b) => Ok (set_current (put_block a i (with_used b (snd m))) (fst m)))))
  end.
(** mem.c:16-23 mem.arena; P0061 *)
Definition mem_arena (n : Z) (junk : nat -> Z -> Z) : res arena :=
  let n := if n <=? 0 then 4096 else n in
  if 1073741824 <? n then Panic 61 else Ok (create n junk).

(** A program using one arena: the marks of its open scopes, innermost first.  The marks are forgotten when
    the arena is destroyed.  ok: whether malloc succeeds in this step. *)
Record state := St { ar : arena; marks : list mark }.
Definition none_addr : nat * Z := (0%nat, 0).
Definition exec (s : state) (ls : lives) (o : op) (ok : bool) : res (state * (nat * Z)) :=
  match o with
  | Alloc n => rmap (fun '(a, p) => (St a (marks s), p)) (arena_alloc (ar s) n ok)
  | Save => rmap (fun m => (St (ar s) (m :: marks s), none_addr)) (scope_save (ar s))
  | Restore => match marks s with [] => UB | m :: r => rmap (fun a => (St a r, none_addr)) (scope_restore (ar s) m) end
  | Reset => rmap (fun a => (St a (marks s), none_addr)) (arena_reset (ar s))
  | Destroy => rmap (fun a => (St a [], none_addr)) (arena_destroy (ar s))
  | Write k i v =>
      match nth_error (live ls) k with
      | Some al => Ok (St (set_mem (ar s) (fun j x => if (j =? blk al)%nat && (x =? off al + i) then v else mem (ar s) j x)) (marks s), none_addr)
      | None => UB
      end
  end.
(** A whole history: each operation with malloc's answer.  None: not a history of a program. *)
Fixpoint run (s : state) (ls : lives) (h : list (op * bool)) : option (res (state * lives)) :=
  match h with
  | [] => Some (Ok (s, ls))
  | (o, ok) :: h =>
      match exec s ls o ok with
      | Ok (s', p) => match live_step ls o p with Some ls' => run s' ls' h | None => None end
      | Panic c => Some (Panic c) | UB => match live_step ls o none_addr with Some _ => Some UB | None => None end | NoFuel => Some NoFuel
      end
  end.
