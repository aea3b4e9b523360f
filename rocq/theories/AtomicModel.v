(** Model of the assembly routines grayc/src/runtime/arch/x86_64/atomic.s and arm64/atomic.s and of the
    machine that runs them: any number of threads execute them one instruction at a time on one shared
    cell, under every schedule.  Simplified: memory is sequentially consistent (each memory instruction
    acts at once; fences do nothing), values are two's complement integers of one width w (64 or 32), a
    load-exclusive reservation is lost by any write of another thread and a store-exclusive may fail at
    any time, an access through another pointer than the one passed is a fault.  The 8-bit routines are not
    modelled; and, or, xor exist for 64 bits only. *)
From Verif Require Import Base AtomicSpec.

(** registers: x86 R0 = rax, R1 = rsi, R2 = rdx, R3 = rcx, R5 = rdi; ARM Rk = xk *)
Inductive reg := R0 | R1 | R2 | R3 | R4 | R5.
Inductive instr :=
| Fence                      (* mfence, dmb ish, pause, yield *)
| Mov (d s : reg) | Imm (d : reg) (n : Z) | Neg (d : reg)
| Alu (k : alu) (d a b : reg)
| Ld (d p : reg) | St (s p : reg) | StI (n : Z) (p : reg)
| Xadd (d p : reg)           (* lock xadd d, (p) *)
| CmpXchg (s p : reg)        (* lock cmpxchg s, (p), comparing with rax *)
| Xchg (d p : reg)           (* xchg d, (p) *)
| Sete (d : reg) | Movzb (d : reg)
| Test (a : reg) | CmpM0 (p : reg) | Cmp (a b : reg)
| Jne (n : nat) | Jmp (n : nat) | Cbnz (a : reg) (n : nat)
| Ldx (d p : reg)            (* ldxr d, [p] *)
| Stx (st s p : reg)         (* stxr / stlxr st, s, [p] *)
| Clrex
| Return.

Record regs := Regs { r0 : Z; r1 : Z; r2 : Z; r3 : Z; r4 : Z; r5 : Z }.
Definition get (r : regs) (k : reg) : Z :=
  match k with R0 => r0 r | R1 => r1 r | R2 => r2 r | R3 => r3 r | R4 => r4 r | R5 => r5 r end.
Definition set (r : regs) (k : reg) (v : Z) : regs :=
  let '(Regs a b c d e f) := r in
  match k with
  | R0 => Regs v b c d e f | R1 => Regs a v c d e f | R2 => Regs a b v d e f
  | R3 => Regs a b c v e f | R4 => Regs a b c d v f | R5 => Regs a b c d e v
  end.
(** program counter, registers, zero flag, exclusive reservation *)
Record cpu := Cpu { pc : nat; rs : regs; zf : bool; excl : bool }.

Inductive arch := X86 | ARM.
Definition code (a : arch) (o : op) : list instr :=
  match a, o with
  | X86, Load => [Fence; Ld R0 R5; Fence; Return]                                   (* x86 atomic.s:23-27, 161-165 *)
  | X86, Store _ => [Fence; St R1 R5; Fence; Return]                                (* 35-39, 173-177 *)
  | X86, Rmw KAdd _ => [Mov R0 R1; Xadd R0 R5; Return]                              (* 48-51, 186-189 *)
  | X86, Rmw KSub _ => [Neg R1; Mov R0 R1; Xadd R0 R5; Return]                      (* 60-64, 198-202 *)
  | X86, Cas _ _ => [Mov R0 R1; CmpXchg R2 R5; Sete R0; Movzb R0; Return]           (* 73-78, 211-216 *)
  | X86, Exchange _ => [Mov R0 R1; Xchg R0 R5; Return]                              (* 87-90, 225-228 *)
  | X86, Rmw k _ => [Ld R0 R5; Mov R3 R0; Alu k R3 R3 R1; CmpXchg R3 R5; Jne 1; Return] (* 99-138 *)
  | X86, Lock => [Imm R0 1; Xchg R0 R5; Test R0; Jne 5; Return; Fence; CmpM0 R5; Jne 5; Jmp 0] (* 296-307 *)
  | X86, TryLock => [Imm R0 1; Xchg R0 R5; Test R0; Sete R0; Movzb R0; Return]      (* 316-322 *)
  | X86, Unlock => [Fence; StI 0 R5; Return]                                        (* 331-334 *)
  | ARM, Load => [Fence; Ld R0 R0; Fence; Return]                                   (* arm64 atomic.s:23-27, 186-190 *)
  | ARM, Store _ => [Fence; St R1 R0; Fence; Return]                                (* 35-39, 198-202 *)
  | ARM, Rmw k _ => [Ldx R2 R0; Alu k R3 R2 R1; Stx R4 R3 R0; Cbnz R4 0; Fence; Mov R0 R2; Return] (* 48-73, 121-163, 211-236 *)
  | ARM, Cas _ _ => [Ldx R3 R0; Cmp R3 R1; Jne 8; Stx R4 R2 R0; Cbnz R4 0; Fence; Imm R0 1; Return;
                     Clrex; Fence; Imm R0 0; Return]                                (* 82-96, 245-259 *)
  | ARM, Exchange _ => [Ldx R2 R0; Stx R3 R1 R0; Cbnz R3 0; Fence; Mov R0 R2; Return] (* 105-112, 268-275 *)
  | ARM, Lock => [Ldx R1 R0; Cbnz R1 7; Imm R2 1; Stx R3 R2 R0; Cbnz R3 0; Fence; Return;
                  Fence; Ld R1 R0; Cbnz R1 7; Jmp 0]                                (* 355-368 *)
  | ARM, TryLock => [Ldx R1 R0; Cbnz R1 8; Imm R2 1; Stx R3 R2 R0; Cbnz R3 8; Fence; Imm R0 1; Return;
                     Clrex; Imm R0 0; Return]                                       (* 377-389 *)
  | ARM, Unlock => [Fence; StI 0 R0; Return]                                        (* 398-401 *)
  end.
(** The calling conventions: first argument the pointer, then the operands; the other registers hold
    whatever g says. *)
Definition entry (a : arch) (ptr : Z) (o : op) (g : regs) : regs :=
  let g := match a with X86 => set g R5 ptr | ARM => set g R0 ptr end in
  match o with
  | Store v | Rmw _ v | Exchange v => set g R1 v
  | Cas e d => set (set g R1 e) R2 d
  | _ => g
  end.
(** What the caller sees; void functions return nothing. *)
Definition result (o : op) (r : regs) : Z := match o with Store _ | Lock | Unlock => 0 | _ => r0 r end.

(** One instruction: the new cpu, the new cell, and whether the cell was written; or a return; or a fault. *)
Inductive outcome := Next (c : cpu) (m : Z) (wrote : bool) | Returned | Fault.
Definition exec (w ptr : Z) (i : instr) (ok : bool) (c : cpu) (m : Z) : outcome :=
  let r := rs c in
  let nx r z e m wr := Next (Cpu (S (pc c)) r z e) m wr in
  let plain r := nx r (zf c) (excl c) m false in
  let at_ p (k : outcome) := if get r p =? ptr then k else Fault in
  let jump (b : bool) n := Next (Cpu (if b then n else S (pc c)) r (zf c) (excl c)) m false in
  match i with
  | Fence => plain r
  | Mov d s => plain (set r d (get r s))
  | Imm d n => plain (set r d n)
  | Neg d => plain (set r d (wrap_i w (- get r d)))
  | Alu k d a b => plain (set r d (compute w k (get r a) (get r b)))
  | Ld d p => at_ p (plain (set r d m))
  | St s p => at_ p (nx r (zf c) (excl c) (get r s) true)
  | StI n p => at_ p (nx r (zf c) (excl c) n true)
  | Xadd d p => at_ p (nx (set r d m) (zf c) (excl c) (wrap_i w (m + get r d)) true)
  | CmpXchg s p => at_ p (if m =? r0 r then nx r true (excl c) (get r s) true else nx (set r R0 m) false (excl c) m false)
  | Xchg d p => at_ p (nx (set r d m) (zf c) (excl c) (get r d) true)
  | Sete d => plain (set r d (get r d - get r d mod 256 + (if zf c then 1 else 0)))
  | Movzb d => plain (set r d (get r d mod 256))
  | Test a => nx r (get r a =? 0) (excl c) m false
  | CmpM0 p => at_ p (nx r (m =? 0) (excl c) m false)
  | Cmp a b => nx r (get r a =? get r b) (excl c) m false
  | Jne n => jump (negb (zf c)) n
  | Jmp n => jump true n
  | Cbnz a n => jump (negb (get r a =? 0)) n
  | Ldx d p => at_ p (nx (set r d m) (zf c) true m false)
  | Stx st s p => at_ p (if excl c && ok then nx (set r st 0) (zf c) false (get r s) true
                         else nx (set r st 1) (zf c) false m false)
  | Clrex => nx r (zf c) false m false
  | Return => Returned
  end.

Record thread := Thr { busy : option op; core : cpu }.
Record sys := Sys { mem : Z; threads : list thread; hist : list event; faulted : bool }.
Definition start (m0 : Z) (n : nat) : sys :=
  Sys m0 (List.repeat (Thr None (Cpu 0 (Regs 0 0 0 0 0 0) false false)) n) [] false.
Fixpoint set_nth {A} (l : list A) (i : nat) (x : A) : list A :=
  match l, i with
  | [], _ => []
  | _ :: l, O => x :: l
  | y :: l, S i => y :: set_nth l i x
  end.
(** another thread wrote: the reservation is lost *)
Definition lose (t : thread) : thread :=
  Thr (busy t) (Cpu (pc (core t)) (rs (core t)) (zf (core t)) false).

(** LCall t o g: thread t calls o with garbage g in the other registers; LRun t ok: it executes its next
    instruction, ok: a store-exclusive does not fail spuriously. *)
Inductive label := LCall (t : nat) (o : op) (g : regs) | LRun (t : nat) (ok : bool).
Definition step (a : arch) (w ptr : Z) (s : sys) (l : label) : option sys :=
  match l with
  | LCall t o g =>
      match nth_error (threads s) t with
      | Some th =>
          match busy th with
          | Some _ => None
          | None => Some (Sys (mem s) (set_nth (threads s) t (Thr (Some o) (Cpu 0 (entry a ptr o g) (zf (core th)) (excl (core th)))))
                           (hist s ++ [Call t o]) (faulted s))
          end
      | None => None
      end
  | LRun t ok =>
      match nth_error (threads s) t with
      | Some th =>
          match busy th with
          | None => None
          | Some o =>
              match nth_error (code a o) (pc (core th)) with
              | None => Some (Sys (mem s) (threads s) (hist s) true)
              | Some i =>
                  match exec w ptr i ok (core th) (mem s) with
                  | Next c m wrote =>
                      Some (Sys m (set_nth (if wrote then map lose (threads s) else threads s) t (Thr (Some o) c)) (hist s) (faulted s))
                  | Returned =>
                      Some (Sys (mem s) (set_nth (threads s) t (Thr None (core th))) (hist s ++ [Ret t (result o (rs (core th)))]) (faulted s))
                  | Fault => Some (Sys (mem s) (threads s) (hist s) true)
                  end
              end
          end
      | None => None
      end
  end.
Fixpoint steps (a : arch) (w ptr : Z) (s : sys) (ls : list label) : option sys :=
  match ls with [] => Some s | l :: ls => match step a w ptr s l with Some s => steps a w ptr s ls | None => None end end.
