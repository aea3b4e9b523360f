(** os.c: gray_os_exec, the parent and the child it forks, two pipes, and any
    scheduler.  Simplified: pipe and fork succeed and no read fails; the child
    does not read its input and starts no process that keeps its outputs; a
    write to a closed descriptor is ignored by the child; a pipe has room for
    [room] bytes; select tells exactly which descriptors are ready; select can be
    interrupted by a signal at any time.  A child whose execvp fails is a command
    that says nothing and exits with 127. *)
From Verif Require Import Base ExecSpec.

(** os.c:22 *)
Definition GRAY_EXEC_OUTPUT_MAX : Z := 64 * 1024 * 1024.
(** os.c:141 *)
Definition CHUNK : Z := 4096.
Definition len (b : bytes) : Z := Z.of_nat (length b).

(** One pipe with the parent's variables for it (os.c:141-150): the write end,
    the bytes in the pipe, the buffer (total is its length) and its capacity. *)
Record stream := Stream { wopen : bool; queue : bytes; buf : bytes; cap : Z; done : bool }.
(** Where the parent is: at select (os.c:153-159), at the read of the output
    (161-182) or of the error output (184-205), at waitpid (211-212), returned. *)
Inductive phase := PSel | POut (ro re : bool) | PErr (re : bool) | PWait | PRet (r : result).
Record st := St { todo : list act; fin : outcome; gone : option outcome; so : stream; se : stream;
                  trunc : bool; rd_open : bool; ph : phase; bad : bool }.
Definition of (f : fd) (s : st) : stream := match f with Out => so s | Err => se s end.
Definition set (f : fd) (x : stream) (s : st) : st :=
  match f with
  | Out => St (todo s) (fin s) (gone s) x (se s) (trunc s) (rd_open s) (ph s) (bad s)
  | Err => St (todo s) (fin s) (gone s) (so s) x (trunc s) (rd_open s) (ph s) (bad s)
  end.
Definition go_on (l : list act) (s : st) : st := St l (fin s) (gone s) (so s) (se s) (trunc s) (rd_open s) (ph s) (bad s).
Definition at_phase (p : phase) (s : st) : st := St (todo s) (fin s) (gone s) (so s) (se s) (trunc s) (rd_open s) p (bad s).
Definition close_w (x : stream) : stream := Stream false (queue x) (buf x) (cap x) (done x).
(** The end of the child: the kernel closes what it had open. *)
Definition die (o : outcome) (s : st) : st :=
  match gone s with
  | Some _ => s
  | None => St [] (fin s) (Some o) (close_w (so s)) (close_w (se s)) (trunc s) (rd_open s) (ph s) (bad s)
  end.

(** The child; [n]: how much it gets to write at once.  [None]: it waits. *)
Definition child_step (room : Z) (n : nat) (s : st) : option st :=
  match gone s with
  | Some _ => None
  | None =>
    match todo s with
    | [] => Some (die (fin s) s)
    | Shut f :: l => Some (go_on l (set f (close_w (of f s)) s))
    | Put f b :: l =>
      if (length b =? 0)%nat then Some (go_on l s) else
      if negb (wopen (of f s)) then Some (go_on l s) else
      if negb (rd_open s) then Some (die (Signaled 13) s) else
      let x := of f s in
      let k := Nat.min n (Z.to_nat (room - len (queue x))) in
      if (k =? 0)%nat then None else
      Some (go_on (Put f (skipn k b) :: l)
        (set f (Stream (wopen x) (queue x ++ firstn k b) (buf x) (cap x) (done x)) s))
    end
  end.

Definition ready (x : stream) : bool := negb (length (queue x) =? 0)%nat || negb (wopen x).
Definition finished (x : stream) : stream := Stream (wopen x) (queue x) (buf x) (cap x) true.
(** os.c:162-181 and 185-204.  [None]: read waits.  A memcpy past the end of the
    buffer sets [bad]. *)
Definition read_from (f : fd) (s : st) : option st :=
  let x := of f s in
  if (length (queue x) =? 0)%nat then
    if wopen x then None else Some (set f (finished x) s)
  else
    let n := firstn (Z.to_nat CHUNK) (queue x) in
    let rest := skipn (Z.to_nat CHUNK) (queue x) in
    let x := Stream (wopen x) rest (buf x) (cap x) (done x) in
    if GRAY_EXEC_OUTPUT_MAX <? len (buf x) + len n then
      let s := die (Signaled 9) (set f x s) in
      let s := set Out (finished (so s)) s in
      let s := set Err (finished (se s)) s in
      Some (St (todo s) (fin s) (gone s) (so s) (se s) true (rd_open s) (ph s) (bad s))
    else
      let c := if cap x <? len (buf x) + len n then cap x * 2 + len n else cap x in
      let s := set f (Stream (wopen x) rest (buf x ++ n) c (done x)) s in
      Some (if c <? len (buf x) + len n
            then St (todo s) (fin s) (gone s) (so s) (se s) (trunc s) (rd_open s) (ph s) true else s).
(** os.c:208-209 *)
Definition leave (s : st) : st := St (todo s) (fin s) (gone s) (so s) (se s) (trunc s) false PWait (bad s).
(** os.c:214-227 *)
Definition answer (s : st) (o : outcome) : result :=
  let exit_code := match o with Exited c => c | Signaled g => 128 + g end in
  if (exit_code =? 127) || trunc s then Failed else Ran exit_code (buf (so s)) (buf (se s)).

Definition parent_step (s : st) : option st :=
  match ph s with
  | PSel =>
    if done (so s) && done (se s) then Some (leave s) else
    let ro := negb (done (so s)) && ready (so s) in
    let re := negb (done (se s)) && ready (se s) in
    if ro || re then Some (at_phase (POut ro re) s) else None
  | POut ro re =>
    if negb (done (so s)) && ro then
      match read_from Out s with Some s => Some (at_phase (PErr re) s) | None => None end
    else Some (at_phase (PErr re) s)
  | PErr re =>
    if negb (done (se s)) && re then
      match read_from Err s with Some s => Some (at_phase PSel s) | None => None end
    else Some (at_phase PSel s)
  | PWait => match gone s with Some o => Some (at_phase (PRet (answer s o)) s) | None => None end
  | PRet _ => None
  end.

(** The scheduler's choices; [Interrupt]: select returns -1 (os.c:159). *)
Inductive event := Child (n : nat) | Parent | Interrupt.
Definition step (room : Z) (s : st) (e : event) : option st :=
  match e with
  | Child n => child_step room n s
  | Parent => parent_step s
  | Interrupt => match ph s with PSel => if done (so s) && done (se s) then None else Some (leave s) | _ => None end
  end.
(** os.c:98-150 *)
Definition init (c : command) : st :=
  let x := Stream true [] [] CHUNK false in
  St (acts c) (ends c) None x x false true PSel false.
Inductive reaches (room : Z) : st -> list event -> st -> Prop :=
| reach_nil s : reaches room s [] s
| reach_cons s e s' l s'' : step room s e = Some s' -> reaches room s' l s'' -> reaches room s (e :: l) s''.
