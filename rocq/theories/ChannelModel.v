(** Model of grayc/src/stdlib/channels.c: one channel shared by any number of threads, executed one
    C statement at a time under every schedule.
    Simplifications: memory accesses are sequentially consistent, including the read of ch->closed
    outside the lock on lines 46 and 84 (a data race in C11, see channel_race_refuted); malloc does
    not fail; handles are never null. *)
From Verif Require Import Base ChannelSpec.

(** channels.c:15-25.  [cells] is the number of int64_t that fit in the malloc'ed block. *)
Record chan := Chan {
  capacity : Z; cells : Z; buffer : Z -> Z;
  count : Z; head : Z; tail : Z; closed : bool;
  owner : option nat  (* which thread holds ch->mutex *)
}.
(** channels.c:27-42; the size of the block is a size_t product *)
Definition open (cap : Z) : chan :=
  let cap := if cap <? 1 then 1 else cap in
  Chan cap (wrap_u 64 (8 * cap) / 8) (fun _ => 0) 0 0 0 false None.

(** Where a thread is, named after the statement it executes next.  [bl] tells send from try_send
    and receive from try_receive. *)
Inductive pc :=
| Idle
| PEnter (bl : bool) (v : Z)   (* 46, 84: reads closed without the lock *)
| PLock (bl : bool) (v : Z)    (* 48, 86 *)
| PTest (bl : bool) (v : Z)    (* 49, 87 *)
| PWait (v : Z)                (* 50: asleep on not_full *)
| PAwake (v : Z)               (* 50: woken, not yet holding the mutex again *)
| PClosed (v : Z)              (* 52 *)
| PStore (bl : bool) (v : Z)   (* 56, 91 *)
| PTail (bl : bool) (v : Z)    (* 57, 92 *)
| PCount (bl : bool) (v : Z)   (* 58, 93 *)
| PSignal (bl : bool) (v : Z)  (* 59, 94 *)
| GLock (bl : bool)            (* 67, 104 *)
| GTest (bl : bool)            (* 68, 105 *)
| GWait                        (* 69: asleep on not_empty *)
| GAwake                       (* 69: woken, not yet holding the mutex again *)
| GEnded                       (* 71 *)
| GLoad (bl : bool)            (* 75, 109 *)
| GHead (bl : bool) (v : Z)    (* 76, 110 *)
| GCount (bl : bool) (v : Z)   (* 77, 111 *)
| GSignal (bl : bool) (v : Z)  (* 78, 113 *)
| CLock                        (* 122 *)
| CSet                         (* 123 *)
| CCast1                       (* 124 *)
| CCast2                       (* 125 *)
| Unlock (o : op) (r : outcome) (* 53, 60, 72, 79, 88, 95, 106, 114, 126 *)
| Ret (o : op) (r : outcome).  (* return *)

Definition entry (o : op) : pc :=
  match o with
  | Send v => PEnter true v | TrySend v => PEnter false v
  | Receive => GLock true | TryReceive => GLock false | Close => CLock
  end.
Definition put_op (bl : bool) (v : Z) : op := if bl then Send v else TrySend v.
Definition put_done (bl : bool) : outcome := if bl then Sent else Tried true.
Definition put_fail (bl : bool) : outcome := if bl then Dropped else Tried false.
Definition get_op (bl : bool) : op := if bl then Receive else TryReceive.
Definition get_done (bl : bool) (v : Z) : outcome := if bl then Got v else TryGot v.

(** [crashed]: an access outside the malloc'ed block has happened. *)
Record state := St { ch : chan; pcs : list pc; trace : list event; crashed : bool }.
Definition start (cap : Z) (threads : nat) : state := St (open cap) (List.repeat Idle threads) [] false.

Fixpoint set_nth (l : list pc) (t : nat) (p : pc) : list pc :=
  match l, t with
  | [], _ => []
  | _ :: l, O => p :: l
  | x :: l, S t => x :: set_nth l t p
  end.
Definition goto (s : state) (t : nat) (p : pc) : state := St (ch s) (set_nth (pcs s) t p) (trace s) (crashed s).
Definition note (s : state) (e : event) : state := St (ch s) (pcs s) (trace s ++ [e]) (crashed s).
Definition with_ch (s : state) (c : chan) : state := St c (pcs s) (trace s) (crashed s).
Definition crash (s : state) : state := St (ch s) (pcs s) (trace s) true.
Definition set_owner (c : chan) (o : option nat) : chan :=
  Chan (capacity c) (cells c) (buffer c) (count c) (head c) (tail c) (closed c) o.
Definition set_count (c : chan) (n : Z) : chan :=
  Chan (capacity c) (cells c) (buffer c) n (head c) (tail c) (closed c) (owner c).
Definition set_head (c : chan) (n : Z) : chan :=
  Chan (capacity c) (cells c) (buffer c) (count c) n (tail c) (closed c) (owner c).
Definition set_tail (c : chan) (n : Z) : chan :=
  Chan (capacity c) (cells c) (buffer c) (count c) (head c) n (closed c) (owner c).
Definition set_closed (c : chan) : chan :=
  Chan (capacity c) (cells c) (buffer c) (count c) (head c) (tail c) true (owner c).
Definition store (c : chan) (i v : Z) : chan :=
  Chan (capacity c) (cells c) (fun j => if j =? i then v else buffer c j)
    (count c) (head c) (tail c) (closed c) (owner c).
Definition in_block (c : chan) (i : Z) : bool := (0 <=? i) && (i <? cells c).

(** Condition variables.  pthread_cond_signal wakes one of the waiting threads, which one is the
    schedule's choice [w]; nothing happens when there is none. *)
Definition waits_full (p : pc) : bool := match p with PWait _ => true | _ => false end.
Definition waits_empty (p : pc) : bool := match p with GWait => true | _ => false end.
Definition wake (p : pc) : pc := match p with PWait v => PAwake v | GWait => GAwake | _ => p end.
Definition signal (waits : pc -> bool) (w : nat) (l : list pc) : option (list pc) :=
  if existsb waits l then
    match nth_error l w with
    | Some p => if waits p then Some (set_nth l w (wake p)) else None
    | None => None
    end
  else Some l.
Definition broadcast (waits : pc -> bool) (l : list pc) : list pc :=
  map (fun p => if waits p then wake p else p) l.
Definition with_pcs (s : state) (l : list pc) : state := St (ch s) l (trace s) (crashed s).

(** pthread_mutex_lock: possible when nobody holds the mutex *)
Definition lock (s : state) (t : nat) (p : pc) : option state :=
  match owner (ch s) with
  | None => Some (goto (with_ch s (set_owner (ch s) (Some t))) t p)
  | Some _ => None
  end.

(** The next statement of thread t; None when it cannot run now.  The comments on [pc] give the lines. *)
Definition run (s : state) (t w : nat) : option state :=
  let c := ch s in
  match nth_error (pcs s) t with
  | None => None
  | Some p =>
    match p with
    | Idle | PWait _ | GWait => None
    | PEnter bl v =>
        if closed c then Some (goto (note s (EEffect t (put_op bl v) (put_fail bl))) t (Ret (put_op bl v) (put_fail bl)))
        else Some (goto s t (PLock bl v))
    | PLock bl v => lock s t (PTest bl v)
    | PTest true v =>
        if (count c =? capacity c) && negb (closed c)
        then Some (goto (with_ch s (set_owner c None)) t (PWait v))
        else Some (goto s t (PClosed v))
    | PTest false v =>
        if (count c =? capacity c) || closed c
        then Some (goto (note s (EEffect t (TrySend v) (Tried false))) t (Unlock (TrySend v) (Tried false)))
        else Some (goto s t (PStore false v))
    | PAwake v => lock s t (PTest true v)
    | PClosed v =>
        if closed c
        then Some (goto (note s (EEffect t (Send v) Dropped)) t (Unlock (Send v) Dropped))
        else Some (goto s t (PStore true v))
    | PStore bl v =>
        if in_block c (tail c) then Some (goto (with_ch s (store c (tail c) v)) t (PTail bl v))
        else Some (crash s)
    | PTail bl v => Some (goto (with_ch s (set_tail c (Z.rem (tail c + 1) (capacity c)))) t (PCount bl v))
    | PCount bl v =>
        Some (goto (note (with_ch s (set_count c (count c + 1))) (EEffect t (put_op bl v) (put_done bl))) t (PSignal bl v))
    | PSignal bl v =>
        match signal waits_empty w (pcs s) with
        | Some l => Some (goto (with_pcs s l) t (Unlock (put_op bl v) (put_done bl)))
        | None => None
        end
    | GLock bl => lock s t (GTest bl)
    | GTest true =>
        if (count c =? 0) && negb (closed c)
        then Some (goto (with_ch s (set_owner c None)) t GWait)
        else Some (goto s t GEnded)
    | GTest false =>
        if count c =? 0
        then Some (goto (note s (EEffect t TryReceive TryNone)) t (Unlock TryReceive TryNone))
        else Some (goto s t (GLoad false))
    | GAwake => lock s t (GTest true)
    | GEnded =>
        if (count c =? 0) && closed c
        then Some (goto (note s (EEffect t Receive Ended)) t (Unlock Receive Ended))
        else Some (goto s t (GLoad true))
    | GLoad bl =>
        if in_block c (head c) then Some (goto s t (GHead bl (buffer c (head c)))) else Some (crash s)
    | GHead bl v => Some (goto (with_ch s (set_head c (Z.rem (head c + 1) (capacity c)))) t (GCount bl v))
    | GCount bl v =>
        Some (goto (note (with_ch s (set_count c (count c - 1))) (EEffect t (get_op bl) (get_done bl v))) t (GSignal bl v))
    | GSignal bl v =>
        match signal waits_full w (pcs s) with
        | Some l => Some (goto (with_pcs s l) t (Unlock (get_op bl) (get_done bl v)))
        | None => None
        end
    | CLock => lock s t CSet
    | CSet => Some (goto (note (with_ch s (set_closed c)) (EEffect t Close DoneClose)) t CCast1)
    | CCast1 => Some (goto (with_pcs s (broadcast waits_full (pcs s))) t CCast2)
    | CCast2 => Some (goto (with_pcs s (broadcast waits_empty (pcs s))) t (Unlock Close DoneClose))
    | Unlock o r => Some (goto (with_ch s (set_owner c None)) t (Ret o r))
    | Ret o r => Some (goto (note s (ERet t o r)) t Idle)
    end
  end.

(** One step of the whole program: a thread calls an operation, a thread executes its next
    statement, or a sleeping thread wakes up for no reason (POSIX allows it). *)
Inductive label := LCall (t : nat) (o : op) | LRun (t w : nat) | LSpurious (t : nat).
Definition step (s : state) (l : label) : option state :=
  if crashed s then None else
  match l with
  | LCall t o =>
      match nth_error (pcs s) t with
      | Some Idle => Some (goto (note s (ECall t o)) t (entry o))
      | _ => None
      end
  | LRun t w => run s t w
  | LSpurious t =>
      match nth_error (pcs s) t with
      | Some p => if waits_full p || waits_empty p then Some (goto s t (wake p)) else None
      | None => None
      end
  end.
Fixpoint steps (s : state) (ls : list label) : option state :=
  match ls with
  | [] => Some s
  | l :: ls => match step s l with Some s => steps s ls | None => None end
  end.
(** Every state some schedule of [threads] threads leads to. *)
Definition reachable (cap : Z) (threads : nat) (s : state) : Prop :=
  exists ls, steps (start cap threads) ls = Some s.
