(** Model of the connection counter of the HTTP server, grayc/src/stdlib/server.c:376-460 and 243-373:
    any number of listen loops and connection threads, one shared counter, every schedule.  Simplified:
    the work between two accesses of the counter is one step; accept, malloc and pthread_create succeed
    or fail as the schedule says; accept on a bad socket (line 424: continue) is not a step. *)
From Verif Require Import Base.

Definition max_connections : Z := 1024. (* server.c:29 *)

(** a listen loop, server.c:422-456 (and the same text in listen_host, 383-417) *)
Inductive lpc :=
| LAccept                 (* 423 gray_net_accept *)
| LAdd                    (* 427 prev = gray_atomic_add32(&active_connections, 1) *)
| LTest (prev : Z)        (* 428 if (prev >= MAX) *)
| LRefuse                 (* 429 gray_atomic_sub32 *)
| LReply                  (* 430-433 send 503, close *)
| LMalloc                 (* 436 *)
| LCreate                 (* 446 pthread_create *)
| LUndo.                  (* 438, 447 gray_atomic_sub32, close *)
(** a connection thread: at work, about to decrement (263, 286, 371), gone *)
Inductive hpc := HWork | HSub | HEnd.
Record state := St { counter : Z; listeners : list lpc; handlers : list hpc; refused : nat }.
Definition start (n : nat) : state := St 0 (List.repeat LAccept n) [] 0.

(** gray_atomic_add32 / gray_atomic_sub32: int32_t, wrapping, in one step *)
Definition add32 (c v : Z) : Z := wrap_i 32 (c + v).
Fixpoint set_nth {A} (l : list A) (i : nat) (x : A) : list A :=
  match l, i with
  | [], _ => []
  | _ :: l, O => x :: l
  | y :: l, S i => y :: set_nth l i x
  end.

Inductive label := LListen (i : nat) (ok : bool) | LHandle (j : nat).
(** ok: whether malloc or pthread_create succeeds when that is what the step does *)
Definition listen (s : state) (i : nat) (ok : bool) : option state :=
  match nth_error (listeners s) i with
  | None => None
  | Some p =>
    let go c p' h r := Some (St c (set_nth (listeners s) i p') h r) in
    let c := counter s in let h := handlers s in let r := refused s in
    match p with
    | LAccept => go c LAdd h r
    | LAdd => go (add32 c 1) (LTest c) h r
    | LTest prev => go c (if max_connections <=? prev then LRefuse else LMalloc) h r
    | LRefuse => go (add32 c (-1)) LReply h r
    | LReply => go c LAccept h (S r)
    | LMalloc => go c (if ok then LCreate else LUndo) h r
    | LCreate => if ok then go c LAccept (h ++ [HWork]) r else go c LUndo h r
    | LUndo => go (add32 c (-1)) LAccept h r
    end
  end.
Definition handle (s : state) (j : nat) : option state :=
  match nth_error (handlers s) j with
  | Some HWork => Some (St (counter s) (listeners s) (set_nth (handlers s) j HSub) (refused s))
  | Some HSub => Some (St (add32 (counter s) (-1)) (listeners s) (set_nth (handlers s) j HEnd) (refused s))
  | _ => None
  end.
Definition step (s : state) (l : label) : option state :=
  match l with LListen i ok => listen s i ok | LHandle j => handle s j end.
Fixpoint steps (s : state) (ls : list label) : option state :=
  match ls with [] => Some s | l :: ls => match step s l with Some s => steps s ls | None => None end end.
