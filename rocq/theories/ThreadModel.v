(** Model of grayc/src/stdlib/threads.c: any number of spawned threads, each with its record
    (GrayThreadInternal) and one owner of the handle, executed one statement at a time under every
    schedule.  Simplifications: spawn is one step (the new thread does not exist before it and the
    record is not shared until it returns); the owner calls detach or join at most once and nothing
    else after join; the contents of a freed record stay readable but reading them sets [after_free]. *)
From Verif Require Import Base.

(** the statements of thread_entry after the user's function, threads.c:36-53 *)
Inductive wpc := WRun (* 41-47 *) | WCount (* 48 *) | WAlive (* 49 *) | WCheck (* 51 *) | WFree (* 51 *) | WFreeArg (* 52 *) | WEnd
  | WNever. (* pthread_create failed *)
(** the owner of the handle *)
Inductive cpc :=
| CIdle
| DSet    (* 105 detached = 1 *)
| DLoad   (* 109 load alive *)
| DDetach (dead : bool)  (* 112, 115 pthread_detach(state->pt) *)
| DFree   (* 113 *)
| CDetached
| JWait   (* 97 pthread_join(state->pt) *)
| JFree   (* 98 *)
| CJoined
| ALoad (det : bool).  (* 120-122 is_alive; det: called after detach *)
Record rec := Rec {
  alive : bool; detached : bool;      (* the atomics of the record *)
  frees : nat;                        (* how often free(state) was called *)
  after_free : bool;                  (* the record was accessed or freed after a free *)
  wk : wpc; ct : cpc
}.
(** gray_threads_live_count *)
Record state := St { live : Z; recs : list rec }.
Definition start : state := St 0 [].

Definition touch (r : rec) : rec := Rec (alive r) (detached r) (frees r) (after_free r || (0 <? frees r)%nat) (wk r) (ct r).
Definition set_wk (r : rec) (p : wpc) : rec := Rec (alive r) (detached r) (frees r) (after_free r) p (ct r).
Definition set_ct (r : rec) (p : cpc) : rec := Rec (alive r) (detached r) (frees r) (after_free r) (wk r) p.
Definition free_rec (r : rec) : rec := let r := touch r in Rec (alive r) (detached r) (S (frees r)) (after_free r) (wk r) (ct r).
Definition set_dead (r : rec) : rec := let r := touch r in Rec false (detached r) (frees r) (after_free r) (wk r) (ct r).
Definition set_detached (r : rec) : rec := let r := touch r in Rec (alive r) true (frees r) (after_free r) (wk r) (ct r).

(** threads.c:55-67: the record of a new thread *)
Definition new_rec (created : bool) : rec := Rec true false 0 false (if created then WRun else WNever) CIdle.

(** the next statement of the thread; the change of the live counter *)
Definition work (r : rec) : option (rec * Z) :=
  match wk r with
  | WRun => Some (set_wk r WCount, 0)
  | WCount => Some (set_wk r WAlive, -1)
  | WAlive => Some (set_wk (set_dead r) WCheck, 0)
  | WCheck => let r := touch r in Some (set_wk r (if detached r then WFree else WFreeArg), 0)
  | WFree => Some (set_wk (free_rec r) WFreeArg, 0)
  | WFreeArg => Some (set_wk r WEnd, 0)
  | WEnd | WNever => None
  end.
(** the next statement of the owner *)
Definition control (r : rec) : option rec :=
  match ct r with
  | DSet => Some (set_ct (set_detached r) DLoad)
  | DLoad => let r := touch r in Some (set_ct r (DDetach (negb (alive r))))
  | DDetach dead => Some (set_ct (touch r) (if dead then DFree else CDetached))
  | DFree => Some (set_ct (free_rec r) CDetached)
  | JWait => match wk r with WEnd => Some (set_ct (touch r) JFree) | _ => None end
  | JFree => Some (set_ct (free_rec r) CJoined)
  | ALoad det => Some (set_ct (touch r) (if det then CDetached else CIdle))
  | CIdle | CDetached | CJoined => None
  end.
Inductive call := Detach | Join | IsAlive.
Definition begin_call (r : rec) (c : call) : option rec :=
  match ct r, c with
  | CIdle, Detach => Some (set_ct r DSet)
  | CIdle, Join => Some (set_ct r JWait)
  | CIdle, IsAlive => Some (set_ct r (ALoad false))
  | CDetached, IsAlive => Some (set_ct r (ALoad true))
  | _, _ => None
  end.

Inductive label := LSpawn (created : bool) | LWork (i : nat) | LCall (i : nat) (c : call) | LControl (i : nat).
Fixpoint set_nth (l : list rec) (i : nat) (r : rec) : list rec :=
  match l, i with
  | [], _ => []
  | _ :: l, O => r :: l
  | x :: l, S i => x :: set_nth l i r
  end.
Definition step (s : state) (l : label) : option state :=
  match l with
  | LSpawn created => Some (St (live s + 1) (recs s ++ [new_rec created]))
  | LWork i =>
      match nth_error (recs s) i with
      | Some r => match work r with Some (r', d) => Some (St (live s + d) (set_nth (recs s) i r')) | None => None end
      | None => None
      end
  | LCall i c =>
      match nth_error (recs s) i with
      | Some r => match begin_call r c with Some r' => Some (St (live s) (set_nth (recs s) i r')) | None => None end
      | None => None
      end
  | LControl i =>
      match nth_error (recs s) i with
      | Some r => match control r with Some r' => Some (St (live s) (set_nth (recs s) i r')) | None => None end
      | None => None
      end
  end.
Fixpoint steps (s : state) (ls : list label) : option state :=
  match ls with [] => Some s | l :: ls => match step s l with Some s => steps s ls | None => None end end.
