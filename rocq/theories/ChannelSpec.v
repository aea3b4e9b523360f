(** What a bounded channel is: a FIFO queue of at most [cap] values that can be closed, and what it
    means for a concurrent run to behave like one.  Independent of the model. *)
From Verif Require Import Base.

Inductive op := Send (v : Z) | Receive | TrySend (v : Z) | TryReceive | Close.
(** Outcomes.  The caller of send sees neither [Sent] nor [Dropped]; the caller of receive sees a
    value for [Got v] and 0 for [Ended]. *)
Inductive outcome :=
| Sent | Dropped            (* send: the value was queued / the channel was closed *)
| Got (v : Z) | Ended       (* receive: a value / closed and empty *)
| Tried (b : bool)          (* try_send *)
| TryGot (v : Z) | TryNone  (* try_receive: (v, true) / (0, false) *)
| DoneClose.

(** The sequential channel: which outcomes an operation may have, and the queue afterwards. *)
Definition qstate := (list Z * bool)%type. (* queued values, oldest first; closed? *)
Definition apply (cap : Z) (s : qstate) (o : op) (r : outcome) : option qstate :=
  let '(q, closed) := s in
  let full := cap <=? Z.of_nat (length q) in
  match o, r with
  | Send v, Sent => if negb closed && negb full then Some (q ++ [v], closed) else None
  | Send _, Dropped => if closed then Some s else None
  | TrySend v, Tried true => if negb closed && negb full then Some (q ++ [v], closed) else None
  | TrySend _, Tried false => if closed || full then Some s else None
  | Receive, Got v => match q with x :: q => if x =? v then Some (q, closed) else None | [] => None end
  | Receive, Ended => match q with [] => if closed then Some s else None | _ => None end
  | TryReceive, TryGot v => match q with x :: q => if x =? v then Some (q, closed) else None | [] => None end
  | TryReceive, TryNone => match q with [] => Some s | _ => None end
  | Close, DoneClose => Some (q, true)
  | _, _ => None
  end.
Fixpoint apply_all (cap : Z) (s : qstate) (l : list (op * outcome)) : option qstate :=
  match l with
  | [] => Some s
  | (o, r) :: l => match apply cap s o r with Some s => apply_all cap s l | None => None end
  end.

(** A run is recorded as calls, effects and returns.  Thread t's part must be a sequence of
    "call o, effect of o with outcome r, return of r", the last one possibly unfinished. *)
Inductive event := ECall (t : nat) (o : op) | EEffect (t : nat) (o : op) (r : outcome) | ERet (t : nat) (o : op) (r : outcome).
Inductive phase := Out | Called (o : op) | Done (o : op) (r : outcome).
Definition who (e : event) : nat := match e with ECall t _ => t | EEffect t _ _ => t | ERet t _ _ => t end.
Definition next (p : phase) (e : event) (p' : phase) : Prop :=
  match p, e with
  | Out, ECall _ o => p' = Called o
  | Called o, EEffect _ o' r => o' = o /\ p' = Done o r
  | Done o r, ERet _ o' r' => o' = o /\ r' = r /\ p' = Out
  | _, _ => False
  end.
Inductive phases : phase -> list event -> phase -> Prop :=
| ph_nil p : phases p [] p
| ph_cons p e p' l q : next p e p' -> phases p' l q -> phases p (e :: l) q.
Definition of_thread (t : nat) (l : list event) : list event := filter (fun e => Nat.eqb (who e) t) l.
Definition effects (l : list event) : list (op * outcome) :=
  flat_map (fun e => match e with EEffect _ o r => [(o, r)] | _ => [] end) l.
(** Linearizable: every operation takes effect at one instant between its call and its return, with
    the outcome it returns, and the effects in order are a run of the sequential channel. *)
Definition linearizable (cap : Z) (l : list event) : Prop :=
  (forall t, exists p, phases Out (of_thread t l) p) /\
  (exists s, apply_all cap ([], false) (effects l) = Some s).

(** The values that went in and came out, in order. *)
Definition went_in (l : list (op * outcome)) : list Z :=
  flat_map (fun x => match x with (Send v, Sent) | (TrySend v, Tried true) => [v] | _ => [] end) l.
Definition came_out (l : list (op * outcome)) : list Z :=
  flat_map (fun x => match x with (Receive, Got v) | (TryReceive, TryGot v) => [v] | _ => [] end) l.
