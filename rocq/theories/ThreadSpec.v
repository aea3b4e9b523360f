(** Vocabulary for the theorems about threads. *)
From Verif Require Import Base ThreadModel.

(** The statements of thread i and its owner in a schedule, and a run of them. *)
Inductive act := AWork | ACall (c : call) | AControl.
Definition acts (i : nat) (ls : list label) : list act :=
  flat_map (fun l => match l with
    | LWork j => if Nat.eqb j i then [AWork] else []
    | LCall j c => if Nat.eqb j i then [ACall c] else []
    | LControl j => if Nat.eqb j i then [AControl] else []
    | LSpawn _ => [] end) ls.
Definition act_step (r : rec) (a : act) : option rec :=
  match a with AWork => option_map fst (work r) | ACall c => begin_call r c | AControl => control r end.
Fixpoint act_steps (r : rec) (l : list act) : option rec :=
  match l with [] => Some r | a :: l => match act_step r a with Some r => act_steps r l | None => None end end.

(** The thread has ended; its owner has finished detach or join. *)
Definition finished (r : rec) : bool := match wk r with WEnd => true | _ => false end.
Definition released (r : rec) : bool := match ct r with CDetached | CJoined => true | _ => false end.

(** Nobody calls detach on thread i. *)
Definition never_detached (ls : list label) (i : nat) : Prop := ~ In (LCall i Detach) ls.
(** The statements of detach (lines 105-115) and the last statements of the thread (lines 49-51) do not
    overlap: either detach has returned before the thread executes line 49, or the thread is past line 51
    when detach begins; and is_alive is not called after detach. *)
Definition apart (r : rec) (a : act) : Prop :=
  match a with
  | AWork => wk r = WAlive -> match ct r with DSet | DLoad | DDetach _ | DFree => False | _ => True end
  | ACall Detach => wk r <> WCheck
  | ACall IsAlive => ct r = CIdle
  | _ => True
  end.
Fixpoint apart_run (r : rec) (l : list act) : Prop :=
  match l with
  | [] => True
  | a :: l => apart r a /\ match act_step r a with Some r => apart_run r l | None => True end
  end.
(** The thread has not been counted out: its function has not returned, or line 48 is still to come. *)
Definition running (r : rec) : bool := match wk r with WRun | WCount => true | _ => false end.
Fixpoint count_running (l : list rec) : Z := match l with [] => 0 | r :: l => (if running r then 1 else 0) + count_running l end.
