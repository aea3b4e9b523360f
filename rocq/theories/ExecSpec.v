(** Running a command: what the command says and how it ends. *)
From Verif Require Import Base.

Inductive fd := Out | Err.
(** What a command does: it writes bytes to one of its two outputs, or closes
    one of them.  Its end: it exits with a code, or a signal kills it. *)
Inductive act := Put (f : fd) (b : bytes) | Shut (f : fd).
Inductive outcome := Exited (c : Z) | Signaled (s : Z).
Record command := Command { acts : list act; ends : outcome }.

Definition same (f g : fd) : bool := match f, g with Out, Out | Err, Err => true | _, _ => false end.
(** All it writes to an output before it closes it or ends. *)
Fixpoint said (f : fd) (l : list act) : bytes :=
  match l with
  | [] => []
  | Put g b :: l => if same f g then b ++ said f l else said f l
  | Shut g :: l => if same f g then [] else said f l
  end.
(** The exit code as a shell gives it. *)
Definition code (o : outcome) : Z := match o with Exited c => c | Signaled s => 128 + s end.

Inductive result := Failed | Ran (code : Z) (out err : bytes).
(** The promise of the documentation. *)
Definition promised (c : command) : result := Ran (code (ends c)) (said Out (acts c)) (said Err (acts c)).
(** What the program gives: nothing when the command says more than [limit] bytes
    on an output, and nothing when its exit code is 127. *)
Definition granted (limit : Z) (c : command) : result :=
  if (limit <? Z.of_nat (length (said Out (acts c)))) || (limit <? Z.of_nat (length (said Err (acts c)))) || (code (ends c) =? 127)
  then Failed else promised c.
