(** What the statements of a function body mean, written without looking at
    the compiler: which pieces of straight-line program run, in which order,
    and how a function ends. *)
From Coq Require Import ZArith List Bool.
From Verif Require Import Base.
Import ListNotations.
Local Open Scope Z_scope.

(** A piece of straight-line program (an expression, a declaration, the
    header of a loop) is named by a number; a [machine] says what running a
    piece does. *)
Record machine := {
  W : Type;                                   (* everything a program can see or change *)
  V : Type;                                   (* the values of expressions *)
  zero : V;                                   (* the value of a result nobody set *)
  run : Z -> W -> option V * W;               (* [None]: the program stops here *)
  truth : V -> bool;
  matches : V -> Z -> W -> option bool * W    (* does an [is] arm match the value? *)
}.

(** A collection a [for_each] walks over: a variable, or the value of an
    expression. *)
Inductive coll := Named (c : Z) | Computed.

Inductive stmt :=
| Act (a : Z)
    (* declarations, assignments, expression statements *)
| Return (vals : list Z) (propagated : bool)
    (* [propagated]: the one-value return that or_return stands for *)
| If (c : Z) (yes : list stmt) (ors : list (Z * list stmt)) (els : option (list stmt))
    (* if c {yes} or c1 {..} or c2 {..} otherwise {..} *)
| When (v : Z) (arms : list (Z * list stmt)) (dflt : option (list stmt))
| For (first test step : Z) (body : list stmt)
| ForEach (c : coll) (first test bind step : Z) (body : list stmt)
| While (c : Z) (body : list stmt)
| Loop (body : list stmt)
| Break
| Continue
| Ensure (e : Z)
| Block (l : list stmt).
    (* the statements one source statement was expanded into *)

(** How a statement ends. A [return] is recorded with the expressions it
    returns, not yet evaluated. *)
Inductive out (W : Type) :=
| Next (w : W)
| Broke (w : W)
| Continued (w : W)
| Leaving (vals : list Z) (w : W)
| Stopped (w : W)
| NoFuel.
Arguments Next {W}. Arguments Broke {W}. Arguments Continued {W}.
Arguments Leaving {W}. Arguments Stopped {W}. Arguments NoFuel {W}.

Section meaning.
  Context (M : machine).

  (** one statement after another *)
  Section seq.
    Context (f : stmt -> W M -> out (W M)).
    Fixpoint seq (l : list stmt) (w : W M) : out (W M) :=
      match l with
      | [] => Next w
      | s :: r => match f s w with Next w' => seq r w' | o => o end
      end.
  End seq.

  (** the first arm whose test holds *)
  Section pick.
    Context (f : list stmt -> W M -> out (W M)) (test : Z -> W M -> option bool * W M)
            (otherwise : option (list stmt)).
    Fixpoint pick (arms : list (Z * list stmt)) (w : W M) : out (W M) :=
      match arms with
      | [] => match otherwise with Some l => f l w | None => Next w end
      | (c, l) :: r =>
          match test c w with
          | (None, w') => Stopped w'
          | (Some true, w') => f l w'
          | (Some false, w') => pick r w'
          end
      end.
  End pick.

  Definition holds (c : Z) (w : W M) : option bool * W M :=
    match run M c w with
    | (Some v, w') => (Some (truth M v), w')
    | (None, w') => (None, w')
    end.

  Definition first_do (a : Z) (w : W M) (k : W M -> out (W M)) : out (W M) :=
    match run M a w with
    | (Some _, w') => k w'
    | (None, w') => Stopped w'
    end.

  (** test, body, step, again; [fuel] bounds the number of rounds *)
  Fixpoint rounds (fuel : nat) (test : W M -> option bool * W M) (body step : W M -> out (W M))
           (w : W M) : out (W M) :=
    match fuel with
    | O => NoFuel
    | S n =>
        match test w with
        | (None, w') => Stopped w'
        | (Some false, w') => Next w'
        | (Some true, w') =>
            match body w' with
            | Next w2 | Continued w2 =>
                match step w2 with
                | Next w3 => rounds n test body step w3
                | o => o
                end
            | Broke w2 => Next w2
            | o => o
            end
        end
    end.

  Fixpoint exec (fuel : nat) (s : stmt) (w : W M) {struct s} : out (W M) :=
    match s with
    | Act a => first_do a w Next
    | Return vals _ => Leaving vals w
    | If c yes ors els =>
        match holds c w with
        | (None, w') => Stopped w'
        | (Some true, w') => seq (exec fuel) yes w'
        | (Some false, w') => pick (seq (exec fuel)) holds els ors w'
        end
    | When v arms dflt =>
        match run M v w with
        | (None, w') => Stopped w'
        | (Some x, w') => pick (seq (exec fuel)) (matches M x) dflt arms w'
        end
    | For first test step body =>
        first_do first w (rounds fuel (holds test) (seq (exec fuel) body)
                                 (fun w => first_do step w Next))
    | ForEach _ first test bind step body =>
        first_do first w
          (rounds fuel (holds test)
                  (fun w => first_do bind w (seq (exec fuel) body))
                  (fun w => first_do step w Next))
    | While c body => rounds fuel (holds c) (seq (exec fuel) body) Next w
    | Loop body => rounds fuel (fun w => (Some true, w)) (seq (exec fuel) body) Next w
    | Break => Broke w
    | Continue => Continued w
    | Ensure _ => Next w
    | Block l => seq (exec fuel) l w
    end.
End meaning.

(** ** Functions *)

(** What a result's type says about its memory: nothing allocated; memory
    that a return copies out; memory that it does not copy. *)
Inductive rtype := Plain | Copied | Shared.

Record func := {
  f_main : bool;                       (* the entry point *)
  f_ref : bool;                        (* has a mutable reference parameter *)
  f_results : list rtype;
  f_names : option (list (option Z));  (* named results: the variable of each *)
  f_body : list stmt
}.

(** The [ensure]s of a function, in the order they are written. *)
Section ensures.
  Context (f : stmt -> list Z).
  Fixpoint flat (l : list stmt) : list Z :=
    match l with [] => [] | s :: r => f s ++ flat r end.
End ensures.
Fixpoint ensure_of (s : stmt) : list Z :=
  match s with
  | Ensure e => [e]
  | Block l => flat ensure_of l
  | _ => []
  end.
Definition ensures (f : func) : list Z := flat ensure_of (f_body f).

(** What a return gives back, one entry per result, [None] for a zero value:
    the listed values; or the propagated error after zero values for the
    others; or the named variables. *)
Definition results_of (f : func) (vals : list Z) : list (option Z) :=
  let n := length (f_results f) in
  match vals, f_names f with
  | [], Some names => if (n =? 0)%nat then [] else names
  | [v], _ => if (1 <? n)%nat then repeat None (n - 1) ++ [Some v] else map Some (firstn n vals)
  | _, _ => map Some (firstn n vals)
  end.

(** How a call ends. [Fell]: a function with results reached its end without
    a return. *)
Inductive ended (M : machine) :=
| Done (vs : list (V M)) (w : W M)
| Fell (w : W M)
| Halted (w : W M)
| Misplaced
| Running.
Arguments Done {M}. Arguments Fell {M}. Arguments Halted {M}.
Arguments Misplaced {M}. Arguments Running {M}.

Section calls.
  Context (M : machine).

  (** run pieces one after another for their effect *)
  Fixpoint effects (l : list Z) (w : W M) : bool * W M :=
    match l with
    | [] => (true, w)
    | e :: r => match run M e w with
                | (Some _, w') => effects r w'
                | (None, w') => (false, w')
                end
    end.

  (** evaluate results *)
  Fixpoint values (l : list (option Z)) (w : W M) : option (list (V M)) * W M :=
    match l with
    | [] => (Some [], w)
    | None :: r =>
        match values r w with
        | (Some vs, w') => (Some (zero M :: vs), w')
        | (None, w') => (None, w')
        end
    | Some e :: r =>
        match run M e w with
        | (Some v, w') =>
            match values r w' with
            | (Some vs, w2) => (Some (v :: vs), w2)
            | (None, w2) => (None, w2)
            end
        | (None, w') => (None, w')
        end
    end.

  Definition body_ends (fuel : nat) (f : func) (w : W M) : out (W M) :=
    seq M (exec M fuel) (f_body f) w.

  (** the end of a function without a return *)
  Definition at_end (f : func) (w : W M) : ended M :=
    match effects (rev (ensures f)) w with
    | (false, w') => Halted w'
    | (true, w') => match f_results f with [] => Done [] w' | _ => Fell w' end
    end.

  (** The call as a user reads it: a return computes its values, then the
      [ensure]s run, the last one written first. *)
  Definition call (fuel : nat) (f : func) (w : W M) : ended M :=
    match body_ends fuel f w with
    | Next w1 => at_end f w1
    | Leaving vals w1 =>
        match values (results_of f vals) w1 with
        | (None, w2) => Halted w2
        | (Some vs, w2) =>
            match effects (rev (ensures f)) w2 with
            | (true, w3) => Done vs w3
            | (false, w3) => Halted w3
            end
        end
    | Stopped w1 => Halted w1
    | NoFuel => Running
    | Broke _ | Continued _ => Misplaced
    end.

  (** The same call with the values computed after the [ensure]s. *)
  Definition call_late (fuel : nat) (f : func) (w : W M) : ended M :=
    match body_ends fuel f w with
    | Next w1 => at_end f w1
    | Leaving vals w1 =>
        match effects (rev (ensures f)) w1 with
        | (false, w2) => Halted w2
        | (true, w2) =>
            match values (results_of f vals) w2 with
            | (Some vs, w3) => Done vs w3
            | (None, w3) => Halted w3
            end
        end
    | Stopped w1 => Halted w1
    | NoFuel => Running
    | Broke _ | Continued _ => Misplaced
    end.
End calls.

(** The same machine with a log of the pieces it has run. *)
Definition logged (M : machine) : machine := {|
  W := W M * list Z;
  V := V M;
  zero := zero M;
  run := fun a w => let (r, w') := run M a (fst w) in (r, (w', snd w ++ [a]));
  truth := truth M;
  matches := fun v p w => let (r, w') := matches M v p (fst w) in (r, (w', snd w))
|}.

(** ** Words the theorems use about bodies *)

Section some_of.
  Context (f : stmt -> bool).
  Fixpoint some_of (l : list stmt) : bool :=
    match l with [] => false | s :: r => f s || some_of r end.
  Fixpoint some_arm (l : list (Z * list stmt)) : bool :=
    match l with [] => false | (_, b) :: r => some_of b || some_arm r end.
  Definition some_opt (o : option (list stmt)) : bool :=
    match o with Some l => some_of l | None => false end.
End some_of.

(** a [break] that leaves the loop this statement is in *)
Fixpoint breaks (s : stmt) : bool :=
  match s with
  | Break => true
  | If _ yes ors els => some_of breaks yes || some_arm breaks ors || some_opt breaks els
  | When _ arms d => some_arm breaks arms || some_opt breaks d
  | Block l => some_of breaks l
  | _ => false
  end.

(** a [loop] that a [break] can leave *)
Fixpoint broken_loop (s : stmt) : bool :=
  match s with
  | Loop body => some_of breaks body
  | If _ yes ors els =>
      some_of broken_loop yes || some_arm broken_loop ors || some_opt broken_loop els
  | When _ arms d => some_arm broken_loop arms || some_opt broken_loop d
  | Block l => some_of broken_loop l
  | _ => false
  end.

(** a [return] anywhere inside *)
Fixpoint returns (s : stmt) : bool :=
  match s with
  | Return _ _ => true
  | If _ yes ors els => some_of returns yes || some_arm returns ors || some_opt returns els
  | When _ arms d => some_arm returns arms || some_opt returns d
  | For _ _ _ b | ForEach _ _ _ _ _ b | While _ b | Loop b => some_of returns b
  | Block l => some_of returns l
  | _ => false
  end.

(** a [return] from inside a [for_each] over a variable *)
Fixpoint returns_from_each (s : stmt) : bool :=
  match s with
  | If _ yes ors els =>
      some_of returns_from_each yes || some_arm returns_from_each ors ||
      some_opt returns_from_each els
  | When _ arms d => some_arm returns_from_each arms || some_opt returns_from_each d
  | ForEach (Named _) _ _ _ _ b => some_of returns b
  | For _ _ _ b | ForEach Computed _ _ _ _ b | While _ b | Loop b => some_of returns_from_each b
  | Block l => some_of returns_from_each l
  | _ => false
  end.

(** a [return] from inside an [if] or a loop *)
Fixpoint returns_from_scope (s : stmt) : bool :=
  match s with
  | If _ yes ors els => some_of returns yes || some_arm returns ors || some_opt returns els
  | When _ arms d => some_arm returns_from_scope arms || some_opt returns_from_scope d
  | For _ _ _ b | ForEach _ _ _ _ _ b | While _ b | Loop b => some_of returns b
  | Block l => some_of returns_from_scope l
  | _ => false
  end.

(** The parser makes a [Block] only for a declaration it expands, never
    around an [ensure]. *)
Fixpoint hides_ensure (s : stmt) : bool :=
  match s with
  | Block l => some_of (fun s => match s with Ensure _ => true | _ => hides_ensure s end) l
  | _ => false
  end.

(** Functions as the parser makes them: no hidden [ensure], one name per
    result if there are names. *)
Definition sensible (f : func) : Prop :=
  some_of hides_ensure (f_body f) = false /\
  match f_names f with Some names => length names = length (f_results f) | None => True end.
