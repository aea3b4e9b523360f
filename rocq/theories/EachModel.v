(** for_each over arrays and strings (codegen.c:8824-8830, 8908-8979, 8981-9013),
    with the guard of arrays (array.c:37-60).  Elements are numbers; a body is
    a list of statements that may depend on the number and the value of the
    element.  Maps, nested loops, return from within a loop (C105) and element
    widths (C75) are not modelled here. *)
From Verif Require Import Base EachSpec.

(** The variable, its guard (iterating) and the output so far. *)
Record st := St { items : list Z; guard : Z; out : list Z }.
(** Statements; append panics if guard > 0 (array.c:54-57), an assignment stores a new header whose guard is 0 (array.c:19, 29) *)
Fixpoint exec (b : list act) (s : st) : st * ending :=
  match b with
  | [] | Next :: _ => (s, Fall)
  | Stop :: _ => (s, Leave)
  | Log z :: t => exec t (St (items s) (guard s) (out s ++ [z]))
  | Push z :: t => if 0 <? guard s then (s, Die 34) else exec t (St (items s ++ [z]) (guard s) (out s))
  | Assign l :: t => exec t (St l 0 (out s))
  end.
(** The C loop for (i = ..; i < len; i++) with rest = len - i turns to go; [read] is the bounds-checked read of element i (array.c:37-42) *)
Fixpoint loop (read : st -> nat -> option Z) (body : nat -> Z -> list act) (rest i : nat) (s : st) : st * ending :=
  match rest with
  | O => (s, Fall)
  | S rest =>
      match read s i with
      | None => (s, Die 33)
      | Some x => let (s', e) := exec (body i x) s in
                  match e with Fall => loop read body rest (S i) s' | Leave => (s', Fall) | Die c => (s', Die c) end
      end
  end.
(** codegen.c:8948-8979, 9002-9007 for a variable: the length is taken before, the elements are read from the variable *)
Definition each_variable (body : nat -> Z -> list act) (s : st) : st * ending :=
  let len := length (items s) in
  let (s', e) := loop (fun s i => nth_error (items s) i) body len 0 (St (items s) (guard s + 1) (out s)) in
  match e with Die c => (s', Die c) | _ => (St (items s') (guard s' - 1) (out s'), e) end.
(** codegen.c:8958-8963 for a literal or the result of a call: a temporary of its own *)
Definition each_temporary (l : list Z) (body : nat -> Z -> list act) (s : st) : st * ending :=
  loop (fun _ i => nth_error l i) body (length l) 0 s.
(** codegen.c:8908-8918: int32_t ch = str.data[i], and char is signed *)
Definition signed (c : Z) : Z := wrap_i 8 c.
Definition each_string (str : bytes) (body : nat -> Z -> list act) (s : st) : st * ending :=
  loop (fun _ i => option_map signed (nth_error str i)) body (length str) 0 s.
