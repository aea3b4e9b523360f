(** How a shell splits a command into words: blanks separate, single quotes
    keep everything (POSIX 2.2.2, 2.3).  Other characters that mean something
    to a shell are refused. *)
From Verif Require Import Base.

Definition plain (c : Z) : bool :=
  ((48 <=? c) && (c <=? 57)) || ((65 <=? c) && (c <=? 90)) || ((97 <=? c) && (c <=? 122)) || existsb (Z.eqb c) (bs "-_./,=+:@").
(** Words so far, newest first; the word being read; whether within quotes. *)
Record shell := Shell { words : list bytes; word : option bytes; quoted : bool }.
Definition more (w : option bytes) (c : bytes) : option bytes := Some (match w with Some s => s | None => [] end ++ c).
Definition read_char (s : option shell) (c : Z) : option shell :=
  match s with
  | None => None
  | Some (Shell ws w true) => if c =? 39 then Some (Shell ws w false) else Some (Shell ws (more w [c]) true)
  | Some (Shell ws w false) =>
      if c =? 39 then Some (Shell ws (more w []) true)
      else if c =? 32 then Some (Shell (match w with Some x => x :: ws | None => ws end) None false)
      else if plain c then Some (Shell ws (more w [c]) false) else None
  end.
Definition split (cmd : bytes) : option (list bytes) :=
  match fold_left read_char cmd (Some (Shell [] None false)) with
  | Some (Shell ws w false) => Some (rev (match w with Some x => x :: ws | None => ws end))
  | _ => None
  end.
(** The words the C compiler should get. *)
Definition wanted (debug : bool) (level : Z) (runtime out c lib : bytes) : list bytes :=
  map bs ["cc"; "-std=c11"]%string ++ (if debug then [bs "-g"] else []) ++ [bs "-O" ++ [48 + level]] ++
  map bs ["-Wall"; "-Wno-unused-function"; "-Wno-unused-variable"; "-Wno-unused-but-set-variable"; "-Wno-tautological-compare"; "-Wno-infinite-recursion"]%string ++
  [bs "-isystem"; runtime ++ bs "/runtime"; bs "-isystem"; runtime ++ bs "/stdlib"; bs "-o"; out; c; lib] ++ map bs ["-lm"; "-lpthread"; "-Wl,-w"]%string.
