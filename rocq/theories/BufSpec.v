(** What is appended to a buffer. *)
From Verif Require Import Base.

(** A string, bytes, the text of a format (None: vsnprintf fails), a character, an indentation. *)
Inductive op := Bytes (s : bytes) | Formatted (s : option bytes) | Character (c : Z) | Indent (depth : Z).
Definition text (o : op) : bytes :=
  match o with
  | Bytes s => s
  | Formatted (Some s) => s
  | Formatted None => []
  | Character c => [c]
  | Indent d => List.repeat 32 (4 * Z.to_nat d)
  end.
Definition all_text (os : list op) : bytes := flat_map text os.
(** A C string is read up to the first 0. *)
Fixpoint c_string (m : bytes) : bytes := match m with [] => [] | c :: t => if c =? 0 then [] else c :: c_string t end.
