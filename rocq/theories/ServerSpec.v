(** What a user of the server module relies on (C53, C54, C86, C87), without reference to the code. *)
From Verif Require Import Base Decimal.

(** The pieces of a text between the occurrences of a separator (at least one piece). *)
Fixpoint split (c : Z) (s : bytes) : list bytes :=
  match s with
  | [] => [[]]
  | x :: s => if x =? c then [] :: split c s
              else match split c s with h :: t => (x :: h) :: t | [] => [[x]] end
  end.

(** A segment of a pattern is literal, or a literal beginning followed by ':' and the name of a parameter
    that stands for the rest of the segment of the path. *)
Inductive seg_match : bytes -> bytes -> list (bytes * bytes) -> Prop :=
| sm_literal p : ~ In 58 p -> seg_match p p []
| sm_parameter pre name v : ~ In 58 pre -> seg_match (pre ++ 58 :: name) (pre ++ v) [(name, v)].
Inductive segs_match : list bytes -> list bytes -> list (bytes * bytes) -> Prop :=
| ss_nil : segs_match [] [] []
| ss_cons p s l ps ss ls : seg_match p s l -> segs_match ps ss ls -> segs_match (p :: ps) (s :: ss) (l ++ ls).

(** The last parameter stands for nothing at the end of the segments. *)
Definition ends_empty (P Q : list bytes) : Prop :=
  exists P' Q' pre name, P = P' ++ [pre ++ 58 :: name] /\ Q = Q' ++ [pre] /\ ~ In 58 pre.
(** Segments of a text, with or without its trailing slash. *)
Definition segs (s : bytes) (P : list bytes) : Prop := split 47 s = P \/ split 47 s = P ++ [[]].
(** A pattern matches a path segment by segment, binding l, up to a trailing slash at either; a parameter
    at the very end of the path is not empty. *)
Definition matches (pat path : bytes) (l : list (bytes * bytes)) : Prop :=
  exists P Q, segs pat P /\ segs path Q /\ segs_match P Q l /\ (ends_empty P Q -> split 47 path = Q ++ [[]]).

(** The dictionary that results from setting the pairs in turn. *)
Fixpoint value_of (l : list (bytes * bytes)) (n : bytes) : option bytes :=
  match l with
  | [] => None
  | (k, v) :: l => match value_of l n with
                   | Some x => Some x
                   | None => if list_eq_dec Z.eq_dec k n then Some v else None end
  end.
(** n is the name of a parameter of the pattern *)
Definition param_of (pat n : bytes) : Prop := exists pre, In (pre ++ 58 :: n) (split 47 pat) /\ ~ In 58 pre.

(** A query string: pieces separated by '&', each split at its first '='. *)
Definition pair_text (p : bytes) (kv : bytes * bytes) : Prop := p = fst kv ++ 61 :: snd kv /\ ~ In 61 (fst kv).

(** An HTTP message: a first line, headers, an empty line, a body. *)
Definition eol : bytes := [13; 10].
Definition header_line (h : bytes * bytes) : bytes := fst h ++ [58] ++ snd h ++ eol.
Definition message (line : bytes) (hs : list (bytes * bytes)) (body : bytes) : bytes :=
  line ++ eol ++ concat (map header_line hs) ++ eol ++ body.
Definition one_line (s : bytes) : Prop := ~ In 13 s /\ ~ In 10 s.
Definition header_ok (h : bytes * bytes) : Prop := one_line (fst h) /\ one_line (snd h) /\ ~ In 58 (fst h).
(** the value of a header without the blanks before it *)
Inductive unpadded : bytes * bytes -> bytes * bytes -> Prop :=
| unp k n v : (forall v', v <> 32 :: v') -> unpadded (k, List.repeat 32 n ++ v) (k, v).
Definition request_line (m target : bytes) : bytes := m ++ [32] ++ target ++ [32] ++ bs "HTTP/1.1".
Definition no_nul (s : bytes) : Prop := ~ In 0 s.
Definition target (p : bytes) (q : option bytes) : bytes := match q with None => p | Some q => p ++ 63 :: q end.
