(** Vocabulary of the regex properties (C69, C99): what a pattern matches, and the successive matches in a text. *)
From Verif Require Import Base.

(** A pattern; a [Chr] is a character, a dot or a bracket expression *)
Inductive re : Type :=
| Eps | Bol | Eol | Chr (p : Z -> bool) | Cat (a b : re) | Alt (a b : re) | Star (a : re).
(** [matches t r i j]: r matches t between the positions i and j *)
Inductive matches (t : bytes) : re -> nat -> nat -> Prop :=
| m_eps i : (i <= length t)%nat -> matches t Eps i i
| m_bol : matches t Bol 0 0
| m_eol : matches t Eol (length t) (length t)
| m_chr p i c : nth_error t i = Some c -> p c = true -> matches t (Chr p) i (S i)
| m_cat a b i j k : matches t a i j -> matches t b j k -> matches t (Cat a b) i k
| m_left a b i j : matches t a i j -> matches t (Alt a b) i j
| m_right a b i j : matches t b i j -> matches t (Alt a b) i j
| m_none a i : (i <= length t)%nat -> matches t (Star a) i i
| m_more a i j k : matches t a i j -> matches t (Star a) j k -> matches t (Star a) i k.
(** The leftmost match that starts at [from] or later, and the longest of these: POSIX *)
Definition leftmost_longest (t : bytes) (r : re) (from i j : nat) : Prop :=
  (from <= i)%nat /\ matches t r i j /\
  forall i' j', (from <= i')%nat -> matches t r i' j' -> (i < i' \/ (i = i' /\ j' <= j))%nat.
(** regexec does what POSIX says *)
Definition posix (exec : re -> bytes -> option (nat * nat)) : Prop :=
  forall r t, match exec r t with Some (i, j) => leftmost_longest t r 0 i j | None => forall i j, ~ matches t r i j end.
(** All matches from [from] on: after a match the search goes on at its end, after an empty one a character later *)
Inductive all_matches (t : bytes) (r : re) : nat -> list (nat * nat) -> Prop :=
| no_more from : (forall i j, (from <= i)%nat -> ~ matches t r i j) -> all_matches t r from []
| one_more from i j l : leftmost_longest t r from i j -> all_matches t r (if (i =? j)%nat then S j else j) l -> all_matches t r from ((i, j) :: l).
Definition part (t : bytes) (i j : nat) : bytes := firstn (j - i) (skipn i t).
(** The text from [from] on with every match of the list replaced; the pieces between the matches *)
Fixpoint substitute (t repl : bytes) (from : nat) (l : list (nat * nat)) : bytes :=
  match l with [] => skipn from t | (i, j) :: l => part t from i ++ repl ++ substitute t repl j l end.
Fixpoint pieces (t : bytes) (from : nat) (l : list (nat * nat)) : list bytes :=
  match l with [] => [skipn from t] | (i, j) :: l => part t from i :: pieces t j l end.
(** Patterns without ^, without $, and those that never match the empty string *)
Fixpoint no_bol (r : re) : bool := match r with Bol => false | Cat a b | Alt a b => no_bol a && no_bol b | Star a => no_bol a | _ => true end.
Fixpoint no_eol (r : re) : bool := match r with Eol => false | Cat a b | Alt a b => no_eol a && no_eol b | Star a => no_eol a | _ => true end.
Definition never_empty (r : re) : Prop := forall t i, ~ matches t r i i.
(** a b a b a *)
Fixpoint weave (a b : list bytes) : bytes := match a, b with x :: a, y :: b => x ++ y ++ weave a b | _, _ => concat a end.
(** Text that fits into a C string of at most n bytes *)
Definition c_text (n : Z) (s : bytes) : Prop := ~ In 0 s /\ Z.of_nat (length s) <= n.
