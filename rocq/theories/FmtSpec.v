(** Vocabulary of the formatter's properties (C46, C94): lines, indentation, brace nesting. *)
From Verif Require Import Base LexSpec.

Definition indent_char (c : Z) : Prop := c = 32 \/ c = 9.
(** l' is the line l with other indentation, and none if there is nothing else on the line *)
Definition reindented (l l' : bytes) : Prop := exists w w' x,
  l = w ++ x /\ l' = w' ++ x /\ Forall indent_char w /\ Forall indent_char w' /\ ~ indent_char (hd 0 x) /\ (x = [] -> w' = []).
Definition text (ls : list bytes) : bytes := flat_map (fun l => l ++ [10]) ls.
(** The lines of a source, the last one with or without a line break *)
Definition has_lines (src : bytes) (ls : list bytes) : Prop :=
  Forall (fun l => ~ In 10 l) ls /\ (src = text ls \/ exists front l, l <> [] /\ ls = front ++ [l] /\ src = text front ++ l).
(** Braces open after these tokens *)
Fixpoint nesting (depth : Z) (ts : list token) : Z :=
  match ts with
  | [] => depth
  | t :: ts => nesting (match tkind t with LBRACE => depth + 1 | RBRACE => Z.max 0 (depth - 1) | _ => depth end) ts
  end.
(** The depth of a line whose first token has kind k, when d braces are open before it *)
Definition start_depth (d : Z) (k : kind) : Z := match k with RBRACE => Z.max 0 (d - 1) | _ => d end.
(** A quote that ends a line, followed by a line that starts with one *)
Definition quote_break (src : bytes) : Prop := exists a w b, src = a ++ [39; 10] ++ w ++ [39] ++ b /\ Forall indent_char w.
(** Sources where double quotes and backquotes only delimit strings (or are escaped in a string, or stand in a raw string), where a
    line break in a literal is in a raw string, and where no line inside a raw string consists of blanks only *)
Definition quote_free (s : bytes) : Prop := ~ In 34 s /\ ~ In 96 s.
Inductive plain_string : bytes -> Prop :=
| plain_nil : plain_string []
| plain_char c s : ~ In c [10; 34; 92; 96] -> plain_string s -> plain_string (c :: s)
| plain_escape c s : c <> 10 -> plain_string s -> plain_string (92 :: c :: s).
Definition plain_token (t : token) : Prop :=
  match tkind t with
  | RAW_STRING => forall a w b, literal t = a ++ [10] ++ w ++ [10] ++ b -> Forall indent_char w -> w = []
  | STRING => plain_string (literal t)
  | _ => quote_free (literal t) /\ ~ In 10 (literal t)
  end.
Inductive tidy : bytes -> list token -> bytes -> Prop :=
| tidy_end pre t g : tidy pre [t] g
| tidy_token pre t ts g s : quote_free g -> stands_at (pre ++ g) t -> plain_token t ->
    tidy (pre ++ g ++ spelling (tkind t) (literal t)) ts s -> tidy pre (t :: ts) (g ++ spelling (tkind t) (literal t) ++ s).
