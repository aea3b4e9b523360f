(** Comma-separated text, without reference to the code (RFC 4180 section 2). *)
From Verif Require Import Base.

(** A field without comma, quote mark at its start or line break stands for itself. *)
Definition plain_field (f : bytes) : Prop :=
  ~ In 44 f /\ ~ In 10 f /\ ~ In 13 f /\ hd 0 f <> 34.
(** Inside quote marks anything may stand; a quote mark is written twice. *)
Definition double_quotes (f : bytes) : bytes := flat_map (fun c => if c =? 34 then [34; 34] else [c]) f.
Inductive field_text : bytes -> bytes -> Prop :=
| ft_plain f : plain_field f -> field_text f f
| ft_quoted f : field_text f ([34] ++ double_quotes f ++ [34]).
(** A row: its field texts separated by commas ([ft] for the fields, [lt] for the last one). *)
Inductive row_text (ft lt : bytes -> bytes -> Prop) : list bytes -> bytes -> Prop :=
| rt_one f t : lt f t -> row_text ft lt [f] t
| rt_more f t row ts : ft f t -> row_text ft lt row ts -> row_text ft lt (f :: row) (t ++ [44] ++ ts).
(** A document: rows, each ended by a line break (LF or CR LF), the last one possibly not. *)
Definition line_break (b : bytes) : Prop := b = [10] \/ b = [13; 10].
Inductive csv_text (ft lt : bytes -> bytes -> Prop) : list (list bytes) -> bytes -> Prop :=
| ct_nil : csv_text ft lt [] []
| ct_last row t : t <> [] -> row_text ft lt row t -> csv_text ft lt [row] t
| ct_row row t b rows ts : row_text ft lt row t -> line_break b -> csv_text ft lt rows ts ->
    csv_text ft lt (row :: rows) (t ++ b ++ ts).
(** RFC 4180: *)
Definition rfc4180 : list (list bytes) -> bytes -> Prop := csv_text field_text field_text.

(** Restrictions: a field that is quoted contains no quote mark; a row does not end in an empty
    unquoted field. *)
Definition simple_text (f t : bytes) : Prop := field_text f t /\ (t = f \/ ~ In 34 f).
Definition simple_last (f t : bytes) : Prop := simple_text f t /\ t <> [].
Definition simple_csv : list (list bytes) -> bytes -> Prop := csv_text simple_text simple_last.
