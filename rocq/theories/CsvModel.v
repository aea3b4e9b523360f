(** Model of grayc/src/stdlib/csv.c.  The pointer s of gray_csv_parse is the list of bytes from
    s to end; every read of *s is guarded by s < end in the code, the read of *(s + 1) on line 31
    only happens when line 30 has found s + 1 < end.  File access (csv_read, csv_write) is not
    modelled: it reads / writes the text these functions parse / produce. *)
From Verif Require Import Base.

Definition COMMA : Z := 44.
Definition QUOTE : Z := 34.
Definition LF : Z := 10.
Definition CR : Z := 13.

(** csv.c:30-33: up to a quote that is not followed by another quote; a pair of quotes is kept as
    it is.  Field and what follows it (starting at the closing quote). *)
Fixpoint quoted_scan (s : bytes) : bytes * bytes :=
  match s with
  | [] => ([], [])
  | c :: r =>
      if c =? QUOTE then
        match r with
        | [] => ([], s)
        | d :: r' => if d =? QUOTE then let '(f, rest) := quoted_scan r' in (c :: d :: f, rest)
                     else ([], s)
        end
      else let '(f, rest) := quoted_scan r in (c :: f, rest)
  end.
(** csv.c:39 *)
Definition is_sep (c : Z) : bool := (c =? COMMA) || (c =? LF) || (c =? CR).
Fixpoint plain_scan (s : bytes) : bytes * bytes :=
  match s with
  | [] => ([], [])
  | c :: r => if is_sep c then ([], s) else let '(f, rest) := plain_scan r in (c :: f, rest)
  end.
(** csv.c:26-46: one field, its closing quote and the comma after it *)
Definition skip_one (c : Z) (s : bytes) : bytes :=
  match s with x :: r => if x =? c then r else s | [] => [] end.
Definition field (s : bytes) : bytes * bytes :=
  match s with
  | c :: r =>
      if c =? QUOTE then let '(f, rest) := quoted_scan r in (f, skip_one COMMA (tl rest))
      else let '(f, rest) := plain_scan s in (f, skip_one COMMA rest)
  | [] => ([], [])
  end.
(** csv.c:22-47 *)
Fixpoint row_loop (fuel : nat) (s : bytes) (row : list bytes) : res (list bytes * bytes) :=
  match s with
  | [] => Ok (row, [])
  | c :: _ =>
      if (c =? LF) || (c =? CR) then Ok (row, s) else
      match fuel with
      | O => NoFuel
      | S n => let '(f, rest) := field s in row_loop n rest (row ++ [f])
      end
  end.
(** csv.c:20-53 *)
Fixpoint rows_loop (fuel : nat) (s : bytes) (rows : list (list bytes)) : res (list (list bytes)) :=
  match s with
  | [] => Ok rows
  | _ =>
      match fuel with
      | O => NoFuel
      | S n => rbind (row_loop (length s) s []) (fun '(row, rest) =>
                 rows_loop n (skip_one LF (skip_one CR rest)) (rows ++ [row]))
      end
  end.
Definition parse (s : bytes) : res (list (list bytes)) := rows_loop (length s) s [].

(** csv.c:80-89: the size is added up in an int32_t *)
Definition add32 (a : res Z) (b : Z) : res Z :=
  rbind a (fun a => if a + b <=? INT32_MAX then Ok (a + b) else UB).
Fixpoint row_size (first : bool) (row : list bytes) (t : res Z) : res Z :=
  match row with
  | [] => t
  | f :: row => row_size false row (add32 (if first then t else add32 t 1) (Z.of_nat (length f)))
  end.
Definition table_size (rows : list (list bytes)) : res Z :=
  fold_left (fun t row => add32 (row_size true row t) 1) rows (Ok 0).
(** csv.c:91-103; [total + 1] bytes are available *)
Definition store (cap : Z) (w v : bytes) : res bytes :=
  if Z.of_nat (length w + length v) <=? cap then Ok (w ++ v) else UB.
Fixpoint row_text (cap : Z) (first : bool) (row : list bytes) (w : res bytes) : res bytes :=
  match row with
  | [] => w
  | f :: row => row_text cap false row
      (rbind (if first then w else rbind w (fun w => store cap w [COMMA])) (fun w => store cap w f))
  end.
Definition stringify (rows : list (list bytes)) : res bytes :=
  rbind (table_size rows) (fun total =>
  rbind (fold_left (fun w row => rbind (row_text (total + 1) true row w) (fun w => store (total + 1) w [LF]))
           rows (Ok [])) (fun w =>
  rbind (store (total + 1) w [0]) (fun _ => Ok w))).

(** csv.c:60-76: rows given as pre-formatted strings *)
Definition lines_size (rows : list bytes) : res Z :=
  fold_left (fun t r => add32 t (Z.of_nat (length r) + 1)) rows (Ok 0).
Fixpoint lines_text (cap : Z) (rows : list bytes) (w : res bytes) : res bytes :=
  match rows with
  | [] => w
  | [r] => rbind w (fun w => store cap w r)
  | r :: rows => lines_text cap rows (rbind w (fun w => rbind (store cap w r) (fun w => store cap w [LF])))
  end.
Definition stringify_lines (rows : list bytes) : res bytes :=
  rbind (lines_size rows) (fun total =>
  rbind (lines_text (total + 1) rows (Ok [])) (fun w =>
  rbind (store (total + 1) w [0]) (fun _ => Ok w))).

(** csv.c:106-112 *)
Definition headers (rows : list (list bytes)) : list bytes := hd [] rows.
