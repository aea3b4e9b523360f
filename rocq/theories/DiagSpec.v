(** What the compiler should print about the diagnostics of a run. *)
From Verif Require Import Base Decimal DiagModel.

(** All warnings, and the errors up to the [n]th. *)
Fixpoint recorded (n : nat) (ds : list diagnostic) : list diagnostic :=
  match ds with
  | [] => []
  | d :: r => match sev d, n with
              | SWarning, _ => d :: recorded n r
              | SError, S n => d :: recorded n r
              | SError, O => recorded O r
              end
  end.
(** A diagnostic is hidden if it is a warning the user has switched off. *)
Definition hidden (q : quiet) (d : diagnostic) : Prop :=
  sev d = SWarning /\ match q with QAll => True | QCodes l => exists k, code d = Some k /\ In k l | _ => False end.
(** [shown q l r]: [r] is [l] without what is hidden. *)
Inductive shown (q : quiet) : list diagnostic -> list diagnostic -> Prop :=
| sh_nil : shown q [] []
| sh_keep d l r : ~ hidden q d -> shown q l r -> shown q (d :: l) (d :: r)
| sh_hide d l r : hidden q d -> shown q l r -> shown q (d :: l) r.
(** The lines of a text, and the one with number [n], counted from 1; a line is
    shown up to its 2047th byte. *)
Fixpoint pieces (sep : Z) (s : bytes) : list bytes :=
  match s with
  | [] => [[]]
  | c :: r => if c =? sep then [] :: pieces sep r else match pieces sep r with h :: t => (c :: h) :: t | [] => [[c]] end
  end.
Definition lines : bytes -> list bytes := pieces 10.
Definition line_no (s : bytes) (n : Z) : option bytes :=
  if n <? 1 then None else option_map (firstn (Z.to_nat 2047)) (nth_error (lines s) (Z.to_nat (n - 1))).
(** The text of a file: the main file's is in memory. *)
Definition content (disk : bytes -> option bytes) (input_file source f : bytes) : option bytes :=
  if list_eq_dec Z.eq_dec f input_file then Some source else disk f.
(** The line a diagnostic is about. *)
Definition its_line (disk : bytes -> option bytes) (input_file source : bytes) (d : diagnostic) : option bytes :=
  match dfile d with
  | Some f => match content disk input_file source f with Some t => line_no t (dline d) | None => None end
  | None => None
  end.
(** The lines printed for a diagnostic, without colours. *)
Definition excerpt (d : diagnostic) (line : option bytes) : list bytes :=
  let first := Z.max 1 (dcol d) in
  let last := if end_col d <=? 0 then first else Z.max first (end_col d) in
  [(match sev d with SError => bs "error" | SWarning => bs "warning" end) ++ match code d with Some k => bs "[" ++ k ++ bs "]" | None => [] end ++ bs ": " ++ message d] ++
  match dfile d with Some f => if 0 <? dline d then [bs "  --> " ++ f ++ bs ":" ++ dec_signed (dline d) ++ bs ":" ++ dec_signed (dcol d)] else [] | None => [] end ++
  match line with
  | Some t => if 0 <? dline d then
      [bs "   |"; repeat 32 (3 - length (dec (dline d))) ++ dec (dline d) ++ bs " | " ++ t;
       bs "   | " ++ repeat 32 (Z.to_nat (first - 1)) ++ repeat 94 (Z.to_nat (last - first + 1))] else []
  | None => []
  end ++
  match help d with Some h => [bs "   |"; bs "   = help: " ++ h] | None => [] end ++ [[]].
Definition unlines (l : list bytes) : bytes := flat_map (fun t => t ++ [10]) l.
Definition plural (n : Z) (w : bytes) : bytes := dec n ++ bs " " ++ w ++ (if n =? 1 then [] else bs "s").
(** The summary for [e] errors and [v] visible warnings. *)
Definition summary (q : quiet) (e v : Z) : list bytes :=
  (if e =? 0 then if v =? 0 then [] else [bs "grayscale: " ++ plural v (bs "warning")]
   else [bs "grayscale: " ++ plural e (bs "error") ++ (if v =? 0 then [] else bs ", " ++ plural v (bs "warning")) ++ bs ". compilation failed."]) ++
  (if v =? 0 then [] else match q with QNone | QCodes [] => [bs "hint: suppress warnings with -q <W1001,W1002,...> or -q 'all'"] | _ => [] end).
Definition errors (ds : list diagnostic) : Z := Z.of_nat (length (filter is_error ds)).
(** All that is printed when [ds] were reported and [r] of them are shown. *)
Definition printed (disk : bytes -> option bytes) (f src : bytes) (q : quiet) (ds r : list diagnostic) : bytes :=
  unlines (flat_map (fun d => excerpt d (its_line disk f src d)) r ++ summary q (errors (recorded 20 ds)) (Z.of_nat (length (filter (fun d => negb (is_error d)) r)))).
(** What has been reported when the compiler prints. *)
Definition reported (ds1 ds2 : list diagnostic) : list diagnostic := if existsb is_error ds1 then ds1 else ds1 ++ ds2.
(** A text without its colour sequences (escape, bracket, digits, m). *)
Fixpoint uncoloured (inside : bool) (s : bytes) : bytes :=
  match s with
  | [] => []
  | c :: r => if inside then uncoloured (negb (c =? 109)) r else if c =? 27 then uncoloured true r else c :: uncoloured false r
  end.
(** Nothing in the diagnostic itself or its source line is an escape. *)
Definition no_escape (s : bytes) : Prop := ~ In 27 s.
Definition opt_no_escape (o : option bytes) : Prop := match o with Some s => no_escape s | None => True end.
Definition escape_free (d : diagnostic) (line : option bytes) : Prop :=
  opt_no_escape (code d) /\ no_escape (message d) /\ opt_no_escape (dfile d) /\ opt_no_escape (help d) /\ opt_no_escape line.
(** What -q means when followed by [a]: the codes between commas, if [a] starts
    with a W; each of them must. *)
Definition codes (a : bytes) : list bytes := filter (fun k => negb (length k =? 0)%nat) (pieces 44 a).
Definition starts (c : Z) (k : bytes) : Prop := exists r, k = c :: r.
