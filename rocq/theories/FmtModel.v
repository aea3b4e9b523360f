(** Model of grayc/src/fmt/fmt.c.  The source is a C string (no NUL byte) with fewer than 2^31 lines, memory is never
    short, and the output is the text written to out.  Lexing is LexModel. *)
From Verif Require Import Base LexSpec LexModel.

(** fmt.c:25-31 count_lines *)
Definition count_lines (src : bytes) : Z := 1 + newlines src.
(** fmt.c:57-80 the loop over tokens: the (line, depth) pairs in order; the first for a line counts (:73-75) *)
Fixpoint record (depth max_line : Z) (ts : list token) : list (Z * Z) :=
  match ts with
  | [] => []
  | t :: ts =>
      match tkind t with
      | EOF | ILLEGAL => []
      | k =>
          if (tline t <? 1) || (max_line <? tline t) then record depth max_line ts
          else
            let depth := match k with RBRACE => if 0 <? depth then depth - 1 else depth | _ => depth end in
            (tline t, depth) :: record (match k with LBRACE => depth + 1 | _ => depth end) max_line ts
      end
  end.
Definition entry (table : list (Z * Z)) (i : Z) : option Z := option_map snd (find (fun e => fst e =? i) table).
(** fmt.c:84-94 forward fill: the depths of the n lines from i on *)
Fixpoint fill (table : list (Z * Z)) (current i : Z) (n : nat) : list Z :=
  match n with
  | O => []
  | S n => let current := match entry table i with Some d => d | None => current end in current :: fill table current (i + 1) n
  end.
(** fmt.c:44-97 build_depth_table *)
Definition depth_table (src : bytes) (max_line : Z) : option (list Z) :=
  match lex src with Some ts => Some (fill (record 0 max_line ts) 0 1 (Z.to_nat max_line)) | None => None end.

(** fmt.c:105-127 line_is_in_raw_string; n line breaks are left to count *)
Fixpoint in_raw_at (n : nat) (in_raw in_str : bool) (p : bytes) {struct p} : bool :=
  match n with
  | O => in_raw
  | S n' =>
      match p with
      | [] => in_raw
      | c :: p1 =>
          if c =? 10 then in_raw_at n' in_raw in_str p1
          else if in_raw then in_raw_at n (negb (c =? 96)) in_str p1
          else if in_str then
            if c =? 92 then match p1 with [] => in_raw | _ :: p2 => in_raw_at n in_raw in_str p2 end
            else in_raw_at n in_raw (negb (c =? 34)) p1
          else if c =? 96 then in_raw_at n true in_str p1
          else if c =? 34 then in_raw_at n in_raw true p1
          else in_raw_at n in_raw in_str p1
      end
  end.
Definition in_raw_string (src : bytes) (target : nat) : bool := in_raw_at (pred target) false false src.

(** fmt.c:148-151 *)
Fixpoint trim (l : bytes) : bytes := match l with c :: r => if (c =? 32) || (c =? 9) then trim r else l | [] => [] end.
(** fmt.c:138-174 the loop over lines *)
Fixpoint lines (src : bytes) : list bytes :=
  match src with
  | [] => []
  | c :: r => if c =? 10 then [] :: lines r else match lines r with l :: ls => (c :: l) :: ls | [] => [[c]] end
  end.
Definition format_line (raw : bool) (depth : Z) (l : bytes) : bytes :=
  let content := trim l in
  match content with
  | [] => [10]
  | _ => if raw then l ++ [10] else List.repeat 32 (Z.to_nat (Z.max 0 depth * 4)) ++ content ++ [10]
  end.
Fixpoint format_lines (src : bytes) (table : list Z) (num : nat) (ls : list bytes) : bytes :=
  match ls with
  | [] => []
  | l :: ls => format_line (in_raw_string src num) (nth (pred num) table 0) l ++ format_lines src table (S num) ls
  end.
(** fmt.c:129-182 gray_fmt_source.  None: the lexer is out of fuel (never happens) *)
Definition format (src : bytes) : option bytes :=
  match depth_table src (count_lines src) with
  | Some table => Some (format_lines src table 1 (lines src))
  | None => None
  end.
