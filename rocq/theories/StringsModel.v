(** Model of grayc/src/stdlib/strings.c and of the padding functions of
    grayc/src/stdlib/fmt.c.

    A GrayString is the list of its bytes.  The loops run over positions as in the C code;
    [n] is the recursion bound of the model (running out of it is [NoFuel]).  Comparisons
    i <= s.len - sub.len of int32_t values are written without the subtraction.  An output
    buffer is its capacity and the bytes written so far; writing beyond the capacity, reading
    outside a string and int32_t/int64_t overflow are [UB].  The arena never runs out of
    memory. *)
From Verif Require Import Base.

(** memcmp(a, b, n) == 0 on n bytes each *)
Fixpoint mem_eq (a b : bytes) : bool :=
  match a, b with
  | [], [] => true
  | x :: a, y :: b => (x =? y) && mem_eq a b
  | _, _ => false
  end.
(** memcmp(s.data + i, sub.data, sub.len) == 0 *)
Definition match_at (s : bytes) (i : nat) (sub : bytes) : res bool :=
  if (i + length sub <=? length s)%nat then Ok (mem_eq (firstn (length sub) (skipn i s)) sub) else UB.
(** gray_string_new(arena, s.data + start, n) (runtime.c:127-136) *)
Definition substr (s : bytes) (start n : nat) : res bytes :=
  if (start + n <=? length s)%nat then Ok (firstn n (skipn start s)) else UB.
(** appending v to a buffer of cap bytes *)
Definition emit (cap : Z) (w v : bytes) : res bytes :=
  if Z.of_nat (length w + length v) <=? cap then Ok (w ++ v) else UB.

(** C locale ctype on one byte (no setlocale call in the project) *)
Definition isspace (c : Z) : bool := ((9 <=? c) && (c <=? 13)) || (c =? 32).
Definition isupper (c : Z) : bool := (65 <=? c) && (c <=? 90).
Definition islower (c : Z) : bool := (97 <=? c) && (c <=? 122).
Definition isalpha (c : Z) : bool := isupper c || islower c.
Definition isdigit (c : Z) : bool := (48 <=? c) && (c <=? 57).
Definition isalnum (c : Z) : bool := isalpha c || isdigit c.
Definition toupper (c : Z) : Z := if islower c then c - 32 else c.
Definition tolower (c : Z) : Z := if isupper c then c + 32 else c.

(** strings.c:16-30 *)
Definition to_upper (s : bytes) : bytes := map toupper s.
Definition to_lower (s : bytes) : bytes := map tolower s.

(** strings.c:32-49: the two while loops *)
Fixpoint skip_left (s : bytes) (n start stop : nat) : nat :=
  match n with
  | O => start
  | S n => if (start <? stop)%nat && isspace (nth start s 0) then skip_left s n (S start) stop else start
  end.
Fixpoint skip_right (s : bytes) (stop start : nat) : nat :=
  match stop with
  | O => O
  | S e => if (start <? stop)%nat && isspace (nth e s 0) then skip_right s e start else stop
  end.
Definition trim (s : bytes) : res bytes :=
  let start := skip_left s (length s) 0 (length s) in
  let stop := skip_right s (length s) start in
  substr s start (stop - start).
Definition trim_left (s : bytes) : res bytes :=
  let start := skip_left s (length s) 0 (length s) in substr s start (length s - start).
Definition trim_right (s : bytes) : res bytes := substr s 0 (skip_right s (length s) 0).

(** the search loop of contains and index_of (strings.c:51-58, 70-77) *)
Fixpoint scan (s sub : bytes) (n i : nat) : res (option nat) :=
  match n with
  | O => NoFuel
  | S n =>
      if (i + length sub <=? length s)%nat then
        rbind (match_at s i sub) (fun b => if b then Ok (Some i) else scan s sub n (S i))
      else Ok None
  end.
(** strings.c:51-58 *)
Definition contains (s sub : bytes) : res bool :=
  if (length sub =? 0)%nat then Ok true
  else if (length s <? length sub)%nat then Ok false
  else rmap (fun o => match o with Some _ => true | None => false end) (scan s sub (S (length s)) 0).
(** strings.c:60-68 *)
Definition starts_with (s prefix : bytes) : res bool :=
  if (length s <? length prefix)%nat then Ok false else match_at s 0 prefix.
Definition ends_with (s suffix : bytes) : res bool :=
  if (length s <? length suffix)%nat then Ok false else match_at s (length s - length suffix) suffix.
(** strings.c:70-77 *)
Definition index_of (s sub : bytes) : res Z :=
  if (length sub =? 0)%nat then Ok 0
  else if (length s <? length sub)%nat then Ok (-1)
  else rmap (fun o => match o with Some i => Z.of_nat i | None => -1 end) (scan s sub (S (length s)) 0).
(** strings.c:79-86 *)
Fixpoint scan_down (s sub : bytes) (i : nat) : res Z :=
  rbind (match_at s i sub) (fun b =>
    if b then Ok (Z.of_nat i) else match i with O => Ok (-1) | S i => scan_down s sub i end).
Definition last_index_of (s sub : bytes) : res Z :=
  if (length sub =? 0)%nat then Ok (Z.of_nat (length s))
  else if (length s <? length sub)%nat then Ok (-1)
  else scan_down s sub (length s - length sub).
(** strings.c:88-98; i += sub.len - 1 followed by i++ *)
Fixpoint count_loop (s sub : bytes) (n i : nat) (count : Z) : res Z :=
  match n with
  | O => NoFuel
  | S n =>
      if (i + length sub <=? length s)%nat then
        rbind (match_at s i sub) (fun b =>
          if b then count_loop s sub n (i + length sub) (count + 1) else count_loop s sub n (S i) count)
      else Ok count
  end.
Definition count (s sub : bytes) : res Z :=
  if (length sub =? 0)%nat then Ok 0 else count_loop s sub (S (length s)) 0 0.
(** strings.c:104-114 *)
Definition remove_prefix (s prefix : bytes) : res bytes :=
  rbind (starts_with s prefix) (fun b =>
    if b then substr s (length prefix) (length s - length prefix) else Ok s).
Definition remove_suffix (s suffix : bytes) : res bytes :=
  rbind (ends_with s suffix) (fun b =>
    if b then substr s 0 (length s - length suffix) else Ok s).
(** strings.c:116-141 *)
Fixpoint replace_loop (s old_s new_s : bytes) (cap : Z) (n i : nat) (w : bytes) : res bytes :=
  match n with
  | O => NoFuel
  | S n =>
      if (i <? length s)%nat then
        let put_one := rbind (emit cap w [nth i s 0]) (replace_loop s old_s new_s cap n (S i)) in
        if (i + length old_s <=? length s)%nat then
          rbind (match_at s i old_s) (fun b =>
            if b then rbind (emit cap w new_s) (replace_loop s old_s new_s cap n (i + length old_s))
            else put_one)
        else put_one
      else rmap (fun _ => w) (emit cap w [0])
  end.
Definition replace (s old_s new_s : bytes) : res bytes :=
  if (length old_s =? 0)%nat then Ok s
  else rbind (count s old_s) (fun c =>
    if c =? 0 then Ok s
    else
      let new_len := Z.of_nat (length s) + c * (Z.of_nat (length new_s) - Z.of_nat (length old_s)) in
      if (new_len <? 0) || (INT32_MAX <? new_len) then Panic 71
      else replace_loop s old_s new_s (new_len + 1) (S (length s)) 0 []).
(** strings.c:143-158 *)
Fixpoint repeat_loop (s : bytes) (cap : Z) (n : nat) (w : bytes) : res bytes :=
  match n with
  | O => rmap (fun _ => w) (emit cap w [0])
  | S n => rbind (emit cap w s) (repeat_loop s cap n)
  end.
Definition repeat (s : bytes) (count : Z) : res bytes :=
  if count <? 0 then Panic 72
  else if (count =? 0) || (length s =? 0)%nat then Ok []
  else
    let new_len := Z.of_nat (length s) * count in
    if INT64_MAX <? new_len then UB
    else if INT32_MAX <? new_len then Panic 73
    else repeat_loop s (new_len + 1) (Z.to_nat count) [].
(** strings.c:160-166 *)
Definition reverse (s : bytes) : bytes :=
  map (fun i => nth (length s - 1 - i) s 0) (seq 0 (length s)).
(** strings.c:168-173 *)
Definition slice (s : bytes) (start stop : Z) : res bytes :=
  let start := if start <? 0 then 0 else start in
  let stop := if Z.of_nat (length s) <? stop then Z.of_nat (length s) else stop in
  if stop <=? start then Ok [] else substr s (Z.to_nat start) (Z.to_nat (stop - start)).
(** strings.c:175-193 *)
Fixpoint split_loop (s sep : bytes) (n i start : nat) (arr : list bytes) : res (list bytes) :=
  match n with
  | O => NoFuel
  | S n =>
      if (i + length sep <=? length s)%nat then
        rbind (match_at s i sep) (fun b =>
          if b then rbind (substr s start (i - start)) (fun part =>
                      split_loop s sep n (i + length sep) (i + length sep) (arr ++ [part]))
          else split_loop s sep n (S i) start arr)
      else rmap (fun last => arr ++ [last]) (substr s start (length s - start))
  end.
Definition split (s sep : bytes) : res (list bytes) :=
  if (length sep =? 0)%nat then Ok [s] else split_loop s sep (S (length s)) 0 0 [].
(** strings.c:195-216.  [total] is an int32_t. *)
Definition add_len (r : res Z) (v : bytes) : res Z :=
  rbind r (fun t => if INT32_MAX <? t + Z.of_nat (length v) then UB else Ok (t + Z.of_nat (length v))).
Definition join_total (arr : list bytes) (sep : bytes) : res Z :=
  match arr with
  | [] => Ok 0
  | x :: arr => fold_left (fun t v => add_len (add_len t v) sep) arr (add_len (Ok 0) x)
  end.
Definition join (arr : list bytes) (sep : bytes) : res bytes :=
  match arr with
  | [] => Ok []
  | x :: rest =>
      rbind (join_total arr sep) (fun total =>
        rbind (fold_left (fun w v => rbind (rbind w (fun w => emit (total + 1) w sep)) (fun w => emit (total + 1) w v))
                 rest (emit (total + 1) [] x))
          (fun w => rmap (fun _ => w) (emit (total + 1) w [0])))
  end.
(** strings.c:219-237; array elements are int32_t values *)
Definition to_chars (s : bytes) : list Z := s.
Definition from_chars (cs : list Z) : bytes := map (wrap_u 8) cs.
(** strings.c:239-245, converted to the int32_t the language uses for char.  [signed]: plain
    char is signed (x86) or unsigned (ARM Linux). *)
Definition char_value (signed : bool) (b : Z) : Z := if signed then wrap_i 8 b else b.
Definition char_at (signed : bool) (s : bytes) (index : Z) : res Z :=
  if (index <? 0) || (Z.of_nat (length s) <=? index) then Panic 82
  else Ok (char_value signed (nth (Z.to_nat index) s 0)).
(** strings.c:247-252; the int32_t argument is converted to char, then to unsigned char *)
Definition is_alpha (c : Z) : bool := isalpha (wrap_u 8 c).
Definition is_digit (c : Z) : bool := isdigit (wrap_u 8 c).
Definition is_alnum (c : Z) : bool := isalnum (wrap_u 8 c).
Definition is_whitespace (c : Z) : bool := isspace (wrap_u 8 c).
Definition is_upper (c : Z) : bool := isupper (wrap_u 8 c).
Definition is_lower (c : Z) : bool := islower (wrap_u 8 c).
(** codegen.c:1899-1908: char in string is memchr, which converts to unsigned char *)
Definition char_in (c : Z) (s : bytes) : bool := existsb (fun b => b =? wrap_u 8 c) s.

(** fmt.c:18-46.  The struct initialiser converts the int64_t width to the int32_t length;
    a negative length is [UB].  The fill character is (char)(ch). *)
Definition with_width (buf : bytes) (width : Z) : res bytes :=
  let len := wrap_i 32 width in if len <? 0 then UB else Ok (firstn (Z.to_nat len) buf).
Definition pad_left (s : bytes) (width ch : Z) : res bytes :=
  if width <=? Z.of_nat (length s) then Ok s
  else with_width (List.repeat (wrap_u 8 ch) (Z.to_nat (width - Z.of_nat (length s))) ++ s) width.
Definition pad_right (s : bytes) (width ch : Z) : res bytes :=
  if width <=? Z.of_nat (length s) then Ok s
  else with_width (s ++ List.repeat (wrap_u 8 ch) (Z.to_nat (width - Z.of_nat (length s)))) width.
Definition center (s : bytes) (width ch : Z) : res bytes :=
  if width <=? Z.of_nat (length s) then Ok s
  else
    let total_pad := width - Z.of_nat (length s) in
    let left_pad := Z.quot total_pad 2 in
    let right_pad := total_pad - left_pad in
    with_width (List.repeat (wrap_u 8 ch) (Z.to_nat left_pad) ++ s ++ List.repeat (wrap_u 8 ch) (Z.to_nat right_pad)) width.
