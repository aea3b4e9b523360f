(** Model of grayc/src/stdlib/strconv.c, of the conversions of grayc/src/stdlib/builtins.c
    (to_string, string-to-int casts, UTF-8 access, printing of arrays and maps, input) and of
    the integer formats of grayc/src/stdlib/fmt.c.
    Not modelled: floating-point text (strtod, "%g"); where a float is printed its text is an
    argument of the model. *)
From Verif Require Import Base Decimal StringsModel.

(** ** C library: strtoll / strtoull (C17 7.22.1.4, C locale) *)

(** Value of a digit or letter in bases up to 36, 36 for any other byte. *)
Definition digit_value (c : Z) : Z :=
  if isdigit c then c - 48 else if isupper c then c - 55 else if islower c then c - 87 else 36.

Fixpoint skip_space (s : bytes) : bytes :=
  match s with c :: r => if isspace c then skip_space r else s | [] => [] end.
Definition take_sign (s : bytes) : bool * bytes :=
  match s with
  | c :: r => if c =? 45 then (true, r) else if c =? 43 then (false, r) else (false, s)
  | [] => (false, [])
  end.
(** longest prefix of digits of the base: value so far, digits consumed, rest *)
Fixpoint take_digits (base : Z) (acc : Z) (n : nat) (s : bytes) : Z * nat * bytes :=
  match s with
  | c :: r => if digit_value c <? base then take_digits base (acc * base + digit_value c) (S n) r
              else (acc, n, s)
  | [] => (acc, n, [])
  end.
(** base 16 accepts 0x/0X, but only when a hexadecimal digit follows *)
Definition take_prefix (base : Z) (s : bytes) : bytes :=
  match s with
  | z :: x :: d :: _ =>
      if (base =? 16) && (z =? 48) && ((x =? 120) || (x =? 88)) && (digit_value d <? 16)
      then skipn 2 s else s
  | _ => s
  end.
(** The number read (before any range check) and the text where reading stopped;
    [None] when nothing was converted (end == buf). *)
Definition c_strto (base : Z) (buf : bytes) : option (Z * bytes) :=
  let '(neg, s) := take_sign (skip_space buf) in
  let '(v, n, rest) := take_digits base 0 0 (take_prefix base s) in
  if (n =? 0)%nat then None else Some (if neg then - v else v, rest).
(** A C string ends at its first NUL byte. *)
Fixpoint c_str (s : bytes) : bytes :=
  match s with c :: r => if c =? 0 then [] else c :: c_str r | [] => [] end.

(** strconv.c:18, 25-28 (and builtins.c:23, 307-310): char buf[64] holds at most 63 bytes. *)
Definition STRCONV_BUF : nat := 64.
Definition copy_text (s : bytes) : bytes := c_str (firstn (STRCONV_BUF - 1) s).
(** "len > 0 && isspace(buf[0])" *)
Definition leading_space (s : bytes) : bool := match s with c :: _ => isspace c | [] => false end.

(** strconv.c:22-37, 89-113.  The panicking and the _result form make the same decisions;
    [None] is the failure (P0055 or the error value). *)
Definition to_int_value (s : bytes) (base : Z) : option Z :=
  let buf := copy_text s in
  if leading_space buf then None else
  match c_strto base buf with
  | Some (v, []) => if (INT64_MIN <=? v) && (v <=? INT64_MAX) then Some v else None
  | _ => None
  end.
Definition to_int (s : bytes) (base : Z) : res Z :=
  if (base <? 2) || (36 <? base) then Panic 54
  else match to_int_value s base with Some v => Ok v | None => Panic 55 end.
Definition to_int_result (s : bytes) (base : Z) : Z * bool :=
  if (base <? 2) || (36 <? base) then (0, false)
  else match to_int_value s base with Some v => (v, true) | None => (0, false) end.

(** strconv.c:49-53: the loop over leading white space that rejects '-'.  White space cannot
    occur here because of the check before it, so only the first byte matters. *)
Fixpoint leads_minus (buf : bytes) : bool :=
  match buf with
  | c :: r => if c =? 45 then true else if isspace c then leads_minus r else false
  | [] => false
  end.
(** strconv.c:39-60, 115-148 *)
Inductive uint_text := UInt (v : Z) | UNegative | UBad.
Definition to_uint_value (s : bytes) (base : Z) : uint_text :=
  let buf := copy_text s in
  if leading_space buf then UBad else
  if leads_minus buf then UNegative else
  match c_strto base buf with
  | Some (v, []) => if v <=? UINT64_MAX then UInt v else UBad
  | _ => UBad
  end.
Definition to_uint (s : bytes) (base : Z) : res Z :=
  if (base <? 2) || (36 <? base) then Panic 56
  else match to_uint_value s base with UInt v => Ok v | UNegative => Panic 58 | UBad => Panic 57 end.
Definition to_uint_result (s : bytes) (base : Z) : Z * bool :=
  if (base <? 2) || (36 <? base) then (0, false)
  else match to_uint_value s base with UInt v => (v, true) | _ => (0, false) end.

(** strconv.c:77-85: length 4/5 and strncasecmp *)
Definition casecmp (a b : bytes) : bool := mem_eq (map tolower a) (map tolower b).
Definition to_bool (s : bytes) : res bool :=
  if casecmp s (bs "true") then Ok true else if casecmp s (bs "false") then Ok false else Panic 60.

(** strconv.c:185-199, builtins.c:278-288: "%" PRId64 / PRIu64 *)
Definition from_int (n : Z) : bytes := dec_signed n.
Definition from_uint (n : Z) : bytes := dec n.
(** strconv.c:209-212 *)
Definition from_bool (b : bool) : bytes := if b then bs "true" else bs "false".

(** strconv.c:216-236 *)
Fixpoint numeric_loop (s : bytes) (dot digit : bool) : bool :=
  match s with
  | [] => digit
  | c :: r => if c =? 46 then (if dot then false else numeric_loop r true digit)
              else if isdigit c then numeric_loop r dot true else false
  end.
Definition is_numeric (s : bytes) : bool :=
  match s with
  | [] => false
  | c :: r => if (c =? 45) || (c =? 43)
              then match r with [] => false | _ => numeric_loop r false false end
              else numeric_loop s false false
  end.
(** strconv.c:238-249 *)
Definition is_integer (s : bytes) : bool :=
  match s with
  | [] => false
  | c :: r => if (c =? 45) || (c =? 43)
              then match r with [] => false | _ => forallb isdigit r end
              else forallb isdigit s
  end.

(** builtins.c:306-317, the cast int(text): strtoll without looking at errno (so the value is
    clamped), trailing text is accepted after a blank. *)
Definition clamp64 (v : Z) : Z := Z.max INT64_MIN (Z.min INT64_MAX v).
Definition cast_int (s : bytes) : res Z :=
  match c_strto 10 (copy_text s) with
  | Some (v, rest) =>
      match rest with
      | [] => Ok (clamp64 v)
      | c :: _ => if c =? 32 then Ok (clamp64 v) else Panic 84
      end
  | None => Panic 84
  end.
(** codegen.c:2640: uint(text) is (uint64_t)gray_builtin_string_to_int(text) *)
Definition cast_uint (s : bytes) : res Z := rmap (wrap_u 64) (cast_int s).

(** ** fmt.c integer formats *)
(** printf's %x / %o conversions of an unsigned value: digits by repeated division. *)
Definition digit_char (d : Z) : Z := if d <? 10 then 48 + d else 87 + d.
Fixpoint base_digits (base : Z) (fuel : nat) (n : Z) (acc : bytes) : bytes :=
  match fuel with
  | O => acc
  | S f => let acc' := digit_char (n mod base) :: acc in
           if n / base =? 0 then acc' else base_digits base f (n / base) acc'
  end.
Definition in_base (base n : Z) : bytes := base_digits base (S (Z.to_nat (Z.log2 n))) n [].
(** fmt.c:48-54, 75-81: snprintf into char tmp[32], then [len] bytes are copied from tmp; a
    longer text would be read beyond tmp. *)
Definition fmt_tmp (text : bytes) : res bytes := if (length text <? 32)%nat then Ok text else UB.
Definition int_to_hex (n : Z) : res bytes := fmt_tmp (in_base 16 (wrap_u 64 n)).
Definition int_to_octal (n : Z) : res bytes := fmt_tmp (in_base 8 (wrap_u 64 n)).
(** fmt.c:56-73: tmp[65], written downwards from tmp[63] *)
Fixpoint binary_loop (pos : nat) (v : Z) (out : bytes) : res bytes :=
  if v =? 0 then Ok out else
  match pos with
  | O => UB
  | S p => binary_loop p (v / 2) (48 + v mod 2 :: out)
  end.
Definition int_to_binary (n : Z) : res bytes :=
  if n =? 0 then Ok [48] else binary_loop 64 (wrap_u 64 n) [].

(** ** UTF-8, builtins.c:396-482 *)

(** builtins.c:456-482 *)
Definition low8 (x : Z) : Z := wrap_u 8 x.
Definition cont (x : Z) : Z := Z.lor 128 (Z.land x 63).
Definition char_to_utf8 (cp : Z) : bytes :=
  if cp <? 128 then [low8 cp]
  else if cp <? 2048 then [low8 (Z.lor 192 (Z.shiftr cp 6)); cont cp]
  else if cp <? 65536 then [low8 (Z.lor 224 (Z.shiftr cp 12)); cont (Z.shiftr cp 6); cont cp]
  else if cp <? 1114112 then [low8 (Z.lor 240 (Z.shiftr cp 18)); cont (Z.shiftr cp 12);
                              cont (Z.shiftr cp 6); cont cp]
  else [239; 191; 189].
(** builtins.c:335-340: the same without the upper limit *)
Definition cp_to_utf8 (cp : Z) : bytes :=
  if cp <? 128 then [low8 cp]
  else if cp <? 2048 then [low8 (Z.lor 192 (Z.shiftr cp 6)); cont cp]
  else if cp <? 65536 then [low8 (Z.lor 224 (Z.shiftr cp 12)); cont (Z.shiftr cp 6); cont cp]
  else [low8 (Z.lor 240 (Z.shiftr cp 18)); cont (Z.shiftr cp 12); cont (Z.shiftr cp 6); cont cp].
(** builtins.c:50-66: printing a char writes nothing above 0x10FFFF *)
Definition print_char (cp : Z) : bytes :=
  if cp <? 1114112 then cp_to_utf8 cp else [].

(** builtins.c:404-417: the lead byte gives the first bits and the number of bytes *)
Definition REPLACEMENT : Z := 65533.
Definition lead (b : Z) : Z * nat :=
  if b <? 128 then (b, 1%nat)
  else if Z.land b 224 =? 192 then (Z.land b 31, 2%nat)
  else if Z.land b 240 =? 224 then (Z.land b 15, 3%nat)
  else if Z.land b 248 =? 240 then (Z.land b 7, 4%nat)
  else (REPLACEMENT, 1%nat).
(** builtins.c:422-428: n continuation bytes; [None] at the first byte that is not one *)
Fixpoint continuation (n : nat) (cp : Z) (r : bytes) : option Z :=
  match n, r with
  | O, _ => Some cp
  | S n, c :: r => if Z.land c 192 =? 128
                   then continuation n (Z.lor (Z.shiftl cp 6) (Z.land c 63)) r else None
  | S _, [] => None
  end.
(** builtins.c:418-429: code point and bytes consumed at b :: r *)
Definition decode1 (b : Z) (r : bytes) : Z * nat :=
  let '(cp, n) := lead b in
  if (S (length r) <? n)%nat then (REPLACEMENT, 1%nat)
  else match continuation (n - 1) cp r with
       | Some cp => (cp, n)
       | None => (REPLACEMENT, 1%nat)
       end.
(** builtins.c:403-437; [fuel] at least the length of the text *)
Fixpoint to_char_loop (fuel : nat) (s : bytes) (index cp_idx : Z) : res Z :=
  match s with
  | [] => Panic 50
  | b :: r =>
      match fuel with
      | O => NoFuel
      | S f => let '(cp, n) := decode1 b r in
               if cp_idx =? index then Ok cp else to_char_loop f (skipn n s) index (cp_idx + 1)
      end
  end.
Definition to_char (s : bytes) (index : Z) : res Z :=
  if index <? 0 then Panic 49 else to_char_loop (length s) s index 0.
(** builtins.c:439-454 *)
Fixpoint char_count_loop (fuel : nat) (s : bytes) (count : Z) : res Z :=
  match s with
  | [] => Ok count
  | b :: _ => match fuel with
              | O => NoFuel
              | S f => char_count_loop f (skipn (snd (lead b)) s) (count + 1)
              end
  end.
Definition char_count (s : bytes) : res Z := char_count_loop (length s) s 0.

(** ** Printing arrays and maps, builtins.c:342-392, 484-530 *)

Definition TOSTRING_BUF : nat := 4096.
Definition SAFE_LIMIT : nat := 4000.
(** The buffer contents [0, pos).  A store outside the buffer is undefined.  An snprintf that
    does not fit stores a truncated text but advances pos by the full length, to 4096 or more;
    the closing '}' is then always stored outside (lines 389, 527), so the call is UB from
    there on. *)
Definition put (w : bytes) (text : bytes) : res bytes :=
  if (length w + length text <? TOSTRING_BUF)%nat then Ok (w ++ text) else UB.
(** An element as the switch on elem_kind reads it; a float is given by its printed text. *)
Inductive elem :=
| EInt (n : Z) | EFloat (text : bytes) | EStr (s : bytes) | EBool (b : bool)
| EUint (n : Z) | EByte (n : Z) | EChar (cp : Z).
(** "\"%.*s\"" stops at a NUL byte *)
Definition quoted (s : bytes) : bytes := [34] ++ c_str s ++ [34].
Definition elem_text (e : elem) : bytes :=
  match e with
  | EInt n => dec_signed n
  | EFloat t => t
  | EStr s => quoted s
  | EBool b => from_bool b
  | EUint n => dec n
  | EByte n => dec n
  | EChar cp => [39] ++ cp_to_utf8 cp ++ [39]
  end.
(** the char case checks that the text fits and otherwise prints nothing (line 380) *)
Definition put_elem (w : bytes) (e : elem) : res bytes :=
  match e with
  | EChar cp => if (length w + 2 + length (cp_to_utf8 cp) <? TOSTRING_BUF)%nat
                then Ok (w ++ elem_text e) else Ok w
  | _ => put w (elem_text e)
  end.
Definition comma : bytes := bs ", ".
Fixpoint array_loop (first : bool) (es : list elem) (w : bytes) : res bytes :=
  match es with
  | [] => Ok w
  | e :: es =>
      if (length w <? SAFE_LIMIT)%nat then
        rbind (if first then Ok w else put w comma) (fun w =>
        rbind (put_elem w e) (fun w => array_loop false es w))
      else Ok w
  end.
(** lines 389-391: '}' and a NUL are stored *)
Definition close (w : bytes) : res bytes :=
  if (length w + 1 <? TOSTRING_BUF)%nat then Ok (w ++ [125]) else UB.
Definition array_to_string (es : list elem) : res bytes :=
  rbind (array_loop true es [123]) close.

(** Map entries are given in insertion order (MapModel.entries: every position of order[] is an
    occupied slot).  Keys are read as strings whatever the key type (line 492). *)
Fixpoint map_loop (first : bool) (es : list (bytes * elem)) (w : bytes) : res bytes :=
  match es with
  | [] => Ok w
  | (k, e) :: es =>
      if (length w <? SAFE_LIMIT)%nat then
        rbind (if first then Ok w else put w comma) (fun w =>
        rbind (put w (quoted k ++ bs ": ")) (fun w =>
        rbind (put_elem w e) (fun w => map_loop false es w)))
      else Ok w
  end.
Definition map_to_string (es : list (bytes * elem)) : res bytes :=
  rbind (map_loop true es [123]) (fun w =>
  rbind (match es with [] => put w [58] | _ => Ok w end) close).

(** ** input(), builtins.c:200-216 *)
Definition INPUT_BUF : nat := 4096.
(** fgets(buf, n + 1): at most n bytes, up to and including a newline; the bytes stored and the
    rest of the stream *)
Fixpoint fgets (n : nat) (stream : bytes) : bytes * bytes :=
  match n, stream with
  | S n, c :: r => if c =? 10 then ([c], r) else let '(b, r') := fgets n r in (c :: b, r')
  | _, _ => ([], stream)
  end.
(** getc until a newline or the end *)
Fixpoint drain (stream : bytes) : bytes :=
  match stream with [] => [] | c :: r => if c =? 10 then r else drain r end.
Definition input (stream : bytes) : bytes * bytes :=
  match stream with
  | [] => ([], [])
  | _ =>
      let '(stored, rest) := fgets (INPUT_BUF - 1) stream in
      let buf := c_str stored in
      let len := length buf in
      if (0 <? len)%nat && (nth (len - 1) buf 0 =? 10) then (firstn (len - 1) buf, rest)
      else if (len =? INPUT_BUF - 1)%nat then (buf, drain rest)
      else (buf, rest)
  end.
