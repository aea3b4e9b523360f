(** Vocabulary of the literals' properties (C59, C61, C95): numerals, Grayscale string and character literals, and the C
    literals they become. *)
From Verif Require Import Base.

(** * Integer literals *)
(** The character c is the digit d of base b *)
Inductive digit (b : Z) : Z -> Z -> Prop :=
| digit_num c : 48 <= c <= 57 -> c - 48 < b -> digit b c (c - 48)
| digit_low c : 97 <= c <= 102 -> c - 87 < b -> digit b c (c - 87)
| digit_up c : 65 <= c <= 70 -> c - 55 < b -> digit b c (c - 55).
(** Digits and separators, most significant first *)
Inductive numeral (b : Z) : bytes -> Z -> Prop :=
| num_nil : numeral b [] 0
| num_sep s v : numeral b s v -> numeral b (s ++ [95]) v
| num_digit s v c d : numeral b s v -> digit b c d -> numeral b (s ++ [c]) (b * v + d).
Inductive int_literal : bytes -> Z -> Prop :=
| lit_hex p s v : p = 120 \/ p = 88 -> numeral 16 s v -> int_literal (48 :: p :: s) v
| lit_oct p s v : p = 111 \/ p = 79 -> numeral 8 s v -> int_literal (48 :: p :: s) v
| lit_bin p s v : p = 98 \/ p = 66 -> numeral 2 s v -> int_literal (48 :: p :: s) v
| lit_dec s v : numeral 10 s v -> int_literal s v.

(** * String literals *)
(** What a backslash and a letter denote *)
Definition escapes : list (Z * Z) :=
  [(110, 10); (116, 9); (114, 13); (92, 92); (34, 34); (39, 39); (48, 0); (97, 7); (98, 8); (102, 12); (118, 11); (36, 36)].
(** The pieces of the text between double quotes (without interpolation): a character, a backslash and a letter, a
    backslash, x and two hexadecimal digits; with what they denote *)
Inductive item := Plain (c : Z) | Escape (e v : Z) | HexEscape (h l v : Z).
Definition item_ok (i : item) : Prop :=
  match i with
  | Plain c => c <> 0 /\ c <> 92 /\ c <> 34 /\ c <> 10
  | Escape e v => In (e, v) escapes
  | HexEscape h l v => exists x y, digit 16 h x /\ digit 16 l y /\ v = 16 * x + y
  end.
Definition written (i : item) : bytes := match i with Plain c => [c] | Escape e _ => [92; e] | HexEscape h l _ => [92; 120; h; l] end.
Definition denoted (i : item) : Z := match i with Plain c => c | Escape _ v => v | HexEscape _ _ v => v end.
Definition spells (lit : bytes) (its : list item) : Prop := Forall item_ok its /\ lit = flat_map written its.
(** No two neighbours are related by R *)
Definition no_neighbours (R : item -> item -> Prop) (its : list item) : Prop := forall p i j q, its = p ++ i :: j :: q -> ~ R i j.
(** Neighbours and items that go wrong *)
Definition bad_dollar (i j : item) : Prop := i = Escape 92 92 /\ j = Plain 36.
Definition bad_octal (i j : item) : Prop := i = Escape 48 0 /\ exists d, j = Plain d /\ 48 <= d <= 55.
Definition bad_hex (i j : item) : Prop := exists h l v d x, i = HexEscape h l v /\ j = Plain d /\ digit 16 d x.
Definition other_hex (i : item) : Prop := exists h l v, i = HexEscape h l v /\ v <> 0.
Definition bad_item (i : item) : Prop := denoted i = 0 \/ exists h l, i = HexEscape h l 37.
(** Text without interpolation: every dollar sign followed by a brace is escaped *)
Fixpoint interpolates (s : bytes) : Prop :=
  match s with
  | [] => False
  | c :: r => (c = 36 /\ exists r', r = 123 :: r') \/ (c = 92 /\ match r with [] => False | _ :: r' => interpolates r' end) \/ (c <> 92 /\ interpolates r)
  end.
(** [b] does not occur in [s] *)
Definition free_of (b s : bytes) : Prop := forall p q, s <> p ++ b ++ q.

(** * C literals (C11 5.1.1.2, 6.4.4.4, 6.4.5; the compiler is run with -std=c11, which turns trigraphs on) *)
Definition trigraph (c : Z) : option Z :=
  if c =? 61 then Some 35 else if c =? 40 then Some 91 else if c =? 47 then Some 92 else if c =? 41 then Some 93 else if c =? 39 then Some 94
  else if c =? 60 then Some 123 else if c =? 33 then Some 124 else if c =? 62 then Some 125 else if c =? 45 then Some 126 else None.
(** Phase 1 *)
Fixpoint trigraphs (s : bytes) : bytes :=
  match s with
  | [] => []
  | c :: r =>
      match r with
      | d :: e :: r' => if (c =? 63) && (d =? 63) then match trigraph e with Some v => v :: trigraphs r' | None => c :: trigraphs r end else c :: trigraphs r
      | _ => c :: trigraphs r
      end
  end.
Definition c_escape (e : Z) : option Z :=
  if e =? 110 then Some 10 else if e =? 116 then Some 9 else if e =? 114 then Some 13 else if e =? 92 then Some 92 else if e =? 34 then Some 34
  else if e =? 39 then Some 39 else if e =? 63 then Some 63 else if e =? 97 then Some 7 else if e =? 98 then Some 8 else if e =? 102 then Some 12
  else if e =? 118 then Some 11 else None.
Definition hex_value (c : Z) : option Z :=
  if (48 <=? c) && (c <=? 57) then Some (c - 48) else if (97 <=? c) && (c <=? 102) then Some (c - 87) else if (65 <=? c) && (c <=? 70) then Some (c - 55) else None.
Definition octal_digit (c : Z) : bool := (48 <=? c) && (c <=? 55).
(** Where one is in a sequence of adjacent string literals: between two, inside one, after a backslash, in an octal
    escape of k digits so far, in a hexadecimal escape *)
Inductive place := Out | In_ | Esc | Oct (k : nat) (v : Z) | Hex (v : option Z).
Definition put (v : Z) (r : option bytes) : option bytes := if v <=? 255 then option_map (cons v) r else None.
(** The bytes of adjacent string literals, without the closing 0; None: not a string literal of C *)
Fixpoint c_chars (m : place) (s : bytes) : option bytes :=
  match s with
  | [] => match m with Out => Some [] | _ => None end
  | c :: r =>
      let inside := if c =? 34 then c_chars Out r else if c =? 92 then c_chars Esc r else if c =? 10 then None else option_map (cons c) (c_chars In_ r) in
      match m with
      | Out => if c =? 34 then c_chars In_ r else if c =? 32 then c_chars Out r else None
      | In_ => inside
      | Esc => match c_escape c with
               | Some v => option_map (cons v) (c_chars In_ r)
               | None => if octal_digit c then c_chars (Oct 1 (c - 48)) r else if c =? 120 then c_chars (Hex None) r else None
               end
      | Oct k v => if octal_digit c && (k <? 3)%nat then c_chars (Oct (S k) (v * 8 + (c - 48))) r else put v inside
      | Hex v => match hex_value c, v with
                 | Some d, _ => c_chars (Hex (Some (match v with Some v => v | None => 0 end * 16 + d))) r
                 | None, Some v => put v inside
                 | None, None => None
                 end
      end
  end.
Definition c_string (text : bytes) : option bytes := c_chars Out (trigraphs text).
(** A character constant of one character *)
Definition c_char (text : bytes) : option Z :=
  match trigraphs text with
  | [q; c; q'] => if (q =? 39) && (q' =? 39) && negb ((c =? 39) || (c =? 92) || (c =? 10)) then Some c else None
  | [q; b; e; q'] => if (q =? 39) && (b =? 92) && (q' =? 39) then if octal_digit e then Some (e - 48) else c_escape e else None
  | _ => None
  end.

(** * Emitted string expressions *)
Inductive emitted :=
| Lit (text : bytes)                    (* gray_string_lit(text) *)
| LitLen (text : bytes) (len : Z)       (* gray_string_lit_len(text, len) *)
| Macro (text : bytes).                 (* GRAY_STRING_LIT(text) *)
(** runtime.h:80-96: the bytes of the string.  None: not a C expression, or bytes past the array are read *)
Fixpoint upto_nul (s : bytes) : bytes := match s with [] => [] | c :: r => if c =? 0 then [] else c :: upto_nul r end.
Definition value_of (e : emitted) : option bytes :=
  match e with
  | Lit t => option_map upto_nul (c_string t)
  | LitLen t n => match c_string t with
                  | Some b => if (n <=? Z.of_nat (length b) + 1) then Some (firstn (Z.to_nat n) (b ++ [0])) else None
                  | None => None
                  end
  | Macro t => c_string t
  end.
(** What printf writes for a format with no conversion but [%%]; it is a C string.  None: another conversion *)
Fixpoint printf_text (s : bytes) : option bytes :=
  match s with
  | [] => Some []
  | c :: r => if c =? 0 then Some [] else if c =? 37 then match r with d :: r' => if d =? 37 then option_map (cons 37) (printf_text r') else None | [] => None end
              else option_map (cons c) (printf_text r)
  end.
