(** Model of grayc/src/lexer/lexer.c and token.c.  The input is a C string (no NUL byte) below 2^31 - 2 bytes, so the
    ints position, line and column do not overflow; the arena is C38.  A lexer is the input from position on, with line
    and column; after the end every read_char only increments column.  The scanning functions give the number of
    read_char calls.  The literal of an ILLEGAL token is its error code instead of its message. *)
From Verif Require Import Base StringsModel EncodingModel LexSpec.

Record lexer := Lx { rest : bytes; line : Z; col : Z }.
(** lexer.c:20-32 read_char *)
Definition read_char (s : lexer) : lexer :=
  let r := tl (rest s) in
  if hd 0 r =? 10 then Lx r (line s + 1) 0 else Lx r (line s) (col s + 1).
Definition reads (n : nat) (s : lexer) : lexer := Nat.iter n read_char s.
(** lexer.c:337-351 lexer_create *)
Definition create (input : bytes) : lexer := if hd 0 input =? 10 then Lx input 2 0 else Lx input 1 1.

(** while (f(ch)) read_char: the number of calls (f 0 is false) *)
Fixpoint run (f : Z -> bool) (r : bytes) : nat := match r with c :: r => if f c then S (run f r) else 0 | [] => 0 end.
(** lexer.c:39-43 *)
Definition is_blank (c : Z) : bool := (c =? 32) || (c =? 9) || (c =? 13) || (c =? 10).
(** lexer.c:52-66 skip_block_comment after the opening: reads, and whether it is closed *)
Fixpoint block (r : bytes) : nat * bool :=
  match r with
  | [] => (0%nat, false)
  | c :: r' => if (c =? 42) && (hd 0 r' =? 47) then (2%nat, true) else let '(n, ok) := block r' in (S n, ok)
  end.
(** lexer.c:68-83 skip_whitespace_and_comments: reads, and whether a comment is unclosed.  None: out of fuel *)
Fixpoint skip (fuel : nat) (r : bytes) : option (nat * bool) :=
  match fuel with
  | O => None
  | S fuel =>
      let w := run is_blank r in
      let r1 := skipn w r in let r2 := tl (tl r1) in
      if (hd 0 r1 =? 47) && (hd 0 (tl r1) =? 47) then
        let n := run (fun c => negb (c =? 10)) r2 in
        match skip fuel (skipn n r2) with Some (m, e) => Some (w + 2 + n + m, e)%nat | None => None end
      else if (hd 0 r1 =? 47) && (hd 0 (tl r1) =? 42) then
        let '(n, ok) := block r2 in
        match skip fuel (skipn n r2) with Some (m, e) => Some (w + 2 + n + m, e || negb ok)%nat | None => None end
      else Some (w, false)
  end.

Definition word_char (c : Z) : bool := isalpha c || (c =? 95) || isdigit c.
Definition digit_ (c : Z) : bool := isdigit c || (c =? 95).
Definition octal_ (c : Z) : bool := ((48 <=? c) && (c <=? 55)) || (c =? 95).
Definition binary_ (c : Z) : bool := (c =? 48) || (c =? 49) || (c =? 95).
Definition hex_ (c : Z) : bool := isxdigit c || (c =? 95).
(** lexer.c:154-179 validation of a decimal number: the last error set *)
Fixpoint double_ (s : bytes) : bool := match s with a :: r => ((a =? 95) && (hd 0 r =? 95)) || double_ r | [] => false end.
Fixpoint dot_error (prev : Z) (s : bytes) : option bytes :=
  match s with
  | [] => None
  | c :: r =>
      if c =? 46 then
        let nxt := hd 0 r in
        if (nxt =? 0) || (negb (isdigit nxt) && negb (nxt =? 95)) then Some (bs "E1016")
        else if nxt =? 95 then Some (bs "E1015") else if prev =? 95 then Some (bs "E1014") else None
      else dot_error c r
  end.
Definition number_error (s : bytes) : option bytes :=
  match dot_error 0 s with
  | Some e => Some e
  | None => if double_ s then Some (bs "E1011") else if last s 0 =? 95 then Some (bs "E1013") else None
  end.
(** lexer.c:93-182 read_number: reads, kind, error *)
Definition based (f : Z -> bool) (r : bytes) : nat * kind * option bytes :=
  let n := run f r in ((2 + n)%nat, INT, if (n =? 0)%nat then Some (bs "E1010") else None).
Definition after_point (c : Z) : bool :=
  isdigit c || (c =? 95) || (c =? 0) || (c =? 10) || (c =? 32) || (c =? 41) || (c =? 125) || (c =? 44) || (c =? 59).
Definition read_number (r : bytes) : nat * kind * option bytes :=
  let decimal :=
    let a := run digit_ r in
    let r1 := skipn a r in
    let '(n, k) := if (hd 0 r1 =? 46) && after_point (hd 0 (tl r1)) then ((a + 1 + run digit_ (tl r1))%nat, FLOAT) else (a, INT) in
    (n, k, number_error (firstn n r)) in
  if hd 0 r =? 48 then
    let p := hd 0 (tl r) in let r2 := tl (tl r) in
    if (p =? 120) || (p =? 88) then based hex_ r2
    else if (p =? 111) || (p =? 79) then based octal_ r2
    else if (p =? 98) || (p =? 66) then based binary_ r2
    else decimal
  else decimal.

(** lexer.c:203-208: the escapes allowed *)
Definition escape_ok (c : Z) : bool :=
  existsb (Z.eqb c) [110; 116; 114; 92; 34; 39; 48; 97; 98; 102; 118; 36].
(** lexer.c:184-249 the loop of read_string after the opening quote: reads, last error *)
Definition later (e : option bytes) (x : nat * option bytes) (n : nat) : nat * option bytes :=
  let '(m, e') := x in ((n + m)%nat, match e' with Some _ => e' | None => e end).
Definition E1006 : option bytes := Some (bs "E1006").
Fixpoint str (depth : nat) (r : bytes) : nat * option bytes :=
  match r with
  | [] => (0%nat, None)
  | c :: r1 =>
      if c =? 92 then
        match r1 with
        | [] => (2%nat, None)                                     (* the second read_char is past the end *)
        | e :: r2 =>
            if e =? 120 then
              match r2 with
              | [] => (2%nat, E1006)
              | h :: r3 =>
                  if negb (isxdigit h) then later E1006 (str depth r2) 2
                  else match r3 with
                       | [] => (3%nat, E1006)
                       | l :: r4 => if negb (isxdigit l) then later E1006 (str depth r3) 3 else later None (str depth r4) 4
                       end
              end
            else later (if escape_ok e then None else E1006) (str depth r2) 2
        end
      else if (c =? 36) && (hd 0 r1 =? 123) then
        match r1 with [] => (0%nat, None) | _ :: r2 => later None (str (S depth) r2) 2 end
      else if (c =? 123) && (0 <? depth)%nat then later None (str (S depth) r1) 1
      else if (c =? 125) && (0 <? depth)%nat then later None (str (pred depth) r1) 1
      else if (c =? 34) && (depth =? 0)%nat then (0%nat, None)
      else if (c =? 10) && (depth =? 0)%nat then (0%nat, Some (bs "E1023"))
      else later None (str depth r1) 1
  end.

(** What lexer_next_token finds at ch: kind, literal, reads *)
Definition found : Type := kind * bytes * nat.
Definition illegal (e : bytes) (n : nat) : found := (ILLEGAL, e, n).
(** lexer.c:251-267, 524-528 *)
Definition scan_raw (r : bytes) : found :=
  let n := run (fun c => negb (c =? 96)) r in
  if hd 0 (skipn n r) =? 96 then (RAW_STRING, firstn n r, (1 + n + 1)%nat) else illegal (bs "E1017") (1 + n).
(** lexer.c:232-249, 506-522 *)
Definition scan_string (r : bytes) : found :=
  let '(n, e) := str 0 r in
  if hd 0 (skipn n r) =? 34 then
    match e with None => (STRING, firstn n r, (1 + n + 1)%nat) | Some e => illegal e (1 + n + 1) end
  else illegal (match e with None => bs "E1021" | Some e => e end) (1 + n).
(** lexer.c:269-306, 530-535 *)
Definition scan_char (r : bytes) : found :=
  let '(n, e) :=
    if hd 0 r =? 92 then
      let c := hd 0 (tl r) in
      (2%nat, if existsb (Z.eqb c) [110; 116; 114; 92; 39; 48; 120; 0] then None else Some (bs "E1007"))
    else (1%nat, None) in
  let c := hd 0 (skipn n r) in
  let '(n, e) :=
    if negb (c =? 39) && negb (c =? 0) && (match e with None => true | Some _ => false end) then
      ((n + run (fun c => negb (c =? 39)%Z && negb (c =? 10)%Z) (skipn n r))%nat, Some (bs "E1018"))
    else (n, e) in
  if hd 0 (skipn n r) =? 39 then
    match e with None => (CHAR, firstn n r, (1 + n + 1)%nat) | Some e => illegal e (1 + n + 1) end
  else illegal (match e with None => bs "E1005" | Some e => e end) (1 + n).

(** token.c:18-62 *)
Definition keywords : list (bytes * kind) :=
  [(bs "_", BLANK); (bs "as_long_as", AS_LONG_AS); (bs "bit_and", BIT_AND); (bs "bit_not", BIT_NOT); (bs "bit_or", BIT_OR);
   (bs "bit_shift_left", BIT_SHIFT_LEFT); (bs "bit_shift_right", BIT_SHIFT_RIGHT); (bs "bit_xor", BIT_XOR); (bs "break", BREAK);
   (bs "cast", CAST); (bs "const", CONST); (bs "continue", CONTINUE); (bs "default", DEFAULT); (bs "do", DO); (bs "else", OTHERWISE);
   (bs "ensure", ENSURE); (bs "enum", ENUM); (bs "false", FALSE); (bs "for", FOR); (bs "for_each", FOR_EACH); (bs "if", IF);
   (bs "import", IMPORT); (bs "in", IN); (bs "is", IS); (bs "loop", LOOP); (bs "module", MODULE); (bs "mut", MUT); (bs "new", NEW);
   (bs "nil", NIL); (bs "not_in", NOT_IN); (bs "or", OR_KW); (bs "or_return", OR_RETURN); (bs "otherwise", OTHERWISE);
   (bs "private", PRIVATE); (bs "range", RANGE); (bs "return", RETURN); (bs "struct", STRUCT); (bs "true", TRUE); (bs "use", USE);
   (bs "using", USING); (bs "when", WHEN); (bs "while", AS_LONG_AS)].
(** strcmp *)
Fixpoint strcmp (a b : bytes) : Z :=
  match a, b with
  | [], [] => 0
  | [], _ => -1
  | _, [] => 1
  | x :: a, y :: b => if x =? y then strcmp a b else x - y
  end.
(** token.c:66-77; None: out of fuel or of the table's bounds *)
Fixpoint lookup (fuel : nat) (ident : bytes) (lo hi : Z) : option kind :=
  match fuel with
  | O => None
  | S fuel =>
      if lo <=? hi then
        let mid := (lo + hi) / 2 in
        if (mid <? 0) then None
        else match nth_error keywords (Z.to_nat mid) with
             | None => None
             | Some (w, k) =>
                 let c := strcmp ident w in
                 if c =? 0 then Some k else if c <? 0 then lookup fuel ident lo (mid - 1) else lookup fuel ident (mid + 1) hi
             end
      else Some IDENT
  end.
Definition lookup_identifier (ident : bytes) : option kind := lookup 43 ident 0 (Z.of_nat (length keywords) - 1).

Fixpoint starts (p s : bytes) : bool := match p, s with [], _ => true | x :: p, y :: s => (x =? y) && starts p s | _, [] => false end.
Definition two (k : kind) (lit : bytes) : found := (k, lit, 2%nat).
Definition one (k : kind) (lit : bytes) : found := (k, lit, 1%nat).
(** lexer.c:374-572 the switch; r is not empty.  None: keyword lookup out of fuel (never happens) *)
Definition scan (r : bytes) : option found :=
  let c := hd 0 r in let p := hd 0 (tl r) in let r1 := tl r in
  if c =? 61 then Some (if p =? 61 then two EQ (bs "==") else one ASSIGN (bs "="))
  else if c =? 43 then Some (if p =? 61 then two PLUS_ASSIGN (bs "+=") else if p =? 43 then two INCREMENT (bs "++") else one PLUS (bs "+"))
  else if c =? 45 then
    Some (if p =? 62 then two ARROW (bs "->") else if p =? 61 then two MINUS_ASSIGN (bs "-=") else if p =? 45 then two DECREMENT (bs "--") else one MINUS (bs "-"))
  else if c =? 33 then
    Some (if p =? 61 then two NOT_EQ (bs "!=")
          else if starts (bs "in") r1 && negb (isalpha (hd 0 (skipn 2 r1))) then (NOT_IN, bs "!in", 3%nat)
          else one BANG (bs "!"))
  else if c =? 42 then Some (if p =? 61 then two ASTERISK_ASSIGN (bs "*=") else one ASTERISK (bs "*"))
  else if c =? 47 then Some (if p =? 61 then two SLASH_ASSIGN (bs "/=") else one SLASH (bs "/"))
  else if c =? 37 then Some (if p =? 61 then two PERCENT_ASSIGN (bs "%=") else one PERCENT (bs "%"))
  else if c =? 60 then Some (if p =? 61 then two LT_EQ (bs "<=") else one LT (bs "<"))
  else if c =? 62 then Some (if p =? 61 then two GT_EQ (bs ">=") else one GT (bs ">"))
  else if c =? 38 then Some (if p =? 38 then two AND (bs "&&") else one AMPERSAND (bs "&"))
  else if c =? 63 then Some (one QUESTION (bs "?"))
  else if c =? 124 then Some (if p =? 124 then two OR (bs "||") else illegal (bs "E1020") 1)
  else if c =? 44 then Some (one COMMA (bs ",")) else if c =? 58 then Some (one COLON (bs ":")) else if c =? 59 then Some (one SEMICOLON (bs ";"))
  else if c =? 40 then Some (one LPAREN (bs "(")) else if c =? 41 then Some (one RPAREN (bs ")"))
  else if c =? 123 then Some (one LBRACE (bs "{")) else if c =? 125 then Some (one RBRACE (bs "}"))
  else if c =? 91 then Some (one LBRACKET (bs "[")) else if c =? 93 then Some (one RBRACKET (bs "]"))
  else if c =? 46 then Some (one DOT (bs ".")) else if c =? 64 then Some (one AT (bs "@")) else if c =? 94 then Some (one CARET (bs "^"))
  else if c =? 35 then
    Some (if starts (bs "#suppress") r then (SUPPRESS, bs "#suppress", 9%nat)
          else if starts (bs "#strict") r then (STRICT, bs "#strict", 7%nat)
          else if starts (bs "#flags") r then (FLAGS, bs "#flags", 6%nat)
          else if starts (bs "#doc") r then (DOC, bs "#doc", 4%nat)
          else if starts (bs "#json") r then (JSON_ATTR, bs "#json", 5%nat)
          else illegal (bs "E1019") 1)
  else if c =? 34 then Some (scan_string r1)
  else if c =? 96 then Some (scan_raw r1)
  else if c =? 39 then Some (scan_char r1)
  else if isalpha c || (c =? 95) then
    let n := run word_char r in
    match lookup_identifier (firstn n r) with Some k => Some (k, firstn n r, n) | None => None end
  else if isdigit c then
    let '(n, k, e) := read_number r in
    Some (match e with Some e => illegal e n | None => (k, firstn n r, n) end)
  else Some (illegal (bs "E1022") 1).

(** lexer.c:353-577 lexer_next_token.  None: out of fuel (never happens) *)
Definition next_token (s : lexer) : option (token * lexer) :=
  match skip (S (length (rest s))) (rest s) with
  | None => None
  | Some (n, unclosed) =>
      let s1 := reads n s in
      let g := negb (n =? 0)%nat in
      if unclosed then Some (Tok ILLEGAL (bs "E1003") (line s1) (col s1) g, s1)
      else match rest s1 with
           | [] => Some (Tok EOF [] (line s1) (col s1) g, s1)
           | r => match scan r with
                  | Some (k, lit, m) => Some (Tok k lit (line s1) (col s1) g, reads m s1)
                  | None => None
                  end
           end
  end.
(** All the tokens up to EOF, as the parser and the formatter fetch them *)
Fixpoint tokens (fuel : nat) (s : lexer) : option (list token) :=
  match fuel with
  | O => None
  | S fuel =>
      match next_token s with
      | Some (t, s') => match tkind t with EOF => Some [t] | _ => match tokens fuel s' with Some l => Some (t :: l) | None => None end end
      | None => None
      end
  end.
Definition lex (src : bytes) : option (list token) := tokens (S (length src)) (create src).
