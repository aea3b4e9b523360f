(** Vocabulary of the lexer's properties (C57, C58, C93, C46): kinds of tokens, the keywords of the language, spelling of
    tokens, layout between tokens. *)
From Verif Require Import Base.

Inductive kind :=
| ILLEGAL | EOF | IDENT | INT | FLOAT | STRING | RAW_STRING | CHAR
| ASSIGN | PLUS | MINUS | BANG | ASTERISK | SLASH | PERCENT | LT | GT | EQ | NOT_EQ | LT_EQ | GT_EQ
| PLUS_ASSIGN | MINUS_ASSIGN | ASTERISK_ASSIGN | SLASH_ASSIGN | PERCENT_ASSIGN | INCREMENT | DECREMENT | AND | OR
| COMMA | COLON | SEMICOLON | LPAREN | RPAREN | LBRACE | RBRACE | LBRACKET | RBRACKET | CARET | ARROW | DOT | AT | AMPERSAND | QUESTION
| SUPPRESS | STRICT | FLAGS | DOC | JSON_ATTR
| MUT | CONST | DO | RETURN | IF | OR_KW | OTHERWISE | FOR | FOR_EACH | AS_LONG_AS | LOOP | BREAK | CONTINUE | IN | NOT_IN | RANGE
| IMPORT | USING | STRUCT | ENUM | NIL | NEW | TRUE | FALSE | BLANK | ENSURE | OR_RETURN | MODULE | PRIVATE | USE | WHEN | IS | DEFAULT
| CAST | BIT_AND | BIT_OR | BIT_XOR | BIT_NOT | BIT_SHIFT_LEFT | BIT_SHIFT_RIGHT.

(** The keywords, by topic *)
Definition keyword_list : list (bytes * kind) :=
  [(bs "mut", MUT); (bs "const", CONST); (bs "do", DO); (bs "return", RETURN);
   (bs "if", IF); (bs "or", OR_KW); (bs "otherwise", OTHERWISE); (bs "else", OTHERWISE);
   (bs "for", FOR); (bs "for_each", FOR_EACH); (bs "as_long_as", AS_LONG_AS); (bs "while", AS_LONG_AS); (bs "loop", LOOP);
   (bs "break", BREAK); (bs "continue", CONTINUE); (bs "in", IN); (bs "not_in", NOT_IN); (bs "range", RANGE);
   (bs "import", IMPORT); (bs "using", USING); (bs "module", MODULE); (bs "private", PRIVATE); (bs "use", USE);
   (bs "struct", STRUCT); (bs "enum", ENUM); (bs "nil", NIL); (bs "new", NEW); (bs "true", TRUE); (bs "false", FALSE); (bs "_", BLANK);
   (bs "ensure", ENSURE); (bs "or_return", OR_RETURN); (bs "when", WHEN); (bs "is", IS); (bs "default", DEFAULT); (bs "cast", CAST);
   (bs "bit_and", BIT_AND); (bs "bit_or", BIT_OR); (bs "bit_xor", BIT_XOR); (bs "bit_not", BIT_NOT);
   (bs "bit_shift_left", BIT_SHIFT_LEFT); (bs "bit_shift_right", BIT_SHIFT_RIGHT)].

Record token := Tok { tkind : kind; literal : bytes; tline : Z; tcol : Z; after_gap : bool }.
(** How a token is written *)
Definition spelling (k : kind) (lit : bytes) : bytes :=
  match k with STRING => [34] ++ lit ++ [34] | RAW_STRING => [96] ++ lit ++ [96] | CHAR => [39] ++ lit ++ [39] | _ => lit end.

Definition blank (c : Z) : Prop := c = 32 \/ c = 9 \/ c = 13 \/ c = 10.
(** Layout: blanks and comments.  A line comment runs to the end of its line, or of the source (only in the last gap) *)
Inductive gap (at_end : Prop) : bytes -> Prop :=
| gap_nil : gap at_end []
| gap_blank c g : blank c -> gap at_end g -> gap at_end (c :: g)
| gap_line body g : ~ In 10 body -> gap at_end (10 :: g) -> gap at_end (bs "//" ++ body ++ 10 :: g)
| gap_last body : at_end -> ~ In 10 body -> gap at_end (bs "//" ++ body)
| gap_block body g : (forall a b, body <> a ++ bs "*/" ++ b) -> gap at_end g -> gap at_end (bs "/*" ++ body ++ bs "*/" ++ g).
(** Where a text ends: the line and column of the character after it *)
Definition newlines (s : bytes) : Z := Z.of_nat (length (filter (fun c => c =? 10) s)).
Definition since_newline (s : bytes) (n : Z) : Prop :=
  (~ In 10 s /\ n = Z.of_nat (length s)) \/ exists a b, s = a ++ 10 :: b /\ ~ In 10 b /\ n = Z.of_nat (length b).
Definition stands_at (before : bytes) (t : token) : Prop := tline t = 1 + newlines before /\ since_newline before (tcol t - 1).
(** [made_of clean before ts s]: after [before], the source goes on with s, which consists of exactly the tokens ts, each
    where it says it is, and layout between them.  With errors ([clean] = false) a token of kind ILLEGAL stands for some
    text, or for a comment left open at the end of the source *)
Inductive made_of (clean : bool) : bytes -> list token -> bytes -> Prop :=
| made_end pre t g : tkind t = EOF -> literal t = [] -> gap True g -> (clean = true -> stands_at (pre ++ g) t) -> made_of clean pre [t] g
| made_token pre t ts g s : tkind t <> EOF -> tkind t <> ILLEGAL -> gap False g -> stands_at (pre ++ g) t -> (after_gap t = true <-> g <> []) ->
    spelling (tkind t) (literal t) <> [] -> made_of clean (pre ++ g ++ spelling (tkind t) (literal t)) ts s ->
    made_of clean pre (t :: ts) (g ++ spelling (tkind t) (literal t) ++ s)
| made_bad pre t ts g x s : clean = false -> tkind t = ILLEGAL -> gap False g -> stands_at (pre ++ g) t -> x <> [] ->
    made_of clean (pre ++ g ++ x) ts s -> made_of clean pre (t :: ts) (g ++ x ++ s)
| made_open pre t e g body : clean = false -> tkind t = ILLEGAL -> literal t = bs "E1003" -> tkind e = EOF -> gap False g ->
    (forall a b, body <> a ++ bs "*/" ++ b) -> made_of clean pre [t; e] (g ++ bs "/*" ++ body).
Definition meaning (t : token) : kind * bytes := (tkind t, literal t).
(** Position order *)
Definition before (t u : token) : Prop := tline t < tline u \/ (tline t = tline u /\ tcol t < tcol u).
(** Tokens written out with any layout between them, each gap after a token starting with a blank *)
Definition separated (s : bytes) : Prop := s = [] \/ exists b s', blank b /\ s = b :: s'.
Inductive laid_out : list (kind * bytes) -> bytes -> Prop :=
| laid_end g : gap True g -> laid_out [(EOF, [])] g
| laid_token k lit ms g s : gap False g -> separated s -> laid_out ms s -> laid_out ((k, lit) :: ms) (g ++ spelling k lit ++ s).
(** Letters, digits and the underscore *)
Definition word_letter (c : Z) : Prop := 65 <= c <= 90 \/ 97 <= c <= 122 \/ 48 <= c <= 57 \/ c = 95.
