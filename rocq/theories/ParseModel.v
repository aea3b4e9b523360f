(** Model of the expressions of grayc/src/parser/parser.c: parse_expression and everything below it.  The parser state is
    the list of the tokens from cur_token on (peek_token is the next one, after the last comes EOF again), the flag
    no_struct_literal and the codes of the diagnostics, latest first.  None stands for NULL, [Missing] for a NULL stored in
    a node.  Nodes are kept without their positions, values as kind and text (their values are C59, C61).  Not modelled:
    what is inside interpolated strings (a string is one value here).  Arrays that double are lists; arena memory is C38. *)
From Verif Require Import Base LexSpec NameModel ParseSpec.

(** == on token types *)
Definition number (k : kind) : nat :=
  match k with
  | ILLEGAL => 0 | EOF => 1 | IDENT => 2 | INT => 3 | FLOAT => 4 | STRING => 5 | RAW_STRING => 6 | CHAR => 7
  | ASSIGN => 8 | PLUS => 9 | MINUS => 10 | BANG => 11 | ASTERISK => 12 | SLASH => 13 | PERCENT => 14 | LT => 15
  | GT => 16 | EQ => 17 | NOT_EQ => 18 | LT_EQ => 19 | GT_EQ => 20 | PLUS_ASSIGN => 21 | MINUS_ASSIGN => 22
  | ASTERISK_ASSIGN => 23 | SLASH_ASSIGN => 24 | PERCENT_ASSIGN => 25 | INCREMENT => 26 | DECREMENT => 27 | AND => 28
  | OR => 29 | COMMA => 30 | COLON => 31 | SEMICOLON => 32 | LPAREN => 33 | RPAREN => 34 | LBRACE => 35
  | RBRACE => 36 | LBRACKET => 37 | RBRACKET => 38 | CARET => 39 | ARROW => 40 | DOT => 41 | AT => 42
  | AMPERSAND => 43 | QUESTION => 44 | SUPPRESS => 45 | STRICT => 46 | FLAGS => 47 | DOC => 48 | JSON_ATTR => 49
  | MUT => 50 | CONST => 51 | DO => 52 | RETURN => 53 | IF => 54 | OR_KW => 55 | OTHERWISE => 56 | FOR => 57
  | FOR_EACH => 58 | AS_LONG_AS => 59 | LOOP => 60 | BREAK => 61 | CONTINUE => 62 | IN => 63 | NOT_IN => 64
  | RANGE => 65 | IMPORT => 66 | USING => 67 | STRUCT => 68 | ENUM => 69 | NIL => 70 | NEW => 71 | TRUE => 72
  | FALSE => 73 | BLANK => 74 | ENSURE => 75 | OR_RETURN => 76 | MODULE => 77 | PRIVATE => 78 | USE => 79
  | WHEN => 80 | IS => 81 | DEFAULT => 82 | CAST => 83 | BIT_AND => 84 | BIT_OR => 85 | BIT_XOR => 86 | BIT_NOT => 87
  | BIT_SHIFT_LEFT => 88 | BIT_SHIFT_RIGHT => 89
  end%nat.
Definition is (a b : kind) : bool := (number a =? number b)%nat.

Record ps := Ps { toks : list token; nolit : bool; errs : list bytes }.
Definition eof : token := Tok EOF [] 0 0 false.
Definition cur (s : ps) : token := hd eof (toks s).
Definition peek (s : ps) : token := hd eof (tl (toks s)).
Definition curk (s : ps) : kind := tkind (cur s).
Definition peekk (s : ps) : kind := tkind (peek s).
Definition err (c : bytes) (s : ps) : ps := Ps (toks s) (nolit s) (c :: errs s).
Definition err_if (b : bool) (c : bytes) (s : ps) : ps := if b then err c s else s.
Definition flag (b : bool) (s : ps) : ps := Ps (toks s) b (errs s).
(** parser.c:116-129 next_token.  The text of an ILLEGAL token is the code of its error *)
Definition next (s : ps) : ps :=
  let s' := Ps (tl (toks s)) (nolit s) (errs s) in
  match peekk s' with ILLEGAL => err (literal (peek s')) s' | _ => s' end.
(** parser.c:140-152 expect_peek_token *)
Definition expect (k : kind) (s : ps) : bool * ps := if is (peekk s) k then (true, next s) else (false, err (bs "E2001") s).

(** parser.c:27-42, 199-229 get_token_precedence *)
Definition LOWEST : Z := 0.
Definition PREFIX : Z := 10.
Definition prec_of (k : kind) : Z :=
  match k with
  | OR => 1 | AND => 2 | EQ | NOT_EQ => 3 | BIT_AND | BIT_OR | BIT_XOR => 4 | LT | GT | LT_EQ | GT_EQ => 5
  | IN | NOT_IN => 6 | BIT_SHIFT_LEFT | BIT_SHIFT_RIGHT => 7 | PLUS | MINUS => 8 | ASTERISK | SLASH | PERCENT => 9
  | LPAREN => 11 | LBRACKET | DOT => 12 | INCREMENT | DECREMENT | CARET => 13
  | _ => LOWEST
  end.
(** parser.c:255-263 type_string_has_wildcard *)
Definition wild (t : bytes) : bool := existsb (Z.eqb 63) t.
(** parser.c:265-283 read_type_name *)
Definition read_type_name (s : ps) : bytes * ps :=
  match curk s with
  | QUESTION => (bs "?", s)
  | _ => let n := literal (cur s) in
         if is (peekk s) DOT then let s := next (next s) in (n ++ bs "_" ++ literal (cur s), s) else (n, s)
  end.

Section Expr.
(** The names collected by prescan_struct_names (parser.c:57-104, 106-111) *)
Context (known : bytes -> bool).
(** parser.c:808-809, 832-833: the names before which a brace opens a struct literal *)
Definition structish (n : bytes) : bool := known n || ((65 <=? hd 0 n) && (hd 0 n <=? 90)).

Section Nested.
(** parse_expression one level deeper *)
Context (E : Z -> ps -> res (option expr * ps)).
Definition parsed : Type := res (option expr * ps).
Definition sub (p : Z) (s : ps) (k : expr -> ps -> parsed) : parsed :=
  rbind (E p s) (fun x => k (match fst x with Some e => e | None => Missing end) (snd x)).
(** if (!expect_peek_token(...)) return NULL *)
Definition expecting (k : kind) (s : ps) (f : ps -> parsed) : parsed :=
  let '(ok, s) := expect k s in if ok then f s else Ok (None, s).

(** parser.c:743-749 parse_prefix_expression *)
Definition prefix_expression (s : ps) : parsed :=
  let op := curk s in sub PREFIX (next s) (fun e s => Ok (Some (Unary op e), s)).
(** parser.c:765-772: the dots of a function reference *)
Fixpoint path (n : nat) (e : expr) (s : ps) : res (expr * ps) :=
  match n with
  | O => NoFuel
  | S n => if is (peekk s) DOT then let s := next (next s) in path n (Member e (literal (cur s))) s else Ok (e, s)
  end.
(** parser.c:751-784 parse_grouped_expression *)
Definition grouped (s : ps) : parsed :=
  if is (peekk s) RPAREN then
    let s := next (next s) in
    if is (curk s) IDENT then
      rbind (path (S (length (toks s))) (Name (literal (cur s))) s) (fun x => Ok (Some (FuncRef (fst x)), snd x))
    else Ok (None, s)
  else
    rbind (E LOWEST (next s)) (fun x => expecting RPAREN (snd x) (fun s => Ok (fst x, s))).
(** parser.c:2576-2601: the fields of a struct literal *)
Fixpoint fields (n : nat) (name : bytes) (l : list (bytes * expr)) (s : ps) : parsed :=
  match n with
  | O => NoFuel
  | S n =>
      match curk s with
      | RBRACE | EOF => Ok (Some (Struct name l), s)
      | _ =>
          let f := literal (cur s) in
          expecting COLON s (fun s =>
          sub LOWEST (next s) (fun e s =>
          let s := if is (peekk s) COMMA then next s else s in
          fields n name (l ++ [(f, e)]) (next s)))
      end
  end.
(** parser.c:2565-2604 parse_struct_literal, on the brace *)
Definition struct_literal (name : bytes) (s : ps) : parsed := let s := next s in fields (S (length (toks s))) name [] s.
(** parser.c:936-957 *)
Fixpoint pairs (n : nat) (l : list (expr * expr)) (s : ps) : parsed :=
  match n with
  | O => NoFuel
  | S n =>
      let finish s := Ok (Some (Map l), if is (peekk s) RBRACE then next s else s) in
      if is (peekk s) COMMA then
        let s := next (next s) in
        if is (curk s) RBRACE then finish s
        else sub LOWEST s (fun k s => expecting COLON s (fun s => sub LOWEST (next s) (fun v s => pairs n (l ++ [(k, v)]) s)))
      else finish s
  end.
(** parser.c:967-987 *)
Fixpoint elements (n : nat) (l : list expr) (s : ps) : parsed :=
  match n with
  | O => NoFuel
  | S n =>
      let finish s := Ok (Some (Array l), if is (peekk s) RBRACE then next s else s) in
      if is (peekk s) COMMA then
        let s := next (next s) in
        if is (curk s) RBRACE then finish (err (bs "E2017") s)
        else sub LOWEST s (fun e s => elements n (l ++ [e]) s)
      else finish s
  end.
(** parser.c:888-988: on a brace *)
Definition brace (s : ps) : parsed :=
  let s := next s in
  if is (curk s) RBRACE then Ok (Some (Array []), s)
  else if is (curk s) COLON && is (peekk s) RBRACE then Ok (Some (Map []), next s)
  else
    let s := if is (curk s) COMMA then next (err (bs "E2017") s) else s in
    sub LOWEST s (fun e s =>
    if is (peekk s) COLON then sub LOWEST (next (next s)) (fun v s => pairs (S (length (toks s))) [(e, v)] s)
    else elements (S (length (toks s))) [e] s).
(** parser.c:989-1014 *)
Definition cast (s : ps) : parsed :=
  expecting LPAREN s (fun s =>
  sub LOWEST (next s) (fun e s =>
  expecting COMMA s (fun s =>
  let s := next s in
  if is (curk s) LBRACKET then
    let s := next s in
    let t := literal (cur s) in
    expecting RBRACKET s (fun s => expecting RPAREN s (fun s => Ok (Some (Cast e true (bs "[" ++ t ++ bs "]")), s)))
  else let t := literal (cur s) in expecting RPAREN s (fun s => Ok (Some (Cast e false t), s))))).
(** parser.c:1015-1029 *)
Definition new_expr (s : ps) : parsed :=
  expecting LPAREN s (fun s =>
  let '(t, s) := read_type_name (next s) in
  expecting RPAREN (err_if (wild t) (bs "E2070") s) (fun s => Ok (Some (New t), s))).
(** parser.c:1030-1056 *)
Definition range (s : ps) : parsed :=
  expecting LPAREN s (fun s =>
  sub LOWEST (next s) (fun a s =>
  if is (peekk s) COMMA then
    sub LOWEST (next (next s)) (fun b s =>
    if is (peekk s) COMMA then
      sub LOWEST (next (next s)) (fun c s => expecting RPAREN s (fun s => Ok (Some (Range (Some a) b (Some c)), s)))
    else expecting RPAREN s (fun s => Ok (Some (Range (Some a) b None), s)))
  else expecting RPAREN s (fun s => Ok (Some (Range None a None), s)))).
(** parser.c:786-840: on an identifier.  The text of an imported struct name is cut by snprintf (C67) *)
Definition identifier (s : ps) : parsed :=
  let m := literal (cur s) in
  let plain s :=
    if is (peekk s) LBRACE && negb (nolit s) && structish m then struct_literal m (next s) else Ok (Some (Name m), s) in
  if is (peekk s) DOT && (97 <=? hd 0 m) && (hd 0 m <=? 122) then
    let s2 := next (next s) in
    if is (curk s2) IDENT && is (peekk s2) LBRACE && negb (nolit s2) && structish (literal (cur s2)) then
      struct_literal (fit (m ++ bs "_" ++ literal (cur s2))) (next s2)
    else plain (Ps (toks s) (nolit s) (errs s2))
  else plain s.
(** parser.c:786-1095 parse_prefix *)
Definition prefix (s : ps) : parsed :=
  match curk s with
  | IDENT => identifier s
  | INT | FLOAT | STRING | RAW_STRING | TRUE | FALSE | NIL | CHAR => Ok (Some (Value (curk s) (literal (cur s))), s)
  | MINUS | BANG | BIT_NOT => prefix_expression s
  | AMPERSAND => prefix_expression (err (bs "E2072") s)
  | DOT =>
      let s := next s in
      if is (curk s) IDENT then Ok (Some (Variant (literal (cur s))), s) else Ok (Some (Value NIL []), err (bs "E2001") s)
  | LPAREN => grouped s
  | LBRACE => brace s
  | CAST => cast s
  | NEW => new_expr s
  | RANGE => range s
  | IN | NOT_IN => sub LOWEST (flag true (next (err (bs "E2086") s))) (fun _ s => Ok (Some (Value TRUE []), flag false s))
  | ILLEGAL => Ok (None, s)
  | _ => Ok (None, err (bs "E2002") s)
  end.

(** parser.c:1098-1116 parse_infix_expression *)
Definition infix_expression (left : expr) (s : ps) : parsed :=
  let op := curk s in
  let suppress := match op with IN | NOT_IN | LT | GT | LT_EQ | GT_EQ | EQ | NOT_EQ => true | _ => false end in
  let s := next s in
  let s := if suppress then flag true s else s in
  sub (prec_of op) s (fun r s => Ok (Some (Binary op left r), if suppress then flag false s else s)).
(** parser.c:1138-1172 *)
Fixpoint arguments (n : nat) (f : expr) (l : list (option bytes * expr)) (s : ps) : parsed :=
  match n with
  | O => NoFuel
  | S n =>
      let s := next s in
      let '(nm, s) := if is (curk s) IDENT && is (peekk s) COLON then (Some (literal (cur s)), next (next s)) else (None, s) in
      sub LOWEST s (fun e s =>
      let l := l ++ [(nm, e)] in
      if is (peekk s) COMMA then arguments n f l (next s)
      else expecting RPAREN s (fun s => Ok (Some (Call f l), s)))
  end.
(** parser.c:1118-1178 parse_call_expression *)
Definition call_expression (f : expr) (s : ps) : parsed :=
  let s := err_if (after_gap (cur s)) (bs "E2073") s in
  if is (peekk s) RPAREN then Ok (Some (Call f []), next s) else arguments (S (length (toks s))) f [] s.
(** parser.c:1180-1191 parse_member_expression *)
Definition member_expression (e : expr) (s : ps) : parsed :=
  let s := next (err_if (after_gap (cur s)) (bs "E2074") s) in Ok (Some (Member e (literal (cur s))), s).
(** parser.c:1193-1204 parse_index_expression *)
Definition index_expression (e : expr) (s : ps) : parsed :=
  let s := err_if (after_gap (cur s)) (bs "E2075") s in
  sub LOWEST (next s) (fun i s => expecting RBRACKET s (fun s => Ok (Some (Index e i), s))).
(** parser.c:1206-1211 parse_postfix_expression *)
Definition postfix_expression (e : expr) (s : ps) : parsed :=
  Ok (Some (Postfix (curk s) e), err_if (after_gap (cur s)) (bs "E2076") s).
(** parser.c:1213-1238 parse_infix *)
Definition infix (left : expr) (s : ps) : parsed :=
  match curk s with
  | PLUS | MINUS | ASTERISK | SLASH | PERCENT | EQ | NOT_EQ | LT | GT | LT_EQ | GT_EQ | AND | OR | IN | NOT_IN
  | BIT_AND | BIT_OR | BIT_XOR | BIT_SHIFT_LEFT | BIT_SHIFT_RIGHT => infix_expression left s
  | LPAREN => call_expression left s
  | DOT => member_expression left s
  | LBRACKET => index_expression left s
  | INCREMENT | DECREMENT | CARET => postfix_expression left s
  | _ => Ok (Some left, s)
  end.
(** parser.c:1253-1257: the loop of parse_expression *)
Fixpoint loop (n : nat) (p : Z) (left : expr) (s : ps) : parsed :=
  match n with
  | O => NoFuel
  | S n =>
      if negb (is (peekk s) EOF) && (p <? prec_of (peekk s)) then
        rbind (infix left (next s)) (fun x => match fst x with Some e => loop n p e (snd x) | None => Ok (None, snd x) end)
      else Ok (Some left, s)
  end.
End Nested.

(** parser.c:1240-1261 parse_expression, with [room] more levels before MAX_PARSE_DEPTH *)
Fixpoint expression (room : nat) (p : Z) (s : ps) : res (option expr * ps) :=
  match room with
  | O => Ok (None, err (bs "E2001") s)
  | S room =>
      rbind (prefix (expression room) s) (fun x =>
      match fst x with
      | Some e => loop (expression room) (S (length (toks (snd x)))) p e (snd x)
      | None => Ok (None, snd x)
      end)
  end.
End Expr.

(** parser.h:19 *)
Definition MAX_PARSE_DEPTH : nat := 256.
(** parser.c:3184-3206 parser_create, which fetches two tokens, then parse_expression(PREC_LOWEST), as on a statement that
    starts with an expression *)
Definition start (ts : list token) : ps := next (next (Ps (eof :: eof :: ts) false [])).

Definition parse (known : bytes -> bool) (ts : list token) : res (option expr * ps) := expression known MAX_PARSE_DEPTH LOWEST (start ts).
