(** Vocabulary of the expression parser's property (C60): expression trees and the grammar of expressions, written with
    one level per precedence. *)
From Verif Require Import Base LexSpec.

(** Trees.  [Missing] is the absence of a tree where one is needed *)
Inductive expr :=
| Missing
| Value (k : kind) (literal : bytes)
| Name (n : bytes)
| Variant (n : bytes)
| FuncRef (f : expr)
| Unary (op : kind) (e : expr)
| Binary (op : kind) (l r : expr)
| Postfix (op : kind) (e : expr)
| Call (f : expr) (args : list (option bytes * expr))
| Member (e : expr) (n : bytes)
| Index (e i : expr)
| Array (l : list expr)
| Map (l : list (expr * expr))
| Struct (n : bytes) (fields : list (bytes * expr))
| Cast (e : expr) (of_array : bool) (type : bytes)
| New (type : bytes)
| Range (first : option expr) (last : expr) (step : option expr).

(** The binary operators, loosest first *)
Definition operators : list (list kind) :=
  [[OR]; [AND]; [EQ; NOT_EQ]; [BIT_AND; BIT_OR; BIT_XOR]; [LT; GT; LT_EQ; GT_EQ]; [IN; NOT_IN];
   [BIT_SHIFT_LEFT; BIT_SHIFT_RIGHT]; [PLUS; MINUS]; [ASTERISK; SLASH; PERCENT]].
(** The level of an operator: 1 for || up to 9 for multiplication *)
Definition at_level (k : kind) (n : nat) : Prop := exists l, nth_error operators (pred n) = Some l /\ In k l /\ (0 < n)%nat.
Definition comparison (k : kind) : bool :=
  match k with EQ | NOT_EQ | LT | GT | LT_EQ | GT_EQ | IN | NOT_IN => true | _ => false end.
Definition prefix_operator (k : kind) : Prop := k = MINUS \/ k = BANG \/ k = BIT_NOT.
Definition postfix_operator (k : kind) : Prop := k = INCREMENT \/ k = DECREMENT \/ k = CARET.
Definition literal_kind (k : kind) : Prop := In k [INT; FLOAT; STRING; RAW_STRING; CHAR; TRUE; FALSE; NIL].
Definition UNARY : nat := 10.
Definition POSTFIX : nat := 11.
Definition PRIMARY : nat := 12.

Section Grammar.
(** [known]: the names of the structs and enums declared in the file.  [strict]: whether only an identifier may stand
    where a name is wanted *)
Context (known : bytes -> Prop) (strict : bool).
Definition capital (n : bytes) : Prop := 65 <= hd 0 n <= 90.
Definition small (n : bytes) : Prop := 97 <= hd 0 n <= 122.
(** Names that start a struct literal before a brace *)
Definition struct_like (n : bytes) : Prop := known n \/ capital n.
Definition name (t : token) : Prop := strict = true -> tkind t = IDENT.
Definition is_ref (e : expr) : Prop := exists f, e = FuncRef f.

(** [is_expr lit level depth ts e]: the tokens ts are an expression of this level or a tighter one, its tree is e, and
    operands and brackets in it are nested at most [depth] deep.  [lit]: whether struct literals may occur in it; they may
    not to the right of a comparison *)
Inductive is_expr : bool -> nat -> nat -> list token -> expr -> Prop :=
| tighter lit n d ts e : (n < PRIMARY)%nat -> is_expr lit (S n) d ts e -> is_expr lit n d ts e
| binary lit n d ts l op ts' r :
    at_level (tkind op) n -> is_expr lit n (S d) ts l -> is_expr (lit && negb (comparison (tkind op))) (S n) d ts' r ->
    is_expr lit n (S d) (ts ++ op :: ts') (Binary (tkind op) l r)
| unary lit d op ts e :
    prefix_operator (tkind op) -> is_expr lit UNARY d ts e -> is_expr lit UNARY (S d) (op :: ts) (Unary (tkind op) e)
| postfix lit d ts e op :
    postfix_operator (tkind op) -> after_gap op = false -> is_expr lit POSTFIX (S d) ts e ->
    is_expr lit POSTFIX (S d) (ts ++ [op]) (Postfix (tkind op) e)
| call lit d ts f p ta args q :
    tkind p = LPAREN -> after_gap p = false -> tkind q = RPAREN -> is_expr lit POSTFIX (S d) ts f -> is_args lit d ta args ->
    is_expr lit POSTFIX (S d) (ts ++ p :: ta ++ [q]) (Call f args)
| member lit d ts e p n :
    tkind p = DOT -> after_gap p = false -> name n -> is_expr lit POSTFIX (S d) ts e ->
    (is_ref e -> exists ts' q, ts = ts' ++ [q] /\ tkind q = RPAREN) ->
    is_expr lit POSTFIX (S d) (ts ++ [p; n]) (Member e (literal n))
| index lit d ts e p ti i q :
    tkind p = LBRACKET -> after_gap p = false -> tkind q = RBRACKET -> is_expr lit POSTFIX (S d) ts e -> is_expr lit 1 d ti i ->
    is_expr lit POSTFIX (S d) (ts ++ p :: ti ++ [q]) (Index e i)
| value lit d t : literal_kind (tkind t) -> is_expr lit PRIMARY (S d) [t] (Value (tkind t) (literal t))
| label lit d t : tkind t = IDENT -> is_expr lit PRIMARY (S d) [t] (Name (literal t))
| variant lit d p t : tkind p = DOT -> tkind t = IDENT -> is_expr lit PRIMARY (S d) [p; t] (Variant (literal t))
| group lit d p ts e q : tkind p = LPAREN -> tkind q = RPAREN -> is_expr lit 1 d ts e -> is_expr lit PRIMARY (S d) (p :: ts ++ [q]) e
| func_ref lit d p q t ms e :
    tkind p = LPAREN -> tkind q = RPAREN -> tkind t = IDENT -> is_path (Name (literal t)) ms e ->
    is_expr lit PRIMARY (S d) (p :: q :: t :: ms) (FuncRef e)
| array lit d p ts l q : tkind p = LBRACE -> tkind q = RBRACE -> is_list lit d ts l -> is_expr lit PRIMARY (S d) (p :: ts ++ [q]) (Array l)
| empty_map lit d p c q : tkind p = LBRACE -> tkind c = COLON -> tkind q = RBRACE -> is_expr lit PRIMARY (S d) [p; c; q] (Map [])
| map lit d p ts l q : tkind p = LBRACE -> tkind q = RBRACE -> is_pairs lit d ts l -> is_expr lit PRIMARY (S d) (p :: ts ++ [q]) (Map l)
| struct d t p ts l q :
    tkind t = IDENT -> struct_like (literal t) -> tkind p = LBRACE -> tkind q = RBRACE -> is_fields d ts l ->
    is_expr true PRIMARY (S d) (t :: p :: ts ++ [q]) (Struct (literal t) l)
| imported_struct d m c t p ts l q :
    tkind m = IDENT -> small (literal m) -> tkind c = DOT -> tkind t = IDENT -> struct_like (literal t) -> tkind p = LBRACE ->
    tkind q = RBRACE -> (length (literal m) + length (literal t) < 255)%nat -> is_fields d ts l ->
    is_expr true PRIMARY (S d) (m :: c :: t :: p :: ts ++ [q]) (Struct (literal m ++ bs "_" ++ literal t) l)
| cast lit d c p ts e k t q :
    tkind c = CAST -> tkind p = LPAREN -> tkind k = COMMA -> name t -> tkind t <> LBRACKET -> tkind q = RPAREN -> is_expr lit 1 d ts e ->
    is_expr lit PRIMARY (S d) (c :: p :: ts ++ [k; t; q]) (Cast e false (literal t))
| cast_array lit d c p ts e k a t b q :
    tkind c = CAST -> tkind p = LPAREN -> tkind k = COMMA -> tkind a = LBRACKET -> name t -> tkind b = RBRACKET -> tkind q = RPAREN ->
    is_expr lit 1 d ts e -> is_expr lit PRIMARY (S d) (c :: p :: ts ++ [k; a; t; b; q]) (Cast e true (bs "[" ++ literal t ++ bs "]"))
| new lit d w p t q :
    tkind w = NEW -> tkind p = LPAREN -> name t -> ~ In 63 (literal t) -> tkind t <> QUESTION -> tkind q = RPAREN ->
    is_expr lit PRIMARY (S d) [w; p; t; q] (New (literal t))
| new_imported lit d w p m c t q :
    tkind w = NEW -> tkind p = LPAREN -> name m -> ~ In 63 (literal m) -> tkind m <> QUESTION -> tkind c = DOT -> name t ->
    ~ In 63 (literal t) -> tkind q = RPAREN -> is_expr lit PRIMARY (S d) [w; p; m; c; t; q] (New (literal m ++ bs "_" ++ literal t))
| range_to lit d r p ts e q :
    tkind r = RANGE -> tkind p = LPAREN -> tkind q = RPAREN -> is_expr lit 1 d ts e ->
    is_expr lit PRIMARY (S d) (r :: p :: ts ++ [q]) (Range None e None)
| range_from lit d r p ts1 e1 k ts2 e2 q :
    tkind r = RANGE -> tkind p = LPAREN -> tkind k = COMMA -> tkind q = RPAREN -> is_expr lit 1 d ts1 e1 -> is_expr lit 1 d ts2 e2 ->
    is_expr lit PRIMARY (S d) (r :: p :: ts1 ++ k :: ts2 ++ [q]) (Range (Some e1) e2 None)
| range_step lit d r p ts1 e1 k ts2 e2 j ts3 e3 q :
    tkind r = RANGE -> tkind p = LPAREN -> tkind k = COMMA -> tkind j = COMMA -> tkind q = RPAREN ->
    is_expr lit 1 d ts1 e1 -> is_expr lit 1 d ts2 e2 -> is_expr lit 1 d ts3 e3 ->
    is_expr lit PRIMARY (S d) (r :: p :: ts1 ++ k :: ts2 ++ j :: ts3 ++ [q]) (Range (Some e1) e2 (Some e3))
(** Arguments, each perhaps with a name *)
with is_args : bool -> nat -> list token -> list (option bytes * expr) -> Prop :=
| no_args lit d : is_args lit d [] []
| some_args lit d ts l : is_args1 lit d ts l -> is_args lit d ts l
with is_args1 : bool -> nat -> list token -> list (option bytes * expr) -> Prop :=
| one_arg lit d ts a : is_arg lit d ts a -> is_args1 lit d ts [a]
| more_args lit d ts a k ts' l : is_arg lit d ts a -> tkind k = COMMA -> is_args1 lit d ts' l -> is_args1 lit d (ts ++ k :: ts') (a :: l)
with is_arg : bool -> nat -> list token -> option bytes * expr -> Prop :=
| plain_arg lit d ts e : is_expr lit 1 d ts e -> is_arg lit d ts (None, e)
| named_arg lit d t c ts e : tkind t = IDENT -> tkind c = COLON -> is_expr lit 1 d ts e -> is_arg lit d (t :: c :: ts) (Some (literal t), e)
(** Elements of an array, pairs of a map, fields of a struct *)
with is_list : bool -> nat -> list token -> list expr -> Prop :=
| no_elements lit d : is_list lit d [] []
| some_elements lit d ts l : is_list1 lit d ts l -> is_list lit d ts l
with is_list1 : bool -> nat -> list token -> list expr -> Prop :=
| one_element lit d ts e : is_expr lit 1 d ts e -> is_list1 lit d ts [e]
| more_elements lit d ts e k ts' l : is_expr lit 1 d ts e -> tkind k = COMMA -> is_list1 lit d ts' l -> is_list1 lit d (ts ++ k :: ts') (e :: l)
with is_pairs : bool -> nat -> list token -> list (expr * expr) -> Prop :=
| one_pair lit d tk k c tv v : is_expr lit 1 d tk k -> tkind c = COLON -> is_expr lit 1 d tv v -> is_pairs lit d (tk ++ c :: tv) [(k, v)]
| more_pairs lit d tk k c tv v s ts l :
    is_expr lit 1 d tk k -> tkind c = COLON -> is_expr lit 1 d tv v -> tkind s = COMMA -> is_pairs lit d ts l ->
    is_pairs lit d (tk ++ c :: tv ++ s :: ts) ((k, v) :: l)
with is_fields : nat -> list token -> list (bytes * expr) -> Prop :=
| no_fields d : is_fields d [] []
| last_field d t c ts e : tkind t = IDENT -> tkind c = COLON -> is_expr true 1 d ts e -> is_fields d (t :: c :: ts) [(literal t, e)]
| next_field d t c ts e k ts' l :
    tkind t = IDENT -> tkind c = COLON -> is_expr true 1 d ts e -> tkind k = COMMA -> is_fields d ts' l ->
    is_fields d (t :: c :: ts ++ k :: ts') ((literal t, e) :: l)
(** The members of a qualified function reference *)
with is_path : expr -> list token -> expr -> Prop :=
| path_end e : is_path e [] e
| path_member e p n ms e' : tkind p = DOT -> name n -> is_path (Member e (literal n)) ms e' -> is_path e (p :: n :: ms) e'.
End Grammar.

(** Trees with nothing missing *)
Fixpoint complete (e : expr) : bool :=
  match e with
  | Missing => false
  | Value _ _ | Name _ | Variant _ | New _ => true
  | FuncRef e | Unary _ e | Postfix _ e | Member e _ | Cast e _ _ => complete e
  | Binary _ a b | Index a b => complete a && complete b
  | Call f l => complete f && forallb (fun a => complete (snd a)) l
  | Array l => forallb complete l
  | Map l => forallb (fun a => complete (fst a) && complete (snd a)) l
  | Struct _ l => forallb (fun a => complete (snd a)) l
  | Range a b c => match a with Some a => complete a | None => true end && complete b && match c with Some c => complete c | None => true end
  end.

(** What follows an expression without belonging to it: no operator, no opening bracket, no dot; no brace where the
    expression ends in a name that a brace would turn into a struct literal *)
Definition ends_expr (known : bytes -> Prop) (ts rest : list token) : Prop :=
  match rest with
  | [] => True
  | t :: _ => (forall n, ~ at_level (tkind t) n) /\ ~ postfix_operator (tkind t) /\ ~ In (tkind t) [LPAREN; LBRACKET; DOT; ILLEGAL] /\
              (tkind t = LBRACE -> forall a n, ts = a ++ [n] -> ~ (tkind n = IDENT /\ struct_like known (literal n)))
  end.
(** The tokens of a token list as a source file gives them: the last is EOF *)
Definition ends_file (ts : list token) : Prop := exists a t, ts = a ++ [t] /\ tkind t = EOF.

(** Trees of operators and how to write them with every operand in parentheses *)
Fixpoint operator_tree (e : expr) : Prop :=
  match e with
  | Value k _ => literal_kind k
  | Name _ => True
  | Unary op e => prefix_operator op /\ operator_tree e
  | Binary op l r => (exists n, at_level op n) /\ operator_tree l /\ operator_tree r
  | _ => False
  end.
Fixpoint height (e : expr) : nat :=
  match e with Unary _ e => S (height e) | Binary _ l r => S (Nat.max (height l) (height r)) | _ => 1 end.
Definition tok (k : kind) (lit : bytes) : token := Tok k lit 1 1 false.
Definition between_parens (ts : list token) : list token := tok LPAREN (bs "(") :: ts ++ [tok RPAREN (bs ")")].
Fixpoint written (e : expr) : list token :=
  match e with
  | Value k l => [tok k l]
  | Name n => [tok IDENT n]
  | Unary op e => tok op [] :: between_parens (written e)
  | Binary op l r => between_parens (written l) ++ tok op [] :: between_parens (written r)
  | _ => []
  end.
