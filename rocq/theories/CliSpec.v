(** Vocabulary of the CLI's properties (C45, C47-C50). *)
From Verif Require Import Base.

(** ** C45: a text as lines; blank counts *)
Definition nl : Z := 10.
(** The text with these lines, each ended by a newline but the last. *)
Fixpoint text (lines : list bytes) : bytes :=
  match lines with [] => [] | [l] => l | l :: r => l ++ nl :: text r end.
Definition one_line (l : bytes) : Prop := ~ In nl l.
Definition blank (c : Z) : Prop := c = 9 \/ c = 32.
(** Four spaces for a tab *)
Definition expand (ws : bytes) : bytes := flat_map (fun c => if c =? 9 then bs "    " else [32]) ws.
(** l' is l with the tabs among its leading blanks expanded and the blanks after its text removed. *)
Definition tidied (l l' : bytes) : Prop := exists ws body tail, l = ws ++ body ++ tail /\
  Forall blank ws /\ Forall blank tail /\ l' = expand ws ++ body /\
  ((body = [] /\ tail = []) \/ (body <> [] /\ ~ blank (hd 0 body) /\ ~ blank (last body 0))).
(** How many empty lines precede each other line, and those other lines; the empty lines at the end are left out. *)
Fixpoint paragraphs (n : nat) (lines : list bytes) : list (nat * bytes) :=
  match lines with
  | [] => []
  | [] :: r => paragraphs (S n) r
  | l :: r => (n, l) :: paragraphs 0 r
  end.

(** ** C47 *)
Definition occurs (p s : bytes) : Prop := exists a b, s = a ++ p ++ b.

(** ** C48: source files as sequences of plain lines and documented declarations *)
Record item := Item { iname : bytes; ikind : bytes; isig : bytes; idesc : bytes }.
(** l is core with spaces and tabs around it; the core starts and ends with a visible ASCII character. *)
Definition visible (c : Z) : Prop := 33 <= c <= 126.
Definition core (l c : bytes) : Prop := exists a b, l = a ++ c ++ b /\ Forall blank a /\ Forall blank b /\
  exists x m, c = x :: m /\ visible x /\ visible (last c 0).
Definition braces (l : bytes) : Z := Z.of_nat (count_occ Z.eq_dec l 123) - Z.of_nat (count_occ Z.eq_dec l 125).
Definition depth (ls : list bytes) : Z := fold_right (fun l n => braces l + n) 0 ls.
Inductive declaration :=
| Function (line : bytes)
| Block (kind : bytes) (first : bytes) (rest : list bytes).
(** A declaration as it is documented: its name and its text. *)
Inductive declares : declaration -> bytes -> bytes -> bytes -> Prop :=
| fun_declares line c pre name args body : core line c -> In pre [bs "do "; bs "private do "] ->
    c = pre ++ name ++ 40 :: args ++ body -> ~ In 40 name -> core name name -> ~ In 123 (name ++ 40 :: args) ->
    core (40 :: args) (40 :: args) -> (body = [] \/ exists sp b, body = sp ++ 123 :: b /\ Forall blank sp) ->
    declares (Function line) name (bs "function") (pre ++ name ++ 40 :: args)
| block_declares kind first rest c name tail : core first c -> In kind [bs "struct"; bs "enum"] ->
    c = bs "const " ++ name ++ 32 :: kind ++ 32 :: tail -> Forall visible name -> name <> [] ->
    (kind = bs "enum" -> ~ occurs (bs " struct ") c) ->
    (rest = [] /\ depth [first] <= 0) \/
    (rest <> [] /\ depth (first :: rest) <= 0 /\ forall a b, first :: rest = a ++ b -> a <> [] -> b <> [] -> 0 < depth a) ->
    declares (Block kind first rest) name kind (match rest with [] => c | _ => text (first :: rest) end).
Definition decl_lines (d : declaration) : list bytes := match d with Function l => [l] | Block _ f r => f :: r end.
Inductive chunk :=
| Plain (line : bytes)
| Documented (doc : bytes) (desc : bytes) (gap : list bytes) (d : declaration) (it : item).
Definition chunk_ok (c : chunk) : Prop :=
  match c with
  | Plain l => Forall blank l \/ exists t, core l t /\ forall r, t <> bs "#doc(" ++ r
  | Documented doc desc gap d it =>
      core doc (bs "#doc(""" ++ desc ++ bs """)") /\ desc <> [] /\ Forall (Forall blank) gap /\
      declares d (iname it) (ikind it) (isig it) /\ idesc it = desc
  end.
Definition chunk_lines (c : chunk) : list bytes :=
  match c with Plain l => [l] | Documented doc _ gap d _ => doc :: gap ++ decl_lines d end.
Definition chunk_items (c : chunk) : list item := match c with Plain _ => [] | Documented _ _ _ _ it => [it] end.

(** ** C50: a directory tree *)
Inductive node := Leaf (name : bytes) (content : bytes) | Dir (name : bytes) (kids : list node).
(** The files below a directory, each with the names leading to it. *)
Inductive file_in : list node -> list bytes -> bytes -> Prop :=
| in_leaf ns n c : In (Leaf n c) ns -> file_in ns [n] c
| in_dir ns n ks p c : In (Dir n ks) ns -> file_in ks p c -> file_in ns (n :: p) c.
(** The characters Unicode calls white space, in UTF-8 *)
Definition space_chars : list bytes :=
  map (fun c => [c]) [9; 10; 11; 12; 13; 32] ++ [[194; 133]; [194; 160]; [225; 154; 128]] ++
  map (fun k => [226; 128; k]) [128; 129; 130; 131; 132; 133; 134; 135; 136; 137; 138; 168; 169; 175] ++ [[226; 129; 159]; [227; 128; 128]].
Definition spaces (s : bytes) : Prop := exists l, s = concat l /\ forall c, In c l -> In c space_chars.
(** one of the lines of content, without the white space before it, starts with "do main(" *)
Definition has_main_line (content : bytes) : Prop := exists a l b ws r, content = text (a ++ l :: b) /\ Forall one_line (a ++ l :: b) /\
  l = ws ++ bs "do main(" ++ r /\ spaces ws.
(** Every directory has at most one entry of a name. *)
Definition node_name (n : node) : bytes := match n with Leaf m _ => m | Dir m _ => m end.
Inductive tree_ok : list node -> Prop :=
| tree_intro ns : NoDup (map node_name ns) -> (forall m ks, In (Dir m ks) ns -> tree_ok ks) -> tree_ok ns.
Definition gray_name (p : list bytes) : Prop := exists s, last p [] = s ++ bs ".gray".
Definition entry_file (ns : list node) (p : list bytes) : Prop := exists c, file_in ns p c /\ gray_name p /\ has_main_line c.
(** Every line is shorter than 64 KiB. *)
Definition short_lines (content : bytes) : Prop := forall a l b, content = text (a ++ l :: b) -> Forall one_line (a ++ l :: b) -> Z.of_nat (length l) < 65536.

(** ** C49: times, latest first; each comes less than 100 ms after the one before *)
Fixpoint close (l : list Z) : Prop := match l with b :: (a :: _) as r => b - a < 100 /\ close r | _ => True end.
