(** How C reads tokens as expressions, and what a compiled expression should be. *)
From Verif Require Import Base ArithModel EmitModel.

(** ** C *)
(** Binary operators and how tight they bind (C11 6.5.5 - 6.5.14). *)
Definition prec (p : punct) : option nat :=
  match p with
  | Star | Slash | Percent => Some 10%nat
  | Plus | Minus => Some 9%nat
  | Shl | Shr => Some 8%nat
  | Lt | Gt | Le | Ge => Some 7%nat
  | EqEq | BangEq => Some 6%nat
  | Amp => Some 5%nat
  | Caret => Some 4%nat
  | Bar => Some 3%nat
  | AmpAmp => Some 2%nat
  | BarBar => Some 1%nat
  | _ => None
  end.
Definition unary_op (p : punct) : Prop := p = Minus \/ p = Bang \/ p = Tilde.
Inductive ctree :=
| CAtom (a : nat) | CVar (n : bytes) | CNum (z : Z) | CStr (s : bytes)
| CUn (p : punct) (c : ctree) | CCast (t : ctype) (c : ctree) | CBin (p : punct) (a b : ctree)
| CCall (f : bytes) (args : list ctree)
| CBlock (body : list stmt)                                        (* ({ ... }) *)
with stmt :=
| SLet (t : ctype) (x : bytes) (c : ctree)
| SIf (c : ctree) (body : list stmt)
| SExpr (c : ctree).
(** The next token is no binary operator that binds at least as tight as [m]. *)
Definition stops (m : nat) (r : list tok) : Prop :=
  match r with P p :: _ => match prec p with Some k => (k < m)%nat | None => True end | _ => True end.
(** A parenthesis that opens neither a cast nor a statement expression. *)
Definition opens_group (r : list tok) : Prop := match r with T _ :: _ => False | P LB :: _ => False | _ => True end.
Definition no_call (r : list tok) : Prop := match r with P LP :: _ => False | _ => True end.
Definition starts_expr (r : list tok) : Prop := match r with T _ :: _ => False | If :: _ => False | P RB :: _ => False | _ => True end.
(** [unary s c r]: [s] begins with the unary expression [c], [r] remains;
    [climb m a s c r]: after the operand [a], operators that bind at least as
    tight as [m] are taken, each with its own operand, from left to right;
    [cexpr m], [args] and [stmts] alike. *)
Inductive unary : list tok -> ctree -> list tok -> Prop :=
| u_atom a r : unary (A a :: r) (CAtom a) r
| u_num z r : unary (N z :: r) (CNum z) r
| u_str s r : unary (Q s :: r) (CStr s) r
| u_var n r : no_call r -> unary (V n :: r) (CVar n) r
| u_call n r l r' : args r l r' -> unary (V n :: P LP :: r) (CCall n l) r'
| u_op p r c r' : unary_op p -> unary r c r' -> unary (P p :: r) (CUn p c) r'
| u_cast t r c r' : unary r c r' -> unary (P LP :: T t :: P RP :: r) (CCast t c) r'
| u_group r c r' : opens_group r -> cexpr 0 r c (P RP :: r') -> unary (P LP :: r) c r'
| u_block r l r' : stmts r l (P RB :: P RP :: r') -> unary (P LP :: P LB :: r) (CBlock l) r'
with climb : nat -> ctree -> list tok -> ctree -> list tok -> Prop :=
| c_stop m a r : stops m r -> climb m a r a r
| c_take m a p k r b r1 c r2 d r3 : prec p = Some k -> (m <= k)%nat -> unary r b r1 -> climb (S k) b r1 c r2 -> climb m (CBin p a c) r2 d r3 ->
    climb m a (P p :: r) d r3
with cexpr : nat -> list tok -> ctree -> list tok -> Prop :=
| c_expr m r a r1 c r2 : unary r a r1 -> climb m a r1 c r2 -> cexpr m r c r2
with args : list tok -> list ctree -> list tok -> Prop :=
| a_last r c r' : cexpr 0 r c (P RP :: r') -> args r [c] r'
| a_more r c r1 l r' : cexpr 0 r c (P Comma :: r1) -> args r1 l r' -> args r (c :: l) r'
with stmts : list tok -> list stmt -> list tok -> Prop :=
| s_end r : stmts (P RB :: r) [] (P RB :: r)
| s_let t x r c r1 l r' : cexpr 0 r c (P Semi :: r1) -> stmts r1 l r' -> stmts (T t :: V x :: P Assign :: r) (SLet t x c :: l) r'
| s_if r c r1 b r2 l r' : cexpr 0 r c (P RP :: P LB :: r1) -> stmts r1 b (P RB :: r2) -> stmts r2 l r' -> stmts (If :: P LP :: r) (SIf c b :: l) r'
| s_expr r c r1 l r' : starts_expr r -> cexpr 0 r c (P Semi :: r1) -> stmts r1 l r' -> stmts r (SExpr c :: l) r'.
(** All of the tokens are the C expression [c]. *)
Definition c_reads (s : list tok) (c : ctree) : Prop := cexpr 0 s c [].

(** ** What it computes *)
(** Operands and the operations on them. *)
Inductive sk := K (a : nat) | Lit (z : Z) | Un (p : punct) (x : sk) | Bi (p : punct) (x y : sk).
(** The functions of the runtime that are operators with a check. *)
Definition checked_op (f : bytes) : option punct :=
  let is s := if list_eq_dec Z.eq_dec f (bs s) then true else false in
  if is "gray_add_check"%string || is "gray_uadd_check"%string || is "gray_sized_add_check"%string || is "gray_usized_add_check"%string then Some Plus
  else if is "gray_sub_check"%string || is "gray_usub_check"%string || is "gray_sized_sub_check"%string || is "gray_usized_sub_check"%string then Some Minus
  else if is "gray_mul_check"%string || is "gray_umul_check"%string || is "gray_sized_mul_check"%string || is "gray_usized_mul_check"%string then Some Star
  else if is "gray_string_eq"%string then Some EqEq
  else None.
Definition checked_neg (f : bytes) : bool := if list_eq_dec Z.eq_dec f (bs "gray_neg_check") then true else if list_eq_dec Z.eq_dec f (bs "gray_sized_neg_check") then true else false.
(** The operations of a C expression.  Variables stand for what they were set
    to, checks for panics are passed over, and so are conversions. *)
Fixpoint ops (env : bytes -> option sk) (c : ctree) : option sk :=
  match c with
  | CAtom a => Some (K a)
  | CNum z => Some (Lit z)
  | CVar x => env x
  | CStr _ => None
  | CCast _ c => ops env c
  | CUn p c => option_map (Un p) (ops env c)
  | CBin p a b => match ops env a, ops env b with Some x, Some y => Some (Bi p x y) | _, _ => None end
  | CCall f (a :: rest) =>
      if checked_neg f then option_map (Un Minus) (ops env a) else
      match checked_op f, rest with
      | Some p, b :: _ => match ops env a, ops env b with Some x, Some y => Some (Bi p x y) | _, _ => None end
      | _, _ => None
      end
  | CCall _ [] => None
  | CBlock body => (fix run (env : bytes -> option sk) (l : list stmt) : option sk :=
      match l with
      | [] => None
      | SLet _ x c :: l => match ops env c with Some v => run (fun y => if list_eq_dec Z.eq_dec y x then Some v else env y) l | None => None end
      | SIf _ _ :: l => run env l
      | SExpr c :: _ => ops env c
      end) env body
  end.

(** ** The source *)
(** The operations of an expression of the source; [x in range(a, b, s)] means
    a <= x, x < b and (x - a) % s = 0, and a != b on strings not a == b. *)
Fixpoint source (e : expr) : sk :=
  match e with
  | Leaf _ _ a => K a
  | Prefix o e => Un (match o with Neg => Minus | Not => Bang | BitNot => Tilde end) (source e)
  | Infix ONe l r => if is_string (type_of l) then Un Bang (Bi EqEq (source l) (source r)) else Bi BangEq (source l) (source r)
  | Infix o l r =>
      Bi (match o with OAdd => Plus | OSub => Minus | OMul => Star | ODiv => Slash | ORem => Percent | OEq => EqEq | ONe => BangEq | OLt => Lt | OGt => Gt
          | OLe => Le | OGe => Ge | OAnd => AmpAmp | OOr => BarBar | BAnd => Amp | BOr => Bar | BXor => Caret | OShl => Shl | OShr => Shr end) (source l) (source r)
  | InRange negated x start stop step =>
      let s := match start with Some s => source s | None => Lit 0 end in
      let within := Bi AmpAmp (Bi Ge (source x) s) (Bi Lt (source x) (source stop)) in
      let all := match step with Some d => Bi AmpAmp within (Bi EqEq (Bi Percent (Bi Minus (source x) s) (source d)) (Lit 0)) | None => within end in
      if negated then Un Bang all else all
  end.
(** The expressions the type checker accepts. *)
Definition whole (t : ety) : Prop := match t with EInt _ | EChar => True | _ => False end.
Definition numeric (t : ety) : Prop := match t with EInt _ | EChar | EFloat => True | _ => False end.
Inductive typed : expr -> Prop :=
| t_leaf b t a : typed (Leaf b t a)
| t_neg e : typed e -> numeric (type_of e) -> typed (Prefix Neg e)
| t_not e : typed e -> type_of e = EBool -> typed (Prefix Not e)
| t_bitnot e : typed e -> whole (type_of e) -> typed (Prefix BitNot e)
| t_arith o l r : In o [OAdd; OSub; OMul; ODiv; OLt; OGt; OLe; OGe] -> typed l -> typed r -> numeric (type_of l) -> numeric (type_of r) -> typed (Infix o l r)
| t_whole o l r : In o [ORem; BAnd; BOr; BXor; OShl; OShr] -> typed l -> typed r -> whole (type_of l) -> whole (type_of r) -> typed (Infix o l r)
| t_logic o l r : In o [OAnd; OOr] -> typed l -> typed r -> type_of l = EBool -> type_of r = EBool -> typed (Infix o l r)
| t_equal o l r : In o [OEq; ONe] -> typed l -> typed r ->
    (numeric (type_of l) /\ numeric (type_of r)) \/ (type_of l = type_of r) -> typed (Infix o l r)
| t_range b x s e d : typed x -> (forall y, s = Some y -> typed y /\ whole (type_of y)) -> typed e -> (forall y, d = Some y -> typed y /\ whole (type_of y)) ->
    whole (type_of x) -> whole (type_of e) -> typed (InRange b x s e d).
(** [e] occurs in the expression. *)
Inductive inside : expr -> expr -> Prop :=
| i_self e : inside e e
| i_prefix o e x : inside x e -> inside x (Prefix o e)
| i_left o l r x : inside x l -> inside x (Infix o l r)
| i_right o l r x : inside x r -> inside x (Infix o l r)
| i_x b y s e d x : inside x y -> inside x (InRange b y s e d)
| i_start b y s e d x : inside x s -> inside x (InRange b y (Some s) e d)
| i_stop b y s e d x : inside x e -> inside x (InRange b y s e d)
| i_step b y s e d x : inside x d -> inside x (InRange b y s e (Some d)).
(** A division whose dividend is a sum or difference of floats. *)
Definition float_sum_divided (e : expr) : Prop :=
  exists o l r b, In o [OAdd; OSub] /\ e = Infix ODiv (Infix o l r) b /\ type_of (Infix o l r) = EFloat.

(** ** In which order operands are evaluated *)
(** [l] holds the elements of [l1] and of [l2], each in their order. *)
Inductive merge {X : Type} : list X -> list X -> list X -> Prop :=
| merge_nil : merge [] [] []
| merge_left x l1 l2 l : merge l1 l2 l -> merge (x :: l1) l2 (x :: l)
| merge_right x l1 l2 l : merge l1 l2 l -> merge l1 (x :: l2) (x :: l).
Section Order.
(** [decides p v]: the left operand [v] of && or || makes the right one needless. *)
Context (decides : punct -> sk -> bool).
Definition logical (p : punct) : bool := match p with AmpAmp | BarBar => true | _ => false end.
(** The orders in which a C compiler may evaluate the operands (C11 6.5p3): those
    of && and ||, declarations and statements follow each other, those of other
    operators and of calls may be mixed.  No check panics. *)
Inductive evals : (bytes -> option sk) -> ctree -> list nat -> Prop :=
| v_atom env a : evals env (CAtom a) [a]
| v_var env x : evals env (CVar x) []
| v_num env z : evals env (CNum z) []
| v_str env s : evals env (CStr s) []
| v_un env p c l : evals env c l -> evals env (CUn p c) l
| v_cast env t c l : evals env c l -> evals env (CCast t c) l
| v_short env p a b v l : logical p = true -> ops env a = Some v -> decides p v = true -> evals env a l -> evals env (CBin p a b) l
| v_then env p a b v l1 l2 : logical p = true -> ops env a = Some v -> decides p v = false -> evals env a l1 -> evals env b l2 -> evals env (CBin p a b) (l1 ++ l2)
| v_bin env p a b l1 l2 l : logical p = false -> evals env a l1 -> evals env b l2 -> merge l1 l2 l -> evals env (CBin p a b) l
| v_call env f cs l : evals_args env cs l -> evals env (CCall f cs) l
| v_block env b l : evals_stmts env b l -> evals env (CBlock b) l
with evals_args : (bytes -> option sk) -> list ctree -> list nat -> Prop :=
| va_nil env : evals_args env [] []
| va_cons env c cs l1 l2 l : evals env c l1 -> evals_args env cs l2 -> merge l1 l2 l -> evals_args env (c :: cs) l
with evals_stmts : (bytes -> option sk) -> list stmt -> list nat -> Prop :=
| vs_nil env : evals_stmts env [] []
| vs_let env t x c v s l1 l2 : ops env c = Some v -> evals env c l1 -> evals_stmts (fun y => if list_eq_dec Z.eq_dec y x then Some v else env y) s l2 -> evals_stmts env (SLet t x c :: s) (l1 ++ l2)
| vs_if env c b s l1 l2 : evals env c l1 -> evals_stmts env s l2 -> evals_stmts env (SIf c b :: s) (l1 ++ l2)
| vs_expr env c s l1 l2 : evals env c l1 -> evals_stmts env s l2 -> evals_stmts env (SExpr c :: s) (l1 ++ l2).
(** From left to right, as the language has it (STANDARD.md 12.3). *)
Fixpoint left_to_right (e : expr) : list nat :=
  match e with
  | Leaf _ _ a => [a]
  | Prefix _ e => left_to_right e
  | Infix OAnd l r => left_to_right l ++ if decides AmpAmp (source l) then [] else left_to_right r
  | Infix OOr l r => left_to_right l ++ if decides BarBar (source l) then [] else left_to_right r
  | Infix _ l r => left_to_right l ++ left_to_right r
  | InRange _ x s e d => left_to_right x ++ match s with Some s => left_to_right s | None => [] end ++ left_to_right e ++ match d with Some d => left_to_right d | None => [] end
  end.
End Order.
(** Operands whose evaluation has effects ([eff]) occur in the expression. *)
Definition effects (eff : nat -> bool) (e : expr) : Prop := exists b t a, inside (Leaf b t a) e /\ eff a = true.
Definition is_range (e : expr) : Prop := match e with InRange _ _ _ _ _ => True | _ => False end.
(** Both operands of an operator other than && and || have effects. *)
Definition both_sides (eff : nat -> bool) (e : expr) : Prop :=
  exists o l r, e = Infix o l r /\ o <> OAnd /\ o <> OOr /\ effects eff l /\ effects eff r.
