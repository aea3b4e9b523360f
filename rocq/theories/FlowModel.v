(** Control flow of a function body: the checks the type checker makes on it
    (grayc/src/typechecker/typechecker.c: all_paths_return, block_has_return,
    check_no_nested_ensure, the placement of break, continue and return), and
    the C that code generation emits for it (grayc/src/codegen/codegen.c:
    collect_ensures, emit_ensure_cleanup, the stack of scratch arenas,
    emit_return_statement, emit_if_statement, the loops, when,
    emit_function_declaration), with the meaning of that C.

    Expressions, declarations and assignments are opaque pieces of program,
    and the C is a tree, not text. An or-chain of an if is a list of arms
    instead of nested if nodes. The fixed-size name buffers are left out: the
    longest name they hold has 24 characters. Initialiser lists are evaluated
    left to right. *)
From Coq Require Import ZArith List Bool.
From Verif Require Import Base FlowSpec.
Import ListNotations.
Local Open Scope Z_scope.

(** ** The type checker *)

Section every.
  Context (f : stmt -> bool).
  Fixpoint every (l : list stmt) : bool :=
    match l with [] => true | s :: r => f s && every r end.
End every.

Section every_arm.
  Context (g : list stmt -> bool).
  Fixpoint every_arm (l : list (Z * list stmt)) : bool :=
    match l with [] => true | (_, b) :: r => g b && every_arm r end.
End every_arm.

Section any.
  Context (f : stmt -> bool).
  Fixpoint any (l : list stmt) : bool :=
    match l with [] => false | s :: r => f s || any r end.
  Fixpoint any_arm (l : list (Z * list stmt)) : bool :=
    match l with [] => false | (_, b) :: r => any b || any_arm r end.
End any.

(** typechecker.c 7533-7572, block_has_return. *)
Fixpoint block_has_return (s : stmt) : bool :=
  match s with
  | Return _ _ => true
  | Block l => any block_has_return l
  | If _ yes ors els =>
      any block_has_return yes || any_arm block_has_return ors ||
      match els with Some l => any block_has_return l | None => false end
  | When _ arms d =>
      any_arm block_has_return arms ||
      match d with Some l => any block_has_return l | None => false end
  | Loop b | For _ _ _ b | ForEach _ _ _ _ _ b | While _ b => any block_has_return b
  | _ => false
  end.

(** typechecker.c 7505-7506: a return among the statements of a block. *)
Fixpoint has_return_stmt (l : list stmt) : bool :=
  match l with
  | [] => false
  | Return _ _ :: _ => true
  | _ :: r => has_return_stmt r
  end.

(** The last statement of a block (typechecker.c 7508-7509). *)
Section last_of.
  Context (f : stmt -> bool).
  Fixpoint last_of (l : list stmt) : bool :=
    match l with
    | [] => false
    | [s] => f s
    | _ :: r => last_of r
    end.
End last_of.

(** typechecker.c 7499-7531, all_paths_return. *)
Fixpoint all_paths_return (s : stmt) : bool :=
  let block (l : list stmt) := has_return_stmt l || last_of all_paths_return l in
  match s with
  | Return _ _ => true
  | Block l => block l
  | If _ yes ors els =>
      match els with
      | None => false
      | Some e => block yes && every_arm block ors && block e
      end
  | When _ arms d =>
      match d with
      | None => false
      | Some l => block l && every_arm block arms
      end
  | Loop b => any block_has_return b
  | _ => false
  end.

(** typechecker.c 7573-7612, check_no_nested_ensure; true: no E3070. *)
Fixpoint no_nested_ensure (nested : bool) (s : stmt) : bool :=
  let inner := every (no_nested_ensure true) in
  match s with
  | Ensure _ => negb nested
  | Block l => every (no_nested_ensure nested) l
  | If _ yes ors els =>
      inner yes && every_arm inner ors && match els with Some l => inner l | None => true end
  | For _ _ _ b | ForEach _ _ _ _ _ b | While _ b | Loop b => inner b
  | When _ arms d =>
      every_arm inner arms && match d with Some l => inner l | None => true end
  | _ => true
  end.

(** typechecker.c 10085-10093: has_named_returns. *)
Definition has_named (f : func) : bool :=
  match f_names f with
  | Some names => existsb (fun n => match n with Some _ => true | None => false end) names
  | None => false
  end.

(** typechecker.c 9308-9423, the number of values of a return (E3073, E3006,
    E3013). The types of the values are not modelled. *)
Definition return_ok (f : func) (vals : list Z) (propagated : bool) : bool :=
  let n := length (f_results f) in
  let k := length vals in
  negb (f_main f) &&
  if (n =? 0)%nat then (k =? 0)%nat
  else if (k =? 0)%nat then has_named f
  else (k =? n)%nat || ((k =? 1)%nat && propagated).

(** typechecker.c 7613-7624, check_block: statements after a return are not
    checked. *)
Section check_block.
  Context (f : stmt -> bool).
  Fixpoint check_block (l : list stmt) : bool :=
    match l with
    | [] => true
    | s :: r => f s && match s with Return _ _ => true | _ => check_block r end
    end.
End check_block.

(** check_statement of typechecker.c, the part on control flow: loop_depth
    (9806-9970), returns (9308-9423), empty loop bodies (9929-9950, E3129). *)
Fixpoint check_statement (f : func) (in_loop : bool) (s : stmt) : bool :=
  let block := check_block (check_statement f in_loop) in
  let body := check_block (check_statement f true) in
  match s with
  | Return vals p => return_ok f vals p
  | If _ yes ors els =>
      block yes && every_arm block ors && match els with Some l => block l | None => true end
  | When _ arms d =>
      every_arm block arms && match d with Some l => block l | None => true end
  | For _ _ _ b | ForEach _ _ _ _ _ b => body b
  | While _ b | Loop b => negb (match b with [] => true | _ => false end) && body b
  | Break | Continue => in_loop
  | Block l => block l
  | Act _ | Ensure _ => true
  end.

(** typechecker.c 10306-10339: the body, E3070, E3024 and E3035. *)
Definition accepted (f : func) : bool :=
  check_block (check_statement f false) (f_body f) &&
  every (no_nested_ensure false) (f_body f) &&
  (if (length (f_results f) =? 0)%nat then true
   else if negb (any block_has_return (f_body f)) && negb (has_named f) then false
   else negb (any block_has_return (f_body f) && negb (has_named f) &&
              negb (all_paths_return (Block (f_body f))))).

(** ** The emitted C *)

(** Names of the arena variables: _iter_arena_N, _saved_arena_N, _if_arena_N,
    _if_saved_N, _func_arena, _func_saved, _gray_outer_arena. *)
Inductive avar := Iter (n : Z) | IterSaved (n : Z) | IfArena (n : Z) | IfSaved (n : Z)
                | FuncArena | FuncSaved | Outer.

Inductive ctest := TestRun (e : Z) | TestCase (tmp : Z) (pat : Z).

Inductive cstmt :=
| CRun (e : Z)                        (* e; *)
| CWhen (tmp : Z) (e : Z)             (* __auto_type _gray_whenN = e; *)
| CIf (arms : list (ctest * list cstmt)) (els : list cstmt)
| CLoop (test step : option Z) (body : list cstmt)
| CBreak | CContinue
| CBlock (l : list cstmt)             (* { ... } *)
| CNewArena (v : avar)                (* GrayArena *v = gray_arena_create(...); *)
| CSaveDefault (v : avar)             (* GrayArena *v = gray_default_arena; *)
| CUseArena (v : avar)                (* gray_default_arena = v; *)
| CDestroy (v : avar)                 (* gray_arena_destroy(v); free(v); *)
| CMark                               (* GrayScopeMark _scope_mark = gray_scope_save(gray_default_arena); *)
| CRestore                            (* gray_scope_restore(gray_default_arena, _scope_mark); *)
| CEnter | CExit                      (* gray_enter_func(); gray_exit_func(); *)
| CGuardUp (c : Z) | CGuardDown (c : Z)   (* c.iterating++; c.iterating--; *)
| CResult (vals : list (option Z))    (* T _ret = ...; *)
| CEscape (i : nat)                   (* result i of _ret copied into _func_saved *)
| CReturn.                            (* return; or return _ret; *)

(** ** Code generation *)

(** codegen.c 8121-8133, collect_ensures. *)
Fixpoint collect_ensures (l : list stmt) : list Z :=
  match l with
  | [] => []
  | Ensure e :: r => e :: collect_ensures r
  | _ :: r => collect_ensures r
  end.

(** codegen.c 8136-8152, emit_ensure_cleanup. *)
Definition ensure_cleanup (f : func) : list cstmt :=
  map CRun (rev (collect_ensures (f_body f))).

(** An entry of the stack of scratch arenas: the arena's variable and the one
    that saved the default arena (codegen.h 19-22). Innermost first here. *)
Definition scope := (avar * avar)%type.

Definition unwind_one (s : scope) : list cstmt := [CUseArena (snd s); CDestroy (fst s)].

(** codegen.c 8177-8184, emit_scratch_arena_unwind. *)
Definition unwind (st : list scope) : list cstmt := flat_map unwind_one st.

(** codegen.c 8191-8200, emit_loop_exit_unwind. *)
Fixpoint loop_unwind (st : list scope) : list cstmt :=
  match st with
  | [] => []
  | s :: r => unwind_one s ++ match fst s with Iter _ => [] | _ => loop_unwind r end
  end.

(** codegen.c 8215-8227, 8242-8262: the copies of the results. *)
Fixpoint escapes (i : nat) (l : list rtype) : list cstmt :=
  match l with
  | [] => []
  | Copied :: r => CEscape i :: escapes (S i) r
  | _ :: r => escapes (S i) r
  end.

(** codegen.c 8207-8231 emit_function_return_escape and 8236-8266
    emit_multi_function_return_escape. *)
Definition return_escape (f : func) (st : list scope) : list cstmt :=
  if f_ref f then unwind st
  else escapes 0 (f_results f) ++ unwind st ++ [CUseArena FuncSaved; CDestroy FuncArena].

(** codegen.c 8314-8323 and 8358-8365: a return without a value. *)
Definition plain_return (f : func) (st : list scope) : list cstmt :=
  [CBlock (unwind st ++ (if f_ref f then [] else [CRestore]) ++ [CExit; CReturn])].

(** codegen.c 8266-8386, emit_return_statement. *)
Definition emit_return (f : func) (st : list scope) (vals : list Z) : list cstmt :=
  let n := length (f_results f) in
  let k := length vals in
  let with_values l := [CBlock ([CResult l] ++ return_escape f st ++ [CExit; CReturn])] in
  ensure_cleanup f ++
  if (1 <? k)%nat then with_values (map Some vals)
  else if (k =? 1)%nat && (1 <? n)%nat then
    with_values (repeat None (n - 1) ++ map Some vals)
  else if (n =? 0)%nat then plain_return f st
  else if (k =? 1)%nat then with_values (map Some vals)
  else match f_names f with
       | Some names => with_values names
       | None => plain_return f st
       end.

(** Emitting statements one after another, with the counters threaded
    through (codegen.c 8370-8374, emit_block). *)
Section gens.
  Context (g : stmt -> Z -> list cstmt * Z).
  Fixpoint gens (l : list stmt) (n : Z) : list cstmt * Z :=
    match l with
    | [] => ([], n)
    | s :: r =>
        let (c, n1) := g s n in
        let (c', n2) := gens r n1 in
        (c ++ c', n2)
    end.
  Fixpoint gen_arms (t : Z -> ctest) (l : list (Z * list stmt)) (n : Z)
    : list (ctest * list cstmt) * Z :=
    match l with
    | [] => ([], n)
    | (c, b) :: r =>
        let (k, n1) := gens b n in
        let (k', n2) := gen_arms t r n1 in
        ((t c, k) :: k', n2)
    end.
  Definition gen_else (o : option (list stmt)) (n : Z) : list cstmt * Z :=
    match o with Some l => gens l n | None => ([], n) end.
End gens.

(** codegen.c 8475-8501, emit_loop_body_with_arena; [d] is
    loop_scope_depth. *)
Definition outer_arena (d : Z) : list cstmt := if d =? 0 then [CSaveDefault Outer] else [].
Definition iter_scope (d : Z) : scope := (Iter d, IterSaved d).
Definition loop_body (d : Z) (code : list cstmt) : list cstmt :=
  outer_arena d ++ [CNewArena (Iter d); CSaveDefault (IterSaved d); CUseArena (Iter d)] ++
  code ++ [CUseArena (IterSaved d); CDestroy (Iter d)].

(** codegen.c 8815-9265, emit_statement. The counter stands for
    if_scope_counter and when_tmp_ctr alike: all that matters of either is
    that it changes. *)
Fixpoint emit_statement (f : func) (s : stmt) (st : list scope) (d : Z) (n : Z) {struct s}
  : list cstmt * Z :=
  let body b := gens (fun s n => emit_statement f s (iter_scope d :: st) (d + 1) n) b in
  match s with
  | Act a => ([CRun a], n)
  | Return vals _ => (emit_return f st vals, n)
  | If c yes ors els =>
      (* 8376-8470, emit_if_statement *)
      let sc := (IfArena n, IfSaved n) in
      let g := fun s n => emit_statement f s (sc :: st) (d + 1) n in
      let (y, n1) := gens g yes (n + 1) in
      let (o, n2) := gen_arms g TestRun ors n1 in
      let (e, n3) := gen_else g els n2 in
      ([CBlock (outer_arena d ++
                [CNewArena (IfArena n); CSaveDefault (IfSaved n); CUseArena (IfArena n);
                 CIf ((TestRun c, y) :: o) e;
                 CUseArena (IfSaved n); CDestroy (IfArena n)])], n3)
  | When v arms dflt =>
      (* 9046-9181 *)
      let g := fun s n => emit_statement f s st d n in
      let (a, n1) := gen_arms g (TestCase n) arms (n + 1) in
      let (e, n2) := gen_else g dflt n1 in
      ([CWhen n v; CIf a e], n2)
  | For first test step b =>
      (* 8503-8588 *)
      let (c, n1) := body b n in
      ([CRun first; CLoop (Some test) (Some step) (loop_body d c)], n1)
  | ForEach c first test bind step b =>
      (* 8835-9032: the guard is on the variable, or on a copy nobody else sees *)
      let (k, n1) := body b n in
      let loop := CLoop (Some test) (Some step) (CRun bind :: loop_body d k) in
      (match c with
       | Named c => [CRun first; CGuardUp c; loop; CGuardDown c]
       | Computed => [CRun first; loop]
       end, n1)
  | While c b =>
      (* 8590-8601 *)
      let (k, n1) := body b n in ([CLoop (Some c) None (loop_body d k)], n1)
  | Loop b =>
      (* 8603-8612 *)
      let (k, n1) := body b n in ([CLoop None None (loop_body d k)], n1)
  | Break => (loop_unwind st ++ [CBreak], n)        (* 9036-9040 *)
  | Continue => (loop_unwind st ++ [CContinue], n)  (* 9041-9045 *)
  | Ensure _ => ([], n)                             (* 9232-9234 *)
  | Block l => gens (fun s n => emit_statement f s st d n) l n   (* 9228-9231 *)
  end.

(** codegen.c 8700-8805, emit_function_declaration. *)
Definition emit_function (f : func) (n : Z) : list cstmt * Z :=
  let void := (length (f_results f) =? 0)%nat in
  let own := negb (f_main f) && negb (f_ref f) in
  let (b, n1) := gens (fun s n => emit_statement f s [] 0 n) (f_body f) n in
  ((if own then
      if void then [CMark]
      else [CNewArena FuncArena; CSaveDefault FuncSaved; CUseArena FuncArena]
    else []) ++
   [CEnter] ++ b ++ ensure_cleanup f ++
   (if own then
      if void then [CRestore] else [CUseArena FuncSaved; CDestroy FuncArena]
    else []) ++ [CExit], n1).

(** ** What the C does *)

(** The state the C shares: the program's own state, the default arena, the
    arenas that exist, the next new one, the call depth, and one entry per
    collection being iterated. *)
Record cstate (M : machine) := {
  world : W M; dflt : Z; live : list Z; fresh : Z; depth : Z; guards : list Z
}.
Arguments world {M}. Arguments dflt {M}. Arguments live {M}.
Arguments fresh {M}. Arguments depth {M}. Arguments guards {M}.

(** The C variables in scope. A result carries the arena its memory is in. *)
Record cenv (M : machine) := {
  arenas : list (avar * Z);
  whens : list (Z * V M);
  result : list (V M * option Z);
  mark : option Z
}.
Arguments arenas {M}. Arguments whens {M}. Arguments result {M}. Arguments mark {M}.

(** [Stuck]: undefined behaviour, or C that does not compile. *)
Inductive cout (M : machine) :=
| CNext (e : cenv M) (s : cstate M)
| CBroke (s : cstate M)
| CContinued (s : cstate M)
| CReturned (vs : list (V M * option Z)) (s : cstate M)
| CStopped (w : W M)
| CStuck
| CNoFuel.
Arguments CNext {M}. Arguments CBroke {M}. Arguments CContinued {M}.
Arguments CReturned {M}. Arguments CStopped {M}. Arguments CStuck {M}. Arguments CNoFuel {M}.

Definition avar_eqb (a b : avar) : bool :=
  match a, b with
  | Iter n, Iter m | IterSaved n, IterSaved m | IfArena n, IfArena m | IfSaved n, IfSaved m => n =? m
  | FuncArena, FuncArena | FuncSaved, FuncSaved | Outer, Outer => true
  | _, _ => false
  end.

Fixpoint arena_of (v : avar) (l : list (avar * Z)) : option Z :=
  match l with
  | [] => None
  | (x, a) :: r => if avar_eqb v x then Some a else arena_of v r
  end.

Fixpoint value_of {A} (v : Z) (l : list (Z * A)) : option A :=
  match l with
  | [] => None
  | (x, a) :: r => if v =? x then Some a else value_of v r
  end.

(** take one occurrence out *)
Fixpoint take_out (x : Z) (l : list Z) : option (list Z) :=
  match l with
  | [] => None
  | y :: r => if x =? y then Some r
              else match take_out x r with Some r' => Some (y :: r') | None => None end
  end.

(** runtime.h 154: GRAY_MAX_CALL_DEPTH. *)
Definition MAX_CALL_DEPTH : Z := 10000.

Section run_c.
  Context (M : machine).
  Notation cenv := (cenv M).
  Notation cstate := (cstate M).
  Notation cout := (cout M).

  Definition put_world (w : W M) (s : cstate) : cstate :=
    {| world := w; dflt := dflt s; live := live s; fresh := fresh s; depth := depth s; guards := guards s |}.
  Definition put_dflt (d : Z) (s : cstate) : cstate :=
    {| world := world s; dflt := d; live := live s; fresh := fresh s; depth := depth s; guards := guards s |}.
  Definition put_live (l : list Z) (s : cstate) : cstate :=
    {| world := world s; dflt := dflt s; live := l; fresh := fresh s; depth := depth s; guards := guards s |}.
  Definition new_live (s : cstate) : cstate :=
    {| world := world s; dflt := dflt s; live := fresh s :: live s; fresh := fresh s + 1;
       depth := depth s; guards := guards s |}.
  Definition put_depth (d : Z) (s : cstate) : cstate :=
    {| world := world s; dflt := dflt s; live := live s; fresh := fresh s; depth := d; guards := guards s |}.
  Definition put_guards (g : list Z) (s : cstate) : cstate :=
    {| world := world s; dflt := dflt s; live := live s; fresh := fresh s; depth := depth s; guards := g |}.

  Definition declare (v : avar) (a : Z) (e : cenv) : cenv :=
    {| arenas := (v, a) :: arenas e; whens := whens e; result := result e; mark := mark e |}.
  Definition put_when (n : Z) (x : V M) (e : cenv) : cenv :=
    {| arenas := arenas e; whens := (n, x) :: whens e; result := result e; mark := mark e |}.
  Definition put_result (r : list (V M * option Z)) (e : cenv) : cenv :=
    {| arenas := arenas e; whens := whens e; result := r; mark := mark e |}.
  Definition put_mark (a : Z) (e : cenv) : cenv :=
    {| arenas := arenas e; whens := whens e; result := result e; mark := Some a |}.

  (** C statements in sequence: declarations stay in scope *)
  Section cseq.
    Context (f : cstmt -> cenv -> cstate -> cout).
    Fixpoint cseq (l : list cstmt) (e : cenv) (s : cstate) : cout :=
      match l with
      | [] => CNext e s
      | c :: r => match f c e s with CNext e' s' => cseq r e' s' | o => o end
      end.
  End cseq.

  Definition leave_scope (e : cenv) (o : cout) : cout :=
    match o with CNext _ s => CNext e s | o => o end.

  Definition ctest_run (t : ctest) (e : cenv) (s : cstate) : option (option bool * W M) :=
    match t with
    | TestRun c => Some (holds M c (world s))
    | TestCase n p =>
        match value_of n (whens e) with
        | Some x => Some (matches M x p (world s))
        | None => None
        end
    end.

  Section carms.
    Context (f : list cstmt -> cenv -> cstate -> cout) (els : list cstmt).
    Fixpoint carms (l : list (ctest * list cstmt)) (e : cenv) (s : cstate) : cout :=
      match l with
      | [] => leave_scope e (f els e s)
      | (t, b) :: r =>
          match ctest_run t e s with
          | None => CStuck
          | Some (None, w) => CStopped w
          | Some (Some true, w) => leave_scope e (f b e (put_world w s))
          | Some (Some false, w) => carms r e (put_world w s)
          end
      end.
  End carms.

  Definition crun (a : Z) (s : cstate) (k : cstate -> cout) : cout :=
    match run M a (world s) with
    | (Some _, w) => k (put_world w s)
    | (None, w) => CStopped w
    end.

  Definition loop_test (t : option Z) (w : W M) : option bool * W M :=
    match t with Some c => holds M c w | None => (Some true, w) end.

  Fixpoint crounds (fuel : nat) (test step : option Z) (body : cstate -> cout)
           (e : cenv) (s : cstate) : cout :=
    match fuel with
    | O => CNoFuel
    | S n =>
        match loop_test test (world s) with
        | (None, w) => CStopped w
        | (Some false, w) => CNext e (put_world w s)
        | (Some true, w) =>
            match body (put_world w s) with
            | CNext _ s2 | CContinued s2 =>
                match step with
                | None => crounds n test step body e s2
                | Some c => crun c s2 (crounds n test step body e)
                end
            | CBroke s2 => CNext e s2
            | o => o
            end
        end
    end.

  (** evaluate the results into [_ret]: what is allocated is allocated in the
      default arena *)
  Fixpoint cresult (l : list (option Z)) (w : W M) (a : Z) : option (list (V M * option Z)) * W M :=
    match l with
    | [] => (Some [], w)
    | None :: r =>
        match cresult r w a with
        | (Some vs, w') => (Some ((zero M, None) :: vs), w')
        | (None, w') => (None, w')
        end
    | Some x :: r =>
        match run M x w with
        | (Some v, w') =>
            match cresult r w' a with
            | (Some vs, w2) => (Some ((v, Some a) :: vs), w2)
            | (None, w2) => (None, w2)
            end
        | (None, w') => (None, w')
        end
    end.

  (** copy one result to another arena; its memory must still exist *)
  Fixpoint copy_to (i : nat) (a : Z) (lv : list Z) (l : list (V M * option Z))
    : option (list (V M * option Z)) :=
    match l, i with
    | [], _ => None
    | (v, None) :: r, O => Some ((v, None) :: r)
    | (v, Some o) :: r, O => if existsb (Z.eqb o) lv then Some ((v, Some a) :: r) else None
    | x :: r, S i' => match copy_to i' a lv r with Some r' => Some (x :: r') | None => None end
    end.

  Fixpoint cexec (fuel : nat) (c : cstmt) (e : cenv) (s : cstate) {struct c} : cout :=
    match c with
    | CRun a => crun a s (CNext e)
    | CWhen n a =>
        match run M a (world s) with
        | (Some x, w) => CNext (put_when n x e) (put_world w s)
        | (None, w) => CStopped w
        end
    | CIf arms els => carms (cseq (cexec fuel)) els arms e s
    | CLoop test step body => crounds fuel test step (cseq (cexec fuel) body e) e s
    | CBreak => CBroke s
    | CContinue => CContinued s
    | CBlock l => leave_scope e (cseq (cexec fuel) l e s)
    | CNewArena v => CNext (declare v (fresh s) e) (new_live s)
    | CSaveDefault v => CNext (declare v (dflt s) e) s
    | CUseArena v =>
        match arena_of v (arenas e) with
        | Some a => CNext e (put_dflt a s)
        | None => CStuck
        end
    | CDestroy v =>
        match arena_of v (arenas e) with
        | Some a => match take_out a (live s) with
                    | Some l => CNext e (put_live l s)
                    | None => CStuck
                    end
        | None => CStuck
        end
    | CMark => CNext (put_mark (dflt s) e) s
    | CRestore =>
        match mark e with
        | Some a => if a =? dflt s then CNext e s else CStuck
        | None => CStuck
        end
    | CEnter => if MAX_CALL_DEPTH <? depth s + 1 then CStopped (world s)
                else CNext e (put_depth (depth s + 1) s)
    | CExit => CNext e (put_depth (depth s - 1) s)
    | CGuardUp c => CNext e (put_guards (c :: guards s) s)
    | CGuardDown c =>
        match take_out c (guards s) with
        | Some g => CNext e (put_guards g s)
        | None => CStuck
        end
    | CResult l =>
        match cresult l (world s) (dflt s) with
        | (Some r, w) => CNext (put_result r e) (put_world w s)
        | (None, w) => CStopped w
        end
    | CEscape i =>
        match arena_of FuncSaved (arenas e) with
        | Some a => match copy_to i a (live s) (result e) with
                    | Some r => CNext (put_result r e) s
                    | None => CStuck
                    end
        | None => CStuck
        end
    | CReturn => CReturned (result e) s
    end.

  Definition no_env : cenv := {| arenas := []; whens := []; result := []; mark := None |}.

  (** A call of the compiled function; [n] is the counter its compilation
      starts from. *)
  Definition compiled (fuel : nat) (f : func) (n : Z) (s : cstate) : cout :=
    cseq (cexec fuel) (fst (emit_function f n)) no_env s.
End run_c.

(** What a caller sees of a compiled call. *)
Definition seen {M} (f : func) (o : cout M) : option (ended M) :=
  match o with
  | CReturned vs s => Some (Done (map fst vs) (world s))
  | CNext _ s => Some (match f_results f with [] => Done [] (world s) | _ => Fell (world s) end)
  | CStopped w => Some (Halted w)
  | CNoFuel => Some Running
  | CBroke _ | CContinued _ => Some Misplaced
  | CStuck => None
  end.
