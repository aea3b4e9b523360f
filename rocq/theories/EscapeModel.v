(** codegen.c:7568-8110 (emit_assign_statement, the operator [=]), 5050-5068,
    5096-5115 and 5227-5252 (append, insert_at, prepend), 8392-8470 and 8472-8500
    (the arena of a block), 8731-8748 (the arena of a function): where the memory
    of an assigned value is taken from, and how long it lasts.
    Simplified: targets have one step ([x], [x.f], [x[i]], [x.f] with [x] a
    pointer); a pointer stands for the variable it leads to; [gray_scope_save]
    and [gray_scope_restore] are a new arena and its end; the value of the
    right-hand side may be any of its type that is made of the memory of the
    variables in scope and of new memory of the current arena. *)
From Verif Require Import Base TypesModel TypesSpec CopySpec CopyModel EscapeSpec.

(** The descriptor of the target's type, as type_from_name gives it. *)
Definition descriptor (p : program) (t : ty) : gtype :=
  match t with
  | TName n =>
    if eqs n (bs "string") then plain KString (bs "string") else
    match lookup n (structs p) with Some _ => plain KStruct n | None => plain KUnknown n end
  | TPtr u => GType KPointer (show u) (Some (show u)) None None None
  | TArr e | TFix e _ => GType KArray (show e) (Some (show e)) None None None
  | TMap k v => GType KMap (show t) None (Some k) (Some (show v)) None
  | TFunc _ _ => plain KFunction (show t)
  end.
(** What is emitted: the copy that is made, and whether it goes to
    _gray_outer_arena rather than to gray_default_arena. *)
Record plan := Plan { copying : code; outward : bool }.
Definition as_it_is : plan := Plan Same false.
Definition bracket (g : gtype) : bytes := [91] ++ match element_type g with Some e => e | None => [] end ++ [93].
(** An element or an entry of type text [tn], in a block: codegen.c:5057-5065,
    5104-5112, 5244-5252, 7725-7733 and 7762-7770. *)
Definition stored (ds : decls) (fuel : nat) (tn : bytes) : option plan :=
  if eqs tn (bs "string") then Some (Plan NewString true) else
  match type_needs_deep_copy ds fuel [] tn with
  | None => None
  | Some false => Some as_it_is
  | Some true => option_map (fun c => Plan c true) (emit_value_deep_copy ds fuel [] tn)
  end.
(** codegen.c:8023-8100, from the array case on; [label]: the target is a
    variable. *)
Definition plain_assign (ds : decls) (fuel : nat) (deep label : bool) (g : gtype) : option plan :=
  match kind g with
  | KArray => option_map (fun c => Plan c false) (emit_value_deep_copy ds fuel [] (firstn (Z.to_nat (MSG_BUF_SIZE - 1)) (bracket g)))
  | KMap => option_map (fun c => Plan c false) (emit_value_deep_copy ds fuel [] (name g))
  | k =>
    let rest := if deep && label then match k with KString => Some (Plan NewString true) | _ => stored ds fuel (name g) end else Some as_it_is in
    match k with
    | KStruct =>
      match type_needs_deep_copy ds fuel [] (name g) with
      | None => None
      | Some true => option_map (fun c => Plan c deep) (emit_value_deep_copy ds fuel [] (name g))
      | Some false => rest
      end
    | _ => rest
    end
  end.
(** The copy of the value, and that of the key of a map entry.  [g]: the
    descriptor of the type of what is assigned to; [tn]: its text. *)
Definition assign_plan (ds : decls) (fuel : nat) (deep : bool) (tg : target) (g : gtype) (tn : bytes) : option (plan * plan) :=
  match tg with
  | Elem _ | Deref => Some (as_it_is, as_it_is)
  | Push _ => if deep then option_map (fun v => (as_it_is, v)) (stored ds fuel tn) else Some (as_it_is, as_it_is)
  | Entry k _ =>
    if deep then opt_bind (stored ds fuel k) (fun kp => option_map (fun v => (kp, v)) (stored ds fuel tn))
    else Some (as_it_is, as_it_is)
  | PtrField _ =>
    if deep then
      match kind g with
      | KArray => option_map (fun c => (as_it_is, Plan c true)) (emit_value_deep_copy ds fuel [] (firstn (Z.to_nat (MSG_BUF_SIZE - 1)) (bracket g)))
      | KString => Some (as_it_is, Plan NewString true)
      | _ => Some (as_it_is, as_it_is)
      end
    else Some (as_it_is, as_it_is)
  | Whole => option_map (fun v => (as_it_is, v)) (plain_assign ds fuel deep true g)
  | Field _ => option_map (fun v => (as_it_is, v)) (plain_assign ds fuel deep false g)
  end.

(** The value of a variable after the assignment of [w]; [kw]: the key; [nb]:
    the block a growing container moves to.  [None]: there is no such field or
    element (an index out of bounds stops the program). *)
Fixpoint set_entry (k w : val) (l : list (val * val)) (same : val -> val -> bool) : list (val * val) :=
  match l with
  | [] => [(k, w)]
  | (k', v) :: l => if same k k' then (k', w) :: l else (k', v) :: set_entry k w l same
  end.
Fixpoint set_elem (i : nat) (w : val) (l : list val) : list val :=
  match l, i with
  | [], _ => []
  | _ :: l, O => w :: l
  | x :: l, S i => x :: set_elem i w l
  end.
Definition same_key (a b : val) : bool :=
  match a, b with
  | VStr _ s, VStr _ t => eqs s t
  | VBits n, VBits m => n =? m
  | _, _ => false
  end.
Definition updated (tg : target) (kw w : val) (nb : block) (old : val) : option val :=
  match tg, old with
  | (Whole | Deref), _ => Some w
  | (Field f | PtrField f), VRec l => if existsb (fun e => eqs (fst e) f) l then Some (VRec (set_field f w l)) else None
  | Elem i, VArr b l => if Nat.ltb i (length l) then Some (VArr b (set_elem i w l)) else None
  | Entry _ grows, VMap b l => Some (VMap (if grows then nb else b) (set_entry kw w l same_key))
  | Push grows, VArr b l => Some (VArr (if grows then nb else b) (l ++ [w]))
  | _, _ => None
  end.
(** Variables are looked up from the innermost block outwards. *)
Fixpoint set_var (x : Z) (f : val -> option val) (fr : frame) : option (option frame) :=
  match fr with
  | [] => None
  | (y, v) :: fr =>
    if y =? x then Some (option_map (fun w => (y, w) :: fr) (f v))
    else option_map (option_map (cons (y, v))) (set_var x f fr)
  end.
Fixpoint set_store (x : Z) (f : val -> option val) (st : store) : option store :=
  match st with
  | [] => None
  | fr :: st =>
    match set_var x f fr with
    | Some r => option_map (fun fr' => fr' :: st) r
    | None => option_map (cons fr) (set_store x f st)
    end
  end.
(** The state: the variables, the arenas that have been given back, the number
    of the next arena and of the next block. *)
Record state := St { vars : store; freed : list Z; next_arena : Z; next_block : Z }.
Definition usable (cur : Z) (st : store) (v : val) : Prop := forall b, In b (owned v) -> fst b = cur \/ in_store st b.
(** [exec p cur outer s l s' seen]: running [l] with the default arena [cur] and, in
    a block, the arena [outer] of the function leads from [s] to [s']; [seen]
    are the states in which the statements begin and end. *)
Inductive exec (p : program) : Z -> option Z -> state -> list stmt -> state -> list state -> Prop :=
| e_nil cur outer s : exec p cur outer s [] s [s]
| e_declare cur outer s x t v n fr st l s' seen :
    vars s = fr :: st -> holds p t v -> usable cur (vars s) v ->
    exec p cur outer (St (((x, v) :: fr) :: st) (freed s) (next_arena s) n) l s' seen ->
    exec p cur outer s (Declare x t :: l) s' (s :: seen)
| e_assign cur outer s x tg t kt kv v fuel kp vp kw n1 w n2 vars' l s' seen :
    (forall k g, tg = Entry k g -> kt = k) -> holds_key kt kv -> usable cur (vars s) kv ->
    holds p t v -> usable cur (vars s) v ->
    assign_plan (texts p) fuel (match outer with Some _ => true | None => false end) tg (descriptor p t) (show t) = Some (kp, vp) ->
    (let there pl := match outer with Some o => if outward pl then o else cur | None => cur end in
     run (there kp) (copying kp) kv (next_block s) = Some (kw, n1) /\ run (there vp) (copying vp) v n1 = Some (w, n2)) ->
    set_store x (updated tg kw w (match outer with Some o => o | None => cur end, n2)) (vars s) = Some vars' ->
    exec p cur outer (St vars' (freed s) (next_arena s) (n2 + 1)) l s' seen ->
    exec p cur outer s (Assign x tg t :: l) s' (s :: seen)
| e_block cur outer s b l s1 s' seen1 seen fr st :
    exec p (next_arena s) (Some (match outer with Some o => o | None => cur end))
      (St ([] :: vars s) (freed s) (next_arena s + 1) (next_block s)) b s1 seen1 ->
    vars s1 = fr :: st ->
    exec p cur outer (St st (next_arena s :: freed s1) (next_arena s1) (next_block s1)) l s' seen ->
    exec p cur outer s (Block b :: l) s' (s :: seen1 ++ seen)
| e_call cur outer s b l s1 s' seen1 seen fr st :
    exec p cur None (St ([] :: vars s) (freed s) (next_arena s) (next_block s)) b s1 seen1 ->
    vars s1 = fr :: st ->
    exec p cur outer (St st (freed s1) (next_arena s1) (next_block s1)) l s' seen ->
    exec p cur outer s (Call b :: l) s' (s :: seen1 ++ seen)
| e_call_own cur outer s b l s1 s' seen1 seen fr st :
    exec p (next_arena s) None (St ([] :: vars s) (freed s) (next_arena s + 1) (next_block s)) b s1 seen1 ->
    vars s1 = fr :: st ->
    exec p cur outer (St st (next_arena s :: freed s1) (next_arena s1) (next_block s1)) l s' seen ->
    exec p cur outer s (CallOwn b :: l) s' (s :: seen1 ++ seen).
