(** codegen.c: emit_value_print with its cycle guard and emit_composite_print, as
    the C statements they emit, and the run of these statements.  Simplified:
    types are trees, not names; a struct is displayed by its declared name; the
    slot of a map entry is its place in the order; temporaries are numbered by
    [uid] as in the C text; an expression text of 256 bytes or more is cut by
    snprintf and is then no expression.  A byte or an integer enum is an integer
    here.  Not modelled: string and tagged enums, error, big integer and function
    values. *)
From Verif Require Import Base Decimal PrintSpec.

(** codegen.c:27 *)
Definition CYCLE_GUARD_DEPTH : nat := 64.
(** util/constants.h:14 *)
Definition MSG_BUF_SIZE : nat := 256.

(** C expressions: a temporary, a field, an array element, a map key, a map value. *)
Inductive cexp :=
| CVar (u : nat) | CFld (e : cexp) (f : bytes) | CGet (e : cexp) (t : ty) (u : nat)
| CKey (e : cexp) (t : ty) (u : nat) | CVal (e : cexp) (t : ty) (u : nat) | CBroken.
(** C statements of the print. *)
Inductive stmt :=
| Puts (s : bytes) | PLld (e : cexp) | PLlu (e : cexp) | PFlt (e : cexp) | PStr (q : bool) (e : cexp) | PBool (e : cexp)
| PChar (q : bool) (e : cexp) | PPtr (e : cexp) | Sep (u : nat) | Colon (e : cexp) | Temp (u : nat) (e : cexp)
| EachArr (u : nat) (e : cexp) (body : list stmt) | EachMap (u : nat) (e : cexp) (body : list stmt).

Section Emit.
(** gray_type_to_c_codegen, and the three texts of printf. *)
Context (cty : ty -> bytes) (D : decls).

Definition num (u : nat) : bytes := dec (Z.of_nat u).
(** codegen.c:3214-3220, 3258-3268, 3330 *)
Fixpoint text (e : cexp) : bytes :=
  match e with
  | CVar u => bs "_gray_pv" ++ num u
  | CFld e f => bs "(" ++ text e ++ bs ")." ++ f
  | CGet e t u => bs "GRAY_ARRAY_GET((" ++ text e ++ bs "), " ++ cty t ++ bs ", _gray_pi" ++ num u ++ bs ")"
  | CKey e t u => bs "*(" ++ cty t ++ bs " *)gray_map_key_at(&(" ++ text e ++ bs "), _gray_sl" ++ num u ++ bs ")"
  | CVal e t u => bs "*(" ++ cty t ++ bs " *)gray_map_value_at(&(" ++ text e ++ bs "), _gray_sl" ++ num u ++ bs ")"
  | CBroken => []
  end.
Definition clip (e : cexp) : cexp := if (length (text e) <? MSG_BUF_SIZE)%nat then e else CBroken.

(** The counter _gray_print_uid and the static guard: the names being printed,
    innermost first (their number is emit_value_print_depth), and how far the
    depth is below zero. *)
Record guard := Guard { uid : nat; vis : list bytes; debt : nat }.
Definition next (g : guard) : guard := Guard (S (uid g)) (vis g) (debt g).
(** codegen.c:3307 *)
Definition enter (n : bytes) (g : guard) : res guard :=
  if (length (vis g) <? CYCLE_GUARD_DEPTH)%nat
  then match debt g with O => Ok (Guard (uid g) (n :: vis g) 0) | S _ => UB end
  else Ok g.
(** codegen.c:3336 *)
Definition leave (g : guard) : guard :=
  match vis g with [] => Guard (uid g) [] (S (debt g)) | _ :: r => Guard (uid g) r (debt g) end.
Definition composite (t : ty) : bool := match t with TArr _ | TMap _ _ | TPtr | TNamed _ => true | _ => false end.

(** codegen.c:3312-3334: the fields, with the emitter of their values. *)
Fixpoint emit_fields (rec : guard -> cexp -> ty -> bool -> res (list stmt * guard)) (e : cexp) (first : bool)
  (fs : list (bytes * ty)) (g : guard) : res (list stmt * guard) :=
  match fs with
  | [] => Ok ([], g)
  | (f, t) :: fs =>
    rbind (rec g (clip (CFld e f)) t true) (fun r1 =>
    rmap (fun r2 => ((if first then [] else [Puts (bs ", ")]) ++ Puts (f ++ bs ": ") :: fst r1 ++ fst r2, snd r2))
      (emit_fields rec e false fs (snd r1)))
  end.
(** codegen.c:3142-3365; the C recursion has no bound, [fuel] is the model's. *)
Fixpoint emit (fuel : nat) (g : guard) (e : cexp) (t : ty) (q : bool) : res (list stmt * guard) :=
  match fuel with
  | O => NoFuel
  | S fuel =>
    match t with
    | TInt => Ok ([PLld e], g)
    | TUint => Ok ([PLlu e], g)
    | TFlt => Ok ([PFlt e], g)
    | TStr => Ok ([PStr q e], g)
    | TBool => Ok ([PBool e], g)
    | TChar => Ok ([PChar q e], g)
    | TPtr => Ok ([PPtr e], g)
    | TArr t =>
      let u := uid g in
      if composite t then
        let w := S u in
        rmap (fun r => ([Puts (bs "{"); EachArr u e (Sep u :: Temp w (CGet e t u) :: fst r); Puts (bs "}")], snd r))
          (emit fuel (next (next g)) (CVar w) t true)
      else
        rmap (fun r => ([Puts (bs "{"); EachArr u e (Sep u :: fst r); Puts (bs "}")], snd r))
          (emit fuel (next g) (clip (CGet e t u)) t true)
    | TMap k v =>
      let u := uid g in
      rbind (emit fuel (next g) (clip (CKey e k u)) k true) (fun r1 =>
      rmap (fun r2 => ([Puts (bs "{"); Colon e; EachMap u e (Sep u :: fst r1 ++ Puts (bs ": ") :: fst r2); Puts (bs "}")], snd r2))
        (emit fuel (snd r1) (clip (CVal e v u)) v true))
    | TNamed n =>
      if existsb (same_name n) (vis g) then Ok ([Puts (n ++ bs "{...}")], g)
      else
        rbind (enter n g) (fun g =>
        rmap (fun r => (Puts (n ++ bs "{") :: fst r ++ [Puts (bs "}")], leave (snd r)))
          (emit_fields (emit fuel) e true (match fields D n with Some fs => fs | None => [] end) g))
    end
  end.

(** codegen.c:3368-3417, emit_composite_print: the argument in a temporary. *)
Definition emit_print (fuel : nat) (g : guard) (t : ty) (newline : bool) : res (list stmt * guard) :=
  rmap (fun r => (fst r ++ (if newline then [Puts [10]] else []), snd r)) (emit fuel (next g) (CVar (uid g)) t false).
End Emit.

(** The run.  [pv], [pi]: the temporaries and the loop counters. *)
Record env := Env { pv : nat -> option val; pi : nat -> option nat }.
Definition set_pv (u : nat) (v : val) (en : env) : env := Env (fun w => if (w =? u)%nat then Some v else pv en w) (pi en).
Definition set_pi (u k : nat) (en : env) : env := Env (pv en) (fun w => if (w =? u)%nat then Some k else pi en w).
Fixpoint member (f : bytes) (l : list (bytes * val)) : option val :=
  match l with [] => None | (m, v) :: l => if same_name m f then Some v else member f l end.
Definition at_pi {A} (l : list A) (o : option nat) : option A := match o with Some k => nth_error l k | None => None end.
Fixpoint eval (en : env) (e : cexp) : option val :=
  match e with
  | CVar u => pv en u
  | CFld e f => match eval en e with Some (VRec _ l) => member f l | _ => None end
  | CGet e _ u => match eval en e with Some (VArr l) => at_pi l (pi en u) | _ => None end
  | CKey e _ u => match eval en e with Some (VMap l) => option_map fst (at_pi l (pi en u)) | _ => None end
  | CVal e _ u => match eval en e with Some (VMap l) => option_map snd (at_pi l (pi en u)) | _ => None end
  | CBroken => None
  end.
(** printf's %.*s stops at a zero byte. *)
Fixpoint upto0 (s : bytes) : bytes := match s with [] => [] | c :: r => if c =? 0 then [] else c :: upto0 r end.
Fixpoint cat (l : list (option bytes)) : option bytes :=
  match l with
  | [] => Some []
  | o :: l => match o, cat l with Some a, Some b => Some (a ++ b) | _, _ => None end
  end.

Section Run.
Context (flt chr hex : Z -> bytes).
Fixpoint run (s : stmt) (en : env) : option (bytes * env) :=
  let body := fix body (l : list stmt) (en : env) : option bytes :=
    match l with
    | [] => Some []
    | s :: l => match run s en with
                | Some (o, en) => match body l en with Some o' => Some (o ++ o') | None => None end
                | None => None
                end
    end in
  let out (o : option bytes) := option_map (fun o => (o, en)) o in
  match s with
  | Puts s => Some (s, en)
  | PLld e => out (match eval en e with Some (VInt z) => Some (dec_signed (wrap_i 64 z)) | _ => None end)
  | PLlu e => out (match eval en e with Some (VInt z) => Some (dec_signed (wrap_u 64 z)) | _ => None end)
  | PFlt e => out (match eval en e with Some (VFlt z) => Some (flt z) | _ => None end)
  | PStr q e => out (match eval en e with Some (VStr s) => Some (if q then [34] ++ upto0 s ++ [34] else upto0 s) | _ => None end)
  | PBool e => out (match eval en e with Some (VBool b) => Some (if b then bs "true" else bs "false") | _ => None end)
  | PChar q e => out (match eval en e with Some (VChar c) => Some (if q then [39] ++ chr c ++ [39] else chr c) | _ => None end)
  | PPtr e => out (match eval en e with Some (VPtr a) => Some (if a =? 0 then bs "nil" else bs "0x" ++ hex a) | _ => None end)
  | Sep u => out (match pi en u with Some k => Some (if (0 <? k)%nat then bs ", " else []) | None => None end)
  | Colon e => out (match eval en e with Some (VMap l) => Some (if (length l =? 0)%nat then bs ":" else []) | _ => None end)
  | Temp u e => match eval en e with Some v => Some ([], set_pv u v en) | None => None end
  | EachArr u e l => out (match eval en e with
                          | Some (VArr vs) => cat (map (fun k => body l (set_pi u k en)) (seq 0 (length vs)))
                          | _ => None end)
  | EachMap u e l => out (match eval en e with
                          | Some (VMap vs) => cat (map (fun k => body l (set_pi u k en)) (seq 0 (length vs)))
                          | _ => None end)
  end.
Fixpoint run_all (l : list stmt) (en : env) : option bytes :=
  match l with
  | [] => Some []
  | s :: l => match run s en with
              | Some (o, en) => match run_all l en with Some o' => Some (o ++ o') | None => None end
              | None => None
              end
  end.
(** What a print of [v] writes: its statements run with the value in the first temporary. *)
Definition printed (u : nat) (v : val) (l : list stmt) : option bytes :=
  run_all l (set_pv u v (Env (fun _ => None) (fun _ => None))).
End Run.

(** No expression of the C text was cut. *)
Fixpoint whole_exp (e : cexp) : bool :=
  match e with CVar _ => true | CBroken => false | CFld e _ | CGet e _ _ | CKey e _ _ | CVal e _ _ => whole_exp e end.
Fixpoint intact (s : stmt) : bool :=
  match s with
  | Puts _ | Sep _ => true
  | PLld e | PLlu e | PFlt e | PStr _ e | PBool e | PChar _ e | PPtr e | Colon e | Temp _ e => whole_exp e
  | EachArr _ e l | EachMap _ e l => whole_exp e && forallb intact l
  end.
