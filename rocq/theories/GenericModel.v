(** Model of calls of generic functions: what the wildcard type stands for,
    grayc/src/typechecker/typechecker.c:490-496 and 523-650 with 675-711 and
    4543-4675, and which instance the generated call names,
    grayc/src/codegen/codegen.c:225-301 and 6600-6672.
    Simplified: type names are the bytes of NUL-free C strings; memory is not
    freed and does not run out; the rotating static buffers are taken to be
    fresh; an argument is given by the name of its type ([unknown] for one that
    could not be resolved) or, when it is the bare name of a struct, by that
    name; the call stands outside of generic functions, so no outer binding is
    active; the number of arguments and named arguments are checked elsewhere. *)
From Verif Require Import Base LexModel NameModel.

Definition eqs (a b : bytes) : bool := strcmp a b =? 0.
(** typechecker.c:490-496 *)
Definition type_name_has_wildcard (tn : bytes) : bool := existsb (fun c => c =? 63) tn.
(** typechecker.c:525-540 *)
Definition substitute_wildcard (source concrete : bytes) : bytes :=
  if type_name_has_wildcard source then flat_map (fun c => if c =? 63 then concrete else [c]) source else source.

(** typechecker.c:549-553: what comes before and after the colon found *)
Fixpoint top_colon (s : bytes) (depth : Z) : option (bytes * bytes) :=
  match s with
  | [] => None
  | c :: r =>
      if (depth =? 0) && (c =? 93) then None else
      if c =? 91 then option_map (fun p => (c :: fst p, snd p)) (top_colon r (depth + 1))
      else if c =? 93 then option_map (fun p => (c :: fst p, snd p)) (top_colon r (depth - 1))
      else if (c =? 58) && (depth =? 0) then Some ([], r)
      else option_map (fun p => (c :: fst p, snd p)) (top_colon r depth)
  end.
(** typechecker.c:543-563. When the colon is the last character the length of
    the value would wrap around, but then the text does not end in a bracket. *)
Definition parse_map_key_value (tn : bytes) : option (bytes * bytes) :=
  if negb (eqs (firstn 4 tn) (bs "map[")) then None else
  match top_colon (skipn 4 tn) 0 with
  | None => None
  | Some (key, rest) => if last tn 0 =? 93 then Some (key, removelast rest) else None
  end.
(** typechecker.c:579-641; a call of itself is on a shorter pattern *)
Fixpoint bind_string (fuel : nat) (p a : bytes) : res (option bytes) :=
  match fuel with
  | O => NoFuel
  | S fuel =>
      if eqs p (bs "?") then Ok (if eqs a (bs "unknown") then None else Some a) else
      if (hd 0 p =? 91) && (hd 0 a =? 91) then
        if (length p <? 3)%nat || (length a <? 3)%nat then Ok None else
        if negb (last p 0 =? 93) || negb (last a 0 =? 93) then Ok None else
        bind_string fuel (removelast (tl p)) (removelast (tl a))
      else if eqs (firstn 4 p) (bs "map[") && eqs (firstn 4 a) (bs "map[") then
        match parse_map_key_value p with
        | None => Ok None
        | Some (pk, pv) =>
            match parse_map_key_value a with
            | None => Ok None
            | Some (ak, av) =>
                let kw := type_name_has_wildcard pk in
                let vw := type_name_has_wildcard pv in
                if negb kw && negb vw then Ok None else
                if negb kw && negb (eqs ak pk) then Ok None else
                if negb vw && negb (eqs av pv) then Ok None else
                if kw && vw && negb (eqs ak av) then Ok None else
                if kw then bind_string fuel pk ak else bind_string fuel pv av
            end
        end
      else Ok None
  end.
(** typechecker.c:647-650 *)
Definition bind_wildcard (p a : bytes) : res (option bytes) := bind_string (S (length p)) p a.

(** An argument of a call, and a parameter: its type name, or a type parameter *)
Inductive arg := AVal (tn : bytes) | AStruct (n : bytes).
Inductive param := PVal (tn : bytes) | PType.
(** typechecker.c:4557-4653: the loop over parameters and arguments, with the
    binding so far and whether an error was reported *)
Fixpoint infer (l : list (param * arg)) (binding : option bytes) (err : bool) : res (option bytes * bool) :=
  match l with
  | [] => Ok (binding, err)
  | (PType, AStruct n) :: r => infer r (match binding with None => Some n | b => b end) err
  | (PType, AVal _) :: r => infer r binding true
  | (PVal p, a) :: r =>
      if negb (type_name_has_wildcard p) then infer r binding err else
      match a with
      | AStruct _ => infer r binding true
      | AVal t =>
          rbind (bind_wildcard p t) (fun o =>
            match o with
            | None => infer r binding (if eqs t (bs "unknown") then err else true)
            | Some bound =>
                match binding with
                | None => infer r (Some bound) err
                | Some b => infer r binding (if eqs b bound then err else true)
                end
            end)
      end
  end.
(** typechecker.c:4665-4685: of a generic call no other argument is looked at *)
Definition check_call (params : list param) (args : list arg) : res (option bytes * bool) := infer (combine params args) None false.
(** typechecker.c:680-711 *)
Definition record_instantiation (known : list bytes) (concrete : bytes) : list bytes :=
  if eqs concrete (bs "unknown") then known else if existsb (fun k => eqs k concrete) known then known else known ++ [concrete].
(** typechecker.c:4654-4655: the calls of one function, in order *)
Fixpoint check_calls (params : list param) (calls : list (list arg)) (known : list bytes) : res (list bytes) :=
  match calls with
  | [] => Ok known
  | c :: r =>
      rbind (check_call params c) (fun q =>
        check_calls params r (match fst q with Some b => record_instantiation known b | None => known end))
  end.

(** codegen.c:274-283: as above, but no bracket ends the search *)
Fixpoint any_colon (s : bytes) (depth : Z) : option (bytes * bytes) :=
  match s with
  | [] => None
  | c :: r =>
      if c =? 91 then option_map (fun p => (c :: fst p, snd p)) (any_colon r (depth + 1))
      else if c =? 93 then option_map (fun p => (c :: fst p, snd p)) (any_colon r (depth - 1))
      else if (c =? 58) && (depth =? 0) then Some ([], r)
      else option_map (fun p => (c :: fst p, snd p)) (any_colon r depth)
  end.
(** codegen.c:258-301 *)
Fixpoint codegen_bind (fuel : nat) (p a : bytes) : res (option bytes) :=
  match fuel with
  | O => NoFuel
  | S fuel =>
      if negb (type_name_has_wildcard p) then Ok None else
      if eqs p (bs "?") then Ok (Some a) else
      if (3 <=? length p)%nat && (hd 0 p =? 91) && (last p 0 =? 93) then
        if (length a <? 3)%nat || negb (hd 0 a =? 91) || negb (last a 0 =? 93) then Ok None else
        codegen_bind fuel (removelast (tl p)) (removelast (tl a))
      else if (4 <? length p)%nat && eqs (firstn 4 p) (bs "map[") && (last p 0 =? 93) then
        if (length a <=? 4)%nat || negb (eqs (firstn 4 a) (bs "map[")) || negb (last a 0 =? 93) then Ok None else
        match any_colon (removelast (skipn 4 p)) 0 with
        | None => Ok None
        | Some (pk, pv) =>
            match any_colon (removelast (skipn 4 a)) 0 with
            | None => Ok None
            | Some (ak, av) =>
                rbind (if type_name_has_wildcard pk then codegen_bind fuel pk ak else Ok None) (fun o =>
                  match o with
                  | Some t => Ok (Some t)
                  | None => if type_name_has_wildcard pv then codegen_bind fuel pv av else Ok None
                  end)
            end
        end
      else Ok None
  end.
Definition codegen_bind_wildcard (p a : bytes) : res (option bytes) := codegen_bind (S (length p)) p a.
(** codegen.c:6622-6655: the binding the name of the instance is made from *)
Fixpoint call_binding (l : list (param * arg)) : res (option bytes) :=
  match l with
  | [] => Ok None
  | (PType, AStruct n) :: _ => Ok (Some n)
  | (PType, AVal _) :: r => call_binding r
  | (PVal p, a) :: r =>
      if negb (type_name_has_wildcard p) then call_binding r else
      let t := match a with AVal t => t | AStruct _ => bs "unknown" end in
      if eqs p (bs "?") then Ok (Some t) else
      rbind (codegen_bind_wildcard p t) (fun o => match o with Some b => Ok (Some b) | None => call_binding r end)
  end.
(** codegen.c:6656-6668: the C function a call names; without a binding the
    name ends in the underscores *)
Definition called_name (fn : bytes) (params : list param) (args : list arg) : res bytes :=
  rmap (fun o => c_call fn (match o with Some b => b | None => [] end)) (call_binding (combine params args)).
(** codegen.c:231-253: the type string of the instance, in a buffer of 128 *)
Definition TYPE_NAME_MAX : Z := 128.
Definition codegen_effective_type_string (binding type_name : bytes) : bytes :=
  if type_name_has_wildcard type_name
  then firstn (Z.to_nat (TYPE_NAME_MAX - 1)) (flat_map (fun c => if c =? 63 then binding else [c]) type_name)
  else type_name.
