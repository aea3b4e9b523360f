(** Interpolated strings (parser.c parse_interpolated_string, codegen.c
    NODE_INTERPOLATED_STRING) and the format functions of the fmt module
    (typechecker.c check of the format, codegen.c
    emit_format_string_normalized_extended, emit_format_arguments).  Not modelled:
    parsing of the expression in the braces (a function argument; only the first
    expression of the text is parsed), the second pass that gives types to nodes, the
    fall-back for expressions without a type, and evaluation of the arguments. *)
From Verif Require Import Base StringsModel LitModel StrconvModel FormatSpec.

(** * Interpolated strings *)
(** What an expression in braces parses to: a string literal, or another expression
    (given here by its type and value) *)
Inductive expr := EStr (s : bytes) | EVal (v : shown).
Inductive ipart := PText (s : bytes) | PExpr (v : shown).
(** parser.c:622-628: up to the closing brace; the text and what is left, from the brace on *)
Fixpoint to_brace (depth : nat) (s : bytes) : bytes * bytes :=
  match s with
  | [] => ([], [])
  | c :: r =>
      let depth' := if c =? 123 then S depth else if c =? 125 then pred depth else depth in
      if (depth' =? 0)%nat then ([], s) else let '(e, q) := to_brace depth' r in (c :: e, q)
  end.
(** parser.c:644-650 *)
Definition is_empty (e : bytes) : bool := forallb (fun c => (c =? 32) || (c =? 9) || (c =? 10) || (c =? 13)) e.
Definition text_part (seg : bytes) : list ipart := match seg with [] => [] | _ => [PText (rev seg)] end.
(** parser.c:590-705 parse_interpolated_string; [seg]: the text since seg_start, backwards.
    The parts and whether E2071 was reported; a failed parse reports its own error and adds no part *)
Section Parse.
Context (parse : bytes -> option expr).
Definition expr_part (e : bytes) : list ipart :=
  if is_empty e then [] else match parse e with Some (EStr s) => [PText s] | Some (EVal v) => [PExpr v] | None => [] end.
Fixpoint parts (fuel : nat) (s seg : bytes) : list ipart * bool :=
  match fuel with
  | O => ([], false)
  | S fuel =>
      match s with
      | [] => (text_part seg, false)
      | c :: r =>
          match r with
          | d :: r2 =>
              if c =? 92 then parts fuel r2 (d :: c :: seg)
              else if (c =? 36) && (d =? 123) then
                let '(e, q) := to_brace 1 r2 in
                let '(ps, err) := parts fuel (tl q) [] in
                (text_part seg ++ expr_part e ++ ps, is_empty e || err)
              else parts fuel r (c :: seg)
          | [] => parts fuel r (c :: seg)
          end
      end
  end.
Definition parse_interpolated (raw : bytes) : list ipart * bool := parts (S (length raw)) raw [].
End Parse.
(** codegen.c:1225-1250: the directive for a type *)
Definition interp_directive (v : shown) : bytes :=
  match v with
  | SString _ | SFloat _ | SBool _ | SChar _ | SArray _ | SMap _ | SError _ | SUuid _ | SEnumString _ | SWide _ => bs "%s"
  | SUint _ => bs "%llu"
  | SInt _ | SByte _ | SEnum _ => bs "%lld"
  end.
(** codegen.c:1276-1366: the argument *)
Definition interp_arg (v : shown) : arg :=
  match v with
  | SString s | SUuid s | SEnumString s => AStr s
  | SBool b => AStr (if b then bs "true" else bs "false")
  | SFloat t | SWide t | SArray t | SMap t => AStr t
  | SChar cp => AStr (char_to_utf8 cp)
  | SError (Some m) => AStr m
  | SError None => AStr (bs "nil")
  | SInt z | SByte z | SEnum z => A64 (wrap_i 64 z)
  | SUint z => A64 (wrap_u 64 z)
  end.
(** codegen.c:1188-1253 the format, 1254-1371 the arguments *)
Definition interp_format (ps : list ipart) : bytes := LitModel.quoted (flat_map (fun p => match p with PText s => part s | PExpr v => interp_directive v end) ps).
Definition interp_args (ps : list ipart) : list arg := flat_map (fun p => match p with PText _ => [] | PExpr v => [interp_arg v] end) ps.

(** * The format functions *)
(** types.c:361-387, the kinds of types *)
Inductive kind := KInt | KUint | KByte | KChar | KFloat | KString | KBool | KEnum | KStruct.
Definition kind_of (t : gty) : kind :=
  match t with GInt _ => KInt | GUint _ => KUint | GByte => KByte | GChar => KChar | GFloat => KFloat | GString => KString | GBool => KBool | GEnum => KEnum | GOther => KStruct end.
(** typechecker.c:3250-3256 and codegen.c:3062-3078: flags, width, precision, length
    modifier; these are skipped by the check and copied by the code generator *)
Fixpoint span (p : Z -> bool) (s : bytes) : bytes * bytes :=
  match s with c :: r => if p c then let '(a, b) := span p r in (c :: a, b) else ([], s) | [] => ([], []) end.
Definition flag (c : Z) : bool := (c =? 45) || (c =? 43) || (c =? 32) || (c =? 48) || (c =? 35).
Definition take_precision (s : bytes) : bytes * bytes :=
  match s with c :: r => if c =? 46 then let '(a, b) := span isdigit r in (c :: a, b) else ([], s) | [] => ([], []) end.
Definition take_length (s : bytes) : bytes * bytes :=
  match s with
  | c :: r => if (c =? 104) || (c =? 108) then match r with d :: r2 => if d =? c then ([c; c], r2) else ([c], r) | [] => ([c], r) end
              else if c =? 76 then ([c], r) else ([], s)
  | [] => ([], [])
  end.
Definition take_spec (s : bytes) : bytes * bytes * bytes :=
  let '(a, s1) := span flag s in let '(b, s2) := span isdigit s1 in let '(c, s3) := take_precision s2 in let '(l, s4) := take_length s3 in (a ++ b ++ c, l, s4).
(** typechecker.c:3266-3276 *)
Definition known (c : Z) : bool := existsb (Z.eqb c) [100; 105; 117; 120; 88; 111; 102; 103; 101; 71; 69; 115; 99; 98].
(** typechecker.c:3292-3321 *)
Definition kind_ok (c : Z) (k : kind) : bool :=
  if (c =? 100) || (c =? 105) then match k with KInt | KChar | KByte => true | _ => false end
  else if c =? 117 then match k with KUint | KByte => true | _ => false end
  else if (c =? 120) || (c =? 88) || (c =? 111) then match k with KInt | KUint | KByte => true | _ => false end
  else if (c =? 102) || (c =? 103) || (c =? 101) || (c =? 71) || (c =? 69) then match k with KFloat => true | _ => false end
  else if c =? 115 then match k with KString => true | _ => false end
  else if c =? 99 then match k with KChar | KInt => true | _ => false end
  else true.
(** typechecker.c:3232-3345: the codes reported, and num_directives; [args]: the
    kinds of the arguments from number di on *)
Fixpoint walk (fuel : nat) (p : bytes) (args : list kind) : list Z * nat :=
  match fuel with
  | O => ([], 0%nat)
  | S fuel =>
      match p with
      | [] => ([], 0%nat)
      | c :: r =>
          if negb (c =? 37) then walk fuel r args
          else match r with
               | [] => ([3106], 0%nat)
               | d :: r2 =>
                   if d =? 37 then walk fuel r2 args
                   else if d =? 110 then ([3087], 0%nat)
                   else let '(_, _, s) := take_spec r in
                        match s with
                        | [] => ([3106], 0%nat)
                        | spec :: q =>
                            let '(es, n) := walk fuel q (tl args) in
                            ((if negb (known spec) then [3105] else match args with [] => [] | k :: _ => if kind_ok spec k then [] else [3088] end) ++ es, S n)
                        end
               end
      end
  end.
(** typechecker.c:3332-3344 and 3346-3369 *)
Definition check_format (fmt : bytes) (args : list gty) : list Z :=
  let '(es, n) := walk (length fmt) fmt (map kind_of args) in
  es ++ (if (length args <? n)%nat then [3107] else if (n <? length args)%nat then [3108] else []) ++
  flat_map (fun t => match kind_of t with KStruct => [3017] | _ => [] end) args.
(** codegen.c:3049-3100 emit_format_string_normalized_extended, without the quotes *)
Definition upgrade (l : bytes) (spec : Z) (args : list kind) : bytes :=
  match l, args with
  | [], k :: _ => match k with
                  | KInt => if (spec =? 100) || (spec =? 105) then [108; 108] else []
                  | KUint => if spec =? 117 then [108; 108] else []
                  | _ => []
                  end
  | _, _ => []
  end.
Fixpoint copy_format (fuel : nat) (p : bytes) (args : list kind) : bytes :=
  match fuel with
  | O => []
  | S fuel =>
      match p with
      | [] => []
      | c :: r =>
          if negb (c =? 37) then c :: copy_format fuel r args
          else 37 :: match r with
               | [] => []
               | d :: r2 =>
                   if d =? 37 then 37 :: copy_format fuel r2 args
                   else let '(a, l, s) := take_spec r in
                        a ++ l ++ match s with [] => [] | spec :: q => upgrade l spec args ++ [spec] ++ copy_format fuel q (tl args) end
               end
      end
  end.
Definition emit_format (newline : bool) (fmt : bytes) (args : list gty) : bytes :=
  LitModel.quoted (copy_format (length fmt) fmt (map kind_of args) ++ (if newline then [92; 110] else [])).
(** codegen.c:3106-3121 emit_format_arguments, with the C types of codegen.c:316-340
    after the default argument promotions; i128 and wider are structures *)
Definition emit_arg (a : gty * gval) : arg :=
  match a with
  | (GString, GS s) => AStr s
  | (GBool, GB b) => AStr (if b then bs "true" else bs "false")
  | (GFloat, GD d) => ADouble d
  | ((GByte | GChar), GZ v) => A32 v
  | ((GInt b | GUint b), GZ v) => if b <=? 32 then A32 v else if b =? 64 then A64 v else AOther
  | (GEnum, GZ v) => A64 v
  | _ => AOther
  end.
