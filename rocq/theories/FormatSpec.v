(** C121-C123: what a user expects of an interpolated string and of the format
    functions of the fmt module, and what C's printf does with a format. *)
From Verif Require Import Base StringsModel Decimal LitSpec StrconvSpec.

(** * printf (C11 7.21.6.1) *)
(** What is passed: integers by the size they have after the default argument
    promotions (int or unsigned int; the 64-bit types), double, a pointer to
    characters up to a zero byte, anything else *)
Inductive arg := A32 (v : Z) | A64 (v : Z) | ADouble (d : Z) | AStr (s : bytes) | AOther.
(** What is to be laid out *)
Inductive value := VInt (v : Z) | VFloat (d : Z) | VStr (s : bytes).
(** A conversion specification: flags, field width, precision, length modifier,
    conversion specifier *)
Record directive := { flags : bytes; width : bytes; precision : option bytes; len : bytes; conv : Z }.
Definition is_flag (c : Z) : bool := existsb (Z.eqb c) (bs "-+ 0#").
Definition bare (c : Z) : directive := {| flags := []; width := []; precision := None; len := []; conv := c |}.
(** Reading a specification character by character; the number says how far one is:
    0 in the flags, 1 in the field width, 2 in the precision, 3 after one letter of
    the length modifier, 4 after it *)
Inductive reading := More (n : Z) (d : directive) | Done (d : directive).
Definition next (n : Z) (d : directive) (c : Z) : reading :=
  let set f w p l k := {| flags := f; width := w; precision := p; len := l; conv := k |} in
  if (n =? 0) && is_flag c then More 0 (set (flags d ++ [c]) [] None [] 0)
  else if (n <=? 1) && isdigit c then More 1 (set (flags d) (width d ++ [c]) None [] 0)
  else if (n <=? 1) && (c =? 46) then More 2 (set (flags d) (width d) (Some []) [] 0)
  else if (n =? 2) && isdigit c then More 2 (set (flags d) (width d) (Some (match precision d with Some p => p | None => [] end ++ [c])) [] 0)
  else if (n <=? 2) && existsb (Z.eqb c) (bs "hlLjzt") then More 3 (set (flags d) (width d) (precision d) [c] 0)
  else if (n =? 3) && existsb (Z.eqb c) (bs "hl") && (c =? hd 0 (len d)) then More 4 (set (flags d) (width d) (precision d) [c; c] 0)
  else Done (set (flags d) (width d) (precision d) (len d) c).
(** The value a conversion reads.  None: undefined behaviour *)
Definition one_of (s : bytes) (c : Z) : bool := existsb (Z.eqb c) s.
Definition same (a b : bytes) : bool := if list_eq_dec Z.eq_dec a b then true else false.
Definition reads (d : directive) (a : arg) : option value :=
  let long := same (len d) (bs "l") || same (len d) (bs "ll") in
  let int := same (len d) [] || same (len d) (bs "h") || same (len d) (bs "hh") in
  let bits := if same (len d) (bs "h") then 16 else if same (len d) (bs "hh") then 8 else 32 in
  match a with
  | A32 v => if one_of (bs "di") (conv d) && int then Some (VInt (wrap_i bits v))
             else if one_of (bs "uoxX") (conv d) && int then Some (VInt (wrap_u bits v))
             else if (conv d =? 99) && same (len d) [] then Some (VInt (wrap_u 8 v)) else None
  | A64 v => if one_of (bs "di") (conv d) && long then Some (VInt (wrap_i 64 v))
             else if one_of (bs "uoxX") (conv d) && long then Some (VInt (wrap_u 64 v)) else None
  | ADouble x => if one_of (bs "fFeEgGaA") (conv d) && (same (len d) [] || same (len d) (bs "l")) then Some (VFloat x) else None
  | AStr s => if (conv d =? 115) && same (len d) [] then Some (VStr (upto_nul s)) else None
  | AOther => None
  end.
Section Printf.
(** how one value is laid out: the flags, width, precision, specifier and value *)
Context (layout : bytes -> bytes -> option bytes -> Z -> value -> bytes).
(** The text written, every argument being used.  None: undefined behaviour, or
    arguments left over *)
Fixpoint printf (m : option (Z * directive)) (f : bytes) (args : list arg) : option bytes :=
  match f, m with
  | [], None => match args with [] => Some [] | _ => None end
  | [], Some _ => None
  | c :: r, None =>
      if c =? 0 then match args with [] => Some [] | _ => None end
      else if c =? 37 then printf (Some (0, bare 0)) r args
      else option_map (cons c) (printf None r args)
  | c :: r, Some (n, d) =>
      match next n d c with
      | More n' d' => printf (Some (n', d')) r args
      | Done d' =>
          if c =? 37 then
            if (n =? 0) && same (flags d) [] then option_map (cons 37) (printf None r args) else None
          else match args with
               | [] => None
               | a :: args' => match reads d' a with
                               | Some v => option_map (app (layout (flags d') (width d') (precision d') c v)) (printf None r args')
                               | None => None
                               end
               end
      end
  end.
(** Integers without flags are in decimal, text is written as it is *)
Definition plain_layout : Prop :=
  (forall v, layout [] [] None 100 (VInt v) = dec_signed v) /\
  (forall v, 0 <= v -> layout [] [] None 117 (VInt v) = dec v) /\
  (forall s, layout [] [] None 115 (VStr s) = s).
End Printf.

(** * Interpolated strings *)
(** Values that can be put into a string; of floats, arrays, maps and wide integers
    only the text made of them is of interest here *)
Inductive shown :=
| SInt (v : Z) | SUint (v : Z) | SByte (v : Z) | SChar (cp : Z) | SBool (b : bool) | SString (s : bytes)
| SEnum (v : Z) | SEnumString (s : bytes) | SUuid (s : bytes) | SError (message : option bytes)
| SFloat (text : bytes) | SWide (text : bytes) | SArray (text : bytes) | SMap (text : bytes).
Inductive shows : shown -> bytes -> Prop :=
| shows_int v : shows (SInt v) (dec_signed v)
| shows_uint v : shows (SUint v) (dec v)
| shows_byte v : shows (SByte v) (dec v)
| shows_char cp e : utf8 cp e -> shows (SChar cp) e
| shows_bool (b : bool) : shows (SBool b) (if b then bs "true" else bs "false")
| shows_string s : shows (SString s) s
| shows_enum v : shows (SEnum v) (dec_signed v)
| shows_enum_string s : shows (SEnumString s) s
| shows_uuid s : shows (SUuid s) s
| shows_message s : shows (SError (Some s)) s
| shows_no_error : shows (SError None) (bs "nil")
| shows_float t : shows (SFloat t) t
| shows_wide t : shows (SWide t) t
| shows_array t : shows (SArray t) t
| shows_map t : shows (SMap t) t.
(** The values a variable of the type can have *)
Definition in_type (v : shown) : Prop :=
  match v with SInt x | SEnum x => INT64_MIN <= x <= INT64_MAX | SUint x => 0 <= x <= UINT64_MAX | SByte x => 0 <= x < 256 | SChar x => 0 <= x <= 1114111 | _ => True end.
(** The pieces of an interpolated string: text, and expressions in braces *)
Inductive seg := Txt (its : list item) | Hole (e : bytes).
Definition seg_written (s : seg) : bytes := match s with Txt its => flat_map written its | Hole e => bs "${" ++ e ++ bs "}" end.
(** Braces in an expression are in pairs (those in quotes are counted too) *)
Inductive balanced : bytes -> Prop :=
| bal_nil : balanced []
| bal_char c s : c <> 123 -> c <> 125 -> balanced s -> balanced (c :: s)
| bal_pair a b : balanced a -> balanced b -> balanced (123 :: a ++ 125 :: b).
Definition blank (e : bytes) : Prop := forall c, In c e -> In c [32; 9; 10; 13].
(** Text and expressions: text is not empty and not next to text; a dollar sign
    before an opening brace begins an expression *)
Definition opens (i j : item) : Prop := i = Plain 36 /\ j = Plain 123.
Definition seg_ok (s : seg) : Prop :=
  match s with Txt its => its <> [] /\ Forall item_ok its /\ no_neighbours opens its | Hole e => balanced e /\ ~ In 0 e end.
Definition no_two_texts (ss : list seg) : Prop := forall p a b q, ss <> p ++ Txt a :: Txt b :: q.
(** The string: text as it denotes, values in their places *)
Inductive filled (val : bytes -> shown) : list seg -> bytes -> Prop :=
| filled_nil : filled val [] []
| filled_text its ss t : filled val ss t -> filled val (Txt its :: ss) (map denoted its ++ t)
| filled_hole e ss s t : shows (val e) s -> filled val ss t -> filled val (Hole e :: ss) (s ++ t).

(** * The format functions *)
(** Types of arguments: integers of a width, and the others *)
Inductive gty := GInt (bits : Z) | GUint (bits : Z) | GByte | GChar | GFloat | GString | GBool | GEnum | GOther.
Inductive gval := GZ (v : Z) | GD (d : Z) | GS (s : bytes) | GB (b : bool) | GX.
Definition typed (a : gty * gval) : Prop :=
  match a with
  | (GInt b, GZ v) => In b [8; 16; 32; 64; 128; 256] /\ in_i b v
  | (GUint b, GZ v) => In b [8; 16; 32; 64; 128; 256] /\ in_u b v
  | (GByte, GZ v) => 0 <= v < 256
  | (GChar, GZ v) => 0 <= v <= 1114111
  | (GFloat, GD _) | (GString, GS _) | (GBool, GB _) | (GEnum, _) | (GOther, _) => True
  | _ => False
  end.
(** The pieces of a format: characters and escapes, a doubled percent sign, a directive *)
Inductive piece := Text (i : item) | Percent | Dir (d : directive).
Definition spec_written (d : directive) : bytes :=
  flags d ++ width d ++ (match precision d with Some p => 46 :: p | None => [] end) ++ len d ++ [conv d].
Definition piece_written (p : piece) : bytes := match p with Text i => written i | Percent => [37; 37] | Dir d => 37 :: spec_written d end.
(** A directive as the manual allows it: flags, width, precision, length modifier, known letter *)
Definition numeral_ (w : bytes) : Prop := Forall (fun c => isdigit c = true) w.
Definition dir_ok (d : directive) : Prop :=
  Forall (fun c => is_flag c = true) (flags d) /\ numeral_ (width d) /\ hd 1 (width d) <> 48 /\
  (match precision d with Some p => numeral_ p | None => True end) /\
  In (len d) [[]; bs "h"; bs "hh"; bs "l"; bs "ll"; bs "L"] /\ In (conv d) (bs "diuxXofgeGEscb").
Definition piece_ok (p : piece) : Prop :=
  match p with Text i => item_ok i /\ i <> Plain 37 | Percent => True | Dir d => dir_ok d end.
(** The type of argument a directive is for *)
Definition takes (c : Z) (t : gty) : Prop :=
  match t with
  | GInt _ => In c (bs "dixXocb")
  | GUint _ => In c (bs "uxXob")
  | GByte => In c (bs "diuxXob")
  | GChar => In c (bs "dicb")
  | GFloat => In c (bs "fgeGEb")
  | GString => In c (bs "sb")
  | GBool | GEnum => c = 98
  | GOther => False
  end.
Definition dirs (ps : list piece) : list directive := flat_map (fun p => match p with Dir d => [d] | _ => [] end) ps.
(** The text: characters as they denote, a percent sign, values laid out as asked *)
Section Shown.
Context (layout : bytes -> bytes -> option bytes -> Z -> value -> bytes).
Definition plain_value (v : gval) : option value := match v with GZ v => Some (VInt v) | GD d => Some (VFloat d) | GS s => Some (VStr s) | _ => None end.
Inductive formatted : list piece -> list (gty * gval) -> bytes -> Prop :=
| fmt_end : formatted [] [] []
| fmt_text i ps args t : formatted ps args t -> formatted (Text i :: ps) args (denoted i :: t)
| fmt_percent ps args t : formatted ps args t -> formatted (Percent :: ps) args (37 :: t)
| fmt_dir d ps ty v x args t : plain_value v = Some x -> formatted ps args t ->
    formatted (Dir d :: ps) ((ty, v) :: args) (layout (flags d) (width d) (precision d) (conv d) x ++ t).
End Shown.
(** The arguments C takes from the call: how many directives it reads, or None if
    one of them is not a directive of C *)
Definition c_conversions : bytes := bs "diouxXfFeEgGaAcsp".
Fixpoint directives (m : option (Z * directive)) (f : bytes) : option (list directive) :=
  match f, m with
  | [], None => Some []
  | [], Some _ => None
  | c :: r, None => if c =? 0 then Some [] else if c =? 37 then directives (Some (0, bare 0)) r else directives None r
  | c :: r, Some (n, d) =>
      match next n d c with
      | More n' d' => directives (Some (n', d')) r
      | Done d' => if c =? 37 then if (n =? 0) && same (flags d) [] then directives None r else None
                   else if one_of c_conversions c then option_map (cons d') (directives None r) else None
      end
  end.
(** Directives and arguments C lays out as they are: the directive reads an integer of
    the size that is passed, and the value is one it can show *)
Definition sound (d : directive) (a : gty * gval) : Prop :=
  let c := conv d in let long := len d = bs "l" \/ len d = bs "ll" in
  match a with
  | (GInt b, GZ v) =>
      (b = 64 /\ In c (bs "di") /\ (len d = [] \/ long)) \/ (b = 64 /\ In c (bs "xXo") /\ long /\ 0 <= v) \/
      (b <= 32 /\ In c (bs "xXo") /\ len d = [] /\ 0 <= v) \/ (b <= 32 /\ c = 99 /\ len d = [] /\ 0 <= v < 256) \/
      (b <= 16 /\ In c (bs "di") /\ len d = bs "h") \/ (b = 8 /\ In c (bs "di") /\ len d = bs "hh")
  | (GUint b, GZ v) =>
      (b = 64 /\ c = 117 /\ (len d = [] \/ long)) \/ (b = 64 /\ In c (bs "xXo") /\ long) \/ (b <= 32 /\ In c (bs "xXo") /\ len d = []) \/
      (b <= 16 /\ In c (bs "uxXo") /\ len d = bs "h") \/ (b = 8 /\ In c (bs "uxXo") /\ len d = bs "hh")
  | (GByte, GZ v) => (In c (bs "diuxXo") /\ (len d = [] \/ len d = bs "h")) \/ (In c (bs "uxXo") /\ len d = bs "hh")
  | (GChar, GZ v) => len d = [] /\ (In c (bs "di") \/ (c = 99 /\ v < 256))
  | (GFloat, GD _) => In c (bs "fgeGE") /\ (len d = [] \/ len d = bs "l")
  | (GString, GS s) => c = 115 /\ len d = [] /\ ~ In 0 s
  | _ => False
  end.
(** Formats character by character *)
Definition char_piece (p : piece) : Prop := match p with Text (Plain c) => c <> 37 | Text _ => False | Percent => True | Dir d => dir_ok d end.
(** The items of the source *)
Definition items (ps : list piece) : list item := flat_map (fun p => match p with Text i => [i] | Percent => [Plain 37; Plain 37] | Dir d => map Plain (37 :: spec_written d) end) ps.
(** Characters that are themselves in C: not zero, not a percent sign written as \x25, not \$ *)
Definition text_ok (i : item) : Prop := denoted i <> 0 /\ denoted i <> 37 /\ (forall v, i <> Escape 36 v).
(** Text that C's literals and printf take as it is: without two question marks in a row, an escaped backslash before a
    dollar sign, \xNN before a hexadecimal digit, zero bytes, \x25 *)
Definition text_good (its : list item) : Prop := free_of (bs "??") (flat_map written its) /\ no_neighbours bad_dollar its /\ no_neighbours bad_hex its /\ Forall (fun i => ~ bad_item i) its.
Definition seg_good (s : seg) : Prop := match s with Txt its => text_good its | Hole _ => True end.
