(** Model of grayc/src/stdlib/json.c and of the json calls generated by codegen.c.  A pointer s
    into the text is the list of bytes from s to end.  A map given to an encoder is the list of its
    live entries in table order (the loops over states[i] == 1).  size_t sums are not wrapped (the
    texts would need 2^64 bytes); int positions past INT32_MAX are UB.  %g of a float is the text
    passed in: the printed digits of floats are not modelled. *)
From Verif Require Import Base EncodingModel StringsModel StrconvModel Decimal MapSpec.

(** ** Encoder *)
(** json.c:37-50: what one byte is written as *)
Definition esc_byte (c : Z) : bytes :=
  if c =? 34 then [92; 34]
  else if c =? 92 then [92; 92]
  else if c =? 8 then [92; 98]
  else if c =? 12 then [92; 102]
  else if c =? 10 then [92; 110]
  else if c =? 13 then [92; 114]
  else if c =? 9 then [92; 116]
  else if c <? 32 then [92; 117; 48; 48; hex_digit false (Z.shiftr c 4); hex_digit false (Z.land c 15)]
  else [c].
(** json.c:33-53 json_append_escaped: the bytes appended *)
Definition escaped (s : bytes) : bytes := [34] ++ flat_map esc_byte s ++ [34].
(** json.c:21-31 json_escaped_len *)
Definition esc_byte_len (c : Z) : Z :=
  if (c =? 34) || (c =? 92) then 2
  else if (c =? 8) || (c =? 12) || (c =? 10) || (c =? 13) || (c =? 9) then 2
  else if c <? 32 then 6
  else 1.
Definition escaped_len (s : bytes) : Z := fold_left (fun n c => n + esc_byte_len c) s 2.

(** A value to encode: a string, a number whose printf text is t, a bool. *)
Inductive jval := VStr (s : bytes) | VNum (t : bytes) | VBool (b : bool).
Definition bool_text (b : bool) : bytes := if b then bs "true" else bs "false".
(** pass 1 of the encoders: bound is 21 for int (json.c:98, 187) and 24 for float (116, 222) *)
Definition val_need (bound : Z) (v : jval) : Z :=
  match v with VStr s => escaped_len s | VNum _ => bound | VBool b => if b then 4 else 5 end.
(** a write of x at buf[pos], pos being the length of buf; the buffer has cap bytes and pos is an int *)
Definition wr (cap : Z) (x buf : bytes) : res bytes :=
  if Z.of_nat (length buf + length x) <=? Z.min cap INT32_MAX then Ok (buf ++ x) else UB.
(** pass 2: json_append_escaped; snprintf with its length check (json.c:106-108): on a misfit pos
    becomes need and the closing bracket and NUL are written at need and need + 1, past the buffer;
    memcpy of true/false (json.c:165-166) *)
Definition wr_val (need : Z) (v : jval) (buf : bytes) : res bytes :=
  match v with
  | VStr s => wr (need + 1) (escaped s) buf
  | VNum t =>
      if (0 <? Z.of_nat (length t)) && (Z.of_nat (length t) <? need + 1 - Z.of_nat (length buf))
      then wr (need + 1) t buf else UB
  | VBool b => wr (need + 1) (bool_text b) buf
  end.
(** the closing bracket and the NUL, json.c:88-91 *)
Definition finish (need : Z) (x buf : bytes) : res bytes :=
  rbind (wr (need + 1) x buf) (fun buf =>
  if Z.of_nat (length buf) <? need + 1 then Ok buf else UB).

(** json.c:96-175 gray_json_encode_array_int / float / string / bool.  The int and float encoders
    compute 2 + len * (bound + 1) - 1, the sum below in closed form. *)
Definition array_need (bound : Z) (vs : list jval) : Z :=
  fold_left (fun n v => n + val_need bound v) vs (2 + Z.max 0 (Z.of_nat (length vs) - 1)).
Fixpoint array_loop (need : Z) (first : bool) (vs : list jval) (buf : bytes) : res bytes :=
  match vs with
  | [] => Ok buf
  | v :: vs =>
      rbind (if first then Ok buf else wr (need + 1) [44] buf) (fun buf =>
      rbind (wr_val need v buf) (array_loop need false vs))
  end.
Definition encode_array (bound : Z) (vs : list jval) : res bytes :=
  let need := array_need bound vs in
  rbind (wr (need + 1) [91] []) (fun buf =>
  rbind (array_loop need true vs buf) (finish need [93])).

(** json.c:61-92 gray_json_encode_map and 179-276 gray_json_encode_map_int / float / bool *)
Definition map_need (bound : Z) (es : list (bytes * jval)) : Z :=
  fold_left (fun n e => n + (escaped_len (fst e) + 1 + val_need bound (snd e))) es
    (2 + Z.max 0 (Z.of_nat (length es) - 1)).
Fixpoint map_loop (need : Z) (first : bool) (es : list (bytes * jval)) (buf : bytes) : res bytes :=
  match es with
  | [] => Ok buf
  | (k, v) :: es =>
      rbind (if first then Ok buf else wr (need + 1) [44] buf) (fun buf =>
      rbind (wr (need + 1) (escaped k) buf) (fun buf =>
      rbind (wr (need + 1) [58] buf) (fun buf =>
      rbind (wr_val need v buf) (map_loop need false es))))
  end.
Definition encode_map (bound : Z) (es : list (bytes * jval)) : res bytes :=
  let need := map_need bound es in
  rbind (wr (need + 1) [123] []) (fun buf =>
  rbind (map_loop need true es buf) (finish need [125])).

(** json.c:488-524 gray_json_pretty_map; strings only.  The bytes written are checked against
    the size the arena really hands out, need + 1 rounded up to 8 (runtime.c ALIGN_UP). *)
Definition indent_of (indent_size : Z) : Z := if 0 <? indent_size then indent_size else 0.
Definition pretty_need (indent_size : Z) (es : list (bytes * bytes)) : Z :=
  fold_left (fun n e => n + (indent_of indent_size + escaped_len (fst e) + 2 + escaped_len (snd e))) es
    (3 + 2 * Z.max 0 (Z.of_nat (length es) - 1)) + (if 0 <? Z.of_nat (length es) then 1 else 0).
Definition align8 (n : Z) : Z := (n + 7) / 8 * 8.
Fixpoint pretty_loop (cap indent : Z) (first : bool) (es : list (bytes * bytes)) (buf : bytes) : res bytes :=
  match es with
  | [] => Ok buf
  | (k, v) :: es =>
      rbind (if first then Ok buf else wr cap [44; 10] buf) (fun buf =>
      rbind (wr cap (List.repeat 32 (Z.to_nat indent)) buf) (fun buf =>
      rbind (wr cap (escaped k) buf) (fun buf =>
      rbind (wr cap [58; 32] buf) (fun buf =>
      rbind (wr cap (escaped v) buf) (pretty_loop cap indent false es)))))
  end.
Definition pretty_map (indent_size : Z) (es : list (bytes * bytes)) : res bytes :=
  let cap := align8 (pretty_need indent_size es + 1) in
  rbind (wr cap [123; 10] []) (fun buf =>
  rbind (pretty_loop cap (indent_of indent_size) true es buf) (fun buf =>
  rbind (wr cap [10; 125] buf) (fun buf =>
  if Z.of_nat (length buf) <? cap then Ok buf else UB))).

(** codegen.c:4738-4756: json.encode of an int, a bool, a string.  The string is put between
    quotes as it is; the int32 sum len + 3 overflows for the longest strings. *)
Definition encode_int (n : Z) : bytes := dec_signed n.
Definition encode_bool (b : bool) : bytes := bool_text b.
Definition encode_string (s : bytes) : res bytes :=
  if INT32_MAX <? Z.of_nat (length s) + 3 then UB else Ok ([34] ++ s ++ [34]).

(** ** Decoder *)
(** json.c:280-282 skip_ws, json.c:354-356 v_skip_ws *)
Fixpoint skip_ws (s : bytes) : bytes :=
  match s with c :: r => if isspace c then skip_ws r else s | [] => [] end.
(** json.c:288-292: to the closing quote, over backslash pairs.  None: a backslash was the last
    byte and s ends up past end, so that line 292 copies a byte after the text. *)
Fixpoint str_scan (s : bytes) : option (bytes * bytes) :=
  match s with
  | [] => Some ([], [])
  | c :: r =>
      if c =? 34 then Some ([], s)
      else if c =? 92 then
        match r with
        | [] => None
        | d :: r' => match str_scan r' with Some (x, t) => Some (c :: d :: x, t) | None => None end
        end
      else match str_scan r with Some (x, t) => Some (c :: x, t) | None => None end
  end.
(** json.c:284-295 parse_json_string; the callers have found s < end *)
Definition parse_json_string (s : bytes) : res (bytes * bytes) :=
  match s with
  | [] => UB
  | c :: r =>
      if negb (c =? 34) then Ok ([], s)
      else match str_scan r with Some (x, t) => Ok (x, tl t) | None => UB end
  end.
(** json.c:307 *)
Definition is_delim (c : Z) : bool := (c =? 44) || (c =? 125) || (c =? 93) || isspace c.
Fixpoint word_scan (s : bytes) : bytes * bytes :=
  match s with
  | [] => ([], [])
  | c :: r => if is_delim c then ([], s) else let '(x, t) := word_scan r in (c :: x, t)
  end.
(** json.c:297-309 *)
Definition parse_json_value_as_string (s : bytes) : res (bytes * bytes) :=
  match skip_ws s with
  | [] => Ok ([], [])
  | c :: r => if c =? 34 then parse_json_string (c :: r) else Ok (word_scan (c :: r))
  end.
Definition skip_char (x : Z) (s : bytes) : bytes :=
  match s with c :: r => if c =? x then r else s | [] => [] end.
(** equality of string keys (maps.c gray_map key comparison: length and memcmp) *)
Definition beq (a b : bytes) : bool := if list_eq_dec Z.eq_dec a b then true else false.
Definition strmap := list (bytes * bytes).
(** json.c:319-332.  gray_map_set is the dictionary update MapProps proves it to be. *)
Fixpoint decode_loop (fuel : nat) (s : bytes) (m : strmap) : res strmap :=
  match fuel with
  | O => NoFuel
  | S n =>
      match skip_ws s with
      | [] => Ok m
      | c :: r =>
          if c =? 125 then Ok m else
          rbind (parse_json_string (c :: r)) (fun '(key, s) =>
          rbind (parse_json_value_as_string (skip_char 58 (skip_ws s))) (fun '(val, s) =>
          decode_loop n (skip_char 44 (skip_ws s)) (d_set beq m key val)))
      end
  end.
(** json.c:311-333; fuel bounds the number of rounds of the while loop *)
Definition decode (fuel : nat) (t : bytes) : res strmap :=
  match skip_ws t with
  | c :: r => if c =? 123 then decode_loop fuel r [] else Ok []
  | [] => Ok []
  end.

(** ** Validator: None is false, Some r is true with *s at r *)
(** json.c:358-388 v_string_lit, after the opening quote *)
Definition simple_esc (e : Z) : bool :=
  (e =? 34) || (e =? 92) || (e =? 47) || (e =? 98) || (e =? 102) || (e =? 110) || (e =? 114) || (e =? 116).
Fixpoint v_chars (s : bytes) : option bytes :=
  match s with
  | [] => None
  | c :: r =>
      if c =? 34 then Some r
      else if c =? 92 then
        match r with
        | [] => None
        | e :: r1 =>
            if simple_esc e then v_chars r1
            else if e =? 117 then
              match r1 with
              | a :: b :: c :: d :: r5 =>
                  if isxdigit a && isxdigit b && isxdigit c && isxdigit d then v_chars r5 else None
              | _ => None
              end
            else None
        end
      else if c <? 32 then None
      else v_chars r
  end.
Definition v_string_lit (s : bytes) : option bytes :=
  match s with c :: r => if c =? 34 then v_chars r else None | [] => None end.
(** json.c:390-417 *)
Fixpoint v_digits (s : bytes) : bytes :=
  match s with c :: r => if isdigit c then v_digits r else s | [] => [] end.
Definition v_digits1 (s : bytes) : option bytes :=
  match s with c :: _ => if isdigit c then Some (v_digits s) else None | [] => None end.
Definition v_int (s : bytes) : option bytes :=
  match s with
  | [] => None
  | c :: r => if c =? 48 then Some r
              else if (49 <=? c) && (c <=? 57) then Some (v_digits s) else None
  end.
Definition v_frac (s : bytes) : option bytes :=
  match s with c :: r => if c =? 46 then v_digits1 r else Some s | [] => Some [] end.
Definition v_exp (s : bytes) : option bytes :=
  match s with
  | c :: r =>
      if (c =? 101) || (c =? 69) then
        v_digits1 (match r with x :: r' => if (x =? 43) || (x =? 45) then r' else r | [] => r end)
      else Some s
  | [] => Some []
  end.
Definition v_number (s : bytes) : option bytes :=
  match v_int (skip_char 45 s) with
  | None => None
  | Some s => match v_frac s with None => None | Some s => v_exp s end
  end.
(** json.c:419-425 *)
Fixpoint v_literal (lit s : bytes) : option bytes :=
  match lit, s with
  | [], _ => Some s
  | l :: lit, c :: s => if l =? c then v_literal lit s else None
  | _, [] => None
  end.
Definition MAX_DEPTH : Z := 512.
(** json.c:460-474 v_value, 427-441 v_array (v_elems is its for loop), 443-458 v_object
    (v_members is its for loop).  Fuel bounds the recursion only. *)
Fixpoint v_value (fuel : nat) (s : bytes) (depth : Z) : res (option bytes) :=
  match fuel with
  | O => NoFuel
  | S n =>
      if MAX_DEPTH <? depth then Ok None else
      match skip_ws s with
      | [] => Ok None
      | c :: r =>
          if c =? 123 then
            match skip_ws r with
            | x :: r' => if x =? 125 then Ok (Some r') else v_members n (x :: r') depth
            | [] => v_members n [] depth
            end
          else if c =? 91 then
            match skip_ws r with
            | x :: r' => if x =? 93 then Ok (Some r') else v_elems n (x :: r') depth
            | [] => v_elems n [] depth
            end
          else if c =? 34 then Ok (v_string_lit (c :: r))
          else if (c =? 45) || isdigit c then Ok (v_number (c :: r))
          else if c =? 116 then Ok (v_literal (bs "true") (c :: r))
          else if c =? 102 then Ok (v_literal (bs "false") (c :: r))
          else if c =? 110 then Ok (v_literal (bs "null") (c :: r))
          else Ok None
      end
  end
with v_elems (fuel : nat) (s : bytes) (depth : Z) : res (option bytes) :=
  match fuel with
  | O => NoFuel
  | S n =>
      rbind (v_value n (skip_ws s) (depth + 1)) (fun o =>
      match o with
      | None => Ok None
      | Some s =>
          match skip_ws s with
          | [] => Ok None
          | c :: r => if c =? 44 then v_elems n r depth
                      else if c =? 93 then Ok (Some r) else Ok None
          end
      end)
  end
with v_members (fuel : nat) (s : bytes) (depth : Z) : res (option bytes) :=
  match fuel with
  | O => NoFuel
  | S n =>
      match v_string_lit (skip_ws s) with
      | None => Ok None
      | Some s =>
          match skip_ws s with
          | [] => Ok None
          | x :: r =>
              if negb (x =? 58) then Ok None else
              rbind (v_value n (skip_ws r) (depth + 1)) (fun o =>
              match o with
              | None => Ok None
              | Some s =>
                  match skip_ws s with
                  | [] => Ok None
                  | c :: r => if c =? 44 then v_members n r depth
                              else if c =? 125 then Ok (Some r) else Ok None
                  end
              end)
          end
      end
  end.
(** json.c:476-486 *)
Definition valid_fuel (t : bytes) : nat := 2 * length t + 2.
Definition is_valid (t : bytes) : res bool :=
  match skip_ws t with
  | [] => Ok false
  | s => rmap (fun o => match o with
                        | None => false
                        | Some s => match skip_ws s with [] => true | _ => false end
                        end) (v_value (valid_fuel t) s 0)
  end.

(** json.c:585-600: the empty text and texts that are not valid give an error (1, 2) *)
Definition decode_result (fuel : nat) (t : bytes) : res (strmap + Z) :=
  match t with
  | [] => Ok (inr 1)
  | _ => rbind (is_valid t) (fun ok => if ok then rmap inl (decode fuel t) else Ok (inr 2))
  end.

(** ** Splitter for arrays of structs, json.c:526-581 *)
(** json.c:544-568: the scan of one element *)
Fixpoint elem_scan (in_string : bool) (brace bracket : Z) (s : bytes) : bytes * bytes :=
  match s with
  | [] => ([], [])
  | c :: r =>
      let go st b k := let '(x, t) := elem_scan st b k r in (c :: x, t) in
      if in_string then
        if c =? 92 then
          match r with
          | [] => ([c], [])
          | d :: r' => let '(x, t) := elem_scan true brace bracket r' in (c :: d :: x, t)
          end
        else go (negb (c =? 34)) brace bracket
      else if c =? 34 then go true brace bracket
      else if c =? 123 then go false (brace + 1) bracket
      else if c =? 125 then go false (brace - 1) bracket
      else if c =? 91 then go false brace (bracket + 1)
      else if c =? 93 then
        if bracket =? 0 then ([], s) else go false brace (bracket - 1)
      else if (c =? 44) && (brace =? 0) && (bracket =? 0) then ([], s)
      else go false brace bracket
  end.
Fixpoint split_loop (fuel : nat) (s : bytes) (acc : list bytes) : res (list bytes) :=
  match fuel with
  | O => NoFuel
  | S n =>
      match skip_ws s with
      | [] => Ok acc
      | c :: r =>
          if c =? 93 then Ok acc else
          let '(e, t) := elem_scan false 0 0 (c :: r) in
          split_loop n (skip_char 44 (skip_ws t)) (match e with [] => acc | _ => acc ++ [e] end)
      end
  end.
Definition split_array (t : bytes) : res (list bytes) :=
  match skip_ws t with
  | c :: r => if c =? 91 then split_loop (S (length r)) r [] else Ok []
  | [] => Ok []
  end.

(** ** #json structs, codegen.c:9738-9829.  A field has a name and a value of one of the handled
    types, or FOther for a field type the generator does not handle (u8, an array, ...). *)
Inductive fval := FStr (s : bytes) | FInt (n : Z) | FBool (b : bool) | FOther.
Definition field_need (f : bytes * fval) : Z :=
  2 + Z.of_nat (length (fst f)) + 2 +
  match snd f with FStr s => escaped_len s | FInt _ => 21 | FBool _ => 5 | FOther => 0 end.
Definition struct_need (fs : list (bytes * fval)) : Z :=
  fold_left (fun n f => n + field_need f) fs (2 + 2 * Z.max 0 (Z.of_nat (length fs) - 1)).
(** codegen.c:9800-9822; pos advances by the text of an int whether or not it fitted *)
Definition field_text (v : fval) : bytes :=
  match v with FStr s => escaped s | FInt n => dec_signed n | FBool b => bool_text b | FOther => [] end.
Fixpoint struct_loop (cap : Z) (first : bool) (fs : list (bytes * fval)) (buf : bytes) : res bytes :=
  match fs with
  | [] => Ok buf
  | (k, v) :: fs =>
      rbind (if first then Ok buf else wr cap [44; 32] buf) (fun buf =>
      rbind (wr cap ([34] ++ k ++ [34; 58; 32]) buf) (fun buf =>
      rbind (wr cap (field_text v) buf) (struct_loop cap false fs)))
  end.
(** codegen.c:9765-9829 gray_json_stringify_<Name> *)
Definition stringify (fs : list (bytes * fval)) : res bytes :=
  let cap := struct_need fs + 1 in
  rbind (wr cap [123] []) (fun buf =>
  rbind (struct_loop cap true fs buf) (fun buf =>
  rbind (wr cap [125] buf) (fun buf =>
  if Z.of_nat (length buf) <? cap then Ok buf else UB))).
(** codegen.c:9741-9762 gray_json_parse_<Name>: the struct starts zeroed; a missing key leaves the field zero *)
Inductive ftype := TStr | TInt | TBool | TOther.
Definition zero_of (ty : ftype) : fval :=
  match ty with TStr => FStr [] | TInt => FInt 0 | TBool => FBool false | TOther => FOther end.
Definition read_field (m : strmap) (f : bytes * ftype) : res (bytes * fval) :=
  match d_get beq m (fst f) with
  | None => Ok (fst f, zero_of (snd f))
  | Some v =>
      match snd f with
      | TStr => Ok (fst f, FStr v)
      | TInt => rmap (fun n => (fst f, FInt n)) (cast_int v)
      | TBool => Ok (fst f, FBool (beq v (bs "true")))
      | TOther => Ok (fst f, FOther)
      end
  end.
Fixpoint read_fields (m : strmap) (fs : list (bytes * ftype)) : res (list (bytes * fval)) :=
  match fs with
  | [] => Ok []
  | f :: fs => rbind (read_field m f) (fun x => rmap (cons x) (read_fields m fs))
  end.
Definition parse_struct (fuel : nat) (fs : list (bytes * ftype)) (t : bytes) : res (list (bytes * fval)) :=
  rbind (decode fuel t) (fun m => read_fields m fs).
