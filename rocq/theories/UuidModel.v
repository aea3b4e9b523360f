(** Model of grayc/src/stdlib/uuid.c and grayc/src/stdlib/bytes.c.  The random source
    is an argument: [Some b] is 16 bytes delivered, [None] a failed read. *)
From Verif Require Import Base EncodingModel.

Definition HYPHEN : Z := 45.
Definition b_at (b : bytes) (i : nat) : Z := nth i b 0.
(** uuid.c:42-49 *)
Definition format_hyphenated (b : bytes) : bytes :=
  let h := fun i => hex2 false (b_at b i) in
  h 0%nat ++ h 1%nat ++ h 2%nat ++ h 3%nat ++ [HYPHEN] ++ h 4%nat ++ h 5%nat ++ [HYPHEN] ++
  h 6%nat ++ h 7%nat ++ [HYPHEN] ++ h 8%nat ++ h 9%nat ++ [HYPHEN] ++
  h 10%nat ++ h 11%nat ++ h 12%nat ++ h 13%nat ++ h 14%nat ++ h 15%nat.
Fixpoint upd (b : bytes) (i : nat) (v : Z) : bytes :=
  match b, i with
  | [], _ => []
  | _ :: r, O => v :: r
  | x :: r, S k => x :: upd r k v
  end.
(** uuid.c:58-59, 110-111 *)
Definition stamp (version : Z) (b : bytes) : bytes :=
  let b := upd b 6 (Z.lor (Z.land (b_at b 6) 15) version) in
  upd b 8 (Z.lor (Z.land (b_at b 8) 63) 128).
(** uuid.c:51-64, and its alias :80-83 *)
Definition generate (rnd : option bytes) : bytes :=
  match rnd with None => [] | Some b => format_hyphenated (stamp 64 b) end.
(** uuid.c:100-102: milliseconds since the epoch, in uint64_t *)
Definition now_ms (sec nsec : Z) : Z := wrap_u 64 (wrap_u 64 sec * 1000 + wrap_u 64 (nsec / 1000000)).
(** uuid.c:104-109 *)
Definition put_ms (ms : Z) (b : bytes) : bytes :=
  let byte n := wrap_u 8 (Z.shiftr ms n) in
  upd (upd (upd (upd (upd (upd b 0 (byte 40)) 1 (byte 32)) 2 (byte 24)) 3 (byte 16)) 4 (byte 8)) 5 (byte 0).
(** uuid.c:92-117 *)
Definition generate_time_ordered (rnd : option bytes) (sec nsec : Z) : bytes :=
  match rnd with None => [] | Some b => format_hyphenated (stamp 112 (put_ms (now_ms sec nsec) b)) end.
(** uuid.c:66-78: buf has 33 bytes; fewer than 32 copied bytes leaves it partly
    uninitialised, more than 33 overflows it (byte 32 is overwritten with NUL). *)
Definition generate_compact (id : bytes) : res bytes :=
  if negb (Nat.eqb (length id) 36) then Ok []
  else
    let out := filter (fun c => negb (c =? HYPHEN)) id in
    if Nat.ltb 33 (length out) then UB
    else if Nat.ltb (length out) 32 then UB
    else Ok (firstn 32 out).
(** uuid.c:126 *)
Definition uuid_hex (c : Z) : bool :=
  ((48 <=? c) && (c <=? 57)) || ((97 <=? c) && (c <=? 102)) || ((65 <=? c) && (c <=? 70)).
(** uuid.c:121-129, the loop from index i *)
Fixpoint valid_loop (i : nat) (s : bytes) : bool :=
  match s with
  | [] => true
  | c :: r =>
      (if Nat.eqb i 8 || Nat.eqb i 13 || Nat.eqb i 18 || Nat.eqb i 23 then c =? HYPHEN else uuid_hex c)
      && valid_loop (S i) r
  end.
(** uuid.c:119-131 *)
Definition is_valid (s : bytes) : bool := if negb (Nat.eqb (length s) 36) then false else valid_loop 0 s.
(** uuid.c:143 *)
Definition uuid_low (c : Z) : Z := if (65 <=? c) && (c <=? 70) then c - 65 + 97 else c.
(** uuid.c:136-150.  The panic has no code (gray_builtin_panic_msg): [Panic 0]. *)
Definition parse (s : bytes) : res bytes := if is_valid s then Ok (map uuid_low s) else Panic 0.
(** uuid.c:152-160 *)
Definition uuid_to_string (id : bytes) : bytes := id.
Definition uuid_nil : bytes := bs "00000000-0000-0000-0000-000000000000".

(** ---- bytes.c ---- *)
(** bytes.c:16-27 *)
Definition bytes_from_string (s : bytes) : bytes := s.
Definition bytes_to_string (b : bytes) : bytes := b.
(** isspace in the C locale *)
Definition isspace (c : Z) : bool := (c =? 32) || ((9 <=? c) && (c <=? 13)).
Fixpoint skip_space (s : bytes) : bytes :=
  match s with c :: r => if isspace c then skip_space r else s | [] => [] end.
(** C11 7.21.6.2: sscanf(s, "%2x", &byte) on a NUL-terminated s: skip white space, then
    at most two characters: an optional sign and hexadecimal digits (at least one).  A
    failed conversion stores nothing, so the uninitialised [byte] is read: [UB].  A "0x"
    prefix cut by the field width is left to the C library; it is [UB] here too. *)
Definition digits2 (s : bytes) (w : nat) : option Z :=
  match s with
  | a :: r =>
      if isxdigit a then
        match w, r with
        | S (S _), c :: _ =>
            if (a =? 48) && ((c =? 120) || (c =? 88)) then None
            else if isxdigit c then Some (hex_value a * 16 + hex_value c) else Some (hex_value a)
        | _, _ => Some (hex_value a)
        end
      else None
  | [] => None
  end.
Definition scan_02x (s : bytes) : option Z :=
  match skip_space s with
  | c :: r => if c =? 45 then option_map (fun v => wrap_u 32 (- v)) (digits2 r 1)
              else if c =? 43 then digits2 r 1
              else digits2 (c :: r) 2
  | [] => None
  end.
(** the C string read by sscanf ends at the first NUL *)
Fixpoint c_string (s : bytes) : bytes :=
  match s with c :: r => if c =? 0 then [] else c :: c_string r | [] => [] end.
(** bytes.c:32-37: one iteration per pair, scanning the suffix that starts at the pair *)
Fixpoint from_hex_loop (s : bytes) : res bytes :=
  match s with
  | _ :: ((_ :: r) as _) =>
      match scan_02x (c_string s) with
      | Some v => rmap (cons (wrap_u 8 v)) (from_hex_loop r)
      | None => UB
      end
  | _ => Ok []
  end.
(** bytes.c:29-39 *)
Definition bytes_from_hex (s : bytes) : res bytes := from_hex_loop s.
(** bytes.c:41-51: int32_t output_length = bytes->len * 2 *)
Definition bytes_to_hex (b : bytes) : res bytes :=
  if INT32_MAX <? Z.of_nat (length b) * 2 then UB else Ok (flat_map (hex2 false) b).
(** bytes.c:53-61 *)
Definition bytes_from_base64 (s : bytes) : res bytes := rmap bytes_from_string (base64_decode s).
Definition bytes_to_base64 (b : bytes) : res bytes := base64_encode (bytes_to_string b).
