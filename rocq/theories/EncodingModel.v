(** Model of grayc/src/stdlib/encoding.c (base64, hex, URL encoding).

    Simplifications common to the file: a loop [for (i = 0; i < s.len; i += k)] is
    recursion on the suffix [s[i..]]; an output buffer filled with [out[j++] = ...]
    is the list of bytes written, in order; arena allocation always succeeds.
    int32_t arithmetic on lengths that would overflow (undefined behaviour in C) is
    [UB]. *)
From Verif Require Import Base.

(** encoding.c:16 *)
Definition b64_table : bytes :=
  bs "ABCDEFGHIJKLMNOPQRSTUVWXYZabcdefghijklmnopqrstuvwxyz0123456789+/".

(** [b64_table[k]] for an index already masked with 0x3F (encoding.c:27-30); the
    table has 64 entries so the default is never taken. *)
Definition b64_char (k : Z) : Z := nth (Z.to_nat k) b64_table 0.

Definition EQ : Z := 61. (* '=' *)

(** encoding.c:26  triple = (a << 16) | (b << 8) | c, computed in uint32_t *)
Definition enc_triple (a b c : Z) : Z :=
  Z.lor (Z.lor (Z.shiftl a 16) (Z.shiftl b 8)) c.

(** encoding.c:22-31, the loop body on the suffix starting at i *)
Fixpoint b64_encode_loop (s : bytes) : bytes :=
  match s with
  | [] => []
  | [a] =>
      let t := enc_triple a 0 0 in
      [b64_char (Z.land (Z.shiftr t 18) 63); b64_char (Z.land (Z.shiftr t 12) 63); EQ; EQ]
  | [a; b] =>
      let t := enc_triple a b 0 in
      [b64_char (Z.land (Z.shiftr t 18) 63); b64_char (Z.land (Z.shiftr t 12) 63);
       b64_char (Z.land (Z.shiftr t 6) 63); EQ]
  | a :: b :: c :: rest =>
      let t := enc_triple a b c in
      b64_char (Z.land (Z.shiftr t 18) 63) :: b64_char (Z.land (Z.shiftr t 12) 63) ::
      b64_char (Z.land (Z.shiftr t 6) 63) :: b64_char (Z.land t 63) ::
      b64_encode_loop rest
  end.

(** encoding.c:19  int32_t output_length = ((s.len + 2) / 3) * 4 *)
Definition b64_output_length (len : Z) : res Z :=
  if INT32_MAX <? len + 2 then UB
  else if INT32_MAX <? ((len + 2) / 3) * 4 then UB
  else Ok (((len + 2) / 3) * 4).

(** encoding.c:18-35 *)
Definition base64_encode (s : bytes) : res bytes :=
  rbind (b64_output_length (Z.of_nat (length s))) (fun _ => Ok (b64_encode_loop s)).

(** encoding.c:37-44 *)
Definition b64_val (c : Z) : Z :=
  if (65 <=? c) && (c <=? 90) then c - 65
  else if (97 <=? c) && (c <=? 122) then c - 97 + 26
  else if (48 <=? c) && (c <=? 57) then c - 48 + 52
  else if c =? 43 then 62
  else if c =? 47 then 63
  else -1.

(** encoding.c:86-87 *)
Definition dec_triple (a b c d : Z) : Z :=
  Z.lor (Z.lor (Z.lor (Z.shiftl a 18) (Z.shiftl b 12)) (Z.shiftl c 6)) d.

(** encoding.c:63-91: one quad per iteration; [rest = []] is [last_quad].
    The caller guarantees the length is a multiple of 4, so the cases of 1..3
    remaining bytes are out-of-bounds reads: [UB]. *)
Fixpoint b64_decode_loop (s : bytes) : res bytes :=
  match s with
  | [] => Ok []
  | ca :: cb :: cc :: cd :: rest =>
      let last_quad := match rest with [] => true | _ => false end in
      let c_pad := cc =? EQ in
      let d_pad := cd =? EQ in
      if (c_pad || d_pad) && negb last_quad then Panic 37
      else if c_pad && negb d_pad then Panic 38
      else
        let a := b64_val ca in
        let b := b64_val cb in
        let c := if c_pad then 0 else b64_val cc in
        let d := if d_pad then 0 else b64_val cd in
        if (a <? 0) || (b <? 0) || (c <? 0) || (d <? 0) then Panic 39
        else
          let t := dec_triple a b c d in
          rmap (fun r =>
                  Z.land (Z.shiftr t 16) 255 ::
                  (if c_pad then [] else [Z.land (Z.shiftr t 8) 255]) ++
                  (if d_pad then [] else [Z.land t 255]) ++ r)
               (b64_decode_loop rest)
  | _ => UB
  end.

(** encoding.c:55-59: the size of the output buffer *)
Definition b64_decode_capacity (s : bytes) : Z :=
  let n := length s in
  let pad := (if nth (n - 1) s 0 =? EQ then 1 else 0)
           + (if (2 <=? Z.of_nat n) && (nth (n - 2) s 0 =? EQ) then 1 else 0) in
  (Z.of_nat n / 4) * 3 - pad.

(** encoding.c:46-95 *)
Definition base64_decode (s : bytes) : res bytes :=
  match s with
  | [] => Ok []
  | _ =>
      if negb (Z.of_nat (length s) mod 4 =? 0) then Panic 36
      else b64_decode_loop s
  end.

(** printf "%02x" / "%02X" of a byte (encoding.c:101, 138). *)
Definition hex_digit (upper : bool) (d : Z) : Z :=
  if d <? 10 then 48 + d else (if upper then 65 else 97) + (d - 10).
Definition hex2 (upper : bool) (b : Z) : bytes :=
  [hex_digit upper (b / 16); hex_digit upper (b mod 16)].

(** encoding.c:97-106; int32_t output_length = s.len * 2 *)
Definition hex_encode (s : bytes) : res bytes :=
  if INT32_MAX <? Z.of_nat (length s) * 2 then UB
  else Ok (flat_map (hex2 false) s).

(** isxdigit in the "C" locale *)
Definition isxdigit (c : Z) : bool :=
  ((48 <=? c) && (c <=? 57)) || ((65 <=? c) && (c <=? 70)) || ((97 <=? c) && (c <=? 102)).

(** encoding.c:120-121, 156-157 *)
Definition hex_value (c : Z) : Z :=
  if c <=? 57 then c - 48 else if c <=? 70 then c - 65 + 10 else c - 97 + 10.

(** encoding.c:114-123 *)
Fixpoint hex_decode_loop (s : bytes) : res bytes :=
  match s with
  | hi :: lo :: rest =>
      if negb (isxdigit hi) || negb (isxdigit lo) then Panic 41
      else rmap (cons (Z.lor (Z.shiftl (hex_value hi) 4) (hex_value lo))) (hex_decode_loop rest)
  | _ => Ok []
  end.

(** encoding.c:108-127 *)
Definition hex_decode (s : bytes) : res bytes :=
  if negb (Z.of_nat (length s) mod 2 =? 0) then Panic 40
  else hex_decode_loop s.

(** isalnum in the "C" locale *)
Definition isalnum (c : Z) : bool :=
  ((48 <=? c) && (c <=? 57)) || ((65 <=? c) && (c <=? 90)) || ((97 <=? c) && (c <=? 122)).

(** encoding.c:135 *)
Definition url_keep (c : Z) : bool :=
  isalnum c || (c =? 45) || (c =? 95) || (c =? 46) || (c =? 126).

(** encoding.c:133-140: the bytes written to [out] *)
Definition url_encode_text (s : bytes) : bytes :=
  flat_map (fun c => if url_keep c then [c] else 37 :: hex2 true c) s.

(** encoding.c:129-144; [int j] overflows when the text does not fit in an int *)
Definition url_encode (s : bytes) : res bytes :=
  if INT32_MAX <? Z.of_nat (length (url_encode_text s)) then UB
  else Ok (url_encode_text s).

(** encoding.c:149-165; the branch [i + 2 < s.len] is "at least two bytes follow" *)
Fixpoint url_decode (s : bytes) : res bytes :=
  match s with
  | [] => Ok []
  | c :: rest =>
      let plain := rmap (cons (if c =? 43 then 32 else c)) (url_decode rest) in
      if c =? 37 then
        match rest with
        | hi :: lo :: rest2 =>
            if negb (isxdigit hi) || negb (isxdigit lo) then Panic 42
            else rmap (cons (Z.lor (Z.shiftl (hex_value hi) 4) (hex_value lo))) (url_decode rest2)
        | _ => plain
        end
      else plain
  end.
