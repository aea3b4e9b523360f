(** Model of the digests, grayc/src/stdlib/crypto.c:21-178: gray_crypto_sha256, gray_crypto_md5 and
    gray_crypto_random_hex.  Simplified: the arena gives the memory asked for; a string is its bytes, so its length is at
    most 2147483647; the machine is little-endian and reads words at any address (crypto.c:118, 121 and 138 depend on it);
    the random bytes are an argument. *)
From Verif Require Import Base MapModel.

Definition u32 (x : Z) : Z := wrap_u 32 x.
(** crypto.c:34-40 *)
Definition NOT (x : Z) : Z := u32 (Z.lnot x).
Definition ROTR (x n : Z) : Z := Z.lor (Z.shiftr x n) (u32 (Z.shiftl x (32 - n))).
Definition CH (x y z : Z) : Z := Z.lxor (Z.land x y) (Z.land (NOT x) z).
Definition MAJ (x y z : Z) : Z := Z.lxor (Z.lxor (Z.land x y) (Z.land x z)) (Z.land y z).
Definition EP0 (x : Z) : Z := Z.lxor (Z.lxor (ROTR x 2) (ROTR x 13)) (ROTR x 22).
Definition EP1 (x : Z) : Z := Z.lxor (Z.lxor (ROTR x 6) (ROTR x 11)) (ROTR x 25).
Definition SIG0 (x : Z) : Z := Z.lxor (Z.lxor (ROTR x 7) (ROTR x 18)) (Z.shiftr x 3).
Definition SIG1 (x : Z) : Z := Z.lxor (Z.lxor (ROTR x 17) (ROTR x 19)) (Z.shiftr x 10).
(** crypto.c:23-32 *)
Definition sha256_k : list Z :=
  [0x428a2f98;0x71374491;0xb5c0fbcf;0xe9b5dba5;0x3956c25b;0x59f111f1;0x923f82a4;0xab1c5ed5;
   0xd807aa98;0x12835b01;0x243185be;0x550c7dc3;0x72be5d74;0x80deb1fe;0x9bdc06a7;0xc19bf174;
   0xe49b69c1;0xefbe4786;0x0fc19dc6;0x240ca1cc;0x2de92c6f;0x4a7484aa;0x5cb0a9dc;0x76f988da;
   0x983e5152;0xa831c66d;0xb00327c8;0xbf597fc7;0xc6e00bf3;0xd5a79147;0x06ca6351;0x14292967;
   0x27b70a85;0x2e1b2138;0x4d2c6dfc;0x53380d13;0x650a7354;0x766a0abb;0x81c2c92e;0x92722c85;
   0xa2bfe8a1;0xa81a664b;0xc24b8b70;0xc76c51a3;0xd192e819;0xd6990624;0xf40e3585;0x106aa070;
   0x19a4c116;0x1e376c08;0x2748774c;0x34b0bcb5;0x391c0cb3;0x4ed8aa4a;0x5b9cca4f;0x682e6ff3;
   0x748f82ee;0x78a5636f;0x84c87814;0x8cc70208;0x90befffa;0xa4506ceb;0xbef9a3f7;0xc67178f2].
(** crypto.c:43-46 *)
Definition sha256_h : list Z := [0x6a09e667;0xbb67ae85;0x3c6ef372;0xa54ff53a;0x510e527f;0x9b05688c;0x1f83d9ab;0x5be0cd19].
(** crypto.c:50 and 112, in size_t *)
Definition padded_length (len : Z) : Z := wrap_u 64 ((wrap_u 64 (len + 8) / 64 + 1) * 64).
(** crypto.c:51-56 *)
Definition sha256_message (data : bytes) : bytes :=
  let len := Z.of_nat (length data) in
  let bits := wrap_u 64 (len * 8) in
  let padded := padded_length len in
  let msg := data ++ [128] ++ repeat 0 (Z.to_nat (padded - len - 1)) in
  fold_left (fun msg i => set_nth (Z.to_nat (padded - 1 - i)) (wrap_u 8 (Z.shiftr bits (i * 8))) msg) [0; 1; 2; 3; 4; 5; 6; 7] msg.
(** crypto.c:60-62 *)
Definition load_be (msg : bytes) (at_ : nat) : Z :=
  Z.lor (Z.lor (Z.lor (u32 (Z.shiftl (nth at_ msg 0) 24)) (u32 (Z.shiftl (nth (at_ + 1) msg 0) 16))) (u32 (Z.shiftl (nth (at_ + 2) msg 0) 8))) (nth (at_ + 3) msg 0).
(** crypto.c:59-64: w[0..64) *)
Definition sha256_w (msg : bytes) (i : nat) : list Z :=
  fold_left (fun w j => w ++ [u32 (SIG1 (nth (j - 2) w 0) + nth (j - 7) w 0 + SIG0 (nth (j - 15) w 0) + nth (j - 16) w 0)]) (seq 16 48)
    (map (fun j => load_be msg (i + j * 4)) (seq 0 16)).
Definition regs8 : Type := Z * Z * Z * Z * Z * Z * Z * Z.
(** crypto.c:67-71 *)
Definition sha256_round (w : list Z) (s : regs8) (j : nat) : regs8 :=
  let '(a, b, c, d, e, f, g, hh) := s in
  let t1 := u32 (hh + EP1 e + CH e f g + nth j sha256_k 0 + nth j w 0) in
  let t2 := u32 (EP0 a + MAJ a b c) in
  (u32 (t1 + t2), a, b, c, u32 (d + t1), e, f, g).
(** crypto.c:58-73 *)
Definition sha256_block (msg : bytes) (h : regs8) (block : nat) : regs8 :=
  let '(h0, h1, h2, h3, h4, h5, h6, h7) := h in
  let '(a, b, c, d, e, f, g, hh) := fold_left (sha256_round (sha256_w msg (64 * block))) (seq 0 64) h in
  (u32 (h0 + a), u32 (h1 + b), u32 (h2 + c), u32 (h3 + d), u32 (h4 + e), u32 (h5 + f), u32 (h6 + g), u32 (h7 + hh)).
(** printf's %08x and %02x: the last n hexadecimal digits of a value below 16^n *)
Definition hex_digit (d : Z) : Z := if d <? 10 then 48 + d else 87 + d.
Fixpoint hex_pad (n : nat) (x : Z) : bytes := match n with O => [] | S n => hex_pad n (x / 16) ++ [hex_digit (x mod 16)] end.
(** crypto.c:42-81 *)
Definition sha256 (data : bytes) : bytes :=
  let msg := sha256_message data in
  let h := (nth 0 sha256_h 0, nth 1 sha256_h 0, nth 2 sha256_h 0, nth 3 sha256_h 0, nth 4 sha256_h 0, nth 5 sha256_h 0, nth 6 sha256_h 0, nth 7 sha256_h 0) in
  let '(h0, h1, h2, h3, h4, h5, h6, h7) := fold_left (sha256_block msg) (seq 0 (length msg / 64)) h in
  flat_map (hex_pad 8) [h0; h1; h2; h3; h4; h5; h6; h7].

(** crypto.c:85-89 *)
Definition F (x y z : Z) : Z := Z.lor (Z.land x y) (Z.land (NOT x) z).
Definition G (x y z : Z) : Z := Z.lor (Z.land x z) (Z.land y (NOT z)).
Definition H (x y z : Z) : Z := Z.lxor (Z.lxor x y) z.
Definition I (x y z : Z) : Z := Z.lxor y (Z.lor x (NOT z)).
Definition ROTL (x n : Z) : Z := Z.lor (u32 (Z.shiftl x n)) (Z.shiftr x (32 - n)).
(** crypto.c:94-99 *)
Definition md5_s : list Z :=
  [7;12;17;22;7;12;17;22;7;12;17;22;7;12;17;22; 5;9;14;20;5;9;14;20;5;9;14;20;5;9;14;20;
   4;11;16;23;4;11;16;23;4;11;16;23;4;11;16;23; 6;10;15;21;6;10;15;21;6;10;15;21;6;10;15;21].
(** crypto.c:100-109 *)
Definition md5_k : list Z :=
  [0xd76aa478;0xe8c7b756;0x242070db;0xc1bdceee;0xf57c0faf;0x4787c62a;0xa8304613;0xfd469501;
   0x698098d8;0x8b44f7af;0xffff5bb1;0x895cd7be;0x6b901122;0xfd987193;0xa679438e;0x49b40821;
   0xf61e2562;0xc040b340;0x265e5a51;0xe9b6c7aa;0xd62f105d;0x02441453;0xd8a1e681;0xe7d3fbc8;
   0x21e1cde6;0xc33707d6;0xf4d50d87;0x455a14ed;0xa9e3e905;0xfcefa3f8;0x676f02d9;0x8d2a4c8a;
   0xfffa3942;0x8771f681;0x6d9d6122;0xfde5380c;0xa4beea44;0x4bdecfa9;0xf6bb4b60;0xbebfbc70;
   0x289b7ec6;0xeaa127fa;0xd4ef3085;0x04881d05;0xd9d4d039;0xe6db99e5;0x1fa27cf8;0xc4ac5665;
   0xf4292244;0x432aff97;0xab9423a7;0xfc93a039;0x655b59c3;0x8f0ccc92;0xffeff47d;0x85845dd1;
   0x6fa87e4f;0xfe2ce6e0;0xa3014314;0x4e0811a1;0xf7537e82;0xbd3af235;0x2ad7d2bb;0xeb86d391].
(** An object of n bytes in memory, low byte first *)
Fixpoint stored (n : nat) (x : Z) : bytes := match n with O => [] | S n => x mod 256 :: stored n (x / 256) end.
(** crypto.c:111-118 *)
Definition md5_message (data : bytes) : bytes :=
  let len := Z.of_nat (length data) in
  let padded := padded_length len in
  data ++ [128] ++ repeat 0 (Z.to_nat (padded - len - 9)) ++ stored 8 (wrap_u 64 (len * 8)).
(** crypto.c:121: M[g] *)
Definition load_le (msg : bytes) (at_ : nat) : Z :=
  nth at_ msg 0 + 256 * nth (at_ + 1) msg 0 + 65536 * nth (at_ + 2) msg 0 + 16777216 * nth (at_ + 3) msg 0.
Definition regs4 : Type := Z * Z * Z * Z.
(** crypto.c:123-132; [at_] is the offset *)
Definition md5_step (msg : bytes) (at_ : nat) (s : regs4) (i : nat) : regs4 :=
  let '(A, B, C, D) := s in
  let '(f_val, g) :=
    if (i <? 16)%nat then (F B C D, i)
    else if (i <? 32)%nat then (G B C D, ((5 * i + 1) mod 16)%nat)
    else if (i <? 48)%nat then (H B C D, ((3 * i + 5) mod 16)%nat)
    else (I B C D, ((7 * i) mod 16)%nat) in
  (D, u32 (B + ROTL (u32 (A + f_val + nth i md5_k 0 + load_le msg (at_ + 4 * g))) (nth i md5_s 0)), B, C).
(** crypto.c:120-134 *)
Definition md5_block (msg : bytes) (h : regs4) (block : nat) : regs4 :=
  let '(a0, b0, c0, d0) := h in
  let '(A, B, C, D) := fold_left (md5_step msg (64 * block)) (seq 0 64) h in
  (u32 (a0 + A), u32 (b0 + B), u32 (c0 + C), u32 (d0 + D)).
(** crypto.c:92-144 *)
Definition md5 (data : bytes) : bytes :=
  let msg := md5_message data in
  let '(a0, b0, c0, d0) := fold_left (md5_block msg) (seq 0 (length msg / 64)) (0x67452301, 0xefcdab89, 0x98badcfe, 0x10325476) in
  flat_map (hex_pad 2) (stored 4 a0 ++ stored 4 b0 ++ stored 4 c0 ++ stored 4 d0).

(** crypto.c:146-178; [urandom n]: n bytes of /dev/urandom, if it can be read.  The result is the text and the length field
    of the string *)
Definition random_hex (urandom : Z -> option bytes) (length_ : Z) : res (bytes * Z) :=
  if length_ <? 0 then Panic 51 else
  if length_ =? 0 then Ok ([], 0) else
  if length_ =? INT64_MAX then UB else
  match urandom ((length_ + 1) / 2) with
  | None => Panic 52
  | Some raw =>
      Ok (map (fun i => hex_digit (let b := nth (Nat.div i 2) raw 0 in if Nat.even i then Z.land (Z.shiftr b 4) 15 else Z.land b 15)) (seq 0 (Z.to_nat length_)),
          wrap_i 32 length_)
  end.
