(** Vocabulary of the digest properties (C68): SHA-256 after FIPS 180-4 and MD5 after RFC 1321, with no table of constants
    but the shift amounts of MD5. *)
From Coq Require Import QArith Qabs.
From Verif Require Import Base.
Open Scope Z_scope.

(** * Words of 32 bits, by their bits *)
Definition M32 : Z := 4294967296.
Fixpoint of_bits (n : nat) (f : Z -> bool) : Z :=
  match n with O => 0 | S n => of_bits n f + (if f (Z.of_nat n) then 2 ^ Z.of_nat n else 0) end.
Definition bitwise (f : Z -> bool) : Z := of_bits 32 f.
Definition rotate_right (n x : Z) : Z := bitwise (fun i => Z.testbit x ((i + n) mod 32)).
Definition rotate_left (n x : Z) : Z := bitwise (fun i => Z.testbit x ((i - n) mod 32)).
Definition shift_right (n x : Z) : Z := bitwise (fun i => if i + n <? 32 then Z.testbit x (i + n) else false).
Definition xor3 (x y z : Z) : Z := bitwise (fun i => xorb (Z.testbit x i) (xorb (Z.testbit y i) (Z.testbit z i))).
Definition choose (x y z : Z) : Z := bitwise (fun i => if Z.testbit x i then Z.testbit y i else Z.testbit z i).
Definition majority (x y z : Z) : Z :=
  bitwise (fun i => (2 <=? Z.b2z (Z.testbit x i) + Z.b2z (Z.testbit y i) + Z.b2z (Z.testbit z i))).

(** * Numbers as bytes and digits *)
Definition value_be (l : bytes) : Z := fold_left (fun v b => 256 * v + b) l 0.
Definition value_le (l : bytes) : Z := value_be (rev l).
(** The value of a lower-case hexadecimal digit *)
Definition digit_value (c d : Z) : Prop := (48 <= c <= 57 /\ d = c - 48) \/ (97 <= c <= 102 /\ d = c - 87).
Definition hex_text (l : bytes) (digits : list Z) : Prop := Forall2 digit_value l digits.
(** The text of a byte, high digit first, and of bytes *)
Inductive hex_bytes : bytes -> bytes -> Prop :=
| hex_nil : hex_bytes [] []
| hex_byte b hi lo h l bs t : 0 <= h < 16 -> 0 <= l < 16 -> b = 16 * h + l -> digit_value hi h -> digit_value lo l -> hex_bytes bs t -> hex_bytes (b :: bs) (hi :: lo :: t).

(** * Padding: a one bit, as few zero bits as possible and the length in bits in 64 bits *)
Definition padded_by (value : bytes -> Z) (m p : bytes) : Prop :=
  exists k l, p = m ++ [128] ++ repeat 0 k ++ l /\ (k < 64)%nat /\ length l = 8%nat /\ Forall is_byte l /\ value l = 8 * Z.of_nat (length m) /\ Z.of_nat (length p) mod 64 = 0.
Definition word_at (value : bytes -> Z) (p : bytes) (block t : nat) : Z := value (firstn 4 (skipn (64 * block + 4 * t) p)).

(** * The constants *)
Definition is_prime (p : Z) : Prop := 1 < p /\ forall d, 1 < d < p -> p mod d <> 0.
(** [p] is the prime with [t] primes below it *)
Definition nth_prime (t : nat) (p : Z) : Prop :=
  is_prime p /\ exists below, length below = t /\ NoDup below /\ forall q, In q below <-> is_prime q /\ q < p.
(** The first 32 bits of the fractional part of the cube root, or square root, of the t-th prime *)
Definition cube_root_bits (t : nat) (c : Z) : Prop := exists p r, nth_prime t p /\ 0 <= r /\ r ^ 3 <= p * 2 ^ 96 < (r + 1) ^ 3 /\ c = r mod M32.
Definition square_root_bits (t : nat) (c : Z) : Prop := exists p r, nth_prime t p /\ 0 <= r /\ r ^ 2 <= p * 2 ^ 64 < (r + 1) ^ 2 /\ c = r mod M32.
(** The first n terms of the series of sin x from term k on: x^(2k+1)/(2k+1)! - x^(2k+3)/(2k+3)! + ... *)
Fixpoint sine_term (x : Z) (k : nat) : Q :=
  match k with O => inject_Z x | S k => (sine_term x k * inject_Z (x * x) / inject_Z ((2 * Z.of_nat k + 2) * (2 * Z.of_nat k + 3)))%Q end.
Fixpoint sine_sum (x : Z) (n k : nat) : Q := match n with O => 0%Q | S n => (sine_term x k - sine_sum x n (S k))%Q end.
(** The whole part of 4294967296 |sin (t+1)|: that of every long enough sum *)
Definition sine_bits (t : nat) (c : Z) : Prop :=
  exists n, forall m, (n <= m)%nat -> (inject_Z c <= inject_Z M32 * Qabs (sine_sum (Z.of_nat t + 1) m 0) /\ inject_Z M32 * Qabs (sine_sum (Z.of_nat t + 1) m 0) < inject_Z (c + 1))%Q.

(** * SHA-256: FIPS 180-4, 4.1.2, 5.1.1, 5.3.3 and 6.2 *)
Definition Sigma0 x := xor3 (rotate_right 2 x) (rotate_right 13 x) (rotate_right 22 x).
Definition Sigma1 x := xor3 (rotate_right 6 x) (rotate_right 11 x) (rotate_right 25 x).
Definition sigma0 x := xor3 (rotate_right 7 x) (rotate_right 18 x) (shift_right 3 x).
Definition sigma1 x := xor3 (rotate_right 17 x) (rotate_right 19 x) (shift_right 10 x).
Definition sha_schedule (p : bytes) (block : nat) (W : nat -> Z) : Prop :=
  (forall t, (t < 16)%nat -> W t = word_at value_be p block t) /\
  forall t, (16 <= t < 64)%nat -> W t = (sigma1 (W (t - 2)%nat) + W (t - 7)%nat + sigma0 (W (t - 15)%nat) + W (t - 16)%nat) mod M32.
Definition state8 : Type := Z * Z * Z * Z * Z * Z * Z * Z.
Definition sha_round (k w : Z) (s : state8) : state8 :=
  let '(a, b, c, d, e, f, g, h) := s in
  let t1 := h + Sigma1 e + choose e f g + k + w in
  let t2 := Sigma0 a + majority a b c in
  ((t1 + t2) mod M32, a, b, c, (d + t1) mod M32, e, f, g).
Definition add8 (x y : state8) : state8 :=
  let '(a, b, c, d, e, f, g, h) := x in let '(a', b', c', d', e', f', g', h') := y in
  ((a + a') mod M32, (b + b') mod M32, (c + c') mod M32, (d + d') mod M32, (e + e') mod M32, (f + f') mod M32, (g + g') mod M32, (h + h') mod M32).
Definition words8 (s : state8) : list Z := let '(a, b, c, d, e, f, g, h) := s in [a; b; c; d; e; f; g; h].
(** The digest of m: the eight words after the last block *)
Definition sha256_of (m : bytes) (digest : state8) : Prop :=
  exists p K H, padded_by value_be m p /\ (forall t, (t < 64)%nat -> cube_root_bits t (K t)) /\
    (forall t, (t < 8)%nat -> square_root_bits t (nth t (words8 (H 0%nat)) 0)) /\
    (forall i, (64 * i < length p)%nat -> exists W S, sha_schedule p i W /\ S 0%nat = H i /\
       (forall t, (t < 64)%nat -> S (Datatypes.S t) = sha_round (K t) (W t) (S t)) /\ H (Datatypes.S i) = add8 (S 64%nat) (H i)) /\
    digest = H (length p / 64)%nat.

(** * MD5: RFC 1321, 3 *)
Definition md5_mix (i : nat) (x y z : Z) : Z :=
  if (i <? 16)%nat then choose x y z
  else if (i <? 32)%nat then choose z x y
  else if (i <? 48)%nat then xor3 x y z
  else bitwise (fun b => xorb (Z.testbit y b) (Z.testbit x b || negb (Z.testbit z b))).
Definition md5_word (i : nat) : nat :=
  if (i <? 16)%nat then i else if (i <? 32)%nat then ((1 + 5 * i) mod 16)%nat else if (i <? 48)%nat then ((5 + 3 * i) mod 16)%nat else ((7 * i) mod 16)%nat.
Definition md5_shift (i : nat) : Z :=
  nth (i mod 4) (if (i <? 16)%nat then [7; 12; 17; 22] else if (i <? 32)%nat then [5; 9; 14; 20] else if (i <? 48)%nat then [4; 11; 16; 23] else [6; 10; 15; 21]) 0.
Definition state4 : Type := Z * Z * Z * Z.
Definition md5_round (T : nat -> Z) (X : nat -> Z) (i : nat) (s : state4) : state4 :=
  let '(a, b, c, d) := s in
  (d, (b + rotate_left (md5_shift i) ((a + md5_mix i b c d + X (md5_word i) + T i) mod M32)) mod M32, b, c).
Definition add4 (x y : state4) : state4 :=
  let '(a, b, c, d) := x in let '(a', b', c', d') := y in ((a + a') mod M32, (b + b') mod M32, (c + c') mod M32, (d + d') mod M32).
Definition words4 (s : state4) : list Z := let '(a, b, c, d) := s in [a; b; c; d].
(** The initial words are the bytes 01 23 45 67 89 ab cd ef fe dc ba 98 76 54 32 10, low byte first *)
Definition md5_of (m : bytes) (digest : state4) : Prop :=
  exists p T H, padded_by value_le m p /\ (forall t, (t < 64)%nat -> sine_bits t (T t)) /\
    words4 (H 0%nat) = [value_le [1; 35; 69; 103]; value_le [137; 171; 205; 239]; value_le [254; 220; 186; 152]; value_le [118; 84; 50; 16]] /\
    (forall i, (64 * i < length p)%nat -> exists S, S 0%nat = H i /\
       (forall t, (t < 64)%nat -> S (Datatypes.S t) = md5_round T (word_at value_le p i) t (S t)) /\ H (Datatypes.S i) = add4 (S 64%nat) (H i)) /\
    digest = H (length p / 64)%nat.
(** The digests as bytes *)
Definition bytes_be (w : Z) : bytes := [w / 16777216 mod 256; w / 65536 mod 256; w / 256 mod 256; w mod 256].
Definition bytes_le (w : Z) : bytes := rev (bytes_be w).
