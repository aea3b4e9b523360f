(** Model of grayc/src/runtime/bigint.h: 128- and 256-bit integers on 64-bit words.

    uint64_t arithmetic is explicit reduction modulo 2^64.  int64_t additions and
    subtractions take a flag [wv]: ISO C leaves signed overflow undefined ([wv = false],
    result [UB]; this is how the project is built, no -fwrapv in grayc/Makefile or in
    the compiler invocation), a compiler asked to wrap gives two's complement
    ([wv = true]).  Pointers to results are returned values; the [file]/[line]
    arguments of the checked operations only serve the message and are dropped. *)
From Verif Require Import Base Decimal.

Definition M64 : Z := 18446744073709551616.
Definition MASK32 : Z := 4294967295.

(** uint64_t operators *)
Definition add64 (x y : Z) : Z := (x + y) mod M64.
Definition sub64 (x y : Z) : Z := (x - y) mod M64.
Definition mul64 (x y : Z) : Z := (x * y) mod M64.
Definition not64 (x : Z) : Z := M64 - 1 - x.
Definition shl64 (x n : Z) : Z := (Z.shiftl x n) mod M64.
Definition shr64 (x n : Z) : Z := Z.shiftr x n.
(** conversions uint64_t <-> int64_t *)
Definition to_u64 (x : Z) : Z := x mod M64.
Definition to_i64 (x : Z) : Z := wrap_i 64 x.
Definition b2z (b : bool) : Z := if b then 1 else 0.

(** int64_t + and - *)
Definition signed64 (wv : bool) (x : Z) : res Z :=
  if (INT64_MIN <=? x) && (x <=? INT64_MAX) then Ok x
  else if wv then Ok (to_i64 x) else UB.

(** bigint.h:19-22 *)
Record i128 := I128 { ilo : Z; ihi : Z }.
Record u128 := U128 { ulo : Z; uhi : Z }.
(** bigint.h:21-22: an i256/u256 is the list of its four words, least significant
    first. *)
Definition w256 := list Z.
Definition word (a : w256) (k : nat) : Z := nth k a 0.

Definition U128_ZERO := U128 0 0.
Definition W256_ZERO : w256 := [0; 0; 0; 0].

(** bigint.h:39-70 *)
Definition i128_from_i64 (v : Z) : i128 := I128 (to_u64 v) (if v <? 0 then -1 else 0).
Definition u128_from_u64 (v : Z) : u128 := U128 v 0.
Definition i256_from_i64 (v : Z) : w256 :=
  let sign := to_u64 (if v <? 0 then -1 else 0) in [to_u64 v; sign; sign; sign].
Definition u256_from_u64 (v : Z) : w256 := [v; 0; 0; 0].

(** bigint.h:74-129, casts to 64 bits; [(int64_t)x >> 63] is an arithmetic shift *)
Definition i128_to_i64 (a : i128) : res Z :=
  if negb (ihi a =? Z.shiftr (to_i64 (ilo a)) 63) then Panic 93 else Ok (to_i64 (ilo a)).
Definition i128_to_u64 (a : i128) : res Z :=
  if negb (ihi a =? 0) then Panic 94 else Ok (ilo a).
Definition u128_to_i64 (a : u128) : res Z :=
  if negb (uhi a =? 0) || (INT64_MAX <? ulo a) then Panic 95 else Ok (to_i64 (ulo a)).
Definition u128_to_u64 (a : u128) : res Z :=
  if negb (uhi a =? 0) then Panic 96 else Ok (ulo a).
Definition i256_to_i64 (a : w256) : res Z :=
  let sign_ext := to_u64 (Z.shiftr (to_i64 (word a 0)) 63) in
  if negb (word a 1 =? sign_ext) || negb (word a 2 =? sign_ext) || negb (word a 3 =? sign_ext)
  then Panic 97 else Ok (to_i64 (word a 0)).
Definition i256_to_u64 (a : w256) : res Z :=
  if negb (word a 1 =? 0) || negb (word a 2 =? 0) || negb (word a 3 =? 0)
  then Panic 98 else Ok (word a 0).
Definition u256_to_i64 (a : w256) : res Z :=
  if negb (word a 1 =? 0) || negb (word a 2 =? 0) || negb (word a 3 =? 0) || (INT64_MAX <? word a 0)
  then Panic 99 else Ok (to_i64 (word a 0)).
Definition u256_to_u64 (a : w256) : res Z :=
  if negb (word a 1 =? 0) || negb (word a 2 =? 0) || negb (word a 3 =? 0)
  then Panic 100 else Ok (word a 0).

(** bigint.h:131-176, unchecked conversions between the wide types *)
Definition u128_from_i128 (a : i128) : u128 := U128 (ilo a) (to_u64 (ihi a)).
Definition i128_from_u128 (a : u128) : i128 := I128 (ulo a) (to_i64 (uhi a)).
Definition i256_from_i128 (a : i128) : w256 :=
  let sign := to_u64 (if ihi a <? 0 then -1 else 0) in [ilo a; to_u64 (ihi a); sign; sign].
Definition u256_from_u128 (a : u128) : w256 := [ulo a; uhi a; 0; 0].
Definition i128_from_i256 (a : w256) : i128 := I128 (word a 0) (to_i64 (word a 1)).
Definition u128_from_u256 (a : w256) : u128 := U128 (word a 0) (word a 1).

(** bigint.h:180-185 *)
Definition i128_add (wv : bool) (a b : i128) : res i128 :=
  let lo := add64 (ilo a) (ilo b) in
  rbind (signed64 wv (ihi a + ihi b)) (fun h =>
  rbind (signed64 wv (h + b2z (lo <? ilo a))) (fun hi => Ok (I128 lo hi))).
(** bigint.h:187-192 *)
Definition i128_sub (wv : bool) (a b : i128) : res i128 :=
  let lo := sub64 (ilo a) (ilo b) in
  rbind (signed64 wv (ihi a - ihi b)) (fun h =>
  rbind (signed64 wv (h - b2z (ilo a <? ilo b))) (fun hi => Ok (I128 lo hi))).
(** bigint.h:194-199; [~a.hi] is [-1 - a.hi] *)
Definition i128_neg (wv : bool) (a : i128) : res i128 :=
  let lo := add64 (not64 (ilo a)) 1 in
  rbind (signed64 wv ((-1 - ihi a) + b2z (lo =? 0))) (fun hi => Ok (I128 lo hi)).

(** bigint.h:203-216 and 327-336: the carry of the low 64x64 product into the high word *)
Definition mul_high (x y : Z) : Z :=
  let a0 := Z.land x MASK32 in let a1 := shr64 x 32 in
  let b0 := Z.land y MASK32 in let b1 := shr64 y 32 in
  let p00 := mul64 a0 b0 in let p01 := mul64 a0 b1 in
  let p10 := mul64 a1 b0 in let p11 := mul64 a1 b1 in
  let mid := add64 p01 (shr64 p00 32) in
  let carry := shr64 (add64 (Z.land mid MASK32) p10) 32 in
  add64 (add64 p11 (shr64 mid 32)) carry.

(** bigint.h:201-222 *)
Definition i128_mul (a b : i128) : i128 :=
  let a_hi := to_u64 (ihi a) in let b_hi := to_u64 (ihi b) in
  I128 (mul64 (ilo a) (ilo b))
       (to_i64 (add64 (add64 (mul_high (ilo a) (ilo b)) (mul64 (ilo a) b_hi)) (mul64 a_hi (ilo b)))).

(** bigint.h:312-342 *)
Definition u128_add (a b : u128) : u128 :=
  let lo := add64 (ulo a) (ulo b) in
  U128 lo (add64 (add64 (uhi a) (uhi b)) (b2z (lo <? ulo a))).
Definition u128_sub (a b : u128) : u128 :=
  U128 (sub64 (ulo a) (ulo b))
       (sub64 (sub64 (uhi a) (uhi b)) (b2z (ulo a <? ulo b))).
Definition u128_mul (a b : u128) : u128 :=
  U128 (mul64 (ulo a) (ulo b))
       (add64 (add64 (mul_high (ulo a) (ulo b)) (mul64 (ulo a) (uhi b))) (mul64 (uhi a) (ulo b))).

(** bigint.h:246-250: bit i of a *)
Definition bit128 (a : u128) (i : Z) : Z :=
  if 64 <=? i then Z.land (shr64 (uhi a) (i - 64)) 1 else Z.land (shr64 (ulo a) i) 1.
(** bigint.h:258-262: quotient |= 1 << i *)
Definition setbit128 (q : u128) (i : Z) : u128 :=
  if 64 <=? i then U128 (ulo q) (Z.lor (uhi q) (shl64 1 (i - 64)))
  else U128 (Z.lor (ulo q) (shl64 1 i)) (uhi q).
(** bigint.h:242-263: one iteration *)
Definition div128_step (a b : u128) (i : Z) (q r : u128) : u128 * u128 :=
  let rhi := Z.lor (shl64 (uhi r) 1) (shr64 (ulo r) 63) in
  let rlo := Z.lor (shl64 (ulo r) 1) (bit128 a i) in
  if (uhi b <? rhi) || ((rhi =? uhi b) && (ulo b <=? rlo)) then
    let borrow := b2z (rlo <? ulo b) in
    (setbit128 q i, U128 (sub64 rlo (ulo b)) (sub64 rhi (add64 (uhi b) borrow)))
  else (q, U128 rlo rhi).
(** bigint.h:241-264: [n] iterations remain, the next one is for i = n - 1 *)
Fixpoint div128_loop (n : nat) (a b q r : u128) : u128 * u128 :=
  match n with
  | O => (q, r)
  | S m => let '(q', r') := div128_step a b (Z.of_nat m) q r in div128_loop m a b q' r'
  end.
(** bigint.h:225-267 *)
Definition u128_divmod (a b : u128) : u128 * u128 :=
  if (uhi b =? 0) && (ulo b =? 0) then (U128_ZERO, U128_ZERO)
  else if (uhi a =? 0) && (uhi b =? 0) then (U128 (ulo a / ulo b) 0, U128 (ulo a mod ulo b) 0)
  else div128_loop 128 a b U128_ZERO U128_ZERO.
(** bigint.h:344-354 *)
Definition u128_div a b := fst (u128_divmod a b).
Definition u128_mod a b := snd (u128_divmod a b).

(** bigint.h:273-276, 287-290: magnitude as u128 *)
Definition i128_mag (wv : bool) (a : i128) : res u128 :=
  if ihi a <? 0 then rmap (fun t => U128 (ilo t) (to_u64 (ihi t))) (i128_neg wv a)
  else Ok (U128 (ilo a) (to_u64 (ihi a))).
(** bigint.h:269-282 *)
Definition i128_div (wv : bool) (a b : i128) : res i128 :=
  if (ilo b =? 0) && (ihi b =? 0) then Ok (I128 0 0)
  else rbind (i128_mag wv a) (fun ua => rbind (i128_mag wv b) (fun ub =>
    let q := u128_div ua ub in
    let result := I128 (ulo q) (to_i64 (uhi q)) in
    if xorb (ihi a <? 0) (ihi b <? 0) then i128_neg wv result else Ok result)).
(** bigint.h:284-297 *)
Definition i128_mod (wv : bool) (a b : i128) : res i128 :=
  if (ilo b =? 0) && (ihi b =? 0) then Ok (I128 0 0)
  else rbind (i128_mag wv a) (fun ua => rbind (i128_mag wv b) (fun ub =>
    let r := u128_mod ua ub in
    let result := I128 (ulo r) (to_i64 (uhi r)) in
    if ihi a <? 0 then i128_neg wv result else Ok result)).

(** bigint.h:301-308, 358-365 *)
Definition i128_eq (a b : i128) : bool := (ilo a =? ilo b) && (ihi a =? ihi b).
Definition i128_ne (a b : i128) : bool := negb (ilo a =? ilo b) || negb (ihi a =? ihi b).
Definition i128_lt (a b : i128) : bool := (ihi a <? ihi b) || ((ihi a =? ihi b) && (ilo a <? ilo b)).
Definition i128_gt (a b : i128) : bool := i128_lt b a.
Definition i128_le (a b : i128) : bool := negb (i128_gt a b).
Definition i128_ge (a b : i128) : bool := negb (i128_lt a b).
Definition u128_eq (a b : u128) : bool := (ulo a =? ulo b) && (uhi a =? uhi b).
Definition u128_ne (a b : u128) : bool := negb (ulo a =? ulo b) || negb (uhi a =? uhi b).
Definition u128_lt (a b : u128) : bool := (uhi a <? uhi b) || ((uhi a =? uhi b) && (ulo a <? ulo b)).
Definition u128_gt (a b : u128) : bool := u128_lt b a.
Definition u128_le (a b : u128) : bool := negb (u128_gt a b).
Definition u128_ge (a b : u128) : bool := negb (u128_lt a b).

(** bigint.h:369-378, 525-534 (the two functions have the same body) *)
Fixpoint add_words (carry : Z) (a b : w256) : w256 :=
  match a, b with
  | x :: a', y :: b' =>
      let sum := add64 (add64 x y) carry in
      let carry' := b2z ((sum <? x) || (negb (carry =? 0) && (sum =? x))) in
      sum :: add_words carry' a' b'
  | _, _ => []
  end.
Definition w256_add (a b : w256) : w256 := add_words 0 a b.

(** bigint.h:380-389, 536-545, and 462-467 *)
Fixpoint sub_words (borrow : Z) (a b : w256) : w256 :=
  match a, b with
  | x :: a', y :: b' =>
      let diff := sub64 (sub64 x y) borrow in
      let borrow' := b2z (x <? add64 y borrow) in
      diff :: sub_words borrow' a' b'
  | _, _ => []
  end.
Definition w256_sub (a b : w256) : w256 := sub_words 0 a b.

(** bigint.h:391-400 *)
Fixpoint neg_words (carry : Z) (a : w256) : w256 :=
  match a with
  | x :: a' =>
      let sum := add64 (not64 x) carry in
      sum :: neg_words (b2z (sum <? not64 x)) a'
  | [] => []
  end.
Definition i256_neg (a : w256) : w256 := neg_words 1 a.

(** bigint.h:406-426 and 550-566: row i, on the suffix r.w[i..3] *)
Fixpoint mul_row (carry : Z) (a : w256) (bi : Z) (r : w256) : w256 :=
  match a, r with
  | x :: a', old :: r' =>
      let lo := mul64 x bi in
      let hi_part := mul_high x bi in
      let s := add64 old lo in
      let out := add64 s carry in
      let c1 := add64 hi_part (b2z (out <? s)) in
      let c2 := if s <? old then add64 c1 1 else c1 in
      out :: mul_row c2 a' bi r'
  | _, _ => r
  end.
(** bigint.h:402-429, 547-569: the word r.w[i] is final after row i *)
Fixpoint mul_rows (a b : w256) (r : w256) : w256 :=
  match b, r with
  | bi :: b', _ :: _ =>
      match mul_row 0 a bi r with
      | w :: r' => w :: mul_rows a b' r'
      | [] => []
      end
  | _, _ => r
  end.
Definition w256_mul (a b : w256) : w256 := mul_rows a b W256_ZERO.

(** bigint.h:445-448: remainder <<= 1, carrying [c] in from below *)
Fixpoint shl1_words (c : Z) (r : w256) : w256 :=
  match r with
  | x :: r' => Z.lor (shl64 x 1) c :: shl1_words (shr64 x 63) r'
  | [] => []
  end.
(** bigint.h:452 *)
Definition bit256 (a : w256) (i : Z) : Z :=
  Z.land (shr64 (word a (Z.to_nat (i / 64))) (i mod 64)) 1.
(** bigint.h:454-459: [x >= y], most significant word first *)
Fixpoint ge_words_msb (x y : list Z) : bool :=
  match x, y with
  | a :: x', b :: y' => if b <? a then true else if a <? b then false else
                        match x' with [] => true | _ => ge_words_msb x' y' end
  | _, _ => false
  end.
Definition ge_words (x y : w256) : bool := ge_words_msb (rev x) (rev y).
(** bigint.h:468 *)
Fixpoint set_word (q : w256) (k : nat) (v : Z) : w256 :=
  match q, k with
  | _ :: q', O => v :: q'
  | x :: q', S k' => x :: set_word q' k' v
  | [], _ => []
  end.
Definition setbit256 (q : w256) (i : Z) : w256 :=
  set_word q (Z.to_nat (i / 64)) (Z.lor (word q (Z.to_nat (i / 64))) (shl64 1 (i mod 64))).
(** bigint.h:444-469: one iteration *)
Definition div256_step (a b : w256) (i : Z) (q r : w256) : w256 * w256 :=
  let r1 := shl1_words (bit256 a i) r in
  if ge_words r1 b then (setbit256 q i, sub_words 0 r1 b) else (q, r1).
Fixpoint div256_loop (n : nat) (a b q r : w256) : w256 * w256 :=
  match n with
  | O => (q, r)
  | S m => let '(q', r') := div256_step a b (Z.of_nat m) q r in div256_loop m a b q' r'
  end.
Definition zero256 (a : w256) : bool := forallb (fun x => x =? 0) a.
(** bigint.h:432-473 *)
Definition u256_divmod (a b : w256) : w256 * w256 :=
  if zero256 b then (W256_ZERO, W256_ZERO)
  else if zero256 (tl a) && zero256 (tl b) then
    ([word a 0 / word b 0; 0; 0; 0], [word a 0 mod word b 0; 0; 0; 0])
  else div256_loop 256 a b W256_ZERO W256_ZERO.
Definition u256_div a b := fst (u256_divmod a b).
Definition u256_mod a b := snd (u256_divmod a b).

(** bigint.h:475 *)
Definition i256_is_neg (a : w256) : bool := to_i64 (word a 3) <? 0.
Definition i256_mag (a : w256) : w256 := if i256_is_neg a then i256_neg a else a.
(** bigint.h:477-490 *)
Definition i256_div (a b : w256) : w256 :=
  if zero256 b then W256_ZERO
  else let q := u256_div (i256_mag a) (i256_mag b) in
       if xorb (i256_is_neg a) (i256_is_neg b) then i256_neg q else q.
(** bigint.h:492-505 *)
Definition i256_mod (a b : w256) : w256 :=
  if zero256 b then W256_ZERO
  else let r := u256_mod (i256_mag a) (i256_mag b) in
       if i256_is_neg a then i256_neg r else r.

(** bigint.h:509-521, 585-597 *)
Definition w256_eq (a b : w256) : bool :=
  (word a 0 =? word b 0) && (word a 1 =? word b 1) && (word a 2 =? word b 2) && (word a 3 =? word b 3).
Definition i256_lt (a b : w256) : bool :=
  if negb (to_i64 (word a 3) =? to_i64 (word b 3)) then to_i64 (word a 3) <? to_i64 (word b 3)
  else if negb (word a 2 =? word b 2) then word a 2 <? word b 2
  else if negb (word a 1 =? word b 1) then word a 1 <? word b 1
  else word a 0 <? word b 0.
Definition u256_lt (a b : w256) : bool :=
  if negb (word a 3 =? word b 3) then word a 3 <? word b 3
  else if negb (word a 2 =? word b 2) then word a 2 <? word b 2
  else if negb (word a 1 =? word b 1) then word a 1 <? word b 1
  else word a 0 <? word b 0.
Definition w256_ne (a b : w256) : bool := negb (w256_eq a b).
Definition i256_gt (a b : w256) : bool := i256_lt b a.
Definition i256_le (a b : w256) : bool := negb (i256_gt a b).
Definition i256_ge (a b : w256) : bool := negb (i256_lt a b).
Definition u256_gt (a b : w256) : bool := u256_lt b a.
Definition u256_le (a b : w256) : bool := negb (u256_gt a b).
Definition u256_ge (a b : w256) : bool := negb (u256_lt a b).

(** bigint.h:601-612; [char] is signed, bytes >= 128 are negative, and [*s - '0'] is
    converted to uint64_t *)
Definition char_minus_0 (c : Z) : Z := to_u64 ((if c <? 128 then c else c - 256) - 48).
Fixpoint u128_from_decimal_loop (acc : u128) (s : bytes) : u128 :=
  match s with
  | [] => acc
  | c :: r => if c =? 95 then u128_from_decimal_loop acc r
              else u128_from_decimal_loop
                     (u128_add (u128_mul acc (U128 10 0)) (U128 (char_minus_0 c) 0)) r
  end.
Definition u128_from_decimal (s : bytes) : u128 := u128_from_decimal_loop U128_ZERO s.
(** bigint.h:614-622 *)
Definition i128_from_decimal (wv : bool) (s : bytes) : res i128 :=
  let '(neg, s') := match s with c :: r => if c =? 45 then (true, r) else (false, s) | [] => (false, s) end in
  let u := u128_from_decimal s' in
  let r := I128 (ulo u) (to_i64 (uhi u)) in
  if neg then i128_neg wv r else Ok r.
(** bigint.h:624-637 *)
Fixpoint u256_from_decimal_loop (acc : w256) (s : bytes) : w256 :=
  match s with
  | [] => acc
  | c :: r => if c =? 95 then u256_from_decimal_loop acc r
              else u256_from_decimal_loop
                     (w256_add (w256_mul acc [10; 0; 0; 0]) [char_minus_0 c; 0; 0; 0]) r
  end.
Definition u256_from_decimal (s : bytes) : w256 := u256_from_decimal_loop W256_ZERO s.
(** bigint.h:639-646 *)
Definition i256_from_decimal (s : bytes) : w256 :=
  match s with
  | c :: r => if c =? 45 then i256_neg (u256_from_decimal r) else u256_from_decimal s
  | [] => u256_from_decimal s
  end.

(** bigint.h:650-705 *)
Definition i128_add_checked (wv : bool) (a b : i128) : res i128 :=
  rbind (i128_add wv a b) (fun r =>
    if ((0 <=? ihi a) && (0 <=? ihi b) && (ihi r <? 0)) || ((ihi a <? 0) && (ihi b <? 0) && (0 <=? ihi r))
    then Panic 21 else Ok r).
Definition i128_sub_checked (wv : bool) (a b : i128) : res i128 :=
  rbind (i128_sub wv a b) (fun r =>
    if ((0 <=? ihi a) && (ihi b <? 0) && (ihi r <? 0)) || ((ihi a <? 0) && (0 <=? ihi b) && (0 <=? ihi r))
    then Panic 22 else Ok r).
Definition i128_is_zero (a : i128) : bool := (ihi a =? 0) && (ilo a =? 0).
Definition i128_mul_checked (wv : bool) (a b : i128) : res i128 :=
  let r := i128_mul a b in
  if negb (i128_is_zero a) && negb (i128_is_zero b) then
    rbind (i128_div wv r b) (fun check => if negb (i128_eq check a) then Panic 23 else Ok r)
  else Ok r.
Definition u128_add_checked (a b : u128) : res u128 :=
  let r := u128_add a b in if u128_lt r a then Panic 24 else Ok r.
Definition u128_sub_checked (a b : u128) : res u128 :=
  if u128_lt a b then Panic 25 else Ok (u128_sub a b).
Definition u128_is_zero (a : u128) : bool := (uhi a =? 0) && (ulo a =? 0).
Definition u128_mul_checked (a b : u128) : res u128 :=
  let r := u128_mul a b in
  if negb (u128_is_zero a) && negb (u128_is_zero b) then
    if negb (u128_eq (u128_div r b) a) then Panic 26 else Ok r
  else Ok r.

(** bigint.h:707-768 *)
Definition i256_add_checked (a b : w256) : res w256 :=
  let r := w256_add a b in
  if (negb (i256_is_neg a) && negb (i256_is_neg b) && i256_is_neg r)
     || (i256_is_neg a && i256_is_neg b && negb (i256_is_neg r)) then Panic 27 else Ok r.
Definition i256_sub_checked (a b : w256) : res w256 :=
  let r := w256_sub a b in
  if (negb (i256_is_neg a) && i256_is_neg b && i256_is_neg r)
     || (i256_is_neg a && negb (i256_is_neg b) && negb (i256_is_neg r)) then Panic 28 else Ok r.
Definition i256_mul_checked (a b : w256) : res w256 :=
  let r := w256_mul a b in
  if negb (zero256 a) && negb (zero256 b) then
    if negb (w256_eq (i256_div r b) a) then Panic 29 else Ok r
  else Ok r.
Definition u256_add_checked (a b : w256) : res w256 :=
  let r := w256_add a b in if u256_lt r a then Panic 30 else Ok r.
Definition u256_sub_checked (a b : w256) : res w256 :=
  if u256_lt a b then Panic 31 else Ok (w256_sub a b).
Definition u256_mul_checked (a b : w256) : res w256 :=
  let r := w256_mul a b in
  if negb (zero256 a) && negb (zero256 b) then
    if negb (w256_eq (u256_div r b) a) then Panic 32 else Ok r
  else Ok r.

(** bigint.h:784-797: digits from the end of a buffer; [pos] is the index of the last
    byte written, so a write with [pos = 0] would be [buf[-1]] *)
Fixpoint u128_digits (pos : nat) (v : u128) (out : bytes) : res bytes :=
  if (uhi v =? 0) && (ulo v =? 0) then Ok out
  else match pos with
       | O => UB
       | S p => let '(q, rem) := u128_divmod v (U128 10 0) in
                u128_digits p q (48 + ulo rem :: out)
       end.
(** bigint.h:773-799; the first branch is snprintf into 21 bytes; buffer of 40 bytes,
    the last one for NUL *)
Definition u128_to_string (v : u128) : res bytes :=
  if uhi v =? 0 then Ok (firstn 20 (dec (ulo v)))
  else u128_digits 39 v [].
(** bigint.h:801-815 *)
Definition i128_to_string (wv : bool) (v : i128) : res bytes :=
  if ihi v <? 0 then
    rbind (i128_neg wv v) (fun n =>
      rmap (cons 45) (u128_to_string (U128 (ilo n) (to_u64 (ihi n)))))
  else u128_to_string (U128 (ilo v) (to_u64 (ihi v))).
(** bigint.h:827-838 *)
Fixpoint u256_digits (pos : nat) (v : w256) (out : bytes) : res bytes :=
  if zero256 v then Ok out
  else match pos with
       | O => UB
       | S p => let '(q, rem) := u256_divmod v [10; 0; 0; 0] in
                u256_digits p q (48 + word rem 0 :: out)
       end.
(** bigint.h:818-844 *)
Definition u256_to_string (v : w256) : res bytes :=
  if zero256 (tl v) then Ok (firstn 20 (dec (word v 0)))
  else u256_digits 79 v [].
(** bigint.h:846-858 *)
Definition i256_to_string (v : w256) : res bytes :=
  if i256_is_neg v then rmap (cons 45) (u256_to_string (i256_neg v))
  else u256_to_string v.
