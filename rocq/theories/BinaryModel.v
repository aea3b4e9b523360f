(** Model of grayc/src/stdlib/binary.c.

    The target machine is little-endian (the code relies on it: encode_*_le copies the
    object representation).  Signed [<<] is the bit operation GCC and Clang implement;
    [decode_i64_be_iso] is the same loop under strict ISO C, where shifting a value out
    of range is undefined.  Reading past the end of a short byte array is [UB] (no
    decoder checks the length).  Floating-point values are their IEEE bit patterns. *)
From Verif Require Import Base BigIntModel.

(** The object representation: n bytes, least significant first. *)
Fixpoint le_bytes (n : nat) (x : Z) : bytes :=
  match n with O => [] | S m => x mod 256 :: le_bytes m (x / 256) end.
(** binary.c:14-21 and :23-30 *)
Definition make_bytes (obj : bytes) : bytes := obj.
Definition make_bytes_reversed (obj : bytes) : bytes := rev obj.

(** Object representation of the scalar types and of the structs of bigint.h:19-22. *)
Definition obj_int (n : nat) (x : Z) : bytes := le_bytes n (x mod 2 ^ (8 * Z.of_nat n)).
Definition obj_i128 (a : i128) : bytes := obj_int 8 (ilo a) ++ obj_int 8 (ihi a).
Definition obj_u128 (a : u128) : bytes := obj_int 8 (ulo a) ++ obj_int 8 (uhi a).
Definition obj_256 (a : w256) : bytes := flat_map (obj_int 8) a.

(** memcpy(&v, bytes->data, n) into an unsigned / signed n-byte integer *)
Fixpoint le_val (s : bytes) : Z := match s with [] => 0 | b :: r => b + 256 * le_val r end.
Definition data (n : nat) (s : bytes) : res bytes :=
  if Nat.ltb (length s) n then UB else Ok (firstn n s).
Definition memcpy_u (n : nat) (s : bytes) : res Z := rmap le_val (data n s).
Definition memcpy_i (n : nat) (s : bytes) : res Z :=
  rmap (fun d => wrap_i (8 * Z.of_nat n) (le_val d)) (data n s).

(** binary.c:33-36 *)
Definition encode_i8 (v : Z) : bytes := make_bytes (obj_int 1 v).
Definition encode_u8 (v : Z) : bytes := make_bytes (obj_int 1 v).
Definition decode_i8 (s : bytes) : res Z := memcpy_i 1 s.
Definition decode_u8 (s : bytes) : res Z := memcpy_u 1 s.
(** binary.c:39-41, 48-50, 57-59, 66-68, 75-77, 86-88: all widths; w is the width in bytes *)
Definition encode_int_le (w : nat) (v : Z) : bytes := make_bytes (obj_int w v).
Definition encode_int_be (w : nat) (v : Z) : bytes := make_bytes_reversed (obj_int w v).
Definition decode_i_le (w : nat) (s : bytes) : res Z := memcpy_i w s.
Definition decode_u_le (w : nat) (s : bytes) : res Z := memcpy_u w s.
(** binary.c:42-45, 51-54: (d[0] << 8) | d[1], in int, converted to the result type *)
Definition be16 (d : bytes) : Z :=
  match d with [d0; d1] => Z.lor (Z.shiftl d0 8) d1 | _ => 0 end.
Definition decode_i16_be (s : bytes) : res Z := rmap (fun d => wrap_i 16 (be16 d)) (data 2 s).
Definition decode_u16_be (s : bytes) : res Z := rmap (fun d => wrap_u 16 (be16 d)) (data 2 s).
(** binary.c:60-63, 69-72: in uint32_t *)
Definition shl32 (x n : Z) : Z := wrap_u 32 (Z.shiftl x n).
Definition be32 (d : bytes) : Z :=
  match d with
  | [d0; d1; d2; d3] => Z.lor (Z.lor (Z.lor (shl32 d0 24) (shl32 d1 16)) (shl32 d2 8)) d3
  | _ => 0
  end.
Definition decode_i32_be (s : bytes) : res Z := rmap (fun d => wrap_i 32 (be32 d)) (data 4 s).
Definition decode_u32_be (s : bytes) : res Z := rmap be32 (data 4 s).
(** binary.c:89-94: for (i..) v = (v << 8) | d[i], uint64_t *)
Definition be64 (d : bytes) : Z := fold_left (fun v b => Z.lor (shl64 v 8) b) d 0.
Definition decode_u64_be (s : bytes) : res Z := rmap be64 (data 8 s).
(** binary.c:78-83: the same in int64_t *)
Definition be64s (d : bytes) : Z := fold_left (fun v b => Z.lor (wrap_i 64 (Z.shiftl v 8)) b) d 0.
Definition decode_i64_be (s : bytes) : res Z := rmap be64s (data 8 s).
Fixpoint be64s_iso (v : Z) (d : bytes) : res Z :=
  match d with
  | [] => Ok v
  | b :: r => if (v <? 0) || (INT64_MAX <? v * 256) then UB else be64s_iso (Z.lor (v * 256) b) r
  end.
Definition decode_i64_be_iso (s : bytes) : res Z := rbind (data 8 s) (be64s_iso 0).

(** binary.c:97-123 *)
Definition encode_i128_le (a : i128) : bytes := make_bytes (obj_i128 a).
Definition encode_i128_be (a : i128) : bytes := make_bytes_reversed (obj_i128 a).
Definition encode_u128_le (a : u128) : bytes := make_bytes (obj_u128 a).
Definition encode_u128_be (a : u128) : bytes := make_bytes_reversed (obj_u128 a).
Definition decode_i128_le (s : bytes) : res i128 :=
  rmap (fun d => I128 (le_val (firstn 8 d)) (wrap_i 64 (le_val (skipn 8 d)))) (data 16 s).
Definition decode_u128_le (s : bytes) : res u128 :=
  rmap (fun d => U128 (le_val (firstn 8 d)) (le_val (skipn 8 d))) (data 16 s).
Definition decode_i128_be (s : bytes) : res i128 :=
  rmap (fun d => I128 (be64 (skipn 8 d)) (to_i64 (be64 (firstn 8 d)))) (data 16 s).
Definition decode_u128_be (s : bytes) : res u128 :=
  rmap (fun d => U128 (be64 (skipn 8 d)) (be64 (firstn 8 d))) (data 16 s).

(** binary.c:126-152 *)
Definition encode_256_le (a : w256) : bytes := make_bytes (obj_256 a).
Definition encode_256_be (a : w256) : bytes := make_bytes_reversed (obj_256 a).
Definition limb_at (f : bytes -> Z) (d : bytes) (k : nat) : Z := f (firstn 8 (skipn (8 * k) d)).
Definition decode_256_le (s : bytes) : res w256 :=
  rmap (fun d => [limb_at le_val d 0; limb_at le_val d 1; limb_at le_val d 2; limb_at le_val d 3]) (data 32 s).
(** v.w[w] comes from d[(3 - w) * 8 ..] *)
Definition decode_256_be (s : bytes) : res w256 :=
  rmap (fun d => [limb_at be64 d 3; limb_at be64 d 2; limb_at be64 d 1; limb_at be64 d 0]) (data 32 s).

(** binary.c:155-162 (float), 164-171 (double): bit pattern of w = 4 or 8 bytes *)
Definition encode_f_le (w : nat) (bits : Z) : bytes := make_bytes (obj_int w bits).
Definition encode_f_be (w : nat) (bits : Z) : bytes := make_bytes_reversed (obj_int w bits).
Definition decode_f_le (w : nat) (s : bytes) : res Z := memcpy_u w s.
Definition decode_f_be (w : nat) (s : bytes) : res Z := rmap (fun d => le_val (rev d)) (data w s).
