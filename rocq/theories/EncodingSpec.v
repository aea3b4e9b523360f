(** Independent specification of the encodings: RFC 4648 base64 read as a
    regrouping of bits, hexadecimal, RFC 3986 unreserved characters. *)
From Verif Require Import Base.

(** The n low bits of x, most significant first. *)
Fixpoint bits_msb (n : nat) (x : Z) : list bool :=
  match n with O => [] | S k => Z.testbit x (Z.of_nat k) :: bits_msb k x end.

(** Value of a bit list, most significant first. *)
Fixpoint val_msb (acc : Z) (l : list bool) : Z :=
  match l with [] => acc | b :: r => val_msb (2 * acc + (if b then 1 else 0)) r end.

(** Cut into groups of six, completing the last group with zero bits (RFC 4648 s.4). *)
Fixpoint sextets (l : list bool) : list (list bool) :=
  match l with
  | [] => []
  | a :: b :: c :: d :: e :: f :: r => [a; b; c; d; e; f] :: sextets r
  | short => [short ++ repeat false (6 - length short)]
  end.

Definition b64_alphabet : bytes :=
  bs "ABCDEFGHIJKLMNOPQRSTUVWXYZabcdefghijklmnopqrstuvwxyz0123456789+/".
Definition equals_sign : Z := 61.

(** The RFC 4648 encoding. *)
Definition rfc4648_base64 (s : bytes) : bytes :=
  let body := map (fun g => nth (Z.to_nat (val_msb 0 g)) b64_alphabet 0)
                  (sextets (flat_map (bits_msb 8) s)) in
  body ++ repeat equals_sign ((4 - length body mod 4) mod 4)%nat.

(** Padded base64 texts: alphabet characters, then at most two '=', total length a
    multiple of four. *)
Definition b64_wellformed (t : bytes) : Prop :=
  exists body p, t = body ++ repeat equals_sign p /\ (p <= 2)%nat /\
    Forall (fun c => In c b64_alphabet) body /\ (length t mod 4 = 0)%nat.

(** The digit value of an alphabet character is its index. *)
Fixpoint index_in (c : Z) (l : bytes) : Z :=
  match l with [] => 0 | x :: r => if x =? c then 0 else 1 + index_in c r end.

(** The bits denoted by the body of a padded text. *)
Definition b64_body_bits (body : bytes) : list bool :=
  flat_map (fun c => bits_msb 6 (index_in c b64_alphabet)) body.

(** The hexadecimal digits. *)
Definition hex_digits_lower : bytes := bs "0123456789abcdef".
Definition hex_digits_upper : bytes := bs "0123456789ABCDEF".
Definition is_hex_digit (c : Z) : Prop := In c hex_digits_lower \/ In c hex_digits_upper.

(** Two lower-case digits per byte, high digit first. *)
Definition hex_text (s : bytes) : bytes :=
  flat_map (fun b => [nth (Z.to_nat (b / 16)) hex_digits_lower 0;
                      nth (Z.to_nat (b mod 16)) hex_digits_lower 0]) s.

(** ASCII lower case. *)
Definition lower (c : Z) : Z := if (65 <=? c) && (c <=? 90) then c + 32 else c.

(** RFC 3986 unreserved characters. *)
Definition unreserved : bytes :=
  bs "ABCDEFGHIJKLMNOPQRSTUVWXYZabcdefghijklmnopqrstuvwxyz0123456789-_.~".

(** Strings made of unreserved characters and %XX triplets. *)
Inductive pct_text : bytes -> Prop :=
| pct_nil : pct_text []
| pct_char c r : In c unreserved -> pct_text r -> pct_text (c :: r)
| pct_hex h l r : In h hex_digits_upper -> In l hex_digits_upper -> pct_text r ->
                  pct_text (37 :: h :: l :: r).
