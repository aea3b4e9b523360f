(** Theorems C01-C04 about grayc/src/stdlib/encoding.c.
    Specification vocabulary: EncodingSpec.v.  Proofs: EncodingProofs.v. *)
From Verif Require Import Base EncodingModel EncodingSpec EncodingProofs.

(** C01: encode-then-decode is the identity, never a panic, for every string whose
    encoding fits a string (the encoder's own limit, 1610612733 bytes). *)
Theorem base64_decode_encode : forall s, byte_string s -> Z.of_nat (length s) <= 1610612733 ->
  exists e, base64_encode s = Ok e /\ base64_decode e = Ok s.
Proof.
  intros s Hs Hl. exists (b64_encode_loop s). pose proof (base64_roundtrip s Hs Hl) as R.
  rewrite base64_encode_ok in * by exact Hl. cbn [rbind] in R. auto.
Qed.
Print Assumptions base64_decode_encode.
Example base64_decode_encode_ex :
  byte_string [0; 255; 16; 128] /\ base64_encode [0; 255; 16; 128] = Ok (bs "AP8QgA==").
Proof. split; [repeat constructor; unfold is_byte; lia|reflexivity]. Qed.

(** C01: what is produced is the RFC 4648 encoding, of length 4*ceil(n/3). *)
Theorem base64_encode_rfc4648 : forall s e, byte_string s -> base64_encode s = Ok e ->
  e = rfc4648_base64 s /\ Z.of_nat (length e) = (Z.of_nat (length s) + 2) / 3 * 4 /\ b64_wellformed e.
Proof.
  intros s e Hs H.
  assert (L : Z.of_nat (length s) <= 1610612733).
  { destruct (Z_le_gt_dec (Z.of_nat (length s)) 1610612733); [assumption|].
    rewrite base64_encode_ub in H by lia. discriminate. }
  rewrite base64_encode_ok in H by exact L. injection H as <-.
  split; [apply b64_encode_rfc_loop, Hs|]. split; [apply b64_encode_loop_length|].
  apply b64_decode_accepts. destruct (base64_decode_encode s Hs L) as (e & E & D).
  rewrite base64_encode_ok in E by exact L. injection E as <-. eauto.
Qed.
Print Assumptions base64_encode_rfc4648.
Example base64_encode_rfc4648_ex : base64_encode (bs "Man") = Ok (bs "TWFu").
Proof. reflexivity. Qed.

(** C01: beyond the limit the length computation overflows int32. *)
Theorem base64_encode_limit : forall s, 1610612733 < Z.of_nat (length s) -> base64_encode s = UB.
Proof. exact base64_encode_ub. Qed.
Print Assumptions base64_encode_limit.

(** C02, part that holds: the decoder accepts exactly the padded alphabet texts,
    every other text panics with P0036..P0039 ... *)
Theorem base64_decode_domain_partial : forall t,
  ((exists o, base64_decode t = Ok o) <-> b64_wellformed t) /\
  (~ b64_wellformed t -> exists c, base64_decode t = Panic c /\ 36 <= c <= 39).
Proof.
  intros t. split; [apply b64_decode_accepts|].
  intros N. destruct (base64_decode_outcomes t) as [H|H]; [|exact H].
  exfalso. apply N, b64_decode_accepts, H.
Qed.
Print Assumptions base64_decode_domain_partial.
Example base64_decode_domain_ex :
  b64_wellformed (bs "QUI=") /\ base64_decode (bs "Q=I=") = Panic 39 /\ base64_decode (bs "QUI") = Panic 36
  /\ base64_decode (bs "QQ==QQ==") = Panic 37 /\ base64_decode (bs "QQ=A") = Panic 38.
Proof.
  split; [|repeat split; reflexivity].
  apply b64_decode_accepts. eexists. vm_compute. reflexivity.
Qed.

(** ... the value is the regrouping of the text's bits ... *)
Theorem base64_decode_bits_partial : forall body p,
  Forall (fun c => In c b64_alphabet) body -> (p <= 2)%nat ->
  (length (body ++ repeat equals_sign p) mod 4 = 0)%nat ->
  exists out rest, base64_decode (body ++ repeat equals_sign p) = Ok out /\ byte_string out /\
     b64_body_bits body = flat_map (bits_msb 8) out ++ rest /\ (length rest < 8)%nat.
Proof. exact b64_decode_value. Qed.
Print Assumptions base64_decode_bits_partial.
Example base64_decode_bits_ex : base64_decode (bs "TWE=") = Ok (bs "Ma").
Proof. reflexivity. Qed.

(** ... and a text whose unused low bits are zero is the encoding of its decoding. *)
Theorem base64_canonical_partial : forall body p out,
  Forall (fun c => In c b64_alphabet) body -> (p <= 2)%nat ->
  (length (body ++ repeat equals_sign p) mod 4 = 0)%nat ->
  base64_decode (body ++ repeat equals_sign p) = Ok out ->
  Forall (fun b => b = false) (skipn (8 * length out) (b64_body_bits body)) ->
  rfc4648_base64 out = body ++ repeat equals_sign p.
Proof. exact b64_canonical. Qed.
Print Assumptions base64_canonical_partial.
Example base64_canonical_ex :
  Forall (fun b => b = false) (skipn (8 * length (bs "Ma")) (b64_body_bits (bs "TWE"))).
Proof. vm_compute. repeat constructor. Qed.

(** C02 as stated is false: two texts decode to the same string. *)
Theorem base64_canonical_refuted : exists t o, base64_decode t = Ok o /\ base64_encode o <> Ok t.
Proof.
  exists (bs "QR=="), (bs "A"). split; [reflexivity|]. vm_compute. discriminate.
Qed.
Print Assumptions base64_canonical_refuted.

(** The decoder's output buffer, sized before the loop, is filled exactly. *)
Theorem base64_decode_buffer_exact : forall s out, base64_decode s = Ok out -> s <> [] ->
  Z.of_nat (length out) = b64_decode_capacity s.
Proof. exact b64_capacity_exact. Qed.
Print Assumptions base64_decode_buffer_exact.

(** C03 *)
Theorem hex_decode_encode : forall s, byte_string s -> Z.of_nat (length s) <= 1073741823 ->
  exists e, hex_encode s = Ok e /\ e = hex_text s /\ hex_decode e = Ok s.
Proof.
  intros s Hs Hl. exists (hex_text s). pose proof (hex_roundtrip s Hs Hl) as R.
  rewrite hex_encode_text in * by assumption. auto.
Qed.
Print Assumptions hex_decode_encode.
Example hex_decode_encode_ex : hex_encode [0; 171; 255] = Ok (bs "00abff").
Proof. reflexivity. Qed.

Theorem hex_decode_domain : forall t,
  (exists o, hex_decode t = Ok o) <-> (Nat.even (length t) = true /\ Forall is_hex_digit t).
Proof. exact hex_decode_accepts. Qed.
Print Assumptions hex_decode_domain.

Theorem hex_decode_rejects : forall t,
  (Nat.even (length t) = false -> hex_decode t = Panic 40) /\
  (Nat.even (length t) = true -> ~ Forall is_hex_digit t -> hex_decode t = Panic 41).
Proof.
  intros t. split.
  - intros H. unfold hex_decode. destruct (negb _) eqn:E; [reflexivity|].
    rewrite <- Nat.negb_odd in H. apply negb_false_iff, Nat.odd_spec in H as [k Hk]. lia.
  - intros H N. assert (D : forall t, (exists o, hex_decode_loop t = Ok o) \/ hex_decode_loop t = Panic 41).
    { clear. intros t. induction t as [|a|a b r IH] using list2_ind; [left; exists []; reflexivity|left; exists []; reflexivity|].
      cbn [hex_decode_loop]. destruct (negb (isxdigit a) || negb (isxdigit b)); [auto|].
      destruct IH as [[o ->]| ->]; cbn [rmap]; eauto. }
    unfold hex_decode. apply Nat.even_spec in H as [k Hk].
    destruct (negb _) eqn:E; [lia|].
    destruct (D t) as [Hd|Hd]; [|exact Hd]. exfalso. apply N.
    apply hex_decode_domain. unfold hex_decode. rewrite E. exact Hd.
Qed.
Print Assumptions hex_decode_rejects.
Example hex_decode_rejects_ex : hex_decode (bs "abc") = Panic 40 /\ hex_decode (bs "0g") = Panic 41.
Proof. split; reflexivity. Qed.

Theorem hex_decode_case_insensitive : forall t, byte_string t -> hex_decode (map lower t) = hex_decode t.
Proof. exact hex_decode_case. Qed.
Print Assumptions hex_decode_case_insensitive.
Example hex_decode_case_ex : hex_decode (bs "aBfF") = Ok [171; 255].
Proof. reflexivity. Qed.

Theorem hex_encode_decode : forall t o, hex_decode t = Ok o -> byte_string o /\ hex_text o = map lower t.
Proof. exact hex_decode_inverse. Qed.
Print Assumptions hex_encode_decode.

(** C04 *)
Theorem url_decode_encode : forall s e, byte_string s -> url_encode s = Ok e -> url_decode e = Ok s.
Proof. intros s e Hs H. apply url_encode_inv in H as ->. apply url_roundtrip_text, Hs. Qed.
Print Assumptions url_decode_encode.
Example url_decode_encode_ex : url_encode (bs "a b+%") = Ok (bs "a%20b%2B%25").
Proof. reflexivity. Qed.

Theorem url_encode_total : forall s, Z.of_nat (length s) <= 715827882 -> exists e, url_encode s = Ok e.
Proof. intros s H. exists (url_encode_text s). apply url_encode_ok, H. Qed.
Print Assumptions url_encode_total.

Theorem url_encode_alphabet : forall s e, byte_string s -> url_encode s = Ok e -> pct_text e.
Proof. intros s e Hs H. apply url_encode_inv in H as ->. apply url_encode_shape, Hs. Qed.
Print Assumptions url_encode_alphabet.

Theorem url_encode_keeps_unreserved : forall s e, Forall (fun c => In c unreserved) s ->
  url_encode s = Ok e -> e = s.
Proof. intros s e Hs H. apply url_encode_inv in H as ->. apply url_encode_unreserved, Hs. Qed.
Print Assumptions url_encode_keeps_unreserved.
Example url_encode_keeps_ex : url_encode (bs "A-z_0.9~") = Ok (bs "A-z_0.9~").
Proof. reflexivity. Qed.

(** The decoder either succeeds or panics with P0042, and is the identity on text
    without '%' and '+'. *)
Theorem url_decode_total : forall t, (exists o, url_decode t = Ok o) \/ url_decode t = Panic 42.
Proof. intros t. exact (url_decode_outcomes (length t) t (le_n _)). Qed.
Print Assumptions url_decode_total.
Theorem url_decode_identity : forall t, ~ In 37 t -> ~ In 43 t -> url_decode t = Ok t.
Proof. exact url_decode_plain. Qed.
Print Assumptions url_decode_identity.
