(** C68: the digests are those of the standards.  C98: random_hex. *)
From Verif Require Import Base BaseFacts DigestSpec DigestModel DigestProofs DigestProofs2 DigestProofs3.
Open Scope Z_scope.

(** A string has at most 2147483647 bytes *)
Definition a_string (m : bytes) : Prop := byte_string m /\ Z.of_nat (length m) < 2 ^ 31.

(** sha256 is the SHA-256 of FIPS 180-4: the standard gives every string exactly one digest, and the text is it *)
Theorem sha256_exact : forall m, a_string m ->
  exists d, (forall d', sha256_of m d' <-> d' = d) /\ hex_bytes (flat_map bytes_be (words8 d)) (sha256 m).
Proof.
  intros m [M L]. exists (sha_after (sha256_message m) (length (sha256_message m) / 64)). split.
  - intros d'. pose proof (sha_digest m M L) as D. split; [intros D'; exact (sha_unique m _ _ D' D)|intros ->; exact D].
  - rewrite sha_text. apply hex_words.
Qed.
(** md5 is the MD5 of RFC 1321 *)
Theorem md5_exact : forall m, a_string m ->
  exists d, (forall d', md5_of m d' <-> d' = d) /\ hex_bytes (flat_map bytes_le (words4 d)) (md5 m).
Proof.
  intros m [M L]. exists (md5_after (md5_message m) (length (md5_message m) / 64)). split.
  - intros d'. pose proof (md5_digest m M L) as D. split; [intros D'; exact (md5_unique m _ _ D' D)|intros ->; exact D].
  - apply md5_text.
Qed.
(** The texts are 64 and 32 lower-case hexadecimal digits *)
Lemma digits_only : forall l t, hex_bytes l t -> Forall (fun c => 48 <= c <= 57 \/ 97 <= c <= 102) t.
Proof. intros l t H0. induction H0 as [|b hi lo h l0 bs0 t Hh Hl E D1 D2 _ IH]; [constructor|]. unfold digit_value in *. constructor; [lia|]. constructor; [lia|exact IH]. Qed.
Theorem sha256_digits : forall m, length (sha256 m) = 64%nat /\ Forall (fun c => 48 <= c <= 57 \/ 97 <= c <= 102) (sha256 m).
Proof.
  intros m. rewrite sha_text. pose proof (hex_words (words8 (sha_after (sha256_message m) (length (sha256_message m) / 64)))) as H0.
  split; [|exact (digits_only _ _ H0)]. rewrite (hex_length _ _ H0). destruct (sha_after _ _) as [[[[[[[a b] c] d] e] f] g] h]. reflexivity.
Qed.
Theorem md5_digits : forall m, length (md5 m) = 32%nat /\ Forall (fun c => 48 <= c <= 57 \/ 97 <= c <= 102) (md5 m).
Proof.
  intros m. pose proof (md5_text m) as H0. split; [|exact (digits_only _ _ H0)]. rewrite (hex_length _ _ H0). destruct (md5_after _ _) as [[[a b] c] d]. reflexivity.
Qed.
(** Every message is padded as the standards say *)
Theorem messages_padded : forall m, a_string m -> padded_by value_be m (sha256_message m) /\ padded_by value_le m (md5_message m).
Proof. intros m [M L]. split; [exact (sha_padded m L)|exact (md5_padded m L)]. Qed.
(** The examples of the standards: "abc", and a message of two blocks *)
Example sha256_abc : a_string (bs "abc") /\ sha256 (bs "abc") = bs "ba7816bf8f01cfea414140de5dae2223b00361a396177a9cb410ff61f20015ad".
Proof. split; [|vm_compute; reflexivity]. split; [apply bs_bytes|reflexivity]. Qed.
Example sha256_two_blocks : sha256 (bs "abcdbcdecdefdefgefghfghighijhijkijkljklmklmnlmnomnopnopq") = bs "248d6a61d20638b8e5c026930c3e6039a33ce45964ff2167f6ecedd419db06c1".
Proof. vm_compute. reflexivity. Qed.
Example md5_abc : md5 (bs "abc") = bs "900150983cd24fb0d6963f7d28e17f72" /\ md5 [] = bs "d41d8cd98f00b204e9800998ecf8427e".
Proof. vm_compute. split; reflexivity. Qed.

(** C98: n digits, those of the random bytes in order; the string's length field is n.  Missing: lengths of 2^31 and more *)
Theorem random_hex_exact_partial : forall urandom n raw, 0 <= n < 2 ^ 31 ->
  urandom ((n + 1) / 2) = Some raw -> byte_string raw -> Z.of_nat (length raw) = (n + 1) / 2 ->
  exists text, random_hex urandom n = Ok (firstn (Z.to_nat n) text, n) /\ hex_bytes raw text /\ length (firstn (Z.to_nat n) text) = Z.to_nat n.
Proof.
  intros urandom n raw N U B L. destruct (random_text raw n B L ltac:(lia)) as [t [Ht E]].
  exists t. pose proof (hex_length _ _ Ht) as Lt. change (2 ^ 31) with 2147483648 in N.
  assert (Lf : length (firstn (Z.to_nat n) t) = Z.to_nat n) by (rewrite firstn_length; lia).
  split; [|split; [exact Ht|exact Lf]]. unfold random_hex.
  destruct (n <? 0) eqn:E1; [lia|]. destruct (n =? 0) eqn:E2. { apply Z.eqb_eq in E2. subst n. reflexivity. }
  destruct (n =? INT64_MAX) eqn:E3. { unfold INT64_MAX in E3. lia. }
  rewrite U. f_equal. f_equal; [exact E|]. unfold wrap_i. change (2 ^ 32) with 4294967296. change (2 ^ (32 - 1)) with 2147483648. cbv zeta. rewrite Z.mod_small by lia. destruct (n <? 2147483648) eqn:E4; [reflexivity|lia].
Qed.
Theorem random_hex_negative : forall urandom n, n < 0 -> random_hex urandom n = Panic 51.
Proof. intros urandom n N. unfold random_hex. destruct (n <? 0) eqn:E; [reflexivity|lia]. Qed.
(** With fewer bytes than asked for there is no text *)
Theorem random_hex_unreadable : forall urandom n, 0 < n < INT64_MAX -> urandom ((n + 1) / 2) = None -> random_hex urandom n = Panic 52.
Proof.
  intros urandom n N U. unfold random_hex. destruct (n <? 0) eqn:E; [lia|]. destruct (n =? 0) eqn:E2; [lia|]. destruct (n =? INT64_MAX) eqn:E3; [lia|]. rewrite U. reflexivity.
Qed.
(** random_hex(4294967300) makes that many digits and a string of length 4 *)
Theorem random_hex_length_refuted : ~ (forall urandom n text len, (forall k raw, urandom k = Some raw -> Z.of_nat (length raw) = k) -> random_hex urandom n = Ok (text, len) -> len = n).
Proof.
  intros X. assert (E : exists text, random_hex (fun k => if k <? 0 then None else Some (repeat 0 (Z.to_nat k))) 4294967300 = Ok (text, 4)).
  { eexists. unfold random_hex. change (4294967300 <? 0) with false. change (4294967300 =? 0) with false. change (4294967300 =? INT64_MAX) with false.
    change ((4294967300 + 1) / 2 <? 0) with false. change (wrap_i 32 4294967300) with 4. reflexivity. }
  destruct E as [text E]. refine (_ (X _ _ _ _ _ E)); [discriminate|]. intros k raw K. destruct (k <? 0) eqn:Ek; [discriminate K|]. injection K as <-. rewrite repeat_length. lia.
Qed.
Example random_hex_odd : random_hex (fun _ => Some [18; 239]) 3 = Ok (bs "12e", 3).
Proof. vm_compute. reflexivity. Qed.

Print Assumptions sha256_exact.
Print Assumptions md5_exact.
Print Assumptions sha256_digits.
Print Assumptions md5_digits.
Print Assumptions messages_padded.
Print Assumptions random_hex_exact_partial.
Print Assumptions random_hex_negative.
Print Assumptions random_hex_unreadable.
Print Assumptions random_hex_length_refuted.
