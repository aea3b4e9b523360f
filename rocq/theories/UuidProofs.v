From Verif Require Import Base BaseFacts EncodingModel EncodingSpec EncodingProofs EncodingProps UuidModel UuidSpec.
Ltac Zify.zify_post_hook ::= Z.div_mod_to_equations.

Lemma uuid_hex_isx c : uuid_hex c = isxdigit c.
Proof. unfold uuid_hex, isxdigit. rewrite <- !orb_assoc. f_equal. apply orb_comm. Qed.

Ltac spl := repeat match goal with H : Forall _ (_ :: _) |- _ => apply Forall_cons_iff in H; destruct H end.

(** splitting valid_loop at a run of non-hyphen positions *)
Lemma valid_loop_run a : forall i r, (forall k, (i <= k < i + length a)%nat -> Nat.eqb k 8 || Nat.eqb k 13 || Nat.eqb k 18 || Nat.eqb k 23 = false) ->
  valid_loop i (a ++ r) = forallb isxdigit a && valid_loop (i + length a) r.
Proof.
  induction a as [|c a IH]; intros i r H; cbn [app valid_loop forallb length andb].
  - f_equal. lia.
  - rewrite H by (cbn [length]; lia). rewrite uuid_hex_isx, IH.
    + rewrite andb_assoc. f_equal. f_equal. lia.
    + intros k Hk. apply H. cbn [length]. lia.
Qed.
Lemma forallb_hex a : forallb isxdigit a = true <-> Forall is_hex_digit a.
Proof. rewrite forallb_forall, Forall_forall. split; intros H x Hx; apply isxdigit_spec, H, Hx. Qed.
Lemma not_hyph_pos k : k <> 8%nat -> k <> 13%nat -> k <> 18%nat -> k <> 23%nat -> Nat.eqb k 8 || Nat.eqb k 13 || Nat.eqb k 18 || Nat.eqb k 23 = false.
Proof. intros. rewrite !(proj2 (Nat.eqb_neq _ _)) by assumption. reflexivity. Qed.

Lemma cut_at {A} n (s : list A) : (n <= length s)%nat -> exists a r, s = a ++ r /\ length a = n.
Proof. intros H. exists (firstn n s), (skipn n s). split; [symmetry; apply firstn_skipn|apply firstn_length_le, H]. Qed.
Lemma valid_split a x b y c z d w e :
  length a = 8%nat -> length b = 4%nat -> length c = 4%nat -> length d = 4%nat ->  length e = 12%nat ->
  valid_loop 0 (a ++ [x] ++ b ++ [y] ++ c ++ [z] ++ d ++ [w] ++ e) = true <->
  (x = 45 /\ y = 45 /\ z = 45 /\ w = 45 /\ Forall is_hex_digit (a ++ b ++ c ++ d ++ e)).
Proof.
  intros La Lb Lc Ld Le.
  rewrite valid_loop_run by (intros; apply not_hyph_pos; lia). rewrite La. cbn [app valid_loop Nat.add Nat.eqb orb].
  rewrite valid_loop_run by (intros; apply not_hyph_pos; lia). rewrite Lb. cbn [app valid_loop Nat.add Nat.eqb orb].
  rewrite valid_loop_run by (intros; apply not_hyph_pos; lia). rewrite Lc. cbn [app valid_loop Nat.add Nat.eqb orb].
  rewrite valid_loop_run by (intros; apply not_hyph_pos; lia). rewrite Ld. cbn [app valid_loop Nat.add Nat.eqb orb].
  rewrite <- (app_nil_r e) at 1.
  rewrite valid_loop_run by (intros; apply not_hyph_pos; lia). cbn [valid_loop]. rewrite andb_true_r.
  rewrite !andb_true_iff, !Z.eqb_eq, !forallb_hex, !Forall_app_iff. unfold HYPHEN. tauto.
Qed.
Lemma is_valid_text s : is_valid s = true <-> uuid_text s.
Proof.
  unfold is_valid, uuid_text. split.
  - destruct (Nat.eqb (length s) 36) eqn:L; [|discriminate]. cbn [negb]. intros H. apply Nat.eqb_eq in L.
    destruct (cut_at 8 s ltac:(lia)) as (a & r1 & -> & La). rewrite app_length in L.
    destruct r1 as [|x r1]; [cbn in L; lia|]. cbn [length] in L.
    destruct (cut_at 4 r1 ltac:(lia)) as (b & r2 & -> & Lb). rewrite app_length in L.
    destruct r2 as [|y r2]; [cbn in L; lia|]. cbn [length] in L.
    destruct (cut_at 4 r2 ltac:(lia)) as (c & r3 & -> & Lc). rewrite app_length in L.
    destruct r3 as [|z r3]; [cbn in L; lia|]. cbn [length] in L.
    destruct (cut_at 4 r3 ltac:(lia)) as (d & r4 & -> & Ld). rewrite app_length in L.
    destruct r4 as [|w e]; [cbn in L; lia|]. cbn [length] in L.
    pose proof (valid_split a x b y c z d w e La Lb Lc Ld ltac:(lia)) as [V _]. apply V in H.
    destruct H as (-> & -> & -> & -> & F). exists a, b, c, d, e. repeat split; auto. lia.
  - intros (a & b & c & d & e & -> & La & Lb & Lc & Ld & Le & F).
    rewrite (proj2 (Nat.eqb_eq _ _)) by (rewrite !app_length; cbn [length]; lia). cbn [negb].
    apply valid_split; auto.
Qed.

(** lower-casing *)
Lemma uuid_low_valid : forall s i, valid_loop i s = true -> valid_loop i (map uuid_low s) = true.
Proof.
  induction s as [|c s IH]; intros i H; [reflexivity|]. cbn [map valid_loop] in *. apply andb_true_iff in H as [H1 H2].
  rewrite IH by exact H2. rewrite andb_true_r. destruct (_ || _).
  - apply Z.eqb_eq in H1. subst c. reflexivity.
  - unfold uuid_low, uuid_hex in *. destruct ((65 <=? c) && (c <=? 70)) eqn:C; lia.
Qed.
Lemma uuid_low_lower c : uuid_hex c = true \/ c = 45 -> uuid_low c = lower c /\ (In (uuid_low c) hex_digits_lower \/ uuid_low c = 45).
Proof.
  intros H.
  assert (R : is_byte c) by (unfold uuid_hex, is_byte in *; lia).
  pose proof (sweep_bytes (fun c => implb (uuid_hex c || (c =? 45)) ((uuid_low c =? lower c) && (inb (uuid_low c) hex_digits_lower || (uuid_low c =? 45))))
    ltac:(vm_compute; reflexivity) c R) as S. cbv beta in S.
  assert (E : uuid_hex c || (c =? 45) = true) by (destruct H as [-> | ->]; [reflexivity|apply orb_true_r]).
  rewrite E in S. cbn [implb] in S. apply andb_true_iff in S as [S1 S2]. split; [apply Z.eqb_eq, S1|].
  apply orb_true_iff in S2 as [S2|S2]; [left; apply inb_spec, S2|right; apply Z.eqb_eq, S2].
Qed.
Lemma valid_loop_chars : forall s i, valid_loop i s = true -> Forall (fun c => uuid_hex c = true \/ c = 45) s.
Proof.
  induction s as [|c s IH]; intros i H; constructor; cbn [valid_loop] in H; apply andb_true_iff in H as [H1 H2].
  - destruct (_ || _); [right; apply Z.eqb_eq in H1; exact H1|auto].
  - eapply IH, H2.
Qed.
Lemma low_lower_map s : Forall (fun c => uuid_hex c = true \/ c = 45) s -> map uuid_low s = map lower s /\ lower_hex (map uuid_low s).
Proof.
  unfold lower_hex. induction 1 as [|c s Hc Hs [IH1 IH2]]; [split; [reflexivity|constructor]|].
  destruct (uuid_low_lower c Hc) as [L1 L2]. cbn [map]. rewrite L1, IH1. split; [reflexivity|]. constructor; [rewrite <- L1; exact L2|rewrite <- IH1; exact IH2].
Qed.

(** format *)
Lemma hex2_facts b : is_byte b -> exists h l, hex2 false b = [h; l] /\ In h hex_digits_lower /\ In l hex_digits_lower /\ h <> 45 /\ l <> 45.
Proof.
  intros Hb. unfold hex2. eexists _, _. split; [reflexivity|].
  pose proof (sweep_bytes (fun b => let h := hex_digit false (b / 16) in let l := hex_digit false (b mod 16) in
     inb h hex_digits_lower && inb l hex_digits_lower && negb (h =? 45) && negb (l =? 45)) ltac:(vm_compute; reflexivity) b Hb) as S.
  cbv beta zeta in S. rewrite !andb_true_iff in S. destruct S as [[[S1 S2] S3] S4].
  repeat split; try (apply inb_spec; assumption); intros E; rewrite E in *; discriminate.
Qed.
Ltac sixteen b L := destruct b as [|b0 [|b1 [|b2 [|b3 [|b4 [|b5 [|b6 [|b7 [|b8 [|b9 [|b10 [|b11 [|b12 [|b13 [|b14 [|b15 [|]]]]]]]]]]]]]]]]]; try discriminate L; clear L.

Lemma hex2s_lower l : byte_string l -> Forall is_hex_digit (flat_map (hex2 false) l) /\ Forall (fun c => In c hex_digits_lower) (flat_map (hex2 false) l)
   /\ filter (fun c => negb (c =? 45)) (flat_map (hex2 false) l) = flat_map (hex2 false) l.
Proof.
  unfold byte_string. induction 1 as [|b l Hb Hl (I1 & I2 & I3)]; [repeat split; constructor|].
  destruct (hex2_facts b Hb) as (h & lo & E & H1 & H2 & H3 & H4). cbn [flat_map]. rewrite E. cbn [app filter].
  rewrite (proj2 (Z.eqb_neq _ _) H3), (proj2 (Z.eqb_neq _ _) H4). cbn [negb]. rewrite I3. unfold is_hex_digit in *.
  repeat split; auto using Forall_cons.
Qed.
Definition H2 := flat_map (hex2 false).
Lemma format_blocks b : format_hyphenated b =
  H2 [b_at b 0; b_at b 1; b_at b 2; b_at b 3] ++ [45] ++ H2 [b_at b 4; b_at b 5] ++ [45] ++ H2 [b_at b 6; b_at b 7] ++ [45] ++
  H2 [b_at b 8; b_at b 9] ++ [45] ++ H2 [b_at b 10; b_at b 11; b_at b 12; b_at b 13; b_at b 14; b_at b 15].
Proof. reflexivity. Qed.
Lemma b_at_byte b i : byte_string b -> is_byte (b_at b i).
Proof.
  intros H. unfold b_at. destruct (nth_in_or_default i b 0) as [I| ->]; [|unfold is_byte; lia].
  unfold byte_string in H. rewrite Forall_forall in H. apply H, I.
Qed.
Lemma at_bytes b l : byte_string b -> byte_string (map (b_at b) l).
Proof. intros H. unfold byte_string. apply Forall_forall. intros x Hx. apply in_map_iff in Hx as (i & <- & _). apply b_at_byte, H. Qed.
Lemma format_text b : byte_string b -> uuid_text (format_hyphenated b) /\ lower_hex (format_hyphenated b).
Proof.
  intros Hb. rewrite format_blocks.
  pose proof (fun l => hex2s_lower _ (at_bytes b l Hb)) as A.
  pose proof (A [0;1;2;3]%nat) as A1. pose proof (A [4;5]%nat) as A2. pose proof (A [6;7]%nat) as A3. pose proof (A [8;9]%nat) as A4.
  pose proof (A [10;11;12;13;14;15]%nat) as A5. cbn [map] in *.
  split.
  - eexists _, _, _, _, _. split; [reflexivity|]. repeat split. rewrite !Forall_app_iff. unfold H2. tauto.
  - unfold lower_hex. assert (W : forall l, Forall (fun c => In c hex_digits_lower) l -> Forall (fun c => In c hex_digits_lower \/ c = 45) l)
      by (intros l; apply Forall_impl; auto).
    rewrite !Forall_app_iff. unfold H2. repeat split; (apply W; tauto) || (constructor; [right; reflexivity|constructor]).
Qed.
Lemma format_compact b : byte_string b -> length b = 16%nat -> without_hyphens (format_hyphenated b) = flat_map (hex2 false) b.
Proof.
  intros Hb L. unfold without_hyphens. rewrite format_blocks, !filter_app. unfold H2.
  pose proof (fun l => hex2s_lower _ (at_bytes b l Hb)) as A.
  pose proof (proj2 (proj2 (A [0;1;2;3]%nat))) as A1. pose proof (proj2 (proj2 (A [4;5]%nat))) as A2. pose proof (proj2 (proj2 (A [6;7]%nat))) as A3.
  pose proof (proj2 (proj2 (A [8;9]%nat))) as A4. pose proof (proj2 (proj2 (A [10;11;12;13;14;15]%nat))) as A5. cbn [map] in *.
  rewrite A1, A2, A3, A4, A5. clear - L.
  sixteen b L. reflexivity.
Qed.
Lemma format_length b : length (format_hyphenated b) = 36%nat.
Proof. reflexivity. Qed.

(** stamping *)
Lemma upd_length b i v : length (upd b i v) = length b.
Proof. revert i. induction b as [|x b IH]; intros [|i]; cbn; auto. Qed.
Lemma upd_bytes b i v : byte_string b -> is_byte v -> byte_string (upd b i v).
Proof.
  intros H Hv. unfold byte_string in *. revert i. induction H as [|x b Hx H IH]; intros [|i]; cbn [upd]; auto.
Qed.
Lemma upd_at b i v j : (i < length b)%nat -> b_at (upd b i v) j = if Nat.eqb i j then v else b_at b j.
Proof.
  unfold b_at. revert i j. induction b as [|x b IH]; intros [|i] [|j] H; cbn [upd nth length Nat.eqb] in *; try lia; auto.
  apply IH. lia.
Qed.
Lemma stamp_bits6 v x : is_byte x -> v = 64 \/ v = 112 -> Z.lor (Z.land x 15) v = v + x mod 16.
Proof.
  intros Hx Hv. destruct Hv as [-> | ->]; apply Z.eqb_eq.
  - apply (sweep_bytes (fun x => Z.lor (Z.land x 15) 64 =? 64 + x mod 16)); [vm_compute; reflexivity|exact Hx].
  - apply (sweep_bytes (fun x => Z.lor (Z.land x 15) 112 =? 112 + x mod 16)); [vm_compute; reflexivity|exact Hx].
Qed.
Lemma stamp_bits8 x : is_byte x -> Z.lor (Z.land x 63) 128 = 128 + x mod 64.
Proof.
  intros Hx. apply Z.eqb_eq. apply (sweep_bytes (fun x => Z.lor (Z.land x 63) 128 =? 128 + x mod 64)); [vm_compute; reflexivity|exact Hx].
Qed.
Lemma stamp_ok v b : byte_string b -> length b = 16%nat -> v = 64 \/ v = 112 ->
  byte_string (stamp v b) /\ length (stamp v b) = 16%nat /\
  b_at (stamp v b) 6 = v + b_at b 6 mod 16 /\ b_at (stamp v b) 8 = 128 + b_at b 8 mod 64 /\
  (forall j, j <> 6%nat -> j <> 8%nat -> b_at (stamp v b) j = b_at b j).
Proof.
  intros Hb L Hv. unfold stamp.
  rewrite stamp_bits6 by (auto using b_at_byte). rewrite stamp_bits8 by (apply b_at_byte, upd_bytes; [exact Hb|pose proof (b_at_byte b 6 Hb); unfold is_byte in *; lia]).
  pose proof (b_at_byte b 6 Hb) as B6. pose proof (b_at_byte b 8 Hb) as B8. unfold is_byte in B6, B8.
  rewrite !upd_at by (rewrite ?upd_length; lia). cbn [Nat.eqb].
  split; [|split; [|split; [reflexivity|split; [reflexivity|intros j H H0]]]].
  - apply upd_bytes; [apply upd_bytes; [exact Hb|unfold is_byte; lia]|unfold is_byte; lia].
  - rewrite !upd_length. exact L.
  - rewrite !upd_at by (rewrite ?upd_length; lia). rewrite !(proj2 (Nat.eqb_neq _ _)) by auto. reflexivity.
Qed.
Lemma put_ms_ok ms b : byte_string b -> length b = 16%nat ->
  byte_string (put_ms ms b) /\ length (put_ms ms b) = 16%nat /\
  (forall k, (k < 6)%nat -> b_at (put_ms ms b) k = ms / 2 ^ (40 - 8 * Z.of_nat k) mod 256) /\
  (forall k, (6 <= k)%nat -> b_at (put_ms ms b) k = b_at b k).
Proof.
  intros Hb L. unfold put_ms. cbv zeta.
  assert (W : forall n, is_byte (wrap_u 8 (Z.shiftr ms n))) by (intros; unfold wrap_u, is_byte; change (2 ^ 8) with 256; lia).
  split; [|split; [|split]].
  - repeat (apply upd_bytes; [|apply W]). exact Hb.
  - rewrite !upd_length. exact L.
  - intros k Hk. rewrite !upd_at by (rewrite ?upd_length; lia).
    do 6 (destruct k as [|k]; [cbn [Nat.eqb]; unfold wrap_u; change (2 ^ 8) with 256; rewrite Z.shiftr_div_pow2 by lia; reflexivity|]). lia.
  - intros k Hk. rewrite !upd_at by (rewrite ?upd_length; lia). rewrite !(proj2 (Nat.eqb_neq _ k)) by lia. reflexivity.
Qed.

(** order *)
Lemma before_app p a b s t : text_before a b -> text_before (p ++ a ++ s) (p ++ b ++ t).
Proof.
  intros (q & x & y & u & v & -> & -> & L). exists (p ++ q), x, y, (u ++ s), (v ++ t). rewrite <- !app_assoc. auto.
Qed.
Lemma before_head a b s t : text_before a b -> text_before (a ++ s) (b ++ t).
Proof. apply (before_app []). Qed.
Lemma before_tail p a b : text_before a b -> text_before (p ++ a) (p ++ b).
Proof. intros H. apply (before_app p _ _ [] []) in H. rewrite !app_nil_r in H. exact H. Qed.
Lemma hex_digit_mono x y : 0 <= x < y -> y < 16 -> hex_digit false x < hex_digit false y.
Proof. intros H1 H2'. unfold hex_digit. destruct (x <? 10) eqn:A, (y <? 10) eqn:C; lia. Qed.
Lemma hex2_before x y : is_byte x -> is_byte y -> x < y -> text_before (hex2 false x) (hex2 false y).
Proof.
  unfold is_byte, hex2. intros Hx Hy L. destruct (Z_lt_ge_dec (x / 16) (y / 16)) as [D|D].
  - exists [], (hex_digit false (x / 16)), (hex_digit false (y / 16)), [hex_digit false (x mod 16)], [hex_digit false (y mod 16)].
    repeat split. apply hex_digit_mono; lia.
  - assert (E : x / 16 = y / 16) by lia. exists [hex_digit false (x / 16)], (hex_digit false (x mod 16)), (hex_digit false (y mod 16)), [], [].
    rewrite <- E. repeat split. apply hex_digit_mono; lia.
Qed.
Lemma ms_split ms : 0 <= ms < 2 ^ 48 -> ms = ((((ms / 2 ^ 40 mod 256 * 256 + ms / 2 ^ 32 mod 256) * 256 + ms / 2 ^ 24 mod 256) * 256
   + ms / 2 ^ 16 mod 256) * 256 + ms / 2 ^ 8 mod 256) * 256 + ms mod 256.
Proof.
  intros H. change (2 ^ 48) with 281474976710656 in H.
  assert (E : forall x, x = x / 256 * 256 + x mod 256) by (intros; lia).
  change (2 ^ 40) with (256 * 4294967296). change (2 ^ 32) with (256 * 16777216). change (2 ^ 24) with (256 * 65536). change (2 ^ 16) with (256 * 256). change (2 ^ 8) with 256.
  change 65536 with (256 * 256). change 16777216 with (256 * (256 * 256)). change 4294967296 with (256 * (256 * (256 * 256))).
  rewrite <- !Z.div_div by lia.
  set (m1 := ms / 256) in *. set (m2 := m1 / 256) in *. set (m3 := m2 / 256) in *. set (m4 := m3 / 256) in *. set (m5 := m4 / 256) in *.
  assert (0 <= m1 < 1099511627776) by (subst m1; lia). assert (0 <= m2 < 4294967296) by (subst m2; lia).
  assert (0 <= m3 < 16777216) by (subst m3; lia). assert (0 <= m4 < 65536) by (subst m4; lia). assert (0 <= m5 < 256) by (subst m5; lia).
  rewrite (Z.mod_small m5) by lia.
  assert (Q0 : ms = m1 * 256 + ms mod 256) by apply E. assert (Q1 : m1 = m2 * 256 + m1 mod 256) by apply E.
  assert (Q2 : m2 = m3 * 256 + m2 mod 256) by apply E. assert (Q3 : m3 = m4 * 256 + m3 mod 256) by apply E.
  assert (Q4 : m4 = m5 * 256 + m4 mod 256) by apply E. clearbody m1 m2 m3 m4 m5.
  rewrite <- Q4, <- Q3, <- Q2, <- Q1. exact Q0.
Qed.
Lemma format_before b c k : byte_string b -> byte_string c -> (k < 6)%nat ->
  (forall j, (j < k)%nat -> b_at b j = b_at c j) -> b_at b k < b_at c k -> text_before (format_hyphenated b) (format_hyphenated c).
Proof.
  intros Hb Hc Hk Heq Hlt. pose proof (hex2_before _ _ (b_at_byte b k Hb) (b_at_byte c k Hc) Hlt) as T.
  unfold format_hyphenated. cbv zeta.
  do 6 (destruct k as [|k]; [repeat (first [rewrite (Heq 0%nat) by lia | rewrite (Heq 1%nat) by lia | rewrite (Heq 2%nat) by lia | rewrite (Heq 3%nat) by lia | rewrite (Heq 4%nat) by lia]);
    repeat (first [apply before_head; exact T | apply before_tail]) | ]). lia.
Qed.
Lemma time_before m n b c v : byte_string b -> byte_string c -> length b = 16%nat -> length c = 16%nat -> v = 64 \/ v = 112 ->
  0 <= m < n -> n < 2 ^ 48 ->
  text_before (format_hyphenated (stamp v (put_ms m b))) (format_hyphenated (stamp v (put_ms n c))).
Proof.
  intros Hb Hc Lb Lc Hv Hmn Hn.
  destruct (put_ms_ok m b Hb Lb) as (P1 & P2 & P3 & _). destruct (put_ms_ok n c Hc Lc) as (Q1 & Q2 & Q3 & _).
  destruct (stamp_ok v _ P1 P2 Hv) as (S1 & S2 & _ & _ & S3). destruct (stamp_ok v _ Q1 Q2 Hv) as (T1 & T2 & _ & _ & T3).
  assert (EM : forall k, (k < 6)%nat -> b_at (stamp v (put_ms m b)) k = m / 2 ^ (40 - 8 * Z.of_nat k) mod 256) by (intros k Hk; rewrite S3 by lia; apply P3, Hk).
  assert (EN : forall k, (k < 6)%nat -> b_at (stamp v (put_ms n c)) k = n / 2 ^ (40 - 8 * Z.of_nat k) mod 256) by (intros k Hk; rewrite T3 by lia; apply Q3, Hk).
  assert (D : exists k, (k < 6)%nat /\ (forall j, (j < k)%nat -> m / 2 ^ (40 - 8 * Z.of_nat j) mod 256 = n / 2 ^ (40 - 8 * Z.of_nat j) mod 256) /\
     m / 2 ^ (40 - 8 * Z.of_nat k) mod 256 < n / 2 ^ (40 - 8 * Z.of_nat k) mod 256).
  { pose proof (ms_split m ltac:(lia)) as M. pose proof (ms_split n ltac:(lia)) as N.
    set (f := fun x k => x / 2 ^ (40 - 8 * Z.of_nat k) mod 256).
    change (m = ((((f m 0%nat * 256 + f m 1%nat) * 256 + f m 2%nat) * 256 + f m 3%nat) * 256 + f m 4%nat) * 256 + m mod 256) in M.
    change (n = ((((f n 0%nat * 256 + f n 1%nat) * 256 + f n 2%nat) * 256 + f n 3%nat) * 256 + f n 4%nat) * 256 + n mod 256) in N.
    assert (F5 : forall x, x mod 256 = f x 5%nat) by (intros; subst f; cbv beta; change (40 - 8 * Z.of_nat 5) with 0; rewrite Z.pow_0_r, Z.div_1_r; reflexivity).
    rewrite (F5 m) in M. rewrite (F5 n) in N.
    assert (R : forall x k, 0 <= f x k < 256) by (intros; subst f; cbv beta; apply Z.mod_pos_bound; lia).
    change (exists k, (k < 6)%nat /\ (forall j, (j < k)%nat -> f m j = f n j) /\ f m k < f n k).
    clearbody f. clear - M N Hmn R.
    pose proof (R m 0%nat). pose proof (R m 1%nat). pose proof (R m 2%nat). pose proof (R m 3%nat). pose proof (R m 4%nat). pose proof (R m 5%nat).
    pose proof (R n 0%nat). pose proof (R n 1%nat). pose proof (R n 2%nat). pose proof (R n 3%nat). pose proof (R n 4%nat). pose proof (R n 5%nat).
    destruct (Z_lt_ge_dec (f m 0%nat) (f n 0%nat)) as [?|?]; [exists 0%nat; repeat split; [lia|intros; lia|assumption]|].
    assert (E0 : f m 0%nat = f n 0%nat) by lia.
    destruct (Z_lt_ge_dec (f m 1%nat) (f n 1%nat)) as [?|?]; [exists 1%nat; repeat split; [lia|intros [|j] ?; [exact E0|lia]|assumption]|].
    assert (E1 : f m 1%nat = f n 1%nat) by lia.
    destruct (Z_lt_ge_dec (f m 2%nat) (f n 2%nat)) as [?|?]; [exists 2%nat; repeat split; [lia|intros [|[|j]] ?; [exact E0|exact E1|lia]|assumption]|].
    assert (E2 : f m 2%nat = f n 2%nat) by lia.
    destruct (Z_lt_ge_dec (f m 3%nat) (f n 3%nat)) as [?|?]; [exists 3%nat; repeat split; [lia|intros [|[|[|j]]] ?; [exact E0|exact E1|exact E2|lia]|assumption]|].
    assert (E3 : f m 3%nat = f n 3%nat) by lia.
    destruct (Z_lt_ge_dec (f m 4%nat) (f n 4%nat)) as [?|?]; [exists 4%nat; repeat split; [lia|intros [|[|[|[|j]]]] ?; [exact E0|exact E1|exact E2|exact E3|lia]|assumption]|].
    assert (E4 : f m 4%nat = f n 4%nat) by lia.
    exists 5%nat. repeat split; [lia|intros [|[|[|[|[|j]]]]] ?; [exact E0|exact E1|exact E2|exact E3|exact E4|lia]|]. lia. }
  destruct D as (k & Hk & D1 & D2).
  apply (format_before _ _ k); auto.
  - intros j Hj. rewrite EM, EN by (clear - Hk Hj; lia). apply D1, Hj.
  - rewrite EM, EN by exact Hk. exact D2.
Qed.

(** bytes.c *)
Lemma scan_hex_pair a b r : isxdigit a = true -> isxdigit b = true -> scan_02x (a :: b :: r) = Some (hex_value a * 16 + hex_value b).
Proof.
  intros Ha Hb. unfold scan_02x. cbn [skip_space].
  assert (E : isspace a = false) by (unfold isspace, isxdigit in *; lia). rewrite E.
  assert (E2 : (a =? 45) = false) by (unfold isxdigit in Ha; lia). assert (E3 : (a =? 43) = false) by (unfold isxdigit in Ha; lia). rewrite E2, E3.
  unfold digits2. rewrite Ha, Hb. assert (E4 : ((b =? 120) || (b =? 88)) = false) by (unfold isxdigit in Hb; lia). rewrite E4, andb_false_r. reflexivity.
Qed.
Lemma hex_value_range c : isxdigit c = true -> 0 <= hex_value c < 16.
Proof. intros H. unfold isxdigit in H. unfold hex_value. destruct (c <=? 57) eqn:A, (c <=? 70) eqn:C; lia. Qed.
Lemma from_hex_loop_eq t : Nat.even (length t) = true -> Forall is_hex_digit t -> from_hex_loop t = hex_decode_loop t.
Proof.
  induction t as [|a|a b r IH] using list2_ind; intros L H; [reflexivity|discriminate|].
  apply Forall_cons_iff in H as [Ha H]. apply Forall_cons_iff in H as [Hb H]. apply isxdigit_spec in Ha, Hb.
  cbn [from_hex_loop hex_decode_loop]. rewrite Ha, Hb. cbn [negb orb].
  assert (C : c_string (a :: b :: r) = a :: b :: c_string r).
  { cbn [c_string]. rewrite (proj2 (Z.eqb_neq a 0)) by (unfold isxdigit in Ha; lia). rewrite (proj2 (Z.eqb_neq b 0)) by (unfold isxdigit in Hb; lia). reflexivity. }
  rewrite C, scan_hex_pair by assumption. rewrite IH by (exact L || exact H). f_equal. f_equal.
  pose proof (hex_value_range a Ha). pose proof (hex_value_range b Hb).
  rewrite lor_shift by lia. unfold wrap_u. change (2 ^ 8) with 256. change (2 ^ 4) with 16. apply Z.mod_small. lia.
Qed.
