(** The rounds and the blocks. *)
From Verif Require Import Base BaseFacts MapModel DigestSpec DigestModel DigestProofs DigestProofs2.
Open Scope Z_scope.

(** * SHA-256 *)
Definition sha_next (w : list Z) (j : nat) : list Z :=
  w ++ [u32 (SIG1 (nth (j - 2) w 0) + nth (j - 7) w 0 + SIG0 (nth (j - 15) w 0) + nth (j - 16) w 0)].
Lemma schedule_grows w0 n : length w0 = 16%nat -> Forall w32 w0 ->
  let w := fold_left sha_next (seq 16 n) w0 in
  length w = (16 + n)%nat /\ Forall w32 w /\ (forall t, (t < 16)%nat -> nth t w 0 = nth t w0 0) /\
  forall t, (16 <= t < 16 + n)%nat -> nth t w 0 = u32 (SIG1 (nth (t - 2) w 0) + nth (t - 7) w 0 + SIG0 (nth (t - 15) w 0) + nth (t - 16) w 0).
Proof.
  intros L0 F0. induction n as [|n IH].
  - cbn [seq fold_left]. cbv zeta. split; [rewrite L0; reflexivity|]. split; [exact F0|]. split; [reflexivity|]. intros t Ht. lia.
  - rewrite seq_S, fold_left_app. cbn [fold_left]. cbv zeta in IH |- *. set (w := fold_left sha_next (seq 16 n) w0) in *. clearbody w. destruct IH as [L [F [A B]]].
    unfold sha_next. set (v := u32 _). split; [rewrite app_length, L; cbn [length]; lia|]. split.
    { apply Forall_app_iff. split; [exact F|]. constructor; [apply u32_w32|constructor]. }
    split.
    + intros t Ht. rewrite app_nth1 by lia. apply A. exact Ht.
    + intros t Ht. destruct (Nat.eq_dec t (16 + n)) as [->|N].
      * rewrite (app_nth2 w [v]) by lia. rewrite L, Nat.sub_diag. cbn [nth]. rewrite !app_nth1 by lia. reflexivity.
      * rewrite !app_nth1 by lia. apply B. lia.
Qed.
Lemma sha_w_is p i : sha256_w p i = fold_left sha_next (seq 16 48) (map (fun j => load_be p (i + j * 4)) (seq 0 16)).
Proof. reflexivity. Qed.
Lemma nth_w32 w t : Forall w32 w -> w32 (nth t w 0).
Proof.
  intros F. destruct (Nat.lt_ge_cases t (length w)) as [H0|H0]; [rewrite Forall_forall in F; apply F, nth_In; exact H0|].
  rewrite nth_overflow by exact H0. unfold w32, M32. lia.
Qed.
Lemma schedule_right p i : Forall is_byte p -> (64 * i + 64 <= length p)%nat ->
  sha_schedule p i (fun t => nth t (sha256_w p (64 * i)) 0) /\ Forall w32 (sha256_w p (64 * i)).
Proof.
  intros F Hi. rewrite sha_w_is. set (w0 := map _ _).
  assert (L0 : length w0 = 16%nat) by (unfold w0; rewrite map_length; apply seq_length).
  assert (N0 : forall t, (t < 16)%nat -> nth t w0 0 = word_at value_be p i t).
  { intros t Ht. unfold w0. rewrite (nth_indep _ 0 (load_be p (64 * i + 0 * 4))) by (rewrite map_length, seq_length; exact Ht).
    rewrite (map_nth (fun j => load_be p (64 * i + j * 4)) (seq 0 16) 0%nat t). rewrite seq_nth by exact Ht. cbn [plus].
    unfold word_at. rewrite load_be_value by (exact F || lia). do 2 f_equal. rewrite (Nat.mul_comm t 4). reflexivity. }
  assert (F0 : Forall w32 w0).
  { apply Forall_forall. intros x X. apply (In_nth _ _ 0) in X as [t [Ht <-]]. rewrite L0 in Ht. rewrite N0 by exact Ht. apply word_w32; [exact F|lia|left; reflexivity]. }
  destruct (schedule_grows w0 48 L0 F0) as [L [FW [A B]]]. split; [|exact FW]. split.
  - intros t Ht. rewrite A by exact Ht. apply N0. exact Ht.
  - intros t Ht. rewrite B at 1 by lia. rewrite SIG1_eq, SIG0_eq by (apply nth_w32; exact FW). reflexivity.
Qed.
Definition w8 (s : state8) : Prop := Forall w32 (words8 s).
Lemma sha_round_eq w s j : w8 s -> sha256_round w s j = sha_round (nth j sha256_k 0) (nth j w 0) s /\ w8 (sha256_round w s j).
Proof.
  destruct s as [[[[[[[a b] c] d] e] f] g] h]. unfold w8. cbn [words8]. intros F.
  apply Forall_cons_iff in F as [Ha F]. apply Forall_cons_iff in F as [Hb F]. apply Forall_cons_iff in F as [Hc F]. apply Forall_cons_iff in F as [Hd F].
  apply Forall_cons_iff in F as [He F]. apply Forall_cons_iff in F as [Hf F]. apply Forall_cons_iff in F as [Hg F]. apply Forall_cons_iff in F as [Hh F].
  unfold sha256_round, sha_round. split.
  - rewrite EP0_eq, EP1_eq, CH_eq, MAJ_eq by assumption. rewrite !u32_mod.
    rewrite !Z.add_mod_idemp_r, !Z.add_mod_idemp_l by discriminate. reflexivity.
  - repeat (constructor; [try assumption; try apply u32_w32|]). constructor.
Qed.
Lemma sha_rounds w s n : w8 s -> w8 (fold_left (sha256_round w) (seq 0 n) s).
Proof.
  intros H0. induction n as [|n IH]; [exact H0|]. rewrite seq_S, fold_left_app. cbn [fold_left]. apply sha_round_eq. exact IH.
Qed.
Lemma sha_block_eq p h i : sha256_block p h i = add8 (fold_left (sha256_round (sha256_w p (64 * i))) (seq 0 64) h) h.
Proof.
  unfold sha256_block. destruct h as [[[[[[[a b] c] d] e] f] g] hh]. destruct (fold_left _ _ _) as [[[[[[[a' b'] c'] d'] e'] f'] g'] hh'].
  unfold add8. rewrite !u32_mod. rewrite (Z.add_comm a), (Z.add_comm b), (Z.add_comm c), (Z.add_comm d), (Z.add_comm e), (Z.add_comm f), (Z.add_comm g), (Z.add_comm hh). reflexivity.
Qed.
Lemma add8_w8 x y : w8 (add8 x y).
Proof.
  destruct x as [[[[[[[a b] c] d] e] f] g] h]. destruct y as [[[[[[[a' b'] c'] d'] e'] f'] g'] h'].
  unfold w8, add8. cbn [words8]. repeat (constructor; [apply mod_w32|]). constructor.
Qed.
Definition sha_start : state8 := (nth 0 sha256_h 0, nth 1 sha256_h 0, nth 2 sha256_h 0, nth 3 sha256_h 0, nth 4 sha256_h 0, nth 5 sha256_h 0, nth 6 sha256_h 0, nth 7 sha256_h 0).
Definition sha_after (p : bytes) (i : nat) : state8 := fold_left (sha256_block p) (seq 0 i) sha_start.
Lemma sha_after_S p i : sha_after p (S i) = sha256_block p (sha_after p i) i.
Proof. unfold sha_after. rewrite seq_S, fold_left_app. reflexivity. Qed.
Lemma sha_after_w8 p i : w8 (sha_after p i).
Proof.
  destruct i as [|i]; [|rewrite sha_after_S, sha_block_eq; apply add8_w8].
  unfold w8. repeat (constructor; [unfold w32, M32; cbn; lia|]). constructor.
Qed.
Lemma block_room (p : bytes) i : Z.of_nat (length p) mod 64 = 0 -> (64 * i < length p)%nat -> (64 * i + 64 <= length p)%nat.
Proof. lia. Qed.
Lemma padded_mod value m p : padded_by value m p -> Z.of_nat (length p) mod 64 = 0.
Proof. intros [k [l X]]. apply X. Qed.
Lemma sha_digest m : byte_string m -> Z.of_nat (length m) < 2 ^ 31 -> sha256_of m (sha_after (sha256_message m) (length (sha256_message m) / 64)).
Proof.
  intros M Hl. pose proof (sha_padded m Hl) as P. set (p := sha256_message m) in *. clearbody p.
  pose proof (padded_bytes _ _ _ M P) as F. pose proof (padded_mod _ _ _ P) as Md.
  exists p, (fun t => nth t sha256_k 0), (sha_after p). split; [exact P|]. split; [exact sha_constants|]. split; [|split; [|reflexivity]].
  - intros t Ht. change (words8 (sha_after p 0)) with sha256_h. apply sha_initial. exact Ht.
  - intros i Hi. destruct (schedule_right p i F (block_room p i Md Hi)) as [A B].
    exists (fun t => nth t (sha256_w p (64 * i)) 0), (fun t => fold_left (sha256_round (sha256_w p (64 * i))) (seq 0 t) (sha_after p i)).
    split; [exact A|]. split; [reflexivity|]. split.
    + intros t Ht. rewrite seq_S, fold_left_app. cbn [fold_left plus]. apply sha_round_eq. apply sha_rounds. apply sha_after_w8.
    + rewrite sha_after_S. apply sha_block_eq.
Qed.
Lemma sha_text m : sha256 m = flat_map (hex_pad 8) (words8 (sha_after (sha256_message m) (length (sha256_message m) / 64))).
Proof.
  unfold sha256. cbv zeta. change (fold_left (sha256_block (sha256_message m)) (seq 0 (length (sha256_message m) / 64)) _) with (sha_after (sha256_message m) (length (sha256_message m) / 64)).
  destruct (sha_after _ _) as [[[[[[[a b] c] d] e] f] g] h]. reflexivity.
Qed.
Lemma hex_words l : hex_bytes (flat_map bytes_be l) (flat_map (hex_pad 8) l).
Proof. induction l as [|w l IH]; cbn [flat_map]; [constructor|]. apply hex_app; [apply hex_word|exact IH]. Qed.
(** Uniqueness *)
Lemma schedule_unique p i W W' : sha_schedule p i W -> sha_schedule p i W' -> forall t, (t < 64)%nat -> W t = W' t.
Proof.
  intros [A B] [A' B'] t. induction t as [t IH] using lt_wf_ind. intros Ht.
  destruct (Nat.lt_ge_cases t 16) as [X|X]; [rewrite A, A' by exact X; reflexivity|].
  rewrite B, B' by lia. rewrite !IH by lia. reflexivity.
Qed.
Lemma words8_inj s s' : words8 s = words8 s' -> s = s'.
Proof.
  destruct s as [[[[[[[a b] c] d] e] f] g] h]. destruct s' as [[[[[[[a' b'] c'] d'] e'] f'] g'] h'].
  unfold words8. intros E. injection E as -> -> -> -> -> -> -> ->. reflexivity.
Qed.
Lemma sha_unique m d d' : sha256_of m d -> sha256_of m d' -> d = d'.
Proof.
  intros [p [K [H0 [P [HK [HI [HB ->]]]]]]] [p' [K' [H0' [P' [HK' [HI' [HB' ->]]]]]]].
  pose proof (padded_unique _ _ _ _ value_be_inj P P'). subst p'. pose proof (padded_mod _ _ _ P) as Md. clear P P'.
  assert (E : forall i, (i <= length p / 64)%nat -> H0 i = H0' i); [|apply E; lia].
  induction i as [|i IH]; intros Hi.
  - apply words8_inj. assert (L : length (words8 (H0 0%nat)) = 8%nat /\ length (words8 (H0' 0%nat)) = 8%nat).
    { destruct (H0 0%nat) as [[[[[[[? ?] ?] ?] ?] ?] ?] ?]. destruct (H0' 0%nat) as [[[[[[[? ?] ?] ?] ?] ?] ?] ?]. split; reflexivity. }
    destruct L as [L L']. apply (nth_ext _ _ 0 0); [congruence|]. intros t Ht. rewrite L in Ht. exact (square_unique t _ _ (HI t Ht) (HI' t Ht)).
  - assert (Hlt : (64 * i < length p)%nat) by lia. specialize (IH ltac:(lia)).
    destruct (HB i Hlt) as [W [S0 [A [B [C ->]]]]]. destruct (HB' i Hlt) as [W' [S0' [A' [B' [C' ->]]]]].
    enough (X : forall t, (t <= 64)%nat -> S0 t = S0' t) by (rewrite (X 64%nat), IH by lia; reflexivity).
    induction t as [|t IHt]; intros Ht; [congruence|]. rewrite C, C' by lia. rewrite IHt by lia.
    rewrite (schedule_unique p i W W' A A' t) by lia. rewrite (cube_unique t _ _ (HK t ltac:(lia)) (HK' t ltac:(lia))). reflexivity.
Qed.

(** * MD5 *)
Definition w4 (s : state4) : Prop := Forall w32 (words4 s).
Lemma shift_table i : (i < 64)%nat -> nth i md5_s 0 = md5_shift i /\ 0 < md5_shift i < 32.
Proof.
  intros Hi. assert (C : forallb (fun i => (nth i md5_s 0 =? md5_shift i) && (0 <? md5_shift i) && (md5_shift i <? 32)) (seq 0 64) = true) by (vm_compute; reflexivity).
  rewrite forallb_forall in C. specialize (C i ltac:(apply in_seq; lia)). lia.
Qed.
Lemma md5_word_lt i : (i < 64)%nat -> (md5_word i < 16)%nat.
Proof. intros Hi. unfold md5_word. repeat match goal with |- context [if ?b then _ else _] => destruct b eqn:? end; lia. Qed.
Lemma md5_step_eq p b s i : Forall is_byte p -> (64 * b + 64 <= length p)%nat -> (i < 64)%nat -> w4 s ->
  md5_step p (64 * b) s i = md5_round (fun t => nth t md5_k 0) (word_at value_le p b) i s /\ w4 (md5_step p (64 * b) s i).
Proof.
  intros F Hb Hi. destruct s as [[[A B] C] D]. unfold w4. cbn [words4]. intros W.
  apply Forall_cons_iff in W as [HA W]. apply Forall_cons_iff in W as [HB W]. apply Forall_cons_iff in W as [HC W]. apply Forall_cons_iff in W as [HD W].
  unfold md5_step, md5_round. destruct (shift_table i Hi) as [Es Rs]. rewrite Es.
  assert (Sel : (if (i <? 16)%nat then (DigestModel.F B C D, i) else if (i <? 32)%nat then (G B C D, ((5 * i + 1) mod 16)%nat) else if (i <? 48)%nat then (H B C D, ((3 * i + 5) mod 16)%nat) else (I B C D, ((7 * i) mod 16)%nat)) = (md5_mix i B C D, md5_word i)).
  { unfold md5_mix, md5_word. rewrite F_eq, G_eq, I_eq by assumption. unfold H. rewrite xor3_eq by assumption. rewrite (Nat.add_comm (5 * i) 1), (Nat.add_comm (3 * i) 5).
    destruct (i <? 16)%nat; [reflexivity|]. destruct (i <? 32)%nat; [reflexivity|]. destruct (i <? 48)%nat; reflexivity. }
  rewrite Sel. pose proof (md5_word_lt i Hi) as Hw.
  assert (Ld : load_le p (64 * b + 4 * md5_word i) = word_at value_le p b (md5_word i)) by (unfold word_at; apply load_le_value; lia).
  rewrite Ld. rewrite ROTL_eq by (apply u32_w32 || exact Rs). rewrite !u32_mod. split.
  - rewrite <- !Z.add_assoc, (Z.add_comm (nth i md5_k 0)). reflexivity.
  - repeat (constructor; [try assumption; try apply mod_w32|]). constructor.
Qed.
Lemma md5_steps p b s n : Forall is_byte p -> (64 * b + 64 <= length p)%nat -> (n <= 64)%nat -> w4 s -> w4 (fold_left (md5_step p (64 * b)) (seq 0 n) s).
Proof.
  intros F Hb Hn H0. induction n as [|n IH]; [exact H0|]. rewrite seq_S, fold_left_app. cbn [fold_left plus]. apply md5_step_eq; [exact F|exact Hb|lia|apply IH; lia].
Qed.
Lemma md5_block_eq p h i : md5_block p h i = add4 (fold_left (md5_step p (64 * i)) (seq 0 64) h) h.
Proof.
  unfold md5_block. destruct h as [[[a b] c] d]. destruct (fold_left _ _ _) as [[[a' b'] c'] d'].
  unfold add4. rewrite !u32_mod. rewrite (Z.add_comm a), (Z.add_comm b), (Z.add_comm c), (Z.add_comm d). reflexivity.
Qed.
Lemma add4_w4 x y : w4 (add4 x y).
Proof.
  destruct x as [[[a b] c] d]. destruct y as [[[a' b'] c'] d']. unfold w4, add4. cbn [words4]. repeat (constructor; [apply mod_w32|]). constructor.
Qed.
Definition md5_start : state4 := (0x67452301, 0xefcdab89, 0x98badcfe, 0x10325476).
Definition md5_after (p : bytes) (i : nat) : state4 := fold_left (md5_block p) (seq 0 i) md5_start.
Lemma md5_after_S p i : md5_after p (S i) = md5_block p (md5_after p i) i.
Proof. unfold md5_after. rewrite seq_S, fold_left_app. reflexivity. Qed.
Lemma md5_after_w4 p i : w4 (md5_after p i).
Proof.
  destruct i as [|i]; [|rewrite md5_after_S, md5_block_eq; apply add4_w4].
  unfold w4. repeat (constructor; [unfold w32, M32; cbn; lia|]). constructor.
Qed.
Lemma md5_digest m : byte_string m -> Z.of_nat (length m) < 2 ^ 31 -> md5_of m (md5_after (md5_message m) (length (md5_message m) / 64)).
Proof.
  intros M Hl. pose proof (md5_padded m Hl) as P. set (p := md5_message m) in *. clearbody p.
  pose proof (padded_bytes _ _ _ M P) as F. pose proof (padded_mod _ _ _ P) as Md.
  exists p, (fun t => nth t md5_k 0), (md5_after p). split; [exact P|]. split; [exact md5_constants|]. split; [reflexivity|split; [|reflexivity]].
  intros i Hi. pose proof (block_room p i Md Hi) as R.
  exists (fun t => fold_left (md5_step p (64 * i)) (seq 0 t) (md5_after p i)). split; [reflexivity|]. split.
  - intros t Ht. rewrite seq_S, fold_left_app. cbn [fold_left plus]. apply md5_step_eq; [exact F|exact R|exact Ht|]. apply md5_steps; [exact F|exact R|lia|apply md5_after_w4].
  - rewrite md5_after_S. apply md5_block_eq.
Qed.
Lemma md5_text m : hex_bytes (flat_map bytes_le (words4 (md5_after (md5_message m) (length (md5_message m) / 64)))) (md5 m).
Proof.
  unfold md5. cbv zeta. change (fold_left (md5_block (md5_message m)) (seq 0 (length (md5_message m) / 64)) _) with (md5_after (md5_message m) (length (md5_message m) / 64)).
  destruct (md5_after _ _) as [[[a b] c] d]. cbn [words4 flat_map]. rewrite app_nil_r. rewrite <- !stored4. apply hex_all.
  repeat (apply Forall_app_iff; split; [apply stored_bytes|]). apply stored_bytes.
Qed.
Lemma words4_inj s s' : words4 s = words4 s' -> s = s'.
Proof.
  destruct s as [[[a b] c] d]. destruct s' as [[[a' b'] c'] d']. unfold words4. intros E. injection E as -> -> -> ->. reflexivity.
Qed.
Lemma md5_unique m d d' : md5_of m d -> md5_of m d' -> d = d'.
Proof.
  intros [p [K [H0 [P [HK [HI [HB ->]]]]]]] [p' [K' [H0' [P' [HK' [HI' [HB' ->]]]]]]].
  pose proof (padded_unique _ _ _ _ value_le_inj P P'). subst p'. pose proof (padded_mod _ _ _ P) as Md. clear P P'.
  assert (E : forall i, (i <= length p / 64)%nat -> H0 i = H0' i); [|apply E; lia].
  induction i as [|i IH]; intros Hi; [apply words4_inj; congruence|].
  assert (Hlt : (64 * i < length p)%nat) by lia. specialize (IH ltac:(lia)).
  destruct (HB i Hlt) as [S0 [B [C ->]]]. destruct (HB' i Hlt) as [S0' [B' [C' ->]]].
  enough (X : forall t, (t <= 64)%nat -> S0 t = S0' t) by (rewrite (X 64%nat), IH by lia; reflexivity).
  induction t as [|t IHt]; intros Ht; [congruence|]. rewrite C, C' by lia. rewrite IHt by lia.
  unfold md5_round. rewrite (sine_unique t _ _ (HK t ltac:(lia)) (HK' t ltac:(lia))). reflexivity.
Qed.

(** * random_hex *)
Lemma nibble_high b : is_byte b -> Z.land (Z.shiftr b 4) 15 = b / 16.
Proof. intros B. unfold is_byte in B. change 15 with (Z.ones 4). rewrite land_mod, Z.shiftr_div_pow2 by lia. change (2 ^ 4) with 16. apply Z.mod_small. lia. Qed.
Lemma nibble_low b : Z.land b 15 = b mod 16.
Proof. change 15 with (Z.ones 4). rewrite land_mod by lia. reflexivity. Qed.
Definition random_digit (raw : bytes) (i : nat) : Z :=
  hex_digit (let b := nth (Nat.div i 2) raw 0 in if Nat.even i then Z.land (Z.shiftr b 4) 15 else Z.land b 15).
Lemma random_digits raw : Forall is_byte raw -> hex_bytes raw (map (random_digit raw) (seq 0 (2 * length raw))).
Proof.
  induction raw as [|b raw IH]; intros F; [constructor|]. apply Forall_cons_iff in F as [B F].
  replace (2 * length (b :: raw))%nat with (S (S (2 * length raw))) by (cbn [length]; lia).
  cbn [seq map]. unfold random_digit at 1 2. change (Nat.div 0 2) with 0%nat. change (Nat.div 1 2) with 0%nat. cbn [Nat.even nth]. cbv zeta.
  rewrite nibble_high, nibble_low by exact B.
  rewrite <- seq_shift, <- seq_shift, !map_map.
  assert (E : map (fun x => random_digit (b :: raw) (S (S x))) (seq 0 (2 * length raw)) = map (random_digit raw) (seq 0 (2 * length raw))).
  { apply map_ext. intros i. unfold random_digit. replace (S (S i) / 2)%nat with (S (i / 2)) by lia. reflexivity. }
  rewrite E. unfold is_byte in B. apply (hex_byte _ _ _ (b / 16) (b mod 16)); try lia; [apply hex_digit_value; lia|apply hex_digit_value; lia|exact (IH F)].
Qed.
Lemma map_firstn {A B} (f : A -> B) n l : map f (firstn n l) = firstn n (map f l).
Proof. revert n. induction l as [|a l IH]; intros [|n]; cbn [firstn map]; [reflexivity..|]. rewrite IH. reflexivity. Qed.
Lemma firstn_seq n m a : (n <= m)%nat -> firstn n (seq a m) = seq a n.
Proof.
  revert a m. induction n as [|n IH]; intros a m Hn; [reflexivity|]. destruct m as [|m]; [lia|]. cbn [seq firstn]. rewrite IH by lia. reflexivity.
Qed.
Lemma random_text raw n : Forall is_byte raw -> Z.of_nat (length raw) = (n + 1) / 2 -> 0 <= n ->
  exists t, hex_bytes raw t /\ map (random_digit raw) (seq 0 (Z.to_nat n)) = firstn (Z.to_nat n) t.
Proof.
  intros F L N. exists (map (random_digit raw) (seq 0 (2 * length raw))). split; [apply random_digits; exact F|].
  rewrite <- map_firstn, firstn_seq by lia. reflexivity.
Qed.
