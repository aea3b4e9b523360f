(** Proofs about integer literals. *)
From Verif Require Import Base BaseFacts BigIntModel BigIntSpec BigIntProofs BigIntSigned BigInt256 BigIntText StringsModel EncodingModel LexSpec LexModel LexProofs LexProofs2 LexProofs3 LexProofs4 LitSpec LitModel LitSpec2.
From Verif Require Import Decimal DecimalFacts.
Ltac Zify.zify_post_hook ::= Z.div_mod_to_equations.

Definition hv (c : Z) : Z := if c <=? 57 then c - 48 else if c <=? 70 then c - 55 else c - 87.
Lemma digit_hv b c d : digit b c d -> d = hv c /\ 0 <= d < b /\ c <> 95.
Proof. unfold hv. intros [x A B|x A B|x A B]; (split; [|lia]); destruct (x <=? 57) eqn:P; try lia; destruct (x <=? 70) eqn:Q; lia. Qed.
Definition val_step (b v c : Z) : Z := if c =? 95 then v else b * v + hv c.
Lemma numeral_val b s v : numeral b s v -> v = fold_left (val_step b) s 0.
Proof.
  induction 1 as [|s v N IH|s v c d N IH D]; [reflexivity| |]; rewrite fold_left_app; cbn [fold_left]; rewrite <- IH; unfold val_step.
  - reflexivity.
  - apply digit_hv in D as (-> & _ & C). destruct (c =? 95) eqn:E; [lia|reflexivity].
Qed.
Lemma numeral_pos b s v : 0 <= b -> numeral b s v -> 0 <= v.
Proof. intros B. induction 1 as [|s v N IH|s v c d N IH D]; [lia|exact IH|]. apply digit_hv in D. nia. Qed.
Lemma numeral_chars b s v : numeral b s v -> Forall (fun c => c = 95 \/ exists d, digit b c d) s.
Proof.
  induction 1 as [|s v N IH|s v c d N IH D]; [constructor| |]; apply Forall_app; (split; [exact IH|]); (apply Forall_cons; [|constructor]); eauto.
Qed.
Lemma numeral_made b s : Forall (fun c => c = 95 \/ exists d, digit b c d) s -> exists v, numeral b s v.
Proof.
  induction s as [|c s IH] using rev_ind; intros F; [eexists; constructor|]. apply Forall_app in F as [F C]. destruct (IH F) as [v N]. apply Forall_cons_iff in C as [[->|[d D]] _].
  - exists v. now constructor.
  - exists (b * v + d). now constructor.
Qed.
Lemma decimal_no_letter s v p r : numeral 10 s v -> s = 48 :: p :: r -> p = 95 \/ 48 <= p <= 57.
Proof.
  intros N ->. apply numeral_chars in N. apply Forall_cons_iff in N as [_ N]. apply Forall_cons_iff in N as [[->|[d D]] _]; [now left|right]. inversion D; lia.
Qed.
Lemma int_literal_unique s v w : int_literal s v -> int_literal s w -> v = w.
Proof.
  intros A B. inversion A as [p r x P N E|p r x P N E|p r x P N E|r x N E]; subst; inversion B as [p' r' x' P' N' E'|p' r' x' P' N' E'|p' r' x' P' N' E'|r' x' N' E'];
    try (exfalso; lia); try (subst; apply numeral_val in N; apply numeral_val in N'; congruence);
    try (subst; exfalso; pose proof (decimal_no_letter _ _ _ _ N' eq_refl); lia); try (subst; exfalso; pose proof (decimal_no_letter _ _ _ _ N eq_refl); lia).
Qed.

(** * Parsing *)
Lemma u64_spec x : wrap_u 64 x = x mod 18446744073709551616. Proof. reflexivity. Qed.
Lemma acc_spec (step : Z * bool -> Z -> Z * bool) b s v : 2 <= b <= 16 ->
  (forall u o, step (u, o) 95 = (u, o)) ->
  (forall u o c d, digit b c d -> 0 <= u < 18446744073709551616 -> step (u, o) c = (wrap_u 64 (b * u + d), o || (UMAX <? b * u + d))) ->
  numeral b s v -> fold_left step s (0, false) = (v mod 18446744073709551616, UMAX <? v).
Proof.
  intros Hb S95 Sd. induction 1 as [|s v N IH|s v c d N IH D]; [reflexivity| |]; rewrite fold_left_app; cbn [fold_left]; rewrite IH; [apply S95|].
  rewrite (Sd _ _ _ _ D) by lia. pose proof (numeral_pos b s v ltac:(lia) N) as P. apply digit_hv in D as (_ & D & _). rewrite u64_spec. unfold UMAX. f_equal.
  - rewrite <- Zplus_mod_idemp_l, <- Zmult_mod_idemp_r, Zmod_mod, Zmult_mod_idemp_r, Zplus_mod_idemp_l. reflexivity.
  - destruct (18446744073709551615 <? v) eqn:V; cbn [orb].
    + symmetry. apply Z.ltb_lt. nia.
    + rewrite Z.mod_small by lia. reflexivity.
Qed.
Lemma digit_le b c d : digit b c d -> b <= 10 -> 48 <= c <= 57 /\ sub_0 c = d.
Proof.
  intros D B. inversion D; subst; (split; [lia|]); try lia. unfold sub_0, wrap_u. change (2 ^ 32) with 4294967296. lia.
Qed.
Lemma hex_spec s v : numeral 16 s v -> fold_left step_hex s (0, false) = (v mod 18446744073709551616, UMAX <? v).
Proof.
  apply acc_spec; [lia|reflexivity|]. intros u o c d D U. pose proof (digit_hv _ _ _ D) as (_ & R & C). unfold step_hex. replace (c =? 95) with false by lia.
  assert (H : hex_d c = d). { unfold hex_d. inversion D; subst; repeat match goal with |- context[if ?b then _ else _] => destruct b eqn:? end; lia. }
  rewrite H. f_equal; [f_equal; lia|]. f_equal. change (Z.shiftr UMAX 4) with 1152921504606846975. unfold UMAX. apply eq_true_iff_eq. rewrite !Z.ltb_lt. lia.
Qed.
Lemma oct_spec s v : numeral 8 s v -> fold_left step_oct s (0, false) = (v mod 18446744073709551616, UMAX <? v).
Proof.
  apply acc_spec; [lia|reflexivity|]. intros u o c d D U. pose proof (digit_hv _ _ _ D) as (_ & R & C). unfold step_oct. replace (c =? 95) with false by lia.
  destruct (digit_le _ _ _ D) as [_ ->]; [lia|].
  f_equal; [f_equal; lia|]. f_equal. change (Z.shiftr UMAX 3) with 2305843009213693951. unfold UMAX. apply eq_true_iff_eq. rewrite !Z.ltb_lt. lia.
Qed.
Lemma bin_spec s v : numeral 2 s v -> fold_left step_bin s (0, false) = (v mod 18446744073709551616, UMAX <? v).
Proof.
  apply acc_spec; [lia|reflexivity|]. intros u o c d D U. pose proof (digit_hv _ _ _ D) as (_ & R & C). unfold step_bin. replace (c =? 95) with false by lia.
  destruct (digit_le _ _ _ D) as [_ ->]; [lia|].
  f_equal; [f_equal; lia|]. f_equal. change (Z.shiftr UMAX 1) with 9223372036854775807. unfold UMAX. apply eq_true_iff_eq. rewrite !Z.ltb_lt. lia.
Qed.
Lemma dec_spec' s v : numeral 10 s v -> fold_left step_dec s (0, false) = (v mod 18446744073709551616, UMAX <? v).
Proof.
  apply acc_spec; [lia|reflexivity|]. intros u o c d D U. pose proof (digit_hv _ _ _ D) as (_ & R & C). unfold step_dec. replace (c =? 95) with false by lia.
  destruct (digit_le _ _ _ D) as [_ ->]; [lia|].
  f_equal; [f_equal; lia|]. f_equal. unfold UMAX. apply eq_true_iff_eq. rewrite !Z.ltb_lt. lia.
Qed.
Lemma wrap_i_mod x : wrap_i 64 (x mod 18446744073709551616) = wrap_i 64 x.
Proof. unfold wrap_i. change (2 ^ 64) with 18446744073709551616. cbv zeta. now rewrite Zmod_mod. Qed.
Lemma int_literal_pos s v : int_literal s v -> 0 <= v.
Proof. intros [p r x _ N|p r x _ N|p r x _ N|r x N]; eapply numeral_pos; try exact N; lia. Qed.
Lemma parse_int_spec s v : int_literal s v -> parse_int s = Int (wrap_i 64 v) (INT64_MAX <? v) (UMAX <? v) s.
Proof.
  intros L. pose proof (int_literal_pos s v L) as P.
  assert (F : forall s, Int (wrap_i 64 (v mod 18446744073709551616)) ((UMAX <? v) || (INT64_MAX <? v mod 18446744073709551616)) (UMAX <? v) s = Int (wrap_i 64 v) (INT64_MAX <? v) (UMAX <? v) s).
  { intros s'. rewrite wrap_i_mod. f_equal. unfold UMAX. change INT64_MAX with 9223372036854775807. destruct (18446744073709551615 <? v) eqn:V; cbn [orb].
    - symmetry. apply Z.ltb_lt. lia.
    - rewrite Z.mod_small by lia. reflexivity. }
  unfold parse_int. inversion L as [p r x H N E|p r x H N E|p r x H N E|r x N E]; subst; cbn [hd tl].
  - rewrite (hex_spec _ _ N). destruct H as [->| ->]; apply F.
  - rewrite (oct_spec _ _ N). destruct H as [->| ->]; apply F.
  - rewrite (bin_spec _ _ N). destruct H as [->| ->]; apply F.
  - assert (X : hd 0 s = 48 -> 48 <= hd 0 (tl s) <= 57 \/ hd 0 (tl s) = 95 \/ hd 0 (tl s) = 0).
    { intros H. destruct s as [|c [|p s]]; cbn [hd tl] in *; [lia|lia|]. subst c. destruct (decimal_no_letter _ _ _ _ N eq_refl); lia. }
    destruct (hd 0 s =? 48) eqn:Z0; cbn [andb].
    + specialize (X ltac:(lia)). set (p := hd 0 (tl s)) in *. clearbody p.
      replace ((p =? 120) || (p =? 88)) with false by lia. replace ((p =? 111) || (p =? 79)) with false by lia. replace ((p =? 98) || (p =? 66)) with false by lia.
      rewrite (dec_spec' _ _ N). apply F.
    + rewrite (dec_spec' _ _ N). apply F.
Qed.
Lemma wrap_u_i x : wrap_u 64 (wrap_i 64 x) = x mod 18446744073709551616.
Proof.
  unfold wrap_u, wrap_i. change (2 ^ 64) with 18446744073709551616. change (2 ^ (64 - 1)) with 9223372036854775808. cbv zeta.
  destruct (x mod 18446744073709551616 <? 9223372036854775808); lia.
Qed.
Lemma wrap_i_small x : 0 <= x <= INT64_MAX -> wrap_i 64 x = x.
Proof.
  unfold wrap_i. change (2 ^ 64) with 18446744073709551616. change (2 ^ (64 - 1)) with 9223372036854775808. change INT64_MAX with 9223372036854775807. cbv zeta. intros H.
  rewrite Z.mod_small by lia. destruct (x <? 9223372036854775808) eqn:E; lia.
Qed.

(** * Tokens *)
Lemma token_scans src ts t : lex src = Some ts -> forallb legal ts = true -> In t ts -> tkind t <> EOF ->
  exists c r m, spelling (tkind t) (literal t) ++ [32] = c :: r /\ scan (c :: r) = Some (tkind t, literal t, m) /\ shape (c :: r) (tkind t, literal t, m).
Proof.
  intros L F I NE. unfold lex in L. rewrite at_create in L. destruct (tokens_keep _ _ _ _ L F) as (body & e & -> & K & Me).
  apply in_app_or in I as [I|[->|[]]]; [|unfold meaning in Me; congruence].
  rewrite Forall_forall in K. assert (M : In (meaning t) (map meaning body)) by (apply in_map; exact I). specialize (K _ M). unfold keeps, meaning in K.
  destruct K as (_ & NI & NN & K). assert (Sp : separated [32]) by (right; exists 32, []; split; [now left|reflexivity]). destruct (K [32] Sp) as [_ Sc].
  destruct (spelling (tkind t) (literal t)) as [|c r]; [contradiction|]. cbn [app] in *. destruct (scan_cases c (r ++ [32])) as (f & Sf & Sh). rewrite Sc in Sf. injection Sf as <-.
  eexists c, _, _. split; [reflexivity|]. split; [exact Sc|exact Sh].
Qed.
Lemma based_numeral f b r n k : (forall c, f c = true -> c = 95 \/ exists d, digit b c d) -> based f r = (n, k, None) -> exists s v, firstn (n - 2) r = s /\ numeral b s v /\ (2 <= n)%nat.
Proof.
  intros F. unfold based. destruct (run_spec f r) as (x & y & -> & <- & X & _). intros H. injection H as Hn _ _.
  destruct (numeral_made b x) as [v N]. { eapply Forall_impl; [|exact X]. exact F. }
  exists x, v. replace (n - 2)%nat with (length x) by lia. rewrite firstn_len. split; [reflexivity|]. split; [exact N|lia].
Qed.
Lemma hex_digit_of c : hex_ c = true -> c = 95 \/ exists d, digit 16 c d.
Proof.
  unfold hex_, isxdigit, isdigit. intros H. destruct (c =? 95) eqn:E; [left; lia|right].
  destruct ((48 <=? c) && (c <=? 57)) eqn:A; [eexists; apply digit_num; lia|]. destruct ((97 <=? c) && (c <=? 102)) eqn:B; [eexists; apply digit_low; lia|]. eexists; apply digit_up; lia.
Qed.
Lemma octal_digit_of c : octal_ c = true -> c = 95 \/ exists d, digit 8 c d.
Proof. unfold octal_. intros H. destruct (c =? 95) eqn:E; [left; lia|right]. eexists; apply digit_num; lia. Qed.
Lemma binary_digit_of c : binary_ c = true -> c = 95 \/ exists d, digit 2 c d.
Proof. unfold binary_. intros H. destruct (c =? 95) eqn:E; [left; lia|right]. eexists; apply digit_num; lia. Qed.
Lemma dec_digit_of c : digit_ c = true -> c = 95 \/ exists d, digit 10 c d.
Proof. unfold digit_, isdigit. intros H. destruct (c =? 95) eqn:E; [left; lia|right]. eexists; apply digit_num; lia. Qed.
Lemma firstn_two {A} (a b : A) n r : (2 <= n)%nat -> firstn n (a :: b :: r) = a :: b :: firstn (n - 2) r.
Proof. destruct n as [|[|n]]; [lia|lia|]. intros _. cbn [firstn Nat.sub]. now rewrite Nat.sub_0_r. Qed.
Lemma read_int c r n : isdigit c = true -> read_number (c :: r) = (n, INT, None) -> exists v, int_literal (firstn n (c :: r)) v.
Proof.
  intros C. assert (Dc : forall n, decimal (c :: r) = (n, INT, None) -> exists v, int_literal (firstn n (c :: r)) v).
  { intros m H. apply decimal_shape in H as (a & A & [(_ & E & _)|(b & K & _)] & _); [|discriminate]. destruct (numeral_made 10 a) as [v N]. { eapply Forall_impl; [|exact A]. exact dec_digit_of. }
    exists v. rewrite E. now apply lit_dec. }
  unfold read_number. cbv zeta. fold (decimal (c :: r)). cbn [hd tl]. destruct (c =? 48) eqn:Z0; [|apply Dc]. apply Z.eqb_eq in Z0 as ->.
  destruct ((hd 0 r =? 120) || (hd 0 r =? 88)) eqn:E1.
  { intros H. destruct (based_numeral _ 16 _ _ _ hex_digit_of H) as (s & v & E & N & G). exists v. destruct r as [|p r]; [discriminate|]. cbn [hd tl] in *.
    rewrite firstn_two by exact G. rewrite E. apply lit_hex; [lia|exact N]. }
  destruct ((hd 0 r =? 111) || (hd 0 r =? 79)) eqn:E2.
  { intros H. destruct (based_numeral _ 8 _ _ _ octal_digit_of H) as (s & v & E & N & G). exists v. destruct r as [|p r]; [discriminate|]. cbn [hd tl] in *.
    rewrite firstn_two by exact G. rewrite E. apply lit_oct; [lia|exact N]. }
  destruct ((hd 0 r =? 98) || (hd 0 r =? 66)) eqn:E3; [|apply Dc].
  intros H. destruct (based_numeral _ 2 _ _ _ binary_digit_of H) as (s & v & E & N & G). exists v. destruct r as [|p r]; [discriminate|]. cbn [hd tl] in *.
  rewrite firstn_two by exact G. rewrite E. apply lit_bin; [lia|exact N].
Qed.
Lemma ops_kind k lit : In (k, lit) ops -> k <> INT /\ k <> STRING /\ k <> RAW_STRING /\ k <> CHAR.
Proof. intros H. cbn in H. repeat (destruct H as [H|H]; [injection H as <- _; repeat split; discriminate|]). destruct H. Qed.
Lemma scan_string_kind r k lit m : scan_string r = (k, lit, m) -> k = STRING \/ k = ILLEGAL.
Proof. unfold scan_string, illegal. destruct (str 0 r) as [n e]. destruct (hd 0 (skipn n r) =? 34); [destruct e|]; intros H; injection H as <- _ _; auto. Qed.
Lemma scan_raw_kind r k lit m : scan_raw r = (k, lit, m) -> k = RAW_STRING \/ k = ILLEGAL.
Proof. unfold scan_raw, illegal. destruct (hd 0 _ =? 96); intros H; injection H as <- _ _; auto. Qed.
Lemma scan_char_kind r k lit m : scan_char r = (k, lit, m) -> k = CHAR \/ k = ILLEGAL.
Proof.
  unfold scan_char, illegal. destruct (if hd 0 r =? 92 then _ else _) as [n0 e0]. cbv zeta. destruct (if negb (hd 0 (skipn n0 r) =? 39) && _ && _ then _ else _) as [n e].
  destruct (hd 0 (skipn n r) =? 39); [destruct e|]; intros H; injection H as <- _ _; auto.
Qed.
Lemma lookup_kinds w k : lookup_identifier w = Some k -> k <> INT /\ k <> STRING /\ k <> RAW_STRING /\ k <> CHAR.
Proof.
  intros H. destruct (lookup_exact w) as [(k' & I & E)|[_ E]]; rewrite E in H; injection H as <-; [|repeat split; discriminate].
  cbn in I. repeat (destruct I as [I|I]; [injection I as _ <-; repeat split; discriminate|]). destruct I.
Qed.
Lemma int_token src ts t : lex src = Some ts -> forallb legal ts = true -> In t ts -> tkind t = INT -> exists v, int_literal (literal t) v.
Proof.
  intros L F I K. destruct (token_scans _ _ _ L F I) as (c & r & m & E & _ & Sh); [congruence|]. rewrite K in *.
  remember (c :: r) as s eqn:Es. remember (INT, literal t, m) as f eqn:Ef. destruct Sh as [e n Ln|k' l r2 J _|r2 _|r2 _|r2 _|k' d r2 _ A B|d r2 n k' Es' A B].
  - discriminate.
  - injection Ef as -> _ _. apply ops_kind in J. tauto.
  - apply scan_string_kind in Ef as [X|X]; discriminate.
  - apply scan_raw_kind in Ef as [X|X]; discriminate.
  - apply scan_char_kind in Ef as [X|X]; discriminate.
  - injection Ef as -> _ _. apply lookup_kinds in B. tauto.
  - injection Ef as -> <- _. rewrite Es' in *. exact (read_int _ _ _ A B).
Qed.

(** * Wide values *)
Lemma numeral_dec s v : numeral 10 s v -> Forall is_digit (digits_only s) /\ dec_val (digits_only s) = v.
Proof.
  induction 1 as [|s v N [F V]|s v c d N [F V] D]; [split; [constructor|reflexivity]| |].
  - unfold digits_only in *. rewrite filter_app. cbn [filter negb Z.eqb Pos.eqb]. rewrite app_nil_r. auto.
  - destruct (digit_le _ _ _ D) as [R _]; [lia|]. assert (Dd : d = c - 48) by (inversion D; subst; lia). unfold digits_only in *. rewrite filter_app. cbn [filter].
    replace (negb (c =? 95)) with true by lia. split; [apply Forall_app; split; [exact F|repeat constructor; unfold is_digit; lia]|].
    revert V. unfold dec_val. set (l := filter _ s). clearbody l. intros <-. rewrite Dd. clear. generalize 0. induction l as [|x l IH]; intros a; cbn [app dec_val_from]; [lia|apply IH].
Qed.
Lemma wrap_i_in n x : 0 < n -> - 2 ^ (n - 1) <= x < 2 ^ (n - 1) -> wrap_i n x = x.
Proof.
  intros N H. unfold wrap_i. cbv zeta. replace (2 ^ n) with (2 * 2 ^ (n - 1)) by (rewrite <- Z.pow_succ_r by lia; f_equal; lia).
  set (p := 2 ^ (n - 1)) in *. clearbody p. destruct (0 <=? x) eqn:E.
  - rewrite Z.mod_small by lia. destruct (x <? p) eqn:F; lia.
  - replace (x mod (2 * p)) with (x + 2 * p). + destruct (x + 2 * p <? p) eqn:F; lia. + rewrite <- (Z_mod_plus_full x 1). rewrite Z.mod_small; lia.
Qed.
Lemma from_64_val t v : - INT64_MAX <= v <= INT64_MAX -> lo t <= v -> big_val (from_64 t v) = v.
Proof.
  change INT64_MAX with 9223372036854775807. intros H L. destruct t; cbn [from_64 big_val lo] in *.
  - unfold i128_from_i64, i128_val, to_u64. cbn [ilo ihi]. rewrite M64_val || unfold M64. change (2 ^ 64) with 18446744073709551616. destruct (v <? 0) eqn:E; lia.
  - unfold u128_from_u64, u128_val, words_val. cbn [ulo uhi]. rewrite u64_spec, Z.mod_small; lia.
  - assert (P : words_val (i256_from_i64 v) = if v <? 0 then v + 115792089237316195423570985008687907853269984665640564039457584007913129639936 else v).
    { unfold i256_from_i64, to_u64, M64. change (2 ^ 64) with 18446744073709551616 in *. destruct (v <? 0) eqn:E; cbn [words_val]; change (2 ^ 64) with 18446744073709551616 in *.
      - change (-1 mod 18446744073709551616) with 18446744073709551615. lia.
      - change (0 mod 18446744073709551616) with 0. lia. }
    unfold i256_val, signed_of. rewrite P. change (2 ^ 256) with 115792089237316195423570985008687907853269984665640564039457584007913129639936. change (2 ^ (256 - 1)) with 57896044618658097711785492504343953926634992332820282019728792003956564819968.
    destruct (v <? 0) eqn:E; match goal with |- context[if ?b then _ else _] => destruct b eqn:F end; lia.
  - unfold u256_from_u64, u256_val, words_val. rewrite u64_spec, Z.mod_small; lia.
Qed.
Lemma from_decimal_val wv t s v : numeral 10 s v -> v < hi t -> exists x, from_decimal wv t s = Ok x /\ big_val x = v.
Proof.
  intros N H. pose proof (numeral_pos 10 s v ltac:(lia) N) as P. destruct (numeral_dec s v N) as [F V]. destruct t; cbn [from_decimal hi] in *.
  - destruct (i128_from_decimal_pos wv s F) as (r & -> & _ & R). eexists. split; [reflexivity|]. cbn [big_val]. rewrite R, V. apply wrap_i_in; [lia|].
    change (2 ^ (128 - 1)) with (2 ^ 127). lia.
  - destruct (u128_from_decimal_val s F) as [_ R]. eexists. split; [reflexivity|]. cbn [big_val]. rewrite R, V. apply Z.mod_small. lia.
  - destruct (i256_from_decimal_pos s F) as [_ R]. eexists. split; [reflexivity|]. cbn [big_val]. rewrite R, V. apply wrap_i_in; [lia|].
    change (2 ^ (256 - 1)) with (2 ^ 255). lia.
  - destruct (u256_from_decimal_val s F) as [_ R]. eexists. split; [reflexivity|]. cbn [big_val]. rewrite R, V. apply Z.mod_small. lia.
Qed.
Lemma from_decimal_neg wv t s v : numeral 10 s v -> t = TI128 \/ t = TI256 -> v < hi t \/ (v = hi t /\ (t = TI128 -> wv = true)) ->
  exists x, from_decimal wv t (45 :: s) = Ok x /\ big_val x = - v.
Proof.
  intros N T H. pose proof (numeral_pos 10 s v ltac:(lia) N) as P. destruct (numeral_dec s v N) as [F V]. destruct T as [->| ->]; cbn [from_decimal hi] in *.
  - destruct (i128_from_decimal_neg_def wv s F) as [r E]. { rewrite V. destruct H as [H|[_ H]]; [right; exact H|left; auto]. }
    rewrite E. eexists. split; [reflexivity|]. cbn [big_val]. destruct (i128_from_decimal_neg _ _ _ F E) as [_ R]. rewrite R, V. apply wrap_i_in; [lia|].
    change (2 ^ (128 - 1)) with (2 ^ 127). lia.
  - destruct (i256_from_decimal_neg s F) as [_ R]. eexists. split; [reflexivity|]. cbn [big_val]. rewrite R, V. apply wrap_i_in; [lia|].
    change (2 ^ (256 - 1)) with (2 ^ 255). lia.
Qed.
Lemma compound_64 t v : 0 <= v <= INT64_MAX -> compound t v = from_64 t v.
Proof. intros H. destruct t; reflexivity. Qed.
Lemma zero_val t : big_val (zero t) = 0. Proof. destruct t; reflexivity. Qed.
