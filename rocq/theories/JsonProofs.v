(** The validator against the grammar. *)
From Verif Require Import Base BaseFacts EncodingModel EncodingSpec EncodingProofs StringsModel StrconvModel StrconvSpec StringsSpec Decimal JsonModel JsonSpec.

Ltac Zify.zify_post_hook ::= Z.div_mod_to_equations.

Lemma isspace_iff c : isspace c = true <-> space c.
Proof. unfold isspace, space. lia. Qed.
Lemma isspace_not c : isspace c = false <-> ~ space c.
Proof. rewrite <- isspace_iff. destruct (isspace c); split; congruence. Qed.
Lemma isdigit_iff c : isdigit c = true <-> digit c.
Proof. unfold isdigit, digit. lia. Qed.

Lemma skip_ws_split s : exists w, s = w ++ skip_ws s /\ blanks space w.
Proof.
  induction s as [|c s IH].
  - exists []. split; [reflexivity|constructor].
  - cbn [skip_ws]. destruct (isspace c) eqn:E.
    + destruct IH as (w & W1 & W2). exists (c :: w). split; [cbn; congruence|]. constructor; [apply isspace_iff, E|exact W2].
    + exists []. split; [reflexivity|constructor].
Qed.
Lemma skip_ws_app w r : blanks space w -> skip_ws (w ++ r) = skip_ws r.
Proof.
  induction 1 as [|c w H _ IH]; [reflexivity|]. cbn [app skip_ws]. apply isspace_iff in H. rewrite H. exact IH.
Qed.
Lemma skip_ws_all w : blanks space w -> skip_ws w = [].
Proof. intros H. rewrite <- (app_nil_r w), skip_ws_app by exact H. reflexivity. Qed.
Lemma skip_ws_stop c r : ~ space c -> skip_ws (c :: r) = c :: r.
Proof. intros H. apply isspace_not in H. cbn [skip_ws]. rewrite H. reflexivity. Qed.
Lemma skip_ws_idem s : skip_ws (skip_ws s) = skip_ws s.
Proof. induction s as [|c s IH]; [reflexivity|]. cbn [skip_ws]. destruct (isspace c) eqn:E; [exact IH|]. cbn [skip_ws]. rewrite E. reflexivity. Qed.
Lemma skip_ws_len s : (length (skip_ws s) <= length s)%nat.
Proof. induction s as [|c s IH]; cbn [skip_ws length]; [lia|]. destruct (isspace c); cbn [length]; lia. Qed.
Lemma skip_ws_head s c r : skip_ws s = c :: r -> ~ space c.
Proof.
  induction s as [|x s IH]; [discriminate|]. cbn [skip_ws]. destruct (isspace x) eqn:E; [exact IH|].
  intros H. injection H as -> _. apply isspace_not, E.
Qed.

(** ** strings *)
Lemma isxdigit_iff c : isxdigit c = true <-> is_hex_digit c.
Proof. apply isxdigit_spec. Qed.
Lemma simple_esc_iff e : simple_esc e = true <-> exists x, escape_of e x.
Proof.
  unfold simple_esc. rewrite !orb_true_iff, !Z.eqb_eq. split.
  - intros H. destruct H as [[[[[[[->| ->]| ->]| ->]| ->]| ->]| ->]| ->]; eexists; constructor.
  - intros (x & H). inversion H; subst; tauto.
Qed.
Lemma not_simple_u : simple_esc 117 = false.
Proof. reflexivity. Qed.

Lemma v_chars_sound n s r : (length s <= n)%nat -> v_chars s = Some r -> exists b, s = b ++ [34] ++ r /\ chars b.
Proof.
  revert s. induction n as [|n IH]; intros s L.
  - destruct s; [discriminate|cbn in L; lia].
  - destruct s as [|c s]; [discriminate|]. cbn [v_chars]. cbn [length] in L.
    destruct (Z.eqb_spec c 34) as [->|N34].
    { intros H. injection H as ->. exists []. split; [reflexivity|constructor]. }
    destruct (Z.eqb_spec c 92) as [->|N92].
    + destruct s as [|e s]; [discriminate|]. cbn [length] in L. destruct (simple_esc e) eqn:E.
      * intros H. destruct (IH s ltac:(lia) H) as (b & -> & B). exists (92 :: e :: b). split; [reflexivity|].
        apply simple_esc_iff in E. destruct E as (x & E). eapply ch_esc; eassumption.
      * destruct (Z.eqb_spec e 117) as [->|]; [|discriminate].
        destruct s as [|a [|b [|c [|d s]]]]; try discriminate.
        destruct (isxdigit a && isxdigit b && isxdigit c && isxdigit d) eqn:X; [|discriminate].
        cbn [length] in L. intros H. destruct (IH s ltac:(lia) H) as (w & -> & W).
        exists (92 :: 117 :: a :: b :: c :: d :: w). split; [reflexivity|]. apply ch_u; [|exact W].
        rewrite !andb_true_iff, !isxdigit_iff in X. unfold hex4. tauto.
    + destruct (Z.ltb_spec c 32); [discriminate|]. intros H'. destruct (IH s ltac:(lia) H') as (b & -> & B).
      exists (c :: b). split; [reflexivity|]. apply ch_plain; auto; lia.
Qed.
Lemma v_chars_complete b r : chars b -> v_chars (b ++ [34] ++ r) = Some r.
Proof.
  induction 1 as [|c b H1 H2 H3 _ IH|e x b H _ IH|a b0 c d b H _ IH].
  - reflexivity.
  - cbn [app v_chars]. rewrite (proj2 (Z.eqb_neq _ _) H2), (proj2 (Z.eqb_neq _ _) H3), (proj2 (Z.ltb_ge c 32) H1). exact IH.
  - cbn [app v_chars]. change (92 =? 34) with false. change (92 =? 92) with true. cbn match.
    rewrite (proj2 (simple_esc_iff e)) by (exists x; exact H). exact IH.
  - cbn [app v_chars]. change (92 =? 34) with false. change (92 =? 92) with true. change (117 =? 117) with true.
    rewrite not_simple_u. cbn match. destruct H as (A & B & C & D). apply isxdigit_iff in A, B, C, D.
    rewrite A, B, C, D. exact IH.
Qed.
Lemma v_string_sound s r : v_string_lit s = Some r -> exists t, s = t ++ r /\ json_string t.
Proof.
  destruct s as [|c s]; [discriminate|]. cbn [v_string_lit]. destruct (Z.eqb_spec c 34) as [->|]; [|discriminate].
  intros H. apply (v_chars_sound _ _ _ (Nat.le_refl _)) in H. destruct H as (b & -> & B).
  exists ([34] ++ b ++ [34]). split; [rewrite <- !app_assoc; reflexivity|]. exists b. auto.
Qed.
Lemma v_string_complete t r : json_string t -> v_string_lit (t ++ r) = Some r.
Proof. intros (b & -> & B). rewrite <- !app_assoc. cbn [app v_string_lit]. change (34 =? 34) with true. cbn match. apply v_chars_complete, B. Qed.
Lemma json_string_head t : json_string t -> exists b, t = 34 :: b.
Proof. intros (b & -> & _). eexists. reflexivity. Qed.

(** ** numbers *)
Lemma v_digits_split s : exists ds, s = ds ++ v_digits s /\ Forall digit ds /\ (forall c r, s = c :: r -> digit c -> ds <> []).
Proof.
  induction s as [|c s IH].
  - exists []. split; [reflexivity|]. split; [constructor|discriminate].
  - cbn [v_digits]. destruct (isdigit c) eqn:E.
    + destruct IH as (ds & D1 & D2 & _). exists (c :: ds). split; [cbn; congruence|]. split; [|discriminate].
      constructor; [apply isdigit_iff, E|exact D2].
    + exists []. split; [reflexivity|]. split; [constructor|]. intros c' r H D. injection H as <- <-. apply isdigit_iff in D. congruence.
Qed.
Lemma v_digits1_sound s r : v_digits1 s = Some r -> exists ds, s = ds ++ r /\ digits1 ds.
Proof.
  destruct s as [|c s]; [discriminate|]. cbn [v_digits1]. destruct (isdigit c) eqn:E; [|discriminate].
  intros H. injection H as <-. destruct (v_digits_split (c :: s)) as (ds & D1 & D2 & D3).
  exists ds. split; [exact D1|]. split; [|exact D2]. apply (D3 c s eq_refl). apply isdigit_iff, E.
Qed.
(** what may follow a value *)
Definition ends (r : bytes) : Prop :=
  r = [] \/ exists c r', r = c :: r' /\ (space c \/ c = 44 \/ c = 93 \/ c = 125).
Lemma v_digits_complete ds r : Forall digit ds -> (forall c r', r = c :: r' -> ~ digit c) -> v_digits (ds ++ r) = r.
Proof.
  intros D N. induction D as [|c ds H _ IH]; cbn [app].
  - destruct r as [|c r]; [reflexivity|]. cbn [v_digits]. destruct (isdigit c) eqn:E; [|reflexivity].
    apply isdigit_iff in E. exfalso. exact (N c r eq_refl E).
  - cbn [v_digits]. apply isdigit_iff in H. rewrite H. exact IH.
Qed.
Lemma v_digits1_complete ds r : digits1 ds -> (forall c r', r = c :: r' -> ~ digit c) -> v_digits1 (ds ++ r) = Some r.
Proof.
  intros (NE & D) N. destruct ds as [|c ds]; [congruence|]. inversion D; subst.
  unfold v_digits1. cbn [app]. pose proof (proj2 (isdigit_iff c) H1) as E. rewrite E.
  f_equal. apply (v_digits_complete (c :: ds) r D N).
Qed.
Lemma v_number_sound s r : v_number s = Some r -> exists t, s = t ++ r /\ json_number t.
Proof.
  unfold v_number. intros H.
  assert (M : exists m, s = m ++ skip_char 45 s /\ (m = [] \/ m = [45])).
  { destruct s as [|c s]; [exists []; auto|]. cbn [skip_char]. destruct (Z.eqb_spec c 45) as [->|]; [exists [45]|exists []]; auto. }
  destruct M as (m & M1 & M2). revert H M1. generalize (skip_char 45 s). intros s1 H ->.
  destruct (v_int s1) as [s2|] eqn:E1; [|discriminate].
  destruct (v_frac s2) as [s3|] eqn:E2; [|discriminate].
  assert (I : exists i, s1 = i ++ s2 /\ int_part i).
  { destruct s1 as [|c s1]; [discriminate|]. cbn [v_int] in E1. destruct (Z.eqb_spec c 48) as [->|].
    - injection E1 as <-. exists [48]. split; [reflexivity|left; reflexivity].
    - destruct ((49 <=? c) && (c <=? 57)) eqn:E; [|discriminate].
      assert (D : digit c) by (unfold digit; lia). pose proof (proj2 (isdigit_iff c) D) as D'.
      cbn [v_digits] in E1. rewrite D' in E1. injection E1 as <-.
      destruct (v_digits_split s1) as (ds & D1 & D2 & _). exists (c :: ds). split; [cbn; congruence|].
      right. exists c, ds. split; [reflexivity|]. split; [lia|exact D2]. }
  assert (F : exists f, s2 = f ++ s3 /\ frac_part f).
  { destruct s2 as [|c s2]; [injection E2 as <-; exists []; split; [reflexivity|left; reflexivity]|].
    cbn [v_frac] in E2. destruct (Z.eqb_spec c 46) as [->|].
    - apply v_digits1_sound in E2. destruct E2 as (ds & -> & D). exists (46 :: ds). split; [reflexivity|]. right. exists ds. auto.
    - injection E2 as <-. exists []. split; [reflexivity|left; reflexivity]. }
  assert (X : exists e, s3 = e ++ r /\ exp_part e).
  { destruct s3 as [|c s3]; [injection H as <-; exists []; split; [reflexivity|left; reflexivity]|].
    cbn [v_exp] in H. destruct ((c =? 101) || (c =? 69)) eqn:E.
    - apply v_digits1_sound in H. destruct H as (ds & H & D).
      assert (SG : exists sg, s3 = sg ++ ds ++ r /\ (sg = [] \/ sg = [43] \/ sg = [45])).
      { destruct s3 as [|x s3]; [exists []; auto|]. destruct ((x =? 43) || (x =? 45)) eqn:Ex.
        - exists [x]. split; [cbn; congruence|]. assert (x = 43 \/ x = 45) as [-> | ->] by lia; auto.
        - exists []. auto. }
      destruct SG as (sg & -> & SG). exists (c :: sg ++ ds). split; [cbn [app]; rewrite <- !app_assoc; reflexivity|].
      right. exists c, sg, ds. split; [reflexivity|]. split; [lia|]. split; [exact SG|exact D].
    - injection H as <-. exists []. split; [reflexivity|left; reflexivity]. }
  destruct I as (i & -> & I). destruct F as (f & -> & F). destruct X as (e & -> & X).
  exists (m ++ i ++ f ++ e). split; [rewrite <- !app_assoc; reflexivity|]. exists m, i, f, e. auto.
Qed.
Lemma ends_not r c r' : ends r -> r = c :: r' -> ~ digit c /\ c <> 46 /\ c <> 101 /\ c <> 69.
Proof.
  intros [->|(x & y & -> & H)] E; [discriminate|]. injection E as -> ->. unfold space, digit in *. lia.
Qed.
Lemma int_part_head i : int_part i -> exists c r, i = c :: r /\ digit c.
Proof. intros [->|(c & r & -> & H & _)]; [exists 48, []|exists c, r]; split; auto; unfold digit; lia. Qed.
Lemma v_number_complete t r : json_number t -> ends r -> v_number (t ++ r) = Some r.
Proof.
  intros (m & i & f & e & -> & M & I & F & X) R. unfold v_number. rewrite <- !app_assoc.
  assert (S1 : skip_char 45 (m ++ i ++ f ++ e ++ r) = i ++ f ++ e ++ r).
  { destruct M as [->| ->]; [|reflexivity]. destruct (int_part_head i I) as (c & q & -> & D). cbn [app skip_char].
    destruct (Z.eqb_spec c 45); [unfold digit in D; lia|reflexivity]. }
  rewrite S1.
  assert (HX : forall c q, e ++ r = c :: q -> ~ digit c /\ c <> 46).
  { intros c q H. destruct X as [->|(x & sg & ds & -> & [->| ->] & _)].
    - cbn [app] in H. destruct (ends_not _ _ _ R H) as (A & B & _). auto.
    - injection H as <- _. unfold digit. lia.
    - injection H as <- _. unfold digit. lia. }
  assert (HF : forall c q, f ++ e ++ r = c :: q -> ~ digit c).
  { intros c q H. destruct F as [->|(ds & -> & _)]; [apply (HX c q H)|]. injection H as <- _. unfold digit. lia. }
  assert (S2 : v_int (i ++ f ++ e ++ r) = Some (f ++ e ++ r)).
  { destruct I as [->|(c & ds & -> & H & D)]; [reflexivity|]. cbn [app v_int].
    destruct (Z.eqb_spec c 48); [lia|]. replace ((49 <=? c) && (c <=? 57)) with true by lia. f_equal.
    apply (v_digits_complete (c :: ds)); [constructor; [unfold digit; lia|exact D]|exact HF]. }
  rewrite S2.
  assert (S3 : v_frac (f ++ e ++ r) = Some (e ++ r)).
  { destruct F as [->|(ds & -> & D)].
    - cbn [app]. destruct (e ++ r) as [|c q] eqn:E; [reflexivity|]. cbn [v_frac]. destruct (Z.eqb_spec c 46); [|reflexivity].
      exfalso. destruct (HX c q eq_refl). lia.
    - cbn [app v_frac]. apply v_digits1_complete; [exact D|]. intros c q H. apply (HX c q H). }
  rewrite S3. destruct X as [->|(x & sg & ds & -> & Hx & SG & D)].
  - cbn [app]. destruct r as [|c q]; [reflexivity|]. cbn [v_exp]. destruct (ends_not _ _ _ R eq_refl) as (_ & _ & A & B).
    replace ((c =? 101) || (c =? 69)) with false by lia. reflexivity.
  - cbn [app v_exp]. replace ((x =? 101) || (x =? 69)) with true by lia.
    assert (N : forall c r', r = c :: r' -> ~ digit c) by (intros c q H; apply (ends_not _ _ _ R H)).
    rewrite <- app_assoc. destruct SG as [->|[->| ->]]; cbn [app].
    + destruct D as (NE & D). destruct ds as [|d ds]; [congruence|]. cbn [app]. inversion D; subst.
      replace ((d =? 43) || (d =? 45)) with false by (unfold digit in *; lia).
      apply (v_digits1_complete (d :: ds)); [split; [discriminate|exact D]|exact N].
    + apply v_digits1_complete; assumption.
    + apply v_digits1_complete; assumption.
Qed.
Lemma json_number_head t : json_number t -> exists c r, t = c :: r /\ (c = 45 \/ digit c).
Proof.
  intros (m & i & f & e & -> & M & I & _). destruct (int_part_head i I) as (c & r & -> & D).
  destruct M as [->| ->]; [exists c, (r ++ f ++ e)|exists 45, ((c :: r) ++ f ++ e)]; auto.
Qed.

(** ** literals *)
Lemma v_literal_iff lit s r : v_literal lit s = Some r <-> s = lit ++ r.
Proof.
  revert s. induction lit as [|l lit IH]; intros s; cbn [v_literal app].
  - split; [intros H; injection H as ->; reflexivity|intros ->; reflexivity].
  - destruct s as [|c s]; [split; discriminate|]. destruct (Z.eqb_spec l c) as [->|].
    + rewrite IH. split; [intros ->; reflexivity|intros H; injection H as ->; reflexivity].
    + split; [discriminate|intros H; injection H as H _; congruence].
Qed.

(** ** values *)
Definition room (depth : Z) : nat := Z.to_nat (MAX_DEPTH - depth).
Lemma room_S depth : depth + 1 <= MAX_DEPTH -> room depth = S (room (depth + 1)).
Proof. unfold room, MAX_DEPTH. lia. Qed.
Lemma v_sound n :
  (forall s depth r, v_value n s depth = Ok (Some r) ->
     depth <= MAX_DEPTH /\ exists w v, s = w ++ v ++ r /\ blanks space w /\ value space (room depth) v) /\
  (forall s depth r, v_elems n s depth = Ok (Some r) ->
     depth + 1 <= MAX_DEPTH /\ exists es, s = es ++ [93] ++ r /\ elements space (room (depth + 1)) es) /\
  (forall s depth r, v_members n s depth = Ok (Some r) ->
     depth + 1 <= MAX_DEPTH /\ exists ms, s = ms ++ [125] ++ r /\ members space (room (depth + 1)) ms).
Proof.
  induction n as [|n (IHv & IHe & IHm)]; [repeat split; discriminate|]. split; [|split].
  - intros s depth r. cbn [v_value]. destruct (Z.ltb_spec MAX_DEPTH depth) as [|D]; [discriminate|].
    destruct (skip_ws_split s) as (w & W1 & W2). destruct (skip_ws s) as [|c s1] eqn:E0; [discriminate|]. intros H.
    split; [exact D|]. exists w.
    cut (exists v, c :: s1 = v ++ r /\ value space (room depth) v).
    { intros (v & V1 & V2). exists v. split; [congruence|auto]. }
    destruct (Z.eqb_spec c 123) as [->|_].
    { destruct (skip_ws_split s1) as (w1 & A1 & A2). destruct (skip_ws s1) as [|x s2] eqn:E1.
      - destruct (IHm _ _ _ H) as (D1 & ms & M1 & _). destruct ms; discriminate.
      - destruct (Z.eqb_spec x 125) as [->|].
        + injection H as ->. exists ([123] ++ w1 ++ [125]). split; [rewrite A1, <- !app_assoc; reflexivity|]. apply va_object0, A2.
        + destruct (IHm _ _ _ H) as (D1 & ms & M1 & M2). exists ([123] ++ (w1 ++ ms) ++ [125]).
          split; [rewrite A1, M1, <- !app_assoc; reflexivity|]. rewrite (room_S _ D1). apply va_object.
          inversion M2; subst.
          * rewrite app_assoc. apply me_one; auto. apply Forall_app; split; assumption.
          * rewrite app_assoc. apply me_more; auto. apply Forall_app; split; assumption. }
    destruct (Z.eqb_spec c 91) as [->|_].
    { destruct (skip_ws_split s1) as (w1 & A1 & A2). destruct (skip_ws s1) as [|x s2] eqn:E1.
      - destruct (IHe _ _ _ H) as (D1 & ms & M1 & _). destruct ms; discriminate.
      - destruct (Z.eqb_spec x 93) as [->|].
        + injection H as ->. exists ([91] ++ w1 ++ [93]). split; [rewrite A1, <- !app_assoc; reflexivity|]. apply va_array0, A2.
        + destruct (IHe _ _ _ H) as (D1 & ms & M1 & M2). exists ([91] ++ (w1 ++ ms) ++ [93]).
          split; [rewrite A1, M1, <- !app_assoc; reflexivity|]. rewrite (room_S _ D1). apply va_array.
          inversion M2; subst.
          * rewrite app_assoc. apply el_one; auto. apply Forall_app; split; assumption.
          * rewrite app_assoc. apply el_more; auto. apply Forall_app; split; assumption. }
    destruct (c =? 34).
    { assert (H' : v_string_lit (c :: s1) = Some r) by congruence. clear H. rename H' into H. apply v_string_sound in H. destruct H as (t & H1 & H2). exists t. split; [exact H1|]. apply va_string, H2. }
    destruct ((c =? 45) || isdigit c).
    { assert (H' : v_number (c :: s1) = Some r) by congruence. clear H. rename H' into H. apply v_number_sound in H. destruct H as (t & H1 & H2). exists t. split; [exact H1|]. apply va_number, H2. }
    destruct (c =? 116).
    { assert (H' : v_literal (bs "true") (c :: s1) = Some r) by congruence. clear H. rename H' into H. apply v_literal_iff in H. exists (bs "true"). split; [exact H|apply va_true]. }
    destruct (c =? 102).
    { assert (H' : v_literal (bs "false") (c :: s1) = Some r) by congruence. clear H. rename H' into H. apply v_literal_iff in H. exists (bs "false"). split; [exact H|apply va_false]. }
    destruct (c =? 110).
    { assert (H' : v_literal (bs "null") (c :: s1) = Some r) by congruence. clear H. rename H' into H. apply v_literal_iff in H. exists (bs "null"). split; [exact H|apply va_null]. }
    discriminate.
  - intros s depth r. cbn [v_elems]. destruct (v_value n (skip_ws s) (depth + 1)) as [[s1|]| | |] eqn:E1; try discriminate. cbn [rbind].
    destruct (IHv _ _ _ E1) as (D1 & w & v & V1 & V2 & V3).
    destruct (skip_ws_split s) as (w0 & A1 & A2). destruct (skip_ws_split s1) as (w2 & B1 & B2).
    destruct (skip_ws s1) as [|c s2]; [discriminate|].
    assert (B0 : blanks space (w0 ++ w)) by (apply Forall_app; auto).
    destruct (Z.eqb_spec c 44) as [->|_].
    + intros H. destruct (IHe _ _ _ H) as (_ & es & M1 & M2). split; [exact D1|].
      exists ((w0 ++ w) ++ v ++ w2 ++ [44] ++ es). split; [|apply el_more; auto].
      rewrite A1, V1, B1, M1, <- !app_assoc. reflexivity.
    + destruct (Z.eqb_spec c 93) as [->|_]; [|discriminate]. intros H. injection H as ->. split; [exact D1|].
      exists ((w0 ++ w) ++ v ++ w2). split; [|apply el_one; auto].
      rewrite A1, V1, B1, <- !app_assoc. reflexivity.
  - intros s depth r. cbn [v_members]. destruct (skip_ws_split s) as (w0 & A1 & A2).
    destruct (v_string_lit (skip_ws s)) as [s0|] eqn:E0; [|discriminate]. apply v_string_sound in E0. destruct E0 as (k & K1 & K2).
    destruct (skip_ws_split s0) as (w1 & B1 & B2). destruct (skip_ws s0) as [|x s1]; [discriminate|].
    destruct (Z.eqb_spec x 58) as [->|]; [|discriminate]. cbn [negb].
    destruct (v_value n (skip_ws s1) (depth + 1)) as [[s2|]| | |] eqn:E1; try discriminate. cbn [rbind].
    destruct (IHv _ _ _ E1) as (D1 & w & v & V1 & V2 & V3).
    destruct (skip_ws_split s1) as (w2 & C1 & C2). destruct (skip_ws_split s2) as (w3 & F1 & F2).
    destruct (skip_ws s2) as [|c s3]; [discriminate|].
    assert (B0 : blanks space (w2 ++ w)) by (apply Forall_app; auto).
    destruct (Z.eqb_spec c 44) as [->|_].
    + intros H. destruct (IHm _ _ _ H) as (_ & es & M1 & M2). split; [exact D1|].
      exists (w0 ++ k ++ w1 ++ [58] ++ (w2 ++ w) ++ v ++ w3 ++ [44] ++ es). split; [|apply me_more; auto].
      rewrite A1, K1, B1, C1, V1, F1, M1, <- !app_assoc. reflexivity.
    + destruct (Z.eqb_spec c 125) as [->|_]; [|discriminate]. intros H. injection H as ->. split; [exact D1|].
      exists (w0 ++ k ++ w1 ++ [58] ++ (w2 ++ w) ++ v ++ w3). split; [|apply me_one; auto].
      rewrite A1, K1, B1, C1, V1, F1, <- !app_assoc. reflexivity.
Qed.

(** heads of values *)
Lemma value_head bl d v : value bl d v -> exists c r, v = c :: r /\
  (c = 34 \/ c = 45 \/ digit c \/ c = 116 \/ c = 102 \/ c = 110 \/ c = 91 \/ c = 123).
Proof.
  destruct 1 as [d t H|d t H| | | | | | |]; try (eexists; eexists; split; [reflexivity|tauto]).
  - destruct (json_string_head t H) as (b & ->). exists 34, b. tauto.
  - destruct (json_number_head t H) as (c & r & -> & D). exists c, r. tauto.
Qed.
Lemma value_nonspace d v r : value space d v -> skip_ws (v ++ r) = v ++ r.
Proof.
  intros H. destruct (value_head _ _ _ H) as (c & q & -> & D). apply skip_ws_stop. unfold space, digit in *. lia.
Qed.
Lemma ends_blanks w r : blanks space w -> ends r -> ends (w ++ r).
Proof. intros W R. destruct W as [|c w H _]; [exact R|]. right. exists c, (w ++ r). auto. Qed.
Lemma app_len {A} (a b : list A) : length (a ++ b) = (length a + length b)%nat.
Proof. apply app_length. Qed.

Lemma v_complete :
  (forall d v, value space d v -> forall n w r depth, blanks space w -> ends r -> depth + Z.of_nat d <= MAX_DEPTH ->
     (2 * length v < n)%nat -> v_value n (w ++ v ++ r) depth = Ok (Some r)) /\
  (forall d es, elements space d es -> forall n r depth, depth + 1 + Z.of_nat d <= MAX_DEPTH ->
     (2 * length es + 1 < n)%nat -> v_elems n (es ++ [93] ++ r) depth = Ok (Some r)) /\
  (forall d ms, members space d ms -> forall n r depth, depth + 1 + Z.of_nat d <= MAX_DEPTH ->
     (2 * length ms + 1 < n)%nat -> v_members n (ms ++ [125] ++ r) depth = Ok (Some r)).
Proof.
  apply (grammar_ind space
    (fun d v _ => forall n w r depth, blanks space w -> ends r -> depth + Z.of_nat d <= MAX_DEPTH ->
     (2 * length v < n)%nat -> v_value n (w ++ v ++ r) depth = Ok (Some r))
    (fun d es _ => forall n r depth, depth + 1 + Z.of_nat d <= MAX_DEPTH ->
     (2 * length es + 1 < n)%nat -> v_elems n (es ++ [93] ++ r) depth = Ok (Some r))
    (fun d ms _ => forall n r depth, depth + 1 + Z.of_nat d <= MAX_DEPTH ->
     (2 * length ms + 1 < n)%nat -> v_members n (ms ++ [125] ++ r) depth = Ok (Some r))).
  - intros d t H n w r depth W R D L. destruct n as [|n]; [lia|]. cbn [v_value].
    rewrite (proj2 (Z.ltb_ge MAX_DEPTH depth)) by lia. rewrite skip_ws_app by exact W.
    rewrite (value_nonspace d) by (constructor; exact H).
    pose proof (v_string_complete t r H) as S. destruct (json_string_head t H) as (b & ->). cbn [app] in *.
    change (34 =? 123) with false. change (34 =? 91) with false. change (34 =? 34) with true. cbn match. rewrite S. reflexivity.
  - intros d t H n w r depth W R D L. destruct n as [|n]; [lia|]. cbn [v_value].
    rewrite (proj2 (Z.ltb_ge MAX_DEPTH depth)) by lia. rewrite skip_ws_app by exact W.
    rewrite (value_nonspace d) by (constructor; exact H).
    pose proof (v_number_complete t r H R) as S. destruct (json_number_head t H) as (c & q & -> & Hc). cbn [app] in *.
    replace (c =? 123) with false by (unfold digit in Hc; lia). replace (c =? 91) with false by (unfold digit in Hc; lia).
    replace (c =? 34) with false by (unfold digit in Hc; lia).
    replace ((c =? 45) || isdigit c) with true by (unfold digit in Hc; unfold isdigit; lia). rewrite S. reflexivity.
  - intros d n w r depth W R D L. destruct n as [|n]; [lia|]. cbn [v_value].
    rewrite (proj2 (Z.ltb_ge MAX_DEPTH depth)) by lia. rewrite skip_ws_app by exact W. reflexivity.
  - intros d n w r depth W R D L. destruct n as [|n]; [lia|]. cbn [v_value].
    rewrite (proj2 (Z.ltb_ge MAX_DEPTH depth)) by lia. rewrite skip_ws_app by exact W. reflexivity.
  - intros d n w r depth W R D L. destruct n as [|n]; [lia|]. cbn [v_value].
    rewrite (proj2 (Z.ltb_ge MAX_DEPTH depth)) by lia. rewrite skip_ws_app by exact W. reflexivity.
  - intros d w0 W0 n w r depth W R D L. destruct n as [|n]; [lia|]. cbn [v_value].
    rewrite (proj2 (Z.ltb_ge MAX_DEPTH depth)) by lia. rewrite skip_ws_app by exact W.
    rewrite <- !app_assoc. cbn [app]. rewrite skip_ws_stop by (unfold space; lia).
    change (91 =? 123) with false. change (91 =? 91) with true. cbn match.
    rewrite skip_ws_app by exact W0. rewrite skip_ws_stop by (unfold space; lia). reflexivity.
  - intros d es H IH n w r depth W R D L. destruct n as [|n]; [lia|]. cbn [v_value].
    rewrite (proj2 (Z.ltb_ge MAX_DEPTH depth)) by lia. rewrite skip_ws_app by exact W.
    rewrite <- !app_assoc. cbn [app]. rewrite skip_ws_stop by (unfold space; lia).
    change (91 =? 123) with false. change (91 =? 91) with true. cbn match.
    rewrite !app_len in L. cbn [length] in L.
    assert (G : v_elems n (skip_ws (es ++ 93 :: r)) depth = Ok (Some r)).
    { pose proof (IH n r depth ltac:(lia) ltac:(lia)) as I0. destruct n as [|n]; [lia|]. cbn [v_elems app] in *.
      rewrite skip_ws_idem. exact I0. }
    assert (X : exists c q, skip_ws (es ++ 93 :: r) = c :: q /\ c <> 93).
    { assert (P : exists w1 v t, es = w1 ++ v ++ t /\ blanks space w1 /\ value space d v).
      { destruct H; [exists w1, v, w2|exists w1, v, (w2 ++ [44] ++ es)]; auto. }
      destruct P as (w1 & v & t & -> & B1 & V). rewrite <- !app_assoc, skip_ws_app by exact B1.
      rewrite (value_nonspace d) by exact V.
      destruct (value_head _ _ _ V) as (c & q & -> & Hc). exists c, (q ++ t ++ 93 :: r). split; [reflexivity|]. unfold digit in Hc. lia. }
    destruct X as (c & q & X1 & X2). rewrite X1 in *. rewrite (proj2 (Z.eqb_neq c 93) X2). exact G.
  - intros d w0 W0 n w r depth W R D L. destruct n as [|n]; [lia|]. cbn [v_value].
    rewrite (proj2 (Z.ltb_ge MAX_DEPTH depth)) by lia. rewrite skip_ws_app by exact W.
    rewrite <- !app_assoc. cbn [app]. rewrite skip_ws_stop by (unfold space; lia).
    change (123 =? 123) with true. cbn match.
    rewrite skip_ws_app by exact W0. rewrite skip_ws_stop by (unfold space; lia). reflexivity.
  - intros d es H IH n w r depth W R D L. destruct n as [|n]; [lia|]. cbn [v_value].
    rewrite (proj2 (Z.ltb_ge MAX_DEPTH depth)) by lia. rewrite skip_ws_app by exact W.
    rewrite <- !app_assoc. cbn [app]. rewrite skip_ws_stop by (unfold space; lia).
    change (123 =? 123) with true. cbn match.
    rewrite !app_len in L. cbn [length] in L.
    assert (G : v_members n (skip_ws (es ++ 125 :: r)) depth = Ok (Some r)).
    { pose proof (IH n r depth ltac:(lia) ltac:(lia)) as I0. destruct n as [|n]; [lia|]. cbn [v_members app] in *.
      rewrite skip_ws_idem. exact I0. }
    assert (X : exists c q, skip_ws (es ++ 125 :: r) = c :: q /\ c <> 125).
    { assert (P : exists w1 v t, es = w1 ++ v ++ t /\ blanks space w1 /\ json_string v).
      { destruct H; [exists w1, k, (w2 ++ [58] ++ w3 ++ v ++ w4)|exists w1, k, (w2 ++ [58] ++ w3 ++ v ++ w4 ++ [44] ++ ms)]; auto. }
      destruct P as (w1 & v & t & -> & B1 & V). rewrite <- !app_assoc, skip_ws_app by exact B1.
      rewrite (value_nonspace 0) by (constructor; exact V).
      destruct (json_string_head _ V) as (q & ->). exists 34, (q ++ t ++ 125 :: r). split; [reflexivity|]. lia. }
    destruct X as (c & q & X1 & X2). rewrite X1 in *. rewrite (proj2 (Z.eqb_neq c 125) X2). exact G.
  - intros d w1 v w2 W1 V IH W2 n r depth D L. destruct n as [|n]; [lia|]. cbn [v_elems].
    rewrite !app_len in L. rewrite <- !app_assoc, skip_ws_app by exact W1. rewrite (value_nonspace d) by exact V.
    assert (E : ends (w2 ++ [93] ++ r)) by (apply ends_blanks; [exact W2|right; exists 93, r; auto]).
    pose proof (IH n [] (w2 ++ [93] ++ r) (depth + 1) (Forall_nil _) E ltac:(lia) ltac:(lia)) as I1. cbn [app] in I1. cbn [app].
    rewrite I1. cbn [rbind]. rewrite skip_ws_app by exact W2. rewrite skip_ws_stop by (unfold space; lia). reflexivity.
  - intros d w1 v w2 es W1 V IH W2 H IHes n r depth D L. destruct n as [|n]; [lia|]. cbn [v_elems].
    rewrite !app_len in L. cbn [length] in L. rewrite <- !app_assoc, skip_ws_app by exact W1. rewrite (value_nonspace d) by exact V.
    assert (E : ends (w2 ++ [44] ++ es ++ [93] ++ r)) by (apply ends_blanks; [exact W2|right; exists 44, (es ++ [93] ++ r); auto]).
    pose proof (IH n [] _ (depth + 1) (Forall_nil _) E ltac:(lia) ltac:(lia)) as I1. cbn [app] in I1. cbn [app].
    rewrite I1. cbn [rbind]. rewrite skip_ws_app by exact W2. rewrite skip_ws_stop by (unfold space; lia).
    change (44 =? 44) with true. cbn match. apply IHes; lia.
  - intros d w1 k w2 w3 v w4 W1 K W2 W3 V IH W4 n r depth D L. destruct n as [|n]; [lia|]. cbn [v_members].
    rewrite !app_len in L. cbn [length] in L. rewrite <- !app_assoc, skip_ws_app by exact W1.
    rewrite (value_nonspace 0) by (constructor; exact K). rewrite v_string_complete by exact K.
    rewrite skip_ws_app by exact W2. cbn [app]. rewrite skip_ws_stop by (unfold space; lia).
    change (58 =? 58) with true. cbn [negb]. rewrite skip_ws_app by exact W3. rewrite (value_nonspace d) by exact V.
    assert (E : ends (w4 ++ [125] ++ r)) by (apply ends_blanks; [exact W4|right; exists 125, r; auto]).
    pose proof (IH n [] _ (depth + 1) (Forall_nil _) E ltac:(lia) ltac:(lia)) as I1. cbn [app] in I1.
    rewrite I1. cbn [rbind]. rewrite skip_ws_app by exact W4. rewrite skip_ws_stop by (unfold space; lia). reflexivity.
  - intros d w1 k w2 w3 v w4 ms W1 K W2 W3 V IH W4 H IHms n r depth D L. destruct n as [|n]; [lia|]. cbn [v_members].
    rewrite !app_len in L. cbn [length] in L. rewrite <- !app_assoc, skip_ws_app by exact W1.
    rewrite (value_nonspace 0) by (constructor; exact K). rewrite v_string_complete by exact K.
    rewrite skip_ws_app by exact W2. cbn [app]. rewrite skip_ws_stop by (unfold space; lia).
    change (58 =? 58) with true. cbn [negb]. rewrite skip_ws_app by exact W3. rewrite (value_nonspace d) by exact V.
    assert (E : ends (w4 ++ [44] ++ ms ++ [125] ++ r)) by (apply ends_blanks; [exact W4|right; exists 44, (ms ++ [125] ++ r); auto]).
    pose proof (IH n [] _ (depth + 1) (Forall_nil _) E ltac:(lia) ltac:(lia)) as I1. cbn [app] in I1.
    rewrite I1. cbn [rbind]. rewrite skip_ws_app by exact W4. rewrite skip_ws_stop by (unfold space; lia).
    change (44 =? 44) with true. cbn match. apply IHms; lia.
Qed.

(** fuel: the recursion always ends *)
Lemma v_chars_len s r : v_chars s = Some r -> (length r < length s)%nat.
Proof. intros H. apply (v_chars_sound _ _ _ (Nat.le_refl _)) in H. destruct H as (b & -> & _). rewrite !app_len. cbn. lia. Qed.
Lemma v_string_len s r : v_string_lit s = Some r -> (length r < length s)%nat.
Proof. destruct s as [|c s]; [discriminate|]. cbn [v_string_lit]. destruct (c =? 34); [|discriminate]. intros H. apply v_chars_len in H. cbn. lia. Qed.
Lemma v_total n :
  (forall s depth, (2 * length s < n)%nat -> exists o, v_value n s depth = Ok o) /\
  (forall s depth, (2 * length s + 1 < n)%nat -> exists o, v_elems n s depth = Ok o) /\
  (forall s depth, (2 * length s + 1 < n)%nat -> exists o, v_members n s depth = Ok o).
Proof.
  induction n as [|n (IHv & IHe & IHm)]; [repeat split; intros; lia|].
  assert (VL : forall s depth r, v_value n s depth = Ok (Some r) -> (length r < length s)%nat).
  { intros s depth r H. destruct (v_sound n) as (A & _). destruct (A _ _ _ H) as (_ & w & v & -> & _ & V).
    destruct (value_head _ _ _ V) as (c & q & -> & _). rewrite !app_len. cbn. lia. }
  split; [|split].
  - intros s depth L. cbn [v_value]. destruct (MAX_DEPTH <? depth); [eauto|].
    pose proof (skip_ws_len s) as L1. destruct (skip_ws s) as [|c r]; [eauto|]. cbn [length] in L1.
    destruct (c =? 123).
    { pose proof (skip_ws_len r) as L2. destruct (skip_ws r) as [|x q].
      - apply IHm. cbn [length]. lia.
      - destruct (x =? 125); [eauto|]. apply IHm. lia. }
    destruct (c =? 91).
    { pose proof (skip_ws_len r) as L2. destruct (skip_ws r) as [|x q].
      - apply IHe. cbn [length]. lia.
      - destruct (x =? 93); [eauto|]. apply IHe. lia. }
    destruct (c =? 34); [eauto|]. destruct ((c =? 45) || isdigit c); [eauto|].
    destruct (c =? 116); [eauto|]. destruct (c =? 102); [eauto|]. destruct (c =? 110); eauto.
  - intros s depth L. cbn [v_elems]. pose proof (skip_ws_len s) as L1.
    destruct (IHv (skip_ws s) (depth + 1) ltac:(lia)) as (o & E). rewrite E. cbn [rbind].
    destruct o as [s1|]; [|eauto]. apply VL in E. pose proof (skip_ws_len s1) as L2.
    destruct (skip_ws s1) as [|c r]; [eauto|]. cbn [length] in L2. destruct (c =? 44); [apply IHe; lia|]. destruct (c =? 93); eauto.
  - intros s depth L. cbn [v_members]. pose proof (skip_ws_len s) as L1.
    destruct (v_string_lit (skip_ws s)) as [s0|] eqn:E0; [|eauto]. apply v_string_len in E0.
    pose proof (skip_ws_len s0) as L2. destruct (skip_ws s0) as [|x r]; [eauto|]. cbn [length] in L2.
    destruct (negb (x =? 58)); [eauto|]. pose proof (skip_ws_len r) as L3.
    destruct (IHv (skip_ws r) (depth + 1) ltac:(lia)) as (o & E). rewrite E. cbn [rbind].
    destruct o as [s1|]; [|eauto]. apply VL in E. pose proof (skip_ws_len s1) as L4.
    destruct (skip_ws s1) as [|c q]; [eauto|]. cbn [length] in L4. destruct (c =? 44); [apply IHm; lia|]. destruct (c =? 125); eauto.
Qed.

Lemma is_valid_total t : exists b, is_valid t = Ok b.
Proof.
  unfold is_valid. pose proof (skip_ws_len t) as L. destruct (skip_ws t) as [|c r]; [eauto|].
  destruct (v_total (valid_fuel t)) as (A & _). destruct (A (c :: r) 0) as (o & E); [unfold valid_fuel; lia|].
  rewrite E. cbn [rmap]. eauto.
Qed.
Lemma is_valid_space t : is_valid t = Ok true <-> text space 512 t.
Proof.
  unfold is_valid. split.
  - intros H. destruct (skip_ws_split t) as (w & W1 & W2). destruct (skip_ws t) as [|c r]; [discriminate|].
    destruct (v_value (valid_fuel t) (c :: r) 0) as [[s|]| | |] eqn:E; try discriminate. cbn [rmap] in H.
    destruct (v_sound (valid_fuel t)) as (A & _). destruct (A _ _ _ E) as (_ & w1 & v & V1 & V2 & V3).
    destruct (skip_ws_split s) as (w2 & S1 & S2). destruct (skip_ws s); [|discriminate].
    exists (w ++ w1), v, w2. rewrite app_nil_r in S1. subst s. split; [rewrite W1, V1, <- app_assoc; reflexivity|].
    split; [apply Forall_app; auto|]. split; [exact V3|exact S2].
  - intros (w1 & v & w2 & -> & W1 & V & W2). rewrite skip_ws_app by exact W1. rewrite (value_nonspace 512) by exact V.
    destruct v_complete as (A & _).
    assert (E : ends w2) by (destruct W2 as [|c w H _]; [left; reflexivity|right; exists c, w; auto]).
    assert (F : (2 * length v < valid_fuel (w1 ++ v ++ w2))%nat) by (unfold valid_fuel; rewrite !app_len; lia).
    pose proof (A 512%nat v V (valid_fuel (w1 ++ v ++ w2)) [] w2 0 (Forall_nil _) E ltac:(unfold MAX_DEPTH; lia) F) as B. cbn [app] in B.
    destruct (value_head _ _ _ V) as (c & q & -> & _). cbn [app]. cbn [app] in B. rewrite B. cbn [rmap].
    rewrite skip_ws_all by exact W2. reflexivity.
Qed.
