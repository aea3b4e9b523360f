(** Encoders, decoder, splitter and #json structs. *)
From Verif Require Import Base BaseFacts EncodingModel EncodingSpec EncodingProofs StringsModel StrconvModel StrconvSpec StringsSpec Decimal DecimalFacts MapSpec JsonModel JsonSpec JsonProofs.

Ltac Zify.zify_post_hook ::= Z.div_mod_to_equations.

(** ** changing the blanks *)
Lemma blanks_mono (b1 b2 P : Z -> Prop) w : (forall c, b1 c -> P c -> b2 c) -> blanks b1 w -> Forall P w -> blanks b2 w.
Proof. intros H W. induction W as [|c w A _ IH]; intros F; [constructor|]. inversion F; subst. constructor; [apply H; assumption|apply IH; assumption]. Qed.
Lemma Forall_app_1 {A} (P : A -> Prop) a b : Forall P (a ++ b) -> Forall P a /\ Forall P b.
Proof. apply Forall_app. Qed.
Ltac split_all := repeat match goal with H : Forall _ (_ ++ _) |- _ => apply Forall_app_1 in H; destruct H end.
Lemma grammar_mono (b1 b2 P : Z -> Prop) : (forall c, b1 c -> P c -> b2 c) ->
  (forall d v, value b1 d v -> Forall P v -> value b2 d v) /\
  (forall d v, elements b1 d v -> Forall P v -> elements b2 d v) /\
  (forall d v, members b1 d v -> Forall P v -> members b2 d v).
Proof.
  intros HB. apply (grammar_ind b1 (fun d v _ => Forall P v -> value b2 d v)
    (fun d v _ => Forall P v -> elements b2 d v) (fun d v _ => Forall P v -> members b2 d v)); intros; split_all.
  - apply va_string; assumption.
  - apply va_number; assumption.
  - apply va_true.
  - apply va_false.
  - apply va_null.
  - apply va_array0. eapply blanks_mono; eauto.
  - apply va_array. auto.
  - apply va_object0. eapply blanks_mono; eauto.
  - apply va_object. auto.
  - apply el_one; auto; eapply blanks_mono; eauto.
  - apply el_more; auto; eapply blanks_mono; eauto.
  - apply me_one; auto; eapply blanks_mono; eauto.
  - apply me_more; auto; eapply blanks_mono; eauto.
Qed.
Lemma text_mono (b1 b2 P : Z -> Prop) d t : (forall c, b1 c -> P c -> b2 c) -> Forall P t -> text b1 d t -> text b2 d t.
Proof.
  intros HB F (w1 & v & w2 & -> & W1 & V & W2). split_all. exists w1, v, w2. split; [reflexivity|].
  destruct (grammar_mono b1 b2 P HB) as (A & _). split; [eapply blanks_mono; eauto|]. split; [auto|]. eapply blanks_mono; eauto.
Qed.
Lemma json_blank_space c : json_blank c -> space c.
Proof. unfold json_blank, space. lia. Qed.
Lemma space_json_blank c : space c -> c <> 11 /\ c <> 12 -> json_blank c.
Proof. unfold json_blank, space. lia. Qed.
(** more room never hurts *)
Lemma depth_mono bl : (forall d v, value bl d v -> forall d', (d <= d')%nat -> value bl d' v) /\
  (forall d v, elements bl d v -> forall d', (d <= d')%nat -> elements bl d' v) /\
  (forall d v, members bl d v -> forall d', (d <= d')%nat -> members bl d' v).
Proof.
  apply (grammar_ind bl (fun d v _ => forall d', (d <= d')%nat -> value bl d' v)
   (fun d v _ => forall d', (d <= d')%nat -> elements bl d' v) (fun d v _ => forall d', (d <= d')%nat -> members bl d' v)); intros.
  - apply va_string; assumption.
  - apply va_number; assumption.
  - apply va_true.
  - apply va_false.
  - apply va_null.
  - apply va_array0; assumption.
  - destruct d'; [lia|]. apply va_array. auto with arith.
  - apply va_object0; assumption.
  - destruct d'; [lia|]. apply va_object. auto with arith.
  - apply el_one; auto.
  - apply el_more; auto.
  - apply me_one; auto.
  - apply me_more; auto.
Qed.

(** ** escaping *)
Lemma fold_add {A} (f : A -> Z) l : forall a, fold_left (fun n x => n + f x) l a = a + fold_right (fun x n => f x + n) 0 l.
Proof. induction l as [|x l IH]; intros a; cbn; [lia|]. rewrite IH. lia. Qed.
Lemma esc_byte_length c : Z.of_nat (length (esc_byte c)) = esc_byte_len c.
Proof.
  unfold esc_byte, esc_byte_len.
  destruct (c =? 34); [reflexivity|]. destruct (c =? 92); [reflexivity|]. destruct (c =? 8); [reflexivity|].
  destruct (c =? 12); [reflexivity|]. destruct (c =? 10); [reflexivity|]. destruct (c =? 13); [reflexivity|].
  destruct (c =? 9); [reflexivity|]. destruct (c <? 32); reflexivity.
Qed.
Lemma escaped_length s : Z.of_nat (length (escaped s)) = escaped_len s.
Proof.
  unfold escaped, escaped_len. rewrite fold_add. rewrite !app_length. cbn [length].
  assert (H : Z.of_nat (length (flat_map esc_byte s)) = fold_right (fun x n => esc_byte_len x + n) 0 s).
  { induction s as [|c s IH]; [reflexivity|]. cbn [flat_map fold_right]. rewrite app_length, Nat2Z.inj_add, esc_byte_length, IH. reflexivity. }
  lia.
Qed.
Lemma hex_digit_of d : 0 <= d < 16 -> digit_of (hex_digit false d) d.
Proof. intros H. unfold digit_of, hex_digit. destruct (Z.ltb_spec d 10); lia. Qed.
Lemma hex_digit_hex d : 0 <= d < 16 -> is_hex_digit (hex_digit false d).
Proof.
  intros H. apply isxdigit_spec. unfold isxdigit, hex_digit. destruct (Z.ltb_spec d 10); lia.
Qed.
Lemma esc_byte_ok c b s : is_byte c -> chars b -> denotes b s -> chars (esc_byte c ++ b) /\ denotes (esc_byte c ++ b) (c :: s).
Proof.
  intros Hc Hb Hd. unfold esc_byte. unfold is_byte in Hc.
  destruct (Z.eqb_spec c 34) as [->|]; [split; [eapply ch_esc; [constructor|auto]|apply de_esc; [constructor|auto]]|].
  destruct (Z.eqb_spec c 92) as [->|]; [split; [eapply ch_esc; [constructor|auto]|apply de_esc; [constructor|auto]]|].
  destruct (Z.eqb_spec c 8) as [->|]; [split; [eapply ch_esc; [constructor|auto]|apply de_esc; [constructor|auto]]|].
  destruct (Z.eqb_spec c 12) as [->|]; [split; [eapply ch_esc; [constructor|auto]|apply de_esc; [constructor|auto]]|].
  destruct (Z.eqb_spec c 10) as [->|]; [split; [eapply ch_esc; [constructor|auto]|apply de_esc; [constructor|auto]]|].
  destruct (Z.eqb_spec c 13) as [->|]; [split; [eapply ch_esc; [constructor|auto]|apply de_esc; [constructor|auto]]|].
  destruct (Z.eqb_spec c 9) as [->|]; [split; [eapply ch_esc; [constructor|auto]|apply de_esc; [constructor|auto]]|].
  destruct (Z.ltb_spec c 32).
  - assert (E1 : Z.shiftr c 4 = c / 16) by (rewrite Z.shiftr_div_pow2 by lia; reflexivity).
    assert (E2 : Z.land c 15 = c mod 16) by (change 15 with (Z.ones 4); rewrite Z.land_ones by lia; reflexivity).
    rewrite E1, E2. cbn [app]. split.
    + apply ch_u; [|exact Hb]. unfold hex4. repeat split; try (apply (hex_digit_hex 0); lia); apply hex_digit_hex; lia.
    + change (c :: s) with ([c] ++ s). apply de_u with (cp := c); [|apply utf8_1; lia|exact Hd].
      assert (P0 : digit_of 48 0) by (left; lia).
      assert (P : positional 16 ((([48] ++ [48]) ++ [hex_digit false (c / 16)]) ++ [hex_digit false (c mod 16)]) (((0 * 16 + 0) * 16 + c / 16) * 16 + c mod 16)).
      { repeat apply pos_more; try lia; try (apply hex_digit_of; lia); try exact P0. apply pos_one; [exact P0|lia]. }
      cbn [app] in P. replace (((0 * 16 + 0) * 16 + c / 16) * 16 + c mod 16) with c in P by lia. exact P.
  - split; [apply ch_plain; auto|apply de_plain; auto].
Qed.
Lemma escaped_ok s : byte_string s -> string_denoting (escaped s) s.
Proof.
  intros H. exists (flat_map esc_byte s). split; [reflexivity|].
  induction H as [|c s Hc _ IH]; [split; constructor|]. cbn [flat_map]. destruct IH. apply esc_byte_ok; assumption.
Qed.
Lemma escaped_string s : byte_string s -> json_string (escaped s).
Proof. intros H. destruct (escaped_ok s H) as (b & -> & B & _). exists b. auto. Qed.
Lemma escaped_plain s : plain s -> escaped s = [34] ++ s ++ [34].
Proof.
  intros H. unfold escaped. f_equal. f_equal. induction H as [|c s (A & B & C) _ IH]; [reflexivity|].
  cbn [flat_map]. rewrite IH. unfold esc_byte.
  rewrite (proj2 (Z.eqb_neq c 34) B), (proj2 (Z.eqb_neq c 92) C).
  replace (c =? 8) with false by lia. replace (c =? 12) with false by lia. replace (c =? 10) with false by lia.
  replace (c =? 13) with false by lia. replace (c =? 9) with false by lia. replace (c <? 32) with false by lia. reflexivity.
Qed.

(** ** the encoders write the text *)
Definition val_text (v : jval) : bytes := match v with VStr s => escaped s | VNum t => t | VBool b => bool_text b end.
Definition fits (bound : Z) (v : jval) : Prop := match v with VNum t => 0 < Z.of_nat (length t) <= bound | _ => True end.
Definition chunks (sep : bytes) (first : bool) (xs : list bytes) : bytes := if first then glue sep xs else flat_map (fun x => sep ++ x) xs.
Lemma glue_flat sep x xs : glue sep (x :: xs) = x ++ flat_map (fun x => sep ++ x) xs.
Proof.
  revert x. induction xs as [|y xs IH]; intros x; [cbn; rewrite app_nil_r; reflexivity|].
  change (glue sep (x :: y :: xs)) with (x ++ sep ++ glue sep (y :: xs)). rewrite IH. cbn [flat_map]. rewrite <- !app_assoc. reflexivity.
Qed.
Lemma chunks_cons sep first x xs : chunks sep first (x :: xs) = (if first then [] else sep) ++ x ++ chunks sep false xs.
Proof. destruct first; unfold chunks; [apply glue_flat|]. cbn [flat_map]. rewrite <- app_assoc. reflexivity. Qed.
Lemma wr_ok cap x buf : Z.of_nat (length buf) + Z.of_nat (length x) <= Z.min cap INT32_MAX -> wr cap x buf = Ok (buf ++ x).
Proof. intros H. unfold wr. rewrite (proj2 (Z.leb_le _ _)) by lia. reflexivity. Qed.
Lemma wr_nil cap buf : Z.of_nat (length buf) <= Z.min cap INT32_MAX -> (Ok buf : res bytes) = Ok (buf ++ []).
Proof. intros _. rewrite app_nil_r. reflexivity. Qed.
Lemma wr_val_ok need bound v buf : fits bound v ->
  Z.of_nat (length buf) + Z.of_nat (length (val_text v)) <= Z.min need INT32_MAX -> wr_val need v buf = Ok (buf ++ val_text v).
Proof.
  intros F H. destruct v as [s|t|b]; cbn [wr_val val_text fits] in *; try (apply wr_ok; lia).
  replace ((0 <? Z.of_nat (length t)) && (Z.of_nat (length t) <? need + 1 - Z.of_nat (length buf))) with true by lia.
  apply wr_ok. lia.
Qed.
Lemma val_need_ge bound v : fits bound v -> Z.of_nat (length (val_text v)) <= val_need bound v.
Proof.
  destruct v as [s|t|[]]; cbn [val_text val_need fits]; intros F; [rewrite escaped_length; lia|lia|cbn; lia|cbn; lia].
Qed.
Definition sum {A} (f : A -> Z) (l : list A) : Z := fold_right (fun x n => f x + n) 0 l.
Lemma sum_le {A} (f g : A -> Z) l : (forall x, In x l -> f x <= g x) -> sum f l <= sum g l.
Proof.
  induction l as [|x l IH]; intros H; cbn; [lia|]. specialize (IH (fun y Y => H y (or_intror Y))).
  specialize (H x (or_introl eq_refl)). unfold sum in IH. lia.
Qed.
Lemma sum_eq {A} (f g : A -> Z) l : (forall x, In x l -> f x = g x) -> sum f l = sum g l.
Proof.
  induction l as [|x l IH]; intros H; cbn; [lia|]. specialize (IH (fun y Y => H y (or_intror Y))).
  specialize (H x (or_introl eq_refl)). unfold sum in IH. lia.
Qed.
Lemma flat_length {A} (f : A -> bytes) sep l :
  Z.of_nat (length (flat_map (fun x => sep ++ x) (map f l))) = sum (fun x => Z.of_nat (length (f x))) l + Z.of_nat (length l) * Z.of_nat (length sep).
Proof.
  induction l as [|x l IH]; [reflexivity|]. cbn [map flat_map]. rewrite !app_length, !Nat2Z.inj_add, IH. cbn [sum fold_right length].
  unfold sum. lia.
Qed.
Lemma glue_length {A} (f : A -> bytes) sep l :
  Z.of_nat (length (glue sep (map f l))) = sum (fun x => Z.of_nat (length (f x))) l + Z.max 0 (Z.of_nat (length l) - 1) * Z.of_nat (length sep).
Proof.
  destruct l as [|x l]; [reflexivity|]. cbn [map]. rewrite glue_flat, app_length, Nat2Z.inj_add, flat_length. cbn [sum fold_right length].
  unfold sum. lia.
Qed.

Lemma array_loop_ok bound need vs : Forall (fits bound) vs -> forall first (buf : bytes),
  Z.of_nat (length buf) + Z.of_nat (length (chunks [44] first (map val_text vs))) <= Z.min need INT32_MAX ->
  array_loop need first vs buf = Ok (buf ++ chunks [44] first (map val_text vs)).
Proof.
  induction 1 as [|v vs F _ IH]; intros first buf L.
  - destruct first; cbn; rewrite app_nil_r; reflexivity.
  - cbn [array_loop map] in *. rewrite chunks_cons in *. rewrite !app_length in L.
    assert (S : (if first then @Ok bytes buf else wr (need + 1) [44] buf) = @Ok bytes (buf ++ (if first then [] else [44]))).
    { destruct first; [rewrite app_nil_r; reflexivity|]. apply wr_ok. cbn [length] in *. lia. }
    rewrite S. cbn [rbind]. rewrite (wr_val_ok need bound) by (try exact F; rewrite app_length; lia). cbn [rbind].
    rewrite IH by (rewrite !app_length; lia). rewrite <- !app_assoc. reflexivity.
Qed.
Lemma array_need_ge bound vs : Forall (fits bound) vs -> Z.of_nat (length (array_of (map val_text vs))) <= array_need bound vs.
Proof.
  intros F. unfold array_need, array_of. rewrite fold_add. rewrite !app_length. cbn [length].
  pose proof (glue_length val_text [44] vs) as G. cbn [length] in G.
  assert (S : sum (fun x => Z.of_nat (length (val_text x))) vs <= sum (val_need bound) vs).
  { apply sum_le. intros x X. apply val_need_ge. rewrite Forall_forall in F. auto. }
  unfold sum in *. lia.
Qed.
Lemma encode_array_ok bound vs : Forall (fits bound) vs ->
  Z.of_nat (length (array_of (map val_text vs))) <= INT32_MAX ->
  encode_array bound vs = Ok (array_of (map val_text vs)).
Proof.
  intros F L. pose proof (array_need_ge bound vs F) as N. unfold encode_array.
  set (need := array_need bound vs) in *. clearbody need. unfold array_of in *. rewrite !app_length in *. cbn [length] in *.
  rewrite wr_ok by (cbn [length]; lia). cbn [rbind app].
  rewrite (array_loop_ok bound) by (try exact F; cbn [length chunks]; lia). cbn [rbind]. unfold finish.
  rewrite wr_ok by (rewrite app_length; cbn [length chunks]; lia). cbn [rbind].
  rewrite !app_length. cbn [length chunks]. rewrite (proj2 (Z.ltb_lt _ _)) by lia. rewrite <- app_assoc. reflexivity.
Qed.

Definition entry_text (e : bytes * jval) : bytes := escaped (fst e) ++ [58] ++ val_text (snd e).
Lemma object_text es : object_of (map (fun e => (escaped (fst e), val_text (snd e))) es) = [123] ++ glue [44] (map entry_text es) ++ [125].
Proof. unfold object_of. rewrite map_map. reflexivity. Qed.
Lemma map_loop_ok bound need es : Forall (fun e => fits bound (snd e)) es -> forall first (buf : bytes),
  Z.of_nat (length buf) + Z.of_nat (length (chunks [44] first (map entry_text es))) <= Z.min need INT32_MAX ->
  map_loop need first es buf = Ok (buf ++ chunks [44] first (map entry_text es)).
Proof.
  induction 1 as [|[k v] es F _ IH]; intros first buf L.
  - destruct first; cbn; rewrite app_nil_r; reflexivity.
  - cbn [map_loop map] in *. rewrite chunks_cons in *. unfold entry_text at 1 in L. unfold entry_text at 1. cbn [fst snd] in *. rewrite !app_length in L. cbn [length] in L.
    assert (S : (if first then @Ok bytes buf else wr (need + 1) [44] buf) = @Ok bytes (buf ++ (if first then [] else [44]))).
    { destruct first; [rewrite app_nil_r; reflexivity|]. apply wr_ok. cbn [length] in *. lia. }
    rewrite S. cbn [rbind]. rewrite wr_ok by (rewrite app_length; lia). cbn [rbind].
    rewrite wr_ok by (rewrite !app_length; cbn [length]; lia). cbn [rbind].
    rewrite (wr_val_ok need bound) by (try exact F; rewrite !app_length; cbn [length]; lia). cbn [rbind].
    rewrite IH by (rewrite !app_length; cbn [length]; lia). rewrite <- !app_assoc. reflexivity.
Qed.
Lemma entry_len e : Z.of_nat (length (entry_text e)) = escaped_len (fst e) + 1 + Z.of_nat (length (val_text (snd e))).
Proof. unfold entry_text. rewrite !app_length. cbn [length]. pose proof (escaped_length (fst e)). lia. Qed.
Lemma map_need_ge bound es : Forall (fun e => fits bound (snd e)) es ->
  Z.of_nat (length ([123] ++ glue [44] (map entry_text es) ++ [125])) <= map_need bound es.
Proof.
  intros F. unfold map_need. rewrite fold_add. rewrite !app_length. cbn [length].
  pose proof (glue_length entry_text [44] es) as G. cbn [length] in G.
  assert (S : sum (fun x => Z.of_nat (length (entry_text x))) es <= sum (fun e => escaped_len (fst e) + 1 + val_need bound (snd e)) es).
  { apply sum_le. intros x X. rewrite entry_len. rewrite Forall_forall in F. pose proof (val_need_ge bound _ (F x X)). lia. }
  unfold sum in *. lia.
Qed.
Lemma map_need_exact es : (forall e, In e es -> match snd e with VNum _ => False | _ => True end) ->
  map_need 0 es = Z.of_nat (length ([123] ++ glue [44] (map entry_text es) ++ [125])).
Proof.
  intros F. unfold map_need. rewrite fold_add. rewrite !app_length. cbn [length].
  pose proof (glue_length entry_text [44] es) as G. cbn [length] in G.
  assert (S : sum (fun x => Z.of_nat (length (entry_text x))) es = sum (fun e => escaped_len (fst e) + 1 + val_need 0 (snd e)) es).
  { apply sum_eq. intros x X. rewrite entry_len. specialize (F x X). destruct (snd x) as [s|t|[]]; cbn [val_text val_need]; [rewrite escaped_length; lia|contradiction|reflexivity|reflexivity]. }
  unfold sum in *. lia.
Qed.
Lemma encode_map_ok bound es : Forall (fun e => fits bound (snd e)) es ->
  Z.of_nat (length ([123] ++ glue [44] (map entry_text es) ++ [125])) <= INT32_MAX ->
  encode_map bound es = Ok ([123] ++ glue [44] (map entry_text es) ++ [125]).
Proof.
  intros F L. pose proof (map_need_ge bound es F) as N. unfold encode_map.
  set (need := map_need bound es) in *. clearbody need. rewrite !app_length in *. cbn [length] in *.
  rewrite wr_ok by (cbn [length]; lia). cbn [rbind app].
  rewrite (map_loop_ok bound) by (try exact F; cbn [length chunks]; lia). cbn [rbind]. unfold finish.
  rewrite wr_ok by (rewrite app_length; cbn [length chunks]; lia). cbn [rbind].
  rewrite !app_length. cbn [length chunks]. rewrite (proj2 (Z.ltb_lt _ _)) by lia. rewrite <- app_assoc. reflexivity.
Qed.

(** ** what they write is JSON *)
Lemma dec_json_number n : 0 <= n -> forall m, m = [] \/ m = [45] -> json_number (m ++ dec n).
Proof.
  intros H m M. exists m, (dec n), [], []. rewrite !app_nil_r. split; [reflexivity|]. split; [exact M|].
  split; [|split; left; reflexivity]. destruct (dec_spec n H) as ((D & C) & _). destruct C as [C|(c & r & C & N)]; [left; exact C|].
  right. rewrite C in D. inversion D; subst. exists c, r. split; [exact C|]. unfold Decimal.is_digit in *. split; [lia|exact H3].
Qed.
Lemma dec_signed_json n : json_number (dec_signed n).
Proof.
  unfold dec_signed. destruct (Z.ltb_spec n 0); [apply (dec_json_number (- n) ltac:(lia) [45]); auto|].
  apply (dec_json_number n ltac:(lia) []); auto.
Qed.
Lemma dec_signed_len n : in_i 64 n -> 0 < Z.of_nat (length (dec_signed n)) <= 20.
Proof.
  unfold in_i. change (2 ^ (64 - 1)) with 9223372036854775808. intros H. unfold dec_signed. destruct (Z.ltb_spec n 0).
  - cbn [length]. assert (length (dec (- n)) <= 19)%nat; [|lia]. apply dec_length; [|lia]. change (10 ^ Z.of_nat 19) with 10000000000000000000. lia.
  - assert (length (dec n) <= 19)%nat; [apply dec_length; [change (10 ^ Z.of_nat 19) with 10000000000000000000; lia|lia]|].
    pose proof (dec_nonempty n ltac:(lia)). destruct (dec n); [congruence|cbn [length] in *; lia].
Qed.
(** a value whose text is JSON *)
Definition good_val (v : jval) : Prop := match v with VStr s => byte_string s | VNum t => json_number t | VBool _ => True end.
Lemma val_json bl v : good_val v -> value bl 0 (val_text v).
Proof.
  destruct v as [s|t|[]]; cbn [good_val val_text bool_text]; intros H.
  - apply va_string, escaped_string, H.
  - apply va_number, H.
  - apply va_true.
  - apply va_false.
Qed.
Lemma glue_elements bl d x xs : (forall y, In y (x :: xs) -> value bl d y) -> elements bl d (glue [44] (x :: xs)).
Proof.
  revert x. induction xs as [|y xs IH]; intros x H.
  - cbn [glue]. pose proof (el_one bl d [] x [] (Forall_nil _) (H x (or_introl eq_refl)) (Forall_nil _)) as E. cbn [app] in E. rewrite app_nil_r in E. exact E.
  - change (glue [44] (x :: y :: xs)) with ([] ++ x ++ [] ++ [44] ++ glue [44] (y :: xs)).
    apply el_more; [constructor|apply H; left; reflexivity|constructor|]. apply IH. intros z Z. apply H. right. exact Z.
Qed.
Lemma array_json bl d xs : Forall (value bl d) xs -> value bl (S d) (array_of xs).
Proof.
  intros F. unfold array_of. destruct xs as [|x xs]; [apply (va_array0 bl (S d) []); constructor|].
  apply va_array. apply glue_elements. rewrite Forall_forall in F. exact F.
Qed.
Lemma glue_members bl d p ps : (forall q, In q (p :: ps) -> json_string (fst q) /\ value bl d (snd q)) ->
  members bl d (glue [44] (map (fun p => fst p ++ [58] ++ snd p) (p :: ps))).
Proof.
  revert p. induction ps as [|q ps IH]; intros p H.
  - cbn [map glue]. destruct (H p (or_introl eq_refl)) as (A & B).
    pose proof (me_one bl d [] (fst p) [] [] (snd p) [] (Forall_nil _) A (Forall_nil _) (Forall_nil _) B (Forall_nil _)) as E.
    cbn [app] in E. rewrite app_nil_r in E. exact E.
  - assert (E : glue [44] (map (fun p => fst p ++ [58] ++ snd p) (p :: q :: ps)) =
      [] ++ fst p ++ [] ++ [58] ++ [] ++ snd p ++ [] ++ [44] ++ glue [44] (map (fun p => fst p ++ [58] ++ snd p) (q :: ps))).
    { cbn [map glue app]. rewrite <- !app_assoc. reflexivity. }
    rewrite E. destruct (H p (or_introl eq_refl)) as (A & B).
    apply (me_more bl d [] (fst p) [] [] (snd p) []); [constructor|exact A|constructor|constructor|exact B|constructor|]. apply IH. intros z Z. apply H. right. exact Z.
Qed.
Lemma object_json bl d ps : Forall (fun p => json_string (fst p) /\ value bl d (snd p)) ps -> value bl (S d) (object_of ps).
Proof.
  intros F. unfold object_of. destruct ps as [|p ps]; [apply (va_object0 bl (S d) []); constructor|].
  apply va_object. apply glue_members. rewrite Forall_forall in F. exact F.
Qed.
Lemma value_text bl d v : value bl d v -> text bl d v.
Proof. intros V. exists [], v, []. rewrite app_nil_r. split; [reflexivity|]. split; [constructor|]. split; [exact V|constructor]. Qed.
Lemma valid_value d v : (d <= 512)%nat -> value space d v -> is_valid v = Ok true.
Proof. intros D V. apply is_valid_space. apply value_text. destruct (depth_mono space) as (A & _). eapply A; eassumption. Qed.
