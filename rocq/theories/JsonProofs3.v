(** Decoder, splitter and #json structs. *)
From Verif Require Import Base BaseFacts EncodingModel EncodingSpec StringsModel StrconvModel StrconvSpec StringsSpec Decimal DecimalFacts MapSpec JsonModel JsonSpec JsonProofs JsonProofs2.

Ltac Zify.zify_post_hook ::= Z.div_mod_to_equations.

(** ** reading flat objects *)
Lemma blanks_space w : blanks json_blank w -> blanks space w.
Proof. apply Forall_impl. apply json_blank_space. Qed.
Lemma str_scan_plain s r : plain s -> str_scan (s ++ [34] ++ r) = Some (s, 34 :: r).
Proof.
  induction 1 as [|c s (A & B & C) _ IH]; [reflexivity|]. cbn [app str_scan].
  rewrite (proj2 (Z.eqb_neq c 34) B), (proj2 (Z.eqb_neq c 92) C). cbn [app] in IH. rewrite IH. reflexivity.
Qed.
Lemma parse_string_plain s r : plain s -> parse_json_string (([34] ++ s ++ [34]) ++ r) = Ok (s, r).
Proof. intros H. rewrite <- !app_assoc. cbn [app parse_json_string]. change (34 =? 34) with true. cbn [negb]. pose proof (str_scan_plain s r H) as E. cbn [app] in E. rewrite E. reflexivity. Qed.
Lemma word_scan_word t r : Forall (fun c => is_delim c = false) t -> ends r -> word_scan (t ++ r) = (t, r).
Proof.
  intros F R. induction F as [|c t H _ IH]; cbn [app].
  - destruct R as [->|(c & q & -> & H)]; [reflexivity|]. cbn [word_scan].
    replace (is_delim c) with true; [reflexivity|]. unfold is_delim, isspace, space in *. lia.
  - cbn [word_scan]. rewrite H, IH. reflexivity.
Qed.
Lemma digits_word t : Forall digit t -> Forall (fun c => is_delim c = false) t.
Proof. apply Forall_impl. intros c H. unfold digit, is_delim, isspace in *. lia. Qed.
Lemma number_word t : json_number t -> Forall (fun c => is_delim c = false) t.
Proof.
  intros (m & i & f & e & -> & M & I & F & X).
  apply Forall_app; split; [destruct M as [->| ->]; repeat constructor|].
  apply Forall_app; split.
  { destruct I as [->|(c & r & -> & C & D)]; [repeat constructor|]. apply digits_word. constructor; [unfold digit; lia|exact D]. }
  apply Forall_app; split.
  { destruct F as [->|(ds & -> & _ & D)]; [constructor|]. constructor; [reflexivity|]. apply digits_word, D. }
  destruct X as [->|(x & sg & ds & -> & Hx & SG & _ & D)]; [constructor|].
  constructor; [destruct Hx as [->| ->]; reflexivity|]. apply Forall_app; split; [|apply digits_word, D].
  destruct SG as [->|[->| ->]]; repeat constructor.
Qed.
Lemma flat_value_shape t v : flat_value t v ->
  (t = [34] ++ v ++ [34] /\ plain v) \/
  (t = v /\ Forall (fun c => is_delim c = false) v /\ exists c r, v = c :: r /\ c <> 34).
Proof.
  destruct 1 as [s H|t H| | |]; [left; auto|right|right|right|right]; (split; [reflexivity|]).
  - split; [apply number_word, H|]. destruct (json_number_head t H) as (c & r & -> & D). exists c, r. split; [reflexivity|]. unfold digit in D. lia.
  - split; [repeat constructor|]. exists 116, (bs "rue"). split; [reflexivity|lia].
  - split; [repeat constructor|]. exists 102, (bs "alse"). split; [reflexivity|lia].
  - split; [repeat constructor|]. exists 110, (bs "ull"). split; [reflexivity|lia].
Qed.
Lemma parse_value_flat w t v r : blanks space w -> flat_value t v -> ends r ->
  parse_json_value_as_string (w ++ t ++ r) = Ok (v, r).
Proof.
  intros W F R. unfold parse_json_value_as_string. rewrite skip_ws_app by exact W.
  destruct (flat_value_shape t v F) as [(-> & P)|(-> & D & c & q & E & N)].
  - rewrite <- app_assoc. cbn [app]. rewrite skip_ws_stop by (unfold space; lia). change (34 =? 34) with true. cbn match.
    exact (parse_string_plain v r P).
  - pose proof (word_scan_word v r D R) as S. subst v. cbn [app] in *. inversion D; subst.
    rewrite skip_ws_stop.
    + rewrite (proj2 (Z.eqb_neq c 34) N). rewrite S. reflexivity.
    + intros X. unfold is_delim in H1. apply isspace_iff in X. rewrite X in H1. rewrite orb_true_r in H1. discriminate.
Qed.
Definition put_all (es m : list (bytes * bytes)) : list (bytes * bytes) := fold_left (fun m e => d_set beq m (fst e) (snd e)) es m.
Lemma decode_loop_flat es ms : flat_members es ms -> forall fuel m r, (length es < fuel)%nat ->
  decode_loop fuel (ms ++ [125] ++ r) m = Ok (put_all es m).
Proof.
  induction 1 as [w1 k w2 w3 t v w4 W1 K W2 W3 V W4|w1 k w2 w3 t v w4 es ms W1 K W2 W3 V W4 H IH]; intros fuel m r L;
    apply blanks_space in W1, W2, W3, W4; (destruct fuel as [|fuel]; [cbn [length] in L; lia|]); cbn [decode_loop];
    rewrite <- !app_assoc, skip_ws_app by exact W1; cbn [app]; rewrite skip_ws_stop by (unfold space; lia);
    change (34 =? 125) with false; cbn match.
  - assert (P : parse_json_string (34 :: k ++ 34 :: w2 ++ 58 :: w3 ++ t ++ w4 ++ 125 :: r) = Ok (k, w2 ++ 58 :: w3 ++ t ++ w4 ++ 125 :: r)).
    { pose proof (parse_string_plain k (w2 ++ 58 :: w3 ++ t ++ w4 ++ 125 :: r) K) as P. rewrite <- !app_assoc in P. exact P. }
    rewrite P. cbn [rbind]. rewrite skip_ws_app by exact W2. rewrite skip_ws_stop by (unfold space; lia).
    cbn [skip_char]. change (58 =? 58) with true. cbn match.
    rewrite (parse_value_flat w3 t v (w4 ++ 125 :: r) W3 V) by (apply ends_blanks; [exact W4|right; exists 125, r; auto]). cbn [rbind].
    rewrite skip_ws_app by exact W4. rewrite skip_ws_stop by (unfold space; lia). cbn [skip_char]. change (125 =? 44) with false. cbn match.
    destruct fuel as [|fuel]; [cbn [length] in L; lia|]. cbn [decode_loop]. rewrite skip_ws_stop by (unfold space; lia). reflexivity.
  - assert (P : parse_json_string (34 :: k ++ 34 :: w2 ++ 58 :: w3 ++ t ++ w4 ++ 44 :: ms ++ 125 :: r) = Ok (k, w2 ++ 58 :: w3 ++ t ++ w4 ++ 44 :: ms ++ 125 :: r)).
    { pose proof (parse_string_plain k (w2 ++ 58 :: w3 ++ t ++ w4 ++ 44 :: ms ++ 125 :: r) K) as P. rewrite <- !app_assoc in P. exact P. }
    rewrite P. cbn [rbind]. rewrite skip_ws_app by exact W2. rewrite skip_ws_stop by (unfold space; lia).
    cbn [skip_char]. change (58 =? 58) with true. cbn match.
    rewrite (parse_value_flat w3 t v (w4 ++ 44 :: ms ++ 125 :: r) W3 V) by (apply ends_blanks; [exact W4|right; exists 44, (ms ++ 125 :: r); auto]). cbn [rbind].
    rewrite skip_ws_app by exact W4. rewrite skip_ws_stop by (unfold space; lia). cbn [skip_char]. change (44 =? 44) with true. cbn match.
    cbn [length] in L. exact (IH fuel (d_set beq m k v) r ltac:(lia)).
Qed.
Lemma decode_flat es t fuel : flat_object es t -> (length es < fuel)%nat -> decode fuel t = Ok (put_all es []).
Proof.
  intros H L. unfold decode. destruct H as [w1 w2 w3 W1 W2|w1 es ms w3 W1 H]; apply blanks_space in W1;
    rewrite skip_ws_app by exact W1; cbn [app]; rewrite skip_ws_stop by (unfold space; lia); change (123 =? 123) with true; cbn match.
  - destruct fuel as [|fuel]; [lia|]. cbn [decode_loop]. apply blanks_space in W2. rewrite skip_ws_app by exact W2.
    rewrite skip_ws_stop by (unfold space; lia). reflexivity.
  - apply (decode_loop_flat es ms H fuel [] w3 L).
Qed.
Lemma beq_iff a b : beq a b = true <-> a = b.
Proof. unfold beq. destruct (list_eq_dec Z.eq_dec a b); split; congruence. Qed.
Lemma d_set_new m k v : ~ In k (map fst m) -> d_set (V := bytes) beq m k v = m ++ [(k, v)].
Proof.
  induction m as [|[k' w] m IH]; intros N; [reflexivity|]. cbn in *. destruct (beq k' k) eqn:E.
  - apply beq_iff in E. tauto.
  - rewrite IH by tauto. reflexivity.
Qed.
Lemma put_all_new es m : NoDup (map fst m ++ map fst es) -> put_all es m = m ++ es.
Proof.
  revert m. induction es as [|[k v] es IH]; intros m N; [cbn; rewrite app_nil_r; reflexivity|].
  unfold put_all. cbn [fold_left fst snd]. cbn [map fst] in N. pose proof (NoDup_remove_2 _ _ _ N) as N2.
  rewrite d_set_new by (intros X; apply N2, in_app_iff; auto). fold (put_all es (m ++ [(k, v)])). rewrite IH.
  - rewrite <- app_assoc. reflexivity.
  - rewrite map_app. cbn [map fst]. rewrite <- app_assoc. exact N.
Qed.

(** ** termination *)
Definition suffix (r s : bytes) : Prop := exists p, s = p ++ r.
Lemma suffix_refl s : suffix s s. Proof. exists []. reflexivity. Qed.
Lemma suffix_trans a b c : suffix a b -> suffix b c -> suffix a c.
Proof. intros (p & ->) (q & ->). exists (q ++ p). rewrite app_assoc. reflexivity. Qed.
Lemma suffix_len r s : suffix r s -> (length r <= length s)%nat.
Proof. intros (p & ->). rewrite app_length. lia. Qed.
Lemma suffix_in r s x : suffix r s -> In x r -> In x s.
Proof. intros (p & ->) H. apply in_app_iff. auto. Qed.
Lemma suffix_cons c r s : suffix r s -> suffix r (c :: s).
Proof. intros (p & ->). exists (c :: p). reflexivity. Qed.
Lemma skip_ws_suffix s : suffix (skip_ws s) s.
Proof. destruct (skip_ws_split s) as (w & W & _). exists w. exact W. Qed.
Lemma skip_char_suffix x s : suffix (skip_char x s) s.
Proof. destruct s as [|c s]; [apply suffix_refl|]. cbn [skip_char]. destruct (c =? x); [exists [c]|exists []]; reflexivity. Qed.
Lemma tl_suffix (s : bytes) : suffix (tl s) s.
Proof. destruct s as [|c s]; [exists []|exists [c]]; reflexivity. Qed.
Lemma str_scan_suffix n s x t : (length s <= n)%nat -> str_scan s = Some (x, t) -> suffix t s.
Proof.
  revert s x t. induction n as [|n IH]; intros s x t L.
  - destruct s; [|cbn in L; lia]. cbn. intros H. injection H as <- <-. apply suffix_refl.
  - destruct s as [|c s]; [cbn; intros H; injection H as <- <-; apply suffix_refl|]. cbn [str_scan length] in *.
    destruct (c =? 34); [intros H; injection H as <- <-; apply suffix_refl|].
    destruct (c =? 92).
    + destruct s as [|d s]; [discriminate|]. cbn [length] in L. destruct (str_scan s) as [[y u]|] eqn:E; [|discriminate].
      intros H. injection H as <- <-. do 2 apply suffix_cons. apply (IH s y u ltac:(lia) E).
    + destruct (str_scan s) as [[y u]|] eqn:E; [|discriminate].
      intros H. injection H as <- <-. apply suffix_cons. apply (IH s y u ltac:(lia) E).
Qed.
Lemma parse_string_suffix s x t : parse_json_string s = Ok (x, t) ->
  suffix t s /\ (forall c r, s = c :: r -> if c =? 34 then (length t <= length r)%nat else t = s /\ x = []).
Proof.
  destruct s as [|c s]; [discriminate|]. cbn [parse_json_string]. destruct (c =? 34) eqn:E; cbn [negb].
  - destruct (str_scan s) as [[y u]|] eqn:F; [|discriminate]. intros H. injection H as <- <-.
    apply (str_scan_suffix _ _ _ _ (Nat.le_refl _)) in F.
    assert (S : suffix (tl u) s) by (eapply suffix_trans; [apply tl_suffix|exact F]).
    split; [apply suffix_cons, S|]. intros c' r H. injection H as <- <-. rewrite E. apply suffix_len, S.
  - intros H. injection H as <- <-. split; [apply suffix_refl|]. intros c' r H. injection H as <- <-. rewrite E. auto.
Qed.
Lemma word_scan_suffix s x t : word_scan s = (x, t) -> suffix t s.
Proof.
  revert x t. induction s as [|c s IH]; intros x t; cbn [word_scan].
  - intros H. injection H as <- <-. apply suffix_refl.
  - destruct (is_delim c); [intros H; injection H as <- <-; apply suffix_refl|].
    destruct (word_scan s) as [y u]. intros H. injection H as <- <-. apply suffix_cons. eapply IH. reflexivity.
Qed.
Lemma parse_value_suffix s x t : parse_json_value_as_string s = Ok (x, t) -> suffix t s.
Proof.
  unfold parse_json_value_as_string. pose proof (skip_ws_suffix s) as S. destruct (skip_ws s) as [|c r].
  - intros H. injection H as <- <-. exact S.
  - destruct (c =? 34).
    + intros H. apply parse_string_suffix in H. destruct H as (H & _). eapply suffix_trans; eassumption.
    + destruct (word_scan (c :: r)) as [y u] eqn:E. intros H. injection H as <- <-. apply word_scan_suffix in E. eapply suffix_trans; eassumption.
Qed.
Lemma decode_loop_ends fuel : forall s m, (length s < fuel)%nat -> ~ In 93 s -> decode_loop fuel s m <> NoFuel.
Proof.
  induction fuel as [|fuel IH]; intros s m L N; [lia|]. cbn [decode_loop].
  pose proof (skip_ws_suffix s) as S0. destruct (skip_ws s) as [|c r] eqn:E0; [discriminate|]. apply skip_ws_head in E0.
  destruct (Z.eqb_spec c 125) as [|N125]; [discriminate|].
  destruct (parse_json_string (c :: r)) as [[k s1]| | |] eqn:E1; cbn [rbind]; try discriminate.
  2:{ cbn [parse_json_string] in E1. destruct (negb (c =? 34)); [discriminate|]. destruct (str_scan r) as [[? ?]|]; discriminate. }
  destruct (parse_json_value_as_string (skip_char 58 (skip_ws s1))) as [[v s2]| | |] eqn:E2; cbn [rbind]; try discriminate.
  2:{ unfold parse_json_value_as_string in E2. destruct (skip_ws (skip_char 58 (skip_ws s1))) as [|x y]; [discriminate|].
      destruct (x =? 34) eqn:X; [|discriminate]. cbn [parse_json_string] in E2. rewrite X in E2. cbn [negb] in E2.
      destruct (str_scan y) as [[? ?]|]; discriminate. }
  pose proof (parse_string_suffix _ _ _ E1) as (S1 & P1). specialize (P1 c r eq_refl).
  pose proof (parse_value_suffix _ _ _ E2) as S2.
  pose proof (skip_ws_suffix s1) as S3. pose proof (skip_char_suffix 58 (skip_ws s1)) as S4.
  pose proof (skip_ws_suffix s2) as S5. pose proof (skip_char_suffix 44 (skip_ws s2)) as S6.
  apply IH.
  - pose proof (suffix_len _ _ S0) as L0. cbn [length] in L0. pose proof (suffix_len _ _ S2). pose proof (suffix_len _ _ S3).
    pose proof (suffix_len _ _ S4). pose proof (suffix_len _ _ S5). pose proof (suffix_len _ _ S6).
    destruct (Z.eqb_spec c 34) as [->|N34]; [lia|]. destruct P1 as (-> & ->).
    rewrite skip_ws_stop in * by exact E0. destruct (Z.eqb_spec c 58) as [->|N58].
    + cbn [skip_char] in *. change (58 =? 58) with true in *. cbn match in *. lia.
    + cbn [skip_char] in E2. rewrite (proj2 (Z.eqb_neq c 58) N58) in E2. unfold parse_json_value_as_string in E2.
      rewrite skip_ws_stop in E2 by exact E0. rewrite (proj2 (Z.eqb_neq c 34) N34) in E2. cbn [word_scan] in E2.
      destruct (is_delim c) eqn:D.
      * injection E2 as <- <-. assert (c = 44).
        { assert (c <> 93) by (intros ->; apply N; eapply suffix_in; [exact S0|left; reflexivity]).
          apply isspace_not in E0. unfold is_delim in D. rewrite E0 in D. lia. }
        subst c. rewrite skip_ws_stop by exact E0. cbn [skip_char]. change (44 =? 44) with true. cbn match. lia.
      * destruct (word_scan r) as [y u] eqn:W. injection E2 as <- <-. apply word_scan_suffix in W. apply suffix_len in W. lia.
  - intros X. apply N. eapply suffix_in; [|exact X].
    eapply suffix_trans; [exact S6|]. eapply suffix_trans; [exact S5|]. eapply suffix_trans; [exact S2|].
    eapply suffix_trans; [exact S4|]. eapply suffix_trans; [exact S3|]. eapply suffix_trans; [exact S1|]. exact S0.
Qed.

(** ** no read outside the text *)
Lemma str_scan_none n s : (length s <= n)%nat -> str_scan s = None -> exists p, s = p ++ [92].
Proof.
  revert s. induction n as [|n IH]; intros s L.
  - destruct s; [discriminate|cbn in L; lia].
  - destruct s as [|c s]; [discriminate|]. cbn [str_scan length] in *. destruct (c =? 34); [discriminate|].
    destruct (Z.eqb_spec c 92) as [->|].
    + destruct s as [|d s]; [intros _; exists []; reflexivity|]. cbn [length] in L. destruct (str_scan s) as [[? ?]|] eqn:E; [discriminate|].
      intros _. destruct (IH s ltac:(lia) E) as (p & ->). exists (92 :: d :: p). reflexivity.
    + destruct (str_scan s) as [[? ?]|] eqn:E; [discriminate|]. intros _. destruct (IH s ltac:(lia) E) as (p & ->). exists (c :: p). reflexivity.
Qed.
Definition ends_back (s : bytes) : Prop := exists p, s = p ++ [92].
Lemma suffix_back a b : suffix a b -> ends_back a -> ends_back b.
Proof. intros (p & ->) (q & ->). exists (p ++ q). rewrite app_assoc. reflexivity. Qed.
Lemma parse_string_ub c r : parse_json_string (c :: r) = UB -> ends_back (c :: r).
Proof.
  cbn [parse_json_string]. destruct (negb (c =? 34)); [discriminate|]. destruct (str_scan r) as [[? ?]|] eqn:E; [discriminate|].
  intros _. apply (str_scan_none _ _ (Nat.le_refl _)) in E. eapply suffix_back; [|exact E]. exists [c]. reflexivity.
Qed.
Lemma decode_loop_inb fuel : forall s m, ~ ends_back s -> decode_loop fuel s m <> UB /\ forall p, decode_loop fuel s m <> Panic p.
Proof.
  induction fuel as [|fuel IH]; intros s m N; [split; discriminate|]. cbn [decode_loop].
  pose proof (skip_ws_suffix s) as S0. destruct (skip_ws s) as [|c r] eqn:E0; [split; discriminate|].
  destruct (c =? 125); [split; discriminate|].
  assert (N0 : ~ ends_back (c :: r)) by (intros X; apply N; eapply suffix_back; eassumption).
  destruct (parse_json_string (c :: r)) as [[k s1]| | |] eqn:E1; cbn [rbind].
  4: split; discriminate.
  3: apply parse_string_ub in E1; contradiction.
  2:{ cbn [parse_json_string] in E1. destruct (negb (c =? 34)); [discriminate|]. destruct (str_scan r) as [[? ?]|]; discriminate. }
  apply parse_string_suffix in E1. destruct E1 as (S1 & _).
  assert (N1 : ~ ends_back s1) by (intros X; apply N0; eapply suffix_back; eassumption).
  assert (S4 : suffix (skip_char 58 (skip_ws s1)) s1) by (eapply suffix_trans; [apply skip_char_suffix|apply skip_ws_suffix]).
  destruct (parse_json_value_as_string (skip_char 58 (skip_ws s1))) as [[v s2]| | |] eqn:E2; cbn [rbind].
  4: split; discriminate.
  - apply IH. intros X. apply N1. eapply suffix_back; [|exact X]. eapply suffix_trans; [apply skip_char_suffix|].
    eapply suffix_trans; [apply skip_ws_suffix|]. eapply suffix_trans; [apply (parse_value_suffix _ _ _ E2)|exact S4].
  - exfalso. unfold parse_json_value_as_string in E2. destruct (skip_ws (skip_char 58 (skip_ws s1))) as [|x y]; [discriminate|].
    destruct (x =? 34) eqn:X; [|discriminate]. cbn [parse_json_string] in E2. rewrite X in E2. cbn [negb] in E2.
    destruct (str_scan y) as [[? ?]|]; discriminate.
  - exfalso. unfold parse_json_value_as_string in E2. pose proof (skip_ws_suffix (skip_char 58 (skip_ws s1))) as S5.
    destruct (skip_ws (skip_char 58 (skip_ws s1))) as [|x y]; [discriminate|].
    destruct (x =? 34); [|discriminate]. apply parse_string_ub in E2. apply N1. eapply suffix_back; [|exact E2].
    eapply suffix_trans; eassumption.
Qed.

(** ** splitter *)
Definition passes (b k : Z) (x : bytes) : Prop :=
  forall r, elem_scan false b k (x ++ r) = let '(y, t) := elem_scan false b k r in (x ++ y, t).
Lemma passes_app b k x y : passes b k x -> passes b k y -> passes b k (x ++ y).
Proof.
  intros X Y r. rewrite <- app_assoc, X, Y. destruct (elem_scan false b k r) as [z t]. rewrite app_assoc. reflexivity.
Qed.
Lemma passes_nil b k : passes b k [].
Proof. intros r. cbn [app]. destruct (elem_scan false b k r). reflexivity. Qed.
Definition ordinary (c : Z) : Prop := c <> 34 /\ c <> 123 /\ c <> 125 /\ c <> 91 /\ c <> 93 /\ c <> 44.
Lemma passes_ordinary b k x : Forall ordinary x -> passes b k x.
Proof.
  induction 1 as [|c x (A1 & A2 & A3 & A4 & A5 & A6) _ IH]; [apply passes_nil|]. intros r. cbn [app elem_scan].
  rewrite (proj2 (Z.eqb_neq c 34) A1), (proj2 (Z.eqb_neq c 123) A2), (proj2 (Z.eqb_neq c 125) A3), (proj2 (Z.eqb_neq c 91) A4), (proj2 (Z.eqb_neq c 93) A5), (proj2 (Z.eqb_neq c 44) A6).
  cbn [andb]. rewrite IH. destruct (elem_scan false b k r). reflexivity.
Qed.
Lemma hex_not c : is_hex_digit c -> c <> 92 /\ c <> 34.
Proof. intros H. apply isxdigit_iff in H. unfold isxdigit in H. lia. Qed.
Lemma in_string_step c b k r : c <> 92 -> c <> 34 ->
  elem_scan true b k (c :: r) = let '(y, t) := elem_scan true b k r in (c :: y, t).
Proof. intros A B. cbn [elem_scan]. rewrite (proj2 (Z.eqb_neq c 92) A), (proj2 (Z.eqb_neq c 34) B). reflexivity. Qed.
Lemma in_string_esc d b k r :
  elem_scan true b k (92 :: d :: r) = let '(y, t) := elem_scan true b k r in (92 :: d :: y, t).
Proof. reflexivity. Qed.
Lemma chars_pass b k x : chars x -> forall r, elem_scan true b k (x ++ [34] ++ r) = let '(y, t) := elem_scan false b k r in (x ++ [34] ++ y, t).
Proof.
  induction 1 as [|c x A B C _ IH|e z x H _ IH|a b0 c d x H _ IH]; intros r.
  - cbn [app elem_scan]. change (34 =? 92) with false. change (34 =? 34) with true. cbn [negb]. destruct (elem_scan false b k r). reflexivity.
  - cbn [app]. rewrite in_string_step by auto. cbn [app] in IH. rewrite IH. destruct (elem_scan false b k r). reflexivity.
  - cbn [app elem_scan]. change (92 =? 92) with true. cbn match. cbn [app] in IH. rewrite IH. destruct (elem_scan false b k r). reflexivity.
  - destruct H as (H1 & H2 & H3 & H4). apply hex_not in H1, H2, H3, H4.
    cbn [app]. rewrite in_string_esc. rewrite !in_string_step by tauto. cbn [app] in IH. rewrite IH. destruct (elem_scan false b k r). reflexivity.
Qed.
Lemma passes_string b k t : json_string t -> passes b k t.
Proof.
  intros (x & -> & X) r. rewrite <- !app_assoc. cbn [app elem_scan]. change (34 =? 34) with true. cbn match.
  pose proof (chars_pass b k x X r) as C. cbn [app] in C. rewrite C. destruct (elem_scan false b k r).
  rewrite <- !app_assoc. reflexivity.
Qed.
Lemma passes_number b k t : json_number t -> passes b k t.
Proof.
  intros H. apply passes_ordinary.
  assert (D : forall ds, Forall digit ds -> Forall ordinary ds) by (intros ds; apply Forall_impl; unfold digit, ordinary; intros; lia).
  destruct H as (m & i & f & e & -> & M & I & F & X).
  apply Forall_app; split; [destruct M as [->| ->]; repeat constructor; lia|].
  apply Forall_app; split.
  { destruct I as [->|(c & r & -> & C & R)]; [repeat constructor; lia|]. apply D. constructor; [unfold digit; lia|exact R]. }
  apply Forall_app; split.
  { destruct F as [->|(ds & -> & _ & R)]; [constructor|]. constructor; [unfold ordinary; lia|]. apply D, R. }
  destruct X as [->|(x & sg & ds & -> & Hx & SG & _ & R)]; [constructor|].
  constructor; [unfold ordinary; lia|]. apply Forall_app; split; [|apply D, R].
  destruct SG as [->|[->| ->]]; repeat constructor; lia.
Qed.
Lemma passes_blanks b k w : blanks space w -> passes b k w.
Proof. intros H. apply passes_ordinary. eapply Forall_impl; [|exact H]. unfold space, ordinary. intros; lia. Qed.
Lemma passes_comma b k : 0 < b \/ 0 < k -> passes b k [44].
Proof.
  intros H r. cbn [app elem_scan]. change (44 =? 34) with false. change (44 =? 123) with false. change (44 =? 125) with false.
  change (44 =? 91) with false. change (44 =? 93) with false. change (44 =? 44) with true. cbn match.
  replace (true && (b =? 0) && (k =? 0)) with false by lia. destruct (elem_scan false b k r). reflexivity.
Qed.
Lemma passes_colon b k : passes b k [58].
Proof. apply passes_ordinary. repeat constructor; lia. Qed.
Lemma passes_brackets b k x : 0 <= k -> passes b (k + 1) x -> passes b k ([91] ++ x ++ [93]).
Proof.
  intros K H r. rewrite <- !app_assoc. cbn [app elem_scan]. change (91 =? 34) with false. change (91 =? 123) with false.
  change (91 =? 125) with false. change (91 =? 91) with true. cbn match.
  rewrite H. cbn [elem_scan]. change (93 =? 34) with false. change (93 =? 123) with false. change (93 =? 125) with false.
  change (93 =? 91) with false. change (93 =? 93) with true. cbn match. replace (k + 1 =? 0) with false by lia.
  replace (k + 1 - 1) with k by lia. destruct (elem_scan false b k r). rewrite <- app_assoc. reflexivity.
Qed.
Lemma passes_braces b k x : passes (b + 1) k x -> passes b k ([123] ++ x ++ [125]).
Proof.
  intros H r. rewrite <- !app_assoc. cbn [app elem_scan]. change (123 =? 34) with false. change (123 =? 123) with true. cbn match.
  rewrite H. cbn [elem_scan]. change (125 =? 34) with false. change (125 =? 123) with false. change (125 =? 125) with true. cbn match.
  replace (b + 1 - 1) with b by lia. destruct (elem_scan false b k r). rewrite <- app_assoc. reflexivity.
Qed.
Lemma passes_grammar :
  (forall d v, value space d v -> forall b k, 0 <= b -> 0 <= k -> passes b k v) /\
  (forall d v, elements space d v -> forall b k, 0 <= b -> 0 <= k -> 0 < b \/ 0 < k -> passes b k v) /\
  (forall d v, members space d v -> forall b k, 0 <= b -> 0 <= k -> 0 < b \/ 0 < k -> passes b k v).
Proof.
  apply (grammar_ind space (fun d v _ => forall b k, 0 <= b -> 0 <= k -> passes b k v)
    (fun d v _ => forall b k, 0 <= b -> 0 <= k -> 0 < b \/ 0 < k -> passes b k v)
    (fun d v _ => forall b k, 0 <= b -> 0 <= k -> 0 < b \/ 0 < k -> passes b k v)); intros.
  - apply passes_string; assumption.
  - apply passes_number; assumption.
  - apply passes_ordinary. apply Forall_forall. intros c X. cbn in X. unfold ordinary. lia.
  - apply passes_ordinary. apply Forall_forall. intros c X. cbn in X. unfold ordinary. lia.
  - apply passes_ordinary. apply Forall_forall. intros c X. cbn in X. unfold ordinary. lia.
  - apply passes_brackets; [lia|]. apply passes_blanks; assumption.
  - apply passes_brackets; [lia|]. apply H; lia.
  - apply passes_braces. apply passes_blanks; assumption.
  - apply passes_braces. apply H; lia.
  - repeat apply passes_app; try (apply passes_blanks; assumption). auto.
  - repeat apply passes_app; try (apply passes_blanks; assumption); auto. apply passes_comma; assumption.
  - repeat apply passes_app; try (apply passes_blanks; assumption); auto using passes_string, passes_colon.
  - repeat apply passes_app; try (apply passes_blanks; assumption); auto using passes_string, passes_colon. apply passes_comma; assumption.
Qed.
(** elements with the blanks before and after them *)
Definition el3 (x : bytes * bytes * bytes) : bytes := let '(w1, v, w2) := x in w1 ++ v ++ w2.
Definition el_kept (x : bytes * bytes * bytes) : bytes := let '(w1, v, w2) := x in v ++ w2.
Definition el_ok (x : bytes * bytes * bytes) : Prop := let '(w1, v, w2) := x in blanks space w1 /\ (exists d, value space d v) /\ blanks space w2.
Lemma scan_stop b r : b = 44 \/ b = 93 -> elem_scan false 0 0 (b :: r) = ([], b :: r).
Proof. intros [->| ->]; reflexivity. Qed.
Lemma split_elem w1 v w2 b r : el_ok (w1, v, w2) -> b = 44 \/ b = 93 ->
  exists c q, skip_ws ((w1 ++ v ++ w2) ++ b :: r) = c :: q /\ c <> 93 /\ elem_scan false 0 0 (c :: q) = (v ++ w2, b :: r) /\ exists x y, v ++ w2 = x :: y.
Proof.
  intros (W1 & (d & V) & W2) B. destruct (value_head _ _ _ V) as (c & q & -> & Hc).
  exists c, (q ++ w2 ++ b :: r). split.
  - rewrite <- !app_assoc, skip_ws_app by exact W1. cbn [app]. apply skip_ws_stop. unfold digit, space in *. lia.
  - split; [unfold digit in Hc; lia|]. split; [|exists c, (q ++ w2); reflexivity].
    destruct passes_grammar as (P & _). pose proof (passes_app _ _ _ _ (P _ _ V 0 0 ltac:(lia) ltac:(lia)) (passes_blanks 0 0 w2 W2) (b :: r)) as S.
    rewrite scan_stop in S by exact B. rewrite app_nil_r in S. rewrite <- app_assoc in S. exact S.
Qed.
Lemma split_loop_ok xs : Forall el_ok xs -> forall fuel acc r, (length xs < fuel)%nat ->
  split_loop fuel (glue [44] (map el3 xs) ++ [93] ++ r) acc = Ok (acc ++ map el_kept xs).
Proof.
  induction 1 as [|[[w1 v] w2] xs H _ IH]; intros fuel acc r L; (destruct fuel as [|fuel]; [cbn [length] in L; lia|]).
  - cbn. rewrite app_nil_r. reflexivity.
  - cbn [map length] in *. destruct xs as [|x xs].
    + cbn [map glue]. cbn [split_loop]. cbn [el3 app].
      destruct (split_elem w1 v w2 93 r H (or_intror eq_refl)) as (c & q & E1 & E2 & E3 & x & y & E4). rewrite E1.
      rewrite (proj2 (Z.eqb_neq c 93) E2), E3, E4. rewrite skip_ws_stop by (unfold space; lia). cbn [skip_char].
      change (93 =? 44) with false. cbn match. destruct fuel as [|fuel]; [cbn [length] in L; lia|].
      cbn [split_loop]. rewrite skip_ws_stop by (unfold space; lia). change (93 =? 93) with true. cbn match. cbn [map el_kept]. rewrite E4. reflexivity.
    + assert (G : glue [44] (el3 (w1, v, w2) :: map el3 (x :: xs)) = el3 (w1, v, w2) ++ [44] ++ glue [44] (map el3 (x :: xs))) by reflexivity.
      rewrite G. rewrite <- !app_assoc. cbn [split_loop].
      destruct (split_elem w1 v w2 44 (glue [44] (map el3 (x :: xs)) ++ [93] ++ r) H (or_introl eq_refl)) as (c & q & E1 & E2 & E3 & x' & y & E4).
      change (el3 (w1, v, w2)) with (w1 ++ v ++ w2). cbn [app] in *. rewrite E1.
      rewrite (proj2 (Z.eqb_neq c 93) E2), E3, E4. rewrite skip_ws_stop by (unfold space; lia). cbn [skip_char].
      change (44 =? 44) with true. cbn match. pose proof (IH fuel (acc ++ [x' :: y]) r) as I1. cbn [app] in I1. etransitivity; [apply I1; cbn [length] in *; lia|].
      rewrite <- app_assoc. cbn [map el_kept app]. rewrite E4. reflexivity.
Qed.
Lemma glue_map_len xs : Forall el_ok xs -> (length xs <= length (glue [44%Z] (map el3 xs)))%nat.
Proof.
  intros H. pose proof (glue_length el3 [44] xs) as G.
  assert (S : Z.of_nat (length xs) <= sum (fun x => Z.of_nat (length (el3 x))) xs).
  { clear G. induction H as [|[[w1 v] w2] xs (_ & (d & V) & _) _ IH]; [cbn; lia|]. cbn [sum fold_right length el3].
    destruct (value_head _ _ _ V) as (c & q & -> & _). rewrite !app_length. cbn [length]. unfold sum in IH. lia. }
  lia.
Qed.
Lemma split_array_ok w xs r : blanks space w -> Forall el_ok xs ->
  split_array (w ++ [91] ++ glue [44] (map el3 xs) ++ [93] ++ r) = Ok (map el_kept xs).
Proof.
  intros W H. unfold split_array. rewrite skip_ws_app by exact W. cbn [app]. rewrite skip_ws_stop by (unfold space; lia).
  change (91 =? 91) with true. cbn match. pose proof (split_loop_ok xs H (S (length (glue [44] (map el3 xs) ++ 93 :: r))) [] r) as S.
  cbn [app] in S. apply S. rewrite app_length. pose proof (glue_map_len xs H). lia.
Qed.
