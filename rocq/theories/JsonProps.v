(** Properties C31-C33 and C79-C81. *)
From Verif Require Import Base BaseFacts EncodingModel EncodingSpec StringsModel StrconvModel StrconvSpec StrconvProps StringsSpec Decimal DecimalFacts MapSpec JsonModel JsonSpec JsonProofs JsonProofs2 JsonProofs3.

Ltac Zify.zify_post_hook ::= Z.div_mod_to_equations.

(** * C31 *)
(** is_valid always answers, and accepts exactly the JSON texts nested at most 512 deep, in texts
    without vertical tab and form feed. *)
Theorem json_valid_partial t : (exists b, is_valid t = Ok b) /\
  (Forall (fun c => c <> 11 /\ c <> 12) t -> (is_valid t = Ok true <-> json_text 512 t)).
Proof.
  split; [apply is_valid_total|]. intros F. rewrite is_valid_space. split.
  - apply (text_mono space json_blank _ 512 t space_json_blank F).
  - apply (text_mono json_blank space (fun _ => True)); [intros; apply json_blank_space; assumption|]. apply Forall_forall. auto.
Qed.
Print Assumptions json_valid_partial.
(** The exact language accepted: blanks are those of isspace. *)
Theorem json_valid_exact t : is_valid t = Ok true <-> text space 512 t.
Proof. apply is_valid_space. Qed.
Print Assumptions json_valid_exact.
Example json_valid_example : is_valid (bs "{ ""a"" : [1, -2.5e+3, null], ""b"": {} }") = Ok true /\ is_valid (bs "[01]") = Ok false /\
  is_valid (bs "[1,]") = Ok false /\ is_valid (bs "{""a"" 1}") = Ok false.
Proof. repeat split; vm_compute; reflexivity. Qed.
Fixpoint nested (n : nat) : bytes := match n with O => bs "0" | S n => [91] ++ nested n ++ [93] end.
Example json_depth_example : is_valid (nested 512) = Ok true /\ is_valid (nested 513) = Ok false.
Proof. split; vm_compute; reflexivity. Qed.
(** A text that is not JSON at any depth is accepted: a vertical tab counts as blank. *)
Theorem json_valid_refuted : exists t, is_valid t = Ok true /\ forall d, ~ json_text d t.
Proof.
  exists [11; 49]. split; [vm_compute; reflexivity|]. intros d (w1 & v & w2 & E & W1 & V & W2).
  destruct W1 as [|c w1 H _].
  - destruct (value_head _ _ _ V) as (c & q & -> & Hc). cbn [app] in E. injection E as <- _. unfold digit in Hc. lia.
  - cbn [app] in E. injection E as <- _. unfold json_blank in H. lia.
Qed.
Print Assumptions json_valid_refuted.

(** * C32 *)
(** The escaped form of a string, as written inside encoded maps, arrays and structs, is a JSON
    string that denotes it, and has the length computed beforehand. *)
Theorem json_escape_partial s : byte_string s ->
  string_denoting (escaped s) s /\ Z.of_nat (length (escaped s)) = escaped_len s.
Proof. intros H. split; [apply escaped_ok, H|apply escaped_length]. Qed.
Print Assumptions json_escape_partial.
Example json_escape_example : escaped [97; 34; 92; 10; 1; 31; 195; 169] = bs """a\""\\\n\u0001\u001f" ++ [195; 169; 34].
Proof. vm_compute. reflexivity. Qed.
(** json.encode of a string value itself only adds quotes ... *)
Theorem json_encode_string_partial s : plain s -> Z.of_nat (length s) + 3 <= INT32_MAX ->
  exists t, encode_string s = Ok t /\ string_denoting t s.
Proof.
  intros P L. unfold encode_string. rewrite (proj2 (Z.ltb_ge _ _)) by lia. eexists. split; [reflexivity|].
  exists s. split; [reflexivity|]. induction P as [|c s (A & B & C) _ IH]; [split; constructor|].
  cbn [length] in L. destruct IH as (I1 & I2); [lia|]. split; [apply ch_plain|apply de_plain]; auto.
Qed.
Print Assumptions json_encode_string_partial.
Example json_encode_string_example : encode_string (bs "plain") = Ok (bs """plain""").
Proof. reflexivity. Qed.
(** ... so a quote in the string breaks out of it, and the result is not JSON. *)
Theorem json_encode_string_refuted : exists s t, encode_string s = Ok t /\ is_valid t = Ok false /\ forall d, ~ json_text d t.
Proof.
  exists (bs "a""b"), (bs """a""b"""). split; [reflexivity|]. assert (V : is_valid (bs """a""b""") = Ok false) by (vm_compute; reflexivity).
  split; [exact V|]. intros d H.
  assert (X : text space d (bs """a""b""")).
  { revert H. apply (text_mono json_blank space (fun _ => True)); [intros; apply json_blank_space; assumption|]. apply Forall_forall. auto. }
  clear H. destruct X as (w1 & v & w2 & E & W1 & V1 & W2). change (bs """a""b""") with [34; 97; 34; 98; 34] in E.
  destruct W1 as [|c w1 H _]; [|cbn [app] in E; injection E as <- _; unfold space in H; lia].
  cbn [app] in E. destruct V1 as [d t H|d t H| | | | | | |]; try discriminate.
  - assert (R : v_string_lit (t ++ w2) = Some w2) by (apply v_string_complete, H). rewrite <- E in R. vm_compute in R.
    injection R as <-. inversion W2; subst. unfold space in *. lia.
  - destruct (json_number_head t H) as (c & q & -> & D). cbn [app] in E. injection E as <- _. unfold digit in D. lia.
Qed.
Print Assumptions json_encode_string_refuted.

(** * C79: encoded arrays and maps are JSON for the value *)
(** The text written is [a,b,...] / {"k":v,...}, entries in table order, within the buffer. *)
Theorem json_encode_array_text bound vs : Forall (fits bound) vs ->
  Z.of_nat (length (array_of (map val_text vs))) <= INT32_MAX ->
  encode_array bound vs = Ok (array_of (map val_text vs)).
Proof. apply encode_array_ok. Qed.
Print Assumptions json_encode_array_text.
Theorem json_encode_map_text bound es : Forall (fun e => fits bound (snd e)) es ->
  Z.of_nat (length (object_of (map (fun e => (escaped (fst e), val_text (snd e))) es))) <= INT32_MAX ->
  encode_map bound es = Ok (object_of (map (fun e => (escaped (fst e), val_text (snd e))) es)).
Proof. rewrite object_text. apply encode_map_ok. Qed.
Print Assumptions json_encode_map_text.
(** For strings and bools the size computed in the first pass is exactly the length written. *)
Theorem json_encode_map_size es t : (forall e, In e es -> match snd e with VNum _ => False | _ => True end) ->
  encode_map 0 es = Ok t -> map_need 0 es = Z.of_nat (length t).
Proof.
  intros F H. rewrite (map_need_exact es F). f_equal.
  assert (F' : Forall (fun e => fits 0 (snd e)) es).
  { apply Forall_forall. intros e E. specialize (F e E). destruct (snd e); cbn; auto. contradiction. }
  assert (L : Z.of_nat (length ([123] ++ glue [44] (map entry_text es) ++ [125])) <= INT32_MAX).
  { destruct (Z.leb_spec (Z.of_nat (length ([123] ++ glue [44] (map entry_text es) ++ [125]))) INT32_MAX) as [L|L]; [exact L|exfalso].
    unfold encode_map in H.
    assert (W : forall cap x buf b, wr cap x buf = Ok b -> b = buf ++ x /\ Z.of_nat (length b) <= INT32_MAX).
    { intros cap x buf b. unfold wr. destruct (Z.leb_spec (Z.of_nat (length buf + length x)) (Z.min cap INT32_MAX)); [|discriminate].
      intros E. injection E as <-. rewrite app_length. split; [reflexivity|lia]. }
    assert (M : forall need es, (forall e, In e es -> match snd e with VNum _ => False | _ => True end) -> forall first buf b, map_loop need first es buf = Ok b -> b = buf ++ chunks [44] first (map entry_text es)).
    { clear. intros need es F.
      assert (W : forall cap x buf b, wr cap x buf = Ok b -> b = buf ++ x).
      { intros cap x buf b. unfold wr. destruct (Z.leb_spec (Z.of_nat (length buf + length x)) (Z.min cap INT32_MAX)); [|discriminate]. intros E. injection E as <-. reflexivity. }
      induction es as [|[k v] es IH]; intros first buf b H.
      - injection H as <-. destruct first; cbn; rewrite app_nil_r; reflexivity.
      - cbn [map_loop] in H. destruct (if first then Ok buf else wr (need + 1) [44] buf) as [b0| | |] eqn:E0; try discriminate. cbn [rbind] in H.
        destruct (wr (need + 1) (escaped k) b0) as [b1| | |] eqn:E1; try discriminate. cbn [rbind] in H.
        destruct (wr (need + 1) [58] b1) as [b2| | |] eqn:E2; try discriminate. cbn [rbind] in H.
        destruct (wr_val need v b2) as [b3| | |] eqn:E3; try discriminate. cbn [rbind] in H.
        apply IH in H; [|intros e X; apply F; right; exact X]. subst b. apply W in E1, E2.
        assert (b3 = b2 ++ val_text v).
        { specialize (F (k, v) (or_introl eq_refl)). cbn [snd] in F. destruct v; cbn [wr_val] in E3; [apply W in E3; exact E3|contradiction|apply W in E3; exact E3]. }
        assert (b0 = buf ++ (if first then [] else [44])).
        { destruct first; [injection E0 as <-; rewrite app_nil_r; reflexivity|apply W in E0; exact E0]. }
        subst. cbn [map]. rewrite chunks_cons. unfold entry_text at 2. cbn [fst snd]. rewrite <- !app_assoc. reflexivity. }
    destruct (wr (map_need 0 es + 1) [123] []) as [b0| | |] eqn:E0; try discriminate. cbn [rbind] in H.
    destruct (map_loop (map_need 0 es) true es b0) as [b1| | |] eqn:E1; try discriminate. cbn [rbind] in H. unfold finish in H.
    destruct (wr (map_need 0 es + 1) [125] b1) as [b2| | |] eqn:E2; try discriminate. cbn [rbind] in H.
    apply W in E0. apply W in E2. apply (M _ es F) in E1. destruct E0 as (-> & _). destruct E2 as (-> & L2). subst b1.
    cbn [chunks app] in L2. rewrite !app_length in *. cbn [length] in *. rewrite ?app_length in *. cbn [length] in *. lia. }
  rewrite (encode_map_ok 0 es F' L) in H. injection H as <-. reflexivity.
Qed.
Print Assumptions json_encode_map_size.
Example json_encode_example :
  encode_map 21 [(bs "b", VNum (bs "-7")); (bs "a""", VNum (bs "12"))] = Ok (bs "{""b"":-7,""a\"""":12}") /\
  encode_array 21 [VNum (bs "1"); VNum (bs "-9223372036854775808")] = Ok (bs "[1,-9223372036854775808]") /\
  encode_map 0 [(bs "k", VStr (bs "x" ++ [10]))] = Ok (bs "{""k"":""x\n""}").
Proof. repeat split; vm_compute; reflexivity. Qed.
(** Hence JSON, for arrays and maps of strings, bools and 64-bit integers. *)
Inductive eval := EStr (s : bytes) | EInt (n : Z) | EBool (b : bool).
Definition jval_of (v : eval) : jval := match v with EStr s => VStr s | EInt n => VNum (dec_signed n) | EBool b => VBool b end.
Definition eval_ok (v : eval) : Prop := match v with EStr s => byte_string s | EInt n => in_i 64 n | EBool _ => True end.
Lemma eval_good v : eval_ok v -> good_val (jval_of v) /\ fits 21 (jval_of v).
Proof.
  destruct v as [s|n|b]; cbn [eval_ok jval_of good_val fits]; intros H; auto. split; [apply dec_signed_json|]. pose proof (dec_signed_len n H). lia.
Qed.
Theorem json_encode_array_partial vs : Forall eval_ok vs ->
  let t := array_of (map (fun v => val_text (jval_of v)) vs) in
  Z.of_nat (length t) <= INT32_MAX ->
  encode_array 21 (map jval_of vs) = Ok t /\ json_text 1 t /\ is_valid t = Ok true.
Proof.
  intros F t L. assert (E : t = array_of (map val_text (map jval_of vs))) by (unfold t; rewrite map_map; reflexivity). split.
  - rewrite E. apply encode_array_ok; [|rewrite <- E; exact L].
    apply Forall_forall. intros x X. apply in_map_iff in X. destruct X as (v & <- & X). rewrite Forall_forall in F. apply eval_good, F, X.
  - assert (G : forall bl, Forall (value bl 0) (map (fun v => val_text (jval_of v)) vs)).
    { intros bl. apply Forall_forall. intros x X. apply in_map_iff in X. destruct X as (v & <- & X). rewrite Forall_forall in F.
      apply val_json, eval_good, F, X. }
    split; [apply value_text, array_json, G|]. apply (valid_value 1); [lia|]. apply array_json, G.
Qed.
Print Assumptions json_encode_array_partial.
Theorem json_encode_map_partial es : Forall (fun e => byte_string (fst e) /\ eval_ok (snd e)) es ->
  let t := object_of (map (fun e => (escaped (fst e), val_text (jval_of (snd e)))) es) in
  Z.of_nat (length t) <= INT32_MAX ->
  encode_map 21 (map (fun e => (fst e, jval_of (snd e))) es) = Ok t /\ json_text 1 t /\ is_valid t = Ok true.
Proof.
  intros F t L. assert (E : t = object_of (map (fun e => (escaped (fst e), val_text (snd e))) (map (fun e => (fst e, jval_of (snd e))) es))) by (unfold t; rewrite map_map; reflexivity).
  split.
  - rewrite E. apply json_encode_map_text; [|rewrite <- E; exact L].
    apply Forall_forall. intros x X. apply in_map_iff in X. destruct X as (e & <- & X). rewrite Forall_forall in F. apply eval_good, F, X.
  - assert (G : forall bl, value bl 1 t).
    { intros bl. unfold t. apply object_json. apply Forall_forall. intros x X. apply in_map_iff in X. destruct X as (e & <- & X). rewrite Forall_forall in F.
      destruct (F e X) as (A & B). split; [apply escaped_string, A|]. apply val_json, eval_good, B. }
    split; [apply value_text, G|]. apply (valid_value 1); [lia|apply G].
Qed.
Print Assumptions json_encode_map_partial.
Example json_encode_map_example : Forall (fun e => byte_string (fst e) /\ eval_ok (snd e)) [(bs "n", EInt (-3)); (bs "b", EBool true)].
Proof. repeat constructor; cbn; unfold is_byte, in_i; cbn; lia. Qed.
(** %g prints an infinity as inf: not JSON. *)
Theorem json_encode_float_refuted : exists t, encode_array 24 [VNum (bs "inf")] = Ok t /\ is_valid t = Ok false.
Proof. exists (bs "[inf]"). split; vm_compute; reflexivity. Qed.
Print Assumptions json_encode_float_refuted.

(** ** pretty_print *)
Definition pretty_line (indent : Z) (e : bytes * bytes) : bytes :=
  List.repeat 32 (Z.to_nat indent) ++ escaped (fst e) ++ [58; 32] ++ escaped (snd e).
Definition pretty_text (indent : Z) (es : list (bytes * bytes)) : bytes :=
  [123; 10] ++ glue [44; 10] (map (pretty_line indent) es) ++ [10; 125].
Lemma pretty_line_len indent e : 0 <= indent -> Z.of_nat (length (pretty_line indent e)) = indent + escaped_len (fst e) + 2 + escaped_len (snd e).
Proof. intros H. unfold pretty_line. rewrite !app_length, repeat_length. cbn [length]. pose proof (escaped_length (fst e)). pose proof (escaped_length (snd e)). lia. Qed.
Lemma pretty_loop_ok cap indent es : forall first (buf : bytes),
  Z.of_nat (length buf) + Z.of_nat (length (chunks [44; 10] first (map (pretty_line indent) es))) <= Z.min cap INT32_MAX ->
  pretty_loop cap indent first es buf = Ok (buf ++ chunks [44; 10] first (map (pretty_line indent) es)).
Proof.
  induction es as [|[k v] es IH]; intros first buf L.
  - destruct first; cbn; rewrite app_nil_r; reflexivity.
  - cbn [pretty_loop map] in *. rewrite chunks_cons in *. unfold pretty_line at 1 in L. unfold pretty_line at 1. cbn [fst snd] in *. rewrite !app_length in L. cbn [length] in L.
    assert (S : (if first then @Ok bytes buf else wr cap [44; 10] buf) = @Ok bytes (buf ++ (if first then [] else [44; 10]))).
    { destruct first; [rewrite app_nil_r; reflexivity|]. apply wr_ok. cbn [length] in *. lia. }
    rewrite S. cbn [rbind]. rewrite wr_ok by (rewrite app_length; lia). cbn [rbind].
    rewrite wr_ok by (rewrite !app_length; cbn [length]; lia). cbn [rbind].
    rewrite wr_ok by (rewrite !app_length; cbn [length]; lia). cbn [rbind].
    rewrite wr_ok by (rewrite !app_length; cbn [length]; lia). cbn [rbind].
    rewrite IH by (rewrite !app_length; cbn [length]; lia). rewrite <- !app_assoc. reflexivity.
Qed.
Lemma indent_nonneg i : 0 <= indent_of i.
Proof. unfold indent_of. destruct (Z.ltb_spec 0 i); lia. Qed.
Lemma pretty_size i es : Z.of_nat (length (pretty_text (indent_of i) es)) = pretty_need i es + (match es with [] => 1 | _ => 0 end).
Proof.
  unfold pretty_text, pretty_need. rewrite fold_add, !app_length. cbn [length]. pose proof (glue_length (pretty_line (indent_of i)) [44; 10] es) as G. cbn [length] in G.
  rewrite (sum_eq _ (fun e => indent_of i + escaped_len (fst e) + 2 + escaped_len (snd e))) in G by (intros; apply pretty_line_len, indent_nonneg).
  unfold sum in G. destruct es as [|e es]; [cbn in *; lia|]. destruct (Z.ltb_spec 0 (Z.of_nat (length (e :: es)))); cbn [length] in *; lia.
Qed.
(** each line is indented by the size asked for, and a negative size means none *)
Theorem json_pretty_text i es : Z.of_nat (length (pretty_text (Z.max 0 i) es)) <= INT32_MAX ->
  pretty_map i es = Ok (pretty_text (Z.max 0 i) es).
Proof.
  assert (IE : Z.max 0 i = indent_of i) by (unfold indent_of; destruct (0 <? i) eqn:?; lia). rewrite IE.
  intros L. pose proof (pretty_size i es) as P. unfold pretty_map. unfold pretty_text in *. rewrite !app_length in *. cbn [length] in *.
  assert (C : pretty_need i es + (match es with [] => 1 | _ => 0 end) < align8 (pretty_need i es + 1)).
  { destruct es; [vm_compute; reflexivity|]. unfold align8. lia. }
  set (cap := align8 (pretty_need i es + 1)) in *. clearbody cap.
  rewrite wr_ok by (cbn [length]; lia). cbn [rbind app].
  rewrite pretty_loop_ok by (cbn [length chunks]; lia). cbn [rbind].
  rewrite wr_ok by (rewrite app_length; cbn [length chunks]; lia). cbn [rbind].
  rewrite !app_length. cbn [length chunks]. rewrite (proj2 (Z.ltb_lt _ _)) by lia. rewrite <- app_assoc. reflexivity.
Qed.
Print Assumptions json_pretty_text.
(** For the empty map the second pass writes one byte more than the first pass counted: the
    terminating NUL falls outside the requested size (and inside the rounding of the arena). *)
Theorem json_pretty_size_refuted : pretty_map 4 [] = Ok (bs "{" ++ [10; 10] ++ bs "}") /\ pretty_need 4 [] = 3.
Proof. split; vm_compute; reflexivity. Qed.
Print Assumptions json_pretty_size_refuted.
Lemma repeat_blank (bl : Z -> Prop) n : bl 32 -> blanks bl (List.repeat 32 n).
Proof. intros H. apply Forall_forall. intros x X. apply repeat_spec in X. subst. exact H. Qed.
Lemma pretty_members (bl : Z -> Prop) i e es : bl 32 -> bl 10 -> (forall x, In x (e :: es) -> json_string (escaped (fst x)) /\ json_string (escaped (snd x))) ->
  members bl 0 ([10] ++ glue [44; 10] (map (pretty_line i) (e :: es)) ++ [10]).
Proof.
  intros B1 B2. assert (R : blanks bl (10 :: List.repeat 32 (Z.to_nat i))) by (constructor; [exact B2|apply repeat_blank, B1]).
  revert e. induction es as [|f es IH]; intros e H; destruct (H e (or_introl eq_refl)) as (K & V).
  - pose proof (me_one bl 0 (10 :: List.repeat 32 (Z.to_nat i)) (escaped (fst e)) [] [32] (escaped (snd e)) [10] R K (Forall_nil _)
      (Forall_cons _ B1 (Forall_nil _)) (va_string bl 0 _ V) (Forall_cons _ B2 (Forall_nil _))) as M.
    cbn [map glue]. unfold pretty_line. rewrite <- !app_assoc. cbn [app] in *. exact M.
  - pose proof (me_more bl 0 (10 :: List.repeat 32 (Z.to_nat i)) (escaped (fst e)) [] [32] (escaped (snd e)) [] _ R K (Forall_nil _)
      (Forall_cons _ B1 (Forall_nil _)) (va_string bl 0 _ V) (Forall_nil _) (IH f (fun x X => H x (or_intror X)))) as M.
    change (glue [44; 10] (map (pretty_line i) (e :: f :: es))) with (pretty_line i e ++ [44; 10] ++ glue [44; 10] (map (pretty_line i) (f :: es))).
    unfold pretty_line at 1. rewrite <- !app_assoc. cbn [app] in *. exact M.
Qed.
(** json.pretty_print writes JSON. *)
Theorem json_pretty_valid i es : Forall (fun e => byte_string (fst e) /\ byte_string (snd e)) es ->
  Z.of_nat (length (pretty_text (Z.max 0 i) es)) <= INT32_MAX ->
  exists t, pretty_map i es = Ok t /\ json_text 1 t /\ is_valid t = Ok true.
Proof.
  intros F L. exists (pretty_text (Z.max 0 i) es). split; [apply json_pretty_text, L|].
  assert (G : forall bl : Z -> Prop, bl 32 -> bl 10 -> value bl 1 (pretty_text (Z.max 0 i) es)).
  { intros bl B1 B2. unfold pretty_text. destruct es as [|e es].
    - apply (va_object0 bl 1 [10; 10]). repeat constructor; assumption.
    - assert (M : members bl 0 ([10] ++ glue [44; 10] (map (pretty_line (Z.max 0 i)) (e :: es)) ++ [10])).
      { apply pretty_members; [exact B1|exact B2|]. intros x X. rewrite Forall_forall in F. destruct (F x X). split; apply escaped_string; assumption. }
      apply va_object in M. rewrite <- !app_assoc in M. exact M. }
  split; [apply value_text, G; unfold json_blank; lia|]. apply (valid_value 1); [lia|]. apply G; unfold space; lia.
Qed.
Print Assumptions json_pretty_valid.
Example json_pretty_example : pretty_map 2 [(bs "a", bs "1"); (bs "b", [9])] =
  Ok (bs "{" ++ [10] ++ bs "  ""a"": ""1""," ++ [10] ++ bs "  ""b"": ""\t""" ++ [10] ++ bs "}").
Proof. vm_compute. reflexivity. Qed.

(** * C33 *)
(** decode ends on every text without ']', within as many rounds as the text has bytes; and it
    never reads outside a text that does not end in a backslash. *)
Theorem json_decode_ends_partial t fuel : ~ In 93 t -> (length t < fuel)%nat -> decode fuel t <> NoFuel.
Proof.
  intros N L. unfold decode. pose proof (skip_ws_suffix t) as S. destruct (skip_ws t) as [|c r]; [discriminate|].
  destruct (c =? 123); [|discriminate]. apply decode_loop_ends.
  - apply suffix_len in S. cbn [length] in S. lia.
  - intros X. apply N. eapply suffix_in; [exact S|]. right. exact X.
Qed.
Print Assumptions json_decode_ends_partial.
Theorem json_decode_in_bounds_partial t fuel : ~ (exists p, t = p ++ [92]) -> decode fuel t <> UB /\ forall p, decode fuel t <> Panic p.
Proof.
  intros N. unfold decode. pose proof (skip_ws_suffix t) as S. destruct (skip_ws t) as [|c r]; [split; discriminate|].
  destruct (c =? 123); [|split; discriminate]. apply decode_loop_inb. intros X. apply N.
  apply (suffix_back r t); [|exact X]. eapply suffix_trans; [|exact S]. exists [c]. reflexivity.
Qed.
Print Assumptions json_decode_in_bounds_partial.
(** An array as a value makes decode run for ever, on valid JSON, also after the check of
    the two-result form; a text ending in a backslash is read past its end. *)
Theorem json_decode_refuted :
  is_valid (bs "{""a"":[1]}") = Ok true /\
  (forall fuel, decode fuel (bs "{""a"":[1]}") = NoFuel) /\
  (forall fuel, decode_result fuel (bs "{""a"":[1]}") = NoFuel) /\
  decode 9 (bs "{""a\") = UB.
Proof.
  assert (V : is_valid (bs "{""a"":[1]}") = Ok true) by (vm_compute; reflexivity).
  assert (LP : forall fuel, decode_loop fuel (bs "]}") [(bs "a", bs "[1"); ([], [])] = NoFuel).
  { induction fuel as [|fuel IH]; [reflexivity|]. exact IH. }
  assert (D : forall fuel, decode fuel (bs "{""a"":[1]}") = NoFuel).
  { intros [|[|fuel]]; [reflexivity|reflexivity|]. exact (LP fuel). }
  split; [exact V|]. split; [exact D|]. split; [|vm_compute; reflexivity].
  intros fuel. unfold decode_result. change (bs "{""a"":[1]}") with (123 :: tl (bs "{""a"":[1]}")) at 1. cbn match.
  rewrite V. cbn [rbind]. rewrite D. reflexivity.
Qed.
Print Assumptions json_decode_refuted.
(** decode reads every object of strings without escapes, numbers, true, false and null. *)
Theorem json_decode_reads_partial es t fuel : flat_object es t -> NoDup (map fst es) -> (length es < fuel)%nat ->
  decode fuel t = Ok es.
Proof. intros H N L. rewrite (decode_flat es t fuel H L). rewrite put_all_new by exact N. reflexivity. Qed.
Print Assumptions json_decode_reads_partial.
Example json_decode_reads_example : decode 5 (bs "{ ""a"" : ""x y"" , ""n"":-1.5, ""t"":true }") = Ok [(bs "a", bs "x y"); (bs "n", bs "-1.5"); (bs "t", bs "true")].
Proof. vm_compute. reflexivity. Qed.
Definition quoted_pair (e : bytes * bytes) : bytes := ([34] ++ fst e ++ [34]) ++ [58] ++ ([34] ++ snd e ++ [34]).
Lemma plain_bytes_flat es : es <> [] -> (forall e, In e es -> plain (fst e) /\ plain (snd e)) ->
  flat_members es (glue [44] (map quoted_pair es)).
Proof.
  induction es as [|[k v] es IH]; intros NE H; [congruence|]. destruct (H _ (or_introl eq_refl)) as (K & V). cbn [fst snd] in *.
  destruct es as [|f es].
  - pose proof (fm_one [] k [] [] _ v [] (Forall_nil _) K (Forall_nil _) (Forall_nil _) (fv_string v V) (Forall_nil _)) as M.
    cbn [app] in M. cbn [map glue]. unfold quoted_pair. cbn [fst snd app]. rewrite app_nil_r in M. rewrite <- app_assoc in *. exact M.
  - assert (M := fm_more [] k [] [] _ v [] _ _ (Forall_nil _) K (Forall_nil _) (Forall_nil _) (fv_string v V) (Forall_nil _) (IH ltac:(discriminate) (fun x X => H x (or_intror X)))).
    assert (E : glue [44] (map quoted_pair ((k, v) :: f :: es)) =
      [] ++ ([34] ++ k ++ [34]) ++ [] ++ [58] ++ [] ++ ([34] ++ v ++ [34]) ++ [] ++ [44] ++
      glue [44] (map quoted_pair (f :: es))).
    { set (tl := glue [44] (map quoted_pair (f :: es))). transitivity ((([34] ++ k ++ [34]) ++ [58] ++ [34] ++ v ++ [34]) ++ [44] ++ tl); [reflexivity|]. clearbody tl. rewrite <- !app_assoc. reflexivity. }
    rewrite E. exact M.
Qed.
(** decode undoes encode for maps whose keys and values need no escape. *)
Theorem json_decode_encode_partial es fuel : Forall (fun e => plain (fst e) /\ plain (snd e)) es -> NoDup (map fst es) ->
  Z.of_nat (length (object_of (map (fun e => (escaped (fst e), escaped (snd e))) es))) <= INT32_MAX -> (length es < fuel)%nat ->
  exists t, encode_map 0 (map (fun e => (fst e, VStr (snd e))) es) = Ok t /\ decode fuel t = Ok es.
Proof.
  intros F N L Hf. exists (object_of (map (fun e => (escaped (fst e), escaped (snd e))) es)). split.
  - pose proof (json_encode_map_text 0 (map (fun e => (fst e, VStr (snd e))) es)) as T. rewrite map_map in T. cbn [fst snd val_text] in T.
    apply T; [|exact L]. apply Forall_forall. intros x X. apply in_map_iff in X. destruct X as (e & <- & _). exact Logic.I.
  - apply json_decode_reads_partial; [|exact N|exact Hf]. unfold object_of. rewrite map_map. cbn [fst snd].
    destruct es as [|e es]; [apply (fo_empty [] [] []); constructor|].
    assert (X : map (fun x => escaped (fst x) ++ [58] ++ escaped (snd x)) (e :: es) = map quoted_pair (e :: es)).
    { apply map_ext_in. intros x X. rewrite Forall_forall in F. destruct (F x X) as (A & B). unfold quoted_pair. rewrite (escaped_plain _ A), (escaped_plain _ B). reflexivity. }
    rewrite X. pose proof (fo_some [] (e :: es) _ [] (Forall_nil _) (plain_bytes_flat (e :: es) ltac:(discriminate) ltac:(rewrite Forall_forall in F; exact F))) as O.
    cbn [app] in O. exact O.
Qed.
Print Assumptions json_decode_encode_partial.
(** The two-result form: an error for the empty text and for every text that is not valid, and otherwise what decode gives. *)
Theorem json_decode_checked t fuel :
  (t = [] -> decode_result fuel t = Ok (inr 1)) /\
  (t <> [] -> ~ text space 512 t -> decode_result fuel t = Ok (inr 2)) /\
  (t <> [] -> text space 512 t -> forall m, decode_result fuel t = Ok (inl m) <-> decode fuel t = Ok m).
Proof.
  pose proof (json_valid_exact t) as X. destruct (proj1 (json_valid_partial t)) as (b & E). split; [intros ->; reflexivity|]. split; intros NE H.
  - destruct t as [|c t]; [congruence|]. unfold decode_result. rewrite E in *. destruct b; [exfalso; apply H, X; reflexivity|]. reflexivity.
  - intros m. destruct t as [|c t]; [congruence|]. unfold decode_result. rewrite (proj2 X H). cbn [rbind].
    destruct (decode fuel (c :: t)); cbn; split; congruence.
Qed.
Print Assumptions json_decode_checked.
Example json_decode_checked_example : decode_result 9 (bs "{""a"":1") = Ok (inr 2) /\ decode_result 9 (bs "{""a"":1}") = Ok (inl [(bs "a", bs "1")]).
Proof. split; vm_compute; reflexivity. Qed.
(** A newline in a value comes back as a backslash and an n; a nested object is torn apart. *)
Theorem json_decode_encode_refuted :
  encode_map 0 [(bs "k", VStr [10])] = Ok (bs "{""k"":""\n""}") /\ decode 9 (bs "{""k"":""\n""}") = Ok [(bs "k", bs "\n")] /\
  decode 9 (bs "{""a"":{""b"":1}}") = Ok [(bs "a", bs "{""b"":1")] /\
  decode 9 (bs "{""a"":{""b"":1,""c"":2}}") = Ok [(bs "a", bs "{""b"":1"); (bs "c", bs "2")].
Proof. repeat split; vm_compute; reflexivity. Qed.
Print Assumptions json_decode_encode_refuted.

(** * C80: #json structs *)
Definition field_line (f : bytes * fval) : bytes := [34] ++ fst f ++ [34; 58; 32] ++ field_text (snd f).
Definition struct_text (fs : list (bytes * fval)) : bytes := [123] ++ glue [44; 32] (map field_line fs) ++ [125].
Definition field_ok (f : bytes * fval) : Prop :=
  match snd f with FStr s => plain s | FInt n => in_i 64 n | FBool _ => True | FOther => False end.
Lemma field_need_ge f : (forall n, snd f = FInt n -> in_i 64 n) -> Z.of_nat (length (field_line f)) <= field_need f.
Proof.
  intros H. unfold field_line, field_need. rewrite !app_length. cbn [length]. destruct f as [k [s|n|[]|]]; cbn [fst snd field_text bool_text] in *.
  - rewrite <- (escaped_length s). lia.
  - pose proof (dec_signed_len n (H n eq_refl)). lia.
  - cbn [length bs]. lia.
  - cbn [length bs]. lia.
  - cbn [length]. lia.
Qed.
Lemma struct_loop_ok cap fs : forall first (buf : bytes),
  Z.of_nat (length buf) + Z.of_nat (length (chunks [44; 32] first (map field_line fs))) <= Z.min cap INT32_MAX ->
  struct_loop cap first fs buf = Ok (buf ++ chunks [44; 32] first (map field_line fs)).
Proof.
  induction fs as [|[k v] fs IH]; intros first buf L.
  - destruct first; cbn; rewrite app_nil_r; reflexivity.
  - cbn [struct_loop map] in *. rewrite chunks_cons in *. unfold field_line at 1 in L. unfold field_line at 1. cbn [fst snd] in *. rewrite !app_length in L. cbn [length] in L.
    assert (S : (if first then @Ok bytes buf else wr cap [44; 32] buf) = @Ok bytes (buf ++ (if first then [] else [44; 32]))).
    { destruct first; [rewrite app_nil_r; reflexivity|]. apply wr_ok. cbn [length] in *. lia. }
    rewrite S. cbn [rbind]. rewrite wr_ok by (rewrite !app_length; cbn [length]; lia). cbn [rbind].
    rewrite wr_ok by (rewrite !app_length; cbn [length]; lia). cbn [rbind].
    rewrite IH by (rewrite !app_length; cbn [length]; lia). rewrite <- !app_assoc. reflexivity.
Qed.
(** stringify never leaves its buffer and writes {"name": value, ...}. *)
Theorem json_stringify_text fs : (forall f n, In f fs -> snd f = FInt n -> in_i 64 n) ->
  Z.of_nat (length (struct_text fs)) <= INT32_MAX -> stringify fs = Ok (struct_text fs).
Proof.
  intros F L. unfold stringify. unfold struct_text in *. rewrite !app_length in L. cbn [length] in L.
  assert (N : Z.of_nat (length (glue [44; 32] (map field_line fs))) + 2 <= struct_need fs).
  { pose proof (glue_length field_line [44; 32] fs) as G. cbn [length] in G. unfold struct_need. rewrite fold_add.
    assert (S : sum (fun x => Z.of_nat (length (field_line x))) fs <= sum field_need fs) by (apply sum_le; intros x X; apply field_need_ge; intros n E; apply (F x n X E)).
    unfold sum in *. lia. }
  set (need := struct_need fs) in *. clearbody need.
  rewrite wr_ok by (cbn [length]; lia). cbn [rbind app].
  rewrite struct_loop_ok by (cbn [length chunks]; lia). cbn [rbind].
  rewrite wr_ok by (rewrite app_length; cbn [length chunks]; lia). cbn [rbind].
  rewrite !app_length. cbn [length chunks]. rewrite (proj2 (Z.ltb_lt _ _)) by lia. rewrite <- app_assoc. reflexivity.
Qed.
Print Assumptions json_stringify_text.
Definition raw_of (v : fval) : bytes := match v with FStr s => s | FInt n => dec_signed n | FBool b => bool_text b | FOther => [] end.
Lemma field_flat v k : field_ok (k, v) -> flat_value (field_text v) (raw_of v).
Proof.
  destruct v as [s|n|[]|]; cbn [field_ok snd field_text raw_of bool_text]; intros H.
  - rewrite escaped_plain by exact H. apply fv_string, H.
  - apply fv_number, dec_signed_json.
  - apply fv_true.
  - apply fv_false.
  - contradiction.
Qed.
Lemma struct_flat fs : fs <> [] -> (forall f, In f fs -> plain (fst f) /\ field_ok f) ->
  flat_members (map (fun f => (fst f, raw_of (snd f))) fs) (glue [44; 32] (map field_line fs)) /\
  forall w, blanks json_blank w -> flat_members (map (fun f => (fst f, raw_of (snd f))) fs) (w ++ glue [44; 32] (map field_line fs)).
Proof.
  intros NE H. cut (forall w, blanks json_blank w -> flat_members (map (fun f => (fst f, raw_of (snd f))) fs) (w ++ glue [44; 32] (map field_line fs))).
  { intros X. split; [exact (X [] (Forall_nil _))|exact X]. }
  revert NE H. induction fs as [|[k v] fs IH]; intros NE H w W; [congruence|]. destruct (H _ (or_introl eq_refl)) as (K & V). cbn [fst snd] in *.
  assert (B : blanks json_blank [32]) by (repeat constructor). apply field_flat in V.
  destruct fs as [|f fs].
  - pose proof (fm_one w k [] [32] _ _ [] W K (Forall_nil _) B V (Forall_nil _)) as M.
    cbn [map glue fst snd]. unfold field_line. cbn [fst snd]. rewrite app_nil_r in M. rewrite <- !app_assoc in M. cbn [app] in *. exact M.
  - assert (M := fm_more w k [] [32] _ _ [] _ _ W K (Forall_nil _) B V (Forall_nil _) (IH ltac:(discriminate) (fun x X => H x (or_intror X)) [32] B)).
    assert (E : w ++ glue [44; 32] (map field_line ((k, v) :: f :: fs)) =
      w ++ ([34] ++ k ++ [34]) ++ [] ++ [58] ++ [32] ++ field_text v ++ [] ++ [44] ++ [32] ++ glue [44; 32] (map field_line (f :: fs))).
    { cbn [map glue]. unfold field_line at 1. cbn [fst snd app]. rewrite <- !app_assoc. reflexivity. }
    rewrite E. exact M.
Qed.
Definition ftype_of (v : fval) : ftype := match v with FStr _ => TStr | FInt _ => TInt | FBool _ => TBool | FOther => TOther end.
Lemma d_get_nodup (es : list (bytes * bytes)) k v : NoDup (map fst es) -> In (k, v) es -> d_get beq es k = Some v.
Proof.
  induction es as [|[k' w] es IH]; intros N H; [contradiction|]. cbn [d_get]. cbn [map fst] in N. inversion N; subst.
  destruct H as [H|H].
  - injection H as -> ->. rewrite (proj2 (beq_iff k k) eq_refl). reflexivity.
  - destruct (beq k' k) eqn:E; [|apply IH; assumption]. apply beq_iff in E. subst. exfalso. apply H2. apply in_map_iff. exists (k, v). auto.
Qed.
(** A struct of int, bool and escape-free string fields comes back from its own JSON text. *)
Theorem json_struct_roundtrip_partial fs fuel : NoDup (map fst fs) -> (forall f, In f fs -> plain (fst f) /\ field_ok f) ->
  Z.of_nat (length (struct_text fs)) <= INT32_MAX -> (length fs < fuel)%nat ->
  exists t, stringify fs = Ok t /\ parse_struct fuel (map (fun f => (fst f, ftype_of (snd f))) fs) t = Ok fs.
Proof.
  intros N H L Hf. exists (struct_text fs). split.
  { apply json_stringify_text; [|exact L]. intros f n X E. destruct (H f X) as (_ & A). unfold field_ok in A. rewrite E in A. exact A. }
  unfold parse_struct.
  assert (D : decode fuel (struct_text fs) = Ok (map (fun f => (fst f, raw_of (snd f))) fs)).
  { apply json_decode_reads_partial.
    - unfold struct_text. destruct fs as [|f fs]; [apply (fo_empty [] [] []); constructor|].
      pose proof (fo_some [] _ _ [] (Forall_nil _) (proj1 (struct_flat (f :: fs) ltac:(discriminate) H))) as O. cbn [app] in O. exact O.
    - rewrite map_map. cbn [fst]. exact N.
    - rewrite map_length. exact Hf. }
  rewrite D. cbn [rbind].
  set (m := map (fun f => (fst f, raw_of (snd f))) fs).
  assert (Nm : NoDup (map fst m)) by (unfold m; rewrite map_map; exact N).
  assert (R : forall f, In f fs -> read_field m (fst f, ftype_of (snd f)) = Ok f).
  { intros f X. unfold read_field. cbn [fst snd]. rewrite (d_get_nodup m (fst f) (raw_of (snd f)) Nm) by (unfold m; apply in_map_iff; exists f; auto).
    destruct (H f X) as (_ & A). destruct f as [k [s|n|b|]]; cbn [fst snd ftype_of raw_of field_ok] in *.
    - reflexivity.
    - destruct (int_text_roundtrip n) as (I & _). destruct (I A) as (_ & C). unfold from_int in C. rewrite C. reflexivity.
    - destruct b; reflexivity.
    - contradiction. }
  clear - R. assert (G : forall l, (forall f, In f l -> In f fs) -> read_fields m (map (fun f => (fst f, ftype_of (snd f))) l) = Ok l).
  { induction l as [|f l IH]; intros X; [reflexivity|]. cbn [map read_fields]. rewrite R by (apply X; left; reflexivity). cbn [rbind].
    rewrite IH by (intros g G; apply X; right; exact G). reflexivity. }
  apply G. auto.
Qed.
Print Assumptions json_struct_roundtrip_partial.
(** Reading a struct from any flat object: a field takes the value of its own key, wherever it stands,
    keys that are no fields are ignored, and a field whose key is missing is empty, 0 or false. *)
Theorem json_struct_fields_partial es t fuel fields : flat_object es t -> NoDup (map fst es) -> (length es < fuel)%nat ->
  (forall k ty, In (k, ty) fields -> ty <> TOther /\ forall v, In (k, v) es -> ty = TInt -> exists n, in_i 64 n /\ v = dec_signed n) ->
  exists vals, parse_struct fuel fields t = Ok vals /\ map fst vals = map fst fields /\
    forall k ty, In (k, ty) fields -> exists x, In (k, x) vals /\
      match ty with
      | TStr => (exists v, In (k, v) es /\ x = FStr v) \/ (~ In k (map fst es) /\ x = FStr [])
      | TInt => (exists n, In (k, dec_signed n) es /\ in_i 64 n /\ x = FInt n) \/ (~ In k (map fst es) /\ x = FInt 0)
      | TBool => (exists v, In (k, v) es /\ x = FBool (beq v (bs "true"))) \/ (~ In k (map fst es) /\ x = FBool false)
      | TOther => True
      end.
Proof.
  intros H N L F. unfold parse_struct. rewrite (json_decode_reads_partial es t fuel H N L). cbn [rbind].
  assert (G : forall k, (exists v, In (k, v) es /\ d_get beq es k = Some v) \/ (~ In k (map fst es) /\ d_get beq es k = None)).
  { clear - N. intros k. induction es as [|[k' w] es IH]; [right; split; [easy|reflexivity]|]. cbn [map fst] in N. inversion_clear N as [|? ? N1 N2].
    cbn [d_get]. destruct (beq k' k) eqn:E.
    - apply beq_iff in E. subst. left. exists w. split; [now left|reflexivity].
    - assert (k' <> k) by (intros K; apply beq_iff in K; congruence). destruct (IH N2) as [(v & I & D)|(I & D)]; [left; exists v; split; [now right|exact D]|].
      right. split; [|exact D]. cbn. intros [K|K]; tauto. }
  induction fields as [|[k ty] fields IH]; [exists []; repeat split; easy|].
  destruct IH as (vals & E & Ef & HV); [intros k0 ty0 I0; apply F; now right|].
  assert (X : exists x, read_field es (k, ty) = Ok (k, x) /\ match ty with
      | TStr => (exists v, In (k, v) es /\ x = FStr v) \/ (~ In k (map fst es) /\ x = FStr [])
      | TInt => (exists n, In (k, dec_signed n) es /\ in_i 64 n /\ x = FInt n) \/ (~ In k (map fst es) /\ x = FInt 0)
      | TBool => (exists v, In (k, v) es /\ x = FBool (beq v (bs "true"))) \/ (~ In k (map fst es) /\ x = FBool false)
      | TOther => True
      end).
  { destruct (F k ty (or_introl eq_refl)) as (NT & FI). unfold read_field. cbn [fst snd]. destruct (G k) as [(v & I & ->)|(I & ->)].
    - destruct ty; [eexists; split; [reflexivity|]; left; eauto| |eexists; split; [reflexivity|]; left; eauto|congruence].
      destruct (FI v I eq_refl) as (n & Hn & ->). destruct (int_text_roundtrip n) as (J & _). destruct (J Hn) as (_ & C). unfold from_int in C. rewrite C.
      eexists; split; [reflexivity|]. left. eauto.
    - eexists; split; [reflexivity|]. destruct ty; auto. }
  destruct X as (x & RX & PX). exists ((k, x) :: vals). cbn [read_fields]. rewrite RX. cbn [rbind]. rewrite E. cbn [rmap map fst]. rewrite Ef.
  split; [reflexivity|]. split; [reflexivity|]. intros k0 ty0 [K|K].
  - injection K as <- <-. exists x. split; [now left|exact PX].
  - destruct (HV k0 ty0 K) as (y & I & P). exists y. split; [now right|exact P].
Qed.
Print Assumptions json_struct_fields_partial.
Example json_struct_fields_example : parse_struct 9 [(bs "age", TInt); (bs "name", TStr); (bs "ok", TBool)] (bs "{""name"":""Ada"",""x"":1}") =
  Ok [(bs "age", FInt 0); (bs "name", FStr (bs "Ada")); (bs "ok", FBool false)].
Proof. vm_compute. reflexivity. Qed.
Example json_struct_example :
  stringify [(bs "name", FStr (bs "Ada")); (bs "age", FInt (-36)); (bs "ok", FBool true)] = Ok (bs "{""name"": ""Ada"", ""age"": -36, ""ok"": true}") /\
  parse_struct 9 [(bs "name", TStr); (bs "age", TInt); (bs "ok", TBool)] (bs "{""name"": ""Ada"", ""age"": -36, ""ok"": true}") =
    Ok [(bs "name", FStr (bs "Ada")); (bs "age", FInt (-36)); (bs "ok", FBool true)].
Proof. split; vm_compute; reflexivity. Qed.
(** A field of another type is written without a value, which is not JSON; a newline does not
    come back; an integer field given a JSON text that is no number ends the program. *)
Theorem json_struct_refuted :
  (stringify [(bs "a", FOther); (bs "b", FInt 1)] = Ok (bs "{""a"": , ""b"": 1}") /\ is_valid (bs "{""a"": , ""b"": 1}") = Ok false) /\
  (stringify [(bs "s", FStr [10])] = Ok (bs "{""s"": ""\n""}") /\ parse_struct 9 [(bs "s", TStr)] (bs "{""s"": ""\n""}") = Ok [(bs "s", FStr (bs "\n"))]) /\
  (is_valid (bs "{""n"": null}") = Ok true /\ parse_struct 9 [(bs "n", TInt)] (bs "{""n"": null}") = Panic 84).
Proof. repeat split; vm_compute; reflexivity. Qed.
Print Assumptions json_struct_refuted.

(** * C81: splitting a JSON array *)
(** The elements of an array come out one by one, each as its own text (with the blanks that
    follow it), however deeply arrays, objects and strings nest inside. *)
Theorem json_split_elements w xs r : blanks json_blank w ->
  (forall w1 v w2, In (w1, v, w2) xs -> blanks json_blank w1 /\ (exists d, value json_blank d v) /\ blanks json_blank w2) ->
  split_array (w ++ [91] ++ glue [44] (map (fun '(w1, v, w2) => w1 ++ v ++ w2) xs) ++ [93] ++ r) =
  Ok (map (fun '(w1, v, w2) => v ++ w2) xs).
Proof.
  intros W H. apply (split_array_ok w xs r); [apply blanks_space, W|]. apply Forall_forall. intros [[w1 v] w2] X. destruct (H _ _ _ X) as (A & (d & B) & C).
  split; [apply blanks_space, A|]. split; [|apply blanks_space, C]. exists d.
  destruct (grammar_mono json_blank space (fun _ => True) (fun c Hc _ => json_blank_space c Hc)) as (G & _). apply G; [exact B|]. apply Forall_forall. auto.
Qed.
Print Assumptions json_split_elements.
Example json_split_example : split_array (bs "[ {""a"":[1,2],""b"":""],[""} , [3,{}] ,""x,y""]") = Ok [bs "{""a"":[1,2],""b"":""],[""} "; bs "[3,{}] "; bs """x,y"""].
Proof. vm_compute. reflexivity. Qed.
