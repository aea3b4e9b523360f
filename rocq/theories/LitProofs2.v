(** Proofs about string and character literals. *)
From Verif Require Import Base BaseFacts StringsModel EncodingModel LexSpec LexModel LexProofs LexProofs2 LexProofs3 LexProofs4 FmtProofs LitSpec LitModel LitSpec2 LitProofs.
Ltac Zify.zify_post_hook ::= Z.div_mod_to_equations.

(** * Trigraphs *)
Fixpoint qq (s : bytes) : bool := match s with [] => false | c :: r => ((c =? 63) && (hd 0 r =? 63)) || qq r end.
Lemma trigraphs_id s : qq s = false -> trigraphs s = s.
Proof.
  induction s as [|c r IH]; [reflexivity|]. cbn [qq]. intros H. apply orb_false_iff in H as [A B]. cbn [trigraphs]. rewrite (IH B).
  destruct r as [|d [|e r]]; [reflexivity|reflexivity|]. cbn [hd] in A. rewrite A. reflexivity.
Qed.
Lemma qq_free s : free_of (bs "??") s -> qq s = false.
Proof.
  change (bs "??") with [63; 63]. intros H. induction s as [|c r IH]; [reflexivity|]. cbn [qq]. apply orb_false_iff. split.
  - destruct r as [|d r]; [apply andb_false_r|]. cbn [hd]. destruct (c =? 63) eqn:A; [|reflexivity]. destruct (d =? 63) eqn:B; [|reflexivity]. exfalso.
    apply (H [] r). cbn [app]. f_equal; [lia|f_equal; lia].
  - apply IH. intros p q E. apply (H (c :: p) q). rewrite E. reflexivity.
Qed.
Lemma qq_app a b : qq a = false -> qq b = false -> (last a 0 =? 63) && (hd 0 b =? 63) = false -> qq (a ++ b) = false.
Proof.
  induction a as [|c a IH]; intros A B L; [exact B|]. cbn [qq app] in *. apply orb_false_iff in A as [A1 A2]. apply orb_false_iff. destruct a as [|d a].
  - split; [exact L|exact B].
  - split; [exact A1|]. apply IH; [exact A2|exact B|]. exact L.
Qed.
Lemma qq_snoc a c : qq a = false -> c <> 63 -> qq (a ++ [c]) = false.
Proof. intros A C. apply qq_app; [exact A|cbn; replace (c =? 63) with false by lia; reflexivity|cbn [hd]; replace (c =? 63) with false by lia; apply andb_false_r]. Qed.

(** * The automaton *)
Lemma in_plain c r : c <> 34 -> c <> 92 -> c <> 10 -> c_chars In_ (c :: r) = option_map (cons c) (c_chars In_ r).
Proof. intros A B C. cbn [c_chars]. replace (c =? 34) with false by lia. replace (c =? 92) with false by lia. replace (c =? 10) with false by lia. reflexivity. Qed.
Lemma in_escape e v r : c_escape e = Some v -> c_chars In_ (92 :: e :: r) = option_map (cons v) (c_chars In_ r).
Proof. intros E. cbn [c_chars Z.eqb Pos.eqb]. rewrite E. reflexivity. Qed.
Lemma in_nul c r : octal_digit c = false -> c_chars In_ (92 :: 48 :: c :: r) = option_map (cons 0) (c_chars In_ (c :: r)).
Proof. intros O. change (c_chars In_ (92 :: 48 :: c :: r)) with (c_chars (Oct 1 0) (c :: r)). cbn [c_chars]. rewrite O. reflexivity. Qed.
Lemma in_hex h l x y c r : hex_value h = Some x -> hex_value l = Some y -> 0 <= x < 16 -> 0 <= y < 16 -> hex_value c = None ->
  c_chars In_ (92 :: 120 :: h :: l :: c :: r) = option_map (cons (16 * x + y)) (c_chars In_ (c :: r)).
Proof.
  intros H L X Y C. change (c_chars In_ (92 :: 120 :: h :: l :: c :: r)) with (c_chars (Hex None) (h :: l :: c :: r)). cbn [c_chars]. rewrite H, L, C. unfold put.
  replace (0 * 16 + x) with x by lia. replace (x * 16 + y) with (16 * x + y) by lia. replace (16 * x + y <=? 255) with true by (symmetry; apply Z.leb_le; lia). reflexivity.
Qed.
Lemma in_break r : c_chars In_ (34 :: 32 :: 34 :: r) = c_chars In_ r. Proof. reflexivity. Qed.
Lemma hex_value_is c : hex_value c = None <-> isxdigit c = false.
Proof.
  unfold hex_value, isxdigit, isdigit. destruct ((48 <=? c) && (c <=? 57)) eqn:A; destruct ((97 <=? c) && (c <=? 102)) eqn:B; destruct ((65 <=? c) && (c <=? 70)) eqn:C;
    cbn [orb]; split; intros H; try discriminate; try reflexivity; lia.
Qed.
Lemma digit_hex h x : digit 16 h x -> hex_value h = Some x /\ 0 <= x < 16 /\ isxdigit h = true /\ h <> 92 /\ h <> 34 /\ h <> 10 /\ h <> 13 /\ h <> 63.
Proof.
  intros D. assert (hex_value h = Some x /\ 0 <= x < 16 /\ 48 <= h <= 102 /\ h <> 92 /\ h <> 63 ) as (A & B & C & E & F).
  { inversion D; subst; (split; [|lia]); unfold hex_value.
    - replace ((48 <=? h) && (h <=? 57)) with true by lia. reflexivity.
    - replace ((48 <=? h) && (h <=? 57)) with false by lia. replace ((97 <=? h) && (h <=? 102)) with true by lia. reflexivity.
    - replace ((48 <=? h) && (h <=? 57)) with false by lia. replace ((97 <=? h) && (h <=? 102)) with false by lia. replace ((65 <=? h) && (h <=? 70)) with true by lia. reflexivity. }
  split; [exact A|]. split; [exact B|]. split; [|lia]. destruct (isxdigit h) eqn:X; [reflexivity|]. apply hex_value_is in X. congruence.
Qed.

(** * Text with escapes *)
Lemma body_plain c r : c <> 92 -> body (c :: r) = (if c =? 10 then [92; 110] else if c =? 13 then [92; 114] else [c]) ++ body r.
Proof. intros C. destruct r as [|e r]; cbn [body]; replace (c =? 92) with false by lia; reflexivity. Qed.
(** After a backslash copied as such *)
Lemma body_92 r : hd 0 r <> 36 -> (hd 0 r = 120 -> isxdigit (hd 0 (tl r)) = false) -> body (92 :: r) = 92 :: body r.
Proof.
  intros A B. destruct r as [|e r]; [reflexivity|]. cbn [hd tl] in *.
  change (body (92 :: e :: r)) with (if (e =? 120) && isxdigit (hd 0 r) then
    match r with h :: r3 => match r3 with l :: r4 => if isxdigit l then 92 :: e :: h :: l :: break_ r4 ++ body r4 else 92 :: e :: h :: body r3 | [] => 92 :: e :: h :: body r3 end
    | [] => 92 :: body (e :: r) end else if e =? 36 then 36 :: body r else 92 :: body (e :: r)).
  replace ((e =? 120) && isxdigit (hd 0 r)) with false. 2:{ destruct (e =? 120) eqn:E; [|reflexivity]. rewrite B by lia. reflexivity. }
  replace (e =? 36) with false by lia. reflexivity.
Qed.
Lemma body_hex2 h l r : isxdigit h = true -> isxdigit l = true -> body (92 :: 120 :: h :: l :: r) = 92 :: 120 :: h :: l :: break_ r ++ body r.
Proof. intros H L. cbn [body]. change (92 =? 92) with true. change (120 =? 120) with true. cbn [hd andb]. rewrite H, L. reflexivity. Qed.
Lemma body_hex1 h r : isxdigit h = true -> isxdigit (hd 0 r) = false -> body (92 :: 120 :: h :: r) = 92 :: 120 :: h :: body r.
Proof.
  intros H L. cbn [body]. change (92 =? 92) with true. change (120 =? 120) with true. cbn [hd andb]. rewrite H. destruct r as [|l r]; [reflexivity|]. cbn [hd] in L. rewrite L. reflexivity.
Qed.
Lemma body_dollar r : body (92 :: 36 :: r) = 36 :: body r.
Proof. reflexivity. Qed.

Notation W := (flat_map written).
Lemma nn_tail R i its : no_neighbours R (i :: its) -> no_neighbours R its.
Proof. intros H p a b q E. apply (H (i :: p) a b q). rewrite E. reflexivity. Qed.
Lemma nn_head R i j its : no_neighbours R (i :: j :: its) -> ~ R i j.
Proof. intros H. apply (H [] i j its). reflexivity. Qed.
Lemma escape_cases e v : In (e, v) escapes -> (e = 48 /\ v = 0) \/ (e = 36 /\ v = 36) \/ (e = 92 /\ v = 92) \/
  (c_escape e = Some v /\ e <> 48 /\ e <> 36 /\ e <> 92 /\ e <> 120 /\ e <> 10 /\ e <> 13 /\ e <> 63 /\ v <> 0).
Proof.
  intros H. cbn in H. repeat (destruct H as [H|H]; [injection H as <- <-; try (left; split; reflexivity); try (right; left; split; reflexivity); try (right; right; left; split; reflexivity);
    right; right; right; repeat split; try reflexivity; discriminate|]). destruct H.
Qed.
(** The first character emitted for some items and the closing quote *)
Lemma body_head its z : Forall item_ok its -> exists c r, body (W its) ++ 34 :: z = c :: r /\
  (octal_digit c = true -> exists q, its = Plain c :: q) /\ (isxdigit c = true -> exists q, its = Plain c :: q).
Proof.
  intros F. destruct its as [|i its]; [exists 34, z; split; [reflexivity|split; discriminate]|]. apply Forall_cons_iff in F as [O _]. cbn [flat_map]. destruct i as [c|e v|h l v]; cbn [written app].
  - cbn in O. rewrite body_plain by tauto. destruct (c =? 10) eqn:E1; [lia|]. destruct (c =? 13) eqn:E2; cbn [app].
    + eexists 92, _. split; [reflexivity|]. split; discriminate.
    + eexists c, _. split; [reflexivity|]. split; intros _; exists its; reflexivity.
  - assert (X : exists r, body (92 :: e :: W its) ++ 34 :: z = 92 :: r \/ body (92 :: e :: W its) ++ 34 :: z = 36 :: r).
    { destruct (escape_cases _ _ O) as [[-> _]|[[-> _]|[[-> _]|(_ & A & B & C & D & _)]]].
      - rewrite body_92 by (cbn; discriminate). eexists. left. reflexivity.
      - rewrite body_dollar. eexists. right. reflexivity.
      - rewrite body_92 by (cbn; discriminate). eexists. left. reflexivity.
      - rewrite body_92 by (cbn; congruence). eexists. left. reflexivity. }
    destruct X as [r [->| ->]]; eexists _, r; (split; [reflexivity|split; discriminate]).
  - destruct O as (x & y & Hx & Hy & _). apply digit_hex in Hx as (_ & _ & Hx & _). apply digit_hex in Hy as (_ & _ & Hy & _). rewrite body_hex2 by assumption.
    eexists 92, _. split; [reflexivity|split; discriminate].
Qed.
Lemma xdigit_items its : Forall item_ok its -> isxdigit (hd 0 (W its)) = true -> exists c q, its = Plain c :: q /\ isxdigit c = true.
Proof. destruct its as [|i its]; [discriminate|]. intros F. destruct i as [c|e v|h l v]; cbn; try discriminate. eauto. Qed.
Lemma map_cons (a : Z) x y : option_map (cons a) x = Some (a :: y) -> x = Some y.
Proof. destruct x; cbn; [intros H; injection H as ->; reflexivity|discriminate]. Qed.
Lemma body_chars : forall its, Forall item_ok its -> no_neighbours bad_dollar its -> no_neighbours bad_octal its ->
  c_chars In_ (body (W its) ++ [34]) = Some (map denoted its).
Proof.
  intros its. induction its as [its IH] using list_len_ind. intros F D O. destruct its as [|i its]; [reflexivity|].
  apply Forall_cons_iff in F as [Oi F]. pose proof (nn_tail _ _ _ D) as D'. pose proof (nn_tail _ _ _ O) as O'. pose proof (IH its ltac:(cbn; lia) F D' O') as R.
  cbn [flat_map map]. destruct i as [c|e v|h l v]; cbn [written app denoted].
  - cbn in Oi. destruct Oi as (_ & A & B & C). rewrite body_plain by exact A. destruct (c =? 10) eqn:E1; [lia|]. destruct (c =? 13) eqn:E2; cbn [app].
    + rewrite (in_escape 114 13) by reflexivity. rewrite R. cbn [option_map]. do 2 f_equal. lia.
    + rewrite in_plain by assumption. rewrite R. reflexivity.
  - destruct (escape_cases _ _ Oi) as [[-> ->]|[[-> ->]|[[-> ->]|(Ec & A & B & C & X & N10 & N13 & N63 & V)]]].
    + rewrite body_92 by (cbn; discriminate). rewrite body_plain by discriminate. cbn [Z.eqb Pos.eqb app].
      destruct (body_head its [] F) as (c & r & E & Oc & _). rewrite E in *. rewrite in_nul; [rewrite R; reflexivity|]. destruct (octal_digit c) eqn:Od; [|reflexivity].
      exfalso. destruct (Oc eq_refl) as [q ->]. apply (nn_head _ _ _ _ O). split; [reflexivity|]. exists c. split; [reflexivity|]. unfold octal_digit in Od. lia.
    + rewrite body_dollar. cbn [app]. rewrite in_plain by discriminate. rewrite R. reflexivity.
    + rewrite body_92 by (cbn; discriminate). cbn [app].
      assert (G : forall z, c_chars In_ (92 :: 92 :: z) = option_map (cons 92) (c_chars In_ z)) by (intros z; apply (in_escape 92 92); reflexivity).
      destruct its as [|j its]. { reflexivity. }
      pose proof (nn_head _ _ _ _ D) as ND. destruct j as [c|e v|h l v].
      * cbn [flat_map written app] in *. destruct (c =? 120) eqn:Ec.
        -- assert (c = 120) by lia. subst c. apply Forall_cons_iff in F as [_ F]. destruct (isxdigit (hd 0 (W its))) eqn:H1.
           ++ destruct (xdigit_items _ F H1) as (h & its1 & -> & Hh). cbn [flat_map written app] in *. apply Forall_cons_iff in F as [Oh F]. cbn in Oh.
              assert (Hn : h <> 10 /\ h <> 13) by (split; intros ->; discriminate).
              rewrite body_plain in R by discriminate. change (120 =? 10) with false in R. change (120 =? 13) with false in R. cbv iota in R. rewrite body_plain in R by tauto.
              replace (h =? 10) with false in R by lia. replace (h =? 13) with false in R by lia. cbn [app] in R. rewrite in_plain in R by discriminate. rewrite in_plain in R by tauto.
              assert (R1 : c_chars In_ (body (W its1) ++ [34]) = Some (map denoted its1)).
              { destruct (c_chars In_ (body (W its1) ++ [34])); cbn in R; [injection R as ->; reflexivity|discriminate]. }
              destruct (isxdigit (hd 0 (W its1))) eqn:H2.
              ** destruct (xdigit_items _ F H2) as (l & its2 & -> & Hl). cbn [flat_map written app] in *. apply Forall_cons_iff in F as [Ol F]. cbn in Ol.
                 assert (Ln : l <> 10 /\ l <> 13) by (split; intros ->; discriminate).
                 rewrite body_plain in R1 by tauto. replace (l =? 10) with false in R1 by lia. replace (l =? 13) with false in R1 by lia. cbn [app] in R1. rewrite in_plain in R1 by tauto.
                 rewrite body_hex2 by assumption. cbn [app]. rewrite G, in_plain by discriminate. rewrite in_plain by tauto. rewrite in_plain by tauto. rewrite <- app_assoc.
                 assert (R2 : c_chars In_ (break_ (W its2) ++ body (W its2) ++ [34]) = c_chars In_ (body (W its2) ++ [34])) by (unfold break_; destruct (isxdigit (hd 0 (W its2))); reflexivity).
                 rewrite R2. apply map_cons in R1. rewrite R1. reflexivity.
              ** rewrite body_hex1 by assumption. cbn [app]. rewrite G, in_plain by discriminate. rewrite in_plain by tauto. rewrite R1. reflexivity.
           ++ rewrite body_92 by (cbn; congruence). cbn [app]. rewrite G. rewrite R. reflexivity.
        -- rewrite body_92. 2:{ cbn. intros ->. apply ND. split; reflexivity. } 2:{ cbn. lia. } cbn [app]. rewrite G, R. reflexivity.
      * cbn [flat_map written app] in *. rewrite body_92 by (cbn; discriminate). cbn [app]. rewrite G, R. reflexivity.
      * cbn [flat_map written app] in *. rewrite body_92 by (cbn; discriminate). cbn [app]. rewrite G, R. reflexivity.
    + rewrite body_92 by (cbn; congruence). rewrite body_plain by exact C. replace (e =? 10) with false by lia. replace (e =? 13) with false by lia. cbn [app].
      rewrite (in_escape e v) by exact Ec. rewrite R. reflexivity.
  - destruct Oi as (x & y & Hx & Hy & ->). apply digit_hex in Hx as (Vx & Bx & Hx & _). apply digit_hex in Hy as (Vy & By & Hy & _). rewrite body_hex2 by assumption. cbn [app].
    unfold break_. destruct (isxdigit (hd 0 (W its))) eqn:N; cbn [app].
    + rewrite (in_hex _ _ x y) by (assumption || reflexivity). rewrite in_break, R. reflexivity.
    + destruct (body_head its [] F) as (c & r & E & _ & Xc). rewrite E in *. rewrite (in_hex _ _ x y); try assumption; [rewrite R; reflexivity|].
      apply hex_value_is. destruct (isxdigit c) eqn:Hc; [|reflexivity]. destruct (Xc eq_refl) as [q ->]. cbn in N. congruence.
Qed.
