(** Proofs about enum declarations. *)
From Verif Require Import Base BaseFacts LitSpec LitModel LitSpec2 LitProofs LitProofs2 LitProofs3 EnumSpec EnumModel.

Lemma same_iff a b : same a b = true <-> a = b.
Proof. unfold same. destruct (list_eq_dec Z.eq_dec a b); intuition congruence. Qed.
Lemma nodup_app {A} (l r : list A) : NoDup l -> NoDup r -> (forall x, In x l -> ~ In x r) -> NoDup (l ++ r).
Proof.
  induction l as [|a l IH]; cbn; auto. intros L R D. inversion L as [|? ? N L']; subst. constructor; [|apply IH; auto].
  rewrite in_app_iff. intros [H|H]; [tauto|]. eapply D; eauto.
Qed.

(** * The kinds of enum *)
Lemma str_iff e : is_str e = true <-> textual e.
Proof.
  unfold is_str, textual. rewrite existsb_exists. split.
  - intros (v & H & G). destruct (v_given v) as [[n|n|r s]|] eqn:E; try discriminate. now exists v, r, s.
  - intros (v & r & s & H & G). exists v. now rewrite G.
Qed.
Lemma tagged_iff e : is_tagged e = true <-> tagged e.
Proof. unfold is_tagged, tagged. rewrite existsb_exists. split; intros (v & H & G); exists v; (split; [exact H|lia]). Qed.

(** * The names *)
Lemma check_names_ok name vs : forall seen, check_names name seen vs = [] ->
  NoDup (map v_name vs) /\ (forall v w, In v vs -> In w seen -> v_name v <> v_name w).
Proof.
  induction vs as [|v t IH]; intros seen H; [split; [constructor|intros ? ? []]|]. cbn in H. apply app_eq_nil in H as [_ H]. apply app_eq_nil in H as [A B].
  destruct (existsb _ seen) eqn:X; [discriminate|]. destruct (IH _ B) as [N D].
  assert (Y : forall w, In w seen -> v_name v <> v_name w).
  { intros w W E. assert (existsb (fun w => same (v_name w) (v_name v)) seen = true); [|congruence]. apply existsb_exists. exists w. split; [exact W|]. now apply same_iff. }
  split.
  - cbn. constructor; [|exact N]. rewrite in_map_iff. intros (w & E & W). apply (D w v W); [now left|exact E].
  - intros a w [->|I] W; [now apply Y|]. apply D; [exact I|now right].
Qed.
Lemma check_enums_ok es : forall known, check_enums known es = [] ->
  NoDup (map e_name es) /\ (forall e, In e es -> ~ In (e_name e) known) /\
  (forall e, In e es -> check_parse e = [] /\ exists k, check_enum k e = []).
Proof.
  induction es as [|e t IH]; intros known H; [split; [constructor|split; intros ? []]|]. cbn [check_enums] in H. apply app_eq_nil in H as [P H]. apply app_eq_nil in H as [A B].
  destruct (IH _ B) as (N & D & C).
  assert (Y : ~ In (e_name e) known).
  { unfold check_enum in A. repeat (apply app_eq_nil in A as [? A]). destruct (existsb (same (e_name e)) known) eqn:X; [discriminate|]. intros I.
    assert (existsb (same (e_name e)) known = true); [|congruence]. apply existsb_exists. exists (e_name e). split; [exact I|]. now apply same_iff. }
  split; [|split].
  - cbn. constructor; [|exact N]. rewrite in_map_iff. intros (w & E & W). apply (D w W). left. now rewrite E.
  - intros a [->|I] K; [tauto|]. apply (D a I). now right.
  - intros a [<-|I]; [split; [exact P|now exists known]|]. now apply C.
Qed.
Lemma check_enum_ok k e : check_enum k e = [] ->
  NoDup (map v_name (e_variants e)) /\ check_values [] (e_variants e) = [] /\ ~ (textual e /\ tagged e) /\ (e_flags e = true -> ~ tagged e).
Proof.
  unfold check_enum. intros H. repeat (apply app_eq_nil in H as [? H]). split; [now apply (check_names_ok (e_name e) (e_variants e) [])|]. split; [assumption|]. split.
  - rewrite <- str_iff, <- tagged_iff. intros [A B]. rewrite A, B in *. discriminate.
  - rewrite <- tagged_iff. intros A B. rewrite A, B in *. discriminate.
Qed.
Lemma split95 a a' b b' : ~ In 95 a -> ~ In 95 a' -> a ++ 95 :: b = a' ++ 95 :: b' -> a = a' /\ b = b'.
Proof.
  revert a'. induction a as [|c a IH]; intros [|c' a'] N N' E; cbn in *.
  - injection E as ->. auto.
  - injection E as E _. subst. tauto.
  - injection E as E _. subst. tauto.
  - injection E as -> E. destruct (IH a') as [-> ->]; auto.
Qed.
Definition suffix (e : enum) (v : variant) : bytes := if is_tagged e then bs "TAG_" ++ v_name v else v_name v.
Lemma access_split e v : access e v = bs "GrayEnum_" ++ e_name e ++ 95 :: suffix e v.
Proof. unfold access, suffix, tag_ident, ident. destruct (is_tagged e); reflexivity. Qed.
Lemma suffix_inj e v w : suffix e v = suffix e w -> v_name v = v_name w.
Proof. unfold suffix. destruct (is_tagged e); [apply app_inv_head|auto]. Qed.

(** * C *)
Lemma find_none x g : find x g = None <-> ~ In x (map fst g).
Proof.
  induction g as [|[y c] t IH]; cbn; [tauto|]. destruct (list_eq_dec Z.eq_dec y x) as [->|N]; [split; [discriminate|tauto]|]. rewrite IH. tauto.
Qed.
Lemma find_in x c g : NoDup (map fst g) -> In (x, c) g -> find x g = Some c.
Proof.
  induction g as [|[y d] t IH]; cbn; [tauto|]. intros N. inversion N as [|? ? N1 N2]; subst. intros [[= -> ->]|I]; [now destruct (list_eq_dec Z.eq_dec x x)|].
  destruct (list_eq_dec Z.eq_dec y x) as [->|]; [|auto]. exfalso. apply N1. apply in_map_iff. now exists (x, c).
Qed.
Fixpoint cvals (next : Z) (l : list (bytes * option Z)) : list (bytes * constant) :=
  match l with [] => [] | (x, o) :: t => let n := match o with Some n => n | None => next end in (x, Enumerator n) :: cvals (n + 1) t end.
Definition fits (c : constant) : Prop := match c with Enumerator n => INT32_MIN <= n <= INT32_MAX | Define _ => True end.
Lemma cvals_fst next l : map fst (cvals next l) = map fst l.
Proof. revert next. induction l as [|[x o] t IH]; intros next; cbn; [reflexivity|]. f_equal. apply IH. Qed.
Lemma enumerators_ok l : forall next g, NoDup (map fst l) -> (forall x, In x (map fst l) -> ~ In x (map fst g)) -> Forall (fun p => fits (snd p)) (cvals next l) ->
  c_enumerators next l g = Some (rev (cvals next l) ++ g).
Proof.
  induction l as [|[x o] t IH]; intros next g N D F; [reflexivity|]. cbn [c_enumerators cvals map fst rev] in *. inversion N as [|? ? N1 N2]; subst. inversion F as [|? ? F1 F2]; subst.
  rewrite (proj2 (find_none x g)) by (apply D; now left). cbn [snd fits] in F1. set (n := match o with Some n => n | None => next end) in *.
  replace ((INT32_MIN <=? n) && (n <=? INT32_MAX)) with true by lia.
  rewrite IH; [now rewrite <- app_assoc|exact N2| |exact F2]. cbn. intros y Y [<-|G]; [tauto|]. apply (D y); [now right|exact G].
Qed.

(** * One enum *)
Fixpoint vals (flags : bool) (j : nat) (next : Z) (vs : list variant) : list Z :=
  match vs with
  | [] => []
  | v :: t =>
      let n := match v_given v with Some g => match number g with Some n => n | None => next end | None => if flags then 2 ^ Z.of_nat j else next end in
      n :: vals flags (S j) (n + 1) t
  end.
Lemma vals_len flags vs : forall j next, length (vals flags j next vs) = length vs.
Proof. induction vs as [|v t IH]; intros j next; cbn; [reflexivity|]. now rewrite IH. Qed.
Lemma vals_worth flags all : (forall v r s, In v all -> v_given v <> Some (Str r s)) -> forall vs j next,
  (forall k v, nth_error vs k = Some v -> nth_error all (j + k)%nat = Some v) ->
  (flags = false -> (j = 0%nat /\ next = 0) \/ exists j' n, j = S j' /\ worth flags all j' n /\ next = n + 1) ->
  forall k n, nth_error (vals flags j next vs) k = Some n -> worth flags all (j + k)%nat n.
Proof.
  intros NS. induction vs as [|v t IH]; intros j next P X k n H; [destruct k; discriminate|].
  pose proof (P 0%nat v eq_refl) as V. rewrite Nat.add_0_r in V. cbn [vals] in H. cbv zeta in H.
  set (m := match v_given v with Some g => match number g with Some n => n | None => next end | None => if flags then 2 ^ Z.of_nat j else next end) in *.
  assert (W : worth flags all j m).
  { unfold m. destruct (v_given v) as [g|] eqn:G.
    - destruct (number g) as [q|] eqn:Q; [now apply (w_given _ _ _ v g)|]. destruct g; try discriminate. exfalso. apply (NS v raw s); [now apply nth_error_In in V|exact G].
    - destruct flags eqn:F; [now apply (w_flag _ _ _ v)|]. destruct (X eq_refl) as [[-> ->]|(j' & q & -> & Wq & ->)]; [now apply (w_first _ _ v)|now apply (w_next _ _ j' v)]. }
  destruct k as [|k].
  - cbn in H. injection H as <-. now rewrite Nat.add_0_r.
  - cbn [nth_error] in H. rewrite Nat.add_succ_r, <- Nat.add_succ_l. eapply (IH (S j) (m + 1)); [| |exact H].
    + intros k' v' E. rewrite Nat.add_succ_l, <- Nat.add_succ_r. now apply P.
    + intros _. right. now exists j, m.
Qed.
Lemma emit_plain_ok name flags vs : (forall v r s, In v vs -> v_given v <> Some (Str r s)) -> forall j next,
  (flags = true -> (j + length vs <= 31)%nat) ->
  exists l, emit_plain name flags j vs = Ok l /\ map fst l = map (fun v => ident name (v_name v)) vs /\ cvals next l = combine (map fst l) (map Enumerator (vals flags j next vs)).
Proof.
  induction vs as [|v t IH]; intros NS j next L; [now exists []|].
  assert (NS' : forall v r s, In v t -> v_given v <> Some (Str r s)) by (intros w r s I; apply NS; now right).
  assert (L' : flags = true -> (S j + length t <= 31)%nat) by (intros F; specialize (L F); cbn in L; lia).
  specialize (fun n => IH NS' (S j) n L'). cbn [emit_plain vals].
  destruct (v_given v) as [g|] eqn:G.
  - destruct (number g) as [q|] eqn:Q; [|destruct g; try discriminate; exfalso; apply (NS v raw s); [now left|exact G]].
    destruct (IH (q + 1)) as (l & -> & A & B). eexists. split; [reflexivity|]. split; [cbn; now rewrite A|]. cbn. now rewrite B.
  - destruct flags eqn:F.
    + replace (j <? 31)%nat with true by (specialize (L eq_refl); cbn in L; lia). destruct (IH (2 ^ Z.of_nat j + 1)) as (l & -> & A & B). eexists. split; [reflexivity|]. split; [cbn; now rewrite A|].
      cbn [cvals map combine fst]. cbv zeta. rewrite Z.shiftl_mul_pow2, Z.mul_1_l by lia. now rewrite B.
    + destruct (IH (next + 1)) as (l & -> & A & B). eexists. split; [reflexivity|]. split; [cbn; now rewrite A|]. cbn. now rewrite B.
Qed.
Lemma emit_tags_ok name vs : forall j next, map fst (emit_tags name j vs) = map (fun v => tag_ident name (v_name v)) vs /\
  cvals next (emit_tags name j vs) = combine (map fst (emit_tags name j vs)) (map (fun k => Enumerator (Z.of_nat k)) (seq j (length vs))).
Proof. induction vs as [|v t IH]; intros j next; [split; reflexivity|]. cbn. destruct (IH (S j) (Z.of_nat j + 1)) as [A B]. split; [now rewrite A|now rewrite B]. Qed.

(** What the constants of an enum are to be *)
Definition consts (e : enum) : list constant :=
  if is_str e then map (fun v => Define (emit_text v)) (e_variants e)
  else if is_tagged e then map (fun k => Enumerator (Z.of_nat k)) (seq 0 (length (e_variants e)))
  else map Enumerator (vals (e_flags e) 0 0 (e_variants e)).
Definition binds (e : enum) : env := combine (map (access e) (e_variants e)) (consts e).
Lemma consts_len e : length (consts e) = length (e_variants e).
Proof. unfold consts. destruct (is_str e); [apply map_length|]. destruct (is_tagged e); rewrite map_length; [apply seq_length|apply vals_len]. Qed.
Lemma combine_fst {A B} (l : list A) (r : list B) : length r = length l -> map fst (combine l r) = l.
Proof. revert r. induction l as [|a l IH]; intros [|b r] E; cbn in *; try discriminate; [reflexivity|]. f_equal. apply IH. lia. Qed.
Lemma binds_fst e : map fst (binds e) = map (access e) (e_variants e).
Proof. apply combine_fst. now rewrite consts_len, map_length. Qed.
Lemma not_str e : is_str e = false -> forall v r s, In v (e_variants e) -> v_given v <> Some (Str r s).
Proof. intros S v r s I G. assert (is_str e = true); [|congruence]. apply str_iff. now exists v, r, s. Qed.
Lemma emit_enum_ok e g : ~ (textual e /\ tagged e) -> (e_flags e = true -> (length (e_variants e) <= 31)%nat) -> NoDup (map fst (binds e)) ->
  (forall x, In x (map fst (binds e)) -> ~ In x (map fst g)) -> Forall (fun p => fits (snd p)) (binds e) ->
  exists d, emit_enum e = Ok d /\ c_decl d g = Some (rev (binds e) ++ g).
Proof.
  intros ST L N D F. unfold emit_enum. destruct (is_str e) eqn:S.
  - assert (T : is_tagged e = false) by (destruct (is_tagged e) eqn:T; [|reflexivity]; exfalso; apply ST; split; [now apply str_iff|now apply tagged_iff]).
    eexists. split; [reflexivity|]. cbn [c_decl]. do 3 f_equal. unfold binds, consts, access. rewrite S, T, map_map. cbn. clear. induction (e_variants e) as [|v t IH]; [reflexivity|]. cbn. now rewrite IH.
  - destruct (is_tagged e) eqn:T.
    + eexists. split; [reflexivity|]. cbn [c_decl]. destruct (emit_tags_ok (e_name e) (e_variants e) 0 0) as [A B].
      assert (E : cvals 0 (emit_tags (e_name e) 0 (e_variants e)) = binds e) by (rewrite B, A; unfold binds, consts, access; now rewrite S, T).
      rewrite <- E in *. rewrite cvals_fst in *. now apply enumerators_ok.
    + destruct (emit_plain_ok (e_name e) (e_flags e) (e_variants e) (not_str e S) 0 0 L) as (l & -> & A & B).
      eexists. split; [reflexivity|]. cbn [c_decl].
      assert (E : cvals 0 l = binds e) by (rewrite B, A; unfold binds, consts, access; now rewrite S, T).
      rewrite <- E in *. rewrite cvals_fst in *. now apply enumerators_ok.
Qed.
Lemma emit_enums_ok es : (forall e, In e es -> ~ (textual e /\ tagged e) /\ (e_flags e = true -> (length (e_variants e) <= 31)%nat) /\ Forall (fun p => fits (snd p)) (binds e)) ->
  forall g, NoDup (map fst (flat_map binds es)) -> (forall x, In x (map fst (flat_map binds es)) -> ~ In x (map fst g)) ->
  exists l, emit_enums es = Ok l /\ c_file l g = Some (rev (flat_map binds es) ++ g).
Proof.
  induction es as [|e t IH]; intros H g N D; [now exists []|]. cbn [flat_map] in *. rewrite map_app in N, D.
  assert (N1 : NoDup (map fst (binds e))) by (clear -N; induction (map fst (binds e)); [constructor|inversion N; subst; constructor; [intros I; apply H1, in_or_app; now left|auto]]).
  assert (N2 : NoDup (map fst (flat_map binds t)) /\ forall x, In x (map fst (binds e)) -> ~ In x (map fst (flat_map binds t))).
  { clear -N. induction (map fst (binds e)) as [|a l IH]; [split; [exact N|intros x []]|]. inversion N as [|? ? M1 M2]; subst. destruct (IH M2) as [A B]. split; [exact A|]. intros x [->|I]; [|auto]. intros J. apply M1, in_or_app. now right. }
  destruct N2 as [N2 N3]. destruct (H e) as (A & B & C); [now left|].
  destruct (emit_enum_ok e g A B N1) as (d & E & G); [intros x I; apply D, in_or_app; now left|exact C|].
  destruct (IH (fun e I => H e (or_intror I)) (rev (binds e) ++ g) N2) as (l & E' & G').
  { intros x I. rewrite map_app, in_app_iff, map_rev, <- in_rev. intros [J|J]; [exact (N3 x J I)|]. apply (D x); [apply in_or_app; now right|exact J]. }
  exists (d :: l). cbn [emit_enums c_file]. rewrite E, E', G, G'. split; [reflexivity|]. now rewrite rev_app_distr, <- app_assoc.
Qed.

(** * All enums *)
Lemma all_names es : NoDup (map e_name es) -> (forall e, In e es -> ~ In 95 (e_name e) /\ NoDup (map v_name (e_variants e))) -> NoDup (map fst (flat_map binds es)).
Proof.
  induction es as [|e t IH]; intros N H; [constructor|]. cbn [flat_map map] in *. inversion N as [|? ? N1 N2]; subst. rewrite map_app. apply nodup_app.
  - rewrite binds_fst. destruct (H e (or_introl eq_refl)) as [_ V]. clear -V. induction (e_variants e) as [|v l IH]; [constructor|]. cbn in *. inversion V as [|? ? V1 V2]; subst. constructor; [|auto].
    rewrite in_map_iff. intros (w & E & W). apply V1. apply in_map_iff. exists w. split; [|exact W]. rewrite !access_split in E. apply app_inv_head, app_inv_head in E. injection E as E. now apply suffix_inj in E.
  - apply IH; auto. intros a I. apply H. now right.
  - intros x X Y. rewrite binds_fst in X. apply in_map_iff in X as (v & <- & V). apply in_map_iff in Y as ([y c] & E & Y). cbn in E. subst y. apply in_flat_map in Y as (a & A & Y).
    assert (Z : In (access e v) (map fst (binds a))) by (apply in_map_iff; now exists (access e v, c)). rewrite binds_fst in Z. apply in_map_iff in Z as (w & E & W).
    rewrite !access_split in E. apply app_inv_head in E. apply split95 in E as [E _]; [|apply H; now right|apply H; now left]. apply N1. apply in_map_iff. now exists a.
Qed.
Lemma nth_combine {A B} (l : list A) (r : list B) i a b : nth_error l i = Some a -> nth_error r i = Some b -> In (a, b) (combine l r).
Proof. revert r i. induction l as [|x l IH]; intros [|y r] [|i] P Q; cbn in *; try discriminate; [left; congruence|right; eauto]. Qed.

(** * Text *)
Lemma plain_chars s : (forall c, In c s -> c <> 0 /\ c <> 92 /\ c <> 34 /\ c <> 10) -> c_chars In_ (s ++ [34]) = Some s.
Proof.
  induction s as [|c s IH]; intros H; [reflexivity|]. cbn [app c_chars]. destruct (H c (or_introl eq_refl)) as (_ & A & B & C).
  replace (c =? 34) with false by lia. replace (c =? 92) with false by lia. replace (c =? 10) with false by lia. rewrite IH; [reflexivity|]. intros d I. apply H. now right.
Qed.
Lemma simple_text s : simple s -> value_of (LitLen (quoted s) (Z.of_nat (length s))) = Some s.
Proof.
  intros [A Q]. unfold value_of. rewrite (quoted_string s s); [|now apply qq_free|now apply plain_chars].
  replace (Z.of_nat (length s) <=? Z.of_nat (length s) + 1) with true by lia. rewrite Nat2Z.id, firstn_app, firstn_all, Nat.sub_diag. cbn. now rewrite app_nil_r.
Qed.
Lemma word_simple s : word s -> simple s.
Proof.
  intros W. split; [intros c I; specialize (W c I); lia|]. intros p q ->. assert (I : In 63 (p ++ bs "??" ++ q)) by (apply in_or_app; right; now left). specialize (W 63 I). lia.
Qed.
Lemma simple_spells s its : simple s -> spells s its -> map denoted its = s.
Proof.
  intros [A _] [F ->]. revert A. induction F as [|i l I F IH]; intros A; [reflexivity|]. cbn [flat_map map] in *.
  assert (A' : forall c, In c (flat_map written l) -> c <> 0 /\ c <> 92 /\ c <> 34 /\ c <> 10) by (intros c J; apply A, in_or_app; now right).
  destruct i as [c|e v|h m v]; cbn [written denoted app] in *; [f_equal; auto| |]; exfalso; destruct (A 92) as (_ & X & _); auto; now left.
Qed.
Lemma simple_items s : simple s -> spells s (map Plain s) /\ map denoted (map Plain s) = s.
Proof.
  intros [A _]. split; [|rewrite map_map; apply map_id]. split.
  - apply Forall_forall. intros i I. apply in_map_iff in I as (c & <- & I). now apply A.
  - clear A. induction s as [|c s IH]; [reflexivity|]. cbn. now rewrite <- IH.
Qed.
