(** Proofs about calls of generic functions. *)
From Verif Require Import Base BaseFacts LexModel LexProofs NameModel TypesModel TypesSpec TypesProofs TypesProofs2 GenericModel GenericSpec.

Lemma eqs_iff a b : eqs a b = true <-> a = b.
Proof. unfold eqs. rewrite Z.eqb_eq. split; [apply strcmp_eq|intros ->; apply strcmp_refl]. Qed.
Lemma eqs_refl a : eqs a a = true.
Proof. now apply eqs_iff. Qed.
Lemma eqs_no a b : a <> b -> eqs a b = false.
Proof. intros N. destruct (eqs a b) eqn:E; [|reflexivity]. apply eqs_iff in E. now elim N. Qed.
Lemma wild_iff s : type_name_has_wildcard s = true <-> wild s.
Proof.
  unfold type_name_has_wildcard, wild. rewrite existsb_exists. split.
  - intros (c & H & E). apply Z.eqb_eq in E. now subst.
  - intros H. exists 63. now split.
Qed.
Lemma tame_iff s : type_name_has_wildcard s = false <-> ~ wild s.
Proof. rewrite <- wild_iff. destruct (type_name_has_wildcard s); split; congruence. Qed.

(** ** Replacing. *)
Lemma flat_instance s t : flat_map (fun c => if c =? 63 then t else [c]) s = instance s t.
Proof. induction s as [|c s IH]; cbn [flat_map instance]; [reflexivity|]. rewrite IH. now destruct (c =? 63). Qed.
Lemma instance_tame s t : ~ wild s -> instance s t = s.
Proof.
  unfold wild. induction s as [|c s IH]; cbn [instance In]; intros N; [reflexivity|].
  destruct (Z.eqb_spec c 63); [elim N; now left|]. f_equal. tauto.
Qed.
Lemma instance_app a b t : instance (a ++ b) t = instance a t ++ instance b t.
Proof. induction a as [|c a IH]; cbn [app instance]; [reflexivity|]. rewrite IH. destruct (c =? 63); [apply app_assoc|reflexivity]. Qed.
Lemma substitute_instance s t : substitute_wildcard s t = instance s t.
Proof.
  unfold substitute_wildcard. destruct (type_name_has_wildcard s) eqn:E; [apply flat_instance|].
  apply tame_iff in E. now rewrite instance_tame.
Qed.
Lemma effective_instance t s : Z.of_nat (length (instance s t)) < 128 -> codegen_effective_type_string t s = instance s t.
Proof.
  intros L. unfold codegen_effective_type_string. destruct (type_name_has_wildcard s) eqn:E.
  - rewrite flat_instance. apply firstn_all2. unfold TYPE_NAME_MAX. lia.
  - apply tame_iff in E. now rewrite instance_tame.
Qed.

(** ** Lengths and text around brackets. *)
Lemma group_inv (p : bytes) o c : (2 <= length p)%nat -> hd 0 p = o -> last p 0 = c -> p = o :: removelast (tl p) ++ [c].
Proof.
  destruct p as [|x p]; [cbn [length]; lia|]. cbn [hd tl length]. intros L -> E. f_equal.
  destruct p as [|y p]; [cbn [length] in L; lia|]. rewrite <- E. change (last (o :: y :: p) 0) with (last (y :: p) 0).
  apply app_removelast_last. discriminate.
Qed.
Lemma removelast_snoc (s : bytes) c : removelast (s ++ [c]) = s.
Proof. apply removelast_last. Qed.
Lemma last_snoc (s : bytes) c d : last (s ++ [c]) d = c.
Proof. apply last_last. Qed.

Lemma colon_split s : forall d k r, top_colon s d = Some (k, r) -> s = k ++ 58 :: r.
Proof.
  induction s as [|c s IH]; intros d k r H; cbn [top_colon] in H; [discriminate|].
  assert (R : forall d', option_map (fun p : bytes * bytes => (c :: fst p, snd p)) (top_colon s d') = Some (k, r) -> c :: s = k ++ 58 :: r).
  { intros d' H'. destruct (top_colon s d') as [[k' r']|] eqn:E; [|discriminate]. cbn [option_map fst snd] in H'. injection H' as <- <-.
    apply IH in E. now rewrite E. }
  destruct ((d =? 0) && (c =? 93)); [discriminate|]. destruct (c =? 91); [now apply R in H|]. destruct (c =? 93); [now apply R in H|].
  destruct ((c =? 58) && (d =? 0)) eqn:E; [|now apply R in H]. apply andb_true_iff in E as [E _]. apply Z.eqb_eq in E. injection H as <- <-. now subst.
Qed.
Lemma top_any s : forall d q, top_colon s d = Some q -> any_colon s d = Some q.
Proof.
  induction s as [|c s IH]; intros d q H; cbn [top_colon] in H; [discriminate|]. cbn [any_colon].
  destruct ((d =? 0) && (c =? 93)); [discriminate|].
  destruct (c =? 91); [destruct (top_colon s (d + 1)) as [q'|] eqn:E; [|discriminate]; now rewrite (IH _ _ E)|].
  destruct (c =? 93); [destruct (top_colon s (d - 1)) as [q'|] eqn:E; [|discriminate]; now rewrite (IH _ _ E)|].
  destruct ((c =? 58) && (d =? 0)); [exact H|]. destruct (top_colon s d) as [q'|] eqn:E; [|discriminate]. now rewrite (IH _ _ E).
Qed.
Lemma any_split s : forall d k r, any_colon s d = Some (k, r) -> s = k ++ 58 :: r.
Proof.
  induction s as [|c s IH]; intros d k r H; cbn [any_colon] in H; [discriminate|].
  assert (R : forall d', option_map (fun p : bytes * bytes => (c :: fst p, snd p)) (any_colon s d') = Some (k, r) -> c :: s = k ++ 58 :: r).
  { intros d' H'. destruct (any_colon s d') as [[k' r']|] eqn:E; [|discriminate]. cbn [option_map fst snd] in H'. injection H' as <- <-.
    apply IH in E. now rewrite E. }
  destruct (c =? 91); [now apply R in H|]. destruct (c =? 93); [now apply R in H|].
  destruct ((c =? 58) && (d =? 0)) eqn:E; [|now apply R in H]. apply andb_true_iff in E as [E _]. apply Z.eqb_eq in E. injection H as <- <-. now subst.
Qed.
Lemma any_snoc s x : forall d k r, any_colon (s ++ [x]) d = Some (k, r ++ [x]) -> any_colon s d = Some (k, r).
Proof.
  induction s as [|c s IH]; intros d k r H; cbn [app any_colon] in H.
  - assert (E : [x] = k ++ 58 :: r ++ [x]) by (apply (any_split [x] d); cbn [any_colon]; exact H).
    apply (f_equal (@length Z)) in E. rewrite app_length in E. cbn [length] in E. rewrite app_length in E. cbn [length] in E. lia.
  - assert (R : forall d', option_map (fun p : bytes * bytes => (c :: fst p, snd p)) (any_colon (s ++ [x]) d') = Some (k, r ++ [x]) ->
        option_map (fun p : bytes * bytes => (c :: fst p, snd p)) (any_colon s d') = Some (k, r)).
    { intros d' H'. destruct (any_colon (s ++ [x]) d') as [[k' r']|] eqn:E; [|discriminate]. cbn [option_map fst snd] in H'.
      injection H' as <- ->. rewrite (IH _ _ _ E). reflexivity. }
    cbn [any_colon]. destruct (c =? 91); [now apply R|]. destruct (c =? 93); [now apply R|].
    destruct ((c =? 58) && (d =? 0)); [|now apply R]. injection H as <- H. apply app_inj_tail in H as [-> _]. reflexivity.
Qed.
(** What [parse_map_key_value] returns is the text around a colon. *)
Lemma map_text p k v : parse_map_key_value p = Some (k, v) -> p = bs "map[" ++ k ++ [58] ++ v ++ [93].
Proof.
  unfold parse_map_key_value. destruct (eqs (firstn 4 p) (bs "map[")) eqn:E; cbn [negb]; [|discriminate]. apply eqs_iff in E.
  destruct (top_colon (skipn 4 p) 0) as [[k' r]|] eqn:C; [|discriminate]. destruct (Z.eqb_spec (last p 0) 93) as [L|]; [|discriminate].
  intros H. injection H as <- <-. apply colon_split in C. rewrite <- (firstn_skipn 4 p), E, C. f_equal. f_equal. cbn [app]. f_equal.
  assert (N : r <> []).
  { intros ->. rewrite <- (firstn_skipn 4 p), C, app_assoc, last_snoc in L. discriminate. }
  rewrite (app_removelast_last 0 N) at 1. f_equal. f_equal. rewrite <- L, <- (firstn_skipn 4 p), C.
  rewrite (app_removelast_last 0 N) at 2. change (58 :: removelast r ++ [last r 0]) with ([58] ++ removelast r ++ [last r 0]). rewrite !app_assoc, last_snoc. reflexivity.
Qed.
Lemma map_any p k v : parse_map_key_value p = Some (k, v) -> any_colon (removelast (skipn 4 p)) 0 = Some (k, v).
Proof.
  intros H. pose proof (map_text _ _ _ H) as T. unfold parse_map_key_value in H.
  destruct (eqs (firstn 4 p) (bs "map[")); cbn [negb] in H; [|discriminate].
  destruct (top_colon (skipn 4 p) 0) as [[k' r]|] eqn:C; [|discriminate]. destruct (last p 0 =? 93); [|discriminate]. injection H as -> E.
  pose proof (colon_split _ _ _ _ C) as S. apply top_any in C. rewrite T in S, C |- *. change (skipn 4 (bs "map[" ++ k ++ [58] ++ v ++ [93])) with (k ++ [58] ++ v ++ [93]) in *.
  apply app_inv_head in S. cbn [app] in S. injection S as <-. replace (k ++ [58] ++ v ++ [93]) with ((k ++ [58] ++ v) ++ [93]) in * by (now rewrite <- !app_assoc).
  rewrite removelast_snoc. now apply any_snoc with 93.
Qed.

(** ** Enough fuel. *)
Lemma bind_fuel f : forall p a, (length p < f)%nat -> exists o, bind_string f p a = Ok o.
Proof.
  induction f as [|f IH]; intros p a L; [lia|]. cbn [bind_string].
  destruct (eqs p (bs "?")); [eexists; reflexivity|]. destruct ((hd 0 p =? 91) && (hd 0 a =? 91)).
  - destruct ((length p <? 3)%nat || (length a <? 3)%nat) eqn:S; [eexists; reflexivity|].
    destruct (negb (last p 0 =? 93) || negb (last a 0 =? 93)); [eexists; reflexivity|]. apply IH.
    destruct p as [|x [|y p]]; try (cbn [length] in S; discriminate S). cbn [tl]. rewrite (app_removelast_last 0 (l := y :: p)) in L by discriminate.
    cbn [length] in L. rewrite app_length in L. cbn [length] in L. lia.
  - destruct (eqs (firstn 4 p) (bs "map[") && eqs (firstn 4 a) (bs "map[")); [|eexists; reflexivity].
    destruct (parse_map_key_value p) as [[pk pv]|] eqn:P; [|eexists; reflexivity]. destruct (parse_map_key_value a) as [[ak av]|]; [|eexists; reflexivity].
    apply map_text in P. cbv zeta. apply (f_equal (@length Z)) in P. rewrite !app_length in P. cbn [length bs] in P.
    repeat match goal with |- context [if ?b then Ok None else _] => destruct b; [eexists; reflexivity|] end.
    destruct (type_name_has_wildcard pk); apply IH; lia.
Qed.
Theorem bind_total p a : exists o, bind_wildcard p a = Ok o.
Proof. apply bind_fuel. lia. Qed.
Lemma cbind_fuel f : forall p a, (length p < f)%nat -> exists o, codegen_bind f p a = Ok o.
Proof.
  induction f as [|f IH]; intros p a L; [lia|]. cbn [codegen_bind].
  destruct (negb (type_name_has_wildcard p)); [eexists; reflexivity|]. destruct (eqs p (bs "?")); [eexists; reflexivity|].
  destruct ((3 <=? length p)%nat && (hd 0 p =? 91) && (last p 0 =? 93)) eqn:E1.
  - destruct ((length a <? 3)%nat || negb (hd 0 a =? 91) || negb (last a 0 =? 93)); [eexists; reflexivity|]. apply IH.
    destruct p as [|x [|y p]]; try (cbn [length] in E1; discriminate E1). cbn [tl]. rewrite (app_removelast_last 0 (l := y :: p)) in L by discriminate.
    cbn [length] in L. rewrite app_length in L. cbn [length] in L. lia.
  - destruct ((4 <? length p)%nat && eqs (firstn 4 p) (bs "map[") && (last p 0 =? 93)) eqn:E2; [|eexists; reflexivity].
    destruct ((length a <=? 4)%nat || negb (eqs (firstn 4 a) (bs "map[")) || negb (last a 0 =? 93)); [eexists; reflexivity|].
    destruct (any_colon (removelast (skipn 4 p)) 0) as [[pk pv]|] eqn:P; [|eexists; reflexivity].
    destruct (any_colon (removelast (skipn 4 a)) 0) as [[ak av]|]; [|eexists; reflexivity].
    assert (B : (length pk < f)%nat /\ (length pv < f)%nat).
    { apply any_split in P. pose proof (f_equal (@length Z) P) as Q. rewrite app_length in Q. cbn [length] in Q.
      assert (X : (length (removelast (skipn 4 p)) <= length p)%nat).
      { rewrite removelast_firstn_len, firstn_length, skipn_length. lia. }
      lia. }
    destruct B as [B1 B2].
    destruct (type_name_has_wildcard pk).
    + destruct (IH pk ak B1) as [o ->]. cbn [rbind]. destruct o; [eexists; reflexivity|]. destruct (type_name_has_wildcard pv); [now apply IH|eexists; reflexivity].
    + cbn [rbind]. destruct (type_name_has_wildcard pv); [now apply IH|eexists; reflexivity].
Qed.
Theorem codegen_bind_total p a : exists o, codegen_bind_wildcard p a = Ok o.
Proof. apply cbind_fuel. lia. Qed.

(** ** Both passes agree. *)
Lemma agree f : forall p a t, bind_string f p a = Ok (Some t) -> wild p /\ codegen_bind f p a = Ok (Some t).
Proof.
  induction f as [|f IH]; intros p a t H; [discriminate|]. cbn [bind_string] in H. cbn [codegen_bind].
  destruct (eqs p (bs "?")) eqn:Q.
  { apply eqs_iff in Q. subst p. assert (W : wild (bs "?")) by now left. split; [exact W|].
    apply wild_iff in W. rewrite W. cbn [negb]. destruct (eqs a (bs "unknown")); [discriminate|exact H]. }
  destruct ((hd 0 p =? 91) && (hd 0 a =? 91)) eqn:G.
  - apply andb_true_iff in G as [G1 G2]. destruct ((length p <? 3)%nat || (length a <? 3)%nat) eqn:S; [discriminate|].
    apply orb_false_iff in S as [S1 S2]. destruct (negb (last p 0 =? 93) || negb (last a 0 =? 93)) eqn:Z; [discriminate|].
    apply orb_false_iff in Z as [Z1 Z2]. apply negb_false_iff in Z1, Z2. destruct (IH _ _ _ H) as [W C].
    assert (W' : wild p).
    { assert (A : p = 91 :: removelast (tl p) ++ [93]) by (apply group_inv; lia). rewrite A. right. apply in_or_app. now left. }
    split; [exact W'|]. apply wild_iff in W'. rewrite W'. cbn [negb].
    assert (S1' : (3 <=? length p)%nat = true) by lia. rewrite S1', G1, Z1, S2, G2, Z2. cbn [andb orb negb]. exact C.
  - destruct (eqs (firstn 4 p) (bs "map[")) eqn:M1; [|discriminate]. destruct (eqs (firstn 4 a) (bs "map[")) eqn:M2; [|discriminate]. cbn [andb] in H.
    destruct (parse_map_key_value p) as [[pk pv]|] eqn:P; [|discriminate]. destruct (parse_map_key_value a) as [[ak av]|] eqn:A; [|discriminate].
    cbv zeta in H. pose proof (map_any _ _ _ P) as P'. pose proof (map_any _ _ _ A) as A'. apply map_text in P, A.
    destruct (type_name_has_wildcard pk) eqn:K; destruct (type_name_has_wildcard pv) eqn:V; cbn [negb andb] in H; try discriminate.
    + destruct (negb (eqs ak av)); [discriminate|]. destruct (IH _ _ _ H) as [W C].
      assert (W' : wild p) by (rewrite P; apply in_or_app; right; apply in_or_app; now left).
      split; [exact W'|]. apply wild_iff in W'. rewrite W'. cbn [negb].
      assert (X : (hd 0 p =? 91) = false) by (rewrite P; reflexivity). rewrite X, andb_false_r. cbn [andb].
      assert (LP : (4 <? length p)%nat && (last p 0 =? 93) = true) by (rewrite P, !app_assoc, last_snoc, !app_length; cbn [length bs]; lia).
      assert (LA : (length a <=? 4)%nat || negb (last a 0 =? 93) = false) by (rewrite A, !app_assoc, last_snoc, !app_length; cbn [length bs]; lia).
      apply andb_true_iff in LP as [L1 L2]. apply orb_false_iff in LA as [L3 L4]. rewrite L1, L2, L3, L4. cbn [andb orb negb].
      rewrite P', A', ?K, ?V; cbn [rbind]; rewrite C; reflexivity.
    + destruct (negb (eqs av pv)); [discriminate|]. destruct (IH _ _ _ H) as [W C].
      assert (W' : wild p) by (rewrite P; apply in_or_app; right; apply in_or_app; now left).
      split; [exact W'|]. apply wild_iff in W'. rewrite W'. cbn [negb].
      assert (X : (hd 0 p =? 91) = false) by (rewrite P; reflexivity). rewrite X, andb_false_r. cbn [andb].
      assert (LP : (4 <? length p)%nat && (last p 0 =? 93) = true) by (rewrite P, !app_assoc, last_snoc, !app_length; cbn [length bs]; lia).
      assert (LA : (length a <=? 4)%nat || negb (last a 0 =? 93) = false) by (rewrite A, !app_assoc, last_snoc, !app_length; cbn [length bs]; lia).
      apply andb_true_iff in LP as [L1 L2]. apply orb_false_iff in LA as [L3 L4]. rewrite L1, L2, L3, L4. cbn [andb orb negb].
      rewrite P', A', ?K, ?V; cbn [rbind]; rewrite C; reflexivity.
    + destruct (negb (eqs ak pk)); [discriminate|]. destruct (IH _ _ _ H) as [W C].
      assert (W' : wild p) by (rewrite P; apply in_or_app; right; apply in_or_app; right; apply in_or_app; right; apply in_or_app; now left).
      split; [exact W'|]. apply wild_iff in W'. rewrite W'. cbn [negb].
      assert (X : (hd 0 p =? 91) = false) by (rewrite P; reflexivity). rewrite X, andb_false_r. cbn [andb].
      assert (LP : (4 <? length p)%nat && (last p 0 =? 93) = true) by (rewrite P, !app_assoc, last_snoc, !app_length; cbn [length bs]; lia).
      assert (LA : (length a <=? 4)%nat || negb (last a 0 =? 93) = false) by (rewrite A, !app_assoc, last_snoc, !app_length; cbn [length bs]; lia).
      apply andb_true_iff in LP as [L1 L2]. apply orb_false_iff in LA as [L3 L4]. rewrite L1, L2, L3, L4. cbn [andb orb negb].
      rewrite P', A', ?K, ?V; cbn [rbind]; rewrite C; reflexivity.
Qed.
