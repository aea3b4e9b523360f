(** Proofs about what the wildcard is bound to. *)
From Verif Require Import Base BaseFacts LexModel LexProofs NameModel TypesModel TypesSpec TypesProofs TypesProofs2 GenericModel GenericSpec GenericProofs.

Lemma word_top k r : Forall (fun c => c <> 91 /\ c <> 93 /\ c <> 58) k -> top_colon (k ++ 58 :: r) 0 = Some (k, r).
Proof.
  induction 1 as [|c k (N1 & N2 & N3) F IH]; [reflexivity|]. cbn [app top_colon]. change (0 =? 0) with true.
  destruct (Z.eqb_spec c 93); [lia|]. destruct (Z.eqb_spec c 91); [lia|]. destruct (Z.eqb_spec c 58); [lia|]. cbn [andb]. rewrite IH. reflexivity.
Qed.
Lemma word_clean k : Forall word_char k -> Forall (fun c => c <> 91 /\ c <> 93 /\ c <> 58) k.
Proof. intros F. eapply Forall_impl; [|exact F]. unfold word_char. intros c H. cbn beta. lia. Qed.
Lemma parse_map k v : Forall (fun c => c <> 91 /\ c <> 93 /\ c <> 58) k -> parse_map_key_value (bs "map[" ++ k ++ [58] ++ v ++ [93]) = Some (k, v).
Proof.
  intros W. unfold parse_map_key_value. change (firstn 4 (bs "map[" ++ k ++ [58] ++ v ++ [93])) with (bs "map["). rewrite eqs_refl. cbn [negb].
  change (skipn 4 (bs "map[" ++ k ++ [58] ++ v ++ [93])) with (k ++ 58 :: v ++ [93]). rewrite word_top by exact W.
  rewrite !app_assoc, last_snoc. change (93 =? 93) with true. cbv iota. now rewrite removelast_snoc.
Qed.
Lemma not_map s : hd 0 s <> 109 -> eqs (firstn 4 s) (bs "map[") = false.
Proof. intros N. apply eqs_no. intros E. apply N. destruct s as [|c s]; [discriminate|]. cbn [firstn] in E. now injection E. Qed.
Lemma word_not_map n : Forall word_char n -> eqs (firstn 4 n) (bs "map[") = false.
Proof.
  intros F. apply eqs_no. intros E. assert (I : In 91 n).
  { rewrite <- (firstn_skipn 4 n), E. apply in_or_app. left. cbn. tauto. }
  rewrite Forall_forall in F. apply F in I. unfold word_char in I. lia.
Qed.
Lemma hd_word n : Forall word_char n -> (hd 0 n =? 91) = false.
Proof. destruct 1 as [|c n W F]; [reflexivity|]. cbn [hd]. unfold word_char in W. lia. Qed.
Lemma inst_group o s c t : o <> 63 -> c <> 63 -> instance (o :: s ++ [c]) t = o :: instance s t ++ [c].
Proof.
  intros N1 N2. cbn [instance]. destruct (Z.eqb_spec o 63); [lia|]. rewrite instance_app. cbn [instance]. destruct (Z.eqb_spec c 63); [lia|reflexivity].
Qed.
Lemma inst_map k v t : instance (bs "map[" ++ k ++ [58] ++ v ++ [93]) t = bs "map[" ++ instance k t ++ [58] ++ instance v t ++ [93].
Proof. rewrite !instance_app. reflexivity. Qed.
(** One step of [bind_string] on an array pattern and on a map pattern. *)
Lemma bind_array f p a t : bind_string (S f) ([91] ++ p ++ [93]) a = Ok (Some t) ->
  exists a', a = [91] ++ a' ++ [93] /\ bind_string f p a' = Ok (Some t).
Proof.
  cbn [bind_string]. intros H. rewrite eqs_no in H by (cbn [app]; intros E; discriminate E). cbn [app hd] in H. change (91 =? 91) with true in H. cbn [andb] in H.
  assert (M : eqs (firstn 4 (91 :: p ++ [93])) (bs "map[") = false) by (apply not_map; discriminate). rewrite M in H. cbn [andb] in H.
  destruct (Z.eqb_spec (hd 0 a) 91) as [Ha|]; [|discriminate].
  match type of H with (if ?b then _ else _) = _ => destruct b eqn:S; [discriminate|] end. apply orb_false_iff in S as [_ S].
  match type of H with (if ?b then _ else _) = _ => destruct b eqn:Z; [discriminate|] end. apply orb_false_iff in Z as [_ Z]. apply negb_false_iff, Z.eqb_eq in Z.
  cbn [tl] in H. rewrite removelast_snoc in H. exists (removelast (tl a)). split; [|exact H]. cbn [app]. apply group_inv; [lia|exact Ha|exact Z].
Qed.
Lemma bind_map f k v a t : Forall (fun c => c <> 91 /\ c <> 93 /\ c <> 58) k -> bind_string (S f) (bs "map[" ++ k ++ [58] ++ v ++ [93]) a = Ok (Some t) ->
  exists ak av, a = bs "map[" ++ ak ++ [58] ++ av ++ [93] /\
    (~ wild k -> ak = k) /\ (~ wild v -> av = v) /\ (wild k -> wild v -> ak = av) /\
    (wild k -> bind_string f k ak = Ok (Some t)) /\ (~ wild k -> bind_string f v av = Ok (Some t)).
Proof.
  intros W H. cbn [bind_string] in H. rewrite eqs_no in H by (intros E; discriminate E). change (hd 0 (bs "map[" ++ k ++ [58] ++ v ++ [93]) =? 91) with false in H. cbn [andb] in H.
  change (firstn 4 (bs "map[" ++ k ++ [58] ++ v ++ [93])) with (bs "map[") in H. rewrite eqs_refl in H. cbn [andb] in H.
  destruct (eqs (firstn 4 a) (bs "map[")); [|discriminate]. rewrite parse_map in H by exact W.
  destruct (parse_map_key_value a) as [[ak av]|] eqn:A; [|discriminate]. apply map_text in A. cbv zeta in H. exists ak, av. split; [exact A|].
  destruct (type_name_has_wildcard k) eqn:K; destruct (type_name_has_wildcard v) eqn:V; cbn [negb andb] in H; try discriminate.
  - destruct (eqs ak av) eqn:E; cbn [negb] in H; [|discriminate]. apply eqs_iff in E. apply wild_iff in K, V. repeat split; tauto.
  - destruct (eqs av v) eqn:E; cbn [negb] in H; [|discriminate]. apply eqs_iff in E. apply wild_iff in K. apply tame_iff in V. repeat split; tauto.
  - destruct (eqs ak k) eqn:E; cbn [negb] in H; [|discriminate]. apply eqs_iff in E. apply tame_iff in K. apply wild_iff in V. repeat split; tauto.
Qed.
Lemma bind_sound : forall p, wf p -> even p -> forall f a t, bind_string f (show p) a = Ok (Some t) -> a = instance (show p) t.
Proof.
  induction p as [n|p IH|p IH|p IH z|k v IH|ps r]; intros W V f a t H; destruct f as [|f]; try discriminate H.
  - inversion W as [? [N F]| | | | |]; subst. cbn [show] in *. cbn [bind_string] in H. destruct (eqs n (bs "?")) eqn:Q.
    + apply eqs_iff in Q. subst n. destruct (eqs a (bs "unknown")); [discriminate|]. injection H as ->.
      change (instance (bs "?") t) with (t ++ []). now rewrite app_nil_r.
    + rewrite hd_word in H by exact F. cbn [andb] in H. rewrite word_not_map in H by exact F. discriminate.
  - inversion W; subst. cbn [show] in *. apply bind_array in H as (a' & -> & H). cbn [even] in V. apply IH in H; [|assumption..]. subst a'.
    cbn [app]. rewrite inst_group by lia. reflexivity.
  - inversion W as [| | |? ? Wp [Nz Fz]| |]; subst. cbn [show] in H. exfalso.
    replace ([91] ++ show p ++ [44] ++ z ++ [93]) with ([91] ++ (show p ++ [44] ++ z) ++ [93]) in H by (now rewrite <- !app_assoc).
    apply bind_array in H as (a' & _ & H). destruct f as [|f]; [discriminate|]. cbn [bind_string] in H.
    assert (L : (last (show p ++ [44] ++ z) 0 =? 93) = false).
    { rewrite (app_removelast_last 0 Nz), !app_assoc, last_snoc. rewrite Forall_forall in Fz.
      assert (I : In (last z 0) z) by (rewrite (app_removelast_last 0 Nz) at 2; apply in_or_app; right; now left).
      apply Fz in I. unfold word_char in I. lia. }
    rewrite eqs_no in H.
    2:{ intros E. apply (f_equal (@length Z)) in E. rewrite !app_length in E. cbn [length bs] in E.
        assert (X : z <> []) by exact Nz. destruct z; [now elim X|]. cbn [length] in E. lia. }
    rewrite L in H. cbn [negb orb] in H.
    destruct ((hd 0 (show p ++ [44] ++ z) =? 91) && (hd 0 a' =? 91)).
    + match type of H with (if ?b then _ else _) = _ => destruct b; discriminate end.
    + destruct (eqs (firstn 4 (show p ++ [44] ++ z)) (bs "map[") && eqs (firstn 4 a') (bs "map[")) eqn:M; [|discriminate].
      unfold parse_map_key_value in H at 1. rewrite L in H. destruct (negb (eqs (firstn 4 (show p ++ [44] ++ z)) (bs "map["))); [discriminate|].
      destruct (top_colon (skipn 4 (show p ++ [44] ++ z)) 0) as [[? ?]|]; discriminate.
  - inversion W as [| | | |? ? [Nk Fk] Wv|]; subst. cbn [show] in *. cbn [even] in V. destruct V as [V1 V2].
    apply bind_map in H as (ak & av & -> & H1 & H2 & H3 & H4 & H5); [|now apply word_clean].
    rewrite inst_map. pose proof (wild_iff k) as Tk. pose proof (tame_iff k) as Tk'.
    destruct (type_name_has_wildcard k).
    + assert (Wk : wild k) by now apply Tk. specialize (H4 Wk). destruct f as [|f]; [discriminate|].
      assert (K : ak = instance k t).
      { cbn [bind_string] in H4. destruct (eqs k (bs "?")) eqn:Q.
        - apply eqs_iff in Q. subst k. destruct (eqs ak (bs "unknown")); [discriminate|]. injection H4 as ->. change (instance (bs "?") t) with (t ++ []). now rewrite app_nil_r.
        - rewrite hd_word in H4 by exact Fk. cbn [andb] in H4. rewrite word_not_map in H4 by exact Fk. discriminate. }
      rewrite <- K. f_equal. f_equal. f_equal. f_equal.
      pose proof (wild_iff (show v)) as Tv. pose proof (tame_iff (show v)) as Tv'. destruct (type_name_has_wildcard (show v)).
      * assert (Wv' : wild (show v)) by now apply Tv. rewrite (V1 Wk Wv'), <- K. symmetry. now apply H3.
      * assert (Wv' : ~ wild (show v)) by now apply Tv'. rewrite instance_tame by exact Wv'. now apply H2.
    + assert (Wk : ~ wild k) by now apply Tk'. rewrite (H1 Wk), (instance_tame k) by exact Wk. f_equal. f_equal. f_equal. f_equal. now apply IH in H5.
Qed.

(** ** Every binding is found. *)
Lemma show_readable_wild p : readable p -> wild (show p).
Proof.
  induction 1 as [|p R IH|k p Wk Nk R IH|v Wv Nv|]; cbn [show]; unfold wild in *.
  - now left.
  - apply in_or_app. right. apply in_or_app. now left.
  - apply in_or_app. right. apply in_or_app. right. apply in_or_app. right. apply in_or_app. now left.
  - apply in_or_app. right. apply in_or_app. left. now left.
  - apply in_or_app. right. apply in_or_app. left. now left.
Qed.
Lemma inst_hole t : instance (bs "?") t = t.
Proof. change (instance (bs "?") t) with (t ++ []). apply app_nil_r. Qed.
Lemma bind_hole f t : t <> bs "unknown" -> bind_string (S f) (bs "?") t = Ok (Some t).
Proof. intros N. cbn [bind_string]. rewrite eqs_refl, eqs_no by exact N. reflexivity. Qed.
Lemma bind_map_eq f k v ak av : Forall (fun c => c <> 91 /\ c <> 93 /\ c <> 58) k -> Forall (fun c => c <> 91 /\ c <> 93 /\ c <> 58) ak ->
  (wild k \/ wild v) -> (~ wild k -> ak = k) -> (~ wild v -> av = v) -> (wild k -> wild v -> ak = av) ->
  bind_string (S f) (bs "map[" ++ k ++ [58] ++ v ++ [93]) (bs "map[" ++ ak ++ [58] ++ av ++ [93])
  = if type_name_has_wildcard k then bind_string f k ak else bind_string f v av.
Proof.
  intros Fk Fa Or H1 H2 H3. cbn [bind_string]. rewrite eqs_no by (intros E; discriminate E).
  change (hd 0 (bs "map[" ++ k ++ [58] ++ v ++ [93]) =? 91) with false. cbn [andb].
  change (firstn 4 (bs "map[" ++ k ++ [58] ++ v ++ [93])) with (bs "map["). change (firstn 4 (bs "map[" ++ ak ++ [58] ++ av ++ [93])) with (bs "map[").
  rewrite eqs_refl. cbn [andb]. rewrite !parse_map by assumption. cbv zeta.
  pose proof (wild_iff k) as Tk. pose proof (tame_iff k) as Tk'. pose proof (wild_iff v) as Tv. pose proof (tame_iff v) as Tv'.
  destruct (type_name_has_wildcard k); destruct (type_name_has_wildcard v); cbn [negb andb].
  - rewrite H3 by tauto. rewrite eqs_refl. reflexivity.
  - rewrite H2 by tauto. rewrite eqs_refl. reflexivity.
  - rewrite H1 by tauto. rewrite eqs_refl. reflexivity.
  - tauto.
Qed.
Lemma bind_complete p t : readable p -> wf t -> show t <> bs "unknown" -> (keyed p -> exists n, t = TName n) ->
  forall f, (length (show p) < f)%nat -> bind_string f (show p) (instance (show p) (show t)) = Ok (Some (show t)).
Proof.
  intros R W N. induction R as [|p R IH|k p [Nk Fk] Wk R IH|v Wv Nv|]; intros K f L; destruct f as [|f]; try lia.
  - cbn [show]. rewrite inst_hole. now apply bind_hole.
  - cbn [show] in *. change ([91] ++ show p ++ [93]) with (91 :: show p ++ [93]) in *. rewrite inst_group by lia. cbn [length] in L. rewrite app_length in L. cbn [length] in L.
    cbn [keyed] in K. rewrite <- (IH K f) at 1 by lia. cbn [bind_string]. rewrite eqs_no by (intros E; discriminate E).
    cbn [hd]. change (91 =? 91) with true. cbn [andb].
    assert (NE : instance (show p) (show t) <> []).
    { intros E. assert (X : wild (show p)) by now apply show_readable_wild. apply in_split in X as (l1 & l2 & X). rewrite X, instance_app in E.
      apply app_eq_nil in E as [_ E]. cbn [instance] in E. change (63 =? 63) with true in E. cbv iota in E. apply app_eq_nil in E as [E _].
      now apply show_nonempty in W. }
    assert (NP : show p <> []) by (intros E; rewrite E in NE; now apply NE).
    assert (L1 : Nat.ltb (length (91 :: show p ++ [93])) 3 = false) by (cbn [length]; rewrite app_length; cbn [length]; destruct (show p); [now elim NP|]; cbn [length]; lia).
    assert (L2 : Nat.ltb (length (91 :: instance (show p) (show t) ++ [93])) 3 = false)
      by (cbn [length]; rewrite app_length; cbn [length]; destruct (instance (show p) (show t)); [now elim NE|]; cbn [length]; lia).
    rewrite L1, L2. cbn [orb]. change (91 :: show p ++ [93]) with ((91 :: show p) ++ [93]). 
    change (91 :: instance (show p) (show t) ++ [93]) with ((91 :: instance (show p) (show t)) ++ [93]). rewrite !last_snoc. change (93 =? 93) with true. cbn [negb orb].
    cbn [app tl]. now rewrite !removelast_snoc.
  - cbn [show] in *. rewrite inst_map, (instance_tame k) by exact Wk. assert (Fk' := word_clean _ Fk). rewrite bind_map_eq; try assumption; try tauto.
    + assert (T : type_name_has_wildcard k = false) by now apply tame_iff. rewrite T. apply IH; [cbn [keyed] in K; tauto|].
      rewrite !app_length in L. cbn [length] in L. lia.
    + right. now apply show_readable_wild.
    + intros Q. now apply instance_tame.
  - cbn [show] in *. destruct K as [n ->]; [left; now left|]. inversion W as [? [Nn Fn]| | | | |]; subst. cbn [show] in *.
    rewrite inst_map, inst_hole, (instance_tame (show v)) by exact Nv. rewrite bind_map_eq; try tauto.
    + change (type_name_has_wildcard (bs "?")) with true. cbv iota. destruct f as [|f]; [rewrite !app_length in L; cbn [length bs] in L; lia|]. now apply bind_hole.
    + repeat constructor; discriminate.
    + now apply word_clean.
    + left. now left.
    + intros Q. elim Q. now left.
  - cbn [show] in *. destruct K as [n ->]; [left; now left|]. inversion W as [? [Nn Fn]| | | | |]; subst. cbn [show] in *.
    rewrite inst_map, inst_hole. rewrite bind_map_eq; try tauto.
    + change (type_name_has_wildcard (bs "?")) with true. cbv iota. destruct f as [|f]; [rewrite !app_length in L; cbn [length bs] in L; lia|]. now apply bind_hole.
    + repeat constructor; discriminate.
    + now apply word_clean.
    + left. now left.
    + intros Q. elim Q. now left.
    + intros Q. elim Q. now left.
Qed.
