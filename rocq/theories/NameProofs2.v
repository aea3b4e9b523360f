(** Proofs about the renaming of types in imported declarations. *)
From Verif Require Import Base BaseFacts LexModel LexProofs EncodingModel TypesModel.
From Verif Require Import NameModel NameSpec NameProofs.

Lemma new_name_renamed names n : new_name names n = renamed names n.
Proof.
  unfold renamed. induction names as [|(o, m) names IH]; [reflexivity|]. cbn [new_name find fst snd]. destruct (list_eq_dec Z.eq_dec o n) as [->|N].
  - rewrite strcmp_refl. reflexivity.
  - destruct (Z.eqb_spec (strcmp n o) 0) as [E|E]; [apply strcmp_eq in E; congruence|exact IH].
Qed.
(** The text of a type without function types. *)
Fixpoint text (t : ty) : bytes :=
  match t with
  | TName n => n
  | TPtr t => 94 :: text t
  | TArr t => [91] ++ text t ++ [93]
  | TFix t size => [91] ++ text t ++ [44] ++ size ++ [93]
  | TMap k v => bs "map[" ++ k ++ [58] ++ text v ++ [93]
  | TFunc _ _ => []
  end.
Lemma text_spec t : func_free t -> type_text t = Some (text t).
Proof.
  induction t; cbn [func_free type_text text]; intros F.
  - reflexivity.
  - now rewrite IHt.
  - now rewrite IHt.
  - destruct F as [F1 F2]. now rewrite IHt.
  - destruct F as [F1 F2]. now rewrite IHt.
  - destruct F.
Qed.
Lemma word_not c x : word_char c -> In x [91; 93; 44; 58; 94] -> c <> x.
Proof. unfold word_char. intros W I E. subst x. cbn [In] in I. lia. Qed.
(** [outside] runs through [s] without stopping. *)
Definition passes (c : Z) (s : bytes) : Prop := forall d r, 0 <= d -> outside c d (s ++ r) = option_map (fun p => (s ++ fst p, snd p)) (outside c d r).
Lemma passes_at c d s : 0 < d -> ~ In 91 s -> ~ In 93 s -> forall r, outside c d (s ++ r) = option_map (fun p => (s ++ fst p, snd p)) (outside c d r).
Proof.
  intros D A B r. induction s as [|x s IH]; cbn [app]; [now destruct (outside c d r) as [[? ?]|]|]. cbn [outside].
  destruct (Z.eqb_spec x 91) as [->|]; [exfalso; apply A; now left|]. destruct (Z.eqb_spec x 93) as [->|]; [exfalso; apply B; now left|].
  replace (d =? 0) with false by lia. rewrite andb_false_r. rewrite IH; [now destruct (outside c d r) as [[? ?]|]|intros H; apply A; now right|intros H; apply B; now right].
Qed.
Lemma passes_word c s : In c [44; 58] -> Forall word_char s -> passes c s.
Proof.
  intros C F d r _. induction F as [|x s W F IH]; cbn [app]; [now destruct (outside c d r) as [[? ?]|]|]. cbn [outside].
  destruct (Z.eqb_spec x 91) as [->|]; [exfalso; apply (word_not _ 91 W); [now left|reflexivity]|].
  destruct (Z.eqb_spec x 93) as [->|]; [exfalso; apply (word_not _ 93 W); [cbn [In]; tauto|reflexivity]|].
  destruct (Z.eqb_spec x c) as [->|]; [exfalso; apply (word_not _ c W); [cbn [In] in *; intuition|reflexivity]|]. cbn [andb].
  rewrite IH. now destruct (outside c d r) as [[? ?]|].
Qed.
Lemma words_no_bracket s : Forall word_char s -> ~ In 91 s /\ ~ In 93 s.
Proof. intros F. rewrite Forall_forall in F. split; intros H; apply F in H; unfold word_char in H; lia. Qed.
Lemma open_pass c d s r : outside c d (91 :: s ++ r) = option_map (fun p => (91 :: fst p, snd p)) (outside c (d + 1) (s ++ r)).
Proof. reflexivity. Qed.
Lemma passes_text c t : In c [44; 58] -> func_free t -> passes c (text t).
Proof.
  intros C. induction t; cbn [func_free text]; intros F.
  - apply passes_word; [exact C|apply F].
  - intros d r D. cbn [app outside]. assert (X : (94 =? c) = false) by (cbn [In] in C; lia). change (94 =? 91) with false. change (94 =? 93) with false. rewrite X. cbn [andb].
    rewrite (IHt F d r D). now destruct (outside c d r) as [[? ?]|].
  - intros d r D. cbn [app outside]. change (91 =? 91) with true. cbv iota. rewrite <- app_assoc. rewrite (IHt F (d + 1) ([93] ++ r) ltac:(lia)). cbn [app outside].
    change (93 =? 91) with false. change (93 =? 93) with true. cbv iota. replace (d + 1 - 1) with d by lia. destruct (outside c d r) as [[? ?]|]; cbn [option_map fst snd]; [|reflexivity]. now rewrite <- app_assoc.
  - destruct F as [F W]. intros d r D. cbn [app outside]. change (91 =? 91) with true. cbv iota. repeat rewrite <- app_assoc. cbn [app]. rewrite (IHt F (d + 1) _ ltac:(lia)).
    cbn [outside]. change (44 =? 91) with false. change (44 =? 93) with false. replace (d + 1 =? 0) with false by lia. rewrite andb_false_r. repeat rewrite <- app_assoc.
    rewrite (passes_at c (d + 1) size ltac:(lia)) by (now apply words_no_bracket). cbn [app outside]. change (93 =? 91) with false. change (93 =? 93) with true. cbv iota. replace (d + 1 - 1) with d by lia.
    destruct (outside c d r) as [[? ?]|]; cbn [option_map fst snd]; [|reflexivity]. repeat (rewrite <- app_assoc; cbn [app]). reflexivity.
  - destruct F as [[_ W] F]. intros d r D. change (bs "map[") with [109; 97; 112; 91]. cbn [app outside]. assert (X : (109 =? c) = false /\ (97 =? c) = false /\ (112 =? c) = false) by (cbn [In] in C; lia).
    destruct X as (X1 & X2 & X3). rewrite X1, X2, X3. cbn [andb]. change (109 =? 91) with false. change (109 =? 93) with false. change (97 =? 91) with false. change (97 =? 93) with false.
    change (112 =? 91) with false. change (112 =? 93) with false. change (91 =? 91) with true. cbv iota. repeat (rewrite <- app_assoc; cbn [app]).
    rewrite (passes_at c (d + 1) k ltac:(lia)) by (now apply words_no_bracket). cbn [outside]. change (58 =? 91) with false. change (58 =? 93) with false. replace (d + 1 =? 0) with false by lia.
    rewrite andb_false_r. rewrite (IHt F (d + 1) _ ltac:(lia)). cbn [app outside]. change (93 =? 91) with false. change (93 =? 93) with true. cbv iota. replace (d + 1 - 1) with d by lia.
    destruct (outside c d r) as [[? ?]|]; cbn [option_map fst snd]; [|reflexivity]. repeat (rewrite <- app_assoc; cbn [app]). reflexivity.
  - destruct F.
Qed.
Lemma passes_end c s : passes c s -> outside c 0 s = None.
Proof. intros P. specialize (P 0 [] ltac:(lia)). rewrite app_nil_r in P. now rewrite P. Qed.
Lemma passes_stop c s r : In c [44; 58] -> passes c s -> outside c 0 (s ++ c :: r) = Some (s, r).
Proof.
  intros C P. rewrite (P 0 (c :: r) ltac:(lia)). cbn [outside]. replace (c =? 91) with false by (cbn [In] in C; lia). replace (c =? 93) with false by (cbn [In] in C; lia).
  rewrite Z.eqb_refl. cbn [andb Z.eqb option_map fst snd]. now rewrite app_nil_r.
Qed.
Lemma text_nonempty t : func_free t -> text t <> [].
Proof. destruct t; cbn [func_free text]; intros F; try discriminate; [now destruct F|destruct F]. Qed.
Lemma strcmp_eqb a b : (strcmp a b =? 0) = true <-> a = b.
Proof. split; [intros H; apply strcmp_eq; lia|intros ->; now rewrite strcmp_refl]. Qed.
Lemma last_93 s : last (s ++ [93]) 0 = 93. Proof. apply last_last. Qed.
Lemma rewrite_spec names : forall t fuel, func_free t -> (length (text t) < fuel)%nat -> (length (text (rename names t)) < 256)%nat ->
  rewrite_type fuel names (text t) = Ok (text (rename names t)).
Proof.
  induction t; intros fuel F L B; (destruct fuel as [|fuel]; [lia|]); cbn [func_free] in F; cbn [rename] in *.
  - destruct F as [N W]. cbn [text rewrite_type] in *. destruct n as [|c n]; [contradiction|].
    assert (W' : begins (bs "map[") (c :: n) = false).
    { destruct (begins (bs "map[") (c :: n)) eqn:E; [|reflexivity]. exfalso. apply begins_iff in E as (r & E). rewrite E in W.
      apply (proj1 (words_no_bracket _ W)). apply in_or_app. left. vm_compute. tauto. }
    apply Forall_cons_iff in W as [W _].
    replace (c =? 91) with false by (unfold word_char in W; lia). replace (c =? 94) with false by (unfold word_char in W; lia). cbn [andb].
    rewrite W'. rewrite andb_false_r. cbn [andb]. now rewrite new_name_renamed.
  - cbn [text] in *. cbn [rewrite_type]. change (94 =? 91) with false. cbn [andb]. change (94 =? 94) with true. cbv iota. cbn [tl length] in *.
    rewrite (IHt fuel F) by lia. cbn [rmap]. destruct (strcmp (text (rename names t)) (text t) =? 0) eqn:E; [apply strcmp_eqb in E; now rewrite E|]. f_equal. apply fit_id. exact B.
  - cbn [text] in *. cbn [app rewrite_type]. change (91 =? 91) with true. change (91 :: text t ++ [93]) with ((91 :: text t) ++ [93]). rewrite last_93. cbn [andb Z.eqb Pos.eqb]. cbv iota.
    cbn [app length] in *. rewrite app_length in *. cbn [length] in *. destruct (Z.ltb_spec (Z.of_nat (S (length (text t) + 1))) 2); [lia|].
    cbn [tl]. rewrite removelast_last. rewrite (passes_end 44) by (apply passes_text; [now left|exact F]). rewrite (IHt fuel F) by lia. cbn [rmap]. f_equal. apply fit_id. cbn [app length]. rewrite app_length. cbn [length]. lia.
  - destruct F as [F W]. cbn [text] in *. assert (E0 : [91] ++ text t ++ [44] ++ size ++ [93] = (91 :: text t ++ 44 :: size) ++ [93]) by (cbn [app]; now rewrite <- app_assoc).
    rewrite E0 in *. cbn [app rewrite_type]. change (91 =? 91) with true. change (91 :: (text t ++ 44 :: size) ++ [93]) with ((91 :: text t ++ 44 :: size) ++ [93]). rewrite last_93. cbn [andb Z.eqb Pos.eqb]. cbv iota.
    assert (Lt : (length ((91%Z :: text t ++ 44%Z :: size) ++ [93%Z]) = length (text t) + length size + 3)%nat) by (rewrite app_length; cbn [length]; rewrite app_length; cbn [length]; lia).
    rewrite Lt in *. destruct (Z.ltb_spec (Z.of_nat (length (text t) + length size + 3)) 2); [lia|]. cbn [app tl]. rewrite removelast_last.
    rewrite (passes_stop 44) by (first [now left|apply passes_text; [now left|exact F]]).
    assert (Lb : (length ([91%Z] ++ text (rename names t) ++ [44%Z] ++ size ++ [93%Z]) = length (text (rename names t)) + length size + 3)%nat) by (repeat (rewrite app_length; cbn [length]); lia).
    rewrite (IHt fuel F) by lia. cbn [rmap]. f_equal. apply fit_id. exact B.
  - destruct F as [[Nk W] F]. cbn [text] in *. assert (E0 : forall a b, bs "map[" ++ a ++ [58] ++ b ++ [93] = (bs "map[" ++ a ++ 58 :: b) ++ [93]) by (intros; cbn [app]; now rewrite <- !app_assoc).
    assert (Lt : forall a b, (length (bs "map[" ++ a ++ [58%Z] ++ b ++ [93%Z]) = length a + length b + 6)%nat) by (intros; repeat (rewrite app_length; cbn [length]); change (length (bs "map[")) with 4%nat; lia).
    rewrite Lt in *. cbn [rewrite_type]. remember (bs "map[" ++ k ++ [58] ++ text t ++ [93]) as whole eqn:Ew.
    assert (Hw : exists r, whole = 109 :: r) by (rewrite Ew; now eexists). destruct Hw as (r & Hr). rewrite Hr at 1. change (109 =? 91) with false. change (109 =? 94) with false. cbn [andb]. cbv iota.
    replace (5 <? Z.of_nat (length whole)) with true by (rewrite Ew, Lt; destruct k; [contradiction|cbn [length]; lia]).
    rewrite (proj2 (begins_iff (bs "map[") whole)) by (rewrite Ew; now eexists). rewrite Ew at 1. rewrite E0, last_93. cbn [andb Z.eqb Pos.eqb]. cbv iota.
    assert (Sk : removelast (skipn 4 whole) = k ++ 58 :: text t).
    { rewrite Ew. change (skipn 4 (bs "map[" ++ k ++ [58] ++ text t ++ [93])) with (k ++ [58] ++ text t ++ [93]). cbn [app]. replace (k ++ 58 :: text t ++ [93]) with ((k ++ 58 :: text t) ++ [93]) by (now rewrite <- app_assoc). apply removelast_last. }
    rewrite Sk. rewrite (passes_stop 58) by (first [now right; left|apply passes_word; [now right; left|exact W]]).
    assert (K : rewrite_type fuel names k = Ok (renamed names k)).
    { destruct fuel as [|fuel]; [lia|]. destruct k as [|c k]; [contradiction|]. cbn [rewrite_type].
      assert (W' : begins (bs "map[") (c :: k) = false).
      { destruct (begins (bs "map[") (c :: k)) eqn:E; [|reflexivity]. exfalso. apply begins_iff in E as (r' & E). rewrite E in W. apply (proj1 (words_no_bracket _ W)). apply in_or_app. left. vm_compute. tauto. }
      apply Forall_cons_iff in W as [Wc _]. replace (c =? 91) with false by (unfold word_char in Wc; lia). replace (c =? 94) with false by (unfold word_char in Wc; lia). cbn [andb]. rewrite W', andb_false_r. cbn [andb]. now rewrite new_name_renamed. }
    rewrite K. cbn [rbind]. rewrite (IHt fuel F) by lia. cbn [rmap]. f_equal.
    destruct ((strcmp (renamed names k) k =? 0) && (strcmp (text (rename names t)) (text t) =? 0)) eqn:E.
    + apply andb_true_iff in E as [E1 E2]. apply strcmp_eqb in E1, E2. now rewrite Ew, E1, E2.
    + apply fit_id. rewrite Lt. exact B.
  - destruct F.
Qed.
Lemma rename_free names t : func_free t -> (forall n, ordinary n -> ordinary (renamed names n)) -> func_free (rename names t).
Proof.
  intros F O. induction t; cbn [func_free rename] in *.
  - now apply O.
  - now apply IHt.
  - now apply IHt.
  - destruct F as [F1 F2]. split; auto.
  - destruct F as [F1 F2]. split; auto.
  - destruct F.
Qed.
