(** Proofs for reading function signatures back, and for types with equal text. *)
From Verif Require Import Base BaseFacts LexModel LexProofs TypesModel TypesSpec TypesProofs.

(** Text that leaves the parenthesis count as it was. *)
Definition pskip (s : bytes) : Prop := forall d i r, 1 <= d -> matching (s ++ r) d i = matching r d (i + length s).
Definition closed (s : bytes) : Prop := forall d seg r, 0 <= d -> split_loop (s ++ r) d seg = split_loop r d (rev s ++ seg).
Definition inner (s : bytes) : Prop := forall d seg r, 1 <= d -> split_loop (s ++ r) d seg = split_loop r d (rev s ++ seg).
Lemma pskip_nil : pskip [].
Proof. intros d i r _. cbn [app length]. now rewrite Nat.add_0_r. Qed.
Lemma pskip_app a b : pskip a -> pskip b -> pskip (a ++ b).
Proof. intros A B d i r H. rewrite <- app_assoc, A, B by exact H. f_equal. rewrite app_length. lia. Qed.
Lemma pskip_plain s : Forall (fun c => c <> 40 /\ c <> 41) s -> pskip s.
Proof.
  induction 1 as [|c s [N1 N2] F IH]; [apply pskip_nil|]. intros d i r H. cbn [app matching length].
  destruct (Z.eqb_spec c 40); [lia|]. destruct (Z.eqb_spec c 41); [lia|]. rewrite IH by exact H. f_equal. lia.
Qed.
Lemma pskip_parens s : pskip s -> pskip ([40] ++ s ++ [41]).
Proof.
  intros A d i r H. cbn [app matching]. change (40 =? 40) with true. cbv iota. rewrite <- app_assoc, A by lia. cbn [app matching].
  change (41 =? 40) with false. change (41 =? 41) with true. cbv iota. destruct (Z.eqb_spec (d + 1 - 1) 0); [lia|].
  f_equal; [lia|]. cbn [length]. rewrite app_length. cbn [length]. lia.
Qed.
Lemma closed_inner s : closed s -> inner s.
Proof. intros C d seg r H. apply C. lia. Qed.
Lemma closed_nil : closed [].
Proof. intros d seg r _. reflexivity. Qed.
Lemma closed_app a b : closed a -> closed b -> closed (a ++ b).
Proof. intros A B d seg r H. rewrite <- app_assoc, A, B by exact H. now rewrite rev_app_distr, <- app_assoc. Qed.
Lemma inner_app a b : inner a -> inner b -> inner (a ++ b).
Proof. intros A B d seg r H. rewrite <- app_assoc, A, B by exact H. now rewrite rev_app_distr, <- app_assoc. Qed.
Definition plainc (c : Z) : Prop := c <> 40 /\ c <> 41 /\ c <> 91 /\ c <> 93 /\ c <> 44.
Lemma closed_plain s : Forall plainc s -> closed s.
Proof.
  induction 1 as [|c s (N1 & N2 & N3 & N4 & N5) F IH]; [apply closed_nil|]. intros d seg r H. cbn [app split_loop]. cbv zeta.
  destruct (Z.eqb_spec c 40); [lia|]. destruct (Z.eqb_spec c 91); [lia|]. destruct (Z.eqb_spec c 41); [lia|]. destruct (Z.eqb_spec c 93); [lia|].
  destruct (Z.eqb_spec c 44); [lia|]. cbn [orb]. rewrite andb_false_r, IH by exact H. cbn [rev]. now rewrite <- app_assoc.
Qed.
Lemma inner_comma : inner [44].
Proof.
  intros d seg r H. cbn [app split_loop]. cbv zeta. change (44 =? 40) with false. change (44 =? 91) with false. change (44 =? 41) with false.
  change (44 =? 93) with false. cbn [orb]. destruct (Z.eqb_spec d 0); [lia|]. reflexivity.
Qed.
Lemma closed_group o c s : (o = 40 /\ c = 41) \/ (o = 91 /\ c = 93) -> inner s -> closed ([o] ++ s ++ [c]).
Proof.
  intros K A d seg r H. cbn [app split_loop]. cbv zeta.
  assert (Eo : (o =? 40) || (o =? 91) = true) by (destruct K as [[-> _]|[-> _]]; reflexivity).
  assert (Eo' : (o =? 44) = false) by (destruct K as [[-> _]|[-> _]]; reflexivity).
  assert (Ec : (c =? 40) || (c =? 91) = false) by (destruct K as [[_ ->]|[_ ->]]; reflexivity).
  assert (Ec' : (c =? 41) || (c =? 93) = true) by (destruct K as [[_ ->]|[_ ->]]; reflexivity).
  assert (Ec2 : (c =? 44) = false) by (destruct K as [[_ ->]|[_ ->]]; reflexivity).
  rewrite Eo, Eo', andb_false_r, <- app_assoc, A by lia. cbn [app split_loop]. cbv zeta. rewrite Ec, Ec', Ec2, andb_false_r.
  replace (d + 1 - 1) with d by lia. f_equal. cbn [rev]. rewrite rev_app_distr. cbn [rev app]. now rewrite <- app_assoc.
Qed.
Lemma word_plain n : word n -> Forall plainc n.
Proof. intros [_ F]. eapply Forall_impl; [|exact F]. intros c K. unfold word_char, plainc in *. lia. Qed.
Lemma commas_closed l : Forall closed l -> inner (commas l).
Proof.
  induction 1 as [|a l A F IH]; [apply closed_inner, closed_nil|]. destruct l as [|b l]; [now apply closed_inner|].
  change (commas (a :: b :: l)) with (a ++ [44] ++ commas (b :: l)). apply inner_app; [now apply closed_inner|]. apply inner_app; [apply inner_comma|exact IH].
Qed.
Lemma commas_pskip l : Forall pskip l -> pskip (commas l).
Proof.
  induction 1 as [|a l A F IH]; [apply pskip_nil|]. destruct l as [|b l]; [exact A|].
  change (commas (a :: b :: l)) with (a ++ [44] ++ commas (b :: l)). apply pskip_app; [exact A|]. apply pskip_app; [|exact IH].
  apply pskip_plain. constructor; [lia|constructor].
Qed.
Lemma plain_pskip s : Forall plainc s -> pskip s.
Proof. intros F. apply pskip_plain. eapply Forall_impl; [|exact F]. unfold plainc. intros c K. lia. Qed.
Ltac plain_lit := repeat (apply Forall_cons; [unfold plainc; vm_compute; intuition discriminate|]); apply Forall_nil.

Lemma show_balanced : forall t, wf t -> closed (show t) /\ pskip (show t).
Proof.
  apply (ty_ind2 (fun t => wf t -> closed (show t) /\ pskip (show t)) (fun r => wf_ret r -> closed (show_ret r) /\ pskip (show_ret r))).
  - intros n W. inversion W as [? K| | | | |]; subst. apply word_plain in K. cbn [show]. split; [now apply closed_plain|now apply plain_pskip].
  - intros t IH W. inversion W; subst. destruct IH as [C K]; [assumption|]. cbn [show].
    split; [apply closed_app; [apply closed_plain; plain_lit|exact C]|apply pskip_app; [apply plain_pskip; plain_lit|exact K]].
  - intros t IH W. inversion W; subst. destruct IH as [C K]; [assumption|]. cbn [show].
    split; [apply closed_group; [now right|now apply closed_inner]|].
    apply pskip_app; [apply pskip_plain; constructor; [lia|constructor]|]. apply pskip_app; [exact K|apply pskip_plain; constructor; [lia|constructor]].
  - intros t z IH W. inversion W as [| | |? ? Wt Wz| |]; subst. destruct IH as [C K]; [assumption|]. apply word_plain in Wz. cbn [show]. split.
    + replace ([91] ++ show t ++ [44] ++ z ++ [93]) with ([91] ++ (show t ++ [44] ++ z) ++ [93]) by (now rewrite <- !app_assoc).
      apply closed_group; [now right|]. apply inner_app; [now apply closed_inner|]. apply inner_app; [apply inner_comma|]. now apply closed_inner, closed_plain.
    + apply pskip_app; [apply pskip_plain; constructor; [lia|constructor]|]. apply pskip_app; [exact K|].
      apply pskip_app; [apply pskip_plain; constructor; [lia|constructor]|]. apply pskip_app; [now apply plain_pskip|apply pskip_plain; constructor; [lia|constructor]].
  - intros k v IH W. inversion W as [| | | |? ? Wk Wv|]; subst. destruct IH as [C K]; [assumption|]. apply word_plain in Wk. cbn [show]. split.
    + replace (bs "map[" ++ k ++ [58] ++ show v ++ [93]) with (bs "map" ++ [91] ++ (k ++ [58] ++ show v) ++ [93]) by (now rewrite <- !app_assoc).
      apply closed_app; [apply closed_plain; plain_lit|]. apply closed_group; [now right|]. apply closed_inner.
      apply closed_app; [now apply closed_plain|]. apply closed_app; [apply closed_plain; plain_lit|exact C].
    + apply pskip_app; [apply pskip_plain; repeat (apply Forall_cons; [vm_compute; intuition discriminate|]); apply Forall_nil|].
      apply pskip_app; [now apply plain_pskip|]. apply pskip_app; [apply plain_pskip; plain_lit|]. apply pskip_app; [exact K|apply pskip_plain; constructor; [lia|constructor]].
  - intros ps r IHp IHr W. apply wf_func in W as [Wp Wr]. destruct (IHr Wr) as [Cr Kr]. cbn [show].
    change (map (fun p : bool * ty => (if fst p then [38] else []) ++ show (snd p)) ps) with (map param_text ps).
    assert (B : Forall (fun x => closed x /\ pskip x) (map param_text ps)).
    { apply Forall_map. rewrite Forall_forall in *. intros p Hp. destruct (IHp p Hp (Wp p Hp)) as [C K]. unfold param_text.
      split; [apply closed_app; [|exact C]|apply pskip_app; [|exact K]]; destruct (fst p); try apply closed_nil; try apply pskip_nil;
        [apply closed_plain; plain_lit|apply plain_pskip; plain_lit]. }
    replace (bs "func(" ++ commas (map param_text ps) ++ [41] ++ show_ret r) with (bs "func" ++ ([40] ++ commas (map param_text ps) ++ [41]) ++ show_ret r)
      by (now rewrite <- !app_assoc).
    split.
    + apply closed_app; [apply closed_plain; plain_lit|]. apply closed_app; [|exact Cr]. apply closed_group; [now left|]. apply commas_closed.
      eapply Forall_impl; [|exact B]. intros ? [? ?]; assumption.
    + apply pskip_app; [apply plain_pskip; plain_lit|]. apply pskip_app; [|exact Kr]. apply pskip_parens, commas_pskip.
      eapply Forall_impl; [|exact B]. intros ? [? ?]; assumption.
  - intros _. split; [apply closed_nil|apply pskip_nil].
  - intros t IH W. inversion W; subst. destruct IH as [C K]; [assumption|]. cbn [show_ret].
    split; [apply closed_app; [apply closed_plain; plain_lit|exact C]|apply pskip_app; [apply plain_pskip; plain_lit|exact K]].
  - intros ts IH W. inversion W as [| |? N Ws]; subst. cbn [show_ret].
    assert (B : Forall (fun x => closed x /\ pskip x) (map show ts)).
    { apply Forall_map. rewrite Forall_forall in *. intros t Ht. exact (IH t Ht (Ws t Ht)). }
    replace (bs "->(" ++ commas (map show ts) ++ [41]) with (bs "->" ++ ([40] ++ commas (map show ts) ++ [41])) by reflexivity. split.
    + apply closed_app; [apply closed_plain; plain_lit|]. apply closed_group; [now left|]. apply commas_closed. eapply Forall_impl; [|exact B]. intros ? [? ?]; assumption.
    + apply pskip_app; [apply plain_pskip; plain_lit|]. apply pskip_parens, commas_pskip. eapply Forall_impl; [|exact B]. intros ? [? ?]; assumption.
Qed.
Lemma param_closed p : wf (snd p) -> closed (param_text p) /\ pskip (param_text p).
Proof.
  intros W. destruct (show_balanced _ W) as [C K]. unfold param_text. split; [apply closed_app; [|exact C]|apply pskip_app; [|exact K]];
    destruct (fst p); try apply closed_nil; try apply pskip_nil; [apply closed_plain; plain_lit|apply plain_pskip; plain_lit].
Qed.
(** Splitting at the top-level commas gives the pieces back. *)
Lemma split_commas l : l <> [] -> Forall closed l -> split_loop (commas l) 0 [] = l.
Proof.
  intros N F. destruct l as [|a l]; [now elim N|]. clear N. revert a F. induction l as [|b l IH]; intros a F; apply Forall_cons_iff in F as [A F].
  - cbn [commas]. rewrite <- (app_nil_r a) at 1. rewrite A by lia. cbn [split_loop]. change (0 =? 0) with true. cbv iota. rewrite app_nil_r, rev_involutive. reflexivity.
  - change (commas (a :: b :: l)) with (a ++ [44] ++ commas (b :: l)). rewrite A by lia. rewrite app_nil_r. cbn [app]. cbn [split_loop]. cbv zeta.
    change (44 =? 40) with false. change (44 =? 91) with false. change (44 =? 41) with false. change (44 =? 93) with false. change (44 =? 44) with true.
    cbn [orb andb]. change (0 =? 0) with true. cbn [andb]. rewrite rev_involutive. f_equal. now apply IH.
Qed.
Lemma first_char t : wf t -> exists c r, show t = c :: r /\ (word_char c \/ c = 94 \/ c = 91).
Proof.
  destruct 1 as [n [N F]|t|t|t z|k v|ps r]; cbn [show].
  - destruct n as [|c n]; [now elim N|]. apply Forall_cons_iff in F as [K _]. exists c, n. tauto.
  - eexists _, _. split; [reflexivity|]. tauto.
  - eexists _, _. split; [reflexivity|]. tauto.
  - eexists _, _. split; [reflexivity|]. tauto.
  - eexists _, _. split; [reflexivity|]. left. unfold word_char. vm_compute. intuition discriminate.
  - eexists _, _. split; [reflexivity|]. left. unfold word_char. vm_compute. intuition discriminate.
Qed.
Lemma unamp p : wf (snd p) -> (if hd 0 (param_text p) =? 38 then (true, tl (param_text p)) else (false, param_text p)) = (fst p, show (snd p)).
Proof.
  intros W. destruct p as [m t]. unfold param_text. cbn [fst snd] in *. destruct m; cbn [app hd tl]; [reflexivity|].
  destruct (first_char t W) as (c & r & E & K). rewrite E. cbn [hd]. destruct (Z.eqb_spec c 38); [|reflexivity]. unfold word_char in K. lia.
Qed.
Theorem sig_show ps r : wf (TFunc ps r) -> (forall t, r = ROne t -> show t <> bs "void") ->
  parse_func_sig (show (TFunc ps r)) = Some (FSig (map (fun p => (fst p, show (snd p))) ps) (map show (returns r))).
Proof.
  intros W V. apply wf_func in W as [Wp Wr]. unfold parse_func_sig. cbn [show].
  change (map (fun p : bool * ty => (if fst p then [38] else []) ++ show (snd p)) ps) with (map param_text ps).
  set (P := commas (map param_text ps)). set (R := show_ret r).
  assert (Es : strncmp_func (bs "func(" ++ P ++ [41] ++ R) = true) by (unfold strncmp_func; reflexivity). rewrite Es.
  assert (Em : find_matching_paren (bs "func(" ++ P ++ [41] ++ R) 4 = Some (5 + length P)%nat).
  { unfold find_matching_paren. change (skipn 4 (bs "func(" ++ P ++ [41] ++ R)) with (40 :: P ++ [41] ++ R). cbn [matching]. change (40 =? 40) with true. cbv iota.
    assert (K : pskip P).
    { apply commas_pskip, Forall_map. eapply Forall_impl; [|exact Wp]. intros p H. now apply param_closed. }
    rewrite K by lia. cbn [app matching]. change (41 =? 40) with false. change (41 =? 41) with true. cbv iota. change (0 + 1 - 1 =? 0) with true. cbv iota. f_equal. }
  rewrite Em. cbv zeta.
  assert (Ep : split_top_commas (bs "func(" ++ P ++ [41] ++ R) 5 (5 + length P) = map param_text ps).
  { unfold split_top_commas. change (skipn 5 (bs "func(" ++ P ++ [41] ++ R)) with (P ++ [41] ++ R).
    destruct ps as [|p ps].
    - reflexivity.
    - assert (NP : P <> []).
      { unfold P. intros E. apply commas_nil in E; [discriminate E|]. apply Forall_map. eapply Forall_impl; [|exact Wp].
        intros q Wq Eq. unfold param_text in Eq. apply app_eq_nil in Eq as [_ Eq]. exact (show_nonempty _ Wq Eq). }
      destruct (Nat.leb_spec (5 + length P) 5) as [L|L]; [destruct P; [now elim NP|cbn [length] in L; lia]|].
      replace (5 + length P - 5)%nat with (length P) by lia. rewrite firstn_app, Nat.sub_diag, firstn_all, firstn_O, app_nil_r.
      apply split_commas; [discriminate|]. apply Forall_map. eapply Forall_impl; [|exact Wp]. intros q H. now apply param_closed. }
  rewrite Ep, map_map.
  rewrite (map_ext_in _ (fun p => (fst p, show (snd p)))) by (intros p Hp; rewrite Forall_forall in Wp; exact (unamp p (Wp p Hp))).
  assert (Ea : skipn (S (5 + length P)) (bs "func(" ++ P ++ [41] ++ R) = R).
  { replace (bs "func(" ++ P ++ [41] ++ R) with ((bs "func(" ++ P ++ [41]) ++ R) by (now rewrite <- !app_assoc).
    rewrite skipn_app. rewrite skipn_all2 by (rewrite !app_length; cbn [length bs]; lia).
    replace (S (5 + length P) - length (bs "func(" ++ P ++ [41%Z]))%nat with O by (rewrite !app_length; cbn [length bs]; lia). reflexivity. }
  rewrite Ea. unfold R. clear Ea Ep Em Es P R. destruct r as [|t|ts]; cbn [show_ret returns map].
  - reflexivity.
  - inversion Wr; subst. destruct (first_char t) as (c & q & E & K); [assumption|]. rewrite E in *.
    change (hd 0 (bs "->" ++ c :: q) =? 45) with true. change (hd 0 (tl (bs "->" ++ c :: q)) =? 62) with true. cbn [andb].
    change (tl (tl (bs "->" ++ c :: q))) with (c :: q). cbn [hd]. destruct (Z.eqb_spec c 40); [unfold word_char in K; lia|].
    destruct (Z.eqb_spec (strcmp (c :: q) (bs "void")) 0) as [Ev|]; [|reflexivity]. apply strcmp_eq in Ev. exfalso. apply (V t eq_refl). now rewrite E.
  - inversion Wr as [| |? Nt Wt]; subst. set (T := commas (map show ts)).
    change (hd 0 (bs "->(" ++ T ++ [41]) =? 45) with true. change (hd 0 (tl (bs "->(" ++ T ++ [41])) =? 62) with true. cbn [andb].
    change (tl (tl (bs "->(" ++ T ++ [41]))) with (40 :: T ++ [41]). cbn [hd]. change (40 =? 40) with true. cbv iota.
    change (40 :: T ++ [41]) with ((40 :: T) ++ [41]). rewrite last_last. change (41 =? 41) with true. cbv iota. do 2 f_equal.
    unfold split_top_commas.
    assert (NT : T <> []).
    { unfold T. intros E. apply commas_nil in E; [destruct ts; [now elim Nt|discriminate E]|]. apply Forall_map. eapply Forall_impl; [|exact Wt]. intros q Wq. now apply show_nonempty. }
    rewrite app_length. cbn [length]. destruct (Nat.leb_spec (S (length T) + 1 - 1) 1) as [L|L]; [destruct T; [now elim NT|cbn [length] in L; lia]|].
    change (skipn 1 ((40 :: T) ++ [41])) with (T ++ [41]). replace (S (length T) + 1 - 1 - 1)%nat with (length T) by lia.
    rewrite firstn_app, Nat.sub_diag, firstn_all, firstn_O, app_nil_r.
    apply split_commas; [intros E; apply Nt; destruct ts; [reflexivity|discriminate E]|]. apply Forall_map. eapply Forall_impl; [|exact Wt]. intros q H. now apply show_balanced.
Qed.

(** ** Types with equal text are equal. *)
Definition delim (r : bytes) : Prop := r = [] \/ hd 0 r = 44 \/ hd 0 r = 41 \/ hd 0 r = 93.
Definition stops (r : bytes) : Prop := r = [] \/ ~ word_char (hd 0 r).
Lemma span_word a : forall b x y, Forall word_char a -> Forall word_char b -> stops x -> stops y -> a ++ x = b ++ y -> a = b /\ x = y.
Proof.
  induction a as [|c a IH]; intros [|d b] x y Fa Fb Sx Sy E; cbn [app] in E.
  - now split.
  - subst x. apply Forall_cons_iff in Fb as [K _]. destruct Sx as [X|X]; [discriminate X|]. now elim X.
  - subst y. apply Forall_cons_iff in Fa as [K _]. destruct Sy as [X|X]; [discriminate X|]. now elim X.
  - injection E as -> E. apply Forall_cons_iff in Fa as [_ Fa]. apply Forall_cons_iff in Fb as [_ Fb].
    destruct (IH b x y Fa Fb Sx Sy E) as [-> ->]. now split.
Qed.
Lemma delim_stops r : delim r -> stops r.
Proof. intros [->|H]; [now left|]. right. unfold word_char. lia. Qed.
Lemma stops_cons c r : ~ word_char c -> stops (c :: r).
Proof. intros N. now right. Qed.
Ltac wc := unfold word_char; vm_compute; intuition discriminate.
Lemma word_map : Forall word_char (bs "map"). Proof. repeat (apply Forall_cons; [wc|]). constructor. Qed.
Lemma word_func : Forall word_char (bs "func"). Proof. repeat (apply Forall_cons; [wc|]). constructor. Qed.
(** The word a text starts with, and what follows it. *)
Definition head_word (t : ty) : bytes := match t with TName n => n | TMap _ _ => bs "map" | TFunc _ _ => bs "func" | _ => [] end.
Definition rest_of (t : ty) : bytes :=
  match t with
  | TName _ => []
  | TMap k v => [91] ++ k ++ [58] ++ show v ++ [93]
  | TFunc ps r => [40] ++ commas (map param_text ps) ++ [41] ++ show_ret r
  | t => show t
  end.
Lemma show_head t : show t = head_word t ++ rest_of t.
Proof. destruct t; cbn [show head_word rest_of app]; try reflexivity. now rewrite app_nil_r. Qed.
Lemma heads t t' r r' : wf t -> wf t' -> delim r -> delim r' -> show t ++ r = show t' ++ r' ->
  head_word t = head_word t' /\ rest_of t ++ r = rest_of t' ++ r'.
Proof.
  intros W W' D D' E. rewrite !show_head, <- !app_assoc in E.
  assert (A : forall t, wf t -> Forall word_char (head_word t)).
  { intros u Wu. destruct Wu as [n [_ F]|u|u|u z|k v|ps q]; cbn [head_word]; try constructor; [exact F|wc|repeat (constructor; [wc|]); constructor|wc|repeat (constructor; [wc|]); constructor]. }
  assert (B : forall t r, wf t -> delim r -> stops (rest_of t ++ r)).
  { intros u q Wu Dq. destruct u; cbn [rest_of app show]; [now apply delim_stops| | | | |]; apply stops_cons; unfold word_char; lia. }
  apply span_word; auto.
Qed.
Lemma delim_comma r : delim (44 :: r). Proof. right. now left. Qed.
Lemma delim_paren r : delim (41 :: r). Proof. right. right. now left. Qed.
Lemma delim_bracket r : delim (93 :: r). Proof. right. right. now right. Qed.

Definition reads (t : ty) : Prop := forall t' r r', wf t -> wf t' -> delim r -> delim r' -> show t ++ r = show t' ++ r' -> t = t' /\ r = r'.
Definition reads_ret (q : ret) : Prop := forall q' r r', wf_ret q -> wf_ret q' -> delim r -> delim r' -> show_ret q ++ r = show_ret q' ++ r' -> q = q' /\ r = r'.
(** A list of pieces is read off one by one. *)
Lemma list_reads {A} (f : A -> bytes) (ok : A -> Prop) : forall l l' r r',
  (forall x, ok x -> exists c q, f x = c :: q /\ c <> 41) ->
  Forall (fun x => ok x /\ forall x' s s', ok x' -> delim s -> delim s' -> f x ++ s = f x' ++ s' -> x = x' /\ s = s') l ->
  Forall ok l' -> commas (map f l) ++ 41 :: r = commas (map f l') ++ 41 :: r' -> l = l' /\ r = r'.
Proof.
  intros l l' r r' Hd. revert l'. induction l as [|x l IH]; intros l' F F' E.
  - destruct l' as [|y l']; [injection E as ->; now split|]. exfalso. apply Forall_cons_iff in F' as [Oy _]. destruct (Hd y Oy) as (c & q & Ey & N).
    cbn [map] in E. destruct (map f l'); cbn [commas app] in E; rewrite Ey in E; cbn [app] in E; injection E; congruence.
  - apply Forall_cons_iff in F as [[Ox Rx] F]. destruct l' as [|y l'].
    + exfalso. destruct (Hd x Ox) as (c & q & Ex & N).
      cbn [map] in E. destruct (map f l); cbn [commas app] in E; rewrite Ex in E; cbn [app] in E; injection E; congruence.
    + apply Forall_cons_iff in F' as [Oy F'].
      assert (G : forall z m s, exists u, commas (map f (z :: m)) ++ 41 :: s = f z ++ u /\ delim u /\
         u = match m with [] => 41 :: s | _ => 44 :: commas (map f m) ++ 41 :: s end).
      { intros z m s. destruct m as [|w m]; cbn [map].
        - exists (41 :: s). split; [reflexivity|]. split; [apply delim_paren|reflexivity].
        - exists (44 :: commas (map f (w :: m)) ++ 41 :: s). split; [|split; [apply delim_comma|reflexivity]].
          change (commas (f z :: f w :: map f m)) with (f z ++ [44] ++ commas (map f (w :: m))). now rewrite <- !app_assoc. }
      destruct (G x l r) as (u & Eu & Du & Vu), (G y l' r') as (v & Ev & Dv & Vv). rewrite Eu, Ev in E.
      destruct (Rx y u v Oy Du Dv E) as [-> Huv]. rewrite Vu, Vv in Huv. destruct l as [|x1 l], l' as [|y1 l']; try discriminate Huv.
      * injection Huv as ->. now split.
      * injection Huv as Huv. destruct (IH (y1 :: l') F F' Huv) as [-> ->]. now split.
Qed.
Lemma all_read : forall t, reads t.
Proof.
  apply (ty_ind2 reads reads_ret); unfold reads, reads_ret.
  - intros n t' r r' W W' D D' E. destruct (heads _ _ _ _ W W' D D' E) as [H R].
    inversion W as [? [Nn Fn]| | | | |]; subst.
    destruct t' as [n'|u|u|u z|k v|ps q]; cbn [head_word rest_of app show] in H, R.
    + subst n'. now split.
    + now elim Nn.
    + now elim Nn.
    + now elim Nn.
    + subst r. destruct D as [D|D]; [discriminate D|cbn [hd] in D; lia].
    + subst r. destruct D as [D|D]; [discriminate D|cbn [hd] in D; lia].
  - intros t IH t' r r' W W' D D' E. destruct (heads _ _ _ _ W W' D D' E) as [H R]. inversion W; subst.
    destruct t' as [n'|u|u|u z|k v|ps q]; cbn [head_word rest_of app show] in H, R; try discriminate H; try discriminate R.
    + inversion W' as [? [Nn _]| | | | |]; subst. now elim Nn.
    + injection R as R. inversion W'; subst. destruct (IH u r r') as [-> ->]; auto.
  - intros t IH t' r r' W W' D D' E. destruct (heads _ _ _ _ W W' D D' E) as [H R]. inversion W; subst.
    destruct t' as [n'|u|u|u z|k v|ps q]; cbn [head_word rest_of app show] in H, R; try discriminate H; try discriminate R.
    + inversion W' as [? [Nn _]| | | | |]; subst. now elim Nn.
    + injection R as R. inversion W'; subst. rewrite <- !app_assoc in R.
      destruct (IH u ([93] ++ r) ([93] ++ r')) as [-> X]; auto; try apply delim_bracket. injection X as ->. now split.
    + injection R as R. inversion W'; subst. rewrite <- !app_assoc in R.
      destruct (IH u ([93] ++ r) ((44 :: z ++ [93]) ++ r')) as [-> X]; auto; [apply delim_bracket|apply delim_comma|]. discriminate X.
  - intros t z IH t' r r' W W' D D' E. destruct (heads _ _ _ _ W W' D D' E) as [H R]. inversion W as [| | |? ? Wt [_ Wz]| |]; subst.
    destruct t' as [n'|u|u|u z'|k v|ps q]; cbn [head_word rest_of app show] in H, R; try discriminate H; try discriminate R.
    + inversion W' as [? [Nn _]| | | | |]; subst. now elim Nn.
    + injection R as R. inversion W'; subst. rewrite <- !app_assoc in R.
      destruct (IH u ((44 :: z ++ [93]) ++ r) ([93] ++ r')) as [-> X]; auto; [apply delim_comma|apply delim_bracket|]. discriminate X.
    + injection R as R. inversion W' as [| | |? ? Wt' [_ Wz']| |]; subst. rewrite <- !app_assoc in R.
      destruct (IH u ((44 :: z ++ [93]) ++ r) ((44 :: z' ++ [93]) ++ r')) as [-> X]; auto; try apply delim_comma.
      cbn [app] in X. injection X as X. rewrite <- !app_assoc in X. apply span_word in X; [|exact Wz|exact Wz'|apply stops_cons; wc|apply stops_cons; wc].
      destruct X as [-> X]. injection X as ->. now split.
  - intros k v IH t' r r' W W' D D' E. destruct (heads _ _ _ _ W W' D D' E) as [H R]. inversion W as [| | | |? ? [_ Wk] Wv|]; subst.
    destruct t' as [n'|u|u|u z'|k' v'|ps q]; cbn [head_word rest_of app show] in H, R; try discriminate H; try discriminate R.
    + subst r'. destruct D' as [D'|D']; [discriminate D'|cbn [hd] in D'; lia].
    + injection R as R. inversion W' as [| | | |? ? [_ Wk'] Wv'|]; subst. rewrite <- !app_assoc in R. cbn [app] in R.
      apply span_word in R; [|exact Wk|exact Wk'|apply stops_cons; wc|apply stops_cons; wc]. destruct R as [-> R]. injection R as R.
      rewrite <- !app_assoc in R. destruct (IH v' ([93] ++ r) ([93] ++ r')) as [-> X]; auto; try apply delim_bracket. injection X as ->. now split.
  - intros ps q IHp IHq t' r r' W W' D D' E. destruct (heads _ _ _ _ W W' D D' E) as [H R]. apply wf_func in W as [Wp Wq].
    destruct t' as [n'|u|u|u z'|k' v'|ps' q']; cbn [head_word rest_of app show] in H, R; try discriminate H; try discriminate R.
    + subst r'. destruct D' as [D'|D']; [discriminate D'|cbn [hd] in D'; lia].
    + apply wf_func in W' as [Wp' Wq']. injection R as R. rewrite <- !app_assoc in R. cbn [app] in R.
      destruct (list_reads param_text (fun p => wf (snd p)) ps ps' (show_ret q ++ r) (show_ret q' ++ r')) as [-> X].
      * intros [m t] Wt. cbn [snd] in Wt. unfold param_text. cbn [fst snd]. destruct (first_char t Wt) as (c & s & Es & K). rewrite Es. destruct m; cbn [app].
        -- exists 38, (c :: s). split; [reflexivity|lia].
        -- exists c, s. split; [reflexivity|]. unfold word_char in K. lia.
      * rewrite Forall_forall in *. intros [m t] Hp. split; [apply (Wp _ Hp)|]. intros [m' t'] s s' Wt' Ds Ds' Et. cbn [fst snd] in *. unfold param_text in Et. cbn [fst snd] in Et.
        destruct (first_char t (Wp _ Hp)) as (c & x & Ec & Kc), (first_char t' Wt') as (c' & x' & Ec' & Kc').
        pose proof (IHp _ Hp) as I. pose proof (Wp _ Hp) as Wm. cbn [snd] in I, Wm.
        destruct m, m'; cbn [app] in Et.
        -- injection Et as Et. destruct (I t' s s') as [-> ->]; auto.
        -- exfalso. rewrite Ec' in Et. cbn [app] in Et. injection Et as Et _. unfold word_char in Kc'. lia.
        -- exfalso. rewrite Ec in Et. cbn [app] in Et. injection Et as Et _. unfold word_char in Kc. lia.
        -- destruct (I t' s s') as [-> ->]; auto.
      * exact Wp'.
      * exact R.
      * destruct (IHq q' r r') as [-> ->]; auto.
  - intros q' r r' W W' D D' E. cbn [show_ret app] in E. destruct q' as [|t'|ts']; cbn [show_ret app] in E.
    + now split.
    + subst r. destruct D as [D|D]; [discriminate D|cbn [hd] in D; vm_compute in D; intuition discriminate].
    + subst r. destruct D as [D|D]; [discriminate D|cbn [hd] in D; vm_compute in D; intuition discriminate].
  - intros t IH q' r r' W W' D D' E. inversion W; subst. cbn [show_ret] in E. destruct q' as [|t'|ts']; cbn [show_ret] in E.
    + cbn [app] in E. subst r'. destruct D' as [D'|D']; [discriminate D'|cbn [hd] in D'; vm_compute in D'; intuition discriminate].
    + inversion W'; subst. rewrite <- !app_assoc in E. apply app_inv_head in E. destruct (IH t' r r') as [-> ->]; auto.
    + exfalso. destruct (first_char t) as (c & s & Es & K); [assumption|]. rewrite Es in E. injection E as E _. revert E. unfold word_char in K.
      change (byte_of_ascii "(") with 40. lia.
  - intros ts IH q' r r' W W' D D' E. inversion W as [| |? Nt Wt]; subst. cbn [show_ret] in E. destruct q' as [|t'|ts']; cbn [show_ret] in E.
    + cbn [app] in E. subst r'. destruct D' as [D'|D']; [discriminate D'|cbn [hd] in D'; vm_compute in D'; intuition discriminate].
    + exfalso. inversion W'; subst. destruct (first_char t') as (c & s & Es & K); [assumption|]. rewrite Es in E. injection E as E _. revert E. unfold word_char in K.
      change (byte_of_ascii "(") with 40. lia.
    + inversion W' as [| |? Nt' Wt']; subst. rewrite <- !app_assoc in E. apply app_inv_head in E. cbn [app] in E.
      destruct (list_reads show wf ts ts' r r') as [-> ->]; [| |exact Wt'|exact E|now split].
      * intros t Wt0. destruct (first_char t Wt0) as (c & s & Es & K). exists c, s. split; [exact Es|]. unfold word_char in K. lia.
      * rewrite Forall_forall in *. intros t Ht. split; [apply (Wt t Ht)|]. intros t' s s' W1 Ds Ds' Et. apply (IH t Ht t' s s'); auto.
Qed.
Theorem show_inj t t' : wf t -> wf t' -> show t = show t' -> t = t'.
Proof.
  intros W W' E. destruct (all_read t t' [] [] W W') as [X _]; [now left|now left|now rewrite !app_nil_r|exact X].
Qed.
