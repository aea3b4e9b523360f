(** C65: what an import stands for. *)
From Coq Require Import Sorted Permutation.
From Verif Require Import Base LexModel LexProofs ImportModel ImportSpec ImportProofs.

Lemma ext_iff : forall s, has_ext s = true <-> exists b, s = b ++ bs ".gray".
Proof.
  intros s. unfold has_ext. rewrite andb_true_iff, eqs_iff. split.
  - intros [L E]. exists (firstn (length s - 5) s). rewrite <- (firstn_skipn (length s - 5) s) at 1. f_equal. exact E.
  - intros [b ->]. rewrite app_length. change (length (bs ".gray")) with 5%nat. split; [lia|].
    rewrite skipn_app. rewrite skipn_all2 by lia. replace (length b + 5 - 5 - length b)%nat with 0%nat by lia. reflexivity.
Qed.
Lemma no_ext : forall s, has_ext s = false -> forall b, s <> b ++ bs ".gray".
Proof. intros s H b E. assert (has_ext s = true) by (apply ext_iff; now exists b). congruence. Qed.
Lemma visible_iff : forall n, negb (hd 0 n =? 46) && (6 <=? Z.of_nat (length n)) && has_ext n = true <-> visible_gray n.
Proof.
  intros n. rewrite !andb_true_iff, ext_iff. unfold visible_gray. split.
  - intros ((A & B) & b & ->). split; [lia|]. exists b. split; [reflexivity|]. intros ->. cbn in B. lia.
  - intros (A & b & -> & N). split; [split; [lia|]|now exists b]. rewrite app_length. change (length (bs ".gray")) with 5%nat. destruct b; [easy|cbn [length]; lia].
Qed.
Lemma buf_small : forall s, (length s < 2048)%nat -> buf PATH_BUF_SIZE s = s.
Proof. intros s H. unfold buf. apply firstn_all2. unfold PATH_BUF_SIZE. lia. Qed.

Definition below (a b : bytes) : Prop := strcmp a b < 0.
Lemma insert_perm : forall x l, Permutation (insert_path x l) (x :: l).
Proof.
  induction l as [|y l IH]; cbn [insert_path]; [apply Permutation_refl|]. destruct (strcmp x y <=? 0); [apply Permutation_refl|].
  eapply perm_trans; [apply perm_skip, IH|apply perm_swap].
Qed.
Lemma sort_perm : forall l, Permutation (sort_paths l) l.
Proof. induction l as [|x l IH]; cbn [sort_paths fold_right]; [apply Permutation_refl|]. eapply perm_trans; [apply insert_perm|]. now apply perm_skip. Qed.
Lemma insert_sorted : forall x l, ~ In x l -> StronglySorted below l -> StronglySorted below (insert_path x l).
Proof.
  induction l as [|y l IH]; cbn [insert_path]; intros N S; [repeat constructor|]. inversion S as [|? ? S' F]; subst.
  assert (NE : strcmp x y <> 0) by (intros E; apply strcmp_eq in E; subst; apply N; now left).
  destruct (strcmp x y <=? 0) eqn:C.
  - assert (B : below x y) by (unfold below; lia). constructor; [exact S|]. constructor; [exact B|]. eapply Forall_impl; [|exact F]. intros z Z. exact (strcmp_trans _ _ _ B Z).
  - constructor; [apply IH; [intros I; apply N; now right|exact S']|].
    assert (B : below y x) by (unfold below; apply strcmp_anti; lia).
    eapply Forall_forall. intros z I. apply (Permutation_in _ (insert_perm x l)) in I as [<-|I]; [exact B|]. now apply (proj1 (Forall_forall _ _) F).
Qed.
Lemma sort_sorted : forall l, NoDup l -> StronglySorted below (sort_paths l).
Proof.
  induction l as [|x l IH]; intros N; cbn [sort_paths fold_right]; [constructor|]. inversion N; subst. apply insert_sorted; [|now apply IH].
  intros I. now apply (Permutation_in _ (sort_perm l)) in I.
Qed.
Lemma sorted_nth : forall l, StronglySorted below l -> forall i j, (i < j < length l)%nat -> strcmp (nth i l []) (nth j l []) < 0.
Proof.
  induction 1 as [|x l S IH F]; cbn [length]; intros i j H; [lia|]. destruct j as [|j]; [lia|]. destruct i as [|i]; cbn [nth].
  - apply (proj1 (Forall_forall _ _) F), nth_In. lia.
  - apply IH. lia.
Qed.

Section Target.
Context (w : world) (it : item).
Definition outcome (r : bytes + bytes * list bytes) : bytes + list bytes := match r with inl e => inl e | inr x => inr (snd x) end.
Lemma same_iff : forall q, (match source_dir it with Some d => match realpath w q, realpath w d with Some a, Some b => eqs a b | _, _ => false end | None => false end) = true
  <-> own_directory w it q.
Proof.
  intros q. unfold own_directory. split.
  - destruct (source_dir it) as [d|]; [|discriminate]. destruct (realpath w q) as [a|] eqn:A; [|discriminate]. destruct (realpath w d) as [b|] eqn:B; [|discriminate].
    intros E. apply eqs_iff in E as ->. now exists d, b.
  - intros (d & a & -> & -> & ->). now apply eqs_iff.
Qed.
Lemma target_stands : forall dir p, let q := where_from dir it ++ strip_dot p in (length q < 2042)%nat ->
  (forall names, readdir w q = Some names -> NoDup names /\ Forall (fun n => (length q + length n < 2047)%nat) names /\
     forall l, incl l names -> NoDup l -> Forall visible_gray l -> (length l <= 256)%nat) ->
  stands_for w it q (outcome (target w dir it p)).
Proof.
  intros dir p q L D. unfold target, resolve. change (import_path_of dir it (strip_dot p)) with (buf PATH_BUF_SIZE q). cbv zeta. clearbody q. rewrite (buf_small q) by lia.
  destruct (has_ext q) eqn:E.
  - apply ext_iff in E as [b E]. exact (with_extension w it q b E).
  - pose proof (no_ext q E) as X. clear E. change (bs ".gray") with GRAY_EXT in X. rewrite buf_small by (rewrite app_length; change (length GRAY_EXT) with 5%nat; lia).
    destruct (is_reg w (q ++ GRAY_EXT)) eqn:R; [now apply without_extension|]. destruct (is_dir w q) eqn:DI; [|now apply nothing].
    destruct (match source_dir it with Some d => _ | None => _ end) eqn:O.
    + apply same_iff in O. now apply same_directory.
    + assert (O' : ~ own_directory w it q) by (intros Y; apply same_iff in Y; rewrite O in Y; discriminate). clear O. unfold scan_gray_files.
      destruct (readdir w q) as [names|] eqn:RD; cbn [option_map]; [|now apply closed_directory].
      destruct (D names eq_refl) as (ND & FL & LE).
      set (vis := fun n => negb (hd 0 n =? 46) && (6 <=? Z.of_nat (length n)) && has_ext n) in *.
      rewrite firstn_all2.
      2: { apply LE; [intros n I; now apply filter_In in I|now apply NoDup_filter|]. apply Forall_forall. intros n I. apply filter_In in I as [_ V]. now apply visible_iff. }
      assert (MP : map (fun n => buf PATH_BUF_SIZE (q ++ [47] ++ n)) (filter vis names) = map (fun n => q ++ [47] ++ n) (filter vis names)).
      { apply map_ext_in. intros n I. apply filter_In in I as [I _]. apply (proj1 (Forall_forall _ _) FL) in I. apply buf_small. rewrite !app_length. cbn [length]. lia. }
      rewrite MP. clear MP. set (l := sort_paths (map (fun n => q ++ [47] ++ n) (filter vis names))).
      assert (IN : forall f, In f l <-> exists n, In n names /\ visible_gray n /\ f = q ++ bs "/" ++ n).
      { intros f. unfold l. split.
        - intros I. apply (Permutation_in _ (sort_perm _)), in_map_iff in I as (n & <- & I). apply filter_In in I as [I V]. apply visible_iff in V. now exists n.
        - intros (n & I & V & ->). apply (Permutation_in _ (Permutation_sym (sort_perm _))). apply in_map_iff. exists n. split; [reflexivity|]. apply filter_In. split; [exact I|]. now apply visible_iff. }
      assert (SO : StronglySorted below l).
      { apply sort_sorted. apply FinFun.Injective_map_NoDup; [|now apply NoDup_filter]. intros a b EQ. now apply app_inv_head, app_inv_head in EQ. }
      clearbody l. destruct l as [|f l].
      * apply (empty_directory w it q names); try assumption. intros n I V. apply (proj2 (IN (q ++ bs "/" ++ n))). now exists n.
      * apply (directory w it q names (f :: l)); try assumption; [now apply sorted_nth|discriminate].
Qed.
End Target.
