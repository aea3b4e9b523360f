(** Removing directories with all that is in them. *)
From Verif Require Import Base BaseFacts FilesSpec FilesModel FilesProofs FilesProofs2 FilesProofs3 FilesProofs4.

Definition within (l k : loc) : bool := same_loc k l || inside l k.
Lemma within_iff l k : within l k = true <-> exists r, k = l ++ r.
Proof.
  unfold within. rewrite orb_true_iff, same_loc_iff, inside_iff. split.
  - intros [->|(r & _ & ->)]; [exists []; now rewrite app_nil_r|eauto].
  - intros ([|n r] & ->); [left; now rewrite app_nil_r|right; exists (n :: r); split; [discriminate|reflexivity]].
Qed.
Lemma within_false l k : within l k = false <-> ~ exists r, k = l ++ r.
Proof. rewrite <- within_iff. destruct (within l k); split; congruence. Qed.
Lemma inside_child l n k : inside l k = false -> within (l ++ [n]) k = false.
Proof. intros H. apply within_false. intros (r & ->). apply inside_false in H. apply H. exists (n :: r). split; [discriminate|now rewrite <- app_assoc]. Qed.
Lemma inside_within l k : within l k = false -> inside l k = false.
Proof. unfold within. intros H. now apply orb_false_iff in H. Qed.
Lemma inside_self l : inside l l = false.
Proof. apply inside_false. intros (r & R & E). apply R. rewrite <- (app_nil_r l) in E at 1. now apply app_inv_head in E. Qed.
Lemma sibling l n m : n <> m -> within (l ++ [n]) (l ++ [m]) = false.
Proof. intros N. apply within_false. intros (r & E). rewrite <- app_assoc in E. apply app_inv_head in E. cbn in E. congruence. Qed.

(** [u] is [t] without some of the entries for which [P] *)
Definition keeps (P : loc -> bool) (t u : fs) : Prop := wf u /\ exists f, u = filter f t /\ forall x, P (fst x) = false -> f x = true.
Lemma filter_true {A} (f : A -> bool) l : (forall x, In x l -> f x = true) -> filter f l = l.
Proof. induction l as [|x l IH]; cbn; [reflexivity|]. intros H. rewrite H by now left. rewrite IH; [reflexivity|]. intros y I. apply H. now right. Qed.
Lemma filter_and {A} (f g : A -> bool) l : filter g (filter f l) = filter (fun x => f x && g x) l.
Proof. induction l as [|x l IH]; cbn; [reflexivity|]. destruct (f x); cbn; rewrite IH; reflexivity. Qed.
Lemma keeps_refl P t : wf t -> keeps P t t.
Proof. intros W. split; [assumption|]. exists (fun _ => true). split; [symmetry; now apply filter_true|reflexivity]. Qed.
Lemma keeps_trans P t u v : keeps P t u -> keeps P u v -> keeps P t v.
Proof.
  intros (_ & f & -> & F) (W & g & -> & G). split; [assumption|]. exists (fun x => f x && g x). split; [apply filter_and|]. intros x H. now rewrite F, G.
Qed.
Lemma keeps_weaken (P Q : loc -> bool) t u : (forall k, Q k = false -> P k = false) -> keeps P t u -> keeps Q t u.
Proof. intros H (W & f & E & F). split; [assumption|]. exists f. split; [assumption|]. intros x X. apply F. now apply H. Qed.
Lemma keeps_in P t u x : keeps P t u -> In x u -> In x t.
Proof. intros (_ & f & -> & _) H. now apply filter_In in H. Qed.
Lemma keeps_get P t u k : wf t -> keeps P t u -> P k = false -> get u k = get t k.
Proof.
  intros W (_ & f & -> & F) H. destruct k as [|n k]; [reflexivity|]. cbn [get]. rewrite find_filter by apply W. destruct (find_entry t (n :: k)) as [e|]; [|reflexivity]. now rewrite F.
Qed.
Lemma keeps_some P t u k e : wf t -> keeps P t u -> get u k = Some e -> get t k = Some e.
Proof.
  intros W (_ & f & -> & F). destruct k as [|n k]; [auto|]. cbn [get]. rewrite find_filter by apply W. destruct (find_entry t (n :: k)) as [x|]; [|discriminate]. destruct (f _); congruence.
Qed.
Lemma keeps_del (P : loc -> bool) t l e : wf t -> get t l = Some e -> e <> EDir -> P l = true -> keeps P t (del t l).
Proof.
  intros W G N H. split; [now apply (del_file t l e)|]. exists (fun x => negb (same_loc (fst x) l)). split; [reflexivity|]. intros x X. apply negb_true_iff, same_loc_false. congruence.
Qed.

Section Remove.
Context (fault : nat -> option Z) (cwd : loc).
(** What holds of a directory before it is removed *)
Definition plain_below (t : fs) (l : loc) : Prop := forall k x, inside l k = true -> get t k <> Some (ELink x).
Definition fits (t : fs) (p : bytes) (l : loc) : Prop := forall r e, In (l ++ r, e) t -> r <> [] -> Z.of_nat (length p + 1 + length (slashed r)) < PATH_MAX.
Definition ready (t : fs) (p : bytes) (l : loc) : Prop := wf t /\ spells cwd p l /\ get t l = Some EDir /\ plain_below t l /\ fits t p l.
Lemma slashed_cons n r : r <> [] -> slashed (n :: r) = n ++ 47 :: slashed r.
Proof. now destruct r. Qed.
Lemma fits_child t p l n e : wf t -> fits t p l -> get t (l ++ [n]) = Some e -> Z.of_nat (length p) + 1 + Z.of_nat (length n) < PATH_MAX.
Proof.
  intros W F G. assert (I : In (l ++ [n], e) t) by (apply wf_get; [assumption|destruct l; discriminate|assumption]). specialize (F [n] e I ltac:(discriminate)). cbn [slashed] in F. lia.
Qed.
Lemma child_path_id p n : Z.of_nat (length p) + 1 + Z.of_nat (length n) < PATH_MAX -> child_path p n = p ++ 47 :: n.
Proof. intros H. unfold child_path. apply firstn_all2. rewrite app_length. cbn [length]. unfold PATH_BUF. unfold PATH_MAX in H. lia. Qed.
Lemma ready_child t p l n : ready t p l -> get t (l ++ [n]) = Some EDir -> ready t (p ++ 47 :: n) (l ++ [n]).
Proof.
  intros (W & S & G & Pl & F) Gn. assert (L := fits_child t p l n EDir W F Gn). split; [assumption|]. split; [apply spells_child; [assumption|now apply (wf_name t l n EDir)|assumption]|]. split; [assumption|]. split.
  - intros k x I. apply Pl. apply inside_iff in I as (r & R & ->). apply inside_iff. exists (n :: r). split; [discriminate|now rewrite <- app_assoc].
  - intros r e I R. rewrite <- app_assoc in I. specialize (F (n :: r) e I ltac:(discriminate)). rewrite slashed_cons in F by assumption. rewrite app_length in F |- *. cbn [length] in *. lia.
Qed.
Lemma ready_keeps t u p l : ready t p l -> keeps (inside l) t u -> ready u p l.
Proof.
  intros (W & S & G & Pl & F) K. split; [apply K|]. split; [assumption|]. split; [rewrite (keeps_get _ t u l W K (inside_self l)); assumption|]. split.
  - intros k x I E. apply (Pl k x I). now apply (keeps_some _ t u k _ W K).
  - intros r e I. apply (F r e). now apply (keeps_in (inside l) t u).
Qed.
Lemma stat_child s p l n : ready (tree s) p l -> name_ok n -> get (tree s) (l ++ [n]) <> None ->
  exists e, get (tree s) (l ++ [n]) = Some e /\ (forall x, e <> ELink x) /\ child_path p n = p ++ 47 :: n /\ (forall f, resolve (tree s) cwd f (child_path p n) = Found (l ++ [n])) /\
  sys_stat fault cwd s (child_path p n) = (tick s, match fault (calls s) with Some _ => None | None => Some e end).
Proof.
  intros (W & S & G & Pl & F) O N. destruct (get (tree s) (l ++ [n])) as [e|] eqn:E; [|congruence]. exists e. split; [reflexivity|].
  assert (NL : forall x, e <> ELink x) by (intros x ->; apply (Pl (l ++ [n]) x); [apply inside_app; discriminate|assumption]). split; [assumption|].
  assert (L := fits_child _ p l n e W F E). rewrite child_path_id by assumption. split; [reflexivity|].
  assert (R : forall f, resolve (tree s) cwd f (p ++ 47 :: n) = Found (l ++ [n])) by (intros f; apply (child_found _ _ _ _ _ _ e); try assumption; intros x ->; now specialize (NL x)).
  split; [assumption|]. rewrite sys_stat_eq, R, E. reflexivity.
Qed.
Lemma within_up l n k : inside l k = false -> within (l ++ [n]) k = false. Proof. apply inside_child. Qed.
(** ** Nothing outside is touched, whatever fails *)
Definition safe_rec (recurse : st -> bytes -> st * res bool) (l : loc) : Prop :=
  forall s p n s' r, ready (tree s) p (l ++ [n]) -> recurse s p = (s', r) -> keeps (within (l ++ [n])) (tree s) (tree s') /\ steps (keeps (within (l ++ [n])) (tree s)) s s'.
Lemma steps_keeps P s s' t : wf t -> keeps P t (tree s) -> steps (keeps P (tree s)) s s' -> steps (keeps P t) s s'.
Proof. intros W K. apply steps_weaken. intros m. now apply keeps_trans. Qed.
Lemma remove_each_safe recurse l p ns s ok s' r : safe_rec recurse l -> Forall (fun n => name_ok n /\ Z.of_nat (length p) + 1 + Z.of_nat (length n) < PATH_MAX) ns -> ready (tree s) p l -> remove_each fault cwd recurse s p ns ok = (s', r) ->
  keeps (inside l) (tree s) (tree s') /\ steps (keeps (inside l) (tree s)) s s'.
Proof.
  intros Rec. revert s ok. induction ns as [|n ns IH]; intros s ok O Rd E; cbn [remove_each] in E.
  { injection E as <- <-. split; [apply keeps_refl, Rd|apply steps_refl]. }
  inversion O as [|? ? [O1 O3] O2]; subst. assert (W : wf (tree s)) by apply Rd.
  assert (Dots : same n (bs ".") || same n (bs "..") = false) by (destruct O1 as (_ & _ & _ & D1 & D2); now rewrite !same_ne). rewrite Dots in E.
  assert (Next : forall s1 ok1, keeps (inside l) (tree s) (tree s1) -> steps (keeps (inside l) (tree s)) s s1 -> remove_each fault cwd recurse s1 p ns ok1 = (s', r) ->
    keeps (inside l) (tree s) (tree s') /\ steps (keeps (inside l) (tree s)) s s').
  { intros s1 ok1 K St E1. destruct (IH s1 ok1 O2 (ready_keeps _ _ _ _ Rd K) E1) as [K1 St1]. split; [eapply keeps_trans; eauto|]. eapply steps_trans; [exact St|]. now apply steps_keeps. }
  destruct (get (tree s) (l ++ [n])) as [e0|] eqn:G0.
  - destruct (stat_child s p l n Rd O1 ltac:(congruence)) as (e & G & NL & Cp & R & Es). rewrite Es in E. destruct (fault (calls s)).
    { apply (Next (tick s) false); [now apply keeps_refl|apply steps_tick, steps_refl|exact E]. }
    destruct e as [d| |x]; [| |now specialize (NL x)].
    + unfold sys_unlink in E. cbn [tree tick calls] in E. rewrite R, G in E. destruct (fault (S (calls s))).
      * apply (Next (tick (tick s)) (ok && false)); [now apply keeps_refl|apply steps_tick, steps_tick, steps_refl|exact E].
      * assert (K : keeps (inside l) (tree s) (del (tree s) (l ++ [n]))) by (apply (keeps_del _ _ _ (EFile d)); [assumption|assumption|discriminate|apply inside_app; discriminate]).
        eapply (Next (commit (tick s) (del (tree s) (l ++ [n])))); [exact K|apply steps_commit; [apply steps_tick, steps_refl|exact K]|exact E].
    + rewrite Cp in E. destruct (recurse (tick s) (p ++ 47 :: n)) as [s1 r1] eqn:E1.
      destruct (Rec (tick s) (p ++ 47 :: n) n s1 r1 (ready_child _ _ _ _ Rd G) E1) as [K St]. cbn [tree tick] in K, St.
      assert (K' : keeps (inside l) (tree s) (tree s1)) by (eapply keeps_weaken; [|exact K]; intros k; apply inside_child).
      assert (St' : steps (keeps (inside l) (tree s)) s s1) by (eapply steps_weaken; [|exact St]; intros m; apply keeps_weaken; intros k; apply inside_child).
      destruct r1 as [b|c| |]; [eapply Next; [exact K'|exact St'|exact E]|injection E as <- <-; now split..].
  - assert (Es : sys_stat fault cwd s (child_path p n) = (tick s, None)).
    { rewrite sys_stat_eq. destruct (fault (calls s)); [reflexivity|]. destruct Rd as (_ & S & G & Pl & F).
      rewrite child_path_id by assumption. now rewrite (child_missing _ _ _ _ l n). }
    rewrite Es in E. apply (Next (tick s) false); [now apply keeps_refl|apply steps_tick, steps_refl|exact E].
Qed.
Lemma child_names t p l : ready t p l -> Forall (fun n => name_ok n /\ Z.of_nat (length p) + 1 + Z.of_nat (length n) < PATH_MAX) (children t l).
Proof.
  intros (W & S & G & Pl & F). apply Forall_forall. intros n I. apply wf_child in I; [|assumption]. destruct (get t (l ++ [n])) as [e|] eqn:E; [|congruence]. split; [now apply (wf_name t l n e)|now apply (fits_child t p l n e)].
Qed.
Lemma list_ready s p l : ready (tree s) p l -> sys_list fault cwd s p = (tick s, match fault (calls s) with Some _ => None | None => Some (children (tree s) l) end).
Proof. intros (W & S & G & _). unfold sys_list. rewrite (spells_dir _ cwd true p l) by assumption. now rewrite G. Qed.
Lemma rmdir_keeps s p l s' b : ready (tree s) p l -> sys_rmdir fault cwd s p = (s', b) -> keeps (within l) (tree s) (tree s') /\ steps (keeps (within l) (tree s)) s s' /\
  (fault (calls s) = None -> children (tree s) l = [] -> l <> [] -> b = true /\ tree s' = del (tree s) l).
Proof.
  intros (W & S & G & _) E. unfold sys_rmdir in E. rewrite (spells_no_dots _ _ _ S) in E. rewrite (spells_dir _ cwd false p l) in E by assumption.
  assert (K0 : keeps (within l) (tree s) (tree s)) by now apply keeps_refl.
  destruct (fault (calls s)) eqn:Ef; [injection E as <- <-; split; [exact K0|]; split; [apply steps_tick, steps_refl|discriminate]|].
  destruct l as [|n l]; [injection E as <- <-; split; [exact K0|]; split; [apply steps_tick, steps_refl|congruence]|]. rewrite G in E.
  destruct (children (tree s) (n :: l)) as [|m ms] eqn:Ec; injection E as <- <-.
  - assert (K : keeps (within (n :: l)) (tree s) (del (tree s) (n :: l))).
    { split; [apply wf_del; [assumption|]; intros k e I; now apply (wf_empty (tree s) (n :: l) k e)|]. exists (fun x => negb (same_loc (fst x) (n :: l))). split; [reflexivity|]. intros x X. unfold within in X. apply orb_false_iff in X as [X _]. now rewrite X. }
    split; [exact K|]. split; [apply steps_commit; [apply steps_refl|exact K]|]. intros _ _ _. now split.
  - split; [exact K0|]. split; [apply steps_tick, steps_refl|]. discriminate.
Qed.
Lemma remove_safe fuel : forall l s p s' r, ready (tree s) p l -> remove_recursive fault cwd fuel s p = (s', r) -> keeps (within l) (tree s) (tree s') /\ steps (keeps (within l) (tree s)) s s'.
Proof.
  induction fuel as [|fuel IH]; intros l s p s' r Rd E; cbn [remove_recursive] in E; assert (W : wf (tree s)) by apply Rd.
  { injection E as <- <-. split; [now apply keeps_refl|apply steps_refl]. }
  rewrite (list_ready s p l Rd) in E. destruct (fault (calls s)); [injection E as <- <-; split; [now apply keeps_refl|apply steps_tick, steps_refl]|].
  destruct (remove_each fault cwd (remove_recursive fault cwd fuel) (tick s) p (children (tree s) l) true) as [s1 r1] eqn:E1.
  apply remove_each_safe with (l := l) in E1; [|intros s2 p2 n s3 r3; apply IH|exact (child_names _ _ _ Rd)|exact Rd]. cbn [tree tick] in E1. destruct E1 as [K St].
  assert (K' : keeps (within l) (tree s) (tree s1)) by (eapply keeps_weaken; [|exact K]; intros k; apply inside_within).
  assert (St' : steps (keeps (within l) (tree s)) s s1) by (eapply steps_weaken; [|exact St]; intros m; apply keeps_weaken; intros k; apply inside_within).
  destruct r1 as [ok|c| |]; [|injection E as <- <-; now split..].
  destruct (sys_rmdir fault cwd s1 p) as [s2 b] eqn:E2. injection E as <- <-. apply rmdir_keeps with (l := l) in E2; [|now apply (ready_keeps (tree s))]. destruct E2 as (K2 & St2 & _).
  split; [eapply keeps_trans; eauto|]. eapply steps_trans; [exact St'|]. now apply steps_keeps.
Qed.
(** ** All inside is removed if nothing fails *)
Definition deep (t : fs) (l : loc) (fuel : nat) : Prop := forall r e, In (l ++ r, e) t -> (length r < fuel)%nat.
Definition gone (u : fs) (l : loc) : Prop := forall k e, In (k, e) u -> within l k = false.
Definition exact_rec (recurse : st -> bytes -> st * res bool) (l : loc) (fuel : nat) : Prop :=
  forall s p n, ready (tree s) p (l ++ [n]) -> deep (tree s) (l ++ [n]) fuel -> exists s', recurse s p = (s', Ok true) /\ gone (tree s') (l ++ [n]).
Lemma deep_keeps P t u l fuel : keeps P t u -> deep t l fuel -> deep u l fuel.
Proof. intros K D r e I. apply (D r e). now apply (keeps_in P t u). Qed.
Lemma gone_keeps P t u l : keeps P t u -> gone t l -> gone u l.
Proof. intros K D r e I. apply (D r e). now apply (keeps_in P t u). Qed.
Lemma deep_child t l n fuel : deep t l (S fuel) -> deep t (l ++ [n]) fuel.
Proof. intros D r e I. rewrite <- app_assoc in I. specialize (D _ _ I). cbn in D. lia. Qed.
Lemma remove_each_exact recurse l p fuel ns s : no_faults fault -> safe_rec recurse l -> exact_rec recurse l fuel -> NoDup ns ->
  Forall (fun n => name_ok n /\ Z.of_nat (length p) + 1 + Z.of_nat (length n) < PATH_MAX) ns -> (forall n, In n ns -> get (tree s) (l ++ [n]) <> None) ->
  ready (tree s) p l -> deep (tree s) l (S fuel) -> exists s', remove_each fault cwd recurse s p ns true = (s', Ok true) /\ forall n, In n ns -> gone (tree s') (l ++ [n]).
Proof.
  intros NF Safe Ex. revert s. induction ns as [|n ns IH]; intros s ND O Pr Rd D; cbn [remove_each].
  { exists s. split; [reflexivity|intros n []]. }
  inversion O as [|? ? [O1 O3] O2]; subst. inversion ND as [|? ? N1 N2]; subst. assert (W : wf (tree s)) by apply Rd.
  assert (Dots : same n (bs ".") || same n (bs "..") = false) by (destruct O1 as (_ & _ & _ & D1 & D2); now rewrite !same_ne). rewrite Dots.
  destruct (stat_child s p l n Rd O1 (Pr n (or_introl eq_refl))) as (e & G & NL & Cp & R & Es). rewrite Es, NF.
  assert (Next : forall s1, keeps (within (l ++ [n])) (tree s) (tree s1) -> gone (tree s1) (l ++ [n]) ->
    exists s', remove_each fault cwd recurse s1 p ns true = (s', Ok true) /\ forall m, In m (n :: ns) -> gone (tree s') (l ++ [m])).
  { intros s1 K Gn. assert (K' : keeps (inside l) (tree s) (tree s1)) by (eapply keeps_weaken; [|exact K]; intros k; apply inside_child).
    assert (Pr1 : forall m, In m ns -> get (tree s1) (l ++ [m]) <> None).
    { intros m I. rewrite (keeps_get _ (tree s) _ _ W K); [apply Pr; now right|]. apply sibling. congruence. }
    assert (Rd1 := ready_keeps _ _ _ _ Rd K'). destruct (IH s1 N2 O2 Pr1 Rd1) as (s' & E & Gs); [now apply (deep_keeps (inside l) (tree s))|].
    exists s'. split; [exact E|]. intros m [<-|I]; [|now apply Gs]. apply (gone_keeps (inside l) (tree s1)); [|exact Gn].
    now apply (remove_each_safe recurse l p ns s1 true s' (Ok true) Safe O2 Rd1). }
  destruct e as [d| |x]; [| |now specialize (NL x)].
  - unfold sys_unlink. cbn [tree tick calls]. rewrite NF, R, G. cbn [andb]. apply Next.
    + apply (keeps_del _ _ _ (EFile d)); [assumption|assumption|discriminate|apply within_iff; exists []; now rewrite app_nil_r].
    + cbn [tree commit]. intros k e I. apply filter_In in I as [I X]. cbn [fst] in X. unfold within. apply negb_true_iff in X. rewrite X. cbn [orb]. apply inside_false. intros (r & Rn & ->).
      assert (Gk : get (tree s) ((l ++ [n]) ++ r) = Some e) by (apply wf_get; [assumption|destruct l; discriminate|assumption]). apply wf_up in Gk; congruence.
  - rewrite Cp. destruct (Ex (tick s) (p ++ 47 :: n) n (ready_child _ _ _ _ Rd G) (deep_child _ _ _ _ D)) as (s1 & E1 & Gn). rewrite E1. cbn [andb].
    apply Next; [|exact Gn]. now apply (Safe (tick s) (p ++ 47 :: n) n s1 (Ok true) (ready_child _ _ _ _ Rd G)) in E1.
Qed.
Lemma remove_exact fuel : no_faults fault -> forall l s p, l <> [] -> ready (tree s) p l -> deep (tree s) l fuel -> exists s', remove_recursive fault cwd fuel s p = (s', Ok true) /\ gone (tree s') l.
Proof.
  intros NF. induction fuel as [|fuel IH]; intros l s p L Rd D; assert (W : wf (tree s)) by apply Rd.
  { exfalso. destruct Rd as (_ & _ & G & _). apply wf_get in G; [|assumption..]. specialize (D [] EDir). rewrite app_nil_r in D. specialize (D G). cbn in D. lia. }
  cbn [remove_recursive]. rewrite (list_ready s p l Rd), NF.
  assert (Safe : safe_rec (remove_recursive fault cwd fuel) l) by (intros s2 p2 n s3 r3; apply remove_safe).
  destruct (remove_each_exact (remove_recursive fault cwd fuel) l p fuel (children (tree s) l) (tick s)) as (s1 & E1 & Gn); try assumption.
  - intros s2 p2 n Rd2 D2. apply IH; [destruct l; discriminate|assumption|assumption].
  - apply children_nodup, W.
  - exact (child_names _ _ _ Rd).
  - intros n I. now apply wf_child in I.
  - rewrite E1. destruct (sys_rmdir fault cwd s1 p) as [s2 b] eqn:E2.
    destruct (remove_each_safe _ l p _ _ _ _ _ Safe (child_names _ _ _ Rd) (Rd : ready (tree (tick s)) p l) E1) as [K _]. cbn [tree tick] in K.
    assert (Rd1 := ready_keeps _ _ _ _ Rd K).
    assert (Ch : children (tree s1) l = []).
    { destruct (children (tree s1) l) as [|n ns] eqn:Ec; [reflexivity|]. exfalso. assert (I : In n (children (tree s1) l)) by (rewrite Ec; now left). apply children_iff in I as (e & I).
      assert (J : In n (children (tree s) l)) by (apply children_iff; exists e; now apply (keeps_in (inside l) (tree s) (tree s1))). specialize (Gn n J _ _ I). unfold within in Gn. rewrite same_loc_refl in Gn. discriminate Gn. }
    apply rmdir_keeps with (l := l) in E2; [|exact Rd1]. destruct E2 as (_ & _ & E2). destruct (E2 (NF _) Ch L) as [-> Et]. exists s2. split; [reflexivity|]. rewrite Et.
    intros k e I. apply filter_In in I as [I X]. cbn [fst] in X. unfold within. apply negb_true_iff in X. rewrite X. cbn [orb]. apply (wf_empty (tree s1) l k e); [apply Rd1|assumption|assumption].
Qed.
Lemma remove_tree fuel s p l s' : ready (tree s) p l -> remove_recursive fault cwd fuel s p = (s', Ok true) -> gone (tree s') l -> tree s' = filter (fun x => negb (within l (fst x))) (tree s).
Proof.
  intros Rd E Gn. apply remove_safe with (l := l) in E; [|exact Rd]. destruct E as ((_ & f & Ef & Hf) & _). rewrite Ef in *. apply filter_ext_in. intros [k e] I. cbn [fst]. destruct (within l k) eqn:X.
  - destruct (f (k, e)) eqn:F; [|reflexivity]. specialize (Gn k e). rewrite Gn in X; [discriminate|]. apply filter_In. now split.
  - now apply Hf.
Qed.
End Remove.
