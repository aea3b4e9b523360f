(** Walking directories. *)
From Verif Require Import Base BaseFacts FilesSpec FilesModel FilesProofs FilesProofs2 FilesProofs3 FilesProofs4 FilesProofs6.

Lemma slashed_snoc r n : r <> [] -> slashed (r ++ [n]) = slashed r ++ 47 :: n.
Proof. induction r as [|m r IH]; [congruence|]. intros _. destruct r as [|k r]; [reflexivity|]. cbn [app]. rewrite (slashed_cons m (k :: (r ++ [n]))) by discriminate. rewrite (slashed_cons m (k :: r)) by discriminate. change (k :: r ++ [n]) with ((k :: r) ++ [n]). rewrite IH by discriminate. now rewrite <- app_assoc. Qed.
Lemma slashed_nil r : Forall name_ok r -> slashed r = [] -> r = [].
Proof. destruct r as [|n [|m r]]; intros F E; [reflexivity| |]; inversion F as [|? ? O _]; subst; destruct O as (O & _); cbn in E; (destruct n; [now destruct (O eq_refl)|discriminate E]). Qed.
Lemma comps_slashed r : r <> [] -> Forall name_ok r -> comps (slashed r) = r.
Proof.
  induction r as [|n r IH]; [congruence|]. intros _ F. inversion F as [|? ? O F']; subst. destruct r as [|m r]; [now apply comps_name, O|]. rewrite slashed_cons by discriminate. rewrite comps_app, (comps_name n), IH by (discriminate || assumption || apply O). reflexivity.
Qed.
Lemma wf_names t l r e : wf t -> get t (l ++ r) = Some e -> Forall name_ok r.
Proof.
  intros W. revert e. induction r as [|n r IH] using rev_ind; intros e G; [constructor|]. rewrite app_assoc in G. apply Forall_app. split; [|constructor; [now apply (wf_name t _ n e) in G|constructor]]. apply wf_up1 in G; [|assumption]. now apply IH in G.
Qed.
(** Directories come before what is in them *)
Fixpoint ordered (seen R : list (list bytes)) : Prop :=
  match R with [] => True | x :: R => (forall r n, x = r ++ [n] -> r <> [] -> In r seen) /\ ordered (x :: seen) R end.
Lemma ordered_mono R : forall seen seen', (forall x, In x seen -> In x seen') -> ordered seen R -> ordered seen' R.
Proof. induction R as [|x R IH]; intros seen seen' H; cbn; [auto|]. intros [A B]. split; [eauto|]. eapply IH; [|exact B]. intros y [->|I]; [now left|right; auto]. Qed.
Lemma ordered_app A B seen : ordered seen A -> ordered [] B -> ordered seen (A ++ B).
Proof.
  revert seen. induction A as [|x A IH]; intros seen; cbn; [intros _; apply ordered_mono; intros ? []|]. intros [H K] L. split; [assumption|]. now apply IH.
Qed.
Lemma ordered_under n R : forall seen, ordered seen R -> ordered ([n] :: map (cons n) seen) (map (cons n) R).
Proof.
  induction R as [|x R IH]; intros seen; cbn; [auto|]. intros [H K]. split.
  - intros r m E Rn. destruct r as [|a r]; [congruence|]. injection E as <- E. destruct r as [|b r]; [now left|]. right. apply in_map. eapply H; [exact E|discriminate].
  - specialize (IH _ K). cbn in IH. eapply ordered_mono; [|exact IH]. intros y I. cbn in *. tauto.
Qed.
Lemma ordered_spec R1 x R2 seen : ordered seen (R1 ++ x :: R2) -> forall r n, x = r ++ [n] -> r <> [] -> In r seen \/ In r R1.
Proof.
  revert seen. induction R1 as [|y R1 IH]; intros seen; cbn [app ordered]; intros [A B] r n E Rn; [left; eauto|]. destruct (IH _ B r n E Rn) as [[->|H]|H]; [right; now left|now left|right; now right].
Qed.

Section Walk.
Context (fault : nat -> option Z) (cwd : loc) (NF : no_faults fault).
Context (t : fs) (base : bytes) (l0 : loc) (Rd0 : ready cwd t base l0).
Lemma at_t s : tree s = t -> wf t. Proof. intros _. apply Rd0. Qed.
Definition full_of (rn : list bytes) : bytes := match rn with [] => base | _ => base ++ 47 :: slashed rn end.
Lemma ready_rel rn : get t (l0 ++ rn) = Some EDir -> ready cwd t (full_of rn) (l0 ++ rn).
Proof.
  induction rn as [|n rn IH] using rev_ind; intros G; [rewrite app_nil_r; exact Rd0|]. rewrite app_assoc in G |- *. assert (W : wf t) by apply Rd0. assert (G' := wf_up1 _ _ _ _ W G).
  assert (E : full_of (rn ++ [n]) = full_of rn ++ 47 :: n).
  { destruct rn as [|m rn]; [reflexivity|]. unfold full_of. cbn [app]. change (m :: rn ++ [n]) with ((m :: rn) ++ [n]). rewrite slashed_snoc by discriminate. now rewrite <- app_assoc. }
  rewrite E. apply ready_child; [now apply IH|assumption].
Qed.
Definition listed (rn : list bytes) (R : list (list bytes)) : list bytes := map (fun r => slashed (rn ++ r)) R.
Definition walk_rec (recurse : st -> bytes -> list bytes -> st * res (list bytes)) (rn : list bytes) : Prop :=
  forall n s out, tree s = t -> get t (l0 ++ rn ++ [n]) = Some EDir -> exists s' R, recurse s (slashed (rn ++ [n])) out = (s', Ok (out ++ listed (rn ++ [n]) R)) /\ tree s' = t /\ past s' = past s /\
    NoDup R /\ ordered [] R /\ forall r, In r R <-> r <> [] /\ get t (l0 ++ (rn ++ [n]) ++ r) <> None.
Lemma walk_each_spec recurse rn : walk_rec recurse rn -> get t (l0 ++ rn) = Some EDir -> forall ns s out, tree s = t -> NoDup ns -> (forall n, In n ns -> get t (l0 ++ rn ++ [n]) <> None) ->
  exists s' R, walk_each fault cwd recurse s (full_of rn) (slashed rn) ns out = (s', Ok (out ++ listed rn R)) /\ tree s' = t /\ past s' = past s /\ NoDup R /\ ordered [] R /\
    forall r, In r R <-> exists n r', r = n :: r' /\ In n ns /\ get t (l0 ++ rn ++ r) <> None.
Proof.
  intros Rec G. assert (W : wf t) by apply Rd0. induction ns as [|n ns IH]; intros s out Et ND Pr; cbn [walk_each].
  { exists s, []. cbn. rewrite app_nil_r. split; [reflexivity|]. split; [assumption|]. split; [reflexivity|]. split; [constructor|]. split; [exact I|]. intros r. split; [tauto|]. intros (n & r' & _ & [] & _). }
  inversion ND as [|? ? N1 N2]; subst. assert (P0 := Pr n (or_introl eq_refl)).
  assert (Rd : ready cwd (tree s) (full_of rn) (l0 ++ rn)) by (rewrite Et; now apply ready_rel). rewrite app_assoc in P0. destruct (get t ((l0 ++ rn) ++ [n])) as [e0|] eqn:G0; [|congruence]. assert (O := wf_name _ _ _ _ W G0).
  assert (Dots : same n (bs ".") || same n (bs "..") = false) by (destruct O as (_ & _ & _ & D1 & D2); now rewrite !same_ne). rewrite Dots.
  destruct (stat_child fault cwd s (full_of rn) (l0 ++ rn) n Rd O ltac:(rewrite Et; congruence)) as (e & Ge & NL & Cp & R & Es). rewrite Es, NF. rewrite Et in Ge.
  assert (Names : Forall name_ok rn) by (eapply wf_names; [exact W|exact G]).
  assert (Cr : match slashed rn with [] => n | _ => slashed rn ++ 47 :: n end = slashed (rn ++ [n])).
  { destruct rn as [|m rn']; [reflexivity|]. rewrite slashed_snoc by discriminate. destruct (slashed (m :: rn')) eqn:E; [|reflexivity]. apply slashed_nil in E; [discriminate|assumption]. }
  rewrite Cr.
  assert (Next : forall s1 Rn, tree s1 = t -> past s1 = past s -> NoDup Rn -> ordered [] Rn -> (forall r, In r Rn <-> exists r', r = n :: r' /\ get t (l0 ++ rn ++ r) <> None) ->
    exists s' R, walk_each fault cwd recurse s1 (full_of rn) (slashed rn) ns (out ++ listed rn Rn) = (s', Ok (out ++ listed rn R)) /\ tree s' = t /\ past s' = past s /\ NoDup R /\ ordered [] R /\
      forall r, In r R <-> exists m r', r = m :: r' /\ In m (n :: ns) /\ get t (l0 ++ rn ++ r) <> None).
  { intros s1 Rn E1 E2 ND1 Or1 In1. destruct (IH s1 (out ++ listed rn Rn) E1 N2) as (s' & R2 & E & A & B & C & D & F); [intros m I; apply Pr; now right|].
    exists s', (Rn ++ R2). rewrite E. split; [unfold listed; rewrite map_app, app_assoc; reflexivity|]. split; [assumption|]. split; [congruence|]. split; [|split; [now apply ordered_app|]].
    - assert (Dj : forall x, In x Rn -> ~ In x R2). { intros x I J. apply In1 in I as (r' & -> & _). apply F in J as (m & r2 & [= -> ->] & J & _). contradiction. }
      clear -ND1 C Dj. induction Rn as [|x Rn IH]; [assumption|]. inversion ND1 as [|? ? A B]; subst. cbn. constructor; [rewrite in_app_iff; intros [H|H]; [contradiction|exact (Dj x (or_introl eq_refl) H)]|]. apply IH; [assumption|]. intros y I. apply Dj. now right.
    - intros r. rewrite in_app_iff, In1, F. split.
      + intros [(r' & -> & H)|(m & r' & -> & I & H)]; [exists n, r'; split; [reflexivity|]; split; [now left|assumption]|exists m, r'; split; [reflexivity|]; split; [now right|assumption]].
      + intros (m & r' & -> & [<-|I] & H); [left; eauto|right; exists m, r'; auto]. }
  destruct e as [d| |x]; [| |now specialize (NL x)]; cbn [is_dir].
  - apply (Next (tick s) [[n]]); [exact Et|reflexivity|repeat constructor; intros []| |].
    + cbn. split; [|exact I]. intros r m E Rn. destruct r as [|a [|b r]]; [congruence|discriminate E|discriminate E].
    + intros r. cbn. split.
      * intros [<-|[]]. exists []. split; [reflexivity|]. rewrite app_assoc. congruence.
      * intros (r' & -> & H). destruct r' as [|m r']; [now left|]. exfalso. destruct (get t (l0 ++ rn ++ n :: m :: r')) as [y|] eqn:Ey; [|congruence].
        replace (l0 ++ rn ++ n :: m :: r') with (((l0 ++ rn) ++ [n]) ++ m :: r') in Ey by (rewrite <- !app_assoc; reflexivity). apply wf_up in Ey; [congruence|assumption|discriminate].
  - rewrite <- app_assoc in Ge. destruct (Rec n (tick s) (out ++ [slashed (rn ++ [n])]) Et Ge) as (s1 & R1 & E1 & T1 & P1 & ND1 & Or1 & In1). rewrite E1. rewrite <- app_assoc.
    assert (El : [slashed (rn ++ [n])] ++ listed (rn ++ [n]) R1 = listed rn ([n] :: map (cons n) R1)).
    { unfold listed. cbn [map app]. f_equal. rewrite map_map. apply map_ext. intros r. now rewrite <- app_assoc. }
    rewrite El. apply Next; [assumption|assumption| | |].
    + constructor; [intros I; apply in_map_iff in I as (r & [= ->] & I); apply In1 in I as [I _]; congruence|]. clear -ND1. induction ND1 as [|x R A B IH]; cbn; constructor; [|assumption]. intros I. apply in_map_iff in I as (y & [= ->] & I). contradiction.
    + cbn. split; [intros r m E Rn; destruct r as [|a [|b r]]; [congruence|discriminate E|discriminate E]|]. exact (ordered_under n R1 [] Or1).
    + intros r. cbn. rewrite in_map_iff. split.
      * intros [<-|(r' & <- & I)]; [exists []; split; [reflexivity|]; congruence|]. apply In1 in I as [_ I]. exists r'. split; [reflexivity|]. now rewrite <- app_assoc in I.
      * intros (r' & -> & H). destruct r' as [|m r']; [now left|]. right. exists (m :: r'). split; [reflexivity|]. apply In1. split; [discriminate|]. now rewrite <- app_assoc.
Qed.
Lemma walk_spec fuel : forall rn s out, tree s = t -> get t (l0 ++ rn) = Some EDir -> deep t (l0 ++ rn) fuel -> (0 < fuel)%nat ->
  exists s' R, walk_recursive fault cwd fuel base s (slashed rn) out = (s', Ok (out ++ listed rn R)) /\ tree s' = t /\ past s' = past s /\ NoDup R /\ ordered [] R /\ forall r, In r R <-> r <> [] /\ get t (l0 ++ rn ++ r) <> None.
Proof.
  assert (W : wf t) by apply Rd0. induction fuel as [|fuel IH]; intros rn s out Et G D Fu; [lia|]. cbn [walk_recursive].
  assert (Names : Forall name_ok rn) by (eapply wf_names; [exact W|exact G]).
  assert (Rd := ready_rel rn G).
  assert (Ef : match slashed rn with [] => firstn PATH_BUF base | _ => child_path base (slashed rn) end = full_of rn).
  { destruct rn as [|m rn']; [cbn; apply firstn_all2; destruct Rd0 as (_ & (_ & _ & _ & _ & _ & L) & _); unfold PATH_BUF, PATH_MAX in *; lia|].
    destruct (slashed (m :: rn')) as [|c cs] eqn:E; [apply slashed_nil in E; [discriminate|assumption]|]. rewrite <- E. rewrite child_path_id; [reflexivity|].
    assert (F : fits t base l0) by apply Rd0. assert (I : In (l0 ++ m :: rn', EDir) t) by (apply wf_get; [assumption|destruct l0; discriminate|assumption]). specialize (F (m :: rn') EDir I ltac:(discriminate)). lia. }
  rewrite Ef. rewrite (list_ready fault cwd s (full_of rn) (l0 ++ rn)) by (rewrite Et; exact Rd). rewrite NF, Et.
  destruct (walk_each_spec (walk_recursive fault cwd fuel base) rn) with (ns := children t (l0 ++ rn)) (s := tick s) (out := out) as (s' & R & E & A & B & C & Dd & F); try assumption.
  - intros n s1 out1 E1 G1. destruct (IH (rn ++ [n]) s1 out1 E1 G1) as (s' & R & H); [rewrite app_assoc; now apply deep_child| |exists s', R; exact H].
    assert (I : In (l0 ++ rn ++ [n], EDir) t) by (apply wf_get; [assumption|destruct l0, rn; discriminate|assumption]). rewrite app_assoc in I. specialize (D _ _ I). cbn in D. lia.
  - apply children_nodup, W.
  - intros n I. rewrite app_assoc. now apply wf_child in I.
  - exists s', R. split; [exact E|]. split; [assumption|]. split; [assumption|]. split; [assumption|]. split; [assumption|]. intros r. rewrite F. split.
    + intros (n & r' & -> & I & H). split; [discriminate|assumption].
    + intros [Rn H]. destruct r as [|n r']; [congruence|]. exists n, r'. split; [reflexivity|]. split; [|assumption]. apply wf_child; [assumption|]. rewrite <- app_assoc.
      destruct r' as [|m r']; [assumption|]. destruct (get t (l0 ++ rn ++ n :: m :: r')) as [y|] eqn:Ey; [|congruence].
      replace (l0 ++ rn ++ n :: m :: r') with ((l0 ++ rn ++ [n]) ++ m :: r') in Ey by (rewrite <- !app_assoc; reflexivity). apply wf_up in Ey; [congruence|assumption|discriminate].
Qed.
End Walk.
