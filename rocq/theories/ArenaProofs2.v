(** Scopes, reset, destroy and stores; whole histories. *)
From Verif Require Import Base BaseFacts ArenaSpec ArenaModel ArenaProofs.
From Coq Require Import Sorted.

Lemma cur_block simple s ls ch cur : inv simple s ls ch cur -> exists b, nth_error (blocks (ar s)) cur = Some b /\ freed b = false.
Proof. intros I. exact (path_in _ _ _ _ (i_path _ _ _ _ _ I) (i_incur _ _ _ _ _ I)). Qed.

Lemma step_save simple s ls ch cur : inv simple s ls ch cur ->
  exists m, scope_save (ar s) = Ok m /\ inv simple (St (ar s) (m :: marks s)) (Lv (live ls) (length (live ls) :: scopes ls)) ch cur.
Proof.
  intros I. destruct (cur_block _ _ _ _ _ I) as (b & E & Fb). unfold scope_save. rewrite (i_cur _ _ _ _ _ I), (deref_ok _ _ _ E Fb).
  cbn [rmap]. eexists. split; [reflexivity|].
  destruct (i_fine _ _ _ _ _ I cur b E) as (F1 & F2 & F3).
  assert (UC : usedat (blocks (ar s)) cur = used b) by (unfold usedat; now rewrite E).
  constructor; cbn [ar live scopes]; try apply I.
  cbn [marks marks_ok fst snd]. split; [|split; [lia|]].
  - exists cur. cbn [fst snd]. split; [reflexivity|]. split; [apply I|]. split; [lia|]. split; [lia|]. split; [exact F3|]. split; [|split].
    + intros x Ex. assert (x = b) by congruence. subst. lia.
    + rewrite firstn_all. rewrite <- (i_total _ _ _ _ _ I). rewrite (sumused_split _ cur ch (i_sorted _ _ _ _ _ I) (i_incur _ _ _ _ _ I)).
      rewrite UC. rewrite (sumused_zero _ (filter (fun i => cur <? i)%nat ch)); [lia|].
      intros i Hi. apply filter_In in Hi. apply (i_after _ _ _ _ _ I); [tauto|lia].
    + rewrite firstn_all. intros al H. destruct (i_placed _ _ _ _ _ I al H) as (P1 & P2 & P3 & P4 & P5 & P6).
      destruct (Nat.eq_dec (blk al) cur) as [K|K]; [right|left; lia]. rewrite K, UC in P6. split; assumption.
  - exists cur. split; [reflexivity|]. split; [lia|]. apply (i_marks _ _ _ _ _ I).
Qed.

Lemma path_suffix bs c b ch : forall p, path bs p ch -> StronglySorted lt ch -> In c ch -> nth_error bs c = Some b ->
  path bs (next b) (filter (fun i => c <? i)%nat ch).
Proof.
  induction ch as [|i ch IH]; intros p P S H E; [easy|]. cbn in P. destruct P as (-> & x & Ex & Fx & P).
  apply StronglySorted_inv in S. destruct S as [S F]. rewrite Forall_forall in F. cbn [filter]. destruct H as [->|H].
  - rewrite Nat.ltb_irrefl. assert (x = b) by congruence. subst x. rewrite filter_all; [exact P|]. intros i Hi. apply F in Hi. lia.
  - assert (i < c)%nat by now apply F. destruct (c <? i)%nat eqn:K; [lia|]. now apply (IH _ P).
Qed.

Lemma fop_firstn {A} (R : A -> A -> Prop) n l : ForallOrdPairs R l -> ForallOrdPairs R (firstn n l).
Proof.
  intros H. revert n. induction H as [|a l F P IH]; intros [|n]; cbn; try constructor; [|apply IH].
  rewrite Forall_forall in *. intros x Hx. apply F. rewrite <- (firstn_skipn n l). apply in_or_app. now left.
Qed.
Lemma in_firstn {A} n (l : list A) x : In x (firstn n l) -> In x l.
Proof. intros H. rewrite <- (firstn_skipn n l). apply in_or_app. now left. Qed.

Lemma step_restore simple s ls ch cur n ns : inv simple s ls ch cur -> scopes ls = n :: ns ->
  exists m ms a cur', marks s = m :: ms /\ scope_restore (ar s) m = Ok a /\ inv false (St a ms) (Lv (firstn n (live ls)) ns) ch cur'.
Proof.
  intros I Sc. pose proof (i_marks _ _ _ _ _ I) as M. rewrite Sc in M. destruct (marks s) as [|m ms] eqn:Em; [easy|].
  cbn [marks_ok] in M. destruct M as ((c & Ec & Hc & Hn & U1 & U2 & U3 & U4 & U5) & Tn & c' & Ec' & Tc & M).
  assert (c' = c) by congruence. subst c'. destruct m as [mb u]. cbn [fst snd] in *. subst mb.
  destruct (path_in _ _ _ _ (i_path _ _ _ _ _ I) Hc) as (b & E & Fb).
  pose proof (i_sorted _ _ _ _ _ I) as SS. pose proof (i_path _ _ _ _ _ I) as PP.
  pose proof (path_suffix _ _ _ _ _ PP SS Hc E) as PS.
  assert (ND : NoDup (filter (fun i => c <? i)%nat ch)) by (apply sorted_nodup, filter_sorted, SS).
  destruct (clear_chain_ok (S (length (blocks (ar s)))) (ar s) (next b) _ PS ND) as (a1 & C & R & H1).
  { pose proof (path_length _ _ _ PS ND). lia. }
  assert (E1 : nth_error (blocks a1) c = Some b).
  { rewrite H1. destruct (in_dec _ _ _) as [K|K]; [|exact E]. apply filter_In in K. lia. }
  exists (Some c, u), ms, (set_current (put_block a1 c (with_used b u)) (Some c)), c. split; [reflexivity|]. split.
  { unfold scope_restore. cbn [fst snd]. rewrite (deref_ok _ _ _ E Fb). cbn [rbind]. rewrite C. cbn [rbind].
    rewrite (deref_ok _ _ _ E1 Fb). reflexivity. }
  destruct R as (R1 & R2 & R3 & R4 & R5 & R6).
  set (bs' := set_nth (blocks a1) c (with_used b u)).
  assert (N1 : nth_error (blocks a1) c <> None) by congruence.
  (* the blocks afterwards *)
  assert (W : forall i x, nth_error (blocks (ar s)) i = Some x -> exists x', nth_error bs' i = Some x' /\ next x' = next x /\ freed x' = freed x /\ size x' = size x).
  { intros i x Ex. unfold bs'. rewrite nth_set, E1. destruct (i =? c)%nat eqn:K.
    - apply Nat.eqb_eq in K. subst. assert (x = b) by congruence. subst. eexists. split; [reflexivity|]. cbn. auto.
    - rewrite H1. destruct (in_dec _ _ _); rewrite Ex; cbn; eexists; split; try reflexivity; auto. }
  assert (UB1 : forall i, In i ch -> (i < c)%nat -> usedat bs' i = usedat (blocks (ar s)) i).
  { intros i Hi L. unfold bs'. rewrite usedat_set by exact N1. destruct (i =? c)%nat eqn:K; [lia|].
    unfold usedat. rewrite H1. destruct (in_dec _ _ _) as [J|J]; [|reflexivity]. apply filter_In in J. lia. }
  assert (UB2 : usedat bs' c = u). { unfold bs'. rewrite usedat_set by exact N1. now rewrite Nat.eqb_refl. }
  assert (UB3 : forall i, In i ch -> (c < i)%nat -> usedat bs' i = 0).
  { intros i Hi L. unfold bs'. rewrite usedat_set by exact N1. destruct (i =? c)%nat eqn:K; [lia|].
    unfold usedat. rewrite H1. destruct (in_dec _ _ _) as [J|J].
    - destruct (nth_error (blocks (ar s)) i); reflexivity.
    - exfalso. apply J. apply filter_In. split; [exact Hi|]. lia. }
  constructor; cbn [ar marks live scopes set_current put_block blocks mem first current default_size destroyed]; fold bs'.
  - rewrite R5. apply (i_alive _ _ _ _ _ I).
  - rewrite R2. eapply path_ext; [|exact PP]. intros i x _ Ex. destruct (W i x Ex) as (x' & A & B & D & _). eauto.
  - exact SS.
  - reflexivity.
  - exact Hc.
  - exact UB3.
  - intros i x' Ex'. assert (Li : (i < length (blocks (ar s)))%nat).
    { rewrite <- R6, <- (set_nth_length _ c (with_used b u)). fold bs'. apply nth_error_Some. congruence. }
    apply nth_error_Some in Li. destruct (nth_error (blocks (ar s)) i) as [x|] eqn:Ex; [|easy].
    pose proof (i_fine _ _ _ _ _ I i x Ex) as (F1 & F2 & F3). unfold bs' in Ex'. rewrite nth_set, E1 in Ex'. destruct (i =? c)%nat eqn:K.
    + apply Nat.eqb_eq in K. subst i. assert (x = b) by congruence. subst x. injection Ex' as <-. unfold fine. cbn [with_used used size].
      specialize (U3 b E). split; [lia|]. split; [exact F2|exact U2].
    + rewrite H1, Ex in Ex'. destruct (in_dec _ _ _); cbn in Ex'; injection Ex' as <-; [|split; [|split]; assumption].
      unfold fine. cbn [with_used used size]. split; [lia|]. split; [exact F2|reflexivity].
  - rewrite R4. apply (i_default _ _ _ _ _ I).
  - intros al H. destruct (i_placed _ _ _ _ _ I al (in_firstn _ _ _ H)) as (P1 & P2 & P3 & P4 & P5 & P6).
    destruct (U5 al H) as [L|[L1 L2]].
    + repeat split; try assumption; [lia|]. rewrite UB1 by assumption. exact P6.
    + repeat split; try assumption; [lia|]. rewrite L1, UB2. exact L2.
  - apply fop_firstn, (i_apart _ _ _ _ _ I).
  - rewrite (sumused_split bs' c ch SS Hc), UB2. rewrite (sumused_zero bs' (filter (fun i => c <? i)%nat ch)).
    2:{ intros i Hi. apply filter_In in Hi. apply UB3; [tauto|lia]. }
    rewrite (sumused_ext (blocks (ar s))); [lia|]. intros i Hi. apply filter_In in Hi. apply UB1; [tauto|lia].
  - intros al H k Hk. cbn [mem set_current put_block]. rewrite R1. apply (i_mem _ _ _ _ _ I al (in_firstn _ _ _ H) k Hk).
  - rewrite firstn_length_le by exact Hn. eapply marks_ok_move; [exact M| | |lia|lia].
    + intros x Hx Hi. split; [exact Hi|]. split; [reflexivity|]. split.
      * intros i Hi2 L. apply UB1; [exact Hi2|lia].
      * intros x' Ex'. destruct (path_in _ _ _ _ PP Hi) as (x0 & Ex0 & _). destruct (W x x0 Ex0) as (x2 & A & _ & _ & B).
        exists x0. split; [exact Ex0|congruence].
    + intros k Hk _. rewrite firstn_firstn, Nat.min_l by exact Hk. rewrite firstn_length_le by exact Hn. split; [exact Hk|]. split; [reflexivity|]. eauto.
  - easy.
Qed.

Lemma step_reset simple s ls ch cur : inv simple s ls ch cur -> scopes ls = [] ->
  exists a cur', arena_reset (ar s) = Ok a /\ inv false (St a (marks s)) (Lv [] []) ch cur'.
Proof.
  intros I Sc. pose proof (i_sorted _ _ _ _ _ I) as SS. pose proof (i_path _ _ _ _ _ I) as PP.
  pose proof (sorted_nodup _ SS) as ND.
  destruct (clear_chain_ok (S (length (blocks (ar s)))) (ar s) (first (ar s)) _ PP ND) as (a1 & C & R & H1).
  { pose proof (path_length _ _ _ PP ND). lia. }
  destruct R as (R1 & R2 & R3 & R4 & R5 & R6).
  destruct ch as [|c ch]; [destruct (i_incur _ _ _ _ _ I)|]. assert (FC : first (ar s) = Some c) by (cbn in PP; tauto).
  unfold arena_reset. rewrite C. cbn [rmap]. exists (set_current a1 (first a1)), c. split; [reflexivity|].
  assert (UZ : forall i, In i (c :: ch) -> usedat (blocks a1) i = 0).
  { intros i Hi. unfold usedat. rewrite H1. destruct (in_dec _ _ _); [|easy]. destruct (nth_error (blocks (ar s)) i); reflexivity. }
  constructor; cbn [ar marks live scopes set_current blocks mem first current default_size destroyed].
  - rewrite R5. apply (i_alive _ _ _ _ _ I).
  - rewrite R2. eapply path_ext; [|exact PP]. intros i x _ Ex. rewrite H1. destruct (in_dec _ _ _); rewrite Ex; cbn; eexists; split; try reflexivity; auto.
  - exact SS.
  - now rewrite R2.
  - now left.
  - intros i Hi _. now apply UZ.
  - intros i x' Ex'. rewrite H1 in Ex'. destruct (nth_error (blocks (ar s)) i) as [x|] eqn:Ex; [|destruct (in_dec _ _ _); easy].
    pose proof (i_fine _ _ _ _ _ I i x Ex) as (F1 & F2 & F3).
    destruct (in_dec _ _ _); cbn in Ex'; injection Ex' as <-; [|split; [|split]; assumption].
    unfold fine. cbn [with_used used size]. split; [lia|]. split; [exact F2|reflexivity].
  - rewrite R4. apply (i_default _ _ _ _ _ I).
  - easy.
  - constructor.
  - rewrite (sumused_zero _ (c :: ch)); [reflexivity|]. exact UZ.
  - easy.
  - pose proof (i_marks _ _ _ _ _ I) as M. rewrite Sc in M. destruct (marks s); easy.
  - easy.
Qed.

Lemma update_nth l k f j : nth_error (update l k f) j = if (j =? k)%nat then option_map f (nth_error l k) else nth_error l j.
Proof. revert k j; induction l as [|a l IH]; intros [|k] [|j]; cbn; auto. destruct (j =? k)%nat; reflexivity. Qed.
Lemma update_length l k f : length (update l k f) = length l.
Proof. revert k; induction l as [|a l IH]; intros [|k]; cbn; auto. Qed.
Lemma fop_nth {A} (R : A -> A -> Prop) l : ForallOrdPairs R l -> forall i j a b, (i < j)%nat -> nth_error l i = Some a -> nth_error l j = Some b -> R a b.
Proof.
  induction 1 as [|x l F P IH]; intros i j a b L Ei Ej; [destruct i; easy|]. destruct j; [lia|]. destruct i; cbn in *.
  - injection Ei as <-. rewrite Forall_forall in F. apply F. now apply nth_error_In in Ej.
  - apply (IH i j); auto. lia.
Qed.
Definition keeps (f : alloc -> alloc) : Prop := forall a, blk (f a) = blk a /\ off (f a) = off a /\ len (f a) = len a.
Lemma update_in l k f al : In al (update l k f) -> keeps f -> exists al0, In al0 l /\ blk al = blk al0 /\ off al = off al0 /\ len al = len al0.
Proof.
  intros H K. apply In_nth_error in H. destruct H as (j & H). rewrite update_nth in H. destruct (j =? k)%nat.
  - destruct (nth_error l k) as [a|] eqn:E; [|easy]. cbn in H. injection H as <-. exists a. split; [now apply nth_error_In in E|]. apply K.
  - exists al. split; [now apply nth_error_In in H|]. auto.
Qed.
Lemma update_fop l k f : keeps f -> ForallOrdPairs apart l -> ForallOrdPairs apart (update l k f).
Proof.
  intros K H. revert k. induction H as [|x l F P IH]; intros [|k]; cbn; try constructor; auto.
  - destruct (K x) as (K1 & K2 & K3). rewrite Forall_forall in *. intros y Hy. unfold apart. rewrite K1, K2, K3. now apply F.
  - rewrite Forall_forall in *. intros y Hy. destruct (update_in _ _ _ _ Hy K) as (y0 & Hy0 & A & B & C). unfold apart. rewrite A, B. now apply F.
Qed.
Lemma update_total l k f : keeps f -> total (update l k f) = total l.
Proof. intros K. revert k. induction l as [|a l IH]; intros [|k]; cbn [update total]; auto; [|now rewrite IH]. destruct (K a) as (_ & _ & ->). reflexivity. Qed.
Lemma update_firstn l k f n : firstn n (update l k f) = update (firstn n l) k f.
Proof. revert k n. induction l as [|a l IH]; intros [|k] [|n]; cbn; auto. now rewrite IH. Qed.

Lemma step_write simple s ls ch cur k i v al : inv simple s ls ch cur -> nth_error (live ls) k = Some al -> 0 <= i < len al ->
  inv simple (St (set_mem (ar s) (fun j x => if (j =? blk al)%nat && (x =? off al + i) then v else mem (ar s) j x)) (marks s))
    (Lv (update (live ls) k (fun a => Al (blk a) (off a) (len a) (put (contents a) i v))) (scopes ls)) ch cur.
Proof.
  intros I E Hi. set (f := fun a => Al (blk a) (off a) (len a) (put (contents a) i v)).
  assert (K : keeps f) by (intros a; unfold f; cbn; auto).
  constructor; cbn [ar marks live scopes set_mem blocks mem first current default_size destroyed]; try apply I.
  - intros al' H. destruct (update_in _ _ _ _ H K) as (a0 & H0 & A & B & C). unfold placed. rewrite A, B, C. apply (i_placed _ _ _ _ _ I a0 H0).
  - apply update_fop; [exact K|apply I].
  - rewrite update_total by exact K. apply I.
  - intros al' H x Hx. cbn [mem set_mem]. apply In_nth_error in H. destruct H as (j & H). rewrite update_nth in H.
    destruct (j =? k)%nat eqn:J.
    + rewrite E in H. cbn in H. injection H as <-. cbn in Hx |- *. rewrite Nat.eqb_refl. cbn [andb]. unfold put.
      destruct (x =? i) eqn:X.
      * apply Z.eqb_eq in X. subst. now rewrite Z.eqb_refl.
      * destruct (off al + x =? off al + i) eqn:Y; [lia|]. apply (i_mem _ _ _ _ _ I al (nth_error_In _ _ E) x Hx).
    + apply Nat.eqb_neq in J. pose proof (nth_error_In _ _ H) as Hin.
      destruct ((blk al' =? blk al)%nat && (off al' + x =? off al + i)) eqn:Y; [|apply (i_mem _ _ _ _ _ I al' Hin x Hx)].
      exfalso. destruct (i_placed _ _ _ _ _ I al' Hin) as (_ & _ & _ & _ & L1 & _).
      destruct (i_placed _ _ _ _ _ I al (nth_error_In _ _ E)) as (_ & _ & _ & _ & L2 & _).
      pose proof (round8_bound (len al) L2). pose proof (round8_bound (len al') L1).
      destruct (Nat.lt_trichotomy j k) as [L|[L|L]]; [|lia|].
      * pose proof (fop_nth _ _ (i_apart _ _ _ _ _ I) _ _ _ _ L H E) as [A|A]; lia.
      * pose proof (fop_nth _ _ (i_apart _ _ _ _ _ I) _ _ _ _ L E H) as [A|A]; lia.
  - eapply marks_ok_move; [apply (i_marks _ _ _ _ _ I)| | |lia|rewrite update_length; lia].
    + intros x Hx Hb. split; [exact Hb|]. split; [reflexivity|]. split; [reflexivity|]. eauto.
    + intros n _ Hn. rewrite update_length, update_firstn, update_total by exact K. split; [exact Hn|]. split; [reflexivity|].
      intros al' H. destruct (update_in _ _ _ _ H K) as (a0 & H0 & A & B & C). eauto.
Qed.

(** after destroy *)
Record dead (s : state) (ls : lives) : Prop := Dead {
  d_flag : destroyed (ar s) = true;
  d_ptrs : first (ar s) = None /\ current (ar s) = None;
  d_live : live ls = [];
  d_marks : Forall (fun m => fst m = None) (marks s) /\ length (marks s) = length (scopes ls) }.
Lemma step_destroy simple s ls ch cur : inv simple s ls ch cur ->
  exists a, arena_destroy (ar s) = Ok a /\ dead (St a []) (Lv [] []) /\
    (forall i b, In i ch -> nth_error (blocks a) i = Some b -> freed b = true) /\ length (blocks a) = length (blocks (ar s)).
Proof.
  intros I. pose proof (i_path _ _ _ _ _ I) as PP. pose proof (sorted_nodup _ (i_sorted _ _ _ _ _ I)) as ND.
  destruct (free_chain_ok (S (length (blocks (ar s)))) (ar s) (first (ar s)) _ PP ND) as (a1 & C & R & H1).
  { pose proof (path_length _ _ _ PP ND). lia. }
  unfold arena_destroy. rewrite (i_alive _ _ _ _ _ I), C. cbn [rmap]. eexists. split; [reflexivity|]. split; [|split].
  - constructor; cbn; auto.
  - cbn [blocks]. intros i b Hi Eb. rewrite H1 in Eb. destruct (in_dec _ _ _); [|easy].
    destruct (nth_error (blocks (ar s)) i); [|easy]. injection Eb as <-. reflexivity.
  - cbn. apply R.
Qed.

Definition size_ok (o : op) : Prop := match o with Alloc n => 0 <= n <= BIG | _ => True end.
Definition no_rewind (o : op) : Prop := match o with Restore | Reset | Destroy => False | _ => True end.
(** one operation: out of memory, a panic after destroy, or a state satisfying the invariant again *)
Definition good (simple : bool) (s : state) (ls : lives) : Prop := (exists ch cur, inv simple s ls ch cur) \/ dead s ls.
Lemma inv_weaken s ls ch cur : inv true s ls ch cur -> inv false s ls ch cur.
Proof. intros I. destruct I. constructor; try assumption. easy. Qed.

Lemma exec_alive simple s ls ch cur o ok : inv simple s ls ch cur -> size_ok o ->
  (exec s ls o ok = Panic 0) \/
  (exec s ls o ok = UB /\ live_step ls o none_addr = None) \/
  exists s' p, exec s ls o ok = Ok (s', p) /\ forall ls', live_step ls o p = Some ls' -> good false s' ls' /\
     (simple = true -> no_rewind o -> exists ch' cur', inv true s' ls' ch' cur') /\ (o = Destroy -> dead s' ls').
Proof.
  intros I SO. destruct o as [n| | | | |k i v]; cbn [exec].
  - destruct (step_alloc simple s ls ch cur n ok I SO) as [[-> _]|(a & p & ch' & cur' & -> & J & _)]; [left; reflexivity|].
    right. right. destruct p as [pb po]. cbn [rmap]. eexists _, _. split; [reflexivity|]. cbn [live_step]. intros ls' [= <-].
    split; [left; exists ch', cur'; destruct simple; [now apply inv_weaken|exact J]|]. split; [|easy]. intros -> _. eauto.
  - destruct (step_save simple s ls ch cur I) as (m & -> & J). right. right. cbn [rmap]. eexists _, _. split; [reflexivity|].
    cbn [live_step]. intros ls' [= <-]. split; [left; exists ch, cur; destruct simple; [now apply inv_weaken|exact J]|]. split; [|easy]. intros -> _. eauto.
  - destruct (scopes ls) as [|n ns] eqn:Sc.
    + right. left. cbn [live_step]. rewrite Sc. pose proof (i_marks _ _ _ _ _ I) as M. rewrite Sc in M. destruct (marks s); easy.
    + destruct (step_restore simple s ls ch cur n ns I Sc) as (m & ms & a & cur' & -> & -> & J). right. right. cbn [rmap].
      eexists _, _. split; [reflexivity|]. cbn [live_step]. rewrite Sc. intros ls' [= <-]. split; [left; eauto|]. split; [easy|easy].
  - destruct (scopes ls) as [|n ns] eqn:Sc.
    + destruct (step_reset simple s ls ch cur I Sc) as (a & cur' & -> & J). right. right. cbn [rmap].
      eexists _, _. split; [reflexivity|]. cbn [live_step]. rewrite Sc. intros ls' [= <-]. split; [left; eauto|]. split; [easy|easy].
    + assert (X : exists a, arena_reset (ar s) = Ok a).
      { pose proof (i_path _ _ _ _ _ I) as PP. pose proof (sorted_nodup _ (i_sorted _ _ _ _ _ I)) as ND.
        destruct (clear_chain_ok (S (length (blocks (ar s)))) (ar s) (first (ar s)) _ PP ND) as (a1 & C & _).
        { pose proof (path_length _ _ _ PP ND). lia. }
        unfold arena_reset. rewrite C. cbn. eauto. }
      destruct X as (a & ->). right. right. cbn [rmap]. eexists _, _. split; [reflexivity|]. cbn [live_step]. rewrite Sc. easy.
  - destruct (step_destroy simple s ls ch cur I) as (a & -> & D & _). right. right. cbn [rmap]. eexists _, _. split; [reflexivity|].
    cbn [live_step]. intros ls' [= <-]. split; [now right|]. split; [easy|auto].
  - destruct (nth_error (live ls) k) as [al|] eqn:E.
    + right. right. eexists _, _. split; [reflexivity|]. cbn [live_step]. rewrite E. destruct ((0 <=? i) && (i <? len al)) eqn:B; [|easy].
      intros ls' [= <-]. pose proof (step_write simple s ls ch cur k i v al I E ltac:(lia)) as J.
      split; [left; exists ch, cur; destruct simple; [now apply inv_weaken|exact J]|]. split; [|easy]. intros -> _. eauto.
    + right. left. cbn [live_step]. now rewrite E.
Qed.
Lemma exec_dead s ls o ok : dead s ls ->
  match o with
  | Alloc _ => exec s ls o ok = Panic 1
  | Destroy => exec s ls o ok = Panic 2
  | Write _ _ _ => exec s ls o ok = UB /\ live_step ls o none_addr = None
  | _ => (exec s ls o ok = UB /\ live_step ls o none_addr = None) \/
         exists s' p, exec s ls o ok = Ok (s', p) /\ forall ls', live_step ls o p = Some ls' -> dead s' ls'
  end.
Proof.
  intros [F [P1 P2] L [M1 M2]]. destruct o as [n| | | | |k i v]; cbn [exec live_step].
  - unfold arena_alloc. rewrite F. reflexivity.
  - right. unfold scope_save. rewrite P2. cbn. eexists _, _. split; [reflexivity|]. intros ls' [= <-]. constructor; cbn; auto.
  - destruct (marks s) as [|m ms] eqn:Em, (scopes ls) as [|n ns] eqn:En; try easy; [left; auto|]. right.
    inversion_clear M1 as [|? ? M0 M3]. unfold scope_restore. rewrite M0. cbn. eexists _, _. split; [reflexivity|]. intros ls' [= <-].
    cbn in M2. constructor; cbn [ar marks live scopes]; auto. rewrite L. apply firstn_nil.
  - right. unfold arena_reset. rewrite P1. cbn. eexists _, _. split; [reflexivity|]. destruct (scopes ls) eqn:En; [|easy]. intros ls' [= <-].
    constructor; cbn; auto.
  - unfold arena_destroy. rewrite F. reflexivity.
  - rewrite L. destruct k; cbn; auto.
Qed.

(** whole histories *)
Lemma run_good h : forall s ls, good false s ls -> Forall (fun x => size_ok (fst x)) h ->
  match run s ls h with
  | None => True
  | Some (Ok (s', ls')) => good false s' ls'
  | Some (Panic c) => c = 0 \/ c = 1 \/ c = 2
  | Some UB | Some NoFuel => False
  end.
Proof.
  induction h as [|[o ok] h IH]; intros s ls G F; cbn [run]; [exact G|]. inversion_clear F as [|? ? F1 F2]. cbn in F1.
  destruct G as [(ch & cur & I)|D].
  - destruct (exec_alive false s ls ch cur o ok I F1) as [->|[(-> & ->)|(s' & p & -> & H)]]; [auto|exact Logic.I|].
    destruct (live_step ls o p) as [ls'|] eqn:E; [|exact Logic.I]. apply IH; [|exact F2]. now apply H.
  - pose proof (exec_dead s ls o ok D) as H. destruct o; try (rewrite H; auto; fail); try (destruct H as [-> ->]; exact Logic.I);
      (destruct H as [(-> & ->)|(s' & p & -> & H)]; [exact Logic.I|]; destruct (live_step _ _ _) as [ls'|] eqn:E; [|exact Logic.I];
       apply IH; [right; now apply H|exact F2]).
Qed.
Lemma run_simple h : forall s ls ch cur, inv true s ls ch cur -> Forall (fun x => size_ok (fst x) /\ no_rewind (fst x)) h ->
  match run s ls h with
  | Some (Ok (s', ls')) => exists ch cur, inv true s' ls' ch cur
  | _ => True
  end.
Proof.
  induction h as [|[o ok] h IH]; intros s ls ch cur I F; cbn [run]; [eauto|]. inversion_clear F as [|? ? [F1 F3] F2]. cbn in F1, F3.
  destruct (exec_alive true s ls ch cur o ok I F1) as [->|[(-> & ->)|(s' & p & -> & H)]]; [exact Logic.I|exact Logic.I|].
  destruct (live_step ls o p) as [ls'|] eqn:E; [|exact Logic.I]. destruct (H ls' eq_refl) as (_ & H2 & _).
  destruct (H2 eq_refl F3) as (ch' & cur' & J). now apply (IH _ _ ch' cur').
Qed.
Lemma start_inv n junk : 0 <= n <= BIG -> inv true (St (create n junk) []) fresh [0%nat] 0.
Proof.
  intros H. constructor; cbn; auto.
  - split; [reflexivity|]. eexists. split; [reflexivity|]. auto.
  - repeat constructor.
  - intros i [<-|[]]; lia.
  - intros [|[|i]] b; cbn; try easy. intros [= <-]. unfold fine. cbn [used size]. split; [lia|]. split; [lia|reflexivity].
  - easy.
  - constructor.
  - easy.
Qed.
