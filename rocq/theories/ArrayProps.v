(** Properties C18-C22, C75, C76: arrays and the random module. *)
From Verif Require Import Base BaseFacts ArrayModel ArraySpec ArrayProofs ArrayStore ArrayMore.
From Coq Require Import Permutation Sorted.

(** ---- C18: arrays behave as growable sequences ---- *)
(** n array variables of one element type, any history of operations: the same values are
    observed, and the program stops with the same panic, as on mathematical lists; no read or
    write leaves an allocation ([UB] arises only where a variable does not exist). *)
Theorem arrays_refine_lists : forall sz n l, (0 < sz)%nat -> Forall (well_typed sz) l ->
  stays_small sz (repeat [] n) l ->
  rmap snd (arun (declare sz n []) l) = rmap snd (srun (repeat [] n) l).
Proof.
  intros sz n l Hz W S. pose proof (run_refines sz Hz l _ _ (declare_agree sz Hz n []) W S) as R.
  destruct (srun (repeat [] n) l) as [[ls xs]|c| |]; cbn; try (rewrite R; reflexivity); [|contradiction].
  destruct R as (st' & E & _). rewrite E. reflexivity.
Qed.
(** an index outside [0, length) panics, at every reachable state *)
Theorem array_index_checked : forall sz n l h vs xs d a i v, (0 < sz)%nat -> Forall (well_typed sz) l ->
  stays_small sz (repeat [] n) l -> arun (declare sz n []) l = Ok ((h, vs), xs) -> nth_error vs d = Some a ->
  in_i 32 i -> ~ (0 <= i < Z.of_nat (alen a)) ->
  astep (h, vs) (OGet d i) = Panic 33 /\ astep (h, vs) (OSet d i v) = Panic 33 /\ astep (h, vs) (ORemoveAt d i) = Panic 44.
Proof.
  intros sz n l h vs xs d a i v Hz W S E Ed Hi Ho. pose proof (run_refines sz Hz l _ _ (declare_agree sz Hz n []) W S) as R. rewrite E in R.
  destruct (srun (repeat [] n) l) as [[ls xs']|c| |]; try discriminate; try contradiction. destruct R as (st' & E' & A). injection E' as <- <-.
  pose proof (agree_var sz Hz _ _ d A) as V. cbn [fst snd] in V. rewrite Ed in V. destruct (nth_error ls d) as [m|]; [|contradiction].
  cbn [astep]. unfold store. rewrite !(wv_some vs d a _ Ed), (wrap_id sz Hz i Hi). unfold array_get, array_set, remove_at. rewrite (r_iter _ _ _ _ V). cbn [Z.ltb Z.compare].
  replace ((i <? 0) || (Z.of_nat (alen a) <=? i)) with true by lia. repeat split.
Qed.
(** Indices are int64 in the language and int32_t in the runtime: index 2^32 reads element 0. *)
Theorem array_index_refuted : exists i l x, 2 ^ 31 < i /\
  arun (declare 1 1 []) l = Ok (x, [Unit; Bytes [7]]) /\ l = [OPush 0 [7]; OGet 0 i].
Proof. exists (2 ^ 32). eexists. eexists. split; [lia|]. split; [|reflexivity]. vm_compute. reflexivity. Qed.

Ltac cases := repeat match goal with
  | H : ?p ++ ?q = [] |- _ => apply app_eq_nil in H; destruct H; subst
  | H : _ = ?p ++ ?q |- _ => destruct p; cbn in H; injection H as; subst
  end.
Definition history1 : list aop :=
  [OPush 0 [1]; OPush 0 [2]; OPush 0 [3]; OCopy 1 0; OPush 0 [4]; OPush 0 [5]; OSet 1 0 [9]; OInsert 0 2 [6]; OGet 0 0; OGet 1 0;
   ORemoveAt 0 4; OTakeLast 0; OTakeFirst 0; OReverse 2 0; OGet 2 0; OConcat 2 2 1; ODedup 2 2; OSlice 1 2 (-1) 100; OLen 1; OLast 1].
Example array_history_ex : Forall (well_typed 1) history1 /\ stays_small 1 (repeat [] 3) history1 /\
  rmap snd (arun (declare 1 3 []) history1) =
    Ok [Unit; Unit; Unit; Unit; Unit; Unit; Unit; Unit; Bytes [1]; Bytes [9]; Unit; Bytes [5]; Bytes [1]; Unit; Bytes [3]; Unit; Unit; Unit; Num 4; Bytes [9]].
Proof.
  split; [repeat constructor; cbn; unfold in_i; lia|]. split; [|vm_compute; reflexivity].
  intros p q ls' xs E R. assert (H : exists k, (k <= length history1)%nat /\ p = firstn k history1).
  { exists (length p). split; [rewrite E, app_length; lia|]. rewrite E, firstn_app, Nat.sub_diag, firstn_all. cbn. rewrite app_nil_r. reflexivity. }
  destruct H as (k & Hk & ->). clear E.
  assert (C : forallb (fun k => match srun (repeat [] 3) (firstn k history1) with Ok (ls, _) => forallb (fun e => (length e <=? 10)%nat) ls | _ => true end) (seq 0 21) = true) by (vm_compute; reflexivity).
  rewrite forallb_forall in C. assert (Ik : In k (seq 0 21)) by (apply in_seq; cbn in Hk; lia). specialize (C k Ik). cbv beta in C. rewrite R in C. rewrite forallb_forall in C.
  apply Forall_forall. intros e He. apply C in He. lia.
Qed.
Example array_bounds_ex : rmap snd (arun (declare 8 1 []) [OPush 0 (repeat 1 8); OGet 0 1]) = Panic 33 /\
  rmap snd (arun (declare 8 1 []) [OGet 0 (-1)]) = Panic 33.
Proof. split; vm_compute; reflexivity. Qed.

(** ---- C19: copies are independent ---- *)
Definition touches (d : nat) (o : aop) : bool :=
  match o with
  | OPush e _ | OSet e _ _ | OInsert e _ _ | OPrepend e _ | ORemoveAt e _ | OClear e | OFill e _ _
  | OTakeFirst e | OTakeLast e | OCopy e _ | OReverse e _ | OSlice e _ _ _ | OConcat e _ _ | ODedup e _ => (d =? e)%nat
  | OGet _ _ | OFirst _ | OLast _ | OLen _ => false
  end.
Lemma sstep_other ls o ls' x d : sstep ls o = Ok (ls', x) -> touches d o = false -> nth_error ls' d = nth_error ls d.
Proof.
  intros E T.
  assert (A : forall e y (r : res elems) ls2 z, (d =? e)%nat = false -> assign ls e y r = Ok (ls2, z) -> nth_error ls2 d = nth_error ls d).
  { intros e y r ls2 z He. unfold assign, with_var. destruct (nth_error ls e); [|discriminate]. destruct r; try discriminate. cbn. intros [= <- _].
    rewrite nth_update, He. reflexivity. }
  destruct o; cbn [sstep touches] in *; unfold with_var in E at 1;
    match type of E with match ?v with _ => _ end = _ => destruct v eqn:Ev; [|discriminate] end;
    try (eapply A; eassumption);
    try (destruct (take_at _ _ _); try discriminate; cbn in E; injection E as <- _; reflexivity);
    try (match type of E with (if ?c then _ else _) = _ => destruct c; [|discriminate] end);
    try (eapply A; eassumption); try (injection E as <- _; try rewrite nth_update, T; reflexivity).
  - destruct e; [discriminate|]. eapply A; eassumption.
  - destruct (rev e); [discriminate|]. eapply A; eassumption.
  - unfold with_var in E at 1. destruct (nth_error ls t); [|discriminate]. eapply A; eassumption.
Qed.
Lemma srun_other l : forall ls ls' xs d, srun ls l = Ok (ls', xs) -> forallb (fun o => negb (touches d o)) l = true -> nth_error ls' d = nth_error ls d.
Proof.
  induction l as [|o l IH]; intros ls ls' xs d E T; cbn in *; [injection E as <- _; reflexivity|].
  apply andb_prop in T. destruct T as [T1 T2]. destruct (sstep ls o) as [[ls1 x]|c| |] eqn:S; try discriminate. cbn in E.
  destruct (srun ls1 l) as [[ls2 ys]|c| |] eqn:R; try discriminate. cbn in E. injection E as <- _.
  rewrite (IH _ _ _ _ R T2). eapply sstep_other; [exact S|]. destruct (touches d o); [discriminate|reflexivity].
Qed.
Lemma srun_app p : forall ls q, srun ls (p ++ q) = rbind (srun ls p) (fun r => rmap (fun s => (fst s, snd r ++ snd s)) (srun (fst r) q)).
Proof.
  induction p as [|o p IH]; intros ls q; cbn.
  - destruct (srun ls q) as [[a b]|c| |]; reflexivity.
  - destruct (sstep ls o) as [[ls1 x]|c| |]; cbn; try reflexivity. rewrite IH. destruct (srun ls1 p) as [[ls2 ys]|c| |]; cbn; try reflexivity.
    destruct (srun ls2 q) as [[ls3 zs]|c| |]; reflexivity.
Qed.
(** Copy s into d after any history p; then any history q that does not name d as a target:
    reading d shows what s held at the time of the copy; symmetrically for s. *)
Theorem array_copies_independent : forall sz n p q st xs d s i, (0 < sz)%nat -> d <> s ->
  Forall (well_typed sz) p -> Forall (well_typed sz) q -> stays_small sz (repeat [] n) (p ++ OCopy d s :: q) -> in_i 32 i ->
  arun (declare sz n []) (p ++ OCopy d s :: q) = Ok (st, xs) ->
  exists st0 xs0, arun (declare sz n []) p = Ok (st0, xs0) /\
  (forallb (fun o => negb (touches d o)) q = true -> rmap snd (astep st (OGet d i)) = rmap snd (astep st0 (OGet s i))) /\
  (forallb (fun o => negb (touches s o)) q = true -> rmap snd (astep st (OGet s i)) = rmap snd (astep st0 (OGet s i))).
Proof.
  intros sz n p q st xs d s i Hz Hds Wp Wq S Hi E.
  assert (W : Forall (well_typed sz) (p ++ OCopy d s :: q)) by (apply Forall_app; split; [exact Wp|constructor; [exact I|exact Wq]]).
  pose proof (run_refines sz Hz _ _ _ (declare_agree sz Hz n []) W S) as R. rewrite E in R.
  assert (Sp : stays_small sz (repeat [] n) p). { intros p1 q1 ls' ys -> H. rewrite <- app_assoc in S. eapply S; [reflexivity|exact H]. }
  pose proof (run_refines sz Hz _ _ _ (declare_agree sz Hz n []) Wp Sp) as R0.
  rewrite srun_app in R. destruct (srun (repeat [] n) p) as [[ls0 xs0]|c| |] eqn:E0; cbn [rbind] in R; try discriminate; try contradiction.
  destruct R0 as (st0 & E0' & A0). exists st0, xs0. split; [exact E0'|]. cbn [fst snd srun] in R.
  destruct (sstep ls0 (OCopy d s)) as [[ls1 x1]|c| |] eqn:E1; cbn [rbind] in R; try discriminate; try contradiction. cbn [fst snd] in R.
  destruct (srun ls1 q) as [[ls2 xs2]|c| |] eqn:E2; cbn [rmap rbind] in R; try discriminate; try contradiction. cbn [fst snd] in R.
  destruct R as (st' & [= <- Ex] & A).
  assert (C : nth_error ls1 d = nth_error ls0 s /\ nth_error ls1 s = nth_error ls0 s).
  { cbn [sstep] in E1. unfold with_var at 1 in E1. destruct (nth_error ls0 s) as [l|] eqn:El; [|discriminate]. unfold assign, with_var in E1.
    destruct (nth_error ls0 d) as [m|] eqn:Em; [|discriminate]. cbn in E1. injection E1 as <- _. rewrite !nth_update, Nat.eqb_refl.
    replace (s =? d)%nat with false by lia. apply nth_some_lt in Em. replace (_ <? _)%nat with true by lia. split; [reflexivity|exact El]. }
  assert (G : forall st1 ls st2 ms e f, agree sz st1 ls -> agree sz st2 ms -> nth_error ls e = nth_error ms f ->
     rmap snd (astep st1 (OGet e i)) = rmap snd (astep st2 (OGet f i))).
  { intros [h1 v1] ls [h2 v2] ms e f B1 B2 EQ. pose proof (agree_var sz Hz _ _ e B1) as V1. pose proof (agree_var sz Hz _ _ f B2) as V2. cbn [fst snd astep] in *. unfold with_var.
    destruct (nth_error v1 e) as [a|], (nth_error v2 f) as [b|], (nth_error ls e) as [l|], (nth_error ms f) as [m|]; try contradiction; try discriminate; try reflexivity.
    injection EQ as ->. rewrite (r_esz _ _ _ _ V1), (r_esz _ _ _ _ V2), (get_ok sz Hz _ _ _ _ V1), (get_ok sz Hz _ _ _ _ V2). destruct (take_at m (wrap_i 32 i) 33); reflexivity. }
  destruct C as [C1 C2]. split; intros T; eapply G; try eassumption; rewrite (srun_other _ _ _ _ _ E2 T); assumption.
Qed.
Example array_copies_ex : rmap snd (arun (declare 1 2 []) [OPush 0 [1]; OCopy 1 0; OSet 0 0 [2]; OGet 1 0; OSet 1 0 [3]; OGet 0 0]) =
  Ok [Unit; Unit; Unit; Bytes [1]; Unit; Bytes [2]].
Proof. vm_compute. reflexivity. Qed.

(** ---- C20: the arrays module ---- *)
(** An array variable reachable by some history, holding the list l. *)
Definition reachable (sz : nat) (h : heap) (vs : list arr) (ls : list elems) : Prop :=
  exists n l xs, Forall (well_typed sz) l /\ stays_small sz (repeat [] n) l /\
    arun (declare sz n []) l = Ok ((h, vs), xs) /\ srun (repeat [] n) l = Ok (ls, xs).
Lemma reachable_repr sz h vs ls d a l : (0 < sz)%nat -> reachable sz h vs ls -> nth_error vs d = Some a -> nth_error ls d = Some l ->
  repr sz h a l /\ Z.of_nat (length l) <= 2 ^ 29.
Proof.
  intros Hz (n & o & xs & W & S & E1 & E2) Ha Hl. pose proof (run_refines sz Hz _ _ _ (declare_agree sz Hz n []) W S) as R. rewrite E2 in R.
  destruct R as (st' & E & A). rewrite E1 in E. injection E as <-. split.
  - destruct A as (_ & A & _). eapply A; eassumption.
  - eapply small_nth; [|exact Hl]. eapply bytes_small; [exact Hz|]. eapply (S o []); [rewrite app_nil_r; reflexivity|exact E2].
Qed.
(** contains, index_of, count and is_equal mean what they mean on lists. *)
Theorem arrays_queries : forall sz h vs ls d e a b l m p, (0 < sz)%nat -> reachable sz h vs ls ->
  nth_error vs d = Some a -> nth_error ls d = Some l -> nth_error vs e = Some b -> nth_error ls e = Some m ->
  reads_as sz h a l /\
  contains h a sz p = Ok (existsb p l) /\
  (exists i, index_of h a sz p = Ok i /\ position p l i) /\
  count_from h a sz p (alen a) 0 = Ok (Z.of_nat (length (filter p l))) /\
  exists r, is_equal_prim h a b = Ok r /\ (r = true <-> l = m).
Proof.
  intros sz h vs ls d e a b l m p Hz R Ha Hl Hb Hm. destruct (reachable_repr _ _ _ _ _ _ _ Hz R Ha Hl) as [Ra _]. destruct (reachable_repr _ _ _ _ _ _ _ Hz R Hb Hm) as [Rb _].
  split; [apply (repr_reads sz Hz); exact Ra|]. split; [apply contains_ok; exact Ra|]. split; [apply (index_of_ok sz Hz); exact Ra|]. split.
  - rewrite (r_len _ _ _ _ Ra). apply (count_from_ok sz Hz h a p l [] Ra).
  - apply (is_equal_ok sz Hz); assumption.
Qed.
(** reverse, slice, concat, deduplicate, fill, split_every and pair give new arrays with the
    right contents. *)
Theorem arrays_transformations : forall sz h vs ls d e a b l m, (0 < sz)%nat -> reachable sz h vs ls ->
  nth_error vs d = Some a -> nth_error ls d = Some l -> nth_error vs e = Some b -> nth_error ls e = Some m ->
  (exists h' r, reverse h a = Ok (h', r) /\ reads_as sz h' r (rev l) /\ reads_as sz h' a l) /\
  (forall i j, exists h' r, slice h a i j = Ok (h', r) /\ reads_as sz h' r (sublist l i j) /\ reads_as sz h' a l) /\
  (Z.of_nat (length l + length m) <= 2 ^ 29 -> exists h' r, concat_arrays h a b = Ok (h', r) /\ reads_as sz h' r (l ++ m) /\ reads_as sz h' a l) /\
  (exists h' r, deduplicate h a = Ok (h', r) /\ reads_as sz h' r (first_occurrences [] l) /\ reads_as sz h' a l) /\
  (forall v k, length v = sz -> k <= 2 ^ 29 -> exists h' r, fill h a v k = Ok (h', r) /\ reads_as sz h' r (repeat v (Z.to_nat k))) /\
  (forall size, exists h' rs cs, split_every h a size = Ok (h', rs) /\ Forall2 (reads_as sz h') rs cs /\ concat cs = l /\
     chunked (Z.to_nat (Z.max 1 size)) cs) /\
  exists h' rs, pair h a b = Ok (h', rs) /\ Forall2 (reads_as sz h') rs (map (fun p => [fst p; snd p]) (combine l m)).
Proof.
  intros sz h vs ls d e a b l m Hz R Ha Hl Hb Hm. destruct (reachable_repr _ _ _ _ _ _ _ Hz R Ha Hl) as [Ra La]. destruct (reachable_repr _ _ _ _ _ _ _ Hz R Hb Hm) as [Rb Lb].
  assert (F2 : forall h' rs cs, Forall2 (repr sz h') rs cs -> Forall2 (reads_as sz h') rs cs).
  { intros h' rs cs F. induction F; constructor; [apply (repr_reads sz Hz); assumption|assumption]. }
  split; [|split; [|split; [|split; [|split; [|split]]]]].
  - destruct (reverse_ok sz h a l Ra Hz La) as (h' & r & E & Rr & F). exists h', r. split; [exact E|]. split; [apply (repr_reads sz Hz); exact Rr|apply (repr_reads sz Hz); eapply fresh_keeps; eassumption].
  - intros i j. destruct (slice_ok sz h a l i j Ra) as (h' & r & E & Rr & F). exists h', r. split; [exact E|]. split; [apply (repr_reads sz Hz); exact Rr|apply (repr_reads sz Hz); eapply fresh_keeps; eassumption].
  - intros B. destruct (concat_ok sz h a b l m Ra Rb Hz B) as (h' & r & E & Rr & F). exists h', r. split; [exact E|]. split; [apply (repr_reads sz Hz); exact Rr|apply (repr_reads sz Hz); eapply fresh_keeps; eassumption].
  - destruct (dedup_ok sz h a l Ra La) as (h' & r & E & Rr & F). exists h', r. split; [exact E|]. split; [apply (repr_reads sz Hz); exact Rr|apply (repr_reads sz Hz); eapply fresh_keeps; eassumption].
  - intros v k Hv Hk. destruct (fill_ok sz h a l v k Ra Hv Hk) as (h' & r & E & Rr & F). exists h', r. split; [exact E|]. apply (repr_reads sz Hz). exact Rr.
  - intros size. unfold split_every. destruct (split_loop_ok sz Hz a (Z.to_nat (Z.max 1 size)) ltac:(lia) (alen a) h [] l Ra) as (h' & rs & cs & E & _ & F & C & CH).
    { rewrite (r_len _ _ _ _ Ra). lia. } { exact La. }
    exists h', rs, cs. split; [|split; [apply F2; exact F|split; assumption]]. rewrite <- E. f_equal. destruct (size <=? 0) eqn:Hs; lia.
  - unfold pair. rewrite (r_len _ _ _ _ Ra), (r_len _ _ _ _ Rb).
    destruct (pair_loop_ok sz Hz a b _ h [] l [] m Ra Rb eq_refl eq_refl) as (h' & rs & E & _ & F). exists h', rs. split; [exact E|apply F2; exact F].
Qed.
(** deduplicate's list function: a subset without repetitions, in order, with the same members *)
Theorem first_occurrences_meaning : forall l, let m := first_occurrences [] l in
  NoDup m /\ (forall x, In x m <-> In x l) /\
  (forall x, first_occurrences [] (l ++ [x]) = if in_dec (list_eq_dec Z.eq_dec) x l then m else m ++ [x]).
Proof.
  assert (G : forall l seen, NoDup (first_occurrences seen l) /\ (forall x, In x (first_occurrences seen l) <-> In x l /\ ~ In x seen)).
  { induction l as [|x l IH]; intros seen; cbn [first_occurrences]; [split; [constructor|]; intros y; cbn; tauto|].
    assert (X : existsb (same_bytes x) seen = true <-> In x seen).
    { rewrite existsb_exists. split; [intros (y & Hy & E); apply same_bytes_eq in E; subst; exact Hy|]. intros H. exists x. split; [exact H|apply same_bytes_eq; reflexivity]. }
    destruct (existsb (same_bytes x) seen).
    - destruct (IH seen) as [N I]. split; [exact N|]. intros y. rewrite I. cbn. split; [tauto|]. intros [[<-|H] H2]; [exfalso; apply H2, X; reflexivity|tauto].
    - destruct (IH (seen ++ [x])) as [N I]. split.
      + constructor; [|exact N]. rewrite I, in_app_iff. cbn. tauto.
      + intros y. cbn. rewrite I, in_app_iff. cbn.
        destruct (list_eq_dec Z.eq_dec x y) as [->|Ne]; [split; [intros _; split; [left; reflexivity|intros H; apply X in H; discriminate]|tauto]|]. split; [intros [H|H]; [contradiction|tauto]|intros [[H|H] H2]; [contradiction|]].
        right. split; [exact H|]. intros [H3|[H3|[]]]; [tauto|contradiction]. }
  assert (H : forall l seen x, first_occurrences seen (l ++ [x]) = if in_dec (list_eq_dec Z.eq_dec) x (seen ++ l) then first_occurrences seen l else first_occurrences seen l ++ [x]).
  { clear G. induction l as [|y l IH]; intros seen x; cbn [first_occurrences app].
    - rewrite app_nil_r.
      destruct (in_dec _ x seen) as [i|i], (existsb (same_bytes x) seen) eqn:E; try reflexivity.
      + rewrite <- Bool.not_true_iff_false in E. exfalso. apply E. apply existsb_exists. exists x. split; [exact i|apply same_bytes_eq; reflexivity].
      + exfalso. apply i. apply existsb_exists in E. destruct E as (z & Hz & E). apply same_bytes_eq in E. subst. exact Hz.
    - destruct (existsb (same_bytes y) seen) eqn:E.
      + rewrite IH. apply existsb_exists in E. destruct E as (z & Hz & E). apply same_bytes_eq in E. subst z.
        destruct (in_dec _ x (seen ++ l)) as [i|i], (in_dec _ x (seen ++ y :: l)) as [j|j]; try reflexivity; exfalso; rewrite in_app_iff in *; cbn in *; intuition (subst; tauto).
      + rewrite IH. rewrite <- app_assoc. cbn [app]. destruct (in_dec _ x (seen ++ y :: l)); reflexivity. }
  intros l. cbv zeta. destruct (G l []) as [N I]. split; [exact N|]. split; [intros x; rewrite I; cbn; tauto|].
  intros x. rewrite H. cbn [app]. destruct (in_dec _ x l); reflexivity.
Qed.
(** flatten is right for arrays of 8-byte elements ... *)
Theorem arrays_flatten_partial : forall h vs ls idx, reachable 8 h vs ls ->
  (forall d, In d idx -> (d < length vs)%nat) -> NoDup idx ->
  let inner := map (fun d => nth d vs (mkarr 0 0 0 0 0)) idx in let il := map (fun d => nth d ls []) idx in
  Z.of_nat (length (concat il)) <= 2 ^ 29 ->
  exists h' r, flatten h inner = Ok (h', r) /\ reads_as 8 h' r (concat il).
Proof.
  intros h vs ls idx R HI ND inner il B.
  assert (L : length vs = length ls).
  { destruct R as (n & o & xs & W & S & E1 & E2). pose proof (run_refines 8 ltac:(lia) _ _ _ (declare_agree 8 ltac:(lia) n []) W S) as R. rewrite E2 in R.
    destruct R as (st' & E & A). rewrite E1 in E. injection E as <-. apply A. }
  destruct (flatten_ok inner il h) as (h' & r & E & Rr).
  - unfold inner, il. clear ND B. induction idx as [|d idx IH]; cbn; constructor; [|apply IH; intros e He; apply HI; right; exact He].
    assert (Hd : (d < length vs)%nat) by (apply HI; left; reflexivity). eapply (reachable_repr 8 h vs ls d); [lia|exact R| |]; apply nth_error_nth'; lia.
  - exact B.
  - exists h', r. split; [exact E|]. apply (repr_reads 8 ltac:(lia)). exact Rr.
Qed.
(** ... but it always makes an array of 8-byte elements: of two 16-byte strings only the
    first halves arrive. *)
Definition two_strings : list aop := [OPush 0 (repeat 1 16); OPush 0 (repeat 2 16)].
Theorem arrays_flatten_refuted : exists h a xs h' r, arun (declare 16 1 []) two_strings = Ok ((h, [a]), xs) /\
  flatten h [a] = Ok (h', r) /\ esz r = 8%nat /\ array_get h' r 0 8 = Ok (repeat 1 8) /\ ~ reads_as 16 h' r [repeat 1 16; repeat 2 16].
Proof.
  do 5 eexists. split; [vm_compute; reflexivity|]. split; [vm_compute; reflexivity|]. split; [reflexivity|]. split; [vm_compute; reflexivity|].
  intros [_ H]. specialize (H 0). vm_compute in H. discriminate.
Qed.
(** deduplicate compares the stored bytes; a stored string is an address and a length, so equal
    texts at different addresses are both kept. *)
Definition le_bytes (n : nat) (x : Z) : list Z := map (fun i => (x / 256 ^ Z.of_nat i) mod 256) (seq 0 n).
Definition string_header (addr len : Z) : list Z := le_bytes 8 addr ++ le_bytes 8 len.
Definition text_at (mem : Z -> Z) (addr len : Z) : list Z := map (fun i => mem (addr + Z.of_nat i)) (seq 0 (Z.to_nat len)).
Theorem arrays_dedup_strings_refuted : exists mem p q n, text_at mem p n = text_at mem q n /\
  length (first_occurrences [] [string_header p n; string_header q n]) = 2%nat.
Proof. exists (fun _ => 97), 100, 200, 3. split; vm_compute; reflexivity. Qed.
(** get_sum: exact as long as no partial sum leaves the int64 range; the addition is unchecked *)
Definition total (l : list Z) : Z := fold_right Z.add 0 l.
Theorem arrays_sum_partial : forall l, (forall p q, l = p ++ q -> in_i 64 (total p)) -> get_sum l = Ok (total l).
Proof.
  assert (G : forall l t, (forall p q, l = p ++ q -> in_i 64 (t + total p)) -> sum_loop l t = Ok (t + total l)).
  { induction l as [|x l IH]; intros t H; cbn [sum_loop total fold_right]; [f_equal; lia|].
    assert (F : fits_i 64 (t + x) = true). { specialize (H [x] l eq_refl). unfold in_i in H. cbn in H. unfold fits_i. change (64 - 1) with 63. lia. }
    rewrite F, IH; [f_equal; unfold total; lia|]. intros p q ->. specialize (H (x :: p) q eq_refl). cbn in H. unfold total in *. rewrite <- Z.add_assoc. exact H. }
  intros l H. unfold get_sum. rewrite G; [reflexivity|]. intros p q E. cbn. apply (H p q E).
Qed.
Theorem arrays_sum_refuted : exists l, (forall x, In x l -> in_i 64 x) /\ in_i 64 (total l) /\ get_sum l = UB.
Proof.
  exists [INT64_MAX; 1; -1]. split; [|split; [unfold in_i, total, INT64_MAX; cbn; lia|vm_compute; reflexivity]].
  intros x [<-|[<-|[<-|[]]]]; unfold in_i, INT64_MAX; lia.
Qed.
Theorem arrays_min_max : forall l, l <> [] -> In (get_min l) l /\ In (get_max l) l /\ forall x, In x l -> get_min l <= x <= get_max l.
Proof.
  assert (G : forall l m M, let mn := fold_left (fun m v => if v <? m then v else m) l m in let mx := fold_left (fun m v => if m <? v then v else m) l M in
    (mn = m \/ In mn l) /\ (mx = M \/ In mx l) /\ mn <= m /\ M <= mx /\ forall x, In x l -> mn <= x <= mx).
  { induction l as [|y l IH]; intros m M; cbn [fold_left].
    - cbv zeta. split; [left; reflexivity|]. split; [left; reflexivity|]. split; [lia|]. split; [lia|]. intros x [].
    - specialize (IH (if y <? m then y else m) (if M <? y then y else M)). cbv zeta in *. destruct IH as (I1 & I2 & I3 & I4 & I5).
      destruct (y <? m) eqn:E1, (M <? y) eqn:E2; (split; [destruct I1 as [->|I1]; cbn; tauto|]; split; [destruct I2 as [->|I2]; cbn; tauto|]; split; [lia|]; split; [lia|];
        intros x [<-|Hx]; [lia|apply I5; exact Hx]). }
  intros [|x l] N; [contradiction|]. unfold get_min, get_max. specialize (G l x x). cbv zeta in G. destruct G as (I1 & I2 & I3 & I4 & I5).
  split; [destruct I1 as [->|H]; cbn; tauto|]. split; [destruct I2 as [->|H]; cbn; tauto|]. intros y [<-|Hy]; [lia|apply I5; exact Hy].
Qed.
(** map, filter, any, all, reduce *)
Theorem arrays_higher_order : forall A (f : A -> A) (p : A -> bool) (g : A -> A -> A) (z : A) (l : list A),
  hof_map f l = map f l /\ hof_filter p l = filter p l /\ hof_any p l = existsb p l /\ hof_all p l = forallb p l /\
  hof_reduce g z l = fold_left g l z.
Proof.
  intros A f p g z l. unfold hof_map, hof_filter, hof_reduce.
  assert (M : forall l r, fold_left (fun r x => r ++ [f x]) l r = r ++ map f l).
  { clear l. induction l as [|x l IH]; intros r; cbn; [rewrite app_nil_r; reflexivity|]. rewrite IH, <- app_assoc. reflexivity. }
  assert (F : forall l r, fold_left (fun r x => if p x then r ++ [x] else r) l r = r ++ filter p l).
  { clear l M. induction l as [|x l IH]; intros r; cbn; [rewrite app_nil_r; reflexivity|]. rewrite IH. destruct (p x); [rewrite <- app_assoc|]; reflexivity. }
  rewrite M, F. split; [reflexivity|]. split; [reflexivity|]. split; [|split; [|reflexivity]].
  - induction l as [|x l IH]; cbn; [reflexivity|]. rewrite IH. destruct (p x); reflexivity.
  - induction l as [|x l IH]; cbn; [reflexivity|]. rewrite IH. destruct (p x); reflexivity.
Qed.
Example arrays_algebra_ex :
  match arun (declare 1 1 []) (map (fun x => OPush 0 [x]) [3; 1; 3; 2; 1]) with
  | Ok ((h, [a]), _) =>
      rmap (fun p => rd (fst p) (blk (snd p)) 0 3) (deduplicate h a) = Ok (Ok [3; 1; 2]) /\
      rmap (fun p => map (fun c => rd (fst p) (blk c) 0 (alen c)) (snd p)) (split_every h a 2) = Ok [Ok [3; 1]; Ok [3; 2]; Ok [1]] /\
      index_of h a 1 (fun e => same_bytes e [2]) = Ok 3 /\ contains h a 1 (fun e => same_bytes e [9]) = Ok false
  | _ => False
  end.
Proof. vm_compute. repeat split. Qed.

(** ---- C21: sorting ---- *)
(** 8-byte integers; qsort is any function keeping ISO C's promise. *)
Definition words (l : elems) : Prop := Forall (fun e => length e = 8%nat) l.
Lemma sort_cases qs cmp reads sz l m : sort_with qs cmp reads sz l = Ok m -> (reads <= sz)%nat -> (m = l /\ (length l <= 1)%nat) \/ m = qs cmp l.
Proof. unfold sort_with. destruct (length l <=? 1)%nat eqn:E; [intros [= ->]; left; split; [reflexivity|lia]|]. destruct (sz <? reads)%nat; [discriminate|]. intros [= ->]. right. reflexivity. Qed.
Lemma sort_by (f : list Z -> Z) qs cmp l m sz reads : is_qsort qs -> sort_with qs cmp reads sz l = Ok m -> (reads <= sz)%nat ->
  (forall a b, In a l -> In b l -> cmp a b = sgn (f b <? f a) - sgn (f a <? f b)) ->
  Permutation l m /\ StronglySorted (fun a b => f a <= f b) m.
Proof.
  intros Q E R H. destruct (sort_cases _ _ _ _ _ _ E R) as [[-> L]| ->].
  - split; [reflexivity|apply single_sorted; exact L].
  - destruct (Q cmp l (rank_consistent f cmp l H)) as [P S]. split; [exact P|]. apply rank_sorted with (cmp := cmp); assumption.
Qed.
Theorem sort_ints : forall qs l, is_qsort qs -> words l ->
  (exists m, sort_with qs cmp_i64_asc 8 8 l = Ok m /\ Permutation l m /\ StronglySorted (fun a b => int_value a <= int_value b) m) /\
  (exists m, sort_with qs cmp_i64_desc 8 8 l = Ok m /\ Permutation l m /\ StronglySorted (fun a b => int_value b <= int_value a) m).
Proof.
  intros qs l Q W. unfold words in W. rewrite Forall_forall in W.
  assert (T : forall cmp, exists m, sort_with qs cmp 8 8 l = Ok m) by (intros cmp; unfold sort_with; destruct (length l <=? 1)%nat; eexists; reflexivity).
  assert (F8 : forall e, In e l -> firstn 8 e = e) by (intros e He; apply firstn_all2; rewrite W by exact He; lia).
  split.
  - destruct (T cmp_i64_asc) as [m E]. exists m. split; [exact E|]. apply (sort_by int_value qs cmp_i64_asc l m 8 8 Q E); [lia|].
    intros a b Ha Hb. unfold cmp_i64_asc, signed64, int_value. rewrite !F8 by assumption. reflexivity.
  - destruct (T cmp_i64_desc) as [m E]. exists m. split; [exact E|]. destruct (sort_by (fun e => - int_value e) qs cmp_i64_desc l m 8 8 Q E) as [P S]; [lia| |].
    + intros a b Ha Hb. unfold cmp_i64_desc, signed64, int_value. rewrite !F8 by assumption.
      set (x := wrap_i 64 (le_value a)). set (y := wrap_i 64 (le_value b)). unfold sgn. destruct (x <? y) eqn:E1, (y <? x) eqn:E2, (- y <? - x) eqn:E3, (- x <? - y) eqn:E4; lia.
    + split; [exact P|]. eapply sorted_impl; [|exact S]. cbv beta. intros; lia.
Qed.
Theorem sort_texts : forall qs l, is_qsort qs ->
  (exists m, sort_with qs cmp_str_asc 16 16 l = Ok m /\ Permutation l m /\ StronglySorted text_le m) /\
  (exists m, sort_with qs cmp_str_desc 16 16 l = Ok m /\ Permutation l m /\ StronglySorted (fun a b => text_le b a) m).
Proof.
  intros qs l Q.
  assert (T : forall cmp, exists m, sort_with qs cmp 16 16 l = Ok m) by (intros cmp; unfold sort_with; destruct (length l <=? 1)%nat; eexists; reflexivity).
  split.
  - destruct (T cmp_str_asc) as [m E]. exists m. split; [exact E|]. destruct (sort_cases _ _ _ _ _ _ E ltac:(lia)) as [[-> L]| ->].
    + split; [reflexivity|apply single_sorted; exact L].
    + destruct (Q _ _ (cmp_str_consistent l)) as [P S]. split; [exact P|]. eapply sorted_impl; [|exact S]. cbv beta. intros a b _ _. apply cmp_str_le.
  - destruct (T cmp_str_desc) as [m E]. exists m. split; [exact E|]. destruct (sort_cases _ _ _ _ _ _ E ltac:(lia)) as [[-> L]| ->].
    + split; [reflexivity|apply single_sorted; exact L].
    + destruct (Q _ _ (cmp_str_desc_consistent l)) as [P S]. split; [exact P|]. eapply sorted_impl; [|exact S]. cbv beta. intros a b _ _. apply cmp_str_le.
Qed.
(** floats, without NaNs *)
Theorem sort_floats_partial : forall qs l, is_qsort qs -> words l -> (forall e, In e l -> f64_nan (le_value e) = false) ->
  (exists m, sort_with qs cmp_f64_asc 8 8 l = Ok m /\ Permutation l m /\ StronglySorted (fun a b => f64_rank (le_value a) <= f64_rank (le_value b)) m) /\
  (exists m, sort_with qs cmp_f64_desc 8 8 l = Ok m /\ Permutation l m /\ StronglySorted (fun a b => f64_rank (le_value b) <= f64_rank (le_value a)) m).
Proof.
  intros qs l Q W N. unfold words in W. rewrite Forall_forall in W.
  assert (T : forall cmp, exists m, sort_with qs cmp 8 8 l = Ok m) by (intros cmp; unfold sort_with; destruct (length l <=? 1)%nat; eexists; reflexivity).
  assert (F8 : forall e, In e l -> firstn 8 e = e) by (intros e He; apply firstn_all2; rewrite W by exact He; lia).
  split.
  - destruct (T cmp_f64_asc) as [m E]. exists m. split; [exact E|]. apply (sort_by (fun e => f64_rank (le_value e)) qs cmp_f64_asc l m 8 8 Q E); [lia|].
    intros a b Ha Hb. unfold cmp_f64_asc, f64_lt. rewrite !F8, !N by assumption. reflexivity.
  - destruct (T cmp_f64_desc) as [m E]. exists m. split; [exact E|]. destruct (sort_by (fun e => - f64_rank (le_value e)) qs cmp_f64_desc l m 8 8 Q E) as [P S]; [lia| |].
    + intros a b Ha Hb. unfold cmp_f64_desc, f64_lt. rewrite !F8, !N by assumption. cbn [negb andb].
      set (x := f64_rank (le_value a)). set (y := f64_rank (le_value b)). unfold sgn. destruct (x <? y) eqn:E1, (y <? x) eqn:E2, (- y <? - x) eqn:E3, (- x <? - y) eqn:E4; lia.
    + split; [exact P|]. eapply sorted_impl; [|exact S]. cbv beta. intros; lia.
Qed.
(** A NaN makes the comparison inconsistent, so qsort promises nothing. *)
Definition NAN_BITS : Z := 9221120237041090560.
Definition ONE_BITS : Z := 4607182418800017408.
Definition TWO_BITS : Z := 4611686018427387904.
Definition MINUS (b : Z) : Z := b + 2 ^ 63.
Theorem sort_nan_refuted : exists l, words l /\ ~ consistent cmp_f64_asc l.
Proof.
  exists [le_bytes 8 TWO_BITS; le_bytes 8 NAN_BITS; le_bytes 8 ONE_BITS]. split; [repeat constructor|]. intros [_ T].
  specialize (T (le_bytes 8 TWO_BITS) (le_bytes 8 NAN_BITS) (le_bytes 8 ONE_BITS) ltac:(cbn; tauto) ltac:(cbn; tauto) ltac:(cbn; tauto)).
  vm_compute in T. destruct T; [discriminate|discriminate|reflexivity].
Qed.
(** Unsigned integers from 2^63 up are sorted as negative numbers. *)
Theorem sort_uint_refuted : forall qs, is_qsort qs -> exists l m, words l /\ sorter_of (bs "uint") = SInt /\
  sort_with qs cmp_i64_asc 8 8 l = Ok m /\ ~ StronglySorted (fun a b => le_value a <= le_value b) m.
Proof.
  intros qs Q. set (l := [le_bytes 8 1; le_bytes 8 (2 ^ 63)]). assert (W : words l) by (repeat constructor).
  destruct (sort_ints qs l Q W) as [(m & E & P & S) _]. exists l, m. split; [exact W|]. split; [reflexivity|]. split; [exact E|]. intros B.
  apply Permutation_length_2_inv in P. destruct P as [-> | ->].
  - inversion S as [|? ? _ F]; subst. inversion F as [|? ? H _]; subst. vm_compute in H. apply H. reflexivity.
  - inversion B as [|? ? _ F]; subst. inversion F as [|? ? H _]; subst. vm_compute in H. apply H. reflexivity.
Qed.
(** Arrays of f64 get the integer comparator: negative numbers come out in reverse order. *)
Theorem sort_f64_refuted : forall qs, is_qsort qs -> exists l m, words l /\ sorter_of (bs "f64") = SInt /\ (forall e, In e l -> f64_nan (le_value e) = false) /\
  sort_with qs cmp_i64_asc 8 8 l = Ok m /\ ~ StronglySorted (fun a b => f64_rank (le_value a) <= f64_rank (le_value b)) m.
Proof.
  intros qs Q. set (l := [le_bytes 8 (MINUS TWO_BITS); le_bytes 8 (MINUS ONE_BITS)]). assert (W : words l) by (repeat constructor).
  destruct (sort_ints qs l Q W) as [(m & E & P & S) _]. exists l, m. split; [exact W|]. split; [reflexivity|]. split; [intros e [<-|[<-|[]]]; vm_compute; reflexivity|]. split; [exact E|]. intros B.
  apply Permutation_length_2_inv in P. destruct P as [-> | ->].
  - inversion S as [|? ? _ F]; subst. inversion F as [|? ? H _]; subst. vm_compute in H. apply H. reflexivity.
  - inversion B as [|? ? _ F]; subst. inversion F as [|? ? H _]; subst. vm_compute in H. apply H. reflexivity.
Qed.
(** Arrays of bools, bytes and chars: the comparator reads 8 bytes of smaller elements. *)
Theorem sort_small_refuted : forall qs a b, sorter_of (bs "byte") = SInt /\ sorter_of (bs "bool") = SInt /\
  sort_with qs cmp_i64_asc 8 1 [a; b] = UB.
Proof. intros. split; [reflexivity|]. split; reflexivity. Qed.
Example sort_ex : is_qsort (@insertion_sort (list Z)) /\
  rmap (map int_value) (sort_with insertion_sort cmp_i64_asc 8 8 (map (le_bytes 8) [5; 2 ^ 64 - 3; 0; 5])) = Ok [-3; 0; 5; 5] /\
  sort_with insertion_sort cmp_str_desc 16 16 [bs "b"; bs "ab"; bs "abc"] = Ok [bs "b"; bs "abc"; bs "ab"].
Proof. split; [exact insertion_sort_ok|]. split; vm_compute; reflexivity. Qed.

(** ---- C22: random ---- *)
Theorem shuffle_permutes : forall (A : Type) (l : list A) rs, Permutation l (shuffle l rs).
Proof. intros. apply shuffle_loop_perm. Qed.
(** sample: n elements at pairwise different positions, or a panic *)
Theorem sample_positions : forall (A : Type) (l : list A) n rs d,
  match sample l n rs with
  | Ok s => 0 <= n <= Z.of_nat (length l) /\ Z.of_nat (length s) = n /\
      exists pos, NoDup pos /\ (forall i, In i pos -> (i < length l)%nat) /\ s = map (fun i => nth i l d) pos
  | Panic c => (c = 62 /\ Z.of_nat (length l) < n) \/ (c = 63 /\ n < 0)
  | _ => False
  end.
Proof.
  intros A l n rs d. unfold sample. destruct (Z.of_nat (length l) <? n) eqn:E1; [left; lia|]. destruct (n <? 0) eqn:E2; [right; lia|].
  split; [lia|]. split.
  - rewrite firstn_length, <- (Permutation_length (shuffle_permutes A l rs)). lia.
  - set (P := shuffle (seq 0 (length l)) rs). assert (PP : Permutation (seq 0 (length l)) P) by apply shuffle_permutes.
    assert (SH : shuffle l rs = map (fun i => nth i l d) P).
    { unfold P, shuffle. rewrite <- shuffle_loop_map, map_nth_seq, seq_length. reflexivity. }
    assert (NP : NoDup P) by (eapply Permutation_NoDup; [exact PP|apply seq_NoDup]).
    exists (firstn (Z.to_nat n) P). split; [|split].
    + rewrite <- (firstn_skipn (Z.to_nat n) P) in NP. clear - NP. induction (firstn (Z.to_nat n) P) as [|x m IH]; [constructor|]. cbn in NP. inversion NP as [|? ? N1 N2]; subst.
      constructor; [intros H; apply N1; apply in_or_app; left; exact H|apply IH; exact N2].
    + intros i Hi. assert (In i P) by (rewrite <- (firstn_skipn (Z.to_nat n) P); apply in_or_app; left; exact Hi).
      apply (Permutation_in _ (Permutation_sym PP)) in H. apply in_seq in H. lia.
    + rewrite SH, firstn_map. reflexivity.
Qed.
(** Integers stay in the requested half-open range whenever the call returns. *)
Lemma wrap_smaller m : 0 < m < 2 ^ 63 -> Z.abs (wrap_i 32 m) <= m.
Proof. intros H. unfold wrap_i. change (2 ^ (32 - 1)) with 2147483648. change (2 ^ 32) with 4294967296. change (2 ^ 63) with 9223372036854775808 in H. destruct (m mod 4294967296 <? 2147483648) eqn:E; lia. Qed.
Lemma rem_bound r m k : 0 <= r -> k <> 0 -> Z.abs k <= m -> 0 <= Z.rem r k < m.
Proof. intros. pose proof (Z.rem_nonneg r k). pose proof (Z.rem_bound_abs r k). lia. Qed.
Theorem random_in_range_partial : forall min max r v, in_i 64 min -> in_i 64 max -> 0 <= r -> min < max ->
  random_int_range min max r = Ok v -> min <= v < max.
Proof.
  intros mn mx r v H1 H2 Hr L. unfold random_int_range. replace (mx <=? mn) with false by lia. unfold fits_i. change (2 ^ (64 - 1)) with (2 ^ 63).
  destruct (_ && _) eqn:F; [|discriminate]. destruct (wrap_i 32 (mx - mn) =? 0) eqn:Z0; [discriminate|]. intros [= <-].
  pose proof (wrap_smaller (mx - mn) ltac:(lia)). pose proof (rem_bound r (mx - mn) (wrap_i 32 (mx - mn)) Hr ltac:(lia) H). lia.
Qed.
Theorem random_max_partial : forall max r v, in_i 64 max -> 0 <= r -> 0 < max -> random_int_max max r = Ok v -> 0 <= v < max.
Proof.
  intros mx r v H2 Hr L. unfold random_int_max. replace (mx <=? 0) with false by lia. destruct (wrap_i 32 mx =? 0) eqn:Z0; [discriminate|]. intros [= <-].
  unfold in_i in H2. pose proof (wrap_smaller mx ltac:(lia)). apply rem_bound; lia.
Qed.
(** It does return when the range has fewer than 2^31 members ... *)
Theorem random_returns : forall min max r, in_i 64 min -> in_i 64 max -> 0 < max - min < 2 ^ 31 ->
  exists v, random_int_range min max r = Ok v.
Proof.
  intros mn mx r H1 H2 L. unfold random_int_range. replace (mx <=? mn) with false by lia. unfold fits_i. change (2 ^ (64 - 1)) with (2 ^ 63).
  replace (_ && _) with true by lia. rewrite (wrap_id 1 ltac:(lia)) by (unfold in_i; lia). replace (mx - mn =? 0) with false by lia. eexists. reflexivity.
Qed.
(** ... but a multiple of 2^32 divides by zero, and a wide range overflows. *)
Theorem random_range_refuted : (forall r, random_int_max (2 ^ 32) r = UB) /\ forall r, random_int_range (- 2 ^ 62) (2 ^ 62) r = UB.
Proof. split; intros r; reflexivity. Qed.
Theorem random_bytes_chars : forall r, 0 <= r -> 0 <= random_byte r < 256 /\ 32 <= random_char r < 127 /\
  forall min max v, in_i 32 min -> in_i 32 max -> min < max -> random_char_range min max r = Ok v -> min <= v < max.
Proof.
  intros r Hr. unfold random_byte, random_char, wrap_u. pose proof (rem_bound r 95 95 Hr ltac:(lia) ltac:(lia)). split; [apply Z.mod_pos_bound; reflexivity|]. split; [lia|].
  intros mn mx v H1 H2 L. unfold random_char_range. replace (mx <=? mn) with false by lia. destruct (fits_i 32 (mx - mn)); [|discriminate]. intros [= <-].
  pose proof (rem_bound r (mx - mn) (mx - mn) Hr ltac:(lia) ltac:(lia)). lia.
Qed.
Example random_ex : shuffle [1; 2; 3; 4] [5; 1; 7] = [1; 3; 4; 2] /\ sample [1; 2; 3; 4] 2 [5; 1; 7] = Ok [1; 3] /\ sample [1] 2 [] = Panic 62 /\
  random_int_range 10 20 37 = Ok 17.
Proof. vm_compute. repeat split. Qed.

(** ---- C75: elements keep their value whatever their declared type ---- *)
(** Types whose every access uses the size the array was created with *)
Definition uniform (t : ety) : bool :=
  match t with Ei8 | Ei16 | Ei32 | Eu8 | Eu16 | Eu32 | Ef32 => false | _ => true end.
(** For those: append writes the whole element and a[i] reads it all, on literals and on empty
    declarations alike, so the refinement of C18 applies with this size. *)
Theorem element_width_partial : forall t, uniform t = true ->
  literal_width t = empty_width t /\ read_width t = empty_width t /\ write_width t = empty_width t /\ append_width t = empty_width t /\
  (0 < empty_width t)%nat /\
  forall h vs ls d a e i, reachable (empty_width t) h vs ls -> nth_error vs d = Some a -> nth_error ls d = Some e ->
    array_get h a i (read_width t) = take_at e i 33.
Proof.
  intros t U. assert (E : literal_width t = empty_width t /\ read_width t = empty_width t /\ write_width t = empty_width t /\ append_width t = empty_width t /\ (0 < empty_width t)%nat).
  { destruct t; try discriminate; cbn; repeat split; lia. }
  destruct E as (E1 & E2 & E3 & E4 & E5). repeat (split; [assumption|]). intros h vs ls d a e i R Ha He. rewrite E2.
  apply (get_ok _ E5). eapply (reachable_repr _ h vs ls d); eassumption.
Qed.
(** The others: an array declared empty has elements of 1, 2 or 4 bytes, but a[i] reads 8. *)
Theorem element_width_refuted : forall t, uniform t = false -> empty_width t <> read_width t /\
  exists v, length v = empty_width t /\ exists h a xs, arun (declare (empty_width t) 1 []) [OPush 0 v; OPush 0 v] = Ok ((h, [a]), xs) /\
    exists w, array_get h a 0 (read_width t) = Ok w /\ le_value w <> le_value v.
Proof.
  intros t U. split; [destruct t; try discriminate; cbn; lia|].
  exists (1 :: repeat 0 (empty_width t - 1)). destruct t; try discriminate; (split; [reflexivity|]; do 3 eexists; split; [vm_compute; reflexivity|]; eexists; split; [vm_compute; reflexivity|vm_compute; discriminate]).
Qed.
(** and declared with a literal it has elements of 8 bytes, of which a[i] = v copies more bytes
    than v has *)
Theorem element_assign_refuted : forall t, uniform t = false -> (write_width t < literal_width t)%nat /\
  forall v, length v = write_width t -> forall h a, (0 < alen a)%nat -> esz a = literal_width t -> iter a = 0 -> array_set h a 0 v = UB.
Proof.
  intros t U. assert (H : (write_width t < literal_width t)%nat) by (destruct t; try discriminate; cbn; lia). split; [exact H|].
  intros v Hv h a Hl He Hi. unfold array_set. rewrite Hi. cbn [Z.ltb Z.compare orb]. replace (Z.of_nat (alen a) <=? 0) with false by lia.
  rewrite He. unfold from_value. rewrite Hv. replace (literal_width t <=? write_width t)%nat with false by lia. reflexivity.
Qed.
(** arrays.map and its relatives step through a literal [i8] array in steps of one byte *)
Theorem element_stride_refuted : exists t, hof_width t <> literal_width t /\ search_width t <> empty_width t.
Proof. exists Ei8. cbn. split; lia. Qed.
Example element_width_ex : uniform Eint = true /\ uniform Estring = true /\ uniform Ebyte = true /\
  match arun (declare 1 1 []) [OPush 0 [1]; OPush 0 [2]] with Ok ((h, [a]), _) => rmap le_value (array_get h a 0 8) = Ok 513 | _ => False end.
Proof. vm_compute. repeat split. Qed.

(** ---- C76: changing an array while a loop runs over it panics ---- *)
Lemma grow_iter h a h' a' : grow h a = Ok (h', a') -> iter a' = iter a.
Proof.
  unfold grow. repeat match goal with |- context [if ?c then _ else _] => destruct c; try discriminate end; try (intros [= _ <-]; reflexivity).
  all: destruct (alloc _ _); unfold rbind, rmap; repeat match goal with |- context [match ?c with _ => _ end] => destruct c; try discriminate end; try (intros [= _ <-]; reflexivity).
Qed.
Lemma push_iter h a v h' a' : array_push h a v = Ok (h', a') -> iter a' = iter a.
Proof.
  unfold array_push. destruct (0 <? iter a); [discriminate|]. destruct (grow h a) as [[h1 a1]|c| |] eqn:G; try discriminate. apply grow_iter in G. cbn [rbind fst snd].
  unfold rbind, rmap. repeat match goal with |- context [match ?c with _ => _ end] => destruct c; try discriminate end. intros [= _ <-]. exact G.
Qed.
Lemma push_n_iter n : forall h a v h' a', push_n h a v n = Ok (h', a') -> iter a' = iter a.
Proof.
  induction n as [|n IH]; intros h a v h' a'; cbn; [intros [= _ <-]; reflexivity|]. destruct (array_push h a v) as [[h1 a1]|c| |] eqn:P; try discriminate. cbn.
  intros H. apply IH in H. apply push_iter in P. congruence.
Qed.
Lemma remove_iter h a i h' a' : remove_at h a i = Ok (h', a') -> iter a' = iter a.
Proof. unfold remove_at, rbind, rmap. repeat match goal with |- context [match ?c with _ => _ end] => destruct c; try discriminate end. all: intros [= _ <-]; reflexivity. Qed.
Lemma mutate_iter h a o h' a' : mutate h a o = Ok (h', a') -> iter a' = iter a.
Proof.
  destruct o; cbn [mutate].
  - apply push_iter.
  - destruct (array_set h a i v); try discriminate. intros [= _ <-]. reflexivity.
  - unfold insert_at. destruct (0 <? iter a); [discriminate|]. destruct (_ || _); [discriminate|]. destruct (grow h a) as [[h1 a1]|c| |] eqn:G; try discriminate. apply grow_iter in G. cbn [rbind fst snd].
    unfold rbind, rmap. repeat match goal with |- context [match ?c with _ => _ end] => destruct c; try discriminate end. all: intros [= _ <-]; exact G.
  - apply remove_iter.
  - unfold clear. destruct (0 <? iter a); [discriminate|]. intros [= _ <-]. reflexivity.
  - unfold fill, clear. destruct (0 <? iter a); [discriminate|]. cbn. intros H. apply push_n_iter in H. exact H.
  - unfold remove_first. destruct (0 <? iter a); [discriminate|]. destruct (alen a =? 0)%nat; [discriminate|]. destruct (esz a <? esz a)%nat; [discriminate|]. destruct (rd _ _ _ _); try discriminate. cbn.
    destruct (remove_at h a 0) as [[h1 a1]|c| |] eqn:RA; cbn; try discriminate. intros [= _ <-]. eapply remove_iter; exact RA.
  - unfold remove_last. destruct (0 <? iter a); [discriminate|]. destruct (alen a =? 0)%nat; [discriminate|]. destruct (esz a <? esz a)%nat; [discriminate|]. destruct (rd _ _ _ _); try discriminate. cbn.
    intros [= _ <-]. reflexivity.
Qed.
Lemma running_app l e : running (l ++ [e]) = running l + running [e].
Proof. unfold running. rewrite fold_left_app. cbn. destruct e; lia. Qed.
Lemma airun_iter l : plain_loops l -> forall h a h' a', airun (h, a) l = Ok (h', a') -> iter a' = iter a + running l.
Proof.
  induction l as [|e l IH] using rev_ind; intros P h a h' a' E.
  - cbn in E. injection E as _ <-. unfold running. cbn. lia.
  - unfold airun in E. rewrite fold_left_app in E. cbn [fold_left] in E. fold (airun (h, a) l) in E.
    destruct (airun (h, a) l) as [[h1 a1]|c| |] eqn:E1; try discriminate. cbn [rbind] in E.
    assert (P1 : plain_loops l) by (intros x Hx; apply P; apply in_or_app; left; exact Hx).
    specialize (IH P1 h a h1 a1 E1). rewrite running_app. destruct (P e ltac:(apply in_or_app; right; left; reflexivity)) as (N1 & N2 & N3 & N4).
    destruct e; try contradiction; cbn [aistep] in E.
    + injection E as _ <-. cbn. lia.
    + injection E as _ <-. cbn. lia.
    + apply mutate_iter in E. cbn. lia.
Qed.
Theorem array_iteration_guard_partial : forall h a l h' a' o, iter a = 0 -> plain_loops l -> airun (h, a) l = Ok (h', a') ->
  (0 < running l -> mutate h' a' o = Panic 34) /\ (running l = 0 -> mutate h' a' o <> Panic 34).
Proof.
  intros h a l h' a' o I P E. pose proof (airun_iter l P h a h' a' E) as It. rewrite I in It. cbn in It. split; intros H.
  - assert (L : (0 <? iter a') = true) by lia. destruct o; cbn [mutate]; unfold array_push, array_set, insert_at, remove_at, clear, fill, clear, remove_first, remove_last; rewrite L; reflexivity.
  - assert (Lf : (0 <? iter a') = false) by lia.
    assert (RD : forall h b o n, rd h b o n <> Panic 34) by (intros; unfold rd; repeat match goal with |- context [match ?c with _ => _ end] => destruct c end; discriminate).
    assert (WR : forall h b o n, wr h b o n <> Panic 34) by (intros; unfold wr; repeat match goal with |- context [match ?c with _ => _ end] => destruct c end; discriminate).
    assert (FV : forall v n, from_value v n <> Panic 34) by (intros; unfold from_value; repeat match goal with |- context [match ?c with _ => _ end] => destruct c end; discriminate).
    assert (B : forall (A B : Type) (r : res A) (f : A -> res B), r <> Panic 34 -> (forall x, f x <> Panic 34) -> rbind r f <> Panic 34) by (intros A B r f H1 H2; destruct r; cbn; try discriminate; [apply H2|congruence]).
    assert (M : forall (A B : Type) (r : res A) (f : A -> B), r <> Panic 34 -> rmap f r <> Panic 34) by (intros A B0 r f H1; destruct r; cbn; try discriminate; congruence).
    assert (GR : forall h a, grow h a <> Panic 34).
    { intros h0 a0. unfold grow. repeat match goal with |- context [if ?c then _ else _] => destruct c; try discriminate end. all: destruct (alloc _ _); auto. }
    assert (PU : forall h a v, iter a = 0 -> array_push h a v <> Panic 34).
    { intros h0 a0 v I0. unfold array_push. rewrite I0. cbn [Z.ltb Z.compare]. apply B; [apply GR|]. intros [h1 a1]. cbn. apply B; [apply FV|]. intros w. apply M, WR. }
    assert (PN : forall n h a v, iter a = 0 -> push_n h a v n <> Panic 34).
    { induction n as [|n IHn]; intros h0 a0 v I0; cbn; [discriminate|]. destruct (array_push h0 a0 v) as [[h1 a1]|c| |] eqn:EP; cbn; try discriminate.
      - apply IHn. apply push_iter in EP. congruence.
      - intros [= ->]. apply (PU h0 a0 v I0 EP). }
    assert (RA : forall h a i, iter a = 0 -> remove_at h a i <> Panic 34).
    { intros h0 a0 i I0. unfold remove_at. rewrite I0. cbn [Z.ltb Z.compare]. destruct (_ || _); [discriminate|]. repeat match goal with |- context [if ?c then _ else _] => destruct c; try discriminate end; auto. }
    assert (I' : iter a' = 0) by lia.
    destruct o; cbn [mutate].
    + apply PU. exact I'.
    + apply M. unfold array_set. rewrite Lf. destruct (_ || _); [discriminate|]. apply B; [apply FV|]. intros w. apply WR.
    + unfold insert_at. rewrite Lf. destruct (_ || _); [discriminate|]. apply B; [apply GR|]. intros [h1 a1]. cbn [fst snd].
      cbv zeta. apply B; [apply RD|intros tl]. apply B; [destruct (_ <? _)%nat; [apply WR|discriminate]|intros h2]. apply B; [apply FV|intros w]. apply M, WR.
    + apply RA. exact I'.
    + unfold clear. rewrite Lf. discriminate.
    + unfold fill, clear. rewrite Lf. cbn. apply PN. exact I'.
    + unfold remove_first. rewrite Lf. repeat match goal with |- context [if ?c then _ else _] => destruct c; try discriminate end. apply M, B; [apply RD|]. intros w. apply M, RA. exact I'.
    + unfold remove_last. rewrite Lf. repeat match goal with |- context [if ?c then _ else _] => destruct c; try discriminate end. apply M, M, RD.
Qed.
(** The marker is lost when the array variable is reassigned inside the loop, and is never set
    for a loop over a field or a call result; it stays set after a return out of the loop. *)
Theorem array_iteration_guard_refuted : let start := array_new [] 1 4 in
  (exists r, airun start [BeginName; Assign; Mutate (MPush [1])] = Ok r) /\
  (exists r, airun start [BeginCopy; Mutate (MPush [1])] = Ok r) /\
  airun start [BeginName; ReturnOut; Mutate (MPush [1])] = Panic 34.
Proof. cbv zeta. split; [eexists; vm_compute; reflexivity|]. split; [eexists; vm_compute; reflexivity|]. vm_compute. reflexivity. Qed.
Example array_iteration_ex : let start := array_new [] 1 4 in
  airun start [Mutate (MPush [1]); BeginName; Mutate (MPush [2])] = Panic 34 /\
  (exists r, airun start [Mutate (MPush [1]); BeginName; EndName; Mutate (MPush [2])] = Ok r) /\
  plain_loops [Mutate (MPush [1]); BeginName; EndName; Mutate (MPush [2])].
Proof.
  cbv zeta. split; [vm_compute; reflexivity|]. split; [eexists; vm_compute; reflexivity|].
  intros e H. cbn in H. repeat destruct H as [<-|H]; try (repeat split; discriminate). contradiction.
Qed.

Print Assumptions arrays_refine_lists.
Print Assumptions array_index_checked.
Print Assumptions array_index_refuted.
Print Assumptions array_copies_independent.
Print Assumptions arrays_queries.
Print Assumptions arrays_transformations.
Print Assumptions first_occurrences_meaning.
Print Assumptions arrays_flatten_partial.
Print Assumptions arrays_flatten_refuted.
Print Assumptions arrays_dedup_strings_refuted.
Print Assumptions arrays_sum_partial.
Print Assumptions arrays_sum_refuted.
Print Assumptions arrays_min_max.
Print Assumptions arrays_higher_order.
Print Assumptions sort_ints.
Print Assumptions sort_texts.
Print Assumptions sort_floats_partial.
Print Assumptions sort_nan_refuted.
Print Assumptions sort_uint_refuted.
Print Assumptions sort_f64_refuted.
Print Assumptions sort_small_refuted.
Print Assumptions shuffle_permutes.
Print Assumptions sample_positions.
Print Assumptions random_in_range_partial.
Print Assumptions random_max_partial.
Print Assumptions random_returns.
Print Assumptions random_range_refuted.
Print Assumptions random_bytes_chars.
Print Assumptions element_width_partial.
Print Assumptions element_width_refuted.
Print Assumptions element_assign_refuted.
Print Assumptions element_stride_refuted.
Print Assumptions array_iteration_guard_partial.
Print Assumptions array_iteration_guard_refuted.
