From Verif Require Import Base BaseFacts ArrayModel ArraySpec ArrayProofs.

Section Store.
Context (sz : nat) (Hz : (0 < sz)%nat).
Notation repr := (repr sz).
Definition agree (st : state) (ls : list elems) : Prop :=
  length (snd st) = length ls /\
  (forall d a l, nth_error (snd st) d = Some a -> nth_error ls d = Some l -> repr (fst st) a l) /\
  (forall d e a b, nth_error (snd st) d = Some a -> nth_error (snd st) e = Some b -> d <> e -> blk a <> blk b).
Definition small (ls : list elems) : Prop := Forall (fun e => Z.of_nat (length e) <= 2 ^ 29) ls.
Lemma agree_var st ls d : agree st ls -> match nth_error (snd st) d, nth_error ls d with
  | Some a, Some l => repr (fst st) a l | None, None => True | _, _ => False end.
Proof.
  intros (L & R & _). destruct (nth_error (snd st) d) as [a|] eqn:Ea, (nth_error ls d) as [l|] eqn:El; trivial.
  - eapply R; eassumption.
  - apply nth_error_None in El. apply nth_some_lt in Ea. lia.
  - apply nth_error_None in Ea. apply nth_some_lt in El. lia.
Qed.
Lemma agree_update h h' vs ls d a' l' : agree (h, vs) ls -> (d < length vs)%nat -> repr h' a' l' ->
  (forall e b m, e <> d -> nth_error vs e = Some b -> nth_error ls e = Some m -> repr h' b m /\ blk a' <> blk b) ->
  agree (h', update d a' vs) (update d l' ls).
Proof.
  intros (L & R & D) Hd R' Hk. cbn [fst snd] in *. split; [|split]; cbn [fst snd].
  - rewrite !update_length. exact L.
  - intros e b m. rewrite !nth_update. destruct (e =? d)%nat eqn:E.
    + destruct (d <? length vs)%nat, (d <? length ls)%nat; try discriminate. intros [= <-] [= <-]. exact R'.
    + intros Hb Hm. apply (Hk e b m); [lia|exact Hb|exact Hm].
  - intros e f b c. rewrite !nth_update. destruct (e =? d)%nat eqn:E, (f =? d)%nat eqn:F.
    + lia.
    + destruct (d <? length vs)%nat; try discriminate. intros [= <-] Hc Hne.
      destruct (nth_error ls f) as [m|] eqn:Em; [|apply nth_error_None in Em; apply nth_some_lt in Hc; lia].
      apply (Hk f c m); [lia|exact Hc|exact Em].
    + destruct (d <? length vs)%nat; try discriminate. intros Hb [= <-] Hne.
      destruct (nth_error ls e) as [m|] eqn:Em; [|apply nth_error_None in Em; apply nth_some_lt in Hb; lia].
      intros X. apply (Hk e b m); [lia|exact Hb|exact Em|]. congruence.
    + apply D.
Qed.
Lemma agree_moved h h' vs ls d a a' l' : agree (h, vs) ls -> nth_error vs d = Some a -> moved h h' a a' -> repr h' a' l' ->
  agree (h', update d a' vs) (update d l' ls).
Proof.
  intros A Ed (F & B) R'. pose proof A as (L & R & D). cbn [fst snd] in *. apply agree_update with h; [exact A|eapply nth_some_lt; exact Ed|exact R'|].
  intros e b m Hne Hb Hm. pose proof (R e b m Hb Hm) as Rb. pose proof (D e d b a Hb Ed Hne) as Db. split.
  - eapply repr_frame; [exact F|exact Db|exact Rb].
  - pose proof (repr_lt _ _ _ _ Rb). destruct B; lia.
Qed.
Lemma agree_fresh h h' vs ls d r l' : agree (h, vs) ls -> (d < length vs)%nat -> fresh h h' r -> repr h' r l' ->
  agree (h', update d r vs) (update d l' ls).
Proof.
  intros A Ed F R'. pose proof A as (L & R & D). cbn [fst snd] in *. apply agree_update with h; [exact A|exact Ed|exact R'|].
  intros e b m Hne Hb Hm. pose proof (R e b m Hb Hm) as Rb. split; [eapply fresh_keeps; eassumption|].
  pose proof (repr_lt _ _ _ _ Rb). destruct F as [F _]. lia.
Qed.
Lemma bytes_small ls : Forall (fun e : elems => Z.of_nat (length e * sz) <= 2 ^ 29) ls -> small ls.
Proof. apply Forall_impl. intros e H. cbv beta in *. nia. Qed.
Lemma small_nth ls d l : small ls -> nth_error ls d = Some l -> Z.of_nat (length l) <= 2 ^ 29.
Proof. intros S E. unfold small in S. rewrite Forall_forall in S. apply S. eapply nth_error_In; exact E. Qed.
Lemma small_update ls d l : (d < length ls)%nat -> small (update d l ls) -> Z.of_nat (length l) <= 2 ^ 29.
Proof.
  intros Hd S. apply (small_nth (update d l ls) d); [exact S|]. rewrite nth_update, Nat.eqb_refl. replace (_ <? _)%nat with true by lia. reflexivity.
Qed.
Lemma wrap_id i : in_i 32 i -> wrap_i 32 i = i.
Proof. unfold in_i, wrap_i. intros H. destruct (i mod 2 ^ 32 <? 2 ^ (32 - 1)) eqn:E; lia. Qed.
Lemma update_same {A} (l : list A) d x : nth_error l d = Some x -> update d x l = l.
Proof. revert d. induction l as [|y l IH]; intros [|d]; cbn; try discriminate; [intros [= ->]; reflexivity|]. intros H. rewrite IH by exact H. reflexivity. Qed.

Lemma wv_some {A B} (l : list A) d a (f : A -> res B) : nth_error l d = Some a -> with_var l d f = f a.
Proof. unfold with_var. intros ->. reflexivity. Qed.
Lemma wv_none {A B} (l : list A) d (f : A -> res B) : nth_error l d = None -> with_var l d f = UB.
Proof. unfold with_var. intros ->. reflexivity. Qed.

Definition matches (st : state) (o : aop) (r : res (list elems * aobs)) : Prop :=
  match r with
  | Ok (ls', x) => exists st', astep st o = Ok (st', x) /\ agree st' ls'
  | Panic c => astep st o = Panic c
  | UB => astep st o = UB
  | NoFuel => False
  end.
Theorem step_refines st ls o : agree st ls -> small ls -> well_typed sz o ->
  (forall ls' x, sstep ls o = Ok (ls', x) -> small ls') -> matches st o (sstep ls o).
Proof.
  intros A S W S'. destruct st as [h vs]. pose proof A as (L & _). cbn [snd] in L.
  assert (STORE : forall d l0 x, nth_error ls d = Some l0 -> forall l', (forall ls' x', assign ls d x (Ok l') = Ok (ls', x') -> small ls') -> Z.of_nat (length l') <= 2 ^ 29).
  { intros d l0 x E l' HS. apply (small_update ls d l'); [eapply nth_some_lt; exact E|]. apply (HS _ x). unfold assign, with_var. rewrite E. reflexivity. }
  unfold matches.
  destruct o as [d v|d i|d i v|d i v|d v|d i|d|d v n|d|d|d|d|d|d s|d s|d s i j|d s t|d s]; cbn [sstep astep well_typed] in *.
  all: match goal with
       | A : agree (?h, ?vs) ?ls |- context [with_var ?ls ?d _] =>
           pose proof (agree_var _ _ d A) as V; cbn [fst snd] in V;
           destruct (nth_error vs d) as [a|] eqn:Ea; destruct (nth_error ls d) as [l|] eqn:El; try contradiction;
           [rewrite (wv_some ls d l _ El) in S' |- *; rewrite ?(wv_some vs d a _ Ea); cbv beta in *
           |rewrite (wv_none ls d _ El), ?(wv_none vs d _ Ea); reflexivity]
       end.
  (* push *)
  - pose proof (STORE d l Unit El _ S') as Hn. rewrite app_length in Hn. cbn in Hn.
    destruct (push_ok sz h a l v V W ltac:(lia)) as (h' & a' & E & R' & M).
    unfold assign, with_var, store. rewrite El, E. unfold with_var. rewrite Ea. cbn. eexists. split; [reflexivity|]. eapply agree_moved; eassumption.
  (* get *)
  - rewrite (wrap_id i W). unfold take_at, array_get. rewrite (r_len _ _ _ _ V), (r_esz _ _ _ _ V).
    destruct (i <? 0) eqn:Hi; cbn [orb]; [reflexivity|]. destruct (nth_error l (Z.to_nat i)) as [e|] eqn:Ee.
    + pose proof (nth_some_lt _ _ _ Ee). replace (Z.of_nat (length l) <=? i) with false by lia.
      pose proof (read_one sz h a l _ e V Ee) as RE. rewrite (r_esz _ _ _ _ V) in RE. rewrite RE. cbn. eexists. split; [reflexivity|exact A].
    + apply nth_error_None in Ee. replace (Z.of_nat (length l) <=? i) with true by lia. reflexivity.
  (* set *)
  - destruct W as [Wi Wv]. rewrite (wrap_id i Wi). unfold in_range. destruct ((0 <=? i) && (i <? Z.of_nat (length l))) eqn:Hr.
    + destruct (set_ok sz h a l (Z.to_nat i) v V Wv ltac:(lia)) as (h' & E & R' & F). rewrite Z2Nat.id in E by lia. rewrite E. cbn.
      eexists. split; [reflexivity|]. rewrite <- (update_same vs d a Ea). eapply agree_moved; [exact A|exact Ea| |exact R']. split; [exact F|left; reflexivity].
    + unfold array_set. rewrite (r_iter _ _ _ _ V), (r_len _ _ _ _ V). cbn [Z.ltb Z.compare]. replace ((i <? 0) || _) with true by lia. reflexivity.
  (* insert *)
  - destruct W as [Wi Wv]. rewrite (wrap_id i Wi). destruct ((0 <=? i) && (i <=? Z.of_nat (length l))) eqn:Hr.
    + pose proof (STORE d l Unit El _ S') as Hn. unfold insert_nth in Hn. rewrite app_length in Hn. cbn [length] in Hn. rewrite firstn_length, skipn_length in Hn.
      destruct (insert_ok sz h a l (Z.to_nat i) v V Wv ltac:(lia) ltac:(lia)) as (h' & a' & E & R' & M). rewrite Z2Nat.id in E by lia.
      unfold assign, with_var, store. rewrite El, E. unfold with_var. rewrite Ea. cbn. eexists. split; [reflexivity|]. eapply agree_moved; eassumption.
    + unfold store, with_var. rewrite Ea. unfold insert_at. rewrite (r_iter _ _ _ _ V), (r_len _ _ _ _ V). cbn [Z.ltb Z.compare].
      replace ((i <? 0) || _) with true by lia. reflexivity.
  (* prepend *)
  - pose proof (STORE d l Unit El _ S') as Hn. cbn [length] in Hn. unfold prepend.
    destruct (insert_ok sz h a l 0 v V W ltac:(lia) ltac:(lia)) as (h' & a' & E & R' & M). change (Z.of_nat 0) with 0 in E.
    unfold assign, with_var, store. rewrite El, E. unfold with_var. rewrite Ea. cbn. eexists. split; [reflexivity|]. eapply agree_moved; eassumption.
  (* remove_at *)
  - rewrite (wrap_id i W). unfold in_range. destruct ((0 <=? i) && (i <? Z.of_nat (length l))) eqn:Hr.
    + destruct (remove_ok sz h a l (Z.to_nat i) V ltac:(lia)) as (h' & a' & E & R' & M). rewrite Z2Nat.id in E by lia.
      unfold assign, with_var, store. rewrite El, E. unfold with_var. rewrite Ea. cbn. eexists. split; [reflexivity|]. eapply agree_moved; eassumption.
    + unfold store, with_var. rewrite Ea. unfold remove_at. rewrite (r_iter _ _ _ _ V), (r_len _ _ _ _ V). cbn [Z.ltb Z.compare].
      replace ((i <? 0) || _) with true by lia. reflexivity.
  (* clear *)
  - destruct (clear_ok sz h a l V) as (a' & E & R' & B). unfold assign, with_var, store. rewrite El, E. unfold with_var. rewrite Ea. cbn.
    eexists. split; [reflexivity|]. eapply agree_moved; [exact A|exact Ea| |exact R']. split; [apply frame_refl|left; exact B].
  (* fill *)
  - destruct W as [Wv Wn]. rewrite (wrap_id n Wn). pose proof (STORE d l Unit El _ S') as Hn. rewrite repeat_length in Hn.
    destruct (fill_ok sz h a l v n V Wv ltac:(lia)) as (h' & a' & E & R' & M).
    unfold assign, with_var, store. rewrite El, E. unfold with_var. rewrite Ea. cbn. eexists. split; [reflexivity|]. eapply agree_moved; eassumption.
  (* first *)
  - unfold get_first, take_at. rewrite (r_len _ _ _ _ V), (r_esz _ _ _ _ V). cbn [Z.ltb Z.compare]. change (Z.to_nat 0) with 0%nat.
    destruct l as [|e l]; [reflexivity|]. cbn [length Nat.eqb nth_error rmap].
    pose proof (read_one sz h a (e :: l) 0 e V eq_refl) as RE. cbn [Nat.mul] in RE. rewrite RE. cbn. eexists. split; [reflexivity|exact A].
  (* last *)
  - unfold get_last, take_at. rewrite (r_len _ _ _ _ V). cbn [Z.ltb Z.compare]. change (Z.to_nat 0) with 0%nat.
    destruct (rev l) as [|e r] eqn:Er.
    + assert (l = []) as -> by (rewrite <- (rev_involutive l), Er; reflexivity). reflexivity.
    + assert (El' : l = rev r ++ [e]) by (rewrite <- (rev_involutive l), Er; reflexivity).
      assert (Ee : nth_error l (length l - 1) = Some e). { rewrite El', app_length, nth_error_app2 by (cbn; lia). cbn [length]. replace (length (rev r) + 1 - 1 - length (rev r))%nat with 0%nat by lia. reflexivity. }
      replace (length l =? 0)%nat with false by (rewrite El', app_length; cbn; lia). cbn [nth_error rmap].
      pose proof (read_one sz h a l _ e V Ee) as RE. rewrite (r_esz _ _ _ _ V) in *. rewrite RE. cbn. eexists. split; [reflexivity|exact A].
  (* take first *)
  - unfold remove_first. rewrite (r_iter _ _ _ _ V), (r_len _ _ _ _ V), (r_esz _ _ _ _ V). cbn [Z.ltb Z.compare].
    destruct l as [|e l]; [reflexivity|]. cbn [length Nat.eqb]. replace (sz <? sz)%nat with false by lia.
    pose proof (read_one sz h a (e :: l) 0 e V eq_refl) as RE. cbn [Nat.mul] in RE. rewrite RE. cbn [rbind].
    destruct (remove_ok sz h a (e :: l) 0 V ltac:(cbn; lia)) as (h' & a' & E & R' & M). change (Z.of_nat 0) with 0 in E. rewrite E. cbn [rmap rbind fst snd].
    unfold assign, with_var, store. unfold with_var. rewrite El, Ea. cbn. eexists. split; [reflexivity|]. eapply agree_moved; eassumption.
  (* take last *)
  - unfold remove_last. rewrite (r_iter _ _ _ _ V), (r_len _ _ _ _ V). cbn [Z.ltb Z.compare].
    destruct (rev l) as [|e r] eqn:Er.
    + assert (l = []) as -> by (rewrite <- (rev_involutive l), Er; reflexivity). reflexivity.
    + assert (El' : l = rev r ++ [e]) by (rewrite <- (rev_involutive l), Er; reflexivity).
      assert (LL : length l = (1 + length (rev r))%nat) by (rewrite El', app_length; cbn; lia).
      assert (Ee : nth_error l (length l - 1) = Some e). { rewrite El', app_length, nth_error_app2 by (cbn; lia). cbn [length]. replace (length (rev r) + 1 - 1 - length (rev r))%nat with 0%nat by lia. reflexivity. }
      replace (length l =? 0)%nat with false by lia. replace (esz a <? esz a)%nat with false by lia.
      pose proof (read_one sz h a l _ e V Ee) as RE. rewrite (r_esz _ _ _ _ V) in *. rewrite RE. cbn [rmap rbind fst snd].
      unfold assign, with_var, store. unfold with_var. rewrite El, Ea. cbn. eexists. split; [reflexivity|].
      eapply agree_moved; [exact A|exact Ea|split; [apply frame_refl|left; reflexivity]|].
      destruct V as [v1 v2 v3 v4 v5 v6 v7 (q & N & Hq)]. rewrite El' in v4. apply shaped_app in v4. destruct v4 as [s1 s2].
      constructor; cbn; try assumption; try lia. exists (e ++ q). rewrite El', concat_app in N, Hq. cbn [concat] in N, Hq. rewrite app_nil_r, <- app_assoc in N, Hq.
      split; assumption.
  (* len *)
  - rewrite (r_len _ _ _ _ V). eexists. split; [reflexivity|exact A].
  (* copy *)
  - unfold assign, store, with_var in *. destruct (nth_error ls d) as [ld|] eqn:Ed.
    + destruct (nth_error vs d) as [ad|] eqn:Ead; [|apply nth_error_None in Ead; apply nth_some_lt in Ed; lia].
      destruct (copy_ok sz h a l V) as (h' & a' & E & R' & B & L' & F); [pose proof (small_nth _ _ _ S El); lia|]. rewrite E. cbn. eexists. split; [reflexivity|].
      eapply agree_fresh; [exact A|eapply nth_some_lt; exact Ead| |exact R']. split; [lia|split; [lia|exact F]].
    + replace (nth_error vs d) with (@None arr) by (symmetry; apply nth_error_None; apply nth_error_None in Ed; lia). reflexivity.
  (* reverse *)
  - unfold assign, store, with_var in *. destruct (nth_error ls d) as [ld|] eqn:Ed.
    + destruct (nth_error vs d) as [ad|] eqn:Ead; [|apply nth_error_None in Ead; apply nth_some_lt in Ed; lia].
      destruct (reverse_ok sz h a l V Hz (small_nth _ _ _ S El)) as (h' & a' & E & R' & F). rewrite E. cbn. eexists. split; [reflexivity|].
      eapply agree_fresh; [exact A|eapply nth_some_lt; exact Ead|exact F|exact R'].
    + replace (nth_error vs d) with (@None arr) by (symmetry; apply nth_error_None; apply nth_error_None in Ed; lia). reflexivity.
  (* slice *)
  - destruct W as [Wi Wj]. rewrite (wrap_id i Wi), (wrap_id j Wj). unfold assign, store, with_var in *. destruct (nth_error ls d) as [ld|] eqn:Ed.
    + destruct (nth_error vs d) as [ad|] eqn:Ead; [|apply nth_error_None in Ead; apply nth_some_lt in Ed; lia].
      destruct (slice_ok sz h a l i j V) as (h' & a' & E & R' & F). rewrite E. cbn. eexists. split; [reflexivity|].
      eapply agree_fresh; [exact A|eapply nth_some_lt; exact Ead|exact F|exact R'].
    + replace (nth_error vs d) with (@None arr) by (symmetry; apply nth_error_None; apply nth_error_None in Ed; lia). reflexivity.
  (* concat *)
  - pose proof (agree_var _ _ t A) as V2. cbn [fst snd] in V2. unfold assign, store, with_var in *.
    destruct (nth_error vs t) as [b|] eqn:Eb; destruct (nth_error ls t) as [m|] eqn:Em; try contradiction; try reflexivity.
    destruct (nth_error ls d) as [ld|] eqn:Ed.
    + destruct (nth_error vs d) as [ad|] eqn:Ead; [|apply nth_error_None in Ead; apply nth_some_lt in Ed; lia].
      assert (Hn : Z.of_nat (length (l ++ m)) <= 2 ^ 29). { apply (small_update ls d); [eapply nth_some_lt; exact Ed|]. apply (S' _ Unit). reflexivity. }
      rewrite app_length in Hn. destruct (concat_ok sz h a b l m V V2 Hz Hn) as (h' & a' & E & R' & F). rewrite E. cbn. eexists. split; [reflexivity|].
      eapply agree_fresh; [exact A|eapply nth_some_lt; exact Ead|exact F|exact R'].
    + replace (nth_error vs d) with (@None arr) by (symmetry; apply nth_error_None; apply nth_error_None in Ed; lia). reflexivity.
  (* dedup *)
  - unfold assign, store, with_var in *. destruct (nth_error ls d) as [ld|] eqn:Ed.
    + destruct (nth_error vs d) as [ad|] eqn:Ead; [|apply nth_error_None in Ead; apply nth_some_lt in Ed; lia].
      destruct (dedup_ok sz h a l V (small_nth _ _ _ S El)) as (h' & a' & E & R' & F). rewrite E. cbn. eexists. split; [reflexivity|].
      eapply agree_fresh; [exact A|eapply nth_some_lt; exact Ead|exact F|exact R'].
    + replace (nth_error vs d) with (@None arr) by (symmetry; apply nth_error_None; apply nth_error_None in Ed; lia). reflexivity.
Qed.

Lemma run_refines l : forall st ls, agree st ls -> Forall (well_typed sz) l -> stays_small sz ls l ->
  match srun ls l with
  | Ok (ls', xs) => exists st', arun st l = Ok (st', xs) /\ agree st' ls'
  | Panic c => arun st l = Panic c
  | UB => arun st l = UB
  | NoFuel => False
  end.
Proof.
  induction l as [|o l IH]; intros st ls A W S; [cbn; exists st; split; [reflexivity|exact A]|].
  inversion W as [|x y Wo Wl]; subst x y. cbn [srun arun].
  assert (Sm : small ls) by (apply bytes_small, (S [] (o :: l) ls []); reflexivity).
  assert (Sm' : forall ls' x, sstep ls o = Ok (ls', x) -> small ls').
  { intros ls' x E. apply bytes_small, (S [o] l ls' [x]); [reflexivity|]. cbn. rewrite E. reflexivity. }
  pose proof (step_refines st ls o A Sm Wo Sm') as M. unfold matches in M.
  destruct (sstep ls o) as [[ls1 x]|c| |] eqn:E; cbn [rbind fst snd]; try (rewrite M; reflexivity); try contradiction.
  destruct M as (st1 & E1 & A1). rewrite E1. cbn [rbind fst snd].
  assert (S1 : stays_small sz ls1 l).
  { intros p q ls' xs -> R. apply (S (o :: p) q ls' (x :: xs)); [reflexivity|]. cbn. rewrite E. cbn. rewrite R. reflexivity. }
  specialize (IH st1 ls1 A1 Wl S1). destruct (srun ls1 l) as [[ls2 xs]|c| |]; cbn [rmap rbind fst snd]; try (rewrite IH; reflexivity); try contradiction.
  destruct IH as (st2 & E2 & A2). rewrite E2. exists st2. split; [reflexivity|exact A2].
Qed.
Lemma declare_ok n : forall h, let st := declare sz n h in
  length (snd st) = n /\ (length h <= length (fst st))%nat /\ (forall c, (c < length h)%nat -> nth_error (fst st) c = nth_error h c) /\
  (forall d a, nth_error (snd st) d = Some a -> repr (fst st) a [] /\ blk a = (length h + d)%nat).
Proof.
  induction n as [|n IH]; intros h; cbn [declare].
  - cbn. split; [reflexivity|]. split; [lia|]. split; [reflexivity|]. intros [|d] a; discriminate.
  - destruct (new_ok sz h 4 ltac:(lia)) as (h1 & a1 & E & R1 & B1 & L1 & F1). rewrite E. specialize (IH h1).
    destruct (declare sz n h1) as [h2 vs]. cbn [fst snd] in *. destruct IH as (Ln & Lh & Fr & Al). split; [cbn; lia|]. split; [lia|]. split.
    + intros c Hc. rewrite Fr by lia. apply F1. exact Hc.
    + intros [|d] a Hd; cbn in Hd.
      * injection Hd as <-. split; [|lia]. apply (repr_frame sz h1 h2 (length h1)); [split; [exact Lh|intros c Hc _; apply Fr; exact Hc]| |exact R1].
        pose proof (repr_lt _ _ _ _ R1). lia.
      * destruct (Al d a Hd) as [Ra Ba]. split; [exact Ra|lia].
Qed.
Lemma declare_agree n h : agree (declare sz n h) (repeat [] n).
Proof.
  pose proof (declare_ok n h) as D. cbv zeta in D. destruct D as (Ln & _ & _ & Al). split; [rewrite repeat_length; exact Ln|]. split.
  - intros d a l Ha Hl. apply nth_error_In in Hl. apply repeat_spec in Hl. subst l. apply (Al d a Ha).
  - intros d e a b Ha Hb Hne. destruct (Al d a Ha) as [_ Ba]. destruct (Al e b Hb) as [_ Bb]. lia.
Qed.
End Store.
