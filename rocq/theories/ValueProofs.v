From Verif Require Import Base ValueSpec ValueModel.

(** A value represents a tree and takes up these blocks. *)
Inductive rep (h : heap) : val -> tree -> list nat -> Prop :=
| rep_num z : rep h (VNum z) (Num z) []
| rep_rec vs ts f : reps h vs ts f -> rep h (VRec vs) (Rec ts) f
| rep_arr b vs ts f : nth_error h b = Some vs -> reps h vs ts f -> rep h (VArr b) (Arr ts) (b :: f)
with reps (h : heap) : list val -> list tree -> list nat -> Prop :=
| reps_nil : reps h [] [] []
| reps_cons v t f vs ts g : rep h v t f -> reps h vs ts g -> reps h (v :: vs) (t :: ts) (f ++ g).
Scheme rep_mind := Minimality for rep Sort Prop with reps_mind := Minimality for reps Sort Prop.
Combined Scheme rep_both from rep_mind, reps_mind.

Lemma nth_of_error {A} (l : list A) n x d : nth_error l n = Some x -> nth n l d = x.
Proof. revert n; induction l; destruct n; cbn; intros; try congruence; auto. Qed.

Lemma rep_view_both h :
  (forall v tr f, rep h v tr f -> forall t, has t tr -> view t h v = tr) /\
  (forall vs trs f, reps h vs trs f ->
     (forall tys, Forall2 has tys trs ->
        (fix go ts vs := match ts, vs with t :: ts, v :: vs => view t h v :: go ts vs | _, _ => [] end) tys vs = trs) /\
     (forall t, Forall (has t) trs -> map (view t h) vs = trs)).
Proof.
  apply rep_both.
  - intros z t H; inversion H; reflexivity.
  - intros vs ts f _ [IH _] t H; inversion H; subst. cbn. now rewrite IH.
  - intros b vs ts f E _ [_ IH] t H; inversion H; subst. cbn. rewrite (nth_of_error _ _ _ _ E). now rewrite IH.
  - split; intros tys H; inversion H; reflexivity.
  - intros v t f vs ts g _ IHv _ [IH1 IH2]. split; intros tys H; inversion H; subst; cbn; f_equal; auto.
Qed.
Lemma rep_view h v tr f t : rep h v tr f -> has t tr -> view t h v = tr.
Proof. intros; eapply (proj1 (rep_view_both h)); eauto. Qed.
Lemma reps_contents h vs trs f g : reps h vs trs f -> Forall2 has g trs -> contents g h vs = trs.
Proof.
  revert trs f g; induction vs as [|v vs IH]; intros trs f g H T; inversion H; subst; inversion T; subst; cbn; auto.
  f_equal; [eapply rep_view; eauto | eapply IH; eauto].
Qed.

Lemma rep_frame_both h :
  (forall v tr f, rep h v tr f -> forall h', (forall b, In b f -> nth_error h' b = nth_error h b) -> rep h' v tr f) /\
  (forall vs trs f, reps h vs trs f -> forall h', (forall b, In b f -> nth_error h' b = nth_error h b) -> reps h' vs trs f).
Proof.
  apply rep_both; intros; econstructor; auto with datatypes.
  - rewrite H2; eauto with datatypes.
Qed.
Lemma rep_frame h h' v tr f : rep h v tr f -> (forall b, In b f -> nth_error h' b = nth_error h b) -> rep h' v tr f.
Proof. intros; eapply (proj1 (rep_frame_both h)); eauto. Qed.
Lemma reps_frame h h' v tr f : reps h v tr f -> (forall b, In b f -> nth_error h' b = nth_error h b) -> reps h' v tr f.
Proof. intros; eapply (proj2 (rep_frame_both h)); eauto. Qed.

Lemma rep_bound_both h :
  (forall v tr f, rep h v tr f -> forall b, In b f -> (b < length h)%nat) /\
  (forall vs trs f, reps h vs trs f -> forall b, In b f -> (b < length h)%nat).
Proof.
  apply rep_both.
  - easy.
  - auto.
  - intros b vs ts f E _ IH c [<-|B]; auto. apply nth_error_Some. congruence.
  - easy.
  - intros v t f vs ts g _ IH1 _ IH2 b B. apply in_app_or in B as []; auto.
Qed.
Lemma rep_bound h v tr f b : rep h v tr f -> In b f -> (b < length h)%nat.
Proof. intros; eapply (proj1 (rep_bound_both h)); eauto. Qed.
Lemma reps_bound h v tr f b : reps h v tr f -> In b f -> (b < length h)%nat.
Proof. intros; eapply (proj2 (rep_bound_both h)); eauto. Qed.
Lemma rep_ext h ext v tr f : rep h v tr f -> rep (h ++ ext) v tr f.
Proof. intros R; eapply rep_frame; eauto. intros b B. apply nth_error_app1. eapply rep_bound; eauto. Qed.
Lemma reps_ext h ext v tr f : reps h v tr f -> reps (h ++ ext) v tr f.
Proof. intros R; eapply reps_frame; eauto. intros b B. apply nth_error_app1. eapply reps_bound; eauto. Qed.

Lemma reps_app h vs ts f vs' ts' f' : reps h vs ts f -> reps h vs' ts' f' -> reps h (vs ++ vs') (ts ++ ts') (f ++ f').
Proof. induction 1; cbn; auto. intros; rewrite <- app_assoc; constructor; auto. Qed.
Lemma reps_one h v t f : rep h v t f -> reps h [v] [t] f.
Proof. intros; rewrite <- (app_nil_r f). repeat constructor; auto. Qed.
Lemma reps_length h vs ts f : reps h vs ts f -> length vs = length ts.
Proof. induction 1; cbn; congruence. Qed.
Lemma reps_nth h vs ts f i tu : reps h vs ts f -> nth_error ts i = Some tu ->
  exists v1 u v2 t1 t2 f1 fu f2, vs = v1 ++ u :: v2 /\ ts = t1 ++ tu :: t2 /\ f = f1 ++ fu ++ f2 /\
    reps h v1 t1 f1 /\ rep h u tu fu /\ reps h v2 t2 f2 /\ length v1 = i /\ length t1 = i.
Proof.
  intros R; revert i; induction R as [|v t f vs ts g Rv Rs IH]; intros [|i] E; cbn in E; try discriminate.
  - injection E as ->. exists [], v, vs, [], ts, [], f, g. repeat split; auto; constructor.
  - destruct (IH _ E) as (v1 & u & v2 & t1 & t2 & f1 & fu & f2 & -> & -> & -> & R1 & Ru & R2 & L1 & L2).
    exists (v :: v1), u, v2, (t :: t1), t2, (f ++ f1), fu, f2. cbn.
    rewrite <- app_assoc. repeat split; auto; try congruence. constructor; auto.
Qed.
Lemma nth_error_mid {A} (l1 l2 : list A) x : nth_error (l1 ++ x :: l2) (length l1) = Some x.
Proof. induction l1; cbn; auto. Qed.
Lemma put_mid {A} (l1 l2 : list A) x y : put (l1 ++ x :: l2) (length l1) y = l1 ++ y :: l2.
Proof. induction l1; cbn; congruence. Qed.
Lemma put_length {A} (l : list A) i x : length (put l i x) = length l.
Proof. revert i; induction l; destruct i; cbn; auto. Qed.
Lemma put_same {A} (l : list A) i x : (i < length l)%nat -> nth_error (put l i x) i = Some x.
Proof. revert i; induction l; destruct i; cbn; intros; try lia; auto. apply IHl; lia. Qed.
Lemma put_other {A} (l : list A) i j x : i <> j -> nth_error (put l i x) j = nth_error l j.
Proof. revert i j; induction l; destruct i, j; cbn; intros; auto; try congruence. Qed.

(** Building a value takes new room only. *)
Fixpoint builds (l : list tree) (h : heap) : list val * heap :=
  match l with
  | [] => ([], h)
  | t :: l => let '(v, h) := build t h in let '(vs, h) := builds l h in (v :: vs, h)
  end.
Lemma build_rec ts h : build (Rec ts) h = let '(vs, h) := builds ts h in (VRec vs, h).
Proof. reflexivity. Qed.
Lemma build_arr ts h : build (Arr ts) h = let '(vs, h) := builds ts h in (VArr (length h), h ++ [vs]).
Proof. reflexivity. Qed.
Section TreeInd.
  Context (P : tree -> Prop) (Hn : forall z, P (Num z)) (Hr : forall ts, Forall P ts -> P (Rec ts))
    (Ha : forall ts, Forall P ts -> P (Arr ts)).
  Fixpoint tree_all (t : tree) : P t :=
    match t with
    | Num z => Hn z
    | Rec ts => Hr ts ((fix go l : Forall P l := match l with [] => Forall_nil _ | t :: l => Forall_cons t (tree_all t) (go l) end) ts)
    | Arr ts => Ha ts ((fix go l : Forall P l := match l with [] => Forall_nil _ | t :: l => Forall_cons t (tree_all t) (go l) end) ts)
    end.
End TreeInd.
Definition fresh_between (f : list nat) (h h' : heap) : Prop :=
  NoDup f /\ forall b, In b f -> (length h <= b < length h')%nat.
Definition builds_well (l : list tree) : Prop := forall h, exists vs ext f,
  builds l h = (vs, h ++ ext) /\ reps (h ++ ext) vs l f /\ fresh_between f h (h ++ ext).
Lemma NoDup_split {A} (f g : list A) : NoDup f -> NoDup g -> (forall b, In b f -> In b g -> False) -> NoDup (f ++ g).
Proof.
  induction f as [|a f IH]; cbn; auto. intros Nf Ng D. inversion Nf; subst. constructor.
  - rewrite in_app_iff. intros [|]; auto. eapply D; eauto.
  - apply IH; auto. intros; eapply D; eauto.
Qed.
Lemma build_well t : forall h, exists v ext f,
  build t h = (v, h ++ ext) /\ rep (h ++ ext) v t f /\ fresh_between f h (h ++ ext).
Proof.
  assert (L : forall ts, Forall (fun t => forall h, exists v ext f,
    build t h = (v, h ++ ext) /\ rep (h ++ ext) v t f /\ fresh_between f h (h ++ ext)) ts -> builds_well ts).
  { clear t. induction 1 as [|t ts Ht _ IH]; intros h.
    - exists [], [], []. rewrite app_nil_r. repeat split; try constructor; easy.
    - destruct (Ht h) as (v & e1 & f1 & B1 & R1 & N1 & F1).
      destruct (IH (h ++ e1)) as (vs & e2 & f2 & B2 & R2 & N2 & F2).
      exists (v :: vs), (e1 ++ e2), (f1 ++ f2). cbn. rewrite B1, B2, app_assoc. split; [reflexivity|]. split.
      + constructor; auto. now apply rep_ext.
      + split.
        * apply NoDup_split; auto. intros b H1 H2. specialize (F1 _ H1); specialize (F2 _ H2). lia.
        * intros b [H1|H1]%in_app_or; [specialize (F1 _ H1)|specialize (F2 _ H1)]; rewrite !app_length in *; lia. }
  pattern t. apply tree_all; clear t; [intros z h|intros ts IH h|intros ts IH h].
  - exists (VNum z), [], []. rewrite app_nil_r. repeat split; try constructor; easy.
  - destruct (L ts IH h) as (vs & e & f & B & R & F). exists (VRec vs), e, f. rewrite build_rec, B. repeat split; try apply F; auto.
    now constructor.
  - destruct (L ts IH h) as (vs & e & f & B & R & N & F). exists (VArr (length (h ++ e))), (e ++ [vs]), (length (h ++ e) :: f).
    rewrite build_arr, B, app_assoc. split; [reflexivity|]. split; [|split].
    + econstructor; [|eapply reps_ext; eauto]. apply nth_error_mid.
    + constructor; auto. intros H; specialize (F _ H); lia.
    + intros b [<-|H]; [|specialize (F _ H)]; rewrite !app_length in *; cbn; lia.
Qed.

(** Reading. *)
Lemma at_nth {A} (l : list A) i x : at_ l i = Some x -> 0 <= i /\ nth_error l (Z.to_nat i) = Some x.
Proof. unfold at_. destruct (Z.ltb_spec i 0); [discriminate|]. intros; split; auto; lia. Qed.
Lemma nth_error_len {A B} (l : list A) (m : list B) i : length l = length m -> nth_error l i = None -> nth_error m i = None.
Proof. rewrite !nth_error_None. lia. Qed.
Lemma at_len {A B} (l : list A) (m : list B) i : length l = length m -> at_ l i = None -> at_ m i = None.
Proof. unfold at_. destruct (i <? 0); auto. apply nth_error_len. Qed.
Lemma at_put_nth {A} (l1 l2 : list A) x i : 0 <= i -> Z.to_nat i = length l1 -> at_ (l1 ++ x :: l2) i = Some x.
Proof. intros H E. unfold at_. destruct (Z.ltb_spec i 0); [lia|]. rewrite E. apply nth_error_mid. Qed.

Lemma NoDup_app_in {A} (f g : list A) : NoDup (f ++ g) -> NoDup f /\ NoDup g /\ forall b, In b f -> In b g -> False.
Proof.
  induction f as [|a f IH]; cbn; intros N. { repeat split; auto. constructor. }
  inversion N; subst. destruct (IH H2) as (A1 & A2 & A3). rewrite in_app_iff in H1. repeat split; auto.
  - constructor; auto.
  - intros b [<-|H]; auto. apply A3; auto.
Qed.

Lemma rep_path h p : forall v tr f, rep h v tr f ->
  match sget tr p with
  | Some tu => exists u fu, rd h v p = Some u /\ rep h u tu fu /\ incl fu f /\ (NoDup f -> NoDup fu)
  | None => rd h v p = None
  end.
Proof.
  induction p as [|[i|i] p IH]; intros v tr f R; cbn.
  - destruct tr; exists v, f; repeat split; auto with datatypes; destruct v; auto.
  - inversion R; subst; auto.
    destruct (nth_error ts i) as [tu|] eqn:E.
    + destruct (reps_nth _ _ _ _ _ _ H E) as (v1 & u & v2 & t1 & t2 & f1 & fu & f2 & -> & -> & -> & _ & Ru & _ & L1 & L2).
      rewrite <- L1, nth_error_mid. specialize (IH _ _ _ Ru). destruct (sget tu p); auto.
      destruct IH as (w & fw & E1 & E2 & E3 & E4). exists w, fw. repeat split; auto.
      * intros b B; apply E3 in B. auto with datatypes.
      * intros N. apply NoDup_app_in in N as (_ & N & _). apply NoDup_app_in in N as (N & _). auto.
    + rewrite (nth_error_len ts vs i); auto. symmetry; eapply reps_length; eauto.
  - inversion R; subst; auto. rewrite (nth_of_error _ _ _ _ H).
    destruct (at_ ts i) as [tu|] eqn:E.
    + apply at_nth in E as [P0 E].
      destruct (reps_nth _ _ _ _ _ _ H0 E) as (v1 & u & v2 & t1 & t2 & f1 & fu & f2 & -> & -> & -> & _ & Ru & _ & L1 & L2).
      rewrite at_put_nth by congruence. specialize (IH _ _ _ Ru). destruct (sget tu p); auto.
      destruct IH as (w & fw & E1 & E2 & E3 & E4). exists w, fw. repeat split; auto.
      * intros c B; apply E3 in B. right. auto with datatypes.
      * intros N. inversion N as [|? ? _ N']; subst. apply NoDup_app_in in N' as (_ & N' & _). apply NoDup_app_in in N' as (N' & _). auto.
    + rewrite (at_len ts vs i); auto. symmetry; eapply reps_length; eauto.
Qed.

(** Writing: what was at the place gives way to the new value, and no block
    outside the path is touched. *)
Lemma wr_rep p : forall h v tr f, rep h v tr f -> NoDup f -> forall tu, sget tr p = Some tu ->
  exists u fu, rd h v p = Some u /\ rep h u tu fu /\ incl fu f /\
  forall new tn fn, rep h new tn fn -> NoDup fn -> (forall b, In b fn -> In b f -> In b fu) ->
  exists v' h' tr' f', wr h v p new = Some (v', h') /\ sput tr p tn = Some tr' /\ rep h' v' tr' f' /\ NoDup f' /\
    incl f' (f ++ fn) /\ (forall b, In b fu -> In b f' -> In b fn) /\
    (forall b, ~ In b f \/ In b fu -> nth_error h' b = nth_error h b) /\ length h' = length h.
Proof.
  induction p as [|[i|i] p IH]; intros h v tr f R N tu G; cbn in G.
  - assert (tr = tu) as -> by (destruct tr; congruence). exists v, f. repeat split; auto with datatypes.
    intros new tn fn Rn Nn D. exists new, h, tn, fn. repeat split; auto with datatypes; destruct v, tu; auto.
  - destruct tr as [|ts|]; try discriminate. inversion R as [|? ? ? H0|]; subst.
    destruct (nth_error ts i) as [tw|] eqn:E; [|discriminate].
    destruct (reps_nth _ _ _ _ _ _ H0 E) as (v1 & w & v2 & t1 & t2 & f1 & fw & f2 & -> & -> & -> & R1 & Rw & R2 & L1 & L2).
    apply NoDup_app_in in N as (N1 & N & D1). apply NoDup_app_in in N as (Nw & N2 & D2).
    destruct (IH _ _ _ _ Rw Nw _ G) as (u & fu & E1 & Ru & I & W).
    exists u, fu. cbn. rewrite <- L1, nth_error_mid. repeat split; auto.
    { intros b B; apply I in B. auto with datatypes. }
    intros new tn fn Rn Nn D.
    destruct (W _ _ _ Rn Nn) as (w' & h' & tw' & fw' & E2 & E3 & Rw' & Nw' & I' & O' & F' & L').
    { intros b B1 B2. apply D; auto with datatypes. }
    assert (X1 : forall b, In b fw' -> In b f1 -> False).
    { intros b B1 B2. apply I' in B1 as B3. apply in_app_or in B3 as [B3|B3].
      - apply (D1 b); auto with datatypes.
      - apply (D1 b); auto. apply in_or_app; left. apply I, D; auto with datatypes. }
    assert (X2 : forall b, In b fw' -> In b f2 -> False).
    { intros b B1 B2. apply I' in B1 as B3. apply in_app_or in B3 as [B3|B3].
      - apply (D2 b); auto with datatypes.
      - apply (D2 b); auto. apply I, D; auto with datatypes. }
    exists (VRec (v1 ++ w' :: v2)), h', (Rec (t1 ++ tw' :: t2)), (f1 ++ fw' ++ f2).
    rewrite E2. rewrite put_mid. rewrite L1, <- L2, nth_error_mid, E3, put_mid. repeat split; auto.
    + constructor. apply reps_app; [|constructor; auto].
      * eapply reps_frame; [exact R1|]. intros b B. apply F'. left. intros B'. apply (D1 b); auto with datatypes.
      * eapply reps_frame; [exact R2|]. intros b B. apply F'. left. intros B'. apply (D2 b); auto with datatypes.
    + apply NoDup_split; auto; [apply NoDup_split; auto|]. intros b B1 [B2|B2]%in_app_or; [eapply X1; eauto|apply (D1 b); auto with datatypes].
    + intros b B; rewrite !in_app_iff in *; destruct B as [B|[B|B]]; auto. apply I' in B; rewrite in_app_iff in B; tauto.
    + intros b B [B'|[B'|B']%in_app_or]%in_app_or; auto.
      * destruct (D1 b); auto with datatypes.
      * destruct (D2 b); auto with datatypes.
    + intros b [B|B]; apply F'; auto. left. intros B'; apply B; auto with datatypes.
  - destruct tr as [| |ts]; try discriminate. inversion R as [|?|b vs ? f0 Hb Rs]; subst.
    destruct (at_ ts i) as [tw|] eqn:E; [|discriminate]. apply at_nth in E as [P0 E].
    destruct (reps_nth _ _ _ _ _ _ Rs E) as (v1 & w & v2 & t1 & t2 & f1 & fw & f2 & -> & -> & -> & R1 & Rw & R2 & L1 & L2).
    inversion N as [|? ? Nb N0]; subst. apply NoDup_app_in in N0 as (N1 & N0 & D1). apply NoDup_app_in in N0 as (Nw & N2 & D2).
    destruct (IH _ _ _ _ Rw Nw _ G) as (u & fu & E1 & Ru & I & W).
    exists u, fu. cbn. rewrite (nth_of_error _ _ _ _ Hb). rewrite at_put_nth by congruence. repeat split; auto.
    { intros c B; apply I in B. right. auto with datatypes. }
    intros new tn fn Rn Nn D.
    destruct (W _ _ _ Rn Nn) as (w' & h' & tw' & fw' & E2 & E3 & Rw' & Nw' & I' & O' & F' & L').
    { intros c B1 B2. apply D; auto. right. auto with datatypes. }
    assert (Bw : ~ In b fw). { intros B; apply Nb; auto with datatypes. }
    assert (Bn : ~ In b fn). { intros B. apply Bw, I, D; auto with datatypes. }
    assert (Bw' : ~ In b fw'). { intros B. apply I' in B. apply in_app_or in B as [B|B]; auto. }
    assert (X1 : forall c, In c fw' -> In c f1 -> False).
    { intros c B1 B2. apply I' in B1 as B3. apply in_app_or in B3 as [B3|B3].
      - apply (D1 c); auto with datatypes.
      - apply (D1 c); auto. apply in_or_app; left. apply I, D; auto. right. auto with datatypes. }
    assert (X2 : forall c, In c fw' -> In c f2 -> False).
    { intros c B1 B2. apply I' in B1 as B3. apply in_app_or in B3 as [B3|B3].
      - apply (D2 c); auto with datatypes.
      - apply (D2 c); auto. apply I, D; auto. right. auto with datatypes. }
    assert (Hb' : nth_error h' b = Some (v1 ++ w :: v2)). { rewrite F'; auto. }
    assert (Len : (b < length h')%nat). { apply nth_error_Some. congruence. }
    exists (VArr b), (put h' b (v1 ++ w' :: v2)), (Arr (t1 ++ tw' :: t2)), (b :: f1 ++ fw' ++ f2).
    rewrite E2. rewrite (nth_of_error _ _ _ _ Hb'). rewrite <- L1, put_mid. rewrite at_put_nth by congruence. rewrite E3.
    rewrite L1, <- L2, put_mid. rewrite put_length. repeat split; auto.
    + econstructor; [now apply put_same|]. apply reps_app; [|constructor; auto].
      * eapply reps_frame; [exact R1|]. intros c B. rewrite put_other by (intros <-; apply Nb; auto with datatypes).
        apply F'. left. intros B'. apply (D1 c); auto with datatypes.
      * eapply rep_frame; [exact Rw'|]. intros c B. apply put_other. intros <-; auto.
      * eapply reps_frame; [exact R2|]. intros c B. rewrite put_other by (intros <-; apply Nb; auto with datatypes).
        apply F'. left. intros B'. apply (D2 c); auto with datatypes.
    + constructor.
      * rewrite !in_app_iff. rewrite !in_app_iff in Nb. intuition auto.
      * apply NoDup_split; auto; [apply NoDup_split; auto|]. intros c B1 [B2|B2]%in_app_or; [eapply X1; eauto|apply (D1 c); auto with datatypes].
    + intros c B; cbn in *; rewrite !in_app_iff in *; destruct B as [B|[B|[B|B]]]; auto. apply I' in B; rewrite in_app_iff in B; tauto.
    + intros c B [<-|[B'|[B'|B']%in_app_or]%in_app_or]; auto.
      * destruct Bw. now apply I.
      * destruct (D1 c); auto with datatypes.
      * destruct (D2 c); auto with datatypes.
    + intros c B. rewrite put_other.
      * apply F'. destruct B as [B|B]; auto. left. intros B'; apply B; right; auto with datatypes.
      * intros <-. destruct B as [B|B]; [apply B; now left|]. apply Bw, I, B.
Qed.
