From Verif Require Import Base ValueSpec ValueModel ValueProofs.

(** Typing of the values themselves. *)
Lemma Forall2_nth {A B} (R : A -> B -> Prop) l m i a b : Forall2 R l m -> nth_error l i = Some a -> nth_error m i = Some b -> R a b.
Proof. intros H; revert i; induction H; destruct i; cbn; intros; try discriminate; eauto. match goal with H : Some _ = Some a, K : Some _ = Some b |- _ => injection H as <-; injection K as <- end; auto. Qed.
Lemma has_get p : forall t tr tp u, has t tr -> part t p = Some tp -> sget tr p = Some u -> has tp u.
Proof.
  induction p as [|[i|i] p IH]; intros t tr tp u H P G; cbn in *.
  - destruct tr, t; congruence.
  - inversion H; subst; try discriminate. destruct (nth_error tys i) as [t1|] eqn:E1; [|discriminate].
    destruct (nth_error ts i) as [u1|] eqn:E2; [|discriminate]. apply (IH t1 u1); auto.
    eapply Forall2_nth; eauto.
  - inversion H; subst; try discriminate. destruct (at_ ts i) as [u1|] eqn:E2; [|discriminate].
    apply at_nth in E2 as [_ E2]. apply (IH t0 u1); auto. apply nth_error_In in E2. rewrite Forall_forall in H0; auto.
Qed.
Lemma Forall2_put {A B} (R : A -> B -> Prop) l m i a y : Forall2 R l m -> nth_error l i = Some a -> R a y -> Forall2 R l (put m i y).
Proof. intros H; revert i; induction H; destruct i; cbn; intros; try discriminate; constructor; auto; congruence. Qed.
Lemma Forall_put {A} (R : A -> Prop) l i x : Forall R l -> R x -> Forall R (put l i x).
Proof. intros H; revert i; induction H; destruct i; cbn; intros; constructor; auto. Qed.
Lemma has_put p : forall t tr tp new tr', has t tr -> part t p = Some tp -> has tp new -> sput tr p new = Some tr' -> has t tr'.
Proof.
  induction p as [|[i|i] p IH]; intros t tr tp new tr' H P Hn G; cbn in *.
  - destruct tr, t; congruence.
  - inversion H; subst; try discriminate. destruct (nth_error tys i) as [t1|] eqn:E1; [|discriminate].
    destruct (nth_error ts i) as [u1|] eqn:E2; [|discriminate]. destruct (sput u1 p new) as [u1'|] eqn:E3; [|discriminate].
    injection G as <-. constructor. eapply Forall2_put; eauto. apply (IH t1 u1 tp new); auto. eapply Forall2_nth; eauto.
  - inversion H; subst; try discriminate. destruct (at_ ts i) as [u1|] eqn:E2; [|discriminate].
    apply at_nth in E2 as [_ E2]. destruct (sput u1 p new) as [u1'|] eqn:E3; [|discriminate].
    injection G as <-. constructor. apply Forall_put; auto. apply (IH t0 u1 tp new); auto.
    apply nth_error_In in E2. rewrite Forall_forall in H0; auto.
Qed.

(** Values without arrays take no room. *)
Lemma no_room_both h :
  (forall v tr f, rep h v tr f -> forall t, has t tr -> no_arrays t = true -> f = []) /\
  (forall vs trs f, reps h vs trs f -> forall tys, Forall2 has tys trs -> forallb no_arrays tys = true -> f = []).
Proof.
  apply rep_both; auto.
  - intros vs ts f _ IH t H N; inversion H; subst. eapply IH; eauto.
  - intros b vs ts f _ _ _ t H N; inversion H; subst. discriminate.
  - intros v t f vs ts g _ IH1 _ IH2 tys H N; inversion H as [|? ? ? ? Ha Hb]; subst. cbn in N. apply andb_prop in N as [N1 N2].
    now rewrite (IH1 _ Ha N1), (IH2 _ Hb N2).
Qed.
Lemma no_room h v tr f t : rep h v tr f -> has t tr -> no_arrays t = true -> f = [].
Proof. intros; eapply (proj1 (no_room_both h)); eauto. Qed.

(** The machine agrees with the specification, and no block is shared. *)
Definition agrees (g : list ty) (s : state) (ts : senv) : Prop :=
  Forall2 has g ts /\ exists f, reps (mem s) (vars s) ts f /\ NoDup f.
Definition both (g : list ty) (a : option state) (b : option senv) : Prop :=
  match a, b with Some s, Some ts => agrees g s ts | None, None => True | _, _ => False end.

Lemma place_get g ts x p t u : Forall2 has g ts -> place_type g x p = Some t -> seval ts (Path x p) = Some u -> has t u.
Proof.
  unfold place_type, seval. intros H P E. destruct (nth_error g x) eqn:E1; [|discriminate].
  destruct (nth_error ts x) eqn:E2; [|discriminate]. eapply has_get; eauto. eapply Forall2_nth; eauto.
Qed.
Lemma root_rd h vs x p : rd h (VRec vs) (Fld x :: p) = match nth_error vs x with Some v => rd h v p | None => None end.
Proof. reflexivity. Qed.
Lemma eval_path s x p : eval s (Path x p) = match rd (mem s) (VRec (vars s)) (Fld x :: p) with Some u => Some (u, mem s) | None => None end.
Proof. unfold eval. rewrite root_rd. destruct (nth_error (vars s) x); auto. Qed.
Lemma seval_path ts x p : seval ts (Path x p) = sget (Rec ts) (Fld x :: p).
Proof. reflexivity. Qed.
Lemma set_place_wr s h x p new : set_place s h x p new =
  match wr h (VRec (vars s)) (Fld x :: p) new with Some (VRec vs, h') => Some (St vs h') | _ => None end.
Proof.
  unfold set_place. cbn. destruct (nth_error (vars s) x); auto. destruct (wr h v p new) as [[v' h']|]; auto.
Qed.
Lemma swrite_put ts x p new : swrite ts x p new = match sput (Rec ts) (Fld x :: p) new with Some (Rec ts') => Some ts' | _ => None end.
Proof. unfold swrite. cbn. destruct (nth_error ts x); auto. destruct (sput t p new); auto. Qed.

(** Writing a value that shares no block with what stays. *)
Lemma write_agrees g h vs ts f x p t new tn fn u tu fu :
  Forall2 has g ts -> reps h vs ts f -> NoDup f -> place_type g x p = Some t -> has t tn ->
  rd h (VRec vs) (Fld x :: p) = Some u -> sget (Rec ts) (Fld x :: p) = Some tu -> rep h u tu fu ->
  rep h new tn fn -> NoDup fn -> (forall b, In b fn -> In b f -> In b fu) ->
  both g (match wr h (VRec vs) (Fld x :: p) new with Some (VRec vs, h') => Some (St vs h') | _ => None end)
         (match sput (Rec ts) (Fld x :: p) tn with Some (Rec ts') => Some ts' | _ => None end).
Proof.
  intros T R N P Hn Er Es Ru Rn Nn D.
  destruct (wr_rep (Fld x :: p) h (VRec vs) (Rec ts) f (rep_rec _ _ _ _ R) N tu Es) as (u' & fu' & Eu & Ru' & I & W).
  assert (u' = u) as -> by congruence.
  assert (fu' = fu) as ->.
  { clear - Ru Ru'. revert Ru Ru'.
    assert (B : (forall v tr f, rep h v tr f -> forall f', rep h v tr f' -> f' = f) /\
                (forall vs trs f, reps h vs trs f -> forall f', reps h vs trs f' -> f' = f)).
    { apply rep_both.
      - intros z f' H; inversion H; auto.
      - intros l m fr _ IH f' H; inversion H; auto.
      - intros b l m fr E _ IH f' H; inversion H; subst. f_equal. apply IH. congruence.
      - intros f' H; inversion H; auto.
      - intros v t0 fr l m gr _ IH1 _ IH2 f' H; inversion H; subst. f_equal; auto. }
    intros A1 A2. now apply (proj1 B _ _ _ A1). }
  destruct (W new tn fn Rn Nn D) as (v' & h' & tr' & f' & E1 & E2 & R' & N' & _).
  rewrite E1, E2. cbn in E1, E2.
  destruct (nth_error vs x); [|discriminate]. destruct (wr h v p new) as [[w hw]|]; [|discriminate]. injection E1 as <- <-.
  destruct (nth_error ts x) eqn:Ex; [|discriminate]. destruct (sput t0 p tn) eqn:Ep; [|discriminate]. injection E2 as <-.
  split.
  - unfold place_type in P. destruct (nth_error g x) eqn:Eg; [|discriminate].
    eapply Forall2_put; eauto. eapply has_put; eauto. eapply Forall2_nth; eauto.
  - inversion R'; subst. eauto.
Qed.
Lemma rd_ext h ext p : forall v u, rd h v p = Some u -> rd (h ++ ext) v p = Some u.
Proof.
  induction p as [|[i|i] p IH]; intros v u E; cbn in *; auto.
  - destruct v; try discriminate. destruct (nth_error vs i); [|discriminate]. auto.
  - destruct v; try discriminate. destruct (at_ (nth b h []) i) eqn:A; [|discriminate].
    destruct (Nat.lt_ge_cases b (length h)) as [L|L].
    + rewrite app_nth1 by auto. rewrite A. auto.
    + rewrite nth_overflow in A by lia. unfold at_ in A. destruct (i <? 0); [discriminate|]. destruct (Z.to_nat i); discriminate.
Qed.

(** A right-hand side, copied or without arrays, shares nothing. *)
Lemma handed g s ts f e t (cp : bool) : Forall2 has g ts -> reps (mem s) (vars s) ts f -> NoDup f -> typed_expr g e t ->
  (cp = true \/ no_arrays t = true \/ exists u, e = Lit u) ->
  match seval ts e with
  | Some tu => has t tu /\ exists v h, eval s e = Some (v, h) /\
      exists w ext fw, (if cp then dup t h v else (v, h)) = (w, mem s ++ ext) /\ rep (mem s ++ ext) w tu fw /\ NoDup fw /\
      (forall b, In b fw -> (length (mem s) <= b)%nat)
  | None => eval s e = None
  end.
Proof.
  intros T R N Ty C. destruct e as [u|x p].
  - cbn in *. split; auto. destruct (build_well u (mem s)) as (v & e1 & f1 & B1 & R1 & N1 & F1).
    exists v, (mem s ++ e1). rewrite B1. split; auto. destruct cp.
    + unfold dup. rewrite (rep_view _ _ _ _ t R1 Ty). destruct (build_well u (mem s ++ e1)) as (w & e2 & f2 & B2 & R2 & N2 & F2).
      exists w, (e1 ++ e2), f2. rewrite app_assoc. repeat split; auto. intros b B; apply F2 in B. rewrite !app_length in B. lia.
    + exists v, e1, f1. repeat split; auto. intros b B; apply F1 in B. lia.
  - rewrite eval_path. pose proof (rep_path (mem s) (Fld x :: p) (VRec (vars s)) (Rec ts) f (rep_rec _ _ _ _ R)) as G.
    rewrite seval_path. destruct (sget (Rec ts) (Fld x :: p)) as [tu|] eqn:E; [|now rewrite G].
    destruct G as (u & fu & E1 & Ru & _ & _). rewrite E1.
    assert (Ht : has t tu). { eapply place_get; eauto. }
    split; auto. exists u, (mem s). split; auto. destruct cp.
    + unfold dup. rewrite (rep_view _ _ _ _ t Ru Ht). destruct (build_well tu (mem s)) as (w & e2 & f2 & B2 & R2 & N2 & F2).
      exists w, e2, f2. repeat split; auto. intros b B; apply F2 in B. lia.
    + exists u, [], []. destruct C as [C|[C|[y C]]]; try discriminate. rewrite app_nil_r.
      pose proof (no_room _ _ _ _ _ Ru Ht C) as ->. repeat split; auto; try constructor; easy.
Qed.

Lemma copies_decl annot t p x : no_arrays t = true \/ annot = true /\ (p = [] \/ flat_array t = true /\ is_field p = true) ->
  decl_copies annot t (Path x p) = true \/ no_arrays t = true.
Proof.
  intros [H|[-> [-> |[H1 H2]]]]; auto; cbn.
  - destruct t as [|ts|[| |]]; auto; cbn. destruct (forallb no_arrays ts); auto.
  - unfold is_field in H2. destruct t as [|ts|[| |]]; try discriminate; cbn; rewrite H2, orb_true_r; auto.
Qed.
Lemma exec_agrees g s ts c : agrees g s ts -> typed g c -> careful g c -> both (types_after g c) (exec g s c) (sstep ts c).
Proof.
  intros (T & f & R & N) Ty C. destruct c as [mut annot t e|x p e|w x p z|x p u]; cbn [exec sstep types_after].
  - pose proof (handed g s ts f e t (decl_copies annot t e) T R N Ty) as G.
    destruct (seval ts e) as [tu|]; [|rewrite G; [exact I|]].
    + destruct G as (Ht & v & h & E1 & w & ext & fw & E2 & Rw & Nw & Fw).
      { destruct e as [u|x p]; eauto. cbn in C. apply (copies_decl _ _ _ x) in C. tauto. }
      rewrite E1, E2. split.
      * apply Forall2_app; auto.
      * exists (f ++ fw). cbn. split.
        { apply reps_app; [now apply reps_ext|now apply reps_one]. }
        apply NoDup_split; auto. intros b B1 B2. apply Fw in B2. pose proof (reps_bound _ _ _ _ _ R B1). lia.
    + destruct e as [u|x p]; eauto. cbn in C. apply (copies_decl _ _ _ x) in C. tauto.
  - destruct Ty as (t & P & Ty). rewrite P.
    pose proof (handed g s ts f e t (write_copies t p) T R N Ty) as G.
    assert (K : write_copies t p = true \/ no_arrays t = true \/ exists u, e = Lit u).
    { destruct e as [u|y q]; eauto. cbn in C. unfold write_copies, ends_in_index in *. destruct C as [C|(t' & P' & C)].
      - destruct (last p (Fld 0)); [|discriminate]. destruct (no_arrays t); auto.
      - assert (t' = t) as -> by congruence. auto. }
    specialize (G K). destruct (seval ts e) as [tu|]; [|rewrite G; exact I].
    destruct G as (Ht & v & h & E1 & w & ext & fw & E2 & Rw & Nw & Fw). rewrite E1, E2.
    rewrite set_place_wr, swrite_put.
    pose proof (rep_path (mem s) (Fld x :: p) (VRec (vars s)) (Rec ts) f (rep_rec _ _ _ _ R)) as G.
    destruct (sget (Rec ts) (Fld x :: p)) as [told|] eqn:Eo.
    + destruct G as (old & fo & E3 & Ro & _ & _).
      apply (write_agrees g (mem s ++ ext) (vars s) ts f x p t w tu fw old told fo); auto; try (now apply reps_ext); try (now apply rep_ext); try (now apply rd_ext).
      intros b B1 B2. apply Fw in B1. pose proof (reps_bound _ _ _ _ _ R B2). lia.
    + assert (Es : sput (Rec ts) (Fld x :: p) tu = None).
      { clear - Eo. cbn in *. destruct (nth_error ts x) as [t0|]; auto.
        assert (sput t0 p tu = None) as ->; auto. revert t0 Eo. induction p as [|[i|i] p IH]; intros; cbn in *.
        - destruct t0; discriminate.
        - destruct t0; auto. destruct (nth_error ts0 i); auto. now rewrite IH.
        - destruct t0; auto. destruct (at_ ts0 i); auto. now rewrite IH. }
      rewrite Es.
      assert (Ew : wr (mem s ++ ext) (VRec (vars s)) (Fld x :: p) w = None).
      { pose proof (rep_path (mem s ++ ext) (Fld x :: p) (VRec (vars s)) (Rec ts) f (rep_rec _ _ _ _ (reps_ext _ _ _ _ _ R))) as G2.
        rewrite Eo in G2. clear - G2. revert G2. generalize (Fld x :: p) (VRec (vars s)). intros q.
        induction q as [|[i|i] q IH]; intros v0 G; cbn in *.
        - destruct v0; discriminate.
        - destruct v0; auto. destruct (nth_error vs i); auto. now rewrite IH.
        - destruct v0; auto. destruct (at_ (nth b (mem s ++ ext) []) i); auto. now rewrite IH. }
      rewrite Ew. exact I.
  - rewrite eval_path, seval_path.
    pose proof (rep_path (mem s) (Fld x :: p) (VRec (vars s)) (Rec ts) f (rep_rec _ _ _ _ R)) as G.
    destruct (sget (Rec ts) (Fld x :: p)) as [told|] eqn:Eo; [|rewrite G; exact I].
    destruct G as (old & fo & E3 & Ro & Io & Nd). rewrite E3. cbn in Ty.
    assert (Ht : has TNum told). { eapply place_get; eauto. }
    inversion Ht; subst. inversion Ro; subst. destruct (poked w z0 z) as [n|]; [|exact I].
    rewrite set_place_wr, swrite_put. apply (write_agrees g (mem s) (vars s) ts f x p TNum (VNum n) (Num n) [] (VNum z0) (Num z0) []); auto; try constructor; easy.
  - destruct Ty as (t & P & Hu). rewrite eval_path, seval_path.
    pose proof (rep_path (mem s) (Fld x :: p) (VRec (vars s)) (Rec ts) f (rep_rec _ _ _ _ R)) as G.
    destruct (sget (Rec ts) (Fld x :: p)) as [told|] eqn:Eo; [|rewrite G; exact I].
    destruct G as (old & fo & E3 & Ro & Io & Nd). rewrite E3.
    assert (Ht : has (TArr t) told). { eapply place_get; eauto. }
    inversion Ht as [| |? us Hus]; subst. inversion Ro as [| |b vs ? f0 Hb Rs]; subst.
    destruct (build_well u (mem s)) as (v & ext & fv & B1 & R1 & N1 & F1). rewrite B1.
    rewrite set_place_wr, swrite_put.
    assert (Hb' : nth_error (mem s ++ ext) b = Some vs).
    { rewrite nth_error_app1; auto. apply nth_error_Some; congruence. }
    rewrite (nth_of_error _ _ _ _ Hb').
    assert (Q : mem s ++ (ext ++ [vs ++ [v]]) = (mem s ++ ext) ++ [vs ++ [v]]) by apply app_assoc.
    apply (write_agrees g ((mem s ++ ext) ++ [vs ++ [v]]) (vars s) ts f x p (TArr t) (VArr (length (mem s ++ ext))) (Arr (us ++ [u])) (length (mem s ++ ext) :: f0 ++ fv) (VArr b) (Arr us) (b :: f0)); auto.
    + rewrite <- Q. now apply reps_ext.
    + constructor. apply Forall_app; auto.
    + rewrite <- Q. now apply rd_ext.
    + rewrite <- Q. now apply rep_ext.
    + econstructor; [apply nth_error_mid|]. apply reps_app; [rewrite <- Q; now apply reps_ext|].
      apply reps_ext, reps_one; auto.
    + assert (Nf0 : NoDup f0). { specialize (Nd N). now inversion Nd. }
      constructor.
      * rewrite in_app_iff. intros [B|B]; [|apply F1 in B; rewrite app_length in *; lia].
        pose proof (reps_bound _ _ _ _ _ Rs B). rewrite app_length in *. lia.
      * apply NoDup_split; auto. intros c B2 B3. apply F1 in B3. pose proof (reps_bound _ _ _ _ _ Rs B2). lia.
    + intros c [<-|[B|B]%in_app_or] Bf.
      * pose proof (reps_bound _ _ _ _ _ R Bf). rewrite app_length in *. lia.
      * now right.
      * apply F1 in B. pose proof (reps_bound _ _ _ _ _ R Bf). lia.
Qed.
