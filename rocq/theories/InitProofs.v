(** Proofs about struct literals and new(). *)
From Verif Require Import Base ArgsSpec ArgsModel InitSpec InitModel.

Lemma same_iff a b : same a b = true <-> a = b.
Proof. unfold same. destruct (list_eq_dec Z.eq_dec a b); split; congruence. Qed.
Lemma same_in x (l : list bytes) : existsb (same x) l = true <-> In x l.
Proof. rewrite existsb_exists. split; [intros (y & H & E); apply same_iff in E; now subst|]. intros H. exists x. split; auto. now apply same_iff. Qed.
Lemma given_in x (l : literal) : existsb (fun g => same (fst g) x) l = true <-> In x (map fst l).
Proof.
  rewrite existsb_exists, in_map_iff. split.
  - intros (g & H & E). apply same_iff in E. exists g. auto.
  - intros (g & E & H). exists g. split; auto. now apply same_iff.
Qed.
Lemma not_given_in x (l : literal) : existsb (fun g => same (fst g) x) l = false <-> ~ In x (map fst l).
Proof. rewrite <- given_in. destruct (existsb _ l); split; congruence. Qed.
Lemma twice_nil seen l : twice seen l = [] <-> NoDup (map fst l) /\ forall x, In x (map fst l) -> ~ In x seen.
Proof.
  revert seen; induction l as [|[x e] t IH]; intros seen; cbn.
  - split; auto. split; [constructor|intros ? []].
  - split.
    + intros H. apply app_eq_nil in H as [H1 H2]. destruct (existsb (same x) seen) eqn:S; [discriminate|].
      assert (NS : ~ In x seen) by (intros Y; apply same_in in Y; congruence).
      apply IH in H2 as [N O]. split.
      * constructor; auto. intros HI. apply (O x HI). now left.
      * intros y [<-|HI]; auto. intros Y. apply (O y HI). now right.
    + intros [N O]. apply NoDup_cons_iff in N as [N1 N2].
      destruct (existsb (same x) seen) eqn:S; [apply same_in in S; exfalso; apply (O x); auto|].
      cbn. apply IH. split; auto. intros y HI [<-|Y]; [auto|]. apply (O y); auto.
Qed.
Lemma unknown_nil fs l : unknown fs l = [] <-> forall x, In x (map fst l) -> In x (map f_name fs).
Proof.
  induction l as [|[x e] t IH]; cbn; [split; auto; intros _ ? []|].
  assert (E : existsb (fun f => same (f_name f) x) fs = true <-> In x (map f_name fs)).
  { rewrite existsb_exists, in_map_iff. split; intros (f & A & B); exists f; [apply same_iff in B|split; auto; apply same_iff]; auto. }
  split.
  - intros H. apply app_eq_nil in H as [H1 H2]. destruct (existsb _ fs); [|discriminate].
    intros y [<-|HI]; [now apply E|]. now apply IH.
  - intros H. rewrite (proj2 E) by (apply H; now left). cbn. apply IH. intros y HI. apply H. now right.
Qed.

(** ** The initialiser *)
Definition used (fs : list field) (l : literal) : literal :=
  flat_map (fun f => match f_default f with
                     | Some d => if existsb (fun g => same (fst g) (f_name f)) l then [] else [(f_name f, d)]
                     | None => [] end) fs.
Lemma items_given i l rest r : items true rest = Some r -> (l = [] -> i <> O -> True) -> (0 < i)%nat -> items true (emit_given i l ++ rest) = Some (l ++ r).
Proof.
  intros H _. revert i; induction l as [|[x e] t IH]; intros i I; [exact H|].
  destruct i as [|i]; [lia|]. cbn. rewrite (IH (S (S i))) by lia. reflexivity.
Qed.
Lemma items_comma i fs l : (0 <? length l)%nat || (0 <? i)%nat = true -> items true (emit_defaults i fs l) = Some (used fs l).
Proof.
  revert i; induction fs as [|f t IH]; intros i C; [reflexivity|].
  assert (C' : (0 <? length l)%nat || (0 <? S i)%nat = true) by (apply orb_true_iff; right; reflexivity).
  cbn [emit_defaults]. change (used (f :: t) l) with ((match f_default f with
                     | Some d => if existsb (fun g => same (fst g) (f_name f)) l then [] else [(f_name f, d)]
                     | None => [] end) ++ used t l).
  destruct (f_default f) as [d|]; [|now rewrite (IH (S i) C')].
  destruct (existsb (fun g => same (fst g) (f_name f)) l); [now rewrite (IH (S i) C')|].
  rewrite C. cbn [app items]. now rewrite (IH (S i) C').
Qed.
Lemma items_literal fs l : (l <> [] \/ (forall f t, fs = f :: t -> f_default f <> None) \/ (forall f, In f fs -> f_default f = None)) ->
  items false (emit_literal fs l) = Some (l ++ used fs l).
Proof.
  intros H. unfold emit_literal. destruct l as [|[x e] t].
  - cbn [emit_given app]. destruct H as [H|[H|H]]; [easy| |].
    + destruct fs as [|f t]; [reflexivity|]. specialize (H f t eq_refl). cbn. destruct (f_default f) as [d|]; [|easy]. cbn.
      now rewrite (items_comma 1) by reflexivity.
    + assert (Z : forall i, emit_defaults i fs [] = [] /\ used fs [] = []).
      { clear -H. induction fs as [|f t IH]; intros i; cbn; auto. rewrite (H f) by (now left). apply IH. intros g G. apply H. now right. }
      destruct (Z O) as [-> ->]. reflexivity.
  - cbn [emit_given app]. cbn. rewrite (items_given 1 t _ (used fs ((x, e) :: t))); auto. now apply items_comma.
Qed.
(** the comma before the first item *)
Lemma items_broken f t l : f_default f = None -> (exists g, In g t /\ f_default g <> None) -> l = [] -> items false (emit_literal (f :: t) l) = None.
Proof.
  intros F (g & G & Dg) ->. unfold emit_literal. cbn. rewrite F. generalize 1%nat (Nat.lt_0_succ 0). revert G. induction t as [|h t IH]; intros G i I; [easy|].
  cbn. destruct (f_default h) as [d|] eqn:Dh.
  - destruct i as [|i]; [lia|]. reflexivity.
  - destruct G as [->|G]; [easy|]. apply IH; auto.
Qed.

Lemma member_given rho x l : NoDup (map fst l) -> (forall y e, In (y, e) l -> eval rho e <> None) ->
  (forall e v, In (x, e) l -> eval rho e = Some v -> member rho x l = Some (Val v)) /\ (~ In x (map fst l) -> member rho x l = Some Zeros).
Proof.
  induction l as [|[y e] t IH]; intros N E; cbn; [split; auto; intros ? ? []|].
  cbn in N. apply NoDup_cons_iff in N as [N1 N2]. destruct (IH N2) as [IH1 IH2]; [intros z d HI; apply (E z); now right|].
  destruct (eval rho e) as [v|] eqn:Ev; [|exfalso; apply (E y e); auto; now left]. split.
  - intros d w [[= -> ->]|HI] W.
    + rewrite IH2 by auto. rewrite W in Ev. injection Ev as ->. now rewrite (proj2 (same_iff x x) eq_refl).
    + rewrite (IH1 d w HI W). reflexivity.
  - intros NI. rewrite IH2 by tauto. destruct (same y x) eqn:S; auto. apply same_iff in S. tauto.
Qed.
Lemma all_map {A B} (f : A -> option B) l r : all (map f l) = Some r <-> Forall2 (fun a b => f a = Some b) l r.
Proof.
  revert r; induction l as [|a l IH]; intros r; cbn.
  - split; [intros [= <-]; constructor|]. now inversion 1.
  - destruct (f a) as [b|] eqn:E.
    + destruct (all (map f l)) as [x|]; cbn.
      * split; [intros [= <-]; constructor; auto; now apply IH|]. inversion 1 as [|? b' ? r' H1 H2]; subst. apply IH in H2. congruence.
      * split; [discriminate|]. inversion 1 as [|? b' ? r' H1 H2]; subst. apply IH in H2. discriminate.
    + split; [discriminate|]. inversion 1; congruence.
Qed.
Lemma used_in fs l x d : In (x, d) (used fs l) <-> exists f, In f fs /\ f_name f = x /\ f_default f = Some d /\ ~ In x (map fst l).
Proof.
  unfold used. rewrite in_flat_map. split.
  - intros (f & F & H). destruct (f_default f) as [d'|] eqn:D; [|easy]. destruct (existsb _ l) eqn:X; [easy|]. destruct H as [[= <- <-]|[]].
    exists f. repeat split; auto. now apply not_given_in.
  - intros (f & F & <- & D & NI). exists f. split; auto. rewrite D. rewrite (proj2 (not_given_in _ _) NI). now left.
Qed.
Lemma used_names fs l : NoDup (map f_name fs) -> NoDup (map fst (used fs l)).
Proof.
  induction fs as [|f t IH]; intros N; [constructor|]. cbn in N. apply NoDup_cons_iff in N as [N1 N2].
  cbn. rewrite map_app. destruct (f_default f) as [d|]; [|apply IH; auto]. destruct (existsb _ l); [apply IH; auto|].
  cbn. constructor; [|apply IH; auto]. intros H. apply in_map_iff in H as ([x e] & E & H). cbn in E. subst x.
  fold (used t l) in H. apply used_in in H as (g & G & E & _). apply N1. rewrite <- E. now apply in_map.
Qed.
Lemma nodup_app {A} (l r : list A) : NoDup l -> NoDup r -> (forall x, In x l -> ~ In x r) -> NoDup (l ++ r).
Proof.
  induction 1 as [|x l X N IH]; intros R D; cbn; auto. constructor.
  - intros H. apply in_app_or in H as [H|H]; auto. apply (D x); auto. now left.
  - apply IH; auto. intros y Y. apply D. now right.
Qed.
Lemma eval_same r s e : (forall x, In x (names e) -> r x = s x) -> eval r e = eval s e.
Proof.
  induction e as [z|x|a IHa b IHb]; cbn; intros H; auto.
  rewrite IHa, IHb; auto; intros x X; apply H, in_or_app; auto.
Qed.
Lemma literal_values rho glob fs l : NoDup (map f_name fs) -> check_literal fs l = [] ->
  (l <> [] \/ (forall f t, fs = f :: t -> f_default f <> None) \/ (forall f, In f fs -> f_default f = None)) ->
  unhidden rho glob fs l -> (forall f, In f fs -> f_shape f = Container -> In (f_name f) (map fst l) \/ f_default f <> None) ->
  forall cs, Forall2 (holds rho glob l) fs cs -> run_literal rho fs (emit_literal fs l) = Some cs.
Proof.
  intros NF C W U CT cs H. unfold check_literal in C. apply app_eq_nil in C as [C1 C2].
  apply twice_nil in C1 as [NL _]. rewrite unknown_nil in C2.
  unfold run_literal. rewrite items_literal by auto. apply all_map.
  assert (ND : NoDup (map fst (l ++ used fs l))).
  { rewrite map_app. apply nodup_app; auto; [now apply used_names|]. intros x X Y. apply in_map_iff in Y as ([y d] & E & Y). cbn in E. subst y.
    apply used_in in Y as (f & _ & _ & _ & NI). auto. }
  assert (HF : forall f, In f fs -> exists c, holds rho glob l f c).
  { clear -H. induction H as [|f c fs cs X F IH]; intros g G; [easy|]. destruct G as [<-|G]; eauto. }
  assert (EV : forall y e, In (y, e) (l ++ used fs l) -> eval rho e <> None).
  { intros y e HI. apply in_app_or in HI as [HI|HI].
    - assert (Y : In y (map fst l)) by (apply in_map_iff; exists (y, e); auto). apply C2 in Y. apply in_map_iff in Y as (f & <- & F).
      destruct (HF f F) as (c & HC). assert (X : In (f_name f) (map fst l)) by (apply in_map_iff; exists (f_name f, e); auto).
      inversion HC as [e' v HI' E'| | |]; subst; try easy.
      assert (e' = e); [|congruence]. clear -NL HI HI'. induction l as [|[z d] t IH]; [easy|]. cbn in NL. apply NoDup_cons_iff in NL as [N1 N2].
      destruct HI as [A|A]; destruct HI' as [B|B]; auto; try congruence.
      + injection A as -> ->. exfalso. apply N1. apply in_map_iff. exists (f_name f, e'). auto.
      + injection B as -> ->. exfalso. apply N1. apply in_map_iff. exists (f_name f, e). auto.
    - apply used_in in HI as (f & F & <- & D & NI). destruct (HF f F) as (c & HC). inversion HC as [e' v X|d v _ D' E'| |]; subst; try congruence.
      + exfalso. apply NI. apply in_map_iff. exists (f_name f, e'). auto.
      + rewrite D in D'. injection D' as <-. rewrite (eval_same rho glob); [congruence|]. intros x X. apply (U f e x F NI D X). }
  assert (IMP : forall gs bs (P Q : field -> content -> Prop), Forall2 P gs bs -> (forall f c, In f gs -> P f c -> Q f c) -> Forall2 Q gs bs).
  { clear. intros gs bs P Q F. induction F as [|f c gs cs X F IH]; intros I; constructor; [apply I; auto; now left|apply IH; intros g d G; apply I; now right]. }
  apply (IMP _ _ _ _ H). intros f c F HC. destruct (member_given rho (f_name f) (l ++ used fs l) ND EV) as [M1 M2].
  inversion HC as [e v HI E|d v NI D E|NI D S|NI D S]; subst.
  - apply (M1 e); auto. apply in_or_app. now left.
  - apply (M1 d); [apply in_or_app; right; apply used_in; exists f; auto|]. rewrite (eval_same rho glob); auto. intros x X. apply (U f d x F NI D X).
  - apply M2. rewrite map_app. intros Y. apply in_app_or in Y as [Y|Y]; auto. apply in_map_iff in Y as ([y d] & E & Y). cbn in E. subst y.
    apply used_in in Y as (g & G & E & Dg & _). assert (g = f); [|congruence].
    clear -NF G F E. induction fs as [|h t IH]; [easy|]. cbn in NF. apply NoDup_cons_iff in NF as [N1 N2].
    destruct G as [->|G]; destruct F as [->|F]; auto; exfalso; apply N1; [rewrite E|rewrite <- E]; now apply in_map.
  - destruct (CT f F S); easy.
Qed.
Lemma new_values rho glob fs : unhidden rho glob fs [] -> forall cs, Forall2 (holds rho glob []) fs cs -> run_new rho fs = Some cs.
Proof.
  intros U cs H. unfold run_new. set (need := existsb _ fs).
  assert (E : forall f c, In f fs -> holds rho glob [] f c ->
    (match f_default f with Some d => option_map Val (eval rho d) | None => Some (match f_shape f with Container => Fresh | Scalar => Zeros end) end) = Some c).
  { intros f c F HC. inversion HC as [e v HI _|d v NI D E|NI D S|NI D S]; subst; [easy| | |]; rewrite D; [|now rewrite S|now rewrite S].
    rewrite (eval_same rho glob), E; auto. intros x X. apply (U f d x F NI D X). }
  destruct need eqn:N.
  - apply all_map. clear -H E. induction H as [|f c fs cs X F IH]; constructor; [apply E; auto; now left|]. apply IH. intros g d G. apply E. now right.
  - f_equal. unfold need in N. clear -H E N. induction H as [|f c fs cs X F IH]; cbn in *; auto. apply orb_false_iff in N as [N1 N2]. f_equal.
    + specialize (E f c (or_introl eq_refl) X). destruct (f_shape f); [|discriminate]. destruct (f_default f); [discriminate|]. congruence.
    + apply IH; auto.
Qed.
