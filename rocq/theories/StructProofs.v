(** Proofs about struct declarations. *)
From Coq Require Import ListDec Operators_Properties.
From Verif Require Import Base BaseFacts LexModel LexProofs StructModel StructSpec.

Lemma eqs_iff a b : eqs a b = true <-> a = b.
Proof. unfold eqs. rewrite Z.eqb_eq. split; [apply strcmp_eq|intros ->; apply strcmp_refl]. Qed.
Lemma bdec : forall a b : bytes, {a = b} + {a <> b}.
Proof. apply list_eq_dec, Z.eq_dec. Qed.
Lemma not_nodup (l : list bytes) : ~ NoDup l -> exists a l1 l2 l3, l = l1 ++ a :: l2 ++ a :: l3.
Proof.
  induction l as [|x l IH]; intros H; [exfalso; apply H; constructor|]. destruct (In_dec bdec x l) as [I|N].
  - apply in_split in I as (l2 & l3 & ->). exists x, [], l2, l3. reflexivity.
  - destruct IH as (a & l1 & l2 & l3 & ->); [intros D; apply H; now constructor|]. exists a, (x :: l1), l2, l3. reflexivity.
Qed.

Lemma ident_by_value n : identifier n -> by_value n = true.
Proof.
  intros [N F]. destruct n as [|c n]; [contradiction|]. unfold by_value. inversion F as [|? ? W F']; subst.
  assert (c =? 94 = false) as -> by (unfold word_char in W; lia). assert (c =? 91 = false) as -> by (unfold word_char in W; lia). cbn [orb].
  destruct (strcmp (firstn 4 (c :: n)) (bs "map[") =? 0) eqn:E; [|reflexivity]. exfalso. apply Z.eqb_eq, strcmp_eq in E.
  assert (I : In 91 (firstn 4 (c :: n))) by (rewrite E; cbn; tauto).
  assert (I2 : In 91 (c :: n)). { rewrite <- (firstn_skipn 4 (c :: n)). apply in_or_app. now left. }
  rewrite Forall_forall in F. specialize (F _ I2). unfold word_char in F. lia.
Qed.
Lemma find_in prog n d : find_struct prog n = Some d -> In d prog /\ dname d = n.
Proof. intros H. apply find_some in H. rewrite eqs_iff in H. exact H. Qed.
Lemma find_name prog n : In n (names prog) -> exists d, find_struct prog n = Some d.
Proof.
  intros H. unfold find_struct. destruct (find _ prog) eqn:E; [now eexists|]. exfalso. apply in_map_iff in H as (d & <- & I). apply find_none with (x := d) in E; [|exact I].
  assert (X : eqs (dname d) (dname d) = true) by now apply eqs_iff. congruence.
Qed.
Lemma same_name prog a b : NoDup (names prog) -> In a prog -> In b prog -> dname a = dname b -> a = b.
Proof.
  induction prog as [|c l IH]; [contradiction|]. cbn [names map]. intros N Ia Ib E. inversion N as [|? ? N1 N2]; subst.
  destruct Ia as [->|Ia], Ib as [->|Ib]; [reflexivity|exfalso; apply N1; rewrite E; now apply in_map|exfalso; apply N1; rewrite <- E; now apply in_map|now apply IH].
Qed.
Lemma find_self prog d : NoDup (names prog) -> In d prog -> find_struct prog (dname d) = Some d.
Proof.
  intros N I. destruct (find_name prog (dname d) (in_map dname _ _ I)) as [e E]. rewrite E. destruct (find_in _ _ _ E) as [Ie Ee]. f_equal. now apply (same_name prog).
Qed.

(** the check is sound *)
Lemma contains_sound prog t : In t (names prog) -> forall room c v, In c prog -> contains room prog c t v = true -> clos_trans _ (holds prog) (dname c) t.
Proof.
  intros It. induction room as [|room IH]; intros c v Ic; cbn [contains]; destruct (existsb _ v); try discriminate.
  intros H. apply existsb_exists in H as (f & If & H). apply andb_true_iff in H as [_ H]. apply orb_true_iff in H as [H|H].
  - apply eqs_iff in H as ->. apply t_step. exists c. repeat split; assumption.
  - destruct (find_struct prog f) as [e|] eqn:E; [|discriminate]. destruct (find_in _ _ _ E) as [Ie <-].
    apply t_trans with (dname e); [|exact (IH e _ Ie H)]. apply t_step. exists c. repeat split; try assumption. now apply in_map.
Qed.
Lemma rejected_sound prog d : In d prog -> rejected prog d = true -> contains_itself prog (dname d).
Proof.
  intros I H. unfold rejected in H. apply existsb_exists in H as (f & If & H). apply andb_true_iff in H as [_ H]. apply orb_true_iff in H as [H|H].
  - apply eqs_iff in H as ->. apply t_step. exists d. repeat split; try assumption. now apply in_map.
  - destruct (find_struct prog f) as [e|] eqn:E; [|discriminate]. destruct (find_in _ _ _ E) as [Ie <-].
    apply t_trans with (dname e); [|exact (contains_sound prog _ (in_map _ _ _ I) _ _ _ Ie H)]. apply t_step. exists d. repeat split; try assumption. now apply in_map.
Qed.

(** paths *)
Fixpoint chain {A} (R : A -> A -> Prop) (a : A) (l : list A) (b : A) : Prop :=
  match l with [] => R a b | x :: l => R a x /\ chain R x l b end.
Lemma chain_app {A} (R : A -> A -> Prop) l1 : forall a x l2 b, chain R a l1 x -> chain R x l2 b -> chain R a (l1 ++ x :: l2) b.
Proof. induction l1 as [|y l1 IH]; cbn; intros a x l2 b H1 H2; [split; assumption|]. destruct H1 as [H1 H3]. split; [exact H1|]. now apply IH. Qed.
Lemma chain_cut {A} (R : A -> A -> Prop) l1 : forall a x l2 b, chain R a (l1 ++ x :: l2) b -> chain R a l1 x /\ chain R x l2 b.
Proof. induction l1 as [|y l1 IH]; cbn; intros a x l2 b H; [exact H|]. destruct H as [H1 H2]. apply IH in H2 as [H2 H3]. repeat split; assumption. Qed.
Lemma chain_of {A} (R : A -> A -> Prop) a b : clos_trans _ R a b -> exists l, chain R a l b.
Proof.
  intros H. induction H as [a b H|a x b _ [l1 H1] _ [l2 H2]]; [exists []; exact H|]. exists (l1 ++ x :: l2). now apply chain_app.
Qed.
Lemma chain_trans {A} (R : A -> A -> Prop) l : forall a b, chain R a l b -> clos_trans _ R a b.
Proof. induction l as [|x l IH]; cbn; intros a b H; [now apply t_step|]. destruct H as [H1 H2]. apply t_trans with x; [now apply t_step|now apply IH]. Qed.
Lemma simple_chain (R : bytes -> bytes -> Prop) b : forall n l, (length l <= n)%nat -> forall a, chain R a l b -> exists l', chain R a l' b /\ NoDup (a :: l').
Proof.
  induction n as [|n IH]; intros l L a H.
  - destruct l; [|cbn in L; lia]. exists []. split; [exact H|]. constructor; [intros []|constructor].
  - destruct (In_dec bdec a l) as [I|N].
    + apply in_split in I as (l1 & l2 & ->). apply chain_cut in H as [_ H]. apply (IH l2); [rewrite app_length in L; cbn in L; lia|exact H].
    + destruct (NoDup_dec bdec l) as [D|D]; [exists l; split; [exact H|constructor; assumption]|].
      apply (not_nodup) in D as (x & l1 & l2 & l3 & ->). apply chain_cut in H as [H1 H2]. apply chain_cut in H2 as [_ H2].
      apply (IH (l1 ++ x :: l3)); [repeat (rewrite app_length in *; cbn [length] in *); lia|]. now apply chain_app.
Qed.

(** the check is complete for paths of up to [room] structs *)
Lemma contains_complete prog t : NoDup (names prog) -> Forall identifier (names prog) -> forall room l c v,
  In c prog -> chain (holds prog) (dname c) l t -> NoDup (dname c :: l) -> (forall x, In x (dname c :: l) -> ~ In x v) -> (length l < room)%nat -> contains room prog c t v = true.
Proof.
  intros N F. induction room as [|room IH]; intros l c v Ic H D V L; [lia|]. cbn [contains].
  assert (E : existsb (eqs (dname c)) v = false).
  { apply not_true_is_false. intros E. apply existsb_exists in E as (x & Ix & E). apply eqs_iff in E as <-. apply (V (dname c)); [now left|exact Ix]. }
  rewrite E. apply existsb_exists.
  assert (Step : forall x, holds prog (dname c) x -> In x (fields c) /\ by_value x = true /\ In x (names prog)).
  { intros x (d & Id & Ed & Ix & Nx). rewrite (same_name prog d c N Id Ic Ed) in Ix. split; [exact Ix|]. split; [|exact Nx]. apply ident_by_value. rewrite Forall_forall in F. now apply F. }
  destruct l as [|x l]; cbn [chain] in H.
  - destruct (Step t H) as (I & B & _). exists t. split; [exact I|]. rewrite B. cbn [andb]. apply orb_true_iff. left. now apply eqs_iff.
  - destruct H as [H1 H2]. destruct (Step x H1) as (I & B & Nx). exists x. split; [exact I|]. rewrite B. cbn [andb]. apply orb_true_iff. right.
    destruct (find_name prog x Nx) as [e Ee]. rewrite Ee. destruct (find_in _ _ _ Ee) as [Ie <-].
    inversion D as [|? ? D1 D2]; subst. apply (IH l e _ Ie H2 D2); [|cbn in L; lia].
    intros y Iy [<-|Iv]; [exact (D1 Iy)|]. apply (V y); [now right|exact Iv].
Qed.
Lemma rejected_chain prog d l : well_named prog -> In d prog -> chain (holds prog) (dname d) l (dname d) -> NoDup (dname d :: l) -> (length l <= 32)%nat -> rejected prog d = true.
Proof.
  intros [N F] I H D L. unfold rejected. apply existsb_exists.
  assert (Step : forall x, holds prog (dname d) x -> In x (fields d) /\ by_value x = true /\ In x (names prog)).
  { intros x (e & Id & Ed & Ix & Nx). rewrite (same_name prog e d N Id I Ed) in Ix. split; [exact Ix|]. split; [|exact Nx]. apply ident_by_value. rewrite Forall_forall in F. now apply F. }
  destruct l as [|x l]; cbn [chain] in H.
  - destruct (Step _ H) as (Ix & B & _). exists (dname d). split; [exact Ix|]. rewrite B. cbn [andb]. apply orb_true_iff. left. now apply eqs_iff.
  - destruct H as [H1 H2]. destruct (Step x H1) as (Ix & B & Nx). exists x. split; [exact Ix|]. rewrite B. cbn [andb]. apply orb_true_iff. right.
    destruct (find_name prog x Nx) as [e Ee]. rewrite Ee. destruct (find_in _ _ _ Ee) as [Ie <-]. inversion D as [|? ? D1 D2]; subst.
    apply (contains_complete prog (dname d) N F MAX_STRUCT_DEPTH l e [] Ie H2 D2); [intros ? ? []|]. exact L.
Qed.
Lemma chain_incl prog l : forall a b, chain (holds prog) a l b -> In a (names prog) /\ incl l (names prog).
Proof.
  induction l as [|x l IH]; cbn; intros a b H.
  - destruct H as (d & I & <- & _). split; [now apply in_map|intros ? []].
  - destruct H as [(d & I & <- & _ & Nx) H]. split; [now apply in_map|]. apply IH in H as [_ H]. intros y [<-|Iy]; [exact Nx|now apply H].
Qed.
Lemma rejected_complete prog d : well_named prog -> (length prog <= 33)%nat -> In d prog -> contains_itself prog (dname d) -> rejected prog d = true.
Proof.
  intros W L I H. apply chain_of in H as [l H]. destruct (simple_chain _ _ _ l (le_n _) _ H) as (l' & H' & D).
  apply (rejected_chain prog d l' W I H' D). destruct (chain_incl _ _ _ _ H') as [Ia Il].
  assert (X : (length (dname d :: l') <= length (names prog))%nat). { apply NoDup_incl_length; [exact D|]. intros y [<-|Iy]; [exact Ia|now apply Il]. }
  unfold names in X. rewrite map_length in X. cbn in X. lia.
Qed.

(** the order of the definitions *)
Fixpoint sel (s : list decl) (e : list bool) : list decl :=
  match s, e with d :: s, b :: e => if b then d :: sel s e else sel s e | _, _ => [] end.
Lemma set_length e : forall i, length (set_true e i) = length e.
Proof. induction e as [|b e IH]; intros [|i]; cbn; congruence. Qed.
Lemma set_nth e : forall i k, (i < length e)%nat -> nth k (set_true e i) false = if Nat.eqb k i then true else nth k e false.
Proof.
  induction e as [|b e IH]; intros i k L; [cbn in L; lia|]. destruct i as [|i], k as [|k]; cbn [set_true nth Nat.eqb]; try reflexivity. apply IH. cbn in L. lia.
Qed.
Lemma sel_set s : forall e i d, length e = length s -> nth_error s i = Some d -> nth i e false = false -> Permutation (sel s (set_true e i)) (d :: sel s e).
Proof.
  induction s as [|x s IH]; intros [|b e] i d L H Hf; try discriminate; [destruct i; discriminate|]. destruct i as [|i].
  - cbn in H, Hf. injection H as <-. subst b. cbn. reflexivity.
  - cbn [nth_error nth] in H, Hf. cbn [set_true sel]. specialize (IH e i d ltac:(cbn in L; lia) H Hf). destruct b; [|exact IH]. rewrite IH. apply perm_swap.
Qed.
Lemma sel_none s : forall n, sel s (List.repeat false n) = [].
Proof. induction s as [|x s IH]; intros [|n]; cbn; auto. Qed.
Lemma sel_in s : forall e k d, nth_error s k = Some d -> nth k e false = true -> In d (sel s e).
Proof.
  induction s as [|x s IH]; intros e k d H E; [destruct k; discriminate|]. destruct k as [|k].
  - cbn in H. injection H as <-. destruct e as [|b e]; cbn in E; [discriminate|]. subst b. now left.
  - destruct e as [|b e]; [destruct k; discriminate|]. cbn [sel]. cbn [nth_error nth] in H, E. specialize (IH e k d H E). destruct b; [now right|exact IH].
Qed.
Lemma sel_incl s : forall e, incl (sel s e) s.
Proof. induction s as [|x s IH]; intros [|b e] y; cbn; try tauto. destruct b; cbn; intros H; [destruct H as [->|H]; [now left|right; now apply (IH e)]|right; now apply (IH e)]. Qed.
Lemma sel_all s : forall e, length e = length s -> (forall k, (k < length s)%nat -> nth k e false = true) -> sel s e = s.
Proof.
  induction s as [|x s IH]; intros [|b e] L H; try discriminate; [reflexivity|]. cbn. pose proof (H O ltac:(cbn; lia)) as H0. cbn in H0. subst b. f_equal. apply IH; [cbn in L; lia|]. intros k Hk. apply (H (S k)). cbn. lia.
Qed.
Lemma sel_length s : forall e, (length (sel s e) <= length s)%nat.
Proof. induction s as [|x s IH]; intros [|b e]; cbn; try lia. specialize (IH e). destruct b; cbn; lia. Qed.
Lemma sel_full s : forall e, length e = length s -> (length s <= length (sel s e))%nat -> forall k, (k < length s)%nat -> nth k e false = true.
Proof.
  induction s as [|x s IH]; intros [|b e] L H k Hk; try discriminate; [cbn in Hk; lia|]. cbn [sel] in H. pose proof (sel_length s e). destruct b; cbn [length] in H; [|lia].
  destruct k as [|k]; [reflexivity|]. cbn. apply IH; cbn in L, Hk; lia.
Qed.

Lemma ordered_snoc all out d : ordered all out -> (forall f, In f (fields d) -> In f (names all) -> In f (names out)) -> ordered all (out ++ [d]).
Proof.
  intros O H pre x post E f If Nf. destruct post as [|y post] using rev_ind.
  - apply app_inj_tail in E as [-> <-]. now apply H.
  - clear IHpost. rewrite app_comm_cons, app_assoc in E. apply app_inj_tail in E as [E _]. exact (O _ _ _ E f If Nf).
Qed.

Section Order.
Context (s : list decl) (N : NoDup (names s)) (A : forall a, ~ contains_itself s a).
Definition inv (st : list bool * list decl) : Prop := length (fst st) = length s /\ Permutation (snd st) (sel s (fst st)) /\ ordered s (snd st).
Definition grown (e e' : list bool) : Prop := forall k, nth k e false = true -> nth k e' false = true.
Lemma deps_mono e e' i d : grown e e' -> deps_met s e i d = true -> deps_met s e' i d = true.
Proof.
  intros G. unfold deps_met. rewrite !forallb_forall. intros H f If. specialize (H f If). rewrite forallb_forall in *. intros k Ik. specialize (H k Ik).
  rewrite negb_true_iff in *. apply andb_false_iff in H as [H|H]; [|rewrite H; apply andb_false_r]. apply andb_false_iff in H as [H|H]; [rewrite H; reflexivity|].
  apply negb_false_iff in H. rewrite (G k H). cbn [negb]. rewrite andb_false_r. reflexivity.
Qed.
Lemma visit_ok st i : inv st -> inv (visit s st i) /\ grown (fst st) (fst (visit s st i)) /\
  (forall d, nth_error s i = Some d -> nth i (fst st) false = true \/ deps_met s (fst st) i d = true -> nth i (fst (visit s st i)) false = true).
Proof.
  destruct st as [e out]. intros (L & P & O). cbn [fst snd] in *. unfold visit. destruct (nth i e false) eqn:E.
  { split; [split; [exact L|split; assumption]|]. split; [intros k H; exact H|]. intros d _ _. exact E. }
  destruct (nth_error s i) as [d|] eqn:Ed.
  2:{ split; [split; [exact L|split; assumption]|]. split; [intros k H; exact H|]. intros d H. discriminate. }
  assert (Li : (i < length e)%nat) by (rewrite L; apply nth_error_Some; congruence).
  destruct (deps_met s e i d) eqn:D.
  - cbn [fst snd]. split; [|split].
    + split; [cbn [fst]; rewrite set_length; exact L|]. cbn [fst snd]. split.
      * rewrite (sel_set s e i d L Ed E). rewrite <- P. symmetry. apply Permutation_cons_append.
      * apply ordered_snoc; [exact O|]. intros f If Nf. unfold deps_met in D. rewrite forallb_forall in D. specialize (D f If). rewrite forallb_forall in D.
        apply in_map_iff in Nf as (x & <- & Ix). apply In_nth_error in Ix as [k Ek]. specialize (D k). rewrite in_seq in D.
        assert (Lk : (k < length s)%nat) by (apply nth_error_Some; congruence). specialize (D ltac:(lia)). rewrite Ek in D.
        assert (X : eqs (dname x) (dname x) = true) by now apply eqs_iff. rewrite X, andb_true_r, negb_andb, !negb_involutive in D. apply orb_true_iff in D as [D|D].
        -- apply Nat.eqb_eq in D as ->. exfalso. assert (x = d) by congruence. subst x. apply (A (dname d)). apply t_step. exists d.
           assert (Id : In d s) by (eapply nth_error_In; exact Ed). repeat split; [exact Id|exact If|now apply in_map].
        -- apply in_map. eapply Permutation_in; [symmetry; exact P|]. now apply (sel_in s e k).
    + intros k H. rewrite set_nth by exact Li. rewrite H. now destruct (Nat.eqb k i).
    + intros _ _ _. rewrite set_nth by exact Li. now rewrite Nat.eqb_refl.
  - split; [split; [exact L|split; assumption]|]. split; [intros k H; exact H|]. intros d' H [H2|H2]; congruence.
Qed.
Lemma fold_ok l : forall st, inv st -> inv (fold_left (visit s) l st) /\ grown (fst st) (fst (fold_left (visit s) l st)) /\
  (forall i d, In i l -> nth_error s i = Some d -> deps_met s (fst st) i d = true -> nth i (fst (fold_left (visit s) l st)) false = true).
Proof.
  induction l as [|j l IH]; intros st I; cbn [fold_left]; [split; [exact I|split; [intros k H; exact H|intros ? ? []]]|].
  destruct (visit_ok st j I) as (I1 & G1 & H1). destruct (IH _ I1) as (I2 & G2 & H2). split; [exact I2|]. split; [intros k H; apply G2, G1, H|].
  intros i d [->|Ii] Ed D; [apply G2; apply (H1 d Ed); now right|]. apply (H2 i d Ii Ed). exact (deps_mono _ _ _ _ G1 D).
Qed.
Lemma pass_ok st : inv st -> inv (pass s st) /\ grown (fst st) (fst (pass s st)) /\
  (forall i d, nth_error s i = Some d -> deps_met s (fst st) i d = true -> nth i (fst (pass s st)) false = true).
Proof.
  intros I. destruct (fold_ok (seq 0 (length s)) st I) as (I1 & G1 & H1). split; [exact I1|]. split; [exact G1|]. intros i d Ed. apply H1; [|exact Ed].
  apply in_seq. assert (i < length s)%nat by (apply nth_error_Some; congruence). lia.
Qed.

(** some struct that is not yet there needs only those that are *)
Fixpoint trace (l : list bytes) : Prop := match l with y :: (x :: _) as l' => holds s x y /\ trace l' | _ => True end.
Lemma trace_reach l1 : forall x l2 y, trace (y :: l1 ++ x :: l2) -> clos_trans _ (holds s) x y.
Proof.
  induction l1 as [|z l1 IH]; intros x l2 y H; cbn [app] in H; destruct H as [H1 H2].
  - now apply t_step.
  - apply t_trans with z; [exact (IH _ _ _ H2)|now apply t_step].
Qed.
Lemma trace_tail l1 : forall l2, trace (l1 ++ l2) -> trace l2.
Proof. induction l1 as [|x l1 IH]; intros l2 H; [exact H|]. cbn [app] in H. apply IH. destruct (l1 ++ l2); [exact I|]. apply H. Qed.
Lemma minimal (U : bytes -> Prop) u : (forall x, U x -> In x (names s)) -> U u -> ~ (forall x, U x -> exists y, U y /\ holds s x y).
Proof.
  intros Inc Hu All.
  assert (T : forall n, exists x l, length l = n /\ trace (x :: l) /\ forall y, In y (x :: l) -> U y).
  { induction n as [|n (x & l & E & T & F)].
    - exists u, []. split; [reflexivity|]. split; [exact I|]. intros y [<-|[]]. exact Hu.
    - destruct (All x (F x (or_introl eq_refl))) as (y & Uy & H). exists y, (x :: l). split; [cbn; lia|]. split; [split; [exact H|exact T]|]. intros z [<-|Iz]; [exact Uy|now apply F]. }
  destruct (T (length s)) as (x & l & E & Tr & F).
  assert (D : ~ NoDup (x :: l)).
  { intros D. assert (X : (length (x :: l) <= length (names s))%nat) by (apply NoDup_incl_length; [exact D|intros y Iy; apply Inc, F, Iy]).
    unfold names in X. rewrite map_length in X. cbn in X. lia. }
  apply (not_nodup) in D as (y & l1 & l2 & l3 & El). rewrite El in Tr. apply trace_tail in Tr. apply (A y). exact (trace_reach _ _ _ _ Tr).
Qed.
Lemma progress st : inv st -> (length (snd st) < length s)%nat -> (length (snd st) < length (snd (pass s st)))%nat.
Proof.
  intros I L. destruct (pass_ok st I) as (I1 & G & H). destruct I as (Le & P & O). destruct I1 as (Le1 & P1 & O1).
  destruct (le_lt_dec (length (snd (pass s st))) (length (snd st))) as [C|C]; [exfalso|exact C].
  set (e := fst st) in *. set (e1 := fst (pass s st)) in *. rewrite (Permutation_length P), (Permutation_length P1) in *. clear P P1 O O1.
  (* nothing new *)
  assert (Same : forall k, nth k e1 false = true -> nth k e false = true).
  { clear L H A N. clearbody e e1. revert e e1 Le Le1 G C. induction s as [|x l IH]; intros [|b e] [|b1 e1] Le Le1 G C k; try discriminate; [intros X; exact X|].
    assert (G' : grown e e1) by (intros j Hj; apply (G (S j)); exact Hj). cbn [sel] in C.
    assert (M : forall l e e1, length e = length l -> length e1 = length l -> grown e e1 -> (length (sel l e) <= length (sel l e1))%nat).
    { clear. induction l as [|x l IH]; intros [|b e] [|b1 e1] L L1 G; try discriminate; [cbn; lia|]. cbn [sel]. assert (G' : grown e e1) by (intros j Hj; apply (G (S j)); exact Hj).
      specialize (IH e e1 ltac:(cbn in L; lia) ltac:(cbn in L1; lia) G'). destruct b; [rewrite (G O eq_refl : b1 = true); cbn; lia|destruct b1; cbn; lia]. }
    specialize (M l e e1 ltac:(cbn in Le; lia) ltac:(cbn in Le1; lia) G').
    destruct b; [pose proof (G O eq_refl : b1 = true); subst b1|destruct b1]; cbn [length] in C.
    - destruct k as [|k]; [intros _; reflexivity|]. apply (IH e e1); [cbn in Le; lia|cbn in Le1; lia|exact G'|lia].
    - lia.
    - destruct k as [|k]; [discriminate|]. apply (IH e e1); [cbn in Le; lia|cbn in Le1; lia|exact G'|lia]. }
  set (U := fun x => exists k d, nth_error s k = Some d /\ dname d = x /\ nth k e false = false).
  assert (X : exists u, U u).
  { destruct (Forall_Exists_dec (fun k => nth k e false = true) (fun k => bool_dec (nth k e false) true) (seq 0 (length s))) as [F|F].
    - exfalso. rewrite Forall_forall in F. rewrite (sel_all s e Le) in L; [lia|]. intros k Hk. apply F, in_seq. lia.
    - apply Exists_exists in F as (k & Ik & Nk). apply in_seq in Ik. destruct (nth_error s k) as [d|] eqn:Ed; [|apply nth_error_None in Ed; lia].
      exists (dname d), k, d. repeat split; [exact Ed|]. now apply not_true_is_false. }
  destruct X as [u Hu]. apply (minimal U u).
  - intros x (k & d & Ed & <- & _). apply in_map. eapply nth_error_In. exact Ed.
  - exact Hu.
  - intros x (k & d & Ed & <- & Nk).
    destruct (deps_met s e k d) eqn:D; [pose proof (Same k (H k d Ed D)); congruence|].
    unfold deps_met in D.
    assert (Ex : exists f j y, In f (fields d) /\ nth_error s j = Some y /\ dname y = f /\ nth j e false = false).
    { apply not_true_iff_false in D. rewrite forallb_forall in D.
      destruct (Forall_Exists_dec _ (fun f => bool_dec (forallb (fun k0 => negb (negb (Nat.eqb k0 k) && negb (nth k0 e false) && match nth_error s k0 with Some e0 => eqs (dname e0) f | None => false end)) (seq 0 (length s))) true) (fields d)) as [F|F].
      { exfalso. apply D. now rewrite <- Forall_forall. }
      apply Exists_exists in F as (f & If & F). rewrite forallb_forall in F.
      destruct (Forall_Exists_dec _ (fun k0 => bool_dec (negb (negb (Nat.eqb k0 k) && negb (nth k0 e false) && match nth_error s k0 with Some e0 => eqs (dname e0) f | None => false end)) true) (seq 0 (length s))) as [F2|F2].
      { exfalso. apply F. now rewrite <- Forall_forall. }
      apply Exists_exists in F2 as (j & Ij & F2). apply not_true_is_false, negb_false_iff, andb_true_iff in F2 as [F2 F3]. apply andb_true_iff in F2 as [_ F2]. apply negb_true_iff in F2.
      destruct (nth_error s j) as [y|] eqn:Ey; [|discriminate]. apply eqs_iff in F3. exists f, j, y. repeat split; assumption. }
    destruct Ex as (f & j & y & If & Ey & <- & Nj). exists (dname y). split; [exists j, y; repeat split; assumption|].
    exists d. repeat split; [eapply nth_error_In; exact Ed|exact If|]. apply in_map. eapply nth_error_In. exact Ey.
Qed.
Lemma passes_ok n : forall st, inv st -> (length s <= length (snd st) + n)%nat -> inv (passes n s st) /\ (length s <= length (snd (passes n s st)))%nat.
Proof.
  induction n as [|n IH]; intros st I L; cbn [passes]; [split; [exact I|lia]|]. destruct (Nat.ltb_spec (length (snd st)) (length s)) as [C|C]; [|split; assumption].
  apply IH; [apply pass_ok, I|]. pose proof (progress st I C). lia.
Qed.
Lemma order_ok : (length s <= 256)%nat -> Permutation (struct_order s) s /\ ordered s (struct_order s).
Proof.
  intros L. unfold struct_order. rewrite firstn_all2 by (unfold MAX_STRUCT_DECLS; lia).
  assert (I0 : inv (List.repeat false (length s), [])).
  { split; [apply repeat_length|]. cbn [fst snd]. rewrite sel_none. split; [constructor|]. intros [|x0 pre] d0 post E; discriminate. }
  destruct (passes_ok (length s) _ I0 ltac:(cbn; lia)) as [(Le & P & O) F]. destruct (passes (length s) s _) as [e out] eqn:E. cbn [fst snd] in *.
  rewrite (Permutation_length P) in F. pose proof (sel_full s e Le F) as Fu.
  assert (Lo : leftover s e = []).
  { unfold leftover. assert (X : forall k, In k (seq 0 (length s)) -> (k < length s)%nat) by (intros k H; apply in_seq in H; lia). revert X. generalize (seq 0 (length s)). intros q X.
    induction q as [|k q IH]; [reflexivity|]. cbn [flat_map]. rewrite (Fu k (X k (or_introl eq_refl))). apply IH. intros j Hj. apply X. now right. }
  rewrite Lo, app_nil_r. rewrite (sel_all s e Le Fu) in P. split; assumption.
Qed.
End Order.

(** nothing but the first 256 *)
Lemma order_from prog d : In d (struct_order prog) -> In d (firstn 256 prog).
Proof.
  unfold struct_order. change MAX_STRUCT_DECLS with 256%nat. generalize (firstn 256 prog). intros s.
  assert (V : forall st i, incl (snd st) s -> incl (snd (visit s st i)) s).
  { intros [e out] i H. unfold visit. destruct (nth i e false); [exact H|]. destruct (nth_error s i) as [x|] eqn:E; [|exact H]. destruct (deps_met s e i x); [|exact H]. cbn [snd] in *.
    intros y Iy. apply in_app_or in Iy as [Iy|[<-|[]]]; [now apply H|]. eapply nth_error_In. exact E. }
  assert (F : forall l st, incl (snd st) s -> incl (snd (fold_left (visit s) l st)) s) by (induction l as [|i l IH]; intros st H; [exact H|]; cbn [fold_left]; apply IH, V, H).
  assert (P : forall n st, incl (snd st) s -> incl (snd (passes n s st)) s).
  { induction n as [|n IH]; intros st H; cbn [passes]; [exact H|]. destruct (_ <? _)%nat; [|exact H]. apply IH, F, H. }
  specialize (P (length s) (repeat false (length s), []) ltac:(intros ? [])). destruct (passes _ _ _) as [e out]. cbn [snd] in P. intros I. apply in_app_or in I as [I|I]; [now apply P|].
  unfold leftover in I. apply in_flat_map in I as (i & _ & I). destruct (nth i e false); [contradiction|]. destruct (nth_error s i) as [x|] eqn:E; [|contradiction]. destruct I as [<-|[]]. eapply nth_error_In. exact E.
Qed.
