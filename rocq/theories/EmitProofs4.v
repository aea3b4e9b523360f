(** Proofs about the C text of expressions: the order of evaluation. *)
From Verif Require Import Base BaseFacts ArithModel EmitModel EmitSpec EmitProofs EmitProofs2 EmitProofs3.
From Coq Require Import Permutation.

Lemma merge_perm {X} (l1 l2 l : list X) : merge l1 l2 l -> Permutation l (l1 ++ l2).
Proof. induction 1; cbn; [constructor|now constructor|]. now apply Permutation_cons_app. Qed.
Lemma merge_filter {X} (f : X -> bool) l1 l2 l : merge l1 l2 l -> merge (filter f l1) (filter f l2) (filter f l).
Proof. induction 1; cbn; [constructor| |]; destruct (f x); auto; now constructor. Qed.

Section Order.
Context (decides : punct -> sk -> bool) (eff : nat -> bool).
Lemma filter_none l : Forall (fun a => eff a = false) l -> filter eff l = [].
Proof. induction 1 as [|a l H _ IH]; [reflexivity|]. cbn. now rewrite H. Qed.
Lemma pure_any e l : ~ effects eff e -> any decides e l -> filter eff l = [].
Proof.
  intros N A. apply filter_none. eapply Forall_impl; [|exact (any_inside _ _ _ A)]. intros a (b & t & J).
  destruct (eff a) eqn:E; [|reflexivity]. destruct N. exists b, t, a. auto.
Qed.
Lemma ltr_inside e : Forall (fun a => exists b t, inside (Leaf b t a) e) (left_to_right decides e).
Proof.
  induction e as [b t a|o e IHe|o l r IHl IHr|b x s e d IHx IHs IHe IHd] using expr_ind2.
  - constructor; [|constructor]. exists b, t. constructor.
  - eapply Forall_impl; [|exact IHe]. intros a (b & t & J). exists b, t. now constructor.
  - assert (Fl : Forall (fun a => exists b t, inside (Leaf b t a) (Infix o l r)) (left_to_right decides l)).
    { eapply Forall_impl; [|exact IHl]. intros a (b & t & J). exists b, t. now constructor. }
    assert (Fr : Forall (fun a => exists b t, inside (Leaf b t a) (Infix o l r)) (left_to_right decides r)).
    { eapply Forall_impl; [|exact IHr]. intros a (b & t & J). exists b, t. now constructor. }
    destruct o; cbn [left_to_right]; apply Forall_app; (split; [exact Fl|]); try exact Fr;
      destruct (decides _ _); [constructor|exact Fr|constructor|exact Fr].
  - cbn [left_to_right]. apply Forall_app; split.
    + eapply Forall_impl; [|exact IHx]. intros a (b1 & t & J). exists b1, t. now constructor.
    + apply Forall_app. split; [|apply Forall_app; split].
      * destruct s as [s|]; [|constructor]. eapply Forall_impl; [|exact (IHs _ eq_refl)]. intros a (b1 & t & J). exists b1, t. now constructor.
      * eapply Forall_impl; [|exact IHe]. intros a (b1 & t & J). exists b1, t. now constructor.
      * destruct d as [d|]; [|constructor]. eapply Forall_impl; [|exact (IHd _ eq_refl)]. intros a (b1 & t & J). exists b1, t. now constructor.
Qed.
Lemma pure_ltr e : ~ effects eff e -> filter eff (left_to_right decides e) = [].
Proof.
  intros N. apply filter_none. eapply Forall_impl; [|exact (ltr_inside e)]. intros a (b & t & J).
  destruct (eff a) eqn:E; [|reflexivity]. destruct N. exists b, t, a. auto.
Qed.
Lemma ltr_op o l r : logical (c_op o) = false -> left_to_right decides (Infix o l r) = left_to_right decides l ++ left_to_right decides r.
Proof. destruct o; try reflexivity; discriminate. Qed.
Lemma ltr_logical o l r : logical (c_op o) = true ->
  left_to_right decides (Infix o l r) = left_to_right decides l ++ if decides (c_op o) (source l) then [] else left_to_right decides r.
Proof. destruct o; try reflexivity; discriminate. Qed.

Lemma any_once e l : any decides e l -> (forall x, inside x e -> is_range x -> ~ effects eff x) -> Permutation (filter eff l) (filter eff (left_to_right decides e)).
Proof.
  induction 1 as [b t a|o e l H IH|o e r l L D H IH|o e r l1 l2 L D H1 IH1 H2 IH2|o e r l1 l2 l L H1 IH1 H2 IH2 M|e l R F]; intros N.
  - reflexivity.
  - cbn [left_to_right]. apply IH. intros x J. apply N. now constructor.
  - rewrite ltr_logical, D, app_nil_r by exact L. apply IH. intros x J. apply N. now constructor.
  - rewrite ltr_logical, D by exact L. rewrite !filter_app. apply Permutation_app; [apply IH1|apply IH2]; intros x J; apply N; now constructor.
  - rewrite ltr_op, filter_app by exact L. rewrite (merge_perm _ _ _ (merge_filter eff _ _ _ M)).
    apply Permutation_app; [apply IH1|apply IH2]; intros x J; apply N; now constructor.
  - assert (NE : ~ effects eff e) by (apply N; [constructor|exact R]). rewrite (pure_ltr _ NE). rewrite (pure_any e l NE); [constructor|]. now apply any_range.
Qed.
Lemma any_in_order e l : any decides e l -> (forall x, inside x e -> is_range x -> ~ effects eff x) -> (forall x, inside x e -> ~ both_sides eff x) ->
  filter eff l = filter eff (left_to_right decides e).
Proof.
  induction 1 as [b t a|o e l H IH|o e r l L D H IH|o e r l1 l2 L D H1 IH1 H2 IH2|o e r l1 l2 l L H1 IH1 H2 IH2 M|e l R F]; intros N B.
  - reflexivity.
  - cbn [left_to_right]. apply IH; intros x J; [apply N|apply B]; now constructor.
  - rewrite ltr_logical, D, app_nil_r by exact L. apply IH; intros x J; [apply N|apply B]; now constructor.
  - rewrite ltr_logical, D by exact L. rewrite !filter_app. f_equal; [apply IH1|apply IH2]; intros x J; try (apply N; now constructor); apply B; now constructor.
  - assert (E1 : filter eff l1 = filter eff (left_to_right decides e)) by (apply IH1; intros x J; [apply N|apply B]; now constructor).
    assert (E2 : filter eff l2 = filter eff (left_to_right decides r)) by (apply IH2; intros x J; [apply N|apply B]; now constructor).
    apply (merge_filter eff) in M. rewrite ltr_op, filter_app, <- E1, <- E2 by exact L.
    assert (D : Forall (fun a => eff a = false) l1 \/ effects eff e).
    { destruct (existsb eff l1) eqn:X.
      - right. apply existsb_exists in X as (a & Ia & Ea). pose proof (any_inside _ _ _ H1) as A. rewrite Forall_forall in A. destruct (A _ Ia) as (b & t & J). exists b, t, a. auto.
      - left. apply Forall_forall. intros a Ia. destruct (eff a) eqn:Ea; [|reflexivity]. assert (existsb eff l1 = true) by (apply existsb_exists; eauto). congruence. }
    destruct D as [D|D].
    + rewrite (filter_none _ D) in *. now rewrite (merge_nil_l _ _ M).
    + assert (NR : ~ effects eff r).
      { intros Er. apply (B (Infix o e r)); [constructor|]. exists o, e, r. repeat split; auto; intros ->; discriminate. }
      rewrite (pure_any _ _ NR H2) in *. rewrite (merge_nil_r _ _ M). now rewrite app_nil_r.
  - assert (NE : ~ effects eff e) by (apply N; [constructor|exact R]). rewrite (pure_ltr _ NE). apply (pure_any e l NE). now apply any_range.
Qed.
End Order.

Ltac qu := first [apply u_atom | apply u_num | apply u_str | apply u_cast; qu | apply u_op; [red; tauto|qu] | apply u_call; qa
                 | apply u_var; exact I | apply u_group; [exact I|qe] | apply u_block; qs]
with qe := eapply c_expr; [qu|qc]
with qc := first [apply c_stop; first [exact I|cbn; lia] | eapply c_take; [reflexivity|lia|qu|qc|qc]]
with qa := first [eapply a_more; [qe|qa] | eapply a_last; qe]
with qs := first [apply s_end | eapply s_let; [qe|qs] | eapply s_if; [qe|qs|qs] | eapply s_expr; [exact I|qe|qs]].

Ltac ev := first [apply v_atom | apply v_var | apply v_num | apply v_str | apply v_un; ev | apply v_cast; ev
                 | eapply v_short; [reflexivity|reflexivity|reflexivity|ev] | eapply v_then; [reflexivity|reflexivity|reflexivity|ev|ev]
                 | eapply v_bin; [reflexivity|ev|ev|apply merge_app] | apply v_block; evs | apply v_call; eva]
with evs := first [apply vs_nil | eapply vs_let; [reflexivity|ev|evs] | eapply vs_if; [ev|evs] | eapply vs_expr; [ev|evs]]
with eva := first [apply va_nil | eapply va_cons; [ev|eva|apply merge_app]].
Lemma evals_as d env c l : (exists l', evals d env c l' /\ l' = l) -> evals d env c l.
Proof. intros (l' & H & <-). exact H. Qed.
