(** The emitted C does what the statements mean, and gives back what it
    took. *)
From Coq Require Import ZArith List Bool Lia.
From Verif Require Import Base FlowSpec FlowModel FlowProofs.
Import ListNotations.
Local Open Scope Z_scope.

(** ** Statements without a return do not leave *)
Section no_return.
  Context (M : machine) (fuel : nat).
  Definition stays (o : out (W M)) : Prop := match o with Leaving _ _ => False | _ => True end.

  Lemma seq_stays : forall l, Forall (fun s => returns s = false -> forall w, stays (exec M fuel s w)) l ->
    some_of returns l = false -> forall w, stays (seq M (exec M fuel) l w).
  Proof.
    induction l as [|s l IH]; intros H R w; [exact I|].
    apply Forall_cons_iff in H as [H1 H2]. cbn in R. apply orb_false_iff in R as [R1 R2].
    cbn [seq]. specialize (H1 R1 w). destruct (exec M fuel s w); try exact H1; try exact I.
    now apply IH.
  Qed.

  Lemma pick_stays : forall test els arms,
    Forall (fun a => Forall (fun s => returns s = false -> forall w, stays (exec M fuel s w)) (snd a)) arms ->
    match els with Some l => Forall (fun s => returns s = false -> forall w, stays (exec M fuel s w)) l | None => True end ->
    some_arm returns arms = false -> some_opt returns els = false ->
    forall w, stays (pick M (seq M (exec M fuel)) test els arms w).
  Proof.
    intros test els arms. induction arms as [|[c b] arms IH]; intros H1 H2 R1 R2 w.
    - cbn. destruct els as [l|]; [|exact I]. now apply seq_stays.
    - apply Forall_cons_iff in H1 as [H1 H3]. cbn in R1. apply orb_false_iff in R1 as [R1 R3].
      cbn [pick]. destruct (test c w) as [[[]|] w']; [|now apply IH|exact I].
      now apply seq_stays.
  Qed.

  Lemma rounds_stays : forall test body step,
    (forall w, stays (body w)) -> (forall w, stays (step w)) ->
    forall n w, stays (rounds M n test body step w).
  Proof.
    intros test body step H1 H2 n. induction n as [|n IH]; intros w; [exact I|].
    cbn [rounds]. destruct (test w) as [[[]|] w']; try exact I.
    specialize (H1 w'). destruct (body w') as [w2|w2|w2|v w2|w2|]; try exact I; try exact H1;
      specialize (H2 w2); destruct (step w2); try exact I; try exact H2; apply IH.
  Qed.

  Lemma first_do_stays : forall a w k, (forall w, stays (k w)) -> stays (first_do M a w k).
  Proof. intros a w k H. unfold first_do. destruct (run M a w) as [[v|] w']; [apply H|exact I]. Qed.

  Lemma never_leaving : forall s, returns s = false -> forall w, stays (exec M fuel s w).
  Proof.
    induction s as [| |c y o e Hy Ho He|v a d' Ha Hd|a b c l Hl|k a b c d' l Hl|c l Hl|l Hl| | | |l Hl]
      using stmt_all; intros R w; cbn [exec returns] in *; try exact I; try discriminate.
    - apply first_do_stays. intros; exact I.
    - apply orb_false_iff in R as [R R3]. apply orb_false_iff in R as [R1 R2].
      destruct (holds M c w) as [[[]|] w']; [now apply seq_stays| |exact I].
      now apply pick_stays.
    - apply orb_false_iff in R as [R1 R2].
      destruct (run M v w) as [[x|] w']; [|exact I]. now apply pick_stays.
    - apply first_do_stays. intros w1. apply rounds_stays.
      + intros. now apply seq_stays.
      + intros. apply first_do_stays. intros; exact I.
    - apply first_do_stays. intros w1. apply rounds_stays.
      + intros. apply first_do_stays. intros. now apply seq_stays.
      + intros. apply first_do_stays. intros; exact I.
    - apply rounds_stays; [intros; now apply seq_stays|intros; exact I].
    - apply rounds_stays; [intros; now apply seq_stays|intros; exact I].
    - now apply seq_stays.
  Qed.

  Lemma never_leaving_list : forall l, some_of returns l = false -> forall w, stays (seq M (exec M fuel) l w).
  Proof. intros l R w. apply seq_stays; [|assumption]. apply list_from. apply never_leaving. Qed.
End no_return.

(** ** The [ensure]s *)
Definition plain_ensures (s : stmt) : Prop := match s with Ensure _ => True | _ => ensure_of s = [] end.

Lemma hidden_none : forall s, hides_ensure s = false -> plain_ensures s.
Proof.
  unfold plain_ensures.
  induction s as [| | | | | | | | | | |l Hl] using stmt_all; intros HH; try exact I; try reflexivity.
  cbn [ensure_of hides_ensure] in *. induction l as [|s l IH]; [reflexivity|].
  apply Forall_cons_iff in Hl as [H1 H2]. cbn [some_of] in HH. apply orb_false_iff in HH as [A B].
  cbn [flat]. rewrite IH by assumption. rewrite app_nil_r.
  destruct s; try discriminate; now apply H1.
Qed.

Lemma collect_is : forall l, some_of hides_ensure l = false -> collect_ensures l = flat ensure_of l.
Proof.
  induction l as [|s l IH]; intros H; [reflexivity|].
  cbn [some_of] in H. apply orb_false_iff in H as [A B].
  assert (Q := hidden_none s A). unfold plain_ensures in Q.
  cbn [flat]. rewrite <- IH by assumption. destruct s; try (now rewrite Q); reflexivity.
Qed.

(** ** Returns *)
Lemma named_has_names : forall f, has_named f = true -> exists names, f_names f = Some names.
Proof. intros f. unfold has_named. destruct (f_names f) as [l|]; [eauto|discriminate]. Qed.

Lemma emit_return_values : forall f st vals p, sensible f -> return_ok f vals p = true ->
  f_results f <> [] ->
  emit_return f st vals =
    ensure_cleanup f ++ [CBlock ([CResult (results_of f vals)] ++ return_escape f st ++ [CExit; CReturn])] /\
  length (results_of f vals) = length (f_results f).
Proof.
  intros f st vals p [_ N] R E. unfold return_ok in R. apply andb_true_iff in R as [_ R].
  unfold emit_return, results_of. set (n := length (f_results f)) in *.
  assert (n <> 0%nat). { subst n. destruct (f_results f); [congruence|discriminate]. }
  destruct (n =? 0)%nat eqn:Q; [apply Nat.eqb_eq in Q; congruence|].
  destruct vals as [|v [|v' vals]].
  - change (length (@nil Z)) with 0%nat in *. cbn in R. destruct (named_has_names _ R) as (names & Q').
    rewrite Q' in *. cbn. auto.
  - change (length [v]) with 1%nat in *. change (1 <? 1)%nat with false. change (1 =? 1)%nat with true.
    cbn [andb]. destruct (1 <? n)%nat eqn:T.
    + cbn [map]. split; [reflexivity|]. rewrite app_length, repeat_length. cbn.
      apply Nat.ltb_lt in T. lia.
    + apply Nat.ltb_ge in T. assert (n = 1)%nat as -> by lia. split; reflexivity.
  - assert (L : n = length (v :: v' :: vals)).
    { change (length (v :: v' :: vals)) with (S (S (length vals))) in *.
      change (S (S (length vals)) =? 0)%nat with false in R.
      change (S (S (length vals)) =? 1)%nat with false in R. cbn [andb] in R.
      rewrite orb_false_r in R. now apply Nat.eqb_eq in R. }
    rewrite <- L. assert (T : (1 <? n)%nat = true) by (rewrite L; reflexivity). rewrite T.
    replace (firstn n (v :: v' :: vals)) with (v :: v' :: vals) by (rewrite L; symmetry; apply firstn_all).
    split; [reflexivity|]. now rewrite map_length.
Qed.

Lemma emit_return_void : forall f st vals p, return_ok f vals p = true -> f_results f = [] ->
  vals = [] /\ emit_return f st vals = ensure_cleanup f ++ plain_return f st /\ results_of f vals = [].
Proof.
  intros f st vals p R E. unfold return_ok in R. rewrite E in R. cbn in R.
  apply andb_true_iff in R as [_ R]. destruct vals; [|discriminate].
  split; [reflexivity|]. unfold emit_return, results_of. rewrite E. cbn. split; [reflexivity|].
  now destruct (f_names f).
Qed.

Section simulation.
  Context (M : machine) (fuel : nat) (f : func) (HF : sensible f).
  Notation cexec := (cexec M fuel).
  Notation cseq := (cseq M cexec).
  Notation exec := (exec M fuel).
  Notation seq := (seq M exec).
  Notation cenv := (cenv M).
  Notation cstate := (cstate M).
  Implicit Types (e : cenv) (s : cstate).

  Definition own : bool := negb (f_main f) && negb (f_ref f).

  Definition frame e (fd : Z) (fl : list Z) (d0 : Z) (l0 : list Z) : Prop :=
    result e = [] /\
    if own then
      match f_results f with
      | [] => mark e = Some d0 /\ fd = d0 /\ fl = l0
      | _ => arena_of FuncArena (arenas e) = Some fd /\ arena_of FuncSaved (arenas e) = Some d0 /\
             fl = fd :: l0
      end
    else fd = d0 /\ fl = l0.

  Definition owned (d0 : Z) (rs : list (V M * option Z)) : Prop :=
    Forall2 (fun t (r : V M * option Z) =>
               (if f_ref f then t <> Plain else t = Copied) -> snd r = None \/ snd r = Some d0)
            (f_results f) rs.

  Definition left (vals : list Z) (w : W M) (s : cstate) (d0 : Z) (l0 : list Z) (Q O : Prop)
             (c : cout M) : Prop :=
    match effects M (rev (ensures f)) w with
    | (false, w1) => c = CStopped w1
    | (true, w1) =>
        match values M (results_of f vals) w1 with
        | (None, w2) => c = CStopped w2
        | (Some vs, w2) =>
            exists rs s', c = CReturned rs s' /\ map fst rs = vs /\ world s' = w2 /\
              dflt s' = d0 /\ live s' = l0 /\ depth s' = depth s - 1 /\
              (Q -> guards s' = guards s) /\ (O -> owned d0 rs)
        end
    end.

  Lemma ensure_cleanup_run : forall e s,
    cseq (ensure_cleanup f) e s =
    match effects M (rev (ensures f)) (world s) with
    | (true, w) => CNext e (put_world M w s)
    | (false, w) => CStopped w
    end.
  Proof.
    intros e s. unfold ensure_cleanup. rewrite collect_is by apply HF. apply map_run_effects.
  Qed.

  Lemma block_run : forall l e s, cseq [CBlock l] e s = leave_scope M e (cseq l e s).
  Proof. intros l e s. cbn [FlowModel.cseq FlowModel.cexec]. now destruct (leave_scope M e (cseq l e s)). Qed.

  Lemma result_run : forall l r e s, cseq (CResult l :: r) e s =
    match cresult M l (world s) (dflt s) with
    | (Some v, w) => cseq r (put_result M v e) (put_world M w s)
    | (None, w) => CStopped w
    end.
  Proof.
    intros l r e s. cbn [FlowModel.cseq FlowModel.cexec].
    now destruct (cresult M l (world s) (dflt s)) as [[v|] w].
  Qed.

  Lemma nested_live : forall e st d l d0 l0, nested M e st d l d0 l0 -> In d0 l0 -> In d l.
  Proof.
    intros e st d l d0 l0 H I. destruct H; [assumption|now left].
  Qed.

  Lemma result_owned : forall (ts : list rtype) l (rs : list (V M * option Z)) a (P : rtype -> Prop),
    length l = length ts -> map snd rs = map (owner a) l ->
    Forall2 (fun t (r : V M * option Z) => P t -> snd r = None \/ snd r = Some a) ts rs.
  Proof.
    induction ts as [|t ts IH]; intros [|x l] [|r rs] a P E R; try discriminate; [constructor|].
    cbn in R. injection R as R1 R2. constructor.
    - intros _. rewrite R1. destruct x; cbn; auto.
    - apply IH with (l := l); [now injection E|assumption].
  Qed.

  Lemma return_run : forall vals p st e s fd fl d0 l0,
    return_ok f vals p = true -> nested M e st (dflt s) (live s) fd fl -> frame e fd fl d0 l0 ->
    left vals (world s) s d0 l0 True (f_ref f = false \/ st = []) (cseq (emit_return f st vals) e s).
  Proof.
    intros vals p st e s fd fl d0 l0 R N [F0 F].
    assert (Hmain : f_main f = false).
    { unfold return_ok in R. apply andb_true_iff in R as [R _]. now apply negb_true_iff. }
    unfold own in F. rewrite Hmain in F. cbn [negb andb] in F.
    unfold left.
    destruct (f_results f) as [|t0 ts] eqn:ET.
    - destruct (emit_return_void f st vals p R ET) as (-> & -> & ->).
      rewrite cseq_app, ensure_cleanup_run.
      destruct (effects M (rev (ensures f)) (world s)) as [[] w1]; [|reflexivity].
      cbn [values]. unfold plain_return. rewrite block_run, cseq_app.
      rewrite (unwind_run M fuel e st (dflt s) (live s) fd fl N) by reflexivity.
      assert (G : fd = d0 /\ fl = l0) by (destruct (f_ref f); cbn in F; tauto).
      destruct G as [-> ->].
      exists [], (put_depth M (depth s - 1) (put_live M l0 (put_dflt M d0 (put_world M w1 s)))).
      assert (X : owned d0 []). { unfold owned. rewrite ET. constructor. }
      repeat split; auto.
      destruct (f_ref f).
      + cbn. now rewrite F0.
      + cbn in F. destruct F as [F _]. cbn. rewrite F. rewrite Z.eqb_refl. cbn. now rewrite F0.
    - destruct (emit_return_values f st vals p HF R) as (-> & L); [rewrite ET; discriminate|].
      rewrite cseq_app, ensure_cleanup_run.
      destruct (effects M (rev (ensures f)) (world s)) as [[] w1]; [|reflexivity].
      rewrite block_run. cbn [app]. rewrite result_run. cbn [world put_world dflt].
      pose proof (cresult_values M (results_of f vals) w1 (dflt s)) as CR.
      destruct (values M (results_of f vals) w1) as [[vs|] w2]; [|now rewrite CR].
      destruct CR as (rs & -> & <- & SR). rewrite cseq_app.
      unfold return_escape.
      destruct (f_ref f) eqn:RF.
      + cbn in F. destruct F as [-> ->].
        rewrite (unwind_run M fuel (put_result M rs e) st (dflt s) (live s) d0 l0);
          [|eapply nested_ext; [|exact N]; auto|reflexivity|reflexivity].
        cbn. eexists rs, _. repeat split; try reflexivity.
        intros [O|O]; [discriminate|]. subst st.
        inversion N; subst. unfold owned. rewrite RF.
        apply (result_owned _ (results_of f vals) rs (dflt s) (fun t => t <> Plain)); assumption.
      + cbn in F. destruct F as (F1 & F2 & ->).
        assert (LV : In (dflt s) (live s)) by (eapply nested_live; [exact N|now left]).
        rewrite cseq_app.
        edestruct (escapes_run M fuel (f_results f) rs [] (put_result M rs e) (put_world M w2 (put_world M w1 s)) d0)
          as (rs' & X & Y & Z0); [exact F2|reflexivity| | |].
        { rewrite <- L. apply (f_equal (@length _)) in SR. now rewrite !map_length in SR. }
        { apply Forall_forall. intros r I.
          assert (J : In (snd r) (map (owner (dflt s)) (results_of f vals))) by (rewrite <- SR; now apply in_map).
          apply in_map_iff in J as (x & <- & _). destruct x; cbn; eauto. }
        cbn [length] in X. rewrite X. cbn [app]. rewrite cseq_app.
        rewrite (unwind_run M fuel _ st (dflt s) (live s) fd (fd :: l0));
          [|eapply nested_ext; [|exact N]; auto|reflexivity|reflexivity].
        cbn. rewrite F2. cbn. rewrite F1. cbn. rewrite Z.eqb_refl. cbn.
        eexists rs', _. repeat split; try reflexivity; try assumption.
        intros _. unfold owned. rewrite RF. exact Z0.
  Qed.

  (** ** Agreement *)
  Definition agrees e s (st : list scope) (d0 : Z) (l0 : list Z) (Q O : Prop)
             (o : out (W M)) (c : cout M) : Prop :=
    match o with
    | Next w => exists e' s', c = CNext e' s' /\ world s' = w /\ dflt s' = dflt s /\ live s' = live s /\
                  depth s' = depth s /\ guards s' = guards s /\
                  arenas e' = arenas e /\ result e' = result e /\ mark e' = mark e
    | Broke w => exists s', c = CBroke s' /\ world s' = w /\
                  loop_exit M e st (dflt s) (live s) (dflt s') (live s') /\
                  depth s' = depth s /\ guards s' = guards s
    | Continued w => exists s', c = CContinued s' /\ world s' = w /\
                  loop_exit M e st (dflt s) (live s) (dflt s') (live s') /\
                  depth s' = depth s /\ guards s' = guards s
    | Leaving vals w => left vals w s d0 l0 Q O c
    | Stopped w => c = CStopped w
    | NoFuel => c = CNoFuel
    end.

  Lemma left_weaken : forall vals w s s' d0 l0 (Q O Q' O' : Prop) c,
    (Q' -> Q) -> (O' -> O) -> depth s' = depth s -> guards s' = guards s ->
    left vals w s' d0 l0 Q O c -> left vals w s d0 l0 Q' O' c.
  Proof.
    intros vals w s s' d0 l0 Q O Q' O' c HQ HO E1 E2. unfold left.
    destruct (effects M (rev (ensures f)) w) as [[] w1]; [|auto].
    destruct (values M (results_of f vals) w1) as [[vs|] w2]; [|auto].
    intros (rs & s2 & A & B & C & D & E & F & G & H).
    exists rs, s2. repeat split; auto; try congruence. intros q. rewrite G by auto. congruence.
  Qed.

  Lemma agrees_weaken : forall e s st d0 l0 (Q O Q' O' : Prop) o c,
    (Q' -> Q) -> (O' -> O) -> agrees e s st d0 l0 Q O o c -> agrees e s st d0 l0 Q' O' o c.
  Proof.
    intros e s st d0 l0 Q O Q' O' o c HQ HO. destruct o; cbn; auto.
    apply left_weaken; auto.
  Qed.

  Lemma agrees_stays : forall e s st d0 l0 (Q O Q' O' : Prop) o c,
    stays M o -> agrees e s st d0 l0 Q O o c -> agrees e s st d0 l0 Q' O' o c.
  Proof. intros e s st d0 l0 Q O Q' O' o c H. destruct o; cbn in *; auto. contradiction. Qed.

  Lemma agrees_trans : forall e e' s s' st d0 l0 (Q O : Prop) o c,
    arenas e' = arenas e -> result e' = result e -> mark e' = mark e ->
    dflt s' = dflt s -> live s' = live s -> depth s' = depth s -> guards s' = guards s ->
    agrees e' s' st d0 l0 Q O o c -> agrees e s st d0 l0 Q O o c.
  Proof.
    intros e e' s s' st d0 l0 Q O o c A B C D E F G. destruct o; cbn; auto.
    - intros (e2 & s2 & H). exists e2, s2. intuition congruence.
    - intros (s2 & H1 & H2 & H3 & H4 & H5). exists s2. rewrite D, E in H3. repeat split; try congruence.
      eapply loop_exit_ext; [|exact H3]. intros; now rewrite A.
    - intros (s2 & H1 & H2 & H3 & H4 & H5). exists s2. rewrite D, E in H3. repeat split; try congruence.
      eapply loop_exit_ext; [|exact H3]. intros; now rewrite A.
    - now apply left_weaken.
  Qed.

  Lemma frame_same : forall e e' fd fl d0 l0,
    arenas e' = arenas e -> result e' = result e -> mark e' = mark e ->
    frame e fd fl d0 l0 -> frame e' fd fl d0 l0.
  Proof. intros e e' fd fl d0 l0 A B C. unfold frame. now rewrite A, B, C. Qed.

  Lemma nested_same : forall e e' st d l fd fl,
    arenas e' = arenas e -> nested M e st d l fd fl -> nested M e' st d l fd fl.
  Proof. intros e e' st d l fd fl A. apply nested_ext. intros. now rewrite A. Qed.

  Definition top_only (st : list scope) (b : bool) : Prop := f_ref f = false \/ (st = [] /\ b = false).

  Definition sim (t : stmt) : Prop := forall inl st d n e s fd fl d0 l0,
    check_statement f inl t = true -> stack_ok st d n -> nested M e st (dflt s) (live s) fd fl ->
    frame e fd fl d0 l0 ->
    agrees e s st d0 l0 (returns_from_each t = false) (top_only st (returns_from_scope t))
           (exec t (world s)) (cseq (fst (emit_statement f t st d n)) e s).

  Definition sims (l : list stmt) (Q O : Prop) (st : list scope) (d : Z) : Prop :=
    forall inl n e s fd fl d0 l0,
    check_block (check_statement f inl) l = true -> stack_ok st d n ->
    nested M e st (dflt s) (live s) fd fl -> frame e fd fl d0 l0 ->
    agrees e s st d0 l0 Q O (seq l (world s))
           (cseq (fst (gens (fun t m => emit_statement f t st d m) l n)) e s).

  Lemma sims_of : forall l (Q O : Prop) st d, Forall sim l ->
    (Q -> some_of returns_from_each l = false) ->
    (O -> top_only st (some_of returns_from_scope l)) -> sims l Q O st d.
  Proof.
    induction l as [|t l IH]; intros Q O st d H HQ HO inl n e s fd fl d0 l0 C K N F.
    - cbn. exists e, s. repeat split; reflexivity.
    - apply Forall_cons_iff in H as [H1 H2]. cbn [check_block] in C. apply andb_true_iff in C as [C1 C2].
      cbn [gens].
      pose proof (emit_mono f t st d n) as Mn.
      pose proof (H1 inl st d n e s fd fl d0 l0 C1 K N F) as A.
      destruct (emit_statement f t st d n) as [c n1]. cbn [fst snd] in *.
      assert (A' : agrees e s st d0 l0 Q O (exec t (world s)) (cseq c e s)).
      { eapply agrees_weaken; [| |exact A].
        - intros q. apply HQ in q. cbn in q. apply orb_false_iff in q. tauto.
        - intros o. apply HO in o. destruct o as [o|[o1 o2]]; [now left|right]. cbn in o2.
          apply orb_false_iff in o2. tauto. }
      clear A. destruct (gens _ l n1) as [c' n2] eqn:EG. cbn [fst]. rewrite cseq_app.
      cbn [FlowSpec.seq].
      destruct (exec t (world s)) as [w|w|w|vals w|w|] eqn:EX.
      + cbn in A'. destruct A' as (e' & s' & A1 & A2 & A3 & A4 & A5 & A6 & A7 & A8 & A9).
        rewrite A1. subst w.
        assert (C3 : check_block (check_statement f inl) l = true).
        { destruct t; try exact C2. discriminate. }
        eapply (agrees_trans e e' s s'); auto.
        replace c' with (fst (gens (fun t m => emit_statement f t st d m) l n1)) by now rewrite EG.
        eapply (IH Q O st d H2) with (inl := inl) (fd := fd) (fl := fl); auto.
        * intros q. apply HQ in q. cbn in q. apply orb_false_iff in q. tauto.
        * intros o. apply HO in o. destruct o as [o|[o1 o2]]; [now left|right]. cbn in o2.
          apply orb_false_iff in o2. tauto.
        * eapply stack_ok_mono; [exact K|lia|exact Mn].
        * rewrite A3, A4. eapply nested_same; [exact A7|exact N].
        * eapply frame_same; [exact A7|exact A8|exact A9|exact F].
      + cbn in *. destruct A' as (s' & -> & A'). exists s'. tauto.
      + cbn in *. destruct A' as (s' & -> & A'). exists s'. tauto.
      + cbn in *. unfold left in *. destruct (effects M (rev (ensures f)) w) as [[] w1]; [|now rewrite A'].
        destruct (values M (results_of f vals) w1) as [[vs|] w2]; [|now rewrite A'].
        destruct A' as (rs & s' & -> & A'). exists rs, s'. tauto.
      + cbn in *. now rewrite A'.
      + cbn in *. now rewrite A'.
  Qed.

  Lemma sims_scope : forall l (Q O : Prop) st d, Forall sim l ->
    (Q -> some_of returns_from_each l = false \/ some_of returns l = false) ->
    (O -> f_ref f = false \/ some_of returns l = false) -> sims l Q O st d.
  Proof.
    intros l Q O st d H HQ HO. destruct (some_of returns l) eqn:R.
    - apply sims_of; auto.
      + intros q. apply HQ in q as [q|q]; [assumption|discriminate].
      + intros o. apply HO in o as [o|o]; [now left|discriminate].
    - intros inl n e s fd fl d0 l0 C K N F. apply agrees_stays with (Q := False) (O := False).
      + now apply never_leaving_list.
      + eapply (sims_of l False False st d); eauto; contradiction.
  Qed.

  (** ** Loop bodies *)
  Definition round_ok e s (d0 : Z) (l0 : list Z) (Q O : Prop) (o : out (W M)) (c : cout M) : Prop :=
    let held w s' := world s' = w /\ dflt s' = dflt s /\ live s' = live s /\
                     depth s' = depth s /\ guards s' = guards s in
    match o with
    | Next w => exists e' s', c = CNext e' s' /\ held w s'
    | Continued w => exists s', c = CContinued s' /\ held w s'
    | Broke w => exists s', c = CBroke s' /\ held w s'
    | Leaving vals w => left vals w s d0 l0 Q O c
    | Stopped w => c = CStopped w
    | NoFuel => c = CNoFuel
    end.

  Lemma outer_run : forall d e s, exists e', cseq (outer_arena d) e s = CNext e' s /\
    (arenas e' = arenas e \/ arenas e' = (Outer, dflt s) :: arenas e) /\
    result e' = result e /\ mark e' = mark e.
  Proof.
    intros d e s. unfold outer_arena. destruct (d =? 0).
    - eexists. cbn. repeat split. now right.
    - exists e. cbn. repeat split. now left.
  Qed.

  (** entering a scratch arena, whichever kind *)
  Lemma enter_scope : forall d e s st n av sv code fd fl d0 l0,
    stack_ok st d n ->
    (av = Iter d /\ sv = IterSaved d \/ av = IfArena n /\ sv = IfSaved n) ->
    nested M e st (dflt s) (live s) fd fl -> frame e fd fl d0 l0 ->
    exists e3 s3,
      cseq (outer_arena d ++ [CNewArena av; CSaveDefault sv; CUseArena av] ++ code) e s =
      cseq code e3 s3 /\
      world s3 = world s /\ dflt s3 = fresh s /\ live s3 = fresh s :: live s /\
      depth s3 = depth s /\ guards s3 = guards s /\
      arena_of av (arenas e3) = Some (fresh s) /\ arena_of sv (arenas e3) = Some (dflt s) /\
      nested M e3 ((av, sv) :: st) (dflt s3) (live s3) fd fl /\ frame e3 fd fl d0 l0 /\
      (forall a b, In (a, b) st -> arena_of a (arenas e3) = arena_of a (arenas e) /\
                                   arena_of b (arenas e3) = arena_of b (arenas e)) /\
      stack_ok ((av, sv) :: st) (d + 1) (n + 1).
  Proof.
    intros d e s st n av sv code fd fl d0 l0 K AV N F.
    destruct (outer_run d e s) as (e1 & X & A1 & R1 & M1).
    rewrite cseq_app, X. cbn [app FlowModel.cseq FlowModel.cexec].
    cbn [arenas declare arena_of].
    assert (AS : avar_eqb av sv = false) by (destruct AV as [[-> ->]|[-> ->]]; reflexivity).
    rewrite AS, avar_eqb_refl.
    set (e3 := declare M sv (dflt (new_live M s)) (declare M av (fresh s) e1)).
    exists e3, (put_dflt M (fresh s) (new_live M s)).
    assert (B : forall a b, In (a, b) st -> arena_of a (arenas e3) = arena_of a (arenas e) /\
                                   arena_of b (arenas e3) = arena_of b (arenas e)).
    { intros a b I. unfold e3.
      assert (D1 : arena_of a (arenas e1) = arena_of a (arenas e) /\ arena_of b (arenas e1) = arena_of b (arenas e)).
      { destruct A1 as [-> | ->]; [auto|].
        exact (stack_ok_declare M st d n Outer (dflt s) e K Logic.I a b I). }
      assert (D2 := stack_ok_declare M st d n av (fresh s) e1 K).
      assert (D3 := stack_ok_declare M st d n sv (dflt (new_live M s)) (declare M av (fresh s) e1) K).
      assert (G1 : match av with Iter k | IterSaved k => d <= k | IfArena k | IfSaved k => n <= k | _ => True end)
        by (destruct AV as [[-> ->]|[-> ->]]; lia).
      assert (G2 : match sv with Iter k | IterSaved k => d <= k | IfArena k | IfSaved k => n <= k | _ => True end)
        by (destruct AV as [[-> ->]|[-> ->]]; lia).
      destruct (D2 G1 a b I) as [Ea Eb]. destruct (D3 G2 a b I) as [Fa Fb].
      destruct D1 as [Da Db]. split; congruence. }
    assert (Ha : arena_of av (arenas e3) = Some (fresh s)).
    { unfold e3. cbn. rewrite AS. now rewrite avar_eqb_refl. }
    assert (Hs : arena_of sv (arenas e3) = Some (dflt s)).
    { unfold e3. cbn. now rewrite avar_eqb_refl. }
    do 8 (split; [first [assumption|reflexivity]|]). split; [|split; [|split; [exact B|]]].
    - econstructor; [exact Ha|exact Hs|]. eapply nested_ext; [|exact N]. exact B.
    - destruct F as [F0 F]. unfold frame. unfold e3. cbn [result mark declare]. rewrite R1. split; [assumption|].
      destruct own; [|assumption]. destruct (f_results f); [now rewrite M1|].
      destruct F as (F1 & F2 & F3). cbn [arenas arena_of declare].
      assert (Y : avar_eqb FuncArena sv = false /\ avar_eqb FuncArena av = false /\
                  avar_eqb FuncSaved sv = false /\ avar_eqb FuncSaved av = false)
        by (destruct AV as [[-> ->]|[-> ->]]; repeat split).
      destruct Y as (-> & -> & -> & ->). destruct A1 as [-> | ->]; cbn; auto.
    - constructor.
      + destruct AV as [[-> ->]|[-> ->]]; lia.
      + eapply stack_ok_mono; [exact K|lia|lia].
  Qed.

  Lemma loop_body_run : forall l (Q O : Prop) st d inl n e s fd fl d0 l0,
    sims l Q O (iter_scope d :: st) (d + 1) ->
    check_block (check_statement f inl) l = true -> stack_ok st d n ->
    nested M e st (dflt s) (live s) fd fl -> frame e fd fl d0 l0 ->
    round_ok e s d0 l0 Q O (seq l (world s))
      (cseq (loop_body d (fst (gens (fun t m => emit_statement f t (iter_scope d :: st) (d + 1) m) l n))) e s).
  Proof.
    intros l Q O st d inl n e s fd fl d0 l0 H C K N F. unfold loop_body.
    edestruct (enter_scope d e s st n (Iter d) (IterSaved d)
                 (fst (gens (fun t m => emit_statement f t (iter_scope d :: st) (d + 1) m) l n) ++
                  [CUseArena (IterSaved d); CDestroy (Iter d)]) fd fl d0 l0 K)
      as (e3 & s3 & X & S1 & S2 & S3 & S4 & S5 & Ha & Hs & N3 & F3 & B & K3); [left; auto|exact N|exact F|].
    rewrite X. rewrite cseq_app.
    assert (A := H inl n e3 s3 fd fl d0 l0 C).
    assert (K4 : stack_ok (iter_scope d :: st) (d + 1) n).
    { constructor; [cbn; lia|]. eapply stack_ok_mono; [exact K|lia|lia]. }
    specialize (A K4 N3 F3). rewrite S1 in A.
    destruct (seq l (world s)) as [w|w|w|vals w|w|]; cbn in A |- *.
    - destruct A as (e4 & s4 & -> & A1 & A2 & A3 & A4 & A5 & A6 & A7 & A8).
      cbn. rewrite A6, Hs. cbn. rewrite A6, Ha. cbn. rewrite A3, S3. cbn. rewrite Z.eqb_refl.
      eexists _, _. split; [reflexivity|]. cbn. repeat split; congruence.
    - destruct A as (s4 & -> & A1 & A2 & A3 & A4). exists s4. split; [reflexivity|].
      rewrite S2, S3 in A2. inversion A2; subst. repeat split; congruence.
    - destruct A as (s4 & -> & A1 & A2 & A3 & A4). exists s4. split; [reflexivity|].
      rewrite S2, S3 in A2. inversion A2; subst. repeat split; congruence.
    - apply (left_weaken vals w s s3 d0 l0 Q O Q O _ (fun q => q) (fun q => q) S4 S5).
      unfold left in *. destruct (effects M (rev (ensures f)) w) as [[] w1]; [|now rewrite A].
      destruct (values M (results_of f vals) w1) as [[vs|] w2]; [|now rewrite A].
      destruct A as (rs & s' & -> & A). exists rs, s'. tauto.
    - now rewrite A.
    - now rewrite A.
  Qed.

  (** ** Rounds of a loop *)
  Definition alike s s' : Prop :=
    dflt s' = dflt s /\ live s' = live s /\ depth s' = depth s /\ guards s' = guards s.

  Lemma round_trans : forall e s s' d0 l0 Q O o c, alike s s' ->
    round_ok e s' d0 l0 Q O o c -> round_ok e s d0 l0 Q O o c.
  Proof.
    intros e s s' d0 l0 Q O o c (A & B & C & D) H. destruct o; cbn in *; auto.
    - destruct H as (e' & s2 & H). exists e', s2. intuition congruence.
    - destruct H as (s2 & H). exists s2. intuition congruence.
    - destruct H as (s2 & H). exists s2. intuition congruence.
    - exact (left_weaken vals w s s' d0 l0 Q O Q O _ (fun q => q) (fun q => q) C D H).
  Qed.

  Lemma rounds_run : forall test step (body : W M -> out (W M)) (cbody : cstate -> cout M) e s0 d0 l0 Q O,
    (forall s, alike s0 s -> round_ok e s d0 l0 Q O (body (world s)) (cbody s)) ->
    forall n s, alike s0 s ->
    match rounds M n (loop_test M test) body
            (fun w => match step with Some c => first_do M c w Next | None => Next w end) (world s) with
    | Next w => exists s', crounds M n test step cbody e s = CNext e s' /\ world s' = w /\ alike s0 s'
    | Leaving vals w => left vals w s0 d0 l0 Q O (crounds M n test step cbody e s)
    | Stopped w => crounds M n test step cbody e s = CStopped w
    | NoFuel => crounds M n test step cbody e s = CNoFuel
    | Broke _ | Continued _ => False
    end.
  Proof.
    intros test step body cbody e s0 d0 l0 Q O H n. induction n as [|n IH]; intros s A; [reflexivity|].
    cbn [rounds crounds].
    destruct (loop_test M test (world s)) as [[[]|] w]; [|exists (put_world M w s); auto|reflexivity].
    assert (A1 : alike s0 (put_world M w s)) by exact A.
    pose proof (H _ A1) as R. cbn [world put_world] in R.
    assert (ST : forall s2, alike s0 s2 ->
      match match match step with Some c => first_do M c (world s2) Next | None => Next (world s2) end with
            | Next w3 => rounds M n (loop_test M test) body
                (fun w => match step with Some c => first_do M c w Next | None => Next w end) w3
            | o => o
            end with
      | Next w => exists s', match step with None => crounds M n test step cbody e s2
                             | Some c => crun M c s2 (crounds M n test step cbody e) end = CNext e s'
                             /\ world s' = w /\ alike s0 s'
      | Leaving vals w => left vals w s0 d0 l0 Q O match step with None => crounds M n test step cbody e s2
                             | Some c => crun M c s2 (crounds M n test step cbody e) end
      | Stopped w => match step with None => crounds M n test step cbody e s2
                             | Some c => crun M c s2 (crounds M n test step cbody e) end = CStopped w
      | NoFuel => match step with None => crounds M n test step cbody e s2
                             | Some c => crun M c s2 (crounds M n test step cbody e) end = CNoFuel
      | Broke _ | Continued _ => False
      end).
    { intros s2 A2. destruct step as [c|]; [|exact (IH s2 A2)].
      unfold first_do, crun. destruct (run M c (world s2)) as [[v|] w3]; [|reflexivity].
      exact (IH (put_world M w3 s2) A2). }
    destruct (body w) as [w2|w2|w2|vals w2|w2|]; cbn in R.
    - destruct R as (e' & s2 & -> & <- & R). apply ST. destruct A1 as (B1 & B2 & B3 & B4).
      cbn in *. unfold alike. intuition congruence.
    - destruct R as (s2 & -> & <- & R). exists s2. repeat split; destruct A1 as (B1 & B2 & B3 & B4); cbn in *; intuition congruence.
    - destruct R as (s2 & -> & <- & R). apply ST. destruct A1 as (B1 & B2 & B3 & B4).
      cbn in *. unfold alike. intuition congruence.
    - destruct A as (B1 & B2 & B3 & B4).
      assert (L : left vals w2 s0 d0 l0 Q O (cbody (put_world M w s))).
      { exact (left_weaken vals w2 s0 (put_world M w s) d0 l0 Q O Q O _ (fun q => q) (fun q => q) B3 B4 R). }
      unfold left in *. destruct (effects M (rev (ensures f)) w2) as [[] w3]; [|now rewrite L].
      destruct (values M (results_of f vals) w3) as [[vs|] w4]; [|now rewrite L].
      destruct L as (rs & s2 & -> & L). exists rs, s2. tauto.
    - now rewrite R.
    - now rewrite R.
  Qed.

  (** ** Arms *)
  Lemma arms_run : forall t test (Q O : Prop) st d inl els ecode arms,
    Forall (fun a => sims (snd a) Q O st d) arms ->
    every_arm (check_block (check_statement f inl)) arms = true ->
    forall n e s fd fl d0 l0,
    (forall c s', ctest_run M (t c) e s' = Some (test c (world s'))) ->
    (forall s', alike s s' ->
       agrees e s' st d0 l0 Q O (match els with Some l => seq l (world s') | None => Next (world s') end)
              (cseq ecode e s')) ->
    stack_ok st d n -> nested M e st (dflt s) (live s) fd fl -> frame e fd fl d0 l0 ->
    agrees e s st d0 l0 Q O (pick M seq test els arms (world s))
      (carms M cseq ecode (fst (gen_arms (fun t m => emit_statement f t st d m) t arms n)) e s).
  Proof.
    intros t test Q O st d inl els ecode arms.
    assert (LS : forall e s d0 l0 o c, agrees e s st d0 l0 Q O o c -> agrees e s st d0 l0 Q O o (leave_scope M e c)).
    { intros e s d0 l0 o c H. destruct o; cbn in *.
      - destruct H as (e' & s' & -> & H). exists e, s'. cbn. tauto.
      - destruct H as (s' & -> & H). exists s'. cbn. tauto.
      - destruct H as (s' & -> & H). exists s'. cbn. tauto.
      - unfold left in *. destruct (effects M (rev (ensures f)) w) as [[] w1]; [|now rewrite H].
        destruct (values M (results_of f vals) w1) as [[vs|] w2]; [|now rewrite H].
        destruct H as (rs & s' & -> & H). exists rs, s'. cbn. tauto.
      - now rewrite H.
      - now rewrite H. }
    induction arms as [|[c b] arms IH]; intros HA C n e s fd fl d0 l0 T E K N F.
    - cbn. apply LS. apply E. repeat split; reflexivity.
    - apply Forall_cons_iff in HA as [H1 H2]. cbn [every_arm] in C. apply andb_true_iff in C as [C1 C2].
      cbn [gen_arms].
      destruct (gens _ b n) as [k n1] eqn:EG.
      assert (Mn : n <= n1).
      { pose proof (gens_mono (fun t m => emit_statement f t st d m) b n) as Q1. rewrite EG in Q1.
        apply Q1. apply list_from. intros; apply emit_mono. }
      destruct (gen_arms _ t arms n1) as [k' n2] eqn:EA. cbn [fst carms pick].
      rewrite T. destruct (test c (world s)) as [[[]|] w]; [| |reflexivity].
      + apply LS. cbn in H1.
        pose proof (H1 inl n e (put_world M w s) fd fl d0 l0 C1 K N F) as A. rewrite EG in A. cbn [fst world put_world] in A.
        eapply agrees_trans; [| | | | | | |exact A]; reflexivity.
      + assert (A : agrees e (put_world M w s) st d0 l0 Q O (pick M seq test els arms (world (put_world M w s)))
                  (carms M cseq ecode (fst (gen_arms (fun t m => emit_statement f t st d m) t arms n1)) e (put_world M w s))).
        { apply (IH H2 C2 n1 e (put_world M w s) fd fl d0 l0); auto.
          eapply stack_ok_mono; [exact K|lia|exact Mn]. }
        rewrite EA in A. cbn [fst] in A. eapply agrees_trans; [| | | | | | |exact A]; reflexivity.
  Qed.

  Lemma named_each : forall c, c <> Computed \/ c = Computed.
  Proof. intros []; auto. left. discriminate. Qed.

  (** a loop whose rounds agree agrees *)
  Lemma loop_agrees : forall test step (body : W M -> out (W M)) (cb : list cstmt) e s st d0 l0 Q O,
    (forall s', alike s s' -> round_ok e s' d0 l0 Q O (body (world s')) (cseq cb e s')) ->
    agrees e s st d0 l0 Q O
      (rounds M fuel (loop_test M test) body
         (fun w => match step with Some c => first_do M c w Next | None => Next w end) (world s))
      (cexec (CLoop test step cb) e s).
  Proof.
    intros test step body cb e s st d0 l0 Q O H. cbn [FlowModel.cexec].
    pose proof (rounds_run test step body (cseq cb e) e s d0 l0 Q O H fuel s) as R.
    assert (A : alike s s) by (repeat split). specialize (R A).
    destruct (rounds M fuel (loop_test M test) body _ (world s)); cbn; try contradiction; try exact R.
    destruct R as (s' & -> & <- & (R1 & R2 & R3 & R4)). exists e, s'. repeat split; assumption.
  Qed.

  Lemma loop_code : forall l (Q O : Prop) st d inl n e s fd fl d0 l0,
    Forall sim l ->
    (Q -> some_of returns_from_each l = false \/ some_of returns l = false) ->
    (O -> f_ref f = false \/ some_of returns l = false) ->
    check_block (check_statement f inl) l = true -> stack_ok st d n ->
    nested M e st (dflt s) (live s) fd fl -> frame e fd fl d0 l0 ->
    forall s', alike s s' ->
    round_ok e s' d0 l0 Q O (seq l (world s'))
      (cseq (loop_body d (fst (gens (fun t m => emit_statement f t (iter_scope d :: st) (d + 1) m) l n))) e s').
  Proof.
    intros l Q O st d inl n e s fd fl d0 l0 H HQ HO C K N F s' (A1 & A2 & A3 & A4).
    eapply loop_body_run; [|exact C|exact K| |exact F].
    - now apply sims_scope.
    - rewrite A1, A2. exact N.
  Qed.

  Lemma act_first : forall a code e s st d0 l0 (Q O : Prop) k,
    (forall s', alike s s' -> agrees e s' st d0 l0 Q O (k (world s')) (cseq code e s')) ->
    agrees e s st d0 l0 Q O (first_do M a (world s) k) (cseq (CRun a :: code) e s).
  Proof.
    intros a code e s st d0 l0 Q O k H. unfold first_do. cbn [FlowModel.cseq FlowModel.cexec]. unfold crun.
    destruct (run M a (world s)) as [[v|] w]; [|reflexivity].
    specialize (H (put_world M w s)). eapply agrees_trans; [| | | | | | |apply H]; repeat split.
  Qed.

  Lemma bind_round : forall a cb e s d0 l0 (Q O : Prop) k,
    (forall s', alike s s' -> round_ok e s' d0 l0 Q O (k (world s')) (cseq cb e s')) ->
    round_ok e s d0 l0 Q O (first_do M a (world s) k) (cseq (CRun a :: cb) e s).
  Proof.
    intros a code e s d0 l0 Q O k H. unfold first_do. cbn [FlowModel.cseq FlowModel.cexec]. unfold crun.
    destruct (run M a (world s)) as [[v|] w]; [|reflexivity].
    specialize (H (put_world M w s)). eapply round_trans; [|apply H]; repeat split.
  Qed.

  Lemma agrees_last : forall c e s st d0 l0 (Q O : Prop) o,
    agrees e s st d0 l0 Q O o (cexec c e s) -> agrees e s st d0 l0 Q O o (cseq [c] e s).
  Proof. intros c e s st d0 l0 Q O o H. cbn [FlowModel.cseq]. now destruct (cexec c e s). Qed.

  Lemma alike_trans : forall s s' s'', alike s s' -> alike s' s'' -> alike s s''.
  Proof. unfold alike. intuition congruence. Qed.

  Theorem simulates : forall t, sim t.
  Proof.
    induction t as [a|vals p|c y o els Hy Ho He|v arms df Ha Hd|a b c l Hl|k a b c d' l Hl|c l Hl|l Hl| | |x|l Hl]
      using stmt_all; intros inl st d n e s fd fl d0 l0 C K N F.
    - (* a piece *)
      cbn [emit_statement fst FlowSpec.exec]. apply act_first. intros s' _. cbn. exists e, s'. repeat split.
    - (* return *)
      cbn [emit_statement fst FlowSpec.exec agrees].
      apply (left_weaken vals (world s) s s d0 l0 True (f_ref f = false \/ st = [])); auto.
      + intros [O|[O _]]; auto.
      + eapply return_run; [exact C|exact N|exact F].
    - (* if *)
      cbn [check_statement] in C. apply andb_true_iff in C as [C C3]. apply andb_true_iff in C as [C1 C2].
      set (Q := returns_from_each (If c y o els) = false).
      set (O := top_only st (returns_from_scope (If c y o els))).
      assert (HQ : Q -> some_of returns_from_each y = false /\ some_arm returns_from_each o = false /\
                        some_opt returns_from_each els = false).
      { unfold Q. cbn [returns_from_each]. intros q. apply orb_false_iff in q as [q q3].
        apply orb_false_iff in q as [q1 q2]. auto. }
      assert (HO : O -> f_ref f = false \/ (some_of returns y = false /\ some_arm returns o = false /\
                        some_opt returns els = false)).
      { unfold O, top_only. cbn [returns_from_scope]. intros [q|[_ q]]; [now left|right].
        apply orb_false_iff in q as [q q3]. apply orb_false_iff in q as [q1 q2]. auto. }
      clearbody Q O. set (sc := (IfArena n, IfSaved n) : scope).
      assert (Sy : sims y Q O (sc :: st) (d + 1)).
      { apply sims_scope; [exact Hy| |]; intros q; [left; now apply HQ|].
        apply HO in q. tauto. }
      assert (So : Forall (fun a => sims (snd a) Q O (sc :: st) (d + 1)) o).
      { assert (Q2 : Q -> some_arm returns_from_each o = false) by (intros q; now apply HQ).
        assert (O2 : O -> f_ref f = false \/ some_arm returns o = false) by (intros q; apply HO in q; tauto).
        clear - Ho Q2 O2. induction o as [|[x b] o IH]; [constructor|].
        apply Forall_cons_iff in Ho as [H1 H2]. cbn [some_arm] in *. constructor.
        - apply sims_scope; [exact H1| |]; intros q.
          + left. apply Q2 in q. apply orb_false_iff in q. tauto.
          + apply O2 in q. rewrite orb_false_iff in q. tauto.
        - apply IH; [exact H2| |]; intros q.
          + apply Q2 in q. apply orb_false_iff in q. tauto.
          + apply O2 in q. rewrite orb_false_iff in q. tauto. }
      cbn [emit_statement].
      match goal with |- context [gens ?g y (n + 1)] => set (g0 := g) end.
      destruct (gens g0 y (n + 1)) as [ky n1] eqn:Ey.
      destruct (gen_arms _ TestRun o n1) as [ko n2] eqn:Eo.
      destruct (gen_else _ els n2) as [ke n3] eqn:Ee. cbn [fst].
      assert (M1 : n + 1 <= n1).
      { pose proof (gens_mono g0 y (n + 1)) as G. rewrite Ey in G. apply G. apply list_from. intros; apply emit_mono. }
      assert (M2 : n1 <= n2).
      { pose proof (gen_arms_mono g0 TestRun o n1) as G. rewrite Eo in G. apply G. apply Forall_forall. intros b _. apply list_from. intros; apply emit_mono. }
      rewrite block_run.
      edestruct (enter_scope d e s st n (IfArena n) (IfSaved n)
                   [CIf ((TestRun c, ky) :: ko) ke; CUseArena (IfSaved n); CDestroy (IfArena n)] fd fl d0 l0 K)
        as (e3 & s3 & X & S1 & S2 & S3 & S4 & S5 & Ea & Es & N3 & F3 & B & K3); [right; auto|exact N|exact F|].
      cbn [app] in X |- *. rewrite X.
      assert (A : agrees e3 s3 (sc :: st) d0 l0 Q O (exec (If c y o els) (world s))
                         (cexec (CIf ((TestRun c, ky) :: ko) ke) e3 s3)).
      { assert (A : agrees e3 s3 (sc :: st) d0 l0 Q O (pick M seq (holds M) els ((c, y) :: o) (world s3))
                      (carms M cseq ke (fst (gen_arms g0 TestRun ((c, y) :: o) (n + 1))) e3 s3)).
        { apply arms_run with (inl := inl) (fd := fd) (fl := fl); auto.
          - cbn [every_arm]. now rewrite C1.
          - intros s' (B1 & B2 & B3 & B4). destruct els as [l|].
            + cbn [gen_else] in Ee. cbn [some_opt] in *.
              assert (Sl : sims l Q O (sc :: st) (d + 1)).
              { apply sims_scope; [exact He| |]; intros q; [left; now apply HQ|].
                apply HO in q. tauto. }
              specialize (Sl inl n2 e3 s' fd fl d0 l0 C3). change (gens _ l n2) with (gens g0 l n2) in Sl. rewrite Ee in Sl. cbn [fst] in Sl.
              apply Sl; [|rewrite B1, B2; exact N3|exact F3].
              eapply stack_ok_mono; [exact K3|lia|lia].
            + cbn in Ee. injection Ee as <- <-. cbn. exists e3, s'. repeat split. }
        cbn [gen_arms] in A. rewrite Ey, Eo in A. cbn [fst] in A. rewrite S1 in A.
        exact A. }
      clear X. cbn [FlowModel.cseq].
      destruct (exec (If c y o els) (world s)) as [w|w|w|vals w|w|]; cbn [agrees] in A |- *.
      + destruct A as (e4 & s4 & -> & A1 & A2 & A3 & A4 & A5 & A6 & A7 & A8).
        cbn. rewrite A6, Es. cbn. rewrite A6, Ea. cbn. rewrite A3, S3. cbn. rewrite Z.eqb_refl.
        eexists _, _. split; [reflexivity|]. cbn. repeat split; congruence.
      + destruct A as (s4 & -> & A1 & A2 & A3 & A4). exists s4. split; [reflexivity|].
        rewrite S2, S3 in A2. inversion A2; subst. repeat split; try congruence.
        replace d' with (dflt s) in * by congruence.
        eapply loop_exit_ext; [|eassumption]. intros x z I. destruct (B _ _ I). split; congruence.
      + destruct A as (s4 & -> & A1 & A2 & A3 & A4). exists s4. split; [reflexivity|].
        rewrite S2, S3 in A2. inversion A2; subst. repeat split; try congruence.
        replace d' with (dflt s) in * by congruence.
        eapply loop_exit_ext; [|eassumption]. intros x z I. destruct (B _ _ I). split; congruence.
      + apply (left_weaken vals w s s3 d0 l0 Q O Q O _ (fun q => q) (fun q => q) S4 S5).
        unfold left in *. destruct (effects M (rev (ensures f)) w) as [[] w1]; [|now rewrite A].
        destruct (values M (results_of f vals) w1) as [[vs|] w2]; [|now rewrite A].
        destruct A as (rs & s' & -> & A). exists rs, s'. tauto.
      + now rewrite A.
      + now rewrite A.
    - (* when *)
      cbn [check_statement] in C. apply andb_true_iff in C as [C1 C2].
      set (Q := returns_from_each (When v arms df) = false).
      set (O := top_only st (returns_from_scope (When v arms df))).
      assert (HQ : Q -> some_arm returns_from_each arms = false /\ some_opt returns_from_each df = false).
      { unfold Q. cbn [returns_from_each]. intros q. now apply orb_false_iff in q. }
      assert (HO : O -> top_only st (some_arm returns_from_scope arms) /\ top_only st (some_opt returns_from_scope df)).
      { unfold O, top_only. cbn [returns_from_scope]. rewrite orb_false_iff. tauto. }
      clearbody Q O.
      assert (So : Forall (fun a => sims (snd a) Q O st d) arms).
      { assert (Q2 : Q -> some_arm returns_from_each arms = false) by (intros q; now apply HQ).
        assert (O2 : O -> top_only st (some_arm returns_from_scope arms)) by (intros q; now apply HO).
        clear - Ha Q2 O2. induction arms as [|[x b] o IH]; [constructor|].
        apply Forall_cons_iff in Ha as [H1 H2]. cbn [some_arm] in *. unfold top_only in *. constructor.
        - apply sims_of; [exact H1| |]; intros q.
          + apply Q2 in q. apply orb_false_iff in q. tauto.
          + apply O2 in q. rewrite orb_false_iff in q. unfold top_only. tauto.
        - apply IH; [exact H2| |]; intros q.
          + apply Q2 in q. apply orb_false_iff in q. tauto.
          + apply O2 in q. rewrite orb_false_iff in q. tauto. }
      cbn [emit_statement FlowSpec.exec].
      destruct (gen_arms _ (TestCase n) arms (n + 1)) as [ko n2] eqn:Eo.
      destruct (gen_else _ df n2) as [ke n3] eqn:Ee. cbn [fst FlowModel.cseq FlowModel.cexec].
      destruct (run M v (world s)) as [[x|] w]; [|reflexivity].
      assert (M2 : n + 1 <= n2).
      { pose proof (gen_arms_mono (fun t m => emit_statement f t st d m) (TestCase n) arms (n + 1)) as G.
        rewrite Eo in G. apply G. apply Forall_forall. intros b _. apply list_from. intros; apply emit_mono. }
      set (e1 := put_when M n x e). set (s1 := put_world M w s).
      assert (A : agrees e1 s1 st d0 l0 Q O (pick M seq (matches M x) df arms (world s1))
                    (carms M cseq ke (fst (gen_arms (fun t m => emit_statement f t st d m) (TestCase n) arms (n + 1))) e1 s1)).
      { assert (N1 : nested M e1 st (dflt s1) (live s1) fd fl) by (eapply nested_same; [|exact N]; reflexivity).
        assert (F1 : frame e1 fd fl d0 l0) by (eapply frame_same; [| | |exact F]; reflexivity).
        apply arms_run with (inl := inl) (fd := fd) (fl := fl); auto.
        - intros c s'. cbn. now rewrite Z.eqb_refl.
        - intros s' (B1 & B2 & B3 & B4). destruct df as [l|].
          + cbn [gen_else] in Ee. cbn [some_opt] in *.
            assert (Sl : sims l Q O st d).
            { apply sims_of; [exact Hd| |]; intros q; [now apply HQ|now apply HO]. }
            specialize (Sl inl n2 e1 s' fd fl d0 l0 C2). rewrite Ee in Sl. cbn [fst] in Sl.
            apply Sl; [|rewrite B1, B2; exact N1|exact F1].
            eapply stack_ok_mono; [exact K|lia|lia].
          + cbn in Ee. injection Ee as <- <-. cbn. exists e1, s'. repeat split.
        - eapply stack_ok_mono; [exact K|lia|lia]. }
      rewrite Eo in A. cbn [fst] in A.
      eapply (agrees_trans e e1 s s1); try reflexivity.
      destruct (carms M cseq ke ko e1 s1); exact A.
    - (* for *)
      cbn [check_statement] in C. cbn [emit_statement].
      destruct (gens _ l n) as [kl n1] eqn:El. cbn [fst FlowSpec.exec].
      apply act_first. intros s' A'. apply agrees_last.
      pose proof (loop_agrees (Some b) (Some c) (seq l) (loop_body d kl) e s' st d0 l0
        (returns_from_each (For a b c l) = false) (top_only st (returns_from_scope (For a b c l)))) as LA.
      cbn [loop_test] in LA. apply LA. intros s'' A''.
      replace kl with (fst (gens (fun t m => emit_statement f t (iter_scope d :: st) (d + 1) m) l n)) by now rewrite El.
      eapply loop_code with (s := s); [exact Hl| | |exact C|exact K|exact N|exact F|eapply alike_trans; eassumption].
      + cbn [returns_from_each]. auto.
      + unfold top_only. cbn [returns_from_scope]. tauto.
    - (* for_each *)
      cbn [check_statement] in C. cbn [emit_statement].
      destruct (gens _ l n) as [kl n1] eqn:El. cbn [fst FlowSpec.exec].
      set (Q := returns_from_each (ForEach k a b c d' l) = false).
      set (O := top_only st (returns_from_scope (ForEach k a b c d' l))).
      assert (HO : O -> f_ref f = false \/ some_of returns l = false).
      { unfold O, top_only. cbn [returns_from_scope]. tauto. }
      assert (LP : forall Q' : Prop, (Q' -> some_of returns_from_each l = false \/ some_of returns l = false) ->
        forall s', dflt s' = dflt s -> live s' = live s ->
        agrees e s' st d0 l0 Q' O
          (rounds M fuel (holds M b) (fun w => first_do M c w (seq l)) (fun w => first_do M d' w Next) (world s'))
          (cexec (CLoop (Some b) (Some d') (CRun c :: loop_body d kl)) e s')).
      { intros Q' HQ s' A1 A2.
        pose proof (loop_agrees (Some b) (Some d') (fun w => first_do M c w (seq l)) (CRun c :: loop_body d kl) e s' st d0 l0 Q' O) as LA.
        cbn [loop_test] in LA. apply LA. intros s'' A''. apply bind_round. intros s3 A3.
        replace kl with (fst (gens (fun t m => emit_statement f t (iter_scope d :: st) (d + 1) m) l n)) by now rewrite El.
        eapply loop_code with (s := s'); [exact Hl|exact HQ|exact HO|exact C|exact K|rewrite A1, A2; exact N|exact F|eapply alike_trans; eassumption]. }
      destruct k as [k|].
      + cbn [fst]. apply act_first. intros s' (A1 & A2 & A3 & A4).
        cbn [FlowModel.cseq]. change (cexec (CGuardUp k) e s') with (CNext e (put_guards M (k :: guards s') s')).
        cbv iota beta.
        specialize (LP Q). specialize (LP (fun q => or_intror q) (put_guards M (k :: guards s') s') A1 A2).
        cbn [world put_guards] in LP.
        destruct (rounds M fuel (holds M b) _ _ (world s')) as [w|w|w|vals w|w|] eqn:ER; cbn [agrees] in LP |- *.
        * destruct LP as (e2 & s2 & -> & B1 & B2 & B3 & B4 & B5 & B6 & B7 & B8).
          cbn in B5. cbn. rewrite B5. cbn. rewrite Z.eqb_refl.
          eexists _, _. split; [reflexivity|]. cbn. repeat split; assumption.
        * destruct LP as (s2 & -> & B1 & B2 & B3 & B4). exfalso. revert ER.
          assert (G : forall m w0 w1, rounds M m (holds M b) (fun w => first_do M c w (seq l)) (fun w => first_do M d' w Next) w0 <> Broke w1).
          { clear. induction m as [|m IH]; intros w0 w1; cbn [rounds]; [discriminate|].
            destruct (holds M b w0) as [[[]|] w2]; try discriminate.
            destruct (first_do M c w2 (seq l)); try discriminate; unfold first_do;
              destruct (run M d' w) as [[v|] w3]; try discriminate; apply IH. }
          apply G.
        * destruct LP as (s2 & -> & B1 & B2 & B3 & B4). exfalso. revert ER.
          assert (G : forall m w0 w1, rounds M m (holds M b) (fun w => first_do M c w (seq l)) (fun w => first_do M d' w Next) w0 <> Continued w1).
          { clear. induction m as [|m IH]; intros w0 w1; cbn [rounds]; [discriminate|].
            destruct (holds M b w0) as [[[]|] w2]; try discriminate.
            destruct (first_do M c w2 (seq l)); try discriminate; unfold first_do;
              destruct (run M d' w) as [[v|] w3]; try discriminate; apply IH. }
          apply G.
        * assert (R : some_of returns l = true).
          { destruct (some_of returns l) eqn:R; [reflexivity|exfalso].
            assert (G : forall w, stays M (rounds M fuel (holds M b) (fun w => first_do M c w (seq l)) (fun w => first_do M d' w Next) w)).
            { apply rounds_stays; intros w0; apply first_do_stays; [now apply never_leaving_list|intros; exact I]. }
            specialize (G (world s')). rewrite ER in G. exact G. }
          assert (NQ : Q -> False) by (unfold Q; cbn [returns_from_each]; congruence).
          unfold left in *. destruct (effects M (rev (ensures f)) w) as [[] w1]; [|now rewrite LP].
          destruct (values M (results_of f vals) w1) as [[vs|] w2]; [|now rewrite LP].
          destruct LP as (rs & s2 & -> & LP). cbn [depth put_guards] in LP. exists rs, s2.
          split; [reflexivity|]. intuition auto.
        * now rewrite LP.
        * now rewrite LP.
      + cbn [fst]. apply act_first. intros s' (A1 & A2 & A3 & A4). apply agrees_last.
        apply LP; [|exact A1|exact A2]. unfold Q. cbn [returns_from_each]. auto.
    - (* while *)
      cbn [check_statement] in C. apply andb_true_iff in C as [_ C]. cbn [emit_statement].
      destruct (gens _ l n) as [kl n1] eqn:El. cbn [fst FlowSpec.exec]. apply agrees_last.
      pose proof (loop_agrees (Some c) None (seq l) (loop_body d kl) e s st d0 l0
        (returns_from_each (While c l) = false) (top_only st (returns_from_scope (While c l)))) as LA.
      cbn [loop_test] in LA. apply LA. intros s'' A''.
      replace kl with (fst (gens (fun t m => emit_statement f t (iter_scope d :: st) (d + 1) m) l n)) by now rewrite El.
      eapply loop_code with (s := s); [exact Hl| | |exact C|exact K|exact N|exact F|exact A''].
      + cbn [returns_from_each]. auto.
      + unfold top_only. cbn [returns_from_scope]. tauto.
    - (* loop *)
      cbn [check_statement] in C. apply andb_true_iff in C as [_ C]. cbn [emit_statement].
      destruct (gens _ l n) as [kl n1] eqn:El. cbn [fst FlowSpec.exec]. apply agrees_last.
      pose proof (loop_agrees None None (seq l) (loop_body d kl) e s st d0 l0
        (returns_from_each (Loop l) = false) (top_only st (returns_from_scope (Loop l)))) as LA.
      cbn [loop_test] in LA. apply LA. intros s'' A''.
      replace kl with (fst (gens (fun t m => emit_statement f t (iter_scope d :: st) (d + 1) m) l n)) by now rewrite El.
      eapply loop_code with (s := s); [exact Hl| | |exact C|exact K|exact N|exact F|exact A''].
      + cbn [returns_from_each]. auto.
      + unfold top_only. cbn [returns_from_scope]. tauto.
    - (* break *)
      cbn [emit_statement fst FlowSpec.exec agrees]. rewrite cseq_app.
      destruct (loop_unwind_run M fuel e st d n (dflt s) (live s) fd fl K N) as (d1 & l1 & E & R).
      rewrite (R s eq_refl eq_refl). cbn. eexists. split; [reflexivity|]. cbn. repeat split. exact E.
    - (* continue *)
      cbn [emit_statement fst FlowSpec.exec agrees]. rewrite cseq_app.
      destruct (loop_unwind_run M fuel e st d n (dflt s) (live s) fd fl K N) as (d1 & l1 & E & R).
      rewrite (R s eq_refl eq_refl). cbn. eexists. split; [reflexivity|]. cbn. repeat split. exact E.
    - (* ensure *)
      cbn. exists e, s. repeat split.
    - (* block *)
      cbn [check_statement] in C. cbn [emit_statement FlowSpec.exec].
      eapply sims_of; [exact Hl| | |exact C|exact K|exact N|exact F]; auto.
  Qed.
End simulation.
