(** Whole functions: how a call ends, what the checker promises, and logs. *)
From Coq Require Import ZArith List Bool Lia.
From Verif Require Import Base FlowSpec FlowModel FlowProofs FlowProofs2.
Import ListNotations.
Local Open Scope Z_scope.

(** ** break and continue stay inside loops *)
Section placed.
  Context (M : machine) (fuel : nat).
  Definition placed (o : out (W M)) : Prop := match o with Broke _ | Continued _ => False | _ => True end.
  Definition unbroken (o : out (W M)) : Prop := match o with Broke _ => False | _ => True end.
  Definition goes_on (o : out (W M)) : Prop := match o with Next _ => True | _ => False end.

  Lemma rounds_placed : forall test body step, (forall w, placed (step w)) ->
    forall n w, placed (rounds M n test body step w).
  Proof.
    intros test body step H n. induction n as [|n IH]; intros w; [exact I|].
    cbn [rounds]. destruct (test w) as [[[]|] w']; try exact I.
    destruct (body w') as [w2|w2|w2|v w2|w2|]; try exact I;
      specialize (H w2); destruct (step w2); try exact I; try exact H; apply IH.
  Qed.

  Lemma first_placed : forall a w k, (forall w, placed (k w)) -> placed (first_do M a w k).
  Proof. intros a w k H. unfold first_do. destruct (run M a w) as [[v|] w']; [apply H|exact I]. Qed.

  Lemma first_next : forall a w, placed (first_do M a w Next).
  Proof. intros a w. apply first_placed. intros; exact I. Qed.

  Lemma placed_list : forall f l, Forall (fun s => check_statement f false s = true -> forall w, placed (exec M fuel s w)) l ->
    check_block (check_statement f false) l = true -> forall w, placed (seq M (exec M fuel) l w).
  Proof.
    intros f l. induction l as [|s l IH]; intros H C w; [exact I|].
    apply Forall_cons_iff in H as [H1 H2]. cbn [check_block] in C. apply andb_true_iff in C as [C1 C2].
    cbn [seq]. specialize (H1 C1 w). destruct (exec M fuel s w) eqn:E; try exact H1; try exact I.
    apply IH; [exact H2|]. destruct s; try exact C2. discriminate.
  Qed.

  Lemma placed_arms : forall f test els arms,
    Forall (fun a => Forall (fun s => check_statement f false s = true -> forall w, placed (exec M fuel s w)) (snd a)) arms ->
    match els with Some l => Forall (fun s => check_statement f false s = true -> forall w, placed (exec M fuel s w)) l | None => True end ->
    every_arm (check_block (check_statement f false)) arms = true ->
    match els with Some l => check_block (check_statement f false) l | None => true end = true ->
    forall w, placed (pick M (seq M (exec M fuel)) test els arms w).
  Proof.
    intros f test els arms. induction arms as [|[c b] arms IH]; intros H1 H2 C1 C2 w.
    - cbn. destruct els as [l|]; [|exact I]. now apply (placed_list f).
    - apply Forall_cons_iff in H1 as [H1 H3]. cbn [every_arm] in C1. apply andb_true_iff in C1 as [C1 C3].
      cbn [pick]. destruct (test c w) as [[[]|] w']; [|now apply IH|exact I].
      now apply (placed_list f).
  Qed.

  Lemma placed_statement : forall f s, check_statement f false s = true -> forall w, placed (exec M fuel s w).
  Proof.
    intros f.
    induction s as [a|vals p|c y o els Hy Ho He|v arms df Ha Hd|a b c l Hl|k a b c d' l Hl|c l Hl|l Hl| | |x|l Hl]
      using stmt_all; intros C w; cbn [exec check_statement] in *; try exact I; try discriminate.
    - apply first_next.
    - apply andb_true_iff in C as [C C3]. apply andb_true_iff in C as [C1 C2].
      destruct (holds M c w) as [[[]|] w']; [now apply (placed_list f)|now apply (placed_arms f)|exact I].
    - apply andb_true_iff in C as [C1 C2].
      destruct (run M v w) as [[x|] w']; [now apply (placed_arms f)|exact I].
    - apply first_placed. intros w0. apply rounds_placed. intros; apply first_next.
    - apply first_placed. intros w0. apply rounds_placed. intros; apply first_next.
    - apply rounds_placed. intros; exact I.
    - apply rounds_placed. intros; exact I.
    - now apply (placed_list f).
  Qed.

  Lemma body_placed : forall f, accepted f = true -> forall w, placed (body_ends M fuel f w).
  Proof.
    intros f A w. unfold accepted in A. apply andb_true_iff in A as [A _]. apply andb_true_iff in A as [A _].
    unfold body_ends. apply (placed_list f); [|exact A]. apply list_from. apply placed_statement.
  Qed.

  (** ** every path returns *)
  Lemma unbroken_list : forall l, Forall (fun s => breaks s = false -> forall w, unbroken (exec M fuel s w)) l ->
    some_of breaks l = false -> forall w, unbroken (seq M (exec M fuel) l w).
  Proof.
    induction l as [|s l IH]; intros H R w; [exact I|].
    apply Forall_cons_iff in H as [H1 H2]. cbn in R. apply orb_false_iff in R as [R1 R2].
    cbn [seq]. specialize (H1 R1 w). destruct (exec M fuel s w); try exact H1; try exact I.
    now apply IH.
  Qed.

  Lemma unbroken_arms : forall test els arms,
    Forall (fun a => Forall (fun s => breaks s = false -> forall w, unbroken (exec M fuel s w)) (snd a)) arms ->
    match els with Some l => Forall (fun s => breaks s = false -> forall w, unbroken (exec M fuel s w)) l | None => True end ->
    some_arm breaks arms = false -> some_opt breaks els = false ->
    forall w, unbroken (pick M (seq M (exec M fuel)) test els arms w).
  Proof.
    intros test els arms. induction arms as [|[c b] arms IH]; intros H1 H2 R1 R2 w.
    - cbn. destruct els as [l|]; [|exact I]. now apply unbroken_list.
    - apply Forall_cons_iff in H1 as [H1 H3]. cbn in R1. apply orb_false_iff in R1 as [R1 R3].
      cbn [pick]. destruct (test c w) as [[[]|] w']; [|now apply IH|exact I].
      now apply unbroken_list.
  Qed.

  Lemma placed_unbroken : forall o, placed o -> unbroken o.
  Proof. intros []; cbn; auto. Qed.

  Lemma unbroken_statement : forall s, breaks s = false -> forall w, unbroken (exec M fuel s w).
  Proof.
    induction s as [a|vals p|c y o els Hy Ho He|v arms df Ha Hd|a b c l Hl|k a b c d' l Hl|c l Hl|l Hl| | |x|l Hl]
      using stmt_all; intros R w; cbn [exec breaks] in *; try exact I; try discriminate.
    - apply placed_unbroken, first_next.
    - apply orb_false_iff in R as [R R3]. apply orb_false_iff in R as [R1 R2].
      destruct (holds M c w) as [[[]|] w']; [now apply unbroken_list|now apply unbroken_arms|exact I].
    - apply orb_false_iff in R as [R1 R2].
      destruct (run M v w) as [[x|] w']; [now apply unbroken_arms|exact I].
    - apply placed_unbroken, first_placed. intros w0. apply rounds_placed. intros; apply first_next.
    - apply placed_unbroken, first_placed. intros w0. apply rounds_placed. intros; apply first_next.
    - apply placed_unbroken, rounds_placed. intros; exact I.
    - apply placed_unbroken, rounds_placed. intros; exact I.
    - now apply unbroken_list.
  Qed.

  Lemma endless : forall body n, (forall w, unbroken (body w)) ->
    forall w, ~ goes_on (rounds M n (fun w => (Some true, w)) body Next w).
  Proof.
    intros body n H. induction n as [|n IH]; intros w; [cbn; auto|].
    cbn [rounds]. specialize (H w). destruct (body w); cbn; auto.
  Qed.

  Definition leaves (s : stmt) : Prop :=
    all_paths_return s = true -> broken_loop s = false -> forall w, ~ goes_on (exec M fuel s w).

  Lemma leaves_block : forall l, Forall leaves l ->
    has_return_stmt l || last_of all_paths_return l = true -> some_of broken_loop l = false ->
    forall w, ~ goes_on (seq M (exec M fuel) l w).
  Proof.
    induction l as [|s l IH]; intros H A R w; [discriminate|].
    apply Forall_cons_iff in H as [H1 H2]. cbn [some_of] in R. apply orb_false_iff in R as [R1 R2].
    cbn [seq]. destruct (exec M fuel s w) as [w'| | | | |] eqn:E; cbn; auto.
    destruct l as [|t l].
    - assert (P : all_paths_return s = true). { destruct s; cbn in A |- *; auto. }
      exfalso. apply (H1 P R1 w). now rewrite E.
    - apply (IH H2); [|exact R2].
      destruct s; try exact A. discriminate.
  Qed.

  Lemma leaves_arms : forall test e arms, Forall (fun a => Forall leaves (snd a)) arms -> Forall leaves e ->
    every_arm (fun l => has_return_stmt l || last_of all_paths_return l) arms = true ->
    has_return_stmt e || last_of all_paths_return e = true ->
    some_arm broken_loop arms = false -> some_of broken_loop e = false ->
    forall w, ~ goes_on (pick M (seq M (exec M fuel)) test (Some e) arms w).
  Proof.
    intros test e arms. induction arms as [|[c b] arms IH]; intros H1 H2 C1 C2 R1 R2 w.
    - cbn. now apply leaves_block.
    - apply Forall_cons_iff in H1 as [H1 H3]. cbn [every_arm] in C1. apply andb_true_iff in C1 as [C1 C3].
      cbn [some_arm] in R1. apply orb_false_iff in R1 as [R1 R3].
      cbn [pick]. destruct (test c w) as [[[]|] w']; [now apply leaves_block|now apply IH|cbn; auto].
  Qed.

  Lemma leaves_statement : forall s, leaves s.
  Proof.
    unfold leaves.
    induction s as [a|vals p|c y o els Hy Ho He|v arms df Ha Hd|a b c l Hl|k a b c d' l Hl|c l Hl|l Hl| | |x|l Hl]
      using stmt_all; intros A R w; cbn [exec all_paths_return broken_loop] in *; try discriminate.
    - cbn; auto.
    - destruct els as [e|]; [|discriminate].
      apply andb_true_iff in A as [A A3]. apply andb_true_iff in A as [A1 A2].
      apply orb_false_iff in R as [R R3]. apply orb_false_iff in R as [R1 R2].
      destruct (holds M c w) as [[[]|] w']; [now apply leaves_block|now apply leaves_arms|cbn; auto].
    - destruct df as [e|]; [|discriminate].
      apply andb_true_iff in A as [A1 A2]. apply orb_false_iff in R as [R1 R2].
      destruct (run M v w) as [[x|] w']; [now apply leaves_arms|cbn; auto].
    - apply endless. intros w0. apply unbroken_list; [|exact R]. apply list_from. apply unbroken_statement.
    - now apply leaves_block.
  Qed.

  Lemma body_leaves : forall f, accepted f = true -> f_results f <> [] -> has_named f = false ->
    some_of broken_loop (f_body f) = false -> forall w, ~ goes_on (body_ends M fuel f w).
  Proof.
    intros f A E N R w. unfold accepted in A. apply andb_true_iff in A as [_ A].
    destruct (f_results f) as [|t ts]; [congruence|]. change (length (t :: ts) =? 0)%nat with false in A.
    cbv iota in A. rewrite N in A. cbn [negb] in A. rewrite andb_true_r in A.
    destruct (any block_has_return (f_body f)); [|discriminate]. cbn [negb] in A.
    rewrite andb_true_l, negb_involutive in A.
    exact (leaves_statement (Block (f_body f)) A R w).
  Qed.
End placed.

(** ** A call *)
Section calls.
  Context (M : machine) (fuel : nat) (f : func).
  Notation cexec := (cexec M fuel).
  Notation cseq := (cseq M cexec).

  Definition usual : Prop := sensible f /\ accepted f = true.

  Definition restored (s s' : cstate M) : Prop :=
    dflt s' = dflt s /\ live s' = live s /\ depth s' = depth s.

  Definition call_ok (s : cstate M) (c : cout M) : Prop :=
    match body_ends M fuel f (world s) with
    | Next w =>
        match effects M (rev (ensures f)) w with
        | (true, w') => exists e' s', c = CNext e' s' /\ world s' = w' /\ restored s s' /\ guards s' = guards s
        | (false, w') => c = CStopped w'
        end
    | Leaving vals w =>
        match effects M (rev (ensures f)) w with
        | (false, w1) => c = CStopped w1
        | (true, w1) =>
            match values M (results_of f vals) w1 with
            | (None, w2) => c = CStopped w2
            | (Some vs, w2) => exists rs s', c = CReturned rs s' /\ map fst rs = vs /\ world s' = w2 /\
                restored s s' /\ (some_of returns_from_each (f_body f) = false -> guards s' = guards s) /\
                (f_ref f = false \/ some_of returns_from_scope (f_body f) = false -> owned M f (dflt s) rs)
            end
        end
    | Stopped w => c = CStopped w
    | NoFuel => c = CNoFuel
    | Broke _ | Continued _ => False
    end.

  Lemma call_run : usual -> forall n s, depth s < MAX_CALL_DEPTH -> call_ok s (compiled M fuel f n s).
  Proof.
    intros (HF & HA) n s HD. unfold compiled, emit_function.
    destruct (gens _ (f_body f) n) as [code n1] eqn:EG. cbn [fst].
    set (void := (length (f_results f) =? 0)%nat).
    assert (PRE : exists e1 s1 fd fl,
      cseq (if negb (f_main f) && negb (f_ref f) then
              if void then [CMark] else [CNewArena FuncArena; CSaveDefault FuncSaved; CUseArena FuncArena]
            else []) (no_env M) s = CNext e1 s1 /\
      world s1 = world s /\ dflt s1 = fd /\ live s1 = fl /\ depth s1 = depth s /\ guards s1 = guards s /\
      frame M f e1 fd fl (dflt s) (live s)).
    { unfold frame, own. fold void.
      destruct (negb (f_main f) && negb (f_ref f)).
      - unfold void. destruct (f_results f); cbn.
        + eexists _, _, _, _. repeat split.
        + eexists _, _, _, _. repeat split.
      - eexists _, _, _, _. repeat split. }
    destruct PRE as (e1 & s1 & fd & fl & P0 & P1 & P2 & P3 & P4 & P5 & FR).
    rewrite cseq_app, P0. rewrite cseq_app.
    assert (EN : cseq [CEnter] e1 s1 = CNext e1 (put_depth M (depth s1 + 1) s1)).
    { cbn. destruct (MAX_CALL_DEPTH <? depth s1 + 1) eqn:Q; [lia|reflexivity]. }
    rewrite EN. set (s2 := put_depth M (depth s1 + 1) s1).
    rewrite cseq_app.
    assert (CB : check_block (check_statement f false) (f_body f) = true).
    { unfold accepted in HA. apply andb_true_iff in HA as [HA _]. now apply andb_true_iff in HA as [HA _]. }
    pose proof (sims_of M fuel f (f_body f) (some_of returns_from_each (f_body f) = false)
                  (f_ref f = false \/ some_of returns_from_scope (f_body f) = false) [] 0) as SM.
    assert (A : agrees M f e1 s2 [] (dflt s) (live s) (some_of returns_from_each (f_body f) = false)
                  (f_ref f = false \/ some_of returns_from_scope (f_body f) = false)
                  (body_ends M fuel f (world s)) (cseq code e1 s2)).
    { replace code with (fst (gens (fun t m => emit_statement f t [] 0 m) (f_body f) n)) by now rewrite EG.
      rewrite <- P1. change (world s1) with (world s2). unfold body_ends.
      apply SM with (inl := false) (fd := fd) (fl := fl).
      - apply list_from. intros t. now apply simulates.
      - auto.
      - unfold top_only. tauto.
      - exact CB.
      - constructor.
      - cbn. rewrite P2, P3. constructor.
      - exact FR. }
    pose proof (body_placed M fuel f HA (world s)) as PL.
    unfold call_ok. destruct (body_ends M fuel f (world s)) as [w|w|w|vals w|w|]; cbn [agrees placed] in A, PL |- *;
      try contradiction.
    - destruct A as (e3 & s3 & -> & A1 & A2 & A3 & A4 & A5 & A6 & A7 & A8).
      rewrite cseq_app, (ensure_cleanup_run M fuel f HF), A1.
      destruct (effects M (rev (ensures f)) w) as [[] w']; [|reflexivity].
      rewrite cseq_app. destruct FR as [_ FR]. unfold own in FR.
      assert (P6 : depth s3 = depth s + 1) by (rewrite A4; cbn; lia).
      assert (P7 : guards s3 = guards s) by (rewrite A5; cbn; exact P5).
      assert (P8 : dflt s3 = fd) by (rewrite A2; cbn; exact P2).
      assert (P9 : live s3 = fl) by (rewrite A3; cbn; exact P3).
      destruct (negb (f_main f) && negb (f_ref f)).
      + unfold void. destruct (f_results f) as [|t ts].
        * destruct FR as (FR1 & -> & ->). cbn. rewrite A8, FR1, P8, Z.eqb_refl.
          eexists _, _. split; [reflexivity|]. cbn. unfold restored. cbn. repeat split; try assumption. lia.
        * destruct FR as (FR1 & FR2 & ->). cbn. rewrite A6, FR2. cbn. rewrite A6, FR1. cbn. rewrite P9. cbn. rewrite Z.eqb_refl.
          eexists _, _. split; [reflexivity|]. cbn. unfold restored. cbn. repeat split; try assumption. lia.
      + destruct FR as [-> ->]. cbn. eexists _, _. split; [reflexivity|]. unfold restored. cbn. repeat split; try assumption. lia.
    - unfold left in A.
      destruct (effects M (rev (ensures f)) w) as [[] w1]; [|now rewrite A].
      destruct (values M (results_of f vals) w1) as [[vs|] w2]; [|now rewrite A].
      destruct A as (rs & s' & -> & A1 & A2 & A3 & A4 & A5 & A6 & A7).
      exists rs, s'. split; [reflexivity|]. unfold restored. cbn in A5, A6.
      repeat split; try assumption; try lia.
      intros q. rewrite A6 by exact q. exact P5.
    - now rewrite A.
    - now rewrite A.
  Qed.

  Lemma call_seen : usual -> forall n s, depth s < MAX_CALL_DEPTH ->
    seen f (compiled M fuel f n s) = Some (call_late M fuel f (world s)).
  Proof.
    intros U n s D. pose proof (call_run U n s D) as C. unfold call_ok, call_late, at_end in *.
    destruct (body_ends M fuel f (world s)) as [w|w|w|vals w|w|]; try contradiction.
    - destruct (effects M (rev (ensures f)) w) as [[] w'].
      + destruct C as (e' & s' & -> & <- & _). reflexivity.
      + now rewrite C.
    - destruct (effects M (rev (ensures f)) w) as [[] w']; [|now rewrite C].
      destruct (values M (results_of f vals) w') as [[vs|] w2]; [|now rewrite C].
      destruct C as (rs & s' & -> & <- & <- & _). reflexivity.
    - now rewrite C.
    - now rewrite C.
  Qed.

  Lemma call_is_late : ensures f = [] \/ f_results f = [] ->
    forall w, call_late M fuel f w = call M fuel f w.
  Proof.
    intros E w. unfold call, call_late.
    destruct (body_ends M fuel f w) as [w1|w1|w1|vals w1|w1|]; try reflexivity.
    destruct E as [E|E].
    - rewrite E. cbn. now destruct (values M (results_of f vals) w1) as [[vs|] w2].
    - assert (R : results_of f vals = []).
      { unfold results_of. rewrite E. destruct vals as [|v [|v' vals]]; cbn; try reflexivity.
        now destruct (f_names f). }
      rewrite R. cbn. now destruct (effects M (rev (ensures f)) w1) as [[] w2].
  Qed.
End calls.

(** ** Logs *)
Lemma effects_log : forall M l w w' k, effects (logged M) l (w, k) = (true, w') ->
  snd w' = k ++ l /\ effects M l w = (true, fst w').
Proof.
  intros M l. induction l as [|x l IH]; intros w w' k H.
  - cbn in *. injection H as <-. cbn. now rewrite app_nil_r.
  - cbn [effects run logged] in H. cbn [effects]. cbn [fst snd] in H.
    destruct (run M x w) as [[v|] w1]; [|discriminate].
    apply IH in H as [H1 H2]. rewrite H1, H2, <- app_assoc. auto.
Qed.

Lemma values_log : forall M l w w' k vs, values (logged M) l (w, k) = (Some vs, w') ->
  snd w' = k ++ flat_map (fun x => match x with Some e => [e] | None => [] end) l.
Proof.
  intros M l. induction l as [|[x|] l IH]; intros w w' k vs H.
  - cbn in *. injection H as _ <-. cbn. now rewrite app_nil_r.
  - cbn [values run logged fst snd] in H. destruct (run M x w) as [[v|] w1]; [|discriminate].
    destruct (values (logged M) l (w1, k ++ [x])) as [[vs'|] w2] eqn:E; [|discriminate].
    injection H as _ <-. apply IH in E. rewrite E. cbn. now rewrite <- app_assoc.
  - cbn [values] in H. destruct (values (logged M) l (w, k)) as [[vs'|] w2] eqn:E; [|discriminate].
    injection H as _ <-. apply IH in E. rewrite E. reflexivity.
Qed.

(** ** A call that is too deep *)
Lemma too_deep : forall M fuel f n (s : cstate M), MAX_CALL_DEPTH <= depth s ->
  compiled M fuel f n s = CStopped (world s).
Proof.
  intros M fuel f n s D. unfold compiled, emit_function.
  destruct (gens _ (f_body f) n) as [code n1]. cbn [fst].
  assert (PRE : exists e1 s1,
      cseq M (cexec M fuel) (if negb (f_main f) && negb (f_ref f) then
              if (length (f_results f) =? 0)%nat then [CMark]
              else [CNewArena FuncArena; CSaveDefault FuncSaved; CUseArena FuncArena]
            else []) (no_env M) s = CNext e1 s1 /\ world s1 = world s /\ depth s1 = depth s).
  { destruct (negb (f_main f) && negb (f_ref f)); [destruct (length (f_results f) =? 0)%nat|]; cbn; eauto. }
  destruct PRE as (e1 & s1 & P0 & P1 & P2).
  rewrite cseq_app, P0, cseq_app. cbn.
  destruct (MAX_CALL_DEPTH <? depth s1 + 1) eqn:Q; [now rewrite P1|lia].
Qed.
