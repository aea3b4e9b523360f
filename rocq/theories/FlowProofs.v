(** Facts about statements and about the C the compiler emits: induction,
    unwinding, counters, returns. *)
From Coq Require Import ZArith List Bool Lia.
From Verif Require Import Base FlowSpec FlowModel.
Import ListNotations.
Local Open Scope Z_scope.

(** ** Induction on statements *)
Section induction.
  Context (P : stmt -> Prop).
  Definition P_list := Forall P.
  Definition P_arms (l : list (Z * list stmt)) := Forall (fun a => Forall P (snd a)) l.
  Definition P_opt (o : option (list stmt)) := match o with Some l => Forall P l | None => True end.
  Context
    (HAct : forall a, P (Act a)) (HReturn : forall v p, P (Return v p))
    (HIf : forall c y o e, P_list y -> P_arms o -> P_opt e -> P (If c y o e))
    (HWhen : forall v a d, P_arms a -> P_opt d -> P (When v a d))
    (HFor : forall a b c l, P_list l -> P (For a b c l))
    (HForEach : forall k a b c d l, P_list l -> P (ForEach k a b c d l))
    (HWhile : forall c l, P_list l -> P (While c l))
    (HLoop : forall l, P_list l -> P (Loop l))
    (HBreak : P Break) (HContinue : P Continue) (HEnsure : forall e, P (Ensure e))
    (HBlock : forall l, P_list l -> P (Block l)).

  Fixpoint stmt_all (s : stmt) : P s :=
    let list_all := fix go (l : list stmt) : Forall P l :=
      match l with [] => Forall_nil _ | x :: r => Forall_cons _ (stmt_all x) (go r) end in
    let arms_all := fix go (l : list (Z * list stmt)) : P_arms l :=
      match l return P_arms l with
      | [] => Forall_nil _
      | a :: r => Forall_cons (P := fun a => Forall P (snd a)) _ (let (k, b) return Forall P (snd a) := a in list_all b) (go r)
      end in
    let opt_all := fun o : option (list stmt) =>
      match o return P_opt o with Some l => list_all l | None => I end in
    match s with
    | Act a => HAct a
    | Return v p => HReturn v p
    | If c y o e => HIf c y o e (list_all y) (arms_all o) (opt_all e)
    | When v a d => HWhen v a d (arms_all a) (opt_all d)
    | For a b c l => HFor a b c l (list_all l)
    | ForEach k a b c d l => HForEach k a b c d l (list_all l)
    | While c l => HWhile c l (list_all l)
    | Loop l => HLoop l (list_all l)
    | Break => HBreak
    | Continue => HContinue
    | Ensure e => HEnsure e
    | Block l => HBlock l (list_all l)
    end.
End induction.

Lemma list_from : forall (P : stmt -> Prop), (forall s, P s) -> forall l, Forall P l.
Proof. intros P H l. now apply Forall_forall. Qed.

(** ** Sequences of C *)
Section c_facts.
  Context (M : machine).
  Implicit Types (e : cenv M) (s : cstate M).

  Lemma cseq_app : forall f a b e s,
    cseq M f (a ++ b) e s =
    match cseq M f a e s with CNext e' s' => cseq M f b e' s' | o => o end.
  Proof.
    intros f a. induction a as [|c a IH]; intros b e s; [reflexivity|].
    cbn. destruct (f c e s); try reflexivity. apply IH.
  Qed.

  Lemma avar_eqb_refl : forall v, avar_eqb v v = true.
  Proof. intros []; cbn; try reflexivity; apply Z.eqb_refl. Qed.

  Lemma avar_eqb_eq : forall v w, avar_eqb v w = true <-> v = w.
  Proof.
    intros [] []; cbn; split; intros H; try discriminate; try reflexivity;
      try (apply Z.eqb_eq in H; congruence); injection H as ->; apply Z.eqb_refl.
  Qed.

  (** The scratch arenas in scope, innermost first, down to [d0]. *)
  Inductive nested e : list scope -> Z -> list Z -> Z -> list Z -> Prop :=
  | nested_nil : forall d l, nested e [] d l d l
  | nested_cons : forall av sv r d d' l d0 l0,
      arena_of av (arenas e) = Some d -> arena_of sv (arenas e) = Some d' ->
      nested e r d' l d0 l0 -> nested e ((av, sv) :: r) d (d :: l) d0 l0.

  Lemma nested_ext : forall e e' st d l d0 l0,
    (forall a b, In (a, b) st -> arena_of a (arenas e') = arena_of a (arenas e) /\
                                 arena_of b (arenas e') = arena_of b (arenas e)) ->
    nested e st d l d0 l0 -> nested e' st d l d0 l0.
  Proof.
    intros e e' st d l d0 l0 E H. induction H as [|av sv r d d' l d0 l0 A B _ IH]; [constructor|].
    destruct (E av sv (or_introl eq_refl)) as [E1 E2].
    econstructor; [rewrite E1; exact A|rewrite E2; exact B|].
    apply IH. intros a b I. apply E. now right.
  Qed.

  Lemma take_head : forall x l, take_out x (x :: l) = Some l.
  Proof. intros. cbn. now rewrite Z.eqb_refl. Qed.

  Lemma unwind_one_run : forall fuel e s av sv d' l,
    arena_of av (arenas e) = Some (dflt s) -> arena_of sv (arenas e) = Some d' ->
    live s = dflt s :: l ->
    cseq M (cexec M fuel) (unwind_one (av, sv)) e s = CNext e (put_live M l (put_dflt M d' s)).
  Proof.
    intros fuel e s av sv d' l A B C. cbn [unwind_one fst snd cseq cexec].
    rewrite B, A. cbn [live put_dflt]. now rewrite C, take_head.
  Qed.

  Lemma unwind_run : forall fuel e st d l d0 l0, nested e st d l d0 l0 ->
    forall s, dflt s = d -> live s = l ->
    cseq M (cexec M fuel) (unwind st) e s = CNext e (put_live M l0 (put_dflt M d0 s)).
  Proof.
    intros fuel e st d l d0 l0 H. induction H as [d l|av sv r d d' l d0 l0 A B _ IH]; intros s E1 E2.
    - cbn. subst. now destruct s.
    - unfold unwind. cbn [flat_map]. rewrite cseq_app.
      rewrite unwind_one_run with (d' := d') (l := l); [|congruence|assumption|congruence].
      change (flat_map unwind_one r) with (unwind r).
      rewrite IH; [|reflexivity|reflexivity]. reflexivity.
  Qed.

  (** Where a break or continue leaves the arenas. *)
  Inductive loop_exit e : list scope -> Z -> list Z -> Z -> list Z -> Prop :=
  | exit_top : forall d l, loop_exit e [] d l d l
  | exit_loop : forall k sv r d d' l,
      arena_of sv (arenas e) = Some d' -> loop_exit e ((Iter k, sv) :: r) d (d :: l) d' l
  | exit_if : forall k sv r d d' l d1 l1,
      arena_of sv (arenas e) = Some d' -> loop_exit e r d' l d1 l1 ->
      loop_exit e ((IfArena k, sv) :: r) d (d :: l) d1 l1.

  Lemma loop_exit_ext : forall e e' st d l d0 l0,
    (forall a b, In (a, b) st -> arena_of a (arenas e') = arena_of a (arenas e) /\
                                 arena_of b (arenas e') = arena_of b (arenas e)) ->
    loop_exit e st d l d0 l0 -> loop_exit e' st d l d0 l0.
  Proof.
    intros e e' st d l d0 l0 E H. induction H as [|k sv r d d' l A|k sv r d d' l d1 l1 A _ IH].
    - constructor.
    - destruct (E _ sv (or_introl eq_refl)) as [_ E2]. constructor. congruence.
    - destruct (E _ sv (or_introl eq_refl)) as [_ E2]. apply exit_if with (d' := d'); [congruence|].
      apply IH. intros a b I. apply E. now right.
  Qed.

  Lemma loop_exit_fun : forall e st d l d1 l1 d2 l2,
    loop_exit e st d l d1 l1 -> loop_exit e st d l d2 l2 -> d1 = d2 /\ l1 = l2.
  Proof.
    intros e st d l d1 l1 d2 l2 H. revert d2 l2.
    induction H as [|k sv r d d' l A|k sv r d d' l d1 l1 A _ IH]; intros d2 l2 H2; inversion H2; subst.
    - auto.
    - split; congruence.
    - replace d'0 with d' in * by congruence. now apply IH.
  Qed.

  Definition stack_ok (st : list scope) (d n : Z) : Prop :=
    Forall (fun sc => match sc with
                      | (Iter k, IterSaved k') => k = k' /\ k < d
                      | (IfArena k, IfSaved k') => k = k' /\ k < n
                      | _ => False
                      end) st.

  Lemma stack_ok_mono : forall st d n d' n', stack_ok st d n -> d <= d' -> n <= n' -> stack_ok st d' n'.
  Proof.
    intros st d n d' n' H A B. eapply Forall_impl; [|exact H].
    intros [[] []]; cbn; intuition lia.
  Qed.

  Lemma stack_ok_declare : forall st d n v a e, stack_ok st d n ->
    match v with Iter k | IterSaved k => d <= k | IfArena k | IfSaved k => n <= k | _ => True end ->
    forall x y, In (x, y) st -> arena_of x (arenas (declare M v a e)) = arena_of x (arenas e) /\
                               arena_of y (arenas (declare M v a e)) = arena_of y (arenas e).
  Proof.
    intros st d n v a e H C x y I. unfold stack_ok in H. rewrite Forall_forall in H.
    specialize (H _ I). cbn in H. cbn [arenas declare arena_of].
    assert (G : forall z, z = x \/ z = y -> avar_eqb z v = false).
    { intros z D. destruct (avar_eqb z v) eqn:Q; [|reflexivity]. apply avar_eqb_eq in Q. subst v.
      destruct x, y; try contradiction; destruct D; subst z; cbn in C; lia. }
    rewrite (G x), (G y) by auto. auto.
  Qed.

  Lemma loop_unwind_run : forall fuel e st d n d' l' d0 l0, stack_ok st d n -> nested e st d' l' d0 l0 ->
    exists d1 l1, loop_exit e st d' l' d1 l1 /\
      forall s, dflt s = d' -> live s = l' ->
      cseq M (cexec M fuel) (loop_unwind st) e s = CNext e (put_live M l1 (put_dflt M d1 s)).
  Proof.
    intros fuel e st d n d' l' d0 l0 K H. revert K.
    induction H as [d' l'|av sv r d1 d2 l d0 l0 A B N IH]; intros K.
    - exists d', l'. split; [constructor|]. intros s E1 E2. cbn. subst. now destruct s.
    - apply Forall_cons_iff in K as [K1 K2]. destruct (IH K2) as (d3 & l3 & E & R).
      destruct av as [k|k|k|k| | |]; try contradiction.
      + destruct sv; try contradiction.
        exists d2, l. split; [now constructor|]. intros s E1 E2. cbn [loop_unwind fst]. rewrite app_nil_r.
        apply unwind_one_run; congruence.
      + destruct sv; try contradiction.
        exists d3, l3. split; [now apply exit_if with (d' := d2)|].
        intros s E1 E2. cbn [loop_unwind fst]. rewrite cseq_app.
        rewrite unwind_one_run with (d' := d2) (l := l); [|congruence|assumption|congruence].
        rewrite R; reflexivity.
  Qed.

  (** ** Effects, values, results *)
  Lemma map_run_effects : forall fuel l e s,
    cseq M (cexec M fuel) (map CRun l) e s =
    match effects M l (world s) with
    | (true, w) => CNext e (put_world M w s)
    | (false, w) => CStopped w
    end.
  Proof.
    intros fuel l. induction l as [|x l IH]; intros e s.
    - cbn. now destruct s.
    - cbn [map cseq cexec effects]. unfold crun. destruct (run M x (world s)) as [[v|] w]; [|reflexivity].
      rewrite IH. cbn [world put_world]. now destruct (effects M l w) as [[] w'].
  Qed.

  Definition owner (a : Z) (x : option Z) : option Z := match x with Some _ => Some a | None => None end.

  Lemma cresult_values : forall l w a,
    match values M l w with
    | (Some vs, w') => exists rs, cresult M l w a = (Some rs, w') /\ map fst rs = vs /\
                                  map snd rs = map (owner a) l
    | (None, w') => cresult M l w a = (None, w')
    end.
  Proof.
    induction l as [|[x|] l IH]; intros w a; cbn [values cresult].
    - exists []. auto.
    - destruct (run M x w) as [[v|] w1]; [|reflexivity]. specialize (IH w1 a).
      destruct (values M l w1) as [[vs|] w2].
      + destruct IH as (rs & -> & <- & E). exists ((v, Some a) :: rs). cbn. rewrite E. auto.
      + now rewrite IH.
    - specialize (IH w a). destruct (values M l w) as [[vs|] w2].
      + destruct IH as (rs & -> & <- & E). exists ((zero M, None) :: rs). cbn. rewrite E. auto.
      + now rewrite IH.
  Qed.

  Lemma copy_to_app : forall pre x r a lv,
    (snd x = None \/ exists o, snd x = Some o /\ In o lv) ->
    copy_to M (length pre) a lv (pre ++ x :: r) = Some (pre ++ (fst x, owner a (snd x)) :: r).
  Proof.
    induction pre as [|p pre IH]; intros [v o] r a lv H.
    - cbn in *. destruct o as [o|]; [|reflexivity]. destruct H as [H|(o' & H & I)]; [discriminate|].
      injection H as <-. assert (Q : existsb (Z.eqb o) lv = true).
      { apply existsb_exists. exists o. split; [assumption|apply Z.eqb_refl]. }
      now rewrite Q.
    - cbn [length app copy_to]. rewrite IH by assumption.
      destruct p as [p []]; reflexivity.
  Qed.

  Lemma escapes_run : forall fuel ts rs pre e s saved,
    arena_of FuncSaved (arenas e) = Some saved -> result e = pre ++ rs ->
    length rs = length ts ->
    Forall (fun r => snd r = None \/ exists o, snd r = Some o /\ In o (live s)) rs ->
    exists rs', cseq M (cexec M fuel) (escapes (length pre) ts) e s =
                CNext (put_result M (pre ++ rs') e) s /\
      map fst rs' = map fst rs /\
      Forall2 (fun t (r : V M * option Z) => t = Copied -> snd r = None \/ snd r = Some saved) ts rs'.
  Proof.
    intros fuel ts. induction ts as [|t ts IH]; intros rs pre e s saved A R L F.
    - destruct rs; [|discriminate]. exists []. cbn. rewrite app_nil_r in *. repeat split; [|constructor].
      rewrite <- R. now destruct e.
    - destruct rs as [|r rs]; [discriminate|]. apply Forall_cons_iff in F as [F1 F2].
      assert (G : forall r' e', arenas e' = arenas e -> whens e' = whens e -> mark e' = mark e ->
        result e' = (pre ++ [r']) ++ rs -> fst r' = fst r -> (t = Copied -> snd r' = None \/ snd r' = Some saved) ->
        exists rs', cseq M (cexec M fuel) (escapes (S (length pre)) ts) e' s =
                CNext (put_result M (pre ++ rs') e) s /\
          map fst rs' = map fst (r :: rs) /\
          Forall2 (fun t (r : V M * option Z) => t = Copied -> snd r = None \/ snd r = Some saved) (t :: ts) rs').
      { intros r' e' Ea Ew Em Er Ef Es.
        destruct (IH rs (pre ++ [r']) e' s saved) as (rs' & X & Y & Z0); [congruence|assumption|now injection L|assumption|].
        exists (r' :: rs'). rewrite app_length in X. cbn [length] in X. rewrite Nat.add_1_r in X. rewrite X.
        repeat split.
        - unfold put_result. rewrite Ea, Ew, Em. now rewrite <- app_assoc.
        - cbn. now rewrite Y, Ef.
        - now constructor. }
      destruct t; cbn [escapes].
      + apply (G r e); auto; try congruence. now rewrite <- app_assoc.
      + cbn [cseq cexec]. rewrite A, R, copy_to_app by assumption.
        apply (G (fst r, owner saved (snd r))); try reflexivity.
        * cbn. now rewrite <- app_assoc.
        * intros _. cbn. destruct (snd r); cbn; auto.
      + apply (G r e); auto; try congruence. now rewrite <- app_assoc.
  Qed.
End c_facts.

(** ** Counters only grow *)
Lemma gens_mono : forall g l n, Forall (fun s => forall n, n <= snd (g s n)) l ->
  n <= snd (gens g l n).
Proof.
  intros g l. induction l as [|s l IH]; intros n H; [cbn; lia|].
  apply Forall_cons_iff in H as [H1 H2]. cbn. specialize (H1 n).
  destruct (g s n) as [c n1]. specialize (IH n1 H2). destruct (gens g l n1). cbn in *. lia.
Qed.

Lemma gen_arms_mono : forall g t l n, Forall (fun a => Forall (fun s => forall n, n <= snd (g s n)) (snd a)) l ->
  n <= snd (gen_arms g t l n).
Proof.
  intros g t l. induction l as [|[c b] l IH]; intros n H; [cbn; lia|].
  apply Forall_cons_iff in H as [H1 H2]. cbn in *. pose proof (gens_mono g b n H1) as Q.
  destruct (gens g b n) as [k n1]. specialize (IH n1 H2). destruct (gen_arms g t l n1). cbn in *. lia.
Qed.

Lemma gen_else_mono : forall g o n,
  match o with Some l => Forall (fun s => forall n, n <= snd (g s n)) l | None => True end ->
  n <= snd (gen_else g o n).
Proof. intros g [l|] n H; cbn; [now apply gens_mono|lia]. Qed.

Lemma emit_mono : forall f s st d n, n <= snd (emit_statement f s st d n).
Proof.
  intros f s. induction s as [| |c y o e Hy Ho He|v a d' Ha Hd|a b c l Hl|k a b c d' l Hl|c l Hl|l Hl| | | |l Hl]
    using stmt_all; intros st d n; cbn [emit_statement snd]; try lia.
  - set (g := fun (s : stmt) n => emit_statement f s ((IfArena n, IfSaved n) :: st) (d + 1) n).
    pose proof (gens_mono (fun s m => emit_statement f s ((IfArena n, IfSaved n) :: st) (d + 1) m) y (n + 1)) as Q1.
    destruct (gens _ y (n + 1)) as [cy n1].
    pose proof (gen_arms_mono (fun s m => emit_statement f s ((IfArena n, IfSaved n) :: st) (d + 1) m) TestRun o n1) as Q2.
    destruct (gen_arms _ TestRun o n1) as [co n2].
    pose proof (gen_else_mono (fun s m => emit_statement f s ((IfArena n, IfSaved n) :: st) (d + 1) m) e n2) as Q3.
    destruct (gen_else _ e n2) as [ce n3]. cbn [snd] in *.
    assert (n + 1 <= n1). { apply Q1. eapply Forall_impl; [|exact Hy]. intros; cbn; auto. }
    assert (n1 <= n2). { apply Q2. eapply Forall_impl; [|exact Ho]. intros x; apply Forall_impl. auto. }
    assert (n2 <= n3). { apply Q3. destruct e; [|exact I]. eapply Forall_impl; [|exact He]. auto. }
    lia.
  - pose proof (gen_arms_mono (fun s m => emit_statement f s st d m) (TestCase n) a (n + 1)) as Q2.
    destruct (gen_arms _ (TestCase n) a (n + 1)) as [co n2].
    pose proof (gen_else_mono (fun s m => emit_statement f s st d m) d' n2) as Q3.
    destruct (gen_else _ d' n2) as [ce n3]. cbn [snd] in *.
    assert (n + 1 <= n2). { apply Q2. eapply Forall_impl; [|exact Ha]. intros x; apply Forall_impl. auto. }
    assert (n2 <= n3). { apply Q3. destruct d'; [|exact I]. eapply Forall_impl; [|exact Hd]. auto. }
    lia.
  - pose proof (gens_mono (fun s m => emit_statement f s (iter_scope d :: st) (d + 1) m) l n) as Q.
    destruct (gens _ l n). cbn [snd] in *. apply Q. eapply Forall_impl; [|exact Hl]; auto.
  - pose proof (gens_mono (fun s m => emit_statement f s (iter_scope d :: st) (d + 1) m) l n) as Q.
    destruct (gens _ l n). cbn [snd] in *. apply Q. eapply Forall_impl; [|exact Hl]; auto.
  - pose proof (gens_mono (fun s m => emit_statement f s (iter_scope d :: st) (d + 1) m) l n) as Q.
    destruct (gens _ l n). cbn [snd] in *. apply Q. eapply Forall_impl; [|exact Hl]; auto.
  - pose proof (gens_mono (fun s m => emit_statement f s (iter_scope d :: st) (d + 1) m) l n) as Q.
    destruct (gens _ l n). cbn [snd] in *. apply Q. eapply Forall_impl; [|exact Hl]; auto.
  - apply gens_mono. eapply Forall_impl; [|exact Hl]; auto.
Qed.
