(** Proofs for the scopes. *)
From Verif Require Import Base BaseFacts LexModel LexProofs MapModel MapProofs ProbeModel ProbeProofs ScopeModel ScopeSpec.

Notation tab := (list (option (bytes * nat))).
Definition info_of (y : symbol) : info := Info (stype y) (smutable y) (attrs y).
(** The first [k] symbols are the entries of the table. *)
Record indexed (syms : list symbol) (k : nat) (t : tab) : Prop := {
  x_sound : sound (@fst bytes nat) scope_str_hash t;
  x_used : used t = k;
  x_has : forall e, has t e <-> (snd e < k)%nat /\ exists y, nth_error syms (snd e) = Some y /\ sname y = fst e
}.
Definition distinct (syms : list symbol) : Prop :=
  forall i j y z, nth_error syms i = Some y -> nth_error syms j = Some z -> sname y = sname z -> i = j.
Record rep (s : scope) (b : block) : Prop := {
  r_table : (table s = [] /\ symbols s = []) \/
            (table s <> [] /\ indexed (symbols s) (length (symbols s)) (table s) /\ 2 * count s <= hash_cap s);
  r_distinct : distinct (symbols s);
  r_means : forall n i, b n = Some i <-> exists k y, nth_error (symbols s) k = Some y /\ sname y = n /\ info_of y = i
}.
Lemma strcmp0 a b : (strcmp a b =? 0) = true <-> a = b.
Proof. rewrite Z.eqb_eq. split; [apply strcmp_eq|intros ->; apply strcmp_refl]. Qed.
Lemma r_none s b n : rep s b -> (b n = None <-> forall k y, nth_error (symbols s) k = Some y -> sname y <> n).
Proof.
  intros R. split.
  - intros H k y Hk E. assert (X : b n = Some (info_of y)) by (apply (r_means s b R); now exists k, y). congruence.
  - intros H. destruct (b n) as [i|] eqn:Eb; [|reflexivity].
    apply (r_means s b R) in Eb as (k & y & Hk & E & _). now apply H in Hk.
Qed.
Lemma lookup_local_spec s b n : rep s b -> exists o, lookup_local s n = Ok o /\
  match o with
  | Some i => exists y, nth_error (symbols s) i = Some y /\ sname y = n /\ b n = Some (info_of y)
  | None => b n = None
  end.
Proof.
  intros R. unfold lookup_local. destruct (r_table s b R) as [[Et Es]|(Nt & X & L)].
  - rewrite Et, Es. cbn [scan]. exists None. split; [reflexivity|]. apply (r_none s b n R). rewrite Es. now intros [|k].
  - destruct (table s) as [|o t] eqn:Et; [now elim Nt|]. rewrite <- Et in *. clear Et o t.
    pose proof (x_sound _ _ _ X) as S0. destruct (b n) as [i|] eqn:Eb.
    + apply (r_means s b R) in Eb as (k & y & Hk & En & Ei).
      assert (H : has (table s) (n, k)).
      { apply (x_has _ _ _ X). cbn [fst snd]. split; [apply nth_error_Some; congruence|now exists y]. }
      destruct (find_present fst scope_str_hash (fun e => strcmp (fst e) n =? 0) (table s) (n, k) S0 H) as (p & Ep & Hp).
      { intros f _. rewrite strcmp0. reflexivity. }
      cbn [fst] in Ep. rewrite Ep, Hp. cbn [snd].
      assert (Lk : (k < length (symbols s))%nat) by (apply nth_error_Some; congruence).
      apply Nat.ltb_lt in Lk. rewrite Lk. exists (Some k). split; [reflexivity|]. exists y. repeat split; [exact Hk|exact En|].
      now rewrite Ei.
    + pose proof (proj1 (r_none s b n R) Eb) as N.
      destruct (find_absent fst scope_str_hash (fun e => strcmp (fst e) n =? 0) (table s) (scope_str_hash n) S0) as (d & _ & Ep & Hp & _).
      { intros f Hf. apply (x_has _ _ _ X) in Hf as (_ & y & Hy & E).
        destruct (strcmp (fst f) n =? 0) eqn:C; [|reflexivity]. apply strcmp0 in C. apply N in Hy. congruence. }
      rewrite Ep, Hp. now exists None.
Qed.

Lemma insert_ok syms k t y : distinct syms -> indexed syms k t -> nth_error syms k = Some y -> Z.of_nat k + 1 < cap t ->
  exists t', hash_insert syms t k = Ok t' /\ indexed syms (S k) t' /\ cap t' = cap t.
Proof.
  intros D X Hk L. unfold hash_insert. rewrite Hk.
  destruct (add_entry fst scope_str_hash (fun _ => false) t (sname y, k) (x_sound _ _ _ X)) as (p & Ep & Rp & Hp & S' & U' & C' & H').
  - intros f Hf E. apply (x_has _ _ _ X) in Hf as (Lf & z & Hz & Ez). cbn [fst] in E.
    assert (snd f = k) by (apply (D (snd f) k z y); congruence). lia.
  - reflexivity.
  - rewrite (x_used _ _ _ X). exact L.
  - cbn [fst] in Ep. rewrite Ep. exists (put t p (sname y, k)). split; [reflexivity|]. split; [|exact C']. constructor.
    + exact S'.
    + now rewrite U', (x_used _ _ _ X).
    + intros e. rewrite H'. split.
      * intros [->|H]; [cbn [fst snd]; split; [lia|now exists y]|]. apply (x_has _ _ _ X) in H as [H1 H2]. split; [lia|exact H2].
      * intros (Le & z & Hz & Ez). destruct (Nat.eq_dec (snd e) k) as [Ek|Nk].
        -- left. destruct e as [n i]. cbn [fst snd] in *. subst i. congruence.
        -- right. apply (x_has _ _ _ X). split; [lia|now exists z].
Qed.
Lemma rebuild_ok syms c j : distinct syms -> 0 <= j -> c = 2 ^ j -> Z.of_nat (length syms) < c ->
  exists t, hash_rebuild syms c = Ok t /\ indexed syms (length syms) t /\ cap t = c.
Proof.
  intros D Hj Hc L. assert (Pc : 0 < c) by lia. unfold hash_rebuild.
  assert (G : forall n, (n <= length syms)%nat -> exists t,
    fold_left (fun r i => rbind r (fun t => hash_insert syms t i)) (seq 0 n) (Ok (repeat None (Z.to_nat c))) = Ok t /\
    indexed syms n t /\ cap t = c).
  { induction n as [|n IH]; intros Ln.
    - exists (repeat None (Z.to_nat c)). split; [reflexivity|]. split; [constructor|].
      + apply (empty_sound fst scope_str_hash j); lia.
      + apply empty_used.
      + intros e. split; [intros H; now apply empty_has in H|intros [H _]; lia].
      + rewrite empty_cap. lia.
    - destruct IH as (t & E & X & C); [lia|]. rewrite seq_S, fold_left_app, E. cbn [fold_left rbind plus].
      destruct (nth_error syms n) as [y|] eqn:Hy; [|apply nth_error_None in Hy; lia].
      destruct (insert_ok syms n t y D X Hy) as (t' & E' & X' & C'); [lia|]. exists t'. rewrite C'. now split. }
  destruct (G (length syms) (le_n _)) as (t & E & X & C). exists t. now split.
Qed.
Lemma same_name_spec a b : reflect (a = b) (same_name a b).
Proof. unfold same_name. destruct list_eq_dec; now constructor. Qed.

Lemma nth_error_set {A} (l : list A) i x j : (i < length l)%nat ->
  nth_error (set_nth i x l) j = if Nat.eqb j i then Some x else nth_error l j.
Proof.
  revert i j. induction l as [|a l IH]; intros [|i] [|j] L; cbn [length] in L; try lia; try reflexivity.
  cbn [set_nth nth_error]. rewrite IH by lia. reflexivity.
Qed.
(** Changing a symbol without its name. *)
Lemma rep_update s b k y z : rep s b -> nth_error (symbols s) k = Some y -> sname z = sname y ->
  rep (Scope (set_nth k z (symbols s)) (table s)) (bind b (sname y) (info_of z)).
Proof.
  intros R Hk En. assert (Lk : (k < length (symbols s))%nat) by (apply nth_error_Some; congruence).
  assert (Nm : forall i w, nth_error (set_nth k z (symbols s)) i = Some w ->
    exists v, nth_error (symbols s) i = Some v /\ sname v = sname w).
  { intros i w. rewrite nth_error_set by exact Lk. destruct (Nat.eqb_spec i k) as [->|].
    - intros E. injection E as <-. exists y. now split.
    - intros E. exists w. now split. }
  assert (Nm' : forall i v, nth_error (symbols s) i = Some v ->
    exists w, nth_error (set_nth k z (symbols s)) i = Some w /\ sname w = sname v).
  { intros i v E. rewrite nth_error_set by exact Lk. destruct (Nat.eqb_spec i k) as [->|].
    - exists z. split; [reflexivity|]. congruence.
    - exists v. now split. }
  constructor; cbn [symbols table].
  - destruct (r_table s b R) as [[Et Es]|(Nt & X & L)].
    + rewrite Es in Hk. now destruct k.
    + right. split; [exact Nt|]. rewrite set_nth_length. split.
      * constructor; [apply X|apply X|]. intros e. rewrite (x_has _ _ _ X). split; intros (L0 & v & Hv & E); (split; [exact L0|]).
        -- destruct (Nm' _ _ Hv) as (w & Hw & Ew). exists w. split; [exact Hw|congruence].
        -- destruct (Nm _ _ Hv) as (w & Hw & Ew). exists w. split; [exact Hw|congruence].
      * unfold count, hash_cap in *. cbn [symbols table]. rewrite set_nth_length. exact L.
  - intros i j u v Hu Hv E. destruct (Nm _ _ Hu) as (u' & Hu' & Eu), (Nm _ _ Hv) as (v' & Hv' & Ev).
    apply (r_distinct s b R i j u' v' Hu' Hv'). congruence.
  - intros n i. unfold bind. destruct (same_name_spec n (sname y)) as [->|N].
    + split.
      * intros E. injection E as <-. exists k, z. rewrite nth_error_set by exact Lk. rewrite Nat.eqb_refl. now repeat split.
      * intros (j & w & Hw & E & Ei). destruct (Nm _ _ Hw) as (v & Hv & Ev).
        assert (j = k) by (apply (r_distinct s b R j k v y); congruence). subst j.
        rewrite nth_error_set in Hw by exact Lk. rewrite Nat.eqb_refl in Hw. congruence.
    + rewrite (r_means s b R). split; intros (j & w & Hw & E & Ei); exists j, w; (split; [|now split]).
      * rewrite nth_error_set by exact Lk. destruct (Nat.eqb_spec j k) as [->|]; [congruence|exact Hw].
      * rewrite nth_error_set in Hw by exact Lk. destruct (Nat.eqb_spec j k) as [->|]; [|exact Hw].
        injection Hw as <-. congruence.
Qed.
Lemma distinct_snoc syms y : distinct syms -> (forall k z, nth_error syms k = Some z -> sname z <> sname y) -> distinct (syms ++ [y]).
Proof.
  intros D N i j u v Hu Hv E.
  assert (C : forall i u, nth_error (syms ++ [y]) i = Some u -> nth_error syms i = Some u \/ i = length syms /\ u = y).
  { intros i' u' H. destruct (Nat.lt_ge_cases i' (length syms)) as [L|L].
    - rewrite nth_error_app1 in H by exact L. now left.
    - rewrite nth_error_app2 in H by exact L. destruct (i' - length syms)%nat as [|[|m]] eqn:M; [|discriminate H|discriminate H].
      injection H as <-. right. split; [lia|reflexivity]. }
  destruct (C _ _ Hu) as [A|[A A']], (C _ _ Hv) as [B|[B B']]; subst; try reflexivity.
  - eapply D; eauto.
  - now apply N in A.
  - exfalso. apply (N j v B). congruence.
Qed.
Lemma define_ok s b n t m : rep s b -> count s < 2 ^ 29 ->
  exists s', scope_define s n t m = Ok s' /\ count s' <= count s + 1 /\
    rep s' (bind b n (Info t m (match b n with Some i => i_notes i | None => 0 end))).
Proof.
  intros R B. unfold scope_define. destruct (lookup_local_spec s b n R) as (o & Eo & Ho). rewrite Eo. cbn [rbind]. destruct o as [k|].
  - destruct Ho as (y & Hk & En & Eb). rewrite Hk, Eb. eexists. split; [reflexivity|]. split.
    + unfold count. cbn [symbols]. rewrite set_nth_length. lia.
    + rewrite <- En. exact (rep_update s b k y (Sym (sname y) t m (attrs y)) R Hk eq_refl).
  - rewrite Ho. cbv zeta. assert (P29 : 2 ^ 29 = 536870912) by reflexivity.
    assert (C0 : 0 <= count s) by (unfold count; lia).
    destruct (INT32_MAX <? (count s + 1) * 2) eqn:Z1; [unfold INT32_MAX in *; lia|].
    pose proof (proj1 (r_none s b n R) Ho) as N.
    assert (T : exists t', (if (hash_cap s =? 0) || (hash_cap s <? (count s + 1) * 2) then
               if INT32_MAX <? hash_cap s * 2 then UB else
               rbind (grow_cap 32 (count s + 1) (if hash_cap s =? 0 then 16 else hash_cap s * 2)) (fun c =>
               hash_rebuild (symbols s) c)
             else Ok (table s)) = Ok t' /\ indexed (symbols s) (length (symbols s)) t' /\ (count s + 1) * 2 <= cap t').
    { destruct ((hash_cap s =? 0) || (hash_cap s <? (count s + 1) * 2)) eqn:G.
      - destruct (INT32_MAX <? hash_cap s * 2) eqn:Z2; [unfold INT32_MAX in *; lia|].
        set (c := if hash_cap s =? 0 then 16 else hash_cap s * 2).
        assert (Hc : (count s + 1) * 2 <= c /\ exists j, 0 <= j /\ c = 2 ^ j).
        { unfold c. destruct (r_table s b R) as [[Et Es]|(Nt & X & L)].
          - unfold hash_cap, count. rewrite Et, Es. split; [cbn; lia|]. exists 4. split; [lia|reflexivity].
          - assert (0 < hash_cap s) by (unfold hash_cap; destruct (table s); [now elim Nt|cbn [length]; lia]).
            destruct (Z.eqb_spec (hash_cap s) 0); [lia|]. split; [lia|].
            destruct (s_pow _ _ _ (x_sound _ _ _ X)) as (j & Hj & E). exists (j + 1). split; [lia|].
            change (hash_cap s) with (cap (table s)). rewrite E, Z.pow_add_r by lia. lia. }
        destruct Hc as (Hc & j & Hj & Ej). unfold grow_cap at 1. cbv fix beta.
        destruct (Z.ltb_spec c ((count s + 1) * 2)); [lia|]. cbn [rbind].
        destruct (rebuild_ok (symbols s) c j (r_distinct s b R) Hj Ej) as (t' & E' & X' & C'); [unfold count in *; lia|].
        exists t'. split; [exact E'|]. split; [exact X'|lia].
      - exists (table s). split; [reflexivity|]. destruct (r_table s b R) as [[Et Es]|(Nt & X & L)].
        + unfold hash_cap in G. rewrite Et in G. discriminate G.
        + split; [exact X|]. change (cap (table s)) with (hash_cap s). lia. }
    destruct T as (t' & -> & X & C). cbn [rbind].
    set (y := Sym n t m 0). assert (D' : distinct (symbols s ++ [y])) by (apply distinct_snoc; [apply R|exact N]).
    assert (X2 : indexed (symbols s ++ [y]) (length (symbols s)) t').
    { constructor; [apply X|apply X|]. intros e. rewrite (x_has _ _ _ X). split; intros (L0 & z & Hz & Ez); (split; [exact L0|]); exists z; (split; [|exact Ez]).
      - now rewrite nth_error_app1 by exact L0.
      - now rewrite nth_error_app1 in Hz by exact L0. }
    assert (Hy : nth_error (symbols s ++ [y]) (length (symbols s)) = Some y).
    { rewrite nth_error_app2 by lia. now rewrite Nat.sub_diag. }
    destruct (insert_ok _ _ t' y D' X2 Hy) as (t2 & E2 & X3 & C2); [unfold count in *; lia|].
    rewrite E2. cbn [rmap]. eexists. split; [reflexivity|].
    assert (Ln : length (symbols s ++ [y]) = S (length (symbols s))) by (rewrite app_length; cbn [length]; lia).
    split; [unfold count; cbn [symbols]; rewrite Ln; lia|]. constructor; cbn [symbols table].
    + right. split; [|split].
      * intros E. subst t2. unfold cap in C2 at 1. cbn in C2. unfold count in *. lia.
      * now rewrite Ln.
      * unfold count, hash_cap in *. cbn [symbols table]. change (Z.of_nat (length t2)) with (cap t2). lia.
    + exact D'.
    + intros x i. unfold bind. destruct (same_name_spec x n) as [->|Nx].
      * split.
        -- intros E. injection E as <-. exists (length (symbols s)), y. now repeat split.
        -- intros (k & z & Hz & E & Ei). assert (k = length (symbols s)) by (apply (D' k (length (symbols s)) z y); [exact Hz|exact Hy|exact E]).
           subst k. rewrite Hy in Hz. injection Hz as <-. now rewrite <- Ei.
      * rewrite (r_means s b R). split; intros (k & z & Hz & E & Ei); exists k, z; (split; [|now split]).
        -- rewrite nth_error_app1; [exact Hz|apply nth_error_Some; congruence].
        -- destruct (Nat.lt_ge_cases k (length (symbols s))) as [L|L]; [now rewrite nth_error_app1 in Hz by exact L|].
           rewrite nth_error_app2 in Hz by exact L. destruct (k - length (symbols s))%nat as [|[|q]]; [|discriminate Hz|discriminate Hz].
           injection Hz as <-. now elim Nx.
Qed.

Notation reps := (Forall2 rep).
Lemma lookup_spec l e n : reps l e -> exists o, scope_lookup l n = Ok o /\
  match o with
  | Some p => exists y, deref l p = Some y /\ resolve e n = Some (info_of y) /\ sname y = n /\
       forall a, reps (assign l p a) (note e n a)
  | None => resolve e n = None /\ forall a, reps l (note e n a)
  end.
Proof.
  induction 1 as [|s b l e R Rs IH].
  - exists None. repeat split. intros a. constructor.
  - cbn [scope_lookup resolve note]. destruct (lookup_local_spec s b n R) as (o & -> & Ho). cbn [rbind]. destruct o as [i|].
    + destruct Ho as (y & Hy & En & Eb). exists (Some (O, i)). split; [reflexivity|].
      unfold assign, deref. cbn [fst snd nth_error]. rewrite Hy, Eb. exists y. repeat split; [exact En|].
      intros a. cbn [set_nth]. constructor; [|exact Rs]. rewrite <- En. apply rep_update; [exact R|exact Hy|reflexivity].
    + rewrite Ho. destruct IH as (o & -> & Ho'). cbn [rmap]. exists (option_map (fun p => (S (fst p), snd p)) o). split; [reflexivity|].
      destruct o as [p|]; cbn [option_map].
      * destruct Ho' as (y & Hy & E & En & A). exists y. unfold deref in *. cbn [fst snd nth_error]. repeat split; [exact Hy|exact E|exact En|].
        intros a. specialize (A a). unfold assign, deref in *. cbn [fst snd nth_error].
        destruct (nth_error l (fst p)) as [s'|]; [|discriminate Hy]. rewrite Hy in *. cbn [set_nth]. now constructor.
      * destruct Ho' as (E & A). split; [exact E|]. intros a. constructor; [exact R|apply A].
Qed.
Definition small (N : Z) (l : list scope) : Prop := Forall (fun s => count s <= N) l.
Lemma small_le N M l : small N l -> N <= M -> small M l.
Proof. intros H L. eapply Forall_impl; [|exact H]. intros a Ha. cbv beta in *. lia. Qed.
Lemma small_assign N l p a : small N l -> small N (assign l p a).
Proof.
  intros H. unfold assign. destruct (nth_error l (fst p)) as [s|] eqn:E; [|exact H]. destruct (deref l p) as [y|]; [|exact H].
  revert l H E. induction (fst p) as [|i IH]; intros [|x l] H E; cbn [nth_error] in E; try discriminate; cbn [set_nth];
    apply Forall_cons_iff in H as [Hx H].
  - injection E as <-. constructor; [|exact H]. unfold count in *. cbn [symbols]. now rewrite set_nth_length.
  - constructor; [exact Hx|now apply IH].
Qed.
Lemma empty_rep : rep scope_create (fun _ => None).
Proof.
  constructor; cbn.
  - left. now split.
  - intros [|i]; discriminate.
  - intros n i. split; [discriminate|]. intros ([|k] & y & H & _); discriminate.
Qed.
Lemma step_ok N l e o e' : reps l e -> small N l -> 0 <= N < 2 ^ 29 -> after e (meaning o) = Some e' ->
  exists l', step l o = Ok l' /\ reps l' e' /\ small (N + 1) l'.
Proof.
  intros R S0 B. destruct o as [| |n t m|n a]; cbn [step meaning after].
  - intros E. injection E as <-. eexists. split; [reflexivity|]. split; [constructor; [apply empty_rep|exact R]|].
    constructor; [cbn; lia|apply (small_le N); [exact S0|lia]].
  - destruct R as [|s b l e Rs R]; [discriminate|]. intros E. injection E as <-. eexists. split; [reflexivity|]. split; [exact R|].
    apply Forall_cons_iff in S0 as [_ S0]. apply (small_le N); [exact S0|lia].
  - destruct R as [|s b l e Rs R]; [discriminate|]. intros E. injection E as <-. apply Forall_cons_iff in S0 as [S1 S0].
    destruct (define_ok s b n t m Rs) as (s' & -> & L & R'); [lia|]. cbn [rmap]. eexists. split; [reflexivity|].
    split; [constructor; [exact R'|exact R]|]. constructor; [lia|apply (small_le N); [exact S0|lia]].
  - intros E. assert (E' : note e n a = e') by (destruct e; injection E as <-; reflexivity). clear E. subst e'.
    destruct (lookup_spec l e n R) as (o & -> & Ho). cbn [rmap]. eexists. split; [reflexivity|]. destruct o as [p|].
    + destruct Ho as (y & _ & _ & _ & A). split; [apply A|]. apply (small_le N); [now apply small_assign|lia].
    + destruct Ho as (_ & A). split; [apply A|]. apply (small_le N); [exact S0|lia].
Qed.
Lemma run_ok os : forall N l e e', reps l e -> small N l -> 0 <= N -> N + Z.of_nat (length os) <= 2 ^ 29 ->
  after_all e (map meaning os) = Some e' -> exists l', run l os = Ok l' /\ reps l' e'.
Proof.
  induction os as [|o os IH]; intros N l e e' R S0 N0 B; cbn [map after_all length] in *.
  - intros E. injection E as <-. exists l. now split.
  - destruct (after e (meaning o)) as [e1|] eqn:E1; [|discriminate]. intros E.
    destruct (step_ok N l e o e1 R S0) as (l1 & El & R1 & S1); [lia|exact E1|].
    destruct (IH (N + 1) l1 e1 e' R1 S1) as (l2 & E2 & R2); [lia|lia|exact E|].
    exists l2. split; [|exact R2]. unfold run in *. cbn [fold_left rbind]. rewrite El. exact E2.
Qed.

(** What a nest of blocks can do to the outside. *)
Definition keeps (e e' : list block) : Prop :=
  Forall2 (fun b b' : block => forall n, option_map (fun i => (i_type i, i_mutable i)) (b n) = option_map (fun i => (i_type i, i_mutable i)) (b' n)) e e'.
Lemma keeps_refl e : keeps e e.
Proof. induction e; constructor; [reflexivity|exact IHe]. Qed.
Lemma keeps_trans a b c : keeps a b -> keeps b c -> keeps a c.
Proof.
  intros H. revert c. induction H as [|x y a b E _ IH]; intros c K; inversion K as [|y' z b' c' E' K' Ea Eb]; subst; constructor.
  - intros n. now rewrite E.
  - now apply IH.
Qed.
Lemma keeps_note e n a : keeps e (note e n a).
Proof.
  induction e as [|b e IH]; [constructor|]. cbn [note]. destruct (b n) as [i|] eqn:E.
  - constructor; [|apply keeps_refl]. intros x. unfold bind. destruct (same_name_spec x n) as [->|]; [now rewrite E|reflexivity].
  - constructor; [reflexivity|exact IH].
Qed.
Lemma nested_tail l : nested l -> forall b e e', after_all (b :: e) l = Some e' -> exists b' r, e' = b' :: r /\ keeps e r.
Proof.
  induction 1 as [|n t m l H IH|n a l H IH|k l Hk IHk Hl IHl]; intros b e e'; cbn [after_all after declare note].
  - intros E. injection E as <-. exists b, e. split; [reflexivity|apply keeps_refl].
  - apply IH.
  - destruct (b n) as [i|].
    + apply IH.
    + intros E. destruct (IH _ _ _ E) as (b' & r & -> & K). exists b', r. split; [reflexivity|].
      eapply keeps_trans; [apply keeps_note|exact K].
  - intros E. assert (App : forall l1 l2 x, after_all x (l1 ++ l2) = match after_all x l1 with Some y => after_all y l2 | None => None end).
    { induction l1 as [|v l1 IH]; intros l2 x; cbn [app after_all]; [reflexivity|]. destruct (after x v); [apply IH|reflexivity]. }
    rewrite App in E. destruct (after_all _ k) as [e1|] eqn:E1; [|discriminate].
    destruct (IHk _ _ _ E1) as (b1 & r1 & -> & K1). cbn [after_all after] in E.
    inversion K1 as [|b0 b2 e0 e2 Eb Ke Ea Eb']; subst. destruct (IHl _ _ _ E) as (b' & r & -> & K).
    exists b', r. split; [reflexivity|]. now apply (keeps_trans _ e2).
Qed.
Lemma keeps_resolve e e' n : keeps e e' ->
  option_map (fun i => (i_type i, i_mutable i)) (resolve e n) = option_map (fun i => (i_type i, i_mutable i)) (resolve e' n).
Proof.
  induction 1 as [|b b' e e' E _ IH]; cbn [resolve]; [reflexivity|]. specialize (E n).
  destruct (b n), (b' n); cbn [option_map] in E; try discriminate; [exact E|exact IH].
Qed.
