(** What the emitted call passes. *)
From Verif Require Import Base ArgsSpec ArgsModel ArgsProofs ArgsProofs2.

Lemma nth_error_same {A} (l l' : list A) : (forall i, nth_error l i = nth_error l' i) -> l = l'.
Proof.
  revert l'; induction l as [|x l IH]; intros [|y l'] H; auto; try (specialize (H O); discriminate H).
  pose proof (H O) as H0. cbn in H0. injection H0 as ->. f_equal. apply IH. intros i. apply (H (S i)).
Qed.
Lemma nth_error_combine {A B} (l : list A) (r : list B) i a b : nth_error l i = Some a -> nth_error r i = Some b -> nth_error (combine l r) i = Some (a, b).
Proof. revert l r; induction i as [|i IH]; intros [|x l] [|y r] H1 H2; cbn in *; try discriminate; auto. congruence. Qed.
Lemma firstn_combine {A B} (l : list A) (r : list B) i : firstn i (combine l r) = combine (firstn i l) (firstn i r).
Proof. revert l r; induction i as [|i IH]; intros [|x l] [|y r]; cbn; auto. now rewrite IH. Qed.
Lemma map_fst_combine {A B} (l : list A) (r : list B) : length l = length r -> map fst (combine l r) = l.
Proof. revert r; induction l as [|x l IH]; intros [|y r] H; cbn in *; auto; try discriminate. f_equal. apply IH. lia. Qed.

Fixpoint bindall (env : bytes -> cell) (l : list (bytes * cell)) : bytes -> cell :=
  match l with [] => env | (x, c) :: t => bindall (bind env x c) t end.
Lemma bindall_out env l x : ~ In x (map fst l) -> bindall env l x = env x.
Proof.
  revert env; induction l as [|[y c] l IH]; intros env H; cbn in *; auto. rewrite IH by tauto.
  unfold bind. destruct (list_eq_dec Z.eq_dec y x); tauto.
Qed.
Lemma bindall_in env l x c k : NoDup (map fst l) -> nth_error l k = Some (x, c) -> bindall env l x = c.
Proof.
  revert env k; induction l as [|[y d] l IH]; intros env k N H; [destruct k; discriminate|]. cbn in N. apply NoDup_cons_iff in N as [N1 N2].
  destruct k as [|k]; cbn in *.
  - injection H as -> ->. rewrite bindall_out by auto. unfold bind. now destruct (list_eq_dec Z.eq_dec x x).
  - now apply (IH _ k).
Qed.
Lemma before_out ps vs glob x : ~ In x (map p_name ps) -> before ps vs glob x = glob x.
Proof. revert vs; induction ps as [|p ps IH]; intros [|v vs] H; cbn in *; auto. destruct (list_eq_dec Z.eq_dec (p_name p) x); [tauto|]. apply IH. tauto. Qed.
Lemma before_in ps vs glob k q v : NoDup (map p_name ps) -> nth_error ps k = Some q -> nth_error vs k = Some v -> before ps vs glob (p_name q) = Some v.
Proof.
  revert vs k; induction ps as [|p ps IH]; intros [|w vs] [|k] N P V; cbn in *; try discriminate; apply NoDup_cons_iff in N as [N1 N2].
  - injection P as <-. injection V as <-. now destruct (list_eq_dec Z.eq_dec (p_name p) (p_name p)).
  - destruct (list_eq_dec Z.eq_dec (p_name p) (p_name q)) as [E|]; [|now apply (IH _ k)].
    exfalso. apply N1. rewrite E. apply in_map. now apply nth_error_In in P.
Qed.
Lemma ceval_agree r c e v : (forall x, In x (names e) -> forall u, r x = Some u -> c x = Has u) -> eval r e = Some v -> ceval c e = Has v.
Proof.
  revert v; induction e as [z|x|a IHa b IHb]; intros v H E; cbn in *.
  - now injection E as <-.
  - apply H; auto.
  - destruct (eval r a) as [u|]; [|discriminate]. destruct (eval r b) as [w|]; [|discriminate]. injection E as <-.
    rewrite (IHa u), (IHb w); auto; intros x X; apply H, in_or_app; auto.
Qed.
Lemma locals_ok : forall (xs : list bytes) es vs env, length es = length xs -> length vs = length xs ->
  (forall i x e v, nth_error xs i = Some x -> nth_error es i = Some e -> nth_error vs i = Some v ->
     ceval (bind (bindall env (firstn i (combine xs (map Has vs)))) x Junk) e = Has v) ->
  locals env (combine xs es) = (map Has vs, bindall env (combine xs (map Has vs))).
Proof.
  induction xs as [|x xs IH]; intros [|e es] [|v vs] env L1 L2 H; cbn in *; try discriminate; auto.
  pose proof (H O x e v eq_refl eq_refl eq_refl) as H0. cbn in H0. rewrite H0, (IH es vs) by (auto; intros i; apply (H (S i))). reflexivity.
Qed.
Lemma values_has vs : values (map Has vs) = Some vs.
Proof. induction vs as [|v vs IH]; cbn; auto. now rewrite IH. Qed.
Lemma absent_has vs : has_absent (map Has vs) = false.
Proof. induction vs as [|v vs IH]; cbn; auto. Qed.

Section Run.
Context (ps : list param) (args : list arg) (rho glob : bytes -> option Z) (vs : list Z) (es : list exp).
Context (ND : NoDup (map p_name ps)) (SL : in_slots ps args es) (PA : passes ps args rho glob vs).
Context (AP : apart ps args) (HO : at_home ps args rho glob).
Let env x := match rho x with Some v => Has v | None => Absent end.
Let n := length es.
Lemma given_dec i : (exists j, gives ps args i j) \/ forall j, ~ gives ps args i j.
Proof.
  assert (Dg : forall j, gives ps args i j \/ ~ gives ps args i j).
  { intros j. unfold gives. destruct (nth_error ps i) as [p|]; [|right; intros (? & ? & ? & _); discriminate].
    destruct (nth_error args j) as [[o e]|]; [|right; intros (? & ? & _ & ? & _); discriminate]. destruct o as [m|].
    - destruct (list_eq_dec Z.eq_dec (p_name p) m) as [E|E]; [left; exists p, (Some m, e); auto|right; intros (q & b & [= <-] & [= <-] & X); now apply E].
    - destruct (Nat.eq_dec i j) as [E|E]; [left; exists p, (None, e); auto|right; intros (q & b & [= <-] & [= <-] & X); now apply E]. }
  assert (B : forall m, (exists j, (j < m)%nat /\ gives ps args i j) \/ forall j, (j < m)%nat -> ~ gives ps args i j).
  { induction m as [|m [(j & J & G)|N]]; [right; lia|left; exists j; split; auto; lia|]. destruct (Dg m) as [G|G]; [left; exists m; auto|].
    right. intros j J. destruct (Nat.eq_dec j m) as [->|]; auto. apply N. lia. }
  destruct (B (length args)) as [(j & _ & G)|N]; [left; eauto|]. right. intros j G. apply (N j); auto. apply (gives_lt _ _ _ _ G).
Qed.
Lemma n_le : (n <= length ps)%nat. Proof. apply SL. Qed.
Lemma reached_n i : reached ps args i <-> (i < n)%nat. Proof. apply SL. Qed.
Lemma vs_len : length vs = length ps. Proof. apply PA. Qed.
Lemma firstn_map_name k : map p_name (firstn k ps) = firstn k (map p_name ps). Proof. symmetry. apply firstn_map. Qed.
Lemma nodup_firstn {A} (l : list A) k : NoDup l -> NoDup (firstn k l).
Proof.
  intros N. revert k; induction N as [|x l X N IH]; intros [|k]; cbn; constructor; auto.
  intros Y. apply X. rewrite <- (firstn_skipn k l). apply in_or_app. now left.
Qed.
Lemma name_in k i q : (k < i)%nat -> nth_error ps k = Some q -> nth_error (map p_name (firstn i ps)) k = Some (p_name q).
Proof. intros L P. rewrite nth_error_map, nth_firstn by auto. now rewrite P. Qed.
Lemma env_has x u : rho x = Some u -> env x = Has u.
Proof. unfold env. now intros ->. Qed.
(** a slot, where the first m locals are bound *)
Lemma default_run i p d v m c : nth_error ps i = Some p -> p_default p = Some d -> (forall j, ~ gives ps args i j) -> nth_error vs i = Some v ->
  (leaves_defaults ps args -> (Nat.min i n <= m)%nat) ->
  (forall x, ~ In x (map p_name ps) -> c x = env x) ->
  (leaves_defaults ps args -> forall k q w, (k < m)%nat -> k <> i -> nth_error ps k = Some q -> nth_error vs k = Some w -> c (p_name q) = Has w) ->
  ceval c d = Has v.
Proof.
  intros P Dp NG V M C1 C2. destruct PA as [LV PV]. destruct (PV i p v P V) as [_ X]. destruct (X NG) as (d' & D' & E). rewrite Dp in D'. injection D' as <-.
  refine (ceval_agree _ _ _ _ _ E). intros x HI u U. destruct (HO i p d x P Dp NG HI) as [[NI RG]|(LD & k & q & K & R & Q & <-)].
  - rewrite C1 by auto. apply env_has. rewrite RG. rewrite before_out in U; auto. intros Y. apply NI.
    apply in_map_iff in Y as (q & <- & Y). apply in_map. rewrite <- (firstn_skipn i ps). apply in_or_app. now left.
  - assert (KV : (k < length vs)%nat) by (rewrite LV; apply nth_error_Some; congruence).
    destruct (nth_error vs k) as [w|] eqn:W; [|apply nth_error_None in W; lia].
    rewrite (before_in (firstn i ps) vs glob k q w) in U; auto.
    + injection U as <-. apply (C2 LD k q w); auto; [|lia]. apply reached_n in R. specialize (M LD). lia.
    + rewrite firstn_map_name. now apply nodup_firstn.
    + now rewrite nth_firstn.
Qed.
Lemma given_run i j a v c : gives ps args i j -> nth_error args j = Some a -> nth_error vs i = Some v ->
  (forall x, In x (names (snd a)) -> c x = env x) -> ceval c (snd a) = Has v.
Proof.
  intros G A V C. destruct PA as [_ PV]. pose proof G as (p & a' & P & _ & _). destruct (PV i p v P V) as [X _].
  refine (ceval_agree _ _ _ _ _ (X j a G A)). intros x HI u U. rewrite C by auto. now apply env_has.
Qed.
Lemma locals_run : leaves_defaults ps args ->
  locals env (combine (map p_name (firstn n ps)) es) = (map Has (firstn n vs), bindall env (combine (map p_name (firstn n ps)) (map Has (firstn n vs)))).
Proof.
  intros LD. pose proof n_le as NL. pose proof vs_len as VL. destruct SL as (_ & _ & SE).
  apply locals_ok; rewrite ?map_length, ?firstn_length; try (unfold n in *; lia).
  intros i x e v HX HE HV. assert (I : (i < n)%nat) by (apply nth_error_Some; congruence).
  rewrite nth_error_map, nth_firstn in HX by auto. destruct (nth_error ps i) as [p|] eqn:P; [|discriminate]. cbn in HX. injection HX as <-.
  rewrite nth_firstn in HV by auto. rewrite firstn_combine, !firstn_map, !firstn_firstn. replace (Nat.min i n) with i by lia.
  set (c0 := bindall env (combine (map p_name (firstn i ps)) (map Has (firstn i vs)))).
  assert (FST : map fst (combine (map p_name (firstn i ps)) (map Has (firstn i vs))) = map p_name (firstn i ps)).
  { apply map_fst_combine. rewrite !map_length, !firstn_length. lia. }
  assert (OUT : forall y, ~ In y (map p_name (firstn i ps)) -> y <> p_name p -> bind c0 (p_name p) Junk y = env y).
  { intros y Y1 Y2. unfold bind. destruct (list_eq_dec Z.eq_dec (p_name p) y); [congruence|]. unfold c0. apply bindall_out. now rewrite FST. }
  destruct (SE i e HE) as [GV DF]. destruct (given_dec i) as [(j & G)|NG].
  - pose proof G as (p' & a & P' & A & _). rewrite <- (GV j a G A). apply (given_run i j); auto.
    intros y Y. pose proof (AP LD i j a y G A Y) as NI.
    assert (SP : map p_name (firstn (S i) ps) = map p_name (firstn i ps) ++ [p_name p]).
    { rewrite <- (firstn_skipn i (firstn (S i) ps)), firstn_firstn, map_app. replace (Nat.min i (S i)) with i by lia. f_equal.
      rewrite skipn_firstn_comm. replace (S i - i)%nat with 1%nat by lia.
      assert (HD : nth_error (skipn i ps) 0 = Some p) by (rewrite nth_error_skipn, Nat.add_0_r; auto). destruct (skipn i ps); [discriminate|]. cbn in HD. now injection HD as ->. }
    rewrite SP in NI. apply OUT; intros Z; apply NI, in_or_app; [now left|right; left; congruence].
  - destruct (DF NG) as (p' & P' & D'). rewrite P in P'. injection P' as <-.
    apply (default_run i p e v i); auto.
    + intros _. lia.
    + intros y Y. apply OUT.
      * intros Z. apply Y. apply in_map_iff in Z as (q & <- & Z). apply in_map. rewrite <- (firstn_skipn i ps). apply in_or_app. now left.
      * intros ->. apply Y. apply in_map. now apply nth_error_In in P.
    + intros _ k q w K _ Q W. unfold bind. destruct (list_eq_dec Z.eq_dec (p_name p) (p_name q)) as [E|_].
      * pose proof (name_inj ps i k p q ND P Q E). lia.
      * unfold c0. apply (bindall_in _ _ _ _ k); [rewrite FST, firstn_map_name; now apply nodup_firstn|].
        apply nth_error_combine; [now apply name_in|]. rewrite nth_error_map, nth_firstn, W; auto.
Qed.
Lemma call_run : crun rho (emit_call ps es) = Passed vs.
Proof.
  pose proof n_le as NL. pose proof vs_len as VL. unfold emit_call, crun. fold env n.
  destruct (Nat.eq_dec n (length ps)) as [EQ|NE].
  - rewrite EQ, skipn_all. cbn [existsb map]. rewrite app_nil_r.
    assert (R : map (ceval env) es = map Has vs).
    { apply nth_error_same. intros i. rewrite !nth_error_map. destruct (nth_error es i) as [e|] eqn:E.
      - assert (I : (i < n)%nat) by (apply nth_error_Some; congruence).
        destruct (nth_error vs i) as [v|] eqn:V; [|apply nth_error_None in V; lia]. cbn. f_equal.
        destruct SL as (_ & _ & SE). destruct (SE i e E) as [GV DF]. destruct (given_dec i) as [(j & G)|NG].
        + pose proof G as (p' & a & P' & A & _). rewrite <- (GV j a G A). apply (given_run i j); auto.
        + destruct (DF NG) as (p & P & D'). assert (NLD : ~ leaves_defaults ps args) by (intros (k & K & NK); apply NK, reached_n; lia).
          apply (default_run i p e v O); auto; intros LD; now apply NLD in LD.
      - apply nth_error_None in E. fold n in E. rewrite (proj2 (nth_error_None vs i)); auto. lia. }
    rewrite R. cbn [has_absent existsb orb values]. now rewrite absent_has, values_has.
  - assert (LD : leaves_defaults ps args) by (exists n; split; [lia|]; intros R; apply reached_n in R; lia).
    assert (DEF : forall i p, (n <= i)%nat -> nth_error ps i = Some p -> (forall j, ~ gives ps args i j) /\ exists d, p_default p = Some d).
    { intros i p I P. assert (NG : forall j, ~ gives ps args i j) by (intros j G; assert (R : reached ps args i) by (exists i, j; auto); apply reached_n in R; lia).
      split; auto. destruct PA as [_ PV]. assert (IL : (i < length ps)%nat) by (apply nth_error_Some; congruence).
      destruct (nth_error vs i) as [v|] eqn:V; [|apply nth_error_None in V; lia].
      destruct (PV i p v P V) as [_ X]. destruct (X NG) as (d & Dd & _). eauto. }
    assert (EX : existsb (fun p => match p_default p with Some _ => true | None => false end) (skipn n ps) = true).
    { destruct (nth_error ps n) as [p|] eqn:P; [|apply nth_error_None in P; lia]. destruct (DEF n p ltac:(lia) P) as [_ (d & Dd)].
      apply existsb_exists. exists p. rewrite Dd. split; auto. apply (nth_error_In _ 0). now rewrite nth_error_skipn, Nat.add_0_r. }
    rewrite EX. rewrite (locals_run LD). cbn [fst snd].
    set (c := bindall env _).
    assert (FST : map fst (combine (map p_name (firstn n ps)) (map Has (firstn n vs))) = map p_name (firstn n ps)).
    { apply map_fst_combine. rewrite !map_length, !firstn_length. lia. }
    assert (IN : forall k q w, (k < n)%nat -> nth_error ps k = Some q -> nth_error vs k = Some w -> c (p_name q) = Has w).
    { intros k q w K Q W. unfold c. apply (bindall_in _ _ _ _ k); [rewrite FST, firstn_map_name; now apply nodup_firstn|].
      apply nth_error_combine; [now apply name_in|]. rewrite nth_error_map, nth_firstn, W; auto. }
    assert (R : map (ceval c) (map (fun p => Var (p_name p)) (firstn n ps) ++ map (fun p => match p_default p with Some d => d | None => Num 0 end) (skipn n ps)) = map Has vs).
    { apply nth_error_same. intros i. rewrite !nth_error_map. destruct (nth_error vs i) as [v|] eqn:V.
      - assert (I : (i < length ps)%nat) by (rewrite <- VL; apply nth_error_Some; congruence).
        destruct (nth_error ps i) as [p|] eqn:P; [|apply nth_error_None in P; lia].
        destruct (Nat.lt_ge_cases i n) as [L|L].
        + rewrite nth_error_app1 by (rewrite map_length, firstn_length; lia). rewrite nth_error_map, nth_firstn, P by auto. cbn. f_equal. now apply (IN i).
        + rewrite nth_error_app2 by (rewrite map_length, firstn_length; lia). rewrite map_length, firstn_length, nth_error_map, nth_error_skipn.
          replace (n + (i - Nat.min n (length ps)))%nat with i by lia. rewrite P. cbn. destruct (DEF i p L P) as [NG (d & Dd)]. rewrite Dd. f_equal.
          apply (default_run i p d v n); auto; [lia| |].
          * intros x X. unfold c. apply bindall_out. rewrite FST. intros Z. apply X. apply in_map_iff in Z as (q & <- & Z). apply in_map.
            rewrite <- (firstn_skipn n ps). apply in_or_app. now left.
          * intros _ k q w K _ Q W. now apply (IN k).
      - apply nth_error_None in V. cbn. rewrite (proj2 (nth_error_None _ i)); auto. rewrite app_length, !map_length, firstn_length, skipn_length. lia. }
    rewrite R. now rewrite !absent_has, !values_has.
Qed.
End Run.
