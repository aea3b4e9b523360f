(** C60: what is parsed without complaint is an expression of the grammar, continued: operators. *)
From Verif Require Import Base LexSpec NameModel NameProofs ParseSpec ParseModel ParseProofs ParseProofs2 ParseProofs3 ParseProofs5.

Section Sound.
Context (known : bytes -> bool).
Notation EX := (expression known).
Notation G := (is_expr (kn known) false).

(** Completeness of trees is inherited *)
Lemma arguments_complete : forall d n f l s e s', arguments (EX d) n f l s = Ok (Some e, s') -> complete e = true -> exists l', e = Call f (l ++ l') /\
  complete f = true /\ forallb (fun a => complete (snd a)) (l ++ l') = true.
Proof.
  induction n as [|n IH]; intros f l s e s' H C; [discriminate|]. cbn [arguments] in H. destruct (if is _ IDENT && _ then _ else _) as [nm s1] in H.
  destruct (sub_inv _ _ _ _ _ _ _ H) as (o & s2 & _ & _ & K). destruct (is _ COMMA) in K.
  - destruct (IH _ _ _ _ _ K C) as (l' & -> & F & L). rewrite <- app_assoc in L |- *. now exists ([(nm, match o with Some e => e | None => Missing end)] ++ l').
  - apply expecting_inv in K as [_ K]. injection K as <- <-. cbn [complete] in C. apply andb_prop in C as [F L]. eexists. now split; [|split].
Qed.
Lemma infix_complete : forall d left s e s', infix (EX d) left s = Ok (Some e, s') -> complete e = true -> complete left = true.
Proof.
  intros d left s e s' H C. unfold infix in H. destruct (curk s); try (injection H as <- <-; exact C).
  all: try (unfold infix_expression in H; destruct (sub_inv _ _ _ _ _ _ _ H) as (o & s1 & _ & _ & K); injection K as <- <-; cbn [complete] in C; now apply andb_prop in C).
  - unfold call_expression in H. destruct (is _ RPAREN) in H; [injection H as <- <-; cbn [complete] in C; now apply andb_prop in C|].
    now destruct (arguments_complete _ _ _ _ _ _ _ H C) as (l' & _ & F & _).
  - unfold index_expression in H. destruct (sub_inv _ _ _ _ _ _ _ H) as (o & s1 & _ & _ & K). apply expecting_inv in K as [_ K]. injection K as <- <-.
    cbn [complete] in C. now apply andb_prop in C.
Qed.
Lemma loop_complete : forall d n p left s e s', loop (EX d) n p left s = Ok (Some e, s') -> complete e = true -> complete left = true.
Proof.
  induction n as [|n IH]; intros p left s e s' H C; [discriminate|]. cbn [loop] in H. destruct (_ && _) in H; [|injection H as <- <-; exact C].
  destruct (infix (EX d) left (next s)) as [[[x|] sx]| | |] eqn:I in H; try discriminate. cbn [rbind fst snd] in H. exact (infix_complete _ _ _ _ _ I (IH _ _ _ _ _ H C)).
Qed.

(** Arguments *)
Lemma s_arguments : forall d, sound known d -> forall n f l s e s', arguments (EX d) n f l s = Ok (Some e, s') -> (ne s' <= ne s)%nat -> complete e = true ->
  nb (toks s) -> he (toks s) -> curk s = LPAREN \/ curk s = COMMA -> exists t ta q r args, toks s = t :: ta ++ q :: r /\ tkind q = RPAREN /\ toks s' = q :: r /\
    e = Call f (l ++ args) /\ forall lit, is_args1 (kn known) false lit d ta args.
Proof.
  intros d S0. induction n as [|n IH]; intros f l s e s' H N C B HE K; [discriminate|]. cbn [arguments] in H.
  assert (KE : curk s <> EOF) by (destruct K as [->| ->]; discriminate).
  destruct (toks_cur s _ eq_refl KE) as (t & r & T & KT & _). pose proof (toks_eq _ _ _ T) as T1. rewrite T in B, HE.
  pose proof (Forall_inv_tail B) as B1. pose proof (he_tl _ _ HE ltac:(congruence)) as HE1. rewrite <- T1 in B1, HE1. clear B HE. pose proof (ne_next s) as N1.
  set (s1 := next s) in *. clearbody s1.
  assert (X : exists nm pre s2, (if is (curk s1) IDENT && is (peekk s1) COLON then (Some (literal (cur s1)), next (next s1)) else (None, s1)) = (nm, s2) /\
    toks s1 = pre ++ toks s2 /\ (ne s1 <= ne s2)%nat /\ nb (toks s2) /\ he (toks s2) /\
    forall ts x lit, G lit 1 d ts x -> is_arg (kn known) false lit d (pre ++ ts) (nm, x)).
  { destruct (is (curk s1) IDENT && is (peekk s1) COLON) eqn:KK.
    - apply andb_prop in KK as [KI KC]. apply is_iff in KI, KC. destruct (toks_peek s1 COLON KC) as (u & c & r' & TT & KC'); [discriminate|].
      assert (CU : cur s1 = u) by (unfold cur; now rewrite TT). assert (KU : tkind u = IDENT) by (unfold curk in KI; now rewrite CU in KI).
      assert (T2 : toks (next (next s1)) = r') by (rewrite !next_toks, TT; reflexivity).
      exists (Some (literal u)), [u; c], (next (next s1)). rewrite CU, T2, TT in *. split; [reflexivity|]. split; [reflexivity|].
      split; [pose proof (ne_next s1); pose proof (ne_next (next s1)); lia|]. split; [now apply Forall_inv_tail, Forall_inv_tail in B1|].
      split; [apply he_tl in HE1; [|congruence]; apply he_tl in HE1; [exact HE1|congruence]|].
      intros ts x lit D. now apply named_arg.
    - exists None, [], s1. split; [reflexivity|]. split; [reflexivity|]. split; [lia|]. split; [exact B1|]. split; [exact HE1|].
      intros ts x lit D. now apply plain_arg. }
  destruct X as (nm & pre & s2 & E2 & T2 & N2 & B2 & HE2 & AR). rewrite E2 in H.
  destruct (sub_inv _ _ _ _ _ _ _ H) as (o & s3 & E & A & KK). pose proof (ne_after _ _ A) as N3. clear H. destruct (is (peekk s3) COMMA) eqn:KC.
  - apply is_iff in KC. pose proof (ne_next s3) as N4.
    destruct (arguments_complete _ _ _ _ _ _ _ KK C) as (l' & _ & _ & CL). rewrite forallb_app in CL. apply andb_prop in CL as [CL _]. rewrite forallb_app in CL.
    apply andb_prop in CL as [_ CL]. cbn [forallb snd] in CL. rewrite andb_true_r in CL.
    assert (N5 : (ne (next s3) <= ne s')%nat).
    { destruct (arguments_returns (EX d) (expression_good known d) (S (S n + length (toks (next s3)))) f [] (next s3)) as (? & ? & _ & _); [lia|].
      destruct (Nat.le_gt_cases (ne (next s3)) (ne s')) as [L|L]; [exact L|]. exfalso.
      assert (M : after (next s3) s').
      { clear - KK known. revert KK. generalize (l ++ [(nm, match o with Some e => e | None => Missing end)]). generalize (next s3).
        induction n as [|n IH]; intros s l0 H; [discriminate|]. cbn [arguments] in H. destruct (if is _ IDENT && _ then _ else _) as [nm' s1] eqn:Q in H.
        assert (A1 : after s s1).
        { destruct (is _ IDENT && _) in Q; injection Q as <- <-; [|apply after_next]. eapply after_trans; [apply after_next|]. apply after_next2. }
        destruct (sub_inv _ _ _ _ _ _ _ H) as (o' & s2 & _ & A & K). pose proof (after_trans _ _ _ A1 A) as A2. destruct (is _ COMMA) in K.
        - apply IH in K. eapply after_trans; [exact A2|]. eapply after_trans; [apply after_next|]. exact K.
        - apply expecting_inv in K as [_ K]. injection K as <- <-. eapply after_trans; [exact A2|]. apply after_next. }
      apply ne_after in M. lia. }
    destruct (operand known d s2 o s3 COMMA S0 E CL ltac:(lia) B2 HE2 KC) as (x & ts & k & r3 & -> & NE & TT & KKC & TS & D & B3 & HE3); [discriminate|].
    pose proof (toks_eq _ _ _ TS) as T4. destruct (IH _ _ _ _ _ KK) as (k' & ta & q & r4 & args & T5 & KQ & TQ & -> & AS).
    { lia. } { exact C. } { now rewrite T4. } { now rewrite T4. } { right. now rewrite cur_next. }
    rewrite T4 in T5. injection T5 as <- ->. rewrite <- app_assoc.
    exists t, ((pre ++ ts) ++ k :: ta), q, r4, ((nm, x) :: args). split; [rewrite T, <- T1, T2, TT; cbn [app]; now rewrite <- !app_assoc|].
    split; [exact KQ|]. split; [exact TQ|]. split; [reflexivity|]. intros lit. apply more_args; [apply AR, D|exact KKC|apply AS].
  - apply expecting_inv in KK as [KQ KK]. injection KK as <- <-. pose proof (ne_next s3) as N4. cbn [complete] in C. apply andb_prop in C as [_ CL].
    rewrite forallb_app in CL. apply andb_prop in CL as [_ CL]. cbn [forallb snd] in CL. rewrite andb_true_r in CL.
    destruct (operand known d s2 o s3 RPAREN S0 E CL ltac:(lia) B2 HE2 KQ) as (x & ts & q & r3 & -> & NE & TT & KKQ & TS & D & B3 & HE3); [discriminate|].
    exists t, (pre ++ ts), q, r3, [(nm, x)]. split; [rewrite T, <- T1, T2, TT; now rewrite <- app_assoc|]. split; [exact KKQ|]. split; [exact (toks_eq _ _ _ TS)|].
    split; [reflexivity|]. intros lit. apply one_arg, AR, D.
Qed.

(** The state of the loop: the tokens ts read so far are the expression e *)
Record state (d : nat) (p : Z) (ts : list token) (e : expr) (rest : list token) (n : nat) : Prop := {
  st_ne : ts <> []; st_tree : forall lit, G lit n (S d) ts e; st_lev : (lev p <= n <= 12)%nat;
  st_prec : (n <= 10)%nat -> prec_of (hdk rest) <= Z.of_nat n;
  st_ref : is_ref e -> tkind (final ts) = RPAREN \/ hdk rest <> DOT }.

Lemma prec_level : forall k, 1 <= prec_of k <= 9 -> at_level k (Z.to_nat (prec_of k)) /\ forall E l s, curk s = k -> infix E l s = infix_expression E l s.
Proof.
  intros k H. assert (X : at_level k (Z.to_nat (prec_of k))).
  { destruct k; cbn in H; unfold LOWEST in H; try lia; (eexists; split; [reflexivity|]; split; [cbn; tauto|cbn; lia]). }
  split; [exact X|]. intros E l s. now apply level_infix with (n := Z.to_nat (prec_of k)).
Qed.
Lemma prec_range : forall k, 0 <= prec_of k <= 13.
Proof. intros k. destruct k; cbn; unfold LOWEST; lia. Qed.
Lemma lev_le : forall p, 0 <= p <= 10 -> (1 <= lev p <= 10)%nat.
Proof. intros p H. unfold lev. destruct (p =? 10) eqn:E; lia. Qed.

Lemma s_infix : forall d, sound known d -> forall p ts left rest n s e s', 0 <= p <= 10 -> state d p ts left rest n -> toks s = final ts :: rest ->
  nb (toks s) -> he (toks s) -> p < prec_of (hdk rest) -> infix (EX d) left (next s) = Ok (Some e, s') -> (ne s' <= ne s)%nat -> complete e = true ->
  exists us rest' n', us <> [] /\ rest = us ++ rest' /\ toks s' = final us :: rest' /\ state d p (ts ++ us) e rest' n'.
Proof.
  intros d S0 p ts left rest n s e s' HP [NE TR LV PR RF] T B HE PK H N C. pose proof (ne_next s) as N1. pose proof (lev_le p HP) as LP.
  assert (KE : hdk rest <> EOF) by (intros X; rewrite X in PK; cbn in PK; unfold LOWEST in PK; lia).
  destruct rest as [|op r]; [now contradict KE|]. change (hdk (op :: r)) with (tkind op) in *.
  pose proof (toks_eq _ _ _ T) as T1. rewrite T in B, HE. pose proof (Forall_inv_tail B) as B1.
  assert (HE1 : he (op :: r)).
  { destruct HE as ([|x a] & y & Y & KY); cbn [app] in Y; injection Y as Y1 Y2; [discriminate|]. exists a, y. now split. }
  pose proof (he_tl _ _ HE1 KE) as HE2. pose proof (Forall_inv_tail B1) as B2. clear HE B.
  set (s1 := next s) in *. clearbody s1. assert (CK : curk s1 = tkind op) by (unfold curk, cur; now rewrite T1).
  assert (CU : cur s1 = op) by (unfold cur; now rewrite T1). pose proof (toks_eq _ _ _ T1) as T2. pose proof (ne_next s1) as N2.
  assert (POST : forall lit, (11 <= n)%nat -> G lit POSTFIX (S d) ts left).
  { intros lit L. apply down with (n := n); [exact L|unfold PRIMARY; lia|apply TR]. }
  assert (HI : 10 < prec_of (tkind op) -> (11 <= n)%nat).
  { intros X. destruct (Nat.le_gt_cases n 10) as [L|L]; [|lia]. apply PR in L. lia. }
  destruct (Z.le_gt_cases (prec_of (tkind op)) 9) as [P9|P9].
  - (* a binary operator *)
    destruct (prec_level (tkind op) ltac:(lia)) as [AL IN]. rewrite (IN _ _ _ CK) in H. unfold infix_expression in H. rewrite CK in H.
    set (q := prec_of (tkind op)) in *. set (sup := match tkind op with IN | _ => _ end) in H. clearbody sup.
    destruct (sub_inv _ _ _ _ _ _ _ H) as (o & s3 & E & A & K). injection K as <- <-. pose proof (ne_after _ _ A) as N3.
    assert (NS : ne (if sup then flag false s3 else s3) = ne s3) by (now destruct sup). rewrite NS in N.
    assert (NS2 : ne (if sup then flag true (next s1) else next s1) = ne (next s1)) by (now destruct sup). rewrite NS2 in N3.
    assert (TS2 : toks (if sup then flag true (next s1) else next s1) = r) by (now destruct sup).
    cbn [complete] in C. apply andb_prop in C as [_ C]. destruct o as [x|]; [|discriminate C].
    destruct (S0 q (if sup then flag true (next s1) else next s1) x s3) as (us & rest' & (NE2 & TT & TS & D) & PR2).
    { lia. } { exact E. } { lia. } { exact C. } { now rewrite TS2. } { now rewrite TS2. }
    rewrite TS2 in TT. rewrite TT in T |- *. exists (op :: us), rest', (Z.to_nat q). split; [discriminate|]. split; [reflexivity|].
    split; [replace (toks (if sup then flag false s3 else s3)) with (toks s3) by (now destruct sup); destruct us; [easy|exact TS]|].
    assert (LQ : lev q = S (Z.to_nat q)) by (unfold lev; destruct (q =? 10) eqn:Q; [lia|reflexivity]).
    split.
    + intros X. apply app_eq_nil in X. now destruct X.
    + intros lit. rewrite LQ in D. apply binary; [exact AL| |apply D]. apply down with (n := n); [|unfold PRIMARY; lia|apply TR].
      destruct (Nat.le_gt_cases n 10) as [L|L]; [apply PR in L; lia|lia].
    + unfold lev. destruct (p =? 10) eqn:Q; lia.
    + intros _. lia.
    + intros [f F]. discriminate F.
  - assert (P10 : 10 < prec_of (tkind op) /\ (tkind op = LPAREN \/ tkind op = DOT \/ tkind op = LBRACKET \/ postfix_operator (tkind op))).
    { clear - P9. unfold postfix_operator. destruct (tkind op); cbn in *; unfold LOWEST in *; try lia; (split; [lia|tauto]). }
    destruct P10 as [P10 KS]. specialize (HI P10).
    assert (GAP : forall c s0, (ne (err_if (after_gap op) c s1) <= ne s0)%nat -> (ne s0 <= ne s)%nat -> after_gap op = false).
    { intros c s0 X Y. destruct (after_gap op); [|reflexivity]. cbn [err_if] in X. rewrite ne_err in X. lia. }
    destruct KS as [KS|[KS|[KS|KS]]]; unfold infix in H; rewrite CK in H.
    + rewrite KS in H. unfold call_expression in H. rewrite CU in H. set (c0 := bs "E2073") in H. clearbody c0.
      assert (Q : after_gap op = false).
      { destruct (after_gap op) eqn:Q; [|reflexivity]. exfalso. cbn [err_if] in H. destruct (is (peekk (err c0 s1)) RPAREN).
        - injection H as <- <-. pose proof (ne_next (err c0 s1)) as X. rewrite ne_err in X. lia.
        - destruct (arguments_returns (EX d) (expression_good known d) (S (length (toks (err c0 s1)))) left [] (err c0 s1)) as (a & b & E & A); [lia|].
          rewrite E in H. injection H as -> ->. apply ne_after in A. rewrite ne_err in A. lia. }
      rewrite Q in H. cbn [err_if] in H. destruct (is (peekk s1) RPAREN) eqn:KR.
      * apply is_iff in KR. injection H as <- <-. destruct (toks_peek s1 _ KR) as (op' & q & r' & TT & KQ); [discriminate|]. rewrite T1 in TT. injection TT as <- ->.
        exists [op; q], r', POSTFIX. split; [discriminate|]. split; [reflexivity|]. split; [exact T2|]. split.
        -- intros X. apply app_eq_nil in X. now destruct X.
        -- intros lit. apply (call (kn known) false lit d ts left op [] [] q); auto. apply no_args.
        -- unfold POSTFIX. lia.
        -- unfold POSTFIX. lia.
        -- intros [f F]. discriminate F.
      * destruct (s_arguments d S0 _ _ _ _ _ _ H) as (t & ta & q & r' & args & TT & KQ & TS & -> & AS); try assumption; try lia.
        { now rewrite T1. } { now rewrite T1. } { left. congruence. } rewrite T1 in TT. injection TT as <- ->.
        exists (op :: ta ++ [q]), r', POSTFIX. split; [discriminate|]. split; [cbn [app]; now rewrite <- app_assoc|].
        split; [rewrite TS; f_equal; symmetry; exact (final_snoc (op :: ta) q)|]. split.
        -- intros X. apply app_eq_nil in X. now destruct X.
        -- intros lit. apply call; auto. now apply some_args.
        -- unfold POSTFIX. lia.
        -- unfold POSTFIX. lia.
        -- intros [f F]. discriminate F.
    + rewrite KS in H. unfold member_expression in H. rewrite CU in H. set (c0 := bs "E2074") in H. clearbody c0.
      assert (TN : toks (next (err_if (after_gap op) c0 s1)) = r) by (rewrite next_toks; destruct (after_gap op); cbn [err_if err toks]; now rewrite T1).
      assert (NN : (ne (err_if (after_gap op) c0 s1) <= ne (next (err_if (after_gap op) c0 s1)))%nat) by apply ne_next.
      set (s2 := next (err_if (after_gap op) c0 s1)) in *. clearbody s2. injection H as <- <-. pose proof (GAP c0 s2 NN N) as Q.
      destruct r as [|m r]; [destruct HE2 as ([|? ?] & ? & Y & _); discriminate|].
      assert (CM : cur s2 = m) by (unfold cur; now rewrite TN). rewrite CM.
      exists [op; m], r, POSTFIX. split; [discriminate|]. split; [reflexivity|]. split; [exact TN|]. split.
      * intros X. apply app_eq_nil in X. now destruct X.
      * intros lit. apply member; auto; [unfold name; discriminate|]. intros IR. destruct (RF IR) as [X|X]; [|now contradict X].
        destruct (exists_last NE) as (a & y & Y). exists a, y. split; [exact Y|]. rewrite Y, final_snoc in X. exact X.
      * unfold POSTFIX. lia.
      * unfold POSTFIX. lia.
      * intros [f F]. discriminate F.
    + rewrite KS in H. unfold index_expression in H. rewrite CU in H. set (c0 := bs "E2075") in H. clearbody c0.
      assert (TN : toks (next (err_if (after_gap op) c0 s1)) = r) by (rewrite next_toks; destruct (after_gap op); cbn [err_if err toks]; now rewrite T1).
      assert (NN : (ne (err_if (after_gap op) c0 s1) <= ne (next (err_if (after_gap op) c0 s1)))%nat) by apply ne_next.
      set (s2 := next (err_if (after_gap op) c0 s1)) in *. clearbody s2.
      destruct (sub_inv _ _ _ _ _ _ _ H) as (o & s3 & E & A & K). pose proof (ne_after _ _ A) as N3. apply expecting_inv in K as [KR K]. injection K as <- <-.
      pose proof (ne_next s3) as N4. cbn [complete] in C. apply andb_prop in C as [_ C].
      assert (NX : (ne s1 <= ne (err_if (after_gap op) c0 s1))%nat) by apply ne_after, after_err_if.
      pose proof (GAP c0 s2 NN ltac:(lia)) as Q. rewrite <- TN in B2, HE2.
      destruct (operand known d s2 o s3 RBRACKET S0 E C ltac:(lia) B2 HE2 KR) as (x & us & q & r3 & -> & NE2 & TT & KQ & TS & D & B3 & HE3); [discriminate|].
      rewrite TN in TT. exists (op :: us ++ [q]), r3, POSTFIX. split; [discriminate|]. split; [rewrite TT; cbn [app]; now rewrite <- app_assoc|].
      split; [rewrite (toks_eq _ _ _ TS); f_equal; symmetry; exact (final_snoc (op :: us) q)|]. split.
      * intros X. apply app_eq_nil in X. now destruct X.
      * intros lit. apply index; auto.
      * unfold POSTFIX. lia.
      * unfold POSTFIX. lia.
      * intros [f F]. discriminate F.
    + assert (H' : Ok (Some (Postfix (tkind op) left), err_if (after_gap op) (bs "E2076") s1) = Ok (Some e, s')).
      { rewrite <- H. destruct KS as [K|[K|K]]; rewrite K; unfold postfix_expression; rewrite CK, CU, K; reflexivity. }
      clear H. set (c0 := bs "E2076") in H'. clearbody c0. injection H' as <- <-. pose proof (GAP c0 _ (Nat.le_refl _) N) as Q. rewrite Q in *. cbn [err_if] in *.
      exists [op], r, POSTFIX. split; [discriminate|]. split; [reflexivity|]. split; [exact T1|]. split.
      * intros X. apply app_eq_nil in X. now destruct X.
      * intros lit. apply postfix; auto.
      * unfold POSTFIX. lia.
      * unfold POSTFIX. lia.
      * intros [f F]. discriminate F.
Qed.
Lemma s_loop : forall d, sound known d -> forall k p ts left rest n s e s', 0 <= p <= 10 -> state d p ts left rest n -> toks s = final ts :: rest ->
  nb (toks s) -> he (toks s) -> loop (EX d) k p left s = Ok (Some e, s') -> (ne s' <= ne s)%nat -> complete e = true ->
  exists us rest' n', rest = us ++ rest' /\ toks s' = final (ts ++ us) :: rest' /\ state d p (ts ++ us) e rest' n' /\ prec_of (hdk rest') <= p.
Proof.
  intros d S0. induction k as [|k IH]; intros p ts left rest n s e s' HP ST T B HE H N C; [discriminate|]. cbn [loop] in H.
  assert (PK : peekk s = hdk rest) by (unfold peekk, peek, hdk; now rewrite T). rewrite PK in H.
  destruct (negb (is (hdk rest) EOF) && (p <? prec_of (hdk rest))) eqn:G0.
  - apply andb_prop in G0 as [_ G0]. destruct (infix (EX d) left (next s)) as [[[x|] sx]| | |] eqn:I; cbn [rbind fst snd] in H; try discriminate.
    pose proof (loop_complete _ _ _ _ _ _ _ H C) as CX.
    assert (NX : (ne sx <= ne s')%nat).
    { apply ne_after. clear - H known. revert x sx H. induction k as [|k IH]; intros x sx H; [discriminate|]. cbn [loop] in H. destruct (_ && _) in H; [|injection H as <- <-; apply after_refl].
      destruct (infix_returns (EX d) (expression_good known d) x (next sx)) as (o & s2 & E & A). rewrite E in H. cbn [rbind fst snd] in H.
      destruct o as [y|]; [|discriminate]. eapply after_trans; [apply after_next|]. eapply after_trans; [exact A|]. exact (IH _ _ H). }
    destruct (s_infix d S0 p ts left rest n s x sx HP ST T B HE ltac:(lia) I ltac:(lia) CX) as (us & r' & n' & NU & RE & TX & ST').
    assert (NI : (ne s <= ne sx)%nat).
    { apply ne_after. destruct (infix_returns (EX d) (expression_good known d) left (next s)) as (o & s2 & E & A). rewrite E in I. injection I as -> ->.
      eapply after_trans; [apply after_next|]. exact A. }
    assert (FA : final (ts ++ us) = final us) by (destruct us; [easy|apply final_app]).
    rewrite T in B, HE. subst rest. assert (B' : nb (us ++ r')) by (now apply Forall_inv_tail in B).
    assert (HE' : he (us ++ r')).
    { destruct HE as ([|y a] & z & Y & KY); cbn [app] in Y; injection Y as Y1 Y2; [now apply app_eq_nil in Y2 as [-> _]|]. exists a, z. now split. }
    destruct (IH p (ts ++ us) x r' n' sx e s' HP ST') as (us' & rest' & n2 & RE & TS & ST2 & P2); try assumption; try lia.
    { now rewrite FA. } { rewrite TX. now apply nb_final. } { rewrite TX. now apply he_final. }
    exists (us ++ us'), rest', n2. rewrite RE, !app_assoc in *. repeat split; assumption || apply ST2.
  - injection H as <- <-. exists [], rest, n. rewrite app_nil_r. split; [reflexivity|]. split; [exact T|]. split; [exact ST|].
    apply andb_false_iff in G0 as [G0|G0]; [|lia]. apply negb_false_iff, is_iff in G0. rewrite G0. cbn. unfold LOWEST. lia.
Qed.
Theorem parsed_grammar : forall d, sound known d.
Proof.
  induction d as [|d IH]; intros p s e s' HP H N C B HE; [discriminate|]. cbn [expression] in H.
  destruct (prefix_returns known (EX d) (expression_good known d) s) as (o & s1 & E & A). rewrite E in H. cbn [rbind fst snd] in H.
  destruct o as [x|]; [|discriminate]. pose proof (loop_complete _ _ _ _ _ _ _ H C) as CX.
  destruct (loop_returns (EX d) (expression_good known d) (S (length (toks s1))) p x s1) as (o2 & s2 & E2 & A2); [lia|]. rewrite E2 in H. injection H as -> ->.
  apply ne_after in A, A2. destruct (s_prefix known d s x s1 IH E ltac:(lia) CX B HE) as (n & ts & rest & (NE & T & T1 & D) & LV & RF).
  pose proof (lev_le p HP) as LP.
  destruct (s_loop d IH (S (length (toks s1))) p ts x rest n s1 e s' HP) as (us & rest' & n' & RE & TS & [NE2 TR LV2 PR2 RF2] & P2).
  - split; [exact NE|exact D| | |exact RF].
    + unfold PRIMARY, UNARY in LV. lia.
    + intros X. unfold PRIMARY, UNARY in LV. destruct LV as [->|[-> L]]; [lia|exact L].
  - exact T1.
  - rewrite T1. apply nb_final; [exact NE|]. now rewrite <- T.
  - rewrite T1. apply he_final; [exact NE|]. now rewrite <- T.
  - exact E2.
  - lia.
  - exact C.
  - exists (ts ++ us), rest'. split; [|exact P2]. split; [exact NE2|]. split; [now rewrite <- app_assoc, <- RE|]. split; [exact TS|].
    intros lit. apply down with (n := n'); [lia|unfold PRIMARY; lia|apply TR].
Qed.
End Sound.
