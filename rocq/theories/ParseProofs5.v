(** C60: what is parsed without complaint is an expression of the grammar (no braces). *)
From Verif Require Import Base LexSpec NameModel NameProofs ParseSpec ParseModel ParseProofs ParseProofs2 ParseProofs3.

Definition ne (s : ps) : nat := length (errs s).
Lemma ne_after : forall s s', after s s' -> (ne s <= ne s')%nat.
Proof. intros s s' [_ [l L]]. unfold ne. rewrite L, app_length. lia. Qed.
Lemma ne_err : forall c s, ne (err c s) = S (ne s).
Proof. reflexivity. Qed.
Definition nb (ts : list token) : Prop := Forall (fun t => tkind t <> LBRACE) ts.
Definition he (ts : list token) : Prop := exists a t, ts = a ++ [t] /\ tkind t = EOF.
Lemma he_tl : forall t ts, he (t :: ts) -> tkind t <> EOF -> he ts.
Proof.
  intros t ts ([|u a] & x & E & K) N; cbn [app] in E; injection E as -> E; [now contradict N|]. exists a, x. now split.
Qed.
Lemma nb_app : forall a b, nb (a ++ b) -> nb b.
Proof. intros a b H. now apply Forall_app in H. Qed.
Lemma he_final : forall ts rest, ts <> [] -> he (ts ++ rest) -> he (final ts :: rest).
Proof.
  intros ts rest N (a & t & E & K). destruct rest as [|r rest].
  - rewrite app_nil_r in E. subst ts. rewrite final_snoc. now exists [], t.
  - destruct (exists_last (l := r :: rest) ltac:(discriminate)) as (b & x & X). rewrite X in *. rewrite app_assoc in E. apply app_inj_tail in E as [_ <-].
    exists (final ts :: b), x. now split.
Qed.
Lemma nb_final : forall ts rest, ts <> [] -> nb (ts ++ rest) -> nb (final ts :: rest).
Proof.
  intros ts rest N H. apply Forall_app in H as [A B]. constructor; [|exact B].
  destruct (exists_last N) as (a & t & ->). rewrite final_snoc. apply Forall_app in A as [_ A]. now apply Forall_inv in A.
Qed.
(** A token of a kind other than EOF is really there *)
Lemma toks_cur : forall s k, curk s = k -> k <> EOF -> exists t r, toks s = t :: r /\ tkind t = k /\ cur s = t.
Proof.
  intros [[|t r] nl es] k H N; unfold curk, cur in H; cbn [toks hd] in H; [now subst k|]. exists t, r. now repeat split.
Qed.
Lemma toks_peek : forall s k, peekk s = k -> k <> EOF -> exists t u r, toks s = t :: u :: r /\ tkind u = k.
Proof.
  intros [[|t [|u r]] nl es] k H N; unfold peekk, peek in H; cbn [toks tl hd] in H; [now subst k|now subst k|]. exists t, u, r. now repeat split.
Qed.
Lemma ne_next : forall s, (ne s <= ne (next s))%nat.
Proof. intros s. apply ne_after, after_next. Qed.
Lemma nolit_irrelevant : forall s, nb (toks s) -> is (peekk s) LBRACE = false.
Proof.
  intros s H. destruct (is (peekk s) LBRACE) eqn:E; [|reflexivity]. apply is_iff in E. destruct (toks_peek s LBRACE E) as (t & u & r & T & K); [discriminate|].
  rewrite T in H. apply Forall_inv_tail, Forall_inv in H. contradiction.
Qed.

Ltac repl H := match type of H with ?x = _ => repeat match goal with K : context [x] |- _ => lazymatch K with H => fail | _ => rewrite H in K end end; rewrite ?H end.
Section Sound.
Context (known : bytes -> bool).
Notation EX := (expression known).
Notation G := (is_expr (kn known) false).
Definition lev (p : Z) : nat := if p =? 10 then 10%nat else S (Z.to_nat p).
(** What a parse of an expression has read *)
Definition got (n d : nat) (s : ps) (e : expr) (s' : ps) (ts rest : list token) : Prop :=
  ts <> [] /\ toks s = ts ++ rest /\ toks s' = final ts :: rest /\ forall lit, G lit n d ts e.
Definition sound (d : nat) : Prop := forall p s e s', 0 <= p <= 10 -> EX d p s = Ok (Some e, s') -> (ne s' <= ne s)%nat -> complete e = true ->
  nb (toks s) -> he (toks s) -> exists ts rest, got (lev p) d s e s' ts rest /\ prec_of (hdk rest) <= p.

Lemma sub_inv : forall d p s k e s', sub (EX d) p s k = Ok (Some e, s') -> exists o s1,
  EX d p s = Ok (o, s1) /\ after s s1 /\ k (match o with Some e => e | None => Missing end) s1 = Ok (Some e, s').
Proof.
  intros d p s k e s' H. unfold sub in H. destruct (expression_good known d p s) as (o & s1 & E & A). rewrite E in H. cbn [rbind fst snd] in H. now exists o, s1.
Qed.
Lemma expecting_inv : forall k s f e s', expecting k s f = Ok (Some e, s') -> peekk s = k /\ f (next s) = Ok (Some e, s').
Proof.
  intros k s f e s' H. unfold expecting, expect in H. destruct (is (peekk s) k) eqn:K; [|discriminate]. apply is_iff in K. now split.
Qed.
Lemma down : forall lit n m d ts e, (m <= n)%nat -> (n <= PRIMARY)%nat -> G lit n d ts e -> G lit m d ts e.
Proof.
  intros lit n m d ts e H N D. induction H as [|n H IH]; [exact D|]. apply IH; [lia|]. apply tighter; [lia|exact D].
Qed.

(** An operand followed by a closing token *)
Lemma operand : forall d s o s1 q, sound d -> EX d LOWEST s = Ok (o, s1) -> complete (match o with Some e => e | None => Missing end) = true ->
  (ne s1 <= ne s)%nat -> nb (toks s) -> he (toks s) -> peekk s1 = q -> q <> EOF ->
  exists e ts t r, o = Some e /\ ts <> [] /\ toks s = ts ++ t :: r /\ tkind t = q /\ toks s1 = final ts :: t :: r /\
    (forall lit, G lit 1 d ts e) /\ nb (t :: r) /\ he (t :: r).
Proof.
  intros d s o s1 q S E C N B H P Q. destruct o as [e|]; [|discriminate C].
  destruct (S LOWEST s e s1) as (ts & rest & (NE & T & T1 & D) & _); try assumption; [unfold LOWEST; lia|].
  destruct rest as [|t r]; [unfold peekk, peek in P; rewrite T1 in P; cbn in P; now subst q|].
  unfold peekk, peek in P. rewrite T1 in P. cbn [tl hd] in P. exists e, ts, t, r. rewrite T in B, H.
  split; [reflexivity|]. split; [exact NE|]. split; [exact T|]. split; [exact P|]. split; [exact T1|]. split; [exact D|]. split; [exact (nb_app _ _ B)|].
  pose proof (he_final _ _ NE H) as HH. destruct HH as ([|x a] & y & Y & K); cbn [app] in Y; injection Y as Y1 Y2; [discriminate Y2|]. exists a, y. now split.
Qed.
Lemma sub_operand : forall d s k e s' q, sound d -> sub (EX d) LOWEST s k = Ok (Some e, s') ->
  (forall x s1, k x s1 = Ok (Some e, s') -> complete x = true /\ (ne s1 <= ne s')%nat /\ peekk s1 = q) -> (ne s' <= ne s)%nat -> q <> EOF ->
  nb (toks s) -> he (toks s) ->
  exists x s1 ts t r, k x s1 = Ok (Some e, s') /\ (ne s <= ne s1 <= ne s')%nat /\ ts <> [] /\ toks s = ts ++ t :: r /\ tkind t = q /\ toks s1 = final ts :: t :: r /\
    (forall lit, G lit 1 d ts x) /\ nb (t :: r) /\ he (t :: r).
Proof.
  intros d s k e s' q S H K N Q B HE. destruct (sub_inv _ _ _ _ _ _ H) as (o & s1 & E & A & KE). destruct (K _ _ KE) as (C & N1 & P).
  pose proof (ne_after _ _ A) as NA.
  destruct (operand d s o s1 q S E C ltac:(lia) B HE P Q) as (x & ts & t & r & -> & NE & T & KT & T1 & D & B1 & H1).
  exists x, s1, ts, t, r. split; [exact KE|]. split; [lia|]. split; [exact NE|]. split; [exact T|]. split; [exact KT|]. split; [exact T1|].
  split; [exact D|]. now split.
Qed.

(** What a primary or unary expression has read *)
Definition prim (d : nat) (s : ps) (e : expr) (s' : ps) : Prop :=
  exists n ts rest, got n (S d) s e s' ts rest /\ (n = PRIMARY \/ n = UNARY /\ prec_of (hdk rest) <= 10) /\
    (is_ref e -> tkind (final ts) = RPAREN \/ hdk rest <> DOT).
Lemma toks_eq : forall s t r, toks s = t :: r -> toks (next s) = r.
Proof. intros s t r T. now rewrite next_toks, T. Qed.

Lemma s_ident : forall d s e s', curk s = IDENT -> nb (toks s) -> identifier known (EX d) s = Ok (Some e, s') -> prim d s e s'.
Proof.
  intros d s e s' K B H. destruct (toks_cur s IDENT K) as (t & r & T & KT & C); [discriminate|].
  assert (X : e = Name (literal t) /\ toks s' = toks s).
  { unfold identifier in H. rewrite C in H. rewrite (nolit_irrelevant s B) in H. cbn [andb] in H.
    rewrite (nolit_irrelevant (next (next s))) in H.
    2: { rewrite !next_toks. rewrite T in *. cbn [tl]. apply Forall_inv_tail in B. destruct r; [constructor|]. now apply Forall_inv_tail in B. }
    assert (Y : is (peekk (Ps (toks s) (nolit s) (errs (next (next s))))) LBRACE = false) by exact (nolit_irrelevant s B).
    rewrite Y in H. rewrite andb_false_r in H. cbn [andb] in H. destruct (_ && _ && _) in H; injection H as <- <-; now split. }
  destruct X as [-> X]. exists PRIMARY, [t], r. split; [|split; [now left|]].
  - split; [discriminate|]. split; [exact T|]. split; [now rewrite X, T|]. intros lit. now apply label.
  - intros [f F]. discriminate F.
Qed.
Lemma s_value : forall d s, literal_kind (curk s) -> prim d s (Value (curk s) (literal (cur s))) s.
Proof.
  intros d s K. destruct (toks_cur s (curk s) eq_refl) as (t & r & T & KT & C).
  { intros X. rewrite X in K. cbn in K. repeat destruct K as [K|K]; try discriminate; contradiction. }
  rewrite C, <- KT in *. exists PRIMARY, [t], r. split; [|split; [now left|]].
  - split; [discriminate|]. split; [exact T|]. split; [exact T|]. intros lit. now apply value.
  - intros [f F]. discriminate F.
Qed.
Lemma s_unary : forall d s e s', sound d -> prefix_operator (curk s) -> prefix_expression (EX d) s = Ok (Some e, s') -> (ne s' <= ne s)%nat -> complete e = true ->
  nb (toks s) -> he (toks s) -> prim d s e s'.
Proof.
  intros d s e s' S K H N C B HE. destruct (toks_cur s (curk s) eq_refl) as (t & r & T & KT & CU); [destruct K as [->|[->| ->]]; discriminate|].
  unfold prefix_expression in H. destruct (sub_inv _ _ _ _ _ _ H) as (o & s1 & E & A & KE). injection KE as <- <-.
  destruct o as [x|]; [|discriminate C]. cbn [complete] in C.
  pose proof (ne_next s) as N1. pose proof (ne_after _ _ A) as N2. pose proof (toks_eq _ _ _ T) as T1.
  destruct (S PREFIX (next s) x s1) as (ts & rest & (NE & TT & TS & D) & PR).
  { unfold PREFIX. lia. } { exact E. } { lia. } { exact C. } { rewrite T1. rewrite T in B. now apply Forall_inv_tail in B. }
  { rewrite T1. rewrite T in HE. apply (he_tl _ _ HE). rewrite KT. destruct K as [->|[->| ->]]; discriminate. }
  exists UNARY, (t :: ts), rest. split; [|split; [right; now split|]].
  - split; [discriminate|]. split; [rewrite T; cbn [app]; now rewrite <- TT, T1|]. split; [destruct ts; [easy|exact TS]|].
    intros lit. rewrite <- KT. apply unary; [now rewrite KT|]. exact (D lit).
  - intros [f F]. discriminate F.
Qed.
Lemma s_variant : forall d s e s', curk s = DOT -> curk (next s) = IDENT -> Ok (Some (Variant (literal (cur (next s)))), next s) = Ok (Some e, s') -> prim d s e s'.
Proof.
  intros d s e s' K K2 H. injection H as <- <-. destruct (toks_cur s DOT K) as (t & r & T & KT & _); [discriminate|].
  destruct (toks_cur (next s) IDENT K2) as (u & r' & T2 & KU & CU); [discriminate|]. rewrite (toks_eq _ _ _ T) in T2. subst r.
  exists PRIMARY, [t; u], r'. split; [|split; [now left|]].
  - split; [discriminate|]. split; [exact T|]. split; [exact (toks_eq _ _ _ T)|]. intros lit. rewrite CU. now apply variant.
  - intros [f F]. discriminate F.
Qed.
Lemma s_path : forall n e s e' s', path n e s = Ok (e', s') -> he (toks s) -> exists t ms rest, toks s = t :: ms ++ rest /\ toks s' = final (t :: ms) :: rest /\
  hdk rest <> DOT /\ is_path (kn known) false e ms e'.
Proof.
  induction n as [|n IH]; intros e s e' s' H HE; [discriminate|]. cbn [path] in H. destruct (is (peekk s) DOT) eqn:K.
  - apply is_iff in K. destruct (toks_peek s DOT K) as (t & p & r & T & KP); [discriminate|].
    assert (NT : he (p :: r)).
    { rewrite T in HE. destruct HE as ([|a l] & y & Y & KY); cbn [app] in Y; injection Y as Y1 Y2; [discriminate|]. exists l, y. now split. }
    pose proof (he_tl _ _ NT ltac:(congruence)) as HR.
    assert (T2 : toks (next (next s)) = r) by (rewrite !next_toks, T; reflexivity).
    destruct r as [|m r]; [destruct HR as ([|? ?] & ? & Y & _); discriminate|].
    destruct (IH _ _ _ _ H) as (t' & ms & rest & T3 & T4 & D & GP); [now rewrite T2|]. rewrite T2 in T3. injection T3 as <- T3.
    exists t, (p :: m :: ms), rest. split; [rewrite T; cbn [app]; now rewrite T3|]. split; [exact T4|]. split; [exact D|].
    apply path_member; [exact KP|unfold name; discriminate|]. unfold cur in GP. rewrite T2 in GP. exact GP.
  - injection H as <- <-. destruct HE as (a & y & Y & KY). rewrite Y. destruct (a ++ [y]) as [|t r] eqn:Z; [now destruct a|].
    exists t, [], r. split; [reflexivity|]. split; [reflexivity|]. split; [|constructor]. intros X. assert (Q : peekk s = DOT) by (unfold peekk, peek; now rewrite Y).
    rewrite Q in K. discriminate K.
Qed.
Lemma s_grouped : forall d s e s', sound d -> curk s = LPAREN -> grouped (EX d) s = Ok (Some e, s') -> (ne s' <= ne s)%nat -> complete e = true ->
  nb (toks s) -> he (toks s) -> prim d s e s'.
Proof.
  intros d s e s' S K H N C B HE. destruct (toks_cur s LPAREN K) as (p & r & T & KP & CU); [discriminate|].
  pose proof (toks_eq _ _ _ T) as T1. rewrite T in HE, B. pose proof (he_tl _ _ HE ltac:(congruence)) as HR. pose proof (Forall_inv_tail B) as BR.
  unfold grouped in H. destruct (is (peekk s) RPAREN) eqn:KQ.
  - apply is_iff in KQ. destruct (toks_peek s RPAREN KQ) as (p' & q & r' & T' & KKQ); [discriminate|]. rewrite T in T'. injection T' as <- ->.
    pose proof (he_tl _ _ HR ltac:(congruence)) as HR2. assert (T2 : toks (next (next s)) = r') by (rewrite !next_toks, T; reflexivity).
    destruct (is (curk (next (next s))) IDENT) eqn:KT; [|discriminate]. apply is_iff in KT.
    destruct (toks_cur _ IDENT KT) as (t & r2 & T3 & KKT & CT); [discriminate|]. rewrite T2 in T3. rewrite T3 in T2, T, HR2.
    destruct (path _ _ _) as [[x sx]| | |] eqn:PA in H; try discriminate. cbn [rbind fst snd] in H. injection H as <- <-.
    destruct (s_path _ _ _ _ _ PA) as (t' & ms & rest & T5 & T4 & D & GP); [now rewrite T2|]. rewrite T2 in T5. injection T5 as <- ->. rewrite CT in GP.
    exists PRIMARY, (p :: q :: t :: ms), rest. split; [|split; [now left|]].
    + split; [discriminate|]. split; [exact T|]. split; [exact T4|]. intros lit. apply (func_ref (kn known) false lit d p q t ms x KP KKQ KKT GP).
    + intros _. now right.
  - destruct (expression_good known d LOWEST (next s)) as (o & s1 & E & A). rewrite E in H. cbn [rbind fst snd] in H.
    unfold expecting, expect in H. destruct (is (peekk s1) RPAREN) eqn:KR; [|discriminate]. apply is_iff in KR. injection H as -> <-.
    pose proof (ne_next s). pose proof (ne_next s1). pose proof (ne_after _ _ A).
    destruct (operand d (next s) (Some e) s1 RPAREN S E C) as (x & ts & q & r' & X & NE & TT & KQ2 & TS & D & B1 & HE1); try assumption; try discriminate; try lia.
    { now rewrite T1. } { now rewrite T1. } injection X as <-.
    exists PRIMARY, (p :: ts ++ [q]), r'. rewrite T1 in TT. split; [|split; [now left|]].
    + split; [discriminate|]. split; [rewrite T, TT; cbn [app]; now rewrite <- app_assoc|].
      split; [rewrite (toks_eq _ _ _ TS); f_equal; symmetry; exact (final_snoc (p :: ts) q)|]. intros lit. apply group; [exact KP|exact KQ2|exact (D lit)].
    + intros _. left. replace (final (p :: ts ++ [q])) with q by (symmetry; exact (final_snoc (p :: ts) q)). exact KQ2.
Qed.
Lemma s_cast : forall d s e s', sound d -> curk s = CAST -> cast (EX d) s = Ok (Some e, s') -> (ne s' <= ne s)%nat -> complete e = true ->
  nb (toks s) -> he (toks s) -> prim d s e s'.
Proof.
  intros d s e s' S K H N C B HE. destruct (toks_cur s CAST K) as (c & r & T & KC & CU); [discriminate|].
  unfold cast in H. apply expecting_inv in H as [KP H]. destruct (toks_peek s LPAREN KP) as (c' & p & r2 & T' & KP'); [discriminate|]. rewrite T in T'. injection T' as <- ->.
  assert (T2 : toks (next (next s)) = r2) by (rewrite !next_toks, T; reflexivity).
  pose proof HE as HE0. rewrite T in HE, B. apply he_tl in HE; [|congruence]. apply he_tl in HE; [|congruence]. apply Forall_inv_tail, Forall_inv_tail in B.
  pose proof (ne_next s). pose proof (ne_next (next s)).
  apply (sub_operand d _ _ _ _ COMMA S) in H; try (rewrite T2; assumption); try discriminate; try lia.
  2: { intros x s1 F. apply expecting_inv in F as [KK F]. destruct (is _ LBRACKET) in F.
       - apply expecting_inv in F as [KB F]. apply expecting_inv in F as [KR F]. injection F as <- <-. cbn [complete] in C. split; [exact C|]. split; [|exact KK].
         pose proof (ne_next s1). pose proof (ne_next (next s1)). pose proof (ne_next (next (next s1))). pose proof (ne_next (next (next (next s1)))). pose proof (ne_next (next (next (next (next s1))))). lia.
       - apply expecting_inv in F as [KR F]. injection F as <- <-. cbn [complete] in C. split; [exact C|]. split; [|exact KK].
         pose proof (ne_next s1). pose proof (ne_next (next s1)). pose proof (ne_next (next (next s1))). lia. }
  destruct H as (x & s1 & ts & k & r3 & F & NN & NE & TT & KK & TS & D & B3 & HE3).
  apply expecting_inv in F as [_ F]. rewrite T2 in TT. subst r2. pose proof (he_tl _ _ HE3 ltac:(congruence)) as HE4.
  assert (T3 : toks (next (next s1)) = r3) by (rewrite !next_toks, TS; reflexivity).
  destruct r3 as [|t r3]; [destruct HE4 as ([|? ?] & ? & Y & _); discriminate|].
  assert (CT : curk (next (next s1)) = tkind t) by (unfold curk, cur; now rewrite T3).
  assert (CT' : cur (next (next s1)) = t) by (unfold cur; now rewrite T3).
  rewrite CT in F. destruct (is (tkind t) LBRACKET) eqn:KB.
  - apply is_iff in KB. apply expecting_inv in F as [KRB F]. apply expecting_inv in F as [KR F]. injection F as <- <-.
    assert (T4 : toks (next (next (next s1))) = r3) by (rewrite next_toks, T3; reflexivity).
    destruct (toks_peek _ _ KRB) as (u & b & r4 & T5 & KB2); [discriminate|]. rewrite T4 in T5. repl T5.
    destruct (toks_peek _ _ KR) as (b' & q & r5 & T6 & KQ); [discriminate|]. rewrite next_toks, T4 in T6. cbn [tl] in T6. injection T6 as <- ->.
    exists PRIMARY, (c :: p :: ts ++ [k; t; u; b; q]), r5. split; [|split; [now left|]].
    + split; [discriminate|]. split; [rewrite T; cbn [app]; now rewrite <- app_assoc|].
      split; [rewrite !next_toks, TS; cbn [tl]; f_equal; symmetry; exact (final_app (c :: p :: ts) k [t; u; b; q])|].
      intros lit. assert (CU2 : cur (next (next (next s1))) = u) by (unfold cur; now rewrite T4). rewrite CU2.
      apply cast_array; try assumption; [unfold name; discriminate|exact (D lit)].
    + intros [f F]. discriminate F.
  - apply expecting_inv in F as [KR F]. injection F as <- <-.
    destruct (toks_peek _ _ KR) as (t' & q & r5 & T6 & KQ); [discriminate|]. rewrite T3 in T6. injection T6 as <- ->.
    exists PRIMARY, (c :: p :: ts ++ [k; t; q]), r5. split; [|split; [now left|]].
    + split; [discriminate|]. split; [rewrite T; cbn [app]; now rewrite <- app_assoc|].
      split; [rewrite !next_toks, TS; cbn [tl]; f_equal; symmetry; exact (final_app (c :: p :: ts) k [t; q])|].
      intros lit. rewrite CT'. apply (ParseSpec.cast (kn known) false); try assumption; [unfold name; discriminate| |exact (D lit)].
      intros X. apply is_iff in X. congruence.
    + intros [f F]. discriminate F.
Qed.
Lemma wild_in : forall t, wild t = false -> ~ In 63 t.
Proof. intros t W I. unfold wild in W. assert (existsb (Z.eqb 63) t = true) by (apply existsb_exists; exists 63; split; [exact I|reflexivity]). congruence. Qed.
Lemma s_new : forall d s e s', curk s = NEW -> new_expr s = Ok (Some e, s') -> (ne s' <= ne s)%nat -> he (toks s) -> prim d s e s'.
Proof.
  intros d s e s' K H N HE. destruct (toks_cur s NEW K) as (w & r & T & KW & CU); [discriminate|].
  unfold new_expr in H. set (c0 := bs "E2070") in H. clearbody c0. apply expecting_inv in H as [KP H]. destruct (toks_peek s LPAREN KP) as (w' & p & r2 & T' & KP'); [discriminate|]. rewrite T in T'. injection T' as <- ->.
  assert (T2 : toks (next (next s)) = r2) by (rewrite !next_toks, T; reflexivity).
  rewrite T in HE. apply he_tl in HE; [|congruence]. apply he_tl in HE; [|congruence].
  destruct r2 as [|m r2]; [destruct HE as ([|? ?] & ? & Y & _); discriminate|].
  set (s2 := next (next s)) in *. assert (N2 : (ne s <= ne s2)%nat) by (unfold s2; pose proof (ne_next s); pose proof (ne_next (next s)); lia). clearbody s2.
  assert (CM : cur s2 = m) by (unfold cur; now rewrite T2). assert (CK : curk s2 = tkind m) by (unfold curk; now rewrite CM).
  destruct (read_type_name s2) as [t s3] eqn:R. apply expecting_inv in H as [KQ H]. injection H as <- <-.
  pose proof (read_type_name_after s2) as A. rewrite R in A. cbn [snd] in A. pose proof (ne_after _ _ A) as NA.
  pose proof (ne_next (err_if (wild t) c0 s3)) as N4.
  destruct (wild t) eqn:W; cbn [err_if] in *; [rewrite ne_err in N4; lia|]. apply wild_in in W.
  assert (NQ : tkind m <> QUESTION).
  { intros X. unfold read_type_name in R. rewrite CK, X in R. injection R as <- <-. apply W. left. reflexivity. }
  assert (R' : (if is (peekk s2) DOT then (literal (cur s2) ++ bs "_" ++ literal (cur (next (next s2))), next (next s2)) else (literal (cur s2), s2)) = (t, s3)).
  { unfold read_type_name in R. rewrite CK in R. destruct (tkind m); try exact R. now contradict NQ. }
  clear R. rewrite CM in R'. destruct (is (peekk s2) DOT) eqn:KD.
  - apply is_iff in KD. destruct (toks_peek s2 DOT KD) as (m' & c & r3 & T3 & KC); [discriminate|]. rewrite T2 in T3. injection T3 as <- ->.
    assert (T4 : toks (next (next s2)) = r3) by (rewrite !next_toks, T2; reflexivity). injection R' as <- <-.
    destruct (toks_peek _ _ KQ) as (u & q & r4 & T5 & KKQ); [discriminate|]. rewrite T4 in T5. repl T5.
    assert (CU2 : cur (next (next s2)) = u) by (unfold cur; now rewrite T4). rewrite CU2 in W |- *.
    exists PRIMARY, [w; p; m; c; u; q], r4. split; [|split; [now left|]].
    + split; [discriminate|]. split; [exact T|]. split; [rewrite next_toks, T4; reflexivity|]. intros lit.
      apply new_imported; try assumption; try (unfold name; discriminate); intros I; apply W; apply in_or_app; [now left|]. right. now right.
    + intros [f F]. discriminate F.
  - injection R' as <- <-. destruct (toks_peek _ _ KQ) as (u & q & r4 & T5 & KKQ); [discriminate|]. rewrite T2 in T5. injection T5 as <- ->.
    exists PRIMARY, [w; p; m; q], r4. split; [|split; [now left|]].
    + split; [discriminate|]. split; [exact T|]. split; [rewrite next_toks, T2; reflexivity|]. intros lit. apply new; try assumption. unfold name; discriminate.
    + intros [f F]. discriminate F.
Qed.
Lemma s_range : forall d s e s', sound d -> curk s = RANGE -> range (EX d) s = Ok (Some e, s') -> (ne s' <= ne s)%nat -> complete e = true ->
  nb (toks s) -> he (toks s) -> prim d s e s'.
Proof.
  intros d s e s' S K H N C B HE. destruct (toks_cur s RANGE K) as (c & r & T & KC & CU); [discriminate|].
  unfold range in H. apply expecting_inv in H as [KP H]. destruct (toks_peek s LPAREN KP) as (c' & p & r2 & T' & KP'); [discriminate|]. rewrite T in T'. injection T' as <- ->.
  assert (T2 : toks (next (next s)) = r2) by (rewrite !next_toks, T; reflexivity).
  rewrite T in HE, B. apply he_tl in HE; [|congruence]. apply he_tl in HE; [|congruence]. apply Forall_inv_tail, Forall_inv_tail in B.
  pose proof (ne_next s). pose proof (ne_next (next s)). set (s2 := next (next s)) in *. clearbody s2. rewrite <- T2 in HE, B.
  destruct (sub_inv _ _ _ _ _ _ H) as (o & s3 & E & A & KE). pose proof (ne_after _ _ A). clear H. destruct (is (peekk s3) COMMA) eqn:KK.
  - apply is_iff in KK. pose proof (ne_next s3). pose proof (ne_next (next s3)).
    destruct (sub_inv _ _ _ _ _ _ KE) as (o2 & s5 & E2 & A2 & KE2). pose proof (ne_after _ _ A2). clear KE. destruct (is (peekk s5) COMMA) eqn:KJ.
    + apply is_iff in KJ. pose proof (ne_next s5). pose proof (ne_next (next s5)).
      destruct (sub_inv _ _ _ _ _ _ KE2) as (o3 & s7 & E3 & A3 & KE3). pose proof (ne_after _ _ A3). clear KE2.
      apply expecting_inv in KE3 as [KQ F]. injection F as <- <-. pose proof (ne_next s7). cbn [complete] in C. apply andb_prop in C as [C C3]. apply andb_prop in C as [C1 C2].
      destruct (operand d s2 o s3 COMMA S E C1 ltac:(lia) B HE KK) as (e1 & ts1 & k & r3 & -> & NE1 & TT1 & KKK & TS1 & D1 & B1 & HE1); [discriminate|].
      assert (T4 : toks (next (next s3)) = r3) by (rewrite !next_toks, TS1; reflexivity).
      destruct (operand d (next (next s3)) o2 s5 COMMA S E2 C2) as (e2 & ts2 & j & r4 & -> & NE2 & TT2 & KJJ & TS2 & D2 & B2 & HE2); try assumption; try discriminate; try lia.
      { rewrite T4. now apply Forall_inv_tail in B1. } { rewrite T4. apply (he_tl _ _ HE1). congruence. }
      assert (T5 : toks (next (next s5)) = r4) by (rewrite !next_toks, TS2; reflexivity).
      destruct (operand d (next (next s5)) o3 s7 RPAREN S E3 C3) as (e3 & ts3 & q & r5 & -> & NE3 & TT3 & KQQ & TS3 & D3 & B4 & HE4); try assumption; try discriminate; try lia.
      { rewrite T5. now apply Forall_inv_tail in B2. } { rewrite T5. apply (he_tl _ _ HE2). congruence. }
      exists PRIMARY, (c :: p :: ts1 ++ k :: ts2 ++ j :: ts3 ++ [q]), r5. split; [|split; [now left|]].
      * split; [discriminate|]. rewrite T2 in TT1. rewrite T4 in TT2. rewrite T5 in TT3.
        split; [rewrite T, TT1, TT2, TT3; cbn [app]; repeat (rewrite <- app_assoc; cbn [app]); reflexivity|].
        split; [rewrite next_toks, TS3; cbn [tl]; f_equal; symmetry;
          exact (eq_trans (final_app (c :: p :: ts1) k (ts2 ++ j :: ts3 ++ [q])) (eq_trans (final_app (k :: ts2) j (ts3 ++ [q])) (final_snoc (j :: ts3) q)))|].
        intros lit. apply range_step; try assumption; auto.
      * intros [f F]. discriminate F.
    + apply expecting_inv in KE2 as [KQ F]. injection F as <- <-. pose proof (ne_next s5). cbn [complete] in C. rewrite andb_true_r in C. apply andb_prop in C as [C1 C2].
      destruct (operand d s2 o s3 COMMA S E C1 ltac:(lia) B HE KK) as (e1 & ts1 & k & r3 & -> & NE1 & TT1 & KKK & TS1 & D1 & B1 & HE1); [discriminate|].
      assert (T4 : toks (next (next s3)) = r3) by (rewrite !next_toks, TS1; reflexivity).
      destruct (operand d (next (next s3)) o2 s5 RPAREN S E2 C2) as (e2 & ts2 & q & r4 & -> & NE2 & TT2 & KQQ & TS2 & D2 & B2 & HE2); try assumption; try discriminate; try lia.
      { rewrite T4. now apply Forall_inv_tail in B1. } { rewrite T4. apply (he_tl _ _ HE1). congruence. }
      exists PRIMARY, (c :: p :: ts1 ++ k :: ts2 ++ [q]), r4. split; [|split; [now left|]].
      * split; [discriminate|]. rewrite T2 in TT1. rewrite T4 in TT2.
        split; [rewrite T, TT1, TT2; cbn [app]; repeat (rewrite <- app_assoc; cbn [app]); reflexivity|].
        split; [rewrite next_toks, TS2; cbn [tl]; f_equal; symmetry; exact (eq_trans (final_app (c :: p :: ts1) k (ts2 ++ [q])) (final_snoc (k :: ts2) q))|].
        intros lit. apply range_from; try assumption; auto.
      * intros [f F]. discriminate F.
  - apply expecting_inv in KE as [KQ F]. injection F as <- <-. pose proof (ne_next s3). cbn [complete andb] in C. rewrite andb_true_r in C.
    destruct (operand d s2 o s3 RPAREN S E C ltac:(lia) B HE KQ) as (e1 & ts1 & q & r3 & -> & NE1 & TT1 & KQQ & TS1 & D1 & B1 & HE1); [discriminate|].
    exists PRIMARY, (c :: p :: ts1 ++ [q]), r3. split; [|split; [now left|]].
    + split; [discriminate|]. rewrite T2 in TT1. split; [rewrite T, TT1; cbn [app]; now rewrite <- app_assoc|].
      split; [rewrite next_toks, TS1; cbn [tl]; f_equal; symmetry; exact (final_snoc (c :: p :: ts1) q)|].
      intros lit. apply range_to; try assumption; auto.
    + intros [f F]. discriminate F.
Qed.
Lemma s_prefix : forall d s e s', sound d -> prefix known (EX d) s = Ok (Some e, s') -> (ne s' <= ne s)%nat -> complete e = true ->
  nb (toks s) -> he (toks s) -> prim d s e s'.
Proof.
  intros d s e s' S H N C B HE. unfold prefix in H.
  destruct (curk s) eqn:K; try discriminate; try (injection H as <- <-; rewrite <- K; apply s_value; rewrite K; cbn; tauto).
  all: try (apply s_unary; rewrite ?K; auto; unfold prefix_operator; tauto).
  - now apply s_ident.
  - now apply s_grouped.
  - exfalso. destruct (toks_cur s LBRACE K) as (t & r & T & KT & _); [discriminate|]. rewrite T in B. now apply Forall_inv in B.
  - destruct (is (curk (next s)) IDENT) eqn:KI.
    + apply is_iff in KI. now apply s_variant.
    + injection H as <- <-. rewrite ne_err in N. pose proof (ne_next s). lia.
  - exfalso. destruct (prefix_expression_returns (EX d) (expression_good known d) (err (bs "E2072") s)) as (a & b & E & A). rewrite E in H. injection H as -> ->.
    apply ne_after in A. rewrite ne_err in A. lia.
  - destruct (sub_inv _ _ _ _ _ _ H) as (o & s1 & E & A & F). injection F as <- <-. exfalso. apply ne_after in A.
    pose proof (ne_next (err (bs "E2086") s)) as X. rewrite ne_err in X. unfold ne in *. cbn [flag errs] in *. lia.
  - destruct (sub_inv _ _ _ _ _ _ H) as (o & s1 & E & A & F). injection F as <- <-. exfalso. apply ne_after in A.
    pose proof (ne_next (err (bs "E2086") s)) as X. rewrite ne_err in X. unfold ne in *. cbn [flag errs] in *. lia.
  - now apply s_range.
  - now apply s_new.
  - now apply s_cast.
Qed.
End Sound.
