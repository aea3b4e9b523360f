(** Proofs about the lexer, part 4: whole sources. *)
From Coq Require Import Sorted.
From Verif Require Import Base BaseFacts StringsModel EncodingModel LexSpec LexModel LexProofs LexProofs2 LexProofs3.

Definition legal (t : token) : bool := match tkind t with ILLEGAL => false | _ => true end.
Lemma made_weak c pre ts s : made_of c pre ts s -> made_of false pre ts s.
Proof.
  induction 1 as [pre t g E L G P|pre t ts g s A B G P W N M IH|pre t ts g x s C A G P X M IH|pre t e g body C A L E G X].
  - apply made_end; auto. discriminate.
  - apply made_token; auto.
  - apply made_bad; auto.
  - apply made_open; auto.
Qed.
(** One token *)
Lemma next_spec pre r : exists t s', next_token (at_ pre r) = Some (t, s') /\
  (tkind t = EOF /\ literal t = [] /\ gap True r /\ stands_at (pre ++ r) t \/
   tkind t = ILLEGAL /\ literal t = bs "E1003" /\ rest s' = [] /\ (exists g body, r = g ++ bs "/*" ++ body /\ gap False g /\ forall a b, body <> a ++ bs "*/" ++ b) \/
   exists g c r1 k lit m, r = g ++ c :: r1 /\ gap False g /\ settled (c :: r1) /\ scan (c :: r1) = Some (k, lit, m) /\ shape (c :: r1) (k, lit, m) /\
     t = Tok k lit (tline t) (tcol t) (negb (length g =? 0)%nat) /\ stands_at (pre ++ g) t /\ s' = reads m (at_ (pre ++ g) (c :: r1))).
Proof.
  unfold next_token. rewrite at_rest. destruct (skip_spec (S (length r)) r ltac:(lia)) as (n & e & -> & H). destruct e.
  - destruct H as [-> (g & body & E & G & X)]. eexists _, _. split; [reflexivity|]. right; left. cbn [tkind literal]. split; [reflexivity|]. split; [reflexivity|].
    split; [rewrite rest_reads, at_rest; apply skipn_all|]. eauto.
  - destruct H as (g & r' & -> & -> & G & St). rewrite at_reads, at_rest. destruct r' as [|c r1].
    + eexists _, _. split; [reflexivity|]. left. cbn [tkind literal]. rewrite app_nil_r. split; [reflexivity|]. split; [reflexivity|].
      split; [eapply gap_mono; [|exact G]; auto|]. apply at_stands. discriminate.
    + destruct (scan_cases c r1) as ([[k lit] m] & Sc & Sh). rewrite Sc. eexists _, _. split; [reflexivity|]. right; right.
      exists g, c, r1, k, lit, m. cbn [tline tcol]. split; [reflexivity|]. split; [eapply gap_mono; [|exact G]; discriminate|].
      split; [exact St|]. split; [exact Sc|]. split; [exact Sh|]. split; [reflexivity|]. split.
      * apply at_stands. cbn [hd]. destruct St as [B _]. intros ->. discriminate.
      * reflexivity.
Qed.
Lemma next_end s : rest s = [] -> exists t s', next_token s = Some (t, s') /\ tkind t = EOF /\ literal t = [].
Proof. intros E. unfold next_token. rewrite E. cbn [length skip run skipn hd tl]. cbn. rewrite E. eexists _, _. split; [reflexivity|auto]. Qed.
Lemma tokens_end fuel s : rest s = [] -> exists t, tokens (S fuel) s = Some [t] /\ tkind t = EOF /\ literal t = [].
Proof. intros E. destruct (next_end s E) as (t & s' & N & K & L). exists t. cbn [tokens]. rewrite N, K. auto. Qed.
Lemma tokens_made : forall fuel pre r, (length r < fuel)%nat -> exists ts, tokens fuel (at_ pre r) = Some ts /\
  made_of (forallb legal ts) pre ts r /\ (length ts <= S (length r))%nat.
Proof.
  induction fuel as [|fuel IH]; intros pre r L; [lia|]. cbn [tokens].
  destruct (next_spec pre r) as (t & s' & -> & H). destruct H as [(K & Li & G & P)|[(K & Li & R & g & body & E & G & X)|(g & c & r1 & k & lit & m & E & G & St & Sc & Sh & T & P & ->)]].
  - rewrite K. exists [t]. split; [reflexivity|]. split; [now apply made_end|cbn; lia].
  - rewrite K. subst r. rewrite !app_length in L. cbn [length bs] in L. destruct fuel as [|fuel]; [lia|].
    destruct (tokens_end fuel s' R) as (e & -> & Ke & Le). exists [t; e]. split; [reflexivity|]. cbn [forallb]. replace (legal t) with false by (unfold legal; now rewrite K).
    split; [now apply made_open|]. rewrite !app_length. cbn; lia.
  - assert (Kt : tkind t = k) by (rewrite T; reflexivity). assert (Lt : literal t = lit) by (rewrite T; reflexivity).
    assert (Wt : after_gap t = negb (length g =? 0)%nat) by (rewrite T; reflexivity).
    rewrite E, app_length in L. cbn [length] in L.
    assert (EK : forall A (x y : A), (match tkind t with EOF => x | _ => y end) = if match k with EOF => true | _ => false end then x else y) by (intros; rewrite Kt; destruct k; reflexivity).
    rewrite EK. clear EK.
    destruct (legal t) eqn:Lg.
    + assert (NI : k <> ILLEGAL) by (intros ->; unfold legal in Lg; rewrite Kt in Lg; discriminate).
      destruct (shape_spells _ _ _ _ _ Sh NI) as (NE & M & M1 & r' & R). rewrite R in *. rewrite M, at_reads.
      assert (L' : (length r' < fuel)%nat).
      { assert (length (c :: r1) = length (spelling k lit ++ r')) by now rewrite R. rewrite app_length in H. cbn [length] in H. lia. }
      destruct (IH ((pre ++ g) ++ spelling k lit) r' L') as (ts & Ts & Md & Ln). rewrite Ts.
      exists (t :: ts). split; [destruct k; try reflexivity; contradiction|]. cbn [forallb]. rewrite Lg. cbn [andb]. rewrite E. split.
      * subst k lit. apply made_token; auto; try congruence.
        -- rewrite Wt. destruct g; [cbn; intuition discriminate|]. cbn. intuition discriminate.
        -- destruct (spelling (tkind t) (literal t)); [cbn in M; lia|discriminate].
        -- now rewrite <- app_assoc in Md.
      * cbn [length]. rewrite !app_length. lia.
    + assert (KI : k = ILLEGAL) by (unfold legal in Lg; rewrite Kt in Lg; destruct k; try discriminate; reflexivity). subst k. rewrite KI.
      pose proof (shape_pos _ _ _ _ Sh) as M1. destruct (Nat.le_gt_cases m (length (c :: r1))) as [Le|Gt].
      * set (x := firstn m (c :: r1)). assert (Lx : length x = m) by (subst x; rewrite firstn_length; lia).
        assert (Ex : c :: r1 = x ++ skipn m (c :: r1)) by apply skip_firstn. clearbody x.
        replace (reads m (at_ (pre ++ g) (c :: r1))) with (at_ ((pre ++ g) ++ x) (skipn m (c :: r1))) by (rewrite <- at_reads, <- Ex, Lx; reflexivity).
        destruct (IH ((pre ++ g) ++ x) (skipn m (c :: r1))) as (ts & -> & Md & Ln); [rewrite skipn_length; cbn [length] in *; lia|].
        exists (t :: ts). split; [reflexivity|]. cbn [forallb]. rewrite Lg. cbn [andb]. split.
        -- rewrite E, Ex. apply made_bad; auto; [destruct x; [cbn in Lx; lia|discriminate]|]. rewrite <- app_assoc in Md. now apply made_weak in Md.
        -- cbn [length]. rewrite skipn_length in Ln. rewrite E, app_length. cbn [length] in *. lia.
      * destruct fuel as [|fuel]; [lia|].
        assert (R : rest (reads m (at_ (pre ++ g) (c :: r1))) = []) by (rewrite rest_reads, at_rest; apply skipn_all2; cbn [length] in *; lia).
        destruct (tokens_end fuel _ R) as (e & -> & Ke & Le). exists [t; e]. split; [reflexivity|]. cbn [forallb]. rewrite Lg. cbn [andb]. split.
        -- rewrite E. rewrite <- (app_nil_r (c :: r1)). apply made_bad; auto; [discriminate|]. apply made_end; auto; [constructor|discriminate].
        -- rewrite E, app_length. cbn [length]. lia.
Qed.
Lemma lex_made src : exists ts, lex src = Some ts /\ made_of (forallb legal ts) [] ts src /\ (length ts <= S (length src))%nat.
Proof. unfold lex. rewrite at_create. apply tokens_made. lia. Qed.

(** The sequence of tokens ends with EOF, and only there *)
Lemma made_ends c pre ts s : made_of c pre ts s -> exists body e, ts = body ++ [e] /\ tkind e = EOF /\ Forall (fun t => tkind t <> EOF) body.
Proof.
  induction 1 as [pre t g E L G P|pre t ts g s A B G P W N M (b & e & -> & E & F)|pre t ts g x s C A G P X M (b & e & -> & E & F)|pre t e g body C A L E G X].
  - exists [], t. auto.
  - exists (t :: b), e. auto.
  - exists (t :: b), e. split; [reflexivity|]. split; [exact E|]. constructor; [congruence|exact F].
  - exists [t], e. split; [reflexivity|]. split; [exact E|]. constructor; [congruence|constructor].
Qed.

(** * Order *)
Lemma later_place a b t u : stands_at a t -> stands_at (a ++ b) u -> b <> [] -> before t u.
Proof.
  intros [L C] [L' C'] N.
  assert (U : forall s n m, since_newline s n -> since_newline s m -> n = m).
  { intros s n m [[X ->]|(x & y & -> & X & ->)] [[Y ->]|(v & w & E & Y & ->)]; auto; try (exfalso; apply X; apply in_elt); try (exfalso; subst s; apply X; apply in_elt).
    - exfalso; apply Y. apply in_elt.
    - clear -E X Y. revert v E. induction x as [|c x IH]; intros [|d v] E; cbn [app] in E.
      + injection E as ->. reflexivity.
      + injection E as <- ->. exfalso. apply X. apply in_elt.
      + injection E as -> <-. exfalso. apply Y. apply in_elt.
      + injection E as -> E. exact (IH v E). }
  pose proof (U _ _ _ C (column_spec a)) as Ca. pose proof (U _ _ _ C' (column_spec (a ++ b))) as Cb. clear U C C'.
  assert (K : forall b a, newlines a < newlines (a ++ b) \/ (newlines a = newlines (a ++ b) /\ column (a ++ b) = column a + Z.of_nat (length b))).
  { clear. intros b. induction b as [|c b IH] using rev_ind; intros a; [right; rewrite app_nil_r; cbn; lia|].
    rewrite app_assoc, newlines_snoc, column_snoc, app_length. specialize (IH a). cbn [length]. destruct (c =? 10); destruct IH as [IH|[IH IC]]; lia. }
  unfold before. specialize (K b a). assert (Z.of_nat (length b) > 0) by (destruct b; [contradiction|cbn; lia]). lia.
Qed.
Lemma made_ordered pre ts s : made_of true pre ts s -> Sorted before ts /\ match ts with [] => True | t :: _ => exists g, stands_at (pre ++ g) t end.
Proof.
  remember true as c eqn:C. induction 1 as [pre t g E L G P|pre t ts g s A B G P W N M IH|pre t ts g x s F A G P X M IH|pre t e g body F A L E G X]; try congruence.
  - split; [repeat constructor|exists g; auto].
  - destruct IH as [So H]. split; [|exists g; exact P]. constructor; [exact So|]. destruct ts as [|u ts]; [constructor|]. constructor.
    destruct H as [g' H]. eapply later_place; [exact P| |]; [rewrite <- !app_assoc in H; rewrite <- app_assoc; exact H|]. intros Q. apply app_eq_nil in Q as [Q _]. contradiction.
Qed.

(** * Writing tokens again *)
Lemma block_none body x : (forall a b, body <> a ++ bs "*/" ++ b) -> block (body ++ bs "*/" ++ x) = ((length body + 2)%nat, true).
Proof.
  induction body as [|c body IH]; intros N; [reflexivity|]. cbn [app block length]. rewrite IH.
  2:{ intros a b E. apply (N (c :: a) b). cbn [app]. now rewrite <- E. }
  destruct ((c =? 42) && (hd 0 (body ++ bs "*/" ++ x) =? 47)) eqn:E; [|reflexivity].
  destruct body as [|d body]; [cbn in E; lia|]. cbn [app hd] in E. exfalso. apply (N [] body). cbn [app bs]. assert (c = 42) by lia. assert (d = 47) by lia. subst. reflexivity.
Qed.
Lemma skip_blank fuel c r : is_blank c = true -> skip fuel (c :: r) = match skip fuel r with Some (m, e) => Some (S m, e) | None => None end.
Proof.
  intros B. destruct fuel as [|fuel]; [reflexivity|]. cbn [skip run]. rewrite B. cbn [skipn]. cbv zeta. set (r1 := skipn (run is_blank r) r).
  destruct ((hd 0 r1 =? 47) && (hd 0 (tl r1) =? 47)).
  - destruct (skip fuel _) as [[m e]|]; reflexivity.
  - destruct ((hd 0 r1 =? 47) && (hd 0 (tl r1) =? 42)); [|reflexivity]. destruct (block (tl (tl r1))) as [n ok]. destruct (skip fuel _) as [[m e]|]; reflexivity.
Qed.
Lemma skip_line fuel r2 : skip (S fuel) (47 :: 47 :: r2) =
  let n := run (fun c => negb (c =? 10)) r2 in match skip fuel (skipn n r2) with Some (m, e) => Some (2 + n + m, e)%nat | None => None end.
Proof. reflexivity. Qed.
Lemma skip_comment fuel r2 : skip (S fuel) (47 :: 42 :: r2) =
  let '(n, ok) := block r2 in match skip fuel (skipn n r2) with Some (m, e) => Some (2 + n + m, e || negb ok)%nat | None => None end.
Proof. reflexivity. Qed.
Lemma skip_exact (r' : bytes) : settled r' -> forall g, gap (r' = []) g -> forall fuel, (length (g ++ r') < fuel)%nat -> skip fuel (g ++ r') = Some (length g, false).
Proof.
  intros St g. induction 1 as [|c g B G IH|body g N G IH|body E N|body g N G IH]; intros fuel L; (destruct fuel as [|fuel]; [lia|]).
  - cbn [app length] in *. destruct r' as [|c r']; [reflexivity|]. destruct St as [St1 St2]. cbn [skip run]. rewrite St1. cbv zeta. cbn [skipn hd tl].
    destruct ((c =? 47) && (hd 0 r' =? 47)) eqn:E1; [exfalso; apply St2; lia|]. destruct ((c =? 47) && (hd 0 r' =? 42)) eqn:E2; [exfalso; apply St2; lia|]. reflexivity.
  - cbn [app]. rewrite skip_blank by now apply is_blank_spec. rewrite IH; [reflexivity|]. cbn [app length] in L. lia.
  - rewrite <- !app_assoc in *. change (bs "//" ++ body ++ (10 :: g) ++ r') with (47 :: 47 :: body ++ 10 :: g ++ r') in *. rewrite skip_line.
    replace (run (fun c => negb (c =? 10)) (body ++ 10 :: g ++ r')) with (length body).
    2:{ symmetry. apply run_app; [|reflexivity]. apply Forall_forall. intros x Hx. destruct (Z.eqb_spec x 10) as [->|]; [contradiction|reflexivity]. }
    cbv zeta. rewrite skipn_len. change (10 :: g ++ r') with ((10 :: g) ++ r') in *.
    rewrite (IH fuel); [|cbn [length] in L; rewrite app_length in L; lia]. f_equal. f_equal. rewrite !app_length. cbn [length bs]. lia.
  - rewrite E, app_nil_r in *. change (bs "//" ++ body) with (47 :: 47 :: body) in *. rewrite skip_line.
    replace (run (fun c => negb (c =? 10)) body) with (length body).
    2:{ symmetry. rewrite <- (app_nil_r body) at 1. apply run_app; [|exact Logic.I]. apply Forall_forall. intros x Hx. destruct (Z.eqb_spec x 10) as [->|]; [contradiction|reflexivity]. }
    cbv zeta. rewrite skipn_all. destruct fuel as [|fuel]; [cbn [length] in L; lia|]. change (skip (S fuel) []) with (Some (0%nat, false)). cbv iota. rewrite Nat.add_0_r. reflexivity.
  - rewrite <- !app_assoc in *. change (bs "/*" ++ body ++ bs "*/" ++ g ++ r') with (47 :: 42 :: body ++ bs "*/" ++ g ++ r') in *. rewrite skip_comment, block_none by exact N.
    replace (skipn (length body + 2) (body ++ bs "*/" ++ g ++ r')) with (g ++ r').
    2:{ change 2%nat with (length (bs "*/")). rewrite <- app_length, app_assoc. now rewrite skipn_len. }
    rewrite (IH fuel); [|cbn [length] in *; rewrite !app_length in *; cbn [length bs] in *; lia]. f_equal. f_equal. rewrite !app_length. cbn [length bs]. lia.
Qed.
Lemma tokens_keep : forall fuel pre r ts, tokens fuel (at_ pre r) = Some ts -> forallb legal ts = true ->
  exists body e, ts = body ++ [e] /\ Forall keeps (map meaning body) /\ meaning e = (EOF, []).
Proof.
  induction fuel as [|fuel IH]; intros pre r ts; [discriminate|]. cbn [tokens].
  destruct (next_spec pre r) as (t & s' & -> & H). destruct H as [(K & Li & G & P)|[(K & Li & R & g & body & E & G & X)|(g & c & r1 & k & lit & m & E & G & St & Sc & Sh & T & P & ->)]].
  - rewrite K. intros [= <-] _. exists [], t. unfold meaning. rewrite K, Li. split; [reflexivity|split; [constructor|reflexivity]].
  - rewrite K. destruct (tokens fuel s'); intros [= <-]. cbn [forallb]. unfold legal at 1. rewrite K. discriminate.
  - assert (Kt : tkind t = k) by (rewrite T; reflexivity). assert (Lt : literal t = lit) by (rewrite T; reflexivity).
    destruct (legal t) eqn:Lg.
    + assert (NI : k <> ILLEGAL) by (intros ->; unfold legal in Lg; rewrite Kt in Lg; discriminate).
      destruct (shape_spells _ _ _ _ _ Sh NI) as (NE & M & M1 & r' & R). rewrite R, M, at_reads.
      destruct (tokens fuel (at_ ((pre ++ g) ++ spelling k lit) r')) as [ts'|] eqn:Ts; [|rewrite Kt; destruct k; try discriminate; contradiction].
      intros Hs. assert (ts = t :: ts') as -> by (rewrite Kt in Hs; destruct k; try congruence; contradiction). cbn [forallb]. rewrite Lg. cbn [andb]. intros F.
      destruct (IH _ _ _ Ts F) as (body & e & -> & Fk & Me). exists (t :: body), e. split; [reflexivity|]. split; [|exact Me]. cbn [map]. constructor; [|exact Fk].
      unfold meaning. rewrite Kt, Lt. exact (shape_keeps _ _ _ _ _ Sh NI).
    + rewrite Kt. intros Hs F. exfalso. assert (KI : k = ILLEGAL) by (unfold legal in Lg; rewrite Kt in Lg; destruct k; try discriminate; reflexivity). subst k. rewrite KI in Hs.
      destruct (tokens fuel _); [|discriminate]. injection Hs as <-. cbn [forallb] in F. rewrite Lg in F. discriminate.
Qed.
Lemma laid_tokens ms s : laid_out ms s -> forall body, ms = body ++ [(EOF, [])] -> Forall keeps body ->
  forall fuel pre, (length s < fuel)%nat -> exists ts, tokens fuel (at_ pre s) = Some ts /\ map meaning ts = ms.
Proof.
  induction 1 as [g G|k lit ms g s G Sp Ly IH]; intros body E F fuel pre L; (destruct fuel as [|fuel]; [lia|]).
  - cbn [tokens]. unfold next_token. rewrite at_rest. pose proof (skip_exact [] Logic.I g) as Sk. rewrite app_nil_r in Sk.
    assert (G' : gap (@nil Z = []) g) by (eapply gap_mono; [|exact G]; auto). rewrite (Sk G' (S (length g))) by lia.
    replace (reads (length g) (at_ pre g)) with (at_ (pre ++ g) []) by (rewrite <- at_reads, app_nil_r; reflexivity). rewrite at_rest. cbn [tkind]. eexists. split; reflexivity.
  - destruct body as [|b body]; [destruct ms; [inversion Ly|discriminate]|]. cbn [app] in E. injection E as <- ->. apply Forall_cons_iff in F as [Kp F']. destruct Kp as (KE & KI & KN & KS).
    destruct (KS s Sp) as [St Sc]. cbn [tokens]. unfold next_token. rewrite at_rest.
    assert (G' : gap (spelling k lit ++ s = []) g) by (eapply gap_mono; [|exact G]; intros []).
    rewrite (skip_exact _ St g G' (S (length (g ++ spelling k lit ++ s)))) by lia. rewrite at_reads, at_rest.
    destruct (spelling k lit ++ s) as [|c r] eqn:Er; [apply app_eq_nil in Er as [Er _]; contradiction|]. rewrite Sc. cbn [tkind].
    rewrite <- Er. rewrite at_reads. rewrite !app_length in L.
    destruct (IH body eq_refl F' fuel ((pre ++ g) ++ spelling k lit)) as (ts & Ts & Mt).
    { assert (length (spelling k lit) > 0)%nat by (destruct (spelling k lit); [contradiction|cbn; lia]). rewrite <- Er, app_length in L. lia. }
    rewrite Ts. eexists. split; [destruct k; try reflexivity; contradiction|]. cbn [map]. now rewrite Mt.
Qed.

(** * Words *)
Lemma word_char_spec c : word_char c = true <-> word_letter c.
Proof. unfold word_char, word_letter, isalpha, isupper, islower, isdigit. lia. Qed.
Definition may_split (e : kind * bytes) : Prop :=
  fst e = INT \/ fst e = FLOAT \/ In e [(NOT_IN, bs "!in"); (SUPPRESS, bs "#suppress"); (STRICT, bs "#strict"); (FLAGS, bs "#flags"); (DOC, bs "#doc"); (JSON_ATTR, bs "#json")].
Lemma ops_split : Forall (fun e => word_char (last (snd e) 0) = true -> may_split e) ops.
Proof. unfold may_split. repeat (constructor; [cbn -[bs In]; first [discriminate|intros _; right; right; cbn; tauto]|]). constructor. Qed.
Lemma shape_split c r1 k lit m r' : shape (c :: r1) (k, lit, m) -> k <> ILLEGAL -> c :: r1 = spelling k lit ++ r' ->
  word_char (last (spelling k lit) 0) = true -> word_char (hd 0 r') = true -> may_split (k, lit).
Proof.
  intros H N R W1 W2. remember (c :: r1) as r eqn:Rr. remember (k, lit, m) as f eqn:F.
  destruct H as [e n L|k' l r2 I E|r2 E|r2 E|r2 E|k' d r2 E A B|d r2 n k' E A B].
  - injection F as <- <- <-. contradiction.
  - injection F as <- <- <-. destruct (op_kind _ _ I) as (_ & _ & _ & Y & _). rewrite Y in *. pose proof ops_split as O. rewrite Forall_forall in O. exact (O _ I W1).
  - exfalso. unfold scan_string in F. destruct (str 0 r2) as [n [e|]]; destruct (hd 0 (skipn n r2) =? 34); injection F as <- _ _; try contradiction. cbn [spelling] in W1. rewrite app_assoc, last_last in W1. discriminate.
  - exfalso. unfold scan_raw in F. destruct (hd 0 _ =? 96); injection F as <- _ _; try contradiction. cbn [spelling] in W1. rewrite app_assoc, last_last in W1. discriminate.
  - exfalso. unfold scan_char in F. destruct (if hd 0 r2 =? 92 then _ else _) as [n0 e0]. cbv zeta in F. destruct (if negb (hd 0 (skipn n0 r2) =? 39) && _ && _ then _ else _) as [n [e|]];
      destruct (hd 0 (skipn n r2) =? 39); injection F as <- _ _; try contradiction. cbn [spelling] in W1. rewrite app_assoc, last_last in W1. discriminate.
  - exfalso. injection F as <- <- <-. destruct (lookup_kind _ _ B) as (_ & _ & Y). rewrite Y in *. clear Rr E B Y W1. destruct (run_spec word_char r) as (a & b & -> & La & W & Nb).
    rewrite <- La, firstn_len in R. apply app_inv_head in R. subst r'. destruct b as [|x b]; [discriminate|]. cbn [hd] in W2. congruence.
  - injection F as <- <- <-. rewrite E in B. destruct (read_number_le _ _ _ _ A B) as [_ [-> | ->]]; [left|right; left]; reflexivity.
Qed.
Lemma tokens_split : forall fuel pre r ts, tokens fuel (at_ pre r) = Some ts -> forallb legal ts = true -> forall a t u b, ts = a ++ t :: u :: b ->
  after_gap u = false -> word_letter (last (spelling (tkind t) (literal t)) 0) -> word_letter (hd 0 (spelling (tkind u) (literal u))) -> may_split (meaning t).
Proof.
  induction fuel as [|fuel IH]; intros pre r ts; [discriminate|]. cbn [tokens].
  destruct (next_spec pre r) as (t0 & s' & -> & H). destruct H as [(K & Li & G & P)|[(K & Li & R & g & body & E & G & X)|(g & c & r1 & k & lit & m & E & G & St & Sc & Sh & T & P & ->)]].
  - rewrite K. intros [= <-] _ [|x [|y a]] t u b; discriminate.
  - rewrite K. destruct (tokens fuel s'); intros [= <-]. cbn [forallb]. unfold legal at 1. rewrite K. discriminate.
  - assert (Kt : tkind t0 = k) by (rewrite T; reflexivity). assert (Lt : literal t0 = lit) by (rewrite T; reflexivity).
    destruct (legal t0) eqn:Lg.
    + assert (NI : k <> ILLEGAL) by (intros ->; unfold legal in Lg; rewrite Kt in Lg; discriminate).
      destruct (shape_spells _ _ _ _ _ Sh NI) as (NE & M & M1 & r' & R). rewrite R in *. rewrite M, at_reads.
      destruct (tokens fuel (at_ ((pre ++ g) ++ spelling k lit) r')) as [ts'|] eqn:Ts; [|rewrite Kt; destruct k; try discriminate; contradiction].
      intros Hs. assert (ts = t0 :: ts') as -> by (rewrite Kt in Hs; destruct k; try congruence; contradiction). cbn [forallb]. rewrite Lg. cbn [andb]. intros F a t u b Ea Gu Wt Wu.
      destruct a as [|a0 a]; cbn [app] in Ea; injection Ea as <- Ea; [|exact (IH _ _ _ Ts F a t u b Ea Gu Wt Wu)].
      unfold meaning. rewrite Kt, Lt in *.
      apply (shape_split c r1 k lit m r'); [rewrite R; exact Sh|exact NI|exact R|now apply word_char_spec|].
      (* the next token starts at r' *)
      subst ts'. destruct fuel as [|fuel']; [discriminate|]. cbn [tokens] in Ts.
      destruct (next_spec ((pre ++ g) ++ spelling k lit) r') as (v & s2 & Ev & H). rewrite Ev in Ts.
      assert (v = u). { destruct (tkind v); try (destruct (tokens fuel' s2); [|discriminate]); congruence. } subst v.
      destruct H as [(K' & Li' & _ & _)|[(K' & _)|(g' & c' & r1' & k' & lit' & m' & E' & _ & _ & _ & Sh' & T' & _)]].
      * exfalso. rewrite K', Li' in Wu. unfold word_letter in Wu. cbn in Wu. lia.
      * exfalso. cbn [forallb] in F. unfold legal at 1 in F. rewrite K' in F. discriminate.
      * assert (K1 : tkind u = k') by (rewrite T'; reflexivity). assert (L1 : literal u = lit') by (rewrite T'; reflexivity).
        assert (G1 : after_gap u = negb (length g' =? 0)%nat) by (rewrite T'; reflexivity). rewrite Gu in G1. destruct g'; [|discriminate]. cbn [app] in E'. subst r'.
        assert (NI' : k' <> ILLEGAL). { intros ->. cbn [forallb] in F. unfold legal at 1 in F. rewrite K1 in F. discriminate. }
        destruct (shape_spells _ _ _ _ _ Sh' NI') as (_ & M' & M1' & q & Eq). rewrite K1, L1 in Wu.
        destruct (spelling k' lit') as [|x w]; [cbn in M'; lia|]. cbn [app] in Eq. injection Eq as <- _. cbn [hd] in *. now apply word_char_spec.
    + rewrite Kt. intros Hs F. exfalso. assert (KI : k = ILLEGAL) by (unfold legal in Lg; rewrite Kt in Lg; destruct k; try discriminate; reflexivity). subst k. rewrite KI in Hs.
      destruct (tokens fuel _); [|discriminate]. injection Hs as <-. cbn [forallb] in F. rewrite Lg in F. discriminate.
Qed.
