(** Facts about ParseModel: kinds, every function returns, tokens are only consumed and diagnostics only added. *)
From Verif Require Import Base LexSpec NameModel ParseSpec ParseModel.

(** * Kinds *)
Definition kinds : list kind :=
  [ILLEGAL; EOF; IDENT; INT; FLOAT; STRING; RAW_STRING; CHAR; ASSIGN; PLUS; MINUS; BANG; ASTERISK; SLASH; PERCENT;
   LT; GT; EQ; NOT_EQ; LT_EQ; GT_EQ; PLUS_ASSIGN; MINUS_ASSIGN; ASTERISK_ASSIGN; SLASH_ASSIGN; PERCENT_ASSIGN;
   INCREMENT; DECREMENT; AND; OR; COMMA; COLON; SEMICOLON; LPAREN; RPAREN; LBRACE; RBRACE; LBRACKET; RBRACKET; CARET;
   ARROW; DOT; AT; AMPERSAND; QUESTION; SUPPRESS; STRICT; FLAGS; DOC; JSON_ATTR; MUT; CONST; DO; RETURN; IF; OR_KW;
   OTHERWISE; FOR; FOR_EACH; AS_LONG_AS; LOOP; BREAK; CONTINUE; IN; NOT_IN; RANGE; IMPORT; USING; STRUCT; ENUM; NIL;
   NEW; TRUE; FALSE; BLANK; ENSURE; OR_RETURN; MODULE; PRIVATE; USE; WHEN; IS; DEFAULT; CAST; BIT_AND; BIT_OR;
   BIT_XOR; BIT_NOT; BIT_SHIFT_LEFT; BIT_SHIFT_RIGHT].
Lemma number_nth : forall k, nth (number k) kinds ILLEGAL = k.
Proof. now intros []. Qed.
Lemma is_iff : forall a b, is a b = true <-> a = b.
Proof.
  intros a b. unfold is. rewrite Nat.eqb_eq. split; [|now intros ->].
  intros H. rewrite <- (number_nth a), <- (number_nth b). now rewrite H.
Qed.
Lemma is_refl : forall a, is a a = true.
Proof. intros a. now apply is_iff. Qed.
Lemma is_not : forall a b, a <> b -> is a b = false.
Proof. intros a b H. destruct (is a b) eqn:E; [|reflexivity]. now apply is_iff in E. Qed.

(** * Progress *)
Definition after (s s' : ps) : Prop := (exists a, toks s = a ++ toks s') /\ (exists l, errs s' = l ++ errs s).
Lemma after_refl : forall s, after s s.
Proof. intros s. split; now exists []. Qed.
Lemma after_trans : forall a b c, after a b -> after b c -> after a c.
Proof.
  intros a b c [[x X] [l L]] [[y Y] [m M]]. split.
  - exists (x ++ y). now rewrite <- app_assoc, <- Y.
  - exists (m ++ l). now rewrite <- app_assoc, <- L.
Qed.
Lemma after_next : forall s, after s (next s).
Proof.
  intros [ts nl es]. unfold next. cbn [toks nolit errs].
  assert (A : forall e, after (Ps ts nl es) (Ps (tl ts) nl (e ++ es))).
  { intros e. split; cbn [toks errs]; [|now exists e]. destruct ts as [|t ts]; [now exists []|now exists [t]]. }
  destruct (peekk _); try exact (A []); exact (A [_]).
Qed.
Lemma after_err : forall c s, after s (err c s).
Proof. intros c s. split; [now exists []|now exists [c]]. Qed.
Lemma after_err_if : forall b c s, after s (err_if b c s).
Proof. intros [] c s; [apply after_err|apply after_refl]. Qed.
Lemma after_flag : forall b s, after s (flag b s).
Proof. intros b s. split; now exists []. Qed.
Lemma after_length : forall s s', after s s' -> (length (toks s') <= length (toks s))%nat.
Proof. intros s s' [[a ->] _]. rewrite app_length. lia. Qed.
Lemma after_if : forall (b : bool) s x y, after s x -> after s y -> after s (if b then x else y).
Proof. now intros []. Qed.
Lemma next_toks : forall s, toks (next s) = tl (toks s).
Proof. intros [ts nl es]. unfold next. cbn [toks]. now destruct (peekk _). Qed.
Lemma next_less : forall s, peekk s <> EOF -> (length (toks (next s)) < length (toks s))%nat.
Proof.
  intros s H. rewrite next_toks. destruct s as [[|t [|u ts]] nl es]; try (now contradict H). cbn [toks tl length]. lia.
Qed.
Lemma next_cur : forall s, curk s <> EOF -> (length (toks (next s)) < length (toks s))%nat.
Proof.
  intros s H. rewrite next_toks. destruct s as [[|t ts] nl es]; try (now contradict H). cbn [toks tl length]. lia.
Qed.
Lemma cur_next : forall s, curk (next s) = peekk s.
Proof. intros s. unfold curk, cur, peekk, peek. now rewrite next_toks. Qed.
#[export] Hint Resolve after_refl after_next after_err after_err_if after_flag : core.

Definition returns {A} (s : ps) (r : res (A * ps)) : Prop := exists a s', r = Ok (a, s') /\ after s s'.
Lemma returns_ok {A} : forall s (a : A) s', after s s' -> returns s (Ok (a, s')).
Proof. intros s a s' H. now exists a, s'. Qed.
Lemma returns_bind {A B} : forall s (r : res (A * ps)) (f : A * ps -> res (B * ps)),
  returns s r -> (forall a s', after s s' -> returns s' (f (a, s'))) -> returns s (rbind r f).
Proof.
  intros s r f (a & s' & -> & H) K. destruct (K a s' H) as (b & s'' & E & H'). cbn [rbind]. rewrite E. exists b, s''.
  split; [reflexivity|]. exact (after_trans _ _ _ H H').
Qed.
Lemma returns_from {A} : forall s s' (r : res (A * ps)), after s s' -> returns s' r -> returns s r.
Proof. intros s s' r H (a & s'' & -> & H'). exists a, s''. split; [reflexivity|]. exact (after_trans _ _ _ H H'). Qed.

Definition good (E : Z -> ps -> res (option expr * ps)) : Prop := forall p s, returns s (E p s).

Section Total.
Context (known : bytes -> bool) (E : Z -> ps -> res (option expr * ps)) (G : good E).
Lemma sub_returns : forall p s k, (forall e s', after s s' -> returns s' (k e s')) -> returns s (sub E p s k).
Proof. intros p s k H. apply returns_bind; [apply G|]. intros a s' A. now apply H. Qed.
Lemma expecting_returns : forall k s f, (forall s', after s s' -> is (peekk s) k = true -> s' = next s -> returns s' (f s')) -> returns s (expecting k s f).
Proof.
  intros k s f H. unfold expecting, expect. destruct (is (peekk s) k) eqn:K.
  - apply (returns_from _ (next s)); [apply after_next|]. now apply H; [apply after_next| |].
  - now apply returns_ok.
Qed.
Lemma prefix_expression_returns : forall s, returns s (prefix_expression E s).
Proof.
  intros s. unfold prefix_expression. apply (returns_from _ (next s)); [apply after_next|]. apply sub_returns.
  intros e s' A. now apply returns_ok.
Qed.
Lemma path_returns : forall n e s, (length (toks s) < n)%nat -> returns s (path n e s).
Proof.
  induction n as [|n IH]; intros e s H; [lia|]. cbn [path]. destruct (is (peekk s) DOT) eqn:K; [|now apply returns_ok].
  apply is_iff in K. pose proof (next_less s ltac:(now rewrite K)) as N. pose proof (after_length _ _ (after_next (next s))).
  apply (returns_from _ (next (next s))); [exact (after_trans _ _ _ (after_next s) (after_next _))|]. apply IH. lia.
Qed.
Lemma grouped_returns : forall s, returns s (grouped E s).
Proof.
  intros s. unfold grouped. destruct (is (peekk s) RPAREN).
  - apply (returns_from _ (next (next s))); [exact (after_trans _ _ _ (after_next s) (after_next _))|].
    destruct (is _ IDENT); [|now apply returns_ok].
    apply returns_bind; [apply path_returns; lia|]. intros a s' A. now apply returns_ok.
  - apply (returns_from _ (next s)); [apply after_next|]. apply returns_bind; [apply G|].
    intros a s' A. cbn [fst snd]. apply expecting_returns. intros s'' A' _ _. now apply returns_ok.
Qed.
Lemma fields_returns : forall n name l s, (length (toks s) < n)%nat -> returns s (fields E n name l s).
Proof.
  induction n as [|n IH]; intros name l s H; [lia|]. cbn [fields].
  assert (R : curk s <> EOF -> returns s (expecting COLON s (fun s0 => sub E LOWEST (next s0) (fun e s1 =>
      let s2 := if is (peekk s1) COMMA then next s1 else s1 in fields E n name (l ++ [(literal (cur s), e)]) (next s2))))).
  { intros NE. apply expecting_returns. intros s' A K ->. apply is_iff in K.
    apply (returns_from _ (next (next s))); [apply after_next|]. apply sub_returns. intros e s' A'.
    assert (A2 : after s' (next (if is (peekk s') COMMA then next s' else s'))).
    { destruct (is _ _); [exact (after_trans _ _ _ (after_next s') (after_next _))|apply after_next]. }
    apply (returns_from _ _ _ A2). apply IH.
    pose proof (next_less s ltac:(now rewrite K)). pose proof (after_length _ _ (after_next (next s))).
    pose proof (after_length _ _ A'). pose proof (after_length _ _ A2). lia. }
  destruct (curk s); try (apply R; discriminate); now apply returns_ok.
Qed.
Lemma struct_literal_returns : forall name s, returns s (struct_literal E name s).
Proof. intros name s. unfold struct_literal. apply (returns_from _ (next s)); [apply after_next|]. apply fields_returns. lia. Qed.
Lemma after_next2 : forall s, after s (next (next s)).
Proof. intros s. exact (after_trans _ _ _ (after_next s) (after_next _)). Qed.
Lemma less_next2 : forall s, peekk s <> EOF -> (length (toks (next (next s))) < length (toks s))%nat.
Proof. intros s H. pose proof (next_less s H). pose proof (after_length _ _ (after_next (next s))). lia. Qed.
Lemma pairs_returns : forall n l s, (length (toks s) < n)%nat -> returns s (pairs E n l s).
Proof.
  induction n as [|n IH]; intros l s H; [lia|]. cbn [pairs].
  assert (F : forall s', returns s' (Ok (Some (Map l), if is (peekk s') RBRACE then next s' else s'))).
  { intros s'. apply returns_ok. now apply after_if. }
  destruct (is (peekk s) COMMA) eqn:K; [|apply F]. apply is_iff in K.
  apply (returns_from _ _ _ (after_next2 s)). destruct (is _ RBRACE); [apply F|].
  pose proof (less_next2 s ltac:(now rewrite K)) as L.
  apply sub_returns. intros k s1 A1. apply expecting_returns. intros s2 A2 _ _.
  apply (returns_from _ _ _ (after_next s2)). apply sub_returns. intros v s3 A3. apply IH.
  pose proof (after_length _ _ A1). pose proof (after_length _ _ A2). pose proof (after_length _ _ A3).
  pose proof (after_length _ _ (after_next s2)). lia.
Qed.
Lemma elements_returns : forall n l s, (length (toks s) < n)%nat -> returns s (elements E n l s).
Proof.
  induction n as [|n IH]; intros l s H; [lia|]. cbn [elements].
  assert (F : forall s', returns s' (Ok (Some (Array l), if is (peekk s') RBRACE then next s' else s'))).
  { intros s'. apply returns_ok. now apply after_if. }
  destruct (is (peekk s) COMMA) eqn:K; [|apply F]. apply is_iff in K.
  apply (returns_from _ _ _ (after_next2 s)). destruct (is _ RBRACE).
  { apply (returns_from _ _ _ (after_err (bs "E2017") _)). apply F. }
  pose proof (less_next2 s ltac:(now rewrite K)) as L.
  apply sub_returns. intros k s1 A1. apply IH. pose proof (after_length _ _ A1). lia.
Qed.
Lemma brace_returns : forall s, returns s (brace E s).
Proof.
  intros s. unfold brace. apply (returns_from _ _ _ (after_next s)). set (s1 := next s). clearbody s1.
  destruct (is (curk s1) RBRACE); [now apply returns_ok|].
  destruct (is (curk s1) COLON && is (peekk s1) RBRACE); [now apply returns_ok|].
  assert (A : after s1 (if is (curk s1) COMMA then next (err (bs "E2017") s1) else s1)).
  { destruct (is _ _); [|apply after_refl]. exact (after_trans _ _ _ (after_err _ _) (after_next _)). }
  apply (returns_from _ _ _ A). apply sub_returns. intros e s2 _. destruct (is (peekk s2) COLON).
  - apply (returns_from _ _ _ (after_next2 s2)). apply sub_returns. intros v s3 _. apply pairs_returns. lia.
  - apply elements_returns. lia.
Qed.
Lemma cast_returns : forall s, returns s (cast E s).
Proof.
  intros s. unfold cast. apply expecting_returns. intros s1 _ _ _.
  apply (returns_from _ _ _ (after_next s1)). apply sub_returns. intros e s2 _.
  apply expecting_returns. intros s3 _ _ _. apply (returns_from _ _ _ (after_next s3)). destruct (is _ LBRACKET).
  - apply (returns_from _ _ _ (after_next (next s3))). apply expecting_returns. intros s4 _ _ _.
    apply expecting_returns. intros s5 _ _ _. now apply returns_ok.
  - apply expecting_returns. intros s5 _ _ _. now apply returns_ok.
Qed.
Lemma read_type_name_after : forall s, after s (snd (read_type_name s)).
Proof.
  intros s. unfold read_type_name.
  assert (A : after s (snd (if is (peekk s) DOT then (literal (cur s) ++ bs "_" ++ literal (cur (next (next s))), next (next s)) else (literal (cur s), s)))).
  { destruct (is _ _); [apply after_next2|apply after_refl]. }
  destruct (curk s); try exact A. apply after_refl.
Qed.
Lemma new_expr_returns : forall s, returns s (new_expr s).
Proof.
  intros s. unfold new_expr. apply expecting_returns. intros s1 _ _ _.
  apply (returns_from _ _ _ (after_next s1)). pose proof (read_type_name_after (next s1)) as A.
  destruct (read_type_name (next s1)) as [t s2]. cbn [snd] in A. apply (returns_from _ _ _ A).
  apply (returns_from _ _ _ (after_err_if (wild t) (bs "E2070") s2)). apply expecting_returns. intros s5 _ _ _. now apply returns_ok.
Qed.
Lemma range_returns : forall s, returns s (range E s).
Proof.
  intros s. unfold range. apply expecting_returns. intros s1 _ _ _.
  apply (returns_from _ _ _ (after_next s1)). apply sub_returns. intros a s2 _.
  destruct (is (peekk s2) COMMA).
  - apply (returns_from _ _ _ (after_next2 s2)). apply sub_returns. intros b s3 _. destruct (is (peekk s3) COMMA).
    + apply (returns_from _ _ _ (after_next2 s3)). apply sub_returns. intros c s4 _.
      apply expecting_returns. intros s5 _ _ _. now apply returns_ok.
    + apply expecting_returns. intros s5 _ _ _. now apply returns_ok.
  - apply expecting_returns. intros s5 _ _ _. now apply returns_ok.
Qed.
Lemma identifier_returns : forall s, returns s (identifier known E s).
Proof.
  intros s. unfold identifier.
  assert (P : forall s', after s s' -> returns s (if is (peekk s') LBRACE && negb (nolit s') && structish known (literal (cur s))
      then struct_literal E (literal (cur s)) (next s') else Ok (Some (Name (literal (cur s))), s'))).
  { intros s' A. apply (returns_from _ _ _ A). destruct (_ && _ && _); [|now apply returns_ok].
    apply (returns_from _ _ _ (after_next s')). apply struct_literal_returns. }
  destruct (_ && _ && _); [|apply P; apply after_refl].
  destruct (_ && _ && _ && _).
  - apply (returns_from _ _ _ (after_trans _ _ _ (after_next2 s) (after_next _))). apply struct_literal_returns.
  - apply P. split; [now exists []|]. apply (after_next2 s).
Qed.
Lemma prefix_returns : forall s, returns s (prefix known E s).
Proof.
  intros s. unfold prefix.
  destruct (curk s); try (now apply returns_ok); try apply prefix_expression_returns; try apply identifier_returns;
    try apply grouped_returns; try apply brace_returns; try apply cast_returns; try apply new_expr_returns; try apply range_returns.
  - apply (returns_from _ _ _ (after_next s)). destruct (is _ _); now apply returns_ok.
  - apply (returns_from _ _ _ (after_err (bs "E2072") s)). apply prefix_expression_returns.
  - apply (returns_from _ _ _ (after_trans _ _ _ (after_err (bs "E2086") s) (after_trans _ _ _ (after_next _) (after_flag true _)))).
    apply sub_returns. intros e s' _. now apply returns_ok.
  - apply (returns_from _ _ _ (after_trans _ _ _ (after_err (bs "E2086") s) (after_trans _ _ _ (after_next _) (after_flag true _)))).
    apply sub_returns. intros e s' _. now apply returns_ok.
Qed.
Lemma infix_expression_returns : forall l s, returns s (infix_expression E l s).
Proof.
  intros l s. unfold infix_expression. set (b := match curk s with IN | _ => _ end). clearbody b.
  apply (returns_from _ _ _ (after_next s)).
  assert (A : after (next s) (if b then flag true (next s) else next s)) by (destruct b; auto).
  apply (returns_from _ _ _ A). apply sub_returns. intros r s' _. apply returns_ok. destruct b; auto.
Qed.
Lemma arguments_returns : forall n f l s, (length (toks s) < n)%nat -> returns s (arguments E n f l s).
Proof.
  induction n as [|n IH]; intros f l s H; [lia|]. cbn [arguments].
  apply (returns_from _ _ _ (after_next s)). pose proof (after_length _ _ (after_next s)) as L.
  set (s1 := next s) in *. clearbody s1.
  assert (A : after s1 (snd (if is (curk s1) IDENT && is (peekk s1) COLON then (Some (literal (cur s1)), next (next s1)) else (None, s1)))).
  { destruct (_ && _); [apply after_next2|apply after_refl]. }
  revert A. match goal with |- context [let '(_, _) := ?x in _] => destruct x as [nm s2] end. cbn [snd]. intros A. apply (returns_from _ _ _ A).
  apply sub_returns. intros e s3 A3. cbv zeta. destruct (is (peekk s3) COMMA) eqn:K.
  - apply is_iff in K. apply (returns_from _ _ _ (after_next s3)). apply IH.
    pose proof (next_less s3 ltac:(now rewrite K)). pose proof (after_length _ _ A). pose proof (after_length _ _ A3). lia.
  - apply expecting_returns. intros s5 _ _ _. now apply returns_ok.
Qed.
Lemma infix_returns : forall l s, returns s (infix E l s).
Proof.
  intros l s. unfold infix. destruct (curk s); try (now apply returns_ok); try apply infix_expression_returns.
  - unfold call_expression. apply (returns_from _ _ _ (after_err_if (after_gap (cur s)) (bs "E2073") s)).
    destruct (is _ _); [now apply returns_ok|]. apply arguments_returns. lia.
  - unfold index_expression. apply (returns_from _ _ _ (after_err_if (after_gap (cur s)) (bs "E2075") s)).
    apply (returns_from _ _ _ (after_next _)). apply sub_returns. intros i s' _. apply expecting_returns. intros s5 _ _ _. now apply returns_ok.
  - unfold member_expression. apply returns_ok. exact (after_trans _ _ _ (after_err_if _ _ _) (after_next _)).
Qed.
Lemma loop_returns : forall n p l s, (length (toks s) < n)%nat -> returns s (loop E n p l s).
Proof.
  induction n as [|n IH]; intros p l s H; [lia|]. cbn [loop].
  destruct (is (peekk s) EOF) eqn:K; cbn [negb andb]; [now apply returns_ok|].
  destruct (p <? _); [|now apply returns_ok].
  assert (NE : peekk s <> EOF) by (intros X; apply is_iff in X; congruence).
  pose proof (next_less s NE). apply (returns_from _ _ _ (after_next s)). apply returns_bind; [apply infix_returns|].
  intros [e|] s' A; cbn [fst snd]; [|now apply returns_ok]. apply IH. pose proof (after_length _ _ A). lia.
Qed.
(** The loop does not depend on its fuel *)
Lemma loop_fuel : forall n m p l s, (length (toks s) < n)%nat -> (length (toks s) < m)%nat -> loop E n p l s = loop E m p l s.
Proof.
  induction n as [|n IH]; intros m p l s H M; [lia|]. destruct m as [|m]; [lia|]. cbn [loop].
  destruct (is (peekk s) EOF) eqn:K; cbn [negb andb]; [reflexivity|]. destruct (p <? _); [|reflexivity].
  assert (NE : peekk s <> EOF) by (intros X; apply is_iff in X; congruence).
  pose proof (next_less s NE). destruct (infix_returns l (next s)) as ([e|] & s' & -> & A); [|reflexivity].
  cbn [rbind fst snd]. pose proof (after_length _ _ A). apply IH; lia.
Qed.
Definition looped (p : Z) (l : expr) (s : ps) : parsed := loop E (S (length (toks s))) p l s.
Lemma looped_step : forall p l s, looped p l s =
  if negb (is (peekk s) EOF) && (p <? prec_of (peekk s)) then
    rbind (infix E l (next s)) (fun x => match fst x with Some e => looped p e (snd x) | None => Ok (None, snd x) end)
  else Ok (Some l, s).
Proof.
  intros p l s. unfold looped at 1. cbn [loop].
  destruct (is (peekk s) EOF) eqn:K; cbn [negb andb]; [reflexivity|]. destruct (p <? _); [|reflexivity].
  assert (NE : peekk s <> EOF) by (intros X; apply is_iff in X; congruence).
  pose proof (next_less s NE). destruct (infix_returns l (next s)) as ([e|] & s' & -> & A); [|reflexivity].
  cbn [rbind fst snd]. pose proof (after_length _ _ A). apply loop_fuel; lia.
Qed.
End Total.

Lemma expression_good : forall known room, good (expression known room).
Proof.
  intros known. induction room as [|room IH]; intros p s; cbn [expression]; [now apply returns_ok|].
  apply returns_bind; [now apply prefix_returns|]. intros [e|] s' A; cbn [fst snd]; [|now apply returns_ok].
  apply loop_returns; [assumption|lia].
Qed.
Lemma expression_step : forall known room p s, expression known (S room) p s =
  rbind (prefix known (expression known room) s) (fun x =>
    match fst x with Some e => looped (expression known room) p e (snd x) | None => Ok (None, snd x) end).
Proof. reflexivity. Qed.
