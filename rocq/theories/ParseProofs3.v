(** C60: every expression of the grammar is parsed to its tree (continued). *)
From Verif Require Import Base LexSpec NameModel NameProofs ParseSpec ParseModel ParseProofs ParseProofs2.

(** * Positions *)
Definition quiet (ts : list token) : Prop := hdk ts <> ILLEGAL.
Definition final (ts : list token) : token := last ts eof.
Lemma final_app : forall a x b, final (a ++ x :: b) = final (x :: b).
Proof.
  induction a as [|y a IH]; intros x b; [reflexivity|]. rewrite <- (IH x b). cbn [app]. unfold final.
  destruct (a ++ x :: b) eqn:E; [now destruct a|reflexivity].
Qed.
Lemma final_snoc : forall a x, final (a ++ [x]) = x.
Proof. intros a x. apply final_app. Qed.
Lemma final_cons : forall x y b, final (x :: y :: b) = final (y :: b).
Proof. reflexivity. Qed.
Lemma final_snoc2 : forall x a y, final (x :: a ++ [y]) = y.
Proof. intros x a y. exact (final_snoc (x :: a) y). Qed.
Lemma quiet_app : forall a b, clean a -> quiet b -> quiet (a ++ b).
Proof. intros [|t a] b A B; [exact B|]. now apply Forall_inv in A. Qed.
Lemma next_at : forall t u r nl es, quiet r -> next (Ps (t :: u :: r) nl es) = Ps (u :: r) nl es.
Proof. intros t u r nl es Q. unfold next. cbn [toks tl nolit errs]. unfold peekk, peek. cbn [toks tl]. unfold quiet, hdk in Q. now destruct (tkind (hd eof r)). Qed.
Lemma next_into : forall t ts r nl es, ts <> [] -> clean ts -> quiet r -> next (Ps (t :: ts ++ r) nl es) = Ps (ts ++ r) nl es.
Proof. intros t [|u ts] r nl es N C Q; [easy|]. apply next_at. apply quiet_app; [now apply Forall_inv_tail in C|exact Q]. Qed.
Lemma next_flag : forall b t ts r nl es, ts <> [] -> clean ts -> quiet r -> flag b (next (Ps (t :: ts ++ r) nl es)) = Ps (ts ++ r) b es.
Proof. intros. now rewrite next_into. Qed.
Lemma quiet_kind : forall t r k, tkind t = k -> k <> ILLEGAL -> quiet (t :: r).
Proof. intros t r k E N. unfold quiet, hdk. cbn [hd]. now rewrite E. Qed.
Lemma kind_is : forall t k, tkind t = k -> is (tkind t) k = true.
Proof. intros t k ->. apply is_refl. Qed.
Lemma expecting_ok : forall t q r nl es k f, tkind q = k -> quiet r -> expecting k (Ps (t :: q :: r) nl es) f = f (Ps (q :: r) nl es).
Proof.
  intros t q r nl es k f K Q. unfold expecting, expect, peekk, peek. cbn [toks tl hd]. rewrite (kind_is _ _ K). now rewrite next_at.
Qed.
Lemma sub_ok : forall E p s k e s', E p s = Ok (Some e, s') -> sub E p s k = k e s'.
Proof. intros E p s k e s' H. unfold sub. now rewrite H. Qed.

Definition keep (nl nl' : bool) : Prop := nl' = nl \/ nl' = false.
Lemma keep_refl : forall a, keep a a.
Proof. now left. Qed.
Lemma keep_trans : forall a b c, keep a b -> keep b c -> keep a c.
Proof. unfold keep. intros a b c [->| ->] [->| ->]; auto. Qed.
Lemma keep_false : forall a, keep a false.
Proof. now right. Qed.
Lemma keep_lit : forall (lit : bool) a b, (lit = true -> a = false) -> keep a b -> lit = true -> b = false.
Proof. intros lit a b H [->| ->] L; auto. Qed.

Definition closing (k : kind) : Prop := k = RPAREN \/ k = RBRACKET \/ k = RBRACE \/ k = COMMA \/ k = COLON.
Definition okp (p : Z) (n : nat) : Prop := 0 <= p /\ if (n <=? 9)%nat then p < Z.of_nat n else p <= 10.
Definition bound (n : nat) : Z := if (n <=? 10)%nat then Z.of_nat n else 13.
Lemma okp_up : forall p n, okp p n -> okp p (S n).
Proof. intros p n [A B]. split; [exact A|]. destruct (n <=? 9)%nat eqn:E, (S n <=? 9)%nat eqn:F; apply Nat.leb_le in E || apply Nat.leb_gt in E; apply Nat.leb_le in F || apply Nat.leb_gt in F; lia. Qed.
Lemma bound_up : forall n, bound n <= bound (S n).
Proof. intros n. unfold bound. destruct (n <=? 10)%nat eqn:E, (S n <=? 10)%nat eqn:F; apply Nat.leb_le in E || apply Nat.leb_gt in E; apply Nat.leb_le in F || apply Nat.leb_gt in F; lia. Qed.

Section Complete.
Context (known : bytes -> bool).
Notation EX := (expression known).
Record ok_after (n : nat) (ts : list token) (e : expr) (rest : list token) : Prop := Oa
  { oa_quiet : quiet rest;
    oa_prec : prec_of (hdk rest) <= bound n;
    oa_brace : hdk rest = LBRACE -> ~ (tkind (final ts) = IDENT /\ structish known (literal (final ts)) = true);
    oa_dot : hdk rest = DOT -> exists p t r, rest = p :: t :: r /\ tkind t <> ILLEGAL /\ quiet r /\
      ~ (tkind t = IDENT /\ structish known (literal t) = true /\ hdk r = LBRACE) /\ (is_ref e -> tkind (final ts) = RPAREN) }.
Lemma closing_after : forall n ts e rest, closing (hdk rest) -> ok_after n ts e rest.
Proof.
  intros n ts e rest C. assert (B : 0 <= bound n) by (unfold bound; destruct (n <=? 10)%nat; lia).
  split; unfold quiet; destruct C as [C|[C|[C|[C|C]]]]; rewrite C; try discriminate; assumption.
Qed.
Lemma after_up : forall n ts e rest, ok_after n ts e rest -> ok_after (S n) ts e rest.
Proof. intros n ts e rest [A B C D]. split; try assumption. pose proof (bound_up n). lia. Qed.
(** Where the loop stops *)
Lemma looped_stop : forall d p e t rest nl es, prec_of (hdk rest) <= p -> looped (EX d) p e (Ps (t :: rest) nl es) = Ok (Some e, Ps (t :: rest) nl es).
Proof.
  intros d p e t rest nl es P. rewrite looped_step by apply expression_good. unfold peekk, peek. cbn [toks tl]. fold (hdk rest).
  destruct (is (hdk rest) EOF); [reflexivity|]. cbn [negb andb]. destruct (Z.ltb_spec p (prec_of (hdk rest))); [lia|reflexivity].
Qed.
(** Where it goes on *)
Lemma looped_go : forall d p l t op ts rest nl es, 0 <= p -> p < prec_of (tkind op) -> clean ts -> quiet rest ->
  looped (EX d) p l (Ps (t :: op :: ts ++ rest) nl es) =
  rbind (infix (EX d) l (Ps (op :: ts ++ rest) nl es)) (fun x => match fst x with Some e => looped (EX d) p e (snd x) | None => Ok (None, snd x) end).
Proof.
  intros d p l t op ts rest nl es P0 P C Q. rewrite looped_step by apply expression_good. unfold peekk, peek. cbn [toks tl hd].
  rewrite is_not by (intros E; rewrite E in P; cbn in P; unfold LOWEST in P; lia). cbn [negb andb].
  destruct (Z.ltb_spec p (prec_of (tkind op))); [|lia]. rewrite next_at by (now apply quiet_app). reflexivity.
Qed.

Definition PE (lit : bool) (n d : nat) (ts : list token) (e : expr) : Prop :=
  exists d', d = S d' /\ forall p rest nl es, okp p n -> ok_after n ts e rest -> (lit = true -> nl = false) ->
  exists nl', keep nl nl' /\ EX d p (Ps (ts ++ rest) nl es) = looped (EX d') p e (Ps (final ts :: rest) nl' es).
Lemma PE_primary : forall lit d ts e,
  (forall rest nl es, ok_after PRIMARY ts e rest -> (lit = true -> nl = false) ->
     exists nl', keep nl nl' /\ prefix known (EX d) (Ps (ts ++ rest) nl es) = Ok (Some e, Ps (final ts :: rest) nl' es)) ->
  PE lit PRIMARY (S d) ts e.
Proof.
  intros lit d ts e H. exists d. split; [reflexivity|]. intros p rest nl es _ A L. destruct (H rest nl es A L) as (nl' & K & E).
  exists nl'. split; [exact K|]. rewrite expression_step, E. reflexivity.
Qed.
(** A whole expression between brackets and commas *)
Lemma inner : forall lit d ts e rest nl es, PE lit 1 d ts e -> closing (hdk rest) -> (lit = true -> nl = false) ->
  exists nl', keep nl nl' /\ EX d LOWEST (Ps (ts ++ rest) nl es) = Ok (Some e, Ps (final ts :: rest) nl' es).
Proof.
  intros lit d ts e rest nl es (d' & -> & H) C L.
  destruct (H LOWEST rest nl es) as (nl' & K & E); [unfold LOWEST; split; cbn; lia|now apply closing_after|exact L|].
  exists nl'. split; [exact K|]. rewrite E. apply looped_stop. destruct C as [C|[C|[C|[C|C]]]]; rewrite C; cbn; lia.
Qed.

Definition PArgs1 (lit : bool) (d : nat) (ta : list token) (l : list (option bytes * expr)) : Prop :=
  forall n f acc t0 q rest nl es, (length ta < n)%nat -> tkind q = RPAREN -> quiet rest -> (lit = true -> nl = false) ->
  exists nl', keep nl nl' /\ arguments (EX d) n f acc (Ps (t0 :: ta ++ q :: rest) nl es) = Ok (Some (Call f (acc ++ l)), Ps (q :: rest) nl' es).
Definition PArgs (lit : bool) (d : nat) (ta : list token) (l : list (option bytes * expr)) : Prop :=
  (ta = [] /\ l = []) \/ (begins_expr ta /\ PArgs1 lit d ta l).
Definition PArg (lit : bool) (d : nat) (ta : list token) (a : option bytes * expr) : Prop :=
  forall t0 rest nl es, hdk rest = RPAREN \/ hdk rest = COMMA -> (lit = true -> nl = false) ->
  exists nl', keep nl nl' /\ forall k : option bytes -> expr -> ps -> parsed,
    (let s := next (Ps (t0 :: ta ++ rest) nl es) in
     let '(nm, s) := if is (curk s) IDENT && is (peekk s) COLON then (Some (literal (cur s)), next (next s)) else (None, s) in
     sub (EX d) LOWEST s (k nm)) = k (fst a) (snd a) (Ps (final ta :: rest) nl' es).
Definition PList1 (lit : bool) (d : nat) (ts : list token) (l : list expr) : Prop :=
  forall q rest nl es, tkind q = RBRACE -> quiet rest -> (lit = true -> nl = false) ->
  exists e0 l0 s' nl', keep nl nl' /\ l = e0 :: l0 /\ EX d LOWEST (Ps (ts ++ q :: rest) nl es) = Ok (Some e0, s') /\ is (peekk s') COLON = false /\
    forall acc n, (length (toks s') < n)%nat -> elements (EX d) n acc s' = Ok (Some (Array (acc ++ l0)), Ps (q :: rest) nl' es).
Definition PList (lit : bool) (d : nat) (ts : list token) (l : list expr) : Prop :=
  (ts = [] /\ l = []) \/ (begins_expr ts /\ PList1 lit d ts l).
Definition PPairs (lit : bool) (d : nat) (ts : list token) (l : list (expr * expr)) : Prop :=
  forall q rest nl es, tkind q = RBRACE -> quiet rest -> (lit = true -> nl = false) ->
  exists k0 v0 l0 s1 s2 nl', keep nl nl' /\ l = (k0, v0) :: l0 /\ EX d LOWEST (Ps (ts ++ q :: rest) nl es) = Ok (Some k0, s1) /\ is (peekk s1) COLON = true /\
    EX d LOWEST (next (next s1)) = Ok (Some v0, s2) /\
    forall acc n, (length (toks s2) < n)%nat -> pairs (EX d) n acc s2 = Ok (Some (Map (acc ++ l0)), Ps (q :: rest) nl' es).
Definition PFields (d : nat) (ts : list token) (l : list (bytes * expr)) : Prop :=
  forall n name acc q rest es, (length ts < n)%nat -> tkind q = RBRACE -> quiet rest ->
  fields (EX d) n name acc (Ps (ts ++ q :: rest) false es) = Ok (Some (Struct name (acc ++ l)), Ps (q :: rest) false es).
Definition PPath (e : expr) (ms : list token) (e' : expr) : Prop :=
  forall n t0 rest nl es, (length ms < n)%nat -> hdk rest <> DOT -> quiet rest ->
  path n e (Ps (t0 :: ms ++ rest) nl es) = Ok (e', Ps (final (t0 :: ms) :: rest) nl es).

Notation G := (is_expr (kn known) true).
Lemma expr_shape : forall lit n d ts e, G lit n d ts e -> shape ts.
Proof. exact (proj1 (shapes known)). Qed.
Lemma shape_ne : forall ts, shape ts -> ts <> [] /\ clean ts.
Proof. now intros ts (C & t & ts' & -> & _). Qed.

Lemma c_binary : forall lit n d ts l op ts' r,
  at_level (tkind op) n -> G lit n (S d) ts l -> PE lit n (S d) ts l ->
  G (lit && negb (comparison (tkind op))) (S n) d ts' r -> PE (lit && negb (comparison (tkind op))) (S n) d ts' r ->
  PE lit n (S d) (ts ++ op :: ts') (Binary (tkind op) l r).
Proof.
  intros lit n d ts l op ts' r A GL (d1 & D1 & IHl) GR (d2 & D2 & IHr). injection D1 as <-. exists d. split; [reflexivity|].
  intros p rest nl es P O L. destruct (level_kind _ _ A) as [PR N]. destruct (level_other _ _ A) as (Ki & Kc & Ke & Kb & Kd).
  destruct (shape_ne _ (expr_shape _ _ _ _ _ GR)) as [NE' C']. pose proof (oa_quiet _ _ _ _ O) as Q.
  assert (BN : bound n = Z.of_nat n) by (unfold bound; destruct (Nat.leb_spec n 10); [reflexivity|lia]).
  destruct (IHl p (op :: ts' ++ rest) nl es P) as (nl1 & K1 & E1); [split|exact L|].
  { exact Ki. } { unfold hdk. cbn [hd]. lia. } { unfold hdk. cbn [hd]. congruence. } { unfold hdk. cbn [hd]. congruence. }
  assert (PP : 0 <= p < Z.of_nat n).
  { destruct P as [P0 P1]. destruct (n <=? 9)%nat eqn:F; [lia|]. apply Nat.leb_gt in F. lia. }
  set (nl2 := if comparison (tkind op) then true else nl1).
  assert (FE : final (ts ++ op :: ts') = final ts').
  { rewrite final_app. destruct ts' as [|u ts']; [easy|]. apply final_cons. }
  destruct (IHr (Z.of_nat n) rest nl2 es) as (nl3 & K3 & E3).
  { split; [lia|]. destruct (Nat.leb_spec (S n) 9); lia. }
  { destruct O as [O1 O2 O3 O4]. split; [exact O1| | |].
    - rewrite BN in O2. unfold bound. destruct (Nat.leb_spec (S n) 10); lia.
    - now rewrite <- FE.
    - intros D. rewrite D in O2. cbn in O2. lia. }
  { unfold nl2. intros T. apply andb_prop in T as [T1 T2]. destruct (comparison (tkind op)); [discriminate|]. exact (keep_lit _ _ _ L K1 T1). }
  exists (if comparison (tkind op) then false else nl3). split.
  { destruct (comparison (tkind op)) eqn:CO; [apply keep_false|]. exact (keep_trans _ _ _ K1 K3). }
  rewrite <- app_assoc. cbn [app]. rewrite E1. rewrite looped_go; [|lia|lia|exact C'|exact Q].
  rewrite (level_infix (tkind op) n); [|exact A|reflexivity]. unfold infix_expression.
  replace (curk (Ps (op :: ts' ++ rest) nl1 es)) with (tkind op) by reflexivity.
  replace (match tkind op with IN | NOT_IN | LT | GT | LT_EQ | GT_EQ | EQ | NOT_EQ => true | _ => false end) with (comparison (tkind op)) by (now destruct (tkind op)).
  rewrite next_into by assumption. rewrite PR.
  replace (if comparison (tkind op) then flag true (Ps (ts' ++ rest) nl1 es) else Ps (ts' ++ rest) nl1 es) with (Ps (ts' ++ rest) nl2 es)
    by (unfold nl2; now destruct (comparison (tkind op))).
  rewrite D2 in *. erewrite sub_ok.
  2: { rewrite E3. apply looped_stop. pose proof (oa_prec _ _ _ _ O). lia. }
  cbn [rbind fst snd]. rewrite FE. f_equal. now destruct (comparison (tkind op)).
Qed.
Lemma c_unary : forall lit d op ts e, prefix_operator (tkind op) -> G lit UNARY d ts e -> PE lit UNARY d ts e ->
  PE lit UNARY (S d) (op :: ts) (Unary (tkind op) e).
Proof.
  intros lit d op ts e A GE (d' & -> & IH). exists (S d'). split; [reflexivity|]. intros p rest nl es P O L.
  destruct (shape_ne _ (expr_shape _ _ _ _ _ GE)) as [NE C].
  assert (F : final (op :: ts) = final ts) by (destruct ts; [easy|reflexivity]).
  destruct (IH PREFIX rest nl es) as (nl' & K & E).
  { split; cbn; unfold PREFIX; lia. }
  { destruct O as [O1 O2 O3 O4]. split; [exact O1|exact O2|now rewrite <- F|]. intros D. rewrite D in O2. cbn in O2. lia. }
  { exact L. }
  exists nl'. split; [exact K|]. rewrite expression_step.
  assert (X : prefix known (EX (S d')) (Ps ((op :: ts) ++ rest) nl es) = prefix_expression (EX (S d')) (Ps ((op :: ts) ++ rest) nl es)).
  { unfold prefix. replace (curk _) with (tkind op) by reflexivity. destruct A as [->|[->| ->]]; reflexivity. }
  rewrite X. unfold prefix_expression. cbn [app]. rewrite next_into by (assumption || exact (oa_quiet _ _ _ _ O)).
  erewrite sub_ok.
  2: { rewrite E. apply looped_stop. pose proof (oa_prec _ _ _ _ O) as OP. exact OP. }
  cbn [rbind fst snd]. now rewrite F.
Qed.
(** What follows the operand of a postfix operator *)
Lemma post_after : forall ts e op rest, tkind op = LPAREN \/ tkind op = LBRACKET \/ tkind op = INCREMENT \/ tkind op = DECREMENT \/ tkind op = CARET ->
  ok_after POSTFIX ts e (op :: rest).
Proof.
  intros ts e op rest K. split; unfold quiet, hdk; cbn [hd].
  - destruct K as [->|[->|[->|[->| ->]]]]; discriminate.
  - destruct K as [->|[->|[->|[->| ->]]]]; cbn; lia.
  - intros B. rewrite B in K. exfalso. destruct K as [K|[K|[K|[K|K]]]]; discriminate.
  - intros B. rewrite B in K. exfalso. destruct K as [K|[K|[K|[K|K]]]]; discriminate.
Qed.
Lemma okp_post : forall p, okp p POSTFIX -> 0 <= p <= 10.
Proof. intros p [A B]. cbn in B. lia. Qed.
Lemma c_postfix : forall lit d ts e op, postfix_operator (tkind op) -> after_gap op = false -> G lit POSTFIX (S d) ts e -> PE lit POSTFIX (S d) ts e ->
  PE lit POSTFIX (S d) (ts ++ [op]) (Postfix (tkind op) e).
Proof.
  intros lit d ts e op A T GE (d' & D & IH). injection D as <-. exists d. split; [reflexivity|]. intros p rest nl es P O L.
  pose proof (okp_post _ P) as PP. pose proof (oa_quiet _ _ _ _ O) as Q.
  destruct (IH p (op :: rest) nl es P) as (nl' & K & E); [apply post_after; unfold postfix_operator in A; tauto|exact L|].
  exists nl'. split; [exact K|]. rewrite <- app_assoc. cbn [app]. rewrite E, final_snoc.
  change (op :: rest) with (op :: [] ++ rest). rewrite looped_go; [|lia| |constructor|exact Q].
  2: { destruct A as [->|[->| ->]]; cbn; lia. }
  cbn [app]. replace (infix (EX d) e (Ps (op :: rest) nl' es)) with (postfix_expression e (Ps (op :: rest) nl' es)).
  2: { unfold infix. replace (curk _) with (tkind op) by reflexivity. destruct A as [->|[->| ->]]; reflexivity. }
  unfold postfix_expression. change (cur (Ps (op :: rest) nl' es)) with op. rewrite T. reflexivity.
Qed.
Lemma c_call : forall lit d ts f p ta args q, tkind p = LPAREN -> after_gap p = false -> tkind q = RPAREN ->
  G lit POSTFIX (S d) ts f -> PE lit POSTFIX (S d) ts f -> is_args (kn known) true lit d ta args -> PArgs lit d ta args ->
  PE lit POSTFIX (S d) (ts ++ p :: ta ++ [q]) (Call f args).
Proof.
  intros lit d ts f p ta args q KP T KQ GE (d' & D & IH) GA IHA. injection D as <-. exists d. split; [reflexivity|]. intros pr rest nl es P O L.
  pose proof (okp_post _ P) as PP. pose proof (oa_quiet _ _ _ _ O) as Q.
  assert (CA : clean ta) by (exact (proj1 (proj2 (shapes known)) _ _ _ _ GA)).
  assert (QQ : quiet (q :: rest)) by (apply (quiet_kind _ _ RPAREN); [exact KQ|discriminate]).
  destruct (IH pr (p :: ta ++ q :: rest) nl es P) as (nl1 & K & E); [apply post_after; tauto|exact L|].
  assert (LL : lit = true -> nl1 = false) by exact (keep_lit _ _ _ L K).
  replace ((ts ++ p :: ta ++ [q]) ++ rest) with (ts ++ p :: ta ++ q :: rest) by (rewrite <- !app_assoc; cbn [app]; now rewrite <- app_assoc).
  replace (final (ts ++ p :: ta ++ [q])) with q by (now rewrite final_app, final_snoc2).
  rewrite E. rewrite looped_go; [|lia|rewrite KP; cbn; lia|exact CA|exact QQ].
  replace (infix (EX d) f (Ps (p :: ta ++ q :: rest) nl1 es)) with (call_expression (EX d) f (Ps (p :: ta ++ q :: rest) nl1 es)).
  2: { unfold infix. replace (curk _) with (tkind p) by reflexivity. now rewrite KP. }
  unfold call_expression. change (cur (Ps (p :: ta ++ q :: rest) nl1 es)) with p. rewrite T. cbn [err_if].
  destruct IHA as [[-> ->]|[B IHA]].
  - cbn [app]. unfold peekk, peek. cbn [toks tl hd]. rewrite (kind_is _ _ KQ), next_at by exact Q. exists nl1. split; [exact K|reflexivity].
  - destruct B as (_ & t & ta' & -> & ST). cbn [app]. unfold peekk, peek at 1. cbn [toks tl hd].
    rewrite is_not by (intros X; now rewrite X in ST).
    destruct (IHA (S (length (p :: t :: ta' ++ q :: rest))) f [] p q rest nl1 es) as (nl2 & K2 & E2); try assumption.
    { cbn [length]. rewrite app_length. cbn [length]. lia. }
    cbn [app] in E2. exists nl2. split; [exact (keep_trans _ _ _ K K2)|]. rewrite E2. reflexivity.
Qed.
Lemma c_member : forall lit d ts e p n, tkind p = DOT -> after_gap p = false -> name true n -> G lit POSTFIX (S d) ts e -> PE lit POSTFIX (S d) ts e ->
  (is_ref e -> exists ts' q, ts = ts' ++ [q] /\ tkind q = RPAREN) -> PE lit POSTFIX (S d) (ts ++ [p; n]) (Member e (literal n)).
Proof.
  intros lit d ts e p n KP T N GE (d' & D & IH) R. injection D as <-. exists d. split; [reflexivity|]. intros pr rest nl es P O L.
  pose proof (okp_post _ P) as PP. pose proof (oa_quiet _ _ _ _ O) as Q. specialize (N eq_refl).
  assert (FN : final (ts ++ [p; n]) = n) by (now rewrite final_app).
  destruct (IH pr (p :: n :: rest) nl es P) as (nl1 & K & E); [split|exact L|].
  { apply (quiet_kind _ _ DOT); [exact KP|discriminate]. } { unfold hdk. cbn [hd]. rewrite KP. cbn. lia. }
  { unfold hdk. cbn [hd]. congruence. }
  { intros _. exists p, n, rest. split; [reflexivity|]. split; [congruence|]. split; [exact Q|]. split.
    - intros (I & S & B). apply (oa_brace _ _ _ _ O B). now rewrite FN.
    - intros F. destruct (R F) as (ts' & q & -> & KQ). now rewrite final_snoc. }
  exists nl1. split; [exact K|]. rewrite <- app_assoc. cbn [app]. rewrite E, FN.
  change (p :: n :: rest) with (p :: [n] ++ rest). rewrite looped_go; [|lia|rewrite KP; cbn; lia| |exact Q].
  2: { constructor; [congruence|constructor]. }
  cbn [app]. replace (infix (EX d) e (Ps (p :: n :: rest) nl1 es)) with (member_expression e (Ps (p :: n :: rest) nl1 es)).
  2: { unfold infix. replace (curk _) with (tkind p) by reflexivity. now rewrite KP. }
  unfold member_expression. change (cur (Ps (p :: n :: rest) nl1 es)) with p. rewrite T. cbn [err_if]. rewrite next_at by exact Q. reflexivity.
Qed.
Lemma c_index : forall lit d ts e p ti i q, tkind p = LBRACKET -> after_gap p = false -> tkind q = RBRACKET ->
  G lit POSTFIX (S d) ts e -> PE lit POSTFIX (S d) ts e -> G lit 1 d ti i -> PE lit 1 d ti i ->
  PE lit POSTFIX (S d) (ts ++ p :: ti ++ [q]) (Index e i).
Proof.
  intros lit d ts e p ti i q KP T KQ GE (d' & D & IH) GI IHI. injection D as <-. exists d. split; [reflexivity|]. intros pr rest nl es P O L.
  pose proof (okp_post _ P) as PP. pose proof (oa_quiet _ _ _ _ O) as Q. destruct (shape_ne _ (expr_shape _ _ _ _ _ GI)) as [NE CI].
  assert (QQ : quiet (q :: rest)) by (apply (quiet_kind _ _ RBRACKET); [exact KQ|discriminate]).
  destruct (IH pr (p :: ti ++ q :: rest) nl es P) as (nl1 & K & E); [apply post_after; tauto|exact L|].
  destruct (inner lit d ti i (q :: rest) nl1 es IHI) as (nl2 & K2 & E2).
  { unfold closing, hdk. cbn [hd]. tauto. } { exact (keep_lit _ _ _ L K). }
  exists nl2. split; [exact (keep_trans _ _ _ K K2)|].
  replace ((ts ++ p :: ti ++ [q]) ++ rest) with (ts ++ p :: ti ++ q :: rest) by (rewrite <- !app_assoc; cbn [app]; now rewrite <- app_assoc).
  replace (final (ts ++ p :: ti ++ [q])) with q by (now rewrite final_app, final_snoc2).
  rewrite E. rewrite looped_go; [|lia|rewrite KP; cbn; lia|exact CI|exact QQ].
  replace (infix (EX d) e (Ps (p :: ti ++ q :: rest) nl1 es)) with (index_expression (EX d) e (Ps (p :: ti ++ q :: rest) nl1 es)).
  2: { unfold infix. replace (curk _) with (tkind p) by reflexivity. now rewrite KP. }
  unfold index_expression. change (cur (Ps (p :: ti ++ q :: rest) nl1 es)) with p. rewrite T. cbn [err_if].
  rewrite next_into by assumption. rewrite (sub_ok _ _ _ _ _ _ E2). rewrite expecting_ok by assumption. reflexivity.
Qed.
End Complete.
