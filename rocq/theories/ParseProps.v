(** C60: expressions are grouped by the table of operators.  [parse known ts] is parse_expression(PREC_LOWEST) on a fresh
    parser over the tokens ts; [known] are the struct and enum names of the file. *)
From Verif Require Import Base LexSpec LexModel NameModel NameProofs ParseSpec ParseModel ParseProofs ParseProofs2 ParseProofs3 ParseProofs4 ParseProofs5 ParseProofs6 ParseProofs7.

Lemma parse_is : forall known ts, parse known ts = expression known MAX_PARSE_DEPTH LOWEST (start ts).
Proof. reflexivity. Qed.

(** The parser always stops, without running out of anything *)
Theorem parse_terminates : forall known ts, exists tree s, parse known ts = Ok (tree, s).
Proof. intros known ts. rewrite parse_is. destruct (expression_good known MAX_PARSE_DEPTH LOWEST (start ts)) as (o & s & E & _). now exists o, s. Qed.

(** Every expression of the grammar, nested at most 256 deep, is parsed to its tree: no complaint, and the tokens after it
    are left (the current token is its last one) *)
Theorem expressions_parsed : forall known ts e rest,
  is_expr (fun n => known n = true) true true 1 256 ts e -> ends_expr (fun n => known n = true) ts rest ->
  parse known (ts ++ rest) = Ok (Some e, Ps (last ts eof :: rest) false []).
Proof. intros known ts e rest D F. rewrite parse_is. exact (expression_parsed known MAX_PARSE_DEPTH ts e rest D F). Qed.

(** The grammar gives a token list at most one tree *)
Theorem grammar_unambiguous : forall known d d' ts e e',
  is_expr (fun n => known n = true) true true 1 d ts e -> is_expr (fun n => known n = true) true true 1 d' ts e' -> e = e'.
Proof. intros known d d' ts e e'. apply one_tree. Qed.

(** What is accepted without complaint and without braces is an expression of the grammar (any token may stand for a name),
    and no operator follows it.  Missing: braces, see below; trees with a hole *)
Theorem parsed_expressions_partial : forall known ts e s,
  parse known ts = Ok (Some e, s) -> errs s = [] -> complete e = true -> Forall (fun t => tkind t <> LBRACE) ts -> ends_file ts ->
  exists us rest, ts = us ++ rest /\ is_expr (fun n => known n = true) false true 1 256 us e /\
    toks s = last us eof :: rest /\ (forall n, ~ at_level (tkind (hd eof rest)) n).
Proof.
  intros known ts e s H N C B E. rewrite parse_is in H. destruct (parsed_expression known MAX_PARSE_DEPTH ts e s H N C B E) as (us & rest & T & D & TS & P).
  exists us, rest. split; [exact T|]. split; [exact (D true)|]. split; [exact TS|]. intros n A. apply level_kind in A as [A X]. unfold hdk in P. rewrite P in A. unfold LOWEST in A. lia.
Qed.

(** Operators: two in a row, between operands that need no parentheses *)
Lemma widen : forall known lit n m d ts e, (m <= n <= PRIMARY)%nat -> is_expr known true lit n d ts e -> is_expr known true lit m d ts e.
Proof.
  intros known lit n m d ts e [H N] D. induction H as [|n H IH]; [exact D|]. apply IH; [lia|]. apply tighter; [lia|exact D].
Qed.
Theorem two_operators : forall known d ta a op1 n1 tb b op2 n2 tc c,
  let K := fun n => known n = true in
  is_expr K true true UNARY (S (S d)) ta a -> is_expr K true false UNARY d tb b -> is_expr K true false UNARY d tc c ->
  at_level (tkind op1) n1 -> at_level (tkind op2) n2 -> (d <= 254)%nat ->
  forall rest, let ts := ta ++ op1 :: tb ++ op2 :: tc in ends_expr K ts rest ->
  exists s, parse known (ts ++ rest) = Ok (Some
    (if (n2 <=? n1)%nat then Binary (tkind op2) (Binary (tkind op1) a b) c else Binary (tkind op1) a (Binary (tkind op2) b c)), s) /\ errs s = [].
Proof.
  intros known d ta a op1 n1 tb b op2 n2 tc c K A B C L1 L2 D rest ts F.
  destruct (level_kind _ _ L1) as [_ R1]. destruct (level_kind _ _ L2) as [_ R2].
  assert (UP : forall lit n k d ts e, is_expr K true lit n d ts e -> is_expr K true lit n (k + d) ts e).
  { intros lit n k d0 ts0 e0 H. apply (deeper_by known true lit n d0); [lia|exact H]. }
  assert (LI : forall n d ts e l, is_expr K true false n d ts e -> is_expr K true l n d ts e).
  { assert (X : (forall lit n d ts e, is_expr K true lit n d ts e -> lit = false -> forall l, is_expr K true l n d ts e) /\
      (forall lit d ts l, is_args K true lit d ts l -> lit = false -> forall l', is_args K true l' d ts l) /\
      (forall lit d ts l, is_args1 K true lit d ts l -> lit = false -> forall l', is_args1 K true l' d ts l) /\
      (forall lit d ts l, is_arg K true lit d ts l -> lit = false -> forall l', is_arg K true l' d ts l) /\
      (forall lit d ts l, is_list K true lit d ts l -> lit = false -> forall l', is_list K true l' d ts l) /\
      (forall lit d ts l, is_list1 K true lit d ts l -> lit = false -> forall l', is_list1 K true l' d ts l) /\
      (forall lit d ts l, is_pairs K true lit d ts l -> lit = false -> forall l', is_pairs K true l' d ts l) /\
      (forall d ts l, is_fields K true d ts l -> True) /\ (forall e ts e', is_path K true e ts e' -> True)).
    { apply grammar_ind; intros; try exact Logic.I; try discriminate; subst; try (econstructor; eauto; fail). }
    intros n d0 ts0 e0 l H. exact (proj1 X _ _ _ _ _ H eq_refl l). }
  assert (G : is_expr K true true 1 (S (S d)) ts (if (n2 <=? n1)%nat then Binary (tkind op2) (Binary (tkind op1) a b) c else Binary (tkind op1) a (Binary (tkind op2) b c))).
  { unfold ts. destruct (n2 <=? n1)%nat eqn:E; [apply Nat.leb_le in E|apply Nat.leb_gt in E].
    - apply (widen K true n2); [unfold PRIMARY; lia|]. replace (ta ++ op1 :: tb ++ op2 :: tc) with ((ta ++ op1 :: tb) ++ op2 :: tc) by (now rewrite <- app_assoc).
      apply binary; [exact L2| |].
      + apply (widen K true n1); [unfold PRIMARY; lia|]. apply binary; [exact L1|apply (widen K true UNARY); [unfold PRIMARY, UNARY; lia|exact A]|].
        apply (widen K _ UNARY); [unfold PRIMARY, UNARY; lia|]. apply LI. exact (UP _ _ 1%nat _ _ _ B).
      + apply (widen K _ UNARY); [unfold PRIMARY, UNARY; lia|]. apply LI. exact (UP _ _ 1%nat _ _ _ C).
    - apply (widen K true n1); [unfold PRIMARY; lia|]. apply binary; [exact L1|apply (widen K true UNARY); [unfold PRIMARY, UNARY; lia|exact A]|].
      apply (widen K _ n2); [unfold PRIMARY; lia|]. apply binary; [exact L2| |].
      + apply (widen K _ UNARY); [unfold PRIMARY, UNARY; lia|]. apply LI. exact (UP _ _ 1%nat _ _ _ B).
      + apply (widen K _ UNARY); [unfold PRIMARY, UNARY; lia|]. apply LI. exact C. }
  assert (G' : is_expr K true true 1 256 ts (if (n2 <=? n1)%nat then Binary (tkind op2) (Binary (tkind op1) a b) c else Binary (tkind op1) a (Binary (tkind op2) b c))).
  { apply (deeper_by known true true 1 (S (S d))); [lia|exact G]. }
  eexists. split; [exact (expressions_parsed known ts _ rest G' F)|reflexivity].
Qed.

(** Every tree of operators can be written, and parsing what was written gives it back *)
Lemma height_pos : forall e, (1 <= height e)%nat.
Proof. destruct e; cbn [height]; lia. Qed.
Lemma written_is : forall K e, operator_tree e -> forall lit n d, (2 * height e <= S d)%nat -> (1 <= n <= (match e with Value _ _ | Name _ => PRIMARY | Unary _ _ => UNARY | _ => 1 end))%nat ->
  is_expr K true lit n (S d) (written e) e.
Proof.
  intros K. induction e; intros O lit m d H M; cbn [operator_tree] in O; try contradiction; cbn [written].
  - apply (widen K lit PRIMARY); [lia|]. exact (value K true lit d (tok k literal) O).
  - apply (widen K lit PRIMARY); [lia|]. exact (label K true lit d (tok IDENT n) eq_refl).
  - destruct O as [P O]. apply (widen K lit UNARY); [unfold UNARY, PRIMARY in *; lia|]. cbn [height] in H.
    refine (unary K true lit d (tok op []) _ e P _). apply (widen K lit PRIMARY); [unfold UNARY, PRIMARY; lia|].
    pose proof (height_pos e). destruct d as [|[|d]]; [lia|lia|]. apply group; [reflexivity|reflexivity|]. apply IHe; [exact O|lia|]. destruct e; unfold PRIMARY, UNARY; lia.
  - destruct O as ((k & P) & O1 & O2). destruct (level_kind _ _ P) as [_ R]. cbn [height] in H. pose proof (height_pos e1). destruct d as [|[|d]]; [lia|lia|].
    apply (widen K lit k); [unfold PRIMARY; lia|]. refine (binary K true lit k _ _ e1 (tok op []) _ e2 P _ _).
    + apply (widen K lit PRIMARY); [unfold PRIMARY; lia|]. apply group; [reflexivity|reflexivity|]. apply IHe1; [exact O1|lia|]. destruct e1; unfold PRIMARY, UNARY; lia.
    + apply (widen K _ PRIMARY); [unfold PRIMARY; lia|]. apply group; [reflexivity|reflexivity|]. apply IHe2; [exact O2|lia|]. destruct e2; unfold PRIMARY, UNARY; lia.
Qed.
Theorem written_parsed : forall known e, operator_tree e -> (height e <= 128)%nat ->
  exists s, parse known (written e) = Ok (Some e, s) /\ errs s = [].
Proof.
  intros known e O H. exists (Ps (last (written e) eof :: []) false []). split; [|reflexivity]. rewrite <- (app_nil_r (written e)) at 1.
  apply (expressions_parsed known (written e) e []); [|exact Logic.I]. apply written_is; [exact O|lia|]. destruct e; unfold PRIMARY, UNARY; lia.
Qed.

(** * What is not so *)
Definition none (n : bytes) : bool := false.
Definition source (src : bytes) : option (option expr * list kind * list bytes) :=
  match lex src with Some ts => match parse none ts with Ok (e, s) => Some (e, List.map tkind (toks s), errs s) | _ => None end | None => None end.
(** An argument can be missing without a complaint *)
Theorem arguments_present_refuted : source (bs "f(()5)") = Some (Some (Call (Name (bs "f")) [(None, Missing)]), [RPAREN; EOF], []).
Proof. vm_compute. reflexivity. Qed.
(** A map with a comma after its last pair takes the brace that follows it too *)
Theorem map_brace_refuted : source (bs "{a: 1,} }") = Some (Some (Map [(Name (bs "a"), Value INT (bs "1"))]), [RBRACE; EOF], []).
Proof. vm_compute. reflexivity. Qed.
(** An array need not be closed *)
Theorem array_closed_refuted : source (bs "{1, 2 3") = Some (Some (Array [Value INT (bs "1"); Value INT (bs "2")]), [INT; INT; EOF], []).
Proof. vm_compute. reflexivity. Qed.
(** A constant in capitals before a block is taken with the block as a struct literal, as in  if DEBUG { } *)
Theorem capital_before_block_refuted : source (bs "DEBUG { }") = Some (Some (Struct (bs "DEBUG") []), [RBRACE; EOF], []).
Proof. vm_compute. reflexivity. Qed.
(** A struct literal is refused to the right of a comparison even inside parentheses *)
Theorem literal_in_call_refuted : option_map snd (source (bs "a == f(P{x: 1})")) = Some [bs "E2001"] /\ option_map snd (source (bs "f(P{x: 1}) == a")) = Some [].
Proof. split; vm_compute; reflexivity. Qed.
(** Any token is taken as the name of a member *)
Theorem member_name_refuted : source (bs "x.+ 1") = Some (Some (Member (Name (bs "x")) (bs "+")), [PLUS; INT; EOF], []).
Proof. vm_compute. reflexivity. Qed.
(** 256 levels of nesting are the limit *)
Example depth_limit : option_map snd (source (List.repeat 40 300 ++ bs "x" ++ List.repeat 41 300)) <> Some [] /\
  option_map snd (source (List.repeat 40 250 ++ bs "x" ++ List.repeat 41 250)) = Some [].
Proof. split; [vm_compute; discriminate|vm_compute; reflexivity]. Qed.

(** * The hypotheses are met *)
Definition T (k : kind) (l : String.string) : token := tok k (bs l).
Example expressions_parsed_case : source (bs "a + b * -c.d[1](x, k: 2) == m.P") =
  Some (Some (Binary EQ
    (Binary PLUS (Name (bs "a")) (Binary ASTERISK (Name (bs "b"))
       (Unary MINUS (Call (Index (Member (Name (bs "c")) (bs "d")) (Value INT (bs "1"))) [(None, Name (bs "x")); (Some (bs "k"), Value INT (bs "2"))]))))
    (Member (Name (bs "m")) (bs "P"))), [IDENT; EOF], []).
Proof. vm_compute. reflexivity. Qed.
Example expressions_parsed_hypotheses :
  let K := fun n => none n = true in let ts := [T IDENT "a"; T MINUS "-"; T IDENT "b"; T MINUS "-"; T IDENT "c"] in
  is_expr K true true 1 256 ts (Binary MINUS (Binary MINUS (Name (bs "a")) (Name (bs "b"))) (Name (bs "c"))) /\ ends_expr K ts [T RPAREN ")"].
Proof.
  intros K ts. split.
  - apply (widen K true 8); [unfold PRIMARY; lia|].
    change ts with ([T IDENT "a"; T MINUS "-"; T IDENT "b"] ++ T MINUS "-" :: [T IDENT "c"]).
    assert (M : at_level MINUS 8) by (eexists; split; [reflexivity|]; split; [cbn; tauto|lia]).
    assert (V : forall lit n d t, (1 <= n <= 12)%nat -> tkind t = IDENT -> is_expr K true lit n (S d) [t] (Name (literal t))).
    { intros lit n d t R L. apply (widen K lit PRIMARY); [unfold PRIMARY; lia|]. now apply label. }
    refine (binary K true true 8 _ _ _ (T MINUS "-") _ _ M _ _).
    + change [T IDENT "a"; T MINUS "-"; T IDENT "b"] with ([T IDENT "a"] ++ T MINUS "-" :: [T IDENT "b"]).
      refine (binary K true true 8 _ _ _ (T MINUS "-") _ _ M _ _); [exact (V true 8%nat 255%nat (T IDENT "a") ltac:(lia) eq_refl)|].
      exact (V _ 9%nat 254%nat (T IDENT "b") ltac:(lia) eq_refl).
    + exact (V _ 9%nat 254%nat (T IDENT "c") ltac:(lia) eq_refl).
  - cbn. split; [|split; [|split]].
    + intros n A. apply level_kind in A as [A B]. cbn in A. unfold LOWEST in A. lia.
    + intros [X|[X|X]]; discriminate.
    + intros [X|[X|[X|[X|X]]]]; try discriminate; contradiction.
    + discriminate.
Qed.
Example written_case : written (Unary MINUS (Binary PLUS (Name (bs "a")) (Value INT (bs "1")))) =
  [tok MINUS []; tok LPAREN (bs "("); tok LPAREN (bs "("); tok IDENT (bs "a"); tok RPAREN (bs ")"); tok PLUS []; tok LPAREN (bs "("); tok INT (bs "1"); tok RPAREN (bs ")"); tok RPAREN (bs ")")].
Proof. reflexivity. Qed.
Example parsed_expressions_case : exists ts e s, lex (bs "(a + 1).b * f(y) ]") = Some ts /\
  parse none ts = Ok (Some e, s) /\ errs s = [] /\ complete e = true /\ Forall (fun t => tkind t <> LBRACE) ts /\ ends_file ts.
Proof.
  do 3 eexists. split; [vm_compute; reflexivity|]. split; [vm_compute; reflexivity|]. split; [reflexivity|]. split; [reflexivity|].
  split; [repeat constructor; discriminate|]. eexists [_; _; _; _; _; _; _; _; _; _; _; _; _], _. split; reflexivity.
Qed.

Print Assumptions parse_terminates.
Print Assumptions expressions_parsed.
Print Assumptions grammar_unambiguous.
Print Assumptions parsed_expressions_partial.
Print Assumptions two_operators.
Print Assumptions written_parsed.
Print Assumptions arguments_present_refuted.
Print Assumptions map_brace_refuted.
Print Assumptions array_closed_refuted.
Print Assumptions capital_before_block_refuted.
Print Assumptions literal_in_call_refuted.
Print Assumptions member_name_refuted.
