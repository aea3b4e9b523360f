(** C60: the user's form of both directions. *)
From Verif Require Import Base LexSpec NameModel NameProofs ParseSpec ParseModel ParseProofs ParseProofs2 ParseProofs3 ParseProofs4 ParseProofs5 ParseProofs6.

Section P.
Context (known : bytes -> bool).
Lemma no_level : forall k, (forall n, ~ at_level k n) -> ~ postfix_operator k -> ~ In k [LPAREN; LBRACKET; DOT; ILLEGAL] -> prec_of k = LOWEST.
Proof.
  intros k L P I. destruct (prec_range k) as [A B]. destruct (Z.eq_dec (prec_of k) 0) as [E|E]; [exact E|].
  destruct (Z.le_gt_cases (prec_of k) 9) as [H|H].
  - exfalso. apply (L (Z.to_nat (prec_of k))), prec_level. lia.
  - exfalso. destruct k; cbn in H; unfold LOWEST in H; try lia; first [now apply I; cbn; tauto | now apply P; unfold postfix_operator; tauto].
Qed.
Lemma ends_after : forall ts e rest, ends_expr (kn known) ts rest -> ts <> [] -> ok_after known 1 ts e rest /\ prec_of (hdk rest) = LOWEST.
Proof.
  intros ts e [|t r] H NE; [split; [split; unfold quiet, hdk; cbn; try discriminate|reflexivity]|].
  destruct H as (L & P & I & B). pose proof (no_level _ L P I) as E. split; [|exact E]. split; unfold hdk, quiet; cbn [hd].
  - intros X. change (tkind t = ILLEGAL) in X || change (tkind t = DOT) in X. apply I. rewrite X. cbn. tauto.
  - change (prec_of (tkind t) <= 1). rewrite E. unfold LOWEST. lia.
  - intros K [N S]. destruct (exists_last NE) as (a & n & ->). rewrite final_snoc in *. apply (B K a n eq_refl). split; [exact N|]. now apply structish_iff.
  - intros X. change (tkind t = ILLEGAL) in X || change (tkind t = DOT) in X. exfalso. apply I. rewrite X. cbn. tauto.
Qed.
Lemma start_clean : forall ts rest, ts <> [] -> clean ts -> quiet rest -> start (ts ++ rest) = Ps (ts ++ rest) false [].
Proof.
  intros ts rest N C Q. unfold start.
  destruct ts as [|t ts]; [easy|]. cbn [app].
  rewrite next_at.
  2: { unfold quiet, hdk. cbn [hd]. now apply Forall_inv in C. }
  rewrite next_at; [reflexivity|]. apply quiet_app; [now apply Forall_inv_tail in C|exact Q].
Qed.
Lemma expression_parsed : forall d ts e rest, is_expr (kn known) true true 1 d ts e -> ends_expr (kn known) ts rest ->
  expression known d LOWEST (start (ts ++ rest)) = Ok (Some e, Ps (final ts :: rest) false []).
Proof.
  intros d ts e rest D F. pose proof (shapes known) as (SH & _). destruct (shape_ne _ (SH _ _ _ _ _ D)) as [NE C].
  destruct (ends_after ts e rest F NE) as [A P].
  destruct (grammar_parsed known) as (GP & _). destruct (GP _ _ _ _ _ D) as (d' & -> & H).
  rewrite (start_clean ts rest NE C (oa_quiet _ _ _ _ _ A)).
  destruct (H LOWEST rest false []) as (nl' & K & E); [unfold LOWEST; split; cbn; lia|exact A|reflexivity|].
  assert (nl' = false) by (now destruct K as [->| ->]). subst nl'. rewrite E. apply looped_stop. rewrite P. lia.
Qed.

(** Room to spare does no harm *)
Lemma deeper : forall known strict,
  (forall lit n d ts e, is_expr known strict lit n d ts e -> is_expr known strict lit n (S d) ts e) /\
  (forall lit d ts l, is_args known strict lit d ts l -> is_args known strict lit (S d) ts l) /\
  (forall lit d ts l, is_args1 known strict lit d ts l -> is_args1 known strict lit (S d) ts l) /\
  (forall lit d ts l, is_arg known strict lit d ts l -> is_arg known strict lit (S d) ts l) /\
  (forall lit d ts l, is_list known strict lit d ts l -> is_list known strict lit (S d) ts l) /\
  (forall lit d ts l, is_list1 known strict lit d ts l -> is_list1 known strict lit (S d) ts l) /\
  (forall lit d ts l, is_pairs known strict lit d ts l -> is_pairs known strict lit (S d) ts l) /\
  (forall d ts l, is_fields known strict d ts l -> is_fields known strict (S d) ts l) /\
  (forall e ts e', is_path known strict e ts e' -> is_path known strict e ts e').
Proof.
  intros kn' st. apply grammar_ind; intros; try (econstructor; eassumption).
Qed.
Lemma deeper_by : forall st lit n d d' ts e, (d <= d')%nat -> is_expr (kn known) st lit n d ts e -> is_expr (kn known) st lit n d' ts e.
Proof. intros st lit n d d' ts e H D. induction H; [exact D|]. now apply (proj1 (deeper (kn known) st)). Qed.
Lemma one_tree : forall d d' ts e e', is_expr (kn known) true true 1 d ts e -> is_expr (kn known) true true 1 d' ts e' -> e = e'.
Proof.
  intros d d' ts e e' H H'. pose proof (expression_parsed (Nat.max d d') ts e []) as P. pose proof (expression_parsed (Nat.max d d') ts e' []) as P'.
  rewrite P in P'; [|apply (deeper_by true true 1 d); [lia|exact H]|exact I]. assert (L : (d' <= Nat.max d d')%nat) by lia.
  specialize (P' (deeper_by true true 1 d' _ _ _ L H') I). congruence.
Qed.
Lemma parsed_expression : forall d ts e s', expression known d LOWEST (start ts) = Ok (Some e, s') -> errs s' = [] -> complete e = true -> Forall (fun t => tkind t <> LBRACE) ts ->
  ends_file ts -> exists us rest, ts = us ++ rest /\ (forall lit, is_expr (kn known) false lit 1 d us e) /\
    toks s' = final us :: rest /\ prec_of (hdk rest) = LOWEST.
Proof.
  intros d ts e s' H N C B E. remember (start ts) as s eqn:S0.
  assert (TS : toks s = ts) by (subst s; unfold start; now rewrite !next_toks).
  destruct (parsed_grammar known d LOWEST s e s') as (us & rest & (NE & T & T' & D) & P); [unfold LOWEST; lia|exact H| |exact C|now rewrite TS|now rewrite TS|].
  { unfold ne. rewrite N. apply Nat.le_0_l. }
  exists us, rest. rewrite <- TS. split; [exact T|]. split; [exact D|]. split; [exact T'|]. destruct (prec_range (hdk rest)) as [Q _]. unfold LOWEST in *. lia.
Qed.
End P.
