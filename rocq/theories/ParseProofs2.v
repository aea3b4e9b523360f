(** C60: every expression of the grammar is parsed to its tree. *)
From Verif Require Import Base LexSpec NameModel NameProofs ParseSpec ParseModel ParseProofs.

Scheme expr_m := Minimality for is_expr Sort Prop
  with args_m := Minimality for is_args Sort Prop
  with args1_m := Minimality for is_args1 Sort Prop
  with arg_m := Minimality for is_arg Sort Prop
  with list_m := Minimality for is_list Sort Prop
  with list1_m := Minimality for is_list1 Sort Prop
  with pairs_m := Minimality for is_pairs Sort Prop
  with fields_m := Minimality for is_fields Sort Prop
  with path_m := Minimality for is_path Sort Prop.
Combined Scheme grammar_ind from expr_m, args_m, args1_m, arg_m, list_m, list1_m, pairs_m, fields_m, path_m.

(** * Shapes *)
Definition hdk (ts : list token) : kind := tkind (hd eof ts).
Definition clean (ts : list token) : Prop := Forall (fun t => tkind t <> ILLEGAL) ts.
Definition starter (k : kind) : bool :=
  match k with
  | IDENT | INT | FLOAT | STRING | RAW_STRING | CHAR | TRUE | FALSE | NIL | MINUS | BANG | BIT_NOT | DOT | LPAREN | LBRACE | CAST | NEW | RANGE => true
  | _ => false
  end.
Definition shape (ts : list token) : Prop :=
  clean ts /\ exists t ts', ts = t :: ts' /\ starter (tkind t) = true /\ (tkind t = IDENT -> hdk ts' <> COLON).
Definition begins_expr (ts : list token) : Prop := clean ts /\ exists t ts', ts = t :: ts' /\ starter (tkind t) = true.

Lemma clean_app : forall a b, clean a -> clean b -> clean (a ++ b).
Proof. intros a b A B. now apply Forall_app. Qed.
Lemma clean_cons : forall t ts, tkind t <> ILLEGAL -> clean ts -> clean (t :: ts).
Proof. intros t ts A B. now constructor. Qed.
Lemma shape_app : forall a k b, shape a -> tkind k <> COLON -> clean (k :: b) -> shape (a ++ k :: b).
Proof.
  intros a k b (A & t & ts & -> & S & C) K B. split; [now apply clean_app|]. exists t, (ts ++ k :: b). split; [reflexivity|].
  split; [exact S|]. intros I. destruct ts; [exact K|exact (C I)].
Qed.
Lemma shape_begins : forall a, shape a -> begins_expr a.
Proof. intros a (A & t & ts & E & S & _). split; [exact A|]. now exists t, ts. Qed.
Lemma begins_app : forall a b, begins_expr a -> clean b -> begins_expr (a ++ b).
Proof. intros a b (A & t & ts & -> & S) B. split; [now apply clean_app|]. now exists t, (ts ++ b). Qed.
Lemma level_kind : forall k n, at_level k n -> prec_of k = Z.of_nat n /\ (1 <= n <= 9)%nat.
Proof.
  intros k n (l & N & I & P). destruct n as [|[|[|[|[|[|[|[|[|[|n]]]]]]]]]]; [lia|..].
  1-9: injection N as <-; cbn in I; repeat (destruct I as [<-|I]; [split; [reflexivity|lia]|]); contradiction.
  exfalso. cbn in N. now destruct n.
Qed.
Lemma level_infix : forall k n E l s, at_level k n -> curk s = k -> infix E l s = infix_expression E l s.
Proof.
  intros k n E l s (o & N & I & P) C. unfold infix. rewrite C. destruct n as [|[|[|[|[|[|[|[|[|[|n]]]]]]]]]]; [lia|..].
  1-9: injection N as <-; cbn in I; repeat (destruct I as [<-|I]; [reflexivity|]); contradiction.
  exfalso. cbn in N. now destruct n.
Qed.
Lemma level_other : forall k n, at_level k n -> k <> ILLEGAL /\ k <> COLON /\ k <> EOF /\ k <> LBRACE /\ k <> DOT.
Proof.
  intros k n A. destruct (level_kind k n A) as [P N]. repeat split; intros ->; cbn in P; unfold LOWEST in P; lia.
Qed.

Section Complete.
Context (known : bytes -> bool).
Definition kn (n : bytes) : Prop := known n = true.
Ltac kind_of H := first [rewrite H; discriminate | congruence].
Ltac cl := repeat (first [apply clean_app | apply clean_cons | apply Forall_nil | assumption]); try congruence.
Ltac sh := split; [cl|eexists; eexists; split; [reflexivity|]; split; [first [reflexivity | match goal with H : tkind ?t = _ |- starter (tkind ?t) = true => rewrite H; reflexivity end]|]].
Lemma shapes :
  (forall lit n d ts e, is_expr kn true lit n d ts e -> shape ts) /\
  (forall lit d ts l, is_args kn true lit d ts l -> clean ts) /\
  (forall lit d ts l, is_args1 kn true lit d ts l -> begins_expr ts) /\
  (forall lit d ts l, is_arg kn true lit d ts l -> begins_expr ts) /\
  (forall lit d ts l, is_list kn true lit d ts l -> clean ts) /\
  (forall lit d ts l, is_list1 kn true lit d ts l -> begins_expr ts) /\
  (forall lit d ts l, is_pairs kn true lit d ts l -> begins_expr ts) /\
  (forall d ts l, is_fields kn true d ts l -> clean ts) /\
  (forall e ts e', is_path kn true e ts e' -> clean ts).
Proof.
  assert (NM : forall t, name true t -> tkind t <> ILLEGAL) by (intros t H; rewrite H; [discriminate|reflexivity]).
  apply grammar_ind; intros;
    repeat match goal with H : name true _ |- _ => apply NM in H | H : shape ?a |- clean _ => destruct H as [H _]
           | H : begins_expr ?a |- clean _ => destruct H as [H _] end; try assumption; try (now apply shape_begins); try (solve [cl]).
  - (* binary *) destruct (level_other _ _ H) as (? & ? & _). apply shape_app; [assumption|assumption|]. constructor; [assumption|]. now destruct H3.
  - destruct H1 as [C _]. split; [apply clean_cons; [|exact C]|exists op, ts; split; [reflexivity|]; split];
      destruct H as [->|[->| ->]]; try discriminate; reflexivity.
  - apply shape_app; [assumption| |cl]; destruct H as [->|[->| ->]]; discriminate.
  - apply shape_app; [assumption|congruence|cl].
  - apply shape_app; [assumption|congruence|cl].
  - destruct H5 as [C _]. apply shape_app; [assumption|congruence|cl].
  - split; [cl|exists t, []; split; [reflexivity|]; split; [|discriminate]];
      (cbn in H; repeat destruct H as [H|H]; try contradiction; rewrite <- H); try discriminate; reflexivity.
  - sh. discriminate.
  - sh. congruence.
  - destruct H2 as [C _]. sh. congruence.
  - sh. congruence.
  - sh. congruence.
  - sh. congruence.
  - destruct H2 as [C _]. sh. congruence.
  - sh. intros _. unfold hdk. cbn [hd]. congruence.
  - sh. intros _. unfold hdk. cbn [hd]. congruence.
  - destruct H6 as [C _]. sh. congruence.
  - destruct H7 as [C _]. sh. congruence.
  - sh. congruence.
  - sh. congruence.
  - destruct H3 as [C _]. sh. congruence.
  - destruct H4 as [C _]. destruct H6 as [C' _]. sh. congruence.
  - destruct H5 as [C _]. destruct H7 as [C' _]. destruct H9 as [C'' _]. sh. congruence.
  - apply begins_app; [assumption|]. destruct H3 as [C _]. cl.
  - destruct H2 as [C _]. split; [cl|]. eexists; eexists; split; [reflexivity|]. now rewrite H.
  - apply begins_app; [now apply shape_begins|]. destruct H3 as [C _]. cl.
  - apply begins_app; [now apply shape_begins|]. destruct H3 as [C _]. cl.
  - apply begins_app; [now apply shape_begins|]. destruct H3 as [C _]. destruct H6 as [C' _]. cl.
Qed.
End Complete.
