(** Proofs about interpolated strings. *)
From Verif Require Import Base BaseFacts StringsModel EncodingModel LitSpec LitModel LitProofs LitProofs2 LitProofs3 StrconvSpec StrconvModel StrconvProofs FormatSpec FormatModel FormatProofs FormatProofs2 FormatProofs3 FormatProofs4 Decimal.
Ltac Zify.zify_post_hook ::= Z.div_mod_to_equations.

Notation Ws := (flat_map seg_written).
(** * Finding the expressions *)
Lemma to_brace_balanced e : balanced e -> forall n q, (1 <= n)%nat -> to_brace n (e ++ q) = let '(a, b) := to_brace n q in (e ++ a, b).
Proof.
  induction 1 as [|c s C1 C2 B IH|a b A IHa B IHb]; intros n q N.
  - cbn [app]. destruct (to_brace n q). reflexivity.
  - cbn [app to_brace]. replace (c =? 123) with false by lia. replace (c =? 125) with false by lia. replace (n =? 0)%nat with false by lia. rewrite IH by exact N. destruct (to_brace n q). reflexivity.
  - cbn [app]. rewrite <- app_assoc. cbn [app]. change (to_brace n (123 :: a ++ 125 :: b ++ q)) with (let '(e, r) := to_brace (S n) (a ++ 125 :: b ++ q) in (123 :: e, r)).
    rewrite IHa by lia. cbn [to_brace]. cbn [Z.eqb Pos.eqb pred]. replace (n =? 0)%nat with false by lia. rewrite IHb by exact N. destruct (to_brace n q). rewrite <- app_assoc. reflexivity.
Qed.
Lemma to_brace_hole e q : balanced e -> to_brace 1 (e ++ 125 :: q) = (e, 125 :: q).
Proof. intros B. rewrite to_brace_balanced by (exact B || lia). cbn. now rewrite app_nil_r. Qed.
Section P.
Context (parse : bytes -> option expr).
Lemma parts_hole fuel e q seg : balanced e -> parts parse (S fuel) (36 :: 123 :: e ++ 125 :: q) seg =
  let '(ps, err) := parts parse fuel q [] in (text_part seg ++ expr_part parse e ++ ps, is_empty e || err).
Proof. intros B. cbn [parts]. cbn [Z.eqb Pos.eqb andb]. rewrite to_brace_hole by exact B. reflexivity. Qed.
Definition starts (r : bytes) : Prop := r = [] \/ exists q, r = 36 :: 123 :: q.
Lemma parts_plain fuel c r seg : c <> 92 -> ~ (c = 36 /\ exists q, r = 123 :: q) -> parts parse (S fuel) (c :: r) seg = parts parse fuel r (c :: seg).
Proof.
  intros A B. cbn [parts]. destruct r as [|d r]; [reflexivity|]. replace (c =? 92) with false by lia. destruct ((c =? 36) && (d =? 123)) eqn:E; [|reflexivity].
  exfalso. apply B. split; [lia|]. exists r. f_equal. lia.
Qed.
Lemma parts_escape fuel e r seg : parts parse (S fuel) (92 :: e :: r) seg = parts parse fuel r (e :: 92 :: seg).
Proof. reflexivity. Qed.
Lemma parts_text its r : Forall item_ok its -> no_neighbours opens its -> starts r -> forall fuel seg, (length (W its ++ r) < fuel)%nat ->
  exists fuel', (length r < fuel')%nat /\ parts parse fuel (W its ++ r) seg = parts parse fuel' r (rev (W its) ++ seg).
Proof.
  intros F N R. induction its as [|i its IH]; intros fuel seg Le; [exists fuel; split; [exact Le|reflexivity]|]. apply Forall_cons_iff in F as [O F]. pose proof (nn_tail _ _ _ N) as N'. specialize (IH F N').
  destruct i as [c|e v|h l v]; cbn [flat_map written app] in *.
  - destruct fuel as [|fuel]; [cbn in Le; lia|]. cbn in O. rewrite parts_plain; [|tauto|].
    + destruct (IH fuel (c :: seg)) as (f & A & B); [cbn in Le; lia|]. exists f. split; [exact A|]. rewrite B. cbn [rev]. rewrite <- app_assoc. reflexivity.
    + intros [-> [q E]]. destruct its as [|j its]; cbn [flat_map app] in E; [destruct R as [->|[q' ->]]; discriminate|]. apply (nn_head _ _ _ _ N). split; [reflexivity|].
      destruct j as [d|e v|h l v]; cbn in E; injection E as E _; [now subst|discriminate|discriminate].
  - destruct fuel as [|fuel]; [cbn in Le; lia|]. rewrite parts_escape. destruct (IH fuel (e :: 92 :: seg)) as (f & A & B); [cbn in Le; lia|]. exists f. split; [exact A|]. rewrite B. cbn [rev]. rewrite <- !app_assoc. reflexivity.
  - destruct O as (x & y & Hx & Hy & _). assert (D : forall h x, digit 16 h x -> h <> 92 /\ h <> 36) by (intros ? ? D; inversion D; lia).
    destruct fuel as [|[|[|fuel]]]; try (cbn in Le; lia). rewrite parts_escape. rewrite parts_plain; [|apply (D _ _ Hx)|intros [E _]; apply (D _ _ Hx); exact E].
    rewrite parts_plain; [|apply (D _ _ Hy)|intros [E _]; apply (D _ _ Hy); exact E].
    destruct (IH fuel (l :: h :: 120 :: 92 :: seg)) as (f & A & B); [cbn in Le; lia|]. exists f. split; [exact A|]. rewrite B. cbn [rev]. rewrite <- !app_assoc. reflexivity.
Qed.
Definition expected (ss : list seg) : list ipart := flat_map (fun s => match s with Txt its => [PText (W its)] | Hole e => expr_part parse e end) ss.
Definition empties (ss : list seg) : bool := existsb (fun s => match s with Txt _ => false | Hole e => is_empty e end) ss.
Lemma W_nonempty its : Forall item_ok its -> its <> [] -> W its <> [].
Proof. destruct its as [|[c|e v|h l v] its]; [congruence|discriminate..]. Qed.
Lemma text_part_rev s : s <> [] -> text_part (rev s ++ []) = [PText s].
Proof. intros N. rewrite app_nil_r. unfold text_part. destruct (rev s) as [|c r] eqn:E; [exfalso; apply N; rewrite <- (rev_involutive s), E; reflexivity|]. rewrite <- E, rev_involutive. reflexivity. Qed.
Lemma texts_tail s ss : no_two_texts (s :: ss) -> no_two_texts ss.
Proof. intros H p a b q ->. apply (H (s :: p) a b q). reflexivity. Qed.
Lemma parts_segs ss : Forall seg_ok ss -> no_two_texts ss -> forall fuel, (length (Ws ss) < fuel)%nat -> parts parse fuel (Ws ss) [] = (expected ss, empties ss).
Proof.
  induction ss as [ss IH] using list_len_ind. intros F T fuel Le. destruct ss as [|s ss]; [destruct fuel; reflexivity|]. apply Forall_cons_iff in F as [O F]. pose proof (texts_tail _ _ T) as T'.
  assert (HO : forall e q, seg_written (Hole e) ++ q = 36 :: 123 :: e ++ 125 :: q) by (intros e q; cbn; rewrite <- app_assoc; reflexivity).
  destruct s as [its|e]; cbn [flat_map] in *.
  - destruct O as (N & O & D). destruct ss as [|s2 ss].
    + cbn [flat_map seg_written] in *. destruct (parts_text its [] O D (or_introl eq_refl) fuel [] Le) as (f & A & B). rewrite B. destruct f as [|f]; [cbn in A; lia|]. cbn [parts]. rewrite text_part_rev by (now apply W_nonempty). reflexivity.
    + destruct s2 as [its2|e]; [exfalso; apply (T [] its its2 ss); reflexivity|]. cbn [flat_map] in *. rewrite HO in *. apply Forall_cons_iff in F as [[Be _] F].
      destruct (parts_text its (36 :: 123 :: e ++ 125 :: Ws ss) O D ltac:(right; eauto) fuel [] Le) as (f & A & B). cbn [seg_written]. rewrite B. destruct f as [|f]; [lia|]. rewrite parts_hole by exact Be.
      rewrite (IH ss ltac:(cbn; lia) F (texts_tail _ _ T')) by (cbn in A; rewrite app_length in A; cbn in A; lia). rewrite text_part_rev by (now apply W_nonempty). reflexivity.
  - rewrite HO in *. destruct O as [Be _]. destruct fuel as [|f]; [lia|]. rewrite parts_hole by exact Be. rewrite (IH ss ltac:(cbn; lia) F T') by (cbn in Le; rewrite app_length in Le; cbn in Le; lia). reflexivity.
Qed.
End P.
Lemma is_empty_blank e : is_empty e = true <-> blank e.
Proof.
  unfold is_empty, blank. rewrite forallb_forall. split; intros H c I; specialize (H c I).
  - cbn. lia.
  - cbn in H. lia.
Qed.

(** * The format *)
Definition ci (i : item) : list item := match i with Plain c => if c =? 37 then [Plain 37; Plain 37] else [i] | Escape e _ => if e =? 36 then [Plain 36] else [i] | _ => [i] end.
Lemma part_items its : Forall item_ok its -> no_neighbours bad_dollar its -> part (W its) = W (flat_map ci its).
Proof.
  induction its as [|i its IH]; intros F N; [reflexivity|]. apply Forall_cons_iff in F as [O F]. specialize (IH F (nn_tail _ _ _ N)). cbn [flat_map]. rewrite W_app, <- IH. destruct i as [c|e v|h l v]; cbn [ci written app].
  - cbn in O. destruct (c =? 37) eqn:E.
    + assert (c = 37) by lia. subst c. reflexivity.
    + rewrite part_plain by lia. reflexivity.
  - destruct (escape_cases _ _ O) as [[-> ->]|[[-> ->]|[[-> ->]|(Ec & A & B & C & _)]]].
    + rewrite part_92 by discriminate. rewrite part_plain by discriminate. reflexivity.
    + reflexivity.
    + rewrite part_92 by discriminate. rewrite part_92; [reflexivity|]. destruct its as [|[c|e v|h l v] its]; cbn; try discriminate. intros ->. apply (nn_head _ _ _ _ N). split; reflexivity.
    + rewrite part_92 by exact B. rewrite part_plain; [|exact C|intros ->; discriminate]. replace (e =? 36) with false by lia. reflexivity.
  - destruct O as (x & y & Hx & Hy & _). assert (D : forall h x, digit 16 h x -> h <> 92 /\ h <> 37) by (intros ? ? D; inversion D; lia).
    rewrite part_92 by discriminate. rewrite part_plain by discriminate. rewrite part_plain by (apply (D _ _ Hx)). rewrite part_plain by (apply (D _ _ Hy)). reflexivity.
Qed.
Lemma ci_ok its : Forall item_ok its -> Forall (fun i => ~ bad_item i) its -> Forall citem_ok (flat_map ci its).
Proof.
  induction its as [|i its IH]; intros F B; [constructor|]. apply Forall_cons_iff in F as [O F]. apply Forall_cons_iff in B as [Bi B]. cbn [flat_map]. apply Forall_app. split; [|now apply IH].
  assert (N : denoted i <> 0) by (intros E; apply Bi; now left).
  assert (P : forall c, c <> 0 /\ c <> 92 /\ c <> 34 /\ c <> 10 -> citem_ok (Plain c)) by (intros c H; split; [exact H|]; split; [discriminate|exact (proj1 H)]).
  destruct i as [c|e v|h l v]; cbn [ci].
  - destruct (c =? 37); [repeat constructor; try discriminate|]. constructor; [apply P; exact O|constructor].
  - destruct (e =? 36) eqn:E; [constructor; [apply P; lia|constructor]|]. constructor; [|constructor]. split; [exact O|]. split; [intros v' H; injection H as -> _; discriminate|exact N].
  - constructor; [|constructor]. split; [exact O|]. split; [discriminate|exact N].
Qed.
Lemma ci_sep its : hex_sep its -> hex_sep (flat_map ci its).
Proof.
  induction its as [|i its IH]; intros H; [exact I|]. cbn [hex_sep] in H. destruct H as [H1 H2]. specialize (IH H2). cbn [flat_map]. destruct i as [c|e v|h l v]; cbn [ci].
  - destruct (c =? 37); cbn [app]; now rewrite !hex_sep_plain.
  - destruct (e =? 36); cbn [app]; [now rewrite hex_sep_plain|]. split; [exact I|exact IH].
  - cbn [app hex_sep]. split; [|exact IH]. destruct its as [|[d|e w|h' l' w] its]; cbn [flat_map ci] in *; try exact I.
    + destruct (d =? 37); cbn [app]; [reflexivity|exact H1].
    + destruct (e =? 36); cbn [app]; [reflexivity|exact I].
Qed.
Lemma ci_denoted its : Forall item_ok its -> Forall (fun i => ~ bad_item i) its -> forall lay r args,
  printf lay None (map denoted (flat_map ci its) ++ r) args = option_map (app (map denoted its)) (printf lay None r args).
Proof.
  intros F B lay r args. assert (Z0 : forall x : option bytes, option_map (app []) x = x) by (intros [x|]; reflexivity). induction its as [|i its IH]; [cbn; now rewrite Z0|].
  apply Forall_cons_iff in F as [O F]. apply Forall_cons_iff in B as [Bi B]. cbn [flat_map map]. rewrite map_app, <- app_assoc.
  assert (S : forall c q, c <> 0 -> c <> 37 -> printf lay None (c :: q) args = option_map (cons c) (printf lay None q args)).
  { intros c q A C. cbn [printf]. replace (c =? 0) with false by lia. replace (c =? 37) with false by lia. reflexivity. }
  assert (C2 : forall q, printf lay None (37 :: 37 :: q) args = option_map (cons 37) (printf lay None q args)) by reflexivity.
  assert (M : forall c x (y : option bytes), option_map (cons c) (option_map (app x) y) = option_map (app (c :: x)) y) by (intros c x [y|]; reflexivity).
  specialize (IH F B). assert (N : denoted i <> 0) by (intros E; apply Bi; now left).
  destruct i as [c|e v|h l v]; cbn [ci].
  - destruct (c =? 37) eqn:E; cbn [map denoted app].
    + assert (c = 37) by lia. subst c. rewrite C2, IH. apply M.
    + rewrite S by (cbn in N; lia). rewrite IH. apply M.
  - assert (v <> 37) by (cbn in O; repeat (destruct O as [O|O]; [injection O as <- <-; discriminate|]); destruct O). destruct (e =? 36) eqn:E; cbn [map denoted app].
    + assert (v = 36). { assert (e = 36) by lia. subst e. cbn in O. repeat (destruct O as [O|O]; [first [discriminate O|injection O as <-; reflexivity]|]). destruct O. }
      subst v. rewrite S by discriminate. rewrite IH. apply M.
    + rewrite S by (cbn in N; assumption). rewrite IH. apply M.
  - assert (v <> 37) by (intros ->; apply Bi; right; eauto). cbn [map denoted app]. rewrite S by (cbn in N; assumption). rewrite IH. apply M.
Qed.
Lemma simple_ok l c : In l lens -> spec_ok (mk [] [] None l c).
Proof. intros L. split; [constructor|]. split; [constructor|]. split; [discriminate|]. split; [exact I|exact L]. Qed.
Lemma simple_letter l c : In c (bs "sdu") -> letter (conv (mk [] [] None l c)).
Proof. intros C. apply letter_known. cbn in C |- *. tauto. Qed.
Section V.
Context (val : bytes -> shown).
Definition icits (ss : list seg) : list item := flat_map (fun s => match s with Txt its => flat_map ci its | Hole e => map Plain (interp_directive (val e)) end) ss.
Lemma directive_plain v : exists r, interp_directive v = 37 :: r /\ Forall (fun c => c <> 0 /\ c <> 92 /\ c <> 34 /\ c <> 10 /\ c <> 63) (interp_directive v).
Proof. destruct v; cbn; eexists; (split; [reflexivity|]); repeat constructor; lia. Qed.
Lemma W_icits ss : Forall seg_ok ss -> Forall seg_good ss -> forall parse, (forall e, In (Hole e) ss -> ~ blank e /\ parse e = Some (EVal (val e))) ->
  flat_map (fun p => match p with PText s => part s | PExpr v => interp_directive v end) (expected parse ss) = W (icits ss) /\
  interp_args (expected parse ss) = flat_map (fun s => match s with Txt _ => [] | Hole e => [interp_arg (val e)] end) ss.
Proof.
  intros F G parse H. induction ss as [|s ss IH]; [split; reflexivity|]. apply Forall_cons_iff in F as [O F]. apply Forall_cons_iff in G as [Gs G].
  destruct (IH F G ltac:(intros e J; apply H; now right)) as [A B]. destruct s as [its|e].
  - destruct O as (_ & O & _). destruct Gs as (_ & D & _). cbn [expected icits flat_map app]. rewrite W_app. fold (expected parse ss). fold (icits ss). rewrite A, part_items by assumption. split; [reflexivity|]. exact B.
  - destruct (H e (or_introl eq_refl)) as [NB P]. assert (X : expr_part parse e = [PExpr (val e)]).
    { unfold expr_part. rewrite P. destruct (is_empty e) eqn:E; [|reflexivity]. apply is_empty_blank in E. contradiction. }
    cbn [expected icits flat_map]. fold (expected parse ss). fold (icits ss). rewrite X. cbn [app flat_map]. rewrite W_app, W_plain, A. split; [reflexivity|]. unfold interp_args in *. cbn [flat_map]. now rewrite B.
Qed.
Lemma icits_head ss : no_two_texts ss -> forall its q, ss = Txt its :: q -> q = [] \/ exists e r, q = Hole e :: r.
Proof. intros T its q ->. destruct q as [|[its2|e] q]; [now left|exfalso; apply (T [] its its2 q); reflexivity|right; eauto]. Qed.
Lemma icits_good ss : Forall seg_ok ss -> Forall seg_good ss -> no_two_texts ss -> Forall citem_ok (icits ss) /\ hex_sep (icits ss) /\ qq (W (icits ss)) = false.
Proof.
  induction ss as [|s ss IH]; intros F G T; [split; [constructor|split; [exact I|reflexivity]]|]. apply Forall_cons_iff in F as [O F]. apply Forall_cons_iff in G as [Gs G].
  destruct (IH F G (texts_tail _ _ T)) as (A & B & C). cbn [icits flat_map]. fold (icits ss). rewrite W_app. destruct s as [its|e].
  - destruct O as (_ & O & _). destruct Gs as (Q & D & X & Bi).
    assert (Hd : (match icits ss with Plain d :: _ => isxdigit d = false | _ => True end) /\ (hd 0 (W (icits ss)) =? 63) = false).
    { destruct (icits_head _ T its ss eq_refl) as [->|(e & r & ->)]; [split; [exact I|reflexivity]|]. cbn [icits flat_map]. destruct (directive_plain (val e)) as (q & -> & _). split; reflexivity. }
    split; [apply Forall_app; split; [now apply ci_ok|exact A]|]. split; [apply hex_sep_app; [apply ci_sep; now apply hex_sep_of|exact B|apply Hd]|].
    apply qq_app; [|exact C|rewrite (proj2 Hd); apply andb_false_r]. rewrite <- part_items by assumption. apply part_qq, qq_free, Q.
  - destruct (directive_plain (val e)) as (q & _ & P). split; [apply Forall_app; split; [apply plain_ok; eapply Forall_impl; [|exact P]; cbv beta; tauto|exact A]|].
    split; [now apply hex_sep_plains|]. rewrite W_plain, qq_none; [exact C|]. eapply Forall_impl; [|exact P]. cbv beta. tauto.
Qed.
Lemma dec_signed_nonneg v : 0 <= v -> dec_signed v = dec v. Proof. intros H. unfold dec_signed. replace (v <? 0) with false by lia. reflexivity. Qed.
Lemma hole_printf lay v r args : plain_layout lay -> in_type v -> (forall t, shows v t -> ~ In 0 t) ->
  exists t, shows v t /\ printf lay None (interp_directive v ++ r) (interp_arg v :: args) = option_map (app t) (printf lay None r args).
Proof.
  intros (Ld & Lu & Ls) T N.
  assert (S : forall s, shows v s -> interp_directive v = bs "%s" -> interp_arg v = AStr s -> printf lay None (interp_directive v ++ r) (interp_arg v :: args) = option_map (app s) (printf lay None r args)).
  { intros s Sh -> ->. change (bs "%s" ++ r) with (37 :: spec_written (mk [] [] None [] 115) ++ r). cbn [printf]. cbn [Z.eqb Pos.eqb].
    rewrite printf_spec by (apply simple_ok || apply simple_letter || discriminate; cbn; tauto). change (reads (mk [] [] None [] 115) (AStr s)) with (Some (VStr (upto_nul s))).
    cbn [flags width precision conv mk]. rewrite Ls, upto_all by (now apply N). reflexivity. }
  assert (D : forall z s, INT64_MIN <= z <= INT64_MAX -> interp_directive v = bs "%lld" -> interp_arg v = A64 (wrap_i 64 z) -> s = dec_signed z -> printf lay None (interp_directive v ++ r) (interp_arg v :: args) = option_map (app s) (printf lay None r args)).
  { intros z s Z0 -> -> ->. change (bs "%lld" ++ r) with (37 :: spec_written (mk [] [] None (bs "ll") 100) ++ r). cbn [printf]. cbn [Z.eqb Pos.eqb].
    rewrite printf_spec by (apply simple_ok || apply simple_letter || discriminate; cbn; tauto). rewrite wrap_i_64 by exact Z0.
    change (reads (mk [] [] None (bs "ll") 100) (A64 z)) with (Some (VInt (wrap_i 64 z))). rewrite wrap_i_64 by exact Z0. cbn [flags width precision conv mk]. rewrite Ld. reflexivity. }
  destruct v; cbn [interp_directive interp_arg in_type] in *.
  - exists (dec_signed v). split; [constructor|]. now apply D with v.
  - exists (dec v). split; [constructor|]. change (bs "%llu" ++ r) with (37 :: spec_written (mk [] [] None (bs "ll") 117) ++ r). cbn [printf]. cbn [Z.eqb Pos.eqb].
    rewrite printf_spec by (apply simple_ok || apply simple_letter || discriminate; cbn; tauto).
    assert (W0 : wrap_u 64 v = v) by (apply wrap_u_id; change (2 ^ 64) with (UINT64_MAX + 1); unfold UINT64_MAX in *; lia). rewrite W0.
    change (reads (mk [] [] None (bs "ll") 117) (A64 v)) with (Some (VInt (wrap_u 64 v))). rewrite W0. cbn [flags width precision conv mk]. rewrite Lu by lia. reflexivity.
  - exists (dec v). split; [constructor|]. apply D with v; auto; [unfold INT64_MIN, INT64_MAX; lia|]. now rewrite dec_signed_nonneg by lia.
  - exists (char_to_utf8 cp). assert (Sh : shows (SChar cp) (char_to_utf8 cp)) by (constructor; now apply utf8_encode). split; [exact Sh|]. now apply S.
  - exists (if b then bs "true" else bs "false"). split; [constructor|]. apply S; auto. constructor.
  - exists s. split; [constructor|]. apply S; auto. constructor.
  - exists (dec_signed v). split; [constructor|]. now apply D with v.
  - exists s. split; [constructor|]. apply S; auto. constructor.
  - exists s. split; [constructor|]. apply S; auto. constructor.
  - destruct message as [m|]; [exists m|exists (bs "nil")]; (split; [constructor|]); apply S; auto; constructor.
  - exists text. split; [constructor|]. apply S; auto. constructor.
  - exists text. split; [constructor|]. apply S; auto. constructor.
  - exists text. split; [constructor|]. apply S; auto. constructor.
  - exists text. split; [constructor|]. apply S; auto. constructor.
Qed.
Lemma icits_printf lay ss : plain_layout lay -> Forall seg_ok ss -> Forall seg_good ss -> (forall e, In (Hole e) ss -> in_type (val e) /\ forall t, shows (val e) t -> ~ In 0 t) ->
  exists t, filled val ss t /\ printf lay None (map denoted (icits ss)) (flat_map (fun s => match s with Txt _ => [] | Hole e => [interp_arg (val e)] end) ss) = Some t.
Proof.
  intros L F G H. induction ss as [|s ss IH]; [exists []; split; [constructor|reflexivity]|]. apply Forall_cons_iff in F as [O F]. apply Forall_cons_iff in G as [Gs G].
  destruct (IH F G ltac:(intros e J; apply H; now right)) as (t & A & B). cbn [icits flat_map]. fold (icits ss). rewrite map_app. destruct s as [its|e].
  - destruct O as (_ & O & _). destruct Gs as (_ & _ & _ & Bi). exists (map denoted its ++ t). split; [now constructor|]. cbn [app]. rewrite ci_denoted by assumption. rewrite B. reflexivity.
  - destruct (H e (or_introl eq_refl)) as [T N]. destruct (hole_printf lay (val e) (map denoted (icits ss)) (flat_map (fun s => match s with Txt _ => [] | Hole e => [interp_arg (val e)] end) ss) L T N) as (s & S & P).
    exists (s ++ t). split; [now constructor|]. rewrite denoted_plain. cbn [app]. rewrite P, B. reflexivity.
Qed.
End V.
