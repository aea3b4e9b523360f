(** Proofs about the formatter, part 5: depths. *)
From Verif Require Import Base BaseFacts StringsModel EncodingModel LexSpec LexModel LexProofs LexProofs2 LexProofs3 LexProofs4 FmtSpec FmtModel FmtProofs FmtProofs2 FmtProofs3 FmtProofs4.

Lemma entry_fill table d k : forall n c i, entry table (i + Z.of_nat k) = Some d -> (k < n)%nat -> nth k (fill table c i n) 0 = d.
Proof.
  induction k as [|k IH]; intros [|n] c i E L; try lia; cbn [fill nth]; [rewrite Z.add_0_r in E; now rewrite E|]. apply IH; [|lia]. rewrite <- E. f_equal. lia.
Qed.
Lemma record_entry m t b : tkind t <> EOF -> tkind t <> ILLEGAL -> 1 <= tline t <= m -> forall a d, 0 <= d -> Forall (fun u => tkind u <> EOF /\ tkind u <> ILLEGAL /\ 1 <= tline u <= m /\ tline u < tline t) a ->
  entry (record d m (a ++ t :: b)) (tline t) = Some (start_depth (nesting d a) (tkind t)).
Proof.
  intros K1 K2 Lt a. induction a as [|u a IH]; intros d D F; cbn [app].
  - rewrite record_live by assumption. destruct ((tline t <? 1) || (m <? tline t)) eqn:B; [lia|]. unfold entry. cbn [find fst]. rewrite Z.eqb_refl. cbn [option_map snd nesting]. unfold start_depth. f_equal.
    destruct (tkind t); try reflexivity. destruct (0 <? d) eqn:X; lia.
  - apply Forall_cons_iff in F as [(U1 & U2 & U3 & U4) F]. rewrite record_live by assumption. destruct ((tline u <? 1) || (m <? tline u)) eqn:B; [lia|]. unfold entry. cbn [find fst].
    destruct (Z.eqb_spec (tline u) (tline t)); [lia|]. fold (entry (record (match tkind u with LBRACE => match tkind u with RBRACE => if 0 <? d then d - 1 else d | _ => d end + 1 | _ => match tkind u with RBRACE => if 0 <? d then d - 1 else d | _ => d end end) m (a ++ t :: b)) (tline t)).
    rewrite IH; [|destruct (tkind u); try lia; destruct (0 <? d) eqn:X; lia|exact F]. cbn [nesting]. f_equal. f_equal. f_equal. destruct (tkind u); try reflexivity. destruct (0 <? d) eqn:X; lia.
Qed.
Lemma made_bounds pre ts s : made_of true pre ts s -> forall src, src = pre ++ s -> forall body e, ts = body ++ [e] -> Forall (fun t => tkind t <> EOF /\ tkind t <> ILLEGAL /\ 1 <= tline t <= 1 + newlines src /\
  exists x y, src = x ++ spelling (tkind t) (literal t) ++ y /\ tline t = 1 + newlines x) body.
Proof.
  remember true as cl eqn:Cl. induction 1 as [pre t g E L G P|pre t ts g s A B G P W N M IH|pre t ts g x s C A G P X M IH|pre t e g body C A L E G X]; intros src Es bd e0 Eb; try congruence.
  - destruct bd as [|? [|? ?]]; try discriminate. constructor.
  - destruct bd as [|u bd]; [constructor|]. cbn [app] in Eb. injection Eb as <- Eb. constructor.
    + split; [exact A|]. split; [exact B|]. split; [|exists (pre ++ g), s; split; [rewrite Es; now rewrite <- !app_assoc|apply P]].
      destruct P as [-> _]. rewrite Es. rewrite !newlines_app. pose proof (newlines_pos pre). pose proof (newlines_pos g). pose proof (newlines_pos (spelling (tkind t) (literal t))). pose proof (newlines_pos s). lia.
    + apply (IH) with (e := e0); [rewrite Es; now rewrite <- !app_assoc|exact Eb].
Qed.
(** Lines that do not start in a raw string *)
Lemma no_raw p : ~ In 96 p -> forall n s, in_raw_at n false s p = false.
Proof.
  induction p as [p IH] using list_len_ind. intros N [|n] s; [destruct p; reflexivity|]. destruct p as [|c p1]; [reflexivity|]. cbn [in_raw_at].
  assert (I1 : forall n s, in_raw_at n false s p1 = false) by (intros; apply IH; [cbn; lia|intros I; apply N; now right]). rewrite !I1. destruct (Z.eqb_spec c 96) as [->|]; [exfalso; apply N; now left|].
  destruct (c =? 10); [reflexivity|]. destruct s; [|destruct (c =? 34); reflexivity]. destruct (c =? 92); [|reflexivity]. destruct p1 as [|d p2]; [reflexivity|]. apply IH; [cbn; lia|]. intros I; apply N; right; now right.
Qed.
Lemma free_false g : quote_free g -> forall n b, (n <= Z.to_nat (newlines g))%nat -> in_raw_at n false false (g ++ b) = false.
Proof.
  intros [N1 N2]. induction g as [|c g IH]; intros n b; [intros L; cbn in L; assert (n = 0%nat) as -> by lia; destruct b; reflexivity|]. rewrite newlines_cons. pose proof (newlines_pos g). cbn [app]. destruct n as [|n]; [reflexivity|]. cbn [in_raw_at].
  assert (I1 : ~ In 34 g) by (intros I; apply N1; now right). assert (I2 : ~ In 96 g) by (intros I; apply N2; now right).
  destruct (Z.eqb_spec c 10) as [->|]; intros L; [apply IH; auto; lia|]. destruct (Z.eqb_spec c 96) as [->|]; [exfalso; apply N2; now left|]. destruct (Z.eqb_spec c 34) as [->|]; [exfalso; apply N1; now left|]. apply IH; auto.
Qed.
Lemma spelling_newlines k lit : newlines (spelling k lit) = newlines lit.
Proof. destruct k; cbn [spelling]; rewrite ?newlines_app; change (newlines [34]) with 0; change (newlines [96]) with 0; change (newlines [39]) with 0; lia. Qed.
Lemma tidy_line pre ts s : tidy pre ts s -> neutral pre -> Forall raw_ok ts -> forall n, (n > Z.to_nat (newlines pre))%nat \/ pre = [] -> forall a t b, ts = a ++ t :: b -> b <> [] -> Forall (fun u => tline u + newlines (literal u) < 1 + Z.of_nat n) a -> tline t = 1 + Z.of_nat n ->
  in_raw_at n false false (pre ++ s) = false.
Proof.
  induction 1 as [pre t g|pre t ts g s F P T M IH]; intros Np R n Gn a u b Et Nb Fa Lu.
  - destruct a as [|? [|? ?]]; try discriminate. cbn [app] in Et. injection Et as _ <-. contradiction.
  - apply Forall_cons_iff in R as [R0 R]. pose proof (newlines_pos pre). pose proof (newlines_pos g). destruct a as [|x a]; cbn [app] in Et; injection Et as -> Et.
    + destruct P as [Pl _]. rewrite newlines_app in Pl. destruct Gn as [Gn| ->].
      * rewrite Np by lia. apply free_false; [exact F|lia].
      * cbn [app]. apply free_false; [exact F|]. change (newlines []) with 0 in *. lia.
    + apply Forall_cons_iff in Fa as [Fx Fa]. destruct P as [Pl _]. rewrite newlines_app in Pl.
      replace (pre ++ g ++ spelling (tkind x) (literal x) ++ s) with ((pre ++ g ++ spelling (tkind x) (literal x)) ++ s) by now rewrite <- !app_assoc.
      apply (IH) with (a := a) (t := u) (b := b); auto.
      * apply neutral_app; [exact Np|]. apply neutral_app; [now apply neutral_free|now apply neutral_token].
      * left. rewrite !newlines_app, spelling_newlines. pose proof (newlines_pos (literal x)). lia.
Qed.
Lemma nth_line_in x c y : c <> 10 -> In c (nth (Z.to_nat (newlines x)) (lines (x ++ c :: y)) []).
Proof.
  intros C. induction x as [|d x IH].
  - cbn [app]. change (Z.to_nat (newlines [])) with 0%nat. rewrite lines_cons. destruct (Z.eqb_spec c 10); [contradiction|]. destruct (lines y); now left.
  - cbn [app]. rewrite lines_cons, newlines_cons. pose proof (newlines_pos x). destruct (Z.eqb_spec d 10) as [->|].
    + replace (Z.to_nat (1 + newlines x)) with (S (Z.to_nat (newlines x))) by lia. exact IH.
    + rewrite Z.add_0_l. destruct (lines (x ++ c :: y)) as [|l ls] eqn:E; [destruct (Z.to_nat (newlines x)); destruct IH|]. destruct (Z.to_nat (newlines x)); [now right|exact IH].
Qed.
Lemma format_depth src ts out a t b : lex src = Some ts -> forallb legal ts = true -> tidy [] ts src \/ ~ In 96 src -> format src = Some out ->
  ts = a ++ t :: b -> tkind t <> EOF -> Forall (fun u => tline u + newlines (literal u) < tline t) a ->
  exists w x, nth (Z.to_nat (tline t - 1)) (lines src) [] = w ++ x /\ Forall indent_char w /\ ~ indent_char (hd 0 x) /\ x <> [] /\
    nth (Z.to_nat (tline t - 1)) (lines out) [] = List.repeat 32 (Z.to_nat (4 * start_depth (nesting 0 a) (tkind t))) ++ x.
Proof.
  intros L Lg Ti F Et Ke Fa. destruct (lex_made src) as (ts0 & L0 & M & _). rewrite L in L0. injection L0 as <-. rewrite Lg in M. destruct (made_ends _ _ _ _ M) as (body & e & E & Ee & NE).
  pose proof (made_bounds _ _ _ M src eq_refl body e E) as MB.
  assert (Eb : exists b', body = a ++ t :: b' /\ b = b' ++ [e]).
  { destruct b as [|z b _] using rev_ind.
    - exfalso. rewrite E in Et. apply app_inj_tail in Et as [_ ->]. contradiction.
    - rewrite E in Et. change (a ++ t :: b ++ [z]) with (a ++ (t :: b) ++ [z]) in Et. rewrite app_assoc in Et. apply app_inj_tail in Et as [-> ->]. eauto. }
  destruct Eb as (b' & -> & ->). apply Forall_app in MB as [MBa MB]. apply Forall_cons_iff in MB as [(K1 & K2 & Bt & x0 & y0 & Es & Lx) _].
  destruct (trim_spec (nth (Z.to_nat (tline t - 1)) (lines src) [])) as (w & Ew & Fw & Nw). exists w, (trim (nth (Z.to_nat (tline t - 1)) (lines src) [])).
  assert (NonNil : trim (nth (Z.to_nat (tline t - 1)) (lines src) []) <> []).
  { intros T. apply trim_nil in T. unfold lex in L. rewrite at_create in L. destruct (tokens_keep _ _ _ _ L Lg) as (bd & e2 & X1 & Kp & _). rewrite E in X1. apply app_inj_tail in X1 as [<- _].
    rewrite map_app in Kp. apply Forall_app in Kp as [_ Kp]. cbn [map] in Kp. apply Forall_cons_iff in Kp as [(_ & _ & NN & KS) _]. destruct (KS [] (or_introl eq_refl)) as [St _]. rewrite app_nil_r in St.
    fold (spelling (tkind t) (literal t)) in *. destruct (spelling (tkind t) (literal t)) as [|c sp] eqn:Sp; [contradiction|]. destruct St as [Bc _].
    assert (C10 : c <> 10) by (intros ->; discriminate). pose proof (nth_line_in x0 c (sp ++ y0) C10) as I. cbn [app] in Es. rewrite <- Es in I. replace (newlines x0) with (tline t - 1) in I by lia.
    rewrite Forall_forall in T. apply T in I. unfold indent_char in I. unfold is_blank in Bc. lia. }
  split; [exact Ew|]. split; [exact Fw|]. split; [exact Nw|]. split; [exact NonNil|].
  assert (Lk : (Z.to_nat (tline t - 1) < length (lines src))%nat).
  { destruct (Nat.lt_ge_cases (Z.to_nat (tline t - 1)) (length (lines src))) as [H|H]; [exact H|]. exfalso. apply NonNil. now rewrite nth_overflow. }
  assert (Raw : in_raw_string src (1 + Z.to_nat (tline t - 1)) = false).
  { unfold in_raw_string. cbn [pred Nat.add]. destruct Ti as [Ti|N96]; [|now apply no_raw]. apply (tidy_line [] ts src Ti neutral_nil) with (a := a) (t := t) (b := b' ++ [e]); auto.
    - eapply tokens_raw_ok; exact L.
    - intros X. apply app_eq_nil in X as [_ X]. discriminate.
    - eapply Forall_impl; [|exact Fa]. cbn beta. intros u Hu. lia.
    - lia. }
  unfold format in F. destruct (depth_table src (count_lines src)) as [table|] eqn:D; [|discriminate]. injection F as <-. rewrite format_lines_written.
  rewrite lines_text by (apply written_lines_no_newline, lines_no_newline). rewrite written_lines_nth by exact Lk. rewrite Raw. unfold written. destruct (trim (nth (Z.to_nat (tline t - 1)) (lines src) [])) eqn:T; [contradiction|].
  f_equal. f_equal. cbn [pred Nat.add]. unfold depth_table in D. rewrite L in D. unfold count_lines in D. remember (1 + newlines src) as mx eqn:Mx. injection D as <-.
  erewrite entry_fill.
  2:{ replace (1 + Z.of_nat (Z.to_nat (tline t - 1))) with (tline t) by lia. rewrite Et. apply record_entry; [exact K1|exact K2|exact Bt|lia|].
      apply Forall_forall. intros u I. rewrite Forall_forall in MBa, Fa. destruct (MBa u I) as (U1 & U2 & U3 & _). specialize (Fa u I). cbn beta in Fa. pose proof (newlines_pos (literal u)). repeat split; auto; lia. }
  2:{ lia. }
  assert (Nn : forall l d, 0 <= d -> 0 <= nesting d l). { induction l as [|u l IHl]; intros d Hd; [exact Hd|]. cbn [nesting]. apply IHl. destruct (tkind u); lia. }
  pose proof (Nn a 0 ltac:(lia)). unfold start_depth. destruct (tkind t); lia.
Qed.

Lemma has_lines_unique s ls : has_lines s ls -> ls = lines s.
Proof.
  intros [F [->|(front & l & N & -> & ->)]]; [symmetry; now apply lines_text|]. apply Forall_app in F as [F Fl]. apply Forall_cons_iff in Fl as [Nl _].
  assert (St : line_start (text front)).
  { destruct front as [|f front _] using rev_ind; [now left|]. right. unfold text. rewrite flat_map_app. cbn [flat_map]. rewrite app_nil_r, app_assoc. eauto. }
  destruct (lines_app (text front) l St) as [E _]. rewrite E, lines_text by exact F. f_equal. clear -N Nl.
  induction l as [|c l IH]; [contradiction|]. rewrite lines_cons. destruct (Z.eqb_spec c 10) as [->|]; [exfalso; apply Nl; now left|]. destruct l as [|d l]; [reflexivity|].
  assert (E : [d :: l] = lines (d :: l)) by (apply IH; [intros I; apply Nl; now right|discriminate]). now rewrite <- E.
Qed.
