(** Proofs about the formatter, part 4: the formatted source has the same tokens. *)
From Verif Require Import Base BaseFacts StringsModel EncodingModel LexSpec LexModel LexProofs LexProofs2 LexProofs3 LexProofs4 FmtSpec FmtModel FmtProofs FmtProofs2 FmtProofs3.

(** * The raw string detector *)
Definition neutral (a : bytes) : Prop := forall n b, (Z.to_nat (newlines a) < n)%nat -> in_raw_at n false false (a ++ b) = in_raw_at (n - Z.to_nat (newlines a)) false false b.
Lemma newlines_pos a : 0 <= newlines a. Proof. unfold newlines. lia. Qed.
Lemma neutral_nil : neutral [].
Proof. intros n b L. cbn. f_equal. lia. Qed.
Lemma neutral_app a b : neutral a -> neutral b -> neutral (a ++ b).
Proof.
  intros A B n c. rewrite newlines_app. pose proof (newlines_pos a). pose proof (newlines_pos b). intros L. rewrite <- app_assoc, A by lia. rewrite B by lia. f_equal. lia.
Qed.
Lemma neutral_free a : quote_free a -> neutral a.
Proof.
  intros [N1 N2]. induction a as [|c a IH]; [apply neutral_nil|]. change (c :: a) with ([c] ++ a). apply neutral_app; [|apply IH; intros I; [apply N1|apply N2]; now right].
  intros n b. rewrite newlines_cons. change (newlines []) with 0. cbn [app]. destruct n as [|n]; [lia|]. cbn [in_raw_at].
  destruct (Z.eqb_spec c 10) as [->|]; [intros L; f_equal; lia|]. destruct (Z.eqb_spec c 96) as [->|]; [exfalso; apply N2; now left|]. destruct (Z.eqb_spec c 34) as [->|]; [exfalso; apply N1; now left|]. reflexivity.
Qed.
Lemma in_string s : plain_string s -> forall n b, (0 < n)%nat -> in_raw_at n false true (s ++ b) = in_raw_at n false true b.
Proof.
  induction 1 as [|c s N P IH|c s N P IH]; intros [|n] b L; try lia; [reflexivity| |].
  - cbn [app in_raw_at]. cbn in N. destruct (Z.eqb_spec c 10); [lia|]. destruct (Z.eqb_spec c 92); [lia|]. destruct (Z.eqb_spec c 34); [lia|]. apply IH. lia.
  - cbn [app in_raw_at]. change (92 =? 10) with false. change (92 =? 92) with true. cbv iota. apply IH. lia.
Qed.
Lemma plain_no_newline s : plain_string s -> ~ In 10 s.
Proof. induction 1 as [|c s N P IH|c s N P IH]; [intros []| |]; cbn in *; intuition congruence. Qed.
Lemma in_raw_text l : ~ In 96 l -> forall n b, (Z.to_nat (newlines l) < n)%nat -> in_raw_at n true false (l ++ b) = in_raw_at (n - Z.to_nat (newlines l)) true false b.
Proof.
  induction l as [|c l IH]; intros N n b; [intros L; cbn; f_equal; lia|]. rewrite newlines_cons. pose proof (newlines_pos l). cbn [app]. destruct n as [|n]; [lia|]. cbn [in_raw_at].
  destruct (Z.eqb_spec c 10) as [->|]; intros L; [rewrite IH by (try lia; intros I; apply N; now right); f_equal; lia|].
  destruct (Z.eqb_spec c 96) as [->|]; [exfalso; apply N; now left|]. cbn [negb]. rewrite IH by (try lia; intros I; apply N; now right). reflexivity.
Qed.
Lemma in_raw_inside l : ~ In 96 l -> forall n b, (n <= Z.to_nat (newlines l))%nat -> in_raw_at n true false (l ++ b) = true.
Proof.
  induction l as [|c l IH]; intros N n b; [intros L; cbn in L; assert (n = 0%nat) as -> by lia; destruct b; reflexivity|]. rewrite newlines_cons. pose proof (newlines_pos l). cbn [app]. destruct n as [|n]; [reflexivity|]. cbn [in_raw_at].
  destruct (Z.eqb_spec c 10) as [->|]; intros L; [apply IH; [intros I; apply N; now right|lia]|].
  destruct (Z.eqb_spec c 96) as [->|]; [exfalso; apply N; now left|]. cbn [negb]. apply IH; [intros I; apply N; now right|lia].
Qed.
(** Raw strings have no backquote *)
Definition raw_ok (t : token) : Prop := tkind t = RAW_STRING -> ~ In 96 (literal t).
Lemma neutral_token t : plain_token t -> raw_ok t -> neutral (spelling (tkind t) (literal t)).
Proof.
  unfold plain_token, raw_ok. destruct t as [k lit l co w]. cbn [tkind literal]. intros P R.
  assert (Free : quote_free lit /\ ~ In 10 lit -> neutral lit) by (intros [F _]; now apply neutral_free).
  destruct k; cbn [spelling]; try (now apply Free).
  - intros n b. pose proof (plain_no_newline _ P) as N. rewrite !newlines_app. replace (newlines lit) with 0 by (symmetry; now apply newlines_zero). change (newlines [34] + (0 + newlines [34])) with 0. intros L.
    cbn [Z.to_nat] in *. rewrite Nat.sub_0_r. cbn [app]. destruct n as [|n]; [lia|]. remember (lit ++ [34]) as q eqn:Q. cbn [in_raw_at]. change (34 =? 10) with false. change (34 =? 96) with false. change (34 =? 34) with true. cbv iota.
    subst q. rewrite <- app_assoc, in_string by (exact P || lia). reflexivity.
  - specialize (R eq_refl). intros n b. rewrite !newlines_app. change (newlines [96] + (newlines lit + newlines [96])) with (0 + (newlines lit + 0)). replace (0 + (newlines lit + 0)) with (newlines lit) by lia. intros L.
    cbn [app]. destruct n as [|n]; [lia|]. remember (lit ++ [96]) as q eqn:Q. cbn [in_raw_at]. change (96 =? 10) with false. change (96 =? 96) with true. cbv iota. subst q. rewrite <- app_assoc, in_raw_text by (exact R || lia).
    destruct (S n - Z.to_nat (newlines lit))%nat as [|m] eqn:M; [lia|]. reflexivity.
  - destruct P as [[F1 F2] F3]. apply neutral_free. split; cbn; rewrite !in_app_iff; cbn; intuition discriminate.
Qed.

(** * Equal lines *)
Definition line_start (a : bytes) : Prop := a = [] \/ exists b, a = b ++ [10].
Lemma lines_app a b : line_start a -> lines (a ++ b) = lines a ++ lines b /\ Z.of_nat (length (lines a)) = newlines a.
Proof.
  intros S. induction a as [|c a IH]; [split; reflexivity|]. cbn [app]. rewrite !lines_cons, newlines_cons.
  assert (S2 : a <> [] -> line_start a). { intros N. destruct S as [|[x E]]; [discriminate|]. destruct x as [|y x]; cbn [app] in E; injection E as -> E; [contradiction|right; eauto]. }
  destruct (Z.eqb_spec c 10) as [->|N].
  - destruct a as [|d a]; [split; reflexivity|]. destruct IH as [E L]; [apply S2; discriminate|]. rewrite E. split; [reflexivity|]. cbn [length]. cbn [length] in L. lia.
  - destruct a as [|d a]; [exfalso; destruct S as [|[x E]]; [discriminate|]; destruct x as [|? [|? ?]]; cbn in E; injection E as ?; congruence|].
    destruct IH as [E L]; [apply S2; discriminate|]. rewrite E. destruct (lines (d :: a)) as [|l ls] eqn:Q; [exfalso; rewrite lines_cons in Q; destruct (d =? 10); [discriminate|destruct (lines a); discriminate]|].
    split; [reflexivity|]. cbn [length] in *. lia.
Qed.
Lemma nth_line a b : line_start a -> nth (Z.to_nat (newlines a)) (lines (a ++ b)) [] = hd [] (lines b).
Proof. intros S. destruct (lines_app a b S) as [E L]. rewrite E, app_nth2 by lia. replace (Z.to_nat (newlines a) - length (lines a))%nat with 0%nat by lia. destruct (lines b); reflexivity. Qed.
Lemma hd_lines p b : ~ In 10 p -> hd [] (lines (p ++ 10 :: b)) = p.
Proof.
  intros N. assert (H : lines (p ++ 10 :: b) = p :: lines b); [|now rewrite H]. induction p as [|c p IH]; [reflexivity|]. cbn [app]. rewrite lines_cons, IH by (intros I; apply N; now right).
  destruct (Z.eqb_spec c 10) as [->|]; [exfalso; apply N; now left|reflexivity].
Qed.
Lemma hd_lines_quote p b : ~ In 10 p -> exists q, hd [] (lines (p ++ 96 :: b)) = p ++ 96 :: q.
Proof.
  intros N. destruct (line_split b) as (x & t & -> & Nx & Et). exists x. change (p ++ 96 :: x ++ t) with (p ++ (96 :: x) ++ t). rewrite app_assoc. replace (p ++ 96 :: x) with (p ++ (96 :: x)) by reflexivity.
  assert (N2 : ~ In 10 (p ++ 96 :: x)) by (rewrite in_app_iff; intros [|[|]]; [contradiction|discriminate|contradiction]).
  destruct t as [|c t]; [|cbn in Et; subst c; now apply hd_lines]. rewrite app_nil_r. remember (p ++ 96 :: x) as y. assert (Y : y <> []) by (subst y; destruct p; discriminate). clear -N2 Y.
  induction y as [|c y IH]; [contradiction|]. rewrite lines_cons. destruct (Z.eqb_spec c 10) as [->|]; [exfalso; apply N2; now left|]. destruct y as [|d y]; [reflexivity|].
  specialize (IH (fun I => N2 (or_intror I)) ltac:(discriminate)). destruct (lines (d :: y)) as [|l ls]; [discriminate|]. cbn [hd] in *. now subst l.
Qed.
Lemma app_quote p q x y : ~ In 96 p -> ~ In 96 q -> p ++ 96 :: x = q ++ 96 :: y -> p = q.
Proof.
  revert q. induction p as [|c p IH]; intros [|d q] A B E; cbn [app] in E; [reflexivity| | |].
  - exfalso. apply B. left. congruence.
  - exfalso. apply A. left. congruence.
  - injection E as <- E. f_equal. apply IH; [intros I; apply A; now right|intros I; apply B; now right|assumption].
Qed.
Lemma sq_true_newline p l : ~ In 10 p -> sq true (p ++ 10 :: l) = sq true p ++ 10 :: sq true l.
Proof. intros N. rewrite sq_app. f_equal. now rewrite sq_plain. Qed.
Lemma app_newline (p q x y : bytes) : ~ In 10 p -> ~ In 10 q -> p ++ 10 :: x = q ++ 10 :: y -> p = q /\ x = y.
Proof.
  revert q. induction p as [|c p IH]; intros [|d q] A B E; cbn [app] in E; [injection E as E; auto| | |].
  - exfalso. apply B. left. congruence.
  - exfalso. apply A. left. congruence.
  - injection E as <- E. destruct (IH q) as [-> ->]; auto; [intros I; apply A; now right|intros I; apply B; now right].
Qed.
Lemma same_rest n : forall l l' a a' b b', (length l <= n)%nat -> line_start a -> line_start a' -> newlines a = newlines a' -> sq true l = sq true l' -> ~ In 96 l -> ~ In 96 l' ->
  (forall k, newlines a <= k <= newlines a + newlines l -> nth (Z.to_nat k) (lines (a ++ l ++ 96 :: b)) [] = nth (Z.to_nat k) (lines (a' ++ l' ++ 96 :: b')) []) -> l = l'.
Proof.
  induction n as [|n IH]; intros l l' a a' b b' Ln Sa Sa' Na Es Q Q' H.
  - destruct l; [|cbn in Ln; lia]. specialize (H (newlines a) ltac:(cbn; lia)). rewrite nth_line in H by exact Sa. rewrite Na, nth_line in H by exact Sa'.
    assert (N' : ~ In 10 l') by (apply newlines_zero; rewrite <- (newlines_sq l' true), <- Es; reflexivity).
    destruct (hd_lines_quote [] b ltac:(intros [])) as [x Ex]. destruct (hd_lines_quote l' b' N') as [y Ey]. rewrite Ex, Ey in H. eapply app_quote; eauto.
  - pose proof (H (newlines a) ltac:(pose proof (newlines_pos l); lia)) as H0. rewrite nth_line in H0 by exact Sa. rewrite Na, nth_line in H0 by exact Sa'.
    destruct (line_split l) as (p & t & -> & Np & Et). destruct (line_split l') as (p' & t' & -> & Np' & Et').
    assert (Nt : newlines t = newlines t'). { assert (E : newlines (sq true (p ++ t)) = newlines (sq true (p' ++ t'))) by now rewrite Es. rewrite !newlines_sq, !newlines_app in E. apply newlines_zero in Np, Np'. lia. }
    destruct t as [|c t]; destruct t' as [|c' t']; cbn in Et, Et'; subst.
    2:{ exfalso. rewrite newlines_cons in Nt. change (10 =? 10) with true in Nt. change (newlines []) with 0 in Nt. pose proof (newlines_pos t'). lia. }
    2:{ exfalso. rewrite newlines_cons in Nt. change (10 =? 10) with true in Nt. change (newlines []) with 0 in Nt. pose proof (newlines_pos t). lia. }
    + rewrite !app_nil_r in *. destruct (hd_lines_quote p b Np) as [x Ex]. destruct (hd_lines_quote p' b' Np') as [y Ey]. rewrite Ex, Ey in H0. eapply app_quote; eauto.
    + rewrite <- !app_assoc in H0. cbn [app] in H0. rewrite !hd_lines in H0 by assumption. subst p'. f_equal. f_equal. rewrite !sq_true_newline in Es by assumption. apply app_inv_head in Es. injection Es as Es.
      apply (IH t t' (a ++ p ++ [10]) (a' ++ p ++ [10]) b b').
      * rewrite app_length in Ln. cbn [length] in Ln. lia.
      * right. exists (a ++ p). now rewrite app_assoc.
      * right. exists (a' ++ p). now rewrite app_assoc.
      * rewrite !newlines_app. lia.
      * exact Es.
      * intros I; apply Q; rewrite in_app_iff; right; now right.
      * intros I; apply Q'; rewrite in_app_iff; right; now right.
      * intros k K. specialize (H k). rewrite <- !app_assoc in *. cbn [app] in *. apply H. rewrite (newlines_app a), (newlines_app p) in K. rewrite (newlines_app p), newlines_cons. change (newlines [10]) with 1 in K. change (10 =? 10) with true. cbv iota. apply newlines_zero in Np. lia.
Qed.

(** * Every token *)
Lemma tidy_tokens pre ts s : tidy pre ts s -> neutral pre -> Forall raw_ok ts -> forall src, src = pre ++ s -> forall body e, ts = body ++ [e] ->
  Forall (fun t => plain_token t /\ (tkind t = RAW_STRING -> exists a b, src = a ++ [96] ++ literal t ++ [96] ++ b /\ tline t = 1 + newlines a /\ neutral a)) body.
Proof.
  induction 1 as [pre t g|pre t ts g s F P T M IH]; intros Np R src Es body e Et.
  - destruct body as [|x [|y body]]; try discriminate. constructor.
  - apply Forall_cons_iff in R as [R0 R]. destruct body as [|x body].
    + constructor.
    + cbn [app] in Et. injection Et as <- Et. constructor.
      * split; [exact T|]. intros K. exists (pre ++ g), s. split; [rewrite Es, K; cbn [spelling]; now rewrite <- !app_assoc|]. split; [apply P|]. apply neutral_app; [exact Np|now apply neutral_free].
      * apply (IH) with (e := e); [|exact R|rewrite Es; now rewrite <- !app_assoc|exact Et].
        apply neutral_app; [exact Np|]. apply neutral_app; [now apply neutral_free|now apply neutral_token].
Qed.
Lemma made_raw pre ts s : made_of true pre ts s -> forall src, src = pre ++ s -> Forall (fun t => tkind t = RAW_STRING -> exists a b, src = a ++ [96] ++ literal t ++ [96] ++ b /\ tline t = 1 + newlines a) ts.
Proof.
  remember true as cl eqn:Cl. induction 1 as [pre t g E L G P|pre t ts g s A B G P W N M IH|pre t ts g x s C A G P X M IH|pre t e g body C A L E G X]; intros src Es; try congruence.
  - constructor; [congruence|constructor].
  - constructor; [|apply IH; rewrite Es; now rewrite <- !app_assoc]. intros K. exists (pre ++ g), s. split; [rewrite Es, K; cbn [spelling]; now rewrite <- !app_assoc|apply P].
Qed.
Lemma scan_raw_ok c r k lit m : scan (c :: r) = Some (k, lit, m) -> k = RAW_STRING -> ~ In 96 lit.
Proof.
  intros Sc K. destruct (scan_cases c r) as ([[k1 lit1] m1] & Sc1 & Sh). rewrite Sc in Sc1. injection Sc1 as <- <- <-. subst k. 
  destruct (shape_spells _ _ _ _ _ Sh ltac:(discriminate)) as (_ & M & _ & r' & R). cbn [spelling app] in R. injection R as -> R. rewrite scan_96 in Sc. unfold scan_raw in Sc.
  destruct (run_spec (fun c => negb (c =? 96)) r) as (a & b & -> & L & F & _). rewrite <- L, skipn_len, firstn_len in Sc.
  assert (lit = a) as -> by (destruct (hd 0 b =? 96); [injection Sc as <- _; reflexivity|discriminate]). intros I. rewrite Forall_forall in F. apply F in I. discriminate.
Qed.
Lemma tokens_raw_ok fuel : forall s ts, tokens fuel s = Some ts -> Forall raw_ok ts.
Proof.
  induction fuel as [|fuel IH]; intros s ts; [discriminate|]. destruct (next_token s) as [[t s']|] eqn:N; [|cbn [tokens]; now rewrite N].
  assert (R : raw_ok t).
  { unfold next_token in N. destruct (skip _ _) as [[n u]|]; [|discriminate]. destruct u; [injection N as <- _; intros K; discriminate|].
    destruct (rest (reads n s)) as [|c r] eqn:Er; [injection N as <- _; intros K; discriminate|]. destruct (scan (c :: r)) as [[[k lit] m]|] eqn:Sc; [|discriminate]. injection N as <- _.
    intros K. cbn [tkind literal] in *. eapply scan_raw_ok; eauto. }
  destruct (kind_cases (tkind t)) as [K|K].
  - intros T. pose proof (tokens_eof _ _ _ _ _ N K T) as ->. constructor; [exact R|constructor].
  - intros T. assert (K' : tkind t <> EOF) by (destruct K as [->|[? _]]; [discriminate|assumption]). destruct (tokens_step _ _ _ _ _ N K' T) as (ts' & T' & ->). constructor; [exact R|eauto].
Qed.
Definition proj (t : token) : kind * bytes * Z := (tkind t, sq false (literal t), tline t).
Lemma kl_body body e : tkind e = EOF -> Forall (fun t => tkind t <> EOF /\ tkind t <> ILLEGAL /\ ~ newline_char t) body -> kl (body ++ [e]) = (map proj body, true).
Proof.
  intros K. induction 1 as [|t body (A & B & C) F IH]; [cbn [app kl]; unfold stop; now rewrite K|]. cbn [app kl map]. rewrite stop_live by assumption. now rewrite IH.
Qed.
Lemma kl_true ts : snd (kl ts) = true -> exists body e r, ts = body ++ e :: r /\ tkind e = EOF /\ fst (kl ts) = map proj body /\ Forall (fun t => tkind t <> EOF /\ tkind t <> ILLEGAL) body.
Proof.
  induction ts as [|t ts IH]; [discriminate|]. cbn [kl]. destruct (kind_cases (tkind t)) as [K|[K|[A B]]].
  - unfold stop. rewrite K. intros _. exists [], t, ts. auto.
  - unfold stop. rewrite K. discriminate.
  - destruct (stop t) as [b|] eqn:S.
    + unfold stop in S. destruct (tkind t); try discriminate; try contradiction. destruct (literal t) as [|x [|y l]]; try discriminate. destruct (x =? 10); [|discriminate]. injection S as <-. discriminate.
    + cbn [fst snd]. intros H. destruct (IH H) as (body & e & r & -> & E & Q & F). exists (t :: body), e, r. cbn [app map]. rewrite Q. repeat split; auto.
Qed.
Lemma inside_line j : forall t a b, line_start a -> (j <= Z.to_nat (newlines t))%nat ->
  let l := nth (Z.to_nat (newlines a) + j) (lines (a ++ t ++ 96 :: b)) [] in In 96 l \/ exists x y, 10 :: t = x ++ 10 :: l ++ 10 :: y.
Proof.
  induction j as [|j IH]; intros t a b Sa L; cbv zeta; destruct (line_split t) as (p & r & -> & Np & Er).
  - rewrite Nat.add_0_r, nth_line by exact Sa. destruct r as [|c r].
    + left. rewrite app_nil_r. destruct (hd_lines_quote p b Np) as [q ->]. apply in_elt.
    + cbn in Er. subst c. right. rewrite <- app_assoc. cbn [app]. rewrite hd_lines by exact Np. exists [], r. reflexivity.
  - apply newlines_zero in Np as Zp. destruct r as [|c r]; [exfalso; rewrite newlines_app, Zp in L; cbn in L; lia|]. cbn in Er. subst c.
    rewrite newlines_app, newlines_cons, Zp in L. change (10 =? 10) with true in L. cbv iota in L. pose proof (newlines_pos r). pose proof (newlines_pos a).
    specialize (IH r (a ++ p ++ [10]) b). cbv zeta in IH. rewrite !newlines_app, Zp in IH. change (newlines [10]) with 1 in IH.
    replace (Z.to_nat (newlines a) + S j)%nat with (Z.to_nat (newlines a + (0 + 1)) + j)%nat by lia.
    replace ((p ++ 10 :: r) ++ 96 :: b) with (p ++ [10] ++ r ++ 96 :: b) by (rewrite <- app_assoc; reflexivity). rewrite <- !app_assoc in IH.
    destruct IH as [I|(x & y & E)]; [right; exists (a ++ p); now rewrite app_assoc|lia|now left|]. right. exists (10 :: p ++ x), y. cbn [app]. rewrite <- app_assoc. cbn [app]. f_equal. f_equal. exact E.
Qed.
Lemma written_lines_nth src table ls : forall num k, (k < length ls)%nat -> nth k (written_lines src table num ls) [] = written (in_raw_string src (num + k)) (nth (pred (num + k)) table 0) (nth k ls []).
Proof.
  induction ls as [|l ls IH]; intros num k L; [cbn in L; lia|]. destruct k as [|k]; cbn [written_lines nth]; [now rewrite Nat.add_0_r|]. rewrite IH by (cbn [length] in L; lia). now rewrite Nat.add_succ_r.
Qed.
Lemma trim_nil l : trim l = [] -> Forall indent_char l.
Proof. destruct (trim_spec l) as (w & E & F & _). intros T. rewrite T, app_nil_r in E. now subst. Qed.
Lemma raw_kept src out a b a' b' lit lit' : format src = Some out -> src = a ++ [96] ++ lit ++ [96] ++ b -> out = a' ++ [96] ++ lit' ++ [96] ++ b' -> newlines a = newlines a' -> neutral a ->
  sq false lit = sq false lit' -> ~ In 96 lit -> ~ In 96 lit' -> (forall a w b, lit = a ++ [10] ++ w ++ [10] ++ b -> Forall indent_char w -> w = []) -> lit' = lit.
Proof.
  intros F Es Eo Na Ne Q N N' P. destruct (line_split lit) as (p & t & -> & Np & Et). destruct (line_split lit') as (p' & t' & -> & Np' & Et'). rewrite !sq_line in Q by assumption.
  assert (Nt : newlines t = newlines t'). { assert (E : newlines (p ++ sq false t) = newlines (p' ++ sq false t')) by now rewrite Q. rewrite !newlines_app, !newlines_sq in E. apply newlines_zero in Np, Np'. lia. }
  destruct t as [|c t]; destruct t' as [|c' t']; cbn in Et, Et'; subst c || idtac; subst c' || idtac.
  2:{ exfalso. rewrite newlines_cons in Nt. change (10 =? 10) with true in Nt. change (newlines []) with 0 in Nt. pose proof (newlines_pos t'). lia. }
  2:{ exfalso. rewrite newlines_cons in Nt. change (10 =? 10) with true in Nt. change (newlines []) with 0 in Nt. pose proof (newlines_pos t). lia. }
  { cbn [sq] in Q. now symmetry. }
  cbn [sq andb] in Q. apply app_newline in Q as [<- Q]; [|assumption..]. change (10 =? 10) with true in Q. f_equal. f_equal. symmetry.
  rewrite !newlines_cons in Nt. apply newlines_zero in Np as Zp.
  apply (same_rest (length t) t t' (a ++ [96] ++ p ++ [10]) (a' ++ [96] ++ p ++ [10]) b b'); [lia|right; exists (a ++ [96] ++ p); now rewrite <- !app_assoc|right; exists (a' ++ [96] ++ p); now rewrite <- !app_assoc|rewrite !newlines_app; lia|exact Q| | |].
  { intros I; apply N; rewrite in_app_iff; right; now right. }
  { intros I; apply N'; rewrite in_app_iff; right; now right. }
  assert (Es2 : src = (a ++ [96] ++ p ++ [10]) ++ t ++ 96 :: b) by (rewrite Es, <- !app_assoc; cbn [app]; rewrite <- ?app_assoc; reflexivity).
  assert (Eo2 : out = (a' ++ [96] ++ p ++ [10]) ++ t' ++ 96 :: b') by (rewrite Eo, <- !app_assoc; cbn [app]; rewrite <- ?app_assoc; reflexivity).
  rewrite <- Es2, <- Eo2. assert (NA : newlines (a ++ [96] ++ p ++ [10]) = newlines a + 1) by (rewrite !newlines_app; change (newlines [10]) with 1; change (newlines [96]) with 0; lia). rewrite NA. intros k K.
  pose proof (newlines_pos a). pose proof (newlines_pos t).
  pose proof (inside_line (Z.to_nat (k - newlines a - 1)) t (a ++ [96] ++ p ++ [10]) b ltac:(right; exists (a ++ [96] ++ p); now rewrite <- !app_assoc) ltac:(lia)) as IL. cbv zeta in IL.
  rewrite NA, <- Es2 in IL. replace (Z.to_nat (newlines a + 1) + Z.to_nat (k - newlines a - 1))%nat with (Z.to_nat k) in IL by lia.
  unfold format in F. destruct (depth_table src (count_lines src)) as [table|]; [|discriminate]. injection F as F. rewrite format_lines_written in F.
  rewrite <- F at 1. rewrite lines_text by (apply written_lines_no_newline, lines_no_newline).
  set (l := nth (Z.to_nat k) (lines src) []) in *.
  assert (Raw : in_raw_string src (1 + Z.to_nat k) = true).
  { unfold in_raw_string. cbn [pred Nat.add]. rewrite Es, Ne by lia. destruct (Z.to_nat k - Z.to_nat (newlines a))%nat as [|m] eqn:M; [lia|]. cbn [app in_raw_at]. change (96 =? 10) with false. change (96 =? 96) with true. cbv iota.
    apply in_raw_inside; [exact N|]. rewrite newlines_app, newlines_cons, Zp. change (10 =? 10) with true. cbv iota. lia. }
  destruct (Nat.lt_ge_cases (Z.to_nat k) (length (lines src))) as [Lk|Lk].
  - rewrite written_lines_nth by exact Lk. rewrite Raw. fold l. unfold written. destruct (trim l) eqn:T; [|reflexivity]. apply trim_nil in T. destruct IL as [I|(x & y & E)].
    + rewrite Forall_forall in T. apply T in I. unfold indent_char in I. lia.
    + destruct x as [|x0 x]; cbn [app] in E.
      * injection E as E. apply (P p l y); [rewrite E; reflexivity|exact T].
      * injection E as <- E. apply (P (p ++ 10 :: x) l y); [|exact T]. rewrite E, <- app_assoc. reflexivity.
  - unfold l. rewrite (nth_overflow (lines src)) by exact Lk. rewrite nth_overflow by now rewrite written_lines_length. reflexivity.
Qed.

Lemma map_proj body body' : map proj body = map proj body' -> Forall2 (fun t t' => tkind t = tkind t' /\ sq false (literal t) = sq false (literal t') /\ tline t = tline t') body body'.
Proof.
  revert body'. induction body as [|t body IH]; intros [|t' body'] E; try discriminate; [constructor|]. cbn [map] in E. injection E as A B C E. constructor; auto.
Qed.
Lemma plain_cases t : plain_token t -> tkind t = RAW_STRING \/ ~ In 10 (literal t).
Proof.
  unfold plain_token. intros P. destruct (tkind t) eqn:K; try (right; apply P); [right; now apply plain_no_newline|now left].
Qed.
Lemma format_tokens src ts out : lex src = Some ts -> forallb legal ts = true -> tidy [] ts src -> format src = Some out -> exists ts', lex out = Some ts' /\ map meaning ts' = map meaning ts.
Proof.
  intros L Lg T F. destruct (lex_made src) as (ts0 & L0 & M & _). rewrite L in L0. injection L0 as <-. destruct (lex_made out) as (ts' & L' & M' & _). exists ts'. split; [exact L'|].
  pose proof (kl_format src out ts ts' F L L') as K. destruct (made_ends _ _ _ _ M) as (body & e & -> & E & NE). destruct (made_ends _ _ _ _ M') as (body1 & e1 & E1 & Ee1 & NE1).
  assert (R : Forall raw_ok (body ++ [e])) by (eapply tokens_raw_ok; exact L). assert (R' : Forall raw_ok ts') by (eapply tokens_raw_ok; exact L').
  pose proof (tidy_tokens _ _ _ T neutral_nil R src eq_refl body e eq_refl) as TT.
  assert (Live : Forall (fun t => tkind t <> EOF /\ tkind t <> ILLEGAL /\ ~ newline_char t) body).
  { apply Forall_forall. intros t I. rewrite Forall_forall in TT, NE. specialize (NE t I). destruct (TT t I) as [P _]. split; [exact NE|]. split.
    - intros X. rewrite forallb_forall in Lg. specialize (Lg t ltac:(apply in_app_iff; now left)). unfold legal in Lg. rewrite X in Lg. discriminate.
    - intros [X Y]. unfold plain_token in P. rewrite X, Y in P. apply P. now left. }
  rewrite (kl_body body e E Live) in K. destruct (kl_true ts') as (body' & e' & r & Ets & E' & Q & F'); [now rewrite <- K|]. rewrite <- K in Q. cbn [fst] in Q.
  assert (Eb : body' = body1 /\ e' = e1 /\ r = []).
  { rewrite Ets in E1. clear -E1 E' Ee1 NE1 F'. revert body1 E1 NE1. induction F' as [|t body' [A B] F' IH]; intros [|t1 body1] E1 NE1; cbn [app] in E1.
    - injection E1 as -> ->. auto.
    - injection E1 as -> _. apply Forall_cons_iff in NE1 as [X _]. contradiction.
    - injection E1 as -> _. contradiction.
    - injection E1 as -> E1. apply Forall_cons_iff in NE1 as [_ X]. destruct (IH body1 E1 X) as (-> & -> & ->). auto. }
  destruct Eb as (<- & <- & ->). subst ts'. 
  assert (Lg' : forallb legal (body' ++ [e']) = true).
  { rewrite forallb_app. apply andb_true_iff. split; [|cbn; unfold legal; now rewrite E']. apply forallb_forall. intros t I. rewrite Forall_forall in F'. destruct (F' t I) as [_ X]. unfold legal. destruct (tkind t); congruence. }
  rewrite Lg' in M'. pose proof (made_raw _ _ _ M' out eq_refl) as MR. rewrite !map_app. cbn [map].
  assert (Me : meaning e' = meaning e).
  { unfold lex in L, L'. rewrite at_create in L, L'. destruct (tokens_keep _ _ _ _ L Lg) as (b0 & x & X1 & _ & X2). destruct (tokens_keep _ _ _ _ L' Lg') as (b1 & y & Y1 & _ & Y2).
    apply app_inj_tail in X1 as [_ ->]. apply app_inj_tail in Y1 as [_ ->]. congruence. }
  rewrite Me. f_equal. apply map_proj in Q. apply Forall_app in R as [R _]. apply Forall_app in R' as [R' _]. apply Forall_app in MR as [MR _].
  clear - Q TT R R' MR F. induction Q as [|t t' body body' (A & B & C) Q IH]; [reflexivity|]. apply Forall_cons_iff in TT as [[P T0] TT]. apply Forall_cons_iff in R as [R0 R]. apply Forall_cons_iff in R' as [R0' R']. apply Forall_cons_iff in MR as [M0 MR].
  cbn [map]. rewrite IH by assumption. f_equal. unfold meaning. rewrite <- A. f_equal.
  destruct (plain_cases t P) as [K|N].
  - destruct (T0 K) as (a & b & Es & La & Ne). destruct M0 as (a' & b' & Eo & La'); [congruence|].
    apply (raw_kept src out a b a' b'); auto; [lia|apply R0', eq_trans with (2 := K); congruence|]. unfold plain_token in P. rewrite K in P. exact P.
  - rewrite (sq_id _ N) in B. rewrite B. symmetry. apply sq_id. apply newlines_zero. rewrite <- (newlines_sq _ false), <- B. now apply newlines_zero.
Qed.
