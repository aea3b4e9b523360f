(** Proofs about the formatter, part 3: lines, and formatting twice. *)
From Verif Require Import Base BaseFacts StringsModel EncodingModel LexSpec LexModel LexProofs LexProofs2 LexProofs3 LexProofs4 FmtSpec FmtModel FmtProofs FmtProofs2.

(** * The raw string detector ignores indentation *)
Lemma in_raw_end p : forall n r s, in_raw_at n r s (p ++ [10]) = in_raw_at n r s p.
Proof.
  induction p as [p IH] using list_len_ind. intros [|n] r s; [destruct p as [|? [|? ?]]; reflexivity|]. destruct p as [|c p1]; [destruct n; reflexivity|]. cbn [app in_raw_at].
  assert (I1 : forall n r s, in_raw_at n r s (p1 ++ [10]) = in_raw_at n r s p1) by (intros; apply IH; cbn; lia).
  rewrite !I1. destruct (c =? 92); [|reflexivity]. destruct p1 as [|d p2]; [cbn [app]; destruct (c =? 10); [reflexivity|]; destruct r; [reflexivity|]; destruct s; reflexivity|]. cbn [app].
  rewrite (IH p2) by (cbn; lia). reflexivity.
Qed.
Lemma in_raw_blank c p n r s : ind c = true -> in_raw_at n r s (c :: p) = in_raw_at n r s p.
Proof.
  intros I. destruct n as [|n]; [destruct p; reflexivity|]. cbn [in_raw_at]. assert (C : c <> 10 /\ c <> 96 /\ c <> 92 /\ c <> 34) by (unfold ind in I; lia).
  destruct (Z.eqb_spec c 10); [lia|]. destruct (Z.eqb_spec c 96); [lia|]. destruct (Z.eqb_spec c 92); [lia|]. destruct (Z.eqb_spec c 34); [lia|]. destruct r; [reflexivity|]. destruct s; reflexivity.
Qed.
Lemma in_raw_sq p : forall n f r s, in_raw_at n r s (sq f p) = in_raw_at n r s p.
Proof.
  induction p as [p IH] using list_len_ind. intros n f r s. destruct p as [|c p1]; [reflexivity|]. 
  assert (I1 : forall n f r s, in_raw_at n r s (sq f p1) = in_raw_at n r s p1) by (intros; apply IH; cbn; lia).
  cbn [sq]. destruct (f && ind c) eqn:E; [rewrite in_raw_blank by (destruct f; [exact E|discriminate]); apply I1|].
  destruct n as [|n]; [reflexivity|]. cbn [in_raw_at]. rewrite !I1.
  destruct (c =? 10) eqn:C10; [reflexivity|]. destruct r; [reflexivity|]. destruct s; [|reflexivity]. destruct (c =? 92); [|reflexivity].
  destruct p1 as [|d p2]; [reflexivity|]. cbn [sq andb]. now rewrite (IH p2) by (cbn; lia).
Qed.

(** * Lines *)
Lemma lines_cons c r : lines (c :: r) = if c =? 10 then [] :: lines r else match lines r with l :: ls => (c :: l) :: ls | [] => [[c]] end.
Proof. reflexivity. Qed.
Lemma lines_no_newline s : Forall (fun l => ~ In 10 l) (lines s).
Proof.
  induction s as [|c s IH]; [constructor|]. rewrite lines_cons. destruct (Z.eqb_spec c 10); [constructor; auto; intros []|].
  destruct (lines s) as [|l ls]; [repeat constructor; intros [|[]]; congruence|]. apply Forall_cons_iff in IH as [A B]. constructor; [|exact B]. intros [|]; [congruence|contradiction].
Qed.
Lemma lines_has s : has_lines s (lines s).
Proof.
  split; [apply lines_no_newline|]. induction s as [|c s IH]; [left; reflexivity|]. rewrite lines_cons. destruct (Z.eqb_spec c 10) as [->|].
  - destruct IH as [E|(front & l & N & E & E2)]; [left; change (text ([] :: lines s)) with (10 :: text (lines s)); f_equal; exact E|right]. exists ([] :: front), l. rewrite E. cbn. rewrite E2. auto.
  - destruct IH as [E|(front & l & N & E & E2)].
    + destruct (lines s) as [|l ls]; [right; exists [], [c]; cbn in E; rewrite E; repeat split; auto; discriminate|]. left. rewrite E. reflexivity.
    + right. destruct front as [|f front].
      * rewrite E. exists [], (c :: l). rewrite E2. repeat split; auto. discriminate.
      * rewrite E. exists ((c :: f) :: front), l. rewrite E2. cbn. repeat split; auto.
Qed.
Lemma lines_text ls : Forall (fun l => ~ In 10 l) ls -> lines (text ls) = ls.
Proof.
  assert (L : forall l r, ~ In 10 l -> lines (l ++ 10 :: r) = l :: lines r).
  { intros l r. induction l as [|c l IH]; intros N; [reflexivity|]. cbn [app]. rewrite lines_cons, IH by (intros X; apply N; now right). destruct (Z.eqb_spec c 10) as [->|]; [exfalso; apply N; now left|reflexivity]. }
  induction 1 as [|l ls N F IH]; [reflexivity|]. cbn [text flat_map]. rewrite <- app_assoc. cbn [app]. rewrite L by exact N. f_equal. exact IH.
Qed.
Lemma text_end s : exists e, nl e /\ text (lines s) = s ++ e.
Proof.
  destruct (lines_has s) as [_ [E|(front & l & N & E & E2)]]; [exists []; split; [now left|now rewrite app_nil_r]|exists [10]; split; [now right|]].
  rewrite E, E2 at 1. unfold text. rewrite flat_map_app. cbn. now rewrite app_nil_r, app_assoc.
Qed.
(** What a line becomes *)
Definition written (raw : bool) (depth : Z) (l : bytes) : bytes :=
  match trim l with [] => [] | _ => if raw then l else List.repeat 32 (Z.to_nat (Z.max 0 depth * 4)) ++ trim l end.
Lemma format_line_written raw d l : format_line raw d l = written raw d l ++ [10].
Proof. unfold format_line, written. destruct (trim l) eqn:E; [reflexivity|]. destruct raw; [reflexivity|]. now rewrite app_assoc. Qed.
Fixpoint written_lines (src : bytes) (table : list Z) (num : nat) (ls : list bytes) : list bytes :=
  match ls with [] => [] | l :: ls => written (in_raw_string src num) (nth (pred num) table 0) l :: written_lines src table (S num) ls end.
Lemma format_lines_written src table ls : forall num, format_lines src table num ls = text (written_lines src table num ls).
Proof. induction ls as [|l ls IH]; intros num; [reflexivity|]. cbn [format_lines written_lines text flat_map]. rewrite format_line_written, IH. reflexivity. Qed.
Lemma trim_spec l : exists w, l = w ++ trim l /\ Forall indent_char w /\ ~ indent_char (hd 0 (trim l)).
Proof.
  induction l as [|c l (w & E & F & N)]; [exists []; cbn; unfold indent_char; repeat split; auto; lia|]. cbn [trim].
  destruct ((c =? 32) || (c =? 9)) eqn:B; [exists (c :: w); cbn [app]; rewrite E at 1; repeat split; auto; constructor; [unfold indent_char; lia|exact F]|].
  exists []. repeat split; auto. cbn. unfold indent_char. lia.
Qed.
Lemma trim_indent w x : Forall indent_char w -> ~ indent_char (hd 0 x) -> trim (w ++ x) = x.
Proof.
  induction 1 as [|c w I F IH]; intros N; cbn [app].
  - destruct x as [|c x]; [reflexivity|]. cbn [trim]. cbn in N. unfold indent_char in N. destruct ((c =? 32) || (c =? 9)) eqn:B; [lia|reflexivity].
  - cbn [trim]. unfold indent_char in I. destruct ((c =? 32) || (c =? 9)) eqn:B; [auto|lia].
Qed.
Lemma spaces_indent n : Forall indent_char (List.repeat 32 n).
Proof. apply Forall_forall. intros x I. apply repeat_spec in I. left; exact I. Qed.
Lemma written_reindented raw d l : reindented l (written raw d l).
Proof.
  destruct (trim_spec l) as (w & E & F & N). unfold written. destruct (trim l) as [|c x] eqn:T.
  - exists w, [], []. repeat split; auto.
  - destruct raw.
    + exists w, w, (c :: x). repeat split; auto. discriminate.
    + exists w, (List.repeat 32 (Z.to_nat (Z.max 0 d * 4))), (c :: x). repeat split; auto using spaces_indent. discriminate.
Qed.
Lemma written_trim raw d l : trim (written raw d l) = trim l.
Proof.
  unfold written. destruct (trim_spec l) as (w & E & F & N). destruct (trim l) as [|c x] eqn:T; [reflexivity|]. destruct raw; [exact T|]. apply trim_indent; [apply spaces_indent|exact N].
Qed.
Lemma written_twice raw d l : written raw d (written raw d l) = written raw d l.
Proof. unfold written at 1. rewrite written_trim. unfold written. destruct (trim l) eqn:T; [reflexivity|]. destruct raw; [reflexivity|]. reflexivity. Qed.
Lemma written_no_newline raw d l : ~ In 10 l -> ~ In 10 (written raw d l).
Proof.
  intros N I. destruct (written_reindented raw d l) as (w & w' & x & E & E' & F & F' & _ & _). rewrite E' in I. apply in_app_iff in I as [I|I].
  - rewrite Forall_forall in F'. apply F' in I. unfold indent_char in I. lia.
  - apply N. rewrite E. apply in_app_iff. now right.
Qed.
Lemma written_lines_no_newline src table ls : forall num, Forall (fun l => ~ In 10 l) ls -> Forall (fun l => ~ In 10 l) (written_lines src table num ls).
Proof. induction ls as [|l ls IH]; intros num F; [constructor|]. apply Forall_cons_iff in F as [N F]. cbn [written_lines]. constructor; [now apply written_no_newline|now apply IH]. Qed.
Lemma written_lines_reindented src table ls : forall num, Forall2 reindented ls (written_lines src table num ls).
Proof. induction ls as [|l ls IH]; intros num; [constructor|]. cbn [written_lines]. constructor; [apply written_reindented|apply IH]. Qed.
Lemma sq_trim l r : sq true (l ++ 10 :: r) = sq true (trim l ++ 10 :: r).
Proof. induction l as [|c l IH]; [reflexivity|]. cbn [trim]. change ((c =? 32) || (c =? 9)) with (ind c). destruct (ind c) eqn:I; [|reflexivity]. cbn [app sq]. rewrite I. cbn [andb]. exact IH. Qed.
Lemma sq_text src table ls : forall num, Forall (fun l => ~ In 10 l) ls -> sq true (text (written_lines src table num ls)) = sq true (text ls).
Proof.
  induction ls as [|l ls IH]; intros num F; [reflexivity|]. apply Forall_cons_iff in F as [N F]. cbn [written_lines text flat_map]. rewrite <- !app_assoc. cbn [app].
  rewrite sq_trim, written_trim, (sq_trim l). rewrite !sq_app. f_equal. rewrite !sq_plain by reflexivity. f_equal. apply IH. exact F.
Qed.
Lemma format_sq s out : format s = Some out -> exists e, nl e /\ sq true out = sq true s ++ e.
Proof.
  unfold format. destruct (depth_table s (count_lines s)) as [table|]; [|discriminate]. intros [= <-]. rewrite format_lines_written, sq_text by apply lines_no_newline.
  destruct (text_end s) as (e & Ne & E). exists e. split; [exact Ne|]. rewrite E, sq_app. f_equal. destruct Ne as [->| ->]; [reflexivity|]. cbn. destruct (fr true s); reflexivity.
Qed.

(** * The table of depths *)
Fixpoint recordu (depth : Z) (l : list (kind * bytes * Z)) : list (Z * Z) :=
  match l with
  | [] => []
  | (k, _, ln) :: l =>
      let depth := match k with RBRACE => if 0 <? depth then depth - 1 else depth | _ => depth end in
      (ln, depth) :: recordu (match k with LBRACE => depth + 1 | _ => depth end) l
  end.
Definition newline_char (t : token) : Prop := tkind t = CHAR /\ literal t = [10].
(** [early P ts]: P holds of the tokens before the first error *)
Fixpoint early (P : token -> Prop) (ts : list token) : Prop :=
  match ts with [] => True | t :: ts => match tkind t with EOF | ILLEGAL => True | _ => P t /\ early P ts end end.
Lemma stop_cases t : stop t = match tkind t with ILLEGAL => Some false | EOF => Some true | CHAR => match literal t with [c] => if c =? 10 then Some false else None | _ => None end | _ => None end.
Proof. reflexivity. Qed.
Lemma stop_live t : tkind t <> EOF -> tkind t <> ILLEGAL -> ~ newline_char t -> stop t = None.
Proof.
  intros A B C. destruct t as [k lit l co w]. cbn in *. apply stop_none; [|exact A]. intros [|[-> ->]]; [contradiction|]. apply C. split; reflexivity.
Qed.
Lemma kind_cases k : k = EOF \/ k = ILLEGAL \/ (k <> EOF /\ k <> ILLEGAL).
Proof. destruct k; auto; right; right; split; discriminate. Qed.
Lemma early_live P t ts : tkind t <> EOF -> tkind t <> ILLEGAL -> early P (t :: ts) = (P t /\ early P ts).
Proof. intros A B. cbn [early]. destruct (tkind t); try reflexivity; contradiction. Qed.
Lemma record_live d m t ts : tkind t <> EOF -> tkind t <> ILLEGAL -> record d m (t :: ts) =
  if (tline t <? 1) || (m <? tline t) then record d m ts
  else let d := match tkind t with RBRACE => if 0 <? d then d - 1 else d | _ => d end in (tline t, d) :: record (match tkind t with LBRACE => d + 1 | _ => d end) m ts.
Proof. intros A B. cbn [record]. destruct (tkind t); try reflexivity; contradiction. Qed.
Lemma record_kl m ts : forall d, early (fun t => 1 <= tline t <= m /\ ~ newline_char t) ts -> record d m ts = recordu d (fst (kl ts)).
Proof.
  induction ts as [|t ts IH]; intros d E; [reflexivity|]. destruct (kind_cases (tkind t)) as [K|[K|[K1 K2]]].
  - cbn [record kl]. unfold stop. rewrite K. reflexivity.
  - cbn [record kl]. unfold stop. rewrite K. reflexivity.
  - rewrite early_live in E by assumption. destruct E as [[L C] E]. rewrite record_live by assumption. cbn [kl]. rewrite stop_live by assumption. cbn [fst recordu].
    destruct ((tline t <? 1) || (m <? tline t)) eqn:B; [lia|]. cbv zeta. now rewrite IH.
Qed.
Lemma fill_nth table n : forall k c i, (k < n)%nat -> nth k (fill table c i n) 0 = nth k (fill table c i (S k)) 0.
Proof. induction n as [|n IH]; intros k c i L; [lia|]. destruct k as [|k]; [reflexivity|]. cbn [fill nth]. rewrite IH by lia. reflexivity. Qed.
Lemma made_early clean pre ts s : made_of clean pre ts s -> forall src, src = pre ++ s -> ~ quote_break src -> early (fun t => 1 <= tline t <= 1 + newlines src /\ ~ newline_char t) ts.
Proof.
  induction 1 as [pre t g E L G P|pre t ts g s A B G P W N M IH|pre t ts g x s C A G P X M IH|pre t e g body C A L E G X]; intros src Es Q.
  - cbn [early]. now rewrite E.
  - rewrite early_live by assumption. split; [split|].
    + destruct P as [-> _]. rewrite Es. rewrite !newlines_app. unfold newlines. lia.
    + intros [K Li]. apply Q. rewrite Es, K, Li. cbn [spelling]. exists (pre ++ g), [], s. split; [|constructor]. rewrite <- !app_assoc. reflexivity.
    + apply (IH src); [|exact Q]. now rewrite <- !app_assoc.
  - cbn [early]. now rewrite A.
  - cbn [early]. now rewrite A.
Qed.
Lemma quote_break_sq s e : nl e -> quote_break (sq true s ++ e) -> quote_break s.
Proof.
  intros Ne (a & w & b & E & Fw).
  assert (E2 : exists b2, sq true s = a ++ 39 :: 10 :: w ++ 39 :: b2).
  { destruct Ne as [->| ->]; [rewrite app_nil_r in E; exists b; exact E|]. destruct b as [|z b _] using rev_ind.
    - exfalso. change (a ++ [39; 10] ++ w ++ [39] ++ []) with (a ++ [39; 10] ++ w ++ [39]) in E. rewrite !app_assoc in E. apply app_inj_tail in E as [_ E]. discriminate.
    - change (a ++ [39; 10] ++ w ++ [39] ++ b ++ [z]) with (a ++ [39; 10] ++ w ++ ([39] ++ b) ++ [z]) in E. rewrite !app_assoc in E. apply app_inj_tail in E as [E _]. exists b. rewrite E, <- !app_assoc. reflexivity. }
  destruct E2 as [b2 E2]. apply sq_pair in E2 as (a' & b' & -> & E3); [|lia]. change (10 =? 10) with true in E3.
  assert (W : w = []). { destruct w as [|c w]; [reflexivity|]. apply Forall_cons_iff in Fw as [I _]. exfalso. clear -E3 I. induction b' as [|d b' IH]; [discriminate|]. cbn [sq andb] in E3.
    destruct (ind d) eqn:D; [auto|]. cbn [app] in E3. injection E3 as -> _. unfold ind in D. unfold indent_char in I. lia. }
  subst w. cbn [app] in E3. assert (B : exists w b3, b' = w ++ 39 :: b3 /\ Forall indent_char w).
  { clear -E3. induction b' as [|d b' IH]; [discriminate|]. cbn [sq andb] in E3. destruct (ind d) eqn:D.
    - destruct (IH E3) as (w & b3 & -> & F). exists (d :: w), b3. split; [reflexivity|]. constructor; [unfold ind in D; unfold indent_char; lia|exact F].
    - injection E3 as -> _. exists [], b'. auto. }
  destruct B as (w & b3 & -> & F). exists a', w, b3. auto.
Qed.
Lemma sq_quote_break s : quote_break s -> quote_break (sq true s).
Proof.
  intros (a & w & b & -> & F). rewrite sq_app. cbn [app]. rewrite !sq_plain by reflexivity. change (39 =? 10) with false. change (10 =? 10) with true.
  exists (sq true a), [], (sq false b). split; [|constructor]. f_equal. cbn [app]. do 2 f_equal. induction F as [|c w I F IH]; [reflexivity|]. cbn [app sq andb]. unfold indent_char in I. unfold ind. destruct ((c =? 32) || (c =? 9)) eqn:D; [exact IH|lia].
Qed.
Lemma nth_default {A} (l : list A) k d : (length l <= k)%nat -> nth k l d = d.
Proof. intros L. now rewrite nth_overflow. Qed.
Lemma lines_count s : Z.of_nat (length (lines s)) <= 1 + newlines s.
Proof.
  induction s as [|c s IH]; [cbn; lia|]. rewrite lines_cons, newlines_cons. destruct (c =? 10); cbn [length]; [lia|]. destruct (lines s); cbn [length] in *; unfold newlines in *; lia.
Qed.
Lemma written_lines_length src table ls : forall num, length (written_lines src table num ls) = length ls.
Proof. induction ls as [|l ls IH]; intros num; [reflexivity|]. cbn [written_lines length]. now rewrite IH. Qed.
Lemma written_lines_twice src table src' table' ls : forall num,
  (forall k, in_raw_string src' k = in_raw_string src k) -> (forall k, (num <= k < num + length ls)%nat -> nth (pred k) table' 0 = nth (pred k) table 0) ->
  written_lines src' table' num (written_lines src table num ls) = written_lines src table num ls.
Proof.
  induction ls as [|l ls IH]; intros num R T; [reflexivity|]. cbn [written_lines]. rewrite R, T by (cbn [length]; lia). rewrite written_twice. f_equal. apply IH; [exact R|]. intros k L. apply T. cbn [length]. lia.
Qed.
Lemma table_of s ts : lex s = Some ts -> ~ quote_break s -> depth_table s (count_lines s) = Some (fill (recordu 0 (fst (kl ts))) 0 1 (Z.to_nat (1 + newlines s))).
Proof.
  intros L Q. unfold depth_table, count_lines. rewrite L. f_equal. f_equal. apply record_kl. destruct (lex_made s) as (ts' & L' & M & _). rewrite L in L'. injection L' as <-.
  apply (made_early _ _ _ _ M s); [reflexivity|exact Q].
Qed.
Lemma kl_format s out ts ts' : format s = Some out -> lex s = Some ts -> lex out = Some ts' -> kl ts = kl ts'.
Proof.
  intros F L L'. destruct (format_sq s out F) as (e & Ne & E). destruct (lex_made (sq true s ++ e)) as (ts2 & L2 & _).
  rewrite (lex_sim s true e ts ts2) by auto. symmetry. apply (lex_sim out true []); auto; [now left|]. now rewrite app_nil_r, E.
Qed.
Lemma format_total s : exists out, format s = Some out.
Proof. unfold format, depth_table. destruct (lex_made s) as (ts & -> & _). eauto. Qed.
Lemma raw_format s out k : format s = Some out -> in_raw_string out k = in_raw_string s k.
Proof.
  intros F. destruct (format_sq s out F) as (e & Ne & E). unfold in_raw_string. rewrite <- (in_raw_sq out _ true), E, <- (in_raw_sq s _ true). destruct Ne as [->| ->]; [now rewrite app_nil_r|apply in_raw_end].
Qed.
Lemma format_twice s out : ~ quote_break s -> format s = Some out -> format out = Some out.
Proof.
  intros Q F. pose proof (fun k => raw_format s out k F) as R. destruct (lex_made s) as (ts & L & _). destruct (lex_made out) as (ts' & L' & _). pose proof (kl_format s out ts ts' F L L') as K.
  assert (Q' : ~ quote_break out).
  { intros B. apply Q. destruct (format_sq s out F) as (e & Ne & E). apply sq_quote_break in B. rewrite E in B. eapply quote_break_sq; eauto. }
  unfold format in F |- *. rewrite (table_of out ts' L' Q'). rewrite (table_of s ts L Q) in F. remember (Z.to_nat (1 + newlines s)) as n eqn:Hn. injection F as F. rewrite format_lines_written in F. rewrite format_lines_written.
  pose proof (lines_no_newline s) as NN. pose proof (lines_text _ (written_lines_no_newline s (fill (recordu 0 (fst (kl ts))) 0 1 n) (lines s) 1 NN)) as LT. rewrite F in LT.
  f_equal. rewrite LT, <- F. f_equal. rewrite F. apply written_lines_twice; [exact R|]. intros k B. rewrite <- K.
  pose proof (lines_count s). pose proof (lines_count out) as C2. rewrite LT, written_lines_length in C2. rewrite (fill_nth _ n), (fill_nth _ (Z.to_nat (1 + newlines out))) by lia. reflexivity.
Qed.
