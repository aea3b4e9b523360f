(** Proofs about the lexer, part 1: keywords, layout, positions. *)
From Verif Require Import Base BaseFacts StringsModel EncodingModel LexSpec LexModel.

(** * Keywords *)
Lemma strcmp_refl a : strcmp a a = 0.
Proof. induction a as [|x a IH]; cbn [strcmp]; [reflexivity|]. now rewrite Z.eqb_refl. Qed.
Lemma strcmp_eq a : forall b, strcmp a b = 0 -> a = b.
Proof.
  induction a as [|x a IH]; intros [|y b]; cbn [strcmp]; try discriminate; [reflexivity|].
  destruct (x =? y) eqn:E; [|lia]. apply Z.eqb_eq in E as ->. intros H. f_equal. now apply IH.
Qed.
Lemma strcmp_anti a : forall b, strcmp a b < 0 <-> strcmp b a > 0.
Proof.
  induction a as [|x a IH]; intros [|y b]; cbn [strcmp]; try lia.
  rewrite (Z.eqb_sym y x). destruct (x =? y) eqn:E; [apply IH|lia].
Qed.
Lemma strcmp_trans a : forall b c, strcmp a b < 0 -> strcmp b c < 0 -> strcmp a c < 0.
Proof.
  induction a as [|x a IH]; intros [|y b] [|z c]; cbn [strcmp]; try lia.
  destruct (x =? y) eqn:E, (y =? z) eqn:F, (x =? z) eqn:G; try lia. apply IH.
Qed.
Lemma keywords_sorted i j w v k l : (i < j)%nat -> nth_error keywords i = Some (w, k) -> nth_error keywords j = Some (v, l) -> strcmp w v < 0.
Proof.
  assert (C : forallb (fun i => forallb (fun j => negb (i <? j)%nat || match nth_error keywords i, nth_error keywords j with
    | Some (w, _), Some (v, _) => strcmp w v <? 0 | _, _ => true end) (seq 0 42)) (seq 0 42) = true) by (vm_compute; reflexivity).
  intros L A B. assert (I : (i < 42)%nat) by (apply (proj1 (nth_error_Some keywords i)); congruence).
  assert (J : (j < 42)%nat) by (apply (proj1 (nth_error_Some keywords j)); congruence).
  assert (Si : In i (seq 0 42)) by (apply in_seq; lia). assert (Sj : In j (seq 0 42)) by (apply in_seq; lia).
  rewrite forallb_forall in C. specialize (C i Si). rewrite forallb_forall in C. specialize (C j Sj). cbv beta in C. rewrite A, B in C.
  destruct (i <? j)%nat eqn:E; [|lia]. cbn in C. now apply Z.ltb_lt.
Qed.
Lemma lookup_ok ident : forall fuel lo hi, (Z.to_nat (hi - lo + 1) < fuel)%nat -> 0 <= lo -> hi < Z.of_nat (length keywords) ->
  (forall i w k, nth_error keywords i = Some (w, k) -> w = ident -> lo <= Z.of_nat i <= hi) ->
  (exists i k, nth_error keywords i = Some (ident, k) /\ lookup fuel ident lo hi = Some k) \/
  ((forall i k, nth_error keywords i <> Some (ident, k)) /\ lookup fuel ident lo hi = Some IDENT).
Proof.
  induction fuel as [|fuel IH]; intros lo hi F L H R; [lia|]. cbn [lookup].
  destruct (lo <=? hi) eqn:E.
  - set (mid := (lo + hi) / 2). assert (M : lo <= mid <= hi) by (subst mid; split; [apply Z.div_le_lower_bound|apply Z.div_le_upper_bound]; lia).
    destruct (mid <? 0) eqn:N; [lia|].
    destruct (nth_error keywords (Z.to_nat mid)) as [[w k]|] eqn:A.
    2:{ apply nth_error_None in A. lia. }
    destruct (strcmp ident w =? 0) eqn:C0.
    + left. exists (Z.to_nat mid), k. apply Z.eqb_eq, strcmp_eq in C0. subst w. auto.
    + destruct (strcmp ident w <? 0) eqn:C1; apply IH; try lia; intros i v l B ->.
      * specialize (R i ident l B eq_refl). split; [lia|].
        destruct (Z.le_gt_cases (Z.of_nat i) (mid - 1)) as [|G]; [lia|exfalso].
        destruct (Z.eq_dec (Z.of_nat i) mid) as [Q|Q].
        -- replace (Z.to_nat mid) with i in A by lia. rewrite B in A. injection A as -> ->. rewrite strcmp_refl in C1. lia.
        -- pose proof (keywords_sorted (Z.to_nat mid) i w ident k l ltac:(lia) A B) as K. apply strcmp_anti in K. lia.
      * specialize (R i ident l B eq_refl). split; [|lia].
        destruct (Z.le_gt_cases (mid + 1) (Z.of_nat i)) as [|G]; [lia|exfalso].
        destruct (Z.eq_dec (Z.of_nat i) mid) as [Q|Q].
        -- replace (Z.to_nat mid) with i in A by lia. rewrite B in A. injection A as -> ->. rewrite strcmp_refl in C0. lia.
        -- pose proof (keywords_sorted i (Z.to_nat mid) ident w l k ltac:(lia) B A) as K. lia.
  - right. split; [|reflexivity]. intros i k B. specialize (R i ident k B eq_refl). lia.
Qed.
Lemma lookup_total ident :
  (exists i k, nth_error keywords i = Some (ident, k) /\ lookup_identifier ident = Some k) \/
  ((forall i k, nth_error keywords i <> Some (ident, k)) /\ lookup_identifier ident = Some IDENT).
Proof.
  unfold lookup_identifier. apply lookup_ok; [vm_compute; lia|lia|lia|].
  intros i w k B _. assert (i < length keywords)%nat by (apply (proj1 (nth_error_Some keywords i)); congruence). lia.
Qed.
Lemma keywords_listed w k : In (w, k) keywords <-> In (w, k) keyword_list.
Proof.
  split; intros H.
  - repeat (destruct H as [<-|H]; [cbn; auto 50|]). destruct H.
  - repeat (destruct H as [<-|H]; [cbn; auto 50|]). destruct H.
Qed.
Lemma lookup_exact ident :
  (exists k, In (ident, k) keyword_list /\ lookup_identifier ident = Some k) \/
  ((forall k, ~ In (ident, k) keyword_list) /\ lookup_identifier ident = Some IDENT).
Proof.
  destruct (lookup_total ident) as [(i & k & A & B)|[A B]].
  - left. exists k. split; [|exact B]. apply keywords_listed. now apply nth_error_In in A.
  - right. split; [|exact B]. intros k H. apply keywords_listed, In_nth_error in H as [i H]. exact (A i k H).
Qed.

(** * Runs *)
Lemma run_spec f r : exists a b, r = a ++ b /\ length a = run f r /\ Forall (fun c => f c = true) a /\ match b with [] => True | c :: _ => f c = false end.
Proof.
  induction r as [|c r (a & b & -> & L & F & N)]; cbn [run].
  - exists [], []. auto.
  - destruct (f c) eqn:E.
    + exists (c :: a), b. cbn [length app]. repeat split; auto.
    + exists [], (c :: a ++ b). repeat split; auto.
Qed.
Lemma run_app f a b : Forall (fun c => f c = true) a -> match b with [] => True | c :: _ => f c = false end -> run f (a ++ b) = length a.
Proof. induction 1 as [|c a C F IH]; intros N; cbn [app run length]; [destruct b as [|d b]; cbn [run]; [|rewrite N]; reflexivity|]. now rewrite C, IH. Qed.
Lemma skipn_len {A} (a b : list A) : skipn (length a) (a ++ b) = b.
Proof. induction a; cbn; auto. Qed.
Lemma firstn_len {A} (a b : list A) : firstn (length a) (a ++ b) = a.
Proof. induction a; cbn; f_equal; auto. Qed.

(** * Positions *)
Definition column (s : bytes) : Z := fold_left (fun n c => if c =? 10 then 0 else n + 1) s 0.
Lemma column_snoc s c : column (s ++ [c]) = if c =? 10 then 0 else column s + 1.
Proof. unfold column. now rewrite fold_left_app. Qed.
Lemma column_spec s : since_newline s (column s).
Proof.
  induction s as [|c s IH] using rev_ind; [left; auto|]. rewrite column_snoc. destruct (c =? 10) eqn:E.
  - apply Z.eqb_eq in E as ->. right. exists s, []. repeat split; auto.
  - assert (c <> 10) by lia. destruct IH as [[N L]|(a & b & -> & N & L)].
    + left. split; [rewrite in_app_iff; cbn; intuition congruence|]. rewrite app_length. cbn [length]. lia.
    + right. exists a, (b ++ [c]). rewrite <- app_assoc. split; [reflexivity|]. split; [rewrite in_app_iff; cbn; intuition congruence|].
      rewrite app_length. cbn [length]. lia.
Qed.
Lemma newlines_snoc s c : newlines (s ++ [c]) = newlines s + if c =? 10 then 1 else 0.
Proof. unfold newlines. rewrite filter_app, app_length. cbn [filter]. destruct (c =? 10); cbn [length]; lia. Qed.
(** The lexer after reading [pre] *)
Definition at_ (pre r : bytes) : lexer :=
  if hd 0 r =? 10 then Lx r (2 + newlines pre) 0 else Lx r (1 + newlines pre) (1 + column pre).
Lemma at_rest pre r : rest (at_ pre r) = r.
Proof. unfold at_. destruct (hd 0 r =? 10); reflexivity. Qed.
Lemma at_create src : create src = at_ [] src.
Proof. unfold create, at_. destruct (hd 0 src =? 10); reflexivity. Qed.
Lemma at_read pre c r : read_char (at_ pre (c :: r)) = at_ (pre ++ [c]) r.
Proof.
  unfold read_char. rewrite at_rest. cbn [tl]. unfold at_. cbn [hd]. rewrite newlines_snoc, column_snoc.
  destruct (c =? 10) eqn:C, (hd 0 r =? 10) eqn:R; cbn [line col]; f_equal; lia.
Qed.
Lemma reads_S n s : reads (S n) s = reads n (read_char s).
Proof. induction n as [|n IH]; [reflexivity|]. change (reads (S (S n)) s) with (read_char (reads (S n) s)). now rewrite IH. Qed.
Lemma at_reads a : forall pre r, reads (length a) (at_ pre (a ++ r)) = at_ (pre ++ a) r.
Proof.
  induction a as [|c a IH]; intros pre r; [cbn; now rewrite app_nil_r|].
  cbn [length app]. rewrite reads_S, at_read, IH, <- app_assoc. reflexivity.
Qed.
Lemma at_stands pre r k lit g : hd 0 r <> 10 -> stands_at pre (Tok k lit (line (at_ pre r)) (col (at_ pre r)) g).
Proof.
  intros N. unfold at_. destruct (hd 0 r =? 10) eqn:E; [lia|]. split; cbn [tline tcol line col]; [reflexivity|].
  replace (1 + column pre - 1) with (column pre) by lia. apply column_spec.
Qed.
Lemma rest_reads n : forall s, rest (reads n s) = skipn n (rest s).
Proof.
  induction n as [|n IH]; intros s; [reflexivity|]. rewrite reads_S, IH. unfold read_char.
  destruct (rest s) as [|c r] eqn:E; cbn [tl skipn]; [destruct (hd 0 [] =? 10); cbn [rest]; now destruct n|destruct (hd 0 r =? 10); reflexivity].
Qed.

(** * Layout *)
Lemma is_blank_spec c : is_blank c = true <-> blank c.
Proof. unfold is_blank, blank. rewrite !orb_true_iff, !Z.eqb_eq. tauto. Qed.
Lemma gap_blanks P a g : Forall (fun c => is_blank c = true) a -> gap P g -> gap P (a ++ g).
Proof. induction 1; intros; cbn [app]; [assumption|]. apply gap_blank; [now apply is_blank_spec|auto]. Qed.
Lemma gap_mono (P Q : Prop) g : (P -> Q) -> gap P g -> gap Q g.
Proof. intros H. induction 1; [constructor|apply gap_blank|apply gap_line|apply gap_last|apply gap_block]; auto. Qed.
Lemma block_spec r : exists n ok, block r = (n, ok) /\
  if ok then exists body r', r = body ++ bs "*/" ++ r' /\ n = (length body + 2)%nat /\ (forall a b, body <> a ++ bs "*/" ++ b)
  else n = length r /\ forall a b, r <> a ++ bs "*/" ++ b.
Proof.
  induction r as [|c r IH]; cbn [block].
  - exists 0%nat, false. split; [reflexivity|]. split; [reflexivity|]. intros [|x a] b; discriminate.
  - destruct ((c =? 42) && (hd 0 r =? 47)) eqn:E.
    + apply andb_true_iff in E as [C D]. apply Z.eqb_eq in C as ->. destruct r as [|d r]; [discriminate|]. cbn [hd] in D. apply Z.eqb_eq in D as ->.
      exists 2%nat, true. split; [reflexivity|]. exists [], r. repeat split; auto. intros [|x a] b; discriminate.
    + destruct IH as (n & ok & -> & H). exists (S n), ok. split; [reflexivity|]. destruct ok.
      * destruct H as (body & r' & -> & -> & N). exists (c :: body), r'. repeat split; auto.
        intros [|x a] b Q; cbn [app bs] in Q.
        -- injection Q as -> Q. destruct body as [|d body]; [discriminate|]. injection Q as -> Q. cbn in E. discriminate.
        -- injection Q as _ Q. exact (N a b Q).
      * destruct H as [-> N]. split; [reflexivity|]. intros [|x a] b Q; [|injection Q as _ Q; exact (N a b Q)].
        injection Q as -> Q. subst r. cbn in E. discriminate.
Qed.
(** Nothing more to skip *)
Definition settled (r : bytes) : Prop :=
  match r with [] => True | c :: r' => is_blank c = false /\ ~ (c = 47 /\ (hd 0 r' = 47 \/ hd 0 r' = 42)) end.
Lemma skip_spec : forall fuel r, (length r < fuel)%nat -> exists n e, skip fuel r = Some (n, e) /\
  if e then n = length r /\ exists g body, r = g ++ bs "/*" ++ body /\ gap False g /\ forall a b, body <> a ++ bs "*/" ++ b
  else exists g r', r = g ++ r' /\ n = length g /\ gap (r' = []) g /\ settled r'.
Proof.
  induction fuel as [|fuel IH]; intros r L; [lia|]. cbn [skip]. cbv zeta.
  destruct (run_spec is_blank r) as (w & r1 & -> & <- & W & N). rewrite skipn_len. rewrite app_length in *.
  destruct ((hd 0 r1 =? 47) && (hd 0 (tl r1) =? 47)) eqn:E1.
  { destruct r1 as [|c [|d r2]]; try (cbn in E1; lia). cbn [hd tl] in *. assert (c = 47) by lia. assert (d = 47) by lia. subst c d.
    destruct (run_spec (fun c => negb (c =? 10)) r2) as (body & r3 & -> & <- & B & N3). rewrite skipn_len.
    assert (NB : ~ In 10 body) by (intros I; rewrite Forall_forall in B; apply B in I; discriminate).
    cbn [length] in L. rewrite app_length in L.
    destruct (IH r3 ltac:(lia)) as (m & e & -> & H). exists (length w + 2 + length body + m)%nat, e. split; [reflexivity|]. destruct e.
    - destruct H as [-> (g & cm & -> & G & X)]. split; [cbn [length]; rewrite !app_length; lia|].
      destruct g as [|x g].
      { cbn in N3. lia. }
      cbn in N3. assert (x = 10) by lia. subst x.
      exists (w ++ bs "//" ++ body ++ 10 :: g), cm. split; [now rewrite <- !app_assoc|]. split; [|exact X]. apply gap_blanks; [exact W|]. now apply gap_line.
    - destruct H as (g & r' & -> & -> & G & S). exists (w ++ bs "//" ++ body ++ g), r'. split; [now rewrite <- !app_assoc|].
      split; [rewrite !app_length; change (length (bs "//")) with 2%nat; lia|]. split; [|exact S]. apply gap_blanks; [exact W|].
      destruct g as [|x g].
      + rewrite app_nil_r. apply gap_last; [|exact NB]. destruct r' as [|y r']; [reflexivity|]. cbn in N3. destruct S as [S _].
        assert (y = 10) by lia. subst y. discriminate.
      + cbn in N3. assert (x = 10) by lia. subst x. now apply gap_line. }
  destruct ((hd 0 r1 =? 47) && (hd 0 (tl r1) =? 42)) eqn:E2.
  { destruct r1 as [|c [|d r2]]; try (cbn in E2; lia). cbn [hd tl] in *. assert (c = 47) by lia. assert (d = 42) by lia. subst c d.
    destruct (block_spec r2) as (n & ok & -> & H). destruct ok.
    - destruct H as (body & r3 & -> & -> & X). cbn [length] in L. rewrite !app_length in L.
      replace (skipn (length body + 2) (body ++ bs "*/" ++ r3)) with r3.
      2:{ change 2%nat with (length (bs "*/")). now rewrite <- app_length, app_assoc, skipn_len. }
      destruct (IH r3 ltac:(lia)) as (m & e & -> & H). rewrite orb_false_r. eexists _, e. split; [reflexivity|]. destruct e.
      + destruct H as [-> (g & cm & -> & G & Y)]. split; [cbn [length]; rewrite !app_length; change (length (bs "*/")) with 2%nat; lia|].
        exists (w ++ bs "/*" ++ body ++ bs "*/" ++ g), cm. split; [now rewrite <- !app_assoc|]. split; [|exact Y]. apply gap_blanks; [exact W|]. now apply gap_block.
      + destruct H as (g & r' & -> & -> & G & S). exists (w ++ bs "/*" ++ body ++ bs "*/" ++ g), r'. split; [now rewrite <- !app_assoc|].
        split; [rewrite !app_length; change (length (bs "*/")) with 2%nat; change (length (bs "/*")) with 2%nat; lia|]. split; [|exact S].
        apply gap_blanks; [exact W|]. now apply gap_block.
    - destruct H as [-> X]. rewrite skipn_all. cbn [length] in L.
      destruct (IH [] ltac:(cbn; lia)) as (m & e & -> & H). rewrite orb_true_r. eexists _, true. split; [reflexivity|].
      assert (m = 0%nat) as ->.
      { destruct e; [destruct H as [-> _]; reflexivity|]. destruct H as (g & r' & Q & -> & _). destruct g; [reflexivity|discriminate]. }
      split; [cbn [length]; lia|]. exists w, r2. repeat split; auto. rewrite <- (app_nil_r w). apply gap_blanks; [exact W|constructor]. }
  exists (length w), false. split; [reflexivity|]. exists w, r1. repeat split; auto.
  - rewrite <- (app_nil_r w). apply gap_blanks; [exact W|constructor].
  - destruct r1 as [|c r2]; [exact Logic.I|]. cbn [hd tl] in *. split; [exact N|]. lia.
Qed.
