(** Proofs for the edit distance. *)
From Verif Require Import Base BaseFacts SuggestModel SuggestSpec.

(** ** Alignments. *)
Inductive align : bytes -> bytes -> nat -> Prop :=
| a_nil : align [] [] 0
| a_same c s t n : align s t n -> align (c :: s) (c :: t) n
| a_sub c d s t n : align s t n -> align (c :: s) (d :: t) (S n)
| a_ins d s t n : align s t n -> align s (d :: t) (S n)
| a_del c s t n : align s t n -> align (c :: s) t (S n).
Lemma align_refl s : align s s 0.
Proof. induction s; now constructor. Qed.
Lemma align_split s t n : align s t n -> forall u v, t = u ++ v -> exists s1 s2 n1 n2, s = s1 ++ s2 /\ (n = n1 + n2)%nat /\ align s1 u n1 /\ align s2 v n2.
Proof.
  induction 1 as [|c s t n H IH|c d s t n H IH|d s t n H IH|c s t n H IH]; intros u v E.
  - symmetry in E. apply app_eq_nil in E as [-> ->]. exists [], [], 0%nat, 0%nat. repeat split; constructor.
  - destruct u as [|x u]; cbn [app] in E.
    + subst v. exists [], (c :: s), 0%nat, n. repeat split; [constructor|now constructor].
    + injection E as <- E. destruct (IH _ _ E) as (s1 & s2 & n1 & n2 & -> & -> & A & B). exists (c :: s1), s2, n1, n2. repeat split; [now constructor|exact B].
  - destruct u as [|x u]; cbn [app] in E.
    + subst v. exists [], (c :: s), 0%nat, (S n). repeat split; [constructor|now constructor].
    + injection E as <- E. destruct (IH _ _ E) as (s1 & s2 & n1 & n2 & -> & -> & A & B). exists (c :: s1), s2, (S n1), n2. repeat split; [now constructor|exact B].
  - destruct u as [|x u]; cbn [app] in E.
    + subst v. exists [], s, 0%nat, (S n). repeat split; [constructor|now constructor].
    + injection E as <- E. destruct (IH _ _ E) as (s1 & s2 & n1 & n2 & -> & -> & A & B). exists s1, s2, (S n1), n2. repeat split; [now constructor|exact B].
  - destruct (IH _ _ E) as (s1 & s2 & n1 & n2 & -> & -> & A & B). exists (c :: s1), s2, (S n1), n2. repeat split; [now constructor|exact B].
Qed.
Lemma align_app s1 t1 n1 : align s1 t1 n1 -> forall s2 t2 n2, align s2 t2 n2 -> align (s1 ++ s2) (t1 ++ t2) (n1 + n2).
Proof. induction 1; intros s2 t2 n2 B; cbn [app Nat.add]; try (constructor; now apply IHalign). exact B. Qed.
Lemma align_drop s t n : align s t n -> forall x v, t = x :: v -> exists m, (m <= S n)%nat /\ align s v m.
Proof.
  induction 1 as [|c s t n H IH|c d s t n H IH|d s t n H IH|c s t n H IH]; intros x v E; try discriminate.
  - injection E as <- <-. exists (S n). split; [lia|now constructor].
  - injection E as <- <-. exists (S n). split; [lia|now constructor].
  - injection E as <- <-. exists n. split; [lia|exact H].
  - destruct (IH _ _ E) as (m & L & A). exists (S m). split; [lia|now constructor].
Qed.
Lemma align_swap s t n : align s t n -> forall x y v, t = x :: v -> exists m, (m <= S n)%nat /\ align s (y :: v) m.
Proof.
  induction 1 as [|c s t n H IH|c d s t n H IH|d s t n H IH|c s t n H IH]; intros x y v E; try discriminate.
  - injection E as <- <-. exists (S n). split; [lia|now constructor].
  - injection E as <- <-. exists (S n). split; [lia|now constructor].
  - injection E as <- <-. exists (S n). split; [lia|now constructor].
  - destruct (IH _ y _ E) as (m & L & A). exists (S m). split; [lia|now constructor].
Qed.
Lemma edits_align n s t : edits n s t -> exists m, (m <= n)%nat /\ align s t m.
Proof.
  induction 1 as [s|n s m t H IH E]; [exists 0%nat; split; [lia|apply align_refl]|].
  destruct IH as (k & L & A). destruct E as [u c v|u c v|u c c' v].
  - destruct (align_split _ _ _ A _ _ eq_refl) as (s1 & s2 & n1 & n2 & -> & -> & B & C). exists (n1 + S n2)%nat. split; [lia|]. apply align_app; [exact B|now constructor].
  - destruct (align_split _ _ _ A _ _ eq_refl) as (s1 & s2 & n1 & n2 & -> & -> & B & C). destruct (align_drop _ _ _ C _ _ eq_refl) as (m & L' & D).
    exists (n1 + m)%nat. split; [lia|]. now apply align_app.
  - destruct (align_split _ _ _ A _ _ eq_refl) as (s1 & s2 & n1 & n2 & -> & -> & B & C). destruct (align_swap _ _ _ C _ c' _ eq_refl) as (m & L' & D).
    exists (n1 + m)%nat. split; [lia|]. now apply align_app.
Qed.
Lemma edit_cons c s t : edit s t -> edit (c :: s) (c :: t).
Proof. destruct 1 as [u d v|u d v|u d d' v]; [apply (e_insert (c :: u))|apply (e_remove (c :: u))|apply (e_replace (c :: u))]. Qed.
Lemma edits_cons c n s t : edits n s t -> edits n (c :: s) (c :: t).
Proof. induction 1 as [|n s m t H IH E]; [constructor|]. econstructor; [exact IH|now apply edit_cons]. Qed.
Lemma align_edits s t n : align s t n -> edits n s t.
Proof.
  assert (F : forall n s m t, edit s m -> edits n m t -> edits (S n) s t).
  { intros k x m y E H. induction H as [m0|k m0 m' t' H IH E']; [econstructor; [constructor|exact E]|]. econstructor; [exact (IH E)|exact E']. }
  induction 1 as [|c s t n H IH|c d s t n H IH|d s t n H IH|c s t n H IH].
  - constructor.
  - now apply edits_cons.
  - econstructor; [apply edits_cons, IH|]. apply (e_replace []).
  - econstructor; [exact IH|]. apply (e_insert []).
  - apply (F _ _ s); [apply (e_remove [])|exact IH].
Qed.
Lemma edit_rev s t : edit s t -> edit (rev s) (rev t).
Proof.
  destruct 1 as [u c v|u c v|u c c' v]; rewrite !rev_app_distr; cbn [rev]; rewrite <- ?app_assoc; cbn [app]; constructor.
Qed.
Lemma edits_rev n s t : edits n s t -> edits n (rev s) (rev t).
Proof. induction 1; [constructor|]. econstructor; [exact IHedits|now apply edit_rev]. Qed.

(** ** The recursive distance. *)
Fixpoint ed (s : bytes) : bytes -> nat :=
  match s with
  | [] => fun t => length t
  | c :: s' => fix go (t : bytes) : nat :=
      match t with
      | [] => length s
      | d :: t' => Nat.min (Nat.min (S (ed s' t)) (S (go t'))) ((if Z.eqb c d then 0 else 1) + ed s' t')
      end
  end.
Lemma ed_nil_l t : ed [] t = length t. Proof. reflexivity. Qed.
Lemma ed_nil_r s : ed s [] = length s. Proof. destruct s; reflexivity. Qed.
Lemma ed_cons c s d t : ed (c :: s) (d :: t) = Nat.min (Nat.min (S (ed s (d :: t))) (S (ed (c :: s) t))) ((if Z.eqb c d then 0 else 1) + ed s t).
Proof. reflexivity. Qed.
Lemma ed_least s t n : align s t n -> (ed s t <= n)%nat.
Proof.
  induction 1 as [|c s t n H IH|c d s t n H IH|d s t n H IH|c s t n H IH].
  - reflexivity.
  - rewrite ed_cons, Z.eqb_refl. lia.
  - rewrite ed_cons. destruct (Z.eqb c d); lia.
  - destruct s as [|c s]; [rewrite ed_nil_l in *; cbn [length]; lia|]. rewrite ed_cons. lia.
  - destruct t as [|d t]; [rewrite ed_nil_r in *; cbn [length]; lia|]. rewrite ed_cons. lia.
Qed.
Lemma align_all_ins t : align [] t (length t).
Proof. induction t; [constructor|]. cbn [length]. now constructor. Qed.
Lemma align_all_del s : align s [] (length s).
Proof. induction s; [constructor|]. cbn [length]. now constructor. Qed.
Lemma ed_align s : forall t, align s t (ed s t).
Proof.
  induction s as [|c s IHs]; [apply align_all_ins|]. induction t as [|d t IHt]; [rewrite ed_nil_r; apply align_all_del|]. rewrite ed_cons.
  destruct (Nat.min_spec (Nat.min (S (ed s (d :: t))) (S (ed (c :: s) t))) ((if Z.eqb c d then 0 else 1) + ed s t)) as [[_ ->]|[_ ->]].
  - destruct (Nat.min_spec (S (ed s (d :: t))) (S (ed (c :: s) t))) as [[_ ->]|[_ ->]]; constructor; [apply IHs|apply IHt].
  - destruct (Z.eqb_spec c d) as [->|]; cbn [Nat.add]; constructor; apply IHs.
Qed.
Theorem ed_distance s t : distance s t (ed s t).
Proof.
  split; [apply align_edits, ed_align|]. intros m H. apply edits_align in H as (k & L & A). apply ed_least in A. lia.
Qed.
Lemma distance_unique s t n m : distance s t n -> distance s t m -> n = m.
Proof. intros [A B] [C D]. apply B in C. apply D in A. lia. Qed.
Lemma ed_rev s t : ed (rev s) (rev t) = ed s t.
Proof.
  apply (distance_unique s t); [|apply ed_distance]. destruct (ed_distance (rev s) (rev t)) as [A B]. split.
  - apply edits_rev in A. now rewrite !rev_involutive in A.
  - intros m H. apply B. now apply edits_rev.
Qed.

(** ** The rows. *)
(** The row after the part [p] of the first name (reversed). *)
Definition row_of (p b : bytes) : list Z := map (fun j => Z.of_nat (ed p (rev (firstn j b)))) (seq 0 (S (length b))).
Lemma least3_min x y z : least3 x y z = Z.min (Z.min x y) z.
Proof. unfold least3. destruct (Z.ltb_spec x y), (Z.ltb_spec x z), (Z.ltb_spec y z); lia. Qed.
Lemma cells_row c p b2 : forall b1, 
  cells c b2 (map (fun j => Z.of_nat (ed p (rev (firstn j (b1 ++ b2))))) (seq (S (length b1)) (length b2)))
    (Z.of_nat (ed p (rev b1))) (Z.of_nat (ed (c :: p) (rev b1)))
  = map (fun j => Z.of_nat (ed (c :: p) (rev (firstn j (b1 ++ b2))))) (seq (S (length b1)) (length b2)).
Proof.
  induction b2 as [|d b2 IH]; intros b1; [reflexivity|]. cbn [length seq map cells]. cbv zeta.
  assert (F : firstn (S (length b1)) (b1 ++ d :: b2) = b1 ++ [d]).
  { rewrite firstn_app. replace (S (length b1) - length b1)%nat with 1%nat by lia. rewrite firstn_all2 by lia. reflexivity. }
  rewrite F, rev_app_distr. cbn [rev app].
  assert (V : least3 (Z.of_nat (ed p (d :: rev b1)) + 1) (Z.of_nat (ed (c :: p) (rev b1)) + 1) (Z.of_nat (ed p (rev b1)) + (if c =? d then 0 else 1))
    = Z.of_nat (ed (c :: p) (d :: rev b1))).
  { rewrite least3_min, ed_cons. destruct (c =? d); lia. }
  rewrite V. f_equal. specialize (IH (b1 ++ [d])). rewrite app_length in IH. cbn [length] in IH. rewrite Nat.add_1_r in IH.
  rewrite rev_app_distr in IH. cbn [rev app] in IH. replace ((b1 ++ [d]) ++ b2) with (b1 ++ d :: b2) in IH by (now rewrite <- app_assoc). exact IH.
Qed.
Lemma row_hd p b : hd 0 (row_of p b) = Z.of_nat (length p).
Proof. unfold row_of. cbn [seq map hd firstn rev]. now rewrite ed_nil_r. Qed.
Lemma next_row c p b : Z.of_nat (length p) + 1 :: cells c b (tl (row_of p b)) (hd 0 (row_of p b)) (Z.of_nat (length p) + 1) = row_of (c :: p) b.
Proof.
  rewrite row_hd. unfold row_of. cbn [seq map tl firstn rev]. rewrite ed_nil_r. cbn [length]. f_equal; [lia|].
  pose proof (cells_row c p b []) as H. cbn [app length rev] in H. rewrite !ed_nil_r in H. cbn [length] in H. rewrite <- H. f_equal. lia.
Qed.
Lemma rows_of a b : forall p, rows a b (Z.of_nat (length p) + 1) (row_of p b) = row_of (rev a ++ p) b.
Proof.
  induction a as [|c a IH]; intros p; [reflexivity|]. cbn [rows]. rewrite next_row. replace (Z.of_nat (length p) + 1 + 1) with (Z.of_nat (length (c :: p)) + 1) by (cbn [length]; lia).
  rewrite IH. cbn [rev]. now rewrite <- app_assoc.
Qed.
Lemma first_row_of b : first_row b = row_of [] b.
Proof.
  unfold first_row, row_of. apply map_ext_in. intros j Hj. apply in_seq in Hj. rewrite ed_nil_l, rev_length, firstn_length. lia.
Qed.
Theorem lev_ed a b : levenshtein a b = Z.of_nat (ed a b).
Proof.
  unfold levenshtein. destruct (Z.eqb_spec (Z.of_nat (length a)) 0) as [E|_].
  { destruct a; [reflexivity|cbn [length] in E; lia]. }
  destruct (Z.eqb_spec (Z.of_nat (length b)) 0) as [E|_].
  { destruct b; [now rewrite ed_nil_r|cbn [length] in E; lia]. }
  rewrite first_row_of. pose proof (rows_of a b []) as H. cbn [length] in H. change (Z.of_nat 0 + 1) with 1 in H. rewrite H, app_nil_r.
  unfold row_of. rewrite (nth_indep _ 0 (Z.of_nat (ed (rev a) (rev (firstn 0 b))))) by (rewrite map_length, seq_length; lia).
  rewrite map_nth with (f := fun j => Z.of_nat (ed (rev a) (rev (firstn j b)))) (d := 0%nat).
  rewrite seq_nth by lia. cbn [Nat.add]. rewrite firstn_all. now rewrite ed_rev.
Qed.
