(** Proofs about names in generated C. *)
From Verif Require Import Base BaseFacts LexModel LexProofs BsearchModel BsearchProofs EncodingModel NameModel.
From Verif Require TypesModel.
From Verif Require Import NameSpec.

Lemma in_table_iff t n : ascending (fun x => x) t = true -> in_table t n = true <-> In n t.
Proof.
  intros A. unfold in_table. pose proof (bsearch_spec (fun x : bytes => x) t n (ascending_sorted _ t A)) as B. destruct (bsearch (fun x => x) t n).
  - destruct B as (a & Ha & <-). split; [intros _; now apply nth_error_In in Ha|reflexivity].
  - split; [discriminate|]. intros H. exfalso. now apply (B n H).
Qed.
Lemma keyword_iff n : is_c_keyword n = true <-> In n c_words.
Proof. apply in_table_iff. vm_compute. reflexivity. Qed.
Definition eqb_bytes (a b : bytes) : bool := if list_eq_dec Z.eq_dec a b then true else false.
Lemma eqb_bytes_iff a b : eqb_bytes a b = true <-> a = b.
Proof. unfold eqb_bytes. destruct (list_eq_dec Z.eq_dec a b); split; congruence. Qed.
Definition mem (l : list bytes) (n : bytes) : bool := existsb (eqb_bytes n) l.
Lemma mem_iff l n : mem l n = true <-> In n l.
Proof. unfold mem. rewrite existsb_exists. split; [intros (x & H & E); apply eqb_bytes_iff in E; now subst|]. intros H. exists n. split; [exact H|now apply eqb_bytes_iff]. Qed.
(** The table has the reserved words that do not start with an underscore. *)
Lemma words_reserved n : In n c_words -> In n c_reserved /\ hd 0 n <> 95 /\ (length n <= 249)%nat.
Proof.
  assert (F : forallb (fun w => mem c_reserved w && negb (hd 0 w =? 95) && (length w <=? 249)%nat) c_words = true) by (vm_compute; reflexivity).
  rewrite forallb_forall in F. intros H. apply F in H. apply andb_true_iff in H as [H H3]. apply andb_true_iff in H as [H1 H2]. apply mem_iff in H1. split; [exact H1|]. split; [|now apply Nat.leb_le]. lia.
Qed.
Lemma reserved_words n : In n c_reserved -> hd 0 n <> 95 -> In n c_words.
Proof.
  assert (F : forallb (fun w => mem c_words w || (hd 0 w =? 95)) c_reserved = true) by (vm_compute; reflexivity).
  rewrite forallb_forall in F. intros H N. apply F in H. apply orb_true_iff in H as [H|H]; [now apply mem_iff|lia].
Qed.
Lemma sanitize_word n : In n c_words -> sanitize_name n = bs "_gray_" ++ n.
Proof.
  intros H. unfold sanitize_name. rewrite (proj2 (keyword_iff n) H). unfold fit. apply firstn_all2. rewrite app_length. apply words_reserved in H as (_ & _ & L).
  change (Z.to_nat (MSG_BUF_SIZE - 1)) with (Z.to_nat 255). change (length (bs "_gray_")) with 6%nat. lia.
Qed.
Lemma sanitize_other n : ~ In n c_words -> sanitize_name n = n.
Proof. intros H. unfold sanitize_name. destruct (is_c_keyword n) eqn:E; [apply keyword_iff in E; contradiction|reflexivity]. Qed.
Lemma gray_not_reserved n : ~ In (bs "_gray_" ++ n) c_reserved.
Proof.
  assert (F : forallb (fun w => negb (eqb_bytes (firstn 6 w) (bs "_gray_"))) c_reserved = true) by (vm_compute; reflexivity).
  rewrite forallb_forall in F. intros H. apply F in H. change (firstn 6 (bs "_gray_" ++ n)) with (bs "_gray_") in H. discriminate H.
Qed.
Lemma sanitize_injective n m : ~ starts_with (bs "_gray_") n -> ~ starts_with (bs "_gray_") m -> sanitize_name n = sanitize_name m -> n = m.
Proof.
  intros N M E. destruct (in_dec (list_eq_dec Z.eq_dec) n c_words) as [I|I], (in_dec (list_eq_dec Z.eq_dec) m c_words) as [J|J].
  - rewrite (sanitize_word n I), (sanitize_word m J) in E. now apply app_inv_head in E.
  - rewrite (sanitize_word n I), (sanitize_other m J) in E. exfalso. apply M. now exists n.
  - rewrite (sanitize_other n I), (sanitize_word m J) in E. exfalso. apply N. now exists m.
  - now rewrite (sanitize_other n I), (sanitize_other m J) in E.
Qed.
Lemma begins_iff p s : begins p s = true <-> starts_with p s.
Proof.
  unfold begins, starts_with. split.
  - intros H. apply Z.eqb_eq, strcmp_eq in H. exists (skipn (length p) s). rewrite <- H at 1. symmetry. apply firstn_skipn.
  - intros (r & ->). rewrite firstn_app, Nat.sub_diag, firstn_all, firstn_O, app_nil_r. rewrite strcmp_refl. reflexivity.
Qed.
(** ** Cutting a name at its first underscore. *)
Lemma under_inj a b c d : no_underscore a -> no_underscore c -> a ++ [95] ++ b = c ++ [95] ++ d -> a = c /\ b = d.
Proof.
  unfold no_underscore. revert c. induction a as [|x a IH]; intros [|y c] A C E; cbn [app] in E.
  - injection E as E. now split.
  - injection E as E1 E2. exfalso. apply C. now left.
  - injection E as E1 E2. exfalso. apply A. now left.
  - injection E as -> E. destruct (IH c) as [-> ->]; [intros H; apply A; now right|intros H; apply C; now right|exact E|now split].
Qed.
Lemma under_no a c d : no_underscore a -> a <> c ++ [95] ++ d.
Proof. intros A ->. apply A, in_or_app. right. now left. Qed.
Lemma fit_id s : (length s < 256)%nat -> fit s = s.
Proof. intros H. apply firstn_all2. change (Z.to_nat (MSG_BUF_SIZE - 1)) with (Z.to_nat 255). lia. Qed.
(** ** All C names. *)
Lemma var_prefix n : variable_refused n = false -> ~ starts_with (bs "gray_") (sanitize_name n) /\ ~ starts_with (bs "Gray") (sanitize_name n).
Proof.
  intros V. destruct (in_dec (list_eq_dec Z.eq_dec) n c_words) as [I|I].
  - rewrite (sanitize_word n I). split; intros (r & E); vm_compute in E; discriminate E.
  - rewrite (sanitize_other n I). unfold variable_refused in V. apply orb_false_iff in V as [_ V]. apply andb_false_iff in V as [V|V].
    + apply negb_false_iff, Z.eqb_eq, strcmp_eq in V. subst n. split; intros (r & E); vm_compute in E; discriminate E.
    + unfold check_reserved_name in V. destruct (begins (bs "_gray_") n) eqn:B.
      * apply begins_iff in B as (r & ->). split; intros (r' & E); vm_compute in E; discriminate E.
      * apply orb_false_iff in V as [V1 V2]. split; intros H; apply begins_iff in H; congruence.
Qed.
Lemma const_inj e v e' v' : no_underscore e -> no_underscore e' -> c_enum_constant e v = c_enum_constant e' v' -> e = e' /\ v = v'.
Proof. unfold c_enum_constant. intros A B E. apply app_inv_head in E. now apply under_inj. Qed.
Lemma tag_type_const e : c_enum_tag_type e = c_enum_constant e (bs "Tag").
Proof. reflexivity. Qed.
Lemma enum_const e e' v : no_underscore e -> c_enum e <> c_enum_constant e' v.
Proof. unfold c_enum, c_enum_constant. intros A E. apply app_inv_head in E. now apply (under_no e e' v). Qed.
Ltac far := exfalso; match goal with E : _ = _ |- _ => vm_compute in E; discriminate E end.
Lemma names_distinct tagged d d' : unproblematic tagged d -> unproblematic tagged d' -> c_name d = c_name d' -> d = d'.
Proof.
  assert (V : forall n x, variable_refused n = false -> starts_with (bs "gray_") x \/ starts_with (bs "Gray") x -> sanitize_name n <> x).
  { intros n x H S0 <-. destruct (var_prefix n H) as [A B]. tauto. }
  assert (G : forall d, match d with DVar _ => True | _ => starts_with (bs "gray_") (c_name d) \/ starts_with (bs "Gray") (c_name d) end).
  { intros []; cbn [c_name]; try exact I.
    1: left; exists (bs "fn_" ++ n); reflexivity.
    all: right; eexists; change (bs "Gray") with [71; 114; 97; 121]; match goal with |- ?l = _ => change l with (([71; 114; 97; 121] ++ skipn 4 l)) end; reflexivity. }
  intros U U' E. pose proof (G d) as Gd. pose proof (G d') as Gd'.
  destruct d, d'; cbn [unproblematic] in U, U'; cbn [c_name] in E, Gd, Gd'; clear G; try rewrite !tag_type_const in *;
    repeat match goal with H : _ /\ _ |- _ => destruct H end;
    first
      [ f_equal; now apply app_inv_head in E
      | f_equal; now apply sanitize_injective
      | exfalso; now refine (V _ _ _ _ E)
      | exfalso; symmetry in E; now refine (V _ _ _ _ E)
      | exfalso; now refine (enum_const _ _ _ _ E)
      | exfalso; symmetry in E; now refine (enum_const _ _ _ _ E)
      | apply const_inj in E as [? ?]; [subst; reflexivity|assumption|assumption]
      | apply const_inj in E as [? E]; [subst; first [congruence|f_equal; now apply app_inv_head in E|far]|assumption|assumption]
      | far
      | idtac ].
Qed.
