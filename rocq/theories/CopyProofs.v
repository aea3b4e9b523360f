(** Deep copies: when the text of a type says that it needs one. *)
From Verif Require Import Base BaseFacts LexModel LexProofs TypesModel TypesSpec TypesProofs4 CopySpec CopyModel.

Lemma eqs_iff a b : eqs a b = true <-> a = b.
Proof. unfold eqs. rewrite Z.eqb_eq. split; [apply strcmp_eq|intros ->; apply strcmp_refl]. Qed.
Lemma eqs_refl a : eqs a a = true.
Proof. now apply eqs_iff. Qed.
Lemma eqs_no a b : a <> b -> eqs a b = false.
Proof. intros N. destruct (eqs a b) eqn:E; [|reflexivity]. now apply eqs_iff in E. Qed.

Lemma find_texts p n : find_struct_declaration (texts p) n = option_map (map (fun f => (fst f, show (snd f)))) (lookup n (structs p)).
Proof.
  unfold texts. induction (structs p) as [|[m fs] l IH]; [reflexivity|]. cbn [map find_struct_declaration lookup fst snd].
  destruct (list_eq_dec Z.eq_dec m n) as [->|N]; [now rewrite eqs_refl|]. now rewrite (eqs_no _ _ N).
Qed.
Lemma lookup_in {A} n (l : list (bytes * A)) a : lookup n l = Some a -> In (n, a) l.
Proof.
  induction l as [|[m x] l IH]; [discriminate|]. cbn [lookup]. destruct (list_eq_dec Z.eq_dec m n) as [->|N]; [intros [= ->]; now left|].
  intros H. right. now apply IH.
Qed.
Lemma word_no c n : word n -> ~ word_char c -> ~ In c n.
Proof. intros [_ F] N I. rewrite Forall_forall in F. exact (N (F c I)). Qed.
Ltac not_word := unfold word_char; lia.
Lemma find_nonword p rank n c : fine_program p rank -> In c n -> ~ word_char c -> find_struct_declaration (texts p) n = None.
Proof.
  intros F I N. rewrite find_texts. destruct (lookup n (structs p)) as [fs|] eqn:E; [|reflexivity]. apply lookup_in in E.
  destruct (F _ _ E) as (W & _). now elim (word_no c n W N).
Qed.
Lemma word_hd n c : word n -> ~ word_char c -> hd 0 n <> c.
Proof. intros W N. destruct n as [|x n]; [now elim (proj1 W)|]. intros <-. apply (word_no x (x :: n) W N). now left. Qed.
Lemma word_map n : word n -> starts_map n = false.
Proof.
  intros W. unfold starts_map. apply eqs_no. intros E. apply (word_no 91 n W); [not_word|].
  assert (H : In 91 (firstn 4 n)) by (rewrite E; cbn; tauto). clear -H. revert H. generalize 4%nat. induction n as [|x n IH]; intros [|k] H; cbn in *; try tauto.
  destruct H as [->|H]; [now left|right; now apply (IH k)].
Qed.
Lemma fuel_S m N : (S N <= m)%nat -> exists k, m = S k /\ (N <= k)%nat.
Proof. destruct m; [lia|]. intros. exists m. split; [reflexivity|lia]. Qed.

Definition flat (p : program) (t : ty) : Prop := forall v, holds p t v -> owned v = [].
Lemma needs_name ds m vis n : word n -> n <> bs "string" -> type_needs_deep_copy ds (S m) vis n =
  match find_struct_declaration ds n with
  | None => Some false
  | Some fields => if existsb (fun m => eqs m n) vis then Some false else
      if CYCLE_GUARD_DEPTH <=? Z.of_nat (length vis) then None else
      first_yes (fun f => type_needs_deep_copy ds m (vis ++ [n]) (snd f)) fields
  end.
Proof.
  intros W Ns. cbn [type_needs_deep_copy]. destruct (length n =? 0)%nat eqn:E0; [destruct n; [now elim (proj1 W)|discriminate]|].
  assert (H91 : hd 0 n <> 91) by (apply word_hd; [exact W|not_word]). assert (H94 : hd 0 n <> 94) by (apply word_hd; [exact W|not_word]).
  rewrite <- Z.eqb_neq in H91, H94. rewrite H91, (word_map n W), (eqs_no _ _ Ns), H94. reflexivity.
Qed.
Lemma needs_open ds m vis x : type_needs_deep_copy ds (S m) vis (91 :: x) = Some true.
Proof. reflexivity. Qed.
Lemma starts_map_yes x : starts_map (bs "map[" ++ x) = true.
Proof. unfold starts_map. change (firstn 4 (bs "map[" ++ x)) with (bs "map["). apply eqs_refl. Qed.
Lemma needs_map ds m vis x : type_needs_deep_copy ds (S m) vis (bs "map[" ++ x) = Some true.
Proof. cbn [type_needs_deep_copy]. rewrite starts_map_yes. reflexivity. Qed.
Lemma needs_caret ds m vis x : type_needs_deep_copy ds (S m) vis (94 :: x) = Some false.
Proof.
  cbn [type_needs_deep_copy length Nat.eqb hd]. unfold starts_map. change (94 =? 91) with false. cbv iota.
  rewrite (eqs_no (firstn 4 (94 :: x)) (bs "map[")) by (cbn; discriminate). rewrite (eqs_no (94 :: x) (bs "string")) by (cbn; discriminate).
  reflexivity.
Qed.
Lemma needs_func p rank m vis x : fine_program p rank -> type_needs_deep_copy (texts p) (S m) vis (bs "func(" ++ x) = Some false.
Proof.
  intros F. cbn [type_needs_deep_copy]. unfold starts_map. rewrite (eqs_no (firstn 4 (bs "func(" ++ x)) (bs "map[")) by (cbn; discriminate).
  rewrite (eqs_no (bs "func(" ++ x) (bs "string")) by (cbn; discriminate).
  rewrite (find_nonword p rank _ 40 F); [reflexivity| |not_word]. apply in_app_iff. left. cbn. tauto.
Qed.

Lemma holds_name p n v : holds p (TName n) v -> n <> bs "string" -> n <> bs "Error" -> lookup n (enums p) = None ->
  (exists fs l, lookup n (structs p) = Some fs /\ v = VRec l /\ Forall2 (fun f x => fst f = fst x /\ holds p (snd f) (snd x)) fs l) \/
  (lookup n (structs p) = None /\ exists z, v = VBits z).
Proof.
  intros H Ns Ne Nn. remember (TName n) as t eqn:Et. destruct H as [b s|b c s d m| |n0 fs l Q1 Q2 Q3 Q4|n0 vs i ts l Q1 Q2 Q3 Q4 Q5 Q6|n0 z Q1 Q2 Q3 Q4| | | | |]; try discriminate Et.
  - elim Ns. congruence.
  - elim Ne. congruence.
  - elim Ne. congruence.
  - assert (n0 = n) by congruence. subst n0. left. exists fs, l. auto.
  - assert (n0 = n) by congruence. subst n0. congruence.
  - assert (n0 = n) by congruence. subst n0. right. split; [exact Q3|]. now exists z.
Qed.
Lemma holds_string p v : holds p (TName (bs "string")) v -> exists b s, v = VStr b s.
Proof.
  intros H. remember (TName (bs "string")) as t eqn:Et. destruct H as [b s|b c s d m| |n0 fs l Q1 Q2 Q3 Q4|n0 vs i ts l Q1 Q2 Q3 Q4 Q5 Q6|n0 z Q1 Q2 Q3 Q4| | | | |]; try discriminate Et; eauto; elim Q1; congruence.
Qed.

Lemma first_yes_ok {A B} (f : nat -> A -> option bool) (g : B -> A) (flatp : B -> Prop) (l : list B) :
  (forall x, In x l -> exists N b, (forall m, (N <= m)%nat -> f m (g x) = Some b) /\ (b = false -> flatp x)) ->
  exists N b, (forall m, (N <= m)%nat -> first_yes (f m) (map g l) = Some b) /\ (b = false -> forall x, In x l -> flatp x).
Proof.
  induction l as [|x l IH]; intros H.
  - exists 0%nat, false. split; [reflexivity|]. intros _ y [].
  - destruct (H x (or_introl eq_refl)) as (N1 & b1 & E1 & F1). destruct IH as (N2 & b2 & E2 & F2); [intros y Hy; apply H; now right|].
    exists (N1 + N2)%nat, (b1 || b2). split.
    + intros m L. cbn [map first_yes]. rewrite E1 by lia. destruct b1; [reflexivity|]. apply E2. lia.
    + intros E. apply orb_false_iff in E as [-> ->]. intros y [->|I]; [now apply F1|now apply F2].
Qed.

(** A type that is said to need no copy has values that own nothing. *)
Lemma needs_ok p rank : fine_program p rank -> forall r t vis, wf t -> copyable p t -> (forall m, In m (inside t) -> (rank m < r)%nat) ->
  Forall (fun m => (r <= rank m)%nat) vis -> (length vis + r <= 64)%nat ->
  exists N b, (forall m, (N <= m)%nat -> type_needs_deep_copy (texts p) m vis (show t) = Some b) /\ (b = false -> flat p t).
Proof.
  intros F. induction r as [r IH] using (well_founded_induction lt_wf). intros t vis W C R V L. destruct t as [n|t|e|e z|k v|ps rt].
  - inversion W as [? Wn| | | | |]; subst. cbn [show]. destruct C as [Ne En].
    destruct (list_eq_dec Z.eq_dec n (bs "string")) as [->|Ns].
    { exists 1%nat, true. split; [|discriminate]. intros m Lm. destruct (fuel_S m 0 Lm) as (k & -> & _). reflexivity. }
    assert (Rn : (rank n < r)%nat) by (apply R; now left).
    destruct (lookup n (structs p)) as [fs|] eqn:El.
    + pose proof (lookup_in _ _ _ El) as I. destruct (F _ _ I) as (_ & _ & _ & _ & Ff).
      assert (X : existsb (fun m => eqs m n) vis = false).
      { destruct (existsb _ vis) eqn:X; [|reflexivity]. apply existsb_exists in X as (m & Im & Em). apply eqs_iff in Em as ->.
        rewrite Forall_forall in V. specialize (V _ Im). lia. }
      destruct (first_yes_ok (fun m f => type_needs_deep_copy (texts p) m (vis ++ [n]) (snd f)) (fun f : bytes * ty => (fst f, show (snd f)))
        (fun f => flat p (snd f)) fs) as (N & b & E & Fl).
      { intros [f t] If. destruct (Ff _ _ If) as (Wt & _ & Ct & Rt). cbn [fst snd]. apply (IH (rank n) Rn t (vis ++ [n]) Wt Ct Rt).
        - apply Forall_app. split; [|constructor; [lia|constructor]]. eapply Forall_impl; [|exact V]. intros a Ha. cbn beta in *. lia.
        - rewrite app_length. cbn [length]. lia. }
      exists (S N), b. split.
      * intros m Lm. destruct (fuel_S m N Lm) as (k & -> & Lk). rewrite needs_name by assumption. rewrite find_texts, El. cbn [option_map].
        rewrite X. unfold CYCLE_GUARD_DEPTH. destruct (Z.leb_spec 64 (Z.of_nat (length vis))) as [B|_]; [lia|]. now apply E.
      * intros Eb. specialize (Fl Eb). intros w Hw. destruct (holds_name _ _ _ Hw Ns Ne En) as [(fs0 & l & E0 & -> & HF)|[E0 _]]; [|congruence].
        assert (fs0 = fs) by congruence. subst fs0. cbn [owned].
        clear -Fl HF. induction HF as [|[f t] [g v] fs l [_ Hv] H IHl]; [reflexivity|]. cbn [flat_map snd].
        cbn [snd] in Hv. rewrite (Fl (f, t) (or_introl eq_refl) v Hv). apply IHl. intros x Hx. apply Fl. now right.
    + exists 1%nat, false. split.
      * intros m Lm. destruct (fuel_S m 0 Lm) as (k & -> & _). rewrite needs_name by assumption. now rewrite find_texts, El.
      * intros _ w Hw. destruct (holds_name _ _ _ Hw Ns Ne En) as [(fs0 & l & E0 & _)|[_ [z ->]]]; [congruence|reflexivity].
  - exists 1%nat, false. split; [|intros _ w Hw; now inversion Hw]. intros m Lm. destruct (fuel_S m 0 Lm) as (k & -> & _). apply needs_caret.
  - exists 1%nat, true. split; [|discriminate]. intros m Lm. destruct (fuel_S m 0 Lm) as (k & -> & _). reflexivity.
  - exists 1%nat, true. split; [|discriminate]. intros m Lm. destruct (fuel_S m 0 Lm) as (k & -> & _). reflexivity.
  - exists 1%nat, true. split; [|discriminate]. intros m Lm. destruct (fuel_S m 0 Lm) as (k0 & -> & _). cbn [show]. apply needs_map.
  - exists 1%nat, false. split; [|intros _ w Hw; now inversion Hw]. intros m Lm. destruct (fuel_S m 0 Lm) as (k & -> & _). cbn [show]. now apply (needs_func p rank).
Qed.

(** Element texts. *)
Definition whole (x : bytes) : Prop := Z.of_nat (length x) < 256.
Lemma element_text_is x : whole x -> element_text (91 :: x ++ [93]) = match cut 44 x with Some (e, _) => e | None => x end.
Proof.
  intros L. unfold element_text. cbn [skipn length]. rewrite app_length. cbn [length].
  replace (S (length x + 1) - 2)%nat with (length x) by lia. rewrite firstn_app, firstn_all, Nat.sub_diag. cbn [firstn]. rewrite app_nil_r.
  rewrite firstn_all2; [reflexivity|]. unfold whole in L. unfold MSG_BUF_SIZE. lia.
Qed.
Lemma sizeless_no_comma t : wf t -> sizeless t -> ~ In 44 (show t).
Proof.
  induction t as [n|t IH|t IH|t IH z|k t IH|ps r]; intros W S; cbn [sizeless] in S; try contradiction; inversion W; subst; cbn [show]; rewrite ?in_app_iff; intros I.
  - revert I. apply word_no; [assumption|not_word].
  - destruct I as [[E|[]]|I]; [discriminate|]. now apply IH.
  - destruct I as [[E|[]]|[I|[E|[]]]]; [discriminate| |discriminate]. now apply IH.
  - assert (word k) by assumption. destruct I as [I|[I|[I|[I|I]]]].
    + vm_compute in I. repeat destruct I as [I|I]; try discriminate; contradiction.
    + revert I. apply word_no; [assumption|not_word].
    + destruct I as [E|[]]. discriminate.
    + now apply IH.
    + destruct I as [E|[]]. discriminate.
Qed.
