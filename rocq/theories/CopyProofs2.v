(** Deep copies: the emitted code makes one. *)
From Verif Require Import Base BaseFacts LexModel LexProofs TypesModel TypesSpec TypesProofs4 CopySpec CopyModel CopyProofs.

Definition new_block (a n n' : Z) (b : block) : Prop := fst b = a /\ n <= snd b < n'.
(** [w] is what copying [v] into arena [a] is to give. *)
Definition copied (a : Z) (v : val) (n : Z) (w : val) (n' : Z) : Prop :=
  n <= n' /\ content w = content v /\ Forall (new_block a n n') (owned w).
Definition works (p : program) (t : ty) (c : code) : Prop :=
  forall a v n, holds p t v -> exists w n', run a c v n = Some (w, n') /\ copied a v n w n'.

Lemma new_block_weaken a n n' m m' b : m <= n -> n' <= m' -> new_block a n n' b -> new_block a m m' b.
Proof. unfold new_block. intros ? ? [? ?]. split; [assumption|lia]. Qed.
Lemma new_blocks_weaken a n n' m m' l : m <= n -> n' <= m' -> Forall (new_block a n n') l -> Forall (new_block a m m') l.
Proof. intros ? ?. apply Forall_impl. intros b. now apply new_block_weaken. Qed.

Lemma each_ok {A B} (f : A -> Z -> option (B * Z)) (a : Z) (own : B -> list block) (R : A -> B -> Prop) (l : list A) :
  (forall x n, In x l -> exists y n', f x n = Some (y, n') /\ n <= n' /\ R x y /\ Forall (new_block a n n') (own y)) ->
  forall n, exists l' n', each f l n = Some (l', n') /\ n <= n' /\ Forall2 R l l' /\ Forall (new_block a n n') (flat_map own l').
Proof.
  induction l as [|x l IH]; intros H n.
  - exists [], n. split; [reflexivity|]. split; [lia|]. split; constructor.
  - destruct (H x n (or_introl eq_refl)) as (y & n1 & E1 & L1 & R1 & F1). destruct (IH (fun x n I => H x n (or_intror I)) n1) as (l' & n2 & E2 & L2 & R2 & F2).
    exists (y :: l'), n2. cbn [each]. rewrite E1. cbn [opt_bind fst snd]. rewrite E2. cbn [option_map fst snd]. split; [reflexivity|]. split; [lia|].
    split; [now constructor|]. cbn [flat_map]. apply Forall_app. split; [eapply new_blocks_weaken; [| |exact F1]; lia|eapply new_blocks_weaken; [| |exact F2]; lia].
Qed.
Lemma map_content l l' : Forall2 (fun x y => content y = content x) l l' -> map content l' = map content l.
Proof. induction 1 as [|x y l l' H _ IH]; [reflexivity|]. cbn [map]. congruence. Qed.
Lemma flat_list p e l : flat p e -> Forall (holds p e) l -> flat_map owned l = [].
Proof. intros F. induction 1 as [|x l H _ IH]; [reflexivity|]. cbn [flat_map]. now rewrite (F x H), IH. Qed.
Lemma array_value p t v : holds p t v -> forall e, (t = TArr e \/ exists z, t = TFix e z) -> exists b l, v = VArr b l /\ Forall (holds p e) l.
Proof.
  intros H e T. destruct H; try (destruct T as [T|[z0 T]]; discriminate T).
  - destruct T as [T|[z0 T]]; [|discriminate T]. injection T as ->. eauto.
  - destruct T as [T|[z0 T]]; [discriminate T|]. injection T as -> _. eauto.
Qed.
Lemma map_value p k v x : holds p (TMap k v) x -> exists b l, x = VMap b l /\ Forall (fun x => holds_key k (fst x) /\ holds p v (snd x)) l.
Proof. intros H. inversion H; subst. eauto. Qed.
Lemma works_same p t : flat p t -> works p t Same.
Proof. intros F a v n H. exists v, n. split; [reflexivity|]. split; [lia|]. split; [reflexivity|]. rewrite (F v H). constructor. Qed.
Lemma works_string p : works p (TName (bs "string")) NewString.
Proof.
  intros a v n H. destruct (holds_string _ _ H) as (b & s & ->). exists (VStr (a, n) s), (n + 1). split; [reflexivity|]. split; [lia|]. split; [reflexivity|].
  cbn [owned]. constructor; [split; cbn; lia|constructor].
Qed.
Lemma works_array_copy p t e : (t = TArr e \/ exists z, t = TFix e z) -> flat p e -> works p t ArrayCopy.
Proof.
  intros T F a v n H. destruct (array_value _ _ _ H e T) as (b & l & -> & Hl). exists (VArr (a, n) l), (n + 1). split; [reflexivity|]. split; [lia|].
  split; [reflexivity|]. cbn [owned]. rewrite (flat_list p e l F Hl). constructor; [split; cbn; lia|constructor].
Qed.
Lemma works_each p t e c : (t = TArr e \/ exists z, t = TFix e z) -> works p e c -> works p t (EachElement c).
Proof.
  intros T F a v n H. destruct (array_value _ _ _ H e T) as (b & l & -> & Hl).
  destruct (each_ok (run a c) a owned (fun x y => content y = content x) l) with (n := n + 1) as (l' & n' & E & L & R & Fb).
  { intros x m I. rewrite Forall_forall in Hl. destruct (F a x m (Hl x I)) as (w & m' & E & L & C & Fb). exists w, m'. auto. }
  exists (VArr (a, n) l'), n'. cbn [run]. rewrite E. split; [reflexivity|]. split; [lia|]. split; [cbn [content]; f_equal; now apply map_content|].
  cbn [owned]. constructor; [split; cbn; lia|]. eapply new_blocks_weaken; [| |exact Fb]; lia.
Qed.
Definition own_entry (e : val * val) : list block := owned (fst e) ++ owned (snd e).
Definition same_entry (e f : val * val) : Prop := content (fst f) = content (fst e) /\ content (snd f) = content (snd e).
Lemma map_entries l l' : Forall2 same_entry l l' ->
  map (fun e => (content (fst e), content (snd e))) l' = map (fun e => (content (fst e), content (snd e))) l.
Proof. induction 1 as [|x y l l' [H H'] _ IH]; [reflexivity|]. cbn [map]. congruence. Qed.
Lemma key_kinds k x : holds_key k x -> (k = bs "string" /\ exists b s, x = VStr b s) \/ (k <> bs "string" /\ exists z, x = VBits z).
Proof. intros []; eauto 6. Qed.
Lemma works_map p k v c : (forall a l n, Forall (fun x => holds_key k (fst x) /\ holds p v (snd x)) l ->
    exists l' n', run a c (VMap (0, 0) l) n = Some (VMap (a, n) l', n') /\ n + 1 <= n' /\ Forall2 same_entry l l' /\
      Forall (new_block a (n + 1) n') (flat_map own_entry l')) ->
  (forall a b l n, run a c (VMap b l) n = run a c (VMap (0, 0) l) n) -> works p (TMap k v) c.
Proof.
  intros F B a x n H. destruct (map_value _ _ _ _ H) as (b & l & -> & Hl). destruct (F a l n Hl) as (l' & n' & E & L & R & Fb).
  exists (VMap (a, n) l'), n'. rewrite B, E. split; [reflexivity|]. split; [lia|]. split; [cbn [content]; f_equal; now apply map_entries|].
  cbn [owned]. constructor; [split; cbn; lia|]. eapply new_blocks_weaken; [| |exact Fb]; lia.
Qed.
Lemma works_map_copy p k v : flat p v -> works p (TMap k v) MapCopy.
Proof.
  intros F. apply works_map; [|reflexivity]. intros a l n Hl.
  destruct (each_ok (own_key a) a own_entry same_entry l) with (n := n + 1) as (l' & n' & E & L & R & Fb).
  { intros [x y] m I. rewrite Forall_forall in Hl. destruct (Hl _ I) as [Hk Hv]. cbn [fst snd] in *. pose proof (F _ Hv) as Oy.
    destruct (key_kinds _ _ Hk) as [[_ (b & s & ->)]|[_ (z & ->)]].
    - exists (VStr (a, m) s, y), (m + 1). split; [reflexivity|]. split; [lia|]. split; [now split|]. unfold own_entry. cbn [fst snd owned app]. rewrite Oy.
      constructor; [split; cbn; lia|constructor].
    - exists (VBits z, y), m. split; [reflexivity|]. split; [lia|]. split; [now split|]. unfold own_entry. cbn [fst snd owned app]. rewrite Oy. constructor. }
  exists l', n'. cbn [run]. rewrite E. auto.
Qed.
Lemma works_entries p k v c : works p v c -> works p (TMap k v) (EachEntry (eqs k (bs "string")) c).
Proof.
  intros F. apply works_map; [|reflexivity]. intros a l n Hl. cbn [run].
  match goal with |- context [each ?f l (n + 1)] => destruct (each_ok f a own_entry same_entry l) with (n := n + 1) as (l' & n' & E & L & R & Fb) end.
  { intros [x y] m I. rewrite Forall_forall in Hl. destruct (Hl _ I) as [Hk Hv]. cbn [fst snd] in *. destruct (F a y m Hv) as (w & m' & E & L & C & Fb).
    rewrite E. cbn [opt_bind fst snd]. destruct (key_kinds _ _ Hk) as [[-> (b & s & ->)]|[Nk (z & ->)]].
    - rewrite eqs_refl. cbn [new_string option_map fst snd]. exists (VStr (a, m') s, w), (m' + 1). split; [reflexivity|]. split; [lia|]. split; [now split|].
      unfold own_entry. cbn [fst snd owned app]. constructor; [split; cbn; lia|]. eapply new_blocks_weaken; [| |exact Fb]; lia.
    - rewrite (eqs_no _ _ Nk). exists (VBits z, w), m'. split; [reflexivity|]. split; [lia|]. split; [now split|]. exact Fb. }
  exists l', n'. rewrite E. auto.
Qed.

(** Struct fields. *)
Lemma field_at l1 f v l2 : ~ In f (map fst l1) -> field f (l1 ++ (f, v) :: l2) = Some v.
Proof.
  induction l1 as [|[g x] l1 IH]; intros N; cbn [app field]; [now rewrite eqs_refl|]. rewrite eqs_no; [apply IH; intros I; apply N; now right|].
  intros ->. apply N. now left.
Qed.
Lemma set_field_at l1 f v w l2 : ~ In f (map fst l1) -> set_field f w (l1 ++ (f, v) :: l2) = l1 ++ (f, w) :: l2.
Proof.
  induction l1 as [|[g x] l1 IH]; intros N; cbn [app set_field]; [now rewrite eqs_refl|]. rewrite eqs_no; [rewrite IH; [reflexivity|intros I; apply N; now right]|].
  intros ->. apply N. now left.
Qed.
Definition field_value p (f : bytes * ty) (x : bytes * val) : Prop := fst f = fst x /\ holds p (snd f) (snd x).
Definition own_field (e : bytes * val) : list block := owned (snd e).
Lemma fields_ok p (needs : nat -> bytes -> option bool) (emit : nat -> bytes -> option code) (fs : list (bytes * ty)) :
  (forall f t, In (f, t) fs -> exists N b, (forall m, (N <= m)%nat -> needs m (show t) = Some b) /\ (b = false -> flat p t)) ->
  (forall f t, In (f, t) fs -> exists N c, (forall m, (N <= m)%nat -> emit m (show t) = Some c) /\ works p t c) ->
  exists N cs, (forall m, (N <= m)%nat -> emit_fields (needs m) (emit m) (map (fun f => (fst f, show (snd f))) fs) = Some cs) /\
    forall a l1 l2 done n, Forall2 (field_value p) fs l2 -> map fst done = map fst l1 -> NoDup (map fst (l1 ++ l2)) ->
      exists out n', set_fields (run a) (l1 ++ l2) cs (done ++ l2) n = Some (done ++ out, n') /\ n <= n' /\
        map (fun e => (fst e, content (snd e))) out = map (fun e => (fst e, content (snd e))) l2 /\
        Forall (new_block a n n') (flat_map own_field out).
Proof.
  induction fs as [|[f t] fs IH]; intros Hn He.
  - exists 0%nat, []. split; [reflexivity|]. intros a l1 l2 done n H _ _. inversion H; subst. exists [], n. split; [reflexivity|]. split; [lia|].
    split; [reflexivity|constructor].
  - destruct (Hn f t (or_introl eq_refl)) as (N1 & b & En & Fb). destruct (He f t (or_introl eq_refl)) as (N2 & c & Ee & Wc).
    destruct IH as (N3 & cs & Es & Ws); [intros; eapply Hn; right; eassumption|intros; eapply He; right; eassumption|].
    exists (N1 + N2 + N3)%nat, (if b then (f, c) :: cs else cs). split.
    + intros m L. cbn [map emit_fields fst snd]. rewrite En by lia. destruct b; [|apply Es; lia]. rewrite Ee by lia. cbn [opt_bind]. rewrite Es by lia. reflexivity.
    + intros a l1 l2 done n H D ND. inversion H as [|? [g x] ? l2' [Hf Hx] H2]; subst. cbn [fst snd] in Hf, Hx. subst g.
      assert (Nf : ~ In f (map fst l1)).
      { rewrite map_app in ND. cbn [map fst] in ND. apply NoDup_remove_2 in ND. intros I. apply ND. apply in_or_app. now left. }
      assert (ND' : NoDup (map fst ((l1 ++ [(f, x)]) ++ l2'))) by now rewrite <- app_assoc.
      destruct b.
      * cbn [set_fields]. rewrite field_at by exact Nf. destruct (Wc a x n Hx) as (w & n1 & E1 & L1 & C1 & O1). rewrite E1. cbn [opt_bind fst snd].
        rewrite set_field_at by (rewrite D; exact Nf).
        destruct (Ws a (l1 ++ [(f, x)]) l2' (done ++ [(f, w)]) n1 H2) as (out & n' & E & L & C & O); [rewrite !map_app, D; reflexivity|exact ND'|].
        exists ((f, w) :: out), n'. rewrite <- !app_assoc in E. cbn [app] in E. rewrite E. split; [reflexivity|]. split; [lia|].
        split; [cbn [map fst snd]; congruence|]. cbn [flat_map]. apply Forall_app.
        split; [eapply new_blocks_weaken; [| |exact O1]; lia|eapply new_blocks_weaken; [| |exact O]; lia].
      * destruct (Ws a (l1 ++ [(f, x)]) l2' (done ++ [(f, x)]) n H2) as (out & n' & E & L & C & O); [rewrite !map_app, D; reflexivity|exact ND'|].
        exists ((f, x) :: out), n'. rewrite <- !app_assoc in E. cbn [app] in E. rewrite E. split; [reflexivity|]. split; [lia|].
        split; [cbn [map fst snd]; congruence|]. cbn [flat_map]. unfold own_field at 1. cbn [snd]. rewrite (Fb eq_refl x Hx). exact O.
Qed.

Definition emits (p : program) (vis : list bytes) (tn : bytes) (c : code) (N : nat) : Prop :=
  forall m, (N <= m)%nat -> emit_value_deep_copy (texts p) m vis tn = Some c.
Lemma emit_unneeded p vis tn N : (forall m, (N <= m)%nat -> type_needs_deep_copy (texts p) m [] tn = Some false) -> emits p vis tn Same (S N).
Proof.
  intros H m L. destruct (fuel_S m N L) as (k & -> & Lk). specialize (H (S k)). cbn [emit_value_deep_copy]. rewrite H by lia. reflexivity.
Qed.
(** An array text. *)
Lemma emit_array p vis x N b c : whole x -> x <> [] ->
  (forall m, (N <= m)%nat -> type_needs_deep_copy (texts p) m [] (element_text (91 :: x ++ [93])) = Some b) ->
  (b = true -> emits p vis (element_text (91 :: x ++ [93])) c N) ->
  emits p vis (91 :: x ++ [93]) (if b then EachElement c else ArrayCopy) (S N).
Proof.
  intros Wx Nx Hn He m L. destruct (fuel_S m N L) as (k & -> & Lk). cbn [emit_value_deep_copy]. rewrite needs_open.
  rewrite (eqs_no (91 :: x ++ [93]) (bs "string")) by (cbn; discriminate). change (hd 0 (91 :: x ++ [93]) =? 91) with true. cbv iota.
  replace (Nat.ltb (length (91 :: x ++ [93])) 3) with false by (symmetry; apply Nat.ltb_ge; cbn [length]; rewrite app_length; cbn [length]; destruct x; [now elim Nx|cbn [length]; lia]).
  change (91 :: x ++ [93]) with ((91 :: x) ++ [93]) at 1. rewrite last_last. cbn [orb negb]. change (93 =? 93) with true. cbn [negb]. rewrite Hn by lia.
  destruct b; [|reflexivity]. rewrite (He eq_refl k Lk). reflexivity.
Qed.
Lemma wf_nonempty t : wf t -> show t <> [].
Proof. intros W. destruct W; cbn [show]; try discriminate. now destruct H. Qed.
Lemma cut_head c x y : x <> c -> exists z, (match cut c (x :: y) with Some (e, _) => e | None => x :: y end) = x :: z.
Proof. intros N. cbn [cut]. destruct (Z.eqb_spec x c); [contradiction|]. destruct (cut c y) as [[e r]|]; cbn; eauto. Qed.
Lemma cut_func y : exists z, (match cut 44 (bs "func(" ++ y) with Some (e, _) => e | None => bs "func(" ++ y end) = bs "func(" ++ z.
Proof.
  change (bs "func(" ++ y) with (102 :: 117 :: 110 :: 99 :: 40 :: y). cbn [cut Z.eqb Pos.eqb]. destruct (cut 44 y) as [[e r]|]; cbn; eauto.
Qed.

Section Emit.
  Context (p : program) (rank : bytes -> nat) (F : fine_program p rank).
  Definition room (r : nat) (vis : list bytes) : Prop := Forall (fun m => (r <= rank m)%nat) vis /\ (length vis + r <= 64)%nat.
  Definition emits_well (r : nat) (t : ty) : Prop := forall vis, room r vis -> exists N c, emits p vis (show t) c N /\ works p t c.

  Lemma needs_at r t : wf t -> copyable p t -> (forall m, In m (inside t) -> (rank m < r)%nat) -> (r <= 64)%nat ->
    exists N b, (forall m, (N <= m)%nat -> type_needs_deep_copy (texts p) m [] (show t) = Some b) /\ (b = false -> flat p t).
  Proof. intros W C R L. apply (needs_ok p rank F r t []); [exact W|exact C|exact R|constructor|exact L]. Qed.

  (** Arrays: [tail] is the size and its comma, if any. *)
  Lemma array_well r t e tail vis : (t = TArr e \/ exists z, t = TFix e z) -> show t = 91 :: (show e ++ tail) ++ [93] ->
    (tail = [] \/ exists z, tail = 44 :: z) -> short t -> wf e -> copyable p e -> fine_element p e ->
    (forall m, In m (inside e) -> (rank m < r)%nat) -> room r vis -> emits_well r e -> exists N c, emits p vis (show t) c N /\ works p t c.
  Proof.
    intros T Sh Tl Sht We Ce Fe R V IH.
    assert (Wx : whole (show e ++ tail)) by (unfold short in Sht; rewrite Sh in Sht; cbn [length] in Sht; rewrite app_length in Sht; cbn [length] in Sht; unfold whole; lia).
    assert (Nx : show e ++ tail <> []) by (intros E; apply app_eq_nil in E as [E _]; now apply (wf_nonempty e)).
    rewrite Sh. pose proof (element_text_is _ Wx) as Et.
    assert (Gen : element_text (91 :: (show e ++ tail) ++ [93]) = show e -> exists N c, emits p vis (91 :: (show e ++ tail) ++ [93]) c N /\ works p t c).
    { intros Ee. destruct (needs_at r e We Ce R) as (N1 & b & E1 & Fl); [destruct V; lia|]. destruct (IH vis V) as (N2 & c & E2 & Wc).
      exists (S (N1 + N2)), (if b then EachElement c else ArrayCopy). split.
      - apply emit_array; [exact Wx|exact Nx| |].
        + intros m L. rewrite Ee. apply E1. lia.
        + intros _ m L. rewrite Ee. apply E2. lia.
      - destruct b; [now apply (works_each p t e)|]. apply (works_array_copy p t e T). now apply Fl. }
    assert (Plain : sizeless e -> element_text (91 :: (show e ++ tail) ++ [93]) = show e).
    { intros S. rewrite Et. pose proof (sizeless_no_comma e We S) as Nc. destruct Tl as [->|[z ->]]; [rewrite app_nil_r, cut_none by exact Nc; reflexivity|].
      now rewrite cut_at. }
    destruct e as [n|u|u|u z|k u|ps rt]; try (now apply Gen, Plain).
    - (* pointer *)
      cbn [show app] in Et. destruct (cut_head 44 94 (show u ++ tail)) as (y & Ey); [discriminate|]. rewrite Ey in Et. cbn [show] in *.
      exists 2%nat, ArrayCopy. split; [|apply (works_array_copy p t _ T); intros w Hw; now inversion Hw].
      refine (emit_array p vis ((94 :: show u) ++ tail) 1 false Same Wx Nx _ _); [|discriminate].
      intros m L. destruct (fuel_S m 0 L) as (k & -> & _). cbn [app] in *. rewrite Et. apply needs_caret.
    - (* sized array of things in place *)
      cbn [fine_element] in Fe. destruct u as [n| | | | |]; try contradiction. destruct Fe as (Ns & Ne & Nst & Nen).
      inversion We as [| | |? ? Wn Wz| |]; subst. inversion Wn as [? Wd| | | | |]; subst.
      assert (E1 : element_text (91 :: (show (TFix (TName n) z) ++ tail) ++ [93]) = 91 :: n).
      { rewrite Et. cbn [show app]. rewrite <- !app_assoc. cbn [app]. rewrite app_comm_cons. rewrite cut_at; [reflexivity|]. intros [E|I]; [discriminate|]. revert I. apply word_no; [exact Wd|not_word]. }
      exists 3%nat, (EachElement ArrayCopy). split.
      + refine (emit_array p vis _ 2 true ArrayCopy Wx Nx _ _).
        * intros m L. destruct (fuel_S m 1 L) as (k & -> & _). rewrite E1. reflexivity.
        * intros _ m L. destruct (fuel_S m 1 L) as (k & -> & _). rewrite E1. cbn [emit_value_deep_copy]. rewrite needs_open.
          rewrite (eqs_no (91 :: n) (bs "string")) by (cbn; discriminate). change (hd 0 (91 :: n) =? 91) with true. cbv iota.
          assert (La : last (91 :: n) 0 =? 93 = false).
          { apply Z.eqb_neq. destruct (exists_last (proj1 Wd)) as (y & w & ->). change (91 :: y ++ [w]) with ((91 :: y) ++ [w]). rewrite last_last.
            intros ->. apply (word_no 93 _ Wd); [not_word|]. apply in_or_app. right. now left. }
          rewrite La, orb_true_r. reflexivity.
      + apply (works_each p t _ _ T). apply (works_array_copy p _ (TName n)); [right; now exists z|].
        intros w Hw. destruct (holds_name _ _ _ Hw Ns Ne Nen) as [(fs & l & E0 & _)|[_ [q ->]]]; [congruence|reflexivity].
    - (* function *)
      assert (Sf : exists y, show (TFunc ps rt) ++ tail = bs "func(" ++ y) by (cbn [show]; eexists; rewrite <- app_assoc; reflexivity).
      destruct Sf as (y & Sf). rewrite Sf in Et, Wx, Nx |- *. destruct (cut_func y) as (z & Ez). rewrite Ez in Et. exists 2%nat, ArrayCopy. split; [|apply (works_array_copy p t _ T); intros w Hw; now inversion Hw].
      refine (emit_array p vis _ 1 false Same Wx Nx _ _); [|discriminate]. intros m L. destruct (fuel_S m 0 L) as (k & -> & _). rewrite Et. now apply (needs_func p rank).
  Qed.

  Lemma emit_ok : forall r t, wf t -> short t -> copyable p t -> (forall m, In m (inside t) -> (rank m < r)%nat) -> emits_well r t.
  Proof.
    induction r as [r IHr] using (well_founded_induction lt_wf). induction t as [n|t _|e IH|e IH z|k v IH|ps rt]; intros W Sh C R vis V.
    - inversion W as [? Wn| | | | |]; subst. cbn [show]. destruct C as [Ne En].
      destruct (list_eq_dec Z.eq_dec n (bs "string")) as [->|Ns].
      { exists 1%nat, NewString. split; [|apply works_string]. intros m L. destruct (fuel_S m 0 L) as (k & -> & _). reflexivity. }
      destruct (needs_at r (TName n) W (conj Ne En) R) as (N1 & b & E1 & Fl); [destruct V; lia|]. cbn [show] in E1.
      destruct b; [|exists (S N1), Same; split; [now apply emit_unneeded|now apply works_same, Fl]].
      assert (Rn : (rank n < r)%nat) by (apply R; now left).
      destruct (lookup n (structs p)) as [fs|] eqn:El.
      2:{ exfalso. specialize (E1 (S N1)). rewrite needs_name, find_texts, El in E1 by assumption. cbn in E1. discriminate E1. lia. }
      pose proof (lookup_in _ _ _ El) as I. destruct (F _ _ I) as (_ & _ & _ & ND & Ff). destruct V as [V L].
      assert (X : existsb (fun m => eqs m n) vis = false).
      { destruct (existsb _ vis) eqn:X; [|reflexivity]. apply existsb_exists in X as (m & Im & Em). apply eqs_iff in Em as ->.
        rewrite Forall_forall in V. specialize (V _ Im). lia. }
      destruct (fields_ok p (fun m => type_needs_deep_copy (texts p) m []) (fun m => emit_value_deep_copy (texts p) m (vis ++ [n])) fs) as (N2 & cs & E2 & Ws).
      { intros f t If. destruct (Ff _ _ If) as (Wt & _ & Ct & Rt). apply (needs_at (rank n)); [exact Wt|exact Ct|exact Rt|lia]. }
      { intros f t If. destruct (Ff _ _ If) as (Wt & St & Ct & Rt). apply (IHr (rank n) Rn t Wt St Ct Rt). split.
        - apply Forall_app. split; [|constructor; [lia|constructor]]. eapply Forall_impl; [|exact V]. intros a Ha. cbn beta in *. lia.
        - rewrite app_length. cbn [length]. lia. }
      exists (S (N1 + N2)), (Fields cs). split.
      + intros m Lm. destruct (fuel_S m _ Lm) as (k & -> & Lk). cbn [emit_value_deep_copy]. rewrite E1 by lia. rewrite (eqs_no _ _ Ns).
        assert (H91 : hd 0 n <> 91) by (apply word_hd; [exact Wn|not_word]). rewrite <- Z.eqb_neq in H91. rewrite H91, (word_map n Wn).
        rewrite find_texts, El. cbn [option_map]. rewrite X. unfold CYCLE_GUARD_DEPTH. destruct (Z.leb_spec 64 (Z.of_nat (length vis))) as [B|_]; [lia|].
        rewrite E2 by lia. reflexivity.
      + intros a v m Hv. destruct (holds_name _ _ _ Hv Ns Ne En) as [(fs0 & l & E0 & -> & HF)|[E0 _]]; [|congruence].
        assert (fs0 = fs) by congruence. subst fs0.
        assert (Nl : map fst fs = map fst l) by (clear -HF; induction HF as [|? ? ? ? [Q _] _ IHl]; [reflexivity|]; cbn [map]; congruence).
        destruct (Ws a [] l [] m HF eq_refl) as (out & n' & E & Lo & Co & Oo); [cbn [app]; now rewrite <- Nl|]. cbn [app] in E.
        exists (VRec out), n'. cbn [run]. rewrite E. split; [reflexivity|]. split; [exact Lo|]. split; [cbn [content]; f_equal; exact Co|exact Oo].
    - exists 2%nat, Same. split; [|apply works_same; intros w Hw; now inversion Hw]. apply emit_unneeded. intros m L. destruct (fuel_S m 0 L) as (k & -> & _). apply needs_caret.
    - inversion W; subst. destruct C as [Fe Ce]. apply (array_well r (TArr e) e []); auto.
      + cbn [show app]. now rewrite app_nil_r.
      + apply IH; auto. unfold short in *. cbn [show] in Sh. rewrite !app_length in Sh. lia.
    - inversion W; subst. destruct C as [Fe Ce]. apply (array_well r (TFix e z) e ([44] ++ z)); auto.
      + right. now exists z.
      + cbn [show app]. now rewrite <- !app_assoc.
      + right. now exists z.
      + apply IH; auto. unfold short in *. cbn [show] in Sh. rewrite !app_length in Sh. lia.
    - inversion W as [| | | |? ? Wk Wv|]; subst. destruct C as [Lk Cv].
      assert (Sv : short v) by (unfold short in *; cbn [show] in Sh; rewrite !app_length in Sh; lia).
      destruct (needs_at r v Wv Cv R) as (N1 & b & E1 & Fl); [destruct V; lia|]. destruct (IH Wv Sv Cv R vis V) as (N2 & c & E2 & Wc).
      exists (S (N1 + N2)), (if b then EachEntry (eqs k (bs "string")) c else MapCopy). split; [|destruct b; [now apply works_entries|now apply works_map_copy, Fl]].
      intros m Lm. destruct (fuel_S m _ Lm) as (q & -> & Lq). cbn [show].
      assert (Tn : bs "map[" ++ k ++ [58] ++ show v ++ [93] = (bs "map[" ++ k ++ 58 :: show v) ++ [93]) by (rewrite <- !app_assoc; reflexivity).
      set (tn := bs "map[" ++ k ++ [58] ++ show v ++ [93]) in *.
      assert (Lt : (length tn = 6 + length k + length (show v))%nat) by (unfold tn; rewrite !app_length; change (length (bs "map[")) with 4%nat; cbn [length]; lia).
      assert (Lnk : (0 < length k)%nat) by (destruct k; [now elim (proj1 Wk)|cbn; lia]).
      cbn [emit_value_deep_copy]. unfold tn at 1. rewrite needs_map. fold tn. rewrite (eqs_no tn (bs "string")) by (unfold tn; cbn; discriminate).
      change (hd 0 tn =? 91) with false. cbv iota. unfold tn at 1. rewrite starts_map_yes. fold tn.
      assert (Lv : (0 < length (show v))%nat) by (pose proof (wf_nonempty v Wv); destruct (show v); [congruence|cbn; lia]).
      replace (length tn <? 7)%nat with false by (symmetry; apply Nat.ltb_ge; lia).
      assert (La : last tn 0 = 93) by (rewrite Tn; apply last_last). rewrite La. change (false || negb (93 =? 93)) with false. cbv iota.
      assert (Sk : skipn 4 tn = k ++ 58 :: (show v ++ [93])) by reflexivity. rewrite Sk.
      rewrite cut_at by (apply word_no; [exact Wk|not_word]). cbv zeta.
      assert (Kk : firstn (Z.to_nat (TYPE_NAME_MAX - 1)) k = k) by (apply firstn_all2; unfold TYPE_NAME_MAX; lia). rewrite Kk.
      assert (Vt : firstn (Nat.min (length tn - 4 - length k - 1 - 1) (Z.to_nat (MSG_BUF_SIZE - 1))) (skipn (4 + length k + 1) tn) = show v).
      { replace (length tn - 4 - length k - 1 - 1)%nat with (length (show v)) by lia. unfold short in Sv. unfold MSG_BUF_SIZE. rewrite Nat.min_l by lia.
        replace (4 + length k + 1)%nat with (length (bs "map[" ++ k ++ [58])) by (rewrite !app_length; reflexivity || (rewrite !app_length; change (length (bs "map[")) with 4%nat; cbn [length]; lia)).
        unfold tn. replace (bs "map[" ++ k ++ [58] ++ show v ++ [93]) with ((bs "map[" ++ k ++ [58]) ++ show v ++ [93]) by now rewrite <- !app_assoc.
        rewrite skipn_app, skipn_all, Nat.sub_diag. cbn [skipn app]. rewrite firstn_app, firstn_all, Nat.sub_diag. cbn [firstn]. apply app_nil_r. }
      rewrite Vt, E1 by lia. destruct b; [|reflexivity]. rewrite E2 by lia. reflexivity.
    - exists 2%nat, Same. split; [|apply works_same; intros w Hw; now inversion Hw]. apply emit_unneeded. intros m L. destruct (fuel_S m 0 L) as (k & -> & _). now apply (needs_func p rank).
  Qed.
End Emit.
