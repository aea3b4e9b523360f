(** Assigned values and the blocks they are assigned in. *)
From Verif Require Import Base BaseFacts TypesModel TypesSpec TypesProofs4 CopySpec CopyModel CopyProofs CopyProofs2 EscapeSpec EscapeModel.

(** More fuel changes nothing. *)
Lemma first_yes_mono {A} (f g : A -> option bool) l b : (forall x c, f x = Some c -> g x = Some c) -> first_yes f l = Some b -> first_yes g l = Some b.
Proof.
  intros H. induction l as [|x l IH]; [auto|]. cbn [first_yes]. destruct (f x) as [[]|] eqn:E; [|intros Q|discriminate].
  - intros [= <-]. now rewrite (H _ _ E).
  - rewrite (H _ _ E). now apply IH.
Qed.
Lemma needs_mono ds : forall m vis tn b, type_needs_deep_copy ds m vis tn = Some b -> forall m', (m <= m')%nat -> type_needs_deep_copy ds m' vis tn = Some b.
Proof.
  induction m as [|m IH]; intros vis tn b E m' L; [discriminate|]. destruct m' as [|m']; [lia|]. cbn [type_needs_deep_copy] in *.
  destruct (length tn =? 0)%nat; [exact E|]. destruct (hd 0 tn =? 91); [exact E|]. destruct (starts_map tn); [exact E|]. destruct (eqs tn (bs "string")); [exact E|].
  destruct (hd 0 tn =? 94); [exact E|]. destruct (find_struct_declaration ds tn) as [fs|]; [|exact E]. destruct (existsb _ vis); [exact E|].
  destruct (CYCLE_GUARD_DEPTH <=? Z.of_nat (length vis)); [exact E|]. eapply first_yes_mono; [|exact E]. intros x c H. cbn beta in *. apply (IH _ _ _ H). lia.
Qed.
Lemma fields_mono (n1 n2 : bytes -> option bool) (e1 e2 : bytes -> option code) l r : (forall x c, n1 x = Some c -> n2 x = Some c) ->
  (forall x c, e1 x = Some c -> e2 x = Some c) -> emit_fields n1 e1 l = Some r -> emit_fields n2 e2 l = Some r.
Proof.
  intros Hn He. revert r. induction l as [|[f t] l IH]; intros r; [auto|]. cbn [emit_fields]. destruct (n1 t) as [[]|] eqn:E; [| |discriminate]; rewrite (Hn _ _ E).
  - destruct (e1 t) as [c|] eqn:E1; [|discriminate]. rewrite (He _ _ E1). cbn [opt_bind]. destruct (emit_fields n1 e1 l) as [r'|]; [|discriminate]. rewrite (IH r' eq_refl). auto.
  - apply IH.
Qed.
Lemma emit_mono ds : forall m vis tn c, emit_value_deep_copy ds m vis tn = Some c -> forall m', (m <= m')%nat -> emit_value_deep_copy ds m' vis tn = Some c.
Proof.
  induction m as [|m IH]; intros vis tn c E m' L; [discriminate|]. destruct m' as [|m']; [lia|].
  assert (Ih : forall vis tn c, emit_value_deep_copy ds m vis tn = Some c -> emit_value_deep_copy ds m' vis tn = Some c) by (intros v t k H; apply (IH _ _ _ H); lia).
  assert (Nm : forall tn b, type_needs_deep_copy ds m [] tn = Some b -> type_needs_deep_copy ds m' [] tn = Some b) by (intros t b H; apply (needs_mono _ _ _ _ _ H); lia).
  cbn [emit_value_deep_copy] in *. destruct (type_needs_deep_copy ds (S m) [] tn) as [b|] eqn:E0; [|discriminate].
  rewrite (needs_mono _ _ _ _ _ E0 (S m') L). destruct b; [|exact E]. destruct (eqs tn (bs "string")); [exact E|]. destruct (hd 0 tn =? 91).
  - destruct (_ || _); [exact E|]. destruct (type_needs_deep_copy ds m [] (element_text tn)) as [b|] eqn:E1; [|discriminate]. rewrite (Nm _ _ E1). destruct b; [|exact E].
    destruct (emit_value_deep_copy ds m vis (element_text tn)) as [k|] eqn:E2; [|discriminate]. now rewrite (Ih _ _ _ E2).
  - destruct (starts_map tn).
    + destruct (_ || _); [exact E|]. destruct (cut 58 (skipn 4 tn)) as [[k r]|]; [|exact E]. cbv zeta in *.
      match type of E with match type_needs_deep_copy _ _ _ ?x with _ => _ end = _ => set (vt := x) in * end.
      destruct (type_needs_deep_copy ds m [] vt) as [b|] eqn:E1; [|discriminate]. rewrite (Nm _ _ E1). destruct b; [|exact E].
      destruct (emit_value_deep_copy ds m vis vt) as [q|] eqn:E2; [|discriminate]. now rewrite (Ih _ _ _ E2).
    + destruct (find_struct_declaration ds tn) as [fs|]; [|exact E]. destruct (existsb _ vis); [exact E|]. destruct (CYCLE_GUARD_DEPTH <=? Z.of_nat (length vis)); [exact E|].
      destruct (emit_fields _ _ fs) as [r|] eqn:E1; [|discriminate].
      erewrite fields_mono; [exact E|exact Nm|exact (Ih _)|exact E1].
Qed.

Section Types.
  Context (p : program) (rank : bytes -> nat) (F : fine_program p rank).
  Lemma needs_false_flat t m : fine_type p rank t -> type_needs_deep_copy (texts p) m [] (show t) = Some false -> flat p t.
  Proof.
    intros (W & _ & C & R) E. destruct (needs_ok p rank F 64 t [] W C R) as (N & b & En & Fl); [constructor|cbn; lia|].
    apply Fl. specialize (En (N + m)%nat ltac:(lia)). rewrite (needs_mono _ _ _ _ _ E) in En by lia. congruence.
  Qed.
  Lemma emit_works t m c : fine_type p rank t -> emit_value_deep_copy (texts p) m [] (show t) = Some c -> works p t c.
  Proof.
    intros (W & S & C & R) E. destruct (emit_ok p rank F 64 t W ltac:(unfold short; lia) C R []) as (N & c' & En & Wk); [split; [constructor|cbn; lia]|].
    specialize (En (N + m)%nat ltac:(lia)). rewrite (emit_mono _ _ _ _ _ E) in En by lia. now injection En as ->.
  Qed.
End Types.

(** What a copy is made of: blocks of the original and of the arena. *)
Definition made_of (a : Z) (old new : list block) : Prop := forall b, In b new -> fst b = a \/ In b old.
Lemma made_nil a old : made_of a old []. Proof. intros b []. Qed.
Lemma made_refl a old : made_of a old old. Proof. intros b H. now right. Qed.
Lemma made_cons a x old new : fst x = a -> made_of a old new -> made_of a old (x :: new).
Proof. intros E H b [<-|I]; [now left|now apply H]. Qed.
Lemma made_app a old x y : made_of a old x -> made_of a old y -> made_of a old (x ++ y).
Proof. intros H1 H2 b I. apply in_app_or in I as [I|I]; auto. Qed.
Lemma made_more a old old' new : (forall b, In b old -> In b old') -> made_of a old new -> made_of a old' new.
Proof. intros H M b I. destruct (M b I); auto. Qed.
Lemma each_made {A B} (f : A -> Z -> option (B * Z)) a (o1 : A -> list block) (o2 : B -> list block) :
  (forall x n y n', f x n = Some (y, n') -> made_of a (o1 x) (o2 y)) -> forall l n l' n', each f l n = Some (l', n') -> made_of a (flat_map o1 l) (flat_map o2 l').
Proof.
  intros H. induction l as [|x l IH]; intros n l' n' E; cbn [each] in E; [injection E as <- _; apply made_nil|].
  destruct (f x n) as [[y m]|] eqn:E1; [|discriminate]. cbn [opt_bind fst snd] in E. destruct (each f l m) as [[r q]|] eqn:E2; [|discriminate]. injection E as <- _.
  cbn [flat_map]. apply made_app; [eapply made_more; [|exact (H _ _ _ _ E1)]|eapply made_more; [|exact (IH _ _ _ E2)]]; intros b I; apply in_or_app; auto.
Qed.
Lemma set_field_made a old f w l : made_of a old (owned w) -> made_of a old (flat_map own_field l) -> made_of a old (flat_map own_field (set_field f w l)).
Proof.
  intros Hw. induction l as [|[g v] l IH]; intros H; [exact H|]. cbn [set_field]. assert (made_of a old (flat_map own_field l)) by (intros b I; apply H; cbn [flat_map]; apply in_or_app; auto).
  destruct (eqs g f); cbn [flat_map]; apply made_app; auto. intros b I. apply H. cbn [flat_map]. apply in_or_app. auto.
Qed.
Lemma field_owned f l v : field f l = Some v -> forall b, In b (owned v) -> In b (flat_map own_field l).
Proof.
  induction l as [|[g x] l IH]; [discriminate|]. cbn [field flat_map]. destruct (eqs g f); [intros [= ->] b I; apply in_or_app; now left|]. intros E b I. apply in_or_app. right. now apply IH.
Qed.
Fixpoint code_size (c : code) : nat :=
  match c with
  | Same | NewString | ArrayCopy | MapCopy => 1
  | EachElement c | EachEntry _ c => S (code_size c)
  | Fields l => S (fold_right (fun x n => code_size (snd x) + n)%nat 0%nat l)
  end.
Lemma run_made a : forall k c, (code_size c <= k)%nat -> forall v n w n', run a c v n = Some (w, n') -> made_of a (owned v) (owned w).
Proof.
  induction k as [|k IH]; intros c Lc; [destruct c; cbn in Lc; lia|]. intros v n w n' E. destruct c as [| | |c| |sk c|l]; cbn [run code_size] in *.
  - injection E as <- _. apply made_refl.
  - destruct v; try discriminate. injection E as <- _. cbn [owned]. apply made_cons; [reflexivity|apply made_nil].
  - destruct v as [| | |b l| | | |]; try discriminate. injection E as <- _. cbn [owned]. apply made_cons; [reflexivity|]. intros x I. right. now right.
  - destruct v as [| | |b l| | | |]; try discriminate. destruct (each (run a c) l (n + 1)) as [[l' m]|] eqn:E1; [|discriminate]. injection E as <- _.
    cbn [owned]. apply made_cons; [reflexivity|]. eapply made_more; [|eapply (each_made _ a owned owned); [|exact E1]]; [intros x I; now right|].
    intros x q y q' H. apply (IH c ltac:(lia) x q y q' H).
  - destruct v as [| | | |b l| | |]; try discriminate. destruct (each (own_key a) l (n + 1)) as [[l' m]|] eqn:E1; [|discriminate]. injection E as <- _.
    cbn [owned]. apply made_cons; [reflexivity|]. eapply made_more; [|eapply (each_made _ a own_entry own_entry); [|exact E1]]; [intros x I; now right|].
    intros [x y] q [x' y'] q' H. unfold own_key in H. cbn [fst snd] in H. destruct x; injection H as <- <- _; try apply made_refl. unfold own_entry. cbn [fst snd owned app].
    apply made_cons; [reflexivity|]. intros z I. right. now right.
  - destruct v as [| | | |b l| | |]; try discriminate. match type of E with option_map _ (each ?f l _) = _ => destruct (each f l (n + 1)) as [[l' m]|] eqn:E1; [|discriminate] end. injection E as <- _.
    cbn [owned]. apply made_cons; [reflexivity|]. eapply made_more; [|eapply (each_made _ a own_entry own_entry); [|exact E1]]; [intros x I; now right|].
    intros [x y] q [x' y'] q' H. cbn [fst snd] in H. destruct (run a c y q) as [[y1 q1]|] eqn:E2; [|discriminate]. cbn [opt_bind fst snd] in H.
    pose proof (IH c ltac:(lia) _ _ _ _ E2) as My. unfold own_entry. cbn [fst snd]. destruct sk.
    + destruct x; try discriminate. cbn [new_string option_map fst snd] in H. injection H as <- <- _. cbn [owned app]. apply made_cons; [reflexivity|]. eapply made_more; [|exact My]. intros z I. now right.
    + injection H as <- <- _. apply made_app; [intros z I; right; apply in_or_app; now left|]. eapply made_more; [|exact My]. intros z I. apply in_or_app. now right.
  - destruct v as [| | | | |s| |]; try discriminate. destruct (set_fields (run a) s l s n) as [[d m]|] eqn:E1; [|discriminate]. injection E as <- _. cbn [owned]. change (fun e : bytes * val => owned (snd e)) with own_field.
    assert (G : forall l d n d' m, (fold_right (fun x n => code_size (snd x) + n)%nat 0%nat l <= k)%nat -> set_fields (run a) s l d n = Some (d', m) ->
      made_of a (flat_map own_field s) (flat_map own_field d) -> made_of a (flat_map own_field s) (flat_map own_field d')).
    { clear -IH. induction l as [|[f c] l IHl]; intros d n d' m L E M; cbn [set_fields] in E; [now injection E as <- _|]. cbn [fold_right snd] in L. destruct (field f s) as [v|] eqn:Ef; [|discriminate].
      destruct (run a c v n) as [[w q]|] eqn:Er; [|discriminate]. cbn [opt_bind fst snd] in E. apply (IHl _ _ _ _ ltac:(lia) E). apply set_field_made; [|exact M].
      eapply made_more; [|exact (IH c ltac:(lia) _ _ _ _ Er)]. exact (field_owned _ _ _ Ef). }
    apply (G l s n d m ltac:(lia) E1). apply made_refl.
Qed.
(** A copy reads as the original. *)
Lemma each_content {A B} (f : A -> Z -> option (B * Z)) {C} (c1 : A -> C) (c2 : B -> C) :
  (forall x n y n', f x n = Some (y, n') -> c2 y = c1 x) -> forall l n l' n', each f l n = Some (l', n') -> map c2 l' = map c1 l.
Proof.
  intros H. induction l as [|x l IH]; intros n l' n' E; cbn [each] in E; [now injection E as <- _|].
  destruct (f x n) as [[y m]|] eqn:E1; [|discriminate]. cbn [opt_bind fst snd] in E. destruct (each f l m) as [[r q]|] eqn:E2; [|discriminate]. injection E as <- _.
  cbn [map]. now rewrite (H _ _ _ _ E1), (IH _ _ _ E2).
Qed.
Definition read_field (e : bytes * val) : bytes * val := (fst e, content (snd e)).
Definition read_entry (e : val * val) : val * val := (content (fst e), content (snd e)).
Lemma field_read f l v : field f l = Some v -> field f (map read_field l) = Some (content v).
Proof. induction l as [|[g x] l IH]; [discriminate|]. cbn [field map read_field fst snd]. destruct (eqs g f); [now intros [= ->]|exact IH]. Qed.
Lemma set_field_read f w l : field f (map read_field l) = Some (content w) -> map read_field (set_field f w l) = map read_field l.
Proof.
  induction l as [|[g x] l IH]; [discriminate|]. cbn [field map read_field set_field fst snd]. destruct (eqs g f); cbn [map read_field fst snd]; [intros [= E]; unfold read_field at 1 3; cbn [fst snd]; now rewrite E|]. intros E. now rewrite (IH E).
Qed.
Lemma run_content a : forall k c, (code_size c <= k)%nat -> forall v n w n', run a c v n = Some (w, n') -> content w = content v.
Proof.
  induction k as [|k IH]; intros c Lc; [destruct c; cbn in Lc; lia|]. intros v n w n' E. destruct c as [| | |c| |sk c|l]; cbn [run code_size] in *.
  - now injection E as <- _.
  - destruct v; try discriminate. now injection E as <- _.
  - destruct v as [| | |b l| | | |]; try discriminate. now injection E as <- _.
  - destruct v as [| | |b l| | | |]; try discriminate. destruct (each (run a c) l (n + 1)) as [[l' m]|] eqn:E1; [|discriminate]. injection E as <- _.
    cbn [content fst]. f_equal. eapply each_content; [|exact E1]. intros x q y q' H. exact (IH c ltac:(lia) x q y q' H).
  - destruct v as [| | | |b l| | |]; try discriminate. destruct (each (own_key a) l (n + 1)) as [[l' m]|] eqn:E1; [|discriminate]. injection E as <- _.
    cbn [content fst]. f_equal. eapply (each_content _ read_entry read_entry); [|exact E1].
    intros [x y] q [x' y'] q' H. unfold own_key in H. cbn [fst snd] in H. destruct x; injection H as <- <- _; reflexivity.
  - destruct v as [| | | |b l| | |]; try discriminate. match type of E with option_map _ (each ?f l _) = _ => destruct (each f l (n + 1)) as [[l' m]|] eqn:E1; [|discriminate] end. injection E as <- _.
    cbn [content fst]. f_equal. eapply (each_content _ read_entry read_entry); [|exact E1].
    intros [x y] q [x' y'] q' H. cbn [fst snd] in H. destruct (run a c y q) as [[y1 q1]|] eqn:E2; [|discriminate]. cbn [opt_bind fst snd] in H.
    pose proof (IH c ltac:(lia) _ _ _ _ E2) as My. unfold read_entry. cbn [fst snd]. destruct sk.
    + destruct x; try discriminate. cbn [new_string option_map fst snd] in H. injection H as <- <- _. cbn [content]. now rewrite My.
    + injection H as <- <- _. now rewrite My.
  - destruct v as [| | | | |s| |]; try discriminate. destruct (set_fields (run a) s l s n) as [[d m]|] eqn:E1; [|discriminate]. injection E as <- _. cbn [content fst]. f_equal.
    assert (G : forall l d n d' m, (fold_right (fun x n => code_size (snd x) + n)%nat 0%nat l <= k)%nat -> set_fields (run a) s l d n = Some (d', m) ->
      map read_field d = map read_field s -> map read_field d' = map read_field s).
    { clear -IH. induction l as [|[f c] l IHl]; intros d n d' m L E M; cbn [set_fields] in E; [now injection E as <- _|]. cbn [fold_right snd] in L. destruct (field f s) as [v|] eqn:Ef; [|discriminate].
      destruct (run a c v n) as [[w q]|] eqn:Er; [|discriminate]. cbn [opt_bind fst snd] in E. apply (IHl _ _ _ _ ltac:(lia) E). rewrite set_field_read; [exact M|].
      rewrite M, (IH c ltac:(lia) _ _ _ _ Er). exact (field_read _ _ _ Ef). }
    exact (G l s n d m ltac:(lia) E1 eq_refl).
Qed.
(** A value that lies in place stays what it is. *)
Lemma run_in_place a c v n w n' : (exists z, v = VBits z) \/ (exists z, v = VPtr z) -> run a c v n = Some (w, n') -> owned w = [].
Proof. intros [[z ->]|[z ->]] E; destruct c; cbn in E; try discriminate; now injection E as <- _. Qed.
Lemma run_new_string a v n w n' : run a NewString v n = Some (w, n') -> forall b, In b (owned w) -> fst b = a.
Proof. intros E. destruct v; try discriminate. injection E as <- _. intros x [<-|[]]. reflexivity. Qed.
Lemma run_works p t a c v n w n' : works p t c -> holds p t v -> run a c v n = Some (w, n') -> forall b, In b (owned w) -> fst b = a.
Proof.
  intros Wk H E b I. destruct (Wk a v n H) as (w' & m & E' & _ & _ & Fb). rewrite E in E'. injection E' as <- _. rewrite Forall_forall in Fb. now destruct (Fb b I).
Qed.

Section Plans.
  Context (p : program) (rank : bytes -> nat) (F : fine_program p rank).
  Lemma stored_out t m pl a cur v n w n' : fine_type p rank t -> stored (texts p) m (show t) = Some pl -> holds p t v ->
    run (if outward pl then a else cur) (copying pl) v n = Some (w, n') -> forall b, In b (owned w) -> fst b = a.
  Proof.
    intros Ft E H R. unfold stored in E. destruct (eqs (show t) (bs "string")); [injection E as <-; exact (run_new_string _ _ _ _ _ R)|].
    destruct (type_needs_deep_copy (texts p) m [] (show t)) as [[]|] eqn:En; [| |discriminate].
    - destruct (emit_value_deep_copy (texts p) m [] (show t)) as [c|] eqn:Ec; [|discriminate]. injection E as <-. apply (run_works p t a c v n w n' (emit_works p rank F t m c Ft Ec) H R).
    - injection E as <-. cbn [as_it_is copying run] in R. injection R as <- _. rewrite (needs_false_flat p rank F t m Ft En v H). intros b [].
  Qed.
  Lemma key_out ds k m pl a cur v n w n' : stored ds m k = Some pl -> holds_key k v ->
    run (if outward pl then a else cur) (copying pl) v n = Some (w, n') -> forall b, In b (owned w) -> fst b = a.
  Proof.
    intros E H R. destruct (key_kinds _ _ H) as [[-> _]|[Nk [z ->]]].
    - unfold stored in E. rewrite eqs_refl in E. injection E as <-. exact (run_new_string _ _ _ _ _ R).
    - rewrite (run_in_place _ _ _ _ _ _ (or_introl (ex_intro _ z eq_refl)) R). intros b [].
  Qed.
  Lemma in_place_value t v : lies_in_place p t -> holds p t v -> (exists z, v = VBits z) \/ (exists z, v = VPtr z).
  Proof.
    intros L H. destruct t as [n|u| | | |ps r]; try contradiction.
    - destruct L as (Ns & Ne & Nst & Nen). destruct (holds_name _ _ _ H Ns Ne Nen) as [(fs & l & E & _)|[_ [z ->]]]; [congruence|eauto].
    - inversion H; subst. eauto.
    - inversion H; subst. eauto.
  Qed.
  Lemma bracket_text t m c : fine_type p rank t -> array_type t ->
    emit_value_deep_copy (texts p) m [] (firstn (Z.to_nat (MSG_BUF_SIZE - 1)) (bracket (descriptor p t))) = Some c -> works p t c.
  Proof.
    intros (W & S & C & R) At E. destruct t as [n|u|e|e z|k v|ps r]; try contradiction.
    - assert (X : bracket (descriptor p (TArr e)) = show (TArr e)) by reflexivity. rewrite X in E. rewrite firstn_all2 in E by (unfold MSG_BUF_SIZE; lia).
      apply (emit_works p rank F _ m c); [exact (conj W (conj S (conj C R)))|exact E].
    - assert (X : bracket (descriptor p (TFix e z)) = show (TArr e)) by reflexivity. rewrite X in E. cbn [show] in S, E. rewrite !app_length in S. cbn [length] in S.
      rewrite firstn_all2 in E by (rewrite !app_length; cbn [length]; unfold MSG_BUF_SIZE; lia).
      inversion W; subst. assert (Wk : works p (TArr e) c).
      { apply (emit_works p rank F _ m c); [|exact E]. split; [now constructor|]. split; [cbn [show]; rewrite !app_length; cbn [length]; lia|]. split; [exact C|exact R]. }
      intros a v n H. apply Wk. inversion H; subst. now constructor.
  Qed.
  (** In a block, what [escapes] allows goes to the outer arena. *)
  Lemma plan_out tg t m kp vp o cur kt kv v n n1 kw w n2 : fine_type p rank t -> escapes p tg t ->
    assign_plan (texts p) m true tg (descriptor p t) (show t) = Some (kp, vp) -> (forall k g, tg = Entry k g -> kt = k) -> holds_key kt kv -> holds p t v ->
    run (if outward kp then o else cur) (copying kp) kv n = Some (kw, n1) -> run (if outward vp then o else cur) (copying vp) v n1 = Some (w, n2) ->
    (forall b, In b (owned w) -> fst b = o) /\ (forall k g, tg = Entry k g -> forall b, In b (owned kw) -> fst b = o).
  Proof.
    intros Ft Es Ep Ek Hk Hv Rk Rv. split.
    2:{ intros k g ->. cbn [assign_plan] in Ep. destruct (stored (texts p) m k) as [kp'|] eqn:E1; [|discriminate]. cbn [opt_bind] in Ep.
        destruct (stored (texts p) m (show t)) as [vp'|]; [|discriminate]. injection Ep as -> _. rewrite (Ek k g eq_refl) in Hk. exact (key_out _ _ _ _ _ _ _ _ _ _ E1 Hk Rk). }
    destruct Es as [Lp|Es]; [rewrite (run_in_place _ _ _ _ _ _ (in_place_value t v Lp Hv) Rv); intros b []|].
    destruct tg as [|f|i|k g|g| |f]; try contradiction; cbn [assign_plan] in Ep.
    - destruct (plain_assign (texts p) m true true (descriptor p t)) as [vp'|] eqn:E1; [|discriminate]. injection Ep as _ ->. destruct t as [n0| | | | |]; try contradiction.
      unfold plain_assign, descriptor in E1. destruct (eqs n0 (bs "string")) eqn:Es0; [cbn in E1; injection E1 as <-; exact (run_new_string _ _ _ _ _ Rv)|].
      pose proof (fun E => stored_out (TName n0) m vp o cur v n1 w n2 Ft E Hv Rv) as St. cbn [show] in St.
      destruct (lookup n0 (structs p)); cbn [kind plain name andb] in E1; [|now apply St].
      destruct (type_needs_deep_copy (texts p) m [] n0) as [[]|]; [|now apply St|discriminate]. destruct (emit_value_deep_copy (texts p) m [] n0) as [c|] eqn:Ec; [|discriminate].
      injection E1 as <-. exact (run_works p (TName n0) o c v n1 w n2 (emit_works p rank F (TName n0) m c Ft Ec) Hv Rv).
    - destruct (plain_assign (texts p) m true false (descriptor p t)) as [vp'|] eqn:E1; [|discriminate]. injection Ep as _ ->. destruct t as [n0| | | | |]; try contradiction. cbn [struct_named] in Es.
      unfold plain_assign, descriptor in E1. rewrite (eqs_no _ _ Es) in E1. destruct (lookup n0 (structs p)) as [fs|] eqn:El; cbn [kind plain name andb] in E1.
      + destruct (type_needs_deep_copy (texts p) m [] n0) as [[]|] eqn:En; [| |discriminate].
        * destruct (emit_value_deep_copy (texts p) m [] n0) as [c|] eqn:Ec; [|discriminate]. injection E1 as <-. exact (run_works p (TName n0) o c v n1 w n2 (emit_works p rank F (TName n0) m c Ft Ec) Hv Rv).
        * injection E1 as <-. cbn [as_it_is copying run] in Rv. injection Rv as <- _. rewrite (needs_false_flat p rank F (TName n0) m Ft En v Hv). intros b [].
      + destruct Ft as (_ & _ & [Ne Nen] & _). destruct (holds_name _ _ _ Hv Es Ne Nen) as [(fs & l & E & _)|[_ [z ->]]]; [congruence|].
        rewrite (run_in_place _ _ _ _ _ _ (or_introl (ex_intro _ z eq_refl)) Rv). intros b [].
    - destruct (stored (texts p) m k) as [kp'|]; [|discriminate]. cbn [opt_bind] in Ep. destruct (stored (texts p) m (show t)) as [vp'|] eqn:E1; [|discriminate]. injection Ep as _ ->.
      exact (stored_out t m vp o cur v n1 w n2 Ft E1 Hv Rv).
    - destruct (stored (texts p) m (show t)) as [vp'|] eqn:E1; [|discriminate]. injection Ep as _ ->. exact (stored_out t m vp o cur v n1 w n2 Ft E1 Hv Rv).
    - destruct Es as [->|At].
      + unfold descriptor in Ep. rewrite eqs_refl in Ep. cbn in Ep. injection Ep as _ <-. exact (run_new_string _ _ _ _ _ Rv).
      + assert (K : kind (descriptor p t) = KArray) by (destruct t; try contradiction; reflexivity). rewrite K in Ep.
        destruct (emit_value_deep_copy (texts p) m [] (firstn (Z.to_nat (MSG_BUF_SIZE - 1)) (bracket (descriptor p t)))) as [c|] eqn:Ec; [|discriminate]. injection Ep as _ <-.
        exact (run_works p t o c v n1 w n2 (bracket_text t m c Ft At Ec) Hv Rv).
  Qed.
End Plans.

(** A frame made of the arenas [L]. *)
Definition frame_in (L : Z -> Prop) (fr : frame) : Prop := forall x v b, In (x, v) fr -> In b (owned v) -> L (fst b).
Record ok (L : Z -> Prop) (Ss : list (Z -> Prop)) (here : list Z) (s : state) (fr : frame) (st : store) : Prop := Okay {
  ok_vars : vars s = fr :: st;
  ok_frame : frame_in L fr;
  ok_frames : Forall2 frame_in Ss st;
  ok_live : forall a, L a -> ~ In a (freed s) /\ a < next_arena s;
  ok_freed : forall a, In a (freed s) -> a < next_arena s;
  ok_here : forall x, In x here -> In x (map fst fr) }.
Definition nested (cur : Z) (outer : option Z) (deep : bool) (L : Z -> Prop) (Ss : list (Z -> Prop)) : Prop :=
  L cur /\ Forall (fun S : Z -> Prop => forall a, S a -> L a) Ss /\
  match outer with
  | Some o => deep = true /\ L o /\ Forall (fun S : Z -> Prop => S o) Ss
  | None => deep = false /\ Ss = []
  end.
Lemma ok_in L Ss here s fr st : ok L Ss here s fr st -> Forall (fun S : Z -> Prop => forall a, S a -> L a) Ss -> forall b, in_store (vars s) b -> L (fst b).
Proof.
  intros [V Fr Fs Lv Fd Hr] Sub b (f & x & v & If & Iv & Ib). rewrite V in If. destruct If as [<-|If]; [exact (Fr _ _ _ Iv Ib)|].
  clear -Fs Sub If Iv Ib. induction Fs as [|S g Ss st Hg Fs IH]; [destruct If|]. inversion Sub; subst. destruct If as [->|If]; [apply H1; exact (Hg _ _ _ Iv Ib)|auto].
Qed.
Lemma ok_alive L Ss here s fr st : ok L Ss here s fr st -> Forall (fun S : Z -> Prop => forall a, S a -> L a) Ss -> alive (vars s) (freed s).
Proof. intros O Sub b I. apply (ok_live _ _ _ _ _ _ O). exact (ok_in _ _ _ _ _ _ O Sub b I). Qed.
Lemma ok_usable L Ss here s fr st cur v : ok L Ss here s fr st -> Forall (fun S : Z -> Prop => forall a, S a -> L a) Ss -> L cur -> usable cur (vars s) v ->
  forall b, In b (owned v) -> L (fst b).
Proof. intros O Sub Lc U b I. destruct (U b I) as [->|H]; [exact Lc|exact (ok_in _ _ _ _ _ _ O Sub b H)]. Qed.

(** The value after an assignment. *)
Lemma set_entry_owned k w same : forall l b, In b (flat_map own_entry (set_entry k w l same)) -> In b (flat_map own_entry l) \/ In b (owned w) \/ In b (owned k).
Proof.
  induction l as [|[k' v] l IH]; intros b; cbn [set_entry flat_map]; [unfold own_entry; cbn [fst snd]; rewrite app_nil_r; intros H; apply in_app_or in H; tauto|].
  destruct (same k k'); cbn [flat_map]; unfold own_entry at 1 3; cbn [fst snd]; rewrite !in_app_iff.
  - tauto.
  - intros [H|H]; [tauto|]. destruct (IH b H); tauto.
Qed.
Lemma set_elem_owned w : forall l i b, In b (flat_map owned (set_elem i w l)) -> In b (flat_map owned l) \/ In b (owned w).
Proof.
  induction l as [|x l IH]; intros i b; [destruct i; cbn; tauto|]. destruct i; cbn [set_elem flat_map]; rewrite !in_app_iff; [tauto|]. intros [H|H]; [tauto|]. destruct (IH i b H); tauto.
Qed.
Lemma set_field_owned f w : forall l b, In b (flat_map own_field (set_field f w l)) -> In b (flat_map own_field l) \/ In b (owned w).
Proof.
  induction l as [|[g v] l IH]; intros b; [cbn; tauto|]. cbn [set_field]. destruct (eqs g f); cbn [flat_map]; rewrite !in_app_iff; [change (own_field (g, w)) with (owned w); tauto|].
  intros [H|H]; [left; left; exact H|]. destruct (IH b H); tauto.
Qed.
Lemma set_field_split f w : forall l, existsb (fun e => eqs (fst e) f) l = true ->
  exists l1 u l2, ~ In f (map fst l1) /\ l = l1 ++ (f, u) :: l2 /\ set_field f w l = l1 ++ (f, w) :: l2.
Proof.
  induction l as [|[g v] l IH]; [discriminate|]. cbn [existsb fst set_field]. destruct (eqs g f) eqn:E.
  - intros _. apply eqs_iff in E as ->. exists [], v, l. repeat split. intros [].
  - cbn [orb]. intros H. destruct (IH H) as (l1 & u & l2 & N & -> & ->). exists ((g, v) :: l1), u, l2. split; [|now split]. cbn [map fst]. intros [->|I]; [rewrite eqs_refl in E; discriminate|now apply N].
Qed.
Lemma set_elem_split w : forall l i, (i < length l)%nat -> exists l1 u l2, length l1 = i /\ l = l1 ++ u :: l2 /\ set_elem i w l = l1 ++ w :: l2.
Proof.
  induction l as [|x l IH]; intros i L; [cbn in L; lia|]. destruct i as [|i]; [exists [], x, l; repeat split|]. cbn [length] in L. destruct (IH i ltac:(lia)) as (l1 & u & l2 & <- & -> & E).
  exists (x :: l1), u, l2. cbn [set_elem]. rewrite E. repeat split.
Qed.
Lemma same_key_iff k a b : holds_key k a -> holds_key k b -> same_key a b = true <-> content a = content b.
Proof.
  intros Ha Hb. destruct (key_kinds _ _ Ha) as [[-> (c & s & ->)]|[Na [z ->]]], (key_kinds _ _ Hb) as [[Eb (d & t & ->)]|[Nb [y ->]]]; try congruence; cbn [same_key content].
  - rewrite eqs_iff. split; [now intros ->|congruence].
  - rewrite Z.eqb_eq. split; [now intros ->|congruence].
Qed.
Lemma set_entry_split kt k w : holds_key kt k -> forall l, Forall (fun e => holds_key kt (fst e)) l ->
  (exists l1 k' u l2, content k' = content k /\ ~ In (content k) (map fst (map read_entry l1)) /\ l = l1 ++ (k', u) :: l2 /\ set_entry k w l same_key = l1 ++ (k', w) :: l2) \/
  (~ In (content k) (map fst (map read_entry l)) /\ set_entry k w l same_key = l ++ [(k, w)]).
Proof.
  intros Hk. induction 1 as [|[k' v] l H F IH]; [right; split; [intros []|reflexivity]|]. cbn [fst] in H. cbn [set_entry]. pose proof (same_key_iff _ _ _ Hk H) as Q. destruct (same_key k k').
  - left. exists [], k', v, l. split; [symmetry; now apply Q|]. split; [intros []|]. now split.
  - assert (N : content k' <> content k) by (intros E; symmetry in E; apply Q in E; discriminate).
    destruct IH as [(l1 & k2 & u & l2 & E1 & E2 & -> & ->)|[E1 ->]].
    + left. exists ((k', v) :: l1), k2, u, l2. split; [exact E1|]. split; [|now split]. cbn [map read_entry fst]. intros [E|I]; [now apply N|now apply E2].
    + right. split; [|reflexivity]. cbn [map read_entry fst]. intros [E|I]; [now apply N|now apply E1].
Qed.
Lemma updated_stored tg kt kw w nb old new k v : holds_key kt kw -> content kw = k -> content w = v -> (forall b l, old = VMap b l -> Forall (fun e => holds_key kt (fst e)) l) ->
  updated tg kw w nb old = Some new -> stored_in tg k v (content old) (content new).
Proof.
  intros Hk <- <- Ko E.
  assert (Fld : forall f l, existsb (fun e => eqs (fst e) f) l = true -> stored_in (Field f) (content kw) (content w) (content (VRec l)) (content (VRec (set_field f w l)))).
  { intros f l H. destruct (set_field_split f w l H) as (l1 & u & l2 & N & -> & ->). exists (map read_field l1), (content u), (map read_field l2). cbn [content]. change (fun e : bytes * val => (fst e, content (snd e))) with read_field.
    rewrite !map_app. split; [|now split]. rewrite map_map. exact N. }
  destruct tg as [|f|i|k0 g|g| |f]; cbn [updated] in E.
  - now injection E as <-.
  - destruct old; try discriminate. destruct (existsb _ _) eqn:H; [|discriminate]. injection E as <-. exact (Fld f _ H).
  - destruct old as [| | |b0 l| | | |]; try discriminate. destruct (Nat.ltb_spec i (length l)) as [L|]; [|discriminate]. injection E as <-. destruct (set_elem_split w l i L) as (l1 & u & l2 & <- & -> & ->).
    exists (0, 0), (map content l1), (content u), (map content l2). cbn [content]. rewrite !map_app, map_length. now repeat split.
  - destruct old as [| | | |b0 l| | |]; try discriminate. injection E as <-. exists (0, 0), (map read_entry l). split; [reflexivity|]. cbn [content]. change (fun e : val * val => (content (fst e), content (snd e))) with read_entry.
    destruct (set_entry_split kt kw w Hk l (Ko _ _ eq_refl)) as [(l1 & k' & u & l2 & E1 & N & -> & ->)|[N ->]].
    + left. exists (map read_entry l1), (content u), (map read_entry l2). split; [exact N|]. rewrite !map_app. cbn [map]. assert (X : forall y, read_entry (k', y) = (content kw, content y)) by (intros y; unfold read_entry; cbn [fst snd]; now rewrite E1). rewrite !X. now split.
    + right. split; [exact N|]. now rewrite map_app.
  - destruct old as [| | |b0 l| | | |]; try discriminate. injection E as <-. exists (0, 0), (map content l). cbn [content]. now rewrite map_app.
  - now injection E as <-.
  - destruct old; try discriminate. destruct (existsb _ _) eqn:H; [|discriminate]. injection E as <-. exact (Fld f _ H).
Qed.
Lemma run_key kt a c v n w n' : holds_key kt v -> run a c v n = Some (w, n') -> holds_key kt w.
Proof.
  intros H E. destruct (key_kinds _ _ H) as [[-> (b & s & ->)]|[Nk [z ->]]]; destruct c; cbn in E; try discriminate; injection E as <- _; constructor; auto.
Qed.
Lemma updated_owned tg kw w nb old new : updated tg kw w nb old = Some new -> forall b, In b (owned new) ->
  In b (owned old) \/ In b (owned w) \/ b = nb \/ (In b (owned kw) /\ exists k g, tg = Entry k g).
Proof.
  intros E b I. destruct tg as [|f|i|k g|g| |f]; cbn [updated] in E.
  - injection E as <-. tauto.
  - destruct old; try discriminate. destruct (existsb _ _); [|discriminate]. injection E as <-. cbn [owned] in *. change (fun e : bytes * val => owned (snd e)) with own_field in *. destruct (set_field_owned _ _ _ _ I); tauto.
  - destruct old; try discriminate. destruct (Nat.ltb _ _); [|discriminate]. injection E as <-. cbn [owned] in *. destruct I as [I|I]; [left; left; exact I|]. destruct (set_elem_owned _ _ _ _ I); [left; right; assumption|tauto].
  - destruct old as [| | | |b0 l| | |]; try discriminate. injection E as <-. cbn [owned] in *. destruct I as [I|I]; [destruct g; [right; right; left; auto|left; left; auto]|].
    change (fun e : val * val => owned (fst e) ++ owned (snd e)) with own_entry in *. destruct (set_entry_owned _ _ _ _ _ I) as [|[|]]; [left; right; assumption|tauto|]. right; right; right. eauto.
  - destruct old as [| | |b0 l| | | |]; try discriminate. injection E as <-. cbn [owned] in *. destruct I as [I|I]; [destruct g; [right; right; left; auto|left; left; auto]|].
    rewrite flat_map_app in I. cbn [flat_map] in I. rewrite app_nil_r in I. apply in_app_or in I as [I|I]; [left; right; exact I|tauto].
  - injection E as <-. tauto.
  - destruct old; try discriminate. destruct (existsb _ _); [|discriminate]. injection E as <-. cbn [owned] in *. change (fun e : bytes * val => owned (snd e)) with own_field in *. destruct (set_field_owned _ _ _ _ I); tauto.
Qed.
Lemma set_var_none x f : forall fr, set_var x f fr = None -> ~ In x (map fst fr).
Proof.
  induction fr as [|[y v] fr IH]; intros E; [intros []|]. cbn [set_var] in E. destruct (Z.eqb_spec y x) as [->|N]; [discriminate|].
  destruct (set_var x f fr) as [r'|] eqn:E1; [discriminate|]. cbn [map fst]. intros [H|H]; [congruence|]. exact (IH eq_refl H).
Qed.
Lemma set_var_in x f (L : Z -> Prop) : (forall old new, f old = Some new -> (forall b, In b (owned old) -> L (fst b)) -> forall b, In b (owned new) -> L (fst b)) ->
  forall fr fr', set_var x f fr = Some (Some fr') -> frame_in L fr -> frame_in L fr'.
Proof.
  intros Hf. induction fr as [|[y v] fr IH]; intros fr' E Fr; [discriminate|]. cbn [set_var] in E. destruct (y =? x).
  - injection E as E. destruct (f v) as [w|] eqn:Ef; [|discriminate]. injection E as <-. intros z u b [I|I] Ib; [injection I as <- <-; eapply (Hf v w Ef); [|exact Ib]; intros b' I'; exact (Fr y v b' (or_introl eq_refl) I')|].
    exact (Fr z u b (or_intror I) Ib).
  - destruct (set_var x f fr) as [[r|]|] eqn:E1; try discriminate. injection E as <-. intros z u b [I|I] Ib; [injection I as <- <-; exact (Fr y v b (or_introl eq_refl) Ib)|].
    refine (IH r eq_refl _ z u b I Ib). intros z' u' b' I' J'. exact (Fr z' u' b' (or_intror I') J').
Qed.
Lemma set_var_names x f : forall fr fr', set_var x f fr = Some (Some fr') -> map fst fr' = map fst fr.
Proof.
  induction fr as [|[z v] fr IH]; intros fr' E; [discriminate|]. cbn [set_var] in E. destruct (z =? x).
  - injection E as E. destruct (f v) as [w|]; [|discriminate]. now injection E as <-.
  - destruct (set_var x f fr) as [[r|]|]; try discriminate. injection E as <-. cbn [map]. now rewrite (IH r eq_refl).
Qed.
Lemma set_store_names x f : forall st st', set_store x f st = Some st' -> map (map fst) st' = map (map fst) st.
Proof.
  induction st as [|fr st IH]; intros st' E; [discriminate|]. cbn [set_store] in E. destruct (set_var x f fr) as [[fr'|]|] eqn:E1; try discriminate.
  - injection E as <-. cbn [map]. now rewrite (set_var_names _ _ _ _ E1).
  - destruct (set_store x f st) as [r|] eqn:E2; [|discriminate]. injection E as <-. cbn [map]. now rewrite (IH r eq_refl).
Qed.
Lemma set_store_in x f : forall st (Ss : list (Z -> Prop)) st', Forall (fun L : Z -> Prop => forall old new, f old = Some new -> (forall b, In b (owned old) -> L (fst b)) -> forall b, In b (owned new) -> L (fst b)) Ss ->
  Forall2 frame_in Ss st -> set_store x f st = Some st' -> Forall2 frame_in Ss st'.
Proof.
  induction st as [|fr st IH]; intros Ss st' Hs Fs E; [discriminate|]. inversion Fs as [|L ? Ss' ? Hl Hr]; subst. inversion Hs; subst. cbn [set_store] in E. destruct (set_var x f fr) as [[fr'|]|] eqn:E1; try discriminate.
  - injection E as <-. constructor; [exact (set_var_in x f L H1 fr fr' E1 Hl)|exact Hr].
  - destruct (set_store x f st) as [r|] eqn:E2; [|discriminate]. injection E as <-. constructor; [exact Hl|]. exact (IH Ss' r H2 Hr eq_refl).
Qed.

Section Runs.
  Context (p : program) (rank : bytes -> nat) (F : fine_program p rank).
  Lemma exec_ok cur outer s l s' seen : exec p cur outer s l s' seen -> forall deep here L Ss fr st, fine p rank deep here l -> nested cur outer deep L Ss ->
    ok L Ss here s fr st -> Forall (fun q => alive (vars q) (freed q)) seen /\ next_arena s <= next_arena s' /\ exists fr' st', ok L Ss [] s' fr' st' /\ map (map fst) st' = map (map fst) st /\ incl (map fst fr) (map fst fr').
  Proof.
    induction 1 as [cur outer s|cur outer s x t v n fr0 st0 l s' seen V Hv U E IH|cur outer s x tg t kt kv v fuel kp vp kw n1 w n2 vars' l s' seen Ek Hk Uk Hv U Ep Rn Sv E IH
      |cur outer s b l s1 s' seen1 seen fr0 st0 E1 IH1 V E IH|cur outer s b l s1 s' seen1 seen fr0 st0 E1 IH1 V E IH|cur outer s b l s1 s' seen1 seen fr0 st0 E1 IH1 V E IH];
      intros deep here L Ss fr st Fi Ne O; pose proof Ne as (Lc & Sub & Nd).
    - split; [constructor; [exact (ok_alive _ _ _ _ _ _ O Sub)|constructor]|]. split; [lia|]. exists fr, st. split; [destruct O; constructor; auto; intros y []|]. split; [reflexivity|apply incl_refl].
    - inversion Fi as [|? ? ? ? ? Fl| |]; subst. pose proof (ok_alive _ _ _ _ _ _ O Sub) as Al. pose proof (ok_usable _ _ _ _ _ _ _ _ O Sub Lc U) as Uv. destruct O as [V0 Fr Fs Lv Fd Hr].
      rewrite V in V0. injection V0 as -> ->. destruct (IH deep (x :: here) L Ss ((x, v) :: fr) st Fl Ne) as (Sn & Le & Fin).
      { constructor; cbn [vars freed next_arena]; auto. - intros y u b [I|I] Ib; [injection I as <- <-; exact (Uv b Ib)|exact (Fr y u b I Ib)].
        - intros y [<-|I]; [now left|]. right. now apply Hr. }
      split; [now constructor|]. split; [exact Le|]. destruct Fin as (fr' & st' & O' & Nm & Ic). exists fr', st'. split; [exact O'|]. split; [exact Nm|]. intros y I. apply Ic. now right.
    - inversion Fi as [| |? ? ? ? ? ? Ft Es Fl|]; subst. pose proof (ok_alive _ _ _ _ _ _ O Sub) as Al.
      pose proof (ok_usable _ _ _ _ _ _ _ _ O Sub Lc U) as Uv. pose proof (ok_usable _ _ _ _ _ _ _ _ O Sub Lc Uk) as Ukv. destruct O as [V0 Fr Fs Lv Fd Hr].
      set (nb := (match outer with Some o => o | None => cur end, n2)) in *.
      assert (Lo : L (fst nb)) by (unfold nb; destruct outer; cbn [fst]; tauto).
      cbv zeta in Rn. destruct Rn as [Rk Rv].
      assert (There : forall pl : plan, L (match outer with Some o => if outward pl then o else cur | None => cur end)) by (intros pl; destruct outer; [destruct (outward pl); tauto|exact Lc]).
      assert (Lw : forall b, In b (owned w) -> L (fst b)).
      { intros b I. destruct (run_made _ _ _ (le_n _) _ _ _ _ Rv b I) as [->|I']; [apply There|exact (Uv b I')]. }
      assert (Lk : forall b, In b (owned kw) -> L (fst b)).
      { intros b I. destruct (run_made _ _ _ (le_n _) _ _ _ _ Rk b I) as [->|I']; [apply There|exact (Ukv b I')]. }
      assert (Inn : forall old new, updated tg kw w nb old = Some new -> (forall b, In b (owned old) -> L (fst b)) -> forall b, In b (owned new) -> L (fst b)).
      { intros old new Eu Ho b I. destruct (updated_owned _ _ _ _ _ _ Eu b I) as [H|[H|[->|[H _]]]]; auto. }
      rewrite V0 in Sv. cbn [set_store] in Sv.
      assert (Next : exists fr' st', vars' = fr' :: st' /\ frame_in L fr' /\ Forall2 frame_in Ss st' /\ map (map fst) st' = map (map fst) st /\ map fst fr' = map fst fr).
      { destruct (set_var x (updated tg kw w nb) fr) as [[fr'|]|] eqn:Ev; try discriminate.
        - injection Sv as <-. exists fr', st. split; [reflexivity|]. split; [exact (set_var_in _ _ L Inn _ _ Ev Fr)|]. split; [exact Fs|]. split; [reflexivity|exact (set_var_names _ _ _ _ Ev)].
        - destruct (set_store x (updated tg kw w nb) st) as [st'|] eqn:Est; [|discriminate]. injection Sv as <-. exists fr, st'. split; [reflexivity|]. split; [exact Fr|]. split; [|split; [exact (set_store_names _ _ _ _ Est)|reflexivity]].
          destruct outer as [o|].
          + destruct Nd as (-> & _ & So). destruct Es as [Es|[Es|Es]]; [discriminate|destruct (set_var_none _ _ _ Ev (Hr x Es))|].
            destruct (plan_out p rank F tg t fuel kp vp o cur kt kv v _ _ _ _ _ Ft Es Ep Ek Hk Hv Rk Rv) as [Ow Ok'].
            refine (set_store_in x _ st Ss st' _ Fs Est). rewrite Forall_forall in *. intros S Is old new Eu Ho b I.
            destruct (updated_owned _ _ _ _ _ _ Eu b I) as [H|[H|[->|(H & k & g & Et)]]]; [auto|rewrite (Ow b H)|cbn [nb fst]|rewrite (Ok' k g Et b H)]; now apply So.
          + destruct Nd as (_ & ->). inversion Fs; subst. discriminate. }
      destruct Next as (fr' & st' & -> & Fr' & Fs' & Nm' & Hr'). destruct (IH deep here L Ss fr' st' Fl Ne) as (Sn & Le & fr2 & st2 & O2 & Nm2 & Ic2); [constructor; auto; intros y I; rewrite Hr'; now apply Hr|].
      split; [now constructor|]. split; [exact Le|]. exists fr2, st2. split; [exact O2|]. split; [now rewrite Nm2|]. now rewrite <- Hr'.
    - inversion Fi as [| | |? ? ? ? Fb Fl]; subst. pose proof (ok_alive _ _ _ _ _ _ O Sub) as Al. pose proof O as [V0 Fr Fs Lv Fd Hr].
      set (o := match outer with Some o => o | None => cur end) in *.
      assert (Lo : L o /\ Forall (fun S : Z -> Prop => S o) Ss) by (unfold o; destruct outer; [tauto|destruct Nd as (_ & ->); auto]).
      destruct (IH1 true [] (fun a => L a \/ a = next_arena s) (L :: Ss) [] (fr :: st) Fb) as (Sn1 & Le1 & fr1 & st1 & O1 & Nm1 & _).
      { split; [now right|]. split; [constructor; [now left|]; rewrite Forall_forall in *; intros S I a Ha; left; exact (Sub S I a Ha)|]. split; [reflexivity|]. split; [left; tauto|]. constructor; tauto. }
      { constructor; cbn [vars freed next_arena]; auto.
        - now rewrite V0.
        - intros y u b1 [].
        - intros a [Ha| ->]; [destruct (Lv a Ha); split; [assumption|lia]|]. split; [intros I; specialize (Fd _ I); lia|lia].
        - intros a I. specialize (Fd _ I). lia. }
      destruct O1 as [V1 Fr1 Fs1 Lv1 Fd1 _]. rewrite V in V1. injection V1 as -> ->. inversion Fs1 as [|? fr2 ? st2 Fr2 Fs2]; subst.
      cbn [next_arena] in Le1.
      cbn [map] in Nm1. injection Nm1 as Nf Ns. destruct (IH deep here L Ss fr2 st2 Fl) as (Sn & Le & fr3 & st3 & O3 & Nm3 & Ic3).
      { exact Ne. }
      { constructor; cbn [vars freed next_arena]; auto.
        - intros a Ha. destruct (Lv1 a (or_introl Ha)) as [N1 N2]. destruct (Lv a Ha) as [_ N3]. split; [intros [<-|I]; [lia|now apply N1]|lia].
        - intros a [<-|I]; [lia|now apply Fd1].
        - rewrite Nf. exact Hr. }
      cbn [next_arena] in Le. split; [constructor; [exact Al|]; apply Forall_app; tauto|]. split; [lia|]. exists fr3, st3. split; [exact O3|]. split; [congruence|]. now rewrite <- Nf.
    - inversion Fi.
    - inversion Fi.
  Qed.
End Runs.
