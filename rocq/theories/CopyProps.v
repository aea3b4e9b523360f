(** Copies share no memory with the original (C106). *)
From Verif Require Import Base BaseFacts TypesModel TypesSpec TypesProofs4 CopySpec CopyModel CopyProofs CopyProofs2.

Lemma val_all (P : val -> Prop) : (forall n, P (VBits n)) -> (forall a, P (VPtr a)) -> (forall b s, P (VStr b s)) ->
  (forall b l, Forall P l -> P (VArr b l)) -> (forall b l, Forall (fun e => P (fst e) /\ P (snd e)) l -> P (VMap b l)) ->
  (forall l, Forall (fun e => P (snd e)) l -> P (VRec l)) -> (forall n l, Forall P l -> P (VTag n l)) ->
  (forall b l, Forall P l -> P (VErr b l)) -> forall v, P v.
Proof.
  intros H1 H2 H3 H4 H5 H6 H7 H8. fix IH 1. intros [n|a|b s|b l|b l|l|n l|b l]; [apply H1|apply H2|apply H3|apply H4|apply H5|apply H6|apply H7|apply H8];
    induction l as [|x l IHl]; constructor; try exact IHl; try apply IH. split; apply IH.
Qed.
Lemma map_id {A} (f : A -> A) l : Forall (fun x => f x = x) l -> map f l = l.
Proof. induction 1 as [|x l H _ IH]; [reflexivity|]. cbn [map]. congruence. Qed.
Lemma block_eqb_iff b c : block_eqb b c = true <-> b = c.
Proof. unfold block_eqb. destruct b, c. cbn [fst snd]. rewrite andb_true_iff, !Z.eqb_eq. split; [intros [-> ->]; reflexivity|intros [= -> ->]; auto]. Qed.
Lemma block_neq b c : b <> c -> block_eqb b c = false.
Proof. intros N. destruct (block_eqb b c) eqn:E; [|reflexivity]. now apply block_eqb_iff in E. Qed.
Lemma flat_map_out {A} (f : A -> list block) b l : ~ In b (flat_map f l) -> Forall (fun x => ~ In b (f x)) l.
Proof.
  induction l as [|x l IH]; intros N; constructor.
  - intros I. apply N. cbn [flat_map]. apply in_or_app. now left.
  - apply IH. intros I. apply N. cbn [flat_map]. apply in_or_app. now right.
Qed.
Lemma Forall_mp {A} (P Q R : A -> Prop) l : (forall x, P x -> Q x -> R x) -> Forall P l -> Forall Q l -> Forall R l.
Proof. intros H. induction 1; intros F; inversion F; subst; constructor; auto. Qed.
Lemma overwritten_out b x v : ~ In b (owned v) -> overwritten b x v = v.
Proof.
  induction v as [n|a|c s|c l IH|c l IH|l IH|n l IH|c l IH] using val_all; intros N; cbn [owned overwritten] in *; try reflexivity.
  - rewrite block_neq; [reflexivity|]. intros ->. apply N. now left.
  - rewrite block_neq by (intros ->; apply N; now left). f_equal. apply map_id. refine (Forall_mp _ _ _ l _ IH (flat_map_out owned b l _)); [intros y P Q; now apply P|]. intros I. apply N. now right.
  - rewrite block_neq by (intros ->; apply N; now left). f_equal. apply map_id.
    refine (Forall_mp _ _ _ l _ IH (flat_map_out _ b l _)); [|intros I; apply N; right; exact I]. intros [y z] [P1 P2] Q. cbn [fst snd] in *. rewrite P1, P2; [reflexivity| |]; intros I; apply Q; apply in_or_app; auto.
  - f_equal. apply map_id. refine (Forall_mp _ _ _ l _ IH (flat_map_out _ b l N)). intros [y z] P Q. cbn [fst snd] in *. now rewrite P.
  - f_equal. apply map_id. refine (Forall_mp _ _ _ l _ IH (flat_map_out owned b l N)). intros y P Q. now apply P.
  - rewrite block_neq by (intros ->; apply N; now left). f_equal. apply map_id. refine (Forall_mp _ _ _ l _ IH (flat_map_out owned b l _)); [intros y P Q; now apply P|]. intros I. apply N. now right.
Qed.
Lemma copied_deep a v n w n' : (forall b, In b (owned v) -> snd b < n) -> copied a v n w n' -> deep_copy a v w.
Proof.
  intros L (_ & C & F). rewrite Forall_forall in F. split; [exact C|]. split; [intros b I; now apply F|]. split; intros b x I; apply overwritten_out; intros J.
  - specialize (L b I). destruct (F b J) as [_ H]. lia.
  - specialize (L b J). destruct (F b I) as [_ H]. lia.
Qed.

(** The code for a type: what a return, an assignment or a declaration uses. *)
Theorem value_deep_copy_partial p rank t : fine_program p rank -> wf t -> short t -> copyable p t -> (forall m, In m (inside t) -> (rank m < 64)%nat) ->
  exists N c, (forall fuel, (N <= fuel)%nat -> emit_value_deep_copy (texts p) fuel [] (show t) = Some c) /\
    forall a v n, holds p t v -> (forall b, In b (owned v) -> snd b < n) -> exists w n', run a c v n = Some (w, n') /\ deep_copy a v w.
Proof.
  intros F W S C R. destruct (emit_ok p rank F 64 t W S C R []) as (N & c & E & Wk); [split; [constructor|cbn; lia]|].
  exists N, c. split; [exact E|]. intros a v n H L. destruct (Wk a v n H) as (w & n' & Er & Co). exists w, n'. split; [exact Er|]. now apply (copied_deep a v n w n').
Qed.
Print Assumptions value_deep_copy_partial.

(** [copy(x)], for an array, a map or a struct. *)
Theorem copy_is_deep_partial p rank t g : fine_program p rank -> wf t -> Z.of_nat (length (show t)) < 255 -> copyable p t ->
  (forall m, In m (inside t) -> (rank m < 64)%nat) -> describes p g t ->
  exists N c, (forall fuel, (N <= fuel)%nat -> emit_copy (texts p) fuel g = Some c) /\
    forall a v n, holds p t v -> (forall b, In b (owned v) -> snd b < n) -> exists w n', run a c v n = Some (w, n') /\ deep_copy a v w.
Proof.
  intros F W S C R D.
  assert (Whole : forall x : bytes, Z.of_nat (length x) <= 255 -> firstn (Z.to_nat (MSG_BUF_SIZE - 1)) x = x) by (intros x L; apply firstn_all2; unfold MSG_BUF_SIZE; lia).
  assert (X : exists u, copy_text g = Some (show u) /\ wf u /\ short u /\ copyable p u /\ (forall m, In m (inside u) -> (rank m < 64)%nat) /\ forall v, holds p t v -> holds p u v).
  { destruct t as [n|t|e|e z|k v|ps r]; try contradiction; cbn [describes] in D.
    - destruct D as (K & Nm & _). exists (TName n). unfold copy_text. rewrite K, Nm. cbn [option_map show] in *. rewrite Whole by lia. repeat (split; auto). unfold short. cbn [show]. lia.
    - destruct D as (K & E). exists (TArr e). unfold copy_text. rewrite K, E. cbn [option_map show] in *. rewrite Whole by lia. repeat (split; auto). unfold short. cbn [show]. lia.
    - destruct D as (K & E). exists (TArr e). unfold copy_text. rewrite K, E. cbn [option_map show inside copyable] in *.
      assert (L : Z.of_nat (length ([91] ++ show e ++ [93])) < 255) by (rewrite !app_length in *; cbn [length] in *; lia).
      rewrite Whole by lia. inversion W; subst. split; [reflexivity|]. split; [now constructor|]. split; [unfold short; cbn [show]; lia|]. split; [exact C|]. split; [exact R|].
      intros v H. inversion H; subst. now constructor.
    - destruct D as (K & E1 & E2). exists (TMap k v). unfold copy_text. rewrite K, E1, E2. cbn [option_map show] in *. rewrite Whole by lia. repeat (split; auto). unfold short. cbn [show]. lia. }
  destruct X as (u & Et & Wu & Su & Cu & Ru & Hu). destruct (value_deep_copy_partial p rank u F Wu Su Cu Ru) as (N & c & E & Wk).
  exists N, c. split; [|intros a v n H L; apply Wk; auto]. intros fuel Lf. unfold emit_copy. rewrite Et. now apply E.
Qed.
Print Assumptions copy_is_deep_partial.

(** A case: a map of teams, a team being a struct with an array of players. *)
Local Notation N_ := TName.
Definition league : program := Prog
  [(bs "Team", [(bs "name", N_ (bs "string")); (bs "players", TArr (N_ (bs "Player"))); (bs "grid", TArr (TFix (N_ (bs "int")) (bs "3")))]);
   (bs "Player", [(bs "name", N_ (bs "string")); (bs "age", N_ (bs "int")); (bs "boss", TPtr (N_ (bs "Player")))])] [].
Definition league_rank (n : bytes) : nat :=
  if eqs n (bs "Team") then 2 else if eqs n (bs "Player") then 1 else 0.
Lemma word_bool n : n <> [] -> forallb (fun c => (48 <=? c) && (c <=? 57) || (65 <=? c) && (c <=? 90) || (97 <=? c) && (c <=? 122) || (c =? 95) || (c =? 63)) n = true -> word n.
Proof. intros N H. split; [exact N|]. rewrite Forall_forall. rewrite forallb_forall in H. intros c I. specialize (H c I). unfold word_char. lia. Qed.
Fixpoint all_different (l : list bytes) : bool := match l with [] => true | x :: l => negb (existsb (eqs x) l) && all_different l end.
Lemma distinct l : all_different l = true -> NoDup l.
Proof.
  induction l as [|x l IH]; [constructor|]. cbn [all_different]. rewrite andb_true_iff, negb_true_iff. intros [N H]. constructor; [|now apply IH].
  intros I. apply not_true_iff_false in N. apply N. apply existsb_exists. exists x. split; [exact I|apply eqs_refl].
Qed.
Ltac words := apply word_bool; [discriminate|vm_compute; reflexivity].
Ltac wfs := repeat first [apply w_ptr|apply w_arr|apply w_fix|apply w_map|apply w_name]; words.
Ltac good_field := split; [wfs|]; split; [vm_compute; reflexivity|]; split;
  [repeat split; try (vm_compute; discriminate); vm_compute; reflexivity|];
  intros m Hm; cbn [inside] in Hm; repeat destruct Hm as [<-|Hm]; try contradiction; vm_compute; repeat constructor.
Lemma league_fine : fine_program league league_rank.
Proof.
  intros n fs H. cbn [structs league In] in H. destruct H as [H|[H|[]]]; apply pair_equal_spec in H as [<- <-]; (split; [words|]); (split; [discriminate|]);
    (split; [vm_compute; repeat constructor|]).
  - split; [apply distinct; vm_compute; reflexivity|]. intros f t I. cbn [In] in I. repeat (destruct I as [I|I]; [apply pair_equal_spec in I as [<- <-]; good_field|]). contradiction.
  - split; [apply distinct; vm_compute; reflexivity|]. intros f t I. cbn [In] in I. repeat (destruct I as [I|I]; [apply pair_equal_spec in I as [<- <-]; good_field|]). contradiction.
Qed.
Definition teams : ty := TMap (bs "string") (N_ (bs "Team")).
Example copy_is_deep_partial_case : exists g v,
  describes league g teams /\ holds league teams v /\ wf teams /\ copyable league teams /\ length (owned v) = 9%nat.
Proof.
  exists (GType KMap (show teams) None (Some (bs "string")) (Some (bs "Team")) None).
  exists (VMap (1, 1) [(VStr (1, 2) (bs "red"), VRec [(bs "name", VStr (1, 3) (bs "R")); (bs "players", VArr (1, 4) [VRec [(bs "name", VStr (1, 5) (bs "Jo")); (bs "age", VBits 30); (bs "boss", VPtr 77)]]);
    (bs "grid", VArr (1, 6) [VArr (1, 7) [VBits 1; VBits 2; VBits 3]; VArr (1, 8) []; VArr (1, 9) [VBits 4]])])]).
  split; [repeat split|]. split.
  { constructor. constructor; [|constructor]. split; [constructor|]. cbn [snd].
    eapply h_struct; [discriminate|discriminate|reflexivity|]. repeat constructor; try discriminate.
    eapply h_struct; [discriminate|discriminate|reflexivity|]. repeat constructor; try discriminate. }
  split; [unfold teams; wfs|]. split; [|reflexivity]. split; [vm_compute; reflexivity|]. split; [discriminate|reflexivity].
Qed.

(** Not for every type.  A struct that holds an array of its own kind is copied
    only down to the second level. *)
Definition shares (p : program) (t : ty) (g : gtype) (v : val) : bool :=
  match emit_copy (texts p) 20 g with
  | Some c =>
    match run 2 c v 100 with
    | Some (w, _) => existsb (fun b => existsb (block_eqb b) (owned w)) (owned v)
    | None => false
    end
  | None => false
  end.
Lemma shares_not_deep p t g v : shares p t g v = true ->
  exists c w n', emit_copy (texts p) 20 g = Some c /\ run 2 c v 100 = Some (w, n') /\ exists b, In b (owned v) /\ In b (owned w).
Proof.
  unfold shares. destruct (emit_copy (texts p) 20 g) as [c|]; [|discriminate]. destruct (run 2 c v 100) as [[w n']|] eqn:E; [|discriminate].
  intros H. exists c, w, n'. split; [reflexivity|]. split; [exact E|]. apply existsb_exists in H as (b & I & H). apply existsb_exists in H as (b' & I' & H).
  apply block_eqb_iff in H as <-. now exists b.
Qed.
Definition struct_type (n : bytes) : gtype := GType KStruct n None None None None.
Definition tree : program := Prog [(bs "Node", [(bs "children", TArr (N_ (bs "Node")))])] [].
Theorem copy_is_deep_refuted : exists v, holds tree (N_ (bs "Node")) v /\ describes tree (struct_type (bs "Node")) (N_ (bs "Node")) /\
  exists c w n', emit_copy (texts tree) 20 (struct_type (bs "Node")) = Some c /\ run 2 c v 100 = Some (w, n') /\ exists b, In b (owned v) /\ In b (owned w).
Proof.
  exists (VRec [(bs "children", VArr (1, 1) [VRec [(bs "children", VArr (1, 2) [])]])]). split.
  - eapply h_struct; [discriminate|discriminate|reflexivity|]. repeat constructor.
    eapply h_struct; [discriminate|discriminate|reflexivity|]. repeat constructor.
  - split; [repeat split; discriminate|]. apply (shares_not_deep tree (N_ (bs "Node"))). vm_compute. reflexivity.
Qed.
Print Assumptions copy_is_deep_refuted.
(** An array of arrays with sizes, three deep, is copied down to the second
    level: writing to an element of the copy changes the original. *)
Definition cube : ty := TArr (TFix (TFix (N_ (bs "int")) (bs "2")) (bs "2")).
Definition cube_type : gtype := GType KArray (show cube) (Some (bs "[[int,2],2]")) None None None.
Theorem sized_arrays_copied_refuted : exists v, holds (Prog [] []) cube v /\ describes (Prog [] []) cube_type cube /\
  exists c w n', emit_copy (texts (Prog [] [])) 20 cube_type = Some c /\ run 2 c v 100 = Some (w, n') /\ exists b, In b (owned v) /\ In b (owned w).
Proof.
  exists (VArr (1, 1) [VArr (1, 2) [VArr (1, 3) [VBits 7; VBits 8]]]). split; [repeat (constructor; try discriminate)|].
  split; [repeat split|]. apply (shares_not_deep (Prog [] []) cube). vm_compute. reflexivity.
Qed.
Print Assumptions sized_arrays_copied_refuted.
(** What a variant of an enum carries is not copied. *)
Definition shapes : program := Prog [(bs "Box", [(bs "shape", N_ (bs "Shape"))])] [(bs "Shape", [[TArr (N_ (bs "int"))]; []])].
Theorem carried_values_copied_refuted : exists v, holds shapes (N_ (bs "Box")) v /\ describes shapes (struct_type (bs "Box")) (N_ (bs "Box")) /\
  exists c w n', emit_copy (texts shapes) 20 (struct_type (bs "Box")) = Some c /\ run 2 c v 100 = Some (w, n') /\ exists b, In b (owned v) /\ In b (owned w).
Proof.
  exists (VRec [(bs "shape", VTag 0 [VArr (1, 1) [VBits 5]])]). split.
  - eapply h_struct; [discriminate|discriminate|reflexivity|]. repeat constructor.
    eapply h_enum; [discriminate|discriminate|reflexivity|reflexivity|reflexivity|]. repeat constructor; discriminate.
  - split; [repeat split; discriminate|]. apply (shares_not_deep shapes (N_ (bs "Box"))). vm_compute. reflexivity.
Qed.
Print Assumptions carried_values_copied_refuted.
