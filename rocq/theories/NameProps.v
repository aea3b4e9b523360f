(** C67, C97: names in generated C and in imported declarations. *)
From Verif Require Import Base BaseFacts LexModel LexProofs EncodingModel TypesModel.
From Verif Require Import NameModel NameSpec NameProofs NameProofs2.

Lemma words_ok s : forallb (fun c => ((48 <=? c) && (c <=? 57)) || ((65 <=? c) && (c <=? 90)) || ((97 <=? c) && (c <=? 122)) || (c =? 95)) s = true -> Forall word_char s.
Proof. intros H. apply Forall_forall. rewrite forallb_forall in H. intros c Hc. apply H in Hc. unfold word_char. lia. Qed.
(** ** Variables, parameters and fields. *)

(** No such name is a reserved word of C, if it does not start with an
    underscore. *)
Theorem not_reserved_partial n : ~ starts_with (bs "_") n -> ~ In (sanitize_name n) c_reserved.
Proof.
  intros N H. assert (U : hd 0 n <> 95) by (intros E; apply N; destruct n as [|c r]; [discriminate E|]; cbn [hd] in E; subst c; now exists r).
  destruct (in_dec (list_eq_dec Z.eq_dec) n c_words) as [I|I].
  - rewrite (sanitize_word n I) in H. now apply gray_not_reserved in H.
  - rewrite (sanitize_other n I) in H. now apply I, reserved_words.
Qed.
Print Assumptions not_reserved_partial.
(** Names the type checker accepts are emitted although they are keywords. *)
Theorem not_reserved_refuted : exists n, variable_refused n = false /\ In (sanitize_name n) c_reserved.
Proof. exists (bs "_Bool"). split; [vm_compute; reflexivity|]. apply mem_iff. vm_compute. reflexivity. Qed.
Print Assumptions not_reserved_refuted.
(** Names that are not reserved are left alone. *)
Theorem others_left_alone n : ~ In n c_reserved -> sanitize_name n = n.
Proof. intros H. apply sanitize_other. intros I. apply words_reserved in I. tauto. Qed.
Print Assumptions others_left_alone.
(** Two different names stay different, unless one starts like a mangled one. *)
Theorem still_different_partial n m : ~ starts_with (bs "_gray_") n -> ~ starts_with (bs "_gray_") m ->
  sanitize_name n = sanitize_name m -> n = m.
Proof. apply sanitize_injective. Qed.
Print Assumptions still_different_partial.
Theorem still_different_refuted : exists n m, variable_refused n = false /\ variable_refused m = false /\ n <> m /\ sanitize_name n = sanitize_name m.
Proof. exists (bs "long"), (bs "_gray_long"). repeat split; try (vm_compute; reflexivity). discriminate. Qed.
Print Assumptions still_different_refuted.

(** ** All declarations at file level; [tagged] says which enums have payloads. *)
Theorem declarations_distinct_partial tagged d d' : unproblematic tagged d -> unproblematic tagged d' -> c_name d = c_name d' -> d = d'.
Proof. apply names_distinct. Qed.
Print Assumptions declarations_distinct_partial.
(** An underscore in the name of an enum is enough for a clash. *)
Theorem declarations_distinct_refuted :
  (exists e v e' v', (e, v) <> (e', v') /\ c_name (EPlain e v) = c_name (EPlain e' v')) /\
  (exists e v e', c_name (EPlain e v) = c_name (DEnum e')).
Proof.
  split.
  - exists (bs "A"), (bs "B_C"), (bs "A_B"), (bs "C"). split; [discriminate|vm_compute; reflexivity].
  - exists (bs "Color"), (bs "Red"), (bs "Color_Red"). vm_compute. reflexivity.
Qed.
Print Assumptions declarations_distinct_refuted.

(** ** Imported declarations. *)
Theorem imports_distinct_partial m n m' n' : no_underscore m -> no_underscore m' ->
  (length m + length n < 255)%nat -> (length m' + length n' < 255)%nat -> imported_name m n = imported_name m' n' -> m = m' /\ n = n'.
Proof.
  intros U U' L L' E. unfold imported_name in E. rewrite !fit_id in E by (rewrite !app_length; cbn [length]; lia). now apply under_inj.
Qed.
Print Assumptions imports_distinct_partial.
Theorem imports_distinct_refuted :
  (exists m n m' n', Forall word_char (m ++ n ++ m' ++ n') /\ (m, n) <> (m', n') /\ imported_name m n = imported_name m' n') /\
  (exists m n n', no_underscore m /\ n <> n' /\ imported_name m n = imported_name m n').
Proof.
  split.
  - exists (bs "net"), (bs "v4_open"), (bs "net_v4"), (bs "open"). split; [|split; [discriminate|vm_compute; reflexivity]].
    apply words_ok. vm_compute. reflexivity.
  - exists (bs "lib"), (List.repeat 97 260 ++ [98]), (List.repeat 97 260 ++ [99]). split; [intros H; vm_compute in H; lia|]. split; [|vm_compute; reflexivity].
    intros E. apply app_inv_head in E. discriminate E.
Qed.
Print Assumptions imports_distinct_refuted.

(** ** Instances of generic structs and functions. *)

(** A call uses the name the instance was declared with, and different types
    give different instances, for types that are plain names. *)
Lemma ok_inj {A} (a b : A) : Ok a = Ok b -> a = b. Proof. now injection 1. Qed.
Theorem instances_partial n t : (length n + length t <= 253)%nat ->
  exists m, mangled n t = Ok m /\ c_call n t = c_function m /\
    (Forall word_char t -> forall t' m', Forall word_char t' -> (length n + length t' <= 253)%nat -> mangled n t' = Ok m' -> m = m' -> t = t').
Proof.
  intros L. assert (M : forall t, (length n + length t <= 253)%nat -> mangled n t = Ok (n ++ bs "__" ++ map ident_char t)).
  { intros u Lu. unfold mangled. cbv zeta. unfold MSG_BUF_SIZE. destruct (Z.leb_spec 256 (Z.of_nat (length n) + 2)); [lia|]. do 3 f_equal. apply firstn_all2. rewrite map_length. lia. }
  exists (n ++ bs "__" ++ map ident_char t). split; [now apply M|]. split; [reflexivity|]. intros W t' m' W' L' E' E.
  rewrite (M t' L') in E'. apply ok_inj in E'. subst m'. apply app_inv_head in E. apply app_inv_head in E.
  assert (Id : forall u, Forall word_char u -> map ident_char u = u).
  { induction u as [|c u IH]; intros F; [reflexivity|]. apply Forall_cons_iff in F as [Fc F]. cbn [map]. rewrite (IH F). f_equal. unfold ident_char, isalnum. unfold word_char in Fc.
    match goal with |- (if ?b then _ else _) = _ => destruct b eqn:Eb end; [reflexivity|]. lia. }
  now rewrite (Id t W), (Id t' W') in E.
Qed.
Print Assumptions instances_partial.
(** An array of pointers and a pointer to an array share an instance; a call of
    an instance with a long name goes to a function that is not declared; a
    generic function with a name of 254 bytes overruns the buffer. *)
Theorem instances_refuted :
  (exists n t t', t <> t' /\ exists m, mangled n t = Ok m /\ mangled n t' = Ok m) /\
  (exists n t m, mangled n t = Ok m /\ c_call n t <> c_function m) /\
  (exists n t, mangled n t = UB).
Proof.
  split; [|split].
  - exists (bs "first"), (bs "[^int]"), (bs "^[int]"). split; [discriminate|]. eexists. split; vm_compute; reflexivity.
  - exists (List.repeat 97 200), (List.repeat 98 100). eexists. split; [vm_compute; reflexivity|]. intros E. apply (f_equal (@length Z)) in E. vm_compute in E. discriminate E.
  - exists (List.repeat 97 254), (bs "int"). vm_compute. reflexivity.
Qed.
Print Assumptions instances_refuted.

(** ** Functions with several return values. *)
Lemma before_dunder_none n : before_dunder n = None <-> ~ exists a b, n = a ++ bs "__" ++ b.
Proof.
  induction n as [|c n IH]; cbn [before_dunder].
  - split; [|reflexivity]. intros _ (a & b & E). apply (f_equal (@length Z)) in E. rewrite !app_length in E. change (length (bs "__")) with 2%nat in E. cbn [length] in E. lia.
  - destruct ((c =? 95) && (hd 0 n =? 95)) eqn:E.
    + split; [discriminate|]. intros H. exfalso. apply H. apply andb_true_iff in E as [E1 E2]. destruct n as [|x n]; [discriminate E2|]. cbn [hd] in E2. exists [], n. apply Z.eqb_eq in E1, E2. subst. reflexivity.
    + destruct (before_dunder n) eqn:B; cbn [option_map].
      * split; [discriminate|]. intros H. exfalso. assert (X : ~ (exists a b, n = a ++ bs "__" ++ b)) by (intros (a & r & ->); apply H; exists (c :: a), r; reflexivity). apply IH in X. discriminate X.
      * split; [|reflexivity]. intros _ (a & r & F). destruct a as [|x a].
        -- change (bs "__") with [95; 95] in F. cbn [app] in F. injection F as -> ->. discriminate E.
        -- cbn [app] in F. injection F as <- F. apply (proj1 IH eq_refl). now exists a, r.
Qed.
Theorem multi_struct_partial wild n : (length n <= 245)%nat -> ~ (exists a b, n = a ++ bs "__" ++ b) -> c_multi_used wild n = c_multi_declared n.
Proof.
  intros L N. unfold c_multi_used, c_multi_declared, multi_return_base_name. rewrite (proj2 (before_dunder_none n) N).
  assert (F : fit n = n) by (apply fit_id; lia). rewrite F. assert (G : (if wild then n else n) = n) by (now destruct wild). rewrite G. apply fit_id. rewrite app_length. change (length (bs "GrayMulti_")) with 10%nat. lia.
Qed.
Print Assumptions multi_struct_partial.
Theorem multi_struct_refuted : exists n, Forall word_char n /\ c_multi_used false n <> c_multi_declared n.
Proof.
  exists (bs "split__at"). split; [|vm_compute; discriminate]. apply words_ok. vm_compute. reflexivity.
Qed.
Print Assumptions multi_struct_refuted.

(** ** C97: the types of imported declarations.  Rewriting the text of a type
    gives the text of the type with its names renamed. *)
Theorem types_renamed_partial names t s s' : func_free t -> (forall n, ordinary n -> ordinary (renamed names n)) ->
  type_text t = Some s -> type_text (rename names t) = Some s' -> (length s' < 256)%nat -> rewrite_type_name names s = Ok s'.
Proof.
  intros F O E E' L. rewrite (text_spec t F) in E. injection E as <-. rewrite (text_spec _ (rename_free names t F O)) in E'. injection E' as <-.
  apply rewrite_spec; [exact F|lia|exact L].
Qed.
Print Assumptions types_renamed_partial.
(** Names in function types keep their old name, and long texts are cut. *)
Theorem types_renamed_refuted :
  (exists names t s s', type_text t = Some s /\ type_text (rename names t) = Some s' /\ rewrite_type_name names s = Ok s /\ s <> s' /\ (length s' < 256)%nat) /\
  (exists names t s s', func_free t /\ type_text t = Some s /\ type_text (rename names t) = Some s' /\ rewrite_type_name names s <> Ok s').
Proof.
  split.
  - exists [(bs "Node", bs "lib_Node")], (TFunc [(false, TName (bs "Node"))] RNone), (bs "func(Node)"), (bs "func(lib_Node)").
    repeat split; try (vm_compute; reflexivity); [discriminate|]. apply Nat.ltb_lt. vm_compute. reflexivity.
  - exists [(bs "Node", List.repeat 97 255)], (TArr (TName (bs "Node"))). eexists _, _. split; [|split; [vm_compute; reflexivity|split; [vm_compute; reflexivity|vm_compute; discriminate]]].
    split; [discriminate|]. apply words_ok. vm_compute. reflexivity.
Qed.
Print Assumptions types_renamed_refuted.

(** ** Cases. *)
Example keyword_case : sanitize_name (bs "register") = bs "_gray_register" /\ sanitize_name (bs "count") = bs "count". Proof. vm_compute. tauto. Qed.
Example declaration_case : unproblematic (fun _ => false) (DVar (bs "long")) /\ unproblematic (fun _ => false) (EPlain (bs "Color") (bs "Dark_Red")) /\
  c_name (EPlain (bs "Color") (bs "Dark_Red")) = bs "GrayEnum_Color_Dark_Red".
Proof.
  split; [|split]; [split; [vm_compute; reflexivity|intros (r & E); vm_compute in E; discriminate E]|split; [intros H; vm_compute in H; lia|reflexivity]|vm_compute; reflexivity].
Qed.
Example renamed_case : rewrite_type_name [(bs "Node", bs "lib_Node")] (bs "map[string:[^Node,3]]") = Ok (bs "map[string:[^lib_Node,3]]").
Proof. vm_compute. reflexivity. Qed.
Example func_free_case : func_free (TMap (bs "string") (TFix (TPtr (TName (bs "Node"))) (bs "3"))) /\
  type_text (TMap (bs "string") (TFix (TPtr (TName (bs "Node"))) (bs "3"))) = Some (bs "map[string:[^Node,3]]").
Proof.
  split; [|vm_compute; reflexivity]. cbn [func_free]. repeat split; try discriminate; apply words_ok; vm_compute; reflexivity.
Qed.
