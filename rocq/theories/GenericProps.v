(** C113, C114: calls of generic functions. *)
From Verif Require Import Base BaseFacts LexModel LexProofs NameModel TypesModel TypesSpec TypesProofs TypesProofs2.
From Verif Require Import GenericModel GenericSpec GenericProofs GenericProofs2.

(** ** One argument. *)
(** The type the wildcard is bound to, put back into the parameter's type,
    gives the type of the argument. *)
Theorem binding_sound_partial p a t : wf p -> even p -> bind_wildcard (show p) a = Ok (Some t) -> a = instance (show p) t.
Proof. intros W E H. now apply (bind_sound p W E) in H. Qed.
Print Assumptions binding_sound_partial.
(** With [map[?:[?]]] a [map[int:int]] is accepted. *)
Theorem binding_sound_refuted : exists p a t, wf p /\ bind_wildcard (show p) a = Ok (Some t) /\ a <> instance (show p) t.
Proof.
  exists (TMap (bs "?") (TArr (TName (bs "?")))), (bs "map[int:int]"), (bs "int"). split; [|split; [vm_compute; reflexivity|discriminate]].
  assert (W : word (bs "?")) by (split; [discriminate|repeat constructor]; unfold word_char; lia). constructor; [exact W|constructor; constructor; exact W].
Qed.
Print Assumptions binding_sound_refuted.
(** And if the argument's type is what the parameter's becomes for [t], the
    wildcard is bound to [t]. *)
Theorem binding_found_partial p t : readable p -> wf t -> show t <> bs "unknown" -> (keyed p -> exists n, t = TName n) ->
  bind_wildcard (show p) (instance (show p) (show t)) = Ok (Some (show t)).
Proof. intros R W N K. apply bind_complete; try assumption. lia. Qed.
Print Assumptions binding_found_partial.
(** Not so behind a pointer, in an array of fixed size, or in [map[?:[?]]]. *)
Theorem binding_found_refuted :
  bind_wildcard (bs "^?") (instance (bs "^?") (bs "int")) = Ok None /\
  bind_wildcard (bs "[?,3]") (instance (bs "[?,3]") (bs "int")) = Ok None /\
  bind_wildcard (bs "map[?:[?]]") (instance (bs "map[?:[?]]") (bs "int")) = Ok None.
Proof. repeat split; vm_compute; reflexivity. Qed.
Print Assumptions binding_found_refuted.
Theorem binding_total p a : exists o, bind_wildcard p a = Ok o.
Proof. apply bind_total. Qed.
Print Assumptions binding_total.
(** The type of the result is the declared one with the binding put in. *)
Theorem result_type s t : substitute_wildcard s t = instance s t.
Proof. apply substitute_instance. Qed.
Print Assumptions result_type.

(** ** All arguments of a call. *)
Lemma infer_ok l : forall b e b', infer l b e = Ok (b', false) ->
  e = false /\ (forall x, b = Some x -> b' = Some x) /\
  (forall p a, In (PVal p, AVal a) l -> wild p -> a <> bs "unknown" -> exists t, b' = Some t /\ bind_wildcard p a = Ok (Some t)) /\
  (forall p n, In (PVal p, AStruct n) l -> ~ wild p) /\ (forall a, ~ In (PType, AVal a) l).
Proof.
  induction l as [|[[p|] [a|n]] l IH]; intros b e b' H; cbn [infer] in H.
  - injection H as -> ->. repeat split; try tauto; cbn [In]; intros; tauto.
  - pose proof (wild_iff p) as Tp. pose proof (tame_iff p) as Tp'. destruct (type_name_has_wildcard p); cbn [negb] in H.
    + destruct (bind_total p a) as [o B]. rewrite B in H. cbn [rbind] in H. destruct o as [t|].
      * destruct b as [b|].
        -- apply IH in H as (He & H1 & H2 & H3 & H4). destruct (eqs b t) eqn:E; [|discriminate He]. apply eqs_iff in E. subst t.
           split; [exact He|]. split; [exact H1|]. split; [|split].
           ++ intros p' a' [Q|Q]; [|now apply H2]. injection Q as -> ->. intros _ _. exists b. split; [now apply H1|exact B].
           ++ intros p' n' [Q|Q]; [discriminate Q|now apply (H3 _ _ Q)].
           ++ intros a' [Q|Q]; [discriminate Q|now apply (H4 _ Q)].
        -- apply IH in H as (He & H1 & H2 & H3 & H4). split; [exact He|]. split; [discriminate|]. split; [|split].
           ++ intros p' a' [Q|Q]; [|now apply H2]. injection Q as -> ->. intros _ _. exists t. split; [now apply H1|exact B].
           ++ intros p' n' [Q|Q]; [discriminate Q|now apply (H3 _ _ Q)].
           ++ intros a' [Q|Q]; [discriminate Q|now apply (H4 _ Q)].
      * apply IH in H as (He & H1 & H2 & H3 & H4). destruct (eqs a (bs "unknown")) eqn:E; [|discriminate He]. apply eqs_iff in E.
        split; [exact He|]. split; [exact H1|]. split; [|split].
        ++ intros p' a' [Q|Q]; [|now apply H2]. injection Q as -> ->. intros _ N. now elim N.
        ++ intros p' n' [Q|Q]; [discriminate Q|now apply (H3 _ _ Q)].
        ++ intros a' [Q|Q]; [discriminate Q|now apply (H4 _ Q)].
    + apply IH in H as (He & H1 & H2 & H3 & H4). split; [exact He|]. split; [exact H1|]. split; [|split].
      * intros p' a' [Q|Q]; [|now apply H2]. injection Q as -> ->. intros W. tauto.
      * intros p' n' [Q|Q]; [discriminate Q|now apply (H3 _ _ Q)].
      * intros a' [Q|Q]; [discriminate Q|now apply (H4 _ Q)].
  - pose proof (tame_iff p) as Tp'. destruct (type_name_has_wildcard p); cbn [negb] in H.
    + apply IH in H as (He & _). discriminate He.
    + apply IH in H as (He & H1 & H2 & H3 & H4). split; [exact He|]. split; [exact H1|]. split; [|split].
      * intros p' a' [Q|Q]; [discriminate Q|now apply H2].
      * intros p' n' [Q|Q]; [injection Q as -> ->; tauto|now apply (H3 _ _ Q)].
      * intros a' [Q|Q]; [discriminate Q|now apply (H4 _ Q)].
  - apply IH in H as (He & _). discriminate He.
  - apply IH in H as (He & H1 & H2 & H3 & H4). split; [exact He|]. split.
    { intros x ->. now apply H1. }
    split; [|split].
    + intros p' a' [Q|Q]; [discriminate Q|now apply H2].
    + intros p' n' [Q|Q]; [discriminate Q|now apply (H3 _ _ Q)].
    + intros a' [Q|Q]; [discriminate Q|now apply (H4 _ Q)].
Qed.
Lemma infer_total l : forall b e, exists q, infer l b e = Ok q.
Proof.
  induction l as [|[[p|] [a|n]] l IH]; intros b e; cbn [infer]; [eexists; reflexivity|..]; try (destruct (negb _); now apply IH); try apply IH.
  destruct (negb _); [apply IH|]. destruct (bind_total p a) as [[t|] ->]; cbn [rbind]; [|apply IH]. destruct b; apply IH.
Qed.
(** In a call without errors one type fits all parameters with a wildcard. *)
Theorem accepted_call_sound_partial params args b p a : check_call params args = Ok (b, false) -> In (PVal (show p), AVal a) (combine params args) ->
  wf p -> even p -> wild (show p) -> a <> bs "unknown" -> exists t, b = Some t /\ a = instance (show p) t.
Proof.
  intros H I W E Wi N. apply infer_ok in H as (_ & _ & H & _). destruct (H _ _ I Wi N) as (t & -> & B). exists t. split; [reflexivity|]. now apply binding_sound_partial.
Qed.
Print Assumptions accepted_call_sound_partial.
(** Parameters without a wildcard are not compared with their arguments, and
    neither is a type parameter after the wildcard has been bound. *)
Theorem accepted_call_sound_refuted :
  (exists t, check_call [PVal (bs "?"); PVal (bs "int")] [AVal (bs "int"); AVal (bs "string")] = Ok (Some t, false) /\
     ~ fits_param t (PVal (bs "int"), AVal (bs "string"))) /\
  (exists t, check_call [PVal (bs "?"); PType] [AVal (bs "int"); AStruct (bs "Point")] = Ok (Some t, false) /\
     ~ fits_param t (PType, AStruct (bs "Point"))).
Proof.
  split; exists (bs "int"); (split; [vm_compute; reflexivity|]); intros H; cbn [fits_param] in H; discriminate H.
Qed.
Print Assumptions accepted_call_sound_refuted.
(** A call whose arguments fit one type is accepted, with that type. *)
Lemma infer_good t l : wf t -> show t <> bs "unknown" -> Forall (fits_param (show t)) l ->
  (forall s a, In (PVal s, a) l -> wild s -> exists p, s = show p /\ readable p /\ (keyed p -> exists n, t = TName n)) ->
  forall b, b = None \/ b = Some (show t) ->
  infer l b false = Ok (if existsb (fun q => match fst q with PVal s => type_name_has_wildcard s | PType => true end) l then Some (show t) else b, false).
Proof.
  intros W N F. induction F as [|[[s|] [a|n]] l A F IH]; intros R b Hb; try (cbn [fits_param] in A; tauto); cbn [infer existsb fst].
  - reflexivity.
  - assert (R' : forall s a, In (PVal s, a) l -> wild s -> exists p, s = show p /\ readable p /\ (keyed p -> exists n, t = TName n)).
    { intros s' a' I. apply (R s' a'). now right. }
    destruct (type_name_has_wildcard s) eqn:T; cbn [negb orb].
    + apply wild_iff in T. cbn [fits_param] in A. destruct (R s (AVal a)) as (p & -> & Rp & K); [now left|exact T|]. subst a.
      rewrite binding_found_partial by assumption. cbn [rbind]. destruct Hb as [-> | ->].
      * rewrite IH by (try exact R'; now right). now destruct (existsb _ l).
      * rewrite eqs_refl, IH by (try exact R'; now right). now destruct (existsb _ l).
    + now apply IH.
  - cbn [fits_param] in A. subst n. assert (R' : forall s a, In (PVal s, a) l -> wild s -> exists p, s = show p /\ readable p /\ (keyed p -> exists n, t = TName n)).
    { intros s' a' I. apply (R s' a'). now right. }
    rewrite IH by (try exact R'; right; destruct Hb as [-> | ->]; reflexivity). cbn [orb]. destruct Hb as [-> | ->]; now destruct (existsb _ l).
Qed.
Theorem good_call_accepted_partial t params args : wf t -> show t <> bs "unknown" -> Forall (fits_param (show t)) (combine params args) ->
  (forall s a, In (PVal s, a) (combine params args) -> wild s -> exists p, s = show p /\ readable p /\ (keyed p -> exists n, t = TName n)) ->
  (exists s a, In (s, a) (combine params args) /\ (s = PType \/ exists s', s = PVal s' /\ wild s')) ->
  check_call params args = Ok (Some (show t), false).
Proof.
  intros W N F R (s & a & I & E). unfold check_call. rewrite (infer_good t) by (try assumption; now left).
  assert (X : existsb (fun q : param * arg => match fst q with PVal s => type_name_has_wildcard s | PType => true end) (combine params args) = true).
  { apply existsb_exists. exists (s, a). split; [exact I|]. cbn [fst]. destruct E as [-> |(s' & -> & E)]; [reflexivity|now apply wild_iff]. }
  now rewrite X.
Qed.
Print Assumptions good_call_accepted_partial.
Theorem call_check_total params args : exists b e, check_call params args = Ok (b, e).
Proof. destruct (infer_total (combine params args) None false) as [[b e] H]. now exists b, e. Qed.
Print Assumptions call_check_total.

(** ** Instances. *)
(** The types the wildcard stands for in some call are recorded, once each. *)
Theorem instances_recorded params calls : exists known, check_calls params calls [] = Ok known /\ NoDup known /\
  forall b, In b known <-> b <> bs "unknown" /\ exists c e, In c calls /\ check_call params c = Ok (Some b, e).
Proof.
  assert (G : forall calls known, NoDup known -> exists known', check_calls params calls known = Ok known' /\ NoDup known' /\
    forall b, In b known' <-> In b known \/ b <> bs "unknown" /\ exists c e, In c calls /\ check_call params c = Ok (Some b, e)).
  { clear calls. induction calls as [|c calls IH]; intros known N; cbn [check_calls].
    - exists known. split; [reflexivity|]. split; [exact N|]. intros b. split; [now left|]. intros [H|(_ & c & e & [] & _)]. exact H.
    - destruct (call_check_total params c) as (o & e & Hc). rewrite Hc. cbn [rbind fst].
      assert (R : NoDup (match o with Some b => record_instantiation known b | None => known end) /\
        forall b, In b (match o with Some b => record_instantiation known b | None => known end) <-> In b known \/ b <> bs "unknown" /\ o = Some b).
      { destruct o as [x|]; [|split; [exact N|]; intros b; split; [now left|]; intros [H|[_ H]]; [exact H|discriminate H]].
        unfold record_instantiation. destruct (eqs x (bs "unknown")) eqn:U.
        - apply eqs_iff in U. split; [exact N|]. intros b. split; [now left|]. intros [H|[H1 H2]]; [exact H|]. injection H2 as ->. now elim H1.
        - assert (U' : x <> bs "unknown") by (intros Q; rewrite Q, eqs_refl in U; discriminate U).
          destruct (existsb (fun k => eqs k x) known) eqn:E.
          + apply existsb_exists in E as (y & I & E). apply eqs_iff in E. subst y. split; [exact N|]. intros b. split; [now left|].
            intros [H|[H1 H2]]; [exact H|]. injection H2 as <-. exact I.
          + assert (E' : ~ In x known).
            { intros I. assert (X : existsb (fun k => eqs k x) known = true) by (apply existsb_exists; exists x; split; [exact I|apply eqs_refl]). congruence. }
            split.
            * apply NoDup_rev in N. apply (NoDup_cons x) in N; [|now rewrite <- in_rev]. apply NoDup_rev in N. cbn [rev] in N. now rewrite rev_involutive in N.
            * intros b. rewrite in_app_iff. cbn [In]. split; [intros [H|[H|[]]]; [now left|right; subst; now split]|].
              intros [H|[H1 H2]]; [now left|]. injection H2 as ->. right. now left. }
      destruct R as [R1 R2]. destruct (IH _ R1) as (known' & K1 & K2 & K3). exists known'. split; [exact K1|]. split; [exact K2|].
      intros b. rewrite K3, R2. split.
      + intros [[H|[H1 H2]]|(H1 & c' & e' & I & H2)].
        * now left.
        * right. split; [exact H1|]. exists c, e. split; [now left|]. now rewrite <- H2.
        * right. split; [exact H1|]. exists c', e'. split; [now right|exact H2].
      + intros [H|(H1 & c' & e' & [<-|I] & H2)].
        * left. now left.
        * left. right. split; [exact H1|]. rewrite Hc in H2. now injection H2 as -> _.
        * right. split; [exact H1|]. now exists c', e'. }
  destruct (G calls [] (NoDup_nil _)) as (known & K1 & K2 & K3). exists known. split; [exact K1|]. split; [exact K2|].
  intros b. rewrite K3. split; [intros [[]|H]; exact H|now right].
Qed.
Print Assumptions instances_recorded.
(** The code generator finds the same type: an accepted call names the instance
    that was recorded for it. *)
Theorem both_find_the_same p a t : bind_wildcard p a = Ok (Some t) -> codegen_bind_wildcard p a = Ok (Some t).
Proof. intros H. now apply agree in H. Qed.
Print Assumptions both_find_the_same.
Theorem call_names_instance fn params args b : check_call params args = Ok (Some b, false) -> ~ In (AVal (bs "unknown")) args ->
  called_name fn params args = Ok (c_call fn b).
Proof.
  unfold check_call, called_name. intros H U.
  assert (U' : forall q, In q (combine params args) -> snd q <> AVal (bs "unknown")).
  { intros [p a] I E. apply in_combine_r in I. cbn [snd] in E. now subst. }
  assert (G : call_binding (combine params args) = Ok (Some b)).
  { revert H U'. generalize (combine params args). clear. induction l as [|[[p|] [a|n]] l IH]; intros H U; cbn [infer] in H; [discriminate|..];
      cbn [call_binding]; cbv zeta.
    - pose proof (U _ (or_introl eq_refl)) as Ua. cbn [snd] in Ua.
      assert (U' : forall q, In q l -> snd q <> AVal (bs "unknown")) by (intros q I; apply U; now right).
      destruct (negb (type_name_has_wildcard p)) eqn:T; [now apply IH|].
      destruct (bind_total p a) as [o B]. rewrite B in H. cbn [rbind] in H. destruct o as [t|].
      + pose proof (infer_ok _ _ _ _ H) as (_ & H1 & _). specialize (H1 t eq_refl). injection H1 as ->.
        destruct (eqs p (bs "?")) eqn:Q.
        * apply eqs_iff in Q. subst p. unfold bind_wildcard in B. cbn [length bs] in B. cbn [bind_string] in B. rewrite eqs_refl in B.
          destruct (eqs a (bs "unknown")); [discriminate|]. now injection B as ->.
        * apply both_find_the_same in B. rewrite B. reflexivity.
      + apply infer_ok in H as (H & _). destruct (eqs a (bs "unknown")) eqn:E; [|discriminate]. apply eqs_iff in E. now subst.
    - destruct (type_name_has_wildcard p); cbn [negb] in *; [apply infer_ok in H as (H & _); discriminate|].
      apply IH; [exact H|]. intros q I. apply U. now right.
    - apply infer_ok in H as (H & _). discriminate.
    - pose proof (infer_ok _ _ _ _ H) as (_ & H1 & _). specialize (H1 n eq_refl). now injection H1 as ->. }
  rewrite G. reflexivity.
Qed.
Print Assumptions call_names_instance.
(** Its definition has that name, unless the names are long. *)
Theorem called_is_defined_partial fn params args b : check_call params args = Ok (Some b, false) -> ~ In (AVal (bs "unknown")) args ->
  Z.of_nat (length fn + length b) < 254 -> exists m, mangled fn b = Ok m /\ called_name fn params args = Ok (c_function m).
Proof.
  intros H U L. rewrite (call_names_instance _ _ _ b H U). unfold mangled. cbv zeta. unfold NameModel.MSG_BUF_SIZE. destruct (Z.leb_spec 256 (Z.of_nat (length fn) + 2)); [lia|].
  rewrite firstn_all2 by (rewrite map_length; lia). eexists. split; [reflexivity|]. reflexivity.
Qed.
Print Assumptions called_is_defined_partial.
Theorem called_is_defined_refuted : exists fn b m, check_call [PVal (bs "?")] [AVal b] = Ok (Some b, false) /\
  mangled fn b = Ok m /\ called_name fn [PVal (bs "?")] [AVal b] <> Ok (c_function m).
Proof.
  exists (List.repeat 97 (Z.to_nat 200)), (List.repeat 65 (Z.to_nat 60)). eexists. split; [vm_compute; reflexivity|]. split; [vm_compute; reflexivity|].
  vm_compute. discriminate.
Qed.
Print Assumptions called_is_defined_refuted.
(** The types inside the instance are those the type checker saw, up to 127
    characters. *)
Theorem instance_types_partial t s : Z.of_nat (length (instance s t)) < 128 -> codegen_effective_type_string t s = substitute_wildcard s t.
Proof. intros L. rewrite substitute_instance. now apply effective_instance. Qed.
Print Assumptions instance_types_partial.
Theorem instance_types_refuted : exists t s, codegen_effective_type_string t s <> substitute_wildcard s t.
Proof. exists (List.repeat 65 (Z.to_nat 127)), (bs "[?]"). vm_compute. discriminate. Qed.
Print Assumptions instance_types_refuted.

(** Cases. *)
Definition nested := TArr (TMap (bs "string") (TArr (TName (bs "?")))).
Lemma w s : forallb (fun c => ((48 <=? c) && (c <=? 57)) || ((65 <=? c) && (c <=? 90)) || ((97 <=? c) && (c <=? 122)) || (c =? 95) || (c =? 63)) s = true -> s <> [] -> word s.
Proof. intros H N. split; [exact N|]. apply Forall_forall. rewrite forallb_forall in H. intros c Hc. apply H in Hc. unfold word_char. lia. Qed.
Example nested_ok : wf nested /\ readable nested /\ even nested /\ bind_wildcard (show nested) (bs "[map[string:[int]]]") = Ok (Some (bs "int")).
Proof.
  split; [|split; [|split; [|vm_compute; reflexivity]]].
  - constructor. constructor; [apply w; [reflexivity|discriminate]|]. constructor. constructor. apply w; [reflexivity|discriminate].
  - constructor. constructor; [apply w; [reflexivity|discriminate]| |repeat constructor].
    apply tame_iff. vm_compute. reflexivity.
  - cbn [even nested]. split; [|exact I]. intros H. apply wild_iff in H. vm_compute in H. discriminate H.
Qed.
Example call_ok : check_call [PVal (bs "[?]"); PVal (bs "?"); PVal (bs "int")] [AVal (bs "[string]"); AVal (bs "string"); AVal (bs "int")] = Ok (Some (bs "string"), false)
  /\ check_call [PVal (bs "[?]"); PVal (bs "?")] [AVal (bs "[string]"); AVal (bs "int")] = Ok (Some (bs "string"), true)
  /\ called_name (bs "push") [PVal (bs "[?]"); PVal (bs "?")] [AVal (bs "[[int]]"); AVal (bs "[int]")] = Ok (bs "gray_fn_push___int_").
Proof. repeat split; vm_compute; reflexivity. Qed.
Example calls_ok : check_calls [PVal (bs "?")] [[AVal (bs "int")]; [AVal (bs "string")]; [AVal (bs "int")]] [] = Ok [bs "int"; bs "string"].
Proof. vm_compute. reflexivity. Qed.
