(** C139, C140: struct literals and new(). *)
From Verif Require Import Base ArgsSpec InitSpec InitModel InitProofs.

(** A literal is accepted exactly when it writes no field twice and only fields
    of the struct; every report says which. *)
Theorem literal_checked : forall fs l,
  (check_literal fs l = [] <-> NoDup (map fst l) /\ forall x, In x (map fst l) -> In x (map f_name fs)) /\
  (forall c, In c (check_literal fs l) ->
    (c = 2015 /\ ~ NoDup (map fst l)) \/ (c = 3010 /\ exists x, In x (map fst l) /\ ~ In x (map f_name fs))).
Proof.
  intros fs l. unfold check_literal. split.
  - split.
    + intros C. apply app_eq_nil in C as [C1 C2]. apply twice_nil in C1 as [N _]. split; auto. now apply unknown_nil.
    + intros [N K]. rewrite (proj2 (twice_nil [] l)), (proj2 (unknown_nil fs l)); auto.
  - intros c H. apply in_app_or in H as [H|H].
    + left. split.
      * revert H. generalize (@nil bytes). induction l as [|[x e] t IH]; intros seen H; cbn in H; [easy|]. apply in_app_or in H as [H|H]; [|now apply IH in H].
        destruct (existsb _ seen); [|easy]. now destruct H as [<-|[]].
      * intros N. rewrite (proj2 (twice_nil [] l)) in H; auto.
    + right. clear -H. induction l as [|[x e] t IH]; cbn in H; [easy|]. apply in_app_or in H as [H|H].
      * destruct (existsb (fun f => same (f_name f) x) fs) eqn:E; [easy|]. destruct H as [<-|[]]. split; auto. exists x. split; [now left|].
        intros Y. apply in_map_iff in Y as (f & EQ & F). assert (existsb (fun f => same (f_name f) x) fs = true); [|congruence].
        apply existsb_exists. exists f. split; auto. now apply same_iff.
      * destruct (IH H) as (-> & y & Y & NY). split; auto. exists y. split; auto. now right.
Qed.

(** C139.  Every field of a struct made with a literal holds what the literal
    writes for it, or else its default, or else zero.  The literal writes a
    field, or the first field has a default, or none has; the caller hides no
    name of a default in use; arrays and maps are written or have a default. *)
Theorem literal_fields_partial : forall rho glob fs l cs, NoDup (map f_name fs) -> check_literal fs l = [] ->
  (l <> [] \/ (forall f t, fs = f :: t -> f_default f <> None) \/ (forall f, In f fs -> f_default f = None)) ->
  unhidden rho glob fs l -> (forall f, In f fs -> f_shape f = Container -> In (f_name f) (map fst l) \/ f_default f <> None) ->
  Forall2 (holds rho glob l) fs cs -> run_literal rho fs (emit_literal fs l) = Some cs.
Proof. intros rho glob fs l cs N C W U K H. now apply (literal_values rho glob fs l N C W U K cs). Qed.
(** An empty literal of a struct whose first field has no default and a later
    one has never compiles. *)
Theorem literal_comma : forall rho f fs, f_default f = None -> (exists g, In g fs /\ f_default g <> None) -> run_literal rho (f :: fs) (emit_literal (f :: fs) []) = None.
Proof. intros rho f fs F G. unfold run_literal. now rewrite items_broken. Qed.

Definition Config : list field := [Field (bs "host") Scalar None; Field (bs "port") Scalar (Some (Var (bs "PORT"))); Field (bs "tags") Container None].
Definition globals (x : bytes) : option Z := if list_eq_dec Z.eq_dec x (bs "PORT") then Some 8080 else None.
Definition hidden (x : bytes) : option Z := if list_eq_dec Z.eq_dec x (bs "PORT") then Some 1 else None.
Example literal_fields_live : check_literal Config [(bs "tags", Num 4); (bs "host", Num 3)] = [] /\
  unhidden globals globals Config [(bs "tags", Num 4); (bs "host", Num 3)] /\
  Forall2 (holds globals globals [(bs "tags", Num 4); (bs "host", Num 3)]) Config [Val 3; Val 8080; Val 4] /\
  run_literal globals Config (emit_literal Config [(bs "tags", Num 4); (bs "host", Num 3)]) = Some [Val 3; Val 8080; Val 4].
Proof.
  split; [reflexivity|]. split; [intros f d x _ _ _ _; reflexivity|]. split; [|reflexivity].
  repeat constructor.
  - apply (h_given _ _ _ _ (Num 3)); [right; now left|reflexivity].
  - apply (h_default _ _ _ _ (Var (bs "PORT"))); [|reflexivity|reflexivity]. cbn. intros [X|[X|[]]]; discriminate X.
  - apply (h_given _ _ _ _ (Num 4)); [now left|reflexivity].
Qed.
(** Config{} starts with a comma; an array left out has no size of its
    elements; the default takes the caller's variable. *)
Theorem literal_fields_refuted :
  (check_literal Config [] = [] /\ run_literal globals Config (emit_literal Config []) = None) /\
  (check_literal Config [(bs "host", Num 3)] = [] /\
   Forall2 (holds globals globals [(bs "host", Num 3)]) Config [Val 3; Val 8080; Fresh] /\
   run_literal globals Config (emit_literal Config [(bs "host", Num 3)]) = Some [Val 3; Val 8080; Zeros]) /\
  (Forall2 (holds hidden globals [(bs "tags", Num 4)]) Config [Zeros; Val 8080; Val 4] /\
   run_literal hidden Config (emit_literal Config [(bs "tags", Num 4)]) = Some [Zeros; Val 1; Val 4]).
Proof.
  assert (NI : forall (x y : bytes) (e : exp), x <> y -> ~ In x (map fst [(y, e)])) by (cbn; intros x y e H [E|[]]; congruence).
  split; [vm_compute; auto|]. split; split; [reflexivity| | |reflexivity]; try split; try reflexivity; repeat constructor.
  - apply (h_given _ _ _ _ (Num 3)); [now left|reflexivity].
  - apply (h_default _ _ _ _ (Var (bs "PORT"))); [|reflexivity|reflexivity]. apply NI. discriminate.
  - apply NI. discriminate.
  - apply NI. discriminate.
  - apply (h_default _ _ _ _ (Var (bs "PORT"))); [|reflexivity|reflexivity]. apply NI. discriminate.
  - apply (h_given _ _ _ _ (Num 4)); [now left|reflexivity].
Qed.

(** C140.  Every field of a struct made with new() holds its default, or else
    zero; an array or a map is empty and can be added to. *)
Theorem new_fields_partial : forall rho glob fs cs, unhidden rho glob fs [] ->
  Forall2 (holds rho glob []) fs cs -> run_new rho fs = Some cs.
Proof. intros rho glob fs cs U H. now apply (new_values rho glob fs U). Qed.
Example new_fields_live : Forall2 (holds globals globals []) Config [Zeros; Val 8080; Fresh] /\ unhidden globals globals Config [] /\
  run_new globals Config = Some [Zeros; Val 8080; Fresh].
Proof.
  split; [|split; [intros f d x _ _ _ _|]; reflexivity]. repeat constructor; try (now intros []).
  apply (h_default _ _ _ _ (Var (bs "PORT"))); [now intros []|reflexivity|reflexivity].
Qed.
Theorem new_fields_refuted : Forall2 (holds hidden globals []) Config [Zeros; Val 8080; Fresh] /\ run_new hidden Config = Some [Zeros; Val 1; Fresh].
Proof.
  split; [|reflexivity]. repeat constructor; try (now intros []).
  apply (h_default _ _ _ _ (Var (bs "PORT"))); [now intros []|reflexivity|reflexivity].
Qed.

Print Assumptions literal_checked.
Print Assumptions literal_fields_partial.
Print Assumptions literal_comma.
Print Assumptions literal_fields_refuted.
Print Assumptions new_fields_partial.
Print Assumptions new_fields_refuted.
