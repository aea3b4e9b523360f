From Verif Require Import Base Decimal PrintSpec PrintModel PrintProofs PrintProofs2.

(** *** Nothing is left out of a value without nested structs of one type *)
Section ValInd.
Context (P : val -> Prop).
Context (HI : forall z, P (VInt z)) (HF : forall z, P (VFlt z)) (HS : forall s, P (VStr s)) (HB : forall b, P (VBool b))
  (HC : forall c, P (VChar c)) (HP : forall a, P (VPtr a)) (HA : forall l, Forall P l -> P (VArr l))
  (HM : forall l, Forall (fun kv => P (fst kv) /\ P (snd kv)) l -> P (VMap l))
  (HR : forall n l, Forall (fun fv => P (snd fv)) l -> P (VRec n l)).
Fixpoint val_all (v : val) : P v :=
  match v with
  | VInt z => HI z | VFlt z => HF z | VStr s => HS s | VBool b => HB b | VChar c => HC c | VPtr a => HP a
  | VArr l => HA l ((fix all (l : list val) : Forall P l :=
      match l with [] => Forall_nil _ | v :: l => Forall_cons v (val_all v) (all l) end) l)
  | VMap l => HM l ((fix all (l : list (val * val)) : Forall (fun kv => P (fst kv) /\ P (snd kv)) l :=
      match l with [] => Forall_nil _ | (a, b) :: l => Forall_cons (a, b) (conj (val_all a) (val_all b)) (all l) end) l)
  | VRec n l => HR n l ((fix all (l : list (bytes * val)) : Forall (fun fv => P (snd fv)) l :=
      match l with [] => Forall_nil _ | (f, v) :: l => Forall_cons (f, v) (val_all v) (all l) end) l)
  end.
End ValInd.
Lemma shown_whole flt chr hex v : forall path q, unfolded path v = true -> shown flt chr hex path q v = whole flt chr hex q v.
Proof.
  pattern v. apply val_all; clear v; try reflexivity.
  - intros l F path q U. cbn in *. do 2 f_equal. f_equal. apply map_ext_in. intros x I. rewrite forallb_forall in U.
    rewrite Forall_forall in F. auto.
  - intros l F path q U. cbn in U. rewrite forallb_forall in U. rewrite Forall_forall in F. destruct l as [|y l]; [reflexivity|].
    cbn [shown whole]. do 3 f_equal. apply map_ext_in. intros [a b] I. specialize (U _ I). apply andb_prop in U as [U1 U2].
    destruct (F _ I) as [F1 F2]. cbn in *. now rewrite F1, F2.
  - intros n l F path q U. cbn [unfolded shown whole] in *. apply andb_prop in U as [U1 U2]. destruct (existsb _ _); [discriminate|].
    do 4 f_equal. apply map_ext_in. intros [f v] I. rewrite forallb_forall in U2. rewrite Forall_forall in F. cbn [fst snd].
    do 2 f_equal. apply (F _ I). apply (U2 _ I).
Qed.

(** *** Sixty-five nested types *)
Definition nm (i : nat) : bytes := [65; Z.of_nat i].
Definition link (i : nat) : bytes * list (bytes * ty) := (nm i, [(bs "f", TNamed (nm (S i)))]).
Definition loop65 : decls := map link (seq 0 64) ++ [(nm 64, [(bs "f", TArr (TNamed (nm 64)))])].
Definition deep65 : decls := map link (seq 0 64) ++ [(nm 64, [(bs "f", TInt)])].
Definition around (i : nat) : list bytes := rev (map nm (seq 0 i)).
Lemma link_facts : forallb (fun i => negb (existsb (same_name (nm i)) (around i)) && (length (around i) =? i)%nat &&
  match fields loop65 (nm i) with Some [(f, TNamed m)] => same_name f (bs "f") && same_name m (nm (S i)) | _ => false end) (seq 0 64) = true.
Proof. vm_compute. reflexivity. Qed.
Lemma around_S i : nm i :: around i = around (S i).
Proof. unfold around. rewrite seq_S, map_app, rev_app_distr. reflexivity. Qed.
Lemma loops cty : forall fuel i u e q, (i <= 64)%nat -> emit cty loop65 fuel (Guard u (around i) 0) e (TNamed (nm i)) q = NoFuel.
Proof.
  induction fuel as [fuel IH] using lt_wf_ind. intros i u e q L. destruct fuel as [|fuel]; [reflexivity|].
  cbn [emit vis]. assert (i = 64 \/ i < 64)%nat as [->|L2] by lia.
  - assert (existsb (same_name (nm 64)) (around 64) = false) as -> by (vm_compute; reflexivity).
    assert (enter (nm 64) (Guard u (around 64) 0) = Ok (Guard u (around 64) 0)) as -> by (vm_compute; reflexivity).
    cbn [rbind]. assert (fields loop65 (nm 64) = Some [(bs "f", TArr (TNamed (nm 64)))]) as -> by (vm_compute; reflexivity).
    cbn [emit_fields]. destruct fuel as [|fuel]; [reflexivity|]. cbn [emit composite].
    change (next (next (Guard u (around 64) 0))) with (Guard (S (S u)) (around 64) 0).
    rewrite (IH fuel ltac:(lia) 64%nat) by lia. reflexivity.
  - pose proof link_facts as H. rewrite forallb_forall in H. specialize (H i). rewrite in_seq in H. specialize (H ltac:(lia)).
    apply andb_prop in H as [H H3]. apply andb_prop in H as [H1 H2]. destruct (existsb _ _); [discriminate|].
    unfold enter. cbn [vis debt uid]. assert (length (around i) <? CYCLE_GUARD_DEPTH = true)%nat as -> by (unfold CYCLE_GUARD_DEPTH; lia).
    cbn [rbind]. destruct (fields loop65 (nm i)) as [[|[f []] []]|]; try discriminate.
    apply andb_prop in H3 as [_ H3]. apply same_iff in H3. subst n. cbn [emit_fields]. rewrite around_S, (IH fuel) by lia. reflexivity.
Qed.
