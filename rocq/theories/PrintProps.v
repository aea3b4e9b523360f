(** C135, C136: printing values. *)
From Verif Require Import Base Decimal PrintSpec PrintModel PrintProofs PrintProofs2 PrintProofs3.

(** C135.  Printing a value of any type writes its text: every element, key,
    value and field once, in order, with the names, the quotes and the
    separators; a struct inside a struct of its own type is written Name{...},
    and a value without such a struct is written whole.  At most 63 struct
    types; strings without zero bytes; no expression of the C text is cut. *)
Theorem print_exact_partial : forall cty D flt chr hex u t v newline fuel ss g',
  (length D <= 63)%nat -> has D t v -> emit_print cty D fuel (Guard u [] 0) t newline = Ok (ss, g') -> forallb intact ss = true ->
  printed flt chr hex u v ss = Some (shown flt chr hex [] false v ++ if newline then [10] else []) /\
  (unfolded [] v = true -> shown flt chr hex [] false v = whole flt chr hex false v).
Proof.
  intros cty D flt chr hex u t v newline fuel ss g' L H E I. split; [|intros U; now apply shown_whole].
  unfold emit_print in E. cbn [uid] in E. destruct (emit cty D fuel _ _ t false) as [[s1 g1]| | |] eqn:E1; try discriminate.
  cbn in E. injection E as <- <-. rewrite forallb_app in I. apply andb_prop in I as [I _].
  unfold printed. rewrite run_all_seq.
  assert (S : sane D (next (Guard u [] 0))).
  { repeat split; cbn; auto. constructor. intros x []. }
  rewrite (run_app _ _ _ s1 _ _ (shown flt chr hex [] false v) (set_pv u v (Env (fun _ => None) (fun _ => None)))).
  - destruct newline; cbn; now rewrite ?app_nil_r.
  - apply (emit_run cty D flt chr hex L fuel _ _ _ _ _ _ S E1); auto; [cbn; lia|]. intros _. cbn. now rewrite Nat.eqb_refl.
Qed.
Definition plain (t : ty) : bytes := match t with TArr _ => bs "GrayArray" | TMap _ _ => bs "GrayMap" | TStr => bs "GrayString" | _ => bs "int64_t" end.
Definition none (z : Z) : bytes := [].
Definition text_of (D : decls) (t : ty) (v : val) : option bytes :=
  match emit_print plain D 300 (Guard 7 [] 0) t true with Ok (ss, _) => printed none none none 7 v ss | _ => None end.
Definition zoo : decls := [(bs "Cat", [(bs "name", TStr); (bs "kits", TArr (TNamed (bs "Cat"))); (bs "ages", TMap TStr TInt)])].
Definition tom : val := VRec (bs "Cat") [(bs "name", VStr (bs "Tom")); (bs "kits", VArr []); (bs "ages", VMap [(VStr (bs "y"), VInt (-3))])].
Example print_exact_live : has zoo (TArr (TNamed (bs "Cat"))) (VArr [tom; tom]) /\ unfolded [] (VArr [tom; tom]) = true /\
  (exists ss g', emit_print plain zoo 20 (Guard 7 [] 0) (TArr (TNamed (bs "Cat"))) true = Ok (ss, g') /\ forallb intact ss = true) /\
  text_of zoo (TArr (TNamed (bs "Cat"))) (VArr [tom; tom]) =
  Some (bs "{Cat{name: ""Tom"", kits: {}, ages: {""y"": -3}}, Cat{name: ""Tom"", kits: {}, ages: {""y"": -3}}}" ++ [10]).
Proof.
  assert (H : has zoo (TNamed (bs "Cat")) tom).
  { eapply has_rec; [vm_compute; reflexivity| |].
    - repeat constructor; cbn; intuition discriminate.
    - repeat constructor; cbn; try (intuition discriminate). }
  split; [constructor; auto|]. split; [vm_compute; reflexivity|]. split; [|vm_compute; reflexivity].
  do 2 eexists. split; vm_compute; reflexivity.
Qed.
(** Not every value is written whole, and different values can have one text: a
    struct inside its own type loses its fields; a map nested in maps six deep has no text
    (the C text is cut); quotes are not escaped. *)
Theorem print_exact_refuted :
  (exists v, has zoo (TNamed (bs "Cat")) v /\ text_of zoo (TNamed (bs "Cat")) v <> Some (whole none none none false v ++ [10])) /\
  (let t := TMap TStr (TMap TStr (TMap TStr (TMap TStr (TMap TStr (TMap TStr TInt))))) in
   let k v := VMap [(VStr (bs "k"), v)] in
   has [] t (k (k (k (k (k (k (VInt 1))))))) /\ text_of [] t (k (k (k (k (k (k (VInt 1))))))) = None) /\
  (exists v w, v <> w /\ has [] (TArr TStr) v /\ has [] (TArr TStr) w /\ text_of [] (TArr TStr) v = text_of [] (TArr TStr) w).
Proof.
  split; [|split].
  - exists (VRec (bs "Cat") [(bs "name", VStr (bs "Mum")); (bs "kits", VArr [tom]); (bs "ages", VMap [])]). split.
    + assert (H : has zoo (TNamed (bs "Cat")) tom).
      { eapply has_rec; [vm_compute; reflexivity| |].
        - repeat constructor; cbn; intuition discriminate.
        - repeat constructor; cbn; try (intuition discriminate). }
      eapply has_rec; [vm_compute; reflexivity| |].
      * repeat constructor; cbn; intuition discriminate.
      * repeat constructor; cbn; try (intuition discriminate).
    + vm_compute. discriminate.
  - split; [|vm_compute; reflexivity]. repeat (constructor; cbn); try (intuition discriminate).
  - exists (VArr [VStr (bs "a"", ""b")]), (VArr [VStr (bs "a"); VStr (bs "b")]).
    split; [discriminate|]. split; [repeat constructor; cbn; intuition discriminate|].
    split; [repeat constructor; cbn; intuition discriminate|]. vm_compute. reflexivity.
Qed.

(** C136.  The compiler gets through every print: for every type over at most
    63 struct types the statements are found, and the guard is left as it was,
    so the next print starts like the first. *)
Theorem print_compiles_partial : forall cty D u t newline, (length D <= 63)%nat ->
  exists fuel ss u', (forall fuel', (fuel <= fuel')%nat -> emit_print cty D fuel' (Guard u [] 0) t newline = Ok (ss, Guard u' [] 0)) /\
  (u < u')%nat.
Proof.
  intros cty D u t newline L. assert (S : sane D (next (Guard u [] 0))).
  { repeat split; cbn; auto. constructor. intros x []. }
  destruct (emit_total cty D L (length D) t (next (Guard u [] 0)) (CVar u) false ltac:(cbn; lia) S) as (fuel & [ss [u' vs d]] & E).
  destruct (emit_keeps cty D L _ _ _ _ _ _ _ S E) as (K1 & K2 & K3). cbn in *. subst.
  exists fuel, (ss ++ if newline then [Puts [10]] else []), u'. split; [|lia].
  intros fuel' Le. unfold emit_print. cbn [uid]. rewrite (emit_le cty D _ _ _ _ _ _ _ Le E). reflexivity.
Qed.
(** With more types it fails: a type inside sixty-four others that holds an array
    of itself makes the compiler recurse for ever, and after a print of
    sixty-five nested types the next print writes before the guard's array. *)
Theorem print_compiles_refuted :
  (forall fuel, emit_print plain loop65 fuel (Guard 0 [] 0) (TNamed (nm 0)) true = NoFuel) /\
  (exists ss g, emit_print plain deep65 300 (Guard 0 [] 0) (TNamed (nm 0)) true = Ok (ss, g) /\
   emit_print plain deep65 300 g (TNamed (nm 0)) true = UB).
Proof.
  split.
  - intros fuel. unfold emit_print. change (next (Guard 0 [] 0)) with (Guard 1 (around 0) 0).
    rewrite (loops plain fuel 0%nat) by lia. reflexivity.
  - destruct (emit_print plain deep65 300 (Guard 0 [] 0) (TNamed (nm 0)) true) as [[ss g]| | |] eqn:E.
    + exists ss, g. split; [reflexivity|].
      assert (G : match emit_print plain deep65 300 (Guard 0 [] 0) (TNamed (nm 0)) true with Ok (_, g) => (vis g, debt g) | _ => ([], 0%nat) end = ([], 1%nat))
        by (vm_compute; reflexivity).
      rewrite E in G. destruct g as [u vs d]. cbn in G. injection G as -> ->. unfold emit_print. cbn [uid next vis debt]. reflexivity.
    + exfalso. apply (f_equal (fun r => match r with Ok _ => true | _ => false end)) in E. vm_compute in E. discriminate.
    + exfalso. apply (f_equal (fun r => match r with Ok _ => true | _ => false end)) in E. vm_compute in E. discriminate.
    + exfalso. apply (f_equal (fun r => match r with Ok _ => true | _ => false end)) in E. vm_compute in E. discriminate.
Qed.

Print Assumptions print_exact_partial.
Print Assumptions print_exact_refuted.
Print Assumptions print_compiles_partial.
Print Assumptions print_compiles_refuted.
