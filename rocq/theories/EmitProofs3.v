(** Proofs about the C text of expressions: every expression is read as it was written. *)
From Verif Require Import Base BaseFacts ArithModel EmitModel EmitSpec EmitProofs EmitProofs2.

Section Main.
Context (file : bytes) (line : Z) (tname : ety -> bytes) (in_const : bool) (decides : punct -> sk -> bool).
Notation evals := (evals decides).
Notation any := (any decides).
Notation emit := (emit_expression file line tname in_const).
Notation good := (good file line tname in_const decides).
Definition clean (e : expr) : Prop :=
  forall x, inside x e -> (in_const = false -> ~ float_sum_divided x) /\ (in_const = true -> forall b y s t d, x <> InRange b y s t d).

Lemma prefix_reads p s c : unary_op p -> prim s c -> prim ([P LP; P p] ++ s ++ [P RP]) (CUn p c).
Proof.
  intros U H z. flat. apply u_group; [destruct U as [->|[->| ->]]; exact I|]. eapply c_expr; [apply u_op; [exact U|apply H]|]. apply c_stop. exact I.
Qed.
Lemma group_reads s c : starts s -> full s c -> prim (P LP :: s ++ [P RP]) c.
Proof. exact (group s c). Qed.
Lemma five_prec o : In o five -> exists k, prec (c_op o) = Some k /\ (9 <= k)%nat.
Proof. intros [<-|[<-|[<-|[<-|[<-|[]]]]]]; cbn; eauto with arith. Qed.
(** an operand next to a bit operator *)
Lemma bits_reads o l r cl cr k : prec (c_op o) = Some k -> (k <= 5)%nat ->
  good l cl -> good r cr -> whole (type_of l) -> whole (type_of r) -> full (emit l ++ [P (c_op o)] ++ emit r) (CBin (c_op o) cl cr).
Proof.
  intros Pk K (_ & _ & _ & Hl) (_ & _ & _ & Hr) Wl Wr z Sz. rewrite <- app_assoc.
  assert (R : exists b r1 , unary (emit r ++ z) b r1 /\ climb (S k) b r1 cr z).
  { destruct Hr as [H|(o' & l' & r' & _ & (s1 & s2 & a & b & -> & H1 & H2 & ->) & W)].
    - exists cr, z. split; [apply H|]. apply c_stop. now apply stops_any.
    - destruct (W (or_introl Wr)) as [_ I]. destruct (five_prec _ I) as (k' & Pk' & K'). exists a, ([P (c_op o')] ++ s2 ++ z). split; [flat; apply H1|].
      cbn [app]. eapply c_take; [exact Pk'|lia|apply H2|apply c_stop; now apply stops_any|apply c_stop; now apply stops_any]. }
  destruct R as (b & r1 & U & C).
  destruct Hl as [H|(o' & l' & r' & _ & (s1 & s2 & a & b' & -> & H1 & H2 & ->) & W)].
  - eapply c_expr; [apply H|]. cbn [app]. eapply c_take; [exact Pk|lia|exact U|exact C|apply c_stop; now apply stops_any].
  - destruct (W (or_introl Wl)) as [_ I]. destruct (five_prec _ I) as (k' & Pk' & K'). flat. eapply c_expr; [apply H1|].
    eapply c_take; [exact Pk'|lia|apply H2|apply c_stop; cbn [stops]; rewrite Pk; lia|].
    eapply c_take; [exact Pk|lia|exact U|exact C|apply c_stop; now apply stops_any].
Qed.
Lemma source_op o l r : o <> ONe -> source (Infix o l r) = Bi (c_op o) (source l) (source r).
Proof. destruct o; intros H; try reflexivity; now destruct H. Qed.
Lemma call2_ops f p a b rest x y env : checked_neg f = false -> checked_op f = Some p -> ops env a = Some x -> ops env b = Some y ->
  ops env (CCall f (a :: b :: rest)) = Some (Bi p x y).
Proof. intros N O E1 E2. cbn. now rewrite N, O, E1, E2. Qed.
Lemma call1_ops f a rest x env : checked_neg f = true -> ops env a = Some x -> ops env (CCall f (a :: rest)) = Some (Un Minus x).
Proof. intros N E1. cbn. now rewrite N, E1. Qed.

Lemma whole_numeric t : whole t -> numeric t.
Proof. destruct t; try exact (fun x => x); exact (fun _ => I). Qed.
Lemma numeric_whole t t' : numeric t -> is_float t || is_float t' = false -> whole t.
Proof. destruct t; try exact (fun _ _ => I); try (intros []); discriminate. Qed.
Lemma whole_not_float t t' : whole t -> whole t' -> is_float t || is_float t' = false.
Proof. destruct t, t'; try reflexivity; cbn; tauto. Qed.
Lemma strings_alike t t' : (numeric t /\ numeric t') \/ t = t' -> is_string t || is_string t' = is_string t.
Proof. intros [[H1 H2]| ->]; [|now destruct (is_string t')]. destruct t, t'; try reflexivity; cbn in H1, H2; tauto. Qed.
Lemma any_inside e l : any e l -> Forall (fun a => exists b t, inside (Leaf b t a) e) l.
Proof.
  induction 1 as [b t a|o e l H IH|o e r l L D H IH|o e r l1 l2 L D H1 IH1 H2 IH2|o e r l1 l2 l L H1 IH1 H2 IH2 M|e l R F].
  - constructor; [|constructor]. exists b, t. constructor.
  - eapply Forall_impl; [|exact IH]. intros a (b & t & I). exists b, t. now constructor.
  - eapply Forall_impl; [|exact IH]. intros a (b & t & I). exists b, t. now constructor.
  - apply Forall_app. split; (eapply Forall_impl; [|eassumption]; intros a (b & t & I); exists b, t; now constructor).
  - eapply merge_Forall; [exact M| |]; (eapply Forall_impl; [|eassumption]; intros a (b & t & I); exists b, t; now constructor).
  - exact F.
Qed.
Lemma bin_Forall (Q : nat -> Prop) env p a b l : (forall l, evals env a l -> Forall Q l) -> (forall l, evals env b l -> Forall Q l) -> evals env (CBin p a b) l -> Forall Q l.
Proof.
  intros Ha Hb H. inversion H as [| | | | | |? ? ? ? v ? L Ov D Hl|? ? ? ? v ? ? L Ov D Hl Hr|? ? ? ? ? ? ? L Hl Hr M| |]; subst.
  - auto.
  - apply Forall_app. auto.
  - eapply merge_Forall; eauto.
Qed.
Lemma num_Forall (Q : nat -> Prop) env z l : evals env (CNum z) l -> Forall Q l.
Proof. intros H. inversion H. constructor. Qed.
Lemma emit_good e : typed e -> clean e -> exists c, good e c.
Proof.
  induction e as [b t a|o e IHe|o l r IHl IHr|b x s e d IHx IHs IHe IHd] using expr_ind2; intros Ty Cl.
  - exists (CAtom a). apply good_prim; [exact I|reflexivity| |].
    + intros z. apply u_atom.
    + intros env l H. inversion H; subst. constructor.
  - assert (exists c, good e c) as [c G].
    { apply IHe; [inversion Ty; assumption|]. intros x I. apply Cl. now apply i_prefix. }
    assert (Dflt : emit (Prefix o e) = [P LP; P (c_prefix o)] ++ wrap (is_infix e) (emit e) ++ [P RP] -> exists c, good (Prefix o e) c).
    { intros E. exists (CUn (c_prefix o) c). apply good_prim.
      - rewrite E. exact I.
      - intros env. cbn [ops]. rewrite (proj1 (proj2 G)). destruct o; reflexivity.
      - rewrite E. apply prefix_reads; [destruct o; red; cbn; tauto|]. exact (good_wrapped _ _ _ _ _ _ _ G).
      - intros env l H. inversion H; subst. constructor. eapply G; eassumption. }
    assert (T1 : prim ([P LP; P Tilde; P LP] ++ emit e ++ [P RP; P RP]) (CUn Tilde c)).
    { intros z. flat. apply u_group; [exact I|]. eapply c_expr; [apply u_op; [red; tauto|]|apply c_stop; exact I].
      apply u_group; [apply starts_group; apply G|]. apply (good_full _ _ _ _ _ _ _ G). exact I. }
    destruct o.
    + cbn [emit_expression] in Dflt |- *. destruct (type_of e) as [i| | | |] eqn:Te; try (apply Dflt; reflexivity).
      destruct (ArithModel.kind_int i) eqn:Ki; [|apply Dflt; reflexivity].
      destruct (sized_int_bounds i) as [[[lo hi] u]|] eqn:Sb.
      * destruct (num_full lo) as (cn & Hn & Bn). eexists. apply good_prim.
        -- cbn [emit_expression]. rewrite Te, Ki, Sb. exact I.
        -- intros env. apply call1_ops; [|apply G]. instantiate (1 := bs "gray_sized_neg_check"). reflexivity.
        -- cbn [emit_expression]. rewrite Te, Ki, Sb. intros z. flat. apply u_call. eapply a_more; [apply (good_full _ _ _ _ _ _ _ G); exact I|].
           eapply a_num_more; [exact Hn|]. pa.
        -- intros env l H. apply call1_evals in H; [|cbn; now rewrite Bn]. constructor. eapply G; eassumption.
      * eexists. apply good_prim.
        -- cbn [emit_expression]. rewrite Te, Ki, Sb. exact I.
        -- intros env. apply call1_ops; [|apply G]. instantiate (1 := bs "gray_neg_check"). reflexivity.
        -- cbn [emit_expression]. rewrite Te, Ki, Sb. intros z. flat. apply u_call. eapply a_more; [apply (good_full _ _ _ _ _ _ _ G); exact I|]. pa.
        -- intros env l H. apply call1_evals in H; [|reflexivity]. constructor. eapply G; eassumption.
    + apply Dflt. cbn [emit_expression]. destruct (type_of e); reflexivity.
    + assert (Tl : emit (Prefix BitNot e) = [P LP; P Tilde; P LP] ++ emit e ++ [P RP; P RP] -> exists c, good (Prefix BitNot e) c).
      { intros E. exists (CUn Tilde c). apply good_prim.
        - rewrite E. exact I.
        - intros env. cbn [ops]. now rewrite (proj1 (proj2 G)).
        - rewrite E. exact T1.
        - intros env l H. inversion H; subst. constructor. eapply G; eassumption. }
      cbn [emit_expression] in Tl. destruct (type_of e) as [[]| | | |] eqn:Te; try (apply Tl; reflexivity).
      exists (CCast Uint8T (CUn Tilde c)). apply good_prim.
      * cbn [emit_expression]. rewrite Te. exact I.
      * intros env. cbn [ops]. now rewrite (proj1 (proj2 G)).
      * cbn [emit_expression]. rewrite Te. intros z. flat. apply u_group; [exact I|]. eapply c_expr; [|apply c_stop; exact I].
        apply u_cast. specialize (T1 (P RP :: z)). revert T1. flat. auto.
      * intros env l H. apply cast_evals in H. inversion H; subst. constructor. eapply G; eassumption.
  - assert (typed l /\ typed r) as [Tl Tr] by (inversion Ty; split; assumption).
    destruct (IHl Tl) as [cl Gl]; [intros x I; apply Cl; now apply i_left|].
    destruct (IHr Tr) as [cr Gr]; [intros x I; apply Cl; now apply i_right|].
    set (normal := wrap (is_infix l) (emit l) ++ [P (c_op o)] ++ wrap (is_infix r) (emit r)).
    assert (Normal : emit (Infix o l r) = normal ->
      (o = ONe -> is_string (type_of l) = false) -> (whole (type_of (Infix o l r)) \/ o = ODiv -> in_const = true /\ In o five) -> exists c, good (Infix o l r) c).
    { intros E NS W. exists (CBin (c_op o) cl cr). apply good_infix; auto. destruct o; try reflexivity. cbn [source]. now rewrite NS. }
    pose proof (good_full _ _ _ _ _ _ _ Gl) as Fl. pose proof (good_full _ _ _ _ _ _ _ Gr) as Fr.
    pose proof Gl as (Sl & Ol & Vl & Hl). pose proof Gr as (Sr & Or & Vr & Hr).
    assert (IC : in_const = true \/ in_const = false) by (destruct in_const; auto).
    assert (Arith : In o [OAdd; OSub; OMul] -> numeric (type_of l) -> numeric (type_of r) -> exists c, good (Infix o l r) c).
    { intros O Nl Nr.
      assert (N : o <> ONe) by (destruct O as [<-|[<-|[<-|[]]]]; discriminate).
      destruct IC as [IC|IC].
      - apply Normal; [|congruence|].
        + unfold normal. rewrite IC. destruct O as [<-|[<-|[<-|[]]]]; reflexivity.
        + intros _. split; [exact IC|]. destruct O as [<-|[<-|[<-|[]]]]; cbn; auto.
      - destruct (int_like (type_of l) && int_like (type_of r)) eqn:IL.
        + assert (E : emit (Infix o l r) = emit_arith file line tname o (type_of l) (type_of r) (emit l) (emit r)).
          { rewrite IC. destruct O as [<-|[<-|[<-|[]]]]; cbn [emit_expression]; now rewrite IL. }
          destruct (arith_reads file line tname o (type_of l) (type_of r) _ _ _ _ O Fl Fr) as (f & lm & Nf & Of & Bf & Pf).
          eexists. apply good_prim; [rewrite E; unfold emit_arith; destruct (sized_bounds _) as [[[]]|]; exact I| |rewrite E; exact Pf|].
          * intros env. rewrite (source_op _ _ _ N). apply call2_ops; auto.
          * intros env l0 H. apply call2_evals in H as (l1 & l2 & H1 & H2 & M); [|exact Bf]. eapply any_op; eauto. destruct O as [<-|[<-|[<-|[]]]]; reflexivity.
        + apply Normal; [|congruence|].
          * unfold normal. rewrite IC. destruct O as [<-|[<-|[<-|[]]]]; cbn [emit_expression]; now rewrite IL.
          * intros W. exfalso. destruct W as [W|W]; [|destruct O as [<-|[<-|[<-|[]]]]; discriminate]. revert W IL Nl Nr.
            destruct O as [<-|[<-|[<-|[]]]]; cbn [type_of]; destruct (type_of l), (type_of r); cbn; try tauto; discriminate. }
    assert (Div : In o [ODiv; ORem] -> numeric (type_of l) -> numeric (type_of r) -> (o = ORem -> whole (type_of l) /\ whole (type_of r)) -> exists c, good (Infix o l r) c).
    { intros O Nl Nr Wh.
      assert (N : o <> ONe) by (destruct O as [<-|[<-|[]]]; discriminate).
      destruct IC as [IC|IC].
      - apply Normal; [|congruence|].
        + unfold normal. rewrite IC. destruct O as [<-|[<-|[]]]; reflexivity.
        + intros _. split; [exact IC|]. destruct O as [<-|[<-|[]]]; cbn; tauto.
      - assert (E : emit (Infix o l r) = emit_div file line o (type_of l) (type_of r) (emit l) (emit r)).
        { rewrite IC. destruct O as [<-|[<-|[]]]; reflexivity. }
        assert (D : exists c, prim (emit_div file line o (type_of l) (type_of r) (emit l) (emit r)) c /\ (forall env, ops env c = Some (Bi (c_op o) (source l) (source r))) /\
          forall env l0, evals env c l0 -> exists l1 l2, any l l1 /\ any r l2 /\ merge l1 l2 l0).
        { destruct (is_float (type_of l) || is_float (type_of r)) eqn:FL.
          - assert (o = ODiv) as ->.
            { destruct O as [<-|[<-|[]]]; [reflexivity|]. destruct (Wh eq_refl) as [W1 W2]. rewrite (whole_not_float _ _ W1 W2) in FL. discriminate. }
            assert (Dl : prim (emit l) cl \/ bin Star (emit l) cl).
            { destruct Hl as [H|(o' & l' & r' & -> & B & W)]; [now left|].
              assert (Fo : type_of (Infix o' l' r') = EFloat).
              { destruct (type_of (Infix o' l' r')) eqn:Et; cbn in Nl; try tauto; destruct (W (or_introl I)); congruence. }
              assert (o' <> ODiv) by (intros ->; destruct (W (or_intror eq_refl)); congruence).
              assert (In o' [OAdd; OSub; OMul]) as Os.
              { clear - Tl Fo H. inversion Tl as [| | | |? ? ? O _ _ Nl Nr|? ? ? O _ _ Wl Wr|? ? ? O _ _ Bl Br|? ? ? O _ _ Q|]; subst.
                - cbn in O. repeat (destruct O as [<-|O]; [cbn; auto; try discriminate Fo|]); try destruct O; try (now destruct H).
                - exfalso. cbn in O. repeat (destruct O as [<-|O]; [cbn in Fo; destruct (type_of l'), (type_of r'); cbn in *; try tauto; discriminate|]). destruct O.
                - exfalso. cbn in O. repeat (destruct O as [<-|O]; [discriminate Fo|]). destruct O.
                - exfalso. cbn in O. repeat (destruct O as [<-|O]; [discriminate Fo|]). destruct O. }
              destruct Os as [<-|[<-|[<-|[]]]]; [| |right; exact B].
              - exfalso. refine (proj1 (Cl _ (i_self _)) IC _). exists OAdd, l', r', r. cbn. auto.
              - exfalso. refine (proj1 (Cl _ (i_self _)) IC _). exists OSub, l', r', r. cbn. auto. }
            destruct Hr as [H|(o' & l' & r' & -> & B & W)].
            + apply float_div_reads with (cl := cl) (cr := cr) (p := Star) (k := 0%nat); auto.
            + destruct (prec_op o') as [k Pk]. apply float_div_reads with (cl := cl) (cr := cr) (p := c_op o') (k := k); auto.
          - apply int_div_reads with (cl := cl) (cr := cr); auto. apply good_whole with (1 := Gl); [exact IC|]. exact (numeric_whole _ _ Nl FL). }
        destruct D as (c & Pc & Oc & Vc). exists c. apply good_prim.
        + rewrite E. unfold emit_div. destruct (is_float _ || is_float _); exact I.
        + intros env. now rewrite (source_op _ _ _ N).
        + rewrite E. exact Pc.
        + intros env l0 H. destruct (Vc _ _ H) as (l1 & l2 & H1 & H2 & M). eapply any_op; eauto. destruct O as [<-|[<-|[]]]; reflexivity. }
    assert (Logic : In o [OLt; OGt; OLe; OGe; OAnd; OOr] -> exists c, good (Infix o l r) c).
    { intros O. apply Normal.
      - cbn in O. repeat (destruct O as [<-|O]; [reflexivity|]). destruct O.
      - intros ->. cbn in O. repeat (destruct O as [O|O]; [discriminate|]). destruct O.
      - intros W. exfalso. cbn in O. repeat (destruct O as [<-|O]; [destruct W as [[]|W]; discriminate|]). destruct O. }
    inversion Ty as [| | | |? ? ? O _ _ Nl Nr|? ? ? O _ _ Wl Wr|? ? ? O _ _ Bl Br|? ? ? O _ _ Q|]; subst.
    + destruct O as [<-|[<-|[<-|[<-|[<-|[<-|[<-|[<-|[]]]]]]]]]; first [apply Arith; [cbn; auto; fail|assumption|assumption] | apply Logic; cbn; auto 8; fail | apply Div; [cbn; auto; fail|assumption|assumption|discriminate]].
    + assert (Nl : numeric (type_of l)) by (apply whole_numeric; assumption). assert (Nr : numeric (type_of r)) by (apply whole_numeric; assumption).
      assert (Bits : In o [BAnd; BOr; BXor] -> exists c, good (Infix o l r) c).
      { intros B. assert (E : emit (Infix o l r) = [P LP] ++ (emit l ++ [P (c_op o)] ++ emit r) ++ [P RP]).
        { rewrite <- !app_assoc. destruct B as [<-|[<-|[<-|[]]]]; reflexivity. }
        exists (CBin (c_op o) cl cr). apply good_prim.
        - rewrite E. exact I.
        - intros env. rewrite source_op by (destruct B as [<-|[<-|[<-|[]]]]; discriminate). now apply ops_bin.
        - rewrite E. apply group; [now apply starts_app|]. assert (exists k, prec (c_op o) = Some k /\ (k <= 5)%nat) as (k & Pk & K).
          { destruct B as [<-|[<-|[<-|[]]]]; eexists; (split; [reflexivity|lia]). }
          now apply bits_reads with k.
        - intros env l0 H. assert (L : logical (c_op o) = false) by (destruct B as [<-|[<-|[<-|[]]]]; reflexivity). inversion H; subst; try congruence. eapply any_op; eauto. }
      assert (Shift : In o [OShl; OShr] -> exists c, good (Infix o l r) c).
      { intros B. destruct (shift_reads file line decides o (emit l) (emit r) cl cr (source l) (source r) (match l with Leaf true _ _ => true | _ => false end) (any l) (any r)) as (c & Pc & Oc & Vc); auto.
        - destruct l as [[] t a| | |]; try discriminate. intros _. destruct Hl as [H|(? & ? & ? & ? & _)]; [exact H|discriminate].
        - exists c. assert (E : emit (Infix o l r) = [P LP; P LB; T Int64T; V (bs "_sa"); P Assign; P LP; T Int64T; P RP; P LP] ++ emit r ++
          [P RP; P Semi; If; P LP; V (bs "_sa"); P Lt; N 0; P BarBar; V (bs "_sa"); P Ge; N 64; P RP] ++
          panic_block file line (bs "P0092") (bs "shift amount is out of range") [P Comma; V (bs "_sa")] ++
          [P LP] ++ (if (match l with Leaf true _ _ => true | _ => false end) then [P LP; T Int64T; P RP] else []) ++ emit l ++
          [P RP; P (c_op o); P LP; T IntT; P RP; V (bs "_sa"); P Semi; P RB; P RP]).
          { destruct B as [<-|[<-|[]]]; destruct l as [[] t a| | |]; reflexivity. }
          apply good_prim.
          + rewrite E. exact I.
          + intros env. rewrite source_op by (destruct B as [<-|[<-|[]]]; discriminate). apply Oc.
          + rewrite E. exact Pc.
          + intros env l0 H. destruct (Vc _ _ H) as (l1 & l2 & H1 & H2 & M). eapply any_op; eauto. destruct B as [<-|[<-|[]]]; reflexivity. }
      destruct O as [<-|[<-|[<-|[<-|[<-|[<-|[]]]]]]]; first [apply Bits; cbn; auto; fail | apply Shift; cbn; auto; fail | apply Div; [cbn; auto; fail|assumption|assumption|auto]].
    + apply Logic. destruct O as [<-|[<-|[]]]; cbn; auto 8.
    + assert (St : is_string (type_of l) || is_string (type_of r) = is_string (type_of l)).
      { apply strings_alike. exact Q. }
      pose proof (call2_bare (bs "gray_string_eq") _ _ _ _ Fl Fr) as Call.
      assert (Ops : forall env, ops env (CCall (bs "gray_string_eq") [cl; cr]) = Some (Bi EqEq (source l) (source r))).
      { intros env. apply call2_ops; auto. }
      assert (Vq : forall env l0, evals env (CCall (bs "gray_string_eq") [cl; cr]) l0 -> logical (c_op o) = false -> any (Infix o l r) l0).
      { intros env l0 H L. apply call2_evals in H as (l1 & l2 & H1 & H2 & M); [|reflexivity]. eapply any_op; eauto. }
      destruct O as [<-|[<-|[]]]; destruct (is_string (type_of l)) eqn:Is.
      * exists (CCall (bs "gray_string_eq") [cl; cr]). assert (E : emit (Infix OEq l r) = call2 (bs "gray_string_eq") (emit l) (emit r) []) by (cbn [emit_expression]; now rewrite Is, St).
        apply good_prim; [rewrite E; exact I|exact Ops|rewrite E; exact Call|]. intros env l0 H. eapply Vq; eauto.
      * apply Normal; [cbn [emit_expression]; now rewrite Is, St|discriminate|]. intros [[]|]; discriminate.
      * exists (CUn Bang (CCall (bs "gray_string_eq") [cl; cr])).
        assert (E : emit (Infix ONe l r) = P Bang :: call2 (bs "gray_string_eq") (emit l) (emit r) []) by (cbn [emit_expression]; now rewrite Is, St).
        apply good_prim; [rewrite E; exact I| |rewrite E|].
        -- intros env. cbn [source]. rewrite Is. cbn [ops] in Ops |- *. now rewrite Ops.
        -- intros z. cbn [app]. apply u_op; [red; tauto|]. apply Call.
        -- intros env l0 H. inversion H; subst. eapply Vq; eauto.
      * apply Normal; [cbn [emit_expression]; now rewrite Is, St|auto|]. intros [[]|]; discriminate.
  - assert (IC : in_const = false).
    { destruct in_const eqn:IC; [|reflexivity]. exfalso. exact (proj2 (Cl _ (i_self _)) IC _ _ _ _ _ eq_refl). }
    inversion Ty as [| | | | | | | |? ? ? ? ? Tx Ts Te Td Wx We]; subst.
    destruct (IHx Tx) as [cx Gx]; [intros y I; apply Cl; now apply i_x|].
    destruct (IHe Te) as [ce Ge]; [intros y I; apply Cl; now apply i_stop|].
    pose proof (good_whole _ _ _ _ _ _ _ Gx IC Wx) as Px. pose proof (good_whole _ _ _ _ _ _ _ Ge IC We) as Pe.
    assert (exists cs, prim (match s with Some s => emit s | None => [N 0] end) cs /\ (forall env, ops env cs = Some (match s with Some s => source s | None => Lit 0 end)) /\
      forall env l, evals env cs l -> Forall (fun a => exists b1 t, inside (Leaf b1 t a) (InRange b x s e d)) l) as (cs & Ps & Os & Vs).
    { destruct s as [s|].
      - destruct (Ts _ eq_refl) as [T1 W1]. destruct (IHs _ eq_refl T1) as [c G]; [intros y I; apply Cl; now apply i_start|].
        exists c. split; [exact (good_whole _ _ _ _ _ _ _ G IC W1)|]. split; [apply G|]. intros env l H. eapply Forall_impl; [|apply any_inside; eapply G; exact H].
        intros a (b1 & t & J). exists b1, t. now apply i_start.
      - exists (CNum 0). split; [intros z; apply u_num|]. split; [reflexivity|]. intros env l H. eapply num_Forall; exact H. }
    set (es := match s with Some s => emit s | None => [N 0] end) in *.
    set (ss := match s with Some s => source s | None => Lit 0 end) in *.
    assert (exists c, full (emit x ++ [P EmitModel.Ge] ++ es ++ [P AmpAmp] ++ emit x ++ [P Lt] ++ emit e ++
        (match d with
         | Some s => [P AmpAmp; P LP] ++ emit x ++ [P Minus] ++ es ++ [P RP; P Percent] ++ emit s ++ [P EqEq; N 0]
         | None => []
         end)) c /\ (forall env, ops env c = Some (let within := Bi AmpAmp (Bi EmitModel.Ge (source x) ss) (Bi Lt (source x) (source e)) in
          match d with Some d => Bi AmpAmp within (Bi EqEq (Bi Percent (Bi Minus (source x) ss) (source d)) (EmitSpec.Lit 0)) | None => within end)) /\
          forall env l, evals env c l -> Forall (fun a => exists b1 t, inside (Leaf b1 t a) (InRange b x s e d)) l) as (c & Fc & Oc & Vc).
    { assert (Vx : forall env l, evals env cx l -> Forall (fun a => exists b1 t, inside (Leaf b1 t a) (InRange b x s e d)) l).
      { intros env l H. eapply Forall_impl; [|apply any_inside; eapply Gx; exact H]. intros a (b1 & t & J). exists b1, t. now apply i_x. }
      assert (Ve : forall env l, evals env ce l -> Forall (fun a => exists b1 t, inside (Leaf b1 t a) (InRange b x s e d)) l).
      { intros env l H. eapply Forall_impl; [|apply any_inside; eapply Ge; exact H]. intros a (b1 & t & J). exists b1, t. now apply i_stop. }
      destruct d as [d|].
      - destruct (Td _ eq_refl) as [T1 W1]. destruct (IHd _ eq_refl T1) as [cd Gd]; [intros y I; apply Cl; now apply i_step|].
        pose proof (good_whole _ _ _ _ _ _ _ Gd IC W1) as Pd.
        eexists. split; [|split].
        + intros z Sz. flat. eapply c_expr; [apply Px|].
          eapply c_take; [reflexivity|lia|apply Ps|apply c_stop; cbn; lia|].
          eapply c_take; [reflexivity|lia|apply Px| |].
          * eapply c_take; [reflexivity|lia|apply Pe|apply c_stop; cbn; lia|]. apply c_stop. cbn. lia.
          * eapply c_take; [reflexivity|lia| | |].
            -- apply u_group; [apply starts_group, Gx|]. eapply c_expr; [apply Px|]. eapply c_take; [reflexivity|lia|apply Ps|apply c_stop; exact I|apply c_stop; exact I].
            -- eapply c_take; [reflexivity|lia|apply Pd|apply c_stop; cbn; lia|]. eapply c_take; [reflexivity|lia|apply u_num|apply c_stop; now apply stops_any|].
               apply c_stop; now apply stops_any.
            -- apply c_stop; now apply stops_any.
        + intros env. cbv zeta. repeat apply ops_bin; try apply Gx; try apply Ge; try apply Gd; try apply Os. reflexivity.
        + intros env l H. assert (Vd : forall l, evals env cd l -> Forall (fun a => exists b1 t, inside (Leaf b1 t a) (InRange b x s e (Some d))) l).
          { intros l0 H0. eapply Forall_impl; [|apply any_inside; eapply Gd; exact H0]. intros a (b1 & t & J). exists b1, t. now apply i_step. }
          revert l H. repeat (intros l; apply bin_Forall; clear l); eauto using num_Forall.
      - eexists. split; [|split].
        + intros z Sz. rewrite app_nil_r. flat. eapply c_expr; [apply Px|].
          eapply c_take; [reflexivity|lia|apply Ps|apply c_stop; cbn; lia|].
          eapply c_take; [reflexivity|lia|apply Px| |].
          * eapply c_take; [reflexivity|lia|apply Pe|apply c_stop; now apply stops_any|]. apply c_stop. now apply stops_any.
          * apply c_stop; now apply stops_any.
        + intros env. cbv zeta. repeat apply ops_bin; try apply Gx; try apply Ge; try apply Os.
        + intros env. repeat (intros l; apply bin_Forall; clear l); eauto. }
    assert (Sb : starts (emit x ++ [P EmitModel.Ge] ++ es ++ [P AmpAmp] ++ emit x ++ [P Lt] ++ emit e ++
        (match d with
         | Some s => [P AmpAmp; P LP] ++ emit x ++ [P Minus] ++ es ++ [P RP; P Percent] ++ emit s ++ [P EqEq; N 0]
         | None => []
         end))) by (apply starts_app, Gx).
    pose proof (group _ _ Sb Fc) as Pg.
    destruct b.
    + exists (CUn Bang c). apply good_prim.
      * exact I.
      * intros env. cbn [ops]. rewrite Oc. reflexivity.
      * intros z. cbn [emit_expression]. fold es. flat. apply u_op; [red; tauto|]. apply u_group; [exact I|].
        eapply c_expr; [|apply c_stop; exact I]. specialize (Pg (P RP :: z)). revert Pg. flat. auto.
      * intros env l H. inversion H; subst. apply any_range; [exact I|]. eapply Vc; eassumption.
    + exists c. apply good_prim.
      * exact I.
      * intros env. rewrite Oc. reflexivity.
      * intros z. cbn [emit_expression]. fold es. specialize (Pg z). revert Pg. flat. auto.
      * intros env l H. apply any_range; [exact I|]. eapply Vc; eassumption.
Qed.
End Main.
