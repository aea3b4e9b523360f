(** Proofs about the C text of expressions: it is read as the source was. *)
From Verif Require Import Base BaseFacts ArithModel EmitModel EmitSpec EmitProofs.

(** a binary operation between unary expressions *)
Definition bin (p : punct) (s : list tok) (c : ctree) : Prop := exists s1 s2 a b, s = s1 ++ [P p] ++ s2 /\ prim s1 a /\ prim s2 b /\ c = CBin p a b.
Lemma bin_reads p k s c : prec p = Some k -> bin p s c -> full s c.
Proof. intros E (s1 & s2 & a & b & -> & H1 & H2 & ->). exact (bin_full _ _ _ _ _ _ H1 H2 E). Qed.
(** a conversion takes the first operand *)
Lemma cast_prim t s c : prim s c -> prim ([P LP; T t; P RP] ++ s) (CCast t c).
Proof. intros H r. flat. apply u_cast. apply H. Qed.
Lemma cast_evals d env t c l : evals d env (CCast t c) l -> evals d env c l.
Proof. intros H. now inversion H. Qed.
Lemma cast_bin_evals d env t p a b l : evals d env (CBin p (CCast t a) b) l -> evals d env (CBin p a b) l.
Proof.
  intros H. inversion H; subst.
  - eapply v_short; eauto using cast_evals.
  - eapply v_then; eauto using cast_evals.
  - eapply v_bin; eauto using cast_evals.
Qed.
(** [c'] is [c] but for conversions *)
Definition same (c' c : ctree) : Prop := (forall env, ops env c' = ops env c) /\ forall d env l, evals d env c' l -> evals d env c l.
Lemma cast_full t s c p k : prim s c \/ (prec p = Some k /\ bin p s c) -> exists c', full ([P LP; T t; P RP] ++ s) c' /\ same c' c.
Proof.
  intros [H|(E & s1 & s2 & a & b & -> & H1 & H2 & ->)].
  - exists (CCast t c). split; [apply prim_full; now apply cast_prim|split; [reflexivity|]]. intros. eapply cast_evals; eassumption.
  - exists (CBin p (CCast t a) b). split; [|split; [reflexivity|]].
    + rewrite app_assoc. eapply bin_full; [apply cast_prim; exact H1|exact H2|exact E].
    + intros. eapply cast_bin_evals; eassumption.
Qed.
Lemma div_by_var t s c q v : prim s c \/ bin Star s c -> prec q = Some 10%nat ->
  exists c', same c' c /\ forall r, stops 0 r -> no_call r -> cexpr 0 (([P LP; T t; P RP] ++ s) ++ P q :: V v :: r) (CBin q c' (CVar v)) r.
Proof.
  intros [H|(s1 & s2 & a & b & -> & H1 & H2 & ->)] E.
  - exists (CCast t c). split; [split; [reflexivity|intros; eapply cast_evals; eassumption]|]. intros r S NC. eapply c_expr; [apply cast_prim; exact H|].
    eapply c_take; [exact E|lia|now apply u_var|apply c_stop; now apply stops_any|apply c_stop; now apply stops_any].
  - exists (CBin Star (CCast t a) b). split; [split; [reflexivity|intros; eapply cast_bin_evals; eassumption]|]. intros r S NC. rewrite app_assoc, <- app_assoc. eapply c_expr; [apply cast_prim; exact H1|]. flat.
    eapply c_take; [reflexivity|lia|apply H2|apply c_stop; cbn; rewrite E; lia|].
    eapply c_take; [exact E|lia|now apply u_var|apply c_stop; now apply stops_any|apply c_stop; now apply stops_any].
Qed.

Lemma ops_let env t x c v l : ops env c = Some v ->
  ops env (CBlock (SLet t x c :: l)) = ops (fun y => if list_eq_dec Z.eq_dec y x then Some v else env y) (CBlock l).
Proof. intros E. cbn. now rewrite E. Qed.
Lemma ops_if env c b l : ops env (CBlock (SIf c b :: l)) = ops env (CBlock l).
Proof. reflexivity. Qed.
Lemma ops_last env c : ops env (CBlock [SExpr c]) = ops env c.
Proof. reflexivity. Qed.
Lemma ops_bin env p a b x y : ops env a = Some x -> ops env b = Some y -> ops env (CBin p a b) = Some (Bi p x y).
Proof. intros E1 E2. cbn. now rewrite E1, E2. Qed.

(** ** Evaluation *)
Lemma merge_left_nil {X} (l : list X) : merge l [] l.
Proof. induction l; constructor; auto. Qed.
Lemma merge_right_nil {X} (l : list X) : merge [] l l.
Proof. induction l; constructor; auto. Qed.
Lemma merge_app {X} (l1 l2 : list X) : merge l1 l2 (l1 ++ l2).
Proof. induction l1; cbn; [apply merge_right_nil|now constructor]. Qed.
Lemma merge_app_rev {X} (l1 l2 : list X) : merge l1 l2 (l2 ++ l1).
Proof. induction l2; cbn; [apply merge_left_nil|now constructor]. Qed.
Lemma merge_nil_r {X} (l1 l : list X) : merge l1 [] l -> l = l1.
Proof. remember [] as n eqn:E. induction 1; [reflexivity| |discriminate]. f_equal. auto. Qed.
Lemma merge_nil_l {X} (l1 l : list X) : merge [] l1 l -> l = l1.
Proof. remember [] as n eqn:E. induction 1; [reflexivity|discriminate|]. f_equal. auto. Qed.
Lemma merge_Forall {X} (Q : X -> Prop) l1 l2 l : merge l1 l2 l -> Forall Q l1 -> Forall Q l2 -> Forall Q l.
Proof. induction 1; intros F1 F2; auto; [inversion F1|inversion F2]; subst; auto. Qed.
Lemma bare_evals d env c l : bare c = true -> evals d env c l -> l = [].
Proof.
  intros B H. revert B. induction H; intros B; cbn in B; try discriminate; auto; apply andb_prop in B as [Ba Bb].
  - auto.
  - now rewrite IHevals1, IHevals2.
  - rewrite IHevals1, IHevals2 in H2 by assumption. now inversion H2.
Qed.
Lemma bare_args d env cs l : forallb bare cs = true -> evals_args d env cs l -> l = [].
Proof.
  revert l. induction cs as [|c cs IH]; intros l B H; inversion H as [|? ? ? l1 l2 ? H1 H2 M]; subst; [reflexivity|]. cbn in B. apply andb_prop in B as [B1 B2].
  apply bare_evals in H1; [|exact B1]. apply IH in H2; [|exact B2]. subst. now inversion M.
Qed.
Lemma call2_evals d env f a b rest l : forallb bare rest = true -> evals d env (CCall f (a :: b :: rest)) l -> exists l1 l2, evals d env a l1 /\ evals d env b l2 /\ merge l1 l2 l.
Proof.
  intros B H. inversion H as [| | | | | | | | |? ? ? ? HA|]; subst. inversion HA as [|? ? ? l1 l2 ? H1 HB M]; subst. inversion HB as [|? ? ? l3 l4 ? H2 HC M2]; subst.
  apply bare_args in HC; [|exact B]. subst. apply merge_nil_r in M2. subst. eauto.
Qed.
Lemma call1_evals d env f a rest l : forallb bare rest = true -> evals d env (CCall f (a :: rest)) l -> evals d env a l.
Proof.
  intros B H. inversion H as [| | | | | | | | |? ? ? ? HA|]; subst. inversion HA as [|? ? ? l1 l2 ? H1 HB M]; subst.
  apply bare_args in HB; [|exact B]. subst. apply merge_nil_r in M. now subst.
Qed.
Lemma let_evals d env t x c s l : evals d env (CBlock (SLet t x c :: s)) l -> exists v l1 l2, evals d env c l1 /\ evals d (fun y => if list_eq_dec Z.eq_dec y x then Some v else env y) (CBlock s) l2 /\ l = l1 ++ l2.
Proof.
  intros H. inversion H as [| | | | | | | | | |? ? ? HS]; subst. inversion HS; subst. eexists _, _, _. split; [eassumption|]. split; [constructor; eassumption|reflexivity].
Qed.
Lemma if_evals d env c b s l : bare c = true -> evals d env (CBlock (SIf c b :: s)) l -> evals d env (CBlock s) l.
Proof.
  intros B H. inversion H as [| | | | | | | | | |? ? ? HS]; subst. inversion HS as [| |? ? ? ? l1 l2 H1|]; subst. apply bare_evals in H1; [|exact B]. subst. now constructor.
Qed.
Lemma last_evals d env c l : evals d env (CBlock [SExpr c]) l -> evals d env c l.
Proof.
  intros H. inversion H as [| | | | | | | | | |? ? ? HS]; subst. inversion HS as [| | |? ? ? l1 l2 H1 H2]; subst. inversion H2; subst. now rewrite app_nil_r.
Qed.
Lemma by_var_evals d env p c v l : logical p = false -> evals d env (CBin p c (CVar v)) l -> evals d env c l.
Proof.
  intros N H. inversion H as [| | | | | |? ? ? ? ? ? L|? ? ? ? ? ? ? L|? ? ? ? l1 l2 ? L H1 H2 M| |]; subst; try congruence. inversion H2; subst. apply merge_nil_r in M. now subst.
Qed.

Lemma starts_op o r : starts (P (c_op o) :: r).
Proof. destruct o; exact I. Qed.

Section Main.
Context (file : bytes) (line : Z) (tname : ety -> bytes) (in_const : bool) (decides : punct -> sk -> bool).
Notation evals := (evals decides).
Notation emit := (emit_expression file line tname in_const).

Lemma float_div_reads o l r cl cr x y p k (Ql Qr : list nat -> Prop) : In o [ODiv; ORem] -> prim l cl \/ bin Star l cl -> prim r cr \/ (prec p = Some k /\ bin p r cr) ->
  (forall env, ops env cl = Some x) -> (forall env, ops env cr = Some y) -> (forall env l, evals env cl l -> Ql l) -> (forall env l, evals env cr l -> Qr l) -> forall tl tr, is_float tl || is_float tr = true ->
  exists c, prim (emit_div file line o tl tr l r) c /\ (forall env, ops env c = Some (Bi (c_op o) x y)) /\ forall env l, evals env c l -> exists l1 l2, Ql l1 /\ Qr l2 /\ merge l1 l2 l.
Proof.
  intros O Hl Hr Xl Xr Vl Vr tl tr F. unfold emit_div. rewrite F.
  destruct (cast_full DoubleT r cr p k Hr) as (cr' & Fr & Or & Or').
  assert (Pq : prec (c_op o) = Some 10%nat) by (destruct O as [<-|[<-|[]]]; reflexivity).
  destruct (div_by_var DoubleT l cl (c_op o) (bs "_dv") Hl Pq) as (cl' & (Ol & Ol') & Fl).
  eexists. split; [|split].
  - intros z. flat. apply u_block. unfold panic_block. flat. eapply s_let; [change (P LP :: T DoubleT :: P RP :: ?u) with ([P LP; T DoubleT; P RP] ++ u); rewrite app_assoc; apply Fr; exact I|].
    eapply s_if; [pe|eapply s_expr; [exact I|pe|apply s_end]|].
    eapply s_expr; [exact I|change (P LP :: T DoubleT :: P RP :: ?u) with ([P LP; T DoubleT; P RP] ++ u); rewrite app_assoc; apply Fl; exact I|apply s_end].
  - intros env. erewrite ops_let; [|rewrite Or; apply Xr]. rewrite ops_if, ops_last. apply ops_bin; [rewrite Ol; apply Xl|].
    cbn [ops]. destruct (list_eq_dec Z.eq_dec (bs "_dv") (bs "_dv")); congruence.
  - intros env l0 H. apply let_evals in H as (v & l1 & l2 & H1 & H2 & ->). apply if_evals in H2; [|reflexivity]. apply last_evals in H2.
    apply by_var_evals in H2; [|destruct O as [<-|[<-|[]]]; reflexivity]. exists l2, l1. split; [eapply Vl, Ol'; exact H2|]. split; [eapply Vr, Or'; exact H1|apply merge_app_rev].
Qed.
Lemma int_div_reads o l r cl cr x y (Ql Qr : list nat -> Prop) : In o [ODiv; ORem] -> starts l -> prim l cl -> full r cr ->
  (forall env, ops env cl = Some x) -> (forall env, ops env cr = Some y) -> (forall env l, evals env cl l -> Ql l) -> (forall env l, evals env cr l -> Qr l) -> forall tl tr, is_float tl || is_float tr = false ->
  exists c, prim (emit_div file line o tl tr l r) c /\ (forall env, ops env c = Some (Bi (c_op o) x y)) /\ forall env l, evals env c l -> exists l1 l2, Ql l1 /\ Qr l2 /\ merge l1 l2 l.
Proof.
  intros O Sl Hl Hr Xl Xr Vl Vr tl tr F. unfold emit_div. rewrite F. cbv zeta.
  set (smin := match match _ with Some i => _ | None => None end with Some _ => _ | None => _ end).
  assert (exists cm, prim smin cm /\ bare cm = true) as (cm & Hm & Bm).
  { subst smin. destruct (match match tl with EInt _ => _ | _ => _ end with Some i => sized_int_bounds i | None => None end) as [[[lo hi] []]|].
    - eexists. split; [intros z; flat; pu|reflexivity].
    - unfold num. destruct (lo <? 0); eexists; (split; [intros z; flat; pu|reflexivity]).
    - eexists. split; [intros z; flat; pu|reflexivity]. }
  assert (Pq : prec (c_op o) = Some 10%nat) by (destruct O as [<-|[<-|[]]]; reflexivity).
  destruct (kind_int tl || kind_int tr).
  - eexists. split; [|split].
    + intros z. flat. apply u_block. unfold panic_block. flat. eapply s_let; [apply Hr; exact I|].
      eapply s_if; [pe|eapply s_expr; [exact I|pe|apply s_end]|].
      eapply s_let; [apply (prim_full _ _ Hl); exact I|].
      eapply s_if.
      * eapply c_expr; [pu|]. eapply c_take; [reflexivity|lia|apply Hm|apply c_stop; cbn; lia|]. pc.
      * eapply s_expr; [exact I|pe|apply s_end].
      * eapply s_expr; [exact I| |apply s_end]. eapply c_expr; [apply u_var; destruct O as [<-|[<-|[]]]; exact I|].
        eapply c_take; [exact Pq|lia|pu|pc|pc].
    + intros env. erewrite ops_let; [|apply Xr]. rewrite ops_if. erewrite ops_let; [|apply Xl]. rewrite ops_if, ops_last. apply ops_bin.
      * cbn [ops]. destruct (list_eq_dec Z.eq_dec (bs "_dn") (bs "_dn")); congruence.
      * cbn [ops]. destruct (list_eq_dec Z.eq_dec (bs "_dv") (bs "_dn")) as [E|_]; [discriminate E|]. destruct (list_eq_dec Z.eq_dec (bs "_dv") (bs "_dv")); congruence.
    + intros env l0 H. apply let_evals in H as (v & l1 & l2 & H1 & H2 & ->). apply if_evals in H2; [|reflexivity].
      apply let_evals in H2 as (v' & l3 & l4 & H3 & H4 & ->). apply if_evals in H4; [|cbn; now rewrite Bm]. apply last_evals in H4. apply by_var_evals in H4; [|destruct O as [<-|[<-|[]]]; reflexivity].
      inversion H4; subst. rewrite app_nil_r. exists l3, l1. split; [eapply Vl; exact H3|]. split; [eapply Vr; exact H1|apply merge_app_rev].
  - eexists. split; [|split].
    + intros z. flat. apply u_block. unfold panic_block. flat. eapply s_let; [apply Hr; exact I|].
      eapply s_if; [pe|eapply s_expr; [exact I|pe|apply s_end]|].
      eapply s_expr; [now apply starts_stmt| |apply s_end]. eapply c_expr; [apply Hl|]. eapply c_take; [exact Pq|lia|pu|pc|pc].
    + intros env. erewrite ops_let; [|apply Xr]. rewrite ops_if, ops_last. apply ops_bin; [apply Xl|].
      cbn [ops]. destruct (list_eq_dec Z.eq_dec (bs "_dv") (bs "_dv")); congruence.
    + intros env l0 H. apply let_evals in H as (v & l1 & l2 & H1 & H2 & ->). apply if_evals in H2; [|reflexivity]. apply last_evals in H2.
      apply by_var_evals in H2; [|destruct O as [<-|[<-|[]]]; reflexivity]. exists l2, l1. split; [eapply Vl; exact H2|]. split; [eapply Vr; exact H1|apply merge_app_rev].
Qed.
Lemma shift_reads o l r cl cr x y (lit : bool) (Ql Qr : list nat -> Prop) : In o [OShl; OShr] -> starts l -> full l cl -> (lit = true -> prim l cl) -> starts r -> full r cr ->
  (forall env, ops env cl = Some x) -> (forall env, ops env cr = Some y) -> (forall env l, evals env cl l -> Ql l) -> (forall env l, evals env cr l -> Qr l) ->
  exists c, prim ([P LP; P LB; T Int64T; V (bs "_sa"); P Assign; P LP; T Int64T; P RP; P LP] ++ r ++
          [P RP; P Semi; If; P LP; V (bs "_sa"); P Lt; N 0; P BarBar; V (bs "_sa"); P Ge; N 64; P RP] ++
          panic_block file line (bs "P0092") (bs "shift amount is out of range") [P Comma; V (bs "_sa")] ++
          [P LP] ++ (if lit then [P LP; T Int64T; P RP] else []) ++ l ++
          [P RP; P (c_op o); P LP; T IntT; P RP; V (bs "_sa"); P Semi; P RB; P RP]) c /\ (forall env, ops env c = Some (Bi (c_op o) x y)) /\ forall env l, evals env c l -> exists l1 l2, Ql l1 /\ Qr l2 /\ merge l1 l2 l.
Proof.
  intros O Sl Hl Ll Sr Hr Xl Xr Vl Vr.
  assert (Pq : prec (c_op o) = Some 8%nat) by (destruct O as [<-|[<-|[]]]; reflexivity).
  assert (exists cl', same cl' cl /\ prim ([P LP] ++ ((if lit then [P LP; T Int64T; P RP] else []) ++ l) ++ [P RP]) cl') as (cl' & (Ol & Ol') & Pl).
  { destruct lit.
    - exists (CCast Int64T cl). split; [split; [reflexivity|intros; eapply cast_evals; eassumption]|]. apply group; [exact I|]. apply prim_full, cast_prim. auto.
    - exists cl. split; [split; auto|]. apply group; [exact Sl|exact Hl]. }
  eexists. split; [|split].
  - intros z. flat. apply u_block. unfold panic_block. flat. eapply s_let.
    + eapply c_expr; [apply u_cast, u_group; [now apply starts_group|apply Hr; exact I]|apply c_stop; exact I].
    + eapply s_if; [pe|eapply s_expr; [exact I|pe|apply s_end]|].
      eapply s_expr; [exact I| |apply s_end].
      specialize (Pl (P (c_op o) :: P LP :: T IntT :: P RP :: V (bs "_sa") :: P Semi :: P RB :: P RP :: z)). revert Pl. flat. intros Pl.
      eapply c_expr; [exact Pl|]. eapply c_take; [exact Pq|lia|pu|pc|pc].
  - intros env. erewrite ops_let; [|cbn [ops]; apply Xr]. rewrite ops_if, ops_last. apply ops_bin; [rewrite Ol; apply Xl|].
    cbn [ops]. destruct (list_eq_dec Z.eq_dec (bs "_sa") (bs "_sa")); congruence.
  - intros env l0 H. apply let_evals in H as (v & l1 & l2 & H1 & H2 & ->). apply if_evals in H2; [|reflexivity]. apply last_evals in H2. apply cast_evals in H1.
    assert (exists env', evals env' cl l2) as [env' H3].
    { inversion H2 as [| | | | | |? ? ? ? ? ? L|? ? ? ? ? ? ? L|? ? ? ? l3 l4 ? L H3 H4 M| |]; subst; try (destruct O as [<-|[<-|[]]]; discriminate).
      apply bare_evals in H4; [|reflexivity]. subst. apply merge_nil_r in M. subst. eexists. apply Ol'. exact H3. }
    exists l2, l1. split; [eapply Vl; exact H3|]. split; [eapply Vr; exact H1|apply merge_app_rev].
Qed.

Definition five := [OAdd; OSub; OMul; ODiv; ORem].
(** the operands of [e] in any order an evaluation of [e] could have *)
Inductive any : expr -> list nat -> Prop :=
| any_leaf b t a : any (Leaf b t a) [a]
| any_prefix o e l : any e l -> any (Prefix o e) l
| any_short o e r l : logical (c_op o) = true -> decides (c_op o) (source e) = true -> any e l -> any (Infix o e r) l
| any_then o e r l1 l2 : logical (c_op o) = true -> decides (c_op o) (source e) = false -> any e l1 -> any r l2 -> any (Infix o e r) (l1 ++ l2)
| any_op o e r l1 l2 l : logical (c_op o) = false -> any e l1 -> any r l2 -> merge l1 l2 l -> any (Infix o e r) l
| any_range e l : is_range e -> Forall (fun a => exists b t, inside (Leaf b t a) e) l -> any e l.
Definition good (e : expr) (c : ctree) : Prop :=
  starts (emit e) /\ (forall env, ops env c = Some (source e)) /\ (forall env l, evals env c l -> any e l) /\
  (prim (emit e) c \/ exists o l r, e = Infix o l r /\ bin (c_op o) (emit e) c /\ (whole (type_of e) \/ o = ODiv -> in_const = true /\ In o five)).

Lemma good_full e c : good e c -> full (emit e) c.
Proof. intros (_ & _ & _ & [H|(o & l & r & _ & B & _)]); [now apply prim_full|]. destruct (prec_op o) as [k Pk]. exact (bin_reads _ _ _ _ Pk B). Qed.
Lemma good_wrapped e c : good e c -> prim (wrap (is_infix e) (emit e)) c.
Proof.
  intros G. pose proof (good_full _ _ G) as F. destruct G as (S & _ & _ & [H|(o & l & r & -> & B & _)]).
  - unfold wrap. destruct (is_infix e); [|exact H]. change (prim ([P LP] ++ emit e ++ [P RP]) c). now apply group.
  - unfold wrap. cbn [is_infix]. change (prim ([P LP] ++ emit (Infix o l r) ++ [P RP]) c). now apply group.
Qed.
Lemma good_starts_wrapped e c : good e c -> starts (wrap (is_infix e) (emit e)).
Proof. intros (S & _). unfold wrap. destruct (is_infix e); [exact I|exact S]. Qed.
Lemma good_whole e c : good e c -> in_const = false -> whole (type_of e) -> prim (emit e) c.
Proof. intros (_ & _ & _ & [H|(o & l & r & _ & _ & W)]) C T; [exact H|]. destruct (W (or_introl T)). congruence. Qed.
Lemma good_normal o l r cl cr : good l cl -> good r cr ->
  bin (c_op o) (wrap (is_infix l) (emit l) ++ [P (c_op o)] ++ wrap (is_infix r) (emit r)) (CBin (c_op o) cl cr).
Proof. intros Gl Gr. exists (wrap (is_infix l) (emit l)), (wrap (is_infix r) (emit r)), cl, cr. repeat split; try reflexivity; now apply good_wrapped. Qed.
Lemma good_infix o l r cl cr : good l cl -> good r cr ->
  emit (Infix o l r) = wrap (is_infix l) (emit l) ++ [P (c_op o)] ++ wrap (is_infix r) (emit r) ->
  source (Infix o l r) = Bi (c_op o) (source l) (source r) ->
  (whole (type_of (Infix o l r)) \/ o = ODiv -> in_const = true /\ In o five) -> good (Infix o l r) (CBin (c_op o) cl cr).
Proof.
  intros Gl Gr E S W. split; [|split; [|split]].
  - rewrite E. apply starts_app. now apply good_starts_wrapped with cl.
  - intros env. rewrite S. apply ops_bin; [apply Gl|apply Gr].
  - intros env l0 H. inversion H as [| | | | | |? ? ? ? v ? L Ov D Hl|? ? ? ? v ? ? L Ov D Hl Hr|? ? ? ? ? ? ? L Hl Hr M| |]; subst.
    + destruct Gl as (_ & Ol & Vl & _). rewrite Ol in Ov. injection Ov as <-. eapply any_short; eauto.
    + destruct Gl as (_ & Ol & Vl & _). rewrite Ol in Ov. injection Ov as <-. destruct Gr as (_ & _ & Vr & _). eapply any_then; eauto.
    + destruct Gl as (_ & Ol & Vl & _). destruct Gr as (_ & _ & Vr & _). eapply any_op; eauto.
  - right. exists o, l, r. split; [reflexivity|]. split; [|exact W]. rewrite E. now apply good_normal.
Qed.
Lemma good_prim e c : starts (emit e) -> (forall env, ops env c = Some (source e)) -> prim (emit e) c -> (forall env l, evals env c l -> any e l) -> good e c.
Proof. intros S O P V. split; [exact S|]. split; [exact O|]. split; [exact V|]. now left. Qed.
End Main.

Lemma expr_ind2 (Q : expr -> Prop) :
  (forall b t a, Q (Leaf b t a)) -> (forall o e, Q e -> Q (Prefix o e)) -> (forall o l r, Q l -> Q r -> Q (Infix o l r)) ->
  (forall b x s e d, Q x -> (forall y, s = Some y -> Q y) -> Q e -> (forall y, d = Some y -> Q y) -> Q (InRange b x s e d)) -> forall e, Q e.
Proof.
  intros H1 H2 H3 H4. fix IH 1. intros [b t a|o e|o l r|b x s e d].
  - apply H1.
  - apply H2, IH.
  - apply H3; apply IH.
  - apply H4; [apply IH| |apply IH|].
    + destruct s as [s|]; intros y E; [injection E as <-; apply IH|discriminate].
    + destruct d as [d|]; intros y E; [injection E as <-; apply IH|discriminate].
Qed.
