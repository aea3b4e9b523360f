(** Proofs for the text of types. *)
From Verif Require Import Base BaseFacts LexModel LexProofs TypesModel TypesSpec.

Section TyInd.
Context (P : ty -> Prop) (Q : ret -> Prop)
  (Hn : forall n, P (TName n)) (Hp : forall t, P t -> P (TPtr t)) (Ha : forall t, P t -> P (TArr t))
  (Hf : forall t z, P t -> P (TFix t z)) (Hm : forall k v, P v -> P (TMap k v))
  (Hc : forall ps r, Forall (fun p => P (snd p)) ps -> Q r -> P (TFunc ps r))
  (Q0 : Q RNone) (Q1 : forall t, P t -> Q (ROne t)) (Q2 : forall ts, Forall P ts -> Q (RMany ts)).
Fixpoint ty_ind2 (t : ty) : P t :=
  match t with
  | TName n => Hn n
  | TPtr t => Hp t (ty_ind2 t)
  | TArr t => Ha t (ty_ind2 t)
  | TFix t z => Hf t z (ty_ind2 t)
  | TMap k v => Hm k v (ty_ind2 v)
  | TFunc ps r => Hc ps r
      ((fix go (l : list (bool * ty)) : Forall (fun p => P (snd p)) l :=
          match l with [] => Forall_nil _ | p :: l => Forall_cons p (ty_ind2 (snd p)) (go l) end) ps)
      (match r with
       | RNone => Q0
       | ROne t => Q1 t (ty_ind2 t)
       | RMany ts => Q2 ts ((fix go (l : list ty) : Forall P l :=
            match l with [] => Forall_nil _ | t :: l => Forall_cons t (ty_ind2 t) (go l) end) ts)
       end)
  end.
End TyInd.

(** ** The parser writes [show t]. *)
Lemma commas_snoc l x : l <> [] -> commas (l ++ [x]) = commas l ++ [44] ++ x.
Proof.
  induction l as [|a l IH]; intros N; [now elim N|]. destruct l as [|b l]; [reflexivity|].
  cbn [app]. cbn [app] in IH. change (commas (a :: b :: l ++ [x])) with (a ++ [44] ++ commas (b :: l ++ [x])).
  rewrite IH by discriminate. change (commas (a :: b :: l)) with (a ++ [44] ++ commas (b :: l)). now rewrite <- !app_assoc.
Qed.
Lemma commas_nil l : Forall (fun x => x <> []) l -> (commas l = [] <-> l = []).
Proof.
  intros F. split; [|intros ->; reflexivity]. destruct l as [|a l]; [reflexivity|]. apply Forall_cons_iff in F as [Na _].
  destruct l; cbn [commas]; intros E; [now elim Na|]. apply app_eq_nil in E as [E _]. now elim Na.
Qed.
Definition param_text (p : bool * ty) : bytes := (if fst p then [38] else []) ++ show (snd p).
Lemma show_nonempty t : wf t -> show t <> [].
Proof. destruct 1 as [n [N _]|t|t|t z|k v|ps r]; cbn [show]; try discriminate. exact N. Qed.
Lemma wf_func ps r : wf (TFunc ps r) -> Forall (fun p => wf (snd p)) ps /\ wf_ret r.
Proof. intros H. inversion H. now split. Qed.
Lemma fits_func ps r : fits (TFunc ps r) -> Forall (fun p => fits (snd p)) ps /\ fits_ret r.
Proof. intros H. inversion H. now split. Qed.
Lemma text_is_show : forall t, wf t -> fits t -> forall s, type_text t = Some s -> s = show t.
Proof.
  set (Pt := fun t => wf t -> fits t -> forall s, type_text t = Some s -> s = show t).
  apply (ty_ind2 Pt (fun r => forall t, In t (returns r) -> Pt t)); unfold Pt; clear Pt.
  - intros n _ _ s E. injection E as <-. reflexivity.
  - intros t IH W F s. inversion W; inversion F; subst. cbn [type_text show]. destruct (type_text t) as [x|]; [|discriminate].
    intros E. injection E as <-. cbn [app]. f_equal. now apply IH.
  - intros t IH W F s. inversion W; inversion F; subst. cbn [type_text show]. destruct (type_text t) as [x|]; [|discriminate].
    intros E. injection E as <-. cbn [app]. do 2 f_equal. now apply IH.
  - intros t z IH W F s. inversion W; inversion F; subst. cbn [type_text show]. destruct (type_text t) as [x|]; [|discriminate].
    intros E. injection E as <-. cbn [app]. do 2 f_equal. now apply IH.
  - intros k v IH W F s. inversion W; inversion F; subst. cbn [type_text show]. destruct (type_text v) as [x|]; [|discriminate].
    intros E. injection E as <-. assert (X : x = show v) by (now apply IH). now rewrite X.
  - intros ps r IHp IHr W F s. apply wf_func in W as [Wp Wr]. apply fits_func in F as [Fp Fr]. cbn [type_text show].
    match goal with |- opt_bind (?g [] ps) _ = _ -> _ => set (go := g) end.
    assert (G : forall l pre b, Forall (fun p => wf (snd p)) pre -> Forall (fun p => wf (snd p)) l -> Forall (fun p => fits (snd p)) l ->
        Forall (fun p => wf (snd p) -> fits (snd p) -> forall s, type_text (snd p) = Some s -> s = show (snd p)) l ->
        go (commas (map param_text pre)) l = Some b -> b = commas (map param_text (pre ++ l))).
    { induction l as [|[m t] l IH]; intros pre b Fpre Fl Ff Fi E.
      - cbn in E. injection E as <-. now rewrite app_nil_r.
      - cbn in E. apply Forall_cons_iff in Fl as [W1 Fl]. apply Forall_cons_iff in Ff as [F1 Ff]. apply Forall_cons_iff in Fi as [I1 Fi].
        cbn [snd] in W1, F1, I1. destruct (type_text t) as [x|] eqn:Et; [|discriminate E]. cbn [opt_bind] in E. assert (X : x = show t) by (now apply I1). subst x.
        destruct (append _ _ _) as [b1|] eqn:Ea; [|discriminate E]. cbn [opt_bind] in E.
        replace (pre ++ (m, t) :: l) with ((pre ++ [(m, t)]) ++ l) by (now rewrite <- app_assoc).
        apply IH; [apply Forall_app; split; [exact Fpre|now constructor]|exact Fl|exact Ff|exact Fi|].
        rewrite <- E. f_equal. unfold append in Ea. destruct (_ <? MSG_BUF_LARGE); [|discriminate Ea]. injection Ea as <-.
        rewrite map_app. cbn [map]. destruct pre as [|p pre].
        + reflexivity.
        + rewrite commas_snoc by discriminate. f_equal.
          assert (N : commas (map param_text (p :: pre)) <> []).
          { intros N. apply commas_nil in N; [discriminate N|]. apply Forall_map. eapply Forall_impl; [|exact Fpre].
            intros q Wq Eq. unfold param_text in Eq. apply app_eq_nil in Eq as [_ Eq]. exact (show_nonempty _ Wq Eq). }
          destruct (commas (map param_text (p :: pre))); [now elim N|]. reflexivity. }
    destruct (go [] ps) as [b|] eqn:Eg; [|discriminate]. cbn [opt_bind].
    assert (Eb : b = commas (map param_text ps)) by (apply (G ps [] b); [constructor|exact Wp|exact Fp|exact IHp|exact Eg]).
    change (map (fun p : bool * ty => (if fst p then [38] else []) ++ show (snd p)) ps) with (map param_text ps). subst b. clear G Eg go.
    destruct r as [|t|ts]; cbn [show_ret].
    + intros E. injection E as <-. now rewrite app_nil_r.
    + inversion Wr; inversion Fr; subst. destruct (type_text t) as [x|] eqn:Et; [|discriminate]. cbn [opt_bind].
      apply (IHr t (or_introl eq_refl)) in Et; [|assumption|assumption]. subst x. destruct (_ =? 0); [discriminate|].
      rewrite firstn_all2 by (unfold MSG_BUF_SIZE; lia). intros E. injection E as <-. reflexivity.
    + inversion Wr as [| |ts' Nts Wts]; inversion Fr as [| |ts'' Fts]; subst ts' ts''.
      match goal with |- opt_bind (?g [40] ts) _ = _ -> _ => set (go := g) end.
      assert (G : forall l pre b, Forall wf pre -> Forall wf l -> Forall fits l ->
         (forall t, In t l -> wf t -> fits t -> forall s, type_text t = Some s -> s = show t) ->
         go (40 :: commas (map show pre)) l = Some b -> b = 40 :: commas (map show (pre ++ l))).
      { induction l as [|t l IH]; intros pre b Fpre Fl Ff Fi E.
        - cbn in E. injection E as <-. now rewrite app_nil_r.
        - cbn in E. apply Forall_cons_iff in Fl as [W1 Fl]. apply Forall_cons_iff in Ff as [F1 Ff].
          destruct (type_text t) as [x|] eqn:Et; [|discriminate E]. cbn [opt_bind] in E. apply (Fi t (or_introl eq_refl)) in Et; [|exact W1|exact F1]. subst x.
          destruct (strcmp (show t) _ =? 0); [discriminate E|].
          destruct (append _ _ _) as [b1|] eqn:Ea; [|discriminate E]. cbn [opt_bind] in E.
          replace (pre ++ t :: l) with ((pre ++ [t]) ++ l) by (now rewrite <- app_assoc).
          apply IH; [apply Forall_app; split; [exact Fpre|now constructor]|exact Fl|exact Ff|intros u Hu; apply Fi; now right|].
          rewrite <- E. f_equal. unfold append in Ea. destruct (_ <? MSG_BUF_SIZE); [|discriminate Ea]. injection Ea as <-.
          rewrite map_app. cbn [map]. destruct pre as [|p pre].
          + reflexivity.
          + rewrite commas_snoc by discriminate. cbn [app]. f_equal. f_equal.
            assert (N : commas (map show (p :: pre)) <> []).
            { intros N. apply commas_nil in N; [discriminate N|]. apply Forall_map. eapply Forall_impl; [|exact Fpre]. intros q Wq. now apply show_nonempty. }
            destruct (commas (map show (p :: pre))); [now elim N|]. reflexivity. }
      destruct (go [40] ts) as [b|] eqn:Eg; [|discriminate]. cbn [opt_bind].
      assert (Eb : b = 40 :: commas (map show ts)) by (apply (G ts [] b); [constructor|exact Wts|exact Fts|exact IHr|exact Eg]).
      subst b. destruct (_ <=? _); [discriminate|]. intros E. injection E as <-.
      reflexivity.
  - intros t [].
  - intros t IH u [<-|[]]. exact IH.
  - intros ts F t Ht. rewrite Forall_forall in F. now apply F.
Qed.
