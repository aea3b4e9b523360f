From Verif Require Import Base Decimal PrintSpec PrintModel PrintProofs.

Section Runs.
Context (cty : ty -> bytes) (D : decls) (flt chr hex : Z -> bytes).
Context (few : (length D <= 63)%nat).
Notation run := (run flt chr hex).
Notation run_all := (run_all flt chr hex).
Notation shown := (shown flt chr hex).
Notation emit := (emit cty D).
Notation emit_fields := (emit_fields cty).

Fixpoint run_seq (l : list stmt) (en : env) : option (bytes * env) :=
  match l with
  | [] => Some ([], en)
  | s :: l => match run s en with
              | Some (o, en) => match run_seq l en with Some (o', en) => Some (o ++ o', en) | None => None end
              | None => None
              end
  end.
Lemma run_all_seq l : forall en, run_all l en = option_map fst (run_seq l en).
Proof.
  induction l as [|s l IH]; intros en; cbn; auto. destruct (run s en) as [[o en1]|]; auto. rewrite IH.
  destruct (run_seq l en1) as [[o' en2]|]; auto.
Qed.
Lemma run_each_arr u e l en : run (EachArr u e l) en = option_map (fun o => (o, en))
  (match eval en e with Some (VArr vs) => cat (map (fun k => run_all l (set_pi u k en)) (seq 0 (length vs))) | _ => None end).
Proof. reflexivity. Qed.
Lemma run_each_map u e l en : run (EachMap u e l) en = option_map (fun o => (o, en))
  (match eval en e with Some (VMap vs) => cat (map (fun k => run_all l (set_pi u k en)) (seq 0 (length vs))) | _ => None end).
Proof. reflexivity. Qed.
Lemma run_puts s en : run (Puts s) en = Some (s, en).
Proof. reflexivity. Qed.
Lemma run_app a b : forall en o en1, run_seq a en = Some (o, en1) ->
  run_seq (a ++ b) en = match run_seq b en1 with Some (o', en2) => Some (o ++ o', en2) | None => None end.
Proof.
  induction a as [|s a IH]; intros en o en1; cbn.
  { intros [= <- <-]. destruct (run_seq b en) as [[]|]; auto. }
  destruct (run s en) as [[o1 en2]|]; [|discriminate]. destruct (run_seq a en2) as [[o2 en3]|] eqn:E; [|discriminate].
  intros [= <- <-]. rewrite (IH _ _ _ E). destruct (run_seq b en3) as [[o3 en4]|]; auto. now rewrite app_assoc.
Qed.

(** *** Expressions do not see later temporaries *)
Fixpoint below (k : nat) (e : cexp) : Prop :=
  match e with
  | CVar u => (u < k)%nat
  | CFld e _ => below k e
  | CGet e _ u | CKey e _ u | CVal e _ u => below k e /\ (u < k)%nat
  | CBroken => True
  end.
Lemma below_le k k' e : (k <= k')%nat -> below k e -> below k' e.
Proof. intros L. induction e; cbn; intuition lia. Qed.
Lemma below_clip k e : below k e -> below k (clip cty e).
Proof. unfold clip. destruct (_ <? _)%nat; cbn; auto. Qed.
Lemma eval_set_pi k e u x en : below k e -> (k <= u)%nat -> eval (set_pi u x en) e = eval en e.
Proof.
  intros B L. induction e; cbn in *; auto.
  - now rewrite IHe.
  - rewrite IHe by tauto. destruct (Nat.eqb_spec u0 u); [lia|auto].
  - rewrite IHe by tauto. destruct (Nat.eqb_spec u0 u); [lia|auto].
  - rewrite IHe by tauto. destruct (Nat.eqb_spec u0 u); [lia|auto].
Qed.
Lemma clip_whole e : whole_exp (clip cty e) = true -> clip cty e = e.
Proof. unfold clip. destruct (_ <? _)%nat; auto. discriminate. Qed.

(** *** Separators *)
Fixpoint join1 (first : bool) (l : list bytes) : bytes :=
  match l with [] => [] | x :: r => (if first then [] else bs ", ") ++ x ++ join1 false r end.
Lemma join1_false l : join1 false l = match l with [] => [] | _ => bs ", " ++ join l end.
Proof. induction l as [|x l IH]; auto. cbn [join1]. rewrite IH. destruct l; auto. cbn [join]. now rewrite app_nil_r. Qed.
Lemma join1_true l : join1 true l = join l.
Proof. destruct l as [|x l]; auto. cbn [join1]. rewrite join1_false. destruct l; cbn [join]; [now rewrite app_nil_r|reflexivity]. Qed.
Lemma cat_join {A} (F : nat -> option bytes) (h : A -> bytes) (l : list A) : forall a,
  (forall k x, nth_error l k = Some x -> F (a + k)%nat = Some ((if (0 <? a + k)%nat then bs ", " else []) ++ h x)) ->
  cat (map F (seq a (length l))) = Some (join1 (a =? 0)%nat (map h l)).
Proof.
  induction l as [|x l IH]; intros a H; auto. cbn [length seq map cat join1].
  rewrite <- (Nat.add_0_r a) at 1. rewrite (H 0%nat x eq_refl), (IH (S a)).
  - rewrite Nat.add_0_r. destruct a; cbn; rewrite <- ?app_assoc; auto.
  - intros k y N. replace (S a + k)%nat with (a + S k)%nat by lia. now apply H.
Qed.

Lemma upto0_id s : ~ In 0 s -> upto0 s = s.
Proof.
  induction s as [|c s IH]; cbn; auto. intros N. destruct (Z.eqb_spec c 0); [tauto|]. rewrite IH; auto.
Qed.
Lemma wrap_i_id z : in_i 64 z -> wrap_i 64 z = z.
Proof.
  unfold in_i, wrap_i. change (2 ^ (64 - 1)) with 9223372036854775808. change (2 ^ 64) with 18446744073709551616. intros H.
  destruct (Z.ltb_spec z 0).
  - assert (z mod 18446744073709551616 = z + 18446744073709551616) as -> by (symmetry; apply Z.mod_unique with (-1); lia).
    destruct (Z.ltb_spec (z + 18446744073709551616) 9223372036854775808); lia.
  - rewrite Z.mod_small by lia. destruct (Z.ltb_spec z 9223372036854775808); lia.
Qed.
Lemma wrap_u_id z : in_u 64 z -> wrap_u 64 z = z.
Proof. unfold in_u, wrap_u. apply Z.mod_small. Qed.

(** *** What is emitted writes the value *)
Definition good (rec : guard -> cexp -> ty -> bool -> res (list stmt * guard)) : Prop :=
  forall g e t q ss g', sane D g -> rec g e t q = Ok (ss, g') -> below (uid g) e -> forallb intact ss = true ->
  forall v en, has D t v -> (whole_exp e = true -> eval en e = Some v) -> run_seq ss en = Some (shown (vis g) q v, en).
Lemma member_in l f v : NoDup (map fst l) -> In (f, v) l -> member f l = Some v.
Proof.
  induction l as [|[m w] l IH]; cbn; [tauto|]. intros N [[= -> ->]|I].
  - assert (same_name f f = true) as -> by now apply same_iff. reflexivity.
  - inversion N; subst. destruct (same_name m f) eqn:E; auto. apply same_iff in E. subst.
    exfalso. apply H1. now apply (in_map fst) in I.
Qed.
Lemma fields_run rec e n l en :
  (forall g e t q ss g', sane D g -> rec g e t q = Ok (ss, g') -> keeps g g') -> good rec ->
  (whole_exp e = true -> eval en e = Some (VRec n l)) -> NoDup (map fst l) ->
  forall fs vs, Forall2 (fun f fv => fst f = fst fv /\ has D (snd f) (snd fv)) fs vs -> incl vs l ->
  forall first g ss g', sane D g -> below (uid g) e -> emit_fields rec e first fs g = Ok (ss, g') -> forallb intact ss = true ->
  run_seq ss en = Some (join1 first (map (fun fv => fst fv ++ bs ": " ++ shown (vis g) true (snd fv)) vs), en).
Proof.
  intros KP GD EV ND fs vs F. induction F as [|[f t] [f' v] fs vs [Hf Hv] F IH]; intros I first g ss g' S B; cbn [PrintModel.emit_fields].
  { intros [= <- <-] _. reflexivity. }
  cbn in Hf, Hv. subst f'.
  destruct (rec g (clip cty (CFld e f)) t true) as [[s1 g1]| | |] eqn:E; try discriminate. cbn [rbind fst snd].
  destruct (emit_fields rec e false fs g1) as [[s2 g2]| | |] eqn:E2; try discriminate. cbn [rmap fst snd].
  intros [= <- <-]. rewrite forallb_app. cbn [forallb intact]. rewrite forallb_app. intros H.
  apply andb_prop in H as [_ H]. cbn in H. apply andb_prop in H as [H1 H2].
  pose proof (KP _ _ _ _ _ _ S E) as K.
  assert (R1 : run_seq s1 en = Some (shown (vis g) true v, en)).
  { apply (GD _ _ _ _ _ _ S E); auto. { apply below_clip. exact B. }
    intros W. pose proof W as W'. rewrite (clip_whole _ W) in W'. rewrite (clip_whole _ W). cbn in W'. cbn [eval]. rewrite EV by auto. apply member_in; auto. apply I. now left. }
  assert (R2 : run_seq s2 en = Some (join1 false (map (fun fv => fst fv ++ bs ": " ++ shown (vis g) true (snd fv)) vs), en)).
  { destruct K as (K1 & K2 & K3). rewrite <- K2. apply (IH (fun x J => I x (or_intror J)) false g1 s2 g2); auto.
    - apply (keeps_sane D g); auto. unfold keeps; repeat split; auto.
    - apply (below_le (uid g)); auto. }
  cbn [map join1 fst snd].
  assert (R3 : run_seq (Puts (f ++ bs ": ") :: s1 ++ s2) en =
    Some ((f ++ bs ": " ++ shown (vis g) true v) ++ join1 false (map (fun fv => fst fv ++ bs ": " ++ shown (vis g) true (snd fv)) vs), en)).
  { cbn [run_seq PrintModel.run]. rewrite (run_app s1 s2 en _ _ R1), R2. now rewrite <- !app_assoc. }
  destruct first; [exact R3|].
  rewrite (run_app [Puts (bs ", ")] _ en (bs ", ") en) by reflexivity. change [byte_of_ascii ":"; byte_of_ascii " "] with (bs ": "). rewrite R3. now rewrite <- !app_assoc.
Qed.
Lemma emit_run fuel : good (emit fuel).
Proof.
  induction fuel as [|fuel IH]; intros g e t q ss g' S; [discriminate|]. cbn [PrintModel.emit].
  destruct t as [| | | | | | |t|k v|n]; intros E B I x en Hx EV; inversion Hx; subst; clear Hx.
  - injection E as <- <-. cbn in *. rewrite andb_true_r in I. rewrite (EV I). cbn. rewrite wrap_i_id, app_nil_r; auto.
  - injection E as <- <-. cbn in *. rewrite andb_true_r in I. rewrite (EV I). cbn. rewrite wrap_u_id, app_nil_r; auto.
  - injection E as <- <-. cbn in *. rewrite andb_true_r in I. rewrite (EV I). cbn. rewrite app_nil_r; auto.
  - injection E as <- <-. cbn in *. rewrite andb_true_r in I. rewrite (EV I). cbn. rewrite upto0_id by auto. unfold quote. rewrite app_nil_r; auto.
  - injection E as <- <-. cbn in *. rewrite andb_true_r in I. rewrite (EV I). cbn. rewrite app_nil_r; auto.
  - injection E as <- <-. cbn in *. rewrite andb_true_r in I. rewrite (EV I). cbn. unfold quote. rewrite app_nil_r; auto.
  - injection E as <- <-. cbn in *. rewrite andb_true_r in I. rewrite (EV I). cbn. rewrite app_nil_r; auto.
  - (* arrays *)
    assert (G : exists body, ss = [Puts (bs "{"); EachArr (uid g) e body; Puts (bs "}")] /\
      forall a y, nth_error l a = Some y -> eval en e = Some (VArr l) -> forallb intact body = true ->
        run_all body (set_pi (uid g) a en) = Some ((if (0 <? a)%nat then bs ", " else []) ++ shown (vis g) true y)).
    { destruct (composite t).
      - destruct (emit fuel _ _ t true) as [[s1 g1]| | |] eqn:E1; try discriminate. cbn in E. injection E as <- <-.
        eexists. split; [reflexivity|]. intros a y N E2 J. cbn [forallb intact] in J. apply andb_prop in J as [_ J]. apply andb_prop in J as [_ J].
        rewrite run_all_seq. cbn [run_seq PrintModel.run]. cbn [pi set_pi]. rewrite Nat.eqb_refl. cbn [option_map eval].
        rewrite (eval_set_pi (uid g)), E2 by auto. cbn [pi set_pi]. rewrite Nat.eqb_refl. cbn [at_pi]. rewrite N.
        rewrite (IH _ _ _ _ _ _ (sane_next D _ (sane_next D _ S)) E1) with (v := y); auto.
        + cbn. lia.
        + rewrite Forall_forall in H0. apply H0. eapply nth_error_In; eauto.
        + intros _. cbn. now rewrite Nat.eqb_refl.
      - destruct (emit fuel _ _ t true) as [[s1 g1]| | |] eqn:E1; try discriminate. cbn in E. injection E as <- <-.
        eexists. split; [reflexivity|]. intros a y N E2 J. cbn [forallb intact] in J. apply andb_prop in J as [_ J].
        rewrite run_all_seq. cbn [run_seq PrintModel.run]. cbn [pi set_pi]. rewrite Nat.eqb_refl. cbn [option_map].
        rewrite (IH _ _ _ _ _ _ (sane_next D _ S) E1) with (v := y); auto.
        + apply below_clip. cbn. split; [|lia]. apply (below_le (uid g)); auto.
        + rewrite Forall_forall in H0. apply H0. eapply nth_error_In; eauto.
        + intros W. rewrite (clip_whole _ W). cbn [eval]. rewrite (eval_set_pi (uid g)), E2 by auto. cbn [pi set_pi]. now rewrite Nat.eqb_refl. }
    destruct G as (body & -> & G). cbn [forallb intact] in I. apply andb_prop in I as [_ I]. apply andb_prop in I as [I _].
    apply andb_prop in I as [I1 I2]. pose proof (EV I1) as E2.
    assert (R : run (EachArr (uid g) e body) en = Some (join (map (shown (vis g) true) l), en)).
    { rewrite run_each_arr, E2. rewrite (cat_join _ (shown (vis g) true) l 0) by (intros a y N; cbn [Nat.add]; now apply G).
      cbn [option_map Nat.eqb]. now rewrite join1_true. }
    cbn [run_seq]. rewrite run_puts, R. cbn [PrintModel.run]. rewrite app_nil_r. reflexivity.
  - (* maps *)
    destruct (emit fuel _ _ k true) as [[s1 g1]| | |] eqn:E1; try discriminate. cbn [rbind fst snd] in E.
    destruct (emit fuel _ _ v true) as [[s2 g2]| | |] eqn:E2; try discriminate. cbn [rmap fst snd] in E. injection E as <- <-.
    cbn [forallb intact] in I. apply andb_prop in I as [_ I]. apply andb_prop in I as [I1 I]. apply andb_prop in I as [I _].
    apply andb_prop in I as [_ I]. cbn in I. rewrite forallb_app in I. apply andb_prop in I as [I2 I3]. cbn in I3.
    pose proof (EV I1) as E3. pose proof (emit_keeps cty D few _ _ _ _ _ _ _ (sane_next D _ S) E1) as K.
    pose proof (keeps_sane D _ _ (sane_next D _ S) K) as S1. destruct K as (K1 & K2 & _). cbn [uid next vis] in K1, K2.
    assert (G : forall a y, nth_error l a = Some y ->
        run_all (Sep (uid g) :: s1 ++ Puts (bs ": ") :: s2) (set_pi (uid g) a en) =
        Some ((if (0 <? a)%nat then bs ", " else []) ++ (shown (vis g) true (fst y) ++ bs ": " ++ shown (vis g) true (snd y)))).
    { intros a y N. assert (T : has D k (fst y) /\ has D v (snd y)).
      { match goal with H : Forall _ l |- _ => rewrite Forall_forall in H; apply H; eapply nth_error_In; eauto end. }
      rewrite run_all_seq. cbn [run_seq].
      assert (run (Sep (uid g)) (set_pi (uid g) a en) = Some (if (0 <? a)%nat then bs ", " else [], set_pi (uid g) a en)) as ->
        by (cbn [PrintModel.run pi set_pi]; now rewrite Nat.eqb_refl).
      rewrite (run_app s1 _ _ (shown (vis g) true (fst y)) (set_pi (uid g) a en)).
      - cbn [run_seq PrintModel.run]. rewrite (IH _ _ _ _ _ _ S1 E2) with (v := snd y); [|..|tauto|].
        + cbn [option_map fst]. now rewrite K2.
        + apply below_clip. cbn. split; [|lia]. apply (below_le (uid g)); auto. lia.
        + exact I3.
        + intros W. rewrite (clip_whole _ W). cbn [eval]. rewrite (eval_set_pi (uid g)), E3 by auto. cbn [pi set_pi].
          rewrite Nat.eqb_refl. cbn [at_pi]. now rewrite N.
      - rewrite (IH _ _ _ _ _ _ (sane_next D _ S) E1) with (v := fst y); [reflexivity|..|tauto|].
        + apply below_clip. cbn. split; [|lia]. apply (below_le (uid g)); auto.
        + exact I2.
        + intros W. rewrite (clip_whole _ W). cbn [eval]. rewrite (eval_set_pi (uid g)), E3 by auto. cbn [pi set_pi].
          rewrite Nat.eqb_refl. cbn [at_pi]. now rewrite N. }
    set (h := fun kv : val * val => shown (vis g) true (fst kv) ++ bs ": " ++ shown (vis g) true (snd kv)).
    assert (R : run (EachMap (uid g) e (Sep (uid g) :: s1 ++ Puts (bs ": ") :: s2)) en = Some (join (map h l), en)).
    { rewrite run_each_map, E3. rewrite (cat_join _ h l 0) by (intros a y N; cbn [Nat.add]; now apply G).
      cbn [option_map Nat.eqb]. now rewrite join1_true. }
    assert (C : run (Colon e) en = Some (if (length l =? 0)%nat then bs ":" else [], en)) by (cbn [PrintModel.run]; now rewrite E3).
    change (map (fun kv => shown (vis g) true (fst kv) ++ bs ": " ++ shown (vis g) true (snd kv)) l) with (map h l) || idtac.
    change [byte_of_ascii ":"; byte_of_ascii " "] with (bs ": "). cbn [run_seq]. rewrite run_puts, C, R. cbn [PrintModel.run]. rewrite app_nil_r. destruct l as [|y l]; reflexivity.
  - (* structs *)
    match goal with H : fields D n = _ |- _ => rename H into F1 end. match goal with H : NoDup _ |- _ => rename H into F2 end.
    match goal with H : Forall2 _ _ _ |- _ => rename H into F3 end.
    cbn [PrintSpec.shown]. destruct (existsb (same_name n) (vis g)) eqn:X.
    { injection E as <- <-. cbn. now rewrite app_nil_r. }
    rewrite (enter_ok D few) in E by auto. cbn [rbind] in E. rewrite F1 in E.
    destruct (emit_fields (emit fuel) e true fs _) as [[s1 g1]| | |] eqn:E1; try discriminate. cbn [rmap fst snd] in E. injection E as <- <-.
    cbn [forallb intact] in I. cbn in I. rewrite forallb_app in I. apply andb_prop in I as [I _].
    assert (ML : map fst l = map fst fs).
    { clear -F3. induction F3 as [|f fv fs l [E _] H IH]; cbn; congruence. }
    pose proof (fields_run (emit fuel) e n l en (emit_keeps cty D few fuel) IH EV) as R. rewrite ML in R.
    specialize (R F2 fs l F3 (incl_refl l) true _ s1 g1 (sane_push D n g S (fields_in _ _ _ F1) X) B E1 I).
    cbn [vis] in R. cbn [run_seq]. rewrite run_puts, (run_app s1 _ _ _ _ R). cbn [run_seq PrintModel.run].
    rewrite join1_true, app_nil_r, <- ?app_assoc. reflexivity.
Qed.
End Runs.
