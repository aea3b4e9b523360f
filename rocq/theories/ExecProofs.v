From Verif Require Import Base ExecSpec ExecModel.

Lemma same_refl f : same f f = true.
Proof. now destruct f. Qed.
Lemma of_set f x s : of f (set f x s) = x.
Proof. now destruct f. Qed.
Definition other (f : fd) : fd := match f with Out => Err | Err => Out end.
Lemma of_set_other f x s : of (other f) (set f x s) = of (other f) s.
Proof. now destruct f. Qed.
Lemma len_app a b : len (a ++ b) = len a + len b.
Proof. unfold len. rewrite app_length. lia. Qed.
Lemma len_pos a : 0 <= len a.
Proof. unfold len. lia. Qed.

(** *** No write past the end of a buffer, under any schedule *)
Definition roomy (x : stream) : Prop := len (buf x) <= cap x /\ 0 < cap x.
Definition safe (s : st) : Prop := bad s = false /\ roomy (so s) /\ roomy (se s).
Lemma die_safe o s : safe s -> safe (die o s).
Proof. unfold die, safe, roomy. destruct (gone s); auto. Qed.
Lemma read_safe f s s' : safe s -> read_from f s = Some s' -> safe s'.
Proof.
  intros S. unfold read_from. destruct (length (queue (of f s)) =? 0)%nat.
  { destruct (wopen (of f s)); [discriminate|]. intros [= <-]. destruct f; exact S. }
  set (n := firstn _ _). set (rest := skipn _ _). cbn [buf cap done wopen].
  destruct (_ <? _) eqn:L.
  { intros [= <-]. unfold die, safe, roomy in *. destruct f, (gone _); cbn in *; auto. }
  clear L. pose proof (len_pos n). set (c := if cap (of f s) <? _ then _ else _).
  assert (C : len (buf (of f s)) + len n <= c /\ 0 < c).
  { assert (roomy (of f s)) as [R1 R2] by (destruct f; apply S). unfold c. destruct (Z.ltb_spec (cap (of f s)) (len (buf (of f s)) + len n)); lia. }
  destruct (Z.ltb_spec c (len (buf (of f s)) + len n)); [lia|]. intros [= <-].
  destruct S as (B & S1 & S2). unfold safe, roomy in *. destruct f; cbn in *; rewrite len_app; repeat split; auto; lia.
Qed.
Lemma step_safe room s e s' : safe s -> step room s e = Some s' -> safe s'.
Proof.
  intros S. destruct e as [n| |]; cbn.
  - unfold child_step. destruct (gone s); [discriminate|]. destruct (todo s) as [|[f b|f] l].
    + intros [= <-]. now apply die_safe.
    + destruct (_ =? _)%nat. { intros [= <-]. exact S. }
      destruct (negb (wopen _)). { intros [= <-]. exact S. }
      destruct (negb (rd_open s)). { intros [= <-]. now apply die_safe. }
      destruct (_ =? _)%nat; [discriminate|]. intros [= <-]. destruct f; exact S.
    + intros [= <-]. destruct f; exact S.
  - unfold parent_step. destruct (ph s) as [|ro re|re| |r].
    + destruct (_ && _). { intros [= <-]. exact S. } destruct (_ || _); [|discriminate]. intros [= <-]. exact S.
    + destruct (_ && _); [|intros [= <-]; exact S]. destruct (read_from Out s) eqn:E; [|discriminate].
      intros [= <-]. apply (read_safe _ _ _ S E).
    + destruct (_ && _); [|intros [= <-]; exact S]. destruct (read_from Err s) eqn:E; [|discriminate].
      intros [= <-]. apply (read_safe _ _ _ S E).
    + destruct (gone s); [|discriminate]. intros [= <-]. exact S.
    + discriminate.
  - destruct (ph s); try discriminate. destruct (_ && _); [discriminate|]. intros [= <-]. exact S.
Qed.
Lemma reaches_ind_prop (P : st -> Prop) (ok : event -> Prop) room :
  (forall s e s', P s -> ok e -> step room s e = Some s' -> P s') ->
  forall s l s', reaches room s l s' -> Forall ok l -> P s -> P s'.
Proof.
  intros H s l s' R. induction R; auto. intros F Ps. inversion F; subst. apply IHR; auto. eapply H; eauto.
Qed.

(** *** Every schedule ends *)
Definition act_size (a : act) : nat := match a with Put _ b => 10 + 10 * length b | Shut _ => 10 end.
Definition todo_size (l : list act) : nat := list_sum (map act_size l).
Arguments todo_size : simpl never.
Lemma todo_cons a l : todo_size (a :: l) = (act_size a + todo_size l)%nat.
Proof. reflexivity. Qed.
Definition stream_size (x : stream) : nat := 5 * length (queue x) + if done x then 0 else 5.
Arguments stream_size : simpl never.
Definition phase_size (s : st) : nat :=
  match ph s with
  | PSel => 4
  | POut ro re => if negb (done (so s)) && ro then 1 else if negb (done (se s)) && re then 2 else 6
  | PErr re => if negb (done (se s)) && re then 1 else 5
  | PWait => 3
  | PRet _ => 0
  end.
Definition size (s : st) : nat :=
  todo_size (todo s) + stream_size (so s) + stream_size (se s) + (match gone s with None => 10 | Some _ => 0 end) + phase_size s.
Lemma read_size f s s' : read_from f s = Some s' -> ph s' = ph s /\
  (todo_size (todo s') + stream_size (so s') + stream_size (se s') + (match gone s' with None => 10 | Some _ => 0 end) + 5
   <= todo_size (todo s) + stream_size (so s) + stream_size (se s) + (match gone s with None => 10 | Some _ => 0 end))%nat
  \/ done (of f s) = true.
Proof.
  destruct (done (of f s)) eqn:D; auto. left. revert H. unfold read_from.
  destruct (Nat.eqb_spec (length (queue (of f s))) 0) as [Q|Q].
  { destruct (wopen (of f s)); [discriminate|]. intros [= <-]. destruct f; unfold stream_size; cbn in *; rewrite D; split; auto; lia. }
  assert (L : (length (skipn (Z.to_nat CHUNK) (queue (of f s))) + 1 <= length (queue (of f s)))%nat).
  { rewrite skipn_length. assert (Z.to_nat CHUNK > 0)%nat by (unfold CHUNK; lia). lia. }
  set (n := firstn _ _) in *. set (rest := skipn _ _) in *. cbn [buf cap done wopen].
  destruct (_ <? _) eqn:E.
  { intros [= <-]. destruct s as [td fn gn [wo qo bo co do_] [we qe be ce de] tr rdo p bd].
    destruct f; unfold die, stream_size in *; cbn in *; subst; destruct gn; cbn; split; auto; change (todo_size []) with 0%nat; try destruct de; try destruct do_; lia. }
  clear E. set (c := if _ <? _ then _ * 2 + _ else _).
  intros [= <-]. destruct (c <? _); destruct s as [td fn gn [wo qo bo co do_] [we qe be ce de] tr rdo p bd];
  destruct f; unfold stream_size in *; cbn in *; subst; split; auto; lia.
Qed.

Lemma die_size o s : gone s = None -> (size (die o s) + 1 <= size s)%nat.
Proof. unfold size, die, phase_size, stream_size. intros ->. cbn. change (todo_size []) with 0%nat. lia. Qed.
Lemma step_size room s e s' : step room s e = Some s' -> (size s' + 1 <= size s)%nat.
Proof.
  destruct e as [n| |]; cbn.
  - unfold child_step. destruct (gone s) eqn:G; [discriminate|]. destruct (todo s) as [|[f b|f] l] eqn:T.
    + intros [= <-]. now apply die_size.
    + destruct (Nat.eqb_spec (length b) 0).
      { intros [= <-]. unfold size, phase_size. cbn. rewrite T, G, todo_cons. cbn. lia. }
      destruct (negb (wopen _)).
      { intros [= <-]. unfold size, phase_size. cbn. rewrite T, G, todo_cons. cbn. lia. }
      destruct (negb (rd_open s)). { intros [= <-]. now apply die_size. }
      set (k := Nat.min _ _). destruct (Nat.eqb_spec k 0); [discriminate|]. intros [= <-].
      assert (L : (length (firstn k b) = length b - length (skipn k b) /\ length (skipn k b) < length b)%nat).
      { rewrite firstn_length, skipn_length. lia. }
      unfold size, phase_size, stream_size. destruct f; cbn; rewrite T, G, !todo_cons, app_length; cbn [act_size]; lia.
    + intros [= <-]. unfold size, phase_size, stream_size. destruct f; cbn; rewrite T, G, !todo_cons; cbn [act_size]; lia.
  - unfold parent_step. destruct (ph s) as [|ro re|re| |r] eqn:P.
    + destruct (_ && _). { intros [= <-]. unfold size, phase_size. cbn. rewrite P. lia. }
      destruct (_ || _) eqn:R; [|discriminate]. intros [= <-]. unfold size, phase_size. cbn. rewrite P.
      destruct (done (so s)), (done (se s)), (ready (so s)), (ready (se s)); cbn in *; try discriminate; lia.
    + destruct (negb (done (so s)) && ro) eqn:R.
      * destruct (read_from Out s) eqn:E; [|discriminate]. intros [= <-]. apply read_size in E as [[E1 E2]|E].
        -- unfold size, phase_size. cbn. rewrite P, ?R. destruct (_ && re); lia.
        -- cbn in E. rewrite E in R. discriminate.
      * intros [= <-]. unfold size, phase_size. cbn. rewrite P, ?R. destruct (_ && re); lia.
    + destruct (negb (done (se s)) && re) eqn:R.
      * destruct (read_from Err s) eqn:E; [|discriminate]. intros [= <-]. apply read_size in E as [[E1 E2]|E].
        -- unfold size, phase_size. cbn. rewrite P, R. lia.
        -- cbn in E. rewrite E in R. discriminate.
      * intros [= <-]. unfold size, phase_size. cbn. rewrite P, R. lia.
    + destruct (gone s) eqn:G; [|discriminate]. intros [= <-]. unfold size, phase_size. cbn. rewrite P, G. lia.
    + discriminate.
  - destruct (ph s) eqn:P; try discriminate. destruct (_ && _); [discriminate|]. intros [= <-].
    unfold size, phase_size. cbn. rewrite P. lia.
Qed.
Lemma reaches_size room s l s' : reaches room s l s' -> (length l + size s' <= size s)%nat.
Proof. induction 1; cbn; auto. pose proof (step_size _ _ _ _ H). lia. Qed.

(** *** Someone can always go on *)
Definition waits_ok (x : stream) : Prop := done x = true -> wopen x = false.
Definition live (s : st) : Prop :=
  waits_ok (so s) /\ waits_ok (se s) /\
  (gone s <> None -> wopen (so s) = false /\ wopen (se s) = false) /\
  match ph s with PWait => rd_open s = false | PRet _ => True | _ => rd_open s = true end /\
  match ph s with
  | POut ro re => (ro = true -> ready (so s) = true) /\ (re = true -> ready (se s) = true)
  | PErr re => re = true -> ready (se s) = true
  | _ => True
  end.
Lemma ready_put x b : ready (Stream (wopen x) (queue x ++ b) (buf x) (cap x) (done x)) = true \/
  ready (Stream (wopen x) (queue x ++ b) (buf x) (cap x) (done x)) = ready x.
Proof. unfold ready. cbn. rewrite app_length. destruct (queue x), b; cbn; auto. Qed.
Lemma step_live room s e s' : live s -> step room s e = Some s' -> live s'.
Proof.
  intros (W1 & W2 & G & R & P). unfold live, waits_ok in *.
  destruct s as [td fn gn [wo qo bo co do_] [we qe be ce de] tr rdo p bd]. cbn in *.
  assert (RD : forall f s', read_from f (St td fn gn (Stream wo qo bo co do_) (Stream we qe be ce de) tr rdo p bd) = Some s' ->
    (done (so s') = true -> wopen (so s') = false) /\ (done (se s') = true -> wopen (se s') = false) /\
    (gone s' <> None -> wopen (so s') = false /\ wopen (se s') = false) /\ rd_open s' = rdo /\
    (f = Out -> ready (Stream we qe be ce de) = true -> ready (se s') = true)).
  { intros f s1. unfold read_from. set (ch := Z.to_nat CHUNK). clearbody ch. destruct f; cbn.
    - destruct (length qo =? 0)%nat.
      + destruct wo; [discriminate|]. intros [= <-]. cbn. tauto.
      + destruct (_ <? _).
        * intros [= <-]. unfold die. destruct gn; cbn; repeat split; auto; try (apply G; discriminate); try (intros; apply G; discriminate).
          unfold ready; cbn. intros; apply orb_true_r.
        * set (c := if _ <? _ then _ * 2 + _ else _).
          intros [= <-]. destruct (c <? _); cbn; tauto.
    - destruct (length qe =? 0)%nat.
      + destruct we; [discriminate|]. intros [= <-]. cbn. repeat split; auto; try tauto.
      + destruct (_ <? _).
        * intros [= <-]. unfold die. destruct gn; cbn; repeat split; auto; try (apply G; discriminate); try (intros; apply G; discriminate); try discriminate.
        * set (c := if _ <? _ then _ * 2 + _ else _).
          intros [= <-]. destruct (c <? _); cbn; repeat split; auto; try tauto; try (now apply G); try discriminate. }
  destruct e as [n| |]; cbn.
  - unfold child_step. cbn. destruct gn; [discriminate|]. destruct td as [|[f b|f] l].
    + intros [= <-]. unfold die, ready. cbn. rewrite !orb_true_r. destruct p; auto 10.
    + destruct (length b =? 0)%nat. { intros [= <-]. cbn. auto. }
      destruct (negb (wopen _)) eqn:Wf. { intros [= <-]. cbn. auto. }
      destruct (negb rdo). { intros [= <-]. unfold die, ready. cbn. rewrite !orb_true_r. destruct p; auto 10. }
      destruct (_ =? _)%nat; [discriminate|]. intros [= <-]. destruct f; cbn in *.
      * match goal with |- context [ready ?y] => match y with context [qo ++ ?z] =>
          destruct (ready_put (Stream wo qo bo co do_) z) as [Q|Q]; cbn in Q end end; rewrite Q; repeat split; auto; destruct p; tauto.
      * match goal with |- context [ready ?y] => match y with context [qe ++ ?z] =>
          destruct (ready_put (Stream we qe be ce de) z) as [Q|Q]; cbn in Q end end; rewrite Q; repeat split; auto; destruct p; tauto.
    + intros [= <-]. destruct f; unfold ready in *; cbn in *; rewrite ?orb_true_r; repeat split; auto; try tauto; destruct p; tauto.
  - unfold parent_step. cbn. destruct p as [|ro re|re| |r]; cbn.
    + destruct (_ && _). { intros [= <-]. cbn. tauto. }
      destruct (_ || _); [|discriminate]. intros [= <-]. cbn. repeat split; auto; try tauto; intros Q; apply andb_prop in Q; tauto.
    + destruct (_ && _).
      * destruct (read_from Out _) as [s1|] eqn:E; [|discriminate]. intros [= <-]. apply RD in E. cbn.
        destruct E as (E1 & E2 & E3 & E4 & E5). rewrite E4. repeat split; auto; try tauto; apply E3; auto.
      * intros [= <-]. cbn. tauto.
    + destruct (_ && _).
      * destruct (read_from Err _) as [s1|] eqn:E; [|discriminate]. intros [= <-]. apply RD in E. cbn.
        destruct E as (E1 & E2 & E3 & E4 & E5). rewrite E4. repeat split; auto; try tauto; apply E3; auto.
      * intros [= <-]. cbn. tauto.
    + destruct gn; [|discriminate]. intros [= <-]. cbn. tauto.
    + discriminate.
  - destruct p; try discriminate. destruct (_ && _); [discriminate|]. intros [= <-]. cbn. tauto.
Qed.
Lemma read_ready f s : ready (of f s) = true -> exists s', read_from f s = Some s'.
Proof.
  unfold ready, read_from. intros R. destruct (length (queue (of f s)) =? 0)%nat.
  - cbn in R. destruct (wopen (of f s)); [discriminate|]. eauto.
  - cbn. destruct (_ <? _); eauto.
Qed.
Lemma live_moves room s : 0 < room -> live s -> (forall r, ph s <> PRet r) ->
  exists e s', e <> Interrupt /\ step room s e = Some s'.
Proof.
  intros Rm (W1 & W2 & G & R & P) N.
  assert (PM : (exists s', parent_step s = Some s') -> exists e s', e <> Interrupt /\ step room s e = Some s').
  { intros [s' E]. exists Parent, s'. split; [discriminate|exact E]. }
  assert (RM : match ph s with POut _ _ | PErr _ => exists s', parent_step s = Some s' | _ => True end).
  { unfold parent_step. destruct (ph s) as [|ro re|re| |r]; auto.
    - destruct (_ && _) eqn:C; eauto. apply andb_prop in C as [_ C]. destruct P as [P _]. destruct (read_ready Out s (P C)) as [s1 E1].
      rewrite E1. eauto.
    - destruct (_ && _) eqn:C; eauto. apply andb_prop in C as [_ C]. destruct (read_ready Err s (P C)) as [s1 E1].
      rewrite E1. eauto. }
  destruct (gone s) eqn:Gs.
  - apply PM. destruct G as [G1 G2]; [discriminate|]. destruct (ph s) as [|ro re|re| |r] eqn:Ps; auto.
    + unfold parent_step. rewrite Ps. destruct (done (so s)), (done (se s)); cbn; eauto;
      unfold ready; rewrite ?G1, ?G2, ?orb_true_r; cbn; eauto.
    + unfold parent_step. rewrite Ps, Gs. eauto.
    + now destruct (N r).
  - destruct (child_step room 1 s) as [s'|] eqn:E.
    { exists (Child 1), s'. split; [discriminate|exact E]. }
    apply PM. unfold child_step in E. rewrite Gs in E. destruct (todo s) as [|[f b|f] l]; try discriminate.
    destruct (length b =? 0)%nat; [discriminate|]. destruct (wopen (of f s)) eqn:Wf; [|discriminate].
    destruct (rd_open s) eqn:Rd; [|discriminate]. cbn [negb] in E.
    set (k := Nat.min _ _) in E. destruct (Nat.eqb_spec k 0) as [K|K]; [|discriminate].
    assert (Q : ready (of f s) = true).
    { unfold ready. destruct (queue (of f s)) eqn:Qf; auto. exfalso. unfold k in K. change (len []) with 0 in K.
      assert (0 < Z.to_nat (room - 0))%nat by lia. lia. }
    assert (D : done (of f s) = false).
    { destruct f; cbn in *; [destruct (done (so s)) eqn:D|destruct (done (se s)) eqn:D]; auto;
      [rewrite (W1 D) in Wf|rewrite (W2 D) in Wf]; discriminate. }
    destruct (ph s) as [|ro re|re| |r] eqn:Ps; auto.
    + unfold parent_step. rewrite Ps. destruct f; cbn in D, Q; rewrite D, Q; cbn; rewrite ?andb_false_r; cbn; rewrite ?orb_true_r; eauto.
    + congruence.
    + now destruct (N r).
Qed.
