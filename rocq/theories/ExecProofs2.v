From Verif Require Import Base ExecSpec ExecModel ExecProofs.

Local Notation MAX := GRAY_EXEC_OUTPUT_MAX.
Definition over (c : command) : Prop := MAX < len (said Out (acts c)) \/ MAX < len (said Err (acts c)).
Definition track (l : list act) (f : fd) (t : list act) (x : stream) : Prop :=
  buf x ++ queue x ++ (if wopen x then said f t else []) = said f l /\
  (done x = true -> wopen x = false /\ queue x = []) /\ len (buf x) <= MAX.
Definition inv (c : command) (s : st) : Prop :=
  trunc s = true /\ over c /\ done (so s) = true /\ done (se s) = true /\ gone s <> None /\
    (forall r, ph s = PRet r -> r = Failed)
  \/
  trunc s = false /\ fin s = ends c /\ track (acts c) Out (todo s) (so s) /\ track (acts c) Err (todo s) (se s) /\
    (gone s = None \/ gone s = Some (ends c) /\ todo s = [] /\ wopen (so s) = false /\ wopen (se s) = false) /\
    match ph s with
    | PWait => done (so s) = true /\ done (se s) = true
    | PRet r => r = granted MAX c /\ gone s <> None
    | _ => rd_open s = true
    end.

Lemma read_inv c f s s' : inv c s -> (match ph s with PSel | POut _ _ | PErr _ => True | _ => False end) ->
  done (of f s) = false -> read_from f s = Some s' -> inv c s' /\ ph s' = ph s.
Proof.
  intros [(T & _ & D1 & D2 & _)|(T & F & T1 & T2 & G & P)] Ph D.
  { destruct f; cbn in D; congruence. }
  assert (Rd : rd_open s = true) by (destruct (ph s); tauto).
  assert (Tf : track (acts c) f (todo s) (of f s)) by (destruct f; auto).
  unfold read_from. destruct (Nat.eqb_spec (length (queue (of f s))) 0) as [Q|Q].
  { destruct (wopen (of f s)) eqn:W; [discriminate|]. intros [= <-]. split; [|now destruct f].
    assert (Q0 : queue (of f s) = []) by (destruct (queue (of f s)); auto; discriminate).
    right. unfold track in *. destruct f; cbn in *; repeat split; auto; try tauto; destruct (ph s); tauto. }
  pose proof (firstn_skipn (Z.to_nat CHUNK) (queue (of f s))) as FS.
  set (n := firstn _ _) in *. set (rest := skipn _ _) in *. clearbody n rest. cbn [buf cap done wopen].
  destruct (Z.ltb_spec MAX (len (buf (of f s)) + len n)) as [L|L].
  { intros [= <-]. split.
    - left. assert (O : MAX < len (said f (acts c))).
      { destruct Tf as (E & _). rewrite <- E, <- FS, !len_app. eapply Z.lt_le_trans; [exact L|].
        assert (A : forall a b c d, 0 <= c -> 0 <= d -> a + b <= a + (b + c + d)) by (intros; lia). apply A; apply len_pos. }
      unfold over, die. destruct f, (gone _) eqn:Gs; cbn in *; rewrite ?Gs; repeat split; auto; try discriminate;
      intros r R; rewrite R in Ph; destruct Ph.
    - unfold die. destruct f, (gone _); reflexivity. }
  set (k := if _ <? _ then _ * 2 + _ else _). intros E.
  assert (I : inv c (set f (Stream (wopen (of f s)) rest (buf (of f s) ++ n) k (done (of f s))) s)).
  { right. unfold track in *. rewrite <- FS, <- !app_assoc in Tf. destruct f; cbn in *; rewrite D in *; repeat split; auto; try tauto; try discriminate;
    try (rewrite <- !app_assoc; tauto); try (rewrite len_app; lia); destruct (ph s); tauto. }
  injection E as <-. destruct (k <? _); split; auto; destruct f; try reflexivity; exact I.
Qed.

Lemma granted_ends c s : trunc s = false -> track (acts c) Out (todo s) (so s) -> track (acts c) Err (todo s) (se s) ->
  done (so s) = true -> done (se s) = true -> answer s (ends c) = granted MAX c.
Proof.
  intros T (E1 & D1 & L1) (E2 & D2 & L2) d1 d2. destruct (D1 d1) as [W1 Q1], (D2 d2) as [W2 Q2].
  rewrite W1, Q1, !app_nil_r in E1. rewrite W2, Q2, !app_nil_r in E2.
  unfold answer, granted, promised. rewrite T, <- E1, <- E2, orb_false_r. fold (len (buf (so s))) (len (buf (se s))).
  assert (MAX <? len (buf (so s)) = false) as -> by lia. assert (MAX <? len (buf (se s)) = false) as -> by lia.
  reflexivity.
Qed.

Lemma step_inv c room s e s' : inv c s -> e <> Interrupt -> step room s e = Some s' -> inv c s'.
Proof.
  intros I NI. destruct e as [n| |]; [| |congruence]; cbn.
  - unfold child_step. destruct I as [I|(T & F & T1 & T2 & G & P)].
    { destruct (gone s) eqn:E; [discriminate|]. tauto. }
    destruct G as [G|(G & _)]; [|rewrite G; discriminate]. rewrite G.
    destruct (todo s) as [|[f b|f] l] eqn:Td.
    + intros [= <-]. right. unfold die. rewrite G. unfold track in *. cbn in *.
      assert (wopen (so s) = false \/ wopen (so s) = true) as [W1|W1] by (destruct (wopen (so s)); auto);
      assert (wopen (se s) = false \/ wopen (se s) = true) as [W2|W2] by (destruct (wopen (se s)); auto);
      rewrite W1, W2 in *; rewrite F; repeat split; auto; try tauto; destruct (ph s); intuition congruence.
    + destruct (Nat.eqb_spec (length b) 0) as [B|B].
      { intros [= <-]. assert (b = []) as -> by (destruct b; auto; discriminate). right. unfold track in *. cbn in *.
        destruct f; cbn in *; repeat split; auto; tauto. }
      destruct (wopen (of f s)) eqn:W; cbn [negb].
      2:{ intros [= <-]. right. unfold track in *. cbn in *. destruct f; cbn in *; rewrite W in *; repeat split; auto; try tauto. }
      destruct (rd_open s) eqn:Rd; cbn [negb].
      2:{ exfalso. unfold track in *. destruct (ph s) eqn:Ps; try discriminate.
          - destruct f; cbn in W; destruct P as [P1 P2]; [destruct T1 as (_ & T1 & _); destruct (T1 P1)|destruct T2 as (_ & T2 & _); destruct (T2 P2)]; congruence.
          - tauto. }
      set (k := Nat.min _ _). destruct (k =? 0)%nat; [discriminate|]. intros [= <-].
      assert (Dn : done (of f s) = false).
      { unfold track in *. destruct f; cbn in *; [destruct (done (so s)); auto; destruct T1 as (_ & T1 & _); destruct (T1 eq_refl)
        |destruct (done (se s)); auto; destruct T2 as (_ & T2 & _); destruct (T2 eq_refl)]; congruence. }
      right. pose proof (firstn_skipn k b) as FS. unfold track in *.
      destruct f; cbn in *; rewrite W, Dn in *; repeat split; auto; try tauto; try discriminate;
      try (rewrite <- ?app_assoc, (app_assoc (firstn k b)), FS; tauto); destruct (ph s); tauto.
    + intros [= <-]. right. unfold track in *. destruct f; cbn in *; [destruct (wopen (so s))|destruct (wopen (se s))]; repeat split; auto; tauto.
  - unfold parent_step. destruct (ph s) as [|ro re|re| |r] eqn:Ps.
    + destruct (_ && _) eqn:D.
      { apply andb_prop in D as [D1 D2]. intros [= <-]. destruct I as [I|I]; [left|right]; rewrite Ps in I; cbn; unfold track in *; cbn in *;
        repeat split; try tauto. discriminate. }
      destruct (_ || _); [|discriminate]. intros [= <-].
      destruct I as [I|I]; [left|right]; rewrite Ps in I; cbn; unfold track in *; cbn in *; repeat split; try tauto. discriminate.
    + assert (J : forall s0, inv c s0 -> ph s0 = POut ro re -> inv c (at_phase (PErr re) s0)).
      { intros s0 J E. destruct J as [J|J]; [left|right]; rewrite E in J; unfold track in *; cbn in *; repeat split; try tauto. discriminate. }
      destruct (_ && _) eqn:D; [|intros [= <-]; auto].
      apply andb_prop in D as [D _]. destruct (read_from Out s) eqn:E; [|discriminate]. intros [= <-].
      apply (read_inv c) in E as [E1 E2]; auto. { apply J; auto. congruence. } { now rewrite Ps. } cbn. now destruct (done (so s)).
    + assert (J : forall s0, inv c s0 -> ph s0 = PErr re -> inv c (at_phase PSel s0)).
      { intros s0 J E. destruct J as [J|J]; [left|right]; rewrite E in J; unfold track in *; cbn in *; repeat split; try tauto. discriminate. }
      destruct (_ && _) eqn:D; [|intros [= <-]; auto].
      apply andb_prop in D as [D _]. destruct (read_from Err s) eqn:E; [|discriminate]. intros [= <-].
      apply (read_inv c) in E as [E1 E2]; auto. { apply J; auto. congruence. } { now rewrite Ps. } cbn. now destruct (done (se s)).
    + destruct (gone s) as [o|] eqn:G; [|discriminate]. intros [= <-].
      destruct I as [(T & I)|(T & F & T1 & T2 & Gn & P)]; rewrite Ps in *.
      * left. cbn. repeat split; try tauto. intros r [= <-]. unfold answer. rewrite T, orb_true_r. reflexivity.
      * right. destruct Gn as [Gn|(Gn & Gt & W1 & W2)]; [congruence|]. assert (o = ends c) as -> by congruence.
        cbn. split; [exact T|]. split; [exact F|]. split; [exact T1|]. split; [exact T2|]. split; [right; auto|].
        split; [now apply granted_ends|]. rewrite G. discriminate.
    + discriminate.
Qed.
Lemma reaches_inv c room l s : ~ In Interrupt l -> reaches room (init c) l s -> inv c s.
Proof.
  intros N R. apply (reaches_ind_prop (inv c) (fun e => e <> Interrupt) room) with (init c) l; auto.
  - intros; eapply step_inv; eauto.
  - apply Forall_forall. intros e I ->. tauto.
  - right. unfold track. cbn. repeat split; auto; try discriminate; unfold len; cbn; lia.
Qed.

(** *** What is given is a beginning of what was said, under any schedule *)
Definition part (l : list act) (s : st) (f : fd) : Prop :=
  if trunc s then (exists z, buf (of f s) ++ z = said f l) /\ done (of f s) = true
  else exists z, buf (of f s) ++ queue (of f s) ++ z = said f l /\ (wopen (of f s) = true -> z = said f (todo s)).
Definition parts (l : list act) (s : st) : Prop := part l s Out /\ part l s Err /\
  forall r, ph s = PRet r -> match r with Failed => True | Ran _ o e => (exists z, o ++ z = said Out l) /\ exists z, e ++ z = said Err l end.
Lemma part_die l s o f : part l s f -> part l (die o s) f.
Proof.
  unfold part, die. destruct (gone s); auto. cbn. destruct (trunc s), f; cbn; auto;
  intros (z & E & _); exists z; split; auto; discriminate.
Qed.
Lemma read_parts l f s s' : parts l s -> done (of f s) = false -> (forall r, ph s <> PRet r) -> read_from f s = Some s' ->
  parts l s' /\ ph s' = ph s.
Proof.
  intros (P1 & P2 & P3) D N. assert (Pf : part l s f) by (destruct f; auto).
  assert (T : trunc s = false). { unfold part in Pf. destruct (trunc s); auto. destruct Pf. congruence. }
  assert (G : forall f, exists z, buf (of f s) ++ z = said f l).
  { intros g. assert (Pg : part l s g) by (destruct g; auto). unfold part in Pg. rewrite T in Pg. destruct Pg as (z & E & _). eauto. }
  unfold read_from. destruct (Nat.eqb_spec (length (queue (of f s))) 0) as [Q|Q].
  { destruct (wopen (of f s)) eqn:W; [discriminate|]. intros [= <-]. split; [|now destruct f].
    unfold parts, part in *. destruct f; cbn in *; rewrite T in *; auto. }
  pose proof (firstn_skipn (Z.to_nat CHUNK) (queue (of f s))) as FS.
  set (n := firstn _ _) in *. set (rest := skipn _ _) in *. clearbody n rest. cbn [buf cap done wopen].
  destruct (_ <? _).
  { intros [= <-]. split.
    - split; [|split].
      + unfold part, die. destruct (G Out) as [z Z0]. destruct f; cbn; destruct (gone s); cbn; split; eauto.
      + unfold part, die. destruct (G Err) as [z Z0]. destruct f; cbn; destruct (gone s); cbn; split; eauto.
      + intros r. unfold die. destruct f; cbn; destruct (gone s); cbn; intros E; now destruct (N r).
    - unfold die. destruct f; cbn; destruct (gone s); reflexivity. }
  set (k := if _ <? _ then _ * 2 + _ else _). intros E.
  assert (I : parts l (set f (Stream (wopen (of f s)) rest (buf (of f s) ++ n) k (done (of f s))) s)).
  { assert (N3 : forall r, ph s = PRet r -> False) by (intros r Er; now destruct (N r)).
    unfold parts, part in *. destruct f; cbn in *; rewrite T in *.
    - split; [|split; [exact P2|intros r Er; now destruct (N3 r)]].
      destruct P1 as (z & E1 & E2). exists z. rewrite <- E1, <- FS, <- !app_assoc. auto.
    - split; [exact P1|]. split; [|intros r Er; now destruct (N3 r)].
      destruct P2 as (z & E1 & E2). exists z. rewrite <- E1, <- FS, <- !app_assoc. auto. }
  injection E as <-. destruct (k <? _); split; auto; destruct f; try reflexivity; exact I.
Qed.
Lemma part_get l s f : part l s f -> exists z, buf (of f s) ++ z = said f l.
Proof. unfold part. destruct (trunc s); [tauto|]. intros (z & E & _). eauto. Qed.
Lemma step_parts l room s e s' : parts l s -> step room s e = Some s' -> parts l s'.
Proof.
  intros P. pose proof P as (P1 & P2 & P3).
  assert (DP : forall o, parts l (die o s)).
  { intros o. split; [now apply part_die|]. split; [now apply part_die|]. unfold die. destruct (gone s); auto. }
  destruct e as [n| |]; cbn.
  - unfold child_step. destruct (gone s) eqn:G; [discriminate|]. destruct (todo s) as [|[f b|f] t] eqn:Td.
    + intros [= <-]. auto.
    + destruct (Nat.eqb_spec (length b) 0) as [B|B].
      { intros [= <-]. assert (b = []) as -> by (destruct b; auto; discriminate). unfold parts, part in *. cbn in *.
        destruct (trunc s); auto. rewrite Td in *. destruct f; cbn in *; auto. }
      destruct (wopen (of f s)) eqn:W; cbn [negb].
      2:{ intros [= <-]. unfold parts, part in *. cbn in *. destruct (trunc s); auto. rewrite Td in *.
          destruct f; cbn in *; rewrite W in *; repeat split; auto;
          [destruct P1 as (z & E & _)|destruct P2 as (z & E & _)]; exists z; split; auto; discriminate. }
      destruct (rd_open s); cbn [negb]; [|intros [= <-]; auto].
      set (k := Nat.min _ _). destruct (k =? 0)%nat; [discriminate|]. intros [= <-].
      pose proof (firstn_skipn k b) as FS. unfold parts, part in *. cbn in *.
      destruct (trunc s) eqn:T; [destruct f; cbn in *; rewrite T; auto|].
      rewrite Td in *. destruct f; cbn in *; rewrite T, W in *; repeat split; auto;
      [destruct P1 as (z & E1 & E2)|destruct P2 as (z & E1 & E2)]; specialize (E2 eq_refl); subst z;
      [exists (skipn k b ++ said Out t)|exists (skipn k b ++ said Err t)]; split; auto;
      rewrite <- E1, <- !app_assoc, (app_assoc (firstn k b)), FS; auto.
    + intros [= <-]. unfold parts, part in *. cbn in *. destruct (trunc s) eqn:T; [destruct f; cbn in *; rewrite T; auto|].
      rewrite Td in *. destruct f; cbn in *; rewrite T in *; repeat split; auto;
      [destruct P1 as (z & E1 & E2)|destruct P2 as (z & E1 & E2)]; exists z; split; auto; discriminate.
  - unfold parent_step. destruct (ph s) as [|ro re|re| |r] eqn:Ps.
    + destruct (_ && _). { intros [= <-]. repeat split; try assumption. discriminate. }
      destruct (_ || _); [|discriminate]. intros [= <-]. repeat split; try assumption. discriminate.
    + assert (J : forall s0, parts l s0 -> parts l (at_phase (PErr re) s0)).
      { intros s0 (J1 & J2 & J3). repeat split; try assumption. discriminate. }
      destruct (_ && _) eqn:D; [|intros [= <-]; auto].
      apply andb_prop in D as [D _]. destruct (read_from Out s) eqn:E; [|discriminate]. intros [= <-].
      apply (read_parts l) in E as [E1 E2]; auto. { cbn. now destruct (done (so s)). } congruence.
    + assert (J : forall s0, parts l s0 -> parts l (at_phase PSel s0)).
      { intros s0 (J1 & J2 & J3). repeat split; try assumption. discriminate. }
      destruct (_ && _) eqn:D; [|intros [= <-]; auto].
      apply andb_prop in D as [D _]. destruct (read_from Err s) eqn:E; [|discriminate]. intros [= <-].
      apply (read_parts l) in E as [E1 E2]; auto. { cbn. now destruct (done (se s)). } congruence.
    + destruct (gone s) as [o|]; [|discriminate]. intros [= <-]. split; [exact P1|]. split; [exact P2|].
      intros r [= <-]. unfold answer. destruct (_ || _); auto. split; [apply (part_get l s Out P1)|apply (part_get l s Err P2)].
    + discriminate.
  - destruct (ph s); try discriminate. destruct (_ && _); [discriminate|]. intros [= <-]. repeat split; try assumption. discriminate.
Qed.
Lemma Forall_T (l : list event) : Forall (fun _ => True) l.
Proof. induction l; auto. Qed.
Lemma reaches_parts c room l s : reaches room (init c) l s -> parts (acts c) s.
Proof.
  intros R. apply (reaches_ind_prop (parts (acts c)) (fun _ => True) room) with (init c) l; auto using Forall_T.
  - intros; eapply step_parts; eauto.
  - repeat split; try discriminate; unfold part; cbn; eauto.
Qed.
Lemma reaches_safe c room l s : reaches room (init c) l s -> safe s.
Proof.
  intros R. apply (reaches_ind_prop safe (fun _ => True) room) with (init c) l; auto using Forall_T.
  - intros; eapply step_safe; eauto.
  - repeat split; cbn; unfold len, CHUNK; cbn; lia.
Qed.
Lemma reaches_live c room l s : reaches room (init c) l s -> live s.
Proof.
  intros R. apply (reaches_ind_prop live (fun _ => True) room) with (init c) l; auto using Forall_T.
  - intros; eapply step_live; eauto.
  - unfold live, waits_ok. cbn. repeat split; auto; try discriminate; tauto.
Qed.
Lemma finish room s : 0 < room -> live s -> exists l s' r, reaches room s l s' /\ ~ In Interrupt l /\ ph s' = PRet r.
Proof.
  intros Rm. remember (size s) as n eqn:Hn. assert (L : (size s <= n)%nat) by lia. clear Hn. revert s L.
  induction n as [n IH] using lt_wf_ind. intros s L Lv.
  assert (D : (exists r, ph s = PRet r) \/ forall r, ph s <> PRet r).
  { destruct (ph s); eauto; right; discriminate. }
  destruct D as [[r E]|D]. { exists [], s, r. split; [constructor|]. auto. }
  destruct (live_moves room s Rm Lv D) as (e & s' & NI & E). pose proof (step_size _ _ _ _ E).
  destruct (IH (size s')) with (s := s') as (l & s2 & r & R & NL & P); auto; try lia. { eapply step_live; eauto. }
  exists (e :: l), s2, r. split; [econstructor; eauto|]. split; auto. intros [X|X]; congruence || tauto.
Qed.
