(** Histories of file operations; copying and moving. *)
From Verif Require Import Base BaseFacts FilesSpec FilesModel FilesProofs FilesProofs2 FilesProofs3.

Section Hist.
Context (fault : nat -> option Z) (short : transfer -> nat -> option Z) (early : nat -> nat) (cwd : loc).
Definition reply_of (r : res bool) : reply := match r with Ok b => RBool b | Panic c => RPanic c | _ => RPanic 0 end.
Definition perform (s : st) (o : op) : st * reply :=
  match o with
  | Write p d => let '(s, r) := write_file fault short early cwd s p d in (s, reply_of r)
  | Append p d => let '(s, r) := append_file fault short early cwd s p d in (s, reply_of r)
  | Read p => let '(s, r) := read_file fault short cwd s p in (s, match r with Ok d => RText d | Panic c => RPanic c | _ => RPanic 0 end)
  | Delete p => let '(s, r) := delete_file fault cwd s p in (s, reply_of r)
  | Exists p => let '(s, b) := file_exists fault cwd s p in (s, RBool b)
  end.
Fixpoint performs (s : st) (os : list op) : st * list reply :=
  match os with [] => (s, []) | o :: os => let '(s, r) := perform s o in let '(s, rs) := performs s os in (s, r :: rs) end.

Lemma follow_no_link t n cur cs : get t cur = Some EDir -> wf t -> clean cs -> match resolve_n t true n cur cs with Found l => forall x, get t l <> Some (ELink x) | _ => True end.
Proof.
  intros G W C. revert cur cs G C.
  assert (Step : forall n, (forall m cur cs, n = S m -> get t cur = Some EDir -> clean cs -> match resolve_n t true m cur cs with Found l => forall x, get t l <> Some (ELink x) | _ => True end) ->
    forall cs cur, get t cur = Some EDir -> clean cs -> match resolve_n t true n cur cs with Found l => forall x, get t l <> Some (ELink x) | _ => True end).
  { clear n. intros n IHn. induction cs as [|c cs IH]; intros cur G C; [rewrite resolve_nil; congruence|]. rewrite resolve_eq.
    assert (C' : clean cs) by (intros d I; apply C; now right).
    destruct (same c [] || same c (bs ".")); [now apply IH|]. destruct (same c (bs "..")); [apply IH; [now apply get_removelast|assumption]|].
    destruct (get t (cur ++ [c])) as [[d| |x]|] eqn:E.
    - destruct cs; [congruence|exact I].
    - now apply IH.
    - replace (match cs with [] => negb true | _ => false end) with false by now destruct cs. destruct n as [|m]; [exact I|]. apply (IHn m); [reflexivity| |].
      + unfold start. now destruct (absolute x).
      + intros d J. apply in_app_iff in J as [J|J]; [|now apply C']. apply comps_clean in J; [assumption|].
        assert (L : cur ++ [c] <> []) by (destruct cur; discriminate). apply (wf_get _ _ _ W L) in E. exact (proj2 (proj2 W) _ _ E).
    - now destruct cs. }
  induction n as [|n IHn]; intros cur cs G C; apply Step; try assumption; [discriminate|]. intros m cur' cs' [= ->]. apply IHn.
Qed.
Lemma leads_no_link t p l x : wf t -> get t cwd = Some EDir -> ~ In 0 p -> leads t cwd true p = Some l -> get t l <> Some (ELink x).
Proof.
  intros W C Z0 T. assert (R := resolve_of_target t cwd true p l W C Z0 T). destruct (get t l) as [e|] eqn:G; [|discriminate].
  unfold resolve in R. destruct (_ <=? _); [discriminate|]. destruct p as [|c p]; [discriminate|].
  assert (Gs : get t (start cwd (c :: p)) = Some EDir) by (unfold start; now destruct (absolute _)).
  assert (F := follow_no_link t MAXSYMLINKS _ (comps (c :: p)) Gs W (comps_clean _ Z0)). rewrite R in F. now rewrite <- G.
Qed.
Lemma with_file_update l d t u m : with_file l d t u -> (forall k, get t k = m k) -> forall k, get u k = update m l (Some (EFile d)) k.
Proof. intros (G & D & _) H k. unfold update. destruct (same_loc k l) eqn:E; [apply same_loc_iff in E as ->; assumption|]. apply same_loc_false in E. rewrite D by assumption. apply H. Qed.
Lemma del_file t l e : wf t -> get t l = Some e -> e <> EDir -> wf (del t l) /\ forall k, get (del t l) k = if same_loc k l then None else get t k.
Proof.
  intros W G N. assert (L : l <> []) by (intros ->; injection G as <-; now apply N). split.
  - apply wf_del; [assumption|]. intros k x I. apply inside_false. intros (r & R & ->). assert (Gk : get t (l ++ r) = Some x) by (apply wf_get; [assumption|destruct l; [congruence|discriminate]|assumption]).
    apply wf_up in Gk; congruence.
  - intros k. apply get_del; [apply W|assumption].
Qed.

Context (t0 : fs).
Definition sound_state (s : st) (m : store) : Prop := wf (tree s) /\ alike t0 (tree s) /\ forall k, get (tree s) k = m k.
Lemma alike_with l d t u : alike t0 t -> filey (get t l) -> with_file l d t u -> alike t0 u.
Proof. intros A F (G & D & _). eapply alike_trans; [exact A|]. apply (differ_alike l); [assumption|assumption|now rewrite G]. Qed.
Lemma perform_ideal s m o : no_faults fault -> no_shorts short -> get t0 cwd = Some EDir -> ~ In 0 (path_of o) ->
  (forall p, o = Delete p -> leads t0 cwd false p = leads t0 cwd true p) -> sound_state s m ->
  exists s', perform s o = (s', fst (ideal (leads t0 cwd true) m o)) /\ sound_state s' (snd (ideal (leads t0 cwd true) m o)).
Proof.
  intros NF NS C0 Z0 Dl (W & A & H). assert (C : get (tree s) cwd = Some EDir).
  { destruct (A cwd) as [E|[F _]]; [congruence|]. rewrite C0 in F. contradiction. }
  assert (T : forall p, ~ In 0 p -> target (resolve (tree s) cwd true (cstr p)) = leads t0 cwd true p) by (intros p Zp; rewrite cstr_id by assumption; unfold leads; symmetry; now apply resolve_alike).
  assert (NL : forall p l x, ~ In 0 p -> leads t0 cwd true p = Some l -> get (tree s) l <> Some (ELink x)).
  { intros p l x Zp Hl. rewrite <- T in Hl by assumption. rewrite cstr_id in Hl by assumption. now apply (leads_no_link (tree s) p l x W C Zp). }
  destruct o as [p d|p d|p|p|p]; cbn [path_of perform ideal] in *; specialize (T p Z0).
  - unfold write_file. destruct (leads t0 cwd true p) as [l|] eqn:El.
    + rewrite <- H. specialize (NL p l). destruct (get (tree s) l) as [[d0| |x]|] eqn:G; cbn [fst snd].
      * destruct (put_file_ok fault short early cwd true s p d l) as (s' & E & F & _); try assumption; [now rewrite G|]. rewrite E. exists s'. split; [reflexivity|]. cbn [base_data app] in F. split; [apply F|]. split; [eapply alike_with; [exact A|now rewrite G|exact F]|now apply (with_file_update l d (tree s))].
      * rewrite (put_file_dir fault short early cwd true s p d l) by assumption. exists (tick s). split; [reflexivity|exact (conj W (conj A H))].
      * exfalso. now apply (NL x).
      * destruct (put_file_ok fault short early cwd true s p d l) as (s' & E & F & _); try assumption; [now rewrite G|]. rewrite E. exists s'. split; [reflexivity|]. cbn [base_data app] in F. split; [apply F|]. split; [eapply alike_with; [exact A|now rewrite G|exact F]|now apply (with_file_update l d (tree s))].
    + rewrite put_file_fail by assumption. exists (tick (tick s)). split; [reflexivity|exact (conj W (conj A H))].
  - unfold append_file. destruct (leads t0 cwd true p) as [l|] eqn:El.
    + rewrite <- H. specialize (NL p l). destruct (get (tree s) l) as [[d0| |x]|] eqn:G; cbn [fst snd].
      * destruct (put_file_ok fault short early cwd false s p d l) as (s' & E & F & _); try assumption; [now rewrite G|]. rewrite E. exists s'. split; [reflexivity|]. unfold base_data in F. rewrite (data_at_file _ _ _ G) in F. split; [apply F|]. split; [eapply alike_with; [exact A|now rewrite G|exact F]|now apply (with_file_update l _ (tree s))].
      * rewrite (put_file_dir fault short early cwd false s p d l) by assumption. exists (tick s). split; [reflexivity|exact (conj W (conj A H))].
      * exfalso. now apply (NL x).
      * destruct (put_file_ok fault short early cwd false s p d l) as (s' & E & F & _); try assumption; [now rewrite G|]. rewrite E. exists s'. split; [reflexivity|]. unfold base_data, data_at in F. rewrite G in F. split; [apply F|]. split; [eapply alike_with; [exact A|now rewrite G|exact F]|now apply (with_file_update l _ (tree s))].
    + rewrite put_file_fail by assumption. exists (tick (tick s)). split; [reflexivity|exact (conj W (conj A H))].
  - destruct (read_file_spec fault short cwd s p NF NS W C) as (s' & E & E1 & E2). rewrite E, T. exists s'. cbn [fst snd]. split; [|unfold sound_state; rewrite E1; now split].
    f_equal. destruct (leads t0 cwd true p) as [l|]; [|reflexivity]. rewrite <- H. destruct (get (tree s) l) as [[d0| |x]|]; cbn [content_read]; try reflexivity. now destruct (_ <? _).
  - unfold delete_file. specialize (Dl p eq_refl).
    assert (T' : target (resolve (tree s) cwd false p) = leads t0 cwd true p) by (rewrite <- Dl; unfold leads; symmetry; now apply resolve_alike).
    rewrite cstr_id in * by assumption. destruct (leads t0 cwd true p) as [l|] eqn:El.
    + rewrite (stat_target fault cwd s p l) by auto. rewrite <- H. specialize (NL p l). assert (R := resolve_of_target (tree s) cwd false p l W C Z0 T').
      unfold sys_unlink. rewrite NF. cbn [tree tick]. destruct (get (tree s) l) as [[d0| |x]|] eqn:G; cbn [is_dir fst snd].
      * rewrite R, G. eexists. split; [reflexivity|]. destruct (del_file (tree s) l (EFile d0) W G ltac:(discriminate)) as [W' Gd]. split; [exact W'|]. split.
        -- eapply alike_trans; [exact A|]. apply (differ_alike l); [intros k N; cbn; rewrite Gd, same_loc_ne by assumption; reflexivity|now rewrite G|cbn; rewrite Gd, same_loc_refl; exact I].
        -- intros k. cbn. rewrite Gd. unfold update. now rewrite H.
      * exists (tick s). split; [reflexivity|exact (conj W (conj A H))].
      * exfalso. now apply (NL x).
      * destruct R as (d & n & _ & R & _). rewrite R. eexists. split; [reflexivity|]. exact (conj W (conj A H)).
    + rewrite stat_fail by assumption. cbn [is_dir fst snd]. unfold sys_unlink. rewrite NF. cbn [tree tick]. destruct (resolve (tree s) cwd false p); [discriminate T'..|]. eexists. split; [reflexivity|]. exact (conj W (conj A H)).
  - unfold file_exists, sys_access. cbn [fst snd]. rewrite cstr_id in * by assumption. destruct (leads t0 cwd true p) as [l|] eqn:El.
    + rewrite (stat_target fault cwd s p l) by auto. rewrite <- H. eexists. split; [reflexivity|]. exact (conj W (conj A H)).
    + rewrite stat_fail by assumption. eexists. split; [reflexivity|]. exact (conj W (conj A H)).
Qed.
Lemma performs_ideal os s m : no_faults fault -> no_shorts short -> get t0 cwd = Some EDir -> Forall (fun o => ~ In 0 (path_of o)) os ->
  (forall p, In (Delete p) os -> leads t0 cwd false p = leads t0 cwd true p) -> sound_state s m ->
  snd (performs s os) = fst (ideals (leads t0 cwd true) m os) /\ sound_state (fst (performs s os)) (snd (ideals (leads t0 cwd true) m os)).
Proof.
  intros NF NS C0. revert s m. induction os as [|o os IH]; intros s m Z0 Dl S; [now split|]. inversion Z0 as [|? ? Z1 Z2]; subst.
  destruct (perform_ideal s m o NF NS C0 Z1) as (s1 & E & S1); [intros p ->; apply Dl; now left|assumption|]. cbn [performs ideals]. rewrite E. destruct (ideal (leads t0 cwd true) m o) as [r m1]. cbn [fst snd] in *.
  destruct (IH s1 m1 Z2) as [A B]; [intros p I; apply Dl; now right|assumption|]. destruct (performs s1 os) as [s2 rs], (ideals (leads t0 cwd true) m1 os) as [rs' m2]. cbn [fst snd] in *. split; [now rewrite A|assumption].
Qed.
End Hist.
