(** Files: what is written, read, copied and moved. *)
From Verif Require Import Base BaseFacts FilesSpec FilesModel FilesProofs.

(** ** Where paths lead *)
Definition filey (e : option entry) : Prop := match e with None | Some (EFile _) => True | _ => False end.
Definition alike (t u : fs) : Prop := forall k, get t k = get u k \/ (filey (get t k) /\ filey (get u k)).
Lemma alike_refl t : alike t t. Proof. intros k. now left. Qed.
Lemma alike_sym t u : alike t u -> alike u t.
Proof. intros H k. destruct (H k) as [E|[A B]]; [left; congruence|right; tauto]. Qed.
Lemma alike_trans t u v : alike t u -> alike u v -> alike t v.
Proof.
  intros H K k. destruct (H k) as [E|[A B]], (K k) as [F|[C D]]; [left; congruence|right; rewrite E; tauto|right; rewrite <- F; tauto|right; tauto].
Qed.
Lemma target_alike t u f n cur cs : alike t u -> target (resolve_n t f n cur cs) = target (resolve_n u f n cur cs).
Proof.
  intros A. revert cur cs. induction n as [|n IHn]; intros cur cs; revert cur; induction cs as [|c cs IH]; intros cur; try reflexivity; rewrite !resolve_eq;
    (destruct (same c [] || same c (bs ".")); [apply IH|]); (destruct (same c (bs "..")); [apply IH|]);
    destruct (A (cur ++ [c])) as [<-|[B C]].
  1,3: destruct (get t (cur ++ [c])) as [[d| |x]|]; try apply IH; try reflexivity; destruct (match cs with [] => negb f | _ => false end); try reflexivity; apply IHn.
  all: destruct (get t (cur ++ [c])) as [[d| |x]|], (get u (cur ++ [c])) as [[d'| |x']|]; try contradiction; destruct cs; reflexivity.
Qed.
Lemma resolve_alike t u cwd f p : alike t u -> target (resolve t cwd f p) = target (resolve u cwd f p).
Proof. intros A. unfold resolve. destruct (_ <=? _); [reflexivity|]. destruct p; [reflexivity|]. now apply target_alike. Qed.
(** What a resolved path says about the tree *)
Definition sensible (t : fs) (a : answer) : Prop :=
  match a with Found l => get t l <> None | Missing d n => get t d = Some EDir /\ get t (d ++ [n]) = None /\ name_ok n | Fail _ => True end.
Lemma comps_no_slash s c : In c (comps s) -> ~ In 47 c.
Proof.
  revert c. induction s as [|x s IH]; cbn; intros c; [intros [<-|[]] []|]. destruct (x =? 47) eqn:E; [intros [<-|H]; [intros []|now apply IH]|].
  destruct (comps_cons s) as (n & ns & Ec). rewrite Ec in *. intros [<-|H]; [intros [->|H]; [discriminate E|]; revert H; apply IH; now left|apply IH; now right].
Qed.
Lemma comps_no_zero s c : ~ In 0 s -> In c (comps s) -> ~ In 0 c.
Proof.
  revert c. induction s as [|x s IH]; cbn; intros c Z0; [intros [<-|[]] []|]. assert (Z1 : ~ In 0 s) by tauto. destruct (x =? 47) eqn:E; [intros [<-|H]; [intros []|now apply IH]|].
  destruct (comps_cons s) as (n & ns & Ec). rewrite Ec in *. intros [<-|H]; [intros [->|H]; [now apply Z0; left|]; revert H; apply IH; [assumption|now left]|apply IH; [assumption|now right]].
Qed.
Definition clean (cs : list bytes) : Prop := forall c, In c cs -> ~ In 47 c /\ ~ In 0 c.
Lemma comps_clean s : ~ In 0 s -> clean (comps s).
Proof. intros H c I. split; [now apply comps_no_slash in I|now apply (comps_no_zero s)]. Qed.
Lemma get_removelast t cur : wf t -> get t cur = Some EDir -> get t (removelast cur) = Some EDir.
Proof.
  intros W G. destruct (list_eq_dec bytes_eq cur []) as [->|N]; [reflexivity|]. destruct (exists_last N) as (a & b & ->). rewrite removelast_last. eapply wf_up1; [exact W|exact G].
Qed.
Lemma resolve_n_sensible t f n cur cs : wf t -> get t cur = Some EDir -> clean cs -> sensible t (resolve_n t f n cur cs).
Proof.
  intros W. revert cur cs.
  assert (Step : forall n, (forall m cur cs, n = S m -> get t cur = Some EDir -> clean cs -> sensible t (resolve_n t f m cur cs)) ->
    forall cs cur, get t cur = Some EDir -> clean cs -> sensible t (resolve_n t f n cur cs)).
  { clear n. intros n IHn. induction cs as [|c cs IH]; intros cur G C; [rewrite resolve_nil; cbn; congruence|]. rewrite resolve_eq.
    assert (C' : clean cs) by (intros d I; apply C; now right).
    destruct (same c [] || same c (bs ".")) eqn:E1; [now apply IH|]. destruct (same c (bs "..")) eqn:E2; [apply IH; [now apply get_removelast|assumption]|].
    destruct (get t (cur ++ [c])) as [[d| |x]|] eqn:E.
    - destruct cs; [cbn; congruence|exact I].
    - now apply IH.
    - destruct (match cs with [] => negb f | _ => false end); [cbn; congruence|]. destruct n as [|m]; [exact I|]. apply (IHn m); [reflexivity| |].
      + unfold start. now destruct (absolute x).
      + intros d J. apply in_app_iff in J as [J|J]; [|now apply C']. apply comps_clean in J; [assumption|].
        assert (L : cur ++ [c] <> []) by (destruct cur; discriminate). apply (wf_get _ _ _ W L) in E. exact (proj2 (proj2 W) _ _ E).
    - destruct cs; [|exact I]. cbn. split; [assumption|]. split; [assumption|]. apply orb_false_iff in E1 as [E1 E3]. unfold same in *.
      destruct (bytes_eq c []), (bytes_eq c (bs ".")), (bytes_eq c (bs "..")); try discriminate. destruct (C c (or_introl eq_refl)). now repeat split. }
  induction n as [|n IHn]; intros cur cs G C; apply Step; try assumption; [discriminate|]. intros m cur' cs' [= ->]. apply IHn.
Qed.
Lemma cstr_no_zero s : ~ In 0 (cstr s).
Proof. induction s as [|c s IH]; cbn; [tauto|]. destruct (c =? 0) eqn:E; cbn; [tauto|]. intros [->|H]; [discriminate E|tauto]. Qed.
Lemma cstr_id s : ~ In 0 s -> cstr s = s.
Proof. induction s as [|c s IH]; cbn; [reflexivity|]. intros H. destruct (c =? 0) eqn:E; [exfalso; apply H; left; lia|]. rewrite IH by tauto. reflexivity. Qed.
Lemma resolve_sensible t cwd f p : wf t -> get t cwd = Some EDir -> ~ In 0 p -> sensible t (resolve t cwd f p).
Proof.
  intros W G Z0. unfold resolve. destruct (_ <=? _); [exact I|]. destruct p as [|c p]; [exact I|]. apply resolve_n_sensible; [assumption| |now apply comps_clean]. unfold start. now destruct (absolute _).
Qed.
(** A path is resolved by its target and what is there *)
Lemma resolve_of_target t cwd f p l : wf t -> get t cwd = Some EDir -> ~ In 0 p -> target (resolve t cwd f p) = Some l ->
  match get t l with Some _ => resolve t cwd f p = Found l | None => exists d n, l = d ++ [n] /\ resolve t cwd f p = Missing d n /\ get t d = Some EDir /\ name_ok n end.
Proof.
  intros W G Z0 T. assert (S := resolve_sensible t cwd f p W G Z0). destruct (resolve t cwd f p) as [k|d n|e]; cbn in T; [| |discriminate T]; injection T as <-; cbn in S.
  - now destruct (get t k).
  - destruct S as (A & B & C). rewrite B. exists d, n. auto.
Qed.

(** ** Changing one file *)
Definition differ_at (l : loc) (t u : fs) : Prop := forall k, k <> l -> get u k = get t k.
Lemma set_differ t l e : l <> [] -> differ_at l t (set t l e).
Proof. intros L k N. rewrite get_set by assumption. now rewrite same_loc_ne by congruence. Qed.
Lemma get_set_here t l e : l <> [] -> get (set t l e) l = Some e.
Proof. intros L. rewrite get_set, same_loc_refl by assumption. reflexivity. Qed.
Lemma differ_trans l t u v : differ_at l t u -> differ_at l u v -> differ_at l t v.
Proof. intros A B k N. rewrite B, A by assumption. reflexivity. Qed.
Lemma differ_refl l t : differ_at l t t. Proof. intros k _. reflexivity. Qed.
Lemma differ_alike l t u : differ_at l t u -> filey (get t l) -> filey (get u l) -> alike t u.
Proof. intros D A B k. destruct (loc_eq k l) as [->|N]; [now right|left; symmetry; now apply D]. Qed.
Lemma data_at_file t l d : get t l = Some (EFile d) -> data_at t l = d.
Proof. unfold data_at. now intros ->. Qed.
(** A tree in which the file at [l] holds [d] and all else is as in [t] *)
Definition with_file (l : loc) (d : bytes) (t u : fs) : Prop := get u l = Some (EFile d) /\ differ_at l t u /\ wf u.
Lemma with_file_set l d e t u : with_file l d t u -> with_file l e t (set u l (EFile e)).
Proof.
  intros (G & D & W). assert (L : l <> []) by (intros ->; discriminate G). split; [now apply get_set_here|]. split; [eapply differ_trans; [exact D|now apply set_differ]|now apply (wf_set_file _ _ d)].
Qed.
