(** Proofs about the import set. *)
From Verif Require Import Base BaseFacts LexModel LexProofs MapModel MapProofs ProbeModel ProbeProofs ImportModel ImportSpec.

Lemma eqs_iff a b : eqs a b = true <-> a = b.
Proof. unfold eqs. rewrite Z.eqb_eq. split; [apply strcmp_eq|intros ->; apply strcmp_refl]. Qed.
(** The table holds exactly the entries [m]. *)
Record holds (s : iset) (m : list ientry) : Prop := {
  h_sound : sound (@fst bytes (option bytes)) import_path_hash (itable s);
  h_used : used (itable s) = length m;
  h_count : icount s = Z.of_nat (length m);
  h_cap : cap (itable s) = 512;
  h_most : (length m <= 256)%nat;
  h_has : forall e, has (itable s) e <-> In e m;
  h_distinct : NoDup (map fst m)
}.
Lemma no_imports_holds : holds no_imports [].
Proof.
  constructor.
  - cbn [no_imports itable]. apply (empty_sound _ _ 9); [lia|reflexivity].
  - cbn [no_imports itable]. apply empty_used.
  - reflexivity.
  - cbn [no_imports itable]. apply empty_cap.
  - cbn [length]. lia.
  - intros e. cbn [no_imports itable]. split; [intros H; now apply empty_has in H|intros []].
  - constructor.
Qed.
Lemma nodup_snoc {A} (l : list A) x : NoDup l -> ~ In x l -> NoDup (l ++ [x]).
Proof.
  intros N H. apply NoDup_rev in N. rewrite <- (rev_involutive (l ++ [x])). apply NoDup_rev. rewrite rev_app_distr. cbn [rev app]. constructor; [|exact N].
  now rewrite <- in_rev.
Qed.
Lemma fst_unique (m : list ientry) e f : NoDup (map fst m) -> In e m -> In f m -> fst e = fst f -> e = f.
Proof.
  induction m as [|x m IH]; intros N He Hf E; [destruct He|]. cbn [map] in N. apply NoDup_cons_iff in N as [N1 N2].
  destruct He as [->|He], Hf as [->|Hf]; [reflexivity| | |now apply IH].
  - elim N1. rewrite E. now apply in_map.
  - elim N1. rewrite <- E. now apply in_map.
Qed.
Definition lookup (m : list ientry) (path : bytes) : option ientry := find (fun e => eqs (fst e) path) m.
Lemma lookup_none m path : lookup m path = None <-> ~ In path (map fst m).
Proof.
  unfold lookup. split.
  - intros F H. apply in_map_iff in H as (e & <- & H). pose proof (find_none _ _ F e H) as X. cbn beta in X. assert (Y : eqs (fst e) (fst e) = true) by now apply eqs_iff. congruence.
  - intros N. destruct (find _ m) as [e|] eqn:F; [|reflexivity]. apply find_some in F as [H E]. apply eqs_iff in E. elim N. rewrite <- E. now apply in_map.
Qed.
Lemma lookup_some m path e : lookup m path = Some e -> In e m /\ fst e = path.
Proof. unfold lookup. intros F. apply find_some in F as [H E]. apply eqs_iff in E. now split. Qed.
Lemma probe_lookup s m path : holds s m -> exists h, probe_from (at_path path) (itable s) (import_path_hash path) = Some h /\ slot (itable s) h = lookup m path.
Proof.
  intros H. destruct (lookup m path) as [e|] eqn:L.
  - apply lookup_some in L as [L <-]. apply (find_present fst import_path_hash (at_path (fst e)) (itable s) e).
    + apply H.
    + now apply (h_has s m H).
    + intros f Hf. unfold at_path. now rewrite eqs_iff.
  - apply lookup_none in L. destruct (find_absent fst import_path_hash (at_path path) (itable s) (import_path_hash path)) as (d & _ & E & N & _).
    + apply H.
    + intros f Hf. unfold at_path. destruct (eqs (fst f) path) eqn:Ef; [|reflexivity]. apply eqs_iff in Ef. elim L. rewrite <- Ef. apply in_map. now apply (h_has s m H).
    + eexists. split; [exact E|exact N].
Qed.
Definition remember (m : list ientry) (path : bytes) (o : option bytes) : list ientry :=
  if (256 <=? length m)%nat then m else match lookup m path with Some _ => m | None => m ++ [(path, o)] end.
Lemma already_spec s m path : holds s m -> already_imported s path = Ok (match lookup m path with Some _ => true | None => false end).
Proof. intros H. unfold already_imported. destruct (probe_lookup s m path H) as (h & -> & ->). now destruct (lookup m path). Qed.
Lemma module_spec s m path : holds s m -> imported_by_module s path = Ok (match lookup m path with Some e => snd e | None => None end).
Proof. intros H. unfold imported_by_module. destruct (probe_lookup s m path H) as (h & -> & ->). now destruct (lookup m path). Qed.
Lemma mark_spec s m path o : holds s m -> exists s', mark_imported_with_module s path o = Ok s' /\ holds s' (remember m path o).
Proof.
  intros H. unfold mark_imported_with_module, remember. rewrite (h_count s m H). unfold MAX_IMPORTS.
  destruct (Nat.leb_spec 256 (length m)) as [L|L].
  - exists s. split; [|exact H]. destruct (Z.leb_spec 256 (Z.of_nat (length m))); [reflexivity|lia].
  - destruct (Z.leb_spec 256 (Z.of_nat (length m))); [lia|]. destruct (lookup m path) as [e|] eqn:Lk.
    + destruct (probe_lookup s m path H) as (h & -> & ->). rewrite Lk. exists s. now split.
    + pose proof Lk as N. apply lookup_none in N.
      destruct (add_entry fst import_path_hash (at_path path) (itable s) (path, o)) as (p & Ep & Rp & Sp & S' & U' & C' & H').
      * apply H.
      * intros f Hf E. cbn [fst] in E. apply N. rewrite <- E. apply in_map. now apply (h_has s m H).
      * intros f Hf. unfold at_path. destruct (eqs (fst f) path) eqn:Ef; [|reflexivity]. apply eqs_iff in Ef. elim N. rewrite <- Ef. apply in_map. now apply (h_has s m H).
      * rewrite (h_used s m H), (h_cap s m H). lia.
      * cbn [fst] in Ep. rewrite Ep, Sp. eexists. split; [reflexivity|]. constructor; cbn [itable icount].
        -- exact S'.
        -- rewrite U', (h_used s m H), app_length. cbn [length]. lia.
        -- rewrite app_length. cbn [length]. lia.
        -- rewrite C'. apply H.
        -- rewrite app_length. cbn [length]. lia.
        -- intros e. rewrite H', in_app_iff, (h_has s m H). cbn [In]. intuition congruence.
        -- rewrite map_app. cbn [map fst]. apply (nodup_snoc _ _ (h_distinct s m H) N).
Qed.

(** Histories of marks. *)
Definition marks (s : iset) (l : list ientry) : res iset := fold_left (fun r e => rbind r (fun s => mark_imported_with_module s (fst e) (snd e))) l (Ok s).
Definition remembered (m : list ientry) (l : list ientry) : list ientry := fold_left (fun m e => remember m (fst e) (snd e)) l m.
Lemma marks_spec l : forall s m, holds s m -> exists s', marks s l = Ok s' /\ holds s' (remembered m l).
Proof.
  induction l as [|e l IH]; intros s m H; [now exists s|]. unfold marks, remembered. cbn [fold_left rbind].
  destruct (mark_spec s m (fst e) (snd e) H) as (s1 & -> & H1). exact (IH s1 _ H1).
Qed.
Definition bytes_dec : forall a b : bytes, {a = b} + {a <> b} := list_eq_dec Z.eq_dec.
(** The different paths marked. *)
Definition paths_of (l : list ientry) : list bytes := nodup bytes_dec (map fst l).
Lemma paths_snoc l e : (length (paths_of l) <= length (paths_of (l ++ [e])))%nat /\ (~ In (fst e) (map fst l) -> (S (length (paths_of l)) <= length (paths_of (l ++ [e])))%nat).
Proof.
  unfold paths_of. split.
  - apply NoDup_incl_length; [apply NoDup_nodup|]. intros x H. apply nodup_In in H. apply nodup_In. rewrite map_app. apply in_or_app. now left.
  - intros N. change (S (length (nodup bytes_dec (map fst l)))) with (length (fst e :: nodup bytes_dec (map fst l))). apply NoDup_incl_length.
    + constructor; [|apply NoDup_nodup]. now rewrite nodup_In.
    + intros x [<-|H]; apply nodup_In; rewrite map_app; apply in_or_app; [right; now left|left; now apply nodup_In in H].
Qed.
Lemma find_app {A} (f : A -> bool) l l' : find f (l ++ l') = match find f l with Some x => Some x | None => find f l' end.
Proof. induction l as [|x l IH]; [reflexivity|]. cbn [app find]. now destruct (f x). Qed.
Lemma remembered_exact l : (length (paths_of l) <= 256)%nat -> (length (remembered [] l) <= length (paths_of l))%nat /\ forall p, lookup (remembered [] l) p = lookup l p.
Proof.
  induction l as [|e l IH] using rev_ind; intros L; [cbn; split; [lia|reflexivity]|].
  destruct (paths_snoc l e) as [P1 P2]. destruct IH as [I1 I2]; [lia|].
  unfold remembered. rewrite fold_left_app. fold (remembered [] l). cbn [fold_left]. unfold remember. rewrite (I2 (fst e)).
  assert (Lx : forall p, lookup (l ++ [e]) p = match lookup l p with Some x => Some x | None => if eqs (fst e) p then Some e else None end).
  { intros p. unfold lookup. rewrite find_app. destruct (find _ l); [reflexivity|]. cbn [find]. now destruct (eqs (fst e) p). }
  destruct (lookup l (fst e)) as [x|] eqn:Lk.
  - assert (X : (if (256 <=? length (remembered [] l))%nat then remembered [] l else remembered [] l) = remembered [] l) by now destruct (256 <=? length (remembered [] l))%nat.
    rewrite X. split; [lia|]. intros p. rewrite I2, Lx. destruct (lookup l p) eqn:Lp; [reflexivity|]. destruct (eqs (fst e) p) eqn:Ep; [|reflexivity]. apply eqs_iff in Ep. congruence.
  - pose proof Lk as N. apply lookup_none in N. specialize (P2 N). destruct (Nat.leb_spec 256 (length (remembered [] l))); [lia|]. split.
    + rewrite app_length. cbn [length]. lia.
    + intros p. rewrite Lx, <- (I2 p). unfold lookup at 1. rewrite find_app. fold (lookup (remembered [] l) p). destruct (lookup (remembered [] l) p); [reflexivity|].
      cbn [find fst]. destruct (eqs (fst e) p); [|reflexivity]. now destruct e.
Qed.
