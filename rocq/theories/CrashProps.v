(** C44, C90: what is on the disk when installing or extracting stops anywhere. *)
From Verif Require Import Base BaseFacts CrashModel.

(** ** C44.  The updater starts with the old binary at the executable path and anything at the backup path. *)
Definition started (old : bytes) (b : option file) : state := State Fetching (Disk (Some (File old true)) b) 0.
Definition is_file (f : option file) (c : bytes) : Prop := f = Some (File c true).

Definition inv (old new : bytes) (b0 : option file) (s : state) : Prop :=
  match where_ s with
  | Fetching => on s = Disk (Some (File old true)) b0 /\ faults s = 0%nat
  | BackingUp => on s = Disk (Some (File old true)) b0 /\ faults s = 0%nat
  | Opening => on s = Disk None (Some (File old true)) /\ faults s = 0%nat
  | Copying t => faults s = 0%nat /\ exists c, on s = Disk (Some (File c false)) (Some (File old true)) /\ c ++ t = new
  | Marking => on s = Disk (Some (File new false)) (Some (File old true)) /\ faults s = 0%nat
  | Discarding => is_file (at_backup (on s)) old /\ (1 <= faults s)%nat
  | Restoring => is_file (at_backup (on s)) old /\ (1 <= faults s)%nat
  | Cleaning => on s = Disk (Some (File new true)) (Some (File old true)) /\ faults s = 0%nat
  | Returned true => is_file (at_exec (on s)) new
  | Returned false => (1 <= faults s)%nat /\ (on s = Disk (Some (File old true)) b0 \/ on s = Disk (Some (File old true)) None \/ (is_file (at_backup (on s)) old /\ (2 <= faults s)%nat))
  end.
Lemma inv_step old new b0 s t : inv old new b0 s -> step new s t -> inv old new b0 t.
Proof.
  intros I S. destruct S; unfold inv in *; cbn [where_ on faults at_exec at_backup is_file] in *.
  all: repeat match goal with
    | H : _ /\ _ |- _ => destruct H
    | H : exists _, _ |- _ => destruct H
    | H : Disk _ _ = Disk _ _ |- _ => injection H; clear H; intros
    | H : Some _ = Some _ |- _ => injection H; clear H; intros
    end; subst; cbn [at_exec at_backup is_file content] in *; unfold is_file in *.
  all: try (split; [reflexivity|lia]); auto.
  - split; [reflexivity|]. exists []. auto.
  - split; [reflexivity|]. exists (x0 ++ x). split; [reflexivity|]. now rewrite <- app_assoc.
  - now rewrite app_nil_r.
  - split; [lia|]. right. left. congruence.
  - split; [lia|]. right. right. split; [assumption|lia].
Qed.
Lemma inv_reach old new b0 s : reach new (started old b0) s -> inv old new b0 s.
Proof. induction 1 as [|t u R IH S]; [split; reflexivity|eapply inv_step; eauto]. Qed.
(** Wherever the updater is killed, the complete old or new binary, executable, is at the executable path or the
    complete old one is at the backup path. *)
Theorem install_crash_partial old new b0 s : reach new (started old b0) s ->
  is_file (at_exec (on s)) old \/ is_file (at_exec (on s)) new \/ is_file (at_backup (on s)) old.
Proof.
  intros R. apply inv_reach in R. unfold inv, is_file in *. destruct s as [w [e b] n]; cbn [where_ on faults at_exec at_backup] in *.
  destruct w as [| | |t| | | | |[|]].
  all: repeat match goal with H : _ /\ _ |- _ => destruct H | H : exists _, _ |- _ => destruct H | H : Disk _ _ = Disk _ _ |- _ => injection H; clear H; intros end; subst; auto.
  destruct H0 as [E|[E|(E & _)]]; [injection E as -> ->|injection E as -> ->|]; auto.
Qed.
(** If it reports success the new binary is in place; if it reports an error and only one call failed the old one is; if
    restoring failed too, the old one is still at the backup path. *)
Theorem install_returns old new b0 s ok : reach new (started old b0) s -> where_ s = Returned ok ->
  if ok then is_file (at_exec (on s)) new
  else (1 <= faults s)%nat /\ (is_file (at_exec (on s)) old \/ is_file (at_backup (on s)) old /\ (2 <= faults s)%nat).
Proof.
  intros R W. apply inv_reach in R. unfold inv in R. rewrite W in R. destruct ok; [exact R|]. destruct R as (F & R). split; [exact F|].
  destruct R as [->|[->|R]]; [left; reflexivity|left; reflexivity|right; exact R].
Qed.
(** With no failing call it succeeds. *)
Theorem install_success old new b0 : reach new (started old b0) (State (Returned true) (Disk (Some (File new true)) None) 0).
Proof.
  unfold started. eapply reach_step; [|apply s_clean]. eapply reach_step; [|apply (s_mark new (File new false))]. eapply reach_step; [|apply s_copied].
  eapply reach_step. 2:{ pose proof (s_copy new [] false (Some (File old true)) 0%nat new []) as C. rewrite app_nil_r in C. exact C. }
  eapply reach_step; [|apply (s_open new None)]. eapply reach_step; [|apply s_backup]. eapply reach_step; [|apply s_fetch]. apply reach_here.
Qed.
(** A power failure right after success may leave neither: nothing is synced before the backup is removed. *)
Theorem install_power_refuted : exists old new s d, reach new (started old None) s /\ power_failure old (on s) d /\
  forall c, In c [old; new] -> ~ is_file (at_exec d) c /\ ~ is_file (at_backup d) c.
Proof.
  exists [1;2;3], [4;5;6], (State (Returned true) (Disk (Some (File [4;5;6] true)) None) 0), (Disk (Some (File [4] true)) None).
  split; [apply install_success|]. split; [split; [exists 1%nat; reflexivity|reflexivity]|].
  intros c [<- | [<- | []]]; split; discriminate.
Qed.
Example install_demo : exists s, reach [4;5;6] (started [1;2;3] None) s /\ on s = Disk (Some (File [4;5] false)) (Some (File [1;2;3] true)).
Proof.
  exists (State (Copying [6]) (Disk (Some (File [4;5] false)) (Some (File [1;2;3] true))) 0). split; [|reflexivity]. unfold started.
  eapply reach_step; [|apply (s_copy _ [4] _ _ _ [5] [6])]. eapply reach_step; [|apply (s_copy _ [] _ _ _ [4] [5;6])].
  eapply reach_step; [|apply (s_open _ None)]. eapply reach_step; [|apply s_backup]. eapply reach_step; [|apply s_fetch]. apply reach_here.
Qed.

(** ** C90 *)
Definition complete (data : bytes) (w : world) : Prop := exists i, path w = Some i /\ inode w i = data.
(** before any process runs: no file, or a complete one; a stale temporary file may exist *)
Definition fresh (data : bytes) (w : world) : Prop :=
  (forall p, proc w p = Before) /\ (path w = None \/ complete data w) /\
  (forall i, path w = Some i -> (i < next w)%nat /\ tmp w <> Some i) /\ (forall i, tmp w = Some i -> (i < next w)%nat).
Definition winv (data : bytes) (w : world) : Prop :=
  (path w = None \/ complete data w) /\
  (forall i, path w = Some i -> (i < next w)%nat /\ tmp w <> Some i) /\ (forall i, tmp w = Some i -> (i < next w)%nat) /\
  (forall p q, busy (proc w p) -> busy (proc w q) -> p = q) /\
  (forall p, match proc w p with
             | Writing i off => tmp w = Some i /\ inode w i = firstn off data /\ (off <= length data)%nat
             | Renaming => exists i, tmp w = Some i /\ inode w i = data
             | Finished true => complete data w
             | _ => True end).
Lemma upd_same {A} (f : nat -> A) i a : upd f i a i = a.
Proof. unfold upd. now rewrite Nat.eqb_refl. Qed.
Lemma upd_other {A} (f : nat -> A) i j a : j <> i -> upd f i a j = f j.
Proof. intros H. unfold upd. now destruct (Nat.eqb_spec j i). Qed.
Lemma write_at_end (c x : bytes) : write_at (length c) x c = c ++ x.
Proof.
  unfold write_at. rewrite Nat.sub_diag. cbn [List.repeat]. rewrite app_nil_r, firstn_all, skipn_all2 by lia. now rewrite app_nil_r.
Qed.
Lemma not_busy_trivial data w p : ~ busy (proc w p) -> (proc w p = Finished true -> complete data w) ->
  match proc w p with
  | Writing i off => tmp w = Some i /\ inode w i = firstn off data /\ (off <= length data)%nat
  | Renaming => exists i, tmp w = Some i /\ inode w i = data
  | Finished true => complete data w
  | _ => True end.
Proof. destruct (proc w p) as [| | | | |[|]|]; cbn; auto; tauto. Qed.
Lemma winv_step data w v p : winv data w -> alone p w -> wstep data p w v -> winv data v.
Proof.
  intros (C & PB & TB & U & I) A S.
  (* what has to be shown about v once its files are known *)
  assert (G : forall v s, proc v = upd (proc w) p s -> (path v = None \/ complete data v) ->
     (forall i, path v = Some i -> (i < next v)%nat /\ tmp v <> Some i) -> (forall i, tmp v = Some i -> (i < next v)%nat) -> (complete data w -> complete data v) ->
     match s with
     | Writing i off => tmp v = Some i /\ inode v i = firstn off data /\ (off <= length data)%nat
     | Renaming => exists i, tmp v = Some i /\ inode v i = data
     | Finished true => complete data v
     | _ => True end -> winv data v).
  { intros v' s P C' PB' TB' CC M. split; [exact C'|]. split; [exact PB'|]. split; [exact TB'|]. split.
    - intros a b. rewrite P. destruct (Nat.eq_dec a p) as [->|Na], (Nat.eq_dec b p) as [->|Nb]; auto; rewrite ?upd_same, ?upd_other by assumption; intros B1 B2.
      + now apply A in B2.
      + now apply A in B1.
      + now apply A in B1.
    - intros q. rewrite P. destruct (Nat.eq_dec q p) as [->|N]; [now rewrite upd_same|]. rewrite upd_other by exact N.
      specialize (A q N). specialize (I q). destruct (proc w q) as [| | | | |[|]|]; cbn in A; auto; tauto. }
  pose proof (I p) as Ip.
  destruct S as [i E P L|E P|E T|i E T|i off x y E D|i off E L|i E T|E|t E T|E|]; rewrite ?E in Ip; cbn in Ip.
  - apply (G _ (Finished true)); auto. cbn. destruct C as [C|C]; [congruence|exact C].
  - apply (G _ OpenTmp); auto; cbn; auto.
  - apply (G _ (Writing (next w) 0)); cbn [path tmp next inode complete]; auto.
    + destruct C as [C|(i & Pi & Ei)]; [auto|right]. exists i. cbn [path inode]. split; [exact Pi|]. rewrite upd_other; [exact Ei|]. destruct (PB i Pi). lia.
    + intros i Pi. destruct (PB i Pi). split; [lia|]. intros [= K]. lia.
    + intros i [= <-]. lia.
    + intros (i & Pi & Ei). exists i. cbn [path inode]. split; [exact Pi|]. rewrite upd_other; [exact Ei|]. destruct (PB i Pi). lia.
    + split; [reflexivity|]. rewrite upd_same. split; [reflexivity|lia].
  - assert (K : complete data w -> complete data (World (upd (inode w) i []) (next w) (tmp w) (path w) (upd (proc w) p (Writing i 0)))).
    { intros (j & Pj & Ej). exists j. cbn [path inode]. split; [exact Pj|]. rewrite upd_other; [exact Ej|]. intros ->. now destruct (PB i Pj). }
    apply (G _ (Writing i 0)); cbn [path tmp next inode]; auto.
    + destruct C as [C|C]; auto.
    + split; [exact T|]. rewrite upd_same. split; [reflexivity|lia].
  - destruct Ip as (T & EI & LO).
    assert (K : complete data w -> complete data (World (upd (inode w) i (write_at off x (inode w i))) (next w) (tmp w) (path w) (upd (proc w) p (Writing i (off + length x))))).
    { intros (j & Pj & Ej). exists j. cbn [path inode]. split; [exact Pj|]. rewrite upd_other; [exact Ej|]. intros ->. now destruct (PB i Pj). }
    apply (G _ (Writing i (off + length x))); cbn [path tmp next inode]; auto.
    + destruct C as [C|C]; auto.
    + split; [exact T|]. rewrite upd_same, EI. assert (LL : length (firstn off data) = off) by (rewrite firstn_length; lia).
      assert (DD : data = firstn off data ++ x ++ y) by (rewrite <- D; now rewrite firstn_skipn).
      assert (LD : length data = (off + (length x + length y))%nat) by (rewrite DD at 1; rewrite !app_length, LL; reflexivity).
      split; [|lia]. rewrite <- LL at 1. rewrite write_at_end. rewrite DD at 2. rewrite <- LL at 2. rewrite firstn_app_2, firstn_app, firstn_all, Nat.sub_diag. cbn [firstn]. now rewrite app_nil_r.
  - destruct Ip as (T & EI & LO). apply (G _ Renaming); auto. exists i. cbn [tmp inode]. split; [exact T|]. rewrite EI. apply firstn_all2. lia.
  - destruct Ip as (j & T2 & EJ). rewrite T in T2. injection T2 as <-.
    apply (G _ (Finished true)); cbn [path tmp next inode]; auto.
    + right. exists i. auto.
    + intros j [= <-]. split; [now apply TB|discriminate].
    + discriminate.
    + intros _. exists i. auto.
    + exists i. auto.
  - apply (G _ Unlinking); auto.
  - apply (G _ (Finished false)); cbn [path tmp next inode]; auto; [|].
    + intros i Pi. destruct (PB i Pi). split; [assumption|]. destruct T as [-> | ->]; [discriminate|assumption].
    + intros i. destruct T as [-> | ->]; [discriminate|apply TB].
  - apply (G _ (Finished false)); auto.
  - apply (G _ Dead); auto.
Qed.
Lemma winv_fresh data w : fresh data w -> winv data w.
Proof.
  intros (B & C & PB & TB). split; [exact C|]. split; [exact PB|]. split; [exact TB|]. split; [intros p q H; now rewrite B in H|]. intros p. now rewrite B.
Qed.
(** While no two processes are extracting at the same time, and wherever they are killed or fail: the file at its final
    path is absent or complete at all times, and complete once any process has reported success. *)
Theorem runtime_file_partial data w v : fresh data w -> wreach_seq data w v ->
  (path v = None \/ complete data v) /\ (forall p, proc v p = Finished true -> complete data v).
Proof.
  intros F R. assert (W : winv data v) by (induction R as [|u v p R IH A S]; [now apply winv_fresh|eapply winv_step; eauto]).
  destruct W as (C & _ & _ & _ & I). split; [exact C|]. intros p E. specialize (I p). now rewrite E in I.
Qed.
(** A process that is not disturbed and meets no error completes the file, also after others were killed. *)
Theorem runtime_file_completed data w v p : fresh data w -> wreach_seq data w v -> (forall q, ~ busy (proc v q)) -> proc v p = Before ->
  exists u, wreach_seq data w u /\ proc u p = Finished true /\ complete data u.
Proof.
  intros F R NB B. assert (AL : forall u s, proc u = upd (proc v) p s -> alone p u) by (intros u s E q N; rewrite E, upd_other by exact N; apply NB).
  assert (A0 : alone p v) by (intros q _; apply NB).
  destruct (runtime_file_partial data w v F R) as (C & _).
  assert (DONE : forall u, wreach_seq data w u -> proc u p = Finished true -> exists u, wreach_seq data w u /\ proc u p = Finished true /\ complete data u).
  { intros u Ru E. exists u. split; [exact Ru|]. split; [exact E|]. now apply (proj2 (runtime_file_partial data w u F Ru) p). }
  destruct C as [C|(i & Pi & Ei)].
  - assert (W1 : wstep data p v (World (inode v) (next v) (tmp v) (path v) (upd (proc v) p OpenTmp))) by (apply w_absent; [exact B|rewrite C; discriminate]).
    pose proof (wseq_step data w _ _ p R A0 W1) as R1. set (v1 := World _ _ _ _ _) in R1.
    assert (A1 : alone p v1) by now apply (AL _ OpenTmp).
    assert (O : exists i v2, wstep data p v1 v2 /\ proc v2 p = Writing i 0 /\ alone p v2 /\ tmp v2 = Some i).
    { destruct (tmp v) as [i|] eqn:T.
      - exists i. eexists. split; [apply w_open_old; [apply upd_same|reflexivity]|]. split; [apply upd_same|]. split; [|reflexivity]. intros q N. cbn [proc v1]. rewrite !upd_other by exact N. apply NB.
      - exists (next v). eexists. split; [apply w_open_new; [apply upd_same|reflexivity]|]. split; [apply upd_same|]. split; [|reflexivity]. intros q N. cbn [proc v1]. rewrite !upd_other by exact N. apply NB. }
    destruct O as (i & v2 & S2 & E2 & A2 & T2). pose proof (wseq_step data w _ _ p R1 A1 S2) as R2.
    pose proof (w_write data p v2 i 0 data [] E2 ltac:(cbn [skipn]; now rewrite app_nil_r)) as S3. pose proof (wseq_step data w _ _ p R2 A2 S3) as R3. set (v3 := World _ _ _ _ _) in R3.
    assert (E3 : proc v3 p = Writing i (0 + length data)) by apply upd_same.
    assert (A3 : alone p v3) by (intros q N; cbn [proc v3]; rewrite upd_other by exact N; now apply A2).
    pose proof (w_written data p v3 i _ E3 ltac:(lia)) as S4. pose proof (wseq_step data w _ _ p R3 A3 S4) as R4. set (v4 := World _ _ _ _ _) in R4.
    assert (E4 : proc v4 p = Renaming) by apply upd_same.
    assert (A4 : alone p v4) by (intros q N; cbn [proc v4]; rewrite upd_other by exact N; now apply A3).
    pose proof (w_rename data p v4 i E4 T2) as S5. pose proof (wseq_step data w _ _ p R4 A4 S5) as R5. eapply DONE; [exact R5|apply upd_same].
  - assert (S1 := w_present data p v i B Pi ltac:(now rewrite Ei)). pose proof (wseq_step data w _ _ p R A0 S1) as R1. eapply DONE; [exact R1|apply upd_same].
Qed.
(** Two processes at once share the temporary file.  One can report success while the file is incomplete; and if one of
    them is killed the file can end up with the right length and wrong bytes, which every later run accepts. *)
Definition empty_world : world := World (fun _ => []) 0 None None (fun _ => Before).
Theorem runtime_file_refuted :
  (exists v, wreach [1;2;3;4] empty_world v /\ proc v 0%nat = Finished true /\ ~ complete [1;2;3;4] v) /\
  (exists v i, wreach [1;2;3;4] empty_world v /\ (forall p, ~ busy (proc v p)) /\ path v = Some i /\ inode v i = [0;0;3;4] /\
     forall p u, proc v p = Before -> wstep [1;2;3;4] p v u -> proc u p = Finished true \/ proc u p = Dead).
Proof.
  assert (R3 : wreach [1;2;3;4] empty_world (World (upd (fun _ => []) 0%nat []) 1 (Some 0%nat) None (upd (upd (fun _ => Before) 0%nat OpenTmp) 0%nat (Writing 0 0)))).
  { eapply wreach_step; [eapply wreach_step; [apply wreach_here|apply (w_absent _ 0%nat); [reflexivity|discriminate]]|]. apply (w_open_new _ 0%nat); reflexivity. }
  assert (ND : forall i, @None nat = Some i -> length (@nil Z) <> 4%nat) by discriminate.
  split.
  - match type of R3 with wreach _ _ ?W => pose proof (wreach_step _ _ _ _ _ R3 (w_write [1;2;3;4] 0%nat W 0%nat 0%nat [1;2;3;4] [] eq_refl eq_refl)) as R4 end. cbn [inode next tmp path proc] in R4.
    match type of R4 with wreach _ _ ?W => pose proof (wreach_step _ _ _ _ _ R4 (w_written [1;2;3;4] 0%nat W 0%nat 4%nat eq_refl (le_n 4))) as R5 end. cbn [inode next tmp path proc] in R5.
    match type of R5 with wreach _ _ ?W => pose proof (wreach_step _ _ _ _ _ R5 (w_absent [1;2;3;4] 1%nat W eq_refl (fun i (H : None = Some i) => ltac:(discriminate H)))) as R6 end. cbn [inode next tmp path proc] in R6.
    match type of R6 with wreach _ _ ?W => pose proof (wreach_step _ _ _ _ _ R6 (w_open_old [1;2;3;4] 1%nat W 0%nat eq_refl eq_refl)) as R7 end. cbn [inode next tmp path proc] in R7.
    match type of R7 with wreach _ _ ?W => pose proof (wreach_step _ _ _ _ _ R7 (w_rename [1;2;3;4] 0%nat W 0%nat eq_refl eq_refl)) as R8 end. cbn [inode next tmp path proc] in R8.
    eexists. split; [exact R8|]. split; [reflexivity|].
    intros (i & [= <-] & E). discriminate E.
  - match type of R3 with wreach _ _ ?W => pose proof (wreach_step _ _ _ _ _ R3 (w_write [1;2;3;4] 0%nat W 0%nat 0%nat [1;2] [3;4] eq_refl eq_refl)) as R4 end. cbn [inode next tmp path proc] in R4.
    match type of R4 with wreach _ _ ?W => pose proof (wreach_step _ _ _ _ _ R4 (w_absent [1;2;3;4] 1%nat W eq_refl (fun i (H : None = Some i) => ltac:(discriminate H)))) as R5 end. cbn [inode next tmp path proc] in R5.
    match type of R5 with wreach _ _ ?W => pose proof (wreach_step _ _ _ _ _ R5 (w_open_old [1;2;3;4] 1%nat W 0%nat eq_refl eq_refl)) as R6 end. cbn [inode next tmp path proc] in R6.
    match type of R6 with wreach _ _ ?W => pose proof (wreach_step _ _ _ _ _ R6 (w_crash [1;2;3;4] 1%nat W)) as R7 end. cbn [inode next tmp path proc] in R7.
    match type of R7 with wreach _ _ ?W => pose proof (wreach_step _ _ _ _ _ R7 (w_write [1;2;3;4] 0%nat W 0%nat 2%nat [3;4] [] eq_refl eq_refl)) as R8 end. cbn [inode next tmp path proc] in R8.
    match type of R8 with wreach _ _ ?W => pose proof (wreach_step _ _ _ _ _ R8 (w_written [1;2;3;4] 0%nat W 0%nat 4%nat eq_refl (le_n 4))) as R9 end. cbn [inode next tmp path proc] in R9.
    match type of R9 with wreach _ _ ?W => pose proof (wreach_step _ _ _ _ _ R9 (w_rename [1;2;3;4] 0%nat W 0%nat eq_refl eq_refl)) as R10 end. cbn [inode next tmp path proc] in R10.
    eexists. exists 0%nat. split; [exact R10|split; [|split; [|split]]].
    + intros [|[|p]]; cbn; auto.
    + reflexivity.
    + reflexivity.
    + intros p u B S. destruct S as [i E P L|E P|E T|i E T|i off x y E D|i off E L|i E T|E|t E T|E|].
      all: try (exfalso; rewrite B in E; discriminate E).
      * left. apply upd_same.
      * exfalso. now apply (P 0%nat).
      * exfalso. rewrite B in E. destruct E as [E|(? & ? & E)]; discriminate E.
      * right. apply upd_same.
Qed.

Print Assumptions install_crash_partial. Print Assumptions install_returns. Print Assumptions install_success. Print Assumptions install_power_refuted.
Print Assumptions runtime_file_partial. Print Assumptions runtime_file_completed. Print Assumptions runtime_file_refuted.
Example runtime_file_demo : fresh [1;2;3;4] empty_world /\ alone 0%nat empty_world.
Proof. split; [|intros q _ []]. split; [reflexivity|]. split; [now left|]. split; intros i H; discriminate H. Qed.
