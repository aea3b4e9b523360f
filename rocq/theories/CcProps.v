(** C151: the command for the C compiler. *)
From Verif Require Import Base CcSpec CcModel.

Lemma quote_free s : has_quote s = false -> forall c, In c s -> c <> 39.
Proof. intros H c I E. subst. assert (has_quote s = true) by (apply existsb_exists; exists 39; exact (conj I eq_refl)). congruence. Qed.
Lemma read_quoted s : (forall c, In c s -> c <> 39) -> forall ws w, fold_left read_char s (Some (Shell ws (Some w) true)) = Some (Shell ws (Some (w ++ s)) true).
Proof.
  induction s as [|c s IH]; intros H ws w; [cbn; now rewrite app_nil_r|]. cbn [fold_left read_char]. replace (c =? 39) with false by (specialize (H c (or_introl eq_refl)); lia).
  unfold more. rewrite IH by (intros d D; apply H; now right). now rewrite <- app_assoc.
Qed.
Lemma read_quote s ws : (forall c, In c s -> c <> 39) -> fold_left read_char (quote s) (Some (Shell ws None false)) = Some (Shell ws (Some s) false).
Proof. intros H. unfold quote. rewrite !fold_left_app. change (fold_left read_char [39] (Some (Shell ws None false))) with (Some (Shell ws (Some []) true)). rewrite read_quoted by exact H. reflexivity. Qed.
Lemma cut_in n s c : In c (cut n s) -> In c s.
Proof. unfold cut. generalize (Z.to_nat (n - 1)). intros k I. rewrite <- (firstn_skipn k s). apply in_or_app. now left. Qed.
Lemma base_in s c : In c (base s) -> In c s.
Proof. induction s as [|d s IH]; [auto|]. cbn [base]. destruct (existsb _ _); auto. intros I. right. auto. Qed.
Lemma c_file_free n out : (forall c, In c out -> c <> 39) -> forall c, In c (c_file n out) -> c <> 39.
Proof.
  intros H c I. apply cut_in in I. rewrite !in_app_iff in I. destruct I as [I|[I|I]]; [|apply H; now apply base_in|]; cbn in I; intuition (subst; lia).
Qed.
Lemma lib_free n r a : (forall c, In c r -> c <> 39) -> (forall d c, a = Some d -> In c d -> c <> 39) -> forall c, In c (lib_path n r a) -> c <> 39.
Proof.
  intros R A c I. destruct a as [d|]; apply cut_in, in_app_iff in I; destruct I as [I|I]; [now apply (A d)| |now apply R|]; cbn in I; intuition (subst; lia).
Qed.
(** C151.  If the command is run, the compiler gets exactly the intended words:
    whatever blanks, dollars, semicolons or stars are in the paths, each path is
    one word, unchanged.  If the archive is in the directory of the compiler,
    provided the path of that has no quote. *)
Theorem cc_partial : forall path_buf cmd_buf debug level runtime out archive cmd, 0 <= level <= 3 ->
  (forall d, archive = Some d -> ~ In 39 d) ->
  compile path_buf cmd_buf debug level runtime out archive = Some cmd ->
  split cmd = Some (wanted debug level runtime out (c_file path_buf out) (lib_path path_buf runtime archive)).
Proof.
  intros pb cb debug level r out a cmd L A C. unfold compile in C. destruct (has_quote r) eqn:R; [discriminate|]. destruct (has_quote out) eqn:O; [discriminate|]. destruct (_ <=? _) in C; [discriminate|]. injection C as <-.
  pose proof (quote_free r R) as R'. pose proof (quote_free out O) as O'. pose proof (c_file_free pb out O') as F. pose proof (lib_free pb r a R' ltac:(intros d c D I E; subst; now apply (A d))) as G.
  unfold split, command. set (cf := c_file pb out) in *. set (lib := lib_path pb r a) in *. clearbody cf lib.
  assert (P : fold_left read_char (bs "cc -std=c11 " ++ (if debug then bs "-g " else []) ++ bs "-O" ++ [48 + level] ++ bs " -Wall -Wno-unused-function -Wno-unused-variable -Wno-unused-but-set-variable -Wno-tautological-compare -Wno-infinite-recursion -isystem ") (Some (Shell [] None false)) =
    Some (Shell (rev (map bs ["cc"; "-std=c11"]%string ++ (if debug then [bs "-g"] else []) ++ [bs "-O" ++ [48 + level]] ++ map bs ["-Wall"; "-Wno-unused-function"; "-Wno-unused-variable"; "-Wno-unused-but-set-variable"; "-Wno-tautological-compare"; "-Wno-infinite-recursion"]%string ++ [bs "-isystem"])) None false)).
  { assert (K : level = 0 \/ level = 1 \/ level = 2 \/ level = 3) by lia. destruct debug, K as [->|[->|[->| ->]]]; vm_compute; reflexivity. }
  rewrite !app_assoc in *. rewrite !fold_left_app in *. rewrite P. clear P.
  set (ws0 := rev _). rewrite read_quote by exact R'.
  assert (S1 : forall ws w, fold_left read_char (bs "/runtime -isystem ") (Some (Shell ws (Some w) false)) = Some (Shell (bs "-isystem" :: (w ++ bs "/runtime") :: ws) None false)) by (intros; cbn; rewrite <- !app_assoc; reflexivity).
  assert (S2 : forall ws w, fold_left read_char (bs "/stdlib -o ") (Some (Shell ws (Some w) false)) = Some (Shell (bs "-o" :: (w ++ bs "/stdlib") :: ws) None false)) by (intros; cbn; rewrite <- !app_assoc; reflexivity).
  assert (S3 : forall ws w, fold_left read_char (bs " ") (Some (Shell ws (Some w) false)) = Some (Shell (w :: ws) None false)) by reflexivity.
  assert (S4 : forall ws w, fold_left read_char (bs " -lm -lpthread -Wl,-w") (Some (Shell ws (Some w) false)) = Some (Shell (bs "-lpthread" :: bs "-lm" :: w :: ws) (Some (bs "-Wl,-w")) false)) by reflexivity.
  rewrite S1, read_quote, S2, read_quote, S3, read_quote, S3, read_quote, S4 by assumption. cbn [rev]. unfold ws0. rewrite rev_involutive. unfold wanted. rewrite <- !app_assoc. reflexivity.
Qed.
(** Paths of up to 1000 bytes without a quote are never refused. *)
Theorem cc_runs : forall debug level runtime out archive, ~ In 39 runtime -> ~ In 39 out -> (length runtime <= 1000)%nat -> (length out <= 1000)%nat ->
  exists cmd, compile 2048 8192 debug level runtime out archive = Some cmd.
Proof.
  assert (N : forall s, ~ In 39 s -> has_quote s = false). { intros s H. destruct (has_quote s) eqn:E; [|reflexivity]. apply existsb_exists in E. destruct E as (x & I & E). apply Z.eqb_eq in E. subst. now destruct H. }
  intros debug level r out a R O LR LO. unfold compile. rewrite (N r R), (N out O).
  assert (B : Z.of_nat (length (command 2048 debug level r out a)) + 5 < 8191).
  { assert (K : forall s, Z.of_nat (length (cut 2048 s)) <= 2047) by (intros s; unfold cut; rewrite firstn_length; lia).
    assert (K1 : Z.of_nat (length (c_file 2048 out)) <= 2047) by apply K. assert (K2 : Z.of_nat (length (lib_path 2048 r a)) <= 2047) by (destruct a; apply K).
    unfold command, quote. generalize dependent (c_file 2048 out). generalize dependent (lib_path 2048 r a). intros lib K2 cf K1. rewrite !app_length. cbn [length]. 
    assert (LR' : Z.of_nat (length r) <= 1000) by lia. assert (LO' : Z.of_nat (length out) <= 1000) by lia. clear LR LO. destruct debug; cbn [length bs map String.list_ascii_of_string app]; repeat match goal with |- context [length (bs ?s)] => let n := eval vm_compute in (length (bs s)) in change (length (bs s)) with n end; cbn [length]; lia. }
  replace (8192 - 1 <=? _) with false by lia. eexists. reflexivity.
Qed.
Lemma base_last dir x : ~ In 47 x -> base (dir ++ 47 :: x) = x.
Proof.
  intros H. assert (E : existsb (Z.eqb 47) x = false). { destruct (existsb _ x) eqn:E; [|reflexivity]. apply existsb_exists in E. destruct E as (c & I & E). apply Z.eqb_eq in E. subst. now destruct H. }
  assert (B : base x = x) by (destruct x; [reflexivity|]; cbn [base]; now rewrite E).
  induction dir as [|d dir IH]; cbn [app base].
  - cbn [existsb Z.eqb Pos.eqb orb]. exact B.
  - replace (existsb (Z.eqb 47) (d :: dir ++ 47 :: x)) with true; [exact IH|]. symmetry. apply existsb_exists. exists 47. split; [right; apply in_or_app; right; now left|reflexivity].
Qed.
(** The C file is named after the last part of the output, so two builds into
    different directories at the same time write the same file. *)
Theorem cc_temp_shared : forall dir dir2 x, ~ In 47 x -> (length x <= 1000)%nat ->
  c_file 2048 (dir ++ [47] ++ x) = bs "/tmp/gray_" ++ x ++ bs ".c" /\ c_file 2048 (dir ++ [47] ++ x) = c_file 2048 (dir2 ++ [47] ++ x).
Proof.
  intros d d2 x H L. unfold c_file. cbn [app]. rewrite !base_last by exact H. split; [|reflexivity]. unfold cut. apply firstn_all2. rewrite !app_length. change (length (bs "/tmp/gray_")) with 10%nat. change (length (bs ".c")) with 2%nat. lia.
Qed.
(** The names of the C file and of the archive fit their buffers with the terminator. *)
Theorem cc_names_fit : forall path_buf runtime out archive, 1 <= path_buf ->
  Z.of_nat (length (c_file path_buf out)) < path_buf /\ Z.of_nat (length (lib_path path_buf runtime archive)) < path_buf.
Proof. intros pb r out a P. unfold c_file, lib_path, cut. destruct a; rewrite !firstn_length; lia. Qed.
(** A quote in the path of the compiler itself is not checked: what follows it is no longer one word. *)
Theorem cc_refuted : forall cmd, compile 2048 8192 false 2 (bs "/r") (bs "a") (Some (bs "/it's/x y")) = Some cmd -> split cmd = None.
Proof. intros cmd H. vm_compute in H. injection H as <-. vm_compute. reflexivity. Qed.
Theorem cc_words_refuted : exists cmd ws, compile 2048 8192 false 2 (bs "/r") (bs "a") (Some (bs "/it's/x -o y'z")) = Some cmd /\ split cmd = Some ws /\ In (bs "-o") (skipn 15 ws) /\
  ws <> wanted false 2 (bs "/r") (bs "a") (c_file 2048 (bs "a")) (lib_path 2048 (bs "/r") (Some (bs "/it's/x -o y'z"))).
Proof. eexists. eexists. split; [vm_compute; reflexivity|]. split; [vm_compute; reflexivity|]. split; [vm_compute; tauto|]. intros E. vm_compute in E. discriminate E. Qed.
(** A path with everything a shell looks at. *)
Example cc_case : compile 2048 8192 true 0 (bs "/opt/my $HOME; rm *") (bs "out dir/a&b") None <> None /\ compile 2048 8192 true 0 (bs "/r") (bs "it's") None = None /\
  c_file 2048 (bs "out dir/a&b") = bs "/tmp/gray_a&b.c".
Proof. repeat split; try (vm_compute; reflexivity). intros H. vm_compute in H. discriminate H. Qed.
Print Assumptions cc_partial.
Print Assumptions cc_refuted.
Print Assumptions cc_words_refuted.
Print Assumptions cc_runs.
Print Assumptions cc_temp_shared.
Print Assumptions cc_names_fit.
