(** C65: the files a program imports. *)
From Verif Require Import Base BaseFacts LexModel LexProofs ProbeModel ProbeProofs ImportModel ImportSpec ImportProofs ImportProofs2 ImportProofs3.

(** ** The import set.  After marking the paths [l], each with the module it was
    imported by, it knows exactly those paths, and the first module of each. *)
Theorem import_set_exact_partial l : (length (nodup bytes_dec (map fst l)) <= 256)%nat ->
  exists s, marks no_imports l = Ok s /\ forall p,
    (exists b, already_imported s p = Ok b /\ (b = true <-> In p (map fst l))) /\
    imported_by_module s p = Ok (match find (fun e => if bytes_dec (fst e) p then true else false) l with Some e => snd e | None => None end).
Proof.
  intros L. destruct (marks_spec l no_imports [] no_imports_holds) as (s & E & H). exists s. split; [exact E|]. intros p. destruct (remembered_exact l L) as [_ X]. split.
  - rewrite (already_spec s _ p H), X. eexists. split; [reflexivity|]. destruct (lookup l p) as [e|] eqn:Lk.
    + apply lookup_some in Lk as [Lk <-]. split; [intros _; now apply in_map|reflexivity].
    + apply lookup_none in Lk. split; [discriminate|contradiction].
  - rewrite (module_spec s _ p H), X. do 2 f_equal. unfold lookup. clear. induction l as [|e l IH]; [reflexivity|]. cbn [find]. destruct (bytes_dec (fst e) p) as [E|N].
    + destruct (eqs (fst e) p) eqn:Eq; [reflexivity|]. apply eqs_iff in E. congruence.
    + destruct (eqs (fst e) p) eqn:Eq; [apply eqs_iff in Eq; contradiction|exact IH].
Qed.
Print Assumptions import_set_exact_partial.
(** The 257th path is forgotten. *)
Definition numbered (i : nat) : bytes := [Z.of_nat (i / 100) + 48; Z.of_nat (i / 10 mod 10) + 48; Z.of_nat (i mod 10) + 48].
Theorem import_set_exact_refuted : exists l p s, marks no_imports l = Ok s /\ In p (map fst l) /\ already_imported s p = Ok false.
Proof.
  exists (map (fun i => (numbered i, None)) (seq 0 257)), (numbered 256).
  destruct (marks_spec (map (fun i => (numbered i, None)) (seq 0 257)) no_imports [] no_imports_holds) as (s & E & _). exists s. split; [exact E|]. split; [rewrite map_map; apply (in_map (fun i => numbered i)), in_seq; lia|].
  assert (X : rbind (marks no_imports (map (fun i => (numbered i, None)) (seq 0 257))) (fun s => already_imported s (numbered 256)) = Ok false) by (vm_compute; reflexivity).
  rewrite E in X. exact X.
Qed.
Print Assumptions import_set_exact_refuted.

(** ** The import loop, for every file system, cyclic imports included. *)

(** It ends, and the only way it can go wrong is an import path with 256 or more
    bytes between slashes, which overruns the buffer for a module name. *)
Theorem imports_end w input_file stmts : (exists s, imports w input_file stmts = Ok s) \/
  (imports w input_file stmts = UB /\ exists p, named w stmts p /\ ~ short p).
Proof.
  destruct (imports_does w input_file stmts) as (s0 & _ & _ & [[E B]|(s & E & _)]); [now right|left; now exists s].
Qed.
Print Assumptions imports_end.
Theorem long_import_refuted : exists w input_file stmts, imports w input_file stmts = UB.
Proof.
  exists (World (fun _ => None) (fun _ => false) (fun _ => false) (fun _ => None) (fun _ => Unreadable)), (bs "main.gray"),
    [[Item false None (Some (List.repeat 97 300 ++ bs ".gray")) None]].
  vm_compute. reflexivity.
Qed.
Print Assumptions long_import_refuted.

(** No file is read twice, as long as no more than 255 are. *)
Theorem no_file_twice_partial w input_file stmts s : imports w input_file stmts = Ok s -> (length (log s) < 256)%nat ->
  NoDup (files_read w input_file s).
Proof.
  intros E L. destruct (imports_does w input_file stmts) as (s0 & _ & _ & [[E' _]|(s' & E' & I' & _)]); [congruence|]. rewrite E in E'. injection E' as <-.
  destruct (i_set _ _ _ s I') as (m & H & _ & X). unfold files_read. rewrite <- X by exact L. apply (h_distinct _ m H).
Qed.
Print Assumptions no_file_twice_partial.
Lemma ok_inj {A} (a b : A) : Ok a = Ok b -> a = b. Proof. now injection 1. Qed.
(** Later files are not remembered and read again. *)
Definition big_dir : list bytes := map (fun i => numbered i ++ GRAY_EXT) (seq 0 255).
Definition big_world : world :=
  World Some (fun _ => false) (fun p => eqs p (bs "./d")) (fun p => if eqs p (bs "./d") then Some big_dir else None) (fun _ => Program []).
Definition user_import (a : bytes) (p : bytes) : item := Item false (Some a) (Some p) None.
Theorem no_file_twice_refuted : exists w input_file stmts s, imports w input_file stmts = Ok s /\ ~ NoDup (files_read w input_file s).
Proof.
  set (l := [[user_import (bs "d") (bs "d")]; [user_import (bs "a") (bs "x.gray")]; [user_import (bs "b") (bs "x.gray")]]).
  destruct (imports big_world (bs "m.gray") l) as [s| | |] eqn:E.
  2-4: exfalso; assert (X : match imports big_world (bs "m.gray") l with Ok _ => true | _ => false end = true) by (vm_compute; reflexivity); rewrite E in X; discriminate X.
  exists big_world, (bs "m.gray"), l, s. split; [exact E|].
  assert (X : rmap (fun s => skipn 255 (map canon (log s))) (imports big_world (bs "m.gray") l) = Ok [bs "./x.gray"; bs "./x.gray"]) by (vm_compute; reflexivity).
  rewrite E in X. cbn [rmap] in X. apply ok_inj in X. unfold files_read. intros N. apply NoDup_cons_iff in N as [_ N].
  rewrite <- (firstn_skipn 255 (map canon (log s))) in N. rewrite X in N. apply NoDup_remove_2 in N. apply N. apply in_or_app. right. now left.
Qed.
Print Assumptions no_file_twice_refuted.

(** Unless an error is reported, every import of the main file and of the files
    read has its files read, as long as there are fewer than 256 import
    statements.  (Imports of files of the directory being imported are left to
    the import of the directory.) *)
Theorem all_imports_read_partial w input_file stmts s : imports w input_file stmts = Ok s -> has_errors s = false -> (length (queue s) < 256)%nat ->
  (forall ts it p, In ts stmts -> In it ts -> user it p -> satisfied w input_file s it p) /\
  (forall t l ts it p, In t (log s) -> load w (file t) = Program l -> In ts l -> In it ts -> user it p ->
     sibling w (origin t) (dir_of (file t)) p = false -> satisfied w input_file s (relative_to t it) p).
Proof.
  intros E He Hq. destruct (imports_does w input_file stmts) as (s0 & Q0 & _ & [[E' _]|(s' & E' & I' & A' & _ & G)]); [congruence|]. rewrite E in E'. injection E' as <-.
  assert (C : clean s) by now split. specialize (G C). split.
  - intros ts it p H1 H2 U. apply (G ts it); [|exact H2|exact U]. destruct (a_queue _ _ A') as [q Eq]. rewrite Eq, Q0 in *. apply in_or_app. left.
    rewrite app_length, firstn_length in Hq. rewrite firstn_all2 by lia. exact H1.
  - intros t l ts it p Ht Hl H1 H2 U Sb. pose proof (i_inject _ _ _ s I' C t Ht l ts Hl H1) as J.
    assert (X : inject_item w (origin t) (dir_of (file t)) it = (relative_to t it, true)).
    { destruct U as [U1 U2]. unfold inject_item, relative_to. rewrite U1, U2, Sb. reflexivity. }
    apply (G (map fst (map (inject_item w (origin t) (dir_of (file t))) ts))).
    + apply J. apply existsb_exists. exists (relative_to t it, true). split; [|reflexivity]. rewrite <- X. now apply in_map.
    + rewrite map_map. apply in_map_iff. exists it. split; [now rewrite X|exact H2].
    + destruct U as [U1 U2]. split; [exact U1|exact U2].
Qed.
Print Assumptions all_imports_read_partial.
(** The 257th import statement is dropped without a diagnostic. *)
Theorem all_imports_read_refuted : exists w input_file stmts s, imports w input_file stmts = Ok s /\ diags s = [] /\
  exists ts it p ip f, In ts stmts /\ In it ts /\ user it p /\ target w (dir_of input_file) it p = inr (ip, [f]) /\ ~ In (canonical w f) (files_read w input_file s).
Proof.
  set (w := World Some (fun _ => false) (fun _ => false) (fun _ => None) (fun _ => Program [])).
  set (l := map (fun i => [user_import (numbered i) (numbered i ++ GRAY_EXT)]) (seq 0 257)).
  destruct (imports w (bs "m.gray") l) as [s| | |] eqn:E.
  2-4: exfalso; assert (X : match imports w (bs "m.gray") l with Ok _ => true | _ => false end = true) by (vm_compute; reflexivity); rewrite E in X; discriminate X.
  exists w, (bs "m.gray"), l, s. split; [exact E|].
  assert (X : rmap (fun s => (diags s, existsb (eqs (bs "./256.gray")) (files_read w (bs "m.gray") s))) (imports w (bs "m.gray") l) = Ok ([], false)) by (vm_compute; reflexivity).
  rewrite E in X. cbn [rmap] in X. apply ok_inj in X. pose proof (f_equal fst X) as X1. pose proof (f_equal snd X) as X2. cbn [fst snd] in X1, X2. split; [exact X1|].
  exists [user_import (numbered 256) (numbered 256 ++ GRAY_EXT)], (user_import (numbered 256) (numbered 256 ++ GRAY_EXT)), (numbered 256 ++ GRAY_EXT), (bs "./256.gray"), (bs "./256.gray").
  split; [apply (in_map (fun i => [user_import (numbered i) (numbered i ++ GRAY_EXT)])), in_seq; lia|]. split; [now left|]. split; [split; reflexivity|]. split; [vm_compute; reflexivity|].
  intros H. assert (Y : existsb (eqs (bs "./256.gray")) (files_read w (bs "m.gray") s) = true) by (apply existsb_exists; exists (bs "./256.gray"); split; [exact H|now apply eqs_iff]). congruence.
Qed.
Print Assumptions all_imports_read_refuted.

(** Examples: a cycle through the main file and a diamond. *)
Definition cyclic : world :=
  World Some (fun p => eqs p (bs "./b.gray")) (fun _ => false) (fun _ => None)
    (fun f => if eqs f (bs "./a.gray") then Program [[Item false None (Some (bs "./b")) None]; [Item false None (Some (bs "m.gray")) None]]
              else if eqs f (bs "./b.gray") then Program [[Item false None (Some (bs "a.gray")) None; Item true None None None]]
              else Unreadable).
Definition cyclic_main : list (list item) := [[Item false None (Some (bs "./a.gray")) None; Item false (Some (bs "other")) (Some (bs "b")) None]].
Example cyclic_run : rmap (fun s => (map canon (log s), diags s)) (imports cyclic (bs "./m.gray") cyclic_main) =
  Ok ([bs "./a.gray"; bs "./b.gray"], [bs "W2014"; bs "W2014"]).
Proof. vm_compute. reflexivity. Qed.
Example cyclic_clean : match imports cyclic (bs "./m.gray") cyclic_main with Ok s => negb (has_errors s) && (length (queue s) <? 256)%nat && (length (log s) <? 256)%nat | _ => false end = true.
Proof. vm_compute. reflexivity. Qed.
Example set_case : (length (nodup bytes_dec (map fst [(bs "a", Some (bs "m")); (bs "b", None); (bs "a", None)])) <= 256)%nat.
Proof. vm_compute. lia. Qed.

(** What an import stands for, with paths that fit the buffers and at most 256 files in a directory.  Names in a listing
    are distinct *)
Theorem import_target_partial w it dir p : let q := where_from dir it ++ strip_dot p in (length q < 2042)%nat ->
  (forall names, readdir w q = Some names -> NoDup names /\ Forall (fun n => (length q + length n < 2047)%nat) names /\
     forall l, incl l names -> NoDup l -> Forall visible_gray l -> (length l <= 256)%nat) ->
  exists r, stands_for w it q r /\ match target w dir it p with inl e => r = inl e | inr (_, files) => r = inr files end.
Proof.
  intros q L D. exists (outcome (target w dir it p)). split; [exact (target_stands w it dir p L D)|]. now destruct (target w dir it p) as [e|[ip files]].
Qed.
Print Assumptions import_target_partial.
Definition full_dir : world := World Some (fun _ => false) (fun _ => true) (fun _ => Some (map (fun i => numbered i ++ bs ".gray") (seq 0 257))) (fun _ => Program []).
(** The rest of a larger directory is ignored *)
Theorem import_target_refuted : exists w it dir p names n files ip, readdir w (where_from dir it ++ strip_dot p) = Some names /\ In n names /\ visible_gray n /\
  target w dir it p = inr (ip, files) /\ ~ In (where_from dir it ++ strip_dot p ++ bs "/" ++ n) files.
Proof.
  assert (X : match target full_dir (bs "./") (user_import (bs "d") (bs "d")) (bs "d") with inr (ip, files) => existsb (eqs (bs "./d/256.gray")) files | inl _ => true end = false) by (vm_compute; reflexivity).
  destruct (target full_dir (bs "./") (user_import (bs "d") (bs "d")) (bs "d")) as [e|[ip files]] eqn:E; [discriminate|].
  exists full_dir, (user_import (bs "d") (bs "d")), (bs "./"), (bs "d"), (map (fun i => numbered i ++ bs ".gray") (seq 0 257)), (numbered 256 ++ bs ".gray"), files, ip.
  split; [reflexivity|]. split; [apply (in_map (fun i => numbered i ++ bs ".gray")), in_seq; lia|]. split; [split; [vm_compute; discriminate|exists (numbered 256); split; [reflexivity|vm_compute; discriminate]]|].
  split; [exact E|]. intros I.
  assert (Y : existsb (eqs (bs "./d/256.gray")) files = true) by (apply existsb_exists; exists (bs "./d/256.gray"); split; [exact I|now apply eqs_iff]). congruence.
Qed.
Print Assumptions import_target_refuted.
Example target_case : let w := World Some (fun _ => false) (fun _ => true) (fun _ => Some [bs ".."; bs "b.gray"; bs "a.gray"; bs ".c.gray"; bs "x.txt"; bs ".gray"]) (fun _ => Program []) in
  target w (bs "./") (user_import (bs "d") (bs "d")) (bs "./d") = inr (bs "./d", [bs "./d/a.gray"; bs "./d/b.gray"]).
Proof. vm_compute. reflexivity. Qed.
