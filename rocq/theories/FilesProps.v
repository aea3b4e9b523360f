(** C124-C130: files and directories of the io module. *)
From Verif Require Import Base FilesSpec FilesModel FilesProofs FilesProofs2 FilesProofs3 FilesProofs4 FilesProofs5 FilesProofs6 FilesProofs7 FilesProofs8.

(** The state a program starts in *)
Definition begin (t : fs) : st := St t [] 0.
Definition sane (t : fs) (cwd : loc) : Prop := wf t /\ get t cwd = Some EDir.
(** [u] is [t] but for the file at l, which holds d *)
Definition only_file (l : loc) (d : bytes) (t u : fs) : Prop := get u l = Some (EFile d) /\ forall k, k <> l -> get u k = get t k.
(** [u] is [t] without what is at l and below *)
Definition cut_off (l : loc) (t u : fs) : Prop := forall k, get u k = if within l k then None else get t k.

(** ** C124: a file holds what was written *)
(** Any sequence of writes, appends, reads, deletes and existence tests gives the replies of
    a map from locations to contents, and leaves the tree that map says *)
Theorem files_history_partial : forall os t cwd fault short early, no_faults fault -> no_shorts short -> sane t cwd ->
  Forall (fun o => ~ In 0 (path_of o)) os -> (forall p, In (Delete p) os -> leads t cwd false p = leads t cwd true p) ->
  let '(s, replies) := performs fault short early cwd (begin t) os in
  replies = fst (ideals (leads t cwd true) (get t) os) /\ forall k, get (tree s) k = snd (ideals (leads t cwd true) (get t) os) k.
Proof.
  intros os t cwd fault short early NF NS [W G] Z D. assert (H := performs_ideal fault short early cwd t os (begin t) (get t) NF NS G Z D).
  destruct (performs fault short early cwd (begin t) os) as [s r]. cbn [fst snd] in H. destruct H as [E (_ & _ & H)]; [split; [exact W|split; [apply alike_refl|reflexivity]]|]. split; [exact E|exact H].
Qed.
(** A write, whatever fails, changes one file only, which holds at every moment some first
    part of the new content; true means all of it, if the close wrote what was left *)
Theorem write_file_partial : forall s path d s' r cwd fault short early, sane (tree s) cwd -> write_file fault short early cwd s path d = (s', r) ->
  (tree s' = tree s /\ past s' = past s /\ r <> Ok true) \/
  exists l k, leads (tree s) cwd true (cstr path) = Some l /\ get (tree s) l <> Some EDir /\ only_file l (firstn k d) (tree s) (tree s') /\
    (forall m, In m (moments s') -> In m (moments s) \/ exists j, only_file l (firstn j d) (tree s) m) /\
    (r = Ok true \/ r = Ok false) /\ (r = Ok true -> short Closing (pred (calls s')) = None -> firstn k d = d).
Proof.
  intros s path d s' r cwd fault short early [W G] E. destruct (put_file_spec fault short early cwd true s path d s' r W G E) as [H|(l & k & L & Fy & (A & B & _) & St & R & T & _)]; [now left|right].
  exists l, k. split; [exact L|]. split; [intros X; now rewrite X in Fy|]. split; [split; [exact A|exact B]|]. split; [|now split].
  intros m I. destruct (St m I) as [X|(j & A' & B' & _)]; [now left|right]. exists j. split; [exact A'|exact B'].
Qed.
Theorem append_file_partial : forall s path d s' r cwd fault short early, sane (tree s) cwd -> append_file fault short early cwd s path d = (s', r) ->
  (tree s' = tree s /\ past s' = past s /\ r <> Ok true) \/
  exists l k d0, leads (tree s) cwd true (cstr path) = Some l /\ (get (tree s) l = Some (EFile d0) \/ get (tree s) l = None /\ d0 = []) /\
    only_file l (d0 ++ firstn k d) (tree s) (tree s') /\
    (forall m, In m (moments s') -> In m (moments s) \/ exists j, only_file l (d0 ++ firstn j d) (tree s) m) /\
    (r = Ok true \/ r = Ok false) /\ (r = Ok true -> short Closing (pred (calls s')) = None -> firstn k d = d).
Proof.
  intros s path d s' r cwd fault short early [W G] E. destruct (put_file_spec fault short early cwd false s path d s' r W G E) as [H|(l & k & L & Fy & (A & B & _) & St & R & T & _)]; [now left|right].
  exists l, k, (data_at (tree s) l). split; [exact L|]. split; [unfold data_at; destruct (get (tree s) l) as [[x| |x]|]; [now left|destruct Fy|destruct Fy|right; now split]|]. split; [split; [exact A|exact B]|]. split; [|now split].
  intros m I. destruct (St m I) as [X|(j & A' & B' & _)]; [now left|right]. exists j. split; [exact A'|exact B'].
Qed.
(** When nothing fails a write to what is no directory says true *)
Theorem write_file_says_true : forall s path d cwd fault short early l, no_faults fault -> no_shorts short -> sane (tree s) cwd ->
  leads (tree s) cwd true (cstr path) = Some l -> get (tree s) l <> Some EDir ->
  exists s', write_file fault short early cwd s path d = (s', Ok true) /\ only_file l d (tree s) (tree s').
Proof.
  intros s path d cwd fault short early l NF NS [W G] L ND. assert (Fy : filey (get (tree s) l)).
  { destruct (get (tree s) l) as [[x| |x]|] eqn:E; try exact I; [congruence|]. exfalso. now apply (leads_no_link cwd (tree s) (cstr path) l x W G (cstr_no_zero path) L). }
  destruct (put_file_ok fault short early cwd true s path d l NF NS W G L Fy) as (s' & E & (A & B & _) & _). exists s'. split; [exact E|]. split; [exact A|exact B].
Qed.

(** A small file system: /w with a file, a link and a directory in it, and /tmp *)
Definition demo : fs :=
  [([bs "w"], EDir); ([bs "w"; bs "a.txt"], EFile (bs "one")); ([bs "w"; bs "sub"], EDir); ([bs "w"; bs "sub"; bs "b.txt"], EFile (bs "two"));
   ([bs "w"; bs "sub"; bs "deep"], EDir); ([bs "out"], EDir); ([bs "out"; bs "keep.txt"], EFile (bs "precious")); ([bs "w"; bs "link"], ELink (bs "a.txt")); ([bs "tmp"], EDir)].
Definition fine (n : nat) : option Z := None.
Definition whole (x : transfer) (n : nat) : option Z := None.
Definition lazy (n : nat) : nat := O.
Lemma fine_none : no_faults fine. Proof. intros n. reflexivity. Qed.
Lemma whole_none : no_shorts whole. Proof. intros x n. reflexivity. Qed.
(** A decision procedure for wf *)
Definition name_okb (n : bytes) : bool := negb (same n []) && negb (existsb (Z.eqb 47) n) && negb (existsb (Z.eqb 0) n) && negb (same n (bs ".")) && negb (same n (bs "..")).
Fixpoint nodupb (ls : list loc) : bool := match ls with [] => true | l :: ls => negb (existsb (same_loc l) ls) && nodupb ls end.
Definition wfb (t : fs) : bool :=
  nodupb (map fst t) && forallb (fun x => match fst x with [] => false | _ => name_okb (last (fst x) []) && is_dir (get t (removelast (fst x))) && match snd x with ELink d => negb (existsb (Z.eqb 0) d) | _ => true end end) t.
Lemma existsb_not (c : Z) (n : list Z) : existsb (Z.eqb c) n = false -> ~ In c n.
Proof. intros H I. assert (X : existsb (Z.eqb c) n = true) by (apply existsb_exists; exists c; split; [exact I|apply Z.eqb_refl]). congruence. Qed.
Lemma name_okb_ok n : name_okb n = true -> name_ok n.
Proof.
  unfold name_okb. rewrite !andb_true_iff, !negb_true_iff. intros ((((A & B) & C) & D) & E). repeat split; try (now apply existsb_not); intros ->; rewrite same_refl in *; discriminate.
Qed.
Lemma is_dir_some e : is_dir e = true -> e = Some EDir.
Proof. destruct e as [[| |]|]; (discriminate || reflexivity). Qed.
Lemma wfb_ok t : wfb t = true -> wf t.
Proof.
  unfold wfb. rewrite andb_true_iff, forallb_forall. intros [N F]. split; [|split].
  - revert N. generalize (map fst t). induction l as [|l ls IH]; cbn; [constructor|]. rewrite andb_true_iff, negb_true_iff. intros [A B]. constructor; [|now apply IH]. intros I. assert (X : existsb (same_loc l) ls = true) by (apply existsb_exists; exists l; split; [exact I|apply same_loc_refl]). congruence.
  - intros l e I. specialize (F _ I). cbn [fst snd] in F. destruct l as [|n l]; [discriminate F|]. rewrite !andb_true_iff in F. destruct F as [[A B] _]. split; [discriminate|]. split; [now apply name_okb_ok|]. exact (is_dir_some _ B).
  - intros l d I. specialize (F _ I). cbn [fst snd] in F. destruct l as [|n l]; [discriminate F|]. rewrite !andb_true_iff in F. destruct F as [_ C]. apply negb_true_iff in C. now apply existsb_not.
Qed.
Lemma demo_sane : sane demo [bs "w"].
Proof. split; [apply wfb_ok; vm_compute; reflexivity|vm_compute; reflexivity]. Qed.
Example history_case :
  let os := [Write (bs "x") (bs "hello"); Append (bs "x") (bs " world"); Read (bs "x"); Append (bs "link") (bs "!"); Read (bs "a.txt"); Delete (bs "x"); Exists (bs "x"); Write (bs "sub") (bs "no")] in
  Forall (fun o => ~ In 0 (path_of o)) os /\ (forall p, In (Delete p) os -> leads demo [bs "w"] false p = leads demo [bs "w"] true p) /\
  snd (performs fine whole lazy [bs "w"] (begin demo) os) = [RBool true; RBool true; RText (bs "hello world"); RBool true; RText (bs "one!"); RBool true; RBool false; RPanic 87].
Proof.
  split; [repeat constructor; intros H; vm_compute in H; intuition discriminate|]. split; [|vm_compute; reflexivity].
  intros p I. cbn [In] in I. repeat (destruct I as [I|I]; [try discriminate I; injection I as <-; vm_compute; reflexivity|]). destruct I.
Qed.
(** true does not mean that the content is in the file: what the close could not write is lost *)
Theorem write_file_true_refuted : ~ forall s path d s' cwd fault short early l, sane (tree s) cwd -> leads (tree s) cwd true (cstr path) = Some l ->
  write_file fault short early cwd s path d = (s', Ok true) -> get (tree s') l = Some (EFile d).
Proof.
  intros H. set (sh := fun (x : transfer) (_ : nat) => match x with Closing => Some 0 | _ => None end).
  specialize (H (begin demo) (bs "a.txt") (bs "new") (fst (write_file fine sh lazy [bs "w"] (begin demo) (bs "a.txt") (bs "new"))) [bs "w"] fine sh lazy [bs "w"; bs "a.txt"] demo_sane ltac:(vm_compute; reflexivity) ltac:(vm_compute; reflexivity)).
  vm_compute in H. discriminate H.
Qed.
(** the variant with an error value reports no error when the disk is full *)
Theorem write_file_result_refuted : ~ forall s path d s' cwd fault short early l, sane (tree s) cwd -> leads (tree s) cwd true (cstr path) = Some l -> short Closing (pred (calls s')) = None ->
  write_file_result fault short early cwd s path d = (s', true) -> get (tree s') l = Some (EFile d).
Proof.
  intros H. set (sh := fun (x : transfer) (_ : nat) => match x with Writing => Some 1 | _ => None end).
  specialize (H (begin demo) (bs "a.txt") (bs "new") (fst (write_file_result fine sh lazy [bs "w"] (begin demo) (bs "a.txt") (bs "new"))) [bs "w"] fine sh lazy [bs "w"; bs "a.txt"] demo_sane ltac:(vm_compute; reflexivity) ltac:(vm_compute; reflexivity) ltac:(vm_compute; reflexivity)).
  vm_compute in H. discriminate H.
Qed.
(** a write that fails does not leave the old content *)
Theorem write_file_false_refuted : ~ forall s path d s' cwd fault short early, sane (tree s) cwd ->
  write_file fault short early cwd s path d = (s', Ok false) -> forall k, get (tree s') k = get (tree s) k.
Proof.
  intros H. set (sh := fun (x : transfer) (_ : nat) => match x with Writing => Some 1 | _ => None end).
  specialize (H (begin demo) (bs "a.txt") (bs "new") (fst (write_file fine sh lazy [bs "w"] (begin demo) (bs "a.txt") (bs "new"))) [bs "w"] fine sh lazy demo_sane ltac:(vm_compute; reflexivity) [bs "w"; bs "a.txt"]).
  vm_compute in H. discriminate H.
Qed.

(** ** C125: copy and move *)
(** A copy to another place: true means that the destination holds the bytes of the source
    and that nothing else changed *)
Theorem copy_file_partial : forall s src dst a D cwd fault short early, (forall n, short Reading n = None) -> (forall n, short Closing n = None) -> sane (tree s) cwd ->
  leads (tree s) cwd true (cstr src) = Some a -> get (tree s) a = Some (EFile D) -> leads (tree s) cwd true (cstr dst) <> Some a ->
  exists s' ok, copy_file fault short early cwd s src dst = (s', Ok ok) /\
    (ok = true -> exists b, leads (tree s) cwd true (cstr dst) = Some b /\ only_file b D (tree s) (tree s')) /\
    (forall m, In m (moments s') -> In m (moments s) \/ exists b x, leads (tree s) cwd true (cstr dst) = Some b /\ only_file b x (tree s) m) /\
    (no_faults fault -> no_shorts short -> forall b, leads (tree s) cwd true (cstr dst) = Some b -> get (tree s) b <> Some EDir -> ok = true).
Proof.
  intros s src dst a D cwd fault short early NR NC [W G] L Ga N. destruct (copy_file_spec fault short early cwd s src dst a D NR NC W G L Ga N) as (s' & ok & E & C & T). exists s', ok. split; [exact E|]. split; [|split].
  - intros ->. destruct C as [[X _]|(b & x & Lb & _ & (A & B & _) & _ & X)]; [discriminate|]. exists b. split; [exact Lb|]. rewrite (X eq_refl) in A. split; [exact A|exact B].
  - intros m I. destruct C as [(_ & X & Y)|(b & x & Lb & _ & _ & St & _)]; [left; unfold moments in *; now rewrite X, Y in I|]. destruct (St m I) as [X|(y & A & B & _)]; [now left|right; exists b, y; split; [exact Lb|split; [exact A|exact B]]].
  - intros NF NS b Lb ND. apply (T NF NS b Lb). destruct (get (tree s) b) as [[x| |x]|] eqn:Eb; try exact I; [congruence|]. now apply (leads_no_link cwd (tree s) (cstr dst) b x W G (cstr_no_zero dst) Lb).
Qed.
(** A move, whatever call fails, has the bytes of the file at every moment either in the
    source or where the destination leads, and touches nothing else; true means that
    they are at the destination, false that they are still in the source *)
Theorem move_file_partial : forall s src dst a D cwd fault short early, (forall n, short Reading n = None) -> (forall n, short Closing n = None) -> sane (tree s) cwd ->
  leads (tree s) cwd true (cstr src) = Some a -> leads (tree s) cwd false (cstr src) = Some a -> get (tree s) a = Some (EFile D) -> leads (tree s) cwd true (cstr dst) <> Some a ->
  exists s' ok, move_file fault short early cwd s src dst = (s', Ok ok) /\
    (forall m, In m (moments s') -> In m (moments s) \/
       ((get m a = Some (EFile D) \/ exists b f, leads (tree s) cwd f (cstr dst) = Some b /\ get m b = Some (EFile D)) /\
        forall k, k <> a -> (forall f, leads (tree s) cwd f (cstr dst) <> Some k) -> get m k = get (tree s) k)) /\
    (if ok then exists b f, leads (tree s) cwd f (cstr dst) = Some b /\ get (tree s') b = Some (EFile D) else get (tree s') a = Some (EFile D)).
Proof.
  intros s src dst a D cwd fault short early NR NC [W G] L L' Ga N. destruct (move_file_spec fault short early cwd s src dst a D NR NC W G L L' Ga N) as (s' & ok & E & St & R). exists s', ok. split; [exact E|]. split; [|exact R].
  intros m I. destruct (St m I) as [X|[A B]]; [now left|right]. split; [exact A|]. intros k K F. apply B. intros [X|(f & X)]; [now apply K|now apply (F f)].
Qed.
Example copy_move_case :
  leads demo [bs "w"] true (bs "a.txt") = Some [bs "w"; bs "a.txt"] /\ leads demo [bs "w"] false (bs "a.txt") = Some [bs "w"; bs "a.txt"] /\ leads demo [bs "w"] true (bs "sub/c") <> Some [bs "w"; bs "a.txt"] /\
  (let '(s, r) := copy_file fine whole lazy [bs "w"] (begin demo) (bs "a.txt") (bs "sub/c") in r = Ok true /\ get (tree s) [bs "w"; bs "sub"; bs "c"] = Some (EFile (bs "one")) /\ get (tree s) [bs "w"; bs "a.txt"] = Some (EFile (bs "one"))) /\
  (let '(s, r) := move_file (fun n => match n with O => Some 18 | _ => None end) whole lazy [bs "w"] (begin demo) (bs "a.txt") (bs "sub/c") in r = Ok true /\ get (tree s) [bs "w"; bs "sub"; bs "c"] = Some (EFile (bs "one")) /\ get (tree s) [bs "w"; bs "a.txt"] = None).
Proof. split; [vm_compute; reflexivity|]. split; [vm_compute; reflexivity|]. split; [vm_compute; discriminate|]. split; vm_compute; repeat split. Qed.
(** Copying a file onto itself empties it, and says true *)
Theorem copy_onto_itself : forall s src dst a D cwd fault short early, no_faults fault -> no_shorts short -> sane (tree s) cwd ->
  leads (tree s) cwd true (cstr src) = Some a -> leads (tree s) cwd true (cstr dst) = Some a -> get (tree s) a = Some (EFile D) ->
  exists s', copy_file fault short early cwd s src dst = (s', Ok true) /\ get (tree s') a = Some (EFile []).
Proof. intros s src dst a D cwd fault short early NF NS [W G]. now apply copy_itself. Qed.
Theorem copy_file_refuted : ~ forall s src dst a b D cwd fault short early s', no_faults fault -> no_shorts short -> sane (tree s) cwd ->
  leads (tree s) cwd true (cstr src) = Some a -> get (tree s) a = Some (EFile D) -> leads (tree s) cwd true (cstr dst) = Some b ->
  copy_file fault short early cwd s src dst = (s', Ok true) -> get (tree s') b = Some (EFile D).
Proof.
  intros H. specialize (H (begin demo) (bs "link") (bs "./a.txt") [bs "w"; bs "a.txt"] [bs "w"; bs "a.txt"] (bs "one") [bs "w"] fine whole lazy
    (fst (copy_file fine whole lazy [bs "w"] (begin demo) (bs "link") (bs "./a.txt"))) fine_none whole_none demo_sane ltac:(vm_compute; reflexivity) ltac:(vm_compute; reflexivity) ltac:(vm_compute; reflexivity) ltac:(vm_compute; reflexivity)).
  vm_compute in H. discriminate H.
Qed.
(** Moving a file to another file system whose disk is full: the source is deleted, and its
    bytes are nowhere *)
Theorem move_file_refuted : ~ forall s src dst a D cwd fault short early s' ok, sane (tree s) cwd ->
  leads (tree s) cwd true (cstr src) = Some a -> leads (tree s) cwd false (cstr src) = Some a -> get (tree s) a = Some (EFile D) -> leads (tree s) cwd true (cstr dst) <> Some a ->
  move_file fault short early cwd s src dst = (s', Ok ok) -> exists k, get (tree s') k = Some (EFile D).
Proof.
  intros H. set (sh := fun (x : transfer) (_ : nat) => match x with Closing => Some 0 | _ => None end). set (fa := fun n : nat => match n with O => Some 18 | _ => None end).
  destruct (H (begin demo) (bs "a.txt") (bs "/out/x") [bs "w"; bs "a.txt"] (bs "one") [bs "w"] fa sh lazy (fst (move_file fa sh lazy [bs "w"] (begin demo) (bs "a.txt") (bs "/out/x"))) true demo_sane ltac:(vm_compute; reflexivity) ltac:(vm_compute; reflexivity) ltac:(vm_compute; reflexivity) ltac:(vm_compute; discriminate) ltac:(vm_compute; reflexivity)) as (k & E).
  clear H. set (t := tree _) in E. assert (X : forallb (fun x => match snd x with EFile d => negb (same d (bs "one")) | _ => true end) t = true) by (vm_compute; reflexivity).
  rewrite forallb_forall in X. destruct k as [|n k]; [discriminate E|]. rewrite get_find in E by discriminate. apply find_in in E. specialize (X _ E). cbn [snd] in X. rewrite same_refl in X. discriminate X.
Qed.

(** ** C126: remove_dir_all *)
(** The path names the directory l, no links are below it, and no path below it is as long
    as the buffer *)
Definition plain_tree (t : fs) (cwd : loc) (p : bytes) (l : loc) : Prop :=
  sane t cwd /\ spells cwd p l /\ get t l = Some EDir /\ (forall k x, inside l k = true -> get t k <> Some (ELink x)) /\
  forall r e, r <> [] -> get t (l ++ r) = Some e -> Z.of_nat (length p + 1 + length (slashed r)) < PATH_MAX.
Lemma spells_root cwd p l t : get t cwd = Some EDir -> spells cwd p l -> l <> [].
Proof. intros _ (E & _ & _ & N & _) ->. symmetry in E. apply app_eq_nil in E as [_ E]. now apply N. Qed.
Lemma plain_ready t cwd p l : plain_tree t cwd p l -> ready cwd t p l.
Proof.
  intros ([W G] & S & D & P & F). split; [exact W|]. split; [exact S|]. split; [exact D|]. split; [exact P|]. intros r e I R. apply (F r e R). apply wf_get; [exact W| |exact I]. destruct l; [exact R|discriminate].
Qed.
Lemma plain_deep t cwd p l fuel : plain_tree t cwd p l -> (forall r e, get t (l ++ r) = Some e -> (length r < fuel)%nat) -> deep t l fuel.
Proof. intros P H r e I. apply (H r e). apply wf_get; [apply P| |exact I]. destruct P as ([_ G] & S & _). assert (L := spells_root cwd p l t G S). destruct l; [congruence|discriminate]. Qed.
Lemma cstr_spells cwd p l : spells cwd p l -> cstr p = p.
Proof. intros (_ & _ & _ & _ & Z0 & _). now apply cstr_id. Qed.
(** Every call works: the directory and all below it are gone, the rest is as before *)
Theorem remove_dir_all_partial : forall s p l cwd fault fuel, no_faults fault -> plain_tree (tree s) cwd p l -> (forall r e, get (tree s) (l ++ r) = Some e -> (length r < fuel)%nat) ->
  exists s', remove_dir_all fault cwd fuel s p = (s', Ok true) /\ cut_off l (tree s) (tree s').
Proof.
  intros s p l cwd fault fuel NF P D. assert (Rd := plain_ready _ _ _ _ P). assert (Dp := plain_deep _ _ _ _ _ P D). destruct P as ([W G] & S & _). assert (L := spells_root cwd p l _ G S).
  destruct (remove_exact fault cwd fuel NF l s p L Rd Dp) as (s' & E & Gn). exists s'. unfold remove_dir_all. rewrite (cstr_spells cwd p l S). split; [exact E|].
  assert (T := remove_tree fault cwd fuel s p l s' Rd E Gn). intros k. rewrite T. destruct k as [|n k]; [destruct l; [congruence|reflexivity]|]. cbn [get]. rewrite find_filter by apply W. cbn [fst]. destruct (find_entry (tree s) (n :: k)); destruct (within l (n :: k)); reflexivity.
Qed.
(** Whatever fails: at every moment all that is outside is as before, and what is inside is
    as before or gone *)
Theorem remove_dir_all_safe_partial : forall s p l cwd fault fuel s' r, plain_tree (tree s) cwd p l -> remove_dir_all fault cwd fuel s p = (s', r) ->
  forall m, In m (moments s') -> In m (moments s) \/ forall k, get m k = get (tree s) k \/ (within l k = true /\ get m k = None).
Proof.
  intros s p l cwd fault fuel s' r P E. assert (Rd := plain_ready _ _ _ _ P). destruct P as ([W G] & S & _). unfold remove_dir_all in E. rewrite (cstr_spells cwd p l S) in E.
  destruct (remove_safe fault cwd fuel l s p s' r Rd E) as [_ St]. intros m I. destruct (St m I) as [X|K]; [now left|right]. intros k. destruct (within l k) eqn:X; [|left; now apply (keeps_get (within l) (tree s) m)].
  destruct (get m k) as [e|] eqn:Em; [left; symmetry; now apply (keeps_some (within l) (tree s) m)|right; now split].
Qed.
Example remove_case : plain_tree demo [bs "w"] (bs "sub/") [bs "w"; bs "sub"] /\ (forall r e, get demo ([bs "w"; bs "sub"] ++ r) = Some e -> (length r < 5)%nat) /\
  (let '(s, r) := remove_dir_all fine [bs "w"] 5 (begin demo) (bs "sub/") in r = Ok true /\ get (tree s) [bs "w"; bs "sub"; bs "b.txt"] = None /\ get (tree s) [bs "w"; bs "a.txt"] = Some (EFile (bs "one"))).
Proof.
  assert (Sn := demo_sane).
  assert (A : forall k e, get demo ([bs "w"; bs "sub"] ++ k) = Some e -> In ([bs "w"; bs "sub"] ++ k, e) demo) by (intros k e E; apply wf_get; [apply Sn|discriminate|exact E]).
  assert (B : forall k e, get demo ([bs "w"; bs "sub"] ++ k) = Some e -> (k = [] \/ k = [bs "b.txt"] \/ k = [bs "deep"]) /\ forall x, e <> ELink x).
  { intros k e E. apply A in E. clear A.
    assert (X : forallb (fun x => negb (within [bs "w"; bs "sub"] (fst x)) || (existsb (same_loc (fst x)) (map (app [bs "w"; bs "sub"]) [[]; [bs "b.txt"]; [bs "deep"]]) && match snd x with ELink _ => false | _ => true end)) demo = true) by (vm_compute; reflexivity).
    rewrite forallb_forall in X. specialize (X _ E). cbn [fst snd] in X. clear E. replace (within [bs "w"; bs "sub"] ([bs "w"; bs "sub"] ++ k)) with true in X by (symmetry; apply within_iff; now exists k). cbn [negb orb] in X. apply andb_true_iff in X as [X Y].
    split; [|intros x ->; discriminate Y]. apply existsb_exists in X as (z & I & Ez). apply same_loc_iff in Ez. apply in_map_iff in I as (q & Eq & I). rewrite <- Ez in Eq. apply app_inv_head in Eq. subst q. destruct I as [I|[I|[I|[]]]]; auto. }
  split; [|split; [|vm_compute; repeat split]].
  - split; [exact Sn|]. split; [|split; [vm_compute; reflexivity|split]].
    + unfold spells. split; [vm_compute; reflexivity|]. split; [vm_compute; intuition discriminate|]. split; [vm_compute; intuition discriminate|]. split; [vm_compute; discriminate|]. split; [vm_compute; intuition discriminate|vm_compute; reflexivity].
    + intros k x I E. apply inside_iff in I as (r & _ & ->). destruct (B _ _ E) as [_ X]. now apply (X x).
    + intros r e R E. destruct (B _ _ E) as [[->|[->| ->]] _]; [congruence| |]; vm_compute; reflexivity.
  - intros r e E. destruct (B _ _ E) as [[->|[->| ->]] _]; vm_compute; lia.
Qed.
(** A link in the directory: what it leads to is emptied, although it is outside *)
Definition demo_link : fs := demo ++ [([bs "w"; bs "sub"; bs "l"], ELink (bs "/out"))].
Theorem remove_dir_all_refuted : ~ forall s p l cwd fault fuel s' r, no_faults fault -> sane (tree s) cwd -> spells cwd p l -> get (tree s) l = Some EDir ->
  remove_dir_all fault cwd fuel s p = (s', r) -> forall k, within l k = false -> get (tree s') k = get (tree s) k.
Proof.
  intros H. specialize (H (begin demo_link) (bs "sub") [bs "w"; bs "sub"] [bs "w"] fine 5%nat (fst (remove_dir_all fine [bs "w"] 5 (begin demo_link) (bs "sub"))) (Ok false) fine_none).
  specialize (H ltac:(split; [apply wfb_ok; vm_compute; reflexivity|vm_compute; reflexivity])).
  specialize (H ltac:(split; [vm_compute; reflexivity|]; split; [vm_compute; intuition discriminate|]; split; [vm_compute; intuition discriminate|]; split; [vm_compute; discriminate|]; split; [vm_compute; intuition discriminate|vm_compute; reflexivity]) ltac:(vm_compute; reflexivity) ltac:(vm_compute; reflexivity) [bs "out"; bs "keep.txt"] ltac:(vm_compute; reflexivity)).
  vm_compute in H. discriminate H.
Qed.

(** ** C127: walk and list_dir *)
(** Every entry below the directory, once, as a path relative to it; a directory comes
    before what is in it; nothing is changed *)
Theorem walk_partial : forall s p l cwd fault fuel, no_faults fault -> plain_tree (tree s) cwd p l -> (forall r e, get (tree s) (l ++ r) = Some e -> (length r < fuel)%nat) ->
  exists s' R, walk fault cwd fuel s p = (s', Ok (map slashed R)) /\ tree s' = tree s /\ past s' = past s /\ NoDup R /\ NoDup (map slashed R) /\
    (forall r, In r R <-> r <> [] /\ get (tree s) (l ++ r) <> None) /\
    forall R1 R2 r n, R = R1 ++ (r ++ [n]) :: R2 -> r <> [] -> In r R1.
Proof.
  intros s p l cwd fault fuel NF P D. assert (Rd := plain_ready _ _ _ _ P). assert (Dp := plain_deep _ _ _ _ _ P D). destruct P as ([W G] & S & Dl & _).
  destruct (walk_spec fault cwd NF (tree s) p l Rd fuel [] s [] eq_refl) as (s' & R & E & A & B & N & O & F); [now rewrite app_nil_r|now rewrite app_nil_r|specialize (D [] EDir); rewrite app_nil_r in D; specialize (D Dl); cbn in D; lia|].
  exists s', R. unfold walk. rewrite (cstr_spells cwd p l S). cbn [slashed app] in E. split; [exact E|]. split; [exact A|]. split; [exact B|]. split; [exact N|]. split; [|split; [exact F|]].
  - assert (Nm : forall r, In r R -> r <> [] /\ Forall name_ok r). { intros r I. apply F in I as [Rn H]. split; [exact Rn|]. cbn [app] in H. destruct (get (tree s) (l ++ r)) as [e|] eqn:Eg; [|congruence]. exact (wf_names _ _ _ _ W Eg). }
    clear E O F. induction N as [|x R Nx N IH]; cbn; constructor; [|apply IH; intros r I; apply Nm; now right]. intros I. apply in_map_iff in I as (y & Ey & I). apply Nx. destruct (Nm x (or_introl eq_refl)) as [X1 X2]. destruct (Nm y (or_intror I)) as [Y1 Y2].
    assert (Exy : x = y) by (rewrite <- (comps_slashed x X1 X2), <- (comps_slashed y Y1 Y2); now rewrite Ey). now rewrite Exy.
  - intros R1 R2 r n ER Rn. rewrite ER in O. destruct (ordered_spec R1 (r ++ [n]) R2 [] O r n eq_refl Rn) as [[]|X]. exact X.
Qed.

(** list_dir: the names in the directory, each once *)
Theorem list_dir_exact : forall s p l cwd fault, no_faults fault -> sane (tree s) cwd -> leads (tree s) cwd true (cstr p) = Some l -> get (tree s) l = Some EDir ->
  exists s' ns, list_dir fault cwd s p = (s', ns) /\ tree s' = tree s /\ NoDup ns /\ forall n, In n ns <-> get (tree s) (l ++ [n]) <> None.
Proof.
  intros s p l cwd fault NF [W G] L D. unfold list_dir, sys_list. rewrite NF. assert (R := resolve_of_target _ _ _ _ _ W G (cstr_no_zero p) L). rewrite D in R. rewrite R, D. eexists _, _. split; [reflexivity|]. split; [reflexivity|].
  assert (E : filter (fun n => negb (same n (bs ".") || same n (bs ".."))) (children (tree s) l) = children (tree s) l).
  { apply filter_true. intros n I. apply wf_child in I; [|exact W]. destruct (get (tree s) (l ++ [n])) as [e|] eqn:Eg; [|congruence]. destruct (wf_name _ _ _ _ W Eg) as (_ & _ & _ & A & B). now rewrite (same_ne _ _ A), (same_ne _ _ B). }
  rewrite E. split; [apply children_nodup, W|]. intros n. now apply wf_child.
Qed.
Example walk_case : (let '(s, r) := walk fine [bs "w"] 5 (begin demo) (bs "/w") in r) = Ok (map bs ["a.txt"; "sub"; "sub/b.txt"; "sub/deep"; "link"]%string) /\
  snd (list_dir fine [bs "w"] (begin demo) (bs ".")) = map bs ["a.txt"; "sub"; "link"]%string.
Proof. split; vm_compute; reflexivity. Qed.
(** A link to a directory is entered: its files are listed a second time *)
Definition demo_twice : fs := demo ++ [([bs "w"; bs "again"], ELink (bs "sub"))].
Theorem walk_refuted : ~ forall s p l cwd fault fuel s' out, no_faults fault -> sane (tree s) cwd -> spells cwd p l -> get (tree s) l = Some EDir ->
  walk fault cwd fuel s p = (s', Ok out) -> forall x, In x out -> exists r, x = slashed r /\ get (tree s) (l ++ r) <> None.
Proof.
  intros H. specialize (H (begin demo_twice) (bs "/w") [bs "w"] [bs "w"] fine 5%nat (fst (walk fine [bs "w"] 5 (begin demo_twice) (bs "/w"))) (map bs ["a.txt"; "sub"; "sub/b.txt"; "sub/deep"; "link"; "again"; "again/b.txt"; "again/deep"]%string) fine_none).
  specialize (H ltac:(split; [apply wfb_ok; vm_compute; reflexivity|vm_compute; reflexivity])).
  specialize (H ltac:(split; [vm_compute; reflexivity|]; split; [vm_compute; intuition discriminate|]; split; [vm_compute; intuition discriminate|]; split; [vm_compute; discriminate|]; split; [vm_compute; intuition discriminate|vm_compute; reflexivity]) ltac:(vm_compute; reflexivity) ltac:(vm_compute; reflexivity) (bs "again/b.txt")).
  destruct H as (r & E & Gr); [apply in_map; do 6 right; now left|]. assert (W : wf demo_twice) by (apply wfb_ok; vm_compute; reflexivity).
  cbn [begin tree] in Gr. destruct (get demo_twice ([bs "w"] ++ r)) as [e|] eqn:Eg; [|congruence]. destruct (list_eq_dec bytes_eq r []) as [->|Rn]; [vm_compute in E; discriminate E|].
  assert (Nm := wf_names _ _ _ _ W Eg). assert (Er := comps_slashed r Rn Nm). rewrite <- E in Er. rewrite <- Er in Eg. vm_compute in Eg. discriminate Eg.
Qed.

(** ** C128: make_dir_all *)
(** When no file or link is in the way, every directory on the path is there afterwards,
    and nothing else changed *)
Theorem make_dir_all_partial : forall s p l cwd fault, no_faults fault -> sane (tree s) cwd -> spells cwd p l -> ~ In 92 p ->
  (forall a b, l = a ++ b -> get (tree s) a = None \/ get (tree s) a = Some EDir) ->
  exists s', make_dir_all fault cwd s p = (s', true) /\ (forall a b, l = a ++ b -> get (tree s') a = Some EDir) /\
    forall k, (forall a b, l = a ++ b -> k <> a) -> get (tree s') k = get (tree s) k.
Proof.
  intros s p l cwd fault NF [W G] S B0 F. assert (P0 := spells_ne _ _ _ S). destruct S as (El & D1 & D2 & N & Z0 & L).
  assert (Gb : get (tree s) (start cwd p) = Some EDir) by (unfold start; destruct (absolute p); [reflexivity|exact G]).
  destruct (make_dir_all_spec fault cwd NF (tree s) (start cwd p) Gb s p W eq_refl eq_refl P0 Z0 B0 L (conj D1 D2)) as (s' & E & (W' & A & B)).
  - intros q r Eq Q. apply (F _ r). now rewrite El, Eq, app_assoc.
  - exists s'. split; [exact E|]. assert (Al : get (tree s') l = Some EDir) by (rewrite El; apply (A _ []); [now rewrite app_nil_r|exact N]). split.
    + intros a b Ea. destruct b as [|x b]; [rewrite app_nil_r in Ea; now rewrite <- Ea|]. rewrite Ea in Al. now apply wf_up in Al.
    + intros k K. apply B. intros q r Eq Q ->. apply (K (start cwd p ++ q) r); [|reflexivity]. now rewrite El, Eq, app_assoc.
Qed.
Example make_dirs_case : let p := bs "sub/x//y/" in let l := [bs "w"; bs "sub"; bs "x"; bs "y"] in spells [bs "w"] p l /\ ~ In 92 p /\
  (let '(s, ok) := make_dir_all fine [bs "w"] (begin demo) p in ok = true /\ get (tree s) l = Some EDir /\ get (tree s) [bs "w"; bs "sub"; bs "x"] = Some EDir).
Proof.
  cbv zeta. split; [|split; [vm_compute; intuition discriminate|vm_compute; repeat split]].
  split; [vm_compute; reflexivity|]. split; [vm_compute; intuition discriminate|]. split; [vm_compute; intuition discriminate|]. split; [vm_compute; discriminate|]. split; [vm_compute; intuition discriminate|vm_compute; reflexivity].
Qed.
(** true although a file is there, and no directory *)
Theorem make_dir_all_refuted : ~ forall s p l cwd fault s', no_faults fault -> sane (tree s) cwd -> spells cwd p l -> make_dir_all fault cwd s p = (s', true) -> get (tree s') l = Some EDir.
Proof.
  intros H. specialize (H (begin demo) (bs "a.txt") [bs "w"; bs "a.txt"] [bs "w"] fine (fst (make_dir_all fine [bs "w"] (begin demo) (bs "a.txt"))) fine_none demo_sane).
  specialize (H ltac:(split; [vm_compute; reflexivity|]; split; [vm_compute; intuition discriminate|]; split; [vm_compute; intuition discriminate|]; split; [vm_compute; discriminate|]; split; [vm_compute; intuition discriminate|vm_compute; reflexivity]) ltac:(vm_compute; reflexivity)).
  vm_compute in H. discriminate H.
Qed.

(** ** C129: read_lines *)
(** Every file is lines, each ended by LF or CR LF, and what follows the last of them, which
    may end in a CR; the lines are given without their ends, and the rest unless empty *)
Theorem read_lines_exact : forall s path l content cwd fault short, no_faults fault -> no_shorts short -> sane (tree s) cwd ->
  leads (tree s) cwd true (cstr path) = Some l -> get (tree s) l = Some (EFile content) -> Z.of_nat (length content) <= INT32_MAX ->
  exists s' ls tail (cr : bool), content = concat (map (fun x => fst x ++ (if snd x : bool then [13; 10] else [10])) ls) ++ tail ++ (if cr then [13] else []) /\
    (forall x, In x ls -> ~ In 10 (fst x) /\ (snd x = false -> last (fst x) 0 <> 13)) /\ ~ In 10 tail /\ (cr = false -> last tail 0 <> 13) /\
    read_lines fault short cwd s path = (s', Ok (map fst ls ++ match tail, cr with [], false => [] | _, _ => [tail] end)) /\ tree s' = tree s.
Proof.
  intros s path l content cwd fault short NF NS [W G] L Gl Sz. destruct (text_total content) as (ls & tail & cr & E & F & Nt & Ct).
  unfold read_lines. rewrite sys_stat_eq, NF. assert (R := resolve_of_target _ _ _ _ _ W G (cstr_no_zero path) L). rewrite Gl in R. rewrite R, Gl. cbn [is_dir].
  destruct (read_file_spec fault short cwd (tick s) path NF NS W G) as (s' & E' & T & _). rewrite E'. cbn [tree tick] in *. unfold leads in L. rewrite L, Gl. cbn [content_read].
  exists s', ls, tail, cr. split; [exact E|]. split; [intros x I; rewrite Forall_forall in F; now apply F|]. split; [exact Nt|]. split; [exact Ct|]. split; [|exact T].
  unfold content_read. destruct (Z.ltb_spec INT32_MAX (Z.of_nat (length content))); [lia|]. cbn [rmap]. rewrite E at 1. now rewrite lines_spec.
Qed.
Example lines_case : lines (bs "one" ++ [13; 10] ++ bs "two" ++ [10; 10] ++ bs "end") = [bs "one"; bs "two"; []; bs "end"] /\ lines (bs "x" ++ [10]) = [bs "x"] /\ lines [] = [].
Proof. split; [|split]; vm_compute; reflexivity. Qed.

(** ** C130: temporary files *)
(** A program makes temporary files (true) and directories (false) with the names the system chose *)
Fixpoint temps (fault : nat -> option Z) (cwd : loc) (s : st) (reg : list bytes) (os : list (bool * bytes)) : st * list bytes * list bytes :=
  match os with
  | [] => (s, reg, [])
  | (f, name) :: os =>
      let '(s, reg, r) := (if f then temp_file fault cwd s reg name else temp_dir fault cwd s reg name) in
      let '(s, reg, rs) := temps fault cwd s reg os in (s, reg, r :: rs)
  end.
(** All names it was given are noted, as long as there are no more than 256 *)
Theorem temp_noted_partial : forall os fault cwd s reg, (length reg + length os <= Z.to_nat 256)%nat -> Forall (fun o => snd o <> []) os ->
  let '(_, reg', names) := temps fault cwd s reg os in reg' = reg ++ filter ne names.
Proof.
  induction os as [|[f n] os IH]; intros fault cwd s reg Le F; cbn [temps]; [now rewrite app_nil_r|]. inversion F as [|? ? Hn F']; subst. cbn [snd length] in *.
  assert (X : exists s1 r, (if f then temp_file fault cwd s reg n else temp_dir fault cwd s reg n) = (s1, reg ++ filter ne [r], r)).
  { assert (Nn : ne n = true) by (now apply ne_iff). assert (Add : registry_add reg n = reg ++ [n]) by (unfold registry_add, MAX_TEMP; destruct (Nat.ltb_spec (length reg) (Z.to_nat 256)); [reflexivity|lia]).
    destruct f; unfold temp_file, temp_dir.
    - destruct (open_write fault cwd s true n) as [s1 [l|]]; [exists s1, n; cbn [filter]; now rewrite Nn, Add|exists s1, []; cbn; now rewrite app_nil_r].
    - destruct (sys_mkdir fault cwd s n) as [s1 e]. destruct (e =? 0); [exists s1, n; cbn [filter]; now rewrite Nn, Add|exists s1, []; cbn; now rewrite app_nil_r]. }
  destruct X as (s1 & r & ->). assert (Lr : (length (filter ne [r]) <= 1)%nat) by (cbn; destruct (ne r); cbn; lia).
  specialize (IH fault cwd s1 (reg ++ filter ne [r])). destruct (temps fault cwd s1 (reg ++ filter ne [r]) os) as [[s2 reg2] rs]. rewrite IH; [|rewrite app_length; lia|exact F']. rewrite <- app_assoc. cbn [filter]. now destruct (ne r).
Qed.
(** At exit all that is noted goes, with what the program put in it, and nothing else does.
    [leftover]: there is nothing any more, a file, or a directory without links below *)
Theorem temp_cleanup_partial : forall s dir d ns cwd fault fuel, no_faults fault -> sane (tree s) cwd -> spells cwd dir d -> get (tree s) d = Some EDir -> NoDup ns ->
  (forall n, In n ns -> name_ok n /\ Z.of_nat (length dir + 1 + length n) < PATH_MAX /\
     match get (tree s) (d ++ [n]) with
     | None | Some (EFile _) => True
     | Some EDir => plain_tree (tree s) cwd (dir ++ 47 :: n) (d ++ [n]) /\ forall r e, get (tree s) ((d ++ [n]) ++ r) = Some e -> (length r < fuel)%nat
     | Some (ELink _) => False
     end) ->
  exists s', temp_cleanup fault cwd fuel s (map (fun n => dir ++ 47 :: n) ns) = (s', Ok tt) /\
    forall k, get (tree s') k = if existsb (fun n => within (d ++ [n]) k) ns then None else get (tree s) k.
Proof.
  intros s dir d ns cwd fault fuel NF [W G] S Gd N H. destruct (cleanup_spec fault cwd NF dir d fuel ns N s W S Gd) as (s' & E & T).
  - apply Forall_forall. intros n I. destruct (H n I) as (O & L & M). split; [exact O|]. split; [lia|]. destruct (get (tree s) (d ++ [n])) as [[c| |c]|]; try exact M. destruct M as [P Dp]. assert (Rd := plain_ready _ _ _ _ P). assert (Dd := plain_deep _ _ _ _ _ P Dp). destruct Rd as (_ & _ & _ & Pl & Fi). now repeat split.
  - exists s'. split; [exact E|]. intros k. rewrite T. destruct k as [|x k].
    + replace (existsb (fun n => within (d ++ [n]) []) ns) with false; [reflexivity|]. symmetry. clear. induction ns as [|n ns IH]; [reflexivity|]. cbn [existsb]. rewrite IH, orb_false_r. apply within_false. intros (r & Er). destruct d; discriminate Er.
    + cbn [get]. rewrite find_filter by apply W. cbn [fst]. destruct (find_entry (tree s) (x :: k)); destruct (existsb _ ns); reflexivity.
Qed.
Example temp_case : let os := [(true, bs "/tmp/gray_a"); (false, bs "/tmp/gray_b")] in
  let '(s, reg, names) := temps fine [bs "w"] (begin demo) [] os in names = map snd os /\ reg = names /\
  (let '(s1, _) := write_file fine whole lazy [bs "w"] s (bs "/tmp/gray_b/x") (bs "data") in
   get (tree s1) [bs "tmp"; bs "gray_b"; bs "x"] = Some (EFile (bs "data")) /\ tree (fst (temp_cleanup fine [bs "w"] 3 s1 reg)) = demo).
Proof. vm_compute. repeat split. Qed.
(** A program makes n temporary files and deletes each at once (the system may choose the
    same name again); the files are gone but their places in the registry are not free.
    The 257th file it makes stays *)
Fixpoint churn (fault : nat -> option Z) (cwd : loc) (s : st) (reg : list bytes) (name : bytes) (n : nat) : st * list bytes :=
  match n with
  | O => (s, reg)
  | S n => let '(s, reg, p) := temp_file fault cwd s reg name in let '(s, _) := delete_file fault cwd s p in churn fault cwd s reg name n
  end.
Theorem temp_cleanup_refuted : ~ forall n name l fault cwd s fuel, no_faults fault -> sane (tree s) cwd -> name <> [] -> leads (tree s) cwd true name = Some l -> get (tree s) l = None ->
  let '(s1, reg1) := churn fault cwd s [] name n in
  let '(s2, reg2, _) := temp_file fault cwd s1 reg1 (name ++ bs "x") in
  forall s' u, temp_cleanup fault cwd fuel s2 reg2 = (s', Ok u) -> forall k, leads (tree s2) cwd true (name ++ bs "x") = Some k -> get (tree s') k = None.
Proof.
  intros H. specialize (H (Z.to_nat 256) (bs "/tmp/gray_a") [bs "tmp"; bs "gray_a"] fine [bs "w"] (begin demo) 3%nat fine_none demo_sane ltac:(discriminate) ltac:(vm_compute; reflexivity) ltac:(vm_compute; reflexivity)).
  set (R := churn _ _ _ _ _ _) in H. rewrite (surjective_pairing R) in H. set (T := temp_file _ _ _ _ _) in H. rewrite (surjective_pairing T), (surjective_pairing (fst T)) in H.
  set (C := temp_cleanup fine [bs "w"] 3 (fst (fst T)) (snd (fst T))) in H.
  assert (EC : C = (fst C, Ok tt)) by (rewrite (surjective_pairing C) at 1; f_equal; vm_compute; reflexivity).
  specialize (H (fst C) tt EC [bs "tmp"; bs "gray_ax"]). clear EC.
  assert (L : leads (tree (fst (fst T))) [bs "w"] true (bs "/tmp/gray_a" ++ bs "x") = Some [bs "tmp"; bs "gray_ax"]) by (vm_compute; reflexivity). specialize (H L). clear L.
  assert (G : get (tree (fst C)) [bs "tmp"; bs "gray_ax"] = Some (EFile [])) by (vm_compute; reflexivity). rewrite G in H. discriminate H.
Qed.

(** ** The single calls *)
Definition entry_at (t : fs) (cwd : loc) (p : bytes) : option entry := match leads t cwd true (cstr p) with Some l => get t l | None => None end.
Theorem tests_exact : forall s p cwd fault, no_faults fault -> sane (tree s) cwd ->
  file_exists fault cwd s p = (tick s, match entry_at (tree s) cwd p with Some _ => true | None => false end) /\
  is_file fault cwd s p = (tick s, match entry_at (tree s) cwd p with Some (EFile _) => true | _ => false end) /\
  is_directory fault cwd s p = (tick s, match entry_at (tree s) cwd p with Some EDir => true | _ => false end).
Proof.
  intros s p cwd fault NF [W G]. unfold file_exists, sys_access, is_file, is_directory, entry_at. rewrite sys_stat_eq, NF.
  assert (E : match resolve (tree s) cwd true (cstr p) with Found l => get (tree s) l | _ => None end = match leads (tree s) cwd true (cstr p) with Some l => get (tree s) l | None => None end).
  { assert (S := resolve_sensible (tree s) cwd true (cstr p) W G (cstr_no_zero p)). unfold leads. destruct (resolve (tree s) cwd true (cstr p)) as [l|d n|e]; cbn [target]; [reflexivity| |reflexivity]. destruct S as (_ & S & _). symmetry. exact S. }
  rewrite E. split; [reflexivity|]. split; [reflexivity|]. destruct (match leads _ _ _ _ with Some l => _ | None => _ end) as [[| |]|]; reflexivity.
Qed.
(** A directory is made where nothing was, or nothing happens *)
Theorem make_dir_exact : forall s p l n cwd fault, no_faults fault -> sane (tree s) cwd -> spells cwd p l -> get (tree s) l = Some EDir -> name_ok n -> Z.of_nat (length p) + 1 + Z.of_nat (length n) < PATH_MAX ->
  exists s', make_dir fault cwd s (p ++ 47 :: n) = (s', match get (tree s) (l ++ [n]) with None => true | Some _ => false end) /\
    forall k, get (tree s') k = if same_loc (l ++ [n]) k then match get (tree s) (l ++ [n]) with None => Some EDir | e => e end else get (tree s) k.
Proof.
  intros s p l n cwd fault NF [W G] S D O L. assert (Sn := spells_child cwd p l n S O L). unfold make_dir. rewrite (cstr_spells _ _ _ Sn). unfold sys_mkdir. rewrite NF.
  assert (T : resolve_new (tree s) cwd (p ++ 47 :: n) = resolve (tree s) cwd false (p ++ 47 :: n)).
  { unfold resolve_new, resolve. destruct (_ <=? _); [reflexivity|]. destruct (p ++ 47 :: n) eqn:E; [reflexivity|]. rewrite <- E. rewrite trim_last; [reflexivity| |]; rewrite comps_app; destruct (name_comps n O) as (C & C1 & _); rewrite C; [destruct (comps p); discriminate|rewrite last_last; exact C1]. }
  rewrite T. assert (Ld : l ++ [n] <> []) by (destruct l; discriminate). destruct (get (tree s) (l ++ [n])) as [e|] eqn:E.
  - rewrite (child_found (tree s) cwd false p l n e) by (assumption || reflexivity). eexists. split; [reflexivity|]. intros k. cbn [tree tick]. destruct (same_loc (l ++ [n]) k) eqn:X; [apply same_loc_iff in X; rewrite <- X; exact E|reflexivity].
  - rewrite (child_missing (tree s) cwd false p l n) by assumption. eexists. split; [reflexivity|]. intros k. cbn [tree commit]. now rewrite get_set.
Qed.
(** remove_dir removes a directory with nothing in it, or nothing *)
Theorem remove_dir_exact : forall s p l cwd fault, no_faults fault -> sane (tree s) cwd -> spells cwd p l -> get (tree s) l = Some EDir ->
  exists s' ok, remove_dir fault cwd s p = (s', ok) /\ (ok = true <-> forall n, get (tree s) (l ++ [n]) = None) /\
    forall k, get (tree s') k = if ok && same_loc k l then None else get (tree s) k.
Proof.
  intros s p l cwd fault NF [W G] S D. unfold remove_dir. rewrite (cstr_spells _ _ _ S). unfold sys_rmdir. rewrite (spells_no_dots _ _ _ S), NF, (spells_dir _ _ _ _ _ W S D). assert (L := spells_root cwd p l _ G S).
  destruct l as [|x l]; [congruence|]. remember (x :: l) as xl. rewrite D. destruct (children (tree s) xl) as [|c cs] eqn:C.
  - eexists _, true. split; [reflexivity|]. split.
    + split; [|reflexivity]. intros _ n. destruct (get (tree s) (xl ++ [n])) eqn:E; [|reflexivity]. assert (I : In n (children (tree s) xl)) by (apply wf_child; [exact W|congruence]). rewrite C in I. destruct I.
    + intros k. cbn [tree commit andb]. rewrite get_del; [reflexivity|apply W|exact L].
  - eexists _, false. split; [reflexivity|]. split; [|reflexivity]. split; [discriminate|]. intros H. exfalso. assert (I : In c (children (tree s) xl)) by (rewrite C; now left). apply wf_child in I; [|exact W]. now apply I.
Qed.
(** Renaming a file to a free name in a directory, or onto another file *)
Theorem rename_file_exact : forall s p q a b d cwd fault, no_faults fault -> sane (tree s) cwd -> ends_in_dots (cstr p) = false -> ends_in_dots (cstr q) = false ->
  leads (tree s) cwd false (cstr p) = Some a -> get (tree s) a = Some (EFile d) -> leads (tree s) cwd false (cstr q) = Some b -> b <> a -> (get (tree s) b = None \/ exists x, get (tree s) b = Some (EFile x)) ->
  exists s', rename_file fault cwd s p q = (s', true) /\ forall k, get (tree s') k = if same_loc k b then Some (EFile d) else if same_loc k a then None else get (tree s) k.
Proof.
  intros s p q a b d cwd fault NF [W G] Dp Dq La Ga Lb Nab Hb. unfold rename_file, sys_rename. rewrite Dp, Dq, NF. cbn [orb].
  assert (Ra := resolve_of_target _ _ _ _ _ W G (cstr_no_zero p) La). rewrite Ga in Ra. assert (Rb := resolve_of_target _ _ _ _ _ W G (cstr_no_zero q) Lb).
  assert (A0 : a <> []) by (intros ->; discriminate Ga). assert (B0 : b <> []) by (intros ->; destruct Hb as [Hb|(x & Hb)]; discriminate Hb).
  assert (In_ab : inside a b = false).
  { apply inside_false. intros (r & R & Er). destruct (get (tree s) b) as [e|] eqn:Eb.
    - rewrite Er in Eb. apply wf_up in Eb; [congruence|exact W|exact R].
    - destruct Rb as (dd & n & E2 & _ & Gd & _). destruct (exists_last R) as (r' & x & ->). rewrite E2, app_assoc in Er. apply app_inj_tail in Er as [Er _]. rewrite Er in Gd. destruct r' as [|y r']; [rewrite app_nil_r in Gd; congruence|]. apply wf_up in Gd; [congruence|exact W|discriminate]. }
  assert (M := rename_file_moved (tree s) a b d W Ga (not_eq_sym Nab) B0).
  destruct a as [|an al]; [congruence|]. rewrite Ra.
  destruct Hb as [Hb|(x & Hb)]; rewrite Hb in Rb.
  - destruct Rb as (dd & n & E2 & Rb & _). rewrite Rb, <- E2, In_ab. eexists. split; [reflexivity|]. exact M.
  - rewrite Rb. destruct b as [|bn bl]; [congruence|]. rewrite (same_loc_ne _ _ (not_eq_sym Nab)), Ga, Hb. eexists. split; [reflexivity|]. exact M.
Qed.
(** What fails leaves the tree alone *)
Theorem rename_file_safe : forall s p q a d cwd fault, sane (tree s) cwd -> leads (tree s) cwd false (cstr p) = Some a -> get (tree s) a = Some (EFile d) ->
  exists s' ok, rename_file fault cwd s p q = (s', ok) /\ (ok = false -> tree s' = tree s) /\ (ok = true -> exists b, leads (tree s) cwd false (cstr q) = Some b /\ get (tree s') b = Some (EFile d)).
Proof.
  intros s p q a d cwd fault [W G] L Ga. destruct (sys_rename_file fault cwd s (cstr p) (cstr q) a d W G (cstr_no_zero p) (cstr_no_zero q) L Ga) as (s' & ok & E & H). exists s', ok. split; [exact E|]. destruct H as [[-> H]|(k & -> & Lk & Nk & K0 & ->)]; cbn [tree tick commit].
  - split; [reflexivity|]. intros O. exists a. split; [now apply H|exact Ga].
  - split; [discriminate|]. intros _. exists k. split; [exact Lk|]. rewrite (rename_file_moved (tree s) a k d W Ga (not_eq_sym Nk) K0). now rewrite same_loc_refl.
Qed.
(** The variant with an error value, when no transfer is short *)
Theorem write_file_result_partial : forall s path d cwd fault short early, no_faults fault -> no_shorts short -> sane (tree s) cwd ->
  exists s', write_file_result fault short early cwd s path d = (s', match leads (tree s) cwd true (cstr path) with Some l => match get (tree s) l with Some EDir => false | _ => true end | None => false end) /\
  forall l, leads (tree s) cwd true (cstr path) = Some l -> get (tree s) l <> Some EDir -> only_file l d (tree s) (tree s').
Proof.
  intros s path d cwd fault short early NF NS Sn. assert (Q : forall s1 r, write_file fault short early cwd s path d = (s1, r) -> r = Ok true -> write_file_result fault short early cwd s path d = (s1, true)).
  { unfold write_file, put_file, write_file_result. intros s1 r. destruct (sys_stat fault cwd s (cstr path)) as [s2 e]. destruct (is_dir e); [intros [= <- <-]; discriminate|]. destruct (open_write fault cwd s2 true (cstr path)) as [s3 [l|]]; [|intros [= <- <-]; discriminate]. destruct (fwrite short early s3 l [] d) as [[s4 pe] w]. intros [= <- _] _. reflexivity. }
  destruct (leads (tree s) cwd true (cstr path)) as [l|] eqn:L.
  - destruct (get (tree s) l) as [[x| |x]|] eqn:E.
    2:{ unfold write_file_result. rewrite sys_stat_eq, NF. destruct Sn as [W G]. assert (R := resolve_of_target _ _ _ _ _ W G (cstr_no_zero path) L). rewrite E in R. rewrite R, E. cbn [is_dir]. eexists. split; [reflexivity|]. intros l' [= <-]. congruence. }
    all: destruct (write_file_says_true s path d cwd fault short early l NF NS Sn L ltac:(congruence)) as (s' & E1 & O); exists s'; (split; [now apply (Q s' (Ok true))|]); intros l' [= <-] _; exact O.
  - unfold write_file_result. rewrite sys_stat_eq, NF. unfold leads in L. destruct (resolve (tree s) cwd true (cstr path)) as [l|dd n|e] eqn:R; try discriminate L. cbn [is_dir]. unfold open_write. cbn [tree tick calls]. rewrite NF, R. eexists. split; [reflexivity|]. intros l' [=].
Qed.
Example single_calls : let s := begin demo in
  snd (is_file fine [bs "w"] s (bs "link")) = true /\ snd (is_directory fine [bs "w"] s (bs "sub/deep/..")) = true /\ snd (make_dir fine [bs "w"] s (bs "sub/new")) = true /\ snd (remove_dir fine [bs "w"] s (bs "sub")) = false /\ snd (remove_dir fine [bs "w"] s (bs "sub/deep")) = true /\
  (let '(s, ok) := rename_file fine [bs "w"] s (bs "a.txt") (bs "sub/b.txt") in ok = true /\ get (tree s) [bs "w"; bs "sub"; bs "b.txt"] = Some (EFile (bs "one")) /\ get (tree s) [bs "w"; bs "a.txt"] = None).
Proof. vm_compute. repeat split. Qed.
Print Assumptions files_history_partial.
Print Assumptions write_file_partial.
Print Assumptions append_file_partial.
Print Assumptions write_file_says_true.
Print Assumptions write_file_true_refuted.
Print Assumptions write_file_result_refuted.
Print Assumptions write_file_false_refuted.
Print Assumptions copy_file_partial.
Print Assumptions move_file_partial.
Print Assumptions copy_onto_itself.
Print Assumptions copy_file_refuted.
Print Assumptions move_file_refuted.
Print Assumptions remove_dir_all_partial.
Print Assumptions remove_dir_all_safe_partial.
Print Assumptions remove_dir_all_refuted.
Print Assumptions walk_partial.
Print Assumptions list_dir_exact.
Print Assumptions walk_refuted.
Print Assumptions make_dir_all_partial.
Print Assumptions make_dir_all_refuted.
Print Assumptions read_lines_exact.
Print Assumptions temp_noted_partial.
Print Assumptions temp_cleanup_partial.
Print Assumptions temp_cleanup_refuted.
Print Assumptions tests_exact.
Print Assumptions make_dir_exact.
Print Assumptions remove_dir_exact.
Print Assumptions rename_file_exact.
Print Assumptions rename_file_safe.
Print Assumptions write_file_result_partial.
