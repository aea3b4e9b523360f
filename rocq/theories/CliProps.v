(** C45, C47-C50: the text formatter, project names, documentation, watch mode and the entry file. *)
From Verif Require Import Base BaseFacts SemverModel SemverProofs InstallSpec InstallModel InstallProofs InstallProofs2 CliSpec CliModel CliProofs CliProofs2.

(** ** C45 *)
(** Formatting a formatted text changes nothing. *)
Theorem format_idempotent src : format_source (format_source src) = format_source src.
Proof.
  unfold format_source. fold (fmt_lines (split_on 10 src)). set (ls := fmt_lines (split_on 10 src)).
  assert (O : Forall one_line ls).
  { apply Forall_forall. intros l H. unfold ls, fmt_lines in H. apply strip_in, collapse_in, in_map_iff in H. destruct H as (k & <- & K).
    apply (tidied_one k); [apply fmt_tidied|]. destruct (text_split src) as (_ & F & _). rewrite Forall_forall in F. now apply F. }
  assert (F : fmt_lines ls = ls) by apply fmt_lines_fix. clearbody ls. rewrite (join_text ls). destruct ls as [|l ls]; [reflexivity|].
  assert (X := text_snoc (l :: ls) ltac:(discriminate)). unfold nl in X. rewrite X, split_text.
  - fold (fmt_lines ((l :: ls) ++ [[]])). rewrite fmt_lines_snoc, F, join_text. exact X.
  - discriminate.
  - apply Forall_app. split; [exact O|]. repeat constructor. intros [].
Qed.
(** The result has the lines of the source, each tidied (leading tabs expanded, blanks after the text removed), with the
    runs of empty lines between them cut to two, none at the end, and one newline at the end. *)
Theorem format_content lines : lines <> [] -> Forall one_line lines -> exists tidy out,
  Forall2 tidied lines tidy /\ Forall one_line out /\ (out = [] \/ last out [] <> []) /\
  format_source (text lines) = text out ++ [nl] /\
  paragraphs 0 out = map (fun x => (Nat.min (fst x) 2, snd x)) (paragraphs 0 tidy).
Proof.
  intros N O. exists (map fmt_line lines), (fmt_lines lines). split.
  { clear. induction lines; cbn [map]; constructor; [apply fmt_tidied|assumption]. }
  split. { apply Forall_forall. intros l H. unfold fmt_lines in H. apply strip_in, collapse_in, in_map_iff in H. destruct H as (k & <- & K).
    apply (tidied_one k); [apply fmt_tidied|]. rewrite Forall_forall in O. now apply O. }
  split. { destruct (strip_spec (collapse 0 (map fmt_line lines))) as (k & _ & H). exact H. }
  split. { unfold format_source. rewrite split_text by assumption. fold (fmt_lines lines). now rewrite join_text. }
  unfold fmt_lines. destruct (strip_spec (collapse 0 (map fmt_line lines))) as (k & E & _).
  exact (eq_trans (eq_sym (paragraphs_tail _ k 0)) (eq_trans (f_equal (paragraphs 0) (eq_sym E)) (collapse_paragraphs (map fmt_line lines) 0))).
Qed.
Example format_run : format_source (bs "do f() {  " ++ 10 :: 9 :: bs " return 1" ++ [9; 10; 10; 10; 10; 10] ++ bs "}" ++ [10; 10]) =
  bs "do f() {" ++ 10 :: bs "     return 1" ++ [10; 10; 10] ++ bs "}" ++ [10].
Proof. reflexivity. Qed.

(** ** C47 *)
(** The names accepted, exactly; in the file system each denotes an entry of the current directory. *)
Theorem project_name_partial n : valid_project_name n = true <->
  n <> [] /\ n <> bs "." /\ ~ In 47 n /\ ~ In 92 n /\ ~ occurs (bs "..") n /\ (forall r, n <> 126 :: r).
Proof. apply valid_iff. Qed.
Theorem project_name_inside n cwd : valid_project_name n = true -> resolve cwd n = resolve cwd (bs ".") ++ [n].
Proof.
  intros H. apply valid_iff in H. destruct H as (A & B & C & D & E & F).
  assert (PL : plain n) by (split; [exact A|]; split; [exact B|]; intros ->; apply E; exists [], []; reflexivity).
  rewrite (resolve_relative cwd n) by (intros r ->; apply C; now left). rewrite (resolve_relative cwd (bs ".")) by (intros r; discriminate).
  rewrite (parts_one n) by exact C. rewrite walk_plain by (constructor; [exact PL|constructor]). reflexivity.
Qed.
(** A name need not start with a letter or underscore. *)
Theorem project_name_refuted : forall n, In n [bs "-rf"; bs "1abc"; bs ".git"; 10 :: bs "x"] -> valid_project_name n = true.
Proof. intros n H. repeat (destruct H as [<-|H]; [reflexivity|]). destruct H. Qed.
Example project_name_run : valid_project_name (bs "my_app-2.0") = true /\ valid_project_name (bs "a/../b") = false /\ valid_project_name (bs "..") = false.
Proof. repeat split. Qed.

(** ** C48 *)
(** A file made of plain lines and documented functions, structs and enums yields exactly the documented items, in order,
    each with its name, text and description. *)
Theorem docs_partial cs content : Forall chunk_ok cs ->
  let lines := flat_map chunk_lines cs in
  Forall (fun l => one_line l /\ ~ In 13 l /\ Z.of_nat (length l) < 65536) lines ->
  content = text (lines ++ [[]]) \/ (content = text lines /\ lines <> [] /\ last lines [] <> []) ->
  collect_docs content = flat_map chunk_items cs.
Proof.
  intros C lines L E. assert (FL : file_lines content = lines).
  { destruct E as [-> | (-> & N & K)]; [now apply file_lines_ok|]. unfold file_lines. rewrite split_text; [|exact N|].
    - apply scan_ok_open; [eapply Forall_impl; [|exact L]; now intros l (_ & H)|]. destruct lines as [|x r] using rev_ind; [congruence|]. rewrite last_last in *. exact K.
    - eapply Forall_impl; [|exact L]. now intros l (H & _). }
  unfold collect_docs. rewrite FL. pose proof (doc_chunks cs C []) as X. unfold lines_of in X. unfold lines. now rewrite X.
Qed.
(** Documented items that yield no entry: a brace on the next line, an empty description, a file with a line of 64 KiB
    before it; and a brace in a comment makes a struct swallow what follows. *)
Theorem docs_refuted :
  collect_docs (text [bs "#doc(""a point"")"; bs "const P struct"; bs "{"; bs "    x int"; bs "}"; []]) = [] /\
  collect_docs (text [bs "#doc("""")"; bs "do f() {"; bs "}"; []]) = [] /\
  map iname (collect_docs (text [bs "#doc(""a"")"; bs "const P struct {"; bs "    x int // {"; bs "}"; bs "#doc(""b"")"; bs "do f() {"; bs "}"; []])) = [] /\
  (forall l rest, one_line l -> 65536 <= Z.of_nat (length l) -> collect_docs (l ++ nl :: rest) = []).
Proof.
  split; [vm_compute; reflexivity|]. split; [vm_compute; reflexivity|]. split; [vm_compute; reflexivity|].
  intros l rest O L. unfold collect_docs, file_lines. unfold nl. rewrite split_app by exact O.
  destruct (split_on 10 rest) as [|m r] eqn:E; [now apply split_nonempty in E|]. cbn [scan_lines]. destruct (Z.leb_spec 65536 (Z.of_nat (length l))); [reflexivity|lia].
Qed.
Definition sample : list chunk :=
  [Plain (bs "import @std"); Plain [];
   Documented (bs "#doc(""adds"")") (bs "adds") [[]] (Function (bs "do add(a, b int) -> int {")) (Item (bs "add") (bs "function") (bs "do add(a, b int) -> int") (bs "adds"));
   Plain (bs "    return a + b"); Plain (bs "}");
   Documented (bs "#doc(""says ""hi"""")") (bs "says ""hi""") [] (Block (bs "struct") (bs "const P struct {") [bs "    x int"; bs "}"])
     (Item (bs "P") (bs "struct") (text [bs "const P struct {"; bs "    x int"; bs "}"]) (bs "says ""hi"""))].
Lemma plain_line (l : bytes) x m : l = x :: m -> visible x -> visible (last l 0) -> core l l.
Proof. intros -> A B. exists [], []. split; [cbn [app]; now rewrite app_nil_r|]. split; [constructor|]. split; [constructor|]. now exists x, m. Qed.
Example docs_applies : Forall chunk_ok sample /\ Forall (fun l => one_line l /\ ~ In 13 l /\ Z.of_nat (length l) < 65536) (flat_map chunk_lines sample) /\
  map iname (collect_docs (text (flat_map chunk_lines sample ++ [[]]))) = [bs "add"; bs "P"].
Proof.
  assert (V : forall x, (33 <=? x) && (x <=? 126) = true -> visible x) by (unfold visible; intros; lia).
  assert (K : forall (l : bytes) x m, l = x :: m -> (33 <=? x) && (x <=? 126) = true -> (33 <=? last l 0) && (last l 0 <=? 126) = true -> core l l)
    by (intros l x m E A B; eapply plain_line; [exact E|apply V; exact A|apply V; exact B]).
  split; [|split; [|reflexivity]].
  - repeat apply Forall_cons; [..|apply Forall_nil].
    + right. exists (bs "import @std"). split; [eapply K; reflexivity|]. intros r H. discriminate H.
    + left. constructor.
    + split; [eapply K; reflexivity|]. split; [discriminate|]. split; [repeat constructor|]. split; [|reflexivity].
      apply (fun_declares _ (bs "do add(a, b int) -> int {") (bs "do ") (bs "add") (bs "a, b int) -> int") (bs " {")).
      * eapply K; reflexivity.
      * now left.
      * reflexivity.
      * vm_compute. intuition discriminate.
      * eapply K; reflexivity.
      * vm_compute. intuition discriminate.
      * eapply K; reflexivity.
      * right. exists [32], []. split; [reflexivity|]. constructor; [now right|constructor].
    + right. exists (bs "return a + b"). split; [|intros r H; discriminate H]. exists (bs "    "), []. split; [reflexivity|]. split; [repeat (constructor; [now right|]); constructor|]. split; [constructor|].
      eexists _, _. split; [reflexivity|]. split; apply V; reflexivity.
    + right. exists (bs "}"). split; [eapply K; reflexivity|]. intros r H. discriminate H.
    + split; [eapply K; reflexivity|]. split; [discriminate|]. split; [constructor|]. split; [|reflexivity].
      apply (block_declares (bs "struct") (bs "const P struct {") [bs "    x int"; bs "}"] (bs "const P struct {") (bs "P") (bs "{")).
      * eapply K; reflexivity.
      * now left.
      * reflexivity.
      * constructor; [apply V; reflexivity|constructor].
      * discriminate.
      * intros H. discriminate H.
      * right. split; [discriminate|]. split; [vm_compute; discriminate|]. intros a b E A B.
        destruct a as [|x a]; [congruence|]. injection E as <- E. destruct a as [|y a]; [reflexivity|]. injection E as <- E. destruct a as [|z a]; [reflexivity|].
        injection E as <- E. destruct a; [cbn in E; congruence|discriminate].
  - assert (G : forallb (fun l => negb (mem 10 l) && negb (mem 13 l) && (Z.of_nat (length l) <? 65536)) (flat_map chunk_lines sample) = true) by (vm_compute; reflexivity).
    rewrite forallb_forall in G. apply Forall_forall. intros l H. specialize (G l H). unfold one_line, nl. rewrite <- !mem_iff.
    destruct (mem 10 l), (mem 13 l); cbn [negb andb] in G; try discriminate. split; [discriminate|]. split; [discriminate|lia].
Qed.

(** ** C49 *)
(** Once the watcher has nothing left to do, a rebuild was started at least 100 ms after every change. *)
Theorem last_change_partial w : wruns watch_start w -> events w = [] -> timer w = None ->
  forall a, In a (happened w) -> exists s, In s (starts w) /\ a + 100 <= s.
Proof.
  intros R E T a A. destruct (winv_runs w R) as (I1 & I2 & _ & _). destruct (I1 a A) as [H | (d & D & L)]; [rewrite E in H; destruct H|].
  destruct (I2 d D) as [(k & K & _) | (s & S & L')]; [congruence|]. exists s. split; [exact S|lia].
Qed.
(** ... and after the first run of the program has ended it can always get there. *)
Theorem last_change_reached w : wruns watch_start w -> running_first w = false ->
  exists w', wruns w w' /\ events w' = [] /\ timer w' = None /\ happened w' = happened w.
Proof. intros _. apply drain. Qed.
(** Changes handled less than 100 ms after each other start exactly one rebuild, 100 ms or more after the last. *)
Theorem burst_once_partial w : wruns watch_start w -> events w = [] -> timer w = None -> happened w <> [] -> close (handled w) ->
  exists s, starts w = [s] /\ forall a, In a (happened w) -> a + 100 <= s.
Proof.
  intros R E T H C. pose proof (last_change_partial w R E T) as A. pose proof (cinv_runs w R C) as I. destruct (handled w) as [|d l].
  - destruct I as (_ & I). destruct (happened w) as [|a h]; [congruence|]. destruct (A a (or_introl eq_refl)) as (s & S & _). rewrite I in S. destruct S.
  - destruct I as [(I & _) | (_ & s & I & _)]; [congruence|]. exists s. split; [exact I|]. intros a K. destruct (A a K) as (s' & S & L).
    rewrite I in S. destruct S as [<-|[]]. exact L.
Qed.
(** While the first run of the program goes on nothing is rebuilt, however long ago the change. *)
Theorem watch_blocked_refuted :
  (forall w, wruns watch_start w -> running_first w = true -> starts w = []) /\
  (forall t, exists w, wruns watch_start w /\ happened w = [0] /\ t <= now w /\ starts w = []).
Proof.
  split.
  - intros w R F. destruct (winv_runs w R) as (_ & _ & _ & I). now apply I.
  - intros t. exists (Watch (Z.max 0 t) true [0] None [0] [] []). split; [|cbn; repeat split; lia].
    eapply wruns_step; [eapply wruns_step; [apply wruns_here|apply t_event]|]. apply t_wait. lia.
Qed.
(** Two changes 50 ms apart can start two rebuilds, if the second is received after the timer has run out. *)
Theorem burst_refuted : exists w, wruns watch_start w /\ happened w = [50; 0] /\ close (happened w) /\ starts w = [200; 100].
Proof.
  exists (Watch 200 false [] None [50; 0] [100; 0] [200; 100]). split; [|cbn; repeat split; lia].
  eapply wruns_step; [|apply (t_fire 200 false [] 200); lia]. eapply wruns_step; [|apply (t_wait 100); lia]. eapply wruns_step; [|apply (t_handle 100 50)].
  eapply wruns_step; [|apply (t_fire 100 false [50] 100); lia]. eapply wruns_step; [|apply (t_wait 50); lia]. eapply wruns_step; [|apply (t_event 50 false [])].
  eapply wruns_step; [|apply (t_wait 0); lia]. eapply wruns_step; [|apply (t_handle 0 0)]. eapply wruns_step; [|apply (t_event 0 false [])].
  eapply wruns_step; [|apply t_first]. apply wruns_here.
Qed.
Example watch_run : exists w, wruns watch_start w /\ events w = [] /\ timer w = None /\ happened w = [50; 0] /\ handled w = [50; 0] /\ close (handled w) /\ starts w = [150].
Proof.
  exists (Watch 150 false [] None [50; 0] [50; 0] [150]). split; [|cbn; repeat split; lia].
  eapply wruns_step; [|apply (t_fire 150 false [] 150); lia]. eapply wruns_step; [|apply (t_wait 50); lia]. eapply wruns_step; [|apply (t_handle 50 50)].
  eapply wruns_step; [|apply (t_event 50 false [])].
  eapply wruns_step; [|apply (t_wait 0); lia]. eapply wruns_step; [|apply (t_handle 0 0)]. eapply wruns_step; [|apply (t_event 0 false [])].
  eapply wruns_step; [|apply t_first]. apply wruns_here.
Qed.

(** ** C50 *)
(** With lines shorter than 64 KiB: a file is picked exactly when it is the only .gray file of the tree with such a line. *)
Theorem entry_file_partial ks p : tree_ok ks -> (forall q c, file_in ks q c -> short_lines c) ->
  find_main ks = Some p <-> entry_file ks p /\ forall q, entry_file ks q -> q = p.
Proof. apply find_main_iff. Qed.
(** A longer line hides everything after it. *)
Theorem entry_file_refuted l : one_line l -> 65536 <= Z.of_nat (length l) -> exists ks, tree_ok ks /\ find_main ks = None /\
  entry_file ks [bs "main.gray"] /\ forall q, entry_file ks q -> q = [bs "main.gray"].
Proof.
  intros O L. set (c := l ++ nl :: bs "do main() {" ++ nl :: bs "}"). exists [Leaf (bs "main.gray") c]. split.
  { constructor; [constructor; [intros []|constructor]|]. intros m ks [H|[]]. discriminate. }
  split.
  { unfold find_main. cbn [flat_map gray_files]. change (has_suffix (bs "main.gray") (bs ".gray")) with true. cbn iota. cbn [app filter snd].
    unfold has_main, file_lines, c. unfold nl at 1. rewrite split_app by exact O.
    destruct (split_on 10 (bs "do main() {" ++ nl :: bs "}")) as [|m r] eqn:E; [discriminate|]. cbn [scan_lines]. destruct (Z.leb_spec 65536 (Z.of_nat (length l))); [reflexivity|lia]. }
  split.
  - exists c. split; [apply in_leaf; now left|]. split; [exists (bs "main"); reflexivity|].
    exists [l], (bs "do main() {"), [bs "}"], [], (bs ") {"). split; [reflexivity|]. split.
    + constructor; [exact O|]. constructor; [vm_compute; intuition discriminate|]. constructor; [vm_compute; intuition discriminate|constructor].
    + split; [reflexivity|]. exists []. split; [reflexivity|intros x []].
  - intros q (d & F & _). inversion F as [ns n e I|ns n e q' d' I]; subst; destruct I as [I|[]]; [now injection I as <- _|discriminate].
Qed.
Example entry_run : let ks := [Dir (bs "lib") [Leaf (bs "a.gray") (bs "do helper() {}")]; Leaf (bs "notes.txt") (bs "do main("); Leaf (bs "m.gray") (text [bs "import @std"; 9 :: bs "do main() {"])] in
  tree_ok ks /\ find_main ks = Some [bs "m.gray"].
Proof.
  split; [|reflexivity]. constructor.
  - repeat constructor; vm_compute; intuition discriminate.
  - intros m k [H|[H|[H|[]]]]; try discriminate. injection H as <- <-. constructor; [repeat constructor; intros []|]. intros m k [H|[]]. discriminate.
Qed.
Example long_line_exists : exists l, one_line l /\ 65536 <= Z.of_nat (length l).
Proof.
  exists (List.repeat 120 (Z.to_nat 65536)). split; [|rewrite repeat_length; lia]. intros H. apply repeat_spec in H. discriminate.
Qed.

Print Assumptions format_idempotent.
Print Assumptions format_content.
Print Assumptions project_name_partial.
Print Assumptions project_name_inside.
Print Assumptions project_name_refuted.
Print Assumptions docs_partial.
Print Assumptions docs_refuted.
Print Assumptions last_change_partial.
Print Assumptions last_change_reached.
Print Assumptions burst_once_partial.
Print Assumptions watch_blocked_refuted.
Print Assumptions burst_refuted.
Print Assumptions entry_file_partial.
Print Assumptions entry_file_refuted.
