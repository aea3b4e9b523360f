(** Lemmas for CliProps: the text formatter, project names and the watcher. *)
From Verif Require Import Base BaseFacts SemverModel SemverProofs InstallSpec InstallModel InstallProofs InstallProofs2 CliSpec CliModel.

(** ** C45 *)
Lemma blank_iff c : is_blank c = true <-> blank c.
Proof. unfold is_blank, blank. lia. Qed.
Lemma lead_spec l : exists ws q, l = ws ++ q /\ Forall blank ws /\ lead l = (expand ws, q) /\ (q = [] \/ ~ blank (hd 0 q)).
Proof.
  induction l as [|c l (ws & q & E & B & L & N)]; cbn [lead].
  - exists [], []. auto.
  - destruct (is_blank c) eqn:K.
    + exists (c :: ws), q. rewrite L, E. split; [reflexivity|]. split; [constructor; [now apply blank_iff|exact B]|]. split; [|exact N].
      cbn [expand flat_map]. now destruct (c =? 9).
    + exists [], (c :: l). split; [reflexivity|]. split; [constructor|]. split; [reflexivity|]. right. cbn [hd]. rewrite <- blank_iff. congruence.
Qed.
Lemma drop_blanks_spec r : exists t, r = t ++ drop_blanks r /\ Forall blank t /\ (drop_blanks r = [] \/ ~ blank (hd 0 (drop_blanks r))).
Proof.
  induction r as [|c r (t & E & B & N)]; cbn [drop_blanks].
  - exists []. auto.
  - destruct (is_blank c) eqn:K.
    + exists (c :: t). split; [cbn [app]; now rewrite <- E|]. split; [constructor; [now apply blank_iff|exact B]|exact N].
    + exists []. split; [reflexivity|]. split; [constructor|]. right. cbn [hd]. rewrite <- blank_iff. congruence.
Qed.
Lemma last_rev_hd (l : bytes) : last (rev l) 0 = hd 0 l.
Proof. destruct l; [reflexivity|]. cbn [rev hd]. apply last_last. Qed.
Lemma trim_right_spec s : exists t, s = trim_right s ++ t /\ Forall blank t /\ (trim_right s = [] \/ ~ blank (last (trim_right s) 0)).
Proof.
  unfold trim_right. destruct (drop_blanks_spec (rev s)) as (t & E & B & N). exists (rev t). split.
  - rewrite <- rev_app_distr, <- E. now rewrite rev_involutive.
  - split; [now apply Forall_rev|]. rewrite last_rev_hd. destruct N as [-> | N]; [now left|now right].
Qed.
Lemma trim_right_hd s : s <> [] -> ~ blank (hd 0 s) -> trim_right s <> [] /\ hd 0 (trim_right s) = hd 0 s.
Proof.
  intros N B. destruct (trim_right_spec s) as (t & E & T & _). destruct (trim_right s) as [|c r].
  - cbn [app] in E. subst t. destruct s as [|c s]; [congruence|]. inversion T; subst. now elim B.
  - rewrite E. split; [discriminate|reflexivity].
Qed.
Lemma fmt_tidied l : tidied l (fmt_line l).
Proof.
  unfold fmt_line. destruct (lead_spec l) as (ws & q & E & B & -> & N). destruct (trim_right_spec q) as (t & F & T & M).
  exists ws, (trim_right q), t. rewrite <- F. split; [exact E|]. split; [exact B|]. split; [exact T|]. split; [reflexivity|].
  destruct N as [-> | N].
  - left. split; [reflexivity|]. cbn in F. now rewrite F.
  - destruct q as [|c q]; [left; split; [reflexivity|cbn in F; now rewrite F]|].
    right. destruct (trim_right_hd (c :: q) ltac:(discriminate) N) as (K & L). split; [exact K|]. split; [now rewrite L|].
    destruct M as [M | M]; [congruence|exact M].
Qed.
Lemma expand_app a b : expand (a ++ b) = expand a ++ expand b.
Proof. apply flat_map_app. Qed.
Lemma expand_expand ws : expand (expand ws) = expand ws.
Proof.
  induction ws as [|c ws IH]; [reflexivity|]. change (expand (c :: ws)) with ((if c =? 9 then bs "    " else [32]) ++ expand ws).
  rewrite expand_app, IH. now destruct (c =? 9).
Qed.
Lemma expand_blank ws : Forall blank (expand ws).
Proof.
  apply Forall_forall. intros x H. apply in_flat_map in H. destruct H as (c & _ & H). right. destruct (c =? 9); cbn in H; intuition.
Qed.
Lemma lead_app ws q : Forall blank ws -> (q = [] \/ ~ blank (hd 0 q)) -> lead (ws ++ q) = (expand ws, q).
Proof.
  intros B N. induction B as [|c ws H _ IH].
  - cbn [app expand flat_map]. destruct q as [|c q]; [reflexivity|]. cbn [lead]. destruct (is_blank c) eqn:K; [|reflexivity].
    apply blank_iff in K. destruct N as [N | N]; [discriminate|now elim N].
  - cbn [app lead]. apply blank_iff in H. rewrite H, IH. cbn [expand flat_map]. now destruct (c =? 9).
Qed.
Lemma drop_blanks_id r : r = [] \/ ~ blank (hd 0 r) -> drop_blanks r = r.
Proof.
  intros [-> | N]; [reflexivity|]. destruct r as [|c r]; [reflexivity|]. cbn [drop_blanks hd] in *. destruct (is_blank c) eqn:K; [|reflexivity].
  now apply blank_iff in K.
Qed.
Lemma trim_right_id s : s = [] \/ ~ blank (last s 0) -> trim_right s = s.
Proof.
  intros N. unfold trim_right. rewrite drop_blanks_id; [apply rev_involutive|]. destruct N as [-> | N]; [now left|]. right.
  now rewrite <- last_rev_hd, rev_involutive.
Qed.
Lemma tidied_fix l m : tidied l m -> fmt_line m = m.
Proof.
  intros (ws & body & tail & _ & _ & _ & -> & C). unfold fmt_line. rewrite lead_app.
  - rewrite trim_right_id, expand_expand; [reflexivity|]. destruct C as [(-> & _) | (_ & _ & C)]; [now left|now right].
  - apply expand_blank.
  - destruct C as [(-> & _) | (_ & C & _)]; [now left|now right].
Qed.
Lemma fmt_fix l : fmt_line (fmt_line l) = fmt_line l.
Proof. apply (tidied_fix l), fmt_tidied. Qed.

Definition capped (x : nat * bytes) : nat * bytes := (Nat.min (fst x) 2, snd x).
Lemma collapse_paragraphs ls : forall b, paragraphs (Nat.min b 2) (collapse b ls) = map capped (paragraphs b ls).
Proof.
  induction ls as [|l ls IH]; intros b; [reflexivity|]. destruct l as [|c l]; cbn [collapse paragraphs].
  - destruct (Nat.leb_spec (S b) 2).
    + cbn [paragraphs]. rewrite <- IH. f_equal. lia.
    + rewrite <- IH. f_equal. lia.
  - cbn [map]. rewrite <- (IH 0%nat). reflexivity.
Qed.
Lemma drop_empty_spec r : exists k, r = List.repeat [] k ++ drop_empty r /\ (drop_empty r = [] \/ hd [] (drop_empty r) <> []).
Proof.
  induction r as [|l r (k & E & N)].
  - exists 0%nat. auto.
  - destruct l as [|c l]; cbn [drop_empty].
    + exists (S k). split; [cbn; now rewrite <- E|exact N].
    + exists 0%nat. split; [reflexivity|right; discriminate].
Qed.
Lemma rev_repeat {A} (x : A) n : rev (List.repeat x n) = List.repeat x n.
Proof. induction n as [|n IH]; [reflexivity|]. cbn [List.repeat rev]. rewrite IH. symmetry. apply repeat_cons. Qed.
Lemma last_rev_hd' (l : list bytes) : last (rev l) [] = hd [] l.
Proof. destruct l; [reflexivity|]. cbn [rev hd]. apply last_last. Qed.
Lemma strip_spec ls : exists k, ls = strip_end ls ++ List.repeat [] k /\ (strip_end ls = [] \/ last (strip_end ls) [] <> []).
Proof.
  unfold strip_end. destruct (drop_empty_spec (rev ls)) as (k & E & N). exists k. split.
  - rewrite <- (rev_repeat _ k), <- rev_app_distr, <- E. now rewrite rev_involutive.
  - rewrite last_rev_hd'. destruct N as [-> | N]; [now left|now right].
Qed.
Lemma paragraphs_tail ls k : forall n, paragraphs n (ls ++ List.repeat [] k) = paragraphs n ls.
Proof.
  induction ls as [|l ls IH]; intros n.
  - cbn [app]. revert n. induction k as [|k IH]; intros n; [reflexivity|]. exact (IH (S n)).
  - cbn [app]. destruct l; cbn [paragraphs]; now rewrite IH.
Qed.
Lemma strip_snoc ls : strip_end (ls ++ [[]]) = strip_end ls.
Proof. unfold strip_end. now rewrite rev_app_distr. Qed.
Lemma strip_id ls : ls = [] \/ last ls [] <> [] -> strip_end ls = ls.
Proof.
  intros N. unfold strip_end. assert (D : drop_empty (rev ls) = rev ls).
  { destruct N as [-> | N]; [reflexivity|]. rewrite <- (rev_involutive ls), last_rev_hd' in N. destruct (rev ls) as [|l r]; [reflexivity|].
    destruct l; [now elim N|reflexivity]. }
  apply (f_equal (@rev bytes)) in D. rewrite rev_involutive in D. exact D.
Qed.
Lemma collapse_le ls : forall b, (length (collapse b ls) <= length ls)%nat.
Proof.
  induction ls as [|l ls IH]; intros b; [reflexivity|]. destruct l; cbn [collapse]; [destruct (S b <=? 2)%nat|]; cbn [length].
  - specialize (IH (S b)). lia.
  - specialize (IH (S b)). lia.
  - specialize (IH 0%nat). lia.
Qed.
Lemma collapse_twice ls : forall b b', (b <= b')%nat -> collapse b (collapse b' ls) = collapse b' ls.
Proof.
  induction ls as [|l ls IH]; intros b b' L; [reflexivity|]. destruct l as [|c l]; cbn [collapse].
  - destruct (Nat.leb_spec (S b') 2).
    + cbn [collapse]. destruct (Nat.leb_spec (S b) 2); [|lia]. now rewrite IH by lia.
    + apply IH. lia.
  - cbn [collapse]. now rewrite IH.
Qed.
Lemma collapse_prefix x y : forall b, collapse b (x ++ y) = x ++ y -> collapse b x = x.
Proof.
  induction x as [|l x IH]; intros b; [reflexivity|]. destruct l as [|c l]; cbn [app collapse].
  - destruct (Nat.leb_spec (S b) 2).
    + intros E. assert (E' : collapse (S b) (x ++ y) = x ++ y) by congruence. now rewrite (IH _ E').
    + intros E. pose proof (collapse_le (x ++ y) (S b)) as K. rewrite E in K. cbn [length] in K. lia.
  - intros E. assert (E' : collapse 0 (x ++ y) = x ++ y) by congruence. now rewrite (IH _ E').
Qed.
Lemma collapse_snoc x : forall b, collapse b (x ++ [[]]) = collapse b x \/ collapse b (x ++ [[]]) = collapse b x ++ [[]].
Proof.
  induction x as [|l x IH]; intros b.
  - cbn [app]. change (collapse b [[]]) with (if (S b <=? 2)%nat then [[]] else @nil bytes). destruct (S b <=? 2)%nat; [now right|now left].
  - cbn [app]. destruct l as [|c l]; cbn [collapse].
    + destruct (S b <=? 2)%nat; [|apply IH]. destruct (IH (S b)) as [-> | ->]; [now left|now right].
    + destruct (IH 0%nat) as [-> | ->]; [now left|now right].
Qed.
Lemma collapse_in ls x : forall b, In x (collapse b ls) -> In x ls.
Proof.
  induction ls as [|l ls IH]; intros b; [auto|]. destruct l as [|c l]; cbn [collapse].
  - destruct (S b <=? 2)%nat; [intros [H|H]|intros H]; [now left| |]; right; eapply IH; exact H.
  - intros [H|H]; [now left|right; eapply IH; exact H].
Qed.
Lemma strip_in ls x : In x (strip_end ls) -> In x ls.
Proof. intros H. destruct (strip_spec ls) as (k & E & _). rewrite E. apply in_or_app. now left. Qed.
Definition fmt_lines (ls : list bytes) : list bytes := strip_end (collapse 0 (map fmt_line ls)).
Lemma fmt_lines_snoc ls : fmt_lines (ls ++ [[]]) = fmt_lines ls.
Proof.
  assert (E : fmt_lines (ls ++ [[]]) = strip_end (collapse 0 (map fmt_line ls ++ [[]]))) by (unfold fmt_lines; now rewrite map_app).
  rewrite E. destruct (collapse_snoc (map fmt_line ls) 0) as [K | K]; [exact (f_equal strip_end K)|].
  exact (eq_trans (f_equal strip_end K) (strip_snoc _)).
Qed.
Lemma fmt_lines_fix ls : fmt_lines (fmt_lines ls) = fmt_lines ls.
Proof.
  unfold fmt_lines at 1. assert (M : map fmt_line (fmt_lines ls) = fmt_lines ls).
  { rewrite <- (map_id (fmt_lines ls)) at 2. apply map_ext_in. intros l H. apply strip_in, collapse_in, in_map_iff in H.
    destruct H as (k & <- & _). apply fmt_fix. }
  rewrite M. unfold fmt_lines. destruct (strip_spec (collapse 0 (map fmt_line ls))) as (k & E & N).
  rewrite (collapse_prefix _ (List.repeat [] k)); [now apply strip_id|]. rewrite <- E. apply collapse_twice. lia.
Qed.
Lemma join_text ls : join_lines ls = text ls.
Proof. induction ls as [|l ls IH]; [reflexivity|]. destruct ls; [reflexivity|]. cbn [join_lines text] in *. now rewrite IH. Qed.
Lemma text_snoc ls : ls <> [] -> text ls ++ [nl] = text (ls ++ [[]]).
Proof.
  induction ls as [|l ls IH]; [congruence|]. intros _. destruct ls as [|m ls].
  - reflexivity.
  - change (text (l :: m :: ls)) with (l ++ nl :: text (m :: ls)). change (text ((l :: m :: ls) ++ [[]])) with (l ++ nl :: text ((m :: ls) ++ [[]])).
    rewrite <- app_assoc. exact (f_equal (fun x => l ++ nl :: x) (IH ltac:(discriminate))).
Qed.
Lemma split_text ls : ls <> [] -> Forall one_line ls -> split_on 10 (text ls) = ls.
Proof.
  induction ls as [|l ls IH]; [congruence|]. intros _ F. inversion F as [|? ? O F']; subst. destruct ls as [|m ls].
  - now apply split_none.
  - cbn [text]. unfold nl. rewrite split_app by exact O. f_equal. apply IH; [discriminate|exact F'].
Qed.
Lemma text_split s : text (split_on 10 s) = s /\ Forall one_line (split_on 10 s) /\ split_on 10 s <> [].
Proof.
  induction s as [|c s (E & F & N)]; cbn [split_on].
  - split; [reflexivity|]. split; [constructor; [intros []|constructor]|discriminate].
  - destruct (Z.eqb_spec c 10) as [->|K].
    + split; [|split; [constructor; [intros []|exact F]|discriminate]]. destruct (split_on 10 s) as [|f r]; [congruence|].
      exact (f_equal (cons nl) E).
    + destruct (split_on 10 s) as [|f r]; [congruence|]. inversion F as [|? ? O F']; subst. split; [|split; [|discriminate]].
      * destruct r; reflexivity.
      * constructor; [|exact F']. intros [H|H]; [unfold nl in H; congruence|now apply O].
Qed.
Lemma tidied_one l m : tidied l m -> one_line l -> one_line m.
Proof.
  intros (ws & body & tail & -> & _ & _ & -> & _) O H. apply in_app_or in H. destruct H as [H|H].
  - pose proof (expand_blank ws) as B. rewrite Forall_forall in B. destruct (B _ H); discriminate.
  - apply O, in_or_app. right. apply in_or_app. now left.
Qed.

(** ** C47 *)
Lemma mem_iff c s : mem c s = true <-> In c s.
Proof. unfold mem. rewrite existsb_exists. split; [intros (x & H & E); apply Z.eqb_eq in E; now subst|intros H; exists c; split; [exact H|apply Z.eqb_refl]]. Qed.
Lemma contains_iff p s : contains p s = true <-> occurs p s.
Proof.
  unfold occurs. induction s as [|c s IH]; cbn [contains]; rewrite orb_true_iff, has_prefix_iff.
  - split.
    + intros [(r & E) | H]; [exists [], r; exact E|discriminate].
    + intros (a & b & E). destruct a; [left; now exists b|discriminate].
  - rewrite IH. split.
    + intros [(r & E) | (a & b & E)]; [exists [], r; exact E|exists (c :: a), b; now rewrite E].
    + intros (a & b & E). destruct a as [|x a]; [left; now exists b|]. right. exists a, b. now injection E.
Qed.
Lemma clean_plain n : plain n -> ~ In 47 n -> clean n = n.
Proof.
  intros (P1 & P2 & P3) N. unfold clean. destruct n as [|c n]; [congruence|]. destruct (Z.eqb_spec c 47) as [->|K]; [elim N; now left|].
  rewrite split_none by exact N. cbn [clean_loop].
  destruct (beq (c :: n) []) eqn:E1; [apply beq_iff in E1; congruence|]. destruct (beq (c :: n) (bs ".")) eqn:E2; [apply beq_iff in E2; congruence|].
  destruct (beq (c :: n) (bs "..")) eqn:E3; [apply beq_iff in E3; congruence|]. cbn [orb rev app join_slash]. now rewrite E1.
Qed.
Lemma valid_iff n : valid_project_name n = true <->
  n <> [] /\ n <> bs "." /\ ~ In 47 n /\ ~ In 92 n /\ ~ occurs (bs "..") n /\ (forall r, n <> 126 :: r).
Proof.
  assert (P : forall c, has_prefix n [c] = true <-> exists r, n = c :: r) by (intros c; now rewrite has_prefix_iff).
  unfold valid_project_name. split.
  - destruct (beq n []) eqn:E1; [discriminate|]. destruct (has_prefix n [47] || has_prefix n [126]) eqn:E2; [discriminate|].
    destruct (mem 47 n || mem 92 n || contains (bs "..") n) eqn:E3; [discriminate|].
    apply orb_false_iff in E2, E3. destruct E2 as (E2a & E2b), E3 as (E3 & E3c). apply orb_false_iff in E3. destruct E3 as (E3a & E3b).
    intros H. rewrite !andb_true_iff, !negb_true_iff in H. destruct H as ((H1 & H2) & _). apply beq_iff in H1. rewrite H1 in H2.
    split; [intros ->; discriminate E1|]. split; [intros ->; discriminate H2|].
    rewrite <- !mem_iff, <- contains_iff. split; [congruence|]. split; [congruence|]. split; [congruence|].
    intros r R. assert (X : has_prefix n [126] = true) by (apply P; now exists r). congruence.
  - intros (A & B & C & D & E & F).
    assert (PL : plain n) by (split; [exact A|]; split; [exact B|]; intros ->; apply E; exists [], []; reflexivity).
    rewrite (clean_plain n PL C). destruct (beq n []) eqn:E1; [apply beq_iff in E1; congruence|].
    destruct (has_prefix n [47]) eqn:E2. { apply P in E2. destruct E2 as (r & ->). elim C. now left. }
    destruct (has_prefix n [126]) eqn:E2b. { apply P in E2b. destruct E2b as (r & ->). now elim (F r). }
    destruct (mem 47 n) eqn:E3; [now apply mem_iff in E3|]. destruct (mem 92 n) eqn:E4; [now apply mem_iff in E4|].
    destruct (contains (bs "..") n) eqn:E5; [now apply contains_iff in E5|]. cbn [orb]. rewrite beq_refl.
    destruct (beq n (bs ".")) eqn:E6; [apply beq_iff in E6; congruence|]. destruct (beq n (bs "..")) eqn:E7; [|reflexivity].
    apply beq_iff in E7. destruct PL as (_ & _ & PL). congruence.
Qed.

(** ** C49 *)
Definition winv (w : watch) : Prop :=
  (forall a, In a (happened w) -> In a (events w) \/ exists d, In d (handled w) /\ a <= d) /\
  (forall d, In d (handled w) -> (exists k, timer w = Some k /\ d + 100 <= k) \/ exists s, In s (starts w) /\ d + 100 <= s) /\
  (forall d, In d (happened w) \/ In d (handled w) \/ In d (starts w) \/ In d (events w) -> d <= now w) /\
  (running_first w = true -> timer w = None /\ starts w = []).
Lemma winv_runs w : wruns watch_start w -> winv w.
Proof.
  induction 1 as [|u v _ IH S].
  - split; [intros a []|]. split; [intros d []|]. split; [intros d [[]|[[]|[[]|[]]]]|now split].
  - destruct IH as (A & B & C & D). destruct S; cbn [now running_first events timer happened handled starts] in *.
    + split; [exact A|]. split; [exact B|]. split; [|exact D]. intros x X. specialize (C x X). cbn [now] in *. lia.
    + split; [|split; [exact B|split; [|exact D]]]; cbn [now running_first events timer happened handled starts].
      * intros a [<-|H]; [left; apply in_or_app; right; now left|]. destruct (A a H) as [H' | H']; [left; apply in_or_app; now left|now right].
      * intros x [[<-|X]|[X|[X|X]]]; [lia|apply C; auto..|]. apply in_app_or in X. destruct X as [X|[<-|[]]]; [apply C; auto|lia].
    + split; [exact A|]. split; [exact B|]. split; [exact C|discriminate].
    + split; [|split; [|split; [|discriminate]]]; cbn [now running_first events timer happened handled starts].
      * intros x H. destruct (A x H) as [[<-|H'] | (y & H' & L)]; [right; exists n; split; [now left|apply C; auto]|now left|right; exists y; split; [now right|exact L]].
      * intros x [<-|H]; [left; exists (n + 100); split; [reflexivity|lia]|]. left. exists (n + 100). split; [reflexivity|]. specialize (C x (or_intror (or_introl H))). lia.
      * intros x [X|[[<-|X]|[X|X]]]; [apply C; auto|lia|apply C; auto|apply C; auto|apply C; right; right; right; now right].
    + split; [exact A|]. split; [|split]; cbn [now running_first events timer happened handled starts].
      * intros x X. right. destruct (B x X) as [(j & E & L) | (y & Y & L)].
        -- injection E as <-. exists n. split; [now left|lia].
        -- exists y. split; [now right|exact L].
      * intros x [X|[X|[[<-|X]|X]]]; [apply C; auto|apply C; auto|lia|apply C; auto|apply C; auto].
      * intros R. destruct (D R) as (X & _). discriminate.
Qed.
Definition cinv (w : watch) : Prop := close (handled w) ->
  match handled w with
  | [] => timer w = None /\ starts w = []
  | d :: _ => (timer w = Some (d + 100) /\ starts w = []) \/ (timer w = None /\ exists s, starts w = [s] /\ d + 100 <= s)
  end.
Lemma cinv_runs w : wruns watch_start w -> cinv w.
Proof.
  induction 1 as [|u v R IH S].
  - now split.
  - pose proof (winv_runs _ R) as (_ & _ & C & _). unfold cinv in *. destruct S; cbn [now running_first events timer happened handled starts] in *; try exact IH.
    + intros K. left. split; [reflexivity|]. destruct d as [|d0 d]; [now apply IH|]. cbn [close] in K. destruct K as (K1 & K2).
      destruct (IH K2) as [(_ & E) | (_ & x & E & L)]; [exact E|]. specialize (C x). rewrite E in C. specialize (C (or_intror (or_intror (or_introl (or_introl eq_refl))))). lia.
    + intros K. specialize (IH K). destruct d as [|d0 d]; [destruct IH; discriminate|]. right. split; [reflexivity|].
      destruct IH as [(E & E') | (E & _)]; [|discriminate]. injection E as ->. exists n. split; [now rewrite E'|lia].
Qed.
Lemma wruns_trans a b c : wruns a b -> wruns b c -> wruns a c.
Proof. intros H. induction 1; [exact H|]. econstructor; eassumption. Qed.
Lemma drain w : running_first w = false -> exists w', wruns w w' /\ events w' = [] /\ timer w' = None /\ happened w' = happened w.
Proof.
  destruct w as [n r e t h d s]. cbn [running_first]. intros ->. revert t d. induction e as [|a e IH]; intros t d.
  - destruct t as [k|].
    + exists (Watch (Z.max n k) false [] None h d (Z.max n k :: s)). split; [|now repeat split].
      eapply wruns_step; [eapply wruns_step; [apply wruns_here|apply (t_wait _ _ _ _ _ _ _ (Z.max n k)); lia]|]. apply t_fire. lia.
    + exists (Watch n false [] None h d s). split; [apply wruns_here|now repeat split].
  - destruct (IH (Some (n + 100)) (n :: d)) as (w' & R & E). exists w'. split; [|exact E]. eapply wruns_trans; [|exact R].
    eapply wruns_step; [apply wruns_here|apply t_handle].
Qed.
