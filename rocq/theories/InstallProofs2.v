(** Lemmas for InstallProps: paths. *)
From Verif Require Import Base BaseFacts SemverModel SemverProofs InstallSpec InstallModel InstallProofs.

Lemma same_name_iff a b : same_name a b = true <-> a = b.
Proof. unfold same_name. destruct (list_eq_dec Z.eq_dec a b); split; congruence. Qed.
Lemma beq_same a b : beq a b = same_name a b.
Proof. apply eq_true_iff_eq. now rewrite beq_iff, same_name_iff. Qed.
Lemma parts_split s : parts s = split_on 47 s.
Proof. induction s as [|c s IH]; cbn [parts split_on]; [reflexivity|]. now rewrite IH. Qed.
Lemma parts_nonempty s : parts s <> [].
Proof. rewrite parts_split. apply split_nonempty. Qed.
Lemma parts_one s : ~ In 47 s -> parts s = [s].
Proof. rewrite parts_split. apply split_none. Qed.
Lemma parts_app a b : parts (a ++ 47 :: b) = parts a ++ parts b.
Proof.
  induction a as [|c a IH]; cbn [app parts]; [reflexivity|]. destruct (c =? 47); [now rewrite IH|]. rewrite IH.
  destruct (parts a) as [|f r] eqn:E; [now apply parts_nonempty in E|reflexivity].
Qed.
Lemma parts_no s x : In x (parts s) -> ~ In 47 x.
Proof.
  revert x. induction s as [|c s IH]; intros x; cbn [parts].
  - intros [<-|[]]. intros [].
  - destruct (Z.eqb_spec c 47) as [->|N]; [intros [<-|H]; [intros []|auto]|].
    destruct (parts s) as [|f r]; [intros [<-|[]]; intros [K|[]]; congruence|].
    intros [<-|H]; [|apply IH; now right]. intros [K|K]; [congruence|]. now apply (IH f (or_introl eq_refl)).
Qed.

Lemma walk_app st a b : walk st (a ++ b) = walk (walk st a) b.
Proof. apply fold_left_app. Qed.
Lemma walk_cons st x l : walk st (x :: l) = walk (go st x) l.
Proof. reflexivity. Qed.
Definition plain (x : bytes) : Prop := x <> [] /\ x <> bs "." /\ x <> bs "..".
Lemma go_plain st x : plain x -> go st x = st ++ [x].
Proof.
  intros (A & B & C). unfold go. destruct (same_name x []) eqn:E1; [apply same_name_iff in E1; now elim A|].
  destruct (same_name x (bs ".")) eqn:E2; [apply same_name_iff in E2; now elim B|].
  destruct (same_name x (bs "..")) eqn:E3; [apply same_name_iff in E3; now elim C|]. reflexivity.
Qed.
Lemma walk_plain l : forall st, Forall plain l -> walk st l = st ++ l.
Proof.
  induction l as [|x l IH]; intros st F; [cbn; now rewrite app_nil_r|]. inversion F; subst. rewrite walk_cons, go_plain, IH by assumption. now rewrite <- app_assoc.
Qed.
Lemma walk_grows l : forall st, (forall x, In x l -> x <> bs "..") -> exists m, walk st l = st ++ m.
Proof.
  induction l as [|x l IH]; intros st H; [exists []; cbn; now rewrite app_nil_r|]. rewrite walk_cons.
  destruct (IH (go st x)) as (m & ->); [intros y I; apply H; now right|]. unfold go.
  destruct (same_name x [] || same_name x (bs ".")); [eauto|]. destruct (same_name x (bs "..")) eqn:E; [apply same_name_iff in E; now apply H in E; [|left]|].
  rewrite <- app_assoc. eauto.
Qed.

Lemma decodes_parts p d : decodes p d -> exists l, decoded_parts p l /\ ((forall x, In x l -> ~ In 47 x) -> parts d = l).
Proof.
  unfold decoded_parts. induction 1 as [|c s d N D (l & F & E)|h l0 x y s d Hh Hl D (l & F & E)].
  - exists [[]]. split; [constructor; constructor|reflexivity].
  - cbn [parts]. destruct (Z.eqb_spec c 47) as [->|N2].
    + exists ([] :: l). split; [constructor; [constructor|exact F]|]. intros K. rewrite E; [reflexivity|]. intros z I. apply K. now right.
    + destruct (parts s) as [|f r] eqn:P; [now apply parts_nonempty in P|]. inversion F as [|? f' ? r' Df Fr]; subst.
      exists ((c :: f') :: r'). split; [constructor; [now constructor|exact Fr]|]. intros K.
      rewrite E; [reflexivity|]. intros z [<-|I]; [|apply K; now right]. intros I. apply (K (c :: f') (or_introl eq_refl)). now right.
  - assert (NH : forall c v, hexv c = Some v -> c =? 47 = false).
    { intros c v H. destruct (Z.eqb_spec c 47) as [->|]; [discriminate|reflexivity]. }
    cbn [parts]. cbn [Z.eqb Pos.eqb]. rewrite (NH h x Hh), (NH l0 y Hl).
    destruct (parts s) as [|f r] eqn:P; [now apply parts_nonempty in P|]. inversion F as [|? f' ? r' Df Fr]; subst.
    exists ((16 * x + y :: f') :: r'). split; [constructor; [now constructor|exact Fr]|]. intros K.
    assert (16 * x + y <> 47) by (intros V; apply (K (16 * x + y :: f') (or_introl eq_refl)); now left).
    destruct (Z.eqb_spec (16 * x + y) 47); [easy|].
    rewrite E; [reflexivity|]. intros z [<-|I]; [|apply K; now right]. intros I. apply (K (16 * x + y :: f') (or_introl eq_refl)). now right.
Qed.

(** Clean *)
Lemma removelast_rev {A} (l : list A) : removelast (rev l) = rev (tl l).
Proof. destruct l as [|x l]; [reflexivity|]. cbn [rev tl]. apply removelast_last. Qed.
Lemma clean_rooted l : forall out, clean_loop true out 0 l = rev (walk (rev out) l).
Proof.
  induction l as [|e l IH]; intros out; cbn [clean_loop]; [cbn; now rewrite rev_involutive|]. rewrite walk_cons. unfold go. rewrite !beq_same.
  destruct (same_name e [] || same_name e (bs ".")); [apply IH|]. destruct (same_name e (bs "..")).
  - rewrite removelast_rev. destruct out as [|o out]; cbn [length Nat.ltb Nat.leb tl]; apply IH.
  - rewrite IH. reflexivity.
Qed.
Lemma walk_all_plain l : forall st, Forall plain st -> Forall plain (walk st l).
Proof.
  induction l as [|x l IH]; intros st F; [exact F|]. rewrite walk_cons. apply IH. unfold go.
  destruct (same_name x [] || same_name x (bs ".")) eqn:E1; [exact F|]. destruct (same_name x (bs "..")) eqn:E2.
  - destruct (rev_ind_len st) as [-> | (a & st' & ->)]; [constructor|]. rewrite removelast_last. now apply Forall_app in F.
  - apply Forall_app. split; [exact F|]. constructor; [|constructor]. apply orb_false_iff in E1 as (E0 & E1). repeat split; intros ->; discriminate.
Qed.
Lemma clean_relative l : forall out k, Forall plain out -> forall st,
  walk st (rev (clean_loop false (out ++ List.repeat (bs "..") k) k l)) = walk st (rev (out ++ List.repeat (bs "..") k) ++ l).
Proof.
  induction l as [|e l IH]; intros out k F st; cbn [clean_loop]; [now rewrite app_nil_r|]. rewrite !beq_same.
  destruct (same_name e [] || same_name e (bs ".")) eqn:E1.
  { rewrite IH by exact F. rewrite !walk_app, walk_cons. f_equal. unfold go. now rewrite E1. }
  destruct (same_name e (bs "..")) eqn:E2.
  - apply same_name_iff in E2. subst e. destruct out as [|o out].
    + cbn [app]. rewrite repeat_length, Nat.ltb_irrefl. change (bs ".." :: List.repeat (bs "..") k) with ([] ++ List.repeat (bs "..") (S k)). rewrite IH by constructor.
      cbn [app]. f_equal. cbn [List.repeat rev]. rewrite <- app_assoc. reflexivity.
    + cbn [app length]. rewrite app_length, repeat_length. destruct (Nat.ltb_spec k (S (length out + k))); [|lia]. cbn [tl].
      inversion F; subst. rewrite IH by assumption. cbn [rev]. rewrite <- !app_assoc, !(walk_app st). set (w := walk st (rev (out ++ List.repeat (bs "..") k))). clearbody w.
 cbn [app]. rewrite (walk_cons w o), (walk_cons _ (bs "..")), (go_plain w o) by assumption.
      change (go (w ++ [o]) (bs "..")) with (removelast (w ++ [o])). now rewrite removelast_last.
  - assert (P : plain e) by (apply orb_false_iff in E1 as (E0 & E1); repeat split; intros ->; discriminate).
    change (e :: out ++ List.repeat (bs "..") k) with ((e :: out) ++ List.repeat (bs "..") k). rewrite IH by now constructor.
    cbn [app rev]. now rewrite <- !app_assoc.
Qed.
Lemma clean_in rooted l : forall out dd x, In x (clean_loop rooted out dd l) -> In x out \/ (In x l /\ x <> []).
Proof.
  induction l as [|e l IH]; intros out dd x; cbn [clean_loop]; [auto|]. rewrite !beq_same. intros H.
  destruct (same_name e [] || same_name e (bs ".")) eqn:E1; [apply IH in H as [H|(H & N)]; [auto|right; split; [now right|exact N]]|].
  assert (NE : e <> []) by (intros ->; discriminate).
  assert (R : In x (e :: out) \/ In x l /\ x <> [] -> In x out \/ In x (e :: l) /\ x <> []).
  { intros [[<-|I]|(I & N)]; [right; split; [now left|exact NE]|auto|right; split; [now right|exact N]]. }
  apply R. destruct (same_name e (bs "..")).
  - destruct (Nat.ltb dd (length out)); [apply IH in H as [H|H]; [left; right; destruct out; [easy|now right]|auto]|].
    destruct rooted; apply IH in H as [H|H]; auto. left. now right.
  - apply IH in H as [H|H]; auto.
Qed.
Lemma join_slash_join l : join_slash l = SemverSpec.join 47 l.
Proof. induction l as [|e l IH]; [reflexivity|]. cbn [join_slash SemverSpec.join]. destruct l; [reflexivity|]. now rewrite IH. Qed.
Lemma parts_join l : l <> [] -> (forall x, In x l -> ~ In 47 x) -> parts (join_slash l) = l.
Proof. intros. rewrite parts_split, join_slash_join. now apply split_join. Qed.
Lemma join_snoc l x : l <> [] -> join_slash (l ++ [x]) = join_slash l ++ 47 :: x.
Proof.
  induction l as [|e l IH]; [easy|]. intros _. destruct l as [|f l]; [reflexivity|]. change (e ++ 47 :: join_slash ((f :: l) ++ [x]) = (e ++ 47 :: join_slash (f :: l)) ++ 47 :: x). rewrite IH by easy. now rewrite <- app_assoc.
Qed.
Lemma walk_in l : forall st x, In x (walk st l) -> In x st \/ In x l.
Proof.
  induction l as [|y l IH]; intros st x; [auto|]. rewrite walk_cons. intros H. apply IH in H as [H|H]; [|right; now right]. revert H. unfold go.
  destruct (same_name y [] || same_name y (bs ".")); [auto|]. destruct (same_name y (bs "..")).
  - intros H. left. destruct (rev_ind_len st) as [-> | (a & st' & ->)]; [easy|]. rewrite removelast_last in H. apply in_or_app. auto.
  - intros H. apply in_app_or in H as [H|[<-|[]]]; [auto|right; now left].
Qed.
Lemma resolve_rooted cwd s : resolve cwd (47 :: s) = walk [] (parts (47 :: s)).
Proof. reflexivity. Qed.
Lemma resolve_relative cwd p : (forall r, p <> 47 :: r) -> resolve cwd p = walk (walk [] (parts cwd)) (parts p).
Proof.
  intros H. destruct p as [|c p]; [reflexivity|]. destruct (Z.eq_dec c 47) as [->|N]; [now elim (H p)|]. unfold resolve.
  destruct c as [|c|c]; try reflexivity. repeat (destruct c as [c|c|]; try reflexivity). now elim N.
Qed.
Lemma clean_text_rooted s : clean (47 :: s) = 47 :: join_slash (walk [] (parts (47 :: s))).
Proof. unfold clean. cbn [Z.eqb Pos.eqb]. rewrite clean_rooted, rev_involutive, <- parts_split. reflexivity. Qed.
Lemma root_walk s : parts (47 :: join_slash (walk [] (parts s))) = [] :: (match walk [] (parts s) with [] => [[]] | w => w end).
Proof.
  cbn [parts Z.eqb Pos.eqb]. f_equal. destruct (walk [] (parts s)) as [|x w] eqn:E; [reflexivity|]. apply parts_join; [easy|]. rewrite <- E. intros y I.
  apply walk_in in I as [[]|I]. now apply parts_no in I.
Qed.
Lemma resolve_clean cwd p : resolve cwd (clean p) = resolve cwd p.
Proof.
  destruct p as [|c s]; [reflexivity|]. destruct (Z.eq_dec c 47) as [->|N].
  - rewrite clean_text_rooted, !resolve_rooted, root_walk, walk_cons. change (go [] []) with (@nil bytes).
    pose proof (walk_all_plain (parts (47 :: s)) [] (Forall_nil _)) as F. destruct (walk [] (parts (47 :: s))) as [|x w] eqn:E; [reflexivity|]. now rewrite walk_plain.
  - rewrite (resolve_relative cwd (c :: s)) by congruence. set (p := c :: s).
    assert (C : clean p = let out := join_slash (rev (clean_loop false [] 0 (parts p))) in if beq out [] then bs "." else out).
    { unfold clean, p. rewrite parts_split. destruct (Z.eqb_spec c 47); [easy|reflexivity]. }
    set (o := clean_loop false [] 0 (parts p)) in C.
    assert (W : forall st, walk st (rev o) = walk st (parts p)) by (intros st; apply (clean_relative (parts p) [] 0 (Forall_nil _) st)).
    assert (I : forall x, In x (rev o) -> ~ In 47 x /\ x <> []).
    { intros x H. apply in_rev, clean_in in H as [[]|(H & K)]. split; [now apply parts_no in H|exact K]. }
    clearbody o. destruct (rev o) as [|x w] eqn:E.
    + rewrite C, <- W. reflexivity.
    + assert (J : join_slash (x :: w) <> [] /\ (forall r, join_slash (x :: w) <> 47 :: r)).
      { destruct (I x (or_introl eq_refl)) as (I1 & I2). destruct x as [|d x]; [easy|]. cbn [join_slash]. destruct w; cbn [app]; split; try easy; intros r [= -> _]; apply I1; now left. }
      destruct J as (J1 & J2). cbv zeta in C. destruct (beq (join_slash (x :: w)) []) eqn:B; [apply beq_iff in B; easy|]. rewrite C, resolve_relative by exact J2.
      rewrite parts_join; [apply W|easy|]. intros y H. now apply I.
Qed.
Lemma abs_text cwd p : absolute cwd -> abs cwd p = 47 :: join_slash (resolve cwd p).
Proof.
  intros (r & ->). assert (R : forall p, (forall s, p <> 47 :: s) -> join2 (47 :: r) p = 47 :: join_slash (resolve (47 :: r) p)).
  { intros q Q. rewrite resolve_relative by exact Q. unfold join2. cbn [app]. rewrite clean_text_rooted. change (47 :: r ++ 47 :: q) with ((47 :: r) ++ 47 :: q).
    now rewrite parts_app, walk_app. }
  unfold abs. destruct p as [|c p]; [now apply R|]. destruct (Z.eqb_spec c 47) as [->|N]; [|apply R; congruence]. now rewrite clean_text_rooted.
Qed.
Lemma resolve_join cwd d n : plain n -> ~ In 47 n -> resolve cwd (join2 d n) = resolve cwd d ++ [n].
Proof.
  intros P N. assert (NR : forall s, n <> 47 :: s) by (intros s ->; apply N; now left).
  unfold join2. destruct d as [|c d].
  - destruct n as [|x n]; [now elim (proj1 P)|]. rewrite resolve_clean, resolve_relative by exact NR. rewrite (parts_one (x :: n) N). cbn [walk fold_left]. rewrite go_plain by exact P. reflexivity.
  - rewrite resolve_clean. destruct (Z.eq_dec c 47) as [->|C].
    + cbn [app]. rewrite !resolve_rooted. change (47 :: d ++ 47 :: n) with ((47 :: d) ++ 47 :: n). rewrite parts_app, walk_app, (parts_one n N). cbn [walk fold_left]. now rewrite go_plain.
    + rewrite !resolve_relative by (cbn [app]; congruence). rewrite parts_app, walk_app, (parts_one n N). cbn [walk fold_left]. now rewrite go_plain.
Qed.
Lemma join2_nonempty d n : n <> [] -> join2 d n <> [].
Proof.
  intros N. assert (C : forall p, clean p <> []).
  { intros p. unfold clean. destruct (match p with c :: _ => c =? 47 | [] => false end); [discriminate|].
    destruct (beq _ []) eqn:B; [discriminate|]. intros K. rewrite K in B. discriminate. }
  unfold join2. destruct d; [destruct n; [easy|apply C]|apply C].
Qed.
Lemma want_iff n : want n = true <-> In n wanted.
Proof. unfold want, wanted. rewrite !orb_true_iff, !beq_iff. cbn [In]. split; [intros [[[-> | ->] | ->] | ->]; tauto|intros [<- | [<- | [<- | [<- | []]]]]; tauto]. Qed.
Lemma wanted_plain n : In n wanted -> plain n /\ ~ In 47 n /\ clean (base n) = n.
Proof.
  intros H. cbn [In wanted] in H. destruct H as [<- | [<- | [<- | [<- | []]]]]; (split; [repeat split; discriminate|]); (split; [cbn; lia|reflexivity]).
Qed.
Lemma sanitize_spec cwd d n : absolute cwd -> In n wanted ->
  sanitize cwd d n = match resolve cwd d with [] => None | _ => Some (join2 d n) end.
Proof.
  intros A W. destruct (wanted_plain n W) as (P & N & C). unfold sanitize. rewrite C. destruct P as (P1 & P2 & P3).
  destruct (beq n []) eqn:B1; [apply beq_iff in B1; easy|]. destruct (beq n (bs ".")) eqn:B2; [apply beq_iff in B2; easy|].
  destruct (beq n (bs "..")) eqn:B3; [apply beq_iff in B3; easy|]. cbn [orb]. cbv zeta.
  rewrite !abs_text by exact A. rewrite resolve_join; [|now split|exact N]. destruct (resolve cwd d) as [|x R] eqn:E.
  - cbn [app join_slash has_prefix Z.eqb Pos.eqb andb negb]. destruct n as [|c n]; [easy|]. cbn [has_prefix]. destruct (Z.eqb_spec 47 c) as [<-|NC]; [exfalso; apply N; now left|].
    cbn [andb negb]. cbn [beq]. now rewrite andb_false_r.
  - rewrite join_snoc by easy.
    assert (H : has_prefix (47 :: join_slash (x :: R) ++ 47 :: n) ((47 :: join_slash (x :: R)) ++ [47]) = true) by (apply has_prefix_iff; exists n; cbn [app]; now rewrite <- app_assoc).
    now rewrite H.
Qed.

(** Base *)
Lemma strip_spec r : exists k q, r = List.repeat 47 k ++ q /\ strip_slashes r = q /\ (forall s, q <> 47 :: s).
Proof.
  induction r as [|c r (k & q & E & SS & N)]; [exists 0%nat, []; repeat split; discriminate|]. cbn [strip_slashes]. destruct (Z.eqb_spec c 47) as [->|NC].
  - exists (S k), q. split; [now rewrite E|auto].
  - exists 0%nat, (c :: r). repeat split; congruence.
Qed.
Lemma filter_slashes b k : parts (b ++ List.repeat 47 k) = parts b ++ List.repeat [] k.
Proof.
  induction k as [|k IH]; [now rewrite !app_nil_r|]. cbn [List.repeat]. rewrite (repeat_cons k 47), app_assoc, parts_app, IH. cbn [parts]. rewrite <- app_assoc. f_equal.
  symmetry. apply (repeat_cons k (@nil Z)).
Qed.
Lemma filter_empties k : filter (fun x => negb (same_name x [])) (List.repeat [] k) = [].
Proof. induction k as [|k IH]; [reflexivity|]. cbn [List.repeat filter]. exact IH. Qed.
Lemma cut_last_tail c s a b : cut_last c s = Some (a, b) -> ~ In c b.
Proof.
  revert a b. induction s as [|x s IH]; intros a b; cbn [cut_last]; [discriminate|]. destruct (cut_last c s) as [[a' b']|] eqn:E.
  - intros [= <- <-]. eauto.
  - destruct (x =? c); [|discriminate]. intros [= <- <-]. now apply cut_last_none.
Qed.
Lemma base_spec p : base p = own_name p \/ (own_name p = [] /\ want (base p) = false).
Proof.
  destruct p as [|c p0]; [right; split; reflexivity|]. set (p := c :: p0). assert (B : base p = let q := rev (strip_slashes (rev p)) in let q := match cut_last 47 q with Some (_, b) => b | None => q end in match q with [] => bs "/" | _ => q end) by reflexivity.
  assert (NEp : p <> []) by easy. clearbody p. destruct (strip_spec (rev p)) as (k & q & E & S & NQ). rewrite S in B.
  assert (P : p = rev q ++ List.repeat 47 k).
  { rewrite <- (rev_involutive p), E, rev_app_distr. f_equal. clear. induction k as [|k IH]; [reflexivity|]. cbn [List.repeat rev]. rewrite IH. symmetry. apply repeat_cons. }
  cbv zeta in B. unfold own_name. rewrite P, filter_slashes, filter_app, filter_empties, app_nil_r.
  destruct q as [|d q].
  - right. cbn in B. split; [reflexivity|]. rewrite P in B. rewrite B. reflexivity.
  - left. rewrite <- P. assert (ND : d <> 47) by (intros ->; now apply (NQ q)). cbn [rev] in *.
    destruct (cut_last 47 (rev q ++ [d])) as [[a b]|] eqn:C.
    + pose proof (cut_last_tail _ _ _ _ C) as T. apply cut_last_some in C.
      assert (NB : b <> []) by (intros ->; apply app_inj_tail in C as (_ & C); easy).
      rewrite C, parts_app, filter_app, (parts_one b T). cbn [filter]. destruct (same_name b []) eqn:SB; [apply same_name_iff in SB; easy|]. cbn [negb]. rewrite last_last, B. now destruct b.
    + apply cut_last_none in C. rewrite parts_one by exact C. cbn [filter]. destruct (same_name (rev q ++ [d]) []) eqn:SB; [apply same_name_iff in SB; now apply app_eq_nil in SB|].
      cbn [negb last]. rewrite B. destruct (rev q ++ [d]); [discriminate SB|reflexivity].
Qed.
Lemma base_wanted p n : In n wanted -> (base p = n <-> own_name p = n).
Proof.
  intros W. destruct (base_spec p) as [->|(O & B)]; [tauto|]. apply want_iff in W. split; intros E; [rewrite E in B; congruence|]. rewrite O in E. subst n. discriminate W.
Qed.
