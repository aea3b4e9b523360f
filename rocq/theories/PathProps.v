(** C55, C56, C92: paths. *)
From Verif Require Import Base BaseFacts SemverSpec SemverModel SemverProofs InstallSpec InstallModel InstallProofs InstallProofs2 ServerModel ServerProofs ServerProofs2 PathSpec PathModel PathProofs PathProofs2.

(** ** C55 *)
(** With at most 256 names the result is canonical, denotes the same location, and normalises to itself. *)
Theorem normalize_partial p : ~ In 0 p -> (length (pieces p) <= 256)%nat ->
  exists r, normalize p = Ok r /\ canonical r /\ (forall cwd, location cwd r = location cwd p) /\ (is_absolute r = is_absolute (slashes p)) /\ normalize r = Ok r.
Proof.
  intros N L. destruct (normalize_spec p N L) as (k & names & R & C & F & K & W). set (ab := is_absolute (slashes p)) in *. destruct (text_facts ab k names F K C) as (T0 & TS & TA & TP & TW).
  exists (text_of ab k names). split; [exact R|]. split; [|split; [|split; [exact TA|]]].
  - unfold text_of. destruct ab; [left; eauto|]. right. destruct (ups k ++ names) as [|x l] eqn:E; [now right|left]. exists k, names. split; [exact F|]. split; [|now rewrite <- E].
    apply (f_equal (@length bytes)) in E. rewrite app_length, ups_length in E. cbn [length] in E. lia.
  - intros cwd. rewrite text_place by assumption. symmetry. now apply location_place.
  - destruct (normalize_spec _ T0 TP) as (k2 & n2 & R2 & C2 & F2 & K2 & W2). rewrite R2. rewrite TS, TA in *. f_equal.
    destruct (place_unique ab k2 n2 ab k names) as (_ & -> & ->); auto. intros cwd. rewrite <- (text_place ab k names cwd) by assumption. symmetry. rewrite location_eq, TS, TA. unfold place. destruct ab; [now rewrite W2|now rewrite W2].
Qed.
(** Two paths have the same normal form exactly when they denote the same location for every working directory. *)
Theorem normalize_complete_partial p q : ~ In 0 p -> ~ In 0 q -> (length (pieces p) <= 256)%nat -> (length (pieces q) <= 256)%nat ->
  (normalize p = normalize q <-> forall cwd, location cwd p = location cwd q).
Proof.
  intros NP NQ LP LQ. destruct (normalize_spec p NP LP) as (k & n & R & C & F & K & W). destruct (normalize_spec q NQ LQ) as (k2 & n2 & R2 & C2 & F2 & K2 & W2). rewrite R, R2. split.
  - intros E cwd. injection E as E. rewrite (location_place p k n cwd W), (location_place q k2 n2 cwd W2). rewrite <- (text_place _ k n cwd F K C), <- (text_place _ k2 n2 cwd F2 K2 C2). now rewrite E.
  - intros H. destruct (place_unique (is_absolute (slashes p)) k n (is_absolute (slashes q)) k2 n2) as (-> & -> & ->); auto.
    intros cwd. rewrite <- (location_place p k n cwd W), <- (location_place q k2 n2 cwd W2). apply H.
Qed.
(** Beyond 256 names: names are lost, or the stack overflows. *)
Theorem normalize_refuted :
  normalize (join 47 (List.repeat (bs "a") 256 ++ [bs "b"])) = Ok (join 47 (List.repeat (bs "a") 256)) /\
  normalize (join 47 (List.repeat (bs "..") 257)) = UB /\
  ~ (forall cwd, location cwd (join 47 (List.repeat (bs "a") 256 ++ [bs "b"])) = location cwd (join 47 (List.repeat (bs "a") 256))).
Proof.
  split; [vm_compute; reflexivity|]. split; [vm_compute; reflexivity|]. intros H. specialize (H (bs "/")). apply (f_equal (@length bytes)) in H. vm_compute in H. discriminate H.
Qed.
Example normalize_run : normalize (bs "a\.\b//../../../c/") = Ok (bs "../c") /\ normalize (bs "\..\x/.") = Ok (bs "/x") /\ normalize (bs "a/..") = Ok (bs ".") /\
  length (pieces (bs "a\.\b//../../../c/")) = 7%nat.
Proof. vm_compute. repeat split. Qed.

(** ** C56 *)
(** For plain components the parts come back. *)
Theorem parts_of_join a b : a <> [] -> ~ ends_in_separator a -> b <> [] -> (forall c, In c b -> ~ separator c) -> ~ In 0 a -> ~ In 0 b ->
  path_join [a; b] = a ++ bs "/" ++ b /\ dirname (path_join [a; b]) = a /\ basename (path_join [a; b]) = b.
Proof.
  intros NA EA NB SB ZA ZB. assert (NS : no_sep b) by (intros c I; destruct (sep c) eqn:S; [apply sep_iff in S; now elim (SB c I)|reflexivity]).
  assert (J : path_join [a; b] = a ++ 47 :: b).
  { cbn [path_join fold_left]. destruct b as [|c b0] eqn:EB; [easy|]. rewrite <- EB in *. unfold join_one. rewrite EB at 1. rewrite (NS c) by (rewrite EB; now left). rewrite !cstr_id by assumption.
    destruct (rev_ind_len a) as [->|(l & a' & ->)]; [easy|]. rewrite rev_app_distr. cbn [rev app]. destruct (sep l) eqn:S; [elim EA; exists a', l; split; [reflexivity|now apply sep_iff]|rewrite <- app_assoc; reflexivity]. }
  split; [exact J|]. rewrite J. destruct (dir_base (a ++ [47]) b [] NB NS) as (D & B); [right; eauto|intros c []|]. rewrite app_nil_r, <- app_assoc in D, B. cbn [app] in D, B. split; [|exact B]. rewrite D.
  assert (RL : removelast (a ++ [47]) = a) by apply removelast_last. destruct a as [|x a]; [easy|]. destruct (a ++ [47]) eqn:E; [destruct a; discriminate|]. cbn [app] in *. rewrite E in *. exact RL.
Qed.
(** For every path, dirname and basename lead to the same place as the path. *)
Lemma no_sep_nul a c (s : bytes) : In c a -> ~ In 0 (a ++ s) -> c <> 0.
Proof. intros I N ->. apply N, in_or_app. now left. Qed.
Theorem split_denotes cwd p : ~ In 0 p -> location cwd (path_join [dirname p; basename p]) = location cwd p.
Proof.
  intros N. rewrite !location_seen, !seen_eq. assert (G : pieces (path_join [dirname p; basename p]) = pieces p /\ is_absolute (slashes (path_join [dirname p; basename p])) = is_absolute (slashes p) \/
    p = [] \/ (exists b, no_sep b /\ b <> [] /\ path_join [dirname p; basename p] = bs "./" ++ b /\ is_absolute (slashes p) = false /\ pieces p = pieces b)); cycle 1.
  { destruct G as [(-> & ->)|[->|(b & NS & NB & J & AB & PB)]]; [reflexivity|reflexivity|]. rewrite J, AB. change (bs "./" ++ b) with ([46] ++ 47 :: b). rewrite (pieces_sep [46] 47 b eq_refl), PB. reflexivity. }
  destruct p as [|c0 p0] eqn:EP; [right; now left|]. rewrite <- EP in *. assert (NE : p <> []) by (rewrite EP; easy). clear c0 p0 EP. destruct (shape_of p NE) as [p _ S|q b s NB NS Q S].
  - left. assert (R : forall c, In c (rev p) -> sep c = true) by (intros c I; apply S; now apply in_rev).
    assert (D : dirname p = bs "/" /\ basename p = bs "/").
    { unfold dirname, basename. destruct p as [|c0 p0] eqn:EP; [easy|]. rewrite <- EP in *. assert (RN : rev p <> []) by (rewrite EP; cbn [rev]; now destruct (rev p0)). generalize dependent (rev p). intros r R RN. clear -R RN. split.
      - assert (K : exists c, strip_keep r = [c] /\ sep c = true).
        { induction r as [|c r IH]; [easy|]. cbn [strip_keep]. destruct r as [|d r]; [exists c; split; [reflexivity|apply R; now left]|]. rewrite (R c) by now left. apply IH; [|easy]. intros x I; apply R; now right. }
        destruct K as (c & -> & H). cbn [last_name]. rewrite H. reflexivity.
      - assert (K : strip_all r = []); [|now rewrite K]. clear RN. induction r as [|c r IH]; [reflexivity|]. cbn [strip_all]. rewrite R by now left. apply IH. intros x I; apply R; now right. }
    destruct D as (-> & ->). change (path_join [bs "/"; bs "/"]) with (bs "/"). split; [change (bs "/") with ([] ++ bs "/")|].
    + rewrite pieces_seps by (intros c [<-|[]]; reflexivity). change p with ([] ++ p). symmetry. now apply pieces_seps.
    + destruct p as [|c p]; [easy|]. rewrite absolute_head, (S c) by now left. reflexivity.
  - destruct (dir_base q b s NB NS Q S) as (D & B). rewrite D, B. assert (ZB : ~ In 0 b) by (intros I; apply N, in_or_app; right; apply in_or_app; now left). assert (HB : exists c x, b = c :: x /\ sep c = false) by (destruct b as [|c x]; [easy|exists c, x; split; [reflexivity|apply NS; now left]]).
    destruct HB as (cb & xb & EB & SB). assert (JB : forall d, path_join [d; b] = match rev d with l :: _ => if sep l then cstr d ++ b else cstr d ++ 47 :: b | [] => 47 :: b end).
    { intros d. cbn [path_join fold_left]. unfold join_one. rewrite EB at 1. rewrite SB. rewrite (cstr_id b) by exact ZB. destruct (rev_ind_len d) as [->|(l & d' & ->)]; [reflexivity|]. rewrite rev_app_distr. reflexivity. }
    destruct Q as [->|(q' & c & -> & SC)].
    + right. right. exists b. split; [exact NS|]. split; [exact NB|]. split; [rewrite JB; reflexivity|]. cbn [app]. split; [rewrite absolute_app, EB, absolute_head by exact NB; exact SB|now apply pieces_seps].
    + left. assert (PP : pieces ((q' ++ [c]) ++ b ++ s) = pieces q' ++ pieces b) by (rewrite app_assoc, pieces_seps by exact S; rewrite <- app_assoc; apply pieces_sep; exact SC). rewrite PP.
      assert (RL : removelast (q' ++ [c]) = q') by apply removelast_last. destruct (rev_ind_len q') as [->|(l & q2 & EQ)].
      * cbn [app]. rewrite JB. cbn [rev app bs]. change (sep 47) with true. split; [exact (pieces_sep [] 47 b eq_refl)|]. rewrite absolute_head, SC. reflexivity.
      * assert (DQ : match q' ++ [c] with [] => bs "." | [_] => bs "/" | _ => removelast (q' ++ [c]) end = q') by (rewrite RL; destruct q' as [|x q']; [destruct q2; discriminate|]; destruct q'; reflexivity).
        assert (NQ : q' <> []) by (rewrite EQ; destruct q2; discriminate). assert (ZQ : ~ In 0 q') by (intros I; apply N, in_or_app; left; apply in_or_app; now left).
        rewrite DQ, JB. rewrite (cstr_id q') by exact ZQ. assert (RQ : rev q' = l :: rev q2) by (rewrite EQ, rev_app_distr; reflexivity). rewrite RQ, <- app_assoc, (absolute_app q' ([c] ++ b ++ s)) by exact NQ. destruct (sep l) eqn:SL.
        { split; [|now apply absolute_app]. rewrite EQ, <- app_assoc. cbn [app]. rewrite (pieces_sep q2 l b SL). f_equal. symmetry. now apply pieces_snoc. }
        { split; [now apply pieces_sep|now apply absolute_app]. }
Qed.
(** The extension: from the last dot of the last component, unless that dot starts or ends it. *)
Theorem extension_exact d stem ext : (d = [] \/ ends_in_separator d) -> stem <> [] -> ext <> [] -> (forall c, In c (stem ++ ext) -> ~ separator c) -> ~ In 46 ext ->
  extension (d ++ stem ++ bs "." ++ ext) = bs "." ++ ext /\ basename (d ++ stem ++ bs "." ++ ext) = stem ++ bs "." ++ ext.
Proof.
  intros D NS NX NO N46. set (b := stem ++ bs "." ++ ext). assert (NB : no_sep b).
  { intros c I. unfold b in I. apply in_app_or in I as [I|I]; [|apply in_app_or in I as [I|I]].
    - destruct (sep c) eqn:S; [apply sep_iff in S; elim (NO c); [apply in_or_app; now left|exact S]|reflexivity].
    - vm_compute in I. destruct I as [<-|[]]. reflexivity.
    - destruct (sep c) eqn:S; [apply sep_iff in S; elim (NO c); [apply in_or_app; now right|exact S]|reflexivity]. }
  assert (QD : d = [] \/ exists q c, d = q ++ [c] /\ sep c = true) by (destruct D as [->|(q & c & -> & S)]; [now left|right; exists q, c; split; [reflexivity|now apply sep_iff]]).
  split.
  - unfold extension. rewrite rev_app_distr. rewrite last_name_app; [|intros c I; apply NB; now apply in_rev|destruct QD as [->|(q & c & -> & S)]; [now left|right; rewrite rev_app_distr; cbn [rev app]; eauto]]. cbn [fst].
    assert (RB : rev b = rev ext ++ 46 :: rev stem) by (unfold b; rewrite !rev_app_distr, <- app_assoc; reflexivity). rewrite RB, cut_app by (intros I; apply N46; now apply in_rev).
    destruct (rev ext) as [|x r] eqn:EX; [apply (f_equal (@rev Z)) in EX; rewrite rev_involutive in EX; easy|]. destruct (rev stem) as [|y t] eqn:ET; [apply (f_equal (@rev Z)) in ET; rewrite rev_involutive in ET; easy|].
    rewrite <- EX, rev_involutive. reflexivity.
  - destruct (dir_base d b [] ltac:(unfold b; destruct stem; easy) NB QD ltac:(intros c [])) as (_ & B). rewrite app_nil_r in B. exact B.
Qed.
Theorem extension_suffix p : extension p <> [] -> exists stem ext, stem <> [] /\ ext <> [] /\ ~ In 46 ext /\ basename p = stem ++ extension p /\ extension p = bs "." ++ ext.
Proof.
  unfold extension. destruct (last_name_spec (rev p)) as (n & d & E & L & N & D). rewrite L. cbn [fst]. destruct (cut_cases 46 n) as [(A & EC)|(a & b & EN & NA & EC)]; rewrite EC; [easy|].
  destruct a as [|x a]; [easy|]. destruct b as [|y b]; [easy|]. intros _. exists (rev (y :: b)), (rev (x :: a)). split; [cbn [rev]; now destruct (rev b)|]. split; [cbn [rev]; now destruct (rev a)|].
  split; [intros I; apply NA; now apply in_rev|]. split; [|reflexivity].
  assert (EP : p = rev d ++ rev n ++ []) by (rewrite app_nil_r, <- rev_app_distr, <- E, rev_involutive; reflexivity).
  destruct (dir_base (rev d) (rev n) []) as (_ & B).
  - rewrite EN. rewrite rev_app_distr. cbn [rev]. now destruct (rev b).
  - intros c I. apply N. now apply in_rev.
  - destruct D as [->|(c & q & -> & S)]; [now left|right; cbn [rev]; eauto].
  - intros c [].
  - rewrite <- EP in B. rewrite B, EN, rev_app_distr. cbn [rev]. rewrite <- !app_assoc. reflexivity.
Qed.
(** Separators never multiply. *)
Lemma seps_app a b : separators (a ++ b) = (separators a + separators b)%nat.
Proof. unfold separators. now rewrite filter_app, app_length. Qed.
Lemma seps_cstr a : (separators (cstr a) <= separators a)%nat.
Proof. induction a as [|c a IH]; [reflexivity|]. cbn [cstr]. unfold separators in *. destruct (c =? 0) eqn:E; [cbn; lia|]. cbn [filter]. destruct ((c =? 47) || (c =? 92)); cbn [length]; lia. Qed.
Theorem separators_bound p l : (separators (dirname p) <= separators p)%nat /\ (separators (basename p) <= separators p)%nat /\ separators (extension p) = 0%nat /\
  (separators (path_join (p :: l)) <= separators p + fold_right (fun x n => separators x + 1 + n)%nat 0%nat l)%nat.
Proof.
  assert (NS0 : forall b, no_sep b -> separators b = 0%nat).
  { intros b N. unfold separators. induction b as [|c b IH]; [reflexivity|]. cbn [filter]. pose proof (N c (or_introl eq_refl)) as S. unfold sep in S. rewrite S. apply IH. intros x I. apply N. now right. }
  assert (DB : (separators (dirname p) <= separators p)%nat /\ (separators (basename p) <= separators p)%nat).
  { destruct p as [|c0 p0] eqn:EP; [split; cbn; lia|]. rewrite <- EP in *. assert (NE : p <> []) by (rewrite EP; easy). clear c0 p0 EP. destruct (shape_of p NE) as [p _ S|q b s NB NS Q S].
    - assert (P1 : (1 <= separators p)%nat) by (destruct p as [|c p]; [easy|]; unfold separators; cbn [filter]; pose proof (S c (or_introl eq_refl)) as SC; unfold sep in SC; rewrite SC; cbn [length]; lia).
      assert (R : forall c, In c (rev p) -> sep c = true) by (intros c I; apply S; now apply in_rev). unfold dirname, basename. destruct p as [|c0 p0] eqn:EP; [easy|]. rewrite <- EP in *. assert (RN : rev p <> []) by (rewrite EP; cbn [rev]; now destruct (rev p0)). generalize dependent (rev p). intros r R RN.
      assert (K : exists c, strip_keep r = [c] /\ sep c = true).
      { clear -R RN. induction r as [|c r IH]; [easy|]. cbn [strip_keep]. destruct r as [|d r]; [exists c; split; [reflexivity|apply R; now left]|]. rewrite (R c) by now left. apply IH; [|easy]. intros x I; apply R; now right. }
      destruct K as (c & -> & H). cbn [last_name]. rewrite H. assert (K : strip_all r = []); [|rewrite K; split; [exact P1|exact P1]]. clear -R. induction r as [|c r IH]; [reflexivity|]. cbn [strip_all]. rewrite R by now left. apply IH. intros x I; apply R; now right.
    - destruct (dir_base q b s NB NS Q S) as (D & B). rewrite D, B, !seps_app, (NS0 b NS). split; [|lia]. destruct Q as [->|(q' & c & -> & SC)]; [cbn; lia|]. rewrite seps_app. assert (C1 : separators [c] = 1%nat) by (unfold separators; cbn [filter]; unfold sep in SC; rewrite SC; reflexivity). rewrite C1.
      destruct q' as [|x q']; [cbn [app]; change (separators (bs "/")) with 1%nat; lia|]. assert (RL : removelast ((x :: q') ++ [c]) = x :: q') by apply removelast_last.
      assert (DQ : match (x :: q') ++ [c] with [] => bs "." | [_] => bs "/" | _ => removelast ((x :: q') ++ [c]) end = x :: q') by (rewrite RL; destruct q'; reflexivity). rewrite DQ. lia. }
  destruct DB as (A & B). split; [exact A|]. split; [exact B|]. split.
  - unfold extension. destruct (last_name_spec (rev p)) as (n & d & _ & L & N & _). rewrite L. cbn [fst]. destruct (cut_cases 46 n) as [(_ & EC)|(a & b & EN & _ & EC)]; rewrite EC; [reflexivity|].
    destruct a as [|x a]; [reflexivity|]. destruct b as [|y b]; [reflexivity|]. apply NS0. intros c [<-|I]; [reflexivity|]. apply in_rev in I. apply N. rewrite EN. apply in_or_app. now left.
  - cbn [path_join]. clear A B. revert p. induction l as [|x l IH]; intros p; cbn [fold_left fold_right]; [lia|]. eapply Nat.le_trans; [apply IH|].
    assert (J : (separators (join_one p x) <= separators p + separators x + 1)%nat); [|lia]. unfold join_one. destruct x as [|c x]; [lia|]. destruct (sep c); [lia|].
    pose proof (seps_cstr p). pose proof (seps_cstr (c :: x)). destruct (rev p) as [|z r]; [|destruct (sep z)]; rewrite !seps_app; try change (separators [47]) with 1%nat; lia.
Qed.
Example paths_run : path_join [bs "usr/lib"; bs "x.tar.gz"] = bs "usr/lib/x.tar.gz" /\ dirname (bs "usr/lib/x.tar.gz") = bs "usr/lib" /\ basename (bs "a\b/") = bs "b" /\
  extension (bs "usr/lib/x.tar.gz") = bs ".gz" /\ extension (bs "a.d/.profile") = [] /\ dirname (bs "/x") = bs "/".
Proof. vm_compute. repeat split. Qed.

(** ** C92 *)
(** Joining paths, the first of them not empty, leads through each of them. *)
Lemma join_one_denotes a b place : a <> [] -> ~ In 0 a -> ~ In 0 b -> join_one a b <> [] /\ ~ In 0 (join_one a b) /\ seen_from place (join_one a b) = seen_from (seen_from place a) b.
Proof.
  intros NA ZA ZB. unfold join_one. destruct b as [|c b0] eqn:EB.
  - split; [exact NA|]. split; [exact ZA|]. now rewrite (seen_eq _ []).
  - rewrite <- EB in *. destruct (sep c) eqn:SC.
    + split; [rewrite EB; easy|]. split; [exact ZB|]. rewrite !seen_eq. replace (is_absolute (slashes b)) with true by (now rewrite EB, absolute_head, SC). reflexivity.
    + rewrite !cstr_id by assumption. replace (is_absolute (slashes b)) with false in * by (now rewrite EB, absolute_head, SC).
      assert (AB : is_absolute (slashes b) = false) by now rewrite EB, absolute_head, SC.
      assert (G : forall m, (m = [] /\ ends_in_separator a \/ m = [47]) -> a ++ m ++ b <> [] /\ ~ In 0 (a ++ m ++ b) /\ seen_from place (a ++ m ++ b) = seen_from (seen_from place a) b).
      { intros m M. split; [destruct a; easy|]. split; [intros I; rewrite !in_app_iff in I; destruct I as [I|[I|I]]; auto; destruct M as [(-> & _)| ->]; [easy|destruct I as [I|[]]; discriminate]|].
        rewrite !seen_eq, AB, (absolute_app a) by exact NA. assert (PP : pieces (a ++ m ++ b) = pieces a ++ pieces b).
        { destruct M as [(-> & q & l & -> & SL)| ->]; [|now apply pieces_sep]. apply sep_iff in SL. cbn [app]. rewrite <- app_assoc. cbn [app]. rewrite (pieces_sep q l b SL). f_equal. symmetry. now apply pieces_snoc. }
        rewrite PP. destruct (is_absolute (slashes a)); rewrite walk_app; reflexivity. }
      destruct (rev_ind_len a) as [->|(l & a' & EA)]; [easy|]. assert (RA : rev a = l :: rev a') by (rewrite EA, rev_app_distr; reflexivity). rewrite RA. destruct (sep l) eqn:SL.
      * apply (G []). left. split; [reflexivity|]. exists a', l. split; [exact EA|now apply sep_iff].
      * apply (G [47]). now right.
Qed.
Theorem join_denotes_partial cwd a l : a <> [] -> ~ In 0 a -> (forall b, In b l -> ~ In 0 b) -> location cwd (path_join (a :: l)) = fold_left seen_from l (location cwd a).
Proof.
  cbn [path_join]. rewrite !location_seen. revert a. induction l as [|b l IH]; intros a NA ZA ZL; cbn [fold_left]; [apply location_seen|].
  destruct (join_one_denotes a b (walk [] (parts cwd)) NA ZA (ZL b (or_introl eq_refl))) as (J1 & J2 & J3). rewrite <- J3. apply IH; auto. intros; apply ZL; now right.
Qed.
(** is_absolute tells whether the working directory matters, unless the path starts with a backslash. *)
Lemma walk_keeps l : forall st x, (length l <= length st)%nat -> exists st', walk (x :: st) l = x :: st'.
Proof.
  induction l as [|y l IH]; intros st x L; [now exists st|]. cbn [length] in L. rewrite walk_cons. unfold go. destruct (same_name y [] || same_name y (bs ".")); [apply IH; lia|]. destruct (same_name y (bs "..")).
  - destruct (rev_ind_len st) as [->|(a & s & ->)]; [cbn in L; lia|]. change (x :: s ++ [a]) with ((x :: s) ++ [a]). rewrite removelast_last. apply IH. rewrite app_length in L. cbn [length] in L. lia.
  - cbn [app]. apply IH. rewrite app_length. lia.
Qed.
Theorem is_absolute_partial p : (forall r, p <> 92 :: r) -> (is_absolute p = true <-> forall cwd cwd', location cwd p = location cwd' p).
Proof.
  intros NB. assert (E : is_absolute (slashes p) = is_absolute p).
  { destruct p as [|c p]; [reflexivity|]. rewrite absolute_head. unfold sep, is_absolute. destruct (Z.eqb_spec c 92) as [->|N]; [now elim (NB p)|]. now rewrite orb_false_r. }
  split.
  - intros A cwd cwd'. now rewrite !location_eq, E, A.
  - intros H. destruct (is_absolute p) eqn:A; [reflexivity|]. exfalso. set (n := length (parts (slashes p))). specialize (H (deep_dir 97 0 (S n)) (deep_dir 98 0 (S n))). rewrite !location_eq, E in H. rewrite !deep_walk in H by lia.
    change (deep 97 0 (S n)) with ([97] :: deep 97 0 n) in H. change (deep 98 0 (S n)) with ([98] :: deep 98 0 n) in H.
    destruct (walk_keeps (parts (slashes p)) (deep 97 0 n) [97]) as (s1 & E1); [rewrite deep_length; unfold n; lia|]. destruct (walk_keeps (parts (slashes p)) (deep 98 0 n) [98]) as (s2 & E2); [rewrite deep_length; unfold n; lia|]. pose proof (eq_trans (eq_sym E1) (eq_trans H E2)) as Q. discriminate Q.
Qed.
(** An empty first part makes the result absolute; a leading backslash is a root for join and normalize, not for is_absolute. *)
Theorem join_empty_refuted : path_join [[]; bs "b"] = bs "/b" /\ location (bs "/home") (path_join [[]; bs "b"]) <> seen_from (location (bs "/home") []) (bs "b").
Proof. split; vm_compute; [reflexivity|discriminate]. Qed.
Theorem is_absolute_refuted : is_absolute (bs "\x") = false /\ path_join [bs "a"; bs "\x"] = bs "\x" /\ normalize (bs "\x") = Ok (bs "/x").
Proof. vm_compute. repeat split. Qed.

Print Assumptions normalize_partial.
Print Assumptions normalize_complete_partial.
Print Assumptions normalize_refuted.
Print Assumptions parts_of_join.
Print Assumptions split_denotes.
Print Assumptions extension_exact.
Print Assumptions extension_suffix.
Print Assumptions separators_bound.
Print Assumptions join_denotes_partial.
Print Assumptions is_absolute_partial.
Print Assumptions join_empty_refuted.
Print Assumptions is_absolute_refuted.
