(** Properties C23-C26 and C77: the strings module and the padding functions of fmt. *)
From Verif Require Import Base StringsModel StringsSpec StringsProofs.

(** ---- C23 ---- *)
(** The pieces are those between the leftmost non-overlapping separators, and no others. *)
Theorem split_cuts : forall s sep, sep <> [] ->
  forall ps, split s sep = Ok ps <-> cut sep s ps.
Proof.
  intros s sep N ps. destruct (split_ok s sep N) as (qs & E & C). rewrite E. split.
  - intro H. injection H as <-. exact C.
  - intro D. f_equal. exact (cut_unique _ _ _ N C _ D).
Qed.
Theorem split_then_join : forall s sep, Z.of_nat (length s) <= INT32_MAX ->
  exists ps, split s sep = Ok ps /\ join ps sep = Ok s /\
             (sep <> [] -> Forall (fun p => ~ occurs sep p) ps).
Proof.
  intros s sep L. destruct sep as [|c sep].
  - exists [s]. split; [reflexivity|]. split; [|congruence]. rewrite join_ok. simpl glue.
    rewrite (proj2 (Z.leb_le _ _) L). reflexivity.
  - assert (N : c :: sep <> []) by discriminate. destruct (split_ok s (c :: sep) N) as (ps & E & C).
    exists ps. split; [exact E|]. split; [|intros _; exact (cut_pieces _ _ _ C N)].
    rewrite join_ok, (cut_glue _ _ _ C), (proj2 (Z.leb_le _ _) L). reflexivity.
Qed.
(** In the other direction: pieces without the separator come back, if the separator
    cannot overlap itself (every one-byte separator, ", ", "->", ...). *)
Theorem join_then_split : forall sep ps s, sep <> [] -> unbordered sep -> ps <> [] ->
  Forall (fun p => ~ occurs sep p) ps -> join ps sep = Ok s -> split s sep = Ok ps.
Proof.
  intros sep ps s N U M H J. apply split_cuts; [exact N|]. destruct ps as [|p ps]; [congruence|].
  rewrite join_ok in J. destruct (_ <=? _); [|discriminate]. injection J as <-. now apply glue_cut.
Qed.
Lemma one_byte_unbordered : forall c, unbordered [c].
Proof.
  intros c x y z E F. destruct y as [|a y]; [auto|]. destruct x as [|b x]; [auto|].
  exfalso. apply (f_equal (@length Z)) in E. rewrite app_length in E. simpl in E. lia.
Qed.
(** For a separator that overlaps itself this fails. *)
Theorem join_then_split_refuted : exists sep ps s,
  Forall (fun p => ~ occurs sep p) ps /\ join ps sep = Ok s /\ split s sep <> Ok ps.
Proof.
  exists (bs "aa"), [bs "a"; bs "b"], (bs "aaab"). split; [|split; [vm_compute; reflexivity|vm_compute; discriminate]].
  repeat constructor; intros [i O]; apply occurs_at_iff in O as [O _]; simpl in O; lia.
Qed.
(** join computes the pieces with separators between them as long as the result is a
    possible string; beyond that, the int32_t length overflows. *)
Theorem join_glues_partial : forall ps sep, Z.of_nat (length (glue sep ps)) <= INT32_MAX ->
  join ps sep = Ok (glue sep ps).
Proof. intros ps sep L. rewrite join_ok, (proj2 (Z.leb_le _ _) L). reflexivity. Qed.
Theorem join_refuted : exists p q, Z.of_nat (length p) <= INT32_MAX /\ Z.of_nat (length q) <= INT32_MAX /\
  forall sep, join [p; q] sep = UB.
Proof.
  set (n := Z.to_nat INT32_MAX).
  assert (Hn : Z.of_nat n = INT32_MAX) by (apply Z2Nat.id; discriminate). clearbody n.
  exists (List.repeat 97 n), [98]. rewrite repeat_length. split; [lia|]. split; [discriminate|].
  intro sep. rewrite join_ok. rewrite glue_cons, !app_length, repeat_length.
  rewrite (proj2 (Z.leb_gt _ _)); [reflexivity|]. simpl (length (glue _ _)). lia.
Qed.
Example split_example : split (bs "a, b,, c") (bs ", ") = Ok [bs "a"; bs "b,"; bs "c"] /\
  join [bs "a"; bs "b,"; bs "c"] (bs ", ") = Ok (bs "a, b,, c") /\
  split (bs "aaaa") (bs "aa") = Ok [[]; []; []] /\ split [] (bs ",") = Ok [[]].
Proof. vm_compute. auto. Qed.
Example comma_unbordered : unbordered (bs ",") /\ ~ occurs (bs ",") (bs "x").
Proof.
  split; [apply one_byte_unbordered|]. intros [i O]. apply occurs_at_iff in O as [L O].
  simpl in L. assert (i = 0)%nat by lia. subst. discriminate.
Qed.

(** ---- C24 ---- *)
Theorem contains_iff : forall s sub, exists b, contains s sub = Ok b /\ (b = true <-> occurs sub s).
Proof.
  intros s sub. unfold contains. destruct (length sub =? 0)%nat eqn:E0.
  - exists true. split; [reflexivity|]. split; [|auto]. intros _. exists 0%nat, [], s.
    destruct sub; [auto|discriminate].
  - destruct (length s <? length sub)%nat eqn:E1.
    + exists false. split; [reflexivity|]. split; [discriminate|]. intros [i O].
      apply occurs_at_iff in O. lia.
    + assert (N : sub <> []) by (intros ->; discriminate).
      destruct (scan_ok s sub (S (length s)) 0) as [(k & -> & F & _)|[-> F]]; auto; try lia.
      * exists true. split; [reflexivity|]. split; [|auto]. intros _. now exists k.
      * exists false. split; [reflexivity|]. split; [discriminate|tauto].
Qed.
Theorem index_of_first : forall s sub, exists r, index_of s sub = Ok r /\
  ((exists i, r = Z.of_nat i /\ first_at sub s i) \/ (r = -1 /\ ~ occurs sub s)).
Proof.
  intros s sub. unfold index_of. destruct (length sub =? 0)%nat eqn:E0.
  - exists 0. split; [reflexivity|]. left. exists 0%nat. split; [reflexivity|].
    destruct sub; [|discriminate]. split; [exists [], s; auto|]. intros; lia.
  - destruct (length s <? length sub)%nat eqn:E1.
    + exists (-1). split; [reflexivity|]. right. split; [reflexivity|]. intros [i O].
      apply occurs_at_iff in O. lia.
    + assert (N : sub <> []) by (intros ->; discriminate).
      destruct (scan_ok s sub (S (length s)) 0) as [(k & -> & F)|[-> F]]; auto; try lia.
      * exists (Z.of_nat k). split; [reflexivity|]. left. exists k. auto.
      * exists (-1). split; [reflexivity|]. right. auto.
Qed.
Theorem last_index_of_last : forall s sub, exists r, last_index_of s sub = Ok r /\
  ((exists i, r = Z.of_nat i /\ last_at sub s i) \/ (r = -1 /\ ~ occurs sub s)).
Proof.
  intros s sub. unfold last_index_of. destruct (length sub =? 0)%nat eqn:E0.
  - exists (Z.of_nat (length s)). split; [reflexivity|]. left. exists (length s). split; [reflexivity|].
    destruct sub; [|discriminate]. split; [exists s, []; rewrite app_nil_r; auto|].
    intros j O. apply occurs_at_iff in O. simpl in O. lia.
  - destruct (length s <? length sub)%nat eqn:E1.
    + exists (-1). split; [reflexivity|]. right. split; [reflexivity|]. intros [i O].
      apply occurs_at_iff in O. lia.
    + destruct (scan_down_ok s sub (length s - length sub)) as [(k & -> & F)|[-> F]]; try lia.
      * intros j O. apply occurs_at_iff in O. lia.
      * exists (Z.of_nat k). split; [reflexivity|]. left. exists k. auto.
      * exists (-1). split; [reflexivity|]. right. auto.
Qed.
(** Positions that are occurrences of sub in s, from left to right without overlap. *)
Inductive apart (sub s : bytes) : nat -> list nat -> Prop :=
| apart_nil from : apart sub s from []
| apart_cons from i is : (from <= i)%nat -> occurs_at sub s i -> apart sub s (i + length sub) is ->
    apart sub s from (i :: is).
Lemma apart_shift : forall sub s k is from, (k <= length s)%nat ->
  apart sub s (k + from) is -> exists js, length js = length is /\ apart sub (skipn k s) from js.
Proof.
  intros sub s k is. induction is as [|i is IH]; intros from L H; inversion H; subst.
  - exists []. split; [reflexivity|constructor].
  - destruct (IH (i - k + length sub)%nat L) as (js & E & A).
    { replace (k + (i - k + length sub))%nat with (i + length sub)%nat by lia. assumption. }
    exists ((i - k)%nat :: js). split; [simpl; congruence|]. constructor; [lia| |exact A].
    apply occurs_at_skipn; [exact L|]. now replace (k + (i - k))%nat with i by lia.
Qed.
Lemma apart_more : forall sub s is from from', (from' <= from)%nat -> apart sub s from is -> apart sub s from' is.
Proof. intros. inversion H0; subst; constructor; auto; lia. Qed.
Lemma cut_max : forall sub s ps, sub <> [] -> cut sub s ps -> forall is, apart sub s 0 is -> (length is < length ps)%nat.
Proof.
  intros sub s ps N C. induction C as [s H|p rest ps H C IH]; intros is A.
  - inversion A; subst; simpl; [lia|]. exfalso. apply H. now exists i.
  - inversion A as [|from i is' F O A']; subst; [simpl; lia|].
    pose proof (proj2 H _ O) as B.
    destruct (apart_shift sub (p ++ sub ++ rest) (length p + length sub) is' 0) as (js & E & J).
    + rewrite !app_length. lia.
    + apply apart_more with (i + length sub)%nat; [lia|exact A'].
    + rewrite app_assoc, <- app_length, skipn_app, skipn_all, Nat.sub_diag in J. simpl in J.
      specialize (IH _ J). simpl. lia.
Qed.
Lemma apart_unshift : forall sub a s is from, apart sub s from is ->
  exists js, length js = length is /\ apart sub (a ++ s) (length a + from) js.
Proof.
  intros sub a s is from A. induction A as [|from i is F O A (js & E & J)].
  - exists []. split; [reflexivity|constructor].
  - exists ((length a + i)%nat :: js). split; [simpl; congruence|]. constructor; [lia| |].
    + destruct O as (x & y & -> & <-). exists (a ++ x), y. rewrite <- app_assoc, app_length. auto.
    + now rewrite <- Nat.add_assoc.
Qed.
Lemma cut_attained : forall sub s ps, sub <> [] -> cut sub s ps -> exists is, apart sub s 0 is /\ length ps = S (length is).
Proof.
  intros sub s ps N C. induction C as [s H|p rest ps H C (is & A & E)].
  - exists []. split; [constructor|reflexivity].
  - destruct (apart_unshift sub (p ++ sub) rest is 0 A) as (js & E2 & J).
    exists (length p :: js). split; [|simpl; lia]. constructor; [lia|apply H|].
    rewrite <- app_assoc in J. rewrite app_length, Nat.add_0_r in J. exact J.
Qed.
(** count is the largest number of non-overlapping occurrences *)
Theorem count_largest : forall s sub, sub <> [] -> exists n, count s sub = Ok (Z.of_nat n) /\
  (exists is, apart sub s 0 is /\ length is = n) /\ (forall is, apart sub s 0 is -> (length is <= n)%nat).
Proof.
  intros s sub N. destruct (split_ok s sub N) as (ps & _ & C).
  destruct (cut_attained _ _ _ N C) as (is & A & E).
  exists (length is). split; [rewrite (count_ok _ _ _ N C); f_equal; lia|]. split; [now exists is|].
  intros js J. apply (cut_max _ _ _ N C) in J. lia.
Qed.
Theorem count_empty : forall s, count s [] = Ok 0.
Proof. reflexivity. Qed.
Theorem starts_with_iff : forall s p, exists b, starts_with s p = Ok b /\ (b = true <-> exists r, s = p ++ r).
Proof.
  intros s p. unfold starts_with. destruct (length s <? length p)%nat eqn:E.
  - exists false. split; [reflexivity|]. split; [discriminate|]. intros [r ->]. rewrite app_length in E. lia.
  - destruct (match_at_spec s 0 p ltac:(lia)) as (b & Eb & H). exists b. split; [exact Eb|]. rewrite H. split.
    + intros (a & r & -> & L). destruct a; [|discriminate]. now exists r.
    + intros [r ->]. exists [], r. auto.
Qed.
Theorem ends_with_iff : forall s q, exists b, ends_with s q = Ok b /\ (b = true <-> exists r, s = r ++ q).
Proof.
  intros s q. unfold ends_with. destruct (length s <? length q)%nat eqn:E.
  - exists false. split; [reflexivity|]. split; [discriminate|]. intros [r ->]. rewrite app_length in E. lia.
  - destruct (match_at_spec s (length s - length q) q ltac:(lia)) as (b & Eb & H). exists b. split; [exact Eb|]. rewrite H. split.
    + intros (a & r & -> & L). rewrite !app_length in L, E. destruct r as [|c r]; [|simpl in *; lia].
      exists a. now rewrite app_nil_r.
    + intros [r ->]. exists r, []. rewrite app_nil_r, app_length. split; [auto|lia].
Qed.
Theorem remove_prefix_removes : forall s p, (forall r, s = p ++ r -> remove_prefix s p = Ok r) /\
  ((forall r, s <> p ++ r) -> remove_prefix s p = Ok s).
Proof.
  intros s p. unfold remove_prefix. destruct (starts_with_iff s p) as (b & -> & H). cbn [rbind]. destruct b; split.
  - intros r ->. rewrite substr_ok by (rewrite app_length; lia). rewrite skipn_app, skipn_all, Nat.sub_diag. simpl.
    f_equal. apply firstn_all2. rewrite app_length. lia.
  - intro N. destruct (proj1 H eq_refl) as [r E]. destruct (N r E).
  - intros r E. assert (false = true) by (apply H; now exists r). discriminate.
  - reflexivity.
Qed.
Theorem remove_suffix_removes : forall s q, (forall r, s = r ++ q -> remove_suffix s q = Ok r) /\
  ((forall r, s <> r ++ q) -> remove_suffix s q = Ok s).
Proof.
  intros s p. unfold remove_suffix. destruct (ends_with_iff s p) as (b & -> & H). cbn [rbind]. destruct b; split.
  - intros r ->. rewrite substr_ok by (rewrite app_length; lia). rewrite app_length. simpl skipn.
    replace (length r + length p - length p)%nat with (length r) by lia.
    rewrite firstn_app, firstn_all, Nat.sub_diag. simpl. now rewrite app_nil_r.
  - intro N. destruct (proj1 H eq_refl) as [r E]. destruct (N r E).
  - intros r E. assert (false = true) by (apply H; now exists r). discriminate.
  - reflexivity.
Qed.
Example search_example :
  index_of (bs "abcabc") (bs "bc") = Ok 1 /\ last_index_of (bs "abcabc") (bs "bc") = Ok 4 /\
  count (bs "aaaaa") (bs "aa") = Ok 2 /\ index_of (bs "abc") (bs "d") = Ok (-1) /\
  contains (bs "abc") (bs "abcd") = Ok false /\ ends_with (bs "abc") (bs "bc") = Ok true.
Proof. vm_compute. auto 10. Qed.

(** ---- C25 ---- *)
(** The result is the text with the leftmost non-overlapping occurrences of [a] replaced
    by [b], or the program stops with P0071 when that is too long; the buffer, sized by a
    first pass, is never overrun (that would be [UB]). *)
Theorem replace_all : forall s a b ps, Z.of_nat (length s) <= INT32_MAX -> a <> [] -> cut a s ps ->
  replace s a b = if Z.of_nat (length (glue b ps)) <=? INT32_MAX then Ok (glue b ps) else Panic 71.
Proof. intros. now apply replace_ok. Qed.
Theorem replace_is_split_join : forall s a b r, Z.of_nat (length s) <= INT32_MAX -> a <> [] ->
  (replace s a b = Ok r <-> exists ps, split s a = Ok ps /\ join ps b = Ok r).
Proof.
  intros s a b r L N. destruct (split_ok s a N) as (ps & E & C). rewrite (replace_ok _ _ _ _ N C L). split.
  - intro H. exists ps. split; [exact E|]. rewrite join_ok. destruct (_ <=? _); [exact H|discriminate].
  - intros (qs & Q & J). rewrite E in Q. injection Q as <-. rewrite join_ok in J. destruct (_ <=? _); [exact J|discriminate].
Qed.
Theorem replace_outcomes : forall s a b, Z.of_nat (length s) <= INT32_MAX ->
  (exists r, replace s a b = Ok r) \/ replace s a b = Panic 71.
Proof.
  intros s a b L. destruct a as [|c a]; [left; exists s; reflexivity|].
  assert (N : c :: a <> []) by discriminate. destruct (split_ok s _ N) as (ps & _ & C).
  rewrite (replace_ok _ _ _ _ N C L). destruct (_ <=? _); eauto.
Qed.
Theorem replace_nothing : forall s a b, Z.of_nat (length s) <= INT32_MAX ->
  (a = [] \/ ~ occurs a s) -> replace s a b = Ok s.
Proof.
  intros s a b L [->|H]; [reflexivity|]. destruct a as [|c a]; [reflexivity|].
  rewrite (replace_ok s (c :: a) b [s]); [|discriminate|now constructor|exact L].
  simpl glue. rewrite (proj2 (Z.leb_le _ _) L). reflexivity.
Qed.
Example replace_example : replace (bs "aaa-a") (bs "aa") (bs "xyz") = Ok (bs "xyza-a") /\
  replace (bs "a.b.c") (bs ".") [] = Ok (bs "abc").
Proof. vm_compute. auto. Qed.

(** ---- C26 ---- *)
Theorem trim_both : forall s, exists a t b, trim s = Ok t /\ s = a ++ t ++ b /\
  Forall blank a /\ Forall blank b /\ ~ starts_blank t /\ ~ ends_blank t.
Proof. exact trim_ok. Qed.
Theorem trim_one_side : forall s,
  (exists a t, trim_left s = Ok t /\ s = a ++ t /\ Forall blank a /\ ~ starts_blank t) /\
  (exists t b, trim_right s = Ok t /\ s = t ++ b /\ Forall blank b /\ ~ ends_blank t).
Proof. intro s. split; [apply trim_left_ok|apply trim_right_ok]. Qed.
(** a slice is the bytes at the positions in [start, stop) that exist *)
Theorem slice_positions : forall s start stop, exists r, slice s start stop = Ok r /\
  (forall a m b, s = a ++ m ++ b -> Z.of_nat (length a) = Z.max 0 start ->
     Z.of_nat (length (a ++ m)) = Z.min stop (Z.of_nat (length s)) -> r = m) /\
  (stop <= start \/ stop <= 0 \/ Z.of_nat (length s) <= start -> r = []).
Proof.
  intros s start stop. unfold slice.
  set (st := if start <? 0 then 0 else start). set (e := if Z.of_nat (length s) <? stop then Z.of_nat (length s) else stop).
  assert (S1 : st = Z.max 0 start) by (unfold st; destruct (start <? 0) eqn:?; lia).
  assert (S2 : e = Z.min stop (Z.of_nat (length s))) by (unfold e; destruct (Z.of_nat (length s) <? stop) eqn:?; lia).
  cbv zeta. clearbody st e. destruct (e <=? st) eqn:E.
  - exists []. split; [reflexivity|]. split; [|auto]. intros a m b Es L1 L2. rewrite app_length in L2.
    destruct m; [reflexivity|]. cbn [length] in L2. lia.
  - rewrite substr_ok by lia. eexists. split; [reflexivity|]. split; [|lia].
    intros a m b Es L1 L2. rewrite app_length in L2.
    replace (Z.to_nat st) with (length a) by lia. replace (Z.to_nat (e - st)) with (length m) by lia.
    rewrite Es, skipn_app, skipn_all, Nat.sub_diag. simpl. rewrite firstn_app, firstn_all, Nat.sub_diag.
    simpl. apply app_nil_r.
Qed.
Theorem reverse_reverses : forall s, reverse s = rev s /\ reverse (reverse s) = s.
Proof. intro s. rewrite !reverse_rev. split; [reflexivity|apply rev_involutive]. Qed.
(** repeat gives the copies or stops, as long as len * count is an int64 *)
Theorem repeat_copies_partial : forall s n, Z.of_nat (length s) * n <= INT64_MAX ->
  repeat s n = if n <? 0 then Panic 72
               else if Z.of_nat (length s) * n <=? INT32_MAX then Ok (copies (Z.to_nat n) s) else Panic 73.
Proof.
  intros s n L. unfold repeat. destruct (n <? 0) eqn:E0; [reflexivity|].
  destruct (n =? 0) eqn:E1; cbn [orb].
  - replace n with 0 by lia. rewrite Z.mul_0_r. reflexivity.
  - destruct (length s =? 0)%nat eqn:E2.
    + destruct s; [|discriminate]. simpl. now rewrite copies_nil.
    + cbv zeta. rewrite (proj2 (Z.ltb_ge INT64_MAX _)) by lia.
      destruct (Z.of_nat (length s) * n <=? INT32_MAX) eqn:E3.
      * rewrite (proj2 (Z.ltb_ge INT32_MAX _)) by lia. rewrite repeat_loop_ok; [reflexivity|].
        simpl (length []). rewrite Z2Nat.id by lia. lia.
      * rewrite (proj2 (Z.ltb_lt INT32_MAX _)) by lia. reflexivity.
Qed.
Theorem repeat_refuted : exists s n, in_i 64 n /\ repeat s n = UB.
Proof. exists (bs "ab"), (2 ^ 62). split; [split; vm_compute; congruence|reflexivity]. Qed.
(** padding: the result has length max(len, width), as long as the width is an int32 *)
Theorem padding_partial : forall s width ch, width <= INT32_MAX ->
  exists l r, Z.of_nat (length l + length s + length r) = Z.max (Z.of_nat (length s)) width /\
    Forall (eq (wrap_u 8 ch)) l /\ Forall (eq (wrap_u 8 ch)) r /\
    pad_left s width ch = Ok (l ++ r ++ s) /\
    pad_right s width ch = Ok (s ++ l ++ r) /\
    center s width ch = Ok (l ++ s ++ r) /\ (length l <= length r <= length l + 1)%nat.
Proof.
  intros s width ch L. unfold pad_left, pad_right, center.
  destruct (width <=? Z.of_nat (length s)) eqn:E.
  - exists [], []. simpl. rewrite app_nil_r. repeat split; auto; lia.
  - set (p := width - Z.of_nat (length s)) in *. set (c := wrap_u 8 ch).
    exists (List.repeat c (Z.to_nat (Z.quot p 2))), (List.repeat c (Z.to_nat (p - Z.quot p 2))).
    assert (Q : Z.quot p 2 = p / 2) by (apply Z.quot_div_nonneg; lia).
    assert (F : forall n, Forall (eq c) (List.repeat c n)) by (induction n; simpl; auto).
    rewrite !repeat_length. cbv zeta.
    assert (J : List.repeat c (Z.to_nat (Z.quot p 2)) ++ List.repeat c (Z.to_nat (p - Z.quot p 2)) = List.repeat c (Z.to_nat p)).
    { rewrite <- repeat_app. f_equal. lia. }
    rewrite !app_assoc, J, <- !app_assoc, J.
    split; [lia|]. split; [apply F|]. split; [apply F|].
    split; [apply with_width_ok; [rewrite app_length, repeat_length; lia|exact L]|].
    split; [apply with_width_ok; [rewrite app_length, repeat_length; lia|exact L]|].
    split; [apply with_width_ok; [rewrite !app_length, !repeat_length; lia|exact L]|]. lia.
Qed.
(** a wider width is truncated to 32 bits *)
Theorem padding_refuted : exists s width ch r, in_i 64 width /\ pad_left s width ch = Ok r /\
  Z.of_nat (length r) <> Z.max (Z.of_nat (length s)) width.
Proof.
  exists (bs "x"), 4294967298, 46. eexists. split; [split; vm_compute; congruence|].
  unfold pad_left, with_width. split; [reflexivity|]. change (wrap_i 32 4294967298) with 2.
  rewrite firstn_length. lia.
Qed.
Example trim_example : trim (bs "  a b ") = Ok (bs "a b") /\ trim (bs "   ") = Ok [] /\
  slice (bs "hello") (-2) 3 = Ok (bs "hel") /\ repeat (bs "ab") 3 = Ok (bs "ababab") /\
  center (bs "ab") 5 45 = Ok (bs "-ab--").
Proof. vm_compute. auto 10. Qed.

(** ---- C77: case, characters ---- *)
Theorem case_conversion : forall s,
  length (to_upper s) = length s /\ length (to_lower s) = length s /\
  to_upper (to_upper s) = to_upper s /\ to_lower (to_lower s) = to_lower s /\
  to_upper (to_lower s) = to_upper s /\ to_lower (to_upper s) = to_lower s /\
  (byte_string s -> byte_string (to_upper s) /\ byte_string (to_lower s)).
Proof.
  intro s. unfold to_upper, to_lower. rewrite !map_length, !map_map.
  split; [reflexivity|]. split; [reflexivity|].
  assert (U : forall c, toupper (toupper c) = toupper c /\ tolower (tolower c) = tolower c /\
                        toupper (tolower c) = toupper c /\ tolower (toupper c) = tolower c).
  { intro c. unfold toupper, tolower, islower, isupper.
    repeat match goal with |- context [if ?b then _ else _] => destruct b eqn:? end; lia. }
  split; [apply map_ext; apply U|]. split; [apply map_ext; apply U|].
  split; [apply map_ext; apply U|]. split; [apply map_ext; apply U|].
  intro B. split; apply Forall_map; (eapply Forall_impl; [|exact B]); intros c Hc; unfold is_byte, toupper, tolower, islower, isupper in *;
    match goal with |- context [if ?b then _ else _] => destruct b eqn:? end; lia.
Qed.
(** the other bytes, in particular all bytes of multi-byte characters, are unchanged *)
Theorem case_keeps_others : forall c, ~ (65 <= c <= 90) -> ~ (97 <= c <= 122) -> toupper c = c /\ tolower c = c.
Proof.
  intros c A B. unfold toupper, tolower, islower, isupper.
  repeat match goal with |- context [if ?b then _ else _] => destruct b eqn:? end; lia.
Qed.
Theorem chars_roundtrip : forall s, byte_string s -> from_chars (to_chars s) = s.
Proof.
  intros s B. unfold from_chars, to_chars. induction B as [|c s Hc B IH]; [reflexivity|].
  simpl. rewrite IH. f_equal. unfold wrap_u. apply Z.mod_small. exact Hc.
Qed.
(** from_chars keeps only the low byte of each character, so the other direction holds
    for characters below 256 only *)
Theorem chars_back_partial : forall cs, Forall (fun c => 0 <= c < 256) cs -> to_chars (from_chars cs) = cs.
Proof. intros cs H. exact (chars_roundtrip cs H). Qed.
Theorem chars_back_refuted : exists c, 0 <= c <= 1114111 /\ to_chars (from_chars [c]) <> [c] /\ from_chars [c] = bs "A".
Proof. exists 321. split; [lia|]. split; [vm_compute; discriminate|reflexivity]. Qed.
Theorem char_at_position : forall sg s i,
  (0 <= i < Z.of_nat (length s) -> exists b, nth_error s (Z.to_nat i) = Some b /\ char_at sg s i = Ok (char_value sg b)) /\
  (i < 0 \/ Z.of_nat (length s) <= i -> char_at sg s i = Panic 82).
Proof.
  intros sg s i. unfold char_at. split; intro H.
  - rewrite (proj2 (Z.ltb_ge i 0)) by lia. rewrite (proj2 (Z.leb_gt _ i)) by lia. simpl orb. cbv iota.
    destruct (nth_error s (Z.to_nat i)) as [b|] eqn:E; [|apply nth_error_None in E; lia].
    exists b. split; [reflexivity|]. rewrite (nth_error_nth _ _ 0 E). reflexivity.
  - replace ((i <? 0) || (Z.of_nat (length s) <=? i)) with true by lia. reflexivity.
Qed.
(** char_at and to_chars agree on ASCII text only: where plain char is signed a byte from
    128 on comes out negative *)
Theorem char_at_to_chars_partial : forall sg s i, Forall (fun c => 0 <= c < 128) s -> 0 <= i < Z.of_nat (length s) ->
  char_at sg s i = Ok (nth (Z.to_nat i) (to_chars s) 0).
Proof.
  intros sg s i B H. destruct (char_at_position sg s i) as [P _]. destruct (P H) as (b & E & ->).
  unfold to_chars. rewrite (nth_error_nth _ _ 0 E). f_equal.
  rewrite Forall_forall in B. apply nth_error_In, B in E. unfold char_value. destruct sg; [|reflexivity].
  unfold wrap_i. change (2 ^ 8) with 256. change (2 ^ (8 - 1)) with 128. cbv zeta.
  rewrite Z.mod_small by lia. rewrite (proj2 (Z.ltb_lt b 128)) by lia. reflexivity.
Qed.
Theorem char_at_to_chars_refuted : exists s, byte_string s /\ char_at true s 0 <> Ok (nth 0 (to_chars s) 0).
Proof. exists [195; 169]. split; [repeat constructor; lia|vm_compute; discriminate]. Qed.
(** classification and "char in string" are right for ASCII characters; a character from
    256 on is treated as its low byte *)
Theorem classify_partial : forall c, 0 <= c < 128 ->
  (is_upper c = true <-> 65 <= c <= 90) /\ (is_lower c = true <-> 97 <= c <= 122) /\
  (is_digit c = true <-> 48 <= c <= 57) /\ (is_whitespace c = true <-> blank c) /\
  (is_alpha c = is_upper c || is_lower c) /\ (is_alnum c = is_alpha c || is_digit c) /\
  (forall s, byte_string s -> (char_in c s = true <-> In c s)).
Proof.
  intros c H. unfold is_upper, is_lower, is_digit, is_whitespace, is_alpha, is_alnum.
  assert (W : wrap_u 8 c = c) by (unfold wrap_u; apply Z.mod_small; lia). rewrite W.
  split; [unfold isupper; lia|]. split; [unfold islower; lia|]. split; [unfold isdigit; lia|].
  split; [apply isspace_blank|]. split; [reflexivity|]. split; [reflexivity|].
  intros s _. unfold char_in. rewrite W, existsb_exists. split.
  - intros (x & I & E). apply Z.eqb_eq in E. congruence.
  - intro I. exists c. split; [exact I|]. apply Z.eqb_refl.
Qed.
Theorem classify_refuted : exists c, 256 <= c <= 1114111 /\ is_digit c = true /\ char_in c (bs "0") = true.
Proof. exists 304. split; [lia|]. split; reflexivity. Qed.

Print Assumptions split_cuts. Print Assumptions split_then_join. Print Assumptions join_then_split.
Print Assumptions join_then_split_refuted. Print Assumptions join_glues_partial. Print Assumptions join_refuted.
Print Assumptions contains_iff. Print Assumptions index_of_first. Print Assumptions last_index_of_last.
Print Assumptions count_largest. Print Assumptions starts_with_iff. Print Assumptions ends_with_iff.
Print Assumptions remove_prefix_removes. Print Assumptions remove_suffix_removes.
Print Assumptions replace_all. Print Assumptions replace_is_split_join. Print Assumptions replace_outcomes. Print Assumptions replace_nothing.
Print Assumptions trim_both. Print Assumptions trim_one_side. Print Assumptions slice_positions. Print Assumptions reverse_reverses.
Print Assumptions repeat_copies_partial. Print Assumptions repeat_refuted. Print Assumptions padding_partial. Print Assumptions padding_refuted.
Print Assumptions case_conversion. Print Assumptions case_keeps_others. Print Assumptions chars_roundtrip.
Print Assumptions chars_back_partial. Print Assumptions chars_back_refuted. Print Assumptions char_at_position.
Print Assumptions char_at_to_chars_partial. Print Assumptions char_at_to_chars_refuted. Print Assumptions classify_partial. Print Assumptions classify_refuted.
