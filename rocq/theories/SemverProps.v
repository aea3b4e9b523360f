(** C40, C41, C89: versions, updates, installs. *)
From Verif Require Import Base BaseFacts Decimal DecimalFacts SemverSpec SemverModel SemverProofs.
From Coq Require Import Permutation Sorted.

(** ** C40 *)
(** For all strings whatever, comparison is a total preorder. *)
Theorem semver_total_order a b c :
  (compare_semver a b = -1 \/ compare_semver a b = 0 \/ compare_semver a b = 1) /\
  compare_semver a a = 0 /\
  compare_semver b a = - compare_semver a b /\
  (compare_semver a b <= 0 -> compare_semver b c <= 0 -> compare_semver a c <= 0).
Proof.
  pose proof precedence_order as O. rewrite !compare_is_precedence. split; [destruct (precedence (abs a) (abs b)); cbn; auto|].
  split; [now rewrite (proj2 (o_eq _ O _ _) eq_refl)|]. split; [rewrite (o_opp _ O (abs a) (abs b)); now destruct (precedence _ _)|].
  destruct (precedence (abs a) (abs b)) eqn:E1; cbn; intros H1; [| |lia].
  - apply (o_eq _ O) in E1. rewrite E1. auto.
  - destruct (precedence (abs b) (abs c)) eqn:E2; cbn; intros H2; [| |lia].
    + apply (o_eq _ O) in E2. rewrite <- E2, E1. cbn. lia.
    + rewrite (o_trans _ O _ _ _ E1 E2). cbn. lia.
Qed.
(** On versions with 64-bit numbers it is SemVer precedence, in all their spellings. *)
Theorem semver_precedence_partial v w s t : version_ok v -> version_ok w -> small v -> small w -> text_of v s -> text_of w t ->
  compare_semver s t = match precedence v w with Lt => -1 | Eq => 0 | Gt => 1 end.
Proof. intros V W SV SW TV TW. rewrite compare_is_precedence, (abs_text v s V SV TV), (abs_text w t W SW TW). reflexivity. Qed.
Lemma int64_abs v s : version_ok v -> small v -> text_of v s -> forall w t, version_ok w -> small w -> text_of w t -> compare_semver s t = 0 -> v = w.
Proof.
  intros V SV TV w t W SW TW E. rewrite (semver_precedence_partial v w s t) in E by assumption. apply (o_eq _ precedence_order).
  destruct (precedence v w); cbn in E; lia || reflexivity.
Qed.
Definition demo_a := Ver 3 0 0 [Word (bs "alpha"); Num 2].
Definition demo_b := Ver 3 0 0 [Word (bs "alpha"); Num 10].
Definition demo_c := Ver 3 0 0 [].
Lemma no_trailer s : find_trailer s = None -> ~ ends_in_trailer s.
Proof. apply find_trailer_none. Qed.
Example semver_demo : version_ok demo_b /\ small demo_b /\ text_of demo_b (bs "v3.0.0-alpha.10+linux") /\
  compare_semver (bs "v3.0.0-alpha.2") (bs "3.0.0-alpha.10+linux") = -1 /\ compare_semver (bs "3.0.0") (bs "v3.0.0-rc.1") = 1 /\
  precedence demo_a demo_b = Lt /\ precedence demo_b demo_c = Lt.
Proof.
  split; [|split; [|split; [|repeat split; vm_compute; reflexivity]]].
  - split; [cbn; lia|]. split; [cbn; lia|]. split; [cbn; lia|]. constructor; [|constructor; [cbn; lia|constructor]].
    split; [easy|]. split.
    + repeat (constructor; [unfold word_char; vm_compute; intuition (try discriminate; fail)|] || constructor).
    + intros F. inversion_clear F as [|? ? D _]. unfold is_digit in D. cbn in D. lia.
  - split; [cbn; unfold INT64_MAX; lia|]. split; [cbn; unfold INT64_MAX; lia|]. split; [cbn; unfold INT64_MAX; lia|]. split.
    + constructor; [|constructor; [unfold INT64_MAX; lia|constructor]]. intros n _ [=].
    + apply no_trailer. vm_compute. reflexivity.
  - apply (text_intro demo_b [118] (bs "-alpha.10") (bs "+linux")); [now right|vm_compute; reflexivity|right; eexists; reflexivity].
Qed.
(** Where it departs from SemVer: numbers that do not fit 64 bits (core numbers count as 0, identifiers as words), words such as
    "-5" (taken as numbers) and identifiers that look like git-describe output (dropped). *)
Theorem semver_precedence_refuted :
  compare_semver (bs "99999999999999999999.0.0") (bs "1.0.0") = -1 /\
  compare_semver (bs "1.0.0-99999999999999999999") (bs "1.0.0-100000000000000000000") = 1 /\
  compare_semver (bs "1.0.0--10") (bs "1.0.0--9") = -1 /\ precedence (Ver 1 0 0 [Word (bs "-10")]) (Ver 1 0 0 [Word (bs "-9")]) = Lt /\
  compare_semver (bs "1.0.0--5") (bs "1.0.0-7") = -1 /\ precedence (Ver 1 0 0 [Word (bs "-5")]) (Ver 1 0 0 [Num 7]) = Gt /\
  compare_semver (bs "1.0.0-rc-1-gab") (bs "1.0.0-rc") = 0.
Proof. repeat split; vm_compute; reflexivity. Qed.

(** ** C41 *)
(** the newest release of the channel, the first one listed among equals *)
Theorem update_picks_latest want rs :
  match (if want : bool then pick_latest_prerelease rs else pick_latest_stable rs) with
  | None => forall r, In r rs -> prerelease r = negb want
  | Some r => exists l1 l2, rs = l1 ++ r :: l2 /\ prerelease r = want /\
      (forall r', In r' l1 -> prerelease r' = want -> compare_semver (tag r') (tag r) < 0) /\
      (forall r', In r' l2 -> prerelease r' = want -> compare_semver (tag r') (tag r) <= 0)
  end.
Proof.
  assert (K : forall rs best, match pick want best rs with
    | None => best = None /\ forall r, In r rs -> prerelease r = negb want
    | Some r => (best = Some r /\ forall r', In r' rs -> prerelease r' = want -> compare_semver (tag r') (tag r) <= 0) \/
        exists l1 l2, rs = l1 ++ r :: l2 /\ prerelease r = want /\
      (forall b, best = Some b -> compare_semver (tag b) (tag r) < 0) /\
      (forall r', In r' l1 -> prerelease r' = want -> compare_semver (tag r') (tag r) < 0) /\
      (forall r', In r' l2 -> prerelease r' = want -> compare_semver (tag r') (tag r) <= 0) end).
  { induction rs0 as [|r rs0 IH]; intros best; cbn [pick].
    - destruct best as [b|]; [left; split; [reflexivity|easy]|]. split; [reflexivity|easy].
    - destruct (Bool.eqb (prerelease r) want) eqn:E.
      + apply Bool.eqb_prop in E. assert (T : forall x, pick want (Some r) rs0 = Some x ->
            (forall b, best = Some b -> compare_semver (tag b) (tag r) < 0) ->
            exists l1 l2, r :: rs0 = l1 ++ x :: l2 /\ prerelease x = want /\
              (forall b, best = Some b -> compare_semver (tag b) (tag x) < 0) /\
              (forall r', In r' l1 -> prerelease r' = want -> compare_semver (tag r') (tag x) < 0) /\
              (forall r', In r' l2 -> prerelease r' = want -> compare_semver (tag r') (tag x) <= 0)).
        { intros x Ex Hb. specialize (IH (Some r)). rewrite Ex in IH. destruct IH as [(Er & H)|(l1 & l2 & -> & Px & Hr & H1 & H2)].
          - injection Er as ->. exists [], rs0. split; [reflexivity|]. split; [exact E|]. split; [exact Hb|]. split; [easy|exact H].
          - exists (r :: l1), l2. split; [reflexivity|]. split; [exact Px|]. specialize (Hr r eq_refl). split; [|split; [|exact H2]].
            + intros b Eb. specialize (Hb b Eb). destruct (semver_total_order (tag b) (tag r) (tag x)) as (V1 & _ & _ & V2).
              destruct (semver_total_order (tag r) (tag b) (tag x)) as (W1 & _ & W3 & _).
              destruct (semver_total_order (tag x) (tag b) (tag r)) as (U1 & _ & U3 & U2).
              destruct (semver_total_order (tag b) (tag x) (tag r)) as (_ & _ & Y3 & Y2).
              destruct (semver_total_order (tag r) (tag x) (tag r)) as (_ & _ & X3 & _). lia.
            + intros r' [<-|I] P; [exact Hr|now apply H1]. }
        assert (TN : pick want (Some r) rs0 <> None). { intros Ex. specialize (IH (Some r)). rewrite Ex in IH. now destruct IH. }
        destruct best as [b|].
        * destruct (0 <? compare_semver (tag r) (tag b)) eqn:C.
          -- destruct (pick want (Some r) rs0) as [x|] eqn:Ex; [|easy]. right. apply T; [reflexivity|]. intros b' [= <-].
             destruct (semver_total_order (tag r) (tag b) (tag r)) as (_ & _ & W3 & _). lia.
          -- specialize (IH (Some b)). destruct (pick want (Some b) rs0) as [x|]; [|now destruct IH].
             destruct IH as [(Er & H)|(l1 & l2 & -> & Px & Hr & H1 & H2)].
             ++ left. split; [exact Er|]. injection Er as ->. intros r' [<-|I] P; [lia|now apply H].
             ++ right. exists (r :: l1), l2. split; [reflexivity|]. split; [exact Px|]. split; [exact Hr|]. split; [|exact H2].
                intros r' [<-|I] P; [|now apply H1]. specialize (Hr b eq_refl).
                destruct (semver_total_order (tag r) (tag b) (tag x)) as (_ & _ & V3 & V2).
                destruct (semver_total_order (tag b) (tag x) (tag r)) as (_ & _ & Y3 & Y2).
                destruct (semver_total_order (tag x) (tag r) (tag b)) as (U1 & _ & U3 & U2). lia.
        * destruct (pick want (Some r) rs0) as [x|] eqn:Ex; [|easy]. right. apply T; [reflexivity|]. intros b' [=].
      + specialize (IH best). assert (NE : prerelease r <> want) by (intros K; rewrite K, Bool.eqb_reflx in E; easy).
        destruct (pick want best rs0) as [x|].
        * destruct IH as [(Er & H)|(l1 & l2 & -> & Px & Hr & H1 & H2)].
          -- left. split; [exact Er|]. intros r' [<-|I] P; [easy|now apply H].
          -- right. exists (r :: l1), l2. split; [reflexivity|]. split; [exact Px|]. split; [exact Hr|]. split; [|exact H2]. intros r' [<-|I] P; [easy|now apply H1].
        * destruct IH as (-> & H). split; [reflexivity|]. intros r' [<-|I]; [|now apply H]. destruct (prerelease r), want; easy. }
  assert (G : (if want then pick_latest_prerelease rs else pick_latest_stable rs) = pick want None rs) by (destruct want; reflexivity).
  rewrite G. specialize (K rs None). destruct (pick want None rs) as [r|]; [|now destruct K].
  destruct K as [[K _]|(l1 & l2 & E & P & _ & H1 & H2)]; [easy|]. exists l1, l2. auto.
Qed.
(** the change log lists exactly the releases above the current version and not above the target, in the order given *)
Theorem update_range rs cur latest :
  releases_in_range rs cur latest = filter (fun r => (compare_semver (tag r) cur =? 1) && (compare_semver (tag r) latest <=? 0)) rs.
Proof.
  unfold releases_in_range. apply filter_ext. intros r. unfold in_range, is_newer.
  destruct (semver_total_order (tag r) cur cur) as (H & _). destruct (semver_total_order (tag r) latest latest) as (H2 & _).
  destruct (0 <? compare_semver (tag r) cur) eqn:E; lia.
Qed.
(** gray update offers r exactly when r is the newest release of the channel and strictly newer than the installed
    version; without --pre it never moves a pre-release install. *)
Theorem update_offer rs v want r : run_update rs v want = Offer r ->
  In r rs /\ prerelease r = want /\ compare_semver (tag r) v = 1 /\
  (forall r', In r' rs -> prerelease r' = want -> compare_semver (tag r') (tag r) <= 0) /\
  (want = false -> chan (version_info v) <> PreRelease).
Proof.
  unfold run_update. intros H. pose proof (update_picks_latest want rs) as P.
  assert (C : want = false -> chan (version_info v) <> PreRelease) by (intros -> K; rewrite K in H; easy).
  assert (H' : match (if want then pick_latest_prerelease rs else pick_latest_stable rs) with
      | None => NoneOfChannel
      | Some t => let cmp := compare_semver (tag t) v in
                  if cmp =? 0 then UpToDate else if cmp <? 0 then AlreadyNewer else Offer t end = Offer r)
    by (destruct (chan (version_info v)), want; exact H || easy).
  clear H. destruct (if want then _ else _) as [t|]; [|easy]. cbv zeta in H'.
  destruct (compare_semver (tag t) v =? 0) eqn:E1; [easy|]. destruct (compare_semver (tag t) v <? 0) eqn:E2; [easy|]. injection H' as ->.
  destruct P as (l1 & l2 & -> & P1 & P2 & P3). destruct (semver_total_order (tag r) v v) as (T & _).
  split; [apply in_or_app; right; now left|]. split; [exact P1|]. split; [lia|]. split; [|exact C].
  intros r' I P. apply in_app_or in I. destruct I as [I|[<-|I]]; [specialize (P2 r' I P); lia| |now apply P3].
  destruct (semver_total_order (tag r) (tag r) (tag r)) as (_ & R & _). lia.
Qed.
Theorem update_offered rs v want r : In r rs -> prerelease r = want -> compare_semver (tag r) v = 1 ->
  (want = true \/ chan (version_info v) <> PreRelease) -> exists t, run_update rs v want = Offer t.
Proof.
  intros I W N C. pose proof (update_picks_latest want rs) as P. unfold run_update.
  assert (G : (match (if want then pick_latest_prerelease rs else pick_latest_stable rs) with
      | None => NoneOfChannel
      | Some t => let cmp := compare_semver (tag t) v in
                  if cmp =? 0 then UpToDate else if cmp <? 0 then AlreadyNewer else Offer t end) =
      match (if want then pick_latest_prerelease rs else pick_latest_stable rs) with Some t => Offer t | None => NoneOfChannel end /\
      (if want then pick_latest_prerelease rs else pick_latest_stable rs) <> None).
  { destruct (if want then _ else _) as [t|]; [|specialize (P r I); destruct (prerelease r), want; easy].
    split; [|easy]. cbv zeta. assert (L : compare_semver (tag r) (tag t) <= 0).
    { destruct P as (l1 & l2 & -> & P1 & P2 & P3). apply in_app_or in I. destruct I as [I|[<-|I]]; [specialize (P2 r I W); lia| |now apply P3].
      destruct (semver_total_order (tag t) (tag t) (tag t)) as (_ & R & _). lia. }
    destruct (semver_total_order (tag r) (tag t) v) as (_ & _ & _ & T).
    destruct (compare_semver (tag t) v =? 0) eqn:E1; [lia|]. destruct (compare_semver (tag t) v <? 0) eqn:E2; [lia|]. reflexivity. }
  destruct G as [G1 G2]. set (X := if want then pick_latest_prerelease rs else pick_latest_stable rs) in *. clearbody X. destruct X as [t|]; [|easy].
  exists t. destruct (chan (version_info v)), want; try exact G1. destruct C; easy.
Qed.
(** the note at start-up appears exactly for a newer version *)
Theorem update_note v latest : notify v latest = true <-> compare_semver latest v = 1.
Proof. unfold notify, is_newer. destruct (semver_total_order latest v v) as (T & _). lia. Qed.
(** the installed version is the display version followed by what git describe appended *)
Theorem version_info_parts v : let i := version_info v in
  (commit i = [] /\ display i = v /\ ~ ends_in_trailer v /\ dirty i = false) \/
  (chan i = Dev /\ exists n, digits n /\ v = display i ++ [45] ++ n ++ bs "-g" ++ commit i ++ (if dirty i then bs "-dirty" else []) /\
     commit i <> [] /\ Forall hex_char (commit i) /\ (dec_val n <= INT64_MAX -> ahead i = dec_val n)).
Proof.
  cbv zeta. unfold version_info. destruct (find_trailer v) as [[p [[n h] d]]|] eqn:E.
  - right. cbn [commit display chan dirty ahead]. split; [reflexivity|]. destruct (find_trailer_some _ _ _ E) as (t & Ev & T). apply trailer_spec in T.
    destruct T as (ds & hs & d' & [= -> -> ->] & N1 & N2 & F & G & Et). exists ds. split; [now split|]. split; [now rewrite Ev, Et|].
    split; [exact N2|]. split; [exact G|]. intros L. unfold scan_or_0, scan_int. destruct ds as [|c ds]; [easy|]. inversion_clear F as [|? ? F1 F2].
    rewrite skip_digit by exact F1. unfold is_digit in F1. replace (c =? 45) with false by lia. replace (c =? 43) with false by lia.
    rewrite take_all by (apply digits_all; now constructor).
    pose proof (dec_val_bound (c :: ds) ltac:(now constructor)). replace ((INT64_MIN <=? dec_val (c :: ds)) && (dec_val (c :: ds) <=? INT64_MAX)) with true by (unfold INT64_MIN in *; lia). reflexivity.
  - left. destruct (parse_semver v) as [[[a b] c] pre]. cbn. split; [reflexivity|]. split; [reflexivity|]. split; [now apply find_trailer_none|reflexivity].
Qed.
Definition rel (t : string) (p : bool) : release := Rel (bs t) p [].
Example update_demo :
  let rs := [rel "v2.9.0" false; rel "v3.0.0-beta.2" true; rel "v2.10.0" false; rel "v3.0.0-beta.10" true; rel "v2.10.0" false] in
  run_update rs (bs "v2.9.5") false = Offer (rel "v2.10.0" false) /\ run_update rs (bs "v2.9.5") true = Offer (rel "v3.0.0-beta.10" true) /\
  run_update rs (bs "v3.0.0-beta.2") false = OnPrerelease /\ run_update rs (bs "v2.10.0") false = UpToDate /\ run_update rs (bs "v2.11.0") false = AlreadyNewer /\
  releases_in_range rs (bs "v2.9.0") (bs "v2.10.0") = [rel "v2.10.0" false; rel "v2.10.0" false].
Proof. repeat split; vm_compute; reflexivity. Qed.
(** A development build four commits past the stable tag v3.0.0 counts as a pre-release of it, and is offered v3.0.0. *)
Theorem update_dev_build_refuted : exists rs v r, run_update rs v false = Offer r /\ version_info v = Info (tag r) Dev (bs "0cbcb58") 4 false.
Proof. exists [rel "v3.0.0" false], (bs "v3.0.0-4-g0cbcb58"), (rel "v3.0.0" false). split; vm_compute; reflexivity. Qed.

(** ** C89 *)
Lemma trim_v_spec s : exists v, (v = [] \/ v = [118]) /\ s = v ++ trim_v s /\ (forall c r, is_digit c -> trim_v (c :: r) = c :: r).
Proof.
  assert (D : forall c r, is_digit c -> trim_v (c :: r) = c :: r) by (intros c r H; unfold is_digit in H; cbn; destruct (c =? 118) eqn:E; [lia|reflexivity]).
  destruct s as [|c s]; [exists []; auto|]. cbn [trim_v]. destruct (c =? 118) eqn:E; [exists [118]|exists []; auto].
  assert (c = 118) by lia. subst. auto.
Qed.
Lemma alnum_iff c : alnum c = true <-> alnum_char c.
Proof. unfold alnum, digit, alnum_char. lia. Qed.
Lemma suffix_iff c : suffix c = true <-> suffix_char c.
Proof. unfold suffix, alnum, digit, suffix_char, word_char. lia. Qed.
Lemma number_dot_spec s r : number_dot s = Some r <-> exists d, digits d /\ s = d ++ [46] ++ r.
Proof.
  unfold number_dot. split.
  - pose proof (take_spec digit s) as T. destruct (take digit s) as [d q]. destruct T as (-> & F & _). destruct d as [|x d]; [easy|]. destruct q as [|c q]; [easy|].
    destruct (c =? 46) eqn:E; [|easy]. intros [= <-]. assert (c = 46) by lia. subst. exists (x :: d). split; [|reflexivity]. split; [easy|].
    revert F. apply Forall_impl. intros; now apply digit_iff.
  - intros (d & (N & F) & ->). rewrite take_app; [|now apply digits_all|reflexivity]. destruct d; [easy|]. reflexivity.
Qed.
Lemma opt_part_spec m s r : m <> 46 -> (m <> 45 -> suffix m = false) -> match r with c :: _ => suffix c = false | [] => True end ->
  opt_part m s = Some r <-> exists p, part m p /\ s = p ++ r /\ (p = [] -> match r with c :: _ => c <> m | [] => True end).
Proof.
  intros Nm Hm Hr. unfold opt_part. split.
  - destruct s as [|c s].
    + intros [= <-]. exists []. split; [now left|]. auto.
    + destruct (c =? m) eqn:E.
      * destruct s as [|d s]; [easy|]. destruct (alnum d) eqn:A; [|easy]. intros [= <-]. pose proof (take_spec suffix s) as T.
        destruct (take suffix s) as [a b]. destruct T as (-> & F & _). cbn [snd]. assert (c = m) by lia. subst. exists (m :: d :: a). split; [|split; [reflexivity|easy]].
        right. exists d, a. split; [reflexivity|]. split; [now apply alnum_iff|]. revert F. apply Forall_impl. intros; now apply suffix_iff.
      * intros [= <-]. exists []. split; [now left|]. split; [reflexivity|]. intros _. lia.
  - intros (p & [->|(d & a & -> & A & F)] & -> & G).
    + cbn [app]. specialize (G eq_refl). destruct r as [|c r]; [reflexivity|]. destruct (c =? m) eqn:E; [lia|reflexivity].
    + cbn [app]. rewrite Z.eqb_refl, (proj2 (alnum_iff d) A). rewrite take_app; [reflexivity| |exact Hr]. revert F. apply Forall_impl. intros; now apply suffix_iff.
Qed.
Lemma take_unique p a b s : take p s = (a, b) -> s = a ++ b.
Proof. pose proof (take_spec p s) as T. destruct (take p s). intros [= -> ->]. apply T. Qed.
Theorem install_version_syntax s : exact_semver s = true <-> full_version s.
Proof.
  unfold exact_semver. split.
  - destruct (trim_v_spec s) as (v & Hv & Es & _). destruct (number_dot (trim_v s)) as [s1|] eqn:E1; [|easy]. apply number_dot_spec in E1. destruct E1 as (a & Da & E1).
    destruct (number_dot s1) as [s2|] eqn:E2; [|easy]. apply number_dot_spec in E2. destruct E2 as (b & Db & E2).
    pose proof (take_spec digit s2) as T. destruct (take digit s2) as [c s3]. destruct T as (E3 & F & _). destruct c as [|x c]; [easy|].
    destruct (opt_part 45 s3) as [s4|] eqn:E4; [|easy]. destruct (opt_part 43 s4) as [s5|] eqn:E5; [|easy]. intros B. apply beq_iff in B. subst s5.
    apply opt_part_spec in E5; [|lia|reflexivity|exact Logic.I]. destruct E5 as (m & Pm & Em & _). rewrite app_nil_r in Em.
    assert (H4 : match s4 with c :: _ => suffix c = false | [] => True end).
    { subst s4. destruct Pm as [->|(d & r & -> & _)]; [exact Logic.I|reflexivity]. }
    apply opt_part_spec in E4; [|lia|lia|exact H4]. destruct E4 as (p & Pp & Ep & _).
    exists v, a, b, (x :: c), p, m. split; [exact Hv|]. split; [exact Da|]. split; [exact Db|]. split; [split; [easy|]; revert F; apply Forall_impl; intros; now apply digit_iff|].
    split; [exact Pp|]. split; [exact Pm|]. rewrite Es, E1, E2, E3, Ep, Em. reflexivity.
  - intros (v & a & b & c & p & m & Hv & Da & Db & (Nc & Fc) & Pp & Pm & ->).
    assert (TV : trim_v (v ++ a ++ [46] ++ b ++ [46] ++ c ++ p ++ m) = a ++ [46] ++ b ++ [46] ++ c ++ p ++ m).
    { destruct Hv as [-> | ->]; [|reflexivity]. destruct Da as (Na & Fa). destruct a as [|x a]; [easy|]. inversion_clear Fa as [|? ? F1 _].
      destruct (trim_v_spec []) as (_ & _ & _ & D). cbn [app]. now apply D. }
    rewrite TV. rewrite (proj2 (number_dot_spec _ _)) by (exists a; auto). rewrite (proj2 (number_dot_spec _ _)) by (exists b; auto).
    assert (HP : match p ++ m with c :: _ => digit c = false | [] => True end).
    { destruct Pp as [->|(d & r & -> & _)]; [|reflexivity]. destruct Pm as [->|(d & r & -> & _)]; [exact Logic.I|reflexivity]. }
    rewrite take_app; [|now apply digits_all|exact HP]. destruct c as [|x c]; [easy|].
    assert (HM : match m with c :: _ => suffix c = false | [] => True end) by (destruct Pm as [->|(d & r & -> & _)]; [exact Logic.I|reflexivity]).
    rewrite (proj2 (opt_part_spec 45 (p ++ m) m ltac:(lia) ltac:(lia) HM)).
    2:{ exists p. split; [exact Pp|]. split; [reflexivity|]. intros _. destruct Pm as [->|(d & r & -> & _)]; [exact Logic.I|lia]. }
    rewrite (proj2 (opt_part_spec 43 m [] ltac:(lia) ltac:(reflexivity) Logic.I)); [reflexivity|].
    exists m. rewrite app_nil_r. auto.
Qed.
Lemma find_release_spec w rs : match find_release w rs with
  | Some r => exists l1 l2, rs = l1 ++ r :: l2 /\ trim_v (tag r) = w /\ forall r', In r' l1 -> trim_v (tag r') <> w
  | None => forall r, In r rs -> trim_v (tag r) <> w end.
Proof.
  induction rs as [|r rs IH]; cbn [find_release]; [easy|]. destruct (beq (trim_v (tag r)) w) eqn:E.
  - apply beq_iff in E. exists [], rs. auto.
  - assert (N : trim_v (tag r) <> w) by (intros K; apply beq_iff in K; congruence). destruct (find_release w rs) as [x|].
    + destruct IH as (l1 & l2 & -> & T & H). exists (r :: l1), l2. split; [reflexivity|]. split; [exact T|]. intros r' [<-|I]; auto.
    + intros r' [<-|I]; auto.
Qed.
(** the suggestions: everything, newest first *)
Lemma pass_spec l : forall r, let (c, l') := pass r l in Permutation (r :: l) (c :: l') /\ Forall (fun x => compare_semver (tag x) (tag c) <= 0) l' /\ compare_semver (tag r) (tag c) <= 0.
Proof.
  induction l as [|x l IH]; intros r; cbn [pass].
  - split; [reflexivity|]. split; [constructor|]. destruct (semver_total_order (tag r) [] []) as (_ & -> & _). lia.
  - destruct (0 <? compare_semver (tag x) (tag r)) eqn:E.
    + specialize (IH x). destruct (pass x l) as [c l']. destruct IH as (P & F & L).
      assert (L2 : compare_semver (tag r) (tag c) <= 0).
      { destruct (semver_total_order (tag r) (tag x) (tag c)) as (_ & _ & A & T). lia. }
      split; [apply (perm_trans (l' := r :: c :: l')); [now apply perm_skip|apply perm_swap]|]. split; [|exact L2]. constructor; [exact L2|exact F].
    + specialize (IH r). destruct (pass r l) as [c l']. destruct IH as (P & F & L).
      split; [apply (perm_trans (perm_swap _ _ _)); apply (perm_trans (l' := x :: c :: l')); [now apply perm_skip|apply perm_swap]|]. split; [|exact L]. constructor; [|exact F].
      destruct (semver_total_order (tag x) (tag r) (tag c)) as (_ & _ & _ & T). lia.
Qed.
Lemma exchange_sort_spec n : forall l, length l = n -> Permutation l (exchange_sort n l) /\ StronglySorted (fun a b => compare_semver (tag b) (tag a) <= 0) (exchange_sort n l).
Proof.
  induction n as [|n IH]; intros l L; destruct l as [|r l]; try discriminate; cbn [exchange_sort]; [split; constructor|].
  pose proof (pass_spec l r) as P. destruct (pass r l) as [c l'] eqn:E. destruct P as (P & F & _).
  assert (L' : length l' = n) by (apply Permutation_length in P; cbn in *; congruence).
  destruct (IH l' L') as (P2 & S2). split; [now rewrite P, <- P2|]. constructor; [exact S2|]. now rewrite <- P2.
Qed.
(** gray install: only full versions are taken; what is downloaded is the asset for this platform of the release with
    exactly that tag (up to a leading v), with the downgrade warning exactly when it is older; otherwise it says why not. *)
Theorem install_exact rs current version asset :
  match run_install rs current version asset with
  | BadVersion => ~ full_version version
  | NotFound l => full_version version /\ (forall r, In r rs -> trim_v (tag r) <> trim_v version) /\
      exists s, Permutation rs s /\ StronglySorted (fun a b => compare_semver (tag b) (tag a) <= 0) s /\ l = map tag (firstn 5 s)
  | Already r => full_version version /\ In r rs /\ trim_v (tag r) = trim_v version /\ compare_semver (tag r) current = 0
  | NoAsset r => full_version version /\ In r rs /\ trim_v (tag r) = trim_v version /\ forall u, In (asset, u) (assets r) -> u <> [] -> exists u', In (asset, u') (assets r) /\ u' = []
  | Download r u downgrade => full_version version /\ In r rs /\ trim_v (tag r) = trim_v version /\ In (asset, u) (assets r) /\ u <> [] /\
      compare_semver (tag r) current <> 0 /\ (downgrade = true <-> compare_semver (tag r) current = -1)
  end.
Proof.
  assert (AU : forall l, (asset_url asset l <> [] -> In (asset, asset_url asset l) l) /\ (asset_url asset l = [] -> (forall u, ~ In (asset, u) l) \/ In (asset, []) l)).
  { induction l as [|[n u] l (IH1 & IH2)]; cbn [asset_url]; [split; [easy|left; easy]|]. destruct (beq n asset) eqn:E.
    - apply beq_iff in E. subst. split; [left; reflexivity|]. intros ->. right. now left.
    - assert (n <> asset) by (intros K; apply beq_iff in K; congruence). split; [intros H1; right; now apply IH1|]. intros H1.
      destruct (IH2 H1) as [H2|H2]; [left|right; now right]. intros u' [K|K]; [congruence|now apply (H2 u')]. }
  unfold run_install. destruct (exact_semver version) eqn:E; cbn [negb].
  2:{ intros K. apply install_version_syntax in K. congruence. }
  apply install_version_syntax in E. pose proof (find_release_spec (trim_v version) rs) as F. destruct (find_release (trim_v version) rs) as [t|].
  - destruct F as (l1 & l2 & -> & T & _). assert (I : In t (l1 ++ t :: l2)) by (apply in_or_app; right; now left).
    destruct (compare_semver (tag t) current =? 0) eqn:C; [repeat split; auto; lia|]. cbv zeta. destruct (AU (assets t)) as (A1 & A2).
    destruct (beq (asset_url asset (assets t)) []) eqn:B.
    + apply beq_iff in B. split; [exact E|]. split; [exact I|]. split; [exact T|]. intros u Hu _. destruct (A2 B) as [H|H]; [now apply H in Hu|eauto].
    + assert (U : asset_url asset (assets t) <> []) by (intros K; apply beq_iff in K; congruence).
      destruct (semver_total_order (tag t) current current) as (O & _). split; [exact E|]. split; [exact I|]. split; [exact T|]. split; [now apply A1|]. split; [exact U|]. split; lia.
  - split; [exact E|]. split; [exact F|]. destruct (exchange_sort_spec (length rs) rs eq_refl) as (P & S). eauto.
Qed.
Example install_demo :
  let rs := [Rel (bs "v3.0.0-beta.2") true [(bs "a.zip", bs "u1"); (bs "b.zip", bs "u2")]; Rel (bs "v2.5.0") false [(bs "b.zip", bs "u3")]; Rel (bs "v10.0.0") false []] in
  run_install rs (bs "v3.0.0-alpha.1") (bs "3.0.0-beta.2") (bs "b.zip") = Download (Rel (bs "v3.0.0-beta.2") true [(bs "a.zip", bs "u1"); (bs "b.zip", bs "u2")]) (bs "u2") false /\
  run_install rs (bs "v3.0.0-alpha.1") (bs "v2.5") (bs "b.zip") = BadVersion /\
  run_install rs (bs "v3.0.0-alpha.1") (bs "v2.5.1") (bs "b.zip") = NotFound [bs "v10.0.0"; bs "v3.0.0-beta.2"; bs "v2.5.0"] /\
  run_install rs (bs "v3.0.0-alpha.1") (bs "2.5.0") (bs "b.zip") = Download (Rel (bs "v2.5.0") false [(bs "b.zip", bs "u3")]) (bs "u3") true /\
  full_version (bs "v2.5.0-rc.1+x").
Proof.
  split; [vm_compute; reflexivity|]. split; [vm_compute; reflexivity|]. split; [vm_compute; reflexivity|]. split; [vm_compute; reflexivity|].
  apply install_version_syntax. vm_compute. reflexivity.
Qed.

Print Assumptions semver_total_order. Print Assumptions semver_precedence_partial. Print Assumptions semver_precedence_refuted.
Print Assumptions update_picks_latest. Print Assumptions update_range. Print Assumptions update_offer. Print Assumptions update_offered.
Print Assumptions update_note. Print Assumptions version_info_parts. Print Assumptions update_dev_build_refuted.
Print Assumptions install_version_syntax. Print Assumptions install_exact.
