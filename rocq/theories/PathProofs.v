(** Lemmas for PathProps: normalisation. *)
From Verif Require Import Base BaseFacts SemverSpec SemverModel SemverProofs InstallSpec InstallModel InstallProofs InstallProofs2 ServerModel ServerProofs PathSpec PathModel.

Definition full (x : bytes) : bool := negb (same_name x []).
(** The steps of the loop over a list of segments *)
Fixpoint run (absolute : bool) (st l : list bytes) : res (list bytes) :=
  match l with [] => Ok st | x :: l => match put absolute st x with Ok st => run absolute st l | e => e end end.
Lemma skip_pieces s : filter full (parts (skip_slashes s)) = filter full (parts s) /\ (length (skip_slashes s) <= length s)%nat.
Proof.
  induction s as [|c s (IH & L)]; [now split|]. cbn [skip_slashes parts]. destruct (c =? 47) eqn:E; [|cbn [parts length]; rewrite E; split; [reflexivity|lia]].
  cbn [filter]. change (full []) with false. cbn iota. split; [exact IH|cbn [length]; lia].
Qed.
Lemma skip_head s c r : skip_slashes s = c :: r -> c <> 47.
Proof. induction s as [|d s IH]; cbn [skip_slashes]; [discriminate|]. destruct (Z.eqb_spec d 47); [exact IH|]. intros [= <- _]. assumption. Qed.
Lemma to_slash_spec s n r : to_slash s = (n, r) -> (s = n /\ r = [] /\ ~ In 47 n) \/ (s = n ++ 47 :: r /\ ~ In 47 n).
Proof.
  revert n r. induction s as [|c s IH]; intros n r; cbn [to_slash]; [intros [= <- <-]; left; auto|]. destruct (Z.eqb_spec c 47) as [->|N]; [intros [= <- <-]; right; split; [reflexivity|auto]|].
  destruct (to_slash s) as (n' & r') eqn:E. intros [= <- <-]. destruct (IH n' r' eq_refl) as [(-> & -> & K)|(-> & K)]; [left|right]; repeat split; intros [Q|Q]; congruence || auto.
Qed.
Lemma segments_run absolute : forall fuel tok st, (length tok < fuel)%nat -> segments fuel absolute st tok = run absolute st (filter full (parts tok)).
Proof.
  induction fuel as [|fuel IH]; intros tok st L; [lia|]. cbn [segments]. destruct (skip_pieces tok) as (<- & SL). destruct (skip_slashes tok) as [|c t] eqn:E; [reflexivity|].
  pose proof (skip_head _ _ _ E) as NC. destruct (to_slash (c :: t)) as (seg & rest) eqn:T. apply to_slash_spec in T as [(T & -> & K)|(T & K)].
  - rewrite T, parts_one by exact K. assert (F : full seg = true) by (destruct seg; [discriminate|reflexivity]). cbn [filter]. rewrite F. cbn [run]. destruct (put absolute st seg); try reflexivity. rewrite IH by (cbn [length] in *; lia). reflexivity.
  - rewrite T, parts_app, (parts_one seg) by exact K. assert (F : full seg = true) by (destruct seg as [|x seg]; [cbn [app] in T; congruence|reflexivity]).
    cbn [app filter]. rewrite F. cbn [run]. destruct (put absolute st seg); try reflexivity. apply IH. rewrite T, app_length in SL. cbn [length] in SL. lia.
Qed.

(** The stack: names above ".." *)
Definition ups (k : nat) : list bytes := List.repeat (bs "..") k.
Definition size (l : list bytes) : nat := fold_right (fun x n => (length x + 1 + n)%nat) 0%nat l.
Lemma ups_length k : length (ups k) = k.
Proof. apply repeat_length. Qed.
Lemma filter_len {A} (f : A -> bool) l : (length (filter f l) <= length l)%nat.
Proof. induction l as [|x l IH]; [reflexivity|]. cbn [filter]. destruct (f x); cbn [length]; lia. Qed.
Lemma size_app a b : size (a ++ b) = (size a + size b)%nat.
Proof. induction a as [|x a IH]; [reflexivity|]. cbn [app size fold_right]. fold (size (a ++ b)) (size a). lia. Qed.
Lemma size_rev a : size (rev a) = size a.
Proof. induction a as [|x a IH]; [reflexivity|]. cbn [rev]. rewrite size_app, IH. cbn [size fold_right]. fold (size a). lia. Qed.
Lemma plain_tests x : plain x -> beq x (bs ".") = false /\ beq x (bs "..") = false.
Proof. intros (A & B & C). rewrite !beq_same. split; (destruct (same_name x _) eqn:E; [apply same_name_iff in E; congruence|reflexivity]). Qed.
Lemma go_up (w : list bytes) n : go (w ++ [n]) (bs "..") = w.
Proof. change (go (w ++ [n]) (bs "..")) with (removelast (w ++ [n])). apply removelast_last. Qed.
Lemma run_ok absolute l : forall names k, Forall plain names -> (absolute = true -> k = 0%nat) -> (length (names ++ ups k) + length l <= 256)%nat -> Forall (fun x => x <> []) l ->
  exists names' k', run absolute (names ++ ups k) l = Ok (names' ++ ups k') /\ Forall plain names' /\ (absolute = true -> k' = 0%nat) /\
    (forall x, In x names' -> In x names \/ In x l) /\ (size (names' ++ ups k') <= size (names ++ ups k) + size l)%nat /\
    (if absolute then rev names' = walk (rev names) l else forall start, walk start (rev (names' ++ ups k')) = walk start (rev (names ++ ups k) ++ l)).
Proof.
  induction l as [|x l IH]; intros names k P K L NE.
  { exists names, k. cbn [run]. split; [reflexivity|]. split; [exact P|]. split; [exact K|]. split; [auto|]. split; [lia|]. destruct absolute; [reflexivity|]. intros start. now rewrite app_nil_r. }
  inversion NE as [|? ? NX NE']; subst. cbn [length size fold_right] in L. cbn [run size fold_right]. fold (size l).
  assert (CASE : x = bs "." \/ x = bs ".." \/ plain x).
  { destruct (list_eq_dec Z.eq_dec x (bs ".")); [auto|]. destruct (list_eq_dec Z.eq_dec x (bs "..")); [auto|]. right; right. now repeat split. }
  destruct CASE as [-> | [-> | PX]].
  - unfold put. change (beq (bs ".") (bs ".")) with true. cbv zeta iota. destruct (IH names k P K ltac:(lia) NE') as (n' & k' & R & A & B & C & D & E). exists n', k'. split; [exact R|]. split; [exact A|]. split; [exact B|].
    split; [intros y I; apply C in I as [I|I]; [auto|right; now right]|]. split; [lia|]. destruct absolute; [exact E|]. intros start. rewrite E, !walk_app, walk_cons. reflexivity.
  - unfold put. change (beq (bs "..") (bs ".")) with false. change (beq (bs "..") (bs "..")) with true. cbv zeta iota. destruct names as [|n names].
    + cbn [app]. assert (S1 : match ups k with [] => if negb absolute then if (length (ups k) <? max_segments)%nat then Ok (bs ".." :: ups k) else UB else Ok (ups k)
        | top :: below => if negb (beq top (bs "..")) then Ok below else if negb absolute then if (length (ups k) <? max_segments)%nat then Ok (bs ".." :: ups k) else UB else Ok (ups k) end =
        if absolute then Ok (ups k) else Ok (ups (S k))).
      { cbn [app length] in L. assert (LT : (length (ups k) <? max_segments)%nat = true) by (apply Nat.ltb_lt; unfold max_segments; lia). rewrite LT. destruct k as [|k]; cbn [ups List.repeat]; [destruct absolute; reflexivity|].
        change (beq (bs "..") (bs "..")) with true. cbn [negb]. destruct absolute; reflexivity. }
      rewrite S1. cbn [app] in L. destruct absolute.
      * destruct (IH [] k P K ltac:(cbn [app]; lia) NE') as (n' & k' & R & A & B & C & D & E). exists n', k'. split; [exact R|]. split; [exact A|]. split; [exact B|].
        split; [intros y I; apply C in I as [I|I]; [auto|right; now right]|]. split; [cbn [app] in D; lia|]. exact E.
      * destruct (IH [] (S k) P ltac:(discriminate) ltac:(cbn [app ups List.repeat length] in *; unfold ups in L; lia) NE') as (n' & k' & R & A & B & C & D & E). exists n', k'. split; [exact R|]. split; [exact A|]. split; [exact B|].
        split; [intros y I; apply C in I as [I|I]; [auto|right; now right]|]. split; [cbn [app ups List.repeat size fold_right] in D |- *; fold (ups k) in D; fold (size (ups k)) in D; unfold ups in *; lia|].
        intros start. rewrite E. f_equal. cbn [app ups List.repeat rev]. rewrite <- app_assoc. reflexivity.
    + inversion P as [|? ? Pn P']; subst. cbn [app]. destruct (plain_tests n Pn) as (_ & ->). cbn [negb]. cbn [app length] in L.
      destruct (IH names k P' K ltac:(lia) NE') as (n' & k' & R & A & B & C & D & E). exists n', k'. split; [exact R|]. split; [exact A|]. split; [exact B|].
      split; [intros y I; apply C in I as [I|I]; [left; now right|right; now right]|]. split; [cbn [app size fold_right]; fold (size (names ++ ups k)); lia|].
      destruct absolute.
      * rewrite E. cbn [rev]. rewrite walk_cons. now rewrite go_up.
      * intros start. rewrite E. cbn [app rev]. rewrite <- app_assoc, !walk_app. cbn [app]. rewrite !walk_cons, (go_plain _ n) by exact Pn.
        exact (f_equal (fun s => walk s l) (eq_sym (go_up _ _))).
  - unfold put. destruct (plain_tests x PX) as (-> & ->). cbv zeta. assert (LT : (length (names ++ ups k) <? max_segments)%nat = true) by (apply Nat.ltb_lt; unfold max_segments; lia). rewrite LT.
    destruct (IH (x :: names) k ltac:(now constructor) K ltac:(cbn [app length]; lia) NE') as (n' & k' & R & A & B & C & D & E). exists n', k'. split; [exact R|]. split; [exact A|]. split; [exact B|].
    split; [intros y I; apply C in I as [[<-|I]|I]; [right; now left|auto|right; now right]|]. split; [cbn [app size fold_right] in D; fold (size (names ++ ups k)) in D; lia|].
    destruct absolute.
    + rewrite E. cbn [rev]. rewrite walk_cons, go_plain by exact PX. reflexivity.
    + intros start. rewrite E. cbn [app rev]. rewrite <- app_assoc. reflexivity.
Qed.

Lemma rebuild_join l : rebuild l = join 47 l.
Proof. induction l as [|x l IH]; [reflexivity|]. cbn [rebuild join]. destruct l; [reflexivity|]. now rewrite IH. Qed.
Lemma join_size l : l <> [] -> (length (join 47 l) + 1 = size l)%nat.
Proof.
  induction l as [|x l IH]; [easy|]. intros _. cbn [join size fold_right]. fold (size l). destruct l as [|y l]; [cbn [size fold_right]; lia|].
  rewrite !app_length. cbn [length]. rewrite <- IH by easy. lia.
Qed.
Lemma parts_size s : size (parts s) = (length s + 1)%nat.
Proof.
  induction s as [|c s IH]; [reflexivity|]. cbn [parts length]. destruct (c =? 47); [cbn [size fold_right length]; fold (size (parts s)); lia|].
  destruct (parts s) as [|f r] eqn:E; [now apply parts_nonempty in E|]. cbn [size fold_right length] in *. lia.
Qed.
Lemma filter_size f l : (size (filter f l) <= size l)%nat.
Proof. induction l as [|x l IH]; [reflexivity|]. cbn [filter]. destruct (f x); cbn [size fold_right]; fold (size l); fold (size (filter f l)); lia. Qed.
Lemma walk_full l : forall st, walk st (filter full l) = walk st l.
Proof.
  induction l as [|x l IH]; intros st; [reflexivity|]. cbn [filter]. destruct (full x) eqn:F.
  - rewrite !walk_cons. apply IH.
  - rewrite IH, walk_cons. f_equal. unfold full in F. apply negb_false_iff, same_name_iff in F. subst x. reflexivity.
Qed.
Lemma slashes_no_nul p : ~ In 0 p -> ~ In 0 (slashes p) /\ ~ In 92 (slashes p).
Proof.
  intros N. unfold slashes. split; intros K; apply in_map_iff in K as (c & E & I); destruct (Z.eqb_spec c 92); try congruence; lia.
Qed.
Lemma parts_chars s x c : In x (parts s) -> In c x -> In c s.
Proof.
  revert x. induction s as [|d s IH]; intros x; cbn [parts].
  - intros [<-|[]] [].
  - destruct (d =? 47); [intros [<-|I]; [intros []|right; eauto]|]. destruct (parts s) as [|f r] eqn:E; [intros [<-|[]]; [intros [<-|[]]]; now left|].
    intros [<-|I] K; [destruct K as [<-|K]; [now left|right; eapply IH; [now left|exact K]]|right; eapply IH; [right; exact I|exact K]].
Qed.
(** The canonical text of a stack *)
Definition text_of (absolute : bool) (k : nat) (names : list bytes) : bytes :=
  if absolute then 47 :: join 47 names else match ups k ++ names with [] => bs "." | l => join 47 l end.
Lemma join_nonempty l : l <> [] -> (forall x, In x l -> x <> []) -> join 47 l <> [].
Proof. destruct l as [|x l]; [easy|]. intros _ H. cbn [join]. pose proof (H x (or_introl eq_refl)). destruct x; [easy|]. destruct l; discriminate. Qed.
Lemma ups_rev k : rev (ups k) = ups k.
Proof. unfold ups. induction k as [|k IH]; [reflexivity|]. cbn [List.repeat rev]. rewrite IH. symmetry. apply repeat_cons. Qed.
Lemma in_ups k x : In x (ups k) -> x = bs "..".
Proof. apply repeat_spec. Qed.

Definition out_text (ab : bool) (st : list bytes) : bytes := let t := (if ab then [47] else []) ++ rebuild (rev st) in match t with [] => bs "." | _ => t end.
Lemma normalize_eq p : p <> [] -> normalize p =
  match segments (S (length p)) (is_absolute (slashes p)) [] (cstr (slashes p)) with
  | Ok st => if (length p + 2 <? length (out_text (is_absolute (slashes p)) st) + 1)%nat then UB else Ok (out_text (is_absolute (slashes p)) st)
  | Panic c => Panic c | UB => UB | NoFuel => NoFuel
  end.
Proof. destruct p as [|c p]; [easy|]. reflexivity. Qed.
Lemma put_cap ab st x st' : put ab st x = Ok st' -> (length st <= 256)%nat -> (length st' <= 256)%nat.
Proof.
  unfold put, max_segments. cbv zeta. destruct (beq x (bs ".")); [intros [= ->]; auto|]. destruct (beq x (bs "..")).
  - assert (K : (if negb ab then if (length st <? 256)%nat then Ok (x :: st) else UB else Ok st) = Ok st' -> (length st <= 256)%nat -> (length st' <= 256)%nat).
    { destruct ab; cbn [negb]; [intros [= ->]; auto|]. destruct (Nat.ltb_spec (length st) 256); [|discriminate]. intros [= <-]. cbn [length]. lia. }
    destruct st as [|top st]; [exact K|]. destruct (negb (beq top (bs ".."))); [|exact K]. intros [= ->]. cbn [length]. lia.
  - destruct (Nat.ltb_spec (length st) 256); intros [= <-]; [cbn [length]; lia|auto].
Qed.
Lemma run_cap ab l : forall st st', run ab st l = Ok st' -> (length st <= 256)%nat -> (length st' <= 256)%nat.
Proof.
  induction l as [|x l IH]; intros st st'; cbn [run]; [intros [= ->]; auto|]. destruct (put ab st x) as [s| | |] eqn:E; try discriminate. intros R L. eapply IH; [exact R|]. eapply put_cap; eauto.
Qed.
Lemma normalize_spec_full p : p <> [] -> ~ In 0 p -> (length (pieces p) <= 256)%nat ->
  exists k names, normalize p = Ok (text_of (is_absolute (slashes p)) k names) /\ (k + length names <= 256)%nat /\ Forall name names /\ (is_absolute (slashes p) = true -> k = 0%nat) /\
    (if is_absolute (slashes p) then names = walk [] (parts (slashes p)) else forall start, walk start (ups k ++ names) = walk start (parts (slashes p))).
Proof.
  intros NE N L. destruct (slashes_no_nul p N) as (N0 & N92). rewrite (normalize_eq p NE). set (ab := is_absolute (slashes p)) in *.
  rewrite cstr_id by exact N0. assert (LS : length (slashes p) = length p) by apply map_length. rewrite segments_run by lia. change (filter full (parts (slashes p))) with (pieces p).
  assert (NP : Forall (fun x => x <> []) (pieces p)) by (apply Forall_forall; intros x I; apply filter_In in I as (_ & F); destruct x; [discriminate|easy]).
  destruct (run_ok ab (pieces p) [] 0 (Forall_nil _) ltac:(auto) L NP) as (names' & k & R & A & B & C & D & E). cbn [app ups List.repeat] in R. rewrite R.
  exists k, (rev names').
  assert (NN : Forall name (rev names')).
  { apply Forall_forall. intros x I. apply in_rev in I. rewrite Forall_forall in A. destruct (A x I) as (A1 & A2 & A3). destruct (C x I) as [[]|I']. apply filter_In in I' as (I' & _). split; [exact A1|]. split; [exact A2|]. split; [exact A3|]. split; [now apply parts_no in I'|]. split; intros K; apply (parts_chars _ _ _ I') in K; auto. }
  assert (RV : rev (names' ++ ups k) = ups k ++ rev names') by now rewrite rev_app_distr, ups_rev.
  assert (TE : out_text ab (names' ++ ups k) = text_of ab k (rev names')).
  { unfold text_of, out_text. cbv zeta. rewrite rebuild_join, RV. destruct ab; [rewrite (B eq_refl); reflexivity|]. cbn [app]. destruct (ups k ++ rev names') as [|x l] eqn:EL; [reflexivity|].
    destruct (join 47 (x :: l)) eqn:EJ; [|reflexivity]. elim (join_nonempty (x :: l) ltac:(easy)); [|exact EJ]. rewrite <- EL. intros y I. apply in_app_or in I as [I|I]; [apply in_ups in I; subst; easy|]. rewrite Forall_forall in NN. now destruct (NN y I). }
  rewrite TE. split; [|split; [apply run_cap in R; [rewrite app_length, ups_length in R; rewrite rev_length; lia|cbn; lia]|split; [exact NN|split; [exact B|]]]].
  - assert (LT : (length (text_of ab k (rev names')) <= length p + 1)%nat).
    { assert (D2 : (size (ups k ++ rev names') <= size (pieces p))%nat) by (rewrite <- RV, size_rev; exact D). clear D. rename D2 into D. unfold text_of. destruct ab eqn:EA.
      - rewrite (B eq_refl) in D. cbn [app ups List.repeat] in D. cbn [length]. destruct (rev names') as [|x l] eqn:EL; [cbn; lia|]. pose proof (join_size (x :: l) ltac:(easy)) as J.
        assert (SP : (size (pieces p) <= length p)%nat).
        { unfold pieces. fold full. rewrite <- LS. unfold ab, is_absolute in EA. destruct (slashes p) as [|c r]; [discriminate|]. cbn [parts]. rewrite EA. cbn [filter]. change (negb (same_name [] [])) with false. cbn iota. pose proof (filter_size full (parts r)) as Q. rewrite parts_size in Q. cbn [length]. rewrite Nat.add_1_r in Q. exact Q. }
        lia.
      - destruct (ups k ++ rev names') as [|x l] eqn:EL; [change (length (bs ".")) with 1%nat; lia|]. pose proof (join_size (x :: l) ltac:(easy)) as J. pose proof (filter_size full (parts (slashes p))) as Q. rewrite parts_size, LS in Q. change (filter full (parts (slashes p))) with (pieces p) in Q. lia. }
    destruct (Nat.ltb_spec (length p + 2) (length (text_of ab k (rev names')) + 1)); [lia|reflexivity].
  - destruct ab.
    + rewrite E. cbn [rev]. exact (walk_full _ []).
    + intros start. rewrite <- RV, E. cbn [app ups List.repeat rev]. exact (walk_full _ start).
Qed.

Lemma normalize_spec p : ~ In 0 p -> (length (pieces p) <= 256)%nat ->
  exists k names, normalize p = Ok (text_of (is_absolute (slashes p)) k names) /\ (k + length names <= 256)%nat /\ Forall name names /\ (is_absolute (slashes p) = true -> k = 0%nat) /\
    (if is_absolute (slashes p) then names = walk [] (parts (slashes p)) else forall start, walk start (ups k ++ names) = walk start (parts (slashes p))).
Proof.
  intros N L. destruct p as [|c p]; [|now apply normalize_spec_full]. exists 0%nat, []. split; [reflexivity|]. split; [cbn; lia|]. split; [constructor|]. split; [auto|]. intros start. reflexivity.
Qed.

(** What the text of a stack denotes *)
Lemma name_plain x : name x -> plain x.
Proof. intros (A & B & C & _). now split. Qed.
Lemma names_plain l : Forall name l -> Forall plain l.
Proof. intros F. eapply Forall_impl; [|exact F]. exact name_plain. Qed.
Lemma walk_ups k : forall start, walk start (ups k) = firstn (length start - k) start.
Proof.
  induction k as [|k IH]; intros start; [rewrite Nat.sub_0_r, firstn_all; reflexivity|]. cbn [ups List.repeat]. rewrite walk_cons. fold (ups k). rewrite IH. change (go start (bs "..")) with (removelast start).
  destruct (rev_ind_len start) as [-> | (a & st & ->)]; [destruct k; reflexivity|]. rewrite removelast_last, app_length. cbn [length]. rewrite firstn_app. replace (length st + 1 - S k)%nat with (length st - k)%nat by lia.
  replace (length st - k - length st)%nat with 0%nat by lia. cbn [firstn]. now rewrite app_nil_r.
Qed.
Lemma walk_stack start k names : Forall name names -> walk start (ups k ++ names) = firstn (length start - k) start ++ names.
Proof. intros F. rewrite walk_app, walk_ups. apply walk_plain. now apply names_plain. Qed.
Lemma join_chars c l : In c (join 47 l) -> c = 47 \/ exists x, In x l /\ In c x.
Proof.
  induction l as [|x l IH]; [intros []|]. cbn [join]. destruct l as [|y l]; [intros K; right; exists x; split; [now left|exact K]|]. intros K. apply in_app_or in K as [K|K]; [right; exists x; split; [now left|exact K]|].
  destruct K as [K|K]; [left; congruence|]. apply IH in K as [K|(z & I & K)]; [now left|right; exists z; split; [now right|exact K]].
Qed.
Lemma stack_chars k names c : Forall name names -> In c (join 47 (ups k ++ names)) -> c <> 92 /\ c <> 0.
Proof.
  intros F K. apply join_chars in K as [->|(x & I & K)]; [lia|]. apply in_app_or in I as [I|I].
  - apply in_ups in I. subst x. vm_compute in K. destruct K as [<-|[<-|[]]]; lia.
  - rewrite Forall_forall in F. destruct (F x I) as (_ & _ & _ & _ & A & B). split; congruence.
Qed.
Lemma text_chars ab k names c : Forall name names -> (ab = true -> k = 0%nat) -> In c (text_of ab k names) -> c <> 92 /\ c <> 0.
Proof.
  intros F K I. unfold text_of in I. destruct ab.
  - destruct I as [<-|I]; [lia|]. eapply (stack_chars 0); eauto.
  - destruct (ups k ++ names) eqn:E; [vm_compute in I; destruct I as [<-|[]]; lia|]. rewrite <- E in I. eapply stack_chars; eauto.
Qed.
Lemma slashes_id p : ~ In 92 p -> slashes p = p.
Proof.
  intros N. unfold slashes. rewrite <- (map_id p) at 2. apply map_ext_in. intros c I. destruct (Z.eqb_spec c 92); [congruence|reflexivity].
Qed.
Lemma stack_no_slash k names x : Forall name names -> In x (ups k ++ names) -> ~ In 47 x /\ x <> [].
Proof.
  intros F I. apply in_app_or in I as [I|I]; [apply in_ups in I; subst x; split; [intros [K|[K|[]]]; discriminate|discriminate]|]. rewrite Forall_forall in F. now destruct (F x I) as (A & _ & _ & B & _).
Qed.
Lemma parts_stack l : (forall x, In x l -> ~ In 47 x) -> l <> [] -> parts (join 47 l) = l.
Proof. intros H N. rewrite parts_split. now apply split_join. Qed.
Lemma text_facts ab k names : Forall name names -> (ab = true -> k = 0%nat) -> (k + length names <= 256)%nat ->
  let t := text_of ab k names in
  ~ In 0 t /\ slashes t = t /\ is_absolute t = ab /\ (length (pieces t) <= 256)%nat /\
  (forall start, walk start (parts t) = if ab then walk start names else walk start (ups k ++ names)).
Proof.
  intros F K L t. assert (N0 : ~ In 0 t) by (intros I; now apply (text_chars ab k names 0 F K) in I). assert (N92 : ~ In 92 t) by (intros I; now apply (text_chars ab k names 92 F K) in I).
  assert (ST : slashes t = t) by now apply slashes_id. split; [exact N0|]. split; [exact ST|]. unfold pieces. rewrite ST. unfold t, text_of. destruct ab.
  - rewrite (K eq_refl) in *. split; [reflexivity|]. change (47 :: join 47 names) with ([] ++ 47 :: join 47 names). rewrite parts_app. change (parts []) with [@nil Z]. cbn [app filter]. change (negb (same_name [] [])) with false. cbn iota.
    destruct names as [|x l]; [split; [cbn; lia|reflexivity]|]. rewrite parts_stack by (intros; try apply (stack_no_slash 0 _ _ F); easy || assumption). split; [|reflexivity].
    eapply Nat.le_trans; [apply filter_len|]. cbn [length] in *. lia.
  - destruct (ups k ++ names) as [|x l] eqn:E; [split; [reflexivity|]; split; [cbn; lia|reflexivity]|]. rewrite parts_stack by (intros; try (rewrite <- E in *; apply (stack_no_slash k _ _ F)); easy || assumption).
    split; [|split; [|reflexivity]].
    + destruct (stack_no_slash k names x F) as (A & B); [rewrite E; now left|]. destruct x as [|c x]; [easy|]. unfold is_absolute. cbn [join]. destruct l; cbn [app]; apply Z.eqb_neq; intros ->; apply A; now left.
    + eapply Nat.le_trans; [apply filter_len|]. rewrite <- E, app_length, ups_length. lia.
Qed.
