(** Making directories, lines, temporary files. *)
From Verif Require Import Base BaseFacts FilesSpec FilesModel FilesProofs FilesProofs2 FilesProofs3 FilesProofs4 FilesProofs6.

(** ** Making directories *)
(** [u] is [t] with directories at b/c1, b/c1/c2, ... *)
Definition made (b : loc) (cs : list bytes) (t u : fs) : Prop :=
  wf u /\ (forall q r, cs = q ++ r -> q <> [] -> get u (b ++ q) = Some EDir) /\
  forall k, (forall q r, cs = q ++ r -> q <> [] -> k <> b ++ q) -> get u k = get t k.
Lemma made_nil b t : wf t -> made b [] t t.
Proof. intros W. split; [assumption|]. split; [|reflexivity]. intros q r E Q. destruct q; [congruence|discriminate E]. Qed.
Lemma made_start b cs t u : made b cs t u -> get u b = get t b.
Proof. intros (_ & _ & H). apply H. intros q r _ Q E. apply Q. rewrite <- (app_nil_r b) in E at 1. now apply app_inv_head in E. Qed.
Lemma made_all b cs t u : made b cs t u -> get t b = Some EDir -> get u (b ++ cs) = Some EDir.
Proof. intros M G. destruct cs as [|c cs]; [rewrite app_nil_r, (made_start _ _ _ _ M); exact G|]. destruct M as (_ & M & _). apply (M _ []); [now rewrite app_nil_r|discriminate]. Qed.
Lemma prefix_snoc {A} (a : list A) n q r : a ++ [n] = q ++ r -> (exists r', a = q ++ r') \/ q = a ++ [n].
Proof.
  destruct r as [|x r]; [rewrite app_nil_r; intros <-; now right|]. destruct (exists_last (l := x :: r) ltac:(discriminate)) as (r' & y & ->). rewrite app_assoc. intros E. apply app_inj_tail in E as [-> _]. left. now exists r'.
Qed.
Lemma made_old b a n t u : made b a t u -> get u (b ++ a ++ [n]) = Some EDir -> made b (a ++ [n]) t u.
Proof.
  intros (W & M & H) G. split; [assumption|]. split.
  - intros q r E Q. destruct (prefix_snoc _ _ _ _ E) as [(r' & E')|E']; [now apply (M q r')|subst q; exact G].
  - intros k K. apply H. intros q r E Q. apply (K q (r ++ [n])); [now rewrite E, app_assoc|assumption].
Qed.
Lemma made_new b a n t u : made b a t u -> get t b = Some EDir -> get u (b ++ a ++ [n]) = None -> name_ok n -> made b (a ++ [n]) t (set u (b ++ a ++ [n]) EDir).
Proof.
  intros M Gb G O. assert (Ga := made_all _ _ _ _ M Gb). destruct M as (W & M & H). rewrite app_assoc in *. assert (L : (b ++ a) ++ [n] <> []) by (destruct b, a; discriminate). split; [apply wf_set_new; try assumption; discriminate|]. split.
  - intros q r E Q. rewrite get_set by assumption. destruct (same_loc ((b ++ a) ++ [n]) (b ++ q)) eqn:X; [reflexivity|]. apply same_loc_false in X. destruct (prefix_snoc _ _ _ _ E) as [(r' & E')|E']; [eapply M; eauto|]. exfalso. apply X. subst q. now rewrite app_assoc.
  - intros k K. rewrite get_set by assumption. rewrite same_loc_ne; [apply H; intros q r E Q; apply (K q (r ++ [n])); [now rewrite E, app_assoc|assumption]|]. intros <-. apply (K (a ++ [n]) []); [now rewrite app_nil_r|destruct a; discriminate|now rewrite app_assoc].
Qed.
Lemma trim_split cs : (trim cs = [] /\ filter ne cs = []) \/ exists f n, trim cs = f ++ [n] /\ n <> [] /\ filter ne cs = filter ne f ++ [n].
Proof.
  induction cs as [|c cs IH]; [left; now split|]. cbn [trim filter]. destruct IH as [[E F]|(f & n & E & N & F)].
  - rewrite E, F. destruct c as [|x c]; [left; now split|]. right. exists [], (x :: c). repeat split. discriminate.
  - right. rewrite E, F. exists (c :: f), n. split; [destruct f; reflexivity|]. split; [assumption|]. cbn [filter]. now destruct (ne c).
Qed.
Section Make.
Context (fault : nat -> option Z) (cwd : loc) (NF : no_faults fault) (t : fs) (b : loc) (Gb : get t b = Some EDir).
Definition open_way (cs : list bytes) : Prop := forall q r, cs = q ++ r -> q <> [] -> get t (b ++ q) = None \/ get t (b ++ q) = Some EDir.
Lemma mkdir_made s x : start cwd x = b -> x <> [] -> ~ In 0 x -> Z.of_nat (length x) < PATH_MAX -> dotless (comps x) -> open_way (names x) -> made b (removelast (names x)) t (tree s) \/ made b (names x) t (tree s) ->
  exists s' e, sys_mkdir fault cwd s x = (s', e) /\ (e = 0 \/ e = EEXIST) /\ made b (names x) t (tree s').
Proof.
  intros St X0 Z0 L D OW M. unfold sys_mkdir. rewrite NF. unfold resolve_new. destruct (Z.leb_spec PATH_MAX (Z.of_nat (length x))); [lia|]. destruct x as [|c x]; [congruence|]. remember (c :: x) as cx eqn:Ecx. clear Ecx X0. rewrite St.
  assert (W : wf (tree s)) by (destruct M as [M|M]; apply M).
  destruct (trim_split (comps cx)) as [[E F]|(f & n & E & N & F)]; rewrite E; unfold names in *; rewrite F in *.
  - rewrite resolve_nil. eexists _, _. split; [reflexivity|]. split; [now right|]. cbn [tree tick]. destruct M; assumption.
  - rewrite removelast_last in M. assert (Df : dotless f) by (split; intros I; [apply (proj1 D)|apply (proj2 D)]; apply trim_in; rewrite E; apply in_app_iff; now left).
    assert (In_n : In n (comps cx)) by (apply trim_in; rewrite E; apply in_app_iff; right; now left).
    assert (O : name_ok n). { split; [assumption|]. split; [now apply (comps_no_slash cx)|]. split; [now apply (comps_no_zero cx)|]. split; intros ->; [now apply (proj1 D)|now apply (proj2 D)]. }
    assert (Gf : get (tree s) (b ++ filter ne f) = Some EDir) by (destruct M as [M|M]; [now apply (made_all _ _ t)|apply made_all in M; [rewrite app_assoc in M; now apply (wf_up1 _ _ n EDir)|assumption]]).
    rewrite resolve_prefix by assumption. rewrite resolve_name by apply O.
    assert (Gn : (get (tree s) (b ++ filter ne f ++ [n]) = None /\ made b (filter ne f) t (tree s)) \/ (get (tree s) (b ++ filter ne f ++ [n]) = Some EDir /\ made b (filter ne f ++ [n]) t (tree s))).
    { destruct M as [M|M]; [|right; split; [now apply (made_all _ _ t)|assumption]]. assert (M0 := M). destruct M as (_ & _ & M). assert (X : get (tree s) (b ++ filter ne f ++ [n]) = None \/ get (tree s) (b ++ filter ne f ++ [n]) = Some EDir).
      { rewrite M; [apply (OW _ []); [now rewrite app_nil_r|destruct (filter ne f); discriminate]|]. intros q r Eq Q E2. apply app_inv_head in E2. rewrite <- E2 in Eq. apply (f_equal (@length bytes)) in Eq. rewrite !app_length in Eq. cbn in Eq. lia. }
      destruct X as [X|X]; [left; now split|right; split; [assumption|now apply made_old]]. }
    rewrite <- app_assoc. destruct Gn as [[Gn M']|[Gn M']]; rewrite Gn.
    + eexists _, _. split; [reflexivity|]. split; [now left|]. cbn [tree commit]. rewrite <- app_assoc. now apply made_new.
    + rewrite resolve_nil. eexists _, _. split; [reflexivity|]. split; [now right|]. exact M'.
Qed.
Lemma names_slash y : names (y ++ [47]) = names y.
Proof. unfold names. rewrite comps_app. cbn. rewrite filter_app. cbn. now rewrite app_nil_r. Qed.
Lemma names_piece y z : ~ In 47 z -> (y = [] \/ exists y', y = y' ++ [47]) -> names (y ++ z) = names y ++ filter ne [z].
Proof.
  intros Z [->|(y' & ->)]; [cbn [app]; unfold names; rewrite comps_name by assumption; reflexivity|]. rewrite names_slash, <- app_assoc. cbn [app]. unfold names. now rewrite comps_app, filter_app, (comps_name z).
Qed.
Lemma dotless_prefix x y : dotless (comps (x ++ 47 :: y)) -> dotless (comps x).
Proof. rewrite comps_app. intros [A B]. split; intros I; [apply A|apply B]; apply in_app_iff; now left. Qed.
Lemma open_way_prefix x y : open_way (names (x ++ 47 :: y)) -> open_way (names x).
Proof.
  unfold names. rewrite comps_app, filter_app. intros H q r E. apply (H q (r ++ filter ne (comps y))). now rewrite E, app_assoc.
Qed.
Lemma piece_made y z s : ~ In 47 z -> (y = [] \/ exists y', y = y' ++ [47]) -> made b (names y) t (tree s) -> made b (removelast (names (y ++ z))) t (tree s) \/ made b (names (y ++ z)) t (tree s).
Proof.
  intros Nz Hy M. rewrite names_piece by assumption. cbn [filter]. destruct (ne z); [left; now rewrite removelast_last|right; now rewrite app_nil_r].
Qed.
Lemma make_dirs_spec p : start cwd p = b -> ~ In 0 p -> ~ In 92 p -> Z.of_nat (length p) < PATH_MAX -> dotless (comps p) -> open_way (names p) ->
  forall rest s done y z, p = rev done ++ rest -> done <> [] -> rev done = y ++ z -> ~ In 47 z -> (y = [] \/ exists y', y = y' ++ [47]) -> made b (names y) t (tree s) ->
  exists s', make_dirs fault cwd s done rest = (s', p) /\ (made b (removelast (names p)) t (tree s') \/ made b (names p) t (tree s')).
Proof.
  intros St Z0 B0 L D OW. induction rest as [|c rest IH]; intros s done y z Ep Dn Ed Nz Hy M; cbn [make_dirs].
  { exists s. rewrite app_nil_r in Ep. split; [now rewrite Ep|]. rewrite Ep, Ed. now apply piece_made. }
  assert (C0 : c <> 0) by (intros ->; apply Z0; rewrite Ep; apply in_app_iff; right; now left). assert (C92 : c <> 92) by (intros ->; apply B0; rewrite Ep; apply in_app_iff; right; now left).
  destruct (Z.eqb_spec c 0); [congruence|]. destruct (Z.eqb_spec c 92); [congruence|]. destruct (Z.eqb_spec c 47) as [->|C].
  - cbn [orb]. assert (R0 : rev done <> []) by (intros E; apply Dn; rewrite <- (rev_involutive done), E; reflexivity).
    assert (Zd : ~ In 0 (rev done)) by (intros I; apply Z0; rewrite Ep; apply in_app_iff; now left). rewrite cstr_id by assumption.
    destruct (mkdir_made s (rev done)) as (s' & e & E & _ & M').
    + rewrite <- St, Ep. symmetry. now apply start_app.
    + assumption.
    + assumption.
    + rewrite Ep, app_length in L. lia.
    + rewrite Ep in D. now apply dotless_prefix in D.
    + rewrite Ep in OW. now apply open_way_prefix in OW.
    + rewrite Ed. now apply piece_made.
    + rewrite E. apply (IH s' (47 :: done) (rev done ++ [47]) []).
      * cbn [rev]. now rewrite <- app_assoc.
      * discriminate.
      * cbn [rev]. now rewrite app_nil_r.
      * intros [].
      * right. now exists (rev done).
      * now rewrite names_slash.
  - cbn [orb]. apply (IH s (c :: done) y (z ++ [c])).
    * cbn [rev]. now rewrite <- app_assoc.
    * discriminate.
    * cbn [rev]. now rewrite Ed, app_assoc.
    * intros I. apply in_app_iff in I as [I|[I|[]]]; congruence || now apply Nz.
    * assumption.
    * assumption.
Qed.
Lemma make_dir_all_spec s p : wf t -> tree s = t -> start cwd p = b -> p <> [] -> ~ In 0 p -> ~ In 92 p -> Z.of_nat (length p) < PATH_MAX -> dotless (comps p) -> open_way (names p) ->
  exists s', make_dir_all fault cwd s p = (s', true) /\ made b (names p) t (tree s').
Proof.
  intros W T St P0 Z0 B0 L D OW. destruct p as [|c r]; [congruence|]. unfold make_dir_all. destruct (Z.leb_spec PATH_MAX (Z.of_nat (length (c :: r)))); [lia|].
  assert (X : exists s', make_dirs fault cwd s [c] r = (s', c :: r) /\ (made b (removelast (names (c :: r))) t (tree s') \/ made b (names (c :: r)) t (tree s'))).
  { destruct (Z.eq_dec c 47) as [->|C].
    - apply make_dirs_spec with (y := [47]) (z := []); try assumption; try reflexivity; try discriminate; [intros []|right; now exists []|]. rewrite T. cbn. now apply made_nil.
    - apply make_dirs_spec with (y := []) (z := [c]); try assumption; try reflexivity; try discriminate; [intros [E|[]]; congruence|now left|]. rewrite T. cbn. now apply made_nil. }
  destruct X as (s1 & -> & M). rewrite cstr_id by assumption. destruct (mkdir_made s1 (c :: r) St P0 Z0 L D OW M) as (s' & e & -> & E & M'). exists s'. split; [|exact M']. destruct E as [->| ->]; reflexivity.
Qed.
End Make.

(** ** Lines *)
(** A text: lines, each with its end, CR LF or LF; and what comes after the last of them *)
Definition eol (cr : bool) : bytes := if cr then [13; 10] else [10].
Definition text (ls : list (bytes * bool)) (tail : bytes) : bytes := concat (map (fun x => fst x ++ eol (snd x)) ls) ++ tail.
Definition line_ok (x : bytes * bool) : Prop := ~ In 10 (fst x) /\ (snd x = false -> last (fst x) 0 <> 13).
Lemma to_newline_at a r : ~ In 10 a -> to_newline (a ++ 10 :: r) = (a, 10 :: r).
Proof. induction a as [|c a IH]; intros H; cbn; [reflexivity|]. destruct (Z.eqb_spec c 10) as [->|C]; [exfalso; apply H; now left|]. rewrite IH; [reflexivity|]. intros I. apply H. now right. Qed.
Lemma to_newline_end a : ~ In 10 a -> to_newline a = (a, []).
Proof. induction a as [|c a IH]; intros H; cbn; [reflexivity|]. destruct (Z.eqb_spec c 10) as [->|C]; [exfalso; apply H; now left|]. rewrite IH; [reflexivity|]. intros I. apply H. now right. Qed.
Lemma drop_cr_cr a : drop_cr (a ++ [13]) = a.
Proof. unfold drop_cr. rewrite last_last. apply removelast_last. Qed.
Lemma drop_cr_id a : last a 0 <> 13 -> drop_cr a = a.
Proof. unfold drop_cr. intros H. destruct (Z.eqb_spec (last a 0) 13); congruence. Qed.
Lemma lines_loop_spec ls tail cr : Forall line_ok ls -> ~ In 10 tail -> (cr = false -> last tail 0 <> 13) -> forall fuel, (length (text ls (tail ++ if cr then [13%Z] else [])) <= fuel)%nat ->
  lines_loop fuel (text ls (tail ++ if cr then [13] else [])) = map fst ls ++ match tail, cr with [], false => [] | _, _ => [tail] end.
Proof.
  intros F Nt Ct. induction ls as [|[a k] ls IH]; intros fuel L.
  - unfold text in *. cbn [map concat app] in *. set (w := tail ++ if cr then [13] else []) in *. assert (Nw : ~ In 10 w) by (unfold w; intros I; apply in_app_iff in I as [I|I]; [now apply Nt|destruct cr; [destruct I as [I|[]]; discriminate|destruct I]]).
    assert (Dw : drop_cr w = tail) by (unfold w; destruct cr; [apply drop_cr_cr|rewrite app_nil_r; now apply drop_cr_id, Ct]).
    assert (N : w = [] <-> tail = [] /\ cr = false) by (unfold w; destruct tail, cr; cbn; split; try discriminate; intros []; congruence || auto).
    destruct w as [|x w'] eqn:Ew. { destruct N as [N _]. destruct (N eq_refl) as [-> ->]. destruct fuel; reflexivity. }
    destruct fuel as [|fuel]; [cbn in L; lia|]. unfold lines_loop at 1; fold lines_loop. cbn [lines_loop]. rewrite to_newline_end by assumption. rewrite Dw. cbn [tl]. destruct fuel; cbn [lines_loop]; (destruct tail; [destruct cr; [reflexivity|destruct N as [_ N]; discriminate N; now split]|reflexivity]).
  - inversion F as [|? ? [Na Ca] F']; subst. cbn [fst snd] in *. set (T := tail ++ if cr then [13] else []) in *. assert (E : text ((a, k) :: ls) T = (a ++ if k then [13] else []) ++ 10 :: text ls T).
    { unfold text. cbn [map concat fst snd]. destruct k; cbn [eol]; rewrite <- ?app_assoc; cbn [app]; rewrite <- ?app_assoc; reflexivity. }
    rewrite E in *. destruct fuel as [|fuel]; [rewrite app_length in L; cbn [length] in L; lia|]. cbn [lines_loop map fst app].
    assert (Nk : ~ In 10 (a ++ if k then [13] else [])) by (intros I; apply in_app_iff in I as [I|I]; [now apply Na|destruct k; [destruct I as [I|[]]; discriminate|destruct I]]).
    rewrite to_newline_at by assumption. cbn [tl]. rewrite (IH F') by (rewrite app_length in L; cbn [length] in L; lia).
    assert (Dk : drop_cr (a ++ if k then [13] else []) = a) by (destruct k; [apply drop_cr_cr|rewrite app_nil_r; now apply drop_cr_id, Ca]). rewrite Dk.
    destruct (a ++ if k then [13] else []) eqn:Ea; reflexivity.
Qed.
Lemma lines_spec ls tail (cr : bool) : Forall line_ok ls -> ~ In 10 tail -> (cr = false -> last tail 0 <> 13) ->
  lines (text ls (tail ++ if cr then [13] else [])) = map fst ls ++ match tail, cr with [], false => [] | _, _ => [tail] end.
Proof. intros F N C. unfold lines. now apply lines_loop_spec. Qed.
Lemma cr_split a : ~ In 10 a -> exists b k, a = b ++ (if k : bool then [13] else []) /\ ~ In 10 b /\ (k = false -> last b 0 <> 13).
Proof.
  intros H. destruct (Z.eq_dec (last a 0) 13) as [E|E].
  - destruct a as [|c a]; [discriminate|]. destruct (exists_last (l := c :: a) ltac:(discriminate)) as (b & x & Eb). rewrite Eb in *. rewrite last_last in E. subst x. exists b, true. split; [reflexivity|]. split; [intros I; apply H, in_app_iff; now left|discriminate].
  - exists a, false. rewrite app_nil_r. now repeat split.
Qed.
Lemma text_total s : exists ls tail (cr : bool), s = text ls (tail ++ if cr then [13] else []) /\ Forall line_ok ls /\ ~ In 10 tail /\ (cr = false -> last tail 0 <> 13).
Proof.
  induction s as [s IH] using list_len_ind. destruct (in_dec Z.eq_dec 10 s) as [I|I].
  - assert (X : exists a r, s = a ++ 10 :: r /\ ~ In 10 a). { clear IH. induction s as [|c s IHs]; [destruct I|]. destruct (Z.eq_dec c 10) as [->|C]; [exists [], s; split; [reflexivity|intros []]|]. destruct IHs as (a & r & -> & N); [destruct I; congruence|]. exists (c :: a), r. split; [reflexivity|]. intros [E|E]; congruence || auto. }
    destruct X as (a & r & -> & N). destruct (IH r) as (ls & tail & cr & -> & F & Nt & Ct); [rewrite app_length; cbn; lia|]. destruct (cr_split a N) as (b & k & -> & Nb & Cb).
    exists ((b, k) :: ls), tail, cr. split; [|split; [constructor; [split; [exact Nb|exact Cb]|assumption]|now split]].
    unfold text. cbn [map concat fst snd]. destruct k; cbn [eol]; rewrite <- ?app_assoc; cbn [app]; rewrite <- ?app_assoc; reflexivity.
  - destruct (cr_split s I) as (b & k & -> & Nb & Cb). exists [], b, k. split; [reflexivity|]. split; [constructor|]. now split.
Qed.

(** ** Temporary files *)
Section Temp.
Context (fault : nat -> option Z) (cwd : loc) (NF : no_faults fault) (q : bytes) (d : loc) (fuel : nat).
(** What the program left of a temporary file or directory: nothing, a file, or a directory without links *)
Definition leftover (t : fs) (n : bytes) : Prop :=
  name_ok n /\ Z.of_nat (length q) + 1 + Z.of_nat (length n) < PATH_MAX /\
  match get t (d ++ [n]) with
  | None => True
  | Some (EFile _) => True
  | Some EDir => plain_below t (d ++ [n]) /\ fits t (q ++ 47 :: n) (d ++ [n]) /\ deep t (d ++ [n]) fuel
  | Some (ELink _) => False
  end.
Lemma leftover_keeps t u n m : wf t -> n <> m -> keeps (within (d ++ [n])) t u -> leftover t m -> leftover u m.
Proof.
  intros W N K (O & L & H). split; [assumption|]. split; [assumption|]. rewrite (keeps_get _ t u _ W K) by now apply sibling. destruct (get t (d ++ [m])) as [[| |]|]; try exact H. destruct H as (Pl & F & Dp). split; [|split].
  - intros k x I E. apply (Pl k x I). now apply (keeps_some _ t u k _ W K).
  - intros r e I. apply (F r e). now apply (keeps_in (within (d ++ [n])) t u).
  - exact (deep_keeps _ t u _ _ K Dp).
Qed.
Lemma filter_gone (t : fs) l : (forall x, In x t -> within l (fst x) = false) -> filter (fun x => negb (within l (fst x))) t = t.
Proof. intros H. apply filter_true. intros x I. now rewrite H. Qed.
Lemma wf_none t l k e : wf t -> l <> [] -> (forall e, get t l = Some e -> e <> EDir) -> In (k, e) t -> inside l k = false.
Proof.
  intros W L G I. apply inside_false. intros (r & R & ->). assert (Gk : get t (l ++ r) = Some e) by (apply wf_get; [assumption|destruct l; [congruence|discriminate]|assumption]). apply wf_up in Gk; [|assumption|assumption]. now apply (G EDir).
Qed.
Lemma cleanup_spec ns : NoDup ns -> forall s, wf (tree s) -> spells cwd q d -> get (tree s) d = Some EDir -> Forall (leftover (tree s)) ns ->
  exists s', temp_cleanup fault cwd fuel s (map (fun n => q ++ 47 :: n) ns) = (s', Ok tt) /\ tree s' = filter (fun x => negb (existsb (fun n => within (d ++ [n]) (fst x)) ns)) (tree s).
Proof.
  induction 1 as [|n ns Nn Nd IH]; intros s W S G F.
  { exists s. split; [reflexivity|]. cbn. symmetry. now apply filter_true. }
  inversion F as [|? ? (O & L & H) F']; subst. cbn [map temp_cleanup]. rewrite sys_stat_eq, NF.
  assert (Step : forall u, keeps (within (d ++ [n])) (tree s) u -> tree (tick s) = tree s -> forall s1, tree s1 = u -> u = filter (fun x => negb (within (d ++ [n]) (fst x))) (tree s) ->
    exists s', temp_cleanup fault cwd fuel s1 (map (fun n => q ++ 47 :: n) ns) = (s', Ok tt) /\ tree s' = filter (fun x => negb (existsb (fun n => within (d ++ [n]) (fst x)) (n :: ns))) (tree s)).
  { intros u K _ s1 T1 Eu. destruct (IH s1) as (s' & E' & T').
    - rewrite T1. apply K.
    - assumption.
    - rewrite T1, (keeps_get _ (tree s) u d W K); [assumption|]. apply within_false. intros (r & Er). apply (f_equal (@length bytes)) in Er. rewrite !app_length in Er. cbn in Er. lia.
    - rewrite T1. apply Forall_forall. intros m I. rewrite Forall_forall in F'. apply (leftover_keeps (tree s) u n m W); [congruence|assumption|now apply F'].
    - exists s'. split; [exact E'|]. rewrite T', T1, Eu, filter_and. apply filter_ext. intros x. cbn [existsb]. now destruct (within (d ++ [n]) (fst x)). }
  assert (Ld : d ++ [n] <> []) by (destruct d; discriminate).
  destruct (get (tree s) (d ++ [n])) as [[c| |c]|] eqn:E; [| | destruct H |].
  - assert (R : forall f, resolve (tree s) cwd f (q ++ 47 :: n) = Found (d ++ [n])) by (intros f; apply (child_found _ _ _ _ _ _ (EFile c)); try assumption; discriminate). rewrite R, E. unfold sys_unlink. rewrite NF. cbn [tree tick calls]. rewrite R, E.
    apply (Step (del (tree s) (d ++ [n]))); try reflexivity.
    + apply (keeps_del _ _ _ (EFile c)); try assumption; [discriminate|]. apply within_iff. exists []. now rewrite app_nil_r.
    + unfold del. apply filter_ext_in. intros [k e] I. cbn [fst]. unfold within. rewrite (wf_none (tree s) (d ++ [n]) k e); try assumption; [now rewrite orb_false_r|]. intros e' E'. congruence.
  - assert (R : forall f, resolve (tree s) cwd f (q ++ 47 :: n) = Found (d ++ [n])) by (intros f; apply (child_found _ _ _ _ _ _ EDir); try assumption; discriminate). rewrite R, E. destruct H as (Pl & Fi & Dp).
    assert (Rd : ready cwd (tree (tick s)) (q ++ 47 :: n) (d ++ [n])). { cbn [tree tick]. split; [assumption|]. split; [now apply spells_child|]. now repeat split. }
    destruct (remove_exact fault cwd fuel NF (d ++ [n]) (tick s) (q ++ 47 :: n) Ld Rd Dp) as (s1 & E1 & G1). rewrite E1.
    assert (T1 := remove_tree fault cwd fuel (tick s) _ _ s1 Rd E1 G1). destruct (remove_safe fault cwd fuel (d ++ [n]) (tick s) _ s1 _ Rd E1) as [K1 _]. apply (Step (tree s1)); try reflexivity; assumption.
  - rewrite (child_missing (tree s) cwd true q d n) by assumption. apply (Step (tree s)); try reflexivity; [now apply keeps_refl|]. symmetry. apply filter_gone. intros [k e] I. cbn [fst]. apply orb_false_iff. split.
    + apply same_loc_false. intros ->. apply wf_get in I; [congruence|assumption|assumption].
    + apply (wf_none (tree s) (d ++ [n]) k e); try assumption. intros e' E'. congruence.
Qed.
End Temp.
