(** Proofs about route matching and dispatch of ServerModel. *)
From Verif Require Import Base BaseFacts ServerModel ServerSpec.

Notation pairs := (list (bytes * bytes)).
Definition noslash (s : bytes) := ~ In 47 s.
Fixpoint glue (P : list bytes) : bytes :=
  match P with [] => [] | [h] => h | h :: t => h ++ 47 :: glue t end.
Lemma split_nonempty c s : split c s <> [].
Proof. destruct s as [|x s]; cbn; [easy|]. destruct (x =? c); [easy|]. destruct (split c s); easy. Qed.
Lemma split_no c s : Forall (fun p => ~ In c p) (split c s).
Proof.
  induction s as [|x s IH]; cbn; [constructor; [easy|constructor]|].
  destruct (x =? c) eqn:E; [constructor; [easy|exact IH]|].
  destruct (split c s) as [|h t] eqn:K; [now apply split_nonempty in K|].
  inversion IH; subst. constructor; [|assumption]. intros [->|X]; [lia|auto].
Qed.
Lemma glue_cons h t : t <> [] -> glue (h :: t) = h ++ 47 :: glue t.
Proof. destruct t; easy. Qed.
Lemma split_glue s : glue (split 47 s) = s.
Proof.
  induction s as [|x s IH]; [reflexivity|]. cbn [split].
  pose proof (split_nonempty 47 s) as K. destruct (x =? 47) eqn:E.
  - rewrite glue_cons by assumption. rewrite IH. cbn. f_equal. lia.
  - destruct (split 47 s) as [|h t] eqn:K2; [easy|].
    destruct t; cbn in *; congruence.
Qed.

(** the loop's own reading of the segments *)
Inductive R : list bytes -> list bytes -> pairs -> Prop :=
| R_end h g l : seg_match h g l -> ~ ends_empty [h] [g] -> R [h] [g] l
| R_path h g l : seg_match h g l -> R [h] [g; []] l
| R_pat h g l : seg_match h g l -> ~ ends_empty [h] [g] -> R [h; []] [g] l
| R_cons h g l t u ls : seg_match h g l -> R t u ls -> R (h :: t) (g :: u) (l ++ ls).

Lemma app_tail_inv {A} (h : A) t P x : h :: t = P ++ [x] -> (P = [] /\ t = [] /\ x = h) \/ exists P', P = h :: P' /\ t = P' ++ [x].
Proof. destruct P as [|p P]; cbn; intros E; injection E as E1 E2; subst; [left; auto|right; eauto]. Qed.

Lemma ends_empty_cons h g t u : t <> [] -> u <> [] -> ends_empty (h :: t) (g :: u) <-> ends_empty t u.
Proof.
  intros Ht Hu. split.
  - intros (P' & Q' & pre & name & A & B & C). symmetry in A, B.
    apply eq_sym, app_tail_inv in A. apply eq_sym, app_tail_inv in B.
    destruct A as [(?&?&?)|(P2 & -> & ->)]; [easy|]. destruct B as [(?&?&?)|(Q2 & -> & ->)]; [easy|].
    exists P2, Q2, pre, name. auto.
  - intros (P' & Q' & pre & name & -> & -> & C). exists (h :: P'), (g :: Q'), pre, name. auto.
Qed.
Lemma ends_empty_one h g : ends_empty [h] [g] <-> exists name, h = g ++ 58 :: name /\ ~ In 58 g.
Proof.
  split.
  - intros (P' & Q' & pre & name & A & B & C). apply app_tail_inv in A, B.
    destruct A as [(?&?&?)|(P2 & -> & A)]; [|destruct P2; easy]. destruct B as [(?&?&?)|(Q2 & -> & B)]; [|destruct Q2; easy].
    subst. eauto.
  - intros (name & -> & H). exists [], [], g, name. auto.
Qed.
Lemma segs_match_len P Q l : segs_match P Q l -> length P = length Q.
Proof. induction 1; cbn; congruence. Qed.

Lemma sm_nil : seg_match [] [] [].
Proof. constructor. easy. Qed.
Lemma sm_nil_inv g l : seg_match [] g l -> g = [] /\ l = [].
Proof. inversion 1; subst; auto. destruct pre; easy. Qed.

(** from R to the specification *)
Lemma R_spec P Q l : R P Q l -> exists P' Q', (P = P' \/ P = P' ++ [[]]) /\ (Q = Q' \/ Q = Q' ++ [[]]) /\
  segs_match P' Q' l /\ (ends_empty P' Q' -> Q = Q' ++ [[]]).
Proof.
  induction 1.
  - exists [h], [g]. rewrite <- (app_nil_r l). repeat split; auto; [constructor; [assumption|constructor]|]. tauto.
  - exists [h], [g]. rewrite <- (app_nil_r l). repeat split; auto; constructor; [assumption|constructor].
  - exists [h], [g]. rewrite <- (app_nil_r l). repeat split; auto; [constructor; [assumption|constructor]|]. tauto.
  - destruct IHR as (P' & Q' & A & B & C & D).
    exists (h :: P'), (g :: Q'). split; [destruct A as [->| ->]; auto|]. split; [destruct B as [->| ->]; auto|].
    split; [constructor; assumption|]. intros E.
    destruct P' as [|p P']; [|destruct Q' as [|q Q']].
    + pose proof (segs_match_len _ _ _ C) as L. destruct Q'; [|easy]. cbn.
      destruct B as [->| ->]; [inversion H0|reflexivity].
    + apply segs_match_len in C. easy.
    + rewrite ends_empty_cons in E by easy. apply D in E. rewrite E. reflexivity.
Qed.

(** from the specification to R *)
Lemma spec_R P' Q' l : segs_match P' Q' l -> forall P Q, P <> [] -> Q <> [] ->
  (P = P' \/ P = P' ++ [[]]) -> (Q = Q' \/ Q = Q' ++ [[]]) -> (ends_empty P' Q' -> Q = Q' ++ [[]]) -> R P Q l.
Proof.
  induction 1 as [|p s l ps ss ls M1 M2 IH]; intros P Q HP HQ A B C.
  - destruct A as [->| ->]; [easy|]. destruct B as [->| ->]; [easy|]. cbn.
    apply R_end; [apply sm_nil|]. rewrite ends_empty_one. intros (name & E & _). destruct name; easy.
  - pose proof (segs_match_len _ _ _ M2) as L. destruct ps as [|p2 ps].
    + destruct ss; [|easy]. inversion M2; subst. rewrite app_nil_r.
      destruct A as [->| ->], B as [->| ->]; cbn.
      * apply R_end; [assumption|]. intros E. apply C in E. easy.
      * now apply R_path.
      * apply R_pat; [assumption|]. intros E. apply C in E. easy.
      * rewrite <- (app_nil_r l). apply R_cons; [assumption|]. apply R_end; [apply sm_nil|].
        rewrite ends_empty_one. intros (name & E & _). destruct name; easy.
    + destruct ss as [|s2 ss]; [easy|].
      assert (K : R (match P with [] => [] | _ :: t => t end) (match Q with [] => [] | _ :: t => t end) ls).
      { apply IH.
        - destruct A as [->| ->]; easy.
        - destruct B as [->| ->]; easy.
        - destruct A as [->| ->]; cbn; auto.
        - destruct B as [->| ->]; cbn; auto.
        - intros E. rewrite <- (ends_empty_cons p s) in E by easy. apply C in E. now rewrite E. }
      destruct A as [->| ->], B as [->| ->]; cbn in *; now apply R_cons.
Qed.
Lemma matches_R pat path l : matches pat path l <-> R (split 47 pat) (split 47 path) l.
Proof.
  split.
  - intros (P & Q & A & B & C & D). apply (spec_R P Q l C); auto using split_nonempty.
  - intros H. apply R_spec in H. destruct H as (P & Q & A & B & C & D). exists P, Q. auto.
Qed.

(** the loop *)
Lemma to_slash_app h x : noslash h -> (x = [] \/ exists y, x = 47 :: y) -> to_slash (h ++ x) = (h, x).
Proof.
  intros N X. induction h as [|c h IH]; cbn.
  - destruct X as [->|(y & ->)]; reflexivity.
  - destruct (c =? slash) eqn:E; [exfalso; apply N; left; unfold slash in E; lia|].
    rewrite IH; [reflexivity|]. intros K. apply N. now right.
Qed.
Lemma to_slash_len s : (length (snd (to_slash s)) <= length s)%nat.
Proof. induction s as [|c s IH]; cbn; [lia|]. destruct (c =? slash); cbn; [lia|]. destruct (to_slash s); cbn in *; lia. Qed.
Lemma route_loop_cons fuel p pat c path set : route_loop (S fuel) (p :: pat) (c :: path) set =
  (if p =? colon then let (name, pat2) := to_slash pat in let (val, path2) := to_slash (c :: path) in
     route_loop fuel pat2 path2 (set ++ [(name, val)])
   else if p =? c then route_loop fuel pat path set else Some (false, set)).
Proof. destruct pat; reflexivity. Qed.
Lemma route_loop_some fuel : forall pat path set, (length pat < fuel)%nat -> exists b set', route_loop fuel pat path set = Some (b, set').
Proof.
  induction fuel as [|fuel IH]; intros pat path set L; [lia|].
  destruct pat as [|p pat]; [destruct path as [|c [|]]; cbn; eauto|].
  cbn [length] in L.
  destruct path as [|c path]; [destruct pat; cbn; eauto|]. rewrite route_loop_cons.
  destruct (p =? colon).
  - pose proof (to_slash_len pat). destruct (to_slash pat) as [n r]. destruct (to_slash (c :: path)) as [v r'].
    apply IH. cbn in *. lia.
  - destruct (p =? c); [apply IH; lia|eauto].
Qed.

Definition ended (x : bytes) := x = [] \/ exists y, x = 47 :: y.
(** one segment, forwards *)
Lemma seg_sound x y : ended x -> ended y ->
  forall h g fuel set set', noslash h -> noslash g -> route_loop fuel (h ++ x) (g ++ y) set = Some (true, set') ->
  exists l fuel', seg_match h g l /\ (y = [] -> ~ ends_empty [h] [g]) /\ route_loop fuel' x y (set ++ l) = Some (true, set').
Proof.
  intros X Y. induction h as [|p h IH]; intros g fuel set set' Nh Ng E.
  - destruct g as [|c g].
    + exists [], fuel. rewrite app_nil_r. split; [apply sm_nil|]. split; [|exact E].
      intros _. rewrite ends_empty_one. intros (n & K & _). discriminate K.
    + exfalso. destruct fuel; [easy|]. cbn [app] in E.
      assert (c <> 47) by (intros ->; apply Ng; now left).
      destruct X as [->|(x' & ->)].
      * cbn in E. destruct (g ++ y); [|easy]. injection E as E _. unfold slash in E. lia.
      * rewrite route_loop_cons in E. change (47 =? colon) with false in E. cbv iota in E.
        destruct (47 =? c) eqn:K; [lia|easy].
  - assert (p <> 47) by (intros ->; apply Nh; now left).
    destruct fuel; [easy|]. cbn [app] in E.
    destruct (g ++ y) as [|c r] eqn:G.
    + cbn in E. destruct (h ++ x); [|easy]. injection E as E _. unfold slash in E. lia.
    + rewrite route_loop_cons in E. destruct (p =? colon) eqn:P.
      * unfold colon in P. assert (p = 58) by lia. subst p.
        rewrite to_slash_app in E; [|intros K; apply Nh; now right|exact X].
        rewrite <- G in E. rewrite (to_slash_app g y) in E by assumption.
        exists [(h, g)], fuel. split; [apply (sm_parameter [] h g); easy|]. split; [|exact E].
        intros -> K. apply ends_empty_one in K. destruct K as (n & K & N). rewrite app_nil_r in G. subst g.
        apply N. left. cbn in K. congruence.
      * destruct (p =? c) eqn:PC; [|easy]. assert (p = c) by lia. subst c. unfold colon in P.
        destruct g as [|c g].
        -- destruct Y as [->|(y' & ->)]; cbn in G; [easy|]. congruence.
        -- cbn in G. injection G as -> <-.
           apply IH in E; [|intros K; apply Nh; now right|intros K; apply Ng; now right].
           destruct E as (l & f' & M & O & E). exists l, f'. split; [|split; [|exact E]].
           ++ inversion M; subst.
              ** constructor. intros [K|K]; [lia|auto].
              ** apply (sm_parameter (p :: pre)). intros [K|K]; [lia|auto].
           ++ intros Ey K. apply (O Ey). apply ends_empty_one in K. destruct K as (n & K & N).
              apply ends_empty_one. exists n. cbn in K. injection K as K. split; [exact K|]. intros Z1. apply N. now right.
Qed.

(** forwards, all segments *)
Lemma glue_head h t : exists x, glue (h :: t) = h ++ x /\ ((t = [] /\ x = []) \/ (t <> [] /\ x = 47 :: glue t)).
Proof. destruct t as [|h2 t]; [exists []; rewrite app_nil_r; cbn; auto|]. eexists. split; [reflexivity|]. right. easy. Qed.
Lemma route_sound P : forall Q fuel set set', P <> [] -> Q <> [] -> Forall noslash P -> Forall noslash Q ->
  route_loop fuel (glue P) (glue Q) set = Some (true, set') -> exists l, set' = set ++ l /\ R P Q l.
Proof.
  induction P as [|h t IH]; intros Q fuel set set' HP HQ NP NQ E; [easy|]. destruct Q as [|g u]; [easy|].
  inversion_clear NP as [|? ? Nh Nt]. inversion_clear NQ as [|? ? Ng Nu].
  destruct (glue_head h t) as (x & Ex & X). destruct (glue_head g u) as (y & Ey & Y). rewrite Ex, Ey in E.
  assert (ended x) by (unfold ended; destruct X as [(_ & ->)|(_ & ->)]; eauto).
  assert (ended y) by (unfold ended; destruct Y as [(_ & ->)|(_ & ->)]; eauto).
  apply seg_sound in E; [|assumption..]. destruct E as (l & f & M & O & E).
  destruct f as [|f]; [easy|].
  destruct X as [(-> & ->)|(Ht & ->)], Y as [(-> & ->)|(Hu & ->)].
  - cbn in E. exists l. split; [congruence|]. apply R_end; auto.
  - cbn in E. destruct (glue u) eqn:G; [|easy]. exists l. split; [congruence|].
    assert (u = [[]]) as ->. { destruct u as [|a [|b u]]; [easy|cbn in G; now subst|]. cbn in G. destruct a; easy. }
    now apply R_path.
  - cbn in E. destruct (glue t) eqn:G; [|easy]. exists l. split; [congruence|].
    assert (t = [[]]) as ->. { destruct t as [|a [|b t]]; [easy|cbn in G; now subst|]. cbn in G. destruct a; easy. }
    apply R_pat; auto.
  - rewrite route_loop_cons in E. change (47 =? colon) with false in E. change (47 =? 47) with true in E. cbv iota in E.
    apply IH in E; [|assumption..]. destruct E as (l2 & -> & K). exists (l ++ l2). split; [now rewrite app_assoc|].
    now apply R_cons.
Qed.

(** backwards *)
Lemma seg_complete x y : ended x -> ended y -> forall h g l, seg_match h g l -> noslash h -> noslash g ->
  (y = [] -> ~ ends_empty [h] [g]) -> forall fuel set, (length (h ++ x) < fuel)%nat ->
  exists fuel', (length x < fuel')%nat /\ route_loop fuel (h ++ x) (g ++ y) set = route_loop fuel' x y (set ++ l).
Proof.
  intros X Y.
  assert (L : forall pre pat path fuel set, ~ In 58 pre -> (length (pre ++ pat) < fuel)%nat ->
    exists fuel', (length pat < fuel')%nat /\ route_loop fuel (pre ++ pat) (pre ++ path) set = route_loop fuel' pat path set).
  { induction pre as [|c pre IH]; intros pat path fuel set N F; [eauto|]. destruct fuel; [lia|]. cbn [app length] in *.
    rewrite route_loop_cons. assert (c <> 58) by (intros ->; apply N; now left).
    destruct (c =? colon) eqn:E; [unfold colon in E; lia|]. rewrite Z.eqb_refl.
    apply IH; [intros K; apply N; now right|lia]. }
  intros h g l M Nh Ng O fuel set F. destruct M as [p N|pre name v N].
  - rewrite app_nil_r. apply L; assumption.
  - rewrite <- app_assoc in F |- *. rewrite <- app_assoc. destruct (L pre ((58 :: name) ++ x) (v ++ y) fuel set N F) as (f & F1 & ->).
    destruct f as [|f]; [lia|]. cbn [app]. cbn [app length] in F1.
    destruct (v ++ y) as [|c r] eqn:G.
    { exfalso. apply app_eq_nil in G. destruct G as [-> ->]. apply O; [reflexivity|]. apply ends_empty_one.
      exists name. rewrite app_nil_r. auto. }
    rewrite route_loop_cons. change (58 =? colon) with true. cbv iota.
    rewrite to_slash_app; [|intros K; apply Nh; rewrite in_app_iff; right; now right|assumption]. rewrite <- G.
    rewrite to_slash_app; [|intros K; apply Ng; rewrite in_app_iff; now right|assumption].
    exists f. split; [|reflexivity]. rewrite app_length in F1. lia.
Qed.
Lemma route_complete P Q l : R P Q l -> Forall noslash P -> Forall noslash Q -> forall fuel set, (length (glue P) < fuel)%nat ->
  route_loop fuel (glue P) (glue Q) set = Some (true, set ++ l).
Proof.
  induction 1 as [h g l M O|h g l M|h g l M O|h g l t u ls M H IH]; intros NP NQ fuel set F;
    inversion_clear NP as [|? ? Nh Nt]; inversion_clear NQ as [|? ? Ng Nu].
  - cbn [glue] in *. rewrite <- (app_nil_r h), <- (app_nil_r g). rewrite <- (app_nil_r h) in F.
    destruct (seg_complete [] [] (or_introl eq_refl) (or_introl eq_refl) h g l M Nh Ng (fun _ => O) fuel set F) as (f & F1 & ->).
    destruct f; [lia|]. reflexivity.
  - cbn [glue] in *. rewrite <- (app_nil_r h). rewrite <- (app_nil_r h) in F.
    destruct (seg_complete [] [47] (or_introl eq_refl) (or_intror (ex_intro _ _ eq_refl)) h g l M Nh Ng ltac:(easy) fuel set F) as (f & F1 & ->).
    destruct f; [lia|]. reflexivity.
  - cbn [glue] in *. rewrite <- (app_nil_r g).
    destruct (seg_complete [47] [] (or_intror (ex_intro _ _ eq_refl)) (or_introl eq_refl) h g l M Nh Ng (fun _ => O) fuel set F) as (f & F1 & ->).
    destruct f; [lia|]. reflexivity.
  - assert (t <> []) by (destruct H; easy). assert (u <> []) by (destruct H; easy).
    rewrite glue_cons in F by assumption. rewrite !glue_cons by assumption.
    destruct (seg_complete (47 :: glue t) (47 :: glue u) (or_intror (ex_intro _ _ eq_refl)) (or_intror (ex_intro _ _ eq_refl))
      h g l M Nh Ng ltac:(easy) fuel set F) as (f & F1 & ->).
    destruct f as [|f]; [lia|]. rewrite route_loop_cons. change (47 =? colon) with false. change (47 =? 47) with true. cbv iota.
    rewrite IH; [now rewrite app_assoc|assumption..|]. cbn [length] in F1. lia.
Qed.

Lemma cstr_id s : ~ In 0 s -> cstr s = s.
Proof.
  induction s as [|c s IH]; cbn; intros N; [reflexivity|].
  destruct (c =? 0) eqn:E; [exfalso; apply N; left; lia|]. rewrite IH; [reflexivity|]. intros K. apply N. now right.
Qed.
Theorem route_match_iff pat path set : ~ In 0 pat -> ~ In 0 path ->
  exists b set', match_route pat path set = Some (b, set') /\
    forall l, matches pat path l <-> b = true /\ set' = set ++ l.
Proof.
  intros N1 N2. unfold match_route. rewrite !cstr_id by assumption.
  destruct (route_loop_some (S (length pat)) pat path set) as (b & set' & E); [lia|].
  exists b, set'. split; [exact E|]. intros l. rewrite matches_R.
  pose proof (split_no 47 pat) as S1. pose proof (split_no 47 path) as S2.
  assert (G : (length (glue (split 47 pat)) < S (length pat))%nat) by (rewrite split_glue; lia).
  split.
  - intros H. pose proof (route_complete _ _ _ H S1 S2 _ set G) as K.
    rewrite !split_glue in K. split; congruence.
  - intros [-> ->]. rewrite <- (split_glue pat), <- (split_glue path) in E. rewrite !split_glue in E.
    rewrite <- (split_glue pat) in E at 2. rewrite <- (split_glue path) in E. apply route_sound in E; auto using split_nonempty.
    destruct E as (l' & E & K). apply app_inv_head in E. now subst.
Qed.

(** names that are set come from the pattern *)
Lemma param_of_slash pat n : param_of (47 :: pat) n <-> param_of pat n.
Proof.
  unfold param_of. change (split 47 (47 :: pat)) with ([] :: split 47 pat). split; intros (pre & K & N); exists pre; (split; [|exact N]).
  - destruct K as [K|K]; [destruct pre; easy|exact K].
  - now right.
Qed.
Lemma param_of_lit p pat n : p <> 47 -> p <> 58 -> param_of pat n -> param_of (p :: pat) n.
Proof.
  intros A B (pre & K & N). unfold param_of. cbn [split]. destruct (p =? 47) eqn:E; [lia|].
  destruct (split 47 pat) as [|h t]; [easy|]. destruct K as [->|K].
  - exists (p :: pre). split; [now left|]. intros [X|X]; auto.
  - exists pre. split; [now right|exact N].
Qed.
Lemma to_slash_split s n r : to_slash s = (n, r) -> exists t, split 47 s = n :: t /\ (r = [] /\ t = [] \/ exists z, r = 47 :: z /\ t = split 47 z).
Proof.
  revert n r. induction s as [|c s IH]; cbn [to_slash split]; intros n r E.
  - injection E as <- <-. exists []. auto.
  - unfold slash in E. destruct (c =? 47) eqn:C.
    + injection E as <- <-. eexists. split; [reflexivity|]. right. exists s. split; [f_equal; lia|reflexivity].
    + destruct (to_slash s) as [n2 r2]. injection E as <- <-. destruct (IH n2 r2 eq_refl) as (t & -> & K). exists t. auto.
Qed.
Lemma loop_names fuel : forall pat path set b set', route_loop fuel pat path set = Some (b, set') ->
  exists l, set' = set ++ l /\ forall n v, In (n, v) l -> param_of pat n.
Proof.
  induction fuel as [|fuel IH]; intros pat path set b set' E; [easy|].
  destruct pat as [|p pat]; [destruct path as [|c [|]]; cbn in E; injection E as <- <-; exists []; rewrite app_nil_r; easy|].
  destruct path as [|c path]; [destruct pat; cbn in E; injection E as <- <-; exists []; rewrite app_nil_r; easy|].
  rewrite route_loop_cons in E. destruct (p =? colon) eqn:P.
  - unfold colon in P. assert (p = 58) by lia. subst p.
    destruct (to_slash pat) as [n r] eqn:T. destruct (to_slash (c :: path)) as [v r'].
    apply IH in E. destruct E as (l & -> & H). exists ((n, v) :: l). rewrite <- app_assoc. split; [reflexivity|].
    apply to_slash_split in T. destruct T as (t & T & C).
    assert (W : split 47 (58 :: pat) = (58 :: n) :: t) by (cbn; now rewrite T).
    intros n' v' [K|K].
    + injection K as <- <-. exists []. rewrite W. split; [now left|easy].
    + apply H in K. destruct C as [(-> & ->)|(z & -> & ->)].
      * destruct K as (pre & [K|[]] & _). destruct pre; easy.
      * rewrite param_of_slash in K. destruct K as (pre & K & N). exists pre. rewrite W. split; [now right|exact N].
  - unfold colon in P. destruct (p =? c) eqn:PC; [|injection E as <- <-; exists []; rewrite app_nil_r; easy].
    apply IH in E. destruct E as (l & -> & H). exists l. split; [reflexivity|]. intros n v K. apply H in K.
    destruct (Z.eq_dec p 47) as [->|].
    + now apply param_of_slash.
    + apply param_of_lit; [assumption|lia|assumption].
Qed.

(** dispatch *)
Lemma value_of_app l1 l2 n : value_of (l1 ++ l2) n = match value_of l2 n with Some x => Some x | None => value_of l1 n end.
Proof.
  induction l1 as [|[k v] l1 IH]; cbn; [destruct (value_of l2 n); reflexivity|]. rewrite IH.
  destruct (value_of l2 n); [reflexivity|]. reflexivity.
Qed.
Lemma value_of_in l n x : value_of l n = Some x -> In (n, x) l.
Proof.
  induction l as [|[k v] l IH]; cbn; [easy|]. destruct (value_of l n) as [y|]; [intros [= ->]; right; auto|].
  destruct (list_eq_dec Z.eq_dec k n) as [->|]; [|easy]. intros [= ->]. now left.
Qed.
Lemma value_of_some l n : In n (map fst l) -> value_of l n <> None.
Proof.
  induction l as [|[k v] l IH]; cbn; [easy|]. intros H. destruct (value_of l n) eqn:E; [easy|].
  destruct (list_eq_dec Z.eq_dec k n); [easy|]. destruct H as [H|H]; [easy|]. now apply IH in H.
Qed.
Lemma str_eq_iff a b : str_eq a b = true <-> a = b.
Proof. unfold str_eq. destruct (list_eq_dec Z.eq_dec a b); split; easy. Qed.
Definition nul_free (routes : pairs) := forall m p, In (m, p) routes -> ~ In 0 m /\ ~ In 0 p.

Theorem dispatch_first routes : forall k m path set, nul_free routes -> ~ In 0 m -> ~ In 0 path ->
  exists r set', dispatch routes k m path set = Some (r, set') /\
  match r with
  | Some i => exists j pat l leak, i = (k + j)%nat /\ nth_error routes j = Some (m, pat) /\ matches pat path l /\ set' = set ++ leak ++ l /\
      (forall j' m' pat', (j' < j)%nat -> nth_error routes j' = Some (m', pat') -> m' <> m \/ ~ exists l, matches pat' path l) /\
      (forall n v, In (n, v) leak -> exists j' pat', (j' < j)%nat /\ nth_error routes j' = Some (m, pat') /\ param_of pat' n)
  | None => forall pat', In (m, pat') routes -> ~ exists l, matches pat' path l
  end.
Proof.
  induction routes as [|[m1 p1] routes IH]; intros k m path set NF N1 N2; cbn [dispatch].
  - exists None, set. split; [reflexivity|]. easy.
  - assert (NF' : nul_free routes) by (intros x y K; apply NF; now right).
    destruct (NF m1 p1 (or_introl eq_refl)) as [Nm Np]. rewrite !cstr_id by assumption.
    assert (Skip : forall set0 leak0, (forall n v, In (n, v) leak0 -> m1 = m /\ param_of p1 n) -> set0 = set ++ leak0 ->
        (m1 <> m \/ ~ exists l, matches p1 path l) ->
        exists r set', dispatch routes (S k) m path set0 = Some (r, set') /\
          match r with
          | Some i => exists j pat l leak, i = (k + j)%nat /\ nth_error ((m1, p1) :: routes) j = Some (m, pat) /\ matches pat path l /\
              set' = set ++ leak ++ l /\
              (forall j' m' pat', (j' < j)%nat -> nth_error ((m1, p1) :: routes) j' = Some (m', pat') -> m' <> m \/ ~ exists l, matches pat' path l) /\
              (forall n v, In (n, v) leak -> exists j' pat', (j' < j)%nat /\ nth_error ((m1, p1) :: routes) j' = Some (m, pat') /\ param_of pat' n)
          | None => forall pat', In (m, pat') ((m1, p1) :: routes) -> ~ exists l, matches pat' path l
          end).
    { intros set0 leak0 HL E0 NM. destruct (IH (S k) m path set0 NF' N1 N2) as (r & set' & E & H).
      exists r, set'. split; [exact E|]. destruct r as [i|].
      - destruct H as (j & pat & l & leak & H1 & H2 & H3 & H4 & H5 & H6).
        exists (S j), pat, l, (leak0 ++ leak). split; [lia|]. split; [exact H2|]. split; [exact H3|].
        split; [rewrite H4, E0, <- !app_assoc; reflexivity|]. split.
        + intros [|j'] m' pat' Hj Hn; [cbn in Hn; injection Hn as <- <-; exact NM|]. apply (H5 j' m' pat'); [lia|exact Hn].
        + intros n v K. apply in_app_or in K. destruct K as [K|K].
          * apply HL in K. destruct K as [<- K]. exists 0%nat, p1. split; [lia|]. split; [reflexivity|exact K].
          * apply H6 in K. destruct K as (j' & pat' & K1 & K2 & K3). exists (S j'), pat'. split; [lia|]. split; assumption.
      - intros pat' [K|K]; [injection K as -> ->; destruct NM; easy|now apply H]. }
    destruct (str_eq m1 m) eqn:Em.
    + apply str_eq_iff in Em. subst m1.
      destruct (route_match_iff p1 path set Np N2) as (b & set0 & E & H). rewrite E. destruct b.
      * eexists _, _. split; [reflexivity|].
        assert (exists l, set0 = set ++ l) as (l & ->).
        { unfold match_route in E. apply loop_names in E. destruct E as (l & -> & _). eauto. }
        exists 0%nat, p1, l, []. split; [lia|]. split; [reflexivity|]. split; [now apply H|]. split; [reflexivity|].
        split; [lia|easy].
      * unfold match_route in E. apply loop_names in E. destruct E as (l & -> & L). rewrite cstr_id in L by assumption.
        apply (Skip _ l); [intros n v K; split; [reflexivity|eauto]|reflexivity|]. right. intros (l' & K). apply H in K. easy.
    + apply (Skip set []); [easy|now rewrite app_nil_r|]. left. intros ->.
      rewrite (proj2 (str_eq_iff m m) eq_refl) in Em. easy.
Qed.
