(** Proofs about histories of calls and about equality of descriptors. *)
From Verif Require Import Base BaseFacts LexModel LexProofs MapModel ProbeModel BsearchModel BsearchProofs TypesModel TypesSpec TypesProofs TypesProofs2 TypesProofs3.

Lemma meets_extends p p' q g : extends p p' -> meets p q g -> meets p' q g.
Proof. intros X. destruct g; cbn; [trivial|]. intros (i & E & H). exists i. split; [exact E|]. now apply (extends_nth p). Qed.
Lemma outcome_ok p r g p' q : outcome p r g -> r = Ok (p', q) ->
  good p' /\ extends p p' /\ meets p' q g /\ (length (descs p') <= S (length (descs p)))%nat /\ (forall m, enum_in p' m -> enum_in p m \/ g = GPool KEnum m).
Proof. intros [[E _]|(p1 & q1 & E & G & X & M & L & N & _)] F; rewrite E in F; [discriminate F|]. injection F as -> ->. split; [exact G|]. split; [exact X|]. split; [exact M|]. split; [exact L|]. exact N. Qed.
(** What the i-th call of a history returned. *)
Definition answered (p : pool) (seen : list call) (p0 : pool) (c : call) (q : ptr) : Prop :=
  meets p q (goal_of c) \/ exists n, c = FromName n /\ (enum_in p0 n \/ In (MkEnum n) seen) /\ meets p q (GPool KEnum n).
Lemma goal_enum c n : goal_of c = GPool KEnum n -> c = MkEnum n.
Proof.
  assert (B : forall m k fixed, builtin m = Some (Alloc k fixed) -> k <> KEnum).
  { intros m k fixed. unfold builtin. destruct (bsearch fst builtin_types m) as [i|]; [|discriminate].
    destruct (nth_error builtin_types i) as [[w h]|] eqn:Ei; [|discriminate]. cbn [option_map snd]. intros E. injection E as ->.
    apply nth_error_In in Ei. assert (T : forallb (fun e => match snd e with Alloc KEnum _ => false | _ => true end) builtin_types = true) by reflexivity.
    rewrite forallb_forall in T. specialize (T _ Ei). cbn [snd] in T. intros ->. discriminate T. }
  destruct c as [m|m|m|m|m]; cbn [goal_of]; intros E; try discriminate E; [injection E as ->; reflexivity|].
  destruct (strncmp_func m); [discriminate E|]. destruct (builtin m) as [[k|k fixed]|] eqn:Eb; [discriminate E| |].
  - injection E as -> _. now apply B in Eb.
  - destruct (hd 0 m =? 94); [discriminate E|]. destruct ((hd 0 m =? 91) && (2 <? Z.of_nat (length m)) && (last m 0 =? 93)); [discriminate E|].
    unfold named_goal in E. destruct (strcmp (firstn 4 m) (bs "map[") =? 0); [discriminate E|].
    destruct (match cut 46 m with Some (x, base) => if upper (hd 0 base) then Some (x ++ [95] ++ base) else None | None => None end); [discriminate E|].
    destruct (upper (hd 0 m)); [discriminate E|]. destruct (cut 95 m) as [[x base]|]; [|discriminate E]. destruct (upper (hd 0 base)); discriminate E.
Qed.
Lemma calls_ok l : forall p p' qs, good p -> calls p l = Ok (p', qs) ->
  good p' /\ extends p p' /\ length qs = length l /\
  forall i c q, nth_error l i = Some c -> nth_error qs i = Some q -> answered p' l p c q.
Proof.
  induction l as [|c l IH]; intros p p' qs G E; cbn [calls] in E.
  - injection E as <- <-. split; [exact G|]. split; [apply extends_refl|]. split; [reflexivity|]. intros [|i]; discriminate.
  - destruct (do_call p c) as [[p1 q1]| | |] eqn:Ec; try discriminate E. cbn [rbind fst snd] in E.
    destruct (calls p1 l) as [[p2 qs2]| | |] eqn:El; try discriminate E. cbn [rmap fst snd] in E. injection E as <- <-.
    assert (C : good p1 /\ extends p p1 /\ (meets p1 q1 (goal_of c) \/ exists n, c = FromName n /\ enum_in p n /\ meets p1 q1 (GPool KEnum n)) /\
      forall m, enum_in p1 m -> enum_in p m \/ c = MkEnum m).
    { destruct (call_outcome p c G) as [O|(n & -> & En & O)].
      - destruct (outcome_ok _ _ _ _ _ O Ec) as (G1 & X1 & M1 & _ & N1). repeat (split; [first [assumption|now left]|]). intros m Hm. destruct (N1 m Hm) as [H|H]; [now left|right; now apply goal_enum].
      - destruct (outcome_ok _ _ _ _ _ O Ec) as (G1 & X1 & M1 & _ & N1). repeat (split; [first [assumption|right; now exists n]|]). intros m Hm. destruct (N1 m Hm) as [H|H]; [now left|].
        injection H as ->. now left. }
    destruct C as (G1 & X1 & M1 & N1). destruct (IH p1 p2 qs2 G1 El) as (G2 & X2 & L2 & A2).
    split; [exact G2|]. split; [eapply extends_trans; eauto|]. split; [cbn [length]; now rewrite L2|]. intros [|i] c' q' Hc Hq; cbn [nth_error] in Hc, Hq.
    + injection Hc as <-. injection Hq as <-. destruct M1 as [M1|(n & -> & En & M1)].
      * left. eapply meets_extends; eauto.
      * right. exists n. split; [reflexivity|]. split; [now left|]. eapply meets_extends; eauto.
    + destruct (A2 i c' q' Hc Hq) as [M|(n & -> & En & M)]; [now left|]. right. exists n. split; [reflexivity|]. split; [|exact M].
      destruct En as [En|En]; [|right; now right]. destruct (N1 n En) as [H|H]; [now left|]. right. left. exact H.
Qed.
Lemma calls_total l : forall p, good p -> Z.of_nat (length (descs p) + length l) <= 4096 -> exists p' qs, calls p l = Ok (p', qs).
Proof.
  induction l as [|c l IH]; intros p G L; cbn [calls length] in *; [now eexists _, _|].
  assert (C : exists p1 q1, do_call p c = Ok (p1, q1) /\ good p1 /\ (length (descs p1) <= S (length (descs p)))%nat).
  { destruct (call_outcome p c G) as [[[_ H]|(p1 & q1 & E & G1 & _ & _ & L1 & _)]|(n & _ & _ & [[_ H]|(p1 & q1 & E & G1 & _ & _ & L1 & _)])]; try lia; now exists p1, q1. }
  destruct C as (p1 & q1 & -> & G1 & L1). cbn [rbind fst snd]. destruct (IH p1 G1) as (p2 & qs & ->); [lia|]. now eexists _, _.
Qed.
(** Which kinds and names calls ask for. *)
Definition single_kinds : list tkind := [KVoid; KInt; KUint; KFloat; KBool; KChar; KByte; KString; KNil; KUnknown].
Definition kin (k : tkind) (l : list tkind) : bool := existsb (fun x => knum x =? knum k) l.
Lemma goal_single c k : goal_of c = GSingle k -> kin k single_kinds = true.
Proof.
  destruct c as [m|m|m|m|m]; cbn [goal_of]; intros E; try discriminate E.
  destruct (strncmp_func m); [discriminate E|]. destruct (builtin m) as [[k'|k' fixed]|] eqn:Eb; [|discriminate E|].
  - injection E as ->. unfold builtin in Eb. destruct (bsearch fst builtin_types m) as [i|]; [|discriminate].
    destruct (nth_error builtin_types i) as [[w h]|] eqn:Ei; [|discriminate]. cbn [option_map snd] in Eb. injection Eb as ->.
    apply nth_error_In in Ei. assert (T : forallb (fun e => match snd e with One k => kin k single_kinds | _ => true end) builtin_types = true) by reflexivity.
    rewrite forallb_forall in T. exact (T _ Ei).
  - destruct (hd 0 m =? 94); [discriminate E|]. destruct ((hd 0 m =? 91) && (2 <? Z.of_nat (length m)) && (last m 0 =? 93)); [discriminate E|].
    unfold named_goal in E. destruct (strcmp (firstn 4 m) (bs "map[") =? 0); [discriminate E|].
    destruct (match cut 46 m with Some (x, base) => if upper (hd 0 base) then Some (x ++ [95] ++ base) else None | None => None end); [discriminate E|].
    destruct (upper (hd 0 m)); [discriminate E|]. destruct (cut 95 m) as [[x base]|]; [|injection E as <-; reflexivity]. destruct (upper (hd 0 base)); [discriminate E|injection E as <-; reflexivity].
Qed.
Lemma table_sorted : sorted fst builtin_types.
Proof. apply ascending_sorted. vm_compute. reflexivity. Qed.
Lemma goal_pool c k n : goal_of c = GPool k n -> kin k single_kinds = true -> n <> single_name k.
Proof.
  destruct c as [m|m|m|m|m]; cbn [goal_of]; intros E K; try (injection E as <- <-; discriminate K).
  destruct (strncmp_func m); [injection E as <- <-; discriminate K|]. destruct (builtin m) as [[k'|k' fixed]|] eqn:Eb; [discriminate E| |].
  - injection E as -> <-. unfold builtin in Eb. pose proof (bsearch_spec fst builtin_types m table_sorted) as B.
    destruct (bsearch fst builtin_types m) as [i|]; [|discriminate].
    destruct B as (a & Ha & Hn). rewrite Ha in Eb. destruct a as [w h]. cbn [option_map snd fst] in *. subst w. injection Eb as ->.
    apply nth_error_In in Ha.
    assert (T : forallb (fun e => match snd e with Alloc k f => negb (strcmp (match f with Some f => f | None => fst e end) (single_name k) =? 0) | One _ => true end) builtin_types = true) by reflexivity.
    rewrite forallb_forall in T. specialize (T _ Ha). cbn [snd fst] in T. intros E. rewrite E, strcmp_refl in T. discriminate T.
  - destruct (hd 0 m =? 94); [injection E as <- <-; discriminate K|]. destruct ((hd 0 m =? 91) && (2 <? Z.of_nat (length m)) && (last m 0 =? 93)); [injection E as <- <-; discriminate K|].
    unfold named_goal in E. destruct (strcmp (firstn 4 m) (bs "map[") =? 0); [injection E as <- <-; discriminate K|].
    destruct (match cut 46 m with Some (x, base) => if upper (hd 0 base) then Some (x ++ [95] ++ base) else None | None => None end); [injection E as <- <-; discriminate K|].
    destruct (upper (hd 0 m)); [injection E as <- <-; discriminate K|]. destruct (cut 95 m) as [[x base]|]; [|discriminate E].
    destruct (upper (hd 0 base)); [injection E as <- <-; discriminate K|discriminate E].
Qed.
(** A returned address: what it points to. *)
Definition lawful (p : pool) (q : ptr) (g : gtype) : Prop :=
  deref p q = Some g /\ g = build (kind g) (name g) /\
  match q with Single k => kin k single_kinds = true /\ kind g = k /\ name g = single_name k
             | Pool _ => kin (kind g) single_kinds = true -> name g <> single_name (kind g) end.
Lemma answered_lawful p l p0 c q : answered p l p0 c q -> exists g, lawful p q g.
Proof.
  intros [M|(n & _ & _ & M)].
  - destruct (goal_of c) as [k|k n] eqn:E; cbn [meets] in M.
    + subst q. exists (plain k (single_name k)). apply goal_single in E. unfold lawful. cbn [deref kind name]. repeat split; [|exact E].
      destruct k; try discriminate E; reflexivity.
    + destruct M as (i & -> & Hi). exists (build k n). unfold lawful. cbn [deref]. rewrite build_kind, build_name. repeat split; [exact Hi|]. now apply (goal_pool c).
  - destruct M as (i & -> & Hi). exists (build KEnum n). unfold lawful. cbn [deref]. rewrite build_kind, build_name. repeat split; [exact Hi|]. discriminate.
Qed.
Lemma lawful_same p q q' g g' : good p -> lawful p q g -> lawful p q' g' -> (q = q' <-> kind g = kind g' /\ name g = name g').
Proof.
  intros G (D & B & K) (D' & B' & K'). split.
  - intros ->. rewrite D in D'. injection D' as ->. now split.
  - intros [Ek En]. destruct q as [k|i], q' as [k'|i'].
    + f_equal. destruct K as (_ & <- & _), K' as (_ & <- & _). exact Ek.
    + exfalso. destruct K as (K1 & K2 & K3). rewrite <- Ek, K2 in K'. apply (K' K1). congruence.
    + exfalso. destruct K' as (K1 & K2 & K3). rewrite Ek, K2 in K. apply (K K1). congruence.
    + f_equal. cbn [deref] in D, D'. exact (g_distinct p G i i' g g' D D' Ek En).
Qed.
(** ** Equality of descriptors. *)
Definition by_name (k : tkind) : bool := match k with KStruct | KEnum | KPointer | KFunction | KArray => true | _ => false end.
Lemma equals_spec k n k' n' : exists b, type_equals (build k n) (build k' n') = Ok b /\ (b = true <-> k = k' /\ (by_name k = true -> n = n')).
Proof.
  unfold type_equals. rewrite !build_kind, !build_name. destruct (Z.eqb_spec (knum k) (knum k')) as [E|N]; cbn [negb].
  - apply knum_inj in E. subst k'.
    destruct k; cbn [by_name build element_type]; try (exists true; split; [reflexivity|]; split; [intros _; split; [reflexivity|discriminate]|reflexivity]);
      (eexists; split; [reflexivity|]; rewrite strcmp0; tauto).
  - exists false. split; [reflexivity|]. split; [discriminate|]. intros [-> _]. now elim N.
Qed.
(** ** Names the checker resolves exactly. *)
Definition basic : list bytes := [bs "int"; bs "uint"; bs "float"; bs "bool"; bs "char"; bs "byte"; bs "string"; bs "void"; bs "nil"].
Lemma builtin_none n : (forall a, In a builtin_types -> fst a <> n) -> builtin n = None.
Proof.
  intros H. unfold builtin. pose proof (bsearch_spec fst builtin_types n table_sorted) as B. destruct (bsearch fst builtin_types n) as [i|]; [|reflexivity].
  destruct B as (a & Ha & E). apply nth_error_In in Ha. now apply H in Ha.
Qed.
Lemma not_func c r : c <> 102 -> strncmp_func (c :: r) = false.
Proof.
  intros N. unfold strncmp_func. cbn [firstn]. change (bs "func(") with (102 :: bs "unc("). cbn [strcmp].
  destruct (Z.eqb_spec c 102); [contradiction|]. destruct (Z.eqb_spec (c - 102) 0); [lia|reflexivity].
Qed.
Lemma builtin_hd c r : forallb (fun a => negb (hd 0 (fst a) =? c)) builtin_types = true -> builtin (c :: r) = None.
Proof.
  intros T. apply builtin_none. intros [w h] Ha E. rewrite forallb_forall in T. specialize (T _ Ha). cbn [fst] in *. subst w. cbn [hd] in T. rewrite Z.eqb_refl in T. discriminate T.
Qed.
Lemma goal_ptr t : goal_of (FromName (show (TPtr t))) = GPool KPointer (show t).
Proof. cbn [goal_of show app]. rewrite not_func by lia. rewrite builtin_hd by reflexivity. reflexivity. Qed.
Lemma cut_none c s : ~ In c s -> cut c s = None.
Proof. induction s as [|x s IH]; intros N; [reflexivity|]. cbn [cut]. destruct (Z.eqb_spec x c) as [->|]; [elim N; now left|]. rewrite IH; [reflexivity|]. intros H. apply N. now right. Qed.
Lemma goal_arr t : wf t -> ~ In 44 (show t) -> goal_of (FromName (show (TArr t))) = GPool KArray (show t).
Proof.
  intros W N. cbn [goal_of show app]. rewrite not_func by lia. rewrite builtin_hd by reflexivity. cbn [hd]. change (91 =? 94) with false. cbv iota.
  assert (L : 2 <? Z.of_nat (length (91 :: show t ++ [93])) = true).
  { cbn [length]. rewrite app_length. cbn [length]. pose proof (show_nonempty t W). destruct (show t); [now elim H|]. cbn [length]. lia. }
  rewrite L. change (91 :: show t ++ [93]) with ((91 :: show t) ++ [93]). rewrite last_last. change ((91 =? 91) && true && (93 =? 93)) with true. cbv iota.
  cbn [app tl]. rewrite removelast_last, cut_none by exact N. reflexivity.
Qed.
Lemma goal_arr_any t : wf t -> exists n, goal_of (FromName (show (TArr t))) = GPool KArray n.
Proof.
  intros W. cbn [goal_of show app]. rewrite not_func by lia. rewrite builtin_hd by reflexivity. cbn [hd]. change (91 =? 94) with false. cbv iota.
  assert (L : 2 <? Z.of_nat (length (91 :: show t ++ [93])) = true).
  { cbn [length]. rewrite app_length. cbn [length]. pose proof (show_nonempty t W). destruct (show t); [now elim H|]. cbn [length]. lia. }
  rewrite L. change (91 :: show t ++ [93]) with ((91 :: show t) ++ [93]). rewrite last_last. change ((91 =? 91) && true && (93 =? 93)) with true. cbv iota.
  eexists. reflexivity.
Qed.
Lemma goal_map k v : goal_of (FromName (show (TMap k v))) = GPool KMap (show (TMap k v)).
Proof.
  cbn [goal_of show]. change (bs "map[" ++ k ++ [58] ++ show v ++ [93]) with (109 :: 97 :: 112 :: 91 :: k ++ [58] ++ show v ++ [93]).
  rewrite not_func by lia. rewrite builtin_hd by reflexivity. reflexivity.
Qed.
Lemma cut_at c a r : ~ In c a -> cut c (a ++ c :: r) = Some (a, r).
Proof.
  induction a as [|x a IH]; intros N; cbn [app cut]; [now rewrite Z.eqb_refl|]. destruct (Z.eqb_spec x c) as [->|]; [elim N; now left|].
  rewrite IH; [reflexivity|]. intros H. apply N. now right.
Qed.
Lemma parts_of_map k v : word k -> map_parts (show (TMap k v)) = Some (k, show v).
Proof.
  intros [_ F]. unfold map_parts. cbn [show]. change (skipn 4 (bs "map[" ++ k ++ [58] ++ show v ++ [93])) with (k ++ 58 :: (show v ++ [93])).
  rewrite cut_at; [|intros H; rewrite Forall_forall in F; apply F in H; unfold word_char in H; lia]. cbn [option_map fst snd]. rewrite last_last, removelast_last. reflexivity.
Qed.
Lemma goal_func ps r : goal_of (FromName (show (TFunc ps r))) = GPool KFunction (show (TFunc ps r)).
Proof. reflexivity. Qed.
Lemma goal_struct n : word n -> upper (hd 0 n) = true -> n <> bs "Error" -> goal_of (FromName n) = GPool KStruct n.
Proof.
  intros [Ne F] U NE. destruct n as [|c n]; [now elim Ne|]. cbn [hd] in U. unfold upper in U. cbn [goal_of]. rewrite not_func by lia.
  rewrite builtin_none.
  - cbn [hd]. destruct (Z.eqb_spec c 94); [lia|]. destruct (Z.eqb_spec c 91); [lia|]. cbn [andb]. unfold named_goal.
    assert (M : strcmp (firstn 4 (c :: n)) (bs "map[") =? 0 = false).
    { cbn [firstn]. change (bs "map[") with (109 :: bs "ap["). cbn [strcmp]. destruct (Z.eqb_spec c 109); [lia|]. destruct (Z.eqb_spec (c - 109) 0); [lia|reflexivity]. }
    rewrite M. rewrite (cut_none 46).
    + cbn [hd]. unfold upper. now rewrite U.
    + intros H. rewrite Forall_forall in F. apply F in H. unfold word_char in H. lia.
  - intros [w h] Ha E.
    assert (T : forallb (fun a => negb (upper (hd 0 (fst a))) || (strcmp (fst a) (bs "Error") =? 0)) builtin_types = true) by (vm_compute; reflexivity).
    rewrite forallb_forall in T. specialize (T _ Ha). cbn [fst] in *. subst w. cbn [hd] in T. unfold upper in T. rewrite U in T. cbn [negb orb] in T. apply strcmp0 in T. now elim NE.
Qed.
Lemma goal_basic n : In n basic -> exists k, goal_of (FromName n) = GSingle k /\ single_name k = n.
Proof. intros H. repeat (destruct H as [<-|H]; [eexists; split; [vm_compute; reflexivity|reflexivity]|]). destruct H. Qed.
(** Types whose descriptor tells them apart from every other such type: basic
    types, structs, pointers, arrays without a size whose element type has no
    comma in its text, and function types. *)
Inductive simple : ty -> Prop :=
| s_basic n : In n basic -> simple (TName n)
| s_struct n : word n -> upper (hd 0 n) = true -> n <> bs "Error" -> simple (TName n)
| s_ptr t : wf t -> simple (TPtr t)
| s_arr t : wf t -> ~ In 44 (show t) -> simple (TArr t)
| s_func ps r : wf (TFunc ps r) -> simple (TFunc ps r).
Lemma simple_goal t : simple t -> exists k n, (goal_of (FromName (show t)) = GSingle k /\ n = single_name k \/ goal_of (FromName (show t)) = GPool k n) /\
  forall t' k' n', simple t' -> (goal_of (FromName (show t')) = GSingle k' /\ n' = single_name k' \/ goal_of (FromName (show t')) = GPool k' n') ->
     k = k' -> (by_name k = true -> n = n') -> t = t'.
Proof.
  assert (C : forall t, simple t ->
    (exists n k, t = TName n /\ In n basic /\ goal_of (FromName (show t)) = GSingle k /\ single_name k = n) \/
    (exists n, t = TName n /\ goal_of (FromName (show t)) = GPool KStruct n) \/
    (exists u, t = TPtr u /\ wf u /\ goal_of (FromName (show t)) = GPool KPointer (show u)) \/
    (exists u, t = TArr u /\ wf u /\ goal_of (FromName (show t)) = GPool KArray (show u)) \/
    (exists ps r, t = TFunc ps r /\ wf t /\ goal_of (FromName (show t)) = GPool KFunction (show t))).
  { intros u S0. destruct S0 as [n H|n W U E|u W|u W N|ps r W].
    - left. destruct (goal_basic n H) as (k & Hk & Hn). now exists n, k.
    - right. left. exists n. split; [reflexivity|]. now apply goal_struct.
    - do 2 right. left. exists u. split; [reflexivity|]. split; [exact W|]. apply goal_ptr.
    - do 3 right. left. exists u. split; [reflexivity|]. split; [exact W|]. now apply goal_arr.
    - do 4 right. now exists ps, r. }
  intros S0. pose proof (C t S0) as Ct. destruct Ct as [(n & k & -> & Hb & Hg & Hk)|[(n & -> & Hg)|[(u & -> & W & Hg)|[(u & -> & W & Hg)|(ps & r & -> & W & Hg)]]]].
  - exists k, n. split; [left; now split|]. intros t' k' n' S' G' Ek _.
    destruct (C t' S') as [(n2 & k2 & -> & Hb2 & Hg2 & Hk2)|[(n2 & -> & Hg2)|[(u2 & -> & W2 & Hg2)|[(u2 & -> & W2 & Hg2)|(ps2 & r2 & -> & W2 & Hg2)]]]]; rewrite Hg2 in G'.
    + destruct G' as [[E _]|E]; [|discriminate E]. injection E as ->. subst k'. f_equal. now rewrite <- Hk, <- Hk2.
    + destruct G' as [[E _]|E]; [discriminate E|]. injection E as <- <-. subst k. exfalso. pose proof (goal_single _ _ Hg). discriminate.
    + destruct G' as [[E _]|E]; [discriminate E|]. injection E as <- <-. subst k. exfalso. pose proof (goal_single _ _ Hg). discriminate.
    + destruct G' as [[E _]|E]; [discriminate E|]. injection E as <- <-. subst k. exfalso. pose proof (goal_single _ _ Hg). discriminate.
    + destruct G' as [[E _]|E]; [discriminate E|]. injection E as <- <-. subst k. exfalso. pose proof (goal_single _ _ Hg). discriminate.
  - exists KStruct, n. split; [now right|]. intros t' k' n' S' G' <- En. specialize (En eq_refl). subst n'.
    destruct (C t' S') as [(n2 & k2 & -> & Hb2 & Hg2 & Hk2)|[(n2 & -> & Hg2)|[(u2 & -> & W2 & Hg2)|[(u2 & -> & W2 & Hg2)|(ps2 & r2 & -> & W2 & Hg2)]]]]; rewrite Hg2 in G'; destruct G' as [[E X]|E]; try discriminate E.
    + injection E as ->. pose proof (goal_single _ _ Hg2). discriminate.
    + injection E as ->. reflexivity.
  - exists KPointer, (show u). split; [now right|]. intros t' k' n' S' G' <- En. specialize (En eq_refl). subst n'.
    destruct (C t' S') as [(n2 & k2 & -> & Hb2 & Hg2 & Hk2)|[(n2 & -> & Hg2)|[(u2 & -> & W2 & Hg2)|[(u2 & -> & W2 & Hg2)|(ps2 & r2 & -> & W2 & Hg2)]]]]; rewrite Hg2 in G'; destruct G' as [[E X]|E]; try discriminate E.
    + injection E as ->. pose proof (goal_single _ _ Hg2). discriminate.
    + injection E as E. f_equal. symmetry. now apply show_inj.
  - exists KArray, (show u). split; [now right|]. intros t' k' n' S' G' <- En. specialize (En eq_refl). subst n'.
    destruct (C t' S') as [(n2 & k2 & -> & Hb2 & Hg2 & Hk2)|[(n2 & -> & Hg2)|[(u2 & -> & W2 & Hg2)|[(u2 & -> & W2 & Hg2)|(ps2 & r2 & -> & W2 & Hg2)]]]]; rewrite Hg2 in G'; destruct G' as [[E X]|E]; try discriminate E.
    + injection E as ->. pose proof (goal_single _ _ Hg2). discriminate.
    + injection E as E. f_equal. symmetry. now apply show_inj.
  - exists KFunction, (show (TFunc ps r)). split; [now right|]. intros t' k' n' S' G' <- En. specialize (En eq_refl). subst n'.
    destruct (C t' S') as [(n2 & k2 & -> & Hb2 & Hg2 & Hk2)|[(n2 & -> & Hg2)|[(u2 & -> & W2 & Hg2)|[(u2 & -> & W2 & Hg2)|(ps2 & r2 & -> & W2 & Hg2)]]]]; rewrite Hg2 in G'; destruct G' as [[E X]|E]; try discriminate E.
    + injection E as ->. pose proof (goal_single _ _ Hg2). discriminate.
    + assert (E' : show (TFunc ps2 r2) = show (TFunc ps r)) by (revert E; generalize (show (TFunc ps2 r2)) (show (TFunc ps r)); intros a b E; now injection E).
      symmetry. now apply show_inj.
Qed.
