(** Proofs for the pool of type descriptors. *)
From Verif Require Import Base BaseFacts LexModel LexProofs MapModel MapProofs ProbeModel ProbeProofs BsearchModel BsearchProofs TypesModel TypesSpec TypesProofs TypesProofs2.

Lemma knum_inj a b : knum a = knum b -> a = b.
Proof. destruct a, b; intros E; try reflexivity; discriminate E. Qed.
Lemma strcmp0 a b : (strcmp a b =? 0) = true <-> a = b.
Proof. rewrite Z.eqb_eq. split; [apply strcmp_eq|intros ->; apply strcmp_refl]. Qed.
Lemma hit_spec k n e : hit k n e = true <-> fst e = (k, n).
Proof.
  destruct e as [[k' n'] i]. unfold hit. cbn [fst snd]. rewrite andb_true_iff, strcmp0, Z.eqb_eq. split.
  - intros [E ->]. apply knum_inj in E. now subst.
  - intros E. injection E as -> ->. now split.
Qed.
(** What a descriptor of a kind and name looks like. *)
Definition build (k : tkind) (n : bytes) : gtype :=
  match k with
  | KArray => GType KArray n (Some n) None None None
  | KPointer => GType KPointer n (Some n) None None None
  | KMap => GType KMap n None (option_map fst (map_parts n)) (option_map snd (map_parts n)) None
  | KFunction => GType KFunction n None None None (parse_func_sig n)
  | k => plain k n
  end.
Lemma build_kind k n : kind (build k n) = k. Proof. now destruct k. Qed.
Lemma build_name k n : name (build k n) = n. Proof. now destruct k. Qed.
Definition hash2 (k : tkind * bytes) : Z := type_hash (fst k) (snd k).
Record good (p : pool) : Prop := {
  g_sound : sound (@fst (tkind * bytes) nat) hash2 (index p);
  g_used : used (index p) = length (descs p);
  g_cap : cap (index p) = 8192;
  g_len : Z.of_nat (length (descs p)) <= 4096;
  g_has : forall e, has (index p) e <-> exists g, nth_error (descs p) (snd e) = Some g /\ fst e = (kind g, name g);
  g_distinct : forall i j g h, nth_error (descs p) i = Some g -> nth_error (descs p) j = Some h -> kind g = kind h -> name g = name h -> i = j;
  g_built : forall i g, nth_error (descs p) i = Some g -> g = build (kind g) (name g)
}.
Lemma fresh_good : good fresh.
Proof.
  unfold fresh. constructor; cbn [index descs].
  - apply (empty_sound fst hash2 13); [lia|]. reflexivity.
  - apply empty_used.
  - rewrite empty_cap. reflexivity.
  - cbn. lia.
  - intros e. split; [intros H; now apply empty_has in H|]. intros (g & H & _). destruct (snd e); discriminate H.
  - intros [|i] j g h H; discriminate H.
  - intros [|i] g H; discriminate H.
Qed.
Lemma find_spec p k n : good p -> exists o, pool_find p k n = Ok o /\
  match o with
  | Some q => exists i g, q = Pool i /\ nth_error (descs p) i = Some g /\ kind g = k /\ name g = n
  | None => forall i g, nth_error (descs p) i = Some g -> kind g = k -> name g <> n
  end.
Proof.
  intros G. unfold pool_find.
  assert (D : (exists i g, nth_error (descs p) i = Some g /\ kind g = k /\ name g = n) \/
              (forall i g, nth_error (descs p) i = Some g -> kind g = k -> name g <> n)).
  { clear G. induction (descs p) as [|g l IH]; [right; intros [|i] g H; discriminate H|]. destruct IH as [(i & h & H1 & H2 & H3)|N].
    - left. exists (S i), h. now split.
    - destruct (Z.eq_dec (knum (kind g)) (knum k)) as [Ek|Nk]; [destruct (list_eq_dec Z.eq_dec (name g) n) as [En|Nn]|].
      + left. exists O, g. apply knum_inj in Ek. now split.
      + right. intros [|i] h H Hk; [now injection H as <-|now apply (N i)].
      + right. intros [|i] h H Hk; [injection H as <-; now subst k|now apply (N i)]. }
  destruct D as [(i & g & Hi & Hk & Hn)|N].
  - destruct (find_present fst hash2 (hit k n) (index p) (k, n, i) (g_sound p G)) as (h & Eh & Hh).
    + apply (g_has p G). exists g. cbn [fst snd]. split; [exact Hi|congruence].
    + intros f _. cbn [fst]. apply hit_spec.
    + change (hash2 (fst (k, n, i))) with (type_hash k n) in Eh. rewrite Eh, Hh. cbn [option_map snd]. exists (Some (Pool i)). split; [reflexivity|]. now exists i, g.
  - destruct (find_absent fst hash2 (hit k n) (index p) (type_hash k n) (g_sound p G)) as (d & _ & Eh & Hh & _).
    + intros f Hf. apply (g_has p G) in Hf as (g & Hg & E). destruct (hit k n f) eqn:Ht; [|reflexivity]. apply hit_spec in Ht.
      rewrite Ht in E. injection E as Ek En. exfalso. apply (N _ _ Hg); congruence.
    + rewrite Eh, Hh. cbn [option_map]. now exists None.
Qed.
Definition extends (p p' : pool) : Prop := exists l, descs p' = descs p ++ l.
Lemma extends_refl p : extends p p. Proof. exists []. now rewrite app_nil_r. Qed.
Lemma extends_trans a b c : extends a b -> extends b c -> extends a c.
Proof. intros [l E] [m F]. exists (l ++ m). now rewrite F, E, app_assoc. Qed.
Lemma extends_nth p p' i g : extends p p' -> nth_error (descs p) i = Some g -> nth_error (descs p') i = Some g.
Proof. intros [l ->] H. rewrite nth_error_app1; [exact H|]. apply nth_error_Some. congruence. Qed.
Lemma nth_snoc {A} (l : list A) x i y : nth_error (l ++ [x]) i = Some y -> nth_error l i = Some y \/ i = length l /\ y = x.
Proof.
  intros H. destruct (Nat.lt_ge_cases i (length l)) as [L|L].
  - rewrite nth_error_app1 in H by exact L. now left.
  - rewrite nth_error_app2 in H by exact L. destruct (i - length l)%nat as [|[|m]] eqn:M; [|discriminate H|discriminate H].
    injection H as <-. right. split; [lia|reflexivity].
Qed.
(** Interning returns a descriptor of the kind and name asked for, or stops the
    compiler because the pool is full. *)
Lemma intern_spec p k n : good p ->
  (intern p (build k n) = Panic 1 /\ Z.of_nat (length (descs p)) = 4096) \/
  exists p' i, intern p (build k n) = Ok (p', Pool i) /\ good p' /\ extends p p' /\ nth_error (descs p') i = Some (build k n) /\
    (length (descs p') <= S (length (descs p)))%nat /\
    (forall j g, nth_error (descs p') j = Some g -> nth_error (descs p) j = Some g \/ g = build k n).
Proof.
  intros G. unfold intern. rewrite build_kind, build_name. destruct (find_spec p k n G) as (o & Eo & Ho). rewrite Eo. cbn [rbind]. destruct o as [q|].
  - destruct Ho as (i & g & -> & Hi & Hk & Hn). right. exists p, i. split; [reflexivity|]. split; [exact G|]. split; [apply extends_refl|].
    split; [rewrite Hi; f_equal; rewrite (g_built p G i g Hi); congruence|]. split; [lia|]. intros j h H. now left.
  - unfold pool_add, TYPE_POOL_CAPACITY. destruct (Z.leb_spec 4096 (Z.of_nat (length (descs p)))) as [L|L].
    { left. split; [reflexivity|]. pose proof (g_len p G). lia. }
    right. rewrite build_kind, build_name.
    destruct (add_entry fst hash2 (fun _ => false) (index p) (k, n, length (descs p)) (g_sound p G)) as (h & Eh & Rh & Hh & S' & U' & C' & H').
    + intros f Hf E. apply (g_has p G) in Hf as (g & Hg & Eg). cbn [fst] in E. rewrite Eg in E. injection E as E1 E2. now apply (Ho _ _ Hg).
    + reflexivity.
    + rewrite (g_used p G), (g_cap p G). lia.
    + change (hash2 (fst (k, n, length (descs p)))) with (type_hash k n) in Eh. rewrite Eh.
      eexists _, _. split; [reflexivity|]. split; [|split; [|split; [|split]]].
      * constructor; cbn [index descs].
        -- exact S'.
        -- rewrite U', (g_used p G), app_length. cbn [length]. lia.
        -- now rewrite C', (g_cap p G).
        -- rewrite app_length. cbn [length]. lia.
        -- intros e. rewrite H'. split.
           ++ intros [->|He].
              ** exists (build k n). cbn [fst snd]. rewrite nth_error_app2, Nat.sub_diag by lia. split; [reflexivity|]. now rewrite build_kind, build_name.
              ** apply (g_has p G) in He as (g & Hg & Eg). exists g. split; [|exact Eg]. rewrite nth_error_app1; [exact Hg|]. apply nth_error_Some. congruence.
           ++ intros (g & Hg & Eg). apply nth_snoc in Hg as [Hg|[Hi ->]].
              ** right. apply (g_has p G). now exists g.
              ** left. destruct e as [kn i]. cbn [fst snd] in *. rewrite build_kind, build_name in Eg. congruence.
        -- intros i j g g' Hi Hj Ek En. apply nth_snoc in Hi as [Hi|[Hi ->]]; apply nth_snoc in Hj as [Hj|[Hj ->]].
           ++ exact (g_distinct p G i j g g' Hi Hj Ek En).
           ++ exfalso. rewrite build_kind in Ek. rewrite build_name in En. exact (Ho _ _ Hi Ek En).
           ++ exfalso. rewrite build_kind in Ek. rewrite build_name in En. apply (Ho _ _ Hj); congruence.
           ++ congruence.
        -- intros i g Hi. apply nth_snoc in Hi as [Hi|[_ ->]]; [now apply (g_built p G i)|]. now rewrite build_kind, build_name.
      * now exists [build k n].
      * cbn [descs]. rewrite nth_error_app2, Nat.sub_diag by lia. reflexivity.
      * cbn [descs]. rewrite app_length. cbn [length]. lia.
      * intros j g Hj. cbn [descs] in Hj. apply nth_snoc in Hj as [Hj|[_ ->]]; [now left|now right].
Qed.

(** ** What a call asks for, when no enum of that name is known. *)
Inductive goal := GSingle (k : tkind) | GPool (k : tkind) (n : bytes).
Definition named_goal (n : bytes) : goal :=
  if strcmp (firstn 4 n) (bs "map[") =? 0 then GPool KMap n else
  match match cut 46 n with Some (m, base) => if upper (hd 0 base) then Some (m ++ [95] ++ base) else None | None => None end with
  | Some prefixed => GPool KStruct prefixed
  | None =>
      if upper (hd 0 n) then GPool KStruct n else
      match cut 95 n with
      | Some (_, base) => if upper (hd 0 base) then GPool KStruct (if existsb (fun o => strcmp base o =? 0) stdlib_opaque then base else n) else GSingle KUnknown
      | None => GSingle KUnknown
      end
  end.
Definition goal_of (c : call) : goal :=
  match c with
  | MkArray n => GPool KArray n
  | MkStruct n => GPool KStruct n
  | MkEnum n => GPool KEnum n
  | MkPointer n => GPool KPointer n
  | FromName n =>
      if strncmp_func n then GPool KFunction n else
      match builtin n with
      | Some (One k) => GSingle k
      | Some (Alloc k fixed) => GPool k (match fixed with Some f => f | None => n end)
      | None =>
          if hd 0 n =? 94 then GPool KPointer (tl n)
          else if (hd 0 n =? 91) && (2 <? Z.of_nat (length n)) && (last n 0 =? 93) then
            GPool KArray (match cut 44 (removelast (tl n)) with Some (e, _) => e | None => removelast (tl n) end)
          else named_goal n
      end
  end.
Definition meets (p : pool) (q : ptr) (g : goal) : Prop :=
  match g with
  | GSingle k => q = Single k
  | GPool k n => exists i, q = Pool i /\ nth_error (descs p) i = Some (build k n)
  end.
Definition enum_in (p : pool) (n : bytes) : Prop := exists i g, nth_error (descs p) i = Some g /\ kind g = KEnum /\ name g = n.
(** The outcome of a call that asks for [g]. *)
Definition outcome (p : pool) (r : res (pool * ptr)) (g : goal) : Prop :=
  (r = Panic 1 /\ Z.of_nat (length (descs p)) = 4096) \/
  exists p' q, r = Ok (p', q) /\ good p' /\ extends p p' /\ meets p' q g /\ (length (descs p') <= S (length (descs p)))%nat /\
    (forall m, enum_in p' m -> enum_in p m \/ g = GPool KEnum m) /\
    (forall j h, nth_error (descs p') j = Some h -> nth_error (descs p) j = Some h \/ g = GPool (kind h) (name h)).
Lemma intern_outcome p g k n : good p -> g = build k n -> outcome p (intern p g) (GPool k n).
Proof.
  intros G ->. destruct (intern_spec p k n G) as [E|(p' & i & E & G' & X & Hi & L & Hj)]; [now left|]. right.
  exists p', (Pool i). repeat (split; [assumption|]). split; [now exists i|]. split; [exact L|]. split.
  - intros m (j & h & Hh & Ek & En). destruct (Hj _ _ Hh) as [H|H]; [left; now exists j, h|]. right. subst h. rewrite build_kind in Ek. rewrite build_name in En. congruence.
  - intros j h Hh. destruct (Hj _ _ Hh) as [H|H]; [now left|]. right. subst h. now rewrite build_kind, build_name.
Qed.
Lemma single_outcome p k : good p -> outcome p (Ok (p, Single k)) (GSingle k).
Proof.
  intros G. right. exists p, (Single k). split; [reflexivity|]. split; [exact G|]. split; [apply extends_refl|]. split; [reflexivity|].
  split; [lia|]. split; intros; now left.
Qed.
Lemma named_outcome p n : good p -> outcome p (named_type p n) (named_goal n) \/ enum_in p n /\ outcome p (named_type p n) (GPool KEnum n).
Proof.
  intros G. unfold named_type, named_goal. destruct (strcmp (firstn 4 n) (bs "map[") =? 0); [left; apply intern_outcome; [exact G|reflexivity]|].
  set (d := match cut 46 n with Some (m, base) => if upper (hd 0 base) then Some (m ++ [95] ++ base) else None | None => None end).
  destruct d as [prefixed|]; [left; apply intern_outcome; [exact G|reflexivity]|].
  assert (C : forall alt, outcome p (enum_or p n alt) (GPool KStruct alt) \/ enum_in p n /\ outcome p (enum_or p n alt) (GPool KEnum n)).
  { intros alt. unfold enum_or. destruct (find_spec p KEnum n G) as (o & Eo & Ho). rewrite Eo. cbn [rbind]. destruct o as [q|].
    - right. destruct Ho as (i & g & -> & Hi & Hk & Hn). split; [now exists i, g|]. right. exists p, (Pool i). split; [reflexivity|]. split; [exact G|]. split; [apply extends_refl|].
      split; [exists i; split; [reflexivity|]; rewrite Hi; f_equal; rewrite (g_built p G i g Hi); congruence|]. split; [lia|]. split; intros; now left.
    - left. apply intern_outcome; [exact G|reflexivity]. }
  destruct (upper (hd 0 n)); [apply C|]. destruct (cut 95 n) as [[m base]|]; [|left; now apply single_outcome].
  destruct (upper (hd 0 base)); [apply C|left; now apply single_outcome].
Qed.
Lemma call_outcome p c : good p -> outcome p (do_call p c) (goal_of c) \/ exists n, c = FromName n /\ enum_in p n /\ outcome p (do_call p c) (GPool KEnum n).
Proof.
  intros G. destruct c as [n|n|n|n|n]; cbn [do_call goal_of]; try (left; apply intern_outcome; [exact G|reflexivity]).
  unfold type_from_name. destruct (strncmp_func n); [left; apply intern_outcome; [exact G|reflexivity]|].
  destruct (builtin n) as [[k|k fixed]|] eqn:Eb.
  - left. now apply single_outcome.
  - left. apply intern_outcome; [exact G|]. unfold builtin in Eb. destruct (bsearch fst builtin_types n) as [i|]; [|discriminate Eb].
    destruct (nth_error builtin_types i) as [[w h]|] eqn:Ei; [|discriminate Eb]. cbn [option_map snd] in Eb. injection Eb as ->.
    apply nth_error_In in Ei. assert (T : forallb (fun e => match snd e with Alloc k _ => match k with KArray | KPointer | KMap | KFunction => false | _ => true end | One _ => true end) builtin_types = true) by reflexivity.
    rewrite forallb_forall in T. specialize (T _ Ei). cbn [snd] in T. destruct k; try discriminate T; reflexivity.
  - destruct (hd 0 n =? 94); [left; apply intern_outcome; [exact G|reflexivity]|].
    destruct ((hd 0 n =? 91) && (2 <? Z.of_nat (length n)) && (last n 0 =? 93)); [left; apply intern_outcome; [exact G|reflexivity]|].
    destruct (named_outcome p n G) as [H|[H1 H2]]; [now left|]. right. exists n. now split.
Qed.
