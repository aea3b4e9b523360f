(** C63: type descriptors.  C64: function type signatures. *)
From Verif Require Import Base BaseFacts LexModel LexProofs TypesModel TypesSpec TypesProofs TypesProofs2 TypesProofs3 TypesProofs4.

(** ** C63.  [calls fresh l = Ok (p, qs)]: a compilation asks for the types
    [l] one after the other and is given the descriptor addresses [qs]. *)

(** Asking for up to 4096 types never exhausts the pool. *)
Theorem requests_answered l : Z.of_nat (length l) <= 4096 -> exists p qs, calls fresh l = Ok (p, qs) /\ length qs = length l.
Proof.
  intros L. destruct (calls_total l fresh fresh_good) as (p & qs & E); [exact L|]. exists p, qs. split; [exact E|]. now destruct (calls_ok l fresh p qs fresh_good E) as (_ & _ & H & _).
Qed.
Print Assumptions requests_answered.

(** Every address leads to a descriptor, and two addresses are the same exactly
    when the descriptors have the same kind and name. *)
Theorem interned l p qs i j q q' : calls fresh l = Ok (p, qs) -> nth_error qs i = Some q -> nth_error qs j = Some q' ->
  exists g g', deref p q = Some g /\ deref p q' = Some g' /\ (q = q' <-> kind g = kind g' /\ name g = name g').
Proof.
  intros E Hi Hj. destruct (calls_ok l fresh p qs fresh_good E) as (G & _ & L & A).
  assert (C : forall i q, nth_error qs i = Some q -> exists g, lawful p q g).
  { intros i0 q0 H. destruct (nth_error l i0) as [c|] eqn:Hc.
    - exact (answered_lawful p l fresh c q0 (A i0 c q0 Hc H)).
    - apply nth_error_None in Hc. assert (i0 < length qs)%nat by (apply nth_error_Some; now rewrite H). lia. }
  destruct (C i q Hi) as (g & Hg). destruct (C j q' Hj) as (g' & Hg'). exists g, g'.
  split; [now destruct Hg|]. split; [now destruct Hg'|]. now apply (lawful_same p).
Qed.
Print Assumptions interned.

(** The same request is given the same address, unless an enum of that name is
    created in between by a request for it as an enum. *)
Lemma enum_fresh n : ~ enum_in fresh n.
Proof. intros (i & h & H & _). destruct i; discriminate H. Qed.
Theorem same_request_partial l p qs i j c q q' : calls fresh l = Ok (p, qs) ->
  nth_error l i = Some c -> nth_error l j = Some c -> nth_error qs i = Some q -> nth_error qs j = Some q' ->
  (forall n, c = FromName n -> ~ In (MkEnum n) l) -> q = q'.
Proof.
  intros E Ci Cj Hi Hj N. destruct (calls_ok l fresh p qs fresh_good E) as (G & _ & L & A).
  assert (M : forall i q, nth_error l i = Some c -> nth_error qs i = Some q -> meets p q (goal_of c)).
  { intros i0 q0 H0 H1. destruct (A i0 c q0 H0 H1) as [M|(n & -> & [H|H] & _)]; [exact M|now apply enum_fresh in H|now apply (N n) in H]. }
  pose proof (M i q Ci Hi) as M1. pose proof (M j q' Cj Hj) as M2. destruct (goal_of c) as [k|k n]; cbn [meets] in M1, M2; [congruence|].
  destruct M1 as (a & -> & Ha), M2 as (b & -> & Hb). f_equal. exact (g_distinct p G a b _ _ Ha Hb eq_refl eq_refl).
Qed.
Print Assumptions same_request_partial.
(** A name read as a type before the enum of that name is created stands for a
    struct, and for the enum afterwards. *)
Theorem same_request_refuted : exists l p qs i j c q q', calls fresh l = Ok (p, qs) /\
  nth_error l i = Some c /\ nth_error l j = Some c /\ nth_error qs i = Some q /\ nth_error qs j = Some q' /\ q <> q'.
Proof.
  exists [FromName (bs "Color"); MkEnum (bs "Color"); FromName (bs "Color")].
  destruct (calls fresh [FromName (bs "Color"); MkEnum (bs "Color"); FromName (bs "Color")]) as [[p qs]| | |] eqn:E; [|exfalso; revert E; vm_compute; discriminate..].
  assert (Q : qs = [Pool 0; Pool 1; Pool 1]).
  { assert (X : rmap snd (calls fresh [FromName (bs "Color"); MkEnum (bs "Color"); FromName (bs "Color")]) = Ok [Pool 0; Pool 1; Pool 1]) by (vm_compute; reflexivity).
    rewrite E in X. cbn [rmap snd] in X. now injection X. }
  exists p, qs, 0%nat, 2%nat, (FromName (bs "Color")), (Pool 0), (Pool 1). rewrite Q. repeat split; try reflexivity. discriminate.
Qed.
Print Assumptions same_request_refuted.

(** Equality is decided for all descriptors handed out and is an equivalence. *)
Theorem equality_is_equivalence l p qs : calls fresh l = Ok (p, qs) ->
  exists same : ptr -> ptr -> bool,
   (forall q q' g g', In q qs -> In q' qs -> deref p q = Some g -> deref p q' = Some g' -> type_equals g g' = Ok (same q q')) /\
   (forall q, In q qs -> same q q = true) /\
   (forall q q', In q qs -> In q' qs -> same q q' = same q' q) /\
   (forall a b c, In a qs -> In b qs -> In c qs -> same a b = true -> same b c = true -> same a c = true).
Proof.
  intros E. destruct (calls_ok l fresh p qs fresh_good E) as (G & _ & L & A).
  assert (C : forall q, In q qs -> exists g, deref p q = Some g /\ g = build (kind g) (name g)).
  { intros q0 H. apply In_nth_error in H as [i0 H]. destruct (nth_error l i0) as [c|] eqn:Hc.
    - destruct (answered_lawful p l fresh c q0 (A i0 c q0 Hc H)) as (g & Hg & Hb & _). now exists g.
    - apply nth_error_None in Hc. assert (i0 < length qs)%nat by (apply nth_error_Some; now rewrite H). lia. }
  exists (fun q q' => match deref p q, deref p q' with Some g, Some g' => match type_equals g g' with Ok b => b | _ => false end | _, _ => false end).
  assert (S1 : forall q q', In q qs -> In q' qs -> exists g g', deref p q = Some g /\ deref p q' = Some g' /\
     exists b, type_equals g g' = Ok b /\ (b = true <-> kind g = kind g' /\ (by_name (kind g) = true -> name g = name g'))).
  { intros q q' H H'. destruct (C q H) as (g & D & B). destruct (C q' H') as (g' & D' & B'). exists g, g'. split; [exact D|]. split; [exact D'|].
    destruct (equals_spec (kind g) (name g) (kind g') (name g')) as (b & Hb & Hs). exists b. split; [|exact Hs]. rewrite B at 1. rewrite B' at 1. exact Hb. }
  split; [|split; [|split]].
  - intros q q' g g' H H' D D'. rewrite D, D'. destruct (S1 q q' H H') as (h & h' & D1 & D1' & b & Hb & _). rewrite D in D1. rewrite D' in D1'. injection D1 as <-. injection D1' as <-. now rewrite Hb.
  - intros q H. destruct (S1 q q H H) as (h & h' & D1 & D1' & b & Hb & Hs). rewrite D1. rewrite D1 in D1'. injection D1' as <-. rewrite Hb. apply Hs. now split.
  - intros q q' H H'. destruct (S1 q q' H H') as (h & h' & D1 & D1' & b & Hb & Hs). destruct (S1 q' q H' H) as (k & k' & D2 & D2' & b' & Hb' & Hs').
    rewrite D1, D1'. rewrite D1 in D2'. rewrite D1' in D2. injection D2 as <-. injection D2' as <-. rewrite Hb, Hb'. apply Bool.eq_true_iff_eq. rewrite Hs, Hs'.
    split; intros [X Y]; split; try congruence; intros Z0; symmetry; apply Y; congruence.
  - intros a b c Ha Hb Hc. destruct (S1 a b Ha Hb) as (ga & gb & Da & Db & x & Ex & Sx). destruct (S1 b c Hb Hc) as (gb' & gc & Db' & Dc & y & Ey & Sy).
    destruct (S1 a c Ha Hc) as (ga' & gc' & Da' & Dc' & z & Ez & Sz). rewrite Da, Db, Dc. rewrite Db in Db'. injection Db' as <-. rewrite Da in Da'. injection Da' as <-. rewrite Dc in Dc'. injection Dc' as <-.
    rewrite Ex, Ey, Ez, Sx, Sy, Sz. intros [X1 X2] [Y1 Y2]. split; [congruence|]. intros K. rewrite (X2 K). apply Y2. congruence.
Qed.
Print Assumptions equality_is_equivalence.

(** Equality holds only for the same type, when both types are [simple]: a basic
    type, a struct, a pointer or function to any types whatever, or an array of
    elements without a comma in their text. *)
Theorem structure_told_apart_partial l p qs i j t t' q q' g g' : calls fresh l = Ok (p, qs) ->
  nth_error l i = Some (FromName (show t)) -> nth_error l j = Some (FromName (show t')) ->
  simple t -> simple t' -> ~ In (MkEnum (show t)) l -> ~ In (MkEnum (show t')) l ->
  nth_error qs i = Some q -> nth_error qs j = Some q' -> deref p q = Some g -> deref p q' = Some g' ->
  (type_equals g g' = Ok true <-> t = t').
Proof.
  intros E Ci Cj S0 S1 N N' Hi Hj D D'. destruct (calls_ok l fresh p qs fresh_good E) as (G & _ & L & A).
  assert (M : forall i q t, nth_error l i = Some (FromName (show t)) -> nth_error qs i = Some q -> ~ In (MkEnum (show t)) l -> meets p q (goal_of (FromName (show t)))).
  { intros i0 q0 t0 H0 H1 Hn. destruct (A i0 _ q0 H0 H1) as [M|(n & Ec & [H|H] & _)]; [exact M|now apply enum_fresh in H|]. injection Ec as <-. contradiction. }
  assert (B : forall t q g, simple t -> meets p q (goal_of (FromName (show t))) -> deref p q = Some g -> exists k n, g = build k n /\
     (goal_of (FromName (show t)) = GSingle k /\ n = single_name k \/ goal_of (FromName (show t)) = GPool k n)).
  { intros t0 q0 g0 St Mt Dt. destruct (goal_of (FromName (show t0))) as [k|k n] eqn:Eg; cbn [meets] in Mt.
    - subst q0. exists k, (single_name k). split; [|left; now split]. cbn [deref] in Dt. injection Dt as <-. apply goal_single in Eg. destruct k; try discriminate Eg; reflexivity.
    - destruct Mt as (a & -> & Ha). cbn [deref] in Dt. rewrite Ha in Dt. injection Dt as <-. exists k, n. split; [reflexivity|now right]. }
  destruct (B t q g S0 (M i q t Ci Hi N) D) as (k & n & -> & Hk). destruct (B t' q' g' S1 (M j q' t' Cj Hj N') D') as (k' & n' & -> & Hk').
  destruct (equals_spec k n k' n') as (b & -> & Hb). split.
  - intros X. injection X as ->. destruct (proj1 Hb eq_refl) as [X Y]. destruct (simple_goal t S0) as (k2 & n2 & Hk2 & U).
    assert (K : k2 = k /\ n2 = n) by (destruct Hk as [[Hk Hn]|Hk], Hk2 as [[Hk2 Hn2]|Hk2]; rewrite Hk in Hk2; try discriminate Hk2; injection Hk2; intros; subst; now split).
    destruct K as [-> ->]. now apply (U t' k' n').
  - intros <-. f_equal. apply Hb. destruct Hk as [[Hk ->]|Hk], Hk' as [[Hk' ->]|Hk']; rewrite Hk in Hk'; try discriminate Hk'; injection Hk'; intros; subst; now split.
Qed.
Print Assumptions structure_told_apart_partial.
(** What a descriptor says of the parts of the type it was requested for. *)
Definition parts (t : ty) (g : gtype) : Prop :=
  match t with
  | TPtr u => kind g = KPointer /\ element_type g = Some (show u)
  | TArr u => kind g = KArray /\ (~ In 44 (show u) -> element_type g = Some (show u))
  | TMap k v => kind g = KMap /\ key_type g = Some k /\ value_type g = Some (show v)
  | TFunc ps r => kind g = KFunction /\ ((forall u, r = ROne u -> show u <> bs "void") ->
      func_sig g = Some (FSig (map (fun p => (fst p, show (snd p))) ps) (map show (returns r))))
  | _ => True
  end.
Theorem descriptor_parts l p qs i t q : calls fresh l = Ok (p, qs) -> nth_error l i = Some (FromName (show t)) -> wf t -> ~ In (MkEnum (show t)) l ->
  nth_error qs i = Some q -> exists g, deref p q = Some g /\ parts t g.
Proof.
  intros E Ci W N Hi. destruct (calls_ok l fresh p qs fresh_good E) as (G & _ & L & A).
  assert (M : meets p q (goal_of (FromName (show t)))).
  { destruct (A i _ q Ci Hi) as [M|(n & Ec & [H|H] & _)]; [exact M|now apply enum_fresh in H|]. injection Ec as <-. contradiction. }
  assert (D : exists g, deref p q = Some g).
  { destruct (answered_lawful p l fresh _ q (A i _ q Ci Hi)) as (g & Hg & _). now exists g. }
  destruct D as [g D]. exists g. split; [exact D|]. destruct t as [n|u|u|u z|k v|ps r]; [exact Logic.I| | |exact Logic.I| |].
  - rewrite goal_ptr in M. destruct M as (a & -> & Ha). cbn [deref] in D. rewrite Ha in D. injection D as <-. split; reflexivity.
  - destruct (goal_arr_any u) as [n Hn]; [now inversion W|]. pose proof M as M'. rewrite Hn in M. destruct M as (a & -> & Ha). cbn [deref] in D. rewrite Ha in D. injection D as <-. split; [reflexivity|].
    intros C. rewrite goal_arr in Hn by (try assumption; now inversion W). injection Hn as <-. reflexivity.
  - assert (K : word k) by now inversion W. rewrite goal_map in M. destruct M as (a & -> & Ha). cbn [deref] in D. rewrite Ha in D. assert (Eg : g = build KMap (show (TMap k v))) by congruence. subst g. split; [reflexivity|].
    cbn [build key_type value_type]. rewrite parts_of_map by exact K. split; reflexivity.
  - rewrite goal_func in M. destruct M as (a & -> & Ha). cbn [deref] in D. rewrite Ha in D. injection D as <-. split; [reflexivity|]. intros V. cbn [build func_sig]. now apply sig_show.
Qed.
Print Assumptions descriptor_parts.
(** Maps are all equal, whatever their keys and values; so are integers of
    different widths; so are arrays of maps that differ only after the first
    comma of the element type. *)
Definition equated (t t' : ty) : bool :=
  match calls fresh [FromName (show t); FromName (show t')] with
  | Ok (p, [q; q']) => match deref p q, deref p q' with Some g, Some g' => match type_equals g g' with Ok b => b | _ => false end | _, _ => false end
  | _ => false
  end.
Definition name_ (s : bytes) : ty := TName s.
Definition fmap (a r : bytes) : ty := TArr (TMap (bs "string") (TFunc [(false, TName (bs "int")); (false, TName a)] (ROne (TName r)))).
Theorem structure_told_apart_refuted :
  equated (TMap (bs "string") (TName (bs "int"))) (TMap (bs "int") (TName (bs "bool"))) = true /\
  equated (TName (bs "i8")) (TName (bs "i64")) = true /\
  equated (fmap (bs "int") (bs "int")) (fmap (bs "bool") (bs "bool")) = true.
Proof. vm_compute. repeat split. Qed.
Print Assumptions structure_told_apart_refuted.

(** Examples: a history with every kind of call. *)
Definition t_ptr : ty := TPtr (TMap (bs "string") (TName (bs "int"))).
Definition t_fun : ty := TFunc [(false, TName (bs "int")); (true, TArr (TName (bs "Point")))] (RMany [TName (bs "bool"); TFunc [] RNone]).
Definition requests : list call :=
  [FromName (show t_ptr); FromName (show t_fun); MkArray (bs "int"); FromName (bs "[int]"); MkStruct (bs "Point"); FromName (bs "Point");
   FromName (bs "int"); MkEnum (bs "Color"); FromName (bs "Color"); MkPointer (bs "Point"); FromName (bs "^Point"); FromName (bs "i8"); FromName (show t_fun)].
Example requests_ok : rmap snd (calls fresh requests) =
  Ok [Pool 0; Pool 1; Pool 2; Pool 2; Pool 3; Pool 3; Single KInt; Pool 4; Pool 4; Pool 5; Pool 5; Pool 6; Pool 1].
Proof. vm_compute. reflexivity. Qed.
Lemma word_ok n : n <> [] -> forallb (fun c => (48 <=? c) && (c <=? 57) || (65 <=? c) && (c <=? 90) || (97 <=? c) && (c <=? 122) || (c =? 95) || (c =? 63)) n = true -> word n.
Proof. intros N F. split; [exact N|]. apply Forall_forall. intros c H. rewrite forallb_forall in F. specialize (F c H). unfold word_char. lia. Qed.
Example t_ptr_simple : simple t_ptr.
Proof. apply s_ptr. constructor; [|constructor]; (apply word_ok; [discriminate|reflexivity]). Qed.
Lemma t_fun_wf : wf t_fun.
Proof. repeat first [apply word_ok; [discriminate|reflexivity]|discriminate|constructor]. Qed.
Example t_fun_simple : simple t_fun.
Proof. apply s_func, t_fun_wf. Qed.
Example struct_simple : simple (TName (bs "Point")).
Proof. apply s_struct; [apply word_ok; [discriminate|reflexivity]|reflexivity|discriminate]. Qed.
Example told_apart : equated t_ptr t_fun = false /\ equated t_fun t_fun = true /\ equated (TPtr (TName (bs "i8"))) (TPtr (TName (bs "i64"))) = false.
Proof. vm_compute. repeat split. Qed.

(** ** C64.  [type_text t]: what the parser keeps of a type it has read;
    [show t]: its text. *)
Theorem signature_recovered_partial ps r s : wf (TFunc ps r) -> fits (TFunc ps r) -> type_text (TFunc ps r) = Some s ->
  s = show (TFunc ps r) /\ parse_func_sig s = Some (FSig (map (fun p => (fst p, show (snd p))) ps) (map show (returns r))).
Proof.
  intros W F E. pose proof (text_is_show _ W F s E) as ->. split; [reflexivity|]. apply sig_show; [exact W|].
  intros t ->. cbn [type_text] in E. intros V. 
  match type of E with opt_bind ?a _ = _ => destruct a as [b|]; [|discriminate E] end. cbn [opt_bind] in E.
  destruct (type_text t) as [s0|] eqn:Et; [|discriminate E]. cbn [opt_bind] in E.
  assert (H0 : s0 = show t). { apply text_is_show; [| |exact Et]; [inversion W as [| | | | |? ? ? W' ]; subst; now inversion W'|inversion F as [| | | | |? ? ? F']; subst; now inversion F']. }
  rewrite H0, V in E. change (strcmp (bs "void") (bs "void") =? 0) with true in E. discriminate E.
Qed.
Print Assumptions signature_recovered_partial.
(** The texts of the parts say which types they are. *)
Theorem texts_identify_types t t' : wf t -> wf t' -> show t = show t' -> t = t'.
Proof. intros. now apply show_inj. Qed.
Print Assumptions texts_identify_types.
(** A single return type with a text of 256 bytes or more loses its end. *)
Definition long_name : bytes := List.repeat 65 300.
Theorem signature_recovered_refuted : exists t s, wf (TFunc [] (ROne t)) /\ type_text (TFunc [] (ROne t)) = Some s /\
  parse_func_sig s <> Some (FSig [] [show t]).
Proof.
  exists (TName long_name), (bs "func()->" ++ List.repeat 65 255). split.
  - constructor; [constructor|]. constructor. constructor. apply word_ok; [discriminate|vm_compute; reflexivity].
  - split; [vm_compute; reflexivity|]. vm_compute. discriminate.
Qed.
Print Assumptions signature_recovered_refuted.
Example t_fun_text : type_text t_fun = Some (bs "func(int,&[Point])->(bool,func())").
Proof. vm_compute. reflexivity. Qed.
Example t_fun_fits : fits t_fun.
Proof. repeat constructor. Qed.
