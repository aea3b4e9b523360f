(** Proofs about tables of constants, array sizes and literals. *)
From Verif Require Import Base BaseFacts LexModel LexProofs Decimal TypesModel TypesSpec TypesProofs TypesProofs2 ConstModel ConstSpec ConstProofs.

(** ** Declarations *)
Lemma agree_bind t env n v : agree t env -> ~ In n (map fst t) -> agree t (bind env n v).
Proof.
  intros A N m w I. unfold bind. destruct (list_eq_dec Z.eq_dec m n) as [->|]; [|now apply A]. elim N. exact (in_map fst t (n, w) I).
Qed.
Lemma agree_snoc t env n v : agree t env -> ~ In n (map fst t) -> int64 v -> agree (t ++ [(n, v)]) (bind env n (Some v)).
Proof.
  intros A N V m w I. apply in_app_or in I as [I|[I|[]]]; [exact (agree_bind t env n (Some v) A N m w I)|].
  apply pair_equal_spec in I as [<- <-]. unfold bind. destruct (list_eq_dec Z.eq_dec n n); [auto|congruence].
Qed.
Lemma declare1_agree t env d t' b : agree t env -> ~ In (cname d) (map fst t) -> plain (cexpr d) -> declare1 t d = Ok (t', b) ->
  agree t' (bind env (cname d) (value env (cexpr d))) /\ (forall m, In m (map fst t') -> In m (map fst t) \/ m = cname d) /\
  (b = true -> exists p z, part p (cexpr d) /\ value env p = Some z /\ ~ int64 z).
Proof.
  intros A N P. unfold declare1. destruct (const_int_type (ctype d)).
  2:{ intros H. injection H as <- <-. split; [now apply agree_bind|]. split; [auto|discriminate]. }
  destruct (fold_const_int t (cexpr d)) as [q| | |] eqn:E; cbn [rmap rbind]; try discriminate. intros H. injection H as H.
  pose proof (fold_outcome env t _ A P q E) as O. unfold outcome in O. destruct q as [[v|] o]; cbn [fst snd] in *.
  - apply pair_equal_spec in H as [<- <-]. destruct O as (O1 & O2 & _). rewrite O1. split; [now apply agree_snoc|]. split; [|discriminate].
    intros m I. rewrite map_app in I. apply in_app_or in I as [I|[I|[]]]; auto.
  - apply pair_equal_spec in H as [<- <-]. split; [now apply agree_bind|]. split; [auto|exact O].
Qed.
Lemma declare_agree l : forall t env t' k, agree t env -> NoDup (map cname l) -> (forall n, In n (map cname l) -> ~ In n (map fst t)) ->
  Forall (fun d => plain (cexpr d)) l -> declare t l = Ok (t', k) -> agree t' (env_of env l) /\ (forall m, In m (map fst t') -> In m (map fst t) \/ In m (map cname l)).
Proof.
  induction l as [|d l IH]; intros t env t' k A ND F P; cbn [declare env_of].
  - intros H. injection H as <- <-. auto.
  - destruct (declare1 t d) as [[t1 b]| | |] eqn:E1; cbn [rbind fst snd]; try discriminate.
    destruct (declare t1 l) as [[t2 k2]| | |] eqn:E2; cbn [rmap rbind fst snd]; try discriminate. intros H. injection H as <- <-.
    cbn [map] in ND, F. inversion ND as [|? ? N1 N2]; subst. inversion P as [|? ? P1 P2]; subst.
    destruct (declare1_agree t env d t1 b A) as (A1 & F1 & _); [apply F; now left|exact P1|exact E1|].
    destruct (IH t1 _ t2 k2 A1 N2) as [A2 F2]; [|exact P2|exact E2|].
    + intros n I J. apply F1 in J as [J| ->]; [apply (F n); [now right|exact J]|now elim N1].
    + split; [exact A2|]. intros m I. cbn [map]. apply F2 in I as [I|I]; [apply F1 in I as [I| ->]; [now left|right; now left]|right; now right].
Qed.
Lemma covers_snoc t env n v : covers t env -> covers (t ++ [(n, v)]) (bind env n (Some v)).
Proof.
  intros C m w. unfold bind. destruct (list_eq_dec Z.eq_dec m n) as [->|]; intros H; apply in_or_app; [right; left; congruence|left; now apply C].
Qed.
Lemma declare_complete l : forall t env, agree t env -> covers t env -> NoDup (map cname l) -> (forall n, In n (map cname l) -> ~ In n (map fst t)) ->
  Forall (fun d => const_int_type (ctype d) = true) l -> computable env l ->
  exists t', declare t l = Ok (t', 0%nat) /\ agree t' (env_of env l) /\ covers t' (env_of env l).
Proof.
  induction l as [|d l IH]; intros t env A C ND F T K; cbn [declare env_of]; [eauto|].
  cbn [computable] in K. destruct K as (K1 & K2 & K3 & K4). cbn [map] in ND, F. inversion ND as [|? ? N1 N2]; subst. inversion T as [|? ? T1 T2]; subst.
  destruct (fold_complete env t _ A C K2 K1 K3) as (v & V & E). unfold declare1. rewrite T1, E. cbn [rmap rbind fst snd].
  rewrite V in *. destruct (IH (t ++ [(cname d, v)]) (bind env (cname d) (Some v))) as (t' & E' & A' & C').
  - apply agree_snoc; [exact A|apply F; now left|]. destruct (K3 _ (p_self _)) as [(z & V' & I) _]. congruence.
  - now apply covers_snoc.
  - exact N2.
  - intros n I J. rewrite map_app in J. apply in_app_or in J as [J|[J|[]]]; [apply (F n); [now right|exact J]|]. cbn in J. subst n. now elim N1.
  - exact T2.
  - exact K4.
  - exists t'. rewrite E'. cbn [rmap rbind fst snd]. auto.
Qed.

(** ** Array sizes *)
Definition pre (s : bytes) (o : option (bytes * bytes)) : option (bytes * bytes) := option_map (fun p => (s ++ fst p, snd p)) o.
Lemma pre_app a b o : pre a (pre b o) = pre (a ++ b) o.
Proof. destruct o as [[x y]|]; [|reflexivity]. cbn. now rewrite app_assoc. Qed.
Lemma pre_nil o : pre [] o = o.
Proof. now destruct o as [[x y]|]. Qed.
Definition shut (s : bytes) : Prop := forall d r, 1 <= d -> size_comma (s ++ r) d = pre s (size_comma r d).
Definition deep (s : bytes) : Prop := forall d r, 2 <= d -> size_comma (s ++ r) d = pre s (size_comma r d).
Lemma shut_deep s : shut s -> deep s.
Proof. intros C d r H. apply C. lia. Qed.
Lemma shut_nil : shut [].
Proof. intros d r _. now rewrite pre_nil. Qed.
Lemma shut_app a b : shut a -> shut b -> shut (a ++ b).
Proof. intros A B d r H. now rewrite <- app_assoc, A, B, pre_app by exact H. Qed.
Lemma deep_app a b : deep a -> deep b -> deep (a ++ b).
Proof. intros A B d r H. now rewrite <- app_assoc, A, B, pre_app by exact H. Qed.
Lemma shut_plain s : Forall plainc s -> shut s.
Proof.
  induction 1 as [|c s (N1 & N2 & N3 & N4 & N5) F IH]; [apply shut_nil|]. intros d r H. cbn [app size_comma].
  destruct (Z.eqb_spec c 40); [lia|]. destruct (Z.eqb_spec c 91); [lia|]. destruct (Z.eqb_spec c 41); [lia|]. destruct (Z.eqb_spec c 93); [lia|].
  destruct (Z.eqb_spec c 44); [lia|]. cbn [orb andb]. rewrite IH by exact H. destruct (size_comma r d) as [[x y]|]; reflexivity.
Qed.
Lemma deep_comma : deep [44].
Proof. intros d r H. cbn. destruct (Z.eqb_spec d 1); [lia|]. destruct (size_comma r d) as [[x y]|]; reflexivity. Qed.
Lemma shut_group o c s : (o = 40 /\ c = 41) \/ (o = 91 /\ c = 93) -> deep s -> shut ([o] ++ s ++ [c]).
Proof.
  intros K A d r H. cbn [app size_comma].
  assert (Eo : (o =? 40) || (o =? 91) = true) by (destruct K as [[-> _]|[-> _]]; reflexivity).
  assert (Ec : (c =? 40) || (c =? 91) = false) by (destruct K as [[_ ->]|[_ ->]]; reflexivity).
  assert (Ec' : (c =? 41) || (c =? 93) = true) by (destruct K as [[_ ->]|[_ ->]]; reflexivity).
  rewrite Eo, <- app_assoc, A by lia. cbn [app size_comma]. rewrite Ec, Ec'. replace (d + 1 - 1) with d by lia.
  destruct (size_comma r d) as [[x y]|]; [|reflexivity]. cbn. now rewrite <- app_assoc.
Qed.
Lemma commas_deep l : Forall shut l -> deep (commas l).
Proof.
  induction 1 as [|a l A F IH]; [apply shut_deep, shut_nil|]. destruct l as [|b l]; [now apply shut_deep|].
  change (commas (a :: b :: l)) with (a ++ [44] ++ commas (b :: l)). apply deep_app; [now apply shut_deep|]. apply deep_app; [apply deep_comma|exact IH].
Qed.
Lemma show_shut : forall t, wf t -> shut (show t).
Proof.
  apply (ty_ind2 (fun t => wf t -> shut (show t)) (fun r => wf_ret r -> shut (show_ret r))).
  - intros n W. inversion W as [? K| | | | |]; subst. apply word_plain in K. cbn [show]. now apply shut_plain.
  - intros t IH W. inversion W; subst. cbn [show]. apply shut_app; [apply shut_plain; plain_lit|auto].
  - intros t IH W. inversion W; subst. cbn [show]. apply shut_group; [now right|]. apply shut_deep. auto.
  - intros t z IH W. inversion W as [| | |? ? Wt Wz| |]; subst. apply word_plain in Wz. cbn [show].
    replace ([91] ++ show t ++ [44] ++ z ++ [93]) with ([91] ++ (show t ++ [44] ++ z) ++ [93]) by (now rewrite <- !app_assoc).
    apply shut_group; [now right|]. apply deep_app; [apply shut_deep; auto|]. apply deep_app; [apply deep_comma|]. now apply shut_deep, shut_plain.
  - intros k v IH W. inversion W as [| | | |? ? Wk Wv|]; subst. apply word_plain in Wk. cbn [show].
    replace (bs "map[" ++ k ++ [58] ++ show v ++ [93]) with (bs "map" ++ [91] ++ (k ++ [58] ++ show v) ++ [93]) by (now rewrite <- !app_assoc).
    apply shut_app; [apply shut_plain; plain_lit|]. apply shut_group; [now right|]. apply shut_deep.
    apply shut_app; [now apply shut_plain|]. apply shut_app; [apply shut_plain; plain_lit|auto].
  - intros ps r IHp IHr W. apply wf_func in W as [Wp Wr]. specialize (IHr Wr). cbn [show].
    change (map (fun p : bool * ty => (if fst p then [38] else []) ++ show (snd p)) ps) with (map param_text ps).
    assert (B : Forall shut (map param_text ps)).
    { apply Forall_map. rewrite Forall_forall in *. intros p Hp. specialize (IHp p Hp (Wp p Hp)). unfold param_text.
      apply shut_app; [|exact IHp]. destruct (fst p); [apply shut_plain; plain_lit|apply shut_nil]. }
    replace (bs "func(" ++ commas (map param_text ps) ++ [41] ++ show_ret r) with (bs "func" ++ ([40] ++ commas (map param_text ps) ++ [41]) ++ show_ret r)
      by (now rewrite <- !app_assoc).
    apply shut_app; [apply shut_plain; plain_lit|]. apply shut_app; [|exact IHr]. apply shut_group; [now left|]. now apply commas_deep.
  - intros _. apply shut_nil.
  - intros t IH W. inversion W; subst. cbn [show_ret]. apply shut_app; [apply shut_plain; plain_lit|auto].
  - intros ts IH W. inversion W as [| |? N Ws]; subst. cbn [show_ret].
    assert (B : Forall shut (map show ts)). { apply Forall_map. rewrite Forall_forall in *. intros t Ht. exact (IH t Ht (Ws t Ht)). }
    replace (bs "->(" ++ commas (map show ts) ++ [41]) with (bs "->" ++ ([40] ++ commas (map show ts) ++ [41])) by reflexivity.
    apply shut_app; [apply shut_plain; plain_lit|]. apply shut_group; [now left|]. now apply commas_deep.
Qed.
Lemma before_last_snoc c s : before_last c (s ++ [c]) = Some s.
Proof. induction s as [|x s IH]; cbn [app before_last]; [now rewrite Z.eqb_refl|]. now rewrite IH. Qed.
Lemma size_split t n : wf t -> size_comma (show (TFix t n)) 0 = Some ([91] ++ show t, n ++ [93]).
Proof.
  intros W. cbn [show]. cbn [app size_comma Z.eqb orb]. change ((91 =? 40) || (91 =? 91)) with true. cbv iota.
  rewrite (show_shut t W) by lia. cbn [app size_comma]. cbn. now rewrite app_nil_r.
Qed.
Lemma resolve_name tb t n : wf t -> word n -> Z.of_nat (length n) < 256 -> resolve_array_size tb (show (TFix t n)) =
  if numeric n then Unchanged else match look tb n with None => NotConst | Some v => if v <=? 0 then NotPositive else Rewritten ([91] ++ show t ++ [44] ++ dec_signed (wrap_i 32 v) ++ [93]) end.
Proof.
  intros W [NE _] L. unfold resolve_array_size. rewrite size_split by exact W. rewrite before_last_snoc. destruct n as [|c n]; [congruence|].
  replace (256 <=? Z.of_nat (length (c :: n))) with false by lia. destruct (numeric (c :: n)); [reflexivity|]. destruct (look tb (c :: n)) as [v|]; [|reflexivity].
  destruct (v <=? 0); [reflexivity|]. f_equal.
Qed.

(** ** Literals *)
Lemma range_cases tn lo hi : range tn = Some (lo, hi) ->
  In (tn, (lo, hi)) [(bs "i8", (-128, 127)); (bs "i16", (-32768, 32767)); (bs "i32", (-2147483648, 2147483647)); (bs "i64", (INT64_MIN, INT64_MAX));
    (bs "int", (INT64_MIN, INT64_MAX)); (bs "u8", (0, 255)); (bs "byte", (0, 255)); (bs "u16", (0, 65535)); (bs "u32", (0, 4294967295)); (bs "u64", (0, U64_MAX)); (bs "uint", (0, U64_MAX))].
Proof.
  unfold range. cbv zeta.
  repeat (match goal with |- context [list_eq_dec Z.eq_dec tn ?s] => destruct (list_eq_dec Z.eq_dec tn s) as [->|] end;
    [intros H; assert (E : lo = lo) by reflexivity; apply (f_equal (fun o => match o with Some p => p | None => (0, 0) end)) in H; cbv beta iota in H; rewrite <- H; clear H E; vm_compute; tauto|]).
  discriminate.
Qed.
Ltac names := repeat match goal with |- context [strcmp ?a ?b =? 0] => let x := eval vm_compute in (strcmp a b =? 0) in change (strcmp a b =? 0) with x; cbv iota end.
Lemma out_of_range_exact tn lo hi v : range tn = Some (lo, hi) -> int64 v -> out_of_range tn v = negb ((lo <=? v) && (v <=? hi)).
Proof.
  intros R I. apply range_cases in R. unfold int64 in I. change (2 ^ 63) with 9223372036854775808 in I. unfold INT64_MIN, INT64_MAX, U64_MAX in R.
  unfold out_of_range. cbv zeta. cbn [In] in R.
  repeat (destruct R as [R|R]; [apply pair_equal_spec in R as [<- R]; apply pair_equal_spec in R as [<- <-]; names; lia|]). destruct R.
Qed.
Lemma lit_try env e : plain e -> constant_shape e ->
  (forall p, part p e -> (exists v, value env p = Some v /\ int64 v) /\ (forall l r, p <> Bin Mod l r) /\ (forall n, p <> Name n)) ->
  exists v, value env e = Some v /\ int64 v /\ try_get_literal_int e = Ok (Some v).
Proof.
  intros P S. induction S as [v|v|n|o l r O S1 IH1 S2 IH2]; intros D.
  - destruct (D _ (p_self _)) as [(z & V & I) _]. cbn [value] in V. apply some_inj in V as <-. exists v. split; [reflexivity|]. split; [exact I|].
    unfold plain in P. cbn in P. inversion P as [|? ? [V1 V2] _]; subst. cbn [try_get_literal_int]. rewrite int_value_small; [reflexivity|]. unfold int64 in I. clear -I V1. lia.
  - destruct (D _ (p_self _)) as [(z & V & I) _]. cbn [value option_map] in V. apply some_inj in V as <-. exists (- v). split; [reflexivity|]. split; [exact I|].
    unfold plain in P. cbn in P. inversion P as [|? ? [V1 V2] _]; subst. cbn [try_get_literal_int]. unfold int64 in I.
    change (2 ^ 63) with 9223372036854775808 in *. change (2 ^ 64) with 18446744073709551616 in *.
    rewrite int_value_small by (change (2 ^ 63) with 9223372036854775808; lia). unfold c_neg, INT64_MIN. replace (v =? -9223372036854775808) with false by lia. reflexivity.
  - destruct (D _ (p_self _)) as (_ & _ & N). now elim (N n).
  - apply plain_bin in P as [P1 P2]. destruct IH1 as (a & VA & IA & EA); [exact P1|intros p I; apply D; now apply p_left|].
    destruct IH2 as (b & VB & IB & EB); [exact P2|intros p I; apply D; now apply p_right|].
    destruct (D _ (p_self _)) as [(z & V & I) [M _]]. exists z. split; [exact V|]. split; [exact I|].
    cbn [try_get_literal_int]. rewrite EA, EB. cbn [rbind]. cbn [value] in V. rewrite VA, VB in V. pose proof I as J. apply in64_iff in J.
    destruct o; try (apply some_inj in V; subst z; unfold c_exact; rewrite J; reflexivity).
    + destruct (b =? 0) eqn:B; [discriminate|]. apply some_inj in V; subst z. unfold c_div. destruct ((a =? INT64_MIN) && (b =? -1)) eqn:Q; [|reflexivity].
      apply andb_prop in Q as [Q1 Q2]. apply Z.eqb_eq in Q1, Q2. subst a b. vm_compute in J. discriminate.
    + now elim (M l r).
    + now elim O.
Qed.
