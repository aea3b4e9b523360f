(** C62: names resolve to the innermost, most recent definition. *)
From Verif Require Import Base ScopeModel ScopeSpec ScopeProofs.

Definition info_of (y : symbol) : info := Info (stype y) (smutable y) (attrs y).

(** After any history of opening and closing blocks, definitions and notes that
    makes sense (with at most 2^29 operations), a lookup ends, finds a symbol
    exactly when some enclosing block defines the name, and that symbol carries
    the name and what the innermost such block says of it. *)
Theorem lookup_exact os e n : Z.of_nat (length os) <= 2 ^ 29 -> after_all [] (map meaning os) = Some e ->
  exists l o, run [] os = Ok l /\ found l n = Ok o /\
    option_map info_of o = resolve e n /\ (forall y, o = Some y -> sname y = n).
Proof.
  intros B A. destruct (run_ok os 0 [] [] e) as (l & E & R); [constructor|constructor|lia|lia|exact A|].
  destruct (lookup_spec l e n R) as (p & Ep & Hp). exists l. unfold found. rewrite Ep. cbn [rmap].
  destruct p as [p|].
  - destruct Hp as (y & Hy & Er & En & _). exists (Some y). rewrite Hy. repeat split; [exact E|now rewrite Er|].
    intros z Ez. injection Ez as <-. exact En.
  - destruct Hp as (Er & _). exists None. repeat split; [exact E|now rewrite Er|discriminate].
Qed.
Print Assumptions lookup_exact.

Lemma run_app l a b : run l (a ++ b) = rbind (run l a) (fun l' => run l' b).
Proof.
  unfold run. rewrite fold_left_app. destruct (fold_left _ a (Ok l)) as [l'| | |]; cbn [rbind]; [reflexivity| | |];
    (induction b as [|o b IH]; [reflexivity|exact IH]).
Qed.
Lemma after_app e a b : after_all e (a ++ b) = match after_all e a with Some e' => after_all e' b | None => None end.
Proof. revert e. induction a as [|v a IH]; intros e; cbn [app after_all]; [reflexivity|]. destruct (after e v); [apply IH|reflexivity]. Qed.
Lemma sym_ext (y z : symbol) : sname y = sname z -> info_of y = info_of z -> y = z.
Proof. destruct y, z. cbn. intros -> E. injection E as -> -> ->. reflexivity. Qed.

(** A definition takes effect at once and on its own name only. *)
Theorem define_takes_effect os n t m x : Z.of_nat (length os) + 1 <= 2 ^ 29 ->
  after_all [] (map meaning (os ++ [Define n t m])) <> None ->
  exists l l', run [] os = Ok l /\ run [] (os ++ [Define n t m]) = Ok l' /\
    (exists y, found l' n = Ok (Some y) /\ sname y = n /\ stype y = t /\ smutable y = m) /\
    (x <> n -> found l' x = found l x).
Proof.
  intros B A. destruct (after_all [] (map meaning (os ++ [Define n t m]))) as [e'|] eqn:E'; [|now elim A].
  pose proof E' as E2. rewrite map_app, after_app in E2. destruct (after_all [] (map meaning os)) as [e|] eqn:E; [|discriminate].
  cbn [map meaning after_all after] in E2. destruct e as [|b e]; [discriminate|]. injection E2 as <-.
  assert (B' : Z.of_nat (length (os ++ [Define n t m])) <= 2 ^ 29) by (rewrite app_length; cbn [length]; lia).
  destruct (lookup_exact os (b :: e) x ltac:(lia) E) as (l & o & El & Eo & Ro & No).
  destruct (lookup_exact _ _ n B' E') as (l' & o' & El' & Eo' & Ro' & No').
  destruct (lookup_exact _ _ x B' E') as (l2 & o2 & El2 & Eo2 & Ro2 & No2).
  assert (l2 = l') by congruence. subst l2. exists l, l'. split; [exact El|]. split; [exact El'|]. split.
  - cbn [declare resolve] in Ro'. unfold bind in Ro'. destruct (same_name_spec n n) as [_|K]; [|now elim K].
    destruct o' as [y|]; [|discriminate Ro']. exists y. split; [exact Eo'|]. split; [now apply No'|]. cbn in Ro'. now injection Ro' as -> ->.
  - intros Nx. rewrite Eo, Eo2. f_equal. cbn [declare resolve] in Ro2. unfold bind in Ro2.
    destruct (same_name_spec x n) as [->|_]; [now elim Nx|]. change (option_map info_of o2 = resolve (b :: e) x) in Ro2. rewrite <- Ro in Ro2.
    destruct o as [y|], o2 as [z|]; cbn [option_map] in Ro2; try discriminate; [|reflexivity].
    f_equal. apply sym_ext; [rewrite (No2 z eq_refl), (No y eq_refl); reflexivity|congruence].
Qed.
Print Assumptions define_takes_effect.

(** Leaving a block restores every binding: whatever is done inside a block
    and the blocks it contains, each name has afterwards the type and
    mutability it had before. *)
Theorem leaving_restores os body n e : Z.of_nat (length os + length body) + 2 <= 2 ^ 29 ->
  after_all [] (map meaning os) = Some e -> nested (map meaning body) ->
  exists l l' o o', run [] os = Ok l /\ run [] (os ++ Enter :: body ++ [Leave]) = Ok l' /\
    found l n = Ok o /\ found l' n = Ok o' /\
    option_map (fun y => (sname y, stype y, smutable y)) o' = option_map (fun y => (sname y, stype y, smutable y)) o.
Proof.
  intros B A Hn.
  assert (T : forall l, nested l -> forall b r, exists b' r', after_all (b :: r) l = Some (b' :: r')).
  { clear. induction 1 as [|n t m l H IH|n a l H IH|k l Hk IHk Hl IHl]; intros b r; cbn [after_all after declare note].
    - now exists b, r.
    - apply IH.
    - destruct (b n); apply IH.
    - rewrite after_app. destruct (IHk no_names (b :: r)) as (b1 & r1 & E1).
      rewrite E1. cbn [after_all after].
      destruct (nested_tail k Hk _ _ _ E1) as (b2 & r2 & E2 & K). injection E2 as <- <-.
      inversion K as [|? b3 ? r3]; subst. apply IHl. }
  destruct (T _ Hn no_names e) as (b1 & e1 & E1).
  destruct (nested_tail _ Hn _ _ _ E1) as (b2 & r2 & Eq & K). injection Eq as <- <-.
  assert (A' : after_all [] (map meaning (os ++ Enter :: body ++ [Leave])) = Some e1).
  { rewrite map_app, after_app, A. cbn [map meaning after_all after]. rewrite map_app, after_app.
    replace (match e with [] | _ => Some (no_names :: e) end) with (Some (no_names :: e)) by (now destruct e).
    rewrite E1. reflexivity. }
  destruct (lookup_exact os e n ltac:(lia) A) as (l & o & El & Eo & Ro & No).
  assert (B' : Z.of_nat (length (os ++ Enter :: body ++ [Leave])) <= 2 ^ 29)
    by (rewrite app_length; cbn [length]; rewrite app_length; cbn [length]; lia).
  destruct (lookup_exact _ e1 n B' A') as (l' & o' & El' & Eo' & Ro' & No').
  exists l, l', o, o'. repeat (split; [assumption|]).
  pose proof (keeps_resolve e e1 n K) as R. rewrite <- Ro, <- Ro' in R.
  destruct o as [y|], o' as [z|]; cbn [option_map info_of i_type i_mutable] in *; try discriminate R; [|reflexivity].
  rewrite (No y eq_refl), (No' z eq_refl). injection R as -> ->. reflexivity.
Qed.
Print Assumptions leaving_restores.

(** A history that meets the hypotheses: [x] is redefined in its block, shadowed
    in an inner one where more names than the initial table holds are defined,
    marked there, and seen again outside. *)
Definition many : list op := map (fun i => Define (bs "v" ++ [Z.of_nat i + 65]) (Z.of_nat i) false) (seq 0 20).
Definition history : list op :=
  [Enter; Define (bs "x") 1 false; Define (bs "x") 2 true; Mark (bs "x") 7; Enter; Mark (bs "x") 8] ++ many ++ [Define (bs "x") 3 false].
Example history_valid : after_all [] (map meaning history) <> None.
Proof. vm_compute. discriminate. Qed.
Example inner_x : rbind (run [] history) (fun l => found l (bs "x")) = Ok (Some (Sym (bs "x") 3 false 0)).
Proof. vm_compute. reflexivity. Qed.
Example inner_v : rbind (run [] history) (fun l => found l (bs "vQ")) = Ok (Some (Sym (bs "vQ") 16 false 0)).
Proof. vm_compute. reflexivity. Qed.
Example outer_x : rbind (run [] (history ++ [Leave])) (fun l => found l (bs "x")) = Ok (Some (Sym (bs "x") 2 true 8)).
Proof. vm_compute. reflexivity. Qed.
Example outer_v : rbind (run [] (history ++ [Leave])) (fun l => found l (bs "vQ")) = Ok None.
Proof. vm_compute. reflexivity. Qed.
Example many_nested : nested (map meaning many).
Proof. repeat constructor. Qed.
