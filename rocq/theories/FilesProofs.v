(** Lemmas about the file system: entries, locations, path resolution. *)
From Verif Require Import Base BaseFacts FilesSpec.

Lemma same_iff a b : same a b = true <-> a = b.
Proof. unfold same. destruct (bytes_eq a b); split; congruence. Qed.
Lemma same_refl a : same a a = true. Proof. now apply same_iff. Qed.
Lemma same_ne a b : a <> b -> same a b = false.
Proof. unfold same. now destruct (bytes_eq a b). Qed.
Lemma same_loc_iff a b : same_loc a b = true <-> a = b.
Proof. unfold same_loc. destruct (loc_eq a b); split; congruence. Qed.
Lemma same_loc_refl a : same_loc a a = true. Proof. now apply same_loc_iff. Qed.
Lemma same_loc_ne a b : a <> b -> same_loc a b = false.
Proof. unfold same_loc. now destruct (loc_eq a b). Qed.
Lemma same_loc_false a b : same_loc a b = false <-> a <> b.
Proof. unfold same_loc. destruct (loc_eq a b); split; congruence. Qed.

(** ** Entries *)
Lemma get_find t l : l <> [] -> get t l = find_entry t l.
Proof. now destruct l. Qed.
Lemma find_set t l e k : find_entry (set t l e) k = if same_loc l k then Some e else find_entry t k.
Proof.
  induction t as [|[a x] t IH]; cbn; [reflexivity|].
  destruct (same_loc a l) eqn:E; cbn.
  - apply same_loc_iff in E as ->. destruct (same_loc l k); reflexivity.
  - rewrite IH. destruct (same_loc a k) eqn:F; [|reflexivity].
    apply same_loc_iff in F as ->. destruct (same_loc l k) eqn:G; [|reflexivity]. apply same_loc_iff in G as ->. now rewrite same_loc_refl in E.
Qed.
Lemma get_set t l e k : l <> [] -> get (set t l e) k = if same_loc l k then Some e else get t k.
Proof. intros N. destruct k; [rewrite (same_loc_ne l []) by assumption; reflexivity|]. apply find_set. Qed.
Lemma find_in t l e : find_entry t l = Some e -> In (l, e) t.
Proof. induction t as [|[a x] t IH]; cbn; [discriminate|]. destruct (same_loc a l) eqn:E; [apply same_loc_iff in E as ->; intros [= ->]; now left|right; now apply IH]. Qed.
Lemma in_find t l e : NoDup (map fst t) -> In (l, e) t -> find_entry t l = Some e.
Proof.
  induction t as [|[a x] t IH]; cbn; [tauto|]. intros N [H|H]; inversion N as [|? ? N1 N2]; subst.
  - injection H as -> ->. now rewrite same_loc_refl.
  - rewrite same_loc_ne; [now apply IH|]. intros ->. apply N1. now apply (in_map fst) in H.
Qed.
Lemma find_none t l : find_entry t l = None <-> ~ In l (map fst t).
Proof.
  induction t as [|[a x] t IH]; cbn; [tauto|]. destruct (same_loc a l) eqn:E.
  - apply same_loc_iff in E. split; [discriminate|]. intros H. exfalso. apply H. now left.
  - apply same_loc_false in E. rewrite IH. tauto.
Qed.
Lemma find_filter t f l : NoDup (map fst t) -> find_entry (filter f t) l = match find_entry t l with Some e => if f (l, e) then Some e else None | None => None end.
Proof.
  induction t as [|[a x] t IH]; cbn; [reflexivity|]. intros N. inversion N as [|? ? N1 N2]; subst. specialize (IH N2).
  destruct (same_loc a l) eqn:E.
  - apply same_loc_iff in E as ->. destruct (f (l, x)) eqn:F; cbn; [now rewrite same_loc_refl|].
    rewrite IH. apply find_none in N1. now rewrite N1.
  - destruct (f (a, x)); cbn; [now rewrite E|assumption].
Qed.
Lemma nodup_filter t (f : loc * entry -> bool) : NoDup (map fst t) -> NoDup (map fst (filter f t)).
Proof.
  induction t as [|[a x] t IH]; cbn; [auto|]. intros N. inversion N as [|? ? N1 N2]; subst. specialize (IH N2).
  destruct (f (a, x)); cbn; [|assumption]. constructor; [|assumption]. intros H. apply N1. apply in_map_iff in H as (y & E & H). apply filter_In in H as [H _]. rewrite <- E. now apply in_map.
Qed.
Lemma get_del t l k : NoDup (map fst t) -> l <> [] -> get (del t l) k = if same_loc k l then None else get t k.
Proof.
  intros N L. destruct k as [|n k]; [rewrite same_loc_ne by congruence; reflexivity|]. cbn [get]. unfold del. rewrite find_filter by assumption. cbn [fst].
  destruct (same_loc (n :: k) l) eqn:E; destruct (find_entry t (n :: k)); reflexivity.
Qed.
Lemma set_keys_old t l e : In l (map fst t) -> map fst (set t l e) = map fst t.
Proof.
  induction t as [|[a x] t IH]; cbn; [tauto|]. intros H. destruct (same_loc a l) eqn:E; cbn; [apply same_loc_iff in E as ->; reflexivity|].
  f_equal. apply IH. destruct H as [->|H]; [now rewrite same_loc_refl in E|assumption].
Qed.
Lemma set_keys_new t l e : ~ In l (map fst t) -> set t l e = t ++ [(l, e)].
Proof. induction t as [|[a x] t IH]; cbn; [reflexivity|]. intros H. rewrite same_loc_ne by tauto. rewrite IH by tauto. reflexivity. Qed.
Lemma nodup_set t l e : NoDup (map fst t) -> NoDup (map fst (set t l e)).
Proof.
  intros N. destruct (in_dec loc_eq l (map fst t)) as [I|I]; [now rewrite set_keys_old|].
  rewrite set_keys_new, map_app by assumption. cbn. apply NoDup_rev in N. rewrite <- (rev_involutive (map fst t ++ [l])). apply NoDup_rev. rewrite rev_app_distr. cbn.
  constructor; [now rewrite <- in_rev|assumption].
Qed.
Lemma set_in t l e k x : In (k, x) (set t l e) -> (k, x) = (l, e) \/ In (k, x) t.
Proof.
  induction t as [|[a y] t IH]; cbn; [intros [H|[]]; left; congruence|]. destruct (same_loc a l); cbn; [intros [H|H]; [left; congruence|right; now right]|].
  intros [H|H]; [right; now left|]. destruct (IH H); [now left|right; now right].
Qed.

(** ** Locations *)
Lemma below_iff d l r : below d l = Some r <-> r <> [] /\ l = d ++ r.
Proof.
  revert l. induction d as [|n d IH]; intros [|m l]; cbn.
  - split; [discriminate|]. intros [H1 H2]. now subst.
  - split; [intros [= <-]; split; [discriminate|reflexivity]|]. intros [_ ->]. reflexivity.
  - split; [discriminate|intros [_ H]; discriminate H].
  - destruct (same n m) eqn:E; [apply same_iff in E as ->; rewrite IH; split; intros [H1 H2]; split; congruence|].
    split; [discriminate|]. intros [_ H]. injection H as -> _. now rewrite same_refl in E.
Qed.
Lemma inside_iff d l : inside d l = true <-> exists r, r <> [] /\ l = d ++ r.
Proof.
  unfold inside. destruct (below d l) as [r|] eqn:E.
  - apply below_iff in E. split; [intros _; now exists r|reflexivity].
  - split; [discriminate|]. intros (r & H). apply below_iff in H. congruence.
Qed.
Lemma inside_app d r : r <> [] -> inside d (d ++ r) = true.
Proof. intros. apply inside_iff. now exists r. Qed.
Lemma inside_false d l : inside d l = false <-> ~ exists r, r <> [] /\ l = d ++ r.
Proof. rewrite <- inside_iff. destruct (inside d l); split; congruence. Qed.
Lemma children_iff t d n : In n (children t d) <-> exists e, In (d ++ [n], e) t.
Proof.
  unfold children. rewrite in_flat_map. split.
  - intros ([l e] & H & I). cbn in I. destruct (below d l) as [[|m [|]]|] eqn:E; cbn in I; try tauto. destruct I as [->|[]].
    apply below_iff in E as [_ ->]. now exists e.
  - intros (e & H). exists (d ++ [n], e). split; [assumption|]. cbn. assert (E : below d (d ++ [n]) = Some [n]) by (apply below_iff; now split). rewrite E. now left.
Qed.
Lemma children_nodup t d : NoDup (map fst t) -> NoDup (children t d).
Proof.
  unfold children. induction t as [|[l e] t IH]; cbn [flat_map map fst]; [constructor|]. intros N. inversion N as [|? ? N1 N2]; subst. specialize (IH N2).
  destruct (below d l) as [[|m [|]]|] eqn:E; cbn [app]; try assumption. apply below_iff in E as [_ ->].
  constructor; [|assumption]. intros H. apply (children_iff t d m) in H as (x & H). apply N1. now apply (in_map fst) in H.
Qed.

(** ** Well-formed trees *)
Lemma wf_get t l e : wf t -> l <> [] -> (get t l = Some e <-> In (l, e) t).
Proof. intros [N _] L. rewrite get_find by assumption. split; [apply find_in|now apply in_find]. Qed.
Lemma last_cons_ne {A} (l : list A) d : l <> [] -> exists a b, l = a ++ [b] /\ last l d = b /\ removelast l = a.
Proof.
  intros H. destruct (exists_last H) as (a & b & ->). exists a, b. rewrite last_last, removelast_last. auto.
Qed.
Lemma wf_up1 t l n e : wf t -> get t (l ++ [n]) = Some e -> get t l = Some EDir.
Proof.
  intros W H. assert (L : l ++ [n] <> []) by (destruct l; discriminate). apply (wf_get _ _ _ W L) in H. apply (proj1 (proj2 W)) in H as (_ & _ & H). now rewrite removelast_last in H.
Qed.
Lemma wf_up t a b e : wf t -> b <> [] -> get t (a ++ b) = Some e -> get t a = Some EDir.
Proof.
  intros W. revert e. induction b as [|n b IH] using rev_ind; [congruence|]. intros e _ H. rewrite app_assoc in H. apply wf_up1 in H; [|assumption].
  destruct b as [|m b]; [now rewrite app_nil_r in H|]. eapply IH; [discriminate|exact H].
Qed.
Lemma wf_name t l n e : wf t -> get t (l ++ [n]) = Some e -> name_ok n.
Proof.
  intros W H. assert (L : l ++ [n] <> []) by (destruct l; discriminate). apply (wf_get _ _ _ W L) in H. apply (proj1 (proj2 W)) in H as (_ & H & _). now rewrite last_last in H.
Qed.
Lemma wf_child t d n : wf t -> (In n (children t d) <-> get t (d ++ [n]) <> None).
Proof.
  intros W. rewrite children_iff. assert (L : d ++ [n] <> []) by (destruct d; discriminate). split.
  - intros (e & H). apply (wf_get _ _ _ W L) in H. congruence.
  - destruct (get t (d ++ [n])) as [e|] eqn:E; [|congruence]. intros _. exists e. now apply (wf_get _ _ _ W L).
Qed.
Lemma wf_empty t d l e : wf t -> children t d = [] -> In (l, e) t -> inside d l = false.
Proof.
  intros W C H. apply inside_false. intros (r & R & ->). destruct r as [|n r]; [congruence|].
  assert (G : get t (d ++ n :: r) = Some e) by (apply wf_get; [assumption|destruct d; discriminate|assumption]).
  assert (I : In n (children t d)).
  { apply wf_child; [assumption|]. destruct r as [|m r]; [congruence|].
    change (n :: m :: r) with ([n] ++ m :: r) in G. rewrite app_assoc in G. apply wf_up in G; [congruence|assumption|discriminate]. }
  rewrite C in I. destruct I.
Qed.
Lemma wf_filter t f : wf t -> (forall l e, In (l, e) t -> f (l, e) = true -> match removelast l with [] => True | _ => f (removelast l, EDir) = true end) -> wf (filter f t).
Proof.
  intros W H. assert (N : NoDup (map fst t)) by apply W. split; [now apply nodup_filter|]. split; [|intros l x I; apply filter_In in I as [I _]; exact (proj2 (proj2 W) _ _ I)]. intros l e I. apply filter_In in I as [I F]. destruct (proj1 (proj2 W) _ _ I) as (L & O & G).
  split; [assumption|]. split; [assumption|]. specialize (H _ _ I F). destruct (removelast l) as [|m k] eqn:E; [reflexivity|]. cbn [get] in G |- *. rewrite (find_filter t f (m :: k) N). rewrite G. cbv beta iota. match goal with |- (if ?b then _ else _) = _ => replace b with true by (symmetry; exact H) end. reflexivity.
Qed.
Lemma wf_del t l : wf t -> (forall k e, In (k, e) t -> inside l k = false) -> wf (del t l).
Proof.
  intros W H. apply wf_filter; [assumption|]. intros k e I F. cbn [fst] in *. destruct (removelast k) as [|m r] eqn:E; [exact Logic.I|].
  apply negb_true_iff, same_loc_false. intros EL. specialize (H _ _ I). apply inside_false in H. apply H. destruct (proj1 (proj2 W) _ _ I) as (L & _). destruct (last_cons_ne k [] L) as (a & b & -> & _ & R). exists [b]. split; [discriminate|]. congruence.
Qed.
Lemma wf_set_file t l d d' : wf t -> get t l = Some (EFile d) -> wf (set t l (EFile d')).
Proof.
  intros W G. assert (L : l <> []) by (intros ->; discriminate G). split; [now apply nodup_set, W|]. split; [|intros k x I; apply set_in in I as [I|I]; [discriminate I|exact (proj2 (proj2 W) _ _ I)]]. intros k x I. rewrite get_set by assumption.
  assert (P : k <> [] /\ name_ok (last k []) /\ get t (removelast k) = Some EDir).
  { apply set_in in I as [[= -> ->]|I]; [|exact (proj1 (proj2 W) _ _ I)]. apply wf_get in G; [|assumption..]. exact (proj1 (proj2 W) _ _ G). }
  destruct P as (P1 & P2 & P3). split; [assumption|]. split; [assumption|]. destruct (same_loc l (removelast k)) eqn:E; [|assumption]. apply same_loc_iff in E. subst l. congruence.
Qed.
Lemma wf_set_new t d n e : wf t -> get t d = Some EDir -> get t (d ++ [n]) = None -> name_ok n -> (forall x, e <> ELink x) -> wf (set t (d ++ [n]) e).
Proof.
  intros W G M O X. assert (L : d ++ [n] <> []) by (destruct d; discriminate). split; [now apply nodup_set, W|]. split; [|intros k x I; apply set_in in I as [I|I]; [injection I as _ <-; now specialize (X x)|exact (proj2 (proj2 W) _ _ I)]]. intros k x I. rewrite get_set by assumption.
  assert (P : k <> [] /\ name_ok (last k []) /\ get t (removelast k) = Some EDir).
  { apply set_in in I as [[= -> ->]|I]; [|exact (proj1 (proj2 W) _ _ I)]. rewrite last_last, removelast_last. auto. }
  destruct P as (P1 & P2 & P3). split; [assumption|]. split; [assumption|]. destruct (same_loc (d ++ [n]) (removelast k)) eqn:E; [|assumption]. apply same_loc_iff in E. congruence.
Qed.

(** ** Paths *)
Lemma comps_cons s : exists n ns, comps s = n :: ns.
Proof. induction s as [|c s (n & ns & IH)]; cbn; [eauto|]. destruct (c =? 47); [eauto|]. rewrite IH. eauto. Qed.
Lemma comps_app p q : comps (p ++ 47 :: q) = comps p ++ comps q.
Proof.
  induction p as [|c p IH]; cbn; [reflexivity|]. destruct (c =? 47); cbn; [now rewrite IH|]. rewrite IH. destruct (comps_cons p) as (n & ns & ->). reflexivity.
Qed.
Lemma comps_name n : ~ In 47 n -> comps n = [n].
Proof. induction n as [|c n IH]; cbn; [reflexivity|]. intros H. destruct (c =? 47) eqn:E; [exfalso; apply H; left; lia|]. rewrite IH by tauto. reflexivity. Qed.
Lemma ne_iff c : ne c = true <-> c <> [].
Proof. unfold ne. rewrite negb_true_iff. unfold same. destruct (bytes_eq c []); split; congruence. Qed.
Lemma resolve_eq t f n (cur : loc) (c : bytes) (rest : list bytes) : resolve_n t f n cur (c :: rest) =
  if same c [] || same c (bs ".") then resolve_n t f n cur rest
  else if same c (bs "..") then resolve_n t f n (removelast cur) rest
  else match get t (cur ++ [c]) with
       | None => match rest with [] => Missing cur c | _ => Fail ENOENT end
       | Some EDir => resolve_n t f n (cur ++ [c]) rest
       | Some (EFile _) => match rest with [] => Found (cur ++ [c]) | _ => Fail ENOTDIR end
       | Some (ELink target) =>
           if match rest with [] => negb f | _ => false end then Found (cur ++ [c])
           else match n with O => Fail ELOOP | S m => resolve_n t f m (start cur target) (comps target ++ rest) end
       end.
Proof. destruct n; reflexivity. Qed.
Lemma resolve_nil t f n cur : resolve_n t f n cur [] = Found cur.
Proof. destruct n; reflexivity. Qed.
Definition dotless (cs : list bytes) : Prop := ~ In (bs ".") cs /\ ~ In (bs "..") cs.
Lemma resolve_name t f n (cur : loc) (c : bytes) (rest : list bytes) : c <> [] -> c <> bs "." -> c <> bs ".." -> resolve_n t f n cur (c :: rest) =
  match get t (cur ++ [c]) with
  | None => match rest with [] => Missing cur c | _ => Fail ENOENT end
  | Some EDir => resolve_n t f n (cur ++ [c]) rest
  | Some (EFile _) => match rest with [] => Found (cur ++ [c]) | _ => Fail ENOTDIR end
  | Some (ELink target) =>
      if match rest with [] => negb f | _ => false end then Found (cur ++ [c])
      else match n with O => Fail ELOOP | S m => resolve_n t f m (start cur target) (comps target ++ rest) end
  end.
Proof. intros A B C. rewrite resolve_eq, !same_ne by assumption. reflexivity. Qed.
(** Names that lead to a directory are walked *)
Lemma resolve_prefix t f n (a b : list bytes) (cur : loc) : wf t -> dotless a -> get t (cur ++ filter ne a) = Some EDir -> resolve_n t f n cur (a ++ b) = resolve_n t f n (cur ++ filter ne a) b.
Proof.
  intros W. revert cur. induction a as [|c a IH]; intros cur [D1 D2] G; cbn [filter app]; [now rewrite app_nil_r|].
  cbn [filter] in G. assert (D : dotless a) by (split; intros H; [apply D1|apply D2]; now right).
  destruct (ne c) eqn:E.
  - assert (C0 : c <> []) by now apply ne_iff.
    assert (Gc : get t (cur ++ [c]) = Some EDir).
    { destruct (filter ne a) as [|m r] eqn:Ef; [assumption|]. change (c :: m :: r) with ([c] ++ m :: r) in G. rewrite app_assoc in G. eapply wf_up; [exact W| |exact G]. discriminate. }
    rewrite resolve_name; [|assumption|intros ->; apply D1; now left|intros ->; apply D2; now left]. rewrite Gc. rewrite IH; [|assumption|rewrite <- app_assoc; exact G]. rewrite <- app_assoc. reflexivity.
  - assert (c = []) as -> by (destruct c; [reflexivity|discriminate E]). rewrite resolve_eq. cbn. now apply IH.
Qed.
Lemma resolve_go t cwd f p : p <> [] -> Z.of_nat (length p) < PATH_MAX -> resolve t cwd f p = resolve_n t f MAXSYMLINKS (start cwd p) (comps p).
Proof. intros P L. unfold resolve. destruct (Z.leb_spec PATH_MAX (Z.of_nat (length p))); [lia|]. now destruct p. Qed.
Lemma names_nil : names [] = []. Proof. reflexivity. Qed.
Lemma spells_dir t cwd f p l : wf t -> spells cwd p l -> get t l = Some EDir -> resolve t cwd f p = Found l.
Proof.
  intros W (E & D1 & D2 & N & _ & L) G. rewrite resolve_go; [|intros ->; now apply N|assumption].
  rewrite <- (app_nil_r (comps p)). rewrite resolve_prefix; [rewrite resolve_nil; now rewrite E|assumption|now split|]. fold (names p). now rewrite <- E.
Qed.
Lemma start_app cwd p q : p <> [] -> start cwd (p ++ q) = start cwd p.
Proof. now destruct p. Qed.
Lemma name_comps n : name_ok n -> comps n = [n] /\ n <> [] /\ n <> bs "." /\ n <> bs "..".
Proof. intros (A & B & C & D & E). split; [now apply comps_name|auto]. Qed.
Lemma spells_ne cwd p l : spells cwd p l -> p <> [].
Proof. intros (_ & _ & _ & N & _) ->. now apply N. Qed.
Lemma spells_child cwd (p : bytes) (l : loc) (n : bytes) : spells cwd p l -> name_ok n -> Z.of_nat (length p) + 1 + Z.of_nat (length n) < PATH_MAX -> spells cwd (p ++ 47 :: n) (l ++ [n]).
Proof.
  intros S O L. assert (P := spells_ne _ _ _ S). destruct S as (E & D1 & D2 & N & Z0 & _). destruct (name_comps n O) as (C & C1 & C2 & C3).
  unfold spells, names. rewrite comps_app, C, filter_app. cbn [filter]. assert (X : ne n = true) by now apply ne_iff. rewrite X. fold (names p).
  split; [rewrite start_app, app_assoc by assumption; now rewrite <- E|].
  split; [intros H; apply in_app_iff in H as [H|[H|[]]]; [tauto|congruence]|].
  split; [intros H; apply in_app_iff in H as [H|[H|[]]]; [tauto|congruence]|].
  split; [destruct (names p); discriminate|].
  split; [intros H; apply in_app_iff in H as [H|[H|H]]; [tauto|discriminate H|]; destruct O as (_ & _ & O & _); tauto|]. rewrite app_length. cbn [length]. lia.
Qed.
(** A path one name below a directory *)
Lemma resolve_child t cwd f (p : bytes) (l : loc) (n : bytes) : wf t -> spells cwd p l -> get t l = Some EDir -> name_ok n -> Z.of_nat (length p) + 1 + Z.of_nat (length n) < PATH_MAX ->
  resolve t cwd f (p ++ 47 :: n) = resolve_n t f MAXSYMLINKS l [n].
Proof.
  intros W S G O L. assert (P := spells_ne _ _ _ S). assert (S' := S). destruct S as (E & D1 & D2 & N & Z0 & _). destruct (name_comps n O) as (C & C1 & C2 & C3).
  rewrite resolve_go; [|destruct p; discriminate|rewrite app_length; cbn [length]; lia]. rewrite start_app, comps_app, C by assumption.
  rewrite resolve_prefix; [|assumption|now split|fold (names p); now rewrite <- E]. fold (names p). now rewrite <- E.
Qed.
Lemma child_found t cwd f (p : bytes) (l : loc) (n : bytes) e : wf t -> spells cwd p l -> get t l = Some EDir -> Z.of_nat (length p) + 1 + Z.of_nat (length n) < PATH_MAX ->
  get t (l ++ [n]) = Some e -> (forall x, e = ELink x -> f = false) -> resolve t cwd f (p ++ 47 :: n) = Found (l ++ [n]).
Proof.
  intros W S G L Ge F. assert (O := wf_name _ _ _ _ W Ge). rewrite (resolve_child t cwd f p l n) by assumption. destruct (name_comps n O) as (C & C1 & C2 & C3).
  rewrite resolve_name, Ge by assumption. destruct e; [reflexivity|apply resolve_nil|]. now rewrite (F _ eq_refl).
Qed.
Lemma child_missing t cwd f (p : bytes) (l : loc) (n : bytes) : wf t -> spells cwd p l -> get t l = Some EDir -> name_ok n -> Z.of_nat (length p) + 1 + Z.of_nat (length n) < PATH_MAX ->
  get t (l ++ [n]) = None -> resolve t cwd f (p ++ 47 :: n) = Missing l n.
Proof.
  intros W S G O L Ge. rewrite (resolve_child t cwd f p l n) by assumption. destruct (name_comps n O) as (C & C1 & C2 & C3). rewrite resolve_name, Ge by assumption. reflexivity.
Qed.
Lemma trim_last cs : cs <> [] -> last cs [] <> [] -> trim cs = cs.
Proof.
  induction cs as [|c cs IH]; [congruence|]. intros _ H. destruct cs as [|d cs]; [cbn in *; now destruct c|].
  change (last (c :: d :: cs) []) with (last (d :: cs) []) in H. cbn [trim]. cbn [trim] in IH. rewrite IH by (assumption || discriminate). now destruct c.
Qed.
Lemma trim_in cs c : In c (trim cs) -> In c cs.
Proof.
  induction cs as [|d cs IH]; cbn; [tauto|]. destruct (trim cs) as [|x r]; [destruct d; cbn; [tauto|intros [<-|[]]; now left]|]. intros [<-|H]; [now left|right; now apply IH].
Qed.
Lemma trim_nonempty cs : trim cs <> [] -> In (last (trim cs) []) (trim cs).
Proof. intros H. destruct (last_cons_ne (trim cs) [] H) as (a & b & -> & E & _). rewrite E. apply in_app_iff. right. now left. Qed.
Lemma spells_no_dots cwd p l : spells cwd p l -> ends_in_dots p = false.
Proof.
  intros (_ & D1 & D2 & _). unfold ends_in_dots. destruct (list_eq_dec bytes_eq (trim (comps p)) []) as [->|N]; [reflexivity|].
  assert (I := trim_in _ _ (trim_nonempty _ N)). rewrite !same_ne; [reflexivity|intros E; now rewrite E in I|intros E; now rewrite E in I].
Qed.
