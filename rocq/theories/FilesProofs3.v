(** Writing, appending, reading and deleting files. *)
From Verif Require Import Base BaseFacts FilesSpec FilesModel FilesProofs FilesProofs2.

(** All trees on the way from one state to another *)
Definition steps (P : fs -> Prop) (s s' : st) : Prop := forall m, In m (moments s') -> In m (moments s) \/ P m.
Lemma steps_refl P s : steps P s s. Proof. intros m H. now left. Qed.
Lemma steps_trans P s t u : steps P s t -> steps P t u -> steps P s u.
Proof. intros A B m H. destruct (B m H) as [C|C]; [now apply A|now right]. Qed.
Lemma steps_tick P s t : steps P s t -> steps P s (tick t).
Proof. intros A m H. now apply A. Qed.
Lemma steps_commit (P : fs -> Prop) s t u : steps P s t -> P u -> steps P s (commit t u).
Proof. intros A B m [<-|H]; [now right|]. now apply A. Qed.
Lemma steps_weaken (P Q : fs -> Prop) s t : (forall m, P m -> Q m) -> steps P s t -> steps Q s t.
Proof. intros W A m H. destruct (A m H); [now left|right; auto]. Qed.
Lemma steps_from (P : fs -> Prop) s t u : steps P s t -> (forall m, In m (moments u) -> In m (moments t)) -> steps P s u.
Proof. intros A B m H. apply A. now apply B. Qed.

Lemma firstn_both {A} (j m : nat) (a : list A) : firstn j a ++ firstn m (skipn j a) = firstn (j + m) a.
Proof. revert a. induction j as [|j IH]; intros [|x a]; cbn; try reflexivity; [now rewrite firstn_nil|]. now rewrite IH. Qed.

Section Files.
Context (fault : nat -> option Z) (short : transfer -> nat -> option Z) (early : nat -> nat) (cwd : loc).
Definition base_data (trunc : bool) (t : fs) (l : loc) : bytes := if trunc then [] else data_at t l.
Lemma open_write_some s trunc p s' l : wf (tree s) -> get (tree s) cwd = Some EDir -> ~ In 0 p -> open_write fault cwd s trunc p = (s', Some l) ->
  target (resolve (tree s) cwd true p) = Some l /\ filey (get (tree s) l) /\ with_file l (base_data trunc (tree s) l) (tree s) (tree s') /\
  steps (with_file l (base_data trunc (tree s) l) (tree s)) s s'.
Proof.
  intros W C Z0. unfold open_write. assert (S := resolve_sensible (tree s) cwd true p W C Z0). destruct (fault (calls s)); [discriminate|].
  destruct (resolve (tree s) cwd true p) as [k|d n|e]; cbn in S; [| |discriminate].
  - destruct (get (tree s) k) as [[d| |x]|] eqn:G; try discriminate. intros [= <- <-]. split; [reflexivity|]. rewrite G. split; [exact I|].
    assert (L : k <> []) by (intros ->; discriminate G).
    assert (F : with_file k (base_data trunc (tree s) k) (tree s) (tree (if trunc then commit s (set (tree s) k (EFile [])) else tick s))).
    { destruct trunc; cbn; [apply (with_file_set k d); split; [assumption|split; [apply differ_refl|assumption]]|]. unfold base_data. rewrite (data_at_file _ _ _ G). split; [assumption|split; [apply differ_refl|assumption]]. }
    split; [exact F|]. destruct trunc; [apply steps_commit; [apply steps_refl|exact F]|apply steps_tick, steps_refl].
  - intros [= <- <-]. destruct S as (A & B & O). split; [reflexivity|]. rewrite B. split; [exact I|]. assert (L : d ++ [n] <> []) by (destruct d; discriminate).
    assert (D0 : base_data trunc (tree s) (d ++ [n]) = []) by (unfold base_data, data_at; rewrite B; now destruct trunc).
    assert (F : with_file (d ++ [n]) (base_data trunc (tree s) (d ++ [n])) (tree s) (set (tree s) (d ++ [n]) (EFile []))).
    { rewrite D0. split; [now apply get_set_here|]. split; [now apply set_differ|]. apply wf_set_new; try assumption. discriminate. }
    split; [exact F|]. apply steps_commit; [apply steps_refl|exact F].
Qed.
Lemma open_write_none s trunc p s' : open_write fault cwd s trunc p = (s', None) -> s' = tick s.
Proof.
  unfold open_write. destruct (fault (calls s)); [congruence|]. destruct (resolve (tree s) cwd true p) as [k|d n|e]; [|discriminate|congruence].
  destruct (get (tree s) k) as [[d| |x]|]; [discriminate|congruence..].
Qed.
Lemma open_write_ok s trunc p l : fault (calls s) = None -> wf (tree s) -> get (tree s) cwd = Some EDir -> ~ In 0 p -> target (resolve (tree s) cwd true p) = Some l -> filey (get (tree s) l) ->
  exists s', open_write fault cwd s trunc p = (s', Some l).
Proof.
  intros NF W C Z0 T F. unfold open_write. rewrite NF. assert (R := resolve_of_target (tree s) cwd true p l W C Z0 T). destruct (get (tree s) l) as [[d| |x]|] eqn:G; try contradiction.
  - rewrite R, G. eexists. reflexivity.
  - destruct R as (d & n & -> & R & _). rewrite R. eexists. reflexivity.
Qed.
Lemma fwrite_spec s l t b a d : with_file l (b ++ a) t (tree s) -> forall pending s' pending' n, fwrite short early s l pending d = (s', pending', n) ->
  (n <= length d)%nat /\ (short Writing (calls s) = None -> n = length d) /\ exists x, pending ++ firstn n d = x ++ pending' /\ with_file l (b ++ a ++ x) t (tree s') /\
  moments s' = tree s' :: moments s.
Proof.
  intros F pending s' pending' n. unfold fwrite. destruct (short Writing (calls s)) as [k|] eqn:Sh; intros [= <- <- <-]; cbn [tree].
  - split; [lia|]. split; [discriminate|]. eexists. split; [symmetry; apply firstn_skipn|]. destruct F as (G & F). rewrite (data_at_file _ _ _ G). rewrite <- app_assoc. split; [apply (with_file_set l (b ++ a)); now split|reflexivity].
  - split; [lia|]. split; [reflexivity|]. eexists. split; [symmetry; apply firstn_skipn|]. destruct F as (G & F). rewrite (data_at_file _ _ _ G). rewrite <- app_assoc. split; [apply (with_file_set l (b ++ a)); now split|reflexivity].
Qed.
Lemma fclose_spec s l t b pending : with_file l b t (tree s) -> exists k, with_file l (b ++ firstn k pending) t (tree (fclose short s l pending)) /\
  (short Closing (calls s) = None -> k = length pending) /\ moments (fclose short s l pending) = tree (fclose short s l pending) :: moments s.
Proof.
  intros F. unfold fclose. destruct F as (G & F). rewrite (data_at_file _ _ _ G).
  destruct (short Closing (calls s)) as [k|] eqn:Sh; eexists; (split; [apply (with_file_set l b); now split|]); (split; [|reflexivity]); [discriminate|reflexivity].
Qed.
Lemma put_file_spec trunc s path d s' r : wf (tree s) -> get (tree s) cwd = Some EDir -> put_file fault short early cwd trunc s path d = (s', r) ->
  (tree s' = tree s /\ past s' = past s /\ r <> Ok true) \/
  exists l k, target (resolve (tree s) cwd true (cstr path)) = Some l /\ filey (get (tree s) l) /\
    with_file l (base_data trunc (tree s) l ++ firstn k d) (tree s) (tree s') /\
    steps (fun m => exists k, with_file l (base_data trunc (tree s) l ++ firstn k d) (tree s) m) s s' /\
    (r = Ok true \/ r = Ok false) /\ (r = Ok true -> short Closing (pred (calls s')) = None -> firstn k d = d) /\ (no_shorts short -> r = Ok true).
Proof.
  intros W C. unfold put_file. assert (Z0 := cstr_no_zero path). destruct (sys_stat fault cwd s (cstr path)) as [s1 e] eqn:E1. assert (s1 = tick s) as -> by (unfold sys_stat in E1; congruence).
  destruct (is_dir e); [intros [= <- <-]; left; repeat split; discriminate|].
  destruct (open_write fault cwd (tick s) trunc (cstr path)) as [s2 [l|]] eqn:E2.
  2:{ apply open_write_none in E2 as ->. intros [= <- <-]. left. repeat split; discriminate. }
  apply open_write_some in E2; [|assumption..]. cbn [tree tick] in E2. destruct E2 as (T & Fy & F & St).
  destruct (fwrite short early s2 l [] d) as [[s3 pending] n] eqn:E3.
  assert (F0 : with_file l (base_data trunc (tree s) l ++ []) (tree s) (tree s2)) by now rewrite app_nil_r.
  destruct (fwrite_spec s2 l (tree s) (base_data trunc (tree s) l) [] d F0 _ _ _ _ E3) as (Ln & NS & x & Ex & F3 & M3). cbn [app] in *.
  destruct (fclose_spec s3 l (tree s) _ pending F3) as (k & F4 & NC & M4). intros [= <- <-]. right. exists l.
  assert (P : exists k', x ++ firstn k pending = firstn k' d /\ (k = length pending -> n = length d -> firstn k' d = d)).
  { assert (X : x = firstn (length x) (firstn n d)) by (rewrite Ex, firstn_app, Nat.sub_diag, firstn_all; cbn; now rewrite app_nil_r).
    assert (Y : pending = skipn (length x) (firstn n d)) by (rewrite Ex, skipn_app, Nat.sub_diag, skipn_all; reflexivity).
    exists (Nat.min (length x + k) n). rewrite <- firstn_firstn. rewrite <- firstn_both. rewrite <- X, <- Y. split; [reflexivity|]. intros -> ->. rewrite firstn_all. rewrite <- Ex. apply firstn_all. }
  destruct P as (k' & P1 & P2). exists k'. rewrite <- P1. rewrite <- app_assoc in F4. split; [assumption|]. split; [assumption|]. split; [assumption|]. split; [|split; [destruct (n =? length d)%nat; auto|split]].
  - intros m H. rewrite M4, M3 in H. destruct H as [<-|[<-|H]].
    + right. exists k'. now rewrite <- P1.
    + right. exists (length x). replace (firstn (length x) d) with x; [assumption|].
      assert (Lx : (length x <= n)%nat) by (apply (f_equal (@length Z)) in Ex; rewrite app_length, firstn_length in Ex; lia).
      replace (firstn (length x) d) with (firstn (length x) (firstn n d)) by (rewrite firstn_firstn; f_equal; lia). rewrite Ex, firstn_app, Nat.sub_diag, firstn_all. cbn. now rewrite app_nil_r.
    + destruct (St m H) as [J|J]; [now left|right; exists 0%nat; cbn; now rewrite app_nil_r].
  - intros R Sc. rewrite P1. apply P2; [apply NC; unfold fclose, commit in Sc; exact Sc|]. injection R as R. now apply Nat.eqb_eq.
  - intros NSh. rewrite (NS (NSh _ _)), Nat.eqb_refl. reflexivity.
Qed.
Lemma sys_stat_eq s p : sys_stat fault cwd s p = (tick s, match fault (calls s) with Some _ => None | None => match resolve (tree s) cwd true p with Found l => get (tree s) l | _ => None end end).
Proof. reflexivity. Qed.
Lemma stat_target s p l : fault (calls s) = None -> wf (tree s) -> get (tree s) cwd = Some EDir -> ~ In 0 p -> target (resolve (tree s) cwd true p) = Some l ->
  sys_stat fault cwd s p = (tick s, get (tree s) l).
Proof.
  intros NF W C Z0 T. rewrite sys_stat_eq, NF. assert (R := resolve_of_target (tree s) cwd true p l W C Z0 T). destruct (get (tree s) l) as [e|] eqn:G; [now rewrite R, G|]. destruct R as (d & n & _ & R & _). now rewrite R.
Qed.
Lemma stat_fail s p : target (resolve (tree s) cwd true p) = None -> sys_stat fault cwd s p = (tick s, None).
Proof. intros T. rewrite sys_stat_eq. destruct (fault (calls s)); [reflexivity|]. destruct (resolve (tree s) cwd true p); [discriminate T..|reflexivity]. Qed.
(** Reading, by what is at the end of the path *)
Definition content_read (e : option entry) : res bytes :=
  match e with Some EDir => Panic 86 | Some (EFile d) => if INT32_MAX <? Z.of_nat (length d) then Panic 53 else Ok d | _ => Ok [] end.
Lemma read_file_spec s path : no_faults fault -> no_shorts short -> wf (tree s) -> get (tree s) cwd = Some EDir ->
  exists s', read_file fault short cwd s path = (s', content_read match target (resolve (tree s) cwd true (cstr path)) with Some l => get (tree s) l | None => None end) /\ tree s' = tree s /\ past s' = past s.
Proof.
  intros NF NS W C. unfold read_file. assert (Z0 := cstr_no_zero path). destruct (target (resolve (tree s) cwd true (cstr path))) as [l|] eqn:T.
  - rewrite (stat_target s (cstr path) l) by auto. assert (R := resolve_of_target (tree s) cwd true (cstr path) l W C Z0 T).
    unfold open_read. rewrite NF. cbn [tree tick calls]. destruct (get (tree s) l) as [[d| |x]|] eqn:G; cbn [is_dir content_read].
    + rewrite R, G. rewrite (data_at_file _ _ _ G). destruct (_ <? _); [eexists; split; [reflexivity|now split]|]. unfold fread. rewrite NS. cbn [tree tick]. rewrite (data_at_file _ _ _ G). rewrite skipn_O, firstn_all. eexists. split; [reflexivity|now split].
    + eexists. split; [reflexivity|now split].
    + rewrite R, G. eexists. split; [reflexivity|now split].
    + destruct R as (d & n & _ & R & _). rewrite R. eexists. split; [reflexivity|now split].
  - rewrite stat_fail by assumption. unfold open_read. rewrite NF. cbn [tree tick calls is_dir content_read]. destruct (resolve (tree s) cwd true (cstr path)); [discriminate T..|]. eexists. split; [reflexivity|now split].
Qed.
(** Writing without faults *)
Lemma put_file_ok trunc s path d l : no_faults fault -> no_shorts short -> wf (tree s) -> get (tree s) cwd = Some EDir -> target (resolve (tree s) cwd true (cstr path)) = Some l -> filey (get (tree s) l) ->
  exists s', put_file fault short early cwd trunc s path d = (s', Ok true) /\ with_file l (base_data trunc (tree s) l ++ d) (tree s) (tree s') /\
    steps (fun m => exists k, with_file l (base_data trunc (tree s) l ++ firstn k d) (tree s) m) s s'.
Proof.
  intros NF NS W C T F. assert (Z0 := cstr_no_zero path). destruct (put_file fault short early cwd trunc s path d) as [s' r] eqn:E. assert (E' := E).
  destruct (put_file_spec trunc s path d s' r W C E) as [(A & B & D)|(l' & k & T' & _ & Fw & St & _ & Full & Tr)].
  - exfalso. unfold put_file in E'. rewrite (stat_target s (cstr path) l) in E' by auto. replace (is_dir (get (tree s) l)) with false in E' by (destruct (get (tree s) l) as [[]|]; try contradiction; reflexivity).
    destruct (open_write_ok (tick s) trunc (cstr path) l (NF _) W C Z0 T F) as (s2 & E2). rewrite E2 in E'. destruct (fwrite short early s2 l [] d) as [[s3 pending] n] eqn:E3.
    apply D. unfold fwrite in E3. rewrite NS in E3. injection E3 as _ _ <-. rewrite Nat.eqb_refl in E'. congruence.
  - assert (l' = l) as -> by congruence. rewrite (Tr NS) in *. exists s'. split; [reflexivity|]. rewrite (Full eq_refl (NS _ _)) in Fw. now split.
Qed.
Lemma put_file_dir trunc s path d l : no_faults fault -> wf (tree s) -> get (tree s) cwd = Some EDir -> target (resolve (tree s) cwd true (cstr path)) = Some l -> get (tree s) l = Some EDir ->
  put_file fault short early cwd trunc s path d = (tick s, Panic (if trunc then 87 else 88)).
Proof. intros NF W C T G. unfold put_file. rewrite (stat_target s (cstr path) l) by (auto using cstr_no_zero). rewrite G. reflexivity. Qed.
Lemma put_file_fail trunc s path d : target (resolve (tree s) cwd true (cstr path)) = None ->
  put_file fault short early cwd trunc s path d = (tick (tick s), Ok false).
Proof.
  intros T. unfold put_file. rewrite stat_fail by assumption. cbn [is_dir]. unfold open_write. cbn [tree tick calls]. destruct (fault _); [reflexivity|]. destruct (resolve (tree s) cwd true (cstr path)); [discriminate T..|reflexivity].
Qed.
End Files.
