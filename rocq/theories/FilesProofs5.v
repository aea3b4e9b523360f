(** Copying and moving files. *)
From Verif Require Import Base BaseFacts FilesSpec FilesModel FilesProofs FilesProofs2 FilesProofs3 FilesProofs4.

Section Copy.
Context (fault : nat -> option Z) (short : transfer -> nat -> option Z) (early : nat -> nat) (cwd : loc).
Lemma firstn_skipn_nil {A} n (l : list A) pos : (0 < n)%nat -> firstn n (skipn pos l) = [] -> (length l <= pos)%nat.
Proof. intros N E. destruct (le_lt_dec (length l) pos) as [H|H]; [assumption|]. apply (f_equal (@length A)) in E. rewrite firstn_length, skipn_length in E. cbn in E. lia. Qed.
Lemma firstn_more {A} pos n (D cd : list A) : firstn n (skipn pos D) = cd -> firstn pos D ++ cd = firstn (pos + length cd) D.
Proof.
  intros <-. rewrite <- firstn_both. f_equal. rewrite firstn_length. generalize (skipn pos D). intros l. destruct (Nat.min_spec n (length l)) as [[H ->]|[H ->]]; [reflexivity|]. rewrite firstn_all. now apply firstn_all2.
Qed.
Lemma copy_buf_pos : (0 < COPY_BUF)%nat. Proof. unfold COPY_BUF. lia. Qed.
Lemma copy_loop_spec t src dst D : src <> dst -> get t src = Some (EFile D) -> (forall n, short Reading n = None) ->
  forall fuel s pos pending x, (length D - pos < fuel)%nat -> (pos <= length D)%nat -> with_file dst x t (tree s) -> x ++ pending = firstn pos D ->
  exists s' pending' b x', copy_loop short early fuel s src pos dst pending = (s', pending', Ok b) /\ with_file dst x' t (tree s') /\ (b = true -> x' ++ pending' = D) /\
    steps (fun m => exists y, with_file dst y t m) s s' /\ ((forall n, short Writing n = None) -> b = true).
Proof.
  intros N G NR. induction fuel as [|fuel IH]; intros s pos pending x Fu P F E; [lia|]. cbn [copy_loop]. unfold fread. rewrite NR.
  assert (Gs : get (tree s) src = Some (EFile D)) by (destruct F as (_ & F & _); rewrite F; assumption). rewrite (data_at_file _ _ _ Gs).
  destruct (firstn COPY_BUF (skipn pos D)) as [|c d] eqn:Ed.
  - apply firstn_skipn_nil in Ed; [|apply copy_buf_pos]. exists (tick s), pending, true, x. split; [reflexivity|]. split; [assumption|]. split; [intros _; rewrite E; now apply firstn_all2|]. split; [apply steps_tick, steps_refl|reflexivity].
  - remember (c :: d) as cd eqn:Ecd. destruct (fwrite short early (tick s) dst pending cd) as [[s2 pending2] n] eqn:E2.
    assert (F0 : with_file dst ([] ++ x) t (tree (tick s))) by exact F. destruct (fwrite_spec short early (tick s) dst t [] x cd F0 _ _ _ _ E2) as (Ln & NS & y & Ey & F2 & M2). cbn [app] in F2.
    assert (St : steps (fun m => exists y, with_file dst y t m) s s2).
    { intros m H. rewrite M2 in H. destruct H as [<-|H]; [right; eauto|left; exact H]. }
    assert (Len : (length cd <= length D - pos)%nat) by (rewrite <- Ed, firstn_length, skipn_length; lia).
    assert (Lp : (1 <= length cd)%nat) by (rewrite Ecd; cbn; lia).
    destruct (Nat.eqb_spec n (length cd)) as [->|Nn].
    + rewrite firstn_all in Ey. destruct (IH s2 (pos + length cd)%nat pending2 (x ++ y)) as (s' & pending' & b & x' & R & F' & T & St' & Wr); [lia|lia|assumption| |].
      * rewrite <- app_assoc, <- Ey, app_assoc, E. now apply firstn_more with COPY_BUF.
      * exists s', pending', b, x'. split; [exact R|]. split; [assumption|]. split; [assumption|]. split; [eapply steps_trans; eauto|assumption].
    + exists s2, pending2, false, (x ++ y). split; [reflexivity|]. split; [assumption|]. split; [discriminate|]. split; [assumption|]. intros NW. exfalso. apply Nn, NS, NW.
Qed.

Lemma copy_file_spec s src dst ls D : (forall n, short Reading n = None) -> (forall n, short Closing n = None) -> wf (tree s) -> get (tree s) cwd = Some EDir ->
  leads (tree s) cwd true (cstr src) = Some ls -> get (tree s) ls = Some (EFile D) -> leads (tree s) cwd true (cstr dst) <> Some ls ->
  exists s' b, copy_file fault short early cwd s src dst = (s', Ok b) /\
  ((b = false /\ tree s' = tree s /\ past s' = past s) \/
   exists ld x, leads (tree s) cwd true (cstr dst) = Some ld /\ filey (get (tree s) ld) /\ with_file ld x (tree s) (tree s') /\ steps (fun m => exists y, with_file ld y (tree s) m) s s' /\ (b = true -> x = D)) /\
  (no_faults fault -> no_shorts short -> forall ld, leads (tree s) cwd true (cstr dst) = Some ld -> filey (get (tree s) ld) -> b = true).
Proof.
  intros NR NC W C Ls G Ne. unfold copy_file. assert (Zs := cstr_no_zero src). assert (Zd := cstr_no_zero dst).
  assert (R := resolve_of_target (tree s) cwd true (cstr src) ls W C Zs Ls). rewrite G in R.
  assert (E1 : exists e, sys_stat fault cwd s (cstr src) = (tick s, e) /\ is_dir e = false).
  { rewrite sys_stat_eq. destruct (fault (calls s)); [eexists; split; reflexivity|]. rewrite R, G. eexists; split; reflexivity. }
  destruct E1 as (e & E1 & Ee). rewrite E1, Ee. unfold open_read. cbn [tree tick calls].
  destruct (fault (S (calls s))) eqn:Ef1.
  { exists (tick (tick s)), false. split; [reflexivity|]. split; [left; now repeat split|]. intros NF. congruence. }
  rewrite R, G. destruct (open_write fault cwd (tick (tick s)) true (cstr dst)) as [s2 [ld|]] eqn:E2.
  2:{ assert (E2' := E2). apply open_write_none in E2 as ->. eexists _, false. split; [reflexivity|]. split; [left; now repeat split|]. intros NF _ ld T F.
      destruct (open_write_ok fault cwd (tick (tick s)) true (cstr dst) ld (NF _) W C Zd T F) as (s2 & E3). congruence. }
  apply open_write_some in E2; [|assumption..]. cbn [tree tick base_data] in E2. destruct E2 as (T & Fy & F & St).
  assert (N : ls <> ld) by (intros ->; apply Ne; exact T).
  assert (Gs : get (tree s2) ls = Some (EFile D)) by (destruct F as (_ & F & _); rewrite F; assumption). rewrite (data_at_file _ _ _ Gs).
  destruct (copy_loop_spec (tree s) ls ld D N G NR (S (length D)) s2 0 [] [] ltac:(lia) ltac:(lia) F eq_refl) as (s3 & pending & b & x & E3 & F3 & Tr & St3 & NW). rewrite E3.
  destruct (fclose_spec short s3 ld (tree s) x pending F3) as (k & F4 & K & M4).
  eexists _, b. split; [reflexivity|]. split; [|intros _ NS _ _ _; apply NW; intros n; apply NS]. right. exists ld, (x ++ firstn k pending). split; [exact T|]. split; [exact Fy|]. split; [exact F4|]. split.
  - intros m H. rewrite M4 in H. destruct H as [<-|H]; [right; eauto|]. destruct (St3 m H) as [J|J]; [|now right]. destruct (St m J) as [J'|J']; [now left|right; eauto].
  - intros B. rewrite (K (NC _)), firstn_all. now apply Tr.
Qed.
(** Copied onto itself a file is emptied *)
Lemma copy_itself s src dst l D : no_faults fault -> no_shorts short -> wf (tree s) -> get (tree s) cwd = Some EDir ->
  leads (tree s) cwd true (cstr src) = Some l -> leads (tree s) cwd true (cstr dst) = Some l -> get (tree s) l = Some (EFile D) ->
  exists s', copy_file fault short early cwd s src dst = (s', Ok true) /\ get (tree s') l = Some (EFile []).
Proof.
  intros NF NS W C Ls Ld G. unfold copy_file. assert (Zs := cstr_no_zero src). assert (Zd := cstr_no_zero dst).
  assert (R := resolve_of_target (tree s) cwd true (cstr src) l W C Zs Ls). rewrite G in R.
  rewrite sys_stat_eq, NF, R, G. cbn [is_dir]. unfold open_read. cbn [tree tick calls]. rewrite NF, R, G.
  destruct (open_write_ok fault cwd (tick (tick s)) true (cstr dst) l (NF _) W C Zd Ld) as (s2 & E2); [cbn; now rewrite G|]. rewrite E2.
  apply open_write_some in E2; [|assumption..]. cbn [tree tick base_data] in E2. destruct E2 as (_ & _ & F & _). destruct F as (G2 & F). rewrite (data_at_file _ _ _ G2). cbn [length copy_loop]. unfold fread. rewrite NS, (data_at_file _ _ _ G2). cbn [skipn]. rewrite firstn_nil.
  eexists. split; [reflexivity|]. unfold fclose. cbn [tree commit]. replace (match short Closing _ with Some k => _ | None => _ end) with 0%nat by now rewrite NS. cbn [firstn tick tree]. rewrite (data_at_file _ _ _ G2). apply get_set_here. intros ->. discriminate G.
Qed.
(** Renaming a file *)
Lemma find_renamed t (a b : loc) k : NoDup (map fst t) -> ~ In b (map fst t) ->
  find_entry (map (fun x => (if same_loc (fst x) a then b else fst x, snd x)) t) k = if same_loc k b then find_entry t a else if same_loc k a then None else find_entry t k.
Proof.
  induction t as [|[l e] t IH]; cbn [map find_entry fst snd]; intros N B; [destruct (same_loc k b), (same_loc k a); reflexivity|]. inversion N as [|? ? N1 N2]; subst. cbn in B. rewrite IH by tauto. clear IH.
  destruct (same_loc l a) eqn:E1.
  - apply same_loc_iff in E1 as ->. destruct (same_loc b k) eqn:E2; [apply same_loc_iff in E2 as ->; now rewrite same_loc_refl|]. apply same_loc_false in E2.
    rewrite (same_loc_ne k b) by congruence. destruct (same_loc k a) eqn:E3; [reflexivity|]. apply same_loc_false in E3. rewrite (same_loc_ne a k) by congruence. reflexivity.
  - apply same_loc_false in E1. destruct (same_loc l k) eqn:E2; [|reflexivity]. apply same_loc_iff in E2 as ->. rewrite (same_loc_ne k b) by tauto. rewrite (same_loc_ne k a) by assumption. reflexivity.
Qed.
Lemma rename_file_moved t a b d : wf t -> get t a = Some (EFile d) -> a <> b -> b <> [] ->
  forall k, get (moved t a b) k = if same_loc k b then Some (EFile d) else if same_loc k a then None else get t k.
Proof.
  intros W G N B k. assert (A : a <> []) by (intros ->; discriminate G). destruct k as [|n k]; [rewrite !same_loc_ne by congruence; reflexivity|]. cbn [get]. unfold moved.
  replace (map (fun x => (rebase a b (fst x), snd x)) (del t b)) with (map (fun x : loc * entry => (if same_loc (fst x) a then b else fst x, snd x)) (del t b)).
  2:{ apply map_ext_in. intros [l e] I. cbn. unfold rebase. destruct (same_loc l a) eqn:E; [reflexivity|]. destruct (below a l) as [r|] eqn:Eb; [|reflexivity]. exfalso. apply below_iff in Eb as [R ->].
      apply filter_In in I as [I _]. assert (Gl : get t (a ++ r) = Some e) by (apply wf_get; [assumption|destruct a; [congruence|discriminate]|assumption]). apply wf_up in Gl; congruence. }
  rewrite find_renamed; [|apply nodup_filter, W|].
  - assert (D : forall j, find_entry (del t b) j = if same_loc j b then None else find_entry t j).
    { intros j. unfold del. rewrite find_filter by apply W. cbn [fst]. destruct (same_loc j b), (find_entry t j); reflexivity. }
    rewrite !D. rewrite (same_loc_ne a b) by assumption. rewrite get_find in G by assumption. rewrite G. destruct (same_loc (n :: k) b); reflexivity.
  - intros I. apply in_map_iff in I as ([l e] & E & I). apply filter_In in I as [_ I]. cbn in *. subst l. now rewrite same_loc_refl in I.
Qed.
(** What rename does with a file *)
Lemma sys_rename_file s p q a d : wf (tree s) -> get (tree s) cwd = Some EDir -> ~ In 0 p -> ~ In 0 q -> leads (tree s) cwd false p = Some a -> get (tree s) a = Some (EFile d) ->
  exists s' b, sys_rename fault cwd s p q = (s', b) /\
  ((s' = tick s /\ (b = true -> leads (tree s) cwd false q = Some a)) \/
   exists k, b = true /\ leads (tree s) cwd false q = Some k /\ k <> a /\ k <> [] /\ s' = commit s (moved (tree s) a k)).
Proof.
  intros W C Zp Zq L G. assert (A : a <> []) by (intros ->; discriminate G). unfold sys_rename. destruct (ends_in_dots p || ends_in_dots q); [eexists _, false; split; [reflexivity|]; left; now split|].
  destruct (fault (calls s)); [eexists _, false; split; [reflexivity|]; left; now split|].
  assert (R := resolve_of_target (tree s) cwd false p a W C Zp L). rewrite G in R. rewrite R. destruct a as [|n l]; [congruence|].
  assert (S := resolve_sensible (tree s) cwd false q W C Zq). unfold leads. destruct (resolve (tree s) cwd false q) as [[|m k]|dd m|e]; cbn [target].
  - eexists _, false. split; [reflexivity|]. left. now split.
  - destruct (same_loc (n :: l) (m :: k)) eqn:E; [apply same_loc_iff in E as <-; eexists _, true; split; [reflexivity|]; left; now split|]. apply same_loc_false in E.
    rewrite G. cbn in S. destruct (get (tree s) (m :: k)) as [[x| |x]|] eqn:Gk; [| | |cbn in Gk; congruence].
    + eexists _, true. split; [reflexivity|]. right. exists (m :: k). repeat split; congruence.
    + eexists _, false. split; [reflexivity|]. left. now split.
    + eexists _, true. split; [reflexivity|]. right. exists (m :: k). repeat split; congruence.
  - cbn in S. destruct S as (Sd & Sm & _). destruct (inside (n :: l) (dd ++ [m])) eqn:I.
    + eexists _, false. split; [reflexivity|]. left. now split.
    + eexists _, true. split; [reflexivity|]. right. exists (dd ++ [m]). repeat split; [congruence|destruct dd; discriminate].
  - eexists _, false. split; [reflexivity|]. left. now split.
Qed.
Definition holds (t m : fs) (ls : loc) (dst D : bytes) : Prop :=
  get m ls = Some (EFile D) \/ exists k f, leads t cwd f (cstr dst) = Some k /\ get m k = Some (EFile D).
Definition touched (t : fs) (ls : loc) (dst : bytes) (k : loc) : Prop := k = ls \/ exists f, leads t cwd f (cstr dst) = Some k.
Lemma move_file_spec s src dst ls D : (forall n, short Reading n = None) -> (forall n, short Closing n = None) -> wf (tree s) -> get (tree s) cwd = Some EDir ->
  leads (tree s) cwd true (cstr src) = Some ls -> leads (tree s) cwd false (cstr src) = Some ls -> get (tree s) ls = Some (EFile D) -> leads (tree s) cwd true (cstr dst) <> Some ls ->
  exists s' b, move_file fault short early cwd s src dst = (s', Ok b) /\
  steps (fun m => holds (tree s) m ls dst D /\ forall k, ~ touched (tree s) ls dst k -> get m k = get (tree s) k) s s' /\
  (if b then exists k f, leads (tree s) cwd f (cstr dst) = Some k /\ get (tree s') k = Some (EFile D) else get (tree s') ls = Some (EFile D)).
Proof.
  intros NR NC W C Ls Ln G Ne. unfold move_file. assert (Zs := cstr_no_zero src). assert (Zd := cstr_no_zero dst).
  destruct (sys_rename_file s (cstr src) (cstr dst) ls D W C Zs Zd Ln G) as (s1 & b1 & E1 & H). rewrite E1. destruct H as [(-> & Hb)|(k & -> & Lk & Nk & Kn & ->)].
  - destruct b1.
    + eexists _, true. split; [reflexivity|]. split; [apply steps_tick, steps_refl|]. exists ls, false. split; [now apply Hb|exact G].
    + destruct (copy_file_spec (tick s) src dst ls D NR NC W C Ls G Ne) as (s2 & b & E2 & H & _). rewrite E2. cbn [tree tick past] in H. destruct H as [(-> & Et & Ep)|(ld & x & Ld & Fy & F & St & B)].
      * exists s2, false. split; [reflexivity|]. split; [|now rewrite Et]. intros m H. left. unfold moments in *. rewrite Et, Ep in H. exact H.
      * assert (N : ls <> ld) by (intros ->; now apply Ne).
        assert (St' : steps (fun m => holds (tree s) m ls dst D /\ forall k, ~ touched (tree s) ls dst k -> get m k = get (tree s) k) s s2).
        { eapply steps_weaken; [|intros m H; destruct (St m H) as [J|J]; [left; exact J|right; exact J]]. intros m (y & Fm). destruct Fm as (Gm & Dm & _). split; [left; rewrite Dm; assumption|]. intros k Nt. apply Dm. intros ->. apply Nt. right. now exists true. }
        destruct b.
        -- specialize (B eq_refl). subst x. destruct (sys_unlink fault cwd s2 (cstr src)) as [s3 bu] eqn:E3. exists s3, true. split; [reflexivity|].
           assert (A : alike (tree s) (tree s2)) by (apply (differ_alike ld); [apply F|exact Fy|destruct F as (Gf & _); now rewrite Gf]).
           assert (W2 : wf (tree s2)) by apply F. assert (C2 : get (tree s2) cwd = Some EDir) by (destruct (A cwd) as [E|[X _]]; [congruence|rewrite C in X; contradiction]).
           assert (L2 : leads (tree s2) cwd false (cstr src) = Some ls) by (rewrite <- Ln; unfold leads; symmetry; now apply resolve_alike).
           assert (G2 : get (tree s2) ls = Some (EFile D)) by (destruct F as (_ & F & _); rewrite F; assumption).
           assert (R := resolve_of_target (tree s2) cwd false (cstr src) ls W2 C2 Zs L2). rewrite G2 in R.
           unfold sys_unlink in E3. rewrite R, G2 in E3.
           assert (Gd : get (tree s2) ld = Some (EFile D)) by apply F.
           destruct (fault (calls s2)); injection E3 as <- <-.
           ++ split; [apply steps_tick; exact St'|]. exists ld, true. split; [exact Ld|exact Gd].
           ++ destruct (del_file (tree s2) ls (EFile D) W2 G2 ltac:(discriminate)) as [_ Gdel].
              assert (Gl : get (del (tree s2) ls) ld = Some (EFile D)) by (rewrite Gdel, same_loc_ne by congruence; exact Gd).
              split; [|exists ld, true; split; [exact Ld|exact Gl]]. apply steps_commit; [exact St'|]. split; [right; exists ld, true; now split|].
              intros k Nt. rewrite Gdel. rewrite same_loc_ne by (intros ->; apply Nt; now left). destruct F as (_ & Df & _). apply Df. intros ->. apply Nt. right. now exists true.
        -- exists s2, false. split; [reflexivity|]. split; [exact St'|]. destruct F as (_ & F & _). rewrite F; assumption.
  - eexists _, true. split; [reflexivity|]. assert (M := rename_file_moved (tree s) ls k D W G ltac:(congruence) Kn).
    assert (Gk : get (moved (tree s) ls k) k = Some (EFile D)) by (rewrite M, same_loc_refl; reflexivity).
    split; [|exists k, false; split; [exact Lk|exact Gk]]. apply steps_commit; [apply steps_refl|]. split; [right; exists k, false; now split|].
    intros j Nt. rewrite M. rewrite (same_loc_ne j k) by (intros ->; apply Nt; right; now exists false). rewrite (same_loc_ne j ls) by (intros ->; apply Nt; now left). reflexivity.
Qed.
End Copy.
