(** Matching can be decided, and moves along a text. *)
From Verif Require Import Base RegexSpec RegexModel.

Lemma match_range t r i j : matches t r i j -> (i <= j <= length t)%nat.
Proof.
  intros M. induction M; try lia.
  match goal with H : nth_error _ _ = Some _ |- _ => assert (X : nth_error t i <> None) by congruence; apply nth_error_Some in X; lia end.
Qed.

(** * Deciding *)
Fixpoint star_ends (f : nat -> list nat) (n i : nat) : list nat :=
  i :: match n with O => [] | S n => flat_map (fun j => if (i <? j)%nat then star_ends f n j else []) (f i) end.
Fixpoint ends (t : bytes) (r : re) (i : nat) : list nat :=
  match r with
  | Eps => if (i <=? length t)%nat then [i] else []
  | Bol => if (i =? 0)%nat then [0%nat] else []
  | Eol => if (i =? length t)%nat then [i] else []
  | Chr p => match nth_error t i with Some c => if p c then [S i] else [] | None => [] end
  | Cat a b => flat_map (ends t b) (ends t a i)
  | Alt a b => ends t a i ++ ends t b i
  | Star a => if (i <=? length t)%nat then star_ends (ends t a) (length t - i) i else []
  end.
Lemma star_sound t a n : (forall i j, In j (ends t a i) -> matches t a i j) -> forall i k, (i <= length t)%nat -> In k (star_ends (ends t a) n i) -> matches t (Star a) i k.
Proof.
  intros A. induction n as [|n IH]; intros i k Hi K; cbn [star_ends] in K; destruct K as [<-|K]; try (apply m_none; exact Hi); [destruct K|].
  apply in_flat_map in K as [j [J K]]. destruct (i <? j)%nat eqn:E; [|destruct K]. specialize (A i j J).
  apply (m_more t a i j k A). apply IH; [apply match_range in A; lia|exact K].
Qed.
Lemma ends_sound t r : forall i j, In j (ends t r i) -> matches t r i j.
Proof.
  induction r as [| | |p|a IHa b IHb|a IHa b IHb|a IHa]; intros i j; cbn [ends]; intros K.
  - destruct (i <=? length t)%nat eqn:E; [|destruct K]. destruct K as [<-|[]]. apply m_eps. lia.
  - destruct (i =? 0)%nat eqn:E; [|destruct K]. destruct K as [<-|[]]. replace i with 0%nat by lia. apply m_bol.
  - destruct (i =? length t)%nat eqn:E; [|destruct K]. destruct K as [<-|[]]. replace i with (length t) by lia. apply m_eol.
  - destruct (nth_error t i) as [c|] eqn:E; [|destruct K]. destruct (p c) eqn:P; [|destruct K]. destruct K as [<-|[]]. exact (m_chr t p i c E P).
  - apply in_flat_map in K as [m [M K]]. exact (m_cat t a b i m j (IHa _ _ M) (IHb _ _ K)).
  - apply in_app_or in K as [K|K]; [apply m_left, IHa, K|apply m_right, IHb, K].
  - destruct (i <=? length t)%nat eqn:E; [|destruct K]. apply (star_sound t a (length t - i) IHa); [lia|exact K].
Qed.
Lemma star_complete t a : (forall i j, matches t a i j -> In j (ends t a i)) -> forall i k, matches t (Star a) i k -> forall n, (length t - i <= n)%nat -> In k (star_ends (ends t a) n i).
Proof.
  intros A i k M. remember (Star a) as r eqn:R. induction M as [| | | | | | |a0 i Hi|a0 i j k M1 _ M2 IH]; try discriminate R; injection R as ->; intros n Hn.
  - destruct n; left; reflexivity.
  - pose proof (match_range _ _ _ _ M1) as R1. destruct (Nat.eq_dec i j) as [<-|N]; [apply IH; [reflexivity|exact Hn]|].
    destruct n as [|n]; [lia|]. cbn [star_ends]. right. apply in_flat_map. exists j. split; [apply A; exact M1|].
    destruct (i <? j)%nat eqn:E; [|lia]. apply IH; [reflexivity|lia].
Qed.
Lemma ends_complete t r : forall i j, matches t r i j -> In j (ends t r i).
Proof.
  induction r as [| | |p|a IHa b IHb|a IHa b IHb|a IHa]; intros i j M; cbn [ends].
  - inversion M; subst. destruct (j <=? length t)%nat eqn:E; [left; reflexivity|lia].
  - inversion M; subst. left. reflexivity.
  - inversion M; subst. rewrite Nat.eqb_refl. left. reflexivity.
  - inversion M as [| | |p' i' c E P| | | | |]; subst. rewrite E, P. left. reflexivity.
  - inversion M as [| | | |a' b' i' m k M1 M2| | | |]; subst. apply in_flat_map. exists m. split; [apply IHa; exact M1|apply IHb; exact M2].
  - inversion M as [| | | | |a' b' i' k M1|a' b' i' k M1| |]; subst; apply in_or_app; [left; apply IHa; exact M1|right; apply IHb; exact M1].
  - pose proof (match_range _ _ _ _ M) as R. destruct (i <=? length t)%nat eqn:E; [|lia]. apply (star_complete t a IHa i j M). lia.
Qed.
(** The leftmost longest match among the starts [from], ..., [from + n - 1] *)
Fixpoint search_from (t : bytes) (r : re) (from n : nat) : option (nat * nat) :=
  match n with
  | O => None
  | S n => match ends t r from with [] => search_from t r (S from) n | j :: l => Some (from, fold_right Nat.max j l) end
  end.
Definition search (r : re) (t : bytes) : option (nat * nat) := search_from t r 0 (S (length t)).
Lemma fold_max_ge l j x : In x (j :: l) -> (x <= fold_right Nat.max j l)%nat.
Proof. induction l as [|y l IH]; cbn [fold_right In]; [intros [->|[]]; lia|]. intros [->|[->|K]]; [specialize (IH (or_introl eq_refl)); lia|lia|specialize (IH (or_intror K)); lia]. Qed.
Lemma fold_max_in l j : In (fold_right Nat.max j l) (j :: l).
Proof.
  induction l as [|y l IH]; cbn [fold_right]; [left; reflexivity|].
  destruct (Nat.max_dec y (fold_right Nat.max j l)) as [->| ->]; [right; left; reflexivity|]. destruct IH as [IH|IH]; [left; exact IH|right; right; exact IH].
Qed.
Lemma search_from_right t r n : forall from, (length t < from + n)%nat ->
  match search_from t r from n with Some (i, j) => leftmost_longest t r from i j | None => forall i j, (from <= i)%nat -> ~ matches t r i j end.
Proof.
  induction n as [|n IH]; intros from Hn; cbn [search_from].
  - intros i j Hi M. apply match_range in M. lia.
  - destruct (ends t r from) as [|j l] eqn:E.
    + assert (N : forall j, ~ matches t r from j) by (intros j M; apply ends_complete in M; rewrite E in M; destruct M).
      specialize (IH (S from) ltac:(lia)). destruct (search_from t r (S from) n) as [[i j]|].
      * destruct IH as [A [B C]]. split; [lia|]. split; [exact B|]. intros i' j' Hi M. destruct (Nat.eq_dec i' from) as [->|X]; [destruct (N _ M)|apply C; [lia|exact M]].
      * intros i j Hi M. destruct (Nat.eq_dec i from) as [->|X]; [destruct (N _ M)|apply (IH i j); [lia|exact M]].
    + split; [lia|]. split; [apply ends_sound; rewrite E; apply fold_max_in|]. intros i' j' Hi M.
      destruct (Nat.eq_dec i' from) as [->|X]; [right|left; lia]. split; [reflexivity|]. apply fold_max_ge. rewrite <- E. apply ends_complete. exact M.
Qed.
Lemma search_posix : posix search.
Proof.
  intros r t. unfold search. pose proof (search_from_right t r (S (length t)) 0 ltac:(lia)) as S0.
  destruct (search_from t r 0 (S (length t))) as [[i j]|]; [exact S0|]. intros i j. apply S0. lia.
Qed.
Lemma longest_unique t r from i j i' j' : leftmost_longest t r from i j -> leftmost_longest t r from i' j' -> i = i' /\ j = j'.
Proof. intros [A [B C]] [A' [B' C']]. specialize (C _ _ A' B'). specialize (C' _ _ A B). lia. Qed.
(** Every text has exactly one list of matches *)
Lemma all_unique t r from l : all_matches t r from l -> forall l', all_matches t r from l' -> l = l'.
Proof.
  intros M. induction M as [from N|from i j l L M IH]; intros l' M'; inversion M' as [from' N'|from' i' j' l'' L' M'']; subst.
  - reflexivity.
  - exfalso. destruct L' as [A [B _]]. exact (N _ _ A B).
  - exfalso. destruct L as [A [B _]]. exact (N' _ _ A B).
  - destruct (longest_unique _ _ _ _ _ _ _ L L') as [-> ->]. f_equal. apply IH. exact M''.
Qed.
Lemma all_exist t r : forall n from, (length t < from + n)%nat -> exists l, all_matches t r from l.
Proof.
  induction n as [n IH] using lt_wf_ind. intros from Hn. pose proof (search_from_right t r n from Hn) as S0.
  destruct (search_from t r from n) as [[i j]|]; [|exists []; apply no_more; exact S0].
  pose proof S0 as [A [B _]]. apply match_range in B.
  assert (X : exists m, (m < n)%nat /\ (length t < (if (i =? j)%nat then S j else j) + m)%nat).
  { exists (n - 1)%nat. destruct (i =? j)%nat eqn:E; lia. }
  destruct X as [m [Hm Hl]]. destruct (IH m Hm _ Hl) as [l M]. exists ((i, j) :: l). apply one_more; assumption.
Qed.

(** * Moving along *)
Lemma nth_error_skipn {A} (l : list A) k i : nth_error (skipn k l) i = nth_error l (k + i).
Proof. revert l. induction k as [|k IH]; intros l; [reflexivity|]. destruct l as [|a l]; cbn [skipn plus nth_error]; [destruct i; reflexivity|apply IH]. Qed.
Lemma shift_up t r k i j : (k <= length t)%nat -> no_bol r = true -> matches (skipn k t) r i j -> matches t r (k + i) (k + j).
Proof.
  intros Hk N M. assert (L : length (skipn k t) = (length t - k)%nat) by apply skipn_length.
  induction M as [i Hi| | |p i c E P|a b i j m M1 IH1 M2 IH2|a b i j M IH|a b i j M IH|a i Hi|a i j m M1 IH1 M2 IH2]; cbn [no_bol] in N; try (apply andb_prop in N as [N1 N2]).
  - apply m_eps. lia.
  - discriminate N.
  - rewrite L. replace (k + (length t - k))%nat with (length t) by lia. apply m_eol.
  - rewrite Nat.add_succ_r. rewrite nth_error_skipn in E. exact (m_chr t p _ c E P).
  - exact (m_cat t a b _ _ _ (IH1 N1) (IH2 N2)).
  - apply m_left, IH, N1.
  - apply m_right, IH, N2.
  - apply m_none. lia.
  - exact (m_more t a _ _ _ (IH1 N) (IH2 N)).
Qed.
Lemma shift_down t r k i j : (k <= length t)%nat -> no_bol r = true -> matches t r i j -> (k <= i)%nat -> matches (skipn k t) r (i - k) (j - k).
Proof.
  intros Hk N M. assert (L : length (skipn k t) = (length t - k)%nat) by apply skipn_length.
  induction M as [i Hi| | |p i c E P|a b i j m M1 IH1 M2 IH2|a b i j M IH|a b i j M IH|a i Hi|a i j m M1 IH1 M2 IH2]; cbn [no_bol] in N; try (apply andb_prop in N as [N1 N2]); intros K.
  - apply m_eps. lia.
  - discriminate N.
  - rewrite <- L. apply m_eol.
  - replace (S i - k)%nat with (S (i - k)) by lia. apply (m_chr _ p (i - k) c); [|exact P]. rewrite nth_error_skipn. replace (k + (i - k))%nat with i by lia. exact E.
  - pose proof (match_range _ _ _ _ M1). apply (m_cat _ a b _ (j - k)); [apply IH1|apply IH2]; try assumption; lia.
  - apply m_left, IH; assumption.
  - apply m_right, IH; assumption.
  - apply m_none. lia.
  - pose proof (match_range _ _ _ _ M1). apply (m_more _ a _ (j - k)); [apply IH1|apply IH2]; try assumption; lia.
Qed.
Lemma exec_here exec t r k : posix exec -> no_bol r = true -> (k <= length t)%nat ->
  match exec r (skipn k t) with Some (i, j) => leftmost_longest t r k (k + i) (k + j) | None => forall i j, (k <= i)%nat -> ~ matches t r i j end.
Proof.
  intros X N Hk. specialize (X r (skipn k t)). destruct (exec r (skipn k t)) as [[i j]|].
  - destruct X as [_ [B C]]. split; [lia|]. split; [apply shift_up; assumption|]. intros i' j' Hi M.
    pose proof (match_range _ _ _ _ M) as R. apply (shift_down t r k) in M; [|assumption..]. specialize (C _ _ (Nat.le_0_l _) M). lia.
  - intros i j Hi M. apply (shift_down t r k) in M; [|assumption..]. exact (X _ _ M).
Qed.
(** Without anchors an empty match anywhere is an empty match everywhere *)
Lemma empty_anywhere t r i : no_bol r = true -> no_eol r = true -> matches t r i i -> forall k, (k <= length t)%nat -> matches t r k k.
Proof.
  intros NB NE M k Hk. remember i as j eqn:E in M at 2.
  induction M as [i Hi| | |p i c Ec P|a b i j m M1 IH1 M2 IH2|a b i j M IH|a b i j M IH|a i Hi|a i j m M1 IH1 M2 IH2]; cbn [no_bol no_eol] in NB, NE; try (apply andb_prop in NB as [NB1 NB2]; apply andb_prop in NE as [NE1 NE2]).
  - apply m_eps. exact Hk.
  - discriminate NB.
  - discriminate NE.
  - lia.
  - pose proof (match_range _ _ _ _ M1). pose proof (match_range _ _ _ _ M2). apply (m_cat t a b k k k); [apply IH1|apply IH2]; try assumption; lia.
  - apply m_left, IH; assumption.
  - apply m_right, IH; assumption.
  - apply m_none. exact Hk.
  - apply m_none. exact Hk.
Qed.
