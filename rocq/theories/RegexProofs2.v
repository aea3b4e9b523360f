(** The loops. *)
From Verif Require Import Base RegexSpec RegexModel RegexProofs.

Definition tame (r : re) : Prop := no_bol r = true /\ (no_eol r = true \/ never_empty r).
Definition nul_free (s : bytes) : Prop := ~ In 0 s.

Lemma c_string_id s : nul_free s -> c_string s = s.
Proof.
  unfold nul_free. induction s as [|b s IH]; intros N; [reflexivity|]. cbn [c_string]. destruct (b =? 0) eqn:E; [exfalso; apply N; left; lia|].
  rewrite IH; [reflexivity|]. intros X. apply N. right. exact X.
Qed.
Lemma skipn_in {A} (l : list A) k x : In x (skipn k l) -> In x l.
Proof. revert l. induction k as [|k IH]; intros l X; [exact X|]. destruct l as [|a l]; [exact X|]. right. apply IH. exact X. Qed.
Lemma skipn_add {A} (l : list A) k i : skipn i (skipn k l) = skipn (k + i) l.
Proof. revert l. induction k as [|k IH]; intros l; [reflexivity|]. destruct l as [|a l]; cbn [skipn plus]; [destruct i; reflexivity|apply IH]. Qed.
Lemma skipn_cons (t : bytes) k c s : skipn k t = c :: s -> skipn (S k) t = s /\ (k < length t)%nat.
Proof.
  intros E. split.
  - replace (S k) with (k + 1)%nat by lia. rewrite <- skipn_add, E. reflexivity.
  - assert (L : length (skipn k t) = (length t - k)%nat) by apply skipn_length. rewrite E in L. cbn [length] in L. lia.
Qed.

Section Exec.
Context (exec : re -> bytes -> option (nat * nat)) (posix_exec : posix exec).
Lemma exec_range r s i j : exec r s = Some (i, j) -> (i <= j <= length s)%nat.
Proof. intros E. pose proof (posix_exec r s) as P. rewrite E in P. destruct P as [_ [M _]]. exact (match_range _ _ _ _ M). Qed.
(** The next match of a tame pattern *)
Lemma next_match r t k i j : tame r -> (k <= length t)%nat -> exec r (skipn k t) = Some (i, j) ->
  leftmost_longest t r k (k + i) (k + j) /\ (i = j -> j = 0)%nat.
Proof.
  intros [NB Q] Hk E. pose proof (exec_here exec t r k posix_exec NB Hk) as X. rewrite E in X. split; [exact X|]. intros <-.
  destruct X as [_ [M L]]. destruct Q as [NE|NE]; [|destruct (NE _ _ M)].
  pose proof (empty_anywhere t r _ NB NE M k Hk) as K. specialize (L k k (le_n k) K). lia.
Qed.
Lemma last_match r t k : no_bol r = true -> (k <= length t)%nat -> exec r (skipn k t) = None -> forall l, all_matches t r k l -> l = [].
Proof.
  intros NB Hk E l M. pose proof (exec_here exec t r k posix_exec NB Hk) as X. rewrite E in X.
  inversion M as [|from i j l' L M']; subst; [reflexivity|]. destruct L as [A [B _]]. destruct (X _ _ A B).
Qed.
Lemma beyond r t k l : (length t < k)%nat -> all_matches t r k l -> l = [].
Proof. intros Hk M. inversion M as [|from i j l' L M']; subst; [reflexivity|]. destruct L as [A [B _]]. apply match_range in B. lia. Qed.
Lemma first_of r t k l i j : all_matches t r k l -> leftmost_longest t r k i j -> exists l', l = (i, j) :: l' /\ all_matches t r (if (i =? j)%nat then S j else j) l'.
Proof.
  intros M L. inversion M as [from N|from i' j' l' L' M']; subst.
  - destruct L as [A [B _]]. destruct (N _ _ A B).
  - destruct (longest_unique _ _ _ _ _ _ _ L L') as [-> ->]. exists l'. split; [reflexivity|exact M'].
Qed.
Lemma starts_later r t k l : all_matches t r k l -> match l with [] => True | (i, _) :: _ => (k <= i)%nat end.
Proof. intros M. inversion M as [from N|from i' j' l' L' M']; [constructor|]. apply L'. Qed.

(** * find_all *)
Lemma find_loop_exact r t : tame r -> nul_free t -> forall fuel k arr l, (k <= length t)%nat -> (length t - k < fuel)%nat -> all_matches t r k l ->
  find_loop exec fuel r t (length t) k arr = Ok (arr ++ map (fun m => part t (fst m) (snd m)) l).
Proof.
  intros T N. induction fuel as [|fuel IH]; intros k arr l Hk Hf M; [lia|]. cbn [find_loop].
  destruct (length t <? k)%nat eqn:E0; [lia|]. rewrite c_string_id by (intros X; apply N; exact (skipn_in _ _ _ X)).
  destruct (exec r (skipn k t)) as [[i j]|] eqn:E.
  - destruct (next_match r t k i j T Hk E) as [L Z0]. destruct (first_of _ _ _ _ _ _ M L) as [l' [-> M']].
    pose proof (exec_range _ _ _ _ E) as R. rewrite skipn_length in R. cbv zeta.
    assert (P : firstn (j - i) (skipn (k + i) t) = part t (k + i) (k + j)) by (unfold part; f_equal; lia). rewrite P. cbn [map fst snd].
    destruct (j =? 0)%nat eqn:Ej.
    + assert (i = 0 /\ j = 0)%nat as [-> ->] by lia. rewrite !Nat.add_0_r in *. rewrite Nat.eqb_refl in M'.
      destruct (length t <=? k)%nat eqn:El.
      * rewrite (beyond r t (S k) l' ltac:(lia) M'). reflexivity.
      * rewrite (IH (S k) _ l') by (assumption || lia). rewrite <- app_assoc. reflexivity.
    + destruct (k + i =? k + j)%nat eqn:Ee; [lia|]. rewrite (IH (k + j)%nat _ l') by (assumption || lia). rewrite <- app_assoc. reflexivity.
  - rewrite (last_match r t k (proj1 T) Hk E l M). cbn [map]. rewrite app_nil_r. reflexivity.
Qed.
Lemma c_string_length s : (length (c_string s) <= length s)%nat.
Proof. induction s as [|b s IH]; cbn [c_string length]; [lia|]. destruct (b =? 0); cbn [length]; lia. Qed.
Lemma find_loop_total r buf len : forall fuel k arr, (k <= S (length buf))%nat -> (S (length buf) - k < fuel)%nat ->
  find_loop exec fuel r buf len k arr = UB \/ exists l, find_loop exec fuel r buf len k arr = Ok l.
Proof.
  induction fuel as [|fuel IH]; intros k arr Hk Hf; [lia|]. cbn [find_loop]. destruct (length buf <? k)%nat eqn:E0; [left; reflexivity|].
  destruct (exec r _) as [[i j]|] eqn:E; [|right; eexists; reflexivity]. cbv zeta.
  apply exec_range in E. pose proof (c_string_length (skipn k buf)) as L. rewrite skipn_length in L.
  destruct (j =? 0)%nat eqn:Ej; [|apply IH; lia]. destruct (len <=? k + j)%nat; [right; eexists; reflexivity|apply IH; lia].
Qed.

(** * replace *)
Lemma put_ok result s : Z.of_nat (length result + length s) <= RESULT_BUF -> put result s = Ok (result ++ s).
Proof. intros H. unfold put. destruct (Z.leb_spec (Z.of_nat (length result + length s)) RESULT_BUF); [reflexivity|lia]. Qed.
Lemma subst_step t repl k c s l : skipn k t = c :: s -> match l with [] => True | (i, _) :: _ => (S k <= i)%nat end -> substitute t repl k l = c :: substitute t repl (S k) l.
Proof.
  intros E F. destruct (skipn_cons _ _ _ _ E) as [Es Hk]. destruct l as [|[i j] l]; cbn [substitute]; [rewrite E, Es; reflexivity|].
  unfold part. rewrite E, Es. replace (i - k)%nat with (S (i - S k)) by lia. reflexivity.
Qed.
Lemma part_here (t : bytes) k : part t k k = [].
Proof. unfold part. rewrite Nat.sub_diag. reflexivity. Qed.
Lemma replace_loop_exact r t repl : tame r -> forall fuel k result l, (k <= length t)%nat -> (length t - k < fuel)%nat -> all_matches t r k l ->
  Z.of_nat (length (result ++ substitute t repl k l)) < RESULT_BUF - PAT_BUF ->
  replace_loop exec fuel r repl (skipn k t) result = Ok (result ++ substitute t repl k l).
Proof.
  intros T. induction fuel as [|fuel IH]; intros k result l Hk Hf M B; [lia|]. cbn [replace_loop].
  assert (BB : RESULT_BUF - PAT_BUF = 12288 /\ RESULT_BUF = 16384) by (split; reflexivity). destruct BB as [B1 B2].
  destruct (exec r (skipn k t)) as [[i j]|] eqn:E.
  - destruct (next_match r t k i j T Hk E) as [L Z0]. destruct (first_of _ _ _ _ _ _ M L) as [l' [-> M']].
    pose proof (exec_range _ _ _ _ E) as R. rewrite skipn_length in R.
    cbn [substitute] in B |- *. assert (P : firstn i (skipn k t) = part t k (k + i)) by (unfold part; f_equal; lia).
    rewrite !app_length in B. destruct (Z.ltb_spec (Z.of_nat (length result)) (RESULT_BUF - PAT_BUF)) as [X|X]; [|lia]. cbn [negb].
    rewrite P. rewrite put_ok by lia. cbn [rbind]. rewrite put_ok by (rewrite app_length; lia). cbn [rbind].
    destruct (j =? 0)%nat eqn:Ej.
    + assert (i = 0 /\ j = 0)%nat as [-> ->] by lia. rewrite !Nat.add_0_r in *. rewrite Nat.eqb_refl in M'. rewrite part_here, app_nil_r in *. cbn [length app] in *.
      destruct (skipn k t) as [|c s] eqn:Es.
      * assert (Hl : length (skipn k t) = (length t - k)%nat) by apply skipn_length. rewrite Es in Hl. cbn [length] in Hl.
        assert (l' = []) as -> by (apply (beyond r t (S k)); [lia|exact M']). cbn [substitute] in *. rewrite Es in *.
        rewrite put_ok by (rewrite app_length; lia). rewrite <- app_assoc. reflexivity.
      * rewrite (subst_step t repl k c s l' Es (starts_later _ _ _ _ M')) in *. cbn [length] in B.
        destruct (skipn_cons _ _ _ _ Es) as [Es' Hlt]. rewrite put_ok by (rewrite app_length; cbn [length]; lia). cbn [rbind]. rewrite <- Es'.
        rewrite (IH (S k) _ l'); [|lia|lia|exact M'|rewrite !app_length; cbn [length]; lia].
        rewrite <- !app_assoc. reflexivity.
    + destruct (k + i =? k + j)%nat eqn:Ee; [lia|]. rewrite skipn_add.
      rewrite (IH (k + j)%nat _ l'); [|lia|lia|exact M'|rewrite !app_length; lia]. rewrite <- !app_assoc. reflexivity.
  - rewrite (last_match r t k (proj1 T) Hk E l M) in *. cbn [substitute] in *. rewrite app_length in B. apply put_ok. lia.
Qed.
Lemma replace_loop_safe r repl : forall fuel s result, (length s < fuel)%nat ->
  Z.of_nat (length result) + Z.of_nat (length s) + (Z.of_nat (length s) + 1) * Z.of_nat (length repl) <= RESULT_BUF ->
  exists out, replace_loop exec fuel r repl s result = Ok out.
Proof.
  induction fuel as [|fuel IH]; intros s result Hf B; [lia|]. cbn [replace_loop].
  destruct (exec r s) as [[i j]|] eqn:E; [|rewrite put_ok by lia; eexists; reflexivity].
  pose proof (exec_range _ _ _ _ E) as R. destruct (negb _); [rewrite put_ok by lia; eexists; reflexivity|].
  assert (Lf : length (firstn i s) = i) by (rewrite firstn_length; lia).
  rewrite put_ok by lia. cbn [rbind]. rewrite put_ok by (rewrite app_length; lia). cbn [rbind].
  destruct (j =? 0)%nat eqn:Ej.
  - assert (i = 0)%nat by lia. subst i. destruct s as [|c s]; [rewrite put_ok; [eexists; reflexivity|rewrite !app_length; cbn [length firstn] in *; lia]|].
    cbn [length firstn] in *. rewrite put_ok by (rewrite !app_length; cbn [length]; lia). cbn [rbind]. apply IH; [lia|]. rewrite !app_length. cbn [length]. lia.
  - assert (Ls : length (skipn j s) = (length s - j)%nat) by apply skipn_length. apply IH; [lia|]. rewrite !app_length, Ls, Lf.
    assert ((Z.of_nat (length s - j) + 1) * Z.of_nat (length repl) <= Z.of_nat (length s) * Z.of_nat (length repl)) by (apply Z.mul_le_mono_nonneg_r; lia). lia.
Qed.
Lemma put_either result s : put result s = UB \/ put result s = Ok (result ++ s).
Proof. unfold put. destruct (_ <=? _); [right|left]; reflexivity. Qed.
Lemma replace_loop_total r repl : forall fuel s result, (length s < fuel)%nat -> replace_loop exec fuel r repl s result = UB \/ exists out, replace_loop exec fuel r repl s result = Ok out.
Proof.
  assert (PE : forall a b, put a b = UB \/ exists out, put a b = Ok out) by (intros a b; destruct (put_either a b) as [-> | ->]; [left; reflexivity|right; eexists; reflexivity]).
  induction fuel as [|fuel IH]; intros s result Hf; [lia|]. cbn [replace_loop].
  destruct (exec r s) as [[i j]|] eqn:E; [|apply PE]. pose proof (exec_range _ _ _ _ E) as R. destruct (negb _); [apply PE|].
  destruct (put_either result (firstn i s)) as [-> | ->]; [left; reflexivity|]. cbn [rbind]. destruct (put_either (result ++ firstn i s) repl) as [-> | ->]; [left; reflexivity|]. cbn [rbind].
  destruct (j =? 0)%nat eqn:Ej; [|apply IH; rewrite skipn_length; lia].
  destruct s as [|c s]; [apply PE|]. match goal with |- context [put ?a [c]] => destruct (put_either a [c]) as [-> | ->] end; [left; reflexivity|]. cbn [rbind length] in *. apply IH. lia.
Qed.

(** * split *)
Lemma split_loop_exact r t : no_bol r = true -> never_empty r -> forall fuel k arr l, (k <= length t)%nat -> (length t - k < fuel)%nat -> all_matches t r k l ->
  split_loop exec fuel r (skipn k t) arr = Ok (arr ++ pieces t k l).
Proof.
  intros NB NE. assert (T : tame r) by (split; [exact NB|right; exact NE]).
  induction fuel as [|fuel IH]; intros k arr l Hk Hf M; [lia|]. cbn [split_loop].
  destruct (exec r (skipn k t)) as [[i j]|] eqn:E.
  - destruct (next_match r t k i j T Hk E) as [L Z0]. destruct (first_of _ _ _ _ _ _ M L) as [l' [-> M']].
    pose proof (exec_range _ _ _ _ E) as R. rewrite skipn_length in R. destruct L as [_ [Mt _]].
    assert (i <> j) by (intros ->; exact (NE _ _ Mt)). cbv zeta. destruct (j =? 0)%nat eqn:Ej; [lia|].
    destruct (k + i =? k + j)%nat eqn:Ee; [lia|]. rewrite skipn_add. rewrite (IH (k + j)%nat _ l') by (assumption || lia).
    cbn [pieces]. rewrite <- app_assoc. cbn [app]. do 3 f_equal. unfold part. f_equal. lia.
  - rewrite (last_match r t k NB Hk E l M). reflexivity.
Qed.
Lemma split_loop_total r : forall fuel s arr, (length s < fuel)%nat -> exists out, split_loop exec fuel r s arr = Ok out.
Proof.
  induction fuel as [|fuel IH]; intros s arr Hf; [lia|]. cbn [split_loop].
  destruct (exec r s) as [[i j]|] eqn:E; [|eexists; reflexivity]. pose proof (exec_range _ _ _ _ E) as R. cbv zeta.
  destruct (j =? 0)%nat eqn:Ej; [|apply IH; rewrite skipn_length; lia]. destruct s as [|c s]; [eexists; reflexivity|]. cbn [length] in *. apply IH. lia.
Qed.
End Exec.
(** The pieces and the matches between them are the text *)
Lemma weave_all t r k l : all_matches t r k l -> (k <= length t)%nat -> never_empty r -> weave (pieces t k l) (map (fun m => part t (fst m) (snd m)) l) = skipn k t.
Proof.
  intros M Hk NE. revert Hk. induction M as [k N|k i j l L M IH]; intros Hk; cbn [pieces map weave concat]; [apply app_nil_r|].
  destruct L as [A [B _]]. pose proof (match_range _ _ _ _ B) as R. destruct (i =? j)%nat eqn:E; [replace j with i in B by lia; destruct (NE _ _ B)|].
  cbn [fst snd]. rewrite IH by lia. unfold part. replace (skipn j t) with (skipn (j - i) (skipn i t)) by (rewrite skipn_add; f_equal; lia).
  rewrite firstn_skipn. replace (skipn i t) with (skipn (i - k) (skipn k t)) by (rewrite skipn_add; f_equal; lia). apply firstn_skipn.
Qed.
Lemma pieces_count t r k l : all_matches t r k l -> length (pieces t k l) = S (length l).
Proof. intros _. revert k. induction l as [|[i j] l IH]; intros k; cbn [pieces length]; [reflexivity|]. rewrite IH. reflexivity. Qed.
