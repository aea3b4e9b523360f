(** C115: the name suggested for an unknown one. *)
From Verif Require Import Base BaseFacts SuggestModel SuggestSpec SuggestProofs.

(** The distance computed is the least number of edits. *)
Theorem distance_exact a b n : distance a b n -> levenshtein a b = Z.of_nat n.
Proof. intros D. rewrite lev_ed. f_equal. apply (distance_unique a b); [apply ed_distance|exact D]. Qed.
Print Assumptions distance_exact.
Theorem distance_exists a b : exists n, distance a b n /\ levenshtein a b = Z.of_nat n.
Proof. exists (ed a b). split; [apply ed_distance|apply lev_ed]. Qed.
Print Assumptions distance_exists.
Lemma zero_same a b : distance a b 0 <-> a = b.
Proof.
  split; [|intros ->; split; [constructor|lia]]. intros [H _]. inversion H. reflexivity.
Qed.

Lemma consider_all name l :
  (fold_left (consider name) l (None, 3) = (None, 3) /\ forall c, In c l -> levenshtein name c = 0 \/ 3 <= levenshtein name c) \/
  exists l1 c l2, l = l1 ++ c :: l2 /\ fold_left (consider name) l (None, 3) = (Some c, levenshtein name c) /\ 0 < levenshtein name c < 3 /\
    (forall c', In c' l1 -> levenshtein name c' = 0 \/ levenshtein name c < levenshtein name c') /\
    (forall c', In c' l2 -> levenshtein name c' = 0 \/ levenshtein name c <= levenshtein name c').
Proof.
  assert (P : forall c, 0 <= levenshtein name c) by (intros c; rewrite lev_ed; lia).
  induction l as [|x l IH] using rev_ind; [left; split; [reflexivity|intros c []]|]. rewrite fold_left_app. cbn [fold_left]. specialize (P x).
  destruct IH as [[E N]|(l1 & c & l2 & -> & E & B & H1 & H2)]; rewrite E; unfold consider; cbn [snd].
  - destruct ((0 <? levenshtein name x) && (levenshtein name x <? 3)) eqn:T.
    + right. exists l, x, []. split; [reflexivity|]. split; [reflexivity|]. split; [lia|]. split; [|intros c' []].
      intros c' I. apply N in I. lia.
    + left. split; [reflexivity|]. intros c I. apply in_app_or in I as [I|[<-|[]]]; [now apply N|]. lia.
  - destruct ((0 <? levenshtein name x) && (levenshtein name x <? levenshtein name c)) eqn:T.
    + right. exists (l1 ++ c :: l2), x, []. split; [reflexivity|]. split; [reflexivity|]. split; [lia|]. split; [|intros c' []].
      intros c' I. apply in_app_or in I as [I|[<-|I]]; [apply H1 in I; lia|lia|apply H2 in I; lia].
    + right. exists l1, c, (l2 ++ [x]). split; [now rewrite <- app_assoc|]. split; [reflexivity|]. split; [exact B|]. split; [exact H1|].
      intros c' I. apply in_app_or in I as [I|[<-|[]]]; [now apply H2|]. lia.
Qed.
Lemma flatten name scopes : forall st, fold_left (fun st s => fold_left (consider name) s st) scopes st = fold_left (consider name) (concat scopes) st.
Proof. induction scopes as [|s scopes IH]; intros st; [reflexivity|]. cbn [fold_left concat]. now rewrite IH, fold_left_app. Qed.
Lemma suggest_flat scopes funcs name : suggest_similar_name scopes funcs name = fst (fold_left (consider name) (concat scopes ++ funcs) (None, 3)).
Proof. unfold suggest_similar_name. now rewrite flatten, fold_left_app. Qed.

(** A suggested name is one of the names there are, one or two edits away, and
    no other different name is nearer; of several it is the first, names in
    inner scopes before names in outer ones and these before functions. *)
Theorem suggestion_nearest scopes funcs name c : suggest_similar_name scopes funcs name = Some c ->
  exists before after n, concat scopes ++ funcs = before ++ c :: after /\ distance name c n /\ (1 <= n <= 2)%nat /\
    (forall c' m, In c' (concat scopes ++ funcs) -> c' <> name -> distance name c' m -> (n <= m)%nat) /\
    (forall c' m, In c' before -> c' <> name -> distance name c' m -> (n < m)%nat).
Proof.
  rewrite suggest_flat. destruct (consider_all name (concat scopes ++ funcs)) as [[E _]|(l1 & x & l2 & E & F & B & H1 & H2)]; [rewrite E; discriminate|].
  rewrite F. cbn [fst]. intros Q. injection Q as ->. exists l1, l2, (ed name c). rewrite !lev_ed in *.
  assert (NZ : forall c' m, c' <> name -> distance name c' m -> levenshtein name c' = Z.of_nat m /\ m <> 0%nat).
  { intros c' m N D. split; [now apply distance_exact|]. intros ->. apply zero_same in D. now elim N. }
  split; [exact E|]. split; [apply ed_distance|]. split; [lia|]. split.
  - intros c' m I N D. destruct (NZ _ _ N D) as [L Z]. rewrite E in I. apply in_app_or in I as [I|[<-|I]].
    + apply H1 in I. lia.
    + rewrite lev_ed in L. lia.
    + apply H2 in I. lia.
  - intros c' m I N D. destruct (NZ _ _ N D) as [L Z]. apply H1 in I. lia.
Qed.
Print Assumptions suggestion_nearest.
(** If nothing is suggested, every other name is three or more edits away. *)
Theorem no_suggestion scopes funcs name c n : suggest_similar_name scopes funcs name = None -> In c (concat scopes ++ funcs) -> c <> name ->
  distance name c n -> (3 <= n)%nat.
Proof.
  rewrite suggest_flat. destruct (consider_all name (concat scopes ++ funcs)) as [[_ N]|(l1 & x & l2 & E & F & B & H1 & H2)]; [|rewrite F; discriminate].
  intros _ I Ne D. apply N in I. apply distance_exact in D as L. assert (n <> 0%nat) by (intros ->; apply zero_same in D; now elim Ne). lia.
Qed.
Print Assumptions no_suggestion.

(** Cases. *)
Example kitten : levenshtein (bs "kitten") (bs "sitting") = 3 /\ levenshtein (bs "") (bs "abc") = 3 /\ levenshtein (bs "flaw") (bs "lawn") = 2.
Proof. repeat split; vm_compute; reflexivity. Qed.
Example suggested : suggest_similar_name [[bs "count"; bs "coutn"]; [bs "conut"]] [bs "main"] (bs "cont") = Some (bs "count")
  /\ suggest_similar_name [[bs "alpha"]] [bs "main"] (bs "zzz") = None.
Proof. split; vm_compute; reflexivity. Qed.
