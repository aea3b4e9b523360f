(** C149: for_each. *)
From Verif Require Import Base EachSpec EachModel.

Lemma exec_frozen b : forall s, (forall l, ~ In (Assign l) b) -> 0 < guard s ->
  exec b s = (St (items s) (guard s) (out s ++ fst (turn true b)), snd (turn true b)).
Proof.
  induction b as [|a b IH]; intros s N G; [cbn; rewrite app_nil_r; now destruct s|].
  assert (N' : forall l, ~ In (Assign l) b) by (intros l I; apply (N l); now right).
  destruct a as [z|z|l| |]; cbn [exec turn].
  - rewrite IH by auto. cbn. destruct (turn true b) as [o e]. cbn. now rewrite <- app_assoc.
  - replace (0 <? guard s) with true by lia. cbn. rewrite app_nil_r. now destruct s.
  - exfalso. apply (N l). now left.
  - cbn. rewrite app_nil_r. now destruct s.
  - cbn. rewrite app_nil_r. now destruct s.
Qed.
Lemma exec_free b : forall s, guard s <= 0 -> guard (fst (exec b s)) <= 0 /\ out (fst (exec b s)) = out s ++ fst (turn false b) /\ snd (exec b s) = snd (turn false b).
Proof.
  induction b as [|a b IH]; intros s G; [cbn; rewrite app_nil_r; auto|]. destruct a as [z|z|l| |]; cbn [exec turn].
  - destruct (IH (St (items s) (guard s) (out s ++ [z])) G) as (A & B & C). cbn in B. destruct (turn false b) as [o e]. cbn in *. rewrite B, <- app_assoc. auto.
  - replace (0 <? guard s) with false by lia. exact (IH (St (items s ++ [z]) (guard s) (out s)) G).
  - exact (IH (St l 0 (out s)) ltac:(cbn; lia)).
  - cbn. rewrite app_nil_r. auto.
  - cbn. rewrite app_nil_r. auto.
Qed.
Lemma loop_frozen body : never_assigns body -> forall l pre s, items s = pre ++ l -> 0 < guard s ->
  loop (fun s i => nth_error (items s) i) body (length l) (length pre) s = (St (items s) (guard s) (out s ++ fst (visit true body (length pre) l)), snd (visit true body (length pre) l)).
Proof.
  intros NA. induction l as [|x l IH]; intros pre s I G; [cbn; rewrite app_nil_r; now destruct s|]. cbn [length loop visit].
  rewrite I at 1. rewrite nth_error_app2, Nat.sub_diag by lia. cbn [nth_error]. rewrite exec_frozen by (auto; apply NA).
  destruct (turn true (body (length pre) x)) as [o e]. cbn [fst snd]. destruct e; try reflexivity.
  pose proof (IH (pre ++ [x]) (St (items s) (guard s) (out s ++ o))) as K. rewrite app_length in K. cbn [length items guard out] in K. rewrite Nat.add_1_r in K. rewrite K; [|rewrite I, <- app_assoc; reflexivity|exact G].
  destruct (visit true body (S (length pre)) l) as [o' e']. cbn. now rewrite <- app_assoc.
Qed.
Lemma loop_free read body (l : list Z) : (forall s i, read s i = nth_error l i) -> forall t pre s, l = pre ++ t -> guard s <= 0 ->
  out (fst (loop read body (length t) (length pre) s)) = out s ++ fst (visit false body (length pre) t) /\ snd (loop read body (length t) (length pre) s) = snd (visit false body (length pre) t).
Proof.
  intros R. induction t as [|x t IH]; intros pre s L G; [cbn; rewrite app_nil_r; auto|]. cbn [length loop visit]. rewrite R, L, nth_error_app2, Nat.sub_diag by lia. cbn [nth_error].
  destruct (exec_free (body (length pre) x) s G) as (A & B & C). destruct (exec (body (length pre) x) s) as [s' e']. destruct (turn false (body (length pre) x)) as [o e]. cbn in A, B, C. subst e'. destruct e; cbn [fst snd]; auto.
  pose proof (IH (pre ++ [x]) s') as K. rewrite app_length in K. cbn [length] in K. rewrite Nat.add_1_r in K. destruct K as [K1 K2]; [rewrite L, <- app_assoc; reflexivity|exact A|].
  rewrite K1, K2, B. destruct (visit false body (S (length pre)) t) as [o' e']. cbn. now rewrite <- app_assoc.
Qed.
(** C149.  A for_each over an array variable that its body does not assign visits
    the elements the array had, in order, each once with its number, until a
    break; a body that changes the array panics; afterwards the array and its
    guard are what they were. *)
Theorem each_variable_partial : forall body s, never_assigns body -> 0 <= guard s ->
  let (s', e) := each_variable body s in
  out s' = out s ++ fst (visit true body 0 (items s)) /\ e = snd (visit true body 0 (items s)) /\ items s' = items s /\ (e = Fall -> guard s' = guard s).
Proof.
  intros body s NA G. unfold each_variable. cbv zeta. pose proof (loop_frozen body NA (items s) [] (St (items s) (guard s + 1) (out s)) eq_refl ltac:(cbn; lia)) as L. cbn [length items guard out] in L. rewrite L.
  destruct (visit true body 0 (items s)) as [o e]. cbn [fst snd]. destruct e; cbn; repeat split; auto; try lia; try discriminate.
Qed.
(** Over a literal or the result of a call: whatever the body does to a variable. *)
Theorem each_temporary_visits : forall l body s, guard s <= 0 ->
  let (s', e) := each_temporary l body s in out s' = out s ++ fst (visit false body 0 l) /\ e = snd (visit false body 0 l).
Proof. intros l body s G. unfold each_temporary. pose proof (loop_free (fun _ i => nth_error l i) body l ltac:(reflexivity) l [] s eq_refl G) as K. cbn [length] in K. destruct (loop _ body (length l) 0 s). exact K. Qed.
(** Over a string: its bytes, if it is ASCII. *)
Theorem each_string_partial : forall str body s, guard s <= 0 -> (forall c, In c str -> 0 <= c < 128) ->
  let (s', e) := each_string str body s in out s' = out s ++ fst (visit false body 0 str) /\ e = snd (visit false body 0 str).
Proof.
  intros str body s G A. unfold each_string.
  pose proof (loop_free (fun _ i => option_map signed (nth_error str i)) body str) as K.
  assert (R : forall (s : st) i, option_map signed (nth_error str i) = nth_error str i).
  { intros _ i. destruct (nth_error str i) as [c|] eqn:N; [|reflexivity]. cbn. f_equal. apply nth_error_In in N. apply A in N. unfold signed, wrap_i. change (2 ^ 8) with 256. change (2 ^ (8 - 1)) with 128. rewrite Z.mod_small by lia. cbv zeta. now replace (c <? 128) with true by lia. }
  destruct (K R str [] s eq_refl G) as [K1 K2]. cbn [length] in *. destruct (loop _ body (length str) 0 s). auto.
Qed.
(** No break and no panic: every element is visited. *)
Theorem visit_all : forall frozen body l i, (forall j x, In x l -> snd (turn frozen (body j x)) = Fall) ->
  visit frozen body i l = (flat_map (fun p => fst (turn frozen (body (fst p) (snd p)))) (combine (seq i (length l)) l), Fall).
Proof.
  intros f body l. induction l as [|x l IH]; intros i H; [reflexivity|]. cbn [visit length seq combine flat_map fst snd]. pose proof (H i x (or_introl eq_refl)) as T. destruct (turn f (body i x)) as [o e]. cbn in T. subst e.
  rewrite IH by (intros j y Y; apply H; now right). reflexivity.
Qed.
(** The missing cases.  Appending in the loop panics (STANDARD.md:1269 says it is
    safe); an assignment in the loop makes it read the new array, which may
    panic or show elements that were not there, and leaves the guard at -1, so
    that the next loop over the variable is not guarded; and a letter outside
    ASCII comes as negative numbers. *)
Theorem each_refuted :
  each_variable (fun i x => [Log x; Push x]) (St [1; 2] 0 []) = (St [1; 2] 1 [1], Die 34) /\
  each_variable (fun i x => [Log x; Assign [9]]) (St [1; 2] 0 []) = (St [9] 0 [1], Die 33) /\
  (let (s, e) := each_variable (fun i x => [Log x; Assign [8; 9]]) (St [1; 2] 0 []) in
   s = St [8; 9] (-1) [1; 9] /\ e = Fall /\ each_variable (fun i x => [Push x]) s = (St [8; 9; 8; 9] (-1) [1; 9], Fall)) /\
  each_string [195; 169] (fun i x => [Log x]) (St [] 0 []) = (St [] 0 [-61; -87], Fall).
Proof. repeat split; vm_compute; reflexivity. Qed.
Example each_case : let body := fun (i : nat) x => if x =? 0 then [Next; Log 7] else if x <? 0 then [Stop] else [Log (Z.of_nat i); Log x] in
  never_assigns body /\ each_variable body (St [5; 0; 6; -1; 7] 0 []) = (St [5; 0; 6; -1; 7] 0 [0; 5; 2; 6], Fall) /\
  visit true body 0 [5; 0; 6; -1; 7] = ([0; 5; 2; 6], Fall) /\ each_string (bs "ab") body (St [] 0 []) = (St [] 0 [0; 97; 1; 98], Fall).
Proof.
  intros body. split; [|repeat split; vm_compute; reflexivity]. intros i x l H. unfold body in H. destruct (x =? 0); [|destruct (x <? 0)]; cbn in H; intuition discriminate.
Qed.
Print Assumptions each_variable_partial.
Print Assumptions each_temporary_visits.
Print Assumptions each_string_partial.
Print Assumptions visit_all.
Print Assumptions each_refuted.
