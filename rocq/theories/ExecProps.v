(** C133, C134: running another program. *)
From Verif Require Import Base ExecSpec ExecModel ExecProofs ExecProofs2.

(** C133.  Whatever the order in which the program and the command run, and
    however little a pipe holds, the answer is all that the command said on its
    two outputs with its exit code; it is a failure exactly when the command said
    more than 64 MiB on one of them or its code is 127.  No interrupt. *)
Theorem exec_exact_partial : forall room c l s r, reaches room (init c) l s -> ~ In Interrupt l -> ph s = PRet r ->
  r = granted (64 * 1024 * 1024) c.
Proof.
  intros room c l s r R N P. destruct (reaches_inv c room l s N R) as [(_ & [O|O] & _ & _ & _ & F)|(_ & _ & _ & _ & _ & I)].
  - rewrite (F r P). unfold granted. fold (len (said Out (acts c))) (len (said Err (acts c))). change (64 * 1024 * 1024) with GRAY_EXEC_OUTPUT_MAX.
    assert (GRAY_EXEC_OUTPUT_MAX <? len (said Out (acts c)) = true) as -> by lia. reflexivity.
  - rewrite (F r P). unfold granted. fold (len (said Out (acts c))) (len (said Err (acts c))). change (64 * 1024 * 1024) with GRAY_EXEC_OUTPUT_MAX.
    assert (GRAY_EXEC_OUTPUT_MAX <? len (said Err (acts c)) = true) as -> by lia. rewrite orb_true_r. reflexivity.
  - rewrite P in I. apply I.
Qed.
(** With interrupts too: nothing is written past the end of a buffer, and what
    is given of an output is a beginning of what the command said on it. *)
Theorem exec_prefix : forall room c l s, reaches room (init c) l s ->
  bad s = false /\
  forall k o e, ph s = PRet (Ran k o e) -> (exists z, o ++ z = said Out (acts c)) /\ (exists z, e ++ z = said Err (acts c)).
Proof.
  intros room c l s R. split; [apply (reaches_safe c room l s R)|].
  intros k o e P. destruct (reaches_parts c room l s R) as (_ & _ & H). apply (H _ P).
Qed.

Fixpoint play (room : Z) (s : st) (l : list event) : option st :=
  match l with [] => Some s | e :: l => match step room s e with Some s => play room s l | None => None end end.
Lemma play_reaches room l : forall s s', play room s l = Some s' -> reaches room s l s'.
Proof.
  induction l as [|e l IH]; intros s s'; cbn. { intros [= <-]. constructor. }
  destruct (step room s e) eqn:E; [|discriminate]. intros H. econstructor; eauto.
Qed.
Definition returned (o : option st) : option result := match o with Some s => match ph s with PRet r => Some r | _ => None end | None => None end.
Lemma returned_reaches room c l r : returned (play room (init c) l) = Some r -> exists s, reaches room (init c) l s /\ ph s = PRet r.
Proof.
  destruct (play room (init c) l) as [s|] eqn:E; cbn; [|discriminate]. intros H. exists s. split; [now apply play_reaches|].
  destruct (ph s); congruence.
Qed.
Definition talk : command := Command [Put Out (bs "ab"); Put Err (bs "no")] (Exited 3).
Example exec_exact_live : returned (play 1 (init talk)
  [Child 2; Parent; Parent; Parent; Child 5; Parent; Parent; Parent; Child 1; Child 5; Parent; Parent; Parent; Child 1; Parent; Parent; Parent;
   Child 1; Child 1; Parent; Parent; Parent; Parent; Parent]) = Some (Ran 3 (bs "ab") (bs "no")).
Proof. vm_compute. reflexivity. Qed.
(** The documentation promises the outputs and the code of every command that
    ran.  A signal that arrives while the program waits breaks it, and so does a
    command that ends with 127. *)
Theorem exec_exact_refuted :
  (exists room c l s r, reaches room (init c) l s /\ ph s = PRet r /\ r = Ran 141 (bs "a") [] /\ promised c = Ran 0 (bs "ab") []) /\
  (exists room c l s, reaches room (init c) l s /\ ~ In Interrupt l /\ ph s = PRet Failed /\ promised c = Ran 127 (bs "ab") []).
Proof.
  split.
  - destruct (returned_reaches 100 (Command [Put Out (bs "ab")] (Exited 0))
      [Child 1; Parent; Parent; Parent; Interrupt; Child 1; Parent] (Ran 141 (bs "a") [])) as (s & R & P).
    { vm_compute. reflexivity. }
    do 5 eexists. repeat split; eauto.
  - destruct (returned_reaches 100 (Command [Put Out (bs "ab")] (Exited 127))
      [Child 2; Child 1; Child 1; Parent; Parent; Parent; Parent; Parent; Parent; Parent; Parent] Failed) as (s & R & P).
    { vm_compute. reflexivity. }
    do 4 eexists. repeat split; eauto. cbn. intuition discriminate.
Qed.

(** C134.  The call returns: no schedule goes on for ever, with a bound read off
    the command, and while the call has not returned the command or the program
    can go on, however small the pipes and whatever was interrupted; so a run
    that cannot go on has returned, and every run can be led to a return. *)
Theorem exec_returns : forall room c l s, 0 < room -> reaches room (init c) l s ->
  (length l <= list_sum (map (fun a => match a with Put _ b => 10 + 10 * length b | Shut _ => 10 end) (acts c)) + 24)%nat /\
  ((forall r, ph s <> PRet r) -> exists e s', e <> Interrupt /\ step room s e = Some s') /\
  exists l' s' r, reaches room s l' s' /\ ~ In Interrupt l' /\ ph s' = PRet r.
Proof.
  intros room c l s Rm R. pose proof (reaches_live c room l s R) as L. split; [|split].
  - pose proof (reaches_size room _ _ _ R) as S.
    assert (size (init c) = todo_size (acts c) + 24)%nat as E by (unfold size; cbn; change (todo_size (acts c) + 5 + 5 + 10 + 4 = todo_size (acts c) + 24)%nat; lia).
    unfold todo_size in E. change (fun a => match a with Put _ b => 10 + 10 * length b | Shut _ => 10 end)%nat with act_size. lia.
  - now apply live_moves.
  - now apply finish.
Qed.
(** A command that fills the pipe of its error output first. *)
Example exec_returns_live : returned (play 2 (init (Command [Put Err (bs "abc"); Put Out (bs "x")] (Signaled 6)))
  [Child 9; Parent; Parent; Parent; Child 9; Child 1; Child 1; Child 1; Child 1; Parent; Parent; Parent; Parent; Parent; Parent; Parent; Parent])
  = Some (Ran 134 (bs "x") (bs "abc")).
Proof. vm_compute. reflexivity. Qed.

Print Assumptions exec_exact_partial.
Print Assumptions exec_prefix.
Print Assumptions exec_exact_refuted.
Print Assumptions exec_returns.
