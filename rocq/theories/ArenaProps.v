(** C38, C39, C88: arenas. *)
From Verif Require Import Base BaseFacts ArenaSpec ArenaModel ArenaProofs ArenaProofs2.

Definition start (n : Z) (junk : nat -> Z -> Z) : state := St (create n junk) [].
Definition sizes (h : list (op * bool)) : Prop := Forall (fun x => match fst x with Alloc n => 0 <= n <= 2 ^ 62 | _ => True end) h.
Lemma sizes_ok h : sizes h -> Forall (fun x => size_ok (fst x)) h.
Proof. apply Forall_impl. intros [[] ]; cbn; auto. Qed.

(** C38.  A program that never asks for more than 2^62 bytes at once, on an arena of at most that block size:
    nothing undefined happens, and after any history its live allocations are disjoint, aligned, inside one
    block that has not been returned, and hold what the program stored in them (zero where it stored nothing). *)
Theorem arena_allocations_partial n junk h s ls : 0 <= n <= 2 ^ 62 -> sizes h ->
  run (start n junk) fresh h = Some (Ok (s, ls)) ->
  ForallOrdPairs disjoint (live ls) /\
  Forall (fun al => 0 <= off al /\ off al mod 8 = 0 /\
            (exists b, nth_error (blocks (ar s)) (blk al) = Some b /\ freed b = false /\ off al + len al <= size b) /\
            forall i, 0 <= i < len al -> mem (ar s) (blk al) (off al + i) = contents al i) (live ls).
Proof.
  intros H S R. pose proof (run_good h (start n junk) fresh (or_introl (ex_intro _ _ (ex_intro _ _ (inv_weaken _ _ _ _ (start_inv n junk H))))) (sizes_ok h S)) as G.
  rewrite R in G. destruct G as [(ch & cur & I)|D].
  - split.
    + pose proof (i_apart _ _ _ _ _ I) as A. pose proof (i_placed _ _ _ _ _ I) as P. revert A P. generalize (live ls). clear.
      induction 1 as [|a l F Q IH]; intros P; constructor.
      * rewrite Forall_forall in *. intros b Hb. specialize (F b Hb). destruct (P a (or_introl eq_refl)) as (_ & _ & _ & _ & L & _).
        pose proof (round8_bound (len a) L). destruct F as [F|F]; [now left|right; left; lia].
      * apply IH. intros al Hal. apply P. now right.
    + apply Forall_forall. intros al Hal. destruct (i_placed _ _ _ _ _ I al Hal) as (P1 & P2 & P3 & P4 & P5 & P6).
      destruct (path_in _ _ _ _ (i_path _ _ _ _ _ I) P1) as (b & E & Fb). split; [exact P3|]. split; [exact P4|]. split.
      * exists b. split; [exact E|]. split; [exact Fb|]. destruct (i_fine _ _ _ _ _ I _ b E) as (F1 & _). unfold usedat in P6. rewrite E in P6.
        pose proof (round8_bound (len al) P5). lia.
      * apply (i_mem _ _ _ _ _ I al Hal).
  - rewrite (d_live _ _ D). split; constructor.
Qed.

(** The only ways such a history can end early: malloc fails, or an arena that was destroyed is used or destroyed again. *)
Lemma run_panics h : forall s ls c, good false s ls -> Forall (fun x => size_ok (fst x)) h -> run s ls h = Some (Panic c) ->
  exists h1 o ok h2, h = h1 ++ (o, ok) :: h2 /\
    ((c = 0 /\ (exists n, o = Alloc n) /\ ok = false) \/
     (((c = 1 /\ exists n, o = Alloc n) \/ (c = 2 /\ o = Destroy)) /\ (dead s ls \/ exists ok', In (Destroy, ok') h1))).
Proof.
  induction h as [|[o ok] h IH]; intros s ls c G F R; cbn [run] in R; [easy|]. inversion_clear F as [|? ? F1 F2]. cbn in F1.
  destruct G as [(ch & cur & I)|D].
  - destruct (exec_alive false s ls ch cur o ok I F1) as [E|[(E & E2)|(s' & p & E & H)]]; rewrite E in R.
    + injection R as <-. exists [], o, ok, h. split; [reflexivity|]. left. split; [reflexivity|].
      destruct o; cbn [exec] in E.
      * split; [eauto|]. destruct ok; [|reflexivity]. destruct (step_alloc false s ls ch cur n true I F1) as [[_ K]|(a & q & ? & ? & K & _)]; [exact K|].
        rewrite K in E. destruct q. discriminate.
      * destruct (step_save _ _ _ _ _ I) as (? & K & _). rewrite K in E. discriminate.
      * destruct (scopes ls) as [|n0 ns] eqn:Sc; [pose proof (i_marks _ _ _ _ _ I) as M; rewrite Sc in M; destruct (marks s); easy|].
        destruct (step_restore _ _ _ _ _ n0 ns I Sc) as (m & ms & a & cur' & K1 & K2 & _). rewrite K1, K2 in E. discriminate.
      * unfold arena_reset in E. destruct (clear_chain_ok (S (length (blocks (ar s)))) (ar s) (first (ar s)) _ (i_path _ _ _ _ _ I) (sorted_nodup _ (i_sorted _ _ _ _ _ I))) as (a1 & C & _).
        { pose proof (path_length _ _ _ (i_path _ _ _ _ _ I) (sorted_nodup _ (i_sorted _ _ _ _ _ I))). lia. }
        rewrite C in E. discriminate.
      * destruct (step_destroy _ _ _ _ _ I) as (a & K & _). rewrite K in E. discriminate.
      * destruct (nth_error (live ls) k); discriminate.
    + rewrite E2 in R. discriminate.
    + destruct (live_step ls o p) as [ls'|] eqn:E3; [|discriminate]. destruct (H ls' eq_refl) as (G' & _ & HD).
      destruct (IH s' ls' c G' F2 R) as (h1 & o' & ok' & h2 & -> & K). exists ((o, ok) :: h1), o', ok', h2. split; [reflexivity|].
      destruct K as [K|[K1 K2]]; [now left|]. right. split; [exact K1|]. right. destruct K2 as [K2|(z & K2)]; [|exists z; now right].
      (* only a destroy makes an arena dead *)
      destruct o; try (exists ok; now left); exfalso.
      all: pose proof (i_alive _ _ _ _ _ I) as AL; pose proof (d_flag _ _ K2) as DF; cbn [exec] in E.
      * destruct (step_alloc false s ls ch cur n ok I F1) as [[A _]|(a & q & ch' & cur' & A & J & _)]; rewrite A in E; [discriminate|].
        destruct q. injection E as <- <-. pose proof (i_alive _ _ _ _ _ J). cbn in *. congruence.
      * destruct (step_save _ _ _ _ _ I) as (? & A & _). rewrite A in E. injection E as <- <-. cbn in DF. congruence.
      * destruct (scopes ls) as [|n0 ns] eqn:Sc; [pose proof (i_marks _ _ _ _ _ I) as M; rewrite Sc in M; destruct (marks s); easy|].
        destruct (step_restore _ _ _ _ _ n0 ns I Sc) as (m & ms & a & cur' & A1 & A2 & J). rewrite A1, A2 in E. injection E as <- <-.
        pose proof (i_alive _ _ _ _ _ J). cbn in *. congruence.
      * cbn [live_step] in E3. destruct (scopes ls) eqn:Sc; [|discriminate]. destruct (step_reset _ _ _ _ _ I Sc) as (a & cur' & A & J).
        rewrite A in E. injection E as <- <-. pose proof (i_alive _ _ _ _ _ J). cbn in *. congruence.
      * destruct (nth_error (live ls) k); [|discriminate]. injection E as <- <-. cbn in DF. congruence.
  - pose proof (exec_dead s ls o ok D) as H. destruct o; cbn beta iota in H.
    1: { rewrite H in R. injection R as <-. exists [], (Alloc n), ok, h. split; [reflexivity|]. right. split; [left; eauto|now left]. }
    4: { rewrite H in R. injection R as <-. exists [], Destroy, ok, h. split; [reflexivity|]. right. split; [right; auto|now left]. }
    4: { destruct H as [E1 E2]. rewrite E1, E2 in R. discriminate. }
    all: destruct H as [(E1 & E2)|(s' & p & E1 & H)]; [rewrite E1, E2 in R; discriminate|]; rewrite E1 in R.
    all: destruct (live_step _ _ _) as [ls'|] eqn:E; [|discriminate].
    all: destruct (IH s' ls' c (or_intror (H _ eq_refl)) F2 R) as (h1 & o' & ok' & h2 & -> & K); eexists (_ :: h1), o', ok', h2; split; [reflexivity|].
    all: destruct K as [K|[K1 K2]]; [now left|right; split; [exact K1|now left]].
Qed.
Theorem arena_outcomes_partial n junk h r : 0 <= n <= 2 ^ 62 -> sizes h -> run (start n junk) fresh h = Some r ->
  match r with
  | Ok _ => True
  | Panic c => exists h1 o ok h2, h = h1 ++ (o, ok) :: h2 /\
      ((c = 0 /\ (exists n, o = Alloc n) /\ ok = false) \/
       (c = 1 /\ (exists n, o = Alloc n) /\ exists ok', In (Destroy, ok') h1) \/
       (c = 2 /\ o = Destroy /\ exists ok', In (Destroy, ok') h1))
  | UB | NoFuel => False
  end.
Proof.
  intros H S R. pose proof (or_introl (ex_intro _ _ (ex_intro _ _ (inv_weaken _ _ _ _ (start_inv n junk H)))) : good false (start n junk) fresh) as G.
  pose proof (run_good h _ _ G (sizes_ok h S)) as K. rewrite R in K. destruct r as [x|c| |]; try exact K; [exact Logic.I|].
  destruct (run_panics h _ _ c G (sizes_ok h S) R) as (h1 & o & ok & h2 & E & Q). exists h1, o, ok, h2. split; [exact E|].
  assert (ND : ~ dead (start n junk) fresh) by (intros [F _ _ _]; discriminate).
  destruct Q as [Q|[[[Q1 Q2]|[Q1 Q2]] [Q3|Q3]]]; [left; exact Q|tauto|right; left; auto|tauto|right; right; auto].
Qed.
(** After a destroy, allocating, destroying again or touching an old allocation never succeeds. *)
Lemma run_dead h : forall s ls s' ls', dead s ls -> run s ls h = Some (Ok (s', ls')) ->
  Forall (fun x => match fst x with Alloc _ | Destroy | Write _ _ _ => False | _ => True end) h.
Proof.
  induction h as [|[o ok] h IH]; intros s ls s' ls' D R; constructor; cbn [run] in R; pose proof (exec_dead s ls o ok D) as H.
  - cbn. destruct o; try exact Logic.I; try (rewrite H in R; discriminate). destruct H as [E1 E2]. rewrite E1, E2 in R. discriminate.
  - destruct o; try (rewrite H in R; discriminate); try (destruct H as [E1 E2]; rewrite E1, E2 in R; discriminate).
    all: destruct H as [(E1 & E2)|(s1 & p & E1 & H)]; [rewrite E1, E2 in R; discriminate|]; rewrite E1 in R.
    all: destruct (live_step _ _ _) as [ls1|] eqn:E; [|discriminate]; eapply IH; [apply H; reflexivity|exact R].
Qed.
Lemma run_app h1 h2 : forall s ls, run s ls (h1 ++ h2) = match run s ls h1 with Some (Ok (s', ls')) => run s' ls' h2 | r => r end.
Proof.
  induction h1 as [|[o ok] h1 IH]; intros s ls; cbn [run app]; [reflexivity|].
  destruct (exec s ls o ok) as [[s' p]|c| |]; try reflexivity; destruct (live_step _ _ _); try reflexivity. apply IH.
Qed.
Theorem arena_destroyed_unusable_partial n junk h1 ok h2 r : 0 <= n <= 2 ^ 62 -> sizes (h1 ++ h2) ->
  run (start n junk) fresh (h1 ++ (Destroy, ok) :: h2) = Some (Ok r) ->
  Forall (fun x => match fst x with Alloc _ | Destroy | Write _ _ _ => False | _ => True end) h2.
Proof.
  intros H S R. apply Forall_app in S. destruct S as [S1 S2].
  pose proof (or_introl (ex_intro _ _ (ex_intro _ _ (inv_weaken _ _ _ _ (start_inv n junk H)))) : good false (start n junk) fresh) as G.
  rewrite run_app in R. pose proof (run_good h1 _ _ G (sizes_ok h1 S1)) as K.
  destruct (run (start n junk) fresh h1) as [[[s1 ls1]|c| |]|]; try discriminate. cbn [run] in R.
  destruct K as [(ch & cur & I)|D].
  - destruct (exec_alive false s1 ls1 ch cur Destroy ok I Logic.I) as [E|[(E & E2)|(s' & p & E & HH)]]; rewrite E in R; [discriminate|rewrite E2 in R; discriminate|].
    cbn [live_step] in R, HH. destruct (HH _ eq_refl) as (_ & _ & D). destruct r as [s2 ls2]. eapply run_dead; [apply D; reflexivity|exact R].
  - pose proof (exec_dead s1 ls1 Destroy ok D) as E. cbn beta iota in E. rewrite E in R. discriminate.
Qed.

(** A size within 7 of 2^64 is rounded up to 0: two such allocations (here with a third) get one address. *)
Theorem arena_allocations_refuted : exists n junk h s ls, run (start n junk) fresh h = Some (Ok (s, ls)) /\
  exists a b, live ls = [a; b] /\ blk a = blk b /\ off a = off b /\ 0 < len a /\ 0 < len b.
Proof.
  exists 64, (fun _ _ => 0), [(Alloc (2 ^ 64 - 1), true); (Alloc 8, true)].
  eexists _, _. split; [vm_compute; reflexivity|]. eexists _, _. split; [reflexivity|]. cbn. repeat split; lia.
Qed.

Definition demo : list (op * bool) :=
  [(Alloc 5, true); (Write 0 2 77, true); (Save, true); (Alloc 30, true); (Alloc 1, true); (Restore, true); (Alloc 9, true); (Write 1 8 3, true); (Alloc 0, true); (Alloc 100, true)].
Definition demo_view (r : option (res (state * lives))) :=
  match r with
  | Some (Ok (s, ls)) => Some (map (fun a => (blk a, off a, len a)) (live ls), mem (ar s) 0 2, length (blocks (ar s)))
  | _ => None
  end.
Example arena_demo : sizes demo /\
  demo_view (run (start 32 (fun _ _ => 255)) fresh demo) = Some ([(0%nat, 0, 5); (0%nat, 8, 9); (0%nat, 24, 0); (3%nat, 0, 100)], 77, 4%nat).
Proof. split; [repeat constructor; discriminate|vm_compute; reflexivity]. Qed.
Example arena_demo_panics : run (start 8 (fun _ _ => 0)) fresh [(Alloc 1, true); (Alloc 1, false)] = Some (Panic 0) /\
  run (start 8 (fun _ _ => 0)) fresh [(Destroy, true); (Alloc 1, true)] = Some (Panic 1) /\
  run (start 8 (fun _ _ => 0)) fresh [(Destroy, true); (Destroy, true)] = Some (Panic 2) /\
  exists r, run (start 8 (fun _ _ => 0)) fresh [(Alloc 3, true); (Destroy, true); (Reset, true)] = Some (Ok r).
Proof. repeat split; try (vm_compute; reflexivity). eexists. vm_compute. reflexivity. Qed.

(** C39.  Without resets and scope exits, destroy returns every block; and (arena_outcomes_partial: never UB, where
    touching or freeing a freed block is UB) in no history is a block returned twice. *)
Theorem arena_destroy_partial n junk h ok s ls : 0 <= n <= 2 ^ 62 -> sizes h ->
  Forall (fun x => match fst x with Restore | Reset | Destroy => False | _ => True end) h ->
  run (start n junk) fresh (h ++ [(Destroy, ok)]) = Some (Ok (s, ls)) ->
  Forall (fun b => freed b = true) (blocks (ar s)).
Proof.
  intros H S N R. rewrite run_app in R.
  assert (F : Forall (fun x => size_ok (fst x) /\ no_rewind (fst x)) h).
  { apply Forall_forall. intros x Hx. rewrite Forall_forall in N. split; [apply (proj1 (Forall_forall _ _) (sizes_ok h S) x Hx)|].
    specialize (N x Hx). destruct x as [[] ]; exact N. }
  pose proof (run_simple h _ _ _ _ (start_inv n junk H) F) as K. fold (start n junk) in K.
  destruct (run (start n junk) fresh h) as [[[s1 ls1]|c| |]|]; try discriminate. destruct K as (ch & cur & I). cbn [run exec] in R.
  destruct (step_destroy _ _ _ _ _ I) as (a & E & _ & Fr & L). rewrite E in R. cbn in R. injection R as <- <-. cbn [ar].
  destruct (i_simple _ _ _ _ _ I eq_refl) as (-> & _). apply Forall_forall. intros b Hb. apply In_nth_error in Hb. destruct Hb as (i & Ei).
  apply (Fr i b); [|exact Ei]. apply in_seq. split; [lia|]. cbn. rewrite <- L. apply nth_error_Some. congruence.
Qed.
(** The block of a second allocation after a reset takes the place of the old second block, which is lost. *)
Theorem arena_destroy_refuted : exists n junk h s ls, sizes h /\ run (start n junk) fresh (h ++ [(Destroy, true)]) = Some (Ok (s, ls)) /\
  exists b, In b (blocks (ar s)) /\ freed b = false.
Proof.
  exists 8, (fun _ _ => 0), [(Alloc 8, true); (Alloc 8, true); (Reset, true); (Alloc 8, true); (Alloc 8, true)].
  eexists _, _. split; [repeat constructor; discriminate|]. split; [vm_compute; reflexivity|]. eexists. cbn [ar blocks]. split; [right; left; reflexivity|reflexivity].
Qed.
Theorem arena_destroy_scope_refuted : exists n junk h s ls, sizes h /\ run (start n junk) fresh (h ++ [(Destroy, true)]) = Some (Ok (s, ls)) /\
  exists b, In b (blocks (ar s)) /\ freed b = false.
Proof.
  exists 8, (fun _ _ => 0), [(Alloc 8, true); (Save, true); (Alloc 8, true); (Restore, true); (Alloc 8, true)].
  eexists _, _. split; [repeat constructor; discriminate|]. split; [vm_compute; reflexivity|]. eexists. cbn [ar blocks]. split; [right; left; reflexivity|reflexivity].
Qed.
Example arena_destroy_demo : exists r, run (start 8 (fun _ _ => 0)) fresh ([(Alloc 8, true); (Save, true); (Alloc 8, true); (Write 1 3 4, true); (Alloc 50, true)] ++ [(Destroy, true)]) = Some (Ok r) /\
  length (blocks (ar (fst r))) = 3%nat.
Proof. eexists. split; vm_compute; reflexivity. Qed.

(** C88.  mem.usage is the sum of the rounded sizes of the live allocations (as a size_t). *)
Theorem arena_usage_partial n junk h s ls : 0 <= n <= 2 ^ 62 -> sizes h ->
  run (start n junk) fresh h = Some (Ok (s, ls)) ->
  arena_usage (ar s) = Ok (total (live ls) mod 2 ^ 64).
Proof.
  intros H S R. pose proof (run_good h (start n junk) fresh (or_introl (ex_intro _ _ (ex_intro _ _ (inv_weaken _ _ _ _ (start_inv n junk H))))) (sizes_ok h S)) as G.
  rewrite R in G. destruct G as [(ch & cur & I)|D].
  - unfold arena_usage. change 0 with (wrap_u 64 0). rewrite (sum_chain_ok _ _ _ ch 0 (i_path _ _ _ _ _ I)).
    + rewrite (i_total _ _ _ _ _ I). reflexivity.
    + pose proof (path_length _ _ _ (i_path _ _ _ _ _ I) (sorted_nodup _ (i_sorted _ _ _ _ _ I))). lia.
  - rewrite (d_live _ _ D). unfold arena_usage. destruct (d_ptrs _ _ D) as [-> _]. reflexivity.
Qed.
Example arena_usage_demo : match run (start 32 (fun _ _ => 255)) fresh demo with Some (Ok (s, _)) => arena_usage (ar s) = Ok 128 | _ => False end.
Proof. vm_compute. reflexivity. Qed.
(** mem.arena: sizes up to 1 GiB are accepted, others end the program; a size that is not positive means 4096. *)
Theorem mem_arena_limit n junk : mem_arena n junk = (if n <=? 0 then Ok (create 4096 junk) else if n <=? 2 ^ 30 then Ok (create n junk) else Panic 61).
Proof.
  unfold mem_arena. change (2 ^ 30) with 1073741824. destruct (n <=? 0) eqn:E; [reflexivity|]. destruct (1073741824 <? n) eqn:E2, (n <=? 1073741824) eqn:E3; try reflexivity; lia.
Qed.

Print Assumptions arena_allocations_partial. Print Assumptions arena_outcomes_partial. Print Assumptions arena_destroyed_unusable_partial.
Print Assumptions arena_allocations_refuted. Print Assumptions arena_destroy_partial. Print Assumptions arena_destroy_refuted.
Print Assumptions arena_destroy_scope_refuted. Print Assumptions arena_usage_partial. Print Assumptions mem_arena_limit.
