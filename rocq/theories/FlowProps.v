(** C100-C105: how calls of compiled functions run and end. *)
From Coq Require Import ZArith List Bool Lia.
From Verif Require Import Base FlowSpec FlowModel FlowProofs FlowProofs2 FlowProofs3.
Import ListNotations.
Local Open Scope Z_scope.

(** ** C100: a function with results does not reach its end without one *)

Theorem function_with_results_returns_partial : forall M fuel f n (s : cstate M) w,
  sensible f -> accepted f = true ->
  f_results f <> [] -> f_names f = None -> some_of broken_loop (f_body f) = false ->
  seen f (compiled M fuel f n s) <> Some (Fell w).
Proof.
  intros M fuel f n s w S A R N B E.
  destruct (Z.lt_ge_cases (depth s) MAX_CALL_DEPTH) as [D|D].
  - rewrite (call_seen M fuel f (conj S A) n s D) in E. injection E as E.
    unfold call_late, at_end in E.
    assert (HN : has_named f = false) by (unfold has_named; now rewrite N).
    pose proof (body_leaves M fuel f A R HN B (world s)) as L.
    destruct (body_ends M fuel f (world s)) as [w1|w1|w1|vals w1|w1|]; try discriminate.
    + apply L. exact I.
    + destruct (effects M (rev (ensures f)) w1) as [[] w2]; [|discriminate].
      destruct (values M (results_of f vals) w2) as [[vs|] w3]; discriminate.
  - rewrite too_deep in E by exact D. discriminate.
Qed.
Print Assumptions function_with_results_returns_partial.

(** A machine to run examples on: the pieces below 0 stop the program, those
    below 100 are false, the others are true; the world is the list of pieces run. *)
Definition tape : machine := {|
  W := list Z; V := Z; zero := 0;
  run := fun a w => if a <? 0 then (None, w) else (Some a, w ++ [a]);
  truth := fun v => 100 <=? v;
  matches := fun v p w => (Some (v =? p), w)
|}.
Definition at_start (M : machine) (w : W M) : cstate M :=
  {| world := w; dflt := 0; live := [0]; fresh := 1; depth := 0; guards := [] |}.
Definition start : cstate tape := at_start tape [].
Definition fn results names body : func :=
  {| f_main := false; f_ref := false; f_results := results; f_names := names; f_body := body |}.

(** loop { if x {break} return 1 } is accepted and can end without a value. *)
Definition breaks_out : func :=
  fn [Plain] None [Loop [If 100 [Break] [] None; Return [1] false]].
(** do f() -> (r int) { } is accepted and ends without one. *)
Definition forgets : func := fn [Plain] (Some [Some 5]) [Act 7].

Theorem function_with_results_returns_refuted :
  exists f, sensible f /\ accepted f = true /\ f_results f = [Plain] /\ f_names f = None /\
    exists w, seen f (compiled tape 5 f 0 start) = Some (Fell w).
Proof. exists breaks_out. repeat split. exists [100]. vm_compute. reflexivity. Qed.
Print Assumptions function_with_results_returns_refuted.

Theorem named_result_returns_refuted :
  exists f, sensible f /\ accepted f = true /\ f_results f = [Plain] /\ some_of broken_loop (f_body f) = false /\
    exists w, seen f (compiled tape 5 f 0 start) = Some (Fell w).
Proof. exists forgets. repeat split. exists [7]. vm_compute. reflexivity. Qed.
Print Assumptions named_result_returns_refuted.

(** a body with every kind of statement, and a value on every path *)
Definition busy : func :=
  fn [Copied; Plain] None
    [Ensure 31; Act 10;
     For 11 50 12 [If 101 [Continue] [(20, [Break])] (Some [Act 13])];
     ForEach (Named 3) 14 102 15 16 [When 17 [(18, [Act 19]); (17, [Break])] None];
     Ensure 32;
     While 102 [Break];
     If 40 [Return [41; 42] false]
        [(43, [Return [44; 45] false])]
        (Some [Loop [Act 46; If 103 [Return [47; 48] false] [] None]])].
Example busy_fits : sensible busy /\ accepted busy = true /\ f_results busy <> [] /\ f_names busy = None /\
  some_of broken_loop (f_body busy) = false.
Proof. repeat split; try reflexivity. discriminate. Qed.
Example busy_ends : seen busy (compiled tape 9 busy 0 start) =
  Some (@Done tape [47; 48] [10; 11; 50; 14; 102; 15; 17; 102; 40; 43; 46; 103; 32; 31; 47; 48]).
Proof. vm_compute. reflexivity. Qed.

(** ** C101: the compiled body runs the source's pieces in the source's order *)

Theorem compiled_runs_source : forall M fuel f n (s : cstate M),
  sensible f -> accepted f = true -> ensures f = [] -> depth s < MAX_CALL_DEPTH ->
  seen f (compiled M fuel f n s) = Some (call M fuel f (world s)) /\
  call M fuel f (world s) <> Misplaced.
Proof.
  intros M fuel f n s S A E D. rewrite (call_seen M fuel f (conj S A) n s D).
  rewrite (call_is_late M fuel f (or_introl E)). split; [reflexivity|].
  unfold call, at_end. pose proof (body_placed M fuel f A (world s)) as P.
  destruct (body_ends M fuel f (world s)) as [w|w|w|vals w|w|]; try contradiction; try discriminate.
  - destruct (effects M (rev (ensures f)) w) as [[] w']; [|discriminate]. destruct (f_results f); discriminate.
  - destruct (values M (results_of f vals) w) as [[vs|] w']; [|discriminate].
    destruct (effects M (rev (ensures f)) w') as [[] w2]; discriminate.
Qed.
Print Assumptions compiled_runs_source.

(** A call too deep stops before anything of the body runs. *)
Theorem too_deep_runs_nothing : forall M fuel f n (s : cstate M), MAX_CALL_DEPTH <= depth s ->
  seen f (compiled M fuel f n s) = Some (Halted (world s)).
Proof. intros M fuel f n s D. now rewrite too_deep. Qed.
Print Assumptions too_deep_runs_nothing.

Definition no_ensure : func :=
  fn [Plain] None
    [For 11 101 12 [If 101 [While 102 [Break]; Break] [] None]; When 17 [(17, [Return [5] false])] (Some [Return [6] false])].
Example no_ensure_fits : sensible no_ensure /\ accepted no_ensure = true /\ ensures no_ensure = [] /\
  depth start < MAX_CALL_DEPTH /\
  seen no_ensure (compiled tape 9 no_ensure 0 start) = Some (@Done tape [5] [11; 101; 101; 102; 17; 5]).
Proof. repeat split. Qed.

(** ** C102: ensures run once each, the last one written first, on every exit *)

Theorem ensures_run_on_return : forall M fuel f n (s : cstate (logged M)) w vals k rs s',
  sensible f -> accepted f = true ->
  body_ends (logged M) fuel f (world s) = Leaving vals (w, k) ->
  compiled (logged M) fuel f n s = CReturned rs s' ->
  snd (world s') = k ++ rev (ensures f) ++
                   flat_map (fun x => match x with Some e => [e] | None => [] end) (results_of f vals).
Proof.
  intros M fuel f n s w vals k rs s' S A B C.
  destruct (Z.lt_ge_cases (depth s) MAX_CALL_DEPTH) as [D|D]; [|rewrite too_deep in C by exact D; discriminate].
  pose proof (call_run (logged M) fuel f (conj S A) n s D) as R. unfold call_ok in R. rewrite B in R.
  destruct (effects (logged M) (rev (ensures f)) (w, k)) as [[] w1] eqn:E; [|congruence].
  destruct (values (logged M) (results_of f vals) w1) as [[vs|] w2] eqn:V0; [|congruence].
  destruct R as (rs' & s2 & R1 & _ & R2 & _). rewrite C in R1. injection R1 as <- <-. rewrite R2.
  apply effects_log in E as [E _]. destruct w1 as [w1 k1]. apply values_log in V0. cbn in E.
  rewrite V0, E. now rewrite <- app_assoc.
Qed.
Print Assumptions ensures_run_on_return.

Theorem ensures_run_at_end : forall M fuel f n (s : cstate (logged M)) w k e s',
  sensible f -> accepted f = true ->
  body_ends (logged M) fuel f (world s) = Next (w, k) ->
  compiled (logged M) fuel f n s = CNext e s' ->
  snd (world s') = k ++ rev (ensures f).
Proof.
  intros M fuel f n s w k e s' S A B C.
  destruct (Z.lt_ge_cases (depth s) MAX_CALL_DEPTH) as [D|D]; [|rewrite too_deep in C by exact D; discriminate].
  pose proof (call_run (logged M) fuel f (conj S A) n s D) as R. unfold call_ok in R. rewrite B in R.
  destruct (effects (logged M) (rev (ensures f)) (w, k)) as [[] w1] eqn:E; [|congruence].
  destruct R as (e' & s2 & R1 & R2 & _). rewrite C in R1. injection R1 as _ <-. rewrite R2.
  now apply effects_log in E as [E _].
Qed.
Print Assumptions ensures_run_at_end.

(** A call leaves by a return or at its end; with [ensure]s it does what the
    source says if nothing is returned. *)
Theorem ensures_run_partial : forall M fuel f n (s : cstate M),
  sensible f -> accepted f = true -> f_results f = [] -> depth s < MAX_CALL_DEPTH ->
  seen f (compiled M fuel f n s) = Some (call M fuel f (world s)).
Proof.
  intros M fuel f n s S A E D. rewrite (call_seen M fuel f (conj S A) n s D).
  now rewrite (call_is_late M fuel f (or_intror E)).
Qed.
Print Assumptions ensures_run_partial.

(** With results, the [ensure]s come before the returned values are computed. *)
Theorem ensures_run_late : forall M fuel f n (s : cstate M),
  sensible f -> accepted f = true -> depth s < MAX_CALL_DEPTH ->
  seen f (compiled M fuel f n s) = Some (call_late M fuel f (world s)).
Proof. intros M fuel f n s S A D. now apply call_seen. Qed.
Print Assumptions ensures_run_late.

(** ensure close(x); return read(x): the source reads, the program stops. *)
Definition file : machine := {|
  W := bool; V := Z; zero := 0;
  run := fun a w => if a =? 1 then (Some 0, false)             (* close *)
                    else if w then (Some 65, w) else (None, w);  (* read *)
  truth := fun _ => true;
  matches := fun _ _ w => (Some true, w)
|}.
Definition reads : func := fn [Plain] None [Ensure 1; Return [2] false].
Theorem ensures_run_refuted :
  sensible reads /\ accepted reads = true /\
  call file 1 reads true = @Done file [65] false /\
  seen reads (compiled file 1 reads 0 (at_start file true)) = Some (@Halted file false).
Proof. repeat split. Qed.
Print Assumptions ensures_run_refuted.

Definition logs : func := fn [] None [Ensure 1; Act 5; Ensure 2; If 101 [Return [] false] [] None; Act 6].
Example logs_fits : sensible logs /\ accepted logs = true /\ f_results logs = [] /\ ensures logs = [1; 2] /\
  seen logs (compiled tape 1 logs 0 start) = Some (@Done tape [] [5; 101; 2; 1]).
Proof. repeat split. Qed.
Example logs_returns : exists rs s',
  body_ends (logged tape) 1 logs ([], []) = @Leaving (W (logged tape)) [] ([5; 101], [5; 101]) /\
  compiled (logged tape) 1 logs 0 (at_start (logged tape) ([], [])) = CReturned rs s'.
Proof. eexists _, _. split; vm_compute; reflexivity. Qed.

(** ** C103: whatever a call takes it gives back *)

Theorem call_gives_back : forall M fuel f n (s : cstate M),
  sensible f -> accepted f = true ->
  compiled M fuel f n s <> CStuck /\
  forall s', (exists e, compiled M fuel f n s = CNext e s') \/ (exists rs, compiled M fuel f n s = CReturned rs s') ->
    dflt s' = dflt s /\ live s' = live s /\ depth s' = depth s.
Proof.
  intros M fuel f n s S A.
  destruct (Z.lt_ge_cases (depth s) MAX_CALL_DEPTH) as [D|D];
    [|rewrite too_deep by exact D; split; [discriminate|intros s' [(e & X)|(rs & X)]; discriminate]].
  pose proof (call_run M fuel f (conj S A) n s D) as R. unfold call_ok in R.
  destruct (body_ends M fuel f (world s)) as [w|w|w|vals w|w|]; try contradiction.
  - destruct (effects M (rev (ensures f)) w) as [[] w1].
    + destruct R as (e' & s2 & -> & _ & R & _). split; [discriminate|].
      intros s' [(e & X)|(rs & X)]; [|discriminate]. injection X as _ <-. exact R.
    + rewrite R. split; [discriminate|]. intros s' [(e & X)|(rs & X)]; discriminate.
  - destruct (effects M (rev (ensures f)) w) as [[] w1];
      [|rewrite R; split; [discriminate|]; intros s' [(e & X)|(rs & X)]; discriminate].
    destruct (values M (results_of f vals) w1) as [[vs|] w2];
      [|rewrite R; split; [discriminate|]; intros s' [(e & X)|(rs & X)]; discriminate].
    destruct R as (rs' & s2 & -> & _ & _ & R & _). split; [discriminate|].
    intros s' [(e & X)|(rs & X)]; [discriminate|]. injection X as _ <-. exact R.
  - rewrite R. split; [discriminate|]. intros s' [(e & X)|(rs & X)]; discriminate.
  - rewrite R. split; [discriminate|]. intros s' [(e & X)|(rs & X)]; discriminate.
Qed.
Print Assumptions call_gives_back.

Example busy_gives_back :
  match compiled tape 9 busy 0 start with
  | CReturned _ s' => Some (fresh s', live s', dflt s', depth s')
  | _ => None
  end = Some (7, [0], 0, 0).
Proof. vm_compute. reflexivity. Qed.

(** ** C104: the memory of what a call returns still exists *)

Theorem returned_memory_exists_partial : forall M fuel f n (s : cstate M) rs s',
  sensible f -> accepted f = true -> In (dflt s) (live s) ->
  (f_ref f = false /\ ~ In Shared (f_results f)) \/
  (f_ref f = true /\ some_of returns_from_scope (f_body f) = false) ->
  compiled M fuel f n s = CReturned rs s' ->
  Forall2 (fun t r => t <> Plain -> match snd r with Some a => In a (live s') | None => True end)
          (f_results f) rs.
Proof.
  intros M fuel f n s rs s' S A L K C.
  destruct (Z.lt_ge_cases (depth s) MAX_CALL_DEPTH) as [D|D]; [|rewrite too_deep in C by exact D; discriminate].
  pose proof (call_run M fuel f (conj S A) n s D) as R. unfold call_ok in R.
  destruct (body_ends M fuel f (world s)) as [w|w|w|vals w|w|]; try contradiction; try congruence.
  - destruct (effects M (rev (ensures f)) w) as [[] w1]; [|congruence].
    destruct R as (e' & s2 & R & _). congruence.
  - destruct (effects M (rev (ensures f)) w) as [[] w1]; [|congruence].
    destruct (values M (results_of f vals) w1) as [[vs|] w2]; [|congruence].
    destruct R as (rs' & s2 & R1 & _ & _ & (_ & R2 & _) & _ & R3). rewrite C in R1. injection R1 as <- <-.
    rewrite R2.
    assert (O : owned M f (dflt s) rs) by (apply R3; tauto).
    unfold owned in O.
    assert (G : forall ts rs, Forall2 (fun t (r : V M * option Z) =>
               (if f_ref f then t <> Plain else t = Copied) -> snd r = None \/ snd r = Some (dflt s)) ts rs ->
              (f_ref f = false /\ ~ In Shared ts) \/ f_ref f = true ->
              Forall2 (fun t (r : V M * option Z) => t <> Plain -> match snd r with Some a => In a (live s) | None => True end) ts rs).
    { clear - L. intros ts rs H. induction H as [|t r ts rs H _ IH]; intros K; constructor.
      - intros T. assert (X : snd r = None \/ snd r = Some (dflt s)).
        { apply H. destruct K as [[-> K]| ->]; [|exact T].
          destruct t; [congruence|reflexivity|]. exfalso. apply K. now left. }
        destruct X as [-> | ->]; [exact I|exact L].
      - apply IH. destruct K as [[K1 K2]|K1]; [left|now right]. split; [exact K1|]. intros J. apply K2. now right. }
    apply G; [exact O|tauto].
Qed.
Print Assumptions returned_memory_exists_partial.

Example busy_memory : In (dflt start) (live start) /\
  (f_ref busy = false /\ ~ In Shared (f_results busy)) /\
  match compiled tape 9 busy 0 start with
  | CReturned rs _ => map snd rs = [Some 0; Some 6]
  | _ => False
  end.
Proof.
  split; [now left|]. split; [split; [reflexivity|]|vm_compute; reflexivity].
  intros [H|[H|[]]]; discriminate.
Qed.
(** a function that may change an argument, returning a string from its top level *)
Definition refers : func :=
  {| f_main := false; f_ref := true; f_results := [Copied]; f_names := None; f_body := [Return [5] false] |}.
Example refers_fits : sensible refers /\ accepted refers = true /\ some_of returns_from_scope (f_body refers) = false.
Proof. repeat split. Qed.

(** It returns a string from inside an [if]: the string is in the arena of
    the [if], which is destroyed before the return. *)
Definition dangles : func :=
  {| f_main := false; f_ref := true; f_results := [Copied]; f_names := None;
     f_body := [If 101 [Return [5] false] [] None; Return [6] false] |}.
Theorem returned_memory_exists_refuted : exists rs s',
  sensible dangles /\ accepted dangles = true /\
  compiled tape 1 dangles 0 start = CReturned rs s' /\ map snd rs = [Some 1] /\ live s' = [0].
Proof. eexists _, _. split; [split; reflexivity|]. split; [reflexivity|]. split; [vm_compute; reflexivity|]. split; reflexivity. Qed.
Print Assumptions returned_memory_exists_refuted.

(** A result of a type that is not copied points into the function's arena. *)
Definition shares : func := fn [Shared] None [Return [5] false].
Theorem shared_result_refuted : exists rs s',
  sensible shares /\ accepted shares = true /\
  compiled tape 1 shares 0 start = CReturned rs s' /\ map snd rs = [Some 1] /\ live s' = [0].
Proof. eexists _, _. split; [split; reflexivity|]. split; [reflexivity|]. split; [vm_compute; reflexivity|]. split; reflexivity. Qed.
Print Assumptions shared_result_refuted.

(** ** C105: after the loop a collection can be changed again *)

Theorem guards_released_partial : forall M fuel f n (s : cstate M) s',
  sensible f -> accepted f = true ->
  some_of returns_from_each (f_body f) = false \/ (exists w, body_ends M fuel f (world s) = Next w) ->
  (exists e, compiled M fuel f n s = CNext e s') \/ (exists rs, compiled M fuel f n s = CReturned rs s') ->
  guards s' = guards s.
Proof.
  intros M fuel f n s s' S A K C.
  destruct (Z.lt_ge_cases (depth s) MAX_CALL_DEPTH) as [D|D];
    [|rewrite too_deep in C by exact D; destruct C as [(e & C)|(rs & C)]; discriminate].
  pose proof (call_run M fuel f (conj S A) n s D) as R. unfold call_ok in R.
  destruct (body_ends M fuel f (world s)) as [w|w|w|vals w|w|]; try contradiction.
  - destruct (effects M (rev (ensures f)) w) as [[] w1];
      [|rewrite R in C; destruct C as [(e & C)|(rs & C)]; discriminate].
    destruct R as (e' & s2 & R & _ & _ & G). rewrite R in C. destruct C as [(e & C)|(rs & C)]; [|discriminate].
    injection C as _ <-. exact G.
  - destruct K as [K|(w' & K)]; [|discriminate].
    destruct (effects M (rev (ensures f)) w) as [[] w1];
      [|rewrite R in C; destruct C as [(e & C)|(rs & C)]; discriminate].
    destruct (values M (results_of f vals) w1) as [[vs|] w2];
      [|rewrite R in C; destruct C as [(e & C)|(rs & C)]; discriminate].
    destruct R as (rs' & s2 & R & _ & _ & _ & G & _). rewrite R in C.
    destruct C as [(e & C)|(rs & C)]; [discriminate|]. injection C as _ <-. now apply G.
  - rewrite R in C; destruct C as [(e & C)|(rs & C)]; discriminate.
  - rewrite R in C; destruct C as [(e & C)|(rs & C)]; discriminate.
Qed.
Print Assumptions guards_released_partial.

Example busy_guards : some_of returns_from_each (f_body busy) = false.
Proof. reflexivity. Qed.

(** do find(xs [int]) { for_each x in xs { return } }: xs stays guarded. *)
Definition finds : func := fn [] None [ForEach (Named 3) 10 101 11 12 [Return [] false]].
Theorem guards_released_refuted : exists rs s',
  sensible finds /\ accepted finds = true /\
  compiled tape 1 finds 0 start = CReturned rs s' /\ guards start = [] /\ guards s' = [3].
Proof. eexists _, _. split; [split; reflexivity|]. split; [reflexivity|]. split; [vm_compute; reflexivity|]. split; reflexivity. Qed.
Print Assumptions guards_released_refuted.
