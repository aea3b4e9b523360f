(** C66, C96: what the compiler reports. *)
From Verif Require Import Base BaseFacts LexModel LexProofs ImportModel ImportProofs.
From Verif Require Import DiagModel DiagSpec DiagProofs DiagProofs2 Decimal DecimalFacts.

Lemma accepted_iff q : q <> QRejected -> accepted q.
Proof. now destruct q. Qed.
(** ** A whole run, whatever is reported and whatever is switched off.  The
    compiler fails exactly if an error was reported, and prints the diagnostics
    that are not hidden, in order, each with the source line it is about, then
    the summary; colours change nothing else. *)
Theorem diagnostics_printed disk tty no_color input_file source q ds1 ds2 r :
  q <> QRejected -> Z.of_nat (length ds1 + length ds2) < 2 ^ 29 -> shown q (recorded 20 (reported ds1 ds2)) r ->
  exists out status, front disk (start tty no_color input_file source q) ds1 ds2 = Ok (out, status) /\
    (status = Some 1 <-> exists d, In d (ds1 ++ ds2) /\ sev d = SError) /\ (status = Some 1 \/ status = None) /\
    (tty = false \/ no_color = true -> out = printed disk input_file source q (reported ds1 ds2) r) /\
    ((forall d, In d (reported ds1 ds2) -> escape_free d (its_line disk input_file source d)) ->
     uncoloured false out = printed disk input_file source q (reported ds1 ds2) r).
Proof.
  intros A L H. change (2 ^ 29) with 536870912 in L. destruct (run_spec disk tty no_color input_file source q ds1 ds2 r (accepted_iff q A) L H) as (out & E & P1 & P2).
  exists out, (if existsb is_error (reported ds1 ds2) then Some 1 else None). split; [exact E|]. split; [|split; [destruct (existsb _ _); tauto|split; [|exact P2]]].
  - assert (X : existsb is_error (reported ds1 ds2) = true <-> exists d, In d (ds1 ++ ds2) /\ sev d = SError).
    { assert (Y : forall l, existsb is_error l = true <-> exists d, In d l /\ sev d = SError).
      { intros l. rewrite existsb_exists. unfold is_error. split; intros (d & Hd & Hs); exists d; (split; [exact Hd|]); destruct (sev d); congruence. }
      unfold reported. destruct (existsb is_error ds1) eqn:E1; [|apply Y]. split; [|intros _; exact E1]. intros _. apply Y in E1 as (d & Hd & Hs). exists d. split; [apply in_or_app; now left|exact Hs]. }
    rewrite <- X. destruct (existsb is_error (reported ds1 ds2)); split; congruence.
  - intros U. apply P1. unfold color_of. destruct U as [-> | ->]; [reflexivity|apply andb_false_r].
Qed.
Print Assumptions diagnostics_printed.
(** The list that is shown exists and is the only one. *)
Theorem shown_one q ds : q <> QRejected -> exists r, shown q ds r /\ forall r', shown q ds r' -> r' = r.
Proof.
  intros A. destruct (start_ok (fun _ => None) false false [] [] q (accepted_iff q A)) as (_ & _ & B & _). eexists. split; [exact (shown_filter q _ ds B)|].
  intros r' H. exact (shown_unique q ds _ _ H (shown_filter q _ ds B)).
Qed.
Print Assumptions shown_one.
(** Of what is reported every warning is kept, and the first 20 errors; hiding
    takes no error away. *)
Theorem twenty_errors ds : filter is_error (recorded 20 ds) = firstn 20 (filter is_error ds) /\
  filter (fun d => negb (is_error d)) (recorded 20 ds) = filter (fun d => negb (is_error d)) ds /\
  errors (recorded 20 ds) = Z.min 20 (errors ds) /\
  forall q r, shown q (recorded 20 ds) r -> filter is_error r = filter is_error (recorded 20 ds).
Proof.
  split; [|split; [|split]].
  - generalize 20%nat. induction ds as [|d ds IH]; intros n; cbn [recorded filter]; [now destruct n|]. unfold is_error at 2. destruct (sev d) eqn:E.
    + destruct n as [|n]; [apply IH|]. cbn [filter firstn]. unfold is_error at 1. rewrite E. now rewrite IH.
    + cbn [filter]. unfold is_error at 1. rewrite E. apply IH.
  - generalize 20%nat. induction ds as [|d ds IH]; intros n; cbn [recorded filter]; [reflexivity|]. unfold is_error at 2. destruct (sev d) eqn:E; cbn [negb].
    + destruct n as [|n]; [apply IH|]. cbn [filter]. unfold is_error at 1. rewrite E. apply IH.
    + cbn [filter]. unfold is_error at 1. rewrite E. cbn [negb]. now rewrite IH.
  - unfold errors. rewrite errors_recorded. lia.
  - intros q r H. induction H; cbn [filter]; [reflexivity|now rewrite IHshown|]. destruct H as [H _]. unfold is_error at 2. now rewrite H.
Qed.
Print Assumptions twenty_errors.

(** ** The option -q followed by [a]. *)
Theorem quiet_exact a :
  (starts 87 a /\ Forall (starts 87) (codes a) -> quiet_option (Some a) = QCodes (codes a)) /\
  (starts 87 a /\ ~ Forall (starts 87) (codes a) -> quiet_option (Some a) = QRejected) /\
  (starts 69 a -> quiet_option (Some a) = QRejected) /\
  (~ starts 87 a /\ ~ starts 69 a -> quiet_option (Some a) = QAll).
Proof.
  rewrite quiet_spec. assert (St : forall c k, c <> 0 -> (hd 0 k =? c) = true <-> starts c k).
  { intros c k N. rewrite Z.eqb_eq. unfold starts. destruct k as [|x k]; cbn [hd]; split.
    - congruence.
    - intros (r & E). discriminate.
    - intros ->. now exists k.
    - intros (r & E). congruence. }
  assert (Fa : forallb (fun k => hd 0 k =? 87) (codes a) = true <-> Forall (starts 87) (codes a)).
  { rewrite forallb_forall, Forall_forall. split; intros H k Hk; apply (St 87 k); auto; lia. }
  pose proof (St 87 a ltac:(lia)) as S1. pose proof (St 69 a ltac:(lia)) as S2.
  assert (D : (hd 0 a =? 69) = true -> (hd 0 a =? 87) = false) by (intros H; destruct (Z.eqb_spec (hd 0 a) 69) as [->|]; [reflexivity|discriminate H]).
  destruct (hd 0 a =? 87), (hd 0 a =? 69), (forallb (fun k => hd 0 k =? 87) (codes a)); repeat split; intros X; try reflexivity; exfalso; intuition congruence.
Qed.
Print Assumptions quiet_exact.

(** ** The source line shown for a diagnostic, whatever was printed before. *)
Theorem line_shown disk tty no_color input_file source q ds d :
  q <> QRejected -> let l := start tty no_color input_file source q in
  let '(c, k) := fold_left (fun s d => snd (source_line disk (fst s) (snd s) d)) ds (cache l, clock l) in
  fst (source_line disk c k d) = its_line disk input_file source d.
Proof.
  intros A. cbv zeta. destruct (start_ok disk tty no_color input_file source q (accepted_iff q A)) as (_ & C & _).
  set (l := start tty no_color input_file source q) in *. generalize dependent (cache l). generalize (clock l). induction ds as [|x ds IH]; intros k c C; cbn [fold_left].
  - destruct (source_line_spec disk input_file source c k d C) as (c' & k' & -> & _). reflexivity.
  - cbn [fst snd]. destruct (source_line_spec disk input_file source c k x C) as (c' & k' & -> & C'). cbn [snd]. now apply IH.
Qed.
Print Assumptions line_shown.

(** ** Cases. *)
Definition err (f : bytes) (n : Z) : diagnostic := Diag SError (Some (bs "E2001")) (bs "expected a value") (Some f) n 5 7 (Some (bs "write one")).
Definition warn (k : bytes) : diagnostic := Diag SWarning (Some k) (bs "unused") (Some (bs "main.gray")) 1 1 0 None.
Definition src : bytes := bs "one" ++ [10] ++ bs "let = " ++ [10] ++ bs "three".
Definition two_files (p : bytes) : option bytes := if eqs p (bs "b.gray") then Some (bs "b1" ++ [10] ++ bs "b2") else None.
Example run_case : front two_files (start true true (bs "main.gray") src (QCodes [bs "W1001"])) [warn (bs "W1001"); warn (bs "W1002")] [err (bs "main.gray") 2; err (bs "b.gray") 2; err (bs "gone.gray") 1] =
  Ok (printed two_files (bs "main.gray") src (QCodes [bs "W1001"]) (reported [warn (bs "W1001"); warn (bs "W1002")] [err (bs "main.gray") 2; err (bs "b.gray") 2; err (bs "gone.gray") 1])
        [warn (bs "W1002"); err (bs "main.gray") 2; err (bs "b.gray") 2; err (bs "gone.gray") 1], Some 1).
Proof. vm_compute. reflexivity. Qed.
Example excerpt_case : excerpt (err (bs "main.gray") 2) (its_line two_files (bs "main.gray") src (err (bs "main.gray") 2)) =
  [bs "error[E2001]: expected a value"; bs "  --> main.gray:2:5"; bs "   |"; bs "  2 | let = "; bs "   |     ^^^"; bs "   |"; bs "   = help: write one"; []].
Proof. vm_compute. reflexivity. Qed.
Example summary_case : summary QNone 2 1 = [bs "grayscale: 2 errors, 1 warning. compilation failed."; bs "hint: suppress warnings with -q <W1001,W1002,...> or -q 'all'"].
Proof. vm_compute. reflexivity. Qed.
Example shown_case : shown (QCodes [bs "W1001"]) [warn (bs "W1001"); warn (bs "W1002"); err (bs "main.gray") 2] [warn (bs "W1002"); err (bs "main.gray") 2].
Proof.
  apply sh_hide; [split; [reflexivity|exists (bs "W1001"); split; [reflexivity|now left]]|]. apply sh_keep; [intros (_ & k & E & [<-|[]]); vm_compute in E; congruence|].
  apply sh_keep; [intros [E _]; discriminate E|constructor].
Qed.
Example flood_case : errors (recorded 20 (map (err (bs "main.gray")) (map Z.of_nat (seq 1 30)))) = 20. Proof. vm_compute. reflexivity. Qed.
Example codes_case : codes (bs "W1001,,W1002,") = [bs "W1001"; bs "W1002"]. Proof. vm_compute. reflexivity. Qed.
Example colour_case : escape_free (err (bs "main.gray") 2) (its_line two_files (bs "main.gray") src (err (bs "main.gray") 2)) /\
  uncoloured false (render true (err (bs "main.gray") 2) (Some (bs "let = "))) = render false (err (bs "main.gray") 2) (Some (bs "let = ")).
Proof.
  split; [|vm_compute; reflexivity]. unfold escape_free, opt_no_escape. repeat split; try (apply const_no_escape; vm_compute; reflexivity).
Qed.
