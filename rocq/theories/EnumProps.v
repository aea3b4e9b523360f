(** C141, C142: the values of the variants of enums. *)
From Verif Require Import Base BaseFacts LitSpec LitModel EnumSpec EnumModel EnumProofs.

Lemma worth_fun flags vs i : forall n m, worth flags vs i n -> worth flags vs i m -> n = m.
Proof.
  induction i as [|i IH]; intros n m A B.
  - inversion A; inversion B; subst; congruence.
  - inversion A; inversion B; subst; try congruence. f_equal. now apply IH.
Qed.
(** C141.  The enums of an accepted file become C declarations that a C
    compiler accepts, and each variant is read as what it means.  Missing:
    enum names with an underscore, values that are not an int of C, flags past
    the 31st variant, strings with escapes, quotes or two question marks,
    numbers given in a string or tagged enum. *)
Theorem enum_values_partial es : check_enums [] es = [] ->
  (forall e, In e es -> ~ In 95 (e_name e)) ->
  (forall e, In e es -> e_flags e = true -> (length (e_variants e) <= 31)%nat) ->
  (forall e, In e es -> Z.of_nat (length (e_variants e)) <= INT32_MAX) ->
  (forall e i n, In e es -> worth (e_flags e) (e_variants e) i n -> INT32_MIN <= n <= INT32_MAX) ->
  (forall e v, In e es -> In v (e_variants e) -> word (v_name v) /\
     match v_given v with Some (Str _ s) => simple s | Some _ => ~ textual e /\ ~ tagged e | None => True end) ->
  exists out g, emit_enums es = Ok out /\ c_file out [] = Some g /\
    forall e i v, In e es -> nth_error (e_variants e) i = Some v ->
      exists c x, find (access e v) g = Some c /\ read c = Some x /\ means e i x /\ forall y, means e i y -> y = x.
Proof.
  intros C U L T W V. destruct (check_enums_ok es [] C) as (N & _ & K).
  assert (Q : forall e, In e es -> NoDup (map v_name (e_variants e)) /\ ~ (textual e /\ tagged e)).
  { intros e I. destruct (K e I) as [_ [k H]]. destruct (check_enum_ok k e H) as (A & _ & B & _). auto. }
  assert (ND : NoDup (map fst (flat_map binds es))).
  { apply all_names; [exact N|]. intros e I. split; [now apply U|now apply Q]. }
  assert (VW : forall e, is_str e = false -> forall k n, nth_error (vals (e_flags e) 0 0 (e_variants e)) k = Some n -> worth (e_flags e) (e_variants e) k n).
  { intros e S k n H. apply (vals_worth (e_flags e) (e_variants e) (not_str e S) (e_variants e) 0%nat 0); auto. }
  destruct (emit_enums_ok es) with (g := @nil (bytes * constant)) as (out & E & G).
  - intros e I. split; [now apply Q|]. split; [now apply L|]. apply Forall_forall. intros [x c] P. unfold binds in P. apply in_combine_r in P. cbn [snd].
    unfold consts in P. destruct (is_str e) eqn:S; [apply in_map_iff in P as (v & <- & _); exact Logic.I|].
    destruct (is_tagged e) eqn:TG.
    + apply in_map_iff in P as (k & <- & P). apply in_seq in P. specialize (T e I). cbn. change INT32_MIN with (-2147483648). lia.
    + apply in_map_iff in P as (n & <- & P). apply In_nth_error in P as [k P]. cbn. apply (W e k); [exact I|]. now apply VW.
  - exact ND.
  - intros x _ [].
  - exists out, (rev (flat_map binds es) ++ []). split; [exact E|]. split; [exact G|]. intros e i v I H.
    assert (F : forall c, nth_error (consts e) i = Some c -> find (access e v) (rev (flat_map binds es) ++ []) = Some c).
    { intros c J. rewrite app_nil_r. apply find_in; [rewrite map_rev; now apply NoDup_rev|]. rewrite <- in_rev. apply in_flat_map. exists e. split; [exact I|].
      apply (nth_combine _ _ i); [now apply map_nth_error|exact J]. }
    pose proof (nth_error_In _ _ H) as IV. destruct (V e v I IV) as [VN VG]. unfold consts in F.
    assert (SX : forall r s, v_given v = Some (Str r s) -> textual e) by (intros r s X; now exists v, r, s).
    destruct (is_str e) eqn:S.
    + assert (TX : textual e) by now apply str_iff. rewrite (map_nth_error _ _ _ H) in F. exists (Define (emit_text v)).
      destruct (v_given v) as [[n|n|r s]|] eqn:GV; [tauto|tauto| |].
      * exists (Text s). split; [now apply F|]. split; [cbn [read]; unfold emit_text; now rewrite GV, simple_text|].
        destruct (simple_items s VG) as [S1 S2]. split.
        { destruct r; [now apply (m_raw _ _ v)|]. rewrite <- S2. now apply (m_text _ _ v s). }
        intros y M. inversion M; subst; try tauto; try congruence.
        -- assert (s0 = s) by congruence. subst. f_equal. now apply simple_spells.
      * exists (Text (v_name v)). split; [now apply F|]. split; [cbn [read]; unfold emit_text; rewrite GV, simple_text; [reflexivity|now apply word_simple]|].
        split; [now apply m_name|]. intros y M. inversion M; subst; try tauto; congruence.
    + assert (TX : ~ textual e) by (rewrite <- str_iff; congruence).
      destruct (is_tagged e) eqn:TG.
      * assert (TT : tagged e) by now apply tagged_iff.
        assert (GV : v_given v = None) by (destruct (v_given v) as [[n|n|r s]|] eqn:GV; [tauto|tauto|exfalso; eapply TX, SX; reflexivity|reflexivity]).
        exists (Enumerator (Z.of_nat i)), (Int (Z.of_nat i)). split.
        { apply F. rewrite (map_nth_error _ i (seq 0 (length (e_variants e))) (d := i)); [reflexivity|].
          assert (R : (i < length (e_variants e))%nat) by (apply nth_error_Some; congruence). rewrite (nth_error_nth' _ 0%nat) by (rewrite seq_length; exact R). now rewrite seq_nth. }
        split; [reflexivity|]. split; [now apply (m_tag _ _ v)|]. intros y M. inversion M; subst; try tauto; congruence.
      * assert (TT : ~ tagged e) by (rewrite <- tagged_iff; congruence).
        destruct (nth_error (vals (e_flags e) 0 0 (e_variants e)) i) as [n|] eqn:X.
        2:{ apply nth_error_None in X. rewrite vals_len in X. assert (R : (i < length (e_variants e))%nat) by (apply nth_error_Some; congruence). lia. }
        pose proof (VW e S i n X) as WN. exists (Enumerator n), (Int n). split; [apply F; now apply map_nth_error|]. split; [reflexivity|]. split; [now apply m_int|].
        intros y M. inversion M; subst; try tauto.
        -- f_equal. eapply worth_fun; eassumption.
        -- exfalso. assert (v0 = v) by congruence. subst. eapply TX, SX. eassumption.
        -- exfalso. assert (v0 = v) by congruence. subst. eapply TX, SX. eassumption.
Qed.

(** C142.  Two variants of an accepted enum have different numbers.  Missing:
    a number given after variants without one, unless it is larger than theirs;
    two equal numbers with a minus sign; numbers given in a flags enum that
    also has variants without one. *)
Lemma check_values_ok vs : forall seen, check_values seen vs = [] ->
  (forall v w, In v vs -> In w seen -> same_value v w = false) /\
  (forall i j v w, (i < j)%nat -> nth_error vs i = Some v -> nth_error vs j = Some w -> same_value w v = false).
Proof.
  induction vs as [|v t IH]; intros seen H; [split; [intros ? ? []|intros i j v w _ A; destruct i; discriminate]|].
  cbn in H. apply app_eq_nil in H as [A B]. destruct (IH _ B) as [D E].
  assert (Y : forall w, In w seen -> same_value v w = false).
  { intros w W. destruct (same_value v w) eqn:X; [|reflexivity]. assert (Z : existsb (same_value v) seen = true) by (apply existsb_exists; now exists w). rewrite Z in A. discriminate. }
  split.
  - intros a w [->|I] W; [now apply Y|]. apply D; [exact I|now right].
  - intros i j a w L P Q. destruct j as [|j]; [lia|]. destruct i as [|i]; [|apply (E i j); [lia|exact P|exact Q]].
    cbn in P. injection P as <-. cbn in Q. apply D; [now apply nth_error_In in Q|now left].
Qed.
Definition ascending (e : enum) : Prop := forall i v g n m, nth_error (e_variants e) (S i) = Some v -> v_given v = Some g -> number g = Some m ->
  worth (e_flags e) (e_variants e) i n -> n < m.
Lemma worth_shape flags vs i n : worth flags vs i n -> flags = false -> exists v, nth_error vs i = Some v /\
  ((exists g, v_given v = Some g /\ number g = Some n) \/ (i = 0%nat /\ n = 0) \/ exists j m, i = S j /\ n = m + 1 /\ worth flags vs j m).
Proof. intros H F. inversion H; subst; try congruence; exists v; (split; [assumption|]); [left; eauto|right; left; auto|right; right; eauto]. Qed.
Theorem enum_distinct_partial known e i j n m : check_enum known e = [] -> i <> j ->
  worth (e_flags e) (e_variants e) i n -> worth (e_flags e) (e_variants e) j m ->
  (forall v, In v (e_variants e) -> exists k, v_given v = Some (Num k)) \/
  (e_flags e = false /\ ascending e /\ ~ textual e) \/
  (e_flags e = true /\ forall v, In v (e_variants e) -> v_given v = None) -> n <> m.
Proof.
  intros C NE A B H. destruct (check_enum_ok known e C) as (_ & CV & _ & _). destruct (check_values_ok _ _ CV) as [_ D]. destruct H as [H|[(F & AS & TX)|(F & H)]].
  - assert (X : forall i n, worth (e_flags e) (e_variants e) i n -> exists v, nth_error (e_variants e) i = Some v /\ v_given v = Some (Num n)).
    { intros k q Q. assert (Y : exists v, nth_error (e_variants e) k = Some v) by (inversion Q; subst; eauto). destruct Y as [v Y]. destruct (H v) as [p P]; [now apply nth_error_In in Y|]. exists v. split; [exact Y|].
      inversion Q; subst; try congruence. assert (v0 = v) by congruence. subst. assert (g = Num p) by congruence. subst. cbn in *. congruence. }
    destruct (X i n A) as (v & V1 & V2). destruct (X j m B) as (w & W1 & W2). intros <-. assert (L : (i < j \/ j < i)%nat) by lia. destruct L as [L|L].
    + specialize (D i j v w L V1 W1). unfold same_value in D. rewrite V2, W2 in D. lia.
    + specialize (D j i w v L W1 V1). unfold same_value in D. rewrite V2, W2 in D. lia.
  - assert (ST : forall k a b, worth (e_flags e) (e_variants e) k a -> worth (e_flags e) (e_variants e) (S k) b -> a < b).
    { intros k a b P Q. inversion Q; subst; try congruence.
      - eapply AS; eassumption.
      - assert (n0 = a) by (eapply worth_fun; eassumption). lia. }
    assert (E : forall k a, worth (e_flags e) (e_variants e) k a -> forall k', (k' < k)%nat -> exists b, worth (e_flags e) (e_variants e) k' b).
    { intros k a P k' L. assert (Y : exists v, nth_error (e_variants e) k = Some v) by (inversion P; subst; eauto). destruct Y as [v Y].
      assert (LE : (k < length (e_variants e))%nat) by (apply nth_error_Some; congruence).
      assert (SE : is_str e = false) by (destruct (is_str e) eqn:SE; [exfalso; now apply TX, str_iff|reflexivity]).
      destruct (nth_error (vals (e_flags e) 0 0 (e_variants e)) k') as [b|] eqn:X; [|apply nth_error_None in X; rewrite vals_len in X; lia].
      exists b. apply (vals_worth (e_flags e) (e_variants e) (not_str e SE) (e_variants e) 0%nat 0); auto. }
    assert (M : forall d k a b, worth (e_flags e) (e_variants e) k a -> worth (e_flags e) (e_variants e) (k + S d)%nat b -> a < b).
    { induction d as [|d IH]; intros k a b P Q; [rewrite Nat.add_1_r in Q; eapply ST; eassumption|].
      rewrite Nat.add_succ_r in Q. destruct (E _ _ Q (k + S d)%nat) as [c R]; [lia|]. specialize (IH k a c P R). specialize (ST _ _ _ R Q). lia. }
    assert (L : (i < j \/ j < i)%nat) by lia. destruct L as [L|L].
    + replace j with (i + S (j - i - 1))%nat in B by lia. specialize (M _ _ _ _ A B). lia.
    + replace i with (j + S (i - j - 1))%nat in A by lia. specialize (M _ _ _ _ B A). lia.
  - assert (X : forall k a, worth (e_flags e) (e_variants e) k a -> a = 2 ^ Z.of_nat k).
    { intros k a P. inversion P as [? v g ? P1 P2| | |]; subst; try congruence. rewrite (H v) in P2 by (now apply nth_error_In in P1). discriminate. }
    rewrite (X i n A), (X j m B). intros Q. apply Z.pow_inj_r in Q; lia.
Qed.
(** Tags of variants never coincide: a tag is the position. *)
Theorem enum_tags_distinct e i j x : tagged e -> ~ textual e -> means e i x -> means e j x -> i = j.
Proof.
  intros T X A B.
  assert (K : forall k y, means e k y -> y = Int (Z.of_nat k)).
  { intros k y M. inversion M; subst; try tauto; exfalso; apply X; [exists v, false, s|exists v, true, s]; (split; [eapply nth_error_In; eassumption|assumption]). }
  rewrite (K i x A) in B. apply K in B. injection B as B. lia.
Qed.

(** * Cases that meet the hypotheses *)
Definition V (s : bytes) := Variant s None 0.
Definition VN (s : bytes) (n : Z) := Variant s (Some (Num n)) 0.
Definition some_enums : list enum :=
  [Enum (bs "Direction") false [V (bs "NORTH"); VN (bs "EAST") 5; V (bs "SOUTH")];
   Enum (bs "Permissions") true [V (bs "READ"); V (bs "WRITE"); V (bs "RUN")];
   Enum (bs "Status") false [Variant (bs "TODO") (Some (Str false (bs "to do"))) 0; V (bs "DONE")];
   Enum (bs "Shape") false [Variant (bs "Circle") None 1; Variant (bs "Rect") None 2; V (bs "Point")]].
Example some_enums_ok : check_enums [] some_enums = [] /\
  match emit_enums some_enums with
  | Ok out => match c_file out [] with
              | Some g => map (fun e => map (fun v => match find (access e v) g with Some c => read c | None => None end) (e_variants e)) some_enums =
                          [[Some (Int 0); Some (Int 5); Some (Int 6)]; [Some (Int 1); Some (Int 2); Some (Int 4)]; [Some (Text (bs "to do")); Some (Text (bs "DONE"))]; [Some (Int 0); Some (Int 1); Some (Int 2)]]
              | None => False
              end
  | _ => False
  end.
Proof. split; vm_compute; reflexivity. Qed.
Ltac step_worth :=
  match goal with
  | H : Some _ = Some _ |- _ => injection H; clear H; intros; subst; cbn in *
  | H : Some _ = None |- _ => discriminate H
  | H : None = Some _ |- _ => discriminate H
  | H : nth_error [] ?i = Some _ |- _ => destruct i; discriminate H
  | H : nth_error (_ :: _) ?i = Some _ |- _ => (is_var i; destruct i); cbn in H
  | H : false = true |- _ => discriminate H
  | H : true = false |- _ => discriminate H
  | H : worth _ _ _ _ |- _ => inversion H; subst; clear H; cbn in *
  end.
Example some_enums_meet : (forall e, In e some_enums -> ~ In 95 (e_name e) /\ Z.of_nat (length (e_variants e)) <= INT32_MAX /\ (e_flags e = true -> (length (e_variants e) <= 31)%nat)) /\
  (forall e i n, In e some_enums -> worth (e_flags e) (e_variants e) i n -> INT32_MIN <= n <= INT32_MAX) /\
  (forall e v, In e some_enums -> In v (e_variants e) -> word (v_name v) /\
     match v_given v with Some (Str _ s) => simple s | Some _ => ~ textual e /\ ~ tagged e | None => True end).
Proof.
  change INT32_MAX with 2147483647. change INT32_MIN with (-2147483648). split; [|split].
  - intros e I. cbn in I. repeat (destruct I as [<-|I]; [cbn; repeat split; try lia; intuition discriminate|]). destruct I.
  - intros e i n I W. cbn in I. repeat (destruct I as [<-|I]; [cbn in W; repeat step_worth; cbn; lia|]). destruct I.
  - intros e v I J. cbn in I. split.
    + repeat (destruct I as [<-|I]; [cbn in J; repeat (destruct J as [<-|J]; [intros c X; cbn in X; repeat (destruct X as [<-|X]; [lia|]); destruct X|]); destruct J|]). destruct I.
    + repeat (destruct I as [<-|I]; [cbn in J; repeat (destruct J as [<-|J]; [cbn; try exact Logic.I|]); try destruct J|]); try destruct I.
      * split; [intros (v & r & s & X & Y); cbn in X; repeat (destruct X as [<-|X]; [discriminate|]); destruct X|]. intros (v & X & Y). cbn in X. repeat (destruct X as [<-|X]; [cbn in Y; lia|]). destruct X.
      * split; [intros c X; cbn in X; repeat (destruct X as [<-|X]; [lia|]); destruct X|]. intros p q E. assert (X : In 63 (bs "to do")) by (change (bs "to do") with [116; 111; 32; 100; 111]; rewrite E; apply in_or_app; right; now left). cbn in X. intuition discriminate.
Qed.
Definition meaning (es : list enum) : option (list (list (option value))) :=
  match emit_enums es with
  | Ok out => match c_file out [] with
              | Some g => Some (map (fun e => map (fun v => match find (access e v) g with Some c => read c | None => None end) (e_variants e)) es)
              | None => None
              end
  | _ => None
  end.
(** The missing cases are wrong.  An accepted enum A = 1, B = 0, C has A equal
    to C; two variants given -1 are accepted; a string with \n in it reads the
    closing zero as well, and one with two escapes reads past the array; a
    string with a quote in it is not C; a number given in a string enum is
    dropped, and so is one in a tagged enum; the variant B_C of A and the
    variant C of A_B are the same C name, so one replaces the other or C
    rejects them; the 32nd flag is undefined; 3000000000 is no int of C. *)
Theorem enum_values_refuted :
  (let es := [Enum (bs "E") false [VN (bs "A") 1; VN (bs "B") 0; V (bs "C")]] in check_enums [] es = [] /\ meaning es = Some [[Some (Int 1); Some (Int 0); Some (Int 1)]]) /\
  (let es := [Enum (bs "E") false [Variant (bs "A") (Some (Minus 1)) 0; Variant (bs "B") (Some (Minus 1)) 0]] in check_enums [] es = [] /\ meaning es = Some [[Some (Int (-1)); Some (Int (-1))]]) /\
  (let es := [Enum (bs "E") false [Variant (bs "A") (Some (Str false (bs "a\nb"))) 0; Variant (bs "B") (Some (Str false (bs "\t\t"))) 0; Variant (bs "C") (Some (Str true (bs "a""b"))) 0; VN (bs "D") 7]] in
     check_enums [] es = [] /\ meaning es = Some [[Some (Text [97; 10; 98; 0]); None; None; Some (Text (bs "D"))]]) /\
  (let es := [Enum (bs "E") false [Variant (bs "A") None 1; VN (bs "B") 7]] in check_enums [] es = [] /\ meaning es = Some [[Some (Int 0); Some (Int 1)]]) /\
  (let es := [Enum (bs "A") false [Variant (bs "B_C") (Some (Str false (bs "x"))) 0]; Enum (bs "A_B") false [Variant (bs "C") (Some (Str false (bs "y"))) 0]] in
     check_enums [] es = [] /\ meaning es = Some [[Some (Text (bs "y"))]; [Some (Text (bs "y"))]]) /\
  (let es := [Enum (bs "A") false [V (bs "B_C")]; Enum (bs "A_B") false [V (bs "C")]] in check_enums [] es = [] /\ meaning es = None) /\
  (let vs := map (fun k => V [97; Z.of_nat k]) (seq 1 32) in check_enums [] [Enum (bs "E") true vs] = [] /\ emit_enums [Enum (bs "E") true vs] = UB) /\
  (let es := [Enum (bs "E") false [VN (bs "A") 3000000000]] in check_enums [] es = [] /\ meaning es = None).
Proof. repeat match goal with |- _ /\ _ => split | |- let _ := _ in _ => intro end; vm_compute; reflexivity. Qed.
Example distinct_case : check_enum [] (Enum (bs "E") false [V (bs "A"); VN (bs "B") 5; V (bs "C")]) = [] /\ ascending (Enum (bs "E") false [V (bs "A"); VN (bs "B") 5; V (bs "C")]).
Proof.
  split; [vm_compute; reflexivity|]. intros i v g n m H G N W. cbn in *. destruct i as [|[|i]]; cbn in H; [|injection H as <-; discriminate|destruct i; discriminate].
  injection H as <-. cbn in G. injection G as <-. cbn in N. injection N as <-. inversion W; subst; try discriminate; [|lia]. cbn in *. match goal with H : Some _ = Some _ |- _ => injection H as <- end. discriminate.
Qed.
Print Assumptions enum_values_partial.
Print Assumptions enum_distinct_partial.
Print Assumptions enum_tags_distinct.
Print Assumptions enum_values_refuted.
