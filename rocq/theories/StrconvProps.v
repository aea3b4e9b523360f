(** C27 integer text, C28 UTF-8, C29 arrays and maps as text, C78 input lines. *)
From Verif Require Import Base BaseFacts Decimal DecimalFacts StringsModel StringsSpec StringsProofs
  StrconvModel StrconvSpec StrconvProofs.
Ltac Zify.zify_post_hook ::= Z.div_mod_to_equations.

(** ** C27 *)

(** strconv.to_int yields v exactly for the texts that denote v in that base, and fails (panic
    55, or the error of the result form) for all others.  For texts of at most 63 bytes without
    a NUL byte. *)
Theorem to_int_reads_partial s base : 2 <= base <= 36 -> (length s <= 63)%nat -> ~ In 0 s ->
  (forall v, to_int s base = Ok v <-> number base s v /\ in_i 64 v) /\
  (forall v, to_int_result s base = (v, true) <-> number base s v /\ in_i 64 v) /\
  ((forall v, ~ (number base s v /\ in_i 64 v)) ->
     to_int s base = Panic 55 /\ to_int_result s base = (0, false)).
Proof.
  intros B L N. pose proof (fun v => to_int_value_iff s base v B L N) as W.
  unfold to_int, to_int_result.
  replace ((base <? 2) || (36 <? base)) with false by lia.
  destruct (to_int_value s base) as [u|] eqn:E.
  - assert (U : number base s u /\ in_i 64 u) by (apply W; reflexivity).
    split; [|split].
    + intros v. rewrite <- W. split; intros H; inversion H; subst; auto.
    + intros v. rewrite <- W. split; intros H; inversion H; subst; auto.
    + intros H. exfalso. exact (H u U).
  - split; [|split; [|auto]]; intros v; rewrite <- W; split; discriminate.
Qed.
Print Assumptions to_int_reads_partial.
Example to_int_reads_example :
  number 16 (bs "-0xFf") (-255) /\ to_int (bs "-0xFf") 16 = Ok (-255) /\ to_int (bs "12a") 10 = Panic 55 /\
  to_int (bs "9223372036854775808") 10 = Panic 55.
Proof.
  split; [|split; [|split]]; try reflexivity.
  change (bs "-0xFf") with (45 :: 48 :: 120 :: [] ++ [70] ++ [102]). apply (num_minus 16 _ 255), uns_hex; auto.
  apply (pos_more 16 [70] 15 102 15); [apply pos_one|..]; unfold digit_of; lia.
Qed.
Theorem to_int_bad_base s base : ~ (2 <= base <= 36) ->
  to_int s base = Panic 54 /\ to_int_result s base = (0, false) /\
  to_uint s base = Panic 56 /\ to_uint_result s base = (0, false).
Proof.
  intros B. unfold to_int, to_int_result, to_uint, to_uint_result.
  replace ((base <? 2) || (36 <? base)) with true by lia. auto.
Qed.
Print Assumptions to_int_bad_base.

(** The unrestricted claim is false: only the first 63 bytes, up to a NUL byte, are looked at. *)
Theorem to_int_reads_refuted :
  (exists s v, to_int s 10 = Ok v /\ length s = 64%nat /\ forall w, ~ number 10 s w) /\
  (exists s v w, to_int s 10 = Ok v /\ number 10 s w /\ in_i 64 w /\ v <> w) /\
  (exists s v, to_int s 10 = Ok v /\ length s = 3%nat /\ forall w, ~ number 10 s w).
Proof.
  split; [|split].
  - exists (List.repeat 48 62 ++ bs "1x"), 1. split; [vm_compute; reflexivity|]. split; [reflexivity|].
    intros w N. apply whole_iff in N as [_ N]; [|lia]. vm_compute in N. discriminate.
  - exists (List.repeat 48 62 ++ bs "12"), 1, 12. split; [vm_compute; reflexivity|].
    split; [apply whole_iff; [lia|vm_compute; auto]|]. unfold in_i. split; lia.
  - exists [49; 0; 120], 1. split; [vm_compute; reflexivity|]. split; [reflexivity|].
    intros w N. apply whole_iff in N as [_ N]; [|lia]. vm_compute in N. discriminate.
Qed.
Print Assumptions to_int_reads_refuted.

(** strconv.to_uint: the same with range 0 .. 2^64 - 1; a leading minus is panic 58. *)
Theorem to_uint_reads_partial s base : 2 <= base <= 36 -> (length s <= 63)%nat -> ~ In 0 s ->
  (forall v, to_uint s base = Ok v <-> number base s v /\ in_u 64 v /\ hd 0 s <> 45) /\
  (forall v, to_uint_result s base = (v, true) <-> number base s v /\ in_u 64 v /\ hd 0 s <> 45) /\
  ((forall v, ~ (number base s v /\ in_u 64 v /\ hd 0 s <> 45)) ->
     to_uint s base = Panic (if hd 0 s =? 45 then 58 else 57) /\ to_uint_result s base = (0, false)).
Proof.
  intros B L N0.
  assert (W : match to_uint_value s base with
              | UInt v => number base s v /\ in_u 64 v /\ hd 0 s <> 45
              | UNegative => hd 0 s = 45
              | UBad => hd 0 s <> 45 /\ forall v, ~ (number base s v /\ in_u 64 v)
              end).
  { unfold to_uint_value. rewrite copy_id by auto.
    pose proof (fun v => whole_iff base s v B) as W.
    destruct (leading_space s) eqn:LS.
    - split.
      + destruct s as [|c r]; cbn in *; [lia|]. intros ->. discriminate.
      + intros v [Nv _]. apply W in Nv as [Nv _]. congruence.
    - assert (LM : leads_minus s = (hd 0 s =? 45)).
      { destruct s as [|c r]; [reflexivity|]. cbn [leads_minus hd leading_space] in *. rewrite LS.
        destruct (c =? 45); reflexivity. }
      rewrite LM. destruct (Z.eqb_spec (hd 0 s) 45) as [M|M]; [exact M|].
      destruct (c_strto base s) as [[v [|c r]]|] eqn:E.
      + assert (Nv : number base s v) by (apply W; auto).
        unfold UINT64_MAX. destruct (Z.leb_spec v 18446744073709551615).
        * split; auto. split; auto. unfold in_u. split; [|change (2 ^ 64) with 18446744073709551616; lia].
          destruct Nv as [ds u U|ds u U|ds u U]; try (apply unsigned_head in U as [U _]; [exact U|lia]).
          cbn in M. lia.
        * split; auto. intros w [Nw [_ I]]. assert (w = v) by (eapply number_unique; eauto). subst w.
          change (2 ^ 64) with 18446744073709551616 in I. lia.
      + split; auto. intros w [Nw _]. apply W in Nw as [_ Nw]. discriminate.
      + split; auto. intros w [Nw _]. apply W in Nw as [_ Nw]. discriminate. }
  unfold to_uint, to_uint_result. replace ((base <? 2) || (36 <? base)) with false by lia.
  destruct (to_uint_value s base) as [u| |].
  - destruct W as (Nu & I & M). split; [|split].
    + intros v. split; [intros [= <-]; auto|]. intros (Nv & _ & _). f_equal. eapply number_unique; eauto.
    + intros v. split; [intros [= <-]; auto|]. intros (Nv & _ & _). f_equal. eapply number_unique; eauto.
    + intros H. exfalso. apply (H u). auto.
  - split; [|split].
    + intros v. split; [discriminate|]. intros (_ & _ & H). congruence.
    + intros v. split; [discriminate|]. intros (_ & _ & H). congruence.
    + intros _. rewrite W. auto.
  - destruct W as [M W]. split; [|split].
    + intros v. split; [discriminate|]. intros (H1 & H2 & _). exfalso. eapply W; eauto.
    + intros v. split; [discriminate|]. intros (H1 & H2 & _). exfalso. eapply W; eauto.
    + intros _. rewrite (proj2 (Z.eqb_neq _ _) M). auto.
Qed.
Print Assumptions to_uint_reads_partial.
Example to_uint_reads_example : to_uint (bs "18446744073709551615") 10 = Ok 18446744073709551615 /\
  to_uint (bs "18446744073709551616") 10 = Panic 57 /\ to_uint (bs "-1") 10 = Panic 58 /\
  to_uint (bs "zz") 36 = Ok 1295.
Proof. vm_compute. auto. Qed.

Lemma dec_no_nul n : 0 <= n -> ~ In 0 (dec n).
Proof. intros H. eapply positional_nonzero; [|apply dec_positional; auto]. lia. Qed.

(** Every 64-bit integer survives printing and reading. *)
Theorem int_text_roundtrip n :
  (in_i 64 n -> to_int (from_int n) 10 = Ok n /\ cast_int (from_int n) = Ok n) /\
  (in_u 64 n -> to_uint (from_uint n) 10 = Ok n).
Proof.
  split.
  - intros I. assert (Nn : number 10 (from_int n) n) by apply dec_signed_number.
    assert (L : (length (from_int n) <= 63)%nat).
    { unfold in_i in I. change (2 ^ (64 - 1)) with 9223372036854775808 in I.
      unfold from_int, dec_signed. destruct (Z.ltb_spec n 0).
      - cbn [length]. assert (length (dec (- n)) <= 19)%nat; [|lia]. apply dec_length; [|lia].
        change (10 ^ Z.of_nat 19) with 10000000000000000000. lia.
      - assert (length (dec n) <= 19)%nat; [|lia]. apply dec_length; [|lia].
        change (10 ^ Z.of_nat 19) with 10000000000000000000. lia. }
    assert (Z0 : ~ In 0 (from_int n)).
    { unfold from_int, dec_signed. destruct (Z.ltb_spec n 0).
      - intros [H0|H0]; [lia|]. revert H0. apply dec_no_nul. lia.
      - apply dec_no_nul. lia. }
    split.
    + apply (to_int_reads_partial (from_int n) 10 ltac:(lia) L Z0). auto.
    + unfold cast_int. rewrite copy_id by auto.
      pose proof (number_read 10 _ n [] ltac:(lia) Nn I0 I0) as R || pose proof (number_read 10 (from_int n) n [] ltac:(lia) Nn Logic.I Logic.I) as (R & _).
      rewrite app_nil_r in R. rewrite R. f_equal. unfold clamp64, INT64_MIN, INT64_MAX, in_i in *.
      change (2 ^ (64 - 1)) with 9223372036854775808 in I. lia.
  - intros I. assert (P : positional 10 (dec n) n) by (apply dec_positional; unfold in_u in I; lia).
    unfold in_u in I. change (2 ^ 64) with 18446744073709551616 in I.
    apply to_uint_reads_partial; [lia| |apply dec_no_nul; lia|].
    + assert (length (dec n) <= 20)%nat; [|unfold from_uint; lia]. apply dec_length; [|lia].
      change (10 ^ Z.of_nat 20) with 100000000000000000000. lia.
    + split; [apply num_plain, uns_digits, P|]. split; [unfold in_u; change (2 ^ 64) with 18446744073709551616; lia|].
      apply positional_iff in P as (N & A & _); [|lia]. unfold from_uint. destruct (dec n) as [|c r]; [congruence|].
      cbn [hd]. apply Forall_inv in A. intros ->. vm_compute in A. discriminate.
Qed.
Print Assumptions int_text_roundtrip.
Example int_text_example : from_int (-9223372036854775808) = bs "-9223372036854775808" /\
  from_uint 18446744073709551615 = bs "18446744073709551615".
Proof. vm_compute. auto. Qed.

(** fmt.int_to_hex / octal / binary print the two's-complement bit pattern, and reading that
    text back in the same base gives the number (as an unsigned 64-bit value). *)
Theorem fmt_base_roundtrip n : in_i 64 n -> exists h o b,
  int_to_hex n = Ok h /\ int_to_octal n = Ok o /\ int_to_binary n = Ok b /\
  positional 16 h (n mod 2 ^ 64) /\ positional 8 o (n mod 2 ^ 64) /\ positional 2 b (n mod 2 ^ 64) /\
  to_uint h 16 = Ok (n mod 2 ^ 64) /\ to_uint o 8 = Ok (n mod 2 ^ 64) /\
  (0 <= n -> to_int h 16 = Ok n /\ to_int o 8 = Ok n /\ to_int b 2 = Ok n).
Proof.
  intros H. set (u := n mod 2 ^ 64).
  assert (U : 0 <= u < 18446744073709551616) by (subst u; change (2 ^ 64) with 18446744073709551616; lia).
  assert (UN : 0 <= n -> u = n).
  { intros. subst u. unfold in_i in H. change (2 ^ (64 - 1)) with 9223372036854775808 in H.
    change (2 ^ 64) with 18446744073709551616. lia. }
  destruct (in_base_spec 16 u ltac:(lia) ltac:(lia)) as [P16 L16].
  destruct (in_base_spec 8 u ltac:(lia) ltac:(lia)) as [P8 L8].
  destruct (int_to_binary_spec n H) as (b & E2 & P2 & L2).
  assert (B16 : (length (in_base 16 u) <= 16)%nat) by (apply L16; [lia|change (16 ^ Z.of_nat 16) with 18446744073709551616; lia]).
  assert (B8 : (length (in_base 8 u) <= 22)%nat) by (apply L8; [lia|change (8 ^ Z.of_nat 22) with 73786976294838206464; lia]).
  assert (HD : forall base t, 2 <= base <= 36 -> positional base t u -> hd 0 t <> 45).
  { intros base t Bb P. apply positional_iff in P as (N & A & _); [|lia]. destruct t as [|c r]; [congruence|].
    cbn [hd]. apply Forall_inv in A. intros ->. vm_compute in A. destruct base as [|p|p]; try lia.
    apply (proj2 (Z.ltb_lt _ _)) in A || idtac. assert (36 < Z.pos p); [|lia]. revert A. unfold Z.lt. cbn. auto. }
  assert (RU : forall base t, 2 <= base <= 36 -> (length t <= 63)%nat -> positional base t u -> to_uint t base = Ok u).
  { intros base t Bb L P. apply to_uint_reads_partial; auto.
    - eapply positional_nonzero; [|exact P]. lia.
    - split; [apply num_plain, uns_digits, P|]. split; [|eapply HD; eauto].
      unfold in_u. change (2 ^ 64) with 18446744073709551616. lia. }
  assert (RI : forall base t, 0 <= n -> 2 <= base <= 36 -> (length t <= 63)%nat -> positional base t u -> to_int t base = Ok n).
  { intros base t N0 Bb L P. rewrite (UN N0) in P. apply to_int_reads_partial; auto.
    - eapply positional_nonzero; [|exact P]. lia.
    - split; [apply num_plain, uns_digits, P|exact H]. }
  exists (in_base 16 u), (in_base 8 u), b.
  assert (F : forall t, (length t < 32)%nat -> fmt_tmp t = Ok t).
  { intros t L. unfold fmt_tmp. rewrite (proj2 (Nat.ltb_lt _ _) L). reflexivity. }
  split; [apply F; lia|]. split; [apply F; lia|]. split; [exact E2|].
  split; [exact P16|]. split; [exact P8|]. split; [exact P2|].
  split; [apply RU; auto; lia|]. split; [apply RU; auto; lia|].
  intros N0. split; [apply RI; auto; lia|]. split; [apply RI; auto; lia|].
  (* binary: 64 digits only for negative numbers *)
  apply RI; auto; [lia|].
  destruct (Nat.le_gt_cases (length b) 63) as [|G]; auto. exfalso.
  unfold in_i in H. change (2 ^ (64 - 1)) with 9223372036854775808 in H.
  unfold int_to_binary in E2. destruct (Z.eqb_spec n 0) as [->|Nz]; [injection E2 as <-; cbn in G; lia|].
  replace (wrap_u 64 n) with n in E2
    by (unfold wrap_u; change (2 ^ 64) with 18446744073709551616; lia).
  assert (K : forall p v out t, 0 <= v < 2 ^ Z.of_nat p -> binary_loop (S p) v out = Ok t -> (length t <= p + length out)%nat).
  { intros p. induction p as [|p IH]; intros v out t V E.
    - change (2 ^ Z.of_nat 0) with 1 in V. assert (v = 0) by lia. subst v. cbn in E. injection E as <-. lia.
    - cbn [binary_loop] in E. destruct (v =? 0) eqn:Z0; [injection E as <-; lia|].
      apply IH in E; [cbn [length] in E; lia|]. rewrite Nat2Z.inj_succ, Z.pow_succ_r in V by lia. lia. }
  apply (K 63%nat) in E2; [cbn [length] in E2; lia|]. change (2 ^ Z.of_nat 63) with 9223372036854775808. lia.
Qed.
Print Assumptions fmt_base_roundtrip.
Example fmt_base_example : int_to_hex 48879 = Ok (bs "beef") /\ int_to_hex (-1) = Ok (bs "ffffffffffffffff") /\
  int_to_octal 8 = Ok (bs "10") /\ int_to_binary 6 = Ok (bs "110").
Proof. vm_compute. auto. Qed.
(** The 64-digit binary text of a negative number is not read back: the reader's buffer holds 63. *)
Theorem fmt_binary_roundtrip_refuted : exists n b, in_i 64 n /\ int_to_binary n = Ok b /\
  to_uint b 2 <> Ok (n mod 2 ^ 64).
Proof.
  exists (-1), (List.repeat 49 64). split; [unfold in_i; lia|]. split; [vm_compute; reflexivity|].
  vm_compute. intros [=].
Qed.
Print Assumptions fmt_binary_roundtrip_refuted.

(** is_integer accepts exactly the decimal integers; is_numeric the decimal numbers. *)
Theorem is_integer_iff s : is_integer s = true <-> exists v, number 10 s v.
Proof.
  assert (Q : forall v, number 10 s v -> match s with
     | c :: r => if (c =? 45) || (c =? 43) then exists u, unsigned 10 r u else exists u, unsigned 10 s u
     | [] => False end).
  { intros v N. destruct N as [ds u U|ds u U|ds u U]; [|cbn; eauto|cbn; eauto].
    pose proof (unsigned_head 10 ds u ltac:(lia) U) as (_ & c & r & -> & D).
    pose proof (not_space_sign c ltac:(lia)) as D'. replace ((c =? 45) || (c =? 43)) with false by lia. eauto. }
  unfold is_integer. destruct s as [|c r].
  - split; [discriminate|]. intros [v N]. destruct (Q v N).
  - destruct ((c =? 45) || (c =? 43)) eqn:E.
    + split.
      * intros H. assert (U : exists u, unsigned 10 r u).
        { apply unsigned10_iff. destruct r; [discriminate|]. split; [discriminate|]. apply forallb_digits, H. }
        destruct U as [u U]. apply orb_true_iff in E as [E|E]; apply Z.eqb_eq in E; subst c.
        -- exists (- u). apply num_minus, U.
        -- exists u. apply num_plus, U.
      * intros [v N]. apply Q in N. apply unsigned10_iff in N as [N A]. destruct r; [congruence|].
        apply forallb_digits, A.
    + split.
      * intros H. destruct (proj2 (unsigned10_iff (c :: r))) as [u U].
        { split; [discriminate|]. apply forallb_digits, H. }
        exists u. apply num_plain, U.
      * intros [v N]. apply Q in N. apply unsigned10_iff in N as [N A]. apply forallb_digits, A.
Qed.
Print Assumptions is_integer_iff.
Example is_integer_example : is_integer (bs "-00123456789012345678901234567890") = true /\ is_integer (bs "+") = false /\
  is_integer (bs "1.0") = false.
Proof. vm_compute. auto. Qed.

Lemma numeric_loop_spec s : forall dot digit, numeric_loop s dot digit = true <->
  exists a b, Forall (fun c => 48 <= c <= 57) a /\ Forall (fun c => 48 <= c <= 57) b /\
    (digit = true \/ a ++ b <> []) /\ ((dot = false /\ s = a ++ [46] ++ b) \/ (b = [] /\ s = a)).
Proof.
  induction s as [|c s IH]; intros dot digit; cbn [numeric_loop].
  - split.
    + intros ->. exists [], []. split; [constructor|]. split; [constructor|]. auto.
    + intros (a & b & _ & _ & N & [[_ E]|[-> <-]]); [destruct a; discriminate|].
      destruct N as [N|N]; [exact N|]. cbn in N. congruence.
  - destruct (Z.eqb_spec c 46) as [->|N46].
    + destruct dot.
      * split; [discriminate|]. intros (a & b & A & _ & _ & [[E _]|[-> <-]]); [discriminate|].
        apply Forall_inv in A. lia.
      * rewrite IH. split.
        -- intros (a & b & A & B & N & [[E _]|[-> ->]]); [discriminate|].
           exists [], a. split; [constructor|]. split; [exact A|]. rewrite app_nil_r in N. cbn [app]. split; [exact N|].
           left. auto.
        -- intros (a & b & A & B & N & [[_ E]|[-> <-]]).
           ++ destruct a as [|x a].
              ** cbn in E. injection E as ->. exists b, []. split; [exact B|]. split; [constructor|].
                 rewrite app_nil_r. split; [exact N|]. right. auto.
              ** cbn in E. injection E as <- _. apply Forall_inv in A. lia.
           ++ apply Forall_inv in A. lia.
    + destruct (isdigit c) eqn:D.
      * assert (Dc : 48 <= c <= 57) by (unfold isdigit in D; lia).
        rewrite IH. split.
        -- intros (a & b & A & B & _ & C). exists (c :: a), b. split; [constructor; auto|]. split; [exact B|].
           split; [right; discriminate|]. destruct C as [[E ->]|[-> ->]]; [left|right]; auto.
        -- intros (a & b & A & B & _ & [[E S]|[-> <-]]).
           ++ destruct a as [|x a]; cbn in S; [injection S as S1 S2; congruence|]. injection S as <- ->.
              exists a, b. split; [eapply Forall_inv_tail; eauto|]. split; [exact B|]. split; [auto|]. left. auto.
           ++ exists s, []. split; [eapply Forall_inv_tail; eauto|]. split; [constructor|]. split; [auto|]. right. auto.
      * split; [discriminate|]. intros (a & b & A & B & _ & [[E S]|[-> <-]]).
        -- destruct a as [|x a]; cbn in S; [injection S as S1 S2; congruence|]. injection S as <- ->.
           apply Forall_inv in A. unfold isdigit in D. lia.
        -- apply Forall_inv in A. unfold isdigit in D. lia.
Qed.
Theorem is_numeric_iff s : is_numeric s = true <-> decimal_number s.
Proof.
  assert (NS : forall s, numeric_loop s false false = true <->
    exists a b, Forall (fun c => 48 <= c <= 57) a /\ Forall (fun c => 48 <= c <= 57) b /\
      a ++ b <> [] /\ (s = a ++ [46] ++ b \/ (b = [] /\ s = a))).
  { intros t. rewrite numeric_loop_spec. split; intros (a & b & A & B & N & C); exists a, b;
      (split; [exact A|]); (split; [exact B|]); (split; [destruct N; [discriminate|auto] || auto|]);
      destruct C as [C|C]; try tauto; left; tauto. }
  unfold decimal_number, is_numeric. destruct s as [|c r].
  - split; [discriminate|]. intros (sign & a & b & Sg & A & B & N & [E|[-> E]]).
    + destruct sign; [destruct a|]; discriminate.
    + destruct sign; [|discriminate]. destruct a; [|discriminate]. cbn in N. congruence.
  - destruct ((c =? 45) || (c =? 43)) eqn:E.
    + assert (R : (match r with [] => false | _ :: _ => numeric_loop r false false end) = numeric_loop r false false)
        by (destruct r; reflexivity).
      rewrite R, NS. split.
      * intros (a & b & A & B & N & C). exists [c], a, b.
        split; [right; apply orb_true_iff in E as [E|E]; apply Z.eqb_eq in E; subst; auto|].
        split; [exact A|]. split; [exact B|]. split; [exact N|]. destruct C as [->|[-> ->]]; auto.
      * intros (sign & a & b & Sg & A & B & N & C). exists a, b. split; [exact A|]. split; [exact B|]. split; [exact N|].
        destruct Sg as [->|[->| ->]].
        -- exfalso. destruct C as [C|[-> C]].
           ++ destruct a as [|x a]; cbn in C; injection C as C1 _; [lia|]. apply Forall_inv in A. lia.
           ++ destruct a as [|x a]; cbn in C; [discriminate|]. injection C as C1 _. apply Forall_inv in A. lia.
        -- destruct C as [C|[-> C]]; cbn in C; injection C as _ C; auto.
        -- destruct C as [C|[-> C]]; cbn in C; injection C as _ C; auto.
    + rewrite NS. split.
      * intros (a & b & A & B & N & C). exists [], a, b. auto.
      * intros (sign & a & b & Sg & A & B & N & C). exists a, b. split; [exact A|]. split; [exact B|]. split; [exact N|].
        destruct Sg as [->|[->| ->]]; [exact C| |];
          (destruct C as [C|[-> C]]; cbn in C; injection C as C1 _; lia).
Qed.
Print Assumptions is_numeric_iff.
Example is_numeric_example : is_numeric (bs "-12.50") = true /\ is_numeric (bs "3.") = true /\
  is_numeric (bs ".") = false /\ is_numeric (bs "1.2.3") = false.
Proof. vm_compute. auto. Qed.

(** to_bool accepts exactly true and false in any case. *)
Lemma casecmp_spelled s w : Forall (fun c => 97 <= c <= 122) w -> casecmp s w = true <-> spelled w s.
Proof.
  unfold casecmp, spelled. intros F. revert s. induction F as [|x w X F IH]; intros s.
  - destruct s; cbn; split; intros H; auto; try discriminate; inversion H.
  - destruct s as [|c s]; cbn [map mem_eq].
    + split; intros H; [discriminate|inversion H].
    + assert (T : (tolower c =? tolower x) = true <-> c = x \/ c = x - 32).
      { unfold tolower, isupper. replace ((65 <=? x) && (x <=? 90)) with false by lia.
        destruct ((65 <=? c) && (c <=? 90)) eqn:?; rewrite Z.eqb_eq; lia. }
      destruct (tolower c =? tolower x) eqn:E; cbn.
      * rewrite IH. split; intros H; [constructor; [apply T; reflexivity|exact H]|inversion H; auto].
      * split; [discriminate|]. intros H. inversion H; subst. apply T in H3. congruence.
Qed.
Theorem to_bool_iff s :
  (to_bool s = Ok true <-> spelled (bs "true") s) /\ (to_bool s = Ok false <-> spelled (bs "false") s) /\
  (~ spelled (bs "true") s -> ~ spelled (bs "false") s -> to_bool s = Panic 60) /\
  (forall b, to_bool (from_bool b) = Ok b).
Proof.
  assert (T : casecmp s (bs "true") = true <-> spelled (bs "true") s)
    by (apply casecmp_spelled; repeat (apply Forall_cons; [vm_compute; split; discriminate|]); constructor).
  assert (Fl : casecmp s (bs "false") = true <-> spelled (bs "false") s)
    by (apply casecmp_spelled; repeat (apply Forall_cons; [vm_compute; split; discriminate|]); constructor).
  assert (X : spelled (bs "true") s -> spelled (bs "false") s -> False).
  { assert (FL : forall w t, spelled w t -> length w = length t) by (induction 1; cbn; auto).
    intros H1 H2. apply FL in H1, H2. cbn in H1, H2. lia. }
  unfold to_bool. destruct (casecmp s (bs "true")) eqn:E1; [|destruct (casecmp s (bs "false")) eqn:E2].
  - assert (S1 : spelled (bs "true") s) by (apply T; reflexivity).
    split; [split; auto|]. split; [split; [discriminate|intros S2; destruct (X S1 S2)]|].
    split; [tauto|]. intros []; vm_compute; reflexivity.
  - split; [split; [discriminate|intros S1; apply T in S1; congruence]|].
    split; [split; auto; intros _; apply Fl; reflexivity|]. split; [intros _ N; exfalso; apply N, Fl; reflexivity|].
    intros []; vm_compute; reflexivity.
  - split; [split; [discriminate|intros S1; apply T in S1; congruence]|].
    split; [split; [discriminate|intros S1; apply Fl in S1; congruence]|]. split; [auto|].
    intros []; vm_compute; reflexivity.
Qed.
Print Assumptions to_bool_iff.
Example to_bool_example : to_bool (bs "TrUe") = Ok true /\ to_bool (bs "yes") = Panic 60.
Proof. vm_compute. auto. Qed.

(** The cast int(text) skips leading blanks, ignores everything after a blank and clamps values
    out of range; it panics otherwise.  (Texts of at most 63 bytes without NUL.) *)
Theorem cast_int_reads s : (length s <= 63)%nat -> ~ In 0 s ->
  (forall v, cast_int s = Ok v <->
     exists ws num rest u, s = ws ++ num ++ rest /\ Forall blank ws /\ number 10 num u /\
       (rest = [] \/ exists r, rest = 32 :: r) /\
       v = (if u <? - 2 ^ 63 then - 2 ^ 63 else if 2 ^ 63 <=? u then 2 ^ 63 - 1 else u)) /\
  (cast_int s = Panic 84 \/ exists v, cast_int s = Ok v).
Proof.
  intros L N0. unfold cast_int. rewrite copy_id by auto.
  assert (CL : forall u, clamp64 u = (if u <? - 2 ^ 63 then - 2 ^ 63 else if 2 ^ 63 <=? u then 2 ^ 63 - 1 else u)).
  { intros u. unfold clamp64, INT64_MIN, INT64_MAX. change (2 ^ 63) with 9223372036854775808.
    repeat match goal with |- context [if ?c then _ else _] => destruct c eqn:? end; lia. }
  assert (RD : forall ws num rest u, s = ws ++ num ++ rest -> Forall blank ws -> number 10 num u ->
      (rest = [] \/ exists r, rest = 32 :: r) -> c_strto 10 s = Some (u, rest)).
  { intros ws num rest u -> F N R. destruct (stop_blank rest R) as [R1 R2].
    pose proof (number_read 10 num u rest ltac:(lia) N R1 R2) as (E & _ & K).
    rewrite c_strto_eq in *. rewrite skip_space_app by auto. exact E. }
  split.
  - intros v. split.
    + destruct (c_strto 10 s) as [[u rest]|] eqn:E; [|discriminate].
      destruct (c_strto_inv 10 s u rest ltac:(lia) E) as (ws & num & S & F & N).
      destruct rest as [|c r].
      * intros [= <-]. exists ws, num, [], u. split; [exact S|]. split; [exact F|]. split; [exact N|].
        split; [auto|apply CL].
      * destruct (Z.eqb_spec c 32) as [->|]; [|discriminate]. intros [= <-]. exists ws, num, (32 :: r), u.
        split; [exact S|]. split; [exact F|]. split; [exact N|]. split; [eauto|apply CL].
    + intros (ws & num & rest & u & S & F & N & R & ->). rewrite (RD ws num rest u S F N R), <- CL.
      destruct R as [->|[r ->]]; reflexivity.
  - destruct (c_strto 10 s) as [[u [|c r]]|]; eauto. destruct (c =? 32); eauto.
Qed.
Print Assumptions cast_int_reads.
Example cast_int_example : cast_int (bs " -42") = Ok (-42) /\ cast_int (bs "x") = Panic 84.
Proof. vm_compute. auto. Qed.
(** A plain number in range is read correctly; the full claim "text that is not a number or out
    of range is an error" is false for the cast. *)
Theorem cast_int_number_partial s v : (length s <= 63)%nat -> number 10 s v -> in_i 64 v -> cast_int s = Ok v.
Proof.
  intros L N I.
  assert (Z0 : ~ In 0 s).
  { destruct N as [ds u U|ds u U|ds u U]; (apply unsigned_nonzero in U; [|lia]); auto;
      (intros [H|H]; [discriminate|auto]). }
  apply cast_int_reads; auto. exists [], s, [], v. rewrite app_nil_r. split; [reflexivity|]. split; [constructor|].
  split; [exact N|]. split; [auto|]. unfold in_i in I. change (2 ^ (64 - 1)) with (2 ^ 63) in I.
  destruct (Z.ltb_spec v (- 2 ^ 63)); [lia|]. destruct (Z.leb_spec (2 ^ 63) v); lia.
Qed.
Print Assumptions cast_int_number_partial.
Theorem cast_int_refuted :
  cast_int (bs "99999999999999999999") = Ok 9223372036854775807 /\
  cast_int (bs "12 apples") = Ok 12 /\
  (forall v, ~ number 10 (bs "12 apples") v) /\
  cast_uint (bs "-1") = Ok 18446744073709551615 /\
  cast_uint (bs "18446744073709551615") = Ok 9223372036854775807.
Proof.
  split; [vm_compute; reflexivity|]. split; [vm_compute; reflexivity|]. split; [|split; vm_compute; reflexivity].
  intros v N. apply whole_iff in N as [_ N]; [|lia]. vm_compute in N. discriminate.
Qed.
Print Assumptions cast_int_refuted.

(** ** C28 *)
(** The bytes of a character are its UTF-8 form, and only those bytes are. *)
Theorem utf8_encoding cp : 0 <= cp <= 1114111 ->
  (forall e, utf8 cp e <-> char_to_utf8 cp = e) /\ cp_to_utf8 cp = char_to_utf8 cp /\ print_char cp = char_to_utf8 cp.
Proof.
  intros H. split; [|split].
  - intros e. split; [intros U; symmetry; apply utf8_unique, U|intros <-; apply utf8_encode, H].
  - unfold cp_to_utf8, char_to_utf8. replace (cp <? 1114112) with true by lia. reflexivity.
  - unfold print_char, cp_to_utf8, char_to_utf8. replace (cp <? 1114112) with true by lia. reflexivity.
Qed.
Print Assumptions utf8_encoding.
(** A value above U+10FFFF is written as the replacement character when it becomes a string, and as nothing when printed. *)
Theorem utf8_too_large cp : 1114111 < cp -> utf8 65533 (char_to_utf8 cp) /\ print_char cp = [].
Proof.
  intros H. unfold char_to_utf8, print_char. replace (cp <? 128) with false by lia. replace (cp <? 2048) with false by lia.
  replace (cp <? 65536) with false by lia. replace (cp <? 1114112) with false by lia. split; [|reflexivity]. apply (utf8_encode 65533). lia.
Qed.
Print Assumptions utf8_too_large.
(** On UTF-8 text to_char picks the i-th character and char_count counts the characters. *)
Theorem utf8_text_access cps s : utf8_text cps s ->
  char_count s = Ok (Z.of_nat (length cps)) /\
  (forall i, to_char s i = if i <? 0 then Panic 49 else
     match nth_error cps (Z.to_nat i) with Some cp => Ok cp | None => Panic 50 end).
Proof.
  intros T. split.
  - unfold char_count. rewrite (char_count_text cps s T) by lia. reflexivity.
  - intros i. unfold to_char. destruct (Z.ltb_spec i 0); [reflexivity|].
    replace i with (0 + i) at 1 by lia. apply (to_char_text cps s T); lia.
Qed.
Print Assumptions utf8_text_access.
(** In particular encoding followed by to_char is the identity. *)
Theorem utf8_roundtrip cp : 0 <= cp <= 1114111 ->
  to_char (char_to_utf8 cp) 0 = Ok cp /\ char_count (char_to_utf8 cp) = Ok 1.
Proof.
  intros H.
  assert (T : utf8_text [cp] (char_to_utf8 cp)).
  { rewrite <- (app_nil_r (char_to_utf8 cp)). apply utf8_cons; [apply utf8_encode, H|apply utf8_nil]. }
  destruct (utf8_text_access _ _ T) as [C A]. rewrite A. auto.
Qed.
Print Assumptions utf8_roundtrip.
Example utf8_example : utf8_text [72; 233; 8364; 128512] (bs "H" ++ [195; 169; 226; 130; 172; 240; 159; 152; 128]) /\
  to_char (bs "H" ++ [195; 169; 226; 130; 172; 240; 159; 152; 128]) 3 = Ok 128512.
Proof.
  split; [|vm_compute; reflexivity].
  apply (utf8_cons 72 [72]); [apply utf8_1; lia|].
  apply (utf8_cons 233 [195; 169]); [apply (utf8_2 3 41); lia|].
  apply (utf8_cons 8364 [226; 130; 172]); [apply (utf8_3 2 2 44); lia|].
  apply (utf8_cons 128512 [240; 159; 152; 128]); [apply (utf8_4 0 31 24 0); lia|]. apply utf8_nil.
Qed.
(** On any text to_char is defined on 0 .. n-1 for some n and panics elsewhere. *)
Theorem to_char_defined s : exists n, 0 <= n <= Z.of_nat (length s) /\
  forall i, if i <? 0 then to_char s i = Panic 49
            else if i <? n then exists cp, to_char s i = Ok cp else to_char s i = Panic 50.
Proof.
  destruct (to_char_total (length s) s (le_n _)) as (n & N & H). exists n. split; [exact N|].
  intros i. unfold to_char. destruct (Z.ltb_spec i 0); [reflexivity|]. specialize (H 0 i ltac:(lia)).
  rewrite Z.add_0_l in H. exact H.
Qed.
Print Assumptions to_char_defined.
(** but on malformed text that n is not char_count(s). *)
Theorem char_count_malformed_refuted : exists s cp, byte_string s /\ char_count s = Ok 1 /\ to_char s 1 = Ok cp.
Proof.
  exists [195; 65], 65. split; [|vm_compute; auto]. repeat constructor; unfold is_byte; lia.
Qed.
Print Assumptions char_count_malformed_refuted.

(** ** C29 *)
(** Text of each kind of element. *)
Theorem elem_text_shows e :
  match e with
  | EInt n => number 10 (elem_text e) n
  | EUint n | EByte n => 0 <= n -> number 10 (elem_text e) n
  | EFloat t => elem_text e = t
  | EBool b => elem_text e = if b then bs "true" else bs "false"
  | EStr s => ~ In 0 s -> elem_text e = [34] ++ s ++ [34]
  | EChar cp => 0 <= cp <= 1114111 -> exists u, utf8 cp u /\ elem_text e = [39] ++ u ++ [39]
  end.
Proof.
  destruct e; cbn [elem_text]; auto.
  - apply dec_signed_number.
  - intros N. unfold quoted. rewrite c_str_id by auto. reflexivity.
  - intros N. apply num_plain, uns_digits, dec_positional, N.
  - intros N. apply num_plain, uns_digits, dec_positional, N.
  - intros H. exists (char_to_utf8 cp). split; [apply utf8_encode, H|]. rewrite (proj1 (proj2 (utf8_encoding cp H))). reflexivity.
Qed.
Print Assumptions elem_text_shows.

(** Short arrays and maps are printed completely. *)
Theorem array_to_string_partial es :
  (length (glue comma (map elem_text es)) <= 3998)%nat ->
  array_to_string es = Ok ([123] ++ glue comma (map elem_text es) ++ [125]).
Proof.
  intros L. unfold array_to_string. rewrite <- joined_glue in *. rewrite array_loop_all by (cbn [length]; lia).
  cbn [rbind]. rewrite close_ok; [rewrite <- app_assoc; reflexivity|].
  change ([123] ++ joined true (map elem_text es)) with (123 :: joined true (map elem_text es)). cbn [length]. lia.
Qed.
Print Assumptions array_to_string_partial.
(** "key": value *)
Definition shown_entry (p : bytes * elem) : bytes := [34] ++ fst p ++ [34] ++ bs ": " ++ elem_text (snd p).
Theorem map_to_string_partial es : Forall (fun p => ~ In 0 (fst p)) es ->
  (length (glue comma (map shown_entry es)) <= 3998)%nat ->
  map_to_string es = Ok ([123] ++ (match es with [] => [58] | _ => glue comma (map shown_entry es) end) ++ [125]).
Proof.
  intros N.
  assert (M : map shown_entry es = map entry_text es).
  { apply map_ext_in. intros p Hp. rewrite Forall_forall in N. unfold entry_text, quoted, shown_entry.
    rewrite c_str_id by (apply N; exact Hp). rewrite <- !app_assoc. reflexivity. }
  rewrite M. intros L. unfold map_to_string. rewrite <- joined_glue in *. rewrite map_loop_all by (cbn [length]; lia).
  cbn [rbind]. destruct es as [|p es]; [reflexivity|]. cbn [rbind].
  rewrite close_ok; [rewrite <- app_assoc; reflexivity|].
  change ([123] ++ joined true (map entry_text (p :: es))) with (123 :: joined true (map entry_text (p :: es))). cbn [length] in *. lia.
Qed.
Print Assumptions map_to_string_partial.
Example array_to_string_example : array_to_string [EInt 1; EStr (bs "a"); EBool true; EChar 8364] =
  Ok (bs "{1, ""a"", true, '" ++ [226; 130; 172] ++ bs "'}") /\
  map_to_string [(bs "k", EInt (-5))] = Ok (bs "{""k"": -5}") /\ map_to_string [] = Ok (bs "{:}").
Proof. vm_compute. auto. Qed.

(** When no element is longer than 93 bytes the buffer is never overrun; a prefix of the elements
    is printed, all of them unless about 4000 bytes were reached. *)
Theorem array_to_string_in_bounds es : Forall (fun e => (length (elem_text e) <= 93)%nat) es ->
  exists k, (k <= length es)%nat /\
    array_to_string es = Ok ([123] ++ glue comma (map elem_text (firstn k es)) ++ [125]) /\
    (k = length es \/ 3999 <= length (glue comma (map elem_text (firstn k es))))%nat.
Proof.
  intros F. destruct (array_loop_prefix es true [123] F) as (k & K & R & B & O); [cbn; lia|].
  exists k. split; [exact K|]. unfold array_to_string. rewrite R. cbn [rbind]. rewrite close_ok by exact B.
  rewrite <- joined_glue. split; [rewrite <- app_assoc; reflexivity|].
  destruct O as [O|O]; [auto|right]. rewrite app_length in O. cbn [length] in O. lia.
Qed.
Print Assumptions array_to_string_in_bounds.
Theorem map_to_string_in_bounds es :
  Forall (fun p => (length (c_str (fst p)) + length (elem_text (snd p)) <= 89)%nat) es ->
  exists t, map_to_string es = Ok t.
Proof.
  intros F. assert (F' : Forall (fun p => (length (entry_text p) <= 93)%nat) es).
  { eapply Forall_impl; [|exact F]. intros p Hp. unfold entry_text, quoted. cbn beta in Hp. rewrite !app_length. cbn. lia. }
  destruct (map_loop_prefix es true [123] F') as (k & K & R & B & O); [cbn; lia|].
  unfold map_to_string. rewrite R. cbn [rbind]. destruct es as [|p es].
  - destruct k; [|cbn in K; lia]. eexists. vm_compute. reflexivity.
  - cbn [rbind]. rewrite close_ok by exact B. eauto.
Qed.
Print Assumptions map_to_string_in_bounds.
(** All element kinds other than strings are that short. *)
Theorem elem_text_short e :
  match e with EInt n => in_i 64 n | EUint n => in_u 64 n | EByte n => is_byte n
             | EFloat t => (length t <= 63)%nat | EStr _ => False | _ => True end ->
  (length (elem_text e) <= 93)%nat.
Proof.
  assert (DL : forall n, 0 <= n < 10 ^ 20 -> (length (dec n) <= 20)%nat) by (intros; apply dec_length; [assumption|lia]).
  change (10 ^ 20) with 100000000000000000000 in DL.
  destruct e; cbn [elem_text]; try tauto.
  - unfold in_i, dec_signed. change (2 ^ (64 - 1)) with 9223372036854775808. intros H.
    destruct (Z.ltb_spec n 0); cbn [length]; [specialize (DL (- n) ltac:(lia))|specialize (DL n ltac:(lia))]; lia.
  - intros; lia.
  - destruct b; cbn; lia.
  - unfold in_u. change (2 ^ 64) with 18446744073709551616. intros H. specialize (DL n ltac:(lia)). lia.
  - unfold is_byte. intros H. specialize (DL n ltac:(lia)). lia.
  - intros _. cbn [app length]. rewrite app_length. unfold cp_to_utf8.
    repeat match goal with |- context [if ?c then _ else _] => destruct c end; cbn; lia.
Qed.
Print Assumptions elem_text_short.

(** The claim itself is false: long strings overrun the buffer, long arrays lose elements, and
    strings are cut at a NUL byte. *)
Theorem array_to_string_refuted :
  array_to_string [EStr (List.repeat 97 4095)] = UB /\
  map_to_string [(List.repeat 97 4095, EInt 1)] = UB /\
  (exists n t, array_to_string (List.repeat (EInt 7) n) = Ok t /\
     (length t < length (glue comma (List.repeat [55%Z] n)))%nat) /\
  array_to_string [EStr [97; 0; 98]] = Ok (bs "{""a""}").
Proof.
  split; [vm_compute; reflexivity|]. split; [vm_compute; reflexivity|]. split; [|vm_compute; reflexivity].
  exists 2000%nat. eexists. split; [vm_compute; reflexivity|]. apply Nat.ltb_lt. vm_compute. reflexivity.
Qed.
Print Assumptions array_to_string_refuted.

(** ** C78 input() *)
(** Each call returns the next line of standard input, cut to 4095 bytes, and leaves the
    following lines unread; at the end of the stream it returns the empty string.  (Lines
    without a NUL byte.) *)
Theorem input_line_partial stream l ls : lines stream (l :: ls) -> ~ In 0 l ->
  exists rest, input stream = (firstn 4095 l, rest) /\ lines rest ls.
Proof.
  intros L N0. unfold input.
  assert (B : (INPUT_BUF - 1)%nat = 4095%nat) by reflexivity. rewrite B. clear B.
  remember 4095%nat as m eqn:Em. assert (M : (0 < m)%nat) by lia. clear Em.
  assert (C0 : forall k, c_str (firstn k l) = firstn k l).
  { intros k. apply c_str_id. intros H. apply N0. rewrite <- (firstn_skipn k l). apply in_or_app. auto. }
  assert (LAST : forall t, ~ In 10 t -> nth (length t - 1) t 0 <> 10).
  { intros t H E. destruct t as [|c t]; [cbn in E; discriminate|]. apply H. rewrite <- E. apply nth_In. cbn. lia. }
  assert (FN : forall k, ~ In 10 l -> ~ In 10 (firstn k l)).
  { intros k H I. apply H. rewrite <- (firstn_skipn k l). apply in_or_app. auto. }
  assert (FULL : forall rest, ~ In 10 l -> (m <= length l)%nat -> l ++ rest <> [] /\
    (let '(stored, r) := fgets m (l ++ rest) in
     let buf := c_str stored in
     let len := length buf in
     if (0 <? len)%nat && (nth (len - 1) buf 0 =? 10) then (firstn (len - 1) buf, r)
      else if (len =? m)%nat then (buf, drain r) else (buf, r)) = (firstn m l, drain (skipn m l ++ rest))).
  { intros rest H G. split; [destruct l; [cbn in G; lia|discriminate]|].
    rewrite fgets_full by auto. rewrite C0. cbv zeta.
    assert (LN : length (firstn m l) = m) by (rewrite firstn_length; lia).
    pose proof (LAST (firstn m l) (FN m H)) as LA.
    rewrite (proj2 (Z.eqb_neq _ _) LA), andb_false_r, LN, Nat.eqb_refl. reflexivity. }
  assert (MR : forall (A : Type) (s : bytes) (x y : A), s <> [] -> match s with [] => x | _ :: _ => y end = y)
    by (intros A [|? ?]; congruence).
  inversion L as [|l' NE N1 E1 E2|l' rest ls' N1 Lr E1 E2]; subst.
  - (* last line *)
    rewrite MR by auto. exists []. split; [|constructor].
    destruct (Nat.le_gt_cases m (length l)) as [G|G].
    + destruct (FULL [] N1 G) as [_ F]. rewrite app_nil_r in F. etransitivity; [exact F|].
      rewrite drain_none; [reflexivity|]. rewrite app_nil_r. intros H. apply N1.
      rewrite <- (firstn_skipn m l). apply in_or_app. auto.
    + rewrite fgets_short by (auto; lia). rewrite c_str_id by auto. cbv zeta.
      rewrite (proj2 (Z.eqb_neq _ _) (LAST l N1)), andb_false_r.
      rewrite (proj2 (Nat.eqb_neq _ _)) by lia. rewrite firstn_all2 by lia. reflexivity.
  - rewrite MR by (destruct l; discriminate). exists rest. split; [|exact Lr].
    destruct (Nat.le_gt_cases m (length l)) as [G|G].
    + destruct (FULL ([10] ++ rest) N1 G) as [_ F]. etransitivity; [exact F|]. f_equal. apply drain_newline.
      intros H. apply N1. rewrite <- (firstn_skipn m l). apply in_or_app. auto.
    + rewrite fgets_newline by (auto; lia).
      rewrite c_str_id by (intros H; apply in_app_or in H as [H|[H|[]]]; [auto|discriminate]). cbv zeta.
      rewrite app_length. cbn [length].
      rewrite (proj2 (Nat.ltb_lt _ _)) by lia. cbn [andb].
      replace (length l + 1 - 1)%nat with (length l) by lia.
      rewrite nth_middle. cbn [Z.eqb Pos.eqb].
      rewrite firstn_app, Nat.sub_diag, firstn_O, app_nil_r, firstn_all, firstn_all2 by lia. reflexivity.
Qed.
Print Assumptions input_line_partial.
Theorem input_at_end : input [] = ([], []).
Proof. reflexivity. Qed.
Fixpoint inputs (n : nat) (stream : bytes) : list bytes :=
  match n with O => [] | S n => let '(l, rest) := input stream in l :: inputs n rest end.
(** So a program that calls input() as often as there are lines sees exactly the lines. *)
Theorem input_reads_lines_partial ls : forall stream, lines stream ls ->
  Forall (fun l => ~ In 0 l /\ (length l <= 4095)%nat) ls -> inputs (length ls) stream = ls.
Proof.
  induction ls as [|l ls IH]; intros stream L F; [reflexivity|].
  apply Forall_cons_iff in F as [[N0 Ll] F].
  destruct (input_line_partial stream l ls L N0) as (rest & E & Lr).
  cbn [length inputs]. rewrite E. f_equal; [apply firstn_all2, Ll|]. apply IH; auto.
Qed.
Print Assumptions input_reads_lines_partial.
Example input_example : lines (bs "ab" ++ [10; 10] ++ bs "c") [bs "ab"; []; bs "c"] /\
  inputs 4 (bs "ab" ++ [10; 10] ++ bs "c") = [bs "ab"; []; bs "c"; []].
Proof.
  split; [|vm_compute; reflexivity].
  apply (lines_cons (bs "ab") ([10] ++ bs "c")); [cbn; intros [H|[H|[]]]; discriminate|].
  apply (lines_cons [] (bs "c")); [cbn; tauto|]. apply lines_last; [discriminate|]. cbn. intros [H|[]]; discriminate.
Qed.
Theorem input_reads_lines_refuted :
  (exists l, ~ In 10 l /\ fst (input (l ++ [10])) <> l) /\
  (exists l rest, ~ In 10 l /\ fst (input (snd (input (l ++ [10] ++ rest)))) <> fst (input rest)).
Proof.
  split.
  - exists (List.repeat 97 5000). split.
    + intros H. apply repeat_spec in H. discriminate.
    + intros H. apply (f_equal (@length Z)) in H. vm_compute in H. discriminate.
  - exists (0 :: List.repeat 97 5000), (bs "next"). split.
    + intros [H|H]; [discriminate|]. apply repeat_spec in H. discriminate.
    + intros H. apply (f_equal (@length Z)) in H. vm_compute in H. discriminate.
Qed.
Print Assumptions input_reads_lines_refuted.
