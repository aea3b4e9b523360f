(** Proofs about the text the format functions write. *)
From Verif Require Import Base BaseFacts StringsModel EncodingModel LitSpec LitModel LitProofs LitProofs2 LitProofs3 FormatSpec FormatModel FormatProofs FormatProofs2 FormatProofs3.
Ltac Zify.zify_post_hook ::= Z.div_mod_to_equations.

Lemma wrap_i_8 v : -128 <= v < 128 -> wrap_i 8 v = v. Proof. intros H. unfold wrap_i. change (2 ^ 8) with 256. change (2 ^ (8 - 1)) with 128. destruct (v mod 256 <? 128) eqn:E; lia. Qed.
Lemma wrap_i_16 v : -32768 <= v < 32768 -> wrap_i 16 v = v. Proof. intros H. unfold wrap_i. change (2 ^ 16) with 65536. change (2 ^ (16 - 1)) with 32768. destruct (v mod 65536 <? 32768) eqn:E; lia. Qed.
Lemma wrap_i_32 v : -2147483648 <= v < 2147483648 -> wrap_i 32 v = v. Proof. intros H. unfold wrap_i. change (2 ^ 32) with 4294967296. change (2 ^ (32 - 1)) with 2147483648. destruct (v mod 4294967296 <? 2147483648) eqn:E; lia. Qed.
Lemma wrap_i_64 v : INT64_MIN <= v <= INT64_MAX -> wrap_i 64 v = v.
Proof. unfold INT64_MIN, INT64_MAX. intros H. unfold wrap_i. change (2 ^ 64) with 18446744073709551616. change (2 ^ (64 - 1)) with 9223372036854775808. destruct (v mod 18446744073709551616 <? 9223372036854775808) eqn:E; lia. Qed.
Lemma wrap_u_id n v : 0 <= v < 2 ^ n -> wrap_u n v = v. Proof. intros H. unfold wrap_u. now apply Z.mod_small. Qed.
Lemma in_i_bits b v : In b [8; 16; 32; 64; 128; 256] -> in_i b v ->
  (b = 8 /\ -128 <= v < 128) \/ (b = 16 /\ -32768 <= v < 32768) \/ (b = 32 /\ -2147483648 <= v < 2147483648) \/ (b = 64 /\ INT64_MIN <= v <= INT64_MAX) \/ 64 < b.
Proof.
  intros H I. unfold in_i in I. cbn in H. destruct H as [<-|[<-|[<-|[<-|[<-|[<-|[]]]]]]].
  - left. exact (conj eq_refl I).
  - right; left. exact (conj eq_refl I).
  - right; right; left. exact (conj eq_refl I).
  - right; right; right; left. split; [reflexivity|]. change (- 2 ^ (64 - 1)) with INT64_MIN in I. change (2 ^ (64 - 1)) with (INT64_MAX + 1) in I. unfold INT64_MAX in *. lia.
  - right; right; right; right. reflexivity.
  - right; right; right; right. reflexivity.
Qed.
Lemma in_u_bits b v : In b [8; 16; 32; 64; 128; 256] -> in_u b v ->
  (b = 8 /\ 0 <= v < 2 ^ 8) \/ (b = 16 /\ 0 <= v < 2 ^ 16) \/ (b = 32 /\ 0 <= v < 2 ^ 32) \/ (b = 64 /\ 0 <= v < 2 ^ 64) \/ 64 < b.
Proof.
  intros H I. unfold in_u in I. cbn in H. destruct H as [<-|[<-|[<-|[<-|[<-|[<-|[]]]]]]]; auto 7.
  - right; right; right; right. reflexivity.
  - right; right; right; right. reflexivity.
Qed.
(** [reads], by the size *)
Definition reads' (l : bytes) (c : Z) (a : arg) : option value := reads (mk [] [] None l c) a.
Lemma reads_is d a : reads d a = reads' (len d) (conv d) a. Proof. reflexivity. Qed.
Ltac oneof H := cbn in H; repeat (destruct H as [<-|H]; [try reflexivity|]); try destruct H.
Lemma r64_d l c v : l = bs "l" \/ l = bs "ll" -> In c (bs "di") -> reads' l c (A64 v) = Some (VInt (wrap_i 64 v)).
Proof. intros [-> | ->] C; oneof C. Qed.
Lemma r64_u l c v : l = bs "l" \/ l = bs "ll" -> In c (bs "uxXo") -> reads' l c (A64 v) = Some (VInt (wrap_u 64 v)).
Proof. intros [-> | ->] C; oneof C. Qed.
Lemma r32_d c v : In c (bs "di") -> reads' [] c (A32 v) = Some (VInt (wrap_i 32 v)). Proof. intros C. oneof C. Qed.
Lemma r32_u c v : In c (bs "uxXo") -> reads' [] c (A32 v) = Some (VInt (wrap_u 32 v)). Proof. intros C. oneof C. Qed.
Lemma r16_d c v : In c (bs "di") -> reads' (bs "h") c (A32 v) = Some (VInt (wrap_i 16 v)). Proof. intros C. oneof C. Qed.
Lemma r16_u c v : In c (bs "uxXo") -> reads' (bs "h") c (A32 v) = Some (VInt (wrap_u 16 v)). Proof. intros C. oneof C. Qed.
Lemma r8_d c v : In c (bs "di") -> reads' (bs "hh") c (A32 v) = Some (VInt (wrap_i 8 v)). Proof. intros C. oneof C. Qed.
Lemma r8_u c v : In c (bs "uxXo") -> reads' (bs "hh") c (A32 v) = Some (VInt (wrap_u 8 v)). Proof. intros C. oneof C. Qed.
Lemma r_f l c x : l = [] \/ l = bs "l" -> In c (bs "fgeGE") -> reads' l c (ADouble x) = Some (VFloat x). Proof. intros [-> | ->] C; oneof C. Qed.
Lemma sub_u c : In c (bs "xXo") -> In c (bs "uxXo"). Proof. cbn. tauto. Qed.
Lemma up_none l c k ks : l <> [] -> l ++ upgrade l c (k :: ks) = l. Proof. destruct l; [congruence|]. intros _. cbn [upgrade]. apply app_nil_r. Qed.
Ltac small := first [apply wrap_i_8|apply wrap_i_16|apply wrap_i_32|apply wrap_i_64|apply wrap_u_id]; try assumption; try (change (2 ^ 8) with 256 in *; change (2 ^ 16) with 65536 in *; change (2 ^ 32) with 4294967296 in *; change (2 ^ 64) with 18446744073709551616 in *; unfold INT64_MIN, INT64_MAX in *; lia).
Lemma sound_reads d ty v ks : typed (ty, v) -> sound d (ty, v) -> exists x, plain_value v = Some x /\ reads (up d (kind_of ty :: ks)) (emit_arg (ty, v)) = Some x.
Proof.
  intros T S. rewrite reads_is. cbn [len conv up mk]. destruct ty as [b|b| | | | | | |]; destruct v as [v|x|s|bb|]; cbn [sound] in S; try contradiction; cbn [typed] in T; cbn [kind_of plain_value].
  - destruct T as [Hb Iv]. exists (VInt v). split; [reflexivity|]. apply (in_i_bits b v Hb) in Iv.
    destruct S as [(-> & C & L)|[(-> & C & L & P)|[(B & C & L & P)|[(B & C & L & P)|[(B & C & L)|(-> & C & L)]]]]].
    + cbn [emit_arg]. change (64 <=? 32) with false. change (64 =? 64) with true. cbv iota. assert (R : INT64_MIN <= v <= INT64_MAX) by (destruct Iv as [[? ?]|[[? ?]|[[? ?]|[[? ?]|?]]]]; first [lia|assumption]).
      destruct L as [L|L].
      * rewrite L. cbn [upgrade app]. replace ((conv d =? 100) || (conv d =? 105)) with true by (cbn in C; lia). rewrite (r64_d (bs "ll")) by auto. now rewrite wrap_i_64.
      * rewrite up_none by (destruct L as [-> | ->]; discriminate). rewrite r64_d by assumption. now rewrite wrap_i_64.
    + cbn [emit_arg]. change (64 <=? 32) with false. change (64 =? 64) with true. cbv iota. assert (R : INT64_MIN <= v <= INT64_MAX) by (destruct Iv as [[? ?]|[[? ?]|[[? ?]|[[? ?]|?]]]]; first [lia|assumption]).
      rewrite up_none by (destruct L as [-> | ->]; discriminate). rewrite r64_u by (auto using sub_u). do 2 f_equal. small.
    + cbn [emit_arg]. replace (b <=? 32) with true by lia. rewrite L. cbn [upgrade app]. replace ((conv d =? 100) || (conv d =? 105)) with false by (cbn in C; lia). rewrite r32_u by (auto using sub_u). do 2 f_equal.
      assert (0 <= v < 2147483648) by lia. small.
    + cbn [emit_arg]. replace (b <=? 32) with true by lia. rewrite L, C. cbn [upgrade app]. change ((99 =? 100) || (99 =? 105)) with false. cbv iota. change (reads' [] 99 (A32 v)) with (Some (VInt (wrap_u 8 v))). do 2 f_equal. small.
    + cbn [emit_arg]. replace (b <=? 32) with true by lia. rewrite L. rewrite up_none by discriminate. rewrite r16_d by exact C. do 2 f_equal. assert (-32768 <= v < 32768) by lia. small.
    + cbn [emit_arg]. change (8 <=? 32) with true. cbv iota. rewrite L. rewrite up_none by discriminate. rewrite r8_d by exact C. do 2 f_equal. assert (-128 <= v < 128) by lia. small.
  - destruct T as [Hb Iv]. exists (VInt v). split; [reflexivity|]. apply (in_u_bits b v Hb) in Iv. change (2 ^ 8) with 256 in *. change (2 ^ 16) with 65536 in *. change (2 ^ 32) with 4294967296 in *. change (2 ^ 64) with 18446744073709551616 in *.
    destruct S as [(-> & C & L)|[(-> & C & L)|[(B & C & L)|[(B & C & L)|(-> & C & L)]]]].
    + cbn [emit_arg]. change (64 <=? 32) with false. change (64 =? 64) with true. cbv iota. rewrite C. destruct L as [L|L].
      * rewrite L. cbn [upgrade app]. change (117 =? 117) with true. cbv iota. rewrite (r64_u (bs "ll")) by (cbn; auto). do 2 f_equal. assert (0 <= v < 18446744073709551616) by lia. small.
      * rewrite up_none by (destruct L as [-> | ->]; discriminate). rewrite r64_u by (cbn; auto). do 2 f_equal. assert (0 <= v < 18446744073709551616) by lia. small.
    + cbn [emit_arg]. change (64 <=? 32) with false. change (64 =? 64) with true. cbv iota. rewrite up_none by (destruct L as [-> | ->]; discriminate). rewrite r64_u by (auto using sub_u). do 2 f_equal. assert (0 <= v < 18446744073709551616) by lia. small.
    + cbn [emit_arg]. replace (b <=? 32) with true by lia. rewrite L. cbn [upgrade app]. replace (conv d =? 117) with false by (cbn in C; lia). rewrite r32_u by (auto using sub_u). do 2 f_equal. assert (0 <= v < 4294967296) by lia. small.
    + cbn [emit_arg]. replace (b <=? 32) with true by lia. rewrite L. rewrite up_none by discriminate. rewrite r16_u by exact C. do 2 f_equal. assert (0 <= v < 65536) by lia. small.
    + cbn [emit_arg]. change (8 <=? 32) with true. cbv iota. rewrite L. rewrite up_none by discriminate. rewrite r8_u by exact C. do 2 f_equal. assert (0 <= v < 256) by lia. small.
  - exists (VInt v). split; [reflexivity|]. cbn [emit_arg]. assert (U : upgrade (len d) (conv d) (KByte :: ks) = []) by (unfold upgrade; destruct (len d); reflexivity). rewrite U, app_nil_r.
    assert (X : In (conv d) (bs "diuxXo") -> In (conv d) (bs "di") \/ In (conv d) (bs "uxXo")) by (cbn; tauto).
    destruct S as [[C [L|L]]|[C L]]; rewrite L.
    + destruct (X C) as [C'|C']; [rewrite r32_d by exact C'|rewrite r32_u by exact C']; do 2 f_equal; small.
    + destruct (X C) as [C'|C']; [rewrite r16_d by exact C'|rewrite r16_u by exact C']; do 2 f_equal; small.
    + rewrite r8_u by exact C. do 2 f_equal. small.
  - exists (VInt v). split; [reflexivity|]. cbn [emit_arg]. assert (U : upgrade (len d) (conv d) (KChar :: ks) = []) by (unfold upgrade; destruct (len d); reflexivity). rewrite U, app_nil_r.
    destruct S as [L [C|[C P]]]; rewrite L.
    + rewrite r32_d by exact C. do 2 f_equal. small.
    + rewrite C. change (reads' [] 99 (A32 v)) with (Some (VInt (wrap_u 8 v))). do 2 f_equal. small.
  - exists (VFloat x). split; [reflexivity|]. cbn [emit_arg]. assert (U : upgrade (len d) (conv d) (KFloat :: ks) = []) by (unfold upgrade; destruct (len d); reflexivity). rewrite U, app_nil_r. destruct S. now apply r_f.
  - exists (VStr s). split; [reflexivity|]. cbn [emit_arg]. assert (U : upgrade (len d) (conv d) (KString :: ks) = []) by (unfold upgrade; destruct (len d); reflexivity). rewrite U, app_nil_r. destruct S as (C & L & N).
    rewrite L, C. change (reads' [] 115 (AStr s)) with (Some (VStr (upto_nul s))). now rewrite upto_all.
Qed.
Lemma printf_cits lay ps tail : forall args, Forall piece_ok ps -> (forall i, In (Text i) ps -> text_ok i) -> tail = [] \/ tail = [10] -> Forall typed args -> Forall2 sound (dirs ps) args ->
  exists t, formatted lay ps args t /\ printf lay None (map denoted (cits ps (map kind_of (map fst args))) ++ tail) (map emit_arg args) = Some (t ++ tail).
Proof.
  induction ps as [|p ps IH]; intros args F T Tl Ty S.
  - inversion S; subst. exists []. split; [constructor|]. destruct Tl as [-> | ->]; reflexivity.
  - apply Forall_cons_iff in F as [O F]. assert (T' : forall i, In (Text i) ps -> text_ok i) by (intros i J; apply T; now right). destruct p as [i| |d]; cbn [cits map app].
    + destruct (IH args F T' Tl Ty S) as (t & A & B). exists (denoted i :: t). split; [now constructor|]. destruct (T i (or_introl eq_refl)) as (N & C & _). cbn [printf].
      replace (denoted i =? 0) with false by lia. replace (denoted i =? 37) with false by lia. rewrite B. reflexivity.
    + destruct (IH args F T' Tl Ty S) as (t & A & B). exists (37 :: t). split; [now constructor|]. cbn [denoted printf]. cbn [Z.eqb Pos.eqb]. change (next 0 (bare 0) 37) with (Done (bare 37)).
      change ((0 =? 0) && same (flags (bare 0)) []) with true. cbv iota. rewrite B. reflexivity.
    + change (dirs (Dir d :: ps)) with (d :: dirs ps) in S. inversion S as [|? [ty v] ? args' S1 S2]; subst. apply Forall_cons_iff in Ty as [Ty1 Ty]. destruct (IH args' F T' Tl Ty S2) as (t & A & B).
      destruct (sound_reads d ty v (map kind_of (map fst args')) Ty1 S1) as (x & P & R). exists (lay (flags d) (width d) (precision d) (conv d) x ++ t). split; [econstructor; eassumption|].
      cbn [denoted]. rewrite map_app, denoted_plain, <- app_assoc. cbn [printf]. cbn [Z.eqb Pos.eqb]. cbn [map fst].
      pose proof (up_lens d (kind_of ty :: map kind_of (map fst args')) O) as U. destruct (dir_spec d O) as (_ & L & N & _). rewrite printf_spec by (exact U || exact L || exact N).
      rewrite R. cbn [tl]. rewrite B. cbn [option_map]. rewrite app_assoc. reflexivity.
Qed.
