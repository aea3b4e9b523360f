(** Proofs about the format functions. *)
From Verif Require Import Base BaseFacts StringsModel EncodingModel LitSpec LitModel LitProofs LitProofs2 LitProofs3 FormatSpec FormatModel FormatProofs.
Ltac Zify.zify_post_hook ::= Z.div_mod_to_equations.

Notation Wp := (flat_map piece_written).

(** * Scanning a directive *)
Lemma span_spec p s : forall a b, span p s = (a, b) -> s = a ++ b /\ Forall (fun c => p c = true) a /\ (match b with c :: _ => p c = false | [] => True end).
Proof.
  induction s as [|c s IH]; intros a b E; cbn [span] in E.
  - injection E as <- <-. auto.
  - destruct (p c) eqn:P.
    + destruct (span p s) as [a' b']. injection E as <- <-. destruct (IH a' b' eq_refl) as (-> & F & B). split; [reflexivity|]. split; [now constructor|exact B].
    + injection E as <- <-. split; [reflexivity|]. split; [constructor|exact P].
Qed.
Lemma span_app p a b : Forall (fun c => p c = true) a -> (match b with c :: _ => p c = false | [] => True end) -> span p (a ++ b) = (a, b).
Proof.
  intros A B. induction A as [|c a C A IH]; cbn [app].
  - destruct b as [|c b]; [reflexivity|]. cbn [span]. rewrite B. reflexivity.
  - cbn [span]. rewrite C, IH. reflexivity.
Qed.
Lemma flag_is c : flag c = is_flag c. Proof. unfold flag, is_flag. cbn. rewrite orb_false_r, !orb_assoc. reflexivity. Qed.
Lemma span_flag s : span flag s = span is_flag s. Proof. induction s as [|c s IH]; [reflexivity|]. cbn [span]. now rewrite flag_is, IH. Qed.
Lemma letter_not c : letter c -> c <> 104 /\ c <> 108 /\ c <> 76.
Proof. intros (_ & _ & _ & H). cbn in H. lia. Qed.
Lemma take_len l c q : In l lens -> letter c -> take_length (l ++ c :: q) = (l, c :: q).
Proof.
  intros L H. apply letter_not in H as (A & B & C). cbn in L. destruct L as [<-|[<-|[<-|[<-|[<-|[<-|[]]]]]]]; cbn.
  - replace ((c =? 104) || (c =? 108)) with false by lia. replace (c =? 76) with false by lia. reflexivity.
  - replace (c =? 104) with false by lia. reflexivity.
  - reflexivity.
  - replace (c =? 108) with false by lia. reflexivity.
  - reflexivity.
  - reflexivity.
Qed.
(** The first character after the flags, the width, the precision *)
Lemma lens_head l c q (P : Z -> Prop) : In l lens -> P c -> P 104 -> P 108 -> P 76 -> match l ++ c :: q with x :: _ => P x | [] => True end.
Proof. intros L. cbn in L. destruct L as [<-|[<-|[<-|[<-|[<-|[<-|[]]]]]]]; cbn; auto. Qed.
Lemma take_spec_written d q : spec_ok d -> letter (conv d) -> take_spec (spec_written d ++ q) = (flags d ++ width d ++ prec_written (precision d), len d, conv d :: q).
Proof.
  intros (F & Wd & H & P & L) K. rewrite spec_split. rewrite <- !app_assoc. pose proof K as (K1 & K2 & K3 & K4).
  pose proof (lens_head (len d) (conv d) q (fun x => is_flag x = false /\ isdigit x = false /\ x <> 46) L (conj K1 (conj K2 K3)) ltac:(cbv beta; repeat split; discriminate) ltac:(cbv beta; repeat split; discriminate) ltac:(cbv beta; repeat split; discriminate)) as HL.
  unfold take_spec. rewrite span_flag, span_app; [|exact F|].
  2:{ destruct (width d) as [|c w] eqn:Ew; cbn [app].
      - destruct (precision d); cbn [prec_written app]; [reflexivity|]. destruct (len d ++ conv d :: q); [exact I|]. tauto.
      - apply Forall_cons_iff in Wd as [Wd _]. now apply digit_not_flag. }
  rewrite span_app; [|exact Wd|].
  2:{ destruct (precision d); cbn [prec_written app]; [reflexivity|]. destruct (len d ++ conv d :: q); [exact I|]. tauto. }
  assert (E : take_precision (prec_written (precision d) ++ len d ++ conv d :: q) = (prec_written (precision d), len d ++ conv d :: q)).
  { destruct (precision d) as [p|]; cbn [prec_written app].
    - cbn [take_precision]. change (46 =? 46) with true. cbv iota. rewrite span_app; [reflexivity|exact P|]. destruct (len d ++ conv d :: q); [exact I|]. tauto.
    - destruct (len d ++ conv d :: q) as [|x r]; [reflexivity|]. cbn [take_precision]. replace (x =? 46) with false by lia. reflexivity. }
  rewrite E, take_len by assumption. reflexivity.
Qed.
Lemma take_spec_inv s a l s4 : take_spec s = (a, l, s4) -> exists f w p, a = f ++ w ++ prec_written p /\ spec_ok (mk f w p l 0) /\ s = a ++ l ++ s4.
Proof.
  unfold take_spec. rewrite span_flag. destruct (span is_flag s) as [f s1] eqn:E1. destruct (span isdigit s1) as [w s2] eqn:E2. destruct (take_precision s2) as [c s3] eqn:E3.
  destruct (take_length s3) as [l' s4'] eqn:E4. intros H. injection H as <- <- <-. apply span_spec in E1 as (-> & F & B1). apply span_spec in E2 as (-> & D & B2).
  assert (X : exists p, c = prec_written p /\ (match p with Some p => numeral_ p | None => True end) /\ s2 = c ++ s3).
  { destruct s2 as [|x r]; cbn [take_precision] in E3; [injection E3 as <- <-; exists None; auto|]. destruct (x =? 46) eqn:X.
    - destruct (span isdigit r) as [a b] eqn:E. injection E3 as <- <-. apply span_spec in E as (-> & G & _). exists (Some a). split; [cbn; f_equal; lia|]. split; [exact G|reflexivity].
    - injection E3 as <- <-. exists None. auto. }
  destruct X as (p & -> & P & ->).
  assert (Y : In l' lens /\ s3 = l' ++ s4').
  { destruct s3 as [|x r]; cbn [take_length] in E4; [injection E4 as <- <-; split; [now left|reflexivity]|]. destruct ((x =? 104) || (x =? 108)) eqn:X.
    - assert (x = 104 \/ x = 108) as [-> | ->] by lia.
      + destruct r as [|y r]; [injection E4 as <- <-; split; [cbn; auto|reflexivity]|]. destruct (y =? 104) eqn:Y; injection E4 as <- <-; (split; [cbn; auto|]); [|reflexivity]. cbn. do 2 f_equal. lia.
      + destruct r as [|y r]; [injection E4 as <- <-; split; [cbn; tauto|reflexivity]|]. destruct (y =? 108) eqn:Y; injection E4 as <- <-; (split; [cbn; tauto|]); [|reflexivity]. cbn. do 2 f_equal. lia.
    - destruct (x =? 76) eqn:X2; injection E4 as <- <-; (split; [cbn|reflexivity]); [|auto]. assert (x = 76) by lia. subst x. tauto. }
  destruct Y as [L ->]. exists f, w, p. split; [reflexivity|]. split.
  - split; [exact F|]. split; [exact D|]. split; [|split; [exact P|exact L]]. destruct w as [|x w]; [discriminate|]. cbn [hd width mk]. cbn [app] in B1. intros ->. discriminate.
  - rewrite <- !app_assoc. reflexivity.
Qed.

(** * The check *)
Fixpoint errs (ds : list directive) (ks : list kind) : list Z :=
  match ds, ks with
  | d :: ds, k :: ks => (if kind_ok (conv d) k then [] else [3088]) ++ errs ds ks
  | _, _ => []
  end.
Lemma dir_spec d : dir_ok d -> spec_ok d /\ letter (conv d) /\ conv d <> 37 /\ conv d <> 110 /\ conv d <> 0 /\ known (conv d) = true.
Proof.
  intros (F & Wd & H & P & L & C). destruct (letter_known _ C) as (K & A & B & Z0). split; [exact (conj F (conj Wd (conj H (conj P L))))|]. split; [exact K|]. split; [exact A|]. split; [exact B|]. split; [exact Z0|].
  cbn in C. repeat (destruct C as [<-|C]; [reflexivity|]). destruct C.
Qed.
Lemma spec_head d q : spec_ok d -> letter (conv d) -> conv d <> 37 -> conv d <> 110 -> exists c r, spec_written d ++ q = c :: r /\ c <> 37 /\ c <> 110.
Proof.
  intros (F & Wd & H & P & L) K A B. rewrite spec_split, <- !app_assoc. destruct (flags d) as [|c f]; cbn [app].
  2:{ exists c, (f ++ width d ++ prec_written (precision d) ++ len d ++ conv d :: q). split; [reflexivity|]. apply Forall_cons_iff in F as [F _]. unfold is_flag in F. cbn in F. lia. }
  destruct (width d) as [|c w]; cbn [app].
  2:{ eexists c, _. split; [reflexivity|]. apply Forall_cons_iff in Wd as [Wd _]. unfold isdigit in Wd. lia. }
  destruct (precision d) as [p|]; cbn [prec_written app]; [eexists 46, _; split; [reflexivity|lia]|].
  assert (E : exists c r, len d ++ conv d :: q = c :: r) by (destruct (len d); cbn; eauto). destruct E as (c & r & E). exists c, r. split; [exact E|].
  pose proof (lens_head (len d) (conv d) q (fun x => x <> 37 /\ x <> 110) L (conj A B) ltac:(cbv beta; lia) ltac:(cbv beta; lia) ltac:(cbv beta; lia)) as HL. rewrite E in HL. exact HL.
Qed.
Lemma walk_plain fuel c r ks : c <> 37 -> walk (S fuel) (c :: r) ks = walk fuel r ks.
Proof. intros H. cbn [walk]. replace (c =? 37) with false by lia. reflexivity. Qed.
Lemma walk_dir fuel d q ks : dir_ok d -> walk (S fuel) (37 :: spec_written d ++ q) ks =
  let '(es, n) := walk fuel q (tl ks) in ((match ks with [] => [] | k :: _ => if kind_ok (conv d) k then [] else [3088] end) ++ es, S n).
Proof.
  intros D. destruct (dir_spec d D) as (O & L & A & B & _ & K). destruct (spec_head d q O L A B) as (c & r & E & C1 & C2).
  pose proof (take_spec_written d q O L) as T. rewrite E in *. cbn [walk]. change (37 =? 37) with true. cbn [negb]. replace (c =? 37) with false by lia. replace (c =? 110) with false by lia.
  rewrite T, K. cbn [negb]. reflexivity.
Qed.
Lemma walk_chars ps : Forall char_piece ps -> forall fuel ks, (length (Wp ps) <= fuel)%nat -> walk fuel (Wp ps) ks = (errs (dirs ps) ks, length (dirs ps)).
Proof.
  induction 1 as [|p ps C F IH]; intros fuel ks Le; [destruct fuel; reflexivity|]. destruct p as [[c|e v|h l v]| |d]; cbn in C; try contradiction; cbn [flat_map piece_written written app] in *.
  - destruct fuel as [|fuel]; [cbn in Le; lia|]. rewrite walk_plain by exact C. apply IH. cbn in Le. lia.
  - destruct fuel as [|fuel]; [cbn in Le; lia|]. cbn [walk]. cbn [Z.eqb Pos.eqb negb]. apply IH. cbn in Le. lia.
  - destruct fuel as [|fuel]; [cbn in Le; lia|]. rewrite walk_dir by exact C. rewrite IH.
    + change (dirs (Dir d :: ps)) with (d :: dirs ps). cbn [length errs]. destruct ks as [|k ks]; [destruct (dirs ps); reflexivity|reflexivity].
    + cbn [length] in Le. rewrite app_length in Le. lia.
Qed.
Lemma walk_accepts : forall fuel p ks n, (length p <= fuel)%nat -> walk fuel p ks = ([], n) -> exists ps, Forall char_piece ps /\ p = Wp ps.
Proof.
  induction fuel as [|fuel IH]; intros p ks n Le E.
  - destruct p; [|cbn in Le; lia]. exists []. auto.
  - destruct p as [|c r]; [exists []; auto|]. cbn [walk] in E. cbn [length] in Le. destruct (c =? 37) eqn:C; cbn [negb] in E.
    + assert (c = 37) by lia. subst c. destruct r as [|d r2]; [discriminate|]. destruct (d =? 37) eqn:D.
      * destruct (IH r2 ks n) as (ps & F & ->); [cbn in Le; lia|exact E|]. exists (Percent :: ps). split; [now constructor|]. cbn. do 2 f_equal. lia.
      * destruct (d =? 110) eqn:N; [discriminate|]. destruct (take_spec (d :: r2)) as [[a l] s] eqn:T. destruct (take_spec_inv _ _ _ _ T) as (f & w & p & -> & O & S). destruct s as [|spec q]; [discriminate|].
        destruct (walk fuel q (tl ks)) as [es m] eqn:E'. injection E as E Em. apply app_eq_nil in E as [E1 E2]. subst es.
        assert (Lq : (length q <= fuel)%nat). { rewrite S in Le. rewrite !app_length in Le. cbn [length] in Le. lia. }
        destruct (IH q _ m Lq E') as (ps & F & ->).
        assert (K : known spec = true) by (destruct (known spec); [reflexivity|discriminate E1]).
        exists (Dir (mk f w p l spec) :: ps). split.
        -- constructor; [|exact F]. destruct O as (O1 & O2 & O3 & O4 & O5). cbn [char_piece]. split; [exact O1|]. split; [exact O2|]. split; [exact O3|]. split; [exact O4|]. split; [exact O5|].
           unfold known in K. cbn in K. cbn [conv mk]. clear -K. cbn.
           repeat (match type of K with context [spec =? ?k] => destruct (spec =? k) eqn:?E; [assert (spec = k) by lia; subst spec; cbn; tauto|cbn [orb] in K] end). discriminate.
        -- cbn [flat_map piece_written]. cbn [app]. f_equal. rewrite S. rewrite spec_split. cbn [flags width precision len conv mk]. rewrite <- !app_assoc. reflexivity.
    + destruct (IH r ks n) as (ps & F & ->); [lia|exact E|]. exists (Text (Plain c) :: ps). split; [constructor; [cbn; lia|exact F]|]. reflexivity.
Qed.
Definition takesb (c : Z) (t : gty) : bool :=
  match t with
  | GInt _ => one_of (bs "dixXocb") c | GUint _ => one_of (bs "uxXob") c | GByte => one_of (bs "diuxXob") c | GChar => one_of (bs "dicb") c
  | GFloat => one_of (bs "fgeGEb") c | GString => one_of (bs "sb") c | GBool | GEnum => c =? 98 | GOther => false
  end.
Lemma one_of_in s c : one_of s c = true <-> In c s.
Proof. unfold one_of. rewrite existsb_exists. split; [intros (x & I & E); assert (c = x) by lia; now subst|intros I; exists c; split; [exact I|lia]]. Qed.
Lemma takesb_iff c t : takes c t <-> takesb c t = true.
Proof. destruct t; cbn [takes takesb]; try (symmetry; apply one_of_in); lia. Qed.
Lemma takes_iff c t : In c (bs "diuxXofgeGEscb") -> takes c t <-> kind_ok c (kind_of t) = true /\ kind_of t <> KStruct.
Proof.
  intros C.
  assert (X : forall x, In x (bs "diuxXofgeGEscb") -> forallb (fun t => Bool.eqb (takesb x t) (kind_ok x (kind_of t) && negb (match kind_of t with KStruct => true | _ => false end)))
    [GInt 0; GUint 0; GByte; GChar; GFloat; GString; GBool; GEnum; GOther] = true).
  { apply Forall_forall. repeat constructor. }
  specialize (X c C). rewrite forallb_forall in X.
  assert (Y : takesb c t = (kind_ok c (kind_of t) && negb (match kind_of t with KStruct => true | _ => false end))).
  { destruct t; cbn [kind_of]; apply eqb_prop;
      first [apply (X GByte); cbn; tauto|apply (X GChar); cbn; tauto|apply (X GFloat); cbn; tauto|apply (X GString); cbn; tauto|apply (X GBool); cbn; tauto
            |apply (X GEnum); cbn; tauto|apply (X GOther); cbn; tauto|apply (X (GInt 0)); cbn; tauto|apply (X (GUint 0)); cbn; tauto]. }
  rewrite takesb_iff, Y, andb_true_iff. apply and_iff_compat_l. destruct (kind_of t); cbn; split; congruence.
Qed.
Lemma errs_takes ds : forall ts, Forall dir_ok ds -> length ds = length ts ->
  (errs ds (map kind_of ts) = [] /\ flat_map (fun t => match kind_of t with KStruct => [3017] | _ => [] end) ts = [] <-> Forall2 (fun d t => takes (conv d) t) ds ts).
Proof.
  induction ds as [|d ds IH]; intros [|t ts] F L; try discriminate; [split; [constructor|split; reflexivity]|]. apply Forall_cons_iff in F as [D F]. cbn [length] in L.
  specialize (IH ts F ltac:(lia)). destruct D as (_ & _ & _ & _ & _ & C). pose proof (takes_iff _ t C) as T. cbn [errs map flat_map]. split.
  - intros [A B]. apply app_eq_nil in A as [A1 A2]. apply app_eq_nil in B as [B1 B2]. constructor; [|apply IH; auto]. apply T. split; [destruct (kind_ok (conv d) (kind_of t)); [reflexivity|discriminate]|].
    intros K. rewrite K in B1. discriminate.
  - intros H. inversion H as [|? ? ? ? H1 H2]; subst. apply T in H1 as [A B]. apply IH in H2 as [H2 H3]. rewrite A, H2, H3. split; [reflexivity|]. destruct (kind_of t); try reflexivity. congruence.
Qed.
Lemma check_iff fmt ts : check_format fmt ts = [] <->
  exists ps, Forall char_piece ps /\ fmt = Wp ps /\ Forall2 (fun d t => takes (conv d) t) (dirs ps) ts.
Proof.
  assert (DK : forall ps, Forall char_piece ps -> Forall dir_ok (dirs ps)).
  { induction 1 as [|p ps C F IH]; [constructor|]. destruct p as [i| |d]; cbn; auto. }
  assert (X : forall ps, Forall char_piece ps -> check_format (Wp ps) ts = [] <-> Forall2 (fun d t => takes (conv d) t) (dirs ps) ts).
  { intros ps F. unfold check_format. rewrite walk_chars by (exact F || reflexivity). specialize (DK ps F). split.
    - intros E. apply app_eq_nil in E as [E1 E]. apply app_eq_nil in E as [E2 E3]. apply errs_takes; [exact DK| |auto].
      destruct (length ts <? length (dirs ps))%nat eqn:A; [discriminate|]. destruct (length (dirs ps) <? length ts)%nat eqn:B; [discriminate|]. lia.
    - intros H. assert (L : length (dirs ps) = length ts). { clear -H. induction H; cbn; congruence. }
      apply errs_takes in H as [-> ->]; [|exact DK|exact L]. rewrite L, Nat.ltb_irrefl. reflexivity. }
  split.
  - intros E. pose proof E as E0. unfold check_format in E. destruct (walk (length fmt) fmt (map kind_of ts)) as [es n] eqn:W0. apply app_eq_nil in E as [-> _].
    destruct (walk_accepts _ _ _ _ (le_n _) W0) as (ps & F & ->). exists ps. split; [exact F|]. split; [reflexivity|]. now apply X.
  - intros (ps & F & -> & H). now apply X.
Qed.
