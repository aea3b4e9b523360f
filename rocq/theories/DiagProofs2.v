(** Proofs about diagnostics: colours, the summary, and a whole run. *)
From Verif Require Import Base BaseFacts LexModel LexProofs ImportModel ImportProofs.
From Verif Require Import DiagModel DiagSpec DiagProofs Decimal DecimalFacts.

Definition plain (a b : bytes) : Prop := forall r, uncoloured false (a ++ r) = b ++ uncoloured false r.
Lemma plain_app a a' b b' : plain a a' -> plain b b' -> plain (a ++ b) (a' ++ b').
Proof. intros A B r. now rewrite <- !app_assoc, A, B. Qed.
Lemma plain_nil : plain [] []. Proof. now intros r. Qed.
Lemma plain_text t : no_escape t -> plain t t.
Proof.
  intros N r. unfold no_escape in N. induction t as [|c t IH]; [reflexivity|]. cbn [app uncoloured]. destruct (Z.eqb_spec c 27) as [->|]; [exfalso; apply N; now left|].
  f_equal. apply IH. intros H. apply N. now right.
Qed.
Lemma plain_flat {A} (f g : A -> bytes) l : (forall x, In x l -> plain (f x) (g x)) -> plain (flat_map f l) (flat_map g l).
Proof. induction l as [|x l IH]; intros H; [apply plain_nil|]. cbn [flat_map]. apply plain_app; [apply H; now left|apply IH; intros y Hy; apply H; now right]. Qed.
Lemma plain_col c n : ~ In 109 n -> plain (col c n) (col false n).
Proof.
  intros N. destruct c; [|apply plain_nil]. unfold col, ESC. intros r. cbn [app uncoloured]. rewrite Z.eqb_refl.
  change (negb (91 =? 109)) with true. rewrite <- app_assoc. induction n as [|x n IH]; [cbn [app uncoloured]; reflexivity|].
  cbn [app uncoloured]. destruct (Z.eqb_spec x 109) as [->|]; [exfalso; apply N; now left|]. apply IH. intros H. apply N. now right.
Qed.
Lemma digits_no_escape l : Forall is_digit l -> no_escape l.
Proof. intros F H. rewrite Forall_forall in F. apply F in H. unfold is_digit in H. lia. Qed.
Lemma dec_no_escape n : no_escape (dec_signed n).
Proof.
  unfold dec_signed. destruct (Z.ltb_spec n 0).
  - intros [K|K]; [discriminate K|]. revert K. apply digits_no_escape, dec_digit. lia.
  - apply digits_no_escape, dec_digit. lia.
Qed.
Lemma repeat_no_escape c n : c <> 27 -> no_escape (repeat c n).
Proof. intros H I. apply repeat_spec in I. congruence. Qed.
Lemma app_no_escape a b : no_escape a -> no_escape b -> no_escape (a ++ b).
Proof. intros A B I. apply in_app_iff in I as [I|I]; [now apply A|now apply B]. Qed.
Lemma const_no_escape s : forallb (fun c => negb (c =? 27)) s = true -> no_escape s.
Proof. intros F I. rewrite forallb_forall in F. apply F in I. discriminate. Qed.
Lemma const_no_m s : forallb (fun c => negb (c =? 109)) s = true -> ~ In 109 s.
Proof. intros F I. rewrite forallb_forall in F. apply F in I. discriminate. Qed.
Ltac plain_step :=
  first [apply plain_app
        |apply plain_col, const_no_m; vm_compute; reflexivity
        |apply plain_nil
        |apply plain_text; first [assumption|apply const_no_escape; vm_compute; reflexivity|apply dec_no_escape|apply repeat_no_escape; discriminate
          |unfold pad3; apply app_no_escape; [apply repeat_no_escape; discriminate|apply dec_no_escape]]].
Lemma render_uncoloured c d line : escape_free d line -> plain (render c d line) (unlines (excerpt d line)).
Proof.
  rewrite <- render_plain. unfold escape_free, render. cbv zeta. intros (H1 & H2 & H3 & H4 & H5).
  destruct (is_error d), (code d), (dfile d), line, (help d), (0 <? dline d); cbn [opt_no_escape] in *; repeat plain_step.
Qed.
(** ** The summary. *)
Lemma summary_plain l q : accepted q -> set_by q l -> 0 <= error_count l -> use_color l = false ->
  diagnostic_print_summary l = unlines (summary q (error_count l) (Z.of_nat (length (filter (fun d => negb (is_error d) && negb (is_warning_suppressed l d)) (items l))))).
Proof.
  intros Aq B E C. unfold diagnostic_print_summary, summary. cbv zeta. rewrite C. set (v := Z.of_nat _). assert (V : 0 <= v) by lia. clearbody v. set (e := error_count l) in *. clearbody e.
  assert (De : dec_signed e = dec e) by (unfold dec_signed; destruct (Z.ltb_spec e 0); [lia|reflexivity]).
  assert (Dv : dec_signed v = dec v) by (unfold dec_signed; destruct (Z.ltb_spec v 0); [lia|reflexivity]). rewrite De, Dv.
  unfold plural, col, unlines.
  assert (Q : match q with QNone | QCodes [] => negb (suppress_all l) && match suppressed l with [] => true | _ => false end = true
              | QRejected => True | _ => negb (suppress_all l) && match suppressed l with [] => true | _ => false end = false end).
  { destruct q as [| |k|]; cbn [set_by] in B; [destruct B as [-> ->]; reflexivity|rewrite B; reflexivity|destruct B as [-> ->]; now destruct k|exact I]. }
  rewrite <- !andb_assoc.
  destruct (Z.eqb_spec e 0) as [->|Ne], (Z.eqb_spec v 0) as [->|Nv]; cbn [andb]; try reflexivity.
  all: try (replace (0 <? e) with true by (symmetry; apply Z.ltb_lt; lia)); try (replace (0 <? v) with true by (symmetry; apply Z.ltb_lt; lia)); cbn [andb].
  all: cbn [Z.ltb Z.compare]; bytes_out.
  all: destruct q as [| |[|k ks]|]; [| | | |destruct Aq]; rewrite ?Q; cbn [flat_map app];
    repeat match goal with |- context [if ?x =? 1 then _ else _] => destruct (x =? 1) end; repeat (rewrite <- ?app_assoc, ?app_nil_r; cbn [app]); reflexivity.
Qed.
Definition decoloured (l : dlist) : dlist := DList (items l) (dcap l) (error_count l) (warning_count l) (cache l) (clock l) false (suppress_all l) (suppressed l).
Lemma summary_uncoloured l : plain (diagnostic_print_summary l) (diagnostic_print_summary (decoloured l)).
Proof.
  unfold diagnostic_print_summary. cbv zeta. cbn [use_color error_count items suppress_all suppressed decoloured].
  change (fun d => negb (is_error d) && negb (is_warning_suppressed (decoloured l) d)) with (fun d => negb (is_error d) && negb (is_warning_suppressed l d)).
  set (v := Z.of_nat _). clearbody v. set (e := error_count l). clearbody e.
  repeat match goal with |- context [if ?x then _ else _] => destruct x end; repeat plain_step.
Qed.
(** ** A run. *)
Definition color_of (tty no_color : bool) : bool := tty && negb no_color.
Lemma start_ok disk tty nc f src q : accepted q -> let l := start tty nc f src q in
  record_of l [] /\ cached disk f src (cache l) /\ set_by q l /\ use_color l = color_of tty nc.
Proof.
  intros A. cbv zeta. unfold start, color_of.
  assert (X : forall l, items l = [] -> dcap l = 0 -> error_count l = 0 -> warning_count l = 0 -> record_of l []).
  { intros l H1 H2 H3 H4. constructor; rewrite ?H1, ?H2, ?H3, ?H4; cbn; try reflexivity; lia. }
  assert (Y : cached disk f src (cache (diagnostic_set_source (diagnostic_create tty) f src))).
  { constructor.
    - reflexivity.
    - eexists. split; reflexivity.
    - cbn [diagnostic_set_source cache diagnostic_create set_slot firstn skipn app repeat In]. intros s Hs.
      destruct Hs as [<-|[<-|[<-|[<-|[]]]]]; unfold holds_text; cbn [path empty_slot]; try exact I. exists src. split; [|reflexivity].
      unfold content. destruct (list_eq_dec Z.eq_dec f f); [reflexivity|contradiction]. }
  destruct q as [| |ks|]; [| | |destruct A]; destruct nc; cbn [configure]; (split; [apply X; reflexivity|]; split; [exact Y|]; split; [cbn [set_by]; now repeat split|now destruct tty]).
Qed.
Lemma set_by_grown q l l' : grown l l' -> set_by q l -> set_by q l'.
Proof. intros (_ & _ & _ & A & B). destruct q; cbn [set_by]; rewrite ?A, ?B; auto. Qed.
Lemma filter_twice {A} (p q : A -> bool) l : filter (fun x => p x && q x) l = filter p (filter q l).
Proof. induction l as [|x l IH]; [reflexivity|]. cbn [filter]. destruct (q x) eqn:Q; cbn [filter]; destruct (p x); cbn [andb]; now rewrite ?IH. Qed.
Lemma visible_count q l r : shown q (items l) r -> set_by q l ->
  filter (fun d => negb (is_error d) && negb (is_warning_suppressed l d)) (items l) = filter (fun d => negb (is_error d)) r.
Proof. intros H B. now rewrite (shown_unique q (items l) r _ H (shown_filter q l (items l) B)), filter_twice. Qed.
Lemma unlines_app a b : unlines (a ++ b) = unlines a ++ unlines b.
Proof. apply flat_map_app. Qed.
Lemma unlines_flat {A} (g : A -> list bytes) l : unlines (flat_map g l) = flat_map (fun x => unlines (g x)) l.
Proof. induction l as [|x l IH]; [reflexivity|]. cbn [flat_map]. now rewrite unlines_app, IH. Qed.
Lemma print_spec disk f src l ds q r : accepted q -> record_of l ds -> cached disk f src (cache l) -> set_by q l -> shown q (recorded 20 ds) r ->
  (use_color l = false -> diagnostic_print_all disk l ++ diagnostic_print_summary l = printed disk f src q ds r) /\
  ((forall d, In d ds -> escape_free d (its_line disk f src d)) -> uncoloured false (diagnostic_print_all disk l ++ diagnostic_print_summary l) = printed disk f src q ds r).
Proof.
  intros A R C B H. unfold diagnostic_print_all. rewrite (print_items_spec disk f src l (items l) (cache l) (clock l) C).
  rewrite <- (r_items l ds R) in H. rewrite <- (shown_unique q _ _ _ H (shown_filter q l (items l) B)).
  unfold printed. rewrite unlines_app, unlines_flat, <- (r_errors l ds R), <- (visible_count q l r H B).
  assert (E0 : 0 <= error_count l) by (rewrite (r_errors l ds R); unfold errors; lia). split.
  - intros U. rewrite U. rewrite (summary_plain l q A B E0 U). f_equal. apply flat_map_ext. intros d. apply render_plain.
  - intros F. assert (P : plain (flat_map (fun d => render (use_color l) d (its_line disk f src d)) r ++ diagnostic_print_summary l)
       (flat_map (fun d => unlines (excerpt d (its_line disk f src d))) r ++ diagnostic_print_summary (decoloured l))).
    { apply plain_app; [|apply summary_uncoloured]. apply plain_flat. intros d Hd. apply render_uncoloured, F.
      assert (S1 : forall a b, shown q a b -> forall d, In d b -> In d a).
      { clear. intros a b S. induction S; intros d' Hd'; [destruct Hd'|destruct Hd' as [<-|Hd']; [now left|right; now apply IHS]|right; now apply IHS]. }
      assert (S2 : forall n a, forall d, In d (recorded n a) -> In d a).
      { clear. intros n a. revert n. induction a as [|x a IH]; intros n d Hd; [destruct Hd|]. cbn [recorded] in Hd.
        destruct (sev x); [destruct n as [|n]|]; try (right; exact (IH _ _ Hd)); (destruct Hd as [<-|Hd]; [now left|right; exact (IH _ _ Hd)]). }
      apply (S2 20%nat). rewrite <- (r_items l ds R). eapply S1; eauto. }
    specialize (P []). rewrite app_nil_r in P. rewrite P. cbn [uncoloured]. rewrite app_nil_r. f_equal.
    apply (summary_plain (decoloured l) q A); [destruct q; exact B|exact E0|reflexivity].
Qed.
Lemma shown_nil_summary q ds r : ds = [] -> shown q (recorded 20 ds) r -> r = [].
Proof. intros -> H. inversion H. reflexivity. Qed.
Lemma run_spec disk tty nc f src q ds1 ds2 r : accepted q -> Z.of_nat (length ds1 + length ds2) < 536870912 -> shown q (recorded 20 (reported ds1 ds2)) r ->
  exists out, front disk (start tty nc f src q) ds1 ds2 = Ok (out, if existsb is_error (reported ds1 ds2) then Some 1 else None) /\
    (color_of tty nc = false -> out = printed disk f src q (reported ds1 ds2) r) /\
    ((forall d, In d (reported ds1 ds2) -> escape_free d (its_line disk f src d)) -> uncoloured false out = printed disk f src q (reported ds1 ds2) r).
Proof.
  intros A L H. destruct (start_ok disk tty nc f src q A) as (R0 & C0 & B0 & U0). cbv zeta in *. set (l0 := start tty nc f src q) in *. clearbody l0.
  unfold front. destruct (add_all_spec l0 ds1 l0 [] R0 (grown_refl l0)) as (l1 & -> & R1 & G1); [cbn [length]; lia|]. cbn [rbind app] in *.
  rewrite (has_errors_iff l1 ds1 R1). unfold reported in *.
  assert (Fin : forall l ds, record_of l ds -> grown l0 l -> forall r, shown q (recorded 20 ds) r ->
     (color_of tty nc = false -> diagnostic_print_all disk l ++ diagnostic_print_summary l = printed disk f src q ds r) /\
     ((forall d, In d ds -> escape_free d (its_line disk f src d)) -> uncoloured false (diagnostic_print_all disk l ++ diagnostic_print_summary l) = printed disk f src q ds r)).
  { intros l ds R G r' H'. pose proof G as (Gc & _ & Gu & _). destruct (print_spec disk f src l ds q r' A R) as [P1 P2].
    - rewrite Gc. exact C0.
    - eapply set_by_grown; eauto.
    - exact H'.
    - split; [|exact P2]. intros U. apply P1. now rewrite Gu, U0. }
  destruct (existsb is_error ds1) eqn:E1.
  - rewrite E1. eexists. split; [reflexivity|]. exact (Fin l1 ds1 R1 G1 r H).
  - destruct (add_all_spec l0 ds2 l1 ds1 R1 G1) as (l2 & -> & R2 & G2); [lia|]. cbn [rmap]. rewrite (has_errors_iff l2 _ R2).
    destruct (existsb is_error (ds1 ++ ds2)) eqn:E2.
    + eexists. split; [reflexivity|]. exact (Fin l2 _ R2 G2 r H).
    + cbn [negb]. rewrite andb_true_r. rewrite (r_warnings l2 _ R2). destruct (Z.ltb_spec 0 (Z.of_nat (length (filter (fun d => negb (is_error d)) (ds1 ++ ds2))))) as [W|W].
      * eexists. split; [reflexivity|]. exact (Fin l2 _ R2 G2 r H).
      * eexists. split; [reflexivity|]. assert (N : ds1 ++ ds2 = []).
        { destruct (ds1 ++ ds2) as [|d ds]; [reflexivity|]. exfalso. cbn [existsb filter] in *. apply orb_false_iff in E2 as [E2 _]. rewrite E2 in W. cbn [negb length] in W. lia. }
        rewrite N in *. cbn [recorded] in H. inversion H. subst r. split; intros _; reflexivity.
Qed.
Lemma quiet_spec a : quiet_option (Some a) =
  if hd 0 a =? 87 then if forallb (fun k => hd 0 k =? 87) (codes a) then QCodes (codes a) else QRejected else if hd 0 a =? 69 then QRejected else QAll.
Proof.
  unfold quiet_option. rewrite codes_strtok. cbv zeta. assert (E : forall l, forallb (fun t => negb (hd 0 t =? 69) && (hd 0 t =? 87)) l = forallb (fun k => hd 0 k =? 87) l).
  { induction l as [|k l IH]; [reflexivity|]. cbn [forallb]. rewrite IH. f_equal. destruct (Z.eqb_spec (hd 0 k) 87) as [->|]; [reflexivity|]. apply andb_false_r. }
  now rewrite E.
Qed.
