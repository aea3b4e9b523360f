(** Proofs about diagnostics. *)
From Verif Require Import Base BaseFacts LexModel LexProofs ImportModel ImportProofs.
From Verif Require Import DiagModel DiagSpec Decimal DecimalFacts.

(** ** Recording. *)
Definition grown (l l' : dlist) : Prop :=
  cache l' = cache l /\ clock l' = clock l /\ use_color l' = use_color l /\ suppress_all l' = suppress_all l /\ suppressed l' = suppressed l.
Lemma grown_refl l : grown l l. Proof. repeat split. Qed.
Lemma grown_trans a b c : grown a b -> grown b c -> grown a c.
Proof. intros (A1 & A2 & A3 & A4 & A5) (B1 & B2 & B3 & B4 & B5). repeat split; congruence. Qed.
(** [l] holds the diagnostics [ds]. *)
Record record_of (l : dlist) (ds : list diagnostic) : Prop := {
  r_items : items l = recorded 20 ds;
  r_errors : error_count l = errors (recorded 20 ds);
  r_warnings : warning_count l = Z.of_nat (length (filter (fun d => negb (is_error d)) ds));
  r_cap : Z.of_nat (length (items l)) <= dcap l;
  r_cap2 : dcap l = 0 \/ dcap l <= Z.max 16 (2 * Z.of_nat (length (items l)));
  r_len : (length (items l) <= length ds)%nat
}.
Lemma recorded_snoc n ds d : recorded n (ds ++ [d]) = recorded n ds ++ (if is_error d && (n <=? length (filter is_error ds))%nat then [] else [d]).
Proof.
  revert n. induction ds as [|x ds IH]; intros n; cbn [app recorded filter].
  - unfold is_error. destruct (sev d); cbn [andb length]; [|destruct n; reflexivity]. destruct n; reflexivity.
  - unfold is_error at 2. destruct (sev x); [|cbn [app]; now rewrite IH]. destruct n as [|n]; rewrite IH; cbn [length app]; [|reflexivity].
    destruct (is_error d); reflexivity.
Qed.
Lemma errors_recorded n ds : length (filter is_error (recorded n ds)) = Nat.min n (length (filter is_error ds)).
Proof.
  revert n. induction ds as [|x ds IH]; intros n; cbn [recorded filter]; [cbn [filter length]; lia|]. unfold is_error at 2. destruct (sev x) eqn:E.
  - destruct n as [|n]; [rewrite IH; cbn [length]; lia|]. cbn [filter]. unfold is_error at 1. rewrite E. cbn [length]. rewrite IH. reflexivity.
  - cbn [filter]. unfold is_error at 1. rewrite E. apply IH.
Qed.
Lemma warnings_recorded n ds : length (filter (fun d => negb (is_error d)) (recorded n ds)) = length (filter (fun d => negb (is_error d)) ds).
Proof.
  revert n. induction ds as [|x ds IH]; intros n; cbn [recorded filter]; [reflexivity|]. unfold is_error at 2. destruct (sev x) eqn:E; cbn [negb].
  - destruct n as [|n]; [apply IH|]. cbn [filter]. unfold is_error at 1. rewrite E. apply IH.
  - cbn [filter]. unfold is_error at 1. rewrite E. cbn [negb length]. now rewrite IH.
Qed.
Lemma add_spec l ds d : record_of l ds -> Z.of_nat (length ds) < 536870912 -> exists l', diagnostic_add l d = Ok l' /\ record_of l' (ds ++ [d]) /\ grown l l'.
Proof.
  intros [I E W C C2 L] B. unfold diagnostic_add. pose proof (recorded_snoc 20 ds d) as S0. pose proof (errors_recorded 20 ds) as M.
  assert (E' : error_count l = Z.of_nat (Nat.min 20 (length (filter is_error ds)))) by (rewrite E; unfold errors; now rewrite M).
  assert (D : is_error d && (MAX_ERRORS_DISPLAYED <=? error_count l) = (is_error d && (20 <=? length (filter is_error ds))%nat)).
  { f_equal. rewrite E'. unfold MAX_ERRORS_DISPLAYED. destruct (Z.leb_spec 20 (Z.of_nat (Nat.min 20 (length (filter is_error ds))))), (Nat.leb_spec 20 (length (filter is_error ds))); try reflexivity; lia. }
  rewrite D in *. destruct (is_error d && (20 <=? length (filter is_error ds))%nat) eqn:F.
  - exists l. split; [reflexivity|]. split; [|apply grown_refl]. rewrite app_nil_r in S0. apply andb_true_iff in F as [F _]. constructor; try assumption.
    + now rewrite S0.
    + now rewrite S0.
    + rewrite W, filter_app. cbn [filter]. rewrite F. cbn [negb]. now rewrite app_nil_r.
    + rewrite app_length. lia.
  - assert (Cx : exists c, (if dcap l <=? Z.of_nat (length (items l)) then if dcap l =? 0 then Ok 16 else if INT32_MAX <? dcap l * 2 then UB else Ok (dcap l * 2) else Ok (dcap l)) = Ok c /\
       Z.of_nat (length (items l)) + 1 <= c <= Z.max 16 (2 * (Z.of_nat (length (items l)) + 1))).
    { destruct (Z.leb_spec (dcap l) (Z.of_nat (length (items l)))).
      - destruct (Z.eqb_spec (dcap l) 0).
        + exists 16. split; [reflexivity|]. lia.
        + unfold INT32_MAX. destruct (Z.ltb_spec 2147483647 (dcap l * 2)); [lia|]. eexists. split; [reflexivity|]. lia.
      - eexists. split; [reflexivity|]. lia. }
    destruct Cx as (c & -> & Hc). cbn [rbind]. eexists. split; [reflexivity|]. split; [|repeat split]. constructor; cbn [items error_count warning_count dcap].
    + now rewrite S0, I.
    + rewrite S0. unfold errors. rewrite filter_app, app_length. cbn [filter]. rewrite E. unfold errors. destruct (is_error d); cbn [length]; lia.
    + rewrite W, filter_app, app_length. cbn [filter]. destruct (is_error d); cbn [negb length]; lia.
    + rewrite app_length. cbn [length]. lia.
    + right. rewrite app_length. cbn [length]. lia.
    + rewrite !app_length. cbn [length]. lia.
Qed.
Lemma add_all_spec l0 ds : forall l ds0, record_of l ds0 -> grown l0 l -> Z.of_nat (length ds0 + length ds) < 536870912 ->
  exists l', add_all l ds = Ok l' /\ record_of l' (ds0 ++ ds) /\ grown l0 l'.
Proof.
  induction ds as [|d ds IH]; intros l ds0 R G B; unfold add_all; cbn [fold_left].
  - exists l. rewrite app_nil_r. split; [reflexivity|]. now split.
  - cbn [rbind length] in *. destruct (add_spec l ds0 d R) as (l1 & -> & R1 & G1); [lia|]. destruct (IH l1 (ds0 ++ [d]) R1) as (l2 & E2 & R2 & G2).
    + eapply grown_trans; eauto.
    + rewrite app_length. cbn [length]. lia.
    + exists l2. split; [exact E2|]. rewrite <- app_assoc in R2. now split.
Qed.
Lemma has_errors_iff l ds : record_of l ds -> diagnostic_has_errors l = existsb is_error ds.
Proof.
  intros R. unfold diagnostic_has_errors. rewrite (r_errors l ds R). unfold errors. rewrite errors_recorded.
  assert (X : existsb is_error ds = (0 <? length (filter is_error ds))%nat).
  { clear. induction ds as [|d ds IH]; [reflexivity|]. cbn [existsb filter]. now destruct (is_error d). }
  rewrite X. destruct (Nat.ltb_spec 0 (length (filter is_error ds))); lia.
Qed.
(** ** Source lines. *)
Lemma pieces_cons sep s : exists h t, pieces sep s = h :: t.
Proof. induction s as [|c s IH]; cbn [pieces]; [now eexists _, _|]. destruct (c =? sep); [now eexists _, _|]. destruct IH as (h & t & ->). now eexists _, _. Qed.
Lemma index_lines s : map to_newline (build_line_index s) = lines s.
Proof.
  unfold build_line_index, lines. induction s as [|c s IH]; [reflexivity|]. cbn [map to_newline after_newlines pieces]. destruct (c =? 10).
  - cbn [map]. cbn [map] in IH. now rewrite IH.
  - cbn [map] in IH. now rewrite <- IH.
Qed.
Lemma read_line s n : read_source_line (build_line_index s) n = line_no s n.
Proof.
  unfold read_source_line, line_no. rewrite <- index_lines. set (l := build_line_index s). clearbody l. destruct (Z.ltb_spec n 1); cbn [orb]; [reflexivity|].
  change (Z.to_nat (SOURCE_LINE_MAX - 1)) with (Z.to_nat 2047).
  rewrite nth_error_map. destruct (Z.ltb_spec (Z.of_nat (length l)) n).
  - assert (X : nth_error l (Z.to_nat (n - 1)) = None) by (apply nth_error_None; lia). now rewrite X.
  - now destruct (nth_error l (Z.to_nat (n - 1))).
Qed.
Section Cache.
Context (disk : bytes -> option bytes) (input_file source : bytes).
Definition holds_text (s : cslot) : Prop := match path s with None => True | Some p => exists t, content disk input_file source p = Some t /\ offsets s = build_line_index t end.
Record cached (c : list cslot) : Prop := {
  c_len : length c = 4%nat;
  c_main : exists s, nth_error c 0 = Some s /\ path s = Some input_file;
  c_text : forall s, In s c -> holds_text s
}.
Lemma slot_of_spec f c i : match slot_of c f i with
  | Some j => (i <= j)%nat /\ exists s, nth_error c (j - i) = Some s /\ path s = Some f
  | None => forall s, In s c -> path s <> Some f end.
Proof.
  revert i. induction c as [|x c IH]; intros i; cbn [slot_of]; [intros s []|].
  destruct (path x) as [p|] eqn:Ep.
  - destruct (eqs p f) eqn:Ef.
    + apply eqs_iff in Ef. subst p. split; [lia|]. exists x. rewrite Nat.sub_diag. now split.
    + specialize (IH (S i)). destruct (slot_of c f (S i)) as [j|].
      * destruct IH as (L & s & Hs & Hp). split; [lia|]. exists s. replace (j - i)%nat with (S (j - S i)) by lia. now split.
      * intros s [<-|H]; [|now apply IH]. rewrite Ep. intros E. injection E as E. apply eqs_iff in E. congruence.
  - specialize (IH (S i)). destruct (slot_of c f (S i)) as [j|].
    + destruct IH as (L & s & Hs & Hp). split; [lia|]. exists s. replace (j - i)%nat with (S (j - S i)) by lia. now split.
    + intros s [<-|H]; [|now apply IH]. congruence.
Qed.
Lemma evict_range c : length c = 4%nat -> (1 <= evict c < 4)%nat.
Proof.
  destruct c as [|a [|b [|x [|y [|? ?]]]]]; try discriminate. intros _. unfold evict. cbn [skipn evict_from]. destruct (last_use x <? last_use b), (last_use y <? last_use x), (last_use y <? last_use b); lia.
Qed.
Lemma set_cached c i s : cached c -> (i < 4)%nat -> holds_text s -> (i = O -> path s = Some input_file) -> cached (set_slot c i s).
Proof.
  intros [L (m & Hm & Hp) T] Hi Hs H0. destruct c as [|a [|b [|x [|y [|? ?]]]]]; try discriminate L. cbn [nth_error] in Hm. injection Hm as <-.
  assert (Ta : holds_text a /\ holds_text b /\ holds_text x /\ holds_text y) by (repeat split; apply T; cbn [In]; tauto). destruct Ta as (Ta & Tb & Tx & Ty).
  destruct i as [|[|[|[|i]]]]; [| | | |lia]; unfold set_slot; cbn [firstn skipn app]; (constructor; [reflexivity| |intros z Hz; cbn [In] in Hz; intuition (subst; assumption)]).
  - exists s. split; [reflexivity|now apply H0].
  - exists a. now split.
  - exists a. now split.
  - exists a. now split.
Qed.
Lemma source_line_spec c clock d : cached c -> exists c' clock', source_line disk c clock d = (its_line disk input_file source d, (c', clock')) /\ cached c'.
Proof.
  intros C. unfold source_line, its_line. destruct (dfile d) as [f|]; [|now exists c, clock]. cbv zeta.
  pose proof (slot_of_spec f c 0) as S0. destruct (slot_of c f 0) as [i|].
  - destruct S0 as (_ & s & Hs & Hp). rewrite Nat.sub_0_r in Hs. rewrite Hs. cbn [option_map]. pose proof (c_text c C s (nth_error_In _ _ Hs)) as T. unfold holds_text in T. rewrite Hp in T.
    destruct T as (t & Ht & Ho). rewrite Ht, Ho, read_line. eexists _, _. split; [reflexivity|]. apply set_cached.
    + exact C.
    + rewrite <- (c_len c C). apply nth_error_Some. congruence.
    + unfold holds_text. cbn [path offsets]. rewrite Hp. now exists t.
    + intros ->. cbn [path]. destruct (c_main c C) as (m & Hm & Hpm). congruence.
  - assert (N : f <> input_file). { intros ->. destruct (c_main c C) as (m & Hm & Hpm). apply (S0 m); [now apply nth_error_In in Hm|exact Hpm]. }
    assert (Ct : content disk input_file source f = disk f) by (unfold content; destruct (list_eq_dec Z.eq_dec f input_file); [contradiction|reflexivity]). rewrite Ct.
    destruct (disk f) as [t|] eqn:Ed; cbn [option_map]; [|now exists c, clock]. cbn [offsets path]. rewrite read_line. eexists _, _. split; [reflexivity|].
    pose proof (evict_range c (c_len c C)). apply set_cached; [exact C|lia| |lia]. unfold holds_text. cbn [path offsets]. exists t. now rewrite Ct.
Qed.
Lemma print_items_spec l ds : forall c clock, cached c ->
  print_items disk l ds c clock = flat_map (fun d => render (use_color l) d (its_line disk input_file source d)) (filter (fun d => negb (is_warning_suppressed l d)) ds).
Proof.
  induction ds as [|d ds IH]; intros c clock C; [reflexivity|]. cbn [print_items filter]. destruct (is_warning_suppressed l d); cbn [negb]; [now apply IH|].
  destruct (source_line_spec c clock d C) as (c' & k & -> & C'). cbn [flat_map]. now rewrite (IH c' k C').
Qed.
End Cache.
(** ** Suppression. *)
Definition accepted (q : quiet) : Prop := match q with QRejected => False | _ => True end.
Definition set_by (q : quiet) (l : dlist) : Prop :=
  match q with QAll => suppress_all l = true | QCodes k => suppress_all l = false /\ suppressed l = k | _ => suppress_all l = false /\ suppressed l = [] end.
Lemma suppressed_iff q l d : set_by q l -> is_warning_suppressed l d = true <-> hidden q d.
Proof.
  intros B. unfold is_warning_suppressed, hidden, is_error. destruct (sev d) eqn:Es.
  - split; [discriminate|]. intros [H _]. discriminate H.
  - destruct q as [| |ks|]; cbn [set_by] in B.
    + destruct B as [-> ->]. split; [destruct (code d); discriminate|]. intros [_ []].
    + rewrite B. split; [now split|reflexivity].
    + destruct B as [-> ->]. destruct (code d) as [k|].
      * rewrite existsb_exists. split.
        -- intros (s & Hs & E). apply eqs_iff in E. subst s. split; [reflexivity|]. now exists k.
        -- intros (_ & k' & E & H). injection E as <-. exists k. split; [exact H|now apply eqs_iff].
      * split; [discriminate|]. intros (_ & k & E & _). discriminate E.
    + destruct B as [-> ->]. split; [destruct (code d); discriminate|]. intros [_ []].
Qed.
Lemma shown_filter q l ds : set_by q l -> shown q ds (filter (fun d => negb (is_warning_suppressed l d)) ds).
Proof.
  intros B. induction ds as [|d ds IH]; [constructor|]. cbn [filter]. destruct (is_warning_suppressed l d) eqn:E; cbn [negb].
  - apply sh_hide; [now apply (suppressed_iff q l d B)|exact IH].
  - apply sh_keep; [|exact IH]. intros H. apply (suppressed_iff q l d B) in H. congruence.
Qed.
Lemma shown_unique q ds r r' : shown q ds r -> shown q ds r' -> r = r'.
Proof.
  intros H. revert r'. induction H; intros r' H'; inversion H'; subst; try contradiction; [reflexivity|f_equal; now apply IHshown|now apply IHshown].
Qed.
(** ** Rendering. *)
Lemma unlines_cons t l : unlines (t :: l) = t ++ [10] ++ unlines l.
Proof. unfold unlines. cbn [flat_map]. now rewrite <- app_assoc. Qed.
Ltac bytes_out := repeat match goal with |- context [bs ?s] => let v := eval vm_compute in (bs s) in change (bs s) with v end.
Lemma render_plain d line : render false d line = unlines (excerpt d line).
Proof.
  unfold render, excerpt. cbv zeta. unfold is_error.
  assert (Ds : 0 < dline d -> dec_signed (dline d) = dec (dline d)) by (intros H; unfold dec_signed; destruct (Z.ltb_spec (dline d) 0); [lia|reflexivity]).
  set (first := Z.max 1 (dcol d)). assert (F : (if 0 <? dcol d then dcol d else 1) = first) by (unfold first; destruct (Z.ltb_spec 0 (dcol d)); lia). rewrite F. clearbody first.
  set (lst := if end_col d <=? 0 then first else Z.max first (end_col d)).
  assert (G : (if (if 0 <? end_col d then end_col d else first) - first + 1 <? 1 then 1 else (if 0 <? end_col d then end_col d else first) - first + 1) = lst - first + 1).
  { unfold lst. destruct (Z.ltb_spec 0 (end_col d)), (Z.leb_spec (end_col d) 0); try lia;
      match goal with |- (if ?a <? 1 then _ else _) = _ => destruct (Z.ltb_spec a 1) end; lia. }
  rewrite G. clearbody lst. unfold col. cbn [app].
  destruct (sev d), (code d), (dfile d), line, (help d); destruct (Z.ltb_spec 0 (dline d)) as [P|P]; try rewrite (Ds P);
    cbn [app]; rewrite ?unlines_cons; unfold unlines, pad3; cbn [flat_map]; bytes_out; repeat (rewrite <- ?app_assoc; cbn [app]); reflexivity.
Qed.
(** ** The option. *)
Lemma strtok_spec s : forall tok, strtok s tok = filter (fun k => negb (length k =? 0)%nat) (match pieces 44 s with h :: t => (rev tok ++ h) :: t | [] => [] end).
Proof.
  induction s as [|c s IH]; intros tok; cbn [strtok pieces].
  - rewrite app_nil_r. destruct tok as [|x tok]; [reflexivity|]. cbn [filter]. assert (L : (length (rev (x :: tok)) =? 0)%nat = false) by (rewrite rev_length; reflexivity). now rewrite L.
  - destruct (pieces_cons 44 s) as (h & t & E). destruct (c =? 44).
    + rewrite app_nil_r. specialize (IH []). rewrite E in *. cbn [rev app] in IH. cbn [filter]. destruct tok as [|x tok]; [exact IH|].
      assert (L : (length (rev (x :: tok)) =? 0)%nat = false) by (rewrite rev_length; reflexivity). rewrite L. cbn [negb]. now rewrite IH.
    + rewrite IH, E. cbn [rev]. now rewrite <- app_assoc.
Qed.
Lemma codes_strtok a : strtok a [] = codes a.
Proof. rewrite strtok_spec. unfold codes. destruct (pieces_cons 44 a) as (h & t & ->). reflexivity. Qed.
