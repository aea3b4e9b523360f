(** Proofs about the import loop. *)
From Verif Require Import Base BaseFacts LexModel LexProofs ProbeModel ProbeProofs ImportModel ImportSpec ImportProofs.

(** ** Module names of short paths fit their buffers. *)
Lemma last_slash_some s i : last_slash s = Some i -> (i < length s)%nat /\ ~ In 47 (skipn (S i) s).
Proof.
  revert i. induction s as [|c s IH]; intros i E; [discriminate E|]. cbn [last_slash] in E. destruct (last_slash s) as [j|] eqn:Ej.
  - injection E as <-. destruct (IH j eq_refl) as [L N]. cbn [length]. split; [lia|exact N].
  - destruct (Z.eqb_spec c 47); [|discriminate E]. injection E as <-. cbn [length]. split; [lia|]. clear -Ej.
    cbn [skipn]. induction s as [|x s IH]; [intros []|]. cbn [last_slash] in Ej. destruct (last_slash s); [discriminate Ej|]. destruct (Z.eqb_spec x 47); [discriminate Ej|].
    intros [H|H]; [congruence|now apply IH].
Qed.
Lemma last_slash_none s : last_slash s = None -> ~ In 47 s.
Proof.
  induction s as [|x s IH]; intros E; [intros []|]. cbn [last_slash] in E. destruct (last_slash s); [discriminate E|]. destruct (Z.eqb_spec x 47); [discriminate E|].
  intros [H|H]; [congruence|now apply IH].
Qed.
Lemma short_sub p a b c : short p -> p = a ++ b ++ c -> short b.
Proof. intros S0 -> x y z -> N. apply (S0 (a ++ x) y (z ++ c)); [now rewrite <- !app_assoc|exact N]. Qed.
Lemma short_strip p : short p -> short (strip_dot p).
Proof.
  intros S0. unfold strip_dot. destruct ((hd 0 p =? 46) && (hd 0 (tl p) =? 47)); [|exact S0].
  apply (short_sub p (firstn 2 p) (skipn 2 p) []); [exact S0|]. now rewrite app_nil_r, firstn_skipn.
Qed.
Lemma short_len p : short p -> ~ In 47 p -> (length p < 256)%nat.
Proof. intros S0 N. apply (S0 [] p []); [now rewrite app_nil_r|exact N]. Qed.
Definition segment (s : bytes) : bytes := match last_slash s with Some i => skipn (S i) s | None => s end.
Lemma segment_short s : short s -> short (segment s) /\ ~ In 47 (segment s).
Proof.
  intros S0. unfold segment. destruct (last_slash s) as [i|] eqn:E.
  - split; [|now apply last_slash_some in E]. apply (short_sub s (firstn (S i) s) _ []); [exact S0|]. now rewrite app_nil_r, firstn_skipn.
  - split; [exact S0|now apply last_slash_none].
Qed.
Lemma module_short rel : short rel -> exists m, module_name rel = Ok m.
Proof.
  intros S0. unfold module_name.
  cbv zeta. change (match last_slash rel with Some i => skipn (S i) rel | None => rel end) with (segment rel).
  match goal with |- exists m, rbind ?x ?f = Ok m => assert (C : exists b, x = Ok b /\ (length b < 256)%nat) end.
  { destruct (segment_short rel S0) as [S1 N1]. pose proof (short_len _ S1 N1) as L1. destruct (segment rel) as [|c r]; [|now exists (c :: r)].
    destruct (last_slash rel) as [[|i]|]; [now exists []| |now exists []].
    destruct (segment_short (firstn (S i) rel)) as [S2 N2].
    { apply (short_sub rel [] _ (skipn (S i) rel)); [exact S0|]. cbn [app]. now rewrite firstn_skipn. }
    pose proof (short_len _ S2 N2) as L2. exists (segment (firstn (S i) rel)). split; [|exact L2]. unfold MSG_BUF_SIZE.
    change (match last_slash (firstn (S i) rel) with Some j => skipn (S j) (firstn (S i) rel) | None => firstn (S i) rel end) with (segment (firstn (S i) rel)).
    destruct (Z.leb_spec 256 (Z.of_nat (length (segment (firstn (S i) rel))))); [lia|reflexivity]. }
  destruct C as (b & -> & L). cbn [rbind]. destruct ((5 <? Z.of_nat (length b)) && has_ext b); [|eexists; reflexivity].
  unfold MSG_BUF_SIZE. destruct (Z.leb_spec 256 (Z.of_nat (length b) - 5)); [lia|]. eexists. reflexivity.
Qed.
Lemma module_cases rel : module_name rel = UB \/ exists m, module_name rel = Ok m.
Proof.
  unfold module_name. destruct (match _ with [] => _ | _ => _ end) as [b| | |] eqn:E.
  - cbn [rbind]. destruct ((5 <? Z.of_nat (length b)) && has_ext b); [|right; eexists; reflexivity]. destruct (MSG_BUF_SIZE <=? Z.of_nat (length b) - 5); [now left|right; eexists; reflexivity].
  - exfalso. destruct (match last_slash rel with Some i => skipn (S i) rel | None => rel end); [|discriminate E]. destruct (last_slash rel) as [[|i]|]; [discriminate E| |discriminate E].
    cbv zeta in E. destruct (MSG_BUF_SIZE <=? _) in E; discriminate E.
  - now left.
  - exfalso. destruct (match last_slash rel with Some i => skipn (S i) rel | None => rel end); [|discriminate E]. destruct (last_slash rel) as [[|i]|]; [discriminate E| |discriminate E].
    cbv zeta in E. destruct (MSG_BUF_SIZE <=? _) in E; discriminate E.
Qed.

Section Loop.
Context (w : world) (input_file : bytes) (stmts : list (list item)).
Notation dir := (dir_of input_file).
Notation main := (canonical w input_file).
(** One state comes from another. *)
Record after (s s' : st) : Prop := {
  a_log : exists l, log s' = log s ++ l;
  a_diags : exists l, diags s' = diags s ++ l;
  a_queue : exists l, queue s' = queue s ++ l
}.
Lemma after_refl s : after s s.
Proof. constructor; exists []; now rewrite app_nil_r. Qed.
Lemma after_trans a b c : after a b -> after b c -> after a c.
Proof.
  intros [[l1 L1] [d1 D1] [q1 Q1]] [[l2 L2] [d2 D2] [q2 Q2]]. constructor; eexists; [rewrite L2, L1|rewrite D2, D1|rewrite Q2, Q1]; rewrite <- app_assoc; reflexivity.
Qed.
Definition clean (s : st) : Prop := has_errors s = false /\ (length (queue s) < 256)%nat.
Lemma clean_before s s' : after s s' -> clean s' -> clean s.
Proof.
  intros [_ [d D] [q Q]] [C1 C2]. split.
  - unfold has_errors in *. rewrite D, existsb_app in C1. now apply orb_false_iff in C1.
  - rewrite Q, app_length in C2. lia.
Qed.
(** The import statements of a file that was taken are in the queue. *)
Definition injected (s : st) (t : taken) : Prop :=
  forall l ts, load w (file t) = Program l -> In ts l -> existsb snd (map (inject_item w (origin t) (dir_of (file t))) ts) = true ->
    In (map fst (map (inject_item w (origin t) (dir_of (file t))) ts)) (queue s).
Record inv (s : st) : Prop := {
  i_set : exists m, holds (imported s) m /\ incl (map fst m) (main :: map canon (log s)) /\
            ((length (log s) < 256)%nat -> map fst m = main :: map canon (log s));
  i_queue : (length (queue s) <= 256)%nat;
  i_named : forall ts it p, In ts (queue s) -> In it ts -> ipath it = Some p -> named w stmts p;
  i_inject : clean s -> forall t, In t (log s) -> injected s t
}.
Lemma inject_path ip src it p : ipath (fst (inject_item w ip src it)) = Some p -> ipath it = Some p.
Proof.
  unfold inject_item. destruct (std it); [trivial|]. destruct (ipath it) as [x|] eqn:E; [|cbn [fst]; congruence]. destruct (sibling w ip src x); cbn [fst ipath]; [discriminate|congruence].
Qed.
(** Injecting statements changes the queue only. *)
Lemma inject_fold ip src l : forall s, (length (queue s) <= 256)%nat -> let s' := fold_left (inject w ip src) l s in
  imported s' = imported s /\ seen s' = seen s /\ log s' = log s /\ diags s' = diags s /\ (exists q, queue s' = queue s ++ q) /\ (length (queue s') <= 256)%nat /\
  (forall ts it p, In ts (queue s') -> In it ts -> ipath it = Some p -> In ts (queue s) \/ exists ts0 it0, In ts0 l /\ In it0 ts0 /\ ipath it0 = Some p) /\
  ((length (queue s') < 256)%nat -> forall ts, In ts l -> existsb snd (map (inject_item w ip src) ts) = true -> In (map fst (map (inject_item w ip src) ts)) (queue s')).
Proof.
  induction l as [|ts l IH]; intros s L; cbv zeta; cbn [fold_left].
  - repeat (split; [first [reflexivity|exists []; now rewrite app_nil_r|exact L]|]). split; [intros; now left|]. intros _ ? [].
  - assert (L1 : (length (queue (inject w ip src s ts)) <= 256)%nat).
    { unfold inject. cbv zeta. unfold MAX_IMPORTS. destruct (existsb snd (map (inject_item w ip src) ts) && (Z.of_nat (length (queue s)) <? 256)) eqn:E; [|exact L]. cbn [queue]. rewrite app_length. cbn [length]. lia. }
    destruct (IH (inject w ip src s ts) L1) as (A & B & C & D & [q Q] & M & N & O). clear IH.
    assert (K : imported (inject w ip src s ts) = imported s /\ seen (inject w ip src s ts) = seen s /\ log (inject w ip src s ts) = log s /\ diags (inject w ip src s ts) = diags s).
    { unfold inject. cbv zeta. destruct (existsb snd (map (inject_item w ip src) ts) && _); repeat split. }
    destruct K as (K1 & K2 & K3 & K4). rewrite K1 in A. rewrite K2 in B. rewrite K3 in C. rewrite K4 in D.
    assert (Q1 : (queue (inject w ip src s ts) = queue s /\ (existsb snd (map (inject_item w ip src) ts) = false \/ (256 <= length (queue s))%nat)) \/
       queue (inject w ip src s ts) = queue s ++ [map fst (map (inject_item w ip src) ts)]).
    { unfold inject. cbv zeta. unfold MAX_IMPORTS. destruct (existsb snd (map (inject_item w ip src) ts)); cbn [andb]; [|left; split; [reflexivity|now left]].
      destruct (Z.ltb_spec (Z.of_nat (length (queue s))) 256); [now right|]. left. split; [reflexivity|right; lia]. }
    repeat (split; [assumption|]). split; [|split; [exact M|split]].
    + destruct Q1 as [[Q1 _]|Q1]; rewrite Q, Q1; [now exists q|]. eexists. now rewrite <- app_assoc.
    + intros t it p Ht Hi Hp. destruct (N t it p Ht Hi Hp) as [H|(t0 & i0 & H1 & H2 & H3)]; [|right; exists t0, i0; split; [now right|now split]].
      destruct Q1 as [[Q1 _]|Q1]; rewrite Q1 in H; [now left|]. apply in_app_iff in H as [H|[<-|[]]]; [now left|]. right. apply in_map_iff in Hi as (x & <- & Hx).
      apply in_map_iff in Hx as (i0 & <- & Hi0). exists ts, i0. split; [now left|]. split; [exact Hi0|]. now apply inject_path in Hp.
    + intros Lt t [<-|H] Hs; [|now apply O]. destruct Q1 as [[Q1 [F|F]]|Q1].
      * congruence.
      * rewrite Q, Q1, app_length in Lt. lia.
      * rewrite Q, Q1. apply in_or_app. left. apply in_or_app. right. now left.
Qed.
Lemma report_inv s code : inv s -> inv (report s code) /\ after s (report s code) /\ seen (report s code) = seen s.
Proof.
  intros [S0 Q N J]. assert (A : after s (report s code)) by (constructor; cbn [report log diags queue]; [exists []|exists [code]|exists []]; rewrite ?app_nil_r; reflexivity).
  split; [|split; [exact A|reflexivity]]. constructor; cbn [report imported log queue]; try assumption. intros C. exact (J (clean_before _ _ A C)).
Qed.
Lemma injected_after s s' t : after s s' -> injected s t -> injected s' t.
Proof. intros A H l ts H1 H2 H3. destruct (a_queue s s' A) as [q ->]. apply in_or_app. left. now apply (H l). Qed.
Lemma take_file_spec it ip m single s cur : inv s -> exists s', take_file w it ip m single s cur = Ok s' /\ inv s' /\ after s s' /\ seen s' = seen s /\ In (canonical w cur) (main :: map canon (log s')).
Proof.
  intros I0. destruct (i_set s I0) as (mm & Hm & Hin & Hex). unfold take_file. cbv zeta. rewrite (already_spec _ mm _ Hm). cbn [rbind].
  destruct (lookup mm (canonical w cur)) as [e|] eqn:Lk.
  - apply lookup_some in Lk as [Lk1 Lk2]. assert (In0 : In (canonical w cur) (main :: map canon (log s))) by (apply Hin; rewrite <- Lk2; now apply in_map).
    destruct single.
    + destruct (report_inv s (match source_dir it with Some _ => bs "W2014" | None => bs "W2015" end) I0) as (R1 & R2 & R3). eexists. split; [reflexivity|]. split; [exact R1|]. split; [exact R2|]. split; [exact R3|]. exact In0.
    + exists s. split; [reflexivity|]. split; [exact I0|]. split; [apply after_refl|]. split; [reflexivity|exact In0].
  - destruct (mark_spec (imported s) mm (canonical w cur) (Some m) Hm) as (set & -> & Hs). cbn [rbind].
    set (s1 := St set (seen s) (queue s) (log s ++ [Taken (canonical w cur) cur ip]) (diags s)).
    assert (E1 : imported s1 = set /\ seen s1 = seen s /\ queue s1 = queue s /\ log s1 = log s ++ [Taken (canonical w cur) cur ip] /\ diags s1 = diags s) by (repeat split). clearbody s1. destruct E1 as (X1 & X2 & X3 & X4 & X5).
    assert (A1 : after s s1) by (constructor; rewrite ?X4, ?X5, ?X3; eexists; [reflexivity|now rewrite app_nil_r|now rewrite app_nil_r]).
    assert (Set1 : exists m', holds (imported s1) m' /\ incl (map fst m') (main :: map canon (log s1)) /\ ((length (log s1) < 256)%nat -> map fst m' = main :: map canon (log s1))).
    { exists (remember mm (canonical w cur) (Some m)). rewrite X1, X4. split; [exact Hs|]. unfold remember. rewrite Lk, map_app, app_length. cbn [map canon length].
      destruct (Nat.leb_spec 256 (length mm)) as [G|G].
      - split; [intros x Hx; apply Hin in Hx; destruct Hx as [Hx|Hx]; [now left|right; apply in_or_app; now left]|]. intros L. exfalso.
        assert (length (map fst mm) = S (length (log s))) by (rewrite Hex by lia; cbn [length]; now rewrite map_length). rewrite map_length in H. lia.
      - rewrite map_app. cbn [map fst]. split.
        + intros x Hx. apply in_app_iff in Hx as [Hx|[<-|[]]]; [apply Hin in Hx; destruct Hx as [Hx|Hx]; [now left|right; apply in_or_app; now left]|]. right. apply in_or_app. right. now left.
        + intros L. rewrite Hex by lia. reflexivity. }
    assert (In1 : forall s', log s' = log s1 -> In (canonical w cur) (main :: map canon (log s'))).
    { intros s' ->. rewrite X4, map_app. right. apply in_or_app. right. now left. }
    assert (J : forall s', after s1 s' -> log s' = log s1 -> (clean s' -> injected s' (Taken (canonical w cur) cur ip)) -> clean s' -> forall t, In t (log s') -> injected s' t).
    { intros s' A' El Hn C t Ht. rewrite El, X4 in Ht. apply in_app_iff in Ht as [Ht|[<-|[]]]; [|now apply Hn]. apply (injected_after s); [now apply (after_trans _ s1)|].
      apply (i_inject s I0); [|exact Ht]. apply (clean_before s s'); [now apply (after_trans _ s1)|exact C]. }
    destruct (load w cur) as [| |l] eqn:Ld.
    + eexists. split; [reflexivity|]. assert (A2 : after s1 (report s1 (bs "E6002"))) by (constructor; cbn [report log diags queue]; eexists; try reflexivity; now rewrite app_nil_r).
      split; [|split; [now apply (after_trans _ s1)|split; [exact X2|now apply In1]]]. constructor; cbn [report imported log queue].
      * exact Set1.
      * rewrite X3. apply I0.
      * rewrite X3. apply I0.
      * refine (J (report s1 (bs "E6002")) A2 eq_refl _). intros _ l0 ts H0. cbn [file] in H0. congruence.
    + eexists. split; [reflexivity|]. assert (A2 : after s1 (report s1 (bs "E2000"))) by (constructor; cbn [report log diags queue]; eexists; try reflexivity; now rewrite app_nil_r).
      split; [|split; [now apply (after_trans _ s1)|split; [exact X2|now apply In1]]]. constructor; cbn [report imported log queue].
      * exact Set1.
      * rewrite X3. apply I0.
      * rewrite X3. apply I0.
      * refine (J (report s1 (bs "E2000")) A2 eq_refl _). intros _ l0 ts H0. cbn [file] in H0. congruence.
    + destruct (has_errors s1) eqn:Er.
      * exists s1. split; [reflexivity|]. split; [|split; [exact A1|split; [exact X2|now apply In1]]]. constructor.
        -- exact Set1.
        -- rewrite X3. apply I0.
        -- rewrite X3. apply I0.
        -- intros [C _]. congruence.
      * eexists. split; [reflexivity|]. assert (Lq : (length (queue s1) <= 256)%nat) by (rewrite X3; apply I0).
        destruct (inject_fold ip (dir_of cur) l s1 Lq) as (F1 & F2 & F3 & F4 & F5 & F6 & F7 & F8). set (s2 := fold_left (inject w ip (dir_of cur)) l s1) in *. clearbody s2.
        assert (A2 : after s1 s2) by (constructor; rewrite ?F3, ?F4; [exists []; now rewrite app_nil_r|exists []; now rewrite app_nil_r|exact F5]).
        split; [|split; [now apply (after_trans _ s1)|split; [now rewrite F2|now apply In1]]]. constructor.
        -- rewrite F1, F3. exact Set1.
        -- exact F6.
        -- intros ts i0 p H1 H2 H3. destruct (F7 ts i0 p H1 H2 H3) as [H|(t0 & i1 & T1 & T2 & T3)].
           ++ rewrite X3 in H. now apply (i_named s I0 ts i0).
           ++ right. now exists cur, l, t0, i1.
        -- apply (J s2 A2 F3). intros [_ C] l0 ts H0 H1 H2. cbn [file origin] in H0, H2 |- *. rewrite Ld in H0. injection H0 as <-. now apply F8.
Qed.
Lemma take_files_spec it ip m single files : forall s, inv s ->
  exists s', fold_left (fun r f => rbind r (fun s => take_file w it ip m single s f)) files (Ok s) = Ok s' /\ inv s' /\ after s s' /\ seen s' = seen s /\
    forall f, In f files -> In (canonical w f) (main :: map canon (log s')).
Proof.
  induction files as [|f files IH]; intros s I0; cbn [fold_left].
  - exists s. split; [reflexivity|]. split; [exact I0|]. split; [apply after_refl|]. split; [reflexivity|]. intros ? [].
  - cbn [rbind]. destruct (take_file_spec it ip m single s f I0) as (s1 & -> & I1 & A1 & E1 & H1). destruct (IH s1 I1) as (s2 & -> & I2 & A2 & E2 & H2).
    exists s2. split; [reflexivity|]. split; [exact I2|]. split; [now apply (after_trans _ s1)|]. split; [congruence|]. intros g [<-|Hg]; [|now apply H2].
    destruct (a_log _ _ A2) as [l ->]. rewrite map_app. destruct H1 as [H1|H1]; [now left|right; apply in_or_app; now left].
Qed.
(** All files of some import of canonical path [n] have been read. *)
Definition done (s : st) (n : bytes) : Prop :=
  exists it p ip files, target w dir it p = inr (ip, files) /\ buf PATH_BUF_SIZE (canonical w ip) = n /\ forall f, In f files -> In (canonical w f) (files_read w input_file s).
Definition noted (s : st) : Prop := forall e, In e (seen s) -> done s (snd e).
Lemma read_after s s' f : after s s' -> In f (files_read w input_file s) -> In f (files_read w input_file s').
Proof. intros A. unfold files_read. destruct (a_log _ _ A) as [l ->]. rewrite map_app. intros [H|H]; [now left|right; apply in_or_app; now left]. Qed.
Lemma done_after s s' n : after s s' -> done s n -> done s' n.
Proof. intros A (it & p & ip & files & H1 & H2 & H3). exists it, p, ip, files. split; [exact H1|]. split; [exact H2|]. intros f Hf. eapply read_after; eauto. Qed.
Definition met (s : st) (it : item) : Prop := forall p, user it p -> satisfied w input_file s it p.
Lemma met_after s s' it : after s s' -> met s it -> met s' it.
Proof.
  intros A M p U. destruct (M p U) as (ip & files & it' & p' & ip' & files' & H1 & H2 & H3 & H4). exists ip, files, it', p', ip', files'.
  repeat (split; [assumption|]). intros f Hf. eapply read_after; eauto.
Qed.
Definition bad : Prop := exists p, named w stmts p /\ ~ short p.
(** What a part of the loop does. *)
Definition does (s : st) (r : res st) (goal : st -> Prop) : Prop :=
  (r = UB /\ bad) \/ exists s', r = Ok s' /\ inv s' /\ after s s' /\ noted s' /\ (clean s' -> goal s').
Lemma report_noted s code : noted s -> noted (report s code).
Proof. intros N e He. apply (done_after s); [constructor; cbn [report log diags queue]; eexists; try reflexivity; now rewrite app_nil_r|]. now apply N. Qed.
Lemma dirty s code : hd 0 code = 69 -> clean (report s code) -> False.
Proof. intros H [C _]. unfold has_errors in C. cbn [report diags] in C. rewrite existsb_app in C. cbn [existsb] in C. rewrite H in C. change (69 =? 69) with true in C. cbn [orb] in C. rewrite orb_true_r in C. discriminate C. Qed.
Lemma take_item_does s it : inv s -> noted s -> (forall p, ipath it = Some p -> named w stmts p) -> does s (take_item w dir s it) (fun s' => met s' it).
Proof.
  intros I0 N0 Nm. unfold take_item. destruct (std it) eqn:Es.
  { right. exists s. split; [reflexivity|]. split; [exact I0|]. split; [apply after_refl|]. split; [exact N0|]. intros _ p [U _]. congruence. }
  destruct (ipath it) as [p|] eqn:Ep.
  2:{ right. exists s. split; [reflexivity|]. split; [exact I0|]. split; [apply after_refl|]. split; [exact N0|]. intros _ p [_ U]. congruence. }
  cbv zeta. fold (target w dir it p). destruct (target w dir it p) as [code|[ip files]] eqn:Et.
  { right. destruct (report_inv s code I0) as (R1 & R2 & _). eexists. split; [reflexivity|]. split; [exact R1|]. split; [exact R2|]. split; [now apply report_noted|].
    intros C. exfalso. apply (dirty s code); [|exact C]. unfold target, resolve in Et. cbv zeta in Et. destruct (has_ext _); [discriminate Et|]. destruct (is_reg w _); [discriminate Et|].
    destruct (is_dir w _); [|injection Et as <-; reflexivity]. destruct (match source_dir it with Some _ => _ | None => _ end); [injection Et as <-; reflexivity|].
    destruct (scan_gray_files w _) as [[|? ?]|]; [injection Et as <-; reflexivity|discriminate Et|discriminate Et]. }
  destruct (module_cases (strip_dot p)) as [Eu|[m Em]].
  { left. rewrite Eu. split; [reflexivity|]. exists p. split; [now apply Nm|]. intros Sh. apply short_strip in Sh. destruct (module_short _ Sh) as [m Em]. congruence. }
  rewrite Em. cbn [rbind]. set (nm := match alias it with Some a => a | None => m end). clearbody nm.
  destruct (find (fun e => eqs (fst e) nm) (seen s)) as [e|] eqn:Ef.
  - apply find_some in Ef as [He _]. destruct (eqs (snd e) (buf PATH_BUF_SIZE (canonical w ip))) eqn:Eq.
    + apply eqs_iff in Eq.
      assert (G : forall s', after s s' -> met s' it).
      { intros s' A. apply (met_after s s' it A). intros p0 [_ U]. rewrite Ep in U. injection U as <-. destruct (N0 e He) as (it' & p' & ip' & files' & T1 & T2 & T3).
        exists ip, files, it', p', ip', files'. repeat (split; [assumption|]). split; [congruence|exact T3]. }
      right. destruct (source_dir it).
      * exists s. split; [reflexivity|]. split; [exact I0|]. split; [apply after_refl|]. split; [exact N0|]. intros _. apply G, after_refl.
      * destruct (report_inv s (bs "W2013") I0) as (R1 & R2 & _). eexists. split; [reflexivity|]. split; [exact R1|]. split; [exact R2|]. split; [now apply report_noted|]. intros _. now apply G.
    + right. destruct (report_inv s (bs "E6001") I0) as (R1 & R2 & _). eexists. split; [reflexivity|]. split; [exact R1|]. split; [exact R2|]. split; [now apply report_noted|].
      intros C. exfalso. now apply (dirty s (bs "E6001")).
  - right. set (sn := if Z.of_nat (length (seen s)) <? MAX_IMPORTS then seen s ++ [(nm, buf PATH_BUF_SIZE (canonical w ip))] else seen s).
    assert (Hsn : forall e, In e sn -> In e (seen s) \/ snd e = buf PATH_BUF_SIZE (canonical w ip)).
    { intros e. unfold sn. destruct (_ <? _); [|now left]. rewrite in_app_iff. intros [H|[<-|[]]]; [now left|now right]. }
    clearbody sn. set (s1 := St (imported s) sn (queue s) (log s) (diags s)).
    assert (A1 : after s s1) by (constructor; exists []; cbn; now rewrite app_nil_r).
    assert (I1 : inv s1) by (destruct I0 as [J1 J2 J3 J4]; constructor; [exact J1|exact J2|exact J3|]; intros C; exact (J4 (clean_before _ _ A1 C))).
    destruct (take_files_spec it ip nm (length files =? 1)%nat files s1 I1) as (s2 & E2 & I2 & A2 & Sn2 & R2). exists s2. split; [exact E2|]. split; [exact I2|].
    assert (A02 : after s s2) by now apply (after_trans _ s1). split; [exact A02|].
    assert (D2 : done s2 (buf PATH_BUF_SIZE (canonical w ip))) by (exists it, p, ip, files; split; [exact Et|split; [reflexivity|exact R2]]).
    split.
    + intros e He. rewrite Sn2 in He. apply Hsn in He as [He| ->]; [|exact D2]. apply (done_after s); [exact A02|now apply N0].
    + intros _ p0 [_ U]. rewrite Ep in U. injection U as <-. exists ip, files, it, p, ip, files. repeat (split; [first [assumption|reflexivity]|]). exact R2.
Qed.
Lemma take_stmt_does ts : forall s, inv s -> noted s -> (forall it p, In it ts -> ipath it = Some p -> named w stmts p) ->
  does s (take_stmt w dir s ts) (fun s' => forall it, In it ts -> met s' it).
Proof.
  induction ts as [|it ts IH]; intros s I0 N0 Nm; unfold take_stmt; cbn [fold_left].
  - right. exists s. split; [reflexivity|]. split; [exact I0|]. split; [apply after_refl|]. split; [exact N0|]. intros _ ? [].
  - cbn [rbind]. destruct (take_item_does s it I0 N0) as [[-> B]|(s1 & -> & I1 & A1 & N1 & G1)]; [intros p; apply Nm; now left| |].
    + left. split; [|exact B]. clear. induction ts as [|x ts IH]; [reflexivity|exact IH].
    + destruct (IH s1 I1 N1) as [[Eu B]|(s2 & E2 & I2 & A2 & N2 & G2)]; [intros i p H; apply Nm; now right| |].
      * left. split; [exact Eu|exact B].
      * right. exists s2. split; [exact E2|]. split; [exact I2|]. split; [now apply (after_trans _ s1)|]. split; [exact N2|]. intros C i [<-|H]; [|now apply G2].
        apply (met_after s1); [exact A2|]. apply G1. now apply (clean_before s1 s2).
Qed.
Lemma drain_does fuel : forall head s, inv s -> noted s -> (fuel + head = 256)%nat -> (clean s -> forall ts it, In ts (firstn head (queue s)) -> In it ts -> met s it) ->
  does s (drain fuel w dir head s) (fun s' => forall ts it, In ts (queue s') -> In it ts -> met s' it).
Proof.
  induction fuel as [|fuel IH]; intros head s I0 N0 F M; cbn [drain]; (destruct (nth_error (queue s) head) as [ts|] eqn:En).
  - exfalso. assert (head < length (queue s))%nat by (apply nth_error_Some; congruence). pose proof (i_queue s I0). lia.
  - right. exists s. split; [reflexivity|]. split; [exact I0|]. split; [apply after_refl|]. split; [exact N0|]. intros C ts it H1 H2. apply (M C ts it); [|exact H2].
    apply nth_error_None in En. now rewrite firstn_all2.
  - destruct (take_stmt_does ts s I0 N0) as [[-> B]|(s1 & -> & I1 & A1 & N1 & G1)].
    + intros it p Hi Hp. apply (i_named s I0 ts it p); [now apply nth_error_In in En|exact Hi|exact Hp].
    + left. now split.
    + cbn [rbind]. destruct (IH (S head) s1 I1 N1) as [[Eu B]|(s2 & E2 & I2 & A2 & N2 & G2)]; [lia| | |].
      * intros C t it Ht Hi. destruct (a_queue _ _ A1) as [q Eq]. assert (Lh : (head < length (queue s))%nat) by (apply nth_error_Some; congruence).
        rewrite Eq, firstn_app in Ht. replace (S head - length (queue s))%nat with O in Ht by lia. rewrite app_nil_r in Ht.
        assert (Es : firstn (S head) (queue s) = firstn head (queue s) ++ [ts]).
        { clear -En. revert head En. induction (queue s) as [|x l IHl]; intros [|h] En; cbn [nth_error] in En; try discriminate En; [injection En as ->; reflexivity|]. cbn [firstn app]. f_equal. now apply IHl. }
        rewrite Es in Ht. apply in_app_iff in Ht as [Ht|[<-|[]]]; [|now apply G1].
        apply (met_after s); [exact A1|]. apply (M (clean_before _ _ A1 C) t it Ht Hi).
      * left. now split.
      * right. exists s2. split; [exact E2|]. split; [exact I2|]. split; [now apply (after_trans _ s1)|]. split; [exact N2|exact G2].
  - right. exists s. split; [reflexivity|]. split; [exact I0|]. split; [apply after_refl|]. split; [exact N0|]. intros C ts it H1 H2. apply (M C ts it); [|exact H2].
    apply nth_error_None in En. now rewrite firstn_all2.
Qed.
Lemma imports_does : exists s0, queue s0 = firstn 256 stmts /\ inv s0 /\ does s0 (imports w input_file stmts) (fun s' => forall ts it, In ts (queue s') -> In it ts -> met s' it).
Proof.
  unfold imports. destruct (mark_spec no_imports [] main None no_imports_holds) as (set & -> & H). cbn [rbind]. change (Z.to_nat MAX_IMPORTS) with 256%nat.
  set (s0 := St set [] (firstn 256 stmts) [] []).
  assert (I0 : inv s0).
  { constructor; cbn [s0 imported log queue].
    - exists [(main, None)]. split; [exact H|]. cbn [map fst]. split; [intros x Hx; exact Hx|reflexivity].
    - apply firstn_le_length.
    - intros ts it p H1 H2 H3. left. exists ts, it. split; [|now split]. rewrite <- (firstn_skipn 256 stmts). apply in_or_app. now left.
    - intros _ t []. }
  exists s0. split; [reflexivity|]. split; [exact I0|]. apply drain_does; [exact I0|intros e []|reflexivity|]. intros _ ts it [].
Qed.
End Loop.
