(** Lemmas for CliProps: lines of a file, documentation and the entry file. *)
From Verif Require Import Base BaseFacts SemverModel SemverProofs InstallSpec InstallModel InstallProofs InstallProofs2 CliSpec CliModel CliProofs.

(** ** Trimming *)
Lemma space_visible x r : visible x -> space_at (x :: r) = 0%nat.
Proof.
  unfold visible. intros V. cbn [space_at]. replace (((9 <=? x) && (x <=? 13)) || (x =? 32)) with false by lia.
  destruct r as [|d r]; [reflexivity|]. replace ((x =? 194) && ((d =? 133) || (d =? 160))) with false by lia.
  destruct r as [|e r]; [reflexivity|]. replace (x =? 225) with false by lia. replace (x =? 226) with false by lia. replace (x =? 227) with false by lia. reflexivity.
Qed.
Lemma space_blank x r : blank x -> space_at (x :: r) = 1%nat.
Proof. unfold blank. intros V. cbn [space_at]. now replace (((9 <=? x) && (x <=? 13)) || (x =? 32)) with true by lia. Qed.
Lemma end_visible x r : visible x -> space_end (x :: r) = 0%nat.
Proof.
  unfold visible. intros V. cbn [space_end]. replace (((9 <=? x) && (x <=? 13)) || (x =? 32)) with false by lia.
  destruct r as [|d r]; [reflexivity|]. cbn [space_at]. replace (((9 <=? x) && (x <=? 13)) || (x =? 32)) with false by lia.
  replace ((d =? 194) && ((x =? 133) || (x =? 160))) with false by lia. destruct (((9 <=? d) && (d <=? 13)) || (d =? 32)); cbn [Nat.eqb].
  - destruct r as [|c r]; [reflexivity|]. destruct (((9 <=? c) && (c <=? 13)) || (c =? 32)); [reflexivity|]. destruct ((c =? 194) && ((d =? 133) || (d =? 160))); [reflexivity|].
    replace (_ || _) with false by lia. reflexivity.
  - destruct r as [|c r]; [reflexivity|]. destruct (((9 <=? c) && (c <=? 13)) || (c =? 32)); [reflexivity|]. destruct ((c =? 194) && ((d =? 133) || (d =? 160))); [reflexivity|].
    replace (_ || _) with false by lia. reflexivity.
Qed.
Lemma end_blank x r : blank x -> space_end (x :: r) = 1%nat.
Proof. unfold blank. intros V. cbn [space_end]. now replace (((9 <=? x) && (x <=? 13)) || (x =? 32)) with true by lia. Qed.
Lemma ltrim_fuel_blanks a r : Forall blank a -> (r = [] \/ visible (hd 0 r)) -> forall n, (length a <= n)%nat -> ltrim_fuel n (a ++ r) = r.
Proof.
  intros B V. assert (V' : space_at r = 0%nat) by (destruct r; [reflexivity|]; destruct V as [V|V]; [discriminate|now apply space_visible]).
  induction B as [|c a H _ IH]; intros n L.
  - cbn [app]. destruct n; [reflexivity|]. cbn [ltrim_fuel]. now rewrite V'.
  - cbn [length] in L. destruct n as [|n]; [lia|]. cbn [ltrim_fuel app]. rewrite (space_blank c _ H). cbn [skipn]. apply IH. lia.
Qed.
Lemma ltrim_blanks a r : Forall blank a -> (r = [] \/ visible (hd 0 r)) -> ltrim (a ++ r) = r.
Proof. intros B V. apply ltrim_fuel_blanks; [exact B|exact V|]. rewrite app_length. lia. Qed.
Lemma rtrim_fuel_blanks a r : Forall blank a -> (r = [] \/ visible (hd 0 r)) -> forall n, (length a <= n)%nat -> rtrim_fuel n (a ++ r) = r.
Proof.
  intros B V. assert (V' : space_end r = 0%nat) by (destruct r; [reflexivity|]; destruct V as [V|V]; [discriminate|now apply end_visible]).
  induction B as [|c a H _ IH]; intros n L.
  - cbn [app]. destruct n; [reflexivity|]. cbn [rtrim_fuel]. now rewrite V'.
  - cbn [length] in L. destruct n as [|n]; [lia|]. cbn [rtrim_fuel app]. rewrite (end_blank c _ H). cbn [skipn]. apply IH. lia.
Qed.
Lemma rtrim_blanks a r : Forall blank a -> (r = [] \/ visible (last r 0)) -> rtrim (r ++ a) = r.
Proof.
  intros B V. unfold rtrim. rewrite rev_app_distr, rtrim_fuel_blanks; [apply rev_involutive|now apply Forall_rev| |].
  - destruct V as [-> | V]; [now left|right]. rewrite <- last_rev_hd. now rewrite rev_involutive.
  - rewrite rev_length, app_length. lia.
Qed.
Lemma trim_core a c b : Forall blank a -> Forall blank b -> (c = [] \/ (visible (hd 0 c) /\ visible (last c 0))) -> trim_space (a ++ c ++ b) = c.
Proof.
  intros A B V. unfold trim_space. destruct c as [|x c].
  - cbn [app]. rewrite <- (app_nil_r (a ++ b)). rewrite ltrim_blanks; [reflexivity| |now left]. apply Forall_app. now split.
  - destruct V as [V|(V & W)]; [discriminate|]. rewrite ltrim_blanks; [|exact A|now right]. apply rtrim_blanks; [exact B|now right].
Qed.
Lemma trim_blank l : Forall blank l -> trim_space l = [].
Proof. intros B. pose proof (trim_core l [] [] B (Forall_nil _) (or_introl eq_refl)) as H. now rewrite !app_nil_r in H. Qed.
Lemma core_trim l c : core l c -> trim_space l = c.
Proof. intros (a & b & -> & A & B & x & m & E & V & W). apply trim_core; [exact A|exact B|right]. split; [now rewrite E|exact W]. Qed.
Lemma core_hd l c : core l c -> exists x m, c = x :: m /\ visible x /\ visible (last c 0).
Proof. now intros (a & b & _ & _ & _ & H). Qed.

(** ** Lines *)
Lemma drop_cr_id l : ~ In 13 l -> drop_cr l = l.
Proof.
  intros N. unfold drop_cr. destruct (rev l) as [|x r] eqn:E; [reflexivity|]. assert (I : In x l) by (apply in_rev; rewrite E; now left).
  destruct (Z.eq_dec x 13) as [->|K]; [now elim N|].
  destruct x as [|p|p]; try reflexivity. do 4 (destruct p as [p|p|]; try reflexivity). congruence.
Qed.
Lemma drop_cr_spec l : drop_cr l = l \/ l = drop_cr l ++ [13].
Proof.
  unfold drop_cr. destruct (rev l) as [|x r] eqn:E; [now left|]. destruct (Z.eq_dec x 13) as [->|K].
  - right. rewrite <- (rev_involutive l), E. reflexivity.
  - left. destruct x as [|p|p]; try reflexivity. do 4 (destruct p as [p|p|]; try reflexivity). congruence.
Qed.
Lemma scan_ok ls : Forall (fun l => ~ In 13 l /\ Z.of_nat (length l) < 65536) ls -> scan_lines (ls ++ [[]]) = ls.
Proof.
  induction 1 as [|l ls (C & L) _ IH]; [reflexivity|]. cbn [app scan_lines]. destruct (ls ++ [[]]) as [|m r] eqn:E; [destruct ls; discriminate|].
  destruct (Z.leb_spec 65536 (Z.of_nat (length l))); [lia|]. now rewrite IH, drop_cr_id.
Qed.
Lemma file_lines_ok ls : Forall (fun l => one_line l /\ ~ In 13 l /\ Z.of_nat (length l) < 65536) ls -> file_lines (text (ls ++ [[]])) = ls.
Proof.
  intros F. unfold file_lines. rewrite split_text.
  - apply scan_ok. eapply Forall_impl; [|exact F]. now intros l (_ & H).
  - destruct ls; discriminate.
  - apply Forall_app. split; [eapply Forall_impl; [|exact F]; now intros l (H & _)|repeat constructor; intros []].
Qed.
(** a file without a newline at its end *)
Lemma scan_ok_open ls : Forall (fun l => ~ In 13 l /\ Z.of_nat (length l) < 65536) ls -> last ls [1] <> [] -> scan_lines ls = ls.
Proof.
  induction 1 as [|l ls (C & L) _ IH]; [reflexivity|]. intros N. cbn [scan_lines]. destruct ls as [|m r].
  - cbn [last] in N. destruct l; [congruence|]. destruct (Z.leb_spec 65536 (Z.of_nat (length (z :: l)))); [lia|]. now rewrite drop_cr_id.
  - destruct (Z.leb_spec 65536 (Z.of_nat (length l))); [lia|]. now rewrite IH, drop_cr_id.
Qed.

(** ** Documentation *)
Lemma brace_braces l : brace_count l = braces l.
Proof.
  unfold braces. induction l as [|c l IH]; [reflexivity|]. cbn [brace_count count_occ]. rewrite IH.
  destruct (Z.eqb_spec c 123) as [->|A].
  - destruct (Z.eq_dec 123 123); [|congruence]. destruct (Z.eq_dec 123 125); [discriminate|]. lia.
  - destruct (Z.eq_dec c 123); [congruence|]. destruct (Z.eqb_spec c 125) as [->|B].
    + destruct (Z.eq_dec 125 125); [|congruence]. lia.
    + destruct (Z.eq_dec c 125); [congruence|]. lia.
Qed.
Lemma doc_string_ok desc : doc_string (bs "#doc(""" ++ desc ++ bs """)") = desc.
Proof.
  unfold doc_string, between. change (bs "#doc(""" ++ desc ++ bs """)") with ((bs "#doc(") ++ 34 :: (desc ++ [34; 41])).
  assert (M : mem 34 (bs "#doc(" ++ 34 :: desc ++ [34; 41]) = true) by (apply mem_iff, in_or_app; right; now left).
  rewrite M. rewrite cut_app by (cbn; lia). change (desc ++ [34; 41]) with (desc ++ 34 :: [41]). now rewrite cut_last_app by (cbn; lia).
Qed.
Lemma no_prefix p s : (forall r, s <> p ++ r) -> has_prefix s p = false.
Proof. intros H. destruct (has_prefix s p) eqn:E; [|reflexivity]. apply has_prefix_iff in E. destruct E as (r & E). now elim (H r). Qed.
Lemma yes_prefix p r : has_prefix (p ++ r) p = true.
Proof. apply has_prefix_iff. now exists r. Qed.
Lemma trim_prefix_yes p r : trim_prefix p (p ++ r) = r.
Proof. unfold trim_prefix. rewrite yes_prefix. rewrite skipn_app, skipn_all, Nat.sub_diag. reflexivity. Qed.
Lemma word_visible n r : Forall visible n -> word (n ++ 32 :: r) = n.
Proof.
  induction 1 as [|c n V _ IH].
  - cbn [app word]. now rewrite space_blank by (now right).
  - cbn [app word]. rewrite space_visible by exact V. now rewrite IH.
Qed.
Lemma first_field_ok n r : Forall visible n -> n <> [] -> first_field (n ++ 32 :: r) = n.
Proof.
  intros V N. unfold first_field. rewrite <- (app_nil_l (n ++ 32 :: r)), ltrim_blanks; [now apply word_visible|constructor|].
  right. destruct V; [congruence|]. exact H.
Qed.
Definition lines_of (st : scan) (ls : list bytes) : scan := fold_left doc_line ls st.
Lemma doc_blank st l : block st = None -> Forall blank l -> doc_line st l = st.
Proof.
  intros B F. unfold doc_line. rewrite B, trim_blank by exact F. change (has_prefix [] (bs "#doc(")) with false. change (beq [] []) with true. now rewrite orb_true_r.
Qed.
Lemma doc_gap st ls : block st = None -> Forall (Forall blank) ls -> lines_of st ls = st.
Proof. intros B. unfold lines_of. induction 1 as [|l ls F _ IH]; [reflexivity|]. cbn [fold_left]. now rewrite doc_blank. Qed.
Lemma doc_plain fd l t : core l t -> (forall r, t <> bs "#doc(" ++ r) -> doc_line (Scan [] None fd) l = Scan [] None fd.
Proof. intros C N. unfold doc_line. cbn [block pending found]. rewrite (core_trim _ _ C), no_prefix by exact N. reflexivity. Qed.
Lemma doc_attr fd l desc : core l (bs "#doc(""" ++ desc ++ bs """)") -> doc_line (Scan [] None fd) l = Scan desc None fd.
Proof.
  intros C. unfold doc_line. cbn [block]. rewrite (core_trim _ _ C).
  change (has_prefix (bs "#doc(""" ++ desc ++ bs """)") (bs "#doc(")) with true. cbn iota. now rewrite doc_string_ok.
Qed.
Lemma doc_function fd desc line c pre name args body : desc <> [] -> core line c -> In pre [bs "do "; bs "private do "] ->
    c = pre ++ name ++ 40 :: args ++ body -> ~ In 40 name -> core name name -> ~ In 123 (name ++ 40 :: args) ->
    core (40 :: args) (40 :: args) -> (body = [] \/ exists sp b, body = sp ++ 123 :: b /\ Forall blank sp) ->
    doc_line (Scan desc None fd) line = Scan [] None (fd ++ [Item name (bs "function") (pre ++ name ++ 40 :: args) desc]).
Proof.
  intros D C P E N CN NB CA B. unfold doc_line. cbn [block pending found]. rewrite (core_trim _ _ C).
  assert (D1 : beq desc [] = false) by (destruct (beq desc []) eqn:K; [apply beq_iff in K; congruence|reflexivity]).
  assert (NP : ~ In 40 pre /\ ~ In 123 pre) by (destruct P as [<-|[<-|[]]]; vm_compute; intuition discriminate). destruct NP as (NP & NP').
  assert (HP : has_prefix c (bs "do ") || has_prefix c (bs "private do ") = true).
  { rewrite E. destruct P as [<-|[<-|[]]]; rewrite (yes_prefix _ _); [reflexivity|apply orb_true_r]. }
  assert (HD : has_prefix c (bs "#doc(") = false) by (rewrite E; destruct P as [<-|[<-|[]]]; reflexivity).
  assert (HE : beq c [] = false) by (rewrite E; destruct P as [<-|[<-|[]]]; reflexivity).
  rewrite HD, D1, HE. cbn [orb]. rewrite HP.
  assert (FN : func_name c = name).
  { unfold func_name. assert (T : trim_prefix (bs "do ") (trim_prefix (bs "private ") c) = name ++ 40 :: args ++ body).
    { rewrite E. destruct P as [<-|[<-|[]]].
      - replace (trim_prefix (bs "private ") (bs "do " ++ name ++ 40 :: args ++ body)) with (bs "do " ++ name ++ 40 :: args ++ body) by reflexivity. apply trim_prefix_yes.
      - change (bs "private do " ++ name ++ 40 :: args ++ body) with (bs "private " ++ bs "do " ++ name ++ 40 :: args ++ body). now rewrite !trim_prefix_yes. }
    rewrite T, cut_app by exact N. now apply core_trim. }
  rewrite FN. do 4 f_equal. destruct (core_hd _ _ CA) as (x & m & EA & VA & VB).
  assert (HV : visible (hd 0 pre)) by (destruct P as [<-|[<-|[]]]; vm_compute; intuition discriminate).
  assert (PN : pre <> []) by (destruct P as [<-|[<-|[]]]; discriminate).
  assert (L : forall q, last (pre ++ name ++ q :: args) 0 = last (q :: args) 0).
  { intros q. rewrite app_assoc. clear. induction (pre ++ name) as [|y l IH]; [reflexivity|]. cbn [app]. destruct l; exact IH. }
  destruct B as [-> | (sp & b & -> & BS)].
  - rewrite app_nil_r in E. assert (NC : cut 123 c = None).
    { apply cut_none. rewrite E. intros K. apply in_app_or in K. now destruct K. }
    now rewrite NC.
  - assert (EC : c = ((pre ++ name ++ 40 :: args) ++ sp) ++ 123 :: b) by (rewrite E, <- !app_assoc; cbn [app]; reflexivity).
    rewrite EC, cut_app.
    + pose proof (trim_core [] (pre ++ name ++ 40 :: args) sp) as T. cbn [app] in T. apply T; [constructor|exact BS|]. right. rewrite L. split; [|exact VB].
      destruct pre; [congruence|exact HV].
    + intros K. apply in_app_or in K. destruct K as [K|K]; [apply in_app_or in K; now destruct K|]. rewrite Forall_forall in BS. destruct (BS _ K); discriminate.
Qed.
Lemma doc_block_first fd desc first c kind name tail : desc <> [] -> core first c -> In kind [bs "struct"; bs "enum"] ->
    c = bs "const " ++ name ++ 32 :: kind ++ 32 :: tail -> Forall visible name -> name <> [] ->
    (kind = bs "enum" -> ~ occurs (bs " struct ") c) ->
    doc_line (Scan desc None fd) first =
    if 0 <? braces first then Scan desc (Some (kind, name, [first], braces first)) fd else Scan [] None (fd ++ [Item name kind c desc]).
Proof.
  intros D C K E V NN NS. unfold doc_line. cbn [block pending found]. rewrite (core_trim _ _ C).
  assert (D1 : beq desc [] = false) by (destruct (beq desc []) eqn:X; [apply beq_iff in X; congruence|reflexivity]).
  assert (HD : has_prefix c (bs "#doc(") = false) by (rewrite E; reflexivity).
  assert (HE : beq c [] = false) by (rewrite E; reflexivity).
  assert (H1 : has_prefix c (bs "do ") || has_prefix c (bs "private do ") = false) by (rewrite E; reflexivity).
  assert (H2 : has_prefix c (bs "const ") = true) by (rewrite E; apply yes_prefix).
  assert (BN : block_name c = name) by (unfold block_name; rewrite E, trim_prefix_yes; now apply first_field_ok).
  assert (O : occurs (32 :: kind ++ [32]) c).
  { exists (bs "const " ++ name), tail. rewrite E, <- !app_assoc. cbn [app]. rewrite <- app_assoc. reflexivity. }
  rewrite HD, D1, HE. cbn [orb]. rewrite H1, H2, !andb_true_r.
  destruct K as [<-|[<-|[]]].
  - replace (contains (bs " struct ") c) with true by (symmetry; now apply contains_iff). unfold start_block. cbn [pending found]. now rewrite BN, brace_braces.
  - destruct (contains (bs " struct ") c) eqn:X; [apply contains_iff in X; now elim NS|].
    replace (contains (bs " enum ") c) with true by (symmetry; now apply contains_iff). unfold start_block. cbn [pending found]. now rewrite BN, brace_braces.
Qed.
Lemma depth_app a b : depth (a ++ b) = depth a + depth b.
Proof. induction a as [|l a IH]; [reflexivity|]. unfold depth in *. cbn [app fold_right]. rewrite IH. lia. Qed.
Lemma doc_block_rest fd desc kind name rest : forall done, rest <> [] -> depth (done ++ rest) <= 0 ->
    (forall a b, done ++ rest = a ++ b -> (length done <= length a)%nat -> b <> [] -> 0 < depth a) ->
    lines_of (Scan desc (Some (kind, name, rev done, depth done)) fd) rest = Scan [] None (fd ++ [Item name kind (text (done ++ rest)) desc]).
Proof.
  induction rest as [|l rest IH]; intros done N D P; [congruence|]. unfold lines_of. cbn [fold_left].
  unfold doc_line at 2. cbn [block pending found]. rewrite brace_braces.
  assert (DD : depth done + braces l = depth (done ++ [l])) by (rewrite depth_app; unfold depth; cbn [fold_right]; lia).
  rewrite DD. destruct rest as [|m rest].
  - destruct (Z.leb_spec (depth (done ++ [l])) 0); [|lia]. cbn [fold_left]. rewrite join_text. do 4 f_equal.
    change (l :: rev done) with ([l] ++ rev done). now rewrite rev_app_distr, rev_involutive.
  - assert (A : done ++ l :: m :: rest = (done ++ [l]) ++ m :: rest) by now rewrite <- app_assoc.
    specialize (P (done ++ [l]) (m :: rest) A) as P0. rewrite app_length in P0. specialize (P0 ltac:(lia) ltac:(discriminate)).
    destruct (Z.leb_spec (depth (done ++ [l])) 0); [lia|]. rewrite A in D, P |- *.
    rewrite <- (IH (done ++ [l])); [|discriminate|exact D|].
    + rewrite rev_app_distr. reflexivity.
    + intros a b E L B. apply (P a b E); [rewrite app_length in L; lia|exact B].
Qed.
Lemma doc_decl fd desc d name kind sig : desc <> [] -> declares d name kind sig ->
  lines_of (Scan desc None fd) (decl_lines d) = Scan [] None (fd ++ [Item name kind sig desc]).
Proof.
  intros D H. destruct H as [line c pre name args body C P E N CN NB CA B|kind first rest c name tail C K E V NN NS R].
  - unfold lines_of. cbn [decl_lines fold_left]. eapply doc_function; eassumption.
  - unfold lines_of. cbn [decl_lines fold_left]. rewrite (doc_block_first fd desc first c kind name tail) by assumption.
    assert (BD : braces first = depth [first]) by (unfold depth; cbn [fold_right]; lia).
    destruct R as [(-> & L) | (RN & L & P)].
    + destruct (Z.ltb_spec 0 (braces first)); [lia|]. reflexivity.
    + destruct (Z.ltb_spec 0 (braces first)) as [_|L0].
      2: { specialize (P [first] rest eq_refl ltac:(discriminate) RN). lia. }
      rewrite BD. pose proof (doc_block_rest fd desc kind name rest [first] RN) as X. cbn [app] in X.
      assert (ET : match rest with [] => c | _ :: _ => text (first :: rest) end = text (first :: rest)) by (destruct rest; [congruence|reflexivity]).
      rewrite ET. apply X; [exact L|]. intros a b AB LA B. apply (P a b AB); [|exact B]. intros ->. cbn in LA. lia.
Qed.
Lemma doc_chunk fd c : chunk_ok c -> lines_of (Scan [] None fd) (chunk_lines c) = Scan [] None (fd ++ chunk_items c).
Proof.
  destruct c as [l|doc desc gap d it]; cbn [chunk_ok chunk_lines chunk_items].
  - rewrite app_nil_r. unfold lines_of. cbn [fold_left]. intros [B | (t & C & N)]; [now apply doc_blank|now apply doc_plain with t].
  - intros (C & N & G & D & I). unfold lines_of. cbn [fold_left]. rewrite (doc_attr fd doc desc C), fold_left_app.
    pose proof (doc_gap (Scan desc None fd) gap eq_refl G) as X. unfold lines_of in X. rewrite X.
    pose proof (doc_decl fd desc d _ _ _ N D) as Y. unfold lines_of in Y. rewrite Y. do 3 f_equal. destruct it as [n k s e]. cbn [iname ikind isig idesc] in *. now subst.
Qed.
Lemma doc_chunks cs : Forall chunk_ok cs -> forall fd, lines_of (Scan [] None fd) (flat_map chunk_lines cs) = Scan [] None (fd ++ flat_map chunk_items cs).
Proof.
  induction 1 as [|c cs H _ IH]; intros fd.
  - cbn. now rewrite app_nil_r.
  - cbn [flat_map]. unfold lines_of in *. rewrite fold_left_app. pose proof (doc_chunk fd c H) as X. unfold lines_of in X. rewrite X, IH. now rewrite app_assoc.
Qed.

(** ** The entry file *)
Lemma space_at_char c r : In c space_chars -> space_at (c ++ r) = length c /\ c <> [].
Proof.
  intros H. repeat (destruct H as [<-|H]; [split; [reflexivity|discriminate]|]). destruct H.
Qed.
Ltac in_chars := match goal with |- In ?x space_chars => first [left; reflexivity | idtac]; unfold space_chars; cbn [map app]; repeat first [left; reflexivity | right] end.
Lemma space_at_some s k : space_at s = S k -> In (firstn (S k) s) space_chars.
Proof.
  destruct s as [|c s]; cbn [space_at]; [discriminate|]. destruct (((9 <=? c) && (c <=? 13)) || (c =? 32)) eqn:E1.
  - intros [= <-]. cbn [firstn]. assert (H : c = 9 \/ c = 10 \/ c = 11 \/ c = 12 \/ c = 13 \/ c = 32) by lia.
    repeat (destruct H as [-> | H]; [in_chars|]). subst. in_chars.
  - destruct s as [|d s]; [discriminate|]. destruct ((c =? 194) && ((d =? 133) || (d =? 160))) eqn:E2.
    + intros [= <-]. cbn [firstn]. assert (H : c = 194 /\ (d = 133 \/ d = 160)) by lia. destruct H as (-> & [-> | ->]); in_chars.
    + destruct s as [|e s]; [discriminate|].
      match goal with |- (if ?b then _ else _) = _ -> _ => destruct b eqn:E3; [|discriminate] end. intros [= <-]. cbn [firstn].
      assert (H : (c = 225 /\ d = 154 /\ e = 128) \/ (c = 226 /\ d = 128 /\ (e = 128 \/ e = 129 \/ e = 130 \/ e = 131 \/ e = 132 \/ e = 133 \/ e = 134 \/ e = 135 \/ e = 136 \/ e = 137 \/ e = 138 \/ e = 168 \/ e = 169 \/ e = 175)) \/
                  (c = 226 /\ d = 129 /\ e = 159) \/ (c = 227 /\ d = 128 /\ e = 128)) by lia.
      destruct H as [(-> & -> & ->) | [(-> & -> & H) | [(-> & -> & ->) | (-> & -> & ->)]]]; [in_chars| |in_chars|in_chars].
      repeat (destruct H as [-> | H]; [in_chars|]). subst. in_chars.
Qed.
Lemma ltrim_sound n : forall s, exists ws, s = ws ++ ltrim_fuel n s /\ spaces ws.
Proof.
  induction n as [|n IH]; intros s; cbn [ltrim_fuel].
  - exists []. split; [reflexivity|]. exists []. split; [reflexivity|intros c []].
  - destruct (space_at s) as [|k] eqn:E.
    + exists []. split; [reflexivity|]. exists []. split; [reflexivity|intros c []].
    + destruct (IH (skipn (S k) s)) as (ws & E' & l & -> & L). exists (firstn (S k) s ++ concat l). split.
      * rewrite <- app_assoc, <- E'. symmetry. apply firstn_skipn.
      * exists (firstn (S k) s :: l). split; [reflexivity|]. intros c [<-|H]; [now apply space_at_some|now apply L].
Qed.
Lemma ltrim_spaces ws r : spaces ws -> (r = [] \/ visible (hd 0 r)) -> ltrim (ws ++ r) = r.
Proof.
  intros (l & -> & L) V. assert (V' : space_at r = 0%nat) by (destruct r; [reflexivity|]; destruct V as [V|V]; [discriminate|now apply space_visible]).
  unfold ltrim. assert (G : forall n, (length (concat l) <= n)%nat -> ltrim_fuel n (concat l ++ r) = r).
  { induction l as [|c l IH]; intros n G.
    - cbn [concat app]. destruct n; [reflexivity|]. cbn [ltrim_fuel]. now rewrite V'.
    - cbn [concat] in *. rewrite <- app_assoc. destruct (space_at_char c (concat l ++ r) (L c (or_introl eq_refl))) as (K & N).
      rewrite app_length in G. destruct c as [|x c]; [congruence|]. cbn [length] in *. destruct n as [|n]; [lia|]. cbn [ltrim_fuel]. rewrite K.
      change (S (length c)) with (length (x :: c)). rewrite skipn_app, skipn_all, Nat.sub_diag. cbn [skipn app]. apply IH; [intros y Y; apply L; now right|lia]. }
  apply G. rewrite app_length. lia.
Qed.
Lemma rtrim_keeps p r : visible (last p 0) -> exists q, rtrim (p ++ r) = p ++ q.
Proof.
  intros V. unfold rtrim. rewrite rev_app_distr. assert (G : forall n s, exists q, rtrim_fuel n (rev s ++ rev p) = rev q ++ rev p).
  { induction n as [|n IH]; intros s; [now exists s|]. cbn [rtrim_fuel]. destruct (space_end (rev s ++ rev p)) as [|k] eqn:E; [now exists s|].
    destruct p as [|y p] using rev_ind; [exfalso; unfold visible in V; cbn [last] in V; lia|]. clear IHp. rewrite last_last in V.
    assert (KS : (S k <= length s)%nat).
    { clear IH. rewrite rev_app_distr in E. cbn [rev app] in E. rewrite <- rev_length. set (rs := rev s) in *. clearbody rs. destruct rs as [|e rs].
      - cbn [app] in E. rewrite end_visible in E by exact V. discriminate.
      - cbn [app space_end] in E. destruct (((9 <=? e) && (e <=? 13)) || (e =? 32)); [injection E as <-; cbn; lia|]. destruct rs as [|d rs]; cbn [app] in E.
        + unfold visible in V. cbn [space_at] in E. replace (((9 <=? y) && (y <=? 13)) || (y =? 32)) with false in E by lia.
          replace ((y =? 194) && ((e =? 133) || (e =? 160))) with false in E by lia. cbn [Nat.eqb] in E.
          destruct (rev p ++ []) as [|c z] eqn:Z0 in E; rewrite ?app_nil_r in Z0.
          * rewrite Z0 in E. discriminate.
          * rewrite Z0 in E. destruct (((9 <=? c) && (c <=? 13)) || (c =? 32)); [discriminate|]. destruct ((c =? 194) && ((y =? 133) || (y =? 160))); [discriminate|].
            replace (_ || _) with false in E by lia. discriminate.
        + destruct (Nat.eqb (space_at [d; e]) 2); [injection E as <-; cbn; lia|]. destruct rs as [|c rs]; cbn [app] in E.
          * unfold visible in V. rewrite (space_visible y [d; e]) in E by exact V. discriminate.
          * destruct (Nat.eqb (space_at [c; d; e]) 3); [injection E as <-; cbn; lia|discriminate]. }
    destruct (IH (rev (skipn (S k) (rev s)))) as (q & Q). rewrite rev_involutive in Q. exists q. rewrite <- Q. f_equal.
    rewrite skipn_app, rev_length. replace (S k - length s)%nat with 0%nat by lia. reflexivity. }
  destruct (G (length (p ++ r)) r) as (q & ->). exists q. now rewrite rev_app_distr, !rev_involutive.
Qed.
Definition main_text : bytes := bs "do main(".
Lemma main_trim l : has_prefix (trim_space l) main_text = true <-> exists ws r, l = ws ++ main_text ++ r /\ spaces ws.
Proof.
  rewrite has_prefix_iff. split.
  - intros (r & E). unfold trim_space in E. destruct (ltrim_sound (length l) l) as (ws & EL & S). fold (ltrim l) in EL.
    assert (RT : exists t, ltrim l = rtrim (ltrim l) ++ t).
    { unfold rtrim. set (s := ltrim l). clearbody s. clear. assert (G : forall n r, exists t, r = t ++ rtrim_fuel n r).
      { induction n as [|n IH]; intros r; [now exists []|]. cbn [rtrim_fuel]. destruct (space_end r) as [|k]; [now exists []|].
        destruct (IH (skipn (S k) r)) as (t & E). exists (firstn (S k) r ++ t). rewrite <- app_assoc, <- E. symmetry. apply firstn_skipn. }
      destruct (G (length s) (rev s)) as (t & E). exists (rev t). rewrite <- rev_app_distr, <- E. symmetry. apply rev_involutive. }
    destruct RT as (t & RT). exists ws, (r ++ t). split; [|exact S]. rewrite EL at 1. rewrite RT, E. now rewrite <- app_assoc.
  - intros (ws & r & -> & S). unfold trim_space. rewrite ltrim_spaces; [|exact S|right; vm_compute; intuition discriminate].
    apply rtrim_keeps. vm_compute. intuition discriminate.
Qed.
Lemma main_cr l : has_prefix (trim_space (drop_cr l)) main_text = true <-> exists ws r, l = ws ++ main_text ++ r /\ spaces ws.
Proof.
  rewrite main_trim. destruct (drop_cr_spec l) as [-> | E]; [reflexivity|]. split.
  - intros (ws & r & E' & S). exists ws, (r ++ [13]). split; [|exact S]. rewrite E, E', <- !app_assoc. reflexivity.
  - intros (ws & r & E' & S). exists ws, (removelast r). split; [|exact S]. rewrite E in E'. destruct r as [|x r] using rev_ind.
    + exfalso. rewrite app_nil_r in E'. change main_text with (bs "do main" ++ [40]) in E'. rewrite app_assoc in E'. apply app_inj_tail in E'. destruct E'; discriminate.
    + rewrite removelast_last. rewrite !app_assoc in E'. apply app_inj_tail in E'. destruct E' as (E' & _). now rewrite E', <- app_assoc.
Qed.
Lemma scan_main ls : Forall (fun l => Z.of_nat (length l) < 65536) ls ->
  existsb (fun l => has_prefix (trim_space l) main_text) (scan_lines ls) = existsb (fun l => has_prefix (trim_space (drop_cr l)) main_text) ls.
Proof.
  induction 1 as [|x ls L F IH]; [reflexivity|]. cbn [scan_lines]. destruct (Z.leb_spec 65536 (Z.of_nat (length x))); [lia|].
  destruct ls as [|y ls]; [|cbn [existsb] in *; now rewrite IH]. destruct x; reflexivity.
Qed.
Lemma has_main_iff content : short_lines content -> has_main content = true <-> has_main_line content.
Proof.
  intros SL. destruct (text_split content) as (T & O & N). unfold has_main, file_lines.
  change (bs "do main(") with main_text. rewrite scan_main.
  - rewrite existsb_exists. split.
    + intros (l & I & P). apply main_cr in P. destruct P as (ws & r & E & S). apply in_split in I. destruct I as (a & b & I).
      exists a, l, b, ws, r. rewrite <- I, T. split; [reflexivity|]. split; [exact O|]. split; [exact E|exact S].
    + intros (a & l & b & ws & r & E & O' & L & S). exists l. split.
      * rewrite E, split_text; [apply in_elt|destruct a; discriminate|exact O'].
      * apply main_cr. exists ws, r. split; [exact L|exact S].
  - apply Forall_forall. intros l I. apply in_split in I. destruct I as (a & b & I). rewrite I in O. exact (SL a l b (eq_trans (eq_sym T) (f_equal text I)) O).
Qed.
Lemma suffix_iff s p : has_suffix s p = true <-> exists r, s = r ++ p.
Proof.
  unfold has_suffix. rewrite has_prefix_iff. split.
  - intros (r & E). exists (rev r). apply (f_equal (@rev Z)) in E. now rewrite rev_app_distr, !rev_involutive in E.
  - intros (r & ->). exists (rev r). apply rev_app_distr.
Qed.
Definition gray_path (p : list bytes) : Prop := p <> [] /\ gray_name p.
Fixpoint node_size (n : node) : nat := match n with Leaf _ _ => 1 | Dir _ ks => S (fold_right (fun k m => node_size k + m)%nat 0%nat ks) end.
Lemma size_in ks k : In k ks -> (node_size k <= fold_right (fun k m => node_size k + m)%nat 0%nat ks)%nat.
Proof. induction ks as [|x ks IH]; [intros []|]. intros [<-|H]; cbn [fold_right]; [lia|]. specialize (IH H). lia. Qed.
Lemma gray_in : forall n ks p c, (fold_right (fun k m => node_size k + m)%nat 0%nat ks < n)%nat -> In (p, c) (flat_map gray_files ks) <-> file_in ks p c /\ gray_name p.
Proof.
  induction n as [|n IH]; intros ks p c L; [lia|]. rewrite in_flat_map. split.
  - intros (k & I & H). destruct k as [m d|m ks']; cbn [gray_files] in H.
    + destruct (has_suffix m (bs ".gray")) eqn:E; [|destruct H]. destruct H as [H|[]]. injection H as <- <-. split; [now apply in_leaf|]. apply suffix_iff in E. exact E.
    + apply in_map_iff in H. destruct H as ((q & d) & E & H). cbn [fst snd] in E. injection E as <- <-.
      pose proof (size_in _ _ I) as SZ. cbn [node_size] in SZ. apply IH in H; [|lia]. destruct H as (FI & G). split; [eapply in_dir; eassumption|].
      unfold gray_name in *. destruct q; [inversion FI|exact G].
  - intros (FI & G). inversion FI as [ns m d I|ns m ks' q d I F']; subst.
    + exists (Leaf m c). split; [exact I|]. cbn [gray_files]. destruct (has_suffix m (bs ".gray")) eqn:E; [now left|]. assert (X : has_suffix m (bs ".gray") = true) by (apply suffix_iff; exact G). congruence.
    + exists (Dir m ks'). split; [exact I|]. cbn [gray_files]. apply in_map_iff. exists (q, c). split; [reflexivity|].
      pose proof (size_in _ _ I) as SZ. cbn [node_size] in SZ. apply IH; [lia|]. split; [exact F'|]. unfold gray_name in *. destruct q; [inversion F'|exact G].
Qed.
Lemma gray_in' ks p c : In (p, c) (flat_map gray_files ks) <-> file_in ks p c /\ gray_name p.
Proof. eapply gray_in. apply Nat.lt_succ_diag_r. Qed.
Lemma gray_head k p c : In (p, c) (gray_files k) -> exists q, p = node_name k :: q.
Proof.
  destruct k as [m d|m ks]; cbn [gray_files node_name].
  - destruct (has_suffix m (bs ".gray")); [|intros []]. intros [H|[]]. injection H as <- _. now exists [].
  - intros H. apply in_map_iff in H. destruct H as ((q & d) & E & _). injection E as <- _. now exists q.
Qed.
Lemma nodup_app {A} (a b : list A) : NoDup a -> NoDup b -> (forall x, In x a -> ~ In x b) -> NoDup (a ++ b).
Proof.
  induction 1 as [|x a N _ IH]; intros B D; [exact B|]. cbn [app]. constructor.
  - intros H. apply in_app_or in H. destruct H as [H|H]; [now apply N|]. now apply (D x (or_introl eq_refl)).
  - apply IH; [exact B|]. intros y Y. apply D. now right.
Qed.
Lemma nodup_cons_map {A} (m : A) (l : list (list A)) : NoDup l -> NoDup (map (cons m) l).
Proof.
  induction 1 as [|x l N _ IH]; cbn [map]; constructor; [|exact IH]. intros H. apply in_map_iff in H. destruct H as (y & E & H). injection E as ->. now apply N.
Qed.
Lemma gray_nodup ks : tree_ok ks -> NoDup (map fst (flat_map gray_files ks)).
Proof.
  induction 1 as [ns ND _ IH]. induction ns as [|k ns IHn]; [constructor|]. cbn [flat_map map] in *. rewrite map_app. apply NoDup_cons_iff in ND. destruct ND as (NI & ND).
  apply nodup_app.
  - destruct k as [m d|m ks]; cbn [gray_files].
    + destruct (has_suffix m (bs ".gray")); cbn; constructor; [intros []|constructor].
    + rewrite map_map. cbn [fst]. rewrite <- (map_map fst (cons m)). apply nodup_cons_map, (IH m). now left.
  - apply IHn; [exact ND|]. intros m ks H. apply (IH m). now right.
  - intros p P Q. apply in_map_iff in P, Q. destruct P as ((p1 & c1) & E1 & P), Q as ((p2 & c2) & E2 & Q). cbn [fst] in *. subst p1 p2.
    apply in_flat_map in Q. destruct Q as (k' & I & Q). apply gray_head in P, Q. destruct P as (q & ->), Q as (q' & E). injection E as E _.
    apply NI. rewrite E. now apply in_map.
Qed.
Lemma nodup_filter_fst {A B} (f : A * B -> bool) (l : list (A * B)) : NoDup (map fst l) -> NoDup (map fst (filter f l)).
Proof.
  induction l as [|x l IH]; [auto|]. cbn [map filter]. intros H. inversion H as [|? ? N ND]; subst. destruct (f x); [|auto]. cbn [map]. constructor; [|auto].
  intros K. apply N. apply in_map_iff in K. destruct K as (y & E & K). apply filter_In in K. rewrite <- E. apply in_map. apply K.
Qed.
Lemma find_main_iff ks p : tree_ok ks -> (forall q c, file_in ks q c -> short_lines c) ->
  find_main ks = Some p <-> entry_file ks p /\ forall q, entry_file ks q -> q = p.
Proof.
  intros T SH. assert (M : forall q c, In (q, c) (filter (fun f => has_main (snd f)) (flat_map gray_files ks)) <-> file_in ks q c /\ gray_name q /\ has_main_line c).
  { intros q c. rewrite filter_In, gray_in'. cbn [snd]. split.
    - intros ((A & B) & C). split; [exact A|]. split; [exact B|]. apply has_main_iff; [eapply SH; exact A|exact C].
    - intros (A & B & C). split; [now split|]. apply has_main_iff; [eapply SH; exact A|exact C]. }
  unfold find_main. pose proof (nodup_filter_fst (fun f => has_main (snd f)) _ (gray_nodup ks T)) as ND.
  destruct (filter (fun f => has_main (snd f)) (flat_map gray_files ks)) as [|(q & c) [|(q2 & c2) l]].
  - split; [discriminate|]. intros ((c & H) & _). apply M in H. destruct H.
  - cbn [fst]. split.
    + intros [= <-]. split; [exists c; apply M; now left|]. intros q' (c' & H). apply M in H. destruct H as [H|[]]. now injection H.
    + intros (_ & U). f_equal. apply U. exists c. apply M. now left.
  - split; [discriminate|]. intros (_ & U). exfalso. cbn [map fst] in ND. inversion ND as [|? ? N _]; subst. apply N. left.
    rewrite (U q); [|exists c; apply M; now left]. apply U. exists c2. apply M. right. now left.
Qed.
