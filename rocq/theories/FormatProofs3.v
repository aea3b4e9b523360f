(** Proofs about the C format of the format functions. *)
From Verif Require Import Base BaseFacts StringsModel EncodingModel LitSpec LitModel LitProofs LitProofs2 LitProofs3 FormatSpec FormatModel FormatProofs FormatProofs2.
Ltac Zify.zify_post_hook ::= Z.div_mod_to_equations.

(** * The format as it is copied *)
Definition up (d : directive) (ks : list kind) : directive := mk (flags d) (width d) (precision d) (len d ++ upgrade (len d) (conv d) ks) (conv d).
Fixpoint upg (ps : list piece) (ks : list kind) : list piece :=
  match ps with [] => [] | Dir d :: ps => Dir (up d ks) :: upg ps (tl ks) | p :: ps => p :: upg ps ks end.
Lemma copy_chars ps : Forall char_piece ps -> forall fuel ks, (length (Wp ps) <= fuel)%nat -> copy_format fuel (Wp ps) ks = Wp (upg ps ks).
Proof.
  induction 1 as [|p ps C F IH]; intros fuel ks Le; [destruct fuel; reflexivity|]. destruct p as [[c|e v|h l v]| |d]; cbn in C; try contradiction; cbn [flat_map piece_written written app upg] in *.
  - destruct fuel as [|fuel]; [cbn in Le; lia|]. cbn [copy_format]. replace (c =? 37) with false by lia. cbn [negb]. f_equal. apply IH. cbn in Le. lia.
  - destruct fuel as [|fuel]; [cbn in Le; lia|]. cbn [copy_format]. cbn [Z.eqb Pos.eqb negb]. do 2 f_equal. apply IH. cbn in Le. lia.
  - destruct fuel as [|fuel]; [cbn in Le; lia|]. destruct (dir_spec d C) as (O & L & A & B & _ & _). destruct (spec_head d (Wp ps) O L A B) as (c & r & E & C1 & _).
    pose proof (take_spec_written d (Wp ps) O L) as T. cbn [length] in Le. rewrite app_length in Le. rewrite E in *. cbn [copy_format]. change (37 =? 37) with true. cbn [negb].
    replace (c =? 37) with false by lia. rewrite T, IH by lia. f_equal. unfold up. rewrite spec_split. cbn [flags width precision len conv mk]. rewrite <- !app_assoc. reflexivity.
Qed.
Lemma up_lens d ks : dir_ok d -> spec_ok (up d ks).
Proof.
  intros D. destruct (dir_spec d D) as (O & _). destruct O as (A & B & C & P & L). split; [exact A|]. split; [exact B|]. split; [exact C|]. split; [exact P|]. cbn [len up mk]. unfold upgrade.
  destruct (len d) as [|x l] eqn:E; [|rewrite app_nil_r; exact L]. cbn [app]. destruct ks as [|k ks]; [left; reflexivity|].
  destruct k; try (left; reflexivity); [destruct ((conv d =? 100) || (conv d =? 105))|destruct (conv d =? 117)]; cbn; tauto.
Qed.

(** * Items *)
Fixpoint cits (ps : list piece) (ks : list kind) : list item :=
  match ps with
  | [] => []
  | Text i :: ps => i :: cits ps ks
  | Percent :: ps => Plain 37 :: Plain 37 :: cits ps ks
  | Dir d :: ps => map Plain (37 :: spec_written (up d ks)) ++ cits ps (tl ks)
  end.
Lemma W_app a b : W (a ++ b) = W a ++ W b. Proof. induction a as [|i a IH]; [reflexivity|]. cbn [app flat_map]. now rewrite IH, app_assoc. Qed.
Lemma W_cits ps : forall ks, W (cits ps ks) = Wp (upg ps ks).
Proof.
  induction ps as [|p ps IH]; intros ks; [reflexivity|]. destruct p as [i| |d]; cbn [cits upg flat_map piece_written].
  - now rewrite IH.
  - cbn [written app]. now rewrite IH.
  - rewrite W_app, W_plain, IH. reflexivity.
Qed.
Definition expand (ps : list piece) : list piece := flat_map (fun p => match p with Text i => map (fun c => Text (Plain c)) (written i) | _ => [p] end) ps.
Lemma Wp_app a b : Wp (a ++ b) = Wp a ++ Wp b. Proof. induction a as [|i a IH]; [reflexivity|]. cbn [app flat_map]. now rewrite IH, app_assoc. Qed.
Lemma Wp_chars s : Wp (map (fun c => Text (Plain c)) s) = s. Proof. induction s as [|c s IH]; [reflexivity|]. cbn. now rewrite IH. Qed.
Lemma expand_written ps : Wp (expand ps) = Wp ps.
Proof.
  induction ps as [|p ps IH]; [reflexivity|]. change (expand (p :: ps)) with ((match p with Text i => map (fun c => Text (Plain c)) (written i) | _ => [p] end) ++ expand ps). rewrite Wp_app, IH.
  cbn [flat_map]. f_equal. destruct p as [i| |d]; [rewrite Wp_chars; reflexivity| |]; cbn; now rewrite ?app_nil_r.
Qed.
Lemma expand_dirs ps : dirs (expand ps) = dirs ps.
Proof.
  induction ps as [|p ps IH]; [reflexivity|]. change (expand (p :: ps)) with ((match p with Text i => map (fun c => Text (Plain c)) (written i) | _ => [p] end) ++ expand ps).
  unfold dirs in *. rewrite flat_map_app, IH. cbn [flat_map]. f_equal. destruct p as [i| |d]; try reflexivity. induction (written i) as [|c s IHs]; [reflexivity|]. exact IHs.
Qed.
Lemma upg_app_chars s ps ks : upg (map (fun c => Text (Plain c)) s ++ ps) ks = map (fun c => Text (Plain c)) s ++ upg ps ks.
Proof. induction s as [|c s IH]; [reflexivity|]. cbn. now rewrite IH. Qed.
Lemma expand_upg ps : forall ks, Wp (upg (expand ps) ks) = Wp (upg ps ks).
Proof.
  induction ps as [|p ps IH]; intros ks; [reflexivity|]. change (expand (p :: ps)) with ((match p with Text i => map (fun c => Text (Plain c)) (written i) | _ => [p] end) ++ expand ps).
  destruct p as [i| |d]; cbn [app upg flat_map].
  - rewrite upg_app_chars, Wp_app, Wp_chars, IH. reflexivity.
  - now rewrite IH.
  - now rewrite IH.
Qed.
Lemma item_no_percent i : item_ok i -> i <> Plain 37 -> Forall (fun c => c <> 37) (written i).
Proof.
  intros O N. destruct i as [c|e v|h l v]; cbn [written].
  - constructor; [congruence|constructor].
  - constructor; [discriminate|]. constructor; [|constructor]. cbn in O. repeat (destruct O as [O|O]; [injection O as <- <-; discriminate|]). destruct O.
  - destruct O as (x & y & Hx & Hy & _). assert (D : forall h x, digit 16 h x -> h <> 37) by (intros ? ? D; inversion D; lia). repeat (constructor; try discriminate; eauto).
Qed.
Lemma expand_ok ps : Forall piece_ok ps -> Forall char_piece (expand ps).
Proof.
  induction 1 as [|p ps O F IH]; [constructor|]. change (expand (p :: ps)) with ((match p with Text i => map (fun c => Text (Plain c)) (written i) | _ => [p] end) ++ expand ps).
  apply Forall_app. split; [|exact IH]. destruct p as [i| |d]; cbn in O; [|constructor; [exact I|constructor]|constructor; [exact O|constructor]].
  destruct O as [O N]. apply Forall_map. exact (item_no_percent i O N).
Qed.
Lemma copy_pieces ps ks : Forall piece_ok ps -> copy_format (length (Wp ps)) (Wp ps) ks = W (cits ps ks).
Proof.
  intros F. rewrite W_cits, <- expand_upg. rewrite <- (expand_written ps). apply copy_chars; [now apply expand_ok|reflexivity].
Qed.
(** Two question marks *)
Lemma qq_none x r : Forall (fun c => c <> 63) x -> qq (x ++ r) = qq r.
Proof. induction 1 as [|c x C F IH]; [reflexivity|]. cbn [app]. rewrite not63 by exact C. exact IH. Qed.
Lemma qq_ext x r1 r2 : qq r1 = qq r2 -> (hd 0 r1 =? 63) = (hd 0 r2 =? 63) -> qq (x ++ r1) = qq (x ++ r2).
Proof. intros A B. induction x as [|c x IH]; [exact A|]. cbn [app qq]. rewrite IH. f_equal. destruct x as [|d x]; [cbn [app]; rewrite B; reflexivity|reflexivity]. Qed.
Lemma hd_app_ext (x r1 r2 : bytes) : (hd 0 r1 =? 63) = (hd 0 r2 =? 63) -> (hd 0 (x ++ r1) =? 63) = (hd 0 (x ++ r2) =? 63).
Proof. destruct x; cbn; auto. Qed.
Lemma spec_no_qq d : spec_ok d -> letter (conv d) -> conv d <> 63 -> Forall (fun c => c <> 63) (spec_written d).
Proof.
  intros (F & Wd & _ & P & L) _ C. unfold spec_written. fold (prec_written (precision d)). apply Forall_app. split; [eapply Forall_impl; [|exact F]; intros c H ->; discriminate|].
  apply Forall_app. split; [eapply Forall_impl; [|exact Wd]; intros c H ->; discriminate|]. apply Forall_app. split.
  - destruct (precision d) as [p|]; [|constructor]. constructor; [discriminate|]. eapply Forall_impl; [|exact P]. intros c H ->. discriminate.
  - apply Forall_app. split; [|constructor; [exact C|constructor]]. cbn in L. destruct L as [<-|[<-|[<-|[<-|[<-|[<-|[]]]]]]]; repeat constructor; discriminate.
Qed.
Lemma known_not63 c : In c (bs "diuxXofgeGEscb") -> c <> 63.
Proof. intros H ->. cbn in H. intuition discriminate. Qed.
Lemma cits_qq ps : forall ks, Forall piece_ok ps -> qq (W (cits ps ks)) = qq (Wp ps) /\ (hd 0 (W (cits ps ks)) =? 63) = (hd 0 (Wp ps) =? 63).
Proof.
  induction ps as [|p ps IH]; intros ks F; [split; reflexivity|]. apply Forall_cons_iff in F as [O F]. destruct p as [i| |d].
  - destruct (IH ks F) as [A B]. cbn [cits flat_map piece_written]. split; [now apply qq_ext|now apply hd_app_ext].
  - destruct (IH ks F) as [A B]. cbn [cits flat_map piece_written written app]. split; [rewrite !not63 by discriminate; exact A|reflexivity].
  - destruct (IH (tl ks) F) as [A B]. cbn [cits flat_map piece_written]. rewrite W_app, W_plain. cbn in O. pose proof (dir_spec d O) as (O1 & L & _). destruct O as (_ & _ & _ & _ & _ & K).
    assert (O2 : spec_ok (up d ks)). { apply up_lens. destruct O1 as (a & b & c & e & f). exact (conj a (conj b (conj c (conj e (conj f K))))). }
    split; [|reflexivity]. cbn [app]. rewrite !not63 by discriminate. rewrite !qq_none; [exact A| |]; apply spec_no_qq; auto; now apply known_not63.
Qed.
(** Hexadecimal escapes *)
Lemma cits_sep ps : forall ks, hex_sep (items ps) -> hex_sep (cits ps ks).
Proof.
  induction ps as [|p ps IH]; intros ks H; [exact I|]. destruct p as [i| |d]; cbn [cits].
  - cbn [items flat_map app] in H. fold (items ps) in H. cbn [hex_sep] in H |- *. destruct H as [H1 H2]. split; [|now apply IH]. destruct i as [| |h l v]; auto.
    destruct ps as [|[j| |d] ps]; cbn [cits items flat_map app] in *; auto.
  - apply hex_sep_plain, hex_sep_plain, IH. exact (proj1 (hex_sep_plain _ _) (proj1 (hex_sep_plain _ _) H)).
  - apply hex_sep_plains, IH. exact (proj1 (hex_sep_plains _ _) H).
Qed.
Lemma plain_ok s : Forall (fun c => c <> 0 /\ c <> 92 /\ c <> 34 /\ c <> 10) s -> Forall citem_ok (map Plain s).
Proof. induction 1 as [|c s C F IH]; [constructor|]. cbn [map]. constructor; [|exact IH]. split; [exact C|]. split; [discriminate|]. exact (proj1 C). Qed.
Lemma spec_plain d : spec_ok d -> In (conv d) (bs "diuxXofgeGEscb") -> Forall (fun c => c <> 0 /\ c <> 92 /\ c <> 34 /\ c <> 10) (spec_written d).
Proof.
  intros (F & Wd & _ & P & L) C. unfold spec_written. fold (prec_written (precision d)).
  assert (N : forall w, numeral_ w -> Forall (fun c => c <> 0 /\ c <> 92 /\ c <> 34 /\ c <> 10) w). { intros w H. eapply Forall_impl; [|exact H]. intros c D. unfold isdigit in D. cbv beta. lia. }
  apply Forall_app. split; [eapply Forall_impl; [|exact F]; intros c D; unfold is_flag in D; cbn in D; cbv beta; lia|]. apply Forall_app. split; [now apply N|]. apply Forall_app. split.
  - destruct (precision d) as [p|]; [|constructor]. constructor; [lia|now apply N].
  - apply Forall_app. split; [cbn in L; destruct L as [<-|[<-|[<-|[<-|[<-|[<-|[]]]]]]]; repeat constructor; lia|]. constructor; [|constructor].
    cbn in C. repeat (destruct C as [<-|C]; [lia|]). destruct C.
Qed.
Lemma cits_ok ps : forall ks, Forall piece_ok ps -> (forall i, In (Text i) ps -> citem_ok i) -> Forall citem_ok (cits ps ks).
Proof.
  induction ps as [|p ps IH]; intros ks F H; [constructor|]. apply Forall_cons_iff in F as [O F]. assert (H' : forall i, In (Text i) ps -> citem_ok i) by (intros i J; apply H; now right). destruct p as [i| |d]; cbn [cits].
  - constructor; [apply H; now left|now apply IH].
  - constructor; [|constructor; [|now apply IH]]; (split; [cbn; lia|split; [discriminate|discriminate]]).
  - apply Forall_app. split; [|now apply IH]. apply plain_ok. constructor; [lia|]. apply spec_plain; [now apply up_lens|]. cbn in O. apply O.
Qed.

(** * The literal *)
Lemma format_literal (nl : bool) ps tys : Forall piece_ok ps -> free_of (bs "??") (Wp ps) -> no_neighbours bad_hex (items ps) -> (forall i, In (Text i) ps -> text_ok i) ->
  c_string (emit_format nl (Wp ps) tys) = Some (map denoted (cits ps (map kind_of tys)) ++ (if nl then [10] else [])).
Proof.
  intros F Q H T. unfold emit_format. rewrite copy_pieces by exact F. set (ks := map kind_of tys).
  assert (E : W (cits ps ks) ++ (if nl then [92; 110] else []) = W (cits ps ks ++ if nl then [Escape 110 10] else [])) by (rewrite W_app; destruct nl; reflexivity).
  rewrite E. replace (map denoted (cits ps ks) ++ (if nl then [10] else [])) with (map denoted (cits ps ks ++ if nl then [Escape 110 10] else [])) by (rewrite map_app; destruct nl; reflexivity).
  apply quoted_string.
  - rewrite <- E. destruct (cits_qq ps ks F) as [A _]. rewrite (qq_free _ Q) in A. destruct nl; [|rewrite app_nil_r; exact A]. apply qq_app; [exact A|reflexivity|]. cbn [hd]. apply andb_false_r.
  - apply c_items.
    + apply Forall_app. split.
      * apply cits_ok; [exact F|]. intros i J. destruct (T i J) as (A & _ & B). rewrite Forall_forall in F. destruct (F _ J) as [O _]. exact (conj O (conj B A)).
      * destruct nl; [|constructor]. constructor; [|constructor]. split; [cbn; auto|]. split; discriminate.
    + apply hex_sep_app; [apply cits_sep; now apply hex_sep_of|destruct nl; cbn; auto|destruct nl; exact I].
Qed.

(** * What C does with it *)
Fixpoint updirs (ps : list piece) (ks : list kind) : list directive :=
  match ps with [] => [] | Dir d :: ps => up d ks :: updirs ps (tl ks) | _ :: ps => updirs ps ks end.
Lemma directives_cits ps tail : forall ks, Forall piece_ok ps -> (forall i, In (Text i) ps -> text_ok i) -> Forall (fun d => conv d <> 98) (dirs ps) ->
  tail = [] \/ tail = [10] -> directives None (map denoted (cits ps ks) ++ tail) = Some (updirs ps ks).
Proof.
  induction ps as [|p ps IH]; intros ks F T B Tl; [destruct Tl as [-> | ->]; reflexivity|]. apply Forall_cons_iff in F as [O F].
  assert (T' : forall i, In (Text i) ps -> text_ok i) by (intros i J; apply T; now right). destruct p as [i| |d]; cbn [cits map app updirs].
  - destruct (T i (or_introl eq_refl)) as (A & C & _). cbn [directives]. replace (denoted i =? 0) with false by lia. replace (denoted i =? 37) with false by lia. now apply IH.
  - cbn [denoted directives]. cbn [Z.eqb Pos.eqb]. change (next 0 (bare 0) 37) with (Done (bare 37)). cbn [Z.eqb andb same flags bare]. change (same [] []) with true. cbv iota. now apply IH.
  - cbn [dirs flat_map app] in B. apply Forall_cons_iff in B as [Bd B]. cbn [denoted]. rewrite map_app, denoted_plain, <- app_assoc. cbn [directives]. cbn [Z.eqb Pos.eqb].
    pose proof (up_lens d ks O) as U. destruct (dir_spec d O) as (_ & L & N & _). rewrite directives_spec by (exact U || exact L || exact N). cbn [conv up mk].
    assert (K : one_of c_conversions (conv d) = true).
    { destruct O as (_ & _ & _ & _ & _ & K). apply FormatProofs2.one_of_in. cbn in K |- *. clear -K Bd. revert K Bd. generalize (conv d). intros c K Bd. repeat (destruct K as [<-|K]; [try tauto; congruence|]). destruct K. }
    rewrite K. rewrite (IH (tl ks) F T' B Tl). reflexivity.
Qed.
Lemma updirs_conv ps : forall ks, map conv (updirs ps ks) = map conv (dirs ps).
Proof. induction ps as [|p ps IH]; intros ks; [reflexivity|]. destruct p as [i| |d]; cbn [updirs]; [apply IH|apply IH|]. change (dirs (Dir d :: ps)) with (d :: dirs ps). cbn [map]. now rewrite IH. Qed.
