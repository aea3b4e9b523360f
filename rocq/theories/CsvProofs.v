From Verif Require Import Base BaseFacts StringsModel StringsSpec CsvModel CsvSpec.
Ltac Zify.zify_post_hook ::= Z.div_mod_to_equations.

Definition ends_row (rest : bytes) : Prop := rest = [] \/ exists r, rest = 10 :: r \/ rest = 13 :: r.
Definition ends_field (rest : bytes) : Prop := ends_row rest \/ exists r, rest = 44 :: r.

Lemma plain_scan_ok f : forall rest, ~ In 44 f -> ~ In 10 f -> ~ In 13 f -> ends_field rest ->
  plain_scan (f ++ rest) = (f, rest).
Proof.
  induction f as [|c f IH]; intros rest A B C E; cbn [app plain_scan].
  - destruct E as [[->|[r [->| ->]]]|[r ->]]; reflexivity.
  - cbn [In] in *. unfold is_sep, COMMA, LF, CR.
    replace ((c =? 44) || (c =? 10) || (c =? 13)) with false by (symmetry; lia).
    rewrite IH by tauto. reflexivity.
Qed.
Lemma quoted_scan_ok f : forall rest, ~ In 34 f -> hd 0 rest <> 34 ->
  quoted_scan (f ++ [34] ++ rest) = (f, 34 :: rest).
Proof.
  induction f as [|c f IH]; intros rest N R; cbn [app quoted_scan].
  - cbn. destruct rest as [|d r]; [reflexivity|]. cbn [hd] in R. unfold QUOTE.
    rewrite (proj2 (Z.eqb_neq d 34) R). reflexivity.
  - cbn [In] in N. unfold QUOTE. rewrite (proj2 (Z.eqb_neq c 34)) by tauto.
    change (f ++ 34 :: rest) with (f ++ [34] ++ rest). rewrite IH by tauto. reflexivity.
Qed.
Lemma double_quotes_id f : ~ In 34 f -> double_quotes f = f.
Proof.
  induction f as [|c f IH]; intros N; [reflexivity|]. cbn [double_quotes flat_map In] in *.
  rewrite (proj2 (Z.eqb_neq c 34)) by tauto. cbn [app]. f_equal. apply IH. tauto.
Qed.
Lemma ends_hd rest : ends_field rest -> hd 0 rest <> 34.
Proof. intros [[->|[r [->| ->]]]|[r ->]]; cbn; lia. Qed.

Lemma field_ok f t rest : simple_text f t -> ends_field rest -> t ++ rest <> [] ->
  field (t ++ rest) = (f, skip_one COMMA rest).
Proof.
  intros [F Q] E NE. destruct F as [f (A & B & C & D)|f].
  - unfold field. destruct (f ++ rest) as [|c r] eqn:S; [congruence|].
    assert (c <> 34).
    { destruct f as [|x f]; [cbn in S; subst rest; apply ends_hd in E; exact E|].
      cbn in S. injection S as -> _. exact D. }
    unfold QUOTE. rewrite (proj2 (Z.eqb_neq c 34)) by auto. rewrite <- S.
    rewrite plain_scan_ok by auto. reflexivity.
  - assert (N : ~ In 34 f).
    { destruct Q as [Q|Q]; [|exact Q]. intros H.
      assert (L : (length f <= length (double_quotes f))%nat).
      { clear. induction f as [|c f IH]; cbn [double_quotes flat_map length]; [lia|]. fold (double_quotes f).
        rewrite app_length. destruct (c =? 34); cbn; lia. }
      apply (f_equal (@length Z)) in Q. rewrite !app_length in Q. cbn in Q. lia. }
    rewrite double_quotes_id by auto. rewrite <- !app_assoc.
    change ([34] ++ f ++ [34] ++ rest) with (34 :: f ++ [34] ++ rest). cbn [field].
    change (34 =? QUOTE) with true. cbv beta iota.
    rewrite quoted_scan_ok by (auto using ends_hd). reflexivity.
Qed.

Lemma row_loop_step fuel s row : match s with [] => False | c :: _ => c <> 10 /\ c <> 13 end ->
  row_loop (S fuel) s row = let '(f, rest) := field s in row_loop fuel rest (row ++ [f]).
Proof.
  destruct s as [|c r]; [tauto|]. intros [A B]. cbn [row_loop]. unfold LF, CR.
  rewrite (proj2 (Z.eqb_neq c 10)), (proj2 (Z.eqb_neq c 13)) by auto. reflexivity.
Qed.
Lemma row_loop_stop fuel rest row : ends_row rest -> row_loop fuel rest row = Ok (row, rest).
Proof. intros [->|[r [->| ->]]]; destruct fuel; reflexivity. Qed.
Lemma text_hd f t : simple_text f t -> match t with [] => True | c :: _ => c <> 10 /\ c <> 13 end.
Proof.
  intros [[g (A & B & C & D)|g] _]; [|cbn; lia]. destruct g as [|c g]; auto. cbn [In] in *. split; intros ->; tauto.
Qed.
Lemma skip_comma_row rest : ends_row rest -> skip_one COMMA rest = rest.
Proof. intros [->|[r [->| ->]]]; reflexivity. Qed.

Lemma row_ok row t : row_text simple_text simple_last row t -> forall fuel rest acc, ends_row rest ->
  (length t <= fuel)%nat -> row_loop fuel (t ++ rest) acc = Ok (acc ++ row, rest).
Proof.
  induction 1 as [f t [F NE]|f t row ts F R IH]; intros fuel rest acc E L.
  - destruct fuel as [|fuel]; [destruct t; cbn in L; [congruence|lia]|].
    rewrite row_loop_step.
    + rewrite (field_ok f t rest F); [|left; exact E|destruct t; [congruence|discriminate]].
      rewrite skip_comma_row by auto. apply row_loop_stop, E.
    + apply text_hd in F. destruct t; [congruence|]. exact F.
  - rewrite !app_length in L. cbn [length] in L. destruct fuel as [|fuel]; [lia|].
    rewrite <- !app_assoc. rewrite row_loop_step.
    + rewrite (field_ok f t ([44] ++ ts ++ rest) F); [|right; eexists; reflexivity|destruct t; discriminate].
      cbn [app skip_one]. change (44 =? COMMA) with true. cbv beta iota.
      rewrite IH by (auto; lia). rewrite <- app_assoc. reflexivity.
    + apply text_hd in F. destruct t; cbn; [lia|exact F].
Qed.

Lemma skip_break b ts : line_break b -> skip_one LF (skip_one CR (b ++ ts)) = ts.
Proof. intros [->| ->]; reflexivity. Qed.
Lemma break_ends b ts : line_break b -> ends_row (b ++ ts).
Proof. intros [->| ->]; right; eexists; cbn; [left|right]; reflexivity. Qed.

Lemma rows_step fuel row t rest rows : t ++ rest <> [] -> (row = [] /\ t = [] \/ row_text simple_text simple_last row t) ->
  ends_row rest ->
  rows_loop (S fuel) (t ++ rest) rows = rows_loop fuel (skip_one LF (skip_one CR rest)) (rows ++ [row]).
Proof.
  intros NE R E. cbn [rows_loop].
  assert (RL : row_loop (length (t ++ rest)) (t ++ rest) [] = Ok (row, rest)).
  { destruct R as [[-> ->]|R].
    - apply row_loop_stop, E.
    - apply (row_ok row t R); [exact E|rewrite app_length; lia]. }
  destruct (t ++ rest) as [|c s] eqn:S; [congruence|]. rewrite RL. reflexivity.
Qed.
Lemma rows_nil fuel rows : rows_loop fuel [] rows = Ok rows.
Proof. destruct fuel; reflexivity. Qed.

Lemma csv_ok rows t : simple_csv rows t -> forall fuel acc, (length t <= fuel)%nat ->
  rows_loop fuel t acc = Ok (acc ++ rows).
Proof.
  induction 1 as [|row t NE R|row t b rows ts R B T IH]; intros fuel acc L.
  - rewrite app_nil_r. apply rows_nil.
  - destruct fuel as [|fuel]; [destruct t; cbn in L; [congruence|lia]|].
    rewrite <- (app_nil_r t). rewrite (rows_step fuel row); [|rewrite app_nil_r; exact NE|auto|left; reflexivity].
    apply rows_nil.
  - assert (1 <= length b)%nat by (destruct B as [->| ->]; cbn; lia).
    rewrite !app_length in L. destruct fuel as [|fuel]; [lia|].
    rewrite (rows_step fuel row); [|destruct t; [destruct b; [cbn in *; lia|discriminate]|discriminate]|auto|apply break_ends, B].
    rewrite skip_break by exact B. rewrite IH by lia. rewrite <- app_assoc. reflexivity.
Qed.

(** what stringify writes *)
Definition row_line (row : list bytes) : bytes := glue [44] row ++ [10].
Definition plain_row (row : list bytes) : Prop := Forall plain_field row /\ (row <> [] -> last row [] <> []).
Lemma plain_row_text row : row <> [] -> Forall plain_field row -> last row [] <> [] ->
  row_text simple_text simple_last row (glue [44] row).
Proof.
  intros NE F. induction F as [|f row P F IH]; [congruence|]. intros L. destruct row as [|g row].
  - cbn. apply rt_one. split; [split; [apply ft_plain, P|auto]|exact L].
  - change (glue [44] (f :: g :: row)) with (f ++ [44] ++ glue [44] (g :: row)). apply rt_more.
    + split; [apply ft_plain, P|auto].
    + apply IH; [discriminate|exact L].
Qed.
Lemma lines_ok rows : Forall plain_row rows -> forall fuel acc, (length (flat_map row_line rows) <= fuel)%nat ->
  rows_loop fuel (flat_map row_line rows) acc = Ok (acc ++ rows).
Proof.
  induction 1 as [|row rows [P Ls] F IH]; intros fuel acc L.
  - rewrite app_nil_r. apply rows_nil.
  - cbn [flat_map] in *. unfold row_line at 1. unfold row_line at 1 in L. rewrite !app_length in L. cbn [length] in L.
    destruct fuel as [|fuel]; [lia|]. rewrite <- app_assoc.
    rewrite (rows_step fuel row).
    + change (skip_one LF (skip_one CR ([10] ++ flat_map row_line rows))) with (flat_map row_line rows).
      rewrite IH by lia. rewrite <- app_assoc. reflexivity.
    + destruct (glue [44] row); discriminate.
    + destruct row as [|f row]; [left; auto|]. right. apply plain_row_text; auto. discriminate. apply Ls. discriminate.
    + right. eexists. left. reflexivity.
Qed.

(** sizes *)
Lemma add32_ok a b : a + b <= INT32_MAX -> add32 (Ok a) b = Ok (a + b).
Proof. intros H. unfold add32. cbn [rbind]. rewrite (proj2 (Z.leb_le _ _) H). reflexivity. Qed.
Lemma add32_inv a b z : add32 a b = Ok z -> exists x, a = Ok x /\ z = x + b /\ z <= INT32_MAX.
Proof.
  unfold add32. destruct a as [x| | |]; cbn [rbind]; try discriminate.
  destruct (Z.leb_spec (x + b) INT32_MAX); [|discriminate]. intros [= <-]. exists x. auto.
Qed.
Definition rest_text (first : bool) (row : list bytes) : bytes :=
  if first then glue [44] row else flat_map (fun f => [44] ++ f) row.
Lemma rest_text_cons first f row : rest_text first (f :: row) = (if first then [] else [44]) ++ f ++ rest_text false row.
Proof.
  assert (G : forall row f, glue [44] (f :: row) = f ++ flat_map (fun f => [44] ++ f) row).
  { clear. induction row as [|g row IH]; intros f; [cbn; rewrite app_nil_r; reflexivity|].
    change (glue [44] (f :: g :: row)) with (f ++ [44] ++ glue [44] (g :: row)). rewrite IH. reflexivity. }
  unfold rest_text. destruct first; [rewrite G; reflexivity|]. cbn [flat_map]. rewrite <- app_assoc. reflexivity.
Qed.
Lemma row_size_ok row : forall first a, a + Z.of_nat (length (rest_text first row)) <= INT32_MAX ->
  row_size first row (Ok a) = Ok (a + Z.of_nat (length (rest_text first row))).
Proof.
  induction row as [|f row IH]; intros first a L.
  - cbn [row_size]. replace (length (rest_text first [])) with 0%nat by (destruct first; reflexivity). f_equal. lia.
  - rewrite rest_text_cons in *. rewrite !app_length in *. cbn [row_size].
    destruct first; cbn [length] in *.
    + rewrite add32_ok by lia. rewrite IH by lia. f_equal. lia.
    + rewrite (add32_ok a 1) by lia. rewrite add32_ok by lia. rewrite IH by lia. f_equal. lia.
Qed.
Lemma table_size_ok rows : forall a, a + Z.of_nat (length (flat_map row_line rows)) <= INT32_MAX ->
  fold_left (fun t row => add32 (row_size true row t) 1) rows (Ok a) = Ok (a + Z.of_nat (length (flat_map row_line rows))).
Proof.
  induction rows as [|row rows IH]; intros a L.
  - cbn. f_equal. lia.
  - cbn [flat_map fold_left] in *. unfold row_line at 1. unfold row_line at 1 in L. rewrite !app_length in *. cbn [length] in *.
    rewrite (row_size_ok row true) by (cbn [rest_text]; lia). cbn [rest_text].
    rewrite add32_ok by lia. rewrite IH by lia. f_equal. lia.
Qed.
Lemma store_ok cap w v : Z.of_nat (length (w ++ v)) <= cap -> store cap w v = Ok (w ++ v).
Proof. intros H. unfold store. rewrite app_length in H. rewrite (proj2 (Z.leb_le _ _)) by lia. reflexivity. Qed.
Lemma row_text_ok cap row : forall first w, Z.of_nat (length (w ++ rest_text first row)) <= cap ->
  CsvModel.row_text cap first row (Ok w) = Ok (w ++ rest_text first row).
Proof.
  induction row as [|f row IH]; intros first w L.
  - cbn [CsvModel.row_text]. replace (rest_text first []) with (@nil Z) by (destruct first; reflexivity).
    rewrite app_nil_r. reflexivity.
  - rewrite rest_text_cons in *. cbn [CsvModel.row_text].
    assert (E : rbind (if first then Ok w else rbind (Ok w) (fun w => store cap w [COMMA])) (fun w => store cap w f)
                = Ok (w ++ (if first then [] else [44]) ++ f)).
    { rewrite !app_length in L. destruct first.
      - cbn [rbind app]. apply store_ok. rewrite app_length. cbn [length] in L. lia.
      - cbn [rbind]. rewrite store_ok by (rewrite app_length; cbn [length] in *; lia). cbn [rbind].
        rewrite store_ok; [rewrite <- app_assoc; reflexivity|]. rewrite !app_length. cbn [length] in *. lia. }
    etransitivity; [apply (f_equal (CsvModel.row_text cap false row)); exact E|].
    rewrite IH; [rewrite <- !app_assoc; reflexivity|]. rewrite !app_length in *. lia.
Qed.
Lemma table_text_ok cap rows : forall w, Z.of_nat (length (w ++ flat_map row_line rows)) <= cap ->
  fold_left (fun w row => rbind (CsvModel.row_text cap true row w) (fun w => store cap w [LF])) rows (Ok w)
  = Ok (w ++ flat_map row_line rows).
Proof.
  induction rows as [|row rows IH]; intros w L.
  - cbn. rewrite app_nil_r. reflexivity.
  - cbn [flat_map fold_left] in *. unfold row_line at 1. unfold row_line at 1 in L. rewrite !app_length in L. cbn [length] in L.
    rewrite (row_text_ok cap row true w) by (cbn [rest_text]; rewrite app_length; lia). cbn [rest_text rbind].
    rewrite store_ok by (rewrite !app_length; cbn [length]; lia).
    rewrite IH; [rewrite <- !app_assoc; reflexivity|]. rewrite !app_length. cbn [length]. lia.
Qed.
Lemma stringify_ok rows : Z.of_nat (length (flat_map row_line rows)) <= INT32_MAX ->
  stringify rows = Ok (flat_map row_line rows).
Proof.
  intros L. unfold stringify, table_size. rewrite (table_size_ok rows 0) by lia. cbn [rbind]. rewrite Z.add_0_l.
  rewrite (table_text_ok _ rows []) by (cbn [app]; lia). cbn [rbind app].
  rewrite store_ok by (rewrite app_length; cbn [length]; lia). reflexivity.
Qed.
Lemma lines_size_ok rows : forall a, a + Z.of_nat (length (flat_map (fun r => r ++ [10]) rows)) <= INT32_MAX ->
  fold_left (fun t r => add32 t (Z.of_nat (length r) + 1)) rows (Ok a)
  = Ok (a + Z.of_nat (length (flat_map (fun r => r ++ [10]) rows))).
Proof.
  induction rows as [|r rows IH]; intros a L.
  - cbn. f_equal. lia.
  - cbn [flat_map fold_left] in *. rewrite !app_length in *. cbn [length] in *.
    rewrite add32_ok by lia. rewrite IH by lia. f_equal. lia.
Qed.
Lemma glue_len (rows : list bytes) : Z.of_nat (length (glue [10] rows)) <= Z.of_nat (length (flat_map (fun r => r ++ [10]) rows)).
Proof.
  induction rows as [|r rows IH]; [cbn; lia|]. cbn [flat_map]. rewrite app_length.
  destruct rows as [|q rows]; [cbn [glue]; rewrite app_length; lia|].
  change (glue [10] (r :: q :: rows)) with (r ++ [10] ++ glue [10] (q :: rows)). rewrite !app_length in *. lia.
Qed.
Lemma lines_text_ok cap rows : forall w, Z.of_nat (length (w ++ glue [10] rows)) <= cap ->
  lines_text cap rows (Ok w) = Ok (w ++ glue [10] rows).
Proof.
  induction rows as [|r rows IH]; intros w L.
  - cbn. rewrite app_nil_r. reflexivity.
  - destruct rows as [|q rows].
    + cbn [lines_text rbind glue] in *. apply store_ok, L.
    + change (glue [10] (r :: q :: rows)) with (r ++ [10] ++ glue [10] (q :: rows)) in *.
      change (lines_text cap (r :: q :: rows) (Ok w)) with
        (lines_text cap (q :: rows) (rbind (Ok w) (fun w => rbind (store cap w r) (fun w => store cap w [LF])))).
      cbn [rbind]. rewrite !app_length in L. cbn [length] in L.
      rewrite store_ok by (rewrite app_length; lia). cbn [rbind].
      rewrite store_ok by (rewrite !app_length; cbn [length]; lia).
      rewrite IH; [rewrite <- !app_assoc; reflexivity|]. rewrite !app_length. cbn [length]. lia.
Qed.

(** every text is parsed *)
Lemma quoted_scan_len s : (length (snd (quoted_scan s)) <= length s)%nat.
Proof.
  induction s as [s IH] using list_len_ind. destruct s as [|c r]; cbn [quoted_scan]; [cbn; lia|].
  destruct (c =? QUOTE).
  - destruct r as [|d r]; [cbn; lia|]. destruct (d =? QUOTE); [|cbn; lia].
    specialize (IH r ltac:(cbn; lia)). destruct (quoted_scan r). cbn in *. lia.
  - specialize (IH r ltac:(cbn; lia)). destruct (quoted_scan r). cbn in *. lia.
Qed.
Lemma plain_scan_len s : (length (snd (plain_scan s)) <= length s)%nat.
Proof.
  induction s as [|c r IH]; cbn [plain_scan]; [cbn; lia|]. destruct (is_sep c); [cbn; lia|].
  destruct (plain_scan r). cbn in *. lia.
Qed.
Lemma skip_one_len c s : (length (skip_one c s) <= length s)%nat.
Proof. destruct s as [|x r]; cbn; [lia|]. destruct (x =? c); cbn; lia. Qed.
Lemma field_len c r : c <> 10 -> c <> 13 -> (length (snd (field (c :: r))) < length (c :: r))%nat.
Proof.
  intros N1 N2. cbn [field]. destruct (Z.eqb_spec c QUOTE).
  - pose proof (quoted_scan_len r). destruct (quoted_scan r) as [f rest]. cbn [snd] in *.
    pose proof (skip_one_len COMMA (tl rest)). destruct rest; cbn in *; lia.
  - cbn [plain_scan]. unfold is_sep. unfold LF, CR. rewrite (proj2 (Z.eqb_neq c 10)), (proj2 (Z.eqb_neq c 13)), !orb_false_r by auto.
    destruct (Z.eqb_spec c COMMA) as [->|].
    + cbn. lia.
    + pose proof (plain_scan_len r). destruct (plain_scan r) as [f rest]. cbn [snd] in *.
      pose proof (skip_one_len COMMA rest). cbn in *. lia.
Qed.
Lemma row_loop_total fuel : forall s row, (length s <= fuel)%nat -> exists row' rest,
  row_loop fuel s row = Ok (row', rest) /\ (length rest <= length s)%nat /\
  (rest <> [] -> hd 0 rest = 10 \/ hd 0 rest = 13).
Proof.
  induction fuel as [|n IH]; intros s row L; destruct s as [|c r].
  - exists row, []. cbn. split; [auto|split; [lia|congruence]].
  - cbn in L. lia.
  - exists row, []. cbn. split; [auto|split; [lia|congruence]].
  - cbn [row_loop]. destruct ((c =? LF) || (c =? CR)) eqn:E.
    + exists row, (c :: r). split; [reflexivity|]. split; [lia|]. intros _. cbn. unfold LF, CR in E. lia.
    + unfold LF, CR in E. pose proof (field_len c r ltac:(lia) ltac:(lia)) as FL.
      destruct (field (c :: r)) as [f rest]. cbn [snd] in FL.
      destruct (IH rest (row ++ [f]) ltac:(lia)) as (row' & rest' & E1 & E2 & E3). exists row', rest'. split; [exact E1|split; [lia|exact E3]].
Qed.
Lemma rows_loop_total fuel : forall s rows, (length s <= fuel)%nat -> exists rows', rows_loop fuel s rows = Ok rows'.
Proof.
  induction fuel as [|n IH]; intros s rows L; destruct s as [|c r]; try (eexists; reflexivity); [cbn in L; lia|].
  cbn [rows_loop].
  destruct (row_loop_total (length (c :: r)) (c :: r) [] (le_n _)) as (row & rest & E & Ln & H).
  rewrite E. cbn [rbind]. apply IH.
  destruct rest as [|x rest].
  - cbn. lia.
  - destruct (H ltac:(discriminate)) as [H1|H1]; cbn [hd] in H1; subst x.
    + cbn. cbn [length] in *. lia.
    + cbn [skip_one]. change (13 =? CR) with true. cbv iota. pose proof (skip_one_len LF rest). cbn [length] in *. lia.
Qed.
