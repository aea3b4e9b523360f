(** C60: every expression of the grammar is parsed to its tree: primary expressions and the theorem. *)
From Verif Require Import Base LexSpec NameModel NameProofs ParseSpec ParseModel ParseProofs ParseProofs2 ParseProofs3.

Section Complete.
Context (known : bytes -> bool).
Notation EX := (expression known).
Notation G := (is_expr (kn known) true).
Notation PE := (PE known).

Lemma structish_iff : forall n, structish known n = true <-> struct_like (kn known) n.
Proof.
  intros n. unfold structish, struct_like, capital, kn. rewrite orb_true_iff, andb_true_iff, !Z.leb_le. tauto.
Qed.
Lemma closing_kind : forall t r k, tkind t = k -> closing k -> closing (hdk (t :: r)).
Proof. intros t r k <- C. exact C. Qed.
Ltac clos := first [reflexivity | left; reflexivity | right; clos].
Ltac norm := cbn [app]; repeat (rewrite <- app_assoc; cbn [app]).
Ltac mem := rewrite ?final_app, ?final_snoc2, ?final_snoc, ?final_cons; reflexivity.
Ltac q := first [assumption | (eapply quiet_kind; [eassumption|discriminate])].

Lemma c_value : forall lit d t, literal_kind (tkind t) -> PE lit PRIMARY (S d) [t] (Value (tkind t) (literal t)).
Proof.
  intros lit d t K. apply PE_primary. intros rest nl es O L. exists nl. split; [apply keep_refl|].
  unfold prefix. replace (curk _) with (tkind t) by reflexivity. cbn in K. repeat destruct K as [K|K]; try contradiction; rewrite <- K; reflexivity.
Qed.
Lemma c_label : forall lit d t, tkind t = IDENT -> PE lit PRIMARY (S d) [t] (Name (literal t)).
Proof.
  intros lit d t K. apply PE_primary. intros rest nl es O L. exists nl. split; [apply keep_refl|].
  unfold prefix. replace (curk _) with (tkind t) by reflexivity. rewrite K. unfold identifier. cbn [app].
  change (cur (Ps (t :: rest) nl es)) with t. change (peekk (Ps (t :: rest) nl es)) with (hdk rest).
  assert (PL : (if is (hdk rest) LBRACE && negb nl && structish known (literal t) then struct_literal (EX d) (literal t) (next (Ps (t :: rest) nl es))
                else Ok (Some (Name (literal t)), Ps (t :: rest) nl es)) = Ok (Some (Name (literal t)), Ps (final [t] :: rest) nl es)).
  { destruct (is (hdk rest) LBRACE) eqn:B; [|reflexivity]. apply is_iff in B. destruct (structish known (literal t)) eqn:S.
    - exfalso. apply (oa_brace _ _ _ _ _ O B). split; assumption.
    - now rewrite andb_false_r. }
  destruct (is (hdk rest) DOT) eqn:DT; [|exact PL]. apply is_iff in DT.
  destruct (oa_dot _ _ _ _ _ O DT) as (p & u & r & -> & NI & Q & NS & _).
  cbn [andb]. destruct ((97 <=? hd 0 (literal t)) && (hd 0 (literal t) <=? 122)); [|exact PL].
  replace (next (next (Ps (t :: p :: u :: r) nl es))) with (Ps (u :: r) nl es).
  2: { rewrite next_at by exact NI. now rewrite next_at. }
  cbn [errs]. change (curk (Ps (u :: r) nl es)) with (tkind u). change (peekk (Ps (u :: r) nl es)) with (hdk r). change (cur (Ps (u :: r) nl es)) with u.
  cbn [nolit toks errs].
  destruct (is (tkind u) IDENT) eqn:KU; [|exact PL]. destruct (is (hdk r) LBRACE) eqn:KR; [|exact PL].
  apply is_iff in KU. apply is_iff in KR.
  destruct (structish known (literal u)) eqn:S; [exfalso; now apply NS|]. rewrite andb_false_r. exact PL.
Qed.
Lemma c_variant : forall lit d p t, tkind p = DOT -> tkind t = IDENT -> PE lit PRIMARY (S d) [p; t] (Variant (literal t)).
Proof.
  intros lit d p t KP KT. apply PE_primary. intros rest nl es O L. exists nl. split; [apply keep_refl|].
  unfold prefix. replace (curk _) with (tkind p) by reflexivity. rewrite KP. cbn [app]. rewrite next_at by exact (oa_quiet _ _ _ _ _ O).
  change (curk (Ps (t :: rest) nl es)) with (tkind t). now rewrite (kind_is _ _ KT).
Qed.
Lemma c_group : forall lit d p ts e q, tkind p = LPAREN -> tkind q = RPAREN -> G lit 1 d ts e -> PE lit 1 d ts e -> PE lit PRIMARY (S d) (p :: ts ++ [q]) e.
Proof.
  intros lit d p ts e q KP KQ GE IH. apply PE_primary. intros rest nl es O L. pose proof (oa_quiet _ _ _ _ _ O) as Q.
  destruct (expr_shape _ _ _ _ _ _ GE) as (C & t & ts' & -> & S & _).
  destruct (inner known lit d (t :: ts') e (q :: rest) nl es IH) as (nl' & K & E); [eapply closing_kind; [eassumption|clos]|exact L|].
  exists nl'. split; [exact K|]. unfold prefix. replace (curk _) with (tkind p) by reflexivity. rewrite KP. unfold grouped.
  norm. replace (peekk _) with (tkind t) by reflexivity. rewrite is_not by (intros X; now rewrite X in S).
  change (p :: t :: ts' ++ q :: rest) with (p :: (t :: ts') ++ q :: rest). rewrite next_into by (easy || assumption || q). rewrite E. cbn [rbind fst snd].
  rewrite expecting_ok by assumption. f_equal. f_equal. f_equal. f_equal. symmetry. exact (final_snoc (p :: t :: ts') q).
Qed.
Lemma c_func_ref : forall lit d p q t ms e, tkind p = LPAREN -> tkind q = RPAREN -> tkind t = IDENT ->
  is_path (kn known) true (Name (literal t)) ms e -> PPath (Name (literal t)) ms e -> PE lit PRIMARY (S d) (p :: q :: t :: ms) (FuncRef e).
Proof.
  intros lit d p q t ms e KP KQ KT GP IH. apply PE_primary. intros rest nl es O L. pose proof (oa_quiet _ _ _ _ _ O) as Q.
  pose proof (proj2 (proj2 (proj2 (proj2 (proj2 (proj2 (proj2 (proj2 (shapes known)))))))) _ _ _ GP) as C.
  assert (FI : final (p :: q :: t :: ms) = final (t :: ms)) by reflexivity.
  exists nl. split; [apply keep_refl|]. unfold prefix. replace (curk _) with (tkind p) by reflexivity. rewrite KP. unfold grouped.
  cbn [app]. replace (peekk (Ps (p :: q :: t :: ms ++ rest) nl es)) with (tkind q) by reflexivity. rewrite (kind_is _ _ KQ).
  replace (next (next (Ps (p :: q :: t :: ms ++ rest) nl es))) with (Ps (t :: ms ++ rest) nl es).
  2: { rewrite next_at by q. now rewrite next_at by (now apply quiet_app). }
  change (curk (Ps (t :: ms ++ rest) nl es)) with (tkind t). rewrite (kind_is _ _ KT). change (cur (Ps (t :: ms ++ rest) nl es)) with t. cbn [toks].
  rewrite IH.
  - cbn [rbind fst snd]. reflexivity.
  - cbn [length]. rewrite app_length. lia.
  - intros X. destruct (oa_dot _ _ _ _ _ O X) as (a & b & r & -> & _ & _ & _ & R). rewrite FI in R.
    specialize (R (ex_intro _ e eq_refl)). clear - R GP KT. revert R. assert (T : tkind t <> RPAREN) by congruence. clear KT.
    generalize dependent t. intros t GP T.
    enough (H : forall e0 e' ms, is_path (kn known) true e0 ms e' -> forall t, tkind t <> RPAREN -> tkind (final (t :: ms)) <> RPAREN) by exact (H _ _ _ GP t T).
    clear. intros e0 e' ms H. induction H as [|e0 pp n ms e' KP N H IH]; intros t T; [exact T|].
    rewrite !final_cons. apply IH. rewrite N by reflexivity. discriminate.
  - exact Q.
Qed.
Lemma c_array : forall lit d p ts l q, tkind p = LBRACE -> tkind q = RBRACE -> is_list (kn known) true lit d ts l -> PList known lit d ts l ->
  PE lit PRIMARY (S d) (p :: ts ++ [q]) (Array l).
Proof.
  intros lit d p ts l q KP KQ GL IH. apply PE_primary. intros rest nl es O L. pose proof (oa_quiet _ _ _ _ _ O) as Q.
  assert (FI : final (p :: ts ++ [q]) = q) by exact (final_snoc (p :: ts) q). rewrite FI.
  unfold prefix. replace (curk _) with (tkind p) by reflexivity. rewrite KP. unfold brace. norm.
  destruct IH as [[-> ->]|[(C & t & ts' & -> & S) IH]].
  - cbn [app]. rewrite next_at by exact Q. change (curk (Ps (q :: rest) nl es)) with (tkind q). rewrite (kind_is _ _ KQ).
    exists nl. split; [apply keep_refl|reflexivity].
  - destruct (IH q rest nl es KQ Q L) as (e0 & l0 & s' & nl' & K & -> & E & NC & EL).
    exists nl'. split; [exact K|]. rewrite next_into by (easy || assumption || q). cbn [app].
    change (curk (Ps (t :: ts' ++ q :: rest) nl es)) with (tkind t).
    rewrite (is_not (tkind t) RBRACE) by (intros X; now rewrite X in S). rewrite (is_not (tkind t) COLON) by (intros X; now rewrite X in S).
    rewrite (is_not (tkind t) COMMA) by (intros X; now rewrite X in S). cbn [andb].
    cbn [app] in E. rewrite (sub_ok _ _ _ _ _ _ E). rewrite NC. rewrite EL by lia. reflexivity.
Qed.
Lemma c_empty_map : forall lit d p c q, tkind p = LBRACE -> tkind c = COLON -> tkind q = RBRACE -> PE lit PRIMARY (S d) [p; c; q] (Map []).
Proof.
  intros lit d p c q KP KC KQ. apply PE_primary. intros rest nl es O L. pose proof (oa_quiet _ _ _ _ _ O) as Q. exists nl. split; [apply keep_refl|].
  unfold prefix. replace (curk _) with (tkind p) by reflexivity. rewrite KP. unfold brace. cbn [app]. rewrite next_at by q.
  change (curk (Ps (c :: q :: rest) nl es)) with (tkind c). change (peekk (Ps (c :: q :: rest) nl es)) with (tkind q).
  rewrite (kind_is _ _ KC), (kind_is _ _ KQ), KC. cbn [andb]. rewrite is_not by discriminate. rewrite next_at by exact Q. reflexivity.
Qed.
Lemma c_map : forall lit d p ts l q, tkind p = LBRACE -> tkind q = RBRACE -> is_pairs (kn known) true lit d ts l -> PPairs known lit d ts l ->
  PE lit PRIMARY (S d) (p :: ts ++ [q]) (Map l).
Proof.
  intros lit d p ts l q KP KQ GL IH. apply PE_primary. intros rest nl es O L. pose proof (oa_quiet _ _ _ _ _ O) as Q.
  assert (FI : final (p :: ts ++ [q]) = q) by exact (final_snoc (p :: ts) q). rewrite FI.
  destruct (proj1 (proj2 (proj2 (proj2 (proj2 (proj2 (proj2 (shapes known))))))) _ _ _ _ GL) as (C & t & ts' & -> & S).
  unfold prefix. replace (curk _) with (tkind p) by reflexivity. rewrite KP. unfold brace. norm.
  destruct (IH q rest nl es KQ Q L) as (k0 & v0 & l0 & s1 & s2 & nl' & K & -> & E & NC & E2 & EL).
  exists nl'. split; [exact K|].
  change (p :: t :: ts' ++ q :: rest) with (p :: (t :: ts') ++ q :: rest). rewrite next_into by (easy || assumption || q). cbn [app].
  change (curk (Ps (t :: ts' ++ q :: rest) nl es)) with (tkind t).
  rewrite (is_not (tkind t) RBRACE) by (intros X; now rewrite X in S). rewrite (is_not (tkind t) COLON) by (intros X; now rewrite X in S).
  rewrite (is_not (tkind t) COMMA) by (intros X; now rewrite X in S). cbn [andb].
  cbn [app] in E. rewrite (sub_ok _ _ _ _ _ _ E). rewrite NC. rewrite (sub_ok _ _ _ _ _ _ E2). rewrite EL by lia. reflexivity.
Qed.
Lemma fields_clean : forall d ts l, is_fields (kn known) true d ts l -> clean ts.
Proof. exact (proj1 (proj2 (proj2 (proj2 (proj2 (proj2 (proj2 (proj2 (shapes known))))))))). Qed.
Lemma c_struct : forall d t p ts l q, tkind t = IDENT -> struct_like (kn known) (literal t) -> tkind p = LBRACE -> tkind q = RBRACE ->
  is_fields (kn known) true d ts l -> PFields known d ts l -> PE true PRIMARY (S d) (t :: p :: ts ++ [q]) (Struct (literal t) l).
Proof.
  intros d t p ts l q KT S KP KQ GF IH. apply PE_primary. intros rest nl es O L. pose proof (oa_quiet _ _ _ _ _ O) as Q.
  rewrite (L eq_refl). exists false. split; [apply keep_refl|]. apply structish_iff in S. pose proof (fields_clean _ _ _ GF) as C.
  assert (FI : final (t :: p :: ts ++ [q]) = q) by exact (final_snoc (t :: p :: ts) q). rewrite FI.
  unfold prefix. replace (curk _) with (tkind t) by reflexivity. rewrite KT. unfold identifier. norm.
  change (peekk (Ps (t :: p :: ts ++ q :: rest) false es)) with (tkind p). change (cur (Ps (t :: p :: ts ++ q :: rest) false es)) with t.
  rewrite KP. rewrite (is_not LBRACE DOT) by discriminate. cbn [andb nolit negb]. rewrite is_refl, S. cbn [andb].
  rewrite next_at by (apply quiet_app; [exact C|q]). unfold struct_literal.
  assert (N : next (Ps (p :: ts ++ q :: rest) false es) = Ps (ts ++ q :: rest) false es).
  { change (ts ++ q :: rest) with (ts ++ [q] ++ rest). rewrite app_assoc. apply next_into; [now destruct ts| |exact Q].
    apply clean_app; [exact C|]. constructor; [congruence|constructor]. }
  rewrite N. cbn [toks]. rewrite IH; [reflexivity| |exact KQ|exact Q]. rewrite app_length. cbn [length]. lia.
Qed.
Lemma c_imported_struct : forall d m c t p ts l q, tkind m = IDENT -> small (literal m) -> tkind c = DOT -> tkind t = IDENT ->
  struct_like (kn known) (literal t) -> tkind p = LBRACE -> tkind q = RBRACE -> (length (literal m) + length (literal t) < 255)%nat ->
  is_fields (kn known) true d ts l -> PFields known d ts l -> PE true PRIMARY (S d) (m :: c :: t :: p :: ts ++ [q]) (Struct (literal m ++ bs "_" ++ literal t) l).
Proof.
  intros d m c t p ts l q KM SM KC KT S KP KQ LEN GF IH. apply PE_primary. intros rest nl es O L. pose proof (oa_quiet _ _ _ _ _ O) as Q.
  rewrite (L eq_refl). exists false. split; [apply keep_refl|]. apply structish_iff in S. pose proof (fields_clean _ _ _ GF) as C.
  assert (FI : final (m :: c :: t :: p :: ts ++ [q]) = q) by exact (final_snoc (m :: c :: t :: p :: ts) q). rewrite FI.
  unfold prefix. replace (curk _) with (tkind m) by reflexivity. rewrite KM. unfold identifier. norm.
  replace (peekk (Ps (m :: c :: t :: p :: ts ++ q :: rest) false es)) with (tkind c) by reflexivity.
  change (cur (Ps (m :: c :: t :: p :: ts ++ q :: rest) false es)) with m.
  rewrite (kind_is _ _ KC). destruct SM as [S1 S2]. rewrite (proj2 (Z.leb_le _ _) S1), (proj2 (Z.leb_le _ _) S2). cbn [andb].
  replace (next (next (Ps (m :: c :: t :: p :: ts ++ q :: rest) false es))) with (Ps (t :: p :: ts ++ q :: rest) false es).
  2: { rewrite next_at by q. now rewrite next_at by q. }
  change (curk (Ps (t :: p :: ts ++ q :: rest) false es)) with (tkind t). change (peekk (Ps (t :: p :: ts ++ q :: rest) false es)) with (tkind p).
  change (cur (Ps (t :: p :: ts ++ q :: rest) false es)) with t.
  rewrite (kind_is _ _ KT), (kind_is _ _ KP), S. cbn [andb nolit negb].
  rewrite next_at by (apply quiet_app; [exact C|q]). unfold struct_literal.
  assert (N : next (Ps (p :: ts ++ q :: rest) false es) = Ps (ts ++ q :: rest) false es).
  { change (ts ++ q :: rest) with (ts ++ [q] ++ rest). rewrite app_assoc. apply next_into; [now destruct ts| |exact Q].
    apply clean_app; [exact C|]. constructor; [congruence|constructor]. }
  rewrite N. cbn [toks]. rewrite fit_id.
  2: { rewrite !app_length. cbn [length]. change (length (bs "_")) with 1%nat. unfold MSG_BUF_SIZE. lia. }
  rewrite IH; [reflexivity| |exact KQ|exact Q]. rewrite app_length. cbn [length]. lia.
Qed.
Lemma c_cast : forall lit d c p ts e k t q, tkind c = CAST -> tkind p = LPAREN -> tkind k = COMMA -> name true t -> tkind t <> LBRACKET -> tkind q = RPAREN ->
  G lit 1 d ts e -> PE lit 1 d ts e -> PE lit PRIMARY (S d) (c :: p :: ts ++ [k; t; q]) (Cast e false (literal t)).
Proof.
  intros lit d c p ts e k t q KC KP KK N NB KQ GE IH. apply PE_primary. intros rest nl es O L. pose proof (oa_quiet _ _ _ _ _ O) as Q. specialize (N eq_refl).
  assert (FI : final (c :: p :: ts ++ [k; t; q]) = q) by (exact (final_app (c :: p :: ts) k [t; q])). rewrite FI.
  destruct (shape_ne _ (expr_shape _ _ _ _ _ _ GE)) as [NE C].
  destruct (inner known lit d ts e (k :: t :: q :: rest) nl es IH) as (nl' & K & E); [eapply closing_kind; [eassumption|clos]|exact L|].
  exists nl'. split; [exact K|]. unfold prefix. replace (curk _) with (tkind c) by reflexivity. rewrite KC. unfold cast. norm.
  rewrite expecting_ok; [|exact KP|apply quiet_app; [exact C|q]]. rewrite next_into by (assumption || q).
  rewrite (sub_ok _ _ _ _ _ _ E). rewrite expecting_ok by (assumption || q). rewrite next_at by q.
  change (curk (Ps (t :: q :: rest) nl' es)) with (tkind t). rewrite is_not by exact NB. rewrite expecting_ok by assumption. reflexivity.
Qed.
Lemma c_cast_array : forall lit d c p ts e k a t b q, tkind c = CAST -> tkind p = LPAREN -> tkind k = COMMA -> tkind a = LBRACKET -> name true t ->
  tkind b = RBRACKET -> tkind q = RPAREN -> G lit 1 d ts e -> PE lit 1 d ts e ->
  PE lit PRIMARY (S d) (c :: p :: ts ++ [k; a; t; b; q]) (Cast e true (bs "[" ++ literal t ++ bs "]")).
Proof.
  intros lit d c p ts e k a t b q KC KP KK KA N KB KQ GE IH. apply PE_primary. intros rest nl es O L. pose proof (oa_quiet _ _ _ _ _ O) as Q. specialize (N eq_refl).
  assert (FI : final (c :: p :: ts ++ [k; a; t; b; q]) = q) by (exact (final_app (c :: p :: ts) k [a; t; b; q])). rewrite FI.
  destruct (shape_ne _ (expr_shape _ _ _ _ _ _ GE)) as [NE C].
  destruct (inner known lit d ts e (k :: a :: t :: b :: q :: rest) nl es IH) as (nl' & K & E); [eapply closing_kind; [eassumption|clos]|exact L|].
  exists nl'. split; [exact K|]. unfold prefix. replace (curk _) with (tkind c) by reflexivity. rewrite KC. unfold cast. norm.
  rewrite expecting_ok; [|exact KP|apply quiet_app; [exact C|q]]. rewrite next_into by (assumption || q).
  rewrite (sub_ok _ _ _ _ _ _ E). rewrite expecting_ok by (assumption || q). rewrite next_at by q.
  change (curk (Ps (a :: t :: b :: q :: rest) nl' es)) with (tkind a). rewrite (kind_is _ _ KA). rewrite next_at by q.
  rewrite expecting_ok by (assumption || q). rewrite expecting_ok by (assumption || q). reflexivity.
Qed.
Lemma not_wild : forall t, ~ In 63 t -> wild t = false.
Proof.
  intros t H. unfold wild. destruct (existsb (Z.eqb 63) t) eqn:E; [|reflexivity]. apply existsb_exists in E as (x & I & X). apply Z.eqb_eq in X. now subst x.
Qed.
Lemma read_plain : forall t r nl es, tkind t = IDENT -> hdk r <> DOT -> read_type_name (Ps (t :: r) nl es) = (literal t, Ps (t :: r) nl es).
Proof.
  intros t r nl es K H. unfold read_type_name. change (curk (Ps (t :: r) nl es)) with (tkind t). rewrite K. change (peekk (Ps (t :: r) nl es)) with (hdk r).
  now rewrite is_not.
Qed.
Lemma c_new : forall lit d w p t q, tkind w = NEW -> tkind p = LPAREN -> name true t -> ~ In 63 (literal t) -> tkind t <> QUESTION -> tkind q = RPAREN ->
  PE lit PRIMARY (S d) [w; p; t; q] (New (literal t)).
Proof.
  intros lit d w p t q KW KP N NW _ KQ. apply PE_primary. intros rest nl es O L. pose proof (oa_quiet _ _ _ _ _ O) as Q. specialize (N eq_refl).
  exists nl. split; [apply keep_refl|]. unfold prefix. replace (curk _) with (tkind w) by reflexivity. rewrite KW. unfold new_expr. cbn [app].
  rewrite expecting_ok by (assumption || q). rewrite next_at by q.
  rewrite read_plain; [|exact N|unfold hdk; cbn [hd]; congruence].
  rewrite (not_wild _ NW). cbn [err_if]. rewrite expecting_ok by assumption. reflexivity.
Qed.
Lemma c_new_imported : forall lit d w p m c t q, tkind w = NEW -> tkind p = LPAREN -> name true m -> ~ In 63 (literal m) -> tkind m <> QUESTION -> tkind c = DOT -> name true t ->
  ~ In 63 (literal t) -> tkind q = RPAREN -> PE lit PRIMARY (S d) [w; p; m; c; t; q] (New (literal m ++ bs "_" ++ literal t)).
Proof.
  intros lit d w p m c t q KW KP NM WM _ KC NT WT KQ. apply PE_primary. intros rest nl es O L. pose proof (oa_quiet _ _ _ _ _ O) as Q.
  specialize (NM eq_refl). specialize (NT eq_refl).
  exists nl. split; [apply keep_refl|]. unfold prefix. replace (curk _) with (tkind w) by reflexivity. rewrite KW. unfold new_expr. cbn [app].
  rewrite expecting_ok by (assumption || q). rewrite next_at by q. unfold read_type_name.
  change (curk (Ps (m :: c :: t :: q :: rest) nl es)) with (tkind m). rewrite NM. change (peekk (Ps (m :: c :: t :: q :: rest) nl es)) with (tkind c).
  rewrite (kind_is _ _ KC). rewrite next_at by q. rewrite next_at by q.
  change (cur (Ps (t :: q :: rest) nl es)) with t. change (cur (Ps (m :: c :: t :: q :: rest) nl es)) with m. cbv zeta.
  rewrite not_wild.
  2: { intros I. apply in_app_or in I as [I|I]; [contradiction|]. apply in_app_or in I as [I|I]; [|contradiction]. cbn in I. destruct I as [I|[]]. discriminate I. }
  cbn [err_if]. rewrite expecting_ok by assumption. reflexivity.
Qed.
Lemma c_range_to : forall lit d r p ts e q, tkind r = RANGE -> tkind p = LPAREN -> tkind q = RPAREN -> G lit 1 d ts e -> PE lit 1 d ts e ->
  PE lit PRIMARY (S d) (r :: p :: ts ++ [q]) (Range None e None).
Proof.
  intros lit d r p ts e q KR KP KQ GE IH. apply PE_primary. intros rest nl es O L. pose proof (oa_quiet _ _ _ _ _ O) as Q.
  assert (FI : final (r :: p :: ts ++ [q]) = q) by (exact (final_app (r :: p :: ts) q [])). rewrite FI.
  destruct (shape_ne _ (expr_shape _ _ _ _ _ _ GE)) as [NE C].
  destruct (inner known lit d ts e (q :: rest) nl es IH) as (nl' & K & E); [eapply closing_kind; [eassumption|clos]|exact L|].
  exists nl'. split; [exact K|]. unfold prefix. replace (curk _) with (tkind r) by reflexivity. rewrite KR. unfold range. norm.
  rewrite expecting_ok; [|exact KP|apply quiet_app; [exact C|q]]. rewrite next_into by (assumption || q). rewrite (sub_ok _ _ _ _ _ _ E).
  change (peekk (Ps (final ts :: q :: rest) nl' es)) with (tkind q). rewrite is_not by congruence. rewrite expecting_ok by assumption. reflexivity.
Qed.
Lemma c_range_from : forall lit d r p ts1 e1 k ts2 e2 q, tkind r = RANGE -> tkind p = LPAREN -> tkind k = COMMA -> tkind q = RPAREN ->
  G lit 1 d ts1 e1 -> PE lit 1 d ts1 e1 -> G lit 1 d ts2 e2 -> PE lit 1 d ts2 e2 ->
  PE lit PRIMARY (S d) (r :: p :: ts1 ++ k :: ts2 ++ [q]) (Range (Some e1) e2 None).
Proof.
  intros lit d r p ts1 e1 k ts2 e2 q KR KP KK KQ G1 IH1 G2 IH2. apply PE_primary. intros rest nl es O L. pose proof (oa_quiet _ _ _ _ _ O) as Q.
  assert (FI : final (r :: p :: ts1 ++ k :: ts2 ++ [q]) = q).
  { exact (eq_trans (final_app (r :: p :: ts1) k (ts2 ++ [q])) (final_snoc (k :: ts2) q)). } rewrite FI.
  destruct (shape_ne _ (expr_shape _ _ _ _ _ _ G1)) as [NE1 C1]. destruct (shape_ne _ (expr_shape _ _ _ _ _ _ G2)) as [NE2 C2].
  destruct (inner known lit d ts1 e1 (k :: ts2 ++ q :: rest) nl es IH1) as (nl1 & K1 & E1); [eapply closing_kind; [eassumption|clos]|exact L|].
  destruct (inner known lit d ts2 e2 (q :: rest) nl1 es IH2) as (nl2 & K2 & E2); [eapply closing_kind; [eassumption|clos]|exact (keep_lit _ _ _ L K1)|].
  exists nl2. split; [exact (keep_trans _ _ _ K1 K2)|]. unfold prefix. replace (curk _) with (tkind r) by reflexivity. rewrite KR. unfold range. norm.
  rewrite expecting_ok; [|exact KP|apply quiet_app; [exact C1|q]]. rewrite next_into by (assumption || q). rewrite (sub_ok _ _ _ _ _ _ E1).
  change (peekk (Ps (final ts1 :: k :: ts2 ++ q :: rest) nl1 es)) with (tkind k). rewrite (kind_is _ _ KK).
  rewrite next_at by (apply quiet_app; [exact C2|q]). rewrite next_into by (assumption || q). rewrite (sub_ok _ _ _ _ _ _ E2).
  change (peekk (Ps (final ts2 :: q :: rest) nl2 es)) with (tkind q). rewrite is_not by congruence. rewrite expecting_ok by assumption. reflexivity.
Qed.
Lemma c_range_step : forall lit d r p ts1 e1 k ts2 e2 j ts3 e3 q, tkind r = RANGE -> tkind p = LPAREN -> tkind k = COMMA -> tkind j = COMMA -> tkind q = RPAREN ->
  G lit 1 d ts1 e1 -> PE lit 1 d ts1 e1 -> G lit 1 d ts2 e2 -> PE lit 1 d ts2 e2 -> G lit 1 d ts3 e3 -> PE lit 1 d ts3 e3 ->
  PE lit PRIMARY (S d) (r :: p :: ts1 ++ k :: ts2 ++ j :: ts3 ++ [q]) (Range (Some e1) e2 (Some e3)).
Proof.
  intros lit d r p ts1 e1 k ts2 e2 j ts3 e3 q KR KP KK KJ KQ G1 IH1 G2 IH2 G3 IH3. apply PE_primary. intros rest nl es O L. pose proof (oa_quiet _ _ _ _ _ O) as Q.
  assert (FI : final (r :: p :: ts1 ++ k :: ts2 ++ j :: ts3 ++ [q]) = q).
  { exact (eq_trans (final_app (r :: p :: ts1) k (ts2 ++ j :: ts3 ++ [q])) (eq_trans (final_app (k :: ts2) j (ts3 ++ [q])) (final_snoc (j :: ts3) q))). } rewrite FI.
  destruct (shape_ne _ (expr_shape _ _ _ _ _ _ G1)) as [NE1 C1]. destruct (shape_ne _ (expr_shape _ _ _ _ _ _ G2)) as [NE2 C2]. destruct (shape_ne _ (expr_shape _ _ _ _ _ _ G3)) as [NE3 C3].
  destruct (inner known lit d ts1 e1 (k :: ts2 ++ j :: ts3 ++ q :: rest) nl es IH1) as (nl1 & K1 & E1); [eapply closing_kind; [eassumption|clos]|exact L|].
  destruct (inner known lit d ts2 e2 (j :: ts3 ++ q :: rest) nl1 es IH2) as (nl2 & K2 & E2); [eapply closing_kind; [eassumption|clos]|exact (keep_lit _ _ _ L K1)|].
  pose proof (keep_trans _ _ _ K1 K2) as K12.
  destruct (inner known lit d ts3 e3 (q :: rest) nl2 es IH3) as (nl3 & K3 & E3); [eapply closing_kind; [eassumption|clos]|exact (keep_lit _ _ _ L K12)|].
  exists nl3. split; [exact (keep_trans _ _ _ K12 K3)|]. unfold prefix. replace (curk _) with (tkind r) by reflexivity. rewrite KR. unfold range. norm.
  rewrite expecting_ok; [|exact KP|apply quiet_app; [exact C1|q]]. rewrite next_into by (assumption || q). rewrite (sub_ok _ _ _ _ _ _ E1).
  change (peekk (Ps (final ts1 :: k :: ts2 ++ j :: ts3 ++ q :: rest) nl1 es)) with (tkind k). rewrite (kind_is _ _ KK).
  rewrite next_at by (apply quiet_app; [exact C2|q]). rewrite next_into by (assumption || q). rewrite (sub_ok _ _ _ _ _ _ E2).
  change (peekk (Ps (final ts2 :: j :: ts3 ++ q :: rest) nl2 es)) with (tkind j). rewrite (kind_is _ _ KJ).
  rewrite next_at by (apply quiet_app; [exact C3|q]). rewrite next_into by (assumption || q). rewrite (sub_ok _ _ _ _ _ _ E3).
  rewrite expecting_ok by assumption. reflexivity.
Qed.

Lemma c_plain_arg : forall lit d ts e, G lit 1 d ts e -> PE lit 1 d ts e -> PArg known lit d ts (None, e).
Proof.
  intros lit d ts e GE IH t0 rest nl es R L. destruct (expr_shape _ _ _ _ _ _ GE) as (C & t & ts' & -> & S & NC).
  assert (QR : quiet rest) by (unfold quiet; destruct R as [->| ->]; discriminate).
  destruct (inner known lit d (t :: ts') e rest nl es IH) as (nl' & K & E); [unfold closing; tauto|exact L|].
  exists nl'. split; [exact K|]. intros k. cbv zeta. rewrite next_into by (easy || assumption).
  change (curk (Ps ((t :: ts') ++ rest) nl es)) with (tkind t). change (peekk (Ps ((t :: ts') ++ rest) nl es)) with (hdk (ts' ++ rest)).
  assert (B : is (tkind t) IDENT && is (hdk (ts' ++ rest)) COLON = false).
  { destruct (is (tkind t) IDENT) eqn:I; [|reflexivity]. apply is_iff in I. cbn [andb]. apply is_not. destruct ts' as [|u ts']; [|exact (NC I)].
    cbn [app]. destruct R as [->| ->]; discriminate. }
  rewrite B. rewrite (sub_ok _ _ _ _ _ _ E). reflexivity.
Qed.
Lemma c_named_arg : forall lit d t c ts e, tkind t = IDENT -> tkind c = COLON -> G lit 1 d ts e -> PE lit 1 d ts e -> PArg known lit d (t :: c :: ts) (Some (literal t), e).
Proof.
  intros lit d t c ts e KT KC GE IH t0 rest nl es R L. destruct (shape_ne _ (expr_shape _ _ _ _ _ _ GE)) as [NE C].
  assert (QR : quiet rest) by (unfold quiet; destruct R as [->| ->]; discriminate).
  destruct (inner known lit d ts e rest nl es IH) as (nl' & K & E); [unfold closing; tauto|exact L|].
  exists nl'. split; [exact K|]. intros k. cbv zeta. cbn [app]. rewrite next_at by q.
  change (curk (Ps (t :: c :: ts ++ rest) nl es)) with (tkind t). change (peekk (Ps (t :: c :: ts ++ rest) nl es)) with (tkind c).
  rewrite (kind_is _ _ KT), (kind_is _ _ KC). cbn [andb]. rewrite next_at by (now apply quiet_app). rewrite next_into by assumption.
  rewrite (sub_ok _ _ _ _ _ _ E). destruct ts as [|u ts]; [easy|]. reflexivity.
Qed.
Lemma c_one_arg : forall lit d ts a, PArg known lit d ts a -> PArgs1 known lit d ts [a].
Proof.
  intros lit d ts [nm e] IH n f acc t0 q rest nl es F KQ Q L. destruct n as [|n]; [lia|].
  destruct (IH t0 (q :: rest) nl es) as (nl' & K & E); [now left|exact L|]. exists nl'. split; [exact K|].
  cbn [arguments]. cbv zeta in E. cbv zeta. rewrite (E (fun nm e s => if is (peekk s) COMMA then arguments (EX d) n f (acc ++ [(nm, e)]) (next s)
    else expecting RPAREN s (fun s => Ok (Some (Call f (acc ++ [(nm, e)])), s)))).
  cbn [fst snd]. change (peekk (Ps (final ts :: q :: rest) nl' es)) with (tkind q). rewrite is_not by congruence. rewrite expecting_ok by assumption. reflexivity.
Qed.
Lemma c_more_args : forall lit d ts a k ts' l, PArg known lit d ts a -> tkind k = COMMA -> begins_expr ts' -> PArgs1 known lit d ts' l ->
  PArgs1 known lit d (ts ++ k :: ts') (a :: l).
Proof.
  intros lit d ts [nm e] k ts' l IH KK (C & t & ts1 & -> & _) IHL n f acc t0 q rest nl es F KQ Q L. destruct n as [|n]; [lia|].
  destruct (IH t0 (k :: (t :: ts1) ++ q :: rest) nl es) as (nl1 & K1 & E); [now right|exact L|].
  destruct (IHL n f (acc ++ [(nm, e)]) k q rest nl1 es) as (nl2 & K2 & E2).
  { rewrite app_length in F. cbn [length] in F |- *. lia. } { exact KQ. } { exact Q. } { exact (keep_lit _ _ _ L K1). }
  exists nl2. split; [exact (keep_trans _ _ _ K1 K2)|]. rewrite <- app_assoc. cbn [app] in E, E2 |- *.
  cbn [arguments]. cbv zeta in E. cbv zeta. rewrite (E (fun nm e s => if is (peekk s) COMMA then arguments (EX d) n f (acc ++ [(nm, e)]) (next s)
    else expecting RPAREN s (fun s => Ok (Some (Call f (acc ++ [(nm, e)])), s)))).
  cbn [fst snd]. change (peekk (Ps (final ts :: k :: t :: ts1 ++ q :: rest) nl1 es)) with (tkind k). rewrite (kind_is _ _ KK).
  rewrite next_at by (apply (quiet_app (t :: ts1)); [exact C|q]). rewrite E2. now rewrite <- app_assoc.
Qed.
Lemma c_one_element : forall lit d ts e, G lit 1 d ts e -> PE lit 1 d ts e -> PList1 known lit d ts [e].
Proof.
  intros lit d ts e GE IH q rest nl es KQ Q L.
  destruct (inner known lit d ts e (q :: rest) nl es IH) as (nl' & K & E); [eapply closing_kind; [eassumption|clos]|exact L|].
  exists e, [], (Ps (final ts :: q :: rest) nl' es), nl'. split; [exact K|]. split; [reflexivity|]. split; [exact E|].
  change (peekk (Ps (final ts :: q :: rest) nl' es)) with (tkind q). split; [apply is_not; congruence|]. intros acc n F. destruct n as [|n]; [lia|].
  cbn [elements]. change (peekk (Ps (final ts :: q :: rest) nl' es)) with (tkind q). rewrite (is_not (tkind q) COMMA) by congruence.
  rewrite (kind_is _ _ KQ), next_at by exact Q. now rewrite app_nil_r.
Qed.
Lemma ex_shorter : forall d p s r s', EX d p s = Ok (r, s') -> (length (toks s') <= length (toks s))%nat.
Proof. intros d p s r s' H. destruct (expression_good known d p s) as (a & s'' & E & A). rewrite E in H. injection H as <- <-. now apply after_length. Qed.
Lemma c_more_elements : forall lit d ts e k ts' l, G lit 1 d ts e -> PE lit 1 d ts e -> tkind k = COMMA -> begins_expr ts' -> PList1 known lit d ts' l ->
  PList1 known lit d (ts ++ k :: ts') (e :: l).
Proof.
  intros lit d ts e k ts' l GE IH KK (C & t & ts1 & -> & S) IHL q rest nl es KQ Q L.
  destruct (inner known lit d ts e (k :: (t :: ts1) ++ q :: rest) nl es IH) as (nl1 & K1 & E1); [eapply closing_kind; [eassumption|clos]|exact L|].
  destruct (IHL q rest nl1 es KQ Q (keep_lit _ _ _ L K1)) as (e0 & l0 & s' & nl2 & K2 & -> & E2 & NC & EL).
  rewrite <- app_assoc. exists e, (e0 :: l0), (Ps (final ts :: k :: (t :: ts1) ++ q :: rest) nl1 es), nl2.
  split; [exact (keep_trans _ _ _ K1 K2)|]. split; [reflexivity|]. split; [exact E1|].
  change (peekk (Ps (final ts :: k :: (t :: ts1) ++ q :: rest) nl1 es)) with (tkind k). split; [apply is_not; congruence|].
  intros acc n F. destruct n as [|n]; [lia|]. cbn [elements]. change (peekk (Ps (final ts :: k :: (t :: ts1) ++ q :: rest) nl1 es)) with (tkind k).
  rewrite (kind_is _ _ KK). rewrite next_at by (apply (quiet_app (t :: ts1)); [exact C|q]). rewrite next_into by (easy || assumption || q).
  change (curk (Ps ((t :: ts1) ++ q :: rest) nl1 es)) with (tkind t). rewrite is_not by (intros X; now rewrite X in S).
  rewrite (sub_ok _ _ _ _ _ _ E2). rewrite EL; [now rewrite <- app_assoc|]. pose proof (ex_shorter _ _ _ _ _ E2) as SH. cbn [toks length app] in *. lia.
Qed.
Lemma c_one_pair : forall lit d tk k c tv v, G lit 1 d tk k -> PE lit 1 d tk k -> tkind c = COLON -> G lit 1 d tv v -> PE lit 1 d tv v ->
  PPairs known lit d (tk ++ c :: tv) [(k, v)].
Proof.
  intros lit d tk k c tv v GK IHK KC GV IHV q rest nl es KQ Q L. destruct (shape_ne _ (expr_shape _ _ _ _ _ _ GV)) as [NE C].
  destruct (inner known lit d tk k (c :: tv ++ q :: rest) nl es IHK) as (nl1 & K1 & E1); [eapply closing_kind; [eassumption|clos]|exact L|].
  destruct (inner known lit d tv v (q :: rest) nl1 es IHV) as (nl2 & K2 & E2); [eapply closing_kind; [eassumption|clos]|exact (keep_lit _ _ _ L K1)|].
  rewrite <- app_assoc. cbn [app]. exists k, v, [], (Ps (final tk :: c :: tv ++ q :: rest) nl1 es), (Ps (final tv :: q :: rest) nl2 es), nl2.
  split; [exact (keep_trans _ _ _ K1 K2)|]. split; [reflexivity|]. split; [exact E1|].
  split; [exact (kind_is _ _ KC)|]. split.
  { rewrite next_at by (apply quiet_app; [exact C|q]). now rewrite next_into by (assumption || q). }
  intros acc n F. destruct n as [|n]; [lia|]. cbn [pairs]. change (peekk (Ps (final tv :: q :: rest) nl2 es)) with (tkind q).
  rewrite (is_not (tkind q) COMMA) by congruence. rewrite (kind_is _ _ KQ), next_at by exact Q. now rewrite app_nil_r.
Qed.
Lemma c_more_pairs : forall lit d tk k c tv v s ts l, G lit 1 d tk k -> PE lit 1 d tk k -> tkind c = COLON -> G lit 1 d tv v -> PE lit 1 d tv v -> tkind s = COMMA ->
  begins_expr ts -> PPairs known lit d ts l -> PPairs known lit d (tk ++ c :: tv ++ s :: ts) ((k, v) :: l).
Proof.
  intros lit d tk k c tv v s ts l GK IHK KC GV IHV KS (CT & t & ts1 & -> & S) IHL q rest nl es KQ Q L. destruct (shape_ne _ (expr_shape _ _ _ _ _ _ GV)) as [NE C].
  destruct (inner known lit d tk k (c :: tv ++ s :: (t :: ts1) ++ q :: rest) nl es IHK) as (nl1 & K1 & E1); [eapply closing_kind; [eassumption|clos]|exact L|].
  destruct (inner known lit d tv v (s :: (t :: ts1) ++ q :: rest) nl1 es IHV) as (nl2 & K2 & E2); [eapply closing_kind; [eassumption|clos]|exact (keep_lit _ _ _ L K1)|].
  pose proof (keep_trans _ _ _ K1 K2) as K12.
  destruct (IHL q rest nl2 es KQ Q (keep_lit _ _ _ L K12)) as (k0 & v0 & l0 & s1 & s2 & nl3 & K3 & -> & E3 & KC3 & E4 & EL).
  replace ((tk ++ c :: tv ++ s :: t :: ts1) ++ q :: rest) with (tk ++ c :: tv ++ s :: (t :: ts1) ++ q :: rest) by (rewrite <- app_assoc; cbn [app]; now rewrite <- app_assoc).
  exists k, v, ((k0, v0) :: l0), (Ps (final tk :: c :: tv ++ s :: (t :: ts1) ++ q :: rest) nl1 es), (Ps (final tv :: s :: (t :: ts1) ++ q :: rest) nl2 es), nl3.
  split; [exact (keep_trans _ _ _ K12 K3)|]. split; [reflexivity|]. split; [exact E1|]. split; [exact (kind_is _ _ KC)|]. split.
  { rewrite next_at by (apply quiet_app; [exact C|q]). now rewrite next_into by (assumption || q). }
  intros acc n F. destruct n as [|n]; [lia|]. cbn [pairs]. change (peekk (Ps (final tv :: s :: (t :: ts1) ++ q :: rest) nl2 es)) with (tkind s).
  rewrite (kind_is _ _ KS). rewrite next_at by (apply (quiet_app (t :: ts1)); [exact CT|q]). rewrite next_into by (easy || assumption || q).
  change (curk (Ps ((t :: ts1) ++ q :: rest) nl2 es)) with (tkind t). rewrite is_not by (intros X; now rewrite X in S).
  rewrite (sub_ok _ _ _ _ _ _ E3). unfold expecting, expect. rewrite KC3. rewrite (sub_ok _ _ _ _ _ _ E4). rewrite EL; [now rewrite <- app_assoc|].
  pose proof (ex_shorter _ _ _ _ _ E3). pose proof (ex_shorter _ _ _ _ _ E4).
  pose proof (after_length _ _ (after_next s1)). pose proof (after_length _ _ (after_next (next s1))). cbn [toks length app] in *. lia.
Qed.
Lemma c_no_fields : forall d, PFields known d [] [].
Proof.
  intros d n nm acc q rest es F KQ Q. destruct n as [|n]; [cbn in F; lia|]. cbn [fields app]. replace (curk _) with (tkind q) by reflexivity.
  rewrite KQ. now rewrite app_nil_r.
Qed.
Lemma c_next_field : forall d t c ts e (k : list token) ts' l, tkind t = IDENT -> tkind c = COLON -> G true 1 d ts e -> PE true 1 d ts e ->
  (k = [] /\ ts' = [] /\ l = [] \/ exists kk, k = [kk] /\ tkind kk = COMMA) -> clean ts' -> PFields known d ts' l ->
  PFields known d (t :: c :: ts ++ k ++ ts') ((literal t, e) :: l).
Proof.
  intros d t c ts e k ts' l KT KC GE IH KK CT IHF n nm acc q rest es F KQ Q. destruct n as [|n]; [lia|].
  destruct (shape_ne _ (expr_shape _ _ _ _ _ _ GE)) as [NE C].
  assert (QT : quiet (ts' ++ q :: rest)) by (apply quiet_app; [exact CT|q]).
  assert (CL : closing (hdk (k ++ ts' ++ q :: rest))).
  { destruct KK as [(-> & -> & ->)|(kk & -> & KK)]; cbn [app]; [eapply closing_kind; [exact KQ|clos]|eapply closing_kind; [exact KK|clos]]. }
  assert (QK : quiet (k ++ ts' ++ q :: rest)) by (unfold quiet; destruct CL as [X|[X|[X|[X|X]]]]; rewrite X; discriminate).
  replace ((t :: c :: ts ++ k ++ ts') ++ q :: rest) with (t :: c :: ts ++ k ++ ts' ++ q :: rest) by (cbn [app]; now rewrite <- !app_assoc).
  destruct (inner known true d ts e (k ++ ts' ++ q :: rest) false es IH CL) as (nl & K & E); [reflexivity|].
  assert (nl = false) as -> by (destruct K; assumption).
  cbn [fields]. replace (curk (Ps (t :: c :: ts ++ k ++ ts' ++ q :: rest) false es)) with (tkind t) by reflexivity. rewrite KT.
  change (cur (Ps (t :: c :: ts ++ k ++ ts' ++ q :: rest) false es)) with t.
  rewrite expecting_ok; [|exact KC|now apply quiet_app]. rewrite next_into by assumption. rewrite (sub_ok _ _ _ _ _ _ E).
  assert (N : next (if is (peekk (Ps (final ts :: k ++ ts' ++ q :: rest) false es)) COMMA then next (Ps (final ts :: k ++ ts' ++ q :: rest) false es)
      else Ps (final ts :: k ++ ts' ++ q :: rest) false es) = Ps (ts' ++ q :: rest) false es).
  { destruct KK as [(-> & -> & ->)|(kk & -> & KK)]; cbn [app].
    - change (peekk (Ps (final ts :: q :: rest) false es)) with (tkind q). rewrite is_not by congruence. now rewrite next_at.
    - change (peekk (Ps (final ts :: kk :: ts' ++ q :: rest) false es)) with (tkind kk). rewrite (kind_is _ _ KK).
      rewrite next_at by exact QT. change (ts' ++ q :: rest) with (ts' ++ [q] ++ rest). rewrite app_assoc. apply next_into; [now destruct ts'| |exact Q].
      apply clean_app; [exact CT|]. constructor; [congruence|constructor]. }
  cbv zeta. rewrite N. rewrite IHF; [now rewrite <- app_assoc| |exact KQ|exact Q].
  cbn [length] in F. rewrite !app_length in F. lia.
Qed.
Lemma c_path_member : forall e p n ms e', tkind p = DOT -> name true n -> is_path (kn known) true (Member e (literal n)) ms e' ->
  PPath (Member e (literal n)) ms e' -> PPath e (p :: n :: ms) e'.
Proof.
  intros e p n ms e' KP N GP IH f t0 rest nl es F D Q. destruct f as [|f]; [lia|]. specialize (N eq_refl).
  pose proof (proj2 (proj2 (proj2 (proj2 (proj2 (proj2 (proj2 (proj2 (shapes known)))))))) _ _ _ GP) as C.
  cbn [path app]. replace (peekk (Ps (t0 :: p :: n :: ms ++ rest) nl es)) with (tkind p) by reflexivity. rewrite (kind_is _ _ KP).
  rewrite next_at by q. rewrite next_at by (now apply quiet_app). change (cur (Ps (n :: ms ++ rest) nl es)) with n. cbv zeta. rewrite IH.
  - reflexivity.
  - cbn [length] in F. lia.
  - exact D.
  - exact Q.
Qed.

Theorem grammar_parsed :
  (forall lit n d ts e, G lit n d ts e -> PE lit n d ts e) /\
  (forall lit d ts l, is_args (kn known) true lit d ts l -> PArgs known lit d ts l) /\
  (forall lit d ts l, is_args1 (kn known) true lit d ts l -> PArgs1 known lit d ts l) /\
  (forall lit d ts l, is_arg (kn known) true lit d ts l -> PArg known lit d ts l) /\
  (forall lit d ts l, is_list (kn known) true lit d ts l -> PList known lit d ts l) /\
  (forall lit d ts l, is_list1 (kn known) true lit d ts l -> PList1 known lit d ts l) /\
  (forall lit d ts l, is_pairs (kn known) true lit d ts l -> PPairs known lit d ts l) /\
  (forall d ts l, is_fields (kn known) true d ts l -> PFields known d ts l) /\
  (forall e ts e', is_path (kn known) true e ts e' -> PPath e ts e').
Proof.
  pose proof (shapes known) as (S1 & S2 & S3 & S4 & S5 & S6 & S7 & S8 & S9).
  apply grammar_ind.
  - intros lit n d ts e _ _ (d' & -> & IH). exists d'. split; [reflexivity|]. intros p rest nl es P O L.
    apply IH; [now apply okp_up|now apply after_up|exact L].
  - apply c_binary.
  - apply c_unary.
  - apply c_postfix.
  - apply c_call.
  - apply c_member.
  - apply c_index.
  - apply c_value.
  - apply c_label.
  - apply c_variant.
  - apply c_group.
  - apply c_func_ref.
  - apply c_array.
  - apply c_empty_map.
  - apply c_map.
  - apply c_struct.
  - apply c_imported_struct.
  - apply c_cast.
  - apply c_cast_array.
  - apply c_new.
  - apply c_new_imported.
  - apply c_range_to.
  - apply c_range_from.
  - apply c_range_step.
  - intros lit d. now left.
  - intros lit d ts l GA IH. right. split; [exact (S3 _ _ _ _ GA)|exact IH].
  - intros lit d ts a _ IH. now apply c_one_arg.
  - intros lit d ts a k ts' l _ IH KK GA IHA. apply c_more_args; [exact IH|exact KK|exact (S3 _ _ _ _ GA)|exact IHA].
  - apply c_plain_arg.
  - apply c_named_arg.
  - intros lit d. now left.
  - intros lit d ts l GA IH. right. split; [exact (S6 _ _ _ _ GA)|exact IH].
  - apply c_one_element.
  - intros lit d ts e k ts' l GE IH KK GA IHA. apply c_more_elements; [exact GE|exact IH|exact KK|exact (S6 _ _ _ _ GA)|exact IHA].
  - apply c_one_pair.
  - intros lit d tk k c tv v s ts l GK IHK KC GV IHV KS GA IHA. apply c_more_pairs; try assumption. exact (S7 _ _ _ _ GA).
  - apply c_no_fields.
  - intros d t c ts e KT KC GE IH. pose proof (c_next_field d t c ts e [] [] [] KT KC GE IH) as H. cbn [app] in H. rewrite app_nil_r in H.
    apply H; [now left|constructor|apply c_no_fields].
  - intros d t c ts e k ts' l KT KC GE IH KK GF IHF. apply (c_next_field d t c ts e [k] ts' l KT KC GE IH); [right; now exists k|exact (S8 _ _ _ GF)|exact IHF].
  - intros e n t0 rest nl es F D Q. destruct n as [|n]; [lia|]. cbn [path app]. change (peekk (Ps (t0 :: rest) nl es)) with (hdk rest). now rewrite is_not.
  - apply c_path_member.
Qed.
End Complete.
