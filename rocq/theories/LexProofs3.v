(** Proofs about the lexer, part 3: a token followed by a blank is recognised again. *)
From Verif Require Import Base BaseFacts StringsModel EncodingModel LexSpec LexModel LexProofs LexProofs2.

Definition quiet (f : Z -> bool) : Prop := f 32 = false /\ f 9 = false /\ f 13 = false /\ f 10 = false.
Lemma separated_head f s : quiet f -> separated s -> match s with [] => True | c :: _ => f c = false end.
Proof. intros (A & B & C & D) [->|(b & s' & [-> |[-> |[-> | ->]]] & ->)]; auto. Qed.
Lemma separated_hd s v : separated s -> v <> 32 -> v <> 9 -> v <> 13 -> v <> 10 -> v <> 0 -> (hd 0 s =? v) = false.
Proof. intros [->|(b & s' & [-> |[-> |[-> | ->]]] & ->)]; cbn [hd]; lia. Qed.

(** * Strings *)
Lemma later_inv e x n m e' : later e x n = (m, e') -> exists m1 e1, x = (m1, e1) /\ m = (n + m1)%nat /\ e' = match e1 with Some _ => e1 | None => e end.
Proof. destruct x as [m1 e1]. cbn. intros [= <- <-]. eauto. Qed.
Lemma str_step d a y z e : str d (a ++ 34 :: y) = (length a, e) -> str d (a ++ 34 :: z) = (length a, e).
Proof.
  revert d e. induction a as [a IH] using list_len_ind. intros d e.
  destruct a as [|c a].
  { cbn [app str length]. change (34 =? 92) with false. change (34 =? 36) with false. change (34 =? 123) with false. change (34 =? 125) with false.
    change (34 =? 34) with true. cbn [andb]. destruct (d =? 0)%nat; [auto|]. change (34 =? 10) with false. cbn [andb].
    intros H. apply later_inv in H as (m1 & e1 & _ & E & _). lia. }
  cbn [app str]. destruct (c =? 92) eqn:C92.
  { destruct a as [|x a].
    { cbn [app]. change (34 =? 120) with false. cbn [length]. intros H. apply later_inv in H as (m1 & e1 & _ & E & _). lia. }
    cbn [app]. destruct (x =? 120) eqn:X.
    - destruct a as [|h a]; cbn [app].
      + change (isxdigit 34) with false. cbn [negb]. intros H. apply later_inv in H as (m1 & e1 & H & E & ->). cbn [length] in *.
        change (34 :: y) with ([] ++ 34 :: y) in H. change (34 :: z) with ([] ++ 34 :: z).
        rewrite (IH [] ltac:(cbn; lia) d e1); [reflexivity|]. rewrite H. f_equal. cbn; lia.
      + destruct (isxdigit h) eqn:Hh; cbn [negb].
        * destruct a as [|l a]; cbn [app].
          -- change (isxdigit 34) with false. cbn [negb]. intros H. apply later_inv in H as (m1 & e1 & H & E & ->). cbn [length] in *.
             change (34 :: y) with ([] ++ 34 :: y) in H. change (34 :: z) with ([] ++ 34 :: z).
             rewrite (IH [] ltac:(cbn; lia) d e1); [reflexivity|]. rewrite H. f_equal. cbn; lia.
          -- destruct (isxdigit l) eqn:Hl; cbn [negb]; intros H; apply later_inv in H as (m1 & e1 & H & E & ->); cbn [length] in *.
             ++ rewrite (IH a ltac:(lia) d e1); [reflexivity|]. rewrite H. f_equal. lia.
             ++ change (l :: a ++ 34 :: y) with ((l :: a) ++ 34 :: y) in H. change (l :: a ++ 34 :: z) with ((l :: a) ++ 34 :: z).
                rewrite (IH (l :: a) ltac:(cbn [length]; lia) d e1); [reflexivity|]. rewrite H. f_equal. cbn [length]; lia.
        * intros H; apply later_inv in H as (m1 & e1 & H & E & ->); cbn [length] in *.
          change (h :: a ++ 34 :: y) with ((h :: a) ++ 34 :: y) in H. change (h :: a ++ 34 :: z) with ((h :: a) ++ 34 :: z).
          rewrite (IH (h :: a) ltac:(cbn [length]; lia) d e1); [reflexivity|]. rewrite H. f_equal. cbn [length]; lia.
    - intros H; apply later_inv in H as (m1 & e1 & H & E & ->); cbn [length] in *.
      rewrite (IH a ltac:(lia) d e1); [reflexivity|]. rewrite H. f_equal. lia. }
  assert (Hh : hd 0 (a ++ 34 :: y) = hd 0 (a ++ 34 :: z)) by (destruct a; reflexivity). rewrite Hh.
  assert (One : forall d', later None (str d' (a ++ 34 :: y)) 1 = (length (c :: a), e) -> later None (str d' (a ++ 34 :: z)) 1 = (length (c :: a), e)).
  { intros d' H; apply later_inv in H as (m1 & e1 & H & E & ->); cbn [length] in *.
    rewrite (IH a ltac:(lia) d' e1); [reflexivity|]. rewrite H. f_equal. lia. }
  destruct ((c =? 36) && (hd 0 (a ++ 34 :: z) =? 123)) eqn:D.
  { destruct a as [|x a]; [cbn in D; lia|]. cbn [app]. intros H; apply later_inv in H as (m1 & e1 & H & E & ->); cbn [length] in *.
    rewrite (IH a ltac:(lia) (S d) e1); [reflexivity|]. rewrite H. f_equal. lia. }
  destruct ((c =? 123) && (0 <? d)%nat); [apply One|]. destruct ((c =? 125) && (0 <? d)%nat); [apply One|].
  destruct ((c =? 34) && (d =? 0)%nat); [intros H; injection H as H _; cbn in H; lia|].
  destruct ((c =? 10) && (d =? 0)%nat); [intros H; injection H as H _; cbn in H; lia|]. apply One.
Qed.

(** * Numbers *)
Lemma dot_error_digits p a b : Forall (fun c => digit_ c = true) a -> dot_error p (a ++ 46 :: b) = None -> exists d b', b = d :: b' /\ isdigit d = true.
Proof.
  intros F. revert p. induction F as [|c a C F IH]; intros p; cbn [app dot_error].
  - change (46 =? 46) with true. cbv iota zeta. destruct b as [|d b]; cbn [hd]; [discriminate|].
    destruct (isdigit d) eqn:D; [eauto|]. destruct (d =? 95) eqn:U; [|cbn [negb andb]; rewrite orb_true_r; discriminate].
    destruct ((d =? 0) || (negb false && negb true)); discriminate.
  - destruct (c =? 46) eqn:E; [apply Z.eqb_eq in E as ->; discriminate|]. apply IH.
Qed.
Lemma number_error_float a b : Forall (fun c => digit_ c = true) a -> number_error (a ++ 46 :: b) = None -> exists d b', b = d :: b' /\ isdigit d = true.
Proof. intros F. unfold number_error. destruct (dot_error 0 (a ++ 46 :: b)) eqn:E; [discriminate|]. intros _. now apply (dot_error_digits 0 a). Qed.
Lemma digits_first c a : Forall (fun c => digit_ c = true) (c :: a) -> isdigit c = true -> (hd 0 a =? 120) || (hd 0 a =? 88) = false /\ (hd 0 a =? 111) || (hd 0 a =? 79) = false /\ (hd 0 a =? 98) || (hd 0 a =? 66) = false.
Proof.
  intros F D. inversion F as [|? ? _ F']. destruct F' as [|d a' D' _]; [auto|]. cbn [hd]. unfold digit_, isdigit in D'. lia.
Qed.
Definition decimal (r : bytes) : nat * kind * option bytes :=
  let a := run digit_ r in
  let r1 := skipn a r in
  let '(n, k) := if (hd 0 r1 =? 46) && after_point (hd 0 (tl r1)) then ((a + 1 + run digit_ (tl r1))%nat, FLOAT) else (a, INT) in
  (n, k, number_error (firstn n r)).
Lemma read_number_decimal r :
  (hd 0 r =? 48) = false \/ ((hd 0 (tl r) =? 120) || (hd 0 (tl r) =? 88) = false /\ (hd 0 (tl r) =? 111) || (hd 0 (tl r) =? 79) = false /\ (hd 0 (tl r) =? 98) || (hd 0 (tl r) =? 66) = false) ->
  read_number r = decimal r.
Proof. unfold read_number. cbv zeta. fold (decimal r). intros [->|(-> & -> & ->)]; [reflexivity|]. destruct (hd 0 r =? 48); reflexivity. Qed.
Lemma read_number_based r : hd 0 r = 48 -> (exists f, quiet f /\ read_number r = based f (tl (tl r)) /\ hd 0 (tl r) <> 0 /\ forall r', hd 0 r' = 48 -> hd 0 (tl r') = hd 0 (tl r) -> read_number r' = based f (tl (tl r')))
   \/ read_number r = decimal r.
Proof.
  intros H. unfold read_number at 1 3. cbv zeta. fold (decimal r). rewrite H. change (48 =? 48) with true. cbv iota.
  destruct ((hd 0 (tl r) =? 120) || (hd 0 (tl r) =? 88)) eqn:E1.
  { left. exists hex_. split; [repeat split; reflexivity|]. split; [reflexivity|]. split; [lia|]. intros r' A B. unfold read_number. rewrite A, B, E1. reflexivity. }
  destruct ((hd 0 (tl r) =? 111) || (hd 0 (tl r) =? 79)) eqn:E2.
  { left. exists octal_. split; [repeat split; reflexivity|]. split; [reflexivity|]. split; [lia|]. intros r' A B. unfold read_number. rewrite A, B, E1, E2. reflexivity. }
  destruct ((hd 0 (tl r) =? 98) || (hd 0 (tl r) =? 66)) eqn:E3.
  { left. exists binary_. split; [repeat split; reflexivity|]. split; [reflexivity|]. split; [lia|]. intros r' A B. unfold read_number. rewrite A, B, E1, E2, E3. reflexivity. }
  right. reflexivity.
Qed.
Lemma decimal_shape r n k e : decimal r = (n, k, e) -> exists a, Forall (fun c => digit_ c = true) a /\
  ((k = INT /\ firstn n r = a /\ length a = n) \/ (exists b, k = FLOAT /\ firstn n r = a ++ 46 :: b /\ length (a ++ 46 :: b) = n /\ Forall (fun c => digit_ c = true) b)) /\
  e = number_error (firstn n r).
Proof.
  unfold decimal. destruct (run_spec digit_ r) as (a & b & -> & <- & A & N). rewrite skipn_len. cbv zeta.
  destruct (hd 0 b =? 46) eqn:E; cbn [andb].
  - destruct b as [|p b]; [discriminate|]. cbn [hd] in E. apply Z.eqb_eq in E as ->. cbn [tl]. destruct (after_point (hd 0 b)).
    + destruct (run_spec digit_ b) as (x & y & -> & <- & X & _). intros H. injection H as <- <- <-. exists a. split; [exact A|]. split; [|reflexivity]. right. exists x.
      assert (L : length (a ++ 46 :: x) = (length a + 1 + length x)%nat) by (rewrite app_length; cbn [length]; lia).
      split; [reflexivity|]. rewrite <- L. replace (a ++ 46 :: x ++ y) with ((a ++ 46 :: x) ++ y) by now rewrite <- app_assoc. rewrite firstn_len. auto.
    + intros H. injection H as <- <- <-. exists a. rewrite firstn_len. auto 9.
  - intros H. injection H as <- <- <-. exists a. rewrite firstn_len. auto 9.
Qed.
Lemma after_digit d : isdigit d = true -> after_point d = true.
Proof. unfold after_point. now intros ->. Qed.
Lemma firstn_len' {A} (a b : list A) n : n = length a -> firstn n (a ++ b) = a.
Proof. intros ->. apply firstn_len. Qed.
Lemma decimal_keeps r n k s : decimal r = (n, k, None) -> separated s -> decimal (firstn n r ++ s) = (n, k, None).
Proof.
  intros H S. destruct (decimal_shape _ _ _ _ H) as (a & A & [(-> & E & L)|(b & -> & E & L & B)] & NE); rewrite E in *.
  - unfold decimal. rewrite run_app; [|exact A|apply separated_head; [repeat split; reflexivity|exact S]]. rewrite skipn_len, (separated_hd s 46); try lia; [|exact S].
    cbn [andb]. rewrite firstn_len. now rewrite <- NE, L.
  - destruct (number_error_float a b A (eq_sym NE)) as (d & b' & -> & D).
    unfold decimal. rewrite <- app_assoc. rewrite run_app; [|exact A|reflexivity]. rewrite skipn_len. cbn [app hd tl]. change (46 =? 46) with true.
    rewrite (after_digit d D). cbn [andb]. change (d :: b' ++ s) with ((d :: b') ++ s).
    rewrite run_app; [|exact B|apply separated_head; [repeat split; reflexivity|exact S]].
    assert (Ln : (length a + 1 + length (d :: b') = n)%nat) by (rewrite app_length in L; cbn [length] in *; lia). rewrite Ln.
    change (46 :: (d :: b') ++ s) with ((46 :: d :: b') ++ s). rewrite app_assoc, firstn_len' by (symmetry; exact L). now rewrite <- NE.
Qed.
Lemma number_keeps c r1 n k s : isdigit c = true -> read_number (c :: r1) = (n, k, None) -> separated s ->
  read_number (firstn n (c :: r1) ++ s) = (n, k, None).
Proof.
  intros D H Sp. pose proof (read_number_pos _ _ _ _ _ D H) as P.
  assert (F : exists x, firstn n (c :: r1) = c :: x) by (destruct n; [lia|cbn; eauto]). destruct F as [x F].
  assert (Dec : decimal (c :: r1) = (n, k, None) -> read_number (firstn n (c :: r1) ++ s) = (n, k, None)).
  { intros Q. rewrite read_number_decimal; [now apply decimal_keeps|]. right.
    destruct (decimal_shape _ _ _ _ Q) as (a & A & X & _). rewrite F in *. cbn [app tl].
    destruct X as [(_ & E & _)|(b & _ & E & _ & _)].
    - subst a. destruct x as [|y x]; [cbn [app]|exact (digits_first c (y :: x) A D)].
      repeat split; rewrite !separated_hd; auto; lia.
    - destruct a as [|a0 a]; cbn [app] in E; injection E as -> ->; [discriminate|]. destruct a as [|y a]; [cbn [app hd]; auto|exact (digits_first a0 (y :: a) A D)]. }
  destruct (Z.eqb_spec c 48) as [->|N].
  - destruct (read_number_based (48 :: r1) eq_refl) as [(f & Q & E & Hd & K)|E]; [|rewrite E in H; auto].
    rewrite E in H. unfold based in H. cbn [tl hd] in *. destruct r1 as [|p r2]; [contradiction|]. cbn [tl hd] in *.
    destruct (run_spec f r2) as (a & b & -> & La & A & N). rewrite <- La in H. destruct (length a =? 0)%nat eqn:E0; [discriminate|]. injection H as <- <-.
    change (firstn (S (S (length a))) (48 :: p :: a ++ b)) with (48 :: p :: firstn (length a) (a ++ b)). rewrite firstn_len. cbn [app].
    rewrite K; [|reflexivity|reflexivity]. unfold based. cbn [tl]. rewrite run_app; [|exact A|apply separated_head; [exact Q|exact Sp]]. now rewrite E0.
  - rewrite read_number_decimal in H by (left; cbn [hd]; lia). auto.
Qed.

(** * The switch on letters and digits *)
Lemma scan_word c r k : isalpha c || (c =? 95) = true -> lookup_identifier (firstn (run word_char (c :: r)) (c :: r)) = Some k ->
  scan (c :: r) = Some (k, firstn (run word_char (c :: r)) (c :: r), run word_char (c :: r)).
Proof.
  intros A L. unfold scan. cbn [hd]. rewrite A.
  assert (O : forall v, isalpha v || (v =? 95) = false -> (c =? v) = false) by (intros v V; destruct (Z.eqb_spec c v) as [->|]; [congruence|reflexivity]).
  rewrite !O by reflexivity. cbv zeta. now rewrite L.
Qed.
Lemma scan_number c r n k : isdigit c = true -> read_number (c :: r) = (n, k, None) -> scan (c :: r) = Some (k, firstn n (c :: r), n).
Proof.
  intros D L. unfold scan. cbn [hd]. 
  assert (O : forall v, isdigit v = false -> (c =? v) = false) by (intros v V; destruct (Z.eqb_spec c v) as [->|]; [congruence|reflexivity]).
  rewrite !O by reflexivity. replace (isalpha c) with false by (unfold isalpha, isupper, islower, isdigit in *; lia). cbn [orb]. now rewrite D, L.
Qed.
Lemma scan_34 r : scan (34 :: r) = Some (scan_string r). Proof. reflexivity. Qed.
Lemma scan_96 r : scan (96 :: r) = Some (scan_raw r). Proof. reflexivity. Qed.
Lemma scan_39 r : scan (39 :: r) = Some (scan_char r). Proof. reflexivity. Qed.
Lemma ops_keep : Forall (fun e => forall s, separated s -> settled (snd e ++ s) /\ scan (snd e ++ s) = Some (fst e, snd e, length (snd e))) ops.
Proof.
  repeat (constructor; [intros s [->|(b & s' & [-> |[-> |[-> | ->]]] & ->)]; (split; [cbn; split; [reflexivity|lia]|reflexivity])|]). constructor.
Qed.
Definition keeps (e : kind * bytes) : Prop :=
  let '(k, lit) := e in k <> EOF /\ k <> ILLEGAL /\ spelling k lit <> [] /\
  forall s, separated s -> settled (spelling k lit ++ s) /\ scan (spelling k lit ++ s) = Some (k, lit, length (spelling k lit)).
Definition char_escape (c : Z) : bool := existsb (Z.eqb c) [110; 116; 114; 92; 39; 48; 120; 0].
Lemma char_shape r1 lit m : scan_char r1 = (CHAR, lit, m) ->
  (exists x r2, r1 = x :: 39 :: r2 /\ lit = [x] /\ (x =? 92) = false) \/ (exists x r2, r1 = 92 :: x :: 39 :: r2 /\ lit = [92; x] /\ char_escape x = true).
Proof.
  unfold scan_char. cbv zeta. fold (char_escape (hd 0 (tl r1))). intros H. destruct (hd 0 r1 =? 92) eqn:B.
  - apply hd_cons in B as [r2 ->]; [|lia]. cbn [tl] in H. destruct (char_escape (hd 0 r2)) eqn:X.
    + rewrite andb_true_r in H. destruct (hd 0 (skipn 2 (92 :: r2)) =? 39) eqn:Q.
      * cbn [negb andb] in H. rewrite Q in H. right. destruct r2 as [|x r2]; [discriminate|]. cbn [skipn] in Q. apply hd_cons in Q as [r3 ->]; [|lia].
        injection H as <- _. exists x, r3. auto.
      * cbn [negb andb] in H. destruct (hd 0 (skipn 2 (92 :: r2)) =? 0); cbn [negb] in H.
        -- rewrite Q in H. discriminate.
        -- match type of H with (if ?b then _ else _) = _ => destruct b end; discriminate.
    + rewrite andb_false_r in H. destruct (hd 0 (skipn 2 (92 :: r2)) =? 39); discriminate.
  - rewrite andb_true_r in H. destruct (hd 0 (skipn 1 r1) =? 39) eqn:Q.
    + cbn [negb andb] in H. rewrite Q in H. left. destruct r1 as [|x r2]; [discriminate|]. cbn [skipn] in Q. apply hd_cons in Q as [r3 ->]; [|lia].
      injection H as <- _. exists x, r3. auto.
    + cbn [negb andb] in H. destruct (hd 0 (skipn 1 r1) =? 0); cbn [negb] in H.
      * rewrite Q in H. discriminate.
      * match type of H with (if ?b then _ else _) = _ => destruct b end; discriminate.
Qed.
Lemma char_keeps r1 lit m s : scan_char r1 = (CHAR, lit, m) -> scan_char (lit ++ 39 :: s) = (CHAR, lit, (1 + length lit + 1)%nat).
Proof.
  intros H. destruct (char_shape _ _ _ H) as [(x & r2 & _ & -> & X)|(x & r2 & _ & -> & X)]; unfold scan_char.
  - cbn [app hd]. rewrite X. reflexivity.
  - cbn [app hd tl]. fold (char_escape x). rewrite X. reflexivity.
Qed.
Lemma shape_keeps c r1 k lit m : shape (c :: r1) (k, lit, m) -> k <> ILLEGAL -> keeps (k, lit).
Proof.
  intros H N. pose proof (shape_spells c r1 k lit m H N) as (KE & M & M1 & r' & R). split; [exact KE|]. split; [exact N|].
  split; [destruct (spelling k lit); [cbn in M; lia|discriminate]|]. intros s Sp.
  remember (c :: r1) as r eqn:Rr. remember (k, lit, m) as f eqn:F. destruct H as [e n L|k' l r2 I E|r2 E|r2 E|r2 E|k' d r2 E A B|d r2 n k' E A B].
  - injection F as <- <- <-. contradiction.
  - injection F as <- <- <-. destruct (op_kind _ _ I) as (_ & _ & _ & Y & _). rewrite Y. pose proof ops_keep as O. rewrite Forall_forall in O. exact (O _ I s Sp).
  - unfold scan_string in F. destruct (str 0 r2) as [n e] eqn:G. destruct (hd 0 (skipn n r2) =? 34) eqn:Q; [|injection F as <- _ _; contradiction].
    apply hd_skip in Q as (a & b & -> & <-); [|lia]. rewrite firstn_len in F. destruct e; injection F as <- <- <-; [contradiction|].
    cbn [spelling]. change (([34] ++ a ++ [34]) ++ s) with (34 :: (a ++ [34]) ++ s). rewrite <- app_assoc. cbn [app].
    split; [cbn; split; [reflexivity|lia]|]. rewrite scan_34. unfold scan_string. rewrite (str_step 0 a b s None G), skipn_len. change (hd 0 (34 :: s) =? 34) with true. cbv iota.
    rewrite firstn_len. do 2 f_equal. cbn [length]. rewrite app_length. cbn [length]. lia.
  - unfold scan_raw in F. destruct (run_spec (fun c => negb (c =? 96)) r2) as (a & b & -> & La & A & Nb). rewrite <- La, skipn_len, firstn_len in F.
    destruct (hd 0 b =? 96) eqn:Q; [|injection F as <- _ _; contradiction]. injection F as <- <- <-.
    cbn [spelling]. change (([96] ++ a ++ [96]) ++ s) with (96 :: (a ++ [96]) ++ s). rewrite <- app_assoc. cbn [app].
    split; [cbn; split; [reflexivity|lia]|]. rewrite scan_96. unfold scan_raw. rewrite (run_app _ a (96 :: s) A eq_refl), skipn_len. change (hd 0 (96 :: s) =? 96) with true. cbv iota.
    rewrite firstn_len. do 2 f_equal. cbn [length]. rewrite app_length. cbn [length]. lia.
  - assert (K : k = CHAR).
    { unfold scan_char in F. destruct (if hd 0 r2 =? 92 then _ else _) as [n0 e0]. cbv zeta in F. destruct (if negb (hd 0 (skipn n0 r2) =? 39) && _ && _ then _ else _) as [n [e|]];
      destruct (hd 0 (skipn n r2) =? 39); injection F as <- _ _; contradiction || reflexivity. }
    subst k. cbn [spelling]. change (([39] ++ lit ++ [39]) ++ s) with (39 :: (lit ++ [39]) ++ s). rewrite <- app_assoc. cbn [app].
    split; [cbn; split; [reflexivity|lia]|]. rewrite scan_39. rewrite (char_keeps r2 lit m s F). do 2 f_equal. cbn [length]. rewrite app_length. cbn [length]. lia.
  - injection F as <- <- <-. destruct (lookup_kind _ _ B) as (_ & _ & Y). rewrite Y in *. rewrite E in *.
    destruct (run_spec word_char (d :: r2)) as (a & b & Eab & La & W & _). rewrite <- La in *. rewrite Eab in *. rewrite !firstn_len in *.
    destruct a as [|x a]; [cbn in M1; lia|]. cbn [app] in Eab. injection Eab as -> Eab.
    split.
    + cbn [app settled]. unfold is_blank. unfold isalpha, isupper, islower in A. lia.
    + assert (Rn : run word_char ((x :: a) ++ s) = length (x :: a)) by (apply run_app; [exact W|apply separated_head; [repeat split; reflexivity|exact Sp]]).
      cbn [app] in *. rewrite (scan_word x (a ++ s) k'); [|exact A|]; rewrite Rn; change (x :: a ++ s) with ((x :: a) ++ s); rewrite firstn_len; [reflexivity|exact B].
  - injection F as <- <- <-. rewrite E in *. destruct (read_number_le _ _ _ _ A B) as [_ K].
    replace (spelling k' (firstn n (d :: r2))) with (firstn n (d :: r2)) in * by (destruct K; subst k'; reflexivity).
    pose proof (number_keeps d r2 n k' s A B Sp) as Q. destruct n as [|n]; [lia|]. cbn [firstn app] in *.
    split; [cbn [settled]; unfold is_blank; unfold isdigit in A; lia|]. rewrite (scan_number d _ (S n) k' A Q). rewrite <- M. do 2 f_equal.
    change (d :: firstn n r2 ++ s) with ((d :: firstn n r2) ++ s). rewrite M at 1. now rewrite firstn_len.
Qed.
