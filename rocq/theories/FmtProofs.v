(** Proofs about the formatter, part 1: removing indentation does not change what is lexed. *)
From Verif Require Import Base BaseFacts StringsModel EncodingModel LexSpec LexModel LexProofs LexProofs2 LexProofs3 LexProofs4 FmtSpec FmtModel.

Definition ind (c : Z) : bool := (c =? 32) || (c =? 9).
(** The text without indentation; f: at the start of a line *)
Fixpoint sq (f : bool) (s : bytes) : bytes :=
  match s with [] => [] | c :: s => if f && ind c then sq true s else c :: sq (c =? 10) s end.
Fixpoint fr (f : bool) (s : bytes) : bool := match s with [] => f | c :: s => fr (if f && ind c then true else c =? 10) s end.
Lemma sq_app a : forall f b, sq f (a ++ b) = sq f a ++ sq (fr f a) b.
Proof. induction a as [|c a IH]; intros f b; [reflexivity|]. cbn [app sq fr]. destruct (f && ind c); [apply IH|]. cbn [app]. now rewrite IH. Qed.
Lemma sq_plain f c s : ind c = false -> sq f (c :: s) = c :: sq (c =? 10) s.
Proof. intros N. cbn [sq]. now rewrite N, andb_false_r. Qed.
Lemma sq_line p : forall t, ~ In 10 p -> sq false (p ++ t) = p ++ sq false t.
Proof.
  induction p as [|c p IH]; intros t N; [reflexivity|]. cbn [app sq andb]. destruct (Z.eqb_spec c 10) as [->|]; [exfalso; apply N; now left|].
  rewrite IH; [reflexivity|]. intros I; apply N; now right.
Qed.
Lemma sq_id p : ~ In 10 p -> sq false p = p.
Proof. intros N. rewrite <- (app_nil_r p) at 1. rewrite sq_line by exact N. apply app_nil_r. Qed.
Lemma fr_line p : ~ In 10 p -> fr false p = false.
Proof. induction p as [|c p IH]; intros N; [reflexivity|]. cbn [fr andb]. destruct (Z.eqb_spec c 10) as [->|]; [exfalso; apply N; now left|]. apply IH. intros I; apply N; now right. Qed.
Lemma newlines_cons c s : newlines (c :: s) = (if c =? 10 then 1 else 0) + newlines s.
Proof. unfold newlines. cbn [filter]. destruct (c =? 10); cbn [length]; lia. Qed.
Lemma newlines_app a b : newlines (a ++ b) = newlines a + newlines b.
Proof. unfold newlines. rewrite filter_app, app_length. lia. Qed.
Lemma newlines_sq s : forall f, newlines (sq f s) = newlines s.
Proof.
  induction s as [|c s IH]; intros f; [reflexivity|]. cbn [sq]. rewrite newlines_cons. destruct (f && ind c) eqn:E; [rewrite IH|rewrite newlines_cons, IH; reflexivity].
  destruct (Z.eqb_spec c 10) as [->|]; [destruct f; discriminate|]. lia.
Qed.
Lemma newlines_zero s : newlines s = 0 <-> ~ In 10 s.
Proof.
  induction s as [|c s IH]; [cbn; tauto|]. rewrite newlines_cons. assert (0 <= newlines s) by (unfold newlines; lia). destruct (Z.eqb_spec c 10) as [->|N]; cbn [In]; [lia|]. rewrite Z.add_0_l, IH. intuition.
Qed.
(** Two neighbours, the first not a line break, are neighbours in the text with indentation *)
Lemma sq_pair x y : x <> 10 -> forall s f a b, sq f s = a ++ x :: y :: b -> exists a' b', s = a' ++ x :: y :: b' /\ sq (y =? 10) b' = b.
Proof.
  intros N. induction s as [|c s IH]; intros f a b; [destruct a; discriminate|]. cbn [sq]. destruct (f && ind c).
  - intros E. destruct (IH _ _ _ E) as (a' & b' & -> & Q). exists (c :: a'), b'. auto.
  - destruct a as [|d a]; cbn [app]; intros E; injection E as -> E.
    + destruct (Z.eqb_spec x 10); [contradiction|]. destruct s as [|z s]; [discriminate|]. cbn [sq andb] in E. injection E as -> E. exists [], s. auto.
    + destruct (IH _ _ _ E) as (a' & b' & -> & Q). exists (d :: a'), b'. auto.
Qed.
Lemma sq_In x s f : In x (sq f s) -> In x s.
Proof.
  revert f. induction s as [|c s IH]; intros f; [auto|]. cbn [sq]. destruct (f && ind c); cbn [In]; [right; eauto|]. intros [|]; eauto.
Qed.
Definition nl (e : bytes) : Prop := e = [] \/ e = [10].

(** * Layout *)
Lemma gap_sq P g : gap P g -> forall f, gap P (sq f g).
Proof.
  induction 1 as [|c g B G IH|body g N G IH|body E N|body g N G IH]; intros f.
  - constructor.
  - cbn [sq]. destruct (f && ind c); [apply IH|]. apply gap_blank; auto.
  - cbn [bs app sq]. change (ind (byte_of_ascii "/")) with false. rewrite andb_false_r. cbn [andb]. change (byte_of_ascii "/" =? 10) with false.
    rewrite sq_line by exact N. specialize (IH false). cbn [sq andb] in *. change (10 =? 10) with true in *. exact (gap_line P body _ N IH).
  - cbn [bs app sq]. change (ind (byte_of_ascii "/")) with false. rewrite andb_false_r. cbn [andb]. change (byte_of_ascii "/" =? 10) with false.
    rewrite sq_id by exact N. now apply (gap_last P body).
  - change (bs "/*" ++ body ++ bs "*/" ++ g) with (47 :: 42 :: body ++ bs "*/" ++ g). rewrite !sq_plain by reflexivity. change (42 =? 10) with false.
    rewrite sq_app. change (bs "*/" ++ g) with (42 :: 47 :: g). rewrite !sq_plain by reflexivity. change (47 =? 10) with false.
    apply (gap_block P (sq false body)); [|apply IH].
    intros a b E. destruct (sq_pair 42 47 ltac:(lia) _ _ _ _ E) as (a' & b' & E' & _). exact (N a' b' E').
Qed.
Lemma gap_end g e : gap True g -> nl e -> gap True (g ++ e).
Proof.
  intros G [->| ->]; [now rewrite app_nil_r|]. induction G as [|c g B G IH|body g N G IH|body E N|body g N G IH].
  - apply gap_blank; [right; right; right; reflexivity|constructor].
  - apply gap_blank; auto.
  - rewrite <- !app_assoc. apply gap_line; auto.
  - rewrite <- app_assoc. apply gap_line; [exact N|]. apply gap_blank; [right; right; right; reflexivity|constructor].
  - rewrite <- !app_assoc. apply gap_block; auto.
Qed.
Lemma block_open body : (forall a b, body <> a ++ bs "*/" ++ b) -> block body = (length body, false).
Proof.
  intros N. destruct (block_spec body) as (n & ok & E & H). rewrite E. destruct ok.
  - destruct H as (x & r' & -> & _). exfalso. exact (N x r' eq_refl).
  - destruct H as [-> _]. reflexivity.
Qed.
Lemma skip_open body : (forall a b, body <> a ++ bs "*/" ++ b) -> forall g, gap False g -> forall fuel, (length (g ++ bs "/*" ++ body) < fuel)%nat ->
  skip fuel (g ++ bs "/*" ++ body) = Some (length (g ++ bs "/*" ++ body), true).
Proof.
  intros NB g. induction 1 as [|c g B G IH|bd g N G IH|bd E N|bd g N G IH]; intros fuel L; (destruct fuel as [|fuel]; [lia|]).
  - change ([] ++ bs "/*" ++ body) with (47 :: 42 :: body) in *. rewrite skip_comment, block_open by exact NB. rewrite skipn_all. cbn [length] in *.
    destruct fuel as [|fuel]; [lia|]. change (skip (S fuel) []) with (Some (0%nat, false)). cbv iota. cbn [negb orb]. now rewrite Nat.add_0_r.
  - cbn [app]. rewrite skip_blank by now apply is_blank_spec. rewrite IH; [reflexivity|]. cbn [app length] in L. lia.
  - rewrite <- !app_assoc in *. change (bs "//" ++ bd ++ (10 :: g) ++ bs "/*" ++ body) with (47 :: 47 :: bd ++ 10 :: g ++ bs "/*" ++ body) in *. rewrite skip_line.
    replace (run (fun c => negb (c =? 10)) (bd ++ 10 :: g ++ bs "/*" ++ body)) with (length bd).
    2:{ symmetry. apply run_app; [|reflexivity]. apply Forall_forall. intros x Hx. destruct (Z.eqb_spec x 10) as [->|]; [contradiction|reflexivity]. }
    cbv zeta. rewrite skipn_len. change (10 :: g ++ bs "/*" ++ body) with ((10 :: g) ++ bs "/*" ++ body) in *.
    rewrite (IH fuel); [|cbn [length] in L; rewrite app_length in L; lia]. f_equal. f_equal. cbn [length]. rewrite (app_length bd). cbn [length]. reflexivity.
  - destruct E.
  - rewrite <- !app_assoc in *. change (bs "/*" ++ bd ++ bs "*/" ++ g ++ bs "/*" ++ body) with (47 :: 42 :: bd ++ bs "*/" ++ g ++ bs "/*" ++ body) in *. rewrite skip_comment, block_none by exact N.
    replace (skipn (length bd + 2) (bd ++ bs "*/" ++ g ++ bs "/*" ++ body)) with (g ++ bs "/*" ++ body).
    2:{ change 2%nat with (length (bs "*/")). rewrite <- app_length, (app_assoc bd). now rewrite skipn_len. }
    pose proof (app_length bd (bs "*/" ++ g ++ bs "/*" ++ body)) as A1. pose proof (app_length (bs "*/") (g ++ bs "/*" ++ body)) as A2.
    change (length (bs "*/")) with 2%nat in A2. remember (g ++ bs "/*" ++ body) as q. remember (bd ++ bs "*/" ++ q) as z. cbn [length] in L |- *.
    rewrite (IH fuel) by lia. f_equal. f_equal. lia.
Qed.

(** * Strings *)
(** The length of a string literal up to its closing quote, without errors *)
Definition lift (n : nat) (o : option nat) : option nat := option_map (Nat.add n) o.
Fixpoint close (d : nat) (r : bytes) : option nat :=
  match r with
  | [] => None
  | c :: r1 =>
      if c =? 92 then
        match r1 with
        | [] => None
        | e :: r2 =>
            if e =? 120 then match r2 with h :: l :: r4 => if isxdigit h && isxdigit l then lift 4 (close d r4) else None | _ => None end
            else if escape_ok e then lift 2 (close d r2) else None
        end
      else if (c =? 36) && (hd 0 r1 =? 123) then match r1 with [] => None | _ :: r2 => lift 2 (close (S d) r2) end
      else if (c =? 123) && (0 <? d)%nat then lift 1 (close (S d) r1)
      else if (c =? 125) && (0 <? d)%nat then lift 1 (close (pred d) r1)
      else if (c =? 34) && (d =? 0)%nat then Some 0%nat
      else if (c =? 10) && (d =? 0)%nat then None
      else lift 1 (close d r1)
  end.
Definition good (x : nat * option bytes) (r : bytes) : option nat :=
  let '(n, e) := x in match e with Some _ => None | None => if hd 0 (skipn n r) =? 34 then Some n else None end.
Lemma good_later n e d r0 r : skipn n r0 = r -> good (later e (str d r) n) r0 = match e with Some _ => None | None => lift n (good (str d r) r) end.
Proof.
  intros E. destruct (str d r) as [m e1]. cbn [later good]. destruct e1 as [b|]; [destruct e; reflexivity|]. destruct e; [reflexivity|].
  replace (skipn (n + m) r0) with (skipn m r).
  - destruct (hd 0 (skipn m r) =? 34); reflexivity.
  - subst r. clear. revert r0. induction n as [|n IH]; intros r0; [reflexivity|]. destruct r0 as [|c r0]; [cbn [skipn Nat.add]; now destruct m|]. apply IH.
Qed.
Lemma close_good r : forall d, close d r = good (str d r) r.
Proof.
  induction r as [r IH] using list_len_ind. intros d. destruct r as [|c r1]; [reflexivity|]. cbn [close str].
  destruct (c =? 92) eqn:C92.
  { destruct r1 as [|e r2]; [reflexivity|]. destruct (e =? 120) eqn:X.
    - destruct r2 as [|h r3]; [reflexivity|]. destruct (isxdigit h) eqn:Hh; cbn [negb andb].
      + destruct r3 as [|l r4]; [reflexivity|]. destruct (isxdigit l) eqn:Hl; cbn [negb].
        * rewrite (good_later 4 None d (c :: e :: h :: l :: r4) r4 eq_refl), IH by (cbn; lia). reflexivity.
        * now rewrite (good_later 3 E1006 d (c :: e :: h :: l :: r4) (l :: r4) eq_refl).
      + rewrite (good_later 2 E1006 d (c :: e :: h :: r3) (h :: r3) eq_refl). destruct r3; reflexivity.
    - rewrite (good_later 2 _ d (c :: e :: r2) r2 eq_refl). destruct (escape_ok e); [|reflexivity]. rewrite IH by (cbn; lia). reflexivity. }
  destruct ((c =? 36) && (hd 0 r1 =? 123)) eqn:D. { destruct r1 as [|x r2]; [cbn in D; lia|]. rewrite (good_later 2 None (S d) (c :: x :: r2) r2 eq_refl), IH by (cbn; lia). reflexivity. }
  destruct ((c =? 123) && (0 <? d)%nat). { rewrite (good_later 1 None (S d) (c :: r1) r1 eq_refl), IH by (cbn; lia). reflexivity. }
  destruct ((c =? 125) && (0 <? d)%nat). { rewrite (good_later 1 None (pred d) (c :: r1) r1 eq_refl), IH by (cbn; lia). reflexivity. }
  destruct ((c =? 34) && (d =? 0)%nat) eqn:Q. { cbn [good skipn hd]. replace (c =? 34) with true by (symmetry; lia). reflexivity. }
  destruct ((c =? 10) && (d =? 0)%nat). { reflexivity. }
  rewrite (good_later 1 None d (c :: r1) r1 eq_refl), IH by (cbn; lia). reflexivity.
Qed.
Lemma scan_string_close r : match close 0 r with
  | Some n => exists a b, r = a ++ 34 :: b /\ length a = n /\ scan_string r = (STRING, a, (1 + n + 1)%nat)
  | None => exists e n, scan_string r = (ILLEGAL, e, n) end.
Proof.
  rewrite close_good. unfold scan_string, good. destruct (str 0 r) as [n e]. destruct e as [b|].
  - destruct (hd 0 (skipn n r) =? 34); unfold illegal; eauto.
  - destruct (hd 0 (skipn n r) =? 34) eqn:Q; [|unfold illegal; eauto].
    apply hd_skip in Q as (a & b & -> & <-); [|lia]. rewrite firstn_len. exists a, b. auto.
Qed.
Lemma hd_sq_e v r e : nl e -> v <> 0 -> v <> 10 -> (hd 0 (sq false r ++ e) =? v) = (hd 0 r =? v).
Proof. intros E V W. destruct r as [|c r]; [|reflexivity]. destruct E as [->| ->]; cbn [sq app hd]; lia. Qed.
Lemma close_sq r : forall d f e, nl e ->
  match close d r with
  | Some n => exists a b, r = a ++ 34 :: b /\ length a = n /\ close d (sq f r ++ e) = Some (length (sq f a))
  | None => close d (sq f r ++ e) = None
  end.
Proof.
  induction r as [r IH] using list_len_ind. intros d f e E. destruct r as [|c r1].
  { cbn [close sq app]. destruct E as [->| ->]; [reflexivity|]. cbn [close]. change (10 =? 92) with false. cbn [andb]. change (10 =? 36) with false. cbn [andb].
    change (10 =? 123) with false. change (10 =? 125) with false. change (10 =? 34) with false. change (10 =? 10) with true. cbn [andb]. destruct (d =? 0)%nat; reflexivity. }
  (* continue after the consumed part x, whose image is y *)
  assert (K : forall x r2 d2 f2, c :: r1 = x ++ r2 -> (length r2 < length (c :: r1))%nat ->
    sq f (x ++ r2) = sq f x ++ sq f2 r2 -> f2 = fr f x ->
    close d (x ++ r2) = lift (length x) (close d2 r2) -> close d (sq f x ++ sq f2 r2 ++ e) = lift (length (sq f x)) (close d2 (sq f2 r2 ++ e)) ->
    match close d (x ++ r2) with
    | Some n => exists a b, x ++ r2 = a ++ 34 :: b /\ length a = n /\ close d (sq f (x ++ r2) ++ e) = Some (length (sq f a))
    | None => close d (sq f (x ++ r2) ++ e) = None
    end).
  { intros x r2 d2 f2 Ex Lx Sx Fx C1 C2. rewrite C1, Sx, <- app_assoc, C2. specialize (IH r2 Lx d2 f2 e E).
    destruct (close d2 r2) as [n|]; cbn [lift option_map].
    - destruct IH as (a & b & -> & <- & ->). exists (x ++ a), b. split; [now rewrite app_assoc|]. split; [now rewrite app_length|]. cbn [lift option_map]. rewrite sq_app, app_length, Fx. reflexivity.
    - rewrite IH. reflexivity. }
  destruct (f && ind c) eqn:FI.
  { (* indentation inside a literal *)
    apply andb_true_iff in FI as [-> FI]. apply (K [c] r1 d true); cbn [app length sq fr andb]; rewrite ?FI; auto; try lia.
    - cbn [close]. unfold ind in FI. assert (c = 32 \/ c = 9) as [-> | ->] by lia; reflexivity.
    - cbn [app length]. destruct (close d (sq true r1 ++ e)); reflexivity. }
  destruct (c =? 92) eqn:C92.
  { apply Z.eqb_eq in C92 as ->. destruct r1 as [|x r2].
    { cbn [close]. change (92 =? 92) with true. cbv iota. cbn [sq]. rewrite FI. destruct E as [->| ->]; reflexivity. }
    destruct (x =? 120) eqn:X.
    - apply Z.eqb_eq in X as ->. destruct r2 as [|h r3].
      { cbn [close]. change (92 =? 92) with true. change (120 =? 120) with true. cbv iota. cbn [sq]. rewrite FI. destruct E as [->| ->]; reflexivity. }
      destruct r3 as [|l r4].
      { cbn [close]. change (92 =? 92) with true. change (120 =? 120) with true. cbv iota. cbn [sq]. rewrite FI. change (92 =? 10) with false. cbn [andb]. change (120 =? 10) with false. cbn [sq andb app].
        destruct E as [->| ->]; cbn [close]; change (92 =? 92) with true; change (120 =? 120) with true; cbv iota; [reflexivity|]. change (isxdigit 10) with false. now rewrite andb_false_r. }
      destruct (isxdigit h && isxdigit l) eqn:XD.
      + assert (NX : forall z, isxdigit z = true -> (z =? 10) = false) by (intros z Hz; destruct (Z.eqb_spec z 10) as [->|]; [discriminate|reflexivity]).
        apply andb_true_iff in XD as [XH XL].
        assert (Sx : sq f [92; 120; h; l] = [92; 120; h; l]) by (cbn [sq]; rewrite FI; change (92 =? 10) with false; change (120 =? 10) with false; cbn [andb]; rewrite ?(NX h XH), ?(NX l XL); reflexivity).
        assert (Fx : fr f [92; 120; h; l] = false) by (cbn [fr]; rewrite FI; change (92 =? 10) with false; change (120 =? 10) with false; cbn [andb]; rewrite ?(NX h XH), ?(NX l XL); reflexivity).
        apply (K [92; 120; h; l] r4 d false); [reflexivity|cbn [length]; lia|now rewrite sq_app, Fx|now rewrite Fx| |].
        * cbn [app close length]. change (92 =? 92) with true. change (120 =? 120) with true. cbv iota. now rewrite XH, XL.
        * rewrite Sx. cbn [app close length]. change (92 =? 92) with true. change (120 =? 120) with true. cbv iota. now rewrite XH, XL.
      + cbn [close]. change (92 =? 92) with true. change (120 =? 120) with true. cbv iota. rewrite XD.
        assert (Q : sq f (92 :: 120 :: h :: l :: r4) ++ e = 92 :: 120 :: h :: (sq (h =? 10) (l :: r4) ++ e)) by (rewrite !sq_plain by reflexivity; reflexivity).
        rewrite Q. destruct (sq (h =? 10) (l :: r4) ++ e) as [|l' y] eqn:Y; cbn [close]; change (92 =? 92) with true; change (120 =? 120) with true; cbv iota; [reflexivity|].
        replace (isxdigit h && isxdigit l') with false; [reflexivity|]. symmetry. destruct (isxdigit h) eqn:XH; [|reflexivity]. cbn [andb] in *.
        destruct (Z.eqb_spec h 10) as [->|]; [discriminate|]. cbn [sq andb app] in Y. injection Y as -> _. exact XD.
    - destruct (escape_ok x) eqn:Ok.
      + assert (NX : (x =? 10) = false) by (destruct (Z.eqb_spec x 10) as [->|]; [discriminate|reflexivity]).
        assert (Sx : sq f [92; x] = [92; x]) by (cbn [sq]; rewrite FI; change (92 =? 10) with false; cbn [andb]; rewrite ?NX; reflexivity).
        assert (Fx : fr f [92; x] = false) by (cbn [fr]; rewrite FI; change (92 =? 10) with false; cbn [andb]; rewrite ?NX; reflexivity).
        apply (K [92; x] r2 d false); [reflexivity|cbn [length]; lia|now rewrite sq_app, Fx|now rewrite Fx| |].
        * cbn [app close length]. change (92 =? 92) with true. cbv iota. now rewrite X, Ok.
        * rewrite Sx. cbn [app close length]. change (92 =? 92) with true. cbv iota. now rewrite X, Ok.
      + cbn [close]. change (92 =? 92) with true. cbv iota. rewrite X, Ok. cbn [sq]. rewrite FI. change (92 =? 10) with false. cbn [sq andb app close]. change (92 =? 92) with true. cbv iota. now rewrite X, Ok. }
  (* one plain character *)
  assert (One : forall d2, close d (c :: r1) = lift 1 (close d2 r1) -> close d (c :: sq (c =? 10) r1 ++ e) = lift 1 (close d2 (sq (c =? 10) r1 ++ e)) ->
    match close d (c :: r1) with
    | Some n => exists a b, c :: r1 = a ++ 34 :: b /\ length a = n /\ close d (sq f (c :: r1) ++ e) = Some (length (sq f a))
    | None => close d (sq f (c :: r1) ++ e) = None
    end).
  { intros d2 C1 C2. apply (K [c] r1 d2 (c =? 10)); cbn [app length sq fr]; rewrite ?FI; auto. }
  destruct ((c =? 36) && (hd 0 r1 =? 123)) eqn:D.
  { destruct r1 as [|x r2]; [cbn in D; lia|]. cbn [hd] in D. assert (c = 36) as -> by lia. assert (x = 123) as -> by lia.
    apply (K [36; 123] r2 (S d) false); [reflexivity|cbn [length]; lia|rewrite sq_app; cbn [fr]; rewrite FI; reflexivity|cbn [fr]; rewrite FI; reflexivity|reflexivity|].
    cbn [sq]. rewrite FI. reflexivity. }
  assert (D' : c <> 10 -> (c =? 36) && (hd 0 (sq (c =? 10) r1 ++ e) =? 123) = false).
  { intros N. rewrite (proj2 (Z.eqb_neq c 10) N), hd_sq_e; auto; lia. }
  cbn [close] in *. rewrite C92 in *. rewrite D in *.
  destruct ((c =? 123) && (0 <? d)%nat) eqn:B1. { apply (One (S d)); [reflexivity|]. rewrite D' by lia. reflexivity. }
  destruct ((c =? 125) && (0 <? d)%nat) eqn:B2. { apply (One (pred d)); [reflexivity|]. rewrite D' by lia. reflexivity. }
  destruct ((c =? 34) && (d =? 0)%nat) eqn:B3.
  { assert (c = 34) as -> by lia. exists [], r1. split; [reflexivity|]. split; [reflexivity|]. cbn [sq]. rewrite FI. cbn [app close length]. rewrite C92, D' by lia. rewrite B1, B2, B3. reflexivity. }
  destruct ((c =? 10) && (d =? 0)%nat) eqn:B4.
  { cbn [sq]. rewrite FI. cbn [app close]. rewrite C92. replace (c =? 36) with false by (symmetry; lia). cbn [andb]. rewrite B1, B2, B3, B4. reflexivity. }
  apply (One d); [reflexivity|]. destruct (Z.eqb_spec c 10) as [->|N]; [|rewrite D' by exact N]; reflexivity.
Qed.
