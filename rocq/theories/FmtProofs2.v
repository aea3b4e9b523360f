(** Proofs about the formatter, part 2: the tokens of a source do not depend on its indentation. *)
From Verif Require Import Base BaseFacts StringsModel EncodingModel LexSpec LexModel LexProofs LexProofs2 LexProofs3 LexProofs4 FmtSpec FmtModel FmtProofs.

Lemma sq_sq s : forall f, sq f (sq f s) = sq f s.
Proof.
  induction s as [|c s IH]; intros f; [reflexivity|]. cbn [sq]. destruct (f && ind c) eqn:E; [apply andb_true_iff in E as [-> _]; apply IH|]. cbn [sq]. rewrite E. now rewrite IH.
Qed.
(** * Tokens within a line *)
Definition ends (t : bytes) : Prop := match t with [] => True | c :: _ => c = 10 end.
Lemma line_split r : exists p t, r = p ++ t /\ ~ In 10 p /\ ends t.
Proof.
  induction r as [|c r (p & t & -> & N & E)]; [exists [], []; repeat split; auto|].
  destruct (Z.eq_dec c 10) as [->|C]; [exists [], (10 :: p ++ t); repeat split; auto|]. exists (c :: p), t. split; [reflexivity|]. split; [|exact E]. intros [|]; congruence.
Qed.
Lemma hd_line v p t : ends t -> v <> 0 -> v <> 10 -> (hd 0 (p ++ t) =? v) = (hd 0 p =? v).
Proof. intros E V W. destruct p as [|c p]; [|reflexivity]. destruct t as [|c t]; [reflexivity|]. cbn in E. subst c. cbn [app hd]. lia. Qed.
Lemma run_line f q t : f 10 = false -> ends t -> run f (q ++ t) = run f q.
Proof. intros F E. induction q as [|c q IH]; cbn [app run]; [destruct t as [|c t]; [reflexivity|cbn in E; subst c; cbn [run]; now rewrite F]|]. now rewrite IH. Qed.
Lemma firstn_line {A} n (q t : list A) : (n <= length q)%nat -> firstn n (q ++ t) = firstn n q.
Proof. intros L. rewrite firstn_app. replace (n - length q)%nat with 0%nat by lia. cbn. apply app_nil_r. Qed.
Lemma skipn_line {A} n (q t : list A) : (n <= length q)%nat -> skipn n (q ++ t) = skipn n q ++ t.
Proof. intros L. rewrite skipn_app. replace (n - length q)%nat with 0%nat by lia. reflexivity. Qed.
Lemma starts_line w : ~ In 10 w -> forall p t, ends t -> starts w (p ++ t) = starts w p.
Proof.
  induction w as [|x w IH]; intros N p t E; [reflexivity|]. destruct p as [|c p]; cbn [app starts].
  - destruct t as [|c t]; [reflexivity|]. cbn in E. subst c. destruct (Z.eqb_spec x 10) as [->|]; [exfalso; apply N; now left|reflexivity].
  - rewrite IH; [reflexivity| |exact E]. intros I; apply N; now right.
Qed.
Lemma decimal_line q t : ends t -> decimal (q ++ t) = decimal q.
Proof.
  intros E. unfold decimal. rewrite run_line by (reflexivity || exact E). pose proof (run_le digit_ q) as L. set (a := run digit_ q) in *. clearbody a.
  rewrite skipn_line by exact L. rewrite hd_line by (exact E || lia). destruct (hd 0 (skipn a q) =? 46) eqn:H; cbn [andb].
  - destruct (skipn a q) as [|x y] eqn:S; [discriminate|]. cbn [app tl].
    assert (Ly : length y = (length q - a - 1)%nat) by (pose proof (skipn_length a q) as Q; rewrite S in Q; cbn [length] in Q; lia).
    assert (La : (a < length q)%nat) by (pose proof (skipn_length a q) as Q; rewrite S in Q; cbn [length] in Q; lia).
    assert (AP : after_point (hd 0 (y ++ t)) = after_point (hd 0 y)) by (destruct y; [destruct t as [|z t]; [reflexivity|cbn in E; subst z; reflexivity]|reflexivity]).
    rewrite AP. rewrite run_line by (reflexivity || exact E). pose proof (run_le digit_ y). destruct (after_point (hd 0 y)); rewrite firstn_line by lia; reflexivity.
  - now rewrite firstn_line.
Qed.
Lemma read_number_line c p t : ends t -> read_number (c :: p ++ t) = read_number (c :: p).
Proof.
  intros E. unfold read_number. cbv zeta. fold (decimal (c :: p ++ t)). fold (decimal (c :: p)). cbn [hd tl]. change (c :: p ++ t) with ((c :: p) ++ t). rewrite decimal_line by exact E.
  rewrite !hd_line by (exact E || lia).
  assert (B : forall f v, f 10 = false -> v <> 0 -> (hd 0 p =? v) = true -> based f (tl (p ++ t)) = based f (tl p)).
  { intros f v F V H. apply hd_cons in H as [p2 ->]; [|exact V]. cbn [app tl]. unfold based. now rewrite run_line. }
  destruct (c =? 48); [|reflexivity].
  destruct (hd 0 p =? 120) eqn:E1; [now apply (B _ 120)|]. destruct (hd 0 p =? 88) eqn:E2; [now apply (B _ 88)|]. cbn [orb].
  destruct (hd 0 p =? 111) eqn:E3; [now apply (B _ 111)|]. destruct (hd 0 p =? 79) eqn:E4; [now apply (B _ 79)|]. cbn [orb].
  destruct (hd 0 p =? 98) eqn:E5; [now apply (B _ 98)|]. destruct (hd 0 p =? 66) eqn:E6; [now apply (B _ 66)|]. reflexivity.
Qed.
Lemma read_number_fits c p n k e : isdigit c = true -> read_number (c :: p) = (n, k, e) -> (n <= length (c :: p))%nat.
Proof.
  intros D. destruct (Z.eqb_spec c 48) as [->|N].
  - destruct (read_number_based (48 :: p) eq_refl) as [(f & Q & E & Hd & K)|E]; rewrite E.
    + cbn [tl hd] in *. destruct p as [|x p]; [contradiction|]. cbn [tl]. unfold based. pose proof (run_le f p). intros G. injection G as <- _ _. cbn [length]. lia.
    + intros H. apply decimal_shape in H as (a & _ & [(_ & H & L)|(b & _ & H & L & _)] & _).
      * rewrite <- L, <- H, firstn_length. lia.
      * rewrite <- L, <- H, firstn_length. lia.
  - rewrite read_number_decimal by (left; cbn [hd]; lia). intros H. apply decimal_shape in H as (a & _ & [(_ & H & L)|(b & _ & H & L & _)] & _); rewrite <- L, <- H, firstn_length; lia.
Qed.
Lemma scan_line c p t : c <> 34 -> c <> 96 -> c <> 39 -> ends t -> scan (c :: p ++ t) = scan (c :: p).
Proof.
  intros N1 N2 N3 E. unfold scan. cbn [hd tl]. rewrite !hd_line by (exact E || lia).
  assert (I : starts (bs "in") (p ++ t) && negb (isalpha (hd 0 (skipn 2 (p ++ t)))) = starts (bs "in") p && negb (isalpha (hd 0 (skipn 2 p)))).
  { rewrite starts_line by (exact E || (cbn; intuition discriminate)). destruct (starts (bs "in") p) eqn:S; [|reflexivity]. apply starts_app in S as [p2 ->].
    change (skipn 2 ((bs "in" ++ p2) ++ t)) with (p2 ++ t). change (skipn 2 (bs "in" ++ p2)) with p2. destruct p2; [destruct t as [|z t]; [reflexivity|cbn in E; subst z; reflexivity]|reflexivity]. }
  rewrite I. clear I. change (c :: p ++ t) with ((c :: p) ++ t). rewrite !starts_line by (exact E || (cbn; intuition discriminate)).
  destruct (c =? 34) eqn:Q1; [lia|]. destruct (c =? 96) eqn:Q2; [lia|]. destruct (c =? 39) eqn:Q3; [lia|].
  rewrite run_line by (reflexivity || exact E). cbv zeta. rewrite firstn_line by apply run_le.
  change ((c :: p) ++ t) with (c :: p ++ t). rewrite read_number_line by exact E.
  destruct (isdigit c) eqn:D; [|reflexivity]. destruct (read_number (c :: p)) as [[n k] e] eqn:R. change (c :: p ++ t) with ((c :: p) ++ t). rewrite firstn_line by (eapply read_number_fits; eauto). reflexivity.
Qed.
Lemma In_spelling x k lit : In x lit -> In x (spelling k lit).
Proof. intros I. destruct k; cbn [spelling]; rewrite ?in_app_iff; auto. Qed.

(** * One token *)
Definition stops (k : kind) (lit : bytes) : Prop := k = ILLEGAL \/ (k = CHAR /\ lit = [10]).
Definition simulated (r s e : bytes) : Prop := exists k lit m k' lit' m',
  scan r = Some (k, lit, m) /\ scan s = Some (k', lit', m') /\
  ((stops k lit /\ stops k' lit') \/
   (~ stops k lit /\ k <> EOF /\ k' = k /\ lit' = sq false lit /\ m = length (spelling k lit) /\ m' = length (spelling k lit') /\ spelling k lit <> [] /\
    exists r', r = spelling k lit ++ r' /\ s = spelling k lit' ++ sq false r' ++ e)).
Lemma ends_sq t e : ends t -> nl e -> ends (sq false t ++ e).
Proof. intros E [->| ->]; destruct t as [|c t]; cbn in *; auto. Qed.
Lemma simulated_line c p t e : c <> 34 -> c <> 96 -> c <> 39 -> c <> 10 -> ~ In 10 p -> ends t -> nl e -> simulated (c :: p ++ t) (c :: p ++ sq false t ++ e) e.
Proof.
  intros N1 N2 N3 N4 N E Ne. destruct (scan_cases c p) as ([[k lit] m] & Sc & Sh). exists k, lit, m, k, lit, m.
  rewrite !scan_line; auto using ends_sq. split; [exact Sc|]. split; [exact Sc|].
  assert (Np : ~ In 10 (c :: p)) by (intros [|]; [congruence|contradiction]).
  assert (K : k = ILLEGAL \/ k <> ILLEGAL) by (destruct k; auto; right; discriminate). destruct K as [->|K]; [left; split; left; reflexivity|right].
  destruct (shape_spells _ _ _ _ _ Sh K) as (KE & M & M1 & r' & R).
  assert (Nl : ~ In 10 lit) by (intros I; apply Np; rewrite R; apply in_app_iff; left; now apply In_spelling).
  assert (Nr : ~ In 10 r') by (intros I; apply Np; rewrite R; apply in_app_iff; now right).
  split; [intros [|[_ ->]]; [contradiction|]; apply Nl; now left|]. split; [exact KE|]. split; [reflexivity|]. rewrite sq_id by exact Nl. split; [reflexivity|]. split; [exact M|]. split; [exact M|].
  split; [destruct (spelling k lit); [cbn in M; lia|discriminate]|].
  exists (r' ++ t). change (c :: p ++ t) with ((c :: p) ++ t). change (c :: p ++ sq false t ++ e) with ((c :: p) ++ sq false t ++ e). rewrite R, <- !app_assoc, sq_line by exact Nr. now rewrite <- app_assoc.
Qed.
Lemma app_same_length {A} (a b c d : list A) : a ++ b = c ++ d -> length a = length c -> a = c /\ b = d.
Proof.
  revert c. induction a as [|x a IH]; intros [|y c] E L; cbn [length] in L; try lia; [auto|]. cbn [app] in E. injection E as -> E. destruct (IH c E) as [-> ->]; [lia|auto].
Qed.
Lemma simulated_string r e : nl e -> simulated (34 :: r) (34 :: sq false r ++ e) e.
Proof.
  intros Ne. unfold simulated. rewrite !scan_34. pose proof (scan_string_close r) as H. pose proof (scan_string_close (sq false r ++ e)) as H'. pose proof (close_sq r 0 false e Ne) as C.
  destruct (close 0 r) as [n|].
  - destruct H as (a & b & -> & L & ->). destruct C as (a1 & b1 & E1 & L1 & Cq). destruct (app_same_length _ _ _ _ E1) as [<- Q]; [lia|]. injection Q as <-. rewrite Cq in H'.
    destruct H' as (a' & b' & E' & L' & ->). rewrite sq_app, sq_plain in E' by reflexivity. change (34 =? 10) with false in E'. rewrite <- app_assoc in E'.
    destruct (app_same_length _ _ _ _ E') as [<- Q]; [lia|]. cbn [app] in Q. injection Q as <-. clear E' E1 L' Cq.
    exists STRING, a, (1 + n + 1)%nat, STRING, (sq false a), (1 + length (sq false a) + 1)%nat. split; [reflexivity|]. split; [reflexivity|]. right.
    split; [intros [|[? _]]; discriminate|]. split; [discriminate|]. split; [reflexivity|]. split; [reflexivity|]. cbn [spelling].
    split; [rewrite !app_length; cbn [length]; lia|]. split; [rewrite !app_length; cbn [length]; lia|]. split; [discriminate|]. exists b.
    split; [cbn [app]; now rewrite <- app_assoc|]. rewrite sq_app, sq_plain by reflexivity. change (34 =? 10) with false. cbn [app]. rewrite <- !app_assoc. reflexivity.
  - destruct H as (x & n & ->). rewrite C in H'. destruct H' as (x' & n' & ->). do 6 eexists. split; [reflexivity|]. split; [reflexivity|]. left. split; left; reflexivity.
Qed.
Lemma no_in_run v a : ~ In v a -> Forall (fun c => negb (c =? v) = true) a.
Proof. intros N. apply Forall_forall. intros x I. destruct (Z.eqb_spec x v) as [->|]; [contradiction|reflexivity]. Qed.
Lemma simulated_raw r e : nl e -> simulated (96 :: r) (96 :: sq false r ++ e) e.
Proof.
  intros Ne. unfold simulated. rewrite !scan_96. unfold scan_raw.
  destruct (run_spec (fun c => negb (c =? 96)) r) as (a & b & -> & L & F & Nb). rewrite <- L, skipn_len, firstn_len.
  assert (NI : ~ In 96 a) by (intros I; rewrite Forall_forall in F; apply F in I; discriminate).
  assert (NI' : ~ In 96 (sq false a)) by (intros I; apply NI; eapply sq_In; exact I).
  destruct b as [|x b].
  - rewrite app_nil_r. cbn [hd]. change (0 =? 96) with false. cbv iota.
    rewrite <- (app_nil_r (sq false a ++ e)), (run_app _ (sq false a ++ e) []); [|apply no_in_run; rewrite in_app_iff; intros [|I]; [contradiction|]; destruct Ne as [->| ->]; cbn in I; intuition discriminate|exact Logic.I].
    rewrite skipn_len. cbn [hd]. change (0 =? 96) with false. cbv iota. do 6 eexists. split; [reflexivity|]. split; [reflexivity|]. left. split; left; reflexivity.
  - assert (x = 96) as -> by lia. cbn [hd]. change (96 =? 96) with true. cbv iota. rewrite sq_app, sq_plain by reflexivity. change (96 =? 10) with false. rewrite <- app_assoc. cbn [app].
    rewrite (run_app _ (sq false a)); [|now apply no_in_run|reflexivity]. rewrite skipn_len, firstn_len. cbn [hd]. change (96 =? 96) with true. cbv iota.
    do 6 eexists. split; [reflexivity|]. split; [reflexivity|]. right.
    split; [intros [|[? _]]; discriminate|]. split; [discriminate|]. split; [reflexivity|]. split; [reflexivity|]. cbn [spelling].
    split; [rewrite !app_length; cbn [length]; lia|]. split; [rewrite !app_length; cbn [length]; lia|]. split; [discriminate|]. exists b.
    split; cbn [app]; now rewrite <- !app_assoc.
Qed.
Lemma char_kind r k lit m : scan_char r = (k, lit, m) -> k = CHAR \/ k = ILLEGAL.
Proof.
  unfold scan_char, illegal. destruct (if hd 0 r =? 92 then _ else _) as [n0 e0]. cbv zeta. destruct (if negb (hd 0 (skipn n0 r) =? 39) && _ && _ then _ else _) as [n [x|]];
  destruct (hd 0 (skipn n r) =? 39); intros H; injection H as <- _ _; auto.
Qed.
Lemma char_line x p t lit m : x <> 10 -> ~ In 10 p -> ends t -> scan_char ((x :: p) ++ t) = (CHAR, lit, m) -> exists p2, x :: p = lit ++ 39 :: p2 /\ lit <> [10].
Proof.
  intros X N E H. destruct (char_shape _ _ _ H) as [(y & r2 & Q & -> & Y)|(y & r2 & Q & -> & Y)]; cbn [app] in Q; injection Q as -> Q.
  - destruct p as [|z p]; cbn [app] in Q.
    + subst t. cbn in E. discriminate.
    + injection Q as -> _. exists p. split; [reflexivity|]. congruence.
  - destruct p as [|z p]; cbn [app] in Q.
    + subst t. cbn in E. subst y. discriminate.
    + injection Q as -> Q. destruct p as [|w p]; cbn [app] in Q; [subst t; discriminate|]. injection Q as -> _. exists p. split; [reflexivity|discriminate].
Qed.
Lemma simulated_char r e : nl e -> simulated (39 :: r) (39 :: sq false r ++ e) e.
Proof.
  intros Ne. unfold simulated. rewrite !scan_39.
  assert (Both : forall s s', (forall k lit m, scan_char s = (k, lit, m) -> stops k lit) -> (forall k lit m, scan_char s' = (k, lit, m) -> stops k lit) ->
    exists k lit m k' lit' m', Some (scan_char s) = Some (k, lit, m) /\ Some (scan_char s') = Some (k', lit', m') /\ stops k lit /\ stops k' lit').
  { intros s s' H H'. destruct (scan_char s) as [[k lit] m] eqn:A. destruct (scan_char s') as [[k' lit'] m'] eqn:B. exists k, lit, m, k', lit', m'. repeat split; eauto. }
  assert (Nl : forall r2 k lit m, scan_char (10 :: r2) = (k, lit, m) -> stops k lit).
  { intros r2 k lit m H. destruct (char_kind _ _ _ _ H) as [->| ->]; [|left; reflexivity]. destruct (char_shape _ _ _ H) as [(y & r3 & Q & -> & Y)|(y & r3 & Q & -> & Y)]; [|discriminate].
    injection Q as <- _. right. auto. }
  assert (Em : forall k lit m, scan_char [] = (k, lit, m) -> stops k lit) by (intros k lit m H; injection H as <- _ _; left; reflexivity).
  destruct (line_split r) as (p & t & -> & N & E). destruct p as [|x p].
  - cbn [app]. destruct t as [|c t].
    + destruct (Both [] (sq false [] ++ e)) as (k & lit & m & k' & lit' & m' & A & B & C & D); [exact Em|destruct Ne as [->| ->]; [exact Em|exact (Nl [])]|]. exists k, lit, m, k', lit', m'. auto.
    + cbn in E. subst c. destruct (Both (10 :: t) (sq false (10 :: t) ++ e)) as (k & lit & m & k' & lit' & m' & A & B & C & D); [apply Nl|cbn [sq andb app]; apply Nl|]. exists k, lit, m, k', lit', m'. auto.
  - assert (X : x <> 10) by (intros ->; apply N; now left). assert (Np : ~ In 10 p) by (intros I; apply N; now right).
    rewrite sq_line by exact N. rewrite <- app_assoc. pose proof (ends_sq t e E Ne) as E'. set (t' := sq false t ++ e) in *.
    destruct (scan_char ((x :: p) ++ t)) as [[k lit] m] eqn:A. destruct (scan_char ((x :: p) ++ t')) as [[k' lit'] m'] eqn:B. exists k, lit, m, k', lit', m'. split; [reflexivity|]. split; [reflexivity|].
    destruct (char_kind _ _ _ _ A) as [->| ->].
    + right. destruct (char_line x p t lit m X Np E A) as (p2 & Ep & Ln). pose proof (char_keeps _ _ _ (p2 ++ t) A) as A1. pose proof (char_keeps _ _ _ (p2 ++ t') A) as A2.
      rewrite Ep, <- app_assoc in A, B. cbn [app] in A, B. rewrite A in A1. rewrite B in A2. injection A1 as ->. injection A2 as -> -> ->.
      assert (Nlit : ~ In 10 lit) by (intros I; apply N; rewrite Ep; apply in_app_iff; now left).
      assert (Np2 : ~ In 10 p2) by (intros I; apply N; rewrite Ep; apply in_app_iff; right; now right).
      split; [intros [|[_ ?]]; [discriminate|contradiction]|]. split; [discriminate|]. split; [reflexivity|]. rewrite sq_id by exact Nlit. split; [reflexivity|]. cbn [spelling].
      split; [rewrite !app_length; cbn [length]; lia|]. split; [rewrite !app_length; cbn [length]; lia|]. split; [discriminate|]. exists (p2 ++ t). rewrite sq_line by exact Np2. fold t'.
      change (39 :: x :: p ++ t) with (39 :: (x :: p) ++ t). change (39 :: x :: p ++ t') with (39 :: (x :: p) ++ t'). rewrite Ep. unfold t'. split; cbn [app]; rewrite <- ?app_assoc; cbn [app]; now rewrite <- ?app_assoc.
    + left. split; [left; reflexivity|]. destruct (char_kind _ _ _ _ B) as [->| ->]; [|left; reflexivity]. exfalso.
      destruct (char_line x p t' lit' m' X Np E' B) as (p2 & Ep & Ln). pose proof (char_keeps _ _ _ (p2 ++ t) B) as A1. rewrite Ep, <- app_assoc in A. cbn [app] in A. rewrite A in A1. discriminate.
Qed.
Lemma simulates c r e : ind c = false -> c <> 10 -> nl e -> simulated (c :: r) (c :: sq false r ++ e) e.
Proof.
  intros I C Ne. destruct (Z.eq_dec c 34) as [->|N1]; [now apply simulated_string|]. destruct (Z.eq_dec c 96) as [->|N2]; [now apply simulated_raw|]. destruct (Z.eq_dec c 39) as [->|N3]; [now apply simulated_char|].
  destruct (line_split r) as (p & t & -> & N & E). rewrite sq_line by exact N. rewrite <- app_assoc. now apply simulated_line.
Qed.

(** * All the tokens *)
Definition stop (t : token) : option bool :=
  match tkind t with ILLEGAL => Some false | EOF => Some true | CHAR => match literal t with [c] => if c =? 10 then Some false else None | _ => None end | _ => None end.
Fixpoint kl (ts : list token) : list (kind * bytes * Z) * bool :=
  match ts with
  | [] => ([], false)
  | t :: ts => match stop t with Some b => ([], b) | None => ((tkind t, sq false (literal t), tline t) :: fst (kl ts), snd (kl ts)) end
  end.
Lemma stop_stops k lit l c g : stops k lit -> stop (Tok k lit l c g) = Some false.
Proof. intros [->|[-> ->]]; reflexivity. Qed.
Lemma stop_none k lit l c g : ~ stops k lit -> k <> EOF -> stop (Tok k lit l c g) = None.
Proof.
  intros N E. unfold stop. cbn [tkind literal]. destruct k; try reflexivity; try contradiction; [exfalso; apply N; now left|].
  destruct lit as [|x [|y lit]]; try reflexivity. destruct (Z.eqb_spec x 10) as [->|]; [|reflexivity]. exfalso. apply N. right. auto.
Qed.
Lemma sq_CHAR lit : sq false lit = [10] -> exists w, lit = 10 :: w /\ Forall indent_char w.
Proof.
  destruct lit as [|x lit]; [discriminate|]. cbn [sq andb]. intros H. injection H as -> H. exists lit. split; [reflexivity|].
  cbn in H. clear -H. induction lit as [|c lit IH]; [constructor|]. cbn [sq andb] in H. destruct (ind c) eqn:I; [|discriminate]. constructor; [unfold ind in I; unfold indent_char; lia|auto].
Qed.
Lemma next_at pre g c r1 k lit m : gap False g -> settled (c :: r1) -> scan (c :: r1) = Some (k, lit, m) ->
  exists col w, next_token (at_ pre (g ++ c :: r1)) = Some (Tok k lit (1 + newlines (pre ++ g)) col w, reads m (at_ (pre ++ g) (c :: r1))).
Proof.
  intros G St Sc. unfold next_token. rewrite at_rest. assert (G' : gap (c :: r1 = []) g) by (eapply gap_mono; [|exact G]; intros []).
  rewrite (skip_exact _ St g G' (S (length (g ++ c :: r1)))) by lia. rewrite at_reads, at_rest. rewrite Sc. eexists _, _.
  assert (L : line (at_ (pre ++ g) (c :: r1)) = 1 + newlines (pre ++ g)). { unfold at_. cbn [hd]. destruct St as [B _]. destruct (Z.eqb_spec c 10) as [->|]; [discriminate|reflexivity]. }
  rewrite L. reflexivity.
Qed.
Lemma next_eof pre g : gap True g -> exists l col w s', next_token (at_ pre g) = Some (Tok EOF [] l col w, s').
Proof.
  intros G. unfold next_token. rewrite at_rest. pose proof (skip_exact [] Logic.I g) as Sk. rewrite app_nil_r in Sk.
  assert (G' : gap (@nil Z = []) g) by (eapply gap_mono; [|exact G]; auto). rewrite (Sk G' (S (length g))) by lia.
  replace (reads (length g) (at_ pre g)) with (at_ (pre ++ g) []) by (rewrite <- at_reads, app_nil_r; reflexivity). rewrite at_rest. do 4 eexists. reflexivity.
Qed.
Lemma next_open pre g body : gap False g -> (forall a b, body <> a ++ bs "*/" ++ b) -> exists lit l col w s', next_token (at_ pre (g ++ bs "/*" ++ body)) = Some (Tok ILLEGAL lit l col w, s').
Proof. intros G N. unfold next_token. rewrite at_rest. rewrite (skip_open body N g G) by lia. do 5 eexists. reflexivity. Qed.
Lemma tokens_step fuel s t s' ts : next_token s = Some (t, s') -> tkind t <> EOF -> tokens (S fuel) s = Some ts -> exists ts', tokens fuel s' = Some ts' /\ ts = t :: ts'.
Proof. intros E N. cbn [tokens]. rewrite E. destruct (tokens fuel s') as [l|]; destruct (tkind t); intros H; try discriminate; try contradiction; injection H as <-; eauto. Qed.
Lemma tokens_eof fuel s t s' ts : next_token s = Some (t, s') -> tkind t = EOF -> tokens (S fuel) s = Some ts -> ts = [t].
Proof. intros E N. cbn [tokens]. rewrite E, N. congruence. Qed.
Lemma newlines_spelling k lit lit' : newlines lit = newlines lit' -> newlines (spelling k lit) = newlines (spelling k lit').
Proof. intros E. destruct k; cbn [spelling]; rewrite ?newlines_app; lia. Qed.
Lemma tokens_sim : forall fuel s pre f fuel' pre' e ts ts', newlines pre = newlines pre' -> nl e ->
  tokens fuel (at_ pre s) = Some ts -> tokens fuel' (at_ pre' (sq f s ++ e)) = Some ts' -> kl ts = kl ts'.
Proof.
  induction fuel as [|fuel IH]; intros s pre f fuel' pre' e ts ts' Np Ne; [discriminate|]. destruct fuel' as [|fuel']; [discriminate|].
  destruct (next_spec pre s) as (t & s' & Nt & H). destruct H as [(K & Li & G & P)|[(K & Li & R & g & body & E & G & X)|(g & c & r1 & k & lit & m & E & G & St & Sc & _ & _)]].
  - destruct (next_eof pre' (sq f s ++ e)) as (l & col & w & s2 & N2); [apply gap_end; [now apply gap_sq|exact Ne]|].
    intros A B. pose proof (tokens_eof _ _ _ _ _ Nt K A) as ->. pose proof (tokens_eof _ _ _ _ _ N2 eq_refl B) as ->. cbn [kl]. unfold stop. rewrite K. reflexivity.
  - subst s. rewrite sq_app. change (bs "/*" ++ body) with (47 :: 42 :: body). rewrite !sq_plain by reflexivity. change (47 =? 10) with false. change (42 =? 10) with false. rewrite <- app_assoc.
    change ((47 :: 42 :: sq false body) ++ e) with (bs "/*" ++ sq false body ++ e).
    destruct (next_open pre' (sq f g) (sq false body ++ e)) as (li & l & col & w & s2 & N2); [now apply gap_sq| |].
    { intros a b Q. assert (Q2 : exists b2, sq false body = a ++ 42 :: 47 :: b2).
      { destruct Ne as [->| ->]; [rewrite app_nil_r in Q; exists b; exact Q|]. destruct b as [|z b _] using rev_ind.
        - exfalso. change (a ++ bs "*/" ++ []) with (a ++ [42] ++ [47]) in Q. rewrite app_assoc in Q. apply app_inj_tail in Q as [_ Q]. discriminate.
        - rewrite !app_assoc in Q. apply app_inj_tail in Q as [Q _]. exists b. rewrite Q, <- app_assoc. reflexivity. }
      destruct Q2 as [b2 Q2]. apply sq_pair in Q2 as (a' & b' & -> & _); [|lia]. exact (X a' b' eq_refl). }
    intros A B. destruct (tokens_step _ _ _ _ _ Nt ltac:(congruence) A) as (u & _ & ->). destruct (tokens_step _ _ _ _ _ N2 ltac:(discriminate) B) as (u' & _ & ->). cbn [kl]. unfold stop. rewrite K. reflexivity.
  - subst s. assert (Ic : ind c = false /\ c <> 10) by (destruct St as [Bl _]; unfold is_blank in Bl; unfold ind; split; lia). destruct Ic as [Ic C10].
    rewrite sq_app, sq_plain by exact Ic. destruct (Z.eqb_spec c 10) as [|_]; [contradiction|]. rewrite <- app_assoc. cbn [app].
    assert (St' : settled (c :: sq false r1 ++ e)).
    { destruct St as [Bl Sl]. split; [exact Bl|]. intros [Q1 Q2]. apply Sl. split; [exact Q1|]. pose proof (hd_sq_e 47 r1 e Ne). pose proof (hd_sq_e 42 r1 e Ne). lia. }
    destruct (simulates c r1 e Ic C10 Ne) as (k1 & lit1 & m1 & k' & lit' & m' & Sc1 & Sc' & H). rewrite Sc in Sc1. injection Sc1 as <- <- <-.
    destruct (next_at pre g c r1 k lit m G St Sc) as (co1 & w1 & N1). rewrite N1 in Nt. injection Nt as <- <-.
    destruct (next_at pre' (sq f g) c _ k' lit' m' (gap_sq False g G f) St' Sc') as (co2 & w2 & N2). intros A B.
    destruct H as [[S1 S2]|(NS & NE & -> & -> & M & M' & _ & r' & R & R')].
    + assert (k <> EOF /\ k' <> EOF) as [NE NE'] by (split; [destruct S1 as [->|[-> _]]|destruct S2 as [->|[-> _]]]; discriminate).
      destruct (tokens_step _ _ _ _ _ N1 NE A) as (u & _ & ->). destruct (tokens_step _ _ _ _ _ N2 NE' B) as (u' & _ & ->). cbn [kl]. now rewrite !stop_stops.
    + destruct (tokens_step _ _ _ _ _ N1 NE A) as (u & Tu & ->). destruct (tokens_step _ _ _ _ _ N2 NE B) as (u' & Tu' & ->).
      rewrite R, M, at_reads in Tu. rewrite R', M', at_reads in Tu'. cbn [kl]. rewrite stop_none by assumption.
      assert (NS' : ~ stops k (sq false lit)).
      { intros [->|[-> Q]]; [apply NS; now left|]. apply sq_CHAR in Q as (w & -> & Fw). destruct w as [|w0 w]; [apply NS; right; auto|].
        rewrite R in Sc. cbn [spelling app] in Sc. rewrite scan_39 in Sc. injection Sc as Sc. destruct (char_shape _ _ _ Sc) as [(x & r2 & _ & Q & _)|(x & r2 & _ & Q & _)]; discriminate. }
      rewrite stop_none by assumption. cbn [tkind literal tline].
      assert (Nn : newlines ((pre ++ g) ++ spelling k lit) = newlines ((pre' ++ sq f g) ++ spelling k (sq false lit))).
      { rewrite !newlines_app, newlines_sq, Np. f_equal. apply newlines_spelling. now rewrite newlines_sq. }
      rewrite (IH _ _ _ _ _ _ _ _ Nn Ne Tu Tu'). rewrite !newlines_app, newlines_sq, Np. f_equal. f_equal. f_equal. f_equal.
      symmetry. apply sq_sq.
Qed.
Lemma lex_sim s f e ts ts' : f = true -> nl e -> lex s = Some ts -> lex (sq f s ++ e) = Some ts' -> kl ts = kl ts'.
Proof. intros -> Ne. unfold lex. rewrite (at_create s), (at_create (sq true s ++ e)). now apply tokens_sim. Qed.
