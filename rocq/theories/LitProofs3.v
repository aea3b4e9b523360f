(** Proofs about string and character literals: lengths, raw text, interpolated text, tokens. *)
From Verif Require Import Base BaseFacts StringsModel EncodingModel LexSpec LexModel LexProofs LexProofs2 LexProofs3 LexProofs4 FmtProofs LitSpec LitModel LitSpec2 LitProofs LitProofs2.
Ltac Zify.zify_post_hook ::= Z.div_mod_to_equations.
Notation W := (flat_map written).

(** * Question marks *)
Lemma not63 c s : c <> 63 -> qq (c :: s) = qq s.
Proof. intros C. cbn [qq]. replace (c =? 63) with false by lia. reflexivity. Qed.
Lemma body_qq s : qq s = false -> qq (body s) = false /\ (hd 0 (body s) =? 63) = (hd 0 s =? 63).
Proof.
  induction s as [s IH] using list_len_ind. destruct s as [|c r]; [auto|]. intros Q. cbn [qq] in Q. apply orb_false_iff in Q as [A B].
  destruct (c =? 92) eqn:C.
  - apply Z.eqb_eq in C as ->. destruct r as [|e r2]; [auto|]. cbn [qq] in B. apply orb_false_iff in B as [A2 B2].
    assert (O : qq (92 :: body (e :: r2)) = false /\ (hd 0 (92 :: body (e :: r2)) =? 63) = (hd 0 (92 :: e :: r2) =? 63)).
    { destruct (IH (e :: r2)) as [I _]; [cbn; lia|cbn [qq]; now rewrite A2, B2|]. rewrite not63 by discriminate. auto. }
    destruct ((e =? 120) && isxdigit (hd 0 r2)) eqn:X.
    + apply andb_true_iff in X as [X1 X2]. apply Z.eqb_eq in X1 as ->. destruct r2 as [|h r3]; [discriminate|]. cbn [hd] in X2.
      assert (H63 : h <> 63) by (intros ->; discriminate). rewrite not63 in B2 by exact H63.
      destruct (isxdigit (hd 0 r3)) eqn:X3.
      * destruct r3 as [|l r4]; [discriminate|]. cbn [hd] in X3. assert (L63 : l <> 63) by (intros ->; discriminate). rewrite not63 in B2 by exact L63.
        destruct (IH r4) as [I _]; [cbn; lia|exact B2|]. rewrite body_hex2 by assumption. split; [|reflexivity]. repeat rewrite not63 by (discriminate || assumption).
        unfold break_. destruct (isxdigit (hd 0 r4)); cbn [app]; repeat rewrite not63 by discriminate; exact I.
      * rewrite body_hex1 by assumption. destruct (IH r3) as [I _]; [cbn; lia|exact B2|]. split; [|reflexivity]. repeat rewrite not63 by (discriminate || assumption). exact I.
    + destruct (e =? 36) eqn:D.
      * apply Z.eqb_eq in D as ->. rewrite body_dollar. destruct (IH r2) as [I _]; [cbn; lia|exact B2|]. rewrite not63 by discriminate. auto.
      * rewrite body_92; [exact O| |]; cbn [hd tl]; [lia|]. intros ->. exact X.
  - rewrite body_plain by lia. destruct (IH r) as [I J]; [cbn; lia|exact B|]. destruct (c =? 10) eqn:C1; [cbn [app hd]; repeat rewrite not63 by discriminate; split; [exact I|lia]|].
    destruct (c =? 13) eqn:C2; [cbn [app hd]; repeat rewrite not63 by discriminate; split; [exact I|lia]|]. cbn [app hd qq]. rewrite J, A, I. auto.
Qed.
Lemma quoted_string s b : qq s = false -> c_chars In_ (s ++ [34]) = Some b -> c_string (quoted s) = Some b.
Proof.
  intros Q C. unfold c_string, quoted. rewrite trigraphs_id; [exact C|]. cbn [app]. rewrite not63 by discriminate. now apply qq_snoc.
Qed.
Lemma body_string its : Forall item_ok its -> no_neighbours bad_dollar its -> no_neighbours bad_octal its -> free_of (bs "??") (W its) ->
  c_string (quoted (body (W its))) = Some (map denoted its).
Proof. intros F D O Q. apply quoted_string; [apply body_qq, qq_free, Q|]. now apply body_chars. Qed.

(** * Lengths *)
Definition zero_item (i : item) : bool := denoted i =? 0.
Lemma measure_plain c r : c <> 92 -> measure (c :: r) = let '(n, l) := measure r in (n, l + 1).
Proof. intros C. destruct r as [|e r]; [reflexivity|]. cbn [measure]. replace (c =? 92) with false by lia. reflexivity. Qed.
Lemma measure_escape e r : e <> 120 -> measure (92 :: e :: r) = let '(n, l) := measure r in ((if e =? 48 then true else n), l + 1).
Proof.
  intros C. change (measure (92 :: e :: r)) with (if e =? 48 then let '(n, l) := measure r in (true, l + 1) else if e =? 120 then
    match r with h :: l :: r4 => if (h =? 48) && (l =? 48) then let '(n, l) := measure r4 in (true, l + 1) else let '(n, l) := measure r in (n, l + 1) | _ => let '(n, l) := measure r in (n, l + 1) end
    else let '(n, l) := measure r in (n, l + 1)).
  replace (e =? 120) with false by lia. destruct (e =? 48); reflexivity.
Qed.
Lemma measure_hex h l r : h <> 92 -> l <> 92 -> measure (92 :: 120 :: h :: l :: r) = let '(n, k) := measure r in if (h =? 48) && (l =? 48) then (true, k + 1) else (n, k + 3).
Proof.
  intros H L. change (measure (92 :: 120 :: h :: l :: r)) with (if (h =? 48) && (l =? 48) then let '(n, l) := measure r in (true, l + 1) else let '(n, k) := measure (h :: l :: r) in (n, k + 1)).
  rewrite measure_plain by exact H. rewrite measure_plain by exact L. destruct (measure r) as [n k]. destruct ((h =? 48) && (l =? 48)); [reflexivity|]. f_equal. lia.
Qed.
Definition width (i : item) : Z := match i with HexEscape h l _ => if (h =? 48) && (l =? 48) then 1 else 3 | _ => 1 end.
Lemma hex_zero h l v : item_ok (HexEscape h l v) -> (v =? 0) = ((h =? 48) && (l =? 48)).
Proof.
  intros (x & y & Hx & Hy & ->). inversion Hx; inversion Hy; subst; apply eq_true_iff_eq; rewrite andb_true_iff, !Z.eqb_eq; lia.
Qed.
Lemma measure_items its : Forall item_ok its -> measure (W its) = (existsb zero_item its, fold_right (fun i n => n + width i) 0 its).
Proof.
  induction its as [|i its IH]; intros F; [reflexivity|]. apply Forall_cons_iff in F as [O F]. specialize (IH F). cbn [flat_map existsb fold_right]. destruct i as [c|e v|h l v]; cbn [written app].
  - cbn in O. rewrite measure_plain by tauto. rewrite IH. unfold zero_item at 2. cbn [denoted width]. replace (c =? 0) with false by lia. reflexivity.
  - assert (e <> 120 /\ (v =? 0) = (e =? 48)) as [X V]. { destruct (escape_cases _ _ O) as [[-> ->]|[[-> ->]|[[-> ->]|H]]]; split; try discriminate; try reflexivity; [tauto|lia]. }
    rewrite measure_escape by exact X. rewrite IH. unfold zero_item at 2. cbn [denoted width]. rewrite V. destruct (e =? 48); reflexivity.
  - pose proof (hex_zero _ _ _ O) as V. destruct O as (x & y & Hx & Hy & _). apply digit_hex in Hx as (_ & _ & _ & Nx & _). apply digit_hex in Hy as (_ & _ & _ & Ny & _).
    rewrite measure_hex by assumption. rewrite IH. unfold zero_item at 2. cbn [denoted width]. rewrite V. destruct ((h =? 48) && (l =? 48)); reflexivity.
Qed.
Lemma width_sum its : Forall item_ok its -> Forall (fun i => ~ other_hex i) its -> fold_right (fun i n => n + width i) 0 its = Z.of_nat (length its).
Proof.
  induction its as [|i its IH]; intros F H; [reflexivity|]. apply Forall_cons_iff in F as [O F]. apply Forall_cons_iff in H as [N H]. cbn [fold_right length]. rewrite IH by assumption.
  assert (width i = 1); [|lia]. destruct i as [c|e v|h l v]; [reflexivity|reflexivity|]. cbn [width]. rewrite <- (hex_zero _ _ _ O). destruct (v =? 0) eqn:V; [reflexivity|]. exfalso. apply N. exists h, l, v. split; [reflexivity|lia].
Qed.
Lemma upto_all b : ~ In 0 b -> upto_nul b = b.
Proof. induction b as [|c b IH]; intros N; [reflexivity|]. cbn [upto_nul]. cbn in N. replace (c =? 0) with false by lia. rewrite IH by tauto. reflexivity. Qed.
Lemma zero_items its : existsb zero_item its = false -> ~ In 0 (map denoted its).
Proof.
  intros E I. apply in_map_iff in I as (i & D & I). assert (X : existsb zero_item its = true) by (apply existsb_exists; exists i; split; [exact I|unfold zero_item; lia]). congruence.
Qed.
Lemma emit_items top its : Forall item_ok its -> no_neighbours bad_dollar its -> no_neighbours bad_octal its -> free_of (bs "??") (W its) ->
  (top = false -> In 0 (map denoted its) -> Forall (fun i => ~ other_hex i) its) -> value_of (emit_string top false (W its)) = Some (map denoted its).
Proof.
  intros F D O Q H. pose proof (body_string its F D O Q) as B. unfold emit_string. rewrite (measure_items its F). destruct top; cbn [negb andb]; [rewrite andb_false_r; exact B|].
  rewrite andb_true_r. destruct (existsb zero_item its) eqn:E.
  - assert (I0 : In 0 (map denoted its)). { apply existsb_exists in E as (i & I & V). apply in_map_iff. exists i. split; [unfold zero_item in V; lia|exact I]. }
    rewrite width_sum by auto. cbn [value_of]. rewrite B, map_length. replace (Z.of_nat (length its) <=? Z.of_nat (length its) + 1) with true by (symmetry; apply Z.leb_le; lia).
    rewrite Nat2Z.id. rewrite <- (map_length denoted its), firstn_len. reflexivity.
  - cbn [value_of]. rewrite B. cbn [option_map]. rewrite upto_all by (now apply zero_items). reflexivity.
Qed.

(** * Raw text *)
Lemma raw_chars s : c_chars In_ (raw_body s ++ [34]) = Some s.
Proof.
  induction s as [|c s IH]; [reflexivity|]. unfold raw_body in *. cbn [flat_map]. unfold raw_char at 1.
  destruct (c =? 92) eqn:A; [cbn [app]; rewrite (in_escape 92 92), IH by reflexivity; cbn; do 2 f_equal; lia|].
  destruct (c =? 34) eqn:B; [cbn [app]; rewrite (in_escape 34 34), IH by reflexivity; cbn; do 2 f_equal; lia|].
  destruct (c =? 10) eqn:C; [cbn [app]; rewrite (in_escape 110 10), IH by reflexivity; cbn; do 2 f_equal; lia|].
  destruct (c =? 13) eqn:D; [cbn [app]; rewrite (in_escape 114 13), IH by reflexivity; cbn; do 2 f_equal; lia|].
  destruct (c =? 9) eqn:E; [cbn [app]; rewrite (in_escape 116 9), IH by reflexivity; cbn; do 2 f_equal; lia|].
  cbn [app]. rewrite in_plain, IH by lia. reflexivity.
Qed.
Lemma raw_qq s : qq s = false -> qq (raw_body s) = false /\ (hd 0 (raw_body s) =? 63) = (hd 0 s =? 63).
Proof.
  induction s as [|c s IH]; [auto|]. cbn [qq]. intros Q. apply orb_false_iff in Q as [A B]. destruct (IH B) as [I J]. unfold raw_body in *. cbn [flat_map hd]. unfold raw_char at 1 3.
  repeat match goal with |- context[if ?c =? ?k then _ else _] => destruct (c =? k) eqn:?; [cbn [app hd]; repeat rewrite not63 by discriminate; split; [exact I|lia]|] end.
  cbn [app hd qq]. rewrite J, A, I. auto.
Qed.
Lemma measure_raw s : free_of (bs "\0") s -> free_of (bs "\x00") s -> fst (measure s) = false.
Proof.
  change (bs "\0") with [92; 48]. change (bs "\x00") with [92; 120; 48; 48]. induction s as [s IH] using list_len_ind. intros A B. destruct s as [|c r]; [reflexivity|].
  assert (T : forall b t p, c :: r = p ++ t -> free_of b (c :: r) -> free_of b t). { intros b t p E H x y E'. apply (H (p ++ x) y). rewrite E, E', app_assoc. reflexivity. }
  assert (G : forall t p, c :: r = p ++ t -> (length t < length (c :: r))%nat -> fst (let '(n, l) := measure t in (n, l + 1)) = false).
  { intros t p E L. pose proof (IH t L (T _ _ _ E A) (T _ _ _ E B)) as X. destruct (measure t). exact X. }
  destruct (c =? 92) eqn:C.
  - apply Z.eqb_eq in C as ->. destruct r as [|e r2]; [reflexivity|]. destruct (e =? 48) eqn:E0; [exfalso; apply (A [] r2); cbn; do 2 f_equal; lia|].
    destruct (e =? 120) eqn:E1.
    + apply Z.eqb_eq in E1 as ->. destruct r2 as [|h [|l r4]]; try apply (G _ [92; 120]); try reflexivity; try (cbn; lia).
      change (measure (92 :: 120 :: h :: l :: r4)) with (if (h =? 48) && (l =? 48) then let '(n, l) := measure r4 in (true, l + 1) else let '(n, k) := measure (h :: l :: r4) in (n, k + 1)).
      destruct ((h =? 48) && (l =? 48)) eqn:E2; [exfalso; apply (B [] r4); cbn; do 3 f_equal; [lia|f_equal; lia]|]. apply (G _ [92; 120]); [reflexivity|cbn; lia].
    + rewrite measure_escape by lia. rewrite E0. apply (G _ [92; e]); [reflexivity|cbn; lia].
  - rewrite measure_plain by lia. apply (G _ [c]); [reflexivity|cbn; lia].
Qed.
Lemma emit_raw top s : ~ In 0 s -> free_of (bs "??") s -> (top = false -> free_of (bs "\0") s /\ free_of (bs "\x00") s) -> value_of (emit_string top true s) = Some s.
Proof.
  intros Z0 Q M. pose proof (quoted_string _ _ (proj1 (raw_qq s (qq_free s Q))) (raw_chars s)) as B. unfold emit_string. destruct (measure s) as [n l] eqn:E. destruct top; cbn [negb].
  - rewrite andb_false_r. exact B.
  - destruct (M eq_refl) as [X Y]. pose proof (measure_raw s X Y) as H. rewrite E in H. cbn [fst] in H. subst n. cbn [andb value_of]. rewrite B. cbn [option_map]. now rewrite upto_all.
Qed.

(** * Text of interpolated strings *)
Lemma part_qq s : qq s = false -> qq (part s) = false /\ (hd 0 (part s) =? 63) = (hd 0 s =? 63).
Proof.
  induction s as [s IH] using list_len_ind. destruct s as [|c r]; [auto|]. intros Q. cbn [qq] in Q. apply orb_false_iff in Q as [A B]. cbn [part].
  destruct (IH r) as [I J]; [cbn; lia|exact B|].
  destruct (c =? 37) eqn:C1; [cbn [hd]; repeat rewrite not63 by discriminate; split; [exact I|lia]|].
  destruct ((c =? 92) && (hd 0 r =? 36)) eqn:C2.
  - destruct r as [|d r2]; [cbn in C2; lia|]. cbn [qq] in B. apply orb_false_iff in B as [_ B]. destruct (IH r2) as [K _]; [cbn; lia|exact B|]. cbn [hd]. rewrite not63 by discriminate. split; [exact K|lia].
  - cbn [qq hd]. rewrite J, A, I. auto.
Qed.
Lemma isxdigit_digit h : isxdigit h = true -> exists x, digit 16 h x.
Proof. intros H. destruct (hex_digit_of h) as [->|X]; [unfold hex_; now rewrite H|discriminate|exact X]. Qed.
Lemma part_plain c r : c <> 92 -> c <> 37 -> part (c :: r) = c :: part r.
Proof. intros A B. cbn [part]. replace (c =? 37) with false by lia. replace (c =? 92) with false by lia. reflexivity. Qed.
Lemma part_92 r : hd 0 r <> 36 -> part (92 :: r) = 92 :: part r.
Proof. intros A. cbn [part Z.eqb Pos.eqb andb]. replace (hd 0 r =? 36) with false by lia. reflexivity. Qed.
Lemma part_head its z : Forall item_ok its -> exists c r, part (W its) ++ 34 :: z = c :: r /\ (isxdigit c = true -> exists q, its = Plain c :: q).
Proof.
  intros F. destruct its as [|i its]; [exists 34, z; split; [reflexivity|discriminate]|]. apply Forall_cons_iff in F as [O _]. cbn [flat_map]. destruct i as [c|e v|h l v]; cbn [written app].
  - cbn in O. destruct (c =? 37) eqn:E.
    + apply Z.eqb_eq in E as ->. exists 37. eexists. split; [reflexivity|discriminate].
    + rewrite part_plain by lia. eexists c, _. split; [reflexivity|]. eauto.
  - destruct (e =? 36) eqn:E; [apply Z.eqb_eq in E as ->; eexists 36, _; split; [reflexivity|discriminate]|]. rewrite part_92 by (cbn; lia). eexists 92, _. split; [reflexivity|discriminate].
  - rewrite part_92 by (cbn; discriminate). eexists 92, _. split; [reflexivity|discriminate].
Qed.
Definition doubled (i : item) : bytes := if denoted i =? 37 then [37; 37] else [denoted i].
Lemma part_chars : forall its, Forall item_ok its -> no_neighbours bad_dollar its -> no_neighbours bad_hex its -> Forall (fun i => ~ bad_item i) its ->
  c_chars In_ (part (W its) ++ [34]) = Some (flat_map doubled its).
Proof.
  induction its as [|i its IH]; intros F D H B; [reflexivity|].
  apply Forall_cons_iff in F as [Oi F]. apply Forall_cons_iff in B as [Bi B]. pose proof (IH F (nn_tail _ _ _ D) (nn_tail _ _ _ H) B) as R.
  cbn [flat_map]. unfold doubled at 1. destruct i as [c|e v|h l v]; cbn [written app denoted].
  - cbn in Oi. destruct Oi as (_ & A & X & C). destruct (c =? 37) eqn:E.
    + apply Z.eqb_eq in E as ->. cbn [part Z.eqb Pos.eqb app]. rewrite !in_plain by discriminate. rewrite R. reflexivity.
    + rewrite part_plain by lia. cbn [app]. rewrite in_plain by assumption. rewrite R. reflexivity.
  - destruct (escape_cases _ _ Oi) as [[-> ->]|[[-> ->]|[[-> ->]|(Ec & A & X & C & N120 & N10 & N13 & N63 & V)]]].
    + exfalso. apply Bi. left. reflexivity.
    + cbn [part hd Z.eqb Pos.eqb andb app]. rewrite in_plain by discriminate. rewrite R. reflexivity.
    + rewrite part_92 by (cbn; discriminate). rewrite part_92. 2:{ destruct its as [|j its]; [discriminate|]. pose proof (nn_head _ _ _ _ D) as ND. destruct j as [c|e v|h l v]; cbn; try discriminate. intros ->. apply ND. split; reflexivity. }
      cbn [app]. rewrite (in_escape 92 92) by reflexivity. rewrite R. reflexivity.
    + assert (e <> 37 /\ v <> 37) as [P1 P2] by (cbn in Oi; repeat (destruct Oi as [Oi|Oi]; [injection Oi as <- <-; split; discriminate|]); destruct Oi).
      rewrite part_92 by (cbn; exact X). rewrite part_plain by assumption. cbn [app]. rewrite (in_escape e v) by exact Ec. rewrite R. replace (v =? 37) with false by lia. reflexivity.
  - pose proof Oi as (x & y & Hx & Hy & V). apply digit_hex in Hx as (Vx & Bx & Hx & Nx). apply digit_hex in Hy as (Vy & By & Hy & Ny).
    assert (h <> 37 /\ l <> 37) as [P1 P2] by (split; intros ->; discriminate).
    rewrite part_92 by (cbn; discriminate). rewrite !part_plain by (discriminate || tauto). cbn [app].
    destruct (part_head its [] F) as (c & r & E & Xc). rewrite E in *. rewrite (in_hex _ _ x y); try assumption.
    + rewrite R, <- V. cbn [option_map]. destruct (v =? 37) eqn:E37; [|reflexivity]. exfalso. apply Bi. right. exists h, l. f_equal. lia.
    + apply hex_value_is. destruct (isxdigit c) eqn:Hc; [|reflexivity]. destruct (Xc eq_refl) as [q ->]. exfalso. destruct (isxdigit_digit _ Hc) as [x0 Dc]. apply (nn_head _ _ _ _ H). exists h, l, v, c, x0. auto.
Qed.
Lemma printf_doubled its : Forall (fun i => denoted i <> 0) its -> printf_text (flat_map doubled its) = Some (map denoted its).
Proof.
  induction its as [|i its IH]; intros F; [reflexivity|]. apply Forall_cons_iff in F as [N F]. cbn [flat_map map]. unfold doubled at 1. destruct (denoted i =? 37) eqn:E; cbn [app printf_text].
  - cbn [Z.eqb Pos.eqb]. rewrite (IH F). cbn [option_map]. do 2 f_equal. lia.
  - replace (denoted i =? 0) with false by lia. rewrite E, (IH F). reflexivity.
Qed.

(** * Tokens *)
Lemma items_unique : forall its its', Forall item_ok its -> Forall item_ok its' -> W its = W its' -> its = its'.
Proof.
  assert (EU : forall e v v', In (e, v) escapes -> In (e, v') escapes -> v = v').
  { intros e v v' A B. assert (C : forallb (fun p => forallb (fun q => negb (fst p =? fst q) || (snd p =? snd q)) escapes) escapes = true) by reflexivity.
    rewrite forallb_forall in C. specialize (C _ A). rewrite forallb_forall in C. specialize (C _ B). cbn [fst snd] in C. lia. }
  induction its as [|i its IH]; intros [|j its'] F G E; [reflexivity| | |].
  - destruct j; discriminate.
  - destruct i; discriminate.
  - apply Forall_cons_iff in F as [Oi F]. apply Forall_cons_iff in G as [Oj G]. cbn [flat_map] in E.
    assert (NX : forall e v, item_ok (Escape e v) -> e <> 120). { intros e v O. destruct (escape_cases _ _ O) as [[-> _]|[[-> _]|[[-> _]|H]]]; try discriminate. tauto. }
    destruct i as [c|e v|h l v], j as [c'|e' v'|h' l' v']; cbn [written app] in E; injection E; intros.
    + subst. f_equal. apply IH; assumption.
    + subst. exfalso. cbn in Oi. tauto.
    + subst. exfalso. cbn in Oi. tauto.
    + subst. exfalso. cbn in Oj. tauto.
    + subst. f_equal; [f_equal; exact (EU _ _ _ Oi Oj)|apply IH; assumption].
    + subst. exfalso. exact (NX _ _ Oi eq_refl).
    + subst. exfalso. cbn in Oj. tauto.
    + subst. exfalso. exact (NX _ _ Oj eq_refl).
    + subst. f_equal; [|apply IH; assumption]. f_equal. destruct Oi as (x & y & Hx & Hy & ->), Oj as (x' & y' & Hx' & Hy' & ->).
      apply digit_hv in Hx, Hy, Hx', Hy'. lia.
Qed.
Lemma escape_ok_in e : escape_ok e = true -> exists v, In (e, v) escapes.
Proof.
  unfold escape_ok. intros H. apply existsb_exists in H as (x & I & E). apply Z.eqb_eq in E as <-.
  assert (C : forallb (fun x => existsb (fun p => fst p =? x) escapes) [110; 116; 114; 92; 34; 39; 48; 97; 98; 102; 118; 36] = true) by reflexivity.
  rewrite forallb_forall in C. specialize (C _ I). apply existsb_exists in C as ([e' v] & I' & E'). cbn [fst] in E'. exists v. replace e with e' by lia. exact I'.
Qed.
Lemma close_items r : forall n, close 0 r = Some n -> ~ In 0 (firstn n r) -> has_interpolation (firstn n r) = false -> exists its, Forall item_ok its /\ firstn n r = W its.
Proof.
  induction r as [r IH] using list_len_ind. intros n. destruct r as [|c r1]; [discriminate|]. cbn [close].
  assert (Lift : forall k s, lift k (close 0 s) = Some n -> exists m, close 0 s = Some m /\ n = (k + m)%nat). { intros k s H. unfold lift in H. destruct (close 0 s) as [m|]; [injection H as <-; eauto|discriminate]. }
  destruct (c =? 92) eqn:C.
  - apply Z.eqb_eq in C as ->. destruct r1 as [|e r2]; [discriminate|]. destruct (e =? 120) eqn:E.
    + apply Z.eqb_eq in E as ->. destruct r2 as [|h [|l r4]]; try discriminate. destruct (isxdigit h && isxdigit l) eqn:X; [|discriminate]. apply andb_true_iff in X as [Xh Xl]. intros H.
      apply Lift in H as (m & H & ->). cbn [firstn Nat.add]. intros Z0 HI. destruct (IH r4 ltac:(cbn; lia) m H) as (its & F & Ei).
      * intros J. apply Z0. cbn. auto.
      * assert (Nh : h <> 92 /\ h <> 36) by (split; intros ->; discriminate). assert (Nl : l <> 92 /\ l <> 36) by (split; intros ->; discriminate).
        cbn [has_interpolation hd Z.eqb Pos.eqb andb] in HI. replace (h =? 36) with false in HI by lia. replace (l =? 36) with false in HI by lia. replace (h =? 92) with false in HI by lia. replace (l =? 92) with false in HI by lia. exact HI.
      * destruct (isxdigit_digit _ Xh) as [x Dx]. destruct (isxdigit_digit _ Xl) as [y Dy]. exists (HexEscape h l (16 * x + y) :: its). split; [constructor; [exists x, y; auto|exact F]|]. rewrite Ei. reflexivity.
    + destruct (escape_ok e) eqn:X; [|discriminate]. intros H. apply Lift in H as (m & H & ->). cbn [firstn Nat.add]. intros Z0 HI. destruct (IH r2 ltac:(cbn; lia) m H) as (its & F & Ei).
      * intros J. apply Z0. cbn. auto.
      * exact HI.
      * destruct (escape_ok_in e X) as [v I]. exists (Escape e v :: its). split; [constructor; [exact I|exact F]|]. rewrite Ei. reflexivity.
  - destruct ((c =? 36) && (hd 0 r1 =? 123)) eqn:D.
    + destruct r1 as [|b r2]; [discriminate|]. intros H. unfold lift in H. destruct (close 1 r2) as [m|]; [|discriminate]. injection H as <-. cbn [firstn Nat.add]. intros _ HI. cbn [has_interpolation hd] in *. rewrite D in HI. discriminate.
    + replace ((c =? 123) && (0 <? 0)%nat) with false by (symmetry; apply andb_false_r). replace ((c =? 125) && (0 <? 0)%nat) with false by (symmetry; apply andb_false_r).
      change (0 =? 0)%nat with true. rewrite !andb_true_r. destruct (c =? 34) eqn:Q.
      * intros H. injection H as <-. intros _ _. exists []. split; [constructor|reflexivity].
      * destruct (c =? 10) eqn:N; [discriminate|]. intros H. apply Lift in H as (m & H & ->). cbn [firstn Nat.add]. intros Z0 HI. destruct (IH r1 ltac:(cbn; lia) m H) as (its & F & Ei).
        -- intros J. apply Z0. cbn. auto.
        -- cbn [has_interpolation] in HI. destruct ((c =? 36) && (hd 0 (firstn m r1) =? 123)); [discriminate|]. rewrite C in HI. exact HI.
        -- exists (Plain c :: its). split; [constructor; [cbn; cbn in Z0; lia|exact F]|]. rewrite Ei. reflexivity.
Qed.
Lemma interpolation_spec s : has_interpolation s = true <-> interpolates s.
Proof.
  induction s as [s IH] using list_len_ind. destruct s as [|c r]; [cbn; split; [discriminate|tauto]|]. cbn [has_interpolation interpolates].
  destruct ((c =? 36) && (hd 0 r =? 123)) eqn:D.
  - split; [|reflexivity]. intros _. left. destruct r as [|d r]; [cbn in D; lia|]. cbn [hd] in D. split; [lia|]. exists r. f_equal. lia.
  - assert (ND : ~ (c = 36 /\ exists r', r = 123 :: r')). { intros [-> [r' ->]]. cbn in D. discriminate. }
    destruct (c =? 92) eqn:C.
    + assert (c = 92) as -> by lia. destruct r as [|e r2]; [split; [discriminate|intros [H|[[_ []]|[H _]]]; congruence || tauto]|]. rewrite (IH r2) by (cbn; lia). split; [tauto|]. intros [H|[[_ H]|[H _]]]; [tauto|exact H|congruence].
    + rewrite (IH r) by (cbn; lia). split; [intros H; right; right; split; [lia|exact H]|]. intros [H|[[H _]|[_ H]]]; [tauto|lia|exact H].
Qed.
Lemma string_token src ts t : lex src = Some ts -> forallb legal ts = true -> ~ In 0 src -> In t ts -> tkind t = STRING -> ~ interpolates (literal t) ->
  exists its, spells (literal t) its.
Proof.
  intros L F Z0 I K NI. destruct (token_scans _ _ _ L F I) as (c & r & m & E & Sc & _); [congruence|]. rewrite K in *. cbn [spelling app] in E. injection E as <- E. rewrite scan_34 in Sc. injection Sc as Sc.
  pose proof (scan_string_close r) as C. destruct (close 0 r) as [n|] eqn:Cl.
  - destruct C as (a & b & Er & Ln & Sa). rewrite Sc in Sa. injection Sa as Ea _. destruct (close_items r n Cl) as (its & Fi & Ei).
    + rewrite Er, <- Ln, firstn_len, <- Ea. intros J.
      destruct (lex_made src) as (ts' & L' & M & _). rewrite L in L'. injection L' as <-. clear -M I J Z0 K. revert M I Z0. generalize (forallb legal ts). generalize (@nil Z) at 1. intros p0 cl M. induction M as [pre u g A B G S|pre u us g s A B G S A2 A3 M IH|pre u us g x s A B G S A2 M IH|pre u e g body A B C D G X]; intros I Z0.
      * destruct I as [->|[]]. congruence.
      * destruct I as [->|I]; [|apply IH; [exact I|]; intros Q; apply Z0; rewrite !in_app_iff; auto]. apply Z0. rewrite !in_app_iff. right. left. rewrite K. cbn [spelling app]. right. rewrite in_app_iff. auto.
      * destruct I as [->|I]; [congruence|]. apply IH; [exact I|]. intros Q. apply Z0. rewrite !in_app_iff. auto.
      * destruct I as [->|[->|[]]]; congruence.
    + rewrite Er, <- Ln, firstn_len, <- Ea. destruct (has_interpolation (literal t)) eqn:H; [|reflexivity]. exfalso. apply NI. now apply interpolation_spec.
    + exists its. split; [exact Fi|]. rewrite <- Ei, Er, <- Ln, firstn_len. exact Ea.
  - destruct C as (e & n & C). rewrite Sc in C. discriminate.
Qed.
