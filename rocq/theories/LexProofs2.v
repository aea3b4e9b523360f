(** Proofs about the lexer, part 2: single tokens. *)
From Verif Require Import Base BaseFacts StringsModel EncodingModel LexSpec LexModel LexProofs.

Lemma hd_cons v (r : bytes) : v <> 0 -> (hd 0 r =? v) = true -> exists r', r = v :: r'.
Proof. destruct r as [|c r]; cbn [hd]; intros N E; [lia|]. apply Z.eqb_eq in E as ->. eauto. Qed.
Lemma hd_skip v n : forall (r : bytes), v <> 0 -> (hd 0 (skipn n r) =? v) = true -> exists a b, r = a ++ v :: b /\ length a = n.
Proof.
  induction n as [|n IH]; intros r N E; cbn [skipn] in E.
  - destruct (hd_cons v r N E) as [b ->]. exists [], b. auto.
  - destruct r as [|c r]; [cbn [hd] in E; lia|]. destruct (IH r N E) as (a & b & -> & L). exists (c :: a), b. cbn. auto.
Qed.
Lemma starts_app p : forall s, starts p s = true -> exists s', s = p ++ s'.
Proof.
  induction p as [|x p IH]; intros s H; [exists s; reflexivity|]. destruct s as [|y s]; [discriminate|].
  cbn [starts] in H. apply andb_true_iff in H as [E H]. apply Z.eqb_eq in E as ->. destruct (IH s H) as [s' ->]. exists s'. reflexivity.
Qed.

(** * Operators and attributes *)
Definition ops : list (kind * bytes) :=
  [(EQ, bs "=="); (ASSIGN, bs "="); (PLUS_ASSIGN, bs "+="); (INCREMENT, bs "++"); (PLUS, bs "+"); (ARROW, bs "->"); (MINUS_ASSIGN, bs "-=");
   (DECREMENT, bs "--"); (MINUS, bs "-"); (NOT_EQ, bs "!="); (NOT_IN, bs "!in"); (BANG, bs "!"); (ASTERISK_ASSIGN, bs "*="); (ASTERISK, bs "*");
   (SLASH_ASSIGN, bs "/="); (SLASH, bs "/"); (PERCENT_ASSIGN, bs "%="); (PERCENT, bs "%"); (LT_EQ, bs "<="); (LT, bs "<"); (GT_EQ, bs ">=");
   (GT, bs ">"); (AND, bs "&&"); (AMPERSAND, bs "&"); (QUESTION, bs "?"); (OR, bs "||"); (COMMA, bs ","); (COLON, bs ":"); (SEMICOLON, bs ";");
   (LPAREN, bs "("); (RPAREN, bs ")"); (LBRACE, bs "{"); (RBRACE, bs "}"); (LBRACKET, bs "["); (RBRACKET, bs "]"); (DOT, bs "."); (AT, bs "@");
   (CARET, bs "^"); (SUPPRESS, bs "#suppress"); (STRICT, bs "#strict"); (FLAGS, bs "#flags"); (DOC, bs "#doc"); (JSON_ATTR, bs "#json")].
Inductive shape (r : bytes) : found -> Prop :=
| sh_illegal e n : (1 <= n)%nat -> shape r (ILLEGAL, e, n)
| sh_op k lit r' : In (k, lit) ops -> r = lit ++ r' -> shape r (k, lit, length lit)
| sh_string r1 : r = 34 :: r1 -> shape r (scan_string r1)
| sh_raw r1 : r = 96 :: r1 -> shape r (scan_raw r1)
| sh_char r1 : r = 39 :: r1 -> shape r (scan_char r1)
| sh_word k c r1 : r = c :: r1 -> isalpha c || (c =? 95) = true -> lookup_identifier (firstn (run word_char r) r) = Some k ->
    shape r (k, firstn (run word_char r) r, run word_char r)
| sh_number c r1 n k : r = c :: r1 -> isdigit c = true -> read_number r = (n, k, None) -> shape r (k, firstn n r, n).
Lemma run_pos f c r : f c = true -> (1 <= run f (c :: r))%nat.
Proof. intros F. cbn [run]. rewrite F. lia. Qed.
Lemma read_number_pos c r n k e : isdigit c = true -> read_number (c :: r) = (n, k, e) -> (1 <= n)%nat.
Proof.
  intros D. unfold read_number. cbn [hd tl].
  assert (P : (1 <= run digit_ (c :: r))%nat) by (apply run_pos; unfold digit_; now rewrite D).
  set (s := c :: r) in *. set (a := run digit_ s) in *. set (p := hd 0 r). set (q := tl r). clearbody s a p q. cbv zeta.
  assert (Dec : (let '(n, k) := if (hd 0 (skipn a s) =? 46) && after_point (hd 0 (tl (skipn a s)))
     then ((a + 1 + run digit_ (tl (skipn a s)))%nat, FLOAT) else (a, INT) in
     (n, k, number_error (firstn n s))) = (n, k, e) -> (1 <= n)%nat).
  { destruct ((hd 0 _ =? 46) && _); intros H; injection H as <- _ _; lia. }
  unfold based. destruct (c =? 48); [|exact Dec]. destruct ((p =? 120) || (p =? 88)); [intros H; injection H as <- _ _; lia|].
  destruct ((p =? 111) || (p =? 79)); [intros H; injection H as <- _ _; lia|]. destruct ((p =? 98) || (p =? 66)); [intros H; injection H as <- _ _; lia|exact Dec].
Qed.
Ltac op_leaf r' := match goal with |- exists f, Some (?k, ?lit, ?n) = Some f /\ _ => exists (k, lit, n); split; [reflexivity|apply (sh_op _ k lit r'); [cbn; auto 60|reflexivity]] end.
Lemma scan_cases c r1 : exists f, scan (c :: r1) = Some f /\ shape (c :: r1) f.
Proof.
  unfold scan. cbn [hd tl]. unfold one, two, illegal.
  destruct (c =? 61) eqn:K. { apply Z.eqb_eq in K as ->. destruct (hd 0 r1 =? 61) eqn:P; [apply hd_cons in P as [r2 ->]; [|lia]; op_leaf r2|op_leaf r1]. } clear K.
  destruct (c =? 43) eqn:K. { apply Z.eqb_eq in K as ->. destruct (hd 0 r1 =? 61) eqn:P; [apply hd_cons in P as [r2 ->]; [|lia]; op_leaf r2|].
    destruct (hd 0 r1 =? 43) eqn:Q; [apply hd_cons in Q as [r2 ->]; [|lia]; op_leaf r2|op_leaf r1]. } clear K.
  destruct (c =? 45) eqn:K. { apply Z.eqb_eq in K as ->. destruct (hd 0 r1 =? 62) eqn:P; [apply hd_cons in P as [r2 ->]; [|lia]; op_leaf r2|].
    destruct (hd 0 r1 =? 61) eqn:Q; [apply hd_cons in Q as [r2 ->]; [|lia]; op_leaf r2|].
    destruct (hd 0 r1 =? 45) eqn:R; [apply hd_cons in R as [r2 ->]; [|lia]; op_leaf r2|op_leaf r1]. } clear K.
  destruct (c =? 33) eqn:K. { apply Z.eqb_eq in K as ->. destruct (hd 0 r1 =? 61) eqn:P; [apply hd_cons in P as [r2 ->]; [|lia]; op_leaf r2|].
    destruct (starts (bs "in") r1 && negb (isalpha (hd 0 (skipn 2 r1)))) eqn:Q; [|op_leaf r1].
    apply andb_true_iff in Q as [Q _]. apply starts_app in Q as [r2 ->]. op_leaf r2. } clear K.
  destruct (c =? 42) eqn:K. { apply Z.eqb_eq in K as ->. destruct (hd 0 r1 =? 61) eqn:P; [apply hd_cons in P as [r2 ->]; [|lia]; op_leaf r2|op_leaf r1]. } clear K.
  destruct (c =? 47) eqn:K. { apply Z.eqb_eq in K as ->. destruct (hd 0 r1 =? 61) eqn:P; [apply hd_cons in P as [r2 ->]; [|lia]; op_leaf r2|op_leaf r1]. } clear K.
  destruct (c =? 37) eqn:K. { apply Z.eqb_eq in K as ->. destruct (hd 0 r1 =? 61) eqn:P; [apply hd_cons in P as [r2 ->]; [|lia]; op_leaf r2|op_leaf r1]. } clear K.
  destruct (c =? 60) eqn:K. { apply Z.eqb_eq in K as ->. destruct (hd 0 r1 =? 61) eqn:P; [apply hd_cons in P as [r2 ->]; [|lia]; op_leaf r2|op_leaf r1]. } clear K.
  destruct (c =? 62) eqn:K. { apply Z.eqb_eq in K as ->. destruct (hd 0 r1 =? 61) eqn:P; [apply hd_cons in P as [r2 ->]; [|lia]; op_leaf r2|op_leaf r1]. } clear K.
  destruct (c =? 38) eqn:K. { apply Z.eqb_eq in K as ->. destruct (hd 0 r1 =? 38) eqn:P; [apply hd_cons in P as [r2 ->]; [|lia]; op_leaf r2|op_leaf r1]. } clear K.
  destruct (c =? 63) eqn:K. { apply Z.eqb_eq in K as ->. op_leaf r1. } clear K.
  destruct (c =? 124) eqn:K. { apply Z.eqb_eq in K as ->. destruct (hd 0 r1 =? 124) eqn:P; [apply hd_cons in P as [r2 ->]; [|lia]; op_leaf r2|].
    eexists; split; [reflexivity|apply sh_illegal; lia]. } clear K.
  destruct (c =? 44) eqn:K. { apply Z.eqb_eq in K as ->. op_leaf r1. } clear K.
  destruct (c =? 58) eqn:K. { apply Z.eqb_eq in K as ->. op_leaf r1. } clear K.
  destruct (c =? 59) eqn:K. { apply Z.eqb_eq in K as ->. op_leaf r1. } clear K.
  destruct (c =? 40) eqn:K. { apply Z.eqb_eq in K as ->. op_leaf r1. } clear K.
  destruct (c =? 41) eqn:K. { apply Z.eqb_eq in K as ->. op_leaf r1. } clear K.
  destruct (c =? 123) eqn:K. { apply Z.eqb_eq in K as ->. op_leaf r1. } clear K.
  destruct (c =? 125) eqn:K. { apply Z.eqb_eq in K as ->. op_leaf r1. } clear K.
  destruct (c =? 91) eqn:K. { apply Z.eqb_eq in K as ->. op_leaf r1. } clear K.
  destruct (c =? 93) eqn:K. { apply Z.eqb_eq in K as ->. op_leaf r1. } clear K.
  destruct (c =? 46) eqn:K. { apply Z.eqb_eq in K as ->. op_leaf r1. } clear K.
  destruct (c =? 64) eqn:K. { apply Z.eqb_eq in K as ->. op_leaf r1. } clear K.
  destruct (c =? 94) eqn:K. { apply Z.eqb_eq in K as ->. op_leaf r1. } clear K.
  destruct (c =? 35) eqn:K.
  { destruct (starts (bs "#suppress") (c :: r1)) eqn:P1; [apply starts_app in P1 as [r2 ->]; op_leaf r2|].
    destruct (starts (bs "#strict") (c :: r1)) eqn:P2; [apply starts_app in P2 as [r2 ->]; op_leaf r2|].
    destruct (starts (bs "#flags") (c :: r1)) eqn:P3; [apply starts_app in P3 as [r2 ->]; op_leaf r2|].
    destruct (starts (bs "#doc") (c :: r1)) eqn:P4; [apply starts_app in P4 as [r2 ->]; op_leaf r2|].
    destruct (starts (bs "#json") (c :: r1)) eqn:P5; [apply starts_app in P5 as [r2 ->]; op_leaf r2|].
    eexists; split; [reflexivity|apply sh_illegal; lia]. }
  clear K. destruct (c =? 34) eqn:K. { apply Z.eqb_eq in K as ->. eexists; split; [reflexivity|now apply sh_string]. }
  clear K. destruct (c =? 96) eqn:K. { apply Z.eqb_eq in K as ->. eexists; split; [reflexivity|now apply sh_raw]. }
  clear K. destruct (c =? 39) eqn:K. { apply Z.eqb_eq in K as ->. eexists; split; [reflexivity|now apply sh_char]. }
  clear K. destruct (isalpha c || (c =? 95)) eqn:K.
  { cbv zeta. destruct (lookup_exact (firstn (run word_char (c :: r1)) (c :: r1))) as [(k & _ & E)|[_ E]]; rewrite E;
      (eexists; split; [reflexivity|now apply (sh_word _ _ c r1)]). }
  clear K. destruct (isdigit c) eqn:K.
  { destruct (read_number (c :: r1)) as [[n k] [e|]] eqn:E; eexists; (split; [reflexivity|]).
    - apply sh_illegal. now apply (read_number_pos c r1 n k (Some e)).
    - now apply (sh_number _ c r1). }
  eexists; split; [reflexivity|apply sh_illegal; lia].
Qed.

(** * What a token stands for *)
Lemma run_le f r : (run f r <= length r)%nat.
Proof. induction r as [|c r IH]; cbn [run]; [lia|]. destruct (f c); cbn [length]; lia. Qed.
Lemma skip_firstn {A} n : forall (r : list A), r = firstn n r ++ skipn n r.
Proof. intros. now rewrite firstn_skipn. Qed.
Lemma read_number_le c r n k : isdigit c = true -> read_number (c :: r) = (n, k, None) -> (n <= length (c :: r))%nat /\ (k = INT \/ k = FLOAT).
Proof.
  intros D. unfold read_number. cbn [hd]. remember (c :: r) as s eqn:Hs.
  pose proof (run_le digit_ s) as L0. cbv zeta.
  assert (Dec : (let '(n, k) := if (hd 0 (skipn (run digit_ s) s) =? 46) && after_point (hd 0 (tl (skipn (run digit_ s) s)))
     then ((run digit_ s + 1 + run digit_ (tl (skipn (run digit_ s) s)))%nat, FLOAT) else (run digit_ s, INT) in
     (n, k, number_error (firstn n s))) = (n, k, None) -> (n <= length s)%nat /\ (k = INT \/ k = FLOAT)).
  { destruct (hd 0 (skipn (run digit_ s) s) =? 46) eqn:E; cbn [andb].
    - apply hd_skip in E as (a & b & Es & L); [|lia]. assert (T : skipn (length a) s = 46 :: b) by (rewrite Es; apply skipn_len). rewrite L in T. rewrite T. cbn [tl].
      destruct (after_point (hd 0 b)); intros H; injection H as <- <- _; assert (length s = length a + S (length b))%nat by (rewrite Es, app_length; reflexivity); pose proof (run_le digit_ b); split; auto; lia.
    - intros H. injection H as <- <- _. auto. }
  assert (Bas : forall f v, v <> 0 -> (hd 0 (tl s) =? v) = true -> based f (tl (tl s)) = (n, k, None) -> (n <= length s)%nat /\ (k = INT \/ k = FLOAT)).
  { intros f v V E. unfold based. rewrite Hs in *. cbn [tl] in *. apply hd_cons in E as [r2 ->]; [|exact V]. cbn [tl length] in *. intros H. injection H as <- <- _.
    pose proof (run_le f r2). split; auto; lia. }
  destruct (c =? 48); [|exact Dec].
  destruct (hd 0 (tl s) =? 120) eqn:E1; [now apply (Bas _ 120)|]. destruct (hd 0 (tl s) =? 88) eqn:E2; [now apply (Bas _ 88)|]. cbn [orb].
  destruct (hd 0 (tl s) =? 111) eqn:E3; [now apply (Bas _ 111)|]. destruct (hd 0 (tl s) =? 79) eqn:E4; [now apply (Bas _ 79)|]. cbn [orb].
  destruct (hd 0 (tl s) =? 98) eqn:E5; [now apply (Bas _ 98)|]. destruct (hd 0 (tl s) =? 66) eqn:E6; [now apply (Bas _ 66)|]. exact Dec.
Qed.
Lemma lookup_kind w k : lookup_identifier w = Some k -> k <> ILLEGAL /\ k <> EOF /\ (forall l, spelling k l = l).
Proof.
  destruct (lookup_exact w) as [(k' & I & ->)|[_ ->]]; intros [= <-].
  - assert (C : forallb (fun e => match snd e with ILLEGAL | EOF | STRING | RAW_STRING | CHAR => false | _ => true end) keyword_list = true) by reflexivity.
    rewrite forallb_forall in C. specialize (C _ I). cbn [snd] in C. destruct k'; try discriminate; repeat split; discriminate.
  - repeat split; discriminate.
Qed.
Lemma op_kind k lit : In (k, lit) ops -> k <> ILLEGAL /\ k <> EOF /\ lit <> [] /\ (forall l, spelling k l = l) /\ is_blank (hd 0 lit) = false.
Proof.
  intros I. assert (C : forallb (fun e => match fst e with ILLEGAL | EOF | STRING | RAW_STRING | CHAR => false | _ => true end && negb (is_blank (hd 0 (snd e)))
    && match snd e with [] => false | _ => true end) ops = true) by reflexivity.
  rewrite forallb_forall in C. specialize (C _ I). cbn [fst snd] in C. rewrite !andb_true_iff in C. destruct C as [[A B] D].
  destruct k; try discriminate; repeat split; try discriminate; destruct lit; try discriminate; cbn [hd] in *; now apply negb_true_iff in B.
Qed.
Lemma shape_spells c r1 k lit m : shape (c :: r1) (k, lit, m) -> k <> ILLEGAL ->
  k <> EOF /\ m = length (spelling k lit) /\ (1 <= m)%nat /\ exists r', c :: r1 = spelling k lit ++ r'.
Proof.
  intros H N. remember (c :: r1) as r eqn:R. remember (k, lit, m) as f eqn:F. destruct H as [e n L|k' l r' I E|r2 E|r2 E|r2 E|k' d r2 E A B|d r2 n k' E A B].
  - injection F as <- <- <-. contradiction.
  - injection F as <- <- <-. destruct (op_kind _ _ I) as (_ & X & Y & Z & _). split; [exact X|]. rewrite Z. split; [reflexivity|]. split; [destruct l; [contradiction|cbn; lia]|]. exists r'. exact E.
  - rewrite E in *. unfold scan_string in F. destruct (str 0 r2) as [n e]. destruct (hd 0 (skipn n r2) =? 34) eqn:Q.
    + apply hd_skip in Q as (a & b & -> & <-); [|lia]. rewrite firstn_len in F. destruct e; injection F as <- <- <-; [contradiction|].
      split; [discriminate|]. cbn [spelling]. rewrite !app_length. cbn [length]. split; [lia|]. split; [lia|]. exists b. cbn [app]. now rewrite <- app_assoc.
    + injection F as <- _ _. contradiction.
  - rewrite E in *. unfold scan_raw in F. set (n := run _ r2) in F. clearbody n. destruct (hd 0 (skipn n r2) =? 96) eqn:Q.
    + apply hd_skip in Q as (a & b & -> & <-); [|lia]. rewrite firstn_len in F. injection F as <- <- <-.
      split; [discriminate|]. cbn [spelling]. rewrite !app_length. cbn [length]. split; [lia|]. split; [lia|]. exists b. cbn [app]. now rewrite <- app_assoc.
    + injection F as <- _ _. contradiction.
  - rewrite E in *. unfold scan_char in F.
    destruct (if hd 0 r2 =? 92 then _ else _) as [n0 e0]. cbv zeta in F. destruct (if negb (hd 0 (skipn n0 r2) =? 39) && _ && _ then _ else _) as [n e].
    destruct (hd 0 (skipn n r2) =? 39) eqn:Q.
    + apply hd_skip in Q as (a & b & -> & <-); [|lia]. rewrite firstn_len in F. destruct e; injection F as <- <- <-; [contradiction|].
      split; [discriminate|]. cbn [spelling]. rewrite !app_length. cbn [length]. split; [lia|]. split; [lia|]. exists b. cbn [app]. now rewrite <- app_assoc.
    + injection F as <- _ _. contradiction.
  - injection F as <- <- <-. destruct (lookup_kind _ _ B) as (_ & X & Y). split; [exact X|]. rewrite Y, firstn_length.
    assert (P : (1 <= run word_char (d :: r2))%nat) by (apply run_pos; unfold word_char; now rewrite A). rewrite <- E in P. pose proof (run_le word_char r).
    split; [lia|]. split; [lia|]. exists (skipn (run word_char r) r). apply skip_firstn.
  - injection F as <- <- <-. rewrite E in B. destruct (read_number_le _ _ _ _ A B) as [L K]. pose proof (read_number_pos _ _ _ _ _ A B). rewrite <- E in L.
    split; [destruct K; congruence|]. replace (spelling k' (firstn n r)) with (firstn n r) by (destruct K; subst k'; reflexivity).
    rewrite firstn_length. split; [lia|]. split; [lia|]. exists (skipn n r). apply skip_firstn.
Qed.
Lemma shape_pos r k lit m : shape r (k, lit, m) -> (1 <= m)%nat.
Proof.
  intros H. remember (k, lit, m) as f eqn:F. destruct H as [e n L|k' l r' I E|r2 E|r2 E|r2 E|k' d r2 E A B|d r2 n k' E A B].
  - injection F as <- <- <-. exact L.
  - injection F as <- <- <-. destruct (op_kind _ _ I) as (_ & X & Y & Z & _). destruct l; [contradiction|cbn; lia].
  - unfold scan_string, illegal in F. destruct (str 0 r2) as [n [e|]]; destruct (hd 0 (skipn n r2) =? 34); injection F as _ _ <-; lia.
  - unfold scan_raw, illegal in F. destruct (hd 0 _ =? 96); injection F as _ _ <-; lia.
  - unfold scan_char, illegal in F.
    destruct (if hd 0 r2 =? 92 then _ else _) as [n0 e0]. cbv zeta in F. destruct (if negb (hd 0 (skipn n0 r2) =? 39) && _ && _ then _ else _) as [n [e|]];
    destruct (hd 0 (skipn n r2) =? 39); injection F as _ _ <-; lia.
  - injection F as <- <- <-. rewrite E. apply run_pos. unfold word_char. now rewrite A.
  - injection F as <- <- <-. rewrite E in B. exact (read_number_pos _ _ _ _ _ A B).
Qed.
