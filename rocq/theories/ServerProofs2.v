(** Proofs about the query string, the request and the response of ServerModel. *)
From Verif Require Import Base BaseFacts Decimal DecimalFacts ServerModel ServerSpec ServerProofs.

(** cut *)
Lemma cut_app c a b : ~ In c a -> cut c (a ++ c :: b) = Some (a, b).
Proof.
  induction a as [|x a IH]; cbn; intros N; [now rewrite Z.eqb_refl|].
  destruct (x =? c) eqn:E; [exfalso; apply N; left; lia|]. rewrite IH; [reflexivity|]. intros K. apply N. now right.
Qed.
Lemma cut_none c a : ~ In c a -> cut c a = None.
Proof.
  induction a as [|x a IH]; cbn; intros N; [reflexivity|].
  destruct (x =? c) eqn:E; [exfalso; apply N; left; lia|]. rewrite IH; [reflexivity|]. intros K. apply N. now right.
Qed.
Lemma cut_cases c s : (~ In c s /\ cut c s = None) \/ exists a b, s = a ++ c :: b /\ ~ In c a /\ cut c s = Some (a, b).
Proof.
  destruct (in_dec Z.eq_dec c s) as [H|H]; [right|left; auto using cut_none].
  induction s as [|x s IH]; [easy|]. destruct (Z.eq_dec x c) as [->|N].
  - exists [], s. cbn. now rewrite Z.eqb_refl.
  - destruct H as [H|H]; [easy|]. destruct (IH H) as (a & b & -> & K & _). exists (x :: a), b.
    assert (~ In c (x :: a)) by (intros [Q|Q]; auto). split; [reflexivity|]. split; [assumption|].
    now apply (cut_app c (x :: a)).
Qed.
Lemma split_cut c s p t : split c s = p :: t -> (t = [] /\ s = p) \/ exists r, s = p ++ c :: r /\ split c r = t.
Proof.
  revert p t. induction s as [|x s IH]; cbn [split]; intros p t E; [injection E as <- <-; auto|].
  destruct (x =? c) eqn:X.
  - injection E as <- <-. right. exists s. split; [cbn; f_equal; lia|reflexivity].
  - destruct (split c s) as [|h u] eqn:K; [now apply split_nonempty in K|]. injection E as <- <-.
    destruct (IH h u eq_refl) as [[-> ->]|(r & -> & <-)]; [auto|]. right. exists r. auto.
Qed.
Definition has_eq (p : bytes) : bool := existsb (Z.eqb 61) p.
Lemma has_eq_iff p : has_eq p = true <-> In 61 p.
Proof. unfold has_eq. rewrite existsb_exists. split; [intros (x & A & B); now apply Z.eqb_eq in B; subst|]. intros H. exists 61. auto. Qed.

Lemma query_some fuel : forall q, (length q < fuel)%nat -> query_loop fuel q <> None.
Proof.
  induction fuel as [|fuel IH]; intros q F; [lia|]. cbn [query_loop]. destruct q as [|x q]; [easy|].
  destruct (cut_cases 61 (x :: q)) as [(_ & ->)|(k & r & E & _ & ->)]; [easy|].
  destruct (cut_cases 38 r) as [(_ & ->)|(v & r2 & -> & _ & ->)]; [easy|].
  specialize (IH r2). destruct (query_loop fuel r2); [easy|]. intros _. apply IH; [|reflexivity].
  rewrite E in F. repeat (rewrite app_length in F; cbn [length] in F). lia.
Qed.
Lemma query_pieces fuel : forall q, (length q < fuel)%nat -> (forall p, In p (removelast (split 38 q)) -> In 61 p) ->
  exists l, query_loop fuel q = Some l /\ Forall2 pair_text (filter has_eq (split 38 q)) l.
Proof.
  induction fuel as [|fuel IH]; intros q F H; [lia|]. cbn [query_loop].
  destruct (split 38 q) as [|p t] eqn:S; [now apply split_nonempty in S|].
  assert (Np : ~ In 38 p). { pose proof (split_no 38 q) as K. rewrite S in K. now inversion K. }
  destruct (in_dec Z.eq_dec 61 p) as [Hp|Hp].
  - destruct (cut_cases 61 p) as [(K & _)|(k & v & -> & Nk & _)]; [easy|]. cbn [filter].
    rewrite (proj2 (has_eq_iff _) Hp).
    assert (Nv : ~ In 38 v) by (intros K; apply Np; rewrite in_app_iff; right; now right).
    destruct (split_cut _ _ _ _ S) as [(-> & ->)|(r & -> & S2)].
    + destruct (k ++ 61 :: v) as [|y z] eqn:E; [destruct k; easy|]. rewrite <- E in *. clear y z E.
      rewrite cut_app, cut_none by assumption. eexists. split; [reflexivity|].
      constructor; [split; [reflexivity|exact Nk]|constructor].
    + destruct ((k ++ 61 :: v) ++ 38 :: r) as [|y z] eqn:E; [destruct k; easy|]. rewrite <- E in *. clear y z E.
      rewrite <- app_assoc in *. cbn [app] in *. rewrite cut_app by assumption. rewrite cut_app by assumption.
      destruct (IH r) as (l & -> & K).
      * repeat (rewrite app_length in F; cbn [length] in F). lia.
      * intros p' Hp'. apply H. rewrite S2 in Hp'. destruct t as [|t1 t]; [easy|]. right. exact Hp'.
      * rewrite S2 in K. eexists. split; [reflexivity|]. constructor; [split; [reflexivity|exact Nk]|exact K].
  - destruct t as [|t1 t]; [|exfalso; apply Hp, H; now left].
    destruct (split_cut _ _ _ _ S) as [(_ & ->)|(r & _ & S2)]; [|now apply split_nonempty in S2].
    cbn [filter]. destruct (has_eq p) eqn:E; [apply has_eq_iff in E; easy|].
    exists []. split; [|constructor]. destruct p; [reflexivity|]. now rewrite cut_none.
Qed.

(** strstr *)
Definition prefixed (s : bytes) (o : option (bytes * bytes)) : option (bytes * bytes) :=
  match o with Some (a, b) => Some (s ++ a, b) | None => None end.
Lemma find_skip p s x : ~ In 13 s -> find (13 :: p) (s ++ x) = prefixed s (find (13 :: p) x).
Proof.
  induction s as [|c s IH]; intros N; [cbn [app prefixed]; destruct (find (13 :: p) x) as [[]|]; reflexivity|].
  assert (c <> 13) by (intros ->; apply N; now left). cbn [app]. cbn [find starts].
  destruct (13 =? c) eqn:E; [lia|]. cbn [andb]. rewrite IH; [|intros K; apply N; now right].
  destruct (find (13 :: p) x) as [[]|]; reflexivity.
Qed.
Lemma find_crlf s x : ~ In 13 s -> find crlf (s ++ eol ++ x) = Some (s, eol ++ x).
Proof. intros N. unfold crlf. rewrite find_skip by assumption. cbn. now rewrite app_nil_r. Qed.
Lemma find_blank_skip c x : c <> 13 -> find blank_line (eol ++ c :: x) = prefixed eol (find blank_line (c :: x)).
Proof.
  intros N. unfold blank_line, eol. cbn [app].
  assert (A : starts [13; 10; 13; 10] (13 :: 10 :: c :: x) = false).
  { cbn [starts]. destruct (13 =? c) eqn:E; [lia|reflexivity]. }
  assert (B : find [13; 10; 13; 10] (13 :: 10 :: c :: x) = prefixed [13] (find [13; 10; 13; 10] (10 :: c :: x))).
  { cbn [find]. rewrite A. fold find. reflexivity. }
  rewrite B. change (10 :: c :: x) with ([10] ++ c :: x). rewrite find_skip; [|now intros [?|[]]].
  destruct (find [13; 10; 13; 10] (c :: x)) as [[]|]; reflexivity.
Qed.
Definition lines_text (ls : list bytes) : bytes := concat (map (fun l => l ++ eol) ls).
Definition line_ok (l : bytes) := ~ In 13 l /\ l <> [].
Lemma find_blank b ls : Forall line_ok ls -> forall l0, ~ In 13 l0 ->
  exists head, find blank_line (l0 ++ eol ++ lines_text ls ++ eol ++ b) = Some (head, blank_line ++ b) /\ head ++ eol = l0 ++ eol ++ lines_text ls.
Proof.
  induction 1 as [|l ls [Hl Nl] _ IH]; intros l0 N; unfold blank_line at 1; rewrite find_skip by assumption; fold blank_line.
  - exists l0. cbn. now rewrite app_nil_r.
  - destruct l as [|c l]; [easy|]. unfold lines_text. cbn [map concat]. rewrite <- !app_assoc. cbn [app].
    rewrite find_blank_skip by (intros ->; apply Hl; now left).
    fold (lines_text ls). change (c :: l ++ eol ++ lines_text ls ++ eol ++ b) with ((c :: l) ++ eol ++ lines_text ls ++ eol ++ b).
    destruct (IH (c :: l) Hl) as (head & -> & K). cbn [prefixed]. exists (l0 ++ eol ++ head). split; [reflexivity|].
    rewrite <- !app_assoc, K. reflexivity.
Qed.

Lemma skip_spaces_pad n v : (forall v', v <> 32 :: v') -> skip_spaces (List.repeat 32 n ++ v) = v.
Proof.
  intros N. induction n as [|n IH]; cbn.
  - destruct v as [|c v]; [reflexivity|]. cbn. destruct (c =? space) eqn:E; [|reflexivity].
    exfalso. unfold space in E. apply (N v). f_equal. lia.
  - exact IH.
Qed.
Definition header_text (h : bytes * bytes) : bytes := fst h ++ [58] ++ snd h.
Lemma header_line_text hs : concat (map header_line hs) = lines_text (map header_text hs).
Proof. unfold lines_text. rewrite map_map. f_equal. apply map_ext. intros [k v]. unfold header_line, header_text. now rewrite <- !app_assoc. Qed.
Lemma header_text_ok h : header_ok h -> line_ok (header_text h).
Proof.
  destruct h as [k v]. intros ((A & _) & (B & _) & _). split.
  - unfold header_text. cbn. rewrite !in_app_iff. cbn in *. intuition lia.
  - unfold header_text. destruct k; easy.
Qed.
Lemma header_loop_ok b hs hs' : Forall header_ok hs -> Forall2 unpadded hs hs' -> forall fuel, (length hs < fuel)%nat ->
  header_loop fuel (lines_text (map header_text hs) ++ eol ++ b) (length (blank_line ++ b)) = Some hs'.
Proof.
  intros O U. revert O. induction U as [|h h' hs hs' U1 U IH]; intros O fuel F.
  - destruct fuel; [lia|]. cbn [header_loop]. change (lines_text (map header_text [])) with (@nil Z). cbn [app].
    rewrite !app_length. change (length blank_line) with 4%nat. change (length eol) with 2%nat.
    destruct (4 + length b <? 2 + length b)%nat eqn:E; [lia|reflexivity].
  - inversion_clear O as [|? ? Oh Os]. destruct fuel; [lia|]. cbn [header_loop].
    pose proof (header_text_ok h Oh) as [L1 L2].
    unfold lines_text. cbn [map concat]. fold (lines_text (map header_text hs)).
    destruct (length (blank_line ++ b) <? length (((header_text h ++ eol) ++ lines_text (map header_text hs)) ++ eol ++ b))%nat eqn:E.
    2:{ exfalso. rewrite !app_length in E. change (length blank_line) with 4%nat in E. change (length eol) with 2%nat in E.
        destruct (header_text h); [easy|]. cbn [length] in E. lia. }
    rewrite <- !app_assoc. rewrite find_crlf by assumption.
    change (skipn 2 (eol ++ lines_text (map header_text hs) ++ eol ++ b)) with (lines_text (map header_text hs) ++ eol ++ b).
    rewrite IH; [|assumption|cbn in F; lia].
    destruct U1 as [k n v Nv]. destruct Oh as (_ & _ & Nk). unfold header_text. cbn [fst snd app] in *.
    unfold colon. rewrite cut_app by assumption. rewrite skip_spaces_pad by assumption. reflexivity.
Qed.

Lemma cstr_app a b : ~ In 0 a -> cstr (a ++ b) = a ++ cstr b.
Proof.
  induction a as [|c a IH]; cbn; intros N; [reflexivity|].
  destruct (c =? 0) eqn:E; [exfalso; apply N; left; lia|]. rewrite IH; [reflexivity|]. intros K. apply N. now right.
Qed.
Lemma no_nul_headers hs : Forall (fun h => no_nul (fst h) /\ no_nul (snd h)) hs -> no_nul (concat (map header_line hs)).
Proof.
  induction 1 as [|[k v] hs [A B] _ IH]; cbn; [easy|]. unfold no_nul, header_line in *. cbn in *. rewrite !in_app_iff. cbn.
  rewrite !in_app_iff. cbn. intuition lia.
Qed.
Lemma no_nul_app a b : no_nul (a ++ b) <-> no_nul a /\ no_nul b.
Proof. unfold no_nul. rewrite in_app_iff. tauto. Qed.

Lemma header_count hs : (length hs <= length (concat (map header_line hs)))%nat.
Proof. induction hs as [|h hs IH]; cbn; [lia|]. unfold header_line at 1. rewrite !app_length. cbn. lia. Qed.

Theorem request_ok m p q hs hs' b :
  ~ In 32 m -> ~ In 32 (target p q) -> ~ In 63 p ->
  one_line m -> one_line (target p q) -> no_nul m -> no_nul (target p q) ->
  Forall header_ok hs -> Forall (fun h => no_nul (fst h) /\ no_nul (snd h)) hs -> Forall2 unpadded hs hs' ->
  exists ql, match q with None => ql = [] | Some q => parse_query q = Some ql end /\
    parse_request (message (request_line m (target p q)) hs b) = Some (Some (Req m p ql hs' b)).
Proof.
  intros S1 S2 Q1 O1 O2 N1 N2 OH NH U.
  assert (exists ql, match q with None => ql = [] | Some q => parse_query q = Some ql end) as (ql & EQ).
  { destruct q as [q|]; [|eauto]. unfold parse_query. pose proof (query_some (S (length q)) q (Nat.lt_succ_diag_r _)) as K.
    destruct (query_loop (S (length q)) q) as [l|]; [eauto|easy]. }
  exists ql. split; [exact EQ|]. unfold parse_request.
  set (data := message (request_line m (target p q)) hs b).
  assert (D : data = m ++ space :: target p q ++ space :: bs "HTTP/1.1" ++ eol ++ concat (map header_line hs) ++ eol ++ b).
  { unfold data, message, request_line, space. rewrite <- !app_assoc. reflexivity. }
  destruct (length data <? 10)%nat eqn:EL.
  { exfalso. rewrite D in EL. rewrite !app_length in EL. cbn [length] in EL. rewrite !app_length in EL. cbn [length] in EL.
    rewrite !app_length in EL. cbn in EL. lia. }
  clear EL. rewrite D at 1. rewrite cut_app by assumption. rewrite cut_app by assumption.
  assert (T : (match cut 63 (target p q) with
                 | Some (p, q) => match parse_query q with Some l => Some (p, l) | None => None end
                 | None => Some (target p q, []) end) = Some (p, ql)).
  { destruct q as [q|]; cbn [target] in *.
    - rewrite cut_app by assumption. now rewrite EQ.
    - rewrite cut_none by assumption. now subst. }
  rewrite T. clear T.
  assert (NL : ~ In 13 (request_line m (target p q))).
  { unfold request_line. rewrite !in_app_iff. destruct O1 as [O1 _], O2 as [O2 _]. cbn. intuition lia. }
  assert (C : cstr data = request_line m (target p q) ++ eol ++ lines_text (map header_text hs) ++ eol ++ cstr b).
  { unfold data, message. rewrite header_line_text. rewrite !app_assoc. rewrite cstr_app; [reflexivity|].
    fold (no_nul ((((request_line m (target p q) ++ eol) ++ lines_text (map header_text hs)) ++ eol))).
    rewrite <- header_line_text. unfold request_line. rewrite !no_nul_app. pose proof (no_nul_headers hs NH).
    unfold no_nul in *. cbn. intuition lia. }
  rewrite C. assert (LO : Forall line_ok (map header_text hs)).
  { apply Forall_map. eapply Forall_impl; [|exact OH]. apply header_text_ok. }
  destruct (find_blank (cstr b) (map header_text hs) LO _ NL) as (head & -> & HE).
  rewrite find_crlf by assumption.
  change (skipn 2 (eol ++ lines_text (map header_text hs) ++ eol ++ cstr b)) with (lines_text (map header_text hs) ++ eol ++ cstr b).
  rewrite (header_loop_ok (cstr b) hs hs' OH U).
  2:{ rewrite !app_length. rewrite <- header_line_text. pose proof (header_count hs). lia. }
  repeat f_equal. unfold data, message. rewrite header_line_text.
  replace (request_line m (target p q) ++ eol ++ lines_text (map header_text hs) ++ eol ++ b) with ((head ++ blank_line) ++ b).
  - replace (length head + 4)%nat with (length (head ++ blank_line)) by (rewrite app_length; reflexivity).
    rewrite skipn_app, skipn_all. rewrite Nat.sub_diag. reflexivity.
  - change blank_line with (eol ++ eol). rewrite <- !app_assoc. rewrite (app_assoc head), HE. now rewrite <- !app_assoc.
Qed.

(** unique reading of a message *)
Lemma line_unique a x b y : ~ In 13 a -> ~ In 13 b -> a ++ eol ++ x = b ++ eol ++ y -> a = b /\ x = y.
Proof.
  revert b. induction a as [|c a IH]; intros [|d b] A B E; cbn in E.
  - injection E as E. auto.
  - exfalso. injection E as <- _. apply B. now left.
  - exfalso. injection E as -> _. apply A. now left.
  - injection E as -> E. destruct (IH b) as [-> ->]; auto; intros K; [apply A|apply B]; now right.
Qed.
Lemma key_unique (k v k' v' : bytes) : ~ In 58 k -> ~ In 58 k' -> k ++ 58 :: v = k' ++ 58 :: v' -> k = k' /\ v = v'.
Proof.
  revert k'. induction k as [|c a IH]; intros [|d b] A B E; cbn in E.
  - injection E as E. auto.
  - exfalso. injection E as <- _. apply B. now left.
  - exfalso. injection E as -> _. apply A. now left.
  - injection E as -> E. destruct (IH b) as [-> ->]; auto; intros K; [apply A|apply B]; now right.
Qed.
Theorem message_unique l hs b l' hs' b' : one_line l -> one_line l' -> Forall header_ok hs -> Forall header_ok hs' ->
  message l hs b = message l' hs' b' -> l = l' /\ hs = hs' /\ b = b'.
Proof.
  intros [A _] [A' _] H H' E. unfold message in E. apply line_unique in E; [|assumption..]. destruct E as [-> E]. split; [reflexivity|].
  revert hs' H' E. induction H as [|h hs Hh H IH]; intros hs' H' E; destruct H' as [|h' hs' Hh' H']; cbn [map concat app] in E.
  - split; [reflexivity|]. injection E as E. exact E.
  - exfalso. pose proof (header_text_ok h' Hh') as [K1 K2]. unfold header_line in E. unfold header_text in *.
    destruct (fst h'); cbn in E; injection E as E1 E2; try easy; subst. apply K1. now left.
  - exfalso. pose proof (header_text_ok h Hh) as [K1 K2]. unfold header_line in E. unfold header_text in *.
    destruct (fst h); cbn in E; injection E as E1 E2; try easy; subst. apply K1. now left.
  - destruct (header_text_ok h Hh) as [K1 _]. destruct (header_text_ok h' Hh') as [K1' _].
    assert (E2 : header_text h ++ eol ++ concat (map header_line hs) ++ eol ++ b = header_text h' ++ eol ++ concat (map header_line hs') ++ eol ++ b').
    { unfold header_line in E at 1 3. unfold header_text. rewrite <- !app_assoc in E. rewrite <- !app_assoc. exact E. }
    apply line_unique in E2; [|assumption..]. destruct E2 as [E1 E2]. destruct (IH hs' H' E2) as [-> ->]. split; [|reflexivity].
    f_equal. destruct h as [k v], h' as [k' v']. destruct Hh as (_ & _ & N), Hh' as (_ & _ & N'). unfold header_text in E1. cbn in *.
    destruct (key_unique k v k' v' N N' E1) as [-> ->]. reflexivity.
Qed.

(** the response *)
Definition cors_headers (origin : option bytes) : list (bytes * bytes) :=
  match origin with
  | None => []
  | Some o => [(bs "Access-Control-Allow-Origin", [32] ++ o);
               (bs "Access-Control-Allow-Methods", bs " GET, POST, PUT, DELETE, PATCH, OPTIONS");
               (bs "Access-Control-Allow-Headers", bs " Content-Type, Authorization")]
  end.
Lemma cors_text_ok origin : (forall o, origin = Some o -> (length o <= 351)%nat) ->
  cors_text origin = concat (map header_line (cors_headers origin)).
Proof.
  intros L. destruct origin as [o|]; [|reflexivity]. specialize (L o eq_refl). cbn [cors_text].
  unfold printed. rewrite firstn_all2.
  - unfold cors_headers, header_line. cbn [map concat fst snd]. rewrite <- !app_assoc, app_nil_r. reflexivity.
  - rewrite !app_length. cbn. lia.
Qed.
Definition status_line (st : Z) : bytes := bs "HTTP/1.1 " ++ dec st ++ [32] ++ reason st.
Definition content_headers (ctype rbody : bytes) (origin : option bytes) : list (bytes * bytes) :=
  [(bs "Content-Type", [32] ++ ctype); (bs "Content-Length", [32] ++ dec (Z.of_nat (length rbody)))] ++
  cors_headers origin ++ [(bs "Connection", bs " close")].
Definition redirect_headers (loc : bytes) (origin : option bytes) : list (bytes * bytes) :=
  [(bs "Location", [32] ++ loc); (bs "Content-Length", bs " 0")] ++ cors_headers origin ++ [(bs "Connection", bs " close")].
Lemma wrap32 x : 0 <= x < 2 ^ 31 -> wrap_i 32 x = x.
Proof.
  intros H. unfold wrap_i. change (2 ^ (32 - 1)) with 2147483648. change (2 ^ 32) with 4294967296. change (2 ^ 31) with 2147483648 in H.
  cbv zeta. rewrite Z.mod_small by lia. destruct (x <? 2147483648) eqn:E; lia.
Qed.
Lemma dec_signed_pos x : 0 <= x -> dec_signed x = dec x.
Proof. intros H. unfold dec_signed. destruct (x <? 0) eqn:E; [lia|reflexivity]. Qed.

Theorem response_content st ctype rbody origin : 0 <= st < 2 ^ 31 -> ~ (300 <= st < 400 /\ rbody <> []) ->
  no_nul ctype -> no_nul rbody -> (forall o, origin = Some o -> (length o <= 351)%nat) ->
  (length (message (status_line st) (content_headers ctype rbody origin) rbody) < buf_size)%nat ->
  response st ctype rbody origin = message (status_line st) (content_headers ctype rbody origin) rbody.
Proof.
  intros H NR N1 N2 LO LT. unfold response. rewrite wrap32 by assumption.
  destruct ((300 <=? st) && (st <? 400) && (0 <? Z.of_nat (length rbody))) eqn:E.
  { exfalso. apply NR. split; [lia|]. intros ->. cbn in E. lia. }
  unfold field. rewrite !cstr_id by assumption. rewrite !dec_signed_pos by lia. rewrite cors_text_ok by assumption.
  match goal with |- printed _ ?t = ?m => assert (t = m) as -> end.
  { unfold message, status_line, content_headers, crlf, space. rewrite !map_app, !concat_app. unfold header_line at 2 4.
    cbn [map concat fst snd]. unfold header_line at 1. cbn [fst snd]. rewrite <- !app_assoc. cbn [app]. rewrite <- ?app_assoc. reflexivity. }
  unfold printed. apply firstn_all2. lia.
Qed.
Theorem response_redirect st ctype loc origin : 300 <= st < 400 -> loc <> [] ->
  no_nul loc -> (forall o, origin = Some o -> (length o <= 351)%nat) ->
  (length (message (status_line st) (redirect_headers loc origin) []) < buf_size)%nat ->
  response st ctype loc origin = message (status_line st) (redirect_headers loc origin) [].
Proof.
  intros H NE N2 LO LT. unfold response. rewrite wrap32 by (change (2 ^ 31) with 2147483648; lia).
  destruct ((300 <=? st) && (st <? 400) && (0 <? Z.of_nat (length loc))) eqn:E.
  2:{ exfalso. destruct loc; [easy|]. cbn [length] in E. lia. }
  unfold field. rewrite !cstr_id by assumption. rewrite !dec_signed_pos by lia. rewrite cors_text_ok by assumption.
  match goal with |- printed _ ?t = ?m => assert (t = m) as -> end.
  { unfold message, status_line, redirect_headers, crlf, space. rewrite !map_app, !concat_app. unfold header_line at 2 4.
    cbn [map concat fst snd]. unfold header_line at 1. cbn [fst snd]. rewrite <- !app_assoc. cbn [app]. rewrite <- ?app_assoc. reflexivity. }
  unfold printed. apply firstn_all2. lia.
Qed.
