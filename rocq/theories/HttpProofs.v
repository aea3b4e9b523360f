(** Lemmas for HttpProps. *)
From Verif Require Import Base BaseFacts StringsModel StrconvModel ServerSpec ServerModel ServerProofs ServerProofs2 HttpSpec HttpModel Decimal DecimalFacts.

Lemma starts_iff p : forall s, starts p s = true <-> exists r, s = p ++ r.
Proof.
  induction p as [|x p IH]; intros s; cbn [starts].
  - split; [intros _; now exists s|reflexivity].
  - destruct s as [|y s]; [split; [discriminate|intros (r & E); discriminate]|]. rewrite andb_true_iff, IH, Z.eqb_eq. split.
    + intros (-> & r & ->). now exists r.
    + intros (r & E). injection E as -> ->. split; [reflexivity|now exists r].
Qed.
Lemma digit_lt c : is_digit c -> digit_value c = c - 48 /\ (digit_value c <? 10) = true.
Proof. unfold is_digit, digit_value, isdigit. intros H. destruct ((48 <=? c) && (c <=? 57)) eqn:E; lia. Qed.
Lemma not_digit c : ~ is_digit c -> (digit_value c <? 10) = false.
Proof.
  unfold is_digit, digit_value, isdigit, isupper, islower. intros H. destruct ((48 <=? c) && (c <=? 57)) eqn:E; [lia|].
  destruct ((65 <=? c) && (c <=? 90)) eqn:E2; [lia|]. destruct ((97 <=? c) && (c <=? 122)) eqn:E3; lia.
Qed.
Definition stops (rest : bytes) : Prop := match rest with [] => True | c :: _ => ~ is_digit c end.
Lemma take_dec ds rest : Forall is_digit ds -> stops rest -> forall acc n, take_digits 10 acc n (ds ++ rest) = (dec_val_from acc ds, (n + length ds)%nat, rest).
Proof.
  intros D N. induction D as [|c ds H _ IH]; intros acc n.
  - cbn [app length]. rewrite Nat.add_0_r. destruct rest as [|c rest]; [reflexivity|]. cbn [take_digits]. rewrite not_digit by exact N. reflexivity.
  - cbn [app take_digits length]. destruct (digit_lt c H) as (-> & E). replace (c - 48 <? 10) with true by (unfold is_digit in H; lia).
    rewrite IH. cbn [dec_val_from]. rewrite <- plus_n_Sm. reflexivity.
Qed.
Lemma atoi_dec p rest : 0 <= p <= INT32_MAX -> stops rest -> atoi (dec p ++ rest) = p.
Proof.
  intros P N. unfold atoi, c_strto. destruct (dec_spec p ltac:(lia)) as (_ & V). pose proof (dec_digit p ltac:(lia)) as D. pose proof (dec_nonempty p ltac:(lia)) as NE.
  destruct (dec p) as [|c ds] eqn:E; [congruence|]. assert (DC : is_digit c) by (inversion D; assumption).
  assert (S1 : skip_space ((c :: ds) ++ rest) = (c :: ds) ++ rest).
  { cbn [app skip_space]. unfold isspace, is_digit in *. replace (((9 <=? c) && (c <=? 13)) || (c =? 32)) with false by lia. reflexivity. }
  rewrite S1. assert (S2 : take_sign ((c :: ds) ++ rest) = (false, (c :: ds) ++ rest)).
  { cbn [app take_sign]. unfold is_digit in *. destruct (Z.eqb_spec c 45); [lia|]. destruct (Z.eqb_spec c 43); [lia|]. reflexivity. }
  rewrite S2. assert (S3 : take_prefix 10 ((c :: ds) ++ rest) = (c :: ds) ++ rest).
  { unfold take_prefix. cbn [app]. destruct (ds ++ rest) as [|x [|d q]]; reflexivity. }
  rewrite S3, take_dec by assumption. cbn [length Nat.eqb Nat.add]. change (dec_val_from 0 (c :: ds)) with (dec_val (c :: ds)). rewrite V. unfold clamp64. unfold INT32_MAX, INT64_MIN, INT64_MAX in *. rewrite Z.min_r by lia. rewrite Z.max_r by lia. apply wrap32. lia.
Qed.

(** ** URLs *)
Lemma bad_host_spec h r : ~ In 47 h -> ~ In 58 h -> bad_host (h ++ r) = false -> Forall (fun c => ~ breaks c) h.
Proof.
  induction h as [|c h IH]; intros A B H; [constructor|]. cbn [app bad_host] in H. destruct (Z.eqb_spec c 47) as [->|N1]; [elim A; now left|].
  destruct (Z.eqb_spec c 58) as [->|N2]; [elim B; now left|]. cbn [orb] in H. destruct (breaking c) eqn:E; [discriminate|]. constructor.
  - unfold breaking in E. unfold breaks. lia.
  - apply IH; [intros K; apply A; now right|intros K; apply B; now right|exact H].
Qed.
Lemma bad_host_ok h r : Forall host_char h -> match r with [] => True | c :: _ => c = 47 \/ c = 58 end -> bad_host (h ++ r) = false.
Proof.
  intros F R. induction F as [|c h (A & B & C & _) _ IH].
  - cbn [app]. destruct r as [|c r]; [reflexivity|]. cbn [bad_host]. destruct R as [-> | ->]; reflexivity.
  - cbn [app bad_host]. destruct (Z.eqb_spec c 47); [congruence|]. destruct (Z.eqb_spec c 58); [congruence|]. cbn [orb].
    destruct (breaking c) eqn:E; [elim A; unfold breaking in E; unfold breaks; lia|exact IH].
Qed.
Lemma cstr_no_nul s : ~ In 0 (cstr s).
Proof. induction s as [|c s IH]; cbn; [tauto|]. destruct (Z.eqb_spec c 0); [intros []|]. intros [K|K]; [congruence|now apply IH]. Qed.
Lemma firstn_forall {A} (P : A -> Prop) n l : Forall P l -> Forall P (firstn n l).
Proof. intros H. revert n. induction H; intros [|n]; cbn; constructor; auto. Qed.
Lemma firstn_in {A} n (l : list A) x : In x (firstn n l) -> In x l.
Proof. intros H. rewrite <- (firstn_skipn n l). apply in_or_app. now left. Qed.
Lemma parse_url_safe u host port path : ~ In 0 u -> parse_url u = Some (host, port, path) ->
  host <> [] /\ Forall host_char host /\ (length host <= 255)%nat /\ (exists r, path = 47 :: r) /\ one_line path /\ ~ In 0 path /\ (length path <= Z.to_nat 2047)%nat.
Proof.
  intros NU. unfold parse_url. set (km := Z.to_nat 2047). assert (KM : (1 <= km)%nat) by (unfold km; lia). clearbody km. destruct (starts (bs "http://") u) eqn:ES; [|discriminate]. cbn [negb]. apply starts_iff in ES. destruct ES as (s & ->).
  change (skipn 7 (bs "http://" ++ s)) with s. assert (NS : ~ In 0 s) by (intros K; apply NU, in_or_app; now right). clear NU.
  destruct s as [|c0 s0] eqn:Es; [discriminate|]. rewrite <- Es in *. destruct ((c0 =? 47) || (c0 =? 58)) eqn:E0; [discriminate|]. apply orb_false_iff in E0. destruct E0 as (E01 & E02).
  destruct (bad_host s) eqn:EB; [discriminate|].
  set (auth := match cut 47 s with Some (a, _) => a | None => s end).
  assert (HA : exists t, s = auth ++ t /\ ~ In 47 auth /\ (t = [] \/ exists t', t = 47 :: t')).
  { unfold auth. destruct (cut_cases 47 s) as [(N & ->) | (a & b & E & N & ->)]; [exists []; rewrite app_nil_r; auto|exists (47 :: b); eauto]. }
  destruct HA as (t & ES & NA & T). clearbody auth.
  set (hp := match cut 58 auth with Some (h, _) => (firstn 255 h, match cut 58 s with Some (_, r) => atoi r | None => 0 end) | None => (firstn 255 auth, 80) end).
  assert (HP : fst hp <> [] /\ Forall host_char (fst hp) /\ (length (fst hp) <= 255)%nat).
  { assert (G : forall h x, s = h ++ x -> ~ In 47 h -> ~ In 58 h -> h <> [] -> firstn 255 h <> [] /\ Forall host_char (firstn 255 h) /\ (length (firstn 255 h) <= 255)%nat).
    { intros h x E A B N. split; [destruct h; [congruence|discriminate]|]. split.
      - apply firstn_forall. rewrite E in EB. pose proof (bad_host_spec h x A B EB) as F. rewrite Forall_forall in *. intros c K. split; [now apply F|].
        split; [intros ->; now apply A|]. split; [intros ->; now apply B|]. intros ->. apply NS. rewrite E. apply in_or_app. now left.
      - rewrite firstn_length. lia. }
    unfold hp. destruct (cut_cases 58 auth) as [(N & ->) | (a & b & E & N & ->)]; cbn [fst].
    - apply (G auth t ES NA N). intros ->. cbn [app] in ES. rewrite Es in ES. destruct T as [T | (t' & T)]; rewrite T in ES; [discriminate|]. injection ES as -> _. discriminate.
    - apply (G a (58 :: b ++ t)); [rewrite ES, E, <- app_assoc; reflexivity| |exact N|].
      + intros K. apply NA. rewrite E. apply in_or_app. now left.
      + intros ->. cbn [app] in E. rewrite E in ES. cbn [app] in ES. rewrite Es in ES. injection ES as -> _. discriminate. }
  clearbody hp. destruct hp as (h & p). cbn [fst] in HP. destruct HP as (H1 & H2 & H3).
  destruct (cut_cases 47 s) as [(N & ->) | (a & b & E & N & ->)].
  - destruct h as [|x h]; [congruence|]. intros [= <- <- <-]. split; [discriminate|]. split; [exact H2|]. split; [exact H3|]. split; [now exists []|].
    split; [split; vm_compute; intuition discriminate|]. split; [vm_compute; intuition discriminate|]. cbn [length]. lia.
  - destruct (existsb _ _) eqn:EX; [discriminate|]. destruct h as [|x h]; [congruence|]. intros [= <- <- <-]. split; [discriminate|]. split; [exact H2|]. split; [exact H3|].
    split. { destruct km as [|km]; [lia|]. cbn [firstn]. eauto. }
    assert (O : forall c, In c (firstn km (47 :: b)) -> c <> 13 /\ c <> 10).
    { intros c K. assert (X : ((c =? 13) || (c =? 10)) = false).
      { destruct ((c =? 13) || (c =? 10)) eqn:Y; [|reflexivity]. exfalso. assert (existsb (fun c => (c =? 13) || (c =? 10)) (firstn km (47 :: b)) = true) by (apply existsb_exists; exists c; auto). congruence. }
      lia. }
    split; [split; intros K; apply O in K; lia|]. split.
    + intros K. apply firstn_in in K. apply NS. rewrite E. apply in_or_app. now right.
    + rewrite firstn_length. lia.
Qed.
Lemma parse_url_exact host port path : host <> [] -> Forall host_char host -> (length host <= 255)%nat -> path_ok path -> Z.of_nat (length path) <= 2047 ->
  match port with Some p => 0 <= p <= INT32_MAX | None => True end ->
  parse_url (url_of host port path) = Some (host, url_port port, url_path path).
Proof.
  intros N F L P LP PP. unfold parse_url, url_of.
  assert (S1 : starts (bs "http://") (bs "http://" ++ host ++ (match port with Some p => 58 :: dec p | None => [] end) ++ path) = true) by (apply starts_iff; eauto).
  rewrite S1. cbn [negb]. change (skipn 7 (bs "http://" ++ ?x)) with x. set (pt := match port with Some p => 58 :: dec p | None => [] end).
  change (skipn 7 (bs "http://" ++ host ++ pt ++ path)) with (host ++ pt ++ path).
  assert (D : forall c, In c pt -> c = 58 \/ is_digit c).
  { intros c. unfold pt. destruct port as [p|]; [|intros []]. intros [<-|K]; [now left|]. right. pose proof (dec_digit p ltac:(lia)) as DD. rewrite Forall_forall in DD. now apply DD. }
  assert (H47 : ~ In 47 host /\ ~ In 58 host) by (rewrite Forall_forall in F; split; intros K; destruct (F _ K) as (_ & A & B & _); congruence). destruct H47 as (H47 & H58).
  assert (N47 : ~ In 47 (host ++ pt)). { intros K. apply in_app_or in K. destruct K as [K|K]; [now apply H47|]. destruct (D _ K) as [X|X]; unfold is_digit in X; lia. }
  destruct host as [|h0 host'] eqn:EH; [congruence|]. rewrite <- EH in *. assert (F0 : host_char h0) by (rewrite EH in F; inversion F; assumption).
  replace (match host ++ pt ++ path with [] => true | c :: _ => (c =? 47) || (c =? 58) end) with false.
  2: { rewrite EH. cbn [app]. destruct F0 as (_ & A & B & _). destruct (Z.eqb_spec h0 47); [congruence|]. destruct (Z.eqb_spec h0 58); [congruence|]. reflexivity. }
  rewrite bad_host_ok; [|exact F|].
  2: { unfold pt. destruct port; [now right|]. cbn [app]. destruct P as [-> | (r & -> & _)]; [exact Logic.I|now left]. }
  assert (FH : firstn 255 host = host) by (apply firstn_all2; exact L). cbv zeta.
  assert (C58 : cut 58 (host ++ pt) = match port with Some p => Some (host, dec p) | None => None end).
  { unfold pt. destruct port; [now apply cut_app|rewrite app_nil_r; now apply cut_none]. }
  assert (HN : forall (x y : bytes * Z * bytes), match host with [] => None | _ :: _ => Some y end = Some y) by (rewrite EH; reflexivity).
  destruct P as [-> | (r & -> & O & NZ)].
  - rewrite app_nil_r. rewrite (cut_none 47) by exact N47. cbv beta iota. rewrite C58. destruct port as [p|]; cbv beta iota; cbn [url_port url_path].
    + rewrite FH. rewrite <- (app_nil_r (dec p)). rewrite atoi_dec; [|exact PP|exact Logic.I]. now apply HN.
    + unfold pt. rewrite app_nil_r, FH. now apply HN.
  - rewrite app_assoc. rewrite (cut_app 47) by exact N47. cbv beta iota. rewrite C58. cbn [url_path].
    rewrite (firstn_all2 (n := Z.to_nat 2047)) by lia. cbn beta. destruct (existsb (fun c => (c =? 13) || (c =? 10)) (47 :: r)) eqn:EX.
    { apply existsb_exists in EX. destruct EX as (c & K & C). destruct O as (O1 & O2). exfalso. assert (X : c = 13 \/ c = 10) by lia. destruct X as [-> | ->]; [now apply O1|now apply O2]. }
    destruct port as [p|]; cbv beta iota; cbn [url_port].
    + unfold pt. rewrite FH, <- app_assoc. change ((58 :: dec p) ++ 47 :: r) with (58 :: (dec p ++ 47 :: r)). rewrite cut_app by exact H58.
      rewrite atoi_dec; [|exact PP|unfold stops, is_digit; lia]. now apply HN.
    + unfold pt. rewrite app_nil_r, FH. now apply HN.
Qed.

(** ** Requests *)
Lemma first_lines_text m path host body : first_lines m path host body = request_line m path ++ eol ++ concat (map header_line (own_headers host body)).
Proof.
  unfold first_lines, request_line, own_headers, header_line. destruct body; cbn [app map concat fst snd]; rewrite <- ?app_assoc; cbn [app]; rewrite <- ?app_assoc; reflexivity.
Qed.
Lemma append_ok hs : forall text, Forall (fun h => no_nul (fst h) /\ no_nul (snd h)) hs ->
  Z.of_nat (length (text ++ concat (map header_line (map spaced hs)))) <= 4096 ->
  append_headers text hs = Ok (text ++ concat (map header_line (map spaced hs))).
Proof.
  induction hs as [|(k & v) hs IH]; intros text N L; cbn [append_headers map concat] in *.
  - now rewrite app_nil_r.
  - inversion N as [|? ? (NK & NV) N']; subst. cbn [fst snd] in *. unfold header_buf.
    destruct (Z.ltb_spec 4096 (Z.of_nat (length text))) as [K|K]; [rewrite app_length in L; lia|].
    rewrite (cstr_id k), (cstr_id v) by assumption. rewrite IH; [|exact N'|].
    + f_equal. unfold header_line, spaced. cbn [fst snd]. rewrite <- !app_assoc. cbn [app]. rewrite <- ?app_assoc. reflexivity.
    + etransitivity; [|exact L]. apply Nat2Z.inj_le. apply Nat.eq_le_incl. f_equal. unfold header_line, spaced. cbn [fst snd]. rewrite <- !app_assoc. cbn [app]. rewrite <- ?app_assoc. reflexivity.
Qed.
Lemma build_ok m path host body hs : Forall (fun h => no_nul (fst h) /\ no_nul (snd h)) hs ->
  Z.of_nat (length (request_for m host path body hs)) - Z.of_nat (length body) < 4096 ->
  build m path host body hs = Ok (Some (request_for m host path body hs)).
Proof.
  intros N L. unfold build. unfold request_for, message in *. rewrite map_app, concat_app in *.
  set (hl := concat (map header_line (map spaced hs))) in *.
  assert (TL : Z.of_nat (length (first_lines m path host body ++ hl)) + 2 < 4096).
  { rewrite first_lines_text. rewrite !app_length in *. change (length eol) with 2%nat in *. lia. }
  rewrite append_ok by (assumption || fold hl; lia). fold hl. unfold header_buf. destruct (Z.ltb_spec (Z.of_nat (length (first_lines m path host body ++ hl)) + 2) 4096); [|lia].
  assert (TL2 : Z.of_nat (length ((first_lines m path host body ++ hl) ++ crlf)) < 4096) by (rewrite app_length; change (length crlf) with 2%nat; lia).
  destruct (Z.leb_spec 4096 (Z.of_nat (length ((first_lines m path host body ++ hl) ++ crlf)))); [lia|].
  do 2 f_equal. rewrite first_lines_text, <- !app_assoc. reflexivity.
Qed.

(** ** Responses *)
Lemma receive_ok cuts : forall total stream, 0 <= total -> total + Z.of_nat (length stream) <= 1048575 -> (length stream <= length cuts)%nat -> Forall (fun n => 1 <= n)%nat cuts ->
  receive total stream cuts = Ok stream.
Proof.
  induction cuts as [|n cuts IH]; intros total stream T L C F; cbn [receive]; unfold resp_buf.
  - destruct stream; [|cbn [length] in C; lia]. destruct (Z.ltb_spec total (1048576 - 1)); [reflexivity|]. destruct (Z.eqb_spec total 1048576); [lia|reflexivity].
  - destruct (Z.ltb_spec total (1048576 - 1)) as [K|K].
    + inversion F as [|? ? N F']; subst. destruct stream as [|c stream]; [now rewrite firstn_nil|].
      set (m := Nat.min n (Z.to_nat (1048576 - total))). assert (M : (1 <= m)%nat) by lia. clearbody m.
      set (chunk := firstn m (c :: stream)). assert (CL : (1 <= length chunk <= length (c :: stream))%nat) by (unfold chunk; rewrite firstn_length; cbn [length]; lia).
      assert (CE : c :: stream = chunk ++ skipn (length chunk) (c :: stream)).
      { unfold chunk. rewrite firstn_length. destruct (Nat.le_ge_cases m (length (c :: stream))) as [X|X].
        - rewrite Nat.min_l by exact X. symmetry. apply firstn_skipn.
        - rewrite Nat.min_r by exact X. rewrite skipn_all, app_nil_r. symmetry. now apply firstn_all2. }
      rewrite IH; [|lia| | |exact F'].
      * destruct chunk; [cbn [length] in CL; lia|]. now rewrite <- CE.
      * rewrite skipn_length. lia.
      * rewrite skipn_length. cbn [length] in *. lia.
    + destruct (Z.eqb_spec total 1048576); [lia|]. destruct stream; [reflexivity|cbn [length] in L; lia].
Qed.
Lemma drop_cr_end v : drop_cr (v ++ [13]) = v.
Proof. unfold drop_cr. rewrite rev_app_distr. cbn [rev app]. change (13 =? 13) with true. cbn iota. apply rev_involutive. Qed.
Lemma skip_pad_cr n v : (forall v', v <> 32 :: v') -> skip_spaces ((List.repeat 32 n ++ v) ++ [13]) = v ++ [13].
Proof.
  intros N. rewrite <- app_assoc. apply skip_spaces_pad. destruct v as [|c v]; cbn [app]; [intros v' K; discriminate|].
  intros v' K. injection K as -> _. now apply (N v).
Qed.
Lemma resp_headers_ok b hs hs' : Forall header_ok hs -> Forall2 unpadded hs hs' -> forall fuel, (length hs < fuel)%nat ->
  resp_headers fuel (concat (map header_line hs) ++ eol ++ b) (length (blank_line ++ b)) = Some (removelast hs').
Proof.
  intros O U. revert O. induction U as [|h h' hs hs' U1 U IH]; intros O fuel F.
  - destruct fuel; [lia|]. cbn [resp_headers map concat app]. rewrite !app_length. change (length blank_line) with 4%nat. change (length eol) with 2%nat.
    destruct (4 + length b <? 2 + length b)%nat eqn:E; [lia|reflexivity].
  - inversion_clear O as [|? ? Oh Os]. destruct fuel; [lia|]. cbn [resp_headers map concat].
    destruct U1 as [k n v Nv]. destruct Oh as ((_ & K10) & (_ & V10) & Nk). cbn [fst snd] in *.
    set (pv := List.repeat 32 n ++ v) in *.
    assert (E0 : (header_line (k, pv) ++ concat (map header_line hs)) ++ eol ++ b = (k ++ 58 :: pv ++ [13]) ++ 10 :: (concat (map header_line hs) ++ eol ++ b)).
    { unfold header_line, eol. cbn [fst snd]. rewrite <- !app_assoc. cbn [app]. rewrite <- !app_assoc. reflexivity. }
    rewrite E0. set (rest := concat (map header_line hs) ++ eol ++ b) in *.
    assert (N10 : ~ In 10 (k ++ 58 :: pv ++ [13])).
    { intros K. apply in_app_or in K. destruct K as [K|[K|K]]; [now apply K10|discriminate|]. apply in_app_or in K. destruct K as [K|[K|[]]]; [now apply V10|discriminate]. }
    assert (LR : (2 + length b <= length rest)%nat) by (unfold rest; rewrite !app_length; change (length eol) with 2%nat; lia).
    rewrite cut_app by exact N10. rewrite !app_length. cbn [length]. rewrite app_length. change (length [13]) with 1%nat. change (length blank_line) with 4%nat.
    destruct (4 + length b <? length k + S (length pv + 1) + S (length rest))%nat eqn:E; [|lia].
    replace (k ++ 58 :: pv ++ [13]) with (k ++ colon :: (pv ++ [13])) by reflexivity.
    rewrite cut_app by exact Nk. unfold pv. rewrite skip_pad_cr, drop_cr_end by exact Nv.
    destruct hs as [|h2 hs].
    + inversion U; subst. cbn [removelast]. assert (RL : length rest = (2 + length b)%nat) by (unfold rest; cbn [map concat app]; rewrite ?app_length; reflexivity).
      rewrite RL. destruct (S (2 + length b) <? 4 + length b)%nat eqn:E2; [reflexivity|lia].
    + assert (RL : (5 + length b <= length rest)%nat).
      { unfold rest. cbn [map concat]. rewrite !app_length. unfold header_line at 1. rewrite !app_length. change (length eol) with 2%nat. cbn [length]. lia. }
      destruct (S (length rest) <? 4 + length b)%nat eqn:E2; [lia|].
      change (4 + length b)%nat with (length (blank_line ++ b)). unfold rest. rewrite IH; [|exact Os|cbn [length] in *; lia].
      inversion U; subst. reflexivity.
Qed.
