(** C51, C52, C91: the HTTP client. *)
From Verif Require Import Base BaseFacts StringsModel StrconvModel ServerSpec ServerModel ServerProofs ServerProofs2 HttpSpec HttpModel HttpProofs Decimal DecimalFacts.

(** ** C51 *)
(** For every URL accepted: a host, free of blanks and line breaks, and a path that starts with '/' and has no line break. *)
Theorem url_safe url host port path : parse_url (url_text url) = Some (host, port, path) ->
  host <> [] /\ Forall host_char host /\ (exists r, path = 47 :: r) /\ one_line path /\ ~ In 0 path.
Proof.
  intros H. apply parse_url_safe in H; [|apply cstr_no_nul]. destruct H as (A & B & _ & C & D & E & _). auto.
Qed.
Lemma own_headers_ok host body : Forall host_char host -> Forall header_ok (own_headers host body).
Proof.
  intros F. assert (OH : one_line (32 :: host)).
  { rewrite Forall_forall in F. split; intros [K|K]; try discriminate; destruct (F _ K) as (A & _); apply A; unfold breaks; auto. }
  assert (OD : one_line (32 :: dec (Z.of_nat (length body)))).
  { pose proof (dec_digit (Z.of_nat (length body)) ltac:(lia)) as D. rewrite Forall_forall in D. split; intros [K|K]; try discriminate; apply D in K; unfold is_digit in K; lia. }
  unfold own_headers. constructor; [|apply Forall_app; split; [destruct body; constructor; [|constructor; [|constructor]]|constructor; [|constructor]]].
  - split; [split; vm_compute; intuition discriminate|]. split; [exact OH|vm_compute; intuition discriminate].
  - split; [split; vm_compute; intuition discriminate|]. split; [exact OD|vm_compute; intuition discriminate].
  - split; [split; vm_compute; intuition discriminate|]. split; [split; vm_compute; intuition discriminate|vm_compute; intuition discriminate].
  - split; [split; vm_compute; intuition discriminate|]. split; [split; vm_compute; intuition discriminate|vm_compute; intuition discriminate].
Qed.
Lemma small_request m host path body : (length m <= 16)%nat -> (length host <= 255)%nat -> (length path <= Z.to_nat 2047)%nat -> Z.of_nat (length body) <= INT32_MAX ->
  Z.of_nat (length (request_for m host path body [])) - Z.of_nat (length body) < 4096.
Proof.
  intros A B C D. assert (DL : (length (dec (Z.of_nat (length body))) <= 10)%nat) by (apply dec_length; [unfold INT32_MAX in D; change (10 ^ Z.of_nat 10) with 10000000000; lia|lia]).
  unfold request_for, message, request_line, own_headers, header_line. destruct body as [|c body]; cbn [map concat app fst snd]; rewrite ?app_length; cbn [length]; rewrite ?app_length; cbn [length]; rewrite ?app_length; cbn [length];
    change (length (bs "HTTP/1.1")) with 8%nat; change (length (bs "Host")) with 4%nat; change (length (bs "Connection")) with 10%nat; change (length (bs " close")) with 6%nat; change (length eol) with 2%nat;
    change (length (bs "Content-Length")) with 14%nat; change (length (bs "Content-Type")) with 12%nat; change (length (bs " application/x-www-form-urlencoded")) with 34%nat; cbn [length] in *; lia.
Qed.
(** Without custom headers the request sent is always well formed: one request line with the path, one Host line with
    the host, the fixed lines, and the body. *)
Theorem request_lines m url body : one_line m -> (length m <= 16)%nat -> Z.of_nat (length body) <= INT32_MAX ->
  (parse_url (url_text url) = None /\ request m url body [] = Ok None) \/
  exists host port path, parse_url (url_text url) = Some (host, port, path) /\
    request m url body [] = Ok (Some (host, port, request_for m host path body [])) /\
    one_line (request_line m path) /\ Forall header_ok (own_headers host body).
Proof.
  intros O L LB. unfold request. destruct (parse_url (url_text url)) as [[[host port] path]|] eqn:E; [right|left; now split].
  apply parse_url_safe in E as S; [|apply cstr_no_nul]. destruct S as (A & B & C & D & F & G & H). exists host, port, path. split; [reflexivity|].
  rewrite build_ok; [|constructor|now apply small_request]. split; [reflexivity|]. split; [|now apply own_headers_ok].
  destruct O as (O1 & O2), F as (F1 & F2). unfold request_line. split; intros K; repeat (apply in_app_or in K; destruct K as [K|K]); auto; vm_compute in K; intuition discriminate.
Qed.
Example request_lines_run : request (bs "GET") (bs "http://example.org:8080/a?b=c") [] [] =
  Ok (Some (bs "example.org", 8080, bs "GET /a?b=c HTTP/1.1" ++ crlf ++ bs "Host: example.org" ++ crlf ++ bs "Connection: close" ++ crlf ++ crlf)) /\
  parse_url (url_text (bs "http://a" ++ crlf ++ bs "X: y/")) = None.
Proof. vm_compute. split; reflexivity. Qed.

(** ** C91 *)
(** The request goes to the host and port of the URL and asks for its path, and custom headers appear as given, when the
    parts fit the client's buffers and the headers are well formed. *)
Theorem request_exact_partial m host port path body hs : host <> [] -> Forall host_char host -> (length host <= 255)%nat ->
  path_ok path -> Z.of_nat (length path) <= 2047 -> match port with Some p => 0 <= p <= 65535 | None => True end ->
  Forall (fun h => no_nul (fst h) /\ no_nul (snd h)) hs ->
  Z.of_nat (length (request_for m host (url_path path) body hs)) - Z.of_nat (length body) < 4096 ->
  request m (url_of host port path) body hs = Ok (Some (host, url_port port, request_for m host (url_path path) body hs)).
Proof.
  intros N F L P LP PP NH LR. unfold request. assert (UT : url_text (url_of host port path) = url_of host port path).
  { unfold url_text. rewrite firstn_all2.
    - apply cstr_id. unfold url_of. intros K. rewrite !in_app_iff in K. destruct K as [K|[K|[K|K]]].
      + vm_compute in K. intuition discriminate.
      + rewrite Forall_forall in F. now destruct (F _ K) as (_ & _ & _ & X).
      + destruct port as [p|]; [|destruct K]. destruct K as [K|K]; [discriminate|]. pose proof (dec_digit p ltac:(lia)) as D. rewrite Forall_forall in D. apply D in K. unfold is_digit in K. lia.
      + destruct P as [-> | (r & _ & _ & X)]; [destruct K|now apply X].
    - unfold url_of. rewrite !app_length. change (length (bs "http://")) with 7%nat.
      assert (DL : (length (match port with Some p => 58%Z :: dec p | None => [] end) <= 6)%nat).
      { destruct port as [p|]; [|cbn; lia]. cbn [length]. assert ((length (dec p) <= 5)%nat) by (apply dec_length; [change (10 ^ Z.of_nat 5) with 100000; lia|lia]). lia. }
      lia. }
  rewrite UT. rewrite parse_url_exact; try assumption.
  - now rewrite build_ok.
  - destruct port; [unfold INT32_MAX; lia|exact Logic.I].
Qed.
(** A longer host is cut: another host is contacted. *)
Theorem host_cut_refuted host : Forall host_char host -> 255 < Z.of_nat (length host) <= 4000 ->
  exists sent, request (bs "GET") (url_of host None []) [] [] = Ok (Some (firstn 255 host, 80, sent)).
Proof.
  intros F L. exists (request_for (bs "GET") (firstn 255 host) (bs "/") [] []). unfold request.
  assert (N0 : ~ In 0 host /\ ~ In 47 host /\ ~ In 58 host) by (rewrite Forall_forall in F; repeat split; intros K; destruct (F _ K) as (_ & A & B & C); congruence). destruct N0 as (N0 & N47 & N58).
  assert (UT : url_text (url_of host None []) = bs "http://" ++ host).
  { unfold url_text, url_of. cbn [app]. rewrite !app_nil_r. rewrite firstn_all2 by (rewrite app_length; change (length (bs "http://")) with 7%nat; lia).
    apply cstr_id. intros K. apply in_app_or in K. destruct K as [K|K]; [vm_compute in K; intuition discriminate|auto]. }
  rewrite UT. assert (PU : parse_url (bs "http://" ++ host) = Some (firstn 255 host, 80, bs "/")).
  { unfold parse_url. assert (S1 : starts (bs "http://") (bs "http://" ++ host) = true) by (apply starts_iff; eauto). rewrite S1. cbn [negb].
    change (skipn 7 (bs "http://" ++ host)) with host. destruct host as [|c h] eqn:EH; [cbn in L; lia|]. rewrite <- EH in *.
    assert (C0 : (c =? 47) || (c =? 58) = false).
    { destruct (Z.eqb_spec c 47) as [->|]; [elim N47; rewrite EH; now left|]. destruct (Z.eqb_spec c 58) as [->|]; [elim N58; rewrite EH; now left|reflexivity]. }
    rewrite C0. pose proof (bad_host_ok host [] F Logic.I) as BH. rewrite app_nil_r in BH. rewrite BH.
    rewrite (cut_none 47), (cut_none 58) by assumption. rewrite EH. reflexivity. }
  rewrite PU, build_ok; [reflexivity|constructor|]. apply small_request; [cbn; lia|rewrite firstn_length; lia|cbn; lia|cbn; unfold INT32_MAX; lia].
Qed.
Example host_cut_applies : Forall host_char (List.repeat 97 (Z.to_nat 300)) /\ 255 < Z.of_nat (length (List.repeat 97 (Z.to_nat 300))) <= 4000.
Proof.
  split; [|rewrite repeat_length; lia]. apply Forall_forall. intros c K. apply repeat_spec in K. subst c. unfold host_char, breaks. lia.
Qed.
(** A line break in a custom header adds a header line; custom headers past the buffer's end write out of bounds; and a
    header block of 4094 or 4095 bytes is sent without the blank line that ends it. *)
Theorem header_injection_refuted : exists sent,
  request (bs "GET") (bs "http://h/") [] [(bs "A", bs "b" ++ crlf ++ bs "Cookie: x")] = Ok (Some (bs "h", 80, sent)) /\
  sent = request_for (bs "GET") (bs "h") (bs "/") [] [(bs "A", bs "b"); (bs "Cookie", bs "x")].
Proof. eexists. split; vm_compute; reflexivity. Qed.
Theorem header_overflow_refuted m url body hs1 k v hs2 host port path text : parse_url (url_text url) = Some (host, port, path) ->
  append_headers (first_lines m path host body) hs1 = Ok text -> 4096 < Z.of_nat (length text) ->
  request m url body (hs1 ++ (k, v) :: hs2) = UB.
Proof.
  intros P A L. unfold request. rewrite P. unfold build. assert (G : append_headers (first_lines m path host body) (hs1 ++ (k, v) :: hs2) = UB); [|now rewrite G].
  revert A. generalize (first_lines m path host body). induction hs1 as [|(k1 & v1) hs1 IH]; intros t; cbn [app append_headers].
  - intros [= ->]. unfold header_buf. destruct (Z.ltb_spec 4096 (Z.of_nat (length text))); [reflexivity|lia].
  - destruct (header_buf <? Z.of_nat (length t)); [discriminate|]. apply IH.
Qed.
Theorem header_unterminated_refuted m url body hs host port path text : parse_url (url_text url) = Some (host, port, path) ->
  append_headers (first_lines m path host body) hs = Ok text -> 4094 <= Z.of_nat (length text) < 4096 ->
  request m url body hs = Ok (Some (host, port, text ++ body)).
Proof.
  intros P A L. unfold request. rewrite P. unfold build. rewrite A. unfold header_buf.
  destruct (Z.ltb_spec (Z.of_nat (length text) + 2) 4096); [lia|]. destruct (Z.leb_spec 4096 (Z.of_nat (length text))); [lia|reflexivity].
Qed.
Definition filler (n : Z) : bytes * bytes := (bs "X", List.repeat 97 (Z.to_nat n)).
Example header_overflow_applies : exists text, append_headers (first_lines (bs "GET") (bs "/") (bs "h") []) [filler 5000] = Ok text /\ (4096 <? Z.of_nat (length text)) = true.
Proof.
  cbn [append_headers filler]. change (header_buf <? Z.of_nat (length (first_lines (bs "GET") (bs "/") (bs "h") []))) with false. cbn iota. eexists. split; [reflexivity|].
  apply Z.ltb_lt. rewrite !app_length. rewrite (cstr_id (List.repeat 97 (Z.to_nat 5000))) by (intros K; apply repeat_spec in K; discriminate). rewrite repeat_length. lia.
Qed.
Example header_unterminated_applies : exists text, append_headers (first_lines (bs "GET") (bs "/") (bs "h") []) [filler 4046] = Ok text /\ Z.of_nat (length text) = 4095.
Proof.
  cbn [append_headers filler]. change (header_buf <? Z.of_nat (length (first_lines (bs "GET") (bs "/") (bs "h") []))) with false. cbn iota. eexists. split; [reflexivity|].
  rewrite !app_length. rewrite (cstr_id (List.repeat 97 (Z.to_nat 4046))) by (intros K; apply repeat_spec in K; discriminate). rewrite repeat_length.
  change (length (first_lines (bs "GET") (bs "/") (bs "h") [])) with 44%nat. change (length crlf) with 2%nat. change (length (cstr (bs "X"))) with 1%nat. change (length (bs ": ")) with 2%nat. lia.
Qed.
Example request_exact_run : request (bs "POST") (url_of (bs "h.org") (Some 99) (bs "/p")) (bs "x=1") [(bs "A", bs "b")] =
  Ok (Some (bs "h.org", 99, request_for (bs "POST") (bs "h.org") (bs "/p") (bs "x=1") [(bs "A", bs "b")])).
Proof. vm_compute. reflexivity. Qed.

(** ** C52 *)
(** For a well-formed response: the status, the body and every header but the last. *)
Theorem response_partial version code reason hs hs' body : 0 <= version <= 9 -> 0 <= code <= INT32_MAX -> one_line reason -> no_nul reason ->
  Forall header_ok hs -> Forall (fun h => no_nul (fst h) /\ no_nul (snd h)) hs -> Forall2 unpadded hs hs' ->
  parse_response (message (status_line version code reason) hs body) = Some (Resp code (removelast hs') body).
Proof.
  intros V C (R13 & R10) RN HO HN U. set (line := status_line version code reason).
  pose proof (dec_digit code ltac:(lia)) as DD. rewrite Forall_forall in DD.
  assert (LI : forall c, In c line -> c = 72 \/ c = 84 \/ c = 80 \/ c = 47 \/ c = 49 \/ c = 46 \/ c = 48 + version \/ c = 32 \/ is_digit c \/ In c reason).
  { intros c K. unfold line, status_line in K. rewrite !in_app_iff in K. destruct K as [K|[K|[K|[K|K]]]].
    - vm_compute in K. intuition.
    - cbn in K. intuition.
    - cbn in K. intuition.
    - apply DD in K. auto 12.
    - destruct K as [<-|K]; auto 12. }
  assert (L13 : ~ In 13 line /\ ~ In 10 line /\ ~ In 0 line).
  { unfold is_digit in *. repeat split; intros K; pose proof (LI _ K) as Q; repeat (destruct Q as [Q|Q]; [lia|]); auto; now apply RN. }
  destruct L13 as (L13 & L10 & L0).
  set (hl := concat (map header_line hs)).
  assert (HL0 : ~ In 0 hl) by (apply no_nul_headers; exact HN).
  assert (TX : cstr (message line hs body) = line ++ eol ++ hl ++ eol ++ cstr body).
  { assert (E0 : ~ In 0 eol) by (vm_compute; intuition discriminate). unfold message. fold hl. rewrite (cstr_app line _ L0), (cstr_app eol _ E0), (cstr_app hl _ HL0), (cstr_app eol _ E0). reflexivity. }
  unfold parse_response. rewrite TX.
  assert (LEN : (length (message line hs body) <? 12)%nat = false).
  { unfold message, line, status_line. rewrite !app_length. cbn [length]. change (length (bs "HTTP/1.")) with 7%nat. change (length eol) with 2%nat. lia. }
  rewrite LEN. cbv zeta.
  assert (ST : starts (bs "HTTP/") (line ++ eol ++ hl ++ eol ++ cstr body) = true) by (apply starts_iff; unfold line, status_line; change (bs "HTTP/1.") with (bs "HTTP/" ++ bs "1."); rewrite <- !app_assoc; eauto).
  rewrite ST. assert (C32 : cut 32 (line ++ eol ++ hl ++ eol ++ cstr body) = Some (bs "HTTP/1." ++ [48 + version], dec code ++ 32 :: reason ++ eol ++ hl ++ eol ++ cstr body)).
  { assert (LE : line ++ eol ++ hl ++ eol ++ cstr body = (bs "HTTP/1." ++ [48 + version]) ++ 32 :: dec code ++ 32 :: reason ++ eol ++ hl ++ eol ++ cstr body).
    { unfold line, status_line. rewrite <- !app_assoc. reflexivity. }
    rewrite LE. apply cut_app.
    intros K. apply in_app_or in K. destruct K as [K|[K|[]]]; [vm_compute in K; intuition discriminate|lia]. }
  rewrite C32, atoi_dec by (assumption || (unfold stops, is_digit; lia)).
  pose proof (header_line_text hs) as HLT. fold hl in HLT. destruct (find_blank (cstr body) (map header_text hs)) with (l0 := line) as (head & FB & HB).
  { apply Forall_map. eapply Forall_impl; [|exact HO]. intros h. apply header_text_ok. }
  { exact L13. }
  rewrite <- HLT in FB, HB. rewrite FB.
  assert (C10 : cut 10 (line ++ eol ++ hl ++ eol ++ cstr body) = Some (line ++ [13], hl ++ eol ++ cstr body)).
  { change (line ++ eol ++ hl ++ eol ++ cstr body) with (line ++ [13] ++ 10 :: hl ++ eol ++ cstr body). rewrite app_assoc. apply cut_app.
    intros K. apply in_app_or in K. destruct K as [K|[K|[]]]; [auto|discriminate]. }
  rewrite C10. unfold hl at 2. rewrite (resp_headers_ok (cstr body) hs hs' HO U).
  - do 2 f_equal. assert (DE : message line hs body = head ++ blank_line ++ body).
    { unfold message. fold hl. change (head ++ blank_line ++ body) with (head ++ eol ++ eol ++ body). rewrite (app_assoc head), HB, <- !app_assoc. reflexivity. }
    rewrite DE. rewrite skipn_app, skipn_all2 by lia. replace (length head + 4 - length head)%nat with 4%nat by lia. reflexivity.
  - pose proof (header_count hs) as HC. fold hl in HC. rewrite !app_length. lia.
Qed.
(** The last header is lost. *)
Theorem response_refuted : parse_response (message (status_line 1 200 (bs "OK")) [(bs "Server", bs " x"); (bs "Content-Type", bs " text/html")] (bs "hi")) =
  Some (Resp 200 [(bs "Server", bs "x")] (bs "hi")).
Proof. vm_compute. reflexivity. Qed.
(** A response below 1 MiB is received whole, however the network cuts it; a longer one can write past the buffer. *)
Theorem receive_whole stream cuts : Z.of_nat (length stream) < 1048576 -> Forall (fun n => 1 <= n)%nat cuts -> (length stream <= length cuts)%nat ->
  receive 0 stream cuts = Ok stream.
Proof. intros L F C. apply receive_ok; [lia|lia|exact C|exact F]. Qed.
Theorem receive_refuted stream more : 1048576 <= Z.of_nat (length stream) -> receive 0 stream (Z.to_nat 1048576 :: more) = UB.
Proof.
  intros L. cbn [receive]. unfold resp_buf. change (0 <? 1048576 - 1) with true. cbn iota. rewrite Z.sub_0_r, Nat.min_id.
  set (chunk := firstn (Z.to_nat 1048576) stream). assert (CL : Z.of_nat (length chunk) = 1048576) by (unfold chunk; rewrite firstn_length; lia). clearbody chunk.
  destruct chunk as [|c chunk]; [cbn in CL; lia|]. rewrite CL. change (0 + 1048576) with 1048576. destruct more; reflexivity.
Qed.
Example response_applies : exists version code reason hs hs' body, 0 <= version <= 9 /\ 0 <= code <= INT32_MAX /\ one_line reason /\ no_nul reason /\ Forall header_ok hs /\
  Forall (fun h => no_nul (fst h) /\ no_nul (snd h)) hs /\ Forall2 unpadded hs hs' /\ hs <> [] /\ body = bs "hello" /\ code = 404.
Proof.
  exists 1, 404, (bs "Not Found"), [(bs "Server", List.repeat 32 1 ++ bs "x"); (bs "Last", List.repeat 32 0 ++ bs "y")], [(bs "Server", bs "x"); (bs "Last", bs "y")], (bs "hello").
  split; [lia|]. split; [unfold INT32_MAX; lia|]. split; [split; vm_compute; intuition discriminate|]. split; [vm_compute; intuition discriminate|].
  split; [repeat constructor; vm_compute; intuition discriminate|]. split; [repeat constructor; vm_compute; intuition discriminate|]. split; [|split; [discriminate|now split]].
  constructor; [apply unp; discriminate|]. constructor; [apply unp; discriminate|constructor].
Qed.

Print Assumptions url_safe.
Print Assumptions request_lines.
Print Assumptions request_exact_partial.
Print Assumptions host_cut_refuted.
Print Assumptions header_injection_refuted.
Print Assumptions header_overflow_refuted.
Print Assumptions header_unterminated_refuted.
Print Assumptions response_partial.
Print Assumptions response_refuted.
Print Assumptions receive_whole.
Print Assumptions receive_refuted.
