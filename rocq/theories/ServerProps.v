(** C53 (routes), C54 (query strings), C86 (requests) and C87 (responses) of the server module. *)
From Coq Require Import String.
From Verif Require Import Base BaseFacts Decimal DecimalFacts ServerModel ServerSpec ServerProofs ServerProofs2.

(** C53.  A pattern is matched segment by segment, and the parameters set are exactly the bindings. *)
Theorem server_route_match pat path set : no_nul pat -> no_nul path ->
  exists b set', match_route pat path set = Some (b, set') /\
    forall l, matches pat path l <-> b = true /\ set' = set ++ l.
Proof. apply route_match_iff. Qed.
Print Assumptions server_route_match.
Example server_route_match_ex : matches (bs "/u/:id/f-:x/") (bs "/u/7/f-a.txt") [(bs "id", bs "7"); (bs "x", bs "a.txt")].
Proof.
  destruct (server_route_match (bs "/u/:id/f-:x/") (bs "/u/7/f-a.txt") []) as (b & s & E & H); [now vm_compute; intuition lia..|].
  apply H. vm_compute in E. injection E as <- <-. split; reflexivity.
Qed.
Example server_route_no_match_ex : ~ exists l, matches (bs "/u/:id") (bs "/u/") l.
Proof.
  destruct (server_route_match (bs "/u/:id") (bs "/u/") []) as (b & s & E & H); [now vm_compute; intuition lia..|].
  intros (l & K). apply H in K. vm_compute in E. injection E as <- <-. easy.
Qed.

(** The first registered route with the request's method and a matching pattern is called, or none if there
    is none; each of its own parameters has the right value.  Partial: other names can be present, but only
    names of parameters of earlier routes with the same method. *)
Theorem server_dispatch_partial routes m path :
  (forall m' p', In (m', p') routes -> no_nul m' /\ no_nul p') -> no_nul m -> no_nul path ->
  exists r params, dispatch routes 0 m path [] = Some (r, params) /\
  match r with
  | Some i => exists pat l, nth_error routes i = Some (m, pat) /\ matches pat path l /\
      (forall j m' pat', (j < i)%nat -> nth_error routes j = Some (m', pat') -> m' <> m \/ ~ exists l', matches pat' path l') /\
      (forall n, In n (map fst l) -> value_of params n = value_of l n) /\
      (forall n, value_of params n <> value_of l n -> exists j pat', (j < i)%nat /\ nth_error routes j = Some (m, pat') /\ param_of pat' n)
  | None => forall pat', In (m, pat') routes -> ~ exists l', matches pat' path l'
  end.
Proof.
  intros NF N1 N2. destruct (dispatch_first routes 0 m path [] NF N1 N2) as (r & params & E & H).
  exists r, params. split; [exact E|]. destruct r as [i|]; [|exact H].
  destruct H as (j & pat & l & leak & -> & H2 & H3 & -> & H5 & H6). cbn [plus app] in *. exists pat, l.
  split; [exact H2|]. split; [exact H3|]. split; [exact H5|]. split.
  - intros n K. rewrite value_of_app. apply value_of_some in K. destruct (value_of l n); easy.
  - intros n K. rewrite value_of_app in K. destruct (value_of l n); [easy|].
    destruct (value_of leak n) as [x|] eqn:L; [|easy]. apply value_of_in in L. exact (H6 n x L).
Qed.
Print Assumptions server_dispatch_partial.
Example server_dispatch_ex :
  dispatch [(bs "POST", bs "/a"); (bs "GET", bs "/b"); (bs "GET", bs "/:x"); (bs "GET", bs "/a")] 0 (bs "GET") (bs "/a") [] =
    Some (Some 2%nat, [(bs "x", bs "a")]).
Proof. reflexivity. Qed.
(** Not exactly the parameters of the route that is called: GET /:a/x is tried first and leaves a behind. *)
Theorem server_dispatch_refuted : exists routes m path i params pat l n,
  dispatch routes 0 m path [] = Some (Some i, params) /\ nth_error routes i = Some (m, pat) /\ matches pat path l /\
  value_of l n = None /\ value_of params n <> None.
Proof.
  exists [(bs "GET", bs "/:a/x"); (bs "GET", bs "/:b/y")], (bs "GET"), (bs "/1/y"), 1%nat,
    [(bs "a", bs "1"); (bs "b", bs "1")], (bs "/:b/y"), [(bs "b", bs "1")], (bs "a").
  split; [reflexivity|]. split; [reflexivity|]. split; [|split; [reflexivity|vm_compute; congruence]].
  destruct (server_route_match (bs "/:b/y") (bs "/1/y") []) as (b & s & E & H); [now vm_compute; intuition lia..|].
  apply H. vm_compute in E. injection E as <- <-. split; reflexivity.
Qed.
Print Assumptions server_dispatch_refuted.

(** C54.  Partial: every piece but the last has a '='.  Then each piece with a '=' is delivered as its key
    and value (nothing is decoded). *)
Theorem server_query_partial q : (forall p, In p (removelast (split 38 q)) -> In 61 p) ->
  exists l, parse_query q = Some l /\ Forall2 pair_text (filter (fun p => existsb (Z.eqb 61) p) (split 38 q)) l.
Proof. intros H. apply query_pieces; [lia|exact H]. Qed.
Print Assumptions server_query_partial.
Example server_query_ex : parse_query (bs "a=1&b==&=&c") = Some [(bs "a", bs "1"); (bs "b", bs "="); ([], [])] /\
  forall p, In p (removelast (split 38 (bs "a=1&b==&=&c"))) -> In 61 p.
Proof. split; [reflexivity|]. intros p. vm_compute. intuition (subst; cbn; auto). Qed.
Theorem server_query_total q : parse_query q <> None.
Proof. apply query_some. lia. Qed.
Print Assumptions server_query_total.
(** A piece without '=' takes the next key with it. *)
Theorem server_query_refuted : exists q l, parse_query q = Some l /\ ~ Forall2 pair_text (filter (fun p => existsb (Z.eqb 61) p) (split 38 q)) l /\
  l = [(bs "flag&x", bs "1")].
Proof.
  exists (bs "flag&x=1"). eexists. split; [reflexivity|]. split; [|reflexivity]. intros H. vm_compute in H.
  inversion H as [|? ? ? ? P _]; subst. destruct P as [P _]. discriminate P.
Qed.
Print Assumptions server_query_refuted.

(** C86.  A request whose head has no NUL, one line per field, and that one recv delivers whole, up to
    65535 bytes, is handed to the route with its method, path, query, headers (without the blanks before the
    values) and body.  The method is shorter than 16 bytes and the path than 2048. *)
Theorem server_request_partial routes m p q hs hs' b n :
  ~ In 32 m -> ~ In 32 (target p q) -> ~ In 63 p ->
  one_line m -> one_line (target p q) -> no_nul m -> no_nul (target p q) ->
  Forall header_ok hs -> Forall (fun h => no_nul (fst h) /\ no_nul (snd h)) hs -> Forall2 unpadded hs hs' ->
  let sent := message (request_line m (target p q)) hs b in
  (length sent <= n)%nat -> Z.of_nat (length sent) <= 65535 -> (length m < 16)%nat -> Z.of_nat (length p) < 2048 ->
  exists ql, match q with None => ql = [] | Some q => parse_query q = Some ql end /\
    serve routes sent n = match dispatch routes 0 m p [] with
                          | None => None
                          | Some (None, _) => Some NotFound
                          | Some (Some i, params) => Some (Handled i (Req m p ql hs' b) params) end.
Proof.
  intros A1 A2 A3 A4 A5 A6 A7 A8 A9 A10 sent L1 L2 L3 L4.
  destruct (request_ok m p q hs hs' b A1 A2 A3 A4 A5 A6 A7 A8 A9 A10) as (ql & Eq & E). fold sent in E.
  exists ql. split; [exact Eq|]. unfold serve. unfold buf_size. rewrite firstn_all2 by lia.
  destruct sent as [|c s] eqn:S; [unfold sent, message, request_line in S; destruct m; easy|]. rewrite E. cbn [method path].
  destruct ((16 <=? length m)%nat || (Z.to_nat 2048 <=? length p)%nat) eqn:X; [lia|]. reflexivity.
Qed.
Print Assumptions server_request_partial.
Example server_request_ex :
  serve [(bs "POST", bs "/a/:x")] (message (request_line (bs "POST") (target (bs "/a/b") (Some (bs "k=v"))))
    [(bs "Host", bs "  h:80"); (bs "Empty", [])] (bs "hello")) (Z.to_nat 1000) =
  Some (Handled 0 (Req (bs "POST") (bs "/a/b") [(bs "k", bs "v")] [(bs "Host", bs "h:80"); (bs "Empty", [])] (bs "hello")) [(bs "x", bs "b")]).
Proof. vm_compute. reflexivity. Qed.
Example server_request_hyp : Forall2 unpadded [(bs "Host", bs "  h:80"); (bs "Empty", [])] [(bs "Host", bs "h:80"); (bs "Empty", [])] /\
  Forall header_ok [(bs "Host", bs "  h:80"); (bs "Empty", [])].
Proof.
  split.
  - constructor; [apply (unp (bs "Host") 2 (bs "h:80")); intros v; discriminate|].
    constructor; [apply (unp (bs "Empty") 0 []); easy|constructor].
  - repeat constructor; vm_compute; intuition lia.
Qed.
(** recv may deliver a part only: the handler then sees a shorter body, whatever Content-Length says. *)
Theorem server_request_refuted : exists routes sent n i r params,
  sent = message (request_line (bs "POST") (bs "/a")) [(bs "Content-Length", bs " 5")] (bs "hello") /\
  serve routes sent n = Some (Handled i r params) /\ body r = bs "he".
Proof.
  exists [(bs "POST", bs "/a")]. eexists. exists 41%nat. do 3 eexists. split; [reflexivity|]. vm_compute. split; reflexivity.
Qed.
Print Assumptions server_request_refuted.

(** C87.  The response read as an HTTP message: its status, its content type, its body and its length. *)
Lemma not_in_dec c s : existsb (Z.eqb c) s = false -> ~ In c s.
Proof. intros E H. assert (existsb (Z.eqb c) s = true) by (apply existsb_exists; exists c; split; [exact H|apply Z.eqb_refl]). congruence. Qed.
Lemma one_line_b s : existsb (Z.eqb 13) s || existsb (Z.eqb 10) s = false -> one_line s.
Proof. intros E. apply orb_false_iff in E. destruct E. split; now apply not_in_dec. Qed.
Lemma assoc_prop (P : bytes -> Prop) l k : Forall (fun x => P (snd x)) l -> P (bs "Unknown") -> P (assoc l k).
Proof. intros H U. induction H as [|[x v] l A _ IH]; cbn; [exact U|]. now destruct (x =? k). Qed.
Lemma reason_ok st : one_line (reason st) /\ (length (reason st) <= 25)%nat.
Proof.
  apply (assoc_prop (fun s => one_line s /\ (length s <= 25)%nat)).
  - unfold reasons. repeat (constructor; [cbn [snd]; split; [apply one_line_b; reflexivity|vm_compute; lia]|]). constructor.
  - split; [apply one_line_b; reflexivity|vm_compute; lia].
Qed.
Lemma digits_one_line n : 0 <= n -> one_line (dec n).
Proof.
  intros H. pose proof (dec_digit n H) as K. rewrite Forall_forall in K.
  split; intros X; apply K in X; unfold is_digit in X; lia.
Qed.
Lemma one_line_app a b : one_line (a ++ b) <-> one_line a /\ one_line b.
Proof. unfold one_line. rewrite !in_app_iff. tauto. Qed.
Lemma one_line_sp s : one_line s -> one_line ([32] ++ s).
Proof. intros H. apply one_line_app. split; [apply one_line_b; reflexivity|exact H]. Qed.
Lemma cors_ok origin : (forall o, origin = Some o -> one_line o) -> Forall header_ok (cors_headers origin).
Proof.
  intros H. destruct origin as [o|]; [|constructor]. specialize (H o eq_refl).
  repeat (constructor; [split; [apply one_line_b; reflexivity|split; [|apply not_in_dec; reflexivity]]|]); cbn [snd]; [|apply one_line_b; reflexivity..|constructor].
  now apply one_line_sp.
Qed.
Lemma cors_len origin : (forall o, origin = Some o -> (length o <= 351)%nat) -> (length (concat (map header_line (cors_headers origin))) <= 511)%nat.
Proof.
  intros H. destruct origin as [o|]; [|cbn; lia]. specialize (H o eq_refl). cbn [cors_headers map concat]. unfold header_line.
  cbn [fst snd]. rewrite !app_length. cbn. lia.
Qed.
Lemma fixed_ok k v : existsb (Z.eqb 13) k || existsb (Z.eqb 10) k = false -> existsb (Z.eqb 58) k = false -> one_line v -> header_ok (k, v).
Proof. intros A B C. split; [now apply one_line_b|]. split; [exact C|]. now apply not_in_dec. Qed.

Theorem server_response_partial st ctype rbody origin :
  0 <= st < 2 ^ 31 -> ~ (300 <= st < 400 /\ rbody <> []) ->
  one_line ctype -> no_nul ctype -> no_nul rbody -> Z.of_nat (length ctype + length rbody) <= 64000 ->
  (forall o, origin = Some o -> one_line o /\ (length o <= 351)%nat) ->
  exists phrase hs, one_line (bs "HTTP/1.1 " ++ dec st ++ [32] ++ phrase) /\ Forall header_ok hs /\
    response st ctype rbody origin = message (bs "HTTP/1.1 " ++ dec st ++ [32] ++ phrase) hs rbody /\
    In (bs "Content-Type", [32] ++ ctype) hs /\
    In (bs "Content-Length", [32] ++ dec (Z.of_nat (length rbody))) hs /\
    (forall o, origin = Some o -> In (bs "Access-Control-Allow-Origin", [32] ++ o) hs).
Proof.
  intros H1 H2 H3 H4 H5 H6 H7. exists (reason st), (content_headers ctype rbody origin).
  assert (LO : forall o, origin = Some o -> (length o <= 351)%nat) by (intros o E; now apply H7).
  assert (OO : forall o, origin = Some o -> one_line o) by (intros o E; now apply H7).
  destruct (reason_ok st) as [R1 R2]. pose proof (digits_one_line st ltac:(lia)) as D.
  pose proof (digits_one_line (Z.of_nat (length rbody)) ltac:(lia)) as D2.
  split; [|split; [|split; [|split; [|split]]]].
  - rewrite !one_line_app. split; [apply one_line_b; reflexivity|]. split; [exact D|]. split; [apply one_line_b; reflexivity|exact R1].
  - unfold content_headers. constructor; [apply fixed_ok; [reflexivity..|now apply one_line_sp]|].
    constructor; [apply fixed_ok; [reflexivity..|now apply one_line_sp]|].
    apply Forall_app. split; [now apply cors_ok|]. constructor; [|constructor]. apply fixed_ok; [reflexivity..|apply one_line_b; reflexivity].
  - apply response_content; [assumption..|]. unfold message, status_line, content_headers, buf_size.
    rewrite !map_app, !concat_app, !app_length. pose proof (cors_len origin LO).
    pose proof (dec_length st 10 ltac:(change (10 ^ Z.of_nat 10) with 10000000000; change (2 ^ 31) with 2147483648 in H1; lia) ltac:(lia)).
    pose proof (dec_length (Z.of_nat (length rbody)) 5 ltac:(change (10 ^ Z.of_nat 5) with 100000; lia) ltac:(lia)).
    cbn [map concat]. unfold header_line at 1 2 4. cbn [fst snd]. rewrite !app_length. cbn [length bs]. 
    change (length (bs "HTTP/1.1 ")) with 9%nat. change (length eol) with 2%nat. change (length (bs "Content-Type")) with 12%nat.
    change (length (bs "Content-Length")) with 14%nat. change (length (bs "Connection")) with 10%nat. change (length (bs " close")) with 6%nat.
    lia.
  - now left.
  - right. now left.
  - intros o E. unfold content_headers. apply in_or_app. right. apply in_or_app. left. subst origin. now left.
Qed.
Print Assumptions server_response_partial.
Example server_response_ex : response 200 (bs "text/plain") (bs "hi") (Some (bs "*")) =
  message (bs "HTTP/1.1 200 OK") (content_headers (bs "text/plain") (bs "hi") (Some (bs "*"))) (bs "hi").
Proof. vm_compute. reflexivity. Qed.
(** A redirect: the body becomes the Location and nothing is sent as body. *)
Theorem server_redirect_partial st ctype loc origin :
  300 <= st < 400 -> loc <> [] -> one_line loc -> no_nul loc -> Z.of_nat (length loc) <= 64000 ->
  (forall o, origin = Some o -> one_line o /\ (length o <= 351)%nat) ->
  exists phrase hs, one_line (bs "HTTP/1.1 " ++ dec st ++ [32] ++ phrase) /\ Forall header_ok hs /\
    response st ctype loc origin = message (bs "HTTP/1.1 " ++ dec st ++ [32] ++ phrase) hs [] /\
    In (bs "Location", [32] ++ loc) hs /\ In (bs "Content-Length", bs " 0") hs.
Proof.
  intros H1 NE H3 H5 H6 H7. exists (reason st), (redirect_headers loc origin).
  assert (LO : forall o, origin = Some o -> (length o <= 351)%nat) by (intros o E; now apply H7).
  assert (OO : forall o, origin = Some o -> one_line o) by (intros o E; now apply H7).
  destruct (reason_ok st) as [R1 R2]. pose proof (digits_one_line st ltac:(lia)) as D.
  split; [|split; [|split; [|split]]].
  - rewrite !one_line_app. split; [apply one_line_b; reflexivity|]. split; [exact D|]. split; [apply one_line_b; reflexivity|exact R1].
  - unfold redirect_headers. constructor; [apply fixed_ok; [reflexivity..|now apply one_line_sp]|].
    constructor; [apply fixed_ok; [reflexivity..|apply one_line_b; reflexivity]|].
    apply Forall_app. split; [now apply cors_ok|]. constructor; [|constructor]. apply fixed_ok; [reflexivity..|apply one_line_b; reflexivity].
  - apply response_redirect; [assumption..|]. unfold message, status_line, redirect_headers, buf_size.
    rewrite !map_app, !concat_app, !app_length. pose proof (cors_len origin LO).
    pose proof (dec_length st 10 ltac:(change (10 ^ Z.of_nat 10) with 10000000000; lia) ltac:(lia)).
    cbn [map concat]. unfold header_line at 1 2 4. cbn [fst snd]. rewrite !app_length. cbn [length bs].
    change (length (bs "HTTP/1.1 ")) with 9%nat. change (length eol) with 2%nat. change (length (bs "Location")) with 8%nat.
    change (length (bs "Content-Length")) with 14%nat. change (length (bs " 0")) with 2%nat.
    change (length (bs "Connection")) with 10%nat. change (length (bs " close")) with 6%nat.
    lia.
  - now left.
  - right. now left.
Qed.
Print Assumptions server_redirect_partial.
Example server_redirect_ex : response 302 [] (bs "/login") None =
  message (bs "HTTP/1.1 302 Found") [(bs "Location", bs " /login"); (bs "Content-Length", bs " 0"); (bs "Connection", bs " close")] [].
Proof. vm_compute. reflexivity. Qed.
(** The reading of a message is unique, so the two theorems above say what every client sees. *)
Theorem server_message_unique l hs b l' hs' b' : one_line l -> one_line l' -> Forall header_ok hs -> Forall header_ok hs' ->
  message l hs b = message l' hs' b' -> l = l' /\ hs = hs' /\ b = b'.
Proof. apply message_unique. Qed.
Print Assumptions server_message_unique.
(** server.cors admits origins of one line only. *)
Theorem server_cors_one_line s o : set_cors s = Some o -> one_line o.
Proof.
  unfold set_cors. destruct (existsb _ s) eqn:E; [easy|]. intros [= <-].
  assert (K : one_line s).
  { split; intros K; assert (X : existsb (fun c => (c =? 13) || (c =? 10)) s = true) by (apply existsb_exists; eexists; split; [exact K|reflexivity]); congruence. }
  clear E. destruct K as [A B]. induction s as [|c s IH]; cbn; [easy|].
  destruct (c =? 0); [easy|]. destruct IH as [I1 I2]; [intros K; apply A; now right|intros K; apply B; now right|].
  split; (intros [K|K]; [|auto]); subst; [apply A|apply B]; now left.
Qed.
Print Assumptions server_cors_one_line.
Fixpoint same (a b : bytes) : bool :=
  match a, b with [], [] => true | x :: a, y :: b => (x =? y) && same a b | _, _ => false end.
Lemma same_eq a : forall b, same a b = true -> a = b.
Proof. induction a as [|x a IH]; intros [|y b] E; try easy. cbn in E. apply andb_true_iff in E. destruct E as [E1 E2]. f_equal; [lia|now apply IH]. Qed.
(** A long body is cut while Content-Length announces all of it. *)
Theorem server_response_refuted : exists rbody line hs b,
  response 200 (bs "text/plain") rbody None = message line hs b /\ one_line line /\ Forall header_ok hs /\
  In (bs "Content-Length", [32] ++ dec (Z.of_nat (length rbody))) hs /\ (length b < length rbody)%nat.
Proof.
  exists (List.repeat 97 (Z.to_nat 65536)), (bs "HTTP/1.1 200 OK"), (content_headers (bs "text/plain") (List.repeat 97 (Z.to_nat 65536)) None),
    (List.repeat 97 (Z.to_nat 65448)).
  split; [apply same_eq; vm_compute; reflexivity|]. split; [apply one_line_b; reflexivity|]. split; [|split].
  - unfold content_headers. repeat constructor; try (apply one_line_b; vm_compute; reflexivity); apply not_in_dec; vm_compute; reflexivity.
  - right. left. reflexivity.
  - rewrite !repeat_length. lia.
Qed.
Print Assumptions server_response_refuted.
(** A content type with a line break adds a header. *)
Theorem server_injection_refuted : exists ctype rbody line hs,
  response 200 ctype rbody None = message line hs rbody /\ one_line line /\ Forall header_ok hs /\ In (bs "Set-Cookie", bs " a=b") hs.
Proof.
  exists (bs "text/plain" ++ [13; 10] ++ bs "Set-Cookie: a=b"), (bs "x"), (bs "HTTP/1.1 200 OK"),
    [(bs "Content-Type", bs " text/plain"); (bs "Set-Cookie", bs " a=b"); (bs "Content-Length", bs " 1"); (bs "Connection", bs " close")].
  split; [vm_compute; reflexivity|]. split; [apply one_line_b; reflexivity|]. split; [|right; now left].
  repeat constructor; try (apply one_line_b; vm_compute; reflexivity); apply not_in_dec; vm_compute; reflexivity.
Qed.
Print Assumptions server_injection_refuted.
