(** Lemmas for InstallProps: URLs. *)
From Verif Require Import Base BaseFacts SemverModel SemverProofs InstallSpec InstallModel.

Lemma cut_some c s : forall a b, cut c s = Some (a, b) -> s = a ++ c :: b /\ ~ In c a.
Proof.
  induction s as [|x s IH]; intros a b; cbn [cut]; [discriminate|]. destruct (Z.eqb_spec x c) as [->|N].
  - intros [= <- <-]. split; [reflexivity|intros []].
  - destruct (cut c s) as [[a' b']|]; [|discriminate]. intros [= <- <-]. destruct (IH _ _ eq_refl) as (-> & H). split; [reflexivity|].
    intros [K|K]; [congruence|now apply H].
Qed.
Lemma cut_none_iff c s : cut c s = None -> ~ In c s.
Proof.
  induction s as [|x s IH]; cbn [cut]; [intros _ []|]. destruct (Z.eqb_spec x c) as [->|N]; [discriminate|].
  destruct (cut c s) as [[a' b']|]; [discriminate|]. intros _ [K|K]; [congruence|now apply IH].
Qed.
Lemma cut_last_some c s : forall a b, cut_last c s = Some (a, b) -> s = a ++ c :: b.
Proof.
  induction s as [|x s IH]; intros a b; cbn [cut_last]; [discriminate|]. destruct (cut_last c s) as [[a' b']|].
  - intros [= <- <-]. now rewrite (IH _ _ eq_refl).
  - destruct (Z.eqb_spec x c) as [->|N]; [|discriminate]. now intros [= <- <-].
Qed.
Lemma cut_last_no c s : ~ In c s -> cut_last c s = None.
Proof.
  induction s as [|x s IH]; intros H; cbn [cut_last]; [reflexivity|]. rewrite IH by (intros K; apply H; now right).
  destruct (Z.eqb_spec x c); [|reflexivity]. exfalso. apply H. now left.
Qed.
Lemma cut_last_none c s : cut_last c s = None -> ~ In c s.
Proof.
  induction s as [|x s IH]; cbn [cut_last]; [intros _ []|]. destruct (cut_last c s) as [[a' b']|]; [discriminate|].
  destruct (Z.eqb_spec x c) as [->|N]; [discriminate|]. intros _ [K|K]; [congruence|now apply IH].
Qed.
Lemma cut_last_app c a b : ~ In c b -> cut_last c (a ++ c :: b) = Some (a, b).
Proof.
  intros H. induction a as [|x a IH]; cbn [cut_last app]; [|now rewrite IH]. now rewrite (cut_last_no _ _ H), Z.eqb_refl.
Qed.

Lemma hexv_unhex c : hexv c = unhex c.
Proof.
  unfold hexv, unhex. destruct ((48 <=? c) && (c <=? 57)); [reflexivity|]. destruct ((97 <=? c) && (c <=? 102)) eqn:?; [f_equal; lia|].
  destruct ((65 <=? c) && (c <=? 70)) eqn:?; [f_equal; lia|reflexivity].
Qed.
Lemma unescape_decodes s : forall d, unescape false s = Some d <-> decodes s d.
Proof.
  induction s as [s IH] using list_len_ind. intros d. destruct s as [|c s].
  - cbn. split; [intros [= <-]; constructor|inversion 1; reflexivity].
  - cbn [unescape andb]. destruct (Z.eqb_spec c 37) as [->|N].
    + split.
      * destruct s as [|h [|l s]]; try discriminate. destruct (unhex h) as [x|] eqn:H; [|discriminate]. destruct (unhex l) as [y|] eqn:L; [|discriminate].
        destruct (unescape false s) as [d'|] eqn:E; [|discriminate]. intros [= <-]. rewrite <- hexv_unhex in H, L. constructor; auto.
        apply IH; [cbn; lia|exact E].
      * inversion 1 as [|c' s' d' NE D|h l x y s' d' Hh Hl D]; subst; [congruence|]. rewrite hexv_unhex in Hh, Hl. rewrite Hh, Hl. apply IH in D; [|cbn; lia]. now rewrite D.
    + split.
      * destruct (unescape false s) as [d'|] eqn:E; [|discriminate]. intros [= <-]. constructor; [exact N|]. apply IH; [cbn; lia|exact E].
      * inversion 1 as [|c' s' d' NE D|h l x y s' d' Hh Hl D]; subst; [|congruence]. apply IH in D; [|cbn; lia]. now rewrite D.
Qed.
Lemma unescape_host s : forall d, unescape true s = Some d -> (forall c, In c d -> c < 128 /\ c <> 37) -> s = d.
Proof.
  induction s as [s IH] using list_len_ind. intros d. destruct s as [|c s]; [now intros [= <-]|].
  cbn [unescape andb]. destruct (Z.eqb_spec c 37) as [->|N].
  - destruct s as [|h [|l s]]; try discriminate. destruct (unhex h) as [x|] eqn:H; [|discriminate]. destruct (unhex l) as [y|] eqn:L; [|discriminate].
    assert (Y : 0 <= y < 16). { unfold unhex in L. destruct ((48 <=? l) && (l <=? 57)) eqn:?; [injection L; lia|]. destruct ((97 <=? l) && (l <=? 102)) eqn:?; [injection L; lia|].
      destruct ((65 <=? l) && (l <=? 70)) eqn:?; [injection L; lia|discriminate]. }
    destruct ((x <? 8) && negb ((h =? 50) && (l =? 53))) eqn:B; [discriminate|]. destruct (unescape true s) as [d'|] eqn:E; [|discriminate].
    intros [= <-] K. specialize (K (16 * x + y) (or_introl eq_refl)). exfalso.
    destruct (Z.ltb_spec x 8); [|lia]. cbn [andb] in B. assert (h = 50 /\ l = 53) as (-> & ->) by lia.
    vm_compute in H, L. injection H as <-. injection L as <-. lia.
  - destruct ((c <? 128) && host_escape c); [discriminate|]. destruct (unescape true s) as [d'|] eqn:E; [|discriminate]. intros [= <-] K.
    f_equal. apply IH; [cbn; lia|exact E|]. intros x I. apply K. now right.
Qed.
Definition host_text : bytes := bs "github.com".
Lemma host_text_ok c : In c host_text -> c < 128 /\ c <> 37.
Proof.
  assert (F : forallb (fun c => (c <? 128) && negb (c =? 37)) host_text = true) by reflexivity.
  rewrite forallb_forall in F. intros H. apply F in H. lia.
Qed.
Lemma parse_host_sound h : parse_host h = Some host_text -> h = host_text.
Proof.
  assert (U : unescape true h = Some host_text -> h = host_text) by (intros H; apply (unescape_host _ _ H), host_text_ok).
  unfold parse_host. destruct h as [|c h]; [exact U|]. destruct (c =? 91); [discriminate|].
  destruct (cut_last 58 (c :: h)) as [[a b]|]; [destruct (forallb digit b)|]; auto; discriminate.
Qed.
Lemma parse_authority_sound a : parse_authority a = Some host_text -> a = host_text \/ exists u, a = u ++ 64 :: host_text.
Proof.
  unfold parse_authority. destruct (cut_last 64 a) as [[u h]|] eqn:E; [|left; now apply parse_host_sound].
  destruct (parse_host h) as [host|] eqn:H; [|discriminate]. intros K. right. exists u. apply cut_last_some in E.
  assert (host = host_text) as ->.
  { destruct (negb (valid_userinfo u)); [discriminate|]. destruct (cut 58 u) as [[n p]|]; [destruct (unescape false n); [|discriminate]; destruct (unescape false p); [|discriminate]|destruct (unescape false u); [|discriminate]]; congruence. }
  apply parse_host_sound in H. now rewrite E, H.
Qed.
Lemma get_scheme_some s : forall first a b, get_scheme first s = Some (Some (a, b)) -> s = a ++ 58 :: b /\ (forall c, In c a -> alnum c = true \/ c = 43 \/ c = 45 \/ c = 46).
Proof.
  induction s as [|c s IH]; intros first a b; cbn [get_scheme]; [discriminate|].
  match goal with |- context [if ?x then _ else _] => destruct x eqn:T end.
  - destruct (get_scheme false s) as [[[a' b']|]|] eqn:E; try discriminate. intros [= <- <-]. destruct (IH _ _ _ E) as (-> & H).
    split; [reflexivity|]. intros x [<-|K]; [|auto]. unfold alnum.
    destruct ((97 <=? c) && (c <=? 122)); [auto|]. destruct ((65 <=? c) && (c <=? 90)); [auto|]. destruct ((48 <=? c) && (c <=? 57)); [auto|]. right. lia.
  - destruct (Z.eqb_spec c 58) as [->|N]; [|discriminate]. destruct first; [discriminate|]. intros [= <- <-]. split; [reflexivity|intros ? []].
Qed.
Lemma lower_eq s : map to_lower s = map lower s.
Proof. reflexivity. Qed.

Lemma has_prefix_iff s p : has_prefix s p = true <-> exists r, s = p ++ r.
Proof.
  revert s. induction p as [|c p IH]; intros s; cbn [has_prefix]; [split; [now exists s|destruct s; reflexivity]|].
  destruct s as [|d s]; [split; [discriminate|intros (r & H); discriminate]|].
  cbn [has_prefix]. rewrite andb_true_iff, Z.eqb_eq, IH. split.
  - intros (-> & r & ->). now exists r.
  - intros (r & H). injection H as -> ->. split; [reflexivity|now exists r].
Qed.

(** Everything known about an accepted URL. *)
Lemma trusted_shape url : is_trusted url = true ->
  exists s a p d, url_parts url s a p /\ https_github s a /\ decodes p (trusted_prefix ++ d).
Proof.
  unfold is_trusted, parse_url. intros H.
  set (cf := match cut 35 url with Some (a, b) => (a, b) | None => (url, []) end) in H.
  assert (CF : exists t1, url = fst cf ++ t1 /\ ~ In 35 (fst cf) /\ (t1 = [] \/ exists r, t1 = 35 :: r)).
  { unfold cf. destruct (cut 35 url) as [[a b]|] eqn:E; [apply cut_some in E as (-> & N); exists (35 :: b); eauto|].
    apply cut_none_iff in E. exists []. cbn [fst]. now rewrite app_nil_r; auto. }
  destruct cf as [u frag]. cbn [fst] in CF. destruct CF as (t1 & -> & NU & T1).
  destruct (existsb _ u); [discriminate|]. destruct (beq u (bs "*")).
  { destruct (unescape false frag); discriminate. }
  destruct (get_scheme true u) as [[[a b]|]|] eqn:G; [| |discriminate].
  2:{ set (rest := match cut 63 u with Some (a, _) => a | None => u end) in H. clearbody rest. cbn [beq andb negb] in H.
      rewrite andb_false_r in H. revert H. set (x := negb _ && _). destruct x; [discriminate|]. set (y := match rest with c :: _ => _ | [] => _ end). destruct y as [auth p].
      destruct (match auth with Some a => parse_authority a | None => Some [] end); [|discriminate]. destruct (unescape false p); [|discriminate]. destruct (unescape false frag); discriminate. }
  apply get_scheme_some in G as (-> & SC). cbv beta iota zeta in H.
  set (rest := match cut 63 b with Some (a, _) => a | None => b end) in H.
  assert (R : exists t2, b = rest ++ t2 /\ ~ In 63 rest /\ (t2 = [] \/ exists r, t2 = 63 :: r)).
  { unfold rest. destruct (cut 63 b) as [[a1 b1]|] eqn:E; [apply cut_some in E as (-> & N); exists (63 :: b1); eauto|].
    apply cut_none_iff in E. exists []. now rewrite app_nil_r; auto. }
  clearbody rest. destruct R as (t2 & -> & NR & T2).
  assert (SCH : map to_lower a = bs "https" -> beq (map to_lower a) [] = false) by (intros ->; reflexivity).
  assert (DN : forall h p, (match match unescape false frag with Some _ => Some (map to_lower a, h, p) | None => None end with None => false | Some (scheme, host, path) => beq scheme (bs "https") && beq host (bs "github.com") && has_prefix path trusted_prefix end) = true ->
    map to_lower a = bs "https" /\ h = host_text /\ exists d, p = trusted_prefix ++ d).
  { intros h p K. destruct (unescape false frag); [|discriminate]. rewrite !andb_true_iff, !beq_iff, has_prefix_iff in K. tauto. }
  destruct (negb match rest with c :: _ => c =? 47 | [] => false end && negb (beq (map to_lower a) [])).
  { apply DN in H as (_ & K & _). discriminate. }
  match type of H with context [if ?x then None else _] => destruct x; [discriminate|] end.
  assert (NF : forall p, (match match unescape false p with Some p => match unescape false frag with Some _ => Some (map to_lower a, [], p) | None => None end | None => None end with
    None => false | Some (scheme, host, path) => beq scheme (bs "https") && beq host (bs "github.com") && has_prefix path trusted_prefix end) = true -> False).
  { intros p K. destruct (unescape false p); [|discriminate]. apply DN in K as (_ & K & _). discriminate. }
  assert (X : exists auth p, rest = 47 :: 47 :: auth ++ p /\ parse_authority auth = Some host_text /\ (exists d, decodes p (trusted_prefix ++ d)) /\ map to_lower a = bs "https" /\ ~ In 47 auth /\ (p = [] \/ absolute p)).
  { destruct rest as [|c1 [|c2 r]]; [| |].
    1,2: cbv beta iota in H; apply NF in H; destruct H.
    destruct (Z.eqb_spec c1 47) as [->|N1].
    2:{ cbn [andb] in H. cbv beta iota in H. now apply NF in H. }
    destruct (Z.eqb_spec c2 47) as [->|N2].
    2:{ cbn [andb] in H. cbv beta iota in H. now apply NF in H. }
    cbn [andb] in H. destruct (negb (beq (map to_lower a) [] && match r with c :: _ => c =? 47 | [] => false end)).
    2:{ cbv beta iota in H. now apply NF in H. }
    destruct (cut 47 r) as [[au p]|] eqn:C.
    - apply cut_some in C as (-> & NA). destruct (parse_authority au) as [h|] eqn:PA; [|discriminate]. destruct (unescape false (47 :: p)) as [d|] eqn:U; [|discriminate].
      apply DN in H as (E1 & -> & x & ->). exists au, (47 :: p). apply unescape_decodes in U.
      split; [reflexivity|]. split; [exact PA|]. split; [eauto|]. split; [exact E1|]. split; [exact NA|]. right. now exists p.
    - apply cut_none_iff in C. destruct (parse_authority r) as [h|] eqn:PA; [|discriminate]. cbn [unescape] in H.
      apply DN in H as (_ & _ & x & E). discriminate. }
  destruct X as (auth & p & -> & PA & (d & DP) & E1 & NA & PP). apply parse_authority_sound in PA.
  exists a, auth, p, d. split; [|split; [|exact DP]].
  - exists (t2 ++ t1). split; [rewrite <- !app_assoc; cbn; now rewrite <- !app_assoc|].
    assert (N63 : forall c, In c (auth ++ p) -> c <> 63 /\ c <> 35).
    { intros c I. split; intros ->; [apply NR; now right; right|]. apply NU. apply in_or_app. right. right. apply in_or_app. left. now right; right. }
    split; [|split; [|split; [exact PP|split]]].
    + intros c I K. destruct (SC c I) as [L|[-> | [-> | ->]]]; cbn in K; [|lia..]. repeat destruct K as [<-|K]; try discriminate L; destruct K.
    + intros c I K. destruct (N63 c) as (? & ?); [apply in_or_app; auto|]. cbn in K. assert (c = 47) by lia. subst. now apply NA.
    + intros c I K. destruct (N63 c) as (? & ?); [apply in_or_app; auto|]. cbn in K. lia.
    + destruct T2 as [-> | (r & ->)]; [|right; exists 63, (r ++ t1); split; [reflexivity|cbn; auto]]. cbn [app].
      destruct T1 as [-> | (r & ->)]; [left; reflexivity|right; exists 35, r; split; [reflexivity|cbn; auto]].
  - split; [exact E1|]. destruct PA as [-> | (v & ->)]; [left; reflexivity|right; exists v; reflexivity].
Qed.
