(** C42, C43: which URLs the updater trusts, and where archives are unpacked. *)
From Verif Require Import Base BaseFacts SemverModel SemverProofs InstallSpec InstallModel InstallProofs InstallProofs2.

(** ** C42 *)
(** Every trusted URL is https on github.com, without a port, and its decoded path starts with the release prefix. *)
Theorem trusted_origin url : is_trusted url = true ->
  exists s a p d, url_parts url s a p /\ https_github s a /\ decodes p (bs "/grayscale-lang/grayscale/releases/download/" ++ d).
Proof. apply trusted_shape. Qed.
(** It is a place in the release area when no piece of the path decodes to ".." or to text with a slash. *)
Theorem trusted_url_partial url : is_trusted url = true ->
  (forall s a p l, url_parts url s a p -> decoded_parts p l -> forall x, In x l -> x <> bs ".." /\ ~ In 47 x) ->
  official url.
Proof.
  intros T H. destruct (trusted_shape url T) as (s & a & p & d & U & G & D).
  destruct (decodes_parts _ _ D) as (l & F & E). specialize (H s a p l U F).
  destruct (walk_grows (parts d) release_area) as (m & M).
  - intros x I. apply (H x). rewrite <- E by (intros y K; now apply H). change trusted_prefix with ((bs "/grayscale-lang/grayscale/releases/download") ++ [47]).
    rewrite <- app_assoc. cbn [app]. rewrite parts_app. apply in_or_app. now right.
  - exists s, a, p, l, m. split; [exact U|]. split; [exact G|]. split; [exact F|]. rewrite <- E by (intros y K; now apply H).
    change trusted_prefix with ((bs "/grayscale-lang/grayscale/releases/download") ++ [47]). rewrite <- app_assoc. cbn [app]. rewrite parts_app, walk_app. exact M.
Qed.
(** Otherwise not: ".." leaves the release area, and so may an encoded slash. *)
Theorem trusted_url_refuted :
  is_trusted (bs "https://github.com/grayscale-lang/grayscale/releases/download/../../../../evil/tool/releases/download/v1/gray.tar.gz") = true /\
  ~ official (bs "https://github.com/grayscale-lang/grayscale/releases/download/../../../../evil/tool/releases/download/v1/gray.tar.gz") /\
  is_trusted (bs "https://github.com/grayscale-lang%2Fgrayscale/releases/download/v1/gray.tar.gz") = true /\
  ~ official (bs "https://github.com/grayscale-lang%2Fgrayscale/releases/download/v1/gray.tar.gz").
Proof.
  (* a URL of this shape has only one decomposition *)
  assert (Q : forall p s a q, (forall c, In c p -> ~ In c (bs "?#")) -> absolute p -> url_parts (bs "https://github.com" ++ p) s a q -> q = p).
  { intros p s a q NP (p1 & ->) (t & E & NS & NA & PQ & NQ & T).
    assert (S : s = bs "https").
    { assert (C1 : cut 58 (bs "https" ++ 58 :: (bs "//github.com" ++ 47 :: p1)) = Some (bs "https", bs "//github.com" ++ 47 :: p1)) by (apply cut_app; cbn; lia).
      assert (C2 : cut 58 (s ++ 58 :: (bs "//" ++ a ++ q ++ t)) = Some (s, bs "//" ++ a ++ q ++ t)) by (apply cut_app; intros I; apply (NS _ I); cbn; auto).
      change (bs "https" ++ 58 :: (bs "//github.com" ++ 47 :: p1)) with (bs "https://github.com" ++ 47 :: p1) in C1. rewrite E in C1.
      change (s ++ bs "://" ++ a ++ q ++ t) with (s ++ 58 :: (bs "//" ++ a ++ q ++ t)) in C1. congruence. }
    subst s. cbn [bs app byte_of_ascii] in E.
    assert (E2 : bs "github.com" ++ 47 :: p1 = a ++ q ++ t) by (vm_compute in E; injection E as E; exact E). clear E.
    assert (NA47 : ~ In 47 a) by (intros I; apply (NA _ I); cbn; auto).
    assert (X : q ++ t = [] \/ (exists c r, q ++ t = c :: r /\ In c (bs "/?#"))).
    { destruct PQ as [-> | (r & ->)]; [|right; exists 47, (r ++ t); split; [reflexivity|cbn; auto]]. cbn [app].
      destruct T as [-> | (c & r & -> & I)]; [left; reflexivity|right; exists c, r; split; [reflexivity|right; exact I]]. }
    destruct X as [X|(c & r & X & I)].
    - exfalso. rewrite X, app_nil_r in E2. apply NA47. rewrite <- E2. apply in_or_app. right. now left.
    - rewrite X in E2.
      assert (c = 47).
      { assert (I2 : In c (bs "github.com" ++ 47 :: p1)) by (rewrite E2; apply in_or_app; right; now left). apply in_app_or in I2 as [I2|I2].
        - assert (F : forallb (fun c => negb (existsb (Z.eqb c) (bs "/?#"))) (bs "github.com") = true) by reflexivity. rewrite forallb_forall in F. apply F in I2. cbn in I2, I. lia.
        - destruct I2 as [I2|I2]; [now symmetry|]. specialize (NP c (or_intror I2)). cbn in NP, I. lia. }
      subst c. assert (C1 : cut 47 (bs "github.com" ++ 47 :: p1) = Some (bs "github.com", p1)) by (apply cut_app; cbn; lia). rewrite E2, cut_app in C1 by exact NA47.
      injection C1 as -> ->. assert (T0 : t = []).
      { destruct T as [->|(c & r & -> & J)]; [reflexivity|]. exfalso. apply (NP c); [|exact J]. rewrite <- X. apply in_or_app. right. now left. }
      subst t. now rewrite app_nil_r in X. }
  assert (D1 : forall s d, ~ In 37 s -> decodes s d -> d = s).
  { intros s d N H. induction H as [|c s d NC D IH|h l x y s d Hh Hl D IH]; [reflexivity| |exfalso; apply N; now left]. f_equal. apply IH. intros I. apply N. now right. }
  assert (D2 : forall L l, (forall x, In x L -> ~ In 37 x) -> Forall2 decodes L l -> l = L).
  { intros L l N F. induction F as [|x y L l D F IH]; [reflexivity|]. f_equal; [apply D1; [apply N; now left|exact D]|apply IH; intros z I; apply N; now right]. }
  split; [vm_compute; reflexivity|]. split; [|split; [vm_compute; reflexivity|]].
  - intros (s & a & p & l & m & U & _ & F & W).
    change (bs "https://github.com/grayscale-lang/grayscale/releases/download/../../../../evil/tool/releases/download/v1/gray.tar.gz")
      with (bs "https://github.com" ++ bs "/grayscale-lang/grayscale/releases/download/../../../../evil/tool/releases/download/v1/gray.tar.gz") in U.
    apply Q in U; [|assert (FB : forallb (fun c => negb (existsb (Z.eqb c) (bs "?#"))) (bs "/grayscale-lang/grayscale/releases/download/../../../../evil/tool/releases/download/v1/gray.tar.gz") = true) by reflexivity; rewrite forallb_forall in FB; intros c I; apply FB in I; cbn in I |- *; lia|eexists; reflexivity].
    subst p. unfold decoded_parts in F. apply D2 in F.
    + subst l. vm_compute in W. discriminate.
    + intros x I. assert (FB : forallb (fun x => negb (existsb (Z.eqb 37) x)) (parts (bs "/grayscale-lang/grayscale/releases/download/../../../../evil/tool/releases/download/v1/gray.tar.gz")) = true) by reflexivity.
      rewrite forallb_forall in FB. apply FB in I. intros K. apply negb_true_iff in I. rewrite <- not_true_iff_false in I. apply I. apply existsb_exists. exists 37. split; [exact K|reflexivity].
  - intros (s & a & p & l & m & U & _ & F & W).
    change (bs "https://github.com/grayscale-lang%2Fgrayscale/releases/download/v1/gray.tar.gz") with (bs "https://github.com" ++ bs "/grayscale-lang%2Fgrayscale/releases/download/v1/gray.tar.gz") in U.
    apply Q in U; [|assert (FB : forallb (fun c => negb (existsb (Z.eqb c) (bs "?#"))) (bs "/grayscale-lang%2Fgrayscale/releases/download/v1/gray.tar.gz") = true) by reflexivity; rewrite forallb_forall in FB; intros c I; apply FB in I; cbn in I |- *; lia|eexists; reflexivity].
    subst p. unfold decoded_parts in F. change (parts (bs "/grayscale-lang%2Fgrayscale/releases/download/v1/gray.tar.gz")) with
      ([[]; bs "grayscale-lang%2Fgrayscale"; bs "releases"; bs "download"; bs "v1"; bs "gray.tar.gz"]) in F.
    assert (EX : l = [[]; bs "grayscale-lang/grayscale"; bs "releases"; bs "download"; bs "v1"; bs "gray.tar.gz"]).
    { repeat match goal with H : Forall2 _ _ _ |- _ => inversion H; clear H; subst end.
      repeat match goal with H : decodes _ _ |- _ => apply unescape_decodes in H; vm_compute in H; injection H as <- end. reflexivity. }
    subst l. vm_compute in W. discriminate.
Qed.
(** The URLs of real assets are trusted: anything made of letters, digits, "-._~" and slashes below the prefix. *)
Theorem trusted_accepts rest : Forall (fun c => alnum c = true \/ In c (bs "-._~/")) rest ->
  is_trusted (bs "https://github.com/grayscale-lang/grayscale/releases/download/" ++ rest) = true.
Proof.
  intros F. assert (OK : forall c, In c rest -> c <> 35 /\ c <> 37 /\ c <> 63 /\ 32 <= c /\ c <> 127).
  { rewrite Forall_forall in F. intros c I. destruct (F c I) as [A|A]; [unfold alnum in A; lia|cbn in A; lia]. }
  set (path := bs "/grayscale-lang/grayscale/releases/download/" ++ rest).
  assert (OKP : forall c, In c (bs "https://github.com" ++ path) -> c <> 35 /\ c <> 37 /\ c <> 63 /\ 32 <= c /\ c <> 127).
  { intros c I. unfold path in I. rewrite app_assoc in I. apply in_app_or in I as [I|I]; [|auto].
    assert (FB : forallb (fun c => negb (c =? 35) && negb (c =? 37) && negb (c =? 63) && (32 <=? c) && negb (c =? 127)) (bs "https://github.com" ++ bs "/grayscale-lang/grayscale/releases/download/") = true) by reflexivity.
    rewrite forallb_forall in FB. apply FB in I. lia. }
  change (bs "https://github.com/grayscale-lang/grayscale/releases/download/" ++ rest) with (bs "https://github.com" ++ path).
  assert (UN : forall s, (forall c, In c s -> c <> 37) -> unescape false s = Some s).
  { intros s N. apply unescape_decodes. induction s as [|c s IH]; constructor; [apply N; now left|apply IH; intros x I; apply N; now right]. }
  unfold is_trusted, parse_url. rewrite cut_none by (intros I; now apply OKP in I).
  destruct (existsb _ (bs "https://github.com" ++ path)) eqn:X.
  { apply existsb_exists in X as (c & I & X). apply OKP in I. lia. }
  assert (C63 : cut 63 (bs "//github.com" ++ path) = None).
  { apply cut_none. intros I. assert (K : In 63 (bs "https://github.com" ++ path)) by (cbn [bs app]; do 6 right; exact I). now apply OKP in K. }
  assert (U : unescape false path = Some path).
  { apply UN. intros c I. apply OKP. apply in_or_app. now right. }
  assert (P : has_prefix path trusted_prefix = true) by (apply has_prefix_iff; now exists rest).
  assert (Q : exists q, path = 47 :: q) by (eexists; reflexivity). clearbody path. destruct Q as (q & ->).
  assert (B : beq (bs "https://github.com" ++ 47 :: q) (bs "*") = false) by reflexivity. rewrite B.
  assert (G : get_scheme true (bs "https://github.com" ++ 47 :: q) = Some (Some (bs "https", bs "//github.com" ++ 47 :: q))) by reflexivity. rewrite G.
  cbv beta iota zeta. rewrite C63.
  assert (R : exists r, bs "//github.com" ++ 47 :: q = 47 :: 47 :: r /\ cut 47 r = Some (bs "github.com", q)) by (eexists; split; reflexivity).
  destruct R as (r & -> & CR). rewrite CR. change (beq (map to_lower (bs "https")) []) with false. cbn [Z.eqb Pos.eqb andb negb].
  change (parse_authority (bs "github.com")) with (Some (bs "github.com")). cbv iota. rewrite U. change (unescape false []) with (Some (@nil Z)). cbv iota. now rewrite P.
Qed.
Example trusted_demo :
  is_trusted (bs "HTTPS://user:pw@github.com/grayscale-lang/%67rayscale/releases/download/v3/a.zip?x=1#y") = true /\
  is_trusted (bs "https://github.com:443/grayscale-lang/grayscale/releases/download/v3/a.zip") = false /\
  is_trusted (bs "https://github.com.evil.org/grayscale-lang/grayscale/releases/download/v3/a.zip") = false /\
  is_trusted (bs "https://evil.org/@github.com/grayscale-lang/grayscale/releases/download/v3/a.zip") = false /\
  is_trusted (bs "http://github.com/grayscale-lang/grayscale/releases/download/v3/a.zip") = false.
Proof. vm_compute. repeat split. Qed.

(** ** C43 *)
Lemma is_binary_iff n : is_binary n = true <-> n = bs "gray" \/ n = bs "gray.exe".
Proof. unfold is_binary. now rewrite orb_true_iff, !beq_iff. Qed.
Definition no_open (e : entry) : entry := Entry (ename e) (edata e) (match efate e with OpenFails => CreateFails | f => f end).
Lemma zip_tar cwd dest es : forall fs bin, zip_loop cwd dest es fs bin = tar_loop cwd dest (map no_open es) true fs bin.
Proof.
  induction es as [|e es IH]; intros fs bin; cbn [zip_loop tar_loop map]; [reflexivity|]. cbv zeta. cbn [no_open ename efate edata]. rewrite !IH.
  destruct (negb (want (base (ename e)))); [reflexivity|]. destruct (sanitize cwd dest (base (ename e))); [|reflexivity]. destruct (efate e); rewrite ?IH; reflexivity.
Qed.
Lemma tar_files cwd dest es good : absolute cwd -> forall fs bin, exists new, fst (tar_loop cwd dest es good fs bin) = new ++ fs /\
  (forall p c, In (p, c) new -> exists n e, In n wanted /\ p = join2 dest n /\ In e es /\ own_name (ename e) = n).
Proof.
  intros A. induction es as [|e es IH]; intros fs bin; cbn [tar_loop].
  - exists []. split; [now destruct good|intros ? ? []].
  - cbv zeta. destruct (want (base (ename e))) eqn:W; cbn [negb].
    2:{ destruct (IH fs bin) as (new & E & H). exists new. split; [exact E|]. intros p c I. destruct (H p c I) as (n & e' & ? & ? & ? & ?). exists n, e'. repeat split; auto. now right. }
    apply want_iff in W. pose proof (sanitize_spec cwd dest (base (ename e)) A W) as S. destruct (sanitize cwd dest (base (ename e))) as [p|]; [|exists []; split; [reflexivity|intros ? ? []]].
    assert (P : p = join2 dest (base (ename e))) by (destruct (resolve cwd dest); congruence).
    assert (O : own_name (ename e) = base (ename e)) by (apply (base_wanted (ename e) _ W); reflexivity).
    destruct (efate e).
    3:{ exists []. split; [reflexivity|intros ? ? []]. }
    3:{ eexists [_]. split; [reflexivity|]. intros q c [[= <- <-]|[]]. exists (base (ename e)), e. repeat split; auto. now left. }
    all: destruct (IH ((p, edata e) :: fs) (if is_binary (base (ename e)) then p else bin)) as (new & E & H); exists (new ++ [(p, edata e)]); split; [rewrite E, <- app_assoc; reflexivity|];
      intros q c I; apply in_app_or in I as [I|[[= <- <-]|[]]];
      [destruct (H q c I) as (n & e' & ? & ? & ? & ?); exists n, e'; repeat split; auto; now right|exists (base (ename e)), e; repeat split; auto; now left].
Qed.
(** Whatever is in the archive and whatever fails: only gray, gray.exe, grayc and libgrayrt.a, directly inside the
    destination directory, are ever written. *)
Theorem extract_confined cwd dest es good p c : absolute cwd ->
  In (p, c) (fst (extract_tar cwd dest es good)) \/ In (p, c) (fst (extract_zip cwd dest es good)) ->
  exists n, In n wanted /\ resolve cwd p = resolve cwd dest ++ [n].
Proof.
  intros A H. assert (T : forall es g, In (p, c) (fst (tar_loop cwd dest es g [] [])) -> exists n, In n wanted /\ resolve cwd p = resolve cwd dest ++ [n]).
  { intros es' g I. destruct (tar_files cwd dest es' g A [] []) as (new & E & K). rewrite E, app_nil_r in I. destruct (K p c I) as (n & e & W & -> & _).
    exists n. split; [exact W|]. destruct (wanted_plain n W) as (P & N & _). now apply resolve_join. }
  destruct H as [H|H]; [now apply T in H|]. unfold extract_zip in H. destruct good; [|destruct H]. rewrite zip_tar in H. now apply T in H.
Qed.
Lemma join_inj (cwd d a b : bytes) : In a wanted -> In b wanted -> join2 d a = join2 d b -> a = b.
Proof.
  intros A B E. apply (f_equal (resolve cwd)) in E. destruct (wanted_plain a A) as (? & ? & _), (wanted_plain b B) as (? & ? & _).
  rewrite !resolve_join in E by assumption. now apply app_inj_tail in E.
Qed.
Definition names_binary (n : bytes) : Prop := n = bs "gray" \/ n = bs "gray.exe".
Lemma binary_wanted n : names_binary n -> In n wanted.
Proof. intros [-> | ->]; cbn; auto. Qed.
Lemma tar_result cwd dest es good : absolute cwd -> forall fs bin fs' b,
  (bin = [] \/ exists n, names_binary n /\ bin = join2 dest n) ->
  tar_loop cwd dest es good fs bin = (fs', Some b) ->
  (exists es1 e es2 n, es = es1 ++ e :: es2 /\ own_name (ename e) = n /\ names_binary n /\ (forall e', In e' es2 -> ~ names_binary (own_name (ename e'))) /\
     b = join2 dest n /\ file_at b fs' = Some (edata e)) \/
  (b = bin /\ bin <> [] /\ file_at b fs' = file_at b fs /\ (forall e', In e' es -> ~ names_binary (own_name (ename e')))).
Proof.
  intros A. induction es as [|e es IH]; intros fs bin fs' b HB; cbn [tar_loop].
  - destruct good; [|discriminate]. destruct (beq bin []) eqn:B; [discriminate|]. intros [= <- <-]. right. repeat split; [|intros ? []]. intros ->. discriminate.
  - cbv zeta. destruct (want (base (ename e))) eqn:W; cbn [negb].
    + apply want_iff in W. pose proof (sanitize_spec cwd dest (base (ename e)) A W) as S.
      destruct (sanitize cwd dest (base (ename e))) as [p|]; [|discriminate].
      assert (P : p = join2 dest (base (ename e))) by (destruct (resolve cwd dest); congruence).
      assert (O : own_name (ename e) = base (ename e)) by (apply (base_wanted (ename e) _ W); reflexivity).
      assert (K : tar_loop cwd dest es good ((p, edata e) :: fs) (if is_binary (base (ename e)) then p else bin) = (fs', Some b) -> (exists es1 e0 es2 n, e :: es = es1 ++ e0 :: es2 /\ own_name (ename e0) = n /\ names_binary n /\ (forall e', In e' es2 -> ~ names_binary (own_name (ename e'))) /\
     b = join2 dest n /\ file_at b fs' = Some (edata e0)) \/
  (b = bin /\ bin <> [] /\ file_at b fs' = file_at b fs /\ (forall e', In e' (e :: es) -> ~ names_binary (own_name (ename e'))))).
      { destruct (is_binary (base (ename e))) eqn:IB.
        - apply is_binary_iff in IB. intros H. apply IH in H; [|right; exists (base (ename e)); split; [exact IB|exact P]].
          destruct H as [(es1 & e0 & es2 & n & -> & R)|(-> & NP & F & R)]; left.
          + exists (e :: es1), e0, es2, n. split; [reflexivity|exact R].
          + exists [], e, es, (base (ename e)). split; [reflexivity|]. split; [exact O|]. split; [exact IB|]. split; [exact R|]. split; [exact P|]. rewrite F. cbn [file_at]. now rewrite beq_refl.
        - intros H. apply IH in H; [|exact HB].
          destruct H as [(es1 & e0 & es2 & n & -> & R)|(-> & NP & F & R)]; [left; exists (e :: es1), e0, es2, n; split; [reflexivity|exact R]|].
          assert (NB : ~ names_binary (base (ename e))) by (intros Q; apply is_binary_iff in Q; congruence).
          right. split; [reflexivity|]. split; [exact NP|]. split; [|intros e' [<-|I]; [now rewrite O|now apply R]]. rewrite F. cbn [file_at].
          destruct (beq bin p) eqn:Q; [|reflexivity]. exfalso. apply beq_iff in Q. destruct HB as [HB|(n & HN & HB)]; [easy|]. apply NB.
          rewrite HB, P in Q. apply (join_inj cwd) in Q; [now rewrite <- Q|now apply binary_wanted|exact W]. }
      destruct (efate e); try discriminate; exact K.
    + intros H. apply IH in H; [|exact HB].
      assert (NB : ~ names_binary (own_name (ename e))).
      { intros Q. assert (base (ename e) = own_name (ename e)) by (apply base_wanted; [now apply binary_wanted|reflexivity]). apply binary_wanted, want_iff in Q. congruence. }
      destruct H as [(es1 & e0 & es2 & n & -> & R)|(-> & NP & F & R)]; [left; exists (e :: es1), e0, es2, n; split; [reflexivity|exact R]|].
      right. split; [reflexivity|]. split; [exact NP|]. split; [exact F|]. intros e' [<-|I]; [exact NB|now apply R].
Qed.
Lemma split_map {A B} (f : A -> B) l : forall a x b, map f l = a ++ x :: b -> exists a' x' b', l = a' ++ x' :: b' /\ a = map f a' /\ x = f x' /\ b = map f b'.
Proof.
  induction l as [|y l IH]; intros [|z a] x b; cbn; try discriminate.
  - intros [= <- <-]. exists [], y, l. auto.
  - intros [= <- H]. destruct (IH _ _ _ H) as (a' & x' & b' & -> & -> & -> & ->). exists (y :: a'), x', b'. auto.
Qed.
(** The file reported as the new binary holds, complete, the data of the last entry called gray or gray.exe. *)
Theorem extract_result cwd dest es good fs b : absolute cwd ->
  extract_tar cwd dest es good = (fs, Some b) \/ extract_zip cwd dest es good = (fs, Some b) ->
  exists es1 e es2, es = es1 ++ e :: es2 /\ names_binary (own_name (ename e)) /\
    (forall e', In e' es2 -> ~ names_binary (own_name (ename e'))) /\
    resolve cwd b = resolve cwd dest ++ [own_name (ename e)] /\ file_at b fs = Some (edata e).
Proof.
  intros A H.
  assert (T : forall es g, tar_loop cwd dest es g [] [] = (fs, Some b) -> exists es1 e es2, es = es1 ++ e :: es2 /\ names_binary (own_name (ename e)) /\
    (forall e', In e' es2 -> ~ names_binary (own_name (ename e'))) /\ resolve cwd b = resolve cwd dest ++ [own_name (ename e)] /\ file_at b fs = Some (edata e)).
  { intros es' g H1. apply tar_result in H1; [|exact A|now left]. destruct H1 as [(es1 & e & es2 & n & -> & <- & N & L & -> & F)|(-> & K & _)]; [|easy].
    exists es1, e, es2. split; [reflexivity|]. split; [exact N|]. split; [exact L|]. split; [|exact F]. destruct (wanted_plain _ (binary_wanted _ N)) as (? & ? & _). now apply resolve_join. }
  destruct H as [H|H]; [now apply T in H|]. unfold extract_zip in H. destruct good; [|discriminate]. rewrite zip_tar in H. apply T in H as (es1 & e & es2 & E & R1 & R2 & R3 & R4).
  apply split_map in E as (a & x & b' & -> & -> & -> & ->). exists a, x, b'. split; [reflexivity|]. split; [exact R1|]. split; [|split; [exact R3|exact R4]].
  intros e' I. apply (R2 (no_open e')). now apply in_map.
Qed.
(** When nothing fails and the archive has such an entry, unpacking succeeds (in any directory but the root). *)
Theorem extract_succeeds cwd dest es : absolute cwd -> resolve cwd dest <> [] -> (forall e, In e es -> efate e = Fine) ->
  (exists e, In e es /\ names_binary (own_name (ename e))) ->
  (exists b, snd (extract_tar cwd dest es true) = Some b) /\ (exists b, snd (extract_zip cwd dest es true) = Some b).
Proof.
  intros A R F E.
  assert (T : forall es fs bin, (forall e, In e es -> efate e = Fine) -> (bin <> [] \/ exists e, In e es /\ names_binary (own_name (ename e))) -> exists b, snd (tar_loop cwd dest es true fs bin) = Some b).
  { clear es F E. induction es as [|e es IH]; intros fs bin F E; cbn [tar_loop].
    - destruct E as [E|(e & [] & _)]. destruct (beq bin []) eqn:B; [apply beq_iff in B; easy|]. eexists; reflexivity.
    - cbv zeta. assert (F' : forall e, In e es -> efate e = Fine) by (intros e' I; apply F; now right). destruct (want (base (ename e))) eqn:W; cbn [negb].
      + pose proof W as W0. apply want_iff in W. rewrite (sanitize_spec cwd dest _ A W). rewrite (F e (or_introl eq_refl)). destruct (resolve cwd dest) as [|x l] eqn:RR; [easy|].
        apply IH; [exact F'|]. assert (O : own_name (ename e) = base (ename e)) by (apply (base_wanted (ename e) _ W); reflexivity).
        destruct (is_binary (base (ename e))) eqn:IB; [left; apply join2_nonempty; intros K; rewrite K in W0; discriminate|].
        destruct E as [E|(e' & [<-|I] & N)]; [auto| |right; eauto]. exfalso. rewrite O in N. apply is_binary_iff in N. congruence.
      + apply IH; [exact F'|]. destruct E as [E|(e' & [<-|I] & N)]; [auto| |right; eauto]. exfalso.
        assert (base (ename e) = own_name (ename e)) by (apply base_wanted; [now apply binary_wanted|reflexivity]). apply binary_wanted, want_iff in N. congruence. }
  split; [apply T; [exact F|now right]|]. unfold extract_zip. rewrite zip_tar. apply T.
  - intros e I. apply in_map_iff in I as (e' & <- & I). cbn [no_open efate]. now rewrite (F e' I).
  - right. destruct E as (e & I & N). exists (no_open e). split; [now apply in_map|exact N].
Qed.
Example extract_demo :
  extract_tar (bs "/") (bs "/tmp/u1") [Entry (bs "../../etc/passwd") [1] Fine; Entry (bs "x/../../grayc") [2] Fine; Entry (bs "/a/gray") [3] Fine; Entry (bs "gray//") [4;5] Fine; Entry (bs "..") [9] Fine] true =
    ([(bs "/tmp/u1/gray", [4;5]); (bs "/tmp/u1/gray", [3]); (bs "/tmp/u1/grayc", [2])], Some (bs "/tmp/u1/gray")) /\
  extract_zip (bs "/home") (bs "a/../b") [Entry (bs "gray.exe") [7;8;9] (CopyFails 2)] true = ([(bs "b/gray.exe", [7;8])], None) /\
  resolve (bs "/home") (bs "a/../b") = [bs "home"; bs "b"] /\
  snd (extract_tar (bs "/") (bs "/") [Entry (bs "gray") [1] Fine] true) = None.
Proof. vm_compute. repeat split. Qed.

Print Assumptions trusted_origin. Print Assumptions trusted_url_partial. Print Assumptions trusted_url_refuted. Print Assumptions trusted_accepts.
Print Assumptions extract_confined. Print Assumptions extract_result. Print Assumptions extract_succeeds.
