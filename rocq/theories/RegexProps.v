(** C69: regex.replace.  C99: the other functions of the module.  [compile] and [exec] are libc's regcomp and regexec. *)
From Verif Require Import Base RegexSpec RegexModel RegexProofs RegexProofs2.

Lemma to_cstr_id n s : c_text (n - 1) s -> to_cstr s n = s.
Proof. intros [_ L]. unfold to_cstr. apply firstn_all2. lia. Qed.
Lemma text_id n s : c_text (n - 1) s -> c_string (to_cstr s n) = s.
Proof. intros T. rewrite to_cstr_id by exact T. apply c_string_id, T. Qed.
Lemma pattern_id (compile : bytes -> option re) p : c_text 4095 p -> compile_pattern compile p = compile p.
Proof. intros T. unfold compile_pattern. change (c_string (firstn (Z.to_nat (PAT_BUF - 1)) p)) with (c_string (to_cstr p PAT_BUF)). rewrite (text_id PAT_BUF) by exact T. reflexivity. Qed.

(** A pattern has exactly one list of matches in a text *)
Theorem one_list_of_matches : forall t r, exists l, forall l', all_matches t r 0 l' <-> l' = l.
Proof.
  intros t r. destruct (all_exist t r (S (length t)) 0 ltac:(lia)) as [l M]. exists l. intros l'. split; [intros M'; exact (all_unique t r 0 l' M' l M)|intros ->; exact M].
Qed.
(** Some regexec does what POSIX says *)
Theorem posix_exec_exists : exists exec, posix exec.
Proof. exists search. exact search_posix. Qed.

(** * C69 *)
(** Every match is rewritten.  Missing: patterns with ^, patterns with $ that match the empty string, results of 12288 bytes
    and more, texts with NUL or of more than 8191 bytes; see below *)
Theorem replace_all_partial : forall compile exec p r t repl l, posix exec -> c_text 4095 p -> compile p = Some r -> c_text 8191 t -> c_text 4095 repl ->
  no_bol r = true -> (no_eol r = true \/ never_empty r) -> all_matches t r 0 l -> Z.of_nat (length (substitute t repl 0 l)) < 12288 ->
  replace compile exec p t repl = Ok (substitute t repl 0 l).
Proof.
  intros compile exec p r t repl l X P C T R NB Q M B. unfold replace. rewrite pattern_id, C by exact P. rewrite (text_id TXT_BUF), (text_id PAT_BUF) by assumption. cbv zeta.
  exact (replace_loop_exact exec X r t repl (conj NB Q) (S (length t)) 0 [] l ltac:(lia) ltac:(lia) M B).
Qed.
(** Nothing is written outside the result buffer when n bytes of text and n + 1 replacements fit, whatever the pattern *)
Theorem replace_inside_partial : forall compile exec p t repl, posix exec ->
  let n := Z.min (Z.of_nat (length t)) 8191 in let m := Z.min (Z.of_nat (length repl)) 4095 in n + (n + 1) * m <= 16384 ->
  exists out, replace compile exec p t repl = Ok out.
Proof.
  intros compile exec p t repl X n m B. unfold replace. destruct (compile_pattern compile p) as [r|]; [|eexists; reflexivity]. cbv zeta.
  apply replace_loop_safe; [exact X|lia|].
  pose proof (c_string_length (to_cstr t TXT_BUF)) as L1. pose proof (c_string_length (to_cstr repl PAT_BUF)) as L2.
  unfold to_cstr in L1 at 2, L2 at 2. rewrite firstn_length in L1, L2. change (Z.to_nat (TXT_BUF - 1)) with (Z.to_nat 8191) in L1. change (Z.to_nat (PAT_BUF - 1)) with (Z.to_nat 4095) in L2.
  set (a := Z.of_nat (length (c_string (to_cstr t TXT_BUF)))) in *. set (b := Z.of_nat (length (c_string (to_cstr repl PAT_BUF)))) in *.
  assert (0 <= a <= n) by lia. assert (0 <= b <= m) by lia. change RESULT_BUF with 16384. cbn [length]. assert ((a + 1) * b <= (n + 1) * m) by (apply Z.mul_le_mono_nonneg; lia). lia.
Qed.
(** It always stops *)
Theorem replace_stops : forall compile exec p t repl, posix exec -> replace compile exec p t repl = UB \/ exists out, replace compile exec p t repl = Ok out.
Proof.
  intros compile exec p t repl X. unfold replace. destruct (compile_pattern compile p) as [r|]; [|right; eexists; reflexivity]. cbv zeta. apply replace_loop_total; [exact X|lia].
Qed.
Theorem replace_invalid : forall compile exec p t repl, c_text 4095 p -> compile p = (None : option re) -> replace compile exec p t repl = Ok t /\ replace_result compile exec p t repl = Ok (t, true).
Proof. intros compile exec p t repl P C. unfold replace, replace_result. rewrite pattern_id, C by exact P. split; reflexivity. Qed.
(** 8000 times a, each to become 4095 times b: three replacements fit, a fourth and the rest of the text are written behind *)
Theorem replace_inside_refuted : ~ (forall compile exec p t repl, posix exec -> c_text 4095 p -> c_text 8191 t -> c_text 4095 repl -> exists out, replace compile exec p t repl = Ok out).
Proof.
  intros X. assert (E : replace (fun _ => Some (Chr (Z.eqb 97))) search (bs "a") (repeat 97 (Z.to_nat 8000)) (repeat 98 (Z.to_nat 4095)) = UB) by (vm_compute; reflexivity).
  assert (N : forall c n, c <> 0 -> ~ In 0 (repeat c n)) by (intros c n C I0; apply repeat_spec in I0; congruence).
  destruct (X (fun _ => Some (Chr (Z.eqb 97))) search (bs "a") (repeat 97 (Z.to_nat 8000)) (repeat 98 (Z.to_nat 4095)) search_posix) as [out O].
  - split; [intros [H|[]]; discriminate H|cbn; lia].
  - split; [apply N; lia|rewrite repeat_length; lia].
  - split; [apply N; lia|rewrite repeat_length; lia].
  - rewrite E in O. discriminate O.
Qed.
Definition replace_claim (r : re) (t repl : bytes) : Prop :=
  forall l, all_matches t r 0 l -> replace (fun _ => Some r) search (bs "p") t repl = Ok (substitute t repl 0 l).
(** aaaaa with 4095 times b for a: the fifth a stays *)
Theorem replace_all_refuted : ~ replace_claim (Chr (Z.eqb 97)) (bs "aaaaa") (repeat 98 (Z.to_nat 4095)).
Proof.
  intros X.
  assert (M' : all_matches (bs "aaaaa") (Chr (Z.eqb 97)) 0 [(0, 1); (1, 2); (2, 3); (3, 4); (4, 5)]%nat).
  { repeat (apply one_more; [match goal with |- leftmost_longest ?t ?r ?f _ _ => exact (search_from_right t r 6 f ltac:(cbn; lia)) end|cbn [Nat.eqb]]).
    apply no_more. exact (search_from_right (bs "aaaaa") (Chr (Z.eqb 97)) 6 5 ltac:(cbn; lia)). }
  specialize (X _ M'). apply (f_equal (fun o => match o with Ok o => last o 0 =? 97 | _ => false end)) in X. vm_compute in X. discriminate X.
Qed.
(** ^a in aaa: all three are replaced; $ in abc: replaced twice *)
Theorem replace_start_refuted : ~ replace_claim (Cat Bol (Chr (Z.eqb 97))) (bs "aaa") (bs "X").
Proof.
  intros X. assert (M' : all_matches (bs "aaa") (Cat Bol (Chr (Z.eqb 97))) 0 [(0, 1)]%nat).
  { apply one_more; [exact (search_from_right (bs "aaa") (Cat Bol (Chr (Z.eqb 97))) 4 0 ltac:(cbn; lia))|cbn [Nat.eqb]].
    apply no_more. exact (search_from_right (bs "aaa") (Cat Bol (Chr (Z.eqb 97))) 4 1 ltac:(cbn; lia)). }
  specialize (X _ M'). vm_compute in X. discriminate X.
Qed.
Theorem replace_end_refuted : ~ replace_claim Eol (bs "abc") (bs "!").
Proof.
  intros X. assert (M' : all_matches (bs "abc") Eol 0 [(3, 3)]%nat).
  { apply one_more; [exact (search_from_right (bs "abc") Eol 4 0 ltac:(cbn; lia))|cbn [Nat.eqb]].
    apply no_more. exact (search_from_right (bs "abc") Eol 4 4 ltac:(cbn; lia)). }
  specialize (X _ M'). vm_compute in X. discriminate X.
Qed.
Example replace_stars : replace (fun _ => Some (Star (Chr (Z.eqb 97)))) search (bs "a*") (bs "baac") (bs "-") = Ok (bs "-b--c-").
Proof. vm_compute. reflexivity. Qed.
Example replace_abc : replace (fun _ => Some (Cat (Chr (Z.eqb 98)) (Star (Chr (Z.eqb 99))))) search (bs "bc*") (bs "abccabd") (bs "<>") = Ok (bs "a<>a<>d").
Proof. vm_compute. reflexivity. Qed.

(** * C99 *)
(** match: is there a match *)
Theorem match_exact_partial : forall compile exec p r t, posix exec -> c_text 4095 p -> compile p = Some r -> c_text 8191 t ->
  match_ compile exec p t = true <-> exists i j, matches t r i j.
Proof.
  intros compile exec p r t X P C T. unfold match_. rewrite pattern_id, C by exact P. rewrite (text_id TXT_BUF) by exact T. specialize (X r t).
  destruct (exec r t) as [[i j]|]; split; try discriminate.
  - intros _. exists i, j. apply X.
  - reflexivity.
  - intros [i [j M]]. destruct (X i j M).
Qed.
(** find: the leftmost longest match, or the empty string *)
Theorem find_exact_partial : forall compile exec p r t, posix exec -> c_text 4095 p -> compile p = Some r -> c_text 8191 t ->
  (forall i j, leftmost_longest t r 0 i j -> find compile exec p t = part t i j) /\ ((forall i j, ~ matches t r i j) -> find compile exec p t = []).
Proof.
  intros compile exec p r t X P C T. unfold find. rewrite pattern_id, C by exact P. cbv zeta. rewrite (text_id TXT_BUF), (to_cstr_id TXT_BUF) by exact T. specialize (X r t).
  destruct (exec r t) as [[i j]|]; split.
  - intros i' j' L. destruct (longest_unique _ _ _ _ _ _ _ X L) as [-> ->]. reflexivity.
  - intros N. destruct X as [_ [M _]]. destruct (N _ _ M).
  - intros i j [_ [M _]]. destruct (X _ _ M).
  - reflexivity.
Qed.
(** find_all: the matches in order *)
Theorem find_all_exact_partial : forall compile exec p r t l, posix exec -> c_text 4095 p -> compile p = Some r -> c_text 8191 t ->
  no_bol r = true -> (no_eol r = true \/ never_empty r) -> all_matches t r 0 l -> find_all compile exec p t = Ok (map (fun m => part t (fst m) (snd m)) l).
Proof.
  intros compile exec p r t l X P C T NB Q M. unfold find_all. rewrite pattern_id, C by exact P. cbv zeta. rewrite (to_cstr_id TXT_BUF) by exact T.
  exact (find_loop_exact exec X r t (conj NB Q) (proj1 T) (S (S (length t))) 0 [] l ltac:(lia) ltac:(lia) M).
Qed.
(** split: the pieces between the matches *)
Theorem split_exact_partial : forall compile exec p r t l, posix exec -> c_text 4095 p -> compile p = Some r -> c_text 8191 t ->
  no_bol r = true -> never_empty r -> all_matches t r 0 l -> split compile exec p t = Ok (pieces t 0 l).
Proof.
  intros compile exec p r t l X P C T NB Q M. unfold split. rewrite pattern_id, C by exact P. cbv zeta. rewrite (text_id TXT_BUF) by exact T.
  exact (split_loop_exact exec X r t NB Q (S (length t)) 0 [] l ltac:(lia) ltac:(lia) M).
Qed.
(** Pieces and matches in turn are the text again *)
Theorem split_find_all_partial : forall compile exec p r t, posix exec -> c_text 4095 p -> compile p = Some r -> c_text 8191 t -> no_bol r = true -> never_empty r ->
  exists a b, split compile exec p t = Ok a /\ find_all compile exec p t = Ok b /\ length a = S (length b) /\ weave a b = t.
Proof.
  intros compile exec p r t X P C T NB Q. destruct (all_exist t r (S (length t)) 0 ltac:(lia)) as [l M].
  exists (pieces t 0 l), (map (fun m => part t (fst m) (snd m)) l). split; [exact (split_exact_partial compile exec p r t l X P C T NB Q M)|].
  split; [exact (find_all_exact_partial compile exec p r t l X P C T NB (or_intror Q) M)|]. split; [rewrite map_length; exact (pieces_count t r 0 l M)|].
  exact (weave_all t r 0 l M ltac:(lia) Q).
Qed.
(** All stop *)
Theorem searches_stop : forall compile exec p t, posix exec ->
  (find_all compile exec p t = UB \/ exists l, find_all compile exec p t = Ok l) /\ exists l, split compile exec p t = Ok l.
Proof.
  intros compile exec p t X. unfold find_all, split. destruct (compile_pattern compile p) as [r|]; [|split; [right|]; eexists; reflexivity]. cbv zeta. split.
  - apply find_loop_total; [exact X|lia|lia].
  - apply split_loop_total; [exact X|lia].
Qed.
(** An invalid pattern: reported by the _result variants and by is_valid, nothing found *)
Theorem invalid_pattern : forall compile exec p t, c_text 4095 p -> compile p = (None : option re) ->
  is_valid compile p = false /\ match_ compile exec p t = false /\ find_result compile exec p t = ([], true) /\ find_all_result compile exec p t = Ok ([], true) /\ split_result compile exec p t = Ok ([], true).
Proof. intros compile exec p t P C. unfold is_valid, match_, find_result, find_all_result, split_result. rewrite pattern_id, C by exact P. repeat split. Qed.
Theorem valid_pattern : forall compile exec p r t repl, c_text 4095 p -> compile p = Some (r : re) ->
  is_valid compile p = true /\ find_result compile exec p t = (find compile exec p t, false) /\
  (forall l, find_all compile exec p t = Ok l -> find_all_result compile exec p t = Ok (l, false)) /\
  (forall l, split compile exec p t = Ok l -> split_result compile exec p t = Ok (l, false)) /\
  (forall s, replace compile exec p t repl = Ok s -> replace_result compile exec p t repl = Ok (s, false)).
Proof.
  intros compile exec p r t repl P C. unfold is_valid, find_result, find_all_result, split_result, replace_result. rewrite pattern_id, C by exact P.
  split; [reflexivity|]. split; [reflexivity|]. split; [intros l ->; reflexivity|]. split; [intros l ->; reflexivity|intros s ->; reflexivity].
Qed.
(** Matches behind byte 8191 are not seen *)
Lemma c_string_in s x : In x (c_string s) -> In x s.
Proof. induction s as [|b s IH]; cbn [c_string]; [intros []|]. destruct (b =? 0); [intros []|]. intros [X|X]; [left; exact X|right; apply IH; exact X]. Qed.
Lemma unseen c s : ~ In c s -> search (Chr (Z.eqb c)) (c_string s) = None.
Proof.
  intros N. pose proof (search_posix (Chr (Z.eqb c)) (c_string s)) as S0. destruct (search _ _) as [[i j]|]; [exfalso|reflexivity]. destruct S0 as [_ [M _]].
  inversion M as [| | |p i' c' E Q| | | | |]; subst. apply nth_error_In, c_string_in in E. apply Z.eqb_eq in Q. subst c'. exact (N E).
Qed.
Lemma cut_here n (a c : Z) : ~ In c (firstn n (repeat a n ++ [c])) \/ a = c.
Proof.
  destruct (Z.eq_dec a c) as [E|E]; [right; exact E|left]. rewrite firstn_app, repeat_length, Nat.sub_diag. cbn [firstn]. rewrite app_nil_r.
  rewrite firstn_all2 by (rewrite repeat_length; lia). intros X. apply repeat_spec in X. congruence.
Qed.
Definition long_text (n : nat) (a c : Z) : bytes := repeat a n ++ [c].
Lemma there_after n (a c : Z) : matches (long_text n a c) (Chr (Z.eqb c)) n (S n).
Proof. unfold long_text. apply (m_chr _ _ _ c); [|apply Z.eqb_refl]. rewrite nth_error_app2 by (rewrite repeat_length; lia). rewrite repeat_length, Nat.sub_diag. reflexivity. Qed.
Lemma match_unseen c p t : ~ In c (to_cstr t TXT_BUF) -> match_ (fun _ => Some (Chr (Z.eqb c))) search p t = false.
Proof. intros N. unfold match_, compile_pattern. rewrite (unseen c _ N). reflexivity. Qed.
Lemma long_unseen size : ~ In 98 (to_cstr (long_text (Z.to_nat (size - 1)) 97 98) size).
Proof. unfold to_cstr, long_text. destruct (cut_here (Z.to_nat (size - 1)) 97 98) as [N|N]; [exact N|discriminate N]. Qed.
Theorem match_long_refuted : ~ (forall compile exec p r t, posix exec -> compile p = Some r -> (exists i j, matches t r i j) -> match_ compile exec p t = true).
Proof.
  intros X. pose proof (X _ search (bs "b") (Chr (Z.eqb 98)) _ search_posix (eq_refl : (fun _ : bytes => Some (Chr (Z.eqb 98))) (bs "b") = _) (ex_intro _ _ (ex_intro _ _ (there_after (Z.to_nat (TXT_BUF - 1)) 97 98)))) as E.
  rewrite (match_unseen 98 (bs "b") _ (long_unseen TXT_BUF)) in E. discriminate E.
Qed.
(** An empty pattern: find_all reads behind the text buffer for every longer text *)
Lemma find_loop_outside : forall buf len fuel k arr, (length buf < len)%nat -> (k <= S (length buf))%nat -> (S (length buf) - k < fuel)%nat ->
  find_loop search fuel Eps buf len k arr = UB.
Proof.
  intros buf len. induction fuel as [|fuel IH]; intros k arr Hl Hk Hf; [lia|]. cbn [find_loop]. destruct (length buf <? k)%nat eqn:E; [reflexivity|].
  change (search Eps (c_string (skipn k buf))) with (Some (0, 0)%nat). cbv zeta. cbn [Nat.eqb]. rewrite Nat.add_0_r. destruct (len <=? k)%nat eqn:El; [lia|]. apply IH; lia.
Qed.
Theorem find_all_inside_refuted : forall t, 8191 < Z.of_nat (length t) -> find_all (fun _ => Some Eps) search [] t = UB.
Proof.
  intros t L. unfold find_all. cbn [compile_pattern]. unfold compile_pattern. cbv zeta. change TXT_BUF with 8192.
  assert (Lb : (length (to_cstr t 8192) < length t)%nat) by (unfold to_cstr; rewrite firstn_length; lia). apply find_loop_outside; lia.
Qed.
(** x* : the characters between empty matches are lost *)
Theorem split_empty_refuted : split (fun _ => Some (Star (Chr (Z.eqb 120)))) search (bs "x*") (bs "abc") = Ok [[]; []; []; []; []].
Proof. vm_compute. reflexivity. Qed.
Theorem find_all_anchors_refuted : find_all (fun _ => Some (Cat Bol (Chr (Z.eqb 97)))) search (bs "^a") (bs "aab") = Ok [bs "a"; bs "a"] /\ find_all (fun _ => Some Eol) search (bs "$") (bs "ab") = Ok [[]; []].
Proof. vm_compute. split; reflexivity. Qed.
Example split_words : split (fun _ => Some (Cat (Chr (Z.eqb 44)) (Star (Chr (Z.eqb 32))))) search (bs ", *") (bs "ab,  c,,d") = Ok [bs "ab"; bs "c"; []; bs "d"]
  /\ find_all (fun _ => Some (Cat (Chr (Z.eqb 44)) (Star (Chr (Z.eqb 32))))) search (bs ", *") (bs "ab,  c,,d") = Ok [bs ",  "; bs ","; bs ","] /\ never_empty (Cat (Chr (Z.eqb 44)) (Star (Chr (Z.eqb 32)))).
Proof.
  split; [vm_compute; reflexivity|]. split; [vm_compute; reflexivity|]. intros t i M. inversion M as [| | | |a b i' j k M1 M2| | | |]; subst.
  inversion M1; subst. apply match_range in M2. lia.
Qed.

Print Assumptions one_list_of_matches.
Print Assumptions replace_all_partial.
Print Assumptions replace_inside_partial.
Print Assumptions replace_stops.
Print Assumptions replace_invalid.
Print Assumptions replace_inside_refuted.
Print Assumptions replace_all_refuted.
Print Assumptions replace_start_refuted.
Print Assumptions replace_end_refuted.
Print Assumptions match_exact_partial.
Print Assumptions find_exact_partial.
Print Assumptions find_all_exact_partial.
Print Assumptions split_exact_partial.
Print Assumptions split_find_all_partial.
Print Assumptions searches_stop.
Print Assumptions invalid_pattern.
Print Assumptions valid_pattern.
Print Assumptions match_long_refuted.
Print Assumptions find_all_inside_refuted.
Print Assumptions split_empty_refuted.
Print Assumptions find_all_anchors_refuted.
