(** Interpolated strings have the values in their places; the format functions are
    checked, and write what their format asks for. *)
From Verif Require Import Base BaseFacts StringsModel EncodingModel LitSpec LitModel LitProofs LitProofs2 LitProofs3 StrconvSpec StrconvModel FormatSpec FormatModel FormatProofs FormatProofs2 FormatProofs3 FormatProofs4 FormatProofs5 Decimal.

Definition simple_layout (f w : bytes) (p : option bytes) (c : Z) (v : value) : bytes := match v with VInt z => dec_signed z | VStr s => s | VFloat _ => [] end.
Example simple_layout_plain : plain_layout simple_layout.
Proof. split; [reflexivity|]. split; [|reflexivity]. intros v H. now apply dec_signed_nonneg. Qed.

(** * C121 *)
(** The parts of an interpolated string are those written, and only braces with nothing in them are reported *)
Theorem interpolation_parts parse ss : Forall seg_ok ss -> no_two_texts ss ->
  fst (parse_interpolated parse (flat_map seg_written ss)) =
    flat_map (fun s => match s with Txt its => [PText (flat_map written its)] | Hole e => expr_part parse e end) ss /\
  (forall e, In (Hole e) ss -> (blank e -> expr_part parse e = []) /\
     (~ blank e -> expr_part parse e = match parse e with Some (EStr s) => [PText s] | Some (EVal v) => [PExpr v] | None => [] end)) /\
  (snd (parse_interpolated parse (flat_map seg_written ss)) = true <-> exists e, In (Hole e) ss /\ blank e).
Proof.
  intros F T. unfold parse_interpolated. rewrite parts_segs by (assumption || lia). split; [reflexivity|]. split; [intros e _; unfold expr_part; destruct (is_empty e) eqn:E; [apply is_empty_blank in E; now split|split; [|reflexivity]; intros B; apply is_empty_blank in B; congruence]|]. cbn [snd]. unfold empties. rewrite existsb_exists. split.
  - intros ([its|e] & J & E); [discriminate|]. exists e. split; [exact J|]. now apply is_empty_blank.
  - intros (e & J & B). exists (Hole e). split; [exact J|]. now apply is_empty_blank.
Qed.
Print Assumptions interpolation_parts.
(** The string made is the text with the values in their places.  Missing: text with two question marks in a row, an
    escaped backslash before a dollar sign, \xNN before a hexadecimal digit, zero bytes or \x25; values whose text has
    a zero byte; expressions that are string literals *)
Theorem interpolation_partial layout parse val ss : plain_layout layout -> Forall seg_ok ss -> no_two_texts ss -> Forall seg_good ss ->
  (forall e, In (Hole e) ss -> ~ blank e /\ parse e = Some (EVal (val e)) /\ in_type (val e) /\ forall t, shows (val e) t -> ~ In 0 t) ->
  exists ps f t, parse_interpolated parse (flat_map seg_written ss) = (ps, false) /\ c_string (interp_format ps) = Some f /\
    filled val ss t /\ printf layout None f (interp_args ps) = Some t.
Proof.
  intros L F T G H. destruct (icits_printf val layout ss L F G) as (t & A & B). { intros e J. destruct (H e J) as (_ & _ & X). exact X. }
  destruct (W_icits val ss F G parse) as [E1 E2]. { intros e J. destruct (H e J) as (X & Y & _). auto. }
  destruct (icits_good val ss F G T) as (C1 & C2 & C3).
  exists (expected parse ss), (map denoted (icits val ss)), t. split; [|split; [|split; [exact A|]]].
  - unfold parse_interpolated. rewrite parts_segs by (assumption || lia). f_equal. unfold empties. destruct (existsb _ ss) eqn:E; [|reflexivity]. apply existsb_exists in E as ([its|e] & J & E); [discriminate|].
    apply is_empty_blank in E. destruct (H e J) as [X _]. contradiction.
  - unfold interp_format. rewrite E1. apply quoted_string; [exact C3|]. now apply c_items.
  - rewrite E2. exact B.
Qed.
Print Assumptions interpolation_partial.
(** There is one such text *)
Theorem interpolation_one val ss t u : filled val ss t -> filled val ss u -> u = t.
Proof.
  assert (O : forall v a b, shows v a -> shows v b -> b = a).
  { intros v a b A B. destruct v; try (inversion A; inversion B; congruence). inversion A as [| | |? ? U| | | | | | | | | | |]. inversion B as [| | |? ? V| | | | | | | | | | |]. subst.
    rewrite (StrconvProofs.utf8_unique _ _ U), (StrconvProofs.utf8_unique _ _ V). reflexivity. }
  intros A. revert u. induction A as [|its ss t A IH|e ss s t S A IH]; intros u B; inversion B; subst; [reflexivity|f_equal; now apply IH|]. f_equal; [eapply O; eassumption|now apply IH].
Qed.
Print Assumptions interpolation_one.
(** 100% \$ of ${a[{0}]}, and \x41 ${b} *)
Definition interp_case : list seg :=
  [Txt (map Plain (bs "100% ") ++ [Escape 36 36; Plain 32]); Hole (bs "a[{0}]"); Txt [Plain 44; HexEscape 52 49 65; Plain 32]; Hole (bs "b"); Hole (bs "c")].
Definition interp_val (e : bytes) : shown := if same e (bs "b") then SInt (-5) else if same e (bs "c") then SChar 233 else SString (bs "x%d").
Example interp_written : flat_map seg_written interp_case = bs "100% \$ ${a[{0}]},\x41 ${b}${c}". Proof. reflexivity. Qed.
Example interp_ok : Forall seg_ok interp_case /\ no_two_texts interp_case /\ Forall seg_good interp_case /\
  (forall e, In (Hole e) interp_case -> ~ blank e /\ in_type (interp_val e) /\ forall t, shows (interp_val e) t -> ~ In 0 t).
Proof.
  assert (NN : forall R l, (fix go (l : list item) : Prop := match l with i :: ((j :: _) as r) => ~ R i j /\ go r | _ => True end) l -> no_neighbours R l).
  { intros R l H p. revert l H. induction p as [|a p IH]; intros l H i j q ->.
    - cbn in H. apply H.
    - apply (IH (p ++ i :: j :: q)) with (q := q); [|reflexivity]. cbn in H. destruct (p ++ i :: j :: q); [exact I|]. apply H. }
  assert (B : forall s, (forall c, In c s -> c <> 123 /\ c <> 125) -> balanced s).
  { induction s as [|c s IH]; intros H; [constructor|]. destruct (H c (or_introl eq_refl)). constructor; auto. apply IH. intros d J. apply H. now right. }
  assert (Fr : forall b s, (forall n, (n <= length s)%nat -> firstn (length b) (skipn n s) <> b) -> free_of b s).
  { intros b s H p q ->. apply (H (length p)); [rewrite app_length; lia|]. rewrite skipn_app, skipn_all, Nat.sub_diag. cbn [app skipn]. rewrite firstn_app, firstn_all, Nat.sub_diag. cbn. apply app_nil_r. }
  assert (IO : forall c, c <> 0 -> c <> 92 -> c <> 34 -> c <> 10 -> item_ok (Plain c)) by (intros; cbn; auto).
  assert (HX : item_ok (HexEscape 52 49 65)) by (exists 4, 1; split; [apply (digit_num 16 52); lia|split; [apply (digit_num 16 49); lia|reflexivity]]).
  split; [|split; [|split]].
  - repeat apply Forall_cons; try apply Forall_nil.
    + split; [discriminate|]. split; [cbn [map bs app byte_of_ascii]; repeat constructor; try (apply IO; discriminate); cbn; tauto|]. apply NN. cbn. repeat split; intros [? ?]; discriminate.
    + split; [|cbn; intuition discriminate]. apply (bal_char 97); try discriminate. apply (bal_char 91); try discriminate. apply (bal_pair (bs "0") (bs "]")); apply B; cbn; intros c [<-|[]]; split; discriminate.
    + split; [discriminate|]. split; [repeat apply Forall_cons; try apply Forall_nil; try exact HX; apply IO; discriminate|]. apply NN. cbn. repeat split; intros [? ?]; discriminate.
    + split; [apply B; cbn; intros c [<-|[]]; split; discriminate|cbn; intuition discriminate].
    + split; [apply B; cbn; intros c [<-|[]]; split; discriminate|cbn; intuition discriminate].
  - intros p a b q E. do 5 (destruct p as [|? p]; [discriminate E|injection E as ? E]). destruct p; discriminate.
  - repeat apply Forall_cons; try apply Forall_nil; try exact I.
    + split; [apply Fr; intros n H; do 10 (destruct n as [|n]; [discriminate|]); cbn in H; lia|]. split; [|split].
      * apply NN. cbn. repeat split; intros [? ?]; discriminate.
      * apply NN. cbn. repeat split; intros (? & ? & ? & ? & ? & ? & _); discriminate.
      * repeat constructor; intros [H|(? & ? & H)]; discriminate.
    + split; [apply Fr; intros n H; do 8 (destruct n as [|n]; [discriminate|]); cbn in H; lia|]. split; [|split].
      * apply NN. cbn. repeat split; intros [? ?]; discriminate.
      * apply NN. cbn. repeat split; intros (? & ? & ? & ? & ? & ? & H & D); try discriminate. injection H as <-. inversion D; lia.
      * repeat constructor; intros [H|(? & ? & H)]; discriminate.
  - intros e J. cbn in J. destruct J as [J|[J|[J|[J|[J|[]]]]]]; try discriminate; injection J as <-; (split; [intros X|split]).
    + specialize (X 97 (or_introl eq_refl)). cbn in X. intuition discriminate.
    + exact I.
    + intros t S. inversion S; subst. cbn. intuition discriminate.
    + specialize (X 98 (or_introl eq_refl)). cbn in X. intuition discriminate.
    + split; discriminate.
    + intros t S. inversion S; subst. cbn. intuition discriminate.
    + specialize (X 99 (or_introl eq_refl)). cbn in X. intuition discriminate.
    + split; discriminate.
    + intros t S. inversion S as [| | |? ? U| | | | | | | | | | |]; subst. apply StrconvProofs.utf8_unique in U. subst. vm_compute. intuition discriminate.
Qed.
Example interp_text : let '(ps, err) := parse_interpolated (fun e => Some (EVal (interp_val e))) (flat_map seg_written interp_case) in
  (err, option_map (fun f => printf simple_layout None f (interp_args ps)) (c_string (interp_format ps))) = (false, Some (Some (bs "100% $ x%d,A -5" ++ [195; 169]))).
Proof. vm_compute. reflexivity. Qed.
(** What is missing: \x25s in the text is a directive without an argument; \x41B is not an escape of C; text after \0 and
    bytes after a zero byte of a value are lost; a brace in quotes ends the expression; a raw string in braces is read
    for escapes *)
Definition interpolated (parse : bytes -> option expr) (raw : bytes) : option (option bytes) :=
  let '(ps, _) := parse_interpolated parse raw in option_map (fun f => printf simple_layout None f (interp_args ps)) (c_string (interp_format ps)).
Theorem interpolation_refuted : let p v := fun _ : bytes => Some (EVal v) in
  interpolated (p (SInt 1)) (bs "${a}\x25s") = Some None /\
  interpolated (p (SInt 1)) (bs "\x41B${a}") = None /\
  interpolated (p (SInt 1)) (bs "${a}x\0y") = Some (Some (bs "1x")) /\
  interpolated (p (SString [97; 0; 98])) (bs "<${a}>") = Some (Some (bs "<a>")) /\
  (exists q, fst (parse_interpolated (p (SInt 1)) (bs "${m['}']}")) = [PExpr (SInt 1); PText q]) /\
  interpolated (fun _ => Some (EStr (bs "C:\new"))) (bs "${`C:\new`}") = Some (Some (bs "C:" ++ [10] ++ bs "ew")).
Proof. cbv zeta. split; [|split; [|split; [|split; [|split]]]]; [vm_compute; reflexivity..| |vm_compute; reflexivity]. eexists. vm_compute. reflexivity. Qed.
Print Assumptions interpolation_refuted.

(** * C122 *)
(** A format is accepted exactly if it is made of characters, doubled percent signs and known directives, with an
    argument of the right type for each directive and no other *)
Theorem format_check_exact fmt tys : check_format fmt tys = [] <->
  exists ps, Forall char_piece ps /\ fmt = flat_map piece_written ps /\ Forall2 (fun d t => takes (conv d) t) (dirs ps) tys.
Proof. apply check_iff. Qed.
Print Assumptions format_check_exact.
Example format_check_case : check_format (bs "%-5d|%s|%%|%.2f") [GInt 64; GString; GFloat] = [] /\ check_format (bs "%d") [] = [3107] /\ check_format (bs "%d %s") [GString; GString] = [3088] /\
  check_format (bs "x") [GFloat] = [3108] /\ check_format (bs "%n") [GInt 64] = [3087; 3108] /\ check_format (bs "%5n") [GInt 64] = [3105] /\ check_format (bs "%*d") [GInt 64] <> [] /\ check_format (bs "5%") [] = [3106].
Proof. vm_compute. repeat split; discriminate || reflexivity. Qed.
(** C then takes exactly the arguments of the call, by the conversions that were written; %n is not among them.
    Missing: %b, which is not a conversion of C11; text with two question marks in a row, \$, \xNN before a hexadecimal
    digit, zero bytes, \x25 *)
Theorem format_arguments_partial newline ps tys : Forall piece_ok ps -> check_format (flat_map piece_written ps) tys = [] ->
  free_of (bs "??") (flat_map piece_written ps) -> no_neighbours bad_hex (items ps) -> (forall i, In (Text i) ps -> text_ok i) -> Forall (fun d => conv d <> 98) (dirs ps) ->
  exists f ds, c_string (emit_format newline (flat_map piece_written ps) tys) = Some f /\ directives None f = Some ds /\
    map conv ds = map conv (dirs ps) /\ length ds = length tys /\ Forall (fun d => conv d <> 110) ds.
Proof.
  intros F C Q H T B. exists (map denoted (cits ps (map kind_of tys)) ++ (if newline then [10] else [])), (updirs ps (map kind_of tys)).
  split; [now apply format_literal|]. split; [apply directives_cits; auto; destruct newline; auto|]. split; [apply updirs_conv|]. split.
  - rewrite <- (map_length conv), updirs_conv, map_length. pose proof C as C'. unfold check_format in C'. rewrite <- expand_written in C'. rewrite walk_chars in C' by (reflexivity || now apply expand_ok).
    rewrite expand_dirs in C'. apply app_eq_nil in C' as [_ C']. apply app_eq_nil in C' as [C' _].
    destruct (length tys <? length (dirs ps))%nat eqn:X; [discriminate|]. destruct (length (dirs ps) <? length tys)%nat eqn:Y; [discriminate|]. lia.
  - assert (X : Forall (fun c => c <> 110) (map conv (updirs ps (map kind_of tys)))).
    { rewrite updirs_conv. apply Forall_map. rewrite Forall_forall in F. apply Forall_forall. intros d J. unfold dirs in J. apply in_flat_map in J as ([i| |d'] & J & K); try contradiction. destruct K as [->|[]].
      apply (proj1 (proj2 (proj2 (proj2 (dir_spec d (F _ J)))))). }
    rewrite Forall_map in X. exact X.
Qed.
Print Assumptions format_arguments_partial.

(** * C123 *)
(** The text written is the one the format asks for.  Missing, besides what is missing above: directives that read an
    argument of another size than the one passed (see [sound]), strings with a zero byte *)
Theorem format_text_partial layout newline ps args : Forall piece_ok ps -> Forall typed args -> Forall2 sound (dirs ps) args ->
  free_of (bs "??") (flat_map piece_written ps) -> no_neighbours bad_hex (items ps) -> (forall i, In (Text i) ps -> text_ok i) ->
  exists f t, c_string (emit_format newline (flat_map piece_written ps) (map fst args)) = Some f /\ formatted layout ps args t /\
    printf layout None f (map emit_arg args) = Some (t ++ if newline then [10] else []).
Proof.
  intros F Ty S Q H T. destruct (printf_cits layout ps (if newline then [10] else []) args F T ltac:(destruct newline; auto) Ty S) as (t & A & B).
  eexists _, t. split; [now apply format_literal|]. split; [exact A|exact B].
Qed.
Print Assumptions format_text_partial.
(** Such calls are accepted *)
Theorem format_sound_accepted ps args : Forall piece_ok ps -> Forall2 sound (dirs ps) args -> check_format (flat_map piece_written ps) (map fst args) = [].
Proof.
  intros F S. apply check_iff. exists (expand ps). split; [now apply expand_ok|]. split; [symmetry; apply expand_written|]. rewrite expand_dirs. induction S as [|d [ty v] ds args S1 S2 IH]; [constructor|].
  cbn [map fst]. constructor; [|exact IH]. clear -S1. destruct ty, v; cbn in S1; try contradiction; cbn; intuition (subst; auto; try congruence).
Qed.
Print Assumptions format_sound_accepted.
Definition format_case : list piece :=
  [Text (Plain 91); Dir (mk (bs "-") (bs "6") None [] 100); Text (Escape 116 9); Percent; Dir (mk [] [] (Some (bs "2")) [] 102); Dir (mk [] [] None [] 115); Dir (mk [] [] None (bs "ll") 120)].
Example format_case_ok : flat_map piece_written format_case = bs "[%-6d\t%%%.2f%s%llx" /\ Forall piece_ok format_case /\
  let args := [(GInt 64, GZ (-5)); (GFloat, GD 7); (GString, GS (bs "ab")); (GUint 64, GZ UINT64_MAX)] in
  Forall typed args /\ Forall2 sound (dirs format_case) args /\ (forall i, In (Text i) format_case -> text_ok i) /\
  printf simple_layout None (match c_string (emit_format true (bs "[%-6d\t%%%.2f%s%llx") (map fst args)) with Some f => f | None => [] end) (map emit_arg args) =
    Some (bs "[-5" ++ [9] ++ bs "%ab18446744073709551615" ++ [10]).
Proof.
  split; [reflexivity|]. split.
  - unfold format_case. repeat apply Forall_cons; try apply Forall_nil; cbn [piece_ok]; try exact I.
    + split; [cbn; lia|discriminate].
    + repeat split; try (repeat constructor); try discriminate; cbn; tauto.
    + split; [cbn; tauto|discriminate].
    + repeat split; try (repeat constructor); try discriminate; cbn; tauto.
    + repeat split; try (repeat constructor); try discriminate; cbn; tauto.
    + repeat split; try (repeat constructor); try discriminate; cbn; tauto.
  - cbv zeta. split; [|split; [|split]].
    + repeat apply Forall_cons; try apply Forall_nil; cbn [typed]; try exact I; (split; [cbn; tauto|]); unfold in_i, in_u; (split; [|reflexivity]); discriminate.
    + cbn [dirs flat_map app format_case]. repeat constructor; cbn [sound conv len mk]; cbn; intuition discriminate.
    + cbn [format_case In]. intros i H. repeat (destruct H as [H|H]; [try discriminate H; injection H as <-; repeat split; discriminate|]). destruct H.
    + vm_compute. reflexivity.
Qed.
(** What is missing: calls that are accepted, and undefined in C or something else is written *)
Definition called (fmt : bytes) (args : list (gty * gval)) : list Z * option (option bytes) :=
  (check_format fmt (map fst args), option_map (fun f => printf simple_layout None f (map emit_arg args)) (c_string (emit_format false fmt (map fst args)))).
Theorem format_text_refuted :
  called (bs "%x") [(GInt 64, GZ 255)] = ([], Some None) /\
  called (bs "%d") [(GInt 32, GZ 5)] = ([], Some None) /\
  called (bs "%u") [(GUint 8, GZ 5)] = ([], Some None) /\
  called (bs "%hd") [(GInt 64, GZ 5)] = ([], Some None) /\
  called (bs "%ls") [(GString, GS (bs "a"))] = ([], Some None) /\
  called (bs "%Lf") [(GFloat, GD 1)] = ([], Some None) /\
  called (bs "%c") [(GInt 64, GZ 65)] = ([], Some None) /\
  called (bs "%b") [(GBool, GB true)] = ([], Some None) /\
  called (bs "%d") [(GInt 128, GZ 5)] = ([], Some None) /\
  called (bs "100\x25 done") [] = ([], Some None) /\
  called (bs "cost \$5") [] = ([], None) /\
  called (bs "a\0b") [] = ([], Some (Some (bs "a"))) /\
  called (bs "%s|") [(GString, GS [97; 0; 98])] = ([], Some (Some (bs "a|"))) /\
  (exists f, c_string (emit_format false (bs "%c") [GChar]) = Some f /\ printf simple_layout None f [emit_arg (GChar, GZ 8364)] = Some (dec_signed 172)).
Proof. repeat (split; [vm_compute; reflexivity|]). eexists. split; [vm_compute; reflexivity|]. vm_compute. reflexivity. Qed.
Print Assumptions format_text_refuted.
