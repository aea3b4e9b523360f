(** C30 CSV. *)
From Verif Require Import Base BaseFacts StringsModel StringsSpec CsvModel CsvSpec CsvProofs.
Ltac Zify.zify_post_hook ::= Z.div_mod_to_equations.

(** Parsing any text ends and yields rows. *)
Theorem csv_parse_defined s : exists rows, parse s = Ok rows.
Proof. apply rows_loop_total. lia. Qed.
Print Assumptions csv_parse_defined.

(** Writing a table and parsing the text gives the table back, when no field contains a comma or
    a line break or starts with a quote mark and no row ends in an empty field (and the text fits
    in a string). *)
Theorem csv_roundtrip_partial rows :
  Forall (fun row => Forall plain_field row /\ (row <> [] -> last row [] <> [])) rows ->
  Z.of_nat (length (flat_map (fun row => glue [44] row ++ [10]) rows)) <= INT32_MAX ->
  exists t, stringify rows = Ok t /\ parse t = Ok rows.
Proof.
  intros F L. change (fun row => glue [44] row ++ [10]) with row_line in L.
  exists (flat_map row_line rows). split; [apply stringify_ok, L|]. apply (lines_ok rows F). lia.
Qed.
Print Assumptions csv_roundtrip_partial.
Example csv_roundtrip_example :
  let t := [[bs "name"; bs "q""x"]; []; [[]; bs "b c"]] in
  Forall (fun row => Forall plain_field row /\ (row <> [] -> last row [] <> [])) t /\
  stringify t = Ok (bs "name,q""x" ++ [10; 10] ++ bs ",b c" ++ [10]).
Proof.
  cbv zeta. split; [|vm_compute; reflexivity].
  repeat constructor; cbn; intuition discriminate.
Qed.
(** The full claim fails: commas, line breaks, quote marks at the start, empty last fields, and
    tables whose text does not fit in 31 bits. *)
Theorem csv_roundtrip_refuted :
  (exists rows t, stringify rows = Ok t /\ parse t = Ok [[bs "a"; bs "b"]] /\ rows = [[bs "a,b"]]) /\
  (exists rows t, stringify rows = Ok t /\ parse t = Ok [[bs "a"]] /\ rows = [[bs "a"; []]]) /\
  (exists rows t, stringify rows = Ok t /\ parse t = Ok [[bs "a"]] /\ rows = [[bs """a"""]]).
Proof.
  split; [|split]; do 2 eexists; (split; [|split; [|reflexivity]]); vm_compute; reflexivity.
Qed.
Print Assumptions csv_roundtrip_refuted.
(** What is written is one line per row with commas between the fields. *)
Theorem csv_stringify_text rows : Z.of_nat (length (flat_map (fun row => glue [44] row ++ [10]) rows)) <= INT32_MAX ->
  stringify rows = Ok (flat_map (fun row => glue [44] row ++ [10]) rows).
Proof. apply stringify_ok. Qed.
Print Assumptions csv_stringify_text.
Theorem csv_stringify_lines_text rows : Z.of_nat (length (flat_map (fun r => r ++ [10]) rows)) <= INT32_MAX ->
  stringify_lines rows = Ok (glue [10] rows).
Proof.
  intros L. unfold stringify_lines, lines_size. rewrite lines_size_ok by lia. cbn [rbind]. rewrite Z.add_0_l.
  pose proof (glue_len rows) as G.
  rewrite lines_text_ok by (cbn [app]; lia). cbn [rbind app].
  rewrite store_ok by (rewrite app_length; cbn [length]; lia). reflexivity.
Qed.
Print Assumptions csv_stringify_lines_text.

(** The parser reads RFC 4180 text correctly as long as quoted fields contain no quote mark and
    rows do not end in an empty unquoted field; line ends may be LF or CR LF. *)
Theorem csv_reads_partial rows t : simple_csv rows t -> parse t = Ok rows.
Proof. intros H. apply (csv_ok rows t H (length t) []). lia. Qed.
Print Assumptions csv_reads_partial.
Theorem simple_is_rfc rows t : simple_csv rows t -> rfc4180 rows t.
Proof.
  assert (R : forall row t, row_text simple_text simple_last row t -> row_text field_text field_text row t).
  { induction 1 as [f u [[F _] _]|f u row ts [F _] R IH]; [apply rt_one, F|apply rt_more; auto]. }
  induction 1 as [|row u NE H|row u b rows ts H B T IH]; [apply ct_nil|apply ct_last; auto|apply ct_row; auto].
Qed.
Print Assumptions simple_is_rfc.
Example csv_reads_example :
  simple_csv [[bs "a,b"; bs "c"]; [bs "d"]] (bs """a,b"",c" ++ [13; 10] ++ bs "d").
Proof.
  apply (ct_row _ _ [bs "a,b"; bs "c"] (bs """a,b"",c") [13; 10] [[bs "d"]] (bs "d")); [|right; reflexivity|].
  - apply (rt_more _ _ (bs "a,b") (bs """a,b""") [bs "c"] (bs "c")).
    + split; [apply (ft_quoted (bs "a,b"))|right; cbn; intuition discriminate].
    + apply rt_one. split; [|discriminate]. split; [apply ft_plain|auto]. repeat split; cbn; intuition discriminate.
  - apply ct_last; [discriminate|]. apply rt_one. split; [|discriminate].
    split; [apply ft_plain|auto]. repeat split; cbn; intuition discriminate.
Qed.
(** RFC 4180 itself is not implemented: doubled quote marks stay doubled, an empty last field is
    dropped. *)
Theorem csv_reads_refuted :
  (exists rows t, rfc4180 rows t /\ parse t <> Ok rows) /\
  rfc4180 [[bs "a""b"]] (bs """a""""b""") /\ parse (bs """a""""b""") = Ok [[bs "a""""b"]] /\
  rfc4180 [[bs "a"; []]] (bs "a,") /\ parse (bs "a,") = Ok [[bs "a"]].
Proof.
  assert (A : rfc4180 [[bs "a""b"]] (bs """a""""b""")).
  { apply ct_last; [discriminate|]. apply rt_one. apply (ft_quoted (bs "a""b")). }
  split; [exists [[bs "a""b"]], (bs """a""""b"""); split; [exact A|vm_compute; discriminate]|].
  split; [exact A|]. split; [vm_compute; reflexivity|]. split; [|vm_compute; reflexivity].
  apply ct_last; [discriminate|]. apply (rt_more _ _ (bs "a") (bs "a") [[]] []).
  - apply ft_plain. repeat split; cbn; intuition discriminate.
  - apply rt_one, ft_plain. repeat split; cbn; intuition discriminate.
Qed.
Print Assumptions csv_reads_refuted.
(** csv.headers is the first row. *)
Theorem csv_headers_first row rows : headers (row :: rows) = row /\ headers [] = [].
Proof. split; reflexivity. Qed.
Print Assumptions csv_headers_first.
