(** Proofs about printf's reading of a format. *)
From Verif Require Import Base BaseFacts StringsModel EncodingModel LitSpec LitModel LitProofs LitProofs2 LitProofs3 FormatSpec FormatModel.
Ltac Zify.zify_post_hook ::= Z.div_mod_to_equations.

(** * Literals *)
Definition citem_ok (i : item) : Prop := item_ok i /\ (forall v, i <> Escape 36 v) /\ denoted i <> 0.
Fixpoint hex_sep (its : list item) : Prop :=
  match its with
  | [] => True
  | i :: r => (match i, r with HexEscape _ _ _, Plain d :: _ => isxdigit d = false | _, _ => True end) /\ hex_sep r
  end.
Lemma c_items its : Forall citem_ok its -> hex_sep its -> c_chars In_ (W its ++ [34]) = Some (map denoted its).
Proof.
  induction its as [|i its IH]; intros F S; [reflexivity|]. apply Forall_cons_iff in F as [(O & D & N) F]. cbn [hex_sep] in S. destruct S as [S1 S2]. specialize (IH F S2).
  cbn [flat_map map]. rewrite <- app_assoc. destruct i as [c|e v|h l v]; cbn [written app denoted].
  - cbn in O. rewrite in_plain by tauto. rewrite IH. reflexivity.
  - destruct (escape_cases _ _ O) as [[-> ->]|[[-> ->]|[[-> ->]|(Ec & _)]]].
    + exfalso. apply N. reflexivity.
    + exfalso. apply (D 36). reflexivity.
    + rewrite (in_escape 92 92) by reflexivity. rewrite IH. reflexivity.
    + rewrite (in_escape e v) by exact Ec. rewrite IH. reflexivity.
  - destruct O as (x & y & Hx & Hy & ->). apply digit_hex in Hx as (Vx & Bx & _). apply digit_hex in Hy as (Vy & By & _).
    assert (H : exists c r, W its ++ [34] = c :: r /\ hex_value c = None).
    { destruct its as [|j its]; [exists 34, []; split; reflexivity|]. destruct j as [c|e v|h' l' v]; cbn [flat_map written app]; eexists _, _; (split; [reflexivity|]); try reflexivity.
      now apply hex_value_is. }
    destruct H as (c & r & E & H). rewrite E in *. rewrite (in_hex _ _ x y) by assumption. rewrite IH. reflexivity.
Qed.
Lemma hex_sep_plain c its : hex_sep (Plain c :: its) <-> hex_sep its. Proof. cbn. tauto. Qed.
Lemma hex_sep_plains s its : hex_sep (map Plain s ++ its) <-> hex_sep its.
Proof. induction s as [|c s IH]; [reflexivity|]. cbn [map app]. rewrite hex_sep_plain. exact IH. Qed.
Lemma hex_sep_of its : no_neighbours bad_hex its -> hex_sep its.
Proof.
  induction its as [|i its IH]; intros H; [exact I|]. split; [|apply IH; now apply nn_tail in H]. destruct i as [c|e v|h l v]; try exact I. destruct its as [|[d| |] its]; try exact I.
  destruct (isxdigit d) eqn:X; [|reflexivity]. exfalso. apply (nn_head _ _ _ _ H). destruct (isxdigit_digit _ X) as [x D]. exists h, l, v, d, x. auto.
Qed.
(** A piece of text that ends where something other than a hexadecimal digit begins *)
Lemma hex_sep_app a b : hex_sep a -> hex_sep b -> (match b with Plain d :: _ => isxdigit d = false | _ => True end) -> hex_sep (a ++ b).
Proof.
  intros A B H. induction a as [|i a IH]; [exact B|]. cbn [app hex_sep] in *. destruct A as [A1 A2]. split; [|now apply IH]. destruct a as [|j a]; [|exact A1].
  cbn [app]. destruct i; try exact I. destruct b as [|[] ]; auto.
Qed.
Lemma W_plain s : W (map Plain s) = s. Proof. induction s as [|c s IH]; [reflexivity|]. cbn. now rewrite IH. Qed.
Lemma denoted_plain s : map denoted (map Plain s) = s. Proof. induction s as [|c s IH]; [reflexivity|]. cbn. now rewrite IH. Qed.

(** * Reading a conversion specification *)
Fixpoint run (n : Z) (d : directive) (s : bytes) : option (Z * directive) :=
  match s with
  | [] => Some (n, d)
  | c :: r => match next n d c with More n' d' => run n' d' r | Done _ => None end
  end.
Lemma printf_run lay s : forall n d n' d' r args, run n d s = Some (n', d') -> printf lay (Some (n, d)) (s ++ r) args = printf lay (Some (n', d')) r args.
Proof.
  induction s as [|c s IH]; intros n d n' d' r args H; cbn [run app] in *; [now injection H as -> ->|]. destruct (next n d c) as [m e|e] eqn:E; [|discriminate].
  cbn [printf]. rewrite E. now apply IH.
Qed.
Lemma directives_run s : forall n d n' d' r, run n d s = Some (n', d') -> directives (Some (n, d)) (s ++ r) = directives (Some (n', d')) r.
Proof.
  induction s as [|c s IH]; intros n d n' d' r H; cbn [run app] in *; [now injection H as -> ->|]. destruct (next n d c) as [m e|e] eqn:E; [|discriminate].
  cbn [directives]. rewrite E. now apply IH.
Qed.
Lemma run_app a : forall n d n' d' b, run n d a = Some (n', d') -> run n d (a ++ b) = run n' d' b.
Proof.
  induction a as [|c a IH]; intros n d n' d' b H; cbn [run app] in *; [now injection H as -> ->|]. destruct (next n d c) as [m e|e]; [|discriminate]. now apply IH.
Qed.
Definition mk f w p l k := {| flags := f; width := w; precision := p; len := l; conv := k |}.
Lemma run_flags fl : forall f, Forall (fun c => is_flag c = true) fl -> run 0 (mk f [] None [] 0) fl = Some (0, mk (f ++ fl) [] None [] 0).
Proof.
  induction fl as [|c fl IH]; intros f F; [cbn; now rewrite app_nil_r|]. apply Forall_cons_iff in F as [C F]. cbn [run]. unfold next. rewrite C. cbn [Z.eqb andb flags mk].
  change {| flags := f ++ [c]; width := []; precision := None; len := []; conv := 0 |} with (mk (f ++ [c]) [] None [] 0). rewrite IH by exact F. now rewrite <- app_assoc.
Qed.
Lemma run_digits w : forall f w0, numeral_ w -> run 1 (mk f w0 None [] 0) w = Some (1, mk f (w0 ++ w) None [] 0).
Proof.
  induction w as [|c w IH]; intros f w0 F; [cbn; now rewrite app_nil_r|]. apply Forall_cons_iff in F as [C F]. cbn [run]. unfold next. rewrite C.
  replace ((1 =? 0) && is_flag c) with false by reflexivity. replace ((1 <=? 1) && true) with true by reflexivity. cbn [flags width mk].
  change {| flags := f; width := w0 ++ [c]; precision := None; len := []; conv := 0 |} with (mk f (w0 ++ [c]) None [] 0). rewrite IH by exact F. now rewrite <- app_assoc.
Qed.
Lemma digit_not_flag c : isdigit c = true -> c <> 48 -> is_flag c = false.
Proof. unfold isdigit, is_flag. intros D N. cbn. lia. Qed.
Lemma run_width w f : numeral_ w -> hd 1 w <> 48 -> run 0 (mk f [] None [] 0) w = Some ((if same w [] then 0 else 1), mk f w None [] 0).
Proof.
  intros F N. destruct w as [|c w]; [reflexivity|]. pose proof F as F'. apply Forall_cons_iff in F as [C F]. cbn [hd] in N. cbn [run]. unfold next. rewrite (digit_not_flag _ C N), C.
  replace ((0 =? 0) && false) with false by reflexivity. replace ((0 <=? 1) && true) with true by reflexivity. cbn [flags width mk app].
  change {| flags := f; width := [c]; precision := None; len := []; conv := 0 |} with (mk f [c] None [] 0). rewrite run_digits by exact F. unfold same. destruct (list_eq_dec Z.eq_dec (c :: w) []); [discriminate|reflexivity].
Qed.
Lemma run_precision p : forall f w q, numeral_ p -> run 2 (mk f w (Some q) [] 0) p = Some (2, mk f w (Some (q ++ p)) [] 0).
Proof.
  induction p as [|c p IH]; intros f w q F; [cbn; now rewrite app_nil_r|]. apply Forall_cons_iff in F as [C F]. cbn [run]. unfold next. rewrite C.
  replace ((2 =? 0) && is_flag c) with false by reflexivity. replace ((2 <=? 1) && true) with false by reflexivity. replace ((2 <=? 1) && (c =? 46)) with false by reflexivity.
  replace ((2 =? 2) && true) with true by reflexivity. cbn [flags width precision mk].
  change {| flags := f; width := w; precision := Some (q ++ [c]); len := []; conv := 0 |} with (mk f w (Some (q ++ [c])) [] 0). rewrite IH by exact F. now rewrite <- app_assoc.
Qed.
Definition prec_written (p : option bytes) : bytes := match p with Some p => 46 :: p | None => [] end.
Lemma run_prec f w p n : n = 0 \/ n = 1 -> (match p with Some p => numeral_ p | None => True end) ->
  run n (mk f w None [] 0) (prec_written p) = Some ((if p then 2 else n), mk f w p [] 0).
Proof.
  intros N F. destruct p as [p|]; [|reflexivity]. cbn [prec_written run]. unfold next.
  replace ((n =? 0) && is_flag 46) with false by (cbn; lia). replace ((n <=? 1) && isdigit 46) with false by (cbn; lia). replace ((n <=? 1) && (46 =? 46)) with true by (cbn; lia).
  cbn [flags width mk]. now apply (run_precision p f w []).
Qed.
Definition lens : list bytes := [[]; bs "h"; bs "hh"; bs "l"; bs "ll"; bs "L"].
Lemma run_len f w p l n : 0 <= n <= 2 -> In l lens -> exists m, run n (mk f w p [] 0) l = Some (m, mk f w p l 0) /\ (l = [] -> m = n) /\ (l <> [] -> m = 3 \/ m = 4).
Proof.
  intros N H. assert (A : forall c, In c (bs "hlL") -> next n (mk f w p [] 0) c = More 3 (mk f w p [c] 0)).
  { intros c I. unfold next. cbn [flags width precision len mk].
    assert (is_flag c = false /\ isdigit c = false /\ (c =? 46) = false /\ existsb (Z.eqb c) (bs "hlLjzt") = true) as (-> & -> & -> & ->) by (cbn in I; destruct I as [<-|[<-|[<-|[]]]]; repeat split; reflexivity).
    rewrite !andb_false_r. replace (n <=? 2) with true by lia. reflexivity. }
  assert (B : forall c, In c (bs "hl") -> next 3 (mk f w p [c] 0) c = More 4 (mk f w p [c; c] 0)).
  { intros c I. cbn in I. destruct I as [<-|[<-|[]]]; reflexivity. }
  cbn in H. destruct H as [<-|[<-|[<-|[<-|[<-|[<-|[]]]]]]].
  - exists n. split; [reflexivity|split; [reflexivity|congruence]].
  - exists 3. cbn [run]. rewrite A by (cbn; auto). split; [reflexivity|]. split; [discriminate|auto].
  - exists 4. cbn [run]. rewrite A by (cbn; auto). rewrite B by (cbn; auto). split; [reflexivity|]. split; [discriminate|auto].
  - exists 3. cbn [run]. rewrite A by (cbn; auto). split; [reflexivity|]. split; [discriminate|auto].
  - exists 4. cbn [run]. rewrite A by (cbn; auto). rewrite B by (cbn; auto). split; [reflexivity|]. split; [discriminate|auto].
  - exists 3. cbn [run]. rewrite A by (cbn; auto). split; [reflexivity|]. split; [discriminate|auto].
Qed.
Definition letter (c : Z) : Prop := is_flag c = false /\ isdigit c = false /\ c <> 46 /\ existsb (Z.eqb c) (bs "hlLjzt") = false.
Lemma letter_known c : In c (bs "diuxXofgeGEscb") -> letter c /\ c <> 37 /\ c <> 110 /\ c <> 0.
Proof. intros H. cbn in H. repeat (destruct H as [<-|H]; [repeat split; try reflexivity; discriminate|]). destruct H. Qed.
Definition spec_ok (d : directive) : Prop :=
  Forall (fun c => is_flag c = true) (flags d) /\ numeral_ (width d) /\ hd 1 (width d) <> 48 /\ (match precision d with Some p => numeral_ p | None => True end) /\ In (len d) lens.
Lemma spec_run d : spec_ok d -> letter (conv d) -> exists n d0, run 0 (bare 0) (flags d ++ width d ++ prec_written (precision d) ++ len d) = Some (n, d0) /\ next n d0 (conv d) = Done d.
Proof.
  destruct d as [f w p l c]. cbn [flags width precision len conv]. intros (F & Wd & H & P & L) (A & B & C & D). cbn [flags width precision len] in *.
  rewrite (run_app f 0 (bare 0) 0 (mk f [] None [] 0)) by (apply (run_flags f []); exact F).
  rewrite (run_app w _ _ _ _ _ (run_width w f Wd H)).
  rewrite (run_app (prec_written p) _ _ _ _ _ (run_prec f w p (if same w [] then 0 else 1) ltac:(destruct (same w []); auto) P)).
  destruct (run_len f w p l (if p then 2 else if same w [] then 0 else 1)) as (m & R & M0 & M1); [destruct p; [lia|destruct (same w []); lia]|exact L|].
  rewrite R. exists m, (mk f w p l 0). split; [reflexivity|]. unfold next. rewrite A, B, D. replace (c =? 46) with false by lia. rewrite !andb_false_r. cbn [andb].
  assert (E : existsb (Z.eqb c) (bs "hl") = false) by (cbn in D |- *; lia). rewrite E, andb_false_r. reflexivity.
Qed.
Lemma spec_split d r : spec_written d ++ r = (flags d ++ width d ++ prec_written (precision d) ++ len d) ++ conv d :: r.
Proof. unfold spec_written, prec_written. rewrite <- !app_assoc. reflexivity. Qed.
Lemma printf_spec lay d r args : spec_ok d -> letter (conv d) -> conv d <> 37 ->
  printf lay (Some (0, bare 0)) (spec_written d ++ r) args =
  match args with
  | [] => None
  | a :: args' => match reads d a with Some v => option_map (app (lay (flags d) (width d) (precision d) (conv d) v)) (printf lay None r args') | None => None end
  end.
Proof.
  intros O L N. destruct (spec_run d O L) as (n & d0 & R & E). rewrite spec_split.
  rewrite (printf_run _ _ _ _ _ _ _ _ R). cbn [printf]. rewrite E. replace (conv d =? 37) with false by lia. reflexivity.
Qed.
Lemma directives_spec d r : spec_ok d -> letter (conv d) -> conv d <> 37 ->
  directives (Some (0, bare 0)) (spec_written d ++ r) = if one_of c_conversions (conv d) then option_map (cons d) (directives None r) else None.
Proof.
  intros O L N. destruct (spec_run d O L) as (n & d0 & R & E). rewrite spec_split.
  rewrite (directives_run _ _ _ _ _ _ R). cbn [directives]. rewrite E. replace (conv d =? 37) with false by lia. reflexivity.
Qed.
