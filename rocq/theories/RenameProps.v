(** C150: importing a module keeps what its functions do. *)
From Verif Require Import Base RenameSpec RenameModel.

Arguments mapping : simpl never. Arguments rename : simpl never.
Section R.
Context (m : name) (tops N : list name) (few : (length tops <= 256)%nat)
  (apart : forall x y, In x N -> ~ In x tops -> In y tops -> x <> prefixed m y).
Notation t := (mapping m tops). Notation ren := (rename (mapping m tops)).
Lemma prefixed_inj x y : prefixed m x = prefixed m y -> x = y.
Proof. unfold prefixed. intros E. apply app_inv_head in E. now apply app_inv_head in E. Qed.
Lemma ren_top x : In x tops -> ren x = prefixed m x.
Proof.
  intros I. unfold rename, mapping. rewrite firstn_all2 by lia. clear few apart. induction tops as [|y l IH]; [destruct I|]. cbn. destruct (list_eq_dec Z.eq_dec y x) as [->|D]; [reflexivity|]. apply IH. destruct I; [contradiction|assumption].
Qed.
Lemma ren_other x : ~ In x tops -> ren x = x.
Proof.
  intros I. unfold rename, mapping. rewrite firstn_all2 by lia. clear few apart. induction tops as [|y l IH]; [reflexivity|]. cbn. destruct (list_eq_dec Z.eq_dec y x) as [->|D]; [exfalso; apply I; now left|]. apply IH. intros J. apply I. now right.
Qed.
Lemma in_tops x : In x tops \/ ~ In x tops.
Proof. destruct (in_dec (list_eq_dec Z.eq_dec) x tops); auto. Qed.
Lemma ren_inj x y : In x N -> In y N -> ren x = ren y -> x = y.
Proof.
  intros X Y E. destruct (in_tops x) as [A|A], (in_tops y) as [B|B]; rewrite ?(ren_top x A), ?(ren_other x A), ?(ren_top y B), ?(ren_other y B) in E.
  - now apply prefixed_inj. - exfalso. apply (apart y x Y B A). now symmetry. - exfalso. now apply (apart x y X A B). - exact E.
Qed.
Definition mv {A} (l : table A) : table A := map (fun p => (ren (fst p), snd p)) l.
Lemma merged_mv {A} (l : table A) : merged m tops l = mv l.
Proof.
  unfold merged, mv. apply map_ext. intros [x a]. cbn [fst snd]. f_equal. match goal with |- (if existsb ?f _ then _ else _) = _ => destruct (existsb f tops) eqn:E end.
  - apply existsb_exists in E as (y & I & H). destruct (list_eq_dec Z.eq_dec y x); [|discriminate]. subst. symmetry. now apply ren_top.
  - symmetry. apply ren_other. intros I. assert (existsb (fun y => if list_eq_dec Z.eq_dec y x then true else false) tops = true); [|congruence]. apply existsb_exists. exists x. split; [exact I|]. now destruct (list_eq_dec Z.eq_dec x x).
Qed.
Definition good {A} (l : table A) : Prop := forall x, In x (map fst l) -> In x N.
Lemma get_mv {A} x (l : table A) : In x N -> good l -> get (ren x) (mv l) = get x l.
Proof.
  intros X. induction l as [|[y a] l IH]; intros G; [reflexivity|]. cbn. assert (Y : In y N) by (apply G; now left).
  destruct (list_eq_dec Z.eq_dec (ren y) (ren x)) as [E|E], (list_eq_dec Z.eq_dec y x) as [E'|E']; [reflexivity|exfalso; apply E'; now apply ren_inj|exfalso; apply E; congruence|].
  apply IH. intros z Z. apply G. now right.
Qed.
Lemma put_mv {A} x (v : A) l : In x N -> good l -> put (ren x) v (mv l) = mv (put x v l).
Proof.
  intros X. induction l as [|[y a] l IH]; intros G; [reflexivity|]. cbn. assert (Y : In y N) by (apply G; now left).
  destruct (list_eq_dec Z.eq_dec (ren y) (ren x)) as [E|E], (list_eq_dec Z.eq_dec y x) as [E'|E']; [reflexivity|exfalso; apply E'; now apply ren_inj|exfalso; apply E; congruence|].
  cbn. f_equal. apply IH. intros z Z. apply G. now right.
Qed.
Lemma good_put {A} x (v : A) l : good l -> good (put x v l).
Proof. intros G y I. apply G. clear G. induction l as [|[z a] l IH]; [exact I|]. cbn in *. destruct (list_eq_dec Z.eq_dec z x); [exact I|]. destruct I as [I|I]; [now left|right; auto]. Qed.
Definition ms (st : state) : state := State (mv (locals st)) (mv (globals st)) (said st).
Definition fine (st : state) : Prop := good (locals st) /\ good (globals st).
Definition mr (r : option (state * option Z)) := match r with Some (st, v) => Some (ms st, v) | None => None end.
Lemma mv_length {A} (l : table A) : length (mv l) = length l.
Proof. apply map_length. Qed.
Lemma close_ms a b : close (ms a) (ms b) = ms (close a b).
Proof. unfold close, ms. cbn. rewrite !mv_length. f_equal. unfold mv. now rewrite skipn_map. Qed.
Lemma fine_close a b : fine b -> fine (close a b).
Proof.
  intros [L G]. split; [|exact G]. intros x I. apply L. cbn in I. apply in_map_iff in I as (p & <- & I). apply in_map. rewrite <- (firstn_skipn (length (locals b) - length (locals a)) (locals b)). apply in_or_app. now right.
Qed.
Context (fs : table (Z -> Z)) (FG : good fs).
Lemma eval_ren st e : fine st -> (forall x, In x (names_e e) -> In x N) -> eval (mv fs) (ms st) (rewrite_e t e) = eval fs st e.
Proof.
  intros [L G]. induction e as [z|x|a IHa b IHb|f a IHa]; cbn [eval rewrite_e names_e]; intros H; auto.
  - cbn [ms locals globals]. rewrite !get_mv; auto; apply H; now left.
  - rewrite IHa, IHb; auto; intros x I; apply H; apply in_or_app; auto.
  - rewrite get_mv, IHa; auto; [intros x I; apply H; now right|apply H; now left].
Qed.
Definition tame (run run' : state -> option (state * option Z)) : Prop :=
  forall st, fine st -> run' (ms st) = mr (run st) /\ forall st' r, run st = Some (st', r) -> fine st'.
Lemma turns_ren run run' x k : tame run run' -> In x N -> ~ In x tops -> forall i, tame (turns run x k i) (turns run' x k i).
Proof.
  intros T X NX. induction k as [|k IH]; intros i st F; [split; [reflexivity|]; intros st' r [= <- _]; exact F|]. cbn [turns].
  assert (FD : fine (declare x i st)) by (destruct F as [L G]; split; [|exact G]; intros y [<-|I]; [exact X|now apply L]).
  destruct (T _ FD) as [E K]. assert (D : declare x i (ms st) = ms (declare x i st)) by (unfold declare, ms; cbn; now rewrite (ren_other x NX)). rewrite D, E.
  destruct (run (declare x i st)) as [[st1 [r|]]|] eqn:R; cbn [mr]; rewrite ?close_ms.
  - split; [reflexivity|]. intros st' r' [= <- _]. apply fine_close. eapply K. reflexivity.
  - apply IH. apply fine_close. eapply K. reflexivity.
  - split; [reflexivity|discriminate].
Qed.
Lemma exec_ren s : (forall x, In x (names_s s) -> In x N) -> (forall x, In x (declared s) -> ~ In x tops) -> tame (exec fs s) (exec (mv fs) (rewrite_s t s)).
Proof.
  induction s as [|a IHa b IHb|x e|x e|e|e a IHa b IHb|a IHa|x e a IHa|e]; cbn [names_s declared]; intros H D st F; cbn [exec rewrite_s].
  - split; [reflexivity|]. intros st' r [= <- _]. exact F.
  - destruct (IHa ltac:(intros; apply H, in_or_app; auto) ltac:(intros; apply D, in_or_app; auto) st F) as [E K]. rewrite E. destruct (exec fs a st) as [[st1 [r|]]|] eqn:R; cbn [mr].
    + split; [reflexivity|]. intros st' r' [= <- _]. eapply K. reflexivity.
    + apply IHb; [intros; apply H, in_or_app; auto|intros; apply D, in_or_app; auto|]. eapply K. reflexivity.
    + split; [reflexivity|discriminate].
  - rewrite eval_ren by (auto; intros; apply H; now right). destruct (eval fs st e) as [v|]; [|split; [reflexivity|discriminate]]. split.
    + cbn. unfold declare, ms. cbn. rewrite (ren_other x); [reflexivity|]. apply D. now left.
    + intros st' r [= <- _]. destruct F as [L G]. split; [|exact G]. intros y [<-|I]; [apply H; now left|now apply L].
  - assert (X : In x N) by (apply H; now left). rewrite eval_ren by (auto; intros; apply H; now right). destruct (eval fs st e) as [v|]; [|split; [reflexivity|discriminate]].
    destruct F as [L G]. cbn [ms locals globals said]. rewrite !get_mv by auto. destruct (get x (locals st)) as [w|].
    + rewrite put_mv by auto. split; [reflexivity|]. intros st' r [= <- _]. split; [now apply good_put|exact G].
    + destruct (get x (globals st)) as [w|]; [|split; [reflexivity|discriminate]]. rewrite put_mv by auto. split; [reflexivity|]. intros st' r [= <- _]. split; [exact L|now apply good_put].
  - rewrite eval_ren by auto. destruct (eval fs st e) as [v|]; [|split; [reflexivity|discriminate]]. split; [reflexivity|]. intros st' r [= <- _]. exact F.
  - rewrite eval_ren by (auto; intros; apply H, in_or_app; auto). destruct (eval fs st e) as [v|]; [|split; [reflexivity|discriminate]].
    assert (T : tame (exec fs (if v =? 0 then b else a)) (exec (mv fs) (if v =? 0 then rewrite_s t b else rewrite_s t a))).
    { destruct (v =? 0); [apply IHb|apply IHa]; (intros; first [apply H|apply D]; rewrite ?in_app_iff; auto). }
    destruct (T st F) as [E K]. rewrite E. destruct (exec fs _ st) as [[st1 r]|] eqn:R; cbn [mr]; [|split; [reflexivity|discriminate]]. rewrite close_ms. split; [reflexivity|]. intros st' r' [= <- _]. apply fine_close. eapply K. reflexivity.
  - destruct (IHa H D st F) as [E K]. rewrite E. destruct (exec fs a st) as [[st1 r]|] eqn:R; cbn [mr]; [|split; [reflexivity|discriminate]]. rewrite close_ms. split; [reflexivity|]. intros st' r' [= <- _]. apply fine_close. eapply K. reflexivity.
  - rewrite eval_ren by (auto; intros; apply H; right; apply in_or_app; auto). destruct (eval fs st e) as [v|]; [|split; [reflexivity|discriminate]].
    apply turns_ren; [apply IHa|apply H; now left|apply D; now left|exact F]; [intros; apply H; right; apply in_or_app; auto|intros; apply D; now right].
  - rewrite eval_ren by auto. destruct (eval fs st e) as [v|]; [|split; [reflexivity|discriminate]]. split; [reflexivity|]. intros st' r [= <- _]. exact F.
Qed.
End R.
(** C150.  A function of an imported module, called with any arguments, does what
    it does in the module alone: it returns the same, says the same and leaves
    the module variables the same, under their new names.  For modules of at
    most 256 names, whose functions have no parameter or variable of the name
    of a declaration of the module, and no name that looks like a prefixed one. *)
Theorem import_preserves_partial : forall m tops fs params body args g, (length tops <= 256)%nat ->
  (forall x, In x (params ++ declared body) -> ~ In x tops) ->
  (forall x y, In x (params ++ names_s body ++ map fst g ++ map fst fs) -> ~ In x tops -> In y tops -> x <> prefixed m y) ->
  call (merged m tops fs) params (rewrite_s (mapping m tops) body) args (merged m tops g) =
  match call fs params body args g with Some (r, g', o) => Some (r, merged m tops g', o) | None => None end.
Proof.
  intros m tops fs params body args g FW LO AP. set (N := params ++ names_s body ++ map fst g ++ map fst fs) in *.
  assert (NI : forall x, In x params \/ In x (names_s body) \/ In x (map fst g) \/ In x (map fst fs) -> In x N) by (intros x; unfold N; rewrite !in_app_iff; tauto).
  assert (CP : forall x, In x (map fst (combine params args)) -> In x params) by (intros x I; apply in_map_iff in I as ([y v] & <- & I); now apply in_combine_l in I).
  assert (F : fine N (State (combine params args) g [])) by (split; intros x I; apply NI; [left; now apply CP|auto]).
  destruct (exec_ren m tops N FW AP fs ltac:(intros x I; apply NI; auto) body ltac:(intros; apply NI; auto) ltac:(intros; apply LO, in_or_app; auto) _ F) as [E _].
  unfold call. rewrite !(merged_mv m tops N FW AP). unfold ms in E. cbn [locals globals said] in E.
  assert (L : mv m tops (combine params args) = combine params args).
  { assert (K : forall x, In x (map fst (combine params args)) -> ~ In x tops) by (intros x I; apply LO, in_or_app; left; now apply CP). clear -K FW AP. induction (combine params args) as [|[x v] l IH]; [reflexivity|]. cbn in *. rewrite (ren_other m tops N FW AP x) by (apply K; now left). f_equal. apply IH. intros; apply K; now right. }
  rewrite L in E. rewrite E. destruct (exec fs body _) as [[st r]|]; [|reflexivity]. cbn. now rewrite (merged_mv m tops N FW AP).
Qed.
(** Variables of a module end up in reverse order. *)
Theorem merge_reverses : forall (A : Type) (vars program : list A), insert_all vars program = rev vars ++ program.
Proof. intros A vars. induction vars as [|v l IH]; intros program; [reflexivity|]. cbn. rewrite IH, <- app_assoc. reflexivity. Qed.
(** Where the names clash it fails.  A parameter of the name of a module variable
    is taken for the variable; so is a local variable, which is then written
    to the module; a name that looks prefixed is caught; and the 257th name is
    not found. *)
Theorem import_refuted :
  (let tops := [bs "count"] in let g := [(bs "count", 7)] in let body := Return (Label (bs "count")) in
   call [] [bs "count"] body [1] g = Some (Some 1, g, []) /\
   call [] [bs "count"] (rewrite_s (mapping (bs "m") tops) body) [1] (merged (bs "m") tops g) = Some (Some 7, [(bs "m_count", 7)], [])) /\
  (let tops := [bs "n"] in let g := [(bs "n", 7)] in let body := Seq (Decl (bs "n") (Num 1)) (Seq (Set_ (bs "n") (Num 2)) (Return (Label (bs "n")))) in
   call [] [] body [] g = Some (Some 2, g, []) /\
   call [] [] (rewrite_s (mapping (bs "m") tops) body) [] (merged (bs "m") tops g) = Some (Some 2, [(bs "m_n", 2)], [])) /\
  (let tops := [bs "n"] in let g := [(bs "n", 7)] in let body := Return (Plus (Label (bs "n")) (Label (bs "m_n"))) in
   call [] [bs "m_n"] body [1] g = Some (Some 8, g, []) /\
   call [] [bs "m_n"] (rewrite_s (mapping (bs "m") tops) body) [1] (merged (bs "m") tops g) = Some (Some 2, [(bs "m_n", 7)], [])) /\
  (let tops := map (fun k => [97; Z.of_nat k]) (seq 0 257) in let g := [([97; 256], 7)] in let body := Return (Label [97; 256]) in
   call [] [] body [] g = Some (Some 7, g, []) /\ call [] [] (rewrite_s (mapping (bs "m") tops) body) [] (merged (bs "m") tops g) = None).
Proof. repeat split; vm_compute; reflexivity. Qed.
(** A counter module. *)
Definition counter := Seq (For (bs "i") (Label (bs "k")) (Seq (Set_ (bs "total") (Plus (Label (bs "total")) (Call (bs "twice") (Label (bs "i"))))) (Say (Label (bs "total")))))
  (If (Label (bs "k")) (Return (Label (bs "total"))) Skip).
Definition double : table (Z -> Z) := [(bs "twice", fun z => 2 * z)].
Example import_case : let tops := [bs "total"; bs "twice"; bs "add"] in let g := [(bs "total", 10)] in
  (forall x, In x ([bs "k"] ++ declared counter) -> ~ In x tops) /\
  (forall x y, In x ([bs "k"] ++ names_s counter ++ map fst g ++ map fst double) -> ~ In x tops -> In y tops -> x <> prefixed (bs "m") y) /\
  call double [bs "k"] counter [4] g = Some (Some 22, [(bs "total", 22)], [10; 12; 16; 22]) /\
  call (merged (bs "m") tops double) [bs "k"] (rewrite_s (mapping (bs "m") tops) counter) [4] (merged (bs "m") tops g) = Some (Some 22, [(bs "m_total", 22)], [10; 12; 16; 22]).
Proof.
  intros tops g. split; [|split; [|split; vm_compute; reflexivity]].
  - intros x I J. cbn in I, J. destruct I as [<-|[<-|[]]]; repeat (destruct J as [J|J]; [discriminate J|]); destruct J.
  - intros x y I _ J E. cbn in J. cbn in I. repeat (destruct I as [<-|I]; [destruct J as [<-|[<-|[<-|[]]]]; discriminate E|]). destruct I.
Qed.
Print Assumptions import_preserves_partial.
Print Assumptions merge_reverses.
Print Assumptions import_refuted.
