(** C148: the output buffer of the compiler. *)
From Verif Require Import Base BufSpec BufModel.

(** The buffer holds t and a 0 after it. *)
Definition holds (b : buf) (t : bytes) : Prop :=
  (exists rest, data b = t ++ 0 :: rest) /\ len b = Z.of_nat (length t) /\ cap b = Z.of_nat (length (data b)) /\ cap b <= 4611686018427387904.
Lemma wrap_small x : 0 <= x < 18446744073709551616 -> wrap_u 64 x = x.
Proof. intros H. unfold wrap_u. change (2 ^ 64) with 18446744073709551616. apply Z.mod_small. exact H. Qed.
Section B.
Context (junk : nat -> Z).
Lemma store_at t m s : (length s <= length m)%nat -> store (t ++ m) (Z.of_nat (length t)) s = Ok (t ++ s ++ skipn (length s) m).
Proof.
  intros H. unfold store. rewrite app_length. replace ((0 <=? Z.of_nat (length t)) && _) with true by lia. rewrite Nat2Z.id.
  f_equal. f_equal; [rewrite firstn_app, firstn_all, Nat.sub_diag; cbn; now rewrite app_nil_r|]. f_equal. rewrite skipn_app. rewrite (skipn_all2 t) by lia. cbn. f_equal. lia.
Qed.
Lemma grow_holds b t n : holds b t -> 0 <= n -> Z.of_nat (length t) + n + 1 <= 2305843009213693952 ->
  holds (grow junk b n) t /\ Z.of_nat (length t) + n + 1 <= cap (grow junk b n).
Proof.
  intros ((rest & D) & L & C & M) N B. unfold grow. rewrite L. rewrite !(wrap_small (Z.of_nat (length t) + n + 1)) by lia. rewrite (wrap_small (cap b * 2)) by lia.
  destruct (Z.of_nat (length t) + n + 1 <=? cap b) eqn:E; [split; [|lia]; split; [now exists rest|]; split; [exact L|]; split; [exact C|exact M]|].
  set (k := if _ <? _ then _ else _). assert (K : Z.of_nat (length t) + n + 1 <= k <= 4611686018427387904 /\ cap b <= k) by (unfold k; destruct (_ <? _) eqn:?; lia). clearbody k. cbv zeta.
  split; [|cbn [cap]; lia]. split; [|split; [reflexivity|split; [|cbn [cap]; lia]]].
  - cbn [data]. rewrite firstn_all2 by lia. rewrite D. rewrite <- app_assoc. cbn [app]. eexists. reflexivity.
  - cbn [cap data]. rewrite app_length, firstn_length. unfold fresh. rewrite map_length, seq_length. lia.
Qed.
Lemma room b t n : holds b t -> Z.of_nat (length t) + n + 1 <= cap b -> 0 <= n -> exists rest, data b = t ++ rest /\ n + 1 <= Z.of_nat (length rest).
Proof. intros ((rest & D) & L & C & M) H N. exists (0 :: rest). split; [exact D|]. rewrite D, app_length in C. cbn [length] in *. lia. Qed.
Lemma put b t s rest : Z.of_nat (length (t ++ s)) < 2305843009213693952 -> cap b = Z.of_nat (length (t ++ s ++ 0 :: rest)) -> cap b <= 4611686018427387904 -> len b = Z.of_nat (length t) ->
  holds (Buf (t ++ s ++ 0 :: rest) (wrap_u 64 (len b + Z.of_nat (length s))) (cap b)) (t ++ s).
Proof.
  intros B C M L. rewrite app_length in B. split; [exists rest; cbn; now rewrite app_assoc|]. cbn [len cap data]. split; [rewrite L, wrap_small; rewrite ?app_length; lia|]. split; [exact C|exact M].
Qed.
Lemma bytes_ok b t s : holds b t -> Z.of_nat (length (t ++ s)) < 2305843009213693952 -> exists b', append_bytes junk b s = Ok b' /\ holds b' (t ++ s).
Proof.
  intros H B. pose proof B as B'. rewrite app_length in B. destruct (grow_holds b t (Z.of_nat (length s)) H ltac:(lia) ltac:(lia)) as [G R]. destruct (room _ _ _ G R ltac:(lia)) as (m & D & LM).
  unfold append_bytes. cbv zeta. destruct G as (_ & L & C & M). set (g := grow junk b (Z.of_nat (length s))) in *. clearbody g.
  rewrite D, L, store_at by lia. cbn [rbind]. rewrite wrap_small by lia. rewrite <- Nat2Z.inj_add, <- app_length, app_assoc.
  rewrite store_at by (rewrite skipn_length; cbn [length]; lia). cbn [rmap app]. eexists. split; [reflexivity|].
  pose proof (put g t s (skipn 1 (skipn (length s) m))) as P. rewrite L in P. rewrite wrap_small, <- Nat2Z.inj_add, <- app_length in P by lia. rewrite <- !app_assoc. apply P; auto.
  rewrite C, D. rewrite !app_length. cbn [length]. rewrite !skipn_length. lia.
Qed.
Lemma format_ok b t s : holds b t -> Z.of_nat (length (t ++ s)) < 2305843009213693952 -> exists b', append_format junk b (Some s) = Ok b' /\ holds b' (t ++ s).
Proof.
  intros H B. pose proof B as B'. rewrite app_length in B. destruct (grow_holds b t (Z.of_nat (length s)) H ltac:(lia) ltac:(lia)) as [G R]. destruct (room _ _ _ G R ltac:(lia)) as (m & D & LM).
  unfold append_format. cbv zeta. destruct G as (_ & L & C & M). set (g := grow junk b (Z.of_nat (length s))) in *. clearbody g.
  assert (ST : store (data g) (len g) (s ++ [0]) = Ok (t ++ (s ++ [0]) ++ skipn (length (s ++ [0])) m)) by (rewrite D, L; apply store_at; rewrite app_length; cbn [length]; lia).
  rewrite ST. cbn [rmap]. eexists. split; [reflexivity|]. rewrite <- (app_assoc s). cbn [app]. apply put; auto.
  rewrite C, D. rewrite !app_length. cbn [length]. rewrite skipn_length, ?app_length. cbn [length]. lia.
Qed.
Lemma char_is_bytes b c : append_char junk b c = append_bytes junk b [c].
Proof. reflexivity. Qed.
Lemma indent_ok k : forall b t, holds b t -> Z.of_nat (length (t ++ List.repeat 32 (4 * k))) < 2305843009213693952 -> exists b', indent_loop junk k b = Ok b' /\ holds b' (t ++ List.repeat 32 (4 * k)).
Proof.
  induction k as [|k IH]; intros b t H B; [exists b; split; [reflexivity|cbn; now rewrite app_nil_r]|].
  assert (E : List.repeat 32 (4 * S k) = [32; 32; 32; 32] ++ List.repeat 32 (4 * k)) by (replace (4 * S k)%nat with (4 + 4 * k)%nat by lia; reflexivity). rewrite E in *. rewrite app_assoc in *.
  destruct (bytes_ok b t [32; 32; 32; 32] H) as (b1 & E1 & H1); [rewrite (app_length (t ++ _)) in B; lia|]. cbn [indent_loop]. change (firstn 4 spaces) with [32; 32; 32; 32]. rewrite E1. cbn [rbind]. now apply IH.
Qed.
Lemma firstn_spaces k : (k <= 64)%nat -> firstn k spaces = List.repeat 32 k.
Proof. unfold spaces. generalize 64%nat. induction k as [|k IH]; intros [|n] H; try reflexivity; [lia|]. cbn. now rewrite IH by lia. Qed.
Definition deep (o : op) : Prop := match o with Indent d => 0 <= d <= 536870911 | _ => True end.
Lemma append_ok b t o : holds b t -> deep o -> Z.of_nat (length (t ++ text o)) < 2305843009213693952 -> exists b', append junk b o = Ok b' /\ holds b' (t ++ text o).
Proof.
  intros H DP B. destruct o as [s|[s|]|c|d]; cbn [append text] in *.
  - now apply bytes_ok.
  - now apply format_ok.
  - exists b. split; [reflexivity|now rewrite app_nil_r].
  - rewrite char_is_bytes. now apply bytes_ok.
  - cbn in DP. unfold append_indent. cbv zeta. unfold INT32_MIN, INT32_MAX. replace ((_ <=? _) && _) with true by lia. destruct (d * 4 <? 65) eqn:E.
    + replace (0 <=? d * 4) with true by lia. rewrite firstn_spaces by lia. replace (Z.to_nat (d * 4)) with (4 * Z.to_nat d)%nat by lia. now apply bytes_ok.
    + now apply indent_ok.
Qed.
Lemma append_all_ok os : forall b t, holds b t -> (forall o, In o os -> deep o) -> Z.of_nat (length (t ++ all_text os)) < 2305843009213693952 ->
  exists b', append_all junk b os = Ok b' /\ holds b' (t ++ all_text os).
Proof.
  induction os as [|o os IH]; intros b t H D B; [exists b; split; [reflexivity|cbn; now rewrite app_nil_r]|]. cbn [all_text flat_map] in *. fold (all_text os) in *. rewrite app_assoc in *.
  destruct (append_ok b t o H (D o (or_introl eq_refl))) as (b1 & E1 & H1); [rewrite (app_length (t ++ _)) in B; lia|]. cbn [append_all]. rewrite E1. cbn [rbind]. apply IH; auto. intros o' I. apply D. now right.
Qed.
Lemma create_ok n : 0 < n <= 4611686018427387904 -> exists b, create junk n = Ok b /\ holds b [].
Proof.
  intros N. unfold create. assert (L : length (fresh junk (Z.to_nat n)) = Z.to_nat n) by (unfold fresh; now rewrite map_length, seq_length). set (m := fresh junk (Z.to_nat n)) in *. clearbody m.
  pose proof (store_at [] m [0]) as S0. cbn [app length Z.of_nat] in S0. rewrite S0 by lia. cbn [rmap]. eexists. split; [reflexivity|]. split; [eexists; reflexivity|]. cbn [len cap data]. split; [reflexivity|]. split; [|lia]. cbn [length]. rewrite skipn_length. lia.
Qed.
End B.
Lemma c_string_app t rest : ~ In 0 t -> c_string (t ++ 0 :: rest) = t.
Proof. induction t as [|c t IH]; intros H; [reflexivity|]. cbn. destruct (c =? 0) eqn:E; [exfalso; apply H; left; lia|]. f_equal. apply IH. intros I. apply H. now right. Qed.
(** C148.  Whatever is appended, no write is outside the buffer, and its
    contents are everything appended in order; read as a C string too, if none
    of it has a 0.  Up to 2^61 bytes, from a buffer of at least one byte, and
    for indentations that are not negative and fit an int. *)
Theorem buffer_partial : forall junk initial os, 0 < initial <= 4611686018427387904 -> Z.of_nat (length (all_text os)) < 2305843009213693952 ->
  (forall d, In (Indent d) os -> 0 <= d <= 536870911) ->
  exists b, rbind (create junk initial) (fun b => append_all junk b os) = Ok b /\
    firstn (Z.to_nat (len b)) (data b) = all_text os /\ (~ In 0 (all_text os) -> to_string b = all_text os).
Proof.
  intros junk n os N B D. destruct (create_ok junk n N) as (b & E & H). destruct (append_all_ok junk os b [] H) as (b' & E' & (rest & R) & L & _).
  - intros [| | |d] I; cbn; auto.
  - exact B.
  - exists b'. rewrite E. cbn [rbind]. split; [exact E'|]. cbn [app] in *. rewrite R, L, Nat2Z.id. split; [rewrite firstn_app, firstn_all, Nat.sub_diag; cbn; apply app_nil_r|].
    intros Z. unfold to_string. rewrite R. now apply c_string_app.
Qed.
(** A buffer of no bytes is written to at once, and a negative indentation
    copies from outside. *)
Theorem buffer_refuted : (forall junk, create junk 0 = UB) /\ (forall junk b, append_indent junk b (-1) = UB).
Proof. split; reflexivity. Qed.
Example buffer_case : let os := [Bytes (bs "int main"); Character 40; Formatted (Some (bs "void")); Character 41; Indent 2; Formatted None; Bytes (bs "{}"); Indent 17] in
  (forall d, In (Indent d) os -> 0 <= d <= 536870911) /\
  rmap to_string (rbind (create (fun _ => 7) 3) (fun b => append_all (fun _ => 7) b os)) = Ok (bs "int main(void)        {}" ++ List.repeat 32 68).
Proof.
  split; [|vm_compute; reflexivity]. intros d H. cbn in H. repeat (destruct H as [H|H]; [try discriminate H; injection H as <-; lia|]). destruct H.
Qed.
Print Assumptions buffer_partial.
Print Assumptions buffer_refuted.
