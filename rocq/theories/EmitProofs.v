(** Proofs about the C text of expressions: how C reads it. *)
From Verif Require Import Base BaseFacts ArithModel EmitModel EmitSpec.

(** ** C reads tokens in one way *)
Scheme unary_mind := Minimality for unary Sort Prop
with climb_mind := Minimality for climb Sort Prop
with cexpr_mind := Minimality for cexpr Sort Prop
with args_mind := Minimality for args Sort Prop
with stmts_mind := Minimality for stmts Sort Prop.
Combined Scheme c_mind from unary_mind, climb_mind, cexpr_mind, args_mind, stmts_mind.

Ltac both H := let E1 := fresh in let E2 := fresh in destruct H as [E1 E2]; [eassumption..|]; try (injection E2 as E2); try subst.
Lemma reads_once :
  (forall s c r, unary s c r -> forall c' r', unary s c' r' -> c = c' /\ r = r') /\
  (forall m a s c r, climb m a s c r -> forall c' r', climb m a s c' r' -> c = c' /\ r = r') /\
  (forall m s c r, cexpr m s c r -> forall c' r', cexpr m s c' r' -> c = c' /\ r = r') /\
  (forall s l r, args s l r -> forall l' r', args s l' r' -> l = l' /\ r = r') /\
  (forall s l r, stmts s l r -> forall l' r', stmts s l' r' -> l = l' /\ r = r').
Proof.
  apply c_mind.
  - intros a r c' r' H. inversion H; subst. auto.
  - intros a r c' r' H. inversion H; subst. auto.
  - intros a r c' r' H. inversion H; subst. auto.
  - intros n r NC c' r' H. inversion H; subst; [auto|]. destruct NC.
  - intros n r l r1 _ IH c' r' H. inversion H as [| | |? ? NC|? ? ? ? HA| | | |]; subst; [destruct NC|]. destruct (IH _ _ HA) as [-> ->]. auto.
  - intros p r c r1 U _ IH c' r' H. inversion H as [| | | | |? ? ? ? U' HU|? ? ? ? HU|? ? ? G HC|? ? ? HS]; subst.
    + destruct (IH _ _ HU) as [-> ->]. auto.
    + destruct U as [U|[U|U]]; discriminate.
    + destruct U as [U|[U|U]]; discriminate.
    + destruct U as [U|[U|U]]; discriminate.
  - intros t r c r1 _ IH c' r' H. inversion H as [| | | | |? ? ? ? U' HU|? ? ? ? HU|? ? ? G HC|? ? ? HS]; subst.
    + destruct U' as [U|[U|U]]; discriminate.
    + destruct (IH _ _ HU) as [-> ->]. auto.
    + destruct G.
  - intros r c r1 G _ IH c' r' H. inversion H as [| | | | |? ? ? ? U' HU|? ? ? ? HU|? ? ? G' HC|? ? ? HS]; subst.
    + destruct U' as [U|[U|U]]; discriminate.
    + destruct G.
    + destruct (IH _ _ HC) as [-> E]. injection E as ->. auto.
    + destruct G.
  - intros r l r1 _ IH c' r' H. inversion H as [| | | | |? ? ? ? U' HU|? ? ? ? HU|? ? ? G' HC|? ? ? HS]; subst.
    + destruct U' as [U|[U|U]]; discriminate.
    + destruct G'.
    + destruct (IH _ _ HS) as [-> E]. injection E as ->. auto.
  - intros m a r S c' r' H. inversion H as [|? ? ? k ? ? ? ? ? ? ? Pk L]; subst; [auto|]. cbn [stops] in S. rewrite Pk in S. lia.
  - intros m a p k r b r1 c r2 d r3 Pk L _ IH1 _ IH2 _ IH3 c' r' H. inversion H as [? ? ? S|? ? ? k' ? b' r1' ? ? ? ? Pk' L' H1 H2 H3]; subst.
    + cbn [stops] in S. rewrite Pk in S. lia.
    + assert (k' = k) by congruence. subst k'. destruct (IH1 _ _ H1) as [-> ->]. destruct (IH2 _ _ H2) as [-> ->]. exact (IH3 _ _ H3).
  - intros m r a r1 c r2 _ IH1 _ IH2 c' r' H. inversion H as [? ? ? ? ? ? H1 H2]; subst. destruct (IH1 _ _ H1) as [-> ->]. exact (IH2 _ _ H2).
  - intros r c r1 _ IH l' r' H. inversion H as [? ? ? H1|? ? ? ? ? H1 H2]; subst; destruct (IH _ _ H1) as [-> E]; [injection E as ->; auto|discriminate].
  - intros r c r1 l r2 _ IH1 _ IH2 l' r' H. inversion H as [? ? ? H1|? ? ? ? ? H1 H2]; subst; destruct (IH1 _ _ H1) as [-> E]; [discriminate|].
    injection E as ->. destruct (IH2 _ _ H2) as [-> ->]. auto.
  - intros r l' r' H. inversion H as [|? ? ? ? ? ? ? H1 H2|? ? ? ? ? ? ? H1 H2 H3|? ? ? ? ? S]; subst; [auto|]. destruct S.
  - intros t x r c r1 l r2 _ IH1 _ IH2 l' r' H. inversion H as [|? ? ? ? ? ? ? H1 H2|? ? ? ? ? ? ? H1 H2 H3|? ? ? ? ? S]; subst; [|destruct S].
    destruct (IH1 _ _ H1) as [-> E]. injection E as ->. destruct (IH2 _ _ H2) as [-> ->]. auto.
  - intros r c r1 b r2 l r3 _ IH1 _ IH2 _ IH3 l' r' H. inversion H as [|? ? ? ? ? ? ? H1 H2|? ? ? ? ? ? ? H1 H2 H3|? ? ? ? ? S]; subst; [|destruct S].
    destruct (IH1 _ _ H1) as [-> E]. injection E as ->. destruct (IH2 _ _ H2) as [-> E]. injection E as ->. destruct (IH3 _ _ H3) as [-> ->]. auto.
  - intros r c r1 l r2 S _ IH1 _ IH2 l' r' H. inversion H as [|? ? ? ? ? ? ? H1 H2|? ? ? ? ? ? ? H1 H2 H3|? ? ? ? ? S' H1 H2]; subst; try destruct S.
    destruct (IH1 _ _ H1) as [-> E]. injection E as ->. destruct (IH2 _ _ H2) as [-> ->]. auto.
Qed.
Lemma c_reads_once s c c' : c_reads s c -> c_reads s c' -> c = c'.
Proof. intros H H'. exact (proj1 (proj1 (proj2 (proj2 reads_once)) _ _ _ _ H _ _ H')). Qed.

(** ** Deriving readings *)
Definition prim (s : list tok) (c : ctree) : Prop := forall r, unary (s ++ r) c r.
Definition full (s : list tok) (c : ctree) : Prop := forall r, stops 0 r -> cexpr 0 (s ++ r) c r.
Lemma stops_any m r : stops 0 r -> stops m r.
Proof. destruct r as [|[]]; try exact (fun x => x). cbn. destruct (prec p); [lia|auto]. Qed.
Lemma prim_full s c : prim s c -> full s c.
Proof. intros H r S. econstructor; [apply H|]. now apply c_stop. Qed.
Lemma bin_full s1 s2 a b p k : prim s1 a -> prim s2 b -> prec p = Some k -> full (s1 ++ [P p] ++ s2) (CBin p a b).
Proof.
  intros H1 H2 E r S. rewrite <- !app_assoc. econstructor; [apply H1|]. cbn [app]. eapply c_take; [exact E|lia|apply H2| |]; apply c_stop; now apply stops_any.
Qed.
Definition starts (s : list tok) : Prop := match s with [] | T _ :: _ | P LB :: _ | If :: _ | P RB :: _ => False | _ => True end.
Lemma starts_group s r : starts s -> opens_group (s ++ r).
Proof. destruct s as [|[| | | |[]| |]]; cbn; tauto. Qed.
Lemma starts_stmt s r : starts s -> starts_expr (s ++ r).
Proof. destruct s as [|[| | | |[]| |]]; cbn; tauto. Qed.
Lemma starts_app s r : starts s -> starts (s ++ r).
Proof. destruct s as [|[| | | |[]| |]]; cbn; tauto. Qed.
Lemma group s c : starts s -> full s c -> prim ([P LP] ++ s ++ [P RP]) c.
Proof. intros G F r. cbn [app]. rewrite <- app_assoc. apply u_group; [now apply starts_group|]. apply F. exact I. Qed.
Lemma prec_op o : exists k, prec (c_op o) = Some k.
Proof. destruct o; cbn; eauto. Qed.

Ltac pu := first [apply u_atom | apply u_num | apply u_str | apply u_cast; pu | apply u_op; [red; tauto|pu] | apply u_call; pa
                 | apply u_var; exact I | apply u_group; [exact I|pe]]
with pe := eapply c_expr; [pu|pc]
with pc := first [apply c_stop; first [exact I|cbn; lia] | eapply c_take; [reflexivity|lia|pu|pc|pc]]
with pa := first [eapply a_more; [pe|pa] | eapply a_last; pe].

(** the call of the panic function in a block *)
Lemma panic_reads file line code msg r : exists b, stmts ([V (bs "gray_panic_code_at"); P LP; Q file; P Comma; N line; P Comma; Q code; P Comma; Q msg; P RP; P Semi; P RB] ++ r) b (P RB :: r).
Proof. cbn [app]. eexists. eapply s_expr; [exact I|pe|apply s_end]. Qed.
Lemma panic_reads_sa file line code msg r : exists b,
  stmts ([V (bs "gray_panic_code_at"); P LP; Q file; P Comma; N line; P Comma; Q code; P Comma; Q msg; P Comma; V (bs "_sa"); P RP; P Semi; P RB] ++ r) b (P RB :: r).
Proof. cbn [app]. eexists. eapply s_expr; [exact I|pe|apply s_end]. Qed.
Ltac flat := cbn [app]; repeat (rewrite <- app_assoc; cbn [app]).
(** a call with two operands *)
Lemma call2_reads f l r cl cr more lm : full l cl -> full r cr ->
  (more = [] /\ lm = [] \/ exists m, more = P Comma :: m /\ forall x, args (m ++ P RP :: x) lm x) -> prim (call2 f l r more) (CCall f (cl :: cr :: lm)).
Proof.
  intros Hl Hr M x. unfold call2. flat. apply u_call. eapply a_more; [apply Hl; exact I|].
  destruct M as [[-> ->]|(m & -> & M)].
  - cbn [app]. apply a_last. apply Hr. exact I.
  - eapply a_more; [cbn [app]; apply Hr; exact I|]. apply M.
Qed.
Lemma call2_bare f l r cl cr : full l cl -> full r cr -> prim (call2 f l r []) (CCall f [cl; cr]).
Proof. intros Hl Hr. apply call2_reads; auto. Qed.
(** no operands among them *)
Fixpoint bare (c : ctree) : bool :=
  match c with
  | CVar _ | CNum _ | CStr _ => true
  | CUn _ c | CCast _ c => bare c
  | CBin _ a b => bare a && bare b
  | _ => false
  end.
(** an optionally negative number *)
Lemma num_full z : exists c, full (num z) c /\ bare c = true.
Proof.
  unfold num. destruct (z <? 0).
  - exists (CUn Minus (CNum (- z))). split; [|reflexivity]. apply prim_full. intros r. cbn [app]. pu.
  - exists (CNum z). split; [|reflexivity]. apply prim_full. intros r. cbn [app]. pu.
Qed.
Lemma a_num_more z r c : full (num z) c -> forall l x, args r l x -> args (num z ++ P Comma :: r) (c :: l) x.
Proof. intros H l x R. eapply a_more; [apply H; exact I|exact R]. Qed.

(** ** The operations on whole numbers *)
Section Reads.
Context (file : bytes) (line : Z) (tname : ety -> bytes).

Lemma arith_reads o tl tr l r cl cr : In o [OAdd; OSub; OMul] -> full l cl -> full r cr ->
  exists f lm, checked_neg f = false /\ checked_op f = Some (c_op o) /\ forallb bare lm = true /\ prim (emit_arith file line tname o tl tr l r) (CCall f (cl :: cr :: lm)).
Proof.
  intros O Hl Hr. unfold emit_arith. destruct (sized_bounds (sized_type tl tr)) as [[[lo|] hi]|].
  - destruct (num_full lo) as (c & Hc & Bc). eexists _, _. split; [|split; [|split]]; [| | |apply call2_reads; [exact Hl|exact Hr|right]]; cycle 3.
    + eexists. split; [cbn [app]; reflexivity|]. intros x. rewrite <- app_assoc. cbn [app]. eapply a_num_more; [exact Hc|]. pa.
    + destruct O as [<-|[<-|[<-|[]]]]; reflexivity.
    + destruct O as [<-|[<-|[<-|[]]]]; reflexivity.
    + cbn. now rewrite Bc.
  - eexists _, _. split; [|split; [|split]]; [| | |apply call2_reads; [exact Hl|exact Hr|right]]; cycle 3.
    + eexists. split; [cbn [app]; reflexivity|]. intros x. cbn [app]. pa.
    + destruct O as [<-|[<-|[<-|[]]]]; reflexivity.
    + destruct O as [<-|[<-|[<-|[]]]]; reflexivity.
    + reflexivity.
  - eexists _, _. split; [|split; [|split]]; [| | |apply call2_reads; [exact Hl|exact Hr|right]]; cycle 3.
    + eexists. split; [cbn [app]; reflexivity|]. intros x. cbn [app]. pa.
    + destruct O as [<-|[<-|[<-|[]]]]; destruct (kind_uint tl || kind_uint tr); reflexivity.
    + destruct O as [<-|[<-|[<-|[]]]]; destruct (kind_uint tl || kind_uint tr); reflexivity.
    + reflexivity.
Qed.
End Reads.
