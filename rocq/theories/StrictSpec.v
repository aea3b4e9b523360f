(** What the branches of a when on an enum stand for. *)
From Verif Require Import Base LitSpec EnumSpec.

(** A value of a branch: E.V, .V, a pattern V(...) with k + 1 bindings, an
    integer literal. *)
Inductive pat := Member (e v : bytes) | Implicit (v : bytes) | Pattern (v : bytes) (k : nat) | Number (n : Z).
(** It stands for the variant v at position j of the enum e of the subject. *)
Definition stands (e : enum) (p : pat) (j : nat) (v : variant) : Prop :=
  match p with
  | Member en x => en = e_name e /\ x = v_name v
  | Implicit x | Pattern x _ => x = v_name v
  | Number n => n = Z.of_nat j
  end.
(** It stands for a variant with the value x. *)
Definition names (e : enum) (p : pat) (x : value) : Prop :=
  exists j v, nth_error (e_variants e) j = Some v /\ stands e p j v /\ means e j x.
(** Variants are numbered by position. *)
Definition counting (e : enum) : Prop := e_flags e = false /\ forall v, In v (e_variants e) -> v_given v = None.
(** The value is written for the enum of the subject. *)
Definition own (e : enum) (p : pat) : Prop :=
  match p with Member en _ => en = e_name e | Number _ => counting e | _ => True end.
(** The C constants have the values of the variants (what enum_values_partial says). *)
Definition faithful (es : list enum) (access : enum -> variant -> bytes) (g : env) : Prop :=
  forall e i v, In e es -> nth_error (e_variants e) i = Some v ->
    exists c x, find (access e v) g = Some c /\ read c = Some x /\ means e i x /\ forall y, means e i y -> y = x.
