(** What a call passes to the parameters of a function. *)
From Verif Require Import Base.

(** The expressions of the arguments and of the defaults. *)
Inductive exp := Num (z : Z) | Var (x : bytes) | Plus (a b : exp).
Fixpoint names (e : exp) : list bytes := match e with Num _ => [] | Var x => [x] | Plus a b => names a ++ names b end.
(** What an expression is worth, given the meanings of the names. *)
Fixpoint eval (rho : bytes -> option Z) (e : exp) : option Z :=
  match e with
  | Num z => Some z
  | Var x => rho x
  | Plus a b => match eval rho a, eval rho b with Some u, Some v => Some (u + v) | _, _ => None end
  end.

(** A parameter, and an argument written with or without a name. *)
Record param := Param { p_name : bytes; p_default : option exp }.
Notation arg := (option bytes * exp)%type.
(** A declaration the compiler accepts: distinct names, required parameters first. *)
Definition declared (ps : list param) : Prop :=
  NoDup (map p_name ps) /\
  forall i j p q, (i < j)%nat -> nth_error ps i = Some p -> nth_error ps j = Some q -> p_default p <> None -> p_default q <> None.

(** Argument j is the one for parameter i. *)
Definition gives (ps : list param) (args : list arg) (i j : nat) : Prop :=
  exists p a, nth_error ps i = Some p /\ nth_error args j = Some a /\
    match fst a with None => i = j | Some n => p_name p = n end.
(** A call that obeys the rules of the language. *)
Record lawful (ps : list param) (args : list arg) : Prop := {
  positional_first : forall j k n a b, (j < k)%nat -> nth_error args j = Some (Some n, a) -> nth_error args k = Some (None, b) -> False;
  has_parameter : forall j, (j < length args)%nat -> exists i, gives ps args i j;
  given_once : forall i j k, gives ps args i j -> gives ps args i k -> j = k;
  required_given : forall i p, nth_error ps i = Some p -> p_default p = None -> exists j, gives ps args i j
}.
(** Parameter i or a later one is given. *)
Definition reached (ps : list param) (args : list arg) (i : nat) : Prop := exists i' j, (i <= i')%nat /\ gives ps args i' j.

(** The names a default may use: the parameters before it, then the globals. *)
Fixpoint before (ps : list param) (vs : list Z) (glob : bytes -> option Z) (x : bytes) : option Z :=
  match ps, vs with
  | p :: ps, v :: vs => if list_eq_dec Z.eq_dec (p_name p) x then Some v else before ps vs glob x
  | _, _ => glob x
  end.
(** The parameters get vs: an argument is evaluated where the call stands, a
    default with the parameters before it. *)
Definition passes (ps : list param) (args : list arg) (rho glob : bytes -> option Z) (vs : list Z) : Prop :=
  length vs = length ps /\
  forall i p v, nth_error ps i = Some p -> nth_error vs i = Some v ->
    (forall j a, gives ps args i j -> nth_error args j = Some a -> eval rho (snd a) = Some v) /\
    ((forall j, ~ gives ps args i j) -> exists d, p_default p = Some d /\ eval (before (firstn i ps) vs glob) d = Some v).

(** No argument uses the name of its parameter or of one before, when some
    default is left to the end of the call. *)
Definition leaves_defaults (ps : list param) (args : list arg) : Prop := exists i, (i < length ps)%nat /\ ~ reached ps args i.
Definition apart (ps : list param) (args : list arg) : Prop :=
  leaves_defaults ps args -> forall i j a x, gives ps args i j -> nth_error args j = Some a -> In x (names (snd a)) -> ~ In x (map p_name (firstn (S i) ps)).
(** A default that is used mentions globals the caller does not hide, and, when
    some default is left to the end, parameters before it that are reached. *)
Definition at_home (ps : list param) (args : list arg) (rho glob : bytes -> option Z) : Prop :=
  forall i p d x, nth_error ps i = Some p -> p_default p = Some d -> (forall j, ~ gives ps args i j) -> In x (names d) ->
    (~ In x (map p_name ps) /\ rho x = glob x) \/
    (leaves_defaults ps args /\ exists k q, (k < i)%nat /\ reached ps args k /\ nth_error ps k = Some q /\ p_name q = x).
