(** What the fields of a new struct hold. *)
From Verif Require Import Base ArgsSpec.

(** A container is an array or a map. *)
Inductive shape := Scalar | Container.
Record field := Field { f_name : bytes; f_shape : shape; f_default : option exp }.
(** What a field holds: a value, zero bytes, or an empty container with the
    sizes of its elements. *)
Inductive content := Val (v : Z) | Zeros | Fresh.
Notation literal := (list (bytes * exp)).
(** The field holds what was written for it, evaluated where the struct is
    made, or else its default, evaluated among the globals, or else zero: for
    an array or a map, an empty one. *)
Inductive holds (rho glob : bytes -> option Z) (l : literal) (f : field) : content -> Prop :=
| h_given e v : In (f_name f, e) l -> eval rho e = Some v -> holds rho glob l f (Val v)
| h_default d v : ~ In (f_name f) (map fst l) -> f_default f = Some d -> eval glob d = Some v -> holds rho glob l f (Val v)
| h_zero : ~ In (f_name f) (map fst l) -> f_default f = None -> f_shape f = Scalar -> holds rho glob l f Zeros
| h_empty : ~ In (f_name f) (map fst l) -> f_default f = None -> f_shape f = Container -> holds rho glob l f Fresh.
(** The names in the defaults in use are not hidden where the struct is made. *)
Definition unhidden (rho glob : bytes -> option Z) (fs : list field) (l : literal) : Prop :=
  forall f d x, In f fs -> ~ In (f_name f) (map fst l) -> f_default f = Some d -> In x (names d) -> rho x = glob x.
