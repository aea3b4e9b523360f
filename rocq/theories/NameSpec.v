(** What is expected of the names in generated C. *)
From Verif Require Import Base TypesModel NameModel.

(** The keywords of C11 (ISO/IEC 9899:2011, 6.4.1) and the macros of stddef.h and
    stdbool.h that the runtime includes. *)
Definition c_reserved : list bytes :=
  [bs "auto"; bs "break"; bs "case"; bs "char"; bs "const"; bs "continue"; bs "default"; bs "do"; bs "double"; bs "else"; bs "enum"; bs "extern";
   bs "float"; bs "for"; bs "goto"; bs "if"; bs "inline"; bs "int"; bs "long"; bs "register"; bs "restrict"; bs "return"; bs "short"; bs "signed";
   bs "sizeof"; bs "static"; bs "struct"; bs "switch"; bs "typedef"; bs "union"; bs "unsigned"; bs "void"; bs "volatile"; bs "while";
   bs "_Alignas"; bs "_Alignof"; bs "_Atomic"; bs "_Bool"; bs "_Complex"; bs "_Generic"; bs "_Imaginary"; bs "_Noreturn"; bs "_Static_assert"; bs "_Thread_local";
   bs "bool"; bs "true"; bs "false"; bs "NULL"].
(** The text [s] starts with [p]. *)
Definition starts_with (p s : bytes) : Prop := exists r, s = p ++ r.
(** Letters, digits and underscores. *)
Definition word_char (c : Z) : Prop := 48 <= c <= 57 \/ 65 <= c <= 90 \/ 97 <= c <= 122 \/ c = 95.
Definition no_underscore (s : bytes) : Prop := ~ In 95 s.

(** Declarations that cannot clash: [tagged] tells the enums with payloads. *)
Definition unproblematic (tagged : bytes -> bool) (d : decl) : Prop :=
  match d with
  | DVar n => variable_refused n = false /\ ~ starts_with (bs "_gray_") n
  | DFun n | DStruct n | DMulti n => True
  | DEnum e => no_underscore e
  | EPlain e v => no_underscore e /\ tagged e = false
  | ETagType e => no_underscore e /\ tagged e = true
  | ETag e v | EData e v => no_underscore e /\ tagged e = true
  end.

(** ** Types of imported declarations. *)

(** What a type name becomes. *)
Definition renamed (names : list (bytes * bytes)) (n : bytes) : bytes :=
  match find (fun p => if list_eq_dec Z.eq_dec (fst p) n then true else false) names with Some p => snd p | None => n end.
(** A type with its names renamed. *)
Fixpoint rename (names : list (bytes * bytes)) (t : ty) : ty :=
  match t with
  | TName n => TName (renamed names n)
  | TPtr t => TPtr (rename names t)
  | TArr t => TArr (rename names t)
  | TFix t size => TFix (rename names t) size
  | TMap k v => TMap (renamed names k) (rename names v)
  | TFunc params r =>
      TFunc (map (fun p => (fst p, rename names (snd p))) params)
        (match r with RNone => RNone | ROne t => ROne (rename names t) | RMany ts => RMany (map (rename names) ts) end)
  end.
(** Types without function types, of ordinary names. *)
Definition ordinary (n : bytes) : Prop := n <> [] /\ Forall word_char n.
Fixpoint func_free (t : ty) : Prop :=
  match t with
  | TName n => ordinary n
  | TPtr t | TArr t => func_free t
  | TFix t size => func_free t /\ Forall word_char size
  | TMap k v => ordinary k /\ func_free v
  | TFunc _ _ => False
  end.
