(** SemVer 2.0 (C40, C41, C89), written from the standard, without reference to the code. *)
From Verif Require Import Base Decimal.

(** A pre-release identifier: a number or a word. *)
Inductive ident := Num (n : Z) | Word (w : bytes).
(** pre = [] : a release. *)
Record version := Ver { major : Z; minor : Z; patch : Z; pre : list ident }.

(** Byte-wise order of words. *)
Fixpoint cmp_bytes (a b : bytes) : comparison :=
  match a, b with
  | [], [] => Eq
  | [], _ => Lt
  | _, [] => Gt
  | x :: a, y :: b => match x ?= y with Eq => cmp_bytes a b | c => c end
  end.
(** Rule 11.4.1-11.4.3 *)
Definition cmp_ident (a b : ident) : comparison :=
  match a, b with
  | Num x, Num y => x ?= y
  | Num _, Word _ => Lt
  | Word _, Num _ => Gt
  | Word x, Word y => cmp_bytes x y
  end.
(** Rule 11.4: left to right, and a prefix is lower *)
Fixpoint cmp_idents (a b : list ident) : comparison :=
  match a, b with
  | [], [] => Eq
  | [], _ => Lt
  | _, [] => Gt
  | x :: a, y :: b => match cmp_ident x y with Eq => cmp_idents a b | c => c end
  end.
(** Rules 11.2, 11.3: numbers first; a release is above its pre-releases *)
Definition precedence (a b : version) : comparison :=
  match major a ?= major b with
  | Eq => match minor a ?= minor b with
          | Eq => match patch a ?= patch b with
                  | Eq => match pre a, pre b with
                          | [], [] => Eq
                          | [], _ => Gt
                          | _, [] => Lt
                          | x, y => cmp_idents x y
                          end
                  | c => c
                  end
          | c => c
          end
  | c => c
  end.

(** Texts *)
Fixpoint join (sep : Z) (l : list bytes) : bytes :=
  match l with [] => [] | [x] => x | x :: l => x ++ [sep] ++ join sep l end.
Definition ident_text (i : ident) : bytes := match i with Num n => dec n | Word w => w end.
Definition pre_text (l : list ident) : bytes := join 46 (map ident_text l).
Definition core_text (v : version) : bytes := dec (major v) ++ [46] ++ dec (minor v) ++ [46] ++ dec (patch v).
(** with or without the leading v, with or without build metadata *)
Inductive text_of (v : version) : bytes -> Prop :=
| text_intro pfx suf build : (pfx = [] \/ pfx = [118]) ->
    suf = (match pre v with [] => [] | l => [45] ++ pre_text l end) -> (build = [] \/ exists b, build = 43 :: b) ->
    text_of v (pfx ++ core_text v ++ suf ++ build).
Definition word_char (c : Z) : Prop := 48 <= c <= 57 \/ 65 <= c <= 90 \/ 97 <= c <= 122 \/ c = 45.
Definition ident_ok (i : ident) : Prop :=
  match i with
  | Num n => 0 <= n
  | Word w => w <> [] /\ Forall word_char w /\ ~ Forall is_digit w
  end.
Definition version_ok (v : version) : Prop := 0 <= major v /\ 0 <= minor v /\ 0 <= patch v /\ Forall ident_ok (pre v).
(** What git describe appends: -N-gHASH, possibly -dirty *)
Definition hex_char (c : Z) : Prop := 48 <= c <= 57 \/ 97 <= c <= 102.
Definition describe_trailer (t : bytes) : Prop := exists ds hs d, ds <> [] /\ hs <> [] /\ Forall is_digit ds /\ Forall hex_char hs /\
  (d = [] \/ d = bs "-dirty") /\ t = [45] ++ ds ++ bs "-g" ++ hs ++ d.
Definition ends_in_trailer (s : bytes) : Prop := exists p t, describe_trailer t /\ s = p ++ t.

(** A release as GitHub lists it. *)
Record release := Rel { tag : bytes; prerelease : bool; assets : list (bytes * bytes) }.
(** What gray install takes: X.Y.Z with an optional v, pre-release part and build metadata. *)
Definition suffix_char (c : Z) : Prop := word_char c \/ c = 46.
Definition alnum_char (c : Z) : Prop := 48 <= c <= 57 \/ 65 <= c <= 90 \/ 97 <= c <= 122.
Definition part (mark : Z) (s : bytes) : Prop := s = [] \/ exists c r, s = mark :: c :: r /\ alnum_char c /\ Forall suffix_char r.
Definition digits (s : bytes) : Prop := s <> [] /\ Forall is_digit s.
Definition full_version (s : bytes) : Prop := exists v a b c p m, (v = [] \/ v = [118]) /\ digits a /\ digits b /\ digits c /\ part 45 p /\ part 43 m /\
  s = v ++ a ++ [46] ++ b ++ [46] ++ c ++ p ++ m.
