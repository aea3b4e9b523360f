(** Vocabulary of the updater's properties (C42, C43): parts of a URL after RFC 3986, and what a path names. *)
From Verif Require Import Base.

(** The pieces between slashes. *)
Fixpoint parts (s : bytes) : list bytes :=
  match s with
  | [] => [[]]
  | c :: s => if c =? 47 then [] :: parts s
              else match parts s with f :: r => (c :: f) :: r | [] => [[c]] end
  end.
(** Following the pieces from the root: empty pieces and "." stay, ".." goes up (at the root it stays). *)
Definition same_name (a b : bytes) : bool := if list_eq_dec Z.eq_dec a b then true else false.
Definition go (at_ : list bytes) (piece : bytes) : list bytes :=
  if same_name piece [] || same_name piece (bs ".") then at_
  else if same_name piece (bs "..") then removelast at_ else at_ ++ [piece].
Definition walk (start : list bytes) (l : list bytes) : list bytes := fold_left go l start.
Definition absolute (p : bytes) : Prop := exists r, p = 47 :: r.
(** The names from the root to what path p denotes for a process working in cwd. *)
Definition resolve (cwd p : bytes) : list bytes :=
  match p with
  | 47 :: _ => walk [] (parts p)
  | _ => walk (walk [] (parts cwd)) (parts p)
  end.

(** RFC 3986, appendix B: scheme://authority path [?query] [#fragment] *)
Definition url_parts (url scheme auth path : bytes) : Prop :=
  exists tail, url = scheme ++ bs "://" ++ auth ++ path ++ tail /\
    (forall c, In c scheme -> ~ In c (bs ":/?#")) /\
    (forall c, In c auth -> ~ In c (bs "/?#")) /\
    (path = [] \/ absolute path) /\ (forall c, In c path -> ~ In c (bs "?#")) /\
    (tail = [] \/ exists c r, tail = c :: r /\ In c (bs "?#")).
(** Percent-encoding *)
Definition hexv (c : Z) : option Z :=
  if (48 <=? c) && (c <=? 57) then Some (c - 48)
  else if (97 <=? c) && (c <=? 102) then Some (c - 87)
  else if (65 <=? c) && (c <=? 70) then Some (c - 55) else None.
Inductive decodes : bytes -> bytes -> Prop :=
| dec_nil : decodes [] []
| dec_char c s d : c <> 37 -> decodes s d -> decodes (c :: s) (c :: d)
| dec_pct h l x y s d : hexv h = Some x -> hexv l = Some y -> decodes s d -> decodes (37 :: h :: l :: s) (16 * x + y :: d).
Definition lower (c : Z) : Z := if (65 <=? c) && (c <=? 90) then c + 32 else c.
(** https, any spelling of the case, on exactly the host github.com (no port), with or without user information *)
Definition https_github (scheme auth : bytes) : Prop :=
  map lower scheme = bs "https" /\ (auth = bs "github.com" \/ exists user, auth = user ++ bs "@github.com").
(** The pieces of the path, each decoded. *)
Definition decoded_parts (path : bytes) (l : list bytes) : Prop := Forall2 decodes (parts path) l.
(** A release asset of the project *)
Definition release_area : list bytes := [bs "grayscale-lang"; bs "grayscale"; bs "releases"; bs "download"].
Definition official (url : bytes) : Prop :=
  exists s a p l more, url_parts url s a p /\ https_github s a /\ decoded_parts p l /\ walk [] l = release_area ++ more.

(** C43: the four names an archive may deliver *)
Definition wanted : list bytes := [bs "gray"; bs "gray.exe"; bs "grayc"; bs "libgrayrt.a"].
(** The name of an archive entry without its directories: the last piece that is not empty. *)
Definition own_name (p : bytes) : bytes := last (filter (fun x => negb (same_name x [])) (parts p)) [].
