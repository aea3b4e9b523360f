(** What the import theorems talk about. *)
From Verif Require Import Base ImportModel.

(** A path without a stretch of 256 bytes between slashes. *)
Definition short (p : bytes) : Prop := forall a b c, p = a ++ b ++ c -> ~ In 47 b -> (length b < 256)%nat.
(** An import that names files of the program: [p] is its path. *)
Definition user (it : item) (p : bytes) : Prop := std it = false /\ ipath it = Some p.
(** [p] is written in an import of the main file or of some other file. *)
Definition named (w : world) (stmts : list (list item)) (p : bytes) : Prop :=
  (exists ts it, In ts stmts /\ In it ts /\ ipath it = Some p) \/
  (exists f l ts it, load w f = Program l /\ In ts l /\ In it ts /\ ipath it = Some p).
(** The canonical paths of the main file and of the files taken. *)
Definition files_read (w : world) (input_file : bytes) (s : st) : list bytes := canonical w input_file :: map canon (log s).
(** What import [it] stands for: the path it resolves to and the files there. *)
Definition target (w : world) (dir : bytes) (it : item) (p : bytes) : bytes + bytes * list bytes := resolve w dir it (strip_dot p).
(** An import that resolves to the same canonical path has had all its files read. *)
Definition satisfied (w : world) (input_file : bytes) (s : st) (it : item) (p : bytes) : Prop :=
  exists ip files it' p' ip' files', target w (dir_of input_file) it p = inr (ip, files) /\
    target w (dir_of input_file) it' p' = inr (ip', files') /\
    buf PATH_BUF_SIZE (canonical w ip') = buf PATH_BUF_SIZE (canonical w ip) /\
    forall f, In f files' -> In (canonical w f) (files_read w input_file s).
(** An import as it stands in the file taken as [t]: relative to its directory. *)
Definition relative_to (t : taken) (it : item) : item :=
  Item (std it) (alias it) (ipath it) (match source_dir it with None => Some (dir_of (file t)) | d => d end).

(** * What an import stands for *)
Definition visible_gray (n : bytes) : Prop := hd 0 n <> 46 /\ exists b, n = b ++ bs ".gray" /\ b <> [].
Definition where_from (dir : bytes) (it : item) : bytes := match source_dir it with Some d => d | None => dir end.
(** The import's own directory: a directory that would import itself *)
Definition own_directory (w : world) (it : item) (q : bytes) : Prop :=
  exists d a, source_dir it = Some d /\ realpath w q = Some a /\ realpath w d = Some a.
(** [stands_for w it q r]: an import of [q] (the directory it is relative to and its path, put together) is the list of
    files r, or the error r.  Files of a directory are taken in the order of their bytes *)
Inductive stands_for (w : world) (it : item) (q : bytes) : bytes + list bytes -> Prop :=
| with_extension b : q = b ++ bs ".gray" -> stands_for w it q (inr [q])
| without_extension : (forall b, q <> b ++ bs ".gray") -> is_reg w (q ++ bs ".gray") = true -> stands_for w it q (inr [q ++ bs ".gray"])
| directory names l : (forall b, q <> b ++ bs ".gray") -> is_reg w (q ++ bs ".gray") = false -> is_dir w q = true -> ~ own_directory w it q ->
    readdir w q = Some names -> (forall i j, (i < j < length l)%nat -> LexModel.strcmp (nth i l []) (nth j l []) < 0) ->
    (forall f, In f l <-> exists n, In n names /\ visible_gray n /\ f = q ++ bs "/" ++ n) -> l <> [] -> stands_for w it q (inr l)
| empty_directory names : (forall b, q <> b ++ bs ".gray") -> is_reg w (q ++ bs ".gray") = false -> is_dir w q = true -> ~ own_directory w it q ->
    readdir w q = Some names -> (forall n, In n names -> ~ visible_gray n) -> stands_for w it q (inl (bs "E6003"))
| closed_directory : (forall b, q <> b ++ bs ".gray") -> is_reg w (q ++ bs ".gray") = false -> is_dir w q = true -> ~ own_directory w it q ->
    readdir w q = None -> stands_for w it q (inr [])
| same_directory : (forall b, q <> b ++ bs ".gray") -> is_reg w (q ++ bs ".gray") = false -> is_dir w q = true -> own_directory w it q ->
    stands_for w it q (inl (bs "E6004"))
| nothing : (forall b, q <> b ++ bs ".gray") -> is_reg w (q ++ bs ".gray") = false -> is_dir w q = false -> stands_for w it q (inl (bs "E6002")).
