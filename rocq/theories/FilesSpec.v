(** The file system as POSIX describes it, and what the functions of the io module are
    to do with it.  This file is the environment of FilesModel.v: it models no code of
    the repository. *)
From Verif Require Import Base.

(** * Locations and entries *)
(** A location: the names on the way from the root *)
Definition loc := list bytes.
Inductive entry := EFile (data : bytes) | EDir | ELink (target : bytes).
(** The entries below the root, in the order in which directories list them *)
Definition fs := list (loc * entry).
Definition bytes_eq : forall a b : bytes, {a = b} + {a <> b} := list_eq_dec Z.eq_dec.
Definition loc_eq : forall a b : loc, {a = b} + {a <> b} := list_eq_dec bytes_eq.
Definition same (a b : bytes) : bool := if bytes_eq a b then true else false.
Definition same_loc (a b : loc) : bool := if loc_eq a b then true else false.
Fixpoint find_entry (t : fs) (l : loc) : option entry :=
  match t with [] => None | (k, e) :: r => if same_loc k l then Some e else find_entry r l end.
Definition get (t : fs) (l : loc) : option entry := match l with [] => Some EDir | _ => find_entry t l end.
Fixpoint set (t : fs) (l : loc) (e : entry) : fs :=
  match t with [] => [(l, e)] | (k, e') :: r => if same_loc k l then (l, e) :: r else (k, e') :: set r l e end.
Definition del (t : fs) (l : loc) : fs := filter (fun x => negb (same_loc (fst x) l)) t.
(** [below d l]: l is strictly inside d, given by the names that lead from d to l *)
Fixpoint below (d l : loc) : option (list bytes) :=
  match d, l with
  | [], [] => None
  | [], _ => Some l
  | n :: d, m :: l => if same n m then below d l else None
  | _ :: _, [] => None
  end.
Definition inside (d l : loc) : bool := match below d l with Some _ => true | None => false end.
(** The names in a directory *)
Definition children (t : fs) (d : loc) : list bytes :=
  flat_map (fun x => match below d (fst x) with Some [n] => [n] | _ => [] end) t.
Definition name_ok (n : bytes) : Prop := n <> [] /\ ~ In 47 n /\ ~ In 0 n /\ n <> bs "." /\ n <> bs "..".
(** A file system: one entry for a location, and directories on the way to it *)
Definition wf (t : fs) : Prop :=
  NoDup (map fst t) /\
  (forall l e, In (l, e) t -> l <> [] /\ name_ok (last l []) /\ get t (removelast l) = Some EDir) /\
  (forall l x, In (l, ELink x) t -> ~ In 0 x).

(** * Paths *)
Fixpoint comps (s : bytes) : list bytes :=
  match s with
  | [] => [[]]
  | c :: r => if c =? 47 then [] :: comps r else match comps r with n :: ns => (c :: n) :: ns | [] => [[c]] end
  end.
Definition absolute (p : bytes) : bool := match p with c :: _ => c =? 47 | [] => false end.
(** Where a path starts *)
Definition start (cwd : loc) (p : bytes) : loc := if absolute p then [] else cwd.
Definition ENOENT : Z := 2. Definition EIO : Z := 5. Definition EEXIST : Z := 17. Definition ENOTDIR : Z := 20.
Definition ENAMETOOLONG : Z := 36. Definition ELOOP : Z := 40.
Definition PATH_MAX : Z := 4096.
Inductive answer := Found (l : loc) | Missing (parent : loc) (name : bytes) | Fail (errno : Z).
(** POSIX 4.13 path resolution; [follow]: a link in last place is followed; [n]: how many more links *)
Fixpoint resolve_n (t : fs) (follow : bool) (n : nat) {struct n} : loc -> list bytes -> answer :=
  fix go (cur : loc) (cs : list bytes) {struct cs} : answer :=
    match cs with
    | [] => Found cur
    | c :: rest =>
        if same c [] || same c (bs ".") then go cur rest
        else if same c (bs "..") then go (removelast cur) rest
        else match get t (cur ++ [c]) with
             | None => match rest with [] => Missing cur c | _ => Fail ENOENT end
             | Some EDir => go (cur ++ [c]) rest
             | Some (EFile _) => match rest with [] => Found (cur ++ [c]) | _ => Fail ENOTDIR end
             | Some (ELink target) =>
                 if match rest with [] => negb follow | _ => false end then Found (cur ++ [c])
                 else match n with
                      | O => Fail ELOOP
                      | S m => resolve_n t follow m (start cur target) (comps target ++ rest)
                      end
             end
    end.
Definition MAXSYMLINKS : nat := 40.
Definition resolve (t : fs) (cwd : loc) (follow : bool) (p : bytes) : answer :=
  if PATH_MAX <=? Z.of_nat (length p) then Fail ENAMETOOLONG
  else match p with
       | [] => Fail ENOENT
       | _ => resolve_n t follow MAXSYMLINKS (start cwd p) (comps p)
       end.
(** mkdir allows slashes at the end of a new name *)
Fixpoint trim (cs : list bytes) : list bytes :=
  match cs with [] => [] | c :: r => match trim r, c with [], [] => [] | r', _ => c :: r' end end.
Definition resolve_new (t : fs) (cwd : loc) (p : bytes) : answer :=
  if PATH_MAX <=? Z.of_nat (length p) then Fail ENAMETOOLONG
  else match p with
       | [] => Fail ENOENT
       | _ => resolve_n t false MAXSYMLINKS (start cwd p) (trim (comps p))
       end.
(** rmdir and rename refuse a path that ends in a dot or two *)
Definition ends_in_dots (p : bytes) : bool :=
  let n := last (trim (comps p)) [] in same n (bs ".") || same n (bs "..").

(** * System calls *)
(** The state: the tree, the trees before (what a crash leaves is one of them), and how
    many calls were made *)
Record st := St { tree : fs; past : list fs; calls : nat }.
Definition tick (s : st) : st := St (tree s) (past s) (S (calls s)).
Definition commit (s : st) (t : fs) : st := St t (tree s :: past s) (S (calls s)).
Definition moments (s : st) : list fs := tree s :: past s.
Inductive transfer := Reading | Writing | Closing.
Section Calls.
(** Which calls of the file system fail: [Some e]: with error e, and nothing is done.
    [short]: how many bytes a transfer moves if not all.  [early]: how many buffered bytes
    a call of fwrite writes out.  [cwd]: the working directory *)
Context (fault : nat -> option Z) (short : transfer -> nat -> option Z) (early : nat -> nat) (cwd : loc).
Definition sys_stat (s : st) (p : bytes) : st * option entry :=
  (tick s, match fault (calls s) with
           | Some _ => None
           | None => match resolve (tree s) cwd true p with Found l => get (tree s) l | _ => None end
           end).
Definition sys_access (s : st) (p : bytes) : st * bool :=
  let '(s, e) := sys_stat s p in (s, match e with Some _ => true | None => false end).
Definition open_read (s : st) (p : bytes) : st * option loc :=
  (tick s, match fault (calls s) with
           | Some _ => None
           | None => match resolve (tree s) cwd true p with
                     | Found l => match get (tree s) l with Some (EFile _) => Some l | _ => None end
                     | _ => None
                     end
           end).
(** Opened for writing; the file is made if it is not there *)
Definition open_write (s : st) (trunc : bool) (p : bytes) : st * option loc :=
  match fault (calls s), resolve (tree s) cwd true p with
  | None, Found l => match get (tree s) l with
                     | Some (EFile d) => (if trunc then commit s (set (tree s) l (EFile [])) else tick s, Some l)
                     | _ => (tick s, None)
                     end
  | None, Missing d n => (commit s (set (tree s) (d ++ [n]) (EFile [])), Some (d ++ [n]))
  | _, _ => (tick s, None)
  end.
Definition data_at (t : fs) (l : loc) : bytes := match get t l with Some (EFile d) => d | _ => [] end.
(** At most n bytes from position pos on *)
Definition fread (s : st) (l : loc) (pos n : nat) : st * bytes :=
  let m := match short Reading (calls s) with Some k => Nat.min n (Z.to_nat k) | None => n end in
  (tick s, firstn m (skipn pos (data_at (tree s) l))).
(** [pending]: bytes in the buffer of the stream.  The new buffer and the number of bytes taken *)
Definition fwrite (s : st) (l : loc) (pending d : bytes) : st * bytes * nat :=
  let m := match short Writing (calls s) with Some k => Nat.min (length d) (Z.to_nat k) | None => length d end in
  let all := pending ++ firstn m d in
  let j := early (calls s) in
  (commit s (set (tree s) l (EFile (data_at (tree s) l ++ firstn j all))), skipn j all, m).
Definition fclose (s : st) (l : loc) (pending : bytes) : st :=
  let m := match short Closing (calls s) with Some k => Z.to_nat k | None => length pending end in
  commit s (set (tree s) l (EFile (data_at (tree s) l ++ firstn m pending))).
Definition sys_unlink (s : st) (p : bytes) : st * bool :=
  match fault (calls s), resolve (tree s) cwd false p with
  | None, Found l => match get (tree s) l with
                     | Some EDir | None => (tick s, false)
                     | Some _ => (commit s (del (tree s) l), true)
                     end
  | _, _ => (tick s, false)
  end.
Definition sys_rmdir (s : st) (p : bytes) : st * bool :=
  if ends_in_dots p then (tick s, false) else
  match fault (calls s), resolve (tree s) cwd false p with
  | None, Found (n :: l) =>
      match get (tree s) (n :: l), children (tree s) (n :: l) with
      | Some EDir, [] => (commit s (del (tree s) (n :: l)), true)
      | _, _ => (tick s, false)
      end
  | _, _ => (tick s, false)
  end.
(** 0 or the error *)
Definition sys_mkdir (s : st) (p : bytes) : st * Z :=
  match fault (calls s) with
  | Some e => (tick s, e)
  | None => match resolve_new (tree s) cwd p with
            | Found _ => (tick s, EEXIST)
            | Missing d n => (commit s (set (tree s) (d ++ [n]) EDir), 0)
            | Fail e => (tick s, e)
            end
  end.
(** An entry moves with all that is inside it *)
Definition rebase (a b l : loc) : loc := if same_loc l a then b else match below a l with Some r => b ++ r | None => l end.
Definition moved (t : fs) (a b : loc) : fs := map (fun x => (rebase a b (fst x), snd x)) (del t b).
Definition sys_rename (s : st) (p q : bytes) : st * bool :=
  if ends_in_dots p || ends_in_dots q then (tick s, false) else
  match fault (calls s), resolve (tree s) cwd false p, resolve (tree s) cwd false q with
  | None, Found (n :: l), Found (m :: k) =>
      let a := n :: l in let b := m :: k in
      if same_loc a b then (tick s, true)
      else match get (tree s) a, get (tree s) b with
           | Some EDir, Some EDir => match children (tree s) b with
                                     | [] => if inside a b then (tick s, false) else (commit s (moved (tree s) a b), true)
                                     | _ => (tick s, false)
                                     end
           | Some EDir, _ | None, _ | _, Some EDir | _, None => (tick s, false)
           | _, _ => (commit s (moved (tree s) a b), true)
           end
  | None, Found (n :: l), Missing d m =>
      let a := n :: l in
      if inside a (d ++ [m]) then (tick s, false) else (commit s (moved (tree s) a (d ++ [m])), true)
  | _, _, _ => (tick s, false)
  end.
(** The names in a directory; opendir fails on what is none *)
Definition sys_list (s : st) (p : bytes) : st * option (list bytes) :=
  (tick s, match fault (calls s) with
           | Some _ => None
           | None => match resolve (tree s) cwd true p with
                     | Found l => match get (tree s) l with Some EDir => Some (children (tree s) l) | _ => None end
                     | _ => None
                     end
           end).
End Calls.
Definition no_faults (fault : nat -> option Z) : Prop := forall n, fault n = None.
Definition no_shorts (short : transfer -> nat -> option Z) : Prop := forall x n, short x n = None.

(** * What paths mean in the theorems *)
(** [p] spells [l]: the names between its slashes, from the root or the working
    directory on, without dots *)
Definition ne (c : bytes) : bool := negb (same c []).
Definition names (p : bytes) : list bytes := filter ne (comps p).
Definition spells (cwd : loc) (p : bytes) (l : loc) : Prop :=
  l = (start cwd p) ++ names p /\ ~ In (bs ".") (comps p) /\ ~ In (bs "..") (comps p) /\ names p <> [] /\
  ~ In 0 p /\ Z.of_nat (length p) < PATH_MAX.
(** The text of a relative location *)
Fixpoint slashed (r : list bytes) : bytes := match r with [] => [] | [n] => n | n :: r => n ++ 47 :: slashed r end.
(** Where a path leads: the entry it names, or the place where it would be made *)
Definition target (a : answer) : option loc := match a with Found l => Some l | Missing d n => Some (d ++ [n]) | Fail _ => None end.
Definition leads (t : fs) (cwd : loc) (follow : bool) (p : bytes) : option loc := target (resolve t cwd follow p).

(** * The files as a user sees them *)
Inductive op := Write (p d : bytes) | Append (p d : bytes) | Read (p : bytes) | Delete (p : bytes) | Exists (p : bytes).
Inductive reply := RBool (b : bool) | RText (d : bytes) | RPanic (code : Z).
Definition store := loc -> option entry.
Definition update (m : store) (l : loc) (e : option entry) : store := fun k => if same_loc k l then e else m k.
(** Each operation on a map from locations to entries; [where_]: where paths lead *)
Definition ideal (where_ : bytes -> option loc) (m : store) (o : op) : reply * store :=
  match o with
  | Write p d => match where_ p with
                 | Some l => match m l with Some EDir => (RPanic 87, m) | _ => (RBool true, update m l (Some (EFile d))) end
                 | None => (RBool false, m)
                 end
  | Append p d => match where_ p with
                  | Some l => match m l with
                              | Some EDir => (RPanic 88, m)
                              | Some (EFile d0) => (RBool true, update m l (Some (EFile (d0 ++ d))))
                              | _ => (RBool true, update m l (Some (EFile d)))
                              end
                  | None => (RBool false, m)
                  end
  | Read p => (match where_ p with
               | Some l => match m l with
                           | Some EDir => RPanic 86
                           | Some (EFile d) => if INT32_MAX <? Z.of_nat (length d) then RPanic 53 else RText d
                           | _ => RText []
                           end
               | None => RText []
               end, m)
  | Delete p => match where_ p with
                | Some l => match m l with
                            | Some EDir => (RPanic 77, m)
                            | Some _ => (RBool true, update m l None)
                            | None => (RBool false, m)
                            end
                | None => (RBool false, m)
                end
  | Exists p => (RBool match where_ p with Some l => match m l with Some _ => true | None => false end | None => false end, m)
  end.
Fixpoint ideals (where_ : bytes -> option loc) (m : store) (os : list op) : list reply * store :=
  match os with [] => ([], m) | o :: os => let '(r, m) := ideal where_ m o in let '(rs, m) := ideals where_ m os in (r :: rs, m) end.
Definition path_of (o : op) : bytes := match o with Write p _ | Append p _ | Read p | Delete p | Exists p => p end.
