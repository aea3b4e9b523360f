(** The files and directories of the io module (grayc/src/stdlib/io.c), over the file
    system of FilesSpec.v.  Not modelled: permissions and modes other than as calls that
    fail, hard links, special files (the streaming branch of read_file), other processes,
    io.glob, the text of error values, the allocation of the strings made. *)
From Verif Require Import Base FilesSpec.

(** A path is handed to the system as a C string *)
Fixpoint cstr (s : bytes) : bytes := match s with [] => [] | c :: r => if c =? 0 then [] else c :: cstr r end.
Definition is_dir (e : option entry) : bool := match e with Some EDir => true | _ => false end.
Section Io.
Context (fault : nat -> option Z) (short : transfer -> nat -> option Z) (early : nat -> nat) (cwd : loc).
Notation sys_stat := (sys_stat fault cwd). Notation open_read := (open_read fault cwd).
Notation open_write := (open_write fault cwd). Notation fread := (fread short).
Notation fwrite := (fwrite short early). Notation fclose := (fclose short).
Notation sys_unlink := (sys_unlink fault cwd). Notation sys_rmdir := (sys_rmdir fault cwd).
Notation sys_mkdir := (sys_mkdir fault cwd). Notation sys_rename := (sys_rename fault cwd).
Notation sys_list := (sys_list fault cwd).
(** io.c:206-229 gray_io_read_file, of a regular file; one larger than a string ends in
    P0053 (231-258: the buffer is doubled from 4096 up to 2^30) *)
Definition read_file (s : st) (path : bytes) : st * res bytes :=
  let p := cstr path in
  let '(s, e) := sys_stat s p in
  if is_dir e then (s, Panic 86) else
  let '(s, f) := open_read s p in
  match f with
  | None => (s, Ok [])
  | Some l => let size := length (data_at (tree s) l) in
              if INT32_MAX <? Z.of_nat size then (s, Panic 53) else
              let '(s, d) := fread s l 0 size in (s, Ok d)
  end.
(** io.c:288-301: from one line on; [p < end] is the length of what is left *)
Fixpoint to_newline (s : bytes) : bytes * bytes :=
  match s with [] => ([], []) | c :: r => if c =? 10 then ([], s) else let '(a, b) := to_newline r in (c :: a, b) end.
Definition drop_cr (s : bytes) : bytes := if last s 0 =? 13 then removelast s else s.
Fixpoint lines_loop (fuel : nat) (s : bytes) : list bytes :=
  match fuel with
  | O => []
  | S fuel => match s with [] => [] | _ => let '(a, b) := to_newline s in drop_cr a :: lines_loop fuel (tl b) end
  end.
Definition lines (s : bytes) : list bytes := lines_loop (length s) s.
(** io.c:279-302 gray_io_read_lines; the check for a directory is made twice *)
Definition read_lines (s : st) (path : bytes) : st * res (list bytes) :=
  let '(s, e) := sys_stat s (cstr path) in
  if is_dir e then (s, Panic 86) else
  let '(s, r) := read_file s path in (s, rmap lines r).
(** io.c:304-318 *)
Definition file_exists (s : st) (path : bytes) : st * bool := sys_access fault cwd s (cstr path).
Definition is_file (s : st) (path : bytes) : st * bool :=
  let '(s, e) := sys_stat s (cstr path) in (s, match e with Some (EFile _) => true | _ => false end).
Definition is_directory (s : st) (path : bytes) : st * bool := let '(s, e) := sys_stat s (cstr path) in (s, is_dir e).
(** io.c:334-343 and 345-354 (the same with fopen in append mode); 356-376
    gray_io_write_bytes and gray_io_append_bytes are these with the bytes of an array.
    The code of the panic: P0087 or P0088 *)
Definition put_file (trunc : bool) (s : st) (path content : bytes) : st * res bool :=
  let p := cstr path in
  let '(s, e) := sys_stat s p in
  if is_dir e then (s, Panic (if trunc then 87 else 88)) else
  let '(s, f) := open_write s trunc p in
  match f with
  | None => (s, Ok false)
  | Some l => let '(s, pending, written) := fwrite s l [] content in
              let s := fclose s l pending in
              (s, Ok (Nat.eqb written (length content)))
  end.
Definition write_file := put_file true.
Definition append_file := put_file false.
(** io.c:619-639 gray_io_write_file_result: whether there was no error *)
Definition write_file_result (s : st) (path content : bytes) : st * bool :=
  let p := cstr path in
  let '(s, e) := sys_stat s p in
  if is_dir e then (s, false) else
  let '(s, f) := open_write s true p in
  match f with
  | None => (s, false)
  | Some l => let '(s, pending, _) := fwrite s l [] content in (fclose s l pending, true)
  end.
(** io.c:394-399 *)
Definition delete_file (s : st) (path : bytes) : st * res bool :=
  let p := cstr path in
  let '(s, e) := sys_stat s p in
  if is_dir e then (s, Panic 77) else
  let '(s, ok) := sys_unlink s p in (s, Ok ok).
(** io.c:401-403 *)
Definition rename_file (s : st) (old_path new_path : bytes) : st * bool := sys_rename s (cstr old_path) (cstr new_path).
(** io.c:407-426 gray_io_copy_file; open and fdopen are one call *)
Definition COPY_BUF : nat := Z.to_nat 8192.
Fixpoint copy_loop (fuel : nat) (s : st) (src : loc) (pos : nat) (dst : loc) (pending : bytes) : st * bytes * res bool :=
  match fuel with
  | O => (s, pending, NoFuel)
  | S fuel =>
      let '(s, d) := fread s src pos COPY_BUF in
      match d with
      | [] => (s, pending, Ok true)
      | _ => let '(s, pending, n) := fwrite s dst pending d in
             if Nat.eqb n (length d) then copy_loop fuel s src (pos + length d) dst pending else (s, pending, Ok false)
      end
  end.
Definition copy_file (s : st) (src dst : bytes) : st * res bool :=
  let '(s, e) := sys_stat s (cstr src) in
  if is_dir e then (s, Panic 89) else
  let '(s, i) := open_read s (cstr src) in
  match i with
  | None => (s, Ok false)
  | Some i =>
      let '(s, o) := open_write s true (cstr dst) in
      match o with
      | None => (s, Ok false)
      | Some o => let '(s, pending, ok) := copy_loop (S (length (data_at (tree s) i))) s i 0 o [] in (fclose s o pending, ok)
      end
  end.
(** io.c:428-433 gray_io_move_file *)
Definition move_file (s : st) (src dst : bytes) : st * res bool :=
  let '(s, ok) := sys_rename s (cstr src) (cstr dst) in
  if ok then (s, Ok true) else
  let '(s, c) := copy_file s src dst in
  match c with
  | Ok true => let '(s, _) := sys_unlink s (cstr src) in (s, Ok true)
  | _ => (s, c)
  end.
(** io.c:437-449 gray_io_list_dir *)
Definition list_dir (s : st) (path : bytes) : st * list bytes :=
  let '(s, ns) := sys_list s (cstr path) in
  (s, match ns with Some ns => filter (fun n => negb (same n (bs ".") || same n (bs ".."))) ns | None => [] end).
(** io.c:451-453, 471-473 *)
Definition make_dir (s : st) (path : bytes) : st * bool := let '(s, e) := sys_mkdir s (cstr path) in (s, e =? 0).
Definition remove_dir (s : st) (path : bytes) : st * bool := sys_rmdir s (cstr path).
(** io.c:455-469 gray_io_make_dir_all; [done]: the text before p, backwards *)
Fixpoint make_dirs (s : st) (done rest : bytes) : st * bytes :=
  match rest with
  | [] => (s, rev done)
  | c :: r =>
      if c =? 0 then (s, rev done)
      else if (c =? 47) || (c =? 92) then let '(s, _) := sys_mkdir s (cstr (rev done)) in make_dirs s (47 :: done) r
      else make_dirs s (c :: done) r
  end.
Definition make_dir_all (s : st) (path : bytes) : st * bool :=
  match path with
  | [] => (s, false)
  | c :: r =>
      if PATH_MAX <=? Z.of_nat (length path) then (s, false)
      else let '(s, p) := make_dirs s [c] r in
           let '(s, e) := sys_mkdir s (cstr p) in
           (s, (e =? 0) || (e =? EEXIST))
  end.
(** snprintf into a buffer of GRAY_IO_PATH_BUF bytes *)
Definition PATH_BUF : nat := Z.to_nat 4095.
Definition child_path (p n : bytes) : bytes := firstn PATH_BUF (p ++ 47 :: n).
(** io.c:475-495 remove_dir_recursive.  Simplified: the names are read at once, before
    the first of them is removed *)
Section Each.
Context (recurse : st -> bytes -> st * res bool).
Fixpoint remove_each (s : st) (path : bytes) (ns : list bytes) (ok : bool) : st * res bool :=
  match ns with
  | [] => (s, Ok ok)
  | n :: ns =>
      if same n (bs ".") || same n (bs "..") then remove_each s path ns ok else
      let child := child_path path n in
      let '(s, e) := sys_stat s child in
      match e with
      | None => remove_each s path ns false
      | Some EDir => let '(s, r) := recurse s child in
                     match r with Ok b => remove_each s path ns (ok && b) | _ => (s, r) end
      | Some _ => let '(s, b) := sys_unlink s child in remove_each s path ns (ok && b)
      end
  end.
End Each.
Fixpoint remove_recursive (fuel : nat) (s : st) (path : bytes) : st * res bool :=
  match fuel with
  | O => (s, NoFuel)
  | S fuel =>
      let '(s, ns) := sys_list s path in
      match ns with
      | None => (s, Ok false)
      | Some ns => let '(s, r) := remove_each (remove_recursive fuel) s path ns true in
                   match r with
                   | Ok ok => let '(s, b) := sys_rmdir s path in (s, Ok (ok && b))
                   | _ => (s, r)
                   end
      end
  end.
(** io.c:497-499 *)
Definition remove_dir_all (fuel : nat) (s : st) (path : bytes) : st * res bool := remove_recursive fuel s (cstr path).
(** io.c:501-528 walk_recursive and 530-534 gray_io_walk *)
Section Walk.
Context (recurse : st -> bytes -> list bytes -> st * res (list bytes)).
Fixpoint walk_each (s : st) (full rel : bytes) (ns out : list bytes) : st * res (list bytes) :=
  match ns with
  | [] => (s, Ok out)
  | n :: ns =>
      if same n (bs ".") || same n (bs "..") then walk_each s full rel ns out else
      let child_rel := match rel with [] => n | _ => rel ++ 47 :: n end in
      let out := out ++ [child_rel] in
      let '(s, e) := sys_stat s (child_path full n) in
      if is_dir e then
        let '(s, r) := recurse s child_rel out in
        match r with Ok out => walk_each s full rel ns out | _ => (s, r) end
      else walk_each s full rel ns out
  end.
End Walk.
Fixpoint walk_recursive (fuel : nat) (base : bytes) (s : st) (rel : bytes) (out : list bytes) : st * res (list bytes) :=
  match fuel with
  | O => (s, NoFuel)
  | S fuel =>
      let full := match rel with [] => firstn PATH_BUF base | _ => child_path base rel end in
      let '(s, ns) := sys_list s full in
      match ns with None => (s, Ok out) | Some ns => walk_each (walk_recursive fuel base) s full rel ns out end
  end.
Definition walk (fuel : nat) (s : st) (path : bytes) : st * res (list bytes) := walk_recursive fuel (cstr path) s [] [].
(** io.c:37-67: the temporary paths that are removed at exit; io.c:378-392
    gray_io_temp_file and gray_io_temp_dir with the name that mkstemp and mkdtemp chose *)
Definition MAX_TEMP : nat := Z.to_nat 256.
Definition registry_add (reg : list bytes) (p : bytes) : list bytes := if Nat.ltb (length reg) MAX_TEMP then reg ++ [p] else reg.
Definition temp_file (s : st) (reg : list bytes) (name : bytes) : st * list bytes * bytes :=
  let '(s, f) := open_write s true name in match f with None => (s, reg, []) | Some _ => (s, registry_add reg name, name) end.
Definition temp_dir (s : st) (reg : list bytes) (name : bytes) : st * list bytes * bytes :=
  let '(s, e) := sys_mkdir s name in if e =? 0 then (s, registry_add reg name, name) else (s, reg, []).
Fixpoint temp_cleanup (fuel : nat) (s : st) (reg : list bytes) : st * res unit :=
  match reg with
  | [] => (s, Ok tt)
  | p :: reg =>
      let '(s, e) := sys_stat s p in
      match e with
      | None => temp_cleanup fuel s reg
      | Some EDir => let '(s, r) := remove_recursive fuel s p in
                     match r with Ok _ => temp_cleanup fuel s reg | Panic c => (s, Panic c) | UB => (s, UB) | NoFuel => (s, NoFuel) end
      | Some _ => let '(s, _) := sys_unlink s p in temp_cleanup fuel s reg
      end
  end.
End Io.
