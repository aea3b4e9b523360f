(** Model of the import set and the import loop of the compiler,
    grayc/src/main.c:534-618 and 835-1286: which files are read for a program.
    Simplified: paths are the bytes of NUL-free C strings; the file system is a
    record of functions that do not change during the run; reading and parsing a
    file gives its import statements or an error; merging the declarations
    (main.c:1287-1560) is left out, so are the texts and places of diagnostics,
    of which only the codes are kept. *)
From Verif Require Import Base LexModel MapModel ProbeModel.

(** main.c:38-43 and util/constants.h:14 *)
Definition PATH_BUF_SIZE : Z := 2048.
Definition MAX_IMPORTS : Z := 256.
Definition MAX_DIR_FILES : Z := 256.
Definition MSG_BUF_SIZE : Z := 256.
Definition GRAY_EXT : bytes := bs ".gray".
(** [snprintf(buf, size, ...)] or [strncpy] with a terminator put last *)
Definition buf (size : Z) (s : bytes) : bytes := firstn (Z.to_nat (size - 1)) s.
Definition eqs (a b : bytes) : bool := strcmp a b =? 0.

(** main.c:544-550; the table is the C array, with null paths as [None] *)
Notation ientry := (bytes * option bytes)%type.
Record iset := ISet { itable : list (option ientry); icount : Z }.
Definition no_imports : iset := ISet (repeat None (Z.to_nat (MAX_IMPORTS * 2))) 0.
(** main.c:552-556 *)
Definition import_path_hash (s : bytes) : Z := fold_left (fun h c => wrap_u 32 (Z.lxor h c * 16777619)) s 2166136261.
Definition at_path (path : bytes) (e : ientry) : bool := eqs (fst e) path.
(** main.c:558-564 *)
Definition already_imported (s : iset) (path : bytes) : res bool :=
  match probe_from (at_path path) (itable s) (import_path_hash path) with
  | None => NoFuel
  | Some h => Ok (match slot (itable s) h with None => false | Some _ => true end)
  end.
(** main.c:566-572 *)
Definition imported_by_module (s : iset) (path : bytes) : res (option bytes) :=
  match probe_from (at_path path) (itable s) (import_path_hash path) with
  | None => NoFuel
  | Some h => Ok (match slot (itable s) h with None => None | Some e => snd e end)
  end.
(** main.c:574-587 *)
Definition mark_imported_with_module (s : iset) (path : bytes) (m : option bytes) : res iset :=
  if MAX_IMPORTS <=? icount s then Ok s else
  match probe_from (at_path path) (itable s) (import_path_hash path) with
  | None => NoFuel
  | Some h => Ok (match slot (itable s) h with None => ISet (put (itable s) h (path, m)) (icount s + 1) | Some _ => s end)
  end.

(** parser/ast.h:99-111: an item of an import statement; [std] for a standard
    library or C import *)
Record item := Item { std : bool; alias : option bytes; ipath : option bytes; source_dir : option bytes }.
(** What reading and parsing a file gives: nothing, an error, or statements. *)
Inductive parsed := Unreadable | Broken | Program (imports : list (list item)).
(** realpath(3), stat(2), readdir(3) and the files. *)
Record world := World { realpath : bytes -> option bytes; is_reg : bytes -> bool; is_dir : bytes -> bool;
  readdir : bytes -> option (list bytes); load : bytes -> parsed }.
(** A file taken by the loop: its canonical path, the path it is read from and
    the path of the import. *)
Record taken := Taken { canon : bytes; file : bytes; origin : bytes }.
(** The variables of the loop: [queue] is import_queue[0..iq_tail). *)
Record st := St { imported : iset; seen : list (bytes * bytes); queue : list (list item); log : list taken; diags : list bytes }.
Definition has_errors (s : st) : bool := existsb (fun c => hd 0 c =? 69) (diags s).
Definition report (s : st) (code : bytes) : st := St (imported s) (seen s) (queue s) (log s) (diags s ++ [code]).

(** [strcmp(s + len - 5, ".gray") == 0] with [len >= 5] *)
Definition has_ext (s : bytes) : bool := (5 <=? Z.of_nat (length s)) && eqs (skipn (length s - 5) s) GRAY_EXT.
(** [strrchr(s, '/')]: the index of the last slash *)
Fixpoint last_slash (s : bytes) : option nat :=
  match s with
  | [] => None
  | c :: r => match last_slash r with Some i => Some (S i) | None => if c =? 47 then Some O else None end
  end.
(** main.c:859-865 and 1151-1156: the directory of a file, with its slash *)
Definition dir_of (path : bytes) : bytes :=
  let b := buf PATH_BUF_SIZE path in
  match last_slash b with Some i => firstn (S i) b | None => bs "./" end.
Definition strip_dot (p : bytes) : bytes := if (hd 0 p =? 46) && (hd 0 (tl p) =? 47) then skipn 2 p else p.
(** main.c:911-912 *)
Definition import_path_of (input_dir : bytes) (it : item) (rel : bytes) : bytes :=
  buf PATH_BUF_SIZE ((match source_dir it with Some d => d | None => input_dir end) ++ rel).

(** qsort with [gray_path_cmp], main.c:596-598 and 616 *)
Fixpoint insert_path (x : bytes) (l : list bytes) : list bytes :=
  match l with [] => [x] | y :: r => if strcmp x y <=? 0 then x :: l else y :: insert_path x r end.
Definition sort_paths (l : list bytes) : list bytes := fold_right insert_path [] l.
(** main.c:600-618: [None] when the directory cannot be opened *)
Definition scan_gray_files (w : world) (dir : bytes) : option (list bytes) :=
  option_map (fun names =>
    sort_paths (map (fun n => buf PATH_BUF_SIZE (dir ++ [47] ++ n))
      (firstn (Z.to_nat MAX_DIR_FILES) (filter (fun n => negb (hd 0 n =? 46) && (6 <=? Z.of_nat (length n)) && has_ext n) names))))
    (readdir w dir).
(** main.c:914-975: an error code, or the path of the import and its files *)
Definition resolve (w : world) (input_dir : bytes) (it : item) (rel : bytes) : bytes + bytes * list bytes :=
  let ip := import_path_of input_dir it rel in
  if has_ext ip then inr (ip, [ip]) else
  let try := buf PATH_BUF_SIZE (ip ++ GRAY_EXT) in
  if is_reg w try then inr (try, [try]) else
  if is_dir w ip then
    if match source_dir it with
       | Some d => match realpath w ip, realpath w d with Some a, Some b => eqs a b | _, _ => false end
       | None => false
       end
    then inl (bs "E6004")
    else match scan_gray_files w ip with
         | None => inr (ip, [])
         | Some [] => inl (bs "E6003")
         | Some files => inr (ip, files)
         end
  else inl (bs "E6002").
(** main.c:977-1006; writing past the end of a buffer is undefined *)
Definition module_name (rel : bytes) : res bytes :=
  let mod_base := match last_slash rel with Some i => skipn (S i) rel | None => rel end in
  rbind (match mod_base, last_slash rel with
         | [], Some (S i) =>
             let prev := firstn (S i) rel in
             let name := match last_slash prev with Some j => skipn (S j) prev | None => prev end in
             if MSG_BUF_SIZE <=? Z.of_nat (length name) then UB else Ok name
         | _, _ => Ok mod_base
         end) (fun b =>
  if (5 <? Z.of_nat (length b)) && has_ext b then
    if MSG_BUF_SIZE <=? Z.of_nat (length b) - 5 then UB else Ok (firstn (length b - 5) b)
  else Ok (buf MSG_BUF_SIZE b)).
Definition canonical (w : world) (path : bytes) : bytes := match realpath w path with Some r => r | None => path end.

(** main.c:1172-1205: an item of an imported file that names a file of the
    directory being imported *)
Definition sibling (w : world) (ip src_dir : bytes) (path : bytes) : bool :=
  let tres := buf PATH_BUF_SIZE (src_dir ++ strip_dot path) in
  let check := if has_ext tres then tres else buf PATH_BUF_SIZE (tres ++ GRAY_EXT) in
  match realpath w check, realpath w ip with
  | Some a, Some d =>
      match last_slash a with
      | Some i =>
          let dlen := if (0 <? length d)%nat && (last d 0 =? 47) then (length d - 1)%nat else length d in
          (i =? dlen)%nat && eqs (firstn i a) (firstn i d)
      | None => false
      end
  | _, _ => false
  end.
(** main.c:1163-1247: an item after the loop, and whether it keeps the statement *)
Definition inject_item (w : world) (ip src_dir : bytes) (it : item) : item * bool :=
  if std it then (it, true) else
  match ipath it with
  | None => (it, false)
  | Some p =>
      if sibling w ip src_dir p then (Item (std it) (alias it) None (source_dir it), false)
      else (Item (std it) (alias it) (ipath it) (match source_dir it with None => Some src_dir | d => d end), true)
  end.
(** main.c:1158-1263 for one statement *)
Definition inject (w : world) (ip src_dir : bytes) (s : st) (ts : list item) : st :=
  let r := map (inject_item w ip src_dir) ts in
  if existsb snd r && (Z.of_nat (length (queue s)) <? MAX_IMPORTS) then
    St (imported s) (seen s) (queue s ++ [map fst r]) (log s) (diags s)
  else s.
(** main.c:1088-1286: one file *)
Definition take_file (w : world) (it : item) (ip mod_name : bytes) (single : bool) (s : st) (cur : bytes) : res st :=
  let norm := canonical w cur in
  rbind (already_imported (imported s) norm) (fun dup =>
  if dup then
    Ok (if single then report s (match source_dir it with Some _ => bs "W2014" | None => bs "W2015" end) else s)
  else
    rbind (mark_imported_with_module (imported s) norm (Some mod_name)) (fun set =>
    let s := St set (seen s) (queue s) (log s ++ [Taken norm cur ip]) (diags s) in
    Ok (match load w cur with
        | Unreadable => report s (bs "E6002")
        | Broken => report s (bs "E2000")
        | Program imports => if has_errors s then s else fold_left (inject w ip (dir_of cur)) imports s
        end))).
(** main.c:897-1286: one item *)
Definition take_item (w : world) (input_dir : bytes) (s : st) (it : item) : res st :=
  if std it then Ok s else
  match ipath it with
  | None => Ok s
  | Some p =>
      let rel := strip_dot p in
      match resolve w input_dir it rel with
      | inl code => Ok (report s code)
      | inr (ip, files) =>
          rbind (module_name rel) (fun m =>
          let mod_name := match alias it with Some a => a | None => m end in
          let norm_import := buf PATH_BUF_SIZE (canonical w ip) in
          match find (fun e => eqs (fst e) mod_name) (seen s) with
          | Some e =>
              Ok (if eqs (snd e) norm_import then match source_dir it with None => report s (bs "W2013") | Some _ => s end
                  else report s (bs "E6001"))
          | None =>
              let sn := if Z.of_nat (length (seen s)) <? MAX_IMPORTS then seen s ++ [(mod_name, norm_import)] else seen s in
              fold_left (fun r f => rbind r (fun s => take_file w it ip mod_name (length files =? 1)%nat s f)) files
                (Ok (St (imported s) sn (queue s) (log s) (diags s)))
          end)
      end
  end.
(** main.c:894-898: the statement at [head] *)
Definition take_stmt (w : world) (input_dir : bytes) (s : st) (ts : list item) : res st :=
  fold_left (fun r it => rbind r (fun s => take_item w input_dir s it)) ts (Ok s).
(** main.c:894: [while (iq_head < iq_tail)] *)
Fixpoint drain (fuel : nat) (w : world) (input_dir : bytes) (head : nat) (s : st) : res st :=
  match nth_error (queue s) head with
  | None => Ok s
  | Some ts => match fuel with O => NoFuel | S fuel => rbind (take_stmt w input_dir s ts) (drain fuel w input_dir (S head)) end
  end.
(** main.c:835-893: the import statements of the main file *)
Definition imports (w : world) (input_file : bytes) (stmts : list (list item)) : res st :=
  rbind (mark_imported_with_module no_imports (canonical w input_file) None) (fun set =>
  drain (Z.to_nat MAX_IMPORTS) w (dir_of input_file) 0 (St set [] (firstn (Z.to_nat MAX_IMPORTS) stmts) [] [])).
