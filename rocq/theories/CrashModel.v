(** Model of the steps that replace the binary (cli/update.go:1044-1137 doInstall, 1282-1297 copyFile) and of the
    extraction of the embedded runtime (internal/grayc/embedded.go:128-144 writeIfMissing), as machines that can stop
    after every system call.  A state that can be reached is a possible crash point. *)
From Verif Require Import Base.

(** A file: its bytes and whether it may be executed. *)
Record file := File { content : bytes; runnable : bool }.
(** What is at execPath and at execPath.backup (distinct names); the temporary directory is not part of the state *)
Record disk := Disk { at_exec : option file; at_backup : option file }.
(** Where doInstall stands; Copying carries the bytes io.Copy has not written yet *)
Inductive pc :=
| Fetching                     (* update.go:1045-1103: trust check, download, extraction, chmod in the temporary directory *)
| BackingUp                    (* 1106-1109 os.Rename(execPath, backupPath) *)
| Opening                      (* 1283-1292 os.Open(src), os.Create(dst) *)
| Copying (todo : bytes)       (* 1295 io.Copy *)
| Restoring                    (* 1114, 1122 os.Rename(backupPath, execPath), result ignored *)
| Marking                      (* 1119 os.Chmod(execPath, 0755) *)
| Discarding                   (* 1121 os.Remove(execPath) *)
| Cleaning                     (* 1127 os.Remove(backupPath), result ignored *)
| Returned (ok : bool).
(** faults counts the system calls that failed so far (ghost) *)
Record state := State { where_ : pc; on : disk; faults : nat }.
Inductive step (new : bytes) : state -> state -> Prop :=
| s_fetch d n : step new (State Fetching d n) (State BackingUp d n)
| s_fetch_f d n : step new (State Fetching d n) (State (Returned false) d (S n))
| s_backup f b n : step new (State BackingUp (Disk (Some f) b) n) (State Opening (Disk None (Some f)) n)
| s_backup_f d n : step new (State BackingUp d n) (State (Returned false) d (S n))
| s_open e b n : step new (State Opening (Disk e b) n)
    (State (Copying new) (Disk (Some (File [] match e with Some f => runnable f | None => false end)) b) n)
| s_open_f d n : step new (State Opening d n) (State Restoring d (S n))
| s_copy c r b n x y : step new (State (Copying (x ++ y)) (Disk (Some (File c r)) b) n) (State (Copying y) (Disk (Some (File (c ++ x) r)) b) n)
| s_copy_f t d n : step new (State (Copying t) d n) (State Restoring d (S n))
| s_copied d n : step new (State (Copying []) d n) (State Marking d n)
| s_restore e f n : step new (State Restoring (Disk e (Some f)) n) (State (Returned false) (Disk (Some f) None) n)
| s_restore_f d n : step new (State Restoring d n) (State (Returned false) d (S n))
| s_mark f b n : step new (State Marking (Disk (Some f) b) n) (State Cleaning (Disk (Some (File (content f) true)) b) n)
| s_mark_f d n : step new (State Marking d n) (State Discarding d (S n))
| s_discard e b n : step new (State Discarding (Disk e b) n) (State Restoring (Disk None b) n)
| s_discard_f d n : step new (State Discarding d n) (State Restoring d (S n))
| s_clean e b n : step new (State Cleaning (Disk e b) n) (State (Returned true) (Disk e None) n)
| s_clean_f d n : step new (State Cleaning d n) (State (Returned true) d (S n)).
Inductive reach (new : bytes) (s : state) : state -> Prop :=
| reach_here : reach new s s
| reach_step t u : reach new s t -> step new t u -> reach new s u.

(** Power failure, as file systems that only order metadata behave: the names are as the calls left them, but of a file
    that was never synced an arbitrary prefix survives.  doInstall calls no Sync; only the old binary is on the disk. *)
Definition survives (old : bytes) (f g : option file) : Prop :=
  match f with
  | None => g = None
  | Some f => if list_eq_dec Z.eq_dec (content f) old then g = Some f else exists k, g = Some (File (firstn k (content f)) (runnable f))
  end.
Definition power_failure (old : bytes) (d d' : disk) : Prop := survives old (at_exec d) (at_exec d') /\ survives old (at_backup d) (at_backup d').

(** embedded.go:128-144 writeIfMissing, run by any number of processes on one path.  Files are inodes. *)
Inductive wpc :=
| Before                       (* 129 os.Stat *)
| OpenTmp                      (* 133 os.WriteFile: open(path.tmp, O_WRONLY|O_CREATE|O_TRUNC) *)
| Writing (i off : nat)        (* 133 os.WriteFile: write at the descriptor's offset *)
| Renaming                     (* 136 os.Rename(tmp, path) *)
| Unlinking                    (* 137 os.Remove(tmp) *)
| Finished (ok : bool)
| Dead.
Record world := World { inode : nat -> bytes; next : nat; tmp : option nat; path : option nat; proc : nat -> wpc }.
Definition upd {A} (f : nat -> A) (i : nat) (a : A) : nat -> A := fun j => if Nat.eqb j i then a else f j.
(** write(2) of x at offset off: a hole reads as zeros *)
Definition write_at (off : nat) (x c : bytes) : bytes :=
  firstn off (c ++ List.repeat 0 (off - length c)) ++ x ++ skipn (off + length x) c.
Inductive wstep (data : bytes) (p : nat) (w : world) : world -> Prop :=
| w_present i : proc w p = Before -> path w = Some i -> length (inode w i) = length data ->
    wstep data p w (World (inode w) (next w) (tmp w) (path w) (upd (proc w) p (Finished true)))
| w_absent : proc w p = Before -> (forall i, path w = Some i -> length (inode w i) <> length data) ->
    wstep data p w (World (inode w) (next w) (tmp w) (path w) (upd (proc w) p OpenTmp))
| w_open_new : proc w p = OpenTmp -> tmp w = None ->
    wstep data p w (World (upd (inode w) (next w) []) (S (next w)) (Some (next w)) (path w) (upd (proc w) p (Writing (next w) 0)))
| w_open_old i : proc w p = OpenTmp -> tmp w = Some i ->
    wstep data p w (World (upd (inode w) i []) (next w) (tmp w) (path w) (upd (proc w) p (Writing i 0)))
| w_write i off x y : proc w p = Writing i off -> skipn off data = x ++ y ->
    wstep data p w (World (upd (inode w) i (write_at off x (inode w i))) (next w) (tmp w) (path w) (upd (proc w) p (Writing i (off + length x))))
| w_written i off : proc w p = Writing i off -> (length data <= off)%nat ->
    wstep data p w (World (inode w) (next w) (tmp w) (path w) (upd (proc w) p Renaming))
| w_rename i : proc w p = Renaming -> tmp w = Some i ->
    wstep data p w (World (inode w) (next w) None (Some i) (upd (proc w) p (Finished true)))
| w_rename_f : proc w p = Renaming ->
    wstep data p w (World (inode w) (next w) (tmp w) (path w) (upd (proc w) p Unlinking))
| w_unlink t : proc w p = Unlinking -> (t = None \/ t = tmp w) ->
    wstep data p w (World (inode w) (next w) t (path w) (upd (proc w) p (Finished false)))
| w_error : (proc w p = OpenTmp \/ exists i off, proc w p = Writing i off) ->
    wstep data p w (World (inode w) (next w) (tmp w) (path w) (upd (proc w) p (Finished false)))
| w_crash : wstep data p w (World (inode w) (next w) (tmp w) (path w) (upd (proc w) p Dead)).
(** p is the only process inside the function *)
Definition busy (s : wpc) : Prop := match s with OpenTmp | Writing _ _ | Renaming | Unlinking => True | _ => False end.
Definition alone (p : nat) (w : world) : Prop := forall q, q <> p -> ~ busy (proc w q).
(** all schedules, and those in which no two processes are inside the function at the same time *)
Inductive wreach (data : bytes) (w : world) : world -> Prop :=
| wreach_here : wreach data w w
| wreach_step u v p : wreach data w u -> wstep data p u v -> wreach data w v.
Inductive wreach_seq (data : bytes) (w : world) : world -> Prop :=
| wseq_here : wreach_seq data w w
| wseq_step u v p : wreach_seq data w u -> alone p u -> wstep data p u v -> wreach_seq data w v.
