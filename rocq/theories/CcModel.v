(** The command line for the C compiler (main.c:1545-1562, 1640-1707, 1752-1760)
    when libgrayrt.a is found, without the redirection at its end.  The file
    system is not modelled: archive tells where the archive was found, None
    beside the runtime, Some d in the directory d of the compiler itself. *)
From Verif Require Import Base CcSpec.

Section Cc.
(** PATH_BUF_SIZE and CMD_BUF_SIZE (main.c:38-39) *)
Context (path_buf cmd_buf : Z).
(** strchr(s, '\'') (main.c:1640-1660) *)
Definition has_quote (s : bytes) : bool := existsb (Z.eqb 39) s.
(** snprintf into a buffer of n bytes *)
Definition cut (n : Z) (s : bytes) : bytes := firstn (Z.to_nat (n - 1)) s.
(** The text after the last slash (main.c:1557-1558) *)
Fixpoint base (s : bytes) : bytes := match s with [] => [] | c :: t => if existsb (Z.eqb 47) s then base t else s end.
(** main.c:1559-1562 *)
Definition c_file (out : bytes) : bytes := cut path_buf (bs "/tmp/gray_" ++ base out ++ bs ".c").
(** main.c:1670-1686 *)
Definition lib_path (runtime : bytes) (archive : option bytes) : bytes :=
  match archive with None => cut path_buf (runtime ++ bs "/../libgrayrt.a") | Some d => cut path_buf (d ++ bs "/libgrayrt.a") end.
(** A path in single quotes, as in the formats of main.c:1699-1704 *)
Definition quote (s : bytes) : bytes := [39] ++ s ++ [39].
(** main.c:1688-1707 *)
Definition command (debug : bool) (level : Z) (runtime out : bytes) (archive : option bytes) : bytes :=
  bs "cc -std=c11 " ++ (if debug then bs "-g " else []) ++ bs "-O" ++ [48 + level] ++
  bs " -Wall -Wno-unused-function -Wno-unused-variable -Wno-unused-but-set-variable -Wno-tautological-compare -Wno-infinite-recursion -isystem " ++
  quote runtime ++ bs "/runtime -isystem " ++ quote runtime ++ bs "/stdlib -o " ++ quote out ++ bs " " ++ quote (c_file out) ++ bs " " ++ quote (lib_path runtime archive) ++
  bs " -lm -lpthread -Wl,-w".
(** main.c:1640-1660, 1752-1760.  None: an error is reported and nothing is run.  5 bytes more for the redirection *)
Definition compile (debug : bool) (level : Z) (runtime out : bytes) (archive : option bytes) : option bytes :=
  if has_quote runtime then None
  else if has_quote out then None
  else if cmd_buf - 1 <=? Z.of_nat (length (command debug level runtime out archive)) + 5 then None
  else Some (command debug level runtime out archive).
End Cc.
