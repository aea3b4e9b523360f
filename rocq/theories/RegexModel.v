(** Model of grayc/src/stdlib/regex.c.  regcomp and regexec are arguments: [compile p] is the compiled pattern or an error,
    [exec r s] the offsets rm_so and rm_eo in the string s or no match.  A C string is the bytes before its NUL.  Writing
    behind the result buffer and reading behind the text buffer is undefined.  Simplified: bytes of txt_buf behind the copied
    text (never written, regex.c:85) count as outside; int is unbounded, no value here exceeds 32768. *)
From Verif Require Import Base.

(** regex.c:16-18 *)
Definition PAT_BUF : Z := 4096.
Definition TXT_BUF : Z := 8192.
Definition RESULT_BUF : Z := 16384.
(** The C string in a buffer that starts with these bytes *)
Fixpoint c_string (l : bytes) : bytes := match l with [] => [] | b :: l => if b =? 0 then [] else b :: c_string l end.
(** regex.c:33-38: what is copied; a NUL follows *)
Definition to_cstr (s : bytes) (size : Z) : bytes := firstn (Z.to_nat (size - 1)) s.

Section Libc.
Context {re : Type} (compile : bytes -> option re) (exec : re -> bytes -> option (nat * nat)).
(** regex.c:22-30 *)
Definition compile_pattern (pattern : bytes) : option re := compile (c_string (firstn (Z.to_nat (PAT_BUF - 1)) pattern)).
(** regex.c:40-45 *)
Definition is_valid (pattern : bytes) : bool := match compile_pattern pattern with None => false | Some _ => true end.
(** regex.c:47-57 *)
Definition match_ (pattern text : bytes) : bool :=
  match compile_pattern pattern with
  | None => false
  | Some r => match exec r (c_string (to_cstr text TXT_BUF)) with Some _ => true | None => false end
  end.
(** regex.c:59-78 *)
Definition find (pattern text : bytes) : bytes :=
  match compile_pattern pattern with
  | None => []
  | Some r =>
      let txt := to_cstr text TXT_BUF in
      match exec r (c_string txt) with None => [] | Some (so, eo) => firstn (eo - so) (skipn so txt) end
  end.
(** regex.c:91-101; [buf] are the bytes before the final NUL of txt_buf, [len] is text.len *)
Fixpoint find_loop (fuel : nat) (r : re) (buf : bytes) (len cursor : nat) (arr : list bytes) : res (list bytes) :=
  match fuel with
  | O => NoFuel
  | S fuel =>
      if (length buf <? cursor)%nat then UB else
      match exec r (c_string (skipn cursor buf)) with
      | None => Ok arr
      | Some (so, eo) =>
          let arr := arr ++ [firstn (eo - so) (skipn (cursor + so) buf)] in
          let cursor := (cursor + eo)%nat in
          if (eo =? 0)%nat then (if (len <=? cursor)%nat then Ok arr else find_loop fuel r buf len (S cursor) arr)
          else find_loop fuel r buf len cursor arr
      end
  end.
(** regex.c:80-105 *)
Definition find_all (pattern text : bytes) : res (list bytes) :=
  match compile_pattern pattern with
  | None => Ok []
  | Some r => let buf := to_cstr text TXT_BUF in find_loop (S (S (length buf))) r buf (length text) 0 []
  end.
(** memcpy to the end of what has been written to the result buffer *)
Definition put (result s : bytes) : res bytes := if Z.of_nat (length result + length s) <=? RESULT_BUF then Ok (result ++ s) else UB.
(** regex.c:125-147; [s] is the C string at the cursor *)
Fixpoint replace_loop (fuel : nat) (r : re) (repl s result : bytes) : res bytes :=
  match fuel with
  | O => NoFuel
  | S fuel =>
      match exec r s with
      | None => put result s
      | Some (so, eo) =>
          if negb (Z.of_nat (length result) <? RESULT_BUF - PAT_BUF) then put result s else
          rbind (put result (firstn so s)) (fun result =>
          rbind (put result repl) (fun result =>
          if (eo =? 0)%nat then
            match s with
            | [] => put result s
            | c :: s => rbind (put result [c]) (fun result => replace_loop fuel r repl s result)
            end
          else replace_loop fuel r repl (skipn eo s) result))
      end
  end.
(** regex.c:107-151 *)
Definition replace (pattern text replacement : bytes) : res bytes :=
  match compile_pattern pattern with
  | None => Ok text
  | Some r =>
      let s := c_string (to_cstr text TXT_BUF) in
      replace_loop (S (length s)) r (c_string (to_cstr replacement PAT_BUF)) s []
  end.
(** regex.c:168-184 *)
Fixpoint split_loop (fuel : nat) (r : re) (s : bytes) (arr : list bytes) : res (list bytes) :=
  match fuel with
  | O => NoFuel
  | S fuel =>
      match exec r s with
      | None => Ok (arr ++ [s])
      | Some (so, eo) =>
          let arr := arr ++ [firstn so s] in
          if (eo =? 0)%nat then match s with [] => Ok (arr ++ [s]) | _ :: s => split_loop fuel r s arr end
          else split_loop fuel r (skipn eo s) arr
      end
  end.
(** regex.c:153-188 *)
Definition split (pattern text : bytes) : res (list bytes) :=
  match compile_pattern pattern with
  | None => Ok [text]
  | Some r => let s := c_string (to_cstr text TXT_BUF) in split_loop (S (length s)) r s []
  end.
(** regex.c:192-250: the value and whether there is an error *)
Definition find_result (pattern text : bytes) : bytes * bool :=
  match compile_pattern pattern with None => ([], true) | Some _ => (find pattern text, false) end.
Definition find_all_result (pattern text : bytes) : res (list bytes * bool) :=
  match compile_pattern pattern with None => Ok ([], true) | Some _ => rmap (fun l => (l, false)) (find_all pattern text) end.
Definition replace_result (pattern text replacement : bytes) : res (bytes * bool) :=
  match compile_pattern pattern with None => Ok (text, true) | Some _ => rmap (fun l => (l, false)) (replace pattern text replacement) end.
Definition split_result (pattern text : bytes) : res (list bytes * bool) :=
  match compile_pattern pattern with None => Ok ([], true) | Some _ => rmap (fun l => (l, false)) (split pattern text) end.
End Libc.
