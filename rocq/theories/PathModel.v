(** Model of the path functions of grayc/src/stdlib/io.c (71-202): path_join, dirname, basename, extension, is_absolute
    and normalize.  Lengths are below 2^31 (every GrayString's are). *)
From Verif Require Import Base SemverModel ServerModel.

Definition sep (c : Z) : bool := (c =? 47) || (c =? 92).
(** io.c:71-90.  gray_string_format's "%.*s" stops at a NUL byte *)
Definition join_one (result seg : bytes) : bytes :=
  match seg with
  | [] => result
  | c :: _ => if sep c then seg
              else match rev result with
                   | l :: _ => if sep l then cstr result ++ cstr seg else cstr result ++ [47] ++ cstr seg
                   | [] => cstr result ++ [47] ++ cstr seg
                   end
  end.
Definition path_join (l : list bytes) : bytes :=
  match l with [] => bs "." | p :: rest => fold_left join_one rest p end.
(** The loops of dirname, basename and extension run from the end: the arguments below are reversed.
    io.c:96 (keeps one character) *)
Fixpoint strip_keep (r : bytes) : bytes := match r with c :: ((_ :: _) as q) => if sep c then strip_keep q else r | _ => r end.
(** io.c:118 *)
Fixpoint strip_all (r : bytes) : bytes := match r with c :: q => if sep c then strip_all q else r | [] => [] end.
(** io.c:98-104, 120-121, 131-134: up to the last separator, and from it on *)
Fixpoint last_name (r : bytes) : bytes * bytes :=
  match r with
  | [] => ([], [])
  | c :: q => if sep c then ([], r) else let '(n, d) := last_name q in (c :: n, d)
  end.
(** io.c:92-112 *)
Definition dirname (p : bytes) : bytes :=
  match p with
  | [] => bs "."
  | _ => match snd (last_name (strip_keep (rev p))) with
         | [] => bs "."
         | [_] => bs "/"
         | _ :: d => rev d
         end
  end.
(** io.c:114-127 *)
Definition basename (p : bytes) : bytes :=
  match p with
  | [] => bs "."
  | _ => match strip_all (rev p) with [] => bs "/" | r => rev (fst (last_name r)) end
  end.
(** io.c:129-148: from the last dot of the last piece *)
Definition extension (p : bytes) : bytes :=
  match cut 46 (fst (last_name (rev p))) with
  | None => []
  | Some ([], _) => []
  | Some (_, []) => []
  | Some (ext, _) => 46 :: rev ext
  end.
(** io.c:150-152 *)
Definition is_absolute (p : bytes) : bool := match p with c :: _ => c =? 47 | [] => false end.

Definition max_segments : nat := 256.
(** io.c:173-183: one segment.  segments[0 .. seg_count-1] is the list, last first; writing segments[256] is out of bounds *)
Definition put (absolute : bool) (st : list bytes) (seg : bytes) : res (list bytes) :=
  let keep := if negb absolute then if (length st <? max_segments)%nat then Ok (seg :: st) else UB else Ok st in
  if beq seg (bs ".") then Ok st
  else if beq seg (bs "..") then
    match st with
    | top :: below => if negb (beq top (bs "..")) then Ok below else keep
    | [] => keep
    end
  else if (length st <? max_segments)%nat then Ok (seg :: st) else Ok st.
Fixpoint skip_slashes (s : bytes) : bytes := match s with c :: q => if c =? 47 then skip_slashes q else s | [] => [] end.
Fixpoint to_slash (s : bytes) : bytes * bytes :=
  match s with
  | [] => ([], [])
  | c :: q => if c =? 47 then ([], q) else let '(n, r) := to_slash q in (c :: n, r)
  end.
(** io.c:167-184; tok is the C string at the pointer tok *)
Fixpoint segments (fuel : nat) (absolute : bool) (st : list bytes) (tok : bytes) : res (list bytes) :=
  match fuel with
  | O => NoFuel
  | S fuel =>
      match skip_slashes tok with
      | [] => Ok st
      | tok => let '(seg, rest) := to_slash tok in
               match put absolute st seg with Ok st => segments fuel absolute st rest | x => x end
      end
  end.
(** io.c:189-194 *)
Fixpoint rebuild (l : list bytes) : bytes := match l with [] => [] | [e] => e | e :: r => e ++ 47 :: rebuild r end.
(** io.c:154-202.  Writing past the end of out (path.len + 2 bytes) is out of bounds *)
Definition normalize (p : bytes) : res bytes :=
  match p with
  | [] => Ok (bs ".")
  | _ =>
      let buf := map (fun c => if c =? 92 then 47 else c) p in
      let absolute := match buf with c :: _ => c =? 47 | [] => false end in
      match segments (S (length p)) absolute [] (cstr buf) with
      | Ok st =>
          let text := (if absolute then [47] else []) ++ rebuild (rev st) in
          let text := match text with [] => bs "." | _ => text end in
          if (length p + 2 <? length text + 1)%nat then UB else Ok text
      | Panic c => Panic c | UB => UB | NoFuel => NoFuel
      end
  end.
