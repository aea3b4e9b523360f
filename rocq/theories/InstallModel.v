(** Model of cli/update.go:1033-1041 isTrustedUpdateURL, 1140-1170 sanitizeArchivePath, 1173-1228 extractTarGz and
    1231-1279 extractZip.  The functions of Go's standard library they call (net/url.Parse, path/filepath) are modelled
    from their sources for Unix. *)
From Verif Require Import Base SemverModel.

(** net/url: unhex / ishex *)
Definition unhex (c : Z) : option Z :=
  if (48 <=? c) && (c <=? 57) then Some (c - 48)
  else if (97 <=? c) && (c <=? 102) then Some (c - 97 + 10)
  else if (65 <=? c) && (c <=? 70) then Some (c - 65 + 10) else None.
Definition alnum (c : Z) : bool := ((97 <=? c) && (c <=? 122)) || ((65 <=? c) && (c <=? 90)) || ((48 <=? c) && (c <=? 57)).
Definition mem (c : Z) (s : bytes) : bool := existsb (Z.eqb c) s.
(** net/url: shouldEscape(c, encodeHost) for c < 128 *)
Definition host_escape (c : Z) : bool := negb (alnum c || mem c (bs "!$&'()*+,;=:[]<>""") || mem c (bs "-_.~")).
(** net/url: unescape(s, mode); host = true is encodeHost, false any of the modes encodePath, encodeUserPassword and
    encodeFragment, which treat the text alike *)
Fixpoint unescape (host : bool) (s : bytes) : option bytes :=
  match s with
  | [] => Some []
  | c :: s1 =>
      if c =? 37 then
        match s1 with
        | h :: l :: s2 =>
            match unhex h, unhex l with
            | Some x, Some y =>
                if host && (x <? 8) && negb ((h =? 50) && (l =? 53)) then None
                else match unescape host s2 with Some d => Some (16 * x + y :: d) | None => None end
            | _, _ => None
            end
        | _ => None
        end
      else if host && (c <? 128) && host_escape c then None
      else match unescape host s1 with Some d => Some (c :: d) | None => None end
  end.
(** net/url: getScheme; None is the error, first is "i = 0" *)
Fixpoint get_scheme (first : bool) (s : bytes) : option (option (bytes * bytes)) :=
  match s with
  | [] => Some None
  | c :: r =>
      if ((97 <=? c) && (c <=? 122)) || ((65 <=? c) && (c <=? 90)) || (((48 <=? c) && (c <=? 57) || (c =? 43) || (c =? 45) || (c =? 46)) && negb first) then
        match get_scheme false r with Some (Some (a, b)) => Some (Some (c :: a, b)) | x => x end
      else if c =? 58 then (if first then None else Some (Some ([], r)))
      else Some None
  end.
Definition to_lower (c : Z) : Z := if (65 <=? c) && (c <=? 90) then c + 32 else c.
(** text before and after the last c (strings.LastIndex) *)
Fixpoint cut_last (c : Z) (s : bytes) : option (bytes * bytes) :=
  match s with
  | [] => None
  | x :: s => match cut_last c s with
              | Some (a, b) => Some (x :: a, b)
              | None => if x =? c then Some ([], s) else None
              end
  end.
(** net/url: parseHost.  A host in brackets is an error or keeps its bracket: None here, since neither is github.com *)
Definition parse_host (h : bytes) : option bytes :=
  match h with
  | c :: _ =>
      if c =? 91 then None
      else match cut_last 58 h with
           | Some (_, port) => if forallb digit port then unescape true h else None
           | None => unescape true h
           end
  | [] => unescape true h
  end.
(** net/url: validUserinfo *)
Definition valid_userinfo (u : bytes) : bool := forallb (fun c => alnum c || mem c (bs "-._:~!$&'()*+,;=%@")) u.
(** net/url: parseAuthority, the host only *)
Definition parse_authority (a : bytes) : option bytes :=
  match cut_last 64 a with
  | None => parse_host a
  | Some (u, h) =>
      match parse_host h with
      | None => None
      | Some host =>
          if negb (valid_userinfo u) then None
          else match cut 58 u with
               | None => match unescape false u with Some _ => Some host | None => None end
               | Some (n, p) => match unescape false n, unescape false p with Some _, Some _ => Some host | _, _ => None end
               end
      end
  end.
(** net/url: Parse(rawURL), giving Scheme, Host and Path; None is an error *)
Definition parse_url (raw : bytes) : option (bytes * bytes * bytes) :=
  let '(u, frag) := match cut 35 raw with Some (a, b) => (a, b) | None => (raw, []) end in
  if existsb (fun c => (c <? 32) || (c =? 127)) u then None
  else if beq u (bs "*") then match unescape false frag with Some _ => Some ([], [], u) | None => None end
  else match get_scheme true u with
       | None => None
       | Some g =>
           let '(scheme, rest) := match g with Some (a, b) => (map to_lower a, b) | None => ([], u) end in
           let rest := match cut 63 rest with Some (a, _) => a | None => rest end in
           let slash := match rest with c :: _ => c =? 47 | [] => false end in
           let done_ host path := match unescape false frag with Some _ => Some (scheme, host, path) | None => None end in
           if negb slash && negb (beq scheme []) then done_ [] []
           else if negb slash && match cut 47 rest with Some (a, _) => mem 58 a | None => mem 58 rest end then None
           else
             let '(auth, path) :=
               match rest with
               | c1 :: c2 :: r =>
                   if (c1 =? 47) && (c2 =? 47) && negb (beq scheme [] && match r with c :: _ => c =? 47 | [] => false end)
                   then match cut 47 r with Some (a, p) => (Some a, 47 :: p) | None => (Some r, []) end
                   else (None, rest)
               | _ => (None, rest)
               end in
             match match auth with Some a => parse_authority a | None => Some [] end with
             | None => None
             | Some host => match unescape false path with Some p => done_ host p | None => None end
             end
       end.
(** strings.HasPrefix *)
Fixpoint has_prefix (s p : bytes) : bool :=
  match p, s with [], _ => true | c :: p, d :: s => (c =? d) && has_prefix s p | _, [] => false end.
(** update.go:1024-1027, 1033-1041 *)
Definition trusted_prefix : bytes := bs "/grayscale-lang/grayscale/releases/download/".
Definition is_trusted (url : bytes) : bool :=
  match parse_url url with
  | None => false
  | Some (scheme, host, path) => beq scheme (bs "https") && beq host (bs "github.com") && has_prefix path trusted_prefix
  end.

(** path/filepath.Clean on Unix: the output's elements, last first; the last dd of the list are ".." that stay *)
Fixpoint clean_loop (rooted : bool) (out : list bytes) (dd : nat) (l : list bytes) : list bytes :=
  match l with
  | [] => out
  | e :: l =>
      if beq e [] || beq e (bs ".") then clean_loop rooted out dd l
      else if beq e (bs "..") then
        if Nat.ltb dd (length out) then clean_loop rooted (tl out) dd l
        else if rooted then clean_loop rooted out dd l
        else clean_loop rooted (e :: out) (S dd) l
      else clean_loop rooted (e :: out) dd l
  end.
Fixpoint join_slash (l : list bytes) : bytes :=
  match l with [] => [] | [e] => e | e :: r => e ++ 47 :: join_slash r end.
Definition clean (p : bytes) : bytes :=
  let rooted := match p with c :: _ => c =? 47 | [] => false end in
  let out := join_slash (rev (clean_loop rooted [] 0 (split_on 47 p))) in
  if rooted then 47 :: out else if beq out [] then bs "." else out.
(** filepath.Base *)
Fixpoint strip_slashes (r : bytes) : bytes := match r with c :: q => if c =? 47 then strip_slashes q else r | [] => [] end.
Definition base (p : bytes) : bytes :=
  match p with
  | [] => bs "."
  | _ => let q := rev (strip_slashes (rev p)) in
         let q := match cut_last 47 q with Some (_, b) => b | None => q end in
         match q with [] => bs "/" | _ => q end
  end.
(** filepath.Join of two elements *)
Definition join2 (a b : bytes) : bytes :=
  match a with [] => match b with [] => [] | _ => clean b end | _ => clean (a ++ 47 :: b) end.
(** filepath.Abs *)
Definition abs (cwd p : bytes) : bytes := match p with c :: _ => if c =? 47 then clean p else join2 cwd p | [] => join2 cwd p end.

(** update.go:1140-1170 sanitizeArchivePath; None: an error *)
Definition sanitize (cwd dest filename : bytes) : option bytes :=
  let name := clean (base filename) in
  if beq name [] || beq name (bs ".") || beq name (bs "..") then None
  else
    let dest_path := join2 dest name in
    let abs_path := abs cwd dest_path in
    let abs_dir := abs cwd dest in
    if negb (has_prefix abs_path (abs_dir ++ [47])) && negb (beq abs_path abs_dir) then None else Some dest_path.

(** One archive entry: its name, its data, and what the system does when it is handled (f.Open fails, os.Create fails,
    io.Copy fails after so many bytes). *)
Inductive fate := Fine | OpenFails | CreateFails | CopyFails (n : nat).
Record entry := Entry { ename : bytes; edata : bytes; efate : fate }.
(** The files written so far: last write first *)
Definition files := list (bytes * bytes).
Fixpoint file_at (p : bytes) (f : files) : option bytes :=
  match f with [] => None | (q, d) :: f => if beq p q then Some d else file_at p f end.
(** update.go:1186, 1238 wantFiles *)
Definition want (n : bytes) : bool := beq n (bs "gray") || beq n (bs "gray.exe") || beq n (bs "grayc") || beq n (bs "libgrayrt.a").
Definition is_binary (n : bytes) : bool := beq n (bs "gray") || beq n (bs "gray.exe").
(** update.go:1189-1222: the loop of extractTarGz.  good = false: after the last entry given the reader reports an error
    instead of io.EOF (or the gzip header was bad).  The result is the files written and the returned path or an error. *)
Fixpoint tar_loop (cwd dest : bytes) (es : list entry) (good : bool) (fs : files) (bin : bytes) : files * option bytes :=
  match es with
  | [] => if good then (fs, if beq bin [] then None else Some bin) else (fs, None)
  | e :: es =>
      let name := base (ename e) in
      if negb (want name) then tar_loop cwd dest es good fs bin
      else match sanitize cwd dest name with
           | None => (fs, None)
           | Some p =>
               match efate e with
               | CreateFails => (fs, None)
               | CopyFails n => ((p, firstn n (edata e)) :: fs, None)
               | _ => tar_loop cwd dest es good ((p, edata e) :: fs) (if is_binary name then p else bin)
               end
           end
  end.
Definition extract_tar cwd dest es good := tar_loop cwd dest es good [] [].
(** update.go:1241-1273: the loop of extractZip; all entries are known before it starts *)
Fixpoint zip_loop (cwd dest : bytes) (es : list entry) (fs : files) (bin : bytes) : files * option bytes :=
  match es with
  | [] => (fs, if beq bin [] then None else Some bin)
  | e :: es =>
      let name := base (ename e) in
      if negb (want name) then zip_loop cwd dest es fs bin
      else match sanitize cwd dest name with
           | None => (fs, None)
           | Some p =>
               match efate e with
               | OpenFails | CreateFails => (fs, None)
               | CopyFails n => ((p, firstn n (edata e)) :: fs, None)
               | Fine => zip_loop cwd dest es ((p, edata e) :: fs) (if is_binary name then p else bin)
               end
           end
  end.
Definition extract_zip (cwd dest : bytes) (es : list entry) (good : bool) : files * option bytes :=
  if good then zip_loop cwd dest es [] [] else ([], None).
