(** Model of the request side and the response side of grayc/src/stdlib/server.c.  C strings are lists of
    bytes; [cstr] cuts at the first NUL as strlen does.  The maps query, headers and params are written as
    the list of (key, value) pairs in the order of the gray_map_set calls (a map is the dictionary obtained
    by setting them in turn, C14).  Sizes stay below 65536, so the int32 casts are exact. *)
From Verif Require Import Base Decimal.

Definition slash : Z := 47. Definition colon : Z := 58. Definition space : Z := 32.
Fixpoint cstr (s : bytes) : bytes := match s with [] => [] | c :: s => if c =? 0 then [] else c :: cstr s end.

(** server.c:142-149: the part up to the next '/' or the end, and the rest *)
Fixpoint to_slash (s : bytes) : bytes * bytes :=
  match s with
  | [] => ([], [])
  | c :: r => if c =? slash then ([], s) else let (a, b) := to_slash r in (c :: a, b)
  end.
(** server.c:133-165 match_route, on NUL-terminated strings (the lists end where the NUL is); the answer and
    the parameters set on the way, which stay set when the answer is false.  fuel: one unit per round *)
Fixpoint route_loop (fuel : nat) (pat path : bytes) (set : list (bytes * bytes)) : option (bool * list (bytes * bytes)) :=
  match fuel with
  | O => None
  | S fuel =>
      match pat, path with
      | p :: pat', c :: path' =>
          if p =? colon then
            let (name, pat2) := to_slash pat' in
            let (val, path2) := to_slash path in
            route_loop fuel pat2 path2 (set ++ [(name, val)])
          else if p =? c then route_loop fuel pat' path' set
          else Some (false, set)
      | [], [] => Some (true, set)
      | [], [c] => Some (c =? slash, set)
      | [c], [] => Some (c =? slash, set)
      | _, _ => Some (false, set)
      end
  end.
Definition match_route (pat path : bytes) (set : list (bytes * bytes)) : option (bool * list (bytes * bytes)) :=
  route_loop (S (length (cstr pat))) (cstr pat) (cstr path) set.

(** server.c:303-310: the first matching route, and the parameters in the map when its handler is called.
    A route is its method and its pattern; the handler is the position in the table *)
Definition str_eq (a b : bytes) : bool := if list_eq_dec Z.eq_dec a b then true else false.
Fixpoint dispatch (routes : list (bytes * bytes)) (i : nat) (method path : bytes) (set : list (bytes * bytes))
  : option (option nat * list (bytes * bytes)) :=
  match routes with
  | [] => Some (None, set)
  | (m, pat) :: routes =>
      if str_eq (cstr m) (cstr method) then
        match match_route pat path set with
        | None => None
        | Some (true, set) => Some (Some i, set)
        | Some (false, set) => dispatch routes (S i) method path set
        end
      else dispatch routes (S i) method path set
  end.

(** memchr: what is before the first c, and what follows it *)
Fixpoint cut (c : Z) (s : bytes) : option (bytes * bytes) :=
  match s with
  | [] => None
  | x :: s => if x =? c then Some ([], s) else match cut c s with Some (a, b) => Some (x :: a, b) | None => None end
  end.
(** server.c:186-202 the query string *)
Fixpoint query_loop (fuel : nat) (q : bytes) : option (list (bytes * bytes)) :=
  match fuel with
  | O => None
  | S fuel =>
      match q with
      | [] => Some []
      | _ =>
          match cut 61 q with                                 (* '=' *)
          | None => Some []
          | Some (key, rest) =>
              match cut 38 rest with                          (* '&'; searching from '=' itself is the same *)
              | None => Some [(key, rest)]
              | Some (val, rest) => match query_loop fuel rest with Some l => Some ((key, val) :: l) | None => None end
              end
          end
      end
  end.
Definition parse_query (q : bytes) : option (list (bytes * bytes)) := query_loop (S (length q)) q.

(** strstr for "\r\n" and "\r\n\r\n" on the NUL-terminated buffer *)
Fixpoint starts (p s : bytes) : bool :=
  match p, s with
  | [], _ => true
  | x :: p, y :: s => (x =? y) && starts p s
  | _ :: _, [] => false
  end.
(** before the first occurrence, and from it on *)
Fixpoint find (p s : bytes) : option (bytes * bytes) :=
  if starts p s then Some ([], s)
  else match s with [] => None | x :: s => match find p s with Some (a, b) => Some (x :: a, b) | None => None end end.
Definition crlf : bytes := [13; 10].
Definition blank_line : bytes := [13; 10; 13; 10].
Fixpoint skip_spaces (s : bytes) : bytes := match s with c :: r => if c =? space then skip_spaces r else s | [] => [] end.
(** server.c:212-229 the headers: h is the text from header_start to the end of the string; [stop] is the
    length of the text from the blank line on, so header_start < body_separator is stop < length h *)
Fixpoint header_loop (fuel : nat) (h : bytes) (stop : nat) : option (list (bytes * bytes)) :=
  match fuel with
  | O => None
  | S fuel =>
      if (stop <? length h)%nat then
        match find crlf h with
        | None => Some []
        | Some (line, rest) =>
            let next := skipn 2 rest in
            let one := match cut colon line with
                       | Some (key, val) =>
                           (* 219-221: the spaces are skipped in the whole text, but a line ends in CR *)
                           [(key, skip_spaces val)]
                       | None => [] end in
            match header_loop fuel next stop with Some l => Some (one ++ l) | None => None end
        end
      else Some []
  end.
Record request := Req { method : bytes; path : bytes; query : list (bytes * bytes); headers : list (bytes * bytes); body : bytes }.
(** server.c:168-241 parse_request; data is what recv delivered.  Simplified: the text searched by strstr is
    data up to its first NUL, and the body is taken from the blank line found there *)
Definition parse_request (data : bytes) : option (option request) :=
  if (length data <? 10)%nat then Some None
  else match cut space data with
  | None => Some None
  | Some (m, rest) =>
      match cut space rest with
      | None => Some None
      | Some (target, _) =>
          match (match cut 63 target with                       (* '?' *)
                 | Some (p, q) => match parse_query q with Some l => Some (p, l) | None => None end
                 | None => Some (target, []) end) with
          | None => None
          | Some (p, q) =>
              let text := cstr data in
              match find blank_line text with
              | None => Some (Some (Req m p q [] []))           (* header_start < NULL is false *)
              | Some (head, from) =>
                  match (match find crlf text with
                         | Some (_, l) => header_loop (S (length text)) (skipn 2 l) (length from)
                         | None => Some [] end) with
                  | None => None
                  | Some hs => Some (Some (Req m p q hs (skipn (length head + 4) data)))
                  end
              end
          end
      end
  end.
(** server.c:248-296 handle_connection up to the dispatch: one recv of at most 65535 bytes of what the client
    sends, n of which have arrived; the answers 400 and 404 *)
Definition buf_size : nat := Z.to_nat 65536.
Inductive served := Closed | Bad | NotFound | Handled (handler : nat) (r : request) (params : list (bytes * bytes)).
Definition serve (routes : list (bytes * bytes)) (sent : bytes) (n : nat) : option served :=
  let data := firstn (Nat.min n (buf_size - 1)) sent in
  match data with
  | [] => Some Closed
  | _ =>
      match parse_request data with
      | None => None
      | Some None => Some NotFound
      | Some (Some r) =>
          if (16 <=? length (method r))%nat || (Z.to_nat 2048 <=? length (path r))%nat then Some Bad
          else match dispatch routes 0 (method r) (path r) [] with
               | None => None
               | Some (None, _) => Some NotFound
               | Some (Some i, set) => Some (Handled i r set)
               end
      end
  end.

(** server.c:33-59 *)
Definition reasons : list (Z * bytes) :=
  [(200, bs "OK"); (201, bs "Created"); (204, bs "No Content"); (301, bs "Moved Permanently"); (302, bs "Found");
   (303, bs "See Other"); (304, bs "Not Modified"); (307, bs "Temporary Redirect"); (308, bs "Permanent Redirect");
   (400, bs "Bad Request"); (401, bs "Unauthorized"); (403, bs "Forbidden"); (404, bs "Not Found");
   (405, bs "Method Not Allowed"); (409, bs "Conflict"); (410, bs "Gone"); (422, bs "Unprocessable Entity");
   (429, bs "Too Many Requests"); (500, bs "Internal Server Error"); (501, bs "Not Implemented");
   (502, bs "Bad Gateway"); (503, bs "Service Unavailable")].
Fixpoint assoc (l : list (Z * bytes)) (k : Z) : bytes :=
  match l with [] => bs "Unknown" | (x, v) :: l => if x =? k then v else assoc l k end.
Definition reason (status : Z) : bytes := assoc reasons status.
(** snprintf into a buffer of n bytes: what is in it before the NUL *)
Definition printed (n : nat) (s : bytes) : bytes := firstn (n - 1) s.
(** "%.*s" stops at a NUL *)
Definition field (s : bytes) : bytes := cstr s.
(** server.c:112-124 server.cors; None: panic P0101 *)
Definition set_cors (origin : bytes) : option bytes :=
  if existsb (fun c => (c =? 13) || (c =? 10)) origin then None else Some (cstr origin).
(** server.c:319-327 *)
Definition cors_text (origin : option bytes) : bytes :=
  match origin with
  | None => []
  | Some o => printed 512 (bs "Access-Control-Allow-Origin: " ++ o ++ crlf ++
      bs "Access-Control-Allow-Methods: GET, POST, PUT, DELETE, PATCH, OPTIONS" ++ crlf ++
      bs "Access-Control-Allow-Headers: Content-Type, Authorization" ++ crlf)
  end.
(** server.c:329-366 the response sent; the body's length is printed with %d *)
Definition response (status : Z) (ctype rbody : bytes) (origin : option bytes) : bytes :=
  let st := wrap_i 32 status in
  let first := bs "HTTP/1.1 " ++ dec_signed st ++ [space] ++ reason st ++ crlf in
  let text :=
    if (300 <=? st) && (st <? 400) && (0 <? Z.of_nat (length rbody)) then
      first ++ bs "Location: " ++ field rbody ++ crlf ++ bs "Content-Length: 0" ++ crlf ++ cors_text origin ++
      bs "Connection: close" ++ crlf ++ crlf
    else
      first ++ bs "Content-Type: " ++ field ctype ++ crlf ++
      bs "Content-Length: " ++ dec_signed (Z.of_nat (length rbody)) ++ crlf ++ cors_text origin ++
      bs "Connection: close" ++ crlf ++ crlf ++ field rbody in
  printed buf_size text.
