(** Model of grayc/src/stdlib/http.c: parse_url (35-88), the request built and the response received by do_request
    (150-245) and parse_response (91-146).  The network is an argument: what the peer sends and how recv cuts it.  The
    header map is the list of (key, value) pairs in the order of the gray_map_set calls (C14). *)
From Verif Require Import Base Decimal StrconvModel ServerModel.

(** http.c:27-32 http_cstr into char[4096], read as a C string *)
Definition url_text (s : bytes) : bytes := cstr (firstn (Z.to_nat 4095) s).
(** atoi: glibc's (int) strtol(s, 0, 10) *)
Definition atoi (s : bytes) : Z := match c_strto 10 s with Some (v, _) => wrap_i 32 (clamp64 v) | None => 0 end.
(** http.c:48-50 *)
Definition breaking (c : Z) : bool := (c =? 32) || (c =? 9) || (c =? 13) || (c =? 10).
Fixpoint bad_host (s : bytes) : bool :=
  match s with [] => false | c :: r => if (c =? 47) || (c =? 58) then false else if breaking c then true else bad_host r end.
(** http.c:35-88 parse_url: host, port, path, or the answer false.  url is a C string *)
Definition parse_url (url : bytes) : option (bytes * Z * bytes) :=
  if negb (starts (bs "http://") url) then None
  else
    let s := skipn 7 url in
    if match s with [] => true | c :: _ => (c =? 47) || (c =? 58) end then None
    else if bad_host s then None
    else
      let authority := match cut 47 s with Some (a, _) => a | None => s end in
      let '(host, port) :=
        match cut 58 authority with
        | Some (h, _) => (firstn 255 h, match cut 58 s with Some (_, r) => atoi r | None => 0 end)
        | None => (firstn 255 authority, 80)
        end in
      match cut 47 s with
      | Some (_, p) =>
          let path := firstn (Z.to_nat 2047) (47 :: p) in
          if existsb (fun c => (c =? 13) || (c =? 10)) path then None
          else match host with [] => None | _ => Some (host, port, path) end
      | None => match host with [] => None | _ => Some (host, port, bs "/") end
      end.

(** http.c:187-202: snprintf of the first lines *)
Definition first_lines (method path host body : bytes) : bytes :=
  method ++ [32] ++ path ++ bs " HTTP/1.1" ++ crlf ++ bs "Host: " ++ host ++ crlf ++
  (match body with [] => [] | _ => bs "Content-Length: " ++ dec (Z.of_nat (length body)) ++ crlf ++
     bs "Content-Type: application/x-www-form-urlencoded" ++ crlf end) ++
  bs "Connection: close" ++ crlf.
Definition header_buf : Z := 4096.
(** http.c:205-216 the custom headers: text is what all the snprintf calls together print, and header_length its length.
    Past the end of the buffer the pointer is invalid and the remaining size wraps around *)
Fixpoint append_headers (text : bytes) (hs : list (bytes * bytes)) : res bytes :=
  match hs with
  | [] => Ok text
  | (k, v) :: hs =>
      if header_buf <? Z.of_nat (length text) then UB
      else append_headers (text ++ cstr k ++ bs ": " ++ cstr v ++ crlf) hs
  end.
(** http.c:218-235: what is sent (None: "request URL or path too long").  hs: the entries of the map in order *)
Definition build (method path host body : bytes) (hs : list (bytes * bytes)) : res (option bytes) :=
  match append_headers (first_lines method path host body) hs with
  | Ok text =>
      let text := if Z.of_nat (length text) + 2 <? header_buf then text ++ crlf else text in
      if header_buf <=? Z.of_nat (length text) then Ok None else Ok (Some (text ++ body))
  | Panic c => Panic c | UB => UB | NoFuel => NoFuel
  end.
(** http.c:155-235 do_request up to the reply: host and port dialled (the connection succeeds) and the bytes sent *)
Definition request (method url body : bytes) (hs : list (bytes * bytes)) : res (option (bytes * Z * bytes)) :=
  match parse_url (url_text url) with
  | None => Ok None
  | Some (host, port, path) =>
      match build method path host body hs with
      | Ok (Some sent) => Ok (Some (host, port, sent))
      | Ok None => Ok None
      | Panic c => Panic c | UB => UB | NoFuel => NoFuel
      end
  end.

(** http.c:243-251: stream is what the peer sends; each recv delivers as many bytes as the next element of cuts says, but
    not more than asked for (net.c:84-95); 0 at the end of the stream, on an error or a timeout *)
Definition resp_buf : Z := 1048576.
Fixpoint receive (total : Z) (stream : bytes) (cuts : list nat) : res bytes :=
  if total <? resp_buf - 1 then
    match cuts with
    | [] => Ok []
    | n :: cuts =>
        let chunk := firstn (Nat.min n (Z.to_nat (resp_buf - total))) stream in
        match chunk with
        | [] => Ok []
        | _ => match receive (total + Z.of_nat (length chunk)) (skipn (length chunk) stream) cuts with
               | Ok r => Ok (chunk ++ r)
               | x => x
               end
        end
    end
  else if total =? resp_buf then UB                 (* response_buffer[total] = '\0' is past the end *)
  else Ok [].

Definition drop_cr (v : bytes) : bytes := match rev v with c :: r => if c =? 13 then rev r else v | [] => v end.
(** http.c:115-135 the headers: h is the text from line on; stop is the length of the text from header_end on *)
Fixpoint resp_headers (fuel : nat) (h : bytes) (stop : nat) : option (list (bytes * bytes)) :=
  match fuel with
  | O => None
  | S fuel =>
      if (stop <? length h)%nat then
        match cut 10 h with
        | None => Some []
        | Some (line, rest) =>
            if (S (length rest) <? stop)%nat then Some []              (* end_of_line > header_end *)
            else
              let one := match cut colon line with Some (k, v) => [(k, drop_cr (skip_spaces v))] | None => [] end in
              match resp_headers fuel rest stop with Some l => Some (one ++ l) | None => None end
        end
      else Some []
  end.
Record response := Resp { status : Z; rheaders : list (bytes * bytes); rbody : bytes }.
(** http.c:91-146; None: out of fuel *)
Definition parse_response (data : bytes) : option response :=
  if (length data <? 12)%nat then Some (Resp 0 [] [])
  else
    let text := cstr data in
    let st := if starts (bs "HTTP/") text then match cut 32 text with Some (_, r) => atoi r | None => 0 end else 0 in
    let sep := match find blank_line text with
               | Some (head, from) => Some (head, from, 4%nat)
               | None => match find [10; 10] text with Some (head, from) => Some (head, from, 2%nat) | None => None end
               end in
    match sep with
    | None => Some (Resp st [] [])
    | Some (head, from, n) =>
        match (match cut 10 text with Some (_, l) => resp_headers (S (length text)) l (length from) | None => Some [] end) with
        | None => None
        | Some hs => Some (Resp st hs (skipn (length head + n) data))
        end
    end.
