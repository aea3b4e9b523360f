(** Vocabulary of the HTTP client's properties (C51, C52, C91).  Messages, headers and dictionaries: see ServerSpec. *)
From Verif Require Import Base Decimal ServerSpec.

(** A character a host must not contain: it would break the request or is not part of a host. *)
Definition breaks (c : Z) : Prop := c = 9 \/ c = 10 \/ c = 13 \/ c = 32.
Definition host_char (c : Z) : Prop := ~ breaks c /\ c <> 47 /\ c <> 58 /\ c <> 0.
(** A URL of the form http://host[:port]path *)
Definition url_of (host : bytes) (port : option Z) (path : bytes) : bytes :=
  bs "http://" ++ host ++ (match port with Some p => 58 :: dec p | None => [] end) ++ path.
Definition url_port (port : option Z) : Z := match port with Some p => p | None => 80 end.
Definition path_ok (path : bytes) : Prop := path = [] \/ exists r, path = 47 :: r /\ one_line path /\ ~ In 0 path.
Definition url_path (path : bytes) : bytes := match path with [] => bs "/" | _ => path end.

(** The request for a resource: request line, the client's own headers, the caller's headers, the body. *)
Definition own_headers (host body : bytes) : list (bytes * bytes) :=
  (bs "Host", 32 :: host) ::
  (match body with [] => [] | _ => [(bs "Content-Length", 32 :: dec (Z.of_nat (length body))); (bs "Content-Type", bs " application/x-www-form-urlencoded")] end) ++
  [(bs "Connection", bs " close")].
(** "name: value" *)
Definition spaced (h : bytes * bytes) : bytes * bytes := (fst h, 32 :: snd h).
Definition request_for (method host path body : bytes) (custom : list (bytes * bytes)) : bytes :=
  message (request_line method path) (own_headers host body ++ map spaced custom) body.
(** A status line *)
Definition status_line (version : Z) (code : Z) (reason : bytes) : bytes :=
  bs "HTTP/1." ++ [48 + version] ++ [32] ++ dec code ++ 32 :: reason.
