(** The growable buffer the generated C is built in (util/buf.c).  The memory
    of the buffer is the list of its cap bytes, a write outside is UB; malloc
    and realloc succeed (else the compiler ends), and new memory holds
    anything: junk.  Sizes are size_t. *)
From Verif Require Import Base BufSpec.

Record buf := Buf { data : bytes; len : Z; cap : Z }.
Section Buf.
Context (junk : nat -> Z).
Definition fresh (n : nat) : bytes := map junk (seq 0 n).
(** memcpy to data + off *)
Definition store (m : bytes) (off : Z) (s : bytes) : res bytes :=
  if (0 <=? off) && (off + Z.of_nat (length s) <=? Z.of_nat (length m))
  then Ok (firstn (Z.to_nat off) m ++ s ++ skipn (Z.to_nat off + length s) m) else UB.
(** buf.c:30-41 *)
Definition create (initial : Z) : res buf := rmap (fun m => Buf m 0 initial) (store (fresh (Z.to_nat initial)) 0 [0]).
(** buf.c:16-28 *)
Definition grow (b : buf) (needed : Z) : buf :=
  if wrap_u 64 (len b + needed + 1) <=? cap b then b
  else let n := wrap_u 64 (cap b * 2) in
       let n := if n <? wrap_u 64 (len b + needed + 1) then wrap_u 64 (len b + needed + 1) else n in
       Buf (firstn (Z.to_nat n) (data b) ++ fresh (Z.to_nat n - length (data b))) (len b) n.
(** buf.c:48-53 *)
Definition append_bytes (b : buf) (s : bytes) : res buf :=
  let b := grow b (Z.of_nat (length s)) in
  rbind (store (data b) (len b) s) (fun m =>
  let l := wrap_u 64 (len b + Z.of_nat (length s)) in
  rmap (fun m => Buf m l (cap b)) (store m l [0])).
(** buf.c:55-72; vsnprintf writes the text and a 0 *)
Definition append_format (b : buf) (o : option bytes) : res buf :=
  match o with
  | None => Ok b
  | Some s => let b := grow b (Z.of_nat (length s)) in
              rmap (fun m => Buf m (wrap_u 64 (len b + Z.of_nat (length s))) (cap b)) (store (data b) (len b) (s ++ [0]))
  end.
(** buf.c:74-78 *)
Definition append_char (b : buf) (c : Z) : res buf :=
  let b := grow b 1 in
  rbind (store (data b) (len b) [c]) (fun m =>
  let l := wrap_u 64 (len b + 1) in rmap (fun m => Buf m l (cap b)) (store m l [0])).
(** buf.c:82-93; 64 spaces and the 0 are 65 bytes *)
Definition spaces : bytes := List.repeat 32 64.
Fixpoint indent_loop (k : nat) (b : buf) : res buf :=
  match k with O => Ok b | S k => rbind (append_bytes b (firstn 4 spaces)) (indent_loop k) end.
Definition append_indent (b : buf) (depth : Z) : res buf :=
  let n := depth * 4 in
  if (INT32_MIN <=? n) && (n <=? INT32_MAX) then
    if n <? 65 then if 0 <=? n then append_bytes b (firstn (Z.to_nat n) spaces) else UB
    else indent_loop (Z.to_nat depth) b
  else UB.
Definition append (b : buf) (o : op) : res buf :=
  match o with Bytes s => append_bytes b s | Formatted s => append_format b s | Character c => append_char b c | Indent d => append_indent b d end.
Fixpoint append_all (b : buf) (os : list op) : res buf :=
  match os with [] => Ok b | o :: t => rbind (append b o) (fun b => append_all b t) end.
(** buf.c:95-97, read as C does *)
Definition to_string (b : buf) : bytes := c_string (data b).
End Buf.
