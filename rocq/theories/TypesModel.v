(** Model of grayc/src/typechecker/types.c:17-305 and 351-523 (type descriptors,
    their pool and hash index, function signatures, equality, names to types)
    and of the text grayc/src/parser/parser.c:275-499 writes for a type.
    Simplified: names are the bytes of NUL-free C strings; the address of a
    descriptor is its place, one of the singletons or an index in the pool;
    [xmalloc] does not fail; the singleton table's pointers are kinds; the
    ownership of the copied strings and [type_pool_reset] are left out. *)
From Verif Require Import Base LexModel MapModel ProbeModel BsearchModel.

(** types.h:16-34 *)
Inductive tkind := KVoid | KInt | KUint | KFloat | KBool | KChar | KByte | KString | KArray | KMap | KStruct | KEnum
  | KPointer | KError | KFunction | KNil | KUnknown.
Definition knum (k : tkind) : Z :=
  match k with
  | KVoid => 0 | KInt => 1 | KUint => 2 | KFloat => 3 | KBool => 4 | KChar => 5 | KByte => 6 | KString => 7 | KArray => 8
  | KMap => 9 | KStruct => 10 | KEnum => 11 | KPointer => 12 | KError => 13 | KFunction => 14 | KNil => 15 | KUnknown => 16
  end.
(** types.h:40-46: parameters (by reference or not, type) and return types *)
Record fsig := FSig { sig_params : list (bool * bytes); sig_rets : list bytes }.
(** types.h:48-55 *)
Record gtype := GType { kind : tkind; name : bytes; element_type : option bytes; key_type : option bytes;
  value_type : option bytes; func_sig : option fsig }.
(** The address of a descriptor: a singleton, types.c:18-28, one for each of
    some kinds, or [&type_pool[i]]. *)
Inductive ptr := Single (k : tkind) | Pool (i : nat).

(** types.c:141-151, on the text from the parenthesis at index [i] on *)
Fixpoint matching (s : bytes) (depth : Z) (i : nat) : option nat :=
  match s with
  | [] => None
  | c :: r =>
      if c =? 40 then matching r (depth + 1) (S i)
      else if c =? 41 then if depth - 1 =? 0 then Some i else matching r (depth - 1) (S i)
      else matching r depth (S i)
  end.
Definition find_matching_paren (s : bytes) (start : nat) : option nat := matching (skipn start s) 0 start.
(** types.c:166-186: the loop, on the rest of the text and the segment read so
    far, in reverse; at the end of the text [c] is a comma. *)
Fixpoint split_loop (s : bytes) (depth : Z) (seg : bytes) : list bytes :=
  match s with
  | [] => if depth =? 0 then [rev seg] else []
  | c :: r =>
      let d := if (c =? 40) || (c =? 91) then depth + 1 else if (c =? 41) || (c =? 93) then depth - 1 else depth in
      if (d =? 0) && (c =? 44) then rev seg :: split_loop r d [] else split_loop r d (c :: seg)
  end.
(** types.c:156-189 *)
Definition split_top_commas (src : bytes) (start fin : nat) : list bytes :=
  if (fin <=? start)%nat then [] else split_loop (firstn (fin - start) (skipn start src)) 0 [].
Definition strncmp_func (s : bytes) : bool := strcmp (firstn 5 s) (bs "func(") =? 0.
(** types.c:193-253; [None]: the null pointer *)
Definition parse_func_sig (s : bytes) : option fsig :=
  if strncmp_func s then
    match find_matching_paren s 4 with
    | None => None
    | Some rparen =>
        let params := map (fun p => if hd 0 p =? 38 then (true, tl p) else (false, p)) (split_top_commas s 5 rparen) in
        let after := skipn (S rparen) s in
        if (hd 0 after =? 45) && (hd 0 (tl after) =? 62) then
          let ret := tl (tl after) in
          if hd 0 ret =? 40 then
            if last ret 0 =? 41 then Some (FSig params (split_top_commas ret 1 (length ret - 1)))
            else Some (FSig params [])
          else if strcmp ret (bs "void") =? 0 then Some (FSig params [])
          else Some (FSig params [ret])
        else Some (FSig params [])
    end
  else None.

(** types.c:30-42 and 44-54: the pool and its hash index *)
Notation entry := (tkind * bytes * nat)%type.
Record pool := Pl { descs : list gtype; index : list (option entry) }.
Definition TYPE_POOL_CAPACITY : Z := 4096.
Definition TYPE_HASH_CAP : nat := Z.to_nat 8192.
Definition fresh : pool := Pl [] (repeat None TYPE_HASH_CAP).
(** types.c:56-61 *)
Definition type_hash (k : tkind) (n : bytes) : Z := mix33 (Z.lxor 5381 (wrap_u 32 (knum k * 2654435761))) n.
Definition hit (k : tkind) (n : bytes) (e : entry) : bool := (knum (fst (fst e)) =? knum k) && (strcmp (snd (fst e)) n =? 0).
(** types.c:64-74 *)
Definition pool_find (p : pool) (k : tkind) (n : bytes) : res (option ptr) :=
  match probe_from (hit k n) (index p) (type_hash k n) with
  | None => NoFuel
  | Some h => Ok (option_map (fun e => Pool (snd e)) (slot (index p) h))
  end.
(** types.c:77-91 after types.c:36-42: [exit(1)] when the pool is full *)
Definition pool_add (p : pool) (g : gtype) : res (pool * ptr) :=
  if TYPE_POOL_CAPACITY <=? Z.of_nat (length (descs p)) then Panic 1 else
  match probe_from (fun _ => false) (index p) (type_hash (kind g) (name g)) with
  | None => NoFuel
  | Some h => Ok (Pl (descs p ++ [g]) (put (index p) h (kind g, name g, length (descs p))), Pool (length (descs p)))
  end.
(** The shape all constructors share: find an entry by kind and name, or add one. *)
Definition intern (p : pool) (g : gtype) : res (pool * ptr) :=
  rbind (pool_find p (kind g) (name g)) (fun o => match o with Some q => Ok (p, q) | None => pool_add p g end).
(** types.c:93-136 *)
Definition plain (k : tkind) (n : bytes) : gtype := GType k n None None None None.
Definition type_array (p : pool) (elem : bytes) : res (pool * ptr) := intern p (GType KArray elem (Some elem) None None None).
Definition type_struct (p : pool) (n : bytes) : res (pool * ptr) := intern p (plain KStruct n).
Definition type_enum (p : pool) (n : bytes) : res (pool * ptr) := intern p (plain KEnum n).
Definition type_pointer (p : pool) (n : bytes) : res (pool * ptr) := intern p (GType KPointer n (Some n) None None None).

(** types.c:351-385: a builtin name with its singleton, or the kind and the
    fixed name of the descriptor to allocate *)
Inductive how := One (k : tkind) | Alloc (k : tkind) (fixed : option bytes).
Definition builtin_types : list (bytes * how) :=
  [(bs "Error", Alloc KError (Some (bs "Error"))); (bs "bool", One KBool); (bs "byte", One KByte); (bs "char", One KChar);
   (bs "f32", Alloc KFloat None); (bs "f64", Alloc KFloat None); (bs "float", One KFloat);
   (bs "func", Alloc KUnknown (Some (bs "func")));
   (bs "i128", Alloc KInt None); (bs "i16", Alloc KInt None); (bs "i256", Alloc KInt None); (bs "i32", Alloc KInt None);
   (bs "i64", Alloc KInt None); (bs "i8", Alloc KInt None); (bs "int", One KInt); (bs "nil", One KNil);
   (bs "string", One KString); (bs "u128", Alloc KUint None); (bs "u16", Alloc KUint None); (bs "u256", Alloc KUint None);
   (bs "u32", Alloc KUint None); (bs "u64", Alloc KUint None); (bs "u8", Alloc KUint None); (bs "uint", One KUint);
   (bs "void", One KVoid)].
Definition builtin (n : bytes) : option how :=
  match bsearch fst builtin_types n with Some i => option_map snd (nth_error builtin_types i) | None => None end.
(** [strchr(s, c)]: what comes before the first [c] and what comes after it *)
Fixpoint cut (c : Z) (s : bytes) : option (bytes * bytes) :=
  match s with
  | [] => None
  | x :: r => if x =? c then Some ([], r) else option_map (fun p => (x :: fst p, snd p)) (cut c r)
  end.
Definition upper (c : Z) : bool := (65 <=? c) && (c <=? 90).
(** types.c:506-510 *)
Definition stdlib_opaque : list bytes :=
  [bs "Thread"; bs "Mutex"; bs "SpinLock"; bs "Channel"; bs "Socket"; bs "Listener"; bs "Database"; bs "Router";
   bs "HttpRequest"; bs "HttpResponse"; bs "UUID"; bs "Arena"; bs "SourceLocation"].
(** types.c:454-472: key and value type of a map name *)
Definition map_parts (n : bytes) : option (bytes * bytes) :=
  option_map (fun p => (fst p, if last (snd p) 0 =? 93 then removelast (snd p) else snd p)) (cut 58 (skipn 4 n)).
Definition enum_or (p : pool) (n alt : bytes) : res (pool * ptr) :=
  rbind (pool_find p KEnum n) (fun o => match o with Some q => Ok (p, q) | None => type_struct p alt end).
(** types.c:395-523, from the array case on *)
Definition named_type (p : pool) (n : bytes) : res (pool * ptr) :=
  if strcmp (firstn 4 n) (bs "map[") =? 0 then
    intern p (GType KMap n None (option_map fst (map_parts n)) (option_map snd (map_parts n)) None)
  else
    match match cut 46 n with Some (m, base) => if upper (hd 0 base) then Some (m ++ [95] ++ base) else None | None => None end with
    | Some prefixed => type_struct p prefixed
    | None =>
        if upper (hd 0 n) then enum_or p n n else
        match cut 95 n with
        | Some (_, base) =>
            if upper (hd 0 base) then
              enum_or p n (if existsb (fun o => strcmp base o =? 0) stdlib_opaque then base else n)
            else Ok (p, Single KUnknown)
        | None => Ok (p, Single KUnknown)
        end
    end.
Definition type_from_name (p : pool) (n : bytes) : res (pool * ptr) :=
  if strncmp_func n then intern p (GType KFunction n None None None (parse_func_sig n)) else
  match builtin n with
  | Some (One k) => Ok (p, Single k)
  | Some (Alloc k fixed) => intern p (plain k (match fixed with Some f => f | None => n end))
  | None =>
      if hd 0 n =? 94 then type_pointer p (tl n)
      else if (hd 0 n =? 91) && (2 <? Z.of_nat (length n)) && (last n 0 =? 93) then
        let elem := removelast (tl n) in
        type_array p (match cut 44 elem with Some (e, _) => e | None => elem end)
      else named_type p n
  end.

(** types.c:18-28 *)
Definition single_name (k : tkind) : bytes :=
  match k with
  | KVoid => bs "void" | KInt => bs "int" | KUint => bs "uint" | KFloat => bs "float" | KBool => bs "bool" | KChar => bs "char"
  | KByte => bs "byte" | KString => bs "string" | KNil => bs "nil" | _ => bs "unknown"
  end.
(** What an address points to. *)
Definition deref (p : pool) (q : ptr) : option gtype :=
  match q with Single k => Some (plain k (single_name k)) | Pool i => nth_error (descs p) i end.
(** types.c:287-306; an array descriptor without an element type would pass a
    null pointer to [strcmp]. *)
Definition type_equals (l r : gtype) : res bool :=
  if negb (knum (kind l) =? knum (kind r)) then Ok false else
  match kind l with
  | KStruct | KEnum | KPointer | KFunction => Ok (strcmp (name l) (name r) =? 0)
  | KArray => match element_type l, element_type r with Some a, Some b => Ok (strcmp a b =? 0) | _, _ => UB end
  | _ => Ok true
  end.

(** A type as it is written in a program, parser.c:275-499: a name (with module
    prefix already joined by an underscore, or the wildcard), a pointer, an
    array, an array with a size, a map, a function type. *)
Inductive ty :=
| TName (n : bytes)
| TPtr (t : ty)
| TArr (t : ty)
| TFix (t : ty) (size : bytes)
| TMap (k : bytes) (v : ty)
| TFunc (params : list (bool * ty)) (r : ret)
with ret := RNone | ROne (t : ty) | RMany (ts : list ty).
Definition MSG_BUF_SIZE : Z := 256.
Definition MSG_BUF_LARGE : Z := 512.
Definition opt_bind {A B} (o : option A) (f : A -> option B) : option B := match o with Some a => f a | None => None end.
(** [snprintf(buf + len, size - len, ...)] of [piece], given up when it does not
    fit: parser.c:435-437 and 468-471. *)
Definition append (size : Z) (buf piece : bytes) : option bytes :=
  if Z.of_nat (length buf) + Z.of_nat (length piece) <? size then Some (buf ++ piece) else None.
(** The text of a type; [None] when the parser gives up.  Which element types
    an array may have is not restricted here as it is in parser.c. *)
Fixpoint type_text (t : ty) : option bytes :=
  match t with
  | TName n => Some n
  | TPtr t => option_map (fun s => 94 :: s) (type_text t)
  | TArr t => option_map (fun s => [91] ++ s ++ [93]) (type_text t)
  | TFix t size => option_map (fun s => [91] ++ s ++ [44] ++ size ++ [93]) (type_text t)
  | TMap k v => option_map (fun s => bs "map[" ++ k ++ [58] ++ s ++ [93]) (type_text v)
  | TFunc params r =>
      (* parser.c:422-444 *)
      opt_bind ((fix go (buf : bytes) (l : list (bool * ty)) : option bytes :=
         match l with
         | [] => Some buf
         | (m, t) :: l =>
             opt_bind (type_text t) (fun s =>
             opt_bind (append MSG_BUF_LARGE buf ((if (0 <? length buf)%nat then [44] else []) ++ (if m : bool then [38] else []) ++ s)) (fun b =>
             go b l))
         end) [] params) (fun ps =>
      match r with
      | RNone => Some (bs "func(" ++ ps ++ [41])
      | ROne t =>
          (* parser.c:478-485: the text is cut to the buffer *)
          opt_bind (type_text t) (fun s =>
          if strcmp s (bs "void") =? 0 then None else
          Some (bs "func(" ++ ps ++ bs ")->" ++ firstn (Z.to_nat (MSG_BUF_SIZE - 1)) s))
      | RMany ts =>
          (* parser.c:455-477 *)
          opt_bind ((fix go (buf : bytes) (l : list ty) : option bytes :=
             match l with
             | [] => Some buf
             | t :: l =>
                 opt_bind (type_text t) (fun s =>
                 if strcmp s (bs "void") =? 0 then None else
                 opt_bind (append MSG_BUF_SIZE buf ((if (1 <? length buf)%nat then [44] else []) ++ s)) (fun b =>
                 go b l))
             end) [40] ts) (fun rs =>
          if MSG_BUF_SIZE <=? Z.of_nat (length rs) + 2 then None
          else Some (bs "func(" ++ ps ++ bs ")->" ++ rs ++ [41]))
      end)
  end.

(** The calls the checker makes to get a descriptor. *)
Inductive call := MkArray (n : bytes) | MkStruct (n : bytes) | MkEnum (n : bytes) | MkPointer (n : bytes) | FromName (n : bytes).
Definition do_call (p : pool) (c : call) : res (pool * ptr) :=
  match c with
  | MkArray n => type_array p n
  | MkStruct n => type_struct p n
  | MkEnum n => type_enum p n
  | MkPointer n => type_pointer p n
  | FromName n => type_from_name p n
  end.
(** A history of calls: the pool at the end and the addresses returned. *)
Fixpoint calls (p : pool) (l : list call) : res (pool * list ptr) :=
  match l with
  | [] => Ok (p, [])
  | c :: l => rbind (do_call p c) (fun r => rmap (fun s => (fst s, snd r :: snd s)) (calls (fst r) l))
  end.
