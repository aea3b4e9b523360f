(** Model of grayc/src/typechecker/typechecker.c:1260-1310 (the name suggested
    for an unknown one).
    Simplified: names are the bytes of NUL-free C strings and the int arithmetic
    does not wrap around, as they are shorter than 2^31; the row is a list, so
    that the stack buffer and the allocated one are not told apart. *)
From Verif Require Import Base LexModel.

(** typechecker.c:1274: [del < ins ? (del < sub ? del : sub) : (ins < sub ? ins : sub)] *)
Definition least3 (del ins sub : Z) : Z := if del <? ins then (if del <? sub then del else sub) else if ins <? sub then ins else sub.
(** typechecker.c:1270-1277: the cells from [j] on; [old] is what the row holds
    there, [prev] and [left] are [prev] and [row[j-1]] *)
Fixpoint cells (ca : Z) (b : bytes) (old : list Z) (prev left : Z) : list Z :=
  match b, old with
  | cb :: b, o :: old =>
      let cost := if ca =? cb then 0 else 1 in
      let v := least3 (o + 1) (left + 1) (prev + cost) in
      v :: cells ca b old o v
  | _, _ => []
  end.
(** typechecker.c:1267-1278: the rows from [i] on *)
Fixpoint rows (a : bytes) (b : bytes) (i : Z) (row : list Z) : list Z :=
  match a with
  | [] => row
  | ca :: a => rows a b (i + 1) (i :: cells ca b (tl row) (hd 0 row) i)
  end.
Definition first_row (b : bytes) : list Z := map Z.of_nat (seq 0 (S (length b))).
(** typechecker.c:1260-1282 *)
Definition levenshtein (a b : bytes) : Z :=
  if Z.of_nat (length a) =? 0 then Z.of_nat (length b) else
  if Z.of_nat (length b) =? 0 then Z.of_nat (length a) else
  nth (length b) (rows a b 1 (first_row b)) 0.

(** typechecker.c:1292-1296 and 1302-1306: one candidate *)
Definition consider (name : bytes) (st : option bytes * Z) (cand : bytes) : option bytes * Z :=
  let d := levenshtein name cand in
  if (0 <? d) && (d <? snd st) then (Some cand, d) else st.
(** typechecker.c:1285-1310: the names in the scopes, innermost first, and then
    the functions *)
Definition suggest_similar_name (scopes : list (list bytes)) (funcs : list bytes) (name : bytes) : option bytes :=
  fst (fold_left (consider name) funcs (fold_left (fun st s => fold_left (consider name) s st) scopes (None, 3))).
