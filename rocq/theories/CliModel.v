(** Model of cli/fmt.go:30-69 formatGraySource, cli/new.go:143-154 isValidProjectName, cli/doc.go:93-251 (extraction of
    documented items), cli/watch.go:71-107 (debounced event loop) and 239-297 (search for the entry file).  Go strings are
    lists of bytes; strings.TrimSpace and strings.Fields follow unicode.IsSpace. *)
From Verif Require Import Base SemverModel InstallModel CliSpec.

(** ** fmt.go *)
Definition is_blank (c : Z) : bool := (c =? 9) || (c =? 32).
(** fmt.go:36-45: the prefix written, and the rest of the line *)
Fixpoint lead (l : bytes) : bytes * bytes :=
  match l with
  | [] => ([], [])
  | c :: r => if is_blank c then let (p, q) := lead r in ((if c =? 9 then [32; 32; 32; 32] else [32]) ++ p, q) else ([], l)
  end.
(** strings.TrimRight(s, " \t") *)
Fixpoint drop_blanks (r : bytes) : bytes := match r with [] => [] | c :: q => if is_blank c then drop_blanks q else r end.
Definition trim_right (s : bytes) : bytes := rev (drop_blanks (rev s)).
(** fmt.go:34-48 for one line *)
Definition fmt_line (l : bytes) : bytes := let (p, q) := lead l in p ++ trim_right q.
(** fmt.go:51-63 *)
Fixpoint collapse (blank : nat) (ls : list bytes) : list bytes :=
  match ls with
  | [] => []
  | l :: r => match l with
              | [] => if (S blank <=? 2)%nat then l :: collapse (S blank) r else collapse (S blank) r
              | _ => l :: collapse 0 r
              end
  end.
(** fmt.go:66-68 *)
Fixpoint drop_empty (r : list bytes) : list bytes := match r with [] :: q => drop_empty q | _ => r end.
Definition strip_end (ls : list bytes) : list bytes := rev (drop_empty (rev ls)).
(** strings.Join(out, "\n") *)
Fixpoint join_lines (ls : list bytes) : bytes := match ls with [] => [] | [l] => l | l :: r => l ++ 10 :: join_lines r end.
(** fmt.go:30-69 *)
Definition format_source (src : bytes) : bytes :=
  join_lines (strip_end (collapse 0 (map fmt_line (split_on 10 src)))) ++ [10].

(** ** new.go:143-154 (filepath.IsAbs and Clean for Unix) *)
Fixpoint contains (p s : bytes) : bool :=
  has_prefix s p || match s with [] => false | _ :: r => contains p r end.
Definition valid_project_name (n : bytes) : bool :=
  if beq n [] then false
  else if has_prefix n [47] || has_prefix n [126] then false
  else if mem 47 n || mem 92 n || contains (bs "..") n then false
  else beq (clean n) n && negb (beq (clean n) (bs ".")) && negb (beq (clean n) (bs "..")).

(** ** strings.TrimSpace, strings.Fields *)
(** the number of bytes of the white space character at the start of s; 0: none *)
Definition space_at (s : bytes) : nat :=
  match s with
  | [] => 0%nat
  | c :: r =>
      if ((9 <=? c) && (c <=? 13)) || (c =? 32) then 1%nat
      else match r with
           | [] => 0%nat
           | d :: r2 =>
               if (c =? 194) && ((d =? 133) || (d =? 160)) then 2%nat
               else match r2 with
                    | [] => 0%nat
                    | e :: _ =>
                        if ((c =? 225) && (d =? 154) && (e =? 128)) ||
                           ((c =? 226) && (d =? 128) && (((128 <=? e) && (e <=? 138)) || (e =? 168) || (e =? 169) || (e =? 175))) ||
                           ((c =? 226) && (d =? 129) && (e =? 159)) || ((c =? 227) && (d =? 128) && (e =? 128))
                        then 3%nat else 0%nat
                    end
           end
  end.
Fixpoint ltrim_fuel (n : nat) (s : bytes) : bytes :=
  match n with O => s | S n => match space_at s with O => s | k => ltrim_fuel n (skipn k s) end end.
Definition ltrim (s : bytes) : bytes := ltrim_fuel (length s) s.
(** the same at the end of the text: r is the text reversed *)
Definition space_end (r : bytes) : nat :=
  match r with
  | [] => 0%nat
  | e :: r1 =>
      if ((9 <=? e) && (e <=? 13)) || (e =? 32) then 1%nat
      else match r1 with
           | [] => 0%nat
           | d :: r2 => if Nat.eqb (space_at [d; e]) 2 then 2%nat
                        else match r2 with [] => 0%nat | c :: _ => if Nat.eqb (space_at [c; d; e]) 3 then 3%nat else 0%nat end
           end
  end.
Fixpoint rtrim_fuel (n : nat) (r : bytes) : bytes :=
  match n with O => r | S n => match space_end r with O => r | k => rtrim_fuel n (skipn k r) end end.
Definition rtrim (s : bytes) : bytes := rev (rtrim_fuel (length s) (rev s)).
Definition trim_space (s : bytes) : bytes := rtrim (ltrim s).
(** strings.Fields(s)[0], or [] when there is none *)
Fixpoint word (s : bytes) : bytes :=
  match s with [] => [] | c :: r => match space_at s with O => c :: word r | _ => [] end end.
Definition first_field (s : bytes) : bytes := word (ltrim s).

(** bufio.Scanner with ScanLines: lines without "\n" and one "\r"; a last line without newline counts if it is not empty;
    a line of 65536 bytes or more ends the scan *)
Definition drop_cr (l : bytes) : bytes := match rev l with 13 :: r => rev r | _ => l end.
Fixpoint scan_lines (ls : list bytes) : list bytes :=
  match ls with
  | [] => []
  | [l] => if match l with [] => true | _ => false end then [] else if 65536 <=? Z.of_nat (length l) then [] else [drop_cr l]
  | l :: r => if 65536 <=? Z.of_nat (length l) then [] else drop_cr l :: scan_lines r
  end.
Definition file_lines (content : bytes) : list bytes := scan_lines (split_on 10 content).

(** ** doc.go *)
(** text between the first and last q; [] when there are not two *)
Definition between (q : Z) (l : bytes) : bytes :=
  match cut q l with
  | Some (_, after) => match cut_last q after with Some (d, _) => d | None => [] end
  | None => []
  end.
(** doc.go:212-227 extractDocString *)
Definition doc_string (l : bytes) : bytes := if mem 34 l then between 34 l else if mem 39 l then between 39 l else [].
Definition trim_prefix (p l : bytes) : bytes := if has_prefix l p then skipn (length p) l else l.
(** doc.go:230-237 extractFuncName *)
Definition func_name (l : bytes) : bytes :=
  let l := trim_prefix (bs "private ") l in
  let l := trim_prefix (bs "do ") l in
  match cut 40 l with Some (a, _) => trim_space a | None => first_field l end.
(** doc.go:240-248 extractStructEnumName *)
Definition block_name (l : bytes) : bytes := first_field (trim_prefix (bs "const ") l).
(** strings.Count(line, "{") - strings.Count(line, "}") *)
Fixpoint brace_count (l : bytes) : Z :=
  match l with [] => 0 | c :: r => (if c =? 123 then 1 else if c =? 125 then -1 else 0) + brace_count r end.
(** The variables of the loop: pendingDoc, and inside a block its kind, name, lines (last first) and depth *)
Record scan := Scan { pending : bytes; block : option (bytes * bytes * list bytes * Z); found : list item }.
(** doc.go:168-207: a struct or enum starts *)
Definition start_block (kind line trimmed : bytes) (s : scan) : scan :=
  let name := block_name trimmed in
  let d := brace_count line in
  if 0 <? d then Scan (pending s) (Some (kind, name, [line], d)) (found s)
  else Scan [] None (found s ++ [Item name kind trimmed (pending s)]).
(** doc.go:118-207: one line *)
Definition doc_line (s : scan) (line : bytes) : scan :=
  let trimmed := trim_space line in
  match block s with
  | Some (kind, name, ls, d) =>
      let ls := line :: ls in
      let d := d + brace_count line in
      if d <=? 0 then Scan [] None (found s ++ [Item name kind (join_lines (rev ls)) (pending s)])
      else Scan (pending s) (Some (kind, name, ls, d)) (found s)
  | None =>
      if has_prefix trimmed (bs "#doc(") then Scan (doc_string trimmed) None (found s)
      else if beq (pending s) [] || beq trimmed [] then s
      else if has_prefix trimmed (bs "do ") || has_prefix trimmed (bs "private do ") then
        let sig := match cut 123 trimmed with Some (a, _) => trim_space a | None => trimmed end in
        Scan [] None (found s ++ [Item (func_name trimmed) (bs "function") sig (pending s)])
      else if contains (bs " struct ") trimmed && has_prefix trimmed (bs "const ") then start_block (bs "struct") line trimmed s
      else if contains (bs " enum ") trimmed && has_prefix trimmed (bs "const ") then start_block (bs "enum") line trimmed s
      else Scan [] None (found s)
  end.
(** doc.go:93-210 collectDocsFromFile, for a file that can be read *)
Definition collect_docs (content : bytes) : list item := found (fold_left doc_line (file_lines content) (Scan [] None [])).

(** ** watch.go *)
(** watch.go:282-297 hasMainFunction *)
Definition has_main (content : bytes) : bool := existsb (fun l => has_prefix (trim_space l) (bs "do main(")) (file_lines content).
(** strings.HasSuffix *)
Definition has_suffix (s p : bytes) : bool := has_prefix (rev s) (rev p).
(** watch.go:239-252 collectGrayFilesInDir: filepath.Walk visits the entries in the order given (sorted by name); a path is
    the names leading to the file; everything can be read *)
Fixpoint gray_files (n : node) : list (list bytes * bytes) :=
  match n with
  | Leaf name content => if has_suffix name (bs ".gray") then [([name], content)] else []
  | Dir name kids => map (fun f => (name :: fst f, snd f)) (flat_map gray_files kids)
  end.
(** watch.go:255-279 findMainFile: None is an error *)
Definition find_main (kids : list node) : option (list bytes) :=
  match filter (fun f => has_main (snd f)) (flat_map gray_files kids) with
  | [f] => Some (fst f)
  | _ => None
  end.

(** watch.go:71-107 watchLoop as a machine with a clock.  events: the relevant events not yet received by the loop (their
    times); timer: the deadline of the running timer; the first run of the program (line 74) is done before the loop
    starts.  Logs: when events happened, when the loop handled them, when rebuilds started (last first).
    Simplified: an event takes no time to handle; a timer may fire any time after its deadline; Stop either cancels the
    timer or comes after it fired. *)
Record watch := Watch { now : Z; running_first : bool; events : list Z; timer : option Z; happened : list Z; handled : list Z; starts : list Z }.
Inductive wstep : watch -> watch -> Prop :=
| t_wait n r e t h d s n' : n <= n' -> wstep (Watch n r e t h d s) (Watch n' r e t h d s)
| t_event n r e t h d s : wstep (Watch n r e t h d s) (Watch n r (e ++ [n]) t (n :: h) d s)
| t_first n e t h d s : wstep (Watch n true e t h d s) (Watch n false e t h d s)
| t_handle n a e t h d s : wstep (Watch n false (a :: e) t h d s) (Watch n false e (Some (n + 100)) h (n :: d) s)
| t_fire n r e k h d s : k <= n -> wstep (Watch n r e (Some k) h d s) (Watch n r e None h d (n :: s)).
Inductive wruns (w : watch) : watch -> Prop :=
| wruns_here : wruns w w
| wruns_step u v : wruns w u -> wstep u v -> wruns w v.
Definition watch_start : watch := Watch 0 true [] None [] [] [].
