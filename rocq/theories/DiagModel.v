(** Model of the compiler's diagnostic list, grayc/src/util/error.c:39-113 and
    187-388, and of the reading of the -q option, grayc/src/main.c:677-689 and
    779-815.
    Simplified: strings are the bytes of NUL-free C strings; standard error is
    the text written to it; [read_file_to_string] is a function [disk] that does
    not change during the run; [xmalloc] does not fail; the sums of columns do
    not overflow; what the entry points error.c:115-185 do beyond passing on
    their arguments (looking up and formatting messages) is left out. *)
From Verif Require Import Base LexModel Decimal.
From Verif Require Import ImportModel.

(** error.h:30-45; [end_col] 0 stands for the same column *)
Inductive severity := SError | SWarning.
Record diagnostic := Diag { sev : severity; code : option bytes; message : bytes; dfile : option bytes; dline : Z; dcol : Z; end_col : Z; help : option bytes }.
(** error.h:21-28; an unused slot has no path; [offsets] is line_offsets, as the
    text from each of the addresses on *)
Record cslot := Slot { path : option bytes; offsets : list bytes; last_use : Z }.
(** error.h:47-72 *)
Record dlist := DList { items : list diagnostic; dcap : Z; error_count : Z; warning_count : Z; cache : list cslot; clock : Z;
  use_color : bool; suppress_all : bool; suppressed : list bytes }.
Definition empty_slot : cslot := Slot None [] 0.
(** error.c:72-77 *)
Definition diagnostic_create (tty : bool) : dlist := DList [] 0 0 0 (repeat empty_slot 4) 0 tty false [].

(** error.c:55-67 *)
Fixpoint after_newlines (s : bytes) : list bytes :=
  match s with [] => [] | c :: r => if c =? 10 then r :: after_newlines r else after_newlines r end.
Definition build_line_index (source : bytes) : list bytes := source :: after_newlines source.
(** error.c:39-53 *)
Fixpoint to_newline (s : bytes) : bytes := match s with [] => [] | c :: r => if c =? 10 then [] else c :: to_newline r end.
Definition SOURCE_LINE_MAX : Z := 2048.
Definition read_source_line (offsets : list bytes) (n : Z) : option bytes :=
  if (n <? 1) || (Z.of_nat (length offsets) <? n) then None
  else option_map (fun s => firstn (Z.to_nat (SOURCE_LINE_MAX - 1)) (to_newline s)) (nth_error offsets (Z.to_nat (n - 1))).
(** error.c:187-198 *)
Definition set_slot (c : list cslot) (i : nat) (s : cslot) : list cslot := firstn i c ++ [s] ++ skipn (S i) c.
Definition diagnostic_set_source (d : dlist) (file source : bytes) : dlist :=
  DList (items d) (dcap d) (error_count d) (warning_count d) (set_slot (cache d) 0 (Slot (Some file) (build_line_index source) 0)) (clock d)
    (use_color d) (suppress_all d) (suppressed d).

Definition MAX_ERRORS_DISPLAYED : Z := 20.
Definition is_error (d : diagnostic) : bool := match sev d with SError => true | SWarning => false end.
(** error.c:88-113 *)
Definition diagnostic_add (l : dlist) (d : diagnostic) : res dlist :=
  if is_error d && (MAX_ERRORS_DISPLAYED <=? error_count l) then Ok l else
  rbind (if dcap l <=? Z.of_nat (length (items l)) then
           if dcap l =? 0 then Ok 16 else if INT32_MAX <? dcap l * 2 then UB else Ok (dcap l * 2)
         else Ok (dcap l)) (fun c =>
  Ok (DList (items l ++ [d]) c (if is_error d then error_count l + 1 else error_count l) (if is_error d then warning_count l else warning_count l + 1)
        (cache l) (clock l) (use_color l) (suppress_all l) (suppressed l))).
Definition add_all (l : dlist) (ds : list diagnostic) : res dlist := fold_left (fun r d => rbind r (fun l => diagnostic_add l d)) ds (Ok l).
(** error.c:200-202 *)
Definition diagnostic_has_errors (l : dlist) : bool := 0 <? error_count l.

(** error.c:246-254: the first slot holding [f] *)
Fixpoint slot_of (c : list cslot) (f : bytes) (i : nat) : option nat :=
  match c with
  | [] => None
  | s :: r => if match path s with Some p => eqs p f | None => false end then Some i else slot_of r f (S i)
  end.
(** error.c:259-263 *)
Fixpoint evict_from (c : list cslot) (ci : nat) (best : nat) (use : Z) : nat :=
  match c with
  | [] => best
  | s :: r => if last_use s <? use then evict_from r (S ci) ci (last_use s) else evict_from r (S ci) best use
  end.
Definition evict (c : list cslot) : nat :=
  match skipn 1 c with [] => 1%nat | s :: r => evict_from r 2 1 (last_use s) end.
(** error.c:244-280: the source line and the cache after *)
Definition source_line (disk : bytes -> option bytes) (c : list cslot) (clock : Z) (d : diagnostic) : option bytes * (list cslot * Z) :=
  match dfile d with
  | None => (None, (c, clock))
  | Some f =>
      let found :=
        match slot_of c f 0 with
        | Some i => option_map (fun s => (i, s)) (nth_error c i)
        | None => option_map (fun content => (evict c, Slot (Some f) (build_line_index content) 0)) (disk f)
        end in
      match found with
      | None => (None, (c, clock))
      | Some (i, s) =>
          let now := wrap_u 32 (clock + 1) in
          (read_source_line (offsets s) (dline d), (set_slot c i (Slot (path s) (offsets s) now), now))
      end
  end.

(** error.c:26-35 *)
Definition ESC : Z := 27.
Definition col (color : bool) (n : bytes) : bytes := if color then [ESC; 91] ++ n ++ [109] else [].
Definition RESET : bytes := bs "0".
Definition BOLD : bytes := bs "1".
Definition RED : bytes := bs "31".
Definition YELLOW : bytes := bs "33".
Definition CYAN : bytes := bs "36".
Definition BLUE : bytes := bs "34".
(** printf's conversion with width 3 *)
Definition pad3 (s : bytes) : bytes := repeat 32 (3 - length s) ++ s.
(** error.c:214-317: the text written for a diagnostic and its source line *)
Definition render (color : bool) (d : diagnostic) (src : option bytes) : bytes :=
  let c := col color in
  let sev_str := if is_error d then bs "error" else bs "warning" in
  let sev_color := if is_error d then RED else YELLOW in
  c BOLD ++ c sev_color ++ sev_str ++ c RESET ++
  match code d with Some k => c BOLD ++ c sev_color ++ [91] ++ k ++ [93] ++ c RESET | None => [] end ++
  c BOLD ++ bs ": " ++ message d ++ c RESET ++ [10] ++
  match dfile d with
  | Some f => if 0 <? dline d then bs "  " ++ c BLUE ++ bs "-->" ++ c RESET ++ [32] ++ f ++ [58] ++ dec_signed (dline d) ++ [58] ++ dec_signed (dcol d) ++ [10] else []
  | None => []
  end ++
  match src with
  | Some s =>
      if 0 <? dline d then
        let start := if 0 <? dcol d then dcol d else 1 in
        let fin := if 0 <? end_col d then end_col d else start in
        let span := if fin - start + 1 <? 1 then 1 else fin - start + 1 in
        bs "   " ++ c BLUE ++ [124] ++ c RESET ++ [10] ++
        c BLUE ++ pad3 (dec_signed (dline d)) ++ c RESET ++ [32] ++ c BLUE ++ [124] ++ c RESET ++ [32] ++ s ++ [10] ++
        bs "   " ++ c BLUE ++ [124] ++ c RESET ++ [32] ++ repeat 32 (Z.to_nat (start - 1)) ++
        c BOLD ++ c sev_color ++ repeat 94 (Z.to_nat span) ++ c RESET ++ [10]
      else []
  | None => []
  end ++
  match help d with
  | Some h => bs "   " ++ c BLUE ++ [124] ++ c RESET ++ [10] ++ bs "   " ++ c BLUE ++ [61] ++ c RESET ++ [32] ++ c CYAN ++ bs "help" ++ c RESET ++ bs ": " ++ h ++ [10]
  | None => []
  end ++ [10].
(** error.c:319-328 *)
Definition is_warning_suppressed (l : dlist) (d : diagnostic) : bool :=
  if is_error d then false else if suppress_all l then true else
  match code d with Some k => existsb (fun s => eqs k s) (suppressed l) | None => false end.
(** error.c:330-335: the loop, on the rest of the items and the cache *)
Fixpoint print_items (disk : bytes -> option bytes) (l : dlist) (ds : list diagnostic) (c : list cslot) (clock : Z) : bytes :=
  match ds with
  | [] => []
  | d :: r =>
      if is_warning_suppressed l d then print_items disk l r c clock else
      let '(src, (c, clock)) := source_line disk c clock d in
      render (use_color l) d src ++ print_items disk l r c clock
  end.
Definition diagnostic_print_all (disk : bytes -> option bytes) (l : dlist) : bytes := print_items disk l (items l) (cache l) (clock l).
(** error.c:337-388 *)
Definition diagnostic_print_summary (l : dlist) : bytes :=
  let c := col (use_color l) in
  let errors := error_count l in
  let warnings := Z.of_nat (length (filter (fun d => negb (is_error d) && negb (is_warning_suppressed l d)) (items l))) in
  if (errors =? 0) && (warnings =? 0) then [] else
  c BOLD ++ bs "grayscale:" ++ c RESET ++ [32] ++
  (if 0 <? errors then c BOLD ++ c RED ++ dec_signed errors ++ bs " error" ++ (if errors =? 1 then [] else bs "s") ++ c RESET else []) ++
  (if (0 <? errors) && (0 <? warnings) then bs ", " else []) ++
  (if 0 <? warnings then c BOLD ++ c YELLOW ++ dec_signed warnings ++ bs " warning" ++ (if warnings =? 1 then [] else bs "s") ++ c RESET else []) ++
  (if 0 <? errors then bs ". compilation failed." ++ [10] else [10]) ++
  (if (0 <? warnings) && negb (suppress_all l) && match suppressed l with [] => true | _ => false end then
     c BOLD ++ bs "hint:" ++ c RESET ++ bs " suppress warnings with -q <W1001,W1002,...> or -q 'all'" ++ [10] else []).

(** [strtok(s, ",")] until it gives null *)
Fixpoint strtok (s : bytes) (tok : bytes) : list bytes :=
  match s with
  | [] => match tok with [] => [] | _ => [rev tok] end
  | c :: r => if c =? 44 then match tok with [] => strtok r [] | _ => rev tok :: strtok r [] end else strtok r (c :: tok)
  end.
(** What the command line says about warnings. *)
Inductive quiet := QNone | QAll | QCodes (l : list bytes) | QRejected.
(** main.c:677-689: -q with the argument after it, if any *)
Definition quiet_option (next : option bytes) : quiet :=
  match next with
  | Some a => if hd 0 a =? 87 then
      (* main.c:785-814 *)
      let toks := strtok a [] in
      if forallb (fun t => negb (hd 0 t =? 69) && (hd 0 t =? 87)) toks then QCodes toks else QRejected
    else if hd 0 a =? 69 then QRejected else QAll
  | None => QAll
  end.
(** main.c:779-815 *)
Definition configure (l : dlist) (q : quiet) : dlist :=
  match q with
  | QAll => DList (items l) (dcap l) (error_count l) (warning_count l) (cache l) (clock l) (use_color l) true (suppressed l)
  | QCodes codes => DList (items l) (dcap l) (error_count l) (warning_count l) (cache l) (clock l) (use_color l) (suppress_all l) codes
  | _ => l
  end.
(** main.c:822-831 and 1504-1521: what is printed, and the exit status if the
    compiler stops there, when parsing reports [ds1] and the import loop and the
    type checker report [ds2] *)
Definition front (disk : bytes -> option bytes) (l : dlist) (ds1 ds2 : list diagnostic) : res (bytes * option Z) :=
  rbind (add_all l ds1) (fun l =>
  if diagnostic_has_errors l then Ok (diagnostic_print_all disk l ++ diagnostic_print_summary l, Some 1) else
  rmap (fun l =>
    if diagnostic_has_errors l then (diagnostic_print_all disk l ++ diagnostic_print_summary l, Some 1)
    else if (0 <? warning_count l) && negb (diagnostic_has_errors l) then (diagnostic_print_all disk l ++ diagnostic_print_summary l, None)
    else ([], None)) (add_all l ds2)).
(** main.c:772-777: the list the compiler starts with *)
Definition start (tty : bool) (no_color : bool) (input_file source : bytes) (q : quiet) : dlist :=
  let l := diagnostic_set_source (diagnostic_create tty) input_file source in
  configure (if no_color then DList (items l) (dcap l) (error_count l) (warning_count l) (cache l) (clock l) false (suppress_all l) (suppressed l) else l) q.
