(** What the variants of an enum are worth, and the meaning of the C
    declarations an enum becomes. *)
From Verif Require Import Base LitSpec.

(** What is written after a variant: a number, a number with a minus sign, or
    a string (raw or not) given by the text between its quotes. *)
Inductive given := Num (n : Z) | Minus (n : Z) | Str (raw : bool) (s : bytes).
Record variant := Variant { v_name : bytes; v_given : option given; v_payload : nat }.
Record enum := Enum { e_name : bytes; e_flags : bool; e_variants : list variant }.

Definition textual (e : enum) : Prop := exists v r s, In v (e_variants e) /\ v_given v = Some (Str r s).
Definition tagged (e : enum) : Prop := exists v, In v (e_variants e) /\ (0 < v_payload v)%nat.
Definition number (g : given) : option Z := match g with Num n => Some n | Minus n => Some (- n) | Str _ _ => None end.
(** The number of the variant at a position: the one written; otherwise a
    power of two in a flags enum; otherwise 0 for the first variant and one
    more than the variant before for the others. *)
Inductive worth (flags : bool) (vs : list variant) : nat -> Z -> Prop :=
| w_given i v g n : nth_error vs i = Some v -> v_given v = Some g -> number g = Some n -> worth flags vs i n
| w_first v : flags = false -> nth_error vs 0%nat = Some v -> v_given v = None -> worth flags vs 0%nat 0
| w_next i v n : flags = false -> nth_error vs (S i) = Some v -> v_given v = None -> worth flags vs i n -> worth flags vs (S i) (n + 1)
| w_flag i v : flags = true -> nth_error vs i = Some v -> v_given v = None -> worth flags vs i (2 ^ Z.of_nat i).
Inductive value := Int (n : Z) | Text (s : bytes).
Inductive means (e : enum) (i : nat) : value -> Prop :=
| m_int n : ~ textual e -> ~ tagged e -> worth (e_flags e) (e_variants e) i n -> means e i (Int n)
| m_tag v : ~ textual e -> tagged e -> nth_error (e_variants e) i = Some v -> v_given v = None -> means e i (Int (Z.of_nat i))
| m_text v s its : nth_error (e_variants e) i = Some v -> v_given v = Some (Str false s) -> spells s its -> means e i (Text (map denoted its))
| m_raw v s : nth_error (e_variants e) i = Some v -> v_given v = Some (Str true s) -> means e i (Text s)
| m_name v : textual e -> nth_error (e_variants e) i = Some v -> v_given v = None -> means e i (Text (v_name v)).

(** Text that needs no escape. *)
Definition simple (s : bytes) : Prop := (forall c, In c s -> c <> 0 /\ c <> 92 /\ c <> 34 /\ c <> 10) /\ free_of (bs "??") s.
Definition word (s : bytes) : Prop := forall c, In c s -> 48 <= c <= 57 \/ 65 <= c <= 90 \/ c = 95 \/ 97 <= c <= 122.

(** * C *)
(** A constant is an enumerator, or a macro for a string with its length. *)
Inductive constant := Enumerator (n : Z) | Define (d : emitted).
Inductive cdecl :=
| CEnum (l : list (bytes * option Z))     (* enum { x, y = 1, ... } *)
| CDefines (l : list (bytes * emitted)).  (* #define x ... *)
Notation env := (list (bytes * constant)).
Fixpoint find (x : bytes) (g : env) : option constant :=
  match g with [] => None | (y, c) :: t => if list_eq_dec Z.eq_dec y x then Some c else find x t end.
(** C11 6.7.2.2: an enumerator without a value is one more than the one before,
    the first is 0; each is an int.  A name may not be declared twice. *)
Fixpoint c_enumerators (next : Z) (l : list (bytes * option Z)) (g : env) : option env :=
  match l with
  | [] => Some g
  | (x, o) :: t =>
      let n := match o with Some n => n | None => next end in
      match find x g with
      | Some _ => None
      | None => if (INT32_MIN <=? n) && (n <=? INT32_MAX) then c_enumerators (n + 1) t ((x, Enumerator n) :: g) else None
      end
  end.
(** A later macro replaces what was declared before. *)
Definition c_decl (d : cdecl) (g : env) : option env :=
  match d with
  | CEnum l => c_enumerators 0 l g
  | CDefines l => Some (rev (map (fun p => (fst p, Define (snd p))) l) ++ g)
  end.
Fixpoint c_file (l : list cdecl) (g : env) : option env :=
  match l with [] => Some g | d :: t => match c_decl d g with Some g' => c_file t g' | None => None end end.
Definition read (c : constant) : option value :=
  match c with Enumerator n => Some (Int n) | Define d => option_map Text (value_of d) end.
