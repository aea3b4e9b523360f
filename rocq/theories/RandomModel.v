(** The random module as a machine with a state (random.c:16-97) and the code of
    random.choice (codegen.c:4935-4966).  The generator of the C library is a
    parameter: srand makes a state of an unsigned number, rand gives a number
    and the next state.  The clock is a parameter too: the time at each call.
    Floats are not modelled, nor calls from several threads. *)
From Verif Require Import Base ArrayModel RandomSpec.

Section Random.
Context {G : Type} (srand : Z -> G) (rand : G -> Z * G).
Record st := St { seeded : bool; gen : G }.
(** random.c:17-19 *)
Definition ensure_seed (now : Z) (s : st) : st := if seeded s then s else St true (srand (wrap_u 32 now)).
Definition draw (s : st) : Z * st := let (r, g) := rand (gen s) in (r, St (seeded s) g).
Fixpoint draws (n : nat) (s : st) : list Z * st :=
  match n with O => ([], s) | S n => let (r, s1) := draw s in let (rs, s2) := draws n s1 in (r :: rs, s2) end.
Definition with_draw (f : Z -> res answer) (s : st) : res answer * st := let (r, s') := draw s in (f r, s').
(** random.c:34-38 *)
Definition int_max (max : Z) (s : st) : res Z * st :=
  if max <=? 0 then (Ok 0, s) else let (r, s') := draw s in (random_int_max max r, s').
(** random.c:70-87 *)
Definition do_shuffle (l : list Z) (s : st) : list Z * st := let (rs, s') := draws (length l - 1) s in (shuffle l rs, s').
Definition step (now : Z) (s : st) (c : call) : res answer * st :=
  match c with
  | Seed v => (Ok Nothing, St true (srand (wrap_u 32 v)))                                        (* random.c:21-24 *)
  | IntMax m => let (x, s') := int_max m (ensure_seed now s) in (rmap Value x, s')
  | IntRange a b => let s := ensure_seed now s in                                                 (* random.c:40-44 *)
      if b <=? a then (Ok (Value a), s) else with_draw (fun r => rmap Value (random_int_range a b r)) s
  | Bool => with_draw (fun r => Ok (Value (if Z.rem r 2 =? 0 then 1 else 0))) (ensure_seed now s) (* random.c:46-49 *)
  | Byte => with_draw (fun r => Ok (Value (random_byte r))) (ensure_seed now s)
  | Char => with_draw (fun r => Ok (Value (random_char r))) (ensure_seed now s)
  | CharRange a b => let s := ensure_seed now s in                                                (* random.c:61-65 *)
      if b <=? a then (Ok (Value a), s) else with_draw (fun r => rmap Value (random_char_range a b r)) s
  | Choice l => let (x, s') := int_max (Z.of_nat (length l)) (ensure_seed now s) in               (* codegen.c:4955-4964 *)
      (rbind x (fun i => match nth_error l (Z.to_nat i) with Some v => Ok (Value v) | None => Panic 33 end), s')
  | Shuffle l => let (l', s') := do_shuffle l (ensure_seed now s) in (Ok (Values l'), s')
  | Sample l n => let n := wrap_i 32 n in                                                         (* random.c:89-97 *)
      if Z.of_nat (length l) <? n then (Panic 62, s)
      else if n <? 0 then (Panic 63, s)
      else let (l', s') := do_shuffle l (ensure_seed now s) in (Ok (Values (firstn (Z.to_nat n) l')), s')
  end.
(** What the calls return; a panic is the last. *)
Fixpoint run (clock : nat -> Z) (i : nat) (s : st) (cs : list call) : list (res answer) :=
  match cs with
  | [] => []
  | c :: t => let (o, s') := step (clock i) s c in
              o :: match o with Ok _ => run clock (S i) s' t | _ => [] end
  end.
End Random.
