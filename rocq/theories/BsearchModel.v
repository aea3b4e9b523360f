(** Model of the C library's [bsearch] as the compiler uses it, over a sorted
    table and with [strcmp] against the name of an entry:
    grayc/src/codegen/codegen.c:152-166 and
    grayc/src/typechecker/types.c:386-422. *)
From Verif Require Import Base LexModel.

(** The loop of [bsearch] on the entries lo..hi-1: the index found. *)
Fixpoint bsearch_loop {A} (fuel : nat) (name : A -> bytes) (t : list A) (key : bytes) (lo hi : nat) : option nat :=
  match fuel with
  | O => None
  | S fuel =>
      if (lo <? hi)%nat then
        let idx := Nat.div2 (lo + hi) in
        match nth_error t idx with
        | None => None
        | Some e =>
            let c := strcmp key (name e) in
            if c <? 0 then bsearch_loop fuel name t key lo idx
            else if 0 <? c then bsearch_loop fuel name t key (S idx) hi
            else Some idx
        end
      else None
  end.
Definition bsearch {A} (name : A -> bytes) (t : list A) (key : bytes) : option nat :=
  bsearch_loop (S (length t)) name t key 0 (length t).
