(** What is asked of the lifetimes of blocks of memory (C76). *)
From Coq Require Import Permutation.
From Verif Require Import Base Lifetime.

(* blocks not yet allocated are not live, and no block is live twice *)
Definition good (h : heap) : Prop := NoDup (h_live h) /\ Forall (fun b => b < h_next h) (h_live h).
(* A function that owns the blocks l, whatever other blocks R are live, uses and frees live blocks only,
   and ends with the blocks k v, where v is its result, and the blocks R.  Blocks that are used or freed
   after they were freed, or freed twice, make the function fail. *)
Definition safe {T} (l : list Z) (f : H T) (k : T -> list Z) : Prop :=
  forall h R, good h -> Permutation (h_live h) (l ++ R) -> exists v h', f h = Ok (v, h') /\ good h' /\ Permutation (h_live h') (k v ++ R).
(* the same, and n blocks more, that nothing refers to *)
Definition loses {T} (n : nat) (l : list Z) (f : H T) (k : T -> list Z) : Prop :=
  forall h R, good h -> Permutation (h_live h) (l ++ R) -> exists v h' lost, f h = Ok (v, h') /\ good h' /\ length lost = n /\ Permutation (h_live h') (k v ++ lost ++ R).
