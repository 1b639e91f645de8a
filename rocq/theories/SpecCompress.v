(** The effect of src/spasm_triplet.c:36-58 on the rows of a matrix, given as lists of (column, value). *)
From Verif Require Import Base Spec.

Definition nonzero (e : Z * Z) : bool := negb (snd e =? 0).
(* what remains before row k: the rows 0 to k - 1 are shrunk in place, and as many entries as have been removed so far are
   read again at the beginning of the next row *)
Fixpoint carry (R : Z -> list (Z * Z)) (k : nat) : list (Z * Z) :=
  match k with
  | O => []
  | S k => let s := carry R k ++ R (Z.of_nat k) in skipn (length (filter nonzero s)) s
  end.
