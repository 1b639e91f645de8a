(** Strongly connected components of the graph of a square matrix (an edge from i to j for each entry). *)
From Verif Require Import Base Spec.

Inductive reach (A : csr) : Z -> Z -> Prop :=
| reach_refl i : reach A i i
| reach_step i j k : reach A i j -> stored A j k -> reach A i k.
Definition strong (A : csr) (i j : Z) : Prop := reach A i j /\ reach A j i.

(* increasing boundaries, from 0 to n *)
Definition boundaries (n nb : Z) (r : list Z) : Prop :=
  0 <= nb /\ nb < len r /\ get r 0 = 0 /\ get r nb = n /\ forall t, 0 <= t < nb -> get r t < get r (t + 1).
(* position a is in block t *)
Definition in_block (r : list Z) (t a : Z) : Prop := get r t <= a < get r (t + 1).
