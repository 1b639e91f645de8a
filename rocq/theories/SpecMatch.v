(** Matchings: choices of entries of a matrix, no two of them in the same row or column. *)
From Verif Require Import Base Spec.

(* p[i] = column matched to row i, q[j] = row matched to column j, or -1 *)
Record matching (A : csr) (p q : list Z) : Prop := {
  ma_lenp : len p = cn A;
  ma_lenq : len q = cm A;
  ma_row : forall i, 0 <= i < cn A -> get p i = -1 \/ 0 <= get p i < cm A /\ stored A i (get p i) /\ get q (get p i) = i;
  ma_col : forall j, 0 <= j < cm A -> get q j = -1 \/ 0 <= get q j < cn A /\ get p (get q j) = j
}.
(* number of matched rows *)
Definition msize (p : list Z) : Z := sum 0 (len p) (fun i => if 0 <=? get p i then 1 else 0).
Definition maximum_size (A : csr) (k : Z) : Prop :=
  (exists p q, matching A p q /\ msize p = k) /\ forall p q, matching A p q -> msize p <= k.
