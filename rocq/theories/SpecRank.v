(** The rank of a matrix modulo p. *)
From Verif Require Import Base Spec.

(* the k vectors v 0, ..., v (k - 1), of length m, are linearly independent modulo p *)
Definition lin_indep (p m k : Z) (v : Z -> Z -> Z) : Prop :=
  forall lam, (forall j, 0 <= j < m -> cong p (sum 0 k (fun i => lam i * v i j)) 0) -> forall i, 0 <= i < k -> cong p (lam i) 0.
(* the row space of A has a basis of r vectors *)
Definition rank_is (p : Z) (A : csr) (r : Z) : Prop :=
  0 <= r /\ exists v, lin_indep p (cm A) r v /\ (forall k, 0 <= k < r -> in_rowspace p A (v k)) /\
  forall i, 0 <= i < cn A -> exists c, forall j, 0 <= j < cm A -> cong p (entry A i j) (sum 0 r (fun k => c k * v k j)).
