(** The matrix that is loaded from any file (C80). *)
From Verif Require Import Base Spec SpecText SpecAccept SpecTools SpecAny.

(* the rows announced, or more if an entry that does not vanish modulo p lies below *)
Definition rows (p n : Z) (es : list (Z * Z * Z)) : Z := fold_right (fun '(i, _, _) k => Z.max i k) n (kept p es).
(* the same, for the columns *)
Definition cols (p m : Z) (es : list (Z * Z * Z)) : Z := fold_right (fun '(_, j, _) k => Z.max j k) m (kept p es).
(* -1 rows are announced (or columns, if the tool transposes the matrix), and there is no entry that does not vanish *)
Definition minus_one (flip : Z -> Z -> bool) (f : list Z) (p : Z) : Prop :=
  exists n m es, like_matrix f n m es /\ kept p es = [] /\ (if flip n m then m else n) = -1.
(* no cancellation at any position, if the file is that of a matrix *)
Definition quiet (p : Z) (f : list Z) : Prop := forall n m es, like_matrix f n m es -> no_cancel p es.
