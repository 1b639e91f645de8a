(** What the header of a MatrixMarket file announces (C77). *)
From Verif Require Import Base Spec SpecText SpecAccept.

(* f starts with a MatrixMarket header, comments, and a line that announces nnz entries *)
Definition announces (f : list Z) (nnz : Z) : Prop :=
  exists h cs d r n m, f = concat (h :: cs ++ [d]) ++ r /\ begins_mm h /\ Forall (fun s => get s 0 = 37) cs /\ begins3 d n m nnz /\ int64 nnz.
(* no access outside of an array, and an end *)
Definition orderly {T} (r : res T) : Prop := r <> Fail OOB /\ r <> Fail OutOfFuel.
