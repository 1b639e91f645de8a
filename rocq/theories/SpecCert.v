(** Challenges. *)
From Verif Require Import Base Spec SpecSha SpecPrng.

(* v is the k-th element of Z/p drawn from the stream (from k = 0): the k-th word that is accepted *)
Definition is_draw (seed : list Z) (p seq k v : Z) : Prop :=
  0 <= k /\ exists b N x, mask_bits p b /\ nth_error (prng_accepted seed p seq b N) (Z.to_nat k) = Some x /\ v = bal p x.
(* digit k of N in base p: N = 0, ..., p^r - 1 enumerates the vectors of r elements of Z/p *)
Definition digit (p N k : Z) : Z := (N / p ^ k) mod p.
(* the number of rows before row i that are not in the list *)
Definition outside (ii : list Z) (i : Z) : Z := sum 0 i (fun t => if existsb (Z.eqb t) ii then 0 else 1).
(* the seed made of a 64-bit number: its low and high halves, in big-endian order, and zeroes *)
Definition seed_bytes (sd : Z) : list Z := be 4 (sd mod 2 ^ 32) ++ be 4 (sd / 2 ^ 32) ++ fill 24 0.
(* x restricted to the rows of the list *)
Definition on_rows (rows : list Z) (x : Z -> Z) (i : Z) : Z := if existsb (Z.eqb i) rows then x i else 0.
(* row i of L * U *)
Definition lu_entry (L U : csr) (i j : Z) : Z := sum 0 (cn U) (fun k => entry L i k * entry U k j).
