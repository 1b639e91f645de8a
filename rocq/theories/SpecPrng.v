(** The pseudo-random stream: SHA-256 in counter mode. *)
From Verif Require Import Base Spec SpecSha.

(* the block hashed for the counter c *)
Definition prng_block (seed : list Z) (p c seq : Z) : list Z := seed ++ be 4 p ++ be 4 c ++ be 4 seq.
(* the k-th 32-bit word of the stream *)
Definition prng_word (seed : list Z) (p seq k : Z) : Z :=
  of_be (slice (sha256 (prng_block seed p (k / 8) seq)) (4 * (k mod 8)) 4).
(* 2^b is the smallest power of two that is not below p *)
Definition mask_bits (p b : Z) : Prop := 0 <= b /\ p <= 2 ^ b < 2 * p.
(* the values accepted among the first N words, in order *)
Definition prng_accepted (seed : list Z) (p seq b N : Z) : list Z :=
  filter (fun x => x <? p) (map (fun k => prng_word seed p seq k mod 2 ^ b) (zseq 0 N)).
