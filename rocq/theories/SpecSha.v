(** SHA-256 as described in FIPS 180-4, on lists of bytes; the constants are computed from the prime
    numbers they come from. *)
From Verif Require Import Base Spec.

Definition byte (b : Z) : Prop := 0 <= b < 256.
Definition word (x : Z) : Prop := 0 <= x < 2 ^ 32.
Definition bytes (l : list Z) : Prop := Forall byte l.

(* big-endian representation of an integer on k bytes *)
Fixpoint be (k : nat) (x : Z) : list Z :=
  match k with O => [] | S k => be k (x / 256) ++ [x mod 256] end.
(* the integer represented by a list of bytes *)
Definition of_be (l : list Z) : Z := fold_left (fun acc b => 256 * acc + b) l 0.

Definition w32 (x : Z) : Z := x mod 2 ^ 32.

(* section 2.2.2, 3.2: rotation to the right of a 32-bit word, shift *)
Definition rotr (n x : Z) : Z := x / 2 ^ n + (x mod 2 ^ n) * 2 ^ (32 - n).
Definition shr (n x : Z) : Z := x / 2 ^ n.

(* section 4.1.2 *)
Definition ch (x y z : Z) : Z := Z.lxor (Z.land x y) (Z.land (2 ^ 32 - 1 - x) z).
Definition maj (x y z : Z) : Z := Z.lxor (Z.lxor (Z.land x y) (Z.land x z)) (Z.land y z).
Definition bsig0 (x : Z) : Z := Z.lxor (Z.lxor (rotr 2 x) (rotr 13 x)) (rotr 22 x).
Definition bsig1 (x : Z) : Z := Z.lxor (Z.lxor (rotr 6 x) (rotr 11 x)) (rotr 25 x).
Definition ssig0 (x : Z) : Z := Z.lxor (Z.lxor (rotr 7 x) (rotr 18 x)) (shr 3 x).
Definition ssig1 (x : Z) : Z := Z.lxor (Z.lxor (rotr 17 x) (rotr 19 x)) (shr 10 x).

(* section 4.2.2: "the first thirty-two bits of the fractional parts of the cube roots of the first
   sixty-four prime numbers"; section 5.3.3: square roots of the first eight *)
Definition is_prime (p : Z) : bool := forallb (fun d => negb (p mod d =? 0)) (zseq 2 p).
Definition primes : list Z := filter is_prime (zseq 2 312).
(* the largest r < 2^36 such that r^3 <= x *)
Definition cbrt (x : Z) : Z :=
  fold_left (fun r k => if (r + 2 ^ k) ^ 3 <=? x then r + 2 ^ k else r) (map (fun i => 35 - i) (zseq 0 36)) 0.
Definition sha_K : list Z := map (fun p => cbrt (p * 2 ^ 96) mod 2 ^ 32) primes.
Definition sha_H0 : list Z := map (fun p => Z.sqrt (p * 2 ^ 64) mod 2 ^ 32) (firstn 8 primes).

(* section 5.1.1: padding of a message of whole bytes *)
Definition pad (m : list Z) : list Z :=
  m ++ [128] ++ fill ((55 - len m) mod 64) 0 ++ be 8 (8 * len m).

(* k bytes of l from position o *)
Definition slice {A} (l : list A) (o k : Z) : list A := firstn (Z.to_nat k) (skipn (Z.to_nat o) l).

(* section 6.2.2, step 1: message schedule *)
Definition words (b : list Z) : list Z := map (fun t => of_be (slice b (4 * t) 4)) (zseq 0 16).
Fixpoint extend (k : nat) (W : list Z) : list Z :=
  match k with
  | O => W
  | S k => let t := len W in
      extend k (W ++ [w32 (ssig1 (get W (t - 2)) + get W (t - 7) + ssig0 (get W (t - 15)) + get W (t - 16))])
  end.
Definition schedule (b : list Z) : list Z := extend 48 (words b).

(* step 3: one round on the eight working variables *)
Definition regs : Type := Z * Z * Z * Z * Z * Z * Z * Z.
Definition step (K W : list Z) (s : regs) (t : Z) : regs :=
  let '(a, b, c, d, e, f, g, h) := s in
  let T1 := w32 (h + bsig1 e + ch e f g + get K t + get W t) in
  let T2 := w32 (bsig0 a + maj a b c) in
  (w32 (T1 + T2), a, b, c, w32 (d + T1), e, f, g).
Definition get_regs (H : list Z) : regs :=
  (get H 0, get H 1, get H 2, get H 3, get H 4, get H 5, get H 6, get H 7).
Definition add_regs (H : list Z) (s : regs) : list Z :=
  let '(a, b, c, d, e, f, g, h) := s in
  [w32 (a + get H 0); w32 (b + get H 1); w32 (c + get H 2); w32 (d + get H 3);
   w32 (e + get H 4); w32 (f + get H 5); w32 (g + get H 6); w32 (h + get H 7)].
(* steps 2 to 4 *)
Definition compress (H b : list Z) : list Z :=
  add_regs H (fold_left (step sha_K (schedule b)) (zseq 0 64) (get_regs H)).

(* the blocks of 64 bytes of a list, and the hash *)
Definition blocks (l : list Z) : list (list Z) := map (fun k => slice l (64 * k) 64) (zseq 0 (len l / 64)).
Definition absorb (H l : list Z) : list Z := fold_left compress (blocks l) H.
Definition sha256 (m : list Z) : list Z := flat_map (be 4) (absorb sha_H0 (pad m)).
