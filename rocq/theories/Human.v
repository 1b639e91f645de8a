(** Model of the printing of sizes: src/spasm_util.c:40-63. *)
From Verif Require Import Base Spec SpecText Stdio ZZp.
From Flocq Require Import FLX BinarySingleNaN.

(* the integer nearest to a / b (ties: the even one) *)
Definition nearest_even (a b : Z) : Z :=
  let q := a / b in let r := a mod b in
  if 2 * r <? b then q else if b <? 2 * r then q + 1 else if Z.even q then q else q + 1.
(* 10 d rounded to an integer, for a finite d >= 0: what printf prints with the format %.1f (exact, as in the GNU C library) *)
Definition tenths (d : double) : Z :=
  match d with
  | B754_finite _ m e _ => if 0 <=? e then 10 * Zpos m * 2 ^ e else nearest_even (10 * Zpos m) (2 ^ (- e))
  | _ => 0
  end.
Definition print_tenths (t : Z) : list Z := print_int (t / 10) ++ 46 :: print_int (t mod 10).
(* snprintf with a buffer of 8 bytes: the string in the buffer *)
Definition snprintf8 (s : list Z) : list Z := firstn 7 s.
Definition human_scaled (n unit letter : Z) : list Z := snprintf8 (print_tenths (tenths (d_div (d_of_int n) (d_of_int unit))) ++ [letter]).
(* src/spasm_util.c:40-63; target: what the buffer contained *)
Definition human_format (n : Z) (target : list Z) : list Z :=
  if n <? 1000 then snprintf8 (print_int n)
  else if n <? 1000000 then human_scaled n 1000 107
  else if n <? 1000000000 then human_scaled n 1000000 109
  else if n <? 1000000000000 then human_scaled n 1000000000 103
  else if n <? 1000000000000000 then human_scaled n 1000000000000 116
  else target.
