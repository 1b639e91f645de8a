(** What the sizes printed in messages stand for: 12.3k is 12300. *)
From Verif Require Import Base Spec SpecText.

(* k, m, g and t *)
Definition unit_letter (D c : Z) : Prop := D = 10 ^ 3 /\ c = 107 \/ D = 10 ^ 6 /\ c = 109 \/ D = 10 ^ 9 /\ c = 103 \/ D = 10 ^ 12 /\ c = 116.
(* s stands for v tenths: an integer, or a number with one decimal and a letter *)
Inductive stands : list Z -> Z -> Prop :=
| stands_int s z : numeral s z -> stands s (10 * z)
| stands_unit a q t D c : numeral a q -> 0 <= t <= 9 -> unit_letter D c -> stands (a ++ [46; 48 + t; c]) ((10 * q + t) * D).
(* v tenths are nearest to n, among the numbers with one decimal in the unit of n *)
Definition near (n v : Z) : Prop :=
  (n < 1000 -> v = 10 * n) /\ forall D c, unit_letter D c -> D <= n < 1000 * D -> (D | v) /\ 2 * Z.abs (v - 10 * n) <= D.
