(** Model of the dimensions of the pictures: tools/bitmap.c:56-59, tools/dm.c:100-102. *)
From Verif Require Import Base Spec Stdio IO ZZp.
From Flocq Require Import FLX BinarySingleNaN.

Definition d_sqrt : double -> double := @Bsqrt 53 1024 Hprec Hemax mode_NE.
(* (int) d: truncation towards zero, undefined when not finite or out of range *)
Definition d_to_i32 (d : double) : res Z := if is_finite d then i32 (Btrunc d) else Fail Overflow.
(* alpha, w and h *)
Definition image_alpha (mpix : double) (n m : Z) : double := d_sqrt (d_div (d_mul mpix (d_of_int 1000000)) (d_mul (d_of_int n) (d_of_int m))).
Definition image_size (mpix : double) (n m : Z) : res (Z * Z) :=
  let alpha := image_alpha mpix n m in
  w <- d_to_i32 (d_mul alpha (d_of_int m)) ;;
  h <- d_to_i32 (d_mul alpha (d_of_int n)) ;;
  Ok (w, h).
