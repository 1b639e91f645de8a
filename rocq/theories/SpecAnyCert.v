(** Certificates read from any file (C82). *)
From Verif Require Import Base Spec SpecText SpecAccept SpecSha Cert.

(* the file starts with a number r such that r integers of 4 bytes need a block that malloc refuses *)
Definition too_many (most : Z) (cf : list Z) : Prop := exists r t, begins1 cf r t /\ most < 4 * r.
(* what is known of a certificate that was read: arrays of max(0, r) integers, which may be indeterminate *)
Definition read_cert (c : cert) : Prop :=
  int32 (c_r c) /\ int64 (c_prime c) /\ len (c_hash c) = 32 /\ bytes (c_hash c) /\
  forall l, In l [c_i c; c_j c; c_x c; c_y c] -> len l = Z.max 0 (c_r c).
(* the numbers fit in an int *)
Definition ints (c : cert) : Prop := forall l, In l [c_i c; c_j c; c_x c; c_y c] -> Forall int32 l.
