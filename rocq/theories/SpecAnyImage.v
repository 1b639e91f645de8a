(** The pattern that is read from any file (C83). *)
From Verif Require Import Base Spec SpecText SpecAccept.

(* as like_matrix, whatever the letter of the header *)
Definition like_pattern (f : list Z) (n m : Z) (es : list (Z * Z * Z)) : Prop := (exists c, like_sms f n m c es) \/ like_mm f n m es.
(* the rows announced, or more if an entry lies below *)
Definition tall (n : Z) (es : list (Z * Z * Z)) : Z := fold_right (fun '(i, _, _) k => Z.max i k) n es.
(* the same, for the columns *)
Definition wide (m : Z) (es : list (Z * Z * Z)) : Z := fold_right (fun '(_, j, _) k => Z.max j k) m es.
(* -1 rows are announced, and there is no entry *)
Definition nothing (f : list Z) : Prop := exists m, like_pattern f (-1) m [].
