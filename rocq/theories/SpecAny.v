(** Files whose header announces a number of rows, with no entry to store (C78). *)
From Verif Require Import Base Spec SpecText SpecAccept SpecTools.

(* an SMS or MatrixMarket file with n rows and m columns announced, and the entries es *)
Definition like_matrix (f : list Z) (n m : Z) (es : list (Z * Z * Z)) : Prop := like_sms f n m 77 es \/ like_mm f n m es.
(* n rows, and all the entries are zero modulo p, if there are some *)
Definition only_rows (f : list Z) (p n : Z) : Prop := exists m es, like_matrix f n m es /\ kept p es = [].
