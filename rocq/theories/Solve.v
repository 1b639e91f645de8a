(** Model of src/spasm_solve.c. *)
From Verif Require Import Base Spec Zp Mat Reach.

(* src/spasm_solve.c:27-33; Uq is not initialised before *)
Definition pivot_columns (qinv : list Z) (m : Z) (Uq : list Z) : res (list Z) :=
  for_ 0 m (fun j Uq =>
    i <- aget qinv j ;;
    if i =? -1 then Ok Uq else aset Uq i j) Uq.

(* src/spasm_solve.c:13-48; y0, z0, Uq0 are the uninitialised workspaces *)
Definition solve (y0 z0 Uq0 : list Z) (f : lu) (b x : list Z) : res (bool * list Z) :=
  L <- deref (lu_L f) ;;
  let U := lu_U f in let m := cm U in
  Uq <- pivot_columns (lu_qinv f) m Uq0 ;;
  y <- for_ 0 m (fun i y => v <- aget b i ;; aset y i v) y0 ;;
  '(ok, _, z) <- dense_forward_solve U y z0 (Some Uq) ;;
  '(_, x) <- dense_back_solve L z x (Some (lu_p f)) ;;
  Ok (ok, x).
