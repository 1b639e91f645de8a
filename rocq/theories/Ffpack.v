(** Model of the functions that call FFPACK: src/spasm_ffpack.cpp:21-98.

    The matrix is an array of integers (see Datatype.v for the cells that hold them), without
    padding: ldA = m, as in both calls (src/spasm_echelonize.c).  The template is instantiated on
    the type of the cells, which plays no role in what is computed around the calls.  [g s k] is
    the k-th uninitialised cell of the array allocated at point s. *)
From Verif Require Import Base Mat SpecFfpack.

(* FFPACK::LAPACKPerm2MathPerm, which is part of the library and not of /repo: the identity is
   written in M, then for each i the cells i and L[i] of M are exchanged if they are distinct. *)
Definition lapack_to_math (M L : list Z) (n : Z) : res (list Z) :=
  M <- for_ 0 n (fun i M => aset M i i) M ;;
  for_ 0 n (fun i M =>
    l <- aget L i ;;
    if l =? i then Ok M
    else
      a <- aget M i ;;
      b <- aget M l ;;
      M <- aset M i b ;;
      aset M l a) M.

(* src/spasm_ffpack.cpp:30-33 and 61-64: for (int i = 0; i < n; i++) P[i] = 0; *)
Definition zeros (P : list Z) (n : Z) : res (list Z) := for_ 0 n (fun i P => aset P i 0) P.

(* src/spasm_ffpack.cpp:21-44 *)
Definition ffpack_rref (g : Z -> Z -> Z) (F : library) (n m : Z) (A qinv : list Z) : res (Z * list Z * list Z) :=
  let Qt := malloc (g 0) m in
  let P := malloc (g 1) n in
  P <- zeros P n ;;
  Qt <- zeros Qt m ;;
  let '(rank, A, P, Qt) := l_rref F n m A P Qt in
  qinv <- lapack_to_math qinv Qt m ;;
  Ok (rank, A, qinv).

(* src/spasm_ffpack.cpp:51-76 *)
Definition ffpack_LU (g : Z -> Z -> Z) (F : library) (n m : Z) (A p qinv : list Z) : res (Z * list Z * list Z * list Z) :=
  let Qt := malloc (g 0) m in
  let P := malloc (g 1) n in
  P <- zeros P n ;;
  Qt <- zeros Qt m ;;
  let '(rank, A, P, Qt) := l_plu F n m A P Qt in
  p <- lapack_to_math p P n ;;
  qinv <- lapack_to_math qinv Qt m ;;
  Ok (rank, A, p, qinv).
