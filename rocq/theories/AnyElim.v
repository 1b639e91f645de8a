(** The tools that echelonize a matrix, on any input.

    As in AnyInput.v, the blocks of memory that the loading needs have the size computed in C.  The
    elimination itself is that of ToolsElim.v: X m holds the workspaces for m columns, allocated
    once the matrix is known. *)
From Verif Require Import Base Spec Zp Mat Sha Stdio IO Header AnyInput Par Schur Dense Echelonize Rref Cert ToolsElim.

(* tools/common.c:113-123, load_input_matrix, then spasm_triplet_transpose (depending on the
   dimensions n and m) and spasm_compress *)
Definition nload_matrix (gs : Z -> Z) (g : Z -> Z -> Z -> Z) (most : Z) (flip : Z -> Z -> bool) (input : list Z) (prime : Z) (hash : option (list Z)) : res (csr * option (list Z)) :=
  '(T, h) <- hload gs (g 0) most input prime hash ;;
  A <- ncompress (g 1) most (if flip (tn T) (tm T) then triplet_transpose T else T) ;;
  Ok (A, h).
(* tools/kernel.c:68-93 *)
Definition ntool_kernel (gs : Z -> Z) (g : Z -> Z -> Z -> Z) (most : Z) (X : Z -> params) (fuel : nat) (o : opts) (ch : Z -> Z) (scr : Z -> Z -> scratch)
    (left : bool) (input : list Z) (prime : Z) : res (list Z) :=
  '(A, _) <- nload_matrix gs g most (fun _ _ => left) input prime None ;;
  f <- echelonize (X (cm A)) fuel o A ;;
  K <- kernel (g 2) ch (scr (cn (lu_U f))) (lu_U f) (lu_qinv f) ;;
  csr_save K.
(* tools/echelonize.c:55-82 *)
Definition ntool_echelonize (gs : Z -> Z) (g : Z -> Z -> Z -> Z) (most : Z) (X : Z -> params) (fuel : nat) (o : opts) (ch : Z -> Z) (scr : Z -> Z -> scratch)
    (use_rref : bool) (input : list Z) (prime : Z) : res (list Z) :=
  '(A, _) <- nload_matrix gs g most (fun _ _ => false) input prime None ;;
  f <- echelonize (X (cm A)) fuel o A ;;
  if use_rref then
    '(R, _) <- rref (g 2) ch (scr (cm A)) (lu_U f) (lu_qinv f) (malloc (g 3 0) (cm A)) ;;
    csr_save R
  else csr_save (lu_U f).
(* tools/rank.c:71-124 *)
Definition ntool_rank (gs : Z -> Z) (g : Z -> Z -> Z -> Z) (most : Z) (X : Z -> params) (fuel : nat) (o : opts) (gc : Z -> Z -> Z -> Z -> Z) (fc : nat)
    (allow_transpose certificate : bool) (input : list Z) (prime : Z) : res (Z * option (cert * bool)) :=
  '(A, h) <- nload_matrix gs g most (fun n m => allow_transpose && (n <? m)) input prime (Some (malloc (g 2 0) 32)) ;;
  f <- echelonize (X (cm A)) fuel (if certificate then with_L o else o) A ;;
  let r := cn (lu_U f) in
  if certificate then
    hash <- deref h ;;
    b <- factorization_verify (gc 0) fc A f 42 ;; _ <- assert_ b ;;
    b <- factorization_verify (gc 1) fc A f 1337 ;; _ <- assert_ b ;;
    b <- factorization_verify (gc 2) fc A f 21011984 ;; _ <- assert_ b ;;
    proof <- rank_create (gc 3) fc A hash f ;;
    correct <- rank_verify (gc 4) fc A hash proof ;;
    Ok (r, Some (proof, correct))
  else Ok (r, None).
