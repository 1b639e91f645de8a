(** Model of the command-line tools that echelonize a matrix.  The command line is already parsed:
    o holds the options and X the thresholds, the scheduling and the random draws (Echelonize.v);
    scr k is the working space of the threads, for vectors of length k. *)
From Coq Require Import String.
From Verif Require Import Base Spec SpecText SpecCert Zp Mat Sha Stdio IO Pivots Extract Par Schur Dense Echelonize Rref Gesv Cert CertIO Scc Dm.
Local Open Scope string_scope.
Local Open Scope list_scope.
Local Open Scope Z_scope.

(* tools/common.c:113-123, load_input_matrix, then spasm_triplet_transpose (depending on the
   dimensions n and m) and spasm_compress *)
Definition load_matrix (gs : Z -> Z) (g : Z -> Z -> Z -> Z) (flip : Z -> Z -> bool) (input : list Z) (prime : Z) (hash : option (list Z)) : res (csr * option (list Z)) :=
  '(T, h) <- triplet_load gs (g 0) input prime hash ;;
  A <- compress (g 1) (if flip (tn T) (tm T) then triplet_transpose T else T) ;;
  Ok (A, h).

Definition with_L (o : opts) : opts :=
  Opts (o_greedy o) (o_tall o) (o_dense o) (o_GPLU o) true (o_complete o) (o_rounds o) (o_blk o) (o_w0 o).

(* tools/kernel.c:68-93 *)
Definition tool_kernel (gs : Z -> Z) (g : Z -> Z -> Z -> Z) (X : params) (fuel : nat) (o : opts) (ch : Z -> Z) (scr : Z -> Z -> scratch)
    (left : bool) (input : list Z) (prime : Z) : res (list Z) :=
  '(A, _) <- load_matrix gs g (fun _ _ => left) input prime None ;;
  f <- echelonize X fuel o A ;;
  K <- kernel (g 2) ch (scr (cn (lu_U f))) (lu_U f) (lu_qinv f) ;;
  csr_save K.

(* tools/echelonize.c:55-82 *)
Definition tool_echelonize (gs : Z -> Z) (g : Z -> Z -> Z -> Z) (X : params) (fuel : nat) (o : opts) (ch : Z -> Z) (scr : Z -> Z -> scratch)
    (use_rref : bool) (input : list Z) (prime : Z) : res (list Z) :=
  '(A, _) <- load_matrix gs g (fun _ _ => false) input prime None ;;
  f <- echelonize X fuel o A ;;
  if use_rref then
    '(R, _) <- rref (g 2) ch (scr (cm A)) (lu_U f) (lu_qinv f) (malloc (g 3 0) (cm A)) ;;
    csr_save R
  else csr_save (lu_U f).

(* tools/solve.c:67-110; the rows reported without solution are returned too *)
Definition tool_solve (gs : Z -> Z) (g g' : Z -> Z -> Z -> Z) (X : params) (fuel : nat) (o : opts) (ch : Z -> Z) (w : Z -> Z -> Z -> Z)
    (input rhs : list Z) (prime : Z) : res (list Z * list Z) :=
  '(A, h) <- load_matrix gs g (fun _ _ => false) input prime (Some (malloc (g 2 0) 32)) ;;
  '(B, _) <- load_matrix gs g' (fun _ _ => false) rhs prime h ;;
  f <- echelonize X fuel (with_L o) A ;;
  '(XX, ok) <- gesv (g 3) ch w f B (Some (malloc (g 4 0) (cn B))) ;;
  ok <- deref ok ;;
  warn <- for_ 0 (cn B) (fun i warn => b <- aget ok i ;; Ok (if b =? 0 then warn ++ [i] else warn)) [] ;;
  out <- csr_save XX ;;
  Ok (out, warn).

(* tools/rank.c:71-124: the printed rank; with a certificate, this certificate and whether
   "CORRECT certificate" is printed.  gc and fc: for the random generator *)
Definition tool_rank (gs : Z -> Z) (g : Z -> Z -> Z -> Z) (X : params) (fuel : nat) (o : opts) (gc : Z -> Z -> Z -> Z -> Z) (fc : nat)
    (allow_transpose certificate : bool) (input : list Z) (prime : Z) : res (Z * option (cert * bool)) :=
  '(A, h) <- load_matrix gs g (fun n m => allow_transpose && (n <? m)) input prime (Some (malloc (g 2 0) 32)) ;;
  f <- echelonize X fuel (if certificate then with_L o else o) A ;;
  let r := cn (lu_U f) in
  if certificate then
    hash <- deref h ;;
    b <- factorization_verify (gc 0) fc A f 42 ;; _ <- assert_ b ;;
    b <- factorization_verify (gc 1) fc A f 1337 ;; _ <- assert_ b ;;
    b <- factorization_verify (gc 2) fc A f 21011984 ;; _ <- assert_ b ;;
    proof <- rank_create (gc 3) fc A hash f ;;
    correct <- rank_verify (gc 4) fc A hash proof ;;
    Ok (r, Some (proof, correct))
  else Ok (r, None).

(* tools/check_cert.c:56-83: whether "CORRECT certificate" is printed, and the exit code.  The
   answer of spasm_rank_certificate_load is ignored; when it fails the certificate is [junk]. *)
Definition tool_check_cert (gs : Z -> Z) (g : Z -> Z -> Z -> Z) (gc : Z -> Z -> Z -> Z) (fc : nat) (junk : cert)
    (input certificate : list Z) (prime : Z) : res (bool * Z) :=
  '(A, h) <- load_matrix gs g (fun _ _ => false) input prime (Some (malloc (g 2 0) 32)) ;;
  o <- cert_load (g 3) certificate ;;
  hash <- deref h ;;
  correct <- rank_verify gc fc A hash (match o with Some proof => proof | None => junk end) ;;
  Ok (negb correct, if correct then 1 else 0).

(* tools/dm.c:50-56: the decomposition and the permuted matrix *)
Definition dm_permute (g : Z -> Z -> Z -> Z) (gd : Z -> Z -> Z -> Z) (A : csr) : res (dm * csr) :=
  D <- dulmage_mendelsohn gd A ;;
  qinv <- pinv (g 2) (Some (dm_q D)) (cm A) ;;
  B <- permute (g 3) A (Some (dm_p D)) qinv true ;;
  Ok (D, B).
(* tools/dm.c:43-56: the same, for the matrix of a file *)
Definition dm_matrix (gs : Z -> Z) (g : Z -> Z -> Z -> Z) (gd : Z -> Z -> Z -> Z) (input : list Z) : res (dm * csr) :=
  '(A, _) <- load_matrix gs g (fun _ _ => false) input 42013 None ;;
  dm_permute g gd A.
(* tools/dm.c:88-90: the permuted matrix (mode p) *)
Definition tool_dm (gs : Z -> Z) (g : Z -> Z -> Z -> Z) (gd : Z -> Z -> Z -> Z) (input : list Z) : res (list Z) :=
  '(_, B) <- dm_matrix gs g gd input ;;
  csr_save B.
(* a line of tools/dm.c:64, 69 or 86: the dimensions of a part *)
Definition print_part (name : string) (a b : Z) (tail : string) : list Z :=
  chars "*) " ++ chars name ++ chars " (" ++ print_int a ++ chars " x " ++ print_int b ++ chars ")" ++ chars tail ++ [NL].
(* tools/dm.c:60-86: the description of the parts *)
Definition dm_report (D : dm) : res (list Z) :=
  let r := dm_r D in
  rr0 <- aget (dm_rr D) 0 ;; rr1 <- aget (dm_rr D) 1 ;; rr2 <- aget (dm_rr D) 2 ;; rr4 <- aget (dm_rr D) 4 ;;
  cc0 <- aget (dm_cc D) 0 ;; cc2 <- aget (dm_cc D) 2 ;; cc3 <- aget (dm_cc D) 3 ;; cc4 <- aget (dm_cc D) 4 ;;
  z <- i32 (rr2 + cc4) ;;
  let f := chars "structural rank = " ++ print_int (z - cc3) ++ [NL] in
  let h_n := rr1 - rr0 in let h_m := cc2 - cc0 in
  let f := if (0 <? h_n) && (0 <? h_m) then f ++ print_part "H" h_n h_m "" else f in
  let s_n := rr2 - rr1 in let s_m := cc3 - cc2 in
  f <- (if (0 <? s_n) && (0 <? s_m) then
      let f := f ++ print_part "S" s_n s_m " : " in
      '(f, n_trivial) <- for_ 1 (dm_nb D - 1) (fun i '(f, n_trivial) =>
          r1 <- aget r (i + 1) ;; r0 <- aget r i ;;
          let size := r1 - r0 in
          if size =? 1 then Ok (f, n_trivial + 1) else Ok (f ++ chars "    *) SCC of size " ++ print_int size ++ [NL], n_trivial)) (f, 0) ;;
      Ok (if 0 <? n_trivial then f ++ chars "    -> plus " ++ print_int n_trivial ++ chars " SCC of size 1" ++ [NL] else f)
    else Ok f) ;;
  let v_n := rr4 - rr2 in let v_m := cc4 - cc3 in
  Ok (if (0 <? v_n) && (0 <? v_m) then f ++ print_part "V" v_n v_m "" else f).
(* tools/dm.c:60-86 (mode v) *)
Definition tool_dm_report (gs : Z -> Z) (g : Z -> Z -> Z -> Z) (gd : Z -> Z -> Z -> Z) (input : list Z) : res (list Z) :=
  '(D, _) <- dm_matrix gs g gd input ;;
  dm_report D.
