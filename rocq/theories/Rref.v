(** Models of src/spasm_rref.c and src/spasm_kernel.c.  As in Schur.v, [scr i] is the private
    scratch space of iteration i and [ch] decides the interleaving of the iterations. *)
From Verif Require Import Base Spec Zp Mat Reach Par Schur.

(* the arrays of the matrix under construction *)
Definition rows_mem (S : csr) : buf -> list Z := fun b =>
  match b with
  | SJ => cj S | SX => match cx S with Some x => x | None => [] end | SP => cp S
  | _ => [] end.

(* src/spasm_rref.c:57-79, then the writes of 107-116.  qinv_local is a private copy of Uqinv,
   modified on line 59 and restored on line 117, so each iteration starts from Uqinv. *)
Definition rref_task (U : csr) (Uqinv : list Z) (scr : scratch) (i : Z) : res task :=
  let m := cm U in
  let '(xj, ps, mk, x) := scr in
  lo <- aget (cp U) i ;;
  pivot <- aget (cj U) lo ;;
  q <- aget Uqinv pivot ;;
  _ <- assert_ (q =? i) ;;
  qinv <- aset Uqinv pivot (-1) ;;
  '(top, xj, _, _, x) <- sparse_triangular_solve U U i xj ps mk x qinv ;;
  o <- forb (top + 1) m (fun px xj =>
      j <- aget xj px ;;
      if j =? pivot then
        t <- aget xj top ;;
        xj <- aset xj px t ;;
        xj <- aset xj top pivot ;;
        Ok (inr xj)
      else Ok (inl xj)) xj ;;
  let xj := match o with inl xj => xj | inr xj => xj end in
  t <- aget xj top ;;
  _ <- assert_ (t =? pivot) ;;
  row_nz <- for_ top m (fun px a =>
      j <- aget xj px ;; q <- aget qinv j ;;
      if q <? 0 then v <- aget x j ;; if v =? 0 then Ok a else Ok (a + 1) else Ok a) 0 ;;
  '(prog, a) <- for_ top m (fun px '(prog, a) =>
      j <- aget xj px ;; q <- aget qinv j ;;
      if q <? 0 then
        v <- aget x j ;;
        if v =? 0 then Ok (prog, a) else Ok (prog ++ [Wr SJ a j; Wr SX a v], a + 1)
      else Ok (prog, a)) ([], 0) ;;
  Ok (Task true m m row_nz 0 (prog ++ [Wr SP 0 a])).

(* src/spasm_rref.c:22-146; Rqinv is an output argument, allocated by the caller.  The
   conversion of Rp[i] to int on line 137 is kept. *)
Definition rref (g : Z -> Z -> Z) (ch : Z -> Z) (scr : Z -> scratch) (U : csr) (Uqinv Rqinv : list Z)
  : res (csr * list Z) :=
  let n := cn U in let m := cm U in
  nz <- aget (cp U) n ;;
  let R := csr_alloc g n m nz (cprime U) true in
  ts <- all_tasks n (fun i => rref_task U Uqinv (scr i) i) ;;
  h <- par_for g false 0 n ch (getd idle ts) 0 (rows_mem R) ;;
  let mem := s_mem h in
  Rqinv <- for_ 0 m (fun j q => aset q j (-1)) Rqinv ;;
  Rqinv <- for_ 0 n (fun i q =>
      px <- aget (mem SP) i ;;
      j <- aget (mem SJ) (to_i32 px) ;;
      aset q j i) Rqinv ;;
  Ok (Csr n m (mem SP) (mem SJ) (Some (mem SX)) (cprime U), Rqinv).

(* src/spasm_kernel.c:49-63, then the writes of 91-105 *)
Definition kernel_task (Ut : csr) (qinv Utqinv : list Z) (scr : scratch) (j : Z) : res task :=
  let n := cm Ut in
  let '(xj, ps, mk, x) := scr in
  q <- aget qinv j ;;
  if q >=? 0 then Ok idle else
  '(top, xj, _, _, x) <- sparse_triangular_solve Ut Ut j xj ps mk x Utqinv ;;
  row_nz <- for_ top n (fun px a =>
      jj <- aget xj px ;; v <- aget x jj ;;
      if v =? 0 then Ok a else Ok (a + 1)) 1 ;;
  '(prog, a) <- for_ top n (fun px '(prog, a) =>
      jj <- aget xj px ;; v <- aget x jj ;;
      if v =? 0 then Ok (prog, a) else
      ii <- aget Utqinv jj ;;
      Ok (prog ++ [Wr SJ a ii; Wr SX a v], a + 1)) ([Wr SJ 0 j; Wr SX 0 (-1)], 1) ;;
  Ok (Task true row_nz row_nz row_nz 0 (prog ++ [Wr SP 0 a])).

(* src/spasm_kernel.c:9-123 *)
Definition kernel (g : Z -> Z -> Z) (ch : Z -> Z) (scr : Z -> scratch) (U : csr) (qinv : list Z) : res csr :=
  let n := cn U in let m := cm U in
  _ <- assert_ (n <=? m) ;;
  Ut <- transpose g U true ;;
  nz <- aget (cp U) n ;;
  let K := csr_alloc g (m - n) m nz (cprime U) true in
  Utqinv <- for_ 0 m (fun j q =>
      i <- aget qinv j ;;
      if i >=? 0 then aset q i j else Ok q) (malloc (g 5) n) ;;
  ts <- all_tasks m (fun j => kernel_task Ut qinv Utqinv (scr j) j) ;;
  h <- par_for g false 0 m ch (getd idle ts) 0 (rows_mem K) ;;
  let mem := s_mem h in
  Ok (Csr (m - n) m (mem SP) (mem SJ) (Some (mem SX)) (cprime U)).

(* src/spasm_kernel.c:129-183.  The conversions of Rp[i] to int (line 149) and of prime - 1 to
   spasm_ZZp (line 163) are kept. *)
Definition kernel_from_rref (g : Z -> Z -> Z) (R : csr) (qinv : list Z) : res csr :=
  let n := cn R in let m := cm R in
  _ <- assert_ (n <=? m) ;;
  Rt <- transpose g R true ;;
  p <- for_ 0 n (fun i p =>
      px <- aget (cp R) i ;;
      j <- aget (cj R) (to_i32 px) ;;
      aset p i j) (malloc (g 5) n) ;;
  nz <- aget (cp R) n ;;
  let K := csr_alloc g (m - n) m (nz - n + m - n) (cprime R) true in
  Kx <- deref (cx K) ;;
  Rtx <- deref (cx Rt) ;;
  '(Kn, Kp, Kj, Kx, k) <- for_ 0 m (fun j '(Kn, Kp, Kj, Kx, k) =>
      q <- aget qinv j ;;
      if q >=? 0 then Ok (Kn, Kp, Kj, Kx, k) else
      Kj <- aset Kj k j ;;
      Kx <- aset Kx k (to_i32 (cprime R - 1)) ;;
      lo <- aget (cp Rt) j ;; hi <- aget (cp Rt) (j + 1) ;;
      '(Kj, Kx, k) <- for_ lo hi (fun px '(Kj, Kx, k) =>
          i <- aget (cj Rt) px ;;
          c <- aget p i ;;
          Kj <- aset Kj k c ;;
          v <- aget Rtx px ;;
          Kx <- aset Kx k v ;;
          Ok (Kj, Kx, k + 1)) (Kj, Kx, k + 1) ;;
      Kp <- aset Kp (Kn + 1) k ;;
      Ok (Kn + 1, Kp, Kj, Kx, k)) (0, cp K, cj K, Kx, 0) ;;
  _ <- assert_ (Kn =? m - n) ;;
  _ <- assert_ (k =? nz - n + m - n) ;;
  Ok (Csr Kn m Kp Kj (Some Kx) (cprime R)).
