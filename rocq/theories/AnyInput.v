(** The tools that rewrite a matrix, on any input: the blocks of memory have the size computed in C.

    In Mat.v and Tools.v an array of n cells is allocated for n >= 0.  The dimensions announced by a
    file may be negative, and the tools do not check them.  No block has more than [most] bytes. *)
From Verif Require Import Base Spec Zp Mat Sha Stdio IO Sizes Header Tools.

(* src/spasm_util.c:66-80: the number of cells of k bytes of a block of e bytes *)
Definition block (most : Z) (e : cexp) (k : Z) : res Z :=
  b <- argument e ;;
  _ <- assert_ ((0 <=? b) && (b <=? most)) ;;
  Ok (b / k).
(* src/spasm_util.c:92-104 *)
Definition ncsr_alloc (g : Z -> Z -> Z) (most n m nzmax prime : Z) (with_values : bool) : res csr :=
  np <- block most (Mul (Add (int n) (int 1)) (sizeof sz_i64)) sz_i64 ;;
  nj <- block most (Mul (i64v nzmax) (sizeof sz_int)) sz_int ;;
  nx <- block most (Mul (i64v nzmax) (sizeof sz_zzp)) sz_zzp ;;
  p <- aset (malloc (g 0) np) 0 0 ;;
  Ok (Csr n m p (malloc (g 1) nj) (if with_values then Some (malloc (g 2) nx) else None) prime).

(* src/spasm_triplet.c:61-96 *)
Definition ndeduplicate (g : Z -> Z -> Z) (most : Z) (A : csr) : res csr :=
  nv <- block most (Mul (int (cm A)) (sizeof sz_i64)) sz_i64 ;;
  v <- for_ 0 (cm A) (fun j v => aset v j (-1)) (malloc (g 10) nv) ;;
  '(v, Ap, Aj, Ax, nz) <- for_ 0 (cn A) (fun i '(v, Ap, Aj, Ax, nz) =>
      let p := nz in
      lo <- aget Ap i ;; hi <- aget Ap (i + 1) ;;
      '(v, Aj, Ax, nz) <- for_ lo hi (fun it '(v, Aj, Ax, nz) =>
          j <- aget Aj it ;;
          _ <- assert_ (j <? cm A) ;;
          vj <- aget v j ;;
          if vj <? p then
            v <- aset v j nz ;;
            Aj <- aset Aj nz j ;;
            Ax <- ocopy Ax nz Ax it ;;
            Ok (v, Aj, Ax, nz + 1)
          else
            match Ax with
            | None => Ok (v, Aj, None, nz)
            | Some ax =>
                px <- aget v j ;;
                a <- aget ax px ;; b <- aget ax it ;;
                ax <- aset ax px (zadd (cprime A) a b) ;;
                Ok (v, Aj, Some ax, nz)
            end) (v, Aj, Ax, nz) ;;
      Ap <- aset Ap i p ;;
      Ok (v, Ap, Aj, Ax, nz)) (v, cp A, cj A, cx A, 0) ;;
  Ap <- aset Ap (cn A) nz ;;
  csr_realloc g (Csr (cn A) (cm A) Ap Aj Ax (cprime A)) (-1).

(* src/spasm_triplet.c:99-146; the index of the loop at line 124 is an int *)
Definition ncompress_raw (g : Z -> Z -> Z) (most : Z) (T : triplet) : res csr :=
  let n := tn T in let m := tm T in let nz := tnz T in
  C <- ncsr_alloc g most n m nz (tprime T) (match tx T with Some _ => true | None => false end) ;;
  nw <- block most (Mul (int n) (sizeof sz_i64)) sz_i64 ;;
  w <- for_ 0 n (fun i w => aset w i 0) (malloc (g 11) nw) ;;
  _ <- i32 nz ;;
  w <- for_ 0 nz (fun it w =>
      i <- aget (ti T) it ;;
      _ <- assert_ (i <? n) ;;
      c <- aget w i ;; aset w i (c + 1)) w ;;
  '(Cp, w, s) <- for_ 0 n (fun k '(Cp, w, s) =>
      Cp <- aset Cp k s ;;
      c <- aget w k ;;
      w <- aset w k s ;;
      Ok (Cp, w, s + c)) (cp C, w, 0) ;;
  Cp <- aset Cp n s ;;
  '(w, Cj, Cx) <- for_ 0 nz (fun k '(w, Cj, Cx) =>
      i <- aget (ti T) k ;;
      px <- aget w i ;;
      w <- aset w i (px + 1) ;;
      j <- aget (tj T) k ;;
      Cj <- aset Cj px j ;;
      Cx <- ocopy Cx px (tx T) k ;;
      Ok (w, Cj, Cx)) (w, cj C, cx C) ;;
  Ok (Csr n m Cp Cj Cx (tprime T)).
(* src/spasm_triplet.c:99-158 *)
Definition ncompress (g : Z -> Z -> Z) (most : Z) (T : triplet) : res csr :=
  C <- ncompress_raw g most T ;;
  C <- ndeduplicate g most C ;;
  remove_explicit_zeroes g C.

(* src/spasm_transpose.c:5-52 *)
Definition ntranspose (g : Z -> Z -> Z) (most : Z) (C : csr) (keep_values : bool) : res csr :=
  let n := cn C in let m := cm C in
  nz <- aget (cp C) n ;;
  T <- ncsr_alloc g most m n nz (cprime C) (keep_values && match cx C with Some _ => true | None => false end) ;;
  nw <- block most (Mul (Cast Csize (int m)) (sizeof sz_i64)) sz_i64 ;;
  w <- for_ 0 n (fun i w =>
      lo <- aget (cp C) i ;; hi <- aget (cp C) (i + 1) ;;
      for_ lo hi (fun px w =>
        j <- aget (cj C) px ;; c <- aget w j ;; aset w j (c + 1)) w) (fill nw 0) ;;
  '(Tp, w, s) <- for_ 0 m (fun j '(Tp, w, s) =>
      Tp <- aset Tp j s ;;
      c <- aget w j ;;
      w <- aset w j s ;;
      Ok (Tp, w, s + c)) (cp T, w, 0) ;;
  Tp <- aset Tp m s ;;
  '(w, Tj, Tx) <- for_ 0 n (fun i '(w, Tj, Tx) =>
      lo <- aget (cp C) i ;; hi <- aget (cp C) (i + 1) ;;
      for_ lo hi (fun px '(w, Tj, Tx) =>
        j <- aget (cj C) px ;;
        py <- aget w j ;;
        Tj <- aset Tj py i ;;
        Tx <- ocopy Tx py (cx C) px ;;
        w <- aset w j (py + 1) ;;
        Ok (w, Tj, Tx)) (w, Tj, Tx)) (w, cj T, cx T) ;;
  Ok (Csr m n Tp Tj Tx (cprime C)).

(* tools/common.c:113-123, load_input_matrix, then spasm_compress as all the tools that work on rows do *)
Definition nload_csr (gs : Z -> Z) (g : Z -> Z -> Z -> Z) (most : Z) (input : list Z) (prime : Z) (hash : option (list Z)) : res (csr * option (list Z)) :=
  '(T, h) <- hload gs (g 0) most input prime hash ;;
  A <- ncompress (g 1) most T ;;
  Ok (A, h).
(* tools/transpose.c:5-18 *)
Definition ntool_transpose (gs : Z -> Z) (g : Z -> Z -> Z -> Z) (most : Z) (input : list Z) : res (list Z) :=
  '(A, _) <- nload_csr gs g most input 42013 None ;;
  At <- ntranspose (g 2) most A true ;;
  csr_save At.
(* tools/vertical_swap.c:8-21; m - Aj[k] - 1 is an int *)
Definition ntool_vertical_swap (gs : Z -> Z) (g : Z -> Z -> Z -> Z) (most : Z) (input : list Z) : res (list Z) :=
  '(A, _) <- hload gs (g 0) most input 42013 None ;;
  let m := tm A in
  Aj <- for_ 0 (tnz A) (fun k Aj => j <- aget Aj k ;; d <- i32 (m - j) ;; d <- i32 (d - 1) ;; aset Aj k d) (tj A) ;;
  triplet_save (Triplet (tnz A) (tn A) (tm A) (ti A) Aj (tx A) (tprime A)).
(* tools/stack.c:25-36 *)
Definition nmark_used (g : Z -> Z) (n nz np : Z) (a : list Z) : res (list Z) :=
  p <- for_ 0 n (fun i p => aset p i 0) (malloc g np) ;;
  for_ 0 nz (fun k p => i <- aget a k ;; aset p i 1) p.
(* tools/stack.c:10-67; the number of entries is stored in an int: its low 32 bits are *)
Definition ntool_stack (gs : Z -> Z) (g : Z -> Z -> Z -> Z) (most : Z) (input : list Z) : res (list Z) :=
  '(A, _) <- hload gs (g 0) most input 42013 None ;;
  let nz := to_i32 (tnz A) in
  np <- block most (Mul (int (tn A)) (sizeof sz_int)) sz_int ;;
  nq <- block most (Mul (int (tm A)) (sizeof sz_int)) sz_int ;;
  p <- nmark_used (g 1 0) (tn A) nz np (ti A) ;;
  q <- nmark_used (g 1 1) (tm A) nz nq (tj A) ;;
  '(p, u) <- renumber (tn A) p ;;
  '(q, v) <- renumber (tm A) q ;;
  '(Ai, Aj) <- for_ 0 nz (fun k '(Ai, Aj) =>
      i <- aget Ai k ;; i' <- aget p i ;; Ai <- aset Ai k i' ;;
      j <- aget Aj k ;; j' <- aget q j ;; Aj <- aset Aj k j' ;;
      Ok (Ai, Aj)) (ti A, tj A) ;;
  triplet_save (Triplet (tnz A) u v Ai Aj (tx A) (tprime A)).
