(** Model of the basic matrix routines: src/spasm_util.c (allocation),
    src/spasm_triplet.c, src/spasm_transpose.c, src/spasm_permutation.c,
    src/spasm_submatrix.c, src/spasm_spmv.c, src/spasm_scatter.c.

    [g site k] is the (arbitrary) content of the k-th cell of uninitialised memory
    allocated at a given program point. *)
From Verif Require Import Base Spec Zp.

(* malloc: an array of k cells with arbitrary contents (g i).  Allocation failure
   (the process exits, src/spasm_util.c:65-87) is not modelled. *)
Definition malloc (g : Z -> Z) (k : Z) : list Z :=
  map (fun i => g (Z.of_nat i)) (seq 0 (Z.to_nat k)).
(* realloc: the common prefix is kept, new cells have arbitrary contents *)
Definition realloc (g : Z -> Z) (a : list Z) (k : Z) : list Z :=
  firstn (Z.to_nat k) a ++ malloc g (k - len a).

(* if (x != NULL) x[i] = v *)
Definition oset (o : option (list Z)) (i v : Z) : res (option (list Z)) :=
  match o with None => Ok None | Some x => x <- aset x i v ;; Ok (Some x) end.
(* if (dst != NULL) dst[i] = src[k] *)
Definition ocopy (dst : option (list Z)) (i : Z) (src : option (list Z)) (k : Z)
  : res (option (list Z)) :=
  match dst with
  | None => Ok None
  | Some d => s <- deref src ;; v <- aget s k ;; d <- aset d i v ;; Ok (Some d)
  end.
(* p == NULL ? i : p[i] *)
Definition operm_get (p : option (list Z)) (i : Z) : res Z :=
  match p with Some p => aget p i | None => Ok i end.

(* src/spasm_util.c:90-102 (the field is initialised by the caller's modulus) *)
Definition csr_alloc (g : Z -> Z -> Z) (n m nzmax prime : Z) (with_values : bool) : csr :=
  Csr n m (upd (malloc (g 0) (n + 1)) 0 0) (malloc (g 1) nzmax)
      (if with_values then Some (malloc (g 2) nzmax) else None) prime.

(* src/spasm_util.c:123-133 *)
Definition csr_realloc (g : Z -> Z -> Z) (A : csr) (nzmax : Z) : res csr :=
  z <- aget (cp A) (cn A) ;;
  let nzmax := if nzmax <? 0 then z else nzmax in
  Ok (Csr (cn A) (cm A) (cp A) (realloc (g 3) (cj A) nzmax)
        (option_map (fun x => realloc (g 4) x nzmax) (cx A)) (cprime A)).

(* src/spasm_util.c:171-182 *)
Definition csr_resize (g : Z -> Z -> Z) (A : csr) (n m : Z) : res csr :=
  let Ap := realloc (g 5) (cp A) (n + 1) in
  Ap <- (if cn A <? n then
           for_ (cn A) (n + 1) (fun i Ap => v <- aget Ap (cn A) ;; aset Ap i v) Ap
         else Ok Ap) ;;
  Ok (Csr n m Ap (cj A) (cx A) (cprime A)).

(* src/spasm_util.c:139-150 *)
Definition triplet_realloc (g : Z -> Z -> Z) (T : triplet) (nzmax : Z) : triplet :=
  let nzmax := if nzmax <? 0 then tnz T else nzmax in
  Triplet (tnz T) (tn T) (tm T) (realloc (g 0) (ti T) nzmax) (realloc (g 1) (tj T) nzmax)
    (option_map (fun x => realloc (g 2) x nzmax) (tx T)) (tprime T).

(* src/spasm_util.c:105-117 *)
Definition triplet_alloc (g : Z -> Z -> Z) (n m nzmax prime : Z) (with_values : bool) : triplet :=
  Triplet 0 n m (malloc (g 0) nzmax) (malloc (g 1) nzmax)
    (if with_values then Some (malloc (g 2) nzmax) else None) prime.

(* src/spasm_triplet.c:7-24 *)
Definition add_entry (g : Z -> Z -> Z) (T : triplet) (i j x : Z) : res triplet :=
  _ <- assert_ ((0 <=? i) && (0 <=? j)) ;;
  let px := tnz T in
  let T := if px =? len (tj T) then triplet_realloc g T (1 + 2 * len (tj T)) else T in
  let xp := zinit (tprime T) x in
  match tx T with
  | Some tx0 =>
      if xp =? 0 then Ok T else
      tx1 <- aset tx0 px xp ;;
      ti1 <- aset (ti T) px i ;;
      tj1 <- aset (tj T) px j ;;
      Ok (Triplet (tnz T + 1) (Z.max (tn T) (i + 1)) (Z.max (tm T) (j + 1)) ti1 tj1 (Some tx1) (tprime T))
  | None =>
      ti1 <- aset (ti T) px i ;;
      tj1 <- aset (tj T) px j ;;
      Ok (Triplet (tnz T + 1) (Z.max (tn T) (i + 1)) (Z.max (tm T) (j + 1)) ti1 tj1 None (tprime T))
  end.

(* src/spasm_triplet.c:26-34 *)
Definition triplet_transpose (T : triplet) : triplet :=
  Triplet (tnz T) (tm T) (tn T) (tj T) (ti T) (tx T) (tprime T).

(* src/spasm_triplet.c:36-58.  Row i + 1 starts at the pointer just overwritten. *)
Definition remove_explicit_zeroes (g : Z -> Z -> Z) (A : csr) : res csr :=
  match cx A with
  | None => Ok A
  | Some Ax =>
      '(Ap, Aj, Ax, nz) <- for_ 0 (cn A) (fun i '(Ap, Aj, Ax, nz) =>
          lo <- aget Ap i ;; hi <- aget Ap (i + 1) ;;
          '(Aj, Ax, nz) <- for_ lo hi (fun it '(Aj, Ax, nz) =>
              j <- aget Aj it ;; x <- aget Ax it ;;
              if x =? 0 then Ok (Aj, Ax, nz) else
              Aj <- aset Aj nz j ;; Ax <- aset Ax nz x ;; Ok (Aj, Ax, nz + 1))
            (Aj, Ax, nz) ;;
          Ap <- aset Ap (i + 1) nz ;;
          Ok (Ap, Aj, Ax, nz)) (cp A, cj A, Ax, 0) ;;
      csr_realloc g (Csr (cn A) (cm A) Ap Aj (Some Ax) (cprime A)) (-1)
  end.

(* src/spasm_triplet.c:61-96 *)
Definition deduplicate (g : Z -> Z -> Z) (A : csr) : res csr :=
  v <- for_ 0 (cm A) (fun j v => aset v j (-1)) (malloc (g 10) (cm A)) ;;
  '(v, Ap, Aj, Ax, nz) <- for_ 0 (cn A) (fun i '(v, Ap, Aj, Ax, nz) =>
      let p := nz in
      lo <- aget Ap i ;; hi <- aget Ap (i + 1) ;;
      '(v, Aj, Ax, nz) <- for_ lo hi (fun it '(v, Aj, Ax, nz) =>
          j <- aget Aj it ;;
          _ <- assert_ (j <? cm A) ;;
          vj <- aget v j ;;
          if vj <? p then
            v <- aset v j nz ;;
            Aj <- aset Aj nz j ;;
            Ax <- ocopy Ax nz Ax it ;;
            Ok (v, Aj, Ax, nz + 1)
          else
            match Ax with
            | None => Ok (v, Aj, None, nz)
            | Some ax =>
                px <- aget v j ;;
                a <- aget ax px ;; b <- aget ax it ;;
                ax <- aset ax px (zadd (cprime A) a b) ;;
                Ok (v, Aj, Some ax, nz)
            end) (v, Aj, Ax, nz) ;;
      Ap <- aset Ap i p ;;
      Ok (v, Ap, Aj, Ax, nz)) (v, cp A, cj A, cx A, 0) ;;
  Ap <- aset Ap (cn A) nz ;;
  csr_realloc g (Csr (cn A) (cm A) Ap Aj Ax (cprime A)) (-1).

(* src/spasm_triplet.c:99-158 (messages omitted).  The C loop at line 124 uses an
   int index; the number of entries is assumed to fit. *)
Definition compress_raw (g : Z -> Z -> Z) (T : triplet) : res csr :=
  let n := tn T in let m := tm T in let nz := tnz T in
  let C := csr_alloc g n m nz (tprime T) (match tx T with Some _ => true | None => false end) in
  w <- for_ 0 n (fun i w => aset w i 0) (malloc (g 11) n) ;;
  w <- for_ 0 nz (fun it w =>
      i <- aget (ti T) it ;;
      _ <- assert_ (i <? n) ;;
      c <- aget w i ;; aset w i (c + 1)) w ;;
  '(Cp, w, s) <- for_ 0 n (fun k '(Cp, w, s) =>
      Cp <- aset Cp k s ;;
      c <- aget w k ;;
      w <- aset w k s ;;
      Ok (Cp, w, s + c)) (cp C, w, 0) ;;
  Cp <- aset Cp n s ;;
  '(w, Cj, Cx) <- for_ 0 nz (fun k '(w, Cj, Cx) =>
      i <- aget (ti T) k ;;
      px <- aget w i ;;
      w <- aset w i (px + 1) ;;
      j <- aget (tj T) k ;;
      Cj <- aset Cj px j ;;
      Cx <- ocopy Cx px (tx T) k ;;
      Ok (w, Cj, Cx)) (w, cj C, cx C) ;;
  Ok (Csr n m Cp Cj Cx (tprime T)).
Definition compress (g : Z -> Z -> Z) (T : triplet) : res csr :=
  C <- compress_raw g T ;;
  C <- deduplicate g C ;;
  remove_explicit_zeroes g C.

(* src/spasm_transpose.c:5-52 *)
Definition transpose (g : Z -> Z -> Z) (C : csr) (keep_values : bool) : res csr :=
  let n := cn C in let m := cm C in
  nz <- aget (cp C) n ;;
  let T := csr_alloc g m n nz (cprime C)
             (keep_values && match cx C with Some _ => true | None => false end) in
  w <- for_ 0 n (fun i w =>
      lo <- aget (cp C) i ;; hi <- aget (cp C) (i + 1) ;;
      for_ lo hi (fun px w =>
        j <- aget (cj C) px ;; c <- aget w j ;; aset w j (c + 1)) w) (fill m 0) ;;
  '(Tp, w, s) <- for_ 0 m (fun j '(Tp, w, s) =>
      Tp <- aset Tp j s ;;
      c <- aget w j ;;
      w <- aset w j s ;;
      Ok (Tp, w, s + c)) (cp T, w, 0) ;;
  Tp <- aset Tp m s ;;
  '(w, Tj, Tx) <- for_ 0 n (fun i '(w, Tj, Tx) =>
      lo <- aget (cp C) i ;; hi <- aget (cp C) (i + 1) ;;
      for_ lo hi (fun px '(w, Tj, Tx) =>
        j <- aget (cj C) px ;;
        py <- aget w j ;;
        Tj <- aset Tj py i ;;
        Tx <- ocopy Tx py (cx C) px ;;
        w <- aset w j (py + 1) ;;
        Ok (w, Tj, Tx)) (w, Tj, Tx)) (w, cj T, cx T) ;;
  Ok (Csr m n Tp Tj Tx (cprime C)).

(* src/spasm_permutation.c:19-27 *)
Definition pvec (p : option (list Z)) (b x : list Z) (n : Z) : res (list Z) :=
  for_ 0 n (fun i x => j <- operm_get p i ;; v <- aget b j ;; aset x i v) x.

(* src/spasm_permutation.c:37-46 *)
Definition ipvec (p : option (list Z)) (b x : list Z) (n : Z) : res (list Z) :=
  for_ 0 n (fun i x => j <- operm_get p i ;; v <- aget b i ;; aset x j v) x.

(* src/spasm_permutation.c:49-61 *)
Definition pinv (g : Z -> Z -> Z) (p : option (list Z)) (n : Z) : res (option (list Z)) :=
  match p with
  | None => Ok None
  | Some p =>
      q <- for_ 0 n (fun k q => i <- aget p k ;; aset q i k) (malloc (g 0) n) ;;
      Ok (Some q)
  end.

(* src/spasm_permutation.c:68-103 *)
Definition permute (g : Z -> Z -> Z) (A : csr) (p qinv : option (list Z)) (values : bool) : res csr :=
  let C := csr_alloc g (cn A) (cm A) (len (cj A)) (cprime A)
             (values && match cx A with Some _ => true | None => false end) in
  '(Cp, Cj, Cx, nz) <- for_ 0 (cn A) (fun i '(Cp, Cj, Cx, nz) =>
      Cp <- aset Cp i nz ;;
      j <- operm_get p i ;;
      lo <- aget (cp A) j ;; hi <- aget (cp A) (j + 1) ;;
      '(Cj, Cx, nz) <- for_ lo hi (fun t '(Cj, Cx, nz) =>
          j <- aget (cj A) t ;;
          jj <- operm_get qinv j ;;
          Cj <- aset Cj nz jj ;;
          Cx <- ocopy Cx nz (cx A) t ;;
          Ok (Cj, Cx, nz + 1)) (Cj, Cx, nz) ;;
      Ok (Cp, Cj, Cx, nz)) (cp C, cj C, cx C, 0) ;;
  Cp <- aset Cp (cn A) nz ;;
  Ok (Csr (cn A) (cm A) Cp Cj Cx (cprime A)).

(* src/spasm_permutation.c:105-117; [rand k] is the k-th value returned by rand(),
   which is non-negative *)
Definition random_permutation (g : Z -> Z -> Z) (rand : Z -> Z) (n : Z) : res (list Z) :=
  p <- for_ 0 n (fun i p => aset p i i) (malloc (g 0) n) ;;
  for_down 1 n (fun i p =>
      let j := Z.rem (rand (n - 1 - i)) i in
      pi <- aget p i ;; pj <- aget p j ;;
      p <- aset p i pj ;; aset p j pi) p.

(* src/spasm_permutation.c:120-129 (p is destroyed; it is returned too) *)
Definition range_pvec (x : list Z) (a b : Z) (p : list Z) : res (list Z * list Z) :=
  p <- for_ 0 (b - a) (fun i p => k <- aget p i ;; v <- aget x (a + k) ;; aset p i v) p ;;
  x <- for_ 0 (b - a) (fun i x => v <- aget p i ;; aset x (a + i) v) x ;;
  Ok (x, p).

(* src/spasm_submatrix.c:7-43 *)
Definition submatrix (g : Z -> Z -> Z) (A : csr) (r0 r1 c0 c1 : Z) (with_values : bool) : res csr :=
  let Bn := Z.max 0 (r1 - r0) in
  let Bm := Z.max 0 (c1 - c0) in
  hi <- aget (cp A) r1 ;; lo <- aget (cp A) r0 ;;
  let B := csr_alloc g Bn Bm (Z.max 0 (hi - lo)) (cprime A)
             (match cx A with Some _ => with_values | None => false end) in
  '(Bp, Bj, Bx, k) <- for_ r0 r1 (fun i '(Bp, Bj, Bx, k) =>
      Bp <- aset Bp (i - r0) k ;;
      lo <- aget (cp A) i ;; hi <- aget (cp A) (i + 1) ;;
      '(Bj, Bx, k) <- for_ lo hi (fun px '(Bj, Bx, k) =>
          j <- aget (cj A) px ;;
          if (c0 <=? j) && (j <? c1) then
            Bj <- aset Bj k (j - c0) ;;
            Bx <- ocopy Bx k (cx A) px ;;
            Ok (Bj, Bx, k + 1)
          else Ok (Bj, Bx, k)) (Bj, Bx, k) ;;
      Ok (Bp, Bj, Bx, k)) (cp B, cj B, cx B, 0) ;;
  Bp <- aset Bp (r1 - r0) k ;;
  csr_realloc g (Csr Bn Bm Bp Bj Bx (cprime A)) (-1).

(* src/spasm_scatter.c:7-16 *)
Definition scatter (A : csr) (i beta : Z) (x : list Z) : res (list Z) :=
  lo <- aget (cp A) i ;; hi <- aget (cp A) (i + 1) ;;
  for_ lo hi (fun px x =>
    Ax <- deref (cx A) ;;
    j <- aget (cj A) px ;; a <- aget Ax px ;; xj <- aget x j ;;
    aset x j (zaxpy (cprime A) beta a xj)) x.

(* src/spasm_spmv.c:10-21 *)
Definition xApy (x : list Z) (A : csr) (y : list Z) : res (list Z) :=
  for_ 0 (cn A) (fun i y =>
    lo <- aget (cp A) i ;; hi <- aget (cp A) (i + 1) ;;
    for_ lo hi (fun px y =>
      Ax <- deref (cx A) ;;
      j <- aget (cj A) px ;; xi <- aget x i ;; a <- aget Ax px ;; yj <- aget y j ;;
      aset y j (zaxpy (cprime A) xi a yj)) y) y.

(* src/spasm_spmv.c:27-38 *)
Definition Axpy (A : csr) (x y : list Z) : res (list Z) :=
  for_ 0 (cn A) (fun i y =>
    lo <- aget (cp A) i ;; hi <- aget (cp A) (i + 1) ;;
    for_ lo hi (fun px y =>
      Ax <- deref (cx A) ;;
      j <- aget (cj A) px ;; xj <- aget x j ;; a <- aget Ax px ;; yi <- aget y i ;;
      aset y i (zaxpy (cprime A) xj a yi)) y) y.
