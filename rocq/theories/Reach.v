(** Model of src/spasm_reach.c and src/spasm_triangular.c.

    In the C code xj, pstack and marks are the three thirds of one array of size 3*m
    (spasm_reach.c:110-111); here they are three arrays of size m, so that leaving
    one third is an error too.  Row weights (an int) are assumed to fit. *)
From Verif Require Import Base Spec Zp Mat.

(* src/spasm_reach.c:21-82.  One iteration of the while loop; the state is
   (head, top, xj, pstack, marks). *)
Definition dfs_state : Type := Z * Z * list Z * list Z * list Z.
Definition dfs_step (A : csr) (qinv : list Z) (st : dfs_state)
  : res (dfs_state + (Z * list Z * list Z * list Z)) :=
  let '(head, top, xj, ps, mk) := st in
  if head <? 0 then Ok (inr (top, xj, ps, mk)) else
  j <- aget xj head ;;
  i <- aget qinv j ;;
  mj <- aget mk j ;;
  '(mk, ps) <- (if mj =? 0 then
                  mk <- aset mk j 1 ;; ps <- aset ps head 0 ;; Ok (mk, ps)
                else Ok (mk, ps)) ;;
  if i <? 0 then
    xj <- aset xj (top - 1) j ;; Ok (inl (head - 1, top - 1, xj, ps, mk))
  else
  lo <- aget (cp A) i ;; hi <- aget (cp A) (i + 1) ;;
  let p2 := hi - lo in
  k0 <- aget ps head ;;
  found <- forb k0 p2 (fun k _ =>
      c <- aget (cj A) (lo + k) ;;
      m <- aget mk c ;;
      if m =? 0 then Ok (inr (k, c)) else Ok (inl tt)) tt ;;
  match found with
  | inr (k, c) =>
      ps <- aset ps head (k + 1) ;;
      xj <- aset xj (head + 1) c ;;
      Ok (inl (head + 1, top, xj, ps, mk))
  | inl _ =>
      (* k == p2 (line 74): otherwise nothing changes and the loop spins *)
      if k0 <=? p2 then
        xj <- aset xj (top - 1) j ;; Ok (inl (head - 1, top - 1, xj, ps, mk))
      else Ok (inl (head, top, xj, ps, mk))
  end.
Definition dfs (A : csr) (qinv : list Z) (jstart top : Z) (xj ps mk : list Z)
  : res (Z * list Z * list Z * list Z) :=
  xj <- aset xj 0 jstart ;;
  loop (Z.to_nat (2 * top + 2)) (dfs_step A qinv) (0, top, xj, ps, mk).

(* src/spasm_reach.c:98-135 *)
Definition reach (A B : csr) (k l : Z) (qinv : list Z) (xj ps mk : list Z)
  : res (Z * list Z * list Z * list Z) :=
  lo <- aget (cp B) k ;; hi <- aget (cp B) (k + 1) ;;
  '(top, xj, ps, mk) <- for_ lo hi (fun px '(top, xj, ps, mk) =>
      j <- aget (cj B) px ;;
      mj <- aget mk j ;;
      if mj =? 0 then dfs A qinv j top xj ps mk else Ok (top, xj, ps, mk))
    (cm A, xj, ps, mk) ;;
  mk <- for_ top l (fun px mk => j <- aget xj px ;; aset mk j 0) mk ;;
  Ok (top, xj, ps, mk).

(* src/spasm_triangular.c:109-147 *)
Definition sparse_triangular_solve (U B : csr) (k : Z) (xj ps mk x : list Z) (qinv : list Z)
  : res (Z * list Z * list Z * list Z * list Z) :=
  let m := cm U in
  '(top, xj, ps, mk) <- reach U B k m qinv xj ps mk ;;
  x <- for_ top m (fun px x => j <- aget xj px ;; aset x j 0) x ;;
  x <- scatter B k 1 x ;;
  x <- for_ top m (fun px x =>
      j <- aget xj px ;;
      i <- aget qinv j ;;
      if i <? 0 then Ok x else
      backup <- aget x j ;;
      x <- scatter U i (- backup) x ;;
      xj' <- aget x j ;;
      _ <- assert_ (xj' =? 0) ;;
      aset x j backup) x ;;
  Ok (top, xj, ps, mk, x).

(* src/spasm_triangular.c:65-89 *)
Definition dense_forward_solve (U : csr) (b x : list Z) (q : option (list Z))
  : res (bool * list Z * list Z) :=
  let n := cn U in let m := cm U in
  _ <- assert_ (n <=? m) ;;
  x <- for_ 0 n (fun i x => aset x i 0) x ;;
  '(b, x) <- for_ 0 n (fun i '(b, x) =>
      j <- operm_get q i ;;
      bj <- aget b j ;;
      if bj =? 0 then Ok (b, x) else
      x <- aset x i bj ;;
      b <- scatter U i (- bj) b ;;
      bj' <- aget b j ;;
      _ <- assert_ (bj' =? 0) ;;
      Ok (b, x)) (b, x) ;;
  r <- forb 0 m (fun j _ => bj <- aget b j ;; if bj =? 0 then Ok (inl tt) else Ok (inr tt)) tt ;;
  Ok (match r with inl _ => true | inr _ => false end, b, x).

(* src/spasm_triangular.c:21-53 *)
Definition dense_back_solve (L : csr) (b x : list Z) (p : option (list Z)) : res (list Z * list Z) :=
  let n := cn L in let r := cm L in
  x <- for_ 0 n (fun i x => aset x i 0) x ;;
  for_down 0 r (fun j '(b, x) =>
      i <- operm_get p j ;;
      _ <- assert_ (0 <=? i) ;; _ <- assert_ (i <? n) ;;
      lo <- aget (cp L) i ;; hi <- aget (cp L) (i + 1) ;;
      d <- forb lo hi (fun px _ =>
          c <- aget (cj L) px ;;
          if c =? j then
            Lx <- deref (cx L) ;; v <- aget Lx px ;; Ok (inr v)
          else Ok (inl tt)) tt ;;
      let diagonal_entry := match d with inr v => v | inl _ => 0 end in
      _ <- assert_ (negb (diagonal_entry =? 0)) ;;
      let alpha := zinv (cprime L) diagonal_entry in
      bj <- aget b j ;;
      x <- aset x i (zmul (cprime L) alpha bj) ;;
      backup <- aget x i ;;
      b <- scatter L i (- backup) b ;;
      x <- aset x i backup ;;
      Ok (b, x)) (b, x).
