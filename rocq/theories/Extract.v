(** Model of spasm_pivots_extract_structural (src/spasm_pivots.c:369-448). *)
From Verif Require Import Base Spec SpecElim Zp Mat Reach Sched Pivots.

(* src/spasm_pivots.c:407-412 *)
Definition locate_pivot (A : csr) (Ax : list Z) (i j : Z) : res Z :=
  lo <- aget (cp A) i ;; hi <- aget (cp A) (i + 1) ;;
  o <- forb lo hi (fun px (pivot : Z) =>
      c <- aget (cj A) px ;;
      if negb (c =? j) then Ok (inl pivot) else
      x <- aget Ax px ;;
      Ok (if x =? 0 then inl pivot else inr x)) 0 ;;
  Ok (match o with inl x => x | inr x => x end).

(* src/spasm_pivots.c:413-418 *)
Definition record_pivot (g : Z -> Z -> Z) (L : option triplet) (lp : list Z) (p_in : option (list Z))
  (i un pivot : Z) : res (option triplet * list Z) :=
  match L with
  | None => Ok (None, lp)
  | Some L =>
      i_out <- operm_get p_in i ;;
      L <- add_entry g L i_out un pivot ;;
      lp <- aset lp un i_out ;;
      Ok (Some L, lp)
  end.

(* src/spasm_pivots.c:420-439: write the row into U *)
Definition extract_row (A : csr) (Ax : list Z) (U : csr) (Ux : list Z) (unz i j pivot : Z) : res (csr * Z) :=
  let alpha := zinv (cprime A) pivot in
  Uj <- aset (cj U) unz j ;;
  Ux <- aset Ux unz 1 ;;
  lo <- aget (cp A) i ;; hi <- aget (cp A) (i + 1) ;;
  '(Uj, Ux, unz) <- for_ lo hi (fun px '(Uj, Ux, unz) =>
      c <- aget (cj A) px ;;
      if j =? c then Ok (Uj, Ux, unz) else
      Uj <- aset Uj unz c ;;
      a <- aget Ax px ;;
      Ux <- aset Ux unz (zmul (cprime A) alpha a) ;;
      Ok (Uj, Ux, unz + 1)) (Uj, Ux, unz + 1) ;;
  Up <- aset (cp U) (cn U + 1) unz ;;
  Ok (Csr (cn U + 1) (cm U) Up Uj (Some Ux) (cprime U), unz).

(* src/spasm_pivots.c:369-448.  Returns the number of pivots, U / L / p updated and the order
   of the rows. *)
Definition extract_structural (g : Z -> Z -> Z) (ch : Z -> Z) (scr : Z -> list Z * list Z) (greedy : bool)
  (A : csr) (p_in : option (list Z)) (f : fact) (p : list Z) : res (Z * fact * list Z) :=
  '(npiv, pinv, qinv) <- pivots_find g ch scr greedy A (malloc (g 20) (cn A)) (malloc (g 21) (cm A)) ;;
  p <- pivots_reorder g A pinv qinv npiv p ;;
  let U := f_U f in
  pivot_nnz <- for_ 0 npiv (fun k s => i <- aget p k ;; w <- row_weight A i ;; Ok (s + w)) 0 ;;
  unz <- aget (cp U) (cn U) ;;
  U <- (if len (cj U) <? unz + pivot_nnz then csr_realloc g U (unz + pivot_nnz) else Ok U) ;;
  Ax <- deref (cx A) ;;
  unz <- aget (cp U) (cn U) ;;
  '(U, unz, q, L, lp) <- for_ 0 npiv (fun k '(U, unz, q, L, lp) =>
      i <- aget p k ;;
      j <- aget pinv i ;;
      _ <- assert_ (0 <=? j) ;;
      qj <- aget qinv j ;;
      _ <- assert_ (qj =? i) ;;
      q <- aset q j (cn U) ;;
      pivot <- locate_pivot A Ax i j ;;
      _ <- assert_ (negb (pivot =? 0)) ;;
      '(L, lp) <- record_pivot g L lp p_in i (cn U) pivot ;;
      Ux <- deref (cx U) ;;
      '(U, unz) <- extract_row A Ax U Ux unz i j pivot ;;
      Ok (U, unz, q, L, lp)) (U, unz, f_q f, f_L f, f_p f) ;;
  _ <- assert_ (unz <=? len (cj U)) ;;
  Ok (npiv, Fact U q L lp, p).
