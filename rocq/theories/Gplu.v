(** Model of echelonize_GPLU (src/spasm_echelonize.c:55-186). *)
From Verif Require Import Base Spec SpecElim Zp Mat Reach.

(* L->i[k] = i; L->j[k] = j; L->x[k] = v *)
Definition tput (L : triplet) (k i j v : Z) : res triplet :=
  li <- aset (ti L) k i ;;
  lj <- aset (tj L) k j ;;
  x <- deref (tx L) ;;
  lx <- aset x k v ;;
  Ok (Triplet (tnz L) (tn L) (tm L) li lj (Some lx) (tprime L)).
Definition is_some {A} (o : option A) : bool := match o with Some _ => true | None => false end.

(* src/spasm_echelonize.c:116-132: leftmost pivot, coefficients of L *)
Definition gplu_scan (q xj x : list Z) (top m i_orig : Z) (L : option triplet) (lnz : Z) : res (Z * option triplet * Z) :=
  for_ top m (fun px '(jpiv, L, lnz) =>
    j <- aget xj px ;; v <- aget x j ;;
    if v =? 0 then Ok (jpiv, L, lnz) else
    qj <- aget q j ;;
    if qj <? 0 then Ok (if j <? jpiv then j else jpiv, L, lnz) else
    match L with
    | None => Ok (jpiv, None, lnz)
    | Some L => L <- tput L lnz i_orig qj v ;; Ok (jpiv, Some L, lnz + 1)
    end) (m, L, lnz).

(* src/spasm_echelonize.c:152-169: the new row of U; q is already updated *)
Definition gplu_row (prime : Z) (U : csr) (q xj x : list Z) (top m jpiv unz : Z) : res (csr * Z) :=
  Uj <- aset (cj U) unz jpiv ;;
  ux <- deref (cx U) ;;
  Ux <- aset ux unz 1 ;;
  xp <- aget x jpiv ;;
  _ <- assert_ (negb (xp =? 0)) ;;
  let beta := zinv prime xp in
  '(Uj, Ux, unz) <- for_ top m (fun px '(Uj, Ux, unz) =>
      j <- aget xj px ;; v <- aget x j ;;
      if v =? 0 then Ok (Uj, Ux, unz) else
      qj <- aget q j ;;
      if negb (qj <? 0) then Ok (Uj, Ux, unz) else
      Uj <- aset Uj unz j ;;
      Ux <- aset Ux unz (zmul prime beta v) ;;
      Ok (Uj, Ux, unz + 1)) (Uj, Ux, unz + 1) ;;
  Up <- aset (cp U) (cn U + 1) unz ;;
  Ok (Csr (cn U + 1) (cm U) Up Uj (Some Ux) (cprime U), unz).

(* src/spasm_echelonize.c:134-142: pivot in L *)
Definition gplu_pivot (L : option triplet) (lp x : list Z) (lnz un i_orig jpiv : Z) : res (option triplet * list Z * Z) :=
  match L with
  | None => Ok (None, lp, lnz)
  | Some L =>
      xp <- aget x jpiv ;;
      _ <- assert_ (negb (xp =? 0)) ;;
      lp <- aset lp un i_orig ;;
      L <- tput L lnz i_orig un xp ;;
      Ok (Some L, lp, lnz + 1)
  end.

(* what the main loop carries: U, L (with the number lnz of triplets), the counters of the early
   abort and the workspace (the array xj of the code is the concatenation of xj, ps and mk) *)
Record gplu_st := Gst {
  g_U : csr; g_q : list Z; g_L : option triplet; g_lp : list Z;
  g_unz : Z; g_lnz : Z; g_since : Z; g_tested : bool;
  g_xj : list Z; g_ps : list Z; g_mk : list Z; g_x : list Z
}.

(* src/spasm_echelonize.c:78-178: one iteration; inr: break.  [test] is
   spasm_echelonize_test_completion(A, p, n, _, _). *)
Definition gplu_step (g : Z -> Z -> Z) (test : csr -> list Z -> res bool) (A : csr) (p : list Z) (n : Z) (p_in : option (list Z))
  (i : Z) (s : gplu_st) : res (gplu_st + gplu_st) :=
  let m := cm A in
  let r := Z.min (cn A) m in
  let hasL := is_some (g_L s) in
  if negb hasL && (cn (g_U s) =? r) then Ok (inr s) else
  '(stop, tested) <- (if negb hasL && negb (g_tested s) && (10 <? g_since s) && (n / 100 <? g_since s) then
      b <- test (g_U s) (g_q s) ;; Ok (b, true)
    else Ok (false, g_tested s)) ;;
  if stop : bool then Ok (inr s) else
  let since := g_since s + 1 in
  U <- (if len (cj (g_U s)) <? g_unz s + m then csr_realloc g (g_U s) (2 * len (cj (g_U s)) + m) else Ok (g_U s)) ;;
  let L := option_map (fun L => if len (tj L) <? g_lnz s + m then triplet_realloc g L (2 * len (tj L) + m) else L) (g_L s) in
  inew <- aget p i ;;
  i_orig <- operm_get p_in inew ;;
  '(top, xj, ps, mk, x) <- sparse_triangular_solve U A inew (g_xj s) (g_ps s) (g_mk s) (g_x s) (g_q s) ;;
  '(jpiv, L, lnz) <- gplu_scan (g_q s) xj x top m i_orig L (g_lnz s) ;;
  if jpiv =? m then Ok (inl (Gst U (g_q s) L (g_lp s) (g_unz s) lnz since tested xj ps mk x)) else
  '(L, lp, lnz) <- gplu_pivot L (g_lp s) x lnz (cn U) i_orig jpiv ;;
  q <- aset (g_q s) jpiv (cn U) ;;
  '(U, unz) <- gplu_row (cprime A) U q xj x top m jpiv (g_unz s) ;;
  Ok (inl (Gst U q L lp unz lnz 0 false xj ps mk x)).

(* src/spasm_echelonize.c:55-186 *)
Definition echelonize_GPLU (g : Z -> Z -> Z) (test : csr -> list Z -> res bool) (A : csr) (p : list Z) (n : Z)
  (p_in : option (list Z)) (f : fact) : res fact :=
  let m := cm A in
  unz <- aget (cp (f_U f)) (cn (f_U f)) ;;
  let lnz := match f_L f with Some L => tnz L | None => 0 end in
  let s := Gst (f_U f) (f_q f) (f_L f) (f_p f) unz lnz 0 false (fill m 0) (fill m 0) (fill m 0) (malloc (g 40) m) in
  o <- forb 0 n (gplu_step g test A p n p_in) s ;;
  let s := match o with inl s => s | inr s => s end in
  Ok (Fact (g_U s) (g_q s)
        (option_map (fun L => Triplet (g_lnz s) (tn L) (cn (g_U s)) (ti L) (tj L) (tx L) (tprime L)) (g_L s)) (g_lp s)).
