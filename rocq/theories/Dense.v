(** Model of the dense part of the echelonization: src/spasm_schur.c:197-413 (dense Schur
    complements) and src/spasm_echelonize.c:30-51, 189-463.

    A dense matrix is a list of Z, row by row, whatever its datatype (float, double or i64): that
    every value is exactly representable is C45.  FFPACK is not part of the repository: its two
    functions are parameters (e_rref, e_plu) about which the theorems assume what DenseSpec.v
    says.  Pseudo-random numbers, rand(), floating-point comparisons and roundings are also
    parameters. *)
From Verif Require Import Base Spec SpecElim Zp Mat Reach Par Schur Sched Append Gplu.

Record env := Env {
  e_junk : Z -> Z -> Z;                     (* malloc(): see Mat.v *)
  e_scr : Z -> Z -> scratch;                (* scratch space of iteration k of the parallel loop of call c *)
  e_ch : Z -> Z -> Z;                       (* scheduling of the parallel loop of call c *)
  e_rc : Z -> Z -> Z;                       (* spasm_prng_ZZp: i-th number obtained from seed k *)
  e_ri : Z -> Z -> Z -> Z;                  (* rand(): call c, row k, i-th *)
  e_rref : Z -> Z -> list Z -> Z * list Z * list Z;             (* spasm_ffpack_rref: rank, matrix, qinv *)
  e_plu : Z -> Z -> list Z -> Z * list Z * list Z * list Z;     (* spasm_ffpack_LU: rank, matrix, p, qinv *)
  e_Sn : Z;                                 (* ceil(128 / log2(prime)) *)
  e_few : Z -> Z -> bool;                   (* rr < opts->low_rank_ratio * Sn *)
  e_few9 : Z -> Z -> bool;                  (* rr < 0.9 * Sn *)
  e_w0 : Z -> Z -> Z;                       (* ceil(-log(0.01) * n / rank_ub) *)
  e_thr : Z                                 (* omp_get_max_threads() *)
}.

(** ** Dense Schur complements *)
(* src/spasm_schur.c:197-206 *)
Definition prepare_q (m : Z) (qinv q : list Z) : res (list Z) :=
  '(q, _) <- for_ 0 m (fun j '(q, i) =>
      v <- aget qinv j ;;
      if v <? 0 then q <- aset q i j ;; Ok (q, i + 1) else Ok (q, i)) (q, 0) ;;
  Ok q.
(* src/spasm_schur.c:208-233; off: position of the row in S (row_pointer, 235-243) *)
Definition gather (n : Z) (xj x S : list Z) (off : Z) : res (list Z) :=
  for_ 0 n (fun k S => j <- aget xj k ;; v <- aget x j ;; aset S (off + k) v) S.

(* src/spasm_schur.c:305-311: the triplets to be added to L *)
Definition lcoeffs (qinv xj x : list Z) (top m iorig : Z) : res (list (Z * Z * Z)) :=
  for_ top m (fun k es =>
    j <- aget xj k ;; i <- aget qinv j ;; v <- aget x j ;;
    Ok (if (i <? 0) || (v =? 0) then es else es ++ [(iorig, i, v)])) [].
(* src/spasm_schur.c:291-311, iteration k *)
Definition dense_row (A U : csr) (qinv : list Z) (hasL : bool) (p : list Z) (p_in : option (list Z)) (q : list Z) (scr : scratch)
  (k : Z) (h : list Z * list Z) : res (list Z * list Z * list (Z * Z * Z)) :=
  let m := cm A in
  let Sm := m - cn U in
  let '(Sd, p_out) := h in
  let '(xj, ps, mk, x) := scr in
  i <- aget p k ;;
  iorig <- operm_get p_in i ;;
  p_out <- aset p_out k iorig ;;
  x <- for_ 0 m (fun j x => aset x j 0) x ;;
  '(top, xj, _, _, x) <- sparse_triangular_solve U A i xj ps mk x qinv ;;
  Sd <- gather Sm q x Sd (k * Sm) ;;
  es <- (if hasL then lcoeffs qinv xj x top m iorig else Ok []) ;;
  Ok (Sd, p_out, es).
(* src/spasm_schur.c:257-333; c: number of the call.  Returns fact (with L updated), S, q, p_out *)
Definition schur_dense (E : env) (c : Z) (A : csr) (p : list Z) (n : Z) (p_in : option (list Z)) (f : fact) (Sd q p_out : list Z)
  : res (fact * list Z * list Z * list Z) :=
  let U := f_U f in
  q <- prepare_q (cm A) (f_q f) q ;;
  let extra_lnz := 1 + n * cn U in
  let L := option_map (fun L => triplet_realloc (e_junk E) L (tnz L + extra_lnz)) (f_L f) in
  Lx <- match L with Some L => deref (tx L) | None => Ok [] end ;;
  let s := match L with
    | Some L => Ash (Sd, p_out) (tnz L) (ti L) (tj L) Lx
    | None => Ash (Sd, p_out) 0 [] [] []
    end in
  s <- append_for (fun k h => dense_row A U (f_q f) (is_some L) p p_in q (e_scr E c k) k h) (e_ch E c) n (if is_some L then cn U else 0) s ;;
  let L := option_map (fun L => Triplet (a_nz s) (tn L) (tm L) (a_i s) (a_j s) (Some (a_x s)) (tprime L)) L in
  Ok (Fact U (f_q f) L (f_p f), fst (a_h s), q, snd (a_h s)).

(* src/spasm_schur.c:367-398, iteration k *)
Definition random_row (E : env) (c : Z) (A : csr) (p : list Z) (n : Z) (U : csr) (q : list Z) (w k : Z) (Sd : list Z) : res (list Z * list (Z * Z * Z)) :=
  let m := cm A in
  let Sm := m - cn U in
  y <- (if w <=? 0 then
      for_ 0 n (fun i y => inew <- aget p i ;; scatter A inew (e_rc E k i) y) (fill m 0)
    else
      for_ 0 w (fun i y =>
        inew <- aget p (e_ri E c k i mod n) ;;
        scatter A inew (if i =? 0 then 1 else e_rc E k (i - 1)) y) (fill m 0)) ;;
  y <- for_ 0 (cn U) (fun i y =>
      b <- aget (cp U) i ;; j <- aget (cj U) b ;; v <- aget y j ;;
      if v =? 0 then Ok y else scatter U i (- v) y) y ;;
  Sd <- gather Sm q y Sd (k * Sm) ;;
  Ok (Sd, []).
(* src/spasm_schur.c:346-413; returns S, q *)
Definition schur_dense_randomized (E : env) (c : Z) (A : csr) (p : list Z) (n : Z) (U : csr) (qinv Sd q : list Z) (N w : Z) : res (list Z * list Z) :=
  _ <- assert_ (0 <? n) ;;
  q <- prepare_q (cm A) qinv q ;;
  s <- append_for (fun k Sd => random_row E c A p n U q w k Sd) (e_ch E c) N 0 (Ash Sd 0 [] [] []) ;;
  Ok (a_h s, q).

(* src/spasm_echelonize.c:30-51 *)
Definition test_completion (E : env) (c : Z) (A : csr) (p : list Z) (n : Z) (U : csr) (Uqinv : list Z) : res bool :=
  if (n =? 0) || (nnz A =? 0) then Ok true else
  let Sm := cm A - cn U in
  let Sn := e_Sn E in
  '(Sd, _) <- schur_dense_randomized E c A p n U Uqinv (malloc (e_junk E 50) (Sn * Sm)) (malloc (e_junk E 51) Sm) Sn 0 ;;
  let '(rr, _, _) := e_rref E Sn Sm Sd in
  Ok (rr =? 0).

(** ** From dense to sparse *)
(* one new row of U, from row i of S: src/spasm_echelonize.c:205-220 with [lo] = rr and skip = true,
   294-311 with [lo] = i + 1 and skip = false *)
Definition fill_row (skip : bool) (Sm : Z) (Sd Sqinv q : list Z) (i lo : Z) (s : csr * list Z * Z) : res (csr * list Z * Z) :=
  let '(U, Uqinv, unz) := s in
  j <- aget Sqinv i ;;
  jorig <- aget q j ;;
  Uj <- aset (cj U) unz jorig ;;
  ux <- deref (cx U) ;;
  Ux <- aset ux unz 1 ;;
  Uqinv <- aset Uqinv jorig (cn U) ;;
  '(Uj, Ux, unz) <- for_ lo Sm (fun k '(Uj, Ux, unz) =>
      j <- aget Sqinv k ;;
      x <- aget Sd (i * Sm + k) ;;
      if skip && (x =? 0) then Ok (Uj, Ux, unz) else
      jorig <- aget q j ;;
      Uj <- aset Uj unz jorig ;;
      Ux <- aset Ux unz x ;;
      Ok (Uj, Ux, unz + 1)) (Uj, Ux, unz + 1) ;;
  Up <- aset (cp U) (cn U + 1) unz ;;
  Ok (Csr (cn U + 1) (cm U) Up Uj (Some Ux) (cprime U), Uqinv, unz).

(* src/spasm_echelonize.c:192-223 *)
Definition update_U_after_rref (g : Z -> Z -> Z) (rr Sm : Z) (Sd Sqinv q : list Z) (f : fact) : res fact :=
  unz <- aget (cp (f_U f)) (cn (f_U f)) ;;
  U <- csr_realloc g (f_U f) (unz + (1 + Sm - rr) * rr) ;;
  '(U, Uqinv, unz) <- for_ 0 rr (fun i s => fill_row true Sm Sd Sqinv q i rr s) (U, f_q f, unz) ;;
  _ <- assert_ (unz =? nnz U) ;;
  Ok (Fact U Uqinv (f_L f) (f_p f)).

(* src/spasm_echelonize.c:250-271; pivotal: 0 or 1 for each row *)
Definition keep_pivotal (r : Z) (Sp p_in : list Z) (lnz_before : Z) (pivotal : list Z) (L : triplet) : res (list Z * triplet * Z) :=
  pivotal <- for_ 0 r (fun i pivotal =>
      pi <- aget Sp i ;; iorig <- aget p_in pi ;; aset pivotal iorig 1) pivotal ;;
  '(L, lnz) <- for_ lnz_before (tnz L) (fun px '(L, lnz) =>
      i <- aget (ti L) px ;;
      b <- aget pivotal i ;;
      if b =? 0 then Ok (L, lnz) else
      j <- aget (tj L) px ;;
      lx <- deref (tx L) ;;
      x <- aget lx px ;;
      L <- tput L lnz i j x ;;
      Ok (L, lnz + 1)) (L, lnz_before) ;;
  Ok (pivotal, L, lnz).
(* src/spasm_echelonize.c:274-288 *)
Definition lu_rows (N r Sm un : Z) (Sd Sp p_in : list Z) (L : triplet) (Lp : list Z) (lnz : Z) : res (triplet * list Z * Z) :=
  for_ 0 N (fun i '(L, Lp, lnz) =>
    pi <- aget Sp i ;; iorig <- aget p_in pi ;;
    '(L, lnz) <- for_ 0 (Z.min (i + 1) r) (fun j '(L, lnz) =>
        Mij <- aget Sd (i * Sm + j) ;;
        if Mij =? 0 then Ok (L, lnz) else
        L <- tput L lnz iorig (un + j) Mij ;;
        Ok (L, lnz + 1)) (L, lnz) ;;
    Lp <- (if i <? r then aset Lp (un + i) iorig else Ok Lp) ;;
    Ok (L, Lp, lnz)) (L, Lp, lnz).
(* src/spasm_echelonize.c:228-313; returns pivotal, fact *)
Definition update_fact_after_LU (g : Z -> Z -> Z) (n Sm r : Z) (Sd Sp Sqinv q p_in : list Z) (lnz_before : Z) (complete : bool)
  (pivotal : list Z) (f : fact) : res (list Z * fact) :=
  L <- deref (f_L f) ;;
  unz <- aget (cp (f_U f)) (cn (f_U f)) ;;
  U <- csr_realloc g (f_U f) (unz + (1 + 2 * Sm - r) * r) ;;
  let L := triplet_realloc g L (tnz L + (2 * n - r + 1) * r / 2) in
  '(pivotal, L, lnz) <- (if complete then Ok (pivotal, L, tnz L) else keep_pivotal r Sp p_in lnz_before pivotal L) ;;
  '(L, Lp, lnz) <- lu_rows (if complete then n else r) r Sm (cn U) Sd Sp p_in L (f_p f) lnz ;;
  let L := Triplet lnz (tn L) (tm L) (ti L) (tj L) (tx L) (tprime L) in
  '(U, Uqinv, _) <- for_ 0 r (fun i s => fill_row false Sm Sd Sqinv q i (i + 1) s) (U, f_q f, unz) ;;
  Ok (pivotal, Fact U Uqinv (Some L) Lp).

(** ** Low-rank mode *)
Definition i32_max : Z := 2147483647.
(* src/spasm_echelonize.c:315-379.  blk: opts->dense_block_size, w0: opts->low_rank_start_weight.
   The loop may run for ever (see PropEchelon.v); [fuel] bounds the number of iterations.
   Overflow stands for a signed overflow of w and for the conversion to int of an infinity (line
   345 when rank_ub = 0). *)
Definition echelonize_dense_lowrank (E : env) (fuel : nat) (blk w0 : Z) (A : csr) (p : list Z) (n : Z) (f : fact) : res fact :=
  _ <- assert_ (0 <? blk) ;;
  let Sm := cm A - cn (f_U f) in
  let rank_ub := Z.min n Sm in
  w <- (if w0 <? 0 then (if rank_ub =? 0 then Fail Overflow else Ok (e_w0 E n rank_ub)) else Ok w0) ;;
  loop fuel (fun '(n, Sm, rank_ub, w, f, Sd, q, round) =>
    let Sn := Z.min rank_ub blk in
    if Sn <=? 0 then Ok (inr f) else
    '(Sd, q) <- schur_dense_randomized E (2 * round) A p n (f_U f) (f_q f) Sd q Sn w ;;
    let '(rr, Sd, Sp) := e_rref E Sn Sm Sd in
    '(stop, w, Sn) <- (if rr =? 0 then
        b <- test_completion E (2 * round + 1) A p n (f_U f) (f_q f) ;;
        Ok (b, 0, e_thr E)
      else Ok (false, w, Sn)) ;;
    if stop : bool then Ok (inr f) else
    w <- (if e_few9 E rr Sn then (if i32_max <? 2 * w then Fail Overflow else Ok (2 * w)) else Ok w) ;;
    f <- update_U_after_rref (e_junk E) rr Sm Sd Sp q f ;;
    Ok (inl (n - rr, Sm - rr, rank_ub - rr, w, f, Sd, q, round + 1)))
    (n, Sm, rank_ub, w, f, malloc (e_junk E 52) (blk * Sm), malloc (e_junk E 53) Sm, 0).

(** ** Dense mode *)
(* src/spasm_echelonize.c:385-463; tall: opts->enable_tall_and_skinny.  p += Sn is skipn.  opts->L
   is set if and only if there is an L. *)
Definition echelonize_dense (E : env) (fuel : nat) (blk w0 : Z) (tall complete : bool) (A : csr) (p : list Z) (n : Z)
  (p_in : option (list Z)) (f : fact) : res fact :=
  _ <- assert_ (0 <? blk) ;;
  let m := cm A in
  let Sm := m - cn (f_U f) in
  let rank_ub := Z.min (cn A - cn (f_U f)) (m - cn (f_U f)) in
  '(p, processed, f, rank_ub, lowrank_mode) <-
    loop (S (Z.to_nat n)) (fun '(p, processed, f, Sm, Sd, q, p_out, pivotal, rank_ub, round) =>
      let Sn := Z.min blk (n - processed) in
      if Sn <=? 0 then Ok (inr (p, processed, f, rank_ub, false)) else
      let lnz_before := match f_L f with Some L => tnz L | None => -1 end in
      '(f, Sd, q, p_out) <- schur_dense E round A p Sn p_in f Sd q p_out ;;
      '(rr, Sd, pivotal, f) <- (match f_L f with
        | Some _ =>
            let '(rr, Sd, Sp, Sqinv) := e_plu E Sn Sm Sd in
            '(pivotal, f) <- update_fact_after_LU (e_junk E) Sn Sm rr Sd Sp Sqinv q p_out lnz_before complete pivotal f ;;
            Ok (rr, Sd, pivotal, f)
        | None =>
            let '(rr, Sd, Sqinv) := e_rref E Sn Sm Sd in
            f <- update_U_after_rref (e_junk E) rr Sm Sd Sqinv q f ;;
            Ok (rr, Sd, pivotal, f)
        end) ;;
      let p := skipn (Z.to_nat Sn) p in
      let rank_ub := Z.min (cn A - cn (f_U f)) (m - cn (f_U f)) in
      if tall && e_few E rr Sn then Ok (inr (p, processed + Sn, f, rank_ub, true)) else
      Ok (inl (p, processed + Sn, f, m - cn (f_U f), Sd, q, p_out, pivotal, rank_ub, round + 1)))
    (p, 0, f, Sm, malloc (e_junk E 54) (blk * Sm), malloc (e_junk E 55) Sm, malloc (e_junk E 56) blk, fill (cn A) 0, rank_ub, 0) ;;
  if (0 <? rank_ub) && (0 <? n - processed) && lowrank_mode then
    echelonize_dense_lowrank E fuel blk w0 A p (n - processed) f
  else Ok f.
