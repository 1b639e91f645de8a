(** Model of spasm_echelonize (src/spasm_echelonize.c:473-617) and of the estimation of densities
    (src/spasm_schur.c:11-44).

    Floating-point numbers only occur in comparisons and in the computation of the initial capacity
    of a buffer: these are parameters, functions of the integers they depend on. *)
From Verif Require Import Base Spec SpecElim Zp Mat Reach Pivots Extract Par Schur Sched Append Gplu Dense.

(* src/spasm.h:85-104, struct echelonize_opts; the thresholds are in the parameters below *)
Record opts := Opts {
  o_greedy : bool;    (* enable_greedy_pivot_search *)
  o_tall : bool;      (* enable_tall_and_skinny *)
  o_dense : bool;     (* enable_dense *)
  o_GPLU : bool;      (* enable_GPLU *)
  o_L : bool;         (* L *)
  o_complete : bool;  (* complete *)
  o_rounds : Z;       (* max_round *)
  o_blk : Z;          (* dense_block_size *)
  o_w0 : Z            (* low_rank_start_weight *)
}.

Record params := Params {
  x_E : env;                                (* for the dense finisher; contains malloc() *)
  x_junk : Z -> Z -> Z -> Z;                (* malloc() in each round *)
  x_pch : Z -> Z -> Z;                      (* pivot search of each round: scheduling *)
  x_pscr : Z -> Z -> list Z * list Z;       (* and scratch space *)
  x_few : Z -> Z -> bool;                   (* npiv < opts->min_pivot_proportion * min(n, m - U->n) *)
  x_rand : Z -> Z -> Z;                     (* rand(): round, i-th *)
  x_escr : Z -> Z -> scratch;               (* estimation of the density: scratch space *)
  x_dens0 : Z -> Z -> Z -> bool;            (* nnz(A) / n / m > opts->sparsity_threshold *)
  x_dens : Z -> Z -> bool;                  (* nnz / (m - U->n) / 100 > opts->sparsity_threshold *)
  x_size : Z -> Z -> Z -> Z -> Z;           (* (nnz / (m - U->n) / 100) * n * m *)
  x_sch : Z -> Z -> Z;                      (* Schur complement of each round: scheduling *)
  x_sscr : Z -> Z -> scratch;               (* and scratch space *)
  x_tall : Z -> Z -> bool                   (* (n - npiv) / (m - U->n) > opts->tall_and_skinny_ratio *)
}.

(* src/spasm_schur.c:11-44, with R = 100.  Returns the number of entries found.  The iterations
   only share this counter (a reduction), so they are run one after the other. *)
Definition estimate_nnz (rand : Z -> Z) (scr : Z -> scratch) (A : csr) (p : list Z) (n : Z) (U : csr) (qinv : list Z) : res Z :=
  if n =? 0 then Ok 0 else
  let m := cm A in
  for_ 0 100 (fun i nnz =>
    inew <- aget p (rand i mod n) ;;
    let '(xj, ps, mk, x) := scr i in
    '(top, xj, _, _, x) <- sparse_triangular_solve U A inew xj ps mk x qinv ;;
    for_ top m (fun px nnz =>
      j <- aget xj px ;; qj <- aget qinv j ;; v <- aget x j ;;
      Ok (if (qj <? 0) && negb (v =? 0) then nnz + 1 else nnz)) nnz) 0.

(* what the rounds carry: the current Schur complement, the original numbers of its rows, U and L,
   the order of the rows, the number of pivots, whether the last density is above the threshold *)
Record est := Est { s_A : csr; s_pin : option (list Z); s_f : fact; s_p : list Z; s_npiv : Z; s_dense : bool }.

(* src/spasm_echelonize.c:525-565, one round; inr: exit with status 1 or 2.
   Overflow: conversion of a NaN to an integer (line 553) *)
Definition ech_round (X : params) (greedy : bool) (round : Z) (s : est) : res (est + est * Z) :=
  let '(Est A p_in f p npiv dense) := s in
  nz <- aget (cp A) (cn A) ;;
  if nz =? 0 then Ok (inr (s, 1)) else
  '(npiv, f, p) <- extract_structural (x_junk X round) (x_pch X round) (x_pscr X round) greedy A p_in f p ;;
  let U := f_U f in
  let m := cm A in
  if x_few X npiv (Z.min (cn A) (m - cn U)) then Ok (inr (Est A p_in f p npiv dense, 2)) else
  let n := cn A - npiv in
  let pn := skipn (Z.to_nat npiv) p in
  c <- estimate_nnz (x_rand X round) (x_escr X round) A pn n U (f_q f) ;;
  if (0 <? n) && (m - cn U =? 0) then Fail Overflow else
  let dense := x_dens X c (m - cn U) in
  if dense then Ok (inr (Est A p_in f p npiv dense, 2)) else
  '(Sc, L, p_out) <- schur (x_junk X round) (x_sch X round) (x_sscr X round) (x_size X c (m - cn U) n m) A pn n U (f_q f) (f_L f) p_in
    (Some (malloc (x_junk X round 60) n)) ;;
  Ok (inl (Est Sc p_out (Fact U (f_q f) L (f_p f)) p npiv dense)).

(* src/spasm_echelonize.c:572-597; [fuel] bounds the iterations of the low-rank mode *)
Definition ech_finish (X : params) (fuel : nat) (o : opts) (tall : bool) (s : est) (status : Z) : res fact :=
  let '(Est A p_in f p npiv dense) := s in
  '(npiv, p) <- (if status =? 0 then p <- for_ 0 (cn A) (fun i p => aset p i i) p ;; Ok (0, p) else Ok (npiv, p)) ;;
  if status =? 1 then Ok f else
  let n := cn A - npiv in
  let pn := skipn (Z.to_nat npiv) p in
  if tall && x_tall X n (cm A - cn (f_U f)) then
    echelonize_dense_lowrank (x_E X) fuel (o_blk o) (o_w0 o) A pn n f
  else if o_dense o && dense then
    echelonize_dense (x_E X) fuel (o_blk o) (o_w0 o) tall (o_complete o) A pn n p_in f
  else if o_GPLU o then
    echelonize_GPLU (e_junk (x_E X)) (fun U q => test_completion (x_E X) 0 A pn n U q) A pn n p_in f
  else Ok f.

(* src/spasm_echelonize.c:602-616; g: malloc() *)
Definition ech_cleanup (g : Z -> Z -> Z) (complete : bool) (f : fact) : res lu :=
  U <- csr_resize g (f_U f) (cn (f_U f)) (cm (f_U f)) ;;
  U <- csr_realloc g U (-1) ;;
  match f_L f with
  | None => Ok (Lu false None U (f_q f) [])
  | Some L =>
      let L := Triplet (tnz L) (tn L) (cn U) (ti L) (tj L) (tx L) (tprime L) in
      C <- compress g L ;;
      Ok (Lu complete (Some C) U (f_q f) (realloc (g 61) (f_p f) (cn U)))
  end.

(* src/spasm_echelonize.c:473-617; fact->complete is not initialised when L is not requested *)
Definition echelonize (X : params) (fuel : nat) (o : opts) (A : csr) : res lu :=
  let g := e_junk (x_E X) in
  let hasL := o_L o || o_complete o in
  let tall := o_tall o && negb hasL in
  nz <- aget (cp A) (cn A) ;;
  let U := csr_alloc g (cn A) (cm A) nz (cprime A) true in
  let U := Csr 0 (cm U) (cp U) (cj U) (cx U) (cprime U) in
  Uq <- for_ 0 (cm A) (fun j q => aset q j (-1)) (malloc (g 62) (cm A)) ;;
  '(L, Lp) <- (if hasL then
      Lp <- for_ 0 (cn A) (fun j p => aset p j (-1)) (malloc (g 63) (cn A)) ;;
      Ok (Some (triplet_alloc g (cn A) (cn A) nz (cprime A) true), Lp)
    else Ok (None, [])) ;;
  let s := Est A None (Fact U Uq L Lp) (malloc (g 64) (cn A)) 0 (x_dens0 X nz (cn A) (cm A)) in
  r <- forb 0 (o_rounds o) (fun round s => ech_round X (o_greedy o) round s) s ;;
  let '(s, status) := match r with inl s => (s, 0) | inr (s, st) => (s, st) end in
  f <- ech_finish X fuel o tall s status ;;
  ech_cleanup g (o_complete o) f.
