(** Trimming an array to zero cells.

    realloc(ptr, 0) frees the array, and it may return NULL (it does so in the GNU C library; it is
    undefined since C23).  src/spasm_util.c:81-87 accepts that.  In spasm_csr_realloc and
    spasm_triplet_realloc (src/spasm_util.c:123-150) the array of the values is then NULL, which is
    how a matrix without values is represented: a matrix that is trimmed when it has no entry does
    not get an array of values again when it is enlarged later.

    Everywhere else in this development realloc(ptr, 0) returns an array without cells; these are
    the functions in which the other behaviour makes a difference: the ones that may trim a matrix
    and enlarge it later.  A matrix without entries that is not enlarged is never read. *)
From Verif Require Import Base Spec SpecElim Zp Mat Reach Pivots Extract Par Schur Sched Append Gplu Dense Echelonize SpecText SpecSha Sha Stdio IO.

(* src/spasm_util.c:123-133 *)
Definition csr_realloc0 (g : Z -> Z -> Z) (A : csr) (nzmax : Z) : res csr :=
  z <- aget (cp A) (cn A) ;;
  let nzmax := if nzmax <? 0 then z else nzmax in
  Ok (Csr (cn A) (cm A) (cp A) (realloc (g 3) (cj A) nzmax)
        (if nzmax =? 0 then None else option_map (fun x => realloc (g 4) x nzmax) (cx A)) (cprime A)).
(* src/spasm_util.c:139-150 *)
Definition triplet_realloc0 (g : Z -> Z -> Z) (T : triplet) (nzmax : Z) : triplet :=
  let nzmax := if nzmax <? 0 then tnz T else nzmax in
  Triplet (tnz T) (tn T) (tm T) (realloc (g 0) (ti T) nzmax) (realloc (g 1) (tj T) nzmax)
    (if nzmax =? 0 then None else option_map (fun x => realloc (g 2) x nzmax) (tx T)) (tprime T).

(* src/spasm_echelonize.c:192-223 *)
Definition update_U_after_rref0 (g : Z -> Z -> Z) (rr Sm : Z) (Sd Sqinv q : list Z) (f : fact) : res fact :=
  unz <- aget (cp (f_U f)) (cn (f_U f)) ;;
  U <- csr_realloc0 g (f_U f) (unz + (1 + Sm - rr) * rr) ;;
  '(U, Uqinv, unz) <- for_ 0 rr (fun i s => fill_row true Sm Sd Sqinv q i rr s) (U, f_q f, unz) ;;
  _ <- assert_ (unz =? nnz U) ;;
  Ok (Fact U Uqinv (f_L f) (f_p f)).
(* src/spasm_echelonize.c:228-313 *)
Definition update_fact_after_LU0 (g : Z -> Z -> Z) (n Sm r : Z) (Sd Sp Sqinv q p_in : list Z) (lnz_before : Z) (complete : bool)
  (pivotal : list Z) (f : fact) : res (list Z * fact) :=
  L <- deref (f_L f) ;;
  unz <- aget (cp (f_U f)) (cn (f_U f)) ;;
  U <- csr_realloc0 g (f_U f) (unz + (1 + 2 * Sm - r) * r) ;;
  let L := triplet_realloc0 g L (tnz L + (2 * n - r + 1) * r / 2) in
  '(pivotal, L, lnz) <- (if complete then Ok (pivotal, L, tnz L) else keep_pivotal r Sp p_in lnz_before pivotal L) ;;
  '(L, Lp, lnz) <- lu_rows (if complete then n else r) r Sm (cn U) Sd Sp p_in L (f_p f) lnz ;;
  let L := Triplet lnz (tn L) (tm L) (ti L) (tj L) (tx L) (tprime L) in
  '(U, Uqinv, _) <- for_ 0 r (fun i s => fill_row false Sm Sd Sqinv q i (i + 1) s) (U, f_q f, unz) ;;
  Ok (pivotal, Fact U Uqinv (Some L) Lp).
(* src/spasm_schur.c:257-333.  The array is never trimmed to zero cells here (lines 271-275), but
   it may be NULL; then it has no cell, and it stays NULL *)
Definition schur_dense0 (E : env) (c : Z) (A : csr) (p : list Z) (n : Z) (p_in : option (list Z)) (f : fact) (Sd q p_out : list Z)
  : res (fact * list Z * list Z * list Z) :=
  let U := f_U f in
  q <- prepare_q (cm A) (f_q f) q ;;
  let extra_lnz := 1 + n * cn U in
  let L := option_map (fun L => triplet_realloc (e_junk E) L (tnz L + extra_lnz)) (f_L f) in
  let s := match L with
    | Some L => Ash (Sd, p_out) (tnz L) (ti L) (tj L) (match tx L with Some x => x | None => [] end)
    | None => Ash (Sd, p_out) 0 [] [] []
    end in
  s <- append_for (fun k h => dense_row A U (f_q f) (is_some L) p p_in q (e_scr E c k) k h) (e_ch E c) n (if is_some L then cn U else 0) s ;;
  let L := option_map (fun L => Triplet (a_nz s) (tn L) (tm L) (a_i s) (a_j s) (option_map (fun _ => a_x s) (tx L)) (tprime L)) L in
  Ok (Fact U (f_q f) L (f_p f), fst (a_h s), q, snd (a_h s)).
(* src/spasm_echelonize.c:315-379 *)
Definition echelonize_dense_lowrank0 (E : env) (fuel : nat) (blk w0 : Z) (A : csr) (p : list Z) (n : Z) (f : fact) : res fact :=
  _ <- assert_ (0 <? blk) ;;
  let Sm := cm A - cn (f_U f) in
  let rank_ub := Z.min n Sm in
  w <- (if w0 <? 0 then (if rank_ub =? 0 then Fail Overflow else Ok (e_w0 E n rank_ub)) else Ok w0) ;;
  loop fuel (fun '(n, Sm, rank_ub, w, f, Sd, q, round) =>
    let Sn := Z.min rank_ub blk in
    if Sn <=? 0 then Ok (inr f) else
    '(Sd, q) <- schur_dense_randomized E (2 * round) A p n (f_U f) (f_q f) Sd q Sn w ;;
    let '(rr, Sd, Sp) := e_rref E Sn Sm Sd in
    '(stop, w, Sn) <- (if rr =? 0 then
        b <- test_completion E (2 * round + 1) A p n (f_U f) (f_q f) ;;
        Ok (b, 0, e_thr E)
      else Ok (false, w, Sn)) ;;
    if stop : bool then Ok (inr f) else
    w <- (if e_few9 E rr Sn then (if i32_max <? 2 * w then Fail Overflow else Ok (2 * w)) else Ok w) ;;
    f <- update_U_after_rref0 (e_junk E) rr Sm Sd Sp q f ;;
    Ok (inl (n - rr, Sm - rr, rank_ub - rr, w, f, Sd, q, round + 1)))
    (n, Sm, rank_ub, w, f, malloc (e_junk E 52) (blk * Sm), malloc (e_junk E 53) Sm, 0).
(* src/spasm_echelonize.c:385-463 *)
Definition echelonize_dense0 (E : env) (fuel : nat) (blk w0 : Z) (tall complete : bool) (A : csr) (p : list Z) (n : Z)
  (p_in : option (list Z)) (f : fact) : res fact :=
  _ <- assert_ (0 <? blk) ;;
  let m := cm A in
  let Sm := m - cn (f_U f) in
  let rank_ub := Z.min (cn A - cn (f_U f)) (m - cn (f_U f)) in
  '(p, processed, f, rank_ub, lowrank_mode) <-
    loop (S (Z.to_nat n)) (fun '(p, processed, f, Sm, Sd, q, p_out, pivotal, rank_ub, round) =>
      let Sn := Z.min blk (n - processed) in
      if Sn <=? 0 then Ok (inr (p, processed, f, rank_ub, false)) else
      let lnz_before := match f_L f with Some L => tnz L | None => -1 end in
      '(f, Sd, q, p_out) <- schur_dense0 E round A p Sn p_in f Sd q p_out ;;
      '(rr, Sd, pivotal, f) <- (match f_L f with
        | Some _ =>
            let '(rr, Sd, Sp, Sqinv) := e_plu E Sn Sm Sd in
            '(pivotal, f) <- update_fact_after_LU0 (e_junk E) Sn Sm rr Sd Sp Sqinv q p_out lnz_before complete pivotal f ;;
            Ok (rr, Sd, pivotal, f)
        | None =>
            let '(rr, Sd, Sqinv) := e_rref E Sn Sm Sd in
            f <- update_U_after_rref0 (e_junk E) rr Sm Sd Sqinv q f ;;
            Ok (rr, Sd, pivotal, f)
        end) ;;
      let p := skipn (Z.to_nat Sn) p in
      let rank_ub := Z.min (cn A - cn (f_U f)) (m - cn (f_U f)) in
      if tall && e_few E rr Sn then Ok (inr (p, processed + Sn, f, rank_ub, true)) else
      Ok (inl (p, processed + Sn, f, m - cn (f_U f), Sd, q, p_out, pivotal, rank_ub, round + 1)))
    (p, 0, f, Sm, malloc (e_junk E 54) (blk * Sm), malloc (e_junk E 55) Sm, malloc (e_junk E 56) blk, fill (cn A) 0, rank_ub, 0) ;;
  if (0 <? rank_ub) && (0 <? n - processed) && lowrank_mode then
    echelonize_dense_lowrank0 E fuel blk w0 A p (n - processed) f
  else Ok f.
(* src/spasm_echelonize.c:572-597 *)
Definition ech_finish0 (X : params) (fuel : nat) (o : opts) (tall : bool) (s : est) (status : Z) : res fact :=
  let '(Est A p_in f p npiv dense) := s in
  '(npiv, p) <- (if status =? 0 then p <- for_ 0 (cn A) (fun i p => aset p i i) p ;; Ok (0, p) else Ok (npiv, p)) ;;
  if status =? 1 then Ok f else
  let n := cn A - npiv in
  let pn := skipn (Z.to_nat npiv) p in
  if tall && x_tall X n (cm A - cn (f_U f)) then
    echelonize_dense_lowrank0 (x_E X) fuel (o_blk o) (o_w0 o) A pn n f
  else if o_dense o && dense then
    echelonize_dense0 (x_E X) fuel (o_blk o) (o_w0 o) tall (o_complete o) A pn n p_in f
  else if o_GPLU o then
    echelonize_GPLU (e_junk (x_E X)) (fun U q => test_completion (x_E X) 0 A pn n U q) A pn n p_in f
  else Ok f.
(* src/spasm_echelonize.c:473-617 *)
Definition echelonize0 (X : params) (fuel : nat) (o : opts) (A : csr) : res lu :=
  let g := e_junk (x_E X) in
  let hasL := o_L o || o_complete o in
  let tall := o_tall o && negb hasL in
  nz <- aget (cp A) (cn A) ;;
  let U := csr_alloc g (cn A) (cm A) nz (cprime A) true in
  let U := Csr 0 (cm U) (cp U) (cj U) (cx U) (cprime U) in
  Uq <- for_ 0 (cm A) (fun j q => aset q j (-1)) (malloc (g 62) (cm A)) ;;
  '(L, Lp) <- (if hasL then
      Lp <- for_ 0 (cn A) (fun j p => aset p j (-1)) (malloc (g 63) (cn A)) ;;
      Ok (Some (triplet_alloc g (cn A) (cn A) nz (cprime A) true), Lp)
    else Ok (None, [])) ;;
  let s := Est A None (Fact U Uq L Lp) (malloc (g 64) (cn A)) 0 (x_dens0 X nz (cn A) (cm A)) in
  r <- forb 0 (o_rounds o) (fun round s => ech_round X (o_greedy o) round s) s ;;
  let '(s, status) := match r with inl s => (s, 0) | inr (s, st) => (s, st) end in
  f <- ech_finish0 X fuel o tall s status ;;
  ech_cleanup g (o_complete o) f.

(* src/spasm_io.c:60-160.  The matrix is trimmed on line 144 *)
Definition triplet_load0 (gs : Z -> Z) (g : Z -> Z -> Z) (bytes : list Z) (prime : Z) (hash : option (list Z)) : res (triplet * option (list Z)) :=
  let ctx := match hash with Some _ => Some SHA256_init | None => None end in
  '(l, ctx, f) <- read_line gs ctx (File bytes false) ;;
  match l with None => Fail AssertFailed | Some s =>
  '(mm, n, m, nnz, ctx, f) <-
    (if is_mm s then
       _ <- validate_mm_header s ;;
       '(s, ctx, f) <- skip_comments gs ctx f ;;
       v <- scan3 s ;;
       match v with None => Fail AssertFailed | Some (n, m, nnz) => Ok (true, n, m, nnz, ctx, f) end
     else
       v <- scan_sms s ;;
       match v with None => Fail AssertFailed | Some (n, m, type) =>
         _ <- assert_ ((prime =? -1) || (type =? 77)) ;;
         Ok (false, n, m, 1, ctx, f)
       end) ;;
  _ <- assert_ (0 <=? nnz) ;; (* otherwise, malloc fails *)
  let T := triplet_alloc g n m nnz prime (negb (prime =? -1)) in
  '(T, ctx, f) <- read_entries gs g mm nnz T ctx f ;;
  let T := if mm then T else triplet_realloc0 g T (-1) in
  h <- match ctx, hash with
       | Some c, Some md => md <- SHA256_final gs md c ;; Ok (Some md)
       | _, _ => Ok None
       end ;;
  Ok (T, h)
  end.
