(** Entries counted with 32-bit integers: the loops and conversions that Mat.v and Scc.v assume to fit.
    (Those of src/spasm_rref.c:137 and src/spasm_kernel.c:149 are in Rref.v.) *)
From Verif Require Import Base Spec Zp Mat Scc.

(* for (int i = lo; i < hi; i++), where hi is a 64-bit integer: i++ overflows after i = 2^31 - 1 *)
Definition for_i32 {S} (lo hi : Z) (body : Z -> S -> res S) (s : S) : res S :=
  if hi <? 2 ^ 31 then for_ lo hi body s else
  _ <- for_ lo (2 ^ 31) body s ;;
  Fail Overflow.

(* src/spasm_triplet.c:99-158: the counter of line 124 is an int *)
Definition compress_raw32 (g : Z -> Z -> Z) (T : triplet) : res csr :=
  let n := tn T in let m := tm T in let nz := tnz T in
  let C := csr_alloc g n m nz (tprime T) (match tx T with Some _ => true | None => false end) in
  w <- for_ 0 n (fun i w => aset w i 0) (malloc (g 11) n) ;;
  w <- for_i32 0 nz (fun it w =>
      i <- aget (ti T) it ;;
      _ <- assert_ (i <? n) ;;
      c <- aget w i ;; aset w i (c + 1)) w ;;
  '(Cp, w, s) <- for_ 0 n (fun k '(Cp, w, s) =>
      Cp <- aset Cp k s ;;
      c <- aget w k ;;
      w <- aset w k s ;;
      Ok (Cp, w, s + c)) (cp C, w, 0) ;;
  Cp <- aset Cp n s ;;
  '(w, Cj, Cx) <- for_ 0 nz (fun k '(w, Cj, Cx) =>
      i <- aget (ti T) k ;;
      px <- aget w i ;;
      w <- aset w i (px + 1) ;;
      j <- aget (tj T) k ;;
      Cj <- aset Cj px j ;;
      Cx <- ocopy Cx px (tx T) k ;;
      Ok (w, Cj, Cx)) (w, cj C, cx C) ;;
  Ok (Csr n m Cp Cj Cx (tprime T)).
Definition compress32 (g : Z -> Z -> Z) (T : triplet) : res csr :=
  C <- compress_raw32 g T ;;
  C <- deduplicate g C ;;
  remove_explicit_zeroes g C.

(* src/spasm_scc.c:58-74: inr: a node was pushed; inl: the edges of j are exhausted (only lowlink has changed) *)
Definition scc_scan32 (A : csr) (s : scc) : res (list Z + scc) :=
  let j := s_j s in
  lo <- aget (cp A) j ;; hi <- aget (cp A) (j + 1) ;;
  px0 <- aget (s_ps s) j ;;
  forb px0 (hi - lo) (fun px low =>
    k <- aget (cj A) (to_i32 (lo + px)) ;;
    mk <- aget (s_mk s) k ;;
    if 0 <=? mk then
      lj <- aget low j ;; lk <- aget low k ;;
      low <- aset low j (Z.min lj lk) ;;
      Ok (inl low)
    else
      ps <- aset (s_ps s) j (px + 1) ;;
      stk <- aset (s_stk s) (s_top s + 1) k ;;
      prev <- aset (s_prev s) k j ;;
      Ok (inr (Scc (s_ptop s) (s_p s) (s_rr s) (s_n s) ps (s_mk s) prev stk low (s_idx s) (s_top s + 1) k))) (s_low s).

(* src/spasm_scc.c:51-95; an iteration pushes or finishes a node *)
Definition scc_dfs32 (A : csr) (s : scc) : res scc :=
  loop (Z.to_nat (2 * cn A + 1)) (fun s =>
    if s_j s <? 0 then Ok (inr s) else
    s <- scc_mark s ;;
    o <- scc_scan32 A s ;;
    match o with
    | inr s => Ok (inl s)
    | inl low =>
      s <- scc_finish (cn A) (Scc (s_ptop s) (s_p s) (s_rr s) (s_n s) (s_ps s) (s_mk s) (s_prev s) (s_stk s) low (s_idx s) (s_top s) (s_j s)) ;;
      Ok (inl s)
    end) s.

(* src/spasm_scc.c:14-117 *)
Definition strongly_connected_components32 (g : Z -> Z -> Z) (A : csr) : res dm :=
  let n := cn A in
  _ <- assert_ (n =? cm A) ;;
  let P := dm_alloc g n n in
  '(mk, prev, ps) <- for_ 0 n (fun i '(mk, prev, ps) =>
      mk <- aset mk i (-1) ;; prev <- aset prev i (-1) ;; ps <- aset ps i 0 ;; Ok (mk, prev, ps))
    (malloc (g 5) n, malloc (g 6) n, malloc (g 4) n) ;;
  rr <- aset (dm_r P) 0 0 ;;
  s <- for_ 0 n (fun i s =>
      mk <- aget (s_mk s) i ;;
      if 0 <=? mk then Ok s else
      stk <- aset (s_stk s) 0 i ;;
      scc_dfs32 A (Scc (s_ptop s) (s_p s) (s_rr s) (s_n s) (s_ps s) (s_mk s) (s_prev s) stk (s_low s) (s_idx s) 0 i))
    (Scc 0 (dm_p P) rr 0 ps mk prev (malloc (g 7) n) (malloc (g 8) n) 0 (-1) (-1)) ;;
  _ <- assert_ (s_ptop s =? n) ;;
  q <- for_ 0 n (fun i q => v <- aget (s_p s) (n - 1 - i) ;; aset q i v) (dm_q P) ;;
  p <- for_ 0 n (fun i p => v <- aget q i ;; aset p i v) (s_p s) ;;
  cc <- for_ 0 (s_n s + 1) (fun i cc => v <- aget (s_rr s) (s_n s - i) ;; aset cc i (n - v)) (dm_c P) ;;
  rr <- for_ 0 (s_n s + 1) (fun i rr => v <- aget cc i ;; aset rr i v) (s_rr s) ;;
  Ok (Dm p q rr cc (s_n s) (dm_rr P) (dm_cc P)).
