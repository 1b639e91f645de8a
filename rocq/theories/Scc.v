(** Model of src/spasm_scc.c.  Positions of entries, row weights and node numbers are 32-bit integers in
    the code (even the position [int p = Ap[j] + px], line 61): the model assumes that they fit. *)
From Verif Require Import Base Spec Mat.

(* src/spasm.h:74-82, src/spasm_util.c:184-197 *)
Record dm := Dm { dm_p : list Z; dm_q : list Z; dm_r : list Z; dm_c : list Z; dm_nb : Z; dm_rr : list Z; dm_cc : list Z }.
Definition dm_alloc (g : Z -> Z -> Z) (n m : Z) : dm :=
  Dm (malloc (g 0) n) (malloc (g 1) m) (malloc (g 2) (n + 6)) (malloc (g 3) (m + 6)) 0 [0; 0; 0; 0; 0] [0; 0; 0; 0; 0].

(* variables of spasm_strongly_connected_components *)
Record scc := Scc { s_ptop : Z; s_p : list Z; s_rr : list Z; s_n : Z; s_ps : list Z; s_mk : list Z; s_prev : list Z;
  s_stk : list Z; s_low : list Z; s_idx : Z; s_top : Z; s_j : Z }.

(* src/spasm_scc.c:53-57 *)
Definition scc_mark (s : scc) : res scc :=
  mk <- aget (s_mk s) (s_j s) ;;
  if mk <? 0 then
    low <- aset (s_low s) (s_j s) (s_idx s) ;;
    mks <- aset (s_mk s) (s_j s) (s_idx s) ;;
    Ok (Scc (s_ptop s) (s_p s) (s_rr s) (s_n s) (s_ps s) mks (s_prev s) (s_stk s) low (s_idx s + 1) (s_top s) (s_j s))
  else Ok s.

(* src/spasm_scc.c:58-74: inr: a node was pushed; inl: the edges of j are exhausted (only lowlink has changed) *)
Definition scc_scan (A : csr) (s : scc) : res (list Z + scc) :=
  let j := s_j s in
  lo <- aget (cp A) j ;; hi <- aget (cp A) (j + 1) ;;
  px0 <- aget (s_ps s) j ;;
  forb px0 (hi - lo) (fun px low =>
    k <- aget (cj A) (lo + px) ;;
    mk <- aget (s_mk s) k ;;
    if 0 <=? mk then
      lj <- aget low j ;; lk <- aget low k ;;
      low <- aset low j (Z.min lj lk) ;;
      Ok (inl low)
    else
      ps <- aset (s_ps s) j (px + 1) ;;
      stk <- aset (s_stk s) (s_top s + 1) k ;;
      prev <- aset (s_prev s) k j ;;
      Ok (inr (Scc (s_ptop s) (s_p s) (s_rr s) (s_n s) ps (s_mk s) prev stk low (s_idx s) (s_top s + 1) k))) (s_low s).

(* src/spasm_scc.c:78-82 *)
Definition scc_emit (fuel : nat) (stk : list Z) (j n : Z) (st : Z * Z * list Z * list Z) : res (Z * Z * list Z * list Z) :=
  loop fuel (fun '(top, ptop, p, low) =>
    k <- aget stk top ;;
    if k =? j then Ok (inr (top, ptop, p, low)) else
    p <- aset p ptop k ;;
    low <- aset low k n ;;
    Ok (inl (top - 1, ptop + 1, p, low))) st.

(* src/spasm_scc.c:75-94, when the edges of j are exhausted *)
Definition scc_finish (n : Z) (s : scc) : res scc :=
  let j := s_j s in
  lj <- aget (s_low s) j ;; mj <- aget (s_mk s) j ;;
  s <- (if lj =? mj then
      '(top, ptop, p, low) <- scc_emit (Z.to_nat (n + 1)) (s_stk s) j n (s_top s, s_ptop s, s_p s, s_low s) ;;
      p <- aset p ptop j ;;
      low <- aset low j n ;;
      rr <- aset (s_rr s) (s_n s + 1) (ptop + 1) ;;
      Ok (Scc (ptop + 1) p rr (s_n s + 1) (s_ps s) (s_mk s) (s_prev s) (s_stk s) low (s_idx s) (top - 1) j)
    else Ok s) ;;
  j' <- aget (s_prev s) j ;;
  low <- (if 0 <=? j' then
      a <- aget (s_low s) j' ;; b <- aget (s_low s) j ;; aset (s_low s) j' (Z.min a b)
    else Ok (s_low s)) ;;
  Ok (Scc (s_ptop s) (s_p s) (s_rr s) (s_n s) (s_ps s) (s_mk s) (s_prev s) (s_stk s) low (s_idx s) (s_top s) j').

(* src/spasm_scc.c:51-95; an iteration pushes or finishes a node *)
Definition scc_dfs (A : csr) (s : scc) : res scc :=
  loop (Z.to_nat (2 * cn A + 1)) (fun s =>
    if s_j s <? 0 then Ok (inr s) else
    s <- scc_mark s ;;
    o <- scc_scan A s ;;
    match o with
    | inr s => Ok (inl s)
    | inl low =>
      s <- scc_finish (cn A) (Scc (s_ptop s) (s_p s) (s_rr s) (s_n s) (s_ps s) (s_mk s) (s_prev s) (s_stk s) low (s_idx s) (s_top s) (s_j s)) ;;
      Ok (inl s)
    end) s.

(* src/spasm_scc.c:14-117 *)
Definition strongly_connected_components (g : Z -> Z -> Z) (A : csr) : res dm :=
  let n := cn A in
  _ <- assert_ (n =? cm A) ;;
  let P := dm_alloc g n n in
  '(mk, prev, ps) <- for_ 0 n (fun i '(mk, prev, ps) =>
      mk <- aset mk i (-1) ;; prev <- aset prev i (-1) ;; ps <- aset ps i 0 ;; Ok (mk, prev, ps))
    (malloc (g 5) n, malloc (g 6) n, malloc (g 4) n) ;;
  rr <- aset (dm_r P) 0 0 ;;
  s <- for_ 0 n (fun i s =>
      mk <- aget (s_mk s) i ;;
      if 0 <=? mk then Ok s else
      stk <- aset (s_stk s) 0 i ;;
      scc_dfs A (Scc (s_ptop s) (s_p s) (s_rr s) (s_n s) (s_ps s) (s_mk s) (s_prev s) stk (s_low s) (s_idx s) 0 i))
    (Scc 0 (dm_p P) rr 0 ps mk prev (malloc (g 7) n) (malloc (g 8) n) 0 (-1) (-1)) ;;
  _ <- assert_ (s_ptop s =? n) ;;
  q <- for_ 0 n (fun i q => v <- aget (s_p s) (n - 1 - i) ;; aset q i v) (dm_q P) ;;
  p <- for_ 0 n (fun i p => v <- aget q i ;; aset p i v) (s_p s) ;;
  cc <- for_ 0 (s_n s + 1) (fun i cc => v <- aget (s_rr s) (s_n s - i) ;; aset cc i (n - v)) (dm_c P) ;;
  rr <- for_ 0 (s_n s + 1) (fun i rr => v <- aget cc i ;; aset rr i v) (s_rr s) ;;
  Ok (Dm p q rr cc (s_n s) (dm_rr P) (dm_cc P)).
