(** Model of src/spasm_dm.c. *)
From Verif Require Import Base Spec Mat Matching Scc.

(* src/spasm_dm.c:21-58; returns wi, wj and the queue *)
Definition bfs (A : csr) (wi wj queue imatch jmatch : list Z) (mark : Z) : res (list Z * list Z * list Z) :=
  let n := cn A in
  '(wi, queue, tail) <- for_ 0 n (fun i '(wi, queue, tail) =>
      jm <- aget jmatch i ;;
      if 0 <=? jm then Ok (wi, queue, tail) else
      wi <- aset wi i 0 ;;
      queue <- aset queue tail i ;;
      Ok (wi, queue, tail + 1)) (wi, queue, 0) ;;
  loop (Z.to_nat (n + 1)) (fun '(wi, wj, queue, head, tail) =>
    if head <? tail then
      i <- aget queue head ;;
      lo <- aget (cp A) i ;; hi <- aget (cp A) (i + 1) ;;
      '(wi, wj, queue, tail) <- for_ lo hi (fun px '(wi, wj, queue, tail) =>
          j <- aget (cj A) px ;;
          mj <- aget wj j ;;
          if 0 <=? mj then Ok (wi, wj, queue, tail) else
          wj <- aset wj j mark ;;
          I <- aget imatch j ;;
          mI <- aget wi I ;;
          if 0 <=? mI then Ok (wi, wj, queue, tail) else
          wi <- aset wi I mark ;;
          queue <- aset queue tail I ;;
          Ok (wi, wj, queue, tail + 1)) (wi, wj, queue, tail) ;;
      Ok (inl (wi, wj, queue, head + 1, tail))
    else Ok (inr (wi, wj, queue))) (wi, wj, queue, 0, tail).

(* src/spasm_dm.c:62-69; returns p and rr *)
Definition collect_unmatched (n : Z) (wi p rr : list Z) (set : Z) : res (list Z * list Z) :=
  kr <- aget rr set ;;
  '(p, kr) <- for_ 0 n (fun i '(p, kr) =>
      w <- aget wi i ;;
      if w =? 0 then p <- aset p kr i ;; Ok (p, kr + 1) else Ok (p, kr)) (p, kr) ;;
  rr <- aset rr (set + 1) kr ;;
  Ok (p, rr).

(* src/spasm_dm.c:74-86; returns p, q, cc and rr *)
Definition collect_matched (n : Z) (wj imatch p q cc rr : list Z) (set mark : Z) : res (list Z * list Z * list Z * list Z) :=
  kc <- aget cc set ;;
  kr <- aget rr (set - 1) ;;
  '(p, q, kc, kr) <- for_ 0 n (fun j '(p, q, kc, kr) =>
      w <- aget wj j ;;
      if negb (w =? mark) then Ok (p, q, kc, kr) else
      i <- aget imatch j ;;
      p <- aset p kr i ;;
      q <- aset q kc j ;;
      Ok (p, q, kc + 1, kr + 1)) (p, q, kc, kr) ;;
  cc <- aset cc (set + 1) kc ;;
  rr <- aset rr set kr ;;
  Ok (p, q, cc, rr).

(* src/spasm_dm.c:89-176; [gs k] is the junk of the memory allocated by the k-th call *)
Definition dulmage_mendelsohn (gs : Z -> Z -> Z -> Z) (A : csr) : res dm :=
  let n := cn A in let m := cm A in
  let jmatch := malloc (gs 0 0) n in
  let imatch := malloc (gs 0 1) m in
  At <- transpose (gs 1) A false ;;
  '(jmatch, imatch) <- (if n <? m then
      '(_, jm, im) <- maximum_matching (gs 2) A jmatch imatch ;; Ok (jm, im)
    else
      '(_, im, jm) <- maximum_matching (gs 2) At imatch jmatch ;; Ok (jm, im)) ;;
  let DM := dm_alloc (gs 3) n m in
  wj <- for_ 0 m (fun j wj => aset wj j (-1)) (dm_c DM) ;;
  wi <- for_ 0 n (fun i wi => aset wi i (-1)) (dm_r DM) ;;
  '(wi, wj, p) <- bfs A wi wj (dm_p DM) imatch jmatch 3 ;;
  '(wj, wi, q) <- bfs At wj wi (dm_q DM) jmatch imatch 1 ;;
  '(q, cc) <- collect_unmatched m wj q (dm_cc DM) 0 ;;
  '(p, q, cc, rr) <- collect_matched m wj imatch p q cc (dm_rr DM) 1 1 ;;
  '(p, q, cc, rr) <- collect_matched m wj imatch p q cc rr 2 (-1) ;;
  '(p, q, cc, rr) <- collect_matched m wj imatch p q cc rr 3 3 ;;
  '(p, rr) <- collect_unmatched n wi p rr 3 ;;
  rr1 <- aget rr 1 ;; rr2 <- aget rr 2 ;;
  if rr2 - rr1 =? 0 then Ok (Dm p q wi wj (dm_nb DM) rr cc) else
  qinv <- pinv (gs 4) (Some q) m ;;
  B <- permute (gs 5) A (Some p) qinv false ;;
  cc2 <- aget cc 2 ;; cc3 <- aget cc 3 ;;
  C <- submatrix (gs 6) B rr1 rr2 cc2 cc3 false ;;
  SCC <- strongly_connected_components (gs 7) C ;;
  '(p, _) <- range_pvec p rr1 rr2 (dm_p SCC) ;;
  '(q, _) <- range_pvec q cc2 cc3 (dm_q SCC) ;;
  r <- aset wi 0 0 ;;
  r <- for_ 0 (dm_nb SCC + 1) (fun i r => v <- aget (dm_r SCC) i ;; aset r (i + 1) (rr1 + v)) r ;;
  r <- aset r (dm_nb SCC + 2) n ;;
  c <- aset wj 0 0 ;;
  c <- for_ 0 (dm_nb SCC + 1) (fun i c => v <- aget (dm_c SCC) i ;; aset c (i + 1) (cc2 + v)) c ;;
  c <- aset c (dm_nb SCC + 2) m ;;
  Ok (Dm p q r c (dm_nb SCC + 2) rr cc).
