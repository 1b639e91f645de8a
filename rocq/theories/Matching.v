(** Model of src/spasm_matching.c.  Row and column numbers, lengths and positions inside a row are
    32-bit integers in the code: the model assumes that they fit. *)
From Verif Require Import Base Spec Mat.

(* src/spasm_matching.c:6-14 *)
Definition augment_matching (head : Z) (istack jstack p qinv : list Z) : res (list Z * list Z) :=
  for_down 0 (head + 1) (fun px '(p, qinv) =>
    i <- aget istack px ;; j <- aget jstack px ;;
    qinv <- aset qinv j i ;; p <- aset p i j ;; Ok (p, qinv)) (p, qinv).

(* src/spasm_matching.c:18-35; returns the result, plookahead, jstack, p and qinv *)
Definition lookahead (A : csr) (i head : Z) (pl istack jstack p qinv : list Z) : res (bool * list Z * list Z * list Z * list Z) :=
  lo <- aget (cp A) i ;; d <- aget pl i ;; hi <- aget (cp A) (i + 1) ;;
  o <- forb (lo + d) hi (fun px (_ : unit) =>
    j <- aget (cj A) px ;;
    q <- aget qinv j ;;
    if q <? 0 then
      pl <- aset pl i (px - lo) ;;
      jstack <- aset jstack head j ;;
      '(p, qinv) <- augment_matching head istack jstack p qinv ;;
      Ok (inr (pl, jstack, p, qinv))
    else Ok (inl tt)) tt ;;
  match o with
  | inr (pl, jstack, p, qinv) => Ok (true, pl, jstack, p, qinv)
  | inl _ => pl <- aset pl i (hi - lo) ;; Ok (false, pl, jstack, p, qinv)
  end.

(* src/spasm_matching.c:48-90; the result is followed by the state of marks, plookahead, p and qinv
   (and of the stacks, whose contents do not matter).  Each iteration pushes or pops a row. *)
Definition augmenting_path (A : csr) (istart : Z) (istack jstack pstack marks pl p qinv : list Z)
  : res (bool * list Z * list Z * list Z * list Z * list Z * list Z * list Z) :=
  istack <- aset istack 0 istart ;;
  loop (Z.to_nat (2 * cn A + 2)) (fun '(head, istack, jstack, pstack, marks, pl) =>
    if head <? 0 then Ok (inr (false, istack, jstack, pstack, marks, pl, p, qinv)) else
    i <- aget istack head ;;
    mk <- aget marks i ;;
    '(found, jstack, pstack, marks, pl, p', qinv') <- (if negb (mk =? istart) then
        marks <- aset marks i istart ;;
        '(b, pl, jstack, p', qinv') <- lookahead A i head pl istack jstack p qinv ;;
        pstack <- (if b : bool then Ok pstack else aset pstack head 0) ;;
        Ok (b, jstack, pstack, marks, pl, p', qinv')
      else Ok (false, jstack, pstack, marks, pl, p, qinv)) ;;
    if found : bool then Ok (inr (true, istack, jstack, pstack, marks, pl, p', qinv')) else
    lo <- aget (cp A) i ;; d <- aget pstack head ;; hi <- aget (cp A) (i + 1) ;;
    o <- forb (lo + d) hi (fun px (_ : unit) =>
      j <- aget (cj A) px ;;
      inew <- aget qinv j ;;
      _ <- assert_ (negb (inew =? -1)) ;;
      mk <- aget marks inew ;;
      if mk =? istart then Ok (inl tt) else
      pstack <- aset pstack head (d + 1) ;;
      jstack <- aset jstack head j ;;
      istack <- aset istack (head + 1) inew ;;
      Ok (inr (istack, jstack, pstack))) tt ;;
    match o with
    | inr (istack, jstack, pstack) => Ok (inl (head + 1, istack, jstack, pstack, marks, pl))
    | inl _ => Ok (inl (head - 1, istack, jstack, pstack, marks, pl))
    end) (0, istack, jstack, pstack, marks, pl).

(* src/spasm_matching.c:103-137; p and qinv are given by the caller.  Returns the size, p and qinv. *)
Definition maximum_matching (g : Z -> Z -> Z) (A : csr) (p qinv : list Z) : res (Z * list Z * list Z) :=
  let n := cn A in
  let m := cm A in
  let r := Z.min n m in
  qinv <- for_ 0 m (fun j q => aset q j (-1)) qinv ;;
  '(p, marks, pl) <- for_ 0 n (fun i '(p, marks, pl) =>
      p <- aset p i (-1) ;; marks <- aset marks i (-1) ;; pl <- aset pl i 0 ;; Ok (p, marks, pl))
    (p, malloc (g 3) n, malloc (g 4) n) ;;
  o <- forb 0 n (fun i '(k, istack, jstack, pstack, marks, pl, p, qinv) =>
    if k <? r then
      pi <- aget p i ;;
      if pi <? 0 then
        '(b, istack, jstack, pstack, marks, pl, p, qinv) <- augmenting_path A i istack jstack pstack marks pl p qinv ;;
        Ok (inl ((if b : bool then k + 1 else k), istack, jstack, pstack, marks, pl, p, qinv))
      else Ok (inl (k, istack, jstack, pstack, marks, pl, p, qinv))
    else Ok (inr (k, p, qinv)))
    (0, malloc (g 0) n, malloc (g 1) n, malloc (g 2) n, marks, pl, p, qinv) ;;
  match o with
  | inl (k, _, _, _, _, _, p, qinv) => Ok (k, p, qinv)
  | inr r => Ok r
  end.

(* src/spasm_matching.c:143-156 *)
Definition permute_row_matching (g : Z -> Z -> Z) (n : Z) (jmatch p qinv : list Z) : res (list Z) :=
  for_ 0 n (fun i jj =>
    pi <- aget p i ;; j <- aget jmatch pi ;;
    if j =? -1 then aset jj i (-1) else qj <- aget qinv j ;; aset jj i qj) (malloc (g 0) n).
(* src/spasm_matching.c:158-171 *)
Definition permute_column_matching (g : Z -> Z -> Z) (m : Z) (imatch pinv q : list Z) : res (list Z) :=
  for_ 0 m (fun j ii =>
    qj <- aget q j ;; i <- aget imatch qj ;;
    if i =? -1 then aset ii j (-1) else pi <- aget pinv i ;; aset ii j pi) (malloc (g 0) m).
(* src/spasm_matching.c:178-193 *)
Definition submatching (g : Z -> Z -> Z) (mt : list Z) (a b c d : Z) : res (list Z) :=
  for_ a b (fun i pm =>
    v <- aget mt i ;;
    if v =? -1 then aset pm (i - a) (-1) else
    pm <- aset pm (i - a) (v - c) ;;
    _ <- assert_ (0 <=? v - c) ;; _ <- assert_ (v - c <? d) ;; Ok pm) (malloc (g 0) (b - a)).
