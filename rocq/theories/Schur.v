(** Model of src/spasm_schur.c:61-200 (Schur complement) and of the parallel part of
    src/spasm_rref.c and src/spasm_kernel.c.

    Each iteration of the parallel loop first computes its row with private scratch space.
    [scr i] is the content of that space when iteration i starts: the arrays xj, pstack, marks
    and x of the thread running it.  All that matters, and all that is assumed in the theorems,
    is that marks are zero and that sizes are right, which every iteration re-establishes
    (C16).  [ch] decides the interleaving of the iterations (see Par.v). *)
From Verif Require Import Base Spec Zp Mat Reach Par.

Definition scratch : Type := list Z * list Z * list Z * list Z.
Definition scr_ok (m : Z) (s : scratch) : Prop :=
  let '(xj, ps, mk, x) := s in
  len xj = m /\ len ps = m /\ len mk = m /\ (forall c, 0 <= c < m -> get mk c = 0) /\ m <= len x.
(* a condition on an optional argument *)
Definition ores {A} (o : option A) (P : A -> Prop) : Prop := match o with Some a => P a | None => True end.

(* an iteration that does nothing *)
Definition idle : task := Task false 0 0 0 0 [].
(* compute the rows of all the iterations *)
Definition all_tasks (N : Z) (f : Z -> res task) : res (list task) :=
  for_ 0 N (fun i ts => t <- f i ;; Ok (ts ++ [t])) [].

(* src/spasm_schur.c:99-114, then the writes of 152-171 *)
Definition schur_task (A U : csr) (p qinv : list Z) (hasL : bool) (p_in : option (list Z)) (has_out : bool)
  (scr : scratch) (i : Z) : res task :=
  let m := cm A in
  let '(xj, ps, mk, x) := scr in
  inew <- aget p i ;;
  '(top, xj, _, _, x) <- sparse_triangular_solve U A inew xj ps mk x qinv ;;
  '(row_snz, row_lnz) <- for_ top m (fun px '(a, b) =>
      j <- aget xj px ;; v <- aget x j ;;
      if v =? 0 then Ok (a, b) else
      q <- aget qinv j ;;
      if q <? 0 then Ok (a + 1, b) else Ok (a, b + 1)) (0, 0) ;;
  i_orig <- operm_get p_in inew ;;
  '(prog, a, _) <- for_ top m (fun px '(prog, a, b) =>
      j <- aget xj px ;; v <- aget x j ;;
      if v =? 0 then Ok (prog, a, b) else
      q <- aget qinv j ;;
      if q <? 0 then Ok (prog ++ [Wr SJ a j; Wr SX a v], a + 1, b)
      else if hasL then Ok (prog ++ [Wr LI b i_orig; Wr LJ b q; Wr LX b v], a, b + 1)
      else Ok (prog, a, b)) (if has_out then [Wr PO 0 i_orig] else [], 0, 0) ;;
  Ok (Task true row_snz m row_snz row_lnz (prog ++ [Wr SP 0 a])).

(* src/spasm_schur.c:61-188.  [size] is the initial capacity: a rounded floating-point product
   (line 71) which is only an optimisation.  L is updated in place, p_out too. *)
Definition schur (g : Z -> Z -> Z) (ch : Z -> Z) (scr : Z -> scratch) (size : Z)
  (A : csr) (p : list Z) (n : Z) (U : csr) (qinv : list Z) (L : option triplet)
  (p_in p_out : option (list Z)) : res (csr * option triplet * option (list Z)) :=
  let m := cm A in
  let hasL := match L with Some _ => true | None => false end in
  let has_out := match p_out with Some _ => true | None => false end in
  let S := csr_alloc g n m size (cprime A) true in
  Sx <- deref (cx S) ;;
  Lx <- match L with Some L => deref (tx L) | None => Ok [] end ;;
  let m0 b := match b with
    | SJ => cj S | SX => Sx | SP => cp S
    | LI => match L with Some L => ti L | None => [] end
    | LJ => match L with Some L => tj L | None => [] end
    | LX => Lx
    | PO => match p_out with Some p => p | None => [] end end in
  ts <- all_tasks n (fun i => schur_task A U p qinv hasL p_in has_out (scr i) i) ;;
  h <- par_for g hasL m n ch (getd idle ts) (match L with Some L => tnz L | None => 0 end) m0 ;;
  let mem := s_mem h in
  let L' := match L with
    | Some L => Some (Triplet (s_lnz h) (tn L) (tm L) (mem LI) (mem LJ) (Some (mem LX)) (tprime L))
    | None => None end in
  S <- csr_realloc g (Csr n m (mem SP) (mem SJ) (Some (mem SX)) (cprime A)) (-1) ;;
  Ok (S, L', match p_out with Some _ => Some (mem PO) | None => None end).
