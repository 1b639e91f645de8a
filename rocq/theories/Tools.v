(** Model of the command-line tools: from the bytes of their input to the bytes of their output.
    The command line is already parsed.  Each g k is the junk of the allocations of one call. *)
From Verif Require Import Base Spec SpecText Zp Mat Sha Stdio IO.

(* tools/common.c:113-123, load_input_matrix, then spasm_compress as all the tools do *)
Definition load_csr (gs : Z -> Z) (g : Z -> Z -> Z -> Z) (input : list Z) (prime : Z) (hash : option (list Z)) : res (csr * option (list Z)) :=
  '(T, h) <- triplet_load gs (g 0) input prime hash ;;
  A <- compress (g 1) T ;;
  Ok (A, h).

(* tools/transpose.c:5-18 *)
Definition tool_transpose (gs : Z -> Z) (g : Z -> Z -> Z -> Z) (input : list Z) : res (list Z) :=
  '(A, _) <- load_csr gs g input 42013 None ;;
  At <- transpose (g 2) A true ;;
  csr_save At.

(* tools/vertical_swap.c:8-21 *)
Definition tool_vertical_swap (gs : Z -> Z) (g : Z -> Z -> Z -> Z) (input : list Z) : res (list Z) :=
  '(A, _) <- triplet_load gs (g 0) input 42013 None ;;
  let m := tm A in
  Aj <- for_ 0 (tnz A) (fun k Aj => j <- aget Aj k ;; aset Aj k (m - j - 1)) (tj A) ;;
  triplet_save (Triplet (tnz A) (tn A) (tm A) (ti A) Aj (tx A) (tprime A)).

(* tools/stack.c:29-36: the array of marks of size n at the positions a[0..nz-1] *)
Definition mark_used (g : Z -> Z) (n nz : Z) (a : list Z) : res (list Z) :=
  p <- for_ 0 n (fun i p => aset p i 0) (malloc g n) ;;
  for_ 0 nz (fun k p => i <- aget a k ;; aset p i 1) p.
(* tools/stack.c:38-47 *)
Definition renumber (n : Z) (p : list Z) : res (list Z * Z) :=
  for_ 0 n (fun i '(p, u) => v <- aget p i ;; if 0 <? v then p <- aset p i u ;; Ok (p, u + 1) else Ok (p, u)) (p, 0).
(* tools/stack.c:10-67; nz is stored in an int *)
Definition tool_stack (gs : Z -> Z) (g : Z -> Z -> Z -> Z) (input : list Z) : res (list Z) :=
  '(A, _) <- triplet_load gs (g 0) input 42013 None ;;
  nz <- i32 (tnz A) ;;
  p <- mark_used (g 1 0) (tn A) nz (ti A) ;;
  q <- mark_used (g 1 1) (tm A) nz (tj A) ;;
  '(p, u) <- renumber (tn A) p ;;
  '(q, v) <- renumber (tm A) q ;;
  '(Ai, Aj) <- for_ 0 nz (fun k '(Ai, Aj) =>
      i <- aget Ai k ;; i' <- aget p i ;; Ai <- aset Ai k i' ;;
      j <- aget Aj k ;; j' <- aget q j ;; Aj <- aset Aj k j' ;;
      Ok (Ai, Aj)) (ti A, tj A) ;;
  triplet_save (Triplet (tnz A) u v Ai Aj (tx A) (tprime A)).
