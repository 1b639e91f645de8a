(** The tools solve and dm, on any input (as AnyElim.v). *)
From Verif Require Import Base Spec Zp Mat Sha Stdio IO Header AnyInput Par Schur Dense Echelonize Gesv Scc Dm ToolsElim AnyElim.

(* tools/solve.c:75-117 *)
Definition ntool_solve (gs : Z -> Z) (g g' : Z -> Z -> Z -> Z) (most : Z) (X : Z -> params) (fuel : nat) (o : opts) (ch : Z -> Z) (w : Z -> Z -> Z -> Z)
    (input rhs : list Z) (prime : Z) : res (list Z * list Z) :=
  '(A, h) <- nload_matrix gs g most (fun _ _ => false) input prime (Some (malloc (g 2 0) 32)) ;;
  '(B, _) <- nload_matrix gs g' most (fun _ _ => false) rhs prime h ;;
  f <- echelonize (X (cm A)) fuel (with_L o) A ;;
  '(XX, ok) <- gesv (g 3) ch w f B (Some (malloc (g 4 0) (cn B))) ;;
  ok <- deref ok ;;
  warn <- for_ 0 (cn B) (fun i warn => b <- aget ok i ;; Ok (if b =? 0 then warn ++ [i] else warn)) [] ;;
  out <- csr_save XX ;;
  Ok (out, warn).
(* tools/dm.c:43-56 *)
Definition ndm_matrix (gs : Z -> Z) (g : Z -> Z -> Z -> Z) (most : Z) (gd : Z -> Z -> Z -> Z) (input : list Z) : res (dm * csr) :=
  '(A, _) <- nload_matrix gs g most (fun _ _ => false) input 42013 None ;;
  dm_permute g gd A.
(* tools/dm.c:88-90 (mode p) *)
Definition ntool_dm (gs : Z -> Z) (g : Z -> Z -> Z -> Z) (most : Z) (gd : Z -> Z -> Z -> Z) (input : list Z) : res (list Z) :=
  '(_, B) <- ndm_matrix gs g most gd input ;;
  csr_save B.
(* tools/dm.c:60-86 (mode v) *)
Definition ntool_dm_report (gs : Z -> Z) (g : Z -> Z -> Z -> Z) (most : Z) (gd : Z -> Z -> Z -> Z) (input : list Z) : res (list Z) :=
  '(D, _) <- ndm_matrix gs g most gd input ;;
  dm_report D.
