(** The tools that draw pictures, on any input (as AnyElim.v). *)
From Verif Require Import Base Spec Zp Mat Sha Stdio IO Header AnyInput Scc Dm ToolsElim AnyElim Pnm.

(* tools/bitmap.c:41-70 *)
Definition ntool_bitmap (gs : Z -> Z) (g : Z -> Z -> Z -> Z) (most : Z) (level : Z -> Z -> Z) (target : Z -> Z -> Z * Z) (mpix w h : Z) (gray : bool)
    (input : list Z) : res (list Z) :=
  '(T, _) <- hload gs (g 0) most input (-1) None ;;
  A <- ncompress (g 1) most T ;;
  '(w, h) <- bitmap_size target mpix w h (cn A) (cm A) ;;
  save_pnm (g 2 0) level A w h (if gray then 2 else 1) None.
(* tools/dm.c:41-54, 92-98 (mode i) *)
Definition ntool_dm_image (gs : Z -> Z) (g : Z -> Z -> Z -> Z) (most : Z) (gd : Z -> Z -> Z -> Z) (level : Z -> Z -> Z) (size : Z -> Z -> Z * Z) (input : list Z) : res (list Z) :=
  '(A, _) <- nload_matrix gs g most (fun _ _ => false) input 42013 None ;;
  dm_draw g gd level size A.
