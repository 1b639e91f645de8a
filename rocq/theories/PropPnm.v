(** C56, C63: pictures of matrices. *)
From Coq Require Import String.
From Verif Require Import Base BaseFacts Spec SpecText SpecTools SpecDm SpecPnm Checks Zp Mat Stdio IO IOSave Scc Dm Tools ToolsProofs Pnm PnmProofs PnmTools.
Local Open Scope string_scope.
Local Open Scope list_scope.
Local Open Scope Z_scope.

(** ** C56: bitmaps *)
Theorem C56_bw g level A x y : wf A -> 0 < x -> 0 < y -> Z.min x (cm A) < 2 ^ 31 -> Z.min y (cn A) < 2 ^ 31 -> Z.min x (cm A) * Z.min y (cn A) < 2 ^ 31 ->
  sat (save_pnm g level A x y 1 None) (bw_picture A (Z.min x (cm A)) (Z.min y (cn A))).
Proof. intros; now apply (save_pbm_ok A); auto; lia. Qed.
Print Assumptions C56_bw.
Theorem C56_gray_partial g level A x y a b : wf A -> 0 < x -> 0 < y -> Z.min x (cm A) < 2 ^ 31 -> Z.min y (cn A) < 2 ^ 31 -> Z.min x (cm A) * Z.min y (cn A) < 2 ^ 31 ->
  0 <= a < cn A -> stored A a b -> (forall c M, 0 <= c <= M -> 0 < M -> 0 <= level c M <= 255) ->
  sat (save_pnm g level A x y 2 None) (gray_picture level A (Z.min x (cm A)) (Z.min y (cn A))).
Proof. intros; now apply (save_pgm_ok A) with a b; auto; lia. Qed.
Print Assumptions C56_gray_partial.
(* from the file to the picture: both dimensions are given, or none of them *)
Theorem C56_tool_partial gs g level target mpix w h (gray : bool) f n m es : matrix_file f n m es -> mpix <= 0 -> 0 < w -> 0 < h -> Z.min w m * Z.min h n < 2 ^ 31 ->
  (gray = true -> es <> [] /\ forall c M, 0 <= c <= M -> 0 < M -> 0 <= level c M <= 255) ->
  sat (tool_bitmap gs g level target mpix w h gray f) (fun f' => exists A, pattern_of n m es A /\
    if gray then gray_picture level A (Z.min w m) (Z.min h n) f' else bw_picture A (Z.min w m) (Z.min h n) f').
Proof. exact (bitmap_given gs g level target mpix w h gray f n m es). Qed.
Print Assumptions C56_tool_partial.
Theorem C56_tool_default_partial gs g level target mpix w h w' h' (gray : bool) f n m es : matrix_file f n m es -> mpix <> 0 -> w < 0 -> h < 0 -> target n m = (w', h') -> 0 < w' -> 0 < h' ->
  Z.min w' m * Z.min h' n < 2 ^ 31 -> (gray = true -> es <> [] /\ forall c M, 0 <= c <= M -> 0 < M -> 0 <= level c M <= 255) ->
  sat (tool_bitmap gs g level target mpix w h gray f) (fun f' => exists A, pattern_of n m es A /\
    if gray then gray_picture level A (Z.min w' m) (Z.min h' n) f' else bw_picture A (Z.min w' m) (Z.min h' n) f').
Proof. exact (bitmap_default gs g level target mpix w h w' h' gray f n m es). Qed.
Print Assumptions C56_tool_default_partial.
(* only one dimension is given, not smaller than that of the matrix: one pixel for each position *)
Theorem C56_tool_height gs g level target mpix w h (gray : bool) f n m es : matrix_file f n m es -> mpix < 0 -> w < 0 -> 0 < n <= h -> 0 < m -> m * (h / n) < 2 ^ 31 -> n * m < 2 ^ 31 ->
  (gray = true -> es <> [] /\ forall c M, 0 <= c <= M -> 0 < M -> 0 <= level c M <= 255) ->
  sat (tool_bitmap gs g level target mpix w h gray f) (fun f' => exists A, pattern_of n m es A /\ if gray then gray_picture level A m n f' else bw_picture A m n f').
Proof. exact (bitmap_height gs g level target mpix w h gray f n m es). Qed.
Print Assumptions C56_tool_height.
Theorem C56_tool_width gs g level target mpix w h (gray : bool) f n m es : matrix_file f n m es -> mpix < 0 -> h < 0 -> 0 < m <= w -> 0 < n -> n * (w / m) < 2 ^ 31 -> n * m < 2 ^ 31 ->
  (gray = true -> es <> [] /\ forall c M, 0 <= c <= M -> 0 < M -> 0 <= level c M <= 255) ->
  sat (tool_bitmap gs g level target mpix w h gray f) (fun f' => exists A, pattern_of n m es A /\ if gray then gray_picture level A m n f' else bw_picture A m n f').
Proof. exact (bitmap_width gs g level target mpix w h gray f n m es). Qed.
Print Assumptions C56_tool_width.
(* --mpixels excludes --width and --height *)
Theorem C56_exclusive gs g level target mpix w h (gray : bool) f img : 0 < mpix -> 0 < w \/ 0 < h -> tool_bitmap gs g level target mpix w h gray f <> Ok img.
Proof. exact (bitmap_exclusive gs g level target mpix w h gray f img). Qed.
Print Assumptions C56_exclusive.
Example C56_exclusive_example : tool_bitmap (fun _ => 0) (fun _ _ _ => 0) (fun _ _ => 0) (fun _ _ => (1, 1)) 1 2 (-1) false (file_of 2 2 [(0, 0, 1)]) = Fail AssertFailed /\ (exists img, tool_bitmap (fun _ => 0) (fun _ _ _ => 0) (fun _ _ => 0) (fun _ _ => (1, 1)) (-1) 2 2 false (file_of 2 2 [(0, 0, 1)]) = Ok img).
Proof. split; [vm_compute; reflexivity|]. eexists. vm_compute. reflexivity. Qed.
(* 3 x 4, drawn with 2 rows and 3 columns *)
Definition ex_pic : csr := Csr 3 4 [0; 3; 4; 4] [0; 1; 3; 2] None 7.
Definition ex_level (c M : Z) : Z := 255 - 255 * c / M.
Example C56_example : wf ex_pic /\ stored ex_pic 1 2 /\ (forall c M, 0 <= c <= M -> 0 < M -> 0 <= ex_level c M <= 255) /\
  save_pnm (fun _ => 5) ex_level ex_pic 3 2 1 None = Ok (chars "P1" ++ [NL] ++ chars "3 2" ++ [NL] ++ chars "1 " ++ [NL] ++ chars "1 1 0 0 0 ") /\
  save_pnm (fun _ => 5) ex_level ex_pic 3 2 2 None = Ok (chars "P2" ++ [NL] ++ chars "3 2" ++ [NL] ++ chars "255" ++ [NL] ++ chars "0 " ++ [NL] ++ chars "128 128 255 255 255 ").
Proof.
  split; [now apply wfb_ok|]. split; [now apply storedb_ok|]. split; [|vm_compute; auto].
  intros c M Hc HM. unfold ex_level. pose proof (Z.div_pos (255 * c) M ltac:(lia) HM). pose proof (Z.div_le_upper_bound (255 * c) M 255 HM ltac:(nia)). lia.
Qed.
Definition ex_pic_text : list Z := file_of 3 4 [(0, 0, 5); (0, 1, 7); (0, 3, 1); (1, 2, 0); (0, 1, -7)].
Definition ex_pic_es : list (Z * Z * Z) := [(1, 1, 5); (1, 2, 7); (1, 4, 1); (2, 3, 0); (1, 2, -7)].
Example C56_tool_example : matrix_file ex_pic_text 3 4 ex_pic_es /\
  tool_bitmap (fun _ => 5) (fun _ _ _ => 5) ex_level (fun _ _ => (0, 0)) (-1) 3 2 false ex_pic_text = save_pnm (fun _ => 5) ex_level ex_pic 3 2 1 None /\
  tool_bitmap (fun _ => 5) (fun _ _ _ => 5) ex_level (fun _ _ => (3, 2)) 1 (-1) (-1) true ex_pic_text = save_pnm (fun _ => 5) ex_level ex_pic 3 2 2 None /\
  tool_bitmap (fun _ => 5) (fun _ _ _ => 5) ex_level (fun _ _ => (0, 0)) (-1) (-1) 7 false ex_pic_text = save_pnm (fun _ => 5) ex_level ex_pic 4 3 1 None /\
  tool_bitmap (fun _ => 5) (fun _ _ _ => 5) ex_level (fun _ _ => (0, 0)) (-1) 4 (-1) false ex_pic_text = save_pnm (fun _ => 5) ex_level ex_pic 4 3 1 None.
Proof.
  split; [apply (file_of_matrix 3 4 [(0, 0, 5); (0, 1, 7); (0, 3, 1); (1, 2, 0); (0, 1, -7)]); [lia|lia|repeat constructor; unfold writable, int64; lia|reflexivity]|]. vm_compute. auto.
Qed.
(* Only the height is given, smaller than the number of rows: the width is m * (h / n) = 0, and the entries are
   counted outside the array.  Likewise for the width. *)
Theorem C56_size_refuted : exists f n m es, matrix_file f n m es /\ es <> [] /\
  forall gs g level target (gray : bool), tool_bitmap gs g level target (-1) (-1) 1 gray f = Fail OOB /\ tool_bitmap gs g level target (-1) 1 (-1) gray f = Fail OOB.
Proof.
  exists (file_of 2 2 [(0, 0, 1)]), 2, 2, [(1, 1, 1)].
  split; [apply (file_of_matrix 2 2 [(0, 0, 1)]); [lia|lia|repeat constructor; unfold writable, int64; lia|reflexivity]|]. split; [discriminate|].
  intros gs g level target gray. destruct gray; split; vm_compute; reflexivity.
Qed.
Print Assumptions C56_size_refuted.
(* --mpixels=0: the dimensions are -1 and -1; --width=0 and --height=0: access outside of an array *)
Theorem C56_zero_refuted : exists f n m es, matrix_file f n m es /\ es <> [] /\
  forall gs g level target, tool_bitmap gs g level target 0 (-1) (-1) false f = Ok (chars "P1" ++ [NL] ++ chars "-1 -1" ++ [NL]) /\ tool_bitmap gs g level target (-1) 0 0 false f = Fail OOB.
Proof.
  exists (file_of 2 2 [(0, 0, 1)]), 2, 2, [(1, 1, 1)].
  split; [apply (file_of_matrix 2 2 [(0, 0, 1)]); [lia|lia|repeat constructor; unfold writable, int64; lia|reflexivity]|]. split; [discriminate|].
  intros gs g level target. split; vm_compute; reflexivity.
Qed.
Print Assumptions C56_zero_refuted.
(* gray levels of a matrix without entries: 0 / 0 *)
Theorem C56_no_entry_refuted : exists A, wf A /\ forall g level, save_pnm g level A 2 2 2 None = Fail AssertFailed.
Proof. exists (Csr 2 2 [0; 0; 0] [] None 7). split; [now apply wfb_ok|]. intros g level. vm_compute. reflexivity. Qed.
Print Assumptions C56_no_entry_refuted.

(** ** C63: picture of the Dulmage-Mendelsohn decomposition *)
(* Full statement: without [no_cancel] *)
Theorem C63_image_partial gs g gd level size f n m es w h : matrix_file f n m es -> no_cancel 42013 es -> size n m = (w, h) ->
  0 < n -> 0 < m -> 0 < w -> 0 < h -> Z.min w m * Z.min h n < 2 ^ 31 ->
  sat (tool_dm_image gs g gd level size f) (fun f' => exists A B P Q rr cc r c nb,
    holds 42013 n m es A /\ coarse A P Q rr cc /\ (get rr 1 < get rr 2 -> fine A P Q rr cc r c nb) /\
    wf B /\ cn B = n /\ cm B = m /\ (forall i j, 0 <= i < n -> 0 <= j < m -> stored B i j <-> stored A (get P i) (get Q j)) /\
    colour_picture B (Z.min w m) (Z.min h n) rr cc r c f').
Proof. exact (dm_image_ok gs g gd level size f n m es w h). Qed.
Print Assumptions C63_image_partial.
(* 6 x 6: a horizontal part of one row, a square part with a block of two rows and a block of one row, a vertical part of two rows *)
Definition ex_dm_text : list Z := file_of 6 6 [(0, 0, 1); (0, 1, 1); (0, 2, 1); (1, 2, 1); (1, 3, 1); (2, 2, 1); (2, 3, 1); (2, 4, 1); (3, 4, 1); (3, 5, 1); (4, 5, 1); (5, 5, 1)].
Definition ex_dm_es : list (Z * Z * Z) := [(1, 1, 1); (1, 2, 1); (1, 3, 1); (2, 3, 1); (2, 4, 1); (3, 3, 1); (3, 4, 1); (3, 5, 1); (4, 5, 1); (4, 6, 1); (5, 6, 1); (6, 6, 1)].
Example C63_example : matrix_file ex_dm_text 6 6 ex_dm_es /\ no_cancel 42013 ex_dm_es /\
  tool_dm_image (fun _ => 5) (fun _ _ _ => 5) (fun _ _ _ => 5) (fun _ _ => 0) (fun _ _ => (6, 6)) ex_dm_text = Ok (chars "P3
6 6
255
0 0 0 
0 0 0 0 0 0 204 0 0 204 0 0 153 0 0 255 255 255 255 255 255 0 0 0 0 0 0 255 204 0 204 153 0 255 255 255 255 255 255 0 0 0 0 0 0 0 0 0 204 153 0 255 255 255 255 255 255 255 255 255 255 255 255 0 0 0 0 0 0 255 255 255 255 255 255 255 255 255 255 255 255 255 255 255 0 0 0 255 255 255 255 255 255 255 255 255 
255 255 255 255 255 255 0 0 0 ").
Proof.
  split; [apply (file_of_matrix 6 6 [(0, 0, 1); (0, 1, 1); (0, 2, 1); (1, 2, 1); (1, 3, 1); (2, 2, 1); (2, 3, 1); (2, 4, 1); (3, 4, 1); (3, 5, 1); (4, 5, 1); (5, 5, 1)]); [lia|lia|repeat constructor; unfold writable, int64; lia|reflexivity]|].
  split; [apply no_cancelb_ok; [lia|reflexivity]|]. vm_compute. reflexivity.
Qed.
