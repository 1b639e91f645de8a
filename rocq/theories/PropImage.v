(** C71: dimensions of the pictures of bitmap and dm, when a number of pixels is asked for. *)
From Coq Require Import String ZifyBool.
From Verif Require Import Base BaseFacts Spec SpecFacts SpecText SpecTools SpecMatch SpecDm SpecPnm TextChecks Checks Mat Stdio IO IOSave Scc Dm ToolsProofs ToolsElim Pnm
  Options SpecOptions OptionsProofs OptTools ToolOptions SpecToolOptions ToolOptionsProofs ToolMains ZZp ImageSize ImageSizeProofs ImageTools PropToolsElim PropPnm PropToolOptions.
Local Open Scope string_scope.
Local Open Scope list_scope.
Local Open Scope Z_scope.

(* k millions of pixels, rounded down in each direction; the proportions are those of the matrix, up to one pixel and 1 per cent *)
Theorem C71_size k n m : 1 <= k <= 2000 -> 1 <= n < 2 ^ 31 -> 1 <= m < 2 ^ 31 -> exists w h, image_size (d_of_int k) n m = Ok (w, h) /\ 0 <= w /\ 0 <= h /\
  w * h <= 1000000 * k <= (w + 1) * (h + 1) /\ 100 * Z.abs (w * n - h * m) <= 101 * Z.max n m /\
  (n < 1000000 * k * m -> 1 <= w) /\ (m < 1000000 * k * n -> 1 <= h) /\ (1000000 * k * m < n -> w = 0) /\ (1000000 * k * n < m -> h = 0).
Proof. exact (image_size_ok k n m). Qed.
Print Assumptions C71_size.
Theorem C71_bitmap_partial gs g level sgn size stdin cmd n m k es (gray : bool) : ints [b_width; b_height] cmd -> Forall (allowed b_opts) cmd -> matrix_file stdin n m es -> es <> [] ->
  last_arg b_width cmd = None -> last_arg b_height cmd = None -> value b_mpixels cmd 1 k -> 1 <= k <= 2000 -> (forall a, last_arg b_mpixels cmd = Some a -> 0 < sgn a) ->
  image_size (d_of_int k) n m = Ok (size (last_arg b_mpixels cmd) n m) ->
  (gray = true <-> given b_gray cmd) -> (gray = true -> forall c M, 0 <= c <= M -> 0 < M -> 0 <= level c M <= 255) -> n < 1000000 * k * m -> m < 1000000 * k * n ->
  sat (main_bitmap gs g level sgn size stdin cmd) (fun x => exists w h f' A, x = Some f' /\ pattern_of n m es A /\
    w * h <= 1000000 * k <= (w + 1) * (h + 1) /\ 100 * Z.abs (w * n - h * m) <= 101 * Z.max n m /\ 0 < w /\ 0 < h /\
    if gray then gray_picture level A (Z.min w m) (Z.min h n) f' else bw_picture A (Z.min w m) (Z.min h n) f').
Proof. intros H1 H2 H3 H4 H5 H6 H7 H8 H9 H10. exact (bitmap_mpixels gs g level sgn size stdin cmd n m k es H1 H2 H3 H4 H5 H6 H8 H9 H10 gray). Qed.
Print Assumptions C71_bitmap_partial.
Theorem C71_dm_partial gs g gd level size stdin cmd n m k es a : Forall (allowed d_opts) cmd -> matrix_file stdin n m es -> no_cancel 42013 es -> chosen cmd d_image -> last_arg d_image cmd = Some a -> numeral a k -> 1 <= k <= 2000 ->
  0 < n -> 0 < m -> image_size (d_of_int k) n m = Ok (size a n m) -> n < 1000000 * k * m -> m < 1000000 * k * n ->
  sat (main_dm gs g gd level size stdin cmd) (fun x => exists w h f' A B P Q rr cc r c nb, x = Some f' /\
    w * h <= 1000000 * k <= (w + 1) * (h + 1) /\ 100 * Z.abs (w * n - h * m) <= 101 * Z.max n m /\ 0 < w /\ 0 < h /\
    holds 42013 n m es A /\ coarse A P Q rr cc /\ (get rr 1 < get rr 2 -> fine A P Q rr cc r c nb) /\
    wf B /\ cn B = n /\ cm B = m /\ (forall i j, 0 <= i < n -> 0 <= j < m -> stored B i j <-> stored A (get P i) (get Q j)) /\
    colour_picture B (Z.min w m) (Z.min h n) rr cc r c f').
Proof. exact (dm_pixels gs g gd level size stdin cmd n m k es a). Qed.
Print Assumptions C71_dm_partial.
(* more than a million rows per column (or columns per row), with the default options: the picture has no column, and the
   entries are counted outside of the array *)
Theorem C71_thin gs g level sgn size stdin cmd n m k es : ints [b_width; b_height] cmd -> Forall (allowed b_opts) cmd -> matrix_file stdin n m es -> es <> [] ->
  last_arg b_width cmd = None -> last_arg b_height cmd = None -> value b_mpixels cmd 1 k -> 1 <= k <= 2000 -> (forall a, last_arg b_mpixels cmd = Some a -> 0 < sgn a) ->
  image_size (d_of_int k) n m = Ok (size (last_arg b_mpixels cmd) n m) -> 1000000 * k * m < n \/ 1000000 * k * n < m ->
  main_bitmap gs g level sgn size stdin cmd = Fail OOB.
Proof. intros H1 H2 H3 H4 H5 H6 _. exact (bitmap_thin gs g level sgn size stdin cmd n m k es H1 H2 H3 H4 H5 H6). Qed.
Print Assumptions C71_thin.
Theorem C71_thin_refuted : exists stdin n m es size, matrix_file stdin n m es /\ es <> [] /\ image_size (d_of_int 1) n m = Ok (size n m) /\
  forall gs g level sgn, main_bitmap gs g level sgn (fun _ => size) stdin [] = Fail OOB.
Proof.
  exists (file_of 1000001 1 [(0, 0, 1)]), 1000001, 1, [(1, 1, 1)], (fun _ _ => (0, 1000000)).
  assert (F : matrix_file (file_of 1000001 1 [(0, 0, 1)]) 1000001 1 [(1, 1, 1)]) by (apply (file_of_matrix 1000001 1 [(0, 0, 1)]); [lia|lia|repeat constructor; unfold writable, int64; lia|reflexivity]).
  assert (E : image_size (d_of_int 1) 1000001 1 = Ok (0, 1000000)) by (vm_compute; reflexivity).
  split; [exact F|]. split; [discriminate|]. split; [exact E|]. intros gs g level sgn.
  apply (C71_thin gs g level sgn (fun _ _ _ => (0, 1000000)) _ [] 1000001 1 1 [(1, 1, 1)]); [|constructor|exact F|discriminate|reflexivity|reflexivity|reflexivity|lia|discriminate|exact E|lia].
  apply intsb_ok. reflexivity.
Qed.
Print Assumptions C71_thin_refuted.
(* with exactly a million rows per column, the picture of most small matrices has one column (a million and one is enough to
   lose it), but rounding errors lose it at times, first with 65 columns *)
Theorem C71_boundary_refuted : exists stdin es size, matrix_file stdin 65000000 65 es /\ es <> [] /\ image_size (d_of_int 1) 65000000 65 = Ok (size 65000000 65) /\
  (forall m, 1 <= m < 65 -> exists h, image_size (d_of_int 1) (1000000 * m) m = Ok (1, h)) /\
  forall gs g level sgn, main_bitmap gs g level sgn (fun _ => size) stdin [] = Fail OOB.
Proof.
  exists (file_of 65000000 65 [(0, 0, 1)]), [(1, 1, 1)], (fun _ _ => (0, 1000000)).
  assert (F : matrix_file (file_of 65000000 65 [(0, 0, 1)]) 65000000 65 [(1, 1, 1)]) by (apply (file_of_matrix 65000000 65 [(0, 0, 1)]); [lia|lia|repeat constructor; unfold writable, int64; lia|reflexivity]).
  assert (E : image_size (d_of_int 1) 65000000 65 = Ok (0, 1000000)) by (vm_compute; reflexivity).
  split; [exact F|]. split; [discriminate|]. split; [exact E|]. split.
  - intros m Hm. assert (T : forallb (fun m => match image_size (d_of_int 1) (1000000 * m) m with Ok (w, _) => w =? 1 | Fail _ => false end) (zseq 1 65) = true) by (vm_compute; reflexivity).
    rewrite forallb_forall in T. specialize (T m (proj2 (RowList.In_zseq _ _ _) Hm)). destruct (image_size (d_of_int 1) (1000000 * m) m) as [[w h]|]; [|discriminate].
    exists h. apply Z.eqb_eq in T. now subst w.
  - intros gs g level sgn. apply (bitmap_zero gs g level sgn (fun _ _ _ => (0, 1000000)) _ [] 65000000 65 1 [(1, 1, 1)] ltac:(apply intsb_ok; reflexivity)) with (w := 0) (h := 1000000); auto; try lia; try discriminate; try reflexivity.
Qed.
Print Assumptions C71_boundary_refuted.
(* a matrix without rows or without columns: division by zero, and an infinite or undefined number is converted to an integer *)
Theorem C71_empty_refuted : exists f, matrix_file f 0 5 [] /\ image_size (d_of_int 1) 0 5 = Fail Overflow /\ image_size (d_of_int 1) 5 0 = Fail Overflow.
Proof.
  exists (file_of 0 5 []). split; [apply (file_of_matrix 0 5 []); [lia|lia|constructor|reflexivity]|]. split; vm_compute; reflexivity.
Qed.
Print Assumptions C71_empty_refuted.
Example C71_example : image_size (d_of_int 1) 1000 2000 = Ok (1414, 707) /\ image_size (d_of_int 2) 300000 70000 = Ok (683, 2927) /\ image_size (d_of_int 1) 3 4 = Ok (1154, 866) /\ image_size (d_of_int 1) 2147483647 2000 = Ok (0, 1036215).
Proof. repeat split; vm_compute; reflexivity. Qed.
(* bitmap --mpixels=1 --gray *)
Definition im_cmd : list item := [Long "mpixels" (Some (chars "1")); Long "gray" None].
Definition im_size : option (list Z) -> Z -> Z -> Z * Z := fun _ n m => match image_size (d_of_int 1) n m with Ok x => x | Fail _ => (0, 0) end.
Example C71_bitmap_example : ints [b_width; b_height] im_cmd /\ Forall (allowed b_opts) im_cmd /\ matrix_file ex_pic_text 3 4 ex_pic_es /\ ex_pic_es <> [] /\ value b_mpixels im_cmd 1 1 /\ given b_gray im_cmd /\
  image_size (d_of_int 1) 3 4 = Ok (im_size (last_arg b_mpixels im_cmd) 3 4) /\
  exists f, main_bitmap (fun _ => 5) (fun _ _ _ => 5) ex_level (fun _ => 1) im_size ex_pic_text im_cmd = Ok (Some f) /\ save_pnm (fun _ => 5) ex_level ex_pic 4 3 2 None = Ok f.
Proof.
  split; [apply intsb_ok; reflexivity|]. split; [allow b_mpixels; allow b_gray; constructor|]. split; [apply C56_tool_example|]. split; [discriminate|]. split; [apply numeralb_ok; reflexivity|]. split; [apply given_ok; reflexivity|].
  split; [vm_compute; reflexivity|]. eexists. split; [vm_compute; reflexivity|]. vm_compute. reflexivity.
Qed.
