(** C83: the tools that draw pictures, on any sequence of bytes. *)
From Coq Require Import String.
From Verif Require Import Base BaseFacts Spec SpecText SpecAccept SpecHeader SpecTools SpecAny SpecAnyElim SpecAnyImage SpecMatch SpecDm SpecPnm Checks TextChecks Zp Mat SpecSha ShaHash Stdio IO IOSave IOCut DenseProofs4
  Header Tools ToolsProofs ToolsElim ToolsElimProofs AnyInput AnyProofs AnyElim AnyElimProofs Pnm AnyImage AnyImageProofs PropToolsElim PropAnyElim.
Local Open Scope string_scope.
Local Open Scope list_scope.
Local Open Scope Z_scope.

(** ** C83 *)
(* Full statement: without the exception [nothing] (false, C83_bitmap_refuted); --width and --height alone (see C56_size_refuted) *)
Theorem C83_bitmap_partial gs g most level target mpix w h (gray : bool) f : bytes f -> len f < 2 ^ 60 -> ~ In 0 f -> (forall nnz, announces f nnz -> - 2 ^ 61 <= nnz < 2 ^ 61) -> 0 <= most < 2 ^ 61 ->
  mpix <= 0 -> 0 < w -> 0 < h -> w * h < 2 ^ 31 -> (gray = true -> forall c M, 0 <= c <= M -> 0 < M -> 0 <= level c M <= 255) ->
  outs (ntool_bitmap gs g most level target mpix w h gray f) (fun f' => exists n m es A, like_pattern f n m es /\ let N := tall n es in let M := wide m es in pattern_of N M es A /\
      if gray then gray_picture level A (Z.min w M) (Z.min h N) f' \/ es = [] /\ (N = 0 \/ M = 0) /\ plain_image f' 2 [Z.min w M; Z.min h N; 255] else bw_picture A (Z.min w M) (Z.min h N) f')
    (fun e => (e = AssertFailed \/ e = Overflow) \/ e = OOB /\ nothing f).
Proof. intros B L N A M. exact (bitmap_any gs g most f B L N A M level target mpix w h gray). Qed.
Print Assumptions C83_bitmap_partial.
(* the dimensions are computed from those of the matrix.  Full statement: without the last two exceptions (false, C83_bitmap_refuted and C71_empty_refuted) *)
Theorem C83_bitmap_default_partial gs g most level target mpix w h (gray : bool) f : bytes f -> len f < 2 ^ 60 -> ~ In 0 f -> (forall nnz, announces f nnz -> - 2 ^ 61 <= nnz < 2 ^ 61) -> 0 <= most < 2 ^ 61 ->
  mpix <> 0 -> w < 0 -> h < 0 ->
  (forall n m, 0 < n -> 0 < m -> let '(x, y) := target n m in 0 < x /\ 0 < y /\ Z.min x m * Z.min y n < 2 ^ 31) -> (gray = true -> forall c M, 0 <= c <= M -> 0 < M -> 0 <= level c M <= 255) ->
  outs (ntool_bitmap gs g most level target mpix w h gray f) (fun f' => exists n m es A, like_pattern f n m es /\ let N := tall n es in let M := wide m es in pattern_of N M es A /\
      (0 < N -> 0 < M -> let '(x, y) := target N M in if gray then gray_picture level A (Z.min x M) (Z.min y N) f' else bw_picture A (Z.min x M) (Z.min y N) f'))
    (fun e => (e = AssertFailed \/ e = Overflow) \/ e = OOB /\ nothing f \/ exists n m, like_pattern f n m [] /\ (n = 0 \/ m = 0)).
Proof. intros B L N A M. exact (bitmap_default_any gs g most f B L N A M level target mpix w h gray). Qed.
Print Assumptions C83_bitmap_default_partial.
(* Full statement: without the exception [minus_one] (false, C83_dm_refuted), without [quiet] (see C79), and with a picture when there are no rows or no columns (false, C83_dm_empty_refuted) *)
Theorem C83_dm_partial gs g most gd level size f : bytes f -> len f < 2 ^ 60 -> ~ In 0 f -> (forall nnz, announces f nnz -> - 2 ^ 61 <= nnz < 2 ^ 61) -> 0 <= most < 2 ^ 61 ->
  quiet 42013 f -> (forall n m, 0 < n -> 0 < m -> let '(w, h) := size n m in 0 < w /\ 0 < h /\ Z.min w m * Z.min h n < 2 ^ 31) ->
  outs (ntool_dm_image gs g most gd level size f) (fun f' => exists n m es, like_matrix f n m es /\ let N := rows 42013 n es in let M := cols 42013 m es in 0 < N /\ 0 < M /\
      let '(w, h) := size N M in exists A B P Q rr cc r c nb,
      holds 42013 N M es A /\ coarse A P Q rr cc /\ (get rr 1 < get rr 2 -> fine A P Q rr cc r c nb) /\
      wf B /\ cn B = N /\ cm B = M /\ (forall i j, 0 <= i < N -> 0 <= j < M -> stored B i j <-> stored A (get P i) (get Q j)) /\
      colour_picture B (Z.min w M) (Z.min h N) rr cc r c f')
    (fun e => (e = AssertFailed \/ e = Overflow) \/ e = OOB /\ minus_one (fun _ _ => false) f 42013).
Proof. intros B L N A M. exact (dm_image_any gs g most f B L N A M gd level size). Qed.
Print Assumptions C83_dm_partial.
(* -1 rows *)
Theorem C83_bitmap_refuted : exists f, bytes f /\ ~ In 0 f /\ forall level target (gray : bool), ntool_bitmap (fun _ => 5) te_g (2 ^ 30) level target (-1) 2 2 gray f = Fail OOB.
Proof.
  exists (ex_line "-1 2 M" ++ ex_line "0 0 0"). split; [apply bytesb_ok; vm_compute; reflexivity|]. split; [apply nonulb_ok; vm_compute; reflexivity|]. intros level target gray. vm_compute. reflexivity.
Qed.
Print Assumptions C83_bitmap_refuted.
Theorem C83_dm_refuted : exists f, bytes f /\ ~ In 0 f /\ forall gd level size, ntool_dm_image (fun _ => 5) te_g (2 ^ 30) gd level size f = Fail OOB.
Proof.
  exists (ex_line "-1 2 M" ++ ex_line "0 0 0"). split; [apply bytesb_ok; vm_compute; reflexivity|]. split; [apply nonulb_ok; vm_compute; reflexivity|].
  intros gd level size. unfold ntool_dm_image. assert (E : nload_matrix (fun _ => 5) te_g (2 ^ 30) (fun _ _ => false) (ex_line "-1 2 M" ++ ex_line "0 0 0") 42013 None = Fail OOB) by (vm_compute; reflexivity). now rewrite E.
Qed.
Print Assumptions C83_dm_refuted.
(* no rows: division by zero *)
Theorem C83_dm_empty_refuted : exists f, bytes f /\ ~ In 0 f /\ forall level, ntool_dm_image (fun _ => 5) te_g (2 ^ 30) te_g level (fun _ _ => (2, 2)) f = Fail Overflow.
Proof.
  exists (ex_line "0 2 M" ++ ex_line "0 0 0"). split; [apply bytesb_ok; vm_compute; reflexivity|]. split; [apply nonulb_ok; vm_compute; reflexivity|]. intros level. vm_compute. reflexivity.
Qed.
Print Assumptions C83_dm_empty_refuted.

(* announced as 1 x 1 with a letter that is not M, entries at (2, 3) and (1, 1), the latter being 0 *)
Definition sketch : list Z := ex_line "1 1x" ++ ex_line "2+3 5.7" ++ ex_line "1 1 0" ++ ex_line "0 0 0" ++ chars "end".
Lemma sketch_like : like_pattern sketch 1 1 [(2, 3, 5); (1, 1, 0)].
Proof.
  left. exists 120, (ex_line "1 1x"), [ex_line "2+3 5.7"; ex_line "1 1 0"], (ex_line "0 0 0"), [chars "end"]. split; [reflexivity|]. split; [apply linesb_ok; vm_compute; reflexivity|].
  split. { exists (ex_line " 1x"), (ex_line "x"), [], (ex_line ""). split; [begin1 "" "1"|]. split; [begin1 " " "1"|]. split; [reflexivity|]. split; [constructor|]. unfold is_space. lia. }
  do 2 (split; [unfold int32; lia|]). split.
  - constructor; [|constructor; [|constructor]]; (split; [|unfold int64; lia]).
    + exists (ex_line "+3 5.7"), (ex_line " 5.7"), (ex_line ".7"). split; [begin1 "" "2"|]. split; [begin1 "" "+3"|begin1 " " "5"].
    + exists (ex_line " 1 0"), (ex_line " 0"), (ex_line ""). split; [begin1 "" "1"|]. split; [begin1 " " "1"|begin1 " " "0"].
  - exists (ex_line " 0 0"), (ex_line " 0"), (ex_line ""). split; [begin1 "" "0"|]. split; [begin1 " " "0"|begin1 " " "0"].
Qed.
Example C83_example : bytes sketch /\ ~ In 0 sketch /\ (forall nnz, announces sketch nnz -> - 2 ^ 61 <= nnz < 2 ^ 61) /\ like_pattern sketch 1 1 [(2, 3, 5); (1, 1, 0)] /\ tall 1 [(2, 3, 5); (1, 1, 0)] = 2 /\ wide 1 [(2, 3, 5); (1, 1, 0)] = 3 /\
  ntool_bitmap (fun _ => 5) te_g (2 ^ 30) (fun _ _ => 0) (fun _ _ => (1, 1)) (-1) 9 9 false sketch = Ok (chars "P1" ++ [NL] ++ chars "3 2" ++ [NL] ++ chars "1 " ++ [NL] ++ chars "0 0 0 0 1 ") /\
  bytes odd_text /\ ~ In 0 odd_text /\ (forall nnz, announces odd_text nnz -> - 2 ^ 61 <= nnz < 2 ^ 61) /\ quiet 42013 odd_text /\ like_matrix odd_text 1 1 [(2, 3, 5)] /\
  ntool_dm_image (fun _ => 5) te_g (2 ^ 30) te_g (fun _ _ => 0) (fun _ _ => (3, 2)) odd_text = Ok (ex_line "P3" ++ ex_line "3 2" ++ ex_line "255" ++ ex_line "255 255 255 " ++ chars "255 255 255 0 0 0 255 255 255 255 255 255 255 255 255 ").
Proof.
  split; [apply bytesb_ok; vm_compute; reflexivity|]. split; [apply nonulb_ok; vm_compute; reflexivity|]. split; [intros nnz A; apply announces_first in A; discriminate A|]. split; [exact sketch_like|].
  split; [reflexivity|]. split; [reflexivity|]. split; [vm_compute; reflexivity|].
  split; [apply bytesb_ok; vm_compute; reflexivity|]. split; [apply nonulb_ok; vm_compute; reflexivity|]. split; [intros nnz A; apply announces_first in A; discriminate A|]. split.
  { intros n m es H. destruct (like_matrix_det _ _ _ _ _ _ _ H odd_like) as (-> & -> & ->). intros i j x [E|[]] _ (k & Hk). injection E as <- <- <-. unfold fentry in Hk. cbn in Hk. lia. }
  split; [exact odd_like|]. vm_compute. reflexivity.
Qed.
