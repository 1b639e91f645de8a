(** C75: the sizes of the arrays. *)
From Verif Require Import Base BaseFacts IO Datatype Sizes SizesProofs.
From Coq Require Import String.
Local Open Scope string_scope.
Local Open Scope list_scope.
Local Open Scope Z_scope.

(** ** C75 *)
(* the number of bytes asked for is that of the cells that are used *)
Theorem C75_bytes_partial e : fits e -> Forall (fun '(_, s, cells, width) => argument s = Ok (cells * width)) (byte_sites e).
Proof. exact (byte_sites_ok e). Qed.
Print Assumptions C75_bytes_partial.
(* the number of entries asked for is the one that the algorithms rely on *)
Theorem C75_entries_partial e : fits e -> Forall (fun '(_, s, k) => argument s = Ok k) (entry_sites e).
Proof. exact (entry_sites_ok e). Qed.
Print Assumptions C75_entries_partial.
(* the largest number of rows and columns, pictures of two billions of pixels, a thousand billions of entries *)
Definition ex_vars : vars := Vars 715827882 715827882 500000000 600000000 1000000000 2147483647 5 2147483647 65535 32768 SPASM_I64 128 (2 ^ 40) (2 ^ 40).
Example C75_example : fits ex_vars /\ Forall (fun '(_, s, cells, width) => argument s = Ok (cells * width)) (byte_sites ex_vars).
Proof. assert (H : fits ex_vars) by (constructor; cbn; lia). split; [exact H|exact (C75_bytes_partial ex_vars H)]. Qed.

(* whatever the matrix, as soon as it has 715827883 columns: the workspace of the sparse triangular solver *)
Theorem C75_workspace_all e : 715827883 <= v_m e -> v_m e < 2 ^ 31 -> exists w s cells width, In (w, s, cells, width) (byte_sites e) /\ cells = 3 * v_m e /\ width = 4 /\ argument s = Fail Overflow.
Proof. exact (workspace_overflow e). Qed.
Print Assumptions C75_workspace_all.
(* all dimensions are ints *)
Definition ints (e : vars) : Prop := Forall (fun v => 0 <= v < 2 ^ 31) [v_n e; v_m e; v_r e; v_Sm e; v_blk e; v_Xm e; v_a e; v_b e; v_x e; v_y e].
Theorem C75_workspace_refuted : exists e w s, ints e /\ v_nz e = 1 /\ In (w, s, 3 * v_m e, 4) (byte_sites e) /\ argument s = Fail Overflow.
Proof.
  set (e := Vars 1 715827883 1 1 1 1 0 1 1 1 SPASM_FLOAT 1 1 1). exists e. do 2 eexists. split; [repeat constructor; cbn; lia|]. split; [reflexivity|].
  split; [unfold byte_sites; do 17 right; left; reflexivity|reflexivity].
Qed.
Print Assumptions C75_workspace_refuted.
(* row pointers of a matrix with 2^31 - 1 rows *)
Theorem C75_rows_refuted : exists e w s, ints e /\ v_nz e = 1 /\ In (w, s, v_n e + 1, 8) (byte_sites e) /\ argument s = Fail Overflow.
Proof.
  set (e := Vars 2147483647 1 1 1 1 1 0 1 1 1 SPASM_FLOAT 1 1 1). exists e. do 2 eexists. split; [repeat constructor; cbn; lia|]. split; [reflexivity|].
  split; [left; reflexivity|reflexivity].
Qed.
Print Assumptions C75_rows_refuted.
(* pictures with 2^31 pixels *)
Theorem C75_picture_refuted : exists e w s, ints e /\ v_x e = 65536 /\ v_y e = 32768 /\ In (w, s, v_x e * v_y e, 4) (byte_sites e) /\ argument s = Fail Overflow.
Proof.
  set (e := Vars 65536 32768 1 1 1 1 0 1 65536 32768 SPASM_FLOAT 1 1 1). exists e. do 2 eexists. split; [repeat constructor; cbn; lia|]. split; [reflexivity|]. split; [reflexivity|].
  split; [unfold byte_sites; do 27 right; left; reflexivity|reflexivity].
Qed.
Print Assumptions C75_picture_refuted.
(* growth of U after a dense LU factorisation, with 2^30 columns *)
Theorem C75_dense_refuted : exists e w s, ints e /\ v_r e = 1 /\ v_nz e = 0 /\ In (w, s, v_nz e + v_r e * (2 * v_Sm e - v_r e + 1)) (entry_sites e) /\ argument s = Fail Overflow.
Proof.
  set (e := Vars 1 1073741824 1 1073741824 1 1 0 1 1 1 SPASM_FLOAT 1 0 1). exists e. do 2 eexists. split; [repeat constructor; cbn; lia|]. split; [reflexivity|]. split; [reflexivity|].
  split; [unfold entry_sites; do 3 right; left; reflexivity|reflexivity].
Qed.
Print Assumptions C75_dense_refuted.
