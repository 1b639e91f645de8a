(** C78: the tools that rewrite a matrix, on any sequence of bytes. *)
From Coq Require Import String.
From Verif Require Import Base Spec SpecText SpecAccept SpecHeader SpecTools SpecAny Zp Mat SpecSha Stdio IO ShaHash Sizes Header Tools AnyInput IOProofs IOSave ToolsProofs TextChecks Checks DenseProofs4 AnyProofs.
Local Open Scope string_scope.
Local Open Scope list_scope.
Local Open Scope Z_scope.

(** ** C78 *)
Theorem C78_csr_partial gs g most f p hash : bytes f -> len f < 2 ^ 60 -> ~ In 0 f -> (forall nnz, announces f nnz -> - 2 ^ 61 <= nnz < 2 ^ 61) -> 0 <= most < 2 ^ 61 -> 2 <= p -> (forall md, hash = Some md -> len md = 32) ->
  (forall A h, nload_csr gs g most f p hash = Ok (A, h) -> wf A /\ cprime A = p) /\ (~ only_rows f p (-1) -> orderly (nload_csr gs g most f p hash)).
Proof. exact (csr_orderly gs g most f p hash). Qed.
Print Assumptions C78_csr_partial.
(* when an array is accessed outside, exactly *)
Theorem C78_oob gs g most f p hash : bytes f -> len f < 2 ^ 60 -> ~ In 0 f -> (forall nnz, announces f nnz -> - 2 ^ 61 <= nnz < 2 ^ 61) -> 0 <= most < 2 ^ 61 -> 2 <= p -> (forall md, hash = Some md -> len md = 32) ->
  (nload_csr gs g most f p hash = Fail OOB <-> exists T h, hload gs (g 0) most f p hash = Ok (T, h) /\ tn T = -1).
Proof. intros B L N A M. exact (nload_csr_oob gs g most f B L N A M p hash). Qed.
Print Assumptions C78_oob.
Theorem C78_transpose_partial gs g most f : bytes f -> len f < 2 ^ 60 -> ~ In 0 f -> (forall nnz, announces f nnz -> - 2 ^ 61 <= nnz < 2 ^ 61) -> 0 <= most < 2 ^ 61 -> ~ only_rows f 42013 (-1) ->
  orderly (ntool_transpose gs g most f).
Proof. exact (transpose_orderly gs g most f). Qed.
Print Assumptions C78_transpose_partial.
Theorem C78_swap gs g most f : bytes f -> len f < 2 ^ 60 -> ~ In 0 f -> (forall nnz, announces f nnz -> - 2 ^ 61 <= nnz < 2 ^ 61) -> 0 <= most < 2 ^ 61 -> orderly (ntool_vertical_swap gs g most f).
Proof. exact (swap_orderly gs g most f). Qed.
Print Assumptions C78_swap.
Theorem C78_stack gs g most f : bytes f -> len f < 2 ^ 60 -> ~ In 0 f -> (forall nnz, announces f nnz -> - 2 ^ 61 <= nnz < 2 ^ 61) -> 0 <= most < 2 ^ 61 -> orderly (ntool_stack gs g most f).
Proof. exact (stack_orderly gs g most f). Qed.
Print Assumptions C78_stack.
(* on the file of a matrix, the tools of C53-C55, or the memory is exhausted, or an int overflows *)
Theorem C78_same gs g most f n m es : matrix_file f n m es -> bytes f -> len f < 2 ^ 60 -> ~ In 0 f -> (forall nnz, announces f nnz -> - 2 ^ 61 <= nnz < 2 ^ 61) -> 0 <= most < 2 ^ 61 -> len es < 2 ^ 31 ->
  let stops r := r = Fail AssertFailed \/ r = Fail Overflow in
  (stops (ntool_transpose gs g most f) \/ ntool_transpose gs g most f = tool_transpose gs g f) /\
  (stops (ntool_vertical_swap gs g most f) \/ ntool_vertical_swap gs g most f = tool_vertical_swap gs g f) /\
  (stops (ntool_stack gs g most f) \/ ntool_stack gs g most f = tool_stack gs g f).
Proof. exact (tools_same gs g most f n m es). Qed.
Print Assumptions C78_same.

Definition ex_any (s : string) : list Z := chars s ++ [NL].
(* -1 rows: 13 bytes are enough *)
Theorem C78_transpose_refuted : exists f, bytes f /\ ~ In 0 f /\ len f = 13 /\ ntool_transpose (fun _ => 5) (fun _ _ _ => 5) (2 ^ 30) f = Fail OOB.
Proof.
  exists (ex_any "-1 3 M" ++ ex_any "0 0 0"). split; [apply bytesb_ok; vm_compute; reflexivity|]. split; [apply nonulb_ok; vm_compute; reflexivity|]. split; vm_compute; reflexivity.
Qed.
Print Assumptions C78_transpose_refuted.

Definition ex_any_run {T} (tool : (Z -> Z) -> (Z -> Z -> Z -> Z) -> Z -> list Z -> res T) (f : list Z) : res T := tool (fun _ => 5) (fun _ _ _ => 5) (2 ^ 30) f.
(* the hypotheses hold of a file with 2 rows and 3 columns *)
Example C78_example : let f := ex_any "2 3 M" ++ ex_any "1 3 5" ++ ex_any "2 1 -7" ++ ex_any "0 0 0" in
  bytes f /\ ~ In 0 f /\ (forall nnz, announces f nnz -> - 2 ^ 61 <= nnz < 2 ^ 61) /\ ~ only_rows f 42013 (-1) /\
  ex_any_run ntool_transpose f = Ok (ex_any "3 2 M" ++ ex_any "1 2 -7" ++ ex_any "3 1 5" ++ ex_any "0 0 0") /\
  ex_any_run ntool_vertical_swap f = Ok (ex_any "2 3 M" ++ ex_any "1 1 5" ++ ex_any "2 3 -7" ++ ex_any "0 0 0") /\
  ex_any_run ntool_stack f = Ok (ex_any "2 2 M" ++ ex_any "1 2 5" ++ ex_any "2 1 -7" ++ ex_any "0 0 0").
Proof.
  intros f. split; [apply bytesb_ok; vm_compute; reflexivity|]. split; [apply nonulb_ok; vm_compute; reflexivity|]. split; [intros nnz A; apply announces_first in A; discriminate A|].
  split; [intros R; apply only_rows_first in R as (r & E); [vm_compute in E; discriminate E|vm_compute; discriminate]|]. vm_compute. repeat split.
Qed.
Example C78_same_example : let f := ex_any "2 3 M" ++ ex_any "1 3 5" ++ ex_any "2 1 -7" ++ ex_any "0 0 0" in matrix_file f 2 3 [(1, 3, 5); (2, 1, -7)].
Proof.
  intros f. assert (E : f = file_of 2 3 [(0, 2, 5); (1, 0, -7)]) by (vm_compute; reflexivity). rewrite E.
  change [(1, 3, 5); (2, 1, -7)] with (map to1 [(0, 2, 5); (1, 0, -7)]). apply file_of_matrix; [lia|lia|repeat constructor; unfold writable, int64; lia|reflexivity].
Qed.
(* -1 rows: with all the entries zero modulo p, with an entry that makes room; -2 rows, -1 columns; the other tools *)
Example C78_minus_one_example :
  ex_any_run ntool_transpose (ex_any "-1 3 M" ++ ex_any "1 1 42013" ++ ex_any "0 0 0") = Fail OOB /\
  ex_any_run ntool_transpose (ex_any "%%MatrixMarket matrix coordinate integer general" ++ ex_any "-1 3 1" ++ ex_any "1 1 42013") = Fail OOB /\
  ex_any_run ntool_transpose (ex_any "-1 3 M" ++ ex_any "1 1 42014" ++ ex_any "0 0 0") = Ok (ex_any "3 1 M" ++ ex_any "1 1 1" ++ ex_any "0 0 0") /\
  ex_any_run ntool_transpose (ex_any "-2 3 M" ++ ex_any "0 0 0") = Fail AssertFailed /\
  ex_any_run ntool_transpose (ex_any "3 -1 M" ++ ex_any "0 0 0") = Fail AssertFailed /\
  ex_any_run ntool_transpose (ex_any "2147483647 3 M" ++ ex_any "0 0 0") = Fail Overflow /\
  ex_any_run ntool_stack (ex_any "-1 3 M" ++ ex_any "0 0 0") = Fail AssertFailed /\
  ex_any_run ntool_vertical_swap (ex_any "-1 3 M" ++ ex_any "0 0 0") = Ok (ex_any "-1 3 M" ++ ex_any "0 0 0").
Proof. vm_compute. repeat split. Qed.
