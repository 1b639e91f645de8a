(** C57 to C62: the tools that echelonize or decompose the matrix of a file. *)
From Coq Require Import String Znumtheory.
From Verif Require Import Base BaseFacts Spec SpecText Checks SpecTools Zp Mat SpecSha SpecRank Stdio IO IOSave Par Schur Dense DenseProofs4 Echelonize EchProofs EchProofs2 EchExamples Rref Cert CertIO CertIOProofs Gesv
  Tools ToolsProofs ToolsElim ToolsElimProofs ShaHash SpecParts SpecReport DmTool.
Local Open Scope string_scope.
Local Open Scope list_scope.
Local Open Scope Z_scope.

(** ** C57: rank *)
(* without certificate: never above the rank, and equal to it when the whole matrix is eliminated *)
Theorem C57_rank gs g X fuel o gc fc tr f n m es p : ok_modulus p -> prime p -> matrix_file f n m es -> no_cancel p es ->
  let N := if turned tr n m then m else n in let M := if turned tr n m then n else m in
  params_ok X p M -> good_opts X o ->
  outs (tool_rank gs g X fuel o gc fc tr false f p) (fun '(r, c) => c = None /\ 0 <= r /\ (forall r', frank p n m (fmat es) r' -> r <= r') /\
    (full X o -> frank p n m (fmat es) r)) (failures o N M).
Proof. exact (tool_rank_ok gs g X fuel o gc fc tr f n m es p). Qed.
Print Assumptions C57_rank.
(* the rank exists, is unique, and is that of the transpose *)
Theorem C57_rank_defined p n m M : prime p -> 0 <= n -> 0 <= m -> exists! r, frank p n m M r /\ frank p m n (fun j i => M i j) r.
Proof. exact (RankT.frank_defined p n m M). Qed.
Print Assumptions C57_rank_defined.
(* with a certificate: the rank is exact, the assertions pass and the certificate is accepted *)
Theorem C57_certificate_partial gs g X fuel o gc fc tr f n m es p : ok_modulus p -> prime p -> matrix_file f n m es -> no_cancel p es ->
  let N := if turned tr n m then m else n in let M := if turned tr n m then n else m in
  params_ok X p M -> good_opts X (with_L o) -> finishes X o ->
  outs (tool_rank gs g X fuel o gc fc tr true f p) (fun '(r, c) => frank p n m (fmat es) r /\ exists proof A, c = Some (proof, true) /\ c_r proof = r /\ c_hash proof = sha256 f /\
      (if turned tr n m then holds p m n (swapped es) A else holds p n m es A) /\ forall gs', rank_verify gs' fc A (sha256 f) proof = Ok true)
    (fun e => e = OutOfFuel \/ e = Overflow).
Proof. exact (tool_rank_cert gs g X fuel o gc fc tr f n m es p). Qed.
Print Assumptions C57_certificate_partial.

(* 3 x 3 of rank 2 modulo 7; position (2, 2) appears twice *)
Definition te_text : list Z := file_of 3 3 [(0, 0, 2); (0, 1, 8); (1, 0, -3); (1, 1, 1); (1, 1, 1); (2, 2, 3)].
Definition te_es : list (Z * Z * Z) := [(1, 1, 2); (1, 2, 8); (2, 1, -3); (2, 2, 1); (2, 2, 1); (3, 3, 3)].
Lemma te_ok : matrix_file te_text 3 3 te_es /\ no_cancel 7 te_es.
Proof. split; [apply (file_of_matrix 3 3 [(0, 0, 2); (0, 1, 8); (1, 0, -3); (1, 1, 1); (1, 1, 1); (2, 2, 3)]); [lia|lia|repeat constructor; unfold writable, int64; lia|reflexivity]|]. apply no_cancelb_ok; [lia|reflexivity]. Qed.
Definition te_X : params := run 7 3 1 (fun k i => 3 * k + i) (fun i => i) (fun r => r) 50 false.
Definition te_o : opts := Opts true false true true true false 0 2 (-1).
Definition te_g : Z -> Z -> Z -> Z := fun _ _ _ => 5.
Lemma te_X_ok : params_ok te_X 7 3.
Proof. apply run_ok; [unfold ok_modulus; lia|now apply primeb_ok|lia]. Qed.
Lemma te_good : good_opts te_X te_o.
Proof. split; [cbn; lia|]. right; right; right; left; cbn; lia. Qed.
Lemma te_full : full te_X te_o.
Proof. split; [reflexivity|right; split; reflexivity]. Qed.
Lemma te_finishes : finishes te_X te_o.
Proof. right; reflexivity. Qed.
Example C57_example : ok_modulus 7 /\ prime 7 /\ matrix_file te_text 3 3 te_es /\ no_cancel 7 te_es /\ params_ok te_X 7 3 /\ good_opts te_X te_o /\ full te_X te_o /\ finishes te_X te_o /\
  tool_rank (fun _ => 5) te_g te_X 9 te_o (fun _ => te_g) 20 true false te_text 7 = Ok (2, None) /\
  match tool_rank (fun _ => 5) te_g te_X 9 te_o (fun _ => te_g) 20 true true te_text 7 with Ok (2, Some (_, true)) => True | _ => False end.
Proof.
  split; [unfold ok_modulus; lia|]. split; [now apply primeb_ok|]. split; [apply te_ok|]. split; [apply te_ok|]. split; [apply te_X_ok|].
  split; [exact te_good|]. split; [exact te_full|]. split; [exact te_finishes|].
  split; [vm_compute; reflexivity|]. vm_compute. exact I.
Qed.
(* with the options of the dense elimination, "rank --certificate" reads outside of an array (see C48_pivotal_refuted) *)
Definition te_text2 : list Z := file_of 4 3 [(0, 0, 1); (0, 1, 1); (0, 2, 1); (1, 0, 1); (1, 1, 1); (1, 2, 1); (2, 0, 1); (2, 1, 2); (2, 2, 2); (3, 0, 1); (3, 1, 2); (3, 2, 3)].
Theorem C57_dense_refuted : exists gs g X o gc fc f n m es, matrix_file f n m es /\ no_cancel 7 es /\ m <= n /\ params_ok X 7 m /\ 0 < o_blk o /\ finishes X o /\
  forall fuel, tool_rank gs g X fuel o gc fc true true f 7 = Fail OOB.
Proof.
  exists (fun _ => 5), te_g, (run 7 3 0 (fun _ _ => 1) (fun _ => 0) (fun r => r) 50 false), (Opts true false true true false false 2 1000 0), (fun _ => te_g), 20%nat, te_text2, 4, 3.
  eexists. split; [unfold te_text2; apply file_of_matrix; [lia|lia|repeat constructor; unfold writable, int64; lia|vm_compute; reflexivity]|]. split; [apply no_cancelb_ok; [lia|reflexivity]|].
  split; [lia|]. split; [apply run_ok; [unfold ok_modulus; lia|now apply primeb_ok|lia]|]. split; [reflexivity|]. split; [right; reflexivity|]. intros fuel. vm_compute. reflexivity.
Qed.
Print Assumptions C57_dense_refuted.
(* a matrix with more columns than rows is transposed: its certificate, with the hash of the file, is that of another matrix *)
Definition te_text3 : list Z := file_of 1 2 [(0, 1, 3)].
Theorem C57_transposed_refuted : exists gs g X fuel o gc fc f n m es proof, matrix_file f n m es /\ no_cancel 7 es /\ params_ok X 7 n /\ good_opts X (with_L o) /\ finishes X o /\
  tool_rank gs g X fuel o gc fc true true f 7 = Ok (1, Some (proof, true)) /\ c_hash proof = sha256 f /\
  exists A, holds 7 n m es A /\ rank_verify (gc 4) fc A (sha256 f) proof = Ok false.
Proof.
  exists (fun _ => 5), te_g, (run 7 1 0 (fun _ _ => 1) (fun _ => 0) (fun r => r) 50 false), 9%nat, te_o, (fun _ => te_g), 20%nat, te_text3, 1, 2.
  assert (E : exists proof, tool_rank (fun _ => 5) te_g (run 7 1 0 (fun _ _ => 1) (fun _ => 0) (fun r => r) 50 false) 9 te_o (fun _ => te_g) 20 true true te_text3 7 = Ok (1, Some (proof, true)) /\
    c_hash proof = sha256 te_text3 /\ rank_verify (te_g) 20 (Csr 1 2 [0; 1] [1] (Some [3]) 7) (sha256 te_text3) proof = Ok false).
  { eexists. split; [vm_compute; reflexivity|]. split; vm_compute; reflexivity. }
  destruct E as (proof & E1 & E2 & E3). eexists. exists proof. split; [unfold te_text3; apply file_of_matrix; [lia|lia|repeat constructor; unfold writable, int64; lia|reflexivity]|]. split; [apply no_cancelb_ok; [lia|reflexivity]|].
  split; [apply run_ok; [unfold ok_modulus; lia|now apply primeb_ok|lia]|]. split; [split; [cbn; lia|right; right; right; left; cbn; lia]|]. split; [right; reflexivity|]. split; [exact E1|]. split; [exact E2|].
  eexists. split; [|exact E3]. destruct (matrixb_ok (Csr 1 2 [0; 1] [1] (Some [3]) 7) eq_refl) as (W1 & W2 & W3 & W4). split; [auto|]. do 7 (split; [auto; reflexivity || (vm_compute; discriminate)|]).
  intros i j Hi Hj. assert (i = 0) as -> by lia. assert (j = 0 \/ j = 1) as [->| ->] by lia; apply cong_eq; reflexivity.
Qed.
Print Assumptions C57_transposed_refuted.

(** ** C58: check_cert *)
(* Full statement: "CORRECT certificate" is printed and the exit code is 0 exactly when the certificate is valid.
   The message is the opposite of the answer, like the exit code; besides, the certificate is not read correctly (C43). *)
Theorem C58_message_partial gs g gc fc junk f n m es p c : ok_modulus p -> matrix_file f n m es -> no_cancel p es -> storable c ->
  exists cf A c', cert_save c = Ok cf /\ holds p n m es A /\ c_r c' = c_r c /\ c_prime c' = c_prime c /\ c_hash c' = c_hash c /\ c_x c' = c_x c /\ c_y c' = c_y c /\
    c_i c' = c_j c /\ (forall k, 0 <= k < c_r c -> get (c_j c') k = g 3 1 k) /\
    tool_check_cert gs g gc fc junk f cf p = (correct <- rank_verify gc fc A (sha256 f) c' ;; Ok (negb correct, if correct then 1 else 0)).
Proof. exact (check_cert_saved gs g gc fc junk f n m es p c). Qed.
Print Assumptions C58_message_partial.
(* every certificate of another file is found correct, with exit code 0 *)
Theorem C58_wrong_refuted gs g gc fc junk f n m es p c : ok_modulus p -> matrix_file f n m es -> no_cancel p es -> storable c -> c_hash c <> sha256 f ->
  exists cf, cert_save c = Ok cf /\ tool_check_cert gs g gc fc junk f cf p = Ok (true, 0).
Proof. exact (check_cert_wrong gs g gc fc junk f n m es p c). Qed.
Print Assumptions C58_wrong_refuted.
(* a valid certificate, even well read (the memory happens to contain the columns), is found incorrect *)
Theorem C58_valid_refuted : exists gs g gc fc junk f n m es A c cf, matrix_file f n m es /\ no_cancel 7 es /\ holds 7 n m es A /\ rank_verify gc fc A (sha256 f) c = Ok true /\
  storable c /\ cert_save c = Ok cf /\ cert_load (g 3) cf = Ok (Some c) /\ tool_check_cert gs g gc fc junk f cf 7 = Ok (false, 1).
Proof.
  exists (fun _ => 5), (fun _ _ _ => 0), te_g, 20%nat, (Cert 0 0 [] [] [] [] []), (file_of 1 1 [(0, 0, 3)]), 1, 1, [(1, 1, 3)], (Csr 1 1 [0; 1] [0] (Some [3]) 7).
  assert (E : exists c, (tool_rank (fun _ => 5) te_g (run 7 1 0 (fun _ _ => 1) (fun _ => 0) (fun r => r) 50 false) 9 te_o (fun _ => te_g) 20 true true (file_of 1 1 [(0, 0, 3)]) 7) = Ok (1, Some (c, true)) /\
    rank_verify te_g 20 (Csr 1 1 [0; 1] [0] (Some [3]) 7) (sha256 (file_of 1 1 [(0, 0, 3)])) c = Ok true /\ c_hash c = sha256 (file_of 1 1 [(0, 0, 3)]) /\
    (exists x y, c = Cert 1 7 (c_hash c) [0] [0] [x] [y] /\ int32 x /\ int32 y) /\
    exists cf, cert_save c = Ok cf /\ cert_load (fun _ _ => 0) cf = Ok (Some c) /\ tool_check_cert (fun _ => 5) (fun _ _ _ => 0) te_g 20 (Cert 0 0 [] [] [] [] []) (file_of 1 1 [(0, 0, 3)]) cf 7 = Ok (false, 1)).
  { eexists. split; [vm_compute; reflexivity|]. split; [vm_compute; reflexivity|]. split; [vm_compute; reflexivity|]. split.
    { do 2 eexists. split; [cbn [c_hash]; reflexivity|]. unfold int32. lia. }
    eexists. split; [vm_compute; reflexivity|]. split; vm_compute; reflexivity. }
  destruct E as (c & _ & E1 & Eh & (x & y & Ec & Hx & Hy) & cf & E2 & E3 & E4). exists c, cf.
  split; [apply (file_of_matrix 1 1 [(0, 0, 3)]); [lia|lia|repeat constructor; unfold writable, int64; lia|reflexivity]|]. split; [apply no_cancelb_ok; [lia|reflexivity]|]. split.
  { destruct (matrixb_ok (Csr 1 1 [0; 1] [0] (Some [3]) 7) eq_refl) as (W1 & W2 & W3 & W4). split; [auto|]. do 7 (split; [auto; reflexivity || (vm_compute; discriminate)|]).
    intros i j Hi Hj. assert (i = 0) as -> by lia. assert (j = 0) as -> by lia. apply cong_eq. reflexivity. }
  split; [auto|]. split; [|auto]. rewrite Ec. cbn [c_hash]. rewrite Eh. split; [cbn; lia|]. split; [unfold int64; cbn; lia|]. split; [apply PrngProofs.len_sha256|]. split; [apply PrngProofs.bytes_sha256|].
  cbn [In c_i c_j c_x c_y c_r]. intros l Hl. assert (E : l = [0] \/ l = [x] \/ l = [y]) by intuition. unfold int32 in *. destruct E as [->|[->| ->]]; split; try reflexivity; repeat constructor; lia.
Qed.
Print Assumptions C58_valid_refuted.
(* the empty file is a correct certificate, unless the memory contains the hash *)
Theorem C58_empty_refuted gs g gc fc junk f n m es p : ok_modulus p -> matrix_file f n m es -> no_cancel p es -> len (c_hash junk) = 32 -> c_hash junk <> sha256 f ->
  tool_check_cert gs g gc fc junk f [] p = Ok (true, 0).
Proof. exact (check_cert_empty gs g gc fc junk f n m es p). Qed.
Print Assumptions C58_empty_refuted.
Example C58_example : matrix_file te_text 3 3 te_es /\ no_cancel 7 te_es /\ storable (Cert 1 7 (fill 32 255) [3] [1] [1] [2]) /\ fill 32 255 <> sha256 te_text.
Proof.
  split; [apply te_ok|]. split; [apply te_ok|]. split; [|vm_compute; discriminate]. split; [cbn; lia|]. split; [unfold int64; cbn; lia|]. split; [reflexivity|]. split; [apply Forall_fill; unfold byte; lia|].
  cbn [In c_i c_j c_x c_y c_r]. intros l Hl. assert (E : l = [3] \/ l = [1] \/ l = [2]) by intuition. destruct E as [->|[->| ->]]; split; try reflexivity; repeat constructor; lia.
Qed.

(** ** C59: kernel *)
(* Full statement: without [no_cancel] (false, C79_kernel_refuted) *)
Theorem C59_kernel_partial gs g X fuel o ch scr (left : bool) f n m es p : ok_modulus p -> prime p -> matrix_file f n m es -> no_cancel p es ->
  let N := if left then m else n in let M := if left then n else m in
  params_ok X p M -> good_opts X o -> full X o -> (forall k t, 0 <= k -> scr_ok k (scr k t)) ->
  outs (tool_kernel gs g X fuel o ch scr left f p) (fun f' => exists k es', written f' k M es' /\ (3 <= p -> clean p es') /\
    frank p N M (flipped left (fmat es)) (M - k) /\ nullbasis p N M (flipped left (fmat es)) k (fmat es')) (nan_err o N M).
Proof. exact (tool_kernel_ok gs g X fuel o ch scr left f n m es p). Qed.
Print Assumptions C59_kernel_partial.
Definition te_scr (k _ : Z) : scratch := (fill k 5, fill k 6, fill k 0, fill k 7).
Lemma te_scr_ok k t : 0 <= k -> scr_ok k (te_scr k t).
Proof. intros H. unfold scr_ok, te_scr. rewrite !len_fill. repeat split; try lia. intros; now apply get_fill. Qed.
Example C59_example : matrix_file te_text 3 3 te_es /\ no_cancel 7 te_es /\ params_ok te_X 7 3 /\ good_opts te_X te_o /\ full te_X te_o /\
  tool_kernel (fun _ => 5) te_g te_X 9 te_o (fun _ => 0) te_scr false te_text 7 = Ok (chars "1 3 M" ++ [NL] ++ chars "1 2 -1" ++ [NL] ++ chars "1 1 -3" ++ [NL] ++ chars "0 0 0" ++ [NL]) /\
  tool_kernel (fun _ => 5) te_g te_X 9 te_o (fun _ => 0) te_scr true te_text 7 = Ok (chars "1 3 M" ++ [NL] ++ chars "1 2 -1" ++ [NL] ++ chars "1 1 2" ++ [NL] ++ chars "0 0 0" ++ [NL]).
Proof. split; [apply te_ok|]. split; [apply te_ok|]. split; [apply te_X_ok|]. split; [exact te_good|]. split; [exact te_full|]. split; vm_compute; reflexivity. Qed.

(** ** C60: solve *)
Theorem C60_solve_partial gs g g' X fuel o ch w f n m es fb nb esb p : ok_modulus p -> prime p -> matrix_file f n m es -> no_cancel p es ->
  matrix_file fb nb m esb -> no_cancel p esb -> params_ok X p m -> good_opts X (with_L o) -> finishes X o ->
  outs (tool_solve gs g g' X fuel o ch w f fb p) (fun '(f', warn) => exists es', written f' nb n es' /\ clean p es' /\
    lists warn (fun i => 0 <= i < nb /\ ~ rowsp p n m (fmat es) (fmat esb i)) /\
    forall i, 0 <= i < nb -> rowsp p n m (fmat es) (fmat esb i) -> forall j, 0 <= j < m -> cong p (sum 0 n (fun k => fmat es' i k * fmat es k j)) (fmat esb i j))
    (nan_err o n m).
Proof. exact (tool_solve_ok gs g g' X fuel o ch w f n m es fb nb esb p). Qed.
Print Assumptions C60_solve_partial.
(* right-hand sides: the sum of the rows of the matrix, and (1, 0, 0) *)
Definition te_rhs : list Z := file_of 2 3 [(0, 0, -1); (0, 1, 3); (0, 2, 3); (1, 0, 1)].
Definition te_rhs_es : list (Z * Z * Z) := [(1, 1, -1); (1, 2, 3); (1, 3, 3); (2, 1, 1)].
Example C60_example : matrix_file te_text 3 3 te_es /\ no_cancel 7 te_es /\ matrix_file te_rhs 2 3 te_rhs_es /\ no_cancel 7 te_rhs_es /\ params_ok te_X 7 3 /\ good_opts te_X (with_L te_o) /\ finishes te_X te_o /\
  tool_solve (fun _ => 5) te_g te_g te_X 9 te_o (fun _ => 0) te_g te_text te_rhs 7 = Ok (chars "2 3 M" ++ [NL] ++ chars "1 1 3" ++ [NL] ++ chars "1 3 1" ++ [NL] ++ chars "2 1 -3" ++ [NL] ++ chars "0 0 0" ++ [NL], [1]).
Proof.
  split; [apply te_ok|]. split; [apply te_ok|]. split; [apply (file_of_matrix 2 3 [(0, 0, -1); (0, 1, 3); (0, 2, 3); (1, 0, 1)]); [lia|lia|repeat constructor; unfold writable, int64; lia|reflexivity]|]. split; [apply no_cancelb_ok; [lia|reflexivity]|].
  split; [apply te_X_ok|]. split; [exact te_good|]. split; [exact te_finishes|]. vm_compute. reflexivity.
Qed.
(* whatever the number of columns mb of B: if there are less than in A, memory is read outside of b as soon
   as B has a row; if there are more, the columns from m on are ignored *)
Theorem C60_columns gs g g' X fuel o ch w f n m es fb nb mb esb p : ok_modulus p -> prime p -> matrix_file f n m es -> no_cancel p es ->
  matrix_file fb nb mb esb -> no_cancel p esb -> params_ok X p m -> good_opts X (with_L o) -> finishes X o ->
  outs (tool_solve gs g g' X fuel o ch w f fb p) (fun '(f', warn) => (m <= mb \/ nb = 0) /\ exists es', written f' nb n es' /\ clean p es' /\
    lists warn (fun i => 0 <= i < nb /\ ~ rowsp p n m (fmat es) (fmat esb i)) /\
    forall i, 0 <= i < nb -> rowsp p n m (fmat es) (fmat esb i) -> forall j, 0 <= j < m -> cong p (sum 0 n (fun k => fmat es' i k * fmat es k j)) (fmat esb i j))
    (fun e => e = Overflow /\ 0 < o_rounds o /\ m < n \/ e = OOB /\ mb < m /\ 1 <= nb).
Proof. exact (fun Hp Pp F NC Fb NCb => tool_solve_cols gs g g' X fuel o ch w f n m es fb nb mb esb p Hp Pp F (no_cancel_calm p n es NC) Fb (no_cancel_calm p nb esb NCb)). Qed.
Print Assumptions C60_columns.
(* the number of columns is not checked.  Too few: reads outside of an array *)
Theorem C60_narrow_refuted : exists gs g X o ch w f n m es fb nb mb esb, matrix_file f n m es /\ no_cancel 7 es /\ matrix_file fb nb mb esb /\ no_cancel 7 esb /\ params_ok X 7 m /\ good_opts X (with_L o) /\ finishes X o /\
  tool_solve gs g g X 9 o ch w f fb 7 = Fail OOB.
Proof.
  exists (fun _ => 5), te_g, te_X, te_o, (fun _ => 0), te_g, te_text, 3, 3, te_es, (file_of 1 2 [(0, 1, 1)]), 1, 2, [(1, 2, 1)].
  split; [apply te_ok|]. split; [apply te_ok|]. split; [apply (file_of_matrix 1 2 [(0, 1, 1)]); [lia|lia|repeat constructor; unfold writable, int64; lia|reflexivity]|]. split; [apply no_cancelb_ok; [lia|reflexivity]|].
  split; [apply te_X_ok|]. split; [exact te_good|]. split; [exact te_finishes|]. vm_compute. reflexivity.
Qed.
Print Assumptions C60_narrow_refuted.
(* too many: a solution is announced for a row that has none *)
Theorem C60_wide_refuted : exists gs g X o ch w f n m es fb mb esb f', matrix_file f n m es /\ no_cancel 7 es /\ matrix_file fb 1 mb esb /\ no_cancel 7 esb /\ params_ok X 7 m /\ good_opts X (with_L o) /\ finishes X o /\
  m < mb /\ ~ rowsp 7 n mb (fmat es) (fmat esb 0) /\ tool_solve gs g g X 9 o ch w f fb 7 = Ok (f', []).
Proof.
  exists (fun _ => 5), te_g, te_X, te_o, (fun _ => 0), te_g, te_text, 3, 3, te_es, (file_of 1 4 [(0, 2, 1); (0, 3, 1)]), 4, [(1, 3, 1); (1, 4, 1)].
  assert (E : exists f', tool_solve (fun _ => 5) te_g te_g te_X 9 te_o (fun _ => 0) te_g te_text (file_of 1 4 [(0, 2, 1); (0, 3, 1)]) 7 = Ok (f', [])) by (eexists; vm_compute; reflexivity).
  destruct E as (f' & E). exists f'.
  split; [apply te_ok|]. split; [apply te_ok|]. split; [apply (file_of_matrix 1 4 [(0, 2, 1); (0, 3, 1)]); [lia|lia|repeat constructor; unfold writable, int64; lia|reflexivity]|]. split; [apply no_cancelb_ok; [lia|reflexivity]|].
  split; [apply te_X_ok|]. split; [exact te_good|]. split; [exact te_finishes|]. split; [lia|]. split; [|exact E].
  intros (x & Hx). specialize (Hx 3 ltac:(lia)). change (cong 7 (x 0 * 0 + (x 1 * 0 + (x 2 * 0 + 0))) 1) in Hx. rewrite !Z.mul_0_r in Hx. destruct Hx as (k & Hk). lia.
Qed.
Print Assumptions C60_wide_refuted.

(** ** C61: echelonize *)
(* Full statement: without [no_cancel] (false, C79_echelonize_refuted) and without the bound (C30_rref_refuted) *)
Theorem C61_echelonize_partial gs g X fuel o ch scr use_rref f n m es p : ok_modulus p -> prime p -> matrix_file f n m es -> no_cancel p es ->
  params_ok X p m -> good_opts X o -> (forall k t, 0 <= k -> scr_ok k (scr k t)) ->
  (use_rref = true -> forall r, 0 <= r <= Z.min n m -> r * (m - r + 1) < 2 ^ 31) ->
  outs (tool_echelonize gs g X fuel o ch scr use_rref f p) (fun f' => exists r es', written f' r m es' /\ (use_rref = true -> clean p es') /\
    (exists piv, if use_rref then reduced_rows p m r (fmat es') piv else echelon_rows p m r (fmat es') piv) /\
    (forall k, 0 <= k < r -> rowsp p n m (fmat es) (fmat es' k)) /\
    (full X o -> frank p n m (fmat es) r /\ forall i, 0 <= i < n -> rowsp p r m (fmat es') (fmat es i))) (failures o n m).
Proof. exact (tool_echelonize_ok gs g X fuel o ch scr use_rref f n m es p). Qed.
Print Assumptions C61_echelonize_partial.
Example C61_example : matrix_file te_text 3 3 te_es /\ no_cancel 7 te_es /\ params_ok te_X 7 3 /\ good_opts te_X te_o /\ full te_X te_o /\ (forall r, 0 <= r <= Z.min 3 3 -> r * (3 - r + 1) < 2 ^ 31) /\
  tool_echelonize (fun _ => 5) te_g te_X 9 te_o (fun _ => 0) te_scr true te_text 7 = Ok (chars "2 3 M" ++ [NL] ++ chars "1 1 1" ++ [NL] ++ chars "1 2 -3" ++ [NL] ++ chars "2 3 1" ++ [NL] ++ chars "0 0 0" ++ [NL]) /\
  tool_echelonize (fun _ => 5) te_g te_X 9 te_o (fun _ => 0) te_scr false te_text 7 = Ok (chars "2 3 M" ++ [NL] ++ chars "1 1 1" ++ [NL] ++ chars "1 2 -3" ++ [NL] ++ chars "1 3 0" ++ [NL] ++ chars "2 3 1" ++ [NL] ++ chars "2 2 0" ++ [NL] ++ chars "0 0 0" ++ [NL]).
Proof. split; [apply te_ok|]. split; [apply te_ok|]. split; [apply te_X_ok|]. split; [exact te_good|]. split; [exact te_full|]. split; [intros; nia|]. split; vm_compute; reflexivity. Qed.

(** ** C62: dm *)
(* Full statement: without [no_cancel] (false, C79_dm_refuted) *)
(* the permuted matrix: the rows and columns of the horizontal, square and vertical parts, in this order *)
Theorem C62_dm_partial gs g gd f n m es : matrix_file f n m es -> no_cancel 42013 es ->
  let R := fun i j => ~ cong 42013 (fmat es i j) 0 in
  sat (tool_dm gs g gd f) (fun f' => exists P Q es' hn hm s, is_perm n P /\ is_perm m Q /\ written f' n m es' /\ clean 42013 es' /\
    (forall i j, 0 <= i < n -> 0 <= j < m -> cong 42013 (fmat es' i j) (fmat es (get P i) (get Q j))) /\
    (forall a, 0 <= a < n -> (a < hn <-> hrow n m R (get P a)) /\ (hn + s <= a <-> vrow n m R (get P a))) /\
    (forall b, 0 <= b < m -> (b < hm <-> hcol n m R (get Q b)) /\ (hm + s <= b <-> vcol n m R (get Q b))) /\
    (forall x, 0 <= x < s -> ~ cong 42013 (fmat es' (hn + x) (hm + x)) 0)).
Proof. exact (tool_dm_ok gs g gd f n m es). Qed.
Print Assumptions C62_dm_partial.
(* the description: structural rank, dimensions of the three parts, sizes of the blocks of the square part; a sum of
   the tool may overflow, in which case the behaviour is undefined *)
Theorem C62_report_partial gs g gd f n m es : matrix_file f n m es -> no_cancel 42013 es ->
  let R := fun i j => ~ cong 42013 (fmat es i j) 0 in
  exists k hn hm s vn vm bs, srank n m R k /\ many hn (hrow n m R) /\ many hm (hcol n m R) /\ many s (sqrow n m R) /\ many s (sqcol n m R) /\
    many vn (vrow n m R) /\ many vm (vcol n m R) /\ blocks_of n m R bs /\
    if hn + s + m <? 2 ^ 31 then exists f', tool_dm_report gs g gd f = Ok f' /\ renders (report k hn hm s (map len bs) vn vm) f'
    else tool_dm_report gs g gd f = Fail Overflow.
Proof. exact (tool_dm_report_ok gs g gd f n m es). Qed.
Print Assumptions C62_report_partial.
(* 3 x 3, of structural rank 2: the first two rows have their entries in column 2 *)
Definition dm_text : list Z := file_of 3 3 [(0, 1, 5); (1, 1, 7); (2, 0, 3); (2, 1, 4); (2, 2, -1)].
Definition dm_es : list (Z * Z * Z) := [(1, 2, 5); (2, 2, 7); (3, 1, 3); (3, 2, 4); (3, 3, -1)].
Example C62_example : matrix_file dm_text 3 3 dm_es /\ no_cancel 42013 dm_es /\
  tool_dm (fun _ => 5) te_g te_g dm_text = Ok (file_of 3 3 [(0, 1, 3); (0, 2, 4); (0, 0, -1); (1, 2, 5); (2, 2, 7)]) /\
  tool_dm_report (fun _ => 5) te_g te_g dm_text = Ok (chars "structural rank = 2" ++ [NL] ++ chars "*) H (1 x 2)" ++ [NL] ++ chars "*) V (2 x 1)" ++ [NL]).
Proof.
  split; [apply (file_of_matrix 3 3 [(0, 1, 5); (1, 1, 7); (2, 0, 3); (2, 1, 4); (2, 2, -1)]); [lia|lia|repeat constructor; unfold writable, int64; lia|reflexivity]|]. split; [apply no_cancelb_ok; [lia|reflexivity]|]. split; vm_compute; reflexivity.
Qed.
(* 4 x 4: a block of size 2, then two of size 1 *)
Definition dm_text2 : list Z := file_of 4 4 [(0, 0, 5); (0, 1, 7); (1, 0, 3); (1, 1, 4); (1, 2, 2); (2, 2, 1); (3, 2, 1); (3, 3, -1)].
Example C62_blocks : tool_dm_report (fun _ => 5) te_g te_g dm_text2 = Ok (chars "structural rank = 4" ++ [NL] ++ chars "*) S (4 x 4) : " ++ [NL] ++
  chars "    *) SCC of size 2" ++ [NL] ++ chars "    -> plus 2 SCC of size 1" ++ [NL]).
Proof. vm_compute. reflexivity. Qed.
