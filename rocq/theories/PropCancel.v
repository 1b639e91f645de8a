(** C79: the tools, on a file in which the entries at a position cancel. *)
From Coq Require Import String Znumtheory.
From Verif Require Import Base BaseFacts Spec SpecText Checks SpecTools Zp Mat SpecSha SpecRank Stdio IO IOSave Par Schur Dense DenseProofs4 Echelonize EchProofs EchProofs2 EchExamples Rref Cert CertIO CertIOProofs Gesv
  Tools ToolsProofs ToolsElim ToolsElimProofs ShaHash SpecParts SpecReport DmTool CancelProofs PropToolsElim.
Local Open Scope string_scope.
Local Open Scope list_scope.
Local Open Scope Z_scope.

(** ** Right answers *)
(* Full statement: the theorems of C53, C57 and C59 to C62 without the hypothesis [no_cancel].  They hold when the only
   row with cancellations is the last one (of the transposed matrix, if the tool transposes it) *)
Theorem C79_rank_partial gs g X fuel o gc fc tr f n m es p : ok_modulus p -> prime p -> matrix_file f n m es -> (if turned tr n m then calm p m (swapped es) else calm p n es) ->
  let N := if turned tr n m then m else n in let M := if turned tr n m then n else m in
  params_ok X p M -> good_opts X o ->
  outs (tool_rank gs g X fuel o gc fc tr false f p) (fun '(r, c) => c = None /\ 0 <= r /\ (forall r', frank p n m (fmat es) r' -> r <= r') /\
    (full X o -> frank p n m (fmat es) r)) (failures o N M).
Proof. exact (tool_rank_calm gs g X fuel o gc fc tr f n m es p). Qed.
Print Assumptions C79_rank_partial.
Theorem C79_certificate_partial gs g X fuel o gc fc tr f n m es p : ok_modulus p -> prime p -> matrix_file f n m es -> (if turned tr n m then calm p m (swapped es) else calm p n es) ->
  let N := if turned tr n m then m else n in let M := if turned tr n m then n else m in
  params_ok X p M -> good_opts X (with_L o) -> finishes X o ->
  outs (tool_rank gs g X fuel o gc fc tr true f p) (fun '(r, c) => frank p n m (fmat es) r /\ exists proof A, c = Some (proof, true) /\ c_r proof = r /\ c_hash proof = sha256 f /\
      (if turned tr n m then holds p m n (swapped es) A else holds p n m es A) /\ forall gs', rank_verify gs' fc A (sha256 f) proof = Ok true)
    (fun e => e = OutOfFuel \/ e = Overflow).
Proof. exact (tool_rank_cert_calm gs g X fuel o gc fc tr f n m es p). Qed.
Print Assumptions C79_certificate_partial.
Theorem C79_kernel_partial gs g X fuel o ch scr (left : bool) f n m es p : ok_modulus p -> prime p -> matrix_file f n m es -> (if left then calm p m (swapped es) else calm p n es) ->
  let N := if left then m else n in let M := if left then n else m in
  params_ok X p M -> good_opts X o -> full X o -> (forall k t, 0 <= k -> scr_ok k (scr k t)) ->
  outs (tool_kernel gs g X fuel o ch scr left f p) (fun f' => exists k es', written f' k M es' /\ (3 <= p -> clean p es') /\
    frank p N M (flipped left (fmat es)) (M - k) /\ nullbasis p N M (flipped left (fmat es)) k (fmat es')) (nan_err o N M).
Proof. exact (tool_kernel_calm gs g X fuel o ch scr left f n m es p). Qed.
Print Assumptions C79_kernel_partial.
Theorem C79_solve_partial gs g g' X fuel o ch w f n m es fb nb esb p : ok_modulus p -> prime p -> matrix_file f n m es -> calm p n es ->
  matrix_file fb nb m esb -> calm p nb esb -> params_ok X p m -> good_opts X (with_L o) -> finishes X o ->
  outs (tool_solve gs g g' X fuel o ch w f fb p) (fun '(f', warn) => exists es', written f' nb n es' /\ clean p es' /\
    lists warn (fun i => 0 <= i < nb /\ ~ rowsp p n m (fmat es) (fmat esb i)) /\
    forall i, 0 <= i < nb -> rowsp p n m (fmat es) (fmat esb i) -> forall j, 0 <= j < m -> cong p (sum 0 n (fun k => fmat es' i k * fmat es k j)) (fmat esb i j))
    (nan_err o n m).
Proof. exact (tool_solve_calm gs g g' X fuel o ch w f n m es fb nb esb p). Qed.
Print Assumptions C79_solve_partial.
Theorem C79_echelonize_partial gs g X fuel o ch scr use_rref f n m es p : ok_modulus p -> prime p -> matrix_file f n m es -> calm p n es ->
  params_ok X p m -> good_opts X o -> (forall k t, 0 <= k -> scr_ok k (scr k t)) ->
  (use_rref = true -> forall r, 0 <= r <= Z.min n m -> r * (m - r + 1) < 2 ^ 31) ->
  outs (tool_echelonize gs g X fuel o ch scr use_rref f p) (fun f' => exists r es', written f' r m es' /\ (use_rref = true -> clean p es') /\
    (exists piv, if use_rref then reduced_rows p m r (fmat es') piv else echelon_rows p m r (fmat es') piv) /\
    (forall k, 0 <= k < r -> rowsp p n m (fmat es) (fmat es' k)) /\
    (full X o -> frank p n m (fmat es) r /\ forall i, 0 <= i < n -> rowsp p r m (fmat es') (fmat es i))) (failures o n m).
Proof. exact (tool_echelonize_calm gs g X fuel o ch scr use_rref f n m es p). Qed.
Print Assumptions C79_echelonize_partial.
Theorem C79_dm_partial gs g gd f n m es : matrix_file f n m es -> calm 42013 n es ->
  let R := fun i j => ~ cong 42013 (fmat es i j) 0 in
  exists k hn hm s vn vm bs, srank n m R k /\ many hn (hrow n m R) /\ many hm (hcol n m R) /\ many s (sqrow n m R) /\ many s (sqcol n m R) /\
    many vn (vrow n m R) /\ many vm (vcol n m R) /\ blocks_of n m R bs /\
    if hn + s + m <? 2 ^ 31 then exists f', tool_dm_report gs g gd f = Ok f' /\ renders (report k hn hm s (map len bs) vn vm) f'
    else tool_dm_report gs g gd f = Fail Overflow.
Proof. exact (tool_dm_report_calm gs g gd f n m es). Qed.
Print Assumptions C79_dm_partial.
Theorem C79_transpose_partial gs g f n m es : matrix_file f n m es -> calm 42013 n es -> len es < 2 ^ 54 ->
  sat (tool_transpose gs g f) (fun f' => exists es', matrix_file f' m n es' /\ clean 42013 es' /\
    forall i j, 1 <= i <= n -> 1 <= j <= m -> cong 42013 (fentry es' j i) (fentry es i j)).
Proof. exact (tool_transpose_calm gs g f n m es). Qed.
Print Assumptions C79_transpose_partial.
(* whatever the entries, the rows of the matrix in memory are right up to the first one with a cancellation, included *)
Theorem C79_loaded gs g f n m es p hash : ok_modulus p -> matrix_file f n m es -> (forall md, hash = Some md -> len md = 32) ->
  sat (load_csr gs g f p hash) (fun '(A, h) => h = option_map (fun _ => sha256 f) hash /\ wf A /\ cn A = n /\ cm A = m /\ cprime A = p /\ no_zero A /\ nnz A <= len es /\
    forall r, calm p r es -> forall i j, 1 <= i <= Z.min r n -> 1 <= j <= m -> cong p (entry A (i - 1) (j - 1)) (fentry es i j)).
Proof. exact (load_upto gs g f n m es p hash). Qed.
Print Assumptions C79_loaded.
(* the last row is (1 - 1, 0, 3) *)
Definition cl_text : list Z := file_of 3 3 [(2, 0, 1); (0, 1, 1); (2, 0, -1); (2, 2, 3)].
Definition cl_es : list (Z * Z * Z) := [(3, 1, 1); (1, 2, 1); (3, 1, -1); (3, 3, 3)].
Lemma cl_calm p : 2 <= p -> calm p 3 cl_es.
Proof. intros Hp i j x [H|[H|[H|[H|[]]]]] L N; injection H as <- <- <-; try lia. exact N. Qed.
Example C79_example : matrix_file cl_text 3 3 cl_es /\ calm 7 3 cl_es /\ calm 42013 3 cl_es /\ ~ no_cancel 7 cl_es /\ turned true 3 3 = false /\ params_ok te_X 7 3 /\ good_opts te_X te_o /\ full te_X te_o /\ finishes te_X te_o /\
  tool_rank (fun _ => 5) te_g te_X 9 te_o (fun _ => te_g) 20 true false cl_text 7 = Ok (2, None) /\
  match tool_rank (fun _ => 5) te_g te_X 9 te_o (fun _ => te_g) 20 true true cl_text 7 with Ok (2, Some (_, true)) => True | _ => False end /\
  tool_kernel (fun _ => 5) te_g te_X 9 te_o (fun _ => 0) te_scr false cl_text 7 = Ok (file_of 1 3 [(0, 0, -1)]) /\
  tool_echelonize (fun _ => 5) te_g te_X 9 te_o (fun _ => 0) te_scr true cl_text 7 = Ok (file_of 2 3 [(0, 1, 1); (1, 2, 1)]) /\
  tool_solve (fun _ => 5) te_g te_g te_X 9 te_o (fun _ => 0) te_g cl_text cl_text 7 = Ok (file_of 3 3 [(0, 0, 1); (2, 2, 1)], []) /\
  tool_dm_report (fun _ => 5) te_g te_g cl_text = Ok (chars "structural rank = 2" ++ [NL] ++ chars "*) S (2 x 2) : " ++ [NL] ++ chars "    -> plus 2 SCC of size 1" ++ [NL]) /\
  tool_transpose (fun _ => 5) te_g cl_text = Ok (file_of 3 3 [(1, 0, 1); (2, 2, 3)]).
Proof.
  split; [apply (file_of_matrix 3 3 [(2, 0, 1); (0, 1, 1); (2, 0, -1); (2, 2, 3)]); [lia|lia|repeat constructor; unfold writable, int64; lia|reflexivity]|].
  split; [apply cl_calm; lia|]. split; [apply cl_calm; lia|]. split.
  { intros H. apply (H 3 1 1); [now left|intros (k & Hk); lia|]. exists 0. reflexivity. }
  split; [reflexivity|]. split; [apply te_X_ok|]. split; [exact te_good|]. split; [exact te_full|]. split; [exact te_finishes|]. split; [vm_compute; reflexivity|]. split; [vm_compute; exact I|]. repeat split; vm_compute; reflexivity.
Qed.

(** ** Wrong answers *)
(* 3 x 3; the only row that is not empty is (1 - 1, 1, 1), and the last entry of this row is read again as the first one of
   the second row *)
Definition cc_text : list Z := file_of 3 3 [(0, 0, 1); (0, 0, -1); (0, 1, 1); (0, 2, 1)].
Definition cc_es : list (Z * Z * Z) := [(1, 1, 1); (1, 1, -1); (1, 2, 1); (1, 3, 1)].
Lemma cc_ok : matrix_file cc_text 3 3 cc_es.
Proof. apply (file_of_matrix 3 3 [(0, 0, 1); (0, 0, -1); (0, 1, 1); (0, 2, 1)]); [lia|lia|repeat constructor; unfold writable, int64; lia|reflexivity]. Qed.
Lemma cc_row i j : fmat cc_es i j = if i =? 0 then fmat cc_es 0 j else 0.
Proof. unfold fmat. cbn [cc_es fentry lsum fold_right]. replace (1 =? i + 1) with (i =? 0) by lia. destruct (i =? 0); reflexivity. Qed.
Lemma cc_rank : frank 7 3 3 (fmat cc_es) 1.
Proof.
  apply (frank_1 7 3 3 (fmat cc_es) 0 1 (fun i => if i =? 0 then 1 else 0)); try lia; [reflexivity|].
  intros i j Hi Hj. rewrite cc_row. destruct (i =? 0); lia.
Qed.
(* in the row space, the second and third coordinates are equal *)
Lemma cc_equal v : rowsp 7 3 3 (fmat cc_es) v -> cong 7 (v 1) (v 2).
Proof. intros (x & Hx). pose proof (Hx 1 ltac:(lia)) as H1. pose proof (Hx 2 ltac:(lia)) as H2. apply (cong_trans 7 (v 1) (sum 0 3 (fun i => x i * fmat cc_es i 1)) (v 2)); [now apply cong_sym|exact H2]. Qed.
Theorem C79_rank_refuted : exists gs g X fuel o gc fc f n m es, matrix_file f n m es /\ m <= n /\ params_ok X 7 m /\ good_opts X o /\ full X o /\ frank 7 n m (fmat es) 1 /\
  tool_rank gs g X fuel o gc fc true false f 7 = Ok (2, None).
Proof.
  exists (fun _ => 5), te_g, te_X, 9%nat, te_o, (fun _ => te_g), 20%nat, cc_text, 3, 3, cc_es. split; [exact cc_ok|]. split; [lia|]. split; [apply te_X_ok|]. split; [exact te_good|]. split; [exact te_full|]. split; [exact cc_rank|]. vm_compute. reflexivity.
Qed.
Print Assumptions C79_rank_refuted.
(* the wrong rank comes with a certificate that is found correct *)
Theorem C79_certificate_refuted : exists gs g X fuel o gc fc f n m es proof, matrix_file f n m es /\ m <= n /\ params_ok X 7 m /\ good_opts X (with_L o) /\ finishes X o /\ frank 7 n m (fmat es) 1 /\
  tool_rank gs g X fuel o gc fc true true f 7 = Ok (2, Some (proof, true)) /\ c_r proof = 2 /\ c_hash proof = sha256 f.
Proof.
  exists (fun _ => 5), te_g, te_X, 9%nat, te_o, (fun _ => te_g), 20%nat, cc_text, 3, 3, cc_es. eexists. split; [exact cc_ok|]. split; [lia|]. split; [apply te_X_ok|]. split; [exact te_good|]. split; [exact te_finishes|]. split; [exact cc_rank|].
  split; [vm_compute; reflexivity|]. split; vm_compute; reflexivity.
Qed.
Print Assumptions C79_certificate_refuted.
(* a vector of the kernel is missed *)
Theorem C79_kernel_refuted : exists gs g X fuel o ch scr f n m es f' k es' v, matrix_file f n m es /\ params_ok X 7 m /\ good_opts X o /\ full X o /\ (forall k t, 0 <= k -> scr_ok k (scr k t)) /\
  tool_kernel gs g X fuel o ch scr false f 7 = Ok f' /\ matrix_file f' k m es' /\ (forall i, 0 <= i < n -> cong 7 (sum 0 m (fun j => fmat es i j * v j)) 0) /\ ~ rowsp 7 k m (fmat es') v.
Proof.
  exists (fun _ => 5), te_g, te_X, 9%nat, te_o, (fun _ => 0), te_scr, cc_text, 3, 3, cc_es, (file_of 1 3 [(0, 0, -1)]), 1, [(1, 1, -1)], (fun j => if j =? 0 then 0 else if j =? 1 then 1 else -1).
  split; [exact cc_ok|]. split; [apply te_X_ok|]. split; [exact te_good|]. split; [exact te_full|]. split; [exact te_scr_ok|]. split; [vm_compute; reflexivity|].
  split; [apply (file_of_matrix 1 3 [(0, 0, -1)]); [lia|lia|repeat constructor; unfold writable, int64; lia|reflexivity]|]. split.
  - intros i Hi. rewrite (sum_ext 0 3 _ (fun j => (if i =? 0 then 1 else 0) * (fmat cc_es 0 j * (if j =? 0 then 0 else if j =? 1 then 1 else -1)))) by (intros j _; rewrite cc_row; destruct (i =? 0); lia).
    rewrite sum_scale. replace (sum 0 3 _) with 0 by reflexivity. apply cong_eq. lia.
  - intros (x & Hx). specialize (Hx 1 ltac:(lia)). change (cong 7 (x 0 * 0 + 0) 1) in Hx. destruct Hx as (q & Hq). lia.
Qed.
Print Assumptions C79_kernel_refuted.
(* a row is written that is not in the row space *)
Theorem C79_echelonize_refuted : exists gs g X fuel o ch scr f n m es f' r es', matrix_file f n m es /\ params_ok X 7 m /\ good_opts X o /\ full X o /\ (forall k t, 0 <= k -> scr_ok k (scr k t)) /\
  tool_echelonize gs g X fuel o ch scr true f 7 = Ok f' /\ matrix_file f' r m es' /\ 1 < r /\ ~ rowsp 7 n m (fmat es) (fmat es' 1).
Proof.
  exists (fun _ => 5), te_g, te_X, 9%nat, te_o, (fun _ => 0), te_scr, cc_text, 3, 3, cc_es, (file_of 2 3 [(0, 1, 1); (1, 2, 1)]), 2, [(1, 2, 1); (2, 3, 1)].
  split; [exact cc_ok|]. split; [apply te_X_ok|]. split; [exact te_good|]. split; [exact te_full|]. split; [exact te_scr_ok|]. split; [vm_compute; reflexivity|].
  split; [apply (file_of_matrix 2 3 [(0, 1, 1); (1, 2, 1)]); [lia|lia|repeat constructor; unfold writable, int64; lia|reflexivity]|]. split; [lia|].
  intros H. apply cc_equal in H. destruct H as (q & Hq). cbn in Hq. lia.
Qed.
Print Assumptions C79_echelonize_refuted.
(* a solution is written, without warning, for a right-hand side that has none *)
Theorem C79_solve_refuted : exists gs g X fuel o ch w f n m es fb esb f', matrix_file f n m es /\ matrix_file fb 1 m esb /\ no_cancel 7 esb /\ params_ok X 7 m /\ good_opts X (with_L o) /\ finishes X o /\
  ~ rowsp 7 n m (fmat es) (fmat esb 0) /\ tool_solve gs g g X fuel o ch w f fb 7 = Ok (f', []).
Proof.
  exists (fun _ => 5), te_g, te_X, 9%nat, te_o, (fun _ => 0), te_g, cc_text, 3, 3, cc_es, (file_of 1 3 [(0, 2, 1)]), [(1, 3, 1)], (file_of 1 3 [(0, 1, 1)]).
  split; [exact cc_ok|]. split; [apply (file_of_matrix 1 3 [(0, 2, 1)]); [lia|lia|repeat constructor; unfold writable, int64; lia|reflexivity]|]. split; [apply no_cancelb_ok; [lia|reflexivity]|].
  split; [apply te_X_ok|]. split; [exact te_good|]. split; [exact te_finishes|]. split; [|vm_compute; reflexivity]. intros H. apply cc_equal in H. destruct H as (q & Hq). cbn in Hq. lia.
Qed.
Print Assumptions C79_solve_refuted.
(* transpose *)
Theorem C79_transpose_refuted : exists gs g f n m es f' es' i j, matrix_file f n m es /\ tool_transpose gs g f = Ok f' /\ matrix_file f' m n es' /\ 1 <= i <= n /\ 1 <= j <= m /\ ~ cong 42013 (fentry es' j i) (fentry es i j).
Proof.
  exists (fun _ => 5), te_g, cc_text, 3, 3, cc_es, (file_of 3 3 [(1, 0, 1); (2, 0, 1); (2, 1, 1)]), [(2, 1, 1); (3, 1, 1); (3, 2, 1)], 2, 3. split; [exact cc_ok|]. split; [vm_compute; reflexivity|].
  split; [apply (file_of_matrix 3 3 [(1, 0, 1); (2, 0, 1); (2, 1, 1)]); [lia|lia|repeat constructor; unfold writable, int64; lia|reflexivity]|]. split; [lia|]. split; [lia|]. intros (q & Hq). cbn in Hq. lia.
Qed.
Print Assumptions C79_transpose_refuted.
(* dm: the structural rank *)
Theorem C79_dm_refuted : exists gs g gd f n m es f', matrix_file f n m es /\ srank n m (fun i j => ~ cong 42013 (fmat es i j) 0) 1 /\ tool_dm_report gs g gd f = Ok (chars "structural rank = 2" ++ NL :: f').
Proof.
  exists (fun _ => 5), te_g, te_g, cc_text, 3, 3, cc_es. eexists. split; [exact cc_ok|]. split; [|vm_compute; reflexivity]. split.
  - exists [(0, 1)]. split; [|reflexivity]. split; [repeat constructor; intros []|]. split; [repeat constructor; intros []|]. repeat constructor; try lia. intros (q & Hq). cbn in Hq. lia.
  - intros l (N & _ & H). apply (one_row l); auto. eapply Forall_impl; [|exact H]. intros [i j] (_ & _ & R). cbn [fst]. destruct (Z.eq_dec i 0) as [|D]; [auto|]. exfalso. apply R. rewrite cc_row. replace (i =? 0) with false by lia. apply cong_refl.
Qed.
Print Assumptions C79_dm_refuted.
