(** C80: the tools that echelonize a matrix, on any sequence of bytes. *)
From Coq Require Import String Znumtheory.
From Verif Require Import Base BaseFacts Spec SpecText SpecAccept SpecHeader SpecTools SpecAny SpecAnyElim Checks TextChecks Zp Mat SpecSha SpecRank Stdio IO IOSave IOCut Par Schur Dense DenseProofs4 Echelonize EchProofs EchProofs2 EchExamples Rref Cert CertIO Gesv
  Header Tools ToolsProofs ToolsElim ToolsElimProofs ShaHash AnyInput AnyProofs AnyElim AnyElimProofs PropToolsElim.
Local Open Scope string_scope.
Local Open Scope list_scope.
Local Open Scope Z_scope.

(** ** C80 *)
(* Full statement: without the exception [minus_one] (false, C80_rank_refuted) and without [quiet] (false, see C79) *)
Theorem C80_rank_partial gs g most X fuel o gc fc tr f p : bytes f -> len f < 2 ^ 60 -> ~ In 0 f -> (forall nnz, announces f nnz -> - 2 ^ 61 <= nnz < 2 ^ 61) -> 0 <= most < 2 ^ 61 ->
  ok_modulus p -> prime p -> quiet p f -> (forall m, 0 <= m -> params_ok (X m) p m /\ good_opts (X m) o) ->
  outs (ntool_rank gs g most X fuel o gc fc tr false f p) (fun '(r, c) => c = None /\ exists n m es, like_matrix f n m es /\ 0 <= rows p n es /\ 0 <= cols p m es /\
      (forall r', frank p (rows p n es) (cols p m es) (fmat es) r' -> r <= r') /\ ((forall m, 0 <= m -> full (X m) o) -> frank p (rows p n es) (cols p m es) (fmat es) r))
    (fun e => (e = AssertFailed \/ e = Overflow) \/ e = OOB /\ minus_one (turned tr) f p \/ e = OutOfFuel /\ low_rank o = true).
Proof. intros B L N A M. exact (rank_any gs g most f B L N A M X fuel o gc fc tr p). Qed.
Print Assumptions C80_rank_partial.
Theorem C80_certificate_partial gs g most X fuel o gc fc tr f p : bytes f -> len f < 2 ^ 60 -> ~ In 0 f -> (forall nnz, announces f nnz -> - 2 ^ 61 <= nnz < 2 ^ 61) -> 0 <= most < 2 ^ 61 ->
  ok_modulus p -> prime p -> quiet p f -> (forall m, 0 <= m -> params_ok (X m) p m /\ good_opts (X m) (with_L o) /\ finishes (X m) o) ->
  outs (ntool_rank gs g most X fuel o gc fc tr true f p) (fun '(r, c) => exists n m es A proof, like_matrix f n m es /\ 0 <= rows p n es /\ 0 <= cols p m es /\ frank p (rows p n es) (cols p m es) (fmat es) r /\
      c = Some (proof, true) /\ c_r proof = r /\ c_hash proof = sha256 f /\
      (if turned tr (rows p n es) (cols p m es) then holds p (cols p m es) (rows p n es) (swapped es) A else holds p (rows p n es) (cols p m es) es A) /\
      forall gs', rank_verify gs' fc A (sha256 f) proof = Ok true)
    (fun e => (e = AssertFailed \/ e = Overflow) \/ e = OOB /\ minus_one (turned tr) f p \/ e = OutOfFuel).
Proof. intros B L N A M. exact (certificate_any gs g most f B L N A M X fuel o gc fc tr p). Qed.
Print Assumptions C80_certificate_partial.
Theorem C80_kernel_partial gs g most X fuel o ch scr (left : bool) f p : bytes f -> len f < 2 ^ 60 -> ~ In 0 f -> (forall nnz, announces f nnz -> - 2 ^ 61 <= nnz < 2 ^ 61) -> 0 <= most < 2 ^ 61 ->
  ok_modulus p -> prime p -> quiet p f -> (forall m, 0 <= m -> params_ok (X m) p m /\ good_opts (X m) o /\ full (X m) o) -> (forall k t, 0 <= k -> scr_ok k (scr k t)) ->
  outs (ntool_kernel gs g most X fuel o ch scr left f p) (fun f' => exists n m es, like_matrix f n m es /\ 0 <= rows p n es /\ 0 <= cols p m es /\
      let N := if left then cols p m es else rows p n es in let M := if left then rows p n es else cols p m es in
      exists k es', written f' k M es' /\ (3 <= p -> clean p es') /\ frank p N M (flipped left (fmat es)) (M - k) /\ nullbasis p N M (flipped left (fmat es)) k (fmat es'))
    (fun e => (e = AssertFailed \/ e = Overflow) \/ e = OOB /\ minus_one (fun _ _ => left) f p).
Proof. intros B L N A M. exact (kernel_any gs g most f B L N A M X fuel o ch scr left p). Qed.
Print Assumptions C80_kernel_partial.
Theorem C80_echelonize_partial gs g most X fuel o ch scr (use_rref : bool) f p : bytes f -> len f < 2 ^ 60 -> ~ In 0 f -> (forall nnz, announces f nnz -> - 2 ^ 61 <= nnz < 2 ^ 61) -> 0 <= most < 2 ^ 61 ->
  ok_modulus p -> prime p -> quiet p f -> (forall m, 0 <= m -> params_ok (X m) p m /\ good_opts (X m) o) -> (forall k t, 0 <= k -> scr_ok k (scr k t)) ->
  (use_rref = true -> forall n m es, like_matrix f n m es -> forall r, 0 <= r <= Z.min (rows p n es) (cols p m es) -> r * (cols p m es - r + 1) < 2 ^ 31) ->
  outs (ntool_echelonize gs g most X fuel o ch scr use_rref f p) (fun f' => exists n m es, like_matrix f n m es /\ 0 <= rows p n es /\ 0 <= cols p m es /\
      let N := rows p n es in let M := cols p m es in
      exists r es', written f' r M es' /\ (use_rref = true -> clean p es') /\
        (exists piv, if use_rref then reduced_rows p M r (fmat es') piv else echelon_rows p M r (fmat es') piv) /\
        (forall k, 0 <= k < r -> rowsp p N M (fmat es) (fmat es' k)) /\
        ((forall m, 0 <= m -> full (X m) o) -> frank p N M (fmat es) r /\ forall i, 0 <= i < N -> rowsp p r M (fmat es') (fmat es i)))
    (fun e => (e = AssertFailed \/ e = Overflow) \/ e = OOB /\ minus_one (fun _ _ => false) f p \/ e = OutOfFuel /\ low_rank o = true).
Proof. intros B L N A M. exact (echelonize_any gs g most f B L N A M X fuel o ch scr use_rref p). Qed.
Print Assumptions C80_echelonize_partial.
(* the dimensions and the entries are determined by the file *)
Theorem C80_unique f n m es n' m' es' : like_matrix f n m es -> like_matrix f n' m' es' -> n = n' /\ m = m' /\ es = es'.
Proof. exact (like_matrix_det f n m es n' m' es'). Qed.
Print Assumptions C80_unique.

Definition ex_line (s : string) : list Z := chars s ++ [NL].
(* no column and -1 rows: 14 bytes are enough.  The matrix is not transposed, because -1 < -1 is false *)
Theorem C80_rank_refuted : exists f, bytes f /\ ~ In 0 f /\ len f = 14 /\ forall X fuel o gc fc certificate, ntool_rank (fun _ => 5) te_g (2 ^ 30) X fuel o gc fc true certificate f 7 = Fail OOB.
Proof.
  exists (ex_line "-1 -1 M" ++ ex_line "0 0 0"). split; [apply bytesb_ok; vm_compute; reflexivity|]. split; [apply nonulb_ok; vm_compute; reflexivity|]. split; [vm_compute; reflexivity|].
  intros. unfold ntool_rank. assert (E : nload_matrix (fun _ => 5) te_g (2 ^ 30) (fun n m => true && (n <? m)) (ex_line "-1 -1 M" ++ ex_line "0 0 0") 7 (Some (malloc (te_g 2 0) 32)) = Fail OOB) by (vm_compute; reflexivity). rewrite E. reflexivity.
Qed.
Print Assumptions C80_rank_refuted.
(* -1 columns, and kernel --left *)
Theorem C80_kernel_refuted : exists f, bytes f /\ ~ In 0 f /\ len f = 13 /\ forall X fuel o ch scr, ntool_kernel (fun _ => 5) te_g (2 ^ 30) X fuel o ch scr true f 7 = Fail OOB.
Proof.
  exists (ex_line "2 -1 M" ++ ex_line "0 0 0"). split; [apply bytesb_ok; vm_compute; reflexivity|]. split; [apply nonulb_ok; vm_compute; reflexivity|]. split; [vm_compute; reflexivity|].
  intros. unfold ntool_kernel. assert (E : nload_matrix (fun _ => 5) te_g (2 ^ 30) (fun _ _ => true) (ex_line "2 -1 M" ++ ex_line "0 0 0") 7 None = Fail OOB) by (vm_compute; reflexivity). rewrite E. reflexivity.
Qed.
Print Assumptions C80_kernel_refuted.

(* announced as 1 x 1, with an entry at (2, 3): a 2 x 3 matrix *)
Definition odd_text : list Z := ex_line "1 1Matrix" ++ ex_line "2+3 5.7" ++ ex_line "0-0 0" ++ chars "end".
Definition odd_X (m : Z) : params := run 7 m 1 (fun k i => 3 * k + i) (fun i => i) (fun r => r) 50 false.
Ltac begin1 w s := exists (chars w), (chars s); split; [reflexivity|]; split; [apply spacesb_ok; reflexivity|]; split; [apply numeralb_ok; vm_compute; reflexivity|]; cbn; unfold is_digit, NL; lia.
Lemma odd_like : like_matrix odd_text 1 1 [(2, 3, 5)].
Proof.
  left. exists (ex_line "1 1Matrix"), [ex_line "2+3 5.7"], (ex_line "0-0 0"), [chars "end"]. split; [reflexivity|]. split; [apply linesb_ok; vm_compute; reflexivity|].
  split. { exists (ex_line " 1Matrix"), (ex_line "Matrix"), [], (ex_line "atrix"). split; [begin1 "" "1"|]. split; [begin1 " " "1"|]. split; [reflexivity|]. split; [constructor|]. unfold is_space. lia. }
  do 2 (split; [unfold int32; lia|]). split.
  - constructor; [|constructor]. split; [|unfold int64; lia]. exists (ex_line "+3 5.7"), (ex_line " 5.7"), (ex_line ".7"). split; [begin1 "" "2"|]. split; [begin1 "" "+3"|begin1 " " "5"].
  - exists (ex_line "-0 0"), (ex_line " 0"), (ex_line ""). split; [begin1 "" "0"|]. split; [begin1 "" "-0"|begin1 " " "0"].
Qed.
Example C80_example : bytes odd_text /\ ~ In 0 odd_text /\ (forall nnz, announces odd_text nnz -> - 2 ^ 61 <= nnz < 2 ^ 61) /\ quiet 7 odd_text /\ like_matrix odd_text 1 1 [(2, 3, 5)] /\ rows 7 1 [(2, 3, 5)] = 2 /\ cols 7 1 [(2, 3, 5)] = 3 /\
  (forall m, 0 <= m -> params_ok (odd_X m) 7 m /\ good_opts (odd_X m) te_o /\ good_opts (odd_X m) (with_L te_o) /\ full (odd_X m) te_o /\ finishes (odd_X m) te_o) /\
  ntool_rank (fun _ => 5) te_g (2 ^ 30) odd_X 9 te_o (fun _ => te_g) 20 true false odd_text 7 = Ok (1, None) /\
  match ntool_rank (fun _ => 5) te_g (2 ^ 30) odd_X 9 te_o (fun _ => te_g) 20 true true odd_text 7 with Ok (1, Some (_, true)) => True | _ => False end /\
  ntool_kernel (fun _ => 5) te_g (2 ^ 30) odd_X 9 te_o (fun _ => 0) te_scr false odd_text 7 = Ok (file_of 2 3 [(0, 0, -1); (1, 1, -1)]) /\
  ntool_kernel (fun _ => 5) te_g (2 ^ 30) odd_X 9 te_o (fun _ => 0) te_scr true odd_text 7 = Ok (file_of 1 2 [(0, 0, -1)]) /\
  ntool_echelonize (fun _ => 5) te_g (2 ^ 30) odd_X 9 te_o (fun _ => 0) te_scr true odd_text 7 = Ok (file_of 1 3 [(0, 2, 1)]) /\
  minus_one (fun _ _ => true) (ex_line "2 -1 M" ++ ex_line "0 0 0") 7.
Proof.
  split; [apply bytesb_ok; vm_compute; reflexivity|]. split; [apply nonulb_ok; vm_compute; reflexivity|]. split; [intros nnz A; apply announces_first in A; discriminate A|]. split.
  { intros n m es H. destruct (like_matrix_det _ _ _ _ _ _ _ H odd_like) as (-> & -> & ->). intros i j x [E|[]] _ (k & Hk). injection E as <- <- <-. unfold fentry in Hk. cbn in Hk. lia. }
  split; [exact odd_like|]. split; [reflexivity|]. split; [reflexivity|]. split.
  { intros m Hm. split; [apply run_ok; [unfold ok_modulus; lia|now apply primeb_ok|auto]|]. split; [exact te_good|]. split; [exact te_good|]. split; [exact te_full|exact te_finishes]. }
  split; [vm_compute; reflexivity|]. split; [vm_compute; exact I|]. do 3 (split; [vm_compute; reflexivity|]).
  exists 2, (-1), []. split; [|split; reflexivity]. left. exists (ex_line "2 -1 M"), [], (ex_line "0 0 0"), []. split; [reflexivity|]. split; [apply linesb_ok; vm_compute; reflexivity|].
  split. { exists (ex_line " -1 M"), (ex_line " M"), (chars " "), (ex_line ""). split; [begin1 "" "2"|]. split; [begin1 " " "-1"|]. split; [reflexivity|]. split; [apply spacesb_ok; reflexivity|]. unfold is_space. lia. }
  do 2 (split; [unfold int32; lia|]). split; [constructor|]. exists (ex_line " 0 0"), (ex_line " 0"), (ex_line ""). split; [begin1 "" "0"|]. split; [begin1 " " "0"|begin1 " " "0"].
Qed.
