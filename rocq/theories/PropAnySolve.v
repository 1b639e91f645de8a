(** C81: the tools solve and dm, on any sequence of bytes. *)
From Coq Require Import String Znumtheory.
From Verif Require Import Base BaseFacts Spec SpecText SpecAccept SpecHeader SpecTools SpecAny SpecAnyElim Checks TextChecks Zp Mat SpecSha SpecRank Stdio IO IOSave IOCut Par Schur Dense DenseProofs4 Echelonize EchProofs EchProofs2 EchExamples Rref Cert CertIO Gesv
  SpecMatch SpecDm SpecScc SpecParts SpecReport Header Tools ToolsProofs ToolsElim ToolsElimProofs DmTool ShaHash AnyInput AnyProofs AnyElim AnyElimProofs AnySolve AnySolveProofs PropToolsElim PropAnyElim.
Local Open Scope string_scope.
Local Open Scope list_scope.
Local Open Scope Z_scope.

(** ** C81 *)
(* Full statement: without the exception [minus_one] (false, C81_dm_refuted), without [quiet] (false, see C79) *)
Theorem C81_dm_partial gs g most gd f : bytes f -> len f < 2 ^ 60 -> ~ In 0 f -> (forall nnz, announces f nnz -> - 2 ^ 61 <= nnz < 2 ^ 61) -> 0 <= most < 2 ^ 61 ->
  quiet 42013 f ->
  outs (ntool_dm gs g most gd f) (fun f' => exists n m es, like_matrix f n m es /\ 0 <= rows 42013 n es /\ 0 <= cols 42013 m es /\
      let N := rows 42013 n es in let M := cols 42013 m es in let R := fun i j => ~ cong 42013 (fmat es i j) 0 in
      exists P Q es' hn hm s, is_perm N P /\ is_perm M Q /\ written f' N M es' /\ clean 42013 es' /\
        (forall i j, 0 <= i < N -> 0 <= j < M -> cong 42013 (fmat es' i j) (fmat es (get P i) (get Q j))) /\
        (forall a, 0 <= a < N -> (a < hn <-> hrow N M R (get P a)) /\ (hn + s <= a <-> vrow N M R (get P a))) /\
        (forall b, 0 <= b < M -> (b < hm <-> hcol N M R (get Q b)) /\ (hm + s <= b <-> vcol N M R (get Q b))) /\
        (forall x, 0 <= x < s -> ~ cong 42013 (fmat es' (hn + x) (hm + x)) 0))
    (fun e => (e = AssertFailed \/ e = Overflow) \/ e = OOB /\ minus_one (fun _ _ => false) f 42013).
Proof. intros B L N A M. exact (dm_any gs g most f B L N A M gd). Qed.
Print Assumptions C81_dm_partial.
Theorem C81_report_partial gs g most gd f : bytes f -> len f < 2 ^ 60 -> ~ In 0 f -> (forall nnz, announces f nnz -> - 2 ^ 61 <= nnz < 2 ^ 61) -> 0 <= most < 2 ^ 61 ->
  quiet 42013 f ->
  outs (ntool_dm_report gs g most gd f) (fun f' => exists n m es, like_matrix f n m es /\ 0 <= rows 42013 n es /\ 0 <= cols 42013 m es /\
      let N := rows 42013 n es in let M := cols 42013 m es in let R := fun i j => ~ cong 42013 (fmat es i j) 0 in
      exists k hn hm s vn vm bs, srank N M R k /\ many hn (hrow N M R) /\ many hm (hcol N M R) /\ many s (sqrow N M R) /\ many s (sqcol N M R) /\
        many vn (vrow N M R) /\ many vm (vcol N M R) /\ blocks_of N M R bs /\ renders (report k hn hm s (map len bs) vn vm) f')
    (fun e => (e = AssertFailed \/ e = Overflow) \/ e = OOB /\ minus_one (fun _ _ => false) f 42013).
Proof. intros B L N A M. exact (dm_report_any gs g most f B L N A M gd). Qed.
Print Assumptions C81_report_partial.
(* Full statement: moreover, without the exception on the number of columns, which are all taken into account
   (false, C81_narrow_refuted and C60_wide_refuted) *)
Theorem C81_solve_partial gs g g' most X fuel o ch w f fb p : bytes f -> len f < 2 ^ 60 -> ~ In 0 f -> (forall nnz, announces f nnz -> - 2 ^ 61 <= nnz < 2 ^ 61) -> 0 <= most < 2 ^ 61 ->
  bytes fb -> len fb < 2 ^ 60 -> ~ In 0 fb -> (forall nnz, announces fb nnz -> - 2 ^ 61 <= nnz < 2 ^ 61) -> ok_modulus p -> prime p -> quiet p f -> quiet p fb ->
  (forall m, 0 <= m -> params_ok (X m) p m /\ good_opts (X m) (with_L o) /\ finishes (X m) o) ->
  outs (ntool_solve gs g g' most X fuel o ch w f fb p) (fun '(f', warn) => exists n m es nb mb esb, like_matrix f n m es /\ like_matrix fb nb mb esb /\
      let N := rows p n es in let M := cols p m es in let Nb := rows p nb esb in
      0 <= N /\ 0 <= M /\ 0 <= Nb /\ (M <= cols p mb esb \/ Nb = 0) /\
      exists es', written f' Nb N es' /\ clean p es' /\ lists warn (fun i => 0 <= i < Nb /\ ~ rowsp p N M (fmat es) (fmat esb i)) /\
        forall i, 0 <= i < Nb -> rowsp p N M (fmat es) (fmat esb i) -> forall j, 0 <= j < M -> cong p (sum 0 N (fun k => fmat es' i k * fmat es k j)) (fmat esb i j))
    (fun e => (e = AssertFailed \/ e = Overflow) \/ e = OOB /\ (minus_one (fun _ _ => false) f p \/ minus_one (fun _ _ => false) fb p \/
      exists n m es nb mb esb, like_matrix f n m es /\ like_matrix fb nb mb esb /\ cols p mb esb < cols p m es /\ 1 <= rows p nb esb)).
Proof. intros B L N A M. exact (solve_any gs g most f B L N A M g' X fuel o ch w fb p). Qed.
Print Assumptions C81_solve_partial.

(* -1 rows *)
Theorem C81_dm_refuted : exists f, bytes f /\ ~ In 0 f /\ len f = 13 /\ forall gd, ntool_dm (fun _ => 5) te_g (2 ^ 30) gd f = Fail OOB /\ ntool_dm_report (fun _ => 5) te_g (2 ^ 30) gd f = Fail OOB.
Proof.
  exists (ex_line "-1 2 M" ++ ex_line "0 0 0"). split; [apply bytesb_ok; vm_compute; reflexivity|]. split; [apply nonulb_ok; vm_compute; reflexivity|]. split; [vm_compute; reflexivity|].
  intros gd. unfold ntool_dm, ntool_dm_report, ndm_matrix. assert (E : nload_matrix (fun _ => 5) te_g (2 ^ 30) (fun _ _ => false) (ex_line "-1 2 M" ++ ex_line "0 0 0") 42013 None = Fail OOB) by (vm_compute; reflexivity). rewrite E. split; reflexivity.
Qed.
Print Assumptions C81_dm_refuted.
(* the right-hand side has 1 row and 2 columns, the matrix 3 columns *)
Definition rhs_narrow : list Z := ex_line "1 2M" ++ ex_line "1 1 4" ++ ex_line "0 0 0".
Theorem C81_narrow_refuted : exists f fb, bytes f /\ ~ In 0 f /\ bytes fb /\ ~ In 0 fb /\ ntool_solve (fun _ => 5) te_g te_g (2 ^ 30) odd_X 9 te_o (fun _ => 0) te_g f fb 7 = Fail OOB.
Proof.
  exists odd_text, rhs_narrow. split; [apply bytesb_ok; vm_compute; reflexivity|]. split; [apply nonulb_ok; vm_compute; reflexivity|]. split; [apply bytesb_ok; vm_compute; reflexivity|]. split; [apply nonulb_ok; vm_compute; reflexivity|].
  vm_compute. reflexivity.
Qed.
Print Assumptions C81_narrow_refuted.

(* announced as 1 x 2, with an entry at (1, 3) *)
Definition rhs_text : list Z := ex_line "1 2M" ++ ex_line "1 3 4" ++ ex_line "0 0 0".
Lemma rhs_like : like_matrix rhs_text 1 2 [(1, 3, 4)].
Proof.
  left. exists (ex_line "1 2M"), [ex_line "1 3 4"], (ex_line "0 0 0"), []. split; [reflexivity|]. split; [apply linesb_ok; vm_compute; reflexivity|].
  split. { exists (ex_line " 2M"), (ex_line "M"), [], (ex_line ""). split; [begin1 "" "1"|]. split; [begin1 " " "2"|]. split; [reflexivity|]. split; [constructor|]. unfold is_space. lia. }
  do 2 (split; [unfold int32; lia|]). split.
  - constructor; [|constructor]. split; [|unfold int64; lia]. exists (ex_line " 3 4"), (ex_line " 4"), (ex_line ""). split; [begin1 "" "1"|]. split; [begin1 " " "3"|begin1 " " "4"].
  - exists (ex_line " 0 0"), (ex_line " 0"), (ex_line ""). split; [begin1 "" "0"|]. split; [begin1 " " "0"|begin1 " " "0"].
Qed.
Example C81_example : bytes odd_text /\ ~ In 0 odd_text /\ (forall nnz, announces odd_text nnz -> - 2 ^ 61 <= nnz < 2 ^ 61) /\ quiet 7 odd_text /\ quiet 42013 odd_text /\ like_matrix odd_text 1 1 [(2, 3, 5)] /\
  bytes rhs_text /\ ~ In 0 rhs_text /\ (forall nnz, announces rhs_text nnz -> - 2 ^ 61 <= nnz < 2 ^ 61) /\ quiet 7 rhs_text /\ like_matrix rhs_text 1 2 [(1, 3, 4)] /\
  (forall m, 0 <= m -> params_ok (odd_X m) 7 m /\ good_opts (odd_X m) (with_L te_o) /\ finishes (odd_X m) te_o) /\
  ntool_solve (fun _ => 5) te_g te_g (2 ^ 30) odd_X 9 te_o (fun _ => 0) te_g odd_text rhs_text 7 = Ok (file_of 1 2 [(0, 1, -2)], []) /\
  ntool_dm (fun _ => 5) te_g (2 ^ 30) te_g odd_text = Ok (file_of 2 3 [(0, 2, 5)]) /\
  ntool_dm_report (fun _ => 5) te_g (2 ^ 30) te_g odd_text = Ok (ex_line "structural rank = 1" ++ ex_line "*) S (1 x 1) : " ++ ex_line "    -> plus 1 SCC of size 1").
Proof.
  assert (Q : forall p, p = 7 \/ p = 42013 -> quiet p odd_text).
  { intros p Hp n m es H. destruct (like_matrix_det _ _ _ _ _ _ _ H odd_like) as (-> & -> & ->). intros i j x [E|[]] _ (k & Hk). injection E as <- <- <-. unfold fentry in Hk. cbn in Hk. destruct Hp as [-> | ->]; lia. }
  split; [apply bytesb_ok; vm_compute; reflexivity|]. split; [apply nonulb_ok; vm_compute; reflexivity|]. split; [intros nnz A; apply announces_first in A; discriminate A|]. split; [apply Q; auto|]. split; [apply Q; auto|].
  split; [exact odd_like|]. split; [apply bytesb_ok; vm_compute; reflexivity|]. split; [apply nonulb_ok; vm_compute; reflexivity|]. split; [intros nnz A; apply announces_first in A; discriminate A|]. split.
  { intros n m es H. destruct (like_matrix_det _ _ _ _ _ _ _ H rhs_like) as (-> & -> & ->). intros i j x [E|[]] _ (k & Hk). injection E as <- <- <-. unfold fentry in Hk. cbn in Hk. lia. }
  split; [exact rhs_like|]. split.
  { intros m Hm. split; [apply run_ok; [unfold ok_modulus; lia|now apply primeb_ok|auto]|]. split; [exact te_good|exact te_finishes]. }
  split; [vm_compute; reflexivity|]. split; vm_compute; reflexivity.
Qed.
