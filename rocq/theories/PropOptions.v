(** C68: command lines of rank, kernel and solve, and default options. *)
From Coq Require Import String Znumtheory ZifyBool.
From Verif Require Import Base BaseFacts Spec SpecFacts SpecText SpecElim SpecRank SpecSha SpecCert SpecTools Zp Mat Reach Par Schur DenseProofs Dense DenseProofs4 Echelonize EchProofs EchProofs2 EchExamples Checks Stdio IO IOSave TextChecks Cert ToolsElim ToolsProofs ToolsElimProofs
  Options SpecOptions OptionsProofs OptTools PropToolsElim.
Local Open Scope string_scope.
Local Open Scope list_scope.
Local Open Scope Z_scope.

(** ** The options *)
(* every command line made of the documented options is accepted, and only those; each option has the documented effect,
   the last occurrence wins, and the others keep their default values *)
Theorem C68_rank_options cmd : numeric cmd -> match parse_rank cmd with
  | Ok (Some a) => Forall (proper ([o_notrans; o_cert] ++ common)) cmd /\ asked cmd a /\
      exists tr ce, a_own a = (tr, ce, last_arg o_output cmd) /\ (tr = false <-> given o_notrans cmd) /\ (ce = true <-> given o_cert cmd)
  | Ok None => ~ Forall (proper ([o_notrans; o_cert] ++ common)) cmd
  | Fail _ => False end.
Proof. exact (parse_rank_ok cmd). Qed.
Print Assumptions C68_rank_options.
Theorem C68_kernel_options cmd : numeric cmd -> match parse_kernel cmd with
  | Ok (Some a) => Forall (proper (o_left :: common)) cmd /\ asked cmd a /\ exists lf, a_own a = (lf, last_arg o_output cmd) /\ (lf = true <-> given o_left cmd)
  | Ok None => ~ Forall (proper (o_left :: common)) cmd
  | Fail _ => False end.
Proof. exact (parse_kernel_ok cmd). Qed.
Print Assumptions C68_kernel_options.
Theorem C68_solve_options cmd : numeric cmd -> match parse_solve cmd with
  | Ok (Some a) => Forall (proper (o_rhs :: common)) cmd /\ asked cmd a /\ a_own a = (last_arg o_rhs cmd, last_arg o_output cmd)
  | Ok None => ~ Forall (proper (o_rhs :: common)) cmd
  | Fail _ => False end.
Proof. exact (parse_solve_ok cmd). Qed.
Print Assumptions C68_solve_options.
(* a number that does not fit in an int is undefined behaviour *)
Theorem C68_numbers_refuted : exists cmd, Forall (proper ([o_notrans; o_cert] ++ common)) cmd /\ parse_rank cmd = Fail Overflow.
Proof.
  exists [Long "max-iterations" (Some (chars "2147483648"))]. split; [|reflexivity]. constructor; [|constructor]. exists o_iter. split; [cbn; tauto|]. split; [reflexivity|]. split; [intros _; eexists; reflexivity|reflexivity].
Qed.
Print Assumptions C68_numbers_refuted.

(** ** The programs *)
(* rank without --certificate: never above the rank; the rank, when the elimination is exhaustive *)
Theorem C68_rank fs stdin cmd p blk it gs g X fuel gc fc f n m es (tr : bool) : numeric cmd -> value o_modulus cmd 42013 p -> ok_modulus p -> prime p -> value o_block cmd 1000 blk -> 0 < blk -> value o_iter cmd 3 it ->
  Forall (proper ([o_notrans; o_cert] ++ common)) cmd -> ~ given o_cert cmd -> (tr = false <-> given o_notrans cmd) -> reads o_matrix fs stdin cmd f -> matrix_file f n m es -> no_cancel p es ->
  let N := if turned tr n m then m else n in let M := if turned tr n m then n else m in params_ok X p M ->
  outs (main_rank gs g X fuel gc fc fs stdin cmd) (fun x => exists r, x = Some (r, None, last_arg o_output cmd) /\ 0 <= r /\ (forall r', frank p n m (fmat es) r' -> r <= r') /\
      (given o_nolow cmd -> ~ given o_nodense cmd -> always_dense X -> frank p n m (fmat es) r))
    (fun e => ~ given o_nolow cmd /\ (e = OutOfFuel \/ e = Overflow) \/ e = Overflow /\ 0 < it /\ M < N).
Proof. intros H1 H2 H3 H4 H5 H6 H7. exact (main_rank_ok fs stdin cmd p blk it H1 H2 H3 H4 H5 H6 H7 gs g X fuel gc fc f n m es tr). Qed.
Print Assumptions C68_rank.
(* rank --certificate --no-dense-mode: the rank, and a certificate that is accepted *)
Theorem C68_certificate fs stdin cmd p blk it gs g X fuel gc fc f n m es (tr : bool) : numeric cmd -> value o_modulus cmd 42013 p -> ok_modulus p -> prime p -> value o_block cmd 1000 blk -> 0 < blk -> value o_iter cmd 3 it ->
  Forall (proper ([o_notrans; o_cert] ++ common)) cmd -> given o_cert cmd -> (tr = false <-> given o_notrans cmd) -> reads o_matrix fs stdin cmd f -> matrix_file f n m es -> no_cancel p es ->
  given o_nodense cmd -> ~ given o_noGPLU cmd ->
  let M := if turned tr n m then n else m in params_ok X p M ->
  outs (main_rank gs g X fuel gc fc fs stdin cmd) (fun x => exists r proof A, x = Some (r, Some (proof, true), last_arg o_output cmd) /\ frank p n m (fmat es) r /\
      c_r proof = r /\ c_hash proof = sha256 f /\ (if turned tr n m then holds p m n (swapped es) A else holds p n m es A) /\ forall gs', rank_verify gs' fc A (sha256 f) proof = Ok true)
    (fun e => e = OutOfFuel \/ e = Overflow).
Proof. intros H1 H2 H3 H4 H5 H6 H7. exact (main_rank_cert fs stdin cmd p blk it H1 H2 H3 H4 H5 H6 H7 gs g X fuel gc fc f n m es tr). Qed.
Print Assumptions C68_certificate.
(* kernel --no-low-rank-mode, with a threshold that makes the dense elimination process all the rows *)
Theorem C68_kernel fs stdin cmd p blk it gs g X fuel ch scr f n m es (lf : bool) : numeric cmd -> value o_modulus cmd 42013 p -> ok_modulus p -> prime p -> value o_block cmd 1000 blk -> 0 < blk -> value o_iter cmd 3 it ->
  Forall (proper (o_left :: common)) cmd -> (lf = true <-> given o_left cmd) ->
  reads o_matrix fs stdin cmd f -> matrix_file f n m es -> no_cancel p es -> given o_nolow cmd -> ~ given o_nodense cmd -> always_dense X ->
  let N := if lf then m else n in let M := if lf then n else m in params_ok X p M -> (forall k t, 0 <= k -> scr_ok k (scr k t)) ->
  outs (main_kernel gs g X fuel ch scr fs stdin cmd) (fun x => exists f' k es', x = Some (f', last_arg o_output cmd) /\ written f' k M es' /\ (3 <= p -> clean p es') /\
      frank p N M (flipped lf (fmat es)) (M - k) /\ nullbasis p N M (flipped lf (fmat es)) k (fmat es'))
    (fun e => e = Overflow /\ 0 < it /\ M < N).
Proof. intros H1 H2 H3 H4 H5 H6 H7. exact (main_kernel_ok fs stdin cmd p blk it H1 H2 H3 H4 H5 H6 H7 gs g X fuel ch scr f n m es lf). Qed.
Print Assumptions C68_kernel.
(* solve --no-dense-mode *)
Theorem C68_solve fs stdin cmd p blk it gs g g' X fuel ch w rest f n m es fb nb esb : numeric cmd -> value o_modulus cmd 42013 p -> ok_modulus p -> prime p -> value o_block cmd 1000 blk -> 0 < blk -> value o_iter cmd 3 it ->
  Forall (proper (o_rhs :: common)) cmd -> reads o_matrix fs stdin cmd f -> matrix_file f n m es -> no_cancel p es ->
  reads o_rhs fs (match last_arg o_matrix cmd with None => rest | Some _ => stdin end) cmd fb -> matrix_file fb nb m esb -> no_cancel p esb ->
  given o_nodense cmd -> ~ given o_noGPLU cmd -> params_ok X p m ->
  outs (main_solve gs g g' X fuel ch w fs stdin rest cmd) (fun x => exists f' warn es', x = Some (f', warn, last_arg o_output cmd) /\ written f' nb n es' /\ clean p es' /\
      lists warn (fun i => 0 <= i < nb /\ ~ rowsp p n m (fmat es) (fmat esb i)) /\
      forall i, 0 <= i < nb -> rowsp p n m (fmat es) (fmat esb i) -> forall j, 0 <= j < m -> cong p (sum 0 n (fun k => fmat es' i k * fmat es k j)) (fmat esb i j))
    (fun e => e = Overflow /\ 0 < it /\ m < n).
Proof. intros H1 H2 H3 H4 H5 H6 H7. exact (main_solve_ok fs stdin cmd p blk it H1 H2 H3 H4 H5 H6 H7 gs g g' X fuel ch w rest f n m es fb nb esb). Qed.
Print Assumptions C68_solve.

(** ** Examples *)
(* rank -p 7 --matrix=a --no-low-rank-mode --dense-block-size=2 --max-iterations=5 --max-iterations=0 *)
Definition op_cmd : list item := [Short 112 (Some (chars "7")); Long "matrix" (Some (chars "a")); Long "no-low-rank-mode" None; Long "dense-block-size" (Some (chars "2"));
  Long "max-iterations" (Some (chars "5")); Long "max-iterations" (Some (chars "+0"))].
Definition op_fs (name : list Z) : option (list Z) := if eqs name (chars "a") then Some te_text else if eqs name (chars "b") then Some te_rhs else None.
Lemma num s z : numeralb (chars s) = Some z -> numeral (chars s) z.
Proof. apply numeralb_ok. Qed.
Ltac proper o := constructor; [exists o; split; [cbn; tauto|split; [reflexivity|split; [cbn [item_arg]; intros; try discriminate; eexists; reflexivity|intros (a & E); try discriminate E; reflexivity]]]|].
Definition op_X7 : params := run 7 3 1 (fun k i => 3 * k + i) (fun i => i) (fun r => r) (-1) false.
Example C68_example : numeric op_cmd /\ Forall (proper ([o_notrans; o_cert] ++ common)) op_cmd /\ value o_modulus op_cmd 42013 7 /\ value o_block op_cmd 1000 2 /\ value o_iter op_cmd 3 0 /\ ~ given o_cert op_cmd /\ ~ given o_notrans op_cmd /\
  given o_nolow op_cmd /\ ~ given o_nodense op_cmd /\ reads o_matrix op_fs [] op_cmd te_text /\ matrix_file te_text 3 3 te_es /\ no_cancel 7 te_es /\ params_ok op_X7 7 3 /\
  main_rank (fun _ => 5) te_g op_X7 9 (fun _ => te_g) 20 op_fs [] op_cmd = Ok (Some (2, None, None)).
Proof.
  split; [apply numericb_ok; reflexivity|]. split; [proper o_modulus; proper o_matrix; proper o_nolow; proper o_block; proper o_iter; proper o_iter; constructor|].
  split; [apply num; reflexivity|]. split; [apply num; reflexivity|]. split; [apply num; reflexivity|]. split; [apply given_dec; reflexivity|]. split; [apply given_dec; reflexivity|].
  split; [apply given_ok; reflexivity|]. split; [apply given_dec; reflexivity|]. split; [reflexivity|]. split; [apply te_ok|]. split; [apply te_ok|].
  split; [apply run_ok; [unfold ok_modulus; lia|now apply primeb_ok|lia]|]. vm_compute. reflexivity.
Qed.
(* rank --certificate --no-dense-mode -o c, and solve --rhs=b --no-dense-mode, on the same file *)
Definition op_cert : list item := op_cmd ++ [Short 99 None; Long "no-dense-mode" None; Short 111 (Some (chars "c"))].
Definition op_solve : list item := op_cmd ++ [Long "rhs" (Some (chars "b")); Long "no-dense-mode" None].
Example C68_certificate_example : numeric op_cert /\ Forall (proper ([o_notrans; o_cert] ++ common)) op_cert /\ value o_modulus op_cert 42013 7 /\ given o_cert op_cert /\ given o_nodense op_cert /\ ~ given o_noGPLU op_cert /\
  exists c, main_rank (fun _ => 5) te_g op_X7 9 (fun _ => te_g) 20 op_fs [] op_cert = Ok (Some (2, Some (c, true), Some (chars "c"))).
Proof.
  split; [apply numericb_ok; reflexivity|]. split; [proper o_modulus; proper o_matrix; proper o_nolow; proper o_block; proper o_iter; proper o_iter; proper o_cert; proper o_nodense; proper o_output; constructor|].
  split; [apply num; reflexivity|]. split; [apply given_ok; reflexivity|]. split; [apply given_ok; reflexivity|]. split; [apply given_dec; reflexivity|]. eexists. vm_compute. reflexivity.
Qed.
Example C68_solve_example : numeric op_solve /\ Forall (proper (o_rhs :: common)) op_solve /\ given o_nodense op_solve /\ ~ given o_noGPLU op_solve /\ reads o_rhs op_fs [] op_solve te_rhs /\
  main_solve (fun _ => 5) te_g te_g op_X7 9 (fun _ => 0) te_g op_fs [] [] op_solve = Ok (Some (chars "2 3 M" ++ [NL] ++ chars "1 1 3" ++ [NL] ++ chars "1 3 1" ++ [NL] ++ chars "2 1 -3" ++ [NL] ++ chars "0 0 0" ++ [NL], [1], None)).
Proof.
  split; [apply numericb_ok; reflexivity|]. split; [proper o_modulus; proper o_matrix; proper o_nolow; proper o_block; proper o_iter; proper o_iter; proper o_rhs; proper o_nodense; constructor|].
  split; [apply given_ok; reflexivity|]. split; [apply given_dec; reflexivity|]. split; [reflexivity|]. vm_compute. reflexivity.
Qed.
(* kernel --left, on the same file *)
Definition op_kernel : list item := op_cmd ++ [Short 108 None].
Example C68_kernel_example : numeric op_kernel /\ Forall (proper (o_left :: common)) op_kernel /\ given o_left op_kernel /\ given o_nolow op_kernel /\ ~ given o_nodense op_kernel /\
  main_kernel (fun _ => 5) te_g op_X7 9 (fun _ => 0) te_scr op_fs [] op_kernel = Ok (Some (chars "1 3 M" ++ [NL] ++ chars "1 2 -1" ++ [NL] ++ chars "1 1 2" ++ [NL] ++ chars "0 0 0" ++ [NL], None)).
Proof.
  split; [apply numericb_ok; reflexivity|]. split; [proper o_modulus; proper o_matrix; proper o_nolow; proper o_block; proper o_iter; proper o_iter; proper o_left; constructor|].
  split; [apply given_ok; reflexivity|]. split; [apply given_ok; reflexivity|]. split; [apply given_dec; reflexivity|]. vm_compute. reflexivity.
Qed.

(** ** Command lines that fail *)
(* 5 x 4, the first row is zero *)
Definition op_text : list Z := file_of 5 4 [(1, 0, 1); (1, 1, 1); (1, 2, 1); (2, 0, 1); (2, 1, 1); (2, 2, 1); (2, 3, 1); (3, 0, 1); (3, 1, 2); (3, 2, 2); (3, 3, 5); (4, 0, 1); (4, 1, 2); (4, 2, 3); (4, 3, 11)].
(* the default thresholds: 0.1, 0.05, 5, 0.5 *)
Definition op_X : params :=
  let X := run 42013 4 0 (fun _ _ => 1) (fun _ => 0) (fun r => r) 5 false in
  Params (x_E X) (x_junk X) (x_pch X) (x_pscr X) (fun npiv d => 10 * npiv <? d) (x_rand X) (x_escr X) (x_dens0 X) (x_dens X) (x_size X) (x_sch X) (x_sscr X) (fun a b => 5 * b <? a).
Lemma op_X_ok : params_ok op_X 42013 4.
Proof. apply (run_ok 42013 4 0 (fun _ _ => 1) (fun _ => 0) (fun r => r) 5 false); [unfold ok_modulus; lia|apply (prime_sqrt 42013 205); [lia|lia|lia|vm_compute; reflexivity]|lia]. Qed.
(* "rank --certificate" and "solve", with all the other options at their default values: access outside of an array.  (The samples used to
   estimate the density are all the same row in each round.) *)
Theorem C68_certificate_refuted : exists gs g X fuel gc fc f n m es, matrix_file f n m es /\ no_cancel 42013 es /\ m <= n /\ params_ok X 42013 m /\
  main_rank gs g X fuel gc fc (fun _ => None) f [Long "certificate" None] = Fail OOB.
Proof.
  exists (fun _ => 5), te_g, op_X, 1%nat, (fun _ => te_g), 20%nat, op_text, 5, 4. eexists. split; [unfold op_text; apply file_of_matrix; [lia|lia|repeat constructor; unfold writable, int64; lia|vm_compute; reflexivity]|].
  split; [apply no_cancelb_ok; [lia|vm_compute; reflexivity]|]. split; [lia|]. split; [exact op_X_ok|]. vm_compute. reflexivity.
Qed.
Print Assumptions C68_certificate_refuted.
Theorem C68_solve_refuted : exists gs g X fuel ch w f n m es fb esb name, matrix_file f n m es /\ no_cancel 42013 es /\ matrix_file fb 1 m esb /\ no_cancel 42013 esb /\ params_ok X 42013 m /\
  main_solve gs g g X fuel ch w (fun _ => Some fb) f [] [Long "rhs" (Some name)] = Fail OOB.
Proof.
  exists (fun _ => 5), te_g, op_X, 1%nat, (fun _ => 0), te_g, op_text, 5, 4. eexists. exists (file_of 1 4 [(0, 0, 1)]), [(1, 1, 1)], [98].
  split; [unfold op_text; apply file_of_matrix; [lia|lia|repeat constructor; unfold writable, int64; lia|vm_compute; reflexivity]|]. split; [apply no_cancelb_ok; [lia|vm_compute; reflexivity]|].
  split; [apply (file_of_matrix 1 4 [(0, 0, 1)]); [lia|lia|repeat constructor; unfold writable, int64; lia|reflexivity]|]. split; [apply no_cancelb_ok; [lia|reflexivity]|]. split; [exact op_X_ok|]. vm_compute. reflexivity.
Qed.
Print Assumptions C68_solve_refuted.
(* --dense-block-size=0 (or an argument that is not a number): an assertion fails *)
Theorem C68_block_refuted : exists gs g X fuel gc fc, params_ok X 7 3 /\ main_rank gs g X fuel gc fc op_fs [] (op_cmd ++ [Long "dense-block-size" (Some (chars "all"))]) = Fail AssertFailed.
Proof. exists (fun _ => 5), te_g, op_X7, 9%nat, (fun _ => te_g), 20%nat. split; [apply run_ok; [unfold ok_modulus; lia|now apply primeb_ok|lia]|]. vm_compute. reflexivity. Qed.
Print Assumptions C68_block_refuted.
