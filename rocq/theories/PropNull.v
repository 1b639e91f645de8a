(** C73: arrays trimmed to zero cells. *)
From Verif Require Import Base BaseFacts Spec SpecFacts SpecElim SpecRank Zp Mat MatFacts Reach Pivots Extract Par Schur ElimFacts Gplu
  Dense DenseSpec DenseProofs3 Echelonize EchProofs EchProofs2 EchFinal DenseRef Checks EchExamples SpecText SpecSha Sha Stdio IO IOSave Null NullProofs.
From Coq Require Import Znumtheory ZifyBool.

(* the theorems about spasm_echelonize hold when realloc(ptr, 0) returns NULL, if at least one round of
   structural elimination is allowed (the default is 3), or if the dense finishers are disabled *)
Theorem C73_elimination_partial X fuel o A p : ok_modulus p -> prime p -> wf A -> cprime A = p -> reduced A -> no_zero A -> nodup_rows A ->
  params_ok X p (cm A) -> ranks (x_E X) -> 0 < o_rounds o \/ o_dense o = false /\ low_rank o = false ->
  echelonize0 X fuel o A = echelonize X fuel o A.
Proof. exact (echelonize_eq X fuel o A p). Qed.
Print Assumptions C73_elimination_partial.

(* the row 0 is empty, the row 1 is (3 5) *)
Definition ex_late : csr := Csr 2 2 [0; 0; 2] [0; 1] (Some [3; -2]) 7.
Definition ex_lib : params := let X := run 7 2 1 (fun k i => 3 * k + i) (fun i => i) (fun r => r) 0 false in with_env X (clamp (x_E X)).
Lemma ex_lib_ok : params_ok ex_lib 7 2 /\ ranks (x_E ex_lib).
Proof.
  destruct (run_ok 7 2 1 (fun k i => 3 * k + i) (fun i => i) (fun r => r) 0 false) as (H1 & H2 & H3 & H4 & H5 & H6 & H7); [unfold ok_modulus; lia|now apply primeb_ok|lia|].
  split; [|apply clamp_ranks]. split; [apply clamp_ok, H1|]. auto 10.
Qed.
Example C73_elimination_example : matrixb ex_late = true /\ cprime ex_late = 7 /\ params_ok ex_lib 7 2 /\ ranks (x_E ex_lib) /\
  forallb (fun L => match echelonize0 ex_lib 9 (Opts true false true true L false 1 1 (-1)) ex_late with Ok r => cn (lu_U r) =? 1 | Fail _ => false end) [false; true] = true.
Proof. split; [reflexivity|]. split; [reflexivity|]. destruct ex_lib_ok. split; [auto|]. split; [auto|]. vm_compute. reflexivity. Qed.

(* --max-iterations=0 and a first block of zero rows: NULL is dereferenced, with and without L *)
Theorem C73_elimination_refuted : exists X o A, matrixb A = true /\ cprime A = 7 /\ params_ok X 7 (cm A) /\ ranks (x_E X) /\ o_rounds o = 0 /\ 0 < o_blk o /\
  forall L fuel, let o := Opts (o_greedy o) (o_tall o) (o_dense o) (o_GPLU o) L false (o_rounds o) (o_blk o) (o_w0 o) in
    sat (echelonize X fuel o A) (fun r => cn (lu_U r) = 1) /\ echelonize0 X fuel o A = Fail OOB.
Proof.
  exists ex_lib, (Opts true false true true false false 0 1 (-1)), ex_late. split; [reflexivity|]. split; [reflexivity|]. destruct ex_lib_ok.
  split; [auto|]. split; [auto|]. split; [reflexivity|]. split; [reflexivity|]. intros L fuel. destruct L; split; vm_compute; reflexivity.
Qed.
Print Assumptions C73_elimination_refuted.

(* files with at least one entry are loaded as described by the theorems about spasm_triplet_load *)
Theorem C73_load_partial gs g bytes prime hash T h : triplet_load gs g bytes prime hash = Ok (T, h) -> 0 < tnz T -> triplet_load0 gs g bytes prime hash = Ok (T, h).
Proof. exact (triplet_load_eq gs g bytes prime hash T h). Qed.
Print Assumptions C73_load_partial.
(* "1 1 M", "1 1 3", "0 0 0" *)
Definition ex_file (es : list Z) : list Z := [49; 32; 49; 32; 77; 10] ++ es ++ [48; 32; 48; 32; 48; 10].
Example C73_load_example :
  match triplet_load0 (fun _ => 0) (fun _ _ => 0) (ex_file [49; 32; 49; 32; 51; 10]) 7 None with Ok (T, _) => (tnz T =? 1) && (tentry T 0 0 =? 3) | Fail _ => false end = true.
Proof. vm_compute. reflexivity. Qed.

(* after loading a matrix without entries, the values of the entries that are added are lost *)
Theorem C73_add_refuted : exists bytes T0 T,
  triplet_load (fun _ => 0) (fun _ _ => 0) bytes 7 None = Ok (T0, None) /\ triplet_load0 (fun _ => 0) (fun _ _ => 0) bytes 7 None = Ok (T, None) /\
  sat (add_entry (fun _ _ => 0) T0 0 0 3) (fun T' => tentry T' 0 0 = 3) /\
  sat (add_entry (fun _ _ => 0) T 0 0 3) (fun T' => tentry T' 0 0 = 1).
Proof.
  exists (ex_file []). eexists _, _. split; [vm_compute; reflexivity|]. split; [vm_compute; reflexivity|]. split; vm_compute; reflexivity.
Qed.
Print Assumptions C73_add_refuted.
