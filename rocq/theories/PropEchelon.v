(** C26-C29, C48, C49: echelonization, rank, LU factorisation, kernel. *)
From Verif Require Import Rref RrefProofs Base BaseFacts Spec SpecFacts SpecElim SpecRank Zp Mat MatFacts Reach Pivots Extract Par Schur ElimFacts EchInv Gplu GpluProofs
  Dense DenseSpec DenseProofs DenseProofs2 DenseProofs3 DenseProofs4 Echelonize EchProofs EchProofs2 EchFinal Rank DenseRef Checks EchExamples SpecCert Detect.
From Coq Require Import Znumtheory ZifyBool Permutation.

(** * C26: the row-by-row finisher *)
(* on all the rows of a matrix; [test] is the test for early abort.  Full statement: without the hypothesis on it when
   there is no L (false, C28_gplu_refuted) *)
Theorem C26_gplu_partial g test hasL A p : ok_modulus p -> prime p -> wf A -> cprime A = p -> reduced A ->
  (forall U q, elim p U q -> cm U = cm A -> sat (test U q) (fun _ => True)) ->
  sat (echelonize_GPLU g test A (zseq 0 (cn A)) (cn A) None (empty_fact g hasL A)) (fun f =>
    let U := f_U f in
    elim p U (f_q f) /\ cm U = cm A /\ (forall k, 0 <= k < cn U -> in_rowspace p A (entry U k)) /\
    (hasL = true \/ (test U (f_q f) = Ok true -> forall i, 0 <= i < cn A -> in_rowspace p U (entry A i)) ->
       forall i, 0 <= i < cn A -> in_rowspace p U (entry A i)) /\
    match f_L f with
    | Some L => hasL = true /\ (forall i j, 0 <= i < cn A -> 0 <= j < cm A -> cong p (entry A i j) (xA U (tentry L i) j)) /\
        (forall k, 0 <= k < cn U -> 0 <= get (f_p f) k < cn A /\ ~ cong p (tentry L (get (f_p f) k) k) 0) /\
        (forall k c, 0 <= k < c -> c < cn U -> cong p (tentry L (get (f_p f) k) c) 0)
    | None => hasL = false
    end).
Proof. exact (gplu_fresh g test hasL A p). Qed.
Print Assumptions C26_gplu_partial.
(* on the rows pr[0..n-1] of a Schur complement A of A0, when pivots have already been found: [inv]
   relates A0, the current U and L, and the rows that remain (none at the end) *)
Theorem C26_gplu_schur g test p A0 (full : Prop) comp f A pr n p_in u1 : ok_modulus p -> prime p ->
  inv p A0 full comp f A (oapply p_in) (map (get pr) (zseq 0 n)) u1 ->
  0 <= n <= len pr -> match p_in with Some l => len l = cn A | None => True end ->
  match f_L f with Some L => tm L = cn A0 | None => True end ->
  (forall U q, elim p U q -> cm U = cm A -> sat (test U q) (fun _ => True)) ->
  sat (echelonize_GPLU g test A pr n p_in f) (fun f' =>
    inv p A0 (full /\ (f_L f <> None \/ cn A = cn A0 /\ honest test p A pr n (f_U f') (f_q f'))) comp f' A (oapply p_in) [] u1 /\
    (f_L f' = None <-> f_L f = None)).
Proof. exact (gplu_ok g test p A0 full comp f A pr n p_in u1). Qed.
Print Assumptions C26_gplu_schur.
(* rank 2 *)
Definition ex_A : csr := Csr 3 3 [0; 3; 6; 9] [0; 1; 2; 0; 1; 2; 0; 1; 2] (Some [2; 1; 3; -3; 2; 1; -1; 3; -3]) 7.
Example C26_example : matrixb ex_A = true /\
  echelonize_GPLU (fun _ _ => 77) (fun _ _ => Ok false) ex_A (zseq 0 3) 3 None (empty_fact (fun _ _ => 77) true ex_A) =
    Ok (Fact (Csr 2 3 [0; 3; 4; 77] [0; 2; 1; 2; 77; 77; 77; 77; 77] (Some [1; -2; -3; 1; 77; 77; 77; 77; 77]) 7) [0; -1; 1]
         (Some (Triplet 5 3 2 [0; 1; 1; 2; 2; 77; 77; 77; 77] [0; 0; 1; 0; 1; 77; 77; 77; 77] (Some [2; -3; 2; -1; 2; 77; 77; 77; 77]) 7)) [0; 1; -1]).
Proof. split; [reflexivity|]. vm_compute. reflexivity. Qed.

(** * C27: the rows of U are independent and belong to the row space of A *)
(* whatever the options, except L without complete in the dense finisher after a first round (see
   C48_pivotal_refuted).  The only possible failures are those of [allowed]. *)
Theorem C27_soundness X fuel o A p : ok_modulus p -> prime p -> wf A -> cprime A = p -> reduced A -> no_zero A -> nodup_rows A ->
  params_ok X p (cm A) -> 0 < o_blk o ->
  wantsL o = false \/ o_complete o = true \/ o_dense o = false \/ one_round X o ->
  outs (echelonize X fuel o A) (fun f =>
    echelon_of p A f /\ lin_indep p (cm A) (cn (lu_U f)) (entry (lu_U f)) /\ forall r, rank_is p A r -> cn (lu_U f) <= r) (allowed o A p).
Proof. exact (echelonize_sound X fuel o A p). Qed.
Print Assumptions C27_soundness.
(* the rank exists and is unique *)
Theorem C27_rank p A : ok_modulus p -> prime p -> wf A -> cprime A = p -> reduced A -> exists! r, rank_is p A r.
Proof.
  intros M P W E R. destruct (rank_exists p A M P W E R) as (r & H). exists r. split; auto. intros r' H'.
  apply (rank_unique p A r r' P (wf_n A W) H H').
Qed.
Print Assumptions C27_rank.
(* "density" is 0/0 when there are as many pivots as columns and rows remain: the conversion of the
   size of the Schur complement to an integer is undefined (src/spasm_echelonize.c:545-553) *)
Theorem C27_nan_refuted : exists X o A, matrixb A = true /\ cprime A = 7 /\ params_ok X 7 (cm A) /\ 0 < o_blk o /\ wantsL o = false /\ low_rank o = false /\
  forall fuel, echelonize X fuel o A = Fail Overflow.
Proof.
  exists (run 7 1 0 (fun _ _ => 1) (fun _ => 0) (fun _ => 0) 5 false), (Opts true false true true false false 3 1000 (-1)), (Csr 2 1 [0; 1; 2] [0; 0] (Some [1; 1]) 7).
  split; [reflexivity|]. split; [reflexivity|]. split; [apply run_ok; [unfold ok_modulus; lia|now apply primeb_ok|cbn; lia]|]. split; [reflexivity|]. split; [reflexivity|]. split; [reflexivity|].
  intros fuel. vm_compute. reflexivity.
Qed.
Print Assumptions C27_nan_refuted.
Definition ex_X : params := run 7 3 1 (fun k i => 3 * k + i) (fun i => i) (fun r => r) 50 false.
Example C27_example : matrixb ex_A = true /\ cprime ex_A = 7 /\ params_ok ex_X 7 3 /\ one_round ex_X (Opts true false true true false false 0 2 (-1)) /\
  (* dense, then GPLU *)
  echelonize ex_X 9 (Opts true false true true false false 0 2 (-1)) ex_A =
    Ok (Lu false None (Csr 2 3 [0; 2; 3] [0; 1; 2] (Some [1; -3; 1]) 7) [0; -1; 1] []) /\
  echelonize ex_X 9 (Opts true false false true true false 2 2 (-1)) ex_A =
    Ok (Lu false (Some (Csr 3 2 [0; 1; 3; 5] [0; 0; 1; 0; 1] (Some [2; -3; 2; -1; 2]) 7)) (Csr 2 3 [0; 3; 4] [0; 1; 2; 2] (Some [1; -3; -2; 1]) 7) [0; -1; 1] [0; 1]).
Proof.
  split; [reflexivity|]. split; [reflexivity|]. split; [apply run_ok; [unfold ok_modulus; lia|now apply primeb_ok|lia]|]. split; [left; cbn; lia|].
  split; vm_compute; reflexivity.
Qed.

(** * C28: the rank is exact *)
(* if L is requested, or if the remaining rows are dense, or if the finisher starts from A itself and
   the random completion test is not fooled by the final U; and without the low-rank mode *)
Theorem C28_rank_partial X fuel o A p : ok_modulus p -> prime p -> wf A -> cprime A = p -> reduced A -> no_zero A -> nodup_rows A ->
  params_ok X p (cm A) -> 0 < o_blk o ->
  wantsL o = false \/ o_complete o = true \/ o_dense o = false \/ one_round X o ->
  outs (echelonize X fuel o A) (fun f =>
    exists pr n, 0 <= n <= len pr /\ (forall i, 0 <= i < n -> 0 <= get pr i < cn A) /\ NoDup (map (get pr) (zseq 0 n)) /\
      (low_rank o = false ->
       o_dense o = true /\ always_dense X \/
       o_GPLU o = true /\ (wantsL o = true \/ one_round X o /\ detects p A (e_rc (x_E X)) (e_Sn (x_E X)) pr n (lu_U f)) ->
       (forall i, 0 <= i < cn A -> in_rowspace p (lu_U f) (entry A i)) /\ rank_is p A (cn (lu_U f)))) (allowed o A p).
Proof. exact (echelonize_rank X fuel o A p). Qed.
Print Assumptions C28_rank_partial.
(* What the hypothesis about the test is worth: if the final U misses a row, then among the sequences of Sn vectors of n coefficients
   modulo p that the test may draw, exactly one in p ^ Sn of them are in a set [bad] outside of which the test is not fooled. *)
Theorem C28_completion_test p A U q pr n Sn : prime p -> 0 <= n -> 0 <= Sn -> wf U -> upper p U q ->
  (forall i, 0 <= i < n -> in_rowspace p U (entry A (get pr i))) \/
  exists bad : Z -> bool, p ^ Sn * sum 0 (p ^ (n * Sn)) (fun N => if bad N then 1 else 0) = p ^ (n * Sn) /\
    forall N rc, 0 <= N < p ^ (n * Sn) -> bad N = false ->
      (forall k i, 0 <= k < Sn -> 0 <= i < n -> cong p (rc k i) (digit p N (n * k + i))) -> detects p A rc Sn pr n U.
Proof. exact (completion_test p A U q pr n Sn). Qed.
Print Assumptions C28_completion_test.
(* a single row of a matrix of rank 2; the combination rc = (1, 0, 0) is in U, the test is fooled *)
Example C28_completion_example : let U := Csr 1 3 [0; 3] [0; 1; 2] (Some [1; -3; -2]) 7 in
  prime 7 /\ wf U /\ upper 7 U [0; -1; -1] /\ ~ in_rowspace 7 U (entry ex_A 1) /\ ~ detects 7 ex_A (fun _ i => if i =? 0 then 1 else 0) 1 [0; 1; 2] 3 U.
Proof.
  cbv zeta. set (U := Csr 1 3 [0; 3] [0; 1; 2] (Some [1; -3; -2]) 7).
  assert (HN : ~ in_rowspace 7 U (entry ex_A 1)).
  { intros (y & H). pose proof (H 0 ltac:(cbn; lia)) as H0. pose proof (H 2 ltac:(cbn; lia)) as H2.
    change (xA U y 0) with (y 0 * 1 + 0) in H0. change (xA U y 2) with (y 0 * -2 + 0) in H2.
    change (entry ex_A 1 0) with (-3) in H0. change (entry ex_A 1 2) with 1 in H2. rewrite !Z.add_0_r in *. rewrite Z.mul_1_r in H0. rewrite H0 in H2.
    revert H2. apply ncong_compute; [reflexivity|]. vm_compute. reflexivity. }
  split; [now apply primeb_ok|]. split; [now apply wfb_ok|]. split; [now apply upperb_ok|]. split; auto.
  intros HD. apply HN. apply (HD) with (i := 1); [|lia]. intros k Hk. exists (fun _ => 2). intros j Hj. cbn [cm U] in Hj.
  assert (j = 0 \/ j = 1 \/ j = 2) as [->|[->| ->]] by lia; now apply congb_ok.
Qed.
(* the bound on the rank used by GPLU does not count the pivots of the previous rounds
   (src/spasm_echelonize.c:59,85) *)
Theorem C28_gplu_refuted : exists X o A f, matrixb A = true /\ cprime A = 7 /\ params_ok X 7 (cm A) /\ 0 < o_blk o /\ low_rank o = false /\ o_GPLU o = true /\
  (forall fuel, echelonize X fuel o A = Ok f) /\ cn (lu_U f) = 1 /\ rank_is 7 A 2.
Proof.
  exists (run 7 2 0 (fun _ _ => 1) (fun _ => 0) (fun _ => 0) 100 false), (Opts true false true true false false 1 1000 (-1)), (Csr 2 2 [0; 2; 4] [0; 1; 0; 1] (Some [1; 1; 1; 2]) 7),
    (Lu false None (Csr 1 2 [0; 2] [0; 1] (Some [1; 1]) 7) [0; -1] []).
  split; [reflexivity|]. split; [reflexivity|]. split; [apply run_ok; [unfold ok_modulus; lia|now apply primeb_ok|cbn; lia]|]. split; [reflexivity|]. split; [reflexivity|]. split; [reflexivity|].
  split; [intros fuel; vm_compute; reflexivity|]. split; [reflexivity|]. apply rank_by; vm_compute; reflexivity.
Qed.
Print Assumptions C28_gplu_refuted.
(* each pivot found in low-rank mode removes a row from the list of rows to be examined
   (src/spasm_echelonize.c:369): rows are lost, and the completion test ignores them *)
Theorem C28_lowrank_refuted : exists X o A f, matrixb A = true /\ cprime A = 7 /\ params_ok X 7 (cm A) /\ 0 < o_blk o /\
  echelonize X 3 o A = Ok f /\ cn (lu_U f) = 1 /\ rank_is 7 A 2.
Proof.
  exists (run 7 2 0 (fun k i => 3 * k + i + 1) (fun _ => 0) (fun _ => 0) 50 true), (Opts true true true true false false 0 1 1), (Csr 2 2 [0; 2; 4] [0; 1; 0; 1] (Some [1; 1; 1; 2]) 7),
    (Lu false None (Csr 1 2 [0; 2] [0; 1] (Some [1; 1]) 7) [0; -1] []).
  split; [reflexivity|]. split; [reflexivity|]. split; [apply run_ok; [unfold ok_modulus; lia|now apply primeb_ok|cbn; lia]|]. split; [reflexivity|].
  split; [vm_compute; reflexivity|]. split; [reflexivity|]. apply rank_by; vm_compute; reflexivity.
Qed.
Print Assumptions C28_lowrank_refuted.
(* the bound on the rank used by the dense finisher subtracts the pivots of the previous rounds from
   the number of rows of the Schur complement (src/spasm_echelonize.c:410,439): the rows that remain
   when the low-rank mode should start are dropped *)
Theorem C28_rank_ub_refuted : exists X o A f, matrixb A = true /\ cprime A = 7 /\ params_ok X 7 (cm A) /\ 0 < o_blk o /\
  (forall fuel, echelonize X fuel o A = Ok f) /\ cn (lu_U f) = 4 /\ rank_is 7 A 5.
Proof.
  exists (run 7 6 0 (fun k i => 3 * k + 5 * i + 1) (fun i => i) (fun r => 2 * r) 40 false), (Opts true true true true false false 2 1 0),
    (Csr 7 6 [0; 4; 8; 12; 16; 20; 24; 28] [0; 3; 4; 5; 1; 3; 4; 5; 2; 3; 4; 5; 0; 3; 4; 5; 0; 3; 4; 5; 0; 3; 4; 5; 0; 3; 4; 5]
      (Some [1; 1; 1; 1; 1; 1; 1; 1; 1; 1; 1; 1; 1; 1; 1; 1; 1; 2; 2; 2; 1; 2; 2; 2; 1; 2; 3; 2]) 7).
  eexists.
  split; [reflexivity|]. split; [reflexivity|]. split; [apply run_ok; [unfold ok_modulus; lia|now apply primeb_ok|cbn; lia]|]. split; [reflexivity|].
  split; [intros fuel; vm_compute; reflexivity|]. split; [reflexivity|]. apply rank_by; vm_compute; reflexivity.
Qed.
Print Assumptions C28_rank_ub_refuted.
(* the low-rank mode draws the same combinations again and again: if they vanish while those of the
   completion test do not, it never ends *)
Theorem C28_termination_refuted : exists E blk w0 A pr n f, matrixb A = true /\ cprime A = 7 /\ ffpack_ok E 7 /\ 0 < blk /\
  inv 7 A True true f A (oapply None) (map (get pr) (zseq 0 n)) 0 /\
  forall fuel, echelonize_dense_lowrank E fuel blk w0 A pr n f = Fail OutOfFuel.
Proof.
  exists (x_E ex_unlucky), 1, 0, ex_one, [0], 1, (empty_fact (fun _ _ => 0) false ex_one).
  split; [reflexivity|]. split; [reflexivity|]. split; [apply ref_ffpack; auto; [unfold ok_modulus; lia|now apply primeb_ok]|]. split; [lia|].
  split; [|exact lowrank_diverges].
  destruct (matrixb_ok ex_one eq_refl) as (H1 & H2 & _). apply (inv_init 7 ex_one (fun _ _ => 0) false true [-1] [-1]); auto; try discriminate.
  - intros j Hj. cbn in Hj. now replace j with 0 by lia.
Qed.
Print Assumptions C28_termination_refuted.
Example C28_example : low_rank (Opts true false true true true false 2 2 (-1)) = false /\
  echelonize ex_X 9 (Opts true false true true true true 2 2 (-1)) ex_A =
    Ok (Lu true (Some (Csr 3 2 [0; 1; 3; 5] [0; 0; 1; 0; 1] (Some [2; -3; 2; -1; 2]) 7)) (Csr 2 3 [0; 3; 4] [0; 1; 2; 2] (Some [1; -3; -2; 1]) 7) [0; -1; 1] [0; 1]) /\
  rank_is 7 ex_A 2.
Proof. split; [reflexivity|]. split; [vm_compute; reflexivity|]. apply rank_by; vm_compute; reflexivity. Qed.

(** * C29: LU factorisation *)
(* Full statement: for all options (false, C48_pivotal_refuted) and without failure (false, C27_nan_refuted) *)
Theorem C29_LU_partial X fuel o A p : ok_modulus p -> prime p -> wf A -> cprime A = p -> reduced A -> no_zero A -> nodup_rows A ->
  params_ok X p (cm A) -> 0 < o_blk o ->
  wantsL o = false \/ o_complete o = true \/ o_dense o = false \/ one_round X o ->
  wantsL o = true -> outs (echelonize X fuel o A) (fun f => lu_complete f = o_complete o /\ exists L,
    lower_of p A f L /\
    (o_complete o = true -> o_dense o = true /\ always_dense X \/ o_GPLU o = true ->
     forall i j, 0 <= i < cn A -> 0 <= j < cm A -> cong p (entry A i j) (xA (lu_U f) (entry L i) j)) /\
    (o_dense o = true /\ always_dense X \/ o_GPLU o = true -> factors p A f L)) (fun e => e = Overflow /\ 0 < o_rounds o /\ all_columns p A).
Proof. exact (echelonize_LU X fuel o A p). Qed.
Print Assumptions C29_LU_partial.
Example C29_example : wantsL (Opts true false true true true true 2 2 (-1)) = true /\
  factors 7 ex_A (Lu true (Some (Csr 3 2 [0; 1; 3; 5] [0; 0; 1; 0; 1] (Some [2; -3; 2; -1; 2]) 7)) (Csr 2 3 [0; 3; 4] [0; 1; 2; 2] (Some [1; -3; -2; 1]) 7) [0; -1; 1] [0; 1])
    (Csr 3 2 [0; 1; 3; 5] [0; 0; 1; 0; 1] (Some [2; -3; 2; -1; 2]) 7).
Proof. split; [reflexivity|]. apply factorsb_ok; [reflexivity|vm_compute; reflexivity]. Qed.

(** * C48: the dense finisher *)
(* U is extended with a basis of the rows of the dense matrix S (columns qc) *)
Theorem C48_update_U g p n Sm S rr S' Q qc f : 2 <= p -> elim p (f_U f) (f_q f) -> cols (f_q f) (cm (f_U f)) Sm qc ->
  rref_ok p n Sm S rr S' Q -> 0 <= Sm -> n * Sm <= len S -> cn (f_U f) + rr + 1 <= len (cp (f_U f)) ->
  sat (update_U_after_rref g rr Sm S' Q qc f) (fun f' =>
    elim p (f_U f') (f_q f') /\ cn (f_U f') = cn (f_U f) + rr /\ cm (f_U f') = cm (f_U f) /\ len (cp (f_U f')) = len (cp (f_U f)) /\
    f_L f' = f_L f /\ f_p f' = f_p f /\
    (forall i c, 0 <= i < cn (f_U f) -> entry (f_U f') i c = entry (f_U f) i c) /\
    (forall c, 0 <= c < cm (f_U f) -> get (f_q f') c = get (f_q f) c \/ cn (f_U f) <= get (f_q f') c) /\
    exists C D,
      (forall k j, 0 <= k < n -> 0 <= j < cm (f_U f) ->
         cong p (dext Sm qc (dget Sm S k) j) (sum 0 rr (fun l => C k l * entry (f_U f') (cn (f_U f) + l) j))) /\
      (forall l j, 0 <= l < rr -> 0 <= j < cm (f_U f) ->
         cong p (entry (f_U f') (cn (f_U f) + l) j) (sum 0 n (fun k => D l k * dext Sm qc (dget Sm S k) j)))).
Proof. exact (update_U_ok g p n Sm S rr S' Q qc f). Qed.
Print Assumptions C48_update_U.
(* U and L are extended with the factors of the dense matrix S *)
Theorem C48_update_fact g p A0 comp (full : Prop) f0 f A o (P : Z -> Z) n Sm rem' u1 r (S S' Sp Q qc po : list Z) lr L0 L log pivotal :
  ok_modulus p -> prime p ->
  inv p A0 full comp f0 A o (map P (zseq 0 n) ++ rem') u1 -> 0 <= n ->
  f_U f = f_U f0 -> f_q f = f_q f0 -> f_p f = f_p f0 -> f_L f0 = Some L0 -> f_L f = Some L ->
  Sm = cm A - cn (f_U f0) -> cols (f_q f0) (cm A) Sm qc -> n * Sm <= len S ->
  (forall k, 0 <= k < n -> get po k = o (P k) /\ drow_ok p A (f_U f0) qc (P k) S k (lr k)) -> n <= len po ->
  twf L -> tx L <> None -> tn L = tn L0 -> tm L = cn A0 -> tprime L = tprime L0 ->
  tlist L = tlist L0 ++ log -> tnz L = tnz L0 + len log -> Permutation log (trows (fun k => o (P k)) lr (zseq 0 n)) ->
  plu_ok p n Sm S r S' Sp Q -> comp = true \/ cn A0 <= len pivotal ->
  sat (update_fact_after_LU g n Sm r S' Sp Q qc po (tnz L0) comp pivotal f) (fun '(pivotal', f') =>
    len pivotal' = len pivotal /\ inv p A0 full comp f' A o rem' u1 /\ cn (f_U f') = cn (f_U f0) + r /\
    match f_L f' with Some L => tm L = cn A0 | None => False end).
Proof. exact (update_fact_ok g p A0 comp full f0 f A o P n Sm rem' u1 r S S' Sp Q qc po lr L0 L log pivotal). Qed.
Print Assumptions C48_update_fact.
(* the whole finisher, L included: complete, or on the original matrix *)
Theorem C48_dense_partial E p A0 A comp p_in u1 : ffpack_ok E p -> ok_modulus p -> prime p ->
  (forall c k, scr_ok (cm A) (e_scr E c k)) -> 0 <= e_Sn E -> match p_in with Some l => len l = cn A | None => True end ->
  forall fuel blk w0 tall full f pr n,
  inv p A0 full comp f A (oapply p_in) (map (get pr) (zseq 0 n)) u1 -> 0 <= n <= len pr -> 0 < blk -> hasm A0 f ->
  f_L f = None \/ tall = false /\ (comp = true \/ cn A0 <= cn A) ->
  outs (echelonize_dense E fuel blk w0 tall comp A pr n p_in f)
    (fun f' => inv p A0 (full /\ tall = false) comp f' A (oapply p_in) [] u1 /\ sameL f f' /\ hasm A0 f')
    (fun e => tall = true /\ (e = OutOfFuel \/ e = Overflow)).
Proof. exact (dense_ok E p A0 A comp p_in u1). Qed.
Print Assumptions C48_dense_partial.
(* L but not complete, after a first round: the array [pivotal] has as many entries as the Schur
   complement has rows, but is indexed by the rows of the original matrix (src/spasm_echelonize.c:399,251-261) *)
Theorem C48_pivotal_refuted : exists X o A, matrixb A = true /\ cprime A = 7 /\ params_ok X 7 (cm A) /\ 0 < o_blk o /\ low_rank o = false /\
  forall fuel, echelonize X fuel o A = Fail OOB.
Proof.
  exists (run 7 3 0 (fun _ _ => 1) (fun _ => 0) (fun r => r) 50 false), (Opts true false true true true false 2 1000 0),
    (Csr 4 3 [0; 3; 6; 9; 12] [0; 1; 2; 0; 1; 2; 0; 1; 2; 0; 1; 2] (Some [1; 1; 1; 1; 1; 1; 1; 2; 2; 1; 2; 3]) 7).
  split; [reflexivity|]. split; [reflexivity|]. split; [apply run_ok; [unfold ok_modulus; lia|now apply primeb_ok|cbn; lia]|]. split; [reflexivity|]. split; [reflexivity|].
  intros fuel. vm_compute. reflexivity.
Qed.
Print Assumptions C48_pivotal_refuted.
(* a reduced form of [[2, 1, 3], [-3, 2, 1]] *)
Example C48_example : rref_ok 7 2 3 [2; 1; 3; -3; 2; 1] 2 [1; 0; -3; 0; 1; 0] [0; 2; 1].
Proof. exact (ref_rref_ok 7 2 3 [2; 1; 3; -3; 2; 1] ltac:(unfold ok_modulus; lia) (primeb_ok 7 eq_refl) ltac:(lia) ltac:(lia) ltac:(vm_compute; discriminate) ltac:(intros i j Hi Hj; apply balancedb_ok; assert (i = 0 \/ i = 1) as [-> | ->] by lia; assert (j = 0 \/ j = 1 \/ j = 2) as [-> | [-> | ->]] by lia; reflexivity)). Qed.

(** * C49: kernel of a matrix, from its echelon form *)
Theorem C49_kernel p A f g ch scr : wf A -> 2 <= p -> echelon_of p A f -> (forall i, 0 <= i < cn A -> in_rowspace p (lu_U f) (entry A i)) ->
  (forall j, 0 <= j < cm A -> scr_ok (cn (lu_U f)) (scr j)) ->
  sat (kernel g ch scr (lu_U f) (lu_qinv f)) (fun K => wf K /\ rank_is p A (cm A - cn K) /\ cm K = cm A /\ kernel_basis p A K).
Proof. exact (kernel_of_matrix p A f g ch scr). Qed.
Print Assumptions C49_kernel.
Example C49_example : wf ex_A /\
  let f := Lu false None (Csr 2 3 [0; 2; 3] [0; 1; 2] (Some [1; -3; 1]) 7) [0; -1; 1] [] in
  echelonize ex_X 9 (Opts true false true true false false 0 2 (-1)) ex_A = Ok f /\
  kernel (fun _ _ => 77) (fun _ => 0) (fun _ => ([5; 5], [6; 6], [0; 0], [7; 7])) (lu_U f) (lu_qinv f) = Ok (Csr 1 3 [0; 2] [1; 0; 77] (Some [-1; -3; 77]) 7).
Proof. split; [now apply wfb_ok|]. split; vm_compute; reflexivity. Qed.
