(** C76: lifetimes of the blocks of memory. *)
From Coq Require Import Permutation.
From Verif Require Import Base Lifetime LifetimeSpec LifetimeBase LifetimeElim LifetimeProofs.

(** ** C76 *)
(* building matrices: the operands are left, the result is new *)
Theorem C76_matrices : (forall T, safe (trip_blocks T) (o_compress T) (fun C => trip_blocks T ++ csr_blocks C))
  /\ (forall A keep, safe (csr_blocks A) (o_transpose A keep) (fun C => csr_blocks A ++ csr_blocks C))
  /\ (forall A p q v, safe (p :: q :: csr_blocks A) (o_permute A p q v) (fun C => p :: q :: csr_blocks A ++ csr_blocks C))
  /\ (forall A v, safe (csr_blocks A) (o_submatrix A v) (fun C => csr_blocks A ++ csr_blocks C))
  /\ (forall mm v adds, safe [] (o_load mm v adds) trip_blocks).
Proof. exact safe_matrices. Qed.
Print Assumptions C76_matrices.
(* elimination: the matrix is left, and nothing remains but the factorisation *)
Theorem C76_echelonize T hasL rs fin A : safe (csr_blocks A) (o_echelonize T hasL rs fin A) (fun f => csr_blocks A ++ lu_blocks f).
Proof. exact (safe_echelonize T hasL rs fin A). Qed.
Print Assumptions C76_echelonize.
(* L and p are there if they were asked for, and only then *)
Theorem C76_echelonize_L T hasL rs fin A h R f h' : good h -> Permutation (h_live h) (csr_blocks A ++ R) -> o_echelonize T hasL rs fin A h = Ok (f, h') ->
  (ol_L f <> None <-> hasL = true) /\ (ol_p f <> None <-> hasL = true).
Proof. exact (echelonize_L T hasL rs fin A h R f h'). Qed.
Print Assumptions C76_echelonize_L.
Theorem C76_lu_free f : safe (lu_blocks f) (o_lu_free f) (fun _ => []).
Proof. exact (safe_of _ _ _ _ (sp_lu_free f)). Qed.
Print Assumptions C76_lu_free.
Theorem C76_kernel T rows f : safe (lu_blocks f) (o_kernel T rows f) (fun K => lu_blocks f ++ csr_blocks K).
Proof. exact (safe_of _ _ _ _ (sp_kernel T rows f)). Qed.
Print Assumptions C76_kernel.
Theorem C76_kernel_from_rref A q : safe (q :: csr_blocks A) (o_kernel_from_rref A q) (fun K => q :: csr_blocks A ++ csr_blocks K).
Proof. exact (safe_of _ _ _ _ (sp_kernel_from_rref A q)). Qed.
Print Assumptions C76_kernel_from_rref.
Theorem C76_rref T rows f q : safe (q :: lu_blocks f) (o_rref T rows f q) (fun K => q :: lu_blocks f ++ csr_blocks K).
Proof. exact (safe_of _ _ _ _ (sp_rref T rows f q)). Qed.
Print Assumptions C76_rref.
(* with L *)
Theorem C76_solve f b x : ol_L f <> None -> ol_p f <> None -> safe (b :: x :: lu_blocks f) (o_solve f b x) (fun _ => b :: x :: lu_blocks f).
Proof. exact (safe_solve f b x). Qed.
Print Assumptions C76_solve.
Theorem C76_gesv T n f B ok : ol_L f <> None -> ol_p f <> None -> (1 <= T)%nat ->
  safe (olist ok ++ csr_blocks B ++ lu_blocks f) (o_gesv T n f B ok) (fun X => olist ok ++ csr_blocks B ++ lu_blocks f ++ csr_blocks X).
Proof. exact (safe_gesv T n f B ok). Qed.
Print Assumptions C76_gesv.
Theorem C76_certificate A f : ol_L f <> None -> ol_p f <> None -> safe (csr_blocks A ++ lu_blocks f) (o_certificate A f) (fun proof => csr_blocks A ++ lu_blocks f ++ proof).
Proof. exact (safe_certificate A f). Qed.
Print Assumptions C76_certificate.
Theorem C76_verify early A f proof : ol_L f <> None -> ol_p f <> None ->
  safe (csr_blocks A ++ proof) (o_rank_verify early A proof) (fun _ => csr_blocks A ++ proof)
  /\ safe (csr_blocks A ++ lu_blocks f) (o_factorization_verify A f) (fun _ => csr_blocks A ++ lu_blocks f).
Proof. exact (safe_verify early A f proof). Qed.
Print Assumptions C76_verify.

(* strongly connected components: exactly one block is lost, every time *)
Theorem C76_scc_all A : loses 1 (csr_blocks A) (o_scc A) (fun P => csr_blocks A ++ dm_blocks P).
Proof. exact (loses_of _ _ _ _ (sp_scc A)). Qed.
Print Assumptions C76_scc_all.
Theorem C76_scc_refuted : exists A, NoDup (csr_blocks A) /\ ~ safe (csr_blocks A) (o_scc A) (fun P => csr_blocks A ++ dm_blocks P).
Proof. exact scc_lost. Qed.
Print Assumptions C76_scc_refuted.
(* Dulmage-Mendelsohn decomposition: two blocks are lost, or four if there is a square part *)
Theorem C76_dm_all A (wide empty : bool) : loses (if empty then 2 else 4) (csr_blocks A) (o_dulmage_mendelsohn A wide empty) (fun P => csr_blocks A ++ dm_blocks P).
Proof. exact (loses_of _ _ _ _ (sp_dm A wide empty)). Qed.
Print Assumptions C76_dm_all.
Theorem C76_dm_refuted : exists A, NoDup (csr_blocks A) /\ forall wide empty, ~ safe (csr_blocks A) (o_dulmage_mendelsohn A wide empty) (fun P => csr_blocks A ++ dm_blocks P).
Proof. exact dm_lost. Qed.
Print Assumptions C76_dm_refuted.
Theorem C76_matching A p q : safe (p :: q :: csr_blocks A) (o_maximum_matching A p q) (fun _ => p :: q :: csr_blocks A).
Proof. exact (safe_of _ _ _ _ (sp_matching A p q)). Qed.
Print Assumptions C76_matching.

(** Programs, from nothing to nothing *)
Theorem C76_programs : (forall mm adds, safe [] (o_tool_transpose mm adds) (fun _ => []))
  /\ (forall T mm adds hasL rs fin rref, safe [] (o_tool_echelonize T mm adds hasL rs fin rref) (fun _ => []))
  /\ (forall T mm adds hasL rs fin early, safe [] (o_tool_rank T mm adds hasL rs fin false early) (fun _ => [])).
Proof. exact safe_programs. Qed.
Print Assumptions C76_programs.
(* the certificate is not freed *)
Theorem C76_rank_all T mm adds hasL rs fin early : loses 5 [] (o_tool_rank T mm adds hasL rs fin true early) (fun _ => []).
Proof. exact (loses_of _ _ _ _ (sp_tool_rank T mm adds hasL rs fin true early)). Qed.
Print Assumptions C76_rank_all.
(* these do not free everything before they end, but never use a block that is not live *)
Theorem C76_programs_partial T n mm mm' adds adds' hasL rs fin rows wide empty : (1 <= T)%nat ->
  exists h1 h2 h3, o_tool_kernel T mm adds hasL rs fin rows (Heap 0 []) = Ok (tt, h1)
  /\ o_tool_solve T n mm mm' adds adds' rs fin (Heap 0 []) = Ok (tt, h2) /\ o_tool_dm mm adds wide empty (Heap 0 []) = Ok (tt, h3).
Proof. exact (programs_ok T n mm mm' adds adds' hasL rs fin rows wide empty). Qed.
Print Assumptions C76_programs_partial.

(* two rounds of elimination on 4 threads, with L, that enlarge every array, then dense elimination *)
Example C76_example :
  let h := Heap 4 [0; 1; 2; 3] in let A := Oc 0 1 2 (Some 3) in
  good h /\ Permutation (h_live h) (csr_blocks A ++ [])
  /\ match o_echelonize 4 true [Next true true [true; false; true] false [(true, true); (false, true)]; Dense false true [true] false] (ByDense 2 None) A h with
     | Ok (f, h') => length (h_live h') = 15%nat /\ has (ol_L f) = true | Fail _ => False end.
Proof. cbv zeta. split; [split; repeat constructor; cbn; intuition lia|]. split; [reflexivity|]. vm_compute. auto. Qed.
(* a block used or freed after it was freed *)
Example C76_detects : (_ <~ free 1 ;; use 1) (Heap 2 [0; 1]) = Fail OOB /\ (_ <~ free 1 ;; free 1) (Heap 2 [0; 1]) = Fail OOB.
Proof. split; reflexivity. Qed.
(* a factorisation with L: a system, a certificate, a kernel, on 4 threads *)
Example C76_uses_example :
  let f := Ol 0 (Oc 2 3 4 (Some 5)) 1 (Some (Oc 6 7 8 (Some 9))) (Some 10) in let A := Oc 11 12 13 (Some 14) in
  let h := Heap 15 (csr_blocks A ++ lu_blocks f) in
  good h /\ ol_L f <> None /\ ol_p f <> None
  /\ match o_gesv 4 2 f A None h, o_certificate A f h, o_kernel 4 [true; false] f h with
     | Ok (X, h1), Ok (proof, h2), Ok (K, h3) => length (h_live h1) = 19%nat /\ length proof = 5%nat /\ length (h_live h2) = 20%nat /\ length (h_live h3) = 19%nat
     | _, _, _ => False end.
Proof. cbv zeta. split; [split; repeat constructor; cbn; intuition lia|]. do 2 (split; [discriminate|]). vm_compute. auto. Qed.
(* a whole program that ends without a live block, and one that loses 5 *)
Example C76_programs_example :
  match o_tool_rank 2 true [true; false] true [Next true true [true] false [(true, true)]] (ByDense 2 None) false true (Heap 0 []),
        o_tool_rank 2 true [true; false] true [Next true true [true] false [(true, true)]] (ByDense 2 None) true true (Heap 0 []) with
  | Ok (_, h1), Ok (_, h2) => h_live h1 = [] /\ length (h_live h2) = 5%nat | _, _ => False end.
Proof. vm_compute. auto. Qed.
