(** C14-C19: reachability, triangular solves and system solving. *)
From Coq Require Import Znumtheory.
From Verif Require Import Base BaseFacts Spec SpecFacts Zp ZpFacts Mat MatFacts RowList VecProofs Reach ReachProofs
  TriProofs Solve SolveProofs Checks.

(** * C14 *)
(* [path A qinv s c]: c can be reached from s by alternating paths *)
Theorem C14_reach A B k qinv xj ps mk : wf A -> wf B -> cm B = cm A -> 0 <= k < cn B -> qinv_ok A qinv ->
  len xj = cm A -> len ps = cm A -> len mk = cm A -> (forall c, 0 <= c < cm A -> get mk c = 0) ->
  sat (reach A B k (cm A) qinv xj ps mk) (fun '(top, xj', ps', mk') =>
    0 <= top <= cm A /\ len xj' = cm A /\ len ps' = cm A /\ len mk' = cm A /\
    (forall c, 0 <= c < cm A -> get mk' c = 0) /\
    (forall l l', top <= l < cm A -> top <= l' < cm A -> get xj' l = get xj' l' -> l = l') /\
    (forall c, (exists l, top <= l < cm A /\ get xj' l = c) <-> exists s, stored B k s /\ path A qinv s c)).
Proof. exact (reach_set A B k qinv xj ps mk). Qed.
Print Assumptions C14_reach.
(* rows 0 and 1 of A hold the pivots of columns 2 and 1; from row 0 of B (column 2): 2, 1, 3 *)
Definition ex_A : csr := Csr 2 5 [0; 2; 4] [2; 1; 3; 1] (Some [1; 2; 1; 1]) 7.
Definition ex_B : csr := Csr 1 5 [0; 1] [2] (Some [3]) 7.
Example C14_example : wf ex_A /\ wf ex_B /\ qinv_ok ex_A [-1; 1; 0; -1; -1] /\
  reach ex_A ex_B 0 5 [-1; 1; 0; -1; -1] [9; 9; 9; 9; 9] [8; 8; 8; 8; 8] [0; 0; 0; 0; 0]
  = Ok (2, [2; 1; 2; 1; 3], [2; 1; 0; 8; 8], [0; 0; 0; 0; 0]).
Proof.
  split; [now apply wfb_ok|]. split; [now apply wfb_ok|]. split; [|vm_compute; reflexivity].
  split; [reflexivity|]. intros j Hj.
  pose proof (allz_spec 0 5 (fun j => get [-1; 1; 0; -1; -1] j <? 2) eq_refl j Hj) as G. cbn [cn ex_A]. lia.
Qed.

(** * C15 *)
Theorem C15_topological A B k qinv xj ps mk : wf A -> wf B -> cm B = cm A -> 0 <= k < cn B -> qinv_ok A qinv ->
  len xj = cm A -> len ps = cm A -> len mk = cm A -> (forall c, 0 <= c < cm A -> get mk c = 0) ->
  acyclic A qinv ->
  sat (reach A B k (cm A) qinv xj ps mk) (fun '(top, xj', _, _) =>
    forall l c, top <= l < cm A -> edge A qinv (get xj' l) c -> c <> get xj' l ->
      exists l', l < l' < cm A /\ get xj' l' = c).
Proof. exact (reach_topo A B k qinv xj ps mk). Qed.
Print Assumptions C15_topological.
(* a single search, from any column, added to previous ones *)
Theorem C15_dfs A qinv js top xj ps mk : wf A -> qinv_ok A qinv ->
  0 <= top <= cm A -> len xj = cm A -> len ps = cm A -> len mk = cm A ->
  (forall l, top <= l < cm A -> 0 <= get xj l < cm A) ->
  (forall l l', top <= l < cm A -> top <= l' < cm A -> get xj l = get xj l' -> l = l') ->
  (forall l c, top <= l < cm A -> edge A qinv (get xj l) c -> exists l', top <= l' < cm A /\ get xj l' = c) ->
  (acyclic A qinv -> forall l c, top <= l < cm A -> edge A qinv (get xj l) c -> c <> get xj l ->
     exists l', l < l' < cm A /\ get xj l' = c) ->
  (forall c, 0 <= c < cm A -> get mk c <> 0 <-> exists l, top <= l < cm A /\ get xj l = c) ->
  0 <= js < cm A -> get mk js = 0 ->
  sat (dfs A qinv js top xj ps mk) (fun '(top', xj', ps', mk') =>
    0 <= top' <= top /\ len xj' = cm A /\ len ps' = cm A /\ len mk' = cm A /\
    (forall l, top <= l < cm A -> get xj' l = get xj l) /\
    (forall l l', top' <= l < cm A -> top' <= l' < cm A -> get xj' l = get xj' l' -> l = l') /\
    (forall c, (exists l, top' <= l < cm A /\ get xj' l = c) <-> (exists l, top <= l < cm A /\ get xj l = c) \/ path A qinv js c) /\
    (forall c, 0 <= c < cm A -> get mk' c <> 0 <-> exists l, top' <= l < cm A /\ get xj' l = c) /\
    (acyclic A qinv -> forall l c, top' <= l < cm A -> edge A qinv (get xj' l) c -> c <> get xj' l ->
       exists l', l < l' < cm A /\ get xj' l' = c)).
Proof. exact (dfs_set A qinv js top xj ps mk). Qed.
Print Assumptions C15_dfs.
(* triangular matrices are cycle-free; the example above is one *)
Theorem C15_upper_acyclic p U qinv : wf U -> upper p U qinv -> acyclic U qinv.
Proof. exact (upper_acyclic p U qinv). Qed.
Print Assumptions C15_upper_acyclic.
Definition ex_U : csr := Csr 2 5 [0; 2; 4] [2; 1; 3; 1] (Some [1; 2; 3; 1]) 7.
Example C15_example : wf ex_U /\ upper 7 ex_U [-1; 1; 0; -1; -1].
Proof. split; [now apply wfb_ok | now apply upperb_ok]. Qed.

(** * C16 *)
Theorem C16_sparse_triangular_solve U B k qinv xj ps mk x p : wf U -> wf B -> cprime U = p -> cprime B = p -> 2 <= p ->
  cx U <> None -> cx B <> None -> cm B = cm U -> 0 <= k < cn B -> qinv_ok U qinv -> acyclic U qinv ->
  (forall j, 0 <= j < cm U -> 0 <= get qinv j -> cong p (entry U (get qinv j) j) 1) ->
  len xj = cm U -> len ps = cm U -> len mk = cm U -> (forall c, 0 <= c < cm U -> get mk c = 0) -> cm U <= len x ->
  sat (sparse_triangular_solve U B k xj ps mk x qinv) (fun '(top, xj', ps', mk', x') =>
    0 <= top <= cm U /\ len xj' = cm U /\ len ps' = cm U /\ len mk' = cm U /\ (forall c, 0 <= c < cm U -> get mk' c = 0) /\
    (forall l, top <= l < cm U -> 0 <= get xj' l < cm U) /\
    (forall l l', top <= l < cm U -> top <= l' < cm U -> get xj' l = get xj' l' -> l = l') /\
    (forall c, (exists l, top <= l < cm U /\ get xj' l = c) <-> exists s, stored B k s /\ path U qinv s c) /\
    len x' = len x /\
    (forall c, (forall l, top <= l < cm U -> get xj' l <> c) -> get x' c = get x c) /\
    (forall l, top <= l < cm U -> balanced p (get x' (get xj' l))) /\
    (* X is the returned vector: x' on the pattern, zero elsewhere *)
    exists X, (forall l, top <= l < cm U -> X (get xj' l) = get x' (get xj' l)) /\
      (forall c, (forall l, top <= l < cm U -> get xj' l <> c) -> X c = 0) /\
      forall j, 0 <= j < cm U -> cong p (entry B k j)
        (sum 0 (cm U) (fun c => if 0 <=? get qinv c then X c * entry U (get qinv c) j else 0) +
         if get qinv j <? 0 then X j else 0)).
Proof. exact (sparse_triangular_solve_spec U B k qinv xj ps mk x p). Qed.
Print Assumptions C16_sparse_triangular_solve.
(* 3 e2 = 3 (e2 + 2 e1) - 6 (e1 + 3 e3) + 4 e3 modulo 7 *)
Example C16_example : wf ex_U /\ wf ex_B /\ upper 7 ex_U [-1; 1; 0; -1; -1] /\
  sparse_triangular_solve ex_U ex_B 0 [9; 9; 9; 9; 9] [8; 8; 8; 8; 8] [0; 0; 0; 0; 0] [50; 51; 52; 53; 54] [-1; 1; 0; -1; -1]
  = Ok (2, [2; 1; 2; 1; 3], [2; 1; 0; 8; 8], [0; 0; 0; 0; 0], [50; 1; 3; -3; 54]).
Proof.
  split; [now apply wfb_ok|]. split; [now apply wfb_ok|]. split; [now apply upperb_ok|].
  vm_compute; reflexivity.
Qed.

(** * C17 *)
Theorem C17_dense_forward_solve U q b x : wf U -> 2 <= cprime U -> cx U <> None ->
  (forall l, q = Some l -> len l = cn U) -> (forall i, 0 <= i < cn U -> 0 <= oapply q i < cm U) ->
  (forall i, 0 <= i < cn U -> cong (cprime U) (entry U i (oapply q i)) 1) ->
  (forall i k, 0 <= i < cn U -> 0 <= k < i -> cong (cprime U) (entry U i (oapply q k)) 0) ->
  cm U <= len b -> cn U <= len x -> (forall j, 0 <= j < cm U -> balanced (cprime U) (get b j)) ->
  sat (dense_forward_solve U b x q) (fun '(ok, b', x') =>
    len b' = len b /\ len x' = len x /\ (forall i, 0 <= i < cn U -> balanced (cprime U) (get x' i)) /\
    (ok = true <-> in_rowspace (cprime U) U (get b)) /\
    (ok = true -> forall j, 0 <= j < cm U -> cong (cprime U) (xA U (get x') j) (get b j))).
Proof. exact (dense_forward_solve_spec U q b x). Qed.
Print Assumptions C17_dense_forward_solve.
Example C17_example : wf ex_U /\ (forall i, 0 <= i < cn ex_U -> cong 7 (entry ex_U i (get [2; 1] i)) 1) /\
  (forall i k, 0 <= i < cn ex_U -> 0 <= k < i -> cong 7 (entry ex_U i (get [2; 1] k)) 0) /\
  dense_forward_solve ex_U [0; 2; 2; 1; 0] [5; 5] (Some [2; 1]) = Ok (true, [0; 0; 0; 0; 0], [2; -2]) /\
  dense_forward_solve ex_U [0; 2; 2; 2; 0] [5; 5] (Some [2; 1]) = Ok (false, [0; 0; 0; 1; 0], [2; -2]).
Proof.
  split; [now apply wfb_ok|]. split; [|split].
  - intros i Hi. apply congb_ok; [|lia]. exact (allz_spec 0 2 (fun i => congb 7 (entry ex_U i (get [2; 1] i)) 1) eq_refl i Hi).
  - intros i k Hi Hk. cbn [cn ex_U] in Hi. assert (i = 1) by lia. assert (k = 0) by lia. subst. now apply congb_ok.
  - split; vm_compute; reflexivity.
Qed.

(** * C18 *)
(* Full statement: without [nodup_rows] (false, C18_duplicates_refuted) *)
Theorem C18_dense_back_solve_partial L pr b x : wf L -> ok_modulus (cprime L) -> prime (cprime L) -> reduced L -> nodup_rows L ->
  lower (cprime L) L pr -> cm L <= len b -> cn L <= len x ->
  sat (dense_back_solve L b x (Some pr)) (fun '(_, x') => len x' = len x /\
    (forall i, 0 <= i < cn L -> balanced (cprime L) (get x' i)) /\
    (forall i, 0 <= i < cn L -> (forall j, 0 <= j < cm L -> get pr j <> i) -> get x' i = 0) /\
    (forall j, 0 <= j < cm L -> cong (cprime L) (xA L (get x') j) (get b j))).
Proof. exact (dense_back_solve_spec L pr b x). Qed.
Print Assumptions C18_dense_back_solve_partial.
Definition ex_L : csr := Csr 3 2 [0; 2; 3; 4] [0; 1; 0; 1] (Some [1; 2; 3; 1]) 7.
Example C18_example : wf ex_L /\ ok_modulus 7 /\ prime 7 /\ reduced ex_L /\ nodup_rows ex_L /\ lower 7 ex_L [1; 0] /\
  dense_back_solve ex_L [1; 1] [5; 5; 5] (Some [1; 0]) = Ok ([0; 0], [-3; -1; 0]).
Proof.
  split; [now apply wfb_ok|]. split; [unfold ok_modulus; lia|]. split; [now apply primeb_ok|].
  split; [now apply reducedb_ok|]. split; [now apply nodup_rowsb_ok|]. split; [now apply lowerb_ok|].
  vm_compute; reflexivity.
Qed.

(* Without [nodup_rows] it is false: here the diagonal entry 2 is stored as 1 + 1, and the code divides by the first 1 *)
Theorem C18_duplicates_refuted : exists L pr b x, wf L /\ ok_modulus (cprime L) /\ prime (cprime L) /\ reduced L /\ lower (cprime L) L pr /\
  cm L <= len b /\ cn L <= len x /\ exists b' x', dense_back_solve L b x (Some pr) = Ok (b', x') /\ ~ cong (cprime L) (xA L (get x') 0) (get b 0).
Proof.
  exists (Csr 1 1 [0; 2] [0; 0] (Some [1; 1]) 7), [0], [1], [5]. split; [now apply wfb_ok|]. split; [unfold ok_modulus; cbn [cprime]; lia|]. split; [now apply primeb_ok|].
  split; [now apply reducedb_ok|]. split; [now apply lowerb_ok|]. split; [vm_compute; discriminate|]. split; [vm_compute; discriminate|].
  exists [-1], [1]. split; [vm_compute; reflexivity|]. apply ncongb_ok; [vm_compute; reflexivity|discriminate].
Qed.
Print Assumptions C18_duplicates_refuted.

(** * C19 *)
Theorem C19_solve p A f L y0 z0 Uq0 b x : ok_modulus p -> prime p -> factors p A f L ->
  len y0 = cm A -> len z0 = cn (lu_U f) -> len Uq0 = cn (lu_U f) -> cm A <= len b -> cn A <= len x ->
  (forall j, 0 <= j < cm A -> balanced p (get b j)) ->
  sat (solve y0 z0 Uq0 f b x) (fun '(ok, x') =>
    len x' = len x /\ (forall i, 0 <= i < cn A -> balanced p (get x' i)) /\
    (ok = true <-> exists y, forall j, 0 <= j < cm A -> cong p (xA A y j) (get b j)) /\
    (ok = true -> forall j, 0 <= j < cm A -> cong p (xA A (get x') j) (get b j))).
Proof. exact (solve_spec p A f L y0 z0 Uq0 b x). Qed.
Print Assumptions C19_solve.
(* a 3x3 matrix of rank 2 *)
Definition ex_S : csr := Csr 3 3 [0; 2; 4; 5] [0; 1; 0; 1; 2] (Some [2; 1; -3; 2; 3]) 7.
Definition ex_SL : csr := Csr 3 2 [0; 1; 2; 3] [0; 0; 1] (Some [2; -3; 3]) 7.
Definition ex_lu : lu := Lu true (Some ex_SL) (Csr 2 3 [0; 2; 3] [0; 1; 2] (Some [1; -3; 1]) 7) [0; -1; 1] [0; 2].
Example C19_example : factors 7 ex_S ex_lu ex_SL /\
  solve [0; 0; 0] [4; 4] [7; 7] ex_lu [1; -3; 1] [9; 9; 9] = Ok (true, [-3; 0; -2]) /\
  solve [0; 0; 0] [4; 4] [7; 7] ex_lu [1; 0; 1] [9; 9; 9] = Ok (false, [-3; 0; -2]).
Proof.
  split; [apply factorsb_ok; [reflexivity|vm_compute; reflexivity]|]. split; vm_compute; reflexivity.
Qed.
