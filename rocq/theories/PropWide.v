(** C74, and C30 beyond its bound: matrices with 2^31 entries or more. *)
From Verif Require Import Base BaseFacts Spec SpecFacts Zp Mat MatFacts CompressProofs Rref RrefProofs SpecScc Scc SccProofs Wide WideProofs RrefWideProofs Schur SchurProofs PropSchur Checks.

(** ** C74 *)
(* spasm_compress, with the counter of its first loop in 32 bits *)
Theorem C74_compress_partial g T : twf T -> tx T = None -> tnz T < 2 ^ 31 ->
  sat (compress32 g T) (fun C =>
    wf C /\ cn C = tn T /\ cm C = tm T /\ cprime C = tprime T /\ cx C = None /\
    nodup_rows C /\ (forall i j, 0 <= i < tn T -> stored C i j <-> tstored T i j)).
Proof. intros HT Hx Hn. rewrite compress32_eq by exact Hn. exact (compress_pattern g T HT Hx). Qed.
Print Assumptions C74_compress_partial.
(* with values: the same result as in C06 *)
Theorem C74_compress_values g T : tnz T < 2 ^ 31 -> compress32 g T = compress g T.
Proof. exact (compress32_eq g T). Qed.
Print Assumptions C74_compress_values.
Example C74_compress_example : let T := Triplet 4 2 3 [0; 1; 0; 1] [0; 2; 0; 2] (Some [1; -2; 1; -1]) 7 in
  twf T /\ tnz T < 2 ^ 31 /\ compress32 (fun _ _ => 77) T = Ok (Csr 2 3 [0; 1; 2] [0; 2] (Some [2; -3]) 7).
Proof. split; [now apply twfb_ok|]. split; [reflexivity|]. vm_compute. reflexivity. Qed.
(* as soon as there are 2^31 triplets, the counter overflows: whatever the triplets *)
Theorem C74_compress_all g T : twf T -> 2 ^ 31 <= tnz T -> compress32 g T = Fail Overflow.
Proof. exact (compress32_overflow g T). Qed.
Print Assumptions C74_compress_all.
Theorem C74_compress_refuted : exists T, twf T /\ tn T = 1 /\ tm T = 1 /\ tnz T = 2 ^ 31 /\ forall g, compress32 g T = Fail Overflow.
Proof.
  exists wide_T. split; [exact wide_T_wf|]. split; [reflexivity|]. split; [reflexivity|]. split; [reflexivity|].
  intros g. apply compress32_overflow; [exact wide_T_wf|discriminate].
Qed.
Print Assumptions C74_compress_refuted.

(* spasm_kernel_from_rref reads the position of the pivot of each row in 32 bits *)
Theorem C74_kernel_all g R qinv i : wf R -> cn R <= cm R -> 0 <= i < cn R -> 2 ^ 31 <= rbeg R i < 2 ^ 32 ->
  kernel_from_rref g R qinv = Fail OOB.
Proof. exact (kernel_from_rref_wide g R qinv i). Qed.
Print Assumptions C74_kernel_all.
(* three rows, in reduced row echelon form, and dimensions that fit in 32 bits *)
Theorem C74_kernel_refuted : exists R qinv, wf R /\ rref_form 7 R qinv /\ cn R = 3 /\ cm R = 2 ^ 30 + 3 /\ nnz R = 2 ^ 31 + 3 /\
  forall g, kernel_from_rref g R qinv = Fail OOB.
Proof. exact kernel_wide_witness. Qed.
Print Assumptions C74_kernel_refuted.

(* spasm_strongly_connected_components computes the positions of the entries in 32 bits *)
Theorem C74_scc_partial g A : wf A -> cm A = cn A -> len (cj A) <= 2 ^ 31 ->
  sat (strongly_connected_components32 g A) (fun D => is_perm (cn A) (dm_p D) /\ dm_q D = dm_p D /\
    boundaries (cn A) (dm_nb D) (dm_r D) /\ (forall t, 0 <= t <= dm_nb D -> get (dm_c D) t = get (dm_r D) t) /\
    (forall t u a b, 0 <= t < dm_nb D -> 0 <= u < dm_nb D -> in_block (dm_r D) t a -> in_block (dm_r D) u b ->
      (strong A (get (dm_p D) a) (get (dm_p D) b) <-> t = u)) /\
    (forall t u a b, 0 <= t < dm_nb D -> 0 <= u < dm_nb D -> in_block (dm_r D) t a -> in_block (dm_r D) u b ->
      stored A (get (dm_p D) a) (get (dm_p D) b) -> t <= u)).
Proof. intros HA Hs Hl. pose proof (scc_correct g A HA Hs) as H. destruct (strongly_connected_components g A) as [D|] eqn:E; [|contradiction]. rewrite (scc32_ok g A Hl D E). exact H. Qed.
Print Assumptions C74_scc_partial.
Definition ex_wide_scc : csr := Csr 6 6 [0; 1; 2; 3; 5; 6; 8] [2; 3; 0; 0; 4; 1; 5; 2] None 7.
Example C74_scc_example : wf ex_wide_scc /\ cm ex_wide_scc = cn ex_wide_scc /\ len (cj ex_wide_scc) <= 2 ^ 31 /\
  match strongly_connected_components32 (fun _ _ => 77) ex_wide_scc with
  | Ok D => (dm_nb D, dm_p D, firstn 4 (dm_r D)) = (3, [5; 1; 3; 4; 0; 2], [0; 1; 4; 6]) | Fail _ => False end.
Proof. split; [now apply wfb_ok|]. split; [reflexivity|]. split; [discriminate|]. vm_compute. reflexivity. Qed.

(* the search goes from row 0 to row k, whose entries begin at position 2^31 or later *)
Theorem C74_scc_all g A k : wf A -> cm A = cn A -> 0 < cn A -> rbeg A 0 < rend A 0 -> get (cj A) 0 = k -> k <> 0 ->
  2 ^ 31 <= rbeg A k < 2 ^ 32 -> rbeg A k < rend A k -> strongly_connected_components32 g A = Fail OOB.
Proof. exact (scc32_wide g A k). Qed.
Print Assumptions C74_scc_all.
(* n = 2^30, row 0 = {3}, row 3 = {0}, rows 1 and 2 are full: C74_scc_all applies to it *)
Theorem C74_scc_refuted : exists A, wf A /\ nodup_rows A /\ cm A = cn A /\ cn A = 2 ^ 30 /\ nnz A = 2 ^ 31 + 2 /\
  forall g, strongly_connected_components32 g A = Fail OOB.
Proof. exact scc_wide_witness. Qed.
Print Assumptions C74_scc_refuted.

(** ** C30 beyond 2^31 entries *)
(* The pivots are alone in their columns and the other columns are full: as soon as the row of R at position k begins at
   2^31 or later, its first entry is looked for at a negative position (rref.c:137), whatever the schedule. *)
Theorem C30_rref_all g ch scr U qinv p Rqinv k :
  wf U -> cprime U = p -> 2 <= p -> cx U <> None -> upper p U qinv -> pivot_first U qinv ->
  (forall i, 0 <= i < cn U -> scr_ok (cm U) (scr i)) -> len Rqinv = cm U ->
  (forall i j, 0 <= i < cn U -> 0 <= j < cn U -> i <> j -> cong p (entry U i (get (cj U) (rbeg U j))) 0) ->
  (forall i j, 0 <= i < cn U -> 0 <= j < cm U -> get qinv j = -1 -> ~ cong p (entry U i j) 0) ->
  0 <= k < cn U -> 2 ^ 31 <= k * (cm U - cn U + 1) -> cn U * (cm U - cn U + 1) <= 2 ^ 32 ->
  rref g ch scr U qinv Rqinv = Fail OOB.
Proof. intros HU Hp Hp2 Hx HUp Hpf Hs HR Ha Hf. exact (rref_wide U qinv p HU HUp Hpf Hp2 Ha Hf g ch scr Rqinv k Hp Hx Hs HR). Qed.
Print Assumptions C30_rref_all.
(* three rows with 2^30 entries besides the pivots: C30_rref_all applies to it, with k = 2 *)
Theorem C30_rref_refuted : exists U qinv, wf U /\ cprime U = 7 /\ cx U <> None /\ upper 7 U qinv /\ pivot_first U qinv /\
  cn U = 3 /\ cm U = 2 ^ 30 + 3 /\ nnz U = 3 * 2 ^ 30 + 3 /\
  forall g ch scr Rqinv, (forall i, 0 <= i < cn U -> scr_ok (cm U) (scr i)) -> len Rqinv = cm U -> rref g ch scr U qinv Rqinv = Fail OOB.
Proof. exact rref_wide_witness. Qed.
Print Assumptions C30_rref_refuted.
Example C30_scratch m t : 0 <= m -> scr_ok m (ex_scr m t).
Proof. exact (ex_scr_ok m t). Qed.
