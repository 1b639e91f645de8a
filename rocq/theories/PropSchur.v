(** Properties C24, C25, C30, C31 and C32: Schur complement, parallel production of rows,
    reduced row echelon form, kernels. *)
From Verif Require Import Base BaseFacts Spec SpecFacts Zp Mat MatFacts Checks RowList Reach Par ParProofs ParRows ParTasks Schur SchurProofs
  Rref RrefProofs KernelProofs.
From Coq Require Import Permutation.

(** * C24 *)
(* [ch] is the schedule, [scr] the scratch space of the threads, [size] the initial capacity *)
Theorem C24_schur g ch scr size A p n U qinv prime L p_in p_out :
  wf A -> wf U -> cprime A = prime -> cprime U = prime -> 2 <= prime -> cx A <> None -> cx U <> None -> cm A = cm U ->
  upper prime U qinv -> match p_in with Some l => len l = cn A | None => True end ->
  0 <= n <= len p -> (forall i, 0 <= i < n -> 0 <= get p i < cn A) -> 0 <= size ->
  (forall i, 0 <= i < n -> scr_ok (cm A) (scr i)) ->
  ores L (fun L => twf L /\ tx L <> None /\ cn U <= tm L /\ forall i, 0 <= i < n -> 0 <= oapply p_in (get p i) < tn L) ->
  ores p_out (fun po => n <= len po) ->
  sat (schur g ch scr size A p n U qinv L p_in p_out) (fun '(Sc, L', p_out') =>
    wf Sc /\ cn Sc = n /\ cm Sc = cm A /\ cprime Sc = prime /\ len (cj Sc) = nnz Sc /\
    reduced Sc /\ no_zero Sc /\ nodup_rows Sc /\
    (forall k j, 0 <= k < n -> stored Sc k j -> get qinv j < 0) /\
    exists o lam, is_perm n o /\
      (forall k j, 0 <= k < n -> 0 <= j < cm A ->
        cong prime (entry A (get p (get o k)) j) (xA U (lam k) j + entry Sc k j)) /\
      match p_out, p_out' with
      | Some po, Some po' => len po' = len po /\ forall k, 0 <= k < n -> get po' k = oapply p_in (get p (get o k))
      | None, None => True | _, _ => False end /\
      match L, L' with
      | Some L, Some L' => twf L' /\ tx L' <> None /\ tn L' = tn L /\ tm L' = tm L /\ tprime L' = tprime L /\
          tnz L <= tnz L' /\ (forall k, 0 <= k < tnz L -> get (ti L') k = get (ti L) k /\ get (tj L') k = get (tj L) k /\ tval L' k = tval L k) /\
          (forall k, tnz L <= k < tnz L' -> balanced prime (tval L' k) /\ tval L' k <> 0 /\ 0 <= get (tj L') k < cn U /\
            exists r, 0 <= r < n /\ get (ti L') k = oapply p_in (get p (get o r)) /\ tval L' k = lam r (get (tj L') k)) /\
          (forall i q, tentry L' i q = tentry L i q +
            sum 0 n (fun k => if oapply p_in (get p (get o k)) =? i then lam k q else 0))
      | None, None => True | _, _ => False end).
Proof. exact (schur_ok g ch scr size A p n U qinv prime L p_in p_out). Qed.
Print Assumptions C24_schur.

Definition ex_A : csr := Csr 3 4 [0; 3; 5; 8] [0; 1; 2; 0; 3; 1; 2; 3] (Some [1; 2; 3; 2; 1; 3; 1; 1]) 7.
Definition ex_U : csr := Csr 1 4 [0; 3] [0; 1; 2] (Some [1; 2; 3]) 7.
Definition ex_q : list Z := [0; -1; -1; -1].
Definition ex_scr (m : Z) (i : Z) : scratch := (fill m i, fill m 9, fill m 0, fill (m + 1) (-3)).
Lemma ex_scr_ok m i : 0 <= m -> scr_ok m (ex_scr m i).
Proof. intros Hm. unfold scr_ok, ex_scr. rewrite !len_fill. repeat split; try lia. intros c _. apply get_fill0. Qed.
(* rows 2 and 1, from an empty buffer, L and p_out; under another schedule the rows are swapped *)
Example C24_example : wf ex_A /\ wf ex_U /\ upper 7 ex_U ex_q /\ scr_ok 4 (ex_scr 4 0) /\
  twf (Triplet 0 3 2 [] [] (Some []) 7) /\
  schur (fun _ _ => 77) (fun _ => 0) (ex_scr 4) 0 ex_A [2; 1] 2 ex_U ex_q (Some (Triplet 0 3 2 [] [] (Some []) 7)) None (Some [5; 5])
    = Ok (Csr 2 4 [0; 3; 6] [3; 2; 1; 3; 2; 1] (Some [1; 1; 3; 1; 1; 3]) 7, Some (Triplet 1 3 2 [1; 77; 77; 77] [0; 77; 77; 77] (Some [2; 77; 77; 77]) 7), Some [2; 1]) /\
  (exists Sc L po, schur (fun _ _ => 77) (fun _ => 1) (ex_scr 4) 0 ex_A [2; 1] 2 ex_U ex_q (Some (Triplet 0 3 2 [] [] (Some []) 7)) None (Some [5; 5])
    = Ok (Sc, L, Some po) /\ po = [1; 2]).
Proof.
  split; [now apply wfb_ok|]. split; [now apply wfb_ok|]. split; [now apply upperb_ok|]. split; [apply ex_scr_ok; lia|].
  split; [now apply twfb_ok|].
  split; [vm_compute; reflexivity|]. eexists _, _, _. split; [vm_compute; reflexivity|reflexivity].
Qed.

(** * C25 *)
(* the protocol, for any tasks that use the room they ask for *)
Theorem C25_protocol g hasL lextra T N R l0 m0 : tasks_ok hasL lextra T N R l0 m0 ->
  par_safe g hasL lextra N T l0 m0.
Proof. exact (tasks_par_safe g hasL lextra T N R l0 m0). Qed.
Print Assumptions C25_protocol.
(* the rows of the result are those computed by the tasks, in some order *)
Theorem C25_rows g ch T N R m prime row S : 0 <= N ->
  (forall t, 0 <= t < N -> t_act (T t) = true -> row_task (T t) (row t)) ->
  (forall t, ~ 0 <= t < N \/ t_act (T t) = false -> T t = idle) ->
  sum 0 N (fun t => b2z (t_act (T t))) = R -> len (cp S) = R + 1 -> get (cp S) 0 = 0 ->
  len (rows_mem S SX) = len (cj S) ->
  sat (par_for g false 0 N ch T 0 (rows_mem S)) (fun h => exists o,
    Permutation o (filter (fun t => t_act (T t)) (zseq 0 N)) /\
    let M := Csr R m (s_mem h SP) (s_mem h SJ) (Some (s_mem h SX)) prime in
    len o = R /\ forall k, 0 <= k < R -> rowl M k = row (get o k)).
Proof. exact (par_for_rows g ch T N R m prime row S). Qed.
Print Assumptions C25_rows.
(* and so for the three loops; what is produced is the object of C24, C30, C31 *)
Theorem C25_schur g scr A p n U qinv prime (hasL : bool) p_in has_out l0 m0 :
  wf A -> wf U -> cprime A = prime -> cprime U = prime -> 2 <= prime -> cx A <> None -> cx U <> None -> cm A = cm U ->
  upper prime U qinv -> match p_in with Some l => len l = cn A | None => True end ->
  0 <= n <= len p -> (forall i, 0 <= i < n -> 0 <= get p i < cn A) ->
  (forall i, 0 <= i < n -> scr_ok (cm A) (scr i)) ->
  0 <= l0 -> (has_out = true -> n <= len (m0 PO)) ->
  len (m0 SX) = len (m0 SJ) -> len (m0 LJ) = len (m0 LI) -> len (m0 LX) = len (m0 LI) ->
  (hasL = true -> l0 <= len (m0 LI)) -> len (m0 SP) = n + 1 ->
  sat (all_tasks n (fun i => schur_task A U p qinv hasL p_in has_out (scr i) i)) (fun ts =>
    par_safe g hasL (cm A) n (getd idle ts) l0 m0).
Proof. exact (schur_par_safe g scr A p n U qinv prime hasL p_in has_out l0 m0). Qed.
Print Assumptions C25_schur.
Theorem C25_rref g scr U qinv p m0 :
  wf U -> cprime U = p -> 2 <= p -> cx U <> None -> upper p U qinv -> pivot_first U qinv ->
  (forall i, 0 <= i < cn U -> scr_ok (cm U) (scr i)) ->
  len (m0 SX) = len (m0 SJ) -> len (m0 LJ) = len (m0 LI) -> len (m0 LX) = len (m0 LI) -> len (m0 SP) = cn U + 1 ->
  sat (all_tasks (cn U) (fun i => rref_task U qinv (scr i) i)) (fun ts => par_safe g false 0 (cn U) (getd idle ts) 0 m0).
Proof. exact (rref_par_safe g scr U qinv p m0). Qed.
Print Assumptions C25_rref.
Theorem C25_kernel g scr U Ut qinv Utq p m0 :
  wf U -> cprime U = p -> 2 <= p -> upper p U qinv ->
  wf Ut -> cn Ut = cm U -> cm Ut = cn U -> cprime Ut = p -> cx Ut <> None ->
  (forall i j, 0 <= i < cn U -> 0 <= j < cm U -> entry Ut j i = entry U i j) ->
  (forall i j, 0 <= i < cn U -> 0 <= j < cm U -> stored Ut j i <-> stored U i j) ->
  len Utq = cn U -> (forall i, 0 <= i < cn U -> 0 <= get Utq i < cm U /\ get qinv (get Utq i) = i) ->
  (forall j, 0 <= j < cm U -> scr_ok (cn U) (scr j)) ->
  len (m0 SX) = len (m0 SJ) -> len (m0 LJ) = len (m0 LI) -> len (m0 LX) = len (m0 LI) -> len (m0 SP) = cm U - cn U + 1 ->
  sat (all_tasks (cm U) (fun j => kernel_task Ut qinv Utq (scr j) j)) (fun ts => par_safe g false 0 (cm U) (getd idle ts) 0 m0).
Proof. exact (kernel_par_safe g scr U Ut qinv Utq p m0). Qed.
Print Assumptions C25_kernel.
(* two tasks; the second one waits for the first writer before growing the buffer; a protocol
   without this wait has a race (see the accesses of the configuration that is reached) *)
Definition ex_task (k : Z) : task := Task true 1 2 1 0 [Wr SJ 0 k; Wr SX 0 k; Wr SP 0 1].
Definition ex_mem (b : buf) : list Z := match b with SJ | SX => [0] | SP => [0; 0; 0] | _ => [] end.
Definition ex_c0 : config := (Shared None 0 0 0 0 ex_mem, start ex_task 2).
Lemma ex_tasks_ok : tasks_ok false 0 ex_task 2 2 0 ex_mem.
Proof.
  constructor; try (cbn; lia); try reflexivity.
  - cbn. split; [lia|]. intros. lia.
  - intros t w _ _ Hw. cbn in Hw. destruct Hw as [<-|[<-|[<-|[]]]]; cbn; (split; [lia|discriminate]).
  - intros t. cbn. repeat constructor; cbn; intuition discriminate.
Qed.
Example C25_example : tasks_ok false 0 ex_task 2 2 0 ex_mem /\
  (forall t, row_task (ex_task t) [(t, t)]) /\
  (* task 0 is registered as a writer, task 1 is waiting to grow the arrays *)
  (exists c, run (fun _ _ => 7) false 0 ex_task [0; 0; 0; 0; 0; 0; 0; 0; 1; 1; 1; 1] ex_c0 = Ok c /\
     map (can_step (fun _ _ => 7) false 0 ex_task c) [0; 1] = [true; false] /\
     getd Fin (snd c) 1 = WaitS /\ s_writing (fst c) = 1) /\
  (* if task 1 did not wait, there would be a race *)
  (forall c, run (fun _ _ => 7) false 0 ex_task [0; 0; 0; 0; 0; 0; 0; 1; 1] ex_c0 = Ok c ->
     race ex_task (fst c, upd (snd c) 1 GrowS)).
Proof.
  split; [apply ex_tasks_ok|]. split.
  { intros t. unfold row_task. cbn [ex_task t_need t_extra t_ssz t_lsz t_prog]. change (len [(t, t)]) with 1.
    do 4 (split; [lia|]). split; [|split].
    - constructor; change (len [(t, t)]) with 1; cbn; auto; intros k Hk; assert (k = 0) by lia; subst k; cbn; auto.
    - cbn. repeat constructor; cbn; intuition discriminate.
    - intros w Hw. cbn in Hw. destruct Hw as [<-|[<-|[<-|[]]]]; cbn; lia. }
  split.
  - eexists. split; [vm_compute; reflexivity|]. split; [reflexivity|]. split; reflexivity.
  - intros c Hc. vm_compute in Hc. injection Hc as <-.
    exists 0, 1, (Cell SJ 0, true), (Array SJ, true). split; [lia|]. split; [now left|]. split; [now left|reflexivity].
Qed.

(** * C30 *)
(* The row pointers of R are converted to int by the code (rref.c:137): hence the bound on the
   size of R.  False beyond it: C30_rref_refuted (PropWide.v). *)
Theorem C30_rref_partial g ch scr U qinv p Rqinv :
  wf U -> cprime U = p -> 2 <= p -> cx U <> None -> upper p U qinv -> pivot_first U qinv ->
  (forall i, 0 <= i < cn U -> scr_ok (cm U) (scr i)) -> len Rqinv = cm U ->
  cn U * (cm U - cn U + 1) < 2 ^ 31 ->
  sat (rref g ch scr U qinv Rqinv) (fun '(R, q) =>
    wf R /\ cn R = cn U /\ cm R = cm U /\ cprime R = p /\ reduced R /\ no_zero R /\ nodup_rows R /\
    rref_form p R q /\ (forall j, 0 <= j < cm U -> get q j = -1 <-> get qinv j = -1) /\
    (forall i, 0 <= i < cn U -> in_rowspace p U (entry R i)) /\
    (forall i, 0 <= i < cn U -> in_rowspace p R (entry U i))).
Proof. exact (rref_ok g ch scr U qinv p Rqinv). Qed.
Print Assumptions C30_rref_partial.
Definition ex_R : csr := Csr 2 4 [0; 4; 6] [2; 0; 1; 3; 0; 3] (Some [1; 2; 3; 1; 1; 2]) 7.
Definition ex_Rq : list Z := [1; -1; 0; -1].
Example C30_example : wf ex_R /\ upper 7 ex_R ex_Rq /\ pivot_first ex_R ex_Rq /\ scr_ok 4 (ex_scr 4 0) /\
  rref (fun _ _ => 77) (fun _ => 0) (ex_scr 4) ex_R ex_Rq [8; 8; 8; 8] =
    Ok (Csr 2 4 [0; 3; 5] ([2; 3; 1; 0; 3] ++ fill 11 77) (Some ([1; -3; 3; 1; 2] ++ fill 11 77)) 7, [1; -1; 0; -1]).
Proof.
  split; [now apply wfb_ok|]. split; [now apply upperb_ok|]. split; [now apply pivot_firstb_ok|]. split; [apply ex_scr_ok; lia|].
  vm_compute; reflexivity.
Qed.

(** * C31 *)
Theorem C31_kernel g ch scr U qinv p :
  wf U -> cprime U = p -> 2 <= p -> cx U <> None -> upper p U qinv ->
  (forall j, 0 <= j < cm U -> scr_ok (cn U) (scr j)) ->
  sat (kernel g ch scr U qinv) (fun K =>
    wf K /\ cn K = cm U - cn U /\ cm K = cm U /\ cprime K = p /\ (3 <= p -> reduced K) /\
    (forall px, 0 <= px < nnz K -> val K px = -1 \/ balanced p (val K px)) /\ no_zero K /\ nodup_rows K /\
    kernel_basis p U K).
Proof. exact (kernel_ok g ch scr U qinv p). Qed.
Print Assumptions C31_kernel.
Example C31_example : wf ex_R /\ upper 7 ex_R ex_Rq /\ scr_ok 2 (ex_scr 2 0) /\
  kernel (fun _ _ => 77) (fun _ => 0) (ex_scr 2) ex_R ex_Rq =
    Ok (Csr 2 4 [0; 2; 5] [1; 2; 3; 0; 2; 77] (Some [-1; 3; -1; 2; -3; 77]) 7).
Proof.
  split; [now apply wfb_ok|]. split; [now apply upperb_ok|]. split; [apply ex_scr_ok; lia|]. vm_compute; reflexivity.
Qed.

(** * C32 *)
(* partial: the claim is about all moduli, but it fails for those above 2^31 *)
Theorem C32_kernel_from_rref_partial R qinv p : wf R -> cprime R = p -> rref_form p R qinv -> cx R <> None ->
  nnz R < 2 ^ 31 -> 2 <= p <= 2 ^ 31 -> forall g, sat (kernel_from_rref g R qinv) (fun K =>
    wf K /\ cn K = cm R - cn R /\ cm K = cm R /\ nnz K = nnz R - cn R + (cm R - cn R) /\ cprime K = p /\ kernel_basis p R K).
Proof. exact (kernel_from_rref_ok R qinv p). Qed.
Print Assumptions C32_kernel_from_rref_partial.
(* p - 1 is stored in a 32-bit integer without being normalised (kernel.c:163) *)
Theorem C32_kernel_from_rref_refuted : exists R qinv p,
  wf R /\ cprime R = p /\ rref_form p R qinv /\ reduced R /\ ok_modulus p /\
  forall g, sat (kernel_from_rref g R qinv) (fun K => ~ kernel_basis p R K).
Proof.
  set (R := Csr 1 2 [0; 2] [0; 1] (Some [1; 1]) 4294967291).
  exists R, [0; -1], 4294967291.
  split; [now apply wfb_ok|]. split; [reflexivity|]. split; [now apply rref_formb_ok|]. split; [now apply reducedb_ok|].
  split; [unfold ok_modulus; lia|].
  intros g. set (K := kernel_from_rref g R [0; -1]). vm_compute in K. subst K. cbn [sat]. intros [_ H _ _].
  specialize (H 0 ltac:(cbn; lia) 0 ltac:(cbn; lia)). revert H. apply ncong_compute; [reflexivity|]. vm_compute. reflexivity.
Qed.
Print Assumptions C32_kernel_from_rref_refuted.
Definition ex_F : csr := Csr 2 4 [0; 3; 5] [2; 1; 3; 0; 3] (Some [1; 3; -3; 1; 2]) 7.
Example C32_example : wf ex_F /\ rref_form 7 ex_F [1; -1; 0; -1] /\
  kernel_from_rref (fun _ _ => 77) ex_F [1; -1; 0; -1] =
    Ok (Csr 2 4 [0; 2; 5] [1; 2; 3; 2; 0] (Some [6; 3; 6; -3; 2]) 7).
Proof. split; [now apply wfb_ok|]. split; [now apply rref_formb_ok|]. vm_compute; reflexivity. Qed.
