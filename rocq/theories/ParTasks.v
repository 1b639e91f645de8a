(** The tasks of spasm_schur, spasm_rref and spasm_kernel can safely run in parallel. *)
From Verif Require Import Base BaseFacts Spec SpecFacts Zp ZpFacts Mat MatFacts TransposeProofs RowList Reach ReachProofs TriProofs
  Solve SolveProofs LinAlg Par ParProofs ParRun ParRows Schur SchurProofs Rref RrefProofs.
From Coq Require Import Permutation ZifyBool.

Theorem tasks_par_safe g hasL lextra T N R l0 m0 : tasks_ok hasL lextra T N R l0 m0 ->
  par_safe g hasL lextra N T l0 m0.
Proof.
  intros OK. pose proof (good_c0 hasL lextra T N R l0 m0 OK) as G0. split.
  - intros sched. pose proof (run_ok g hasL lextra T N R l0 m0 OK sched _ G0) as HR.
    fold (c0 T N l0 m0). destruct (run g hasL lextra T sched (c0 T N l0 m0)) as [c|] eqn:E; [|easy]. cbn [sat] in *.
    split; [now apply (good_norace g hasL lextra T N R l0 m0)|]. split.
    + intros Hd. destruct (good_progress g hasL lextra T N R l0 m0 OK c HR Hd) as (t & Ht & He). exists t. split; auto.
      pose proof (proj2 (filter_enabled g hasL lextra T N R l0 m0 OK c t HR) (conj Ht He)) as Hf. apply filter_In in Hf. apply Hf.
    + intros Hd. destruct (par_run_complete g hasL lextra T N R l0 m0 OK sched _ (par_fuel T N) 0 c G0) as (ch & Hc); auto.
      { apply (fuel_ok hasL lextra T N R l0 m0 OK). }
      exists ch. unfold par_for. fold (c0 T N l0 m0). now rewrite Hc.
  - intros ch. pose proof (par_for_ok g hasL lextra T N R l0 m0 OK ch) as H.
    destruct (par_for g hasL lextra N ch T l0 m0) as [h|]; [eauto|easy].
Qed.

Theorem schur_par_safe g scr A p n U qinv prime (hasL : bool) p_in has_out l0 m0 :
  wf A -> wf U -> cprime A = prime -> cprime U = prime -> 2 <= prime -> cx A <> None -> cx U <> None -> cm A = cm U ->
  upper prime U qinv -> match p_in with Some l => len l = cn A | None => True end ->
  0 <= n <= len p -> (forall i, 0 <= i < n -> 0 <= get p i < cn A) ->
  (forall i, 0 <= i < n -> scr_ok (cm A) (scr i)) ->
  0 <= l0 -> (has_out = true -> n <= len (m0 PO)) ->
  len (m0 SX) = len (m0 SJ) -> len (m0 LJ) = len (m0 LI) -> len (m0 LX) = len (m0 LI) ->
  (hasL = true -> l0 <= len (m0 LI)) -> len (m0 SP) = n + 1 ->
  sat (all_tasks n (fun i => schur_task A U p qinv hasL p_in has_out (scr i) i)) (fun ts =>
    par_safe g hasL (cm A) n (getd idle ts) l0 m0).
Proof.
  intros HA HU HpA HpU Hp2 HxA HxU Hm HUp Hpin Hn Hp Hscr. intros.
  eapply sat_mono.
  { apply (all_tasks_ok ([], []) n _ (fun i T x => task_spec A U qinv prime hasL p_in has_out (get p i) T (fst x) (snd x))).
    - lia.
    - intros i Hi. eapply sat_mono.
      + apply (schur_task_ok A U p qinv prime hasL p_in has_out HA HU HpA HpU Hp2 HxA HxU Hm HUp Hpin (scr i) i); auto; lia.
      + cbv beta. intros T (sr & lr & HT). exists (sr, lr). exact HT. }
  cbv beta. intros ts (Hts & xs & Hxs & HT). apply (tasks_par_safe g hasL (cm A) _ n n l0 m0).
  apply (specs_tasks_ok A U qinv prime hasL p_in has_out (get p) n _ (fun t => fst (getd ([], []) xs t)) (fun t => snd (getd ([], []) xs t))); auto; try lia.
  - apply (wf_m A HA).
  - intros t Ht. apply getd_out. lia.
Qed.

Theorem rref_par_safe g scr U qinv p m0 :
  wf U -> cprime U = p -> 2 <= p -> cx U <> None -> upper p U qinv -> pivot_first U qinv ->
  (forall i, 0 <= i < cn U -> scr_ok (cm U) (scr i)) ->
  len (m0 SX) = len (m0 SJ) -> len (m0 LJ) = len (m0 LI) -> len (m0 LX) = len (m0 LI) -> len (m0 SP) = cn U + 1 ->
  sat (all_tasks (cn U) (fun i => rref_task U qinv (scr i) i)) (fun ts => par_safe g false 0 (cn U) (getd idle ts) 0 m0).
Proof.
  intros HU Hp Hp2 Hx HUp Hpf Hscr. intros. pose proof (wf_n U HU) as Hn.
  eapply sat_mono.
  { apply (all_tasks_ok ([], fun _ => 0) (cn U) _ (fun i T x => rref_spec U qinv p i T (fst x) (snd x))).
    - lia.
    - intros i Hi. eapply sat_mono; [apply (rref_task_ok U qinv p HU Hp Hp2 Hx HUp Hpf (scr i) i); auto|].
      cbv beta. intros T (row & y & HT). exists (row, y). exact HT. }
  cbv beta. intros ts (Hts & xs & Hxs & HT). apply (tasks_par_safe g false 0 _ (cn U) (cn U) 0 m0).
  apply (rows_tasks_ok _ (cn U) (cn U) (fun t => fst (getd ([], fun _ => 0) xs t))); auto.
  - intros t Ht _. apply (HT t Ht).
  - intros t [Ht|Ht]; [apply getd_out; lia|]. destruct (Z_lt_le_dec t 0); [apply getd_out; lia|].
    destruct (Z_lt_le_dec t (cn U)); [|apply getd_out; lia]. destruct (HT t) as [E _]; [lia|congruence].
  - rewrite (sum_ext 0 (cn U) _ (fun _ => 1)). { rewrite sum_const by lia. lia. }
    intros i Hi. destruct (HT i Hi) as [-> _]. reflexivity.
Qed.

Theorem kernel_par_safe g scr U Ut qinv Utq p m0 :
  wf U -> cprime U = p -> 2 <= p -> upper p U qinv ->
  wf Ut -> cn Ut = cm U -> cm Ut = cn U -> cprime Ut = p -> cx Ut <> None ->
  (forall i j, 0 <= i < cn U -> 0 <= j < cm U -> entry Ut j i = entry U i j) ->
  (forall i j, 0 <= i < cn U -> 0 <= j < cm U -> stored Ut j i <-> stored U i j) ->
  len Utq = cn U -> (forall i, 0 <= i < cn U -> 0 <= get Utq i < cm U /\ get qinv (get Utq i) = i) ->
  (forall j, 0 <= j < cm U -> scr_ok (cn U) (scr j)) ->
  len (m0 SX) = len (m0 SJ) -> len (m0 LJ) = len (m0 LI) -> len (m0 LX) = len (m0 LI) -> len (m0 SP) = cm U - cn U + 1 ->
  sat (all_tasks (cm U) (fun j => kernel_task Ut qinv Utq (scr j) j)) (fun ts => par_safe g false 0 (cm U) (getd idle ts) 0 m0).
Proof.
  intros HU Hp Hp2 HUp T1 T2 T3 T4 T5 T6 T7 Lq Hq Hscr. intros. pose proof (wf_m U HU) as Hm.
  eapply sat_mono.
  { apply (all_tasks_ok [] (cm U) _ (fun j T row => if 0 <=? get qinv j then T = idle else kernel_spec U qinv p j T row)).
    - lia.
    - intros j Hj. eapply sat_mono.
      + apply (kernel_task_ok U Ut qinv Utq p); auto; congruence.
      + cbv beta. intros T. destruct (0 <=? get qinv j); auto. intros ->. exists []. auto. }
  cbv beta. intros ts (Hts & xs & Hxs & HT).
  assert (Hact : forall t, 0 <= t < cm U -> t_act (getd idle ts t) = negb (0 <=? get qinv t)).
  { intros t Ht. specialize (HT t Ht). destruct (0 <=? get qinv t). { now rewrite HT. } now destruct HT as [-> _]. }
  apply (tasks_par_safe g false 0 _ (cm U) (cm U - cn U) 0 m0).
  apply (rows_tasks_ok _ (cm U) (cm U - cn U) (getd [] xs)); auto.
  - intros t Ht Ha. rewrite Hact in Ha by auto. specialize (HT t Ht). destruct (0 <=? get qinv t); [discriminate|]. apply HT.
  - intros t [Ht|Ht]; [apply getd_out; lia|]. destruct (Z_lt_le_dec t 0); [apply getd_out; lia|].
    destruct (Z_lt_le_dec t (cm U)); [|apply getd_out; lia]. rewrite Hact in Ht by lia. specialize (HT t ltac:(lia)).
    destruct (0 <=? get qinv t); [auto|discriminate].
  - rewrite <- (count_free p U qinv HU HUp). apply sum_ext. intros t Ht. rewrite Hact by auto. destruct (0 <=? get qinv t); reflexivity.
Qed.

(* the rows of the result are those computed by the tasks, in some order *)
Theorem par_for_rows g ch T N R m prime row S : 0 <= N ->
  (forall t, 0 <= t < N -> t_act (T t) = true -> row_task (T t) (row t)) ->
  (forall t, ~ 0 <= t < N \/ t_act (T t) = false -> T t = idle) ->
  sum 0 N (fun t => b2z (t_act (T t))) = R -> len (cp S) = R + 1 -> get (cp S) 0 = 0 ->
  len (rows_mem S SX) = len (cj S) ->
  sat (par_for g false 0 N ch T 0 (rows_mem S)) (fun h => exists o,
    Permutation o (filter (fun t => t_act (T t)) (zseq 0 N)) /\
    let M := Csr R m (s_mem h SP) (s_mem h SJ) (Some (s_mem h SX)) prime in
    len o = R /\ forall k, 0 <= k < R -> rowl M k = row (get o k)).
Proof.
  intros. eapply sat_mono; [apply (par_rows g ch T N R m prime row S); auto|]. cbv beta. intros h (o & Ho & Hl & HR).
  exists o. split; auto. split; auto. intros k Hk. rewrite (has_rows_rowl _ _ HR) by (cbn; auto). rewrite (getd_map row 0) by lia. reflexivity.
Qed.
