(** Theorems about pivot selection and extraction (C21-C23, C64). *)
From Verif Require Import Base BaseFacts Spec SpecElim Zp Mat MatFacts Checks Sched Reach Pivots PivotsProofs GreedyProofs ReorderProofs Extract ExtractProofs.
From Coq Require Import ZifyBool Znumtheory.

(** * C21 *)
Theorem C21_pivots_find A g ch scr greedy pinv qinv :
  wf A -> nodup_rows A -> cx A <> None -> no_zero A -> len pinv = cn A -> len qinv = cm A -> gscr A scr ->
  sat (pivots_find g ch scr greedy A pinv qinv) (fun '(npiv, pinv', qinv') =>
    pivots A pinv' qinv' /\ acyclic A qinv' /\ npos qinv' = npiv).
Proof.
  intros HA D X Z Lp Lq Hs. eapply sat_mono; [exact (pivots_find_ok A HA g ch scr greedy pinv qinv D X Z Lp Lq Hs)|].
  intros [[npiv pinv'] qinv']. tauto.
Qed.
Print Assumptions C21_pivots_find.
(* the greedy search cannot block or fail, whatever the interleaving of the threads' accesses *)
Theorem C21_greedy_schedules A scr pinv qinv journal :
  wf A -> nodup_rows A -> pivots A pinv qinv -> acyclic A qinv -> len journal = cn A -> gscr A scr ->
  let c0 := (Gsh None 0 pinv qinv journal, gstart A scr) in
  sched_safe (gstep_all A) gdone (cn A) (gfuel A) c0 /\
  forall ch, sat (spar (gstep_all A) gdone (cn A) (gfuel A) ch 0 c0) (fun c =>
    pivots A (g_pinv (fst c)) (g_qinv (fst c)) /\ acyclic A (g_qinv (fst c)) /\
    npos (g_qinv (fst c)) = npos qinv + g_npiv (fst c) /\
    (forall j, 0 <= get qinv j -> get (g_qinv (fst c)) j = get qinv j) /\ maximal A (g_pinv (fst c)) (g_qinv (fst c))).
Proof. exact (fun HA D P C => greedy_ok A HA D qinv scr pinv journal P C). Qed.
Print Assumptions C21_greedy_schedules.

(* first step of the search: the pivotal columns are those of the leftmost entries of the rows, each with its sparsest row *)
Theorem C21_leftmost A pinv qinv : wf A -> cx A <> None -> no_zero A -> pivots A pinv qinv ->
  (forall i, 0 <= i < cn A -> get pinv i = -1) -> npos qinv = 0 ->
  sat (find_FL_pivots A pinv qinv) (fun '(npiv, pinv', qinv') =>
    pivots A pinv' qinv' /\ acyclic A qinv' /\ npos qinv' = npiv /\ fl_choice A (cn A) qinv').
Proof. exact (fun HA => find_FL_pivots_ok A HA pinv qinv). Qed.
Print Assumptions C21_leftmost.
(* a pivot is registered: a row that had a pivot loses it, a column too (never both) *)
Theorem C21_register A i j pinv qinv : pivots A pinv qinv -> 0 <= i < cn A -> 0 <= j < cm A -> stored A i j ->
  get pinv i = -1 \/ get qinv j = -1 ->
  sat (register_pivot i j pinv qinv) (fun '(r, pinv', qinv') =>
    pivots A pinv' qinv' /\ get pinv' i = j /\ npos qinv' = npos qinv + r /\
    forall i', 0 <= i' < cn A -> i' <> i -> get pinv i' <> j -> get pinv' i' = get pinv i').
Proof. exact (register_pivot_gen A i j pinv qinv). Qed.
Print Assumptions C21_register.

Definition ex_A : csr := Csr 4 5 [0; 2; 4; 6; 8] [2; 0; 1; 3; 2; 1; 0; 2] (Some [2; 3; -2; 1; 1; 3; 1; -1]) 7.
Definition ex_scr (m : Z) (i : Z) : list Z * list Z := (fill m 0, fill m 9).
Lemma ex_scr_ok A : wf A -> gscr A (ex_scr (cm A)).
Proof.
  intros HA t _. pose proof (wf_m A HA). unfold ex_scr, zero. cbn [fst snd]. rewrite !len_fill by lia. repeat split; try lia. intros c _. apply get_fill0.
Qed.
Lemma ex_A_ok : wf ex_A /\ nodup_rows ex_A /\ no_zero ex_A /\ reduced ex_A /\ gscr ex_A (ex_scr 5).
Proof.
  split; [now apply wfb_ok|]. split; [now apply nodup_rowsb_ok|].
  split; [|split; [now apply reducedb_ok|apply (ex_scr_ok ex_A); now apply wfb_ok]].
  intros px Hpx. change (0 <= px < 8) in Hpx. assert (H : allz 0 8 (fun px => negb (val ex_A px =? 0)) = true) by reflexivity.
  pose proof (allz_spec _ _ _ H px ltac:(lia)) as E. cbv beta in E. lia.
Qed.
Example C21_example : wf ex_A /\ nodup_rows ex_A /\ no_zero ex_A /\ gscr ex_A (ex_scr 5) /\
  (* without, with the greedy search *)
  pivots_find (fun _ _ => 77) (fun _ => 0) (ex_scr 5) false ex_A [5; 5; 5; 5] [6; 6; 6; 6; 6] = Ok (2, [0; 1; -1; -1], [0; 1; -1; -1; -1]) /\
  pivots_find (fun _ _ => 77) (fun _ => 0) (ex_scr 5) true ex_A [5; 5; 5; 5] [6; 6; 6; 6; 6] = Ok (3, [0; 1; 2; -1], [0; 1; 2; -1; -1]).
Proof. destruct ex_A_ok as (H1 & H2 & H3 & H4 & H5). repeat (split; [assumption || (vm_compute; reflexivity)|]). vm_compute; reflexivity. Qed.

(* row 1 has its pivot moved from column 1 to column 3; column 0 has its pivot moved from row 0 to row 3 *)
Example C21_register_example : pivots ex_A [0; 1; -1; -1] [0; 1; -1; -1; -1] /\ stored ex_A 1 3 /\ stored ex_A 3 0 /\
  register_pivot 1 3 [0; 1; -1; -1] [0; 1; -1; -1; -1] = Ok (0, [0; 3; -1; -1], [0; -1; -1; 1; -1]) /\
  register_pivot 3 0 [0; 1; -1; -1] [0; 1; -1; -1; -1] = Ok (0, [-1; 1; -1; 0], [3; 1; -1; -1; -1]).
Proof.
  destruct ex_A_ok as (H1 & H2 & H3 & H4 & H5).
  pose proof (C21_pivots_find ex_A (fun _ _ => 77) (fun _ => 0) (ex_scr 5) false [5; 5; 5; 5] [6; 6; 6; 6; 6] H1 H2 ltac:(discriminate) H3 eq_refl eq_refl H5) as H.
  rewrite (proj1 (proj2 (proj2 (proj2 (proj2 C21_example))))) in H. cbn [sat] in H. destruct H as (P & C & E).
  split; [exact P|]. split; [now apply storedb_ok|]. split; [now apply storedb_ok|]. split; vm_compute; reflexivity.
Qed.

(* rows 0 and 1 both begin at column 0; row 1 is sparser *)
Definition ex_B : csr := Csr 3 3 [0; 3; 5; 6] [1; 0; 2; 2; 0; 1] (Some [1; 2; 3; -1; -2; -3]) 7.
Example C21_leftmost_example : wf ex_B /\ no_zero ex_B /\ pivots ex_B [-1; -1; -1] [-1; -1; -1] /\ npos [-1; -1; -1] = 0 /\ leads ex_B 0 0 /\ leads ex_B 1 0 /\
  find_FL_pivots ex_B [-1; -1; -1] [-1; -1; -1] = Ok (2, [-1; 0; 1], [1; 2; -1]).
Proof.
  split; [now apply wfb_ok|]. split; [|split; [|split; [reflexivity|split; [|split; [|vm_compute; reflexivity]]]]].
  - intros px Hpx. change (0 <= px < 6) in Hpx. assert (H : allz 0 6 (fun px => negb (val ex_B px =? 0)) = true) by reflexivity.
    pose proof (allz_spec _ _ _ H px ltac:(lia)) as E. cbv beta in E. lia.
  - constructor; [reflexivity|reflexivity| |]; intros k Hk; left; change (0 <= k < 3) in Hk; assert (k = 0 \/ k = 1 \/ k = 2) as [->|[->| ->]] by lia; reflexivity.
  - split; [now apply storedb_ok|]. intros c (px & Hpx & <-). change (0 <= px < 3) in Hpx. assert (px = 0 \/ px = 1 \/ px = 2) as [->|[->| ->]] by lia; vm_compute; discriminate.
  - split; [now apply storedb_ok|]. intros c (px & Hpx & <-). change (3 <= px < 5) in Hpx. assert (px = 3 \/ px = 4) as [->| ->] by lia; vm_compute; discriminate.
Qed.

(** * C64 *)
(* The leftmost entry of every row is in a pivotal column.  A row without pivot has all its entries in columns of rows
   with pivots.  After the greedy search, no pivot can be added. *)
Theorem C64_maximal A g ch scr greedy pinv qinv :
  wf A -> nodup_rows A -> cx A <> None -> no_zero A -> len pinv = cn A -> len qinv = cm A -> gscr A scr ->
  sat (pivots_find g ch scr greedy A pinv qinv) (fun '(npiv, pinv', qinv') =>
    (forall i j, 0 <= i < cn A -> leads A i j -> 0 <= get qinv' j) /\
    covered_rows A pinv' /\
    (greedy = true -> maximal A pinv' qinv')).
Proof.
  intros HA D X Z Lp Lq Hs. eapply sat_mono; [exact (pivots_find_ok A HA g ch scr greedy pinv qinv D X Z Lp Lq Hs)|].
  intros [[npiv pinv'] qinv']. tauto.
Qed.
Print Assumptions C64_maximal.
(* so the elimination goes on: a matrix with an entry has a pivot *)
Theorem C64_progress A g ch scr greedy pinv qinv i j :
  wf A -> nodup_rows A -> cx A <> None -> no_zero A -> len pinv = cn A -> len qinv = cm A -> gscr A scr ->
  0 <= i < cn A -> stored A i j ->
  sat (pivots_find g ch scr greedy A pinv qinv) (fun '(npiv, pinv', qinv') => 1 <= npiv).
Proof. exact (fun HA D X Z => pivots_find_progress A HA g ch scr greedy pinv qinv i j D X Z). Qed.
Print Assumptions C64_progress.
(* in the example the greedy search is needed: row 2 has no pivot without it, and row 3 cannot have any *)
Example C64_example : wf ex_A /\ nodup_rows ex_A /\ no_zero ex_A /\ gscr ex_A (ex_scr 5) /\ leads ex_A 3 0 /\
  ~ maximal ex_A [0; 1; -1; -1] [0; 1; -1; -1; -1] /\ maximal ex_A [0; 1; 2; -1] [0; 1; 2; -1; -1].
Proof.
  destruct ex_A_ok as (H1 & H2 & H3 & H4 & H5). repeat (split; [assumption|]).
  pose proof (C21_pivots_find ex_A (fun _ _ => 77) (fun _ => 0) (ex_scr 5) true [5; 5; 5; 5] [6; 6; 6; 6; 6] H1 H2 ltac:(discriminate) H3 eq_refl eq_refl H5) as H.
  pose proof (C64_maximal ex_A (fun _ _ => 77) (fun _ => 0) (ex_scr 5) true [5; 5; 5; 5] [6; 6; 6; 6; 6] H1 H2 ltac:(discriminate) H3 eq_refl eq_refl H5) as M.
  rewrite (proj2 (proj2 (proj2 (proj2 (proj2 C21_example))))) in H, M. cbn [sat] in H, M. destruct H as (P & C & E).
  split; [|split; [|now apply M]].
  - split; [now apply storedb_ok|]. intros c (px & Hpx & <-). change (6 <= px < 8) in Hpx. assert (px = 6 \/ px = 7) as [->| ->] by lia; vm_compute; discriminate.
  - intros HM. apply (HM 2 2); [change (0 <= 2 < 4); lia|vm_compute; reflexivity|now apply storedb_ok|vm_compute; reflexivity|].
    change (upd [0; 1; -1; -1; -1] 2 2) with [0; 1; 2; -1; -1]. exact C.
Qed.

(** * C22 *)
Theorem C22_topological_order A g pinv qinv npiv p :
  wf A -> pivots A pinv qinv -> acyclic A qinv -> npos qinv = npiv -> cn A <= len p ->
  sat (pivots_reorder g A pinv qinv npiv p) (fun p' => len p' = len p /\ pivot_order A pinv npiv p').
Proof. exact (fun HA => pivots_reorder_ok A HA g pinv qinv npiv p). Qed.
Print Assumptions C22_topological_order.
Example C22_example : wf ex_A /\ pivots ex_A [0; 1; 2; -1] [0; 1; 2; -1; -1] /\ acyclic ex_A [0; 1; 2; -1; -1] /\ npos [0; 1; 2; -1; -1] = 3 /\
  pivots_reorder (fun _ _ => 77) ex_A [0; 1; 2; -1] [0; 1; 2; -1; -1] 3 [5; 5; 5; 5; 5] = Ok [0; 2; 1; 3; 5].
Proof.
  destruct ex_A_ok as (H1 & H2 & H3 & H4 & H5). split; [auto|].
  pose proof (C21_pivots_find ex_A (fun _ _ => 77) (fun _ => 0) (ex_scr 5) true [5; 5; 5; 5] [6; 6; 6; 6; 6] H1 H2 ltac:(discriminate) H3 eq_refl eq_refl H5) as H.
  rewrite (proj2 (proj2 (proj2 (proj2 (proj2 C21_example))))) in H. cbn [sat] in H. destruct H as (P & C & E).
  repeat (split; [assumption|]). vm_compute; reflexivity.
Qed.

(** * C23 *)
Theorem C23_extract_structural A p g ch scr greedy p_in f p0 :
  wf A -> nodup_rows A -> cprime A = p -> ok_modulus p -> prime p -> no_zero A -> reduced A -> gscr A scr ->
  elim p (f_U f) (f_q f) -> cm (f_U f) = cm A -> cn (f_U f) + cn A + 1 <= len (cp (f_U f)) ->
  (forall i c, 0 <= i < cn A -> stored A i c -> get (f_q f) c < 0) ->
  match f_L f with
  | Some L => twf L /\ tx L <> None /\ tprime L = p /\ cn (f_U f) + cn A <= tm L /\ cn (f_U f) + cn A <= len (f_p f) /\
      match p_in with Some l => len l = cn A | None => True end /\ (forall i, 0 <= i < cn A -> 0 <= oapply p_in i < tn L)
  | None => True end ->
  cn A <= len p0 ->
  sat (extract_structural g ch scr greedy A p_in f p0) (fun '(npiv, f', pr) =>
    exists pinv qinv, pivots A pinv qinv /\ acyclic A qinv /\ npos qinv = npiv /\ 0 <= npiv <= cn A /\
      len pr = len p0 /\ pivot_order A pinv npiv pr /\ elim p (f_U f') (f_q f') /\ extracted p A p_in f f' pinv pr npiv).
Proof. exact (fun HA D P M Q Z R => extract_structural_ok A HA D p P M Q Z R g ch scr greedy p_in f p0). Qed.
Print Assumptions C23_extract_structural.
Definition ex_f : fact := Fact (Csr 1 5 [0; 2; 7; 7; 7; 7; 7] [4; 2] (Some [1; 3]) 7) [-1; -1; -1; -1; 0]
  (Some (Triplet 1 5 5 [4] [0] (Some [2]) 7)) [4; 9; 9; 9; 9].
Example C23_example : elim 7 (f_U ex_f) (f_q ex_f) /\ twf (Triplet 1 5 5 [4] [0] (Some [2]) 7) /\
  (forall i c, 0 <= i < 4 -> stored ex_A i c -> get (f_q ex_f) c < 0) /\
  extract_structural (fun _ _ => 77) (fun _ => 0) (ex_scr 5) true ex_A (Some [0; 2; 3; 1]) ex_f [5; 5; 5; 5; 5] =
    Ok (3, Fact (Csr 4 5 [0; 2; 4; 6; 8; 7; 7] [4; 2; 0; 2; 2; 1; 1; 3] (Some [1; 3; 1; 3; 1; 3; 1; 3]) 7) [1; 3; 2; -1; 0]
      (Some (Triplet 4 5 5 [4; 0; 3; 2; 77; 77; 77] [0; 1; 2; 3; 77; 77; 77] (Some [2; 3; 1; -2; 77; 77; 77]) 7)) [4; 0; 3; 2; 9],
      [0; 2; 1; 3; 5]).
Proof.
  split. { split; [now apply wfb_ok|discriminate|reflexivity|now apply upperb_ok|now apply pivot_firstb_ok|now apply reducedb_ok]. }
  split; [now apply twfb_ok|]. split; [|vm_compute; reflexivity].
  intros i c Hi (px & Hpx & <-). assert (H : allz 0 8 (fun px => get (f_q ex_f) (get (cj ex_A) px) <? 0) = true) by reflexivity.
  assert (Hc : i = 0 \/ i = 1 \/ i = 2 \/ i = 3) by lia.
  pose proof (allz_spec _ _ _ H px). cbv beta in H0.
  destruct Hc as [->|[->|[->| ->]]]; match type of Hpx with rbeg ?A ?i <= _ < rend ?A ?i =>
    let a := eval vm_compute in (rbeg A i) in let b := eval vm_compute in (rend A i) in change (a <= px < b) in Hpx end; lia.
Qed.
