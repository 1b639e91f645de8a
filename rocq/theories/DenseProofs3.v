(** Proofs about dense Schur complements (Dense.v): random combinations, and the two loops. *)
From Verif Require Import Base BaseFacts Spec SpecFacts SpecElim Zp ZpFacts Mat MatFacts RowList CompressProofs LinAlg TriProofs VecProofs KernelProofs ParRows ElimFacts EchInv Reach Schur Sched Append AppendProofs Gplu GpluProofs Dense DenseSpec DenseProofs DenseProofs2.
From Coq Require Import ZifyBool Permutation.

(* what the theorems assume of the parameters *)
Definition ffpack_ok (E : env) (p : Z) : Prop :=
  (forall n m S, 0 <= n -> 0 <= m -> n * m <= len S -> (forall i j, 0 <= i < n -> 0 <= j < m -> balanced p (dget m S i j)) ->
     let '(rr, S', Q) := e_rref E n m S in rref_ok p n m S rr S' Q) /\
  (forall n m S, 0 <= n -> 0 <= m -> n * m <= len S -> (forall i j, 0 <= i < n -> 0 <= j < m -> balanced p (dget m S i j)) ->
     let '(rr, S', P, Q) := e_plu E n m S in plu_ok p n m S rr S' P Q).

(** ** Random combinations *)
Section random.
Context (E : env) (p : Z) (A U : csr) (q : list Z).
Context (Hp2 : 2 <= p) (HE : elim p U q) (HA : wf A) (HAp : cprime A = p) (HAx : cx A <> None) (Hm : cm U = cm A).
Let m := cm A. Let Sm := m - cn U.
Context (pr : list Z) (n : Z) (Hn : 0 < n <= len pr) (Hrow : forall k, 0 <= k < n -> 0 <= get pr k < cn A).
Context (qc : list Z) (HC : cols q m Sm qc).

Definition comb (cf : Z -> Z) (j : Z) : Z := sum 0 n (fun i => cf i * entry A (get pr i) j).
(* row k of S is the remainder of a combination of the rows *)
Definition rand_ok (w : Z) (Sd : list Z) (k : Z) : Prop :=
  (forall t, 0 <= t < Sm -> balanced p (dget Sm Sd k t)) /\
  exists cf lam, (forall j, 0 <= j < m -> cong p (comb cf j) (xA U lam j + dext Sm qc (dget Sm Sd k) j)) /\
    (w <= 0 -> forall i, 0 <= i < n -> cf i = e_rc E k i).

Lemma comb_add cf i b j : 0 <= i < n -> comb (fun t => cf t + if t =? i then b else 0) j = comb cf j + b * entry A (get pr i) j.
Proof.
  intros Hi. unfold comb. rewrite (sum_ext _ _ _ (fun t => cf t * entry A (get pr t) j + (if t =? i then b * entry A (get pr i) j else 0))).
  - rewrite sum_add, sum_delta. replace ((0 <=? i) && (i <? n)) with true by lia. reflexivity.
  - intros t Ht. destruct (Z.eqb_spec t i) as [->|]; ring.
Qed.

Lemma random_comb_ok c w k : 
  sat (if w <=? 0 then
      for_ 0 n (fun i y => inew <- aget pr i ;; scatter A inew (e_rc E k i) y) (fill m 0)
    else
      for_ 0 w (fun i y =>
        inew <- aget pr (e_ri E c k i mod n) ;;
        scatter A inew (if i =? 0 then 1 else e_rc E k (i - 1)) y) (fill m 0))
    (fun y => len y = m /\ (forall j, 0 <= j < m -> balanced p (get y j)) /\
      exists cf, (forall j, 0 <= j < m -> cong p (get y j) (comb cf j)) /\ (w <= 0 -> forall i, 0 <= i < n -> cf i = e_rc E k i)).
Proof.
  pose proof (wf_m A HA) as HmA. fold m in HmA.
  assert (Hlf : len (fill m 0) = m) by (rewrite len_fill; lia).
  assert (H0 : forall cf j, (forall i, 0 <= i < n -> cf i = 0) -> comb cf j = 0).
  { intros cf j Hc. apply sum_zero. intros i Hi. rewrite Hc by auto. ring. }
  assert (Hb0 : forall j, 0 <= j < m -> balanced p (get (fill m 0) j)). { intros j Hj. rewrite get_fill by lia. apply balanced_0. lia. }
  assert (Hg0 : forall j, 0 <= j < m -> get (fill m 0) j = 0) by (intros j Hj; apply get_fill; lia).
  destruct (Z.leb_spec w 0) as [Hw|Hw].
  - apply (for_spec (fun i y => len y = m /\ (forall j, 0 <= j < m -> balanced p (get y j)) /\
      forall j, 0 <= j < m -> cong p (get y j) (comb (fun t => if t <? i then e_rc E k t else 0) j))).
    + lia.
    + split; auto. split; auto. intros j Hj. rewrite Hg0, H0; auto; [apply cong_refl|]. intros i Hi. now replace (i <? 0) with false by lia.
    + intros i y Hi (Y1 & Y2 & Y3). apply sat_bind, sat_aget; [lia|]. eapply sat_mono; [apply (scatter_ok' A HA HAx p HAp Hp2); auto; fold m; lia|].
      cbv beta. intros y' (Z1 & Z2 & Z3 & Z4). split; [lia|]. split.
      * intros j Hj. destruct (Z3 j) as [->|]; auto.
      * intros j Hj. rewrite Z2, (Y3 j Hj). rewrite <- comb_add by auto. apply cong_eq, sum_ext. intros t Ht. f_equal.
        destruct (Z.ltb_spec t (i + 1)), (Z.ltb_spec t i), (Z.eqb_spec t i); subst; try lia.
    + intros y (Y1 & Y2 & Y3). split; auto. split; auto. exists (fun t => if t <? n then e_rc E k t else 0). split; auto.
      intros _ i Hi. now replace (i <? n) with true by lia.
  - apply (for_spec (fun i y => len y = m /\ (forall j, 0 <= j < m -> balanced p (get y j)) /\
      exists cf, forall j, 0 <= j < m -> cong p (get y j) (comb cf j))).
    + lia.
    + split; auto. split; auto. exists (fun _ => 0). intros j Hj. rewrite Hg0, H0; auto. apply cong_refl.
    + intros i y Hi (Y1 & Y2 & cf & Y3). pose proof (Z.mod_pos_bound (e_ri E c k i) n ltac:(lia)) as Hmod. apply sat_bind, sat_aget; [lia|].
      eapply sat_mono; [apply (scatter_ok' A HA HAx p HAp Hp2); auto; fold m; lia|].
      cbv beta. intros y' (Z1 & Z2 & Z3 & Z4). split; [lia|]. split.
      * intros j Hj. destruct (Z3 j) as [->|]; auto.
      * eexists. intros j Hj. rewrite Z2, (Y3 j Hj). rewrite <- comb_add by auto. apply cong_refl.
    + intros y (Y1 & Y2 & cf & Y3). split; auto. split; auto. exists cf. split; auto. lia.
Qed.

Lemma random_elim_ok y0 : len y0 = m -> (forall j, 0 <= j < m -> balanced p (get y0 j)) ->
  sat (for_ 0 (cn U) (fun i y =>
      b <- aget (cp U) i ;; j <- aget (cj U) b ;; v <- aget y j ;;
      if v =? 0 then Ok y else scatter U i (- v) y) y0)
    (fun y => len y = m /\ (forall j, 0 <= j < m -> balanced p (get y j)) /\ (forall j, 0 <= j < m -> 0 <= get q j -> get y j = 0) /\
      exists lam, forall j, 0 <= j < m -> cong p (get y0 j) (xA U lam j + get y j)).
Proof.
  intros Hl0 Hb0. pose proof HE as [W X P Up F R]. pose proof (wf_n U W) as Hn0. pose proof (wf_len U W) as Hlen.
  apply (for_spec (fun i y => len y = m /\ (forall j, 0 <= j < m -> balanced p (get y j)) /\ (forall j, 0 <= j < m -> 0 <= get q j < i -> get y j = 0) /\
      exists lam, (forall l, i <= l < cn U -> lam l = 0) /\ forall j, 0 <= j < m -> cong p (get y0 j) (xA U lam j + get y j))).
  - lia.
  - split; auto. split; auto. split; [intros; lia|]. exists (fun _ => 0). split; auto. intros j Hj. rewrite xA_zero. apply cong_eq. ring.
  - intros i y Hi (Y1 & Y2 & Y3 & lam & Y4 & Y5). destruct (F i Hi) as [Hf1 Hf2]. fold (rbeg U i). pose proof (wf_row U W i Hi) as Hrw. pose proof (wf_nnz U W) as Hnz.
    apply sat_bind, sat_aget; [lia|]. fold (rbeg U i). set (b := rbeg U i) in *. apply sat_bind, sat_aget; [lia|]. set (jp := get (cj U) b) in *.
    assert (Hjp : 0 <= jp < m). { unfold m. rewrite <- Hm. apply (wf_col U W). lia. }
    apply sat_bind, sat_aget; [lia|]. destruct (Z.eqb_spec (get y jp) 0) as [Ez|Ez].
    + cbn [sat]. split; auto. split; auto. split; [|exists lam; split; auto; intros; apply Y4; lia].
      intros j Hj Hq. destruct (Z.eq_dec (get q j) i) as [Ei|]; [|apply Y3; auto; lia].
      assert (j = jp) as ->; [|auto]. apply (up_inj _ _ _ Up); rewrite ?Hm; fold m; try lia.
    + eapply sat_mono; [apply (scatter_ok' U W X p P Hp2); auto; rewrite Hm; fold m; lia|]. cbv beta. intros y' (Z1 & Z2 & Z3 & Z4).
      assert (Hb' : forall j, 0 <= j < m -> balanced p (get y' j)) by (intros j Hj; destruct (Z3 j) as [->|]; auto).
      split; [lia|]. split; [auto|]. split.
      * intros j Hj Hq. destruct (Z.eq_dec (get q j) i) as [Ei|Ei].
        -- assert (j = jp) as ->. { apply (up_inj _ _ _ Up); rewrite ?Hm; fold m; lia. }
           apply (balanced_unique p); auto; [apply balanced_0; lia|]. rewrite Z2. pose proof (up_unit _ _ _ Up jp ltac:(rewrite ?Hm; fold m; lia) ltac:(lia)) as Hu.
           rewrite Hf2 in Hu. rewrite Hu. apply cong_eq. ring.
        -- rewrite Z4; [apply Y3; auto; lia|]. apply (up_tri _ _ _ Up); rewrite ?Hm; fold m; lia.
      * exists (fun l => lam l + if l =? i then get y jp else 0). split.
        -- intros l Hl. rewrite Y4 by lia. destruct (Z.eqb_spec l i); lia.
        -- intros j Hj. rewrite xA_add, xA_delta by auto. rewrite (Y5 j Hj), Z2. apply cong_eq. ring.
  - intros y (Y1 & Y2 & Y3 & lam & Y4 & Y5). split; auto. split; auto. split; [|eauto].
    intros j Hj Hq. apply Y3; auto. pose proof (up_rng _ _ _ Up j ltac:(rewrite ?Hm; fold m; lia)). lia.
Qed.

Lemma random_row_ok c w k N Sd : 0 <= k < N -> N * Sm <= len Sd ->
  sat (random_row E c A pr n U qc w k Sd) (fun '(Sd', es) => len Sd' = len Sd /\ rand_ok w Sd' k /\ es = [] /\
    (forall i, ~ k * Sm <= i < k * Sm + Sm -> get Sd' i = get Sd i)).
Proof.
  intros Hk HSd. pose proof (Sm_nonneg p A U q HE Hm) as HSm. fold m Sm in HSm.
  unfold random_row. apply sat_bind. eapply sat_mono; [apply (random_comb_ok c w k)|]. cbv beta. intros y0 (Y1 & Y2 & cf & Y3 & Y4).
  apply sat_bind. eapply sat_mono; [apply (random_elim_ok y0); auto|]. cbv beta. intros y (V1 & V2 & V3 & lam & V4).
  apply sat_bind. eapply sat_mono.
  { apply (gather_ok Sm qc y Sd (k * Sm)); auto; [apply (co_len _ _ _ _ HC)| |nia|nia].
    intros t Ht. destruct (co_rng _ _ _ _ HC t Ht). lia. }
  cbv beta. intros Sd' (G1 & G2 & G3). cbn [sat]. split; auto. split; [|auto].
  split.
  - intros t Ht. unfold dget. rewrite G2 by auto. apply V2. apply (co_rng _ _ _ _ HC t Ht).
  - exists cf, lam. split; [|auto]. intros j Hj. rewrite <- (Y3 j Hj), (V4 j Hj). apply cong_eq. f_equal. revert j Hj. apply (cols_ind q m Sm qc _ HC).
    + intros j Hj Hq. rewrite (dext_pivot q m) by auto. auto.
    + intros t Ht. rewrite (dext_col q m) by auto. unfold dget. rewrite G2 by auto. reflexivity.
Qed.
End random.

Lemma randomized_ok E p A U q pr n c Sd q0 N w : 2 <= p -> elim p U q -> wf A -> cprime A = p -> cx A <> None -> cm U = cm A ->
  0 < n <= len pr -> (forall k, 0 <= k < n -> 0 <= get pr k < cn A) -> 0 <= N -> N * (cm A - cn U) <= len Sd -> cm A - cn U <= len q0 ->
  sat (schur_dense_randomized E c A pr n U q Sd q0 N w) (fun '(Sd', qc) => len Sd' = len Sd /\ len qc = len q0 /\ cols q (cm A) (cm A - cn U) qc /\
    forall k, 0 <= k < N -> rand_ok E p A U pr n qc w Sd' k).
Proof.
  intros Hp2 HE HA HAp HAx Hm Hn Hrow HN HSd Hq0. set (Sm := cm A - cn U) in *.
  pose proof (up_len _ _ _ (el_up _ _ _ HE)) as Hlq. pose proof (wf_m A HA) as HmA.
  pose proof (free_count p U q HE) as Hfree. rewrite Hm in Hfree, Hlq. fold Sm in Hfree.
  unfold schur_dense_randomized. apply sat_bind, sat_assert; [lia|]. apply sat_bind.
  eapply sat_mono; [apply (prepare_q_ok (cm A) q q0); auto; lia|]. cbv beta. rewrite Hfree. intros qc (Lqc & HC).
  apply sat_bind. eapply sat_mono.
  { apply (append_sched (fun k Sd => random_row E c A pr n U qc w k Sd) N 0 HN ltac:(lia) (fun S => len S = len Sd)
      (fun k S es => rand_ok E p A U pr n qc w S k /\ es = [])).
    - intros k S Hk HS. eapply sat_mono; [apply (random_row_ok E p A U q Hp2 HE HA HAp HAx Hm pr n Hn Hrow qc HC c w k N S Hk); fold Sm; lia|].
      cbv beta. intros [S' es] (H1 & H2 & H3 & H4). split; [lia|]. split; [auto|]. split; [rewrite H3; reflexivity|].
      intros u es' Hu Hur ((D1 & cf & lam & D2 & D3) & ->). split; auto.
      assert (Hget : forall t, 0 <= t < Sm -> dget Sm S' u t = dget Sm S u t). { intros t Ht. unfold dget. apply H4. fold Sm. nia. }
      split; [intros t Ht; fold Sm; rewrite Hget by auto; apply D1; auto|].
      exists cf, lam. split; auto. intros j Hj. rewrite (D2 j Hj). fold Sm. rewrite (dext_ext Sm qc (dget Sm S' u) (dget Sm S u)) by auto. apply cong_refl.
    - lia.
    - change (len (@nil Z)) with 0. lia.
    - reflexivity. }
  cbv beta. intros s (es & log & B1 & HR & _). cbn [sat]. split; auto. split; auto. split; auto. intros k Hk. now apply HR.
Qed.

(* the completion test says yes if and only if the random combinations are in the row space of U *)
Lemma test_completion_ok E p A U q pr n c : ffpack_ok E p -> 2 <= p -> elim p U q -> wf A -> cprime A = p -> cx A <> None -> cm U = cm A ->
  0 <= n <= len pr -> (forall k, 0 <= k < n -> 0 <= get pr k < cn A) -> 0 <= e_Sn E ->
  sat (test_completion E c A pr n U q) (fun b => b = true <->
    n = 0 \/ nnz A = 0 \/ forall k, 0 <= k < e_Sn E -> in_rowspace p U (comb A pr n (e_rc E k))).
Proof.
  intros [HF _] Hp2 HE HA HAp HAx Hm Hn Hrow HSn. unfold test_completion.
  destruct (Z.eqb_spec n 0); [cbn; tauto|]. destruct (Z.eqb_spec (nnz A) 0); [cbn; tauto|]. cbn [orb].
  set (Sm := cm A - cn U). pose proof (Sm_nonneg p A U q HE Hm) as HSm. fold Sm in HSm.
  apply sat_bind. eapply sat_mono.
  { apply (randomized_ok E p A U q pr n c); auto; try lia; fold Sm; rewrite len_malloc; nia. }
  cbv beta. fold Sm. intros [Sd qc] (L1 & L2 & HC & HR). rewrite len_malloc in L1 by nia.
  specialize (HF (e_Sn E) Sm Sd HSn HSm ltac:(lia)). destruct (e_rref E (e_Sn E) Sm Sd) as [[rr S'] Q].
  destruct HF as [K1 [K2 K2'] K3 K4 K5 K6 (R & C & D & K7 & K8 & K9)]. { intros i j Hi Hj. now apply (HR i Hi). }
  cbn [sat]. split.
  - intros E0. assert (rr = 0) as -> by lia. right. right. intros k Hk. destruct (HR k Hk) as (_ & cf & lam & H1 & H2). exists lam. intros j Hj.
    assert (Hcf : comb A pr n (e_rc E k) j = comb A pr n cf j). { apply sum_ext. intros i Hi. now rewrite H2 by lia. }
    rewrite Hcf, H1 by congruence. fold Sm. rewrite Hm in Hj. rewrite (dext_lin p q (cm A) Sm qc (dget Sm Sd k) 0 (fun _ => 0) (fun _ _ => 0) HC); auto.
    + rewrite sum_empty by lia. apply cong_eq. ring.
    + intros t Ht. rewrite (K8 k t Hk Ht). rewrite !sum_empty by lia. apply cong_refl.
  - intros [|[|H]]; [easy|easy|]. destruct (Z.eq_dec rr 0) as [->|Hrr]; [reflexivity|]. exfalso.
    (* the remainders are zero *)
    assert (HZ : forall k t, 0 <= k < e_Sn E -> 0 <= t < Sm -> cong p (dget Sm Sd k t) 0).
    { intros k t Hk Ht. destruct (HR k Hk) as (_ & cf & lam & H1 & H2). destruct (H k Hk) as (y & Hy).
      destruct (co_rng _ _ _ _ HC t Ht) as [Hc1 Hc2].
      assert (Hcf : forall j, comb A pr n (e_rc E k) j = comb A pr n cf j). { intros j. apply sum_ext. intros i Hi. now rewrite H2 by lia. }
      set (z := fun i => y i - lam i).
      assert (Hz : forall j, 0 <= j < cm A -> cong p (xA U z j) (dext Sm qc (dget Sm Sd k) j)).
      { intros j Hj. unfold z. rewrite xA_sub. rewrite (Hy j) by congruence. rewrite Hcf, (H1 j Hj). apply cong_eq. fold Sm. ring. }
      assert (Hz0 : forall i, 0 <= i < cn U -> cong p (z i) 0).
      { apply (upper_low_zero p U q (cn U) z); [apply HE|apply HE|lia|]. intros j Hj Hq. rewrite Hz by congruence.
        rewrite (dext_pivot q (cm A)); [apply cong_refl|auto|lia]. }
      rewrite <- (dext_col q (cm A) Sm qc (dget Sm Sd k) t HC Ht). rewrite <- Hz by auto. rewrite (xA_cong p U z (fun _ => 0)) by auto. rewrite xA_zero. apply cong_refl. }
    assert (H0 : 0 <= 0 < rr) by lia. assert (HQ0 := K4 0 ltac:(lia)). specialize (K9 0 (get Q 0) H0 HQ0). rewrite K7 in K9 by lia.
    replace (0 <? rr) with true in K9 by lia. cbn [Z.eqb] in K9. rewrite sum_cong_0 in K9.
    + destruct K9 as (d & Hd). assert (Hdp : (p | 1)) by (exists d; lia). apply Z.divide_1_r_nonneg in Hdp; lia.
    + intros i Hi. rewrite (HZ i (get Q 0) Hi HQ0). apply cong_eq. ring.
Qed.
