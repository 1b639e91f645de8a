(** Correctness of spasm_kernel_from_rref (Rref.v). *)
From Verif Require Import Base BaseFacts Spec SpecFacts Zp ZpFacts Mat MatFacts TransposeProofs RowList Reach ReachProofs TriProofs
  Solve SolveProofs LinAlg Par ParProofs Schur SchurProofs Rref RrefProofs.
From Coq Require Import Permutation ZifyBool.

(** A reduced row echelon form is upper-triangular. *)
Section rref.
Context (R : csr) (qinv : list Z) (p : Z) (HR : wf R) (HF : rref_form p R qinv).
Local Notation pc i := (get (cj R) (rbeg R i)).

Lemma rf_first i : 0 <= i < cn R -> rbeg R i < rend R i /\ get qinv (pc i) = i /\ 0 <= pc i < cm R.
Proof.
  intros Hi. destruct (rr_first _ _ _ HF i Hi) as [H1 H2]. split; auto. split; auto.
  pose proof (wf_row R HR i Hi). apply wf_col; auto. lia.
Qed.
Lemma rf_entry i j : 0 <= i < cn R -> 0 <= j < cm R -> 0 <= get qinv j ->
  entry R i j = if get qinv j =? i then val R (rbeg R i) else 0.
Proof.
  intros Hi Hj Hq. destruct (rr_only _ _ _ HF j Hj) as [H|[H1 H2]]; [lia|]. destruct (rf_first i Hi) as (F1 & F2 & F3).
  unfold entry. rewrite (sum_first (rbeg R i)) by lia. rewrite sum_zero.
  - destruct (Z.eqb_spec (get qinv j) i) as [E|E].
    + replace (pc i =? j) with true; [lia|]. rewrite <- E, H2. symmetry. apply Z.eqb_refl.
    + replace (pc i =? j) with false; [lia|]. symmetry. apply Z.eqb_neq. intros E'. apply E. rewrite <- E'. auto.
  - intros px Hpx. destruct (Z.eqb_spec (get (cj R) px) j) as [E|]; auto.
    pose proof (rr_alone _ _ _ HF i px Hi ltac:(lia)) as G. rewrite E in G. lia.
Qed.

Lemma rref_upper : upper p R qinv.
Proof.
  constructor.
  - apply (rr_len _ _ _ HF).
  - intros j Hj. destruct (rr_only _ _ _ HF j Hj) as [H|[H1 H2]]; [|lia]. pose proof (wf_n R HR). lia.
  - intros i Hi. exists (pc i). destruct (rf_first i Hi) as (_ & H1 & H2). auto.
  - intros j k Hj Hk Hq E. destruct (rr_only _ _ _ HF j Hj) as [|[_ <-]]; [lia|].
    destruct (rr_only _ _ _ HF k Hk) as [|[_ <-]]; [lia|]. now rewrite E.
  - intros j Hj Hq. pose proof (rr_only _ _ _ HF j Hj). rewrite rf_entry by (auto; lia). rewrite Z.eqb_refl.
    apply (rr_unit _ _ _ HF). lia.
  - intros j i Hj Hq Hi (px & Hpx & E). destruct (rf_first i ltac:(lia)) as (F1 & F2 & F3).
    destruct (Z.eq_dec px (rbeg R i)) as [->|Hne].
    + rewrite E in F2. lia.
    + pose proof (rr_alone _ _ _ HF i px ltac:(lia) ltac:(lia)) as G. rewrite E in G. lia.
Qed.

(* a row of the transpose *)
Context (Rt : csr) (HT : wf Rt) (HTn : cn Rt = cm R) (HTm : cm Rt = cn R) (HTz : nnz Rt = nnz R).
Context (HTs : forall i j, 0 <= i < cn R -> 0 <= j < cm R -> entry (pattern Rt) j i = entry (pattern R) i j).

Lemma rt_len j : 0 <= j < cm R -> rend Rt j - rbeg Rt j = sum 0 (cn R) (fun i => entry (pattern R) i j).
Proof.
  intros Hj. pose proof (wf_row Rt HT j ltac:(lia)) as Hr.
  rewrite (sum_ext 0 (cn R) _ (fun i => entry (pattern Rt) j i)) by (intros; symmetry; auto).
  unfold entry. change (rbeg (pattern Rt) j) with (rbeg Rt j). change (rend (pattern Rt) j) with (rend Rt j).
  rewrite sum_swap. rewrite (sum_ext (rbeg Rt j) (rend Rt j) _ (fun _ => 1)).
  - rewrite sum_const by lia. ring.
  - intros px Hpx. unfold val. cbn [pattern cj cx]. pose proof (wf_col Rt HT px ltac:(lia)).
    rewrite (sum_single 0 (cn R) _ (get (cj Rt) px)); [now rewrite Z.eqb_refl|lia|].
    intros i Hi Hne. now replace (get (cj Rt) px =? i) with false by lia.
Qed.
Lemma rt_pivot j : 0 <= j < cm R -> 0 <= get qinv j -> rend Rt j - rbeg Rt j = 1.
Proof.
  intros Hj Hq. rewrite rt_len by auto. destruct (rr_only _ _ _ HF j Hj) as [|[H1 H2]]; [lia|].
  rewrite (sum_single 0 (cn R) _ (get qinv j)); auto.
  - unfold entry. change (rbeg (pattern R)) with (rbeg R). change (rend (pattern R)) with (rend R). cbn [pattern cj].
    destruct (rf_first _ H1) as (F1 & F2 & F3). rewrite (sum_first (rbeg R (get qinv j))) by lia. rewrite H2, Z.eqb_refl.
    rewrite sum_zero; [reflexivity|]. intros px Hpx. destruct (Z.eqb_spec (get (cj R) px) j) as [E|]; auto.
    pose proof (rr_alone _ _ _ HF _ px H1 ltac:(lia)) as G. rewrite E in G. lia.
  - intros i Hi Hne. enough (~ stored R i j). { rewrite stored_pattern in H. pose proof (sum_nonneg (rbeg R i) (rend R i)) as G.
      assert (0 <= entry (pattern R) i j). { apply G. intros px _. unfold val. cbn [pattern cj cx]. destruct (_ =? _); lia. } lia. }
    intros (px & Hpx & E). destruct (rf_first i Hi) as (F1 & F2 & F3). destruct (Z.eq_dec px (rbeg R i)) as [->|Hn].
    + rewrite E in F2. lia.
    + pose proof (rr_alone _ _ _ HF i px Hi ltac:(lia)) as G. rewrite E in G. lia.
Qed.
(* the entries outside of the pivotal columns *)
Lemma rt_free : sum 0 (cm R) (fun j => if 0 <=? get qinv j then 0 else rend Rt j - rbeg Rt j) = nnz R - cn R.
Proof.
  rewrite <- HTz. pose proof (count_pivots p R qinv HR rref_upper) as Hc.
  assert (E : sum 0 (cm R) (fun j => rend Rt j - rbeg Rt j) = nnz Rt).
  { assert (G : forall k, 0 <= k <= cm R -> sum 0 k (fun j => rend Rt j - rbeg Rt j) = get (cp Rt) k).
    { apply (range_ind (fun k => sum 0 k (fun j => rend Rt j - rbeg Rt j) = get (cp Rt) k) 0 (cm R)).
      - rewrite sum_empty by lia. symmetry. apply (wf_0 Rt HT).
      - intros k Hk IH. rewrite sum_S by lia. rewrite IH. unfold rbeg, rend. lia. }
    rewrite G; [unfold nnz; now rewrite HTn|]. pose proof (wf_m R HR). lia. }
  rewrite <- E, <- Hc, <- sum_sub. apply sum_ext. intros j Hj. destruct (Z.leb_spec 0 (get qinv j)) as [Hq|Hq]; [|lia].
  rewrite rt_pivot by auto. lia.
Qed.
End rref.

(* the rows that are produced *)
Definition kfr_row (R Rt : csr) (v1 j : Z) : list (Z * Z) :=
  (j, v1) :: map (fun e => (get (cj R) (rbeg R (fst e)), snd e)) (rowl Rt j).

Lemma lsum_cons {A} (f : A -> Z) a l : lsum f (a :: l) = f a + lsum f l.
Proof. reflexivity. Qed.
Lemma lsum_cong {A} p (f f' : A -> Z) l : (forall a, In a l -> cong p (f a) (f' a)) -> cong p (lsum f l) (lsum f' l).
Proof.
  induction l as [|a l IH]; intros H; [apply cong_refl|]. rewrite !lsum_cons. rewrite (H a (or_introl eq_refl)).
  rewrite IH by (intros; apply H; right; auto). apply cong_refl.
Qed.

Lemma free_snoc (b : Z -> bool) k : 0 <= k -> filter b (zseq 0 (k + 1)) = filter b (zseq 0 k) ++ (if b k then [k] else []).
Proof. intros Hk. rewrite zseq_S by lia. rewrite filter_app. cbn [filter]. reflexivity. Qed.

Section kfr.
Context (R : csr) (qinv : list Z) (p : Z) (HR : wf R) (Hp : cprime R = p) (HF : rref_form p R qinv).
Context (Hx : cx R <> None) (Hz : nnz R < 2 ^ 31) (Hp31 : 2 <= p <= 2 ^ 31).
Local Notation n := (cn R). Local Notation m := (cm R).
Definition freeb (j : Z) : bool := negb (0 <=? get qinv j).

Theorem kernel_from_rref_ok g : sat (kernel_from_rref g R qinv) (fun K =>
    wf K /\ cn K = m - n /\ cm K = m /\ nnz K = nnz R - n + (m - n) /\ cprime K = p /\ kernel_basis p R K).
Proof.
  pose proof (rref_upper R qinv p HR HF) as HUp.
  pose proof (wf_n R HR) as Hn. pose proof (wf_m R HR) as Hm. pose proof (wf_len R HR) as Hlen. pose proof (wf_nnz R HR) as Hnz.
  pose proof (up_len _ _ _ HUp) as Hql. pose proof (up_rng _ _ _ HUp) as Hqr. pose proof (upper_n_le_m p R qinv HR HUp) as Hnm.
  unfold kernel_from_rref. apply sat_bind, sat_assert; [lia|].
  apply sat_bind. eapply sat_mono; [apply (transpose_ok R HR g true)|]. cbv beta.
  intros Rt (T1 & T2 & T3 & T4 & T5 & T6 & T7 & _ & T9).
  apply sat_bind. eapply sat_mono.
  { apply (for_spec (fun k q => len q = n /\ forall i, 0 <= i < k -> get q i = get (cj R) (rbeg R i))).
    - lia.
    - rewrite len_malloc. split; [lia|]. intros; lia.
    - intros i q Hi (L & Hq). destruct (rf_first R qinv p HR HF i Hi) as (F1 & F2 & F3). pose proof (wf_row R HR i Hi) as Hw.
      apply sat_bind, sat_aget; [lia|]. fold (rbeg R i). rewrite to_i32_id by lia. apply sat_bind, sat_aget; [lia|].
      apply sat_aset; [lia|]. rewrite len_upd. split; auto. intros k Hk. rewrite get_upd_in by lia.
      destruct (Z.eqb_spec i k) as [->|]; auto. apply Hq. lia.
    - intros q Hq. exact Hq. }
  cbv beta. intros P (LP & HP). apply sat_bind, sat_aget; [lia|]. fold (nnz R).
  pose proof (rt_free R qinv p HR HF Rt T1 T2 T3 T5 T9) as Hfree.
  assert (Hfr : sum 0 m (fun j => if 0 <=? get qinv j then 0 else 1 + (rend Rt j - rbeg Rt j)) = nnz R - n + (m - n)).
  { rewrite <- Hfree, <- (count_free p R qinv HR HUp), <- sum_add. apply sum_ext. intros j _. destruct (0 <=? get qinv j); lia. }
  assert (Hcap : n <= nnz R).
  { pose proof (sum_nonneg 0 m (fun j => if 0 <=? get qinv j then 0 else rend Rt j - rbeg Rt j)) as G.
    rewrite Hfree in G. enough (0 <= nnz R - n) by lia. apply G. intros j Hj. pose proof (wf_row Rt T1 j ltac:(lia)).
    destruct (0 <=? get qinv j); lia. }
  unfold csr_alloc at 1. cbn [cx deref bind sat].
  destruct (cx Rt) as [Rtx|] eqn:ETx; [|exfalso; destruct (proj1 T6 eq_refl); [discriminate|auto]].
  cbn [deref bind].
  set (cap := nnz R - n + m - n) in *. set (v1 := to_i32 (cprime R - 1)).
  set (rows := fun k => map (kfr_row R Rt v1) (filter freeb (zseq 0 k))).
  assert (Hlr : forall k, 0 <= k <= m -> len (concat (rows k)) = sum 0 k (fun j => if 0 <=? get qinv j then 0 else 1 + (rend Rt j - rbeg Rt j))
                /\ len (rows k) = sum 0 k (fun j => if 0 <=? get qinv j then 0 else 1)).
  { apply (range_ind (fun k => len (concat (rows k)) = sum 0 k (fun j => if 0 <=? get qinv j then 0 else 1 + (rend Rt j - rbeg Rt j))
                /\ len (rows k) = sum 0 k (fun j => if 0 <=? get qinv j then 0 else 1)) 0 m).
    - rewrite !sum_empty by lia. auto.
    - intros k Hk [IH1 IH2]. rewrite !sum_S by lia. unfold rows. rewrite free_snoc, map_app, concat_app, !len_app by lia. fold (rows k).
      rewrite IH1, IH2. unfold freeb. destruct (0 <=? get qinv k); cbn [negb map concat]; rewrite ?app_nil_r; cbn [len length Z.of_nat].
      + change (len (@nil (Z * Z))) with 0. change (len (@nil (list (Z * Z)))) with 0. lia.
      + change (len [kfr_row R Rt v1 k]) with 1. unfold kfr_row. rewrite len_cons, len_map, len_rowl; pose proof (wf_row Rt T1 k ltac:(lia)); lia. }
  assert (Hlm : forall k, 0 <= k <= m -> len (concat (rows k)) <= cap /\ len (rows k) <= m - n).
  { intros k Hk. destruct (Hlr k Hk) as [-> ->]. rewrite <- (count_free p R qinv HR HUp). unfold cap. rewrite <- Z.add_sub_assoc, <- Hfr.
    rewrite (sum_split k 0 m (fun j => if 0 <=? get qinv j then 0 else 1 + (rend Rt j - rbeg Rt j))) by lia.
    rewrite (sum_split k 0 m (fun j => if 0 <=? get qinv j then 0 else 1)) by lia.
    pose proof (sum_nonneg k m (fun j => if 0 <=? get qinv j then 0 else 1)).
    pose proof (sum_nonneg k m (fun j => if 0 <=? get qinv j then 0 else 1 + (rend Rt j - rbeg Rt j))) as G.
    split; [enough (0 <= sum k m (fun j => if 0 <=? get qinv j then 0 else 1 + (rend Rt j - rbeg Rt j))) by lia; apply G|
            enough (0 <= sum k m (fun j => if 0 <=? get qinv j then 0 else 1)) by lia; apply H].
    - intros j Hj. pose proof (wf_row Rt T1 j ltac:(lia)). destruct (0 <=? get qinv j); lia.
    - intros j Hj. destruct (0 <=? get qinv j); lia. }
  apply sat_bind. eapply sat_mono.
  { apply (for_spec (fun j '(Kn, Kp, Kj, Kx, k) => Kn = len (rows j) /\ k = len (concat (rows j)) /\ len Kp = m - n + 1 /\ len Kj = cap /\
      Ptr Kp (rows j) /\ Built Kj (Some Kx) (concat (rows j)))).
    - lia.
    - unfold csr_alloc. cbn [cp cj cx]. rewrite len_upd, !len_malloc. change (rows 0) with (@nil (list (Z * Z))). cbn [concat].
      split; [auto|]. split; [auto|]. split; [lia|]. split; [lia|]. split.
      + apply Ptr_nil. apply get_upd_eq. rewrite len_malloc. lia.
      + apply Built_nil. cbn [olen]. now rewrite !len_malloc.
    - intros j [[[[Kn Kp] Kj] Kx] k] Hj (I1 & I2 & I3 & I4 & I5 & I6).
      apply sat_bind, sat_aget; [lia|]. rewrite Z.geb_leb.
      assert (Er : rows (j + 1) = rows j ++ (if freeb j then [kfr_row R Rt v1 j] else [])).
      { unfold rows. rewrite free_snoc by lia. rewrite map_app. destruct (freeb j); reflexivity. }
      pose proof (Hlm (j + 1) ltac:(lia)) as [Hc1 Hc2]. rewrite Er in Hc1, Hc2. pose proof (wf_row Rt T1 j ltac:(lia)) as Hw.
      pose proof (wf_nnz Rt T1) as Hnt. pose proof (wf_len Rt T1) as Hlt. pose proof (wf_vals Rt T1 Rtx ETx) as Hxt.
      unfold freeb in Er, Hc1, Hc2. destruct (Z.leb_spec 0 (get qinv j)) as [Hq|Hq]; cbn [negb] in Er, Hc1, Hc2.
      { rewrite app_nil_r in Er. cbn [sat]. rewrite Er. auto 7. }
      rewrite concat_snoc, len_app in Hc1. rewrite len_snoc in Hc2. unfold kfr_row in Hc1. rewrite len_cons, len_map, len_rowl in Hc1 by lia.
      subst Kn k. pose proof (len_nonneg (concat (rows j))) as Hcn. pose proof (len_nonneg (rows j)) as Hrn.
      destruct I6 as (B1 & B2 & B3) eqn:EB. clear EB. cbn [olen] in B2.
      apply sat_bind, sat_aset; [lia|]. apply sat_bind, sat_aset; [lia|].
      apply sat_bind, sat_aget; [lia|]. apply sat_bind, sat_aget; [lia|]. fold (rbeg Rt j). fold (rend Rt j).
      assert (HB0 : Built (upd Kj (len (concat (rows j))) j) (Some (upd Kx (len (concat (rows j))) v1)) (concat (rows j) ++ [(j, v1)])).
      { apply (Built_app Kj (Some Kx)); auto; [lia|discriminate]. }
      apply sat_bind. eapply sat_mono.
      { apply (for_spec (fun px '(Kj, Kx, k) => exists l, l = map (fun q => (get (cj R) (rbeg R (get (cj Rt) q)), val Rt q)) (zseq (rbeg Rt j) px) /\
          k = len (concat (rows j)) + 1 + len l /\ len Kj = cap /\ Built Kj (Some Kx) ((concat (rows j) ++ [(j, v1)]) ++ l))).
        - lia.
        - exists []. rewrite zseq_empty by lia. split; [auto|]. split; [cbn; lia|]. split; [now rewrite len_upd|]. now rewrite app_nil_r.
        - intros px [[Kj' Kx'] k'] Hpx (l & J0 & J1 & J2 & J3).
          assert (Ll : len l = px - rbeg Rt j) by (rewrite J0, len_map, len_zseq; lia).
          pose proof (wf_col Rt T1 px ltac:(lia)) as Hcol.
          destruct J3 as (B1' & B2' & B3') eqn:EB. clear EB. cbn [olen] in B2'.
          apply sat_bind, sat_aget; [lia|]. apply sat_bind, sat_aget; [lia|]. apply sat_bind, sat_aset; [lia|].
          apply sat_bind, sat_aget; [lia|]. apply sat_bind, sat_aset; [lia|]. cbn [sat].
          exists (l ++ [(get P (get (cj Rt) px), get Rtx px)]). rewrite len_upd, len_snoc.
          split. { rewrite zseq_S, map_snoc, <- J0 by lia. rewrite HP by lia. unfold val. now rewrite ETx. }
          split; [lia|]. split; [auto|]. rewrite app_assoc.
          replace k' with (len ((concat (rows j) ++ [(j, v1)]) ++ l)) by (rewrite !len_app; change (len [(j, v1)]) with 1; lia).
          apply (Built_app Kj' (Some Kx')); [split; auto| |discriminate].
          rewrite !len_app. change (len [(j, v1)]) with 1. lia.
        - intros s Hs. exact Hs. }
      cbv beta. intros [[Kj' Kx'] k'] (l & J0 & J1 & J2 & J3).
      apply sat_bind, sat_aset; [lia|]. cbn [sat]. rewrite len_upd, Er. unfold freeb. cbn [negb].
      assert (El : (concat (rows j) ++ [(j, v1)]) ++ l = concat (rows j ++ [kfr_row R Rt v1 j])).
      { rewrite concat_snoc, <- app_assoc. f_equal. unfold kfr_row. cbn [app]. f_equal. rewrite J0. unfold rowl. now rewrite map_map. }
      assert (Ek : k' = len (concat (rows j ++ [kfr_row R Rt v1 j]))).
      { rewrite <- El, !len_app. change (len [(j, v1)]) with 1. lia. }
      split; [now rewrite len_snoc|]. split; [auto|]. split; [auto|]. split; [auto|]. split; [|now rewrite <- El].
      rewrite Ek, concat_snoc, len_app. apply Ptr_app; auto. lia.
    - intros s Hs. exact Hs. }
  cbv beta. intros [[[[Kn Kp] Kj] Kx] k] (I1 & I2 & I3 & I4 & I5 & I6).
  destruct (Hlr m ltac:(lia)) as [Hr1 Hr2]. rewrite Hfr in Hr1. rewrite (count_free p R qinv HR HUp) in Hr2.
  apply sat_bind, sat_assert; [lia|]. apply sat_bind, sat_assert; [lia|]. cbn [sat].
  set (K := Csr Kn m Kp Kj (Some Kx) (cprime R)). set (o := filter freeb (zseq 0 m)).
  assert (HRw : has_rows K (rows m)). { unfold has_rows. cbn [K cn cp cj cx]. split; [auto|]. split; [lia|]. auto. }
  assert (Hlo : len o = m - n) by (unfold rows in Hr2; rewrite len_map in Hr2; auto).
  assert (HoT : forall t, In t o <-> 0 <= t < m /\ get qinv t < 0).
  { intros t. unfold o. rewrite filter_In, In_zseq. unfold freeb. lia. }
  assert (Ndo : NoDup o) by apply NoDup_filter, NoDup_zseq.
  assert (HoK : forall k, 0 <= k < cn K -> 0 <= get o k < m /\ get qinv (get o k) < 0).
  { intros i Hi. apply HoT, get_In. cbn [K cn] in Hi. lia. }
  assert (Hrow : forall k, 0 <= k < cn K -> rowl K k = kfr_row R Rt v1 (get o k)).
  { intros i Hi. rewrite (has_rows_rowl K _ HRw i Hi). unfold rows. fold o. rewrite (getd_map _ 0) by (cbn [K cn] in Hi; lia). reflexivity. }
  assert (Hcols : forall j c v, 0 <= j < m -> In (c, v) (kfr_row R Rt v1 j) -> c = j \/ 0 <= c < m /\ 0 <= get qinv c).
  { intros j c v Hj [[= <- <-]|He]; auto. right. apply in_map_iff in He. destruct He as ([i w] & [= <- <-] & He).
    apply In_rowl in He. destruct He as (px & Hpx & <- & _). pose proof (wf_row Rt T1 j ltac:(lia)). pose proof (wf_col Rt T1 px ltac:(lia)) as Hc.
    cbn [fst]. destruct (rf_first R qinv p HR HF (get (cj Rt) px) ltac:(lia)) as (F1 & F2 & F3). rewrite F2. split; [auto|lia]. }
  split. { apply (has_rows_wf K (rows m) HRw); auto. intros r [c v] Hr He. unfold rows in Hr. fold o in Hr. apply in_map_iff in Hr.
    destruct Hr as (j & <- & Hj). apply HoT in Hj. cbn [fst K cm]. destruct (Hcols j c v (proj1 Hj) He) as [->|[]]; tauto. }
  split; [cbn [K cn]; lia|]. split; [auto|]. split; [rewrite (has_rows_nnz K _ HRw); lia|]. split; [auto|].
  assert (Hv1 : cong p v1 (-1)).
  { unfold v1. rewrite Hp, to_i32_id by lia. exists 1. ring. }
  apply (kernel_basis_of p R qinv K o); auto.
  - cbn [K cn]. lia.
  - intros i Hi r Hr. destruct (HoK i Hi) as [Hj Hq]. set (j := get o i) in *. unfold Av.
    rewrite (sum_ext 0 m _ (fun c => entry R r c * lentry c (kfr_row R Rt v1 j))) by (intros c _; now rewrite (entry_rowl K), Hrow).
    assert (E : forall l, (forall c v, In (c, v) l -> 0 <= c < m) ->
        sum 0 m (fun c => entry R r c * lentry c l) = lsum (fun e => entry R r (fst e) * snd e) l).
    { induction l as [|[c v] l IH]; intros Hin. { apply sum_zero. intros; unfold lentry; cbn; ring. }
      rewrite (sum_ext 0 m _ (fun c' => (if c' =? c then entry R r c * v else 0) + entry R r c' * lentry c' l)).
      - rewrite sum_add, sum_delta, IH by (intros; eapply Hin; right; eauto). specialize (Hin c v (or_introl eq_refl)).
        replace ((0 <=? c) && (c <? m)) with true by lia. reflexivity.
      - intros c' _. rewrite lentry_cons, (Z.eqb_sym c c'). destruct (Z.eqb_spec c' c) as [->|]; ring. }
    rewrite E by (intros c v He; destruct (Hcols j c v Hj He) as [->|[]]; auto). unfold kfr_row.
    rewrite lsum_cons, lsum_map. cbn [fst snd].
    rewrite (lsum_cong p _ (fun e => if fst e =? r then snd e else 0)).
    + assert (E2 : lsum (fun e : Z * Z => if fst e =? r then snd e else 0) (rowl Rt j) = entry Rt j r).
      { rewrite (entry_rowl Rt). apply lsum_ext. now intros [a b]. }
      rewrite E2, T7 by auto. rewrite Hv1. apply cong_eq. ring.
    + intros [i' v] He. cbn [fst snd]. apply In_rowl in He. destruct He as (px & Hpx & <- & _).
      pose proof (wf_row Rt T1 j ltac:(lia)). pose proof (wf_col Rt T1 px ltac:(lia)) as Hc.
      destruct (rf_first R qinv p HR HF (get (cj Rt) px) ltac:(lia)) as (F1 & F2 & F3).
      rewrite (rf_entry R qinv p HR HF r) by (auto; lia). rewrite F2. destruct (_ =? r); [|apply cong_eq; ring].
      rewrite (rr_unit _ _ _ HF r Hr). apply cong_eq. ring.
  - intros j Hj Hq. assert (Hi : In j o) by (apply HoT; auto). apply In_get in Hi. destruct Hi as (i & Hi & E). exists i. split; [cbn [K cn]; lia|auto].
  - intros i i' Hi Hi'. rewrite (entry_rowl K), Hrow by auto. destruct (HoK i Hi) as [Hj Hq]. destruct (HoK i' Hi') as [Hj' Hq'].
    unfold kfr_row. rewrite lentry_cons, lentry_absent.
    + cbn [K cn] in Hi, Hi'. destruct (Z.eqb_spec i i') as [->|Hne].
      * rewrite Z.eqb_refl, Hv1. apply cong_refl.
      * destruct (Z.eqb_spec (get o i) (get o i')) as [E'|]; [|apply cong_refl]. exfalso. apply Hne. apply (NoDup_get_inj o); auto; lia.
    + intros He. apply in_map_iff in He. destruct He as ([c v] & Ec & He). cbn in Ec. subst c.
      apply in_map_iff in He. destruct He as ([i2 w] & [= E1 _] & He).
      apply In_rowl in He. destruct He as (px & Hpx & <- & _). pose proof (wf_row Rt T1 (get o i) ltac:(lia)). pose proof (wf_col Rt T1 px ltac:(lia)) as Hc.
      destruct (rf_first R qinv p HR HF (get (cj Rt) px) ltac:(lia)) as (F1 & F2 & F3). cbn [fst] in E1. rewrite E1 in F2. lia.
Qed.
End kfr.
