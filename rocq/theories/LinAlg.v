(** Linear combinations of rows, triangular matrices. *)
From Verif Require Import Base BaseFacts Spec SpecFacts Mat MatFacts RowList TriProofs.
From Coq Require Import ZifyBool.

Lemma xA_ext A x y j : (forall i, 0 <= i < cn A -> x i = y i) -> xA A x j = xA A y j.
Proof. intros H. apply sum_ext. intros i Hi. now rewrite H. Qed.
Lemma xA_cong p A x y j : (forall i, 0 <= i < cn A -> cong p (x i) (y i)) -> cong p (xA A x j) (xA A y j).
Proof. intros H. unfold xA. apply sum_cong. intros i Hi. now rewrite H by auto. Qed.
Lemma xA_add A x y j : xA A (fun i => x i + y i) j = xA A x j + xA A y j.
Proof. unfold xA. rewrite <- sum_add. apply sum_ext. intros; ring. Qed.
Lemma xA_sub A x y j : xA A (fun i => x i - y i) j = xA A x j - xA A y j.
Proof. unfold xA. rewrite <- sum_sub. apply sum_ext. intros; ring. Qed.
Lemma xA_scale A c x j : xA A (fun i => c * x i) j = c * xA A x j.
Proof. unfold xA. rewrite <- sum_scale. apply sum_ext. intros; ring. Qed.
Lemma xA_zero A j : xA A (fun _ => 0) j = 0.
Proof. apply sum_zero. auto. Qed.
Lemma xA_delta A k c j : 0 <= k < cn A -> xA A (fun i => if i =? k then c else 0) j = c * entry A k j.
Proof.
  intros Hk. unfold xA. rewrite (sum_single 0 (cn A) _ k); auto. { now rewrite Z.eqb_refl. }
  intros i Hi Hn. now replace (i =? k) with false by lia.
Qed.
Lemma xA_sum A lo hi (x : Z -> Z -> Z) j : xA A (fun i => sum lo hi (fun k => x k i)) j = sum lo hi (fun k => xA A (x k) j).
Proof.
  unfold xA. rewrite (sum_ext 0 (cn A) _ (fun i => sum lo hi (fun k => x k i * entry A i j))).
  2:{ intros i Hi. now rewrite sum_scale_r. }
  apply sum_swap.
Qed.

Lemma in_rowspace_ext p A b c : (forall j, 0 <= j < cm A -> cong p (b j) (c j)) -> in_rowspace p A b -> in_rowspace p A c.
Proof. intros H (y & Hy). exists y. intros j Hj. rewrite Hy by auto. auto. Qed.
Lemma in_rowspace_row p A i : 0 <= i < cn A -> in_rowspace p A (entry A i).
Proof. intros Hi. exists (fun k => if k =? i then 1 else 0). intros j Hj. rewrite xA_delta by auto. apply cong_eq. ring. Qed.
Lemma in_rowspace_0 p A : in_rowspace p A (fun _ => 0).
Proof. exists (fun _ => 0). intros j Hj. rewrite xA_zero. apply cong_refl. Qed.
Lemma in_rowspace_add p A b c : in_rowspace p A b -> in_rowspace p A c -> in_rowspace p A (fun j => b j + c j).
Proof. intros (x & Hx) (y & Hy). exists (fun i => x i + y i). intros j Hj. rewrite xA_add, Hx, Hy by auto. apply cong_refl. Qed.
Lemma in_rowspace_scale p A k b : in_rowspace p A b -> in_rowspace p A (fun j => k * b j).
Proof. intros (x & Hx). exists (fun i => k * x i). intros j Hj. rewrite xA_scale, Hx by auto. apply cong_refl. Qed.
Lemma in_rowspace_sub p A b c : in_rowspace p A b -> in_rowspace p A c -> in_rowspace p A (fun j => b j - c j).
Proof. intros (x & Hx) (y & Hy). exists (fun i => x i - y i). intros j Hj. rewrite xA_sub, Hx, Hy by auto. apply cong_refl. Qed.
Lemma in_rowspace_xA p A y : in_rowspace p A (xA A y).
Proof. exists y. intros j Hj. apply cong_refl. Qed.
Lemma in_rowspace_sum p A lo hi (c : Z -> Z) (b : Z -> Z -> Z) : (forall k, lo <= k < hi -> in_rowspace p A (b k)) ->
  in_rowspace p A (fun j => sum lo hi (fun k => c k * b k j)).
Proof.
  intros H. destruct (Z_lt_le_dec lo hi) as [Hl|Hl].
  2:{ eapply in_rowspace_ext; [|apply in_rowspace_0]. intros j _. rewrite sum_empty by lia. apply cong_refl. }
  assert (G : forall q, lo <= q <= hi -> in_rowspace p A (fun j => sum lo q (fun k => c k * b k j))).
  { apply (range_ind (fun q => in_rowspace p A (fun j => sum lo q (fun k => c k * b k j))) lo hi).
    - eapply in_rowspace_ext; [|apply in_rowspace_0]. intros j _. rewrite sum_empty by lia. apply cong_refl.
    - intros q Hq IH. eapply in_rowspace_ext; [|apply (in_rowspace_add _ _ _ _ IH (in_rowspace_scale p A (c q) _ (H q Hq)))].
      intros j _. cbv beta. rewrite sum_S by lia. apply cong_refl. }
  apply G. lia.
Qed.
(* row spaces are transitive *)
Lemma in_rowspace_trans p A B b : cm A = cm B -> (forall i, 0 <= i < cn A -> in_rowspace p B (entry A i)) ->
  in_rowspace p A b -> in_rowspace p B b.
Proof.
  intros Hm H (y & Hy). eapply in_rowspace_ext; [|apply (in_rowspace_sum p B 0 (cn A) y (entry A)); auto].
  intros j Hj. apply Hy. lia.
Qed.

Section upper.
Context (p : Z) (U : csr) (qinv : list Z) (HU : wf U) (Hup : upper p U qinv).

(* the list of pivotal columns *)
Lemma upper_columns : exists col, (forall i, 0 <= i < cn U -> 0 <= col i < cm U /\ get qinv (col i) = i) /\
  (forall j, 0 <= j < cm U -> 0 <= get qinv j -> col (get qinv j) = j).
Proof.
  assert (G : exists l, len l = cn U /\ forall i, 0 <= i < cn U -> 0 <= get l i < cm U /\ get qinv (get l i) = i).
  { pose proof (wf_n U HU).
    assert (K : forall k, 0 <= k <= cn U -> exists l, len l = k /\ forall i, 0 <= i < k -> 0 <= get l i < cm U /\ get qinv (get l i) = i).
    { apply (range_ind (fun k => exists l, len l = k /\ forall i, 0 <= i < k -> 0 <= get l i < cm U /\ get qinv (get l i) = i) 0 (cn U)).
      - exists []. split; auto. intros; lia.
      - intros k Hk (l & Hl & H1). destruct (up_row _ _ _ Hup k Hk) as (j & Hj & E). exists (l ++ [j]).
        split. { rewrite len_app. change (len [j]) with 1. lia. }
        intros i Hi. unfold get. destruct (Z.eq_dec i k) as [->|].
        + rewrite getd_app_r by lia. replace (k - len l) with 0 by lia. cbn. auto.
        + rewrite getd_app_l by lia. apply H1. lia. }
    apply (K (cn U)). lia. }
  destruct G as (l & Hl & H). exists (get l). split; auto. intros j Hj Hq.
  pose proof (up_rng _ _ _ Hup j Hj). destruct (H (get qinv j)) as [H1 H2]; [lia|].
  apply (up_inj _ _ _ Hup); auto; lia.
Qed.

(* as many pivots as rows *)
Lemma count_pivots : sum 0 (cm U) (fun j => if 0 <=? get qinv j then 1 else 0) = cn U.
Proof.
  pose proof (wf_n U HU).
  rewrite (sum_ext 0 (cm U) _ (fun j => sum 0 (cn U) (fun i => if get qinv j =? i then 1 else 0))).
  - rewrite sum_swap. rewrite (sum_ext 0 (cn U) _ (fun _ => 1)); [rewrite sum_const by lia; lia|].
    intros i Hi. destruct (up_row _ _ _ Hup i Hi) as (j & Hj & E). rewrite (sum_single 0 (cm U) _ j); auto.
    + rewrite E, Z.eqb_refl. auto.
    + intros k Hk Hn. destruct (Z.eqb_spec (get qinv k) i) as [E'|]; auto. exfalso. apply Hn.
      apply (up_inj _ _ _ Hup); auto; lia.
  - intros j Hj. pose proof (up_rng _ _ _ Hup j Hj). destruct (Z.leb_spec 0 (get qinv j)).
    + rewrite (sum_single 0 (cn U) _ (get qinv j)); [now rewrite Z.eqb_refl|lia|].
      intros i Hi Hn. now replace (get qinv j =? i) with false by lia.
    + symmetry. apply sum_zero. intros i Hi. now replace (get qinv j =? i) with false by lia.
Qed.
Lemma count_free : sum 0 (cm U) (fun j => if 0 <=? get qinv j then 0 else 1) = cm U - cn U.
Proof.
  pose proof count_pivots as E. pose proof (wf_m U HU).
  pose proof (sum_add 0 (cm U) (fun j => if 0 <=? get qinv j then 1 else 0) (fun j => if 0 <=? get qinv j then 0 else 1)) as A.
  rewrite (sum_ext 0 (cm U) _ (fun _ => 1)) in A by (intros j _; destruct (0 <=? get qinv j); auto).
  rewrite sum_const in A by lia. lia.
Qed.
Lemma upper_n_le_m : cn U <= cm U.
Proof.
  pose proof count_free. pose proof (sum_nonneg 0 (cm U) (fun j => if 0 <=? get qinv j then 0 else 1)) as H0.
  assert (forall i, 0 <= i < cm U -> 0 <= (if 0 <=? get qinv i then 0 else 1)) by (intros; destruct (0 <=? _); lia).
  specialize (H0 H1). lia.
Qed.

(* a combination of the rows that vanishes on all pivots is trivial *)
Lemma upper_trivial d : (forall j, 0 <= j < cm U -> 0 <= get qinv j -> cong p (xA U d j) 0) ->
  forall i, 0 <= i < cn U -> cong p (d i) 0.
Proof.
  intros H. destruct upper_columns as (col & Hc & _).
  assert (G : forall k, 0 <= k <= cn U -> forall i, 0 <= i < k -> cong p (d i) 0).
  { apply (range_ind (fun k => forall i, 0 <= i < k -> cong p (d i) 0) 0 (cn U)); [intros; lia|].
    intros k Hk IH i Hi. destruct (Z.eq_dec i k) as [->|]; [|apply IH; lia].
    destruct (Hc k Hk) as [H1 H2]. specialize (H (col k) H1 ltac:(lia)). unfold xA in H.
    rewrite (sum_split k), (sum_first k) in H by lia.
    assert (S0 : cong p (sum 0 k (fun i => d i * entry U i (col k))) 0).
    { apply sum_cong_0. intros l Hl. rewrite (IH l) by lia. apply cong_eq. ring. }
    assert (S1 : cong p (sum (k + 1) (cn U) (fun i => d i * entry U i (col k))) 0).
    { apply sum_cong_0. intros l Hl. rewrite entry_absent; [apply cong_eq; ring|]. apply (up_tri _ _ _ Hup (col k) l); auto; lia. }
    pose proof (up_unit _ _ _ Hup (col k) H1 ltac:(lia)) as Hu. rewrite H2 in Hu.
    rewrite S0, S1, Hu in H. rewrite <- H. apply cong_eq. ring. }
  intros i Hi. apply (G (cn U)); lia.
Qed.
Lemma upper_vanish d : (forall j, 0 <= j < cm U -> 0 <= get qinv j -> cong p (xA U d j) 0) -> forall j, cong p (xA U d j) 0.
Proof.
  intros H j. rewrite (xA_cong p U d (fun _ => 0)); [rewrite xA_zero; apply cong_refl|]. now apply upper_trivial.
Qed.
Lemma upper_independent : independent p U.
Proof. intros y Hy. apply upper_trivial. auto. Qed.
End upper.
