(** Proofs about src/spasm_triangular.c. *)
From Verif Require Import Base BaseFacts Spec SpecFacts Zp ZpFacts Mat MatFacts RowList Reach ReachProofs VecProofs.

Lemma entry_absent A i j : ~ stored A i j -> entry A i j = 0.
Proof. intros H. rewrite entry_rowl. apply lentry_absent. now rewrite <- stored_rowl. Qed.

Lemma balanced_0 p : 2 <= p -> balanced p 0.
Proof. unfold balanced. pose proof (Z_div_mod_eq_full p 2). pose proof (Z.mod_pos_bound p 2). lia. Qed.
Lemma balanced_cong_0 p a : 2 <= p -> balanced p a -> cong p a 0 -> a = 0.
Proof. intros Hp Ha H. eapply balanced_unique; eauto using balanced_0. Qed.

(* the pattern as a sum over columns *)
Lemma sum_columns (xj : list Z) top m (f : Z -> Z) :
  (forall k, top <= k < m -> 0 <= get xj k < m) ->
  sum 0 m (fun c => sum top m (fun l => if get xj l =? c then f c else 0)) = sum top m (fun l => f (get xj l)).
Proof.
  intros Hr. rewrite sum_swap. apply sum_ext. intros l Hl.
  rewrite (sum_single 0 m _ (get xj l)); auto.
  - now rewrite Z.eqb_refl.
  - intros c Hc Hne. now replace (get xj l =? c) with false by lia.
Qed.

Lemma scatter_ok' A (HA : wf A) (Hx : cx A <> None) p (Hp : cprime A = p) (Hp2 : 2 <= p) i beta x : 0 <= i < cn A -> cm A <= len x ->
  sat (scatter A i beta x) (fun y => len y = len x /\
    (forall j, cong p (get y j) (get x j + beta * entry A i j)) /\
    (forall j, get y j = get x j \/ balanced p (get y j)) /\
    (forall j, ~ stored A i j -> get y j = get x j)).
Proof. subst p. now apply scatter_ok. Qed.

Section solve.
Context (U : csr) (HU : wf U) (p : Z) (Hp : cprime U = p) (Hp2 : 2 <= p) (Hx : cx U <> None).
Context (qinv : list Z) (Hq : qinv_ok U qinv) (Hac : acyclic U qinv).
Context (Hpiv : forall j, 0 <= j < cm U -> 0 <= get qinv j -> cong p (entry U (get qinv j) j) 1).
Local Notation m := (cm U).

Theorem sparse_triangular_solve_ok B k xj ps mk x : wf B -> cm B = m -> cprime B = p -> cx B <> None -> 0 <= k < cn B ->
  len xj = m -> len ps = m -> len mk = m -> (forall c, 0 <= c < m -> get mk c = 0) -> m <= len x ->
  sat (sparse_triangular_solve U B k xj ps mk x qinv) (fun '(top', xj', ps', mk', x') =>
    Done U qinv top' xj' /\ len ps' = m /\ len mk' = m /\ (forall c, 0 <= c < m -> get mk' c = 0) /\
    (forall c, (exists l, top' <= l < m /\ get xj' l = c) <-> exists s, stored B k s /\ path U qinv s c) /\
    len x' = len x /\
    (forall c, (forall l, top' <= l < m -> get xj' l <> c) -> get x' c = get x c) /\
    (forall l, top' <= l < m -> balanced p (get x' (get xj' l))) /\
    exists X, (forall l, top' <= l < m -> X (get xj' l) = get x' (get xj' l)) /\
      (forall c, (forall l, top' <= l < m -> get xj' l <> c) -> X c = 0) /\
      forall j, 0 <= j < m -> cong p (entry B k j)
        (sum 0 m (fun c => if 0 <=? get qinv c then X c * entry U (get qinv c) j else 0) +
         if get qinv j <? 0 then X j else 0)).
Proof.
  intros HB Hm HpB HxB Hk Lx Lp Lm Hz Lxx. unfold sparse_triangular_solve. apply sat_bind.
  eapply sat_mono; [now apply (reach_ok U HU qinv Hq B k xj ps mk)|].
  clear xj ps mk Lx Lp Lm Hz. intros [[[top xj] ps] mk] (D & Lp & Lm & Hz & Hpat).
  pose proof (d_top _ _ _ _ D) as Dt. pose proof (d_len _ _ _ _ D) as Dl.
  pose proof (d_rng _ _ _ _ D) as Dr. pose proof (d_inj _ _ _ _ D) as Di.
  assert (HB0 : forall c, stored B k c -> exists l, top <= l < m /\ get xj l = c).
  { intros c Hc. apply Hpat. exists c. split; auto. constructor. }
  apply sat_bind.
  apply (for_spec (fun px x1 => len x1 = len x /\
     (forall l, top <= l < px -> get x1 (get xj l) = 0) /\
     (forall c, (forall l, top <= l < m -> get xj l <> c) -> get x1 c = get x c))).
  { lia. } { repeat split; auto. intros; lia. }
  { intros px x1 Hpx (L1 & Z1 & F1). specialize (Dr px ltac:(lia)) as Hpr. wp; try lia. len. split; auto. split.
    - intros l Hl. rewrite get_upd_in by lia. destruct (Z.eqb_spec (get xj px) (get xj l)); auto.
      apply Z1. assert (l <> px) by congruence. lia.
    - intros c Hc. rewrite get_upd_ne; [now apply F1|]. apply Hc. lia. }
  intros x1 (L1 & Z1 & F1). apply sat_bind.
  eapply sat_mono; [apply (scatter_ok' B HB HxB p HpB Hp2 k 1 x1 Hk); lia|].
  intros x2 (L2 & C2 & B2 & F2).
  set (g := fun (x : list Z) l j => if 0 <=? get qinv (get xj l) then get x (get xj l) * entry U (get qinv (get xj l)) j else 0).
  apply sat_bind.
  apply (for_spec (fun px x => len x = len x1 /\
     (forall c, (forall l, top <= l < m -> get xj l <> c) -> get x c = get x1 c) /\
     (forall l, top <= l < m -> balanced p (get x (get xj l))) /\
     (forall l, top <= l < m ->
        cong p (entry B k (get xj l)) (sum top px (fun l' => g x l' (get xj l)) +
          if (l <? px) && (0 <=? get qinv (get xj l)) then 0 else get x (get xj l))) /\
     (forall j, (forall l, top <= l < m -> get xj l <> j) -> cong p (entry B k j) (sum top px (fun l' => g x l' j))))).
  - lia.
  - split; [lia|]. split.
    { intros c Hc. apply F2. intros Hs. destruct (HB0 c Hs) as (l & Hl & E). apply (Hc l); auto. }
    split.
    { intros l Hl. destruct (B2 (get xj l)) as [->|]; auto. rewrite Z1 by lia. apply balanced_0. lia. }
    split.
    { intros l Hl. rewrite sum_empty by lia. replace (l <? top) with false by lia. cbn [andb].
      rewrite C2, Z1 by lia. apply cong_eq. ring. }
    { intros j Hj. rewrite sum_empty by lia. apply cong_eq. apply entry_absent. intros Hs.
      destruct (HB0 j Hs) as (l & Hl & E). apply (Hj l); auto. }
  - intros px x3 Hpx (L3 & F3 & B3 & I1 & I2). specialize (Dr px ltac:(lia)) as Hpr.
    destruct Hq as (Hq1 & Hq2). specialize (Hq2 _ Hpr).
    apply sat_bind, sat_aget; [lia|]. apply sat_bind, sat_aget; [lia|].
    set (j0 := get xj px) in *. set (i := get qinv j0) in *.
    destruct (Z.ltb_spec i 0).
    { wp. split; auto. split; auto. split; auto. split.
      - intros l Hl. rewrite (I1 l Hl), sum_S by lia. unfold g at 3. fold j0. fold i. replace (0 <=? i) with false by lia.
        destruct (Z.eq_dec l px) as [->|].
        + fold j0. fold i. replace (0 <=? i) with false by lia. rewrite !Bool.andb_false_r. apply cong_eq. ring.
        + replace (l <? px + 1) with (l <? px) by lia. apply cong_eq. ring.
      - intros j Hj. rewrite (I2 j Hj), sum_S by lia. unfold g at 3. fold j0. fold i. replace (0 <=? i) with false by lia.
        apply cong_eq. ring. }
    apply sat_bind, sat_aget; [lia|]. set (v := get x3 j0). apply sat_bind.
    eapply sat_mono; [apply (scatter_ok' U HU Hx p Hp Hp2 i (- v) x3); lia|].
    intros y (Ly & Cy & By & Fy).
    assert (Hst : forall c, stored U i c -> c = j0 \/ exists l, px < l < m /\ get xj l = c).
    { intros c Hc. destruct (Z.eq_dec c j0); auto. right. apply (d_topo _ _ _ _ D Hac px c); auto; try lia.
      split; [lia|]. split; auto. }
    assert (Hns : forall l, top <= l < px -> ~ stored U i (get xj l)).
    { intros l Hl Hs. destruct (Hst _ Hs) as [E|(l' & Hl' & E)]; apply Di in E; lia. }
    assert (Hyj : get y j0 = 0).
    { apply (balanced_cong_0 p); auto.
      - destruct (By j0) as [->|]; auto. apply B3. lia.
      - rewrite Cy. assert (E : cong p (entry U i j0) 1) by (apply Hpiv; [lia|auto]). rewrite E. fold v. apply cong_eq. ring. }
    apply sat_bind, sat_aget; [lia|]. apply sat_bind, sat_assert; [lia|]. apply sat_aset; [lia|].
    len. split; [lia|].
    assert (G : forall l, top <= l < px -> get (upd y j0 v) (get xj l) = get x3 (get xj l)).
    { intros l Hl. rewrite get_upd_ne. 2:{ intros E. apply Di in E; lia. } apply Fy. auto. }
    assert (S1 : forall j, sum top (px + 1) (fun l' => g (upd y j0 v) l' j) = sum top px (fun l' => g x3 l' j) + v * entry U i j).
    { intros j. rewrite sum_S by lia. f_equal.
      - apply sum_ext. intros l Hl. unfold g. now rewrite G by lia.
      - unfold g. fold j0. fold i. replace (0 <=? i) with true by lia. now rewrite get_upd_eq by lia. }
    split; [|split; [|split]].
    + intros c Hc. rewrite get_upd_ne by (apply Hc; lia). rewrite Fy; auto.
      intros Hs. destruct (Hst c Hs) as [->|(l & Hl & E)]; [apply (Hc px); auto|apply (Hc l); auto; lia].
    + intros l Hl. rewrite get_upd_in by (specialize (Dr l Hl); lia). destruct (Z.eqb_spec j0 (get xj l)) as [E|E].
      * unfold v. rewrite E. auto.
      * destruct (By (get xj l)) as [->|]; auto.
    + intros l Hl. rewrite S1, (I1 l Hl). destruct (Z.eq_dec l px) as [->|Hne].
      * replace (px <? px) with false by lia. replace (px <? px + 1) with true by lia. fold j0. fold i.
        replace (0 <=? i) with true by lia. cbn [andb]. fold v.
        assert (E : cong p (entry U i j0) 1) by (apply Hpiv; [lia|auto]). rewrite E. apply cong_eq. ring.
      * assert (j0 <> get xj l) by (intros E; apply Di in E; lia). rewrite get_upd_ne by auto.
        replace (l <? px + 1) with (l <? px) by lia.
        destruct (Z.ltb_spec l px).
        -- rewrite Fy by (apply Hns; lia). rewrite (entry_absent U i (get xj l)) by (apply Hns; lia). apply cong_eq. ring.
        -- cbn [andb]. rewrite Cy. apply cong_eq. ring.
    + intros j Hj. rewrite S1, (I2 j Hj). rewrite (entry_absent U i j); [apply cong_eq; ring|].
      intros Hs. destruct (Hst j Hs) as [->|(l & Hl & E)]; [apply (Hj px); auto|apply (Hj l); auto; lia].
  - intros x3 (L3 & F3 & B3 & I1 & I2). wp.
    split; auto. split; auto. split; auto. split; auto. split; auto. split; [lia|]. split; [|split; auto].
    { intros c Hc. rewrite F3; auto. }
    set (X := fun c => sum top m (fun l => if get xj l =? c then get x3 c else 0)).
    assert (X1 : forall l, top <= l < m -> X (get xj l) = get x3 (get xj l)).
    { intros l Hl. unfold X. rewrite (sum_single _ _ _ l); auto.
      - now rewrite Z.eqb_refl.
      - intros l' Hl' Hne. destruct (Z.eqb_spec (get xj l') (get xj l)); auto. now apply Di in e. }
    assert (X0 : forall c, (forall l, top <= l < m -> get xj l <> c) -> X c = 0).
    { intros c Hc. unfold X. apply sum_zero. intros l Hl. specialize (Hc l Hl).
      now replace (get xj l =? c) with false by lia. }
    exists X. split; auto. split; auto. intros j Hj.
    assert (S : sum 0 m (fun c => if 0 <=? get qinv c then X c * entry U (get qinv c) j else 0) = sum top m (fun l => g x3 l j)).
    { unfold g. rewrite <- (sum_columns xj top m (fun c => if 0 <=? get qinv c then get x3 c * entry U (get qinv c) j else 0)) by auto.
      apply sum_ext. intros c Hc. unfold X. destruct (Z.leb_spec 0 (get qinv c)).
      - rewrite <- sum_scale_r. apply sum_ext. intros l Hl. destruct (get xj l =? c); ring.
      - symmetry. apply sum_zero. intros l Hl. now destruct (get xj l =? c). }
    rewrite S.
    destruct (in_dec Z.eq_dec j (map (get xj) (zseq top m))) as [Hin|Hin].
    + apply in_map_iff in Hin. destruct Hin as (l & <- & Hl). apply In_zseq in Hl. rewrite (I1 l Hl), (X1 l Hl).
      replace (l <? m) with true by lia. cbn [andb].
      destruct (Z.leb_spec 0 (get qinv (get xj l))), (Z.ltb_spec (get qinv (get xj l)) 0); try lia; apply cong_refl.
    + assert (Hj' : forall l, top <= l < m -> get xj l <> j).
      { intros l Hl E. apply Hin, in_map_iff. exists l. rewrite In_zseq. auto. }
      rewrite (I2 j Hj'), X0 by auto. destruct (get qinv j <? 0); apply cong_eq; ring.
Qed.
End solve.

(** ** Dense right-hand sides *)
Lemma sum_cong_0 p lo hi f : (forall i, lo <= i < hi -> cong p (f i) 0) -> cong p (sum lo hi f) 0.
Proof.
  intros H. eapply cong_trans; [apply sum_cong, H|]. apply cong_eq, sum_zero. auto.
Qed.

Lemma pigeonhole n m (f : Z -> Z) : 0 <= m -> (forall i, 0 <= i < n -> 0 <= f i < m) ->
  (forall i k, 0 <= i < n -> 0 <= k < i -> f i <> f k) -> n <= m.
Proof.
  intros Hm Hr Hi. destruct (Z_lt_dec n 0); [lia|].
  assert (L : len (map f (zseq 0 n)) <= len (zseq 0 m)).
  { unfold len. apply inj_le. apply NoDup_incl_length.
    - assert (G : forall l, NoDup l -> (forall k, In k l -> 0 <= k < n) -> NoDup (map f l)).
      { induction l as [|a l IH]; intros HN HI; simpl; constructor; inversion HN; subst.
        - rewrite in_map_iff. intros (k & E & Hk). assert (a <> k) by congruence.
          pose proof (HI a (or_introl eq_refl)). pose proof (HI k (or_intror Hk)).
          destruct (Z_lt_dec a k); [apply (Hi k a)|apply (Hi a k)]; auto; lia.
        - apply IH; auto. intros; apply HI; simpl; auto. }
      apply G; [apply NoDup_zseq|]. intros k. apply In_zseq.
    - intros c Hc. apply in_map_iff in Hc. destruct Hc as (k & <- & Hk). apply In_zseq in Hk. apply In_zseq. auto. }
  rewrite len_map, !len_zseq in L. lia.
Qed.

Lemma sat_oget q i (Q : Z -> Prop) n : (forall l, q = Some l -> len l = n) -> 0 <= i < n -> Q (oapply q i) -> sat (operm_get q i) Q.
Proof. intros Hl Hi HQ. destruct q as [l|]; cbn in *; auto. apply sat_aget; auto. rewrite (Hl l); auto. Qed.

Section forward.
Context (U : csr) (HU : wf U) (Hp2 : 2 <= cprime U) (Hx : cx U <> None).
Local Notation p := (cprime U). Local Notation n := (cn U). Local Notation m := (cm U).
Context (q : option (list Z)) (Hql : forall l, q = Some l -> len l = n).
Context (Hqr : forall i, 0 <= i < n -> 0 <= oapply q i < m).
Context (Hunit : forall i, 0 <= i < n -> cong p (entry U i (oapply q i)) 1).
Context (Htri : forall i k, 0 <= i < n -> 0 <= k < i -> cong p (entry U i (oapply q k)) 0).

Lemma cong_0_1 : ~ cong p 0 1.
Proof. intros (k & Hk). assert (k * p = -1) by lia. assert (k < 0) by nia. nia. Qed.
Lemma q_inj i k : 0 <= i < n -> 0 <= k < i -> oapply q i <> oapply q k.
Proof.
  intros Hi Hk E. apply cong_0_1. specialize (Hunit i Hi). specialize (Htri i k Hi Hk). rewrite E in Hunit.
  eapply cong_trans; [apply cong_sym; exact Htri|exact Hunit].
Qed.

(* a combination of the rows vanishing on all pivots vanishes *)
Lemma upper_indep d : (forall i, 0 <= i < n -> cong p (xA U d (oapply q i)) 0) -> forall i, 0 <= i < n -> cong p (d i) 0.
Proof.
  intros H.
  assert (G : forall k, 0 <= k <= n -> forall i, 0 <= i < k -> cong p (d i) 0).
  { intros k Hk. apply (Zlt_0_ind (fun k => k <= n -> forall i, 0 <= i < k -> cong p (d i) 0)); try lia.
    clear k Hk. intros k IH Hk Hkn i Hi. destruct (Z_lt_dec i (k - 1)) as [Hlt|Hlt].
    - apply (IH (k - 1)); lia.
    - replace i with (k - 1) by lia. specialize (H (k - 1) ltac:(lia)). unfold xA in H.
      rewrite (sum_split (k - 1)), (sum_first (k - 1)) in H by lia.
      assert (S0 : cong p (sum 0 (k - 1) (fun i => d i * entry U i (oapply q (k - 1)))) 0).
      { apply sum_cong_0. intros l Hl.
        rewrite (IH (k - 1) ltac:(lia) ltac:(lia) l Hl). apply cong_eq. ring. }
      assert (S1 : cong p (sum (k - 1 + 1) n (fun i => d i * entry U i (oapply q (k - 1)))) 0).
      { apply sum_cong_0. intros l Hl.
        rewrite (Htri l (k - 1)) by lia. apply cong_eq. ring. }
      rewrite S0, S1, Hunit in H by lia. rewrite <- H. apply cong_eq. ring. }
  intros i Hi. apply (G n); lia.
Qed.

Theorem dense_forward_solve_ok b x : m <= len b -> n <= len x -> (forall j, 0 <= j < m -> balanced p (get b j)) ->
  sat (dense_forward_solve U b x q) (fun '(ok, b', x') =>
    len b' = len b /\ len x' = len x /\ (forall i, 0 <= i < n -> balanced p (get x' i)) /\
    (forall j, 0 <= j < m -> cong p (get b j) (xA U (get x') j + get b' j)) /\
    (forall i, 0 <= i < n -> get b' (oapply q i) = 0) /\
    (ok = true <-> exists y, forall j, 0 <= j < m -> cong p (xA U y j) (get b j)) /\
    (ok = true -> forall j, 0 <= j < m -> cong p (xA U (get x') j) (get b j))).
Proof.
  intros Lb Lx Hb. unfold dense_forward_solve.
  pose proof (wf_n U HU) as Hn0. pose proof (wf_m U HU) as Hm0.
  assert (Hnm : n <= m) by (apply (pigeonhole n m (oapply q)); auto using q_inj).
  apply sat_bind, sat_assert; [lia|]. apply sat_bind.
  apply (for_spec (fun k x1 => len x1 = len x /\ forall i, 0 <= i < k -> get x1 i = 0)).
  { lia. } { split; auto. intros; lia. }
  { intros k x1 Hk (L1 & Z1). wp; [lia|]. len. split; auto. intros i Hi. rewrite get_upd_in by lia.
    destruct (Z.eqb_spec k i); auto. apply Z1. lia. }
  intros x1 (L1 & Z1). apply sat_bind.
  apply (for_spec (fun k '(b1, x1) => len b1 = len b /\ len x1 = len x /\
    (forall i, 0 <= i < n -> balanced p (get x1 i)) /\
    (forall i, k <= i < n -> get x1 i = 0) /\
    (forall j, 0 <= j < m -> balanced p (get b1 j)) /\
    (forall j, 0 <= j < m -> cong p (get b j) (sum 0 k (fun i => get x1 i * entry U i j) + get b1 j)) /\
    (forall i, 0 <= i < k -> get b1 (oapply q i) = 0))).
  - lia.
  - do 2 (split; [auto|]). split. { intros i Hi. rewrite Z1 by lia. now apply balanced_0. }
    split. { intros. apply Z1. lia. } split; auto. split; [|intros; lia].
    intros j Hj. rewrite sum_empty by lia. apply cong_eq. ring.
  - intros i [b1 x2] Hi (Lb1 & Lx2 & Bx & Zx & Bb & C1 & P1). apply sat_bind, (sat_oget q i _ n); auto.
    set (j := oapply q i). assert (Hj : 0 <= j < m) by (apply Hqr; lia).
    apply sat_bind, sat_aget; [lia|]. destruct (Z.eqb_spec (get b1 j) 0) as [E|E].
    { wp. do 3 (split; [auto|]). split; [intros; apply Zx; lia|]. split; [auto|]. split.
      - intros c Hc. rewrite sum_S by lia. rewrite (Zx i) by lia. rewrite (C1 c Hc). apply cong_eq. ring.
      - intros k Hk. destruct (Z.eq_dec k i) as [->|]; auto. apply P1. lia. }
    apply sat_bind, sat_aset; [lia|]. apply sat_bind. set (v := get b1 j) in *.
    eapply sat_mono; [apply (scatter_ok U HU Hp2 Hx i (- v) b1); lia|].
    intros y (Ly & Cy & By & Fy).
    assert (Bby : forall c, 0 <= c < m -> balanced p (get y c)).
    { intros c Hc. destruct (By c) as [->|]; auto. }
    assert (Hyj : get y j = 0).
    { apply (balanced_cong_0 p); auto. rewrite Cy. unfold j at 2. rewrite Hunit by lia. fold v. apply cong_eq. ring. }
    apply sat_bind, sat_aget; [lia|]. apply sat_bind, sat_assert; [lia|]. wp. len.
    split; [lia|]. split; [auto|]. split; [|split; [|split; [auto|split]]].
    + intros k Hk. rewrite get_upd_in by lia. destruct (Z.eqb_spec i k); auto. unfold v. auto.
    + intros k Hk. rewrite get_upd_ne by lia. apply Zx. lia.
    + intros c Hc. rewrite sum_S by lia. rewrite get_upd_eq by lia.
      rewrite (sum_ext 0 i _ (fun i => get x2 i * entry U i c)).
      * rewrite (C1 c Hc), Cy. apply cong_eq. ring.
      * intros k Hk. now rewrite get_upd_ne by lia.
    + intros k Hk. destruct (Z.eq_dec k i) as [->|]; auto.
      apply (balanced_cong_0 p); auto. { apply Bby, Hqr. lia. }
      rewrite Cy, (Htri i k), (P1 k) by lia. apply cong_eq. ring.
  - intros [b1 x2] (Lb1 & Lx2 & Bx & Zx & Bb & C1 & P1). apply sat_bind.
    apply (forb_spec (fun k _ => forall j, 0 <= j < k -> get b1 j = 0)); [lia|intros; lia| |].
    + intros j _ Hj Hz. wp; [lia| |].
      * intros k Hk. destruct (Z.eq_dec k j) as [->|]; [lia|apply Hz; lia].
      * do 5 (split; [auto|]). split; [|discriminate]. split; [discriminate|].
        intros (y & Hy). exfalso.
        assert (D : forall i, 0 <= i < n -> cong p (y i - get x2 i) 0).
        { apply upper_indep. intros i Hi. specialize (C1 _ (Hqr i Hi)). rewrite <- (Hy _ (Hqr i Hi)) in C1.
          rewrite (P1 i Hi) in C1. unfold xA in *.
          rewrite (sum_ext 0 n _ (fun k => y k * entry U k (oapply q i) - get x2 k * entry U k (oapply q i))) by (intros; ring).
          rewrite sum_sub, C1. apply cong_eq. ring. }
        assert (E0 : get b1 j = 0); [|lia]. apply (balanced_cong_0 p); auto.
        specialize (C1 j ltac:(lia)). rewrite <- (Hy j) in C1 by lia. unfold xA in C1.
        assert (E1 : cong p (sum 0 n (fun i => y i * entry U i j)) (sum 0 n (fun i => get x2 i * entry U i j))).
        { apply sum_cong. intros k Hk. specialize (D k Hk).
          replace (y k) with ((y k - get x2 k) + get x2 k) by ring. rewrite D. apply cong_eq. ring. }
        rewrite E1 in C1. replace (get b1 j) with ((sum 0 n (fun i : Z => get x2 i * entry U i j) + get b1 j) - sum 0 n (fun i : Z => get x2 i * entry U i j)) by ring.
        rewrite <- C1. apply cong_eq. ring.
    + intros _ Hz. wp. assert (C2 : forall j, 0 <= j < m -> cong p (xA U (get x2) j) (get b j)).
      { intros j Hj. rewrite (C1 j Hj), (Hz j Hj). apply cong_eq. unfold xA. ring. }
      do 5 (split; [auto|]). split; auto. split; auto. intros _. exists (get x2). auto.
Qed.
End forward.

Section back.
Context (L : csr) (HL : wf L) (Hok : ok_modulus (cprime L)) (Hprime : Znumtheory.prime (cprime L)) (Hx : cx L <> None).
Local Notation p := (cprime L). Local Notation n := (cn L). Local Notation r := (cm L).
Context (Hnd : nodup_rows L) (Hbal : forall px, 0 <= px < nnz L -> balanced p (val L px)).
Context (pr : option (list Z)) (Hpl : forall l, pr = Some l -> r <= len l).
Context (Hpr : forall j, 0 <= j < r -> 0 <= oapply pr j < n).
Context (Hdiag : forall j, 0 <= j < r -> ~ cong p (entry L (oapply pr j) j) 0).
Context (Htri : forall j k, 0 <= j < k -> k < r -> cong p (entry L (oapply pr j) k) 0).

Lemma pr_inj j k : 0 <= j < k -> k < r -> oapply pr j <> oapply pr k.
Proof. intros Hj Hk E. apply (Hdiag k); [lia|]. rewrite <- E. apply Htri; lia. Qed.

Theorem dense_back_solve_ok b x : r <= len b -> n <= len x ->
  sat (dense_back_solve L b x pr) (fun '(b', x') =>
    len b' = len b /\ len x' = len x /\
    (forall i, 0 <= i < n -> balanced p (get x' i)) /\
    (forall i, 0 <= i < n -> (forall j, 0 <= j < r -> oapply pr j <> i) -> get x' i = 0) /\
    (forall j, 0 <= j < r -> cong p (xA L (get x') j) (get b j))).
Proof.
  intros Lb Lx. unfold dense_back_solve. unfold ok_modulus in Hok.
  pose proof (wf_n L HL) as Hn0. pose proof (wf_m L HL) as Hm0. pose proof (wf_len L HL) as Hlen. pose proof (wf_nnz L HL) as Hnz.
  apply sat_bind.
  apply (for_spec (fun k x1 => len x1 = len x /\ forall i, 0 <= i < k -> get x1 i = 0)).
  { lia. } { split; auto. intros; lia. }
  { intros k x1 Hk (L1 & Z1). wp; [lia|]. len. split; auto. intros i Hi. rewrite get_upd_in by lia.
    destruct (Z.eqb_spec k i); auto. apply Z1. lia. }
  intros x1 (L1 & Z1).
  apply (for_down_spec (fun k '(b1, x1) => len b1 = len b /\ len x1 = len x /\
    (forall i, 0 <= i < n -> balanced p (get x1 i)) /\
    (forall i, 0 <= i < n -> (forall j, k <= j < r -> oapply pr j <> i) -> get x1 i = 0) /\
    (forall j, k <= j < r -> cong p (get b1 j) 0) /\
    (forall j, 0 <= j < r -> cong p (get b j) (xA L (get x1) j + get b1 j)))).
  - lia.
  - do 2 (split; [auto|]). split. { intros i Hi. rewrite Z1 by lia. apply balanced_0. lia. }
    split. { intros. apply Z1. lia. } split; [intros; lia|]. intros j Hj. unfold xA. rewrite sum_zero; [apply cong_eq; ring|].
    intros i Hi. rewrite Z1 by lia. ring.
  - intros j [b1 x2] Hj (Lb1 & Lx2 & Bx & Zx & Zb & C1).
    apply sat_bind.
    assert (HG : forall Q : Z -> Prop, Q (oapply pr j) -> sat (operm_get pr j) Q).
    { intros Q HQ. destruct pr as [l|]; cbn in *; auto. apply sat_aget; auto. pose proof (Hpl l eq_refl). lia. }
    apply HG. set (i := oapply pr j). assert (Hi : 0 <= i < n) by (apply Hpr; lia).
    pose proof (wf_row L HL i Hi) as Hrow. wp; try lia. fold (rbeg L i) (rend L i).
    apply (forb_spec (fun k _ => forall px, rbeg L i <= px < k -> get (cj L) px <> j)); [lia|intros; lia| |].
    + intros px _ Hpx Hnot. destruct (cx L) as [Lv|] eqn:Ex; [|congruence]. pose proof (wf_vals L HL Lv Ex).
      apply sat_bind, sat_aget; [lia|]. destruct (Z.eqb_spec (get (cj L) px) j) as [E|E].
      2:{ wp. intros q Hq. destruct (Z.eq_dec q px) as [->|]; auto. apply Hnot. lia. }
      cbn [deref bind]. apply sat_bind, sat_aget; [lia|]. cbn [sat]. cbv beta iota zeta.
      set (d := get Lv px). assert (Hd : d = val L px) by (unfold val; now rewrite Ex).
      assert (He : entry L i j = d).
      { unfold entry. rewrite (sum_single _ _ _ px); auto.
        - rewrite E, Z.eqb_refl. auto.
        - intros q Hq Hne. destruct (Z.eqb_spec (get (cj L) q) j); auto. elim Hne. apply (Hnd i); auto; lia. }
      assert (Hd0 : ~ cong p d 0) by (rewrite <- He; apply Hdiag; lia).
      assert (Hdb : balanced p d) by (rewrite Hd; apply Hbal; lia).
      assert (Hdr : - p < d < p). { unfold balanced in Hdb. pose proof (Z_div_mod_eq_full p 2). pose proof (Z.mod_pos_bound p 2). lia. }
      destruct (zinv_ok p d Hok Hprime Hdr Hd0) as (Ib & Ic).
      apply sat_bind, sat_assert. { destruct (Z.eqb_spec d 0) as [E0|]; auto. elim Hd0. rewrite E0. apply cong_refl. }
      apply sat_bind, sat_aget; [lia|]. apply sat_bind, sat_aset; [lia|].
      set (v := zmul p (zinv p d) (get b1 j)). apply sat_bind, sat_aget; [len; lia|].
      rewrite get_upd_eq by lia. apply sat_bind.
      eapply sat_mono; [apply (scatter_ok L HL ltac:(lia) ltac:(congruence) i (- v) b1); lia|].
      intros y (Ly & Cy & By & Fy). apply sat_bind, sat_aset; [len; lia|]. wp. len.
      assert (Hv : cong p (v * d) (get b1 j)).
      { unfold v. rewrite zmul_cong by lia. replace (zinv p d * get b1 j * d) with (d * zinv p d * get b1 j) by ring. rewrite Ic. apply cong_eq. ring. }
      assert (Gx : forall k, get (upd (upd x2 i v) i v) k = if i =? k then v else get x2 k).
      { intros k. rewrite !get_upd_in by (len; lia). destruct (i =? k); auto. }
      assert (Hx2i : get x2 i = 0).
      { apply Zx; auto. intros k Hk. apply not_eq_sym. apply pr_inj; lia. }
      split; [lia|]. split; [auto|]. split; [|split; [|split]].
      * intros k Hk. rewrite Gx. destruct (i =? k); auto. unfold v. apply zmul_balanced. lia.
      * intros k Hk Hnk. rewrite Gx. destruct (Z.eqb_spec i k) as [<-|]; [elim (Hnk j); auto; lia|].
        apply Zx; auto. intros; apply Hnk. lia.
      * intros k Hk. rewrite Cy. destruct (Z.eq_dec k j) as [->|].
        -- rewrite He. replace (get b1 j + - v * d) with (get b1 j - v * d) by ring. rewrite Hv. apply cong_eq. ring.
        -- unfold i. rewrite (Htri j k), (Zb k) by lia. apply cong_eq. ring.
      * intros k Hk. rewrite (C1 k Hk), Cy. apply cong_eq. unfold xA.
        rewrite (sum_pick 0 n (fun i0 => get (upd (upd x2 i v) i v) i0 * entry L i0 k) i Hi), (sum_pick 0 n (fun i0 => get x2 i0 * entry L i0 k) i Hi).
        rewrite Gx, Z.eqb_refl, Hx2i.
        rewrite (sum_ext 0 n (fun i0 => if i0 =? i then 0 else get (upd (upd x2 i v) i v) i0 * entry L i0 k) (fun i0 => if i0 =? i then 0 else get x2 i0 * entry L i0 k)).
        -- ring.
        -- intros l Hl. rewrite Gx, (Z.eqb_sym i l). now destruct (l =? i).
    + intros _ Hnot. exfalso. apply (Hdiag j); [lia|]. fold i. rewrite entry_absent; [apply cong_refl|].
      intros (px & Hpx & E). apply (Hnot px); auto.
  - intros [b1 x2] (Lb1 & Lx2 & Bx & Zx & Zb & C1). do 4 (split; [auto|]). intros j Hj.
    rewrite (C1 j Hj), (Zb j Hj). apply cong_eq. ring.
Qed.
End back.
