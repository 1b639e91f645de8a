(** Adding rows to an upper-triangular matrix. *)
From Verif Require Import Base BaseFacts Spec SpecFacts SpecElim Zp ZpFacts Mat MatFacts RowList RrefProofs.
From Coq Require Import ZifyBool.

Lemma zseq_cons lo hi : lo < hi -> zseq lo hi = lo :: zseq (lo + 1) hi.
Proof.
  intros H. unfold zseq. replace (Z.to_nat (hi - lo)) with (S (Z.to_nat (hi - (lo + 1)))) by lia.
  cbn [seq map]. f_equal; [lia|]. rewrite <- seq_shift, map_map. apply map_ext. intros k. lia.
Qed.

(* the entries of all the rows *)
Definition ulist (U : csr) : list (Z * Z) := map (fun k => (get (cj U) k, val U k)) (zseq 0 (nnz U)).
Lemma len_ulist U : wf U -> len (ulist U) = nnz U.
Proof. intros HU. unfold ulist. rewrite len_map, len_zseq. pose proof (wf_nnz U HU). lia. Qed.
Lemma getd_ulist U k : 0 <= k < nnz U -> getd (0, 0) (ulist U) k = (get (cj U) k, val U k).
Proof. intros Hk. unfold ulist. rewrite (getd_map _ 0) by (rewrite len_zseq; lia). now rewrite getd_zseq by lia. Qed.
Lemma Built_ulist U Ux : wf U -> cx U = Some Ux -> Built (cj U) (Some Ux) (ulist U).
Proof.
  intros HU Ex. split; [rewrite len_ulist by auto; apply (wf_nnz U HU)|]. split; [exact (wf_vals U HU Ux Ex)|].
  intros k Hk. rewrite len_ulist in Hk by auto. rewrite getd_ulist by auto. f_equal. rewrite val_oval. now rewrite Ex.
Qed.
Lemma same_ulist A B : same_entries A B -> ulist B = ulist A.
Proof.
  intros (H1 & H2 & H3 & H4 & H5). unfold ulist, nnz. rewrite H3, H1. apply map_ext_in. intros k Hk. apply In_zseq in Hk.
  destruct (H5 k Hk) as [-> ->]. reflexivity.
Qed.
Lemma same_rowl A B i : wf A -> same_entries A B -> 0 <= i < cn A -> rowl B i = rowl A i.
Proof.
  intros HA (H1 & H2 & H3 & H4 & H5) Hi. pose proof (wf_row A HA i Hi). unfold rowl, rbeg, rend. rewrite H3.
  apply map_ext_in. intros k Hk. apply In_zseq in Hk. unfold rbeg, rend in *. destruct (H5 k) as [-> ->]; auto. lia.
Qed.

(* U' is U with one more row r *)
Record appended (U U' : csr) (r : list (Z * Z)) : Prop := {
  ap_wf : wf U';
  ap_x : cx U' <> None;
  ap_n : cn U' = cn U + 1;
  ap_m : cm U' = cm U;
  ap_p : cprime U' = cprime U;
  ap_len : len (cp U') = len (cp U);
  ap_nnz : nnz U' = nnz U + len r;
  ap_old : forall i, 0 <= i < cn U -> rowl U' i = rowl U i;
  ap_new : rowl U' (cn U) = r
}.
Lemma appended_ok U Uj' Ux' r : wf U -> cn U + 2 <= len (cp U) -> Built Uj' (Some Ux') (ulist U ++ r) ->
  (forall e, In e r -> 0 <= fst e < cm U) ->
  appended U (Csr (cn U + 1) (cm U) (upd (cp U) (cn U + 1) (nnz U + len r)) Uj' (Some Ux') (cprime U)) r.
Proof.
  intros HU Hl (B1 & B2 & B3) Hr. pose proof (len_ulist U HU) as Hul. rewrite len_app, Hul in B1, B3.
  pose proof (wf_n U HU) as Hn. pose proof (wf_m U HU) as Hm. pose proof (wf_nnz U HU) as Hnz. pose proof (len_nonneg r) as Hlr.
  set (U' := Csr _ _ _ _ _ _).
  assert (Hp : forall k, 0 <= k <= cn U -> get (cp U') k = get (cp U) k) by (intros; cbn [cp U']; rewrite get_upd_ne by lia; auto).
  assert (Hp1 : get (cp U') (cn U + 1) = nnz U + len r) by (cbn [cp U']; rewrite get_upd_eq by lia; auto).
  assert (Hnn : nnz U' = nnz U + len r) by (unfold nnz; cbn [cn U']; exact Hp1).
  assert (Hold : forall k, 0 <= k < nnz U -> get Uj' k = get (cj U) k /\ get Ux' k = val U k).
  { intros k Hk. specialize (B3 k ltac:(lia)). rewrite getd_app_l, getd_ulist in B3 by lia. now inversion B3. }
  assert (Hnew : forall k, 0 <= k < len r -> getd (0, 0) r k = (get Uj' (nnz U + k), get Ux' (nnz U + k))).
  { intros k Hk. specialize (B3 (nnz U + k) ltac:(lia)). rewrite getd_app_r in B3 by lia. rewrite Hul in B3.
    replace (nnz U + k - nnz U) with k in B3 by lia. exact B3. }
  assert (Hin : forall k, 0 <= k < len r -> In (getd (0, 0) r k) r).
  { intros k Hk. unfold getd. replace (k <? 0) with false by lia. apply nth_In. unfold len in Hk. lia. }
  constructor; auto.
  - unfold wf. cbn [cn cm cp cj cx U']. rewrite Hnn, len_upd.
    destruct HU as (W1 & W2 & W3 & W4 & W5 & W6 & W7 & W8). split; [lia|]. split; [lia|]. split; [lia|].
    split; [change (get (cp U') 0 = 0); rewrite Hp by lia; auto|]. split; [|split; [lia|split; [|exact B2]]].
    + intros i Hi. unfold rbeg, rend. destruct (Z.eq_dec i (cn U)) as [->|].
      * rewrite Hp1, (Hp (cn U)) by lia. fold (nnz U). lia.
      * rewrite !Hp by lia. apply W5. lia.
    + intros k Hk. destruct (Z_lt_le_dec k (nnz U)) as [H|H].
      * destruct (Hold k ltac:(lia)) as [-> _]. apply W7. lia.
      * specialize (Hnew (k - nnz U) ltac:(lia)). replace (nnz U + (k - nnz U)) with k in Hnew by lia.
        specialize (Hr (getd (0, 0) r (k - nnz U)) (Hin (k - nnz U) ltac:(lia))). rewrite Hnew in Hr. exact Hr.
  - discriminate.
  - cbn. now rewrite len_upd.
  - intros i Hi. pose proof (wf_row U HU i Hi). unfold rowl, rbeg, rend in *. rewrite !Hp by lia. apply map_ext_in. intros k Hk.
    apply In_zseq in Hk. change (val U' k) with (get Ux' k). cbn [cj U']. destruct (Hold k ltac:(lia)) as [-> ->]. reflexivity.
  - apply (listd_ext (0, 0)).
    + rewrite len_rowl; unfold rbeg, rend; rewrite Hp1, (Hp (cn U)) by lia; fold (nnz U); lia.
    + intros k Hk. rewrite len_rowl in Hk by (unfold rbeg, rend; rewrite Hp1, (Hp (cn U)) by lia; fold (nnz U); lia).
      rewrite getd_rowl by auto. unfold rbeg, rend in *. rewrite Hp1, (Hp (cn U)) in Hk by lia. rewrite Hp by lia. fold (nnz U) in *.
      rewrite Hnew by lia. reflexivity.
Qed.
Lemma ap_entry U U' r i j : appended U U' r -> 0 <= i < cn U -> entry U' i j = entry U i j.
Proof. intros H Hi. rewrite !entry_rowl. now rewrite (ap_old _ _ _ H). Qed.
Lemma ap_entry_new U U' r j : appended U U' r -> entry U' (cn U) j = lentry j r.
Proof. intros H. rewrite entry_rowl. now rewrite (ap_new _ _ _ H). Qed.
Lemma ap_stored U U' r i j : appended U U' r -> 0 <= i < cn U -> stored U' i j <-> stored U i j.
Proof. intros H Hi. rewrite !stored_rowl. now rewrite (ap_old _ _ _ H). Qed.
Lemma ap_stored_new U U' r j : appended U U' r -> stored U' (cn U) j <-> In j (map fst r).
Proof. intros H. rewrite stored_rowl. now rewrite (ap_new _ _ _ H). Qed.

Lemma pivot_first_rowl U q : wf U -> pivot_first U q <->
  forall i, 0 <= i < cn U -> exists c v r, rowl U i = (c, v) :: r /\ get q c = i.
Proof.
  intros HU. split; intros H i Hi; specialize (H i Hi).
  - destruct H as [H1 H2]. unfold rowl. rewrite zseq_cons by lia. cbn [map]. eauto.
  - destruct H as (c & v & r & E & Hq). assert (Hlt : rbeg U i < rend U i).
    { pose proof (wf_row U HU i Hi). assert (L : len (rowl U i) = rend U i - rbeg U i) by (apply len_rowl; lia).
      rewrite E, len_cons in L. pose proof (len_nonneg r). lia. }
    split; auto. unfold rowl in E. rewrite zseq_cons in E by lia. cbn [map] in E. injection E as E1 _ _. now rewrite E1.
Qed.
Lemma reduced_rowl U : wf U -> reduced U <-> cx U <> None /\
  forall i e, 0 <= i < cn U -> In e (rowl U i) -> balanced (cprime U) (snd e).
Proof.
  intros HU. split; intros [H1 H2]; (split; [auto|]).
  - intros i [c v] Hi He. apply In_rowl in He. destruct He as (px & Hpx & _ & <-). apply H2.
    pose proof (wf_row U HU i Hi). lia.
  - intros px Hpx. destruct (row_exists U HU px Hpx) as (i & Hi & Hr).
    apply (H2 i (get (cj U) px, val U px)); auto. apply In_rowl. exists px. auto.
Qed.
Lemma elim_append p U q U' j r : 2 <= p -> elim p U q -> appended U U' ((j, 1) :: r) ->
  0 <= j < cm U -> get q j < 0 ->
  (forall e, In e r -> fst e <> j /\ get q (fst e) < 0 /\ balanced p (snd e)) ->
  elim p U' (upd q j (cn U)).
Proof.
  intros Hp [W X P Up F R] HA Hj Hqj Hr. pose proof (wf_n U W) as Hn. pose proof Up as [U1 U2 U3 U4 U5 U6].
  pose proof (ap_n _ _ _ HA) as An. pose proof (ap_m _ _ _ HA) as Am. pose proof (ap_p _ _ _ HA) as Ap.
  assert (HQ : forall c, get (upd q j (cn U)) c = if j =? c then cn U else get q c) by (intros; apply get_upd_in; lia).
  assert (Hnj : forall c, 0 <= get q c -> (j =? c) = false) by (intros c Hc; destruct (Z.eqb_spec j c); auto; subst; lia).
  constructor.
  - apply HA.
  - apply HA.
  - now rewrite Ap.
  - constructor; rewrite ?Am, ?An.
    + now rewrite len_upd.
    + intros c Hc. rewrite HQ. destruct (j =? c); [lia|]. specialize (U2 c Hc). lia.
    + intros i Hi. destruct (Z.eq_dec i (cn U)) as [->|].
      * exists j. split; auto. now rewrite HQ, Z.eqb_refl.
      * destruct (U3 i ltac:(lia)) as (c & Hc & Hq). exists c. split; auto. rewrite HQ, Hnj by lia. auto.
    + intros c k Hc Hk. rewrite !HQ. pose proof (U2 c Hc). pose proof (U2 k Hk).
      destruct (Z.eqb_spec j c), (Z.eqb_spec j k); try lia. apply U4; auto.
    + intros c Hc. rewrite HQ. destruct (Z.eqb_spec j c) as [<-|]; intros Hq.
      * rewrite (ap_entry_new _ _ _ _ HA), lentry_cons, Z.eqb_refl, lentry_absent; [apply cong_refl|].
        rewrite in_map_iff. intros (e & E & He). destruct (Hr e He) as [Hne _]. congruence.
      * pose proof (U2 c Hc). rewrite (ap_entry _ _ _ _ _ HA) by lia. auto.
    + intros c i Hc. rewrite HQ. destruct (Z.eqb_spec j c); [lia|]. intros Hq Hi.
      destruct (Z.eq_dec i (cn U)) as [->|].
      * rewrite (ap_stored_new _ _ _ _ HA). cbn [map fst]. intros [E|H]; [easy|]. apply in_map_iff in H. destruct H as (e & E & He).
        destruct (Hr e He) as (_ & H & _). rewrite E in H. lia.
      * rewrite (ap_stored _ _ _ _ _ HA) by lia. apply U6; auto; lia.
  - apply pivot_first_rowl; [apply HA|]. rewrite An. intros i Hi. destruct (Z.eq_dec i (cn U)) as [->|].
    + exists j, 1, r. split; [apply HA|]. now rewrite HQ, Z.eqb_refl.
    + rewrite (ap_old _ _ _ HA) by lia. pose proof (proj1 (pivot_first_rowl U q W) F) as F2. clear F. rename F2 into F. destruct (F i ltac:(lia)) as (c & v & l & E & Hq).
      exists c, v, l. split; auto. rewrite HQ, Hnj by lia. auto.
  - apply reduced_rowl; [apply HA|]. split; [apply HA|]. rewrite An, Ap, P. intros i e Hi He. apply reduced_rowl in R; auto. rewrite P in R.
    destruct (Z.eq_dec i (cn U)) as [->|].
    + rewrite (ap_new _ _ _ HA) in He. destruct He as [<-|He]; [|now apply Hr]. cbn [snd]. now apply balanced_1.
    + rewrite (ap_old _ _ _ HA) in He by lia. apply (proj2 R i); [lia|auto].
Qed.
Lemma elim_same p U q U' : elim p U q -> wf U' -> same_entries U U' -> (cx U' = None <-> cx U = None) -> elim p U' q.
Proof.
  intros [W X P Up F R] W' HS HX. pose proof HS as (S1 & S2 & S3 & S4 & S5).
  constructor; auto; try tauto.
  - congruence.
  - destruct Up as [U1 U2 U3 U4 U5 U6]. constructor; rewrite ?S1, ?S2; auto.
    + intros j Hj Hq. rewrite (same_entry U U') by (auto; specialize (U2 j Hj); lia). auto.
    + intros j i Hj Hq Hi. rewrite (same_stored U U') by (auto; lia). auto.
  - apply pivot_first_rowl; auto. rewrite S1. intros i Hi. rewrite (same_rowl U U') by auto. pose proof (proj1 (pivot_first_rowl U q W) F) as F2. clear F. rename F2 into F. auto.
  - apply reduced_rowl; auto. split; [tauto|]. rewrite S1, S4. intros i e Hi. rewrite (same_rowl U U') by auto.
    apply reduced_rowl in R; auto. now apply R.
Qed.
