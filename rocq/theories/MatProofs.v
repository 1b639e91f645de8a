(** Proofs about permutations, submatrices and entry insertion
    (src/spasm_permutation.c, src/spasm_submatrix.c, src/spasm_triplet.c). *)
From Verif Require Import Base BaseFacts Spec SpecFacts Zp ZpFacts Mat MatFacts RowList TransposeProofs.

(** ** Permuting a matrix *)
Definition prow (A : csr) (qinv : option (list Z)) (keep : bool) (i : Z) : list (Z * Z) :=
  map (fun e => (oapply qinv (fst e), if keep then snd e else 1)) (rowl A i).

Lemma nnz_rows A : wf A -> sum 0 (cn A) (fun i => rend A i - rbeg A i) = nnz A.
Proof.
  intros HA. pose proof (wf_n A HA) as Hn.
  assert (G : forall k : nat, Z.of_nat k <= cn A -> sum 0 (Z.of_nat k) (fun i => rend A i - rbeg A i) = get (cp A) (Z.of_nat k)).
  { induction k; intros Hk.
    - rewrite sum_empty by lia. symmetry. exact (wf_0 A HA).
    - replace (Z.of_nat (S k)) with (Z.of_nat k + 1) by lia. rewrite sum_S by lia.
      rewrite IHk by lia. unfold rend, rbeg. lia. }
  specialize (G (Z.to_nat (cn A))). rewrite Z2Nat.id in G by lia. apply G. lia.
Qed.

Theorem permute_ok g A p qinv values : wf A -> is_operm (cn A) p -> is_operm (cm A) qinv ->
  sat (permute g A p qinv values) (fun C =>
    wf C /\ cn C = cn A /\ cm C = cm A /\ cprime C = cprime A /\ nnz C = nnz A /\
    (cx C = None <-> values = false \/ cx A = None) /\
    forall i, 0 <= i < cn A -> rowl C i = prow A qinv values (oapply p i)).
Proof.
  intros HA Hp Hq. unfold permute.
  pose proof (wf_n A HA) as Hn. pose proof (wf_m A HA) as Hm. pose proof (wf_len A HA) as Hl.
  pose proof (wf_nnz A HA) as Hnz.
  set (R := fun i => prow A qinv values (oapply p i)).
  set (hv := values && match cx A with Some _ => true | None => false end).
  assert (HlR : forall i, 0 <= i < cn A -> len (R i) = rend A (oapply p i) - rbeg A (oapply p i)).
  { intros i Hi. unfold R, prow. rewrite len_map. apply len_rowl.
    apply (wf_row A HA). now apply (operm_range (cn A)). }
  assert (HlC : forall i, 0 <= i <= cn A -> len (concat (map R (zseq 0 i))) = sum 0 i (fun i => rend A (oapply p i) - rbeg A (oapply p i))).
  { intros i Hi. rewrite len_concat_le, lsum_map, lsum_zseq. apply sum_ext. intros; apply HlR; lia. }
  assert (Htot : len (concat (map R (zseq 0 (cn A)))) = nnz A).
  { rewrite HlC by lia. rewrite (sum_operm (cn A) p (fun i => rend A i - rbeg A i)); auto. now apply nnz_rows. }
  assert (Hbound : forall i, 0 <= i < cn A -> len (concat (map R (zseq 0 i))) + len (R i) <= nnz A).
  { intros i Hi. rewrite <- Htot, !HlC, HlR by lia. rewrite (sum_split (i + 1) 0 (cn A)) by lia.
    rewrite sum_S by lia.
    assert (0 <= sum (i + 1) (cn A) (fun i => rend A (oapply p i) - rbeg A (oapply p i))); [|lia].
    apply sum_nonneg. intros k Hk. pose proof (wf_row A HA (oapply p k)).
    pose proof (operm_range (cn A) p k Hp). lia. }
  wp.
  apply (for_spec (fun i '(Cp, Cj, Cx, nz) =>
    len Cp = cn A + 1 /\ len Cj = len (cj A) /\ (Cx = None <-> hv = false) /\
    PtrL Cp (map R (zseq 0 i)) /\ Built Cj Cx (concat (map R (zseq 0 i))) /\
    nz = len (concat (map R (zseq 0 i))))); auto.
  - cbn [csr_alloc cp cj cx]. rewrite len_upd, !len_malloc. pose proof (len_nonneg (cj A)). split; [lia|]. split; [lia|].
    split. { fold hv. destruct hv; split; congruence. }
    split; [apply PtrL_nil|]. split; auto. apply Built_nil. fold hv. destruct hv; simpl; auto. now rewrite !len_malloc.
  - intros i [[[Cp Cj] Cx] nz] Hi (L1 & L2 & LX & LP & LB & ->).
    assert (Hpi : 0 <= oapply p i < cn A) by now apply (operm_range (cn A)).
    pose proof (wf_row A HA _ Hpi) as Hrow. specialize (Hbound i Hi). specialize (HlR i Hi).
    set (l := concat (map R (zseq 0 i))) in *.
    wp; try lia. apply (sat_operm_get _ _ (cn A)); auto. wp; try lia.
    change (get (cp A) (oapply p i)) with (rbeg A (oapply p i)).
    change (get (cp A) (oapply p i + 1)) with (rend A (oapply p i)).
    set (pi := oapply p i) in *.
    set (E := fun t => (oapply qinv (get (cj A) t), if values then val A t else 1)).
    apply (for_spec (fun t '(Cj, Cx, nz) =>
      len Cj = len (cj A) /\ (Cx = None <-> hv = false) /\
      Built Cj Cx (l ++ map E (zseq (rbeg A pi) t)) /\
      nz = len (l ++ map E (zseq (rbeg A pi) t)))); auto.
    + lia.
    + rewrite zseq_empty by lia. simpl. rewrite app_nil_r. auto.
    + clear Cj Cx L2 LX LB. intros t [[Cj Cx] nz] Ht (L2 & LX & LB & ->).
      pose proof (wf_col A HA t ltac:(lia)) as Hcol.
      assert (Hll : len (l ++ map E (zseq (rbeg A pi) t)) = len l + (t - rbeg A pi)).
      { rewrite len_app, len_map, len_zseq. lia. }
      pose proof (len_nonneg l).
      wp; try lia. apply (sat_operm_get _ _ (cm A)); auto. wp; try lia.
      apply (sat_ocopy _ _ _ _ (len (cj A)) (len (cj A))); auto; try lia.
      { destruct LB as (_ & LB & _). now rewrite <- L2. }
      { intros H1 H2. apply H1, LX. unfold hv. rewrite H2. apply andb_false_r. }
      { destruct (cx A) eqn:EA; simpl; auto. now apply (wf_vals A HA). }
      wp. rewrite len_upd. split; [auto|]. split.
      { destruct Cx; simpl; auto. split; [congruence|]. intros H'. apply LX in H'. congruence. }
      rewrite zseq_S by lia. rewrite map_snoc, app_assoc. split.
      * change (E t) with (oapply qinv (get (cj A) t), if values then val A t else 1).
        assert (Hv : oupd Cx (len (l ++ map E (zseq (rbeg A pi) t))) (oval (cx A) t)
          = oupd Cx (len (l ++ map E (zseq (rbeg A pi) t))) (if values then val A t else 1)).
        { destruct Cx; auto. destruct values; auto. exfalso. destruct LX as [_ LX]. discriminate LX. reflexivity. }
        rewrite Hv. apply Built_app; auto; try lia.
        intros HN. apply LX in HN. unfold hv in HN. unfold val. destruct values; auto. destruct (cx A); auto. discriminate.
      * rewrite (len_app _ [_]). change (len [E t]) with 1. lia.
    + clear Cj Cx L2 LX LB. intros [[Cj Cx] nz] (L2 & LX & LB & ->).
      assert (HE : map E (zseq (rbeg A pi) (rend A pi)) = R i).
      { unfold R, prow, rowl. rewrite map_map. reflexivity. }
      rewrite HE in *. wp. rewrite len_upd. split; [auto|]. split; [auto|]. split; [auto|].
      rewrite zseq_S, map_snoc, concat_snoc by lia. fold l. split; [|auto].
      apply Ptr_PtrL. pose proof (PtrL_close Cp (map R (zseq 0 i)) LP) as HH.
      rewrite len_map, len_zseq in HH. replace (Z.max 0 (i - 0)) with i in HH by lia. apply HH. lia.
  - intros [[[Cp Cj] Cx] nz] (L1 & L2 & LX & LP & LB & ->). wp. { lia. }
    set (C := Csr _ _ _ _ _ _).
    assert (HR : has_rows C (map R (zseq 0 (cn A)))).
    { unfold has_rows. cbn [cn cm cp cj cx C]. rewrite len_map, len_zseq, len_upd.
      replace (Z.max 0 (cn A - 0)) with (cn A) by lia. split; [auto|]. split; [auto|]. split; [|auto].
      pose proof (PtrL_close Cp (map R (zseq 0 (cn A))) LP) as HH.
      rewrite len_map, len_zseq in HH. replace (Z.max 0 (cn A - 0)) with (cn A) in HH by lia. apply HH. lia. }
    split.
    { apply (has_rows_wf C _ HR); auto. intros r e Hr He. apply in_map_iff in Hr.
      destruct Hr as (i & <- & Hi). apply In_zseq in Hi. apply in_map_iff in He.
      destruct He as ([c v] & <- & He). cbn. apply In_rowl in He. destruct He as (px & Hpx & <- & _).
      apply (operm_range (cm A)); auto. apply (wf_col A HA).
      pose proof (wf_row A HA (oapply p i) (operm_range _ _ _ Hp Hi)). lia. }
    split; [auto|]. split; [auto|]. split; [auto|].
    split. { rewrite (has_rows_nnz C _ HR). auto. }
    split. { cbn. rewrite LX. unfold hv. destruct values, (cx A); simpl; split; intuition congruence. }
    intros i Hi. rewrite (has_rows_rowl C _ HR) by auto. rewrite (getd_map _ 0) by (rewrite len_zseq; lia).
    rewrite getd_zseq by lia. reflexivity.
Qed.

Theorem permute_entry g A p qinv values : wf A -> is_operm (cn A) p -> is_operm (cm A) qinv ->
  sat (permute g A p qinv values) (fun C =>
    wf C /\ cn C = cn A /\ cm C = cm A /\ cprime C = cprime A /\ nnz C = nnz A /\
    (cx C = None <-> values = false \/ cx A = None) /\
    (forall i j, 0 <= i < cn A -> 0 <= j < cm A ->
       entry C i (oapply qinv j) = entry (if values then A else pattern A) (oapply p i) j /\
       (stored C i (oapply qinv j) <-> stored A (oapply p i) j))).
Proof.
  intros HA Hp Hq. eapply sat_mono; [now apply permute_ok|].
  intros C (H1 & H2 & H3 & H4 & H5 & H6 & H7). do 6 (split; [auto|]).
  intros i j Hi Hj. pose proof (operm_range _ _ _ Hp Hi) as Hpi. pose proof (wf_row A HA _ Hpi) as Hrow. split.
  - rewrite entry_rowl, H7 by auto. unfold prow, lentry, rowl. rewrite !lsum_map, lsum_zseq. cbn [fst snd].
    set (pi := oapply p i) in *.
    transitivity (sum (rbeg A pi) (rend A pi) (fun px => if get (cj A) px =? j then (if values then val A px else 1) else 0)).
    + apply sum_ext. intros px Hpx. pose proof (wf_col A HA px ltac:(lia)).
      destruct (Z.eqb_spec (get (cj A) px) j) as [->|Hne]; [now rewrite Z.eqb_refl|].
      destruct (Z.eqb_spec (oapply qinv (get (cj A) px)) (oapply qinv j)) as [E|]; auto.
      apply (operm_inj (cm A)) in E; auto. lia.
    + destruct values; reflexivity.
  - rewrite !stored_rowl, H7 by auto. unfold prow. rewrite map_map. cbn [fst].
    rewrite <- (map_map fst (oapply qinv)). rewrite in_map_iff. split.
    + intros (c & E & Hc). apply (operm_inj (cm A)) in E; auto; [now subst|].
      apply stored_rowl in Hc. destruct Hc as (px & Hpx & <-). apply (wf_col A HA). lia.
    + intros Hc. eauto.
Qed.

(** ** Submatrices *)
Definition srow (A : csr) (c0 c1 : Z) (keep : bool) (i : Z) : list (Z * Z) :=
  map (fun e => (fst e - c0, if keep then snd e else 1))
    (filter (fun e => (c0 <=? fst e) && (fst e <? c1)) (rowl A i)).

Lemma len_filter {A} (f : A -> bool) l : len (filter f l) <= len l.
Proof. induction l; simpl; try lia. destruct (f a); rewrite ?len_cons; lia. Qed.

Lemma lsum_filter {A} (f : A -> Z) (q : A -> bool) l : lsum f (filter q l) = lsum (fun a => if q a then f a else 0) l.
Proof. induction l; simpl; auto. destruct (q a); simpl; lia. Qed.

Lemma Some_not_None {A} (o : option A) a : o = Some a -> o = None -> False.
Proof. congruence. Qed.

Theorem submatrix_ok g A r0 r1 c0 c1 wv : wf A -> 0 <= r0 <= r1 -> r1 <= cn A ->
  sat (submatrix g A r0 r1 c0 c1 wv) (fun B =>
    wf B /\ cn B = r1 - r0 /\ cm B = Z.max 0 (c1 - c0) /\ cprime B = cprime A /\ len (cj B) = nnz B /\
    (cx B = None <-> wv = false \/ cx A = None) /\
    forall i, 0 <= i < r1 - r0 -> rowl B i = srow A c0 c1 wv (r0 + i)).
Proof.
  intros HA Hr Hr1. unfold submatrix.
  pose proof (wf_n A HA) as Hn. pose proof (wf_len A HA) as Hl. pose proof (wf_nnz A HA) as Hnz.
  pose proof (wf_mono A HA r0 r1 Hr Hr1) as Hm01.
  wp; try lia.
  set (R := srow A c0 c1 wv).
  set (hv := match cx A with Some _ => wv | None => false end).
  set (cap := Z.max 0 (get (cp A) r1 - get (cp A) r0)).
  assert (HlR : forall i, 0 <= i < cn A -> len (R i) <= rend A i - rbeg A i).
  { intros i Hi. unfold R, srow. rewrite len_map.
    pose proof (wf_row A HA i Hi). rewrite <- len_rowl by lia. apply len_filter. }
  apply (for_spec (fun i '(Bp, Bj, Bx, k) =>
    len Bp = r1 - r0 + 1 /\ len Bj = cap /\ (Bx = None <-> hv = false) /\
    PtrL Bp (map R (zseq r0 i)) /\ Built Bj Bx (concat (map R (zseq r0 i))) /\
    k = len (concat (map R (zseq r0 i))) /\ k <= get (cp A) i - get (cp A) r0)).
  - lia.
  - cbn [csr_alloc cp cj cx]. fold cap hv. rewrite len_upd, !len_malloc. rewrite zseq_empty by lia.
    split; [lia|]. split; [lia|]. split; [destruct hv; split; congruence|].
    split; [apply PtrL_nil|]. split. { apply Built_nil. destruct hv; simpl; auto. now rewrite !len_malloc. }
    simpl. change (len (@nil (Z * Z))) with 0. lia.
  - intros i [[[Bp Bj] Bx] k] Hi (L1 & L2 & LX & LP & LB & -> & Lk).
    pose proof (wf_row A HA i ltac:(lia)) as Hrow. specialize (HlR i ltac:(lia)).
    pose proof (wf_mono A HA (i + 1) r1 ltac:(lia) ltac:(lia)) as Hm1.
    set (l := concat (map R (zseq r0 i))) in *.
    wp; try lia. fold (rbeg A i) (rend A i).
    set (E := fun px => (get (cj A) px, val A px)).
    set (F := fun e : Z * Z => (fst e - c0, if wv then snd e else 1)).
    set (q := fun e : Z * Z => (c0 <=? fst e) && (fst e <? c1)).
    apply (for_spec (fun t '(Bj, Bx, k) =>
      len Bj = cap /\ (Bx = None <-> hv = false) /\
      Built Bj Bx (l ++ map F (filter q (map E (zseq (rbeg A i) t)))) /\
      k = len (l ++ map F (filter q (map E (zseq (rbeg A i) t)))))); auto.
    + lia.
    + rewrite zseq_empty by lia. simpl. rewrite app_nil_r. auto.
    + clear Bj Bx L2 LX LB. intros t [[Bj Bx] k] Ht (L2 & LX & LB & ->).
      set (acc := l ++ map F (filter q (map E (zseq (rbeg A i) t)))) in *.
      assert (Hll : len acc <= len l + (t - rbeg A i)).
      { unfold acc. rewrite len_app, len_map. pose proof (len_filter q (map E (zseq (rbeg A i) t))) as H.
        rewrite len_map, len_zseq in H. lia. }
      pose proof (len_nonneg acc) as Hacc.
      assert (Hcap : len acc < cap) by (unfold cap, rend, rbeg in *; lia).
      assert (Hst : l ++ map F (filter q (map E (zseq (rbeg A i) (t + 1)))) =
        if (c0 <=? get (cj A) t) && (get (cj A) t <? c1) then acc ++ [F (E t)] else acc).
      { unfold acc. rewrite zseq_S by lia. rewrite map_snoc, filter_app, map_app. simpl.
        unfold q at 2. cbn [E fst]. destruct ((c0 <=? get (cj A) t) && (get (cj A) t <? c1)); simpl.
        - now rewrite app_assoc.
        - now rewrite app_nil_r. }
      rewrite Hst. apply sat_bind. apply sat_aget; [lia|].
      destruct ((c0 <=? get (cj A) t) && (get (cj A) t <? c1)).
      2:{ wp. auto. }
      wp. { lia. }
      apply (sat_ocopy _ _ _ _ cap (len (cj A))); auto; try lia.
      { destruct LB as (_ & LB & _). now rewrite <- L2. }
      { intros H1 H2. apply H1, LX. unfold hv. now rewrite H2. }
      { destruct (cx A) eqn:EA; simpl; auto. now apply (wf_vals A HA). }
      wp. rewrite len_upd. split; [auto|]. split.
      { destruct Bx; simpl; auto. split; [congruence|]. intros H'. apply LX in H'. congruence. }
      split; [|rewrite len_app; reflexivity].
      unfold F at 1. cbn [E fst snd].
      assert (Hv : oupd Bx (len acc) (oval (cx A) t) = oupd Bx (len acc) (if wv then val A t else 1)).
      { destruct Bx; auto. destruct wv; auto. exfalso. apply (Some_not_None (Some l0) l0); auto.
        apply LX. unfold hv. now destruct (cx A). }
      rewrite Hv. apply Built_app; auto; try lia.
      intros HN. apply LX in HN. unfold hv in HN. unfold val. destruct wv; auto. destruct (cx A); auto. discriminate.
    + clear Bj Bx L2 LX LB. intros [[Bj Bx] k] (L2 & LX & LB & ->).
      change (map F (filter q (map E (zseq (rbeg A i) (rend A i))))) with (R i) in *.
      wp. rewrite len_upd. split; [auto|]. split; [auto|]. split; [auto|].
      rewrite zseq_S, map_snoc, concat_snoc by lia. fold l. split; [|split; [auto|]].
      * apply Ptr_PtrL. pose proof (PtrL_close Bp (map R (zseq r0 i)) LP) as HH.
        rewrite len_map, len_zseq in HH. replace (Z.max 0 (i - r0)) with (i - r0) in HH by lia. apply HH. lia.
      * split; auto. rewrite len_app. unfold rend, rbeg in *. lia.
  - intros [[[Bp Bj] Bx] k] (L1 & L2 & LX & LP & LB & -> & Lk). wp. { lia. }
    set (B := Csr _ _ _ _ _ _).
    assert (HR : has_rows B (map R (zseq r0 r1))).
    { unfold has_rows. cbn [cn cm cp cj cx B]. rewrite len_map, len_zseq, len_upd.
      replace (Z.max 0 (r1 - r0)) with (r1 - r0) by lia. split; [auto|]. split; [auto|]. split; [|auto].
      pose proof (PtrL_close Bp (map R (zseq r0 r1)) LP) as HH.
      rewrite len_map, len_zseq in HH. replace (Z.max 0 (r1 - r0)) with (r1 - r0) in HH by lia. apply HH. lia. }
    assert (HB : wf B).
    { apply (has_rows_wf B _ HR). cbn; lia. intros r e Hr' He. apply in_map_iff in Hr'.
      destruct Hr' as (i & <- & Hi). apply In_zseq in Hi. apply in_map_iff in He.
      destruct He as ([c v] & <- & He). apply filter_In in He. cbn in *. lia. }
    eapply sat_mono. { apply (csr_realloc_ok g B (-1)); auto. lia. }
    intros C (HC & HS & HL & HX). pose proof HS as (S1 & S2 & S3 & S4 & S5).
    split; [auto|]. split. { rewrite S1. cbn. lia. } split; [auto|]. split; [auto|].
    split. { rewrite HL. unfold nnz. rewrite S1, S3. reflexivity. }
    split. { rewrite HX. cbn. rewrite LX. unfold hv. destruct (cx A); intuition congruence. }
    intros i Hi. assert (HCi : rowl C i = rowl B i).
    { unfold rowl, rbeg, rend. rewrite S3. fold (rbeg B i) (rend B i). apply map_ext_in.
      intros px Hpx. apply In_zseq in Hpx. pose proof (wf_row B HB i ltac:(cbn; lia)).
      destruct (S5 px) as [-> ->]; auto. lia. }
    rewrite HCi, (has_rows_rowl B _ HR) by (cbn; lia).
    rewrite (getd_map _ 0) by (rewrite len_zseq; lia). rewrite getd_zseq by lia. reflexivity.
Qed.

Theorem submatrix_entry g A r0 r1 c0 c1 wv : wf A -> 0 <= r0 <= r1 -> r1 <= cn A ->
  sat (submatrix g A r0 r1 c0 c1 wv) (fun B =>
    wf B /\ cn B = r1 - r0 /\ cm B = Z.max 0 (c1 - c0) /\ cprime B = cprime A /\ len (cj B) = nnz B /\
    (cx B = None <-> wv = false \/ cx A = None) /\
    forall i j, 0 <= i < r1 - r0 -> 0 <= j < c1 - c0 ->
      entry B i j = entry (if wv then A else pattern A) (r0 + i) (c0 + j) /\
      (stored B i j <-> stored A (r0 + i) (c0 + j))).
Proof.
  intros HA Hr Hr1. eapply sat_mono; [now apply submatrix_ok|].
  intros C (H1 & H2 & H3 & H4 & H5 & H6 & H7). do 6 (split; [auto|]).
  intros i j Hi Hj. split.
  - rewrite entry_rowl, H7 by auto. unfold srow, lentry, rowl.
    rewrite lsum_map, lsum_filter, lsum_map, lsum_zseq. cbn [fst snd].
    transitivity (sum (rbeg A (r0 + i)) (rend A (r0 + i)) (fun px => if get (cj A) px =? c0 + j then (if wv then val A px else 1) else 0)).
    + apply sum_ext. intros px Hpx. destruct (Z.eqb_spec (get (cj A) px) (c0 + j)) as [->|Hne].
      * replace (c0 + j - c0 =? j) with true by lia. now replace ((c0 <=? c0 + j) && (c0 + j <? c1)) with true by lia.
      * replace (get (cj A) px - c0 =? j) with false by lia. now destruct (_ && _).
    + destruct wv; reflexivity.
  - rewrite !stored_rowl, H7 by auto. unfold srow. rewrite map_map. cbn [fst]. rewrite !in_map_iff. split.
    + intros (e & E & He). apply filter_In in He. exists e. split; [lia|tauto].
    + intros (e & E & He). exists e. split; [lia|]. apply filter_In. split; auto. lia.
Qed.

(* a reversed row range writes before the row pointers of the result *)
Theorem submatrix_reversed g A r0 r1 c0 c1 wv : wf A -> 0 <= r1 < r0 -> r0 <= cn A ->
  submatrix g A r0 r1 c0 c1 wv = Fail OOB.
Proof.
  intros HA Hr Hr0. pose proof (wf_len A HA) as Hl. unfold submatrix.
  rewrite !aget_ok by lia. cbn [bind]. rewrite for_empty by lia. cbn [bind csr_alloc cp cj cx].
  unfold aset at 1, inb. now replace (0 <=? r1 - r0) with false by lia.
Qed.
