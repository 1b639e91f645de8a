(** Proofs about [transpose] (src/spasm_transpose.c). *)
From Verif Require Import Base BaseFacts Spec Zp Mat MatFacts Dispatch.


Lemma wf_pattern A : wf A -> wf (pattern A).
Proof. intros (H1 & H2 & H3 & H4 & H5 & H6 & H7 & _). unfold wf. cbn. tauto. Qed.


Lemma cp_alloc g n m nz prime b : 0 <= n -> len (cp (csr_alloc g n m nz prime b)) = n + 1.
Proof. intros H. simpl. rewrite len_upd, len_malloc. lia. Qed.

Lemma sum_nonzero lo hi f : sum lo hi f <> 0 -> exists k, lo <= k < hi /\ f k <> 0.
Proof.
  intros H. destruct (Z_lt_le_dec lo hi) as [Hl|Hl]; [|rewrite sum_empty in H by lia; easy].
  assert (G : forall k, lo <= k <= hi -> sum lo k f <> 0 -> exists i, lo <= i < k /\ f i <> 0).
  { apply (range_ind (fun k => sum lo k f <> 0 -> exists i, lo <= i < k /\ f i <> 0) lo hi).
    - rewrite sum_empty by lia. easy.
    - intros k Hk IH Hs. rewrite sum_S in Hs by lia. destruct (Z.eq_dec (f k) 0).
      + destruct IH as (i & Hi & Hf); [lia|]. exists i. split; [lia|auto].
      + exists k. split; [lia|auto]. }
  apply (G hi); auto. lia.
Qed.

Lemma stored_pattern A i j : stored A i j <-> 0 < entry (pattern A) i j.
Proof.
  unfold stored, entry. change (rbeg (pattern A) i) with (rbeg A i). change (rend (pattern A) i) with (rend A i).
  cbn [pattern cj]. unfold val. cbn [pattern cx]. split.
  - intros (px & Hpx & E). apply Z.lt_le_trans with (sum (rbeg A i) (rend A i) (fun k => if k =? px then 1 else 0)).
    + rewrite (sum_single _ _ _ px); auto. { rewrite Z.eqb_refl. lia. }
      intros k Hk Hne. now replace (k =? px) with false by lia.
    + apply sum_le. intros k Hk. destruct (Z.eqb_spec k px) as [->|]. { rewrite E, Z.eqb_refl. lia. }
      destruct (_ =? _); lia.
  - intros H. destruct (Z_lt_le_dec (rbeg A i) (rend A i)) as [Hl|Hl]; [|rewrite sum_empty in H by lia; lia].
    destruct (Z.eq_dec (sum (rbeg A i) (rend A i) (fun px => if get (cj A) px =? j then 1 else 0)) 0); [lia|].
    apply sum_nonzero in n. destruct n as (px & Hpx & Hn). exists px. split; auto.
    destruct (Z.eqb_spec (get (cj A) px) j); auto. easy.
Qed.

Section transpose.
Context (C : csr) (HC : wf C).
Local Notation N := (nnz C).
Let key px := get (cj C) px.

Lemma HN : 0 <= N. Proof. apply wf_nnz; auto. Qed.
Lemma Hkey px : 0 <= px < N -> 0 <= key px < cm C.
Proof. apply wf_col; auto. Qed.

Lemma cnt_nonempty k j : 0 <= k -> 0 < cnt key k j -> exists q, 0 <= q < k /\ key q = j.
Proof.
  intros Hk. revert k Hk. apply (natlike_ind (fun k => 0 < cnt key k j -> exists q, 0 <= q < k /\ key q = j)).
  - intros H. unfold cnt in H. rewrite sum_empty in H by lia. lia.
  - intros k Hk IH H. unfold Z.succ in *. rewrite cnt_S in H by lia.
    destruct (Z.eqb_spec (key k) j).
    + exists k. split; auto. lia.
    + destruct IH as (q & Hq & E); [lia|]. exists q. split; auto. lia.
Qed.

Theorem transpose_ok g kv :
  sat (transpose g C kv) (fun T =>
    wf T /\ cn T = cm C /\ cm T = cn C /\ cprime T = cprime C /\ nnz T = nnz C /\
    (cx T = None <-> (kv = false \/ cx C = None)) /\
    (forall i j, 0 <= i < cn C -> 0 <= j < cm C ->
       entry T j i = entry (if kv then C else pattern C) i j) /\
    ascending T /\
    (forall i j, 0 <= i < cn C -> 0 <= j < cm C ->
       entry (pattern T) j i = entry (pattern C) i j)).
Proof.
  pose proof (wf_n C HC) as Hn. pose proof (wf_m C HC) as Hm. pose proof (wf_len C HC) as Hl.
  pose proof HN as HN. pose proof Hkey as Hkey.
  unfold transpose. wp. { lia. }
  apply (rows_spec C HC (counted (cm C) key)).
  { apply counted_0. - rewrite len_fill; lia. - intros; apply get_fill0. }
  { intros i px w Hi Hpx Hw. pose proof (wf_row C HC i Hi).
    assert (Hpx' : 0 <= px < N) by lia. pose proof (Hkey px Hpx') as Hkpx.
    pose proof (wf_nnz C HC). pose proof Hw as [Hlw _]. wp; unfold key in *; try lia.
    apply (counted_step N (cm C) key); auto. }
  intros w Hw. fold (nnz C). wp.
  apply (prefix_spec N (cm C) key); auto. { now apply cp_alloc. }
  clear w Hw. intros Tp w HTp Hw HTp' Hw'. wp. { lia. }
  set (vals := kv && match cx C with Some _ => true | None => false end) in *.
  set (b := fun px => if vals then val C px else 1).
  eapply (rows_spec_gen C HC (fun k '(w, J, X) =>
    Disp N (cm C) key (rowof C) b k w J X /\ (X = None <-> vals = false) /\
    (forall j px py, 0 <= j < cm C -> start N key j <= px <= py ->
        py < start N key j + cnt key k j -> get J px <= get J py) /\
    (forall j px, 0 <= j < cm C -> start N key j <= px < start N key j + cnt key k j ->
        exists q, 0 <= q < k /\ get J px = rowof C q))).
  { intros i [[w' J] X]. reflexivity. }
  - split; [|split; [|split]].
    + apply Disp_0; auto.
      * cbn. rewrite len_malloc. lia.
      * cbn. destruct vals; cbn; auto. rewrite len_malloc. lia.
    + cbn. destruct vals; split; congruence.
    + intros j px py Hj Hpx Hpy. unfold cnt in Hpy. rewrite sum_empty in Hpy by lia. lia.
    + intros j px Hj Hpx. unfold cnt in Hpx. rewrite sum_empty in Hpx by lia. lia.
  - intros i px [[w' J] X] Hi Hpx (HD & HX & Hso & Hfr).
    pose proof (wf_row C HC i Hi). pose proof (wf_nnz C HC).
    assert (Hpx' : 0 <= px < N) by lia.
    pose proof (Disp_pos N (cm C) key HN Hkey _ _ px w' J X Hpx' HD) as (Hk & Hpy & Hpos).
    pose proof HD as (HD1 & HD2 & HD3 & _).
    wp; try (change (get (cj C) px) with (key px)); try lia.
    eapply (sat_ocopy X _ (cx C) px N (len (cj C))); auto; try lia.
    { intros HXn. destruct (cx C) eqn:E; try congruence.
      unfold vals in HX. rewrite andb_false_r in HX. tauto. }
    { destruct (cx C) eqn:E; simpl; auto. now apply wf_vals. }
    wp. { lia. }
    replace i with (rowof C px) by now apply rowof_eq.
    assert (HXv : oupd X (get w' (key px)) (oval (cx C) px) = oupd X (get w' (key px)) (b px)).
    { unfold b. destruct vals eqn:Ev; auto. now rewrite (proj2 HX). }
    rewrite HXv. split; [|split; [|split]].
    + apply Disp_step; auto. intros EX. apply HX in EX. unfold b. now rewrite EX.
    + destruct X; simpl; auto. rewrite <- HX. split; congruence.
    + intros j p1 p2 Hj Hp1 Hp2. rewrite cnt_S in Hp2 by lia.
      rewrite !get_upd_in by lia.
      destruct (Z.eqb_spec (get w' (key px)) p2).
      * destruct (Z.eqb_spec (get w' (key px)) p1); [lia|].
        (* p1 is an older element: its row is at most the current one *)
        assert (key px = j).
        { destruct (Z.eqb_spec (key px) j); auto. exfalso.
          pose proof (cnt_mono key px N j ltac:(lia)).
          pose proof (cnt_mono key (px + 1) N (key px) ltac:(lia)) as Hmm.
          rewrite cnt_S, Z.eqb_refl in Hmm by lia.
          pose proof (start_S N key j). pose proof (start_S N key (key px)).
          pose proof (cnt_nonneg key px (key px)).
          destruct (Z_lt_le_dec (key px) j).
          - pose proof (start_mono N key (key px + 1) j ltac:(lia)). lia.
          - pose proof (start_mono N key (j + 1) (key px) ltac:(lia)). lia. }
        subst j. destruct (Hfr (key px) p1) as (q & Hq & Eq); auto; try lia.
        rewrite Eq.
        destruct (rowof_spec C HC q) as [Hr1 Hr2]; [lia|].
        destruct (rowof_spec C HC px) as [Hr3 Hr4]; [lia|].
        destruct (Z_lt_le_dec (rowof C px) (rowof C q)); try lia.
        pose proof (wf_mono C HC (rowof C px + 1) (rowof C q) ltac:(lia) ltac:(lia)).
        unfold rbeg, rend in *. lia.
      * destruct (Z.eqb_spec (get w' (key px)) p1).
        -- exfalso.
           destruct (Z.eqb_spec (key px) j); [subst j; lia|].
           pose proof (cnt_mono key px N j ltac:(lia)).
           pose proof (cnt_mono key (px + 1) N (key px) ltac:(lia)) as Hmm.
           rewrite cnt_S, Z.eqb_refl in Hmm by lia.
           pose proof (start_S N key j). pose proof (start_S N key (key px)).
           pose proof (cnt_nonneg key px (key px)).
           destruct (Z_lt_le_dec (key px) j).
           ++ pose proof (start_mono N key (key px + 1) j ltac:(lia)). lia.
           ++ pose proof (start_mono N key (j + 1) (key px) ltac:(lia)). lia.
        -- apply (Hso j); auto. destruct (Z.eqb_spec (key px) j); [subst j|]; lia.
    + intros j p1 Hj Hp1. rewrite cnt_S in Hp1 by lia. rewrite get_upd_in by lia.
      destruct (Z.eqb_spec (get w' (key px)) p1).
      * exists px. split; auto. lia.
      * destruct (Hfr j p1) as (q & Hq & Eq); auto.
        { destruct (Z.eqb_spec (key px) j); [subst j|]; lia. }
        exists q. split; auto. lia.
  - intros [[w' J] X] (HD & HX & Hso & Hfr). wp.
    pose proof HD as (HD1 & HD2 & HD3 & HD4 & HD5).
    set (T := Csr _ _ _ _ _ _).
    assert (HTp2 : forall j, 0 <= j <= cm C -> get (upd Tp (cm C) N) j = start N key j).
    { intros j Hj. rewrite get_upd_in by lia. destruct (Z.eqb_spec (cm C) j).
      - subst j. symmetry. now apply start_n.
      - apply HTp'; lia. }
    assert (Hrb : forall j, 0 <= j < cm C -> rbeg T j = start N key j).
    { intros j Hj. apply HTp2; lia. }
    assert (Hre : forall j, 0 <= j < cm C -> rend T j = start N key (j + 1)).
    { intros j Hj. apply HTp2; lia. }
    assert (HnT : nnz T = N).
    { unfold nnz. cbn. rewrite HTp2 by lia. now apply start_n. }
    split; [|split; [|split; [|split; [|split; [|split; [|split; [|split]]]]]]]; auto.
    + (* wf *)
      unfold wf. rewrite HnT. cbn [cn cm cp cj cx T]. split; auto. split; auto.
      split. { len. lia. } split. { rewrite HTp2 by lia. apply (start_0 N (cm C)); auto. }
      split. { intros j Hj. rewrite Hrb, Hre by auto. apply start_mono; lia. }
      split. { lia. } split.
      * intros px Hpx.
        (* find the bucket *)
        assert (exists j, 0 <= j < cm C /\ start N key j <= px < start N key (j + 1)) as (j & Hj & Hb).
        { assert (G : forall k : nat, Z.of_nat k <= cm C -> px < start N key (Z.of_nat k) ->
             exists j, 0 <= j < cm C /\ start N key j <= px < start N key (j + 1)).
          { induction k; intros Hk Hlt.
            - change (Z.of_nat 0) with 0 in Hlt. rewrite (start_0 N (cm C)) in Hlt; auto. lia.
            - destruct (Z_lt_le_dec px (start N key (Z.of_nat k))).
              + apply IHk; auto. lia.
              + exists (Z.of_nat k). split; [lia|].
                replace (Z.of_nat k + 1) with (Z.of_nat (S k)) by lia. lia. }
          apply (G (Z.to_nat (cm C))). lia. rewrite Z2Nat.id by lia.
          rewrite (start_n N (cm C)); auto. lia. }
        pose proof (Disp_all N (cm C) key _ _ w' J X
          (fun r _ => (0 <=? r) && (r <? cn C)) j px HD Hj Hb) as HA.
        cbv beta in HA. assert (0 <= get J px < cn C); [|auto].
        apply andb_prop in HA. lia. intros q Hq _.
        destruct (rowof_spec C HC q); auto. lia.
      * destruct X; auto. simpl in HD3. lia.
    + (* values *)
      cbn [cx T]. rewrite HX. unfold vals. destruct kv, (cx C); simpl; intuition congruence.
    + (* entries *)
      intros i j Hi Hj. unfold entry at 1. rewrite Hrb, Hre by auto.
      rewrite start_S.
      pose proof (HD5 (fun r v => if r =? i then v else 0) j Hj) as E. cbv beta in E.
      change (get (cj T)) with (get J). change (val T) with (oval X). rewrite E.
      assert (Ew : wf (if kv then C else pattern C)) by (destruct kv; auto; now apply wf_pattern).
      assert (Ein : 0 <= i < cn (if kv then C else pattern C)) by (destruct kv; auto).
      rewrite (entry_flat _ Ew i j Ein).
      replace (nnz (if kv then C else pattern C)) with N by (destruct kv; auto).
      apply sum_ext. intros q Hq. unfold key.
      replace (rowof (if kv then C else pattern C) q) with (rowof C q) by (destruct kv; auto).
      replace (get (cj (if kv then C else pattern C)) q) with (get (cj C) q) by (destruct kv; auto).
      rewrite andb_comm. destruct (get (cj C) q =? j), (rowof C q =? i); auto.
      unfold b, vals, val. destruct kv; simpl; auto. destruct (cx C); auto.
    + (* sorted *)
      intros j px py Hj Hpx Hpy. rewrite Hrb in Hpx by auto. rewrite Hre, start_S in Hpy by auto.
      apply (Hso j); auto.
    + (* positions *)
      intros i j Hi Hj.
      assert (Ew : wf (pattern C)) by now apply wf_pattern.
      unfold entry at 1. cbn [pattern cj].
      change (rbeg (pattern T) j) with (rbeg T j). change (rend (pattern T) j) with (rend T j).
      rewrite Hrb, Hre by auto. rewrite start_S.
      pose proof (HD5 (fun r _ => if r =? i then 1 else 0) j Hj) as E. cbv beta in E.
      change (get (cj T)) with (get J). unfold val. cbn [pattern cx]. rewrite E.
      rewrite (entry_flat _ Ew i j Hi). change (nnz (pattern C)) with N.
      apply sum_ext. intros q Hq. unfold key.
      change (rowof (pattern C) q) with (rowof C q). change (get (cj (pattern C)) q) with (get (cj C) q).
      rewrite andb_comm. destruct (get (cj C) q =? j), (rowof C q =? i); auto.
Qed.
End transpose.

(* twice is the identity *)
Theorem transpose_twice C g g' : wf C ->
  sat (T <- transpose g C true ;; transpose g' T true) (fun D =>
    wf D /\ cn D = cn C /\ cm D = cm C /\ nnz D = nnz C /\ ascending D /\
    forall i j, 0 <= i < cn C -> 0 <= j < cm C -> entry D i j = entry C i j).
Proof.
  intros HC. wp. eapply sat_mono; [now apply transpose_ok|].
  intros T (T1 & T2 & T3 & T4 & T5 & T6 & T7 & T8 & T9). eapply sat_mono; [now apply transpose_ok|].
  intros D (D1 & D2 & D3 & D4 & D5 & D6 & D7 & D8 & D9).
  split; [auto|]. split; [congruence|]. split; [congruence|]. split; [congruence|]. split; [auto|].
  intros i j Hi Hj. rewrite (D7 j i) by lia. rewrite (T7 i j) by lia. reflexivity.
Qed.
