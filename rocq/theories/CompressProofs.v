(** Proofs about spasm_compress (src/spasm_triplet.c). *)
From Verif Require Import Base BaseFacts Spec SpecFacts Zp ZpFacts Mat MatFacts Dispatch TransposeProofs.

(** ** Dispatching the triplets *)
Theorem compress_raw_ok g T : twf T ->
  sat (compress_raw g T) (fun C =>
    wf C /\ cn C = tn T /\ cm C = tm T /\ cprime C = tprime T /\ nnz C = tnz T /\
    (cx C = None <-> tx T = None) /\
    (forall f i, 0 <= i < tn T ->
       sum (rbeg C i) (rend C i) (fun px => f (get (cj C) px) (val C px))
       = sum 0 (tnz T) (fun k => if get (ti T) k =? i then f (get (tj T) k) (tval T k) else 0)) /\
    (forall px (R : Z -> Z -> bool), 0 <= px < nnz C ->
       (forall k, 0 <= k < tnz T -> R (get (tj T) k) (tval T k) = true) ->
       R (get (cj C) px) (val C px) = true)).
Proof.
  intros (Hn & Hm & Hnz & Hti & Htx & Hb). set (N := tnz T) in *. set (n := tn T) in *.
  set (key := fun k => get (ti T) k).
  assert (HN : 0 <= N) by lia.
  assert (Hkey : forall k, 0 <= k < N -> 0 <= key k < n) by (intros k Hk; apply Hb; auto).
  unfold compress_raw. fold N n. wp.
  apply init_spec; auto. { rewrite len_malloc; lia. }
  intros w Hw Hw0. wp.
  apply (for_spec (counted n key)); auto.
  { now apply counted_0. }
  { intros k v Hk Hv. pose proof (Hkey k Hk). pose proof Hv as [Hlv _]. wp;
      try (change (get (ti T) k) with (key k)); try lia.
    apply (counted_step N); auto. }
  clear w Hw Hw0. intros w Hw. wp.
  apply (prefix_spec N n key); auto. { now apply cp_alloc. }
  clear w Hw. intros Cp w HCp Hw HCp' Hw'. wp. { lia. }
  apply (for_spec (fun k '(w, J, X) =>
    Disp N n key (fun k => get (tj T) k) (tval T) k w J X /\ (X = None <-> tx T = None))); auto.
  { split.
    - apply Disp_0; auto.
      + cbn. rewrite len_malloc. lia.
      + cbn. destruct (tx T); cbn; auto. rewrite len_malloc. lia.
    - cbn. destruct (tx T); split; congruence. }
  { intros k [[w' J] X] Hk (HD & HX).
    pose proof (Disp_pos N n key HN Hkey _ _ k w' J X Hk HD) as (Hkk & Hpy & Hpos).
    pose proof HD as (HD1 & HD2 & HD3 & _).
    wp; try (change (get (ti T) k) with (key k)); try lia.
    apply (sat_ocopy X _ (tx T) k N (len (tj T))); auto; try lia.
    { intros H1 H2. apply HX in H2. congruence. }
    wp. split.
    - apply (Disp_step N n key HN Hn Hkey (fun k => get (tj T) k) (tval T)); auto.
      intros EX. unfold tval. rewrite (proj1 HX EX). reflexivity.
    - destruct X; simpl; auto. rewrite <- HX. split; congruence. }
  intros [[w' J] X] (HD & HX). wp.
  set (C := Csr _ _ _ _ _ _).
  pose proof HD as (HD1 & HD2 & HD3 & HD4 & HD5).
  assert (HTp2 : forall j, 0 <= j <= n -> get (upd Cp n N) j = start N key j).
  { intros j Hj. rewrite get_upd_in by lia. destruct (Z.eqb_spec n j).
    - subst j. symmetry. now apply start_n.
    - apply HCp'; lia. }
  assert (Hrb : forall j, 0 <= j < n -> rbeg C j = start N key j).
  { intros j Hj. apply HTp2; lia. }
  assert (Hre : forall j, 0 <= j < n -> rend C j = start N key (j + 1)).
  { intros j Hj. apply HTp2; lia. }
  assert (HnC : nnz C = N).
  { unfold nnz. cbn. fold n. rewrite HTp2 by lia. now apply start_n. }
  assert (HR : forall px (R : Z -> Z -> bool), 0 <= px < nnz C ->
       (forall k, 0 <= k < N -> R (get (tj T) k) (tval T k) = true) ->
       R (get (cj C) px) (val C px) = true).
  { intros px R Hpx HR.
    assert (exists j, 0 <= j < n /\ start N key j <= px < start N key (j + 1)) as (j & Hj & Hbk).
    { assert (G : forall k : nat, Z.of_nat k <= n -> px < start N key (Z.of_nat k) ->
         exists j, 0 <= j < n /\ start N key j <= px < start N key (j + 1)).
      { induction k; intros Hk Hlt.
        - change (Z.of_nat 0) with 0 in Hlt. rewrite (start_0 N n) in Hlt; auto. lia.
        - destruct (Z_lt_le_dec px (start N key (Z.of_nat k))).
          + apply IHk; auto. lia.
          + exists (Z.of_nat k). split; [lia|].
            replace (Z.of_nat k + 1) with (Z.of_nat (S k)) by lia. lia. }
      apply (G (Z.to_nat n)). lia. rewrite Z2Nat.id by lia.
      rewrite (start_n N n); auto. lia. }
    apply (Disp_all N n key (fun k => get (tj T) k) (tval T) w' J X R j px HD Hj Hbk).
    intros q Hq _. now apply HR. }
  split; [|split; [|split; [|split; [|split; [|split; [|split]]]]]]; auto.
  - unfold wf. rewrite HnC. cbn [cn cm cp cj cx C]. split; auto. split; auto.
    split. { len. lia. } split. { rewrite HTp2 by lia. apply (start_0 N n); auto. }
    split. { intros j Hj. rewrite Hrb, Hre by auto. apply start_mono; lia. }
    split. { lia. } split.
    + intros px Hpx. pose proof (HR px (fun c _ => (0 <=? c) && (c <? tm T))) as HA. cbv beta in HA.
      rewrite HnC in HA. specialize (HA Hpx). apply andb_prop in HA.
      * change (get J px) with (get (cj C) px). lia.
      * intros k Hk. specialize (Hb k Hk). lia.
    + destruct X; auto. simpl in HD3. lia.
  - intros f i Hi. rewrite Hrb, Hre by auto. rewrite start_S.
    pose proof (HD5 f i Hi) as E. exact E.
Qed.

(** ** Removing duplicates *)
Section dedup.
Context (A : csr) (HA : wf A) (Hp : cx A <> None -> 2 <= cprime A).
Let p := cprime A.

(* [lo, hi) of the output holds the distinct columns of entries [rbeg i, it) of A *)
Definition RowD (lo hi : Z) (Aj : list Z) (Ax : option (list Z)) (i it : Z) : Prop :=
  (forall q r, lo <= q < hi -> lo <= r < hi -> get Aj q = get Aj r -> q = r) /\
  (forall q, lo <= q < hi -> exists px, rbeg A i <= px < it /\ get (cj A) px = get Aj q) /\
  (forall px, rbeg A i <= px < it -> exists q, lo <= q < hi /\ get Aj q = get (cj A) px) /\
  (forall j, Ax <> None ->
     cong p (sum lo hi (fun q => if get Aj q =? j then oval Ax q else 0))
            (sum (rbeg A i) it (fun px => if get (cj A) px =? j then val A px else 0))) /\
  (Ax <> None -> (forall px, 0 <= px < nnz A -> balanced p (val A px)) ->
     forall q, lo <= q < hi -> balanced p (oval Ax q)).

Lemma RowD_frame lo hi Aj Ax Aj' Ax' i it : RowD lo hi Aj Ax i it ->
  (Ax' = None <-> Ax = None) ->
  (forall q, lo <= q < hi -> get Aj' q = get Aj q /\ oval Ax' q = oval Ax q) ->
  RowD lo hi Aj' Ax' i it.
Proof.
  intros (H1 & H2 & H3 & H4 & H5) HN HE. split; [|split; [|split; [|split]]].
  - intros q r Hq Hr. rewrite (proj1 (HE q Hq)), (proj1 (HE r Hr)). auto.
  - intros q Hq. rewrite (proj1 (HE q Hq)). auto.
  - intros px Hpx. destruct (H3 px Hpx) as (q & Hq & E). exists q.
    rewrite (proj1 (HE q Hq)). auto.
  - intros j Hj. rewrite <- H4 by tauto. apply cong_eq, sum_ext. intros q Hq.
    now destruct (HE q Hq) as [-> ->].
  - intros Hx Hb q Hq. rewrite (proj2 (HE q Hq)). apply H5; auto. tauto.
Qed.

Definition DInv (i : Z) (st : list Z * list Z * list Z * option (list Z) * Z) : Prop :=
  let '(v, Ap, Aj, Ax, nz) := st in
  len v = cm A /\ cn A + 1 <= len Ap /\ len Aj = len (cj A) /\ olen Ax (len (cj A)) /\
  (Ax = None <-> cx A = None) /\
  0 <= nz <= get (cp A) i /\
  (forall j, 0 <= j < cm A -> get v j < nz) /\
  (forall k, i <= k <= cn A -> get Ap k = get (cp A) k) /\
  (forall q, get (cp A) i <= q < len (cj A) -> get Aj q = get (cj A) q /\ oval Ax q = val A q) /\
  exists P : Z -> Z, P 0 = 0 /\ P i = nz /\ (forall k, 0 <= k < i -> get Ap k = P k) /\
    (forall k, 0 <= k < i -> P k <= P (k + 1)) /\
    (forall k, 0 <= k < i -> RowD (P k) (P (k + 1)) Aj Ax k (rend A k)).

Definition IInv (i p0 : Z) (P : Z -> Z) (it : Z) (st : list Z * list Z * option (list Z) * Z) : Prop :=
  let '(v, Aj, Ax, nz) := st in
  len v = cm A /\ len Aj = len (cj A) /\ olen Ax (len (cj A)) /\
  (Ax = None <-> cx A = None) /\
  0 <= p0 <= nz /\ nz <= it /\
  (forall j, 0 <= j < cm A -> get v j < nz /\
     (p0 <= get v j -> get Aj (get v j) = j)) /\
  (forall q, p0 <= q < nz -> get v (get Aj q) = q) /\
  (forall q, it <= q < len (cj A) -> get Aj q = get (cj A) q /\ oval Ax q = val A q) /\
  (forall k, 0 <= k < i -> RowD (P k) (P (k + 1)) Aj Ax k (rend A k)) /\
  RowD p0 nz Aj Ax i it.

Theorem deduplicate_ok g :
  sat (deduplicate g A) (fun B =>
    wf B /\ cn B = cn A /\ cm B = cm A /\ cprime B = cprime A /\
    (cx B = None <-> cx A = None) /\ len (cj B) = nnz B /\
    nodup_rows B /\
    (forall i j, 0 <= i < cn A -> stored B i j <-> stored A i j) /\
    (cx A <> None -> forall i j, 0 <= i < cn A -> cong p (entry B i j) (entry A i j)) /\
    (cx A <> None -> (forall px, 0 <= px < nnz A -> balanced p (val A px)) ->
       forall px, 0 <= px < nnz B -> balanced p (val B px))).
Proof.
  pose proof (wf_n A HA) as Hn. pose proof (wf_m A HA) as Hm. pose proof (wf_len A HA) as Hl.
  pose proof (wf_nnz A HA) as Hnz.
  unfold deduplicate. wp. apply init_spec; auto. { rewrite len_malloc; lia. }
  intros v0 Hv0 Hv0'. wp.
  apply (for_spec DInv); auto.
  - unfold DInv. rewrite (wf_0 A HA). split; [auto|]. split; [auto|]. split; [auto|].
    split. { destruct (cx A) eqn:E; simpl; auto. now apply wf_vals. }
    split; [tauto|]. split; [lia|]. split. { intros j Hj. rewrite Hv0' by auto. lia. }
    split; [auto|]. split; [auto|]. exists (fun _ => 0). repeat split; lia.
  - intros i [[[[v Ap] Aj] Ax] nz] Hi
      (L1 & L2 & L3 & L4 & HN & Hnz' & Hv & HAp & Hfr & P & P0 & Pi & HP & Pm & HR).
    pose proof (wf_row A HA i Hi) as Hrow.
    wp; try lia. rewrite !HAp by lia.
    eapply sat_mono.
    + apply (for_spec (IInv i nz P)) with (Q := IInv i nz P (rend A i)); auto.
      * apply Hrow.
      * (* entering the row *)
        unfold IInv. split; [auto|]. split; [auto|]. split; [auto|]. split; [auto|].
        split; [lia|]. split; [lia|].
        split. { intros j Hj. specialize (Hv j Hj). split; auto. lia. }
        split; [lia|]. split; [auto|]. split; [auto|].
        split; [intros; lia|]. split; [intros; lia|]. split; [intros; fold (rbeg A i) in *; lia|].
        fold (rbeg A i). split.
        -- intros j _. rewrite !sum_empty by lia. reflexivity.
        -- intros; lia.
      * (* one entry *)
        clear v Aj Ax L1 L3 L4 HN Hv Hfr HR.
        intros it [[[v Aj] Ax] z] Hit (L1 & L3 & L4 & HN & Hz1 & Hz2 & Hv & Hv2 & Hfr & HR & HRi).
        assert (Hit' : 0 <= it < nnz A) by (unfold rbeg, rend in *; lia).
        destruct (Hfr it ltac:(lia)) as [Ej Ex].
        pose proof (wf_col A HA it Hit') as Hcol. set (j := get (cj A) it) in *.
        destruct HRi as (R1 & R2 & R3 & R4 & R5).
        rewrite <- Ej in Hcol.
        wp; try lia.
        -- (* first entry on this column *)
          rewrite Ej in *.
          assert (Hnew : forall q, nz <= q < z -> get Aj q <> j).
          { intros q Hq Eq. specialize (Hv2 q Hq). rewrite Eq in Hv2. lia. }
          apply (sat_ocopy Ax z Ax it (len (cj A)) (len (cj A))); auto; try lia.
          wp. rewrite Ex.
          set (Ax' := oupd Ax z (val A it)).
          assert (HN' : Ax' = None <-> Ax = None) by (unfold Ax'; destruct Ax; simpl; split; congruence).
          assert (Hov : forall q, Ax <> None -> oval Ax' q = if z =? q then val A it else oval Ax q).
          { intros q Hne. unfold Ax'. rewrite (oval_oupd Ax z _ q (len (cj A))) by (auto; lia).
            destruct Ax; congruence. }
          assert (Hovn : forall q, Ax = None -> oval Ax' q = oval Ax q).
          { intros q ->. reflexivity. }
          assert (Hsame : forall q, q <> z -> get (upd Aj z j) q = get Aj q /\ oval Ax' q = oval Ax q).
          { intros q Hq. rewrite get_upd_ne by lia. split; auto. destruct Ax; auto.
            rewrite Hov by congruence. now replace (z =? q) with false by lia. }
          unfold IInv. len. split; [auto|]. split; [auto|]. split; [now apply olen_oupd|].
          split; [tauto|]. split; [lia|]. split; [lia|].
          split.
          { intros k Hk. rewrite (get_upd_in v) by lia.
            destruct (Z.eqb_spec j k) as [->|Hjk].
            - split; [lia|]. intros _. rewrite get_upd_eq by lia. reflexivity.
            - specialize (Hv k Hk) as [Hv1 Hv3]. split; [lia|]. intros Hk'.
              rewrite get_upd_ne by lia. auto. }
          split.
          { intros q Hq. destruct (Z.eq_dec q z) as [->|Hqz].
            - rewrite (get_upd_eq Aj) by lia. rewrite get_upd_eq by lia. reflexivity.
            - rewrite (get_upd_ne Aj) by lia.
              rewrite get_upd_ne by (intro; apply (Hnew q); auto; lia). apply Hv2; lia. }
          split. { intros q Hq. destruct (Hsame q) as [-> ->]; [lia|]. apply Hfr; lia. }
          split.
          { intros k Hk. apply (RowD_frame _ _ Aj Ax); auto. intros q Hq. apply Hsame.
            assert (P (k + 1) <= P i).
            { apply (mono_steps P 0 i); auto; lia. }
            lia. }
          unfold RowD. split.
          { intros q r Hq Hr. destruct (Z.eq_dec q z) as [->|Hqz], (Z.eq_dec r z) as [->|Hrz]; auto.
            - rewrite get_upd_eq, get_upd_ne by lia. intros Eq. exfalso. apply (Hnew r); [lia|auto].
            - rewrite (get_upd_ne _ z q), get_upd_eq by lia. intros Eq. exfalso. apply (Hnew q); [lia|auto].
            - rewrite !get_upd_ne by lia. apply R1; lia. }
          split.
          { intros q Hq. destruct (Z.eq_dec q z) as [->|Hqz].
            - exists it. rewrite get_upd_eq by lia. split; auto. unfold rbeg, rend in *; lia.
            - destruct (R2 q) as (px & Hpx & Epx); [lia|]. exists px. rewrite get_upd_ne by lia.
              split; auto. lia. }
          split.
          { intros px Hpx. destruct (Z.eq_dec px it) as [->|Hne].
            - exists z. rewrite get_upd_eq by lia. split; auto. lia.
            - destruct (R3 px) as (q & Hq & Epx); [lia|]. exists q. rewrite get_upd_ne by lia.
              split; auto. lia. }
          split.
          { intros k Hk'. assert (Hk : Ax <> None) by tauto.
            rewrite !sum_S by (unfold rbeg, rend in *; lia).
            rewrite get_upd_eq by lia. rewrite (Hov z Hk), Z.eqb_refl. fold j.
            rewrite <- (R4 k Hk). apply cong_add; [|reflexivity].
            apply cong_eq, sum_ext. intros q Hq. destruct (Hsame q) as [-> ->]; auto. lia. }
          { intros Hk' Hb q Hq. assert (Hk : Ax <> None) by tauto.
            rewrite Hov by auto. destruct (Z.eqb_spec z q).
            - apply Hb; lia.
            - apply R5; auto. lia. }
        -- (* duplicate *)
          rewrite Ej in *. pose proof (Hv j Hcol) as [Hv1 Hv3].
          specialize (Hv3 ltac:(lia)).
          assert (HR3 : forall px, rbeg A i <= px < it + 1 ->
                    exists q, nz <= q < z /\ get Aj q = get (cj A) px).
          { intros px Hpx. destruct (Z.eq_dec px it) as [->|Hne].
            - exists (get v j). fold j. split; auto. lia.
            - apply R3; lia. }
          assert (HR2 : forall q, nz <= q < z ->
                    exists px, rbeg A i <= px < it + 1 /\ get (cj A) px = get Aj q).
          { intros q Hq. destruct (R2 q Hq) as (px & Hpx & Epx). exists px. split; auto. lia. }
          destruct Ax as [ax|].
          2:{ wp. unfold IInv. split; [auto|]. split; [auto|]. split; [auto|].
              split; [auto|]. split; [lia|]. split; [lia|]. split; [auto|].
              split; [auto|].
              split. { intros q Hq. apply Hfr; lia. }
              split; [auto|]. split; [auto|]. split; [auto|]. split; [auto|].
              split; intros; congruence. }
          simpl in L4. wp; try lia.
          set (a := zadd (cprime A) (get ax (get v j)) (get ax it)).
          assert (Hsame : forall q, q <> get v j -> oval (Some (upd ax (get v j) a)) q = oval (Some ax) q).
          { intros q Hq. simpl. apply get_upd_ne. lia. }
          unfold IInv. split; [auto|]. split; [auto|]. split; [simpl; now len|].
          split. { rewrite <- HN. split; congruence. }
          split; [lia|]. split; [lia|]. split; [auto|]. split; [auto|].
          split. { intros q Hq. rewrite Hsame by lia. apply Hfr; lia. }
          split.
          { intros k Hk. apply (RowD_frame _ _ Aj (Some ax)); auto.
            - split; congruence.
            - intros q Hq. split; auto. apply Hsame.
              assert (P (k + 1) <= P i) by (apply (mono_steps P 0 i); auto; lia). lia. }
          split; [auto|]. split; [auto|]. split; [auto|]. split.
          { intros k _. rewrite sum_S by (unfold rbeg, rend in *; lia). fold j.
            rewrite <- R4 by congruence. rewrite <- Ex.
            rewrite (sum_pick nz z (fun q => if get Aj q =? k then oval (Some ax) q else 0) (get v j)) by lia.
            rewrite (sum_pick nz z _ (get v j)) by lia. cbv beta. rewrite Hv3.
            simpl oval. rewrite get_upd_eq by lia.
            rewrite (sum_ext nz z _ (fun q => if q =? get v j then 0 else
                if get Aj q =? k then get ax q else 0)).
            - destruct (j =? k); [|apply cong_eq; lia].
              unfold a. fold p. rewrite zadd_cong by (apply Hp; intuition congruence). apply cong_eq. lia.
            - intros q Hq. destruct (Z.eqb_spec q (get v j)); auto.
              rewrite get_upd_ne by lia. auto. }
          { intros _ Hb q Hq. simpl. rewrite get_upd_in by lia. destruct (get v j =? q).
            - apply zadd_balanced; apply Hp; intuition congruence.
            - apply (R5 ltac:(congruence) Hb q); lia. }
    + clear v Aj Ax L1 L3 L4 HN Hv Hfr HR.
      intros [[[v Aj] Ax] z] (L1 & L3 & L4 & HN & Hz1 & Hz2 & Hv & Hv2 & Hfr & HR & HRi).
      wp; try lia. unfold DInv. len.
      split; [auto|]. split; [auto|]. split; [auto|]. split; [auto|]. split; [auto|].
      fold (rend A i). split; [lia|]. split. { intros j Hj. apply Hv; auto. }
      split. { intros k Hk. rewrite get_upd_ne by lia. apply HAp; lia. }
      split; [auto|].
      exists (fun k => if k <=? i then P k else z). cbv beta.
      replace (0 <=? i) with true by lia. replace (i + 1 <=? i) with false by lia.
      split; [auto|]. split; [auto|]. split.
      { intros k Hk. replace (k <=? i) with true by lia. rewrite get_upd_in by lia.
        destruct (Z.eqb_spec i k) as [<-|]; auto. apply HP; lia. }
      split; intros k Hk.
      * destruct (Z.leb_spec k i), (Z.leb_spec (k + 1) i); try lia. apply Pm; lia.
        replace k with i by lia. lia.
      * destruct (Z.leb_spec k i), (Z.leb_spec (k + 1) i); try lia. apply HR; lia.
        replace k with i by lia. rewrite Pi. exact HRi.
  - intros [[[[v Ap] Aj] Ax] nz]
      (L1 & L2 & L3 & L4 & HN & Hnz' & Hv & HAp & Hfr & P & P0 & Pi & HP & Pm & HR).
    wp. { lia. } fold (nnz A) in Hnz'.
    set (B := Csr _ _ _ _ _ _).
    assert (HPm : forall a b, 0 <= a <= b -> b <= cn A -> P a <= P b).
    { intros. apply (mono_steps P 0 (cn A)); auto. }
    assert (Hcp : forall k, 0 <= k <= cn A -> get (upd Ap (cn A) nz) k = P k).
    { intros k Hk. rewrite get_upd_in by lia. destruct (Z.eqb_spec (cn A) k); [congruence|].
      apply HP; lia. }
    assert (Hrb : forall k, 0 <= k < cn A -> rbeg B k = P k) by (intros; apply Hcp; lia).
    assert (Hre : forall k, 0 <= k < cn A -> rend B k = P (k + 1)) by (intros; apply Hcp; lia).
    assert (HnB : nnz B = nz). { unfold nnz. cbn. rewrite Hcp by lia. auto. }
    assert (HB : wf B).
    { unfold wf. rewrite HnB. cbn [cn cm cp cj cx B]. split; [auto|]. split; [auto|].
      split; [now len|]. split; [rewrite Hcp; lia|].
      split. { intros k Hk. rewrite Hrb, Hre by auto. auto. }
      split; [lia|]. split.
      { intros px Hpx.
        assert (exists k, 0 <= k < cn A /\ P k <= px < P (k + 1)) as (k & Hk & Hkp).
        { assert (G : forall k : nat, Z.of_nat k <= cn A -> px < P (Z.of_nat k) ->
            exists j, 0 <= j < cn A /\ P j <= px < P (j + 1)).
          { induction k; intros Hk Hlt.
            - simpl in Hlt. lia.
            - destruct (Z_lt_le_dec px (P (Z.of_nat k))).
              + apply IHk; auto. lia.
              + exists (Z.of_nat k). split; [lia|].
                replace (Z.of_nat k + 1) with (Z.of_nat (S k)) by lia. lia. }
          apply (G (Z.to_nat (cn A))); rewrite Z2Nat.id; lia. }
        destruct (HR k Hk) as (_ & R2 & _). destruct (R2 px Hkp) as (py & Hpy & <-).
        pose proof (wf_row A HA k Hk). apply (wf_col A HA). unfold rend in *. lia. }
      destruct Ax; auto. simpl in L4. lia. }
    eapply sat_mono; [apply (csr_realloc_ok g B (-1)); auto; lia|].
    intros C (HC & HS & HlC & HxC). simpl in HlC.
    assert (HnC : nnz C = nnz B).
    { unfold nnz. destruct HS as (-> & _ & -> & _). reflexivity. }
    split; [auto|]. pose proof HS as (S1 & S2 & S3 & S4 & S5).
    split; [auto|]. split; [auto|]. split; [auto|].
    split; [rewrite HxC; exact HN|]. split; [congruence|].
    split. { apply (same_nodup B C); auto. intros i px py Hi Hx Hy E.
      cbn in Hi. rewrite Hrb, Hre in * by auto. destruct (HR i Hi) as (R1 & _). apply R1; auto. }
    split. { intros i j Hi. rewrite (same_stored B C) by auto. unfold stored.
      rewrite Hrb, Hre by auto. destruct (HR i Hi) as (_ & R2 & R3 & _). split.
      - intros (q & Hq & E). destruct (R2 q Hq) as (px & Hpx & E'). exists px. split; auto.
        cbn in E. congruence.
      - intros (px & Hpx & E). destruct (R3 px Hpx) as (q & Hq & E'). exists q. split; auto.
        cbn. congruence. }
    split. { intros Hx i j Hi. rewrite (same_entry B C) by auto. unfold entry.
      rewrite Hrb, Hre by auto. destruct (HR i Hi) as (_ & _ & _ & R4 & _).
      apply (R4 j). tauto. }
    { intros Hx Hb px Hpx. rewrite HnC in Hpx. destruct (S5 px Hpx) as [_ ->].
      destruct (row_exists B HB px Hpx) as (k & Hk & Hkp). cbn in Hk.
      rewrite Hrb, Hre in Hkp by auto.
      destruct (HR k Hk) as (_ & _ & _ & _ & R5). apply R5; auto. tauto. }
Qed.
End dedup.

(** ** Removing explicit zeroes *)

(* nothing happens when no coefficient is zero *)
Lemma remove_zeroes_nop g A : wf A -> (cx A <> None -> no_zero A) ->
  sat (remove_explicit_zeroes g A) (fun B =>
    wf B /\ same_entries A B /\ (cx B = None <-> cx A = None) /\
    len (cj B) = match cx A with None => len (cj A) | Some _ => nnz A end).
Proof.
  intros HA HZ. unfold remove_explicit_zeroes. destruct (cx A) as [Ax|] eqn:EA.
  2:{ wp. split; [auto|]. split; [|split; [tauto|auto]]. repeat split; auto. }
  specialize (HZ ltac:(congruence)).
  pose proof (wf_n A HA) as Hn. pose proof (wf_len A HA) as Hl. pose proof (wf_nnz A HA) as Hnz.
  pose proof (wf_vals A HA _ EA) as Hlx.
  wp. apply (for_spec (fun i st => st = (cp A, cj A, Ax, get (cp A) i))); auto.
  - now rewrite (wf_0 A HA).
  - intros i st Hi ->. pose proof (wf_row A HA i Hi) as Hrow. unfold rbeg, rend in Hrow. wp; try lia.
    apply (for_spec (fun it st => st = (cj A, Ax, it))); auto.
    + lia.
    + intros it st Hit ->. wp; try lia.
      * exfalso. apply (HZ it); [lia|]. unfold val. rewrite EA. lia.
      * rewrite !upd_same by lia. reflexivity.
    + intros st ->. wp; try lia. rewrite upd_same by lia. reflexivity.
  - intros st ->. rewrite <- EA.
    replace (Csr (cn A) (cm A) (cp A) (cj A) (cx A) (cprime A)) with A by (destruct A; auto).
    eapply sat_mono. { apply (csr_realloc_ok g A (-1)); auto. lia. }
    intros B (H1 & H2 & H3 & H4). auto.
Qed.

(* in all cases the function terminates, stays within its arrays and yields a
   well-formed matrix without explicit zeroes *)
Lemma remove_zeroes_safe g A : wf A ->
  sat (remove_explicit_zeroes g A) (fun B =>
    wf B /\ cn B = cn A /\ cm B = cm A /\ cprime B = cprime A /\ (cx B = None <-> cx A = None) /\
    nnz B <= nnz A /\ (cx A <> None -> no_zero B)).
Proof.
  intros HA. unfold remove_explicit_zeroes. destruct (cx A) as [Ax0|] eqn:EA.
  2:{ wp. rewrite EA. split; [auto|]. repeat (split; [auto; try tauto; try lia|]). tauto. }
  pose proof (wf_n A HA) as Hn. pose proof (wf_len A HA) as Hl. pose proof (wf_nnz A HA) as Hnz.
  pose proof (wf_vals A HA _ EA) as Hlx.
  set (L := len (cj A)) in *.
  wp. apply (for_spec (fun i '(Ap, Aj, Ax, nz) =>
    cn A + 1 <= len Ap /\ len Aj = L /\ len Ax = L /\ get Ap i = nz /\ get Ap 0 = 0 /\
    0 <= nz <= get (cp A) i /\ (forall k, i < k <= cn A -> get Ap k = get (cp A) k) /\
    (forall k, 0 <= k < i -> get Ap k <= get Ap (k + 1)) /\
    (forall q, 0 <= q < nnz A -> 0 <= get Aj q < cm A) /\
    (forall q, 0 <= q < nz -> get Ax q <> 0))); auto.
  - pose proof (wf_0 A HA) as W0. repeat split; auto; try lia; now apply (wf_col A HA).
  - intros i [[[Ap Aj] Ax] nz] Hi (L1 & L2 & L3 & E & E0 & Hz & HAp & Hm & Hc & H0).
    pose proof (wf_row A HA i Hi) as Hrow. unfold rbeg, rend in Hrow.
    assert (E1 : get Ap (i + 1) = get (cp A) (i + 1)) by (apply HAp; lia).
    wp; try lia. rewrite E, E1.
    apply (for_spec (fun it '(Aj, Ax, z) => len Aj = L /\ len Ax = L /\ nz <= z <= it /\
      (forall q, 0 <= q < nnz A -> 0 <= get Aj q < cm A) /\ (forall q, 0 <= q < z -> get Ax q <> 0))); auto.
    + lia.
    + repeat split; auto; try lia; now apply Hc.
    + intros it [[Aj' Ax'] z] Hit (M2 & M3 & M4 & Mc & M0). wp; try lia.
      * repeat split; auto; try lia; now apply Mc.
      * len. split; [auto|]. split; [auto|]. split; [lia|]. split.
        -- intros q Hq. rewrite get_upd_in by lia. destruct (z =? q); apply Mc; lia.
        -- intros q Hq. rewrite get_upd_in by lia. destruct (Z.eqb_spec z q); [lia|]. apply M0; lia.
    + intros [[Aj' Ax'] z] (M2 & M3 & M4 & Mc & M0). wp; try lia. len.
      split; [auto|]. split; [auto|]. split; [auto|]. split; [rewrite get_upd_eq; lia|].
      split; [rewrite get_upd_ne; lia|]. split; [lia|].
      split. { intros k Hk. rewrite get_upd_ne by lia. apply HAp; lia. }
      split. { intros k Hk. rewrite (get_upd_ne _ _ k) by lia. rewrite get_upd_in by lia.
        destruct (Z.eqb_spec (i + 1) (k + 1)). replace k with i by lia. lia. apply Hm; lia. }
      auto.
  - intros [[[Ap Aj] Ax] nz] (L1 & L2 & L3 & E & E0 & Hz & HAp & Hm & Hc & H0).
    set (B := Csr _ _ _ _ _ _).
    assert (HnB : nnz B = nz) by exact E. fold (nnz A) in Hz.
    assert (HB : wf B).
    { unfold wf. rewrite HnB. cbn [cn cm cp cj cx B].
      split; [auto|]. split; [apply (wf_m A HA)|]. split; [auto|]. split; [auto|].
      split; [exact Hm|]. split; [lia|]. split; [|lia]. intros q Hq. apply Hc; lia. }
    eapply sat_mono. { apply (csr_realloc_ok g B (-1)); auto. lia. }
    intros C (HC & (S1 & S2 & S3 & S4 & S5) & H3 & H4).
    assert (HnC : nnz C = nnz B) by (unfold nnz; rewrite S1, S3; reflexivity).
    split; [auto|]. split; [auto|]. split; [auto|]. split; [auto|].
    split. { rewrite H4. cbn. split; congruence. }
    split; [lia|]. intros _ px Hpx. destruct (S5 px) as [_ ->]; [lia|]. cbn. apply H0; lia.
Qed.

(** ** Compression *)

Lemma nodup_entry A i px : wf A -> nodup_rows A -> 0 <= i < cn A -> rbeg A i <= px < rend A i ->
  entry A i (get (cj A) px) = val A px.
Proof.
  intros HA HD Hi Hpx. unfold entry. rewrite (sum_single _ _ _ px).
  - now rewrite Z.eqb_refl.
  - auto.
  - intros q Hq Hne. destruct (Z.eqb_spec (get (cj A) q) (get (cj A) px)) as [E|]; auto.
    destruct Hne. apply (HD i); auto.
Qed.

Lemma compress_stages g T : twf T -> (tx T <> None -> 2 <= tprime T) ->
  sat (compress_raw g T) (fun C => sat (deduplicate g C) (fun D =>
    wf D /\ cn D = tn T /\ cm D = tm T /\ cprime D = tprime T /\ (cx D = None <-> tx T = None) /\
    nodup_rows D /\
    (forall i j, 0 <= i < tn T -> stored D i j <-> tstored T i j) /\
    (tx T <> None -> forall i j, 0 <= i < tn T -> cong (tprime T) (entry D i j) (tentry T i j)) /\
    (tx T <> None -> (forall k, 0 <= k < tnz T -> balanced (tprime T) (tval T k)) ->
       forall px, 0 <= px < nnz D -> balanced (tprime T) (val D px)))).
Proof.
  intros HT Hp. eapply sat_mono; [now apply compress_raw_ok|].
  intros C (HC & C1 & C2 & C3 & C4 & C5 & CS & CR).
  eapply sat_mono. { apply (deduplicate_ok C); auto. rewrite C3. tauto. }
  intros D (HD & D1 & D2 & D3 & D4 & D5 & D6 & D7 & D8 & D9).
  split; [auto|]. split; [congruence|]. split; [congruence|]. split; [congruence|].
  split; [tauto|]. split; [auto|].
  assert (Cst : forall i j, 0 <= i < tn T -> stored C i j <-> tstored T i j).
  { intros i j Hi.
    pose proof (CS (fun c _ => if c =? j then 1 else 0) i Hi) as E. cbv beta in E.
    assert (P1 : stored C i j <-> 0 < sum (rbeg C i) (rend C i) (fun px => if get (cj C) px =? j then 1 else 0)).
    { split.
      - intros (px & Hpx & Ej). apply (sum_pos _ _ _ px); auto.
        + rewrite Ej, Z.eqb_refl. lia.
        + intros q _. destruct (get (cj C) q =? j); lia.
      - intros H. apply sum_pos_exists in H. destruct H as (px & Hpx & H). exists px. split; auto.
        destruct (Z.eqb_spec (get (cj C) px) j); auto. lia. }
    rewrite P1, E. clear P1 E. split.
    - intros H. apply sum_pos_exists in H. destruct H as (k & Hk & H). exists k. split; auto.
      destruct (Z.eqb_spec (get (ti T) k) i), (Z.eqb_spec (get (tj T) k) j); auto; lia.
    - intros (k & Hk & E1 & E2). apply (sum_pos _ _ _ k); auto.
      + rewrite E1, E2, !Z.eqb_refl. lia.
      + intros q _. destruct (get (ti T) q =? i), (get (tj T) q =? j); lia. }
  split. { intros i j Hi. rewrite D7 by lia. apply Cst; auto. }
  rewrite <- C3. split.
  - intros Hx i j Hi. rewrite D8 by (tauto || lia).
    apply cong_eq. unfold entry, tentry.
    rewrite (CS (fun c v => if c =? j then v else 0) i Hi). apply sum_ext. intros k _.
    now destruct (get (ti T) k =? i), (get (tj T) k =? j).
  - intros Hx Hb. apply D9; [tauto|].
    intros px Hpx.
    pose proof (CR px (fun _ v => (cprime C / 2 - cprime C + 1 <=? v) && (v <=? cprime C / 2)) Hpx) as H.
    cbv beta in H. unfold balanced in *. 
    assert (H' : (cprime C / 2 - cprime C + 1 <=? val C px) && (val C px <=? cprime C / 2) = true).
    { apply H. intros k Hk. specialize (Hb k Hk). lia. }
    lia.
Qed.

Theorem compress_exact g T : twf T -> 2 <= tprime T -> tx T <> None ->
  (forall k, 0 <= k < tnz T -> balanced (tprime T) (tval T k)) ->
  (forall i j, tstored T i j -> ~ cong (tprime T) (tentry T i j) 0) ->
  sat (compress g T) (fun C =>
    wf C /\ cn C = tn T /\ cm C = tm T /\ cprime C = tprime T /\ cx C <> None /\ len (cj C) = nnz C /\
    nodup_rows C /\ no_zero C /\
    (forall px, 0 <= px < nnz C -> balanced (tprime T) (val C px)) /\
    (forall i j, 0 <= i < tn T -> stored C i j <-> tstored T i j) /\
    (forall i j, 0 <= i < tn T -> cong (tprime T) (entry C i j) (tentry T i j))).
Proof.
  intros HT Hp Hx Hb Hc. unfold compress. apply sat_bind.
  eapply sat_mono; [now apply compress_stages|]. intros C HC. apply sat_bind.
  eapply sat_mono; [exact HC|]. clear C HC.
  intros D (HD & D1 & D2 & D3 & D4 & D5 & D6 & D7 & D8).
  assert (HZ : no_zero D).
  { intros px Hpx E. destruct (row_exists D HD px Hpx) as (i & Hi & Hpi).
    apply (Hc i (get (cj D) px)).
    - apply D6; [lia|]. exists px. auto.
    - rewrite <- D7 by (auto; lia). rewrite nodup_entry by auto. now rewrite E. }
  eapply sat_mono. { apply (remove_zeroes_nop g D); auto. }
  intros E (HE & HS & EX & EL). pose proof HS as (S1 & S2 & S3 & S4 & S5).
  assert (HnE : nnz E = nnz D) by (unfold nnz; rewrite S1, S3; reflexivity).
  split; [auto|]. split; [congruence|]. split; [congruence|]. split; [congruence|].
  split; [tauto|]. split. { rewrite EL, HnE. destruct (cx D); auto. tauto. }
  split; [apply (same_nodup D E); auto|].
  split. { intros px Hpx. destruct (S5 px) as [_ ->]; [lia|]. apply HZ; lia. }
  split. { intros px Hpx. destruct (S5 px) as [_ ->]; [lia|]. apply D8; auto; lia. }
  split.
  - intros i j Hi. rewrite (same_stored D E) by (auto; lia). auto.
  - intros i j Hi. rewrite (same_entry D E) by (auto; lia). auto.
Qed.

Theorem compress_pattern g T : twf T -> tx T = None ->
  sat (compress g T) (fun C =>
    wf C /\ cn C = tn T /\ cm C = tm T /\ cprime C = tprime T /\ cx C = None /\
    nodup_rows C /\ (forall i j, 0 <= i < tn T -> stored C i j <-> tstored T i j)).
Proof.
  intros HT Hx. unfold compress. apply sat_bind.
  eapply sat_mono; [now apply compress_stages|]. intros C HC. apply sat_bind.
  eapply sat_mono; [exact HC|]. clear C HC.
  intros D (HD & D1 & D2 & D3 & D4 & D5 & D6 & D7 & D8).
  unfold remove_explicit_zeroes. rewrite (proj2 D4 Hx). wp. tauto.
Qed.

Theorem compress_safe g T : twf T -> 2 <= tprime T ->
  sat (compress g T) (fun C =>
    wf C /\ cn C = tn T /\ cm C = tm T /\ cprime C = tprime T /\ (cx C = None <-> tx T = None) /\
    (tx T <> None -> no_zero C)).
Proof.
  intros HT Hp. unfold compress. apply sat_bind.
  eapply sat_mono; [now apply compress_stages|]. intros C HC. apply sat_bind.
  eapply sat_mono; [exact HC|]. clear C HC.
  intros D (HD & D1 & D2 & D3 & D4 & D5 & D6 & D7 & D8).
  eapply sat_mono; [now apply (remove_zeroes_safe g D)|].
  intros E (HE & E1 & E2 & E3 & E4 & E5 & E6).
  split; [auto|]. split; [congruence|]. split; [congruence|]. split; [congruence|].
  split; tauto.
Qed.
