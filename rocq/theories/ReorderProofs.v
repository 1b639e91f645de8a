(** Proofs about src/spasm_pivots.c: pivot search as a whole, topological order of pivotal rows. *)
From Verif Require Import Base BaseFacts Spec SpecFacts SpecElim Zp Mat MatFacts RowList Reach ReachProofs Sched SchedProofs Pivots PivotsProofs GreedyProofs.
From Coq Require Import ZifyBool.

(* counting through an injection, a surjection *)
Lemma count_le k n f (b : Z -> bool) : 0 <= k -> (forall l, 0 <= l < k -> 0 <= f l < n /\ b (f l) = true) ->
  (forall l l', 0 <= l < k -> 0 <= l' < k -> f l = f l' -> l = l') ->
  k <= sum 0 n (fun i => if b i then 1 else 0).
Proof.
  intros Hk Hf Hi. apply Z.le_trans with (sum 0 k (fun l => sum 0 n (fun i => if i =? f l then 1 else 0))).
  { apply Z.eq_le_incl. rewrite (sum_ext _ _ _ (fun _ => 1)); [rewrite sum_const; lia|].
    intros l Hl. rewrite sum_delta. destruct (Hf l Hl). now replace ((0 <=? f l) && (f l <? n)) with true by lia. }
  rewrite sum_swap. apply sum_le. intros i Hin.
  destruct (Z_lt_le_dec 0 (sum 0 k (fun l => if i =? f l then 1 else 0))) as [H|H]; [|destruct (b i); lia].
  apply sum_pos_exists in H. destruct H as (l0 & Hl0 & E). destruct (Z.eqb_spec i (f l0)) as [->|]; [|lia].
  destruct (Hf l0 Hl0) as [_ ->].
  rewrite (sum_ext _ _ _ (fun l => if l =? l0 then 1 else 0)).
  - rewrite sum_delta. destruct (_ && _); lia.
  - intros l Hl. destruct (Z.eqb_spec l l0) as [->|]; [now rewrite Z.eqb_refl|].
    destruct (Z.eqb_spec (f l0) (f l)) as [E2|]; auto. apply Hi in E2; auto. lia.
Qed.
Lemma count_ge k n f (b : Z -> bool) : 0 <= k ->
  (forall i, 0 <= i < n -> b i = true -> exists l, 0 <= l < k /\ f l = i) ->
  sum 0 n (fun i => if b i then 1 else 0) <= k.
Proof.
  intros Hk Hs. apply Z.le_trans with (sum 0 n (fun i => sum 0 k (fun l => if i =? f l then 1 else 0))).
  - apply sum_le. intros i Hin. assert (0 <= sum 0 k (fun l => if i =? f l then 1 else 0)) by (apply sum_nonneg; intros; destruct (_ =? _); lia).
    destruct (b i) eqn:E; auto. destruct (Hs i Hin E) as (l & Hl & <-).
    rewrite (sum_pick 0 k _ l) by auto. rewrite Z.eqb_refl.
    enough (0 <= sum 0 k (fun i => if i =? l then 0 else if f l =? f i then 1 else 0)) by lia.
    apply sum_nonneg. intros u _. destruct (_ =? _); [lia|]. destruct (_ =? _); lia.
  - rewrite sum_swap. apply Z.le_trans with (sum 0 k (fun _ => 1)); [|rewrite sum_const; lia].
    apply sum_le. intros l _. rewrite sum_delta. destruct (_ && _); lia.
Qed.

Section reorder.
Context (A : csr) (HA : wf A).
Let n := cn A.
Let m := cm A.

(* src/spasm_pivots.c:305-319 *)
Theorem pivots_find_ok g ch scr greedy pinv qinv : nodup_rows A -> cx A <> None -> no_zero A ->
  len pinv = n -> len qinv = m -> gscr A scr ->
  sat (pivots_find g ch scr greedy A pinv qinv) (fun '(npiv, pinv', qinv') =>
    pivots A pinv' qinv' /\ acyclic A qinv' /\ npos qinv' = npiv /\
    (forall i j, 0 <= i < n -> leads A i j -> 0 <= get qinv' j) /\ covered_rows A pinv' /\ (greedy = true -> maximal A pinv' qinv')).
Proof.
  intros HD Hx Hnz Hlp Hlq Hscr. pose proof (wf_n A HA) as Hn. pose proof (wf_m A HA) as Hm. unfold pivots_find.
  apply sat_bind. apply (for_spec (fun k q => len q = m /\ forall j, 0 <= j < k -> get q j = -1)); [lia|split; auto; intros; lia| |].
  { intros j q Hj [Q1 Q2]. apply sat_aset; [fold m in Hj; lia|]. rewrite len_upd. split; auto. intros k Hk.
    rewrite get_upd_in by (fold m in Hj; lia). destruct (Z.eqb_spec j k); auto. apply Q2. lia. }
  intros q1 [Q1 Q2].
  apply sat_bind. apply (for_spec (fun k p => len p = n /\ forall i, 0 <= i < k -> get p i = -1)); [lia|split; auto; intros; lia| |].
  { intros i p Hi [P1 P2]. apply sat_aset; [fold n in Hi; lia|]. rewrite len_upd. split; auto. intros k Hk.
    rewrite get_upd_in by (fold n in Hi; lia). destruct (Z.eqb_spec i k); auto. apply P2. lia. }
  intros p1 [P1 P2].
  assert (HPV : pivots A p1 q1).
  { constructor; auto. }
  apply sat_bind. eapply sat_mono; [apply (find_FL_pivots_ok A HA p1 q1); auto; apply npos_none; intros; apply Q2; fold m; lia|].
  cbv beta. intros [[np2 p2] q2] (HPV2 & Hac2 & Hc2 & Hf2).
  apply sat_bind. eapply sat_mono; [apply (find_FL_column_pivots_ok A HA _ p2 q2); auto; rewrite len_malloc; lia|].
  cbv beta. intros [[np3 p3] q3] (HPV3 & Hac3 & Hc3 & Hk3 & Hr3).
  assert (Hl3 : forall i j, 0 <= i < n -> leads A i j -> 0 <= get q3 j).
  { intros i j Hi Hl. assert (Hj : 0 <= j < m) by (destruct Hl as ((px & Hpx & <-) & _); pose proof (wf_row A HA i Hi); apply (wf_col A HA); lia).
    destruct (Z.ltb_spec (get q2 j) 0) as [Hneg|Hge]; [|now rewrite Hk3]. destruct (Hf2 j Hj) as [F _]. now destruct (F Hneg i Hi). }
  destruct greedy; [|cbn; split; [exact HPV3|]; split; [auto|]; split; [lia|]; split; [auto|]; split; [auto|discriminate]].
  apply sat_bind. unfold find_cycle_free_pivots. apply sat_bind.
  destruct (greedy_ok A HA HD q3 scr p3 (malloc (g 10) (cn A)) HPV3 Hac3 ltac:(rewrite len_malloc; lia) Hscr) as [_ HG].
  eapply sat_mono; [apply HG|]. cbv beta. intros c (G1 & G2 & G3 & G4 & G5). cbn [sat]. split; auto. split; auto. split; [lia|]. split; [|split; auto].
  - intros i j Hi Hl. rewrite G4; now apply (Hl3 i).
  - pose proof G1 as [_ _ PP PQ]. pose proof HPV3 as [_ _ PP3 PQ3].
    assert (HK : forall k, 0 <= k < n -> 0 <= get p3 k -> 0 <= get (g_pinv (fst c)) k).
    { intros k Hk Hp. destruct (PP3 k Hk) as [|(E1 & E2 & E3)]; [lia|]. pose proof (G4 (get p3 k) ltac:(fold n in Hk; lia)) as E.
      destruct (PQ _ E1) as [|[R1 R2]]; [fold n in Hk; lia|]. rewrite E, E2 in R2. lia. }
    intros i j Hi Hneg Hs. destruct (Z.ltb_spec (get p3 i) 0) as [Hn3|Hn3]; [|specialize (HK i Hi Hn3); lia].
    destruct (Hr3 i j Hi Hn3 Hs) as (k & Hk & Hp & Hsk). exists k. split; auto.
Qed.

Lemma pivots_find_progress g ch scr greedy pinv qinv i j : nodup_rows A -> cx A <> None -> no_zero A ->
  len pinv = n -> len qinv = m -> gscr A scr -> 0 <= i < n -> stored A i j ->
  sat (pivots_find g ch scr greedy A pinv qinv) (fun '(npiv, pinv', qinv') => 1 <= npiv).
Proof.
  intros HD Hx Hnz Hlp Hlq Hscr Hi Hs. eapply sat_mono; [now apply pivots_find_ok|]. cbv beta. intros [[np p'] q'] (HPV & _ & Hc & Hl & _).
  pose proof (wf_row A HA i Hi) as Hrow.
  assert (HM : forall k, 0 <= k -> rbeg A i + k < rend A i -> exists c, stored A i c /\ forall py, rbeg A i <= py <= rbeg A i + k -> c <= get (cj A) py).
  { apply (natlike_ind (fun k => rbeg A i + k < rend A i -> exists c, stored A i c /\ forall py, rbeg A i <= py <= rbeg A i + k -> c <= get (cj A) py)).
    - intros Hk. exists (get (cj A) (rbeg A i)). split; [exists (rbeg A i); split; [lia|auto]|]. intros py Hpy. assert (py = rbeg A i) as -> by lia. lia.
    - intros k Hk IH Hk'. destruct IH as (c & H1 & H2); [lia|]. set (px := rbeg A i + Z.succ k) in *.
      destruct (Z_le_gt_dec c (get (cj A) px)) as [Hle|Hgt].
      + exists c. split; auto. intros py Hpy. destruct (Z.eq_dec py px) as [->|]; auto. apply H2. lia.
      + exists (get (cj A) px). split; [exists px; split; [lia|auto]|]. intros py Hpy. destruct (Z.eq_dec py px) as [->|]; [lia|]. specialize (H2 py ltac:(lia)). lia. }
  destruct Hs as (px & Hpx & Ej). destruct (HM (rend A i - rbeg A i - 1)) as (c & H1 & H2); [lia|lia|].
  assert (HL : leads A i c). { split; auto. intros d (py & Hpy & <-). apply H2. lia. }
  apply (Hl i c Hi) in HL. assert (Hcm : 0 <= c < cm A) by (destruct H1 as (py & Hpy & <-); apply (wf_col A HA); lia).
  subst np. unfold npos. pose proof (pv_lq _ _ _ HPV) as Lq. rewrite (sum_pick _ _ _ c) by lia. cbv beta. replace (0 <=? get q' c) with true by lia.
  enough (0 <= sum 0 (len q') (fun k => if k =? c then 0 else if 0 <=? get q' k then 1 else 0)) by lia.
  apply sum_nonneg. intros k _. destruct (k =? c); [lia|]. destruct (0 <=? _); lia.
Qed.

(* src/spasm_pivots.c:325-362 *)
Theorem pivots_reorder_ok g pinv qinv npiv p : pivots A pinv qinv -> acyclic A qinv -> npos qinv = npiv -> n <= len p ->
  sat (pivots_reorder g A pinv qinv npiv p) (fun p' => len p' = len p /\ pivot_order A pinv npiv p').
Proof.
  intros HPV Hac Hnp Hlp. pose proof (wf_n A HA) as Hn. pose proof (wf_m A HA) as Hm.
  pose proof (npos_rows A pinv qinv HPV) as Hnr. pose proof HPV as [PL1 PL2 PP PQ]. fold n in PL1, PP, PQ. fold m in PL2, PP, PQ.
  assert (Hq : qinv_ok A qinv).
  { split; auto. intros j Hj. destruct (PQ j Hj) as [->|]; fold n; lia. }
  unfold pivots_reorder. fold n m.
  apply sat_bind. apply (for_spec (fun k mk => len mk = m /\ forall j, 0 <= j < k -> get mk j = 0)); [lia|split; [rewrite len_malloc; lia|intros; lia]| |].
  { intros j q Hj [Q1 Q2]. apply sat_aset; [lia|]. rewrite len_upd. split; auto. intros k Hk.
    rewrite get_upd_in by lia. destruct (Z.eqb_spec j k); auto. apply Q2. lia. }
  intros mk0 [M1 M2].
  apply sat_bind. apply (for_spec (fun j '(top, xj, ps, mk) => Done A qinv top xj /\ marked A mk top xj /\ len ps = m /\
    forall c, 0 <= c < j -> 0 <= get qinv c -> exists k, top <= k < m /\ get xj k = c)); [lia| | |].
  { split; [|split; [split; auto|split; [rewrite len_malloc; lia|intros; lia]]].
    - constructor; try (intros; lia); rewrite len_malloc; lia.
    - intros c Hc. fold m in Hc. rewrite M2 by auto. split; [lia|]. intros (k & Hk & _). fold m in Hk. lia. }
  { intros j [[[top xj] ps] mk] Hj (D & M & Lps & Hall). apply sat_bind, sat_aget; [lia|].
    destruct (Z.eqb_spec (get qinv j) (-1)) as [E|E].
    { cbn. split; auto. split; auto. split; auto. intros c Hc Hqc. apply Hall; auto. assert (c <> j) by (intros ->; lia). lia. }
    pose proof M as [M3 M4]. fold m in M3, M4. apply sat_bind, sat_aget; [lia|]. destruct (Z.eqb_spec (get mk j) 0) as [E0|E0].
    - eapply sat_mono; [now apply (dfs_ok A HA qinv Hq j top xj ps mk)|]. cbv beta.
      intros [[[top' xj'] ps'] mk'] (D' & M' & L' & Ht & Hkeep & _ & Hj'). fold m in Hkeep, Hj'. split; auto. split; auto. split; auto.
      intros c Hc Hqc. destruct (Z.eq_dec c j) as [->|]; auto. destruct (Hall c ltac:(lia) Hqc) as (k & Hk & Ek).
      exists k. split; [lia|]. now rewrite Hkeep.
    - cbn. split; auto. split; auto. split; auto. intros c Hc Hqc. destruct (Z.eq_dec c j) as [->|]; [now apply M4|].
      apply Hall; auto. lia. }
  intros [[[top xj] ps] mk] (D & _ & _ & Hall). destruct D as [D1 D2 D3 D4 D5 D6]. fold m in D1, D2, D3, D4, D5, D6. specialize (D6 Hac).
  assert (Hrow : forall x, top <= x < m -> get qinv (get xj x) <> -1 -> 0 <= get qinv (get xj x) < n /\ get pinv (get qinv (get xj x)) = get xj x).
  { intros x Hx Hne. destruct (PQ (get xj x) (D3 x Hx)); [lia|auto]. }
  apply sat_bind. apply (for_spec (fun px '(k, p') => 0 <= k <= n /\ len p' = len p /\
    (forall l, 0 <= l < k -> exists x, top <= x < px /\ get qinv (get xj x) <> -1 /\ get p' l = get qinv (get xj x)) /\
    (forall l l', 0 <= l < k -> 0 <= l' < k -> get p' l = get p' l' -> l = l') /\
    (forall l l', 0 <= l < l' -> l' < k -> ~ stored A (get p' l') (get pinv (get p' l))) /\
    (forall x, top <= x < px -> get qinv (get xj x) <> -1 -> exists l, 0 <= l < k /\ get p' l = get qinv (get xj x)))).
  { lia. }
  { split; [lia|]. repeat split; auto; intros; lia. }
  { intros px [k p'] Hpx (K1 & K2 & K3 & K4 & K5 & K6). apply sat_bind, sat_aget; [lia|].
    pose proof (D3 px Hpx) as Hc. apply sat_bind, sat_aget; [lia|].
    destruct (Z.eqb_spec (get qinv (get xj px)) (-1)) as [E|E].
    { cbn. split; auto. split; auto. split; [intros l Hl; destruct (K3 l Hl) as (x & Hx & Ex); exists x; split; auto; lia|].
      split; auto. split; auto. intros x Hx Hne. apply K6; auto. assert (x <> px) by congruence. lia. }
    destruct (Hrow px Hpx E) as [R1 R2]. set (i := get qinv (get xj px)) in *.
    assert (Hnew : forall l, 0 <= l < k -> get p' l <> i).
    { intros l Hl El. destruct (K3 l Hl) as (x & Hx & Hne & Ex). destruct (Hrow x ltac:(lia) Hne) as [_ R4].
      rewrite <- Ex, El, R2 in R4. apply D4 in R4; lia. }
    assert (Hkn : k < n).
    { assert (Hc1 : k + 1 <= sum 0 n (fun i => if true then 1 else 0)); [|rewrite sum_const in Hc1; lia].
      apply (count_le (k + 1) n (fun l => if l =? k then i else get p' l) (fun _ => true)); [lia| |].
      - intros l Hl. split; auto. destruct (Z.eqb_spec l k); auto. destruct (K3 l ltac:(lia)) as (x & Hx & Hne & ->). apply Hrow; auto. lia.
      - intros l l' Hl Hl'. destruct (Z.eqb_spec l k), (Z.eqb_spec l' k); intros EE; try lia.
        + symmetry in EE. apply Hnew in EE; lia.
        + apply Hnew in EE; lia.
        + apply K4; auto; lia. }
    apply sat_bind, sat_aget; [lia|]. apply sat_bind, sat_assert; [lia|]. apply sat_bind, sat_aset; [lia|]. cbn [sat]. rewrite len_upd.
    assert (HU : forall l, 0 <= l < k -> get (upd p' k i) l = get p' l) by (intros; apply get_upd_ne; lia).
    assert (HUk : get (upd p' k i) k = i) by (apply get_upd_eq; lia).
    split; [lia|]. split; auto. split; [|split; [|split]].
    - intros l Hl. destruct (Z.eq_dec l k) as [->|].
      + exists px. rewrite HUk. split; auto. lia.
      + rewrite HU by lia. destruct (K3 l ltac:(lia)) as (x & Hx & Ex). exists x. split; auto. lia.
    - intros l l' Hl Hl'. destruct (Z.eq_dec l k) as [->|], (Z.eq_dec l' k) as [->|]; rewrite ?HUk; auto.
      + rewrite HU by lia. intros EE. symmetry in EE. apply Hnew in EE; lia.
      + rewrite HU by lia. intros EE. apply Hnew in EE; lia.
      + rewrite !HU by lia. apply K4; lia.
    - intros l l' Hl Hl'. destruct (Z.eq_dec l' k) as [->|]; [|rewrite !HU by lia; apply K5; lia].
      rewrite HUk, HU by lia. destruct (K3 l ltac:(lia)) as (x & Hx & Hne & Ex). destruct (Hrow x ltac:(lia) Hne) as [_ R4].
      rewrite Ex, R4. intros Hs. destruct (D6 px (get xj x) Hpx) as (y & Hy & Ey).
      + split; [lia|]. split; [fold i; lia|]. exact Hs.
      + intros Eq. apply D4 in Eq; lia.
      + apply D4 in Ey; lia.
    - intros x Hx Hne. destruct (Z.eq_dec x px) as [->|].
      + exists k. split; [lia|auto].
      + destruct (K6 x ltac:(lia) Hne) as (l & Hl & El). exists l. split; [lia|]. rewrite HU by lia. auto. }
  intros [k p1] (K1 & K2 & K3 & K4 & K5 & K6).
  assert (Hpl : forall l, 0 <= l < k -> 0 <= get p1 l < n /\ 0 <= get pinv (get p1 l)).
  { intros l Hl. destruct (K3 l Hl) as (x & Hx & Hne & ->). destruct (Hrow x ltac:(lia) Hne) as [R1 ->]. specialize (D3 x ltac:(lia)). lia. }
  assert (Hcov : forall i, 0 <= i < n -> 0 <= get pinv i -> exists l, 0 <= l < k /\ get p1 l = i).
  { intros i Hi Hge. destruct (PP i Hi) as [|(E1 & E2 & _)]; [lia|].
    destruct (Hall (get pinv i) ltac:(lia) ltac:(lia)) as (x & Hx & Ex).
    destruct (K6 x ltac:(lia)) as (l & Hl & El); [rewrite Ex; lia|]. exists l. split; auto. rewrite El, Ex. auto. }
  assert (Hk : k = npiv).
  { rewrite <- Hnp, Hnr. unfold npos. rewrite PL1. apply Z.le_antisymm.
    - apply (count_le k n (get p1) (fun i => 0 <=? get pinv i)); auto; [lia|]. intros l Hl. destruct (Hpl l Hl). split; auto. lia.
    - apply (count_ge k n (get p1) (fun i => 0 <=? get pinv i)); [lia|]. intros i Hi Hb. apply Hcov; auto. lia. }
  apply sat_bind, sat_assert; [lia|]. subst npiv.
  apply sat_bind. apply (for_spec (fun i '(k', p') => k <= k' /\ len p' = len p /\
    k' = k + sum 0 i (fun u => if get pinv u =? -1 then 1 else 0) /\
    (forall l, 0 <= l < k -> get p' l = get p1 l) /\
    (forall l, k <= l < k' -> 0 <= get p' l < i /\ get pinv (get p' l) = -1) /\
    (forall l l', k <= l < k' -> k <= l' < k' -> get p' l = get p' l' -> l = l'))).
  { lia. }
  { split; [lia|]. split; auto. split; [now rewrite sum_empty by lia; lia|]. split; auto. split; intros; lia. }
  { intros i [k' p'] Hi (J1 & J2 & J3 & J4 & J5 & J6). apply sat_bind, sat_aget; [lia|].
    destruct (Z.eqb_spec (get pinv i) (-1)) as [E|E].
    - assert (Hk'n : k' < n).
      { assert (Hc : npos pinv + sum 0 n (fun u => if get pinv u =? -1 then 1 else 0) = n).
        { unfold npos. rewrite PL1. rewrite <- sum_add. rewrite (sum_ext _ _ _ (fun _ => 1)); [rewrite sum_const; lia|].
          intros u Hu. destruct (PP u Hu) as [->|(E1 & _)]; [reflexivity|]. replace (0 <=? get pinv u) with true by lia.
          replace (get pinv u =? -1) with false by lia. lia. }
        assert (Hs : sum 0 (i + 1) (fun u => if get pinv u =? -1 then 1 else 0) <= sum 0 n (fun u => if get pinv u =? -1 then 1 else 0)).
        { rewrite (sum_split (i + 1) 0 n) by lia. enough (0 <= sum (i + 1) n (fun u => if get pinv u =? -1 then 1 else 0)) by lia.
          apply sum_nonneg. intros; destruct (_ =? _); lia. }
        rewrite sum_S in Hs by lia. rewrite E in Hs. replace (-1 =? -1) with true in Hs by lia. lia. }
      apply sat_bind, sat_aset; [lia|]. cbn [sat]. rewrite len_upd.
      assert (HU : forall l, l <> k' -> get (upd p' k' i) l = get p' l) by (intros; apply get_upd_ne; lia).
      assert (HUk : get (upd p' k' i) k' = i) by (apply get_upd_eq; lia).
      split; [lia|]. split; auto. split; [|split; [|split]].
      + rewrite sum_S by lia. rewrite E. replace (-1 =? -1) with true by lia. lia.
      + intros l Hl. rewrite HU by lia. auto.
      + intros l Hl. destruct (Z.eq_dec l k') as [->|]; [rewrite HUk; split; auto; lia|]. rewrite HU by lia. destruct (J5 l ltac:(lia)). split; auto. lia.
      + intros l l' Hl Hl'. destruct (Z.eq_dec l k') as [->|], (Z.eq_dec l' k') as [->|]; auto.
        * rewrite HUk, HU by lia. destruct (J5 l' ltac:(lia)). lia.
        * rewrite HUk, HU by lia. destruct (J5 l ltac:(lia)). lia.
        * rewrite !HU by lia. apply J6; lia.
    - cbn [sat]. split; auto. split; auto. split; [rewrite sum_S by lia; replace (get pinv i =? -1) with false by lia; lia|].
      split; auto. split; auto. intros l Hl. destruct (J5 l Hl). split; auto. lia. }
  intros [k2 p2] (J1 & J2 & J3 & J4 & J5 & J6).
  assert (Hc : npos pinv + sum 0 n (fun u => if get pinv u =? -1 then 1 else 0) = n).
  { unfold npos. rewrite PL1. rewrite <- sum_add. rewrite (sum_ext _ _ _ (fun _ => 1)); [rewrite sum_const; lia|].
    intros u Hu. destruct (PP u Hu) as [->|(E1 & _)]; [reflexivity|]. replace (0 <=? get pinv u) with true by lia.
    replace (get pinv u =? -1) with false by lia. lia. }
  assert (Ek : k2 = n) by lia. subst k2. apply sat_bind, sat_assert; [lia|]. cbn [sat]. split; auto.
  assert (Hcase : forall l, 0 <= l < n -> l < k /\ get p2 l = get p1 l /\ 0 <= get pinv (get p2 l) /\ 0 <= get p2 l < n \/
     k <= l /\ get pinv (get p2 l) = -1 /\ 0 <= get p2 l < n).
  { intros l Hl. destruct (Z_lt_le_dec l k).
    - left. rewrite J4 by lia. destruct (Hpl l ltac:(lia)). auto.
    - right. destruct (J5 l ltac:(lia)). auto. }
  constructor; fold n.
  - intros l Hl. destruct (Hcase l Hl) as [|]; intuition.
  - intros l l' Hl Hl' E. destruct (Hcase l Hl) as [(C1 & C2 & C3 & C4)|(C1 & C2 & C3)], (Hcase l' Hl') as [(B1 & B2 & B3 & B4)|(B1 & B2 & B3)].
    + apply K4; [lia|lia|congruence].
    + rewrite E in C3. lia.
    + rewrite <- E in B3. lia.
    + apply J6; auto; lia.
  - intros l Hl. destruct (Hcase l Hl) as [(C1 & C2 & C3 & C4)|(C1 & C2 & C3)]; lia.
  - intros l l' Hl Hl'. rewrite !J4 by lia. apply K5; lia.
Qed.
End reorder.
