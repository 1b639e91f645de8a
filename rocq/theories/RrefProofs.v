(** Correctness of spasm_rref and spasm_kernel (Rref.v). *)
From Verif Require Import Base BaseFacts Spec SpecFacts Zp ZpFacts Mat MatFacts TransposeProofs RowList Reach ReachProofs TriProofs
  Solve SolveProofs LinAlg Par ParProofs ParRun ParRows Schur SchurProofs Rref.
From Coq Require Import Permutation ZifyBool.

(** ** Parallel construction of a matrix from independent rows *)
Definition row_task (T : task) (row : list (Z * Z)) : Prop :=
  len row <= t_need T /\ t_need T <= t_extra T /\ t_ssz T = len row /\ t_lsz T = 0 /\
  writes_row (t_prog T) row /\ NoDup (map (fun w => (w_buf w, w_off w)) (t_prog T)) /\
  (forall w, In w (t_prog T) -> match w_buf w with
    | SJ | SX => 0 <= w_off w < len row | SP => w_off w = 0 | _ => False end).

Lemma rows_tasks_ok T N R row m0 : 0 <= N ->
  (forall t, 0 <= t < N -> t_act (T t) = true -> row_task (T t) (row t)) ->
  (forall t, ~ 0 <= t < N \/ t_act (T t) = false -> T t = idle) ->
  sum 0 N (fun t => b2z (t_act (T t))) = R ->
  len (m0 SX) = len (m0 SJ) -> len (m0 SP) = R + 1 ->
  len (m0 LJ) = len (m0 LI) -> len (m0 LX) = len (m0 LI) -> tasks_ok false 0 T N R 0 m0.
Proof.
  intros HN HT Hid HR HX HP H1 H2. constructor; auto; try lia.
  - unfold act. lia.
  - split; [lia|]. intros t Ht Ha. unfold lsz. destruct (HT t Ht Ha) as (_ & _ & _ & -> & _). lia.
  - intros t Ht Ha. unfold ssz, lsz. destruct (HT t Ht Ha) as (A1 & A2 & -> & -> & _). pose proof (len_nonneg (row t)). lia.
  - intros t w Ht Ha Hw. destruct (HT t Ht Ha) as (A1 & A2 & A3 & A4 & _ & _ & A5). specialize (A5 w Hw).
    unfold area, ssz, lsz. destruct (w_buf w) eqn:E; try easy; split; try lia; easy.
  - intros t. destruct (Z_lt_le_dec t 0); [rewrite Hid by lia; constructor|].
    destruct (Z_lt_le_dec t N); [|rewrite Hid by lia; constructor].
    destruct (t_act (T t)) eqn:E; [|rewrite Hid by auto; constructor].
    destruct (HT t ltac:(lia) E) as (_ & _ & _ & _ & _ & H & _). exact H.
Qed.

Lemma lsum_filter_len {A} (f : A -> bool) l : lsum (fun a => b2z (f a)) l = len (filter f l).
Proof.
  induction l as [|a l IH]; auto. cbn [lsum fold_right filter]. unfold lsum in IH. rewrite IH.
  destruct (f a); [rewrite len_cons|]; cbn [b2z]; lia.
Qed.
Lemma len_actives T N : len (actives T N) = sum 0 N (fun t => b2z (t_act (T t))).
Proof. unfold actives, act. now rewrite <- lsum_filter_len, lsum_zseq. Qed.

Lemma par_rows g ch T N R m prime row S : 0 <= N ->
  (forall t, 0 <= t < N -> t_act (T t) = true -> row_task (T t) (row t)) ->
  (forall t, ~ 0 <= t < N \/ t_act (T t) = false -> T t = idle) ->
  sum 0 N (fun t => b2z (t_act (T t))) = R -> len (cp S) = R + 1 -> get (cp S) 0 = 0 ->
  len (rows_mem S SX) = len (cj S) ->
  sat (par_for g false 0 N ch T 0 (rows_mem S)) (fun h => exists o, Permutation o (actives T N) /\ len o = R /\
    has_rows (Csr R m (s_mem h SP) (s_mem h SJ) (Some (s_mem h SX)) prime) (map row o)).
Proof.
  intros HN HT Hid HR HP H0 HX. 
  eapply sat_mono; [apply (par_for_ok g false 0 T N R 0 (rows_mem S)); apply (rows_tasks_ok T N R row); auto|].
  cbv beta. intros h (o & Ho & _ & _ & Hsn & Hsz & Hlnz & HW & L1 & L2 & L3 & L4 & L5 & Cs & Cl & Old & Old0).
  exists o. split; auto. assert (Hlo : len o = R).
  { rewrite <- HR, <- len_actives. unfold len. now rewrite (Permutation_length Ho). }
  split; auto.
  assert (Ht : forall t, In t o -> 0 <= t < N /\ t_act (T t) = true).
  { intros t Ht. apply (Permutation_in _ Ho) in Ht. unfold actives in Ht. rewrite filter_In, In_zseq in Ht. exact Ht. }
  apply (final_rows T 0 (s_mem h) o row R m prime); auto.
  - intros t Hi. destruct (Ht t Hi) as [H1 H2]. destruct (HT t H1 H2) as (_ & _ & H3 & _ & H4 & _). auto.
  - rewrite L4. exact HP.
  - rewrite Old0. exact H0.
  - lia.
Qed.

Lemma balanced_1 p : 2 <= p -> balanced p 1.
Proof. unfold balanced. pose proof (Z_div_mod_eq_full p 2). pose proof (Z.mod_pos_bound p 2). lia. Qed.

Lemma stored_range A i j : wf A -> 0 <= i < cn A -> stored A i j -> 0 <= j < cm A.
Proof. intros HA Hi (px & Hpx & <-). apply (wf_col A HA). pose proof (wf_row A HA i Hi). lia. Qed.

(* grouping the columns of a combination by the row holding their pivot *)
Lemma sum_by_row U (qinv : list Z) X j : (forall c, 0 <= c < cm U -> get qinv c < cn U) ->
  xA U (fun r => sum 0 (cm U) (fun c => if get qinv c =? r then X c else 0)) j =
  sum 0 (cm U) (fun c => if 0 <=? get qinv c then X c * entry U (get qinv c) j else 0).
Proof.
  intros Hq. unfold xA.
  rewrite (sum_ext 0 (cn U) _ (fun r => sum 0 (cm U) (fun c => (if get qinv c =? r then X c else 0) * entry U r j))).
  2:{ intros r _. symmetry. apply sum_scale_r. }
  rewrite sum_swap. apply sum_ext. intros c Hc. specialize (Hq c Hc). destruct (Z.leb_spec 0 (get qinv c)).
  - rewrite (sum_single 0 (cn U) _ (get qinv c)) by (auto; intros; replace (get qinv c =? i) with false by lia; ring).
    now rewrite Z.eqb_refl.
  - apply sum_zero. intros r Hr. replace (get qinv c =? r) with false by lia. ring.
Qed.

(* the row held by a pattern *)
Lemma pattern_lentry (xj : list Z) top m (X : Z -> Z) (b : Z -> bool) j :
  (forall l l', top <= l < m -> top <= l' < m -> get xj l = get xj l' -> l = l') ->
  (forall c, (forall l, top <= l < m -> get xj l <> c) -> X c = 0) ->
  sum top m (fun l => if b (get xj l) then if get xj l =? j then X (get xj l) else 0 else 0) = if b j then X j else 0.
Proof.
  intros Hi X0. destruct (in_dec Z.eq_dec j (map (get xj) (zseq top m))) as [Hjn|Hjn].
  - apply in_map_iff in Hjn. destruct Hjn as (l & <- & Hl). apply In_zseq in Hl.
    rewrite (sum_single top m _ l); auto. { now rewrite Z.eqb_refl. }
    intros l' Hl' Hne. destruct (Z.eqb_spec (get xj l') (get xj l)) as [E|]; [exfalso; apply Hne; auto|].
    now destruct (b (get xj l')).
  - assert (Hj' : forall l, top <= l < m -> get xj l <> j).
    { intros l Hl E. apply Hjn, in_map_iff. exists l. rewrite In_zseq. auto. }
    rewrite X0 by auto. rewrite sum_zero; [now destruct (b j)|].
    intros l Hl. specialize (Hj' l Hl). replace (get xj l =? j) with false by lia. now destruct (b (get xj l)).
Qed.

(** ** Reduced row echelon form *)
Section rref_task.
Context (U : csr) (qinv : list Z) (p : Z).
Context (HU : wf U) (Hp : cprime U = p) (Hp2 : 2 <= p) (Hx : cx U <> None) (HUp : upper p U qinv) (Hpf : pivot_first U qinv).
Local Notation m := (cm U).
Definition pcol (i : Z) : Z := get (cj U) (rbeg U i).

Lemma pcol_range i : 0 <= i < cn U -> 0 <= pcol i < m.
Proof.
  intros Hi. destruct (Hpf i Hi) as [H _]. apply wf_col; auto. pose proof (wf_row U HU i Hi). pose proof (wf_nnz U HU). lia.
Qed.
Lemma pcol_qinv i : 0 <= i < cn U -> get qinv (pcol i) = i.
Proof. intros Hi. apply (Hpf i Hi). Qed.
Lemma pcol_stored i : 0 <= i < cn U -> stored U i (pcol i).
Proof. intros Hi. exists (rbeg U i). destruct (Hpf i Hi). split; [lia|auto]. Qed.
Lemma qinv_pcol c : 0 <= c < m -> 0 <= get qinv c -> pcol (get qinv c) = c.
Proof.
  intros Hc Hq. pose proof (up_rng _ _ _ HUp c Hc). apply (up_inj _ _ _ HUp); auto.
  - apply pcol_range. lia.
  - rewrite pcol_qinv; lia.
  - rewrite pcol_qinv; lia.
Qed.

Definition rref_spec (i : Z) (T : task) (row : list (Z * Z)) (y : Z -> Z) : Prop :=
  t_act T = true /\ row_task T row /\ (exists rest, row = (pcol i, 1) :: rest) /\ NoDup (map fst row) /\
  (forall c v, In (c, v) row -> 0 <= c < m /\ v <> 0 /\ balanced p v /\ (c <> pcol i -> get qinv c = -1)) /\
  (forall j, 0 <= j < m -> cong p (lentry j row) (xA U y j)).

Lemma rref_task_ok scr i : scr_ok m scr -> 0 <= i < cn U ->
  sat (rref_task U qinv scr i) (fun T => exists row y, rref_spec i T row y).
Proof.
  intros Hs Hi. destruct scr as [[[xj0 ps0] mk0] x0]. destruct Hs as (S1 & S2 & S3 & S4 & S5).
  pose proof (wf_len U HU) as Hlen. pose proof (wf_row U HU i Hi) as Hrow. pose proof (wf_nnz U HU) as Hnz.
  pose proof (pcol_range i Hi) as Hpr. pose proof (pcol_qinv i Hi) as Hpq. pose proof (pcol_stored i Hi) as Hps.
  destruct (Hpf i Hi) as [Hne _]. pose proof (up_len _ _ _ HUp) as Hql. pose proof (up_rng _ _ _ HUp) as Hqr.
  unfold rref_task. apply sat_bind, sat_aget; [lia|]. fold (rbeg U i). apply sat_bind, sat_aget; [destruct HU as (_ & _ & _ & _ & _ & ? & _); lia|].
  fold (pcol i). set (pv := pcol i) in *.
  apply sat_bind, sat_aget; [lia|]. apply sat_bind, sat_assert; [lia|]. apply sat_bind, sat_aset; [lia|].
  set (ql := upd qinv pv (-1)).
  assert (Hlq : len ql = m) by (unfold ql; now rewrite len_upd).
  assert (Gq : forall c, get ql c = if pv =? c then -1 else get qinv c).
  { intros c. unfold ql. apply get_upd_in. lia. }
  assert (Hq0 : forall c, 0 <= c < m -> 0 <= get ql c -> get ql c = get qinv c /\ c <> pv).
  { intros c Hc. rewrite Gq. destruct (Z.eqb_spec pv c); [lia|]. split; auto. }
  assert (Hqok : qinv_ok U ql).
  { split; auto. intros c Hc. rewrite Gq. specialize (Hqr c Hc). destruct (pv =? c); lia. }
  assert (Hedge : forall a b, edge U ql a b -> edge U qinv a b).
  { intros a b (E1 & E2 & E3). destruct (Hq0 a ltac:(lia) E2) as [E _]. split; [lia|]. rewrite <- E. auto. }
  assert (Hpath : forall a b, path U ql a b -> path U qinv a b).
  { intros a b Hab. induction Hab; [constructor|]. econstructor; eauto. }
  apply sat_bind. eapply sat_mono.
  { apply (sparse_triangular_solve_spec U U i ql xj0 ps0 mk0 x0 p); auto.
    - intros a b Hab Hn Hba. apply (upper_acyclic p U qinv HU HUp a b); auto.
    - intros j Hj H0. destruct (Hq0 j Hj H0) as [-> _]. apply (up_unit _ _ _ HUp); auto. specialize (Hq0 j Hj H0). lia. }
  cbv beta. intros [[[[top xj] ps] mk] x] (Ht & Lj & _ & _ & _ & Hjr & Hji & Hpat & Lx & _ & Hbal & X & X1 & X0 & HX).
  assert (Hx' : forall l, top <= l < m -> 0 <= get xj l < len x). { intros l Hl. specialize (Hjr l Hl). lia. }
  (* only later pivots are used *)
  assert (Hlater : forall s c, stored U i s -> path U ql s c -> get ql c < 0 \/ i < get ql c).
  { intros s c Hst Hsc. assert (Hs : 0 <= s < m) by (now apply (stored_range U i)).
    induction Hsc as [s|s b c Hsb IH He].
    - destruct (Z_lt_le_dec (get ql s) 0); auto. right. destruct (Hq0 s Hs l) as [E En].
      destruct (Z_lt_le_dec i (get ql s)); auto. exfalso. destruct (Z.eq_dec (get qinv s) i) as [Ei|].
      + apply En. rewrite <- Ei in Hpq. apply (up_inj _ _ _ HUp); auto. lia.
      + apply (up_tri _ _ _ HUp s i); auto; lia.
    - specialize (IH Hst Hs). pose proof (edge_range U HU ql Hqok b c He) as Hc. destruct He as (E1 & E2 & E3).
      destruct (Z_lt_le_dec (get ql c) 0); auto. right. destruct (Hq0 c Hc l) as [Ec _]. destruct (Hq0 b ltac:(lia) E2) as [Eb _].
      destruct (Z_lt_le_dec (get ql c) (get ql b)); [|lia]. exfalso.
      apply (up_tri _ _ _ HUp c (get ql b)); auto; try lia. rewrite Eb. apply Hqr. lia. }
  assert (Hpvin : exists l, top <= l < m /\ get xj l = pv).
  { apply Hpat. exists pv. split; auto. constructor. }
  destruct Hpvin as (lp & Hlp & Elp).
  assert (Hx1 : get x pv = 1).
  { rewrite <- Elp. rewrite <- X1 by auto. eapply (balanced_unique p); eauto.
    - rewrite X1 by auto. apply Hbal; auto.
    - now apply balanced_1.
    - rewrite Elp. specialize (HX pv Hpr). replace (get ql pv <? 0) with true in HX by (rewrite Gq, Z.eqb_refl; reflexivity).
      pose proof (up_unit _ _ _ HUp pv Hpr ltac:(lia)) as Hun. rewrite Hpq in Hun. rewrite <- Hun. rewrite HX.
      rewrite sum_zero; [apply cong_eq; ring|]. intros c Hc. destruct (Z.leb_spec 0 (get ql c)); auto.
      destruct (in_dec Z.eq_dec c (map (get xj) (zseq top m))) as [Hin|Hin].
      + apply in_map_iff in Hin. destruct Hin as (l & El & Hl). apply In_zseq in Hl.
        assert (Hex : exists l, top <= l < m /\ get xj l = c) by eauto. apply Hpat in Hex. destruct Hex as (s & Hs1 & Hs2).
        destruct (Hlater s c Hs1 Hs2); [lia|]. destruct Hqok as [_ Hqok]. rewrite entry_absent; [ring|].
        apply (up_tri _ _ _ HUp pv (get ql c)); auto; lia.
      + rewrite X0; [ring|]. intros l Hl E. apply Hin, in_map_iff. exists l. rewrite In_zseq. auto. }
  (* pivot first *)
  apply sat_bind.
  eapply sat_mono.
  { apply (forb_spec (fun px s => s = xj /\ forall l, top < l < px -> get xj l <> pv)
      (fun o => let xj' := match o with inl s => s | inr s => s end in
        len xj' = m /\ (forall l, top <= l < m -> 0 <= get xj' l < m) /\
        (forall l l', top <= l < m -> top <= l' < m -> get xj' l = get xj' l' -> l = l') /\
        (forall c, (forall l, top <= l < m -> get xj' l <> c) -> forall l, top <= l < m -> get xj l <> c) /\
        (forall l, top <= l < m -> exists l', top <= l' < m /\ get xj' l = get xj l') /\
        get xj' top = pv)).
    - lia.
    - split; auto. intros l Hl. lia.
    - intros px s Hpx [-> Hn]. apply sat_bind, sat_aget; [lia|]. destruct (Z.eqb_spec (get xj px) pv) as [E|E].
      + apply sat_bind, sat_aget; [lia|]. apply sat_bind, sat_aset; [lia|]. apply sat_bind, sat_aset; [rewrite len_upd; lia|].
        cbn [sat]. set (xj' := upd _ _ _).
        assert (G : forall l, get xj' l = if top =? l then pv else if px =? l then get xj top else get xj l).
        { intros l. unfold xj'. rewrite get_upd_in by (rewrite len_upd; lia). destruct (top =? l); auto. apply get_upd_in. lia. }
        assert (Gs : forall l, top <= l < m -> exists l', top <= l' < m /\ get xj' l = get xj l' /\ (l = top -> l' = px) /\ (l = px -> l' = top) /\ (l <> top -> l <> px -> l' = l)).
        { intros l Hl. destruct (Z.eq_dec l top) as [->|]; [|destruct (Z.eq_dec l px) as [->|]].
          - exists px. rewrite G, Z.eqb_refl. split; [lia|]. split; [auto|]. lia.
          - exists top. rewrite G. replace (top =? px) with false by lia. rewrite Z.eqb_refl. split; [lia|]. split; [auto|]. lia.
          - exists l. rewrite G. replace (top =? l) with false by lia. replace (px =? l) with false by lia. split; [lia|]. split; [auto|]. lia. }
        split; [unfold xj'; now rewrite !len_upd|].
        split. { intros l Hl. destruct (Gs l Hl) as (l' & Hl' & -> & _). auto. }
        split. { intros l l' Hl Hl' El. destruct (Gs l Hl) as (a & Ha & Ea & Ea1 & Ea2 & Ea3). destruct (Gs l' Hl') as (b & Hb & Eb & Eb1 & Eb2 & Eb3).
          rewrite Ea, Eb in El. apply Hji in El; auto. lia. }
        split. { intros c Hc l Hl El. destruct (Z.eq_dec l top) as [->|]; [|destruct (Z.eq_dec l px) as [->|]].
          - apply (Hc px ltac:(lia)). rewrite G. replace (top =? px) with false by lia. now rewrite Z.eqb_refl.
          - apply (Hc top ltac:(lia)). rewrite G, Z.eqb_refl. congruence.
          - apply (Hc l ltac:(lia)). rewrite G. replace (top =? l) with false by lia. now replace (px =? l) with false by lia. }
        split. { intros l Hl. destruct (Gs l Hl) as (l' & H1 & H2 & _). eauto. }
        now rewrite G, Z.eqb_refl.
      + cbn. split; auto. intros l Hl. destruct (Z.eq_dec l px) as [->|]; auto. apply Hn. lia.
    - intros s [-> Hn]. cbv zeta. split; auto. split; auto. split; auto. split; auto. split; [eauto|].
      destruct (Z.eq_dec lp top) as [->|]; auto. exfalso. apply (Hn lp); auto. lia. }
  cbv beta. intros o. generalize (match o with inl s => s | inr s => s end). clear o. intros xj' (Lj' & Hjr' & Hji' & Hjn' & Hjs' & Hjt).
  assert (X1' : forall l, top <= l < m -> X (get xj' l) = get x (get xj' l) /\ balanced p (get x (get xj' l))).
  { intros l Hl. destruct (Hjs' l Hl) as (l' & Hl' & ->). auto. }
  assert (X0' : forall c, (forall l, top <= l < m -> get xj' l <> c) -> X c = 0) by (intros c Hc; apply X0; auto).
  clear Hjr Hji X0 X1 Hbal Hjs' Hjn' Hx'.
  assert (Hx' : forall l, top <= l < m -> 0 <= get xj' l < len x). { intros l Hl. specialize (Hjr' l Hl). lia. }
  apply sat_bind, sat_aget; [lia|]. apply sat_bind, sat_assert; [lia|].
  set (cnt := fun l => if (get ql (get xj' l) <? 0) then if get x (get xj' l) =? 0 then 0 else 1 else 0).
  apply sat_bind. eapply sat_mono.
  { apply (for_spec (fun px a => a = sum top px cnt)).
    - lia.
    - now rewrite sum_empty by lia.
    - intros px a Hpx Ha. specialize (Hjr' px Hpx). specialize (Hx' px Hpx).
      apply sat_bind, sat_aget; [lia|]. apply sat_bind, sat_aget; [lia|]. rewrite sum_S by lia. rewrite <- Ha. unfold cnt.
      destruct (get ql (get xj' px) <? 0); [|cbn; lia]. apply sat_bind, sat_aget; [lia|].
      destruct (get x (get xj' px) =? 0); cbn; lia.
    - intros s Hs. exact Hs. }
  cbv beta. intros rn Hrn.
  apply sat_bind. eapply sat_mono.
  { apply (for_spec (fun px '(prog, a) => exists sr,
      PI prog [] sr [] /\ a = len sr /\ len sr = sum top px cnt /\ len sr <= px - top /\
      (forall c v, In (c, v) sr -> exists l, top <= l < px /\ c = get xj' l /\ v = get x c /\ get ql c < 0 /\ v <> 0) /\
      NoDup (map fst sr) /\
      (top < px -> exists rest, sr = (pv, 1) :: rest) /\
      (forall j, lentry j sr = sum top px (fun l => if get ql (get xj' l) <? 0 then if get xj' l =? j then X (get xj' l) else 0 else 0)))).
    - lia.
    - exists []. split; [apply PI_nil|]. split; [auto|]. rewrite sum_empty by lia. change (len (@nil (Z * Z))) with 0.
      split; [auto|]. split; [lia|]. split; [easy|]. split; [constructor|]. split; [lia|]. intros j. now rewrite sum_empty by lia.
    - intros px [prog a] Hpx (sr & I1 & Ia & I2 & I3 & I4 & I5 & I6 & I7).
      pose proof (Hjr' px Hpx) as Hj. specialize (Hx' px Hpx). destruct (X1' px Hpx) as [EX _].
      apply sat_bind, sat_aget; [lia|]. apply sat_bind, sat_aget; [lia|].
      set (j := get xj' px) in *. set (v := get x j) in *.
      assert (Hskip : (get ql j <? 0) = false \/ v = 0 -> px <> top /\ cnt px = 0).
      { intros H. unfold cnt. fold j. fold v. split.
        - intros E. assert (j = pv) by (unfold j; congruence).
          assert (get ql j = -1) by (rewrite Gq; replace (pv =? j) with true by lia; auto).
          destruct H as [H|H]; [lia|]. unfold v in H. congruence.
        - destruct H as [-> | ->]; auto. now destruct (get ql j <? 0). }
      assert (Hno : (get ql j <? 0) = false \/ v = 0 -> exists sr, PI prog [] sr [] /\ a = len sr /\ len sr = sum top (px + 1) cnt /\ len sr <= px + 1 - top /\
        (forall c v, In (c, v) sr -> exists l, top <= l < px + 1 /\ c = get xj' l /\ v = get x c /\ get ql c < 0 /\ v <> 0) /\
        NoDup (map fst sr) /\ (top < px + 1 -> exists rest, sr = (pv, 1) :: rest) /\
        (forall j, lentry j sr = sum top (px + 1) (fun l => if get ql (get xj' l) <? 0 then if get xj' l =? j then X (get xj' l) else 0 else 0))).
      { intros H. destruct (Hskip H) as [H1 H2]. exists sr. rewrite !sum_S by lia. rewrite H2.
        split; [auto|]. split; [auto|]. split; [lia|]. split; [lia|].
        split. { intros c w Hc. destruct (I4 c w Hc) as (l & ? & ?). exists l. split; [lia|auto]. }
        split; [auto|]. split. { intros _. apply I6. lia. }
        intros j'. rewrite sum_S by lia. rewrite <- I7. fold j. rewrite EX. 
        destruct H as [-> | ->]; [lia|]. destruct (get ql j <? 0), (j =? j'); lia. }
      destruct (get ql j <? 0) eqn:Eq; [|exact (Hno (or_introl eq_refl))].
      apply sat_bind, sat_aget; [lia|]. fold v. destruct (Z.eqb_spec v 0) as [Ev|Ev]; [exact (Hno (or_intror Ev))|]. clear Hno Hskip.
      cbn [sat]. exists (sr ++ [(j, v)]). rewrite sum_S by lia. unfold cnt at 2. fold j. fold v.
      replace (v =? 0) with false by lia. rewrite Eq.
      split. { subst a. apply PI_s. auto. } split; [rewrite len_snoc; lia|].
      split; [rewrite len_snoc; lia|]. split; [rewrite len_snoc; lia|].
      split. { intros c w Hc. rewrite in_app_iff in Hc. destruct Hc as [Hc|[[= <- <-]|[]]].
        - destruct (I4 c w Hc) as (l & ? & ?). exists l. split; [lia|auto].
        - exists px. split; [lia|]. split; [auto|]. split; [auto|]. split; [lia|auto]. }
      split. { rewrite map_app. apply NoDup_snoc; auto. cbn [fst]. rewrite in_map_iff. intros ((c & w) & Ec & Hc). cbn in Ec.
        destruct (I4 c w Hc) as (l & Hl & El & _). assert (l = px) by (apply Hji'; try lia; congruence). lia. }
      split. { intros _. destruct (Z.eq_dec px top) as [->|].
        - destruct sr as [|e sr]; [|exfalso; rewrite len_cons in I3; pose proof (len_nonneg sr); lia].
          exists []. cbn [app]. unfold v, j. now rewrite Hjt, Hx1.
        - destruct I6 as (rest & ->); [lia|]. exists (rest ++ [(j, v)]). reflexivity. }
      intros j'. rewrite sum_S by lia. rewrite <- I7. fold j. rewrite Eq, EX. fold v. rewrite lentry_app, lentry_cons. unfold lentry at 2. cbn. lia.
    - intros s Hs. exact Hs. }
  cbv beta. intros [prog a] (sr & I1 & Ia & I2 & I3 & I4 & I5 & I6 & I7). cbn [sat]. subst a.
  destruct (PI_close _ _ _ _ I1) as (C1 & C2 & C3 & C4 & C5).
  exists sr, (fun r => (if r =? i then 1 else 0) - sum 0 m (fun c => if get ql c =? r then X c else 0)).
  unfold rref_spec. cbn [t_act]. split; [auto|].
  split. { unfold row_task. cbn [t_need t_extra t_ssz t_lsz t_prog]. split; [lia|]. split; [lia|]. split; [lia|]. split; [auto|]. split; [auto|].
    split; [auto|]. intros w Hw. specialize (C5 w Hw). change (len (@nil (Z * Z * Z))) with 0 in C5. destruct (w_buf w); auto; try lia; easy. }
  split. { apply I6. lia. } split; [auto|].
  split. { intros c v Hc. destruct (I4 c v Hc) as (l & Hl & -> & -> & Hq & Hv). split; [auto|]. split; [auto|]. split; [now apply X1'|].
    rewrite Gq in Hq. intros Hne'. specialize (Hqr (get xj' l) (Hjr' l Hl)). destruct (Z.eqb_spec pv (get xj' l)); [exfalso; apply Hne'; fold pv; auto|]. lia. }
  intros j Hj. rewrite I7. rewrite (pattern_lentry xj' top m X (fun c => get ql c <? 0) j Hji' X0').
  specialize (HX j Hj). rewrite <- sum_by_row in HX by apply Hqok.
  match goal with |- cong p ?a _ => set (r := a) in * end.
  unfold xA. rewrite (sum_ext 0 (cn U) _ (fun k => (if k =? i then entry U i j else 0) + -1 * (sum 0 m (fun c => if get ql c =? k then X c else 0) * entry U k j))).
  2:{ intros k Hk. destruct (Z.eqb_spec k i) as [->|]; ring. }
  rewrite sum_add, sum_scale. fold (xA U (fun r => sum 0 m (fun c => if get ql c =? r then X c else 0)) j).
  rewrite (sum_single 0 (cn U) _ i) by (auto; intros k Hk Hn; now replace (k =? i) with false by lia). rewrite Z.eqb_refl.
  rewrite HX. apply cong_eq. ring.
Qed.
End rref_task.

Lemma to_i32_id x : - 2 ^ 31 <= x < 2 ^ 31 -> to_i32 x = x.
Proof. intros H. unfold to_i32. change (2 ^ 32) with (2 * 2 ^ 31). rewrite Z.mod_small; lia. Qed.

Lemma lsum_bound {A} (f : A -> Z) l b : (forall a, In a l -> f a <= b) -> lsum f l <= len l * b.
Proof.
  induction l as [|a l IH]; intros H; [cbn; lia|]. rewrite len_cons. cbn [lsum fold_right]. unfold lsum in IH.
  specialize (IH (fun x Hx => H x (or_intror Hx))). specialize (H a (or_introl eq_refl)). lia.
Qed.

(* distinct elements of an interval satisfying a test *)
Lemma len_count (l : list Z) m (b : Z -> bool) : NoDup l -> (forall c, In c l -> 0 <= c < m /\ b c = true) ->
  len l <= sum 0 m (fun c => b2z (b c)).
Proof.
  intros HN H. rewrite <- lsum_zseq, lsum_filter_len. unfold len. apply inj_le. apply NoDup_incl_length; auto.
  intros c Hc. rewrite filter_In, In_zseq. now apply H.
Qed.

(* first entry of a row *)
Lemma rowl_first A i c v rest : rbeg A i <= rend A i -> rowl A i = (c, v) :: rest ->
  rbeg A i < rend A i /\ get (cj A) (rbeg A i) = c /\ val A (rbeg A i) = v.
Proof.
  intros Hle E. assert (Hl : len (rowl A i) = rend A i - rbeg A i) by now apply len_rowl.
  rewrite E, len_cons in Hl. pose proof (len_nonneg rest). split; [lia|].
  pose proof (getd_rowl A i 0 ltac:(lia)) as G. rewrite E, Z.add_0_r in G. cbn in G. inversion G. auto.
Qed.

Theorem rref_ok g ch scr U qinv p Rqinv :
  wf U -> cprime U = p -> 2 <= p -> cx U <> None -> upper p U qinv -> pivot_first U qinv ->
  (forall i, 0 <= i < cn U -> scr_ok (cm U) (scr i)) -> len Rqinv = cm U ->
  cn U * (cm U - cn U + 1) < 2 ^ 31 ->
  sat (rref g ch scr U qinv Rqinv) (fun '(R, q) =>
    wf R /\ cn R = cn U /\ cm R = cm U /\ cprime R = p /\ reduced R /\ no_zero R /\ nodup_rows R /\
    rref_form p R q /\ (forall j, 0 <= j < cm U -> get q j = -1 <-> get qinv j = -1) /\
    (forall i, 0 <= i < cn U -> in_rowspace p U (entry R i)) /\
    (forall i, 0 <= i < cn U -> in_rowspace p R (entry U i))).
Proof.
  intros HU Hp Hp2 Hx HUp Hpf Hscr HRq Hbig.
  pose proof (wf_n U HU) as Hn. pose proof (wf_m U HU) as Hm. pose proof (wf_len U HU) as Hlen. pose proof (wf_nnz U HU) as Hnz.
  pose proof (up_len _ _ _ HUp) as Hql. pose proof (up_rng _ _ _ HUp) as Hqr.
  unfold rref. apply sat_bind, sat_aget; [lia|]. fold (nnz U). set (R0 := csr_alloc g (cn U) (cm U) (nnz U) (cprime U) true).
  apply sat_bind. eapply sat_mono.
  { apply (all_tasks_ok ([], fun _ => 0) (cn U) _ (fun i T x => rref_spec U qinv p i T (fst x) (snd x))).
    - lia.
    - intros i Hi. eapply sat_mono; [apply (rref_task_ok U qinv p HU Hp Hp2 Hx HUp Hpf (scr i) i); auto|].
      cbv beta. intros T (row & y & H). exists (row, y). exact H. }
  cbv beta. intros ts (Hts & xs & Hxs & HT).
  set (T := getd idle ts) in *. set (row := fun t => fst (getd ([], fun _ => 0) xs t)). set (y := fun t => snd (getd ([], fun _ => 0) xs t)).
  assert (HTk : forall t, 0 <= t < cn U -> rref_spec U qinv p t (T t) (row t) (y t)) by exact HT.
  assert (HTn : forall t, ~ 0 <= t < cn U -> T t = idle). { intros t Ht. unfold T. apply getd_out. lia. }
  clear HT. clearbody T row y. clear ts Hts xs Hxs.
  apply sat_bind. eapply sat_mono.
  { apply (par_rows g ch T (cn U) (cn U) (cm U) (cprime U) row R0).
    - lia.
    - intros t Ht _. apply (HTk t Ht).
    - intros t [Ht|Ht]; auto. destruct (Z_lt_le_dec t 0); [apply HTn; lia|]. destruct (Z_lt_le_dec t (cn U)); [|apply HTn; lia].
      destruct (HTk t) as [E _]; [lia|congruence].
    - rewrite (sum_ext 0 (cn U) _ (fun _ => 1)). { rewrite sum_const by lia. lia. }
      intros i Hi. destruct (HTk i Hi) as [-> _]. reflexivity.
    - unfold R0, csr_alloc, rows_mem. cbn [cp cj cx]. rewrite len_upd, len_malloc. lia.
    - unfold R0, csr_alloc, rows_mem. cbn [cp cj cx]. apply get_upd_eq. rewrite len_malloc. lia.
    - unfold R0, csr_alloc, rows_mem. cbn [cp cj cx]. now rewrite !len_malloc. }
  cbv beta. intros h (o & Ho & Hlo & HR). rewrite (actives_all T (cn U)) in Ho by (intros t Ht; destruct (HTk t Ht); auto).
  assert (Hperm : is_perm (cn U) o) by (apply Permutation_is_perm; auto; lia). pose proof Hperm as [Pl [Pr Pi]].
  assert (HoT : forall t, In t o -> 0 <= t < cn U). { intros t Ht. apply In_zseq. apply (Permutation_in _ Ho Ht). }
  set (R := Csr (cn U) (cm U) (s_mem h SP) (s_mem h SJ) (Some (s_mem h SX)) (cprime U)) in *.
  assert (WR : wf R).
  { apply (has_rows_wf R (map row o) HR); auto. intros r [c v] Hr He. apply in_map_iff in Hr. destruct Hr as (t & <- & Ht).
    destruct (HTk t (HoT t Ht)) as (_ & _ & _ & _ & H & _). cbn. apply (H c v He). }
  assert (Hrow : forall k, 0 <= k < cn U -> rowl R k = row (get o k)).
  { intros k Hk. rewrite (has_rows_rowl R _ HR k Hk). rewrite (getd_map row 0) by lia. reflexivity. }
  assert (Hspec : forall k, 0 <= k < cn U -> rref_spec U qinv p (get o k) (T (get o k)) (row (get o k)) (y (get o k))).
  { intros k Hk. apply HTk. auto. }
  (* no overflow *)
  assert (HnzR : nnz R < 2 ^ 31).
  { rewrite (has_rows_nnz R _ HR). rewrite <- lsum_len_rows. eapply Z.le_lt_trans; [|exact Hbig].
    rewrite <- Hlo at 1. apply lsum_bound. intros t Ht. destruct (HTk t (HoT t Ht)) as (_ & _ & (rest & E) & HN & Hc & _).
    rewrite E in *. rewrite len_cons. enough (len rest <= cm U - cn U) by lia.
    rewrite <- (count_free p U qinv HU HUp). cbn [map fst] in HN. inversion HN; subst.
    rewrite <- (len_map fst). eapply Z.le_trans; [apply (len_count (map fst rest) (cm U) (fun c => negb (0 <=? get qinv c))); auto|].
    - intros c Hin. apply in_map_iff in Hin. destruct Hin as ([c' v] & <- & He). cbn [fst].
      destruct (Hc c' v (or_intror He)) as (H3 & _ & _ & H4). split; auto. rewrite H4; [reflexivity|].
      intros ->. apply H1. apply in_map_iff. exists (pcol U t, v). auto.
    - apply Z.eq_le_incl. apply sum_ext. intros c _. destruct (0 <=? get qinv c); reflexivity. }
  (* the first entries *)
  assert (Hfst : forall k, 0 <= k < cn U -> rbeg R k < rend R k /\ get (cj R) (rbeg R k) = pcol U (get o k) /\ val R (rbeg R k) = 1).
  { intros k Hk. destruct (Hspec k Hk) as (_ & _ & (rest & E) & _). apply (rowl_first R k _ _ rest).
    - pose proof (wf_row R WR k Hk). lia.
    - rewrite Hrow; auto. }
  assert (Hpc : forall k, 0 <= k < cn U -> 0 <= pcol U (get o k) < cm U) by (intros k Hk; apply (pcol_range U qinv HU Hpf); auto).
  assert (Hpq : forall k, 0 <= k < cn U -> get qinv (pcol U (get o k)) = get o k) by (intros k Hk; apply (pcol_qinv U qinv Hpf); auto).
  (* Rqinv *)
  apply sat_bind. eapply sat_mono.
  { apply (for_spec (fun k q => len q = cm U /\ forall j, 0 <= j < k -> get q j = -1)).
    - lia.
    - split; auto. intros; lia.
    - intros k q Hk [L1 L2]. apply sat_aset; [lia|]. rewrite len_upd. split; auto. intros j Hj. rewrite get_upd_in by lia.
      destruct (Z.eqb_spec k j); auto. apply L2. lia.
    - intros q Hq. exact Hq. }
  cbv beta. intros q0 [Lq0 Hq0].
  apply sat_bind. eapply sat_mono.
  { apply (for_spec (fun k q => len q = cm U /\
      (forall i, 0 <= i < k -> get q (pcol U (get o i)) = i) /\
      (forall j, 0 <= j < cm U -> get q j = -1 \/ 0 <= get q j < k /\ pcol U (get o (get q j)) = j))).
    - lia.
    - split; auto. split; [intros; lia|auto].
    - intros k q Hk (L1 & L2 & L3). pose proof (wf_row R WR k Hk) as Hrw. pose proof (wf_len R WR) as HlR. destruct (Hfst k Hk) as (F1 & F2 & F3).
      pose proof (wf_nnz R WR). specialize (Hpc k Hk).
      apply sat_bind, sat_aget; [change (s_mem h SP) with (cp R); cbn [R cn] in HlR; lia|].
      change (get (s_mem h SP) k) with (rbeg R k). rewrite to_i32_id by lia.
      apply sat_bind, sat_aget; [change (s_mem h SJ) with (cj R); lia|]. change (s_mem h SJ) with (cj R). rewrite F2.
      apply sat_aset; [lia|]. rewrite len_upd. split; auto. split.
      + intros i Hi. rewrite get_upd_in by lia. destruct (Z.eqb_spec (pcol U (get o k)) (pcol U (get o i))) as [E|E].
        * assert (get o k = get o i) by (rewrite <- (Hpq k), <- (Hpq i) by lia; congruence). apply Pi; auto; lia.
        * apply L2. assert (i <> k) by congruence. lia.
      + intros j Hj. rewrite !get_upd_in by lia. destruct (Z.eqb_spec (pcol U (get o k)) j) as [E|E].
        * right. split; [lia|auto].
        * destruct (L3 j Hj) as [|[? ?]]; auto. right. split; [lia|auto].
    - intros q Hq. exact Hq. }
  cbv beta. intros q (L1 & L2 & L3). cbn [sat].
  assert (Hq1 : forall j, 0 <= j < cm U -> get q j = -1 <-> get qinv j = -1).
  { intros j Hj. split; intros E.
    - destruct (Z_lt_le_dec (get qinv j) 0). { specialize (Hqr j Hj). lia. } exfalso.
      pose proof (Hqr j Hj) as Hr. destruct (perm_surj (cn U) o (get qinv j) Hperm ltac:(lia)) as (k & Hk & Ek).
      specialize (L2 k Hk). rewrite Ek, (qinv_pcol U qinv p HU HUp Hpf j Hj l) in L2. lia.
    - destruct (L3 j Hj) as [|[H1 H2]]; auto. exfalso. pose proof (Hpq (get q j) H1) as H3. rewrite H2 in H3. specialize (Pr (get q j) H1). lia. }
  split; [auto|]. split; [auto|]. split; [auto|]. split; [auto|].
  assert (Hnd : nodup_rows R).
  { apply rows_nodup; auto. intros k Hk. rewrite Hrow by auto. destruct (Hspec k Hk) as (_ & _ & _ & H & _). exact H. }
  split. { apply rows_reduced; auto. { cbn. congruence. } intros k c v Hk He. rewrite Hrow in He by auto.
    destruct (Hspec k Hk) as (_ & _ & _ & _ & H & _). cbn [R cprime]. rewrite Hp. apply (H c v He). }
  split. { apply rows_no_zero; auto. intros k c v Hk He. rewrite Hrow in He by auto.
    destruct (Hspec k Hk) as (_ & _ & _ & _ & H & _). apply (H c v He). }
  split; [auto|].
  split. { constructor.
    - exact L1.
    - intros k Hk. destruct (Hfst k Hk) as (F1 & F2 & _). rewrite F2. auto.
    - intros j Hj. destruct (L3 j Hj) as [|[H1 H2]]; auto. right. split; auto. destruct (Hfst _ H1) as (_ & -> & _). auto.
    - intros k Hk. destruct (Hfst k Hk) as (_ & _ & ->). apply cong_refl.
    - intros k px Hk Hpx. destruct (Hfst k Hk) as (F1 & F2 & _). destruct (Hspec k Hk) as (_ & _ & _ & _ & H & _).
      destruct (H (get (cj R) px) (val R px)) as (Hc & _ & _ & Hf).
      { rewrite <- Hrow by auto. apply In_rowl. exists px. split; [lia|auto]. }
      apply Hq1; auto. apply Hf. intros E. rewrite <- F2 in E. apply (Hnd k) in E; auto; lia. }
  split; [auto|].
  assert (Hin : forall k j, 0 <= k < cn U -> 0 <= j < cm U -> cong p (entry R k j) (xA U (y (get o k)) j)).
  { intros k j Hk Hj. rewrite (entry_rowl R), Hrow by auto. destruct (Hspec k Hk) as (_ & _ & _ & _ & _ & H). auto. }
  split. { intros k Hk. exists (y (get o k)). intros j Hj. rewrite Hin by auto. apply cong_refl. }
  (* U in the row space of R *)
  intros i Hi. set (z := fun k => entry U i (pcol U (get o k))). exists z.
  set (d := fun r => (if r =? i then 1 else 0) - sum 0 (cn U) (fun k => z k * y (get o k) r)).
  assert (Hd : forall j, 0 <= j < cm U -> cong p (xA U d j) (entry U i j - xA R z j)).
  { intros j Hj. unfold d. rewrite xA_sub, xA_delta by auto. rewrite (xA_sum U 0 (cn U) (fun k r => z k * y (get o k) r)).
    rewrite Z.mul_1_l. apply cong_sub; [apply cong_refl|]. unfold xA at 2. cbn [R cn]. apply sum_cong. intros k Hk.
    rewrite xA_scale. apply cong_mul; [apply cong_refl|]. apply cong_sym, Hin; auto. }
  assert (Hpiv : forall k r, 0 <= k < cn U -> 0 <= r < cn U -> entry R k (pcol U (get o r)) = if k =? r then 1 else 0).
  { intros k r Hk Hr. rewrite (entry_rowl R), Hrow by auto. destruct (Hspec k Hk) as (_ & _ & (rest & E) & HN & Hc & _).
    rewrite E in *. rewrite lentry_cons. cbn [map fst] in HN. inversion HN; subst. rewrite lentry_absent.
    - destruct (Z.eqb_spec k r) as [->|Hne]; [now rewrite Z.eqb_refl|].
      destruct (Z.eqb_spec (pcol U (get o k)) (pcol U (get o r))) as [E'|]; auto. exfalso. apply Hne. apply Pi; auto.
      rewrite <- (Hpq k), <- (Hpq r) by auto. congruence.
    - intros Hi'. apply in_map_iff in Hi'. destruct Hi' as ([c v] & Ec & He). cbn in Ec. subst c.
      destruct (Hc _ v (or_intror He)) as (_ & _ & _ & Hf).
      assert (Hne : pcol U (get o r) <> pcol U (get o k)). { intros E'. apply H1. rewrite <- E'. apply in_map_iff. exists (pcol U (get o r), v). auto. }
      specialize (Hf Hne). rewrite Hpq in Hf by auto. specialize (Pr r Hr). lia. }
  assert (Hv : forall j, cong p (xA U d j) 0).
  { apply (upper_vanish p U qinv HU HUp). intros j Hj Hq. pose proof (Hqr j Hj) as Hr.
    destruct (perm_surj (cn U) o (get qinv j) Hperm ltac:(lia)) as (k & Hk & Ek).
    assert (Ej : j = pcol U (get o k)). { rewrite Ek. symmetry. apply (qinv_pcol U qinv p HU HUp Hpf j Hj Hq). }
    rewrite Hd by auto. unfold xA. cbn [R cn]. rewrite (sum_single 0 (cn U) _ k); auto.
    - rewrite Ej at 2. rewrite Hpiv, Z.eqb_refl by auto. unfold z. rewrite <- Ej. apply cong_eq. ring.
    - intros k' Hk' Hne. rewrite Ej, Hpiv by auto. replace (k' =? k) with false by lia. ring. }
  intros j Hj. specialize (Hv j). rewrite Hd in Hv by auto. 
  replace (entry U i j) with (xA R z j + (entry U i j - xA R z j)) by ring.
  rewrite Hv. apply cong_eq. ring.
Qed.

(** ** Kernel *)
(* sums over the pivotal columns *)
Lemma sum_pivots p U qinv col (f : Z -> Z -> Z) : wf U -> upper p U qinv ->
  (forall i, 0 <= i < cn U -> 0 <= col i < cm U /\ get qinv (col i) = i) ->
  sum 0 (cm U) (fun c => if 0 <=? get qinv c then f c (get qinv c) else 0) = sum 0 (cn U) (fun r => f (col r) r).
Proof.
  intros HU HUp Hcol.
  rewrite (sum_ext 0 (cm U) _ (fun c => sum 0 (cn U) (fun r => if get qinv c =? r then f c r else 0))).
  - rewrite sum_swap. apply sum_ext. intros r Hr. destruct (Hcol r Hr) as [H1 H2].
    rewrite (sum_single 0 (cm U) _ (col r)); auto. { now rewrite H2, Z.eqb_refl. }
    intros c Hc Hn. destruct (Z.eqb_spec (get qinv c) r) as [E|]; auto. exfalso. apply Hn.
    apply (up_inj _ _ _ HUp); auto; lia.
  - intros c Hc. pose proof (up_rng _ _ _ HUp c Hc). destruct (Z.leb_spec 0 (get qinv c)).
    + rewrite (sum_single 0 (cn U) _ (get qinv c)); [now rewrite Z.eqb_refl|lia|].
      intros r Hr Hn. now replace (get qinv c =? r) with false by lia.
    + symmetry. apply sum_zero. intros r Hr. now replace (get qinv c =? r) with false by lia.
Qed.

Section kernel_task.
Context (U Ut : csr) (qinv Utq : list Z) (p : Z).
Context (HU : wf U) (Hp : cprime U = p) (Hp2 : 2 <= p) (HUp : upper p U qinv).
Context (HT : wf Ut) (HTn : cn Ut = cm U) (HTm : cm Ut = cn U) (HTp : cprime Ut = p) (HTx : cx Ut <> None).
Context (HTe : forall i j, 0 <= i < cn U -> 0 <= j < cm U -> entry Ut j i = entry U i j).
Context (HTs : forall i j, 0 <= i < cn U -> 0 <= j < cm U -> stored Ut j i <-> stored U i j).
Context (Lq : len Utq = cn U) (Hq : forall i, 0 <= i < cn U -> 0 <= get Utq i < cm U /\ get qinv (get Utq i) = i).
Local Notation m := (cm U). Local Notation n := (cn U).

Definition kernel_spec (j : Z) (T : task) (row : list (Z * Z)) : Prop :=
  t_act T = true /\ row_task T row /\ (exists rest, row = (j, -1) :: rest) /\ NoDup (map fst row) /\
  (forall c v, In (c, v) row -> 0 <= c < m /\ v <> 0 /\ (c = j /\ v = -1 \/ 0 <= get qinv c /\ balanced p v)) /\
  in_kernel p U (fun c => lentry c row).

Lemma Ut_qinv_ok : qinv_ok Ut Utq.
Proof. split; [lia|]. intros i Hi. destruct (Hq i); lia. Qed.
Lemma Ut_edge a b : edge Ut Utq a b -> 0 <= a < n /\ 0 <= b <= a.
Proof.
  intros He. pose proof (edge_range Ut HT Utq Ut_qinv_ok a b He) as Hb. destruct He as (E1 & E2 & E3).
  assert (Ha : 0 <= a < n) by lia. destruct (Hq a Ha) as [H1 H2]. apply HTs in E3; try lia.
  split; auto. split; [lia|]. destruct (Z_le_gt_dec b a); auto. exfalso.
  apply (up_tri _ _ _ HUp (get Utq a) b); auto; lia.
Qed.
Lemma Ut_acyclic : acyclic Ut Utq.
Proof.
  assert (M : forall a b, path Ut Utq a b -> b <= a).
  { intros a b H. induction H; [lia|]. apply Ut_edge in H0. lia. }
  intros a b He Hne Hp'. apply M in Hp'. apply Ut_edge in He. lia.
Qed.

Lemma kernel_task_ok scr j : scr_ok n scr -> 0 <= j < m ->
  sat (kernel_task Ut qinv Utq scr j) (fun T => if 0 <=? get qinv j then T = idle else exists row, kernel_spec j T row).
Proof.
  intros Hs Hj. destruct scr as [[[xj0 ps0] mk0] x0]. destruct Hs as (S1 & S2 & S3 & S4 & S5).
  pose proof (up_len _ _ _ HUp) as Hql. unfold kernel_task. rewrite HTm. apply sat_bind, sat_aget; [lia|].
  rewrite Z.geb_leb. destruct (Z.leb_spec 0 (get qinv j)) as [Hpiv|Hpiv]; [reflexivity|].
  apply sat_bind. eapply sat_mono.
  { apply (sparse_triangular_solve_spec Ut Ut j Utq xj0 ps0 mk0 x0 p); auto; try lia; try (rewrite HTm; assumption).
    - apply Ut_qinv_ok.
    - apply Ut_acyclic.
    - intros i Hi _. destruct (Hq i) as [H1 H2]; [lia|]. rewrite HTe by lia.
      pose proof (up_unit _ _ _ HUp (get Utq i) H1 ltac:(lia)) as Hu. now rewrite H2 in Hu. }
  cbv beta. rewrite HTm. intros [[[[top xj] ps] mk] x] (Ht & Lj & _ & _ & _ & Hjr & Hji & _ & Lx & _ & Hbal & X & X1 & X0 & HX).
  set (cnt := fun l => if get x (get xj l) =? 0 then 0 else 1).
  apply sat_bind. eapply sat_mono.
  { apply (for_spec (fun px a => a = 1 + sum top px cnt)).
    - lia.
    - now rewrite sum_empty by lia.
    - intros px a Hpx Ha. specialize (Hjr px Hpx).
      apply sat_bind, sat_aget; [lia|]. apply sat_bind, sat_aget; [lia|]. rewrite sum_S by lia. unfold cnt at 2.
      destruct (get x (get xj px) =? 0); cbn [sat]; lia.
    - intros s Hs. exact Hs. }
  cbv beta. intros rn Hrn.
  apply sat_bind. eapply sat_mono.
  { apply (for_spec (fun px '(prog, a) => exists rest, let sr := (j, -1) :: rest in
      PI prog [] sr [] /\ a = len sr /\ len sr = 1 + sum top px cnt /\
      (forall c v, In (c, v) rest -> exists l, top <= l < px /\ c = get Utq (get xj l) /\ v = get x (get xj l) /\ v <> 0) /\
      NoDup (map fst rest) /\
      (forall c, 0 <= c < m -> lentry c rest = sum top px (fun l => if get xj l =? get qinv c then X (get xj l) else 0)))).
    - lia.
    - exists []. cbv zeta. split. { exact (PI_s [] [] [] [] j (-1) PI_nil). }
      split; [auto|]. rewrite sum_empty by lia. split; [auto|]. split; [easy|]. split; [constructor|].
      intros c _. now rewrite sum_empty by lia.
    - intros px [prog a] Hpx (rest & I). cbv zeta in I. destruct I as (I1 & Ia & I2 & I3 & I4 & I5).
      pose proof (Hjr px Hpx) as Hr. destruct (Hq (get xj px) Hr) as [Hc1 Hc2].
      apply sat_bind, sat_aget; [lia|]. apply sat_bind, sat_aget; [lia|].
      assert (EX : X (get xj px) = get x (get xj px)) by auto.
      set (r := get xj px) in *. set (v := get x r) in *.
      destruct (Z.eqb_spec v 0) as [Ev|Ev].
      + cbn [sat]. exists rest. cbv zeta. rewrite sum_S by lia. unfold cnt at 2. fold r. fold v. rewrite Ev. cbn [Z.eqb].
        split; [auto|]. split; [auto|]. split; [lia|].
        split. { intros c w Hc. destruct (I3 c w Hc) as (l & ? & ?). exists l. split; [lia|auto]. }
        split; [auto|]. intros c Hc. rewrite sum_S by lia. rewrite <- I5 by auto. fold r. rewrite EX, Ev. destruct (r =? get qinv c); lia.
      + apply sat_bind, sat_aget; [lia|]. cbn [sat]. exists (rest ++ [(get Utq r, v)]). cbv zeta.
        rewrite sum_S by lia. unfold cnt at 2. fold r. fold v. replace (v =? 0) with false by lia.
        rewrite !app_comm_cons. split. { subst a. apply PI_s. auto. } split; [rewrite len_snoc; lia|]. split; [rewrite len_snoc; lia|].
        split. { intros c w Hc. rewrite in_app_iff in Hc. destruct Hc as [Hc|[[= <- <-]|[]]].
          - destruct (I3 c w Hc) as (l & ? & ?). exists l. split; [lia|auto].
          - exists px. split; [lia|]. auto. }
        split. { rewrite map_app. apply NoDup_snoc; auto. cbn [fst]. rewrite in_map_iff. intros ((c & w) & Ec & Hc). cbn in Ec.
          destruct (I3 c w Hc) as (l & Hl & El & _). assert (Er : get xj l = r).
          { destruct (Hq (get xj l) ltac:(apply Hjr; lia)) as [_ E1]. rewrite <- E1, <- Hc2. congruence. }
          assert (l = px) by (apply Hji; try lia; congruence). lia. }
        intros c Hc. rewrite sum_S by lia. rewrite <- I5 by auto. fold r. rewrite EX, lentry_app, lentry_cons. fold v.
        unfold lentry at 2. cbn [lsum fold_right]. replace (get Utq r =? c) with (r =? get qinv c). { destruct (r =? get qinv c); lia. }
        apply Bool.eq_iff_eq_true. rewrite !Z.eqb_eq. split; intros E.
        * apply (up_inj _ _ _ HUp); auto; lia.
        * subst c. auto.
    - intros s Hs. exact Hs. }
  cbv beta. intros [prog a] (rest & I). cbv zeta in I. destruct I as (I1 & Ia & I2 & I3 & I4 & I5). cbn [sat].
  set (sr := (j, -1) :: rest) in *. exists sr. subst a. destruct (PI_close _ _ _ _ I1) as (C1 & C2 & C3 & C4 & C5).
  assert (Hin : forall c v, In (c, v) rest -> 0 <= c < m /\ v <> 0 /\ 0 <= get qinv c /\ balanced p v).
  { intros c v Hc. destruct (I3 c v Hc) as (l & Hl & -> & -> & Hv). destruct (Hq (get xj l) (Hjr l Hl)) as [H1 H2].
    split; [auto|]. split; [auto|]. split; [rewrite H2; apply Hjr; auto|]. auto. }
  unfold kernel_spec. cbn [t_act]. split; [auto|].
  split. { unfold row_task. cbn [t_need t_extra t_ssz t_lsz t_prog]. split; [lia|]. split; [lia|]. split; [lia|]. split; [auto|]. split; [auto|].
    split; [auto|]. intros w Hw. specialize (C5 w Hw). change (len (@nil (Z * Z * Z))) with 0 in C5. destruct (w_buf w); auto; try lia; easy. }
  split; [exists rest; reflexivity|].
  split. { unfold sr. cbn [map fst]. constructor; auto. intros Hi. apply in_map_iff in Hi. destruct Hi as ([c v] & Ec & Hi). cbn in Ec. subst c.
    destruct (Hin j v Hi) as (_ & _ & H & _). lia. }
  split. { intros c v [[= <- <-]|Hc].
    - split; [auto|]. split; [lia|]. auto.
    - destruct (Hin c v Hc) as (H1 & H2 & H3 & H4). auto 6. }
  assert (Hl : forall c, 0 <= c < m -> lentry c sr = (if c =? j then -1 else 0) + (if 0 <=? get qinv c then X (get qinv c) else 0)).
  { intros c Hc. unfold sr. rewrite lentry_cons, I5 by auto. rewrite (Z.eqb_sym j c). f_equal.
    destruct (Z.leb_spec 0 (get qinv c)).
    - exact (pattern_lentry xj top n X (fun _ => true) (get qinv c) Hji X0).
    - rewrite sum_zero; auto. intros l Hl. specialize (Hjr l Hl). now replace (get xj l =? get qinv c) with false by lia. }
  intros i Hi. unfold Av.
  rewrite (sum_ext 0 m _ (fun c => (if c =? j then - entry U i j else 0) + (if 0 <=? get qinv c then X (get qinv c) * entry U i c else 0))).
  2:{ intros c Hc. rewrite Hl by auto. destruct (Z.eqb_spec c j) as [->|]; destruct (0 <=? get qinv _); ring. }
  rewrite sum_add, sum_delta. replace ((0 <=? j) && (j <? m)) with true by lia.
  rewrite (sum_pivots p U qinv (get Utq) (fun c r => X r * entry U i c) HU HUp Hq).
  specialize (HX i ltac:(lia)). rewrite HTe in HX by lia. destruct (Hq i Hi) as [Hi1 _].
  replace (get Utq i <? 0) with false in HX by lia. rewrite Z.add_0_r in HX.
  rewrite (sum_ext 0 n _ (fun r => X r * entry U i (get Utq r))) in HX.
  - rewrite HX. apply cong_eq. ring.
  - intros r Hr. destruct (Hq r Hr) as [H1 _]. replace (0 <=? get Utq r) with true by lia. rewrite HTe by lia. ring.
Qed.
End kernel_task.

Lemma Av_sub A u v i : Av A (fun j => u j - v j) i = Av A u i - Av A v i.
Proof. unfold Av. rewrite <- sum_sub. apply sum_ext. intros; ring. Qed.
Lemma Av_xA A K y i : cm K = cm A -> Av A (xA K y) i = sum 0 (cn K) (fun k => y k * Av A (entry K k) i).
Proof.
  intros Hm. unfold Av, xA.
  rewrite (sum_ext 0 (cm A) _ (fun j => sum 0 (cn K) (fun k => entry A i j * (y k * entry K k j)))).
  2:{ intros j _. now rewrite sum_scale. }
  rewrite sum_swap. apply sum_ext. intros k _. rewrite <- sum_scale. apply sum_ext. intros; ring.
Qed.
Lemma Av_cong p A u v i : (forall j, 0 <= j < cm A -> cong p (u j) (v j)) -> cong p (Av A u i) (Av A v i).
Proof. intros H. unfold Av. apply sum_cong. intros j Hj. now rewrite H. Qed.

(* a vector of the kernel that vanishes outside of the pivots is zero *)
Lemma kernel_trivial p U qinv w : wf U -> upper p U qinv -> in_kernel p U w ->
  (forall j, 0 <= j < cm U -> get qinv j < 0 -> cong p (w j) 0) -> forall j, 0 <= j < cm U -> cong p (w j) 0.
Proof.
  intros HU HUp Hw Hz. destruct (upper_columns p U qinv HU HUp) as (col & Hc1 & Hc2). pose proof (wf_n U HU) as Hn.
  assert (G : forall k, 0 <= k <= cn U -> forall r, cn U - k <= r < cn U -> cong p (w (col r)) 0).
  { apply (range_ind (fun k => forall r, cn U - k <= r < cn U -> cong p (w (col r)) 0) 0 (cn U)); [intros; lia|].
    intros k Hk IH r Hr. destruct (Z_lt_le_dec r (cn U - k)); [|apply IH; lia]. specialize (Hw r ltac:(lia)).
    assert (E : cong p (Av U w r) (sum 0 (cn U) (fun q => entry U r (col q) * w (col q)))).
    { rewrite <- (sum_pivots p U qinv col (fun c _ => entry U r c * w c) HU HUp Hc1). apply sum_cong. intros c Hc.
      destruct (Z.leb_spec 0 (get qinv c)); [apply cong_refl|]. rewrite (Hz c Hc) by lia. apply cong_eq. ring. }
    rewrite E in Hw. rewrite (sum_split r), (sum_first r) in Hw by lia.
    assert (S0 : cong p (sum 0 r (fun q => entry U r (col q) * w (col q))) 0).
    { apply sum_cong_0. intros q Hq. destruct (Hc1 q ltac:(lia)) as [H1 H2]. rewrite entry_absent; [apply cong_eq; ring|].
      apply (up_tri _ _ _ HUp (col q) r); auto; lia. }
    assert (S1 : cong p (sum (r + 1) (cn U) (fun q => entry U r (col q) * w (col q))) 0).
    { apply sum_cong_0. intros q Hq. rewrite (IH q) by lia. apply cong_eq. ring. }
    destruct (Hc1 r ltac:(lia)) as [H1 H2]. pose proof (up_unit _ _ _ HUp (col r) H1 ltac:(lia)) as Hu. rewrite H2 in Hu.
    rewrite S0, S1, Hu in Hw. rewrite <- Hw. apply cong_eq. ring. }
  intros j Hj. destruct (Z_lt_le_dec (get qinv j) 0); auto. rewrite <- (Hc2 j Hj l). pose proof (up_rng _ _ _ HUp j Hj).
  apply (G (cn U)); lia.
Qed.

(* rows equal to minus the identity outside of the pivots are a basis *)
Lemma kernel_basis_of p U qinv K o : wf U -> upper p U qinv -> cm K = cm U -> 0 <= cn K ->
  (forall k, 0 <= k < cn K -> in_kernel p U (entry K k)) ->
  (forall k, 0 <= k < cn K -> 0 <= get o k < cm U /\ get qinv (get o k) < 0) ->
  (forall j, 0 <= j < cm U -> get qinv j < 0 -> exists k, 0 <= k < cn K /\ get o k = j) ->
  (forall k k', 0 <= k < cn K -> 0 <= k' < cn K -> cong p (entry K k (get o k')) (if k =? k' then -1 else 0)) ->
  kernel_basis p U K.
Proof.
  intros HU HUp Hm Hn Hin Ho Hs He.
  assert (HxK : forall y k, 0 <= k < cn K -> cong p (xA K y (get o k)) (- y k)).
  { intros y k Hk. unfold xA. eapply cong_trans.
    - apply (sum_cong p 0 (cn K) _ (fun i => y i * (if i =? k then -1 else 0))). intros i Hi. rewrite (He i k Hi Hk). apply cong_refl.
    - rewrite (sum_single 0 (cn K) _ k); auto. + rewrite Z.eqb_refl. apply cong_eq. ring.
      + intros i Hi Hne. replace (i =? k) with false by lia. ring. }
  constructor; auto.
  - intros y Hy i Hi. specialize (HxK y i Hi). rewrite Hy in HxK by (rewrite Hm; apply Ho; auto).
    replace (y i) with (-1 * (- y i)) by ring. rewrite <- HxK. apply cong_eq. ring.
  - intros v Hv. set (y := fun k => - v (get o k)). exists y.
    assert (G : forall j, 0 <= j < cm U -> cong p (v j - xA K y j) 0).
    { apply (kernel_trivial p U qinv (fun j => v j - xA K y j) HU HUp).
      - intros i Hi. rewrite Av_sub, Av_xA by auto. rewrite (Hv i Hi). rewrite sum_cong_0; [apply cong_refl|].
        intros k Hk. rewrite (Hin k Hk i Hi). apply cong_eq. ring.
      - intros j Hj Hq. destruct (Hs j Hj Hq) as (k & Hk & <-). rewrite (HxK y k Hk). apply cong_eq. unfold y. ring. }
    intros j Hj. specialize (G j ltac:(lia)). replace (xA K y j) with (v j - (v j - xA K y j)) by ring. rewrite G. apply cong_eq. ring.
Qed.

Theorem kernel_ok g ch scr U qinv p :
  wf U -> cprime U = p -> 2 <= p -> cx U <> None -> upper p U qinv ->
  (forall j, 0 <= j < cm U -> scr_ok (cn U) (scr j)) ->
  sat (kernel g ch scr U qinv) (fun K =>
    wf K /\ cn K = cm U - cn U /\ cm K = cm U /\ cprime K = p /\ (3 <= p -> reduced K) /\
    (forall px, 0 <= px < nnz K -> val K px = -1 \/ balanced p (val K px)) /\ no_zero K /\ nodup_rows K /\
    kernel_basis p U K).
Proof.
  intros HU Hp Hp2 Hx HUp Hscr.
  pose proof (wf_n U HU) as Hn. pose proof (wf_m U HU) as Hm. pose proof (wf_len U HU) as Hlen. pose proof (wf_nnz U HU) as Hnz.
  pose proof (up_len _ _ _ HUp) as Hql. pose proof (up_rng _ _ _ HUp) as Hqr. pose proof (upper_n_le_m p U qinv HU HUp) as Hnm.
  unfold kernel. apply sat_bind, sat_assert; [lia|].
  apply sat_bind. eapply sat_mono; [apply (transpose_ok U HU g true)|]. cbv beta.
  intros Ut (T1 & T2 & T3 & T4 & T5 & T6 & T7 & _ & T9').
  assert (T9 : forall i j, 0 <= i < cn U -> 0 <= j < cm U -> stored Ut j i <-> stored U i j)
    by (intros i j Hi Hj; rewrite !stored_pattern, T9'; tauto || lia).
  assert (HTx : cx Ut <> None). { intros E. apply T6 in E. destruct E; [discriminate|congruence]. }
  apply sat_bind, sat_aget; [lia|]. fold (nnz U). set (K0 := csr_alloc g (cm U - cn U) (cm U) (nnz U) (cprime U) true).
  apply sat_bind. eapply sat_mono.
  { apply (for_spec (fun k q => len q = cn U /\ forall j, 0 <= j < k -> 0 <= get qinv j -> get q (get qinv j) = j)).
    - lia.
    - rewrite len_malloc. split; [lia|]. intros; lia.
    - intros k q Hk (L & Hq). specialize (Hqr k Hk). apply sat_bind, sat_aget; [lia|]. rewrite Z.geb_leb. destruct (Z.leb_spec 0 (get qinv k)).
      + apply sat_aset; [lia|]. rewrite len_upd. split; auto. intros j Hj H0. rewrite get_upd_in by lia.
        destruct (Z.eqb_spec (get qinv k) (get qinv j)) as [E|E].
        * apply (up_inj _ _ _ HUp); auto; lia.
        * apply Hq; auto. assert (j <> k) by congruence. lia.
      + cbn [sat]. split; auto. intros j Hj H0. apply Hq; auto. assert (j <> k) by (intros ->; lia). lia.
    - intros q Hq. exact Hq. }
  cbv beta. intros Utq (Lq & Hq0).
  assert (Hq : forall i, 0 <= i < cn U -> 0 <= get Utq i < cm U /\ get qinv (get Utq i) = i).
  { intros i Hi. destruct (up_row _ _ _ HUp i Hi) as (j & Hj & <-). rewrite (Hq0 j) by lia. auto. }
  apply sat_bind. eapply sat_mono.
  { apply (all_tasks_ok [] (cm U) _ (fun j T row => if 0 <=? get qinv j then T = idle else kernel_spec U qinv p j T row)).
    - lia.
    - intros j Hj. eapply sat_mono.
      + apply (kernel_task_ok U Ut qinv Utq p); auto; congruence.
      + cbv beta. intros T. destruct (0 <=? get qinv j); auto. intros ->. exists []. auto. }
  cbv beta. intros ts (Hts & xs & Hxs & HT).
  set (T := getd idle ts) in *. set (row := getd [] xs) in *.
  assert (HTn : forall t, ~ 0 <= t < cm U -> T t = idle). { intros t Ht. unfold T. apply getd_out. lia. }
  clearbody T row. clear ts Hts xs Hxs.
  assert (Hact : forall t, 0 <= t < cm U -> t_act (T t) = negb (0 <=? get qinv t)).
  { intros t Ht. specialize (HT t Ht). destruct (0 <=? get qinv t). { now rewrite HT. } now destruct HT as [-> _]. }
  assert (HTk : forall t, 0 <= t < cm U -> get qinv t < 0 -> kernel_spec U qinv p t (T t) (row t)).
  { intros t Ht Hq1. specialize (HT t Ht). now replace (0 <=? get qinv t) with false in HT by lia. }
  apply sat_bind. eapply sat_mono.
  { apply (par_rows g ch T (cm U) (cm U - cn U) (cm U) (cprime U) row K0).
    - lia.
    - intros t Ht Ha. rewrite Hact in Ha by auto. apply (HTk t Ht). lia.
    - intros t [Ht|Ht]; auto. destruct (Z_lt_le_dec t 0); [apply HTn; lia|]. destruct (Z_lt_le_dec t (cm U)); [|apply HTn; lia].
      rewrite Hact in Ht by lia. specialize (HT t ltac:(lia)). destruct (0 <=? get qinv t); [auto|discriminate].
    - rewrite <- (count_free p U qinv HU HUp). apply sum_ext. intros t Ht. rewrite Hact by auto. destruct (0 <=? get qinv t); reflexivity.
    - unfold K0, csr_alloc, rows_mem. cbn [cp cj cx]. rewrite len_upd, len_malloc. lia.
    - unfold K0, csr_alloc, rows_mem. cbn [cp cj cx]. apply get_upd_eq. rewrite len_malloc. lia.
    - unfold K0, csr_alloc, rows_mem. cbn [cp cj cx]. now rewrite !len_malloc. }
  cbv beta. intros h (o & Ho & Hlo & HR). set (K := Csr (cm U - cn U) _ _ _ _ _) in *. cbn [sat].
  assert (HoT : forall t, In t o <-> 0 <= t < cm U /\ get qinv t < 0).
  { intros t. split; intros Ht.
    - apply (Permutation_in _ Ho) in Ht. unfold actives, act in Ht. rewrite filter_In, In_zseq in Ht. destruct Ht as [H1 H2].
      rewrite Hact in H2 by auto. split; [auto|lia].
    - apply (Permutation_in _ (Permutation_sym Ho)). unfold actives, act. rewrite filter_In, In_zseq. split; [tauto|]. rewrite Hact by tauto. lia. }
  assert (Ndo : NoDup o). { apply (Permutation_NoDup (Permutation_sym Ho)). apply NoDup_filter, NoDup_zseq. }
  assert (HoK : forall k, 0 <= k < cn K -> 0 <= get o k < cm U /\ get qinv (get o k) < 0).
  { intros k Hk. apply HoT, get_In. cbn [K cn] in Hk. lia. }
  assert (WK : wf K).
  { apply (has_rows_wf K (map row o) HR); auto. intros r [c v] Hr He. apply in_map_iff in Hr. destruct Hr as (t & <- & Ht).
    apply HoT in Ht. destruct (HTk t (proj1 Ht) (proj2 Ht)) as (_ & _ & _ & _ & H & _). cbn. apply (H c v He). }
  assert (Hrow : forall k, 0 <= k < cn K -> rowl K k = row (get o k)).
  { intros k Hk. rewrite (has_rows_rowl K _ HR k Hk). rewrite (getd_map row 0) by (cbn [K cn] in Hk; lia). reflexivity. }
  assert (Hspec : forall k, 0 <= k < cn K -> kernel_spec U qinv p (get o k) (T (get o k)) (row (get o k))).
  { intros k Hk. destruct (HoK k Hk). apply HTk; auto. }
  split; [auto|]. split; [auto|]. split; [auto|]. split; [auto|].
  split. { intros Hp3. apply rows_reduced; auto. { cbn. congruence. } intros k c v Hk He. rewrite Hrow in He by auto.
    destruct (Hspec k Hk) as (_ & _ & _ & _ & H & _). change (cprime K) with (cprime U). rewrite Hp. destruct (H c v He) as (_ & _ & [[_ ->]|[_ H']]); auto.
    unfold balanced. pose proof (Z_div_mod_eq_full p 2). pose proof (Z.mod_pos_bound p 2). lia. }
  split. { intros px Hpx. destruct (row_exists K WK px Hpx) as (k & Hk & Hr).
    assert (He : In (get (cj K) px, val K px) (rowl K k)) by (apply In_rowl; exists px; auto). rewrite Hrow in He by auto.
    destruct (Hspec k Hk) as (_ & _ & _ & _ & H & _). destruct (H _ _ He) as (_ & _ & [[_ ->]|[_ H']]); auto. }
  split. { apply rows_no_zero; auto. intros k c v Hk He. rewrite Hrow in He by auto.
    destruct (Hspec k Hk) as (_ & _ & _ & _ & H & _). apply (H c v He). }
  split. { apply rows_nodup; auto. intros k Hk. rewrite Hrow by auto. destruct (Hspec k Hk) as (_ & _ & _ & H & _). exact H. }
  apply (kernel_basis_of p U qinv K o); auto.
  - cbn. lia.
  - intros k Hk i Hi. destruct (Hspec k Hk) as (_ & _ & _ & _ & _ & H). rewrite <- (H i Hi). apply cong_eq. unfold Av. apply sum_ext.
    intros j _. rewrite (entry_rowl K), Hrow by auto. reflexivity.
  - intros j Hj Hq1. assert (Hi : In j o) by (apply HoT; auto). apply In_get in Hi. destruct Hi as (k & Hk & E). exists k. split; [cbn [K cn]; lia|auto].
  - intros k k' Hk Hk'. apply cong_eq. rewrite (entry_rowl K), Hrow by auto. destruct (Hspec k Hk) as (_ & _ & (rest & E) & HN & Hc & _).
    destruct (HoK k' Hk') as [O1 O2].
    rewrite E in *. rewrite lentry_cons. cbn [map fst] in HN. inversion HN; subst. rewrite lentry_absent.
    + cbn [K cn] in Hk, Hk'. destruct (Z.eqb_spec k k') as [->|Hne]; [now rewrite Z.eqb_refl|].
      destruct (Z.eqb_spec (get o k) (get o k')) as [E'|]; auto. exfalso. apply Hne. apply (NoDup_get_inj o); auto; lia.
    + intros Hi. apply in_map_iff in Hi. destruct Hi as ([c v] & Ec & He). cbn in Ec. subst c.
      destruct (Hc _ v (or_intror He)) as (_ & _ & [[H3 _]|[H3 _]]); [|lia]. apply H1. rewrite <- H3. apply in_map_iff. exists (get o k', v). auto.
Qed.
