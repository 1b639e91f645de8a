(** Proofs about src/spasm_solve.c. *)
From Verif Require Import Base BaseFacts Spec SpecFacts Zp ZpFacts Mat MatFacts RowList Reach ReachProofs VecProofs TriProofs Solve.

Lemma upper_qinv_ok p U qinv : upper p U qinv -> qinv_ok U qinv.
Proof. intros H. split; [apply (up_len _ _ _ H)|]. intros j Hj. pose proof (up_rng _ _ _ H j Hj). lia. Qed.

(* triangular matrices have no alternating cycle *)
Lemma upper_acyclic p U qinv : wf U -> upper p U qinv -> acyclic U qinv.
Proof.
  intros HU H. pose proof (up_len _ _ _ H) as Hl.
  assert (M : forall a b, path U qinv a b -> 0 <= a < cm U -> a = b \/ (0 <= get qinv a /\ (get qinv b < 0 \/ get qinv a < get qinv b))).
  { intros a b Hp Ha. induction Hp as [a|a b c Hp IH He]; auto.
    specialize (IH Ha). destruct (Z.eq_dec a c); auto. right.
    pose proof (path_range U HU qinv (upper_qinv_ok _ _ _ H) a b Ha Hp) as Hb.
    pose proof (edge_range U HU qinv (upper_qinv_ok _ _ _ H) b c He) as Hc.
    destruct He as (He1 & He2 & He3).
    assert (Hbc : b = c \/ get qinv c < 0 \/ get qinv b < get qinv c).
    { destruct (Z.eq_dec b c); auto. right. destruct (Z_lt_dec (get qinv c) 0); auto. right.
      destruct (Z_lt_dec (get qinv b) (get qinv c)); auto. exfalso.
      destruct (Z.eq_dec (get qinv b) (get qinv c)) as [E|]; [apply (up_inj _ _ _ H) in E; auto|].
      apply (up_tri _ _ _ H c (get qinv b)); auto; [lia|]. apply (up_rng _ _ _ H). lia. }
    destruct IH as [->|IH]; [destruct Hbc; [congruence|lia]|].
    destruct Hbc as [<-|]; lia. }
  intros a b He Hne Hp.
  pose proof (edge_range U HU qinv (upper_qinv_ok _ _ _ H) a b He) as Hb.
  destruct He as (He1 & He2 & He3).
  destruct (M b a Hp Hb) as [E|(H1 & H2)]; [congruence|]. destruct H2 as [|H2]; [lia|].
  apply (up_tri _ _ _ H b (get qinv a)); auto; try lia. apply (up_rng _ _ _ H); lia.
Qed.

Lemma pivot_columns_ok p U qinv Uq : wf U -> upper p U qinv -> len Uq = cn U ->
  sat (pivot_columns qinv (cm U) Uq) (fun q => len q = cn U /\
    forall i, 0 <= i < cn U -> 0 <= get q i < cm U /\ get qinv (get q i) = i).
Proof.
  intros HU H Hl. unfold pivot_columns. pose proof (wf_m U HU).
  apply (for_spec (fun k q => len q = cn U /\
    forall j, 0 <= j < k -> 0 <= get qinv j -> get q (get qinv j) = j)).
  - lia.
  - split; auto. intros; lia.
  - intros k q Hk (L & Hq). pose proof (up_len _ _ _ H). pose proof (up_rng _ _ _ H k Hk).
    apply sat_bind, sat_aget; [lia|]. destruct (Z.eqb_spec (get qinv k) (-1)).
    + wp. split; auto. intros j Hj Hp. apply Hq; auto. assert (j <> k) by (intros ->; lia). lia.
    + apply sat_aset; [lia|]. len. split; auto. intros j Hj Hp. rewrite get_upd_in by lia.
      destruct (Z.eqb_spec (get qinv k) (get qinv j)) as [E|E].
      * apply (up_inj _ _ _ H) in E; auto; lia.
      * apply Hq; auto. assert (j <> k) by congruence. lia.
  - intros q (L & Hq). split; auto. intros i Hi. destruct (up_row _ _ _ H i Hi) as (j & Hj & <-).
    rewrite (Hq j) by lia. auto.
Qed.

(* (x * L) * U = x * (L * U) *)
Lemma xA_assoc L U x j : cm L = cn U -> 0 <= cn U ->
  xA U (xA L x) j = sum 0 (cn L) (fun i => x i * xA U (entry L i) j).
Proof.
  intros Hm Hn. unfold xA.
  rewrite (sum_ext 0 (cn U) _ (fun k => sum 0 (cn L) (fun i => x i * entry L i k * entry U k j))).
  2:{ intros k Hk. now rewrite sum_scale_r. }
  rewrite sum_swap. apply sum_ext. intros i Hi.
  rewrite <- sum_scale. apply sum_ext. intros k Hk. ring.
Qed.

Lemma xA_cong p A x y j : (forall i, 0 <= i < cn A -> cong p (x i) (y i)) -> cong p (xA A x j) (xA A y j).
Proof. intros H. apply sum_cong. intros i Hi. now rewrite (H i Hi). Qed.

Section solve.
Context (p : Z) (Hok : ok_modulus p) (Hprime : Znumtheory.prime p) (A : csr) (f : lu) (L : csr) (F : factors p A f L).
Local Notation U := (lu_U f).

(* the rows of U and of A span the same space *)
Lemma rowspace_A_U b : in_rowspace p A b -> in_rowspace p U b.
Proof.
  intros (y & Hy).
  assert (G : forall k, 0 <= k <= cn A -> exists z, forall j, 0 <= j < cm U -> cong p (xA U z j) (sum 0 k (fun i => y i * entry A i j))).
  { apply range_ind.
    - exists (fun _ => 0). intros j Hj. rewrite sum_empty by lia. apply cong_eq. unfold xA. apply sum_zero. intros; ring.
    - intros k Hk (z & Hz). destruct (fa_span _ _ _ _ F k Hk) as (w & Hw).
      exists (fun i => z i + y k * w i). intros j Hj. rewrite sum_S by lia.
      rewrite <- (Hz j Hj), <- (Hw j Hj). apply cong_eq. unfold xA.
      rewrite <- sum_scale, <- sum_add. apply sum_ext. intros; ring. }
  destruct (Z_le_dec 0 (cn A)).
  - destruct (G (cn A) ltac:(lia)) as (z & Hz). exists z. intros j Hj. rewrite Hz by auto.
    apply Hy. rewrite <- (fa_m _ _ _ _ F). auto.
  - exists (fun _ => 0). intros j Hj. rewrite <- Hy by (rewrite <- (fa_m _ _ _ _ F); auto). apply cong_eq.
    unfold xA. rewrite (sum_empty 0 (cn A)) by lia. apply sum_zero. intros; ring.
Qed.

Theorem solve_full y0 z0 Uq0 b x : len y0 = cm A -> len z0 = cn U -> len Uq0 = cn U -> cm A <= len b -> cn A <= len x ->
  (forall j, 0 <= j < cm A -> balanced p (get b j)) ->
  sat (solve y0 z0 Uq0 f b x) (fun '(ok, x') =>
    len x' = len x /\ (forall i, 0 <= i < cn A -> balanced p (get x' i)) /\
    (forall i, 0 <= i < cn A -> (forall k, 0 <= k < cn U -> get (lu_p f) k <> i) -> get x' i = 0) /\
    (forall j, 0 <= j < cm A -> 0 <= get (lu_qinv f) j -> cong p (xA A (get x') j) (get b j)) /\
    (ok = true <-> in_rowspace p A (get b)) /\
    (ok = true -> forall j, 0 <= j < cm A -> cong p (xA A (get x') j) (get b j))).
Proof.
  intros Ly Lz Lq Lb Lx Hb. unfold ok_modulus in Hok.
  destruct F as [F1 F2 F3 F4 F5 F6 F7 F8 F9 F10 F11 F12 F13 F14 F15].
  pose proof (wf_m U F2) as Hm0. pose proof (wf_n U F2) as Hn0.
  unfold solve. rewrite F1. cbn [deref bind].
  apply sat_bind. eapply sat_mono; [apply (pivot_columns_ok p U _ Uq0 F2 F12 Lq)|]. intros Uq (LUq & HUq).
  apply sat_bind.
  apply (for_spec (fun k y => len y = cm U /\ forall j, 0 <= j < k -> get y j = get b j)).
  { lia. } { split; [lia|]. intros; lia. }
  { intros k y Hk (L1 & Z1). wp; try lia. len. split; auto. intros i Hi. rewrite get_upd_in by lia.
    destruct (Z.eqb_spec k i); [congruence|]. apply Z1. lia. }
  intros y (Ly' & Hy). apply sat_bind.
  destruct F4 as (F4 & _). destruct F5 as (F5 & F5').
  eapply sat_mono.
  { apply (dense_forward_solve_ok U F2 ltac:(lia) F4 (Some Uq)).
    - intros l E. inversion E. subst l. auto.
    - intros i Hi. apply HUq. auto.
    - intros i Hi. destruct (HUq i Hi) as (R & E). rewrite F6. cbn [oapply]. pose proof (up_unit _ _ _ F12 (get Uq i) R) as HH. rewrite E in HH. apply HH. lia.
    - intros i k Hi Hk. destruct (HUq k ltac:(lia)) as (R & E). cbn [oapply]. rewrite entry_absent; [apply cong_refl|].
      apply (up_tri _ _ _ F12); auto; lia.
    - lia.
    - lia.
    - intros j Hj. rewrite Hy by auto. rewrite F6. apply Hb. lia. }
  intros [[ok y'] z] (_ & Lz' & Bz & Hfw & Hpv & Hok1 & Hok2). rewrite F6 in *.
  apply sat_bind. eapply sat_mono.
  { rewrite <- F7 in Hok, Hprime.
    apply (dense_back_solve_ok L F3 Hok Hprime F5 F11 F5' (Some (lu_p f))).
    - intros l E. inversion E. subst l. apply (lo_len _ _ _ F13).
    - apply (lo_rng _ _ _ F13).
    - rewrite F7. apply (lo_diag _ _ _ F13).
    - rewrite F7. apply (lo_tri _ _ _ F13).
    - rewrite F10. lia.
    - rewrite F9. exact Lx. }
  intros [z' x'] (_ & Lx' & Bx & Sx & Cx). rewrite F7 in *. wp.
  assert (R : ok = true <-> in_rowspace p U (get b)).
  { rewrite Hok1. unfold in_rowspace. split; intros (w & Hw); exists w; intros j Hj; specialize (Hw j Hj); rewrite ?Hy in * by lia; auto. }
  assert (G0 : forall j, 0 <= j < cm A -> cong p (xA A (get x') j) (xA U (get z) j)).
  { intros j Hj. rewrite <- (xA_cong p U (xA L (get x')) (get z) j) by (intros; apply Cx; lia).
    rewrite xA_assoc by auto. unfold xA at 1. rewrite F9. apply sum_cong. intros i Hi.
    destruct (in_dec Z.eq_dec i (map (get (lu_p f)) (zseq 0 (cn U)))) as [Hin|Hin].
    - apply in_map_iff in Hin. destruct Hin as (k & <- & Hk). apply In_zseq in Hk. now rewrite (F15 k j).
    - rewrite (Sx i); [apply cong_eq; ring|lia|]. intros k Hk E'. apply Hin, in_map_iff. exists k. rewrite In_zseq. split; auto. lia. }
  assert (G : ok = true -> forall j, 0 <= j < cm A -> cong p (xA A (get x') j) (get b j)).
  { intros E j Hj. rewrite <- (Hy j) by lia. rewrite <- (Hok2 E j) by lia. now apply G0. }
  split; auto. split; [intros; apply Bx; lia|]. split.
  { intros i Hi Hk. apply Sx; [lia|]. intros k Hk'. apply Hk. lia. }
  split.
  { intros j Hj Hq. rewrite (G0 j Hj), <- (Hy j) by lia. rewrite (Hfw j) by lia.
    pose proof (up_rng _ _ _ F12 j ltac:(lia)). destruct (HUq (get (lu_qinv f) j) ltac:(lia)) as (Rj & Ej).
    assert (E : get Uq (get (lu_qinv f) j) = j) by (apply (up_inj _ _ _ F12); auto; lia).
    pose proof (Hpv (get (lu_qinv f) j) ltac:(lia)) as Z0. cbn [oapply] in Z0. rewrite E in Z0. rewrite Z0. apply cong_eq. ring. }
  split; auto. split.
  - intros E. exists (get x'). auto.
  - intros HA. apply R, rowspace_A_U, HA.
Qed.
Theorem solve_ok y0 z0 Uq0 b x : len y0 = cm A -> len z0 = cn U -> len Uq0 = cn U -> cm A <= len b -> cn A <= len x ->
  (forall j, 0 <= j < cm A -> balanced p (get b j)) ->
  sat (solve y0 z0 Uq0 f b x) (fun '(ok, x') =>
    len x' = len x /\ (forall i, 0 <= i < cn A -> balanced p (get x' i)) /\
    (forall i, 0 <= i < cn A -> (forall k, 0 <= k < cn U -> get (lu_p f) k <> i) -> get x' i = 0) /\
    (ok = true <-> in_rowspace p A (get b)) /\
    (ok = true -> forall j, 0 <= j < cm A -> cong p (xA A (get x') j) (get b j))).
Proof. intros. eapply sat_mono; [now apply solve_full|]. intros [ok x'] (H5 & H6 & H7 & _ & H8 & H9). auto. Qed.
End solve.

(** ** Statements without auxiliary definitions *)
Lemma reach_set A B k qinv xj ps mk : wf A -> wf B -> cm B = cm A -> 0 <= k < cn B -> qinv_ok A qinv ->
  len xj = cm A -> len ps = cm A -> len mk = cm A -> (forall c, 0 <= c < cm A -> get mk c = 0) ->
  sat (reach A B k (cm A) qinv xj ps mk) (fun '(top, xj', ps', mk') =>
    0 <= top <= cm A /\ len xj' = cm A /\ len ps' = cm A /\ len mk' = cm A /\
    (forall c, 0 <= c < cm A -> get mk' c = 0) /\
    (forall l l', top <= l < cm A -> top <= l' < cm A -> get xj' l = get xj' l' -> l = l') /\
    (forall c, (exists l, top <= l < cm A /\ get xj' l = c) <-> exists s, stored B k s /\ path A qinv s c)).
Proof.
  intros HA HB Hm Hk Hq Lx Lp Lm Hz. eapply sat_mono; [now apply (reach_ok A HA qinv Hq)|].
  intros [[[top xj'] ps'] mk'] ([D1 D2 D3 D4 D5 D6] & H2 & H3 & H4 & H5). do 6 (split; [auto|]). auto.
Qed.
Lemma reach_topo A B k qinv xj ps mk : wf A -> wf B -> cm B = cm A -> 0 <= k < cn B -> qinv_ok A qinv ->
  len xj = cm A -> len ps = cm A -> len mk = cm A -> (forall c, 0 <= c < cm A -> get mk c = 0) ->
  acyclic A qinv ->
  sat (reach A B k (cm A) qinv xj ps mk) (fun '(top, xj', _, _) =>
    forall l c, top <= l < cm A -> edge A qinv (get xj' l) c -> c <> get xj' l ->
      exists l', l < l' < cm A /\ get xj' l' = c).
Proof.
  intros HA HB Hm Hk Hq Lx Lp Lm Hz Hac. eapply sat_mono; [now apply (reach_ok A HA qinv Hq)|].
  intros [[[top xj'] ps'] mk'] ([D1 D2 D3 D4 D5 D6] & _). auto.
Qed.
Lemma dfs_set A qinv js top xj ps mk : wf A -> qinv_ok A qinv ->
  0 <= top <= cm A -> len xj = cm A -> len ps = cm A -> len mk = cm A ->
  (forall l, top <= l < cm A -> 0 <= get xj l < cm A) ->
  (forall l l', top <= l < cm A -> top <= l' < cm A -> get xj l = get xj l' -> l = l') ->
  (forall l c, top <= l < cm A -> edge A qinv (get xj l) c -> exists l', top <= l' < cm A /\ get xj l' = c) ->
  (acyclic A qinv -> forall l c, top <= l < cm A -> edge A qinv (get xj l) c -> c <> get xj l ->
     exists l', l < l' < cm A /\ get xj l' = c) ->
  (forall c, 0 <= c < cm A -> get mk c <> 0 <-> exists l, top <= l < cm A /\ get xj l = c) ->
  0 <= js < cm A -> get mk js = 0 ->
  sat (dfs A qinv js top xj ps mk) (fun '(top', xj', ps', mk') =>
    0 <= top' <= top /\ len xj' = cm A /\ len ps' = cm A /\ len mk' = cm A /\
    (forall l, top <= l < cm A -> get xj' l = get xj l) /\
    (forall l l', top' <= l < cm A -> top' <= l' < cm A -> get xj' l = get xj' l' -> l = l') /\
    (forall c, (exists l, top' <= l < cm A /\ get xj' l = c) <-> (exists l, top <= l < cm A /\ get xj l = c) \/ path A qinv js c) /\
    (forall c, 0 <= c < cm A -> get mk' c <> 0 <-> exists l, top' <= l < cm A /\ get xj' l = c) /\
    (acyclic A qinv -> forall l c, top' <= l < cm A -> edge A qinv (get xj' l) c -> c <> get xj' l ->
       exists l', l < l' < cm A /\ get xj' l' = c)).
Proof.
  intros HA Hq Ht Lx Lp Lm Hr Hi Hc Hto Hmk Hjs Hm. eapply sat_mono.
  { apply (dfs_ok A HA qinv Hq js top xj ps mk); auto; [constructor; auto|split; auto]. }
  intros [[[top' xj'] ps'] mk'] (D & (M1 & M2) & Lp' & Htop & Ho & Hn & (l0 & Hl0 & E0)).
  pose proof D as [D1 D2 D3 D4 D5 D6].
  split; [lia|]. do 5 (split; [auto|]). split; [|auto].
  intros c. split.
  - intros (l & Hl & <-). destruct (Z_lt_dec l top).
    + right. apply Hn. lia.
    + left. exists l. split; [lia|]. symmetry. apply Ho. lia.
  - intros [(l & Hl & <-)|Hp].
    + exists l. split; [lia|]. apply Ho. auto.
    + rewrite <- E0 in Hp. exact (Done_path A qinv top' xj' l0 c D Hl0 Hp).
Qed.
Lemma sparse_triangular_solve_spec U B k qinv xj ps mk x p : wf U -> wf B -> cprime U = p -> cprime B = p -> 2 <= p ->
  cx U <> None -> cx B <> None -> cm B = cm U -> 0 <= k < cn B -> qinv_ok U qinv -> acyclic U qinv ->
  (forall j, 0 <= j < cm U -> 0 <= get qinv j -> cong p (entry U (get qinv j) j) 1) ->
  len xj = cm U -> len ps = cm U -> len mk = cm U -> (forall c, 0 <= c < cm U -> get mk c = 0) -> cm U <= len x ->
  sat (sparse_triangular_solve U B k xj ps mk x qinv) (fun '(top, xj', ps', mk', x') =>
    0 <= top <= cm U /\ len xj' = cm U /\ len ps' = cm U /\ len mk' = cm U /\ (forall c, 0 <= c < cm U -> get mk' c = 0) /\
    (forall l, top <= l < cm U -> 0 <= get xj' l < cm U) /\
    (forall l l', top <= l < cm U -> top <= l' < cm U -> get xj' l = get xj' l' -> l = l') /\
    (forall c, (exists l, top <= l < cm U /\ get xj' l = c) <-> exists s, stored B k s /\ path U qinv s c) /\
    len x' = len x /\
    (forall c, (forall l, top <= l < cm U -> get xj' l <> c) -> get x' c = get x c) /\
    (forall l, top <= l < cm U -> balanced p (get x' (get xj' l))) /\
    exists X, (forall l, top <= l < cm U -> X (get xj' l) = get x' (get xj' l)) /\
      (forall c, (forall l, top <= l < cm U -> get xj' l <> c) -> X c = 0) /\
      forall j, 0 <= j < cm U -> cong p (entry B k j)
        (sum 0 (cm U) (fun c => if 0 <=? get qinv c then X c * entry U (get qinv c) j else 0) +
         if get qinv j <? 0 then X j else 0)).
Proof.
  intros HU HB Hp HpB Hp2 Hx HxB Hm Hk Hq Hac Hpiv Lx Lp Lm Hz Lxx. eapply sat_mono.
  { apply (sparse_triangular_solve_ok U HU p Hp Hp2 Hx qinv Hq Hac Hpiv B k xj ps mk x); auto. }
  intros [[[[top xj'] ps'] mk'] x'] ([D1 D2 D3 D4 D5 D6] & H1 & H2 & H3 & H4 & H5 & H6 & H7 & H8).
  do 11 (split; [auto|]). auto.
Qed.
Lemma dense_forward_solve_spec U q b x : wf U -> 2 <= cprime U -> cx U <> None ->
  (forall l, q = Some l -> len l = cn U) -> (forall i, 0 <= i < cn U -> 0 <= oapply q i < cm U) ->
  (forall i, 0 <= i < cn U -> cong (cprime U) (entry U i (oapply q i)) 1) ->
  (forall i k, 0 <= i < cn U -> 0 <= k < i -> cong (cprime U) (entry U i (oapply q k)) 0) ->
  cm U <= len b -> cn U <= len x -> (forall j, 0 <= j < cm U -> balanced (cprime U) (get b j)) ->
  sat (dense_forward_solve U b x q) (fun '(ok, b', x') =>
    len b' = len b /\ len x' = len x /\ (forall i, 0 <= i < cn U -> balanced (cprime U) (get x' i)) /\
    (ok = true <-> in_rowspace (cprime U) U (get b)) /\
    (ok = true -> forall j, 0 <= j < cm U -> cong (cprime U) (xA U (get x') j) (get b j))).
Proof.
  intros HU Hp Hx Hl Hr Hu Ht Lb Lx Hb. eapply sat_mono; [now apply dense_forward_solve_ok|].
  intros [[ok b'] x'] (H1 & H2 & H3 & _ & _ & H4 & H5). auto.
Qed.
Lemma dense_back_solve_spec L pr b x : wf L -> ok_modulus (cprime L) -> Znumtheory.prime (cprime L) -> reduced L -> nodup_rows L ->
  lower (cprime L) L pr -> cm L <= len b -> cn L <= len x ->
  sat (dense_back_solve L b x (Some pr)) (fun '(_, x') => len x' = len x /\
    (forall i, 0 <= i < cn L -> balanced (cprime L) (get x' i)) /\
    (forall i, 0 <= i < cn L -> (forall j, 0 <= j < cm L -> get pr j <> i) -> get x' i = 0) /\
    (forall j, 0 <= j < cm L -> cong (cprime L) (xA L (get x') j) (get b j))).
Proof.
  intros HL Hok Hpr (Hr1 & Hr2) Hnd [L1 L2 L3 L4] Lb Lx. eapply sat_mono.
  { apply (dense_back_solve_ok L HL Hok Hpr Hr1 Hnd Hr2 (Some pr)); auto.
    intros l E. inversion E. now subst l. }
  intros [b' x'] (H1 & H2 & H3 & H4 & H5). auto.
Qed.
Lemma solve_spec p A f L y0 z0 Uq0 b x : ok_modulus p -> Znumtheory.prime p -> factors p A f L ->
  len y0 = cm A -> len z0 = cn (lu_U f) -> len Uq0 = cn (lu_U f) -> cm A <= len b -> cn A <= len x ->
  (forall j, 0 <= j < cm A -> balanced p (get b j)) ->
  sat (solve y0 z0 Uq0 f b x) (fun '(ok, x') =>
    len x' = len x /\ (forall i, 0 <= i < cn A -> balanced p (get x' i)) /\
    (ok = true <-> exists y, forall j, 0 <= j < cm A -> cong p (xA A y j) (get b j)) /\
    (ok = true -> forall j, 0 <= j < cm A -> cong p (xA A (get x') j) (get b j))).
Proof.
  intros Hok Hp F Ly Lz Lq Lb Lx Hb. eapply sat_mono; [now apply (solve_ok p Hok Hp A f L F)|].
  intros [ok x'] (H1 & H2 & H3 & H4 & H5). auto.
Qed.
