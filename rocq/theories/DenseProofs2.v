(** Proofs about dense Schur complements (Dense.v): updating the factorisation. *)
From Verif Require Import Base BaseFacts Spec SpecFacts SpecElim Zp ZpFacts Mat MatFacts RowList CompressProofs LinAlg TriProofs VecProofs KernelProofs ParRows ElimFacts EchInv Reach Schur Sched Append AppendProofs Gplu GpluProofs Dense DenseSpec DenseProofs.
From Coq Require Import ZifyBool Permutation.

(** ** Without L *)
Lemma update_U_ok g p n Sm S rr S' Q qc f : 2 <= p -> elim p (f_U f) (f_q f) -> cols (f_q f) (cm (f_U f)) Sm qc ->
  rref_ok p n Sm S rr S' Q -> 0 <= Sm -> n * Sm <= len S -> cn (f_U f) + rr + 1 <= len (cp (f_U f)) ->
  sat (update_U_after_rref g rr Sm S' Q qc f) (fun f' =>
    elim p (f_U f') (f_q f') /\ cn (f_U f') = cn (f_U f) + rr /\ cm (f_U f') = cm (f_U f) /\ len (cp (f_U f')) = len (cp (f_U f)) /\
    f_L f' = f_L f /\ f_p f' = f_p f /\
    (forall i c, 0 <= i < cn (f_U f) -> entry (f_U f') i c = entry (f_U f) i c) /\
    (forall c, 0 <= c < cm (f_U f) -> get (f_q f') c = get (f_q f) c \/ cn (f_U f) <= get (f_q f') c) /\
    exists C D,
      (forall k j, 0 <= k < n -> 0 <= j < cm (f_U f) ->
         cong p (dext Sm qc (dget Sm S k) j) (sum 0 rr (fun l => C k l * entry (f_U f') (cn (f_U f) + l) j))) /\
      (forall l j, 0 <= l < rr -> 0 <= j < cm (f_U f) ->
         cong p (entry (f_U f') (cn (f_U f) + l) j) (sum 0 n (fun k => D l k * dext Sm qc (dget Sm S k) j)))).
Proof.
  intros Hp2 HE HC [K1 [K2 K2'] K3 K4 K5 K6 (R & C & D & K7 & K8 & K9)] HSm Hl Hlp. set (U := f_U f) in *. set (q := f_q f) in *.
  pose proof (el_wf _ _ _ HE) as W. pose proof (wf_nnz U W) as Hnz. pose proof (wf_n U W) as Hn. pose proof (wf_len U W) as Hlen.
  unfold update_U_after_rref. fold U. apply sat_bind, sat_aget; [lia|]. fold (nnz U). apply sat_bind.
  eapply sat_mono; [apply csr_realloc_ok; auto; right; nia|]. cbv beta. intros U1 (W1 & HS & HL1 & HX1).
  replace (nnz U + (1 + Sm - rr) * rr <? 0) with false in HL1 by nia. pose proof HS as (E1 & E2 & E3 & E4 & E5).
  assert (Hnn : nnz U1 = nnz U) by (unfold nnz; congruence).
  assert (HE1 : elim p U1 q) by (apply (elim_same p U q); auto).
  assert (Hci : forall k l, 0 <= k < Sm -> 0 <= l < Sm -> get qc (get Q k) = get qc (get Q l) -> k = l).
  { intros k l Hk Hl' E. apply K5; auto. apply (co_inj _ _ _ _ HC); auto. }
  apply sat_bind. rewrite <- Hnn. eapply sat_mono.
  { apply (fill_rows_ok p true Sm S' Q qc) with (lo := fun _ => rr) (w := 1 + Sm - rr); auto; try lia; try nia.
    - apply (co_len _ _ _ _ HC).
    - intros k Hk. rewrite E2. apply (co_rng _ _ _ _ HC). auto.
    - rewrite E1, E3. lia. }
  cbv beta. intros [[U2 q2] unz] (F1 & F2 & F3 & F4 & F5 & F6 & F7 & F8). apply sat_bind, sat_assert; [lia|]. cbn [sat f_U f_q f_L f_p].
  rewrite E1, E2, E3 in *.
  split; [auto|]. split; [auto|]. split; [auto|]. split; [auto|]. split; [auto|]. split; [auto|].
  split. { intros i c Hi. rewrite F6 by auto. apply same_entry; auto. }
  split; [auto|].
  assert (HR : forall l j, 0 <= l < rr -> 0 <= j < cm U -> entry U2 (cn U + l) j = dext Sm qc (R l) j).
  { intros l j Hl' Hj. rewrite F7 by auto. apply (nrow_dext q (cm U)); auto; lia. }
  exists C, D. split.
  - intros k j Hk Hj. rewrite (dext_lin p q (cm U) Sm qc (dget Sm S k) rr (C k) R HC); auto.
    apply cong_eq, sum_ext. intros l Hl'. now rewrite HR.
  - intros l j Hl' Hj. rewrite HR by auto. apply (dext_lin p q (cm U) Sm qc (R l) n (D l) (dget Sm S) HC); auto.
Qed.

(** ** With L *)
(* triplets row by row *)
Definition trows (ro : Z -> Z) (R : Z -> list (Z * Z)) (l : list Z) : list (Z * Z * Z) :=
  flat_map (fun k => map (fun e => (ro k, fst e, snd e)) (R k)) l.
Lemma In_trows ro R l i c v : In (i, c, v) (trows ro R l) <-> exists k, In k l /\ i = ro k /\ In (c, v) (R k).
Proof.
  unfold trows. rewrite in_flat_map. split.
  - intros (k & Hk & H). apply in_map_iff in H. destruct H as ([c' v'] & E & H). cbn in E. injection E as <- <- <-. eauto.
  - intros (k & Hk & -> & H). exists k. split; auto. apply in_map_iff. exists (c, v). auto.
Qed.
Lemma NoDup_trows ro R l : NoDup l -> (forall a b, In a l -> In b l -> ro a = ro b -> a = b) ->
  (forall k, In k l -> NoDup (map fst (R k))) -> NoDup (map fst (trows ro R l)).
Proof.
  intros HN Hi HR. induction l as [|a l IH]; [constructor|]. unfold trows in *. cbn [flat_map]. rewrite map_app. inversion HN as [|? ? H1 H2]; subst.
  apply NoDup_app.
  - rewrite map_map. cbn [fst]. assert (E : map (fun e : Z * Z => (ro a, fst e)) (R a) = map (fun c => (ro a, c)) (map fst (R a))) by (now rewrite map_map).
    rewrite E. apply FinFun.Injective_map_NoDup; [|apply HR; now left]. intros x y Hxy. now injection Hxy.
  - apply IH; auto; cbn [In] in *; auto.
  - intros [i c] Hc1 Hc2. apply in_map_iff in Hc1, Hc2. destruct Hc1 as (e1 & E1 & Hc1), Hc2 as (e2 & E2 & Hc2).
    apply in_map_iff in Hc1. destruct Hc1 as (e1' & <- & _). apply in_flat_map in Hc2. destruct Hc2 as (k & Hk & Hc2). apply in_map_iff in Hc2.
    destruct Hc2 as (e2' & <- & _). cbn in E1, E2. assert (E : ro a = ro k) by congruence. apply Hi in E; cbn [In]; auto. subst k. easy.
Qed.
Lemma tcoef_trows ro R l k c : NoDup l -> (forall a b, In a l -> In b l -> ro a = ro b -> a = b) -> In k l ->
  tcoef (ro k) c (trows ro R l) = lentry c (R k).
Proof.
  intros HN Hi Hk. induction l as [|a l IH]; [easy|]. unfold trows in *. cbn [flat_map]. rewrite tcoef_app. inversion HN as [|? ? H1 H2]; subst.
  destruct (Z.eq_dec a k) as [->|Hne].
  - rewrite tcoef_map_row. rewrite tcoef_row; [ring|]. intros e He E. apply in_flat_map in He. destruct He as (b & Hb & He). apply in_map_iff in He.
    destruct He as (e' & <- & _). cbn in E. apply Hi in E; cbn [In]; auto. subst b. easy.
  - destruct Hk as [->|Hk]; [easy|]. rewrite tcoef_map_other; [|intros E; apply Hi in E; cbn [In]; auto]. rewrite IH; auto. cbn [In] in *. auto.
Qed.
Lemma tcoef_perm i c l l' : Permutation l l' -> tcoef i c l = tcoef i c l'.
Proof. apply lsum_perm. Qed.
Lemma tcoef_filter f i c l : f i = true -> tcoef i c (filter (fun e => f (fst (fst e))) l) = tcoef i c l.
Proof.
  intros Hf. unfold tcoef. induction l as [|[[a b] v] l IH]; [reflexivity|]. cbn [filter fst]. rewrite lsum_cons, <- IH.
  destruct (f a) eqn:E; [now rewrite lsum_cons|]. destruct (Z.eqb_spec a i); [congruence|]. cbn. lia.
Qed.
Lemma NoDup_map_filter {X Y} (h : X -> Y) f l : NoDup (map h l) -> NoDup (map h (filter f l)).
Proof.
  induction l as [|a l IH]; [auto|]. cbn [map filter]. intros H. inversion H as [|? ? H1 H2]; subst. destruct (f a); auto. cbn [map]. constructor; auto.
  intros Hin. apply H1. apply in_map_iff in Hin. destruct Hin as (b & E & Hb). apply filter_In in Hb. apply in_map_iff. exists b. tauto.
Qed.

Lemma app_inj_l {T} (a b c d : list T) : len a = len c -> a ++ b = c ++ d -> a = c /\ b = d.
Proof.
  revert c. induction a as [|x a IH]; intros [|y c] H E; rewrite ?len_cons in H; cbn in E; auto.
  - change (len (@nil T)) with 0 in H. pose proof (len_nonneg c). lia.
  - change (len (@nil T)) with 0 in H. pose proof (len_nonneg a). lia.
  - injection E as -> E. destruct (IH c) as [-> ->]; auto. lia.
Qed.
(* writing a triplet, somewhere *)
Lemma tput_other L k i j v : tx L <> None -> len (ti L) = len (tj L) -> (forall x, tx L = Some x -> len x = len (tj L)) -> 0 <= k < len (tj L) ->
  sat (tput L k i j v) (fun L' => tx L' <> None /\ len (ti L') = len (tj L') /\ (forall x, tx L' = Some x -> len x = len (tj L')) /\
    forall l, l <> k -> get (ti L') l = get (ti L) l /\ get (tj L') l = get (tj L) l /\ tval L' l = tval L l).
Proof.
  intros Hx H1 H2 Hk. unfold tput. apply sat_bind, sat_aset; [lia|]. apply sat_bind, sat_aset; [lia|].
  destruct (tx L) as [lx|] eqn:EX; [|easy]. specialize (H2 lx eq_refl). cbn [deref bind]. apply sat_bind, sat_aset; [lia|]. cbn [sat tx ti tj].
  rewrite !len_upd. split; [discriminate|]. split; [auto|]. split. { intros x E. injection E as <-. now rewrite len_upd. }
  intros l Hl. rewrite !get_upd_ne by auto. split; auto. split; auto. unfold tval. cbn [tx]. rewrite EX. now rewrite get_upd_ne by auto.
Qed.
Lemma sat_and {T} (r : res T) P Q : sat r P -> sat r Q -> sat r (fun x => P x /\ Q x).
Proof. destruct r; cbn; auto. Qed.
Lemma twf_arrays L : twf L -> tx L <> None -> len (ti L) = len (tj L) /\ (forall x, tx L = Some x -> len x = len (tj L)).
Proof. intros (_ & _ & _ & H4 & H5 & _) HX. split; auto. intros x E. now rewrite E in H5. Qed.
Lemma twf_nz_le L k k' : twf (nz L k) -> 0 <= k' <= k -> twf (nz L k').
Proof. intros (H1 & H2 & H3 & H4 & H5 & H6) Hk. cbn [nz tn tm tnz ti tj tx] in *. split; auto. split; auto. cbn. split; [lia|]. split; auto. split; auto. intros l Hl. apply H6. lia. Qed.

Definition tent (L : triplet) (k : Z) : Z * Z * Z := (get (ti L) k, get (tj L) k, tval L k).

Lemma keep_pivotal_ok r Sp po z0 pivotal L : 0 <= r <= len Sp -> (forall i, 0 <= i < r -> 0 <= get Sp i < len po /\ 0 <= get po (get Sp i) < len pivotal) ->
  twf L -> tx L <> None -> 0 <= z0 <= tnz L -> (forall k, z0 <= k < tnz L -> 0 <= get (ti L) k < len pivotal) ->
  sat (keep_pivotal r Sp po z0 pivotal L) (fun '(pivotal', L', lnz) => len pivotal' = len pivotal /\
    twf (nz L' lnz) /\ tx L' <> None /\ tn L' = tn L /\ tm L' = tm L /\ tprime L' = tprime L /\ len (tj L') = len (tj L) /\ lnz <= tnz L /\ 0 <= lnz /\
    exists f, (forall i, 0 <= i < r -> f (get po (get Sp i)) = true) /\
      tlist (nz L' lnz) = tlist (nz L z0) ++ filter (fun e => f (fst (fst e))) (map (tent L) (zseq z0 (tnz L)))).
Proof.
  intros Hr Hpo HW HX Hz Hrow. unfold keep_pivotal. apply sat_bind.
  apply (for_spec (fun i v => len v = len pivotal /\ forall t, 0 <= t < i -> get v (get po (get Sp t)) = 1)).
  { lia. } { split; auto. intros; lia. }
  { intros i v Hi (Hl & Hv). destruct (Hpo i Hi) as [H1 H2]. apply sat_bind, sat_aget; [lia|]. apply sat_bind, sat_aget; [lia|]. apply sat_aset; [lia|].
    rewrite len_upd. split; auto. intros t Ht. rewrite get_upd_in by lia. destruct (Z.eqb_spec (get po (get Sp i)) (get po (get Sp t))) as [|Hne]; auto. apply Hv. destruct (Z.eq_dec t i) as [->|]; [easy|lia]. }
  intros v (Hl & Hv). apply sat_bind. set (f := fun i => negb (get v i =? 0)).
  apply (for_spec (fun px '(L', lnz) => 0 <= lnz <= px /\ twf (nz L' lnz) /\ tx L' <> None /\ tn L' = tn L /\ tm L' = tm L /\ tprime L' = tprime L /\
    len (tj L') = len (tj L) /\ tlist (nz L' lnz) = tlist (nz L z0) ++ filter (fun e => f (fst (fst e))) (map (tent L) (zseq z0 px)) /\
    (forall l, px <= l -> tent L' l = tent L l))).
  - lia.
  - split; [lia|]. split; [apply (twf_nz_le L (tnz L)); [now rewrite nz_id|lia]|]. do 5 (split; [auto|]). rewrite zseq_empty by lia.
    cbn [map filter]. rewrite app_nil_r. split; auto.
  - intros px [L' lnz] Hpx (I1 & I2 & I3 & I4 & I5 & I6 & I7 & I8 & I9). pose proof HW as (W1 & W2 & W3 & W4 & W5 & W6).
    pose proof I2 as (V1 & V2 & V3 & V4 & V5 & V6). cbn [nz tn tm tnz ti tj tx] in *.
    destruct (tx L') as [lx|] eqn:EX; [|easy]. pose proof (I9 px ltac:(lia)) as Ht. unfold tent in Ht. injection Ht as T1 T2 T3.
    specialize (Hrow px ltac:(lia)). specialize (W6 px ltac:(lia)).
    apply sat_bind, sat_aget; [lia|]. apply sat_bind, sat_aget; [lia|].
    assert (Hsn : filter (fun e => f (fst (fst e))) (map (tent L) (zseq z0 (px + 1))) =
      filter (fun e => f (fst (fst e))) (map (tent L) (zseq z0 px)) ++ if f (get (ti L) px) then [tent L px] else []).
    { rewrite zseq_S by lia. now rewrite map_app, filter_app. }
    rewrite Hsn. rewrite T1. unfold f at 2. destruct (Z.eqb_spec (get v (get (ti L) px)) 0) as [E|E]; cbn [negb].
    + cbn [sat]. rewrite app_nil_r. rewrite EX. split; [lia|]. split; [auto|]. do 5 (split; [auto|]). split; [auto|]. intros l Hl'. apply I9. lia.
    + apply sat_bind, sat_aget; [lia|]. cbn [deref bind]. apply sat_bind, sat_aget; [lia|]. apply sat_bind.
      eapply sat_mono.
      { apply sat_and; [apply (tput_ok L' lnz (get (ti L) px) (get (tj L') px) (get lx px)); auto; try lia|apply tput_other; auto; try lia].
        - now rewrite EX.
        - now rewrite EX.
        - intros x Ex. rewrite EX in Ex. now injection Ex as <-. }
      cbv beta. intros L2 ((K1 & K2 & K3 & K4 & K5 & K6 & K7) & (O1 & O2 & O3 & O4)). cbn [sat].
      split; [lia|]. split; [auto|]. split; [auto|]. split; [congruence|]. split; [congruence|]. split; [congruence|]. split; [congruence|]. split.
      * rewrite K7, I8, <- app_assoc. f_equal. f_equal. unfold tent. rewrite <- T2, <- T3. unfold tval at 1. rewrite EX. reflexivity.
      * intros l Hl'. destruct (O4 l ltac:(lia)) as (G1 & G2 & G3). rewrite <- (I9 l ltac:(lia)). unfold tent. congruence.
  - intros [L' lnz] (I1 & I2 & I3 & I4 & I5 & I6 & I7 & I8 & I9). cbn [sat]. split; auto. do 6 (split; [auto|]). split; [lia|]. split; [lia|].
    exists f. split; [|auto]. intros i Hi. unfold f. now rewrite Hv.
Qed.

(* what row i of the dense L gives *)
Definition lurow (Sm r un : Z) (Sd : list Z) (i : Z) : list (Z * Z) :=
  map (fun j => (un + j, dget Sm Sd i j)) (filter (fun j => negb (dget Sm Sd i j =? 0)) (zseq 0 (Z.min (i + 1) r))).
Definition lucnt (r i : Z) : Z := if i <=? r then i * (i + 1) else r * (r + 1) + 2 * (i - r) * r.
Lemma lucnt_S r i : 0 <= i -> 0 <= r -> lucnt r (i + 1) = lucnt r i + 2 * Z.min (i + 1) r.
Proof. intros Hi Hr. unfold lucnt. destruct (Z.leb_spec (i + 1) r), (Z.leb_spec i r); try lia; try (assert (i = r) as -> by lia); nia. Qed.
Lemma lucnt_total r n : 0 <= r <= n -> lucnt r n = 2 * ((2 * n - r + 1) * r / 2).
Proof.
  intros H. assert (E : lucnt r n = (2 * n - r + 1) * r). { unfold lucnt. destruct (Z.leb_spec n r); [assert (n = r) as -> by lia|]; nia. }
  rewrite E. apply Z.div_exact; [lia|].
  destruct (Z.Even_or_Odd r) as [(k & ->)|(k & ->)].
  - replace ((2 * n - 2 * k + 1) * (2 * k)) with (((2 * n - 2 * k + 1) * k) * 2) by ring. apply Z.mod_mul. lia.
  - replace ((2 * n - (2 * k + 1) + 1) * (2 * k + 1)) with (((n - k) * (2 * k + 1)) * 2) by ring. apply Z.mod_mul. lia.
Qed.
Lemma lucnt_mono r i j : 0 <= r -> 0 <= i <= j -> lucnt r i <= lucnt r j.
Proof. intros Hr H. unfold lucnt. destruct (Z.leb_spec i r), (Z.leb_spec j r); nia. Qed.

Lemma lu_rows_ok N r Sm un Sd Sp po L Lp lnz : 0 <= N <= len Sp -> 0 <= r <= Sm -> N * Sm <= len Sd ->
  (forall i, 0 <= i < N -> 0 <= get Sp i < len po /\ 0 <= get po (get Sp i) < tn L) ->
  0 <= un -> un + r <= tm L -> un + r <= len Lp -> twf (nz L lnz) -> tx L <> None -> 2 * lnz + lucnt r N <= 2 * len (tj L) ->
  sat (lu_rows N r Sm un Sd Sp po L Lp lnz) (fun '(L', Lp', lnz') =>
    twf (nz L' lnz') /\ tx L' <> None /\ tn L' = tn L /\ tm L' = tm L /\ tprime L' = tprime L /\
    tlist (nz L' lnz') = tlist (nz L lnz) ++ trows (fun i => get po (get Sp i)) (lurow Sm r un Sd) (zseq 0 N) /\
    len Lp' = len Lp /\ (forall c, ~ un <= c < un + r -> get Lp' c = get Lp c) /\
    (forall i, 0 <= i < N -> i < r -> get Lp' (un + i) = get po (get Sp i))).
Proof.
  intros HN Hr HS Hpo Hun Htm Hlp HW HX Hroom. unfold lu_rows.
  apply (for_spec (fun i '(L', Lp', lnz') => twf (nz L' lnz') /\ tx L' <> None /\ tn L' = tn L /\ tm L' = tm L /\ tprime L' = tprime L /\
    tlist (nz L' lnz') = tlist (nz L lnz) ++ trows (fun i => get po (get Sp i)) (lurow Sm r un Sd) (zseq 0 i) /\
    len Lp' = len Lp /\ (forall c, ~ un <= c < un + r -> get Lp' c = get Lp c) /\
    (forall t, 0 <= t < i -> t < r -> get Lp' (un + t) = get po (get Sp t)) /\
    len (tj L') = len (tj L) /\ 2 * lnz' <= 2 * lnz + lucnt r i)).
  - lia.
  - split; [auto|]. do 4 (split; [auto|]). rewrite zseq_empty by lia. cbn [trows flat_map]. rewrite app_nil_r. split; [auto|]. split; [auto|].
    split; [auto|]. split; [intros; lia|]. split; [auto|]. unfold lucnt. destruct (Z.leb_spec 0 r); lia.
  - intros i [[L' Lp'] lnz'] Hi (I1 & I2 & I3 & I4 & I5 & I6 & I7 & I8 & I9 & I10 & I11).
    destruct (Hpo i Hi) as [Hp1 Hp2]. apply sat_bind, sat_aget; [lia|]. apply sat_bind, sat_aget; [lia|].
    set (io := get po (get Sp i)) in *.
    pose proof (lucnt_S r i ltac:(lia) ltac:(lia)) as Hcs. pose proof (lucnt_mono r (i + 1) N ltac:(lia) ltac:(lia)) as Hcm.
    set (row := fun hi => map (fun j => (un + j, dget Sm Sd i j)) (filter (fun j => negb (dget Sm Sd i j =? 0)) (zseq 0 hi))).
    apply sat_bind. apply (for_spec (fun j '(L2, lnz2) => twf (nz L2 lnz2) /\ tx L2 <> None /\ tn L2 = tn L /\ tm L2 = tm L /\ tprime L2 = tprime L /\
      len (tj L2) = len (tj L) /\ lnz2 <= lnz' + j /\
      tlist (nz L2 lnz2) = tlist (nz L' lnz') ++ map (fun e => (io, fst e, snd e)) (row j))).
    + lia.
    + split; [auto|]. do 5 (split; [auto|]). split; [lia|]. unfold row. rewrite zseq_empty by lia. cbn [filter map]. now rewrite app_nil_r.
    + intros j [L2 lnz2] Hj (J1 & J2 & J3 & J4 & J5 & J6 & J7 & J8). apply sat_bind, sat_aget; [nia|]. fold (dget Sm Sd i j).
      assert (Hrow : row (j + 1) = row j ++ if dget Sm Sd i j =? 0 then [] else [(un + j, dget Sm Sd i j)]).
      { unfold row. rewrite zseq_S by lia. rewrite filter_app, map_app. f_equal. cbn [filter]. destruct (_ =? 0); reflexivity. }
      rewrite Hrow. destruct (Z.eqb_spec (dget Sm Sd i j) 0).
      * cbn [sat]. rewrite app_nil_r. split; [auto|]. do 5 (split; [auto|]). split; [lia|auto].
      * apply sat_bind. eapply sat_mono; [apply tput_ok; auto; try lia|]. cbv beta.
        intros L3 (K1 & K2 & K3 & K4 & K5 & K6 & K7). cbn [sat]. split; [auto|]. split; [auto|]. split; [congruence|]. split; [congruence|].
        split; [congruence|]. split; [congruence|]. split; [lia|]. rewrite K7, J8, map_app, app_assoc. reflexivity.
    + intros [L2 lnz2] (J1 & J2 & J3 & J4 & J5 & J6 & J7 & J8). apply sat_bind.
      apply sat_mono with (P := fun Lp2 => len Lp2 = len Lp /\ (forall c, ~ un <= c < un + r -> get Lp2 c = get Lp c) /\
        (forall t, 0 <= t < i + 1 -> t < r -> get Lp2 (un + t) = get po (get Sp t))).
      { destruct (Z.ltb_spec i r) as [Hir|Hir].
        - apply sat_aset; [lia|]. rewrite len_upd. split; auto. split.
          + intros c Hc. rewrite get_upd_ne by lia. auto.
          + intros t Ht Htr. rewrite get_upd_in by lia. destruct (Z.eqb_spec (un + i) (un + t)).
            * now replace t with i by lia.
            * apply I9; lia.
        - cbn [sat]. split; auto. split; auto. intros t Ht Htr. apply I9; lia. }
      intros Lp2 (M1 & M2 & M3). cbn [sat]. split; [auto|]. do 4 (split; [auto|]). split.
      { rewrite J8, I6. unfold trows. rewrite zseq_S, flat_map_app by lia. cbn [flat_map]. rewrite app_nil_r, <- app_assoc. reflexivity. }
      split; [auto|]. split; [auto|]. split; [auto|]. split; [auto|]. lia.
  - intros [[L' Lp'] lnz'] (I1 & I2 & I3 & I4 & I5 & I6 & I7 & I8 & I9 & I10 & I11). auto 10.
Qed.

Lemma update_fact_ok g p A0 comp (full : Prop) f0 f A o (P : Z -> Z) n Sm rem' u1 r (S S' Sp Q qc po : list Z) lr L0 L log pivotal :
  ok_modulus p -> Znumtheory.prime p ->
  inv p A0 full comp f0 A o (map P (zseq 0 n) ++ rem') u1 -> 0 <= n ->
  f_U f = f_U f0 -> f_q f = f_q f0 -> f_p f = f_p f0 -> f_L f0 = Some L0 -> f_L f = Some L ->
  Sm = cm A - cn (f_U f0) -> cols (f_q f0) (cm A) Sm qc -> n * Sm <= len S ->
  (forall k, 0 <= k < n -> get po k = o (P k) /\ drow_ok p A (f_U f0) qc (P k) S k (lr k)) -> n <= len po ->
  twf L -> tx L <> None -> tn L = tn L0 -> tm L = cn A0 -> tprime L = tprime L0 ->
  tlist L = tlist L0 ++ log -> tnz L = tnz L0 + len log -> Permutation log (trows (fun k => o (P k)) lr (zseq 0 n)) ->
  plu_ok p n Sm S r S' Sp Q -> comp = true \/ cn A0 <= len pivotal ->
  sat (update_fact_after_LU g n Sm r S' Sp Q qc po (tnz L0) comp pivotal f) (fun '(pivotal', f') =>
    len pivotal' = len pivotal /\ inv p A0 full comp f' A o rem' u1 /\ cn (f_U f') = cn (f_U f0) + r /\
    match f_L f' with Some L => tm L = cn A0 | None => False end).
Proof.
  intros Hmod Hprime HI Hn EU Eq Ep EL0 EL ESm HC HlS Hrow Hlpo HW HX HtN HtM HtP HTL Hnz Hlog HK Hpiv.
  assert (Hp2 : 2 <= p) by (unfold ok_modulus in *; lia).
  pose proof HI as [I1 I2 I3 I4 I5 I6 I7 I8 I9 I10 I11 I12 I13 I14 I15 I16].
  destruct HK as [K1 [K2 K2'] K3 K4 K5 K6 K7 K8 K9 K10 K11].
  set (U := f_U f0) in *. set (q := f_q f0) in *. pose proof (el_wf _ _ _ I1) as WU. pose proof (wf_n U WU) as Hun. pose proof (wf_nnz U WU) as Hnzu.
  pose proof (wf_len U WU) as Hlen. rewrite EL0 in I16. destruct I16 as [Q1 Q2 Q3 Q4 Q5 Q6 Q7 Q8 Q9 Q10].
  assert (HmU : cm U = cm A) by congruence.
  assert (HSm : 0 <= Sm). { pose proof (upper_n_le_m p U q (el_wf _ _ _ I1) (el_up _ _ _ I1)). lia. }
  rewrite len_app, len_map, len_zseq in I4. pose proof (len_nonneg rem') as Hrl.
  assert (Hdon : forall k, 0 <= k < n -> In (P k) (map P (zseq 0 n) ++ rem')).
  { intros k Hk. apply in_app_iff. left. apply in_map. now apply In_zseq. }
  assert (Hinj : forall k l, 0 <= k < n -> 0 <= l < n -> o (P k) = o (P l) -> k = l).
  { intros k l Hk Hl E. rewrite map_app in I11. apply NoDup_app_l in I11. rewrite map_map in I11.
    apply (NoDup_map_inj (fun k => o (P k)) (zseq 0 n)); auto; now apply In_zseq. }
  assert (Ho : forall k, 0 <= k < n -> 0 <= o (P k) < cn A0) by (intros k Hk; apply (I10 (P k)); auto).
  assert (Hpo : forall i, 0 <= i < n -> get po (get Sp i) = o (P (get Sp i))) by (intros i Hi; apply Hrow; auto).
  assert (HtN0 : tn L = cn A0) by (rewrite HtN; apply (lt_n _ _ _ _ Q1)).
  unfold update_fact_after_LU. rewrite EL. cbn [deref bind]. rewrite EU, Eq. apply sat_bind, sat_aget; [lia|]. fold (nnz U).
  apply sat_bind. eapply sat_mono; [apply csr_realloc_ok; auto; right; nia|]. cbv beta. intros U1 (W1 & HS & HL1 & HX1).
  replace (nnz U + (1 + 2 * Sm - r) * r <? 0) with false in HL1 by nia. pose proof HS as (E1 & E2 & E3 & E4 & E5).
  assert (Hnn : nnz U1 = nnz U) by (unfold nnz; congruence).
  assert (HE1 : elim p U1 q) by (apply (elim_same p U q); auto).
  set (L1 := triplet_realloc g L _).
  pose proof HW as (HW1 & HW2 & HW3 & HW4 & HW5 & HW6).
  assert (Hdiv : 0 <= (2 * n - r + 1) * r / 2) by (apply Z.div_pos; nia).
  destruct (triplet_realloc_ok g L (tnz L + (2 * n - r + 1) * r / 2) HW ltac:(lia)) as (T1 & T2 & T3 & T4 & T5 & T6 & T7 & T8).
  fold L1 in T1, T2, T3, T4, T5, T6, T7, T8.
  assert (HtL1 : tlist L1 = tlist L0 ++ log).
  { rewrite <- HTL. unfold tlist. rewrite T2. apply map_ext_in. intros k Hk. apply In_zseq in Hk. destruct (T8 k Hk) as (-> & -> & ->). reflexivity. }
  assert (H00 : 0 <= tnz L0) by (destruct (lt_wf _ _ _ _ Q1) as (_ & _ & H & _); lia).
  assert (Hl0 := len_nonneg log).
  assert (Hsplit : tlist (nz L1 (tnz L0)) = tlist L0 /\ map (tent L1) (zseq (tnz L0) (tnz L1)) = log).
  { assert (E : tlist L1 = tlist (nz L1 (tnz L0)) ++ map (tent L1) (zseq (tnz L0) (tnz L1))).
    { unfold tlist. rewrite (zseq_split 0 (tnz L0) (tnz L1)) by lia. apply map_app. }
    rewrite HtL1 in E. apply app_inj_l in E; [destruct E; auto|]. unfold tlist. cbn [nz tnz]. now rewrite !len_map. }
  destruct Hsplit as [Hs1 Hs2].
  (* which rows are kept *)
  apply sat_bind. apply sat_mono with (P := fun '(pivotal', L2, lnz) => len pivotal' = len pivotal /\
    twf (nz L2 lnz) /\ tx L2 <> None /\ tn L2 = tn L /\ tm L2 = tm L /\ tprime L2 = tprime L /\ len (tj L2) = len (tj L1) /\ 0 <= lnz <= tnz L /\
    exists h, (forall k, 0 <= k < n -> comp = true \/ (exists l, 0 <= l < r /\ k = get Sp l) -> h (o (P k)) = true) /\
      tlist (nz L2 lnz) = tlist L0 ++ filter (fun e => h (fst (fst e))) log).
  { destruct comp eqn:EC.
    - cbn [sat]. rewrite nz_id. split; auto. split; auto. split; [tauto|]. split; auto. split; auto. split; auto. split; auto. split; [lia|].
      exists (fun _ => true). split; auto. rewrite HtL1. f_equal. clear. induction log as [|a l IH]; cbn; [auto|]. now f_equal.
    - destruct Hpiv as [|Hpiv]; [easy|]. eapply sat_mono.
      { apply (keep_pivotal_ok r Sp po (tnz L0) pivotal L1); auto; try lia; try tauto.
        - intros i Hi. pose proof (K4 i ltac:(lia)). rewrite Hpo by lia. pose proof (Ho (get Sp i) ltac:(lia)). lia.
        - intros k Hk. destruct T1 as (_ & _ & _ & _ & _ & T1). specialize (T1 k ltac:(lia)). lia. }
      cbv beta. intros [[pv L2] lnz] (G1 & G2 & G3 & G4 & G5 & G6 & G7 & G8 & G8' & h & G9 & G10). split; auto. split; auto. split; auto.
      split; [congruence|]. split; [congruence|]. split; [congruence|]. split; [congruence|]. split; [lia|]. exists h. split.
      + intros k Hk [|(l & Hl & ->)]; [easy|]. rewrite <- Hpo by lia. auto.
      + rewrite G10, Hs1, Hs2. reflexivity. }
  intros [[pv L2] lnz] (G1 & G2 & G3 & G4 & G5 & G6 & G7 & G8 & h & G9 & G10).
  set (N := if comp then n else r). assert (HNr : r <= N <= n) by (unfold N; destruct comp; lia).
  assert (HLP := Q2). rewrite E1.
  apply sat_bind. eapply sat_mono.
  { apply (lu_rows_ok N r Sm (cn U) S' Sp po L2 (f_p f) lnz); auto; try lia; try nia.
    - intros i Hi. pose proof (K4 i ltac:(lia)). rewrite Hpo by lia. pose proof (Ho (get Sp i) ltac:(lia)). lia.
    - rewrite Ep. lia.
    - rewrite G7, T6. pose proof (lucnt_mono r N n ltac:(lia) ltac:(lia)). pose proof (lucnt_total r n ltac:(lia)). lia. }
  cbv beta. intros [[L3 Lp] lnz3] (M1 & M2 & M3 & M4 & M5 & M6 & M7 & M8 & M9).
  assert (Hci : forall k l, 0 <= k < Sm -> 0 <= l < Sm -> get qc (get Q k) = get qc (get Q l) -> k = l).
  { intros k l Hk Hl' E. apply K8; auto. apply (co_inj _ _ _ _ HC); auto. }
  apply sat_bind. rewrite <- Hnn. eapply sat_mono.
  { apply (fill_rows_ok p false Sm S' Q qc) with (lo := fun i => i + 1) (w := Sm); auto; try lia; try nia.
    - apply (co_len _ _ _ _ HC).
    - intros k Hk. rewrite E2, HmU. apply (co_rng _ _ _ _ HC). auto.
    - intros i k Hi Hk. apply K9; lia.
    - rewrite E1, E3. lia. }
  cbv beta. intros [[U2 q2] unz] (F1 & F2 & F3 & F4 & F5 & F6 & F7 & F8). cbn [sat]. rewrite E1, E2 in *. rewrite E3 in F4.
  split; [auto|]. cbn [f_U f_L]. split; [|split; [auto|cbn [tm]; congruence]].
  (* the inverse of Sp *)
  destruct (zchoice 0 n (fun k i => 0 <= i < n /\ get Sp i = k)) as (isp & Hisp). { intros k Hk. apply (perm_surj n Sp K4 K5 k Hk). }
  assert (Hisp2 : forall i, 0 <= i < n -> isp (get Sp i) = i). { intros i Hi. destruct (Hisp (get Sp i) (K4 i Hi)). apply K5; auto. }
  set (C := fun k l => if l <=? isp k then dget Sm S' (isp k) l else 0).
  (* rows of the dense U, by column of S *)
  destruct (zchoice 0 Sm (fun t k => 0 <= k < Sm /\ get Q k = t)) as (iq & Hiq). { intros t Ht. apply (perm_surj Sm Q K7 K8 t Ht). }
  assert (Hiq2 : forall k, 0 <= k < Sm -> iq (get Q k) = k). { intros k Hk. destruct (Hiq (get Q k) (K7 k Hk)). apply K8; auto. }
  set (R := fun l t => let k := iq t in if k <? l then 0 else if k =? l then 1 else dget Sm S' l k).
  assert (HR : forall l j, 0 <= l < r -> 0 <= j < cm A -> entry U2 (cn U + l) j = dext Sm qc (R l) j).
  { intros l j Hl Hj. rewrite F7 by auto. apply (nrow_dext q (cm A)); auto; try lia.
    intros k Hk. unfold R. rewrite Hiq2 by auto. destruct (Z.ltb_spec k (l + 1)), (Z.ltb_spec k l), (Z.eqb_spec k l); auto; lia. }
  assert (HT : forall k j, 0 <= k < n -> 0 <= j < cm A -> cong p (dext Sm qc (dget Sm S k) j) (sum 0 r (fun l => C k l * entry U2 (cn U + l) j))).
  { intros k j Hk Hj. rewrite (dext_lin p q (cm A) Sm qc (dget Sm S k) r (C k) R HC); auto.
    - apply cong_eq, sum_ext. intros l Hl. now rewrite HR.
    - intros t Ht. destruct (Hisp k Hk) as [Hi1 Hi2]. destruct (Hiq t Ht) as [Ht1 Ht2]. rewrite <- Hi2 at 1. rewrite <- Ht2 at 1. rewrite K11 by auto.
      apply cong_eq, sum_ext. intros l Hl. reflexivity. }
  apply (inv_chunk p A0 full comp f0 (Fact U2 q2 (Some (Triplet lnz3 (tn L3) (tm L3) (ti L3) (tj L3) (tx L3) (tprime L3))) Lp) A o P n rem' u1 r lr
    (fun k => dext Sm qc (dget Sm S k)) C); cbn [f_U f_q f_L f_p]; fold U; auto; try lia.
  - intros i c Hi. rewrite F6 by auto. apply same_entry; auto.
  - intros k j Hk Hj. destruct (Hrow k Hk) as [_ (_ & _ & _ & D4)]. rewrite I6 in D4. fold U in D4. rewrite (D4 j Hj). subst Sm. rewrite I6. apply cong_refl.
  - intros k c v Hk Hc. destruct (Hrow k Hk) as [_ (_ & D2 & _ & _)]. apply D2. auto.
  - intros k Hk. destruct (Hrow k Hk) as [_ (_ & _ & D3 & _)]. auto.
  - intros k j Hk Hj Hq. apply (dext_pivot q (cm A)); auto.
  - intros k j Hk Hj. apply HT; auto. congruence.
  - intros HTr l Hl.
    assert (G : forall t, Z.of_nat t <= r -> forall l, 0 <= l < Z.of_nat t -> in_rowspace p A0 (entry U2 (cn U + l))).
    { induction t as [|t IH]; intros Ht l' Hl'; [lia|]. destruct (Z_lt_le_dec l' (Z.of_nat t)) as [Hlt|Hge]; [apply IH; lia|].
      assert (l' = Z.of_nat t) as -> by lia. set (T := Z.of_nat t) in *. set (dg := dget Sm S' T T).
      destruct (cong_inverse p dg Hmod Hprime) as (b & Eb); [apply K9; lia|apply K10; lia|].
      pose proof (HTr (get Sp T) (K4 T ltac:(lia))) as HTT.
      assert (HSu : in_rowspace p A0 (fun j => sum 0 T (fun l => C (get Sp T) l * entry U2 (cn U + l) j))).
      { apply in_rowspace_sum. intros l0 Hl0'. apply IH; lia. }
      eapply in_rowspace_ext; [|apply in_rowspace_scale with (k := b); apply in_rowspace_sub; [exact HTT|exact HSu]].
      intros j Hj. cbv beta. rewrite HT by (try congruence; apply K4; lia).
      rewrite (sum_split T 0 r) by lia. rewrite (sum_first T r) by lia. rewrite (sum_zero (T + 1) r).
      2:{ intros l0 Hl1. unfold C. rewrite Hisp2 by lia. replace (l0 <=? T) with false by lia. ring. }
      unfold C at 2. rewrite Hisp2 by lia. rewrite Z.leb_refl. fold dg.
      match goal with |- cong p ?x ?y => replace x with (b * dg * entry U2 (cn U + T) j) by ring end. rewrite Eb. apply cong_eq. ring. }
    apply (G (Z.to_nat r)); lia.
  - rewrite EL0. split; [exact M1|]. split; [auto|]. cbn [tn tprime tm]. split; [congruence|]. split; [congruence|]. split; [rewrite M4, G5; lia|].
    split; [congruence|]. split. { intros c Hc. rewrite M8 by lia. now rewrite Ep. }
    set (lus := trows (fun i => get po (get Sp i)) (lurow Sm r (cn U) S') (zseq 0 N)) in *.
    exists (filter (fun e => h (fst (fst e))) log ++ lus), (get Sp).
    assert (Hlus : forall i c v, In (i, c, v) lus -> exists t, 0 <= t < N /\ i = o (P (get Sp t)) /\ cn U <= c < cn U + r /\ balanced p v /\ v <> 0).
    { intros i c v Hc. apply In_trows in Hc. destruct Hc as (t & Ht & -> & Hc). apply In_zseq in Ht. exists t. split; auto. split; [apply Hpo; lia|].
      unfold lurow in Hc. apply in_map_iff in Hc. destruct Hc as (j & E & Hj). injection E as <- <-. apply filter_In in Hj. destruct Hj as [Hj1 Hj2]. apply In_zseq in Hj1.
      split; [lia|]. split; [apply K9; lia|]. lia. }
    assert (Hlg : forall i c v, In (i, c, v) log -> exists k, 0 <= k < n /\ i = o (P k) /\ In (c, v) (lr k)).
    { intros i c v Hc. apply (Permutation_in _ Hlog) in Hc. apply In_trows in Hc. destruct Hc as (k & Hk & -> & Hc). apply In_zseq in Hk. eauto. }
    assert (Hlr : forall k c v, 0 <= k < n -> In (c, v) (lr k) -> 0 <= c < cn U /\ balanced p v /\ v <> 0).
    { intros k c v Hk Hc. destruct (Hrow k Hk) as [_ (_ & D2 & _ & _)]. apply D2. auto. }
    assert (HlrN : forall k, 0 <= k < n -> NoDup (map fst (lr k))) by (intros k Hk; destruct (Hrow k Hk) as [_ (_ & _ & D3 & _)]; auto).
    assert (HND : NoDup (zseq 0 N)) by apply NoDup_zseq.
    assert (HpoI : forall a b, In a (zseq 0 N) -> In b (zseq 0 N) -> get po (get Sp a) = get po (get Sp b) -> a = b).
    { intros a b Ha Hb E. apply In_zseq in Ha, Hb. rewrite !Hpo in E by lia. apply Hinj in E; [|apply K4; lia|apply K4; lia]. apply K5; auto; lia. }
    split. { change (tlist (nz L3 lnz3) = tlist L0 ++ filter (fun e => h (fst (fst e))) log ++ lus). rewrite M6, G10, <- app_assoc. reflexivity. }
    split; [|split; [|split]].
    + rewrite map_app. apply NoDup_app.
      * apply NoDup_map_filter. apply (Permutation_NoDup (Permutation_map fst (Permutation_sym Hlog))). apply NoDup_trows.
        -- apply NoDup_zseq.
        -- intros a b Ha Hb E. apply In_zseq in Ha, Hb. auto.
        -- intros k Hk. apply In_zseq in Hk. auto.
      * apply NoDup_trows; auto. intros k Hk. unfold lurow. rewrite map_map. cbn [fst]. apply FinFun.Injective_map_NoDup; [intros x y E; lia|]. apply NoDup_filter, NoDup_zseq.
      * intros [i c] H1 H2. apply in_map_iff in H1, H2. destruct H1 as ([[i1 c1] v1] & X1 & H1), H2 as ([[i2 c2] v2] & X2 & H2).
        cbn in X1, X2. injection X1 as -> ->. injection X2 as -> ->. apply filter_In in H1. destruct H1 as [H1 _]. apply Hlg in H1. destruct H1 as (k & Hk & _ & H1).
        apply Hlus in H2. destruct H2 as (t & _ & _ & H2 & _). destruct (Hlr k c v1 Hk H1). lia.
    + intros i c v Hc. apply in_app_iff in Hc. destruct Hc as [Hc|Hc].
      * apply filter_In in Hc. destruct Hc as [Hc _]. apply Hlg in Hc. destruct Hc as (k & Hk & -> & Hc). exists k. destruct (Hlr k c v Hk Hc) as (H1 & H2 & H3). auto 10.
      * apply Hlus in Hc. destruct Hc as (t & Ht & -> & Hc & Hb & Hv). exists (get Sp t). split; [apply K4; lia|]. split; auto. split; auto. split; auto. right. lia.
    + intros l Hl. split; [apply K4; lia|]. split. { rewrite M9 by lia. apply Hpo. lia. }
      unfold C. rewrite !Hisp2 by lia. rewrite Z.leb_refl. split; [apply balanced_nz; auto; apply K9; lia|].
      intros l' Hl'. now replace (l' <=? l) with false by lia.
    + intros k Hk HB c Hc. rewrite tcoef_app. rewrite (tcoef_filter h) by auto. rewrite (tcoef_perm _ _ _ _ Hlog).
      rewrite (tcoef_trows (fun k => o (P k)) lr (zseq 0 n) k c); [|apply NoDup_zseq|intros a b Ha Hb E; apply In_zseq in Ha, Hb; auto|now apply In_zseq].
      set (i := isp k). destruct (Hisp k Hk) as [Hi1 Hi2]. fold i in Hi1, Hi2.
      assert (HiN : 0 <= i < N). { unfold N. destruct comp; auto. destruct HB as [|(l & Hl & E)]; [easy|]. unfold i. rewrite E, Hisp2; lia. }
      assert (Eo : o (P k) = get po (get Sp i)) by (rewrite Hpo, Hi2 by lia; reflexivity). rewrite Eo. unfold lus.
      rewrite (tcoef_trows (fun i => get po (get Sp i)) (lurow Sm r (cn U) S') (zseq 0 N) i c); auto; [|now apply In_zseq].
      destruct (Z.ltb_spec c (cn U)) as [Hlt|Hge].
      * rewrite (lentry_absent c (lurow _ _ _ _ _)); [ring|]. intros Hin. apply in_map_iff in Hin. destruct Hin as ([c' v] & X1 & Hin). cbn in X1. subst c'.
        unfold lurow in Hin. apply in_map_iff in Hin. destruct Hin as (j & E & Hj). injection E as <- <-. apply filter_In in Hj. destruct Hj as [Hj _]. apply In_zseq in Hj. lia.
      * rewrite (lentry_absent c (lr k)).
        2:{ intros Hin. apply in_map_iff in Hin. destruct Hin as ([c' v] & X1 & Hin). cbn in X1. subst c'. destruct (Hlr k c v Hk Hin). lia. }
        set (l := c - cn U). assert (Hl : 0 <= l < r) by lia. unfold C. fold i. unfold lurow.
        destruct (Z.leb_spec l i) as [Hli|Hli].
        -- destruct (Z.eq_dec (dget Sm S' i l) 0) as [E0|E0].
           ++ rewrite E0. rewrite (lentry_map_out (fun j => cn U + j)); [ring|]. intros t Ht E. apply filter_In in Ht. destruct Ht as [_ Ht]. assert (t = l) as -> by lia. lia.
           ++ replace c with (cn U + l) by lia. rewrite (lentry_map_inj (fun j => cn U + j)); [ring|intros; lia|apply NoDup_filter, NoDup_zseq|].
              apply filter_In. split; [apply In_zseq; lia|lia].
        -- rewrite (lentry_map_out (fun j => cn U + j)); [ring|]. intros t Ht E. apply filter_In in Ht. destruct Ht as [Ht _]. apply In_zseq in Ht. lia.
Qed.
