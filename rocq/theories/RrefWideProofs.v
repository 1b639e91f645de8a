(** spasm_rref beyond 2^31 entries. *)
From Verif Require Import Base BaseFacts Spec SpecFacts Zp ZpFacts Mat MatFacts RowList CompressProofs TransposeProofs Reach ReachProofs TriProofs Solve SolveProofs LinAlg Par ParProofs ParRun ParRows Schur SchurProofs Rref RrefProofs KernelProofs DenseProofs DenseProofs4 CertProofs Scc Wide WideProofs.
From Coq Require Import ZifyBool Permutation.

(** ** spasm_rref *)
Section RREF.
Context (U : csr) (qinv : list Z) (p : Z) (HU : wf U) (HUp : upper p U qinv) (Hpf : pivot_first U qinv) (Hp2 : 2 <= p).
(* the pivots are alone in their columns, the other columns are full *)
Context (Halone : forall i k, 0 <= i < cn U -> 0 <= k < cn U -> i <> k -> cong p (entry U i (get (cj U) (rbeg U k))) 0).
Context (Hfull : forall i j, 0 <= i < cn U -> 0 <= j < cm U -> get qinv j = -1 -> ~ cong p (entry U i j) 0).
Lemma rref_row_len t T row y : 0 <= t < cn U -> rref_spec U qinv p t T row y -> cm U - cn U + 1 <= len row.
Proof.
  intros Ht (_ & _ & (rest & E) & HN & Hc & Hy). pose proof (up_rng _ _ _ HUp) as Hqr.
  assert (Hin : In (pcol U t, 1) row) by (rewrite E; now left).
  assert (Hpc : forall i, 0 <= i < cn U -> 0 <= pcol U i < cm U) by (intros; apply (pcol_range U qinv HU Hpf); auto).
  assert (Hpq : forall i, 0 <= i < cn U -> get qinv (pcol U i) = i) by (intros; apply (pcol_qinv U qinv Hpf); auto).
  assert (Hu : forall i, 0 <= i < cn U -> cong p (entry U i (pcol U i)) 1).
  { intros i Hi. rewrite <- (Hpq i Hi) at 1. apply (up_unit _ _ _ HUp); auto. rewrite Hpq; lia. }
  assert (Y : forall i, 0 <= i < cn U -> cong p (y i) (if i =? t then 1 else 0)).
  { intros i Hi. pose proof (Hy (pcol U i) (Hpc i Hi)) as G. assert (X : cong p (xA U y (pcol U i)) (y i)).
    { unfold xA. eapply cong_trans; [apply (sum_cong p _ _ _ (fun k => if k =? i then y i else 0))|rewrite sum_delta; replace ((0 <=? i) && (i <? cn U)) with true by lia; apply cong_refl].
      intros k Hk. destruct (Z.eqb_spec k i) as [->|Hne].
      - rewrite (Hu i Hi). rewrite Z.mul_1_r. apply cong_refl.
      - rewrite (Halone k i Hk Hi Hne). rewrite Z.mul_0_r. apply cong_refl. }
    rewrite X in G. rewrite <- G. destruct (Z.eqb_spec i t) as [->|Hne]; [rewrite (lentry_in _ 1); auto; apply cong_refl|].
    rewrite lentry_absent; [apply cong_refl|]. intros Hi'. apply in_map_iff in Hi'. destruct Hi' as ([c v] & E1 & E2). cbn [fst] in E1. subst c.
    destruct (Hc _ _ E2) as (_ & _ & _ & H4). rewrite Hpq in H4 by auto. enough (i = -1) by lia. apply H4. intros E3. apply Hne. rewrite <- (Hpq i), <- (Hpq t) by auto. now rewrite E3. }
  set (F := filter (fun j => negb (0 <=? get qinv j)) (zseq 0 (cm U))).
  assert (LF : len F = cm U - cn U).
  { unfold F. rewrite <- lsum_filter_len, lsum_zseq, <- (count_free p U qinv HU HUp). apply sum_ext. intros j _. destruct (0 <=? get qinv j); reflexivity. }
  assert (HF : forall j, In j F <-> 0 <= j < cm U /\ get qinv j = -1).
  { intros j. unfold F. rewrite filter_In, In_zseq. split; intros [H1 H2]; (split; [auto|]); [specialize (Hqr j H1); lia|lia]. }
  enough (I : (length (pcol U t :: F) <= length (map fst row))%nat).
  { rewrite map_length in I. cbn [length] in I. unfold len in *. lia. }
  apply NoDup_incl_length.
  - constructor; [rewrite HF; intros [_ H]; rewrite Hpq in H; lia|apply NoDup_filter, NoDup_zseq].
  - intros j [<-|Hj]; [apply in_map_iff; now exists (pcol U t, 1)|]. apply HF in Hj. destruct Hj as [Hj Hq].
    destruct (in_dec Z.eq_dec j (map fst row)) as [|Hout]; [auto|]. exfalso. pose proof (Hy j Hj) as G. rewrite lentry_absent in G by auto.
    apply (Hfull t j Ht Hj Hq). rewrite G. apply cong_sym. unfold xA. eapply cong_trans; [apply (sum_cong p _ _ _ (fun k => if k =? t then entry U t j else 0))|rewrite sum_delta; replace ((0 <=? t) && (t <? cn U)) with true by lia; apply cong_refl].
    intros k Hk. rewrite (Y k Hk). destruct (Z.eqb_spec k t) as [->|]; [rewrite Z.mul_1_l|rewrite Z.mul_0_l]; apply cong_refl.
Qed.
Lemma rref_row_max t T row y : 0 <= t < cn U -> rref_spec U qinv p t T row y -> len row <= cm U - cn U + 1.
Proof.
  intros Ht (_ & _ & (rest & E) & HN & Hc & _). rewrite E in *. rewrite len_cons. enough (len rest <= cm U - cn U) by lia.
  rewrite <- (count_free p U qinv HU HUp). cbn [map fst] in HN. inversion HN; subst.
  rewrite <- (len_map fst). eapply Z.le_trans; [apply (len_count (map fst rest) (cm U) (fun c => negb (0 <=? get qinv c))); auto|].
  - intros c Hin. apply in_map_iff in Hin. destruct Hin as ([c' v] & <- & He). cbn [fst].
    destruct (Hc c' v (or_intror He)) as (H3 & _ & _ & H4). split; auto. rewrite H4; [reflexivity|].
    intros ->. apply H1. apply in_map_iff. exists (pcol U t, v). auto.
  - apply Z.eq_le_incl. apply sum_ext. intros c _. destruct (0 <=? get qinv c); reflexivity.
Qed.
Lemma rref_wide g ch scr Rqinv k : cprime U = p -> cx U <> None -> (forall i, 0 <= i < cn U -> scr_ok (cm U) (scr i)) -> len Rqinv = cm U ->
  0 <= k < cn U -> 2 ^ 31 <= k * (cm U - cn U + 1) -> cn U * (cm U - cn U + 1) <= 2 ^ 32 -> rref g ch scr U qinv Rqinv = Fail OOB.
Proof.
  intros Hp Hx Hscr HRq Hk Hbig Hmax.
  pose proof (wf_n U HU) as Hn. pose proof (wf_m U HU) as Hm. pose proof (wf_len U HU) as Hlen. pose proof (wf_nnz U HU) as Hnz.
  pose proof (up_len _ _ _ HUp) as Hql. pose proof (up_rng _ _ _ HUp) as Hqr.
  enough (O : outs (rref g ch scr U qinv Rqinv) (fun _ => False) (fun e => e = OOB)) by (destruct (rref g ch scr U qinv Rqinv); cbn [outs] in O; [easy|now subst]).
  unfold rref. cbv zeta. apply outs_bind, sat_outs, sat_aget; [lia|]. fold (nnz U). set (R0 := csr_alloc g (cn U) (cm U) (nnz U) (cprime U) true).
  apply outs_bind, sat_outs. eapply sat_mono.
  { apply (all_tasks_ok ([], fun _ => 0) (cn U) _ (fun i T x => rref_spec U qinv p i T (fst x) (snd x))).
    - lia.
    - intros i Hi. eapply sat_mono; [apply (rref_task_ok U qinv p HU Hp Hp2 Hx HUp Hpf (scr i) i); auto|].
      cbv beta. intros T (row & y & H). exists (row, y). exact H. }
  cbv beta. intros ts (Hts & xs & Hxs & HT).
  set (T := getd idle ts) in *. set (row := fun t => fst (getd ([], fun _ => 0) xs t)). set (y := fun t => snd (getd ([], fun _ => 0) xs t)).
  assert (HTk : forall t, 0 <= t < cn U -> rref_spec U qinv p t (T t) (row t) (y t)) by exact HT.
  assert (HTn : forall t, ~ 0 <= t < cn U -> T t = idle). { intros t Ht. unfold T. apply getd_out. lia. }
  clear HT. clearbody T row y. clear ts Hts xs Hxs.
  apply outs_bind, sat_outs. eapply sat_mono.
  { apply (par_rows g ch T (cn U) (cn U) (cm U) (cprime U) row R0).
    - lia.
    - intros t Ht _. apply (HTk t Ht).
    - intros t [Ht|Ht]; auto. destruct (Z_lt_le_dec t 0); [apply HTn; lia|]. destruct (Z_lt_le_dec t (cn U)); [|apply HTn; lia].
      destruct (HTk t) as [E _]; [lia|congruence].
    - rewrite (sum_ext 0 (cn U) _ (fun _ => 1)). { rewrite sum_const by lia. lia. }
      intros i Hi. destruct (HTk i Hi) as [-> _]. reflexivity.
    - unfold R0, csr_alloc, rows_mem. cbn [cp cj cx]. rewrite len_upd, len_malloc. lia.
    - unfold R0, csr_alloc, rows_mem. cbn [cp cj cx]. apply get_upd_eq. rewrite len_malloc. lia.
    - unfold R0, csr_alloc, rows_mem. cbn [cp cj cx]. now rewrite !len_malloc. }
  cbv beta. intros h (o & Ho & Hlo & HR). rewrite (actives_all T (cn U)) in Ho by (intros t Ht; destruct (HTk t Ht); auto).
  assert (Hperm : is_perm (cn U) o) by (apply Permutation_is_perm; auto; lia). pose proof Hperm as [Pl [Pr Pi]].
  assert (HoT : forall t, In t o -> 0 <= t < cn U). { intros t Ht. apply In_zseq. apply (Permutation_in _ Ho Ht). }
  set (R := Csr (cn U) (cm U) (s_mem h SP) (s_mem h SJ) (Some (s_mem h SX)) (cprime U)) in *.
  assert (WR : wf R).
  { apply (has_rows_wf R (map row o) HR); auto. intros r [c v] Hr He. apply in_map_iff in Hr. destruct Hr as (t & <- & Ht).
    destruct (HTk t (HoT t Ht)) as (_ & _ & _ & _ & H & _). cbn. apply (H c v He). }
  assert (Hrow : forall i, 0 <= i < cn U -> rend R i - rbeg R i = cm U - cn U + 1).
  { intros i Hi. pose proof (wf_row R WR i Hi). rewrite <- len_rowl by lia. rewrite (has_rows_rowl R _ HR i Hi). rewrite (getd_map row 0) by lia. specialize (Pr i Hi).
    pose proof (rref_row_len _ _ _ _ Pr (HTk _ Pr)). pose proof (rref_row_max _ _ _ _ Pr (HTk _ Pr)). unfold get in *. lia. }
  assert (Hb : forall i, 0 <= i -> i < cn U -> rbeg R i = i * (cm U - cn U + 1)).
  { apply (natlike_ind (fun i => i < cn U -> rbeg R i = i * (cm U - cn U + 1))); [intros _; unfold wf in WR; unfold rbeg; tauto|].
    intros i Hi IH Hl. pose proof (Hrow i ltac:(lia)) as E. rewrite IH in E by lia. change (rend R i) with (rbeg R (i + 1)) in E. unfold Z.succ. lia. }
  apply outs_bind, sat_outs. apply (for_spec (fun _ q => len q = cm U)); [lia|auto|intros i q Hi L; apply sat_aset; [lia|]; now rewrite len_upd|].
  intros q0 Lq0. apply outs_bind. apply (outs_for (fun i q => len q = cm U /\ i <= k)); [lia|split; [auto|lia]| |intros q [_ H]; lia].
  intros i q Hi [Lq Hik]. pose proof (wf_row R WR i Hi) as Hr. pose proof (wf_len R WR) as HlR. pose proof (wf_nnz R WR) as HzR. pose proof (Hrow i Hi) as Hri. pose proof (Hb i ltac:(lia) ltac:(lia)) as Hbi.
  assert (0 < cm U - cn U + 1) by (destruct (Z_lt_le_dec 0 (cm U - cn U + 1)); [auto|]; nia).
  apply outs_bind, sat_outs, sat_aget; [change (s_mem h SP) with (cp R); cbn [R cn] in HlR; lia|]. change (get (s_mem h SP) i) with (rbeg R i). change (s_mem h SJ) with (cj R).
  assert (rbeg R i < 2 ^ 32) by nia.
  destruct (Z_lt_le_dec (rbeg R i) (2 ^ 31)).
  - rewrite to_i32_id by lia. apply outs_bind, sat_outs, sat_aget; [lia|]. pose proof (wf_col R WR (rbeg R i) ltac:(lia)) as Hc. cbn [R cm] in Hc. apply sat_outs, sat_aset; [lia|]. rewrite len_upd. split; [auto|].
    destruct (Z.eq_dec i k) as [->|]; lia.
  - pose proof (to_i32_neg (rbeg R i) ltac:(lia)). unfold aget at 1, inb. replace (andb _ _) with false by lia. cbn [bind outs]. reflexivity.
Qed.
End RREF.

(* an echelonized matrix with three rows and w other columns, all full *)
Definition wide_F (w : Z) : csr :=
  Csr 3 (w + 3) [0; w + 1; 2 * w + 2; 3 * w + 3] ((0 :: zseq 3 (w + 3)) ++ (1 :: zseq 3 (w + 3)) ++ (2 :: zseq 3 (w + 3))) (Some (fill (3 * w + 3) 1)) 7.
Section wide_F.
Context (w : Z) (Hw : 1 <= w).
Lemma wideF_len : len (cj (wide_F w)) = 3 * w + 3.
Proof. cbn [cj wide_F]. rewrite !len_app, !len_cons, !len_zseq. lia. Qed.
Lemma wideF_cj i r : 0 <= i < 3 -> 0 <= r <= w -> get (cj (wide_F w)) (i * (w + 1) + r) = if r =? 0 then i else r + 2.
Proof.
  intros Hi Hr. cbn [cj wide_F]. assert (G : forall h k, 0 <= k <= w -> get (h :: zseq 3 (w + 3)) k = if k =? 0 then h else k + 2).
  { intros h k Hk. rewrite get_cons. destruct (Z.eqb_spec k 0); [auto|]. replace (k <? 0) with false by lia. unfold get. rewrite getd_zseq by lia. lia. }
  assert (L : forall h, len (h :: zseq 3 (w + 3)) = w + 1) by (intros h; rewrite len_cons, len_zseq; lia).
  assert (C : i = 0 \/ i = 1 \/ i = 2) by lia. destruct C as [-> | [-> | ->]].
  - rewrite get_app_l by (rewrite L; lia). rewrite G by lia. now replace (0 * (w + 1) + r) with r by lia.
  - rewrite get_app_r by (rewrite L; lia). rewrite L. rewrite get_app_l by (rewrite L; lia). rewrite G by lia. now replace (1 * (w + 1) + r - (w + 1)) with r by lia.
  - rewrite get_app_r by (rewrite L; lia). rewrite L. rewrite get_app_r by (rewrite L; lia). rewrite L, G by lia. now replace (2 * (w + 1) + r - (w + 1) - (w + 1)) with r by lia.
Qed.
Lemma wideF_row i : 0 <= i < 3 -> rbeg (wide_F w) i = i * (w + 1) /\ rend (wide_F w) i = (i + 1) * (w + 1).
Proof.
  intros Hi. assert (B : rbeg (wide_F w) 0 = 0 /\ rbeg (wide_F w) 1 = w + 1 /\ rbeg (wide_F w) 2 = 2 * w + 2 /\ rend (wide_F w) 0 = w + 1 /\ rend (wide_F w) 1 = 2 * w + 2 /\ rend (wide_F w) 2 = 3 * w + 3) by (repeat split).
  assert (C : i = 0 \/ i = 1 \/ i = 2) by lia. destruct C as [-> | [-> | ->]]; lia.
Qed.
Lemma wideF_pos px : 0 <= px < 3 * w + 3 -> exists i r, 0 <= i < 3 /\ 0 <= r <= w /\ px = i * (w + 1) + r.
Proof. intros H. destruct (Z_lt_le_dec px (w + 1)); [exists 0, px|destruct (Z_lt_le_dec px (2 * (w + 1))); [exists 1, (px - (w + 1))|exists 2, (px - 2 * (w + 1))]]; lia. Qed.
Lemma wideF_wf : wf (wide_F w).
Proof.
  unfold wf. rewrite wideF_len. unfold nnz. cbn [cn cm cp cx wide_F]. change (get [0; w + 1; 2 * w + 2; 3 * w + 3] 3) with (3 * w + 3).
  split; [lia|]. split; [lia|]. split; [cbn; lia|]. split; [reflexivity|]. split; [intros i Hi; destruct (wideF_row i Hi) as [-> ->]; lia|].
  split; [lia|]. split; [|rewrite len_fill; lia]. intros px Hpx. destruct (wideF_pos px Hpx) as (i & r & Hi & Hr & ->). rewrite wideF_cj by lia. destruct (Z.eqb_spec r 0); lia.
Qed.
Definition wideF_q : list Z := 0 :: 1 :: 2 :: fill w (-1).
Lemma wideF_getq j : 0 <= j < w + 3 -> get wideF_q j = if j <? 3 then j else -1.
Proof. exact (wide_getq w j). Qed.
Lemma wideF_stored i j : 0 <= i < 3 -> 0 <= j < w + 3 -> stored (wide_F w) i j <-> i = j \/ 3 <= j.
Proof.
  intros Hi Hj. unfold stored. destruct (wideF_row i Hi) as [-> ->]. split.
  - intros (px & H & E). replace px with (i * (w + 1) + (px - i * (w + 1))) in E by lia. rewrite wideF_cj in E by lia. destruct (Z.eqb_spec (px - i * (w + 1)) 0); lia.
  - intros [<-|H]; [exists (i * (w + 1) + 0)|exists (i * (w + 1) + (j - 2))]; (split; [lia|]); rewrite wideF_cj by lia; [reflexivity|]. replace (j - 2 =? 0) with false by lia. lia.
Qed.
Lemma wideF_entry i j : 0 <= i < 3 -> 0 <= j < w + 3 -> entry (wide_F w) i j = if (i =? j) || (3 <=? j) then 1 else 0.
Proof.
  intros Hi Hj. pose proof (wideF_stored i j Hi Hj) as S. unfold stored in S. unfold entry. destruct (wideF_row i Hi) as [B E]. rewrite B, E in *.
  assert (V : forall px, i * (w + 1) <= px < (i + 1) * (w + 1) -> val (wide_F w) px = 1) by (intros px Hpx; unfold val; cbn [cx wide_F]; apply get_fill; nia).
  destruct ((i =? j) || (3 <=? j)) eqn:D.
  - destruct (proj2 S ltac:(lia)) as (px & Hpx & Ej). rewrite (sum_single _ _ _ px Hpx); [rewrite Ej, Z.eqb_refl; auto|].
    intros qx Hq Hne. destruct (Z.eqb_spec (get (cj (wide_F w)) qx) j) as [Eq|]; [|auto]. exfalso. apply Hne. rewrite <- Ej in Eq. replace px with (i * (w + 1) + (px - i * (w + 1))) in Eq |- * by lia. replace qx with (i * (w + 1) + (qx - i * (w + 1))) in Eq |- * by lia.
    rewrite !wideF_cj in Eq by lia. destruct (Z.eqb_spec (qx - i * (w + 1)) 0), (Z.eqb_spec (px - i * (w + 1)) 0); lia.
  - apply sum_zero. intros px Hpx. destruct (Z.eqb_spec (get (cj (wide_F w)) px) j) as [Eq|]; [|auto]. exfalso. enough (i = j \/ 3 <= j) by lia. apply S. eauto.
Qed.
Lemma wideF_pcol i : 0 <= i < 3 -> get (cj (wide_F w)) (rbeg (wide_F w) i) = i.
Proof. intros Hi. destruct (wideF_row i Hi) as [-> _]. pose proof (wideF_cj i 0 Hi ltac:(lia)) as E. rewrite Z.add_0_r in E. exact E. Qed.
Lemma wideF_upper : upper 7 (wide_F w) wideF_q.
Proof.
  constructor; cbn [cm cn wide_F].
  - unfold wideF_q. rewrite !len_cons, len_fill. lia.
  - intros j Hj. rewrite wideF_getq by lia. destruct (Z.ltb_spec j 3); lia.
  - intros i Hi. exists i. rewrite wideF_getq by lia. replace (i <? 3) with true by lia. lia.
  - intros j k Hj Hk. rewrite !wideF_getq by lia. destruct (Z.ltb_spec j 3), (Z.ltb_spec k 3); lia.
  - intros j Hj. rewrite wideF_getq by lia. destruct (Z.ltb_spec j 3); [|lia]. intros _. rewrite wideF_entry by lia. replace ((j =? j) || (3 <=? j)) with true by lia. apply cong_refl.
  - intros j i Hj. rewrite wideF_getq by lia. destruct (Z.ltb_spec j 3); [|lia]. intros H1 H2. rewrite wideF_stored by lia. lia.
Qed.
Lemma wideF_first : pivot_first (wide_F w) wideF_q.
Proof. intros i Hi. cbn [cn wide_F] in Hi. rewrite wideF_pcol by lia. destruct (wideF_row i Hi) as [-> ->]. split; [lia|]. rewrite wideF_getq by lia. now replace (i <? 3) with true by lia. Qed.
Lemma wideF_alone i k : 0 <= i < 3 -> 0 <= k < 3 -> i <> k -> cong 7 (entry (wide_F w) i (get (cj (wide_F w)) (rbeg (wide_F w) k))) 0.
Proof. intros Hi Hk Hne. rewrite wideF_pcol, wideF_entry by lia. replace ((i =? k) || (3 <=? k)) with false by lia. apply cong_refl. Qed.
Lemma wideF_full i j : 0 <= i < 3 -> 0 <= j < w + 3 -> get wideF_q j = -1 -> ~ cong 7 (entry (wide_F w) i j) 0.
Proof. intros Hi Hj. rewrite wideF_getq, wideF_entry by lia. destruct (Z.ltb_spec j 3); [lia|]. intros _. replace ((i =? j) || (3 <=? j)) with true by lia. intros [x Hx]. lia. Qed.
End wide_F.
Lemma rref_wide_witness : exists U qinv, wf U /\ cprime U = 7 /\ cx U <> None /\ upper 7 U qinv /\ pivot_first U qinv /\ cn U = 3 /\ cm U = 2 ^ 30 + 3 /\ nnz U = 3 * 2 ^ 30 + 3 /\
  forall g ch scr Rqinv, (forall i, 0 <= i < cn U -> scr_ok (cm U) (scr i)) -> len Rqinv = cm U -> rref g ch scr U qinv Rqinv = Fail OOB.
Proof.
  exists (wide_F (2 ^ 30)), (wideF_q (2 ^ 30)). pose proof (wideF_wf (2 ^ 30) ltac:(lia)) as W. pose proof (wideF_upper (2 ^ 30) ltac:(lia)) as HU. pose proof (wideF_first (2 ^ 30) ltac:(lia)) as HF.
  split; [exact W|]. split; [reflexivity|]. split; [discriminate|]. split; [exact HU|]. split; [exact HF|]. split; [reflexivity|]. split; [reflexivity|]. split; [reflexivity|].
  intros g ch scr Rqinv Hs HR. apply (rref_wide _ _ 7 W HU HF ltac:(lia) (wideF_alone (2 ^ 30) ltac:(lia)) (wideF_full (2 ^ 30) ltac:(lia)) g ch scr Rqinv 2); auto; [discriminate|cbn [cn wide_F]; lia|cbn [cm cn wide_F]; lia|cbn [cm cn wide_F]; lia].
Qed.
