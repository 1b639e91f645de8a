(** Proofs about spasm_echelonize (Echelonize.v): the whole function. *)
From Verif Require Import Base BaseFacts Spec SpecFacts SpecElim Zp ZpFacts Mat MatFacts RowList CompressProofs LinAlg TriProofs VecProofs KernelProofs ParRows ElimFacts EchInv
  Reach Pivots GreedyProofs Extract ExtractProofs Par Schur SchurProofs RrefProofs Sched Append AppendProofs Gplu GpluProofs Dense DenseSpec DenseProofs DenseProofs2 DenseProofs3 DenseProofs4 Echelonize EchProofs.
From Coq Require Import ZifyBool Permutation.

(* the same matrix with other row pointers beyond the last row *)
Lemma elim_resize p U q U' : elim p U q -> wf U' -> cn U' = cn U -> cm U' = cm U -> cj U' = cj U -> cx U' = cx U -> cprime U' = cprime U ->
  (forall i, 0 <= i <= cn U -> get (cp U') i = get (cp U) i) -> elim p U' q /\ forall i j, 0 <= i < cn U -> entry U' i j = entry U i j.
Proof.
  intros [W X P Up F R] W' En Em Ej Ex Ep Hcp.
  assert (Hrb : forall i, 0 <= i < cn U -> rbeg U' i = rbeg U i /\ rend U' i = rend U i). { intros i Hi. unfold rbeg, rend. rewrite !Hcp by lia. auto. }
  assert (Hv : forall k, val U' k = val U k) by (intros k; unfold val; now rewrite Ex).
  assert (He : forall i j, 0 <= i < cn U -> entry U' i j = entry U i j).
  { intros i j Hi. unfold entry. destruct (Hrb i Hi) as [-> ->]. apply sum_ext. intros k Hk. now rewrite Ej, Hv. }
  split; [|exact He]. constructor; auto; try congruence.
  - destruct Up as [U1 U2 U3 U4 U5 U6]. constructor; rewrite ?En, ?Em; auto.
    + intros j Hj Hq. rewrite He; auto. specialize (U2 j Hj). lia.
    + intros j i Hj Hq Hi (k & Hk & Hk2). apply (U6 j i Hj Hq Hi). exists k. rewrite <- Ej. destruct (Hrb i ltac:(lia)) as [<- <-]. auto.
  - intros i Hi. rewrite En in Hi. destruct (Hrb i Hi) as [-> ->]. rewrite Ej. now apply F.
  - destruct R as [R1 R2]. split; [congruence|]. intros k Hk. rewrite Hv, Ep. apply R2. unfold nnz in *. rewrite En, Hcp in Hk; auto. pose proof (wf_n U W). lia.
Qed.

Definition lpost (p : Z) (A0 : csr) (comp : bool) (c : bool) (f : lu) : Prop :=
  lu_complete f = c /\ exists L, lower_of p A0 f L /\
    (comp = true -> forall i j, 0 <= i < cn A0 -> 0 <= j < cm A0 -> cong p (entry A0 i j) (xA (lu_U f) (entry L i) j)).

Lemma cleanup_ok g c p A0 (full : Prop) comp f A o u1 : ok_modulus p -> inv p A0 full comp f A o [] u1 ->
  sat (ech_cleanup g c f) (fun r => echelon_of p A0 r /\ (forall i j, 0 <= i < cn (f_U f) -> entry (lu_U r) i j = entry (f_U f) i j) /\ cn (lu_U r) = cn (f_U f) /\
    (full -> forall i, 0 <= i < cn A0 -> in_rowspace p (lu_U r) (entry A0 i)) /\
    if is_some (f_L f) then lpost p A0 comp c r else lu_L r = None).
Proof.
  intros Hmod [I1 I2 I3 I4 I5 I6 I7 I8 I9 I10 I11 I12 I13 I14 I15 I16]. assert (Hp2 : 2 <= p) by (unfold ok_modulus in *; lia).
  change (len (@nil Z)) with 0 in I4. set (U := f_U f) in *.
  unfold ech_cleanup. fold U. apply sat_bind. eapply sat_mono; [apply csr_resize_ok; [apply I1|lia|lia]|]. cbv beta.
  intros U1 (W1 & E1 & E2 & E3 & E4 & E5 & E6 & E7 & _).
  destruct (elim_resize p U (f_q f) U1 I1 W1 E1 E2 E3 E4 E5 E7) as [HE1 He1].
  apply sat_bind. eapply sat_mono; [apply (csr_realloc_ok g U1 (-1)); auto; lia|]. cbv beta. intros U2 (W2 & HS & _ & HX).
  pose proof HS as (S1 & S2 & S3 & S4 & S5).
  assert (HE2 : elim p U2 (f_q f)) by (apply (elim_same p U1); auto).
  assert (He : forall i j, 0 <= i < cn U -> entry U2 i j = entry U i j). { intros i j Hi. rewrite (same_entry U1 U2) by (auto; lia). now apply He1. }
  assert (Hn2 : cn U2 = cn U) by congruence. assert (Hm2 : cm U2 = cm A0) by congruence.
  assert (HxA : forall x j, xA U2 x j = xA U x j). { intros x j. unfold xA. rewrite Hn2. apply sum_ext. intros i Hi. now rewrite He. }
  assert (HEO : forall r, lu_U r = U2 -> lu_qinv r = f_q f -> echelon_of p A0 r).
  { intros r R1 R2. destruct HE2 as [K1 K2 K3 K4 K5 K6]. constructor; rewrite ?R1, ?R2; auto; try lia.
    intros k Hk. rewrite Hn2 in Hk. apply (in_rowspace_ext p A0 (entry U k)); [|auto]. intros j Hj. rewrite He by auto. apply cong_refl. }
  assert (HF : full -> forall i, 0 <= i < cn A0 -> in_rowspace p U2 (entry A0 i)).
  { intros Hf i Hi. destruct (I15 Hf i Hi) as [(y & Hy)|(k & [] & _)]. exists y. intros j Hj. rewrite HxA. apply Hy. rewrite I2. lia. }
  destruct (f_L f) as [L|].
  - destruct I16 as [Q1 Q2 Q3 Q4 Q5 Q6 Q7 Q8 Q9 Q10]. destruct Q1 as [(T1 & T2 & T3 & T4 & T5 & T6) K2 K3 K4 K5 K6 K7 K8].
    set (L1 := Triplet _ _ _ _ _ _ _). pose proof (wf_n U2 W2) as Hn0.
    assert (HTE : forall i c, tentry L1 i c = tentry L i c) by reflexivity.
    assert (HTS : forall i c, tstored L1 i c <-> tstored L i c) by reflexivity.
    apply sat_bind. eapply sat_mono.
    { apply (compress_exact g L1); cbn [L1 tprime tx]; rewrite ?K3; auto.
      - unfold twf. cbn [L1 tn tm tnz ti tj tx]. split; [auto|]. split; [auto|]. split; [auto|]. split; [auto|]. split; [auto|].
        intros k Hk. destruct (T6 k Hk) as [Y1 Y2]. split; auto. split; [lia|]. rewrite Hn2. apply (K8 (get (ti L) k)). exists k. auto. }
    cbv beta. intros C (V1 & V2 & V3 & V4 & V5 & V6 & V7 & V8 & V9 & V10 & V11). cbn [L1 tn tm tprime] in *. cbn [sat is_some].
    assert (Hre : forall k, 0 <= k < cn U -> get (realloc (g 61) (f_p f) (cn U2)) k = get (f_p f) k). { intros k Hk. rewrite Hn2. apply get_realloc; lia. }
    assert (HC : forall i c, 0 <= i < cn A0 -> cong p (entry C i c) (tentry L i c)). { intros i c0 Hi. rewrite <- HTE, <- K3. apply V11. rewrite K4. auto. }
    assert (HLU : forall i j, 0 <= i < cn A0 -> cong p (xA U2 (entry C i) j) (xA U (tentry L i) j)). { intros i j Hi. rewrite HxA. apply xA_cong. intros c0 _. auto. }
    split; [now apply HEO|]. split; [exact He|]. split; [exact Hn2|]. split; [exact HF|]. split; [reflexivity|]. exists C. split.
    + constructor; cbn [lu_L lu_U lu_p]; auto; try congruence.
      * split; auto. rewrite V4. auto.
      * constructor; rewrite V3.
        -- rewrite len_realloc; lia.
        -- intros j Hj. rewrite Hn2 in Hj. rewrite Hre, V2, K4 by auto. auto.
        -- intros j Hj. rewrite Hn2 in Hj. rewrite Hre by auto. rewrite HC by auto. auto.
        -- intros j k Hj Hk. rewrite Hn2 in Hk. rewrite Hre by lia. rewrite HC by (apply Q3; lia). auto.
      * rewrite len_realloc; lia.
      * intros k j Hk Hj. rewrite Hn2 in Hk. rewrite Hre by auto. rewrite HLU by auto. auto.
    + intros Hc i j Hi Hj. cbn [lu_U]. rewrite HLU by auto. apply Q10; auto.
  - cbn [sat is_some]. split; [now apply HEO|]. split; [exact He|]. split; [exact Hn2|]. split; [exact HF|]. reflexivity.
Qed.

(** ** The whole function *)
(* the options under which the row space is found completely *)
Definition always_dense (X : params) : Prop := (forall c d, x_dens X c d = true) /\ (forall a b c, x_dens0 X a b c = true).
Definition one_round (X : params) (o : opts) : Prop := o_rounds o <= 0 \/ forall c d, x_dens X c d = true.
Definition wantsL (o : opts) : bool := o_L o || o_complete o.
Definition low_rank (o : opts) : bool := o_tall o && negb (wantsL o).

Theorem echelonize_ok X fuel o A p : ok_modulus p -> Znumtheory.prime p -> wf A -> cprime A = p -> reduced A -> no_zero A -> nodup_rows A ->
  params_ok X p (cm A) -> 0 < o_blk o ->
  wantsL o = false \/ o_complete o = true \/ o_dense o = false \/ one_round X o ->
  outs (echelonize X fuel o A) (fun r => echelon_of p A r /\
    (exists pr n, 0 <= n <= len pr /\ (forall i, 0 <= i < n -> 0 <= get pr i < cn A) /\ NoDup (map (get pr) (zseq 0 n)) /\
      (low_rank o = false ->
       o_dense o = true /\ always_dense X \/
       o_GPLU o = true /\ (wantsL o = true \/ one_round X o /\ detects p A (e_rc (x_E X)) (e_Sn (x_E X)) pr n (lu_U r)) ->
       forall i, 0 <= i < cn A -> in_rowspace p (lu_U r) (entry A i))) /\
    if wantsL o then lu_complete r = o_complete o /\ exists L, lower_of p A r L /\
      (o_complete o = true -> o_dense o = true /\ always_dense X \/ o_GPLU o = true ->
       forall i j, 0 <= i < cn A -> 0 <= j < cm A -> cong p (entry A i j) (xA (lu_U r) (entry L i) j))
    else lu_L r = None)
  (fun e => low_rank o = true /\ (e = OutOfFuel \/ e = Overflow) \/ e = Overflow /\ 0 < o_rounds o /\ all_columns p A).
Proof.
  intros Hmod Hprime HA HpA HR HZ HD HX Hblk Hsafe. unfold echelonize. fold (wantsL o). fold (low_rank o).
  set (hasL := wantsL o) in *. set (tall := low_rank o) in *. set (one := one_round X o) in *. set (dense := always_dense X).
  pose proof (wf_n A HA) as Hn. pose proof (wf_m A HA) as Hm. pose proof (wf_len A HA) as Hl. pose proof (wf_nnz A HA) as Hnz.
  assert (Htall : tall = true -> hasL = false). { unfold tall, low_rank. fold hasL. destruct hasL; auto. now rewrite andb_false_r. }
  assert (Hcomp : o_complete o = true -> hasL = true). { intros H. unfold hasL, wantsL. rewrite H. apply orb_true_r. }
  apply outs_bind, sat_outs, sat_aget; [lia|]. fold (nnz A).
  set (g := e_junk (x_E X)). apply outs_bind, sat_outs.
  apply (for_spec (fun k q => len q = cm A /\ forall j, 0 <= j < k -> get q j = -1)); [lia|rewrite len_malloc by lia; split; [lia|intros; lia]| |].
  { intros k q Hk [L1 L2]. apply sat_aset; [lia|]. rewrite len_upd. split; auto. intros j Hj. rewrite get_upd_in by lia. destruct (Z.eqb_spec k j); auto. apply L2. lia. }
  intros q [Lq Hq]. apply outs_bind, sat_outs.
  assert (HLp : sat (if hasL then Lp <- for_ 0 (cn A) (fun j p => aset p j (-1)) (malloc (g 63) (cn A)) ;; Ok (Some (triplet_alloc g (cn A) (cn A) (nnz A) (cprime A) true), Lp) else Ok (None, []))
    (fun '(L, Lp) => L = (if hasL then Some (triplet_alloc g (cn A) (cn A) (nnz A) (cprime A) true) else None) /\ (hasL = true -> len Lp = cn A))).
  { destruct hasL; [|split; auto; discriminate]. apply sat_bind. apply (for_spec (fun _ q => len q = cn A)); [lia|rewrite len_malloc; lia| |cbn; auto].
    intros i l Hi Hl2. apply sat_aset; [lia|]. now rewrite len_upd. }
  eapply sat_mono; [exact HLp|]. clear HLp. intros [L Lp] [-> HLp].
  set (s0 := Est _ _ _ _ _ _).
  assert (HI0 : inv p A True (o_complete o) (s_f s0) A (oapply None) (zseq 0 (cn A)) 0).
  { unfold s0. cbn [s_f]. rewrite <- HpA. refine (inv_init (cprime A) A g hasL (o_complete o) q Lp HA eq_refl HR Lq Hq HLp _). lia. }
  assert (HR0 : forall one', rinv p A (o_complete o) hasL one' dense 0 s0).
  { intros one'. split; [exact HI0|]. split; auto. split; auto. split; [exact I|]. split; [unfold s0, Lok; cbn [s_f f_L]; now destruct hasL|]. split; [cbn; rewrite len_malloc; lia|].
    split; [auto|]. intros [_ H]. cbn. apply H. }
  (* the rounds *)
  set (E := fun e => low_rank o = true /\ (e = OutOfFuel \/ e = Overflow) \/ e = Overflow /\ 0 < o_rounds o /\ all_columns p A).
  assert (Hloop : outs (forb 0 (o_rounds o) (fun round s => ech_round X (o_greedy o) round s) s0) (fun r => match r with
    | inl s => exists rd, rinv p A (o_complete o) hasL one dense rd s
    | inr (s, st) => st = 1 /\ (exists rd, rinv p A (o_complete o) hasL one dense rd s) /\ nnz (s_A s) = 0 \/ st = 2 /\ rstop p A (o_complete o) hasL one dense s end) E).
  { destruct (Z_le_gt_dec (o_rounds o) 0) as [Hr|Hr]. { rewrite forb_none by auto. cbn [outs]. exists 0. apply HR0. }
    assert (Hone : one -> forall c d, x_dens X c d = true). { intros [H|H]; [lia|exact H]. }
    apply (outs_forb (fun rd s => rinv p A (o_complete o) hasL one dense rd s)); [lia|apply HR0| |eauto].
    intros rd s Hrd HI. pose proof (round_ok X p A (o_complete o) hasL (o_greedy o) HX Hmod Hprime one dense Hone rd s HI) as HO.
    destruct (ech_round _ _ _ _) as [[s'|[s' st]]|e]; cbn [outs] in *.
    - destruct HO as [_ HO]. apply HO. now intros [H _].
    - destruct HO as [(-> & -> & H)|[-> H]]; [left|right]; split; auto; [eauto|]. apply H. now intros [H' _].
    - right. destruct HO. split; auto. split; [lia|auto]. }
  apply outs_bind. eapply outs_mono; [exact Hloop|]. clear Hloop. intros r Hr.
  set (ss := match r with inl s => (s, 0) | inr (s, st) => (s, st) end).
  assert (Hfin : outs (ech_finish X fuel o tall (fst ss) (snd ss)) (fin X p A o hasL tall one dense) E).
  { assert (Hwk : forall r, outs r (fin X p A o hasL tall one dense) (fun e => tall = true /\ (e = OutOfFuel \/ e = Overflow)) -> outs r (fin X p A o hasL tall one dense) E).
    { intros [?|?]; cbn; auto. intros H. left. exact H. }
    unfold ech_finish. destruct r as [s|[s st]]; cbn [ss fst snd].
    - destruct Hr as (rd & HI & _ & _ & Hpin & HLk & Hlp & H1 & H2). destruct s as [A' p_in f pr npiv dns]. cbn [s_A s_pin s_f s_p s_npiv s_dense] in *.
      pose proof (iv_room _ _ _ _ _ _ _ _ _ HI) as Hroom. rewrite len_zseq in Hroom. pose proof (wf_n _ (iv_wfA _ _ _ _ _ _ _ _ _ HI)) as HnA. pose proof (wf_n _ (el_wf _ _ _ (iv_el _ _ _ _ _ _ _ _ _ HI))) as HnU.
      change (0 =? 0) with true. change (0 =? 1) with false. cbv iota. apply outs_bind, sat_outs, sat_bind.
      apply (for_spec (fun k q => len q = cn A /\ forall j, 0 <= j < k -> get q j = j)); [lia|split; [auto|intros; lia]| |].
      { intros k q0 Hk [L1 L2]. apply sat_aset; [lia|]. rewrite len_upd. split; auto. intros j Hj. rewrite get_upd_in by lia. destruct (Z.eqb_spec k j); auto. apply L2. lia. }
      intros pr' [L1 L2]. cbn [sat]. change (Z.to_nat 0) with 0%nat. cbn [skipn]. rewrite Z.sub_0_r. apply Hwk.
      apply (finish_ready X p A o hasL tall one dense HX Hmod Hprime Htall Hcomp Hblk Hsafe fuel A' p_in f pr' (cn A') dns (cn (f_U f))); auto; [|lia|intros H; now apply H1].
      replace (map (get pr') (zseq 0 (cn A'))) with (zseq 0 (cn A')); auto.
      rewrite <- (map_id (zseq 0 (cn A'))) at 1. apply map_ext_in. intros i Hi. apply In_zseq in Hi. symmetry. auto.
    - destruct Hr as [(-> & (rd & HI & _ & _ & Hpin & HLk & Hlp & H1 & H2) & Hz)|(-> & u1 & HI & Hnp & Hpin & HLk & Hlp & H1 & H2)];
        destruct s as [A' p_in f pr npiv dns]; cbn [s_A s_pin s_f s_p s_npiv s_dense] in *.
      + change (1 =? 0) with false. change (1 =? 1) with true. cbn [bind outs]. pose proof (iv_wfA _ _ _ _ _ _ _ _ _ HI) as WA.
        exists A', (oapply p_in), (cn (f_U f)), (o_complete o), True, [], 0. split.
        { apply (inv_drop p A True True (o_complete o) f A' (oapply p_in) (zseq 0 (cn A')) (cn (f_U f))); auto.
          - intros _. split; auto. intros i Hi. apply In_zseq in Hi. apply (in_rowspace_ext p (f_U f) (fun _ => 0)); [|apply in_rowspace_0].
            intros j Hj. rewrite entry_nnz0; auto. apply cong_refl.
          - intros _ _ i j Hi _. apply In_zseq in Hi. rewrite entry_nnz0; auto. apply cong_refl. }
        split; [apply HLk|]. split; auto. split; [cbn; lia|]. split; [intros; lia|]. split; [constructor|]. auto.
      + change (2 =? 0) with false. change (2 =? 1) with false. cbn [bind]. apply Hwk.
        pose proof (iv_room _ _ _ _ _ _ _ _ _ HI) as Hroom. rewrite len_map, len_zseq in Hroom. pose proof (wf_n _ (el_wf _ _ _ (iv_el _ _ _ _ _ _ _ _ _ HI))) as HnU.
        apply (finish_ready X p A o hasL tall one dense HX Hmod Hprime Htall Hcomp Hblk Hsafe fuel A' p_in f (skipn (Z.to_nat npiv) pr) (cn A' - npiv) dns u1); auto.
        * now rewrite map_skipn_rows.
        * rewrite len_skipn. lia. }
  destruct ss as [s status]. cbn [fst snd] in Hfin. apply outs_bind. eapply outs_mono; [exact Hfin|].
  intros f (A' & o' & u' & comp' & full' & pr & n & HI & HL & Hc & Hn' & Hrg & Hnd & Hfull). apply sat_outs.
  eapply sat_mono; [apply (cleanup_ok g (o_complete o) p A full' comp' f A' o' u' Hmod HI)|]. cbv beta. intros r' (R1 & R2 & R3 & R4 & R5).
  split; [exact R1|]. split.
  - exists pr, n. split; auto. split; auto. split; auto. intros Ht Hcond. apply R4, Hfull; auto.
    destruct Hcond as [H|[H [H'|[H' HDt]]]]; auto. right. split; auto. right. split; auto.
    assert (Hrs : forall v, in_rowspace p (f_U f) v <-> in_rowspace p (lu_U r') v).
    { intros v. assert (HxA : forall x j, xA (lu_U r') x j = xA (f_U f) x j). { intros x j. unfold xA. rewrite R3. apply sum_ext. intros i Hi. now rewrite R2. }
      assert (Hmm : cm (lu_U r') = cm (f_U f)). { rewrite (eo_m _ _ _ R1). symmetry. apply (iv_m _ _ _ _ _ _ _ _ _ HI). }
      split; intros (y & Hy); exists y; intros j Hj; [rewrite HxA|rewrite <- HxA]; apply Hy; congruence. }
    intros H0 i Hi. apply Hrs, HDt; auto. intros k Hk. now apply Hrs, H0.
  - rewrite HL in R5. destruct hasL; [|exact R5]. destruct R5 as [R5 (L & R6 & R7)]. split; auto. exists L. split; auto.
    intros Hco Hu. apply R7. rewrite Hc; auto.
Qed.
