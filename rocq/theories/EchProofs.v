(** Proofs about spasm_echelonize (Echelonize.v). *)
From Verif Require Import Base BaseFacts Spec SpecFacts SpecElim Zp ZpFacts Mat MatFacts RowList CompressProofs LinAlg TriProofs VecProofs KernelProofs ParRows ElimFacts EchInv
  Reach Pivots GreedyProofs Extract ExtractProofs Par Schur SchurProofs RrefProofs Sched Append AppendProofs Gplu GpluProofs Dense DenseSpec DenseProofs DenseProofs2 DenseProofs3 DenseProofs4 Echelonize.
From Coq Require Import ZifyBool Permutation.

(** ** Loops whose body may fail *)
Lemma outs_forb {S R} (Inv : Z -> S -> Prop) (Q : S + R -> Prop) (F : err -> Prop) (body : Z -> S -> res (S + R)) lo hi s :
  lo <= hi -> Inv lo s ->
  (forall i s, lo <= i < hi -> Inv i s -> outs (body i s) (fun o => match o with inl s' => Inv (i + 1) s' | inr r => Q (inr r) end) F) ->
  (forall s, Inv hi s -> Q (inl s)) -> outs (forb lo hi body s) Q F.
Proof.
  intros Hle H0 Hs HQ. unfold forb.
  assert (G : forall k i s, lo <= i -> i + Z.of_nat k = hi -> Inv i s -> outs (forb_nat k i body s) Q F).
  { induction k as [|k IH]; intros i t Hi E HI; cbn [forb_nat].
    - cbn. apply HQ. now replace hi with i by lia.
    - apply outs_bind. eapply outs_mono; [apply Hs; auto; lia|]. intros [s'|r] H; [|exact H]. apply IH; auto; lia. }
  apply G; auto; lia.
Qed.
Lemma forb_none {S R} (body : Z -> S -> res (S + R)) lo hi s : hi <= lo -> forb lo hi body s = Ok (inl s).
Proof. intros H. unfold forb. replace (Z.to_nat (hi - lo)) with 0%nat by lia. reflexivity. Qed.

Lemma map_skipn_rows pr k n : 0 <= k <= n -> map (get (skipn (Z.to_nat k) pr)) (zseq 0 (n - k)) = map (get pr) (zseq k n).
Proof.
  intros H. apply (listd_ext 0). { rewrite !len_map, !len_zseq. lia. }
  intros i Hi. rewrite len_map, len_zseq in Hi. rewrite !(getd_map _ 0) by (rewrite len_zseq; lia). rewrite !getd_zseq by lia.
  rewrite get_skipn by lia. f_equal. lia.
Qed.
Lemma inv_comp p A0 (full : Prop) comp comp' f A o rem u1 : (comp' = true -> comp = true) -> inv p A0 full comp f A o rem u1 -> inv p A0 full comp' f A o rem u1.
Proof.
  intros H [I1 I2 I3 I4 I5 I6 I7 I8 I9 I10 I11 I12 I13 I14 I15 I16]. constructor; auto.
  destruct (f_L f); auto. destruct I16 as [Q1 Q2 Q3 Q4 Q5 Q6 Q7 Q8 Q9 Q10]. constructor; auto.
Qed.

(** ** Estimation of densities *)
Lemma estimate_ok p rand scr A pr n U q : elim p U q -> 2 <= p -> wf A -> cprime A = p -> cx A <> None -> cm U = cm A ->
  (forall i, scr_ok (cm A) (scr i)) -> 0 <= n <= len pr -> (forall k, 0 <= k < n -> 0 <= get pr k < cn A) ->
  sat (estimate_nnz rand scr A pr n U q) (fun c => 0 <= c).
Proof.
  intros HE Hp2 HA HpA HxA Hm Hscr Hn Hr. unfold estimate_nnz. destruct (Z.eqb_spec n 0); [cbn; lia|].
  pose proof (wf_m A HA) as HmA. pose proof (up_len _ _ _ (el_up _ _ _ HE)) as Hlq.
  apply (for_spec (fun _ c => 0 <= c)); [lia|lia| |auto]. intros i c Hi Hc.
  pose proof (Z.mod_pos_bound (rand i) n ltac:(lia)). apply sat_bind, sat_aget; [lia|].
  specialize (Hscr i). destruct (scr i) as [[[xj ps] mk] x]. destruct Hscr as (S1 & S2 & S3 & S4 & S5).
  apply sat_bind. eapply sat_mono; [apply (solve_rows p); auto|]. cbv beta. intros [[[[top xj'] ps'] mk'] x'] (T1 & T2 & T3 & T4 & T5 & T6 & T7 & T8 & T9 & _).
  apply (for_spec (fun _ c => 0 <= c)); [lia|lia| |auto]. intros px c' Hpx Hc'.
  assert (Hin : In (get xj' px) (pat xj' top (cm A))). { unfold pat. apply in_map. now apply In_zseq. }
  destruct (T9 _ Hin) as [Hj _].
  apply sat_bind, sat_aget; [lia|]. apply sat_bind, sat_aget; [lia|]. apply sat_bind, sat_aget; [lia|]. cbn [sat]. destruct (_ && _); lia.
Qed.

(** ** The beginning *)
Lemma inv_init p A g hasL comp q Lp : wf A -> cprime A = p -> reduced A -> len q = cm A -> (forall j, 0 <= j < cm A -> get q j = -1) -> (hasL = true -> len Lp = cn A) -> 0 <= nnz A ->
  inv p A True comp (Fact (Csr 0 (cm A) (cp (csr_alloc g (cn A) (cm A) (nnz A) p true)) (cj (csr_alloc g (cn A) (cm A) (nnz A) p true)) (cx (csr_alloc g (cn A) (cm A) (nnz A) p true)) p) q
    (if hasL then Some (triplet_alloc g (cn A) (cn A) (nnz A) p true) else None) Lp) A (oapply None) (zseq 0 (cn A)) 0.
Proof.
  intros HA HpA HR Hlq Hq HLp Hnz. pose proof (wf_n A HA) as Hn. pose proof (wf_m A HA) as Hm. cbn [csr_alloc cp cj cx].
  set (U := Csr _ _ _ _ _ _).
  assert (Hc0 : get (cp U) 0 = 0). { cbn [cp U]. rewrite get_upd_in by (rewrite len_malloc; lia). reflexivity. }
  assert (HU0 : nnz U = 0) by exact Hc0.
  assert (HWU : wf U).
  { unfold wf. cbn [cn cm cp cj cx U]. rewrite len_upd, !len_malloc by lia. fold U. rewrite HU0. repeat split; try lia. exact Hc0. }
  assert (HE : elim p U q).
  { constructor; auto; try discriminate.
    - constructor; cbn [cn cm U]; auto; try lia.
      + intros j Hj. rewrite Hq by auto. lia.
      + intros j k Hj. rewrite Hq by auto. lia.
      + intros j Hj. rewrite Hq by auto. lia.
    - intros i Hi. cbn [cn U] in Hi. lia.
    - split; [discriminate|]. intros px. rewrite HU0. lia. }
  assert (Hmap : map (oapply None) (zseq 0 (cn A)) = zseq 0 (cn A)) by apply map_id.
  constructor; cbn [f_U f_q f_L f_p]; auto.
  - cbn [cp U]. rewrite len_upd, len_malloc; lia.
  - cbn [cn U]. rewrite len_zseq. lia.
  - cbn [cn U]. lia.
  - intros i Hi. apply In_zseq in Hi. cbn. lia.
  - rewrite Hmap. apply NoDup_zseq.
  - intros i c _ _. lia.
  - intros k Hk. cbn [cn U] in Hk. lia.
  - intros i Hi. apply In_zseq in Hi. now apply in_rowspace_row.
  - intros _ i0 Hi0. right. exists i0. split; [now apply In_zseq|]. split; [reflexivity|]. exists (fun _ => 0). intros j Hj. rewrite xA_zero. apply cong_eq. ring.
  - destruct hasL; [|exact I]. set (L := triplet_alloc _ _ _ _ _ _). assert (HTE : forall i c, tentry L i c = 0) by (intros; apply sum_empty; cbn; lia).
    assert (HTS : forall i c, ~ tstored L i c) by (intros i c (k & Hk & _); cbn in Hk; lia).
    constructor; cbn [cn U]; try lia.
    + constructor; cbn [L triplet_alloc tx tprime tn tm tnz]; auto; try lia; try discriminate.
      * unfold twf. cbn [L triplet_alloc tx tprime tn tm tnz ti tj]. rewrite !len_malloc by lia. repeat split; lia.
      * intros i c H. now apply HTS in H.
      * intros i c H. now apply HTS in H.
    + intros i j Hi Hj. rewrite (xA_ext U (tentry L _) (fun _ => 0)) by auto. rewrite xA_zero. apply cong_eq. reflexivity.
    + intros i c _ H. now apply HTS in H.
    + intros _ i0 j Hi0 Hni. exfalso. apply Hni. rewrite Hmap. now apply In_zseq.
Qed.

(** ** Rounds *)
Definition params_ok (X : params) (p m : Z) : Prop :=
  ffpack_ok (x_E X) p /\ 0 <= e_Sn (x_E X) /\ (forall c k, scr_ok m (e_scr (x_E X) c k)) /\
  (forall r t, (forall c, get (fst (x_pscr X r t)) c = 0) /\ len (fst (x_pscr X r t)) = m /\ len (snd (x_pscr X r t)) = m) /\
  (forall r i, scr_ok m (x_escr X r i)) /\ (forall r i, scr_ok m (x_sscr X r i)) /\
  (forall c d n m, 0 <= x_size X c d n m).

Section rounds.
Context (X : params) (p : Z) (A0 : csr) (comp : bool) (hasL greedy : bool).
Context (HX : params_ok X p (cm A0)) (Hmod : ok_modulus p) (Hprime : Znumtheory.prime p).
(* the loop cannot go beyond the first round; the density is always above the threshold *)
Context (one dense : Prop) (Hone : one -> forall c d, x_dens X c d = true).

Definition Lok (f : fact) : Prop := is_some (f_L f) = hasL /\ match f_L f with Some L => tm L = cn A0 | None => True end.
Definition pin_ok (A : csr) (p_in : option (list Z)) : Prop := match p_in with Some l => len l = cn A | None => True end.

Definition rinv (round : Z) (s : est) : Prop :=
  inv p A0 True comp (s_f s) (s_A s) (oapply (s_pin s)) (zseq 0 (cn (s_A s))) (cn (f_U (s_f s))) /\ nodup_rows (s_A s) /\ no_zero (s_A s) /\
  pin_ok (s_A s) (s_pin s) /\ Lok (s_f s) /\ len (s_p s) = cn A0 /\ (one -> round = 0 /\ s_A s = A0) /\ (dense -> s_dense s = true).
(* some pivots have been found *)
Definition rstop (s : est) : Prop :=
  exists u1, inv p A0 True comp (s_f s) (s_A s) (oapply (s_pin s)) (map (get (s_p s)) (zseq (s_npiv s) (cn (s_A s)))) u1 /\ (0 <= s_npiv s <= cn (s_A s) /\ cn (s_A s) <= cn A0) /\
  pin_ok (s_A s) (s_pin s) /\ Lok (s_f s) /\ len (s_p s) = cn A0 /\ (one -> s_A s = A0) /\ (dense -> s_dense s = true).
(* every column holds a pivot *)
Definition all_columns : Prop := cm A0 < cn A0 /\ exists U q, elim p U q /\ cn U = cm A0 /\ cm U = cm A0 /\ forall k, 0 <= k < cn U -> in_rowspace p A0 (entry U k).

Lemma round_ok round s : rinv round s ->
  outs (ech_round X greedy round s) (fun r => match r with
      | inl s' => ~ one /\ ((dense -> forall c d, x_dens X c d = true) -> rinv (round + 1) s')
      | inr (s', st) => st = 1 /\ s' = s /\ nnz (s_A s) = 0 \/ st = 2 /\ ((dense -> forall c d, x_dens X c d = true) -> rstop s')
      end) (fun e => e = Overflow /\ all_columns).
Proof.
  destruct HX as (X1 & X2 & X3 & X4 & X5 & X6 & X7).
  destruct s as [A p_in f pr npiv dns]. intros (HI & HD & HZ & Hpin & (HL1 & HL2) & Hlp & H1 & HDe). cbn [s_A s_pin s_f s_p s_npiv s_dense] in *.
  assert (Hp2 : 2 <= p) by (unfold ok_modulus in *; lia).
  pose proof HI as [I1 I2 I3 I4 I5 I6 I7 I8 I9 I10 I11 I12 I13 I14 I15 I16]. pose proof (wf_len A I5) as HlA. pose proof (wf_n A I5) as HnA.
  rewrite len_zseq in I4. assert (Hm : cm (f_U f) = cm A) by congruence.
  unfold ech_round. apply outs_bind, sat_outs, sat_aget; [lia|]. fold (nnz A).
  destruct (Z.eqb_spec (nnz A) 0) as [En|En]; [cbn; left; auto|].
  apply outs_bind, sat_outs. eapply sat_mono.
  { apply (extract_structural_ok A I5 HD p I7 Hmod Hprime HZ I8 (x_junk X round) (x_pch X round) (x_pscr X round) greedy p_in f pr); auto; try lia.
    - intros t Ht. destruct (X4 round t) as (Y1 & Y2 & Y3). split; [|congruence]. split; [congruence|auto].
    - intros i c Hi Hs. pose proof (stored_range A i c I5 Hi Hs) as Hc. pose proof (up_rng _ _ _ (el_up _ _ _ I1) c ltac:(lia)) as Hr.
      specialize (I12 i c ltac:(now apply In_zseq) Hs). lia.
    - destruct (f_L f) as [L|]; auto. destruct I16 as [[Q1 Q2 Q3 Q4 Q5 Q6 Q7 Q8] Q9 _ _ _ _ _ _ _ _]. split; auto. split; auto. split; auto.
      split; [lia|]. split; [lia|]. split; [exact Hpin|]. intros i Hi. rewrite Q4. apply I10. now apply In_zseq. }
  cbv beta. intros [[k f1] pr1] (pinv & qinv & P1 & P2 & P3 & P4 & P5 & P6 & P7 & P8).
  assert (HI1 : inv p A0 True comp f1 A (oapply p_in) (map (get pr1) (zseq k (cn A))) (cn (f_U f))).
  { apply (inv_extract p A0 True comp f f1 A p_in (cn (f_U f)) pinv qinv pr1 k); auto. }
  assert (HL' : Lok f1).
  { unfold Lok. pose proof (ex_L _ _ _ _ _ _ _ _ P8) as HxL. destruct (f_L f) as [L|], (f_L f1) as [L1|]; try contradiction; cbn in *; auto.
    destruct HxL as (_ & _ & _ & -> & _). auto. }
  pose proof (ex_n _ _ _ _ _ _ _ _ P8) as Hn1. pose proof (ex_m _ _ _ _ _ _ _ _ P8) as Hm1.
  set (pn := skipn (Z.to_nat k) pr1). assert (Hlpn : len pn = cn A0 - k) by (unfold pn; rewrite len_skipn; lia).
  pose proof HI1 as HI1'. rewrite <- (map_skipn_rows pr1 k (cn A)) in HI1' by lia. fold pn in HI1'.
  assert (Hrow : forall i, 0 <= i < cn A - k -> 0 <= get pn i < cn A /\ 0 <= oapply p_in (get pn i) < cn A0).
  { intros i Hi. apply (iv_rngrem _ _ _ _ _ _ _ _ _ HI1'). apply in_map. now apply In_zseq. }
  destruct (x_few _ _ _).
  { cbn [outs]. right. split; auto. intros Hd. exists (cn (f_U f)). cbn. pose proof (wf_n _ (el_wf _ _ _ I1)) as Hnu. split; [auto|]. split; [lia|]. split; [auto|]. split; [auto|]. split; [lia|]. split; [intros H; apply H1; auto|auto]. }
  apply outs_bind, sat_outs. eapply sat_mono.
  { apply (estimate_ok p _ _ A pn (cn A - k) (f_U f1) (f_q f1)); auto; [apply I8|congruence| |lia|intros i Hi; now apply Hrow]. intros i. rewrite I6. apply X5. }
  cbv beta. intros c Hc.
  destruct (andb _ _) eqn:Eall.
  { cbn [outs]. split; auto. pose proof (iv_room _ _ _ _ _ _ _ _ _ HI1) as Hr. rewrite len_map, len_zseq in Hr. split; [lia|].
    exists (f_U f1), (f_q f1). split; auto. split; [lia|]. split; [lia|]. apply (iv_U _ _ _ _ _ _ _ _ _ HI1). }
  destruct (x_dens X c _) eqn:Ed.
  { cbn [outs]. right. split; auto. intros Hd. exists (cn (f_U f)). cbn. pose proof (wf_n _ (el_wf _ _ _ I1)) as Hnu. split; [auto|]. split; [lia|]. split; [auto|]. split; [auto|]. split; [lia|]. split; [intros H; apply H1; auto|auto]. }
  apply outs_bind, sat_outs. eapply sat_mono.
  { apply (schur_ok _ _ _ _ A pn (cn A - k) (f_U f1) (f_q f1) p (f_L f1) p_in); auto; try lia; try apply P7.
    - apply I8.
    - intros i Hi. now apply Hrow.
    - intros i _. rewrite I6. apply X6.
    - pose proof (iv_L _ _ _ _ _ _ _ _ _ HI1') as HLp. unfold ores. destruct (f_L f1) as [L1|]; auto. destruct HLp as [[Q1 Q2 Q3 Q4 Q5 Q6 Q7 Q8] _ _ _ _ _ _ _ _ _].
      split; auto. split; auto. split; auto. intros i Hi. rewrite Q4. now apply Hrow.
    - cbn. rewrite len_malloc; lia. }
  cbv beta. intros [[Sc L'] po] (V1 & V2 & V3 & V4 & V5 & V6 & V7 & V8 & V9 & oo & lam & V10 & V11 & V12 & V13). cbn [outs].
  split. { intros H. rewrite Hone in Ed by auto. discriminate. }
  intros Hd. destruct po as [po|]; [|contradiction]. destruct V12 as [V12 V12']. rewrite len_malloc in V12 by lia.
  unfold rinv. cbn [s_A s_pin s_f s_p s_npiv s_dense f_U]. split.
  { rewrite V2. apply (inv_schur p A0 True comp f1 A (oapply p_in) (get pn) (cn (f_U f)) (cn A - k) Sc (oapply (Some po)) oo lam L'); auto; [lia|].
    destruct (f_L f1) as [L1|], L' as [L2|]; try contradiction; auto.
    destruct V13 as (W1 & W2 & W3 & W4 & W5 & W6 & W7 & W8 & W9). split; auto. split; auto. split; auto. split; auto. split; auto. split; auto. split; auto. split.
    - intros i Hi. destruct (W8 i Hi) as (Y1 & Y2 & Y3 & r & Y4 & Y5 & Y6). split; auto. split; auto. split; auto. exists r. split; auto. split; auto. cbn. now rewrite V12'.
    - intros i q. rewrite W9. f_equal. apply sum_ext. intros i' Hi'. cbn. now rewrite V12'. }
  split; auto. split; auto. split; [cbn; lia|]. split.
  { unfold Lok in *. cbn [f_L]. destruct (f_L f1) as [L1|], L' as [L2|]; try contradiction; auto. destruct V13 as (_ & _ & _ & -> & _). auto. }
  split; [lia|]. split.
  - intros H. rewrite Hone in Ed by auto. discriminate.
  - intros H. rewrite Hd in Ed by auto. discriminate.
Qed.
End rounds.

(** ** Finishing *)
Lemma entry_nnz0 A i j : wf A -> nnz A = 0 -> 0 <= i < cn A -> entry A i j = 0.
Proof.
  intros HA H Hi. pose proof (wf_row A HA i Hi). unfold entry. apply sum_zero. intros k Hk. lia.
Qed.

Section finish.
Context (X : params) (p : Z) (A0 : csr) (o : opts) (hasL tall : bool) (one dense : Prop).
Context (HX : params_ok X p (cm A0)) (Hmod : ok_modulus p) (Hprime : Znumtheory.prime p).
Context (Htall : tall = true -> hasL = false) (Hcomp : o_complete o = true -> hasL = true) (Hblk : 0 < o_blk o).
Context (Hsafe : hasL = false \/ o_complete o = true \/ o_dense o = false \/ one).
Let comp := o_complete o.

Definition fin (f' : fact) : Prop := exists A' o' u' comp' (full' : Prop) pr n,
  inv p A0 full' comp' f' A' o' [] u' /\ is_some (f_L f') = hasL /\
  ((o_dense o = true /\ dense \/ o_GPLU o = true) -> comp' = comp) /\
  0 <= n <= len pr /\ (forall i, 0 <= i < n -> 0 <= get pr i < cn A0) /\ NoDup (map (get pr) (zseq 0 n)) /\
  (tall = false -> o_dense o = true /\ dense \/ o_GPLU o = true /\ (hasL = true \/ one /\ detects p A0 (e_rc (x_E X)) (e_Sn (x_E X)) pr n (f_U f')) -> full').

Lemma finish_ready fuel A p_in f pr n dns u1 : 
  inv p A0 True comp f A (oapply p_in) (map (get pr) (zseq 0 n)) u1 -> 0 <= n <= len pr -> pin_ok A p_in -> Lok A0 hasL f -> (one -> A = A0) -> (dense -> dns = true) ->
  outs (if tall && x_tall X n (cm A - cn (f_U f)) then
    echelonize_dense_lowrank (x_E X) fuel (o_blk o) (o_w0 o) A pr n f
  else if o_dense o && dns then
    echelonize_dense (x_E X) fuel (o_blk o) (o_w0 o) tall (o_complete o) A pr n p_in f
  else if o_GPLU o then
    echelonize_GPLU (e_junk (x_E X)) (fun U q => test_completion (x_E X) 0 A pr n U q) A pr n p_in f
  else Ok f) fin (fun e => tall = true /\ (e = OutOfFuel \/ e = Overflow)).
Proof.
  intros HI Hn Hpin [HL1 HL2] H1 Hdns. destruct HX as (X1 & X2 & X3 & X4 & X5 & X6 & X7).
  assert (Hp2 : 2 <= p) by (unfold ok_modulus in *; lia).
  pose proof HI as [I1 I2 I3 I4 I5 I6 I7 I8 I9 I10 I11 I12 I13 I14 I15 I16].
  assert (Hrow : forall k, 0 <= k < n -> 0 <= get pr k < cn A). { intros k Hk. apply (I10 (get pr k)). apply in_map. now apply In_zseq. }
  assert (Hnd : NoDup (map (get pr) (zseq 0 n))). { now apply NoDup_map_inv in I11. }
  assert (HLn : hasL = false -> f_L f = None). { intros ->. now destruct (f_L f). }
  destruct (tall && x_tall X n _) eqn:Et.
  { apply andb_true_iff in Et. destruct Et as [Et _]. pose proof (lowrank_ok (x_E X) p A0 A comp p_in u1 X1 Hmod X2 fuel (o_blk o) (o_w0 o) True f pr n HI Hn (HLn (Htall Et)) Hblk) as HW.
    destruct (echelonize_dense_lowrank _ _ _ _ _ _ _ _) as [f'|e]; cbn [outs] in *; [|auto]. destruct HW as [W1 W2].
    exists A, (oapply p_in), u1, comp, False, [], 0. split; auto. split; [rewrite W2, Htall; auto|]. split; auto. split; [cbn; lia|]. split; [intros; lia|]. split; [constructor|].
    intros; congruence. }
  destruct (o_dense o && dns) eqn:Ed.
  { apply andb_true_iff in Ed. destruct Ed as [Ed1 Ed2]. 
    assert (HW : outs (echelonize_dense (x_E X) fuel (o_blk o) (o_w0 o) tall comp A pr n p_in f)
      (fun f' => inv p A0 (True /\ tall = false) comp f' A (oapply p_in) [] u1 /\ sameL f f' /\ hasm A0 f') (fun e => tall = true /\ (e = OutOfFuel \/ e = Overflow))).
    { apply (dense_ok (x_E X) p A0 A comp p_in u1); auto. { intros c k. rewrite I6. apply X3. }
      destruct hasL; [|now left; apply HLn]. right. split. { destruct tall; auto. }
      destruct Hsafe as [H|[H|[H|H]]]; try congruence; auto. right. rewrite H1 by auto. lia. }
    change (o_complete o) with comp. revert HW. generalize (echelonize_dense (x_E X) fuel (o_blk o) (o_w0 o) tall comp A pr n p_in f). intros [f'|e] HW; cbn [outs] in *; [|auto].
    destruct HW as (W1 & W2 & W3). exists A, (oapply p_in), u1, comp, (True /\ tall = false), [], 0. split; auto. split.
    { unfold sameL in W2. rewrite <- HL1. destruct (f_L f), (f_L f'); cbn; auto; intuition congruence. }
    split; auto. split; [cbn; lia|]. split; [intros; lia|]. split; [constructor|]. auto. }
  destruct (o_GPLU o) eqn:Eg.
  { set (test := fun U q => test_completion (x_E X) 0 A pr n U q).
    assert (HT : forall U q, elim p U q -> cm U = cm A -> sat (test U q) (fun b => b = true <-> n = 0 \/ nnz A = 0 \/ forall k, 0 <= k < e_Sn (x_E X) -> in_rowspace p U (comb A pr n (e_rc (x_E X) k)))).
    { intros U q HE Hm. apply (test_completion_ok (x_E X) p A U q pr n 0); auto. apply I8. }
    apply sat_outs. eapply sat_mono.
    { apply (gplu_ok (e_junk (x_E X)) test p A0 True comp f A pr n p_in u1); auto.
      intros U q HE Hm. eapply sat_mono; [apply HT; auto|]. auto. }
    cbv beta. intros f' [W1 W2]. pose proof (iv_rngrem _ _ _ _ _ _ _ _ _ HI) as Hrr.
    destruct (Z.eq_dec (cn A) (cn A0)) as [En|En].
    - exists A, (oapply p_in), u1, comp, (True /\ (f_L f <> None \/ cn A = cn A0 /\ honest test p A pr n (f_U f') (f_q f'))), pr, n. split; auto. split.
      { rewrite <- HL1. destruct (f_L f), (f_L f'); cbn; auto; intuition congruence. }
      split; auto. split; auto. split; [intros i Hi; rewrite <- En; auto|]. split; auto.
      intros Ht [[H Hd]|[_ [H|[H H']]]].
      + rewrite H, (Hdns Hd) in Ed. discriminate.
      + split; auto. left. intros E0. rewrite E0 in HL1. cbn in HL1. congruence.
      + split; auto. right. split; auto. assert (EA : A = A0) by auto. intros Htrue.
        specialize (HT (f_U f') (f_q f') (iv_el _ _ _ _ _ _ _ _ _ W1)). rewrite Htrue in HT. cbn [sat] in HT.
        destruct (proj1 (HT ltac:(rewrite (iv_m _ _ _ _ _ _ _ _ _ W1); congruence)) eq_refl) as [Hz|[Hz|Hz]].
        * intros i Hi. lia.
        * intros i Hi. apply (in_rowspace_ext p (f_U f') (fun _ => 0)); [|apply in_rowspace_0]. intros j Hj. rewrite entry_nnz0; auto. apply cong_refl.
        * subst A. apply H'. exact Hz.
    - exists A, (oapply p_in), u1, comp, (True /\ (f_L f <> None \/ cn A = cn A0 /\ honest test p A pr n (f_U f') (f_q f'))), [], 0. split; auto. split.
      { rewrite <- HL1. destruct (f_L f), (f_L f'); cbn; auto; intuition congruence. }
      split; auto. split; [cbn; lia|]. split; [intros; lia|]. split; [constructor|].
      intros Ht [[H Hd]|[_ [H|[H H']]]].
      + rewrite H, (Hdns Hd) in Ed. discriminate.
      + split; auto. left. intros E0. rewrite E0 in HL1. cbn in HL1. congruence.
      + assert (EA : A = A0) by auto. congruence. }
  cbn [outs]. exists A, (oapply p_in), u1, false, False, [], 0. split.
  { apply (inv_drop p A0 True False false f A (oapply p_in) (map (get pr) (zseq 0 n)) u1); [|tauto|discriminate]. revert HI. now apply inv_comp. }
  split; auto. split. { intros [[H Hd]|H]; [|congruence]. rewrite H, (Hdns Hd) in Ed. discriminate. }
  split; [cbn; lia|]. split; [intros; lia|]. split; [constructor|]. intros Ht [[H Hd]|[H _]]; [|congruence]. rewrite H, (Hdns Hd) in Ed. discriminate.
Qed.
End finish.
