(** Consequences of the correctness of spasm_echelonize. *)
From Verif Require Import Rref RrefProofs Base BaseFacts Spec SpecFacts SpecElim SpecRank Zp ZpFacts Mat MatFacts RowList CompressProofs LinAlg TriProofs VecProofs KernelProofs ParRows ElimFacts EchInv
  Reach Schur Gplu GpluProofs Dense DenseSpec DenseProofs DenseProofs3 DenseProofs4 Echelonize EchProofs EchProofs2 Rank DenseRef.
From Coq Require Import ZifyBool Permutation.

Lemma ref_ffpack E p : ok_modulus p -> Znumtheory.prime p -> e_rref E = ref_rref p -> e_plu E = ref_plu p -> ffpack_ok E p.
Proof.
  intros Hmod Hprime E1 E2. split; intros n m S Hn Hm HS HB; rewrite ?E1, ?E2; [now apply ref_rref_ok|now apply ref_plu_ok].
Qed.

Lemma outs_mono2 {T} (r : res T) (Q Q' : T -> Prop) (F F' : err -> Prop) : outs r Q F -> (forall a, Q a -> Q' a) -> (forall e, F e -> F' e) -> outs r Q' F'.
Proof. destruct r; cbn; auto. Qed.

(** ** GPLU alone *)
(* an empty factorisation, as built by src/spasm_echelonize.c:489-516 *)
Definition empty_fact (g : Z -> Z -> Z) (hasL : bool) (A : csr) : fact :=
  let U := csr_alloc g (cn A) (cm A) (nnz A) (cprime A) true in
  Fact (Csr 0 (cm A) (cp U) (cj U) (cx U) (cprime A)) (fill (cm A) (-1))
    (if hasL then Some (triplet_alloc g (cn A) (cn A) (nnz A) (cprime A) true) else None) (fill (cn A) (-1)).
Lemma gplu_fresh g test hasL A p : ok_modulus p -> Znumtheory.prime p -> wf A -> cprime A = p -> reduced A ->
  (forall U q, elim p U q -> cm U = cm A -> sat (test U q) (fun _ => True)) ->
  sat (echelonize_GPLU g test A (zseq 0 (cn A)) (cn A) None (empty_fact g hasL A)) (fun f =>
    let U := f_U f in
    elim p U (f_q f) /\ cm U = cm A /\ (forall k, 0 <= k < cn U -> in_rowspace p A (entry U k)) /\
    (hasL = true \/ (test U (f_q f) = Ok true -> forall i, 0 <= i < cn A -> in_rowspace p U (entry A i)) ->
       forall i, 0 <= i < cn A -> in_rowspace p U (entry A i)) /\
    match f_L f with
    | Some L => hasL = true /\ (forall i j, 0 <= i < cn A -> 0 <= j < cm A -> cong p (entry A i j) (xA U (tentry L i) j)) /\
        (forall k, 0 <= k < cn U -> 0 <= get (f_p f) k < cn A /\ ~ cong p (tentry L (get (f_p f) k) k) 0) /\
        (forall k c, 0 <= k < c -> c < cn U -> cong p (tentry L (get (f_p f) k) c) 0)
    | None => hasL = false
    end).
Proof.
  intros Hmod Hprime HA HpA HR Htest. pose proof (wf_n A HA) as Hn. pose proof (wf_m A HA) as Hm. pose proof (wf_nnz A HA) as Hnz.
  pose proof (inv_init p A g hasL true (fill (cm A) (-1)) (fill (cn A) (-1)) HA HpA HR (len_fill' _ (-1) Hm)) as HI.
  assert (H1 : forall j, 0 <= j < cm A -> get (fill (cm A) (-1)) j = -1) by (intros; now apply get_fill).
  specialize (HI H1 (fun _ => len_fill' _ (-1) Hn) ltac:(lia)). rewrite <- HpA in HI at 2 3 4 5 6. fold (empty_fact g hasL A) in HI.
  assert (Ez : map (get (zseq 0 (cn A))) (zseq 0 (cn A)) = zseq 0 (cn A)).
  { rewrite <- (map_id (zseq 0 (cn A))) at 3. apply map_ext_in. intros i Hi. apply In_zseq in Hi. unfold get. rewrite getd_zseq; lia. }
  pose proof (gplu_ok g test p A True true (empty_fact g hasL A) A (zseq 0 (cn A)) (cn A) None 0 Hmod Hprime) as G.
  rewrite Ez in G. specialize (G HI). eapply sat_mono; [apply G; auto|].
  - rewrite len_zseq. lia.
  - unfold empty_fact. cbn. destruct hasL; cbn; auto.
  - cbv beta. intros f [HI' HL]. cbv zeta. split; [apply (iv_el _ _ _ _ _ _ _ _ _ HI')|]. split; [apply (iv_m _ _ _ _ _ _ _ _ _ HI')|].
    split; [apply (iv_U _ _ _ _ _ _ _ _ _ HI')|]. split.
    + intros H i Hi. destruct (iv_full _ _ _ _ _ _ _ _ _ HI') with (i0 := i) as [Hf|(i' & [] & _)]; auto. split; auto.
      destruct H as [->|H]; [left; discriminate|]. right. split; auto. intros Ht k Hk. apply H; auto. unfold get. rewrite getd_zseq; lia.
    + pose proof (iv_L _ _ _ _ _ _ _ _ _ HI') as Q. destruct (f_L f) as [L|].
      * split. { destruct hasL; auto. destruct HL as [_ HL]. discriminate HL. reflexivity. }
        split. { intros i j Hi Hj. apply (lq_all _ _ _ _ _ _ _ _ _ _ Q); auto. }
        split. { intros k Hk. split; [apply (lq_rng _ _ _ _ _ _ _ _ _ _ Q k Hk)|apply (lq_diag _ _ _ _ _ _ _ _ _ _ Q k Hk)]. }
        apply (lq_low _ _ _ _ _ _ _ _ _ _ Q).
      * destruct hasL; auto. destruct HL as [HL _]. discriminate (HL eq_refl).
Qed.
(* hence every matrix has a rank *)
Lemma rank_exists p A : ok_modulus p -> Znumtheory.prime p -> wf A -> cprime A = p -> reduced A -> exists r, rank_is p A r.
Proof.
  intros Hmod Hprime HA HpA HR. pose proof (gplu_fresh (fun _ _ => 0) (fun _ _ => Ok false) true A p Hmod Hprime HA HpA HR ltac:(intros; exact I)) as G.
  apply sat_Ok in G. destruct G as (f & _ & HE & Em & Hrow & Hspan & _). exists (cn (f_U f)). split; [apply wf_n, HE|].
  exists (entry (f_U f)). split; [rewrite <- Em; apply (upper_independent p _ (f_q f)); apply HE|]. split; auto.
  intros i Hi. destruct (Hspan (or_introl eq_refl) i Hi) as (c & Hc). exists c. intros j Hj. rewrite Em in Hc. symmetry. now apply Hc.
Qed.

(** ** The whole function *)
Section final.
Context (X : params) (fuel : nat) (o : opts) (A : csr) (p : Z).
Context (Hmod : ok_modulus p) (Hprime : Znumtheory.prime p) (HA : wf A) (HpA : cprime A = p) (HR : reduced A) (HZ : no_zero A) (HD : nodup_rows A).
Context (HX : params_ok X p (cm A)) (Hblk : 0 < o_blk o).
Context (Hsafe : wantsL o = false \/ o_complete o = true \/ o_dense o = false \/ one_round X o).

Definition allowed (e : err) : Prop := low_rank o = true /\ (e = OutOfFuel \/ e = Overflow) \/ e = Overflow /\ 0 < o_rounds o /\ all_columns p A.

Lemma echelonize_sound : outs (echelonize X fuel o A) (fun f =>
  echelon_of p A f /\ lin_indep p (cm A) (cn (lu_U f)) (entry (lu_U f)) /\ forall r, rank_is p A r -> cn (lu_U f) <= r) allowed.
Proof.
  eapply outs_mono2; [apply (echelonize_ok X fuel o A p); auto| |auto]. cbv beta. intros f (He & _). split; auto.
  split; [|intros r Hr; apply (echelon_rank_le p A f r); auto; now apply wf_n].
  rewrite <- (eo_m _ _ _ He). apply (upper_independent p _ (lu_qinv f)); apply He.
Qed.
Lemma echelonize_rank : outs (echelonize X fuel o A) (fun f =>
  exists pr n, 0 <= n <= len pr /\ (forall i, 0 <= i < n -> 0 <= get pr i < cn A) /\ NoDup (map (get pr) (zseq 0 n)) /\
    (low_rank o = false ->
     o_dense o = true /\ always_dense X \/
     o_GPLU o = true /\ (wantsL o = true \/ one_round X o /\ detects p A (e_rc (x_E X)) (e_Sn (x_E X)) pr n (lu_U f)) ->
     (forall i, 0 <= i < cn A -> in_rowspace p (lu_U f) (entry A i)) /\ rank_is p A (cn (lu_U f)))) allowed.
Proof.
  eapply outs_mono2; [apply (echelonize_ok X fuel o A p); auto| |auto]. cbv beta. intros f (He & (pr & n & H1 & H2 & H3 & H4) & _).
  exists pr, n. split; auto. split; auto. split; auto. intros Hl Hm. pose proof (H4 Hl Hm) as H. split; auto. now apply echelon_rank.
Qed.
Lemma echelonize_LU : wantsL o = true -> outs (echelonize X fuel o A) (fun f => lu_complete f = o_complete o /\ exists L,
  lower_of p A f L /\
  (o_complete o = true -> o_dense o = true /\ always_dense X \/ o_GPLU o = true ->
   forall i j, 0 <= i < cn A -> 0 <= j < cm A -> cong p (entry A i j) (xA (lu_U f) (entry L i) j)) /\
  (o_dense o = true /\ always_dense X \/ o_GPLU o = true -> factors p A f L)) (fun e => e = Overflow /\ 0 < o_rounds o /\ all_columns p A).
Proof.
  intros HL. assert (Hl : low_rank o = false) by (unfold low_rank; rewrite HL; apply andb_false_r).
  eapply outs_mono2; [apply (echelonize_ok X fuel o A p); auto| |].
  - cbv beta. rewrite HL. intros f (He & (pr & n & _ & _ & _ & Hs) & Hc & L & HL1 & HL2). split; auto. exists L. split; auto. split; auto.
    intros Hm. destruct He, HL1. constructor; auto. intros i Hi. apply Hs; auto. destruct Hm as [Hm|Hm]; auto.
  - cbv beta. rewrite Hl. intros e [[H _]|H]; auto. discriminate.
Qed.
End final.

(** ** Kernel *)
Lemma kernel_transfer p A U K : cm U = cm A -> 0 <= cn A -> (forall k, 0 <= k < cn U -> in_rowspace p A (entry U k)) ->
  (forall i, 0 <= i < cn A -> in_rowspace p U (entry A i)) -> kernel_basis p U K -> kernel_basis p A K.
Proof.
  intros Em Hn H1 H2 [B1 B2 B3 B4].
  assert (T : forall A B, cm A = cm B -> (forall i, 0 <= i < cn B -> in_rowspace p A (entry B i)) -> forall v, in_kernel p A v -> in_kernel p B v).
  { intros A' B Eab H v Hv i Hi. destruct (H i Hi) as (y & Hy). unfold in_kernel, Av in *. rewrite <- Eab.
    rewrite (sum_cong p 0 (cm A') _ (fun j => sum 0 (cn A') (fun k => y k * (entry A' k j * v j)))).
    - rewrite sum_swap. apply sum_cong_0. intros k Hk. rewrite sum_scale. rewrite (Hv k Hk). apply cong_eq. ring.
    - intros j Hj. rewrite <- (Hy j Hj). unfold xA. apply cong_eq. rewrite <- sum_scale_r. apply sum_ext. intros; ring. }
  constructor; auto; [congruence| |].
  - intros k Hk. apply (T U A); auto.
  - intros v Hv. apply B4. apply (T A U); auto.
Qed.
Lemma kernel_of_matrix p A f g ch scr : wf A -> 2 <= p -> echelon_of p A f -> (forall i, 0 <= i < cn A -> in_rowspace p (lu_U f) (entry A i)) ->
  (forall j, 0 <= j < cm A -> scr_ok (cn (lu_U f)) (scr j)) ->
  sat (kernel g ch scr (lu_U f) (lu_qinv f)) (fun K => wf K /\ rank_is p A (cm A - cn K) /\ cm K = cm A /\ kernel_basis p A K).
Proof.
  intros HA Hp He Hs Hscr. pose proof (wf_n A HA) as Hn. pose proof (echelon_rank p A f He Hs) as Hr. destruct He. eapply sat_mono.
  - apply (kernel_ok g ch scr (lu_U f) (lu_qinv f) p); auto; [apply eo_red|]. now rewrite eo_m.
  - cbv beta. intros K (W & K1 & K2 & _ & _ & _ & _ & _ & K3). split; auto. rewrite K1, eo_m. replace (cm A - (cm A - cn (lu_U f))) with (cn (lu_U f)) by ring.
    split; auto. split; [congruence|]. apply (kernel_transfer p A (lu_U f)); auto.
Qed.
