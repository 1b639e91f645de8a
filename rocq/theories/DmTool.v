(** The dm tool: the permuted matrix, and the description of the parts. *)
From Coq Require Import String Relation_Operators Operators_Properties.
From Verif Require Import Base BaseFacts Spec SpecFacts SpecElim SpecRank SpecText SpecSha SpecTools Checks Zp VecProofs Mat MatFacts RowList CompressProofs TransposeProofs ParRows MatProofs ExtractProofs LinAlg ElimFacts EchInv MatchProofs TriProofs Stdio IO IOProofs IOSave IOHash Par Schur Dense Echelonize Rref RrefProofs KernelProofs DenseProofs DenseProofs4 EchProofs EchProofs2 EchFinal Rank RankT GpluProofs Gesv GesvProofs PrngProofs SpecCert Cert CertCreate CertSound CertFact CertIO CertIOProofs SpecMatch SpecDm Scc Dm DmProofs DmMain Tools ToolsProofs ToolsElim TextProofs SpecScc ToolsElimProofs SpecParts PartsProofs SpecReport RowList.
Local Open Scope string_scope.
Local Open Scope list_scope.
Local Open Scope Z_scope.

Lemma transversal_ext n m (R R' : Z -> Z -> Prop) l : (forall i j, 0 <= i < n -> 0 <= j < m -> R i j <-> R' i j) -> transversal n m R l <-> transversal n m R' l.
Proof.
  intros H. unfold transversal. rewrite !Forall_forall. split; intros (T1 & T2 & T3); split; auto; split; auto; intros [i j] I; specialize (T3 _ I); cbn in T3; (split; [tauto|split; [tauto|apply H; tauto]]).
Qed.
Section Extension.
Variables (n m : Z) (R R' : Z -> Z -> Prop).
Hypothesis HR : forall i j, 0 <= i < n -> 0 <= j < m -> R i j <-> R' i j.
Lemma largest_ext l : largest n m R l <-> largest n m R' l.
Proof. unfold largest. split; intros [T M]; (split; [apply (transversal_ext n m R R' l HR); auto|intros k K; apply M; apply (transversal_ext n m R R' k HR); auto]). Qed.
Lemma missed_row_ext i : missed_row n m R i <-> missed_row n m R' i.
Proof. unfold missed_row. split; intros (Hi & l & L & N); (split; [auto|]); exists l; (split; [now apply largest_ext|auto]). Qed.
Lemma missed_col_ext i : missed_col n m R i <-> missed_col n m R' i.
Proof. unfold missed_col. split; intros (Hi & l & L & N); (split; [auto|]); exists l; (split; [now apply largest_ext|auto]). Qed.
Lemma hrow_ext i : hrow n m R i <-> hrow n m R' i.
Proof. unfold hrow. split; intros (Hi & j & M & Hr); (split; [auto|]); exists j; (split; [now apply missed_col_ext|apply HR; auto; apply M]). Qed.
Lemma vcol_ext j : vcol n m R j <-> vcol n m R' j.
Proof. unfold vcol. split; intros (Hj & i & M & Hr); (split; [auto|]); exists i; (split; [now apply missed_row_ext|apply HR; auto; apply M]). Qed.
Lemma sqrow_ext i : sqrow n m R i <-> sqrow n m R' i.
Proof. unfold sqrow, vrow. now rewrite hrow_ext, missed_row_ext. Qed.
Lemma usable_ext i j : usable n m R i j <-> usable n m R' i j.
Proof. unfold usable. split; intros (l & L & I); exists l; (split; [now apply largest_ext|auto]). Qed.
Lemma linked_ext i j : linked n m R i j <-> linked n m R' i j.
Proof. split; intros H; induction H as [|k c l _ IH U1 U2]; try apply linked_refl; apply (linked_step _ _ _ _ k c); auto; now apply usable_ext. Qed.
Lemma blocks_ext bs : blocks_of n m R bs -> blocks_of n m R' bs.
Proof.
  intros (B1 & B2 & B3 & B4 & B5). split; [auto|]. split; [auto|]. split; [intros i; rewrite <- sqrow_ext; auto|]. split.
  - intros i i' Hi. rewrite <- linked_ext. apply B4. now apply sqrow_ext.
  - intros t u i i' j Htu Hi Hi' U Hr. apply (B5 t u i i' j); auto; [now apply usable_ext|].
    destruct (use_range n m R' i j U) as [_ Hj]. apply HR; auto.
    assert (S : sqrow n m R i') by (apply B3; apply in_concat; exists (nth u bs []); split; auto; destruct (nth_in_or_default u bs []) as [?|E]; [auto|rewrite E in Hi'; destruct Hi']). apply S.
Qed.
End Extension.

(* the rows and columns of the parts, and the blocks *)
Lemma many_part n k lo hi p (P : Z -> Prop) : is_perm n p -> 0 <= lo <= hi -> hi <= n -> k = hi - lo -> (forall i, P i -> 0 <= i < n) ->
  (forall a, 0 <= a < n -> P (get p a) <-> lo <= a < hi) -> many k P.
Proof.
  intros Hp H1 H2 -> HR HP. pose proof Hp as (Lp & Rp & Ip). exists (map (get p) (zseq lo hi)). split; [|split].
  - apply NoDup_map_in; [apply NoDup_zseq|]. intros a b Ha Hb. apply In_zseq in Ha, Hb. apply Ip; lia.
  - unfold len. rewrite map_length. fold (len (zseq lo hi)). rewrite len_zseq. lia.
  - intros i. rewrite in_map_iff. split.
    + intros (a & <- & Ha). apply In_zseq in Ha. apply HP; lia.
    + intros Hi. destruct (perm_surj n p i Hp (HR i Hi)) as (a & Ha & <-). exists a. split; [auto|]. apply In_zseq. now apply HP.
Qed.
Definition dm_blocks (p r : list Z) (nb : Z) : list (list Z) := map (fun t => map (get p) (zseq (get r t) (get r (t + 1)))) (zseq 1 (nb - 1)).
Lemma nth_map_ok {X Y} (f : X -> Y) l t d d' : (t < length l)%nat -> nth t (map f l) d' = f (nth t l d).
Proof. intros H. rewrite (nth_indep _ d' (f d)) by (now rewrite map_length). apply map_nth. Qed.
Lemma nth_zseq lo hi t : (t < length (zseq lo hi))%nat -> nth t (zseq lo hi) 0 = lo + Z.of_nat t.
Proof. unfold zseq. rewrite map_length, seq_length. intros H. rewrite (nth_map_ok _ _ _ O) by (rewrite seq_length; auto). rewrite seq_nth; auto. Qed.
Lemma dm_blocks_ok A p q rr cc r c nb : wf A -> coarse A p q rr cc -> fine A p q rr cc r c nb -> blocks_of (cn A) (cm A) (stored A) (dm_blocks p r nb).
Proof.
  intros W C F. pose proof (dims A p q rr cc C) as (D1 & D2 & D3 & D4). pose proof (co_p _ _ _ _ _ C) as Hp. pose proof Hp as (_ & Rp & Ip). pose proof F as [F1 F2 (F3a & F3b & F3c & F3d) F4 F5 F6 F7 _].
  assert (Inc : forall k, 0 <= k -> forall s, 1 <= s -> s + k <= nb - 1 -> get r s <= get r (s + k)).
  { apply (natlike_ind (fun k => forall s, 1 <= s -> s + k <= nb - 1 -> get r s <= get r (s + k))); [intros s _ _; rewrite Z.add_0_r; lia|]. intros k Hk IH s Hs Hsk. specialize (IH s Hs ltac:(lia)). specialize (F5 (s + k) ltac:(lia)). replace (s + Z.succ k) with (s + k + 1) by lia. lia. }
  assert (Inc' : forall s t, 1 <= s -> s <= t -> t <= nb - 1 -> get r s <= get r t). { intros s t H1 H2 H3. pose proof (Inc (t - s) ltac:(lia) s H1 ltac:(lia)) as I. now replace (s + (t - s)) with t in I by lia. }
  assert (Rg : forall t a, 1 <= t < nb - 1 -> in_block r t a -> get rr 1 <= a < get rr 2).
  { intros s x Hs [H1 H2]. pose proof (Inc' 1 s ltac:(lia) ltac:(lia) ltac:(lia)). pose proof (Inc' (s + 1) (nb - 1) ltac:(lia) ltac:(lia) ltac:(lia)). lia. }
  assert (Cov : forall a, get rr 1 <= a < get rr 2 -> exists t, 1 <= t < nb - 1 /\ in_block r t a).
  { intros a Ha. cut (forall k, 0 <= k -> k <= nb - 2 -> a < get r (1 + k) -> exists t, 1 <= t < nb - 1 /\ in_block r t a).
    - intros G. apply (G (nb - 2)); try lia. replace (1 + (nb - 2)) with (nb - 1) by lia. lia.
    - apply (natlike_ind (fun k => k <= nb - 2 -> a < get r (1 + k) -> exists t, 1 <= t < nb - 1 /\ in_block r t a)); [intros _ H; cbn [Z.add] in H; lia|].
      intros k Hk IH H1 H2. destruct (Z_lt_le_dec a (get r (1 + k))); [apply IH; lia|]. exists (1 + k). split; [lia|]. split; [lia|]. now replace (1 + k + 1) with (1 + Z.succ k) by lia. }
  assert (Inb : forall t i, 1 <= t < nb - 1 -> In i (map (get p) (zseq (get r t) (get r (t + 1)))) <-> exists a, in_block r t a /\ get p a = i).
  { intros t i Ht. rewrite in_map_iff. split; intros (a & H1 & H2); exists a; (split; [|auto]); [now apply In_zseq in H2|auto..]. now apply In_zseq. }
  assert (Sp : forall a, 0 <= a < cn A -> sqrow (cn A) (cm A) (stored A) (get p a) <-> get rr 1 <= a < get rr 2).
  { intros a Ha. unfold sqrow. rewrite <- (hrow_ok A p q rr cc W C a Ha), <- (vrow_ok A p q rr cc W C a Ha). split; [lia|]. intros H. split; [now apply Rp|lia]. }
  assert (Con : forall i, In i (concat (dm_blocks p r nb)) <-> sqrow (cn A) (cm A) (stored A) i).
  { intros i. rewrite in_concat. split.
    - intros (b & Hb & Hi). apply in_map_iff in Hb as (t & <- & Ht). apply In_zseq in Ht. apply Inb in Hi as (a & Ba & <-); [|auto]. pose proof (Rg t a ltac:(lia) Ba). apply Sp; lia.
    - intros Hi. destruct (perm_surj (cn A) p i Hp (proj1 Hi)) as (a & Ha & <-). apply Sp in Hi; auto. destruct (Cov a Hi) as (t & Ht & Ba). eexists. split; [apply in_map; apply In_zseq; exact Ht|]. apply Inb; eauto. }
  split; [|split; [|split; [|split]]].
  - apply Forall_forall. intros b Hb. apply in_map_iff in Hb as (t & <- & Ht). apply In_zseq in Ht. specialize (F5 t ltac:(lia)). intros E. apply map_eq_nil in E. pose proof (len_zseq (get r t) (get r (t + 1))) as L. rewrite E in L. unfold len in L. cbn [length] in L. lia.
  - unfold dm_blocks. assert (E : concat (map (fun t => map (get p) (zseq (get r t) (get r (t + 1)))) (zseq 1 (nb - 1))) = map (get p) (zseq (get rr 1) (get rr 2))).
    { assert (G : forall k, 0 <= k -> 1 + k <= nb - 1 -> concat (map (fun t => map (get p) (zseq (get r t) (get r (t + 1)))) (zseq 1 (1 + k))) = map (get p) (zseq (get rr 1) (get r (1 + k)))).
      - apply (natlike_ind (fun k => 1 + k <= nb - 1 -> concat (map (fun t => map (get p) (zseq (get r t) (get r (t + 1)))) (zseq 1 (1 + k))) = map (get p) (zseq (get rr 1) (get r (1 + k))))).
        + intros _. cbn [Z.add]. rewrite F3b, !zseq_empty by lia. reflexivity.
        + intros k Hk IH H. replace (1 + Z.succ k) with (1 + k + 1) by lia. rewrite zseq_S by lia. rewrite map_app, concat_app, IH by lia. cbn [map concat]. rewrite app_nil_r, <- map_app. f_equal.
          symmetry. apply zseq_split. pose proof (Inc' 1 (1 + k) ltac:(lia) ltac:(lia) ltac:(lia)). specialize (F5 (1 + k) ltac:(lia)). lia.
      - specialize (G (nb - 2) ltac:(lia) ltac:(lia)). replace (1 + (nb - 2)) with (nb - 1) in G by lia. now rewrite F3c in G. }
    rewrite E. apply NoDup_map_in; [apply NoDup_zseq|]. intros a b Ha Hb. apply In_zseq in Ha, Hb. apply Ip; lia.
  - exact Con.
  - intros i i' Hi. destruct (perm_surj (cn A) p i Hp (proj1 Hi)) as (a & Ha & <-). apply Sp in Hi; auto. destruct (Cov a Hi) as (t & Ht & Ba). split.
    + intros L. assert (Hi' : sqrow (cn A) (cm A) (stored A) i' /\ 0 <= i' < cn A).
      { assert (Ri : 0 <= i' < cn A) by (destruct L as [|k j i' L U1 U2]; [now apply Rp|apply (use_range _ _ _ _ _ U2)]). split; [|auto]. destruct (perm_surj (cn A) p i' Hp Ri) as (b & Hb & <-).
        apply (renum_linked _ _ _ p q Hp (co_q _ _ _ _ _ C)) in L; auto. pose proof (linked_strong (cn A) (cm A) _ (get rr 1) (get rr 2) (get rr 3) (get cc 1) D1 D2 (block_diag A p q rr cc C) (block_tri2 A p q rr cc C) (block_tri3 A p q rr cc C) a b L Hi) as (K & _). apply Sp; auto. }
      destruct Hi' as [Si Ri]. destruct (perm_surj (cn A) p i' Hp Ri) as (b & Hb & <-). apply Sp in Si; auto. destruct (Cov b Si) as (u & Hu & Bb).
      apply (blocks_ok A p q rr cc C r c nb t u a b F Ht Hu Ba Bb) in L. subst u. eexists. split; [apply in_map; apply In_zseq; exact Ht|]. split; apply Inb; eauto.
    + intros (b & Hb & I1 & I2). apply in_map_iff in Hb as (u & <- & Hu). apply In_zseq in Hu. apply Inb in I1 as (a1 & B1 & E1), I2 as (a2 & B2 & E2); auto. subst i'.
      pose proof (Rg u a1 Hu B1). apply Ip in E1; try lia. subst a1. apply (blocks_ok A p q rr cc C r c nb u u a a2 F Hu Hu B1 B2). reflexivity.
  - intros t u i i' j Htu Hi Hi' U St.
    assert (G : forall t i, In i (nth t (dm_blocks p r nb) []) -> 1 <= 1 + Z.of_nat t < nb - 1 /\ exists a, in_block r (1 + Z.of_nat t) a /\ get p a = i).
    { intros s x Hx. destruct (Nat.lt_ge_cases s (length (zseq 1 (nb - 1)))) as [L|L].
      - unfold dm_blocks in Hx. rewrite (nth_map_ok _ _ _ 0) in Hx by auto. rewrite nth_zseq in Hx by auto.
        assert (K : 1 <= 1 + Z.of_nat s < nb - 1). { pose proof (len_zseq 1 (nb - 1)) as Z1. unfold len in Z1. lia. } split; [auto|]. now apply Inb in Hx.
      - rewrite nth_overflow in Hx; [destruct Hx|]. unfold dm_blocks. now rewrite map_length. }
    apply G in Hi as (Ht & a & Ba & <-), Hi' as (Hu & b & Bb & <-). pose proof (Rg _ _ Ht Ba) as Ra. pose proof (Rg _ _ Hu Bb) as Rb.
    destruct (use_range _ _ _ _ _ U) as [_ Hj]. destruct (perm_surj (cm A) q j (co_q _ _ _ _ _ C) Hj) as (y & Hy & <-).
    apply (renum_usable _ _ _ p q Hp (co_q _ _ _ _ _ C)) in U; auto; [|lia].
    destruct (usable_strong (cn A) (cm A) _ (get rr 1) (get rr 2) (get rr 3) (get cc 1) D1 D2 (block_diag A p q rr cc C) (block_tri2 A p q rr cc C) (block_tri3 A p q rr cc C) a y U Ra) as (Ry & S1 & S2).
    destruct (Cov (y - get cc 1) ltac:(lia)) as (v & Hv & By).
    assert (E : v = 1 + Z.of_nat t).
    { apply (fi_irr _ _ _ _ _ _ _ _ F v (1 + Z.of_nat t) (y - get cc 1 - get rr 1) (a - get rr 1)); auto; [now replace (get rr 1 + (y - get cc 1 - get rr 1)) with (y - get cc 1) by lia|now replace (get rr 1 + (a - get rr 1)) with a by lia|].
      rewrite <- !(sreach_dreach A p q rr cc C). auto. }
    subst v. assert (Hlt : 1 + Z.of_nat u <= 1 + Z.of_nat t); [|lia]. apply (F7 (1 + Z.of_nat u) (1 + Z.of_nat t) b y); auto; try lia.
    destruct By as [By1 By2]. pose proof (F6 (1 + Z.of_nat t) ltac:(lia)). pose proof (F6 (1 + Z.of_nat t + 1) ltac:(lia)). unfold in_block. lia.
Qed.

(** ** The tool *)
Definition dm_ok n m es (r : dm * csr) : Prop := let '(D, B) := r in exists A, holds 42013 n m es A /\ coarse A (dm_p D) (dm_q D) (dm_rr D) (dm_cc D) /\
    (get (dm_rr D) 1 < get (dm_rr D) 2 -> fine A (dm_p D) (dm_q D) (dm_rr D) (dm_cc D) (dm_r D) (dm_c D) (dm_nb D)) /\
    wf B /\ cn B = n /\ cm B = m /\ cprime B = 42013 /\ reduced B /\ no_zero B /\ nodup_rows B /\
    forall i j, 0 <= i < n -> 0 <= j < m -> cong 42013 (entry B i j) (fmat es (get (dm_p D) i) (get (dm_q D) j)).
Lemma dm_permute_ok g gd n m es A : holds 42013 n m es A -> sat (dm_permute g gd A) (dm_ok n m es).
Proof.
  intros H. assert (Hp : ok_modulus 42013) by (unfold ok_modulus; lia). unfold dm_permute.
  pose proof (holds_mat _ _ _ _ _ H) as HM. pose proof H as (W & En & Em & Ep & (Rx & R) & Z0 & D & _). pose proof (wf_n A W) as Hn. pose proof (wf_m A W) as Hm. rewrite En in Hn. rewrite Em in Hm.
  apply sat_bind. eapply sat_mono; [apply (dulmage_mendelsohn_ok gd A W)|]. intros DM (C & Fi & _). pose proof (co_p _ _ _ _ _ C) as Cp. pose proof (co_q _ _ _ _ _ C) as Cq.
  apply sat_bind. eapply sat_mono; [apply (pinv_ok (g 2) (Some (dm_q DM)) (cm A)); [lia|exact Cq]|]. intros qinv (_ & Q1 & Q2).
  apply sat_bind. pose proof (permute_entry (g 3) A (Some (dm_p DM)) qinv true W Cp Q1) as PE. eapply sat_mono; [eapply sat_and; [exact PE|apply (permute_ok (g 3) A (Some (dm_p DM)) qinv true W Cp Q1)]|].
  intros B ((WB & B1 & B2 & B3 & B4 & B5 & B6) & (_ & _ & _ & _ & _ & _ & B7)).
  assert (IB : forall i c v, 0 <= i < cn B -> In (c, v) (rowl B i) -> exists px, 0 <= px < nnz A /\ v = val A px).
  { intros i c v Hi Hv. rewrite B7 in Hv by lia. unfold prow in Hv. apply in_map_iff in Hv as ([c' v'] & E & I). cbn [fst snd] in E. injection E as _ <-. apply In_rowl in I as (px & I1 & _ & I2).
    destruct Cp as (_ & Cp & _). pose proof (wf_row A W (get (dm_p DM) i) ltac:(apply Cp; lia)). exists px. cbn [oapply] in I1. split; [lia|auto]. }
  assert (RB : reduced B). { apply rows_reduced; auto. { rewrite B5. intros [?|?]; [discriminate|auto]. } intros i c v Hi Hv. destruct (IB i c v Hi Hv) as (px & Hx & ->). rewrite B3. auto. }
  assert (ZB : no_zero B). { apply rows_no_zero; auto. intros i c v Hi Hv. destruct (IB i c v Hi Hv) as (px & Hx & ->). auto. }
  assert (DB : nodup_rows B).
  { apply rows_nodup; auto. intros i Hi. rewrite B7 by lia. unfold prow, rowl. rewrite !map_map. cbn [fst]. destruct Cp as (_ & Cp & _). specialize (Cp i ltac:(lia)). cbn [oapply].
    pose proof (wf_row A W _ Cp). apply NoDup_map_in; [apply NoDup_zseq|]. intros a b Ha Hb E. apply In_zseq in Ha, Hb. pose proof (wf_col A W a ltac:(lia)). pose proof (wf_col A W b ltac:(lia)).
    apply (operm_inj (cm A) qinv) in E; auto. apply (D _ a b Cp); auto. }
  cbn [sat]. exists A. split; [auto|]. split; [auto|]. split; [auto|]. split; [auto|]. split; [lia|]. split; [lia|]. split; [congruence|]. split; [auto|]. split; [auto|]. split; [auto|].
  intros i j Hi Hj. destruct Cp as (_ & Cp & _). destruct Cq as (_ & Cq & _). specialize (Cp i ltac:(lia)). specialize (Cq j ltac:(lia)). rewrite <- (HM (get (dm_p DM) i) (get (dm_q DM) j)) by lia.
  destruct (B6 i (get (dm_q DM) j) ltac:(lia) ltac:(lia)) as [B8 _]. destruct (Q2 j ltac:(lia)) as [Q2a _]. cbn [oapply] in B8, Q2a |- *. rewrite Q2a in B8. rewrite B8. apply cong_refl.
Qed.
Lemma dm_matrix_calm gs g gd f n m es : matrix_file f n m es -> calm 42013 n es -> sat (dm_matrix gs g gd f) (dm_ok n m es).
Proof.
  intros F NC. assert (Hp : ok_modulus 42013) by (unfold ok_modulus; lia). unfold dm_matrix. apply sat_bind.
  eapply sat_mono; [apply (load_matrix_calm gs g (fun _ _ => false) f n m es 42013 None Hp F NC); discriminate|]. intros [A h] (H & _). now apply dm_permute_ok.
Qed.
Lemma dm_matrix_ok gs g gd f n m es : matrix_file f n m es -> no_cancel 42013 es ->
  sat (dm_matrix gs g gd f) (fun '(D, B) => exists A, holds 42013 n m es A /\ coarse A (dm_p D) (dm_q D) (dm_rr D) (dm_cc D) /\
    (get (dm_rr D) 1 < get (dm_rr D) 2 -> fine A (dm_p D) (dm_q D) (dm_rr D) (dm_cc D) (dm_r D) (dm_c D) (dm_nb D)) /\
    wf B /\ cn B = n /\ cm B = m /\ cprime B = 42013 /\ reduced B /\ no_zero B /\ nodup_rows B /\
    forall i j, 0 <= i < n -> 0 <= j < m -> cong 42013 (entry B i j) (fmat es (get (dm_p D) i) (get (dm_q D) j))).
Proof. intros F NC. apply dm_matrix_calm; auto. now apply no_cancel_calm. Qed.
Lemma dm_save_ok n m es D B : 0 <= n < 2 ^ 31 -> 0 <= m < 2 ^ 31 -> dm_ok n m es (D, B) ->
  let R := fun i j => ~ cong 42013 (fmat es i j) 0 in
  sat (csr_save B) (fun f' => exists P Q es' hn hm s, is_perm n P /\ is_perm m Q /\ written f' n m es' /\ clean 42013 es' /\
    (forall i j, 0 <= i < n -> 0 <= j < m -> cong 42013 (fmat es' i j) (fmat es (get P i) (get Q j))) /\
    (forall a, 0 <= a < n -> (a < hn <-> hrow n m R (get P a)) /\ (hn + s <= a <-> vrow n m R (get P a))) /\
    (forall b, 0 <= b < m -> (b < hm <-> hcol n m R (get Q b)) /\ (hm + s <= b <-> vcol n m R (get Q b))) /\
    (forall x, 0 <= x < s -> ~ cong 42013 (fmat es' (hn + x) (hm + x)) 0)).
Proof.
  intros Hn Hm (A & H & C & _ & WB & B1 & B2 & B3 & RB & ZB & DB & E) R. pose proof H as (W & En & Em & _).
  assert (HR : forall i j, 0 <= i < n -> 0 <= j < m -> stored A i j <-> R i j) by (intros; apply (holds_stored 42013 n m es A); auto; unfold ok_modulus; lia).
  pose proof (dims A _ _ _ _ C) as (D1 & D2 & D3 & D4). pose proof (block_diag A _ _ _ _ C) as Dg. cbv beta in Dg.
  pose proof (hrow_ok A _ _ _ _ W C) as PH. pose proof (vrow_ok A _ _ _ _ W C) as PV. pose proof (hcol_ok A _ _ _ _ W C) as QH. pose proof (vcol_ok A _ _ _ _ W C) as QV.
  destruct (save_written B WB) as (f' & es' & Ef & Hw & Hent & Hcl); try lia. { apply (reduced_int64 _ 42013); auto; unfold ok_modulus; lia. }
  rewrite Ef. cbn [sat]. exists (dm_p D), (dm_q D), es', (get (dm_rr D) 1), (get (dm_cc D) 2), (get (dm_rr D) 2 - get (dm_rr D) 1). pose proof (co_p _ _ _ _ _ C) as Cp. pose proof (co_q _ _ _ _ _ C) as Cq. rewrite B1, B2 in Hw. rewrite En, Em in *.
  assert (EE : forall i j, 0 <= i < n -> 0 <= j < m -> cong 42013 (fmat es' i j) (fmat es (get (dm_p D) i) (get (dm_q D) j))) by (intros i j Hi Hj; rewrite Hent by lia; now apply E).
  split; [auto|]. split; [auto|]. split; [auto|]. split; [apply Hcl; auto|]. split; [exact EE|]. split; [|split].
  - intros a Ha. unfold vrow. rewrite <- (hrow_ext n m (stored A) R HR), <- (missed_row_ext n m (stored A) R HR), <- PH by auto. specialize (PV a Ha). unfold vrow in PV. rewrite <- PV. lia.
  - intros b Hb. unfold hcol. rewrite <- (vcol_ext n m (stored A) R HR), <- (missed_col_ext n m (stored A) R HR), <- QV by auto. specialize (QH b Hb). unfold hcol in QH. rewrite <- QH. lia.
  - intros x Hx. rewrite EE by lia. apply HR; [apply Cp; lia|apply Cq; lia|]. replace (get (dm_cc D) 2 + x) with (get (dm_cc D) 1 + (get (dm_rr D) 1 + x)) by lia. apply Dg. lia.
Qed.
Theorem tool_dm_calm gs g gd f n m es : matrix_file f n m es -> calm 42013 n es ->
  let R := fun i j => ~ cong 42013 (fmat es i j) 0 in
  sat (tool_dm gs g gd f) (fun f' => exists P Q es' hn hm s, is_perm n P /\ is_perm m Q /\ written f' n m es' /\ clean 42013 es' /\
    (forall i j, 0 <= i < n -> 0 <= j < m -> cong 42013 (fmat es' i j) (fmat es (get P i) (get Q j))) /\
    (forall a, 0 <= a < n -> (a < hn <-> hrow n m R (get P a)) /\ (hn + s <= a <-> vrow n m R (get P a))) /\
    (forall b, 0 <= b < m -> (b < hm <-> hcol n m R (get Q b)) /\ (hm + s <= b <-> vcol n m R (get Q b))) /\
    (forall x, 0 <= x < s -> ~ cong 42013 (fmat es' (hn + x) (hm + x)) 0)).
Proof.
  intros F NC R. destruct (file_dims f n m es F) as [Hn Hm]. unfold tool_dm. apply sat_bind. eapply sat_mono; [apply (dm_matrix_calm gs g gd f n m es F NC)|]. intros [D B] H. exact (dm_save_ok n m es D B Hn Hm H).
Qed.
Theorem tool_dm_ok gs g gd f n m es : matrix_file f n m es -> no_cancel 42013 es ->
  let R := fun i j => ~ cong 42013 (fmat es i j) 0 in
  sat (tool_dm gs g gd f) (fun f' => exists P Q es' hn hm s, is_perm n P /\ is_perm m Q /\ written f' n m es' /\ clean 42013 es' /\
    (forall i j, 0 <= i < n -> 0 <= j < m -> cong 42013 (fmat es' i j) (fmat es (get P i) (get Q j))) /\
    (forall a, 0 <= a < n -> (a < hn <-> hrow n m R (get P a)) /\ (hn + s <= a <-> vrow n m R (get P a))) /\
    (forall b, 0 <= b < m -> (b < hm <-> hcol n m R (get Q b)) /\ (hm + s <= b <-> vcol n m R (get Q b))) /\
    (forall x, 0 <= x < s -> ~ cong 42013 (fmat es' (hn + x) (hm + x)) 0)).
Proof. intros F NC. apply tool_dm_calm; auto. now apply no_cancel_calm. Qed.

(** ** The report *)
Lemma renders_app ps : forall f ps' f', renders ps f -> renders ps' f' -> renders (ps ++ ps') (f ++ f').
Proof.
  induction ps as [|x ps IH]; intros f ps' f' H H'; inversion H; subst; cbn [app]; [auto|..]; rewrite <- ?app_assoc; constructor; auto.
Qed.
Lemma part_renders name a b tail : int32 a -> int32 b -> renders (dims_line name a b tail) (if (0 <? a) && (0 <? b) then print_part name a b tail else []).
Proof.
  unfold int32. intros Ha Hb. unfold dims_line. destruct ((0 <? a) && (0 <? b)); [|constructor]. unfold print_part.
  pose proof (proj1 (print_int_spec a ltac:(lia))). pose proof (proj1 (print_int_spec b ltac:(lia))).
  repeat (constructor; auto).
Qed.
Lemma if_app (b : bool) (f s : list Z) : (if b then f ++ s else f) = f ++ (if b then s else []).
Proof. destruct b; [auto|now rewrite app_nil_r]. Qed.

Lemma dm_report_ok n m es D B : 0 <= n < 2 ^ 31 -> 0 <= m < 2 ^ 31 -> dm_ok n m es (D, B) ->
  let R := fun i j => ~ cong 42013 (fmat es i j) 0 in
  exists k hn hm s vn vm bs, srank n m R k /\ many hn (hrow n m R) /\ many hm (hcol n m R) /\ many s (sqrow n m R) /\ many s (sqcol n m R) /\
    many vn (vrow n m R) /\ many vm (vcol n m R) /\ blocks_of n m R bs /\
    if hn + s + m <? 2 ^ 31 then exists f', dm_report D = Ok f' /\ renders (report k hn hm s (map len bs) vn vm) f'
    else dm_report D = Fail Overflow.
Proof.
  intros Hn Hm (A & H & C & Fi & _) R. unfold dm_report. pose proof H as (W & En & Em & _).
  assert (HR : forall i j, 0 <= i < n -> 0 <= j < m -> stored A i j <-> R i j) by (intros; apply (holds_stored 42013 n m es A); auto; unfold ok_modulus; lia).
  pose proof (dims A _ _ _ _ C) as (D1 & D2 & D3 & D4). pose proof (co_p _ _ _ _ _ C) as Cp. pose proof (co_q _ _ _ _ _ C) as Cq. pose proof (co_len _ _ _ _ _ C) as [L1 L2].
  pose proof (co_rr _ _ _ _ _ C) as (R0 & R4 & _). pose proof (co_cc _ _ _ _ _ C) as (C0 & C4 & _).
  set (p := dm_p D) in *. set (q := dm_q D) in *. set (rr := dm_rr D) in *. set (cc := dm_cc D) in *. set (r := dm_r D) in *. set (nb := dm_nb D) in *.
  pose proof (hrow_ok A p q rr cc W C) as PH. pose proof (vrow_ok A p q rr cc W C) as PV. pose proof (hcol_ok A p q rr cc W C) as QH. pose proof (vcol_ok A p q rr cc W C) as QV.
  rewrite En, Em in *.
  assert (Hs : forall i, sqrow n m (stored A) i <-> sqrow n m R i) by (apply sqrow_ext; auto).
  assert (Hsc : forall i, sqcol n m (stored A) i <-> sqcol n m R i). { intros i. unfold sqcol, hcol. now rewrite (missed_col_ext n m (stored A) R HR i), (vcol_ext n m (stored A) R HR i). }
  set (bs := if get rr 1 <? get rr 2 then dm_blocks p r nb else []).
  exists (get rr 3), (get rr 1), (get cc 2), (get rr 2 - get rr 1), (n - get rr 2), (m - get cc 3), bs.
  assert (K : srank n m R (get rr 3)).
  { destruct (co_alt _ _ _ _ _ C) as (jm & im & Mt & Es & (Mx1 & Mx2) & _). split.
    - destruct (matching_transversal A jm im R W) as (l & T & El & _); auto. { intros i j Hi Hj. apply HR; lia. } rewrite En, Em in T. exists l. split; [auto|lia].
    - intros l Hl. rewrite <- En, <- Em in Hl. destruct (transversal_matching A R l W) as (p0 & q0 & M0 & <-); auto. { intros i j Hi Hj. apply HR; lia. } eapply Mx2; eauto. }
  split; [exact K|].
  split. { apply (many_part n _ 0 (get rr 1) p); auto; try lia. { intros i Hi. apply Hi. } intros a Ha. rewrite <- (hrow_ext n m (stored A) R HR), <- PH by auto. lia. }
  split. { apply (many_part m _ 0 (get cc 2) q); auto; try lia. { intros i Hi. apply Hi. } intros a Ha. unfold hcol. rewrite <- (missed_col_ext n m (stored A) R HR). specialize (QH a Ha). unfold hcol in QH. rewrite <- QH. lia. }
  split. { apply (many_part n _ (get rr 1) (get rr 2) p); auto; try lia. { intros i Hi. apply Hi. } intros a Ha. rewrite <- Hs. unfold sqrow. rewrite <- PH, <- PV by auto. destruct Cp as (_ & Rp & _). specialize (Rp a Ha). lia. }
  split. { apply (many_part m _ (get cc 2) (get cc 3) q); auto; try lia. { intros i Hi. apply Hi. } intros a Ha. rewrite <- Hsc. unfold sqcol. rewrite <- QH, <- QV by auto. destruct Cq as (_ & Rq & _). specialize (Rq a Ha). lia. }
  split. { apply (many_part n _ (get rr 2) n p); auto; try lia. { intros i Hi. apply Hi. } intros a Ha. unfold vrow. rewrite <- (missed_row_ext n m (stored A) R HR). specialize (PV a Ha). unfold vrow in PV. rewrite <- PV. lia. }
  split. { apply (many_part m _ (get cc 3) m q); auto; try lia. { intros i Hi. apply Hi. } intros a Ha. rewrite <- (vcol_ext n m (stored A) R HR), <- QV by auto. lia. }
  split.
  { apply (blocks_ext n m (stored A) R HR). unfold bs. destruct (Z.ltb_spec (get rr 1) (get rr 2)) as [L|L].
    - rewrite <- En, <- Em. apply (dm_blocks_ok A p q rr cc r (dm_c D) nb); auto.
    - assert (Emp : forall i, ~ sqrow n m (stored A) i). { intros i Hi. destruct (perm_surj n p i Cp (proj1 Hi)) as (a & Ha & <-). unfold sqrow in Hi. rewrite <- PH, <- PV in Hi by auto. lia. }
      split; [constructor|]. split; [constructor|]. split; [|split].
      + intros i. cbn. split; [tauto|]. apply Emp.
      + intros i i' Hi. destruct (Emp i Hi).
      + intros t u i i' j _ Hi. destruct t; destruct Hi. }
  assert (AG : forall t (X : Z -> res (list Z)), 0 <= t < 5 -> (v <- aget rr t ;; X v) = X (get rr t)). { intros t X Ht. rewrite aget_ok by lia. reflexivity. }
  assert (AC : forall t (X : Z -> res (list Z)), 0 <= t < 5 -> (v <- aget cc t ;; X v) = X (get cc t)). { intros t X Ht. rewrite aget_ok by lia. reflexivity. }
  rewrite !AG, !AC by lia. rewrite R0, R4, C0, C4. replace (get rr 1 + (get rr 2 - get rr 1) + m) with (get rr 2 + m) by lia.
  unfold i32. replace (- 2 ^ 31 <=? get rr 2 + m) with true by lia. cbn [andb]. destruct (get rr 2 + m <? 2 ^ 31) eqn:Ov; [|reflexivity]. cbn [bind].
  replace (get rr 2 + m - get cc 3) with (get rr 3) by lia. replace (get rr 1 - 0) with (get rr 1) by lia. replace (get cc 2 - 0) with (get cc 2) by lia. replace (get cc 3 - get cc 2) with (get rr 2 - get rr 1) by lia.
  rewrite !if_app. set (f0 := (chars "structural rank = " ++ print_int (get rr 3) ++ [NL]) ++ (if (0 <? get rr 1) && (0 <? get cc 2) then print_part "H" (get rr 1) (get cc 2) "" else [])).
  assert (P0 : renders ([Chars "structural rank = "; Number (get rr 3); EndLine] ++ dims_line "H" (get rr 1) (get cc 2) "") f0).
  { apply renders_app; [|apply part_renders; unfold int32; lia]. repeat constructor. apply print_int_spec. lia. }
  match goal with |- exists f', bind ?e _ = _ /\ _ => assert (P1 : sat e (fun f1 => exists t, f1 = f0 ++ t /\ renders (dims_line "S" (get rr 2 - get rr 1) (get rr 2 - get rr 1) " : " ++ block_lines (map len bs)) t)) end.
  { unfold bs. destruct (Z.ltb_spec (get rr 1) (get rr 2)) as [L|L].
    - replace ((0 <? get rr 2 - get rr 1) && (0 <? get rr 2 - get rr 1)) with true by lia. specialize (Fi L). pose proof Fi as [F1 [F2 _] (F3a & F3b & F3c & F3d) _ F5 _ _ _].
      set (sz := fun t => get r (t + 1) - get r t).
      assert (Inc : forall t, 0 <= t -> 1 + t <= nb - 1 -> get rr 1 + t <= get r (1 + t)).
      { apply (natlike_ind (fun t => 1 + t <= nb - 1 -> get rr 1 + t <= get r (1 + t))); [intros _; cbn [Z.add]; lia|]. intros t Ht IH Hb. specialize (F5 (1 + t) ltac:(lia)). replace (1 + Z.succ t) with (1 + t + 1) by lia. lia. }
      assert (Dec : forall t, 0 <= t -> 1 <= nb - 1 - t -> get r (nb - 1 - t) <= get rr 2).
      { apply (natlike_ind (fun t => 1 <= nb - 1 - t -> get r (nb - 1 - t) <= get rr 2)); [intros _; rewrite Z.sub_0_r; lia|]. intros t Ht IH Hb. specialize (F5 (nb - 1 - Z.succ t) ltac:(lia)). replace (nb - 1 - Z.succ t + 1) with (nb - 1 - t) in F5 by lia. lia. }
      assert (Hsz : forall t, 1 <= t < nb - 1 -> int32 (sz t)).
      { intros t Ht. unfold sz, int32. pose proof (Inc (t - 1) ltac:(lia) ltac:(lia)) as I1. replace (1 + (t - 1)) with t in I1 by lia. pose proof (Dec (nb - 1 - (t + 1)) ltac:(lia) ltac:(lia)) as I2. replace (nb - 1 - (nb - 1 - (t + 1))) with (t + 1) in I2 by lia. specialize (F5 t ltac:(lia)). lia. }
      assert (Hnb : nb <= n + 2). { pose proof (Inc (nb - 2) ltac:(lia) ltac:(lia)) as I1. replace (1 + (nb - 2)) with (nb - 1) in I1 by lia. lia. }
      assert (Em' : map len (dm_blocks p r nb) = map sz (zseq 1 (nb - 1))).
      { unfold dm_blocks. rewrite map_map. apply map_ext_in. intros t Ht. apply In_zseq in Ht. unfold len at 1. rewrite map_length. fold (len (zseq (get r t) (get r (t + 1)))). rewrite len_zseq. unfold sz. specialize (F5 t ltac:(lia)). lia. }
      rewrite Em'. set (f1 := f0 ++ print_part "S" (get rr 2 - get rr 1) (get rr 2 - get rr 1) " : "). cbv zeta.
      apply sat_bind. apply (for_spec (fun k '(f, t) => t = len (filter (fun z => z =? 1) (map sz (zseq 1 k))) /\ exists s, f = f1 ++ s /\
        renders (flat_map (fun z => if z =? 1 then [] else [Chars "    *) SCC of size "; Number z; EndLine]) (map sz (zseq 1 k))) s)); [lia| | |].
      + rewrite zseq_empty by lia. split; [reflexivity|]. exists []. split; [now rewrite app_nil_r|constructor].
      + intros k [ff t] Hk (E & s & -> & Rs). apply sat_bind, sat_aget; [lia|]. apply sat_bind, sat_aget; [lia|]. fold (sz k). rewrite zseq_S, map_app, filter_app, flat_map_app by lia. cbn [map filter flat_map]. rewrite app_nil_r.
        destruct (Z.eqb_spec (sz k) 1) as [Es|Es]; cbn [sat].
        * split; [rewrite len_app, E; unfold len; reflexivity|]. exists s. rewrite app_nil_r. auto.
        * split; [rewrite app_nil_r; auto|]. exists (s ++ chars "    *) SCC of size " ++ print_int (sz k) ++ [NL]). split; [now rewrite <- !app_assoc|]. apply renders_app; [auto|]. repeat constructor. apply print_int_spec. specialize (Hsz k ltac:(lia)). unfold int32 in Hsz. lia.
      + intros [ff t] (E & s & -> & Rs). cbn [sat]. rewrite if_app. subst t. set (ones := len (filter (fun z => z =? 1) (map sz (zseq 1 (nb - 1))))).
        assert (Ho : ones <= nb). { unfold ones. pose proof (len_split (fun z => z =? 1) (map sz (zseq 1 (nb - 1)))) as E1. assert (E2 : len (map sz (zseq 1 (nb - 1))) = nb - 2) by (unfold len; rewrite map_length; fold (len (zseq 1 (nb - 1))); rewrite len_zseq; lia). pose proof (len_nonneg (filter (fun x => negb (x =? 1)) (map sz (zseq 1 (nb - 1))))). cbv beta in E1. lia. }
        assert (Ho' : 0 <= ones) by (unfold ones; apply len_nonneg).
        exists (print_part "S" (get rr 2 - get rr 1) (get rr 2 - get rr 1) " : " ++ s ++ (if 0 <? ones then chars "    -> plus " ++ print_int ones ++ chars " SCC of size 1" ++ [NL] else [])). split; [unfold f1; now rewrite <- !app_assoc|].
        apply renders_app.
        * pose proof (part_renders "S" (get rr 2 - get rr 1) (get rr 2 - get rr 1) " : " ltac:(unfold int32; lia) ltac:(unfold int32; lia)) as P. replace ((0 <? get rr 2 - get rr 1) && (0 <? get rr 2 - get rr 1)) with true in P by lia. exact P.
        * unfold block_lines. apply renders_app; [exact Rs|]. fold ones. cbv zeta. destruct (0 <? ones); [|constructor]. repeat (constructor; auto). apply print_int_spec. lia.
    - replace ((0 <? get rr 2 - get rr 1) && (0 <? get rr 2 - get rr 1)) with false by lia. cbn [sat]. exists []. split; [now rewrite app_nil_r|].
      unfold dims_line. replace ((0 <? get rr 2 - get rr 1) && (0 <? get rr 2 - get rr 1)) with false by lia. constructor. }
  match type of P1 with sat ?e _ => destruct e as [f1|] end; cbn [sat] in P1; [|tauto]. destruct P1 as (t & -> & Pt). cbn [bind]. eexists. split; [reflexivity|]. rewrite if_app.
  unfold report. rewrite (app_assoc _ (dims_line "H" _ _ _)). rewrite <- (app_assoc f0). apply renders_app; [exact P0|]. rewrite app_assoc. apply renders_app; [exact Pt|]. apply part_renders; unfold int32; lia.
Qed.
Theorem tool_dm_report_calm gs g gd f n m es : matrix_file f n m es -> calm 42013 n es ->
  let R := fun i j => ~ cong 42013 (fmat es i j) 0 in
  exists k hn hm s vn vm bs, srank n m R k /\ many hn (hrow n m R) /\ many hm (hcol n m R) /\ many s (sqrow n m R) /\ many s (sqcol n m R) /\
    many vn (vrow n m R) /\ many vm (vcol n m R) /\ blocks_of n m R bs /\
    if hn + s + m <? 2 ^ 31 then exists f', tool_dm_report gs g gd f = Ok f' /\ renders (report k hn hm s (map len bs) vn vm) f'
    else tool_dm_report gs g gd f = Fail Overflow.
Proof.
  intros F NC R. destruct (file_dims f n m es F) as [Hn Hm]. unfold tool_dm_report. pose proof (dm_matrix_calm gs g gd f n m es F NC) as S.
  destruct (dm_matrix gs g gd f) as [[D B]|]; cbn [sat] in S; [|tauto]. cbn [bind]. exact (dm_report_ok n m es D B Hn Hm S).
Qed.
Theorem tool_dm_report_ok gs g gd f n m es : matrix_file f n m es -> no_cancel 42013 es ->
  let R := fun i j => ~ cong 42013 (fmat es i j) 0 in
  exists k hn hm s vn vm bs, srank n m R k /\ many hn (hrow n m R) /\ many hm (hcol n m R) /\ many s (sqrow n m R) /\ many s (sqcol n m R) /\
    many vn (vrow n m R) /\ many vm (vcol n m R) /\ blocks_of n m R bs /\
    if hn + s + m <? 2 ^ 31 then exists f', tool_dm_report gs g gd f = Ok f' /\ renders (report k hn hm s (map len bs) vn vm) f'
    else tool_dm_report gs g gd f = Fail Overflow.
Proof. intros F NC. apply tool_dm_report_calm; auto. now apply no_cancel_calm. Qed.
