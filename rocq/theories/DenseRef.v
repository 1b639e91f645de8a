(** The assumptions about FFPACK (DenseSpec.v) can be met: a dense factorisation and a reduced
    echelon form, computed with the sparse code of the model.  Used in examples only. *)
From Verif Require Import RrefProofs ParProofs Base BaseFacts Spec SpecFacts SpecElim Zp ZpFacts Mat MatFacts RowList CompressProofs LinAlg TriProofs VecProofs KernelProofs ParRows ElimFacts EchInv
  Reach Schur Gplu GpluProofs Dense DenseSpec DenseProofs DenseProofs3 DenseProofs4 EchProofs.
From Coq Require Import ZifyBool Permutation.

(* a dense matrix in sparse form *)
Definition sparse (p n m : Z) (S : list Z) : csr := Csr n m (map (fun i => i * m) (zseq 0 (n + 1))) (map (fun k => k mod m) (zseq 0 (len S))) (Some S) p.
(* its factorisation: U, qinv, L, p *)
Definition ref_fact (p n m : Z) (S : list Z) : fact :=
  let g := fun _ _ => 0 in
  let A := sparse p n m S in
  let U := csr_alloc g n m (nnz A) p true in
  let f0 := Fact (Csr 0 m (cp U) (cj U) (cx U) p) (fill m (-1)) (Some (triplet_alloc g n n (nnz A) p true)) (fill n (-1)) in
  match echelonize_GPLU g (fun _ _ => Ok false) A (zseq 0 n) n None f0 with Ok f => f | Fail _ => f0 end.
(* l, then what is missing *)
Definition complete_list (n : Z) (l : list Z) : list Z := l ++ filter (fun i => negb (existsb (Z.eqb i) l)) (zseq 0 n).
Definition pivot_col (U : csr) (l : Z) : Z := get (cj U) (rbeg U l).
Definition ref_Q (m : Z) (U : csr) : list Z := complete_list m (map (pivot_col U) (zseq 0 (cn U))).

Definition ref_plu (p n m : Z) (S : list Z) : Z * list Z * list Z * list Z :=
  let f := ref_fact p n m S in
  let U := f_U f in
  let r := cn U in
  let P := complete_list n (map (get (f_p f)) (zseq 0 r)) in
  let Q := ref_Q m U in
  let L i l := match f_L f with Some L => tentry L i l | None => 0 end in
  (r, map (fun k => let i := k / m in let j := k mod m in
         if (j <=? i) && (j <? r) then bal p (L (get P i) j) else if i <? r then bal p (entry U i (get Q j)) else 0) (zseq 0 (len S)), P, Q).

(* the last k rows of the reduced echelon form of U *)
Fixpoint ref_rows (p : Z) (U : csr) (k : nat) : list (list Z) :=
  match k with
  | O => []
  | S k =>
      let R := ref_rows p U k in
      let l := cn U - 1 - Z.of_nat k in
      map (fun j => bal p (entry U l j - sum (l + 1) (cn U) (fun t => entry U l (pivot_col U t) * get (getd [] R (t - l - 1)) j))) (zseq 0 (cm U)) :: R
  end.
Definition ref_rref (p n m : Z) (S : list Z) : Z * list Z * list Z :=
  let U := f_U (ref_fact p n m S) in
  let r := cn U in
  let Q := ref_Q m U in
  let R := ref_rows p U (Z.to_nat r) in
  (r, map (fun k => get (getd [] R (k / m)) (get Q (k mod m))) (zseq 0 (len S)), Q).

(** ** Proofs *)
Lemma complete_perm n l : NoDup l -> (forall i, In i l -> 0 <= i < n) -> Permutation (zseq 0 n) (complete_list n l).
Proof.
  intros Hd Hr. unfold complete_list. apply NoDup_Permutation; [apply NoDup_zseq| |].
  - apply NoDup_app; auto.
    + apply NoDup_filter, NoDup_zseq.
    + intros x Hx Hf. apply filter_In in Hf. destruct Hf as [_ Hf]. apply Bool.negb_true_iff in Hf.
      enough (existsb (Z.eqb x) l = true) by congruence. apply existsb_exists. exists x. split; auto. lia.
  - intros x. rewrite in_app_iff, filter_In, In_zseq. split.
    + intros Hx. destruct (existsb (Z.eqb x) l) eqn:E; [|auto]. left. apply existsb_exists in E. destruct E as (y & Hy & E). assert (x = y) by lia. now subst.
    + intros [H|[H _]]; auto.
Qed.
Lemma complete_ok n l : 0 <= n -> NoDup l -> (forall i, In i l -> 0 <= i < n) ->
  len (complete_list n l) = n /\ (forall k, 0 <= k < n -> 0 <= get (complete_list n l) k < n) /\
  (forall k k', 0 <= k < n -> 0 <= k' < n -> get (complete_list n l) k = get (complete_list n l) k' -> k = k') /\
  (forall k, 0 <= k < len l -> get (complete_list n l) k = get l k) /\ len l <= n.
Proof.
  intros Hn Hd Hr. pose proof (complete_perm n l Hd Hr) as HP.
  assert (Hl : len (complete_list n l) = n).
  { unfold len. rewrite <- (Permutation_length HP). fold (len (zseq 0 n)). rewrite len_zseq. lia. }
  split; auto. split; [|split; [|split]].
  - intros k Hk. apply In_zseq. apply (Permutation_in (l := complete_list n l)); [now apply Permutation_sym|]. apply get_In. lia.
  - intros k k' Hk Hk'. apply NoDup_get_inj; try lia. apply (Permutation_NoDup HP), NoDup_zseq.
  - intros k Hk. unfold complete_list. apply get_app_l. lia.
  - unfold complete_list in Hl. rewrite len_app in Hl. pose proof (len_nonneg (filter (fun i => negb (existsb (Z.eqb i) l)) (zseq 0 n))). lia.
Qed.

Lemma len_fill' k (v : Z) : 0 <= k -> len (fill k v) = k.
Proof. intros. rewrite len_fill. lia. Qed.
Section ref.
Context (p n m : Z) (S : list Z) (Hmod : ok_modulus p) (Hprime : Znumtheory.prime p) (Hn : 0 <= n) (Hm : 0 <= m) (HS : n * m <= len S)
  (HB : forall i j, 0 <= i < n -> 0 <= j < m -> balanced p (dget m S i j)).
Let A := sparse p n m S.
Lemma sparse_cp i : 0 <= i <= n -> get (cp A) i = i * m.
Proof. intros Hi. unfold A, sparse, get; cbn [cp]. rewrite (getd_map _ 0) by (rewrite len_zseq; lia). rewrite getd_zseq by lia. f_equal. Qed.
Lemma sparse_cj k : 0 <= k < len S -> get (cj A) k = k mod m.
Proof. intros Hi. unfold A, sparse, get; cbn [cj]. rewrite (getd_map _ 0) by (rewrite len_zseq; lia). rewrite getd_zseq by lia. f_equal. Qed.
Lemma sparse_nnz : nnz A = n * m.
Proof. unfold nnz. change (cn A) with n. rewrite sparse_cp by lia. reflexivity. Qed.
Lemma sparse_wf : wf A.
Proof.
  unfold wf. rewrite sparse_nnz. change (cn A) with n. change (cm A) with m.
  split; [lia|]. split; [lia|]. split. { unfold A; cbn [cp sparse]. rewrite len_map, len_zseq. lia. }
  split. { rewrite sparse_cp; lia. }
  split. { intros i Hi. unfold rbeg, rend. rewrite !sparse_cp by lia. nia. }
  split. { unfold A; cbn [cj sparse]. rewrite len_map, len_zseq. nia. }
  split. { intros k Hk. rewrite sparse_cj by lia. apply Z.mod_pos_bound. nia. }
  unfold A; cbn [cj cx sparse]. rewrite len_map, len_zseq. pose proof (len_nonneg S). lia.
Qed.
Lemma sparse_entry i j : 0 <= i < n -> 0 <= j < m -> entry A i j = dget m S i j.
Proof.
  intros Hi Hj. unfold entry, rbeg, rend. rewrite !sparse_cp by lia.
  rewrite (sum_single _ _ _ (i * m + j)); [|nia|].
  - rewrite sparse_cj by nia. rewrite Z.add_comm, Z.mod_add, Z.mod_small by lia. rewrite Z.eqb_refl. unfold val, dget; cbn. now rewrite Z.add_comm.
  - intros k Hk Hne. rewrite sparse_cj by nia. destruct (Z.eqb_spec (k mod m) j) as [E|]; auto. exfalso. apply Hne.
    pose proof (Z.div_mod k m ltac:(lia)) as E2. assert (k / m = i) by (symmetry; apply (Z.div_unique k m i (k - i * m)); lia). nia.
Qed.
Lemma sparse_reduced : reduced A.
Proof.
  split; [discriminate|]. rewrite sparse_nnz. intros k Hk. change (cprime A) with p. unfold val; cbn [cx A sparse].
  assert (0 < m) by nia. specialize (HB (k / m) (k mod m)). unfold dget in HB.
  replace (k / m * m + k mod m) with k in HB by (pose proof (Z.div_mod k m ltac:(lia)); lia).
  apply HB; [|now apply Z.mod_pos_bound]. split; [apply Z.div_pos; lia|]. apply Z.div_lt_upper_bound; lia.
Qed.
Let f := ref_fact p n m S.
Lemma ref_fact_ok : inv p A True true f A (oapply None) [] 0 /\ exists L, f_L f = Some L.
Proof.
  pose proof (inv_init p A (fun _ _ => 0) true true (fill m (-1)) (fill n (-1)) sparse_wf eq_refl sparse_reduced) as HI.
  change (cm A) with m in HI. change (cn A) with n in HI.
  specialize (HI (len_fill' m (-1) Hm)).
  assert (H1 : forall j, 0 <= j < m -> get (fill m (-1)) j = -1) by (intros; now apply get_fill).
  specialize (HI H1 (fun _ => len_fill' n (-1) Hn) ltac:(rewrite sparse_nnz; nia)).
  set (f0 := Fact _ _ _ _) in HI.
  assert (Ez : map (get (zseq 0 n)) (zseq 0 n) = zseq 0 n).
  { rewrite <- (map_id (zseq 0 n)) at 3. apply map_ext_in. intros i Hi. apply In_zseq in Hi. unfold get. rewrite getd_zseq; lia. }
  pose proof (gplu_ok (fun _ _ => 0) (fun _ _ => Ok false) p A True true f0 A (zseq 0 n) n None 0 Hmod Hprime) as G.
  rewrite Ez in G. specialize (G HI). apply sat_Ok in G; auto.
  - destruct G as (f' & E & HI' & HL). unfold f, ref_fact. fold A. change (Fact _ _ _ _) with f0. cbv zeta. rewrite E. split.
    + eapply inv_weaken; [|exact HI']. intros _. split; auto. left. unfold f0; cbn. discriminate.
    + destruct (f_L f') as [L|] eqn:EL; [eauto|]. destruct HL as [HL _]. specialize (HL eq_refl). unfold f0 in HL; cbn in HL. discriminate.
  - rewrite len_zseq. lia.
  - unfold f0. cbn. reflexivity.
  - intros. cbn. auto.
Qed.
Let U := f_U f. Let r := cn U.
Let Q := ref_Q m U.
Lemma ref_el : elim p U (f_q f) /\ cm U = m /\ 0 <= r <= n.
Proof.
  destruct ref_fact_ok as [HI _]. split; [apply (iv_el _ _ _ _ _ _ _ _ _ HI)|]. split; [apply (iv_m _ _ _ _ _ _ _ _ _ HI)|].
  pose proof (iv_room _ _ _ _ _ _ _ _ _ HI) as H. cbn in H. split; [apply wf_n, (el_wf _ _ _ (iv_el _ _ _ _ _ _ _ _ _ HI))|]. unfold r, U. change (len []) with 0 in H. lia.
Qed.
Lemma pivot_col_ok l : 0 <= l < r -> 0 <= pivot_col U l < m /\ get (f_q f) (pivot_col U l) = l.
Proof.
  intros Hl. destruct ref_el as (HE & Em & Hr). pose proof (el_first _ _ _ HE l Hl) as [H1 H2]. split; auto.
  rewrite <- Em. apply (stored_range U l); [apply HE|auto|]. exists (rbeg U l). split; [lia|auto].
Qed.
Lemma get_pivs l : 0 <= l < r -> get (map (pivot_col U) (zseq 0 r)) l = pivot_col U l.
Proof. intros Hl. unfold get. rewrite (getd_map _ 0) by (rewrite len_zseq; lia). rewrite getd_zseq by lia. f_equal. Qed.
Lemma ref_Q_ok : len Q = m /\ (forall k, 0 <= k < m -> 0 <= get Q k < m) /\ (forall k l, 0 <= k < m -> 0 <= l < m -> get Q k = get Q l -> k = l) /\
  (forall l, 0 <= l < r -> get Q l = pivot_col U l) /\ r <= m.
Proof.
  destruct ref_el as (HE & Em & Hr).
  assert (Hlen : len (map (pivot_col U) (zseq 0 r)) = r) by (rewrite len_map, len_zseq; lia).
  destruct (complete_ok m (map (pivot_col U) (zseq 0 r)) Hm) as (Q1 & Q2 & Q3 & Q4 & Q5).
  - apply NoDup_get. rewrite Hlen. intros i j Hi Hj. rewrite !get_pivs by auto. intros E.
    destruct (pivot_col_ok i Hi) as [_ <-]. destruct (pivot_col_ok j Hj) as [_ <-]. now f_equal.
  - intros i Hi. apply in_map_iff in Hi. destruct Hi as (l & <- & Hl). apply In_zseq in Hl. now apply pivot_col_ok.
  - rewrite Hlen in Q4, Q5. repeat split; auto; try (apply Q2; auto). intros l Hl. unfold Q, ref_Q. fold r. rewrite Q4 by auto. now apply get_pivs.
Qed.
Lemma ref_tri i j : 0 <= i < r -> 0 <= j < i -> entry U i (pivot_col U j) = 0.
Proof.
  intros Hi Hj. destruct ref_el as (HE & Em & Hr). destruct (pivot_col_ok j ltac:(lia)) as [H1 H2]. apply entry_absent.
  apply (up_tri _ _ _ (el_up _ _ _ HE)); [now rewrite Em|lia|apply Hi].
Qed.
Lemma ref_unit i : 0 <= i < r -> cong p (entry U i (pivot_col U i)) 1.
Proof.
  intros Hi. destruct ref_el as (HE & Em & Hr). destruct (pivot_col_ok i ltac:(lia)) as [H1 H2].
  pose proof (up_unit _ _ _ (el_up _ _ _ HE) (pivot_col U i)) as H. rewrite H2, Em in H. apply H; lia.
Qed.

Lemma dget_map (F : Z -> Z) i j : 0 <= i < n -> 0 <= j < m -> dget m (map F (zseq 0 (len S))) i j = F (i * m + j).
Proof.
  intros Hi Hj. unfold dget, get. rewrite (getd_map _ 0) by (rewrite len_zseq; nia). rewrite getd_zseq by nia. f_equal.
Qed.
Lemma div_ij i j : 0 <= i -> 0 <= j < m -> (i * m + j) / m = i.
Proof. intros. rewrite Z.add_comm, Z.div_add, Z.div_small by lia. lia. Qed.
Lemma mod_ij i j : 0 <= i -> 0 <= j < m -> (i * m + j) mod m = j.
Proof. intros. rewrite Z.add_comm, Z.mod_add, Z.mod_small by lia. lia. Qed.

Lemma ref_plu_ok : let '(rr, S', P, Q) := ref_plu p n m S in plu_ok p n m S rr S' P Q.
Proof.
  unfold ref_plu. fold f. fold U. fold r. fold Q. cbv zeta.
  destruct ref_fact_ok as [HI (L & EL)]. destruct ref_el as (HE & Em & Hr). destruct ref_Q_ok as (Q1 & Q2 & Q3 & Q4 & Q5).
  pose proof (iv_L _ _ _ _ _ _ _ _ _ HI) as HL. rewrite EL in *. fold U in HL.
  assert (Hp2 : 2 <= p) by (destruct Hmod; auto).
  assert (Hlen : len (map (get (f_p f)) (zseq 0 r)) = r) by (rewrite len_map, len_zseq; lia).
  assert (Hg : forall l, 0 <= l < r -> get (map (get (f_p f)) (zseq 0 r)) l = get (f_p f) l).
  { intros l Hl. unfold get at 1. rewrite (getd_map _ 0) by (rewrite len_zseq; lia). rewrite getd_zseq by lia. f_equal. }
  destruct (complete_ok n (map (get (f_p f)) (zseq 0 r)) Hn) as (P1 & P2 & P3 & P4 & P5).
  { apply NoDup_get. rewrite Hlen. intros i j Hi Hj. rewrite !Hg by auto. intros E.
    destruct (Z.lt_trichotomy i j) as [Hl|[Hl|Hl]]; auto; exfalso.
    - apply (lq_diag _ _ _ _ _ _ _ _ _ _ HL j Hj). rewrite <- E. apply (lq_low _ _ _ _ _ _ _ _ _ _ HL); [lia|apply Hj].
    - apply (lq_diag _ _ _ _ _ _ _ _ _ _ HL i Hi). rewrite E. apply (lq_low _ _ _ _ _ _ _ _ _ _ HL); [lia|apply Hi]. }
  { intros i Hi. apply in_map_iff in Hi. destruct Hi as (l & <- & Hl). apply In_zseq in Hl. apply (lq_rng _ _ _ _ _ _ _ _ _ _ HL). apply Hl. }
  set (P := complete_list n _) in *. rewrite Hlen in P4.
  assert (HP : forall l, 0 <= l < r -> get P l = get (f_p f) l). { intros. rewrite P4 by auto. auto. }
  set (F := fun k => _).
  assert (HF : forall i j, 0 <= i < n -> 0 <= j < m -> dget m (map F (zseq 0 (len S))) i j =
     if (j <=? i) && (j <? r) then bal p (tentry L (get P i) j) else if i <? r then bal p (entry U i (get Q j)) else 0).
  { intros i j Hi Hj. rewrite dget_map by auto. unfold F. rewrite div_ij, mod_ij by lia. reflexivity. }
  constructor; auto.
  - rewrite len_map, len_zseq. pose proof (len_nonneg S). lia.
  - intros i j Hi Hj. rewrite HF by auto. destruct ((j <=? i) && (j <? r)); [now apply bal_balanced|]. destruct (i <? r); [now apply bal_balanced|].
    replace 0 with (bal p 0). { now apply bal_balanced. } apply bal_id; auto. unfold balanced. split; Z.to_euclidean_division_equations; lia.
  - intros l Hl. rewrite HF by lia. replace ((l <=? l) && (l <? r)) with true by lia. intros E0. apply (lq_diag _ _ _ _ _ _ _ _ _ _ HL l Hl).
    rewrite <- HP by auto. eapply cong_trans; [apply cong_sym, bal_cong; auto|]. rewrite E0. apply cong_refl.
  - intros i j Hi Hj. rewrite <- sparse_entry by auto.
    eapply cong_trans.
    { apply (lq_all _ _ _ _ _ _ _ _ _ _ HL eq_refl); [apply P2; auto| |apply Q2; auto]. cbn. auto. }
    unfold xA. fold r. apply sum_cong. intros l Hl. apply cong_mul.
    + destruct (Z.leb_spec l i).
      * rewrite HF by lia. replace ((l <=? i) && (l <? r)) with true by lia. now apply cong_sym, bal_cong.
      * rewrite HP by lia. apply (lq_low _ _ _ _ _ _ _ _ _ _ HL); [lia|apply Hl].
    + destruct (Z.ltb_spec j l). { rewrite Q4 by lia. rewrite ref_tri by lia. apply cong_refl. }
      destruct (Z.eqb_spec j l) as [->|]. { rewrite Q4 by lia. now apply ref_unit. }
      rewrite HF by lia. replace ((j <=? l) && (j <? r)) with false by lia. replace (l <? r) with true by lia. now apply cong_sym, bal_cong.
Qed.
(* row l of the reduced form *)
Definition Rr (l j : Z) : Z := get (getd [] (ref_rows p U (Z.to_nat r)) l) j.
Lemma ref_rows_len k : len (ref_rows p U k) = Z.of_nat k.
Proof. induction k; [reflexivity|]. cbn [ref_rows]. rewrite len_cons, IHk. lia. Qed.
Lemma ref_rows_ok k : Z.of_nat k <= r -> forall t, 0 <= t < Z.of_nat k -> forall j, 0 <= j < m ->
  let l := r - Z.of_nat k + t in
  get (getd [] (ref_rows p U k) t) j =
    bal p (entry U l j - sum (l + 1) r (fun t' => entry U l (pivot_col U t') * get (getd [] (ref_rows p U k) (t' - (r - Z.of_nat k))) j)).
Proof.
  destruct ref_el as (HE & Em & Hr).
  induction k as [|k IH]; intros Hk t Ht j Hj; [lia|]. intros l. cbn [ref_rows]. fold r. rewrite Em.
  set (X := map _ (zseq 0 m)).
  assert (Hs : forall u, 1 <= u -> getd [] (X :: ref_rows p U k) u = getd [] (ref_rows p U k) (u - 1)).
  { intros u Hu. change (X :: ref_rows p U k) with ([X] ++ ref_rows p U k). rewrite getd_app_r; [reflexivity|]. change (len [X]) with 1. lia. }
  destruct (Z.eq_dec t 0) as [->|Ht0].
  - change (getd [] (X :: ref_rows p U k) 0) with X. unfold X at 1. unfold get at 1. rewrite (getd_map _ 0) by (rewrite len_zseq; lia). rewrite getd_zseq by lia.
    rewrite Z.add_0_l. unfold l. replace (r - Z.of_nat (Datatypes.S k) + 0) with (r - 1 - Z.of_nat k) by lia. f_equal. f_equal.
    apply sum_ext. intros t' Ht'. f_equal. rewrite Hs by lia. f_equal. f_equal. lia.
  - rewrite Hs by lia. rewrite (IH ltac:(lia) (t - 1) ltac:(lia) j Hj). replace (r - Z.of_nat k + (t - 1)) with l by lia. f_equal. f_equal.
    apply sum_ext. intros t' Ht'. f_equal. rewrite Hs by lia. f_equal. f_equal. lia.
Qed.
Lemma Rr_eq l j : 0 <= l < r -> 0 <= j < m -> Rr l j = bal p (entry U l j - sum (l + 1) r (fun t => entry U l (pivot_col U t) * Rr t j)).
Proof.
  intros Hl Hj. destruct ref_el as (HE & Em & Hr). unfold Rr at 1. pose proof (ref_rows_ok (Z.to_nat r) ltac:(lia) l ltac:(lia) j Hj) as H. cbv zeta in H.
  rewrite H. replace (r - Z.of_nat (Z.to_nat r) + l) with l by lia. f_equal. f_equal. apply sum_ext. intros t Ht. unfold Rr. f_equal. f_equal. f_equal. lia.
Qed.
Lemma Rr_cong l j : 0 <= l < r -> 0 <= j < m -> cong p (Rr l j) (entry U l j - sum (l + 1) r (fun t => entry U l (pivot_col U t) * Rr t j)).
Proof. intros. rewrite Rr_eq by auto. apply bal_cong. destruct Hmod; auto. Qed.
(* from the last row to the first *)
Lemma down_ind (P : Z -> Prop) : (forall l, 0 <= l < r -> (forall t, l < t < r -> P t) -> P l) -> forall l, 0 <= l < r -> P l.
Proof.
  intros H. assert (G : forall k : nat, forall l, 0 <= l < r -> r - l <= Z.of_nat k -> P l).
  { induction k as [|k IH]; intros l Hl Hk; [lia|]. apply H; auto. intros t Ht. apply IH; lia. }
  intros l Hl. apply (G (Z.to_nat (r - l))); lia.
Qed.
Lemma Rr_piv l i : 0 <= l < r -> 0 <= i < r -> cong p (Rr l (pivot_col U i)) (if i =? l then 1 else 0).
Proof.
  intros Hl. revert i. pattern l. revert l Hl. apply down_ind. intros l Hl IH i Hi.
  eapply cong_trans. { apply Rr_cong; auto. now apply pivot_col_ok. }
  assert (Hsum : cong p (sum (l + 1) r (fun t => entry U l (pivot_col U t) * Rr t (pivot_col U i))) (if l <? i then entry U l (pivot_col U i) else 0)).
  { eapply cong_trans.
    - apply sum_cong. intros t Ht. apply cong_mul; [apply cong_refl|]. apply IH; lia.
    - destruct (Z.ltb_spec l i).
      + rewrite (sum_single _ _ _ i); [rewrite Z.eqb_refl, Z.mul_1_r; apply cong_refl|lia|].
        intros t Ht Hne. replace (i =? t) with false by lia. lia.
      + apply cong_eq, sum_zero. intros t Ht. replace (i =? t) with false by lia. lia. }
  eapply cong_trans. { apply cong_sub; [apply cong_refl|apply Hsum]. }
  destruct (Z.eqb_spec i l) as [->|Hne].
  - replace (l <? l) with false by lia. rewrite Z.sub_0_r. now apply ref_unit.
  - destruct (Z.ltb_spec l i). { rewrite Z.sub_diag. apply cong_refl. } rewrite ref_tri by lia. apply cong_refl.
Qed.
Lemma Rr_span l : 0 <= l < r -> in_rowspace p A (Rr l).
Proof.
  destruct ref_el as (HE & Em & Hr). intros Hl. pattern l. revert l Hl. apply down_ind. intros l Hl IH. destruct ref_fact_ok as [HI _].
  apply (in_rowspace_ext p A (fun j => entry U l j - sum (l + 1) r (fun t => entry U l (pivot_col U t) * Rr t j))).
  - intros j Hj. apply cong_sym. now apply Rr_cong.
  - apply in_rowspace_sub; [apply (iv_U _ _ _ _ _ _ _ _ _ HI); auto|]. apply in_rowspace_sum. intros t Ht. apply IH. lia.
Qed.
Lemma ref_rref_ok : let '(rr, S', Q) := ref_rref p n m S in DenseSpec.rref_ok p n m S rr S' Q.
Proof.
  unfold ref_rref. fold f. fold U. fold r. fold Q. cbv zeta.
  destruct ref_fact_ok as [HI (L & EL)]. destruct ref_el as (HE & Em & Hr). destruct ref_Q_ok as (Q1 & Q2 & Q3 & Q4 & Q5).
  pose proof (iv_L _ _ _ _ _ _ _ _ _ HI) as HL. rewrite EL in *. fold U in HL.
  assert (Hp2 : 2 <= p) by (destruct Hmod; auto).
  set (F := fun k => _).
  assert (HF : forall i j, 0 <= i < n -> 0 <= j < m -> dget m (map F (zseq 0 (len S))) i j = Rr i (get Q j)).
  { intros i j Hi Hj. rewrite dget_map by auto. unfold F. rewrite div_ij, mod_ij by lia. reflexivity. }
  constructor; auto.
  - rewrite len_map, len_zseq. pose proof (len_nonneg S). lia.
  - intros l k Hl Hk. rewrite HF by lia. rewrite Rr_eq by (auto; apply Q2; lia). now apply bal_balanced.
  - pose (R := fun l j => if (0 <=? get (f_q f) j) && (get (f_q f) j <? r) then (if get (f_q f) j =? l then 1 else 0) else Rr l j).
    assert (HR : forall l j, 0 <= l < r -> 0 <= j < m -> cong p (R l j) (Rr l j)).
    { intros l j Hl Hj. unfold R. destruct ((0 <=? get (f_q f) j) && (get (f_q f) j <? r)) eqn:E; [|apply cong_refl].
      pose proof (Rr_piv l (get (f_q f) j) Hl ltac:(lia)) as H. destruct (pivot_col_ok (get (f_q f) j) ltac:(lia)) as [H1 H2].
      assert (pivot_col U (get (f_q f) j) = j) as E2. { apply (up_inj _ _ _ (el_up _ _ _ HE)); rewrite ?Em, ?H2; auto; lia. }
      rewrite E2 in H. now apply cong_sym. }
    pose (C0 := fun l t => if t <? l then 0 else if t =? l then 1 else entry U l (pivot_col U t)).
    assert (HC0 : forall l j, 0 <= l < r -> 0 <= j < m -> cong p (entry U l j) (sum 0 r (fun t => C0 l t * R t j))).
    { intros l j Hl Hj. apply cong_sym. rewrite (sum_split l 0 r), (sum_split (l + 1) l r) by lia.
      rewrite (sum_zero 0 l). 2:{ intros t Ht. unfold C0. replace (t <? l) with true by lia. lia. }
      rewrite (sum_single l (l + 1) _ l) by lia.
      unfold C0 at 1. rewrite Z.ltb_irrefl, Z.eqb_refl.
      eapply cong_trans.
      { apply cong_add; [apply cong_refl|]. apply cong_add; [apply cong_mul; [apply cong_refl|apply HR; auto]|].
        apply sum_cong. intros t Ht. apply cong_mul; [apply cong_refl|]. apply HR; auto. lia. }
      rewrite (sum_ext (l + 1) r (fun t => C0 l t * Rr t j) (fun t => entry U l (pivot_col U t) * Rr t j)).
      2:{ intros t Ht. unfold C0. replace (t <? l) with false by lia. replace (t =? l) with false by lia. auto. }
      rewrite Z.add_0_l, Z.mul_1_l.
      eapply cong_trans; [apply cong_add; [apply Rr_cong; auto|apply cong_refl]|]. apply cong_eq. ring. }
    assert (HD : exists D, forall l j, 0 <= l < r -> 0 <= j < m -> cong p (R l j) (sum 0 n (fun i => D l i * entry A i j))).
    { assert (G : forall k, 0 <= k <= r -> exists D, forall l j, 0 <= l < k -> 0 <= j < m -> cong p (R l j) (sum 0 n (fun i => D l i * entry A i j))).
      { apply (range_ind (fun k => exists D, forall l j, 0 <= l < k -> 0 <= j < m -> cong p (R l j) (sum 0 n (fun i => D l i * entry A i j))) 0 r).
        - exists (fun _ _ => 0). intros; lia.
        - intros k Hk (D & HD). destruct (Rr_span k Hk) as (y & Hy). exists (fun l => if l =? k then y else D l). intros l j Hl Hj.
          destruct (Z.eqb_spec l k) as [->|]; [|apply HD; lia]. eapply cong_trans; [apply HR; auto|]. exact (cong_sym _ _ _ (Hy j Hj)). }
      apply G. lia. }
    destruct HD as (D & HD).
    exists R, (fun i t => sum 0 r (fun l => tentry L i l * C0 l t)), D. split; [|split].
    + intros l k Hl Hk. destruct (Z.ltb_spec k r).
      * unfold R. rewrite Q4 by lia. destruct (pivot_col_ok k ltac:(lia)) as [_ ->]. replace ((0 <=? k) && (k <? r)) with true by lia. auto.
      * rewrite HF by lia. unfold R. destruct ((0 <=? get (f_q f) (get Q k)) && (get (f_q f) (get Q k) <? r)) eqn:E; auto. exfalso.
        destruct (pivot_col_ok (get (f_q f) (get Q k)) ltac:(lia)) as [H1 H2].
        assert (pivot_col U (get (f_q f) (get Q k)) = get Q k) as E2. { apply (up_inj _ _ _ (el_up _ _ _ HE)); rewrite ?Em, ?H2; auto; lia. }
        rewrite <- Q4 in E2 by lia. apply Q3 in E2; lia.
    + intros i j Hi Hj. rewrite <- sparse_entry by auto.
      eapply cong_trans. { apply (lq_all _ _ _ _ _ _ _ _ _ _ HL eq_refl); [auto|cbn; auto|auto]. }
      unfold xA. fold r. eapply cong_trans.
      { apply sum_cong. intros l Hl. apply cong_mul; [apply cong_refl|]. apply HC0; auto. }
      apply cong_eq. rewrite (sum_ext 0 r _ (fun l => sum 0 r (fun t => tentry L i l * (C0 l t * R t j)))) by (intros; now rewrite sum_scale).
      rewrite sum_swap. apply sum_ext. intros t Ht. rewrite <- sum_scale_r. apply sum_ext. intros; ring.
    + intros l j Hl Hj. eapply cong_trans; [apply HD; auto|]. apply sum_cong. intros i Hi. rewrite sparse_entry by auto. apply cong_refl.
Qed.
End ref.
