(** Facts about the rank. *)
From Verif Require Import Base BaseFacts Spec SpecFacts SpecElim SpecRank LinAlg TriProofs EchInv MatFacts.
From Coq Require Import ZifyBool Znumtheory.

Lemma prime_inverse p a : prime p -> ~ cong p a 0 -> exists b, cong p (b * a) 1.
Proof.
  intros Hp Ha. assert (rel_prime a p) as H.
  { apply rel_prime_sym, prime_rel_prime; auto. intros D. apply Ha. unfold cong. now rewrite Z.sub_0_r. }
  destruct (rel_prime_bezout _ _ H) as [u v E]. exists u. exists (- v). lia.
Qed.
Lemma prime_integral p a b : prime p -> cong p (a * b) 0 -> cong p a 0 \/ cong p b 0.
Proof. intros Hp H. unfold cong in *. rewrite !Z.sub_0_r in *. destruct (prime_mult p Hp _ _ H); auto. Qed.
Lemma cong_dec p a b : {cong p a b} + {~ cong p a b}.
Proof. unfold cong. apply Zdivide_dec. Qed.
Lemma range_cong_dec p n (c : Z -> Z) : (forall i, 0 <= i < n -> cong p (c i) 0) \/ exists i, 0 <= i < n /\ ~ cong p (c i) 0.
Proof.
  destruct (Z_lt_le_dec n 0). { left. intros; lia. }
  assert (G : forall k, 0 <= k <= n -> (forall i, 0 <= i < k -> cong p (c i) 0) \/ exists i, 0 <= i < k /\ ~ cong p (c i) 0).
  { apply (range_ind (fun k => (forall i, 0 <= i < k -> cong p (c i) 0) \/ exists i, 0 <= i < k /\ ~ cong p (c i) 0) 0 n).
    - left. intros; lia.
    - intros k Hk [H|(i & Hi & H)]; [|right; exists i; split; [lia|auto]].
      destruct (cong_dec p (c k) 0); [left|right; exists k; split; [lia|auto]].
      intros i Hi. destruct (Z.eq_dec i k) as [->|]; auto. apply H. lia. }
  apply G. lia.
Qed.
(* more unknowns than equations *)
Lemma homogeneous p (s : nat) : prime p -> forall r c, Z.of_nat s < r ->
  exists lam, (exists i, 0 <= i < r /\ ~ cong p (lam i) 0) /\
    forall k, 0 <= k < Z.of_nat s -> cong p (sum 0 r (fun i => lam i * c i k)) 0.
Proof.
  intros Hp. pose proof (prime_ge_2 p Hp) as Hp2. assert (H10 : ~ cong p 1 0) by (intros D; unfold cong in D; apply Z.divide_pos_le in D; lia).
  induction s as [|s IH]; intros r c Hr.
  - exists (fun _ => 1). split; [exists 0; split; [lia|auto]|]. intros; lia.
  - destruct (range_cong_dec p r (fun i => c i (Z.of_nat s))) as [H|(i0 & Hi0 & H)].
    + destruct (IH r c ltac:(lia)) as (lam & H1 & H2). exists lam. split; auto. intros k Hk.
      destruct (Z.eq_dec k (Z.of_nat s)) as [->|]; [|apply H2; lia].
      apply sum_cong_0. intros i Hi. rewrite (H i Hi). apply cong_eq. ring.
    + set (S := Z.of_nat s) in *. destruct (prime_inverse p _ Hp H) as (u & Hu).
      (* the row i0 is eliminated; the last one takes its place *)
      pose (f := fun i => if i =? i0 then r - 1 else i).
      pose (c' := fun i k => c (f i) k - c (f i) S * u * c i0 k).
      destruct (IH (r - 1) c' ltac:(lia)) as (lam & (i1 & Hi1 & H1) & H2).
      pose (t := - u * sum 0 (r - 1) (fun i => lam i * c (f i) S)).
      pose (lam' := fun i => if i =? i0 then t else if i =? r - 1 then lam i0 else lam i).
      assert (E : forall k, sum 0 r (fun i => lam' i * c i k) = t * c i0 k + sum 0 (r - 1) (fun i => lam i * c (f i) k)).
      { intros k. rewrite (sum_pick 0 r _ i0) by lia. unfold lam' at 1. rewrite Z.eqb_refl. f_equal.
        destruct (Z.eq_dec i0 (r - 1)) as [E0|E0].
        - rewrite sum_last by lia. replace (r - 1 =? i0) with true by lia. rewrite Z.add_0_r. apply sum_ext. intros i Hi. unfold lam', f.
          replace (i =? i0) with false by lia. replace (i =? r - 1) with false by lia. reflexivity.
        - rewrite sum_last by lia. replace (r - 1 =? i0) with false by lia. rewrite (sum_pick 0 (r - 1) (fun i => lam i * c (f i) k) i0) by lia.
          unfold f at 1, lam' at 2. rewrite !Z.eqb_refl. replace (r - 1 =? i0) with false by lia. rewrite Z.add_comm. f_equal.
          apply sum_ext. intros i Hi. destruct (Z.eqb_spec i i0); auto. unfold lam', f. replace (i =? i0) with false by lia. replace (i =? r - 1) with false by lia. reflexivity. }
      exists lam'. split.
      * destruct (Z.eq_dec i1 i0) as [->|Hne].
        -- exists (r - 1). split; [lia|]. unfold lam'. replace (r - 1 =? i0) with false by lia. now rewrite Z.eqb_refl.
        -- exists i1. split; [lia|]. unfold lam'. replace (i1 =? i0) with false by lia. replace (i1 =? r - 1) with false by lia. auto.
      * intros k Hk. rewrite E.
        assert (E2 : sum 0 (r - 1) (fun i => lam i * c' i k) = sum 0 (r - 1) (fun i => lam i * c (f i) k) + t * c i0 k).
        { unfold c', t. rewrite (sum_ext 0 (r - 1) _ (fun i => lam i * c (f i) k + (- u * c i0 k) * (lam i * c (f i) S))) by (intros; ring).
          rewrite sum_add, sum_scale. ring. }
        destruct (Z.eq_dec k S) as [->|].
        -- unfold t. set (X := sum 0 (r - 1) (fun i => lam i * c (f i) S)).
           replace (- u * X * c i0 S + X) with (X * (1 - u * c i0 S)) by ring. rewrite Hu. apply cong_eq. ring.
        -- rewrite Z.add_comm, <- E2. apply H2. lia.
Qed.
(* r independent vectors in the span of s vectors: r <= s *)
Lemma independent_le p m r s v w : prime p -> 0 <= s -> lin_indep p m r v ->
  (forall i, 0 <= i < r -> exists c, forall j, 0 <= j < m -> cong p (v i j) (sum 0 s (fun k => c k * w k j))) -> r <= s.
Proof.
  intros Hp Hs Hind H. destruct (Z_le_gt_dec r s) as [|Hgt]; auto. exfalso.
  assert (G : exists c, forall i j, 0 <= i < r -> 0 <= j < m -> cong p (v i j) (sum 0 s (fun k => c i k * w k j))).
  { assert (G : forall n, 0 <= n <= r -> exists c, forall i j, 0 <= i < n -> 0 <= j < m -> cong p (v i j) (sum 0 s (fun k => c i k * w k j))).
    { apply (range_ind (fun n => exists c, forall i j, 0 <= i < n -> 0 <= j < m -> cong p (v i j) (sum 0 s (fun k => c i k * w k j))) 0 r).
      - exists (fun _ _ => 0). intros; lia.
      - intros n Hn (c & Hc). destruct (H n Hn) as (d & Hd). exists (fun i => if i =? n then d else c i). intros i j Hi Hj.
        destruct (Z.eqb_spec i n) as [->|]; [now apply Hd|apply Hc; lia]. }
    apply G. lia. }
  destruct G as (c & Hc). destruct (homogeneous p (Z.to_nat s) Hp r c ltac:(lia)) as (lam & (i1 & Hi1 & Hne) & Hl).
  apply Hne. revert i1 Hi1 Hne. intros i1 Hi1 _. apply (Hind lam); auto. intros j Hj.
  rewrite (sum_cong p 0 r _ (fun i => sum 0 s (fun k => lam i * c i k * w k j))).
  2:{ intros i Hi. rewrite (Hc i j Hi Hj). apply cong_eq. rewrite <- sum_scale. apply sum_ext. intros; ring. }
  rewrite sum_swap. apply sum_cong_0. intros k Hk. rewrite sum_scale_r. rewrite (Hl k ltac:(lia)). apply cong_eq. ring.
Qed.

(** ** The rank *)
Lemma rowspace_basis p A r v b : (forall i, 0 <= i < cn A -> exists c, forall j, 0 <= j < cm A -> cong p (entry A i j) (sum 0 r (fun k => c k * v k j))) ->
  0 <= cn A -> in_rowspace p A b -> exists c, forall j, 0 <= j < cm A -> cong p (b j) (sum 0 r (fun k => c k * v k j)).
Proof.
  intros H Hn (y & Hy).
  assert (G : forall n, 0 <= n <= cn A -> exists c, forall j, 0 <= j < cm A -> cong p (sum 0 n (fun i => y i * entry A i j)) (sum 0 r (fun k => c k * v k j))).
  { apply (range_ind (fun n => exists c, forall j, 0 <= j < cm A -> cong p (sum 0 n (fun i => y i * entry A i j)) (sum 0 r (fun k => c k * v k j))) 0 (cn A)).
    - exists (fun _ => 0). intros j Hj. rewrite (sum_zero 0 r) by auto. apply cong_refl.
    - intros n Hn' (c & Hc). destruct (H n Hn') as (d & Hd). exists (fun k => c k + y n * d k). intros j Hj.
      rewrite sum_last by lia. replace (n + 1 - 1) with n by lia. rewrite (Hc j Hj), (Hd j Hj). apply cong_eq.
      rewrite <- sum_scale, <- sum_add. apply sum_ext. intros; ring. }
  destruct (G (cn A) ltac:(lia)) as (c & Hc). exists c. intros j Hj. rewrite <- (Hy j Hj). now apply Hc.
Qed.
Lemma rank_le p A r k v : prime p -> 0 <= cn A -> rank_is p A r -> lin_indep p (cm A) k v -> (forall i, 0 <= i < k -> in_rowspace p A (v i)) -> k <= r.
Proof.
  intros Hp Hn (Hr & w & W1 & W2 & W3) Hv H. apply (independent_le p (cm A) k r v w); auto. intros i Hi. apply (rowspace_basis p A r w); auto.
Qed.
Lemma rank_unique p A r r' : prime p -> 0 <= cn A -> rank_is p A r -> rank_is p A r' -> r = r'.
Proof.
  intros Hp Hn H H'. pose proof H as (Hr & v & V1 & V2 & V3). pose proof H' as (Hr' & v' & V1' & V2' & V3').
  apply Z.le_antisymm; [apply (rank_le p A r' r v)|apply (rank_le p A r r' v')]; auto.
Qed.
Lemma rank_bounds p A r : prime p -> 0 <= cn A -> 0 <= cm A -> rank_is p A r -> 0 <= r <= cn A /\ r <= cm A.
Proof.
  intros Hp Hn Hm (Hr & v & V1 & V2 & V3). split; [split; auto|].
  - apply (independent_le p (cm A) r (cn A) v (entry A)); auto. intros i Hi. destruct (V2 i Hi) as (y & Hy). exists y. intros j Hj. symmetry. now apply Hy.
  - apply (independent_le p (cm A) r (cm A) v (fun k j => if j =? k then 1 else 0)); auto. intros i Hi. exists (v i). intros j Hj.
    rewrite (sum_single 0 (cm A) _ j); auto. { rewrite Z.eqb_refl. apply cong_eq. ring. } intros k Hk Hne. replace (j =? k) with false by lia. ring.
Qed.
(* an upper-triangular matrix has independent rows *)
Lemma upper_independent p U q : wf U -> upper p U q -> lin_indep p (cm U) (cn U) (entry U).
Proof.
  intros HU Hup lam H i Hi. apply (upper_low_zero p U q (cn U) lam HU Hup); try lia. intros j Hj _. now apply H.
Qed.
Lemma echelon_rank_le p A f r : prime p -> 0 <= cn A -> echelon_of p A f -> rank_is p A r -> cn (lu_U f) <= r.
Proof.
  intros Hp Hn [] Hr. apply (rank_le p A r _ (entry (lu_U f))); auto. rewrite <- eo_m. now apply (upper_independent p _ (lu_qinv f)).
Qed.
Lemma echelon_rank p A f : echelon_of p A f -> (forall i, 0 <= i < cn A -> in_rowspace p (lu_U f) (entry A i)) -> rank_is p A (cn (lu_U f)).
Proof.
  intros [] H. split; [now apply wf_n|]. exists (entry (lu_U f)). split; [rewrite <- eo_m; now apply (upper_independent p _ (lu_qinv f))|]. split; auto.
  intros i Hi. destruct (H i Hi) as (c & Hc). exists c. intros j Hj. rewrite eo_m in Hc. symmetry. now apply Hc.
Qed.
