(** Rank of the matrix of a file, and of its transpose. *)
From Verif Require Import Base BaseFacts Spec SpecFacts SpecRank SpecText SpecTools ElimFacts Rank.
From Coq Require Import Znumtheory.

Lemma frank_rank p A r : rank_is p A r <-> frank p (cn A) (cm A) (entry A) r.
Proof.
  split; intros (H0 & v & H1 & H2 & H3); (split; [auto|]); exists v; (split; [exact H1|]).
  - split; [exact H2|]. intros i Hi. destruct (H3 i Hi) as (c & Hc). exists c. intros j Hj. apply cong_sym. auto.
  - split; [exact H2|]. intros i Hi. destruct (H3 i Hi) as (c & Hc). exists c. intros j Hj. apply cong_sym. auto.
Qed.
Lemma rowsp_ext p n m M M' v : (forall i j, 0 <= i < n -> 0 <= j < m -> cong p (M i j) (M' i j)) -> rowsp p n m M v -> rowsp p n m M' v.
Proof.
  intros H (x & Hx). exists x. intros j Hj. eapply cong_trans; [|apply Hx, Hj]. apply sum_cong. intros i Hi. apply cong_mul; [apply cong_refl|]. apply cong_sym. auto.
Qed.
Lemma rowsp_vec p n m M v v' : (forall j, 0 <= j < m -> cong p (v j) (v' j)) -> rowsp p n m M v -> rowsp p n m M v'.
Proof. intros H (x & Hx). exists x. intros j Hj. eapply cong_trans; [apply Hx, Hj|auto]. Qed.
Lemma frank_ext p n m M M' r : (forall i j, 0 <= i < n -> 0 <= j < m -> cong p (M i j) (M' i j)) -> frank p n m M r -> frank p n m M' r.
Proof.
  intros H (H0 & v & H1 & H2 & H3). split; [auto|]. exists v. split; [auto|]. split.
  - intros k Hk. apply (rowsp_ext p n m M M'); auto.
  - intros i Hi. apply (rowsp_vec p r m v (M i)); auto.
Qed.
Lemma rowsp_choice p n m b M w : (forall i, 0 <= i < n -> rowsp p b m w (M i)) ->
  exists c, forall i j, 0 <= i < n -> 0 <= j < m -> cong p (sum 0 b (fun k => c i k * w k j)) (M i j).
Proof.
  intros H. destruct (Z_lt_le_dec n 0) as [|Hn]; [exists (fun _ _ => 0); intros; lia|].
  assert (G : forall k, 0 <= k <= n -> exists c, forall i j, 0 <= i < k -> 0 <= j < m -> cong p (sum 0 b (fun l => c i l * w l j)) (M i j)); [|apply G; lia].
  apply (range_ind (fun k => exists c, forall i j, 0 <= i < k -> 0 <= j < m -> cong p (sum 0 b (fun l => c i l * w l j)) (M i j)) 0 n).
  - exists (fun _ _ => 0). intros; lia.
  - intros k Hk (c & Hc). destruct (H k Hk) as (d & Hd). exists (fun i => if i =? k then d else c i). intros i j Hi Hj.
    destruct (Z.eqb_spec i k) as [->|]; [now apply Hd|apply Hc; lia].
Qed.
(* combinations of combinations *)
Lemma rowsp_trans p n m b M w v : (forall i, 0 <= i < n -> rowsp p b m w (M i)) -> rowsp p n m M v -> rowsp p b m w v.
Proof.
  intros H (x & Hx). destruct (rowsp_choice p n m b M w H) as (c & Hc). exists (fun k => sum 0 n (fun t => x t * c t k)). intros j Hj.
  rewrite <- (Hx j Hj). rewrite (sum_cong p 0 n (fun i => x i * M i j) (fun i => sum 0 b (fun k => x i * c i k * w k j))).
  2:{ intros i Hi. rewrite <- (Hc i j Hi Hj). apply cong_eq. rewrite <- sum_scale. apply sum_ext. intros; ring. }
  apply cong_eq. rewrite sum_swap. apply sum_ext. intros k Hk. symmetry. apply sum_scale_r.
Qed.
Lemma frank_unique p n m M r r' : prime p -> frank p n m M r -> frank p n m M r' -> r = r'.
Proof.
  intros Hp.
  assert (G : forall r r', frank p n m M r -> frank p n m M r' -> r <= r').
  { intros a b (A0 & v & A1 & A2 & A3) (B0 & w & B1 & B2 & B3). apply (independent_le p m a b v w); auto. intros i Hi.
    destruct (rowsp_trans p n m b M w (v i) B3 (A2 i Hi)) as (c & Hc). exists c. intros j Hj. symmetry. auto. }
  intros H H'. apply Z.le_antisymm; auto.
Qed.
Lemma rowsp_row p n m M i : 0 <= i < n -> rowsp p n m M (M i).
Proof.
  intros Hi. exists (fun k => if k =? i then 1 else 0). intros j Hj. apply cong_eq. rewrite (sum_single 0 n _ i); auto; [rewrite Z.eqb_refl; ring|]. intros k Hk Hne. replace (k =? i) with false by lia. ring.
Qed.
Lemma rowsp_add p n m M v w a b : rowsp p n m M v -> rowsp p n m M w -> rowsp p n m M (fun j => a * v j + b * w j).
Proof.
  intros (x & Hx) (y & Hy). exists (fun i => a * x i + b * y i). intros j Hj. rewrite <- (Hx j Hj), <- (Hy j Hj). apply cong_eq. rewrite <- !sum_scale, <- sum_add. apply sum_ext. intros; ring.
Qed.
Lemma rowsp_sum p n m M r c v : (forall k, 0 <= k < r -> rowsp p n m M (v k)) -> rowsp p n m M (fun j => sum 0 r (fun k => c k * v k j)).
Proof. intros H. apply (rowsp_trans p r m n v M _ H). exists c. intros; reflexivity. Qed.
Lemma rowsp_more p n m M v : 0 <= n -> rowsp p n m M v -> rowsp p (n + 1) m M v.
Proof.
  intros Hn (x & Hx). exists (fun i => if i =? n then 0 else x i). intros j Hj. rewrite <- (Hx j Hj). apply cong_eq. rewrite sum_last by lia. replace (n + 1 - 1) with n by lia. rewrite Z.eqb_refl, Z.mul_0_l, Z.add_0_r.
  apply sum_ext. intros i Hi. replace (i =? n) with false by lia. reflexivity.
Qed.

(* a basis of the rows in reduced form: v k has 1 in column piv k, where the other ones have 0 *)
Definition reduced_basis (p n m : Z) (M : Z -> Z -> Z) (r : Z) (v : Z -> Z -> Z) (piv : Z -> Z) : Prop :=
  0 <= r /\ (forall k, 0 <= k < r -> 0 <= piv k < m) /\ (forall k l, 0 <= k < r -> 0 <= l < r -> cong p (v k (piv l)) (if k =? l then 1 else 0)) /\
  (forall k, 0 <= k < r -> rowsp p n m M (v k)) /\ forall i, 0 <= i < n -> rowsp p r m v (M i).
Lemma reduced_indep p n m M r v piv : reduced_basis p n m M r v piv -> indep p m r v.
Proof.
  intros (H0 & H1 & H2 & _) x Hx k Hk. rewrite <- (Hx (piv k) (H1 k Hk)). symmetry. rewrite (sum_cong p 0 r _ (fun i => if i =? k then x i else 0)).
  - apply cong_eq. rewrite (sum_single 0 r _ k); auto; [now rewrite Z.eqb_refl|]. intros i Hi Hne. now replace (i =? k) with false by lia.
  - intros i Hi. rewrite (H2 i k Hi Hk). destruct (i =? k); apply cong_eq; ring.
Qed.
Lemma reduced_exists p m M n : prime p -> 0 <= n -> exists r v piv, reduced_basis p n m M r v piv.
Proof.
  intros Hp. revert n. apply (natlike_ind (fun n => exists r v piv, reduced_basis p n m M r v piv)).
  - exists 0, (fun _ _ => 0), (fun _ => 0). unfold reduced_basis. repeat split; intros; lia.
  - intros n Hn (r & v & piv & R0 & R1 & R2 & R3 & R4). rewrite <- Z.add_1_r.
    set (u := fun j => M n j - sum 0 r (fun k => M n (piv k) * v k j)).
    assert (Hu : forall k, 0 <= k < r -> cong p (u (piv k)) 0).
    { intros k Hk. unfold u. rewrite (sum_cong p 0 r _ (fun i => if i =? k then M n (piv i) else 0)).
      - apply cong_eq. rewrite (sum_single 0 r _ k); auto; [rewrite Z.eqb_refl; ring|]. intros i Hi Hne. now replace (i =? k) with false by lia.
      - intros i Hi. rewrite (R2 i k Hi Hk). destruct (i =? k); apply cong_eq; ring. }
    assert (Su : rowsp p (n + 1) m M u).
    { apply (rowsp_vec p _ m M (fun j => 1 * M n j + (-1) * sum 0 r (fun k => M n (piv k) * v k j))); [intros; apply cong_eq; unfold u; ring|].
      apply rowsp_add; [apply rowsp_row; lia|]. apply rowsp_sum. intros k Hk. apply rowsp_more; auto. }
    destruct (range_cong_dec p m u) as [Z0|(c & Hc & Nc)].
    + exists r, v, piv. split; [auto|]. split; [auto|]. split; [auto|]. split; [intros k Hk; apply rowsp_more; auto|]. intros i Hi.
      destruct (Z.eq_dec i n) as [->|]; [|apply R4; lia]. exists (fun k => M n (piv k)). intros j Hj. specialize (Z0 j Hj). unfold u in Z0.
      replace (M n j) with (sum 0 r (fun k => M n (piv k) * v k j) + (M n j - sum 0 r (fun k => M n (piv k) * v k j))) by ring. rewrite Z0. apply cong_eq. ring.
    + destruct (prime_inverse p (u c) Hp Nc) as (b & Hb).
      set (w := fun j => b * u j). set (v' := fun k j => if k =? r then w j else v k j - v k c * w j). set (piv' := fun k => if k =? r then c else piv k).
      assert (Wc : cong p (w c) 1) by exact Hb.
      assert (Wp : forall k, 0 <= k < r -> cong p (w (piv k)) 0) by (intros k Hk; unfold w; rewrite (Hu k Hk); apply cong_eq; ring).
      assert (Sw : rowsp p (n + 1) m M w). { apply (rowsp_vec p _ m M (fun j => b * u j + 0 * u j)); [intros; apply cong_eq; unfold w; ring|]. now apply rowsp_add. }
      assert (Sv : forall i, 0 <= i < r -> rowsp p (r + 1) m v' (v i)).
      { intros i Hi. apply (rowsp_vec p _ m v' (fun j => 1 * v' i j + v i c * v' r j)).
        - intros j Hj. apply cong_eq. unfold v'. replace (i =? r) with false by lia. rewrite Z.eqb_refl. ring.
        - apply rowsp_add; apply rowsp_row; lia. }
      exists (r + 1), v', piv'. split; [lia|]. split; [intros k Hk; unfold piv'; destruct (Z.eqb_spec k r); [auto|apply R1; lia]|]. split; [|split].
      * intros k l Hk Hl. unfold v', piv'. destruct (Z.eqb_spec k r) as [->|Nk], (Z.eqb_spec l r) as [->|Nl].
        -- rewrite Z.eqb_refl. exact Wc.
        -- replace (r =? l) with false by lia. apply Wp. lia.
        -- replace (k =? r) with false by lia. rewrite Wc. apply cong_eq. ring.
        -- rewrite (Wp l), (R2 k l) by lia. apply cong_eq. ring.
      * intros k Hk. unfold v'. destruct (Z.eqb_spec k r) as [->|Nk]; [exact Sw|]. apply (rowsp_vec p _ m M (fun j => 1 * v k j + - v k c * w j)); [intros; apply cong_eq; ring|].
        apply rowsp_add; [apply rowsp_more; [auto|apply R3; lia]|exact Sw].
      * intros i Hi. destruct (Z.eq_dec i n) as [->|].
        -- apply (rowsp_vec p _ m v' (fun j => u c * v' r j + 1 * sum 0 r (fun k => M n (piv k) * v k j))).
           ++ intros j Hj. unfold v'. rewrite Z.eqb_refl. unfold w. replace (u c * (b * u j)) with (b * u c * u j) by ring. rewrite Hb. apply cong_eq. unfold u. ring.
           ++ apply rowsp_add; [apply rowsp_row; lia|]. now apply rowsp_sum.
        -- apply (rowsp_trans p r m (r + 1) v v'); [exact Sv|]. apply R4. lia.
Qed.
Lemma frank_exists p n m M : prime p -> 0 <= n -> exists r, frank p n m M r.
Proof.
  intros Hp Hn. destruct (reduced_exists p m M n Hp Hn) as (r & v & piv & H). exists r. pose proof H as (H0 & _ & _ & H3 & H4). split; [auto|]. exists v. split; [|auto]. now apply (reduced_indep p n m M r v piv).
Qed.
Theorem frank_transpose p n m M r : prime p -> 0 <= m -> frank p m n (fun j i => M i j) r -> frank p n m M r.
Proof.
  intros Hp Hm H. destruct (reduced_exists p n (fun j i => M i j) m Hp Hm) as (r' & v & piv & R).
  assert (E : r = r'). { apply (frank_unique p m n (fun j i => M i j)); auto. pose proof R as (H0 & _ & _ & H3 & H4). split; [auto|]. exists v. split; [|auto]. now apply (reduced_indep p m n (fun j i => M i j) r' v piv). }
  subst r'. clear H. destruct R as (R0 & R1 & R2 & R3 & R4). destruct (rowsp_choice p m n r (fun j i => M i j) v R4) as (c & Hc).
  assert (Cp : forall j l, 0 <= j < m -> 0 <= l < r -> cong p (c j l) (M (piv l) j)).
  { intros j l Hj Hl. rewrite <- (Hc j (piv l) Hj (R1 l Hl)). symmetry. rewrite (sum_cong p 0 r _ (fun i => if i =? l then c j i else 0)).
    - apply cong_eq. rewrite (sum_single 0 r _ l); auto; [now rewrite Z.eqb_refl|]. intros i Hi Hne. now replace (i =? l) with false by lia.
    - intros i Hi. rewrite (R2 i l Hi Hl). destruct (i =? l); apply cong_eq; ring. }
  split; [auto|]. exists (fun k => M (piv k)). split; [|split].
  - intros x Hx k Hk. destruct (R3 k Hk) as (y & Hy).
    assert (E : cong p (sum 0 r (fun l => x l * v k (piv l))) (x k)).
    { rewrite (sum_cong p 0 r _ (fun l => if k =? l then x l else 0)).
      - apply cong_eq. rewrite (sum_single 0 r _ k); auto; [now rewrite Z.eqb_refl|]. intros i Hi Hne. now replace (k =? i) with false by lia.
      - intros l Hl. rewrite (R2 k l Hk Hl). destruct (k =? l); apply cong_eq; ring. }
    rewrite <- E. rewrite (sum_cong p 0 r _ (fun l => sum 0 m (fun j => x l * (y j * M (piv l) j)))).
    2:{ intros l Hl. rewrite <- (Hy (piv l) (R1 l Hl)). apply cong_eq. symmetry. apply sum_scale. }
    rewrite sum_swap. apply TriProofs.sum_cong_0. intros j Hj. specialize (Hx j Hj).
    replace (sum 0 r (fun i => x i * (y j * M (piv i) j))) with (y j * sum 0 r (fun i => x i * M (piv i) j)); [rewrite Hx; apply cong_eq; ring|]. rewrite <- sum_scale. apply sum_ext. intros; ring.
  - intros k Hk. apply rowsp_row. auto.
  - intros i Hi. exists (fun k => v k i). intros j Hj. rewrite <- (Hc j i Hj Hi). apply sum_cong. intros k Hk. rewrite (Cp j k Hj Hk). apply cong_eq. ring.
Qed.
Lemma frank_defined p n m M : prime p -> 0 <= n -> 0 <= m -> exists! r, frank p n m M r /\ frank p m n (fun j i => M i j) r.
Proof.
  intros Hp Hn Hm. destruct (frank_exists p n m M Hp Hn) as (r & H). exists r. split.
  - split; [auto|]. now apply (frank_transpose p m n (fun j i => M i j) r Hp Hn).
  - intros r' (H' & _). now apply (frank_unique p n m M).
Qed.
