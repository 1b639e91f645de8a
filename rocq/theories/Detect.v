(** The random completion test: when a row is missing, the combinations that do not show it are those of a hyperplane. *)
From Coq Require Import Znumtheory.
From Verif Require Import Base BaseFacts Spec SpecFacts Mat MatFacts Reach ReachProofs SpecElim SpecCert Rank ElimFacts EchInv RowList LinAlg CertSound CertFact.

Lemma choose_range (P : Z -> (Z -> Z) -> Prop) n : 0 <= n -> (forall i, 0 <= i < n -> exists y, P i y) -> exists y, forall i, 0 <= i < n -> P i (y i).
Proof.
  intros Hn H.
  assert (G : forall k, 0 <= k <= n -> exists y, forall i, 0 <= i < k -> P i (y i)).
  { apply (range_ind (fun k => exists y, forall i, 0 <= i < k -> P i (y i)) 0 n).
    - exists (fun _ _ => 0). intros; lia.
    - intros k Hk (y & Hy). destruct (H k Hk) as (d & Hd). exists (fun i => if i =? k then d else y i). intros i Hi.
      destruct (Z.eqb_spec i k) as [->|]; auto. apply Hy. lia. }
  apply G. lia.
Qed.

Lemma hyperplane_of_missing p U q n (v : Z -> Z -> Z) i0 : wf U -> upper p U q -> 0 <= i0 < n -> ~ in_rowspace p U (v i0) ->
  exists w, ~ cong p (w i0) 0 /\
    forall x, in_rowspace p U (fun j => sum 0 n (fun i => x i * v i j)) -> cong p (sum 0 n (fun i => w i * x i)) 0.
Proof.
  intros HU Hup Hi0 Hmiss. pose proof (wf_n U HU) as Hn.
  destruct (choose_range (fun i y => forall j, 0 <= j < cm U -> 0 <= get q j -> cong p (xA U y j) (v i j)) n ltac:(lia)) as (y & Hy).
  { intros i _. apply (upper_reduce p U q HU Hup (v i)). }
  (* residue of row i *)
  set (r := fun i j => v i j - xA U (y i) j).
  destruct (range_cong_dec p (cm U) (r i0)) as [Hz|(j0 & Hj0 & Hne)].
  { exfalso. apply Hmiss. exists (y i0). intros j Hj. specialize (Hz j Hj). unfold r in Hz.
    replace (v i0 j) with (v i0 j - xA U (y i0) j + xA U (y i0) j) by ring. rewrite Hz. apply cong_eq. ring. }
  exists (fun i => r i j0). split; auto. intros x (z & Hz).
  (* the combination of the residues *)
  set (lam := fun k => z k - sum 0 n (fun i => x i * y i k)).
  assert (HR : forall j, 0 <= j < cm U -> cong p (sum 0 n (fun i => r i j * x i)) (xA U lam j)).
  { intros j Hj. unfold r, lam, xA.
    rewrite (sum_ext 0 n _ (fun i => x i * v i j + - (x i * xA U (y i) j))) by (intros; unfold xA; ring). rewrite sum_add, <- (Hz j Hj). apply cong_eq.
    rewrite (sum_ext 0 (cn U) (fun k => (z k - sum 0 n (fun i => x i * y i k)) * entry U k j)
      (fun k => z k * entry U k j + - sum 0 n (fun i => x i * y i k * entry U k j))).
    2:{ intros k _. rewrite Z.mul_sub_distr_r, <- sum_scale_r. reflexivity. }
    rewrite sum_add. unfold xA. f_equal.
    rewrite (sum_ext 0 n _ (fun i => -1 * (x i * sum 0 (cn U) (fun k => y i k * entry U k j)))) by (intros; ring).
    rewrite (sum_ext 0 (cn U) (fun k => - sum 0 n (fun i => x i * y i k * entry U k j)) (fun k => -1 * sum 0 n (fun i => x i * y i k * entry U k j))) by (intros; ring).
    rewrite !sum_scale. f_equal. rewrite sum_swap. apply sum_ext. intros i _. rewrite <- sum_scale. apply sum_ext. intros; ring. }
  assert (HL : forall k, 0 <= k < cn U -> cong p (lam k) 0).
  { apply (upper_low_zero p U q (cn U) lam HU Hup); [lia|]. intros j Hj Hq. rewrite <- (HR j Hj).
    rewrite (sum_cong p 0 n _ (fun _ => 0)). { rewrite sum_zero by auto. apply cong_refl. }
    intros i Hi. unfold r. rewrite (Hy i Hi j Hj ltac:(lia)). apply cong_eq. ring. }
  rewrite (HR j0 Hj0). unfold xA. rewrite (sum_cong p 0 (cn U) _ (fun _ => 0)).
  { rewrite sum_zero by auto. apply cong_refl. }
  intros k Hk. rewrite (HL k Hk). apply cong_eq. ring.
Qed.

Lemma in_rowspace_dec p U q b : wf U -> upper p U q -> in_rowspace p U b \/ ~ in_rowspace p U b.
Proof.
  intros HU Hup. destruct (upper_reduce p U q HU Hup b) as (y & Hy).
  destruct (range_cong_dec p (cm U) (fun j => b j - xA U y j)) as [Hz|(j0 & Hj0 & Hne)].
  - left. exists y. intros j Hj. specialize (Hz j Hj). replace (b j) with (b j - xA U y j + xA U y j) by ring. cbv beta in Hz. rewrite Hz. apply cong_eq. ring.
  - right. intros (z & Hz). apply Hne.
    assert (HL : forall k, 0 <= k < cn U -> cong p (z k - y k) 0).
    { apply (upper_low_zero p U q (cn U) (fun k => z k - y k) HU Hup); [lia|]. intros j Hj Hq. rewrite xA_sub, (Hz j Hj), (Hy j Hj ltac:(lia)). apply cong_eq. ring. }
    rewrite <- (Hz j0 Hj0), <- xA_sub. unfold xA. rewrite (sum_cong p 0 (cn U) _ (fun _ => 0)).
    { rewrite sum_zero by auto. apply cong_refl. }
    intros k Hk. rewrite (HL k Hk). apply cong_eq. ring.
Qed.

(* Sn vectors of n coefficients, all of them orthogonal to w *)
Definition fooled p n (w : Z -> Z) (Sn N : Z) : bool :=
  forallb (fun k => if cong_dec p (sum 0 n (fun i => w i * digit p N (n * k + i))) 0 then true else false) (zseq 0 Sn).

Lemma forallb_ext_In {A} (f g : A -> bool) l : (forall x, In x l -> f x = g x) -> forallb f l = forallb g l.
Proof. induction l as [|a l IH]; cbn; intros H; [reflexivity|]. rewrite H, IH; auto. Qed.
Lemma digit_block p N d n k i : 2 <= p -> 0 <= n -> 0 <= k -> 0 <= i -> 0 <= N < p ^ (n * k) -> digit p (N + d * p ^ (n * k)) (n * k + i) = digit p d i.
Proof.
  intros Hp Hn Hk Hi HN. unfold digit. f_equal. assert (0 <= n * k) by nia. pose proof (Z.pow_pos_nonneg p i ltac:(lia) Hi). rewrite (Z.pow_add_r p (n * k) i) by lia. rewrite <- (Z.div_div _ (p ^ (n * k)) (p ^ i)) by lia.
  rewrite (Z.div_add N d (p ^ (n * k))) by lia. rewrite (Z.div_small N) by lia. reflexivity.
Qed.
Lemma fooled_S p n w k N d : 2 <= p -> 0 <= n -> 0 <= k -> 0 <= N < p ^ (n * k) ->
  fooled p n w (k + 1) (N + d * p ^ (n * k)) = fooled p n w k N && (if cong_dec p (sum 0 n (fun i => w i * digit p d i)) 0 then true else false).
Proof.
  intros Hp Hn Hk HN. unfold fooled. rewrite zseq_S by lia. rewrite forallb_app. cbn [forallb]. rewrite andb_true_r. f_equal.
  - apply forallb_ext_In. intros t Ht. apply In_zseq in Ht. rewrite (sum_ext 0 n _ (fun i => w i * digit p N (n * t + i))); [reflexivity|].
    intros i Hi. rewrite digit_small by nia. reflexivity.
  - rewrite (sum_ext 0 n _ (fun i => w i * digit p d i)); [reflexivity|]. intros i Hi. now rewrite digit_block by lia.
Qed.
Lemma fooled_count p n w Sn : prime p -> 0 <= Sn -> (exists k, 0 <= k < n /\ ~ cong p (w k) 0) ->
  p ^ Sn * sum 0 (p ^ (n * Sn)) (fun N => if fooled p n w Sn N then 1 else 0) = p ^ (n * Sn).
Proof.
  intros Hp HS Hw. pose proof (prime_ge_2 p Hp) as H2. assert (Hn : 0 <= n) by (destruct Hw as (k & Hk & _); lia).
  pose proof (hyperplane p n w Hp Hw) as HH. pattern Sn. apply (range_ind _ 0 Sn); [| |lia].
  - rewrite Z.mul_0_r, Z.pow_0_r. reflexivity.
  - intros k Hk IH. assert (0 <= n * k) by nia. replace (n * (k + 1)) with (n + n * k) by ring. rewrite (Z.pow_add_r p n), (Z.pow_add_r p k 1), Z.pow_1_r by lia.
    pose proof (Z.pow_pos_nonneg p n ltac:(lia) Hn). pose proof (Z.pow_pos_nonneg p (n * k) ltac:(lia) ltac:(lia)).
    rewrite sum_blocks by lia.
    rewrite (sum_ext 0 (p ^ n) _ (fun d => (if cong_dec p (sum 0 n (fun k0 => w k0 * digit p d k0)) 0 then 1 else 0) * sum 0 (p ^ (n * k)) (fun N => if fooled p n w k N then 1 else 0))).
    2:{ intros d Hd. rewrite <- sum_scale. apply sum_ext. intros N HN. rewrite fooled_S by lia. destruct (fooled p n w k N), (cong_dec p _ 0); reflexivity. }
    rewrite sum_scale_r. etransitivity; [|exact (f_equal2 Z.mul HH IH)]. ring.
Qed.

(* either no row is missing, or the test only misses them when all the draws are in a fixed hyperplane: one sequence of draws in p ^ Sn *)
Theorem completion_test p A U q pr n Sn : prime p -> 0 <= n -> 0 <= Sn -> wf U -> upper p U q ->
  (forall i, 0 <= i < n -> in_rowspace p U (entry A (get pr i))) \/
  exists bad : Z -> bool, p ^ Sn * sum 0 (p ^ (n * Sn)) (fun N => if bad N then 1 else 0) = p ^ (n * Sn) /\
    forall N rc, 0 <= N < p ^ (n * Sn) -> bad N = false ->
      (forall k i, 0 <= k < Sn -> 0 <= i < n -> cong p (rc k i) (digit p N (n * k + i))) -> detects p A rc Sn pr n U.
Proof.
  intros Hp Hn HS HU Hup.
  assert (D : (forall i, 0 <= i < n -> in_rowspace p U (entry A (get pr i))) \/ exists i, 0 <= i < n /\ ~ in_rowspace p U (entry A (get pr i))).
  { apply (range_ind (fun n => (forall i, 0 <= i < n -> in_rowspace p U (entry A (get pr i))) \/ exists i, 0 <= i < n /\ ~ in_rowspace p U (entry A (get pr i))) 0 n); [|intros k Hk [H|(i & Hi & H)]|lia].
    - left. intros; lia.
    - destruct (in_rowspace_dec p U q (entry A (get pr k)) HU Hup) as [Hin|Hin].
      + left. intros i Hi. destruct (Z.eq_dec i k) as [->|]; auto. apply H. lia.
      + right. exists k. split; [lia|auto].
    - right. exists i. split; [lia|auto]. }
  destruct D as [D|(i0 & Hi0 & Hm)]; [now left|right].
  destruct (hyperplane_of_missing p U q n (fun i => entry A (get pr i)) i0 HU Hup Hi0 Hm) as (w & H1 & H2).
  exists (fooled p n w Sn). split; [apply fooled_count; [auto|auto|exists i0; auto]|].
  intros N rc HN Hb Hrc Hall. exfalso.
  assert (fooled p n w Sn N = true); [|congruence].
  unfold fooled. apply forallb_forall. intros k Hk. apply In_zseq in Hk. destruct (cong_dec p _ 0) as [|Hne]; [reflexivity|]. exfalso. apply Hne.
  rewrite (sum_cong p 0 n _ (fun i => w i * rc k i)). { apply H2, (Hall k Hk). }
  intros i Hi. rewrite (Hrc k i Hk Hi). apply cong_refl.
Qed.
