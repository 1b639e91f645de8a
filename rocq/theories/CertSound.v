(** What an accepted certificate says. *)
From Coq Require Import Znumtheory.
From Verif Require Import Base BaseFacts Spec SpecFacts Zp ZpFacts Mat MatFacts RowList VecProofs TriProofs SpecRank Rank Counting
  SpecSha ShaHash SpecPrng Prng PrngProofs PrngDraw DenseProofs4 SpecCert Cert CertProofs CertCreate.

(** ** Draws *)
Lemma mask_bits_unique p b b' : mask_bits p b -> mask_bits p b' -> b = b'.
Proof.
  unfold mask_bits. intros (H0 & H1 & H2) (H0' & H1' & H2').
  destruct (Z.lt_trichotomy b b') as [C|[C|C]]; auto; exfalso.
  - assert (2 ^ (b + 1) <= 2 ^ b') by (apply Z.pow_le_mono_r; lia). rewrite Z.pow_add_r in * by lia. lia.
  - assert (2 ^ (b' + 1) <= 2 ^ b) by (apply Z.pow_le_mono_r; lia). rewrite Z.pow_add_r in * by lia. lia.
Qed.
Lemma is_draw_unique seed p seq k v v' : is_draw seed p seq k v -> is_draw seed p seq k v' -> v = v'.
Proof.
  intros (Hk & b & N & x & Hb & E & ->) (_ & b' & N' & x' & Hb' & E' & ->). rewrite (mask_bits_unique _ _ _ Hb' Hb) in E'. f_equal.
  change (prng_accepted seed p seq b) with (acc seed p seq b 0) in *.
  assert (HN : forall N x, nth_error (acc seed p seq b 0 N) (Z.to_nat k) = Some x -> 0 <= N).
  { intros M y Ey. destruct (Z_lt_le_dec M 0); [|auto]. unfold acc in Ey. rewrite zseq_empty in Ey by lia. destruct (Z.to_nat k); discriminate. }
  pose proof (HN _ _ E). pose proof (HN _ _ E'). destruct (Z_le_gt_dec N N').
  - rewrite (acc_prefix seed p seq b N N') with (x := x) in E' by (auto; lia). congruence.
  - rewrite (acc_prefix seed p seq b N' N) with (x := x') in E by (auto; lia). congruence.
Qed.
Lemma al_is_draw seed p b fuel k : mask_bits p b -> 0 <= k -> (forall i, 0 <= i <= k -> good seed p 0 b fuel i) -> is_draw seed p 0 k (al seed p 0 b fuel k).
Proof.
  intros Hb Hk G. split; [auto|]. destruct (pos_acc seed p 0 b fuel (k + 1)) as [P1 E1]; [lia|intros; apply G; lia|].
  assert (E : nth_error (map (bal p) (acc seed p 0 b 0 (pos seed p 0 b fuel (k + 1)))) (Z.to_nat k) = Some (al seed p 0 b fuel k)).
  { rewrite E1. rewrite zseq_S, map_app, nth_error_app2 by (rewrite ?map_length; unfold zseq; rewrite ?map_length, ?seq_length; lia).
    rewrite map_length. unfold zseq. rewrite map_length, seq_length. replace (Z.to_nat k - Z.to_nat (k - 0))%nat with O by lia. reflexivity. }
  rewrite nth_error_map in E. destruct (nth_error _ (Z.to_nat k)) as [x|] eqn:Ex; [|discriminate]. injection E as E. exists b, (pos seed p 0 b fuel (k + 1)), x. auto.
Qed.

(** ** Linear algebra *)
Lemma choose_coeffs p (A : csr) r (v : Z -> Z -> Z) : 0 <= cn A ->
  (forall i, 0 <= i < cn A -> exists c, forall j, 0 <= j < cm A -> cong p (entry A i j) (sum 0 r (fun k => c k * v k j))) ->
  exists c, forall i j, 0 <= i < cn A -> 0 <= j < cm A -> cong p (entry A i j) (sum 0 r (fun k => c i k * v k j)).
Proof.
  intros Hn H.
  assert (G : forall n, 0 <= n <= cn A -> exists c, forall i j, 0 <= i < n -> 0 <= j < cm A -> cong p (entry A i j) (sum 0 r (fun k => c i k * v k j))).
  { apply (range_ind (fun n => exists c, forall i j, 0 <= i < n -> 0 <= j < cm A -> cong p (entry A i j) (sum 0 r (fun k => c i k * v k j))) 0 (cn A)).
    - exists (fun _ _ => 0). intros; lia.
    - intros n Hn' (c & Hc). destruct (H n Hn') as (d & Hd). exists (fun i => if i =? n then d else c i). intros i j Hi Hj.
      destruct (Z.eqb_spec i n) as [->|]; [now apply Hd|apply Hc; lia]. }
  apply G. lia.
Qed.
(* coordinates of x * A in the basis v *)
Lemma xA_coords p A R v c x j : (forall i j, 0 <= i < cn A -> 0 <= j < cm A -> cong p (entry A i j) (sum 0 R (fun k => c i k * v k j))) ->
  0 <= j < cm A -> cong p (xA A x j) (sum 0 R (fun k => sum 0 (cn A) (fun i => x i * c i k) * v k j)).
Proof.
  intros H Hj. unfold xA.
  rewrite (sum_cong p 0 (cn A) _ (fun i => sum 0 R (fun k => x i * c i k * v k j))).
  2:{ intros i Hi. rewrite (H i j Hi Hj). apply cong_eq. rewrite <- sum_scale. apply sum_ext. intros; ring. }
  rewrite sum_swap. apply cong_eq. apply sum_ext. intros k Hk. now rewrite sum_scale_r.
Qed.
(* more columns than the rank: they are dependent *)
Lemma columns_dependent p A R r jj : prime p -> 0 <= cn A -> rank_is p A R -> R < r -> (forall k, 0 <= k < r -> 0 <= jj k < cm A) ->
  exists w, (exists k, 0 <= k < r /\ ~ cong p (w k) 0) /\ forall x, cong p (sum 0 r (fun k => w k * xA A x (jj k))) 0.
Proof.
  intros Hp Hn (HR & v & _ & _ & V3) Hr Hj. destruct (choose_coeffs p A R v Hn V3) as (c & Hc).
  destruct (homogeneous p (Z.to_nat R) Hp r (fun k t => v t (jj k)) ltac:(lia)) as (w & H1 & H2). rewrite Z2Nat.id in H2 by lia.
  exists w. split; [auto|]. intros x.
  rewrite (sum_cong p 0 r _ (fun k => sum 0 R (fun t => w k * (sum 0 (cn A) (fun i => x i * c i t) * v t (jj k))))).
  2:{ intros k Hk. rewrite (xA_coords p A R v c x (jj k) Hc (Hj k Hk)), sum_scale. apply cong_refl. }
  rewrite sum_swap. apply sum_cong_0. intros t Ht. set (X := sum 0 (cn A) (fun i => x i * c i t)).
  rewrite (sum_ext 0 r _ (fun k => X * (w k * v t (jj k)))) by (intros; ring). rewrite sum_scale, H2 by auto. apply cong_eq. ring.
Qed.
(* fewer rows than the rank: they do not span the others *)
Lemma rows_missing p A R r ii : prime p -> 0 <= cn A -> rank_is p A R -> 0 <= r < R -> (forall k, 0 <= k < r -> 0 <= ii k < cn A) ->
  exists w, (exists i, 0 <= i < cn A /\ ~ cong p (w i) 0) /\ (forall k, 0 <= k < r -> cong p (w (ii k)) 0) /\
    forall x, (forall j, 0 <= j < cm A -> cong p (xA A x j) 0) -> cong p (sum 0 (cn A) (fun i => x i * w i)) 0.
Proof.
  intros Hp Hn (HR & v & V1 & V2 & V3) Hr Hi. destruct (choose_coeffs p A R v Hn V3) as (c & Hc).
  destruct (homogeneous p (Z.to_nat r) Hp R (fun t k => c (ii k) t) ltac:(lia)) as (t & (t0 & Ht0 & Nt0) & H2). rewrite Z2Nat.id in H2 by lia.
  exists (fun i => sum 0 R (fun k => t k * c i k)). split; [|split; [exact H2|]].
  - destruct (range_cong_dec p (cn A) (fun i => sum 0 R (fun k => t k * c i k))) as [Z0|]; [exfalso|auto].
    (* row t0 of the basis is a combination of the rows *)
    destruct (V2 t0 Ht0) as (y & Hy). apply Nt0.
    assert (E : forall k, 0 <= k < R -> cong p (sum 0 (cn A) (fun i => y i * c i k) - (if k =? t0 then 1 else 0)) 0).
    { apply (V1 (fun k => sum 0 (cn A) (fun i => y i * c i k) - (if k =? t0 then 1 else 0))). intros j Hj.
      rewrite (sum_ext 0 R _ (fun k => sum 0 (cn A) (fun i => y i * c i k) * v k j - (if k =? t0 then 1 else 0) * v k j)) by (intros; ring).
      rewrite sum_sub. rewrite <- (xA_coords p A R v c y j Hc Hj), (Hy j Hj). rewrite (sum_single 0 R _ t0); auto.
      - rewrite Z.eqb_refl. apply cong_eq. ring.
      - intros k Hk Hne. replace (k =? t0) with false by lia. ring. }
    assert (E2 : cong p (sum 0 R (fun k => t k * sum 0 (cn A) (fun i => y i * c i k))) (t t0)).
    { rewrite (sum_cong p 0 R _ (fun k => t k * (if k =? t0 then 1 else 0))).
      - rewrite (sum_single 0 R _ t0); auto; [rewrite Z.eqb_refl; apply cong_eq; ring|]. intros k Hk Hne. replace (k =? t0) with false by lia. ring.
      - intros k Hk. specialize (E k Hk). set (a := sum 0 (cn A) _) in *. set (d := if k =? t0 then 1 else 0) in *. replace a with ((a - d) + d) by ring. rewrite E. apply cong_eq. ring. }
    rewrite <- E2. rewrite (sum_ext 0 R _ (fun k => sum 0 (cn A) (fun i => y i * (t k * c i k)))) by (intros; rewrite <- sum_scale; apply sum_ext; intros; ring).
    rewrite sum_swap. apply sum_cong_0. intros i Hi'. rewrite sum_scale, (Z0 i Hi'). apply cong_eq. ring.
  - intros x Hx.
    assert (E : forall k, 0 <= k < R -> cong p (sum 0 (cn A) (fun i => x i * c i k)) 0).
    { apply V1. intros j Hj. rewrite <- (xA_coords p A R v c x j Hc Hj). auto. }
    rewrite (sum_ext 0 (cn A) _ (fun i => sum 0 R (fun k => t k * (x i * c i k)))) by (intros; rewrite <- sum_scale; apply sum_ext; intros; ring).
    rewrite sum_swap. apply sum_cong_0. intros k Hk. rewrite sum_scale, (E k Hk). apply cong_eq. ring.
Qed.

(** ** Accepted certificates *)
Section accepted.
Context (p : Z) (Hp : ok_modulus p) (Hprime : prime p) (A : csr) (HA : wf A) (HAp : cprime A = p) (HAx : cx A <> None).

Lemma accepted gs fuel hash c : len hash = 32 -> bytes hash -> cert_wf c -> rank_verify gs fuel A hash c = Ok true ->
  exists b, mask_bits p b /\ c_hash c = hash /\ c_prime c = p /\ ranges A c /\ (forall k, 0 <= k < needed A c -> good hash p 0 b fuel k) /\
        (forall k, 0 <= k < c_r c -> cong p (xA A (vx c) (get (c_j c) k)) (al hash p 0 b fuel k)) /\
        (forall j, 0 <= j < cm A -> cong p (xA A (vy p hash b fuel c) j) 0).
Proof.
  intros Lh Bh W E. destruct (mask_bits_exists p) as [b Hb]; [unfold ok_modulus in Hp; lia|]. exists b. split; [auto|].
  pose proof (verify_gen p Hp A HA HAp HAx hash (conj Lh Bh) b Hb fuel gs c W) as V. rewrite E in V. cbn [outs] in V. now apply V.
Qed.

Theorem sound_large R r jj : rank_is p A R -> R < r -> (forall k, 0 <= k < r -> 0 <= get jj k < cm A) ->
  exists w, (exists k, 0 <= k < r /\ ~ cong p (w k) 0) /\
    forall gs fuel hash c, len hash = 32 -> bytes hash -> cert_wf c -> c_r c = r -> c_j c = jj -> rank_verify gs fuel A hash c = Ok true ->
    exists alpha, (forall k, 0 <= k < r -> is_draw hash p 0 k (alpha k)) /\ cong p (sum 0 r (fun k => w k * alpha k)) 0.
Proof.
  intros HR Hr Hj. destruct (columns_dependent p A R r (get jj) Hprime (wf_n A HA) HR Hr Hj) as (w & Hw & Hx). exists w. split; [auto|].
  intros gs fuel hash c Lh Bh W Er Ej E. destruct (accepted gs fuel hash c Lh Bh W E) as (b & Hb & _ & _ & _ & G & C1 & _).
  assert (r <= needed A c). { unfold needed. pose proof (bots_nonneg (vy0 c) (cn A)). lia. }
  exists (al hash p 0 b fuel). split.
  - intros k Hk. apply al_is_draw; auto; [lia|]. intros i Hi. apply G. lia.
  - eapply cong_trans; [|apply (Hx (vx c))]. apply sum_cong. intros k Hk. rewrite <- C1 by lia. rewrite Ej. apply cong_refl.
Qed.

Lemma existsb_get (l : list Z) i : existsb (Z.eqb i) l = true <-> exists k, 0 <= k < len l /\ get l k = i.
Proof.
  rewrite existsb_exists. split.
  - intros (x & Hx & E). apply Z.eqb_eq in E. subst x. apply In_nth with (d := 0) in Hx as (k & Hk & E). exists (Z.of_nat k). unfold len. split; [lia|].
    unfold get, getd. replace (Z.of_nat k <? 0) with false by lia. now rewrite Nat2Z.id.
  - intros (k & Hk & <-). exists (get l k). split; [|apply Z.eqb_refl]. unfold get, getd. replace (k <? 0) with false by lia. apply nth_In. unfold len in Hk. lia.
Qed.
Theorem sound_small R ii : rank_is p A R -> len ii < R -> (forall k, 0 <= k < len ii -> 0 <= get ii k < cn A) ->
  (forall k k', 0 <= k < k' -> k' < len ii -> get ii k <> get ii k') ->
  exists w, (exists i, 0 <= i < cn A /\ ~ cong p (w i) 0) /\ (forall k, 0 <= k < len ii -> cong p (w (get ii k)) 0) /\
    forall gs fuel hash c, len hash = 32 -> bytes hash -> cert_wf c -> c_i c = ii -> (forall k, 0 <= k < len ii -> get (c_y c) k <> 2 ^ 31 - 1) ->
      rank_verify gs fuel A hash c = Ok true ->
    exists alpha, (forall i, 0 <= i < cn A -> ~ In i ii -> is_draw hash p 0 (len ii + outside ii i) (alpha i)) /\
      (forall i, In i ii -> alpha i = 0) /\ cong p (sum 0 (cn A) (fun i => w i * alpha i)) 0.
Proof.
  intros HR Hr Hi Hd. pose proof (wf_n A HA) as Hn. assert (0 <= len ii) by (unfold len; lia).
  destruct (rows_missing p A R (len ii) (get ii) Hprime Hn HR ltac:(lia) Hi) as (w & Hw & W0 & Hx). exists w. do 2 (split; [auto|]).
  intros gs fuel hash c Lh Bh W Ei Hy E. destruct (accepted gs fuel hash c Lh Bh W E) as (b & Hb & _ & _ & _ & G & _ & C2).
  assert (Er : c_r c = len ii) by (rewrite <- Ei; symmetry; apply (cw_i _ W)).
  assert (In' : forall i, In i ii <-> exists k, 0 <= k < len ii /\ get ii k = i).
  { intros i. rewrite <- existsb_get, existsb_exists. split; [intros H0; exists i; split; [auto|apply Z.eqb_refl]|intros (x & Hx0 & E0); apply Z.eqb_eq in E0; now subst]. }
  assert (B0 : forall i, vy0 c i = BOT <-> ~ In i ii).
  { intros i. unfold vy0. rewrite Er, Ei. split.
    - intros E0 Hin. apply In' in Hin as (k & Hk & <-). rewrite putf_in in E0; auto; [apply (Hy k Hk), E0|]. intros k' Hk' E1. apply (Hd k k'); auto; lia.
    - intros Hin. rewrite putf_out; auto. intros k Hk E0. apply Hin, In'. eauto. }
  assert (B1 : forall i, bots (vy0 c) i = outside ii i).
  { intros i. unfold bots, outside. apply sum_ext. intros t Ht. pose proof (B0 t) as B. destruct (existsb (Z.eqb t) ii) eqn:Ex.
    - apply existsb_get in Ex. apply In' in Ex. destruct (Z.eqb_spec (vy0 c t) BOT) as [D|D]; [tauto|reflexivity].
    - assert (~ In t ii). { intros D. apply In', existsb_get in D. congruence. } replace (vy0 c t =? BOT) with true by (symmetry; apply Z.eqb_eq; tauto). reflexivity. }
  exists (fun i => if existsb (Z.eqb i) ii then 0 else al hash p 0 b fuel (len ii + outside ii i)). split; [|split].
  - intros i Hi' Hin. assert (existsb (Z.eqb i) ii = false) as ->. { destruct (existsb (Z.eqb i) ii) eqn:Ex; auto. apply existsb_get, In' in Ex. tauto. }
    pose proof (bots_nonneg (vy0 c) i) as Bi. apply al_is_draw; auto; [rewrite <- B1; lia|]. intros k Hk. apply G. unfold needed. rewrite Er.
    assert (bots (vy0 c) (i + 1) <= bots (vy0 c) (cn A)).
    { unfold bots. rewrite (sum_split (i + 1) 0 (cn A)) by lia. assert (0 <= sum (i + 1) (cn A) (fun t => b1 (vy0 c t =? BOT))); [|lia]. apply sum_nonneg. intros t Ht. destruct (_ =? _); cbn; lia. }
    rewrite bots_S in * by lia. replace (vy0 c i =? BOT) with true in * by (symmetry; apply Z.eqb_eq, B0, Hin). cbn [b1] in *. rewrite <- B1 in Hk. lia.
  - intros i Hin. apply In', existsb_get in Hin. now rewrite Hin.
  - eapply cong_trans; [|apply (Hx (vy p hash b fuel c) C2)]. apply sum_cong. intros i Hi'. destruct (existsb (Z.eqb i) ii) eqn:Ex.
    + apply existsb_get in Ex as (k & Hk & <-). rewrite (W0 k Hk). apply cong_eq. ring.
    + assert (~ In i ii). { intros D. apply In', existsb_get in D. congruence. }
      unfold vy. replace (vy0 c i =? BOT) with true by (symmetry; apply Z.eqb_eq, B0; auto). rewrite Er, B1. apply cong_eq. ring.
Qed.
End accepted.

(** ** How many challenges are in a hyperplane *)
Lemma digit_small p N k r : 2 <= p -> 0 <= k < r -> 0 <= N -> forall d, digit p (N + d * p ^ r) k = digit p N k.
Proof.
  intros Hp Hk HN d. unfold digit. replace (p ^ r) with (p ^ (r - k - 1) * p * p ^ k).
  - replace (N + d * (p ^ (r - k - 1) * p * p ^ k)) with (N + (d * p ^ (r - k - 1) * p) * p ^ k) by ring.
    rewrite Z.div_add by (apply Z.pow_nonzero; lia). apply Z.mod_add. lia.
  - rewrite <- Z.mul_assoc. rewrite <- (Z.pow_succ_r p k), <- Z.pow_add_r by lia. f_equal. lia.
Qed.
Lemma digit_top p N r d : 2 <= p -> 0 <= r -> 0 <= N < p ^ r -> 0 <= d < p -> digit p (N + d * p ^ r) r = d.
Proof. intros Hp Hr HN Hd. unfold digit. rewrite Z.div_add, Z.div_small by lia. rewrite Z.add_0_l. apply Z.mod_small. lia. Qed.
Lemma sum_blocks a q f : 0 <= a -> 0 <= q -> sum 0 (a * q) f = sum 0 a (fun d => sum 0 q (fun N => f (N + d * q))).
Proof.
  intros Ha Hq. pattern a. apply (range_ind _ 0 a); [reflexivity| |lia]. intros k Hk IH.
  rewrite (sum_S 0 k) by lia. rewrite <- IH. rewrite (sum_split (k * q) 0 ((k + 1) * q)) by lia. f_equal.
  rewrite (sum_shift 0 q (k * q) f). f_equal; ring.
Qed.
Lemma one_solution p a t : prime p -> ~ cong p a 0 -> exists d0, 0 <= d0 < p /\ forall d, 0 <= d < p -> (cong p (a * d + t) 0 <-> d = d0).
Proof.
  intros Hp Ha. destruct (prime_inverse p a Hp Ha) as (b & Hb). assert (2 <= p) by (apply prime_ge_2; auto).
  exists ((- (b * t)) mod p). split; [apply Z.mod_pos_bound; lia|]. intros d Hd.
  assert (M : cong p ((- (b * t)) mod p) (- (b * t))) by (apply cong_mod; lia). split.
  - intros E. apply (cong_small p). 2:{ pose proof (Z.mod_pos_bound (- (b * t)) p). lia. } rewrite M.
    replace (- (b * t)) with (b * 0 - b * t) by ring. rewrite <- E. replace (b * (a * d + t) - b * t) with (b * a * d) by ring. rewrite Hb. apply cong_eq. ring.
  - intros ->. rewrite M. replace (a * - (b * t) + t) with (t - (b * a) * t) by ring. rewrite Hb. apply cong_eq. ring.
Qed.
Definition on_plane p r (w : Z -> Z) t N : Z := if cong_dec p (sum 0 r (fun k => w k * digit p N k) + t) 0 then 1 else 0.
Lemma plane_count p w : prime p -> forall r, 0 <= r -> forall t,
  ((exists k, 0 <= k < r /\ ~ cong p (w k) 0) -> p * sum 0 (p ^ r) (on_plane p r w t) = p ^ r) /\
  ((forall k, 0 <= k < r -> cong p (w k) 0) -> sum 0 (p ^ r) (on_plane p r w t) = if cong_dec p t 0 then p ^ r else 0).
Proof.
  intros Hp r Hr. pose proof (prime_ge_2 p Hp) as H2. pattern r. apply (range_ind _ 0 r); [| |lia].
  - intros t. split; [intros (k & Hk & _); lia|]. intros _. rewrite Z.pow_0_r. change (sum 0 1 (on_plane p 0 w t)) with (on_plane p 0 w t 0 + 0). unfold on_plane. rewrite sum_empty by lia. rewrite Z.add_0_l. destruct (cong_dec p t 0); reflexivity.
  - intros k Hk IH t. pose proof (Z.pow_pos_nonneg p k ltac:(lia) ltac:(lia)) as Pk. rewrite Z.pow_add_r, Z.pow_1_r by lia.
    assert (E : sum 0 (p ^ k * p) (on_plane p (k + 1) w t) = sum 0 p (fun d => sum 0 (p ^ k) (on_plane p k w (w k * d + t)))).
    { rewrite Z.mul_comm, sum_blocks by lia. apply sum_ext. intros d Hd. apply sum_ext. intros N HN. unfold on_plane. rewrite sum_S by lia. rewrite digit_top by lia.
      rewrite (sum_ext 0 k _ (fun i => w i * digit p N i)) by (intros i Hi; rewrite digit_small by lia; reflexivity). now rewrite Z.add_assoc. }
    rewrite E. split.
    + intros Hex. destruct (range_cong_dec p k w) as [Z0|Hex'].
      * assert (~ cong p (w k) 0). { destruct Hex as (i & Hi & Ni). destruct (Z.eq_dec i k) as [->|]; auto. exfalso. apply Ni, Z0. lia. }
        destruct (one_solution p (w k) t Hp H) as (d0 & Hd0 & Hu). rewrite (sum_single 0 p _ d0); auto.
        -- rewrite (proj2 (IH _) Z0). destruct (cong_dec p (w k * d0 + t) 0) as [|C]; [ring|]. exfalso. apply C, Hu; auto.
        -- intros d Hd Hne. rewrite (proj2 (IH _) Z0). destruct (cong_dec p (w k * d + t) 0) as [C|]; [|auto]. apply Hu in C; auto. lia.
      * rewrite <- sum_scale. rewrite (sum_ext 0 p _ (fun _ => p ^ k)) by (intros d Hd; now apply IH). rewrite sum_const by lia. ring.
    + intros Z0. rewrite (sum_ext 0 p _ (fun _ => if cong_dec p t 0 then p ^ k else 0)).
      * rewrite sum_const by lia. destruct (cong_dec p t 0); ring.
      * intros d Hd. rewrite (proj2 (IH _)) by (intros; apply Z0; lia). assert (Q : cong p (w k * d + t) t).
        { rewrite (Z0 k) by lia. apply cong_eq. ring. }
        destruct (cong_dec p (w k * d + t) 0) as [C|C], (cong_dec p t 0) as [D|D]; auto; exfalso; [apply D|apply C].
        -- eapply cong_trans; [apply cong_sym, Q|auto].
        -- eapply cong_trans; [apply Q|auto].
Qed.
