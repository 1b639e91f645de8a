(** Proofs about the dimensions of the pictures. *)
From Verif Require Import Base BaseFacts Spec IO ZZp ZZpFloat ImageSize.
From Flocq Require Import Core Relative BinarySingleNaN.
From Coq Require Import Reals Lra Psatz ZifyBool.
Open Scope R_scope.

Lemma d_sqrt_ok (x : ZZp.double) : is_finite x = true -> 0 < B2R x -> B2R (d_sqrt x) = rnd (sqrt (B2R x)) /\ is_finite (d_sqrt x) = true.
Proof.
  intros F P. destruct (Bsqrt_correct 53 1024 Hprec Hemax mode_NE x) as (E & Fi & _). split; [exact E|]. unfold d_sqrt. rewrite Fi.
  destruct x as [s|s| |s m e B]; try discriminate; [reflexivity|]. destruct s; [exfalso|reflexivity].
  cbn [B2R] in P. pose proof (F2R_lt_0 radix2 (Float radix2 (Z.neg m) e) ltac:(cbn; lia)) as L. cbn [SpecFloat.cond_Zopp Z.opp] in P. lra.
Qed.
Lemma rnd_pos x : / 1000000000000000000000 <= x -> exists e, Rabs e <= u /\ rnd x = x * (1 + e).
Proof.
  intros H. apply rnd_rel. rewrite Rabs_pos_eq by lra. apply Rle_trans with (bpow radix2 (-100)); [apply bpow_le; lia|]. change (bpow radix2 (-100)) with (/ 1267650600228229401496703205376). lra.
Qed.
Lemma rnd_exact x : (Z.abs x < 2 ^ 53)%Z -> rnd (IZR x) = IZR x.
Proof. intros H. unfold rnd. apply round_generic; [apply valid_rnd_N|now apply format_int]. Qed.

(* a product of two factors near 1 *)
Lemma mul_near a b c d : - (c * u) <= a - 1 <= c * u -> - (d * u) <= b - 1 <= d * u -> 0 <= c <= 10 -> 0 <= d <= 10 -> forall e, c + d + 1 / 10 <= e -> Rabs (a * b - 1) <= e * u.
Proof.
  intros Ha Hb Hc Hd e He. replace (a * b - 1) with ((a - 1) + (b - 1) + (a - 1) * (b - 1)) by ring. assert (P : Rabs ((a - 1) * (b - 1)) <= (10 * u) * (10 * u)).
  { rewrite Rabs_mult. apply Rmult_le_compat; try apply Rabs_pos; apply Rabs_le; unfold u in *; nra. }
  apply Rabs_le_inv in P. apply Rabs_le. unfold u in *. nra.
Qed.
Section size.
Context (k n m : Z) (Hk : (1 <= k <= 2000)%Z) (Hn : (1 <= n < 2 ^ 31)%Z) (Hm : (1 <= m < 2 ^ 31)%Z).
Let K := IZR (1000000 * k).
Let N := IZR n.
Let M := IZR m.
Lemma bounds : 1000000 <= K <= 2000000000 /\ 1 <= N <= 2147483647 /\ 1 <= M <= 2147483647.
Proof. unfold K, N, M. repeat split; apply IZR_le; lia. Qed.

(* the computed alpha, squared, up to relative errors *)
Lemma alpha_ok : let a := image_alpha (d_of_int k) n m in is_finite a = true /\ 0 < B2R a /\
  exists r, Rabs (r - 1) <= 5 * u /\ B2R a * B2R a = K / (N * M) * r.
Proof.
  cbv zeta. unfold image_alpha. pose proof bounds as (BK & BN & BM).
  destruct (d_of_int_ok k ltac:(lia)) as (Ek & Fk). destruct (d_of_int_ok 1000000 ltac:(lia)) as (E6 & F6). destruct (d_of_int_ok n ltac:(lia)) as (En & Fn). destruct (d_of_int_ok m ltac:(lia)) as (Em & Fm).
  destruct (d_mul_ok (d_of_int k) (d_of_int 1000000) Fk F6) as (E1 & F1). { rewrite Ek, E6, <- mult_IZR, Z.mul_comm. fold K. rewrite Rabs_pos_eq by lra. unfold big. lra. }
  rewrite Ek, E6, <- mult_IZR, Z.mul_comm, rnd_exact in E1 by lia. fold K in E1.
  assert (BNM : 1 <= N * M <= 2147483647 * 2147483647) by nra.
  destruct (d_mul_ok (d_of_int n) (d_of_int m) Fn Fm) as (E2 & F2). { rewrite En, Em. fold N M. rewrite Rabs_pos_eq by lra. unfold big. lra. }
  rewrite En, Em in E2. fold N M in E2. destruct (rnd_pos (N * M) ltac:(lra)) as (e1 & H1 & R1). rewrite R1 in E2.
  apply Rabs_le_inv in H1. unfold u in H1.
  set (P := N * M) in *. assert (BP : / 2 <= P * (1 + e1) <= 5000000000000000000) by nra.
  assert (Q0 : / 1000000000000000 <= K / (P * (1 + e1)) <= 4000000000). { split; [apply (Rmult_le_reg_r (P * (1 + e1))); [lra|]; unfold Rdiv; rewrite Rmult_assoc, Rinv_l by lra; lra|apply (Rmult_le_reg_r (P * (1 + e1))); [lra|]; unfold Rdiv; rewrite Rmult_assoc, Rinv_l by lra; lra]. }
  destruct (d_div_ok (d_mul (d_of_int k) (d_of_int 1000000)) (d_mul (d_of_int n) (d_of_int m)) F1) as (E3 & F3); [rewrite E2; lra|rewrite E1, E2, Rabs_pos_eq by lra; unfold big; lra|].
  rewrite E1, E2 in E3. destruct (rnd_pos (K / (P * (1 + e1))) ltac:(lra)) as (e2 & H2 & R2). rewrite R2 in E3. apply Rabs_le_inv in H2. unfold u in H2.
  set (Q := K / (P * (1 + e1))) in *. assert (BQ : / 2000000000000000 <= Q * (1 + e2) <= 8000000000) by nra.
  destruct (d_sqrt_ok _ F3 ltac:(rewrite E3; lra)) as (E4 & F4). rewrite E3 in E4.
  assert (S : / 1000000000 <= sqrt (Q * (1 + e2))). { rewrite <- (sqrt_square (/ 1000000000)) by lra. apply sqrt_le_1_alt. lra. }
  destruct (rnd_pos (sqrt (Q * (1 + e2))) ltac:(lra)) as (e3 & H3 & R3). rewrite R3 in E4. apply Rabs_le_inv in H3. unfold u in H3.
  split; [exact F4|]. rewrite E4. split; [nra|].
  exists ((1 + e2) / (1 + e1) * ((1 + e3) * (1 + e3))). split.
  - assert (G : Rabs ((1 + e2) / (1 + e1) - 1) <= 21 / 10 * u).
    { replace ((1 + e2) / (1 + e1) - 1) with ((e2 - e1) * / (1 + e1)) by (field; lra). rewrite Rabs_mult, (Rabs_pos_eq (/ (1 + e1))) by (left; apply Rinv_0_lt_compat; lra).
      assert (/ (1 + e1) <= 1001 / 1000). { apply (Rmult_le_reg_r (1 + e1)); [lra|]. rewrite Rinv_l by lra. nra. }
      assert (0 < / (1 + e1)) by (apply Rinv_0_lt_compat; lra). assert (Rabs (e2 - e1) <= 2 * u) by (apply Rabs_le; unfold u; lra). pose proof (Rabs_pos (e2 - e1)). unfold u in *. nra. }
    set (f := (1 + e2) / (1 + e1)) in *. apply Rabs_le_inv in G. apply (mul_near _ _ (21 / 10) (21 / 10)); [lra|unfold u in *; nra|lra|lra|lra].
  - replace (sqrt (Q * (1 + e2)) * (1 + e3) * (sqrt (Q * (1 + e2)) * (1 + e3))) with ((sqrt (Q * (1 + e2)) * sqrt (Q * (1 + e2))) * ((1 + e3) * (1 + e3))) by ring.
    rewrite sqrt_sqrt by lra. unfold Q. field. unfold P in *. split; nra.
Qed.
(* one dimension *)
Lemma side_ok c d : (1 <= c < 2 ^ 31)%Z -> (1 <= d < 2 ^ 31)%Z -> (c * d = n * m)%Z ->
  exists w W r, d_to_i32 (d_mul (image_alpha (d_of_int k) n m) (d_of_int c)) = Ok w /\ 0 < W /\ IZR w <= W < IZR w + 1 /\ Rabs (r - 1) <= 8 * u /\ W * W * IZR d = K * IZR c * r.
Proof.
  intros Hc Hd E. pose proof bounds as (BK & BN & BM). destruct alpha_ok as (Fa & Pa & r & Hr & Ea). set (a := image_alpha _ _ _) in *. set (A := B2R a) in *.
  destruct (d_of_int_ok c ltac:(lia)) as (Ec & Fc). set (C := IZR c) in *. set (D := IZR d) in *.
  assert (BC : 1 <= C <= 2147483647) by (unfold C; split; apply IZR_le; lia). assert (BD : 1 <= D <= 2147483647) by (unfold D; split; apply IZR_le; lia).
  assert (EP : N * M = C * D) by (unfold N, M, C, D; rewrite <- !mult_IZR; f_equal; lia). rewrite EP in Ea.
  apply Rabs_le_inv in Hr. unfold u in Hr.
  assert (Sq : (A * C) * (A * C) * D = K * C * r). { replace ((A * C) * (A * C) * D) with ((A * A) * C * C * D) by ring. rewrite Ea. field. lra. }
  assert (P : 0 < A * C) by nra.
  assert (KC1 : 1000000 * 1 <= K * C) by (apply Rmult_le_compat; lra). assert (KC2 : K * C <= 2000000000 * 2147483647) by (apply Rmult_le_compat; lra).
  assert (KC3 : 500000 <= K * C * r) by nra. assert (KC4 : K * C * r <= 2000000000 * 2147483647 * (1 + 1 / 1000000)) by (apply Rmult_le_compat; lra).
  assert (L : / 1000000 <= A * C). { destruct (Rle_lt_dec (/ 1000000) (A * C)) as [|L]; [auto|exfalso]. assert ((A * C) * (A * C) <= / 1000000 * / 1000000) by (apply Rmult_le_compat; lra). assert ((A * C) * (A * C) * D <= / 1000000 * / 1000000 * 2147483647) by (apply Rmult_le_compat; nra). lra. }
  assert (U : A * C <= 2080000000). { destruct (Rle_lt_dec (A * C) 2080000000) as [|V]; [auto|exfalso]. assert (2080000000 * 2080000000 <= (A * C) * (A * C)) by (apply Rmult_le_compat; lra). assert ((2080000000 * 2080000000) * 1 <= (A * C) * (A * C) * D) by (apply Rmult_le_compat; lra). lra. }
  destruct (d_mul_ok a (d_of_int c) Fa Fc) as (E1 & F1). { rewrite Ec. fold A C. rewrite Rabs_pos_eq by lra. unfold big. lra. }
  rewrite Ec in E1. fold A C in E1. destruct (rnd_pos (A * C) ltac:(lra)) as (e & He & R). rewrite R in E1. apply Rabs_le_inv in He. unfold u in He.
  set (W := A * C * (1 + e)) in *. assert (PW : 0 < W <= 2090000000) by (unfold W; nra).
  assert (ET : Btrunc (d_mul a (d_of_int c)) = Zfloor W).
  { pose proof (Btrunc_correct 53 1024 Hemax (d_mul a (d_of_int c))) as H.
    assert (X : Btrunc (d_mul a (d_of_int c)) = Ztrunc (B2R (d_mul a (d_of_int c)))). { apply eq_IZR. rewrite H. unfold round, F2R, scaled_mantissa, cexp, FIX_exp; simpl. now rewrite !Rmult_1_r. }
    rewrite X, E1. apply Ztrunc_floor. lra. }
  pose proof (Zfloor_lb W) as LB. pose proof (Zfloor_ub W) as UB. set (w := Zfloor W) in *.
  exists w, W, (r * ((1 + e) * (1 + e))). split.
  - unfold d_to_i32. rewrite F1, ET. unfold i32. replace ((- 2 ^ 31 <=? w) && (w <? 2 ^ 31))%Z with true; [reflexivity|].
    assert (w <= 2090000000)%Z by (apply le_IZR; lra). assert (-1 < w)%Z by (apply lt_IZR; lra). lia.
  - split; [lra|]. split; [lra|]. split; [|unfold W; replace (A * C * (1 + e) * (A * C * (1 + e)) * D) with (A * C * (A * C) * D * ((1 + e) * (1 + e))) by ring; rewrite Sq; ring].
    apply (mul_near _ _ 5 (21 / 10)); [unfold u; lra|unfold u; nra|lra|lra|lra].
Qed.

Theorem image_size_ok : exists w h, image_size (d_of_int k) n m = Ok (w, h) /\ (0 <= w)%Z /\ (0 <= h)%Z /\
  (w * h <= 1000000 * k <= (w + 1) * (h + 1))%Z /\ (100 * Z.abs (w * n - h * m) <= 101 * Z.max n m)%Z /\
  (n < 1000000 * k * m -> 1 <= w)%Z /\ (m < 1000000 * k * n -> 1 <= h)%Z /\ (1000000 * k * m < n -> w = 0)%Z /\ (1000000 * k * n < m -> h = 0)%Z.
Proof.
  pose proof bounds as (BK & BN & BM).
  destruct (side_ok m n Hm Hn ltac:(lia)) as (w & W & r & E1 & PW & Hw & Hr & S1). destruct (side_ok n m Hn Hm ltac:(lia)) as (h & H & s & E2 & PH & Hh & Hs & S2).
  exists w, h. unfold image_size. cbv zeta. rewrite E1. cbn [bind]. rewrite E2. cbn [bind]. split; [reflexivity|]. fold N M in S1, S2. clear E1 E2.
  apply Rabs_le_inv in Hr, Hs. unfold u in Hr, Hs.
  assert (W0 : (0 <= w)%Z) by (assert (-1 < w)%Z by (apply lt_IZR; lra); lia). assert (H0 : (0 <= h)%Z) by (assert (-1 < h)%Z by (apply lt_IZR; lra); lia).
  split; [exact W0|]. split; [exact H0|]. apply IZR_le in W0, H0.
  assert (SP : (W * H) * (W * H) = K * K * (r * s)). { apply (Rmult_eq_reg_r (N * M)); [|nra]. replace (W * H * (W * H) * (N * M)) with ((W * W * N) * (H * H * M)) by ring. rewrite S1, S2. ring. }
  assert (RS : - (1 / 100000000000000) <= r * s - 1 <= 1 / 100000000000000) by nra.
  assert (PWH : 0 < W * H) by (apply Rmult_lt_0_compat; auto). assert (KK : K * K <= 2000000000 * K) by (apply Rmult_le_compat_r; lra).
  assert (KR1 : K * K * (r * s) <= K * K * (1 + 1 / 100000000000000)) by (apply Rmult_le_compat_l; nra). assert (KR2 : K * K * (1 - 1 / 100000000000000) <= K * K * (r * s)) by (apply Rmult_le_compat_l; nra).
  assert (U : W * H < K + 1). { destruct (Rlt_le_dec (W * H) (K + 1)) as [|V]; [auto|exfalso]. assert ((K + 1) * (K + 1) <= (W * H) * (W * H)) by (apply Rmult_le_compat; lra). lra. }
  assert (L : K - 1 < W * H). { destruct (Rlt_le_dec (K - 1) (W * H)) as [|V]; [auto|exfalso]. assert ((W * H) * (W * H) <= (K - 1) * (K - 1)) by (apply Rmult_le_compat; lra). lra. }
  assert (WH1 : IZR w * IZR h <= W * H) by (apply Rmult_le_compat; lra). assert (WH2 : W * H <= (IZR w + 1) * (IZR h + 1)) by (apply Rmult_le_compat; lra).
  split; [split|].
  { assert (w * h < 1000000 * k + 1)%Z; [|lia]. apply lt_IZR. rewrite plus_IZR. fold K. rewrite mult_IZR. lra. }
  { assert (1000000 * k - 1 < (w + 1) * (h + 1))%Z; [|lia]. apply lt_IZR. rewrite minus_IZR. fold K. rewrite mult_IZR, !plus_IZR. lra. }
  split.
  { set (X := IZR (Z.max n m)). assert (XN : N <= X) by (apply IZR_le; lia). assert (XM : M <= X) by (apply IZR_le; lia).
    assert (DX : Rabs (W * N - H * M) <= X / 100).
    { destruct (Rle_lt_dec (Rabs (W * N - H * M)) (X / 100)) as [|V]; [auto|exfalso]. assert (F : (W * N - H * M) * (W * N + H * M) = K * (N * M) * (r - s)).
      { replace ((W * N - H * M) * (W * N + H * M)) with ((W * W * N) * N - (H * H * M) * M) by ring. rewrite S1, S2. ring. }
      assert (PWN : 0 < W * N) by (apply Rmult_lt_0_compat; lra). assert (PHM : 0 < H * M) by (apply Rmult_lt_0_compat; lra). assert (T : Rabs (W * N - H * M) <= W * N + H * M) by (apply Rabs_le; lra).
      assert (F' : Rabs (W * N - H * M) * (W * N + H * M) = K * (N * M) * Rabs (r - s)). { rewrite <- (Rabs_pos_eq (W * N + H * M)) by lra. rewrite <- Rabs_mult, F, Rabs_mult, Rabs_pos_eq; [reflexivity|]. apply Rmult_le_pos; [lra|apply Rmult_le_pos; lra]. }
      assert (Rabs (r - s) <= 1 / 100000000000000) by (apply Rabs_le; lra). assert (N * M <= X * X) by (apply Rmult_le_compat; lra).
      pose proof (Rabs_pos (r - s)). pose proof (Rabs_pos (W * N - H * M)). set (z := Rabs (W * N - H * M)) in *.
      assert (X / 100 * (X / 100) < z * z) by (apply Rmult_le_0_lt_compat; lra). assert (z * z <= z * (W * N + H * M)) by nra. assert (K * (N * M) * Rabs (r - s) <= 2000000000 * (X * X) * (1 / 100000000000000)); [|nra].
      apply Rmult_le_compat; [apply Rmult_le_pos; [lra|apply Rmult_le_pos; lra]|lra| |lra]. apply Rmult_le_compat; [lra|apply Rmult_le_pos; lra|lra|lra]. }
    apply le_IZR. rewrite !mult_IZR, abs_IZR, minus_IZR, !mult_IZR. fold N M X. apply Rabs_le_inv in DX.
    assert (Rabs (IZR w * N - IZR h * M) <= 101 / 100 * X); [|lra].
    assert (A1 : IZR w * N <= W * N) by (apply Rmult_le_compat_r; lra). assert (A2 : W * N <= (IZR w + 1) * N) by (apply Rmult_le_compat_r; lra).
    assert (A3 : IZR h * M <= H * M) by (apply Rmult_le_compat_r; lra). assert (A4 : H * M <= (IZR h + 1) * M) by (apply Rmult_le_compat_r; lra). apply Rabs_le. lra. }
  assert (LOW : forall c d v V t, (1 <= c < 2 ^ 31)%Z -> (1 <= d < 2 ^ 31)%Z -> 0 < V -> IZR v <= V < IZR v + 1 -> V * V * IZR d = K * IZR c * t -> - (8 * / 9007199254740992) <= t - 1 <= 8 * / 9007199254740992 -> (d < 1000000 * k * c -> 1 <= v)%Z).
  { intros c d v V t Hc Hd PV Hv S Ht Hlt. assert (D1 : 1 <= IZR d <= 2147483647) by (split; apply IZR_le; lia). assert (KC : IZR d + 1 <= K * IZR c) by (unfold K; rewrite <- mult_IZR, <- plus_IZR; apply IZR_le; lia).
    assert (1 <= V). { destruct (Rle_lt_dec 1 V) as [|B]; [auto|exfalso]. assert (V * V < 1) by nra. nra. }
    assert (0 < v)%Z; [|lia]. apply lt_IZR. lra. }
  assert (HIGH : forall c d v V t, (1 <= c < 2 ^ 31)%Z -> (1 <= d < 2 ^ 31)%Z -> 0 < V -> 0 <= IZR v -> IZR v <= V < IZR v + 1 -> V * V * IZR d = K * IZR c * t -> - (8 * / 9007199254740992) <= t - 1 <= 8 * / 9007199254740992 -> (1000000 * k * c < d -> v = 0)%Z).
  { intros c d v V t Hc Hd PV V0 Hv S Ht Hlt. assert (D1 : 1 <= IZR d <= 2147483647) by (split; apply IZR_le; lia). assert (KC : K * IZR c <= IZR d - 1) by (unfold K; rewrite <- mult_IZR, <- minus_IZR; apply IZR_le; lia).
    assert (0 <= K * IZR c) by (apply Rmult_le_pos; [lra|apply IZR_le; lia]).
    assert (V < 1). { destruct (Rlt_le_dec V 1) as [|B]; [auto|exfalso]. assert (1 * 1 <= V * V) by (apply Rmult_le_compat; lra). nra. }
    assert (v < 1)%Z by (apply lt_IZR; lra). assert (0 <= v)%Z by (now apply le_IZR). lia. }
  split; [exact (LOW m n w W r Hm Hn PW Hw S1 Hr)|]. split; [exact (LOW n m h H s Hn Hm PH Hh S2 Hs)|]. split; [exact (HIGH m n w W r Hm Hn PW W0 Hw S1 Hr)|exact (HIGH n m h H s Hn Hm PH H0 Hh S2 Hs)].
Qed.
End size.
