(** Proofs about the printing of sizes. *)
From Verif Require Import Base BaseFacts Spec SpecText SpecHuman Stdio TextProofs ZZp ZZpFloat Human.
From Flocq Require Import Core Relative BinarySingleNaN.
From Coq Require Import Reals Lra ZifyBool.
Open Scope R_scope.

Lemma nearest_even_ok a b : (0 < b)%Z -> (2 * Z.abs (nearest_even a b * b - a) <= b)%Z.
Proof.
  intros Hb. unfold nearest_even. pose proof (Z.div_mod a b ltac:(lia)). pose proof (Z.mod_pos_bound a b Hb). cbv zeta.
  destruct (2 * (a mod b) <? b)%Z eqn:E1; [nia|]. destruct (b <? 2 * (a mod b))%Z eqn:E2; [nia|]. destruct (Z.even (a / b)); nia.
Qed.
Lemma tenths_ok (d : ZZp.double) : is_finite d = true -> 0 <= B2R d -> Rabs (IZR (tenths d) - 10 * B2R d) <= / 2.
Proof.
  destruct d as [s|s| |s m e B]; try discriminate; intros _ Hp; cbn [B2R tenths].
  - rewrite Rmult_0_r, Rminus_0_r, Rabs_R0. lra.
  - destruct s; [exfalso|]; cbn [B2R cond_Zopp] in Hp |- *.
    + pose proof (F2R_lt_0 radix2 (Float radix2 (Z.neg m) e) ltac:(cbn; lia)) as L. cbn [SpecFloat.cond_Zopp Z.opp] in Hp. lra.
    + cbn [SpecFloat.cond_Zopp]. unfold F2R. cbn [Fnum Fexp]. destruct (Z.leb_spec 0 e) as [L|L].
      * rewrite !mult_IZR. rewrite <- (IZR_Zpower radix2) by exact L. change (radix_val radix2) with 2%Z.
        replace (10 * IZR (Z.pos m) * IZR (2 ^ e) - 10 * (IZR (Z.pos m) * IZR (2 ^ e))) with 0 by ring. rewrite Rabs_R0. lra.
      * assert (P : (0 < 2 ^ (- e))%Z) by (apply Z.pow_pos_nonneg; lia). pose proof (nearest_even_ok (10 * Z.pos m) (2 ^ (- e)) P) as N.
        assert (Q : bpow radix2 e = / IZR (2 ^ (- e))). { rewrite <- (Z.opp_involutive e) at 1. rewrite bpow_opp, <- (IZR_Zpower radix2) by lia. reflexivity. }
        rewrite Q. apply IZR_le in N. rewrite mult_IZR, abs_IZR, minus_IZR, !mult_IZR in N. apply IZR_lt in P.
        set (b := IZR (2 ^ (- e))) in *. set (t := IZR (nearest_even _ _)) in *. set (x := IZR (Z.pos m)) in *.
        replace (t - 10 * (x * / b)) with ((t * b - 10 * x) * / b) by (field; lra). rewrite Rabs_mult, (Rabs_pos_eq (/ b)) by (left; apply Rinv_0_lt_compat; exact P).
        apply (Rmult_le_reg_r b); [exact P|]. rewrite Rmult_assoc, Rinv_l by lra. lra.
Qed.
Lemma rnd_1000 x : 0 < x -> x < 1000 -> Rabs (rnd x - x) <= / 17592186044416.
Proof.
  intros H0 H1. unfold rnd. eapply Rle_trans; [apply error_le_half_ulp; apply FLT_exp_valid; reflexivity|].
  rewrite ulp_neq_0 by lra. assert (M : (mag radix2 x <= 10)%Z). { apply mag_le_bpow; [lra|]. rewrite Rabs_pos_eq by lra. change (bpow radix2 10) with 1024. lra. }
  apply Rle_trans with (/ 2 * bpow radix2 (-43)).
  - apply Rmult_le_compat_l; [lra|]. apply bpow_le. unfold cexp, FLT_exp. lia.
  - change (bpow radix2 (-43)) with (/ 8796093022208). lra.
Qed.
(* the tenths printed are nearest to n / unit *)
Lemma scaled_nearest n D : (0 < D)%Z -> (D <= 10 ^ 12)%Z -> Z.even D = true -> (D <= n < 1000 * D)%Z ->
  (2 * Z.abs (tenths (d_div (d_of_int n) (d_of_int D)) * D - 10 * n) <= D)%Z.
Proof.
  intros HD HD2 Ev Hn.
  destruct (d_of_int_ok n ltac:(lia)) as (En & Fn). destruct (d_of_int_ok D ltac:(lia)) as (ED & FD).
  assert (PD : 0 < IZR D) by (apply IZR_lt; lia). assert (Pn : 0 < IZR n) by (apply IZR_lt; lia).
  assert (Hx : 0 < IZR n / IZR D < 1000). { split; [apply Rdiv_lt_0_compat; auto|]. apply (Rmult_lt_reg_r (IZR D)); [exact PD|]. unfold Rdiv. rewrite Rmult_assoc, Rinv_l, Rmult_1_r by lra. rewrite <- mult_IZR. apply IZR_lt. lia. }
  destruct (d_div_ok (d_of_int n) (d_of_int D) Fn ltac:(rewrite ED; lra)) as (E & F). { rewrite En, ED, Rabs_pos_eq by lra. unfold big. lra. }
  rewrite En, ED in E. set (x := IZR n / IZR D) in *. pose proof (rnd_1000 x (proj1 Hx) (proj2 Hx)) as R.
  assert (P : 0 <= rnd x). { unfold rnd. apply round_ge_generic; [apply FLT_exp_valid; reflexivity|apply valid_rnd_N|apply generic_format_0|lra]. }
  pose proof (tenths_ok _ F ltac:(rewrite E; exact P)) as T. rewrite E in T. set (t := tenths _) in *.
  assert (G : Rabs (IZR t - 10 * x) <= / 2 + 10 * / 17592186044416). { replace (IZR t - 10 * x) with (IZR t - 10 * rnd x + 10 * (rnd x - x)) by ring. eapply Rle_trans; [apply Rabs_triang|]. rewrite Rabs_mult, (Rabs_pos_eq 10) by lra. lra. }
  assert (G2 : 2 * Rabs (IZR t * IZR D - 10 * IZR n) < IZR D + 2).
  { replace (IZR t * IZR D - 10 * IZR n) with ((IZR t - 10 * x) * IZR D) by (unfold x; field; lra). rewrite Rabs_mult, (Rabs_pos_eq (IZR D)) by lra.
    assert (IZR D <= 1000000000000) by (apply IZR_le; lia). nra. }
  apply Z.even_spec in Ev as (k & Ek). assert (2 * Z.abs (t * D - 10 * n) < D + 2)%Z; [|lia].
  apply lt_IZR. rewrite mult_IZR, abs_IZR, minus_IZR, plus_IZR, !mult_IZR. exact G2.
Qed.
Open Scope Z_scope.

Lemma digits_len k z s w : 0 <= z < 10 ^ Z.of_nat w -> (1 <= w)%nat -> len (digits k z s) <= Z.of_nat w + len s.
Proof.
  revert z s w. induction k as [|k IH]; intros z s w Hz Hw; cbn [digits]; [lia|]. destruct (z <? 10) eqn:E; [rewrite len_cons; lia|].
  destruct w as [|[|w]]; [lia|cbn in Hz; lia|]. specialize (IH (z / 10) ((48 + z mod 10) :: s) (Datatypes.S w)). rewrite len_cons in IH.
  assert (0 <= z / 10 < 10 ^ Z.of_nat (Datatypes.S w)). { split; [apply Z.div_pos; lia|]. apply Z.div_lt_upper_bound; [lia|]. rewrite <- Z.pow_succ_r by lia. replace (Z.succ (Z.of_nat (Datatypes.S w))) with (Z.of_nat (Datatypes.S (Datatypes.S w))) by lia. lia. }
  lia.
Qed.
Lemma print_len z w : 0 <= z < 10 ^ Z.of_nat w -> (1 <= w)%nat -> len (print_int z) <= Z.of_nat w.
Proof. intros H1 H2. unfold print_int. replace (z <? 0) with false by lia. pose proof (digits_len 20 z [] w H1 H2). unfold len in *. cbn [length] in *. lia. Qed.
Lemma firstn_short (s : list Z) : len s <= 7 -> snprintf8 s = s.
Proof. intros H. unfold snprintf8. apply firstn_all2. unfold len in H. lia. Qed.

Lemma scaled_ok n D c : unit_letter D c -> D <= n < 1000 * D ->
  len (human_scaled n D c) <= 7 /\ exists t, stands (human_scaled n D c) (t * D) /\ 2 * Z.abs (t * D - 10 * n) <= D.
Proof.
  intros U Hn. unfold human_scaled. pose proof (scaled_nearest n D) as N. set (t := tenths _) in *.
  assert (B : 2 * Z.abs (t * D - 10 * n) <= D). { apply N; unfold unit_letter in U; [lia|lia| |lia]. destruct U as [[-> _]|[[-> _]|[[-> _]|[-> _]]]]; reflexivity. }
  assert (HD : 1000 <= D) by (unfold unit_letter in U; lia). assert (Ht : 10 <= t <= 10000) by nia. clearbody t.
  pose proof (Z.div_mod t 10 ltac:(lia)). pose proof (Z.mod_pos_bound t 10 ltac:(lia)).
  assert (E : print_int (t mod 10) = [48 + t mod 10]). { unfold print_int. replace (t mod 10 <? 0) with false by lia. cbn [digits]. rewrite Z.mod_mod by lia. now replace (t mod 10 <? 10) with true by lia. }
  assert (L : len (print_tenths t ++ [c]) <= 7).
  { unfold print_tenths. rewrite E. rewrite !len_app, !len_cons. pose proof (print_len (t / 10) 4 ltac:(cbn; lia) ltac:(lia)) as L. unfold len in *. cbn [length] in *. lia. }
  rewrite firstn_short by exact L. split; [exact L|]. exists t. split; [|exact B].
  unfold print_tenths. rewrite E, <- app_assoc. cbn [app]. replace t with (10 * (t / 10) + t mod 10) at 3 by lia.
  apply stands_unit; [apply print_int_spec; lia|lia|exact U].
Qed.
Lemma human_ok n target : - 10 ^ 6 < n < 10 ^ 15 -> len (human_format n target) <= 7 /\ exists v, stands (human_format n target) v /\ near n v.
Proof.
  intros Hn. unfold human_format. destruct (n <? 1000) eqn:E1.
  - assert (L : len (print_int n) <= 7).
    { destruct (Z_lt_le_dec n 0); [|pose proof (print_len n 3 ltac:(cbn; lia) ltac:(lia)); lia].
      unfold print_int. replace (n <? 0) with true by lia. pose proof (digits_len 20 (- n) [] 6 ltac:(cbn; lia) ltac:(lia)). rewrite len_cons. unfold len in *. cbn [length] in *. lia. }
    rewrite firstn_short by exact L. split; [exact L|]. exists (10 * n). split; [apply stands_int, print_int_spec; lia|]. split; [auto|]. unfold unit_letter. intros. lia.
  - assert (G : forall D c, unit_letter D c -> D <= n < 1000 * D -> len (human_scaled n D c) <= 7 /\ exists v, stands (human_scaled n D c) v /\ near n v).
    { intros D c U H. destruct (scaled_ok n D c U H) as (L & t & S & B). split; [exact L|]. exists (t * D). split; [exact S|]. split; [lia|].
      intros D' c' U' H'. assert (D' = D) as -> by (unfold unit_letter in U, U'; lia). split; [now exists t|exact B]. }
    destruct (n <? 1000000) eqn:E2; [apply G; unfold unit_letter; lia|]. destruct (n <? 1000000000) eqn:E3; [apply G; unfold unit_letter; lia|].
    destruct (n <? 1000000000000) eqn:E4; [apply G; unfold unit_letter; lia|]. destruct (n <? 1000000000000000) eqn:E5; [apply G; unfold unit_letter; lia|]. lia.
Qed.
Lemma near_mono m n v w : 0 <= m <= n -> n < 10 ^ 15 -> near m v -> near n w -> m = n \/ v <= w.
Proof.
  intros H1 H2 [A1 A2] [B1 B2]. destruct (Z.eq_dec m n) as [->|Hmn]; [auto|right].
  pose proof (A2 (10 ^ 3) 107 ltac:(unfold unit_letter; lia)). pose proof (A2 (10 ^ 6) 109 ltac:(unfold unit_letter; lia)). pose proof (A2 (10 ^ 9) 103 ltac:(unfold unit_letter; lia)). pose proof (A2 (10 ^ 12) 116 ltac:(unfold unit_letter; lia)).
  pose proof (B2 (10 ^ 3) 107 ltac:(unfold unit_letter; lia)). pose proof (B2 (10 ^ 6) 109 ltac:(unfold unit_letter; lia)). pose proof (B2 (10 ^ 9) 103 ltac:(unfold unit_letter; lia)). pose proof (B2 (10 ^ 12) 116 ltac:(unfold unit_letter; lia)).
  clear A2 B2.
  assert (D : forall D x, (D | x) -> exists k, x = k * D) by (intros ? ? (k & ->); now exists k).
  assert (C1 : m < 1000 \/ 10 ^ 3 <= m < 10 ^ 6 \/ 10 ^ 6 <= m < 10 ^ 9 \/ 10 ^ 9 <= m < 10 ^ 12 \/ 10 ^ 12 <= m < 10 ^ 15) by lia.
  assert (C2 : n < 1000 \/ 10 ^ 3 <= n < 10 ^ 6 \/ 10 ^ 6 <= n < 10 ^ 9 \/ 10 ^ 9 <= n < 10 ^ 12 \/ 10 ^ 12 <= n < 10 ^ 15) by lia.
  destruct C1 as [C1|[C1|[C1|[C1|C1]]]]; destruct C2 as [C2|[C2|[C2|[C2|C2]]]]; try lia;
  repeat match goal with H : ?a <= ?x < ?b -> _ |- _ => first [assert (HH : a <= x < b) by lia; specialize (H HH); clear HH; destruct H as [(? & ->) H]|clear H] end; lia.
Qed.
Lemma human_order m n target : 0 <= m <= n -> n < 10 ^ 15 -> exists v w, stands (human_format m target) v /\ stands (human_format n target) w /\ v <= w.
Proof.
  intros H1 H2. destruct (human_ok m target ltac:(lia)) as (_ & v & S1 & N1). destruct (human_ok n target ltac:(lia)) as (_ & w & S2 & N2).
  destruct (near_mono m n v w H1 H2 N1 N2) as [->|L]; [exists v, v|exists v, w]; (split; [auto|split; [auto|lia]]).
Qed.
Lemma human_large n target : 10 ^ 15 <= n -> human_format n target = target.
Proof.
  intros H. unfold human_format. replace (n <? 1000) with false by lia. replace (n <? 1000000) with false by lia. replace (n <? 1000000000) with false by lia.
  replace (n <? 1000000000000) with false by lia. now replace (n <? 1000000000000000) with false by lia.
Qed.
