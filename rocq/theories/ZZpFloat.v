(** Proofs about the floating-point quotients of ZZp.v (uses Flocq, hence the
    real numbers of the standard library). *)
From Verif Require Import Base BaseFacts Spec SpecFacts Zp ZpFacts ZZp ZZpFacts.
From Flocq Require Import Core Relative BinarySingleNaN.
From Coq Require Import Reals Lra.

Definition rnd (x : R) : R := round radix2 (FLT_exp (-1074) 53) ZnearestE x.
Definition u : R := / 9007199254740992.        (* 2^-53 *)
Definition eta : R := / 1267650600228229401496703205376. (* 2^-100, a generous bound *)

Open Scope R_scope.

Lemma u_eq : / 2 * bpow radix2 (- (53) + 1) = u.
Proof. unfold u. simpl. lra. Qed.

Lemma eta_ge : / 2 * bpow radix2 (-1074) <= eta.
Proof.
  apply Rle_trans with (bpow radix2 (-100)).
  - apply Rle_trans with (bpow radix2 (-1074)).
    + pose proof (bpow_gt_0 radix2 (-1074)). lra.
    + apply bpow_le; lia.
  - unfold eta. simpl. lra.
Qed.

Lemma rnd_err x : exists e h, Rabs e <= u /\ Rabs h <= eta /\ rnd x = x * (1 + e) + h.
Proof.
  destruct (error_N_FLT radix2 (-1074) 53 eq_refl (fun n => negb (Z.even n)) x)
    as (e & h & He & Hh & _ & E).
  exists e, h. rewrite u_eq in He. pose proof eta_ge. split; [exact He|split; [lra|exact E]].
Qed.

Lemma rnd_rel x : bpow radix2 (-1022) <= Rabs x -> exists e, Rabs e <= u /\ rnd x = x * (1 + e).
Proof.
  intros Hx. destruct (relative_error_N_FLT_ex radix2 (-1074) 53 eq_refl
                         (fun n => negb (Z.even n)) x Hx) as (e & He & E).
  exists e. rewrite u_eq in He. split; auto.
Qed.

Definition big : R := 1180591620717411303424. (* 2^70 *)

Lemma rnd_bound x : Rabs x <= big -> Rabs (rnd x) < bpow radix2 1024.
Proof.
  intros Hx. destruct (rnd_err x) as (e & h & He & Hh & ->).
  apply Rle_lt_trans with (bpow radix2 72).
  2: apply bpow_lt; lia.
  eapply Rle_trans. { apply Rabs_triang. }
  rewrite Rabs_mult.
  assert (Rabs (1 + e) <= 2).
  { eapply Rle_trans. apply Rabs_triang. rewrite Rabs_R1. unfold u in He. lra. }
  assert (Rabs x * Rabs (1 + e) <= big * 2).
  { apply Rmult_le_compat; auto; apply Rabs_pos. }
  unfold big, eta in *. simpl. lra.
Qed.

(** Integers below 2^53 are exact. *)
Lemma format_int x : (Z.abs x < 2 ^ 53)%Z -> generic_format radix2 (FLT_exp (-1074) 53) (IZR x).
Proof.
  intros Hx. apply generic_format_FLT. exists (Float radix2 x 0).
  - unfold F2R; simpl. lra.
  - exact Hx.
  - simpl. lia.
Qed.

Lemma abs_IZR_le x k : (Z.abs x <= k)%Z -> Rabs (IZR x) <= IZR k.
Proof. intros H. rewrite <- abs_IZR. now apply IZR_le. Qed.

Lemma d_of_int_ok x : (Z.abs x < 2 ^ 53)%Z ->
  B2R (d_of_int x) = IZR x /\ is_finite (d_of_int x) = true.
Proof.
  intros Hx. pose proof (binary_normalize_correct 53 1024 Hprec Hemax mode_NE x 0 false) as H.
  assert (E : F2R (Float radix2 x 0) = IZR x) by (unfold F2R; simpl; lra).
  cbv zeta in H. rewrite E in H.
  change (SpecFloat.fexp 53 1024) with (FLT_exp (-1074) 53) in H.
  change (round_mode mode_NE) with ZnearestE in H.
  fold (rnd (IZR x)) in H.
  rewrite Rlt_bool_true in H.
  - destruct H as (H1 & H2 & _). split; [|exact H2].
    unfold d_of_int. rewrite H1. unfold rnd. apply round_generic.
    + typeclasses eauto.
    + now apply format_int.
  - apply rnd_bound. apply Rle_trans with (IZR (2 ^ 53)).
    + apply abs_IZR_le. lia.
    + unfold big. apply IZR_le. lia.
Qed.

Lemma d_mul_ok x y : is_finite x = true -> is_finite y = true ->
  Rabs (B2R x * B2R y) <= big ->
  B2R (d_mul x y) = rnd (B2R x * B2R y) /\ is_finite (d_mul x y) = true.
Proof.
  intros Fx Fy Hb. pose proof (Bmult_correct 53 1024 Hprec Hemax mode_NE x y) as H.
  change (SpecFloat.fexp 53 1024) with (FLT_exp (-1074) 53) in H.
  change (round_mode mode_NE) with ZnearestE in H.
  fold (rnd (B2R x * B2R y)) in H.
  rewrite Rlt_bool_true in H by now apply rnd_bound.
  destruct H as (H1 & H2 & _). rewrite Fx, Fy in H2. split; auto.
Qed.

Lemma d_add_ok x y : is_finite x = true -> is_finite y = true ->
  Rabs (B2R x + B2R y) <= big ->
  B2R (d_add x y) = rnd (B2R x + B2R y) /\ is_finite (d_add x y) = true.
Proof.
  intros Fx Fy Hb. pose proof (Bplus_correct 53 1024 Hprec Hemax mode_NE x y Fx Fy) as H.
  change (SpecFloat.fexp 53 1024) with (FLT_exp (-1074) 53) in H.
  change (round_mode mode_NE) with ZnearestE in H.
  fold (rnd (B2R x + B2R y)) in H.
  rewrite Rlt_bool_true in H by now apply rnd_bound.
  destruct H as (H1 & H2 & _). split; auto.
Qed.

Lemma d_fma_ok x y z : is_finite x = true -> is_finite y = true -> is_finite z = true ->
  Rabs (B2R x * B2R y + B2R z) <= big ->
  B2R (d_fma x y z) = rnd (B2R x * B2R y + B2R z) /\ is_finite (d_fma x y z) = true.
Proof.
  intros Fx Fy Fz Hb. pose proof (Bfma_correct 53 1024 Hprec Hemax mode_NE x y z Fx Fy Fz) as H.
  cbv zeta in H.
  change (SpecFloat.fexp 53 1024) with (FLT_exp (-1074) 53) in H.
  change (round_mode mode_NE) with ZnearestE in H.
  fold (rnd (B2R x * B2R y + B2R z)) in H.
  rewrite Rlt_bool_true in H by now apply rnd_bound.
  destruct H as (H1 & H2 & _). split; auto.
Qed.

Lemma d_div_ok x y : is_finite x = true -> B2R y <> 0 ->
  Rabs (B2R x / B2R y) <= big ->
  B2R (d_div x y) = rnd (B2R x / B2R y) /\ is_finite (d_div x y) = true.
Proof.
  intros Fx Fy Hb. pose proof (Bdiv_correct 53 1024 Hprec Hemax mode_NE x y Fy) as H.
  change (SpecFloat.fexp 53 1024) with (FLT_exp (-1074) 53) in H.
  change (round_mode mode_NE) with ZnearestE in H.
  fold (rnd (B2R x / B2R y)) in H.
  rewrite Rlt_bool_true in H by now apply rnd_bound.
  destruct H as (H1 & H2 & _). rewrite Fx in H2. split; auto.
Qed.

(** The precomputed inverse has relative error at most u. *)
Lemma dinvp_ok F : wf_field F ->
  exists e, Rabs e <= u /\ B2R (fdinvp F) = / IZR (fp F) * (1 + e) /\
            is_finite (fdinvp F) = true.
Proof.
  intros (Hp & _ & _ & ->). unfold ok_modulus in Hp.
  destruct (d_of_int_ok 1) as [E1 F1]. { lia. }
  destruct (d_of_int_ok (fp F)) as [Ep Fp]. { lia. }
  assert (Hp1 : 2 <= IZR (fp F)) by (apply IZR_le; lia).
  assert (Hp2 : IZR (fp F) <= 4294967296) by (apply IZR_le; lia).
  assert (Hi : / 4294967296 <= / IZR (fp F) <= / 2).
  { split; apply Rinv_le_contravar; lra. }
  destruct (d_div_ok (d_of_int 1) (d_of_int (fp F))) as [E Fi]; auto.
  - rewrite Ep. lra.
  - rewrite E1, Ep. unfold Rdiv. rewrite Rmult_1_l, Rabs_pos_eq by lra. unfold big. lra.
  - rewrite E1, Ep in E. unfold Rdiv in E. rewrite Rmult_1_l in E.
    destruct (rnd_rel (/ IZR (fp F))) as (e & He & Ee).
    + rewrite Rabs_pos_eq by lra. apply Rle_trans with (bpow radix2 (-32)).
      * apply bpow_le; lia.
      * simpl. lra.
    + exists e. rewrite E, Ee. auto.
Qed.

(** One floating-point operation: X approximates z. *)
Lemma step X z eps e h : Rabs (X - z) <= eps -> Rabs z <= 4294967297 -> eps <= 1 ->
  Rabs e <= u -> Rabs h <= eta ->
  Rabs (X * (1 + e) + h - z) <= eps + 4294967299 * u.
Proof.
  intros HX Hz Heps He Hh.
  assert (Rabs X <= 4294967298).
  { replace X with ((X - z) + z) by ring. eapply Rle_trans. apply Rabs_triang. lra. }
  replace (X * (1 + e) + h - z) with ((X - z) + (X * e + h)) by ring.
  eapply Rle_trans. apply Rabs_triang.
  assert (Rabs (X * e + h) <= 4294967299 * u); [|lra].
  eapply Rle_trans. apply Rabs_triang. rewrite Rabs_mult.
  assert (Rabs X * Rabs e <= 4294967298 * u).
  { apply Rmult_le_compat; auto; apply Rabs_pos. }
  unfold u, eta in *. lra.
Qed.

Lemma Btrunc_near (d : ZZp.double) : is_finite d = true ->
  Rabs (IZR (Btrunc d) - B2R d) < 1.
Proof.
  intros Fd. pose proof (Btrunc_correct 53 1024 Hemax d) as H.
  assert (E : Btrunc d = Ztrunc (B2R d)).
  { apply eq_IZR. rewrite H. unfold round, F2R, scaled_mantissa, cexp, FIX_exp; simpl.
    now rewrite !Rmult_1_r. }
  rewrite E. unfold Ztrunc. destruct (Rlt_bool_spec (B2R d) 0).
  - pose proof (Zceil_ub (B2R d)). pose proof (Zceil_lb (B2R d)).
    apply Rabs_def1; lra.
  - pose proof (Zfloor_ub (B2R d)). pose proof (Zfloor_lb (B2R d)).
    apply Rabs_def1; lra.
Qed.

Lemma i64_ok x : (- 2 ^ 63 <= x < 2 ^ 63)%Z -> i64 x = Ok x.
Proof. intros H. unfold i64. now replace ((- 2 ^ 63 <=? x) && (x <? 2 ^ 63))%Z%bool with true by lia. Qed.

(** From an approximation of S/p to a correct reduction. *)
Lemma quotient_ok F S (d : ZZp.double) : wf_field F -> (Z.abs S <= 2 ^ 62 + 2 ^ 32)%Z ->
  is_finite d = true -> Rabs (B2R d - IZR S * / IZR (fp F)) <= / 262144 ->
  sat (q <- d_to_i64 d ;; qp <- i64 (q * fp F) ;; v <- i64 (S - qp) ;; NORMALISE F v)
      (canon (fp F) S).
Proof.
  intros HF HS Fd Hd. pose proof HF as (Hp & _). unfold ok_modulus in Hp.
  pose proof (Btrunc_near d Fd) as Hq. set (q := Btrunc d) in *.
  assert (Hp1 : 2 <= IZR (fp F)) by (apply IZR_le; lia).
  assert (Hz : Rabs (IZR q - IZR S * / IZR (fp F)) < 1 + / 262144).
  { replace (IZR q - IZR S * / IZR (fp F))
      with ((IZR q - B2R d) + (B2R d - IZR S * / IZR (fp F))) by ring.
    eapply Rle_lt_trans. apply Rabs_triang. lra. }
  assert (HZ : (Z.abs (S - q * fp F) * 262144 < fp F * 262145)%Z).
  { apply lt_IZR. rewrite !mult_IZR, abs_IZR, minus_IZR, mult_IZR.
    replace (IZR S - IZR q * IZR (fp F))
      with (- (IZR q - IZR S * / IZR (fp F)) * IZR (fp F)) by (field; lra).
    rewrite Rabs_mult, Rabs_Ropp, (Rabs_pos_eq (IZR (fp F))) by lra.
    assert (Rabs (IZR q - IZR S * / IZR (fp F)) * IZR (fp F) < (1 + / 262144) * IZR (fp F)).
    { apply Rmult_lt_compat_r; lra. }
    lra. }
  clear Hq Hz Hp1 Hd.
  unfold d_to_i64. rewrite Fd. fold q.
  assert (Hqp : (Z.abs (q * fp F) <= 2 ^ 62 + 2 ^ 34)%Z) by lia.
  assert (Hq : (Z.abs q <= 2 ^ 62)%Z) by nia.
  rewrite (i64_ok q) by lia. cbn [bind].
  rewrite (i64_ok (q * fp F)) by lia. cbn [bind].
  rewrite (i64_ok (S - q * fp F)) by lia. cbn [bind].
  eapply sat_mono.
  - apply NORMALISE_ok; auto. Z.div_mod_to_equations. lia.
  - intros r [Hr Hc]. split; auto. rewrite Hc. exists (- q)%Z. lia.
Qed.

Definition operand (p a : Z) : Prop := (Z.abs a <= p /\ -2 ^ 31 <= a < 2 ^ 31)%Z.

Lemma balanced_operand p a : ok_modulus p -> balanced p a -> operand p a.
Proof. unfold ok_modulus, balanced, operand. intros. Z.div_mod_to_equations. lia. Qed.

(* an int *)
Definition any_int (a : Z) : Prop := (-2 ^ 31 <= a < 2 ^ 31)%Z.

Lemma prod_ok p a x : ok_modulus p -> any_int a -> operand p x ->
  (Z.abs (a * x) <= 2 ^ 62)%Z /\ (Z.abs (a * x) <= 2 ^ 31 * p)%Z.
Proof. unfold operand, any_int. intros Hp Ha Hx. rewrite Z.abs_mul. split; nia. Qed.

Lemma scaled p S : ok_modulus p -> (Z.abs S <= 2 ^ 32 * p + p)%Z ->
  Rabs (IZR S * / IZR p) <= 4294967297.
Proof.
  intros Hp HS. unfold ok_modulus in Hp.
  assert (Hp1 : 2 <= IZR p) by (apply IZR_le; lia).
  rewrite Rabs_mult, (Rabs_pos_eq (/ IZR p)).
  2:{ left. apply Rinv_0_lt_compat. lra. }
  apply Rle_trans with (IZR (4294967296 * p + p) * / IZR p).
  - apply Rmult_le_compat_r. { left. apply Rinv_0_lt_compat. lra. }
    rewrite <- abs_IZR. now apply IZR_le.
  - rewrite plus_IZR, mult_IZR. replace ((4294967296 * IZR p + IZR p) * / IZR p) with 4294967297
      by (field; lra).
    lra.
Qed.

Lemma inv_small p : ok_modulus p -> 0 <= / IZR p <= 1.
Proof.
  intros Hp. unfold ok_modulus in Hp.
  assert (Hp1 : 2 <= IZR p) by (apply IZR_le; lia).
  split. { left. apply Rinv_0_lt_compat. lra. }
  rewrite <- Rinv_1. apply Rinv_le_contravar; lra.
Qed.

Lemma scale_h h t : Rabs h <= eta -> 0 <= t <= 1 -> Rabs (h * t) <= eta.
Proof.
  intros Hh Ht. rewrite Rabs_mult, (Rabs_pos_eq t) by lra.
  replace eta with (eta * 1) by ring. apply Rmult_le_compat; try lra. apply Rabs_pos.
Qed.

Lemma abs0 : Rabs 0 <= eta.
Proof. rewrite Rabs_R0. unfold eta. lra. Qed.

Lemma step_bound X z eps : Rabs (X - z) <= eps -> Rabs z <= 4294967297 -> eps <= 1 ->
  Rabs X <= 4294967298.
Proof.
  intros HX Hz He. replace X with ((X - z) + z) by ring.
  eapply Rle_trans. apply Rabs_triang. lra.
Qed.

(* an approximation X of S with X * (1/p) close to S/p is small *)
Lemma unscale X p : ok_modulus p -> Rabs (X * / IZR p) <= 4294967298 ->
  Rabs X <= 18446744082299486208.
Proof.
  intros Hp H. unfold ok_modulus in Hp.
  assert (Hp1 : 2 <= IZR p) by (apply IZR_le; lia).
  assert (Hp2 : IZR p <= 4294967296) by (apply IZR_le; lia).
  replace X with ((X * / IZR p) * IZR p) by (field; lra).
  rewrite Rabs_mult, (Rabs_pos_eq (IZR p)) by lra.
  apply Rle_trans with (4294967298 * 4294967296).
  - apply Rmult_le_compat; try lra. apply Rabs_pos.
  - lra.
Qed.

(** last step: multiplication by the inverse *)
Lemma finish F S (s : ZZp.double) eps : wf_field F -> is_finite s = true ->
  (Z.abs S <= 2 ^ 32 * fp F + fp F)%Z -> eps <= / 1000000 ->
  Rabs (B2R s * / IZR (fp F) - IZR S * / IZR (fp F)) <= eps ->
  is_finite (d_mul s (fdinvp F)) = true /\
  Rabs (B2R (d_mul s (fdinvp F)) - IZR S * / IZR (fp F)) <= eps + 2 * (4294967299 * u).
Proof.
  intros HF Fs HS Heps Hs. pose proof HF as (Hp & _).
  destruct (dinvp_ok F HF) as (e2 & He2 & Ed & Fd).
  pose proof (scaled (fp F) S Hp HS) as Hz.
  pose proof (step _ _ eps e2 0 Hs Hz ltac:(lra) He2 abs0) as H1.
  rewrite Rplus_0_r in H1.
  assert (E : B2R s * / IZR (fp F) * (1 + e2) = B2R s * B2R (fdinvp F)) by (rewrite Ed; ring).
  rewrite E in H1.
  assert (Heps' : eps + 4294967299 * u <= 1) by (unfold u; lra).
  destruct (d_mul_ok s (fdinvp F) Fs Fd) as [Em Fm].
  { eapply Rle_trans. eapply step_bound; eauto. unfold big; lra. }
  split; auto. rewrite Em.
  destruct (rnd_err (B2R s * B2R (fdinvp F))) as (e3 & h3 & He3 & Hh3 & ->).
  pose proof (step _ _ _ e3 h3 H1 Hz Heps' He3 Hh3). lra.
Qed.

Theorem ZZp_mul_ok F a b : wf_field F -> operand (fp F) a -> operand (fp F) b ->
  sat (ZZp_mul F a b) (canon (fp F) (a * b)).
Proof.
  intros HF Ha Hb. pose proof HF as (Hp & _).
  destruct (prod_ok _ a b Hp (proj2 Ha) Hb) as [Hab1 Hab2].
  destruct (d_of_int_ok a) as [Ea Fa]. { unfold operand in Ha; lia. }
  destruct (d_of_int_ok b) as [Eb Fb]. { unfold operand in Hb; lia. }
  assert (HS : (Z.abs (a * b) <= 2 ^ 32 * fp F + fp F)%Z) by (unfold ok_modulus in Hp; lia).
  destruct (d_mul_ok (d_of_int a) (d_of_int b) Fa Fb) as [E1 F1].
  { rewrite Ea, Eb, <- mult_IZR. eapply Rle_trans. apply abs_IZR_le, Hab1.
    unfold big. apply IZR_le. lia. }
  rewrite Ea, Eb, <- mult_IZR in E1.
  destruct (rnd_err (IZR (a * b))) as (e & h & He & Hh & Er).
  set (s := d_mul (d_of_int a) (d_of_int b)) in *.
  destruct (finish F (a * b) s (4294967299 * u)) as [Fm Hm]; auto.
  - unfold u; lra.
  - rewrite E1, Er.
    replace ((IZR (a * b) * (1 + e) + h) * / IZR (fp F))
      with (IZR (a * b) * / IZR (fp F) * (1 + e) + h * / IZR (fp F)) by ring.
    eapply Rle_trans. apply (step _ _ 0); auto.
    + rewrite Rminus_diag_eq, Rabs_R0; auto; lra.
    + now apply scaled.
    + lra.
    + apply scale_h; auto. now apply inv_small.
    + lra.
  - pose proof (quotient_ok F (a * b) _ HF ltac:(lia) Fm) as HQ.
    specialize (HQ ltac:(eapply Rle_trans; [exact Hm|unfold u; lra])).
    unfold ZZp_mul. fold s. revert HQ.
    destruct (d_to_i64 (d_mul s (fdinvp F))) as [q|]; cbn [bind]; auto.
    rewrite (i64_ok (a * b)) by lia. cbn [bind]. auto.
Qed.

Theorem ZZp_axpy_any contract F a x y : wf_field F ->
  any_int a -> operand (fp F) x -> any_int y ->
  sat (ZZp_axpy contract F a x y) (canon (fp F) (a * x + y)).
Proof.
  intros HF Ha Hx Hy. pose proof HF as (Hp & _).
  destruct (prod_ok _ a x Hp Ha Hx) as [Hax1 Hax2].
  destruct (d_of_int_ok a) as [Ea Fa]. { unfold any_int in Ha; lia. }
  destruct (d_of_int_ok x) as [Ex Fx]. { unfold operand in Hx; lia. }
  destruct (d_of_int_ok y) as [Ey Fy]. { unfold any_int in Hy; lia. }
  set (S := (a * x + y)%Z).
  assert (HS : (Z.abs S <= 2 ^ 32 * fp F + fp F)%Z) by (unfold S, ok_modulus, any_int in *; lia).
  assert (HS62 : (Z.abs S <= 2 ^ 62 + 2 ^ 32)%Z) by (unfold S, any_int in *; lia).
  pose proof (scaled (fp F) S Hp HS) as Hz.
  pose proof (inv_small _ Hp) as Ht.
  assert (Hax : Rabs (IZR (a * x)) <= big).
  { eapply Rle_trans. apply abs_IZR_le, Hax1. unfold big. apply IZR_le. lia. }
  set (s := if contract then d_fma (d_of_int a) (d_of_int x) (d_of_int y)
            else d_add (d_mul (d_of_int a) (d_of_int x)) (d_of_int y)).
  assert (Hs : is_finite s = true /\
    Rabs (B2R s * / IZR (fp F) - IZR S * / IZR (fp F)) <= 2 * (4294967299 * u)).
  { destruct contract; subst s.
    - destruct (d_fma_ok (d_of_int a) (d_of_int x) (d_of_int y) Fa Fx Fy) as [Ef Ff].
      { rewrite Ea, Ex, Ey, <- mult_IZR, <- plus_IZR.
        eapply Rle_trans. apply abs_IZR_le, HS62. unfold big; apply IZR_le; lia. }
      split; auto. rewrite Ef, Ea, Ex, Ey, <- mult_IZR, <- plus_IZR. fold S.
      destruct (rnd_err (IZR S)) as (e & h & He & Hh & ->).
      replace ((IZR S * (1 + e) + h) * / IZR (fp F))
        with (IZR S * / IZR (fp F) * (1 + e) + h * / IZR (fp F)) by ring.
      eapply Rle_trans. apply (step _ _ 0); auto.
      + rewrite Rminus_diag_eq, Rabs_R0; auto; lra.
      + lra.
      + apply scale_h; auto.
      + unfold u; lra.
    - destruct (d_mul_ok (d_of_int a) (d_of_int x) Fa Fx) as [Em Fm].
      { rewrite Ea, Ex, <- mult_IZR. exact Hax. }
      rewrite Ea, Ex, <- mult_IZR in Em.
      destruct (rnd_err (IZR (a * x))) as (e & h & He & Hh & Er).
      rewrite Er in Em.
      (* r1/p + y/p approximates S/p *)
      assert (Hzax : Rabs (IZR (a * x) * / IZR (fp F)) <= 4294967297).
      { apply scaled; auto. unfold ok_modulus in Hp; lia. }
      assert (H1 : Rabs ((B2R (d_mul (d_of_int a) (d_of_int x)) + IZR y) * / IZR (fp F)
                         - IZR S * / IZR (fp F)) <= 4294967299 * u).
      { rewrite Em. unfold S. rewrite plus_IZR.
        replace ((IZR (a * x) * (1 + e) + h + IZR y) * / IZR (fp F)
                 - (IZR (a * x) + IZR y) * / IZR (fp F))
          with (IZR (a * x) * / IZR (fp F) * (1 + e) + h * / IZR (fp F)
                - IZR (a * x) * / IZR (fp F)) by ring.
        eapply Rle_trans. apply (step _ _ 0); auto.
        + rewrite Rminus_diag_eq, Rabs_R0; auto; lra.
        + lra.
        + apply scale_h; auto.
        + lra. }
      destruct (d_add_ok (d_mul (d_of_int a) (d_of_int x)) (d_of_int y) Fm Fy) as [Ead Fad].
      { rewrite Ey. eapply Rle_trans. apply (unscale _ (fp F)); auto.
        eapply step_bound; eauto. unfold u; lra. unfold big; lra. }
      split; auto. rewrite Ead, Ey.
      destruct (rnd_err (B2R (d_mul (d_of_int a) (d_of_int x)) + IZR y))
        as (e' & h' & He' & Hh' & ->).
      replace (((B2R (d_mul (d_of_int a) (d_of_int x)) + IZR y) * (1 + e') + h') * / IZR (fp F))
        with ((B2R (d_mul (d_of_int a) (d_of_int x)) + IZR y) * / IZR (fp F) * (1 + e')
              + h' * / IZR (fp F)) by ring.
      eapply Rle_trans. apply (step _ _ (4294967299 * u)); auto.
      + unfold u; lra.
      + apply scale_h; auto.
      + lra. }
  destruct Hs as [Fs Hs].
  destruct (finish F S s (2 * (4294967299 * u)) HF Fs HS ltac:(unfold u; lra) Hs) as [Fm Hm].
  pose proof (quotient_ok F S _ HF HS62 Fm) as HQ.
  specialize (HQ ltac:(eapply Rle_trans; [exact Hm|unfold u; lra])).
  unfold ZZp_axpy. fold s. revert HQ.
  destruct (d_to_i64 (d_mul s (fdinvp F))) as [q|]; cbn [bind]; auto.
  rewrite (i64_ok (a * x)) by lia. cbn [bind]. fold S.
  rewrite (i64_ok S) by lia. cbn [bind]. auto.
Qed.

Theorem ZZp_axpy_ok contract F a x y : wf_field F ->
  operand (fp F) a -> operand (fp F) x -> operand (fp F) y ->
  sat (ZZp_axpy contract F a x y) (canon (fp F) (a * x + y)).
Proof. intros HF [_ Ha] Hx [_ Hy]. now apply ZZp_axpy_any. Qed.

(** ** Statements starting from the initialisation of the field *)
From Coq Require Import Znumtheory.
Open Scope Z_scope.

Lemma field_elim p (P : field -> Prop) : ok_modulus p ->
  (forall F, fp F = p -> wf_field F -> P F) -> exists F, field_init p = Ok F /\ P F.
Proof.
  intros Hp H. pose proof (field_init_ok p Hp) as HF. apply sat_Ok in HF.
  destruct HF as (F & E & Hf & Hw). eauto.
Qed.

Lemma field_then_init p x : ok_modulus p ->
  exists F r, field_init p = Ok F /\ ZZp_init F x = Ok r /\ canon p x r /\ -2^31 <= r < 2^31.
Proof.
  intros Hp. destruct (field_elim p (fun F => exists r, ZZp_init F x = Ok r /\ canon p x r) Hp)
    as (F & E & r & Er & Hr).
  - intros F <- HF. apply sat_Ok. now apply ZZp_init_ok.
  - exists F, r. pose proof (balanced_operand p r Hp (proj1 Hr)) as [_ H].
    split; [exact E|]. split; [exact Er|]. split; [exact Hr | exact H].
Qed.
Lemma field_then_add p a b : ok_modulus p -> balanced p a -> balanced p b ->
  exists F r, field_init p = Ok F /\ ZZp_add F a b = Ok r /\ canon p (a + b) r.
Proof.
  intros Hp Ha Hb.
  destruct (field_elim p (fun F => exists r, ZZp_add F a b = Ok r /\ canon p (a + b) r) Hp)
    as (F & E & r & Er & Hr); eauto.
  intros F <- HF. apply sat_Ok. now apply ZZp_add_ok.
Qed.
Lemma field_then_sub p a b : ok_modulus p -> balanced p a -> balanced p b ->
  exists F r, field_init p = Ok F /\ ZZp_sub F a b = Ok r /\ canon p (a - b) r.
Proof.
  intros Hp Ha Hb.
  destruct (field_elim p (fun F => exists r, ZZp_sub F a b = Ok r /\ canon p (a - b) r) Hp)
    as (F & E & r & Er & Hr); eauto.
  intros F <- HF. apply sat_Ok. now apply ZZp_sub_ok.
Qed.
Lemma field_then_mul p a b : ok_modulus p -> operand p a -> operand p b ->
  exists F r, field_init p = Ok F /\ ZZp_mul F a b = Ok r /\ canon p (a * b) r.
Proof.
  intros Hp Ha Hb.
  destruct (field_elim p (fun F => exists r, ZZp_mul F a b = Ok r /\ canon p (a * b) r) Hp)
    as (F & E & r & Er & Hr); eauto.
  intros F <- HF. apply sat_Ok. now apply ZZp_mul_ok.
Qed.
Lemma field_then_axpy contract p a x y : ok_modulus p ->
  operand p a -> operand p x -> operand p y ->
  exists F r, field_init p = Ok F /\ ZZp_axpy contract F a x y = Ok r /\ canon p (a * x + y) r.
Proof.
  intros Hp Ha Hx Hy.
  destruct (field_elim p (fun F => exists r, ZZp_axpy contract F a x y = Ok r
                                             /\ canon p (a * x + y) r) Hp)
    as (F & E & r & Er & Hr); eauto.
  intros F <- HF. apply sat_Ok. now apply ZZp_axpy_ok.
Qed.
Lemma field_then_axpy_any contract p a x y : ok_modulus p ->
  any_int a -> operand p x -> any_int y ->
  exists F r, field_init p = Ok F /\ ZZp_axpy contract F a x y = Ok r /\ canon p (a * x + y) r.
Proof.
  intros Hp Ha Hx Hy.
  destruct (field_elim p (fun F => exists r, ZZp_axpy contract F a x y = Ok r
                                             /\ canon p (a * x + y) r) Hp)
    as (F & E & r & Er & Hr); eauto.
  intros F <- HF. apply sat_Ok. now apply ZZp_axpy_any.
Qed.
Lemma field_then_inverse p a : ok_modulus p -> prime p -> balanced p a -> ~ cong p a 0 ->
  exists F b, field_init p = Ok F /\ ZZp_inverse F a = Ok b /\
    balanced p b /\ cong p (a * b) 1.
Proof.
  intros Hp Hpr Ha Hn.
  destruct (field_elim p (fun F => exists b, ZZp_inverse F a = Ok b /\
    balanced p b /\ cong p (a * b) 1) Hp) as (F & E & r & Er & Hr); eauto.
  intros F <- HF. apply sat_Ok. now apply ZZp_inverse_ok.
Qed.

(** ** Bridge: the C functions compute the exact operations of Zp.v *)
Lemma bridge_axpy c F a x y : wf_field F -> operand (fp F) a -> operand (fp F) x ->
  operand (fp F) y -> ZZp_axpy c F a x y = Ok (zaxpy (fp F) a x y).
Proof.
  intros HF Ha Hx Hy. pose proof (ZZp_axpy_ok c F a x y HF Ha Hx Hy) as H.
  apply sat_Ok in H. destruct H as (r & -> & Hr). destruct HF as ([? ?] & _). f_equal. now apply canon_bal.
Qed.
Lemma bridge_axpy_any c F a x y : wf_field F -> any_int a -> operand (fp F) x ->
  any_int y -> ZZp_axpy c F a x y = Ok (zaxpy (fp F) a x y).
Proof.
  intros HF Ha Hx Hy. pose proof (ZZp_axpy_any c F a x y HF Ha Hx Hy) as H.
  apply sat_Ok in H. destruct H as (r & -> & Hr). destruct HF as ([? ?] & _). f_equal. now apply canon_bal.
Qed.
Lemma bridge_mul F a b : wf_field F -> operand (fp F) a -> operand (fp F) b ->
  ZZp_mul F a b = Ok (zmul (fp F) a b).
Proof.
  intros HF Ha Hb. pose proof (ZZp_mul_ok F a b HF Ha Hb) as H.
  apply sat_Ok in H. destruct H as (r & -> & Hr). destruct HF as ([? ?] & _). f_equal. now apply canon_bal.
Qed.
Lemma bridge_add F a b : wf_field F -> balanced (fp F) a -> balanced (fp F) b ->
  ZZp_add F a b = Ok (zadd (fp F) a b).
Proof.
  intros HF Ha Hb. pose proof (ZZp_add_ok F a b HF Ha Hb) as H.
  apply sat_Ok in H. destruct H as (r & -> & Hr). destruct HF as ([? ?] & _). f_equal. now apply canon_bal.
Qed.
Lemma bridge_sub F a b : wf_field F -> balanced (fp F) a -> balanced (fp F) b ->
  ZZp_sub F a b = Ok (zsub (fp F) a b).
Proof.
  intros HF Ha Hb. pose proof (ZZp_sub_ok F a b HF Ha Hb) as H.
  apply sat_Ok in H. destruct H as (r & -> & Hr). destruct HF as ([? ?] & _). f_equal. now apply canon_bal.
Qed.
Lemma bridge_init F x : wf_field F -> ZZp_init F x = Ok (zinit (fp F) x).
Proof.
  intros HF. pose proof (ZZp_init_ok F x HF) as H.
  apply sat_Ok in H. destruct H as (r & -> & Hr). destruct HF as ([? ?] & _). f_equal. now apply canon_bal.
Qed.
Lemma bridge_inverse F a : wf_field F -> prime (fp F) -> balanced (fp F) a -> ~ cong (fp F) a 0 ->
  ZZp_inverse F a = Ok (zinv (fp F) a).
Proof.
  intros HF Hpr Ha Hn. pose proof (ZZp_inverse_ok F a HF Hpr Ha Hn) as H.
  apply sat_Ok in H. destruct H as (r & -> & Hr & Hr'). pose proof HF as (Hp & _). f_equal.
  assert (- fp F < a < fp F).
  { unfold balanced, ok_modulus in *. Z.div_mod_to_equations. lia. }
  destruct (zinv_ok (fp F) a Hp Hpr H Hn) as [Hz Hz'].
  apply (balanced_unique (fp F)); auto. { apply Hp. }
  transitivity (r * (a * zinv (fp F) a)).
  { rewrite Hz'. apply cong_eq; lia. }
  replace (r * (a * zinv (fp F) a)) with (a * r * zinv (fp F) a) by ring.
  rewrite Hr'. apply cong_eq; lia.
Qed.
