(** Proofs about ZZp.v. *)
From Verif Require Import Base BaseFacts Spec SpecFacts Zp ZpFacts ZZp.
From Flocq Require Import Core Relative BinarySingleNaN.
From Coq Require Import Reals Lra Znumtheory.
Open Scope Z_scope.

#[local] Ltac zlia := intros; Z.div_mod_to_equations; lia.

Lemma balanced_i32 p r : ok_modulus p -> balanced p r -> to_i32 r = r.
Proof.
  unfold ok_modulus, balanced, to_i32. intros Hp Hr.
  rewrite Z.mod_small by zlia. zlia.
Qed.

Definition wf_field (F : field) : Prop :=
  ok_modulus (fp F) /\ fhalfp F = fp F / 2 /\ fmhalfp F = fp F / 2 - fp F + 1 /\
  fdinvp F = d_div (d_of_int 1) (d_of_int (fp F)).

Lemma field_init_ok p : ok_modulus p -> sat (field_init p) (fun F => fp F = p /\ wf_field F).
Proof.
  unfold ok_modulus, field_init. intros Hp. wp; try zlia.
  unfold wf_field, ok_modulus; cbn [fp fhalfp fmhalfp fdinvp].
  rewrite Z.quot_div_nonneg by zlia. intuition zlia.
Qed.

Lemma NORMALISE_ok F x : wf_field F ->
  fp F / 2 - 2 * fp F + 1 <= x <= fp F / 2 + fp F ->
  sat (NORMALISE F x) (canon (fp F) x).
Proof.
  intros (Hp & Hh & Hm & _) Hx. unfold NORMALISE, canon. rewrite Hh, Hm.
  pose proof Hp as Hp'. unfold ok_modulus in Hp'.
  unfold i64. wp; try zlia.
  - rewrite (balanced_i32 (fp F)) by (auto; unfold balanced; zlia).
    split; [unfold balanced; zlia | exists 1; zlia].
  - rewrite (balanced_i32 (fp F)) by (auto; unfold balanced; zlia).
    split; [unfold balanced; zlia | exists (-1); zlia].
  - rewrite (balanced_i32 (fp F)) by (auto; unfold balanced; zlia).
    split; [unfold balanced; zlia | reflexivity].
Qed.

Theorem ZZp_init_ok F x : wf_field F -> sat (ZZp_init F x) (canon (fp F) x).
Proof.
  intros HF. pose proof HF as (Hp & _). unfold ok_modulus in Hp. unfold ZZp_init.
  assert (cong (fp F) (Z.rem x (fp F)) x).
  { exists (- Z.quot x (fp F)). pose proof (Z.quot_rem' x (fp F)). zlia. }
  pose proof (Z.rem_bound_abs x (fp F) ltac:(zlia)).
  eapply sat_mono. { apply NORMALISE_ok; auto. zlia. }
  intros r [Hr Hc]. split; auto. now rewrite Hc.
Qed.

Theorem ZZp_add_ok F a b : wf_field F -> balanced (fp F) a -> balanced (fp F) b ->
  sat (ZZp_add F a b) (canon (fp F) (a + b)).
Proof.
  intros HF Ha Hb. pose proof HF as (Hp & _). unfold ok_modulus, balanced in *.
  unfold ZZp_add, i64. wp; try zlia. apply NORMALISE_ok; auto. zlia.
Qed.
Theorem ZZp_sub_ok F a b : wf_field F -> balanced (fp F) a -> balanced (fp F) b ->
  sat (ZZp_sub F a b) (canon (fp F) (a - b)).
Proof.
  intros HF Ha Hb. pose proof HF as (Hp & _). unfold ok_modulus, balanced in *.
  unfold ZZp_sub, i64. wp; try zlia. apply NORMALISE_ok; auto. zlia.
Qed.

(** ** Inverse *)

Theorem ZZp_inverse_ok F a : wf_field F -> prime (fp F) -> balanced (fp F) a ->
  ~ cong (fp F) a 0 ->
  sat (ZZp_inverse F a) (fun b => balanced (fp F) b /\ cong (fp F) (a * b) 1).
Proof.
  intros HF Hprime Ha Hnz. pose proof HF as (Hp & _).
  unfold ZZp_inverse. set (aa := if a <? 0 then a + fp F else a).
  assert (Haa : 0 < aa < fp F).
  { unfold balanced, ok_modulus in *. destruct (Z.eqb_spec a 0) as [->|].
    - destruct Hnz. reflexivity.
    - subst aa. destruct (Z.ltb_spec a 0); zlia. }
  assert (Hc : cong (fp F) aa a).
  { subst aa. destruct (a <? 0); [exists 1; lia | reflexivity]. }
  apply sat_bind. eapply sat_mono.
  - apply gcdext_ok; auto.
    + apply Zgcd_1_rel_prime. apply rel_prime_sym, prime_rel_prime; auto.
      intros [k Hk]. destruct (Z_le_gt_dec k 0); nia.
    + lia.
  - cbv beta. intros t [Ht1 Ht2]. eapply sat_mono.
    + apply NORMALISE_ok; auto. unfold ok_modulus in Hp. zlia.
    + intros b [Hb1 Hb2]. split; auto. rewrite Hb2, <- Hc, Z.mul_comm. exact Ht1.
Qed.
