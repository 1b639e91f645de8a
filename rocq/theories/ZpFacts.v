(** Facts about the exact operations of Zp.v. *)
From Verif Require Import Base BaseFacts Spec SpecFacts Zp.
From Coq Require Import Znumtheory.

#[local] Ltac zlia := intros; Z.div_mod_to_equations; lia.

(** ** Inverse *)

Lemma gcdext_ok a p fuel : 2 <= p <= 4294967291 -> 0 < a < p -> Z.gcd a p = 1 ->
  a + 1 < Z.of_nat fuel ->
  sat (gcdext fuel a p) (fun t => cong p (t * a) 1 /\ - p <= t <= p).
Proof.
  intros Hp Ha Hg Hf. unfold gcdext. wp. { lia. }
  apply (loop_spec
    (fun '(t, u, r, s) =>
       0 <= s < r /\ r <= p /\ Z.gcd r s = 1 /\ cong p (t * a) r /\ cong p (u * a) s /\
       - p <= t <= p /\
       exists sg, (sg = 1 \/ sg = -1) /\ 0 <= sg * u /\ 0 <= - sg * t /\
         (sg * u) * r + (- sg * t) * s = p)
    (fun '(t, u, r, s) => s)).
  - intros [[[t u] r] s] (Hs & Hr & Hgcd & Hc1 & Hc2 & Ht2 & sg & Hsg & Hu & Ht & Hb).
    destruct (Z.eqb_spec s 0) as [->|Hs0].
    + wp. rewrite Z.gcd_0_r in Hgcd. rewrite Z.abs_eq in Hgcd by lia. subst r.
      split; auto.
    + rewrite Z.quot_div_nonneg by lia.
      pose proof (Z.div_mod r s ltac:(lia)) as Hdm.
      pose proof (Z.mod_pos_bound r s ltac:(lia)) as Hmb.
      set (q := r / s) in *. set (r' := r mod s) in *.
      assert (1 <= q) by (apply Z.div_le_lower_bound; lia).
      assert (Hqp : q <= p) by nia.
      assert (Hub : - p <= u <= p) by (destruct Hsg; subst sg; nia).
      assert (Hqu : - p <= q * u <= p).
      { assert (0 <= sg * u * (s * q) <= p) by (destruct Hsg; subst sg; nia).
        destruct Hsg; subst sg; nia. }
      assert (Hqs : 0 <= q * s <= p) by nia.
      unfold i64. wp; try lia.
      replace (r - q * s) with r' by lia.
      repeat split; try lia.
      * unfold r'. rewrite Z.gcd_comm, Z.gcd_mod, Z.gcd_comm by lia.
        rewrite Z.gcd_comm. rewrite Z.gcd_comm in Hgcd. exact Hgcd.
      * exact Hc2.
      * replace ((t - q * u) * a) with (t * a - q * (u * a)) by ring.
        rewrite Hc1, Hc2. apply cong_eq. lia.
      * exists (- sg). split; [lia|]. split; [|split; [lia|]].
        -- destruct Hsg; subst sg; nia.
        -- replace (- sg * (t - q * u) * s + - - sg * u * r')
             with (sg * u * (s * q + r') + - sg * t * s) by ring.
           rewrite <- Hdm. exact Hb.
  - repeat split; try lia.
    + rewrite Z.gcd_comm. exact Hg.
    + exists (-1). lia.
    + exists 0. lia.
    + exists 1. lia.
  - lia.
Qed.


Section ops.
Context (p : Z) (Hp : 2 <= p).
Lemma zinit_cong x : cong p (zinit p x) x.
Proof. now apply bal_cong. Qed.
Lemma zadd_cong a b : cong p (zadd p a b) (a + b).
Proof. now apply bal_cong. Qed.
Lemma zsub_cong a b : cong p (zsub p a b) (a - b).
Proof. now apply bal_cong. Qed.
Lemma zmul_cong a b : cong p (zmul p a b) (a * b).
Proof. now apply bal_cong. Qed.
Lemma zaxpy_cong a x y : cong p (zaxpy p a x y) (a * x + y).
Proof. now apply bal_cong. Qed.
Lemma zaxpy_balanced a x y : balanced p (zaxpy p a x y).
Proof. now apply bal_balanced. Qed.
Lemma zmul_balanced a b : balanced p (zmul p a b).
Proof. now apply bal_balanced. Qed.
Lemma zadd_balanced a b : balanced p (zadd p a b).
Proof. now apply bal_balanced. Qed.
Lemma zsub_balanced a b : balanced p (zsub p a b).
Proof. now apply bal_balanced. Qed.
Lemma zinit_balanced a : balanced p (zinit p a).
Proof. now apply bal_balanced. Qed.
End ops.

Lemma zinv_ok p a : ok_modulus p -> prime p -> - p < a < p -> ~ cong p a 0 ->
  balanced p (zinv p a) /\ cong p (a * zinv p a) 1.
Proof.
  intros Hp Hprime Ha Hnz. unfold zinv.
  set (aa := if a <? 0 then a + p else a).
  assert (Haa : 0 < aa < p).
  { unfold ok_modulus in *. destruct (Z.eqb_spec a 0) as [->|].
    - destruct Hnz. reflexivity.
    - subst aa. destruct (Z.ltb_spec a 0); lia. }
  assert (Hc : cong p aa a).
  { subst aa. destruct (a <? 0); [exists 1; lia | reflexivity]. }
  assert (H : sat (gcdext (S (S (Z.to_nat aa))) aa p) (fun t => cong p (t * aa) 1 /\ - p <= t <= p)).
  { apply gcdext_ok; auto.
    - apply Zgcd_1_rel_prime. apply rel_prime_sym, prime_rel_prime; auto.
      intros [k Hk]. destruct (Z_le_gt_dec k 0); nia.
    - lia. }
  apply sat_Ok in H. destruct H as (t & -> & Ht & _). unfold ok_modulus in Hp. split.
  - apply bal_balanced; lia.
  - rewrite (bal_cong p t) by lia. rewrite <- Hc, Z.mul_comm. exact Ht.
Qed.
