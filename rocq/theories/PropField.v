(** C01-C05: arithmetic modulo p. *)
From Verif Require Import Base BaseFacts Spec SpecFacts Zp ZpFacts ZZp ZZpFacts ZZpFloat.
From Coq Require Import Znumtheory.

(** The unique balanced representative exists: [canon p z] determines its argument. *)
Theorem C01_canonical_unique p z a b : 2 <= p -> canon p z a -> canon p z b -> a = b.
Proof. exact (canon_unique p z a b). Qed.
Print Assumptions C01_canonical_unique.

(** C01: the field initialises for every supported modulus and reduces every x. *)
Theorem C01_init_canonical p x : ok_modulus p ->
  exists F r, field_init p = Ok F /\ ZZp_init F x = Ok r /\ canon p x r /\ -2^31 <= r < 2^31.
Proof. exact (field_then_init p x). Qed.
Print Assumptions C01_init_canonical.

(** C02 *)
Theorem C02_add_exact p a b : ok_modulus p -> balanced p a -> balanced p b ->
  exists F r, field_init p = Ok F /\ ZZp_add F a b = Ok r /\ canon p (a + b) r.
Proof. exact (field_then_add p a b). Qed.
Print Assumptions C02_add_exact.
Theorem C02_sub_exact p a b : ok_modulus p -> balanced p a -> balanced p b ->
  exists F r, field_init p = Ok F /\ ZZp_sub F a b = Ok r /\ canon p (a - b) r.
Proof. exact (field_then_sub p a b). Qed.
Print Assumptions C02_sub_exact.

(** C03: operands need only be 32-bit integers not larger than p in absolute value. *)
Theorem C03_mul_exact p a b : ok_modulus p ->
  Z.abs a <= p /\ -2^31 <= a < 2^31 -> Z.abs b <= p /\ -2^31 <= b < 2^31 ->
  exists F r, field_init p = Ok F /\ ZZp_mul F a b = Ok r /\ canon p (a * b) r.
Proof. exact (field_then_mul p a b). Qed.
Print Assumptions C03_mul_exact.

(** C04: with or without fused multiply-add. *)
Theorem C04_axpy_exact contract p a x y : ok_modulus p ->
  Z.abs a <= p /\ -2^31 <= a < 2^31 -> Z.abs x <= p /\ -2^31 <= x < 2^31 ->
  Z.abs y <= p /\ -2^31 <= y < 2^31 ->
  exists F r, field_init p = Ok F /\ ZZp_axpy contract F a x y = Ok r /\ canon p (a * x + y) r.
Proof. exact (field_then_axpy contract p a x y). Qed.
Print Assumptions C04_axpy_exact.

(* more than C04 asks for: a and y may be any integers of 32 bits, not reduced modulo p *)
Theorem C04_axpy_any contract p a x y : ok_modulus p ->
  -2^31 <= a < 2^31 -> Z.abs x <= p /\ -2^31 <= x < 2^31 -> -2^31 <= y < 2^31 ->
  exists F r, field_init p = Ok F /\ ZZp_axpy contract F a x y = Ok r /\ canon p (a * x + y) r.
Proof. exact (field_then_axpy_any contract p a x y). Qed.
Print Assumptions C04_axpy_any.

(** C05 *)
Theorem C05_inverse_exact p a : ok_modulus p -> prime p -> balanced p a -> ~ cong p a 0 ->
  exists F b, field_init p = Ok F /\ ZZp_inverse F a = Ok b /\
    balanced p b /\ cong p (a * b) 1.
Proof. exact (field_then_inverse p a). Qed.
Print Assumptions C05_inverse_exact.

(** The exact operations used by the rest of the model are what the C code computes. *)
Theorem C04_model_axpy c F a x y : wf_field F -> operand (fp F) a -> operand (fp F) x ->
  operand (fp F) y -> ZZp_axpy c F a x y = Ok (zaxpy (fp F) a x y).
Proof. exact (bridge_axpy c F a x y). Qed.
Theorem C04_model_axpy_any c F a x y : wf_field F -> -2^31 <= a < 2^31 -> operand (fp F) x ->
  -2^31 <= y < 2^31 -> ZZp_axpy c F a x y = Ok (zaxpy (fp F) a x y).
Proof. exact (bridge_axpy_any c F a x y). Qed.
Theorem C03_model_mul F a b : wf_field F -> operand (fp F) a -> operand (fp F) b ->
  ZZp_mul F a b = Ok (zmul (fp F) a b).
Proof. exact (bridge_mul F a b). Qed.
Theorem C05_model_inverse F a : wf_field F -> prime (fp F) -> balanced (fp F) a ->
  ~ cong (fp F) a 0 -> ZZp_inverse F a = Ok (zinv (fp F) a).
Proof. exact (bridge_inverse F a). Qed.

(** Non-vacuity: the largest modulus with extreme operands. *)
Example C03_example :
  (F <- field_init 4294967291 ;; ZZp_mul F 2147483645 (-2147483645)) = Ok (-1073741823).
Proof. vm_compute. reflexivity. Qed.
Example C03_example_hyps : ok_modulus 4294967291 /\
  (Z.abs 2147483645 <= 4294967291 /\ -2^31 <= 2147483645 < 2^31) /\
  (Z.abs (-2147483645) <= 4294967291 /\ -2^31 <= -2147483645 < 2^31).
Proof. unfold ok_modulus. lia. Qed.
Example C04_example :
  (F <- field_init 4294967291 ;; ZZp_axpy true F 2147483645 2147483645 2147483645)
  = (F <- field_init 4294967291 ;; ZZp_axpy false F 2147483645 2147483645 2147483645).
Proof. vm_compute. reflexivity. Qed.
(* the smallest field, with extreme operands that are not reduced *)
Example C04_example_any :
  (F <- field_init 3 ;; ZZp_axpy true F (-2147483648) 3 2147483647) = Ok 1 /\
  (F <- field_init 3 ;; ZZp_axpy false F (-2147483648) (-2) 2147483647) = Ok (-1).
Proof. vm_compute. split; reflexivity. Qed.
Example C05_example : (F <- field_init 42013 ;; ZZp_inverse F (-20000)) = Ok 10665.
Proof. vm_compute. reflexivity. Qed.
Example C01_example : (F <- field_init 2 ;; ZZp_init F (-3)) = Ok 1.
Proof. vm_compute. reflexivity. Qed.
(* p = 42013 is prime, -20000 is balanced and not divisible *)
Example C05_hyps : balanced 7 (-3) /\ ~ cong 7 (-3) 0 /\ prime 7.
Proof.
  split; [unfold balanced; change (7 / 2) with 3; lia|]. split. { intros [k H]. lia. }
  apply prime_intro. lia. intros n Hn.
  assert (n = 1 \/ n = 2 \/ n = 3 \/ n = 4 \/ n = 5 \/ n = 6) as H by lia.
  repeat destruct H as [->|H]; try (subst n); apply Zgcd_1_rel_prime; reflexivity.
Qed.
